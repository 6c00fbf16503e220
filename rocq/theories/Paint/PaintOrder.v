(* Tame boxes are painted in the order of CSS 2.2, appendix E. *)
From Coq Require Import List Arith ZArith Bool Permutation Lia.
From Verif Require Import Paint.PaintModel Paint.PaintSpec Paint.PaintProofs Paint.PaintOnce.
Import ListNotations.
Local Open Scope list_scope.

(* ---- Stable sorting -------------------------------------------------------- *)

Lemma insert_app_lo {A} (le : A -> A -> bool) x a b :
  (forall y, In y b -> le x y = true) -> insert le x (a ++ b) = insert le x a ++ b.
Proof.
  intros H. induction a as [|y a IH]; cbn.
  - destruct b as [|y b]; [reflexivity|]. cbn. rewrite H by (left; reflexivity). reflexivity.
  - destruct (le x y); [reflexivity|]. rewrite IH. reflexivity.
Qed.

Lemma insert_app_hi {A} (le : A -> A -> bool) x a b :
  (forall y, In y a -> le x y = false) -> insert le x (a ++ b) = a ++ insert le x b.
Proof.
  intros H. induction a as [|y a IH]; [reflexivity|]. cbn.
  rewrite H by (left; reflexivity). rewrite IH; [reflexivity|]. intros; apply H; right; assumption.
Qed.

Lemma sort_in {A} (le : A -> A -> bool) l x : In x (sort le l) <-> In x l.
Proof.
  split; apply Permutation_in; [|apply Permutation_sym]; apply sort_perm.
Qed.

Lemma sort_split {A} (le : A -> A -> bool) (p : A -> bool) l :
  (forall x y, In x l -> In y l -> p x = true -> p y = false -> le x y = true /\ le y x = false) ->
  sort le l = sort le (filter p l) ++ sort le (filter (fun x => negb (p x)) l).
Proof.
  induction l as [|x l IH]; intros H; [reflexivity|]. cbn [sort filter].
  rewrite IH by (intros; apply H; [right|right| |]; assumption).
  destruct (p x) eqn:E; cbn [negb sort].
  - apply insert_app_lo. intros y Hy. apply (proj1 (sort_in le (filter (fun x => negb (p x)) l) y)) in Hy.
    apply filter_In in Hy. destruct Hy as [Hy Py]. apply negb_true_iff in Py.
    apply H; [left; reflexivity | right; exact Hy | exact E | exact Py].
  - apply insert_app_hi. intros y Hy. apply (proj1 (sort_in le (filter p l) y)) in Hy.
    apply filter_In in Hy. destruct Hy as [Hy Py].
    apply (H y x); [right; exact Hy | left; reflexivity | exact Py | exact E].
Qed.

Lemma sort_id {A} (le : A -> A -> bool) l : (forall x y, In x l -> In y l -> le x y = true) -> sort le l = l.
Proof.
  induction l as [|x l IH]; intros H; [reflexivity|]. cbn [sort].
  rewrite IH by (intros; apply H; right; assumption).
  destruct l as [|y l]; [reflexivity|]. cbn. rewrite H; [reflexivity | left; reflexivity | right; left; reflexivity].
Qed.

Lemma insert_map {A B} (le : A -> A -> bool) (le' : B -> B -> bool) (f : A -> B) x l :
  (forall y, In y l -> le' (f x) (f y) = le x y) -> insert le' (f x) (map f l) = map f (insert le x l).
Proof.
  induction l as [|y l IH]; intros H; [reflexivity|]. cbn. rewrite H by (left; reflexivity).
  destruct (le x y); [reflexivity|]. cbn. rewrite IH; [reflexivity|]. intros; apply H; right; assumption.
Qed.

Lemma sort_map {A B} (le : A -> A -> bool) (le' : B -> B -> bool) (f : A -> B) l :
  (forall x y, In x l -> In y l -> le' (f x) (f y) = le x y) -> sort le' (map f l) = map f (sort le l).
Proof.
  induction l as [|x l IH]; intros H; [reflexivity|]. cbn.
  rewrite IH by (intros; apply H; right; assumption). apply insert_map.
  intros y Hy. apply (proj1 (sort_in le l y)) in Hy. apply H; [left; reflexivity | right; exact Hy].
Qed.

Lemma filter_filter {A} (p q : A -> bool) l : filter p (filter q l) = filter (fun x => q x && p x) l.
Proof. induction l as [|x l IH]; [reflexivity|]. cbn. destruct (q x); cbn; rewrite IH; reflexivity. Qed.

Lemma filter_same {A} (p q : A -> bool) l : (forall x, In x l -> p x = q x) -> filter p l = filter q l.
Proof. apply filter_ext_in. Qed.

(* Things of different ranks are in the order of their ranks. *)
Lemma sort_ranks {A} (le : A -> A -> bool) (r : A -> nat) n : forall l,
  (forall x, In x l -> r x < n) ->
  (forall x y, In x l -> In y l -> r x < r y -> le x y = true /\ le y x = false) ->
  sort le l = flat_map (fun i => sort le (filter (fun x => r x =? i) l)) (seq 0 n).
Proof.
  induction n as [|n IH]; intros l Hb Hl.
  - destruct l as [|x l]; [reflexivity|]. exfalso. specialize (Hb x (or_introl eq_refl)). lia.
  - rewrite (sort_split le (fun x => r x <? n)).
    2:{ intros x y Hx Hy Px Py. apply Nat.ltb_lt in Px. apply Nat.ltb_ge in Py. apply Hl; [exact Hx | exact Hy | lia]. }
    rewrite seq_S, flat_map_app. cbn [flat_map]. rewrite app_nil_r. f_equal.
    + rewrite (IH (filter (fun x => r x <? n) l)).
      * apply flat_map_ext_in. intros i Hi. apply in_seq in Hi. f_equal. rewrite filter_filter. apply filter_same.
        intros x _. destruct (Nat.eqb_spec (r x) i); [|rewrite andb_false_r; reflexivity].
        rewrite andb_true_r. apply Nat.ltb_lt. lia.
      * intros x Hx. apply filter_In in Hx. apply Nat.ltb_lt. exact (proj2 Hx).
      * intros x y Hx Hy. apply filter_In in Hx, Hy. apply Hl; [exact (proj1 Hx) | exact (proj1 Hy)].
    + f_equal. apply filter_same. intros x Hx. specialize (Hb x Hx).
      destruct (Nat.ltb_spec (r x) n), (Nat.eqb_spec (r x) (0 + n)); cbn; try reflexivity; lia.
Qed.

Lemma filter_rank {A} (r : A -> nat) k j l : Forall (fun x => r x = k) l ->
  filter (fun x => r x =? j) l = if k =? j then l else [].
Proof.
  intros H. induction H as [|x l Hx Hl IH]; [destruct (k =? j); reflexivity|]. cbn. rewrite Hx, IH.
  destruct (k =? j); reflexivity.
Qed.

(* ---- Layers ---------------------------------------------------------------- *)

Definition item := (layer * list mark)%type.
Definition level (l : item) : Z := fst (fst l).
Definition neg (l : item) : bool := (level l <? 0)%Z.
Definition pos_ (l : item) : bool := (0 <? level l)%Z.
Definition at_layer (y : layer) (l : item) : bool := (level l =? fst y)%Z && (snd (fst l) =? snd y).
Definition sel (y : layer) (ls : list item) : list mark := flat_map snd (filter (at_layer y) ls).
Definition valid (l : item) : Prop :=
  (level l <> 0%Z /\ snd (fst l) = 0) \/ (level l = 0%Z /\ (snd (fst l) = 0 \/ snd (fst l) = 2 \/ snd (fst l) = 3)).
Definition le_item (a b : item) : bool := before (fst a) (fst b).

Definition rank_item (l : item) : nat :=
  if neg l then 0 else if pos_ l then 4 else match snd (fst l) with 0 => 1 | 2 => 2 | _ => 3 end.

Lemma rank_le x y : valid x -> valid y -> rank_item x < rank_item y -> le_item x y = true /\ le_item y x = false.
Proof.
  unfold valid, rank_item, le_item, before, neg, pos_, level. destruct x as [[zx nx] ax], y as [[zy ny] ay]. cbn [fst snd].
  intros Vx Vy.
  destruct (Z.ltb_spec zx 0), (Z.ltb_spec 0 zx), (Z.ltb_spec zy 0), (Z.ltb_spec 0 zy); try lia; intros R;
    try (exfalso; destruct nx as [|[|[|?]]], ny as [|[|[|?]]]; cbn in R; lia);
    try (split; [apply orb_true_iff; left; apply Z.ltb_lt; lia
                | apply orb_false_iff; split; [apply Z.ltb_ge; lia | apply andb_false_iff; left; apply Z.eqb_neq; lia]]).
  assert (zx = 0%Z) by lia. assert (zy = 0%Z) by lia. subst zx zy. cbn in *.
  destruct Vx as [[? _]|[_ [->|[->| ->]]]]; try congruence;
    destruct Vy as [[? _]|[_ [->|[->| ->]]]]; try congruence; cbn in *; try lia; split; reflexivity.
Qed.

Lemma in_layers_split ls : Forall valid ls ->
  in_layers ls = flat_map snd (sort le_item (filter neg ls)) ++ sel blocks ls ++ sel lines ls ++ sel zero ls
                 ++ flat_map snd (sort le_item (filter pos_ ls)).
Proof.
  intros V. rewrite Forall_forall in V. unfold in_layers. change (fun a b : item => before (fst a) (fst b)) with le_item.
  rewrite (sort_ranks le_item rank_item 5).
  2:{ intros x _. unfold rank_item. destruct (neg x), (pos_ x); try lia. destruct (snd (fst x)) as [|[|[|?]]]; lia. }
  2:{ intros x y Hx Hy. apply rank_le; [exact (V x Hx) | exact (V y Hy)]. }
  cbn [seq flat_map]. rewrite app_nil_r, !flat_map_app.
  assert (E0 : filter (fun x => rank_item x =? 0) ls = filter neg ls).
  { apply filter_same. intros x _. unfold rank_item. destruct (neg x), (pos_ x); try reflexivity.
    destruct (snd (fst x)) as [|[|[|?]]]; reflexivity. }
  assert (E4 : filter (fun x => rank_item x =? 4) ls = filter pos_ ls).
  { apply filter_same. intros x _. unfold rank_item, neg, pos_.
    destruct (Z.ltb_spec (level x) 0), (Z.ltb_spec 0 (level x)); try reflexivity; try lia.
    destruct (snd (fst x)) as [|[|[|?]]]; reflexivity. }
  assert (EQ : forall i y, (i, y) = (1, blocks) \/ (i, y) = (2, lines) \/ (i, y) = (3, zero) ->
               filter (fun x => rank_item x =? i) ls = filter (at_layer y) ls).
  { intros i y Hy. apply filter_same. intros x Hx. specialize (V x Hx). unfold rank_item, neg, pos_, at_layer, valid in *.
    destruct x as [[z n] a]. unfold level in *. cbn [fst snd] in *.
    destruct (Z.ltb_spec z 0), (Z.ltb_spec 0 z); try lia;
      try (replace (z =? fst y)%Z with false by (symmetry; apply Z.eqb_neq;
             destruct Hy as [Hy|[Hy|Hy]]; injection Hy as -> ->; cbn; lia);
           destruct Hy as [Hy|[Hy|Hy]]; injection Hy as -> ->; reflexivity).
    assert (z = 0%Z) by lia. subst z.
    destruct V as [[? _]|[_ V]]; [congruence|].
    destruct Hy as [Hy|[Hy|Hy]]; injection Hy as -> ->; destruct V as [->|[->| ->]]; reflexivity. }
  rewrite E0, E4, (EQ 1 blocks), (EQ 2 lines), (EQ 3 zero) by auto.
  assert (ID : forall y, sort le_item (filter (at_layer y) ls) = filter (at_layer y) ls).
  { intros y. apply sort_id. intros a b Ha Hb. apply filter_In in Ha, Hb. destruct Ha as [_ Ha], Hb as [_ Hb].
    unfold at_layer, level, le_item, before in *. apply andb_true_iff in Ha, Hb.
    destruct Ha as [Ha1 Ha2], Hb as [Hb1 Hb2]. apply Z.eqb_eq in Ha1, Hb1. apply Nat.eqb_eq in Ha2, Hb2.
    rewrite Ha1, Ha2, Hb1, Hb2, Z.eqb_refl, Nat.leb_refl. apply orb_true_r. }
  rewrite !ID. reflexivity.
Qed.

Lemma sel_app y a b : sel y (a ++ b) = sel y a ++ sel y b.
Proof. unfold sel. rewrite filter_app, flat_map_app. reflexivity. Qed.

Lemma sel_cons y l ls : sel y (l :: ls) = (if at_layer y l then snd l else []) ++ sel y ls.
Proof. unfold sel. cbn. destruct (at_layer y l); reflexivity. Qed.

(* ---- The entries made of the kids of a box ---------------------------------- *)

Notation entry := (option Z * scene)%type.
Definition ent (fx : list (effect * nat)) (e : entry) : option Z * list mark := (fst e, painted fx (prepare (snd e))).
Definition keyed (l : item) : option Z * list mark := (Some (level l), snd l).
Definition key0 (e : entry) : Prop := fst e = Some 0%Z.

Record inv (fx : list (effect * nat)) (E : pass -> list entry) (ls : list item) : Prop := mkInv {
  inv_neg : map (ent fx) (E NEGATIVE) = map keyed (filter neg ls);
  inv_pos : map (ent fx) (E POSITIVE) = map keyed (filter pos_ ls);
  inv_floats : E FLOATS = [];
  inv_keys : Forall key0 (E BLOCKS) /\ Forall key0 (E INLINES) /\ Forall key0 (E ZERO);
  inv_blocks : pnt fx (E BLOCKS) = sel blocks ls;
  inv_lines : pnt fx (E INLINES) = sel lines ls;
  inv_zero : pnt fx (E ZERO) = sel zero ls;
  inv_valid : Forall valid ls
}.

Lemma inv_nil fx E : (forall p, E p = []) -> inv fx E [].
Proof. intros H. constructor; rewrite ?H; repeat split; try constructor. Qed.

Lemma inv_app fx E1 E2 E ls1 ls2 : (forall p, E p = E1 p ++ E2 p) ->
  inv fx E1 ls1 -> inv fx E2 ls2 -> inv fx E (ls1 ++ ls2).
Proof.
  intros H [A1 A2 A3 (A4 & A4' & A4'') A5 A6 A7 A8] [B1 B2 B3 (B4 & B4' & B4'') B5 B6 B7 B8].
  constructor; rewrite ?H.
  - rewrite filter_app, !map_app, A1, B1. reflexivity.
  - rewrite filter_app, !map_app, A2, B2. reflexivity.
  - rewrite A3, B3. reflexivity.
  - repeat apply conj; apply Forall_app; split; assumption.
  - rewrite pnt_app, sel_app, A5, B5. reflexivity.
  - rewrite pnt_app, sel_app, A6, B6. reflexivity.
  - rewrite pnt_app, sel_app, A7, B7. reflexivity.
  - apply Forall_app; split; assumption.
Qed.

Lemma flat_snd_ent fx l : flat_map snd (map (ent fx) l) = pnt fx l.
Proof. unfold pnt. rewrite flat_map_map. reflexivity. Qed.

Lemma painted_stack fx l :
  painted fx (prepare (Stack l)) = flat_map snd (sort (fun a b => lez (fst a) (fst b)) (map (ent fx) l)).
Proof.
  cbn [prepare painted].
  rewrite (sort_map (fun a b : entry => lez (fst a) (fst b))) by reflexivity.
  rewrite (sort_map (fun a b : entry => lez (fst a) (fst b)) _ (ent fx)) by reflexivity.
  rewrite !flat_map_map. reflexivity.
Qed.

Definition rank_ent (e : option Z * list mark) : nat :=
  match fst e with None => 0 | Some z => if (z <? 0)%Z then 1 else if (z =? 0)%Z then 2 else 3 end.

Lemma rank_ent_le x y : rank_ent x < rank_ent y -> lez (fst x) (fst y) = true /\ lez (fst y) (fst x) = false.
Proof.
  unfold rank_ent, lez. destruct x as [[zx|] ax], y as [[zy|] ay]; cbn [fst]; try lia; intros R.
  - destruct (Z.ltb_spec zx 0), (Z.eqb_spec zx 0), (Z.ltb_spec zy 0), (Z.eqb_spec zy 0); try lia;
      (split; [apply Z.leb_le; lia | apply Z.leb_gt; lia]).
Qed.

Lemma key0_rank fx l : Forall key0 l -> Forall (fun e => rank_ent e = 2) (map (ent fx) l).
Proof.
  intros H. induction H as [|e l He Hl IH]; cbn; constructor; [|exact IH].
  unfold rank_ent, ent. cbn [fst]. rewrite He. reflexivity.
Qed.

Lemma keyed_sort l : Forall valid l -> Forall (fun x => level x <> 0%Z) l ->
  flat_map snd (sort (fun a b => lez (fst a) (fst b)) (map keyed l)) = flat_map snd (sort le_item l).
Proof.
  intros V N. rewrite Forall_forall in V, N.
  rewrite (sort_map le_item) with (f := keyed).
  - rewrite flat_map_map. reflexivity.
  - intros x y Hx Hy. unfold keyed, le_item, before, lez. cbn [fst].
    destruct (V x Hx) as [[_ Vx]|[Vx _]]; [|exfalso; exact (N x Hx Vx)].
    destruct (V y Hy) as [[_ Vy]|[Vy _]]; [|exfalso; exact (N y Hy Vy)].
    rewrite Vx, Vy. unfold level. cbn. rewrite andb_true_r.
    destruct (Z.leb_spec (fst (fst x)) (fst (fst y))), (Z.ltb_spec (fst (fst x)) (fst (fst y))), (Z.eqb_spec (fst (fst x)) (fst (fst y)));
      try reflexivity; lia.
Qed.

Lemma sorted_context fx dec txt E ls :
  inv fx E ls -> Forall key0 txt ->
  (Forall (fun e => fst e = None) dec \/ (Forall key0 dec /\ filter neg ls = [])) ->
  painted fx (prepare (Stack ((dec ++ txt) ++ flat_map E passes)))
  = pnt fx dec ++ in_layers ((blocks, pnt fx txt) :: ls).
Proof.
  intros [I1 I2 I3 (I4 & I4' & I4'') I5 I6 I7 I8] HT HD.
  rewrite in_layers_split by (constructor; [right; cbn; auto | exact I8]).
  rewrite painted_stack, (sort_ranks _ rank_ent 4).
  2:{ intros x _. unfold rank_ent. destruct (fst x) as [z|]; [destruct (z <? 0)%Z, (z =? 0)%Z|]; lia. }
  2:{ intros x y _ _. apply rank_ent_le. }
  assert (RN : Forall (fun e => rank_ent e = 1) (map (ent fx) (E NEGATIVE))).
  { rewrite I1. apply Forall_forall. intros e He. apply in_map_iff in He. destruct He as (l & <- & Hl).
    apply filter_In in Hl. unfold rank_ent, keyed. cbn [fst]. unfold neg in Hl. rewrite (proj2 Hl). reflexivity. }
  assert (RP : Forall (fun e => rank_ent e = 3) (map (ent fx) (E POSITIVE))).
  { rewrite I2. apply Forall_forall. intros e He. apply in_map_iff in He. destruct He as (l & <- & Hl).
    apply filter_In in Hl. unfold rank_ent, keyed. cbn [fst]. destruct Hl as [_ Hl]. unfold pos_ in Hl. apply Z.ltb_lt in Hl.
    destruct (Z.ltb_spec (level l) 0), (Z.eqb_spec (level l) 0); try lia. }
  assert (NN : flat_map snd (sort (fun a b => lez (fst a) (fst b)) (map (ent fx) (E NEGATIVE))) = flat_map snd (sort le_item (filter neg ls))).
  { rewrite I1. apply keyed_sort.
    - rewrite Forall_forall in I8 |- *. intros x Hx. apply filter_In in Hx. exact (I8 x (proj1 Hx)).
    - apply Forall_forall. intros x Hx. apply filter_In in Hx. destruct Hx as [_ Hx]. unfold neg in Hx. apply Z.ltb_lt in Hx. lia. }
  assert (PP : flat_map snd (sort (fun a b => lez (fst a) (fst b)) (map (ent fx) (E POSITIVE))) = flat_map snd (sort le_item (filter pos_ ls))).
  { rewrite I2. apply keyed_sort.
    - rewrite Forall_forall in I8 |- *. intros x Hx. apply filter_In in Hx. exact (I8 x (proj1 Hx)).
    - apply Forall_forall. intros x Hx. apply filter_In in Hx. destruct Hx as [_ Hx]. unfold pos_ in Hx. apply Z.ltb_lt in Hx. lia. }
  assert (SI : forall k l, k = 0 \/ k = 2 -> Forall (fun e => rank_ent e = k) l -> sort (fun a b : option Z * list mark => lez (fst a) (fst b)) l = l).
  { intros k l Hk H. rewrite Forall_forall in H. apply sort_id. intros x y Hx Hy. pose proof (H x Hx) as A. pose proof (H y Hy) as B.
    unfold rank_ent, lez in *. destruct (fst x) as [zx|]; [|reflexivity].
    destruct (fst y) as [zy|].
    - apply Z.leb_le. destruct (Z.ltb_spec zx 0), (Z.eqb_spec zx 0), (Z.ltb_spec zy 0), (Z.eqb_spec zy 0); lia.
    - destruct (Z.ltb_spec zx 0), (Z.eqb_spec zx 0); lia. }
  set (le := fun a b : option Z * list mark => lez (fst a) (fst b)) in *.
  cbn [flat_map passes seq]. rewrite I3, app_nil_r. cbn [app]. rewrite !map_app, !filter_app.
  rewrite !(filter_rank rank_ent 1 _ (map (ent fx) (E NEGATIVE))) by exact RN.
  rewrite !(filter_rank rank_ent 3 _ (map (ent fx) (E POSITIVE))) by exact RP.
  rewrite !(filter_rank rank_ent 2 _ (map (ent fx) (E BLOCKS))) by (apply key0_rank; exact I4).
  rewrite !(filter_rank rank_ent 2 _ (map (ent fx) (E INLINES))) by (apply key0_rank; exact I4').
  rewrite !(filter_rank rank_ent 2 _ (map (ent fx) (E ZERO))) by (apply key0_rank; exact I4'').
  rewrite !(filter_rank rank_ent 2 _ (map (ent fx) txt)) by (apply key0_rank; exact HT).
  cbn [Nat.eqb]. rewrite !app_nil_l, !app_nil_r.
  rewrite !sel_cons. cbn [filter]. change (at_layer blocks (blocks, pnt fx txt)) with true.
  change (at_layer lines (blocks, pnt fx txt)) with false. change (at_layer zero (blocks, pnt fx txt)) with false.
  change (neg (blocks, pnt fx txt)) with false. change (pos_ (blocks, pnt fx txt)) with false. cbn [snd app].
  assert (Z2 : Forall (fun e => rank_ent e = 2) (map (ent fx) txt ++ map (ent fx) (E BLOCKS) ++ map (ent fx) (E INLINES) ++ map (ent fx) (E ZERO))).
  { repeat (apply Forall_app; split); apply key0_rank; assumption. }
  destruct HD as [HD|[HD HN]].
  - assert (RD : Forall (fun e => rank_ent e = 0) (map (ent fx) dec)).
    { clear -HD. induction HD as [|e l He Hl IH]; cbn; constructor; [|exact IH]. unfold rank_ent, ent. cbn [fst]. rewrite He. reflexivity. }
    rewrite !(filter_rank rank_ent 0 _ (map (ent fx) dec)) by exact RD. cbn [Nat.eqb]. rewrite !app_nil_l.
    rewrite (SI 0 (map (ent fx) dec) (or_introl eq_refl) RD), (SI 2 _ (or_intror eq_refl) Z2).
    rewrite !flat_map_app, NN, PP, !flat_snd_ent, I5, I6, I7. rewrite <- !app_assoc. reflexivity.
  - rewrite !(filter_rank rank_ent 2 _ (map (ent fx) dec)) by (apply key0_rank; exact HD). cbn [Nat.eqb]. rewrite !app_nil_l.
    rewrite HN in I1. rewrite I1, HN. cbn [map sort flat_map app].
    assert (Z3 : Forall (fun e => rank_ent e = 2) ((map (ent fx) dec ++ map (ent fx) txt) ++ map (ent fx) (E BLOCKS) ++ map (ent fx) (E INLINES) ++ map (ent fx) (E ZERO))).
    { rewrite <- app_assoc. apply Forall_app. split; [apply key0_rank; exact HD | exact Z2]. }
    rewrite (SI 2 _ (or_intror eq_refl) Z3).
    rewrite !flat_map_app, PP, !flat_snd_ent, I5, I6, I7. cbn [flat_map app]. rewrite <- !app_assoc. reflexivity.
Qed.

(* ---- What is painted as a whole --------------------------------------------- *)

Lemma filter_nil {A} (p : A -> bool) l : (forall x, In x l -> p x = false) -> filter p l = [].
Proof.
  induction l as [|x l IH]; intros H; [reflexivity|]. cbn. rewrite H by (left; reflexivity).
  apply IH. intros; apply H; right; assumption.
Qed.

Lemma flow_neg ls : filter neg (filter (fun l => negb (in_flow l)) ls) = filter neg ls.
Proof.
  rewrite filter_filter. apply filter_same. intros [[z n] a] _. unfold in_flow, neg, level. cbn [fst snd].
  destruct (Z.ltb_spec z 0), (Z.eqb_spec z 0); cbn; rewrite ?andb_false_r, ?andb_true_r; try reflexivity. lia.
Qed.
Lemma flow_pos ls : filter pos_ (filter (fun l => negb (in_flow l)) ls) = filter pos_ ls.
Proof.
  rewrite filter_filter. apply filter_same. intros [[z n] a] _. unfold in_flow, pos_, level. cbn [fst snd].
  destruct (Z.ltb_spec 0 z), (Z.eqb_spec z 0); cbn; rewrite ?andb_false_r, ?andb_true_r; try reflexivity. lia.
Qed.
Lemma flow_sel y ls : fst y = 0%Z ->
  sel y (filter (fun l => negb (in_flow l)) ls) = (if snd y <? 3 then [] else sel y ls)
  /\ sel y (filter in_flow ls) = (if snd y <? 3 then sel y ls else []).
Proof.
  intros Hy. unfold sel. rewrite !filter_filter. destruct y as [zy ny]. cbn [fst snd] in *. subst zy.
  assert (F : forall l, at_layer (0%Z, ny) l = true -> in_flow l = (ny <? 3)).
  { intros [[z n] a]. unfold at_layer, in_flow, level. cbn [fst snd]. intros H. apply andb_true_iff in H.
    destruct H as [H1 H2]. apply Nat.eqb_eq in H2. rewrite H1, H2. reflexivity. }
  destruct (ny <? 3) eqn:E; split.
  - rewrite filter_nil; [reflexivity|]. intros l _. destruct (at_layer (0%Z, ny) l) eqn:A; [|apply andb_false_r].
    rewrite (F l A). reflexivity.
  - f_equal. apply filter_same. intros l _. destruct (at_layer (0%Z, ny) l) eqn:A; [|apply andb_false_r].
    rewrite (F l A). reflexivity.
  - f_equal. apply filter_same. intros l _. destruct (at_layer (0%Z, ny) l) eqn:A; [|apply andb_false_r].
    rewrite (F l A). reflexivity.
  - rewrite filter_nil; [reflexivity|]. intros l _. destruct (at_layer (0%Z, ny) l) eqn:A; [|apply andb_false_r].
    rewrite (F l A). reflexivity.
Qed.

Lemma valid_filter p ls : Forall valid ls -> Forall valid (filter p ls).
Proof. rewrite !Forall_forall. intros H x Hx. apply filter_In in Hx. exact (H x (proj1 Hx)). Qed.

Lemma in_layers_flow T ls : Forall valid ls ->
  in_layers ((blocks, T) :: filter in_flow ls) = T ++ sel blocks ls ++ sel lines ls.
Proof.
  intros V. rewrite in_layers_split by (constructor; [right; cbn; auto | apply valid_filter; exact V]).
  rewrite !sel_cons. cbn [filter]. change (at_layer blocks (blocks, T)) with true.
  change (at_layer lines (blocks, T)) with false. change (at_layer zero (blocks, T)) with false.
  change (neg (blocks, T)) with false. change (pos_ (blocks, T)) with false. cbn [snd app].
  rewrite (proj2 (flow_sel blocks ls eq_refl)), (proj2 (flow_sel lines ls eq_refl)), (proj2 (flow_sel zero ls eq_refl)).
  cbn [blocks lines zero snd Nat.ltb Nat.leb].
  assert (N : filter neg (filter in_flow ls) = [] /\ filter pos_ (filter in_flow ls) = []).
  { split; apply filter_nil; intros [[z n] a] Hl; apply filter_In in Hl; destruct Hl as [_ Hl];
      unfold in_flow, neg, pos_, level in *; cbn [fst snd] in *; apply andb_true_iff in Hl; destruct Hl as [Hl _];
      apply Z.eqb_eq in Hl; subst z; reflexivity. }
  rewrite (proj1 N), (proj2 N). cbn [sort flat_map app]. rewrite app_nil_r, <- app_assoc. reflexivity.
Qed.

(* ---- Induction --------------------------------------------------------------- *)

Notation ord := (ordered true).

Definition alone (b : box) (fx : list (effect * nat)) : list mark :=
  match b_kind b with
  | SVG => if b_paints b then flat_map snd (flat_map (ord InAnSvg (fx ++ [(VIEW, b_id b)])) (b_kids b)) else []
  | _ => map (fun w => (w, fx)) (background b)
         ++ in_layers ((blocks, map (fun w => (w, fx)) (text b)) :: flat_map (ord Within fx) (b_kids b))
  end.

Lemma ord_alone fx b : running b = false ->
  flat_map snd (ord Alone fx b) = alone b (fx ++ effects (b_id b) (b_style b)).
Proof.
  intros H. destruct b as [id k s p ks]. cbn [ordered]. rewrite H. cbn [flat_map snd]. rewrite app_nil_r. reflexivity.
Qed.

Lemma ord_svg fx b : running b = false ->
  ord InAnSvg fx b =
  [(zero, let fx := fx ++ effects (b_id b) (b_style b) in
     match b_kind b with
     | SHAPE => map (fun w => (w, fx)) (shows b)
     | GROUP => flat_map snd (flat_map (ord InAnSvg fx) (b_kids b))
     | SVG => flat_map snd (flat_map (ord InAnSvg (fx ++ [(VIEW, b_id b)])) (b_kids b))
     | _ => alone b (fx ++ [(VIEW, b_id b)])
     end)].
Proof.
  intros H. destruct b as [id k s p ks]. cbn [ordered]. rewrite H. destruct k; reflexivity.
Qed.

Lemma ord_within fx b : running b = false ->
  ord Within fx b =
  let s := b_style b in
  let ls := flat_map (ord Within fx) (b_kids b) in
  if makes_context s
  then [((z_or_0 s, if (z_or_0 s =? 0)%Z then 3 else 0), alone b (fx ++ effects (b_id b) s))]
  else if positioned s || s_inline s
  then let at_ := if positioned s then zero else lines in
       match b_kind b with
       | SVG => [(at_, alone b fx)]
       | _ => as_a_whole true at_ b fx ls
       end
  else match b_kind b with
       | SVG => [(blocks, alone b fx)]
       | _ => own_layers true b fx ++ ls
       end.
Proof.
  intros H. destruct b as [id k s p ks]. cbn [ordered]. rewrite H. destruct k; reflexivity.
Qed.

Definition E (b : box) (p : pass) : list entry := flat_map (go any (Visit p)) (images b).
Definition Ek (kids : list box) (p : pass) : list entry :=
  flat_map (go any (Visit p)) (flat_map (fun c => if running c then [] else images c) kids).

Lemma ord_running p fx b : running b = true -> ord p fx b = [].
Proof. intros H. destruct b. cbn [ordered]. rewrite H. reflexivity. Qed.

Lemma kids_inv fx kids : (forall c, In c kids -> running c = false -> inv fx (E c) (ord Within fx c)) ->
  inv fx (Ek kids) (flat_map (ord Within fx) kids).
Proof.
  induction kids as [|c l IH]; intros H; [apply inv_nil; reflexivity|]. cbn [flat_map].
  apply inv_app with (E1 := fun p => flat_map (go any (Visit p)) (if running c then [] else images c)) (E2 := Ek l).
  - intros p. unfold Ek. cbn [flat_map]. apply flat_map_app.
  - destruct (running c) eqn:R.
    + rewrite ord_running by exact R. apply inv_nil. reflexivity.
    + apply H; [left; reflexivity | exact R].
  - apply IH. intros d Hd. apply H. right. exact Hd.
Qed.

Lemma stack_key0 fx l : Forall key0 l -> painted fx (prepare (Stack l)) = pnt fx l.
Proof.
  intros H. rewrite painted_stack, sort_id; [apply flat_snd_ent|].
  intros x y Hx Hy. apply in_map_iff in Hx, Hy. destruct Hx as (a & <- & Ha), Hy as (b & <- & Hb).
  rewrite Forall_forall in H. unfold ent. cbn [fst]. rewrite (H a Ha), (H b Hb). reflexivity.
Qed.

Definition boxy (k : kind) : Prop := match k with BLOCK | LINES | FLEX | TABLE | REPLACED => True | _ => False end.

Lemma own_parts fx id k s p ks kids : boxy k ->
  exists dec txt, own_of (Frag id (fkind_of k p) s false ks) = dec ++ txt
  /\ pnt fx dec = map (fun w => (w, fx)) (background (Box id k s p kids))
  /\ pnt fx txt = map (fun w => (w, fx)) (text (Box id k s p kids))
  /\ Forall key0 txt
  /\ ((implies_new s = true /\ s_root s = false /\ Forall (fun e => fst e = None) dec)
      \/ (Forall key0 dec /\ (implies_new s = false \/ s_root s = true))).
Proof.
  intros Hk.
  exists (if s_hidden s then [] else if p then [(if s_root s then Some 0%Z else if implies_new s then None else Some 0%Z, Mark (Decor id))] else []).
  exists (if s_hidden s then [] else match k with LINES | REPLACED => [(Some 0%Z, Mark (Content id))] | _ => [] end).
  unfold own_of, own_box, background, text, shows. cbn [b_style b_kind b_paints b_id].
  destruct k; try contradiction; cbn [fkind_of]; destruct (s_hidden s), p, (s_root s), (implies_new s);
    (repeat apply conj; [reflexivity | reflexivity | reflexivity | repeat constructor |]);
    (left; repeat constructor; fail) || (right; split; [repeat constructor | auto]).
Qed.

Lemma implies_makes b : orderly_box b -> implies_new (b_style b) = makes_context (b_style b).
Proof.
  intros [H _]. unfold implies_new, makes_context, positioned, is_static, has_auto_z.
  destruct (s_pos (b_style b)) eqn:P; cbn;
    try (destruct (s_z (b_style b)); reflexivity).
  destruct (H eq_refl) as (Hz & Hc & Ht & Ho). rewrite Hz, Hc, Ht, Ho. reflexivity.
Qed.

Lemma chosen_positioned s p : positioned s = true ->
  chosen p s = match p with
               | NEGATIVE => (z_or_0 s <? 0)%Z | ZERO => (z_or_0 s =? 0)%Z | POSITIVE => (0 <? z_or_0 s)%Z
               | _ => false end.
Proof.
  unfold positioned, chosen. intros H. apply negb_true_iff in H. rewrite H. destruct p; rewrite ?andb_false_r, ?andb_true_r; try reflexivity.
Qed.

Lemma chosen_static s p : positioned s = false -> s_z s = None -> s_float s = false ->
  chosen p s = match p with BLOCKS => negb (s_inline s) | INLINES => s_inline s | _ => false end.
Proof.
  unfold positioned, chosen, has_auto_z, z_or_0. intros H Hz Hf. apply negb_false_iff in H. rewrite H, Hz, Hf.
  destruct p; cbn; rewrite ?andb_true_r; reflexivity.
Qed.

Definition high (kids : list box) : Prop := Forall (fun c => Forall (fun z => (0 <= z)%Z) (levels c)) kids.

Definition good (b : box) : Prop :=
  running b = false ->
  (~ is_kind [SHAPE; GROUP] b -> forall fx,
     inv fx (E b) (ord Within fx b)
     /\ (positioned (b_style b) = true \/ s_inline (b_style b) = true -> E b BLOCKS = [])
     /\ (forall l, In l (ord Within fx b) -> level l <> 0%Z -> In (level l) (levels b)))
  /\ (~ is_kind [PART; SHAPE; GROUP] b -> (makes_context (b_style b) = false -> high (b_kids b)) -> forall fx,
     pnt fx (flat_map (go any Context) (images b)) = flat_map snd (ord Alone fx b))
  /\ (~ is_kind [PART] b -> (b_kind b = SVG -> b_paints b = true) -> clear_kid b ->
      (makes_context (b_style b) = false -> high (b_kids b)) -> forall fx,
     Forall key0 (flat_map (go any InSvg) (images b))
     /\ pnt fx (flat_map (go any InSvg) (images b)) = flat_map snd (ord InAnSvg fx b)).

Lemma high_neg fx kids :
  (forall c, In c kids -> running c = false ->
     forall l, In l (ord Within fx c) -> level l <> 0%Z -> In (level l) (levels c)) ->
  high kids -> filter neg (flat_map (ord Within fx) kids) = [].
Proof.
  intros H Hh. apply filter_nil. intros l Hl. apply in_flat_map in Hl. destruct Hl as (c & Hc & Hl).
  unfold neg. apply Z.ltb_ge. destruct (running c) eqn:R; [rewrite ord_running in Hl by exact R; contradiction|].
  destruct (Z.eq_dec (level l) 0) as [->|N]; [lia|].
  unfold high in Hh. rewrite Forall_forall in Hh. specialize (Hh c Hc). rewrite Forall_forall in Hh.
  apply Hh. exact (H c Hc R l Hl N).
Qed.

Lemma map_nil {A B} (f : A -> B) l : map f l = [] -> l = [].
Proof. destruct l; [reflexivity | discriminate]. Qed.

Lemma context_inv fx z n e m : fst e = Some z -> n = (if (z =? 0)%Z then 3 else 0) ->
  pnt fx [e] = m ->
  inv fx (fun p => if match p with NEGATIVE => (z <? 0)%Z | ZERO => (z =? 0)%Z | POSITIVE => (0 <? z)%Z | _ => false end then [e] else [])
    [((z, n), m)].
Proof.
  intros He -> Hm. unfold pnt in Hm. cbn [flat_map] in Hm. rewrite app_nil_r in Hm.
  assert (D : (z < 0 \/ z = 0 \/ 0 < z)%Z) by lia.
  constructor; unfold sel; cbn [filter]; unfold neg, pos_, at_layer, level; cbn [fst snd blocks lines zero].
  - destruct (z <? 0)%Z; [|reflexivity]. cbn. unfold ent, keyed, level. rewrite He, Hm. reflexivity.
  - destruct (0 <? z)%Z; [|reflexivity]. cbn. unfold ent, keyed, level. rewrite He, Hm. reflexivity.
  - reflexivity.
  - repeat apply conj; try constructor. destruct (Z.eqb_spec z 0); [|constructor]. repeat constructor.
    unfold key0. rewrite He, e0. reflexivity.
  - destruct (Z.eqb_spec z 0); cbn; reflexivity.
  - destruct (Z.eqb_spec z 0); cbn; reflexivity.
  - destruct (Z.eqb_spec z 0); cbn; rewrite ?app_nil_r; [exact Hm | reflexivity].
  - constructor; [|constructor]. unfold valid, level. cbn [fst snd]. destruct (Z.eqb_spec z 0); auto.
Qed.

Lemma single_inv fx y own m : y = blocks \/ y = lines \/ y = zero -> Forall key0 own -> pnt fx own = m ->
  inv fx (fun p => if match p with BLOCKS => snd y =? 0 | INLINES => snd y =? 2 | ZERO => snd y =? 3 | _ => false end then own else []) [(y, m)].
Proof.
  intros Hy Hk Hm.
  constructor; destruct Hy as [->|[->| ->]]; unfold sel; cbn; rewrite ?app_nil_r; try reflexivity; try exact Hm;
    try (constructor; [right; cbn; auto | constructor]);
    (repeat apply conj; first [exact Hk | constructor]).
Qed.

Lemma inv_ext fx E1 E2 ls : (forall p, E1 p = E2 p) -> inv fx E1 ls -> inv fx E2 ls.
Proof.
  intros H [A1 A2 A3 A4 A5 A6 A7 A8]. constructor; rewrite <- ?H; assumption.
Qed.

Lemma sel_here y m ls : sel y ((y, m) :: ls) = m ++ sel y ls.
Proof. rewrite sel_cons. unfold at_layer, level. cbn [fst snd]. rewrite Z.eqb_refl, Nat.eqb_refl. reflexivity. Qed.

Lemma whole_zero fx b ls Ef own :
  inv fx Ef ls -> filter neg ls = [] -> filter pos_ ls = [] -> Forall key0 own ->
  pnt fx own = map (fun w => (w, fx)) (background b) ++ map (fun w => (w, fx)) (text b) ->
  inv fx (fun p => match p with ZERO => own ++ flat_map Ef passes | _ => [] end) (as_a_whole true zero b fx ls).
Proof.
  intros [A1 A2 A3 (A4 & A4' & A4'') A5 A6 A7 A8] HN HP Hk Hp. unfold as_a_whole, text_layer.
  rewrite HN in A1. rewrite HP in A2. apply map_nil in A1, A2.
  rewrite (in_layers_flow _ ls A8).
  constructor.
  - unfold keyed. cbn [map filter]. match goal with |- context [neg (zero, ?m)] => change (neg (zero, m)) with false end.
    rewrite flow_neg, HN. reflexivity.
  - unfold keyed. cbn [map filter]. match goal with |- context [pos_ (zero, ?m)] => change (pos_ (zero, m)) with false end.
    rewrite flow_pos, HP. reflexivity.
  - reflexivity.
  - repeat apply conj; try constructor. cbn [flat_map passes]. rewrite A1, A2, A3. cbn [app]. rewrite app_nil_r.
    repeat (apply Forall_app; split); assumption.
  - rewrite sel_cons, (proj1 (flow_sel blocks ls eq_refl)). reflexivity.
  - rewrite sel_cons, (proj1 (flow_sel lines ls eq_refl)). reflexivity.
  - rewrite sel_here, (proj1 (flow_sel zero ls eq_refl)). cbn [flat_map passes]. rewrite A1, A2, A3. cbn [app]. rewrite app_nil_r, !pnt_app, Hp, A5, A6, A7.
    rewrite <- !app_assoc. reflexivity.
  - constructor; [right; cbn; auto | apply valid_filter; exact A8].
Qed.

Lemma whole_lines fx b ls Ef own :
  inv fx Ef ls -> Ef BLOCKS = [] -> Forall key0 own ->
  pnt fx own = map (fun w => (w, fx)) (background b) ++ map (fun w => (w, fx)) (text b) ->
  inv fx (fun p => match p with INLINES => own | _ => [] end ++ Ef p) (as_a_whole true lines b fx ls).
Proof.
  intros [A1 A2 A3 (A4 & A4' & A4'') A5 A6 A7 A8] HB Hk Hp. unfold as_a_whole, text_layer.
  rewrite (in_layers_flow _ ls A8).
  rewrite HB in A5. cbn in A5. rewrite <- A5. cbn [app].
  constructor.
  - cbn [app filter]. match goal with |- context [neg (lines, ?m)] => change (neg (lines, m)) with false end.
    rewrite flow_neg. exact A1.
  - cbn [app filter]. match goal with |- context [pos_ (lines, ?m)] => change (pos_ (lines, m)) with false end.
    rewrite flow_pos. exact A2.
  - exact A3.
  - repeat apply conj; cbn [app]; [rewrite HB; constructor | apply Forall_app; split; assumption | exact A4''].
  - cbn [app]. rewrite sel_cons, (proj1 (flow_sel blocks ls eq_refl)), HB. reflexivity.
  - rewrite sel_here, (proj1 (flow_sel lines ls eq_refl)). change (snd lines <? 3) with true. cbn iota. rewrite pnt_app, Hp, A6, app_nil_r, <- app_assoc. reflexivity.
  - cbn [app]. rewrite sel_cons, (proj1 (flow_sel zero ls eq_refl)). exact A7.
  - constructor; [right; cbn; auto | apply valid_filter; exact A8].
Qed.

Lemma go_insvg_box id k s ks p : boxy k ->
  go any InSvg (Frag id (fkind_of k p) s false ks)
  = [(Some 0%Z, Fx VIEW id (Stack (go any Context (Frag id (fkind_of k p) s false ks))))].
Proof. destruct k; intros H; try contradiction; reflexivity. Qed.

Lemma establish_key id s l : (s_clip s || s_transform s || s_opacity s = true -> z_or_0 s = 0%Z) ->
  fst (establish id s l) = Some (z_or_0 s).
Proof.
  unfold establish. cbn [fst]. destruct (s_clip s || s_transform s || s_opacity s); intros H; [rewrite H|]; reflexivity.
Qed.

Lemma painted_single fx e : painted fx (prepare (Stack [e])) = pnt fx [e].
Proof. reflexivity. Qed.

(* What is the same for all boxes but parts of tables: [own] is what is painted of
   the box, [B] what is painted of it as a context. *)
Lemma context_good id k s paints kids :
  let b := Box id k s paints kids in
  let g := Frag id (fkind_of k paints) s false (flat_map (fun c => if running c then [] else images c) kids) in
  k <> PART -> k <> SHAPE -> k <> GROUP -> running b = false -> orderly_box b -> makes_context s = true ->
  (forall fx, pnt fx (go any Context g) = alone b (fx ++ effects id s)) ->
  forall fx,
     inv fx (E b) (ord Within fx b)
     /\ E b BLOCKS = []
     /\ (forall l, In l (ord Within fx b) -> level l <> 0%Z -> In (level l) (levels b)).
Proof.
  intros b g K1 K2 K3 HR HO HM HC fx.
  assert (EI : images b = [g]) by (subst b g; cbn [images]; destruct k; try congruence; reflexivity).
  assert (HP : positioned s = true).
  { unfold positioned. apply negb_true_iff. destruct (is_static s) eqn:X; [|reflexivity]. exfalso.
    unfold is_static in X. assert (P : s_pos s = STATIC) by (destruct (s_pos s); try discriminate; reflexivity).
    destruct HO as [HO _]. destruct (HO P) as (Q1 & Q2 & Q3 & Q4). cbn [b_style b] in *.
    unfold makes_context, positioned, is_static in HM. rewrite P, Q2, Q3, Q4 in HM. discriminate HM. }
  pose proof (implies_makes b HO) as IM. cbn [b b_style] in IM. rewrite HM in IM.
  rewrite ord_within by exact HR. cbn [b b_style b_id] in *. cbv zeta. rewrite HM.
  pose proof (go_context id (fkind_of k paints) s (flat_map (fun c => if running c then [] else images c) kids)) as Hg. fold g in Hg.
  match type of Hg with _ = [?x] => set (e := x) in * end.
  assert (EE : forall p, E b p = if match p with NEGATIVE => (z_or_0 s <? 0)%Z | ZERO => (z_or_0 s =? 0)%Z | POSITIVE => (0 <? z_or_0 s)%Z | _ => false end then [e] else []).
  { intros p. unfold E. rewrite EI. cbn [flat_map]. rewrite app_nil_r, <- Hg. unfold g. rewrite go_visit, IM, (chosen_positioned s p HP). reflexivity. }
  fold b. repeat apply conj.
  - eapply inv_ext; [intros p; symmetry; apply EE|].
    apply context_inv; [|reflexivity|].
    + apply establish_key. exact (proj1 (proj2 HO)).
    + rewrite <- Hg. apply HC.
  - rewrite EE. reflexivity.
  - intros l [<-|[]] _. unfold level. cbn [fst]. subst b. cbn [levels]. rewrite HR, HM. left. reflexivity.
Qed.

Lemma good_all b : everywhere tame_box b -> clear b -> everywhere orderly_box b -> good b.
Proof.
  induction b as [id k s paints kids IH] using box_ind'. intros HT HC HO HR.
  pose proof (everywhere_at _ _ HT) as T. pose proof (everywhere_kids _ _ HT) as TK.
  pose proof (everywhere_at _ _ HC) as CB. pose proof (everywhere_kids _ _ HC) as CK.
  pose proof (everywhere_at _ _ HO) as OB. pose proof (everywhere_kids _ _ HO) as OK.
  cbn [b_kids] in TK, CK, OK. rewrite Forall_forall in IH, TK, CK, OK.
  destruct T as (Tf & Tz & T). cbn [b_style b_kind b_kids] in Tf, Tz, T. unfold each in T. cbn [b_kids] in T.
  unfold clear_box, each in CB. cbn [b_kind b_kids] in CB.
  assert (G : forall c, In c kids -> good c) by (intros c Hc; exact (IH c Hc (TK c Hc) (CK c Hc) (OK c Hc))).
  set (b := Box id k s paints kids) in *.
  pose proof (implies_makes b OB) as IM. cbn [b b_style] in IM.
  assert (KI : (forall c, In c kids -> running c = false -> ~ is_kind [SHAPE; GROUP] c) -> forall fx,
               inv fx (Ek kids) (flat_map (ord Within fx) kids)).
  { intros HK fx. apply kids_inv. intros c Hc R. apply (proj1 (G c Hc R)). exact (HK c Hc R). }
  assert (KL : (forall c, In c kids -> running c = false -> ~ is_kind [SHAPE; GROUP] c) -> forall fx c, In c kids -> running c = false ->
               forall l, In l (ord Within fx c) -> level l <> 0%Z -> In (level l) (levels c)).
  { intros HK fx c Hc R. apply (proj1 (G c Hc R)). exact (HK c Hc R). }
  assert (LV : (forall c, In c kids -> running c = false -> ~ is_kind [SHAPE; GROUP] c) -> k <> SVG -> makes_context (b_style b) = false -> forall fx l,
               In l (flat_map (ord Within fx) kids) -> level l <> 0%Z -> In (level l) (levels b)).
  { intros HK Hs HM fx l Hl Hn. apply in_flat_map in Hl. destruct Hl as (c & Hc & Hl).
    destruct (running c) eqn:R; [rewrite ord_running in Hl by exact R; contradiction|].
    pose proof (KL HK fx c Hc R l Hl Hn) as Q. change (makes_context s = false) in HM. subst b. cbn [levels]. rewrite HR, HM.
    destruct k; try congruence; apply in_flat_map; exists c; split; assumption. }
  (* boxes *)
  assert (BX : boxy k -> (forall c, In c kids -> running c = false -> ~ is_kind [SHAPE; GROUP] c) -> good b).
  { intros Hk HK _.
    set (g := Frag id (fkind_of k paints) s false (flat_map (fun c => if running c then [] else images c) kids)).
    assert (EI : images b = [g]) by (subst b g; cbn [images]; destruct k; try contradiction; reflexivity).
    assert (NS : match fkind_of k paints with FSvg _ => False | _ => True end) by (destruct k; try contradiction; exact I).
    assert (NK : k <> PART /\ k <> SHAPE /\ k <> GROUP /\ k <> SVG) by (destruct k; try contradiction; repeat split; discriminate).
    destruct NK as (N1 & N2 & N3 & N4).
    assert (CTX : forall fx, (makes_context s = false -> high kids) ->
              painted fx (prepare (Stack (own_of g ++ flat_map (Ek kids) passes))) = alone b fx).
    { intros fx Hh. destruct (own_parts fx id k s paints (flat_map (fun c => if running c then [] else images c) kids) kids Hk)
        as (dec & txt & Eo & Ed & Et & Kt & Kd). fold g in Eo. rewrite Eo.
      rewrite (sorted_context fx dec txt (Ek kids) (flat_map (ord Within fx) kids) (KI HK fx) Kt).
      - rewrite Ed, Et. unfold alone. subst b. cbn [b_kind b_kids]. destruct k; try contradiction; reflexivity.
      - destruct Kd as [(_ & _ & Kd)|[Kd Kr]]; [left; exact Kd | right; split; [exact Kd|]].
        apply (high_neg fx kids (KL HK fx)). destruct Kr as [Kr|Kr].
        + apply Hh. rewrite <- IM. exact Kr.
        + exact (proj1 (proj2 (proj2 (proj2 (proj2 OB)))) Kr). }
    assert (GC : forall fx, (makes_context s = false -> high kids) -> pnt fx (go any Context g) = alone b (fx ++ effects id s)).
    { intros fx Hh. subst g. rewrite go_context, establish_pnt. rewrite <- (CTX (fx ++ effects id s) Hh).
      destruct (fkind_of k paints); try contradiction; reflexivity. }
    split; [|split].
    - intros _ fx. destruct (makes_context s) eqn:HM.
      + destruct (context_good id k s paints kids N1 N2 N3 HR OB HM) with (fx := fx) as (C1 & C2 & C3).
        { intros f. apply GC. intros X. discriminate X. }
        repeat apply conj; [exact C1 | intros _; exact C2 | exact C3].
      + destruct (own_parts fx id k s paints (flat_map (fun c => if running c then [] else images c) kids) kids Hk)
          as (dec & txt & Eo & Ed & Et & Kt & Kd). fold g in Eo. fold b in Ed, Et.
        assert (K0 : Forall key0 (own_of g)).
        { rewrite Eo. apply Forall_app. split; [|exact Kt]. destruct Kd as [(Kd & _)|[Kd _]]; [congruence | exact Kd]. }
        assert (PO : pnt fx (own_of g) = map (fun w => (w, fx)) (background b) ++ map (fun w => (w, fx)) (text b)).
        { rewrite Eo, pnt_app, Ed, Et. reflexivity. }
        assert (OW : ord Within fx b = if positioned s || s_inline s
                     then as_a_whole true (if positioned s then zero else lines) b fx (flat_map (ord Within fx) kids)
                     else own_layers true b fx ++ flat_map (ord Within fx) kids).
        { rewrite ord_within by exact HR. subst b. cbn [b_style b_kids b_kind b_id]. cbv zeta. rewrite HM. destruct k; try contradiction; reflexivity. }
        assert (LW : forall y l, fst y = 0%Z -> In l (as_a_whole true y b fx (flat_map (ord Within fx) kids)) -> level l <> 0%Z -> In (level l) (levels b)).
        { intros y l Hy [<-|Hl] Hn; [exfalso; apply Hn; exact Hy|]. apply filter_In in Hl.
          exact (LV HK N4 HM fx l (proj1 Hl) Hn). }
        destruct (positioned s) eqn:HP.
        * (* positioned *)
          cbn [orb] in OW. rewrite OW.
          assert (Hz : z_or_0 s = 0%Z).
          { unfold makes_context in HM. rewrite HP in HM. unfold has_auto_z, z_or_0 in *. destruct (s_z s); [discriminate HM | reflexivity]. }
          assert (ES : is_static s = false) by (unfold positioned in HP; apply negb_true_iff; exact HP).
          assert (EE : forall p, E b p = match p with ZERO => own_of g ++ flat_map (Ek kids) passes | _ => [] end).
          { intros p. unfold E. rewrite EI. cbn [flat_map]. rewrite app_nil_r. subst g. rewrite go_visit, IM, ES. cbn [negb].
            rewrite (chosen_positioned s p HP), Hz. destruct p; try reflexivity.
            cbn [Z.eqb]. destruct (fkind_of k paints); try contradiction; reflexivity. }
          assert (LZ : forall l, In l (flat_map (ord Within fx) kids) -> level l = 0%Z).
          { intros l Hl. apply in_flat_map in Hl. destruct Hl as (c & Hc & Hl).
            destruct (running c) eqn:R; [rewrite ord_running in Hl by exact R; contradiction|].
            destruct (Z.eq_dec (level l) 0) as [Q|Q]; [exact Q|].
            pose proof (proj1 (proj2 (proj2 OB)) HP HM) as LL. cbn [b b_kids] in LL.
            rewrite Forall_forall in LL. specialize (LL c Hc). rewrite Forall_forall in LL.
            apply LL. exact (KL HK fx c Hc R l Hl Q). }
          repeat apply conj.
          -- eapply inv_ext; [intros p; symmetry; apply EE|]. apply whole_zero; [apply KI; exact HK | | | exact K0 | exact PO].
             ++ apply filter_nil. intros l Hl. unfold neg. rewrite (LZ l Hl). reflexivity.
             ++ apply filter_nil. intros l Hl. unfold pos_. rewrite (LZ l Hl). reflexivity.
          -- intros _. rewrite EE. reflexivity.
          -- intros l. exact (LW zero l eq_refl).
        * (* static *)
          cbn [orb] in OW. rewrite OW.
          assert (ES : is_static s = true) by (unfold positioned in HP; apply negb_false_iff; exact HP).
          assert (P : s_pos s = STATIC) by (unfold is_static in ES; destruct (s_pos s); try discriminate; reflexivity).
          assert (Hz : s_z s = None) by exact (proj1 (proj1 OB P)).
          assert (EE : forall p, E b p = (if match p with BLOCKS => negb (s_inline s) | INLINES => s_inline s | _ => false end then own_of g else []) ++ Ek kids p).
          { intros p. unfold E. rewrite EI. cbn [flat_map]. rewrite app_nil_r. subst g. rewrite go_visit, IM, ES. cbn [negb].
            rewrite (chosen_static s p HP Hz Tf). destruct (fkind_of k paints); try contradiction; reflexivity. }
          destruct (s_inline s) eqn:SI; cbn [negb] in EE.
          -- assert (BB : Ek kids BLOCKS = []).
             { pose proof (proj1 (proj2 (proj2 (proj2 OB))) P SI) as IL. unfold each in IL. cbn [b b_kids] in IL. rewrite Forall_forall in IL.
               unfold Ek. clear -G IL HK. induction kids as [|c l IHl]; [reflexivity|]. cbn [flat_map]. rewrite flat_map_app, IHl.
               2:{ intros d Hd. apply G. right. exact Hd. }
               2:{ intros d Hd. apply HK. right. exact Hd. }
               2:{ intros d Hd. apply IL. right. exact Hd. }
               rewrite app_nil_r. destruct (running c) eqn:R; [reflexivity|].
               destruct (G c (or_introl eq_refl) R) as (G1 & _).
               destruct (G1 (HK c (or_introl eq_refl) R) []) as (_ & G2 & _). apply G2.
               destruct (positioned (b_style c)) eqn:PC; [left; reflexivity | right].
               apply (IL c (or_introl eq_refl) R). unfold positioned in PC. apply negb_false_iff in PC.
               unfold is_static in PC. destruct (s_pos (b_style c)); try discriminate; reflexivity. }
             repeat apply conj.
             ++ eapply inv_ext; [|apply whole_lines; [apply KI; exact HK | exact BB | exact K0 | exact PO]].
                intros p. cbv beta. rewrite EE. destruct p; reflexivity.
             ++ intros _. rewrite EE. exact BB.
             ++ intros l. exact (LW lines l eq_refl).
          -- repeat apply conj.
             ++ eapply inv_app with (E1 := fun p => if match p with BLOCKS => snd blocks =? 0 | INLINES => snd blocks =? 2 | ZERO => snd blocks =? 3 | _ => false end then own_of g else []) (E2 := Ek kids); [| | apply KI; exact HK].
                ** intros p. rewrite EE. destruct p; reflexivity.
                ** unfold own_layers, text_layer.
                   change [(blocks, map (fun w => (w, fx)) (background b)); (blocks, map (fun w => (w, fx)) (text b))]
                     with ([(blocks, map (fun w => (w, fx)) (background b))] ++ [(blocks, map (fun w => (w, fx)) (text b))]).
                   rewrite Eo in K0 |- *. apply Forall_app in K0. destruct K0 as [K1 K2].
                   eapply inv_app with (E1 := fun p => if match p with BLOCKS => snd blocks =? 0 | INLINES => snd blocks =? 2 | ZERO => snd blocks =? 3 | _ => false end then dec else [])
                                       (E2 := fun p => if match p with BLOCKS => snd blocks =? 0 | INLINES => snd blocks =? 2 | ZERO => snd blocks =? 3 | _ => false end then txt else []).
                   --- intros p. destruct p; reflexivity.
                   --- apply single_inv; [left; reflexivity | exact K1 | exact Ed].
                   --- apply single_inv; [left; reflexivity | exact K2 | exact Et].
             ++ intros [X|X]; subst b; cbn [b_style] in X; congruence.
             ++ intros l Hl Hn. apply in_app_or in Hl. destruct Hl as [[<-|[<-|[]]]|Hl]; [exfalso; apply Hn; reflexivity | exfalso; apply Hn; reflexivity |].
                exact (LV HK N4 HM fx l Hl Hn).
    - intros _ Hh fx. rewrite EI. cbn [flat_map]. rewrite app_nil_r, ord_alone by exact HR. apply GC. exact Hh.
    - intros _ _ (C1 & C2 & C3) Hh fx. rewrite EI. cbn [flat_map]. rewrite app_nil_r. subst g. rewrite go_insvg_box by exact Hk.
      split; [repeat constructor|]. rewrite ord_svg by exact HR. cbn [flat_map snd]. rewrite app_nil_r.
      assert (EN : effects id s = []).
      { cbn [b b_style] in C1, C2, C3. unfold effects. rewrite C1, C2, C3; [reflexivity|]. intros Q. destruct k; try contradiction;
        destruct Q as [Q|[Q|[Q|[]]]]; discriminate Q. }
      unfold pnt. cbn [flat_map snd]. rewrite app_nil_r.
      change (painted fx (prepare (Fx VIEW id ?c))) with (painted (fx ++ [(VIEW, id)]) (prepare c)).
      assert (Q : forall f, painted f (prepare (Stack (go any Context (Frag id (fkind_of k paints) s false (flat_map (fun c => if running c then [] else images c) kids)))))
                = pnt f (go any Context (Frag id (fkind_of k paints) s false (flat_map (fun c => if running c then [] else images c) kids)))).
      { intros f. rewrite go_context. apply painted_single. }
      etransitivity; [apply Q|]. rewrite (GC _ Hh), EN, app_nil_r. subst b. cbn [b_kind b_style b_id]. rewrite EN, app_nil_r.
      destruct k; try contradiction; reflexivity. }
  (* the kids of an SVG or a group *)
  assert (SK : (forall c, In c kids -> ~ is_kind [PART] c /\ running c = false /\ escaping c = [] /\ (b_kind c = SVG -> b_paints c = true)) ->
               k = SVG \/ k = GROUP -> forall fx,
               Forall key0 (flat_map (go any InSvg) (flat_map (fun c => if running c then [] else images c) kids))
               /\ pnt fx (flat_map (go any InSvg) (flat_map (fun c => if running c then [] else images c) kids))
                  = flat_map snd (flat_map (ord InAnSvg fx) kids)).
  { intros HK Hk fx.
    assert (HC' : forall c, In c kids -> clear_kid c) by (destruct Hk; subst k; rewrite Forall_forall in CB; exact CB).
    assert (HH : forall c, In c kids -> makes_context (b_style c) = false -> high (b_kids c)).
    { pose proof (proj2 (proj2 (proj2 (proj2 (proj2 OB))))) as Q. destruct Hk; subst k; cbn [b b_kind b_kids] in Q; rewrite Forall_forall in Q; exact Q. }
    clear -G HK HC' HH. induction kids as [|c l IHl]; [split; [constructor | reflexivity]|]. cbn [flat_map].
    destruct IHl as [I1 I2].
    { intros d Hd. apply G. right. exact Hd. }
    { intros d Hd. apply HK. right. exact Hd. }
    { intros d Hd. apply HC'. right. exact Hd. }
    { intros d Hd. apply HH. right. exact Hd. }
    destruct (HK c (or_introl eq_refl)) as (K1 & K2 & _ & K4).
    destruct (G c (or_introl eq_refl) K2) as (_ & _ & G3).
    destruct (G3 K1 K4 (HC' c (or_introl eq_refl)) (HH c (or_introl eq_refl)) fx) as [G3a G3b].
    rewrite K2, !flat_map_app, pnt_app. split; [apply Forall_app; split; assumption|]. rewrite G3b, I2. reflexivity. }
  destruct k.
  - (* BLOCK *) rewrite Forall_forall in T. apply BX; [exact I | | exact HR].
    intros c Hc _ Q. apply (T c Hc). destruct Q as [Q|[Q|[]]]; [right; left; exact Q | right; right; left; exact Q].
  - (* LINES *) rewrite Forall_forall in T. apply BX; [exact I | | exact HR].
    intros c Hc _ Q. apply (proj1 (T c Hc)). destruct Q as [Q|[Q|[]]]; [right; left; exact Q | right; right; left; exact Q].
  - (* FLEX *) rewrite Forall_forall in T. apply BX; [exact I | | exact HR].
    intros c Hc _ Q. apply (proj1 (T c Hc)). destruct Q as [Q|[Q|[]]]; [right; left; exact Q | right; right; left; exact Q].
  - (* TABLE *) rewrite Forall_forall in T. apply BX; [exact I | | exact HR].
    intros c Hc _ Q. exact (proj1 (T c Hc) Q).
  - (* PART *)
    destruct T as (T & (P1 & P2 & P3 & P4 & P5) & P7 & P6). rewrite Forall_forall in T.
    change (s_inline s = false) in P7. change (paints = false) in P6. subst paints.
    change (s_pos s = STATIC) in P1. change (s_z s = None) in P2. change (s_clip s = false) in P3.
    change (s_transform s = false) in P4. change (s_opacity s = false) in P5.
    assert (HP : positioned s = false) by (unfold positioned, is_static; rewrite P1; reflexivity).
    assert (HM : makes_context s = false) by (unfold makes_context; rewrite HP, P3, P4, P5; reflexivity).
    assert (HK : forall c, In c kids -> running c = false -> ~ is_kind [SHAPE; GROUP] c) by (intros c Hc _ Q; exact (proj1 (T c Hc) Q)).
    split; [|split].
    + intros _ fx.
      assert (OW : ord Within fx b = [(blocks, []); (blocks, [])] ++ flat_map (ord Within fx) kids).
      { rewrite ord_within by exact HR. subst b. cbn [b_style b_kids b_kind]. cbv zeta. rewrite HM, HP, P7. cbn [orb].
        unfold own_layers, text_layer, background, text, shows. cbn [b_style b_kind b_paints]. destruct (s_hidden s); reflexivity. }
      rewrite OW. repeat apply conj.
      * apply inv_app with (E1 := fun _ => []) (E2 := Ek kids); [reflexivity | | apply KI; exact HK].
        constructor; try reflexivity; repeat constructor; right; cbn; auto.
      * intros [X|X]; subst b; cbn [b_style] in X; congruence.
      * intros l Hl Hn. destruct Hl as [<-|[<-|Hl]]; [exfalso; apply Hn; reflexivity | exfalso; apply Hn; reflexivity|].
        revert l Hl Hn. apply LV; [exact HK | discriminate | exact HM].
    + intros Q. exfalso. apply Q. left. reflexivity.
    + intros Q. exfalso. apply Q. left. reflexivity.
  - (* REPLACED *) assert (HK : forall c, In c kids -> running c = false -> ~ is_kind [SHAPE; GROUP] c) by (rewrite T; intros c []).
    apply BX; [exact I | exact HK | exact HR].
  - (* SVG *)
    destruct T as [T Th]. rewrite Forall_forall in T. change (s_hidden s = false) in Th.
    pose proof (SK T (or_introl eq_refl)) as SV. clear SK BX.
    set (g := Frag id (FSvg paints) s false (flat_map (fun c => if running c then [] else images c) kids)).
    assert (EI : images b = [g]) by reflexivity.
    assert (PO : forall fx, pnt fx (own_of g) = alone b fx).
    { intros fx. unfold own_of, g, alone. cbn [b b_kind b_paints b_kids b_id]. rewrite Th. destruct paints; cbn [orb negb]; [|reflexivity].
      unfold pnt. cbn [flat_map snd]. rewrite app_nil_r.
      destruct (SV (fx ++ [(VIEW, id)])) as [S1 S2]. rewrite <- S2. exact (stack_key0 _ _ S1). }
    assert (K0 : Forall key0 (own_of g)).
    { unfold own_of, g. destruct (s_hidden s || negb paints); repeat constructor. }
    assert (GC : forall fx, pnt fx (go any Context g) = alone b (fx ++ effects id s)).
    { intros fx. unfold g. rewrite go_context, establish_pnt, app_nil_r. fold g. rewrite (stack_key0 _ _ K0). apply PO. }
    split; [|split].
    + intros _ fx. destruct (makes_context s) eqn:HM.
      * destruct (context_good id SVG s paints kids) with (fx := fx) as (C1 & C2 & C3); try discriminate; try assumption.
        repeat apply conj; [exact C1 | intros _; exact C2 | exact C3].
      * assert (OW : ord Within fx b = [((if positioned s then zero else if s_inline s then lines else blocks), alone b fx)]).
        { rewrite ord_within by exact HR. subst b. cbn [b_style b_kids b_kind b_id]. cbv zeta. rewrite HM.
          destruct (positioned s), (s_inline s); reflexivity. }
        assert (LB : forall l, In l (ord Within fx b) -> level l <> 0%Z -> In (level l) (levels b)).
        { rewrite OW. intros l [<-|[]] Hn. exfalso. apply Hn. unfold level. cbn [fst]. destruct (positioned s), (s_inline s); reflexivity. }
        assert (EE : forall p, E b p = if match p with BLOCKS => negb (positioned s) && negb (s_inline s) | INLINES => negb (positioned s) && s_inline s | ZERO => positioned s | _ => false end then own_of g else []).
        { intros p. unfold E. rewrite EI. cbn [flat_map]. rewrite app_nil_r. unfold g. rewrite go_visit, IM. fold g.
          rewrite !app_nil_r. destruct (positioned s) eqn:HP.
          - assert (Hz : z_or_0 s = 0%Z).
            { unfold makes_context in HM. rewrite HP in HM. unfold has_auto_z, z_or_0 in *. destruct (s_z s); [discriminate HM | reflexivity]. }
            assert (ES : is_static s = false) by (unfold positioned in HP; apply negb_true_iff; exact HP).
            rewrite ES, (chosen_positioned s p HP), Hz. destruct p; reflexivity.
          - assert (ES : is_static s = true) by (unfold positioned in HP; apply negb_false_iff; exact HP).
            assert (P : s_pos s = STATIC) by (unfold is_static in ES; destruct (s_pos s); try discriminate; reflexivity).
            assert (Hz : s_z s = None) by exact (proj1 (proj1 OB P)).
            rewrite ES, (chosen_static s p HP Hz Tf). destruct p, (s_inline s); reflexivity. }
        repeat apply conj; [| |exact LB].
        -- rewrite OW. eapply inv_ext; [|apply single_inv; [| exact K0 | apply PO]].
           ++ intros p. cbv beta. rewrite EE. destruct (positioned s), (s_inline s), p; reflexivity.
           ++ destruct (positioned s), (s_inline s); auto.
        -- intros X. rewrite EE. change (positioned s = true \/ s_inline s = true) in X.
           destruct X as [->| ->]; cbn; rewrite ?andb_false_r; reflexivity.
    + intros _ _ fx. rewrite EI. cbn [flat_map]. rewrite app_nil_r, ord_alone by exact HR. apply GC.
    + intros _ Hp (C1 & C2 & _) _ fx. specialize (Hp eq_refl). change (paints = true) in Hp. subst paints.
      change (s_clip s = false) in C1. change (s_opacity s = false) in C2.
      rewrite EI. cbn [flat_map]. rewrite app_nil_r. unfold g. cbn [go].
      split; [repeat constructor|]. rewrite ord_svg by exact HR. unfold b. cbn [flat_map snd b_kind b_kids b_id b_style]. rewrite app_nil_r.
      destruct (SV ((fx ++ effects id s) ++ [(VIEW, id)])) as [S1 S2]. rewrite <- S2, <- (stack_key0 _ _ S1).
      unfold pnt. cbn [flat_map snd]. rewrite app_nil_r. unfold effects, transformed. rewrite C1, C2.
      destruct (s_transform s); cbn [prepare painted app]; rewrite ?app_nil_r, <- ?app_assoc; reflexivity.
  - (* SHAPE *)
    destruct T as [T Th]. change (s_hidden s = false) in Th. subst kids. split; [|split].
    + intros Q. exfalso. apply Q. left. reflexivity.
    + intros Q. exfalso. apply Q. right. left. reflexivity.
    + intros _ _ (C1 & C2 & _) _ fx. change (s_clip s = false) in C1. change (s_opacity s = false) in C2.
      unfold b. cbn [images flat_map fkind_of go]. rewrite app_nil_r.
      split; [destruct paints; repeat constructor|]. rewrite ord_svg by exact HR. unfold b. cbn [flat_map snd b_kind b_kids b_id b_style]. rewrite app_nil_r.
      unfold shows. cbn [b_kind b_style b_paints b_id]. rewrite Th. unfold effects, transformed. rewrite C1, C2.
      destruct paints, (s_transform s); cbn; rewrite ?app_nil_r; reflexivity.
  - (* GROUP *)
    rewrite Forall_forall in T. pose proof (SK T (or_intror eq_refl)) as SV. clear SK BX. split; [|split].
    + intros Q. exfalso. apply Q. right. left. reflexivity.
    + intros Q. exfalso. apply Q. right. right. left. reflexivity.
    + intros _ _ (C1 & C2 & _) _ fx. change (s_clip s = false) in C1. change (s_opacity s = false) in C2.
      unfold b. cbn [images flat_map fkind_of go]. rewrite app_nil_r.
      split; [repeat constructor|]. rewrite ord_svg by exact HR. unfold b. cbn [flat_map snd b_kind b_kids b_id b_style]. rewrite app_nil_r.
      destruct (SV (fx ++ effects id s)) as [S1 S2]. rewrite <- S2, <- (stack_key0 _ _ S1).
      unfold pnt. cbn [flat_map snd]. rewrite app_nil_r. unfold effects, transformed. rewrite C1, C2.
      destruct (s_transform s); cbn [prepare painted app]; rewrite ?app_nil_r; reflexivity.
Qed.

Theorem render_order b : tame b -> clear b -> orderly b -> render b = Some (css_order true b).
Proof.
  intros HT HC (HO & HH). destruct (render_images b HT) as (g & Eg & Er).
  destruct HT as (HT & HK & HR). rewrite Er. f_equal.
  destruct (good_all b HT HC HO HR) as (_ & G & _). unfold css_order. rewrite <- (G HK HH []), Eg. cbn [flat_map]. rewrite app_nil_r.
  destruct g as [i k s o ks|i s f]; [|reflexivity].
  assert (Eo : go any Context (Frag i k s o ks) = go any Context (Frag i k s false ks)) by reflexivity.
  rewrite Eo, go_context. apply painted_single.
Qed.
