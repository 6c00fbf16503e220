(* Which box fills the place of a box that is out of flow. *)
From Coq Require Import List Arith ZArith Bool Permutation Lia.
From Verif Require Import Paint.PaintModel Paint.PaintSpec Paint.PaintProofs.
Import ListNotations.
Local Open Scope list_scope.

Fixpoint resolve (anc : list box) (p : pend) : list (nat * option nat) :=
  match p with
  | Pend id s _ st fi _ => (id, containing_block s anc) :: fi ++ flat_map (resolve anc) st
  end.

Lemma contains_can_hold X n : out_of_flow n = true -> contains (b_style X) n = can_hold n X.
Proof.
  unfold out_of_flow, contains, can_hold, positioned, is_static. destruct (s_pos n); try discriminate; reflexivity.
Qed.

Lemma resolve_skip X anc p : (forall n, In n (loose p) -> can_hold n X = false) ->
  resolve (X :: anc) p = resolve anc p.
Proof.
  induction p as [id s f st fi c IH] using pend_ind'. intros H. cbn [resolve].
  assert (E : containing_block s (X :: anc) = containing_block s anc).
  { unfold containing_block. cbn [find]. rewrite (H s) by (left; reflexivity). reflexivity. }
  rewrite E. f_equal. f_equal. apply flat_map_ext_in. intros q Hq. rewrite Forall_forall in IH.
  apply IH; [exact Hq|]. intros n Hn. apply H. cbn [loose]. right. apply in_flat_map. exists q. split; assumption.
Qed.

Lemma perm_weave {A B} (f g h : A -> list B) l :
  (forall x, In x l -> Permutation (f x) (g x ++ h x)) ->
  Permutation (flat_map f l) (flat_map g l ++ flat_map h l).
Proof.
  induction l as [|x l IH]; intros H; [reflexivity|]. cbn [flat_map].
  rewrite (H x (or_introl eq_refl)), (IH (fun y Hy => H y (or_intror Hy))).
  rewrite <- !app_assoc. apply Permutation_app_head. rewrite !app_assoc. apply Permutation_app_tail.
  apply Permutation_app_comm.
Qed.

Lemma flat_map_flat_map {A B C} (f : A -> list B) (g : B -> list C) l :
  flat_map g (flat_map f l) = flat_map (fun x => flat_map g (f x)) l.
Proof. induction l; [reflexivity|]. cbn. rewrite flat_map_app, IHl. reflexivity. Qed.

Lemma settle_resolve X anc p : sound p ->
  let o := settle (contains (b_style X)) (Some (b_id X)) p in
  Permutation (resolve (X :: anc) p) (o_filled o ++ flat_map (resolve anc) (o_stash o)).
Proof.
  induction p as [id s f st fi c IH] using pend_ind'. intros Hp. cbv zeta.
  pose proof Hp as H. apply sound_unfold in H. destruct H as (_ & _ & _ & Ho & Hl & Hs).
  destruct (contains (b_style X) s) eqn:E.
  - cbn [settle]. rewrite E. cbn [o_filled o_stash resolve]. unfold containing_block at 1. cbn [find].
    rewrite <- (contains_can_hold X s Ho), E. cbn [option_map app]. constructor.
    rewrite <- app_assoc. apply Permutation_app_head. rewrite !flat_map_map, flat_map_flat_map.
    apply perm_weave. intros q Hq. rewrite Forall_forall in IH, Hs. exact (IH q Hq (Hs q Hq)).
  - assert (L := settle_loose (b_style X) (Some (b_id X)) _ Hp).
    assert (ES : settle (contains (b_style X)) (Some (b_id X)) (Pend id s f st fi c) = mkOut [] [Pend id s f st fi c] [] false).
    { cbn [settle]. rewrite E. reflexivity. }
    rewrite ES in *. cbn [o_filled o_stash app flat_map]. rewrite app_nil_r.
    cbn [o_stash flat_map] in L. rewrite app_nil_r in L.
    rewrite resolve_skip; [reflexivity|]. intros n Hn.
    rewrite <- contains_can_hold; [exact (proj2 (L n Hn)) | exact (loose_out _ Hp n Hn)].
Qed.

Lemma settle_root p : Permutation (resolve [] p) (o_filled (settle (fun _ => true) None p)).
Proof.
  induction p as [id s f st fi c IH] using pend_ind'. cbn [resolve settle o_filled].
  constructor. apply Permutation_app_head. rewrite flat_map_map. rewrite Forall_forall in IH.
  clear -IH. induction st as [|q st IHs]; [constructor|]. cbn [flat_map].
  rewrite (IH q (or_introl eq_refl)), IHs; [reflexivity|]. intros x Hx. apply IH. right. exact Hx.
Qed.

Definition held (t : bool) (b : box) : Prop := forall anc,
  Permutation (o_filled (lay t b) ++ flat_map (resolve anc) (o_stash (lay t b))) (containing_blocks anc b).

Lemma settle_all_held b o fs cr anc (l : list (nat * option nat)) : Forall sound (o_stash o) ->
  Permutation (o_filled o ++ flat_map (resolve (b :: anc)) (o_stash o)) l ->
  let q := settle_all (contains (b_style b)) (Some (b_id b)) (mkOut fs (o_stash o) (o_filled o) cr) in
  Permutation (o_filled q ++ flat_map (resolve anc) (o_stash q)) l.
Proof.
  intros Hs HP. cbv zeta. rewrite <- HP. clear HP. unfold settle_all. cbn [o_filled o_stash]. rewrite <- app_assoc. apply Permutation_app_head.
  rewrite !flat_map_map, flat_map_flat_map. symmetry. apply perm_weave.
  intros q Hq. rewrite Forall_forall in Hs. apply (settle_resolve b anc q (Hs q Hq)).
Qed.

Lemma gather_held (kids : list box) (h : box -> out) anc (e : box -> list (nat * option nat)) :
  (forall c, In c kids -> Permutation (o_filled (h c) ++ flat_map (resolve anc) (o_stash (h c))) (e c)) ->
  let o := gather (map h kids) in
  Permutation (o_filled o ++ flat_map (resolve anc) (o_stash o)) (flat_map e kids).
Proof.
  intros H. unfold gather. cbn [o_filled o_stash]. rewrite !flat_map_map, flat_map_flat_map. symmetry.
  apply perm_weave. intros c Hc. symmetry. exact (H c Hc).
Qed.

Lemma pending_held c anc : held false c ->
  Permutation (flat_map (resolve anc) [pending c (lay false c)])
              ((b_id c, containing_block (b_style c) anc) :: containing_blocks anc c).
Proof. intros H. cbn [flat_map]. rewrite app_nil_r. unfold pending. cbn [resolve]. constructor. apply H. Qed.

Lemma tame_held b : everywhere tame_box b -> forall t, (b_kind b = PART -> t = true) -> held t b.
Proof.
  induction b as [id k s paints kids IH] using box_ind'. intros HT t Ht anc.
  pose proof (everywhere_at _ _ HT) as T. pose proof (everywhere_kids _ _ HT) as TK.
  cbn [b_kids] in TK. rewrite Forall_forall in IH, TK.
  assert (W : forall c, In c kids -> forall t, (b_kind c = PART -> t = true) -> held t c)
    by (intros c Hc; exact (IH c Hc (TK c Hc))).
  assert (WL : forall c, In c kids -> forall t, (b_kind c = PART -> t = true) -> well_laid t c)
    by (intros c Hc; exact (tame_laid c (TK c Hc))).
  destruct T as (Tf & Tz & T). cbn [b_kind b_style b_kids] in *. unfold each in T. cbn [b_kids] in T.
  assert (N : forall c l, ~ is_kind (PART :: l) c -> b_kind c <> PART).
  { intros c l H E. apply H. left. exact (eq_sym E). }
  set (b := Box id k s paints kids) in *.
  assert (D : forall t', k <> BLOCK -> k <> LINES -> k <> FLEX ->
    (forall c, In c kids -> (b_kind c = PART -> t' = true) /\ running c = false /\ escaping c = []) ->
    Permutation (o_filled (gather (map snd (map (fun c => (c, lay t' c)) kids)))) (containing_blocks anc b)
    /\ o_stash (gather (map snd (map (fun c => (c, lay t' c)) kids))) = []).
  { intros t' K1 K2 K3 H. assert (S0 : o_stash (gather (map snd (map (fun c => (c, lay t' c)) kids))) = []).
    { unfold gather. cbn [o_stash]. rewrite map_map, flat_map_map. cbn [snd].
      clear -H WL. induction kids as [|c kids IHk]; [reflexivity|]. cbn [flat_map].
      destruct (H c (or_introl eq_refl)) as (H1 & _ & H2).
      rewrite (escaping_nil_stash t' c (WL c (or_introl eq_refl) t' H1) H2).
      apply IHk; intros; [apply WL; [right|] | apply H; right]; assumption. }
    split; [|exact S0].
    assert (EM : map snd (map (fun c => (c, lay t' c)) kids) = map (fun c => lay t' c) kids) by (rewrite map_map; reflexivity).
    rewrite EM in *.
    assert (P := gather_held kids (fun c => lay t' c) (b :: anc)
      (fun c => if running c then []
        else match k with
             | BLOCK | LINES | FLEX =>
                 if out_of_flow (b_style c) then [(b_id c, containing_block (b_style c) (b :: anc))] else []
             | _ => []
             end ++ containing_blocks (b :: anc) c)).
    cbv zeta in P. rewrite S0 in P. cbn [flat_map] in P. rewrite app_nil_r in P.
    apply P. intros c Hc. destruct (H c Hc) as (H1 & H2 & _). rewrite H2.
    replace (match k with BLOCK | LINES | FLEX => _ | _ => _ end) with (@nil (nat * option nat))
      by (destruct k; congruence).
    apply (W c Hc t' H1). }
  assert (L : lay t b = lay t (Box id k s paints kids)) by reflexivity.
  destruct k.
  - (* BLOCK *)
    rewrite Forall_forall in T.
    pose proof (gather_well kids (fun c => block_child c (lay false c))) as G.
    assert (G0 : forall c, In c kids -> well_child c (block_child c (lay false c))).
    { intros c Hc. apply block_child_well.
      - apply WL; [exact Hc|]. intros E. exfalso. exact (N c _ (T c Hc) E).
      - exact (N c _ (T c Hc)). }
    specialize (G G0). cbv zeta in G. destruct G as (G1 & G2 & G3 & G4).
    rewrite L; cbn [lay]; cbv zeta. rewrite map_map. cbn [fst snd].
    refine (settle_all_held b _ _ _ anc _ G2 _). apply gather_held. intros c Hc.
    assert (Wc : held false c) by (apply W; [exact Hc|]; intros E; exfalso; exact (N c _ (T c Hc) E)).
    unfold block_child, running, out_of_flow. destruct (s_pos (b_style c)) eqn:E; cbn [pos_eqb o_filled o_stash none app].
    + apply Wc.
    + apply Wc.
    + apply pending_held, Wc.
    + apply pending_held, Wc.
    + apply Wc.
    + reflexivity.
  - (* LINES *)
    rewrite Forall_forall in T.
    pose proof (gather_well kids (fun c => line_child c (lay false c))) as G.
    assert (G0 : forall c, In c kids -> well_child c (line_child c (lay false c))).
    { intros c Hc. destruct (T c Hc) as [T1 T2]. apply line_child_well.
      - apply WL; [exact Hc|]. intros E. exfalso. exact (N c _ T1 E).
      - exact (N c _ T1).
      - exact T2. }
    specialize (G G0). cbv zeta in G. destruct G as (G1 & G2 & G3 & G4).
    rewrite L; cbn [lay]; cbv zeta. rewrite map_map. cbn [fst snd].
    refine (settle_all_held b _ _ _ anc _ G2 _). apply gather_held. intros c Hc. destruct (T c Hc) as [T1 T2].
    assert (Wc : held false c) by (apply W; [exact Hc|]; intros E; exfalso; exact (N c _ T1 E)).
    rewrite T2. unfold line_child. destruct (out_of_flow (b_style c)) eqn:E; cbn [o_filled o_stash app].
    + apply pending_held, Wc.
    + apply Wc.
  - (* FLEX *)
    rewrite Forall_forall in T.
    pose proof (gather_well kids (fun c => if running c then none else lay false c)) as G.
    assert (G0 : forall c, In c kids -> well_child c (if running c then none else lay false c)).
    { intros c Hc. destruct (T c Hc) as [T1 T2]. destruct (running c) eqn:R.
      - unfold well_child, none. rewrite R. cbn. repeat apply conj; [reflexivity | constructor | intros n [] | intros; constructor].
      - apply plain_child; [|exact T2 | exact R]. apply WL; [exact Hc|]. intros E. exfalso. exact (N c _ T1 E). }
    specialize (G G0). cbv zeta in G. destruct G as (G1 & G2 & G3 & G4).
    assert (F0 : forall ko, In ko (map (fun c => (c, lay false c)) kids) ->
                 out_of_flow (b_style (fst ko)) = false /\ s_float (b_style (fst ko)) = false).
    { intros ko Hko. apply in_map_iff in Hko. destruct Hko as (c & <- & Hc). cbn [fst].
      split; [exact (proj2 (T c Hc)) | exact (proj1 (everywhere_at _ _ (TK c Hc)))]. }
    destruct (flex_plain _ F0) as (F1 & F2 & F3 & F4). rewrite map_map in F1, F2, F3, F4. cbn [fst snd] in F1, F2, F3, F4.
    rewrite L; cbn [lay]; cbv zeta. rewrite F1, F2, F3, F4.
    refine (settle_all_held b _ _ _ anc _ G2 _). apply gather_held. intros c Hc. destruct (T c Hc) as [T1 T2].
    destruct (running c); [reflexivity|]. rewrite T2. cbn [app].
    apply W; [exact Hc|]; intros E; exfalso; exact (N c _ T1 E).
  - (* TABLE *)
    rewrite Forall_forall in T. destruct (D true) as [D1 D2]; try discriminate.
    { intros c Hc. destruct (T c Hc) as (T1 & T2 & T3). split; [reflexivity | split; assumption]. }
    rewrite L; cbn [lay]; cbv zeta. unfold settle_all, dropped. cbn [o_filled o_stash map flat_map]. rewrite !app_nil_r. exact D1.
  - (* PART *)
    destruct T as (T & _). rewrite Forall_forall in T. pose proof (Ht eq_refl) as Et; subst t. destruct (D true) as [D1 D2]; try discriminate.
    { intros c Hc. destruct (T c Hc) as (T1 & T2 & T3). split; [reflexivity | split; assumption]. }
    rewrite L; cbn [lay]; cbv zeta. rewrite D2. cbn [flat_map]. rewrite app_nil_r. exact D1.
  - subst kids. cbn. constructor.
  - (* SVG *)
    destruct T as [T _]. rewrite Forall_forall in T. destruct (D false) as [D1 D2]; try discriminate.
    { intros c Hc. destruct (T c Hc) as (T1 & T2 & T3 & _). split; [|split; assumption].
      intros E. exfalso. exact (N c _ T1 E). }
    rewrite L; cbn [lay]; cbv zeta. unfold dropped. cbn [o_filled o_stash flat_map]. rewrite app_nil_r. exact D1.
  - destruct T as [T _]. subst kids. cbn. constructor.
  - (* GROUP *)
    rewrite Forall_forall in T. destruct (D false) as [D1 D2]; try discriminate.
    { intros c Hc. destruct (T c Hc) as (T1 & T2 & T3 & _). split; [|split; assumption].
      intros E. exfalso. exact (N c _ T1 E). }
    rewrite L; cbn [lay]; cbv zeta. unfold dropped. cbn [o_filled o_stash flat_map]. rewrite app_nil_r. exact D1.
Qed.

(* Each box out of flow is laid out in its containing block. *)
Theorem filled_by_containing_block b : tame b ->
  Permutation (o_filled (layout_root b)) (containing_blocks [] b).
Proof.
  intros (HT & HK & HR).
  assert (K : b_kind b = PART -> false = true) by (intros E; exfalso; apply HK; left; exact (eq_sym E)).
  rewrite <- (tame_held b HT false K []). unfold layout_root, settle_all. cbn [o_filled].
  apply Permutation_app_head. rewrite flat_map_map.
  induction (o_stash (lay false b)) as [|q l IH]; [constructor|]. cbn [flat_map].
  rewrite IH, settle_root. reflexivity.
Qed.
