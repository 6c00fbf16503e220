(** C73: rows are as high as their cells need. C74: the height of a table. C75: repeated headers and
    footers. *)
From Coq Require Import List Arith ZArith QArith Bool Lia Lqa Sorted Permutation.
From Verif.Base Require Import Outcome.
From Verif.Table Require Import GridModel GridSpec GridProofs GridProps RecordProps WidthModel WidthProofs WidthProps HeightModel.
Import ListNotations.
Local Open Scope Q_scope.

(** ** C73 *)
Lemma max_ge q : forall r, r <= qmax r q.
Proof. intros r. apply qmax_le. Qed.
Lemma cell_rows_le h cs v a : le_cols v (cell_rows h cs v a).
Proof.
  destruct a as [[i j] c]. unfold cell_rows. destruct (cell_height h c) as [q|]; [eapply le_trans|]; apply le_over; intros r; apply max_ge.
Qed.
Lemma cells_le h cs a : forall v, le_cols v (fold_left (cell_rows h cs) a v).
Proof. induction a as [|x a IH]; intros v; [apply le_refl|]. cbn [fold_left]. eapply le_trans; [apply cell_rows_le|apply IH]. Qed.
Definition tall (hh : nat) (a : list (nat * nat * cell)) : Prop := forall i j c, In (i, j, c) a -> (i + c_rows c <= hh)%nat.
Lemma in_seq_lt i n hh k : (i + n <= hh)%nat -> In k (seq i n) -> (k < hh)%nat.
Proof. intros H Hin. apply in_seq in Hin. lia. Qed.
Lemma over_max_at q xs v k : NoDup xs -> (forall x, In x xs -> (x < length v)%nat) -> In k xs -> q <= nth k (over xs (fun r => qmax r q) v) 0.
Proof. intros Nd H Hin. rewrite nth_over by assumption. assert (existsb (Nat.eqb k) xs = true) as -> by (apply existsb_exists; exists k; split; [exact Hin|apply Nat.eqb_refl]). apply qmax_le. Qed.
Lemma cell_rows_at h cs v i j c : (i + c_rows c <= length v)%nat -> forall k, In k (seq i (c_rows c)) ->
  let n := inject_Z (Z.of_nat (c_rows c)) in
  measured h (nth j cs 0) c / n <= nth k (cell_rows h cs v (i, j, c)) 0 /\ (forall q, cell_height h c = Some q -> q / n <= nth k (cell_rows h cs v (i, j, c)) 0).
Proof.
  intros H k Hk n. unfold cell_rows. fold n. split.
  - apply over_max_at; [apply seq_NoDup| |exact Hk]. intros x Hx. destruct (cell_height h c); [rewrite over_length|]; eapply in_seq_lt; eauto.
  - intros q ->. eapply Qle_trans; [|apply le_over; intros r; apply max_ge]. apply over_max_at; [apply seq_NoDup| |exact Hk]. intros x Hx. eapply in_seq_lt; eauto.
Qed.
Lemma cells_at h cs hh a : tall hh a -> forall v, length v = hh -> forall i j c, In (i, j, c) a -> forall k, In k (seq i (c_rows c)) ->
  let n := inject_Z (Z.of_nat (c_rows c)) in let r := fold_left (cell_rows h cs) a v in
  measured h (nth j cs 0) c / n <= nth k r 0 /\ (forall q, cell_height h c = Some q -> q / n <= nth k r 0).
Proof.
  induction a as [|x a IH]; intros T v L i j c Hin k Hk; [destruct Hin|]. cbv zeta. cbn [fold_left]. destruct Hin as [->|Hin].
  - destruct (cell_rows_at h cs v i j c) with (k := k) as [A B]; [rewrite L; apply (T i j c); now left|exact Hk|].
    pose proof (proj2 (cells_le h cs a (cell_rows h cs v (i, j, c))) k) as C. split; [lra|]. intros q E. specialize (B q E). lra.
  - assert (tall hh a) as T' by (intros i0 j0 c0 H0; apply (T i0 j0 c0); now right). apply (IH T' (cell_rows h cs v x)) with (i := i); [|exact Hin|exact Hk]. rewrite <- (proj1 (cell_rows_le h cs v x)). exact L.
Qed.
(** [n] shares of at least [q / n] make at least [q]. *)
Lemma shares q n v : forall i, (0 < n)%nat -> (forall k, In k (seq i n) -> q / inject_Z (Z.of_nat n) <= nth k v 0) -> q <= range_sum (seq i n) v.
Proof.
  intros i Hn H. assert (forall xs, (forall k, In k xs -> q / inject_Z (Z.of_nat n) <= nth k v 0) -> inject_Z (Z.of_nat (length xs)) * (q / inject_Z (Z.of_nat n)) <= range_sum xs v) as G.
  { clear. induction xs as [|x xs IH]; intros H; [change (inject_Z (Z.of_nat (length (@nil nat)))) with 0; change (range_sum [] v) with 0; lra|]. cbn [length]. rewrite nat_Q_S. unfold range_sum. cbn [map]. change (qsum (?h :: ?t)) with (h + qsum t).
    pose proof (H x (or_introl eq_refl)) as Hx. specialize (IH (fun k Hk => H k (or_intror Hk))). unfold range_sum in IH. lra. }
  specialize (G _ H). rewrite seq_length in G. pose proof (nat_Q_pos n Hn) as P. assert (inject_Z (Z.of_nat n) * (q / inject_Z (Z.of_nat n)) == q) as E by (field; lra). lra.
Qed.
Lemma tr_heights_length h ts : forall v, length (tr_heights h ts v) = length v.
Proof. unfold tr_heights. induction ts as [|t ts IH]; intros v; [reflexivity|]. cbn [fold_left]. rewrite IH. destruct (tr_height h (a_el t)); [apply over_length|reflexivity]. Qed.
Lemma row_heights_length h g cs : length (row_heights h g cs) = height g.
Proof. unfold row_heights. rewrite <- (proj1 (cells_le h cs _ _)), tr_heights_length. apply repeat_length. Qed.
Lemma window {A} (d : A) v : forall n x, (x + n <= length v)%nat -> firstn n (skipn x v) = map (fun i => nth i v d) (seq x n).
Proof.
  induction n as [|n IH]; intros x L; [reflexivity|]. cbn [seq map]. rewrite <- (IH (S x)) by lia.
  assert (skipn x v = nth x v d :: skipn (S x) v) as ->; [|reflexivity]. clear IH. revert x L. induction v as [|a v IHv]; intros [|x] L; cbn in L |- *; try lia; [reflexivity|]. rewrite IHv by lia. reflexivity.
Qed.
(** The rows that a cell spans are at least as high as the cell: as the content needs when it is laid
    out in the first column of the cell, and as specified. *)
Theorem C73_rows_hold_cells : forall l h cs, spans l ->
  exists g ps y, build l = Ok g /\ formed [] 0 (table_steps l) ps y /\ map p_cell ps = rev (cells_of (table_steps l)) /\
    length (row_heights h g cs) = height g /\
    forall p, In p ps ->
      let rows_of := qsum (firstn (c_rows (p_cell p)) (skipn (p_y p) (row_heights h g cs))) in
      measured h (nth (p_x p) cs 0) (p_cell p) <= rows_of /\ forall q, cell_height h (p_cell p) = Some q -> q <= rows_of.
Proof.
  intros l h cs Sp. destruct (table_anchors l Sp) as (g & ps & y & E & F & M & P & A & B & Fits). exists g, ps, y. do 3 (split; [assumption|]). split; [apply row_heights_length|].
  intros p Hp. destruct (Fits p Hp) as (_ & F2 & _ & F4). cbv zeta. rewrite (window 0) by (rewrite row_heights_length; exact F2).
  assert (tall (height g) (anchors g)) as T by (intros i j c Hin; exact (proj1 (proj2 (Fits _ (B i j c Hin))))).
  pose proof (cells_at h cs (height g) (anchors g) T (tr_heights h (trs g) (repeat 0 (height g)))) as K. rewrite tr_heights_length, repeat_length in K. specialize (K eq_refl _ _ _ (A p Hp)).
  fold (row_heights h g cs) in K. cbv zeta in K. split.
  - apply shares; [exact F4|]. intros k Hk. exact (proj1 (K k Hk)).
  - intros q Eq. apply shares; [exact F4|]. intros k Hk. exact (proj2 (K k Hk) q Eq).
Qed.
Print Assumptions C73_rows_hold_cells.

(** A row is not higher than one of its cells or its element ask for. *)
Definition asked (h : hsizes) (g : grid) (cs : list Q) (k : nat) (q : Q) : Prop :=
  q = 0 \/ (exists t, In t (trs g) /\ (a_start t <= k <= a_end t)%nat /\ tr_height h (a_el t) = Some q) \/
  (exists i j c, In (i, j, c) (anchors g) /\ (i <= k < i + c_rows c)%nat /\
     let n := inject_Z (Z.of_nat (c_rows c)) in q = measured h (nth j cs 0) c / n \/ exists s, cell_height h c = Some s /\ q = s / n).
Lemma over_nth_cases f xs v k : (nth k (over xs f v) 0 = nth k v 0 :> Q) \/ (In k xs /\ exists u, nth k (over xs f v) 0 = f u).
Proof.
  revert v. induction xs as [|x xs IH]; intros v; [now left|]. cbn [over fold_left]. fold (over xs f (upd v x f)). destruct (IH (upd v x f)) as [E|[Hin E]]; [|right; split; [now right|exact E]].
  rewrite E, nth_upd_any. destruct ((k =? x)%nat && (x <? length v)%nat) eqn:B; [|now left]. apply andb_prop in B as [B _]. apply Nat.eqb_eq in B. subst. right. split; [now left|eauto].
Qed.
Lemma over_max_cases q xs v k : (nth k (over xs (fun r => qmax r q) v) 0 = nth k v 0) \/ (In k xs /\ nth k (over xs (fun r => qmax r q) v) 0 = q).
Proof.
  revert v. induction xs as [|x xs IH]; intros v; [now left|]. cbn [over fold_left]. fold (over xs (fun r => qmax r q) (upd v x (fun r => qmax r q))).
  destruct (IH (upd v x (fun r => qmax r q))) as [E|[Hin E]]; [|right; split; [now right|exact E]].
  rewrite E, nth_upd_any. destruct ((k =? x)%nat && (x <? length v)%nat) eqn:B; [|now left]. apply andb_prop in B as [B _]. apply Nat.eqb_eq in B. subst. unfold qmax.
  destruct (lt (nth x v 0) q); [right; split; [now left|reflexivity]|now left].
Qed.
Lemma asked_all h g cs k : asked h g cs k (nth k (row_heights h g cs) 0).
Proof.
  unfold row_heights. assert (asked h g cs k (nth k (tr_heights h (trs g) (repeat 0 (height g))) 0)) as A.
  { unfold tr_heights. assert (forall ts, incl ts (trs g) -> forall v, asked h g cs k (nth k v 0) -> asked h g cs k
      (nth k (fold_left (fun v t => match tr_height h (a_el t) with Some q => over (interval t) (fun _ => q) v | None => v end) ts v) 0)) as G.
    { induction ts as [|t ts IH]; intros I v Hv; [exact Hv|]. cbn [fold_left]. apply IH; [intros x Hx; apply I; now right|]. destruct (tr_height h (a_el t)) as [q|] eqn:E; [|exact Hv].
      destruct (over_nth_cases (fun _ => q) (interval t) v k) as [->|[Hin [_ ->]]]; [exact Hv|]. right. left. exists t. split; [apply I; now left|]. split; [|exact E].
      unfold interval in Hin. apply in_seq in Hin. lia. }
    apply G; [apply incl_refl|]. left. destruct (Nat.lt_ge_cases k (height g)); [|apply nth_overflow; now rewrite repeat_length]. apply nth_repeat. }
  revert A. generalize (tr_heights h (trs g) (repeat 0 (height g))) as v. assert (forall a, incl a (anchors g) -> forall v, asked h g cs k (nth k v 0) -> asked h g cs k (nth k (fold_left (cell_rows h cs) a v) 0)) as G; [|intros v Hv; apply G; [apply incl_refl|exact Hv]].
  induction a as [|x a IH]; intros I v Hv; [exact Hv|]. cbn [fold_left]. apply IH; [intros y Hy; apply I; now right|]. destruct x as [[i j] c]. unfold cell_rows.
  destruct (over_max_cases (measured h (nth j cs 0) c / inject_Z (Z.of_nat (c_rows c))) (seq i (c_rows c))
    (match cell_height h c with Some q => over (seq i (c_rows c)) (fun r => qmax r (q / inject_Z (Z.of_nat (c_rows c)))) v | None => v end) k) as [->|[Hin ->]].
  - destruct (cell_height h c) as [q|] eqn:Eq; [|exact Hv]. destruct (over_max_cases (q / inject_Z (Z.of_nat (c_rows c))) (seq i (c_rows c)) v k) as [->|[Hin ->]]; [exact Hv|].
    right. right. exists i, j, c. split; [apply I; now left|]. apply in_seq in Hin. split; [lia|]. right. eauto.
  - right. right. exists i, j, c. split; [apply I; now left|]. apply in_seq in Hin. split; [lia|]. now left.
Qed.
(** When no cell spans columns (so that its first column is its width), a row is not higher than what
    is asked for by its element or by a cell laid out in its width.

    Full statement: for all tables. Missing: cells that span columns. *)
Theorem C73_rows_not_higher_partial : forall l h cs k, spans l -> Forall (fun c => c_cols c = 1%nat) (cells_of (table_steps l)) ->
  exists g ps y, build l = Ok g /\ formed [] 0 (table_steps l) ps y /\
    let r := nth k (row_heights h g cs) 0 in
    r = 0 \/ (exists t, In t (trs g) /\ (a_start t <= k <= a_end t)%nat /\ tr_height h (a_el t) = Some r) \/
    exists p, In p ps /\ (p_y p <= k < p_y p + c_rows (p_cell p))%nat /\
      let n := inject_Z (Z.of_nat (c_rows (p_cell p))) in
      let w := qsum (firstn (c_cols (p_cell p)) (skipn (p_x p) cs)) in
      (forall u v, u == v -> measured h u (p_cell p) == measured h v (p_cell p)) -> length cs = width g ->
      r == measured h w (p_cell p) / n \/ exists s, cell_height h (p_cell p) = Some s /\ r == s / n.
Proof.
  intros l h cs k Sp Hc. destruct (table_anchors l Sp) as (g & ps & y & E & F & M & P & A & B & Fits). exists g, ps, y. do 2 (split; [assumption|]). cbv zeta.
  destruct (asked_all h g cs k) as [Z|[T|(i & j & c & Hin & Hk & Hq)]]; [now left|right; now left|]. right. right. exists (mkP c j i). pose proof (B i j c Hin) as Hp. split; [exact Hp|]. cbn [p_y p_cell p_x].
  split; [exact Hk|]. intros Ext L. cbv zeta in Hq. destruct Hq as [->|(s & Es & ->)]; [left|right; exists s; split; [exact Es|reflexivity]].
  assert (c_cols c = 1%nat) as C1. { rewrite Forall_forall in Hc. apply Hc. apply in_rev. rewrite <- M. apply in_map_iff. exists (mkP c j i). auto. }
  destruct (Fits _ Hp) as (F1 & _). cbn [p_x p_cell] in F1. rewrite (window 0) by lia. rewrite C1. cbn [seq map]. rewrite (Ext (qsum [nth j cs 0]) (nth j cs 0)); [reflexivity|]. cbn. ring.
Qed.
Print Assumptions C73_rows_not_higher_partial.

(** Content that is [300] high in the width 1 and takes as many lines as it needs. *)
Definition sample_heights : hsizes :=
  mkH (fun id => if (id =? 3)%nat then Some 25 else None) (fun c => if (c_id c =? 2)%nat then Some 40 else None) (fun w c => 300 * inject_Z (Z.of_nat (c_id c)) / w).
Definition heights_of (l : list child) (cs : list Q) (spacing : Q) (known : option Q) (autos : nat) : outcome (list Q * Q * nat) :=
  obind (build l) (fun g => omap (fun '(v, u, n) => (map Qred v, Qred u, n)) (table_heights sample_heights g cs spacing known autos)).
Definition tall_table : list child := [BODY (mkGroup 1 [tr 2 [one 1; Some (mkCell 9 2 1)]; tr 3 [one 2]])].
Example C73_sample : spans tall_table /\ Forall (fun c => c_cols c = 1%nat) (cells_of (table_steps tall_table)) /\
  heights_of tall_table [30; 60] 0 None 0 = Ok ([45 # 2; 40], 125 # 2, 1%nat) /\ heights_of tall_table [30; 30] 0 None 0 = Ok ([45; 45], 90, 1%nat).
Proof. split; [split; vm_compute; repeat constructor|]. split; [vm_compute; repeat constructor|]. split; vm_compute; reflexivity. Qed.
(** A cell that spans two columns of 50 is measured in the first: its row is twice as high as it
    needs to be. *)
Theorem C73_rows_not_higher_refuted :
  heights_of [BODY (mkGroup 1 [tr 2 [Some (mkCell 1 1 2)]; tr 4 [one 0; one 0]])] [50; 50] 0 None 0 = Ok ([6; 0], 6, 2%nat) /\
  Qred (measured sample_heights (50 + 50) (mkCell 1 1 2)) = 3.
Proof. split; vm_compute; reflexivity. Qed.
Print Assumptions C73_rows_not_higher_refuted.

(** ** C74. There are not more row elements than rows. *)
Definition mono (g g' : grid) : Prop := (height g <= height g')%nat /\ header_rows g' = header_rows g.
Definition kept (g g' : grid) : Prop := trs g' = trs g /\ cur_y g' = cur_y g /\ mono g g'.
Lemma mono_refl g : mono g g.
Proof. now split. Qed.
Lemma mono_trans a b c : mono a b -> mono b c -> mono a c.
Proof. intros [H1 H2] [H3 H4]. split; [lia|congruence]. Qed.
Lemma kept_refl g : kept g g.
Proof. split; [reflexivity|]. split; [reflexivity|apply mono_refl]. Qed.
Lemma kept_trans a b c : kept a b -> kept b c -> kept a c.
Proof. intros (H1 & H2 & M1) (H3 & H4 & M2). split; [congruence|]. split; [congruence|]. eapply mono_trans; eauto. Qed.
Lemma obind_ok {A B} (x : outcome A) (f : A -> outcome B) b : obind x f = Ok b -> exists a, x = Ok a /\ f a = Ok b.
Proof. destruct x as [a| |]; [|discriminate..]. cbn. eauto. Qed.
Lemma set_kept g x y s g' : set_at g x y s = Ok g' -> kept g g'.
Proof. unfold set_at. intros H. apply obind_ok in H as (? & _ & H). injection H as <-. repeat split; cbn; lia. Qed.
Lemma grow_one_kept d : forall n g x g', grow_one g d n x = Ok g' -> kept g g'.
Proof.
  induction n as [|n IH]; intros g x g' H; cbn [grow_one] in H; [injection H as <-; apply kept_refl|]. apply obind_ok in H as (s & _ & H). apply obind_ok in H as (g1 & H1 & H).
  eapply kept_trans; [exact (set_kept _ _ _ _ _ H1)|exact (IH _ _ _ H)].
Qed.
Lemma grow_cells_kept : forall ds g g', grow_cells ds g = Ok g' -> kept g g'.
Proof.
  induction ds as [|d ds IH]; intros g g' H; cbn [grow_cells] in H; [injection H as <-; apply kept_refl|]. apply obind_ok in H as (g1 & H1 & H). eapply kept_trans; [exact (grow_one_kept _ _ _ _ _ H1)|exact (IH _ _ H)].
Qed.
Lemma fill_column_kept s x : forall n g y g', fill_column g s x n y = Ok g' -> kept g g'.
Proof.
  induction n as [|n IH]; intros g y g' H; cbn [fill_column] in H; [injection H as <-; apply kept_refl|]. apply obind_ok in H as (g1 & H1 & H). eapply kept_trans; [exact (set_kept _ _ _ _ _ H1)|exact (IH _ _ _ H)].
Qed.
Lemma fill_kept s ny y : forall nx g x g', fill g s nx x ny y = Ok g' -> kept g g'.
Proof.
  induction nx as [|n IH]; intros g x g' H; cbn [fill] in H; [injection H as <-; apply kept_refl|]. apply obind_ok in H as (g1 & H1 & H). eapply kept_trans; [exact (fill_column_kept _ _ _ _ _ _ H1)|exact (IH _ _ _ H)].
Qed.
Lemma kept_width g n : kept g (increase_width n g).
Proof. repeat split; cbn; lia. Qed.
Lemma kept_height g n : kept g (increase_height n g).
Proof. split; [reflexivity|]. split; [reflexivity|]. split; [cbn; lia|reflexivity]. Qed.
Lemma kept_if (b : bool) g x y : kept g x -> kept g y -> kept g (if b then x else y).
Proof. now destruct b. Qed.
Lemma process_cell_kept c g g' : process_cell c g = Ok g' -> kept g g'.
Proof.
  unfold process_cell. intros H. apply obind_ok in H as (x & _ & H). cbv zeta in H. apply obind_ok in H as (g1 & H1 & H). apply fill_kept in H1.
  assert (g' = with_cur (if (c_rows c =? 0)%nat then with_down g1 (down g1 ++ [mkGrow x (cur_y g1) x (c_cols c)]) else g1) (x + c_cols c)
    (cur_y (if (c_rows c =? 0)%nat then with_down g1 (down g1 ++ [mkGrow x (cur_y g1) x (c_cols c)]) else g1))) as -> by (injection H as <-; reflexivity). clear H.
  eapply kept_trans; [|eapply kept_trans; [exact H1|]].
  - apply kept_if; [eapply kept_trans; [|apply kept_height]|]; (apply kept_if; [eapply kept_trans; [|apply kept_width]|]; apply kept_if; repeat split; cbn; lia).
  - destruct (c_rows c =? 0)%nat; repeat split; cbn; lia.
Qed.
Lemma process_cells_kept : forall cs g g', process_cells cs g = Ok g' -> kept g g'.
Proof.
  induction cs as [|[c|] cs IH]; intros g g' H; cbn [process_cells] in H; [injection H as <-; apply kept_refl| |exact (IH _ _ H)]. apply obind_ok in H as (g1 & H1 & H).
  eapply kept_trans; [exact (process_cell_kept _ _ _ H1)|exact (IH _ _ H)].
Qed.
Lemma process_row_kept r g g' : process_row r g = Ok g' -> trs g' = trs g /\ cur_y g' = S (cur_y g) /\ mono g g'.
Proof.
  unfold process_row. intros H. cbv zeta in H. apply obind_ok in H as (g1 & H1 & H). apply obind_ok in H as (g2 & H2 & H). injection H as <-. apply grow_cells_kept in H1. apply process_cells_kept in H2.
  pose proof (kept_trans _ _ _ H1 H2) as (T & Y & M). cbn [with_cur trs cur_y]. rewrite T, Y. destruct (height g =? cur_y g)%nat; (split; [reflexivity|split; [reflexivity|]]); destruct M as [M1 M2]; split; try exact M2; cbn in M1 |- *; lia.
Qed.
Definition few (g : grid) : Prop := (length (trs g) <= cur_y g)%nat.
Lemma end_few : forall n g g', end_row_group n g = Ok g' -> few g -> few g' /\ mono g g'.
Proof.
  induction n as [|n IH]; intros g g' H F; cbn [end_row_group] in H; [injection H as <-; split; [exact F|apply mono_refl]|]. destruct (cur_y g <? height g)%nat; [|injection H as <-; split; [exact F|apply mono_refl]].
  apply obind_ok in H as (g1 & H1 & H). apply grow_cells_kept in H1. destruct H1 as (T & Y & M). destruct (IH _ _ H) as [F' M'].
  - unfold few in *. cbn [with_down with_cur trs cur_y]. rewrite T, Y. lia.
  - split; [exact F'|]. eapply mono_trans; [exact M|exact M'].
Qed.
Lemma group_rows_few : forall rs g g', group_rows rs g = Ok g' -> few g -> few g' /\ mono g g'.
Proof.
  induction rs as [|[r|] rs IH]; intros g g' H F; cbn [group_rows] in H; [injection H as <-; split; [exact F|apply mono_refl]| |exact (IH _ _ H F)]. apply obind_ok in H as (g1 & H1 & H).
  apply process_row_kept in H1. destruct H1 as (T & Y & M). destruct (IH _ _ H) as [F' M'].
  - unfold few in *. cbn [with_trs trs cur_y]. rewrite app_length, T, Y. cbn. lia.
  - split; [exact F'|]. eapply mono_trans; [exact M|exact M'].
Qed.
Lemma process_group_few t g g' : process_group t g = Ok g' -> few g -> few g' /\ mono g g'.
Proof.
  unfold process_group. intros H F. apply obind_ok in H as (g1 & H1 & H). apply group_rows_few in H1; [|exact F]. destruct H1 as [F1 M1]. destruct (height g <? height g1)%nat; apply end_few in H; try exact F1;
    (destruct H as [F2 M2]; split; [exact F2|eapply mono_trans; [exact M1|exact M2]]).
Qed.
Lemma body_few : forall l seen g g' fs, body seen l g = Ok (g', fs) -> few g -> few g' /\ mono g g'.
Proof.
  induction l as [|c l IH]; intros seen g g' fs H F; cbn [body] in H; [injection H as <- _; split; [exact F|apply mono_refl]|]. destruct c; try (apply (IH _ _ _ _ H F)).
  - apply obind_ok in H as (g1 & H1 & H). apply process_row_kept in H1. destruct H1 as (T & Y & M). destruct (IH _ _ _ _ H) as [F' M']; [unfold few in *; rewrite T, Y; lia|]. split; [exact F'|eapply mono_trans; eauto].
  - apply obind_ok in H as (g1 & H1 & H). apply end_few in H1; [|exact F]. destruct H1 as [F1 M1]. destruct seen; [|destruct (IH _ _ _ _ H F1); split; [assumption|eapply mono_trans; eauto]].
    apply obind_ok in H as (g2 & H2 & H). apply process_group_few in H2; [|exact F1]. destruct H2 as [F2 M2]. destruct (IH _ _ _ _ H F2) as [F3 M3]. split; [exact F3|]. eapply mono_trans; [exact M1|]. eapply mono_trans; eauto.
  - apply obind_ok in H as (g1 & H1 & H). apply end_few in H1; [|exact F]. destruct H1 as [F1 M1].
    apply obind_ok in H as (g2 & H2 & H). apply process_group_few in H2; [|exact F1]. destruct H2 as [F2 M2]. destruct (IH _ _ _ _ H F2) as [F3 M3]. split; [exact F3|]. eapply mono_trans; [exact M1|]. eapply mono_trans; eauto.
  - apply obind_ok in H as (g1 & H1 & H). apply end_few in H1; [|exact F]. destruct H1 as [F1 M1]. apply obind_ok in H as ([g2 f2] & H2 & H). injection H as <- _.
    destruct (IH _ _ _ _ H2 F1) as [F2 M2]. split; [exact F2|eapply mono_trans; eauto].
Qed.
Lemma footers_few : forall fs g g', footers fs g = Ok g' -> few g -> few g' /\ mono g g'.
Proof.
  induction fs as [|t fs IH]; intros g g' H F; cbn [footers] in H; [injection H as <-; split; [exact F|apply mono_refl]|]. apply obind_ok in H as (g1 & H1 & H).
  apply process_group_few in H1; [|exact F]. destruct H1 as [F1 M1]. destruct (IH _ _ H F1) as [F2 M2]. split; [exact F2|eapply mono_trans; eauto].
Qed.
Lemma few_rows l g : Forall positive_child l -> build l = Ok g -> (length (trs g) <= height g)%nat /\ (header_rows g + footer_rows g <= height g)%nat.
Proof.
  intros Hp E. destruct (build_inv l Hp) as (g' & ps & E' & (f & _ & Hb & _) & _). rewrite E in E'. injection E' as <-.
  assert (few g /\ (header_rows g + footer_rows g <= height g)%nat) as [F G]; [|split; [rewrite Hb; eapply Nat.le_trans; [exact F|apply bottom_ge]|exact G]]. clear Hb.
  unfold build in E. pose proof (column_groups_spec l 0 empty) as (g0 & l' & E0 & Fr & _); [repeat split|]. rewrite E0 in E.
  destruct Fr as (_ & Th & _ & _ & Ty & _ & Tt & _ & Tr & Tf).
  destruct l' as [|c0 l0]; [injection E as <-; unfold few; rewrite Tt, Th, Tr, Tf; cbn; lia|].
  assert (few (with_cur g0 (cur_x g0) 0)) as F0 by (unfold few; cbn [with_cur trs cur_y]; rewrite Tt; cbn; lia).
  apply obind_ok in E as (g1 & E1 & E). apply obind_ok in E as ([g2 fs] & E2 & E). apply obind_ok in E as (g3 & E3 & E). injection E as <-. unfold few. cbn [with_counts trs cur_y header_rows footer_rows height].
  assert (few g1 /\ (header_rows g1 <= height g1)%nat) as [F1 R1].
  { destruct (find_header l) as [t|]; [|injection E1 as <-; split; [exact F0|cbn; lia]]. apply obind_ok in E1 as (g4 & E4 & E1). injection E1 as <-. destruct (process_group_few _ _ _ E4 F0) as [F4 _]. split; [exact F4|cbn; lia]. }
  destruct (body_few _ _ _ _ _ E2 F1) as [F2 [M2 N2]]. destruct (footers_few _ _ _ E3 F2) as [F3 [M3 N3]]. split; [exact F3|]. lia.
Qed.

Lemma qsum_upd_add d : forall v i, (i < length v)%nat -> qsum (over [i] (fun x => x + d) v) == qsum v + d.
Proof.
  cbn [over fold_left]. induction v as [|a v IH]; intros [|i] L; cbn in L; try lia; cbn [upd]; change (qsum (?h :: ?t)) with (h + qsum t); [change (qsum (a :: v)) with (a + qsum v); ring|].
  rewrite IH by lia. change (qsum (a :: v)) with (a + qsum v). ring.
Qed.
Lemma grow_trs_sum h inc : forall ts i v, (i + length ts <= length v)%nat ->
  length (grow_trs h inc ts i v) = length v /\ qsum (grow_trs h inc ts i v) == qsum v + inject_Z (Z.of_nat (length (filter (auto_tr h) ts))) * inc.
Proof.
  induction ts as [|t ts IH]; intros i v L; [cbn [grow_trs filter length]; split; [reflexivity|change (inject_Z (Z.of_nat 0)) with 0; lra]|]. cbn [grow_trs filter length] in *. destruct (auto_tr h t).
  - destruct (IH (S i) (over [i] (fun x => x + inc) v)) as [A B]; [rewrite over_length; lia|]. rewrite over_length in A. split; [exact A|]. rewrite B, qsum_upd_add by lia. cbn [length]. rewrite nat_Q_S. ring.
  - apply IH. lia.
Qed.
Lemma grow_trs_nth h inc : forall ts i v k, (i + length ts <= length v)%nat ->
  nth k (grow_trs h inc ts i v) 0 == nth k v 0 + (if (i <=? k)%nat then match nth_error ts (k - i) with Some t => if auto_tr h t then inc else 0 | None => 0 end else 0).
Proof.
  induction ts as [|t ts IH]; intros i v k L; cbn [grow_trs]; [destruct (i <=? k)%nat; [destruct (k - i)%nat|]; cbn [nth_error]; lra|]. cbn [length] in L.
  rewrite IH by (destruct (auto_tr h t); [rewrite over_length|]; lia).
  assert (nth k (if auto_tr h t then over [i] (fun x => x + inc) v else v) 0 == nth k v 0 + (if (k =? i)%nat then if auto_tr h t then inc else 0 else 0)) as ->.
  { destruct (auto_tr h t); [|destruct (k =? i)%nat; lra]. cbn [over fold_left]. rewrite nth_upd_any. assert (i <? length v = true)%nat as -> by (apply Nat.ltb_lt; lia). rewrite andb_true_r. destruct (k =? i)%nat; lra. }
  destruct (Nat.eqb_spec k i) as [->|N].
  - rewrite Nat.leb_refl, Nat.sub_diag. cbn [nth_error]. assert (S i <=? i = false)%nat as -> by (apply Nat.leb_gt; lia). lra.
  - destruct (Nat.leb_spec (S i) k), (Nat.leb_spec i k); try lia; [|lra]. replace (k - i)%nat with (S (k - S i)) by lia. cbn [nth_error]. lra.
Qed.

Lemma add_le d v : 0 <= d -> le_cols v (map (fun x => x + d) v).
Proof. intros D. split; [now rewrite map_length|]. induction v as [|a v IH]; intros [|i]; cbn [map nth]; try lra. apply IH. Qed.
Lemma add_sum d v : qsum (map (fun x => x + d) v) == qsum v + inject_Z (Z.of_nat (length v)) * d.
Proof.
  induction v as [|a v IH]; [change (inject_Z (Z.of_nat (length (@nil Q)))) with 0; cbn [map]; lra|]. cbn [map length]. rewrite nat_Q_S. change (qsum (?h :: ?t)) with (h + qsum t).
  rewrite IH. change (qsum (a :: v)) with (a + qsum v). ring.
Qed.

(** The first layout of a table with a height: the table has the height that is asked for, or the one
    that its rows need when that is more. The rows with the spacing make it up when there is a row
    element of automatic height, or an element for every row. No row is less high than without; when
    each element stands for the row of its number, rows of automatic height grow by the same amount
    and, if there are any, the others do not grow.

    Full statement: for every layout and all tables. *)
Theorem C74_table_height_partial : forall l h cs spacing k, Forall positive_child l ->
  exists g, build l = Ok g /\
  let v := row_heights h g cs in
  let needed := qsum v + spacing * inject_Z (Z.of_nat (height g + 1)) in
  let autos := filter (auto_tr h) (trs g) in
  ((autos <> [] \/ trs g <> []) -> exists r, table_heights h g cs spacing (Some k) 0 = Ok r) /\
  forall v' used n, table_heights h g cs spacing (Some k) 0 = Ok (v', used, n) ->
    used = (if lt needed k then k else needed) /\ length v' = height g /\
    (k <= needed -> v' = v) /\ le_cols v v' /\
    ((autos <> [] \/ length (trs g) = height g) -> qsum v' + spacing * inject_Z (Z.of_nat (height g + 1)) == used) /\
    (autos <> [] -> needed < k -> forall i, nth i v' 0 == nth i v 0 + match nth_error (trs g) i with Some t => if auto_tr h t then (k - needed) / inject_Z (Z.of_nat (length autos)) else 0 | None => 0 end).
Proof.
  intros l h cs spacing k Hp. destruct (build_inv l Hp) as (g & ps & E & _). exists g. split; [exact E|]. pose proof (proj1 (few_rows l g Hp E)) as Few. pose proof (row_heights_length h g cs) as Lv. cbv zeta.
  unfold table_heights. cbn [Nat.add]. set (v := row_heights h g cs) in *. set (needed := qsum v + spacing * inject_Z (Z.of_nat (height g + 1))). set (autos := filter (auto_tr h) (trs g)). split.
  - intros Ha. destruct (lt needed k); [|eauto]. destruct (0 <? length autos)%nat eqn:B; [eauto|]. apply Nat.ltb_ge in B. destruct (trs g) as [|t ts] eqn:Et; [|cbn; eauto]. destruct Ha as [Ha|Ha]; [|congruence]. now cbn in Ha.
  - intros v' used n H. destruct (lt_spec needed k) as [L|L].
    + destruct (0 <? length autos)%nat eqn:B.
      * apply Nat.ltb_lt in B. injection H as <- <- _. pose proof (nat_Q_pos _ B) as P. destruct (grow_trs_sum h ((k - needed) / inject_Z (Z.of_nat (length autos))) (trs g) 0 v) as [A S]; [lia|].
        assert (forall i, nth i (grow_trs h ((k - needed) / inject_Z (Z.of_nat (length autos))) (trs g) 0 v) 0 == nth i v 0 + match nth_error (trs g) i with Some t => if auto_tr h t then (k - needed) / inject_Z (Z.of_nat (length autos)) else 0 | None => 0 end) as N.
        { intros i. rewrite grow_trs_nth by lia. cbn [Nat.leb]. rewrite Nat.sub_0_r. reflexivity. }
        split; [reflexivity|]. split; [lia|]. split; [intros C; exfalso; lra|]. split.
        { split; [now symmetry|]. intros i. rewrite N. assert (0 <= (k - needed) / inject_Z (Z.of_nat (length autos))) by (apply Qle_shift_div_l; lra). destruct (nth_error (trs g) i) as [t|]; [destruct (auto_tr h t)|]; lra. }
        split; [|intros _ _ i; exact (N i)]. intros _. rewrite S. fold autos. set (m := inject_Z (Z.of_nat (length autos))) in *. assert (m * ((k - needed) / m) == k - needed) as -> by (field; lra). unfold needed. ring.
      * apply Nat.ltb_ge in B. assert (autos = []) as Ea by (destruct autos; [reflexivity|cbn in B; lia]).
        destruct (length (trs g)) as [|m] eqn:El; [discriminate|]. injection H as <- <- _. split; [reflexivity|]. split; [now rewrite map_length|]. split; [intros C; exfalso; lra|].
        set (M := inject_Z (Z.of_nat (S m))). assert (0 < M) as P by (apply nat_Q_pos; lia). set (d := (k - needed) / M). assert (0 <= d) as D by (apply Qle_shift_div_l; lra). split.
        { exact (add_le d v D). }
        split; [|intros C; congruence]. intros [C|C]; [congruence|].
        change ((k - needed) / inject_Z (Z.of_nat (S m))) with d. rewrite add_sum.
        rewrite Lv, <- C. fold M. assert (M * d == k - needed) as Ed by (unfold d; field; lra). change ((k - needed) / inject_Z (Z.pos (Pos.of_succ_nat m))) with d. rewrite Ed. unfold needed. rewrite <- C. ring.
    + injection H as <- <- _. split; [reflexivity|]. split; [exact Lv|]. split; [reflexivity|]. split; [apply le_refl|]. split; [intros _; reflexivity|]. intros _ C. exfalso. lra.
Qed.
Print Assumptions C74_table_height_partial.
Example C74_sample : Forall positive_child tall_table /\ heights_of tall_table [30; 60] 2 (Some 100) 0 = Ok ([54; 40], 100, 1%nat).
Proof. split; [repeat constructor|vm_compute; reflexivity]. Qed.

(** The number of automatic rows of the first layout is added to that of the second: half of the
    height is missing. The height goes to the row of the number of the element: the row that is not in
    a group grows instead of the one of automatic height. When no row is in a group, the height leads
    to a division by 0. *)
Definition C74_full : Prop := forall l h cs spacing k autos g v' used n, Forall positive_child l -> build l = Ok g ->
  table_heights h g cs spacing (Some k) autos = Ok (v', used, n) -> qsum v' + spacing * inject_Z (Z.of_nat (height g + 1)) == used.
Theorem C74_table_height_refuted :
  heights_of [BODY (mkGroup 1 [tr 2 [one 1]])] [30] 0 (Some 100) 0 = Ok ([100], 100, 1%nat) /\
  heights_of [BODY (mkGroup 1 [tr 2 [one 1]])] [30] 0 (Some 100) 1 = Ok ([55], 100, 2%nat) /\
  heights_of [ROW (mkRow 5 [one 1]); BODY (mkGroup 1 [tr 2 [one 1]; tr 3 [one 1]])] [30] 0 (Some 100) 0 = Ok ([65; 10; 25], 100, 1%nat) /\
  heights_of [ROW (mkRow 2 [one 1])] [30] 0 (Some 100) 0 = Panic /\
  ~ C74_full.
Proof.
  do 4 (split; [vm_compute; reflexivity|]). intros F. assert (exists g, build [BODY (mkGroup 1 [tr 2 [one 1]])] = Ok g) as [g Eg] by (eexists; vm_compute; reflexivity).
  assert (exists v n, table_heights sample_heights g [30] 0 (Some 100) 1 = Ok (v, 100, n) /\ qsum v == 55 /\ height g = 1%nat) as (v & n & E & S & H).
  { vm_compute in Eg. injection Eg as <-. eexists. eexists. split; [vm_compute; reflexivity|]. split; vm_compute; reflexivity. }
  specialize (F [BODY (mkGroup 1 [tr 2 [one 1]])] _ _ _ _ _ g _ _ _ ltac:(repeat constructor) Eg E). rewrite S in F. rewrite H in F. vm_compute in F. discriminate.
Qed.
Print Assumptions C74_table_height_refuted.

(** ** Where rows start *)
(** The columns or rows before [n], each with the space after it. *)
Definition offset (s : Q) (v : list Q) (n : nat) : Q := qsum (map (fun k => nth k v 0 + s) (seq 0 n)).
Lemma qsum_app a b : qsum (a ++ b) == qsum a + qsum b.
Proof. induction a as [|x a IH]; [cbn [app]; change (qsum []) with 0; lra|]. cbn [app]. change (qsum (?h :: ?t)) with (h + qsum t). rewrite IH. change (qsum (x :: a)) with (x + qsum a). ring. Qed.
Lemma offset_S s v n : offset s v (S n) == offset s v n + (nth n v 0 + s).
Proof. unfold offset. rewrite seq_S, map_app, qsum_app. cbn [Nat.add map]. change (qsum [nth n v 0 + s]) with (nth n v 0 + s + 0). ring. Qed.
Lemma offset_add s v n : forall x, offset s v (x + n) == offset s v x + range_sum (seq x n) v + inject_Z (Z.of_nat n) * s.
Proof.
  induction n as [|n IH]; intros x; [rewrite Nat.add_0_r; change (range_sum (seq x 0) v) with 0; change (inject_Z (Z.of_nat 0)) with 0; ring|].
  rewrite Nat.add_succ_r, offset_S, IH, seq_S, nat_Q_S. unfold range_sum. rewrite map_app, qsum_app. cbn [map]. change (qsum [nth (x + n) v 0]) with (nth (x + n) v 0 + 0). ring.
Qed.
Lemma prefix_nth : forall v acc k, (k < length v)%nat -> nth k (prefix acc v) 0 == acc + range_sum (seq 0 (S k)) v.
Proof.
  induction v as [|a v IH]; intros acc k L; cbn in L; [lia|]. destruct k as [|k]; [unfold range_sum; cbn [prefix nth seq map]; change (qsum [a]) with (a + 0); ring|].
  cbn [prefix nth]. rewrite IH by lia. unfold range_sum. change (seq 0 (S (S k))) with (0%nat :: seq 1 (S k)). cbn [map]. change (qsum (?h :: ?t)) with (h + qsum t). rewrite <- seq_shift, map_map. cbn [nth]. ring.
Qed.
Lemma query_sum v l n : (l + n <= length v)%nat -> query v l n == range_sum (seq l n) v.
Proof.
  intros L. destruct n as [|m]; [reflexivity|]. unfold query. destruct l as [|l]; [rewrite prefix_nth by lia; ring|].
  rewrite !prefix_nth by lia. unfold range_sum. replace (S (S l + m))%nat with (S l + S m)%nat by lia. rewrite seq_app, map_app, qsum_app. cbn [Nat.add]. ring.
Qed.

(** ** C75 *)
Lemma repeated_nth v sy : forall n i y k, (k < n)%nat -> nth k (repeated_rows v sy n i y) 0 == y + (offset sy v (i + k) - offset sy v i).
Proof.
  induction n as [|n IH]; intros i y k L; [lia|]. destruct k as [|k]; cbn [repeated_rows nth]; [rewrite Nat.add_0_r; ring|]. rewrite IH by lia. replace (S i + k)%nat with (i + S k)%nat by lia.
  rewrite (offset_S sy v i). ring.
Qed.
(** Each row of a repeated header starts below the rows before it, and the room that is kept is the
    rows with the space around them. For footers this holds of those of one row, when the header
    has one row too.

    Full statement: the same for all footers. *)
Theorem C75_repeated_partial : forall l sy v, Forall positive_child l ->
  exists g, build l = Ok g /\ (length v = height g ->
  (forall y k, (k < header_rows g)%nat -> nth k (repeated_rows v sy (header_rows g) 0 y) 0 == y + qsum (map (fun r => r + sy) (firstn k v))) /\
  ((0 < header_rows g)%nat -> header_size g v sy == sy + qsum (map (fun r => r + sy) (firstn (header_rows g) v))) /\
  (footer_rows g = 1%nat -> (forall y, repeated_rows v sy (footer_rows g) 0 y = [y]) /\
     (header_rows g = 1%nat -> footer_size g v sy == sy + (nth (height g - 1) v 0 + sy)))).
Proof.
  intros l sy v Hp. destruct (build_inv l Hp) as (g & _ & E & _). exists g. split; [exact E|]. intros Lv. pose proof (proj2 (few_rows l g Hp E)) as Few.
  assert (forall k, (k <= length v)%nat -> offset sy v k == qsum (map (fun r => r + sy) (firstn k v))) as Off.
  { intros k Hk. unfold offset. rewrite <- (map_map (fun i => nth i v 0) (fun r => r + sy)). replace (firstn k v) with (firstn k (skipn 0 v)) by reflexivity. rewrite (window 0) by lia. reflexivity. }
  split; [|split].
  - intros y k L. rewrite repeated_nth by exact L. cbn [Nat.add]. change (offset sy v 0) with 0. rewrite Off by lia. ring.
  - intros Hpos. unfold header_size. destruct (header_rows g) as [|n] eqn:En; [lia|]. rewrite query_sum by lia. rewrite <- Off by lia. pose proof (offset_add sy v (S n) 0) as A. cbn [Nat.add] in A |- *.
    rewrite A. change (offset sy v 0) with 0. replace (S (n + 1)) with (S (S n)) by lia. rewrite (nat_Q_S (S n)). ring.
  - intros Hf. rewrite Hf. split; [reflexivity|]. intros H1. unfold footer_size. rewrite Hf, H1. rewrite query_sum by lia. unfold range_sum. cbn [seq map]. change (qsum [nth (height g - 1) v 0]) with (nth (height g - 1) v 0 + 0).
    change (inject_Z (Z.of_nat (1 + 1))) with 2. ring.
Qed.
Print Assumptions C75_repeated_partial.
Definition striped : list child := [HEAD (mkGroup 1 [tr 2 [one 1]]); BODY (mkGroup 3 [tr 4 [one 2]]); FOOT (mkGroup 5 [tr 6 [one 3]; tr 7 [one 4]])].
(** The table with a header of one row and a footer of two: rows of 10, 20, 30 and 40 with a space
    of 1. *)
Example C75_sample : Forall positive_child striped /\
  omap (fun g => (header_rows g, footer_rows g, height g, map Qred (repeated_rows [10; 20; 30; 40] 1 1 0 5), Qred (header_size g [10; 20; 30; 40] 1))) (build striped) = Ok (1%nat, 2%nat, 4%nat, [5], 12).
Proof. split; [repeat constructor|vm_compute; reflexivity]. Qed.
(** The second row of the footer starts 11 below the first, which is 30 high (as the first of the
    table is 10 high), and the room that is kept is one space short. *)
Theorem C75_repeated_refuted :
  omap (fun g => (map Qred (repeated_rows [10; 20; 30; 40] 1 (footer_rows g) 0 100), Qred (footer_size g [10; 20; 30; 40] 1))) (build striped) = Ok ([100; 111], 72) /\
  ~ (forall l g v sy, Forall positive_child l -> build l = Ok g -> length v = height g -> footer_rows g <> 0%nat ->
       footer_size g v sy == sy + qsum (map (fun r => r + sy) (skipn (height g - footer_rows g) v))) /\
  ~ (forall l g v sy y k, Forall positive_child l -> build l = Ok g -> length v = height g -> (k < footer_rows g)%nat ->
       nth k (repeated_rows v sy (footer_rows g) 0 y) 0 == y + qsum (map (fun r => r + sy) (firstn k (skipn (height g - footer_rows g) v)))).
Proof.
  split; [vm_compute; reflexivity|]. assert (exists g, build striped = Ok g) as [g Eg] by (eexists; vm_compute; reflexivity).
  assert (Forall positive_child striped) as Hp by repeat constructor. split; intros F.
  - specialize (F striped g [10; 20; 30; 40] 1 Hp Eg). vm_compute in Eg. injection Eg as <-. specialize (F eq_refl). vm_compute in F. discriminate F. discriminate.
  - specialize (F striped g [10; 20; 30; 40] 1 100 1%nat Hp Eg). vm_compute in Eg. injection Eg as <-. specialize (F eq_refl). vm_compute in F. discriminate F. lia.
Qed.
Print Assumptions C75_repeated_refuted.
