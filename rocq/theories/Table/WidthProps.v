(** C32: the widths of columns. C71: tables of automatic width. C72: a table that is laid out again. *)
From Coq Require Import List Arith QArith Bool Lia Lqa.
From Verif.Base Require Import Outcome.
From Verif.Table Require Import GridModel GridSpec GridProofs GridProps WidthModel WidthProofs.
Import ListNotations.
Local Open Scope Q_scope.

(** ** The cells of the grid by their first slots are those of the table. *)
Lemma in_combine_seq {A} (l : list A) : forall s i a, In (i, a) (combine (seq s (length l)) l) <-> (s <= i)%nat /\ nth_error l (i - s) = Some a.
Proof.
  induction l as [|x l IH]; intros s i a; cbn [length seq combine In].
  - split; [intros []|]. intros [_ H]. now destruct (i - s)%nat.
  - rewrite IH. split.
    + intros [E|[H1 H2]]; [injection E as -> ->; rewrite Nat.sub_diag; auto|]. split; [lia|]. replace (i - s)%nat with (S (i - S s)) by lia. exact H2.
    + intros [H1 H2]. destruct (Nat.eq_dec i s) as [->|N]; [left; rewrite Nat.sub_diag in H2; cbn in H2; congruence|]. right. split; [lia|].
      replace (i - s)%nat with (S (i - S s)) in H2 by lia. exact H2.
Qed.
Lemma anchors_spec g f : rep g f -> forall i j c, In (i, j, c) (anchors g) <-> ((i < height g)%nat /\ (j < width g)%nat /\ f j i = mkSlot j i (Some c)).
Proof.
  intros R i j c. unfold anchors. rewrite in_flat_map. split.
  - intros ((i' & r) & Hr & Hin). apply in_combine_seq in Hr as [_ Hr]. rewrite Nat.sub_0_r in Hr. unfold row_anchors in Hin. apply in_flat_map in Hin as ((j' & s) & Hs & Hin).
    apply in_combine_seq in Hs as [_ Hs]. rewrite Nat.sub_0_r in Hs.
    assert (i' < height g)%nat as Hi by (rewrite <- (rep_h _ _ R); apply nth_error_Some; congruence).
    assert (j' < width g)%nat as Hj by (rewrite <- (rep_w _ _ R r (nth_error_In _ _ Hr)); apply nth_error_Some; congruence).
    pose proof (rep_in _ _ R j' i' Hj Hi) as E. unfold get2 in E. rewrite Hr, Hs in E. injection E as ->.
    destruct (f j' i') as [sx sy [c'|]] eqn:Ef; cbn in Hin; [|destruct Hin]. destruct (Nat.eqb_spec sx j'), (Nat.eqb_spec sy i'); cbn in Hin; try (now destruct Hin).
    destruct Hin as [E|[]]. injection E as <- <- <-. subst. auto.
  - intros (Hi & Hj & E). pose proof (rep_in _ _ R j i Hj Hi) as G. unfold get2 in G. destruct (nth_error (rows g) i) as [r|] eqn:Er; [|discriminate].
    exists (i, r). split; [apply in_combine_seq; rewrite Nat.sub_0_r; split; [lia|exact Er]|]. unfold row_anchors. apply in_flat_map. exists (j, f j i).
    split; [apply in_combine_seq; rewrite Nat.sub_0_r; split; [lia|exact G]|]. rewrite E. cbn. rewrite !Nat.eqb_refl. now left.
Qed.
Definition spans (l : list child) : Prop := Forall positive_child l /\ Forall (fun c => 0 < c_rows c)%nat (cells_of (table_steps l)).
Lemma table_anchors l : spans l -> exists g ps y, build l = Ok g /\ formed [] 0 (table_steps l) ps y /\ map p_cell ps = rev (cells_of (table_steps l)) /\
  placed (width g) (anchors g) /\ (forall p, In p ps -> In (p_y p, p_x p, p_cell p) (anchors g)) /\ (forall i j c, In (i, j, c) (anchors g) -> In (mkP c j i) ps) /\
  (forall p, In p ps -> (p_x p + c_cols (p_cell p) <= width g)%nat /\ (p_y p + c_rows (p_cell p) <= height g)%nat /\ (0 < c_cols (p_cell p))%nat /\ (0 < c_rows (p_cell p))%nat).
Proof.
  intros [Hp Hz]. destruct (build_inv l Hp) as (g & ps & E & (f & I & Hb & Hw) & M & Sp).
  assert (forall p, In p ps -> 0 < c_rows (p_cell p))%nat as Hr.
  { intros p Hin. rewrite Forall_forall in Hz. apply Hz, in_rev. rewrite <- M. now apply in_map. }
  assert (forallb finite_span ps = true) as Hf.
  { apply forallb_forall. intros p Hin. specialize (Hr p Hin). unfold finite_span. destruct (Nat.eqb_spec (c_rows (p_cell p)) 0); [lia|reflexivity]. }
  destruct (i_exact _ _ _ _ I Hf) as [_ X]. pose proof (i_rep _ _ _ _ I) as R.
  assert (forall p, In p ps -> (p_x p + c_cols (p_cell p) <= width g)%nat /\ (p_y p + c_rows (p_cell p) <= height g)%nat /\ (0 < c_cols (p_cell p))%nat /\ (0 < c_rows (p_cell p))%nat) as Fits.
  { intros p Hin. destruct (i_fits _ _ _ _ I p Hin) as (F1 & F2 & F3). specialize (Hr p Hin). unfold p_height in F2. lia. }
  assert (forall i j c, In (i, j, c) (anchors g) -> In (mkP c j i) ps) as Back.
  { intros i j c Hin. apply (anchors_spec g f R) in Hin as (_ & _ & Hin). rewrite X in Hin. unfold slot_of in Hin. destruct (owner ps j i) as [q|] eqn:Eo; [|discriminate].
    unfold owner in Eo. apply find_some in Eo as [Eo _]. destruct q as [c' x' y']. cbn in Hin. injection Hin as -> -> ->. exact Eo. }
  exists g, ps, (cur_y g). split; [exact E|]. split; [exact (Sp Hf)|]. split; [exact M|]. split; [|split; [|split; [exact Back|exact Fits]]].
  - intros i j c Hin. destruct (Fits _ (Back i j c Hin)) as (A & _ & B & _). auto.
  - intros p Hin. apply (anchors_spec g f R). destruct (Fits p Hin) as (A & B & C & D). split; [lia|]. split; [lia|]. exact (i_anchor _ _ _ _ I p Hin).
Qed.

(** ** C32

    What is known of the widths of a cell: the maximum is not less than the minimum, and the minimum
    is not less with percentages of the width of the table than without. *)
Definition sound (z : sizes) (k : Q) : Prop :=
  forall c, cell_min z 0 c <= cell_min z k c /\ cell_min z 0 c <= cell_max z 0 c /\ cell_min z k c <= cell_max z k c.
Lemma room_weaken f f' a v : (forall c, f c <= f' c) -> room f' a v -> room f a v.
Proof. intros H R i j c Hin. eapply Qle_trans; [apply H|exact (R i j c Hin)]. Qed.
Lemma nonneg_le w v : le_cols (repeat 0 w) v -> length v = w /\ forall i, 0 <= nth i v 0.
Proof. intros [L H]. rewrite repeat_length in L. split; [now symmetry|]. intros i. specialize (H i). rewrite zero_nth in H. exact H. Qed.
Lemma room_toward f a r u v : 0 <= r <= 1 -> length u = length v -> room f a u -> room f a v -> room f a (toward r u v).
Proof.
  intros [R0 R1] L Hu Hv i j c Hin. rewrite toward_range by exact L. specialize (Hu i j c Hin). specialize (Hv i j c Hin).
  set (x := range_sum _ u) in *. set (y := range_sum _ v) in *. set (t := f c) in *. clearbody x y t. nra.
Qed.
Lemma qsum_range v w : length v = w -> qsum v == range_sum (seq 0 w) v.
Proof. intros <-. now rewrite range_all. Qed.
Lemma in_range_room w a j k : (j + k <= w)%nat -> a = w -> forall x, In x (seq j k) -> (x < a)%nat.
Proof. intros H -> x Hx. apply in_seq in Hx. lia. Qed.
Lemma qsum_const {A} c (v : list A) : qsum (map (fun _ => c) v) == inject_Z (Z.of_nat (length v)) * c.
Proof. induction v as [|a v IH]; [cbn; ring|]. cbn [map length]. change (qsum (c :: ?l)) with (c + qsum l). rewrite nat_Q_S. change (qsum (c :: map (fun _ => c) v)) with (c + qsum (map (fun _ => c) v)). rewrite IH. ring. Qed.

Lemma const_nonneg {A} q (v : list A) : 0 <= q -> forall i, 0 <= nth i (map (fun _ => q) v) 0.
Proof. intros H. induction v as [|a v IH]; intros [|i]; cbn [map nth]; auto; lra. Qed.

Lemma auto_known z g k cap cb ws used : placed (width g) (anchors g) -> sound z k -> (0 < width g)%nat ->
  auto_widths z g (Some k) cap cb = Ok (ws, used) ->
  length ws = width g /\ (forall i, 0 <= nth i ws 0) /\ qsum ws == used /\ k <= used /\ cap <= used /\
  room (cell_min z 0) (anchors g) ws /\
  (qmax cap k < used -> exists mx, min_max z g 0 = Ok (ws, mx)).
Proof.
  intros P Sd Hw E. unfold auto_widths in E. destruct (min_max z g 0) as [[mn mx]| |] eqn:E0; [|discriminate..]. cbn [obind] in E. cbv zeta in E.
  destruct (min_max_room z g 0 mn mx P E0) as (N1 & N2 & R1 & R2). destruct (nonneg_le _ _ N1) as [L1 P1]. destruct (nonneg_le _ _ N2) as [L2 P2].
  pose proof (qmax_le cap k) as [Q1 Q2].
  destruct (lt_spec (qmax cap k) (qsum mn)) as [Lt|Lt].
  { injection E as <- <-. split; [exact L1|]. split; [exact P1|]. split; [reflexivity|]. split; [lra|]. split; [lra|]. split; [exact R1|]. intros _. eauto. }
  destruct (min_max z g k) as [[mn' mx']| |] eqn:Ek; [|discriminate..]. cbn [obind] in E.
  destruct (min_max_room z g k mn' mx' P Ek) as (N3 & N4 & R3 & R4). destruct (nonneg_le _ _ N3) as [L3 P3]. destruct (nonneg_le _ _ N4) as [L4 P4].
  assert (exists a b, (if lt (qsum mx) (qmax cap k) then mx else mn) = a /\ (if lt (qsum mx) (qmax cap k) then mx' else mn') = b /\
    length a = width g /\ length b = width g /\ (forall i, 0 <= nth i a 0) /\ (forall i, 0 <= nth i b 0) /\ room (cell_min z 0) (anchors g) a /\ room (cell_min z 0) (anchors g) b /\ qsum a <= qmax cap k) as (a & b & Ea & Eb & La & Lb & Pa & Pb & Ra & Rb & Sa).
  { destruct (lt_spec (qsum mx) (qmax cap k)) as [Lm|Lm].
    - exists mx, mx'. do 6 (split; [auto|]). split; [eapply room_weaken; [|exact R2]; intros c; apply (Sd c)|]. split; [|lra].
      eapply room_weaken; [|exact R4]. intros c. destruct (Sd c) as (A & B & C). lra.
    - exists mn, mn'. do 6 (split; [auto|]). split; [exact R1|]. split; [|lra]. eapply room_weaken; [|exact R3]. intros c. apply (Sd c). }
  rewrite Ea, Eb in E. clear Ea Eb. set (u := qmax cap k) in *. clearbody u.
  destruct (lt_spec u (qsum b)) as [Lu|Lu].
  - injection E as <- <-. set (r := (u - qsum a) / (qsum b - qsum a)).
    assert (r * (qsum b - qsum a) == u - qsum a) as Er by (unfold r; field; lra).
    assert (0 <= r <= 1) as Rr.
    { split; [apply Qle_shift_div_l; lra|apply Qle_shift_div_r; lra]. }
    split; [rewrite toward_length; congruence|]. split.
    { intros i. rewrite toward_nth by congruence. specialize (Pa i). specialize (Pb i). set (x := nth i a 0) in *. set (y := nth i b 0) in *. clearbody r x y. nra. }
    split. { rewrite (qsum_range _ (width g)) by (rewrite toward_length; congruence). rewrite toward_range by congruence. rewrite <- !(qsum_range _ (width g)) by assumption. lra. }
    split; [exact Q2|]. split; [exact Q1|]. split; [apply room_toward; [exact Rr|congruence|exact Ra|exact Rb]|]. intros C. exfalso. lra.
  - destruct (Qeq_bool (qsum b) 0) eqn:Ez.
    + apply Qeq_bool_eq in Ez. injection E as <- <-. split; [now rewrite map_length|]. set (q := u / inject_Z (Z.of_nat (width g))). assert (0 <= q) as Hq by (apply div_nonneg; lra).
      assert (forall i, 0 <= nth i (map (fun _ : Q => q) b) 0) as Pq.
      { intros i. now apply const_nonneg. }
      split; [exact Pq|]. split. { rewrite qsum_const, Lb. unfold q. pose proof (nat_Q_pos _ Hw). field. lra. }
      split; [exact Q2|]. split; [exact Q1|]. split; [|intros C; exfalso; lra].
      intros i j c Hin. pose proof (Rb i j c Hin). pose proof (range_le_sum (seq j (c_cols c)) b Pb (seq_NoDup _ _)). pose proof (range_nonneg (seq j (c_cols c)) _ Pq). lra.
    + assert (~ qsum b == 0) as Nz by (intros C; apply Qeq_bool_iff in C; congruence). pose proof (qsum_le b Pb) as Sb. assert (0 < qsum b) as Sb' by lra.
      injection E as <- <-. set (k0 := (u - qsum b) / qsum b). assert (0 <= k0) as Hk by (apply Qle_shift_div_l; lra).
      assert (forall xs, (forall x, In x xs -> (x < length b)%nat) -> range_sum xs (map (fun w => w + (u - qsum b) * (w / qsum b)) b) == range_sum xs b + k0 * range_sum xs b) as Sc.
      { intros xs Hx. rewrite <- scale_range by exact Hx. unfold range_sum. clear - Nz. induction xs as [|x xs IH]; [reflexivity|]. cbn [map]. 
        change (qsum (?h :: ?t)) with (h + qsum t). rewrite IH. assert (nth x (map (fun w => w + (u - qsum b) * (w / qsum b)) b) 0 == nth x (map (fun w => w + k0 * w) b) 0) as ->; [|reflexivity].
        clear IH. unfold k0. set (s := qsum b) in *. clearbody s k0. revert x. induction b as [|y b IH]; intros [|x]; cbn; try reflexivity; [field; exact Nz|apply IH]. }
      split; [now rewrite map_length|]. split.
      { intros i. destruct (Nat.lt_ge_cases i (length b)) as [H|H]; [|rewrite nth_overflow by (rewrite map_length; exact H); lra].
        assert (nth i (map (fun w => w + (u - qsum b) * (w / qsum b)) b) 0 == range_sum [i] (map (fun w => w + (u - qsum b) * (w / qsum b)) b)) as -> by (unfold range_sum; cbn; ring).
        rewrite Sc by (intros x [<-|[]]; exact H). unfold range_sum. cbn. specialize (Pb i). set (t := nth i b 0) in *. clearbody t k0. nra. }
      split. { rewrite (qsum_range _ (width g)) by now rewrite map_length. rewrite Sc by (intros x Hx; apply in_seq in Hx; lia). rewrite <- (qsum_range b _ Lb). unfold k0. field. lra. }
      split; [exact Q2|]. split; [exact Q1|]. split; [|intros C; exfalso; lra].
      intros i j c Hin. destruct (P i j c Hin) as [F1 F2]. rewrite Sc by (intros x Hx; apply in_seq in Hx; lia).
      pose proof (Rb i j c Hin). pose proof (range_nonneg (seq j (c_cols c)) b Pb). set (t := range_sum _ b) in *. clearbody t k0. nra.
Qed.

(** Automatic layout of a table whose width is known. It is computed, unless a group of columns is
    recorded without columns (C69). The widths of the columns are not negative and add up to the width
    of the table, which is not less than the one that was asked for nor than the caption; every cell
    has in its columns at least its min-content width. When the table is wider than asked for, it has
    the min-content widths. *)
Theorem C32_auto_widths : forall l z k cap cb, spans l -> sound z k ->
  exists g ps y, build l = Ok g /\ formed [] 0 (table_steps l) ps y /\ map p_cell ps = rev (cells_of (table_steps l)) /\
    (Forall (fun a => a_start a <= a_end a)%nat (col_groups g) -> exists r, auto_widths z g (Some k) cap cb = Ok r) /\
    forall ws used, auto_widths z g (Some k) cap cb = Ok (ws, used) -> (0 < width g)%nat ->
      length ws = width g /\ (forall i, 0 <= nth i ws 0) /\ qsum ws == used /\ k <= used /\ cap <= used /\
      (forall p, In p ps -> cell_min z 0 (p_cell p) <= qsum (firstn (c_cols (p_cell p)) (skipn (p_x p) ws))) /\
      (qmax cap k < used -> exists mx, min_max z g 0 = Ok (ws, mx)).
Proof.
  intros l z k cap cb Sp Sd. destruct (table_anchors l Sp) as (g & ps & y & E & F & M & P & A & B & Fits). exists g, ps, y. split; [exact E|]. split; [exact F|]. split; [exact M|]. split.
  - intros Hg. unfold auto_widths. destruct (min_max_ok z g 0 Hg) as (mn & mx & ->). destruct (min_max_ok z g k Hg) as (mn' & mx' & ->). cbn [obind]. cbv zeta.
    repeat match goal with |- context [if ?b then Ok _ else _] => destruct b end; eauto.
  - intros ws used Ew Hw. destruct (auto_known z g k cap cb ws used P Sd Hw Ew) as (K1 & K2 & K3 & K4 & K5 & K6 & K7). do 5 (split; [assumption|]). split; [|exact K7].
    intros p Hp. pose proof (K6 _ _ _ (A p Hp)) as R. destruct (Fits p Hp) as (F1 & _). rewrite <- K1 in F1. clear - R F1.
    assert (qsum (firstn (c_cols (p_cell p)) (skipn (p_x p) ws)) == range_sum (seq (p_x p) (c_cols (p_cell p))) ws) as ->; [|exact R]. clear R. unfold range_sum. revert F1.
    generalize (c_cols (p_cell p)) as n, (p_x p) as x. clear. intros n. induction n as [|n IH]; intros x L; [reflexivity|]. cbn [seq map]. change (qsum (?h :: ?t)) with (h + qsum t).
    rewrite <- (IH (S x)) by lia. assert (skipn x ws = nth x ws 0 :: skipn (S x) ws) as ->; [|reflexivity].
    clear IH. revert x L. induction ws as [|a ws IHw]; intros [|x] L; cbn in L |- *; try lia; [reflexivity|]. rewrite IHw by lia. reflexivity.
Qed.
Print Assumptions C32_auto_widths.

Definition sample_sizes : sizes :=
  mkSizes (fun b c => inject_Z (Z.of_nat (10 * c_id c)) + b / 10) (fun b c => inject_Z (Z.of_nat (20 * c_id c)) + b / 10)
    (fun b c => if (c_id c =? 1)%nat then Some (b / 2) else None) (fun b id => if (id =? 21)%nat then Some 30 else None).
Definition two_columns : list child := [COLGROUP 20 1 [Some (21%nat, 1%nat)]; BODY (mkGroup 1 [tr 2 [one 1; one 2]; tr 3 [Some (mkCell 9 1 2)]])].
Definition widths_of (l : list child) (known : option Q) (cap cb : Q) : outcome (list Q * Q) :=
  obind (build l) (fun g => omap (fun '(v, u) => (map Qred v, Qred u)) (auto_widths sample_sizes g known cap cb)).
Example C32_auto_sample : spans two_columns /\ sound sample_sizes 100 /\ widths_of two_columns (Some 100) 0 500 = Ok ([50; 50], 100) /\
  widths_of two_columns (Some 50) 0 500 = Ok ([50; 40], 90) /\ widths_of two_columns (Some 400) 0 500 = Ok ([2000 # 11; 2400 # 11], 400).
Proof.
  split; [split; [repeat constructor|vm_compute; repeat constructor]|]. split; [|repeat split; vm_compute; reflexivity].
  intros c. unfold sample_sizes. cbn [cell_min cell_max]. assert (0 <= inject_Z (Z.of_nat (10 * c_id c))) by (change 0 with (inject_Z 0); rewrite <- Zle_Qle; lia).
  assert (inject_Z (Z.of_nat (10 * c_id c)) <= inject_Z (Z.of_nat (20 * c_id c))) by (rewrite <- Zle_Qle; lia).
  assert (0 / 10 == 0) as E0 by reflexivity. assert (100 / 10 == 10) as E1 by reflexivity. rewrite E0, E1. repeat split; lra.
Qed.

(** In full a user expects that a row of cells, with the space between them, is as wide as the table.
    Automatic layout gives the whole width of the table to the columns and adds the spacing to it:
    every row ends beyond the table when there is spacing. *)
Definition C32_full : Prop := forall l z k cap cb spacing g ws used, spans l -> sound z k -> 0 <= spacing -> build l = Ok g -> (0 < width g)%nat ->
  auto_widths z g (Some k) cap cb = Ok (ws, used) -> row_extent spacing ws <= used.
Theorem C32_auto_widths_refuted : (exists g ws, build two_columns = Ok g /\ auto_widths sample_sizes g (Some 100) 0 500 = Ok (ws, 100) /\ 100 < row_extent 2 ws) /\ ~ C32_full.
Proof.
  assert (exists g ws, build two_columns = Ok g /\ (0 < width g)%nat /\ auto_widths sample_sizes g (Some 100) 0 500 = Ok (ws, 100) /\ 100 < row_extent 2 ws) as (g & ws & A & W & B & C).
  { eexists. eexists. split; [vm_compute; reflexivity|]. split; [vm_compute; lia|]. split; [vm_compute; reflexivity|]. vm_compute. reflexivity. }
  split; [eauto|]. intros F. destruct C32_auto_sample as (S1 & S2 & _). specialize (F two_columns sample_sizes 100 0 500 2 g ws 100 S1 S2). specialize (F ltac:(lra) A W B). lra.
Qed.
Print Assumptions C32_auto_widths_refuted.

(** Fixed layout: with no borders in the columns and when something is left of the width after the
    spacing and the specified widths, columns and spacing make up the width of the table, and no
    column is narrower than specified. *)
Lemma fixed_sum_0 : forall borders v, Forall (fun b => b == 0) borders -> length borders = length v ->
  fixed_sum borders v == qsum (map (fun o => match o with Some w => w | None => 0 end) v).
Proof.
  unfold fixed_sum. induction borders as [|b bs IH]; intros [|o v] F L; try discriminate; [reflexivity|]. inversion F; subst. cbn [combine map].
  change (qsum (?h :: ?t)) with (h + qsum t). rewrite IH by (auto; cbn in L; lia). destruct o; lra.
Qed.
Lemma fill_autos e v : qsum (map (fun o => match o with Some w => w | None => e end) v) ==
  qsum (map (fun o : option Q => match o with Some w => w | None => 0 end) v) + inject_Z (Z.of_nat (length (filter is_auto v))) * e.
Proof.
  induction v as [|o v IH]; [cbn; ring|]. cbn [map filter]. change (qsum (?h :: ?t)) with (h + qsum t). rewrite IH. destruct o; cbn [is_auto]; [ring|]. cbn [length]. rewrite nat_Q_S.
  change (qsum (0 :: ?t)) with (0 + qsum t). ring.
Qed.
Lemma scaled k s v : ~ s == 0 -> qsum (map (fun w => w + k * (w / s)) v) == qsum v + k * (qsum v / s).
Proof. intros H. induction v as [|w v IH]; [cbn; field; exact H|]. cbn [map]. change (qsum (?h :: ?t)) with (h + qsum t). change (qsum (w :: v)) with (w + qsum v). rewrite IH. field. exact H. Qed.
Definition specified (z : sizes) (g : grid) (k : Q) : outcome (list (option Q)) := fixed_row (width g) z g k 0 (fixed_cols z g k).
Theorem C32_fixed_widths_partial : forall z g borders spacing k v ws, Forall (fun b => b == 0) borders -> length borders = length v ->
  specified z g k = Ok v -> fixed_widths z g borders spacing k = Ok ws ->
  let given := qsum (map (fun o => match o with Some w => w | None => 0 end) v) in
  let space := k - spacing * inject_Z (Z.of_nat (width g + 1)) in
  length ws = length v /\
  (forall i w, nth_error v i = Some (Some w) -> 0 <= w -> exists w', nth_error ws i = Some w' /\ (0 <= given -> w <= w')) /\
  (given < space -> length v = width g -> (0 < width g)%nat -> row_extent spacing ws == k) /\
  (space <= given -> qsum ws == given).
Proof.
  intros z g borders spacing k v ws Hb Lb Ev E given space. unfold fixed_widths in E. fold (specified z g k) in E. rewrite Ev in E. cbn [obind] in E. cbv zeta in E. fold space in E.
  pose proof (fixed_sum_0 borders v Hb Lb) as Es. fold given in Es.
  destruct (0 <? length (filter is_auto v))%nat eqn:Ea.
  - apply Nat.ltb_lt in Ea. destruct (lt_spec (fixed_sum borders v) space) as [Lt|Ge].
    + injection E as <-. split; [apply map_length|]. split; [|split].
      * intros i w Hi _. exists w. rewrite nth_error_map, Hi. split; [reflexivity|]. intros _. lra.
      * intros Hg Lv Hw. unfold row_extent. rewrite map_length, Lv, fill_autos. fold given. pose proof (nat_Q_pos _ Ea) as Pn. rewrite Es. unfold space. field. lra.
      * intros C. exfalso. lra.
    + injection E as <-. split; [apply map_length|]. split; [|split].
      * intros i w Hi _. exists w. rewrite nth_error_map, Hi. split; [reflexivity|]. intros _. lra.
      * intros C. exfalso. lra.
      * intros _. reflexivity.
  - destruct (lt_spec (fixed_sum borders v) space) as [Lt|Ge].
    + destruct (Qeq_bool (fixed_sum borders v) 0 && negb (length v =? 0)%nat) eqn:Ez; [discriminate|]. injection E as <-. split; [now rewrite !map_length|]. split; [|split].
      * intros i w Hi Hw. rewrite !nth_error_map, Hi. cbn [option_map]. eexists. split; [reflexivity|]. intros Gn.
        assert (0 <= (space - fixed_sum borders v) * (w / fixed_sum borders v)) as K; [|lra]. apply Qmult_le_0_compat; [lra|].
        destruct (Qeq_dec (fixed_sum borders v) 0) as [Z|Z]; [|apply Qle_shift_div_l; lra].
        apply Qeq_bool_iff in Z. rewrite Z in Ez. cbn in Ez. apply Bool.negb_false_iff in Ez. apply Nat.eqb_eq in Ez. destruct v; [now destruct i|discriminate].
      * intros Hg Lv Hw. assert (~ fixed_sum borders v == 0) as Nz.
        { intros Z. apply Qeq_bool_iff in Z. rewrite Z in Ez. cbn in Ez. apply Bool.negb_false_iff, Nat.eqb_eq in Ez. lia. }
        unfold row_extent. rewrite !map_length, Lv, scaled by exact Nz. fold given. rewrite <- Es. unfold space. field. exact Nz.
      * intros C. exfalso. lra.
    + injection E as <-. split; [apply map_length|]. split; [|split].
      * intros i w Hi _. exists w. rewrite nth_error_map, Hi. split; [reflexivity|]. intros _. lra.
      * intros C. exfalso. lra.
      * intros _. reflexivity.
Qed.
Print Assumptions C32_fixed_widths_partial.

Definition fixed_of (l : list child) (borders : list Q) (spacing k : Q) : outcome (list Q) :=
  obind (build l) (fun g => omap (map Qred) (fixed_widths sample_sizes g borders spacing k)).
Example C32_fixed_sample :
  obind (build two_columns) (fun g => specified sample_sizes g 100) = Ok [Some 30; None] /\
  fixed_of two_columns [0; 0] 2 100 = Ok [30; 64] /\ row_extent 2 [30; 64] == 100 /\ fixed_of two_columns [0; 0] 2 20 = Ok [30; 0].
Proof. repeat split; vm_compute; reflexivity. Qed.

(** What is missing: with borders in the columns the widths add up to less than the table when there is
    a column with no specified width; and columns of width 0 lead to a division by 0. *)
Definition C32_fixed_full : Prop := forall z g borders spacing k v, specified z g k = Ok v -> length borders = length v -> Forall (fun b => 0 <= b) borders -> (0 < width g)%nat ->
  exists ws, fixed_widths z g borders spacing k = Ok ws /\
  (fixed_sum borders v < k - spacing * inject_Z (Z.of_nat (width g + 1)) -> row_extent spacing ws == k).
Definition zero_sizes : sizes := mkSizes (fun _ _ => 0) (fun _ _ => 0) (fun _ _ => Some 0) (fun _ _ => Some 0).
Theorem C32_fixed_widths_refuted :
  fixed_of two_columns [4; 4] 2 100 = Ok [30; 60] /\
  obind (build two_columns) (fun g => fixed_widths zero_sizes g [0; 0] 0 100) = Panic /\ ~ C32_fixed_full.
Proof.
  split; [vm_compute; reflexivity|]. split; [vm_compute; reflexivity|]. intros F.
  assert (exists g, build two_columns = Ok g) as [g Eg] by (eexists; vm_compute; reflexivity).
  assert (width g = 2%nat) as W by (vm_compute in Eg; injection Eg as <-; reflexivity).
  assert (specified zero_sizes g 100 = Ok [Some 0; Some 0]) as Sv by (vm_compute in Eg; injection Eg as <-; vm_compute; reflexivity).
  destruct (F zero_sizes g [0; 0] 0 100 _ Sv eq_refl) as (ws & E & _); [repeat constructor; lra|lia|]. vm_compute in Eg. injection Eg as <-. vm_compute in E. discriminate.
Qed.
Print Assumptions C32_fixed_widths_refuted.

(** ** C71: a table of automatic width is as wide as its content at its widest when that fits in the
    containing block, and is not wider than the containing block unless its content cannot be
    narrower. The first part holds; the second does not: without a caption the max-content width is
    always used. *)
Theorem C71_automatic_width_partial : forall z g cap cb mn mx, min_max z g 0 = Ok (mn, mx) -> qmax (qsum mx) cap < cb ->
  auto_widths z g None cap cb = Ok (mx, qmax (qsum mx) cap).
Proof.
  intros z g cap cb mn mx E H. unfold auto_widths. rewrite E. cbn [obind]. assert (lt (qmin (qsum mx) cap) cb = true) as ->; [|reflexivity].
  destruct (lt_spec (qmin (qsum mx) cap) cb) as [L|L]; [reflexivity|]. exfalso. revert H L. unfold qmax, qmin. destruct (lt_spec (qsum mx) cap); lra.
Qed.
Print Assumptions C71_automatic_width_partial.
Example C71_sample : obind (build two_columns) (fun g => omap (fun '(a, b) => (map Qred a, map Qred b)) (min_max sample_sizes g 0)) = Ok ([50; 40], [85; 95]) /\ widths_of two_columns None 0 500 = Ok ([85; 95], 180).
Proof. split; vm_compute; reflexivity. Qed.
Definition C71_full : Prop := forall z g cap cb mn mx ws used, min_max z g 0 = Ok (mn, mx) -> auto_widths z g None cap cb = Ok (ws, used) -> used <= qmax cb (qmax (qsum mn) cap).
Theorem C71_automatic_width_refuted : widths_of two_columns None 0 100 = Ok ([85; 95], 180) /\ ~ C71_full.
Proof.
  split; [vm_compute; reflexivity|]. intros F. assert (exists g, build two_columns = Ok g) as [g Eg] by (eexists; vm_compute; reflexivity).
  assert (exists mn mx, min_max sample_sizes g 0 = Ok (mn, mx) /\ qsum mn == 90) as (mn & mx & M & S1) by (vm_compute in Eg; injection Eg as <-; do 2 eexists; split; vm_compute; reflexivity).
  assert (exists ws used, auto_widths sample_sizes g None 0 100 = Ok (ws, used) /\ used == 180) as (ws & used & A & S2) by (vm_compute in Eg; injection Eg as <-; do 2 eexists; split; vm_compute; reflexivity).
  specialize (F _ _ _ _ _ _ _ _ M A). revert F. unfold qmax. destruct (lt_spec (qsum mn) 0), (lt_spec 100 0), (lt_spec 100 (qsum mn)); lra.
Qed.
Print Assumptions C71_automatic_width_refuted.

(** ** C72: what a layout of a table gives depends on its input, not on the layouts before. It holds
    with automatic layout as long as no intrinsic size was asked for in between. The inputs are in
    lowest terms, so that equal lengths are the same term. *)
Definition lowest (i : input) : Prop :=
  Qred (in_containing i) = in_containing i /\ (forall c, in_capmin i = Some c -> Qred c = c) /\ (forall k, in_known i = Some k -> Qred k = k).
Definition plain_input (i : input) : Prop := in_intrinsic i = AUTO /\ in_capmin i <> None /\ lowest i.
Lemma qeq_lowest a b : Qred a = a -> Qred b = b -> Qeq_bool a b = true -> a = b.
Proof. intros Ha Hb H. apply Qeq_bool_eq in H. rewrite <- Ha, <- Hb. now apply Qred_complete. Qed.
Definition cached (z : sizes) (g : grid) (s : wstate) : Prop :=
  match w_last s with
  | None => True
  | Some (cb, cap, k) => Qred cb = cb /\ Qred cap = cap /\ (forall q, k = Some q -> Qred q = q) /\ auto_widths z g k cap cb = Ok (w_cols s, w_used s)
  end.
Lemma layout_cached z g borders spacing s i s' : plain_input i -> cached z g s -> layout_widths false z g borders spacing s i = Ok s' ->
  cached z g s' /\ exists cap, in_capmin i = Some cap /\ auto_widths z g (in_known i) cap (in_containing i) = Ok (w_cols s', w_used s').
Proof.
  intros (Hi & Hc & L1 & L2 & L3) C E. unfold layout_widths in E. rewrite Hi in E. destruct (in_capmin i) as [cap|] eqn:Ec; [|congruence]. clear Hc.
  destruct (w_last s) as [[[cb cap'] k']|] eqn:El.
  - destruct (same_params (cb, cap', k') (in_containing i, cap, in_known i)) eqn:Ep.
    + injection E as <-. split; [exact C|]. exists cap. split; [reflexivity|]. unfold cached in C. rewrite El in C. destruct C as (C1 & C2 & C3 & C4).
      unfold same_params in Ep. apply andb_prop in Ep as [Ep E3]. apply andb_prop in Ep as [E1 E2].
      apply (qeq_lowest _ _ C1 L1) in E1. apply (qeq_lowest _ _ C2 (L2 _ eq_refl)) in E2. subst cb cap'.
      assert (k' = in_known i) as <-; [|exact C4]. destruct k' as [x|], (in_known i) as [y|]; try discriminate; [|reflexivity]. f_equal. apply qeq_lowest; auto.
    + destruct (auto_widths z g (in_known i) cap (in_containing i)) as [[v u]| |] eqn:Ea; try discriminate. cbn in E. injection E as <-. cbn. split; [|eauto]. auto.
  - destruct (auto_widths z g (in_known i) cap (in_containing i)) as [[v u]| |] eqn:Ea; try discriminate. cbn in E. injection E as <-. cbn. split; [|eauto]. auto.
Qed.
Theorem C72_layout_again_partial : forall z g borders spacing before i s, Forall plain_input (before ++ [i]) ->
  layouts false z g borders spacing first_state (before ++ [i]) = Ok s ->
  exists s1, layouts false z g borders spacing first_state [i] = Ok s1 /\ w_cols s = w_cols s1 /\ w_used s = w_used s1.
Proof.
  intros z g borders spacing before i s F E. assert (cached z g first_state) as C by exact I. revert C E. generalize first_state at 1 2 as s0. 
  induction before as [|b before IH]; intros s0 C E.
  - inversion F as [|? ? Hi _]; subst. cbn [app layouts] in E. destruct (layout_widths false z g borders spacing s0 i) as [s'| |] eqn:El; try discriminate. cbn [obind] in E. injection E as <-.
    destruct (layout_cached _ _ _ _ _ _ _ Hi C El) as (_ & cap & Ec & Ea). destruct Hi as (Hi & _). cbn [layouts]. unfold layout_widths. rewrite Hi, Ec. cbn [w_last first_state].
    rewrite Ea. cbn. eexists. split; [reflexivity|]. auto.
  - inversion F as [|? ? Hb F']; subst. cbn [app layouts] in E. destruct (layout_widths false z g borders spacing s0 b) as [s'| |] eqn:El; try discriminate. cbn [obind] in E.
    destruct (layout_cached _ _ _ _ _ _ _ Hb C El) as (C' & _). exact (IH F' s' C' E).
Qed.
Print Assumptions C72_layout_again_partial.
Definition at_width (k : option Q) : input := mkInput AUTO k (Some 0) 500.
Definition layouts_of (fixed : bool) (l : list input) : outcome (list Q * Q) :=
  obind (build two_columns) (fun g => omap (fun s => (map Qred (w_cols s), Qred (w_used s))) (layouts fixed sample_sizes g [0; 0] 2 first_state l)).
Example C72_sample : Forall plain_input [at_width (Some 50); at_width (Some 100); at_width (Some 100)] /\
  layouts_of false [at_width (Some 50); at_width (Some 100); at_width (Some 100)] = Ok ([50; 50], 100).
Proof.
  split; [|vm_compute; reflexivity]. assert (forall k, Qred k = k -> plain_input (at_width (Some k))) as H.
  { intros k Hk. split; [reflexivity|]. split; [discriminate|]. split; [reflexivity|]. split; cbn; intros q E; injection E as <-; [reflexivity|exact Hk]. }
  repeat constructor; apply H; reflexivity.
Qed.

(** What is missing. The widths of an intrinsic size replace the columns but not the record of the last
    input, so that the layout that follows keeps them when its input is that of an earlier one; and
    fixed layout adds its columns to those of the layout before. *)
Definition C72_full : Prop := forall fixed z g borders spacing before i s, layouts fixed z g borders spacing first_state (before ++ [i]) = Ok s ->
  exists s1, layouts fixed z g borders spacing first_state [i] = Ok s1 /\ w_cols s = w_cols s1 /\ w_used s = w_used s1.
Theorem C72_layout_again_refuted :
  layouts_of false [at_width (Some 100)] = Ok ([50; 50], 100) /\
  layouts_of false [at_width (Some 100); mkInput MAX_CONTENT None None 500; at_width (Some 100)] = Ok ([85; 95], 180) /\
  layouts_of true [at_width (Some 100)] = Ok ([30; 64], 100) /\
  layouts_of true [at_width (Some 100); at_width (Some 100)] = Ok ([30; 64; 30; 64], 100) /\
  ~ C72_full.
Proof.
  do 4 (split; [vm_compute; reflexivity|]). intros F. assert (exists g, build two_columns = Ok g) as [g Eg] by (eexists; vm_compute; reflexivity).
  assert (exists s, layouts true sample_sizes g [0; 0] 2 first_state ([at_width (Some 100)] ++ [at_width (Some 100)]) = Ok s /\ length (w_cols s) = 4%nat) as (s & E & L).
  { vm_compute in Eg. injection Eg as <-. eexists. split; vm_compute; reflexivity. }
  destruct (F _ _ _ _ _ _ _ _ E) as (s1 & E1 & Ec & _). rewrite Ec in L. vm_compute in Eg. injection Eg as <-. vm_compute in E1. injection E1 as <-. discriminate.
Qed.
Print Assumptions C72_layout_again_refuted.

(** ** C70: laying out a table never stops the program. A column group with a width and no columns,
    and fixed layout of a table of columns without rows, do. *)
Theorem C70_widths_refuted :
  obind (build [COLGROUP 21 1 []; BODY (mkGroup 1 [tr 2 [one 1]])]) (fun g => auto_widths sample_sizes g (Some 100) 0 500) = Panic /\
  obind (build [COLGROUP 20 1 [Some (21%nat, 1%nat)]]) (fun g => fixed_widths sample_sizes g [0] 0 100) = Panic /\
  ~ (forall l z k cap cb g, spans l -> build l = Ok g -> exists r, auto_widths z g (Some k) cap cb = Ok r).
Proof.
  split; [vm_compute; reflexivity|]. split; [vm_compute; reflexivity|]. intros F.
  assert (exists g, build [COLGROUP 21 1 []; BODY (mkGroup 1 [tr 2 [one 1]])] = Ok g) as [g Eg] by (eexists; vm_compute; reflexivity).
  destruct (F [COLGROUP 21 1 []; BODY (mkGroup 1 [tr 2 [one 1]])] sample_sizes 100 0 500 g) as [r Er]; [split; vm_compute; repeat constructor|exact Eg|].
  vm_compute in Eg. injection Eg as <-. vm_compute in Er. discriminate.
Qed.
Print Assumptions C70_widths_refuted.
