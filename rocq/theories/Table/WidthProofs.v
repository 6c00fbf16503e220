(** The widths of columns: sums and bounds. *)
From Coq Require Import List Arith QArith Bool Lia Lqa.
From Verif.Base Require Import Outcome.
From Verif.Table Require Import GridModel GridSpec GridProofs WidthModel.
Import ListNotations.
Local Open Scope Q_scope.

Lemma lt_spec a b : reflect (a < b) (lt a b).
Proof.
  unfold lt. destruct (Qle_bool b a) eqn:E; constructor.
  - apply Qle_bool_iff in E. lra.
  - destruct (Qlt_le_dec a b) as [L|L]; [exact L|]. apply Qle_bool_iff in L. congruence.
Qed.
Lemma qmax_le a b : a <= qmax a b /\ b <= qmax a b.
Proof. unfold qmax. destruct (lt_spec a b); split; lra. Qed.

(** Column by column. *)
Definition le_cols (a b : list Q) : Prop := length a = length b /\ forall i, nth i a 0 <= nth i b 0.
Lemma le_refl a : le_cols a a.
Proof. split; [reflexivity|]. intros i. lra. Qed.
Lemma le_trans a b c : le_cols a b -> le_cols b c -> le_cols a c.
Proof. intros [L1 H1] [L2 H2]. split; [congruence|]. intros i. specialize (H1 i). specialize (H2 i). lra. Qed.

Lemma nth_upd_any {A} (d : A) f l : forall n i, nth i (upd l n f) d = if (i =? n)%nat && (n <? length l)%nat then f (nth i l d) else nth i l d.
Proof.
  induction l as [|a l IH]; intros n i; [destruct n, i; cbn; rewrite ?andb_false_r; reflexivity|].
  destruct n as [|n], i as [|i]; cbn [upd nth]; try reflexivity. rewrite IH. reflexivity.
Qed.
Lemma over_length {A} xs f : forall v : list A, length (over xs f v) = length v.
Proof. unfold over. induction xs as [|x xs IH]; intros v; cbn; [reflexivity|]. now rewrite IH, upd_length. Qed.
Lemma le_upd f n v : (forall x, x <= f x) -> le_cols v (upd v n f).
Proof. intros H. split; [now rewrite upd_length|]. intros i. rewrite nth_upd_any. destruct (_ && _); [apply H|lra]. Qed.
Lemma le_over xs f : (forall x, x <= f x) -> forall v, le_cols v (over xs f v).
Proof.
  intros H. unfold over. induction xs as [|x xs IH]; intros v; cbn; [apply le_refl|]. eapply le_trans; [apply le_upd, H|apply IH].
Qed.
Lemma nth_over {A} (d : A) f : forall xs v i, NoDup xs -> (forall x, In x xs -> (x < length v)%nat) ->
  nth i (over xs f v) d = if existsb (Nat.eqb i) xs then f (nth i v d) else nth i v d.
Proof.
  induction xs as [|x xs IH]; intros v i N H; [reflexivity|]. inversion N as [|? ? N1 N2]; subst. change (over (x :: xs) f v) with (over xs f (upd v x f)).
  rewrite IH; [|exact N2|intros y Hy; rewrite upd_length; apply H; now right]. rewrite nth_upd_any. cbn [existsb].
  destruct (Nat.eqb_spec i x) as [->|Nx]; cbn [andb orb].
  - assert (existsb (Nat.eqb x) xs = false) as ->. { apply not_true_is_false. intros E. apply existsb_exists in E as (y & Hy & E). apply Nat.eqb_eq in E. subst. contradiction. }
    destruct (Nat.ltb_spec x (length v)) as [|L]; [reflexivity|]. specialize (H x (or_introl eq_refl)). lia.
  - reflexivity.
Qed.

Lemma range_le xs a b : le_cols a b -> range_sum xs a <= range_sum xs b.
Proof. intros [_ H]. unfold range_sum. induction xs as [|x xs IH]; cbn; [lra|]. specialize (H x). unfold qsum in *. lra. Qed.
Lemma nat_Q_S n : inject_Z (Z.of_nat (S n)) == inject_Z (Z.of_nat n) + 1.
Proof. rewrite Nat2Z.inj_succ. unfold Z.succ. rewrite inject_Z_plus. reflexivity. Qed.
Lemma nat_Q_pos n : (0 < n)%nat -> 0 < inject_Z (Z.of_nat n).
Proof. intros H. change 0 with (inject_Z 0). rewrite <- Zlt_Qlt. lia. Qed.
Lemma range_add xs d v : NoDup xs -> (forall x, In x xs -> (x < length v)%nat) ->
  range_sum xs (over xs (fun w => w + d) v) == range_sum xs v + inject_Z (Z.of_nat (length xs)) * d.
Proof.
  intros N H. assert (forall ys, incl ys xs -> range_sum ys (over xs (fun w => w + d) v) == range_sum ys v + inject_Z (Z.of_nat (length ys)) * d) as K; [|apply K, incl_refl].
  unfold range_sum. induction ys as [|y ys IH]; intros Hi; cbn [map qsum fold_right length]; [cbn; ring|].
  fold (qsum (map (fun x => nth x (over xs (fun w => w + d) v) 0) ys)). fold (qsum (map (fun x => nth x v 0) ys)).
  rewrite IH by (intros z Hz; apply Hi; now right). rewrite (nth_over 0 (fun w => w + d) xs v y N H), nat_Q_S.
  assert (existsb (Nat.eqb y) xs = true) as ->; [|ring]. apply existsb_exists. exists y. split; [apply Hi; now left|apply Nat.eqb_refl].
Qed.
Lemma range_all v : range_sum (seq 0 (length v)) v == qsum v.
Proof.
  unfold range_sum.
  induction v as [|a v IH]; [reflexivity|]. cbn [length seq map qsum fold_right nth]. rewrite <- seq_shift, map_map. cbn [nth]. fold (qsum (map (fun x => nth x v 0) (seq 0 (length v)))). rewrite IH. reflexivity.
Qed.

(** ** The steps of the automatic layout only widen columns. *)
Definition placed (w : nat) (a : list (nat * nat * cell)) : Prop := forall i j c, In (i, j, c) a -> (j + c_cols c <= w)%nat /\ (0 < c_cols c)%nat.
Lemma span1_le f a : forall v, le_cols v (span1 f a v).
Proof.
  unfold span1. induction a as [|[[i j] c] a IH]; intros v; cbn [fold_left]; [apply le_refl|]. eapply le_trans; [|apply IH].
  destruct (1 <? c_cols c)%nat; [apply le_refl|]. apply le_over. intros x. apply qmax_le.
Qed.
Lemma col_widths_le f cs : forall v, le_cols v (col_widths f cs v).
Proof.
  unfold col_widths. induction cs as [|c cs IH]; intros v; cbn [fold_left]; [apply le_refl|]. eapply le_trans; [|apply IH].
  destruct (f (a_el c)); [|apply le_refl]. apply le_over. intros x. apply qmax_le.
Qed.
Lemma div_nonneg a n : 0 <= a -> 0 <= a / inject_Z (Z.of_nat n).
Proof.
  intros H. destruct n as [|n]. { cbn. unfold Qdiv. change (/ inject_Z 0) with 0. lra. }
  apply Qle_shift_div_l; [apply nat_Q_pos; lia|lra].
Qed.
Lemma spanN_le f a : forall v, le_cols v (spanN f a v).
Proof.
  unfold spanN. induction a as [|[[i j] c] a IH]; intros v; cbn [fold_left]; [apply le_refl|]. eapply le_trans; [|apply IH].
  destruct (c_cols c <=? 1)%nat; [apply le_refl|]. cbv zeta. destruct (lt_spec (range_sum (seq j (c_cols c)) v) (f c)) as [L|L]; [|apply le_refl].
  apply le_over. intros x. assert (0 <= (f c - range_sum (seq j (c_cols c)) v) / inject_Z (Z.of_nat (c_cols c))) by (apply div_nonneg; lra). lra.
Qed.
Lemma group_widths_le f cs : forall v v', group_widths f cs v = Ok v' -> le_cols v v'.
Proof.
  induction cs as [|c cs IH]; intros v v' E; cbn [group_widths] in E; [injection E as <-; apply le_refl|].
  destruct (f (a_el c)) as [w|]; [|exact (IH _ _ E)]. cbv zeta in E. destruct (Qle_bool w (range_sum (interval c) v)) eqn:Ew; [exact (IH _ _ E)|].
  destruct (S (a_end c) - a_start c)%nat as [|n]; [discriminate|]. eapply le_trans; [|exact (IH _ _ E)]. apply le_over. intros x.
  assert (~ w <= range_sum (interval c) v) by (intros K; apply Qle_bool_iff in K; congruence).
  assert (0 <= (w - range_sum (interval c) v) / inject_Z (Z.of_nat (S n))) by (apply div_nonneg; lra). lra.
Qed.
Lemma group_widths_ok f cs : Forall (fun c => (a_start c <= a_end c)%nat) cs -> forall v, exists v', group_widths f cs v = Ok v'.
Proof.
  induction 1 as [|c cs H H' IH]; intros v; cbn [group_widths]; [eauto|]. destruct (f (a_el c)); [|apply IH]. cbv zeta. destruct (Qle_bool _ _); [apply IH|].
  destruct (S (a_end c) - a_start c)%nat eqn:E; [lia|]. apply IH.
Qed.

Lemma span1_fits f w a : placed w a -> forall v, length v = w -> forall i j c, In (i, j, c) a -> c_cols c = 1%nat -> f c <= nth j (span1 f a v) 0.
Proof.
  intros P v L i j c Hin H1. revert v L. induction a as [|[[i0 j0] c0] a IH]; [destruct Hin|]. intros v L. unfold span1. cbn [fold_left].
  destruct Hin as [E|Hin].
  - injection E as -> -> ->. rewrite H1. cbn [Nat.ltb Nat.leb]. eapply Qle_trans; [|exact (proj2 (span1_le f a _) j)].
    destruct (P i j c (or_introl eq_refl)) as [F _]. rewrite (nth_over 0) by (try (constructor; [intros []|constructor]); intros x [<-|[]]; lia).
    cbn [existsb]. rewrite Nat.eqb_refl. cbn [orb]. apply qmax_le.
  - apply IH; [intros i1 j1 c1 H; exact (P i1 j1 c1 (or_intror H))|exact Hin|]. destruct (1 <? c_cols c0)%nat; [exact L|]. now rewrite over_length.
Qed.
Lemma spanN_fits f w a : placed w a -> forall v, length v = w -> forall i j c, In (i, j, c) a -> (1 < c_cols c)%nat -> f c <= range_sum (seq j (c_cols c)) (spanN f a v).
Proof.
  intros P v L i j c Hin H1. revert v L. induction a as [|[[i0 j0] c0] a IH]; [destruct Hin|]. intros v L. unfold spanN. cbn [fold_left].
  destruct Hin as [E|Hin].
  - injection E as -> -> ->. destruct (Nat.leb_spec (c_cols c) 1) as [|_]; [lia|]. cbv zeta. eapply Qle_trans; [|apply range_le, (spanN_le f a)].
    destruct (P i j c (or_introl eq_refl)) as [F F']. destruct (lt_spec (range_sum (seq j (c_cols c)) v) (f c)) as [Lt|Lt]; [|lra].
    rewrite range_add; [|apply seq_NoDup|intros x Hx; apply in_seq in Hx; lia]. rewrite seq_length.
    assert (inject_Z (Z.of_nat (c_cols c)) * ((f c - range_sum (seq j (c_cols c)) v) / inject_Z (Z.of_nat (c_cols c))) == f c - range_sum (seq j (c_cols c)) v) as ->; [|lra].
    apply Qmult_div_r. pose proof (nat_Q_pos _ F'). lra.
  - apply IH; [intros i1 j1 c1 H; exact (P i1 j1 c1 (or_intror H))|exact Hin|]. destruct (c_cols c0 <=? 1)%nat; [exact L|]. cbv zeta. destruct (lt _ _); [now rewrite over_length|exact L].
Qed.

(** Every cell has room in its columns. *)
Definition room (f : cell -> Q) (a : list (nat * nat * cell)) (v : list Q) : Prop :=
  forall i j c, In (i, j, c) a -> f c <= range_sum (seq j (c_cols c)) v.
Lemma room_le f a v v' : le_cols v v' -> room f a v -> room f a v'.
Proof. intros H R i j c Hin. eapply Qle_trans; [exact (R i j c Hin)|apply range_le, H]. Qed.
Lemma steps_room f k w a cs : placed w a -> room f a (spanN f a (col_widths k cs (span1 f a (repeat 0 w)))).
Proof.
  intros P i j c Hin. destruct (P i j c Hin) as [F F'].
  assert (length (span1 f a (repeat 0 w)) = w) as L1 by (rewrite <- (proj1 (span1_le f a _)); apply repeat_length).
  destruct (Nat.eq_dec (c_cols c) 1) as [E|N].
  - rewrite E. cbn [seq]. unfold range_sum. cbn [map qsum fold_right]. rewrite Qplus_0_r.
    eapply Qle_trans; [exact (span1_fits f w a P _ (repeat_length 0 w) i j c Hin E)|].
    exact (proj2 (le_trans _ _ _ (col_widths_le k cs _) (spanN_le f a _)) j).
  - apply (spanN_fits f w a P) with (i := i); [|exact Hin|lia]. now rewrite <- (proj1 (col_widths_le k cs _)).
Qed.
Lemma zero_nth w i : nth i (repeat 0 w) 0 == 0.
Proof. revert i. induction w as [|w IH]; intros [|i]; cbn; try lra. apply IH. Qed.
Lemma min_max_room z g b mn mx : placed (width g) (anchors g) -> min_max z g b = Ok (mn, mx) ->
  le_cols (repeat 0 (width g)) mn /\ le_cols (repeat 0 (width g)) mx /\ room (cell_min z b) (anchors g) mn /\ room (cell_max z b) (anchors g) mx.
Proof.
  intros P E. unfold min_max in E. cbv zeta in E.
  match type of E with obind (group_widths ?f ?c ?m) _ = _ => destruct (group_widths f c m) as [m'| |] eqn:Eg; [|discriminate..] end. cbn [obind] in E. injection E as <- <-.
  pose proof (group_widths_le _ _ _ _ Eg) as Lg. split; [|split; [|split]].
  - eapply le_trans; [|exact Lg]. eapply le_trans; [apply span1_le|]. eapply le_trans; [apply col_widths_le|]. apply spanN_le.
  - eapply le_trans; [apply span1_le|]. eapply le_trans; [apply col_widths_le|]. apply spanN_le.
  - eapply room_le; [exact Lg|]. apply steps_room, P.
  - apply steps_room, P.
Qed.
Lemma min_max_ok z g b : Forall (fun c => (a_start c <= a_end c)%nat) (col_groups g) -> exists mn mx, min_max z g b = Ok (mn, mx).
Proof.
  intros H. unfold min_max. cbv zeta. match goal with |- context [group_widths ?f ?c ?m] => destruct (group_widths_ok f c H m) as [v ->] end. cbn [obind]. eauto.
Qed.

(** ** Sums *)
Lemma toward_nth r : forall a b i, length a = length b -> nth i (toward r a b) 0 == nth i a 0 + (nth i b 0 - nth i a 0) * r.
Proof.
  induction a as [|x a IH]; intros [|y b] i L; try discriminate; cbn [toward]; [destruct i; cbn; ring|].
  destruct i as [|i]; cbn [nth]; [|apply IH; now injection L]. destruct (Qeq_bool y x) eqn:E; [apply Qeq_bool_eq in E; rewrite E; ring|reflexivity].
Qed.
Lemma toward_length r : forall a b, length a = length b -> length (toward r a b) = length a.
Proof. induction a as [|x a IH]; intros [|y b] L; try discriminate; cbn; [reflexivity|]. f_equal. apply IH. now injection L. Qed.
Lemma toward_range r a b xs : length a = length b -> range_sum xs (toward r a b) == range_sum xs a + (range_sum xs b - range_sum xs a) * r.
Proof.
  intros L. unfold range_sum. induction xs as [|x xs IH]; cbn [map qsum fold_right]; [ring|]. fold (qsum (map (fun x => nth x (toward r a b) 0) xs)). rewrite IH, toward_nth by exact L.
  fold (qsum (map (fun x => nth x a 0) xs)) (qsum (map (fun x => nth x b 0) xs)). ring.
Qed.
Lemma scale_range k v xs : (forall x, In x xs -> (x < length v)%nat) -> range_sum xs (map (fun w => w + k * w) v) == range_sum xs v + k * range_sum xs v.
Proof.
  intros H. unfold range_sum. induction xs as [|x xs IH]; cbn [map qsum fold_right]; [ring|]. fold (qsum (map (fun x => nth x (map (fun w => w + k * w) v) 0) xs)). rewrite IH by (intros; apply H; now right).
  fold (qsum (map (fun x => nth x v 0) xs)). rewrite (nth_indep _ 0 ((fun w => w + k * w) 0)) by (rewrite map_length; apply H; now left). rewrite (map_nth (fun w => w + k * w)). ring.
Qed.
Lemma qsum_le v : (forall i, 0 <= nth i v 0) -> 0 <= qsum v.
Proof. induction v as [|a v IH]; intros H; cbn; [lra|]. pose proof (H 0%nat). cbn in H0. assert (0 <= qsum v) by (apply IH; intros i; exact (H (S i))). unfold qsum in *. lra. Qed.
Lemma range_nonneg xs v : (forall i, 0 <= nth i v 0) -> 0 <= range_sum xs v.
Proof. intros H. unfold range_sum. induction xs as [|x xs IH]; cbn; [lra|]. specialize (H x). unfold qsum in *. lra. Qed.
Lemma range_le_sum xs v : (forall i, 0 <= nth i v 0) -> NoDup xs -> range_sum xs v <= qsum v.
Proof.
  revert xs. induction v as [|a v IH]; intros xs H N.
  - assert (range_sum xs [] == 0) as ->; [|cbn; lra]. clear. unfold range_sum. induction xs as [|x xs IH]; cbn; [reflexivity|]. destruct x; unfold qsum in IH; rewrite IH; ring.
  - assert (forall ys, NoDup ys -> range_sum (map S ys) (a :: v) <= qsum v) as K.
    { intros ys Ny. unfold range_sum. rewrite map_map. cbn [nth]. apply IH; [intros i; exact (H (S i))|exact Ny]. }
    assert (range_sum xs (a :: v) <= (if in_dec Nat.eq_dec 0%nat xs then a else 0) + range_sum (map S (map pred (filter (fun x => negb (x =? 0)%nat) xs))) (a :: v)) as M.
    { clear - N H. induction xs as [|x xs IHx]; [cbn; lra|]. inversion N as [|? ? N1 N2]; subst. specialize (IHx N2). unfold range_sum in *. cbn [map qsum fold_right filter].
      fold (qsum (map (fun x => nth x (a :: v) 0) xs)). destruct x as [|x]; cbn [Nat.eqb negb].
      - destruct (in_dec Nat.eq_dec 0%nat (0%nat :: xs)) as [_|C]; [|exfalso; apply C; now left]. destruct (in_dec Nat.eq_dec 0%nat xs) as [C|_]; [contradiction|]. change (nth 0 (a :: v) 0) with a.
        unfold qsum in *. lra.
      - cbn [map qsum fold_right pred]. fold (qsum (map (fun x => nth x (a :: v) 0) (map S (map pred (filter (fun x => negb (x =? 0)%nat) xs))))).
        destruct (in_dec Nat.eq_dec 0%nat (S x :: xs)) as [[C|C]|C]; [discriminate| |].
        + destruct (in_dec Nat.eq_dec 0%nat xs); [|contradiction]. lra.
        + destruct (in_dec Nat.eq_dec 0%nat xs) as [C'|_]; [exfalso; apply C; now right|]. lra. }
    assert (NoDup (map pred (filter (fun x => negb (x =? 0)%nat) xs))) as Np.
    { clear - N. induction N as [|x xs N1 N2 IHx]; [constructor|]. cbn [filter]. destruct x as [|x]; cbn [Nat.eqb negb]; [exact IHx|]. cbn [map pred]. constructor; [|exact IHx].
      intros C. apply in_map_iff in C as (y & Ey & Hy). apply filter_In in Hy as [Hy Hz]. destruct y as [|y]; [discriminate|]. cbn in Ey. subst. contradiction. }
    pose proof (K _ Np). pose proof (H 0%nat) as Hz. cbn [nth] in Hz. change (qsum (a :: v)) with (a + qsum v). destruct (in_dec Nat.eq_dec 0%nat xs); lra.
Qed.
