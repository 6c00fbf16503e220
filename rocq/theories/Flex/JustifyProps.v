(** C35: where justify-content puts items. C78: items stay inside of their container. *)
From Coq Require Import List Arith ZArith QArith Bool Lia Lqa.
From Verif.Base Require Import Outcome.
From Verif.Flex Require Import FlexModel LineProps FlexProps FillProps.
Import ListNotations.
Local Open Scope Q_scope.

(** The empty spaces of a line, from its start to its end: before the first item, between items, and
    after the last one; margins belong to the items. *)
Fixpoint spaces (from main : Q) (l : list placed) : list Q :=
  match l with
  | [] => [main - from]
  | p :: r => (p_pos p - p_start p - from) :: spaces (p_pos p + p_size p + p_end p) main r
  end.
(** The same items with the same sizes and margins, in the same order. *)
Definition same (p : placed) : item * Q * Q * Q := (p_item p, p_size p, p_start p, p_end p).
Definition eqs : list Q -> list Q -> Prop := Forall2 Qeq.
(** CSS Flexbox 8.2: [n] items and the free space. *)
Definition expected (j : justify) (n : nat) (free : Q) : list Q :=
  let around := let g := free / inject_Z (Z.of_nat n) in (g / 2) :: repeat g (n - 1) ++ [g / 2] in
  match j with
  | FLEX_END => free :: repeat 0 n
  | CENTER => (free / 2) :: repeat 0 (n - 1) ++ [free / 2]
  | SPACE_BETWEEN => if ltq free 0 || (n =? 1)%nat then repeat 0 n ++ [free] else 0 :: repeat (free / inject_Z (Z.of_nat n - 1)) (n - 1) ++ [0]
  | SPACE_AROUND => if ltq free 0 then (free / 2) :: repeat 0 (n - 1) ++ [free / 2] else around
  | _ => repeat 0 n ++ [free]
  end.

Lemma eqs_refl a : eqs a a.
Proof. induction a; constructor; [reflexivity|assumption]. Qed.
Lemma eqs_trans a b c : eqs a b -> eqs b c -> eqs a c.
Proof. intros H. revert c. induction H as [|x y a b E H IH]; intros c K; inversion K; subst; constructor; [etransitivity; eassumption|now apply IH]. Qed.
Lemma eqs_app a b c d : eqs a b -> eqs c d -> eqs (a ++ c) (b ++ d).
Proof. apply Forall2_app. Qed.
Lemma eqs_repeat x y n : x == y -> eqs (repeat x n) (repeat y n).
Proof. intros E. induction n; constructor; assumption. Qed.
Lemma place_same gap : forall l pos, map same (place gap pos l) = map same l.
Proof. induction l as [|p l IH]; intros pos; [reflexivity|]. cbn [place map]. now rewrite IH. Qed.
Lemma place_length gap : forall l pos, length (place gap pos l) = length l.
Proof. induction l as [|p l IH]; intros pos; [reflexivity|]. cbn [place length]. now rewrite IH. Qed.
Lemma spaces_place gap main : forall l from pos, l <> [] ->
  eqs (spaces from main (place gap pos l)) ((pos - from) :: repeat gap (length l - 1) ++ [main - (pos + occupied l + gap * inject_Z (Z.of_nat (length l) - 1))]).
Proof.
  induction l as [|p l IH]; intros from pos Ne; [congruence|]. cbn [place spaces p_pos p_start p_size p_end]. constructor; [ring|].
  unfold occupied. cbn [map]. rewrite sumq_cons. fold (occupied l). destruct l as [|q l].
  - cbn [place spaces length repeat app Nat.sub]. constructor; [|constructor]. unfold outer. change (occupied []) with 0. change (inject_Z (Z.of_nat 1 - 1)) with 0. ring.
  - specialize (IH (pos + p_start p + p_size p + p_end p) (pos + (outer p + gap)) ltac:(discriminate)).
    replace (length (p :: q :: l) - 1)%nat with (S (length (q :: l) - 1)) by (cbn; lia). cbn [repeat app]. refine (eqs_trans _ _ _ IH _). constructor; [unfold outer; ring|]. apply eqs_app; [apply eqs_refl|]. constructor; [|constructor].
    replace (Z.of_nat (length (p :: q :: l)) - 1)%Z with ((Z.of_nat (length (q :: l)) - 1) + 1)%Z by (cbn [length]; lia). rewrite inject_Z_plus. change (inject_Z 1) with 1. ring.
Qed.

Lemma two : inject_Z (Z.of_nat 1) = 1.
Proof. reflexivity. Qed.
Lemma repeat_last (n : nat) : (0 < n)%nat -> forall x : Q, x :: repeat x (n - 1) = repeat x n.
Proof. intros H x. destruct n; [lia|]. cbn. now rewrite Nat.sub_0_r. Qed.
(** Items keep their order, sizes and margins, and the empty spaces are those that CSS asks for. *)
Theorem C35_justify_partial : forall j main occ l, l <> [] -> occ == occupied l -> In j [NORMAL; CENTER; FLEX_START; FLEX_END; SPACE_BETWEEN; SPACE_AROUND] ->
  let r := justify_content j main occ l in
  map same r = map same l /\ eqs (spaces 0 main r) (expected j (length l) (main - occ)).
Proof.
  intros j main occ l Ne Ho Hj r. assert (0 < length l)%nat as Ln by (destruct l; [congruence|cbn; lia]).
  assert (forall gap pos e, r = place gap pos l -> eqs ((pos - 0) :: repeat gap (length l - 1) ++ [main - (pos + occ + gap * inject_Z (Z.of_nat (length l) - 1))]) e -> map same r = map same l /\ eqs (spaces 0 main r) e) as K.
  { intros gap pos e -> E. split; [apply place_same|]. apply (eqs_trans _ _ _ (spaces_place gap main l 0 pos Ne)). refine (eqs_trans _ _ _ _ E). constructor; [reflexivity|]. apply eqs_app; [apply eqs_refl|]. constructor; [rewrite Ho; reflexivity|constructor]. }
  assert (forall e, r = place 0 0 l -> e = repeat 0 (length l) ++ [main - occ] -> map same r = map same l /\ eqs (spaces 0 main r) e) as K0.
  { intros e E ->. apply (K 0 0 _ E). rewrite <- (repeat_last (length l) Ln). cbn [app]. constructor; [ring|]. apply eqs_app; [apply eqs_refl|]. constructor; [ring|constructor]. }
  assert (forall e, r = place 0 ((main - occ) / 2) l -> e = ((main - occ) / 2) :: repeat 0 (length l - 1) ++ [(main - occ) / 2] -> map same r = map same l /\ eqs (spaces 0 main r) e) as K2.
  { intros e E ->. apply (K 0 ((main - occ) / 2) _ E). constructor; [ring|]. apply eqs_app; [apply eqs_refl|]. constructor; [field|constructor]. }
  assert (ltq main occ = ltq (main - occ) 0) as Lt by (qcase; try reflexivity; lra).
  cbn in Hj. destruct Hj as [<-|[<-|[<-|[<-|[<-|[<-|[]]]]]]]; unfold expected; try (now apply K0); try (now apply K2).
  - apply (K 0 (main - occ) _ eq_refl). constructor; [ring|]. clear - Ln. destruct (length l) as [|n]; [lia|]. cbn [Nat.sub repeat]. rewrite Nat.sub_0_r.
    change (0 :: repeat 0 n) with (repeat 0 (S n)). replace (S n) with (n + 1)%nat at 2 by lia. rewrite repeat_app. apply eqs_app; [apply eqs_refl|]. constructor; [ring|constructor].
  - assert (r = justify_content SPACE_BETWEEN main occ l) as Er by reflexivity. unfold justify_content in Er. rewrite Lt in Er. clearbody r. destruct (ltq (main - occ) 0 || (length l =? 1)%nat) eqn:E; [now apply K0|]. apply orb_false_iff in E as [_ E]. apply Nat.eqb_neq in E. apply (K _ _ _ Er). unfold count.
    assert (inject_Z (Z.of_nat (length l)) - 1 == inject_Z (Z.of_nat (length l) - 1)) as Ec by (unfold Z.sub; rewrite inject_Z_plus; reflexivity).
    assert (~ inject_Z (Z.of_nat (length l) - 1) == 0) as Nz. { intros C. change 0 with (inject_Z 0) in C. rewrite inject_Z_injective in C. lia. }
    constructor; [ring|]. apply eqs_app; [apply eqs_repeat; now rewrite Ec|]. constructor; [|constructor]. rewrite Ec. field. exact Nz.
  - assert (r = justify_content SPACE_AROUND main occ l) as Er by reflexivity. unfold justify_content in Er. rewrite Lt in Er. clearbody r. destruct (ltq (main - occ) 0); cbn [orb] in Er; [now apply K2|]. assert (~ inject_Z (Z.of_nat (length l)) == 0) as Nz. { intros C. change 0 with (inject_Z 0) in C. rewrite inject_Z_injective in C. lia. }
    destruct (length l =? 1)%nat eqn:E.
    + apply Nat.eqb_eq in E. apply (K 0 ((main - occ) / 2) _ Er). rewrite E. cbn [Nat.sub repeat app]. rewrite two. constructor; [field|]. constructor; [|constructor]. change (inject_Z (Z.of_nat 1 - 1)) with 0. field.
    + apply (K _ _ _ Er). unfold count. constructor; [ring|]. apply eqs_app; [apply eqs_refl|]. constructor; [|constructor]. unfold Z.sub. rewrite inject_Z_plus. change (inject_Z (- (1))) with (- (1)). field. exact Nz.
Qed.
Print Assumptions C35_justify_partial.

(** In the other cases items are put at the start of the line. *)
Theorem C35_justify_refuted : forall main occ l j, In j [START; END; LEFT; RIGHT; STRETCH; SPACE_EVENLY] ->
  justify_content j main occ l = justify_content FLEX_START main occ l.
Proof. intros main occ l j [<-|[<-|[<-|[<-|[<-|[<-|[]]]]]]]; reflexivity. Qed.
Print Assumptions C35_justify_refuted.

Lemma count_autos l : sumq (map (fun p => inject_Z (Z.of_nat (autos (p_item p)))) l) == inject_Z (Z.of_nat (fold_right (fun p => Nat.add (autos (p_item p))) 0%nat l)).
Proof. induction l as [|p l IH]; [reflexivity|]. cbn [map fold_right]. rewrite sumq_cons, IH, Nat2Z.inj_add, inject_Z_plus. reflexivity. Qed.
Definition zero_autos (p : placed) : Prop := (is_auto (i_start (p_item p)) = true -> p_start p == 0) /\ (is_auto (i_end (p_item p)) = true -> p_end p == 0).
Lemma set_autos_outer m p : zero_autos p -> outer (set_autos m p) == outer p + inject_Z (Z.of_nat (autos (p_item p))) * m.
Proof.
  intros [Z1 Z2]. unfold outer, set_autos, autos. cbn [p_size p_start p_end]. destruct (is_auto (i_start (p_item p))); [rewrite (Z1 eq_refl)|]; (destruct (is_auto (i_end (p_item p))); [rewrite (Z2 eq_refl)|]); cbn [Nat.add Z.of_nat Pos.of_succ_nat Pos.succ];
  [change (inject_Z 2) with 2|change (inject_Z 1) with 1|change (inject_Z 1) with 1|change (inject_Z 0) with 0]; ring.
Qed.
Lemma set_autos_occupied m l : Forall zero_autos l -> occupied (map (set_autos m) l) == occupied l + inject_Z (Z.of_nat (fold_right (fun p => Nat.add (autos (p_item p))) 0%nat l)) * m.
Proof.
  intros Z. rewrite <- count_autos. induction Z as [|p l Hp _ IH]; [unfold occupied; cbn; ring|]. unfold occupied in *. cbn [map]. rewrite !sumq_cons, IH, (set_autos_outer m p Hp). ring.
Qed.
Lemma margins_zero l : Forall zero_autos (map margins l).
Proof. apply Forall_map, Forall_forall. intros [i v] _. split; cbn; destruct (i_start i), (i_end i); cbn; intros; try discriminate; reflexivity. Qed.
Lemma auto_margins_taken main l : Forall zero_autos l -> snd (auto_margins main l) == occupied (fst (auto_margins main l)).
Proof.
  intros Z. unfold auto_margins. set (n := fold_right (fun p => Nat.add (autos (p_item p))) 0%nat l). destruct (ltq (occupied l) main && (0 <? n)%nat) eqn:E; cbn [fst snd]; rewrite set_autos_occupied by exact Z; fold n.
  - apply andb_true_iff in E as [_ E]. apply Nat.ltb_lt in E. assert (~ inject_Z (Z.of_nat n) == 0) as Nz. { intros C. change 0 with (inject_Z 0) in C. rewrite inject_Z_injective in C. lia. } field. exact Nz.
  - ring.
Qed.
Definition plain (j : justify) : Prop := In j [NORMAL; CENTER; FLEX_START; FLEX_END; SPACE_BETWEEN; SPACE_AROUND].
Lemma flip_plain d j : plain j -> plain (flip d j).
Proof. unfold plain. intros H. cbn in H. destruct H as [<-|[<-|[<-|[<-|[<-|[<-|[]]]]]]], d; cbn; auto 8. Qed.
Lemma same_occupied a b : map same a = map same b -> occupied a = occupied b.
Proof.
  revert b. induction a as [|p a IH]; intros [|q b] E; try discriminate; [reflexivity|]. cbn [map] in E. injection E as E1 E2 E3 E4 Et. unfold occupied in *. cbn [map]. rewrite !sumq_cons, (IH b Et). unfold outer. congruence.
Qed.

Lemma expected_eq j n a b : a == b -> eqs (expected j n a) (expected j n b).
Proof.
  intros E. assert (ltq a 0 = ltq b 0) as Elt by (qcase; try reflexivity; lra).
  assert (forall x, a / x == b / x) as E1 by (intros x; now rewrite E). assert (forall x, a / x / 2 == b / x / 2) as E2 by (intros x; now rewrite E).
  assert (eqs (repeat 0 n ++ [a]) (repeat 0 n ++ [b])) as L by (apply eqs_app; [apply eqs_refl|constructor; [exact E|constructor]]).
  assert (eqs ((a / 2) :: repeat 0 (n - 1) ++ [a / 2]) ((b / 2) :: repeat 0 (n - 1) ++ [b / 2])) as M by (constructor; [apply E1|]; apply eqs_app; [apply eqs_refl|constructor; [apply E1|constructor]]).
  unfold expected. cbv zeta. rewrite Elt. destruct j; try exact L; try exact M.
  - constructor; [exact E|apply eqs_refl].
  - destruct (ltq b 0 || (n =? 1)%nat); [exact L|]. constructor; [reflexivity|]. apply eqs_app; [apply eqs_repeat, E1|apply eqs_refl].
  - destruct (ltq b 0); [exact M|]. constructor; [apply E2|]. apply eqs_app; [apply eqs_repeat, E1|constructor; [apply E2|constructor]].
Qed.

(** Free space goes to auto margins first, in equal parts; the rest is for [justify-content]. In a
    reversed row the ends are exchanged. Items keep their order and sizes. *)
Theorem C35_distribute_partial : forall d j main l, l <> [] -> plain j ->
  let r := distribute d j main l in
  let free := main - occupied (map margins l) in
  let n := fold_right (fun x => Nat.add (autos (fst x))) 0%nat l in
  map (fun p => (p_item p, p_size p)) r = l /\
  eqs (spaces 0 main r) (expected (flip d j) (length l) (main - occupied r)) /\
  (forall p, In p r ->
     (if is_auto (i_start (p_item p)) then p_start p == (if ltq 0 free && (0 <? n)%nat then free / inject_Z (Z.of_nat n) else 0) else p_start p = resolve (p_size p) (i_start (p_item p))) /\
     (if is_auto (i_end (p_item p)) then p_end p == (if ltq 0 free && (0 <? n)%nat then free / inject_Z (Z.of_nat n) else 0) else p_end p = resolve (p_size p) (i_end (p_item p)))) /\
  occupied r == (if ltq 0 free && (0 <? n)%nat then main else main - free).
Proof.
  intros d j main l Ne Hj r free n. set (l0 := map margins l). pose proof (auto_margins_taken main l0 (margins_zero l)) as Tk.
  assert (fold_right (fun p => Nat.add (autos (p_item p))) 0%nat l0 = n) as En by (unfold l0, n; clear; induction l as [|x l IH]; [reflexivity|]; cbn [map fold_right]; now rewrite IH).
  assert (r = justify_content (flip d j) main (snd (auto_margins main l0)) (fst (auto_margins main l0))) as Er by (unfold r, distribute; fold l0; now destruct (auto_margins main l0)).
  assert (length (fst (auto_margins main l0)) = length l) as Ll by (unfold auto_margins, l0; destruct (_ && _); cbn [fst]; now rewrite !map_length).
  assert (fst (auto_margins main l0) <> []) as Ne' by (intros C; rewrite C in Ll; destruct l; [congruence|discriminate]).
  destruct (C35_justify_partial (flip d j) main (snd (auto_margins main l0)) (fst (auto_margins main l0)) Ne' Tk (flip_plain d j Hj)) as [Sm Es]. rewrite <- Er, Ll in Es. rewrite <- Er in Sm.
  pose proof (same_occupied _ _ Sm) as So.
  assert (ltq 0 free = ltq (occupied l0) main) as El by (unfold free; fold l0; qcase; try reflexivity; lra).
  set (m := if ltq 0 free && (0 <? n)%nat then free / inject_Z (Z.of_nat n) else 0).
  assert (fst (auto_margins main l0) = map (set_autos m) l0 /\ snd (auto_margins main l0) = if ltq 0 free && (0 <? n)%nat then main else occupied l0) as [F1 F2].
  { unfold auto_margins, m. rewrite En, El. fold l0. destruct (ltq (occupied l0) main && (0 <? n)%nat); split; reflexivity. }
  rewrite F1 in *. split; [|split; [|split]].
  - assert (map (fun p => (p_item p, p_size p)) r = map (fun t => (fst (fst (fst t)), snd (fst (fst t)))) (map same r)) as -> by (rewrite map_map; reflexivity). rewrite Sm. unfold l0. rewrite !map_map. rewrite <- map_id. apply map_ext. intros [i v]. reflexivity.
  - rewrite F2 in Es. rewrite So.
    refine (eqs_trans _ _ _ Es (expected_eq _ _ _ _ _)). rewrite <- F2, <- Tk. reflexivity.
  - intros p Hp. assert (In (same p) (map same (map (set_autos m) l0))) as Hs by (rewrite <- Sm; now apply in_map). rewrite map_map in Hs. apply in_map_iff in Hs as (q & Eq & Hq). unfold same, set_autos in Eq. cbn in Eq. injection Eq as E1 E2 E3 E4. unfold l0 in Hq. apply in_map_iff in Hq as ([i v] & <- & Hq). cbn in E1, E2, E3, E4. rewrite <- E1, <- E2, <- E3, <- E4. destruct (is_auto (i_start i)), (is_auto (i_end i)); split; reflexivity.
  - rewrite So, <- Tk, F2. destruct (ltq 0 free && (0 <? n)%nat); [reflexivity|]. unfold free. fold l0. ring.
Qed.
Print Assumptions C35_distribute_partial.

Lemma rev_repeat (x : Q) n : rev (repeat x n) = repeat x n.
Proof. induction n as [|n IH]; [reflexivity|]. cbn [repeat rev]. rewrite IH. clear. induction n; [reflexivity|]. cbn [repeat app]. now f_equal. Qed.
(** The main axis of a reversed row goes from right to left: seen from the left, the spaces are those that
    CSS asks for in the opposite order. *)
Theorem C35_reversed_partial : forall j main l, l <> [] -> In j [CENTER; FLEX_START; FLEX_END; SPACE_AROUND] ->
  let r := distribute ROW_REVERSE j main l in eqs (spaces 0 main r) (rev (expected j (length l) (main - occupied r))).
Proof.
  intros j main l Ne Hj r. assert (plain j) as Hp by (cbn in Hj; destruct Hj as [<-|[<-|[<-|[<-|[]]]]]; cbn; auto 8).
  destruct (C35_distribute_partial ROW_REVERSE j main l Ne Hp) as (_ & Es & _). fold r in Es. cbn in Hj. destruct Hj as [<-|[<-|[<-|[<-|[]]]]]; cbn [flip] in Es; unfold expected in *; cbv zeta in *.
  - cbn [rev]. now rewrite rev_app_distr, rev_repeat.
  - now rewrite rev_app_distr, rev_repeat.
  - cbn [rev]. now rewrite rev_repeat.
  - destruct (ltq _ 0); cbn [rev]; now rewrite rev_app_distr, rev_repeat.
Qed.
Print Assumptions C35_reversed_partial.
(** In rows and columns the spaces are those that CSS asks for. *)
Theorem C35_forward_partial : forall d j main l, In d [ROW; COLUMN] -> l <> [] -> plain j ->
  let r := distribute d j main l in eqs (spaces 0 main r) (expected j (length l) (main - occupied r)).
Proof.
  intros d j main l Hd Ne Hj r. destruct (C35_distribute_partial d j main l Ne Hj) as (_ & Es & _). fold r in Es. replace (flip d j) with j in Es by (cbn in Hd; destruct Hd as [<-|[<-|[]]]; reflexivity). exact Es.
Qed.
Print Assumptions C35_forward_partial.
(** Without [justify-content], items of a reversed row are packed at its left end instead of its right
    one; so is an item that is alone on its line with [space-between]. *)
Theorem C35_reversed_refuted : exists l, let free := 80 in
  map (fun x => Qred x) (spaces 0 100 (distribute ROW_REVERSE NORMAL 100 l)) = [0; free] /\ rev (expected NORMAL 1 free) = [free; 0] /\
  map (fun x => Qred x) (spaces 0 100 (distribute ROW_REVERSE SPACE_BETWEEN 100 l)) = [0; free] /\ rev (expected SPACE_BETWEEN 1 free) = [free; 0].
Proof. exists [(mkItem 1 0 0 0 0 0 (LENGTH 0) (LENGTH 0), 20)]. repeat split; vm_compute; reflexivity. Qed.
Print Assumptions C35_reversed_refuted.

(** ** Items stay inside of their container *)

Definition percent (m : margin) : bool := match m with PERCENT _ => true | _ => false end.
(** All margin boxes of a line lie in the container, one after the other: no space is negative. *)
Definition inside (main : Q) (r : list placed) : Prop := Forall (fun x => 0 <= x) (spaces 0 main r).
(** [auto] or lengths as margins, limits that can be met, factors that are 0 or at least 1 *)
Definition usual (i : item) : Prop :=
  percent (i_start i) = false /\ percent (i_end i) = false /\ bounded i /\ 0 <= i_grow i /\ (i_shrink i == 0 \/ 1 <= i_shrink i).

Lemma eqs_nonneg a b : eqs a b -> Forall (fun x => 0 <= x) b -> Forall (fun x => 0 <= x) a.
Proof. intros E. induction E as [|x y a b E _ IH]; intros H; [constructor|]. inversion H; subst. constructor; [rewrite E; assumption|now apply IH]. Qed.
Lemma repeat_nonneg x n : 0 <= x -> Forall (fun x => 0 <= x) (repeat x n).
Proof. intros H. induction n; constructor; assumption. Qed.
Lemma div_nonneg a n : 0 <= a -> (0 <= n)%Z -> 0 <= a / inject_Z n.
Proof. intros A N. apply Qmult_le_0_compat; [exact A|]. apply Qinv_le_0_compat. change 0 with (inject_Z 0). now rewrite <- Zle_Qle. Qed.
Lemma expected_nonneg j n a : (0 < n)%nat -> 0 <= a -> Forall (fun x => 0 <= x) (expected j n a).
Proof.
  intros N A. assert (0 <= 0) as Z by lra. assert (0 <= a / 2) as H2 by (apply (div_nonneg a 2); [exact A|lia]).
  assert (Forall (fun x => 0 <= x) (repeat 0 n ++ [a])) as L by (apply Forall_app; split; [now apply repeat_nonneg|now constructor; [|constructor]]).
  assert (Forall (fun x => 0 <= x) ((a / 2) :: repeat 0 (n - 1) ++ [a / 2])) as M by (constructor; [exact H2|]; apply Forall_app; split; [now apply repeat_nonneg|now constructor; [|constructor]]).
  assert (0 <= a / inject_Z (Z.of_nat n)) as G by (apply div_nonneg; [exact A|lia]).
  unfold expected. cbv zeta. destruct j; try exact L; try exact M.
  - constructor; [exact A|now apply repeat_nonneg].
  - destruct (_ || _); [exact L|]. constructor; [exact Z|]. apply Forall_app; split; [apply repeat_nonneg, div_nonneg; [exact A|lia]|now constructor; [|constructor]].
  - destruct (ltq a 0); [exact M|]. assert (0 <= a / inject_Z (Z.of_nat n) / 2) as G2 by (apply (div_nonneg _ 2); [exact G|lia]).
    constructor; [exact G2|]. apply Forall_app; split; [now apply repeat_nonneg|now constructor; [|constructor]].
Qed.

(** Adjacent items do not overlap and none is outside when there is room for all. *)
Theorem C35_no_overlap_partial : forall d j main l, l <> [] -> plain j -> occupied (map margins l) <= main -> inside main (distribute d j main l).
Proof.
  intros d j main l Ne Hj Ho. destruct (C35_distribute_partial d j main l Ne Hj) as (_ & Es & _ & Oc). apply (eqs_nonneg _ _ Es). apply expected_nonneg; [destruct l; [congruence|cbn; lia]|]. rewrite Oc. destruct (_ && _); lra.
Qed.
Print Assumptions C35_no_overlap_partial.

Lemma filled_occupied r : Forall (fun x : item * Q => percent (i_start (fst x)) = false /\ percent (i_end (fst x)) = false) r -> occupied (map margins r) == filled r.
Proof.
  intros H. unfold occupied, filled. induction H as [|[i v] r [P1 P2] _ IH]; [reflexivity|]. cbn [map]. rewrite !sumq_cons, IH. apply Qplus_comp; [|reflexivity]. cbn [fst snd] in *. unfold outer, margins, both. cbn [p_size p_start p_end fst snd]. destruct (i_start i), (i_end i); try discriminate; cbn [resolve]; ring.
Qed.

Definition at_min (r : list placed) : Prop := forall p, In p r -> ~ i_shrink (p_item p) == 0 -> p_size p == i_min (p_item p).
Lemma line_inside fuel d j main l : l <> [] -> plain j -> Forall usual l -> (length l <= fuel)%nat ->
  exists r, resolve_line fuel main l = Ok r /\ map fst r = l /\ (inside main (distribute d j main r) \/ at_min (distribute d j main r)) /\ map p_item (distribute d j main r) = l.
Proof.
  intros Ne Hj U Hf. assert (Forall bounded l /\ Forall (fun i => 0 <= i_grow i) l /\ Forall (fun i => 0 <= i_shrink i) l /\ Forall (fun i => i_shrink i == 0 \/ 1 <= i_shrink i) l) as (B & G & S & S1).
  { rewrite !Forall_forall in *. refine (conj _ (conj _ (conj _ _))); intros i Hi; destruct (U i Hi) as (_ & _ & B & G & S); [exact B|exact G|destruct S; lra|exact S]. }
  assert (exists r, resolve_line fuel main l = Ok r /\ map fst r = l /\ (filled r <= main \/ forall i v, In (i, v) r -> ~ i_shrink i == 0 -> v == i_min i)) as (r & E & M & F).
  { destruct (Q_dec (line_size l) main) as [[H|H]|H].
    - destruct (C34_grow_partial l main fuel B G Hf H) as (r & E & M & F & _). exists r. auto.
    - destruct (C34_shrink_partial l main fuel B S Hf H) as (r & E & M & _ & _ & F & _). exists r. repeat split; auto. destruct (F S1) as [F'|F']; [left; lra|now right].
    - exists (map (fun i => (i, hypo i)) l). split; [now apply C34_exact|]. split; [rewrite map_map; cbn [fst]; apply map_id|]. left. unfold filled. rewrite map_map. cbn [fst snd]. change (sumq (map (fun x => hypo x + both x) l)) with (line_size l). lra. }
  assert (r <> []) as Nr by (intros ->; now cbn in M; subst l).
  destruct (C35_distribute_partial d j main r Nr Hj) as (Sm & _). exists r. split; [exact E|]. split; [exact M|].
  assert (map p_item (distribute d j main r) = l) as Mi by (rewrite <- M; apply (f_equal (map fst)) in Sm; rewrite map_map in Sm; exact Sm).
  split; [|exact Mi]. destruct F as [F|F]; [left|right].
  - apply C35_no_overlap_partial; [exact Nr|exact Hj|]. rewrite filled_occupied; [exact F|]. apply Forall_forall. intros x Hx. rewrite Forall_forall in U. destruct (U (fst x)) as (P1 & P2 & _); [rewrite <- M; now apply in_map|]. auto.
  - intros p Hp. apply (F (p_item p) (p_size p)). rewrite <- Sm. apply in_map_iff. exists p. auto.
Qed.
(** Items are put inside of the container, without overlapping and in the order of the document (the
    opposite one for [row-reverse]), except on lines where all that may shrink is as small as it may be. *)
Theorem C78_inside_partial : forall w d j main l, l <> [] -> plain j -> Forall usual l -> exists ls,
  layout (length l) w d j main l = Ok ls /\
  concat (map (fun r => match d with ROW_REVERSE => rev (map p_item r) | _ => map p_item r end) ls) = l /\
  Forall (fun r => inside main r \/ at_min r) ls.
Proof.
  intros w d j main l Ne Hj U. destruct (C33_lines w d main l) as (ls & E & C & N1 & N2).
  assert (Forall (fun a => a <> []) ls) as Nl. { destruct w; [rewrite (N1 eq_refl); now constructor|apply N2; discriminate..]. }
  set (f := fun a : list item => match d with ROW_REVERSE => rev a | _ => a end).
  assert (collect w d main l = Ok (map f ls)) as E'. { rewrite E. unfold f. destruct d; try (now rewrite map_id); reflexivity. }
  unfold layout. rewrite E'. cbn [obind].
  assert (forall a, In a ls -> f a <> [] /\ Forall usual (f a) /\ (length (f a) <= length l)%nat /\ f (f a) = a) as H.
  { intros a Ha. rewrite Forall_forall in Nl, U. assert (incl a l) as I by (intros i Hi; rewrite <- C; apply in_concat; eauto). assert (length (f a) = length a) as Lf by (unfold f; destruct d; auto using rev_length).
    repeat split.
    - intros K. apply (Nl a Ha). destruct a; [reflexivity|]. rewrite K in Lf. discriminate.
    - apply Forall_forall. intros i Hi. apply U, I. unfold f in Hi. destruct d; auto. now apply in_rev.
    - rewrite Lf, <- C. clear - Ha. induction ls as [|b ls IH]; [easy|]. cbn [concat]. rewrite app_length. destruct Ha as [->|Ha]; [lia|]. specialize (IH Ha). lia.
    - unfold f. destruct d; auto. apply rev_involutive. }
  clear E E' N1 N2 Nl. revert H. generalize (length l) as n. intros n H. clear U Ne. subst l. induction ls as [|a ls IH]; [exists []; repeat split; constructor|].
  destruct (H a (or_introl eq_refl)) as (Na & Ua & La & Fa). destruct (line_inside n d j main (f a) Na Hj Ua La) as (r & E & M & I & Mi).
  destruct (IH (fun b Hb => H b (or_intror Hb))) as (rs & Es & Cs & Is). exists (distribute d j main r :: rs). cbn [map fold_right]. rewrite E, Es. cbn [obind omap]. split; [reflexivity|]. split; [|now constructor].
  cbn [map concat]. rewrite Cs. f_equal. rewrite Mi. unfold f in Fa. unfold f. destruct d; exact Fa.
Qed.
Print Assumptions C78_inside_partial.

Definition sam : list item := [mkItem 1 60 0 1000 0 1 (LENGTH 5) (LENGTH 5); mkItem 2 80 70 1000 0 2 AUTO (LENGTH 10); mkItem 3 30 0 40 1 1 AUTO AUTO; mkItem 4 20 0 100 0 0 AUTO (LENGTH 0)].
Example C35_sample :
  map (fun p => Qred (p_pos p)) (distribute ROW SPACE_AROUND 100 [(mkItem 1 0 0 0 0 0 (LENGTH 5) (LENGTH 5), 20); (mkItem 2 0 0 0 0 0 (LENGTH 0) (LENGTH 0), 30)]) = [15; 60] /\
  map (fun p => Qred (p_pos p)) (distribute ROW_REVERSE FLEX_START 100 [(mkItem 1 0 0 0 0 0 (LENGTH 5) (LENGTH 5), 20); (mkItem 2 0 0 0 0 0 (LENGTH 0) (LENGTH 0), 30)]) = [45; 70] /\
  map (fun p => (Qred (p_pos p), Qred (p_start p), Qred (p_end p))) (distribute ROW CENTER 100 [(mkItem 1 0 0 0 0 0 AUTO (LENGTH 4), 20); (mkItem 2 0 0 0 0 0 AUTO AUTO, 40)]) = [(12, 12, 4); (48, 12, 12)].
Proof. repeat split; vm_compute; reflexivity. Qed.
Example C78_sample : sam <> [] /\ plain CENTER /\ Forall usual sam /\
  omap (map (map (fun p => (i_id (p_item p), Qred (p_size p), Qred (p_pos p))))) (layout 4 WRAP ROW CENTER 120 sam) =
    Ok [[(1%nat, 60, 30)]; [(2%nat, 80, 0); (3%nat, 30, 90)]; [(4%nat, 20, 100)]] /\
  omap (map (map (fun p => (i_id (p_item p), Qred (p_size p), Qred (p_pos p))))) (layout 4 NOWRAP ROW_REVERSE CENTER 120 sam) =
    Ok [[(4%nat, 20, 0); (3%nat, 10 # 3, 20); (2%nat, 70, 70 # 3); (1%nat, 20 # 3, 325 # 3)]].
Proof.
  split; [discriminate|]. split; [cbn; auto|]. split; [|split; vm_compute; reflexivity].
  unfold sam. repeat (constructor; [repeat split; try reflexivity; try (vm_compute; discriminate); (left; vm_compute; reflexivity) || (right; vm_compute; discriminate)|]). constructor.
Qed.
(** Not with percentages as margins: they are those of the size of the item, and are added when the
    sizes are already there. The item of width 100 in a container of 100 does not shrink for its
    margin of 10%. *)
Definition wide : item := mkItem 1 100 0 1000 0 1 (PERCENT 10) (LENGTH 0).
Theorem C78_inside_refuted : exists r, bounded wide /\ 0 <= i_grow wide /\ 1 <= i_shrink wide /\
  layout 1 NOWRAP ROW FLEX_START 100 [wide] = Ok [r] /\ ~ inside 100 r /\ ~ at_min r.
Proof.
  eexists. split; [split; vm_compute; discriminate|]. split; [vm_compute; discriminate|]. split; [vm_compute; discriminate|]. split; [reflexivity|]. split.
  - intros H. unfold inside in H. vm_compute in H. inversion H as [|x l Hx Hl]; subst. inversion Hl; subst. auto.
  - intros H. specialize (H _ (or_introl eq_refl)). vm_compute in H. discriminate H. discriminate.
Qed.
Print Assumptions C78_inside_refuted.
