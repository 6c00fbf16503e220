(** C27: the break point that is kept is the best one. *)
From Coq Require Import List NArith Bool Lia.
From Verif.Layout Require Import BreakModel.
Import ListNotations.
Local Open Scope N_scope.

(** Of the break points offered in order: one of the highest appeal; of several, the last, but the
    first when they are overflows. *)
Inductive best : list bp -> bp -> Prop :=
| best_last l b r : bp_appeal b <> OVERFLOW ->
    (forall x, In x l -> rank (bp_appeal x) <= rank (bp_appeal b)) ->
    (forall x, In x r -> rank (bp_appeal x) < rank (bp_appeal b)) -> best (l ++ b :: r) b
| best_first l b r : bp_appeal b = OVERFLOW ->
    (forall x, In x l -> rank (bp_appeal x) < rank (bp_appeal b)) ->
    (forall x, In x r -> rank (bp_appeal x) <= rank (bp_appeal b)) -> best (l ++ b :: r) b.

(** The appeal of the constructors: a forced break beats a break between two boxes, which beats one
    that is to be avoided, which beats an overflow. *)
Theorem C27_appeals e c :
  rank (bp_appeal (forced e)) = 4 /\
  rank (bp_appeal (class_b e false)) = 3 /\ rank (bp_appeal (bottom_of_monolithic e)) = 3 /\
  rank (bp_appeal (class_b e true)) = 2 /\ rank (bp_appeal (from_child c e true)) = 2 /\
  rank (bp_appeal (from_child c e false)) = rank (bp_appeal c) /\
  rank (bp_appeal overflow) = 1 /\ rank (bp_appeal bp_default) = 0.
Proof. repeat split. Qed.
Print Assumptions C27_appeals.

Lemma better_overflow a b : bp_appeal a = OVERFLOW -> bp_appeal b = OVERFLOW -> override_if_better a b = a.
Proof. intros A B. unfold override_if_better. now rewrite A, B. Qed.
Lemma better_ge a b : rank (bp_appeal a) <= rank (bp_appeal b) -> (bp_appeal a <> OVERFLOW \/ bp_appeal b <> OVERFLOW) -> override_if_better a b = b.
Proof.
  intros L H. unfold override_if_better. apply N.leb_le in L. rewrite L.
  destruct (bp_appeal a), (bp_appeal b); try reflexivity. destruct H; congruence.
Qed.
Lemma better_lt a b : rank (bp_appeal b) < rank (bp_appeal a) -> override_if_better a b = a.
Proof.
  intros L. unfold override_if_better. destruct (N.leb_spec (rank (bp_appeal a)) (rank (bp_appeal b))); [lia|]. now destruct (_ && _).
Qed.


Lemma best_step l b0 b : best l b0 -> best (l ++ [b]) (override_if_better b0 b).
Proof.
  intros H. inversion H as [l1 b1 r A B C|l1 b1 r A B C]; subst.
  - destruct (N.leb_spec (rank (bp_appeal b0)) (rank (bp_appeal b))) as [L|L].
    + rewrite better_ge by auto. destruct (bp_appeal b) eqn:E.
      1,3,4,5: apply (best_last (l1 ++ b0 :: r) b []); [congruence| |intros x []]; intros x I; rewrite E;
          apply in_app_or in I as [I|[<-|I]]; [specialize (B x I); cbn in *; lia|cbn in *; lia|specialize (C x I); cbn in *; lia].
      apply (best_first (l1 ++ b0 :: r) b []); [exact E| |intros x []].
      assert (rank (bp_appeal b0) < 1) as Z by (destruct (bp_appeal b0); cbn in L |- *; try lia; congruence).
      intros x I. rewrite E. cbn [rank]. apply in_app_or in I as [I|[<-|I]]; [specialize (B x I); lia|lia|specialize (C x I); lia].
    + rewrite better_lt by exact L. rewrite <- app_assoc. cbn [app]. apply best_last; auto. intros x I. apply in_app_or in I as [I|[<-|[]]]; auto.
  - destruct (N.leb_spec (rank (bp_appeal b)) (rank (bp_appeal b0))) as [L|L].
    + assert (override_if_better b0 b = b0) as ->.
      { destruct (N.eq_dec (rank (bp_appeal b)) (rank (bp_appeal b0))) as [E|E]; [|apply better_lt; lia].
        apply better_overflow; [exact A|]. rewrite A in E. destruct (bp_appeal b); try reflexivity; discriminate E. }
      rewrite <- app_assoc. cbn [app]. apply best_first; auto. intros x I. apply in_app_or in I as [I|[<-|[]]]; auto.
    + assert (bp_appeal b <> OVERFLOW) as N by (intros E; rewrite E, A in L; lia).
      rewrite better_ge by (auto; lia). apply (best_last (l1 ++ b0 :: r) b []); [exact N| |intros x []].
      intros x I. apply in_app_or in I as [I|[<-|I]]; [specialize (B x I); lia|lia|specialize (C x I); lia].
Qed.

(** ** C27. Offering break points one after the other, starting from none, keeps the best. *)
Theorem C27_best_break : forall l, l <> [] -> best l (fold_left override_if_better l bp_default).
Proof.
  assert (forall l pre b0, best pre b0 -> best (pre ++ l) (fold_left override_if_better l b0)) as K.
  { induction l as [|b l IH]; intros pre b0 H; [now rewrite app_nil_r|]. cbn [fold_left].
    change (b :: l) with ([b] ++ l). rewrite app_assoc. apply IH. now apply best_step. }
  intros [|b l] N; [congruence|]. cbn [fold_left]. change (b :: l) with ([b] ++ l). apply K.
  rewrite better_ge by (cbn; destruct (bp_appeal b); cbn; try lia; left; discriminate).
  destruct (bp_appeal b) eqn:E.
  1,3,4,5: apply (best_last [] b []); [congruence|intros x []|intros x []].
  apply (best_first [] b []); [exact E|intros x []|intros x []].
Qed.
Print Assumptions C27_best_break.

(** The best one is determined by the list. *)
Theorem C27_best_unique : forall l b c, best l b -> best l c -> b = c.
Proof.
  intros l b c H1 H2.
  assert (forall (l1 : list bp) b r1 l2 c r2, l1 ++ b :: r1 = l2 ++ c :: r2 -> 
     (l1 = l2 /\ b = c) \/ (exists m, l2 = l1 ++ b :: m /\ r1 = m ++ c :: r2) \/ (exists m, l1 = l2 ++ c :: m /\ r2 = m ++ b :: r1)) as SPLIT.
  { clear. induction l1 as [|x l1 IH]; intros b r1 [|y l2] c r2 E; cbn in E.
    - injection E as -> _. auto.
    - injection E as -> ->. right. left. exists l2. auto.
    - injection E as -> <-. right. right. exists l1. auto.
    - injection E as -> E. destruct (IH _ _ _ _ _ E) as [[-> ->]|[(m & -> & ->)|(m & -> & ->)]]; [auto|right; left; exists m; auto|right; right; exists m; auto]. }
  inversion H1 as [l1 b1 r1 A1 B1 C1|l1 b1 r1 A1 B1 C1]; inversion H2 as [l2 b2 r2 A2 B2 C2|l2 b2 r2 A2 B2 C2]; subst;
    match goal with H : _ ++ _ :: _ = _ ++ _ :: _ |- _ => destruct (SPLIT _ _ _ _ _ _ H) as [[-> Eq]|[(m & -> & ->)|(m & -> & ->)]] end;
    try congruence;
    repeat match goal with H : forall x, In x (_ ++ _ :: _) -> _ |- _ => pose proof (H _ (in_elt _ _ _)); clear H end; exfalso; try lia;
    try (apply A1; destruct (bp_appeal b), (bp_appeal c); cbn in *; congruence || lia);
    try (apply A2; destruct (bp_appeal b), (bp_appeal c); cbn in *; congruence || lia).
Qed.
Print Assumptions C27_best_unique.

Example C27_sample : fold_left override_if_better [overflow; class_b 1 false; class_b 2 true; class_b 3 false; from_child overflow 4 false] bp_default = class_b 3 false
  /\ fold_left override_if_better [from_child overflow 1 false; overflow] bp_default = from_child overflow 1 false.
Proof. split; reflexivity. Qed.
