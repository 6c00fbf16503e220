(** Proofs about counter representations. *)
From Coq Require Import String List ZArith Bool Lia.
From Verif.Base Require Import Str Outcome.
From Verif.Style Require Import CounterModel CounterSpec.
Import ListNotations.
Local Open Scope list_scope.
Local Open Scope Z_scope.

(** * Indexing *)

Lemma len_nonneg {A} (l : list A) : 0 <= len l.
Proof. unfold len. lia. Qed.

Lemma index_ok {A} (l : list A) i :
  0 <= i < len l -> exists a, index l i = Ok a /\ nth_error l (Z.to_nat i) = Some a.
Proof.
  unfold index, len. intros H.
  destruct (i <? 0) eqn:E; [lia|].
  destruct (nth_error l (Z.to_nat i)) eqn:N.
  - eauto.
  - apply nth_error_None in N. lia.
Qed.

Lemma nth_error_inj {A} (l : list A) i j a :
  NoDup l -> nth_error l i = Some a -> nth_error l j = Some a -> i = j.
Proof.
  intros N H1 H2.
  assert (i < length l)%nat by (apply nth_error_Some; congruence).
  eapply NoDup_nth_error; eauto. congruence.
Qed.

(** * Digit strings *)

Lemma horner_app b a l1 l2 : horner b a (l1 ++ l2) = horner b (horner b a l1) l2.
Proof. revert a; induction l1; simpl; auto. Qed.

Lemma horner_snoc b a l d : horner b a (l ++ [d]) = horner b a l * b + d.
Proof. rewrite horner_app. reflexivity. Qed.

Lemma spells_app syms d1 d2 o1 o2 :
  spells syms d1 o1 -> spells syms d2 o2 -> spells syms (d1 ++ d2) (o1 ++ o2).
Proof. apply Forall2_app. Qed.

Lemma spells_fun syms ds o1 o2 : spells syms ds o1 -> spells syms ds o2 -> o1 = o2.
Proof.
  intros H; revert o2; induction H; intros o2 H2; inversion H2; subst; f_equal; auto; congruence.
Qed.

Lemma spells_inj syms d1 d2 o :
  NoDup syms -> Forall (fun d => 0 <= d) d1 -> Forall (fun d => 0 <= d) d2 ->
  spells syms d1 o -> spells syms d2 o -> d1 = d2.
Proof.
  intros N P1 P2 H. revert d2 P2. induction H; intros d2 P2 H2; inversion H2; subst; auto.
  inversion P1; inversion P2; subst. f_equal; [|auto].
  assert (Z.to_nat x = Z.to_nat x0) by eauto using nth_error_inj. lia.
Qed.

Lemma horner_nonneg b a ds :
  0 <= b -> 0 <= a -> Forall (fun d => 0 <= d) ds -> 0 <= horner b a ds.
Proof.
  intros Hb. revert a. induction ds; simpl; intros a0 H F; auto.
  inversion F; subst. apply IHds; auto. nia.
Qed.

Lemma horner_ge b a ds :
  1 <= b -> 0 <= a -> Forall (fun d => 0 <= d) ds -> a <= horner b a ds.
Proof.
  intros Hb. revert a. induction ds as [|d ds IH]; simpl; intros a0 H F; [lia|].
  inversion F; subst. assert (P : 0 <= a0 * b + d) by nia.
  match goal with X : Forall _ ds |- _ => specialize (IH _ P X) end. nia.
Qed.

Lemma horner_pos b d ds :
  1 <= b -> 0 < d -> Forall (fun d => 0 <= d) ds -> 0 < horner b 0 (d :: ds).
Proof.
  intros Hb Hd F. cbn [horner]. pose proof (horner_ge b (0 * b + d) ds Hb ltac:(lia) F). lia.
Qed.

Lemma digit_unique n a b x y :
  0 <= x < n -> 0 <= y < n -> a * n + x = b * n + y -> a = b /\ x = y.
Proof.
  intros X Y E.
  assert (a = b).
  { destruct (Z.lt_trichotomy a b) as [L|[L|L]]; auto; exfalso.
    - assert (a * n + n <= b * n) by nia. lia.
    - assert (b * n + n <= a * n) by nia. lia. }
  subst. split; auto. lia.
Qed.

Lemma numeral_unique n d1 d2 :
  2 <= n -> numeral n d1 -> numeral n d2 -> horner n 0 d1 = horner n 0 d2 -> d1 = d2.
Proof.
  intros Hn. revert d2. induction d1 as [|x d1 IH] using rev_ind.
  { intros d2 [_ H]. destruct H. }
  intros d2. destruct d2 as [|y d2 _] using rev_ind.
  { intros _ [_ H]. destruct H. }
  intros [F1 L1] [F2 L2]. rewrite !horner_snoc. intros E.
  apply Forall_app in F1 as [F1 X]. apply Forall_app in F2 as [F2 Y].
  inversion X; inversion Y; subst.
  assert (P1 : Forall (fun d => 0 <= d) d1) by (eapply Forall_impl; [|exact F1]; simpl; lia).
  assert (P2 : Forall (fun d => 0 <= d) d2) by (eapply Forall_impl; [|exact F2]; simpl; lia).
  pose proof (horner_nonneg n 0 d1 ltac:(lia) ltac:(lia) P1).
  pose proof (horner_nonneg n 0 d2 ltac:(lia) ltac:(lia) P2).
  assert (horner n 0 d1 = horner n 0 d2 /\ x = y) as [E1 ->] by (apply (digit_unique n); lia).
  f_equal. destruct d1 as [|a d1]; destruct d2 as [|b d2]; auto.
  - simpl in L2. exfalso. assert (b <> 0) by (intros ->; destruct d2; discriminate (L2 eq_refl)).
    inversion P2; subst. pose proof (horner_pos n b d2 ltac:(lia) ltac:(lia) ltac:(auto)).
    simpl horner at 1 in E1. lia.
  - simpl in L1. exfalso. assert (a <> 0) by (intros ->; destruct d1; discriminate (L1 eq_refl)).
    inversion P1; subst. pose proof (horner_pos n a d1 ltac:(lia) ltac:(lia) ltac:(auto)).
    simpl horner at 2 in E1. lia.
  - apply IH; auto.
    + split; auto. simpl in L1 |- *. intros ->. destruct d1; auto. discriminate (L1 eq_refl).
    + split; auto. simpl in L2 |- *. intros ->. destruct d2; auto. discriminate (L2 eq_refl).
Qed.

Lemma bijective_unique n d1 d2 :
  2 <= n -> Forall (fun d => 1 <= d <= n) d1 -> Forall (fun d => 1 <= d <= n) d2 ->
  horner n 0 d1 = horner n 0 d2 -> d1 = d2.
Proof.
  intros Hn. revert d2. induction d1 as [|x d1 IH] using rev_ind;
    intros d2; destruct d2 as [|y d2 _] using rev_ind; auto; intros F1 F2.
  - rewrite horner_snoc. simpl. intros E. exfalso.
    apply Forall_app in F2 as [F2 Y]. inversion Y; subst.
    assert (P2 : Forall (fun d => 0 <= d) d2) by (eapply Forall_impl; [|exact F2]; simpl; lia).
    pose proof (horner_nonneg n 0 d2 ltac:(lia) ltac:(lia) P2). nia.
  - rewrite horner_snoc. simpl. intros E. exfalso.
    apply Forall_app in F1 as [F1 Y]. inversion Y; subst.
    assert (P1 : Forall (fun d => 0 <= d) d1) by (eapply Forall_impl; [|exact F1]; simpl; lia).
    pose proof (horner_nonneg n 0 d1 ltac:(lia) ltac:(lia) P1). nia.
  - rewrite !horner_snoc. intros E.
    apply Forall_app in F1 as [F1 X]. apply Forall_app in F2 as [F2 Y].
    inversion X; inversion Y; subst.
    assert (P1 : Forall (fun d => 0 <= d) d1) by (eapply Forall_impl; [|exact F1]; simpl; lia).
    assert (P2 : Forall (fun d => 0 <= d) d2) by (eapply Forall_impl; [|exact F2]; simpl; lia).
    assert (horner n 0 d1 = horner n 0 d2 /\ x = y) as [E1 ->].
    { destruct (digit_unique n (horner n 0 d1) (horner n 0 d2) (x - 1) (y - 1)); lia. }
    f_equal. auto.
Qed.

(** * The two digit loops *)

Lemma numeric_loop_ok syms : 2 <= len syms -> forall fuel v acc,
  0 <= v < 2 ^ (Z.of_nat fuel - 1) ->
  exists ds out, numeric_loop fuel syms v acc = Ok (out ++ acc) /\
    spells syms ds out /\ Forall (fun d => 0 <= d < len syms) ds /\
    horner (len syms) 0 ds = v /\
    match ds with [] => v = 0 | d :: _ => d <> 0 end.
Proof.
  intros Hn. induction fuel as [|f IH]; intros v acc Hv.
  { simpl in Hv. lia. }
  replace (Z.of_nat (S f) - 1) with (Z.of_nat f) in Hv by lia.
  cbn [numeric_loop]. destruct (v =? 0) eqn:E.
  { exists [], []. repeat split; auto; try constructor; simpl; lia. }
  apply Z.eqb_neq in E.
  destruct (index_ok syms (v mod len syms)) as (a & -> & Ha).
  { apply Z.mod_pos_bound. lia. }
  cbn [obind].
  assert (Hf : (0 < f)%nat) by (destruct f; [simpl in Hv; lia | lia]).
  destruct (IH (v / len syms) (a :: acc)) as (ds & out & -> & S & F & H & L).
  { split; [apply Z.div_pos; lia|].
    apply Z.div_lt_upper_bound; [lia|].
    assert (2 ^ Z.of_nat f = 2 * 2 ^ (Z.of_nat f - 1)).
    { rewrite <- Z.pow_succ_r by lia. f_equal. lia. }
    assert (0 < 2 ^ (Z.of_nat f - 1)) by (apply Z.pow_pos_nonneg; lia).
    nia. }
  exists (ds ++ [v mod len syms]), (out ++ [a]).
  rewrite <- app_assoc. split; [reflexivity|].
  split; [apply spells_app; auto; repeat constructor; auto|].
  split; [apply Forall_app; split; auto; repeat constructor; apply Z.mod_pos_bound; lia|].
  rewrite horner_snoc, H. split.
  { rewrite (Z.div_mod v (len syms)) at 3 by lia. lia. }
  destruct ds; simpl; auto.
  rewrite Z.mod_small; auto.
  split; [lia|]. apply Z.div_small_iff in L; lia.
Qed.

Lemma alphabetic_loop_ok syms : 2 <= len syms -> forall fuel v acc,
  0 <= v < 2 ^ (Z.of_nat fuel - 1) ->
  exists ds out, alphabetic_loop fuel syms v acc = Ok (out ++ acc) /\
    spells syms (map (fun d => d - 1) ds) out /\
    Forall (fun d => 1 <= d <= len syms) ds /\
    horner (len syms) 0 ds = v.
Proof.
  intros Hn. induction fuel as [|f IH]; intros v acc Hv.
  { simpl in Hv. lia. }
  replace (Z.of_nat (S f) - 1) with (Z.of_nat f) in Hv by lia.
  cbn [alphabetic_loop]. destruct (v =? 0) eqn:E.
  { exists [], []. repeat split; auto; try constructor; simpl; lia. }
  apply Z.eqb_neq in E.
  pose proof (Z.mod_pos_bound (v - 1) (len syms) ltac:(lia)) as B.
  destruct (index_ok syms ((v - 1) mod len syms)) as (a & -> & Ha); [exact B|].
  cbn [obind].
  assert (Hf : (0 < f)%nat) by (destruct f; [simpl in Hv; lia | lia]).
  destruct (IH ((v - 1) / len syms) (a :: acc)) as (ds & out & -> & S & F & H).
  { split; [apply Z.div_pos; lia|].
    apply Z.div_lt_upper_bound; [lia|].
    assert (2 ^ Z.of_nat f = 2 * 2 ^ (Z.of_nat f - 1)).
    { rewrite <- Z.pow_succ_r by lia. f_equal. lia. }
    assert (0 < 2 ^ (Z.of_nat f - 1)) by (apply Z.pow_pos_nonneg; lia).
    nia. }
  exists (ds ++ [(v - 1) mod len syms + 1]), (out ++ [a]).
  rewrite <- app_assoc. split; [reflexivity|].
  split. { rewrite map_app. apply spells_app; auto. simpl. repeat constructor.
           now replace ((v - 1) mod len syms + 1 - 1) with ((v - 1) mod len syms) by lia. }
  split; [apply Forall_app; split; auto; repeat constructor; lia|].
  rewrite horner_snoc, H.
  pose proof (Z.div_mod (v - 1) (len syms) ltac:(lia)). lia.
Qed.

Lemma loop_fuel_enough v : 0 <= v -> 0 <= v < 2 ^ (Z.of_nat (loop_fuel v) - 1).
Proof.
  intros H. split; auto. unfold loop_fuel.
  pose proof (Z.log2_nonneg v).
  replace (Z.of_nat (S (S (Z.to_nat (Z.log2 v)))) - 1) with (Z.succ (Z.log2 v)) by lia.
  destruct (Z.eq_dec v 0) as [->|N]; [simpl; lia|].
  apply Z.log2_spec. lia.
Qed.

Lemma construct_numeric_ok s v :
  2 <= len (st_symbols s) -> 0 <= v ->
  exists ds out, construct_numeric s v = Ok (Some out) /\
    spells (st_symbols s) ds out /\ numeral (len (st_symbols s)) ds /\
    horner (len (st_symbols s)) 0 ds = v.
Proof.
  intros Hn Hv. unfold construct_numeric.
  destruct (_ <? 2) eqn:E; [lia|].
  destruct (v =? 0) eqn:Z.
  - apply Z.eqb_eq in Z. subst.
    destruct (index_ok (st_symbols s) 0) as (a & -> & Ha); [lia|].
    exists [0], [a]. simpl. repeat split; repeat constructor; auto; lia.
  - apply Z.eqb_neq in Z.
    destruct (numeric_loop_ok (st_symbols s) Hn (loop_fuel v) v [] (loop_fuel_enough v Hv))
      as (ds & out & -> & S & F & H & L).
    exists ds, out. rewrite app_nil_r. repeat split; auto.
    destruct ds; [congruence|]. simpl. intros ->. congruence.
Qed.

Lemma construct_alphabetic_ok s v :
  2 <= len (st_symbols s) -> 0 < v ->
  exists ds out, construct_alphabetic s v = Ok (Some out) /\
    spells (st_symbols s) (map (fun d => d - 1) ds) out /\
    bijective (len (st_symbols s)) ds /\
    horner (len (st_symbols s)) 0 ds = v.
Proof.
  intros Hn Hv. unfold construct_alphabetic.
  destruct (_ <? 2) eqn:E; [lia|].
  destruct (v =? 0) eqn:Z; [lia|].
  destruct (alphabetic_loop_ok (st_symbols s) Hn (loop_fuel v) v []
              (loop_fuel_enough v ltac:(lia))) as (ds & out & -> & S & F & H).
  exists ds, out. rewrite app_nil_r. repeat split; auto.
  intros ->. simpl in H. lia.
Qed.

(** * Additive *)

Lemma greedy_nonneg t v reps : greedy t v reps -> 0 <= v.
Proof. induction 1; nia. Qed.

Lemma greedy_weigh t v reps : greedy t v reps -> weigh t reps = v.
Proof. induction 1; cbn [weigh]; lia. Qed.

Lemma greedy_zero_reps t reps : greedy t 0 reps -> spread t reps = [].
Proof.
  remember 0 as v eqn:E. intros H. revert E. induction H; intros E; simpl; auto.
  assert (k = O /\ v = 0) as [-> ->] by nia. simpl. auto.
Qed.

Lemma greedy_exists_zero t : Forall (fun t => 0 <= fst t) t -> exists reps, greedy t 0 reps.
Proof.
  induction 1 as [|[w s] t Hw F [reps IH]]; [eexists; constructor|].
  simpl in Hw. destruct (Z.eq_dec w 0) as [->|N].
  - eexists. constructor. eauto.
  - exists (O :: reps). replace 0 with (w * Z.of_nat 0 + 0) by lia. constructor; auto; lia.
Qed.

Lemma additive_loop_ok t : Forall (fun t => 0 <= fst t) t -> forall v acc,
  0 < v ->
  (exists reps, greedy t v reps /\
     additive_loop t v acc = Ok (Some (acc ++ spread t reps))) \/
  (additive_loop t v acc = Ok None /\ forall reps, ~ greedy t v reps).
Proof.
  induction 1 as [|[w s] t Hw F IH]; intros v acc Hv.
  { right. split; auto. intros reps H. inversion H. lia. }
  simpl in Hw. cbn [additive_loop].
  destruct (Z.eq_dec w 0) as [->|Nw].
  { simpl. destruct (IH v acc Hv) as [(reps & G & E)|[E G]].
    - left. exists (O :: reps). split; [constructor; auto|]. exact E.
    - right. split; auto. intros reps H. inversion H; subst; [eapply G; eauto|lia]. }
  rewrite (proj2 (Z.eqb_neq w 0)) by auto. cbn [orb].
  destruct (w >? v) eqn:C.
  { apply Z.gtb_lt in C.
    destruct (IH v acc Hv) as [(reps & G & E)|[E G]].
    - left. exists (O :: reps). split.
      + replace v with (w * Z.of_nat 0 + v) by lia. constructor; auto; lia.
      + exact E.
    - right. split; auto. intros reps H. inversion H; subst; [congruence|].
      assert (k = O) as -> by nia. eapply G. rewrite Z.mul_0_r, Z.add_0_l. eauto. }
  assert (w <= v) by (destruct (Z.gtb_spec w v); [discriminate|lia]).
  rewrite Z.quot_div_nonneg by lia.
  pose proof (Z.div_mod v w Nw) as DM. pose proof (Z.mod_pos_bound v w ltac:(lia)) as MB.
  pose proof (Z.div_pos v w ltac:(lia) ltac:(lia)).
  destruct (v / w <? 0) eqn:Q; [lia|].
  assert (U : forall k v', 0 <= v' < w -> w * Z.of_nat k + v' = v ->
              k = Z.to_nat (v / w) /\ v' = v - w * (v / w)).
  { intros k v' B1 B2. assert (Z.of_nat k = v / w).
    { apply (Z.div_unique_pos v w (Z.of_nat k) v'); lia. } split; lia. }
  destruct (v - w * (v / w) =? 0) eqn:Z0.
  { apply Z.eqb_eq in Z0. left.
    destruct (greedy_exists_zero t F) as [reps G].
    exists (Z.to_nat (v / w) :: reps). split.
    - replace v with (w * Z.of_nat (Z.to_nat (v / w)) + 0) at 1 by lia.
      constructor; auto; lia.
    - cbn [spread]. rewrite (greedy_zero_reps _ _ G), app_nil_r. reflexivity. }
  apply Z.eqb_neq in Z0.
  destruct (IH (v - w * (v / w)) (acc ++ repeat s (Z.to_nat (v / w))) ltac:(lia))
    as [(reps & G & E)|[E G]].
  - left. exists (Z.to_nat (v / w) :: reps). split.
    + replace v with (w * Z.of_nat (Z.to_nat (v / w)) + (v - w * (v / w))) at 1 by lia.
      constructor; auto; lia.
    + rewrite E. cbn [spread]. now rewrite app_assoc.
  - right. split; auto. intros reps H'. inversion H'; subst; [congruence|].
    match goal with Hr : greedy t ?vv _ |- _ =>
      match type of MB with context [ ?big mod w ] =>
        destruct (U k vv ltac:(lia) eq_refl) as [_ E2]; rewrite <- E2 in G; exact (G _ Hr)
      end end.
Qed.

Lemma construct_additive_ok s v : Forall (fun t => 0 <= fst t) (st_additive s) -> 0 < v ->
  (exists reps, greedy (st_additive s) v reps /\
     construct_additive s v = Ok (Some (spread (st_additive s) reps))) \/
  (construct_additive s v = Ok None /\ forall reps, ~ greedy (st_additive s) v reps).
Proof.
  intros F Hv. unfold construct_additive.
  destruct (st_additive s) as [|t0 t] eqn:E.
  { right. split; auto. intros reps H. inversion H. lia. }
  rewrite <- E in *. destruct (v =? 0) eqn:Z0; [lia|].
  apply (additive_loop_ok _ F v [] Hv).
Qed.

Lemma construct_additive_zero s :
  (exists s0, In (0, s0) (st_additive s) /\
     construct_additive s 0 = Ok (Some [s0])) \/
  (construct_additive s 0 = Ok None /\ forall s0, ~ In (0, s0) (st_additive s)).
Proof.
  unfold construct_additive. destruct (st_additive s) as [|t0 t] eqn:E.
  { right. split; auto. }
  rewrite <- E. cbn [Z.eqb].
  destruct (find _ _) as [[w x]|] eqn:Fi.
  - left. apply find_some in Fi as [I W]. simpl in W. apply Z.eqb_eq in W. subst. eauto.
  - right. split; auto. intros s0 I. apply (find_none _ _ Fi) in I. discriminate.
Qed.

Lemma greedy_unique t v r1 r2 : greedy t v r1 -> greedy t v r2 -> r1 = r2.
Proof.
  intros H; revert r2. induction H; intros r2 H2; inversion H2; subst; auto; try lia; try (f_equal; auto).
  - assert (k0 = k /\ v0 = v) as [-> ->].
    { assert (Z.of_nat k0 = Z.of_nat k).
      { rewrite (Z.div_unique_pos (w * Z.of_nat k + v) w (Z.of_nat k) v) by lia.
        apply (Z.div_unique_pos _ w (Z.of_nat k0) v0); lia. }
      split; nia. }
    auto.
  - assert (v0 = v). { assert (Z.of_nat k0 = Z.of_nat k).
      { rewrite (Z.div_unique_pos (w * Z.of_nat k + v) w (Z.of_nat k) v) by lia.
        apply (Z.div_unique_pos _ w (Z.of_nat k0) v0); lia. } nia. }
    subst. auto.
Qed.

(** * Cyclic, symbolic, fixed *)

Lemma construct_cyclic_ok s v : st_symbols s <> [] ->
  exists x, nth_error (st_symbols s) (Z.to_nat ((v - 1) mod len (st_symbols s))) = Some x /\
            construct_cyclic s v = Ok (Some [x]).
Proof.
  intros N. unfold construct_cyclic.
  assert (P : 0 < len (st_symbols s)) by (unfold len; destruct (st_symbols s); [congruence|simpl; lia]).
  destruct (st_symbols s) as [|a l] eqn:E; [congruence|]. rewrite <- E in *.
  set (n := len (st_symbols s)) in *.
  assert (X : (if Z.rem (v - 1) n <? 0 then Z.rem (v - 1) n + n else Z.rem (v - 1) n)
              = (v - 1) mod n).
  { pose proof (Z.quot_rem' (v - 1) n) as Q.
    destruct (Z.ltb_spec (Z.rem (v - 1) n) 0).
    - assert (- n < Z.rem (v - 1) n).
      { pose proof (Z.rem_bound_abs (v - 1) n). lia. }
      apply (Z.mod_unique_pos _ _ (Z.quot (v - 1) n - 1)); lia.
    - apply (Z.mod_unique_pos _ _ (Z.quot (v - 1) n)); [|lia].
      pose proof (Z.rem_bound_abs (v - 1) n). lia. }
  rewrite X.
  destruct (index_ok (st_symbols s) ((v - 1) mod n)) as (x & -> & Hx).
  { apply Z.mod_pos_bound. exact P. }
  exists x. auto.
Qed.

Lemma construct_symbolic_total s v : st_symbols s <> [] ->
  exists x, nth_error (st_symbols s) (Z.to_nat (((v - 1) mod 2 ^ 64) mod len (st_symbols s))) = Some x /\
            construct_symbolic s v
            = Ok (Some (repeat x (Z.to_nat (- ((- v) / len (st_symbols s)))))).
Proof.
  intros N. unfold construct_symbolic.
  assert (P : 0 < len (st_symbols s)) by (unfold len; destruct (st_symbols s); [congruence|simpl; lia]).
  destruct (st_symbols s) as [|a l] eqn:E; [congruence|]. rewrite <- E in *.
  destruct (index_ok (st_symbols s) (((v - 1) mod 2 ^ 64) mod len (st_symbols s))) as (x & -> & Hx).
  { apply Z.mod_pos_bound. exact P. }
  exists x. auto.
Qed.

Lemma construct_fixed_ok s n v : st_symbols s <> [] ->
  unwrap_or n 0 < v -> v <= unwrap_or n 0 + len (st_symbols s) ->
  exists x, nth_error (st_symbols s) (Z.to_nat (v - unwrap_or n 0 - 1)) = Some x /\
            construct_fixed s n v = Ok (Some [x]).
Proof.
  intros N H1 H2. unfold construct_fixed.
  destruct (st_symbols s) as [|a l] eqn:E; [congruence|]. rewrite <- E in *.
  change (match n with Some n0 => n0 | None => 0 end) with (unwrap_or n 0).
  rewrite Z.geb_leb. destruct (_ <=? _) eqn:L; [lia|].
  destruct (index_ok (st_symbols s) (v - unwrap_or n 0 - 1)) as (x & -> & Hx); [lia|].
  exists x. auto.
Qed.

Lemma construct_fixed_above s n v :
  v > unwrap_or n 0 + len (st_symbols s) -> construct_fixed s n v = Ok None.
Proof.
  intros H. unfold construct_fixed. destruct (st_symbols s) as [|a l] eqn:E; auto. rewrite <- E in *.
  change (match n with Some n0 => n0 | None => 0 end) with (unwrap_or n 0).
  rewrite Z.geb_leb. destruct (_ <=? _) eqn:L; [auto|lia].
Qed.

(** * Dispatch *)

Lemma defined_for_spec s v :
  (defined_for s v <> Some false <-> in_range (st_range s) v).
Proof.
  unfold defined_for, in_range. destruct (st_range s) as [|l]; [easy|].
  split.
  - intros H. destruct (existsb _ l) eqn:E; [|congruence].
    apply existsb_exists in E as (r & I & B). apply Exists_exists. exists r. split; auto.
    apply andb_true_iff in B as [B1 B2].
    split; intros b Hb; rewrite Hb in *; lia.
  - intros H. apply Exists_exists in H as (r & I & B1 & B2).
    enough (X : existsb (fun r => match fst r with Some lo => lo <=? v | None => true end
              && match snd r with Some hi => v <=? hi | None => true end) l = true)
      by (rewrite X; discriminate).
    apply existsb_exists. exists r. split; auto.
    destruct (fst r), (snd r); simpl; rewrite ?andb_true_iff, ?Z.leb_le; auto.
Qed.

(** The result of the system is a representation exactly when CSS says there is one. *)
Lemma dispatch_system_ok s v : safe s v ->
  (exists r, dispatch_system s (Z.abs v) = Ok (Some r) /\
             (in_range (st_range s) v -> can_represent s v)) \/
  (dispatch_system s (Z.abs v) = Ok None /\ ~ can_represent s v).
Proof.
  unfold safe, dispatch_system, can_represent.
  assert (SY : st_symbols s = [] \/ st_symbols s <> []) by (destruct (st_symbols s); auto; right; discriminate).
  assert (LN : st_symbols s <> [] -> 1 <= len (st_symbols s))
    by (unfold len; destruct (st_symbols s); [congruence|simpl; lia]).
  destruct (st_system s) eqn:Y; intros S.
  - destruct SY as [E|E].
    + right. unfold construct_cyclic. rewrite E. split; auto. intros [_ H]. cbn in H. lia.
    + left. destruct (construct_cyclic_ok s (Z.abs v) E) as (x & _ & ->). eauto.
  - destruct (Z_lt_dec (len (st_symbols s)) 2).
    + right. unfold construct_numeric. destruct (_ <? 2) eqn:L; [|lia]. split; auto. lia.
    + left. destruct (construct_numeric_ok s (Z.abs v)) as (ds & out & -> & _); [lia..|].
      exists out. repeat split; auto. lia.
  - destruct (Z_lt_dec (len (st_symbols s)) 2).
    + right. unfold construct_alphabetic. destruct (_ <? 2) eqn:L; [|lia]. split; auto. lia.
    + destruct (Z.eq_dec v 0) as [->|N].
      * right. unfold construct_alphabetic. destruct (_ <? 2) eqn:L; [lia|]. split; auto. lia.
      * left. destruct (construct_alphabetic_ok s (Z.abs v)) as (ds & out & -> & _); [lia..|].
        exists out. repeat split; auto. lia.
  - destruct SY as [E|E].
    + right. unfold construct_symbolic. rewrite E. split; auto. intros [_ H]. cbn in H. lia.
    + left. destruct (construct_symbolic_total s (Z.abs v) E) as (x & _ & ->). eauto.
  - destruct (v =? 0) eqn:Z0.
    + apply Z.eqb_eq in Z0. subst v. cbn [Z.abs].
      destruct (construct_additive_zero s) as [(s0 & I & ->)|[-> N]].
      * left. eauto 6.
      * right. split; auto. intros [_ [s0 H]]. eapply N; eauto.
    + apply Z.eqb_neq in Z0.
      destruct (construct_additive_ok s (Z.abs v) S ltac:(lia)) as [(reps & G & ->)|[-> N]].
      * left. eauto 6.
      * right. split; auto. intros [_ [reps H]]. eapply N; eauto.
  - destruct SY as [E|E].
    + right. unfold construct_fixed. rewrite E. split; auto. intros [_ [H _]]. congruence.
    + destruct S as [S|S]; [congruence|].
      destruct (Z_le_dec (Z.abs v) (unwrap_or number 0 + len (st_symbols s))).
      * left. destruct (construct_fixed_ok s number (Z.abs v) E S) as (x & _ & ->); auto.
        eauto 6.
      * right. rewrite construct_fixed_above by lia. split; auto. intros [_ [_ H]]. lia.
  - contradiction.
Qed.

Lemma dispatch_here glen fuel cs s v seen r :
  in_range (st_range s) v -> dispatch_system s (Z.abs v) = Ok (Some r) ->
  dispatch_fallback glen (S fuel) cs s v seen = Ok (finish_repr glen s v r).
Proof.
  intros R D. apply defined_for_spec in R. cbn [dispatch_fallback].
  destruct (defined_for s v) as [[|]|]; try congruence; rewrite D; reflexivity.
Qed.

Lemma in_range_dec r v : in_range r v \/ ~ in_range r v.
Proof.
  pose (s := set_system initial_style Cyclic).
  set (s' := mkStyle Cyclic [] None [] [] r 0 [] [] [] []).
  change r with (st_range s').
  destruct (defined_for s' v) as [[|]|] eqn:E.
  - left. apply defined_for_spec. congruence.
  - right. intros H. apply defined_for_spec in H. congruence.
  - left. apply defined_for_spec. congruence.
Qed.

(** Case analysis of one step of the recursion. *)
Lemma dispatch_step glen fuel cs s v seen : safe s v ->
  (exists r, can_represent s v /\ dispatch_system s (Z.abs v) = Ok (Some r) /\
     dispatch_fallback glen (S fuel) cs s v seen = Ok (finish_repr glen s v r)) \/
  (~ can_represent s v /\
   dispatch_fallback glen (S fuel) cs s v seen =
     if mem (st_fallback s) seen then
       obind (fallback_to_decimal cs) (fun d =>
       dispatch_fallback glen fuel cs d v seen)
     else
       obind (lookup_or_decimal cs (st_fallback s)) (fun s' =>
       dispatch_fallback glen fuel cs s' v (st_fallback s :: seen))).
Proof.
  intros S. destruct (in_range_dec (st_range s) v) as [R|R].
  - destruct (dispatch_system_ok s v S) as [(r & D & C)|[D C]].
    + left. exists r. auto using dispatch_here.
    + right. split; auto. apply defined_for_spec in R. cbn [dispatch_fallback].
      destruct (defined_for s v) as [[|]|]; try congruence; rewrite D; reflexivity.
  - right. split; [intros [X _]; contradiction|].
    cbn [dispatch_fallback].
    destruct (defined_for s v) as [[|]|] eqn:E; [exfalso; apply R, defined_for_spec; congruence| |
      exfalso; apply R, defined_for_spec; congruence].
    reflexivity.
Qed.

Lemma mem_spec k l : mem k l = true <-> In k l.
Proof.
  unfold mem. rewrite existsb_exists. split.
  - intros (x & I & E). apply str_eqb_spec in E. now subst.
  - intros I. exists k. split; auto. apply str_eqb_refl.
Qed.

Lemma mem_false k l : mem k l = false <-> ~ In k l.
Proof.
  rewrite <- mem_spec. destruct (mem k l); split; congruence.
Qed.

Lemma lookup_in {A} (m : list (str * A)) k a : lookup m k = Some a -> In (k, a) m.
Proof.
  induction m as [|[k' a'] m IH]; simpl; [discriminate|].
  destruct (str_eqb k' k) eqn:E.
  - intros [= ->]. apply str_eqb_spec in E. subst. auto.
  - auto.
Qed.

(** Names that may still be tried. *)
Definition avail (names seen : list str) : nat :=
  length (filter (fun n => negb (mem n seen)) names).

Lemma mem_cons n k seen : mem n (k :: seen) = str_eqb n k || mem n seen.
Proof. reflexivity. Qed.

Lemma avail_cons n r seen :
  avail (n :: r) seen = ((if mem n seen then 0 else 1) + avail r seen)%nat.
Proof. unfold avail. cbn [filter]. destruct (mem n seen); reflexivity. Qed.

Lemma avail_le names seen k : (avail names (k :: seen) <= avail names seen)%nat.
Proof.
  induction names as [|n r IH]; [cbn; lia|].
  rewrite !avail_cons, mem_cons. destruct (str_eqb n k), (mem n seen); cbn [orb]; lia.
Qed.

Lemma avail_lt names seen k :
  In k names -> ~ In k seen -> (avail names (k :: seen) < avail names seen)%nat.
Proof.
  intros I N. induction names as [|n r IH]; [contradiction|].
  rewrite !avail_cons, mem_cons.
  destruct (str_eq_dec n k) as [->|D].
  - pose proof (avail_le r seen k) as L.
    rewrite (proj2 (mem_false k seen) N), str_eqb_refl. cbn [orb]. lia.
  - destruct I as [->|I]; [congruence|]. specialize (IH I).
    rewrite (proj2 (str_eqb_neq n k) D). cbn [orb]. destruct (mem n seen); lia.
Qed.

Definition decimal_ok (d : cstyle) : Prop :=
  st_system d = Numeric /\ 2 <= len (st_symbols d) /\ st_range d = Auto.

Lemma decimal_ok_represents d v : decimal_ok d -> can_represent d v /\ safe d v.
Proof.
  intros (Y & L & R). unfold can_represent, safe. rewrite Y, R. simpl. auto.
Qed.

Definition fallback_names (cs : list (str * cstyle)) : list str :=
  map (fun x => st_fallback (snd x)) cs.

Lemma dispatch_terminates glen cs v d :
  lookup cs decimal_name = Some d -> decimal_ok d ->
  (forall n s, In (n, s) cs -> safe s v) ->
  forall fuel names s seen,
  safe s v -> In (st_fallback s) names -> incl (fallback_names cs) names ->
  (avail names seen + 1 < fuel)%nat ->
  exists t r, picks cs v seen s t /\ can_represent t v /\ safe t v /\
    dispatch_system t (Z.abs v) = Ok (Some r) /\
    dispatch_fallback glen fuel cs s v seen = Ok (finish_repr glen t v r).
Proof.
  intros HD OK SA. induction fuel as [|f IH]; intros names s seen S I INC F; [lia|].
  destruct (dispatch_step glen f cs s v seen S) as [(r & C & D & E)|[C E]].
  { exists s, r. split; [now constructor|auto]. }
  rewrite E. clear E. destruct (mem (st_fallback s) seen) eqn:M.
  - unfold fallback_to_decimal. rewrite HD. cbn [obind].
    destruct f as [|f]; [lia|].
    destruct (decimal_ok_represents d v OK) as [Cd Sd].
    destruct (dispatch_step glen f cs d v seen Sd) as [(r & _ & D & E)|[N _]]; [|contradiction].
    exists d, r. split; [|auto].
    eapply picks_cycle; eauto; [now apply mem_spec | now constructor].
  - apply mem_false in M.
    assert (exists s', lookup_or_decimal cs (st_fallback s) = Ok s' /\
              (lookup cs (st_fallback s) = Some s' \/
               lookup cs (st_fallback s) = None /\ lookup cs decimal_name = Some s') /\
              exists n, In (n, s') cs) as (s' & -> & L & n & In').
    { unfold lookup_or_decimal. destruct (lookup cs (st_fallback s)) eqn:L.
      - eexists. split; [reflexivity|]. split; auto. eauto using lookup_in.
      - unfold fallback_to_decimal. rewrite HD. eexists. split; [reflexivity|].
        split; auto. eauto using lookup_in. }
    cbn [obind].
    destruct (IH names s' (st_fallback s :: seen)) as (t & r & P & R); eauto.
    + apply INC. unfold fallback_names. apply in_map_iff. exists (n, s'). auto.
    + pose proof (avail_lt names seen _ I M). lia.
    + exists t, r. split; [eapply picks_next; eauto|]. exact R.
Qed.

Lemma avail_bound names seen : (avail names seen <= length names)%nat.
Proof.
  unfold avail. induction names as [|n r IH]; simpl; [lia|]. destruct (negb _); simpl; lia.
Qed.

Lemma construct_terminates glen cs v d name :
  lookup cs decimal_name = Some d -> decimal_ok d ->
  (forall n s, In (n, s) cs -> safe s v) ->
  forall fuel, (length cs + 2 <= fuel)%nat ->
  exists s t r,
    (lookup cs name = Some s \/ lookup cs name = None /\ s = d) /\
    picks cs v [name] s t /\ can_represent t v /\ safe t v /\
    dispatch_system t (Z.abs v) = Ok (Some r) /\
    construct_representation glen fuel cs name v = Ok (finish_repr glen t v r).
Proof.
  intros HD OK SA fuel F. unfold construct_representation.
  assert (exists s, lookup_or_decimal cs name = Ok s /\
           (lookup cs name = Some s \/ lookup cs name = None /\ s = d) /\ exists n, In (n, s) cs)
    as (s & -> & L & n & I).
  { unfold lookup_or_decimal. destruct (lookup cs name) eqn:L.
    - eexists. split; [reflexivity|]. split; auto. eauto using lookup_in.
    - unfold fallback_to_decimal. rewrite HD. eexists. split; [reflexivity|].
      split; auto. eauto using lookup_in. }
  cbn [obind]. exists s.
  destruct (dispatch_terminates glen cs v d HD OK SA fuel (fallback_names cs) s [name])
    as (t & r & R); eauto.
  - unfold fallback_names. apply in_map_iff. exists (n, s). auto.
  - apply incl_refl.
  - pose proof (avail_bound (fallback_names cs) [name]) as B.
    assert (L' : length (fallback_names cs) = length cs) by apply map_length.
    rewrite L' in B. clear - B F. set (x := avail _ _) in *. lia.
Qed.
