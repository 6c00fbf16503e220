(** C34: flexible items fill their line. *)
From Coq Require Import List Arith ZArith QArith Bool Lia Lqa.
From Verif.Base Require Import Outcome.
From Verif.Flex Require Import FlexModel LineProps FlexProps.
Import ListNotations.
Local Open Scope Q_scope.

(** ** Sums over a line *)
Definition basic (s : sized) : Q := (if s_frozen s then s_used s else i_base (s_item s)) + both (s_item s).
Definition pot (s : sized) : Q := (if s_frozen s then s_used s else hypo (s_item s)) + both (s_item s).
Definition cap (hi : item -> Q) (s : sized) : Q := (if s_frozen s then s_used s else hi (s_item s)) + both (s_item s).
Definition over (f : item -> Q) (s : sized) : Q := if s_frozen s then 0 else f (s_item s).
Lemma sums_unfrozen f l : sums f (unfrozen l) == sums (over f) l.
Proof. unfold unfrozen. rewrite sums_map, sums_filter. apply sums_eq. intros s _. unfold over. destruct (s_frozen s); reflexivity. Qed.
Lemma free_eq main l : free_space main l == main - sums basic l.
Proof.
  unfold free_space, outer_sizes, frozen_size. change (sumq (map ?f ?x)) with (sums f x). rewrite sums_unfrozen, sums_filter, <- sums_add. apply Qplus_comp; [reflexivity|]. apply Qopp_comp.
  apply sums_eq. intros s _. unfold over, basic. destruct (s_frozen s); ring.
Qed.
Lemma factors_eq grows l : factors grows (unfrozen l) == sums (over (factor grows)) l.
Proof. unfold factors. change (sumq (map ?f ?x)) with (sums f x). apply sums_unfrozen. Qed.

Section Turn.
Variables (grows : bool) (main initial : Q) (l : list sized).
Let u (s : sized) : Q := share grows (unfrozen l) (to_share grows main initial l) (s_item s).
Let c (s : sized) : Q := clamp_floor (s_item s) (u s).
Definition mid (s : sized) : Q := s_used (given grows main initial l s) + both (s_item s).
Definition viol (s : sized) : Q := violation (given grows main initial l s).
Let t : Q := total grows main initial l.
Definition next (s : sized) : sized := settle t (given grows main initial l s).
Lemma next_frozen s : s_frozen s = true -> next s = s.
Proof. intros F. unfold next, given. rewrite F. unfold settle. now rewrite F. Qed.
Lemma next_unfrozen s : s_frozen s = false -> next s = mkS (s_item s) (c s) (if Qeq_bool t 0 then true else if ltq t 0 then ltq (c s) (u s) else ltq (u s) (c s)).
Proof. intros F. unfold next, given. rewrite F. reflexivity. Qed.
Lemma viol_frozen s : good s -> s_frozen s = true -> viol s == 0.
Proof. intros G F. unfold viol. apply good_violation; [now apply given_good|now rewrite given_frozen]. Qed.
Lemma viol_unfrozen s : s_frozen s = false -> viol s = c s - u s.
Proof. intros F. unfold viol, violation, given. rewrite F. reflexivity. Qed.
Lemma mid_frozen s : s_frozen s = true -> mid s = s_used s + both (s_item s).
Proof. intros F. unfold mid, given. now rewrite F. Qed.
Lemma mid_unfrozen s : s_frozen s = false -> mid s = u s + both (s_item s).
Proof. intros F. unfold mid, given. now rewrite F. Qed.
Lemma turn_next : turn grows main initial l = map next l.
Proof. apply turn_eq. Qed.
Lemma total_viol : t = sums viol l.
Proof. reflexivity. Qed.

Lemma share_bounds : (if grows then 0 <= initial /\ 0 <= free_space main l else initial <= 0 /\ free_space main l <= 0) -> 0 <= factors grows (unfrozen l) ->
  (if grows then 0 <= to_share grows main initial l /\ to_share grows main initial l <= free_space main l
   else free_space main l <= to_share grows main initial l /\ to_share grows main initial l <= 0) /\
  (1 <= factors grows (unfrozen l) -> to_share grows main initial l = free_space main l).
Proof.
  intros H F. unfold to_share. set (f := factors grows (unfrozen l)) in *. set (fr := free_space main l) in *. split.
  - destruct (ltq_spec f 1) as [L|L]; cbn [andb]; [|destruct grows; lra]. unfold absq. assert (grows = true /\ 0 <= initial * f \/ grows = false /\ initial * f <= 0) as K.
    { destruct grows; [left|right]; (split; [reflexivity|]).
      - setoid_replace 0 with (0 * f) by ring. apply Qmult_le_compat_r; lra.
      - setoid_replace 0 with (0 * f) by ring. apply Qmult_le_compat_r; lra. }
    destruct K as [[-> K]|[-> K]]; qcase; lra.
  - intros G. destruct (ltq_spec f 1); [lra|]. reflexivity.
Qed.
End Turn.

(** ** Growing *)
Section Grow.
Variables (main initial : Q).
Hypothesis Init : 0 <= initial.
Definition growable (i : item) : Prop := ~ i_grow i == 0.
Record ginv (l : list sized) : Prop := {
  g_room : forall s, In s l -> s_frozen s = false -> i_base (s_item s) <= i_max (s_item s) /\ 0 < i_grow (s_item s);
  g_rigid : forall s, In s l -> s_frozen s = true -> i_grow (s_item s) == 0 -> s_used s == hypo (s_item s);
  g_fits : sums pot l <= main;
  g_full : (forall s, In s l -> i_grow (s_item s) == 0 \/ 1 <= i_grow (s_item s)) ->
    (forall s, In s l -> s_frozen s = true -> growable (s_item s) -> s_used s == i_max (s_item s)) \/ main <= sums (cap i_max) l;
  g_edge : unfrozen l <> [] -> forall s, In s l -> s_frozen s = true -> growable (s_item s) -> s_used s == i_min (s_item s) \/ s_used s == i_max (s_item s);
  g_share : exists k, 0 <= k /\ forall s, In s l -> s_frozen s = true -> growable (s_item s) -> s_used s == i_min (s_item s) \/ s_used s == i_max (s_item s) \/ s_used s == i_base (s_item s) + i_grow (s_item s) * k }.

Lemma grow_turn l : Forall good l -> ginv l -> unfrozen l <> [] -> ginv (turn true main initial l).
Proof.
  intros G I Ne. rewrite turn_next. rewrite Forall_forall in G. destruct (unfrozen_in l Ne) as (s0 & H0 & F0). destruct I as [Room Rigid Fits Full Edge Share]. specialize (Edge Ne).
  set (T := total true main initial l). set (free := free_space main l). set (sh := to_share true main initial l). set (fs := factors true (unfrozen l)).
  set (u := fun s => share true (unfrozen l) sh (s_item s)). set (c := fun s => clamp_floor (s_item s) (u s)).
  set (N := next true main initial l). set (M := mid true main initial l). set (V := viol true main initial l).
  assert (forall s, In s l -> 0 <= over (factor true) s) as Fp. { intros s Hs. unfold over. destruct (s_frozen s) eqn:E; [lra|]. destruct (Room s Hs E). cbn. lra. }
  assert (0 < fs) as Pf. { unfold fs. rewrite factors_eq. pose proof (sums_one _ _ s0 Fp H0) as K. destruct (Room s0 H0 F0). replace (over (factor true) s0) with (i_grow (s_item s0)) in K by (unfold over; now rewrite F0). lra. }
  assert (0 <= free) as Pfree. { unfold free. rewrite free_eq. assert (sums basic l <= sums pot l); [|lra]. apply sums_le. intros s Hs. unfold basic, pot. destruct (s_frozen s) eqn:E; [lra|]. destruct (Room s Hs E). destruct (hypo_cases (s_item s) (proj1 (G s Hs))) as [K|[K|K]]; lra. }
  destruct (share_bounds true main initial l (conj Init Pfree) (Qlt_le_weak _ _ Pf)) as [[S0 S1] S2]. fold sh free fs in S0, S1, S2.
  assert (sums M l == main - free + sh) as Hmid.
  { assert (sums M l == sums basic l + sums (over (factor true)) l * (sh / fs)) as ->.
    { rewrite <- sums_scale, <- sums_add. apply sums_eq. intros s Hs. unfold M, basic, over. destruct (s_frozen s) eqn:E; [rewrite mid_frozen by exact E; ring|]. rewrite mid_unfrozen by exact E. unfold share. fold sh fs. cbn [factor]. field. lra. }
    rewrite <- factors_eq. fold fs. pose proof (free_eq main l) as K. fold free in K. rewrite K. field. lra. }
  assert (forall s, In s l -> s_frozen s = false -> i_base (s_item s) <= u s) as Ub.
  { intros s Hs E. unfold u, share. destruct (Room s Hs E). fold fs. assert (0 <= i_grow (s_item s) / fs * sh); [|lra]. setoid_replace 0 with (0 * sh) by ring. apply Qmult_le_compat_r; [|exact S0]. apply Qle_shift_div_l; lra. }
  assert (sums (fun s => M s + V s) l == sums M l + T) as MV by apply sums_add.
  (* what becomes of one item *)
  assert (forall s, In s l -> s_frozen s = true -> pot (N s) == M s + V s /\ pot (N s) == pot s /\ cap i_max (N s) == M s + V s /\ cap i_max (N s) == cap i_max s) as NF.
  { intros s Hs E. unfold N, M, V. rewrite next_frozen by exact E. rewrite mid_frozen by exact E. rewrite (viol_frozen _ _ _ _ s (G s Hs) E). unfold pot, cap. rewrite E. repeat split; ring. }
  assert (forall s, s_frozen s = false -> N s = mkS (s_item s) (c s) (if Qeq_bool T 0 then true else if ltq T 0 then ltq (c s) (u s) else ltq (u s) (c s))) as NU by (intros s E; exact (next_unfrozen true main initial l s E)).
  assert (forall s, s_frozen s = false -> M s + V s == c s + both (s_item s)) as MU. { intros s E. unfold M, V. rewrite mid_unfrozen, viol_unfrozen by exact E. fold sh. fold (u s). fold (c s). ring. }
  assert (forall s, In s l -> (u s < i_min (s_item s) /\ c s == i_min (s_item s)) \/ (within (s_item s) (u s) /\ c s == u s) \/ (i_max (s_item s) < u s /\ c s == i_max (s_item s))) as Cc by (intros s Hs; exact (clamp_floor_cases _ _ (proj1 (G s Hs)))).
  assert (forall s, In s l -> s_frozen s = false -> (i_base (s_item s) < i_min (s_item s) /\ hypo (s_item s) == i_min (s_item s)) \/ (within (s_item s) (i_base (s_item s)) /\ hypo (s_item s) == i_base (s_item s))) as Hc.
  { intros s Hs E. destruct (hypo_cases (s_item s) (proj1 (G s Hs))) as [K|[K|K]]; [now left|now right|]. destruct (Room s Hs E). lra. }
  assert (forall s, In s l -> pot (N s) <= M s + V s \/ (0 < T /\ s_frozen s = false)) as Pn.
  { intros s Hs. destruct (s_frozen s) eqn:E; [left; destruct (NF s Hs E) as [-> _]; lra|]. rewrite (MU s E), (NU s E). unfold pot. cbn [s_frozen s_used s_item].
    destruct (eqq_spec T 0) as [Z|Z]; [left; lra|]. destruct (ltq_spec T 0) as [Z1|Z1]; [left|right; split; [lra|reflexivity]].
    specialize (Ub s Hs E). destruct (Cc s Hs) as [K|[K|K]], (Hc s Hs E) as [K'|K']; unfold within in *; qcase; lra. }
  assert (sums pot (map N l) <= main) as Fits'.
  { rewrite sums_map. destruct (Qlt_le_dec 0 T) as [Tp|Tp].
    - setoid_replace (sums (fun s => pot (N s)) l) with (sums pot l); [exact Fits|]. apply sums_eq. intros s Hs. destruct (s_frozen s) eqn:E; [apply (NF s Hs E)|]. rewrite (NU s E). unfold pot. rewrite E. cbn [s_frozen s_used s_item].
      destruct (eqq_spec T 0) as [Z|Z]; [lra|]. destruct (ltq_spec T 0) as [Z1|Z1]; [lra|]. specialize (Ub s Hs E). destruct (Cc s Hs) as [K|[K|K]], (Hc s Hs E) as [K'|K']; unfold within in *; qcase; lra.
    - assert (sums (fun s => pot (N s)) l <= sums (fun s => M s + V s) l) as L; [|rewrite MV, Hmid in L; lra]. apply sums_le. intros s Hs. destruct (Pn s Hs) as [K|[K _]]; [exact K|lra]. }
  assert (forall s', In s' (map N l) -> exists s, In s l /\ s' = N s) as InN. { intros s' Hs. apply in_map_iff in Hs as (s & <- & Hs). eauto. }
  assert (forall s, s_item (N s) = s_item s) as Ni by (intros s; unfold N, next; now rewrite settle_item, given_item).
  assert (forall s, In s l -> s_frozen s = false -> s_frozen (N s) = true -> (c s == i_min (s_item s) /\ 0 <= T) \/ (c s == i_max (s_item s) /\ T <= 0) \/ (T == 0 /\ c s == u s)) as Bound.
  { intros s Hs E F. rewrite (NU s E) in F. cbn [s_frozen] in F. destruct (eqq_spec T 0) as [Z|Z]; [destruct (Cc s Hs) as [K|[K|K]]; [left|right; right|right; left]; split; lra|].
    destruct (ltq_spec T 0) as [Z1|Z1]; destruct (Cc s Hs) as [K|[K|K]]; unfold within in *; qcase; try discriminate; try lra. }
  split.
  - intros s' Hs F. destruct (InN s' Hs) as (s & Hin & ->). destruct (s_frozen s) eqn:E; [unfold N in F; rewrite next_frozen in F by exact E; congruence|]. rewrite Ni. exact (Room s Hin E).
  - intros s' Hs F Z. destruct (InN s' Hs) as (s & Hin & ->). rewrite Ni in *. destruct (s_frozen s) eqn:E; [unfold N; rewrite next_frozen by exact E; exact (Rigid s Hin E Z)|]. destruct (Room s Hin E). lra.
  - exact Fits'.
  - intros Whole. assert (forall s, In s l -> i_grow (s_item s) == 0 \/ 1 <= i_grow (s_item s)) as Wl. { intros s Hs. rewrite <- Ni. apply Whole. now apply in_map. }
    assert (1 <= fs) as F1. { unfold fs. rewrite factors_eq. pose proof (sums_one _ _ s0 Fp H0) as K. destruct (Room s0 H0 F0). replace (over (factor true) s0) with (i_grow (s_item s0)) in K by (unfold over; now rewrite F0). destruct (Wl s0 H0); lra. }
    specialize (S2 F1). assert (sums M l == main) as Hm by (rewrite Hmid, S2; ring). rewrite sums_map.
    destruct (Qlt_le_dec T 0) as [Tn|Tn].
    + (* only items that are too large *)
      assert (sums (fun s => cap i_max (N s)) l == sums (cap i_max) l) as Ec.
      { apply sums_eq. intros s Hs. destruct (s_frozen s) eqn:E; [apply (NF s Hs E)|]. rewrite (NU s E). unfold cap. rewrite E. cbn [s_frozen s_used s_item]. destruct (eqq_spec T 0) as [Z|Z]; [lra|]. destruct (ltq_spec T 0) as [Z1|Z1]; [|lra]. destruct (Cc s Hs) as [K|[K|K]]; unfold within in *; qcase; lra. }
      destruct (Full Wl) as [L|L]; [left|right; rewrite Ec; exact L].
      intros s' Hs F Gr. destruct (InN s' Hs) as (s & Hin & ->). rewrite Ni in *. destruct (s_frozen s) eqn:E; [unfold N; rewrite next_frozen by exact E; exact (L s Hin E Gr)|].
      destruct (Bound s Hin E F) as [K|[K|K]]; [lra| |lra]. rewrite (NU s E). cbn. lra.
    + right. assert (sums (fun s => M s + V s) l <= sums (fun s => cap i_max (N s)) l) as L; [|rewrite MV, Hm in L; lra].
      apply sums_le. intros s Hs. destruct (s_frozen s) eqn:E; [destruct (NF s Hs E) as (_ & _ & K & _); rewrite K; lra|]. rewrite (MU s E), (NU s E). unfold cap. cbn [s_frozen s_used s_item].
      destruct (eqq_spec T 0) as [Z|Z]; [lra|]. destruct (ltq_spec T 0) as [Z1|Z1]; [lra|]. pose proof (proj1 (G s Hs)) as [B0 B1]. destruct (Cc s Hs) as [K|[K|K]]; unfold within in *; qcase; lra.
  - intros Ne' s' Hs F Gr. destruct (InN s' Hs) as (s & Hin & ->). rewrite Ni in *. destruct (s_frozen s) eqn:E; [unfold N; rewrite next_frozen by exact E; exact (Edge s Hin E Gr)|].
    assert (~ T == 0) as Tz. { intros Z. apply unfrozen_in in Ne' as (x & Hx & Fx). destruct (InN x Hx) as (y & Hy & ->). destruct (s_frozen y) eqn:Ey; [unfold N in Fx; rewrite next_frozen in Fx by exact Ey; congruence|]. rewrite (NU y Ey) in Fx. cbn in Fx. destruct (eqq_spec T 0); [discriminate|contradiction]. }
    rewrite (NU s E). cbn [s_used]. destruct (Bound s Hin E F) as [K|[K|K]]; [left|right|]; lra.
  - exists (sh / fs). split; [apply Qle_shift_div_l; lra|]. intros s' Hs F Gr. destruct (InN s' Hs) as (s & Hin & ->). rewrite Ni in *. destruct (s_frozen s) eqn:E.
    + unfold N. rewrite next_frozen by exact E. destruct (Edge s Hin E Gr); [left|right; left]; assumption.
    + rewrite (NU s E). cbn [s_used]. destruct (Bound s Hin E F) as [K|[K|K]]; [left; lra|right; left; lra|right; right]. destruct K as [_ ->]. unfold u, share. fold fs. field. lra.
Qed.
End Grow.

(** ** Shrinking *)
Section Shrink.
Variables (main initial : Q).
Hypothesis Init : initial <= 0.
Definition shrinkable (i : item) : Prop := ~ i_shrink i == 0.
Record sinv (l : list sized) : Prop := {
  h_room : forall s, In s l -> s_frozen s = false -> i_min (s_item s) <= i_base (s_item s) /\ 0 < i_shrink (s_item s);
  h_rigid : forall s, In s l -> s_frozen s = true -> i_shrink (s_item s) == 0 -> s_used s == hypo (s_item s);
  h_fits : main <= sums pot l;
  h_full : (forall s, In s l -> i_shrink (s_item s) == 0 \/ 1 <= i_shrink (s_item s)) ->
    (forall s, In s l -> s_frozen s = true -> shrinkable (s_item s) -> s_used s == i_min (s_item s)) \/ sums (cap i_min) l <= main;
  h_edge : unfrozen l <> [] -> forall s, In s l -> s_frozen s = true -> shrinkable (s_item s) -> s_used s == i_min (s_item s) \/ s_used s == i_max (s_item s);
  h_share : exists k, 0 <= k /\ forall s, In s l -> s_frozen s = true -> shrinkable (s_item s) -> s_used s == i_min (s_item s) \/ s_used s == i_max (s_item s) \/ s_used s == i_base (s_item s) - i_base (s_item s) * i_shrink (s_item s) * k }.

Lemma shrink_turn l : Forall good l -> sinv l -> unfrozen l <> [] -> sinv (turn false main initial l).
Proof.
  intros G I Ne. rewrite turn_next. rewrite Forall_forall in G. destruct (unfrozen_in l Ne) as (s0 & H0 & F0). destruct I as [Room Rigid Fits Full Edge Share]. specialize (Edge Ne).
  set (T := total false main initial l). set (free := free_space main l). set (sh := to_share false main initial l). set (fs := factors false (unfrozen l)). set (sc := sumq (map scaled (unfrozen l))).
  set (u := fun s => share false (unfrozen l) sh (s_item s)). set (c := fun s => clamp_floor (s_item s) (u s)).
  set (N := next false main initial l). set (M := mid false main initial l). set (V := viol false main initial l).
  assert (forall s, In s l -> s_frozen s = false -> 0 <= i_base (s_item s)) as Bp. { intros s Hs E. destruct (Room s Hs E). destruct (proj1 (G s Hs)). lra. }
  assert (forall s, In s l -> 0 <= over (factor false) s) as Fp. { intros s Hs. unfold over. destruct (s_frozen s) eqn:E; [lra|]. destruct (Room s Hs E). cbn. lra. }
  assert (forall s, In s l -> s_frozen s = false -> 0 <= scaled (s_item s)) as Sp0. { intros s Hs E. unfold scaled. apply Qmult_le_0_compat; [now apply Bp|]. destruct (Room s Hs E). lra. }
  assert (forall s, In s l -> 0 <= over scaled s) as Sp. { intros s Hs. unfold over. destruct (s_frozen s) eqn:E; [lra|]. now apply Sp0. }
  assert (sc == sums (over scaled) l) as Esc by (unfold sc; change (sumq (map scaled ?x)) with (sums scaled x); apply sums_unfrozen).
  assert (0 <= sc) as Psc by (rewrite Esc; apply sums_nonneg; exact Sp).
  assert (0 < fs) as Pf. { unfold fs. rewrite factors_eq. pose proof (sums_one _ _ s0 Fp H0) as K. destruct (Room s0 H0 F0). replace (over (factor false) s0) with (i_shrink (s_item s0)) in K by (unfold over; now rewrite F0). lra. }
  assert (forall s, In s l -> s_frozen s = false -> (i_max (s_item s) < i_base (s_item s) /\ hypo (s_item s) == i_max (s_item s)) \/ (within (s_item s) (i_base (s_item s)) /\ hypo (s_item s) == i_base (s_item s))) as Hc.
  { intros s Hs E. destruct (hypo_cases (s_item s) (proj1 (G s Hs))) as [K|[K|K]]; [|now right|now left]. destruct (Room s Hs E). lra. }
  assert (free <= 0) as Pfree. { unfold free. rewrite free_eq. assert (sums pot l <= sums basic l); [|lra]. apply sums_le. intros s Hs. unfold basic, pot. destruct (s_frozen s) eqn:E; [lra|]. destruct (Hc s Hs E); lra. }
  destruct (share_bounds false main initial l (conj Init Pfree) (Qlt_le_weak _ _ Pf)) as [[S0 S1] S2]. fold sh free fs in S0, S1, S2.
  assert (forall s, In s l -> s_frozen s = false -> u s == i_base (s_item s) + scaled (s_item s) / sc * sh) as Ue.
  { intros s Hs E. unfold u, share. fold sc. destruct (eqq_spec sc 0) as [Z|Z].
    - assert (scaled (s_item s) == 0) as ->; [|unfold Qdiv; ring]. rewrite Esc in Z. pose proof (sums_zero _ _ Sp Z s Hs) as K. unfold over in K. rewrite E in K. exact K.
    - assert (absq sh == - sh) as -> by (unfold absq; qcase; lra). field. exact Z. }
  assert (forall s, In s l -> s_frozen s = false -> sc == 0 -> i_base (s_item s) == 0) as Zero.
  { intros s Hs E Z. rewrite Esc in Z. pose proof (sums_zero _ _ Sp Z s Hs) as K. unfold over in K. rewrite E in K. unfold scaled in K. destruct (Room s Hs E) as [_ R]. apply Qmult_integral in K as [K|K]; [exact K|lra]. }
  assert (forall s, In s l -> s_frozen s = false -> u s <= i_base (s_item s)) as Ub.
  { intros s Hs E. rewrite (Ue s Hs E). destruct (Qlt_le_dec 0 sc) as [Z|Z]; [|assert (sc == 0) as Z' by lra; unfold scaled; rewrite (Zero s Hs E Z'); unfold Qdiv; setoid_replace (0 * i_shrink (s_item s) * / sc * sh) with 0 by ring; lra].
    assert (0 <= scaled (s_item s) / sc * (- sh)); [|setoid_replace (scaled (s_item s) / sc * sh) with (- (scaled (s_item s) / sc * - sh)) by (field; lra); lra].
    apply Qmult_le_0_compat; [|lra]. apply Qle_shift_div_l; [exact Z|]. rewrite Qmult_0_l. now apply Sp0. }
  assert (sums M l == sums basic l + sums (over scaled) l * (sh / sc)) as Hm0.
  { rewrite <- sums_scale, <- sums_add. apply sums_eq. intros s Hs. unfold M, basic, over. destruct (s_frozen s) eqn:E; [rewrite mid_frozen by exact E; ring|]. rewrite mid_unfrozen by exact E. fold sh. change (share false (unfrozen l) sh (s_item s)) with (u s). rewrite (Ue s Hs E). unfold Qdiv. ring. }
  assert (~ sc == 0 -> sums M l == main - free + sh) as Hmid. { intros Z. rewrite Hm0, <- Esc. pose proof (free_eq main l) as K. fold free in K. rewrite K. field. exact Z. }
  assert (sums (fun s => M s + V s) l == sums M l + T) as MV by apply sums_add.
  assert (forall s, In s l -> s_frozen s = true -> pot (N s) == M s + V s /\ pot (N s) == pot s /\ cap i_min (N s) == M s + V s /\ cap i_min (N s) == cap i_min s) as NF.
  { intros s Hs E. unfold N, M, V. rewrite next_frozen by exact E. rewrite mid_frozen by exact E. rewrite (viol_frozen _ _ _ _ s (G s Hs) E). unfold pot, cap. rewrite E. repeat split; ring. }
  assert (forall s, s_frozen s = false -> N s = mkS (s_item s) (c s) (if Qeq_bool T 0 then true else if ltq T 0 then ltq (c s) (u s) else ltq (u s) (c s))) as NU by (intros s E; exact (next_unfrozen false main initial l s E)).
  assert (forall s, s_frozen s = false -> M s + V s == c s + both (s_item s)) as MU. { intros s E. unfold M, V. rewrite mid_unfrozen, viol_unfrozen by exact E. fold sh. fold (u s). fold (c s). ring. }
  assert (forall s, In s l -> (u s < i_min (s_item s) /\ c s == i_min (s_item s)) \/ (within (s_item s) (u s) /\ c s == u s) \/ (i_max (s_item s) < u s /\ c s == i_max (s_item s))) as Cc by (intros s Hs; exact (clamp_floor_cases _ _ (proj1 (G s Hs)))).
  (* nothing to shrink *)
  assert (sc == 0 -> forall s, In s l -> s_frozen s = false -> u s == 0 /\ c s == 0 /\ hypo (s_item s) == 0 /\ i_min (s_item s) == 0 /\ V s == 0) as Nil.
  { intros Z s Hs E. specialize (Zero s Hs E Z). assert (u s == 0) as Hu by (unfold u, share; fold sc; destruct (eqq_spec sc 0); [exact Zero|contradiction]). destruct (Room s Hs E). destruct (proj1 (G s Hs)). unfold V. rewrite viol_unfrozen by exact E. fold sh. fold (u s). fold (c s). destruct (Cc s Hs) as [K|[K|K]], (Hc s Hs E) as [K'|K']; unfold within in *; repeat split; lra. }
  assert (sc == 0 -> T == 0) as Tnil.
  { intros Z. assert (T == sums V l) as -> by reflexivity. setoid_replace 0 with (sums (fun _ : sized => 0) l); [|clear; induction l; [reflexivity|]; rewrite sums_cons, <- IHl; ring]. apply sums_eq. intros s Hs. destruct (s_frozen s) eqn:E; [exact (viol_frozen _ _ _ _ s (G s Hs) E)|]. apply (Nil Z s Hs E). }
  assert (main <= sums pot (map N l)) as Fits'.
  { rewrite sums_map. destruct (eqq_spec sc 0) as [Z|Z].
    { setoid_replace (sums (fun s => pot (N s)) l) with (sums pot l); [exact Fits|]. apply sums_eq. intros s Hs. destruct (s_frozen s) eqn:E; [apply (NF s Hs E)|]. rewrite (NU s E). unfold pot. rewrite E. cbn [s_frozen s_used s_item]. specialize (Tnil Z). destruct (eqq_spec T 0) as [_|]; [|contradiction]. destruct (Nil Z s Hs E) as (_ & -> & -> & _). reflexivity. }
    specialize (Hmid Z). destruct (Qlt_le_dec T 0) as [Tp|Tp].
    - setoid_replace (sums (fun s => pot (N s)) l) with (sums pot l); [exact Fits|]. apply sums_eq. intros s Hs. destruct (s_frozen s) eqn:E; [apply (NF s Hs E)|]. rewrite (NU s E). unfold pot. rewrite E. cbn [s_frozen s_used s_item].
      destruct (eqq_spec T 0) as [Z0|Z0]; [lra|]. destruct (ltq_spec T 0) as [Z1|Z1]; [|lra]. specialize (Ub s Hs E). destruct (Cc s Hs) as [K|[K|K]], (Hc s Hs E) as [K'|K']; unfold within in *; qcase; lra.
    - assert (sums (fun s => M s + V s) l <= sums (fun s => pot (N s)) l) as L; [|rewrite MV, Hmid in L; lra]. apply sums_le. intros s Hs. destruct (s_frozen s) eqn:E; [destruct (NF s Hs E) as [K _]; rewrite K; lra|]. rewrite (MU s E), (NU s E). unfold pot. cbn [s_frozen s_used s_item].
      destruct (eqq_spec T 0) as [Z0|Z0]; [lra|]. destruct (ltq_spec T 0) as [Z1|Z1]; [lra|]. specialize (Ub s Hs E). destruct (Cc s Hs) as [K|[K|K]], (Hc s Hs E) as [K'|K']; unfold within in *; qcase; lra. }
  assert (forall s', In s' (map N l) -> exists s, In s l /\ s' = N s) as InN. { intros s' Hs. apply in_map_iff in Hs as (s & <- & Hs). eauto. }
  assert (forall s, s_item (N s) = s_item s) as Ni by (intros s; unfold N, next; now rewrite settle_item, given_item).
  assert (forall s, In s l -> s_frozen s = false -> s_frozen (N s) = true -> (c s == i_min (s_item s) /\ 0 <= T) \/ (c s == i_max (s_item s) /\ T <= 0) \/ (T == 0 /\ c s == u s)) as Bound.
  { intros s Hs E F. rewrite (NU s E) in F. cbn [s_frozen] in F. destruct (eqq_spec T 0) as [Z|Z]; [destruct (Cc s Hs) as [K|[K|K]]; [left|right; right|right; left]; split; lra|].
    destruct (ltq_spec T 0) as [Z1|Z1]; destruct (Cc s Hs) as [K|[K|K]]; unfold within in *; qcase; try discriminate; try lra. }
  split.
  - intros s' Hs F. destruct (InN s' Hs) as (s & Hin & ->). destruct (s_frozen s) eqn:E; [unfold N in F; rewrite next_frozen in F by exact E; congruence|]. rewrite Ni. exact (Room s Hin E).
  - intros s' Hs F Z. destruct (InN s' Hs) as (s & Hin & ->). rewrite Ni in *. destruct (s_frozen s) eqn:E; [unfold N; rewrite next_frozen by exact E; exact (Rigid s Hin E Z)|]. destruct (Room s Hin E). lra.
  - exact Fits'.
  - intros Whole. assert (forall s, In s l -> i_shrink (s_item s) == 0 \/ 1 <= i_shrink (s_item s)) as Wl. { intros s Hs. rewrite <- Ni. apply Whole. now apply in_map. }
    assert (1 <= fs) as F1. { unfold fs. rewrite factors_eq. pose proof (sums_one _ _ s0 Fp H0) as K. destruct (Room s0 H0 F0). replace (over (factor false) s0) with (i_shrink (s_item s0)) in K by (unfold over; now rewrite F0). destruct (Wl s0 H0); lra. }
    specialize (S2 F1). rewrite sums_map.
    assert (0 < T \/ sc == 0 -> sums (fun s => cap i_min (N s)) l == sums (cap i_min) l /\ forall s, In s l -> s_frozen s = false -> s_frozen (N s) = true -> c s == i_min (s_item s)) as Same.
    { intros Ca. split.
      - apply sums_eq. intros s Hs. destruct (s_frozen s) eqn:E; [apply (NF s Hs E)|]. rewrite (NU s E). unfold cap. rewrite E. cbn [s_frozen s_used s_item]. destruct Ca as [Tp|Z].
        + destruct (eqq_spec T 0) as [Z|Z]; [lra|]. destruct (ltq_spec T 0) as [Z1|Z1]; [lra|]. destruct (Cc s Hs) as [K|[K|K]]; unfold within in *; qcase; lra.
        + specialize (Tnil Z). destruct (eqq_spec T 0) as [_|]; [|contradiction]. destruct (Nil Z s Hs E) as (_ & -> & _ & -> & _). reflexivity.
      - intros s Hs E F. destruct Ca as [Tp|Z]; [destruct (Bound s Hs E F) as [K|[K|K]]; lra|]. destruct (Nil Z s Hs E) as (_ & K & _ & K' & _). lra. }
    assert (0 < T \/ sc == 0 \/ (T <= 0 /\ ~ sc == 0)) as Cs. { destruct (Qlt_le_dec 0 T); [now left|]. destruct (eqq_spec sc 0); [right; now left|right; right; now split]. }
    assert (0 < T \/ sc == 0 -> (forall s, In s (map N l) -> s_frozen s = true -> shrinkable (s_item s) -> s_used s == i_min (s_item s)) \/ sums (fun s => cap i_min (N s)) l <= main) as Done.
    { intros Ca. destruct (Same Ca) as [Ec Ek]. destruct (Full Wl) as [L|L]; [left|right; rewrite Ec; exact L].
      intros s' Hs F Gr. destruct (InN s' Hs) as (s & Hin & ->). rewrite Ni in *. destruct (s_frozen s) eqn:E; [unfold N; rewrite next_frozen by exact E; exact (L s Hin E Gr)|]. pose proof (Ek s Hin E F) as K. rewrite (NU s E). cbn. exact K. }
    destruct Cs as [Tp|[Z|[Tn Z]]]; [apply Done; now left|apply Done; now right|]. right.
    assert (sums M l == main) as Hm by (rewrite (Hmid Z), S2; ring).
    assert (sums (fun s => cap i_min (N s)) l <= sums (fun s => M s + V s) l) as L; [|rewrite MV, Hm in L; lra].
    apply sums_le. intros s Hs. destruct (s_frozen s) eqn:E; [destruct (NF s Hs E) as (_ & _ & K & _); rewrite K; lra|]. rewrite (MU s E), (NU s E). unfold cap. cbn [s_frozen s_used s_item].
    destruct (eqq_spec T 0) as [Z0|Z0]; [lra|]. destruct (ltq_spec T 0) as [Z1|Z1]; [|lra]. pose proof (proj1 (G s Hs)) as [B0 B1]. destruct (Cc s Hs) as [K|[K|K]]; unfold within in *; qcase; lra.
  - intros Ne' s' Hs F Gr. destruct (InN s' Hs) as (s & Hin & ->). rewrite Ni in *. destruct (s_frozen s) eqn:E; [unfold N; rewrite next_frozen by exact E; exact (Edge s Hin E Gr)|].
    assert (~ T == 0) as Tz. { intros Z. apply unfrozen_in in Ne' as (x & Hx & Fx). destruct (InN x Hx) as (y & Hy & ->). destruct (s_frozen y) eqn:Ey; [unfold N in Fx; rewrite next_frozen in Fx by exact Ey; congruence|]. rewrite (NU y Ey) in Fx. cbn in Fx. destruct (eqq_spec T 0); [discriminate|contradiction]. }
    rewrite (NU s E). cbn [s_used]. destruct (Bound s Hin E F) as [K|[K|K]]; [left|right|]; lra.
  - exists (- sh / sc). split.
    { destruct (Qlt_le_dec 0 sc) as [Z|Z]; [apply Qle_shift_div_l; lra|]. assert (sc == 0) as -> by lra. setoid_replace (- sh / 0) with 0 by (unfold Qdiv; change (/ 0) with 0; ring). lra. }
    intros s' Hs F Gr. destruct (InN s' Hs) as (s & Hin & ->). rewrite Ni in *. destruct (s_frozen s) eqn:E.
    + unfold N. rewrite next_frozen by exact E. destruct (Edge s Hin E Gr); [left|right; left]; assumption.
    + rewrite (NU s E). cbn [s_used]. destruct (Bound s Hin E F) as [K|[K|K]]; [left; lra|right; left; lra|right; right]. destruct K as [_ ->]. rewrite (Ue s Hin E). unfold scaled, Qdiv. ring.
Qed.
End Shrink.

(** ** The whole line *)
Definition filled (r : list (item * Q)) : Q := sumq (map (fun x => snd x + both (fst x)) r).
Lemma pot_frozen l : unfrozen l = [] -> sums pot l = filled (map (fun s => (s_item s, s_used s)) l).
Proof.
  intros U. pose proof (all_frozen l U) as F. unfold filled. rewrite map_map. unfold sums. f_equal. apply map_ext_in. intros s Hs. rewrite Forall_forall in F. unfold pot. rewrite (F s Hs). reflexivity.
Qed.
Lemma cap_frozen hi l : unfrozen l = [] -> sums (cap hi) l = filled (map (fun s => (s_item s, s_used s)) l).
Proof.
  intros U. pose proof (all_frozen l U) as F. unfold filled. rewrite map_map. unfold sums. f_equal. apply map_ext_in. intros s Hs. rewrite Forall_forall in F. unfold cap. rewrite (F s Hs). reflexivity.
Qed.
Lemma start_pot matched grows l : sums pot (map (start matched grows) l) = line_size l.
Proof.
  rewrite sums_map. unfold sums, line_size. f_equal. apply map_ext. intros i. unfold pot. rewrite start_item. unfold start, wants. destruct (starts_frozen matched grows i); reflexivity.
Qed.
Lemma start_cases matched grows i : s_frozen (start matched grows i) = starts_frozen matched grows i /\ (s_frozen (start matched grows i) = true -> s_used (start matched grows i) = hypo i).
Proof. unfold start. destruct (starts_frozen matched grows i); cbn; split; auto; discriminate. Qed.

(** When items are too small for their line, those that may grow do so in proportion to their factors,
    from their base size and up to their largest size. The line is never overfull. When factors are
    whole it is full, or no item may grow further. Other items have the size they want.

    Full statement: for all items. Missing: limits and factors below 0. *)
Theorem C34_grow_partial : forall l main fuel, Forall bounded l -> Forall (fun i => 0 <= i_grow i) l -> (length l <= fuel)%nat -> line_size l < main ->
  exists r, resolve_line fuel main l = Ok r /\ map fst r = l /\ filled r <= main /\
    (forall i v, In (i, v) r -> i_grow i == 0 -> v == hypo i) /\
    (Forall (fun i => i_grow i == 0 \/ 1 <= i_grow i) l -> filled r == main \/ forall i v, In (i, v) r -> ~ i_grow i == 0 -> v == i_max i) /\
    (exists k, 0 <= k /\ forall i v, In (i, v) r -> ~ i_grow i == 0 -> v == i_min i \/ v == i_max i \/ v == i_base i + i_grow i * k).
Proof.
  intros l main fuel B P Hf Hl. unfold resolve_line. change (sumq (map (fun i => hypo i + both i) l)) with (line_size l).
  assert (Qeq_bool (line_size l) main = false) as -> by (destruct (eqq_spec (line_size l) main); [lra|reflexivity]). assert (ltq (line_size l) main = true) as -> by (destruct (ltq_spec (line_size l) main); [reflexivity|lra]).
  set (l0 := map (start false true) l). rewrite Forall_forall in B, P.
  assert (Forall good l0) as G. { unfold l0. apply Forall_map, Forall_forall. intros i Hi. now apply start_good, B. }
  assert (forall s, In s l0 -> exists i, In i l /\ s = start false true i) as In0. { intros s Hs. apply in_map_iff in Hs as (i & <- & Hi). eauto. }
  assert (forall i, In i l -> s_frozen (start false true i) = false -> i_base i <= hypo i /\ ~ i_grow i == 0) as Un.
  { intros i Hi F. destruct (start_cases false true i) as [E _]. rewrite E in F. unfold starts_frozen in F. cbn in F. rewrite !andb_true_r, andb_false_r, !orb_false_r in F. apply orb_false_iff in F as [F1 F2]. destruct (ltq_spec (hypo i) (i_base i)); [discriminate|]. destruct (eqq_spec (i_grow i) 0); [discriminate|]. split; [lra|assumption]. }
  assert (forall i, In i l -> s_frozen (start false true i) = true -> ~ i_grow i == 0 -> s_used (start false true i) == i_max i) as Fz.
  { intros i Hi F Gr. destruct (start_cases false true i) as [E Eu]. rewrite (Eu F). rewrite E in F. unfold starts_frozen in F. cbn in F. rewrite !andb_true_r, andb_false_r, !orb_false_r in F. apply orb_true_iff in F as [F|F]; [|destruct (eqq_spec (i_grow i) 0); [contradiction|discriminate]].
    destruct (ltq_spec (hypo i) (i_base i)); [|discriminate]. destruct (hypo_cases i (B i Hi)) as [K|[K|K]]; lra. }
  assert (0 <= free_space main l0) as Init.
  { rewrite free_eq. assert (sums basic l0 <= sums pot l0) as K; [|unfold l0 in K at 2; rewrite start_pot in K; lra]. apply sums_le. intros s Hs. unfold basic, pot. destruct (s_frozen s) eqn:F; [lra|]. destruct (In0 s Hs) as (i & Hi & ->). rewrite start_item in *. destruct (Un i Hi F). lra. }
  assert (ginv main l0) as I0.
  { split.
    - intros s Hs F. destruct (In0 s Hs) as (i & Hi & ->). rewrite start_item. destruct (Un i Hi F) as [U1 U2]. specialize (P i Hi). pose proof (hypo_within i (B i Hi)) as W. unfold within in W. split; [lra|]. destruct (Qlt_le_dec 0 (i_grow i)); [assumption|]. exfalso. apply U2. lra.
    - intros s Hs F Z. destruct (In0 s Hs) as (i & Hi & ->). rewrite start_item. rewrite (proj2 (start_cases false true i) F). reflexivity.
    - unfold l0. rewrite start_pot. lra.
    - intros _. left. intros s Hs F Gr. destruct (In0 s Hs) as (i & Hi & ->). unfold growable in Gr. rewrite start_item in *. now apply Fz.
    - intros _ s Hs F Gr. right. destruct (In0 s Hs) as (i & Hi & ->). unfold growable in Gr. rewrite start_item in *. now apply Fz.
    - exists 0. split; [lra|]. intros s Hs F Gr. right. left. destruct (In0 s Hs) as (i & Hi & ->). unfold growable in Gr. rewrite start_item in *. now apply Fz. }
  destruct (loop_ends true main (free_space main l0) (ginv main) (fun l1 G1 I1 N1 => grow_turn main _ Init l1 G1 I1 N1) fuel l0) as (l' & El & Hm & Gl & I1 & Ul); [pose proof (left_length l0) as K; unfold l0 in K at 2; rewrite map_length in K; lia|exact G|exact I0|].
  assert (map s_item l' = l) as Hl'. { rewrite Hm. unfold l0. rewrite map_map. rewrite <- map_id. apply map_ext. intros i. apply start_item. }
  exists (map (fun s => (s_item s, s_used s)) l'). rewrite El. split; [reflexivity|]. split; [rewrite map_map; exact Hl'|].
  pose proof (all_frozen l' Ul) as Fr. rewrite Forall_forall in Fr. destruct I1 as [_ Rigid Fits Full _ Share].
  assert (forall i v, In (i, v) (map (fun s => (s_item s, s_used s)) l') -> exists s, In s l' /\ i = s_item s /\ v = s_used s /\ s_frozen s = true) as InR. { intros i v Hin. apply in_map_iff in Hin as (s & E & Hs). injection E as <- <-. exists s. auto. }
  rewrite <- (pot_frozen l' Ul). split; [exact Fits|]. split; [|split].
  - intros i v Hin Z. destruct (InR i v Hin) as (s & Hs & -> & -> & F). exact (Rigid s Hs F Z).
  - intros Wh. destruct Full as [L|L].
    + intros s Hs. rewrite Forall_forall in Wh. apply Wh. rewrite <- Hl'. now apply in_map.
    + right. intros i v Hin Gr. destruct (InR i v Hin) as (s & Hs & -> & -> & F). exact (L s Hs F Gr).
    + left. rewrite (cap_frozen i_max l' Ul), <- (pot_frozen l' Ul) in L. lra.
  - destruct Share as (k & Hk & Sh). exists k. split; [exact Hk|]. intros i v Hin Gr. destruct (InR i v Hin) as (s & Hs & -> & -> & F). exact (Sh s Hs F Gr).
Qed.
Print Assumptions C34_grow_partial.

(** When items are too large for their line, those that may shrink do so in proportion to their factors
    and base sizes, down to their smallest size. They do not shrink more than they need to. When factors
    are whole the line is just full, or no item may shrink further. *)
Theorem C34_shrink_partial : forall l main fuel, Forall bounded l -> Forall (fun i => 0 <= i_shrink i) l -> (length l <= fuel)%nat -> main < line_size l ->
  exists r, resolve_line fuel main l = Ok r /\ map fst r = l /\ main <= filled r /\
    (forall i v, In (i, v) r -> i_shrink i == 0 -> v == hypo i) /\
    (Forall (fun i => i_shrink i == 0 \/ 1 <= i_shrink i) l -> filled r == main \/ forall i v, In (i, v) r -> ~ i_shrink i == 0 -> v == i_min i) /\
    (exists k, 0 <= k /\ forall i v, In (i, v) r -> ~ i_shrink i == 0 -> v == i_min i \/ v == i_max i \/ v == i_base i - i_base i * i_shrink i * k).
Proof.
  intros l main fuel B P Hf Hl. unfold resolve_line. change (sumq (map (fun i => hypo i + both i) l)) with (line_size l).
  assert (Qeq_bool (line_size l) main = false) as -> by (destruct (eqq_spec (line_size l) main); [lra|reflexivity]). assert (ltq (line_size l) main = false) as -> by (destruct (ltq_spec (line_size l) main); [lra|reflexivity]).
  set (l0 := map (start false false) l). rewrite Forall_forall in B, P.
  assert (Forall good l0) as G. { unfold l0. apply Forall_map, Forall_forall. intros i Hi. now apply start_good, B. }
  assert (forall s, In s l0 -> exists i, In i l /\ s = start false false i) as In0. { intros s Hs. apply in_map_iff in Hs as (i & <- & Hi). eauto. }
  assert (forall i, In i l -> s_frozen (start false false i) = false -> hypo i <= i_base i /\ ~ i_shrink i == 0) as Un.
  { intros i Hi F. destruct (start_cases false false i) as [E _]. rewrite E in F. unfold starts_frozen in F. cbn in F. rewrite !andb_true_r, !andb_false_r, !orb_false_r in F. apply orb_false_iff in F as [F1 F2]. destruct (ltq_spec (i_base i) (hypo i)); [discriminate|]. destruct (eqq_spec (i_shrink i) 0); [discriminate|]. split; [lra|assumption]. }
  assert (forall i, In i l -> s_frozen (start false false i) = true -> ~ i_shrink i == 0 -> s_used (start false false i) == i_min i) as Fz.
  { intros i Hi F Gr. destruct (start_cases false false i) as [E Eu]. rewrite (Eu F). rewrite E in F. unfold starts_frozen in F. cbn in F. rewrite !andb_true_r, !andb_false_r, !orb_false_r in F. apply orb_true_iff in F as [F|F]; [|destruct (eqq_spec (i_shrink i) 0); [contradiction|discriminate]].
    destruct (ltq_spec (i_base i) (hypo i)); [|discriminate]. destruct (hypo_cases i (B i Hi)) as [K|[K|K]]; lra. }
  assert (free_space main l0 <= 0) as Init.
  { rewrite free_eq. assert (sums pot l0 <= sums basic l0) as K; [|unfold l0 in K at 1; rewrite start_pot in K; lra]. apply sums_le. intros s Hs. unfold basic, pot. destruct (s_frozen s) eqn:F; [lra|]. destruct (In0 s Hs) as (i & Hi & ->). rewrite start_item in *. destruct (Un i Hi F). lra. }
  assert (sinv main l0) as I0.
  { split.
    - intros s Hs F. destruct (In0 s Hs) as (i & Hi & ->). rewrite start_item. destruct (Un i Hi F) as [U1 U2]. specialize (P i Hi). pose proof (hypo_within i (B i Hi)) as W. unfold within in W. split; [lra|]. destruct (Qlt_le_dec 0 (i_shrink i)); [assumption|]. exfalso. apply U2. lra.
    - intros s Hs F Z. destruct (In0 s Hs) as (i & Hi & ->). rewrite start_item. rewrite (proj2 (start_cases false false i) F). reflexivity.
    - unfold l0. rewrite start_pot. lra.
    - intros _. left. intros s Hs F Gr. destruct (In0 s Hs) as (i & Hi & ->). unfold shrinkable in Gr. rewrite start_item in *. now apply Fz.
    - intros _ s Hs F Gr. left. destruct (In0 s Hs) as (i & Hi & ->). unfold shrinkable in Gr. rewrite start_item in *. now apply Fz.
    - exists 0. split; [lra|]. intros s Hs F Gr. left. destruct (In0 s Hs) as (i & Hi & ->). unfold shrinkable in Gr. rewrite start_item in *. now apply Fz. }
  destruct (loop_ends false main (free_space main l0) (sinv main) (fun l1 G1 I1 N1 => shrink_turn main _ Init l1 G1 I1 N1) fuel l0) as (l' & El & Hm & Gl & I1 & Ul); [pose proof (left_length l0) as K; unfold l0 in K at 2; rewrite map_length in K; lia|exact G|exact I0|].
  assert (map s_item l' = l) as Hl'. { rewrite Hm. unfold l0. rewrite map_map. rewrite <- map_id. apply map_ext. intros i. apply start_item. }
  exists (map (fun s => (s_item s, s_used s)) l'). rewrite El. split; [reflexivity|]. split; [rewrite map_map; exact Hl'|].
  pose proof (all_frozen l' Ul) as Fr. rewrite Forall_forall in Fr. destruct I1 as [_ Rigid Fits Full _ Share].
  assert (forall i v, In (i, v) (map (fun s => (s_item s, s_used s)) l') -> exists s, In s l' /\ i = s_item s /\ v = s_used s /\ s_frozen s = true) as InR. { intros i v Hin. apply in_map_iff in Hin as (s & E & Hs). injection E as <- <-. exists s. auto. }
  rewrite <- (pot_frozen l' Ul). split; [exact Fits|]. split; [|split].
  - intros i v Hin Z. destruct (InR i v Hin) as (s & Hs & -> & -> & F). exact (Rigid s Hs F Z).
  - intros Wh. destruct Full as [L|L].
    + intros s Hs. rewrite Forall_forall in Wh. apply Wh. rewrite <- Hl'. now apply in_map.
    + right. intros i v Hin Gr. destruct (InR i v Hin) as (s & Hs & -> & -> & F). exact (L s Hs F Gr).
    + left. rewrite (cap_frozen i_min l' Ul), <- (pot_frozen l' Ul) in L. lra.
  - destruct Share as (k & Hk & Sh). exists k. split; [exact Hk|]. intros i v Hin Gr. destruct (InR i v Hin) as (s & Hs & -> & -> & F). exact (Sh s Hs F Gr).
Qed.
Print Assumptions C34_shrink_partial.

(** When items just fit they have the sizes they want, whatever their limits and factors. *)
Theorem C34_exact : forall l main fuel, line_size l == main -> resolve_line fuel main l = Ok (map (fun i => (i, hypo i)) l).
Proof.
  intros l main fuel H. unfold resolve_line. change (sumq (map (fun i => hypo i + both i) l)) with (line_size l). assert (Qeq_bool (line_size l) main = true) as -> by now apply Qeq_bool_iff.
  set (l0 := map _ l). assert (unfrozen l0 = []) as U. { unfold l0, unfrozen. clear. induction l as [|i l IH]; [reflexivity|]. cbn [map filter]. unfold start at 1, starts_frozen. cbn [orb s_frozen negb]. exact IH. }
  assert (forall g m i, loop fuel g m i l0 = Ok l0) as E by (intros; destruct fuel; cbn [loop]; now rewrite U). rewrite E. unfold l0. cbv [omap obind]. f_equal. rewrite map_map. reflexivity.
Qed.
Print Assumptions C34_exact.

Definition fl (id : nat) (base mn mx grow shrink : Q) : item := mkItem id base mn mx grow shrink (LENGTH 0) (LENGTH 0).
(** The second item may not be larger than 30, the third not smaller than 90; two shares of the rest for
    the first, one for the last. *)
Example C34_grow_sample :
  let l := [fl 1 10 0 1000 2 1; fl 2 10 0 30 1 1; fl 3 10 90 1000 1 1; fl 4 10 0 1000 1 1; fl 5 20 0 1000 0 1] in
  Forall bounded l /\ Forall (fun i => i_grow i == 0 \/ 1 <= i_grow i) l /\ line_size l < 300 /\
  omap (map (fun x => Qred (snd x))) (resolve_line 5 300 l) = Ok [310 # 3; 30; 90; 170 # 3; 20].
Proof. repeat split; try (vm_compute; reflexivity); repeat constructor; try (vm_compute; discriminate); (left; vm_compute; reflexivity) || (right; vm_compute; discriminate). Qed.
Example C34_shrink_sample :
  let l := [fl 1 100 0 1000 0 1; fl 2 50 0 1000 0 2; fl 3 60 55 1000 0 1; fl 4 20 0 1000 0 0] in
  Forall bounded l /\ Forall (fun i => i_shrink i == 0 \/ 1 <= i_shrink i) l /\ 130 < line_size l /\
  omap (map (fun x => Qred (snd x))) (resolve_line 4 130 l) = Ok [105 # 2; 5 # 2; 55; 20].
Proof. repeat split; try (vm_compute; reflexivity); repeat constructor; try (vm_compute; discriminate); (left; vm_compute; reflexivity) || (right; vm_compute; discriminate). Qed.
