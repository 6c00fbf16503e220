(** C02, C03, C04: specificity and the cascade. *)
From Coq Require Import List ZArith Bool String Lia.
From Verif.Base Require Import Str.
From Verif.Style Require Import CascadeModel CascadeSpec CascadeProofs.
Import ListNotations.

(** ** C02 *)

(** The three-way comparison of the code decides the lexicographic order ... *)
Theorem C02_specificity_lexicographic : forall x y,
  (spec_cmp x y = Lt <-> spec_lt x y) /\
  (spec_cmp x y = Eq <-> x = y) /\
  (spec_cmp x y = Gt <-> spec_lt y x).
Proof. intros x y. exact (conj (spec_cmp_lt x y) (conj (spec_cmp_eq x y) (spec_cmp_gt x y))). Qed.
Print Assumptions C02_specificity_lexicographic.

(** ... which is a strict total order ... *)
Theorem C02_specificity_total_order :
  (forall x, spec_cmp x x = Eq) /\
  (forall x y, spec_cmp x y = Lt \/ x = y \/ spec_cmp y x = Lt) /\
  (forall x y z, spec_cmp x y = Lt -> spec_cmp y z = Lt -> spec_cmp x z = Lt) /\
  (forall x y, spec_cmp x y = CompOpp (spec_cmp y x)).
Proof.
  split; [|split; [|split]].
  - intros x. now apply spec_cmp_eq.
  - intros x y. rewrite !spec_cmp_lt. apply spec_trichotomy.
  - intros x y z. rewrite !spec_cmp_lt. apply spec_lt_trans.
  - intros x y. destruct (spec_cmp y x) eqn:E; simpl.
    + apply spec_cmp_eq in E. subst. now apply spec_cmp_eq.
    + apply spec_cmp_lt in E. now apply spec_cmp_gt.
    + apply spec_cmp_gt in E. now apply spec_cmp_lt.
Qed.
Print Assumptions C02_specificity_total_order.

(** ... and adding an id, a class or a type strictly increases it; an id outweighs any
    number of classes and types, and a class any number of types. *)
Theorem C02_specificity_add_increases : forall x,
  spec_cmp x (spec_add x spec_A) = Lt /\
  spec_cmp x (spec_add x spec_B) = Lt /\
  spec_cmp x (spec_add x spec_C) = Lt.
Proof. intros x. rewrite !spec_cmp_lt. unfold spec_lt, spec_add; simpl. lia. Qed.
Print Assumptions C02_specificity_add_increases.

Theorem C02_specificity_add_monotone : forall x y z,
  spec_cmp (spec_add x z) (spec_add y z) = spec_cmp x y.
Proof.
  intros x y z. destruct (spec_cmp x y) eqn:E.
  - apply spec_cmp_eq in E. subst. now apply spec_cmp_eq.
  - apply spec_cmp_lt in E. apply spec_cmp_lt. unfold spec_lt, spec_add in *; simpl. lia.
  - apply spec_cmp_gt in E. apply spec_cmp_gt. unfold spec_lt, spec_add in *; simpl. lia.
Qed.
Print Assumptions C02_specificity_add_monotone.

(** [or] is the maximum. *)
Theorem C02_specificity_or_max : forall x y,
  (spec_or x y = x \/ spec_or x y = y) /\
  ~ spec_lt (spec_or x y) x /\ ~ spec_lt (spec_or x y) y.
Proof.
  intros x y. unfold spec_or. destruct (spec_cmp x y) eqn:E.
  - apply spec_cmp_eq in E. subst. split; [auto|]. split; apply spec_lt_irrefl.
  - apply spec_cmp_lt in E. split; [auto|]. split; [|apply spec_lt_irrefl].
    intros H. eapply spec_lt_irrefl, spec_lt_trans; eassumption.
  - apply spec_cmp_gt in E. split; [auto|]. split; [apply spec_lt_irrefl|].
    intros H. eapply spec_lt_irrefl, spec_lt_trans; eassumption.
Qed.
Print Assumptions C02_specificity_or_max.

Example C02_ex : spec_cmp (mkSpec 0 12 40) (mkSpec 1 0 0) = Lt.
Proof. reflexivity. Qed.

(** ** C03 *)

(** For every list of matched declarations, in whatever order they are applied, and every
    property name: the value found after the cascade is exactly the winning one. *)
Theorem C03_cascade_picks_winner : forall V (ds : list (property V * origin * specificity)),
  well_formed ds ->
  forall n v,
  (exists e, lookup (c_entries (cascade ds)) n = Some e /\ e_value e = v) <->
  wins (all_longhands ds) n v.
Proof. intros V ds H n v. exact (cascade_winner ds H n v). Qed.
Print Assumptions C03_cascade_picks_winner.

(** [wins] names at most one value, and one exists as soon as the property is declared. *)
Theorem C03_winner_unique : forall V (ls : list (str * (weight * V))) n v v',
  wins ls n v -> wins ls n v' -> v = v'.
Proof. intros V ls n v v'. exact (wins_unique ls n v v'). Qed.
Print Assumptions C03_winner_unique.

Theorem C03_declared_property_has_winner : forall V (ds : list (property V * origin * specificity)),
  well_formed ds ->
  forall n, (exists w v, In (n, (w, v)) (all_longhands ds)) <->
            exists e, lookup (c_entries (cascade ds)) n = Some e.
Proof.
  intros V ds H n. split.
  - intros (w & v & Hin). destruct (lookup (c_entries (cascade ds)) n) as [e|] eqn:E; [eauto|].
    exfalso. destruct H as (lh & H1 & H2 & H3).
    pose proof (cascade_best ds lh H1 H2 n) as B. rewrite E in B. simpl in B.
    rewrite <- (longhands_cands 0) in Hin. apply in_map_iff in Hin as [[n' e'] [Hf Hi]].
    unfold forget in Hf; simpl in Hf. injection Hf as -> _ _. exact (B e' Hi).
  - intros [e He]. assert (W : wins (all_longhands ds) n (e_value e)).
    { apply (cascade_winner ds H). eauto. }
    apply wins_exists_In in W as [w W]. eauto.
Qed.
Print Assumptions C03_declared_property_has_winner.

(** A concrete list: [border: B1] in an author rule, [color] thrice, a later weaker
    [border-width], an invalid declaration. *)
Definition sx := of_string.
Definition ex_ds : list (property nat * origin * specificity) :=
  [ (mkProp (sx "color") 1 false false None, AUTHOR, mkSpec 0 1 0);
    (mkProp (sx "border") 0 false false (Some [(sx "border-width", 7); (sx "border-style", 8)]),
       AUTHOR, mkSpec 0 1 0);
    (mkProp (sx "color") 2 true false None, USER_AGENT, mkSpec 0 0 1);
    (mkProp (sx "border-width") 9 false false None, AUTHOR, mkSpec 0 0 1);
    (mkProp (sx "color") 3 false false None, INLINE, spec_zero);
    (mkProp (sx "color") 4 false true None, INLINE, spec_zero) ].

Example C03_ex_wf : well_formed ex_ds.
Proof.
  exists (fun n => if str_eqb n (sx "border") then Some [sx "border-width"; sx "border-style"] else None).
  split; [|split].
  - intros p o s H B. repeat (destruct H as [H|H]; [injection H as <- <- <-; try discriminate B; reflexivity|]).
    destruct H.
  - intros n l m. destruct (str_eqb n (sx "border")); [|discriminate]. intros H. injection H as <-.
    intros H; repeat (destruct H as [H|H]; [subst m; reflexivity|]). destruct H.
  - intros n l. destruct (str_eqb n (sx "border")); [|discriminate]. intros H. injection H as <-.
    repeat constructor; simpl; intuition discriminate.
Qed.

Example C03_ex_run :
  option_map e_value (lookup (c_entries (cascade ex_ds)) (sx "color")) = Some 2 /\
  option_map e_value (lookup (c_entries (cascade ex_ds)) (sx "border-width")) = Some 7 /\
  option_map e_value (lookup (c_entries (cascade ex_ds)) (sx "border-style")) = Some 8 /\
  lookup (c_entries (cascade ex_ds)) (sx "border") = None.
Proof. vm_compute. repeat split; reflexivity. Qed.

(** ** C04: refuted.  Between two important declarations the *stronger normal* origin wins,
    for every pair of origins: [!important] does not reverse the order of origins. *)
Definition two_important {V} (n : str) (o1 o2 : origin) (s1 s2 : specificity) (v1 v2 : V) :=
  [ (mkProp n v1 true false None, o1, s1); (mkProp n v2 true false None, o2, s2) ].

Theorem C04_importance_reverses_origin_refuted :
  forall V n (v1 v2 : V) o1 o2 s1 s2, origin_lt o1 o2 ->
  option_map e_value (lookup (c_entries (cascade (two_important n o1 o2 s1 s2 v1 v2))) n) = Some v2 /\
  option_map e_value (lookup (c_entries (cascade (two_important n o2 o1 s2 s1 v2 v1))) n) = Some v2.
Proof.
  intros V n v1 v2 o1 o2 s1 s2 H. apply origin_lt_rank in H.
  unfold two_important, cascade, expand_shorthands; cbn -[Nat.compare].
  rewrite !str_eqb_refl. unfold entry_geb, entry_cmp; cbn -[Nat.compare].
  rewrite Nat.compare_refl.
  destruct (Nat.compare_spec (origin_rank o2) (origin_rank o1)) as [E|E|E]; try lia.
  destruct (Nat.compare_spec (origin_rank o1) (origin_rank o2)) as [E'|E'|E']; try lia.
  cbn. rewrite !str_eqb_refl. split; reflexivity.
Qed.
Print Assumptions C04_importance_reverses_origin_refuted.

(** What does hold: an important declaration beats every normal one, whatever their origins. *)
Theorem C04_important_beats_normal_partial :
  forall V n (v1 v2 : V) o1 o2 s1 s2,
  let imp := (mkProp n v1 true false None, o1, s1) in
  let normal := (mkProp n v2 false false None, o2, s2) in
  option_map e_value (lookup (c_entries (cascade [imp; normal])) n) = Some v1 /\
  option_map e_value (lookup (c_entries (cascade [normal; imp])) n) = Some v1.
Proof.
  intros. unfold imp, normal, cascade, expand_shorthands; cbn.
  rewrite !str_eqb_refl. cbn. rewrite !str_eqb_refl. split; reflexivity.
Qed.
Print Assumptions C04_important_beats_normal_partial.

Example C04_ex : origin_lt USER_AGENT AUTHOR.
Proof. exists [], [USER; AUTHOR_PRESENTATIONAL_HINT], [INLINE]. reflexivity. Qed.
