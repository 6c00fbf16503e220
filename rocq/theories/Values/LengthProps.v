(** C16: lengths. *)
From Coq Require Import String List NArith ZArith QArith Qminmax Bool Lia Lqa.
From Verif.Base Require Import Str.
From Verif.Css Require Import LexerModel ParserModel.
From Verif.Values Require Import Number LengthModel LengthSpec.
Import ListNotations.
Local Open Scope list_scope.
Local Open Scope Q_scope.

Lemma rounding_eq rnd x y : rounding rnd -> x == y -> rnd x == rnd y.
Proof. intros H E. apply Qle_antisym; apply H; rewrite E; apply Qle_refl. Qed.

(** Every absolute length is converted to the px length that is the same distance. *)
Theorem C16_absolute v u : same_distance (pixels v u) v u.
Proof. unfold same_distance, pixels, per_inch. destruct u; field. Qed.
Print Assumptions C16_absolute.
Example C16_absolute_ex : pixels 1 IN == 96 /\ pixels (254 # 100) CM == 96 /\ pixels 72 PT == 96 /\ pixels 6 PC == 96.
Proof. repeat split; reflexivity. Qed.

(** And it is the only one, so the conversion is exactly the CSS ratio. *)
Theorem C16_absolute_unique v u x : same_distance x v u -> x == pixels v u.
Proof.
  intros H. pose proof (C16_absolute v u) as P. unfold same_distance in *. rewrite <- P in H. clear P.
  unfold per_inch in H. unfold Qdiv in H. apply Qmult_inj_r in H; [exact H|discriminate].
Qed.
Print Assumptions C16_absolute_unique.

Lemma min_scale (a w h : Q) : 0 <= a -> a * Qmin (w / 100) (h / 100) == Qmin (a * w / 100) (a * h / 100).
Proof.
  intros A. destruct (Q.min_spec (w / 100) (h / 100)) as [[L E]|[L E]]; rewrite E.
  - rewrite Q.min_l; [field|]. assert (a * (w / 100) <= a * (h / 100)) by nra.
    assert (E1 : a * w / 100 == a * (w / 100)) by field. assert (E2 : a * h / 100 == a * (h / 100)) by field. rewrite E1, E2. assumption.
  - rewrite Q.min_r; [field|]. assert (a * (h / 100) <= a * (w / 100)) by nra.
    assert (E1 : a * w / 100 == a * (w / 100)) by field. assert (E2 : a * h / 100 == a * (h / 100)) by field. rewrite E1, E2. assumption.
Qed.
Lemma max_scale (a w h : Q) : 0 <= a -> a * Qmax (w / 100) (h / 100) == Qmax (a * w / 100) (a * h / 100).
Proof.
  intros A. destruct (Q.max_spec (w / 100) (h / 100)) as [[L E]|[L E]]; rewrite E.
  - rewrite Q.max_r; [field|]. assert (a * (w / 100) <= a * (h / 100)) by nra.
    assert (E1 : a * w / 100 == a * (w / 100)) by field. assert (E2 : a * h / 100 == a * (h / 100)) by field. rewrite E1, E2. assumption.
  - rewrite Q.max_l; [field|]. assert (a * (h / 100) <= a * (w / 100)) by nra.
    assert (E1 : a * w / 100 == a * (w / 100)) by field. assert (E2 : a * h / 100 == a * (h / 100)) by field. rewrite E1, E2. assumption.
Qed.

Lemma rnd_min rnd x y : rounding rnd -> Qmin (rnd x) (rnd y) == rnd (Qmin x y).
Proof.
  intros R. destruct (Q.min_spec x y) as [[L E]|[L E]].
  - rewrite Q.min_l by (apply R; lra). now apply rounding_eq.
  - rewrite Q.min_r by (apply R; lra). now apply rounding_eq.
Qed.
Lemma rnd_max rnd x y : rounding rnd -> Qmax (rnd x) (rnd y) == rnd (Qmax x y).
Proof.
  intros R. destruct (Q.max_spec x y) as [[L E]|[L E]].
  - rewrite Q.max_r by (apply R; lra). now apply rounding_eq.
  - rewrite Q.max_l by (apply R; lra). now apply rounding_eq.
Qed.

(** A relative length is its number times the unit it names, rounded once. Missing from the full
    claim: ic/ric, and vmin/vmax (with their s, l, d variants) of a negative number. *)
Theorem C16_relative_partial rnd v u c p : rounding rnd -> unit_px u c = Some p ->
  (is_minmax u = true -> 0 <= v) -> resolve_rel rnd v u c == rnd (v * p).
Proof.
  intros R U M.
  destruct u; cbn in U; try discriminate U; injection U as <-; cbn [resolve_rel]; try reflexivity;
    try (apply rounding_eq; [assumption|]; field);
    try (destruct (cx_horizontal c); cbn [negb]; apply rounding_eq; [assumption| |assumption|]; field).
  all: specialize (M eq_refl); first [rewrite rnd_min by assumption | rewrite rnd_max by assumption];
    apply rounding_eq; try assumption; symmetry; first [now apply min_scale | now apply max_scale].
Qed.
Print Assumptions C16_relative_partial.
Definition ctx_ex : ctx := resolver (mkEnv 20 (fun s => mkMetrics (s / 2) (s * (7 # 10)) (s / 2) (s * (12 # 10))) 32
  (fun s => mkMetrics (s / 2) (s * (7 # 10)) (s / 2) (s * (12 # 10))) (600, 800) (600, 1000) (600, 900)).
Example C16_relative_ex : rounding (fun x => x) /\ resolve_rel (fun x => x) 2 EM ctx_ex == 40
  /\ resolve_rel (fun x => x) 10 VMAX ctx_ex == 100 /\ resolve_rel (fun x => x) 10 SVH ctx_ex == 80.
Proof. split; [intros x y H; exact H|]. repeat split; reflexivity. Qed.

(** The smaller axis, whatever the rounding: vmin never exceeds vw or vh, vmax is never below. *)
Theorem C16_vmin_vmax rnd v c :
  resolve_rel rnd v VMIN c <= resolve_rel rnd v VW c /\ resolve_rel rnd v VMIN c <= resolve_rel rnd v VH c /\
  resolve_rel rnd v VW c <= resolve_rel rnd v VMAX c /\ resolve_rel rnd v VH c <= resolve_rel rnd v VMAX c.
Proof. cbn [resolve_rel]. repeat split; [apply Q.le_min_l|apply Q.le_min_r|apply Q.le_max_l|apply Q.le_max_r]. Qed.
Print Assumptions C16_vmin_vmax.

(** The full claim is false: -10vmin of a 600 by 1000 viewport should be -60px, and is -100px. *)
Theorem C16_negative_vmin_refuted : exists v c p, unit_px VMIN c = Some p /\ v * p == -(60) /\ resolve_rel (fun x => x) v VMIN c == -(100).
Proof. exists (-(10)), ctx_ex. eexists. split; [reflexivity|]. split; reflexivity. Qed.
Print Assumptions C16_negative_vmin_refuted.

(** During layout, rem is 16px whatever the font size of the root element. *)
Theorem C16_rem_is_16 rnd v e : resolve_rel rnd v REM (resolver e) = rnd (v * 16).
Proof. reflexivity. Qed.
Print Assumptions C16_rem_is_16.
Definition plain_face (s : Q) : metrics := mkMetrics (s / 2) (s * (7 # 10)) (s / 2) (s * (12 # 10)).
Theorem C16_rem_ignores_root_refuted :
  exists e v, e_root_font_size e == 32 /\ v == 2 /\ resolve_rel (fun x => x) v REM (resolver e) == 32
    /\ ~ resolve_rel (fun x => x) v REM (resolver e) == v * e_root_font_size e.
Proof. exists (mkEnv 16 plain_face 32 plain_face (600, 800) (600, 800) (600, 800)), 2. repeat split; try reflexivity. discriminate. Qed.
Print Assumptions C16_rem_ignores_root_refuted.

(** Percentages are taken of the reference length, any other value ignores it. *)
Theorem C16_percent rnd q c rel : resolve_percent_or rnd (Percent q) c rel == q * rel / 100.
Proof. cbn. field. Qed.
Print Assumptions C16_percent.

(** ** Reading lengths *)

Lemma eq_ci_sym a b : eq_ci a b = eq_ci b a.
Proof.
  revert b; induction a as [|x a IH]; destruct b as [|y b]; cbn; try reflexivity.
  now rewrite N.eqb_sym, IH.
Qed.
Lemma eq_ci_subst a b s : eq_ci a s = true -> eq_ci b s = eq_ci b a.
Proof.
  revert b s; induction a as [|x a IH]; intros b [|y s]; cbn; try discriminate; try reflexivity.
  intros H. apply andb_true_iff in H as [H1 H2]. apply N.eqb_eq in H1. destruct b as [|z b]; cbn; [reflexivity|].
  rewrite H1. f_equal. now apply IH.
Qed.
Lemma value_of_ci_subst {U} (us : list (str * U)) a s : eq_ci a s = true -> value_of_ci us s = value_of_ci us a.
Proof.
  intros H. induction us as [|[n u] us IH]; cbn; [reflexivity|].
  now rewrite (eq_ci_subst a n s H), IH.
Qed.

(** The text of a unit: any capitalisation of its name. *)
Definition unit_text {U} (us : list (str * U)) (u : U) (s : str) : Prop := exists n, In (n, u) us /\ eq_ci n s = true.

Lemma unit_stops {U} (us : list (str * U)) u s :
  forallb (fun p => match fst p with c :: _ => (97 <=? lower c)%N && (lower c <=? 122)%N | [] => false end) us = true ->
  unit_text us u s -> stops s.
Proof.
  intros H (n & I & E). rewrite forallb_forall in H. specialize (H _ I). cbn in H.
  destruct n as [|c n]; [discriminate|]. destruct s as [|d s]; [discriminate|]. cbn in E.
  apply andb_true_iff in E as [E _]. apply N.eqb_eq in E. rewrite E in H. apply andb_true_iff in H as [H1 H2].
  apply N.leb_le in H1, H2. cbn. unfold lower in H1, H2. unfold is_digit.
  destruct (N.leb_spec 65 d), (N.leb_spec d 90); cbn in H1, H2; (split; [apply andb_false_iff; rewrite !N.leb_gt|]; lia).
Qed.

Lemma unit_lookup {U} (us : list (str * U)) u s :
  (forall n, In (n, u) us -> value_of_ci us n = Some u) -> unit_text us u s -> value_of_ci us s = Some u.
Proof. intros H (n & I & E). rewrite (value_of_ci_subst us n s E). now apply H. Qed.

Lemma aunits_ok u n : In (n, u) aunits -> value_of_ci aunits n = Some u.
Proof. cbn [aunits In]. intuition; match goal with H : (_, _) = _ |- _ => injection H as <- <-; reflexivity end. Qed.
Lemma runits_ok u n : In (n, u) runits -> value_of_ci runits n = Some u /\ value_of_ci aunits n = None.
Proof. cbn [runits In]. intuition; match goal with H : (_, _) = _ |- _ => injection H as <- <-; reflexivity end. Qed.

Definition dim (d : decimal) (unit : str) : sst := TOK (mkT DIMENSION (show_decimal d ++ unit)).

Lemma dimension_show d s : decimal_ok d -> stops s -> exists q, dimension (show_decimal d ++ s) = (q, s) /\ q == decimal_value d.
Proof. intros O S. destruct (atof_show d s O S) as (q & E & V). exists q. unfold dimension. now rewrite E. Qed.

(** Every literal with a unit, however capitalised, is read as that number of that unit. *)
Theorem C16_parse_absolute d u s r : decimal_ok d -> unit_text aunits u s ->
  exists q, parse_length (dim d s :: r) = Some (Abs q u, r) /\ q == decimal_value d.
Proof.
  intros O T. destruct (dimension_show d s O) as (q & E & V); [now apply (unit_stops aunits u)|].
  exists q. split; [|exact V]. unfold parse_length, dim. cbn [skip_tok t_type t_data]. unfold token_eqb. cbn [t_type number_zero ttype_beq andb].
  rewrite E. now rewrite (unit_lookup aunits u s (aunits_ok u) T).
Qed.
Print Assumptions C16_parse_absolute.

Theorem C16_parse_relative d u s r : decimal_ok d -> unit_text runits u s ->
  exists q, parse_length (dim d s :: r) = Some (Rel q u, r) /\ q == decimal_value d.
Proof.
  intros O T. destruct (dimension_show d s O) as (q & E & V); [now apply (unit_stops runits u)|].
  exists q. split; [|exact V]. unfold parse_length, dim. cbn [skip_tok t_type t_data]. unfold token_eqb. cbn [t_type number_zero ttype_beq andb].
  rewrite E. rewrite (unit_lookup runits u s (fun n I => proj1 (runits_ok u n I)) T).
  destruct T as (n & I & C). rewrite (value_of_ci_subst aunits n s C). now rewrite (proj2 (runits_ok u n I)).
Qed.
Print Assumptions C16_parse_relative.
Example C16_parse_ex :
  decimal_ok (mkD true [1; 2] [5])%Z /\ unit_text aunits PX (of_string "pX") /\
  parse_length [dim (mkD true [1; 2] [5])%Z (of_string "pX")] = Some (Abs (inject_Z (-1) * (inject_Z 12 + inject_Z 5 / inject_Z 10)) PX, []).
Proof.
  split; [|split].
  - split; [discriminate|]. split; repeat constructor; unfold digit_ok; lia.
  - exists (of_string "PX"). split; [cbn; tauto|reflexivity].
  - reflexivity.
Qed.

(** A unitless zero is the zero length only when it is written "0": "0.0" is rejected. *)
Theorem C16_unitless_zero_refuted :
  parse_length [TOK (mkT NUMBER (show_decimal (mkD false [0] [0])%Z))] = None /\ decimal_value (mkD false [0] [0])%Z == 0.
Proof. split; reflexivity. Qed.
Print Assumptions C16_unitless_zero_refuted.
