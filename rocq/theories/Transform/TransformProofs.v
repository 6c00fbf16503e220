(** Lemmas for TransformProps.v *)
From Coq Require Import String List NArith ZArith QArith Qminmax Bool Lia Setoid Morphisms.
From Verif.Base Require Import Str.
From Verif.Css Require Import LexerModel ParserModel.
From Verif.Values Require Import Number LengthModel LengthSpec LengthProps CalcModel CalcProps ColorModel ColorSpec ColorProofs.
From Verif.Transform Require Import TransformModel TransformSpec.
Import ListNotations.
Local Open Scope list_scope.
Local Open Scope Q_scope.

(** ** Points *)
#[global] Instance same_equiv : Equivalence same.
Proof.
  split; [intros p; split; reflexivity|intros p q [A B]; split; now symmetry|
          intros p q r [A B] [C D]; split; etransitivity; eassumption].
Qed.
#[global] Instance on_same t : Proper (same ==> same) (on t).
Proof. intros p q [A B]. split; cbn [on fst snd]; now rewrite A, B. Qed.
#[global] Instance plus_same : Proper (same ==> same ==> same) plus.
Proof. intros p q [A B] p' q' [C D]. split; cbn [plus fst snd]; now rewrite ?A, ?B, ?C, ?D. Qed.

Lemma on_multiply a b p : on (multiply a b) p ≡ on b (on a p).
Proof. split; cbn [on multiply fst snd xx xy yx yy ox oy]; ring. Qed.
Lemma on_translate v p : on (translate v) p ≡ plus v p.
Proof. split; cbn [on translate plus fst snd xx xy yx yy ox oy]; ring. Qed.

(** ** White space and commas *)
Definition solid (s : sst) : bool := match s with TOK t => negb (ttype_beq (t_type t) WHITESPACE) && negb (ttype_beq (t_type t) COMMA) | _ => true end.
Lemma eat_blank b l : blank b -> eat_wss (b ++ l) = eat_wss l.
Proof. induction 1 as [|s b [d ->] _ IH]; [reflexivity|exact IH]. Qed.
Lemma eat_blank_nil b : blank b -> eat_wss b = [].
Proof. intros B. rewrite <- (app_nil_r b). now rewrite (eat_blank b []). Qed.
Lemma eat_solid s l : solid s = true -> eat_wss (s :: l) = s :: l.
Proof. destruct s as [t| | | |]; try reflexivity. cbn. now destruct (ttype_beq (t_type t) WHITESPACE). Qed.
Lemma comma_solid s l : solid s = true -> comma (s :: l) = s :: l.
Proof.
  intros H. unfold comma, skip_comma. rewrite (eat_solid s l H). cbn [skip_type].
  destruct (is_type s COMMA) eqn:E; [|cbn [snd]; now apply eat_solid].
  destruct s as [t| | | |]; cbn in E; try discriminate. cbn in H. rewrite E in H. cbn in H. now rewrite andb_false_r in H.
Qed.
Lemma comma_blank b l : blank b -> comma (b ++ l) = comma l.
Proof. intros B. unfold comma, skip_comma. now rewrite (eat_blank b l B). Qed.

(** Arguments with a comma, white space or both between them *)
Inductive args_text : list sst -> list sst -> Prop :=
| args_one s b : blank b -> args_text [s] (s :: b)
| args_comma s args b1 b2 l : blank b1 -> blank b2 -> args_text args l ->
    args_text (s :: args) (s :: b1 ++ TOK (mkT COMMA (of_string ",")) :: b2 ++ l)
| args_blank s args b l : blank b -> args_text args l -> args_text (s :: args) (s :: b ++ l).
Lemma commas_args a l : commas a l -> args_text a l.
Proof. induction 1; [now apply args_one|now apply args_comma]. Qed.

Lemma args_head a args l : args_text (a :: args) l -> exists r, l = a :: r.
Proof. inversion 1; subst; eexists; reflexivity. Qed.
(** After an argument comes the next one, or the end. *)
Lemma args_next a args l : args_text (a :: args) l -> Forall (fun s => solid s = true) args ->
  exists r, l = a :: r /\ match args with [] => comma r = [] /\ eat_wss r = [] | _ => args_text args (comma r) end.
Proof.
  intros H F. inversion H as [s b B|s args' b1 b2 l' B1 B2 A|s args' b l' B A]; subst.
  - exists b. split; [reflexivity|]. split; [|now apply eat_blank_nil]. rewrite <- (app_nil_r b), (comma_blank b [] B). reflexivity.
  - eexists. split; [reflexivity|]. destruct args as [|a' args]; [inversion A|].
    rewrite (comma_blank b1 _ B1). unfold comma, skip_comma. cbn [eat_wss t_type ttype_beq skip_type is_type snd].
    rewrite (eat_blank b2 l' B2). destruct (args_head _ _ _ A) as [r ->].
    inversion F as [|? ? S _]; subst. now rewrite (eat_solid a' r S).
  - eexists. split; [reflexivity|]. destruct args as [|a' args]; [inversion A|].
    rewrite (comma_blank b _ B). destruct (args_head _ _ _ A) as [r ->].
    inversion F as [|? ? S _]; subst. now rewrite (comma_solid a' r S).
Qed.

Section Readers.
Context {A : Type} (p : reader A).
(** The reader takes the component for that value, whatever follows. *)
Definition reads (s : sst) (v : A) : Prop := solid s = true /\ forall r, p (s :: r) = Some (v, r).

Lemma one_value_reads s v b l : blank b -> args_text [s] l -> reads s v -> one_value p (b ++ l) = Some v.
Proof.
  intros B T [S R]. destruct (args_next s [] l T (Forall_nil _)) as (r & -> & _ & E).
  unfold one_value. rewrite (eat_blank b _ B), (eat_solid s r S), R, E. reflexivity.
Qed.
Lemma two_values_one f s v b l : blank b -> args_text [s] l -> reads s v -> two_values p f (b ++ l) = Some (v, f v).
Proof.
  intros B T [S R]. destruct (args_next s [] l T (Forall_nil _)) as (r & -> & E & _).
  unfold two_values. rewrite (eat_blank b _ B), (eat_solid s r S), R, E. reflexivity.
Qed.
Lemma two_values_two f s1 s2 v1 v2 b l : blank b -> args_text [s1; s2] l -> reads s1 v1 -> reads s2 v2 ->
  two_values p f (b ++ l) = Some (v1, v2).
Proof.
  intros B T [S1 R1] [S2 R2].
  destruct (args_next s1 [s2] l T (Forall_cons _ S2 (Forall_nil _))) as (r & -> & T2).
  destruct (args_next s2 [] (comma r) T2 (Forall_nil _)) as (r2 & E2 & _ & E).
  unfold two_values. rewrite (eat_blank b _ B), (eat_solid s1 r S1), R1, E2, R2, E. reflexivity.
Qed.
Lemma read_list_reads : forall ss vs l, Forall2 reads ss vs -> args_text ss l -> read_list p (List.length ss) l = Some vs.
Proof.
  induction ss as [|s ss IH]; intros vs l F T; [inversion T|].
  inversion F as [|? v ? vs' [S R] F']; subst.
  assert (Sol : Forall (fun s => solid s = true) ss) by (clear - F'; induction F' as [|? ? ? ? [S _] ? IH]; constructor; assumption).
  destruct (args_next s ss l T Sol) as (r & -> & N). cbn [List.length read_list]. rewrite R.
  destruct ss as [|s' ss].
  - inversion F'; subst. reflexivity.
  - pose proof (IH vs' (comma r) F' N) as K. cbn [List.length] in K |- *. now rewrite K.
Qed.
End Readers.

(** ** Arguments *)
Lemma pixels_inch q d u : q == d -> pixels q u == d * 96 / per_inch u.
Proof. intros E. unfold pixels, per_inch. destruct u; rewrite E; field. Qed.

Lemma term_read w : wterm_ok w ->
  exists v, (forall r, parse_percent_or (term_sst w :: r) = Some (v, r)) /\
    forall whole, resolve_percent_or (fun q => q) v no_ctx whole == term_of w whole.
Proof.
  destruct w as [d|d u s|]; cbn [wterm_ok term_sst].
  - intros O. destruct (atof_show d (of_string "%") O) as (q & E & V); [split; [reflexivity|discriminate]|].
    exists (Percent q). split; [intros r; unfold parse_percent_or, parse_percent; cbn [t_type t_data ttype_beq]; now rewrite E|].
    intros whole. cbn [resolve_percent_or term_of]. rewrite V. field.
  - intros [O T]. destruct (dimension_show d s O) as (q & E & V); [now apply (unit_stops aunits u)|].
    exists (Len (Abs q u)). split.
    + intros r. unfold parse_percent_or, parse_percent. cbn [t_type ttype_beq].
      unfold parse_length. cbn [skip_tok t_type t_data]. unfold token_eqb. cbn [t_type number_zero ttype_beq andb].
      rewrite E. now rewrite (unit_lookup aunits u s (aunits_ok u) T).
    + intros whole. cbn [resolve_percent_or resolve_length term_of]. now apply pixels_inch.
  - intros _. exists (Len (Abs 0 PX)). split; [reflexivity|]. intros whole. reflexivity.
Qed.

(** An operand of [calc()] *)
Lemma operand_read w r : wterm_ok w ->
  exists v, read_operand parse_percent_or (term_sst w :: r) = Some (v, r) /\
    forall whole, resolve_operand (fun x => resolve_percent_or (fun q => q) x no_ctx whole) v == term_of w whole.
Proof.
  intros O. destruct w as [d|d u s|].
  1-2: destruct (term_read _ O) as (v & E & V); exists (OT v); split; [|exact V];
    unfold read_operand; cbn [term_sst next_is is_type t_type ttype_beq] in *; now rewrite E.
  exists (ON 0). split; [reflexivity|]. intros whole. reflexivity.
Qed.

Lemma term_solid w : solid (term_sst w) = true.
Proof. now destruct w. Qed.
Lemma len_solid w : solid (len_sst w) = true.
Proof. destruct w; [apply term_solid|reflexivity|reflexivity]. Qed.

Lemma len_reads w : wlen_ok w ->
  exists v, reads lengths (len_sst w) v /\ forall whole, exists q, len v whole = Some q /\ q == length_of w whole.
Proof.
  destruct w as [t|a b|a b]; cbn [wlen_ok len_sst].
  - intros O. destruct (term_read t O) as (v & E & V). exists (CPlain (OT v)). split.
    + split; [apply term_solid|]. intros r. unfold lengths, read_calc. rewrite E. destruct t; reflexivity.
    + intros whole. eexists. split; [reflexivity|]. exact (V whole).
  - intros [Oa Ob]. set (tail := [TOK (mkT WHITESPACE (of_string " ")); TOK (mkT DELIM (of_string "+")); TOK (mkT WHITESPACE (of_string " ")); term_sst b]).
    destruct (operand_read a tail Oa) as (va & Ea & Va). destruct (operand_read b [] Ob) as (vb & Eb & Vb).
    exists (CBinary ADD va vb). split.
    + split; [reflexivity|]. intros r. unfold lengths, read_calc, calc_sst. cbn [t_data]. rewrite str_eqb_refl. fold tail.
      rewrite Ea. subst tail. cbn [parse_op t_type ttype_beq tok_data t_data]. change (str_eqb (of_string "+") (of_string "+")) with true.
      cbn beta iota. cbn [eat_wss t_type ttype_beq]. pose proof (eat_solid (term_sst b) [] (term_solid b)) as K. cbn [eat_wss] in K. rewrite K, Eb. reflexivity.
    + intros whole. eexists. split; [reflexivity|]. cbn [length_of]. now rewrite (Va whole), (Vb whole).
  - intros [Oa Ob]. set (tail := [TOK (mkT WHITESPACE (of_string " ")); TOK (mkT DELIM (of_string "-")); TOK (mkT WHITESPACE (of_string " ")); term_sst b]).
    destruct (operand_read a tail Oa) as (va & Ea & Va). destruct (operand_read b [] Ob) as (vb & Eb & Vb).
    exists (CBinary SUBTRACT va vb). split.
    + split; [reflexivity|]. intros r. unfold lengths, read_calc, calc_sst. cbn [t_data]. rewrite str_eqb_refl. fold tail.
      rewrite Ea. subst tail. cbn [parse_op t_type ttype_beq tok_data t_data]. change (str_eqb (of_string "-") (of_string "+")) with false.
      change (str_eqb (of_string "-") (of_string "-")) with true.
      cbn beta iota. cbn [eat_wss t_type ttype_beq]. pose proof (eat_solid (term_sst b) [] (term_solid b)) as K. cbn [eat_wss] in K. rewrite K, Eb. reflexivity.
    + intros whole. eexists. split; [reflexivity|]. cbn [length_of]. now rewrite (Va whole), (Vb whole).
Qed.

Lemma num_reads0 d : decimal_ok d -> exists q, reads read_number (num_sst d) q /\ q == decimal_value d.
Proof.
  intros O. destruct (atof_show d [] O I) as (q & E & V). rewrite app_nil_r in E.
  exists q. split; [|exact V]. split; [reflexivity|]. intros r.
  unfold read_number, num_sst. cbn [parse_number t_type t_data ttype_beq]. now rewrite E.
Qed.
Lemma num_reads d : decimal_ok d -> exists v, reads numbers (num_sst d) v /\ exists q, num v = Some q /\ q == decimal_value d.
Proof.
  intros O. destruct (num_reads0 d O) as (q & [S R] & V). exists (CPlain (OT q)). split; [|exists q; now split].
  split; [exact S|]. intros r. unfold numbers, read_calc. rewrite R. reflexivity.
Qed.

Lemma angle_stops u s : eq_ci (of_string (unit_name u)) s = true -> stops s.
Proof.
  intros H. apply (unit_stops [(of_string "deg", DEGREE); (of_string "rad", RADIAN); (of_string "grad", GRAD); (of_string "turn", TURN)] u s); [reflexivity|].
  exists (of_string (unit_name u)). split; [|exact H]. destruct u; cbn; tauto.
Qed.
Lemma angle_unit_read u s : eq_ci (of_string (unit_name u)) s = true -> angle_unit_of s = Some u.
Proof.
  intros H. rewrite eq_ci_sym in H. apply eq_ci_spec in H. unfold angle_unit_of. rewrite !(eq_ci_left _ _ _ H). destruct u; reflexivity.
Qed.
Lemma ang_reads pi w : wang_ok w ->
  exists v, reads angles (ang_sst w) v /\ exists q, ang pi v = Some q /\ q == angle_of pi w.
Proof.
  destruct w as [d u s]. intros [O T]. destruct (dimension_show d s O (angle_stops u s T)) as (q & E & V).
  exists (CPlain (OT (q, u))). split.
  - split; [reflexivity|]. intros r. unfold angles, read_calc, read_angle. cbn [ang_sst parse_angle t_type t_data ttype_beq].
    rewrite E. cbn beta iota. now rewrite (angle_unit_read u s T).
  - eexists. split; [reflexivity|]. unfold resolve_operand, to_radian, angle_of. cbn [fst snd]. destruct u; cbn [per_turn]; rewrite V; try reflexivity; field.
Qed.

(** ** Names of functions *)
Lemma is_func_name name n m : t_type name = FUNCTION -> eq_ci (t_data name) (of_string n) = true ->
  is_func name m = eq_ci (of_string n) (of_string m).
Proof.
  intros T E. unfold is_func, token_eqb. rewrite T. cbn [t_type t_data ttype_beq andb].
  apply eq_ci_spec in E. exact (eq_ci_left _ _ _ E).
Qed.
