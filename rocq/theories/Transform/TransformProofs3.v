(** Lemmas for TransformProps.v: the attribute of SVG, and SVG viewports *)
From Coq Require Import String List NArith ZArith QArith Qminmax Qfield Bool Lia Lqa Setoid Morphisms.
From Verif.Base Require Import Str.
From Verif.Css Require Import LexerModel ParserModel.
From Verif.Values Require Import Number LengthModel LengthSpec LengthProps CalcModel CalcProps ColorModel ColorSpec ColorProofs.
From Verif.Transform Require Import TransformModel TransformSpec TransformProofs TransformProofs2.
Import ListNotations.
Local Open Scope list_scope.
Local Open Scope Q_scope.

Lemma blank_with_unit u b : blank b -> map (with_unit u) b = b.
Proof. induction 1 as [|s b [d ->] _ IH]; [reflexivity|]. cbn. now rewrite IH. Qed.
Definition dim_sst (u : string) (d : decimal) : sst := TOK (mkT DIMENSION (show_decimal d ++ of_string u)).
Lemma numbers_plain ds l : numbers_text ds l -> args_text (map num_sst ds) l.
Proof. induction 1; cbn [map]; [now apply args_one|now apply args_comma|now apply args_blank]. Qed.
Lemma numbers_unit u ds l : numbers_text ds l -> args_text (map (dim_sst u) ds) (map (with_unit u) l).
Proof.
  induction 1 as [d b B|d ds b1 b2 l B1 B2 _ IH|d ds b l B _ IH]; cbn [map].
  - rewrite (blank_with_unit u b B). now apply args_one.
  - rewrite map_app. cbn [map]. rewrite map_app, (blank_with_unit u b1 B1), (blank_with_unit u b2 B2). now apply args_comma.
  - rewrite map_app, (blank_with_unit u b B). now apply args_blank.
Qed.

Section Attribute.
Variables sine cosine tangent : Q -> Q.
Variable pi : Q.
Hypothesis sine_eq : forall x y, x == y -> sine x == sine y.
Hypothesis cosine_eq : forall x y, x == y -> cosine x == cosine y.
Hypothesis tangent_eq : forall x y, x == y -> tangent x == tangent y.
Hypothesis tangent_0 : tangent 0 == 0.
Variable fmt : Q -> str.
(** The number that is printed for a number *)
Variable shown : Q -> Q.
Hypothesis shown_eq : forall x y, x == y -> shown x == shown y.
Hypothesis printed : forall q, exists d, decimal_ok d /\ fmt q = show_decimal d /\ decimal_value d == shown q.

Definition px (d : decimal) : wlen := W (WAbs d PX (of_string "px")).
Definition deg (d : decimal) : wang := WAng d DEGREE (of_string "deg").
(** The function of CSS that the function of SVG is turned into *)
Definition at_matrix (a x y : Q) (f : wfun) : Prop :=
  let c := cosine (a * pi / 180) in
  let s := sine (a * pi / 180) in
  exists d1 d2 d3 d4 d5 d6, f = FMatrix d1 d2 d3 d4 d5 d6 /\ Forall decimal_ok [d1; d2; d3; d4; d5; d6] /\
    decimal_value d1 == shown c /\ decimal_value d2 == shown s /\ decimal_value d3 == shown (- s) /\ decimal_value d4 == shown c /\
    decimal_value d5 == shown (x - x * c + y * s) /\ decimal_value d6 == shown (y - x * s - y * c).
Definition turned (s : sfun) (f : wfun) : Prop :=
  match s with
  | SMatrix a b c d e g => f = FMatrix a b c d e g
  | STranslate x => f = FTranslate (px x)
  | STranslate2 x y => f = FTranslate2 (px x) (px y)
  | SScale x => f = FScale x
  | SScale2 x y => f = FScale2 x y
  | SRotate a => f = FRotate (deg a)
  | SRotateAt a x y => at_matrix (decimal_value a) (decimal_value x) (decimal_value y) f
  | SSkewX a => f = FSkewX (deg a)
  | SSkewY a => f = FSkewY (deg a)
  end.

Definition sname (name : token) (n : string) : Prop := t_type name = FUNCTION /\ eq_ci (t_data name) (of_string n) = true.

Lemma rotate_args_one d b l : decimal_ok d -> blank b -> numbers_text [d] l -> rotate_args (b ++ l) = None.
Proof.
  intros O B T. destruct (args_next _ [] l (numbers_plain _ _ T) (Forall_nil _)) as (r & -> & E & _).
  destruct (num_reads0 d O) as (q & [S R] & _). unfold rotate_args.
  rewrite (eat_blank b _ B), (eat_solid _ _ S), R, E. reflexivity.
Qed.
Lemma rotate_args_three a x y b l : decimal_ok a -> decimal_ok x -> decimal_ok y -> blank b -> numbers_text [a; x; y] l ->
  exists qa qx qy, rotate_args (b ++ l) = Some (qa, qx, qy) /\ qa == decimal_value a /\ qx == decimal_value x /\ qy == decimal_value y.
Proof.
  intros Oa Ox Oy B T. apply numbers_plain in T. cbn [map] in T.
  destruct (args_next _ [num_sst x; num_sst y] l T) as (r & -> & T1); [repeat (constructor; [reflexivity|]); constructor|].
  destruct (args_next _ [num_sst y] (comma r) T1) as (r1 & E1 & T2); [repeat (constructor; [reflexivity|]); constructor|].
  destruct (args_next _ [] (comma r1) T2 (Forall_nil _)) as (r2 & E2 & _ & E3).
  destruct (num_reads0 a Oa) as (qa & [Sa Ra] & Va), (num_reads0 x Ox) as (qx & [Sx Rx] & Vx), (num_reads0 y Oy) as (qy & [Sy Ry] & Vy).
  exists qa, qx, qy. split; [|auto]. unfold rotate_args. rewrite (eat_blank b _ B), (eat_solid _ _ Sa), Ra, E1, Rx, E2, Ry, E3. reflexivity.
Qed.

Lemma matrix_written t : exists d1 d2 d3 d4 d5 d6, Forall decimal_ok [d1; d2; d3; d4; d5; d6] /\
  loose_text (FMatrix d1 d2 d3 d4 d5 d6) (matrix_sst fmt t) /\
  decimal_value d1 == shown (xx t) /\ decimal_value d2 == shown (xy t) /\ decimal_value d3 == shown (yx t) /\
  decimal_value d4 == shown (yy t) /\ decimal_value d5 == shown (ox t) /\ decimal_value d6 == shown (oy t).
Proof.
  destruct (printed (xx t)) as (d1 & O1 & F1 & V1), (printed (xy t)) as (d2 & O2 & F2 & V2), (printed (yx t)) as (d3 & O3 & F3 & V3),
    (printed (yy t)) as (d4 & O4 & F4 & V4), (printed (ox t)) as (d5 & O5 & F5 & V5), (printed (oy t)) as (d6 & O6 & F6 & V6).
  exists d1, d2, d3, d4, d5, d6. repeat split; try assumption; [repeat (constructor; [assumption|]); constructor|].
  unfold matrix_sst, number_token. rewrite F1, F2, F3, F4, F5, F6.
  eexists _, [], _. cbn [app]. split; [reflexivity|]. split; [reflexivity|]. split; [reflexivity|]. split; [constructor|].
  assert (S1 : blank [space_token]) by (constructor; [eexists; reflexivity|constructor]).
  assert (S0 : blank []) by constructor.
  cbn [wfun_args map].
  refine (args_comma _ _ [] [space_token] _ S0 S1 _). refine (args_comma _ _ [] [space_token] _ S0 S1 _).
  refine (args_comma _ _ [] [space_token] _ S0 S1 _). refine (args_comma _ _ [] [space_token] _ S0 S1 _).
  refine (args_comma _ _ [] [space_token] _ S0 S1 _). exact (args_one _ [] S0).
Qed.

Ltac fixes := match goal with T : t_type ?n = FUNCTION, N : eq_ci (t_data ?n) _ = true |- _ =>
  rewrite ?(is_func_name n _ _ T N); cbn [sfun_name];
  repeat match goal with |- context [eq_ci (of_string ?x) (of_string ?y)] =>
    let b := eval vm_compute in (eq_ci (of_string x) (of_string y)) in
    change (eq_ci (of_string x) (of_string y)) with b; cbn beta iota delta [orb] end end.

(** A function without a center *)
Lemma fixed_function f s : has_center f = false -> sfun_text f s -> exists g, turned f g /\ wfun_ok g /\ loose_text g (fix_function s).
Proof.
  intros C (name & b & l & -> & T & N & B & A & O). cbn [fix_function].
  pose proof (numbers_plain _ _ A) as P. pose proof (numbers_unit "px" _ _ A) as Px. pose proof (numbers_unit "deg" _ _ A) as Pd.
  destruct f as [a1 b1 c1 d1 e1 f1|x|x y|x|x y|a|a x y|a|a]; cbn [has_center] in C; try discriminate C; fixes;
    cbn [sfun_args map] in P, Px, Pd, O.
  - eexists. split; [reflexivity|]. split; [exact O|]. exists name, b, l. repeat split; assumption.
  - inversion O; subst. eexists. split; [reflexivity|]. split; [split; [assumption|exists (of_string "PX"); split; [unfold aunits; repeat (first [left; reflexivity | right])|reflexivity]]|].
    exists name, b, (map (with_unit "px") l). rewrite map_app, (blank_with_unit _ b B). repeat split; assumption.
  - inversion O as [|? ? O1 O2]; inversion O2; subst. eexists. split; [reflexivity|].
    split; [split; (split; [assumption|exists (of_string "PX"); split; [unfold aunits; repeat (first [left; reflexivity | right])|reflexivity]])|].
    exists name, b, (map (with_unit "px") l). rewrite map_app, (blank_with_unit _ b B). repeat split; assumption.
  - inversion O; subst. eexists. split; [reflexivity|]. split; [assumption|]. exists name, b, l. repeat split; assumption.
  - inversion O as [|? ? O1 O2]; inversion O2; subst. eexists. split; [reflexivity|]. split; [split; assumption|].
    exists name, b, l. repeat split; assumption.
  - inversion O; subst. eexists. split; [reflexivity|]. split; [split; [assumption|reflexivity]|].
    exists name, b, (map (with_unit "deg") l). rewrite map_app, (blank_with_unit _ b B). repeat split; assumption.
  - inversion O; subst. eexists. split; [reflexivity|]. split; [split; [assumption|reflexivity]|].
    exists name, b, (map (with_unit "deg") l). rewrite map_app, (blank_with_unit _ b B). repeat split; assumption.
  - inversion O; subst. eexists. split; [reflexivity|]. split; [split; [assumption|reflexivity]|].
    exists name, b, (map (with_unit "deg") l). rewrite map_app, (blank_with_unit _ b B). repeat split; assumption.
Qed.

Lemma blank_fix b : blank b -> map fix_function b = b.
Proof. induction 1 as [|s b [d ->] _ IH]; [reflexivity|]. cbn. now rewrite IH. Qed.
Lemma blank_expand b l : blank b -> expand_rotate sine cosine pi fmt (b ++ l) = b ++ expand_rotate sine cosine pi fmt l.
Proof. induction 1 as [|s b [d ->] _ IH]; [reflexivity|]. cbn. now rewrite IH. Qed.

Lemma fixed_list fs l : forallb (fun f => negb (has_center f)) fs = true -> svg_text fs l ->
  exists gs, Forall2 turned fs gs /\ Forall wfun_ok gs /\ loose_list gs (map fix_function l).
Proof.
  intros C H. induction H as [|f fs s b l F B H IH]; [exists []; repeat constructor|].
  cbn [forallb] in C. apply andb_true_iff in C as [C1 C2]. apply negb_true_iff in C1.
  destruct (IH C2) as (gs & D & O & T). destruct (fixed_function f s C1 F) as (g & Dg & Og & Tg).
  exists (g :: gs). split; [now constructor|]. split; [now constructor|]. cbn [map]. rewrite map_app, (blank_fix b B). now constructor.
Qed.

Lemma expanded_list fs l : centers_first fs -> svg_text fs l ->
  exists gs, Forall2 turned fs gs /\ Forall wfun_ok gs /\ loose_list gs (map fix_function (expand_rotate sine cosine pi fmt l)).
Proof.
  intros C H. induction H as [|f fs s b l F B H IH]; [exists []; repeat constructor|].
  destruct (has_center f) eqn:E.
  - (* rotate with a center *)
    destruct f as [| | | | | |a x y| |]; try discriminate E. cbn [centers_first] in C. destruct (IH C) as (gs & D & O & T). clear IH.
    destruct F as (name & b0 & l0 & -> & Tn & N & B0 & A & Oa). cbn [expand_rotate].
    rewrite (is_func_name name _ _ Tn N). cbn [sfun_name]. change (eq_ci (of_string "rotate(") (of_string "rotate(")) with true. cbn beta iota.
    cbn [sfun_args] in A, Oa. inversion Oa as [|? ? O1 O2]; inversion O2 as [|? ? O3 O4]; inversion O4 as [|? ? O5 _]; subst.
    destruct (rotate_args_three a x y b0 l0 O1 O3 O5 B0 A) as (qa & qx & qy & -> & Va & Vx & Vy).
    destruct (matrix_written (translated (rotated sine cosine (translated identity (qx, qy)) (qa * pi / 180)) (- qx, - qy)))
      as (d1 & d2 & d3 & d4 & d5 & d6 & Od & Td & V1 & V2 & V3 & V4 & V5 & V6).
    assert (Vc : cosine (qa * pi / 180) == cosine (decimal_value a * pi / 180)) by (apply cosine_eq; now rewrite Va).
    assert (Vs : sine (qa * pi / 180) == sine (decimal_value a * pi / 180)) by (apply sine_eq; now rewrite Va).
    exists (FMatrix d1 d2 d3 d4 d5 d6 :: gs). split; [|split; [now constructor|]].
    + constructor; [|exact D]. cbn [turned]. exists d1, d2, d3, d4, d5, d6. split; [reflexivity|]. split; [exact Od|].
      rewrite V1, V2, V3, V4, V5, V6. cbn [translated rotated rotate translate identity multiply fst snd xx xy yx yy ox oy].
      repeat split; apply shown_eq; rewrite ?Vc, ?Vs, ?Vx, ?Vy; ring.
    + rewrite (blank_expand b l B). cbn [map]. rewrite map_app, (blank_fix b B). constructor; [|exact B|exact T].
      exact Td.
  - destruct (fixed_function f s E F) as (g & Dg & Og & Tg). destruct F as (name & b0 & l0 & -> & Tn & N & B0 & A & Oa).
    destruct f as [a1 b1 c1 d1 e1 f1|x|x y|x|x y|a|a x y|a|a]; try discriminate E.
    6: { (* rotate without a center: the rest is left as it is *)
      cbn [centers_first] in C. destruct (fixed_list fs l C H) as (gs & D & O & T).
      exists (g :: gs). split; [now constructor|]. split; [now constructor|]. cbn [expand_rotate].
      rewrite (is_func_name name _ _ Tn N). cbn [sfun_name]. change (eq_ci (of_string "rotate(") (of_string "rotate(")) with true. cbn beta iota.
      cbn [sfun_args] in A, Oa. inversion Oa as [|? ? O1 _]; subst.
      rewrite (rotate_args_one a b0 l0 O1 B0 A). cbn [map]. rewrite map_app, (blank_fix b B). now constructor. }
    all: cbn [centers_first] in C; destruct (IH C) as (gs & D & O & T); exists (g :: gs);
      (split; [now constructor|]); (split; [now constructor|]); cbn [expand_rotate];
      rewrite (is_func_name name _ _ Tn N); cbn [sfun_name];
      match goal with |- context [eq_ci (of_string ?x) (of_string ?y)] => change (eq_ci (of_string x) (of_string y)) with false end; cbn beta iota;
      rewrite (blank_expand b l B); cbn [map]; rewrite map_app, (blank_fix b B); now constructor.
Qed.

(** The effect, with the numbers that are printed *)
Definition printed_effect (f : sfun) (p : point) : point :=
  match f with
  | SRotateAt a x y =>
    let c := cosine (decimal_value a * pi / 180) in
    let s := sine (decimal_value a * pi / 180) in
    let dx := decimal_value x in
    let dy := decimal_value y in
    (shown c * fst p + shown (- s) * snd p + shown (dx - dx * c + dy * s),
     shown s * fst p + shown c * snd p + shown (dy - dx * s - dy * c))
  | f => sfun_effect sine cosine tangent pi f p
  end.
Lemma turned_effect w h f g p : turned f g -> effect sine cosine tangent pi w h g p ≡ printed_effect f p.
Proof.
  assert (Ha : forall a, angle_of pi (deg a) == decimal_value a * pi / 180) by (intros a; unfold deg, angle_of, per_turn; field).
  assert (Hp : forall d k, length_of (px d) k == decimal_value d) by (intros d k; unfold px, length_of, term_of, per_inch; field).
  destruct f as [a1 b1 c1 d1 e1 f1|x|x y|x|x y|a|a x y|a|a]; cbn [turned].
  1-6: intros ->. 8-9: intros ->.
  7: intros (d1 & d2 & d3 & d4 & d5 & d6 & -> & _ & V1 & V2 & V3 & V4 & V5 & V6);
     split; cbn [effect printed_effect fst snd]; rewrite ?V1, ?V2, ?V3, ?V4, ?V5, ?V6; reflexivity.
  all: split; cbn [effect printed_effect sfun_effect plus turn fst snd]; rewrite ?Hp; try reflexivity;
    try pose proof (sine_eq _ _ (Ha a)) as Es; try pose proof (cosine_eq _ _ (Ha a)) as Ec; try pose proof (tangent_eq _ _ (Ha a)) as Et;
    rewrite ?Es, ?Ec, ?Et; reflexivity.
Qed.
Lemma printed_same f : Proper (same ==> same) (printed_effect f).
Proof.
  intros p q [E1 E2].
  destruct f; split; cbn [printed_effect sfun_effect plus turn around minus fst snd]; now rewrite ?E1, ?E2.
Qed.
Lemma turned_effects w h fs gs p : Forall2 turned fs gs ->
  effects sine cosine tangent pi w h gs p ≡ fold_right printed_effect p fs.
Proof.
  induction 1 as [|f g fs gs D _ IH]; [reflexivity|]. cbn [effects fold_right].
  change (fold_right (effect sine cosine tangent pi w h) p gs) with (effects sine cosine tangent pi w h gs p).
  rewrite (turned_effect w h f g _ D). now apply printed_same.
Qed.
End Attribute.

(** ** SVG viewports *)
Lemma viewport_on vb pos size t : viewport_transform vb pos size = Some t ->
  let s := Qmin (fst size / r_w vb) (snd size / r_h vb) in
  ~ r_w vb == 0 /\ ~ r_h vb == 0 /\
  forall p, on t p ≡ (fst pos + (fst size - r_w vb * s) / 2 + (fst p - r_x vb) * s, snd pos + (snd size - r_h vb * s) / 2 + (snd p - r_y vb) * s).
Proof.
  unfold viewport_transform. destruct (Qeq_bool (r_w vb) 0) eqn:W; [discriminate|]. destruct (Qeq_bool (r_h vb) 0) eqn:H; [discriminate|].
  cbn [orb]. intros E. injection E as <-. apply Qeq_bool_neq in W, H. split; [exact W|]. split; [exact H|].
  intros p. split; cbn [on scaled scale translate multiply fst snd xx xy yx yy ox oy]; field.
Qed.

(** ** A rotation with a center after one without *)
Lemma read_functions_step name content t b l : function_of name content = Some t -> blank b -> read_functions l = None ->
  read_functions (FUNC name content :: b ++ l) = None.
Proof.
  intros E B N. cbn [read_functions]. rewrite E. induction B as [|s b [d ->] _ IH]; [|exact IH]. cbn [app].
  destruct l as [|[]]; try discriminate N. now rewrite N.
Qed.
Lemma read_functions_stop name content b : function_of name content = None -> read_functions (FUNC name content :: b) = None.
Proof. intros E. cbn [read_functions]. now rewrite E. Qed.

Section Stops.
Variables sine cosine tangent : Q -> Q.
Variable pi : Q.
Variable fmt : Q -> str.
Hypothesis printed : forall q, exists d, decimal_ok d /\ fmt q = show_decimal d.

Lemma ok_reads f s : wfun_ok f -> loose_text f s -> exists name content t, s = FUNC name content /\ function_of name content = Some t.
Proof.
  intros O T. destruct (function_read (fun _ => 0) (fun _ => 0) (fun _ => 0) 0) with (f := f) (s := s) as (n & c & t & E & F & _); eauto; reflexivity.
Qed.
Lemma center_fails a x y s : sfun_text (SRotateAt a x y) s -> exists name content, fix_function s = FUNC name content /\ function_of name content = None.
Proof.
  intros (name & b & l & -> & T & N & B & A & O). cbn [sfun_args] in *. inversion O as [|? ? Oa _]; subst.
  exists name, (map (with_unit "deg") (b ++ l)). cbn [fix_function]. unfold function_of. rewrite !(is_func_name name _ _ T N). cbn [sfun_name].
  repeat match goal with |- context [eq_ci (of_string ?x) (of_string ?y)] =>
    let b := eval vm_compute in (eq_ci (of_string x) (of_string y)) in
    change (eq_ci (of_string x) (of_string y)) with b; cbn beta iota delta [orb] end.
  split; [reflexivity|]. rewrite map_app, (blank_with_unit _ b B).
  assert (one_value angles (b ++ map (with_unit "deg") l) = None) as ->; [|reflexivity].
  assert (R : reads angles (dim_sst "deg" a) (CPlain (OT (fst (dimension (show_decimal a ++ of_string "deg")), DEGREE)))).
  { split; [reflexivity|]. intros r. unfold angles, read_calc, read_angle, dim_sst. cbn [parse_angle t_type t_data ttype_beq].
    destruct (dimension_show a (of_string "deg") Oa) as (q & E & _); [split; [reflexivity|discriminate]|]. now rewrite E. }
  assert (K : forall l', args_text [dim_sst "deg" a; dim_sst "deg" x; dim_sst "deg" y] l' -> exists r, l' = dim_sst "deg" a :: r /\ eat_wss r <> []).
  { intros l' H. inversion H as [|? ? b1 b2 k B1 B2 H1|? ? b1 k B1 H1]; subst; (eexists; split; [reflexivity|]).
    - rewrite (eat_blank b1 _ B1). discriminate.
    - rewrite (eat_blank b1 _ B1). destruct (args_head _ _ _ H1) as [k' ->]. discriminate. }
  destruct (K _ (numbers_unit "deg" _ _ A)) as (r & -> & NE).
  unfold one_value. rewrite (eat_blank b _ B), (eat_solid _ _ (proj1 R)), (proj2 R). destruct (eat_wss r); [contradiction|reflexivity].
Qed.

Lemma rest_fails fs l : forallb (fun f => negb (has_center f)) fs = false -> svg_text fs l -> read_functions (map fix_function l) = None.
Proof.
  intros C H. induction H as [|f fs s b l F B H IH]; [discriminate|]. cbn [map]. rewrite map_app, (blank_fix b B).
  destruct (has_center f) eqn:E.
  - destruct f; try discriminate E. destruct (center_fails _ _ _ _ F) as (n & c & -> & N). now apply read_functions_stop.
  - cbn [forallb] in C. rewrite E in C. cbn [negb andb] in C.
    destruct (fixed_function (fun _ => 0) (fun _ => 0) 0 (fun q => q) f s E F) as (g & _ & Og & Tg).
    destruct (ok_reads g _ Og Tg) as (n & c & t & -> & R). apply (read_functions_step n c t _ _ R B); now apply IH.
Qed.
Lemma matrix_reads t : exists n c m, matrix_sst fmt t = FUNC n c /\ function_of n c = Some m.
Proof.
  destruct (printed (xx t)) as (d1 & O1 & F1), (printed (xy t)) as (d2 & O2 & F2), (printed (yx t)) as (d3 & O3 & F3),
    (printed (yy t)) as (d4 & O4 & F4), (printed (ox t)) as (d5 & O5 & F5), (printed (oy t)) as (d6 & O6 & F6).
  destruct (num_reads d1 O1) as (v1 & [_ R1] & _), (num_reads d2 O2) as (v2 & [_ R2] & _), (num_reads d3 O3) as (v3 & [_ R3] & _),
    (num_reads d4 O4) as (v4 & [_ R4] & _), (num_reads d5 O5) as (v5 & [_ R5] & _), (num_reads d6 O6) as (v6 & [_ R6] & _).
  assert (K : forall d r, comma (comma_token :: space_token :: num_sst d :: r) = num_sst d :: r) by reflexivity.
  eexists _, _, (Matrix v1 v2 v3 v4 v5 v6). split; [reflexivity|].
  unfold function_of. change (is_func _ "matrix(") with true. cbn beta iota. unfold matrix_of, number_token.
  rewrite F1, F2, F3, F4, F5, F6.
  change (TOK (mkT NUMBER (show_decimal d1))) with (num_sst d1). change (TOK (mkT NUMBER (show_decimal d2))) with (num_sst d2).
  change (TOK (mkT NUMBER (show_decimal d3))) with (num_sst d3). change (TOK (mkT NUMBER (show_decimal d4))) with (num_sst d4).
  change (TOK (mkT NUMBER (show_decimal d5))) with (num_sst d5). change (TOK (mkT NUMBER (show_decimal d6))) with (num_sst d6).
  rewrite (eat_solid (num_sst d1) _ eq_refl). fold numbers. cbn [read_list].
  rewrite R1, K, R2, K, R3, K, R4, K, R5, K, R6. reflexivity.
Qed.
Lemma late_center_fails fs l : ~ centers_first fs -> svg_text fs l ->
  read_functions (map fix_function (expand_rotate sine cosine pi fmt l)) = None.
Proof.
  intros C H. induction H as [|f fs s b l F B H IH]; [now contradiction C|].
  destruct (has_center f) eqn:E.
  - destruct f as [| | | | | |a x y| |]; try discriminate E. cbn [centers_first] in C.
    destruct F as (name & b0 & l0 & -> & Tn & N & B0 & A & Oa). cbn [expand_rotate].
    rewrite (is_func_name name _ _ Tn N). cbn [sfun_name]. change (eq_ci (of_string "rotate(") (of_string "rotate(")) with true. cbn beta iota.
    cbn [sfun_args] in A, Oa. inversion Oa as [|? ? O1 O2]; inversion O2 as [|? ? O3 O4]; inversion O4 as [|? ? O5 _]; subst.
    destruct (rotate_args_three a x y b0 l0 O1 O3 O5 B0 A) as (qa & qx & qy & -> & _).
    rewrite (blank_expand sine cosine pi fmt b l B). cbn [map]. rewrite map_app, (blank_fix b B).
    destruct (matrix_reads (translated (rotated sine cosine (translated identity (qx, qy)) (qa * pi / 180)) (- qx, - qy))) as (n & c & m & Em & R).
    assert (fix_function (matrix_sst fmt (translated (rotated sine cosine (translated identity (qx, qy)) (qa * pi / 180)) (- qx, - qy))) = FUNC n c) as ->
      by (rewrite <- Em; reflexivity).
    apply (read_functions_step n c m); auto.
  - destruct (fixed_function (fun _ => 0) (fun _ => 0) 0 (fun q => q) f s E F) as (g & _ & Og & Tg).
    destruct (ok_reads g _ Og Tg) as (n & c & t & Ef & R). destruct F as (name & b0 & l0 & -> & Tn & N & B0 & A & Oa).
    destruct f as [a1 b1 c1 d1 e1 f1|x|x y|x|x y|a|a x y|a|a]; try discriminate E.
    6: { cbn [centers_first] in C. cbn [expand_rotate].
      rewrite (is_func_name name _ _ Tn N). cbn [sfun_name]. change (eq_ci (of_string "rotate(") (of_string "rotate(")) with true. cbn beta iota.
      cbn [sfun_args] in A, Oa. inversion Oa as [|? ? O1 _]; subst.
      rewrite (rotate_args_one a b0 l0 O1 B0 A). cbn [map]. rewrite map_app, (blank_fix b B), Ef.
      apply (read_functions_step n c t _ _ R B), (rest_fails fs l); [|exact H]. now apply not_true_is_false. }
    all: cbn [centers_first] in C; cbn [expand_rotate]; rewrite (is_func_name name _ _ Tn N); cbn [sfun_name];
      match goal with |- context [if eq_ci (of_string ?x) (of_string ?y) then _ else _] => change (eq_ci (of_string x) (of_string y)) with false end; cbn beta iota;
      rewrite (blank_expand sine cosine pi fmt b l B); cbn [map]; rewrite map_app, (blank_fix b B), Ef; apply (read_functions_step n c t _ _ R B); now apply IH.
Qed.
End Stops.
