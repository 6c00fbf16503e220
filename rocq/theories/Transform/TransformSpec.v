(** What CSS Transforms 1 and SVG say about transforms, without the functions of TransformModel.v. *)
From Coq Require Import String List NArith ZArith QArith Qminmax Bool.
From Verif.Base Require Import Str.
From Verif.Css Require Import LexerModel ParserModel.
From Verif.Values Require Import Number LengthModel LengthSpec ColorModel.
From Verif.Transform Require Import TransformModel.
Import ListNotations.
Local Open Scope list_scope.
Local Open Scope Q_scope.

(** Points are the same when their coordinates are equal numbers. *)
Definition same (p q : point) : Prop := fst p == fst q /\ snd p == snd q.
Infix "≡" := same (at level 70).
Definition plus (p q : point) : point := (fst p + fst q, snd p + snd q).
Definition minus (p q : point) : point := (fst p - fst q, snd p - snd q).

(** ** Functions as they are written *)

(** A percentage, a length in an absolute unit, a zero; the sum or difference of two such, in a [calc()]; an
    angle. A unit is written in any capitalisation. *)
Inductive wterm := WPct (d : decimal) | WAbs (d : decimal) (u : aunit) (s : str) | WZero.
Inductive wlen := W (t : wterm) | WPlus (a b : wterm) | WMinus (a b : wterm).
Inductive wang := WAng (d : decimal) (u : angle_unit) (s : str).

Definition unit_name (u : angle_unit) : string :=
  match u with DEGREE => "deg" | RADIAN => "rad" | GRAD => "grad" | TURN => "turn" end.
Definition wterm_ok (w : wterm) : Prop :=
  match w with
  | WPct d => decimal_ok d
  | WAbs d u s => decimal_ok d /\ exists n, In (n, u) aunits /\ eq_ci n s = true
  | WZero => True
  end.
Definition wlen_ok (w : wlen) : Prop := match w with W t => wterm_ok t | WPlus a b | WMinus a b => wterm_ok a /\ wterm_ok b end.
Definition wang_ok (w : wang) : Prop :=
  match w with WAng d u s => decimal_ok d /\ eq_ci (of_string (unit_name u)) s = true end.

Definition num_sst (d : decimal) : sst := TOK (mkT NUMBER (show_decimal d)).
Definition term_sst (w : wterm) : sst :=
  match w with
  | WPct d => TOK (mkT PERCENTAGE (show_decimal d ++ of_string "%"))
  | WAbs d _ s => TOK (mkT DIMENSION (show_decimal d ++ s))
  | WZero => TOK (mkT NUMBER (of_string "0"))
  end.
Definition calc_sst (a : wterm) (sign : string) (b : wterm) : sst :=
  let space := TOK (mkT WHITESPACE (of_string " ")) in
  FUNC (mkT FUNCTION (of_string "calc(")) [term_sst a; space; TOK (mkT DELIM (of_string sign)); space; term_sst b].
Definition len_sst (w : wlen) : sst :=
  match w with W t => term_sst t | WPlus a b => calc_sst a "+" b | WMinus a b => calc_sst a "-" b end.
Definition ang_sst (w : wang) : sst := match w with WAng d _ s => TOK (mkT DIMENSION (show_decimal d ++ s)) end.

Inductive wfun :=
| FMatrix (a b c d e f : decimal)
| FTranslateX (x : wlen) | FTranslateY (y : wlen) | FTranslate (x : wlen) | FTranslate2 (x y : wlen)
| FScaleX (x : decimal) | FScaleY (y : decimal) | FScale (x : decimal) | FScale2 (x y : decimal)
| FRotate (a : wang)
| FSkew (x : wang) | FSkew2 (x y : wang) | FSkewX (a : wang) | FSkewY (a : wang).

Definition wfun_name (f : wfun) : string :=
  match f with
  | FMatrix _ _ _ _ _ _ => "matrix("
  | FTranslateX _ => "translateX(" | FTranslateY _ => "translateY(" | FTranslate _ | FTranslate2 _ _ => "translate("
  | FScaleX _ => "scaleX(" | FScaleY _ => "scaleY(" | FScale _ | FScale2 _ _ => "scale("
  | FRotate _ => "rotate("
  | FSkew _ | FSkew2 _ _ => "skew(" | FSkewX _ => "skewX(" | FSkewY _ => "skewY("
  end.
Definition wfun_args (f : wfun) : list sst :=
  match f with
  | FMatrix a b c d e f => map num_sst [a; b; c; d; e; f]
  | FTranslateX x | FTranslateY x | FTranslate x => [len_sst x]
  | FTranslate2 x y => [len_sst x; len_sst y]
  | FScaleX x | FScaleY x | FScale x => [num_sst x]
  | FScale2 x y => [num_sst x; num_sst y]
  | FRotate a | FSkew a | FSkewX a | FSkewY a => [ang_sst a]
  | FSkew2 x y => [ang_sst x; ang_sst y]
  end.
Definition wfun_ok (f : wfun) : Prop :=
  match f with
  | FMatrix a b c d e f => Forall decimal_ok [a; b; c; d; e; f]
  | FTranslateX x | FTranslateY x | FTranslate x => wlen_ok x
  | FTranslate2 x y => wlen_ok x /\ wlen_ok y
  | FScaleX x | FScaleY x | FScale x => decimal_ok x
  | FScale2 x y => decimal_ok x /\ decimal_ok y
  | FRotate a | FSkew a | FSkewX a | FSkewY a => wang_ok a
  | FSkew2 x y => wang_ok x /\ wang_ok y
  end.

(** Components that are nothing but white space *)
Definition blank (l : list sst) : Prop := Forall (fun s => exists d, s = TOK (mkT WHITESPACE d)) l.
(** Arguments with a comma between them, and white space wherever one likes *)
Inductive commas : list sst -> list sst -> Prop :=
| commas_one s b : blank b -> commas [s] (s :: b)
| commas_more s args b1 b2 l : blank b1 -> blank b2 -> commas args l ->
    commas (s :: args) (s :: b1 ++ TOK (mkT COMMA (of_string ",")) :: b2 ++ l).
Definition function_text (f : wfun) (s : sst) : Prop :=
  exists name b l, s = FUNC name (b ++ l) /\ t_type name = FUNCTION /\ eq_ci (t_data name) (of_string (wfun_name f)) = true /\
    blank b /\ commas (wfun_args f) l.
(** Functions one after the other, with white space between them wherever one likes *)
Inductive list_text : list wfun -> list sst -> Prop :=
| text_nil : list_text [] []
| text_cons f fs s b l : function_text f s -> blank b -> list_text fs l -> list_text (f :: fs) (s :: b ++ l).

(** ** What they do to points *)
Section Effects.
Variables sine cosine tangent : Q -> Q.
Variable pi : Q.

Definition term_of (w : wterm) (whole : Q) : Q :=
  match w with
  | WPct d => decimal_value d * whole / 100
  | WAbs d u _ => decimal_value d * 96 / per_inch u
  | WZero => 0
  end.
Definition length_of (w : wlen) (whole : Q) : Q :=
  match w with
  | W t => term_of t whole
  | WPlus a b => term_of a whole + term_of b whole
  | WMinus a b => term_of a whole - term_of b whole
  end.
(** There are 360 degrees, 400 gradians, 2 pi radians in a full turn. *)
Definition per_turn (u : angle_unit) : Q := match u with DEGREE => 360 | GRAD => 400 | RADIAN => 2 * pi | TURN => 1 end.
Definition angle_of (w : wang) : Q :=
  match w with WAng d RADIAN _ => decimal_value d | WAng d u _ => decimal_value d * (2 * pi) / per_turn u end.

Definition turn (a : Q) (p : point) : point := (fst p * cosine a - snd p * sine a, fst p * sine a + snd p * cosine a).
Definition slant (x y : Q) (p : point) : point := (fst p + snd p * tangent x, snd p + fst p * tangent y).

(** The effect of a function, in a reference box of width [w] and height [h] *)
Definition effect (w h : Q) (f : wfun) (p : point) : point :=
  let dv := decimal_value in
  match f with
  | FMatrix a b c d e f => (dv a * fst p + dv c * snd p + dv e, dv b * fst p + dv d * snd p + dv f)
  | FTranslateX x | FTranslate x => plus p (length_of x w, 0)
  | FTranslateY y => plus p (0, length_of y h)
  | FTranslate2 x y => plus p (length_of x w, length_of y h)
  | FScaleX x => (dv x * fst p, snd p)
  | FScaleY y => (fst p, dv y * snd p)
  | FScale x => (dv x * fst p, dv x * snd p)
  | FScale2 x y => (dv x * fst p, dv y * snd p)
  | FRotate a => turn (angle_of a) p
  | FSkewX a | FSkew a => (fst p + snd p * tangent (angle_of a), snd p)
  | FSkewY a => (fst p, snd p + fst p * tangent (angle_of a))
  | FSkew2 x y => slant (angle_of x) (angle_of y) p
  end.
(** The functions of a list act one after the other, the last one first. *)
Definition effects (w h : Q) (fs : list wfun) (p : point) : point := fold_right (effect w h) p fs.
(** Around an origin *)
Definition around (o : point) (f : point -> point) (p : point) : point := plus o (f (minus p o)).

End Effects.

(** ** [transform-origin] as it is written *)
Inductive wx := WLeft | WXCenter | WRight | WX (w : wlen).
Inductive wy := WTop | WYCenter | WBottom | WY (w : wlen).
Definition wx_ok (x : wx) : Prop := match x with WX w => wlen_ok w | _ => True end.
Definition wy_ok (y : wy) : Prop := match y with WY w => wlen_ok w | _ => True end.
Definition word (s : str) : sst := TOK (mkT IDENT s).
Definition wx_text (x : wx) (s : sst) : Prop :=
  match x with
  | WLeft => exists k, s = word k /\ eq_ci k (of_string "left") = true
  | WXCenter => exists k, s = word k /\ eq_ci k (of_string "center") = true
  | WRight => exists k, s = word k /\ eq_ci k (of_string "right") = true
  | WX w => s = len_sst w
  end.
Definition wy_text (y : wy) (s : sst) : Prop :=
  match y with
  | WTop => exists k, s = word k /\ eq_ci k (of_string "top") = true
  | WYCenter => exists k, s = word k /\ eq_ci k (of_string "center") = true
  | WBottom => exists k, s = word k /\ eq_ci k (of_string "bottom") = true
  | WY w => s = len_sst w
  end.
Definition x_of (x : wx) (b : rect) : Q :=
  match x with
  | WLeft => r_x b | WXCenter => r_x b + r_w b * (1 # 2) | WRight => r_x b + r_w b
  | WX w => r_x b + length_of w (r_w b)
  end.
Definition y_of (y : wy) (b : rect) : Q :=
  match y with
  | WTop => r_y b | WYCenter => r_y b + r_h b * (1 # 2) | WBottom => r_y b + r_h b
  | WY w => r_y b + length_of w (r_h b)
  end.

(** ** The attribute of SVG: numbers without units *)
Inductive sfun :=
| SMatrix (a b c d e f : decimal) | STranslate (x : decimal) | STranslate2 (x y : decimal)
| SScale (x : decimal) | SScale2 (x y : decimal) | SRotate (a : decimal) | SRotateAt (a x y : decimal)
| SSkewX (a : decimal) | SSkewY (a : decimal).
Definition sfun_name (f : sfun) : string :=
  match f with
  | SMatrix _ _ _ _ _ _ => "matrix(" | STranslate _ | STranslate2 _ _ => "translate(" | SScale _ | SScale2 _ _ => "scale("
  | SRotate _ | SRotateAt _ _ _ => "rotate(" | SSkewX _ => "skewX(" | SSkewY _ => "skewY("
  end.
Definition sfun_args (f : sfun) : list decimal :=
  match f with
  | SMatrix a b c d e f => [a; b; c; d; e; f]
  | STranslate x | SScale x | SRotate x | SSkewX x | SSkewY x => [x]
  | STranslate2 x y | SScale2 x y => [x; y]
  | SRotateAt a x y => [a; x; y]
  end.
(** Numbers with a comma, white space, or both between them *)
Inductive numbers_text : list decimal -> list sst -> Prop :=
| nums_one d b : blank b -> numbers_text [d] (num_sst d :: b)
| nums_comma d ds b1 b2 l : blank b1 -> blank b2 -> numbers_text ds l ->
    numbers_text (d :: ds) (num_sst d :: b1 ++ TOK (mkT COMMA (of_string ",")) :: b2 ++ l)
| nums_blank d ds b l : blank b -> numbers_text ds l -> numbers_text (d :: ds) (num_sst d :: b ++ l).
Definition sfun_text (f : sfun) (s : sst) : Prop :=
  exists name b l, s = FUNC name (b ++ l) /\ t_type name = FUNCTION /\ eq_ci (t_data name) (of_string (sfun_name f)) = true /\
    blank b /\ numbers_text (sfun_args f) l /\ Forall decimal_ok (sfun_args f).
Inductive svg_text : list sfun -> list sst -> Prop :=
| svg_nil : svg_text [] []
| svg_cons f fs s b l : sfun_text f s -> blank b -> svg_text fs l -> svg_text (f :: fs) (s :: b ++ l).

Section SvgEffects.
Variables sine cosine tangent : Q -> Q.
Variable pi : Q.
(** Lengths are in px and angles in degrees. *)
Definition sfun_effect (f : sfun) (p : point) : point :=
  let dv := decimal_value in
  match f with
  | SMatrix a b c d e f => (dv a * fst p + dv c * snd p + dv e, dv b * fst p + dv d * snd p + dv f)
  | STranslate x => plus p (dv x, 0)
  | STranslate2 x y => plus p (dv x, dv y)
  | SScale x => (dv x * fst p, dv x * snd p)
  | SScale2 x y => (dv x * fst p, dv y * snd p)
  | SRotate a => turn sine cosine (dv a * pi / 180) p
  | SRotateAt a x y => around (dv x, dv y) (turn sine cosine (dv a * pi / 180)) p
  | SSkewX a => (fst p + snd p * tangent (dv a * pi / 180), snd p)
  | SSkewY a => (fst p, snd p + fst p * tangent (dv a * pi / 180))
  end.
Definition svg_effects (fs : list sfun) (p : point) : point := fold_right sfun_effect p fs.
End SvgEffects.
(** No [rotate] with a center comes after one without. *)
Definition has_center (f : sfun) : bool := match f with SRotateAt _ _ _ => true | _ => false end.
Fixpoint centers_first (fs : list sfun) : Prop :=
  match fs with
  | SRotate _ :: fs' => forallb (fun f => negb (has_center f)) fs' = true
  | _ :: fs' => centers_first fs'
  | [] => True
  end.

(** ** SVG viewports *)
(** [q] is in the rectangle. *)
Definition within (b : rect) (q : point) : Prop :=
  r_x b <= fst q <= r_x b + r_w b /\ r_y b <= snd q <= r_y b + r_h b.
