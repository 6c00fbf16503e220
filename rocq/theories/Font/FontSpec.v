(** What CSS (css-fonts-4) says about fonts. *)
From Coq Require Import String List NArith ZArith QArith Bool.
From Verif.Base Require Import Str Outcome.
From Verif.Css Require Import LexerModel ParserModel.
From Verif.Values Require Import Number LengthModel LengthSpec LengthProps ColorModel.
From Verif.Style Require Import CascadeModel CascadeSpec.
From Verif.Props Require Import VarModel EngineModel EngineSpec BoxPropSpec LonghandSpec.
From Verif.Font Require Import FontModel.
Import ListNotations.
Local Open Scope list_scope.
Local Open Scope string_scope.

Definition font_names := ["font-family"; "font-weight"; "font-width"; "font-style"; "font-size"].
(** A property, and the shorthand it is part of. *)
Definition related (n : string) : list string := n :: if existsb (String.eqb n) font_names then ["font"] else [].

(** ** Values *)

(** The name of a family: a string, or identifiers, which are taken with single spaces between them. *)
Fixpoint spaced (d : str) (ds : list str) : str :=
  match ds with [] => d | d' :: ds => (d ++ 32%N :: spaced d' ds)%list end.
Definition word (d : str) : sst := TOK (mkT IDENT d).
(** Identifiers, with any white space around them *)
Definition gap (b : list sst) : Prop := Forall (fun s => exists d, s = TOK (mkT WHITESPACE d)) b.
Inductive words_are : list sst -> list str -> Prop :=
| no_words b : gap b -> words_are b []
| more_words b d w ds : gap b -> words_are w ds -> words_are (b ++ word d :: w)%list (d :: ds).
Inductive family_is : list sst -> str -> Prop :=
| quoted s : family_is [TOK (mkT STRING s)] s
| unquoted d w ds : words_are w ds -> family_is (word d :: w) (spaced d ds).
Definition comma : sst := TOK (mkT COMMA [44%N]).
Inductive families_are : list sst -> list str -> Prop :=
| families_one w s : family_is w s -> families_are w [s]
| families_more w s ws l : family_is w s -> families_are ws l -> families_are (w ++ comma :: ws)%list (s :: l).

(** Weights. [integer_is w z]: [w] is the number [z]. *)
Definition integer_is (w : list sst) (z : Z) : Prop :=
  exists neg ds, w = [TOK (mkT NUMBER (show_integer neg ds))] /\ integer_ok neg ds /\ z = integer_value neg ds.
Definition one_word (k : string) (w : list sst) : Prop := exists s, w = [s] /\ spells k s.
Inductive weight_is : list sst -> Z -> Prop :=
| weight_normal w : one_word "normal" w -> weight_is w 400
| weight_bold w : one_word "bold" w -> weight_is w 700
| weight_number w z : integer_is w z -> (1 <= z <= 1000)%Z -> weight_is w z.

(** Widths in percent. *)
Definition width_keywords : list (string * Q) :=
  [("ultra-condensed", 50); ("extra-condensed", 125 # 2); ("condensed", 75); ("semi-condensed", 175 # 2); ("normal", 100);
   ("semi-expanded", 225 # 2); ("expanded", 125); ("extra-expanded", 150); ("ultra-expanded", 200)]%Q.
Definition percentage (d : decimal) : sst := TOK (mkT PERCENTAGE (show_decimal d ++ [37%N])%list).
Inductive width_is : list sst -> Q -> Prop :=
| width_keyword k q w : In (k, q) width_keywords -> one_word k w -> width_is w q
| width_percent d : decimal_ok d -> width_is [percentage d] (decimal_value d).

(** Angles *)
Definition angle_units : list (str * angle_unit) :=
  [(of_string "deg", DEGREE); (of_string "grad", GRAD); (of_string "rad", RADIAN); (of_string "turn", TURN)].

(** Absolute sizes, from the smallest to the largest. *)
Definition absolute_sizes := ["xx-small"; "x-small"; "small"; "medium"; "large"; "x-large"; "xx-large"].

(** [w] is a length other than a bare zero. *)
Inductive length_text : list sst -> Prop :=
| text_absolute d u s : decimal_ok d -> unit_text aunits u s -> length_text [dim d s]
| text_relative d u s : decimal_ok d -> unit_text runits u s -> length_text [dim d s].

(** ** The shorthand *)

(** The words of [font] that are for the property [k]; the word [normal] is for none in
    particular, and comes separately. *)
Inductive part_is : string -> list sst -> Prop :=
| part_style k w : In k ["italic"; "oblique"] -> one_word k w -> part_is "font-style" w
| part_weight k w : In k ["bold"; "bolder"; "lighter"] -> one_word k w -> part_is "font-weight" w
| part_number w z : integer_is w z -> (1 <= z <= 1000)%Z -> part_is "font-weight" w
| part_width k q w : In (k, q) width_keywords -> k <> "normal" -> one_word k w -> part_is "font-width" w
| part_normal w : one_word "normal" w -> part_is "normal" w.
(** Its sizes, but for percentages; and the heights of lines. *)
Inductive size_part : list sst -> Prop :=
| size_length w : length_text w -> size_part w
| size_keyword k w : In k ("smaller" :: "larger" :: absolute_sizes) -> one_word k w -> size_part w.
Inductive line_part : list sst -> Prop :=
| line_none : line_part []
| line_normal s : spells "normal" s -> line_part [TOK (mkT DELIM [47%N]); s]
| line_number d : decimal_ok d -> line_part [TOK (mkT DELIM [47%N]); TOK (mkT NUMBER (show_decimal d))]
| line_percent d : decimal_ok d -> line_part [TOK (mkT DELIM [47%N]); percentage d]
| line_length w : length_text w -> line_part (TOK (mkT DELIM [47%N]) :: w).
(** Each property at most once, and no [normal] after a style. *)
Definition proper (parts : list (string * list sst)) : Prop :=
  (forall k, k <> "normal" -> (List.length (filter (fun x => String.eqb (fst x) k) parts) <= 1)%nat) /\
  (forall a b w, parts = (a ++ ("normal", w) :: b)%list -> ~ In "font-style" (map fst a)).

(** A size in pixels. *)
Definition has_size (c : computed) (q : Q) : Prop :=
  exists q', c_get c "font-size" = Value (Size (SLen (Abs q' PX))) /\ q' == q.

Section Fonts.
Context {Face : Type}
        (lighter bolder : Z -> Z) (rnd : Q -> Q)
        (query : str -> Z * Z * string -> option Face) (system : option Face) (fallback : Face)
        (stretch : Q -> Z) (metrics_of : Face -> Q -> metrics) (base : ctx) (V_eqb : V -> V -> bool).
Local Notation G := (font_registry lighter bolder rnd query system fallback stretch metrics_of base).
Local Notation matched := (matched V field).

(** [m] comes from the declaration [n: content]. *)
Definition declares (n : string) (content : list sst) (m : matched) : Prop :=
  exists fuel, parse_value fuel G (of_string n) content = Ok (m_prop m).
Definition from_sheet (ms : list matched) : Prop := Forall (fun m => read G (m_prop m)) ms.
Definition silent (n : string) (ms : list matched) : Prop := Forall (fun m => ~ among (name m) (related n)) ms.

(** [m] is the declaration that counts for [n] (as in LonghandSpec.v). *)
Definition counts (n : string) (l1 : list matched) (m : matched) (l2 : list matched) : Prop :=
  Forall (fun m' => among (name m') (related n) -> ~ weaker (weight_of m) (weight_of m')) l1 /\
  Forall (fun m' => among (name m') (related n) -> weaker (weight_of m') (weight_of m)) l2.
(** An element with the values [c], whose parent has the values [parent], and for which
    [n: content] is the declaration that counts for [k]. *)
Definition counted (k n : string) (content : list sst) (parent c : computed) : Prop :=
  exists blank l1 m l2, from_sheet (l1 ++ m :: l2) /\ compute_values V_eqb G blank parent (l1 ++ m :: l2) = Ok c /\
    declares n content m /\ counts k l1 m l2.
(** An element for which nothing is said about [k]. *)
Definition unsaid (k : string) (parent c : computed) : Prop :=
  exists blank ms, from_sheet ms /\ compute_values V_eqb G blank parent ms = Ok c /\ silent k ms.
End Fonts.
