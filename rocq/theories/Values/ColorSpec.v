(** What CSS Color 4 and 5 say about the colors of ColorModel.v, without its functions. *)
From Coq Require Import String List NArith ZArith QArith Qabs Bool.
From Verif.Base Require Import Str Outcome.
From Verif.Css Require Import LexerModel ParserModel.
From Verif.Values Require Import Number ColorModel.
Import ListNotations.
Local Open Scope list_scope.

(** ** Hexadecimal notation *)

(** A hexadecimal digit: its value, and whether it is written with a capital. *)
Definition hex := (Z * bool)%type.
Definition hex_ok (d : hex) : Prop := (0 <= fst d < 16)%Z.
Definition hex_char (d : hex) : N :=
  nth (Z.to_nat (fst d)) (of_string (if snd d then "0123456789ABCDEF" else "0123456789abcdef")) 0%N.
Definition hash (s : str) : sst := TOK (mkT HASH (35%N :: s)).

(** "#RGB" stands for "#RRGGBB"; two digits are a number of base 16; without alpha, opaque. *)
Definition byte (a b : Z) : Z := (16 * a + b)%Z.
Definition css_hex (ds : list Z) : option rgba :=
  match ds with
  | [r; g; b] => Some (mkRgba (byte r r) (byte g g) (byte b b) 255)
  | [r; g; b; a] => Some (mkRgba (byte r r) (byte g g) (byte b b) (byte a a))
  | [r; r'; g; g'; b; b'] => Some (mkRgba (byte r r') (byte g g') (byte b b') 255)
  | [r; r'; g; g'; b; b'; a; a'] => Some (mkRgba (byte r r') (byte g g') (byte b b') (byte a a'))
  | _ => None
  end.
Definition is_hex (c : N) : Prop := exists d, hex_ok d /\ c = hex_char d.

(** ** Names *)

(** https://www.w3.org/TR/css-color-4/#named-colors *)
Definition css_named : list (string * (Z * Z * Z)) :=
  [("aliceblue", (240, 248, 255)); ("antiquewhite", (250, 235, 215)); ("aqua", (0, 255, 255));
   ("aquamarine", (127, 255, 212)); ("azure", (240, 255, 255)); ("beige", (245, 245, 220));
   ("bisque", (255, 228, 196)); ("black", (0, 0, 0)); ("blanchedalmond", (255, 235, 205));
   ("blue", (0, 0, 255)); ("blueviolet", (138, 43, 226)); ("brown", (165, 42, 42));
   ("burlywood", (222, 184, 135)); ("cadetblue", (95, 158, 160)); ("chartreuse", (127, 255, 0));
   ("chocolate", (210, 105, 30)); ("coral", (255, 127, 80)); ("cornflowerblue", (100, 149, 237));
   ("cornsilk", (255, 248, 220)); ("crimson", (220, 20, 60)); ("cyan", (0, 255, 255));
   ("darkblue", (0, 0, 139)); ("darkcyan", (0, 139, 139)); ("darkgoldenrod", (184, 134, 11));
   ("darkgray", (169, 169, 169)); ("darkgreen", (0, 100, 0)); ("darkgrey", (169, 169, 169));
   ("darkkhaki", (189, 183, 107)); ("darkmagenta", (139, 0, 139)); ("darkolivegreen", (85, 107, 47));
   ("darkorange", (255, 140, 0)); ("darkorchid", (153, 50, 204)); ("darkred", (139, 0, 0));
   ("darksalmon", (233, 150, 122)); ("darkseagreen", (143, 188, 143)); ("darkslateblue", (72, 61, 139));
   ("darkslategray", (47, 79, 79)); ("darkslategrey", (47, 79, 79)); ("darkturquoise", (0, 206, 209));
   ("darkviolet", (148, 0, 211)); ("deeppink", (255, 20, 147)); ("deepskyblue", (0, 191, 255));
   ("dimgray", (105, 105, 105)); ("dimgrey", (105, 105, 105)); ("dodgerblue", (30, 144, 255));
   ("firebrick", (178, 34, 34)); ("floralwhite", (255, 250, 240)); ("forestgreen", (34, 139, 34));
   ("fuchsia", (255, 0, 255)); ("gainsboro", (220, 220, 220)); ("ghostwhite", (248, 248, 255));
   ("gold", (255, 215, 0)); ("goldenrod", (218, 165, 32)); ("gray", (128, 128, 128));
   ("green", (0, 128, 0)); ("greenyellow", (173, 255, 47)); ("grey", (128, 128, 128));
   ("honeydew", (240, 255, 240)); ("hotpink", (255, 105, 180)); ("indianred", (205, 92, 92));
   ("indigo", (75, 0, 130)); ("ivory", (255, 255, 240)); ("khaki", (240, 230, 140));
   ("lavender", (230, 230, 250)); ("lavenderblush", (255, 240, 245)); ("lawngreen", (124, 252, 0));
   ("lemonchiffon", (255, 250, 205)); ("lightblue", (173, 216, 230)); ("lightcoral", (240, 128, 128));
   ("lightcyan", (224, 255, 255)); ("lightgoldenrodyellow", (250, 250, 210)); ("lightgray", (211, 211, 211));
   ("lightgreen", (144, 238, 144)); ("lightgrey", (211, 211, 211)); ("lightpink", (255, 182, 193));
   ("lightsalmon", (255, 160, 122)); ("lightseagreen", (32, 178, 170)); ("lightskyblue", (135, 206, 250));
   ("lightslategray", (119, 136, 153)); ("lightslategrey", (119, 136, 153)); ("lightsteelblue", (176, 196, 222));
   ("lightyellow", (255, 255, 224)); ("lime", (0, 255, 0)); ("limegreen", (50, 205, 50));
   ("linen", (250, 240, 230)); ("magenta", (255, 0, 255)); ("maroon", (128, 0, 0));
   ("mediumaquamarine", (102, 205, 170)); ("mediumblue", (0, 0, 205)); ("mediumorchid", (186, 85, 211));
   ("mediumpurple", (147, 112, 219)); ("mediumseagreen", (60, 179, 113)); ("mediumslateblue", (123, 104, 238));
   ("mediumspringgreen", (0, 250, 154)); ("mediumturquoise", (72, 209, 204)); ("mediumvioletred", (199, 21, 133));
   ("midnightblue", (25, 25, 112)); ("mintcream", (245, 255, 250)); ("mistyrose", (255, 228, 225));
   ("moccasin", (255, 228, 181)); ("navajowhite", (255, 222, 173)); ("navy", (0, 0, 128));
   ("oldlace", (253, 245, 230)); ("olive", (128, 128, 0)); ("olivedrab", (107, 142, 35));
   ("orange", (255, 165, 0)); ("orangered", (255, 69, 0)); ("orchid", (218, 112, 214));
   ("palegoldenrod", (238, 232, 170)); ("palegreen", (152, 251, 152)); ("paleturquoise", (175, 238, 238));
   ("palevioletred", (219, 112, 147)); ("papayawhip", (255, 239, 213)); ("peachpuff", (255, 218, 185));
   ("peru", (205, 133, 63)); ("pink", (255, 192, 203)); ("plum", (221, 160, 221));
   ("powderblue", (176, 224, 230)); ("purple", (128, 0, 128)); ("rebeccapurple", (102, 51, 153));
   ("red", (255, 0, 0)); ("rosybrown", (188, 143, 143)); ("royalblue", (65, 105, 225));
   ("saddlebrown", (139, 69, 19)); ("salmon", (250, 128, 114)); ("sandybrown", (244, 164, 96));
   ("seagreen", (46, 139, 87)); ("seashell", (255, 245, 238)); ("sienna", (160, 82, 45));
   ("silver", (192, 192, 192)); ("skyblue", (135, 206, 235)); ("slateblue", (106, 90, 205));
   ("slategray", (112, 128, 144)); ("slategrey", (112, 128, 144)); ("snow", (255, 250, 250));
   ("springgreen", (0, 255, 127)); ("steelblue", (70, 130, 180)); ("tan", (210, 180, 140));
   ("teal", (0, 128, 128)); ("thistle", (216, 191, 216)); ("tomato", (255, 99, 71));
   ("turquoise", (64, 224, 208)); ("violet", (238, 130, 238)); ("wheat", (245, 222, 179));
   ("white", (255, 255, 255)); ("whitesmoke", (245, 245, 245)); ("yellow", (255, 255, 0));
   ("yellowgreen", (154, 205, 50))]%string%Z.

(** https://www.w3.org/TR/css-color-4/#css-system-colors; the values are left to the program. *)
Definition css_systems : list string :=
  ["AccentColor"; "AccentColorText"; "ActiveText"; "ButtonBorder"; "ButtonFace"; "ButtonText"; "Canvas";
   "CanvasText"; "Field"; "FieldText"; "GrayText"; "Highlight"; "HighlightText"; "LinkText"; "Mark";
   "MarkText"; "SelectedItem"; "SelectedItemText"; "VisitedText"]%string.

(** Both texts are the same apart from the case of ASCII letters. *)
Definition same_letters (a b : str) : Prop := map lower a = map lower b.
Definition ident (s : str) : sst := TOK (mkT IDENT s).

(** ** Functions *)

(** A channel as it is written. *)
Inductive chan := Num (d : decimal) | Perc (d : decimal) | NoneC.
Definition chan_tok (c : chan) : sst :=
  match c with
  | Num d => TOK (mkT NUMBER (show_decimal d))
  | Perc d => TOK (mkT PERCENTAGE (show_decimal d ++ [37%N]))
  | NoneC => ident (of_string "none")
  end.
Definition chan_ok (c : chan) : Prop :=
  match c with Num d | Perc d => decimal_ok d | NoneC => True end.
(** Its value when 100% is [full]. *)
Definition chan_value (full : Q) (c : chan) : Q :=
  match c with Num d => decimal_value d | Perc d => decimal_value d * full / 100 | NoneC => 0 end.
Definition in_range (full : Q) (c : chan) : Prop := 0 <= chan_value full c <= full.

(** The alpha of a color: between 0 and 1, stored as 0 .. 255. *)
Definition alpha_byte (c : option chan) : Q :=
  match c with None => 255 | Some c => 255 * chan_value 1 c end.

Definition space_tok (s : sst) : Prop := exists d, s = TOK (mkT WHITESPACE d).
Definition spaces (l : list sst) : Prop := Forall space_tok l.
Definition comma : sst := TOK (mkT COMMA (of_string ",")).
Definition slash : sst := TOK (mkT DELIM (of_string "/")).

(** "rgb(" and the like, in any case *)
Definition func_named (n : string) (t : token) : Prop :=
  t_type t = FUNCTION /\ same_letters (t_data t) (of_string n).

(** [a b c] and [a b c / d] with white space anywhere between them; [a, b, c] and
    [a, b, c, d]. Each [w] is the white space at that place. *)
Definition modern (w : nat -> list sst) (a b c : sst) (al : option sst) : list sst :=
  w 0%nat ++ a :: w 1%nat ++ b :: w 2%nat ++ c :: w 3%nat ++
    match al with Some x => slash :: w 4%nat ++ x :: w 5%nat | None => [] end.
Definition legacy (w : nat -> list sst) (a b c : sst) (al : option sst) : list sst :=
  w 0%nat ++ a :: w 1%nat ++ comma :: w 2%nat ++ b :: w 3%nat ++ comma :: w 4%nat ++ c :: w 5%nat ++
    match al with Some x => comma :: w 6%nat ++ x :: w 7%nat | None => [] end.

(** [z] is a whole number nearest to [q]; [Math::round] gives one, whichever it picks when there
    are two. *)
Definition nearest (z : Z) (q : Q) : Prop := Qabs (inject_Z z - q) <= 1 # 2.
Definition rounds (rnd : Q -> Z) : Prop := forall q, nearest (rnd q) q.
Definition color_near (c : rgba) (r g b a : Q) : Prop :=
  nearest (c_r c) r /\ nearest (c_g c) g /\ nearest (c_b c) b /\ nearest (c_a c) a.

(** ** Mixing *)

(** The shares of the two colors, from the percentages that are written. *)
Definition shares (p q : option Q) : Q * Q :=
  match p, q with
  | None, None => (50, 50)
  | Some p, None => (p, 100 - p)
  | None, Some q => (100 - q, q)
  | Some p, Some q => (p, q)
  end.
Definition share_ok (p : option Q) : Prop := match p with Some p => 0 <= p <= 100 | None => True end.

(** Does the color depend on the element's own color? *)
Fixpoint mentions_current (c : color) : bool :=
  match c with
  | CurrentColor => true
  | Srgb _ | System _ => false
  | Mix _ l _ r _ => mentions_current l || mentions_current r
  end.
(** [c] with [x] written in place of currentcolor. *)
Fixpoint put_current (x c : color) : color :=
  match c with
  | CurrentColor => x
  | Srgb _ | System _ => c
  | Mix s l lp r rp => Mix s (put_current x l) lp (put_current x r) rp
  end.

(** ** Hues *)

(** https://www.w3.org/TR/css-color-4/#hue-interpolation: what the distance from the first to
    the second hue may be. *)
Definition arc_ok (m : hue_method) (d : Q) : Prop :=
  match m with
  | SHORTER => -180 <= d <= 180
  | LONGER => d <= -180 \/ 180 <= d
  | INCREASING => 0 <= d < 360
  | DECREASING => -360 < d <= 0
  end.
Definition same_hue (a b : Q) : Prop := exists k : Z, b == a + 360 * inject_Z k.

(** ** Values that contain only small numbers *)
Inductive tame : sst -> Prop :=
| tame_tok t :
    (t_type t = NUMBER -> forall q r, atof (t_data t) = Some (q, r) -> 0 <= q <= 1) ->
    (t_type t = PERCENTAGE -> forall q r, atof (t_data t) = Some (q, r) -> 0 <= q <= 100) ->
    (t_type t = HASH -> exists s, t_data t = 35%N :: s) -> tame (TOK t)
| tame_func f c : Forall tame c -> tame (FUNC f c)
| tame_block c : Forall tame c -> tame (BLOCK c)
| tame_rule n p c : tame (RULE n p c)
| tame_decl n c i : tame (DECL n c i).

(** How deeply functions are nested. *)
Fixpoint nesting (s : sst) : nat :=
  match s with
  | FUNC _ c => S (fold_right (fun x m => Nat.max (nesting x) m) O c)
  | _ => O
  end.
