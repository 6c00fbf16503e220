(** values/color.cpp: reading colors and turning them into red, green, blue and alpha.

    Simplifications: f64 values are exact rationals. Library code that is not in /repo is a
    parameter of the model: [rnd] ([Math::round]), [pi], the conversions and the
    interpolation of [Gfx]. Storing a number in a u8 is undefined behaviour in C++ when the
    number, cut off after the point, is not one of 0 .. 255; that is [Panic]. *)
From Coq Require Import String List NArith ZArith QArith Bool.
From Verif.Base Require Import Str Outcome.
From Verif.Css Require Import LexerModel ParserModel.
From Verif.Values Require Import Number LengthModel CalcModel.
Import ListNotations.
Local Open Scope list_scope.

(** [Gfx::Color] of Karm: four u8 *)
Record rgba := mkRgba { c_r : Z; c_g : Z; c_b : Z; c_a : Z }.
(** [Gfx::Hsl] of Karm *)
Record hsl := mkHsl { h_hue : Q; h_sat : Q; h_light : Q }.
(** [Gfx::Color::fromHex] of Karm: red, green and blue from a number, opaque *)
Definition from_hex (n : Z) : rgba := mkRgba (n / 65536) (n / 256 mod 256) (n mod 256) 255.
(** [Gfx::WHITE], [Gfx::FUCHSIA] of Karm, [TRANSPARENT] (values/color.cpp:225) *)
Definition WHITE : rgba := mkRgba 255 255 255 255.
Definition FUCHSIA : rgba := mkRgba 255 0 255 255.
Definition TRANSPARENT : rgba := mkRgba 0 0 0 0.

(** values/color.cpp:26-102 [ColorSpace], without the spaces that nothing builds *)
Inductive hue_method := SHORTER | LONGER | INCREASING | DECREASING.
Inductive space := SRGB | HSL (m : hue_method).

(** values/color.cpp:112-117 [fromStr] *)
Definition space_of (name : str) : space :=
  if str_eqb name (of_string "lch") then HSL SHORTER else SRGB.

(** values/color.cpp:119-139 [_preparePolar], of the two hues *)
Definition prepare_polar (m : hue_method) (a b : Q) : Q * Q :=
  let delta := b - a in
  let lt x y := negb (Qle_bool y x) in
  match m with
  | SHORTER => if lt 180 delta then (a + 360, b) else if lt delta (-180) then (a, b + 360) else (a, b)
  | LONGER =>
    if lt 0 delta && lt delta 180 then (a + 360, b)
    else if lt (-180) delta && Qle_bool delta 0 then (a, b + 360) else (a, b)
  | INCREASING => if lt delta 0 then (a, b + 360) else (a, b)
  | DECREASING => if lt 0 delta then (a + 360, b) else (a, b)
  end.

(** values/color.cpp:196-223 [Color], [ColorMix]. A system color is known by its place in
    defs/system-colors.inc. *)
Inductive color :=
| Srgb (c : rgba)
| CurrentColor
| System (i : nat)
| Mix (s : space) (lhs : color) (lperc : option Q) (rhs : color) (rperc : option Q).

(** values/defs/colors.inc *)
Definition named : list (string * Z) :=
  [("aliceblue", 15792383); ("antiquewhite", 16444375); ("aqua", 65535); ("aquamarine", 8388564);
   ("azure", 15794175); ("beige", 16119260); ("bisque", 16770244); ("black", 0);
   ("blanchedalmond", 16772045); ("blue", 255); ("blueviolet", 9055202); ("brown", 10824234);
   ("burlywood", 14596231); ("cadetblue", 6266528); ("chartreuse", 8388352); ("chocolate", 13789470);
   ("coral", 16744272); ("cornflowerblue", 6591981); ("cornsilk", 16775388); ("crimson", 14423100);
   ("cyan", 65535); ("darkblue", 139); ("darkcyan", 35723); ("darkgoldenrod", 12092939);
   ("darkgray", 11119017); ("darkgreen", 25600); ("darkgrey", 11119017); ("darkkhaki", 12433259);
   ("darkmagenta", 9109643); ("darkolivegreen", 5597999); ("darkorange", 16747520);
   ("darkorchid", 10040012); ("darkred", 9109504); ("darksalmon", 15308410);
   ("darkseagreen", 9419919); ("darkslateblue", 4734347); ("darkslategray", 3100495);
   ("darkslategrey", 3100495); ("darkturquoise", 52945); ("darkviolet", 9699539);
   ("deeppink", 16716947); ("deepskyblue", 49151); ("dimgray", 6908265); ("dimgrey", 6908265);
   ("dodgerblue", 2003199); ("firebrick", 11674146); ("floralwhite", 16775920);
   ("forestgreen", 2263842); ("fuchsia", 16711935); ("gainsboro", 14474460); ("ghostwhite", 16316671);
   ("gold", 16766720); ("goldenrod", 14329120); ("gray", 8421504); ("green", 32768);
   ("greenyellow", 11403055); ("grey", 8421504); ("honeydew", 15794160); ("hotpink", 16738740);
   ("indianred", 13458524); ("indigo", 4915330); ("ivory", 16777200); ("khaki", 15787660);
   ("lavender", 15132410); ("lavenderblush", 16773365); ("lawngreen", 8190976);
   ("lemonchiffon", 16775885); ("lightblue", 11393254); ("lightcoral", 15761536);
   ("lightcyan", 14745599); ("lightgoldenrodyellow", 16448210); ("lightgray", 13882323);
   ("lightgreen", 9498256); ("lightgrey", 13882323); ("lightpink", 16758465);
   ("lightsalmon", 16752762); ("lightseagreen", 2142890); ("lightskyblue", 8900346);
   ("lightslategray", 7833753); ("lightslategrey", 7833753); ("lightsteelblue", 11584734);
   ("lightyellow", 16777184); ("lime", 65280); ("limegreen", 3329330); ("linen", 16445670);
   ("magenta", 16711935); ("maroon", 8388608); ("mediumaquamarine", 6737322); ("mediumblue", 205);
   ("mediumorchid", 12211667); ("mediumpurple", 9662683); ("mediumseagreen", 3978097);
   ("mediumslateblue", 8087790); ("mediumspringgreen", 64154); ("mediumturquoise", 4772300);
   ("mediumvioletred", 13047173); ("midnightblue", 1644912); ("mintcream", 16121850);
   ("mistyrose", 16770273); ("moccasin", 16770229); ("navajowhite", 16768685); ("navy", 128);
   ("oldlace", 16643558); ("olive", 8421376); ("olivedrab", 7048739); ("orange", 16753920);
   ("orangered", 16729344); ("orchid", 14315734); ("palegoldenrod", 15657130);
   ("palegreen", 10025880); ("paleturquoise", 11529966); ("palevioletred", 14381203);
   ("papayawhip", 16773077); ("peachpuff", 16767673); ("peru", 13468991); ("pink", 16761035);
   ("plum", 14524637); ("powderblue", 11591910); ("purple", 8388736); ("red", 16711680);
   ("rosybrown", 12357519); ("royalblue", 4286945); ("saddlebrown", 9127187); ("salmon", 16416882);
   ("sandybrown", 16032864); ("seagreen", 3050327); ("seashell", 16774638); ("sienna", 10506797);
   ("silver", 12632256); ("skyblue", 8900331); ("slateblue", 6970061); ("slategray", 7372944);
   ("slategrey", 7372944); ("snow", 16775930); ("springgreen", 65407); ("steelblue", 4620980);
   ("tan", 13808780); ("teal", 32896); ("thistle", 14204888); ("tomato", 16737095);
   ("turquoise", 4251856); ("violet", 15631086); ("wheat", 16113331); ("white", 16777215);
   ("whitesmoke", 16119285); ("yellow", 16776960); ("yellowgreen", 10145074);
   ("rebeccapurple", 6697881)]%string%Z.

(** values/defs/system-colors.inc *)
Definition systems : list (string * Z) :=
  [("AccentColor", 3900150); ("AccentColorText", 16777215); ("ActiveText", 255); ("ButtonBorder", 0);
   ("ButtonFace", 15790320); ("ButtonText", 0); ("Canvas", 16777215); ("CanvasText", 0);
   ("Field", 16777215); ("FieldText", 0); ("GrayText", 8421504); ("Highlight", 255);
   ("HighlightText", 16777215); ("LinkText", 238); ("Mark", 16711680); ("MarkText", 16777215);
   ("SelectedItem", 255); ("SelectedItemText", 16777215); ("VisitedText", 5577355)]%string%Z.

(** values/color.cpp:232-242 [parseNamedColor] *)
Fixpoint named_color (t : list (string * Z)) (name : str) : option rgba :=
  match t with
  | (n, v) :: t => if eq_ci name (of_string n) then Some (from_hex v) else named_color t name
  | [] => None
  end.

(** values/color.cpp:244-253 [parseSystemColor]: the place of the name *)
Fixpoint system_color (t : list (string * Z)) (name : str) : option nat :=
  match t with
  | (n, _) :: t => if str_eqb name (of_string n) then Some 0%nat else option_map S (system_color t name)
  | [] => None
  end.

(** [Io::atou] of Karm with base 16, of the whole string: the digits at its head *)
Definition hex_digit (c : rune) : option Z :=
  if ((48 <=? c) && (c <=? 57))%N then Some (Z.of_N c - 48)%Z
  else if ((97 <=? c) && (c <=? 102))%N then Some (Z.of_N c - 87)%Z
  else if ((65 <=? c) && (c <=? 70))%N then Some (Z.of_N c - 55)%Z
  else None.
Fixpoint hex_digits (s : str) : list Z :=
  match s with
  | c :: s => match hex_digit c with Some d => d :: hex_digits s | None => [] end
  | [] => []
  end.
Definition atou16 (s : str) : option Z :=
  match hex_digits s with
  | [] => None
  | ds => Some (fold_left (fun a d => a * 16 + d)%Z ds 0%Z)
  end.

(** values/color.cpp:258-295 [_parseHexColor]; [next_hex] is [nextHex] of the next [len]
    characters *)
Definition next_hex (s : str) : Z := match atou16 s with Some z => z | None => 0%Z end.
Definition twice (z : Z) : Z := Z.lor z (Z.shiftl z 4).
Definition parse_hex (s : str) : outcome (option rgba) :=
  match s with
  | [] => Panic
  | h :: s =>
    if negb (h =? 35)%N then Panic
    else
      match s with
      | [r; g; b] => Ok (Some (mkRgba (twice (next_hex [r])) (twice (next_hex [g])) (twice (next_hex [b])) 255))
      | [r; g; b; a] =>
        Ok (Some (mkRgba (twice (next_hex [r])) (twice (next_hex [g])) (twice (next_hex [b])) (twice (next_hex [a]))))
      | [r; r'; g; g'; b; b'] => Ok (Some (mkRgba (next_hex [r; r']) (next_hex [g; g']) (next_hex [b; b']) 255))
      | [r; r'; g; g'; b; b'; a; a'] =>
        Ok (Some (mkRgba (next_hex [r; r']) (next_hex [g; g']) (next_hex [b; b']) (next_hex [a; a'])))
      | _ => Ok None
      end
  end.

(** [Res<A>] of Karm; the functions that take a cursor by reference also give what is left. *)
Definition res (A : Type) := outcome (option A).
Definition rbind {A B} (x : res A) (f : A -> res B) : res B :=
  obind x (fun o => match o with Some a => f a | None => Ok None end).
Notation "'try' x <- e ; f" := (rbind e (fun x => f)) (at level 200, x pattern, right associativity).

(** A number stored in a u8 *)
Definition trunc (q : Q) : Z := Z.quot (Qnum q) (Zpos (Qden q)).
Definition u8 (q : Q) : res Z :=
  let z := trunc q in if (0 <=? z)%Z && (z <=? 255)%Z then Ok (Some z) else Panic.

(** css/parser.cpp:99-106 [Sst::operator==] with a token type and with a token *)
Definition is_type (s : sst) (ty : ttype) : bool :=
  match s with TOK t => ttype_beq (t_type t) ty | _ => false end.
Definition next_is (c : list sst) (ty : ttype) : bool :=
  match c with s :: _ => is_type s ty | [] => false end.
Definition skip_type (ty : ttype) (c : list sst) : option (list sst) :=
  match c with s :: r => if is_type s ty then Some r else None | [] => None end.
Definition ended (c : list sst) : bool := match c with [] => true | _ => false end.

(** values/percent.cpp:19-33 and values/primitives.cpp:56-70: [parseValue] as the functions below
    use it *)
Definition percent_value (c : list sst) : res (Q * list sst) := Ok (parse_percent c).
Definition number_value (c : list sst) : res (Q * list sst) :=
  Ok (match parse_number c with (Some q, r) => Some (q, r) | (None, _) => None end).

(** values/base.cpp:16-21 [skipOmmitableComma] *)
Definition skip_comma (c : list sst) : bool * list sst :=
  let c := eat_wss c in
  match skip_type COMMA c with Some r => (true, eat_wss r) | None => (false, eat_wss c) end.

Section Color.
Variable rnd : Q -> Z.
Variable pi : Q.
Variable hsl_to_rgb : hsl -> rgba.
Variable rgb_to_hsl : rgba -> hsl.
Variable premultiply unpremultiply : rgba -> rgba.
Variable lerp_rgb : rgba -> rgba -> Q -> rgba.
Variable lerp_hsl : hsl -> hsl -> Q -> hsl.
Variable with_opacity : rgba -> Q -> rgba.

(** [Math::round] of Karm, as a number *)
Definition round (q : Q) : Q := inject_Z (rnd q).

(** values/color.cpp:297-307 [_parseAlphaValue] *)
Definition alpha_value (c : list sst) : res (Z * list sst) :=
  match c with
  | [] => Ok None
  | s :: _ =>
    if is_type s PERCENTAGE then try (p, c) <- percent_value c; try a <- u8 (round (p * 255 / 100)); Ok (Some (a, c))
    else if is_type s NUMBER then try (n, c) <- number_value c; try a <- u8 (round (n * 255)); Ok (Some (a, c))
    else Ok None
  end.

(** values/color.cpp:309-321 [_parseAlphaComponentModernSyntax]; the inner [None] is [none] *)
Definition alpha_modern (c : list sst) : res (option Z * list sst) :=
  match c with
  | [] => Ok None
  | _ =>
    match skip_tok (mkT DELIM (of_string "/")) c with
    | None => Ok None
    | Some c =>
      let c := eat_wss c in
      match skip_tok (mkT IDENT (of_string "none")) c with
      | Some c => Ok (Some (None, c))
      | None => try (a, c) <- alpha_value c; Ok (Some (Some a, c))
      end
    end
  end.

(** values/color.cpp:323-334 [_parseNumPercNone] with [noneValue = 0] *)
Definition num_perc_none (perc_of : Q) (c : list sst) : res (Q * list sst) :=
  match c with
  | [] => Ok None
  | s :: _ =>
    match skip_tok (mkT IDENT (of_string "none")) c with
    | Some c => Ok (Some (0, c))
    | None =>
      if is_type s PERCENTAGE then try (p, c) <- percent_value c; Ok (Some (p * perc_of / 100, c))
      else number_value c
    end
  end.

(** values/color.cpp:336-348 [_parsePredefinedRGBParams]: one turn of the loop, and its three turns *)
Definition rgb_param (perc_of : Q) (c : list sst) : res (Q * list sst) :=
  if ended c then Ok None
  else try (x, c) <- num_perc_none perc_of c; Ok (Some (round x, eat_wss c)).
Definition rgb_params (perc_of : Q) (c : list sst) : res (Q * Q * Q * list sst) :=
  try (x, c) <- rgb_param perc_of c;
  try (y, c) <- rgb_param perc_of c;
  try (z, c) <- rgb_param perc_of c;
  Ok (Some (x, y, z, c)).

(** values/color.cpp:351-370 [_parseSRGBModernFuncColor] of the content *)
Definition rgb_modern (content : list sst) : res rgba :=
  let c := eat_wss content in
  if ended c then Ok None
  else
    try (x, y, z, c) <- rgb_params 255 c;
    try r <- u8 (round x);
    try g <- u8 (round y);
    try b <- u8 (round z);
    let c := eat_wss c in
    if ended c then Ok (Some (mkRgba r g b 255))
    else
      try (a, _) <- alpha_modern c;
      Ok (Some (mkRgba r g b (match a with Some a => a | None => 0%Z end))).

(** values/color.cpp:372-413 [_parseSRGBLegacyFuncColor] of the content: one channel, the comma
    after it, and the whole *)
Definition legacy_channel (perc : bool) (c : list sst) : res (Z * list sst) :=
  if ended c then Ok None
  else
    try (z, c) <-
      (if perc then try (p, c) <- percent_value c; try z <- u8 (round (p * 255 / 100)); Ok (Some (z, c))
       else try (n, c) <- number_value c; try z <- u8 n; Ok (Some (z, c)));
    Ok (Some (z, eat_wss c)).
Definition legacy_comma (c : list sst) : res (list sst) :=
  Ok (match skip_type COMMA c with Some c => Some (eat_wss c) | None => None end).
Definition rgb_legacy (content : list sst) : res rgba :=
  let c := eat_wss content in
  if ended c then Ok None
  else
    let perc := next_is c PERCENTAGE in
    try (r, c) <- legacy_channel perc c;
    try c <- legacy_comma c;
    try (g, c) <- legacy_channel perc c;
    try c <- legacy_comma c;
    try (b, c) <- legacy_channel perc c;
    let c := eat_wss c in
    if ended c then Ok (Some (mkRgba r g b 255))
    else
      try c <- legacy_comma c;
      try (a, _) <- alpha_value c;
      Ok (Some (mkRgba r g b a)).

(** values/angle.cpp:52-63 [Angle::toDegree], 131-161 [ValueParser<Angle>] *)
Inductive angle_unit := DEGREE | RADIAN | GRAD | TURN.
Definition to_degree (v : Q) (u : angle_unit) : Q :=
  match u with
  | DEGREE => v
  | RADIAN => v * 180 / pi
  | GRAD => v * (9 # 10)
  | TURN => v * 360
  end.
Definition angle_unit_of (s : str) : option angle_unit :=
  if eq_ci s (of_string "deg") then Some DEGREE
  else if eq_ci s (of_string "grad") then Some GRAD
  else if eq_ci s (of_string "rad") then Some RADIAN
  else if eq_ci s (of_string "turn") then Some TURN
  else None.
Definition parse_angle (c : list sst) : option (Q * angle_unit * list sst) :=
  match c with
  | TOK t :: r =>
    if ttype_beq (t_type t) DIMENSION then
      let (q, u) := dimension (t_data t) in
      match angle_unit_of u with Some u => Some (q, u, r) | None => None end
    else None
  | _ => None
  end.

(** values/color.cpp:423-431, the same in 457-465: the hue *)
Definition hue_value (c : list sst) : res (Q * list sst) :=
  match skip_tok (mkT IDENT (of_string "none")) c with
  | Some c => Ok (Some (0, c))
  | None =>
    if next_is c DIMENSION then
      Ok (match parse_angle c with Some (v, u, c) => Some (to_degree v u, c) | None => None end)
    else if next_is c NUMBER then number_value c
    else Ok None
  end.

(** [Color::withAlpha] of Karm *)
Definition with_alpha (c : rgba) (a : Z) : rgba := mkRgba (c_r c) (c_g c) (c_b c) a.

(** values/color.cpp:416-448 [_parseHSLModernFuncColor] of the content *)
Definition hsl_modern (content : list sst) : res rgba :=
  let c := eat_wss content in
  if ended c then Ok None
  else
    try (h, c) <- hue_value c;
    try (s, c) <- num_perc_none 1 (eat_wss c);
    try (l, c) <- num_perc_none 1 (eat_wss c);
    let c := eat_wss c in
    if ended c then Ok (Some (hsl_to_rgb (mkHsl h s l)))
    else
      try (a, _) <- alpha_modern c;
      Ok (Some (with_alpha (hsl_to_rgb (mkHsl h s l)) (match a with Some a => a | None => 255%Z end))).

(** values/color.cpp:450-495 [_parseHSLLegacyFuncColor] of the content *)
Definition hsl_legacy (content : list sst) : res rgba :=
  let c := eat_wss content in
  if ended c then Ok None
  else
    try (h, c) <- hue_value c;
    try c <- legacy_comma (eat_wss c);
    try (s, c) <- percent_value c;
    try c <- legacy_comma (eat_wss c);
    try (l, c) <- percent_value c;
    let c := eat_wss c in
    let s := s / 100 in
    let l := l / 100 in
    if ended c then Ok (Some (hsl_to_rgb (mkHsl h s l)))
    else
      try c <- legacy_comma c;
      try (a, _) <- alpha_value c;
      Ok (Some (with_alpha (hsl_to_rgb (mkHsl h s l)) a)).

(** values/color.cpp:509-513: the spaces that are told apart from the others *)
Definition rgb_spaces : list string :=
  ["srgb"; "srgb-linear"; "display-p3"; "a98-rgb"; "prophoto-rgb"; "rec2020"]%string.

(** values/color.cpp:498-559 [_parseColorFuncColor] of the content *)
Definition color_func (content : list sst) : res rgba :=
  match eat_wss content with
  | TOK t :: c =>
    if ttype_beq (t_type t) IDENT then
      let c := eat_wss c in
      if existsb (fun n => str_eqb (t_data t) (of_string n)) rgb_spaces then
        try (x, y, z, c) <- rgb_params 1 c;
        let c := eat_wss c in
        if ended c then
          try r <- u8 (round (x * 255));
          try g <- u8 (round (y * 255));
          try b <- u8 (round (z * 255));
          Ok (Some (mkRgba r g b 255))
        else
          try (a, _) <- alpha_modern c;
          try r <- u8 (round (x * 255));
          try g <- u8 (round (y * 255));
          try b <- u8 (round (z * 255));
          Ok (Some (mkRgba r g b (match a with Some a => a | None => 0%Z end)))
      else Ok (Some WHITE)
    else Ok None
  | _ => Ok None
  end.

(** values/color.cpp:561-579 [_parseFuncColor] *)
Definition first_of {A} (x y : res A) : res A :=
  obind x (fun o => match o with Some a => Ok (Some a) | None => y end).
Definition is_func (name : token) (s : string) : bool := token_eqb name (mkT FUNCTION (of_string s)).
Definition func_color (name : token) (content : list sst) : res rgba :=
  if is_func name "color(" then color_func content
  else if is_func name "rgb(" || is_func name "rgba(" then first_of (rgb_modern content) (rgb_legacy content)
  else if is_func name "hsl(" || is_func name "hsla(" then first_of (hsl_modern content) (hsl_legacy content)
  else Ok None.

(** values/color.cpp:581-605 [_parseColorMixSide]. [k] is the color that each value is, or not;
    reading a color takes one value ([parse_color] below). *)
Definition read_color (k : sst -> res color) (c : list sst) : res (color * list sst) :=
  match c with
  | [] => Ok None
  | s :: r => try x <- k s; Ok (Some (x, r))
  end.
Definition mix_side (k : sst -> res color) (c : list sst) : res (color * option Q * list sst) :=
  match c with
  | [] => Ok None
  | s :: _ =>
    if is_type s PERCENTAGE then
      try (p, c) <- percent_value c;
      try (x, c) <- read_color k (eat_wss c);
      Ok (Some (x, Some p, c))
    else
      try (x, c) <- read_color k c;
      let c := eat_wss c in
      if next_is c PERCENTAGE then try (p, c) <- percent_value c; Ok (Some (x, Some p, c))
      else Ok (Some (x, None, c))
  end.

(** values/color.cpp:607-629 [_parseColorMixFunc] of the content *)
Definition color_mix (k : sst -> res color) (content : list sst) : res color :=
  match skip_tok (mkT IDENT (of_string "in")) (eat_wss content) with
  | None => Ok None
  | Some c =>
    match eat_wss c with
    | TOK t :: c =>
      if ttype_beq (t_type t) IDENT then
        match skip_comma c with
        | (false, _) => Ok None
        | (true, c) =>
          try (l, lp, c) <- mix_side k c;
          match skip_comma c with
          | (false, _) => Ok None
          | (true, c) =>
            try (r, rp, _) <- mix_side k c;
            Ok (Some (Mix (space_of (t_data t)) l lp r rp))
          end
        end
      else Ok None
    | _ => Ok None
    end
  end.

(** values/color.cpp:631-678 [ValueParser<Color>::parse] of one value. The fuel is for mixes
    inside of mixes. *)
Definition ident_color (data : str) : option color :=
  if eq_ci data (of_string "currentcolor") then Some CurrentColor
  else if eq_ci data (of_string "transparent") then Some (Srgb TRANSPARENT)
  else
    match named_color named data with
    | Some c => Some (Srgb c)
    | None => option_map System (system_color systems data)
    end.
Fixpoint color_of (fuel : nat) (s : sst) : res color :=
  match fuel with
  | O => OutOfFuel
  | S fuel =>
    match s with
    | TOK t =>
      if ttype_beq (t_type t) HASH then try c <- parse_hex (t_data t); Ok (Some (Srgb c))
      else if ttype_beq (t_type t) IDENT then Ok (ident_color (t_data t))
      else Ok None
    | FUNC name content =>
      if is_func name "color-mix(" then color_mix (color_of fuel) content
      else try c <- func_color name content; Ok (Some (Srgb c))
    | _ => Ok None
    end
  end.

(** values/color.cpp:631-678 [ValueParser<Color>::parse]: what was read, and what is left. A hash
    token is gone even if it is not a color (637). *)
Definition parse_color (fuel : nat) (c : list sst) : outcome (option color * list sst) :=
  match c with
  | [] => Ok (None, [])
  | s :: r =>
    obind (color_of fuel s) (fun o =>
      Ok (match o with
          | Some x => (Some x, r)
          | None => (None, if is_type s HASH then r else c)
          end))
  end.

(** values/color.cpp:141-145 [_interpolatePolar], 149-181 [interpolate] *)
Definition interpolate_polar (m : hue_method) (a b : hsl) (t : Q) : hsl :=
  let (ha, hb) := prepare_polar m (h_hue a) (h_hue b) in
  lerp_hsl (mkHsl ha (h_sat a) (h_light a)) (mkHsl hb (h_sat b) (h_light b)) t.
Definition interpolate (s : space) (a b : rgba) (t : Q) : rgba :=
  let a := premultiply a in
  let b := premultiply b in
  match s with
  | SRGB => unpremultiply (lerp_rgb a b t)
  | HSL m => unpremultiply (hsl_to_rgb (interpolate_polar m (rgb_to_hsl a) (rgb_to_hsl b) t))
  end.

(** values/color.cpp:707-735 [resolve] of a mix, given the colors of its sides. A division by zero,
    which takes a negative percentage, is 0 here. *)
Definition resolve_mix (s : space) (l : rgba) (lp : option Q) (r : rgba) (rp : option Q) : rgba :=
  let or50 p := match p with Some q => q | None => 50 end in
  let lperc := match lp with Some q => q | None => 100 - or50 rp end in
  let rperc := match rp with Some q => q | None => 100 - or50 lp end in
  if Qeq_bool lperc rperc && Qeq_bool lperc 0 then WHITE
  else
    let norm := if negb (Qeq_bool (lperc + rperc) 100) then rperc / (lperc + rperc) else rperc / 100 in
    let c := interpolate s l r norm in
    if negb (Qle_bool 100 (lperc + rperc)) then with_opacity c ((lperc + rperc) / 100) else c.

(** values/color.cpp:681-686 [SYSTEM_COLOR], 690-705 [resolve] *)
Fixpoint resolve_color (c : color) (current : rgba) : rgba :=
  match c with
  | Srgb c => c
  | CurrentColor => current
  | System i => from_hex (snd (nth i systems (EmptyString, 0%Z)))
  | Mix s l lp r rp => resolve_mix s (resolve_color l current) lp (resolve_color r current) rp
  end.
End Color.
