(** Fonts: props/fonts.cpp, values/font.cpp, values/line-height.cpp, props/baseline.cpp:17-58 and
    the parts of props/base.cpp and style/computer.cpp that give a font its size and its face.

    Simplifications: numbers are exact rationals. From the Karm library, and so parameters here:
    the next lighter and bolder weight, [Au::fromFloatNearest], the search in a font database, the
    rounding of widths and the metrics of a face. *)
From Coq Require Import String List NArith ZArith QArith Bool.
From Verif.Base Require Import Str Outcome.
From Verif.Css Require Import LexerModel ParserModel.
From Verif.Values Require Import CalcModel LengthModel ColorModel.
From Verif.Style Require Import CascadeModel.
From Verif.Props Require Import VarModel EngineModel BoxPropModel LonghandModel.
Import ListNotations.
Local Open Scope list_scope.
Local Open Scope string_scope.

(** values/font.cpp:259-270 [FontSize] *)
Inductive size := SLen (l : length) | SPct (q : Q) | SKey (k : string).

(** The values of the properties. [Slant] is a style without an angle; a weight is given by its
    number (Karm: REGULAR is 400, BOLD is 700). Sizes that were computed are lengths in [px]
    (props/fonts.cpp:239-241, [load]). [Font] is props/fonts.cpp:264-269. *)
Inductive V :=
| Families (l : list str)
| Weight (z : Z)
| Lighter
| Bolder
| Width (q : Q)
| Slant (k : string)
| Oblique (q : Q) (u : angle_unit)
| Size (s : size)
| Line (v : percent_or)
| Factor (q : Q)
| Font (families : list str) (weight : option V) (width style size : V).

(** The members of the computed values (style/computed.cpp), by the names of the properties. *)
Definition field := string.
Definition field_eqb : field -> field -> bool := String.eqb.
Notation computed := (EngineModel.computed V field).
Notation registration := (EngineModel.registration V field).
Local Notation parser A := (list sst -> option A * list sst).

(** ** Parsers *)

Definition lift {A B} (f : A -> B) (p : list sst -> option (A * list sst)) : parser B := fun c =>
  match p c with Some (a, r) => (Some (f a), r) | None => (None, c) end.

(** values/font.cpp:35-53, 95-123 [FontWidth] *)
Definition width_names : list (string * V) :=
  [("normal", Width 100); ("condensed", Width 75); ("expanded", Width 125); ("ultra-condensed", Width 50);
   ("extra-condensed", Width (625 # 10)); ("semi-condensed", Width (875 # 10)); ("semi-expanded", Width (1125 # 10));
   ("extra-expanded", Width 150); ("ultra-expanded", Width 200)].
Definition parse_width : parser V := orelse (parse_keyword width_names) (lift Width parse_percent).

(** values/font.cpp:128-174 [FontStyle]; no angle stands for 14 degrees *)
Definition parse_style : parser V := fun c =>
  match parse_keyword [("normal", Slant "normal"); ("italic", Slant "italic")] c with
  | (Some v, r) => (Some v, r)
  | (None, c1) =>
    match parse_keyword [("oblique", tt)] c1 with
    | (Some _, c2) =>
      match parse_angle c2 with
      | Some (q, u, c3) => (Some (Oblique q u), c3)
      | None => (Some (Oblique 14 DEGREE), c2)
      end
    | (None, c2) => (None, c2)
    end
  end.

(** values/font.cpp:176-189, 221-254 [FontWeight]. The number is read even if it is not in the range. *)
Definition parse_number_weight : parser V := fun c =>
  match parse_integer c with
  | (Some z, r) => if (z <? 0)%Z || (1000 <? z)%Z then (None, r) else (Some (Weight z), r)
  | (None, r) => (None, r)
  end.
Definition parse_weight : parser V :=
  orelse (parse_keyword [("bolder", Bolder); ("lighter", Lighter)])
         (orelse (parse_keyword [("normal", Weight 400); ("bold", Weight 700)]) parse_number_weight).

(** values/font.cpp:259-270, values/keywords.cpp:24-37, values/primitives.cpp:174-185 *)
Definition size_keywords := ["xx-small"; "x-small"; "small"; "medium"; "large"; "x-large"; "xx-large"; "smaller"; "larger"].
Definition parse_size : parser V :=
  orelse (lift (fun l => Size (SLen l)) parse_length)
         (orelse (lift (fun q => Size (SPct q)) parse_percent)
                 (parse_keyword (map (fun k => (k, Size (SKey k))) size_keywords))).

(** values/font.cpp:420-445 [FontFamily]: a string, or identifiers that are joined by spaces. In
    [idents] at least one identifier has been read; white space after it is skipped. *)
Definition space : N := 32.
Fixpoint idents (acc : str) (c : list sst) : str * list sst :=
  match c with
  | TOK t :: r =>
    if ttype_beq (t_type t) WHITESPACE then idents acc r
    else if ttype_beq (t_type t) IDENT then idents (acc ++ space :: t_data t)%list r
    else (acc, c)
  | _ => (acc, c)
  end.
Definition parse_family : parser str := fun c =>
  match c with
  | TOK t :: r =>
    if ttype_beq (t_type t) STRING then (Some (t_data t), r)
    else if ttype_beq (t_type t) IDENT then let '(s, r') := idents (t_data t) r in (Some s, r')
    else (None, c)
  | _ => (None, c)
  end.

(** props/fonts.cpp:45-57; the fuel is the number of components, of which each turn takes one *)
Fixpoint family_loop (fuel : nat) (c : list sst) : option (list str) * list sst :=
  match c with
  | [] => (Some [], [])
  | _ =>
    match fuel with
    | O => (None, c)
    | S fuel =>
      match parse_family c with
      | (None, c1) => (None, c1)
      | (Some f, c1) =>
        match family_loop fuel (EngineModel.skip_comma c1) with
        | (Some l, c2) => (Some (f :: l), c2)
        | (None, c2) => (None, c2)
        end
      end
    end
  end.
Definition parse_families : parser V := fun c =>
  as_ Families (family_loop (List.length c)) (eat_wss c).

(** values/line-height.cpp:37-57; a number that fails is put back. *)
Definition parse_line_height : parser V := fun c =>
  match parse_keyword [("normal", Factor (12 # 10))] c with
  | (Some v, r) => (Some v, r)
  | (None, _) =>
    match parse_number c with
    | (Some q, r) => (Some (Factor q), r)
    | (None, _) => lift Line parse_percent_or c
    end
  end.

(** props/fonts.cpp:304-332: the loop reads style, weight and width until there is a size. *)
Fixpoint font_loop (fuel : nat) (style : V) (weight : option V) (width : V) (c : list sst)
  : option (V * option V * V * V) * list sst :=
  match fuel with
  | O => (None, c)
  | S fuel =>
    match parse_style c with
    | (Some s, c1) => font_loop fuel s weight width c1
    | (None, c1) =>
      match parse_weight c1 with
      | (Some w, c2) => font_loop fuel style (Some w) width c2
      | (None, c2) =>
        match parse_width c2 with
        | (Some w, c3) => font_loop fuel style weight w c3
        | (None, c3) =>
          match parse_size c3 with
          | (Some z, c4) => (Some (style, weight, width, z), c4)
          | (None, c4) => (None, c4)
          end
        end
      end
    end
  end.
(** props/fonts.cpp:300-342: the height of lines is read and forgotten, and one family is read. *)
Definition slash : token := mkT DELIM (of_string "/").
Definition parse_font : parser V := fun c =>
  match font_loop (S (List.length c)) (Slant "normal") None (Width 100) c with
  | (None, c1) => (None, c1)
  | (Some (style, weight, width, z), c1) =>
    let c2 := match skip_tok slash c1 with Some r => snd (parse_line_height r) | None => c1 end in
    match parse_family c2 with
    | (Some f, c3) => (Some (Font [f] weight width style z), c3)
    | (None, c3) => (None, c3)
    end
  end.

Section Fonts.
Context {Face : Type}
        (lighter bolder : Z -> Z) (rnd : Q -> Q)
        (query : str -> Z * Z * string -> option Face) (system : option Face) (fallback : Face)
        (stretch : Q -> Z) (metrics_of : Face -> Q -> metrics).

(** ** Faces *)

Definition families_of (c : computed) : list str := match c_get c "font-family" with Value (Families l) => l | _ => [] end.
Definition weight_in (c : computed) : Z := match c_get c "font-weight" with Value (Weight z) => z | _ => 0%Z end.
Definition width_of (c : computed) : Q := match c_get c "font-width" with Value (Width q) => q | _ => 0%Q end.
Definition slant_of (v : val V) : string :=
  match v with Value (Slant k) => k | Value (Oblique _ _) => "oblique" | _ => "" end.
Definition style_in (c : computed) : string := slant_of (c_get c "font-style").
Definition size_of (c : computed) : Q := match c_get c "font-size" with Value (Size (SLen (Abs q PX))) => q | _ => 0%Q end.

(** style/computer.cpp:174-190 [_lookupFontface] *)
Fixpoint first_face (l : list str) (k : Z * Z * string) : option Face :=
  match l with
  | [] => None
  | f :: r => match query f k with Some x => Some x | None => first_face r k end
  end.
Definition lookup_face (c : computed) : Face :=
  match first_face (families_of c) (weight_in c, stretch (width_of c * 10), style_in c) with
  | Some x => x
  | None => match system with Some x => x | None => fallback end
  end.

(** style/computer.cpp:192-204 [_updateFontface]. That the two are the same instance is not
    modelled: they are equal then, and the face is that of the parent as well. [angle_eqb] is the
    comparison of angles in values/font.cpp:148-151. *)
Context (angle_eqb : Q * angle_unit -> Q * angle_unit -> bool).
Definition style_eqb (a b : val V) : bool :=
  match a, b with
  | Value (Oblique q u), Value (Oblique q' u') => angle_eqb (q, u) (q', u')
  | _, _ => String.eqb (slant_of a) (slant_of b)
  end.
Fixpoint names_eqb (a b : list str) : bool :=
  match a, b with
  | [], [] => true
  | x :: a, y :: b => str_eqb x y && names_eqb a b
  | _, _ => false
  end.
Definition update_face (parent : computed) (face : Face) (c : computed) : Face :=
  if names_eqb (families_of parent) (families_of c) && Z.eqb (weight_in parent) (weight_in c)
     && style_eqb (c_get parent "font-style") (c_get c "font-style") && Qeq_bool (width_of parent) (width_of c)
  then face else lookup_face c.
(** style/computer.cpp:386 and 434-448: the faces of the elements of a styled tree *)
Inductive faces := Faces (f : Face) (children : list faces).
Fixpoint style_faces (parent : computed) (face : Face) (r : result V field) : faces :=
  match r with
  | Result c children => let f := update_face parent face c in Faces f (map (style_faces c f) children)
  end.

(** ** Sizes *)

(** props/base.cpp:30-72, style/computer.cpp:373-378: while fonts are computed, relative lengths
    refer to the font of the parent; [base] has the root element's font and the viewport. *)
Context (base : ctx).
Definition font_cx (parent : computed) : ctx :=
  let z := size_of parent in
  let m := metrics_of (lookup_face parent) z in
  mkCtx z (m_xheight m) (m_cap m) (m_zero m) (m_line m)
        (cx_rfont base) (cx_rxheight base) (cx_rcap base) (cx_rzero base) (cx_rline base)
        (cx_sw base) (cx_sh base) (cx_lw base) (cx_lh base) (cx_dw base) (cx_dh base) (cx_horizontal base).

(** values/font.cpp:277-280, 288-324 [resolve(FontSize)]; the size of the user agent is 16 pixels *)
Definition user_size : Q := 16.
Definition keyword_scale (k : string) : option Q :=
  if String.eqb k "xx-small" then Some (1 # 2)
  else if String.eqb k "x-small" then Some (3 # 4)
  else if String.eqb k "small" then Some (7 # 8)
  else if String.eqb k "medium" then Some 1
  else if String.eqb k "large" then Some (9 # 8)
  else if String.eqb k "x-large" then Some (5 # 4)
  else if String.eqb k "xx-large" then Some (3 # 2)
  else None.
Definition resolve_size (s : size) (parent : computed) : Q :=
  match s with
  | SLen l => resolve_length rnd l (font_cx parent)
  | SPct q => rnd (size_of parent * (q / 100))
  | SKey k =>
    match keyword_scale k with
    | Some f => rnd (user_size * f)
    | None => rnd (size_of parent * (if String.eqb k "larger" then 5 # 4 else 7 # 8))
    end
  end.

(** ** Properties *)

(** The computed value: props/fonts.cpp:110-112 with values/font.cpp:207-215 for weights, 253-255 for
    sizes; the other values are kept. *)
Definition compute (v : V) (parent : computed) : V :=
  match v with
  | Lighter => Weight (lighter (weight_in parent))
  | Bolder => Weight (bolder (weight_in parent))
  | Size s => Size (SLen (Abs (resolve_size s parent) PX))
  | v => v
  end.
Definition compute_val (v : val V) (parent : computed) : val V :=
  match v with Value v => Value (compute v parent) | Content c => Content c end.

Definition font_long (n : string) (initial : V) (p : parser V) : registration :=
  mkR (of_string n) true FONT (Value initial) (fun c => c_get c n)
      (fun parent child => set_field field_eqb child n (c_get parent n)) (as_ Value p)
      (fun v parent child => set_field field_eqb child n (compute_val v parent)) None.

(** props/fonts.cpp:19-260 *)
Definition font_longs : list registration :=
  [font_long "font-family" (Families [of_string "sans-serif"]) parse_families;
   font_long "font-weight" (Weight 400) parse_weight;
   font_long "font-width" (Width 100) parse_width;
   font_long "font-style" (Slant "normal") parse_style;
   font_long "font-size" (Size (SKey "medium")) parse_size].

Definition held (c : computed) (n : string) : V := match c_get c n with Value v => v | Content _ => Families [] end.
Definition font_parts (v : val V) : list (str * val V) :=
  match v with
  | Value (Font f w d s z) =>
    ([(of_string "font-style", Value s); (of_string "font-width", Value d); (of_string "font-size", Value z);
      (of_string "font-family", Value (Families f))]
     ++ match w with Some w => [(of_string "font-weight", Value w)] | None => [] end)%list
  | _ => []
  end.
(** props/fonts.cpp:263-364 *)
Definition font_short : registration :=
  mkR (of_string "font") false NORMAL
      (Value (Font [of_string "sans-serif"] None (Width 100) (Slant "normal") (Size (SKey "medium"))))
      (fun c => Value (Font (families_of c) (Some (held c "font-weight")) (held c "font-width") (held c "font-style") (held c "font-size")))
      (fun _ child => child) (as_ Value parse_font) (fun _ _ child => child) (Some font_parts).

(** props/baseline.cpp:17-58: the height of lines is read, and nothing is done with it. *)
Definition line_height : registration :=
  mkR (of_string "line-height") true NORMAL (Value (Factor (12 # 10))) (fun _ => Value (Factor (12 # 10)))
      (fun _ child => child) (as_ Value parse_line_height) (fun _ _ child => child) None.

(** props/registry.cpp:139-149, props/fonts.cpp:127-129 *)
Definition font_registry : registry V field :=
  mkG [(of_string "font-stretch", of_string "font-width")] (font_longs ++ [font_short; line_height])%list.
End Fonts.
