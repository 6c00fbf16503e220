(** style/media.cpp: media queries.

    Simplifications: f64 and [Au] are exact rationals. Diagnostics are left out. A cursor is
    the list of the values still to come; [Cursor::peek] past the end panics (library
    code). A union of the two kinds of length is unordered across kinds (library code). *)
From Coq Require Import String List NArith ZArith QArith Bool.
From Verif.Base Require Import Str Outcome.
From Verif.Css Require Import LexerModel ParserModel.
From Verif.Values Require Import Number LengthModel CalcModel.
Import ListNotations.
Local Open Scope list_scope.

(** style/media.cpp:453-605: the features, in the order of the union *)
Inductive feat :=
| Ftype | Fwidth | Fheight | Faspect_ratio | Forientation | Fresolution | Fscan | Fgrid | Fupdate
| Foverflow_block | Foverflow_inline | Fcolor | Fcolor_index | Fmonochrome | Fcolor_gamut | Fpointer | Fhover
| Fany_pointer | Fany_hover | Freduced_motion | Freduced_transparency | Fcontrast | Fforced_colors
| Fcolor_scheme | Freduced_data | Fdevice_width | Fdevice_height | Fdevice_aspect_ratio.
Scheme Equality for feat.

Definition all_feats : list feat :=
  [Ftype; Fwidth; Fheight; Faspect_ratio; Forientation; Fresolution; Fscan; Fgrid; Fupdate;
   Foverflow_block; Foverflow_inline; Fcolor; Fcolor_index; Fmonochrome; Fcolor_gamut; Fpointer; Fhover;
   Fany_pointer; Fany_hover; Freduced_motion; Freduced_transparency; Fcontrast; Fforced_colors;
   Fcolor_scheme; Freduced_data; Fdevice_width; Fdevice_height; Fdevice_aspect_ratio].

(** style/media.cpp:453-573: the [NAME] parameters *)
Definition fname (f : feat) : str :=
  of_string (match f with
  | Ftype => "type" | Fwidth => "width" | Fheight => "height" | Faspect_ratio => "aspect-ratio"
  | Forientation => "orientation" | Fresolution => "resolution" | Fscan => "scan" | Fgrid => "grid" | Fupdate => "update"
  | Foverflow_block => "overflow-block" | Foverflow_inline => "overflow-inline" | Fcolor => "color"
  | Fcolor_index => "color-index" | Fmonochrome => "monochrome" | Fcolor_gamut => "color-gamut"
  | Fpointer => "pointer" | Fhover => "hover" | Fany_pointer => "pointer" | Fany_hover => "hover"
  | Freduced_motion => "prefers-reduced-motion" | Freduced_transparency => "prefers-reduced-transparency"
  | Fcontrast => "prefers-contrast" | Fforced_colors => "forced-colors" | Fcolor_scheme => "prefers-color-scheme"
  | Freduced_data => "prefers-reduced-data" | Fdevice_width => "device-width" | Fdevice_height => "device-height"
  | Fdevice_aspect_ratio => "device-aspect-ratio"
  end).

(** values/resolution.cpp:19-31 [Resolution], without INFINITE, which nothing builds *)
Inductive runits := DPI | DPCM | DPPX.

(** The types of the feature values. Enumerations and bool are numbered in declaration order. *)
Inductive mval := VLen (l : length) | VNum (q : Q) | VInt (z : Z) | VRes (q : Q) (u : runits) | VEnum (n : nat).
Inductive ftype := TLen | TNum | TInt | TRes | TBool | TEnum (parse : list (str * nat)).

(** values/media.cpp, values/page.cpp:17-29: the keywords that the value parsers accept, with the
    number of the enumerator they give *)
Definition type_keywords : list (str * nat) :=
  [(of_string "all", 0); (of_string "print", 1); (of_string "screen", 2); (of_string "tty", 3); (of_string "tv", 3);
   (of_string "projection", 3); (of_string "handheld", 3); (of_string "braille", 3); (of_string "embossed", 3);
   (of_string "speech", 3); (of_string "aural", 3)]%nat.
Definition keywords (l : list string) : list (str * nat) := combine (map (fun s => of_string s) l) (seq 0 (List.length l)).
Definition fkind (f : feat) : ftype :=
  match f with
  | Ftype => TEnum type_keywords
  | Fwidth | Fheight | Fdevice_width | Fdevice_height => TLen
  | Faspect_ratio | Fdevice_aspect_ratio => TNum
  | Fresolution => TRes
  | Fcolor | Fcolor_index | Fmonochrome => TInt
  | Fgrid => TBool
  | Forientation => TEnum (keywords ["portrait"; "landscape"]%string)
  | Fscan => TEnum (keywords ["interlace"; "progressive"]%string)
  | Fupdate => TEnum (keywords ["none"; "slow"; "fast"]%string)
  | Foverflow_block => TEnum (keywords ["none"; "scroll"; "paged"]%string)
  | Foverflow_inline => TEnum (keywords ["none"; "scroll"]%string)
  | Fcolor_gamut => TEnum (keywords ["srgb"; "p3"; "rec2020"]%string)
  | Fpointer | Fany_pointer => TEnum (keywords ["none"; "coarse"; "fine"]%string)
  | Fhover | Fany_hover => TEnum (keywords ["none"; "hover"]%string)
  | Freduced_motion | Freduced_transparency | Freduced_data => TEnum (keywords ["no-preference"; "reduce"]%string)
  | Fcontrast => TEnum [(of_string "less", 2); (of_string "more", 1)]%nat
  | Fforced_colors => TEnum (keywords ["none"; "active"]%string)
  | Fcolor_scheme => TEnum (keywords ["light"; "dark"]%string)
  end.
(** RangeFeature or DiscreteFeature *)
Definition is_range (f : feat) : bool :=
  match fkind f with TLen | TNum | TInt | TRes => true | TBool | TEnum _ => false end.

(** style/media.cpp:17-138 [Media]: the value of each member *)
Definition media := feat -> mval.

(** [T{}] *)
Definition zero_of (f : feat) : mval :=
  match fkind f with
  | TLen => VLen (Abs 0 PX) | TNum => VNum 0 | TInt => VInt 0 | TRes => VRes 0 DPI | TBool | TEnum _ => VEnum 0
  end.

(** values/resolution.cpp:57-68 [toDpi] *)
Definition to_dpi (q : Q) (u : runits) : Q :=
  match u with DPI => q | DPCM => q * (254 # 100) | DPPX => q * 96 end.

Scheme Equality for aunit.
Scheme Equality for runit.
Scheme Equality for runits.

(** [operator<=>] of the value types: values/length.cpp:63-67, 380-382, values/resolution.cpp:100-102.
    [None]: unordered. *)
Definition compare (a b : mval) : option comparison :=
  match a, b with
  | VLen (Abs x u), VLen (Abs y w) => Some (Qcompare (pixels x u) (pixels y w))
  | VLen (Rel x u), VLen (Rel y w) => if runit_beq u w then Some (Qcompare x y) else None
  | VNum x, VNum y => Some (Qcompare x y)
  | VInt x, VInt y => Some (Z.compare x y)
  | VRes x u, VRes y w => Some (Qcompare (to_dpi x u) (to_dpi y w))
  | _, _ => None
  end.
(** [operator==]: values/length.cpp:59-61, 376-378, values/resolution.cpp:96-98 *)
Definition equal (a b : mval) : bool :=
  match a, b with
  | VLen (Abs x u), VLen (Abs y w) => Qeq_bool (pixels x u) (pixels y w)
  | VLen (Rel x u), VLen (Rel y w) => Qeq_bool x y && runit_beq u w
  | VNum x, VNum y => Qeq_bool x y
  | VInt x, VInt y => Z.eqb x y
  | VRes x u, VRes y w => Qeq_bool x y && runits_beq u w
  | VEnum x, VEnum y => Nat.eqb x y
  | _, _ => false
  end.
Definition lt (a b : mval) : bool := match compare a b with Some Lt => true | _ => false end.
Definition le (a b : mval) : bool := match compare a b with Some (Lt | Eq) => true | _ => false end.

(** style/media.cpp:307-329 [RangeBound], 331-338, 414-427 *)
Inductive bound := BNone | BIncl (v : mval) | BExcl (v : mval).
Inductive feature := Range (f : feat) (lower upper : bound) | Discrete (f : feat) (v : option mval).

(** style/media.cpp:343-368, 438-446 [match] *)
Definition match_feature (x : feature) (m : media) : bool :=
  match x with
  | Range f lower upper =>
    let actual := m f in
    let lo := match lower with BNone => true | BIncl v => le v actual | BExcl v => lt v actual end in
    let hi := match upper with BNone => true | BIncl v => le actual v | BExcl v => lt actual v end in
    match lower, upper with
    | BNone, BNone => negb (equal actual (zero_of f))
    | _, _ => lo && hi
    end
  | Discrete f None => negb (equal (m f) (zero_of f))
  | Discrete f (Some v) => equal (m f) v
  end.

(** style/media.cpp:298-305 [RangePrefix], 370-407, 432-436 [make] *)
Inductive rprefix := MIN | MAX | EXACT | BOOL.
Definition make (f : feat) (p : rprefix) (v : mval) : feature :=
  if is_range f then
    match p with
    | MIN => Range f (BIncl v) BNone
    | MAX => Range f BNone (BIncl v)
    | EXACT => Range f (BIncl v) (BIncl v)
    | BOOL => Range f BNone BNone
    end
  else match p with BOOL => Discrete f None | _ => Discrete f (Some v) end.

(** style/media.cpp:633-749 [MediaQuery] and its [match] *)
Inductive query := QNone | QAnd (a b : query) | QOr (a b : query) | QNot (a : query) | QOnly (a : query) | QFeat (x : feature).
Fixpoint match_query (q : query) (m : media) : bool :=
  match q with
  | QNone => true
  | QAnd a b => match_query a m && match_query b m
  | QOr a b => match_query a m || match_query b m
  | QNot a => negb (match_query a m)
  | QOnly a => match_query a m
  | QFeat x => match_feature x m
  end.

(** ** Parsing *)

Definition ident (s : string) : token := mkT IDENT (of_string s).

(** style/media.cpp:765-772 [_explodeFeatureName] *)
Fixpoint strip (p s : str) : option str :=
  match p, s with
  | [], _ => Some s
  | x :: p', y :: s' => if (x =? y)%N then strip p' s' else None
  | _, _ => None
  end.
Definition explode (s : str) : rprefix * str :=
  match strip (of_string "min-") s with
  | Some r => (MIN, r)
  | None => match strip (of_string "max-") s with
            | Some r => (MAX, r)
            | None => (EXACT, s)
            end
  end.

(** The keyword parsers of values/media.cpp and values/page.cpp:17-29 *)
Fixpoint parse_keyword (ks : list (str * nat)) (c : list sst) : option (nat * list sst) :=
  match ks with
  | [] => None
  | (k, n) :: ks' => match skip_tok (mkT IDENT k) c with Some r => Some (n, r) | None => parse_keyword ks' c end
  end.

(** values/resolution.cpp:122-147: the parser does not advance the cursor *)
Definition res_units : list (str * runits) :=
  [(of_string "dpi", DPI); (of_string "dpcm", DPCM); (of_string "dppx", DPPX); (of_string "x", DPPX)].
Definition parse_resolution (c : list sst) : option mval :=
  match c with
  | TOK t :: _ =>
    if ttype_beq (t_type t) DIMENSION then
      let (q, u) := dimension (t_data t) in
      match value_of_ci res_units u with Some u => Some (VRes q u) | None => None end
    else None
  | _ => None
  end.

(** [parseValue<F::Inner>]: the value and the cursor after the call *)
Definition parse_value (f : feat) (c : list sst) : option mval * list sst :=
  match fkind f with
  | TLen => match parse_length c with Some (l, r) => (Some (VLen l), r) | None => (None, c) end
  | TNum => let (v, r) := parse_number c in (option_map VNum v, r)
  | TInt => let (v, r) := parse_integer c in (option_map VInt v, r)
  | TRes => (parse_resolution c, c)
  | TBool => let (v, r) := parse_integer c in (option_map (fun z => VEnum (if (0 <? z)%Z then 1 else 0)) v, r)
  | TEnum ks => match parse_keyword ks c with Some (n, r) => (Some (VEnum n), r) | None => (None, c) end
  end.

Definition find_feat (name : str) : option feat := find (fun f => str_eqb name (fname f)) all_feats.

(** style/media.cpp:774-818 [_parseMediaFeature] *)
Definition type_other : feature := Discrete Ftype (Some (VEnum 3)).
Definition parse_feature (c : list sst) : feature * list sst :=
  match c with
  | TOK t :: r =>
    if ttype_beq (t_type t) IDENT then
      let (prefix, name) := explode (t_data t) in
      let r := eat_wss r in
      match find_feat name with
      | None => (type_other, r)
      | Some f =>
        match r with
        | TOK t' :: r' =>
          if ttype_beq (t_type t') COLON then
            match parse_value f (eat_wss r') with
            | (Some v, r'') => (make f prefix v, r'')
            | (None, r'') => (type_other, r'')
            end
          else (make f BOOL (zero_of f), r)
        | _ => (make f BOOL (zero_of f), r)
        end
      end
    else (type_other, c)
  | _ => (type_other, c)
  end.

(** style/media.cpp:822-834 [_parseMediaQueryLeaf], 836-852 [_parseMediaQueryInfix] *)
Fixpoint parse_leaf (n : nat) (c : list sst) : outcome (query * list sst) :=
  match n with
  | O => OutOfFuel
  | S n =>
    match skip_tok (ident "not") c with
    | Some r => omap (fun p => (QNot (fst p), snd p)) (parse_infix n r)
    | None =>
      match skip_tok (ident "only") c with
      | Some r => parse_infix n r
      | None =>
        match c with
        | [] => Panic
        | BLOCK content :: r => omap (fun p => (fst p, r)) (parse_infix n content)
        | _ =>
          match parse_keyword type_keywords c with
          | Some (t, r) => Ok (QFeat (Discrete Ftype (Some (VEnum t))), r)
          | None => let (x, r) := parse_feature c in Ok (QFeat x, r)
          end
        end
      end
    end
  end
with parse_infix (n : nat) (c : list sst) : outcome (query * list sst) :=
  match n with
  | O => OutOfFuel
  | S n => obind (parse_leaf n c) (fun p => infix_loop n (fst p) (eat_wss (snd p)))
  end
with infix_loop (n : nat) (lhs : query) (c : list sst) : outcome (query * list sst) :=
  match n with
  | O => OutOfFuel
  | S n =>
    match skip_tok (ident "and") c with
    | Some r => obind (parse_leaf n (eat_wss r)) (fun p => infix_loop n (QAnd lhs (fst p)) (snd p))
    | None =>
      match skip_tok (ident "or") c with
      | Some r => obind (parse_leaf n (eat_wss r)) (fun p => infix_loop n (QOr lhs (fst p)) (snd p))
      | None => Ok (lhs, c)
      end
    end
  end.

(** style/media.cpp:865-870, the loop of [parseMediaQuery]; [c] is the cursor after
    [eatWhitespace] *)
Fixpoint comma_loop (n : nat) (lhs : query) (c : list sst) : outcome query :=
  match n with
  | O => OutOfFuel
  | S n =>
    match c with
    | TOK t :: r =>
      if ttype_beq (t_type t) COMMA then
        obind (parse_infix n (eat_wss r)) (fun p => comma_loop n (QOr lhs (fst p)) (eat_wss (snd p)))
      else Ok lhs
    | _ => Ok lhs
    end
  end.
(** style/media.cpp:856-873 [parseMediaQuery] *)
Definition parse_media_query (n : nat) (c : list sst) : outcome query :=
  match eat_wss c with
  | [] => Ok QNone
  | c => obind (parse_infix n c) (fun p => comma_loop n (fst p) (eat_wss (snd p)))
  end.

(** ** The media of the command line tools *)

Definition print_like (type_ : nat) (w h aspect : Q) (orientation : nat) (res : Q) (ru : runits) (update overflow pointer hover motion transparency contrast : nat) : media :=
  fun f => match f with
  | Ftype => VEnum type_
  | Fwidth | Fdevice_width => VLen (Abs w PX)
  | Fheight | Fdevice_height => VLen (Abs h PX)
  | Faspect_ratio | Fdevice_aspect_ratio => VNum aspect
  | Forientation => VEnum orientation
  | Fresolution => VRes res ru
  | Fscan => VEnum 1 | Fgrid => VEnum 0
  | Fupdate => VEnum update
  | Foverflow_block | Foverflow_inline => VEnum overflow
  | Fcolor => VInt 8 | Fcolor_index => VInt 0 | Fmonochrome => VInt 0 | Fcolor_gamut => VEnum 0
  | Fpointer | Fany_pointer => VEnum pointer
  | Fhover | Fany_hover => VEnum hover
  | Freduced_motion => VEnum motion | Freduced_transparency => VEnum transparency | Fcontrast => VEnum contrast
  | Fforced_colors => VEnum 0 | Fcolor_scheme => VEnum 0 | Freduced_data => VEnum 0
  end.
(** style/media.cpp:239-278 [forPrint] *)
Definition for_print (w h : Q) (orientation : nat) (scale : Q) : media :=
  print_like 1 w h (w / h) orientation scale DPPX 2 1 2 1 0 0 0.
(** style/media.cpp:200-237 [forRender] *)
Definition for_render (w h : Q) (res : Q) (ru : runits) : media :=
  print_like 2 w h (w / h) 0 res ru 0 0 0 0 1 1 1.
(** style/media.cpp:157-194 [forView], with the light color scheme *)
Definition for_view (w h : Q) : media :=
  print_like 2 w h (w / h) 1 96 DPI 2 1 2 1 0 0 0.
