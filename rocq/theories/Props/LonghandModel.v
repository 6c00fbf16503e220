(** Properties that keep the value that is declared, and the shorthands for them: props/align.cpp,
    props/baseline.cpp, props/border.cpp:1034-1074, props/breaks.cpp, props/display.cpp,
    props/flex.cpp, props/floats.cpp, props/list.cpp, props/overflow.cpp, props/positioned.cpp,
    props/sizing.cpp, props/table.cpp, props/text.cpp, props/transform.cpp:64-95,
    props/visibility.cpp:62-97, with the parsers of their values. *)
From Coq Require Import String List NArith ZArith QArith Bool.
From Verif.Base Require Import Str Outcome.
From Verif.Css Require Import LexerModel ParserModel.
From Verif.Values Require Import CalcModel LengthModel.
From Verif.Style Require Import CascadeModel.
From Verif.Props Require Import VarModel EngineModel BoxPropModel.
Import ListNotations.
Local Open Scope list_scope.
Local Open Scope string_scope.

Section Longhand.
(** [CalcValue<PercentOr<Length>>], [PercentOr<Length>] and [Image] (values/image.cpp:126-153), with
    their parsers, and the zero length. *)
Context {P F I : Type}
        (pP : list sst -> option P * list sst) (pF : list sst -> option F * list sst)
        (pI : list sst -> option I * list sst) (zero : P).

(** The values. Enumerators and keywords are given by their names in CSS; the display type of a box
    by the names of its inner and outer type. *)
Inductive V :=
| Key (k : string)
| Num (q : Q)
| Int (z : Z)
| Len (p : P)
| Fit (p : F)
| Img (i : I)
| Align (prefix keyword : option string)
| Disp (inner outer : string) (item : bool)
| Running (s : str)
| Ident (s : str)
| Text (s : str)
| Pair (a b : V)
| Triple (a b c : V)
| Opts (a b c : option V).

(** The members of the computed values; each of these properties has its own (style/computed.cpp:35-99),
    and is used as the name of it. *)
Definition field := string.
Definition field_eqb : field -> field -> bool := String.eqb.
Local Notation computed := (computed V field).
Local Notation registration := (registration V field).
Local Notation parser A := (list sst -> option A * list sst).

(** ** Parsers *)

(** A list of [skip(Css::Token::ident(...))], or a union of keywords (values/keywords.cpp:25-37). *)
Definition keys (l : list string) : parser V := fun c => map_fst Key (parse_keyword (map (fun k => (k, k)) l) c).
Definition named (l : list (string * string)) : parser V := fun c => map_fst Key (parse_keyword l c).

(** values/primitives.cpp:175-185: the alternatives of a union are tried in order, each on what the
    one before has left. *)
Definition orelse {A} (p q : parser A) : parser A :=
  fun c => match p c with (Some a, r) => (Some a, r) | (None, r) => q r end.
Definition as_ {A B} (f : A -> B) (p : parser A) : parser B := fun c => map_fst f (p c).

(** values/align.cpp:86-142 *)
Definition align_prefixes := ["legacy"; "safe"; "unsafe"].
Definition align_keywords :=
  ["auto"; "normal"; "center"; "start"; "end"; "self-start"; "self-end"; "flex-start"; "flex-end"; "left"; "right";
   "first-baseline"; "last-baseline"; "stretch"; "space-between"; "space-around"; "space-evenly"].
Definition word_of (l : list string) : parser string := parse_keyword (map (fun k => (k, k)) l).
Definition parse_align : parser V := fun c =>
  let '(p, c1) := word_of align_prefixes c in
  let '(k, c2) := word_of align_keywords c1 in
  match p, k with
  | None, None => (None, c2)
  | _, _ => (Some (Align p k), c2)
  end.

(** values/display.cpp:324-455 *)
Definition legacies : list (string * V) :=
  [("inline-block", Disp "flow-root" "inline" false); ("inline-table", Disp "table" "inline" false);
   ("inline-flex", Disp "flex" "inline" false); ("inline-grid", Disp "grid" "inline" false)].
Definition boxes := ["contents"; "none"].
Definition internals :=
  ["table-row-group"; "table-header-group"; "table-footer-group"; "table-row"; "table-cell"; "table-column-group";
   "table-column"; "table-caption"; "ruby-base"; "ruby-text"; "ruby-base-container"; "ruby-text-container"].
Definition insides := ["flow"; "flow-root"; "flex"; "grid"; "ruby"; "table"; "math"].
Definition outsides := ["block"; "inline"; "run-in"].
Definition or_ {A} (x : option A) (d : A) : A := match x with Some a => a | None => d end.
Definition parse_display : parser V := fun c =>
  match c with
  | [] => (None, c)
  | _ =>
    orelse (parse_keyword legacies) (orelse (keys boxes) (orelse (keys internals) (fun c =>
      let '(i, c1) := word_of insides c in
      let '(o, c2) := word_of outsides c1 in
      let '(item, c3) := word_of ["list-item"] c2 in
      match i, o, item with
      | None, None, None => (None, c3)
      | _, _, _ => (Some (Disp (or_ i "flow") (or_ o "block") (match item with Some _ => true | None => false end)), c3)
      end))) c
  end.

(** values/primitives.cpp:121-137 [CustomIdent] and 83-91 [String] *)
Definition parse_ident : parser str := fun c =>
  match c with
  | TOK t :: r => if ttype_beq (t_type t) IDENT then (Some (t_data t), r) else (None, c)
  | _ => (None, c)
  end.
Definition parse_string : parser str := fun c =>
  match c with
  | TOK t :: r => if ttype_beq (t_type t) STRING then (Some (t_data t), r) else (None, c)
  | _ => (None, c)
  end.

(** values/insets.cpp:28-56 *)
Definition running_name : token := mkT FUNCTION (of_string "running(").
Definition parse_position : parser V :=
  orelse (keys ["static"; "relative"; "absolute"; "fixed"; "sticky"]) (fun c =>
    match c with
    | FUNC n content :: r =>
      if token_eqb n running_name then
        match parse_ident content with (Some s, _) => (Some (Running s), r) | (None, _) => (None, c) end
      else (None, c)
    | _ => (None, c)
    end).

(** values/sizing.cpp:41-55 *)
Definition fit_name : token := mkT FUNCTION (of_string "fit-content(").
Definition parse_fit : parser V := fun c =>
  match c with
  | FUNC n content :: r =>
    if token_eqb n fit_name then
      match pF content with (Some f, _) => (Some (Fit f), r) | (None, _) => (None, c) end
    else (None, c)
  | _ => (None, c)
  end.
(** values/sizing.cpp:59-60 [Size], [MaxSize] *)
Definition parse_size (first : string) : parser V :=
  orelse (keys [first]) (orelse (as_ Len pP) (orelse (keys ["min-content"; "max-content"]) parse_fit)).
(** values/width.cpp:14-16 [Width], values/insets.cpp:91-93 [Gap] *)
Definition parse_or_len (first : string) : parser V := orelse (keys [first]) (as_ Len pP).
(** values/flex.cpp:78-81 [FlexBasis] *)
Definition parse_basis : parser V := orelse (keys ["auto"; "content"]) (parse_size "auto").
(** values/flex.cpp:32-48, 62-76 *)
Definition parse_direction : parser V := keys ["row"; "row-reverse"; "column"; "column-reverse"].
Definition parse_wrap : parser V := keys ["nowrap"; "wrap"; "wrap-reverse"].

(** values/overflow.cpp:24-43 *)
Definition parse_overflow : parser V :=
  named [("overlay", "auto"); ("visible", "visible"); ("hidden", "hidden"); ("scroll", "scroll"); ("auto", "auto")].

(** values/list.cpp:14-20. The parser of [symbols()] (values/counter.cpp) fails on everything: it
    compares a function with a token. *)
Definition parse_list_image : parser V := orelse (keys ["none"]) (as_ Img pI).
Definition parse_list_type : parser V := orelse (keys ["none"]) (orelse (as_ Ident parse_ident) (as_ Text parse_string)).
Definition parse_list_position : parser V := keys ["inside"; "outside"].

(** values/baseline.cpp:13-45 *)
Definition parse_source : parser V := keys ["auto"; "first"; "last"].
Definition parse_alignment : parser V :=
  keys ["baseline"; "text-bottom"; "alphabetic"; "ideographic"; "middle"; "central"; "mathematical"; "text-top"].
Definition parse_dominant : parser V :=
  keys ["auto"; "baseline"; "text-bottom"; "alphabetic"; "ideographic"; "middle"; "central"; "mathematical"; "text-top"].
Definition parse_shift : parser V := orelse (as_ Len pP) (keys ["sub"; "super"; "top"; "center"; "bottom"]).

(** values/breaks.cpp:36-69, 85-104 *)
Definition parse_break : parser V :=
  keys ["auto"; "avoid"; "avoid-page"; "page"; "left"; "right"; "recto"; "verso"; "avoid-column"; "column"; "avoid-region"; "region"].
Definition parse_break_inside : parser V := keys ["auto"; "avoid"; "avoid-page"; "avoid-column"; "avoid-region"].

(** props/text.cpp:44-64, with what the vendors call it; 111-120, with [lowercase] misspelt; 169-184 *)
Definition parse_text_align : parser V :=
  named [("left", "left"); ("right", "right"); ("center", "center"); ("justify", "justify"); ("start", "start"); ("end", "end");
         ("-vaev-block-center", "-vaev-block-center"); ("-webkit-center", "-vaev-block-center"); ("-moz-center", "-vaev-block-center")].
Definition parse_text_transform : parser V :=
  named [("none", "none"); ("uppercase", "uppercase"); ("lowsercase", "lowercase")].
Definition parse_white_space : parser V := keys ["normal"; "pre"; "nowrap"; "pre-wrap"; "break-spaces"; "pre-line"].

(** props/visibility.cpp:75-81 *)
Definition parse_opacity : parser V := fun c =>
  match parse_percent c with
  | Some (q, r) => (Some (Num (q / 100)), r)
  | None => as_ Num parse_number c
  end.

(** ** Longhands *)

(** A property that stores its value as it is, for instance props/floats.cpp:18-49; [inherit] is the
    one of props/base.cpp:166-177 or, as for props/text.cpp:36-38, does the same. *)
Definition longhand (n : string) (inherited : bool) (initial : V) (p : parser V) : registration :=
  mkR (of_string n) inherited NORMAL (Value initial) (fun c => c_get c n)
      (fun parent child => set_field field_eqb child n (c_get parent n)) (as_ Value p)
      (fun v _ child => set_field field_eqb child n v) None.

(** props/align.cpp:20-299 *)
Definition alignments : list registration :=
  [longhand "align-content" false (Align None (Some "stretch")) parse_align;
   longhand "justify-content" false (Align None (Some "flex-start")) parse_align;
   longhand "justify-self" false (Align None (Some "auto")) parse_align;
   longhand "align-self" false (Align None (Some "auto")) parse_align;
   longhand "justify-items" false (Align (Some "legacy") None) parse_align;
   longhand "align-items" false (Align None (Some "stretch")) parse_align;
   longhand "row-gap" false (Key "normal") (parse_or_len "normal");
   longhand "column-gap" false (Key "normal") (parse_or_len "normal")].

(** props/baseline.cpp:61-194 *)
Definition baselines : list registration :=
  [longhand "dominant-baseline" false (Key "auto") parse_dominant;
   longhand "baseline-source" false (Key "auto") parse_source;
   longhand "alignment-baseline" false (Key "baseline") parse_alignment;
   longhand "baseline-shift" false (Len zero) parse_shift].

(** props/breaks.cpp:19-118, props/floats.cpp:18-82, props/display.cpp:17-48, props/transform.cpp:64-95 *)
Definition flows : list registration :=
  [longhand "break-after" false (Key "auto") parse_break;
   longhand "break-before" false (Key "auto") parse_break;
   longhand "break-inside" false (Key "auto") parse_break_inside;
   longhand "float" false (Key "none") (keys ["none"; "inline-start"; "inline-end"; "left"; "right"]);
   longhand "clear" false (Key "none") (keys ["none"; "left"; "right"; "both"; "inline-start"; "inline-end"]);
   longhand "display" false (Disp "flow" "inline" false) parse_display;
   longhand "transform-box" false (Key "view-box") (keys ["content-box"; "border-box"; "fill-box"; "stroke-box"; "view-box"])].

(** props/positioned.cpp:19-220, props/sizing.cpp:20-285, props/overflow.cpp:19-152, props/visibility.cpp:62-97 *)
Definition sizes : list registration :=
  [longhand "position" false (Key "static") parse_position;
   longhand "top" false (Key "auto") (parse_or_len "auto");
   longhand "right" false (Key "auto") (parse_or_len "auto");
   longhand "bottom" false (Key "auto") (parse_or_len "auto");
   longhand "left" false (Key "auto") (parse_or_len "auto");
   longhand "z-index" false (Key "auto") (orelse (keys ["auto"]) (as_ Int parse_integer));
   longhand "box-sizing" false (Key "content-box") (keys ["border-box"; "content-box"]);
   longhand "width" false (Key "auto") (parse_size "auto");
   longhand "height" false (Key "auto") (parse_size "auto");
   longhand "min-width" false (Key "auto") (parse_size "auto");
   longhand "min-height" false (Key "auto") (parse_size "auto");
   longhand "max-width" false (Key "none") (parse_size "none");
   longhand "max-height" false (Key "none") (parse_size "none");
   longhand "overflow-x" false (Key "visible") parse_overflow;
   longhand "overflow-y" false (Key "visible") parse_overflow;
   longhand "overflow-block" false (Key "visible") parse_overflow;
   longhand "overflow-inline" false (Key "visible") parse_overflow;
   longhand "opacity" false (Num 1) parse_opacity].

(** props/table.cpp:17-90, props/border.cpp:1034-1074 *)
Definition tables : list registration :=
  [longhand "table-layout" false (Key "auto") (keys ["auto"; "fixed"]);
   longhand "caption-side" true (Key "top") (keys ["top"; "bottom"]);
   longhand "border-collapse" true (Key "separate") (keys ["collapse"; "separate"])].

(** props/text.cpp:21-199 *)
Definition texts : list registration :=
  [longhand "text-align" true (Key "left") parse_text_align;
   longhand "text-transform" true (Key "none") parse_text_transform;
   longhand "white-space" true (Key "normal") parse_white_space].

(** props/flex.cpp:19-186 *)
Definition flexes : list registration :=
  [longhand "flex-basis" false (Key "auto") parse_basis;
   longhand "flex-direction" false (Key "row") parse_direction;
   longhand "flex-grow" false (Num 0) (as_ Num parse_number);
   longhand "flex-shrink" false (Num 1) (as_ Num parse_number);
   longhand "flex-wrap" false (Key "nowrap") parse_wrap].

(** props/list.cpp:12-138 *)
Definition lists : list registration :=
  [longhand "list-style-image" true (Key "none") parse_list_image;
   longhand "list-style-type" true (Ident (of_string "disc")) parse_list_type;
   longhand "list-style-position" true (Key "outside") parse_list_position].

Definition longhands : list registration :=
  (alignments ++ baselines ++ flows ++ sizes ++ tables ++ texts ++ flexes ++ lists)%list.

(** ** Shorthands *)

Definition held (c : computed) (n : string) : V := match c_get c n with Value v => v | Content _ => Key "" end.
Definition short (n : string) (initial : V) (load : computed -> V) (p : parser V) (to : V -> list (string * V)) : registration :=
  mkR (of_string n) false NORMAL (Value initial) (fun c => Value (load c)) (fun _ child => child) (as_ Value p)
      (fun _ _ child => child)
      (Some (fun v => match v with
                      | Value v => map (fun x => (of_string (fst x), Value (snd x))) (to v)
                      | Content _ => []
                      end)).

(** props/overflow.cpp:155-207 *)
Definition parse_overflows : parser V := fun c =>
  match parse_overflow (eat_wss c) with
  | (None, c1) => (None, c1)
  | (Some x, c1) =>
    match eat_wss c1 with
    | [] => (Some (Pair x x), [])
    | c2 => match parse_overflow c2 with
            | (Some y, c3) => (Some (Pair x y), c3)
            | (None, c3) => (None, c3)
            end
    end
  end.
Definition overflow_short : registration :=
  short "overflow" (Pair (Key "visible") (Key "visible")) (fun c => Pair (held c "overflow-x") (held c "overflow-y"))
    parse_overflows
    (fun v => match v with Pair x y => [("overflow-x", x); ("overflow-y", y)] | _ => [] end).

(** props/flex.cpp:189-250 *)
Definition parse_flow : parser V := fun c =>
  match parse_direction c with
  | (Some d, c1) =>
    match parse_wrap c1 with
    | (Some w, c2) => (Some (Pair d w), c2)
    | (None, c2) => (Some (Pair d (Key "nowrap")), c2)
    end
  | (None, c1) =>
    match parse_wrap c1 with
    | (None, c2) => (None, c2)
    | (Some w, c2) =>
      match parse_direction c2 with
      | (Some d, c3) => (Some (Pair d w), c3)
      | (None, c3) => (Some (Pair (Key "row") w), c3)
      end
    end
  end.
Definition flow_short : registration :=
  short "flex-flow" (Pair (Key "row") (Key "nowrap")) (fun c => Pair (held c "flex-direction") (held c "flex-wrap"))
    parse_flow
    (fun v => match v with Pair d w => [("flex-direction", d); ("flex-wrap", w)] | _ => [] end).

(** props/flex.cpp:253-337. The values are the basis, how much to grow and how much to shrink. *)
Definition parse_grow_shrink (c : list sst) : option (Q * Q) * list sst :=
  match parse_number c with
  | (None, c1) => (None, c1)
  | (Some g, c1) =>
    match parse_number c1 with
    | (Some s, c2) => (Some (g, s), c2)
    | (None, c2) => (Some (g, 1), c2)
    end
  end.
Definition parse_flex : parser V := fun c =>
  match c with
  | [] => (None, c)
  | s :: r =>
    if is_ident "none" s then (Some (Triple (Key "auto") (Num 0) (Num 0)), r)
    else if is_ident "initial" s then (Some (Triple (Key "auto") (Num 0) (Num 1)), r)
    else
      match parse_grow_shrink c with
      | (Some (g, k), c1) =>
        match parse_basis c1 with
        | (Some b, c2) => (Some (Triple b (Num g) (Num k)), c2)
        | (None, c2) => (Some (Triple (Len zero) (Num g) (Num k)), c2)
        end
      | (None, c1) =>
        match parse_basis c1 with
        | (None, c2) => (None, c2)
        | (Some b, c2) =>
          match parse_grow_shrink c2 with
          | (Some (g, k), c3) => (Some (Triple b (Num g) (Num k)), c3)
          | (None, c3) => (Some (Triple b (Num 1) (Num 1)), c3)
          end
        end
      end
  end.
Definition flex_short : registration :=
  short "flex" (Triple (Key "auto") (Num 0) (Num 1))
    (fun c => Triple (held c "flex-basis") (held c "flex-grow") (held c "flex-shrink"))
    parse_flex
    (fun v => match v with
              | Triple b g s => [("flex-basis", b); ("flex-grow", g); ("flex-shrink", s)]
              | _ => []
              end).

(** props/list.cpp:141-225. The fuel is the number of components, of which each turn takes one. *)
Fixpoint list_loop (fuel : nat) (image type position : V) (c : list sst) : option V * list sst :=
  match c with
  | [] => (Some (Triple image type position), [])
  | _ =>
    match fuel with
    | O => (None, c)
    | S fuel =>
      match keys ["none"] c with
      | (Some k, c1) => list_loop fuel (Key "none") (Key "none") position c1
      | (None, c1) =>
        match parse_list_image c1 with
        | (Some i, c2) => list_loop fuel i type position c2
        | (None, c2) =>
          match parse_list_type c2 with
          | (Some t, c3) => list_loop fuel image t position c3
          | (None, c3) =>
            match parse_list_position c3 with
            | (Some p, c4) => list_loop fuel image type p c4
            | (None, c4) => (None, c4)
            end
          end
        end
      end
    end
  end.
Definition parse_list_style : parser V := fun c =>
  list_loop (List.length c) (Key "none") (Ident (of_string "disc")) (Key "outside") c.
Definition list_short : registration :=
  short "list-style" (Triple (Key "none") (Ident (of_string "disc")) (Key "outside"))
    (fun c => Triple (held c "list-style-image") (held c "list-style-type") (held c "list-style-position"))
    parse_list_style
    (fun v => match v with
              | Triple i t p => [("list-style-image", i); ("list-style-type", t); ("list-style-position", p)]
              | _ => []
              end).

(** props/baseline.cpp:197-321: the source, the alignment and the shift, as far as they are given. *)
Fixpoint vertical_loop (fuel : nat) (source alignment shift : option V) (c : list sst) : option V * list sst :=
  match c with
  | [] => match source, alignment, shift with
          | None, None, None => (None, [])
          | _, _, _ => (Some (Opts source alignment shift), [])
          end
  | _ =>
    match fuel with
    | O => (None, c)
    | S fuel =>
      match keys ["first"; "last"] c with
      | (Some s, c1) => match source with None => vertical_loop fuel (Some s) alignment shift c1 | Some _ => (None, c1) end
      | (None, c1) =>
        match parse_alignment c1 with
        | (Some a, c2) => match alignment with None => vertical_loop fuel source (Some a) shift c2 | Some _ => (None, c2) end
        | (None, c2) =>
          match parse_shift c2 with
          | (Some s, c3) => match shift with None => vertical_loop fuel source alignment (Some s) c3 | Some _ => (None, c3) end
          | (None, c3) => (None, c3)
          end
        end
      end
    end
  end.
Definition parse_vertical : parser V := fun c => vertical_loop (List.length c) None None None c.
Definition given (n : string) (v : option V) : list (string * V) := match v with Some v => [(n, v)] | None => [] end.
Definition vertical_short : registration :=
  short "vertical-align" (Opts None (Some (Key "baseline")) None)
    (fun c => Opts (Some (held c "baseline-source")) (Some (held c "alignment-baseline")) (Some (held c "baseline-shift")))
    parse_vertical
    (fun v => match v with
              | Opts s a b => (given "baseline-source" s ++ given "alignment-baseline" a ++ given "baseline-shift" b)%list
              | _ => []
              end).

(** props/registry.cpp registers them in another order, which matters nowhere: each has a member of
    its own. The aliases are at props/align.cpp:231-233 and 270-272. *)
Definition long_registry : registry V field :=
  mkG [(of_string "grid-row-gap", of_string "row-gap"); (of_string "grid-column-gap", of_string "column-gap")]
      (longhands ++ [overflow_short; flow_short; flex_short; list_short; vertical_short])%list.

End Longhand.
