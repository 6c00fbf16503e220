(** The properties of margins, paddings and borders, [color] and [visibility]: props/margin.cpp,
    props/padding.cpp, props/border.cpp, the end of props/background.cpp, props/visibility.cpp,
    values/insets.cpp, values/borders.cpp, values/line-width.cpp. *)
From Coq Require Import String List NArith Bool.
From Verif.Base Require Import Str Outcome.
From Verif.Css Require Import LexerModel ParserModel.
From Verif.Values Require Import CalcModel.
From Verif.Style Require Import CascadeModel.
From Verif.Props Require Import VarModel EngineModel.
Import ListNotations.
Local Open Scope list_scope.

Inductive side := TOP | START | BOTTOM | END.
Scheme Equality for side.

(** Karm [Math::Insets], with the constructors from one to four values: all; vertical and
    horizontal; top, horizontal and bottom; top, right, bottom and left. *)
Record insets (A : Type) := mkI { i_top : A; i_end : A; i_bottom : A; i_start : A }.
Arguments mkI {A}. Arguments i_top {A}. Arguments i_end {A}. Arguments i_bottom {A}. Arguments i_start {A}.
Definition insets1 {A} (a : A) : insets A := mkI a a a a.
Definition insets2 {A} (v h : A) : insets A := mkI v h v h.
Definition insets3 {A} (t h b : A) : insets A := mkI t h b h.

(** values/insets.cpp:63-88 *)
Definition parse_insets {A} (p : list sst -> option A * list sst) (c : list sst) : option (insets A) * list sst :=
  match c with
  | [] => (None, c)
  | _ =>
    match p c with
    | (None, c1) => (None, c1)
    | (Some t, c1) =>
      match p c1 with
      | (None, c2) => (Some (insets1 t), c2)
      | (Some r, c2) =>
        match p c2 with
        | (None, c3) => (Some (insets2 t r), c3)
        | (Some b, c3) =>
          match p c3 with
          | (None, c4) => (Some (insets3 t r b), c4)
          | (Some l, c4) => (Some (mkI t r b l), c4)
          end
        end
      end
    end
  end.

(** Karm [Gfx::BorderStyle] as far as it is read; values/borders.cpp:19-46. *)
Inductive bstyle := S_NONE | S_SOLID | S_DASHED | S_DOTTED | S_HIDDEN | S_DOUBLE | S_GROOVE | S_RIDGE | S_OUTSET.
Definition styles : list (string * bstyle) :=
  [("none", S_NONE); ("solid", S_SOLID); ("dashed", S_DASHED); ("dotted", S_DOTTED); ("hidden", S_HIDDEN);
   ("double", S_DOUBLE); ("groove", S_GROOVE); ("ridge", S_RIDGE); ("outset", S_OUTSET)]%string.
Fixpoint parse_keyword {A} (l : list (string * A)) (c : list sst) : option A * list sst :=
  match c with
  | [] => (None, c)
  | s :: r =>
    match l with
    | [] => (None, c)
    | (k, a) :: l' => if is_ident k s then (Some a, r) else parse_keyword l' c
    end
  end.
Definition parse_bstyle : list sst -> option bstyle * list sst := parse_keyword styles.

(** props/visibility.cpp:30-43 *)
Inductive visibility := VISIBLE | V_HIDDEN | COLLAPSE.
Definition parse_visibility : list sst -> option visibility * list sst :=
  parse_keyword [("visible", VISIBLE); ("hidden", V_HIDDEN); ("collapse", COLLAPSE)]%string.

Section Box.
(** [Width] (values/width.cpp:14-16), [CalcValue<PercentOr<Length>>], [CalcValue<Length>] and
    [Color], with their parsers, the zero length, the colors black and [currentcolor], and
    [resolve] of a color against the color of the text. *)
Context {W C L K : Type}
        (pW : list sst -> option W * list sst) (pC : list sst -> option C * list sst)
        (pL : list sst -> option L * list sst) (pK : list sst -> option K * list sst)
        (zeroW : W) (zeroC : C) (black current : K) (resolve_color : K -> K -> K).

(** values/line-width.cpp:26-30, 49-72 *)
Inductive line_width := THIN | MEDIUM | THICK | Line (l : L).
Definition map_fst {A B} (f : A -> B) (x : option A * list sst) : option B * list sst := (option_map f (fst x), snd x).
Definition parse_line_width (c : list sst) : option line_width * list sst :=
  match parse_keyword [("thin", THIN); ("medium", MEDIUM); ("thick", THICK)]%string c with
  | (Some v, r) => (Some v, r)
  | (None, _) => match c with [] => (None, c) | _ => map_fst Line (pL c) end
  end.

(** values/borders.cpp:51-59 [SpecifiedBorder] *)
Record border := mkB { b_width : line_width; b_style : bstyle; b_color : K }.
Definition border0 : border := mkB MEDIUM S_NONE current.

(** values/borders.cpp:85-117 [ValueParser<SpecifiedBorder>], with [eat_wss] and
    [parse_line_width]; props/border.cpp:757-781 is the same loop without skipping white space
    and with [CalcValue<Length>] alone for the width. What a failed attempt leaves of the input is
    passed on to the next one. *)
Fixpoint border_loop (fuel : nat) (skip : list sst -> list sst) (pw : list sst -> option line_width * list sst)
  (b : border) (c : list sst) : border * list sst :=
  match fuel, c with
  | S fuel, _ :: _ =>
    match pw (skip c) with
    | (Some w, c1) => border_loop fuel skip pw (mkB w (b_style b) (b_color b)) c1
    | (None, c1) =>
      match pK c1 with
      | (Some k, c2) => border_loop fuel skip pw (mkB (b_width b) (b_style b) k) c2
      | (None, c2) =>
        match parse_bstyle c2 with
        | (Some s, c3) => border_loop fuel skip pw (mkB (b_width b) s (b_color b)) c3
        | (None, c3) => (b, c3)
        end
      end
    end
  | _, _ => (b, c)
  end.
Definition parse_border (c : list sst) : option border * list sst :=
  let '(b, r) := border_loop (S (List.length c)) eat_wss parse_line_width border0 c in (Some b, r).
Definition parse_border_top (c : list sst) : option border * list sst :=
  let '(b, r) := border_loop (S (List.length c)) (fun x => x) (fun c => map_fst Line (pL c)) border0 c in (Some b, r).

(** The values that these properties have. *)
Inductive V :=
| VW (w : W) | VC (c : C) | VL (w : line_width) | VS (s : bstyle) | VK (k : K) | VV (v : visibility)
| VIW (i : insets W) | VIC (i : insets C) | VIL (i : insets line_width) | VIS (i : insets bstyle) | VIK (i : insets K)
| VB (b : border).

(** style/computed.cpp:39-99: the members that these properties set. *)
Inductive field := F_MARGIN (s : side) | F_PADDING (s : side) | F_WIDTH (s : side) | F_STYLE (s : side) | F_COLOR (s : side)
| F_TEXT | F_VISIBILITY.
Definition field_eqb (a b : field) : bool :=
  match a, b with
  | F_MARGIN x, F_MARGIN y | F_PADDING x, F_PADDING y | F_WIDTH x, F_WIDTH y | F_STYLE x, F_STYLE y | F_COLOR x, F_COLOR y =>
    side_beq x y
  | F_TEXT, F_TEXT | F_VISIBILITY, F_VISIBILITY => true
  | _, _ => false
  end.

Local Notation val := (val V).
Local Notation computed := (computed V field).
Local Notation registration := (registration V field).
Local Notation set_field := (set_field field_eqb).
Local Notation parser A := (list sst -> option A * list sst).

(** What a member holds; each is of one kind only. *)
Definition asW (v : val) : W := match v with Value (VW w) => w | _ => zeroW end.
Definition asC (v : val) : C := match v with Value (VC c) => c | _ => zeroC end.
Definition asL (v : val) : line_width := match v with Value (VL w) => w | _ => MEDIUM end.
Definition asS (v : val) : bstyle := match v with Value (VS s) => s | _ => S_NONE end.
Definition asK (v : val) : K := match v with Value (VK k) => k | _ => black end.

Definition reads {A} (f : A -> V) (p : parser A) : parser val := fun c => map_fst (fun a => Value (f a)) (p c).

(** A longhand that stores its value as it is, for instance props/margin.cpp:20-53. [inherit] is
    the one of props/base.cpp:166-177. *)
Definition stores (n : string) (f : field) (initial : V) (p : parser val) : registration :=
  mkR (of_string n) false NORMAL (Value initial) (fun c => c_get c f)
      (fun parent child => set_field child f (c_get parent f)) p
      (fun v _ child => set_field child f v) None.

(** A shorthand; props/margin.cpp:156-199 and the like. *)
Definition shorthand (n : string) (initial : V) (load : computed -> V) (p : parser val)
  (longhands : V -> list (string * V)) : registration :=
  mkR (of_string n) false NORMAL (Value initial) (fun c => Value (load c)) (fun _ child => child) p (fun _ _ child => child)
      (Some (fun v => match v with
                      | Value v => map (fun x => (of_string (fst x), Value (snd x))) (longhands v)
                      | Content _ => []
                      end)).

(** The four longhands of a shorthand with one value for each side. *)
Definition four {A} (t r b l : string) (f : A -> V) (i : insets A) : list (string * V) :=
  [(t, f (i_top i)); (r, f (i_end i)); (b, f (i_bottom i)); (l, f (i_start i))].

(** props/margin.cpp:20-199. *)
Definition margins : list registration :=
  [stores "margin-top" (F_MARGIN TOP) (VW zeroW) (reads VW pW);
   stores "margin-right" (F_MARGIN END) (VW zeroW) (reads VW pW);
   stores "margin-bottom" (F_MARGIN BOTTOM) (VW zeroW) (reads VW pW);
   stores "margin-left" (F_MARGIN START) (VW zeroW) (reads VW pW);
   shorthand "margin" (VIW (insets1 zeroW))
     (fun c => VIW (mkI (asW (c_get c (F_MARGIN TOP))) (asW (c_get c (F_MARGIN END)))
                        (asW (c_get c (F_MARGIN BOTTOM))) (asW (c_get c (F_MARGIN START)))))
     (reads VIW (parse_insets pW))
     (fun v => match v with
               | VIW i => [("margin-top", VW (i_top i)); ("margin-bottom", VW (i_bottom i));
                           ("margin-left", VW (i_start i)); ("margin-right", VW (i_end i))]
               | _ => []
               end)]%string.

(** A longhand with a value for two opposite sides. *)
Definition pair_of (n : string) (first second : insets W -> W) (f1 f2 : field) : registration :=
  let put v child := match v with
                     | Value (VIW i) => set_field (set_field child f1 (Value (VW (first i)))) f2 (Value (VW (second i)))
                     | _ => child
                     end in
  let load (c : computed) : val := Value (VIW (insets2 (asW (c_get c f1)) (asW (c_get c f2)))) in
  mkR (of_string n) false NORMAL (Value (VIW (insets1 zeroW))) load
      (fun parent child => put (load parent) child) (reads VIW (parse_insets pW)) (fun v _ child => put v child) None.

(** props/margin.cpp:203-398: these are not shorthands. *)
Definition logical_margins : list registration :=
  [stores "margin-inline-start" (F_MARGIN START) (VW zeroW) (reads VW pW);
   stores "margin-inline-end" (F_MARGIN END) (VW zeroW) (reads VW pW);
   pair_of "margin-inline" i_start i_end (F_MARGIN START) (F_MARGIN END);
   stores "margin-block-start" (F_MARGIN TOP) (VW zeroW) (reads VW pW);
   stores "margin-block-end" (F_MARGIN BOTTOM) (VW zeroW) (reads VW pW);
   pair_of "margin-block" i_top i_bottom (F_MARGIN TOP) (F_MARGIN BOTTOM)]%string.

(** props/padding.cpp:16-260 *)
Definition paddings : list registration :=
  [stores "padding-top" (F_PADDING TOP) (VC zeroC) (reads VC pC);
   stores "padding-right" (F_PADDING END) (VC zeroC) (reads VC pC);
   stores "padding-bottom" (F_PADDING BOTTOM) (VC zeroC) (reads VC pC);
   stores "padding-left" (F_PADDING START) (VC zeroC) (reads VC pC);
   stores "padding-inline-start" (F_PADDING START) (VC zeroC) (reads VC pC);
   stores "padding-inline-end" (F_PADDING END) (VC zeroC) (reads VC pC);
   shorthand "padding" (VIC (insets1 zeroC))
     (fun c => VIC (mkI (asC (c_get c (F_PADDING TOP))) (asC (c_get c (F_PADDING END)))
                        (asC (c_get c (F_PADDING BOTTOM))) (asC (c_get c (F_PADDING START)))))
     (reads VIC (parse_insets pC))
     (fun v => match v with
               | VIC i => four "padding-top" "padding-right" "padding-bottom" "padding-left" VC i
               | _ => []
               end)]%string.

(** props/border.cpp:19-527; the width of the bottom border is read by another parser (477). *)
Definition border_longhands : list registration :=
  [stores "border-top-color" (F_COLOR TOP) (VK black) (reads VK pK);
   stores "border-right-color" (F_COLOR END) (VK black) (reads VK pK);
   stores "border-bottom-color" (F_COLOR BOTTOM) (VK black) (reads VK pK);
   stores "border-left-color" (F_COLOR START) (VK black) (reads VK pK);
   stores "border-top-width" (F_WIDTH TOP) (VL MEDIUM) (reads VL parse_line_width);
   stores "border-right-width" (F_WIDTH END) (VL MEDIUM) (reads VL parse_line_width);
   stores "border-bottom-width" (F_WIDTH BOTTOM) (VL MEDIUM) (reads VL (fun c => map_fst Line (pL c)));
   stores "border-left-width" (F_WIDTH START) (VL MEDIUM) (reads VL parse_line_width);
   stores "border-top-style" (F_STYLE TOP) (VS S_NONE) (reads VS parse_bstyle);
   stores "border-right-style" (F_STYLE END) (VS S_NONE) (reads VS parse_bstyle);
   stores "border-bottom-style" (F_STYLE BOTTOM) (VS S_NONE) (reads VS parse_bstyle);
   stores "border-left-style" (F_STYLE START) (VS S_NONE) (reads VS parse_bstyle)]%string.

(** props/border.cpp:154-202, 343-390, 983-1030: [load] passes start, end, top and bottom to a
    constructor that takes top, right, bottom and left. *)
Definition border_sides : list registration :=
  [shorthand "border-color" (VIK (insets1 black))
     (fun c => VIK (mkI (asK (c_get c (F_COLOR START))) (asK (c_get c (F_COLOR END)))
                        (asK (c_get c (F_COLOR TOP))) (asK (c_get c (F_COLOR BOTTOM)))))
     (reads VIK (parse_insets pK))
     (fun v => match v with
               | VIK i => four "border-top-color" "border-right-color" "border-bottom-color" "border-left-color" VK i
               | _ => []
               end);
   shorthand "border-style" (VIS (insets1 S_NONE))
     (fun c => VIS (mkI (asS (c_get c (F_STYLE START))) (asS (c_get c (F_STYLE END)))
                        (asS (c_get c (F_STYLE TOP))) (asS (c_get c (F_STYLE BOTTOM)))))
     (reads VIS (parse_insets parse_bstyle))
     (fun v => match v with
               | VIS i => four "border-top-style" "border-right-style" "border-bottom-style" "border-left-style" VS i
               | _ => []
               end);
   shorthand "border-width" (VIL (insets1 MEDIUM))
     (fun c => VIL (mkI (asL (c_get c (F_WIDTH START))) (asL (c_get c (F_WIDTH END)))
                        (asL (c_get c (F_WIDTH TOP))) (asL (c_get c (F_WIDTH BOTTOM)))))
     (reads VIL (parse_insets parse_line_width))
     (fun v => match v with
               | VIL i => four "border-top-width" "border-right-width" "border-bottom-width" "border-left-width" VL i
               | _ => []
               end)]%string.

Definition load_border (s : side) (c : computed) : V :=
  VB (mkB (asL (c_get c (F_WIDTH s))) (asS (c_get c (F_STYLE s))) (asK (c_get c (F_COLOR s)))).
Definition three (w s k : string) (b : border) : list (string * V) :=
  [(w, VL (b_width b)); (s, VS (b_style b)); (k, VK (b_color b))].
Definition of_border (f : border -> list (string * V)) (v : V) : list (string * V) :=
  match v with VB b => f b | _ => [] end.
Definition top3 := three "border-top-width" "border-top-style" "border-top-color".
Definition right3 := three "border-right-width" "border-right-style" "border-right-color".
Definition bottom3 := three "border-bottom-width" "border-bottom-style" "border-bottom-color".
Definition left3 := three "border-left-width" "border-left-style" "border-left-color".

(** props/border.cpp:739-979; [border] loads the top border (944). *)
Definition border_shorthands : list registration :=
  [shorthand "border-top" (VB border0) (load_border TOP) (reads VB parse_border_top) (of_border top3);
   shorthand "border-right" (VB border0) (load_border END) (reads VB parse_border) (of_border right3);
   shorthand "border-bottom" (VB border0) (load_border BOTTOM) (reads VB parse_border) (of_border bottom3);
   shorthand "border-left" (VB border0) (load_border START) (reads VB parse_border) (of_border left3);
   shorthand "border" (VB border0) (load_border TOP) (reads VB parse_border)
     (of_border (fun b => top3 b ++ right3 b ++ bottom3 b ++ left3 b)%list)]%string.

(** props/background.cpp:256-296 *)
Definition color_registration : registration :=
  mkR (of_string "color") true NORMAL (Value (VK black)) (fun c => c_get c F_TEXT)
      (fun parent child => set_field child F_TEXT (c_get parent F_TEXT)) (reads VK pK)
      (fun v parent child => set_field child F_TEXT (Value (VK (resolve_color (asK v) (asK (c_get parent F_TEXT)))))) None.

(** props/visibility.cpp:17-58 *)
Definition visibility_registration : registration :=
  stores "visibility" F_VISIBILITY (VV VISIBLE) (reads VV parse_visibility).

(** props/registry.cpp:62, 73-93, 103-109, 152-164, 183-189. The order is
    another one, which matters nowhere: initial values agree where two properties set the same
    member, and only [color] is inherited. *)
Definition box_registry : registry V field :=
  mkG [] (color_registration :: visibility_registration :: border_longhands ++ border_sides ++ border_shorthands
          ++ margins ++ logical_margins ++ paddings).

End Box.
