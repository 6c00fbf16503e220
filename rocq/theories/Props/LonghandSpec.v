(** What CSS says about these properties: their keywords, their initial values, whether they are
    inherited, and what their shorthands set. *)
From Coq Require Import String List NArith ZArith QArith Bool.
From Verif.Base Require Import Str Outcome.
From Verif.Css Require Import LexerModel ParserModel.
From Verif.Values Require Import Number LengthModel.
From Verif.Style Require Import CascadeModel CascadeSpec.
From Verif.Props Require Import VarModel EngineModel EngineSpec BoxPropSpec LonghandModel.
Import ListNotations.
Local Open Scope list_scope.
Local Open Scope string_scope.

(** The keyword [k], in any case. *)
Definition spells (k : string) (s : sst) : Prop :=
  exists d, s = TOK (mkT IDENT d) /\ map lower d = of_string k.

Definition align_positions := ["center"; "start"; "end"; "flex-start"; "flex-end"].
Definition self_positions := ["normal"; "stretch"; "baseline"; "center"; "start"; "end"; "self-start"; "self-end"; "flex-start"; "flex-end"].
Definition distributions := ["space-between"; "space-around"; "space-evenly"; "stretch"].
Definition breaks :=
  ["auto"; "avoid"; "always"; "all"; "avoid-page"; "page"; "left"; "right"; "recto"; "verso"; "avoid-column"; "column"; "avoid-region"; "region"].
Definition preferred := ["auto"; "min-content"; "max-content"; "fit-content"].
Definition limits := ["none"; "min-content"; "max-content"; "fit-content"].
Definition overflows := ["visible"; "hidden"; "clip"; "scroll"; "auto"].

(** The keywords of the properties (css-align-3, css-inline-3, css-break-3, css-page-3, css2 9.5,
    css-logical-1, css-transforms-1, css-position-3, css-sizing-3 and 4, css-overflow-3, css2 17,
    css-text-3, css-flexbox-1, css-lists-3); [display] comes below. *)
Definition standard : list (string * list string) :=
  [("align-content", "normal" :: "baseline" :: distributions ++ align_positions);
   ("justify-content", "normal" :: "left" :: "right" :: distributions ++ align_positions);
   ("justify-self", "auto" :: "left" :: "right" :: self_positions);
   ("align-self", "auto" :: self_positions);
   ("justify-items", "legacy" :: "left" :: "right" :: self_positions);
   ("align-items", self_positions);
   ("row-gap", ["normal"]); ("column-gap", ["normal"]);
   ("dominant-baseline", ["auto"; "text-bottom"; "alphabetic"; "ideographic"; "middle"; "central"; "mathematical"; "hanging"; "text-top"]);
   ("baseline-source", ["auto"; "first"; "last"]);
   ("alignment-baseline", ["baseline"; "text-bottom"; "alphabetic"; "ideographic"; "middle"; "central"; "mathematical"; "text-top"]);
   ("baseline-shift", ["sub"; "super"; "top"; "center"; "bottom"]);
   ("break-after", breaks); ("break-before", breaks);
   ("break-inside", ["auto"; "avoid"; "avoid-page"; "avoid-column"; "avoid-region"]);
   ("float", ["none"; "left"; "right"; "inline-start"; "inline-end"]);
   ("clear", ["none"; "left"; "right"; "both"; "inline-start"; "inline-end"]);
   ("transform-box", ["content-box"; "border-box"; "fill-box"; "stroke-box"; "view-box"]);
   ("position", ["static"; "relative"; "absolute"; "fixed"; "sticky"]);
   ("top", ["auto"]); ("right", ["auto"]); ("bottom", ["auto"]); ("left", ["auto"]); ("z-index", ["auto"]);
   ("box-sizing", ["content-box"; "border-box"]);
   ("width", preferred); ("height", preferred); ("min-width", preferred); ("min-height", preferred);
   ("max-width", limits); ("max-height", limits);
   ("overflow-x", overflows); ("overflow-y", overflows); ("overflow-block", overflows); ("overflow-inline", overflows);
   ("table-layout", ["auto"; "fixed"]); ("caption-side", ["top"; "bottom"]); ("border-collapse", ["separate"; "collapse"]);
   ("text-align", ["start"; "end"; "left"; "right"; "center"; "justify"; "match-parent"; "justify-all"]);
   ("text-transform", ["none"; "capitalize"; "uppercase"; "lowercase"; "full-width"; "full-size-kana"]);
   ("white-space", ["normal"; "pre"; "nowrap"; "pre-wrap"; "break-spaces"; "pre-line"]);
   ("flex-basis", "content" :: preferred);
   ("flex-direction", ["row"; "row-reverse"; "column"; "column-reverse"]);
   ("flex-wrap", ["nowrap"; "wrap"; "wrap-reverse"]);
   ("list-style-image", ["none"]); ("list-style-type", ["none"]); ("list-style-position", ["inside"; "outside"])].

(** Those that do not work. *)
Definition unsupported : list (string * string) :=
  map (fun n => (n, "baseline")) ["align-content"; "justify-self"; "align-self"; "justify-items"; "align-items"]
  ++ map (fun n => (n, "fit-content")) ["width"; "height"; "min-width"; "min-height"; "max-width"; "max-height"; "flex-basis"]
  ++ map (fun n => (n, "clip")) ["overflow-x"; "overflow-y"; "overflow-block"; "overflow-inline"]
  ++ [("dominant-baseline", "hanging");
      ("break-after", "always"); ("break-after", "all"); ("break-before", "always"); ("break-before", "all");
      ("text-align", "match-parent"); ("text-align", "justify-all");
      ("text-transform", "capitalize"); ("text-transform", "lowercase"); ("text-transform", "full-width"); ("text-transform", "full-size-kana")].

(** [display] (css-display-3): the words with one meaning, and the types of boxes. *)
Definition display_inner := ["flow"; "flow-root"; "table"; "flex"; "grid"; "ruby"; "math"].
Definition display_outer := ["block"; "inline"; "run-in"].
Definition display_single :=
  ["none"; "contents"; "table-row-group"; "table-header-group"; "table-footer-group"; "table-row"; "table-cell";
   "table-column-group"; "table-column"; "table-caption"; "ruby-base"; "ruby-text"; "ruby-base-container"; "ruby-text-container"].
Definition display_legacy :=
  [("inline-block", "flow-root"); ("inline-table", "table"); ("inline-flex", "flex"); ("inline-grid", "grid")].

(** The shorthands that a property is part of. *)
Definition shorthands_of (n : string) : list string :=
  if existsb (String.eqb n) ["overflow-x"; "overflow-y"] then ["overflow"]
  else if existsb (String.eqb n) ["flex-direction"; "flex-wrap"] then ["flex-flow"]
  else if existsb (String.eqb n) ["flex-basis"; "flex-grow"; "flex-shrink"] then ["flex"]
  else if existsb (String.eqb n) ["list-style-image"; "list-style-type"; "list-style-position"] then ["list-style"]
  else if existsb (String.eqb n) ["baseline-source"; "alignment-baseline"; "baseline-shift"] then ["vertical-align"]
  else [].

(** The names in props/registry.cpp, in its order, and the other names of some of them
    (props/align.cpp:231-233 and 270-272, props/fonts.cpp:127). *)
Definition registered : list string :=
  ["align-content"; "justify-content"; "justify-self"; "align-self"; "justify-items"; "align-items"; "row-gap";
   "column-gap"; "dominant-baseline"; "baseline-source"; "alignment-baseline"; "baseline-shift"; "vertical-align";
   "background-attachment"; "background-color"; "background-image"; "background-position"; "background-repeat";
   "background"; "color"; "display"; "table-layout"; "caption-side"; "transform-origin"; "transform-box";
   "transform"; "visibility"; "border-top-color"; "border-right-color"; "border-bottom-color"; "border-left-color";
   "border-color"; "border-top-width"; "border-right-width"; "border-bottom-width"; "border-left-width";
   "border-style"; "border-top-style"; "border-right-style"; "border-bottom-style"; "border-left-style";
   "border-top-right-radius"; "border-top-left-radius"; "border-bottom-right-radius"; "border-bottom-left-radius";
   "border-radius"; "border-top"; "border-right"; "border-bottom"; "border-left"; "border"; "border-width";
   "border-collapse"; "border-spacing"; "clip-path"; "content"; "break-after"; "break-before"; "break-inside";
   "flex-basis"; "flex-direction"; "flex-grow"; "flex-shrink"; "flex-wrap"; "flex-flow"; "flex"; "float"; "clear";
   "font-family"; "font-weight"; "font-width"; "font-style"; "font-size"; "font"; "line-height"; "margin-top";
   "margin-right"; "margin-bottom"; "margin-left"; "margin"; "margin-inline-start"; "margin-inline-end";
   "margin-inline"; "margin-block-start"; "margin-block-end"; "margin-block"; "outline"; "outline-color";
   "outline-offset"; "outline-style"; "outline-width"; "overflow-x"; "overflow-y"; "overflow-block";
   "overflow-inline"; "overflow"; "opacity"; "padding-top"; "padding-right"; "padding-bottom"; "padding-left";
   "padding-inline-start"; "padding-inline-end"; "padding"; "position"; "top"; "right"; "bottom"; "left";
   "box-sizing"; "width"; "height"; "min-width"; "min-height"; "max-width"; "max-height"; "text-align";
   "text-transform"; "white-space"; "z-index"; "x"; "y"; "cx"; "cy"; "r"; "fill"; "d"; "stroke"; "stroke-opacity";
   "viewbox"; "fill-opacity"; "stroke-width"; "counter-reset"; "counter-increment"; "counter-set";
   "list-style-image"; "list-style-type"; "list-style-position"; "list-style"; "marker-size"].
Definition also : list string := ["grid-row-gap"; "grid-column-gap"; "font-stretch"].

Section Longhand.
Context {P F I : Type}
        (pP : list sst -> option P * list sst) (pF : list sst -> option F * list sst)
        (pI : list sst -> option I * list sst) (zero : P).
Local Notation V := (@V P F I).
Local Notation G := (@long_registry P F I pP pF pI zero).
Local Notation matched := (matched V field).
Local Notation computed := (computed V field).

(** The words that a value stands for, if it can be said in words. *)
Definition words (v : V) : list string :=
  match v with
  | Key k => [k]
  | Align p k => match p with Some p => [p] | None => [] end ++ match k with Some k => [k] | None => [] end
  | _ => []
  end.

(** The initial values, and whether the property is inherited. *)
Definition initials : list (string * (bool * V)) :=
  map (fun n => (n, (false, Key "auto")))
    ["baseline-source"; "break-after"; "break-before"; "break-inside"; "top"; "right"; "bottom"; "left"; "z-index"; "width"; "height";
     "min-width"; "min-height"; "table-layout"; "flex-basis"]
  ++ map (fun n => (n, (false, Align None (Some "auto")))) ["justify-self"; "align-self"]
  ++ map (fun n => (n, (false, Align None (Some "normal")))) ["align-content"; "justify-content"; "align-items"]
  ++ map (fun n => (n, (false, Key "none"))) ["float"; "clear"; "max-width"; "max-height"]
  ++ map (fun n => (n, (false, Key "normal"))) ["row-gap"; "column-gap"]
  ++ map (fun n => (n, (false, Key "visible"))) ["overflow-x"; "overflow-y"; "overflow-block"; "overflow-inline"]
  ++ [("justify-items", (false, Align (Some "legacy") None)); ("dominant-baseline", (true, Key "auto"));
      ("alignment-baseline", (false, Key "baseline")); ("baseline-shift", (false, Len zero));
      ("transform-box", (false, Key "view-box")); ("position", (false, Key "static")); ("box-sizing", (false, Key "content-box"));
      ("display", (false, Disp "flow" "inline" false)); ("opacity", (false, Num 1));
      ("flex-direction", (false, Key "row")); ("flex-wrap", (false, Key "nowrap")); ("flex-grow", (false, Num 0)); ("flex-shrink", (false, Num 1));
      ("caption-side", (true, Key "top")); ("border-collapse", (true, Key "separate")); ("text-align", (true, Key "start"));
      ("text-transform", (true, Key "none")); ("white-space", (true, Key "normal"));
      ("list-style-image", (true, Key "none")); ("list-style-type", (true, Ident (of_string "disc")));
      ("list-style-position", (true, Key "outside"))].

(** Those that are otherwise, with what they are. *)
Definition otherwise : list (string * (bool * V)) :=
  [("align-content", (false, Align None (Some "stretch"))); ("justify-content", (false, Align None (Some "flex-start")));
   ("align-items", (false, Align None (Some "stretch"))); ("dominant-baseline", (false, Key "auto")); ("text-align", (true, Key "left"))].

(** [m] comes from the declaration [n: content]. *)
Definition declares (n : string) (content : list sst) (m : matched) : Prop :=
  exists fuel, parse_value fuel G (of_string n) content = Ok (m_prop m).
Definition from_sheet (ms : list matched) : Prop := Forall (fun m => read G (m_prop m)) ms.

(** Nothing about [n], itself or as part of a shorthand. *)
Definition silent (n : string) (ms : list matched) : Prop :=
  Forall (fun m => ~ among (name m) (n :: shorthands_of n)) ms.

(** [m] is the declaration that counts for [n]: it is one of [n] or of a shorthand for it, those
    before it are not stronger, those after it are weaker. *)
Definition counts (n : string) (l1 : list matched) (m : matched) (l2 : list matched) : Prop :=
  Forall (fun m' => among (name m') (n :: shorthands_of n) -> ~ weaker (weight_of m) (weight_of m')) l1 /\
  Forall (fun m' => among (name m') (n :: shorthands_of n) -> weaker (weight_of m') (weight_of m)) l2.

(** An optional word. *)
Definition maybe (k : option string) (w : list sst) : Prop :=
  match k with Some k => exists s, w = [s] /\ spells k s | None => w = [] end.
Definition one_of (k : option string) (l : list string) : Prop := match k with Some k => In k l | None => True end.
Definition or_else (k : option string) (d : string) : string := match k with Some k => k | None => d end.

(** Text that is a value of its own: no number, no identifier, and not the start of anything longer. *)
Definition sound {A} (p : list sst -> option A * list sst) (w : list sst) (v : A) : Prop :=
  starts_plain w /\
  match w with TOK t :: _ => t_type t <> NUMBER /\ t_type t <> IDENT | _ => True end /\
  forall r, p (w ++ r)%list = (Some v, r).
Definition number_is (w : list sst) (q : Q) : Prop :=
  exists d, w = [TOK (mkT NUMBER (show_decimal d))] /\ decimal_ok d /\ q == decimal_value d.

(** The size that [flex] starts from. *)
Definition basis_is (w : list sst) (v : V) : Prop :=
  (exists k s, In k ["auto"; "content"; "min-content"; "max-content"] /\ w = [s] /\ spells k s /\ v = Key k) \/
  (exists p, sound pP w p /\ v = Len p).
(** css-flexbox-1 7.1: what [flex] says about the basis, how much to grow and how much to shrink. *)
Inductive flex_is : list sst -> V -> Q -> Q -> Prop :=
| flex_none s : spells "none" s -> flex_is [s] (Key "auto") 0 0
| flex_grow w g : number_is w g -> flex_is w (Len zero) g 1
| flex_both w1 g w2 s : number_is w1 g -> number_is w2 s -> flex_is (w1 ++ w2)%list (Len zero) g s
| flex_grow_basis w1 g w b : number_is w1 g -> basis_is w b -> flex_is (w1 ++ w)%list b g 1
| flex_both_basis w1 g w2 s w b : number_is w1 g -> number_is w2 s -> basis_is w b -> flex_is (w1 ++ w2 ++ w)%list b g s
| flex_basis w b : basis_is w b -> flex_is w b 1 1
| flex_basis_grow w b w1 g : basis_is w b -> number_is w1 g -> flex_is (w ++ w1)%list b g 1
| flex_basis_both w b w1 g w2 s : basis_is w b -> number_is w1 g -> number_is w2 s -> flex_is (w ++ w1 ++ w2)%list b g s.

(** css-lists-3 3.5: what [list-style] says about the image and the type; the word [t] is none of
    [none], [inside], [outside] and the ones every property knows. *)
Definition counter (w : list sst) (v : V) : Prop :=
  exists d, w = [TOK (mkT IDENT d)] /\ v = Ident d /\
    ~ In (map lower d) (map of_string ["none"; "inside"; "outside"; "initial"; "inherit"; "unset"; "revert"]).
Definition picture (w : list sst) (v : V) : Prop := exists i, sound pI w i /\ v = Img i.
Inductive list_is : list sst -> V -> V -> Prop :=
| list_none s : spells "none" s -> list_is [s] (Key "none") (Key "none")
| list_type w t : counter w t -> list_is w (Key "none") t
| list_image w i : picture w i -> list_is w i (Ident (of_string "disc"))
| list_type_image w t w' i : counter w t -> picture w' i -> list_is (w ++ w')%list i t
| list_image_type w t w' i : counter w t -> picture w' i -> list_is (w' ++ w)%list i t
| list_none_type s w t : spells "none" s -> counter w t -> list_is (s :: w) (Key "none") t
| list_none_image s w i : spells "none" s -> picture w i -> list_is (s :: w) i (Key "none").

(** css-inline-3 4.2: the parts of [vertical-align]. *)
Definition vertical_part (n : string) (w : list sst) (v : V) : Prop :=
  (exists k s, w = [s] /\ spells k s /\ v = Key k /\
    ((n = "baseline-source" /\ In k ["first"; "last"]) \/
     (n = "alignment-baseline" /\ In k ["baseline"; "text-bottom"; "alphabetic"; "ideographic"; "middle"; "central"; "mathematical"; "text-top"]) \/
     (n = "baseline-shift" /\ In k ["sub"; "super"; "top"; "center"; "bottom"]))) \/
  (n = "baseline-shift" /\ exists p, sound pP w p /\ v = Len p).

(** A parser that leaves identifiers alone: they are no lengths, percentages or images. *)
Definition spares_idents {A} (p : list sst -> option A * list sst) : Prop :=
  forall d r, p (TOK (mkT IDENT d) :: r) = (None, TOK (mkT IDENT d) :: r).
(** One that leaves the end alone. *)
Definition spares_end {A} (p : list sst -> option A * list sst) : Prop := p [] = (None, []).
End Longhand.
