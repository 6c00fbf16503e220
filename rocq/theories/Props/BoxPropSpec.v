(** What margins, paddings, borders, [color] and [visibility] should be, in terms of the
    declarations that apply to an element. *)
From Coq Require Import String List NArith Bool.
From Verif.Base Require Import Str Outcome.
From Verif.Css Require Import LexerModel ParserModel.
From Verif.Style Require Import CascadeModel CascadeSpec.
From Verif.Props Require Import VarModel EngineModel EngineSpec BoxPropModel.
Import ListNotations.
Local Open Scope list_scope.

(** The property that sets a member of the computed values. *)
Definition name_of (f : field) : string :=
  match f with
  | F_MARGIN TOP => "margin-top" | F_MARGIN END => "margin-right" | F_MARGIN BOTTOM => "margin-bottom" | F_MARGIN START => "margin-left"
  | F_PADDING TOP => "padding-top" | F_PADDING END => "padding-right" | F_PADDING BOTTOM => "padding-bottom" | F_PADDING START => "padding-left"
  | F_WIDTH TOP => "border-top-width" | F_WIDTH END => "border-right-width" | F_WIDTH BOTTOM => "border-bottom-width" | F_WIDTH START => "border-left-width"
  | F_STYLE TOP => "border-top-style" | F_STYLE END => "border-right-style" | F_STYLE BOTTOM => "border-bottom-style" | F_STYLE START => "border-left-style"
  | F_COLOR TOP => "border-top-color" | F_COLOR END => "border-right-color" | F_COLOR BOTTOM => "border-bottom-color" | F_COLOR START => "border-left-color"
  | F_TEXT => "color" | F_VISIBILITY => "visibility"
  end%string.

(** The logical properties for the same side. *)
Definition logical_of (f : field) : list string :=
  match f with
  | F_MARGIN TOP => ["margin-block-start"; "margin-block"] | F_MARGIN BOTTOM => ["margin-block-end"; "margin-block"]
  | F_MARGIN START => ["margin-inline-start"; "margin-inline"] | F_MARGIN END => ["margin-inline-end"; "margin-inline"]
  | F_PADDING START => ["padding-inline-start"] | F_PADDING END => ["padding-inline-end"]
  | _ => []
  end%string.

(** The shorthands that it is part of. *)
Definition border_side (s : side) : string :=
  match s with TOP => "border-top" | END => "border-right" | BOTTOM => "border-bottom" | START => "border-left" end%string.
Definition shorthands_of (f : field) : list string :=
  match f with
  | F_MARGIN _ => ["margin"] | F_PADDING _ => ["padding"]
  | F_WIDTH s => ["border-width"; border_side s; "border"]
  | F_STYLE s => ["border-style"; border_side s; "border"]
  | F_COLOR s => ["border-color"; border_side s; "border"]
  | F_TEXT | F_VISIBILITY => []
  end%string.

Definition among (n : str) (l : list string) : Prop := In n (map of_string l).

(** The property was read from a style sheet. *)
Definition read {V field} (g : registry V field) (p : prop V field) : Prop :=
  exists fuel n content, parse_value fuel g n content = Ok p.

(** Importance, origin and specificity of a declaration. *)
Definition weight_of {V field} (m : matched V field) : weight := mkWeight (m_important m) (m_origin m) (m_spec m).
Definition name {V field} (m : matched V field) : str := prop_name (m_prop m).

Section Box.
Context {W C L K : Type}
        (pW : list sst -> option W * list sst) (pC : list sst -> option C * list sst)
        (pL : list sst -> option L * list sst) (pK : list sst -> option K * list sst)
        (zeroW : W) (zeroC : C) (black current : K) (resolve_color : K -> K -> K).

Local Notation V := (@V W C L K).
Local Notation G := (@box_registry W C L K pW pC pL pK zeroW zeroC black current resolve_color).
Local Notation matched := (matched V field).
Local Notation computed := (computed V field).

Definition initial_of (f : field) : V :=
  match f with
  | F_MARGIN _ => VW zeroW | F_PADDING _ => VC zeroC | F_WIDTH _ => VL MEDIUM | F_STYLE _ => VS S_NONE
  | F_COLOR _ | F_TEXT => VK black | F_VISIBILITY => VV VISIBLE
  end.

(** The color of the text is relative to that of the parent, everything else is kept as it is. *)
Definition color_in (v : val V) : K := match v with Value (VK k) => k | _ => black end.
Definition value_of (f : field) (v : val V) (parent : computed) : val V :=
  match f with
  | F_TEXT => Value (VK (resolve_color (color_in v) (color_in (c_get parent F_TEXT))))
  | _ => v
  end.

(** What is declared, in CSS: the content of the declaration is the value. *)
Definition keyword (k : string) : sst := TOK (mkT IDENT (of_string k)).
Definition says (f : field) (content : list sst) (v : V) : Prop :=
  match f with
  | F_MARGIN _ => exists w, pW content = (Some w, []) /\ v = VW w
  | F_PADDING _ => exists x, pC content = (Some x, []) /\ v = VC x
  | F_WIDTH BOTTOM => exists l, pL content = (Some l, []) /\ v = VL (Line l)
  | F_WIDTH _ =>
      (exists k w, content = [keyword k] /\ In (k, w) [("thin", THIN); ("medium", MEDIUM); ("thick", THICK)]%string /\ v = VL w) \/
      (exists l s r, pL content = (Some l, []) /\ content = s :: r /\
         Forall (fun k => is_ident k s = false) ["thin"; "medium"; "thick"]%string /\ v = VL (Line l))
  | F_STYLE _ => exists k s, content = [keyword k] /\
      In (k, s) [("none", S_NONE); ("solid", S_SOLID); ("dashed", S_DASHED); ("dotted", S_DOTTED); ("hidden", S_HIDDEN);
                 ("double", S_DOUBLE); ("groove", S_GROOVE); ("ridge", S_RIDGE); ("outset", S_OUTSET)]%string /\ v = VS s
  | F_COLOR _ | F_TEXT => exists k, pK content = (Some k, []) /\ v = VK k
  | F_VISIBILITY => exists k x, content = [keyword k] /\
      In (k, x) [("visible", VISIBLE); ("hidden", V_HIDDEN); ("collapse", COLLAPSE)]%string /\ v = VV x
  end.

(** The content starts with none of the words that every property has, nor white space. *)
Definition starts_plain (content : list sst) : Prop :=
  match content with
  | [] => False
  | s :: _ => Forall (fun k => is_ident k s = false) ["initial"; "inherit"; "unset"; "revert"]%string /\
              (forall n c, s = FUNC n c -> token_eqb n toggle_name = false) /\
              (forall t, s = TOK t -> t_type t <> WHITESPACE)
  end.

(** [m] comes from the declaration [n: content]. *)
Definition declares (n : string) (content : list sst) (m : matched) : Prop :=
  exists fuel, parse_value fuel G (of_string n) content = Ok (m_prop m).
Definition from_sheet (ms : list matched) : Prop := Forall (fun m => read G (m_prop m)) ms.

(** Declarations as they come from style sheets, none of which says [revert], and without
    shorthands that cannot be read. *)
Definition sensible (parent child : computed) (ms : list matched) : Prop :=
  Forall (fun m => read G (m_prop m) /\ no_revert (m_prop m) /\
    (is_short (m_prop m) = true -> forall x, ex G parent child (m_prop m) = Some x -> x <> [])) ms.

(** Nothing about [f], itself, as part of a shorthand, or by its logical name. *)
Definition silent (f : field) (ms : list matched) : Prop :=
  Forall (fun m => ~ among (name m) (name_of f :: shorthands_of f ++ logical_of f)) ms.

(** [m] is the declaration of [f] that counts: it declares [f], earlier declarations of [f] are
    not stronger, later ones are weaker, and the logical names are not used. *)
Definition decisive (f : field) (l1 : list matched) (m : matched) (l2 : list matched) : Prop :=
  name m = of_string (name_of f) /\
  Forall (fun m' => among (name m') (name_of f :: shorthands_of f) -> ~ weaker (weight_of m) (weight_of m')) l1 /\
  Forall (fun m' => among (name m') (name_of f :: shorthands_of f) -> weaker (weight_of m') (weight_of m)) l2 /\
  Forall (fun m' => ~ among (name m') (logical_of f)) (l1 ++ l2).

(** The same for a shorthand that sets [f]. *)
Definition decisive_short (f : field) (l1 : list matched) (m : matched) (l2 : list matched) : Prop :=
  among (name m) (shorthands_of f) /\
  Forall (fun m' => among (name m') (name_of f :: shorthands_of f) -> ~ weaker (weight_of m) (weight_of m')) l1 /\
  Forall (fun m' => among (name m') (name_of f :: shorthands_of f) -> weaker (weight_of m') (weight_of m)) l2 /\
  Forall (fun m' => ~ among (name m') (logical_of f)) (l1 ++ l2).

(** No logical names at all. *)
Definition physical (ms : list matched) : Prop := Forall (fun m => forall f, ~ among (name m) (logical_of f)) ms.

(** ** Shorthands *)

(** The shorthands with one to four values, one for each side. *)
Inductive sided := MARGIN | PADDING | B_STYLE | B_COLOR.
Definition sided_name (x : sided) : string :=
  match x with MARGIN => "margin" | PADDING => "padding" | B_STYLE => "border-style" | B_COLOR => "border-color" end%string.
Definition member (x : sided) (s : side) : field :=
  match x with MARGIN => F_MARGIN s | PADDING => F_PADDING s | B_STYLE => F_STYLE s | B_COLOR => F_COLOR s end.

(** CSS: one value is for all sides; two are for top and bottom, and for the others; three
    for the top, the left and the right, and the bottom; four for the top, right, bottom and left. *)
Definition for_side {A} (s : side) (vs : list A) : option A :=
  match vs, s with
  | [a], _ => Some a
  | [a; b], (TOP | BOTTOM) => Some a
  | [a; b], (START | END) => Some b
  | [a; b; c], TOP => Some a
  | [a; b; c], (START | END) => Some b
  | [a; b; c], BOTTOM => Some c
  | [a; b; c; d], TOP => Some a
  | [a; b; c; d], END => Some b
  | [a; b; c; d], BOTTOM => Some c
  | [a; b; c; d], START => Some d
  | _, _ => None
  end.

(** The word [w] is read as one value, whatever comes after. *)
Definition word {A} (p : list sst -> option A * list sst) (w : list sst) : Prop :=
  w <> [] /\ starts_plain w /\ exists v, forall rest, p (w ++ rest) = (Some v, rest).
Definition side_word (x : sided) (w : list sst) : Prop :=
  match x with
  | MARGIN => word pW w | PADDING => word pC w | B_COLOR => word pK w
  | B_STYLE => word parse_bstyle w
  end.
Definition stops (x : sided) : Prop :=
  match x with
  | MARGIN => pW [] = (None, []) | PADDING => pC [] = (None, []) | B_COLOR => pK [] = (None, [])
  | B_STYLE => True
  end.

(** ** Borders *)

(** A part of the value of [border]. *)
Inductive part := P_WIDTH (w : line_width (L := L)) | P_STYLE (s : bstyle) | P_COLOR (k : K).
Definition is_part (w : list sst) (p : part) : Prop :=
  w <> [] /\ starts_plain w /\
  match p with
  | P_WIDTH x => forall rest, parse_line_width pL (w ++ rest) = (Some x, rest)
  | P_COLOR k => forall rest, parse_line_width pL (w ++ rest) = (None, w ++ rest) /\ pK (w ++ rest) = (Some k, rest)
  | P_STYLE s => forall rest, parse_line_width pL (w ++ rest) = (None, w ++ rest) /\ pK (w ++ rest) = (None, w ++ rest) /\
                              parse_bstyle (w ++ rest) = (Some s, rest)
  end.
(** The last one of its kind, else what CSS says for omitted parts. *)
Definition last_width (ps : list part) : line_width :=
  fold_left (fun a p => match p with P_WIDTH w => w | _ => a end) ps MEDIUM.
Definition last_style (ps : list part) : bstyle :=
  fold_left (fun a p => match p with P_STYLE s => s | _ => a end) ps S_NONE.
Definition last_color (ps : list part) : K :=
  fold_left (fun a p => match p with P_COLOR k => k | _ => a end) ps current.

End Box.
