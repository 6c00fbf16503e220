(** What a user sees of a styled document, said without the builder: which characters are shown, in what
    order and within which inline boxes, and which elements have a box. *)
From Coq Require Import List NArith Bool Arith.
From Verif.Base Require Import Str.
From Verif.Boxes Require Import BoxModel.
Import ListNotations.
Local Open Scope N_scope.

(** ** Reading a box tree

    A character with the inline boxes it is in (innermost first), or the start of the box of an element.
    A child of a box with prose is read where its strut is; a child without a strut is not read. *)
Inductive sign := Ch (c : N) (spans : list N) | Mark (id : N).
Definition of_origin (o : origin) : list sign := match o with OElem id => [Mark id] | _ => [] end.
Definition read_items (kids : list (list sign)) (l : list item) : list sign :=
  flat_map (fun i => match i with Rune c sp => [Ch c sp] | Strut k _ => nth k kids [] end) l.
Fixpoint read (b : box) : list sign :=
  match b with
  | Box _ c kids o =>
      of_origin o ++
      match c with
      | CProse p => read_items (map read kids) (p_items p)
      | CNone => concat (map read kids)
      | CScene | CShape => []
      end
  end.
(** White space aside. *)
Definition inked (x : sign) : bool := match x with Ch c _ => negb (is_space c) | Mark _ => true end.
Definition ink (l : list sign) : list sign := filter inked l.

(** ** What should be shown

    [sty] is the style of the element a text is in, [sp] the inline boxes around it. *)
Definition letters (sty : style) (sp : list N) (s : str) : list sign := map (fun c => Ch (transformed (s_case sty) c) sp) s.

(** Whether a pseudo-element is there, and its text. *)
Definition pseudo_text (e : elem) (w : which) (x : pseudo) : option str :=
  match s_display (ps_style x) with
  | NOBOX => None
  | _ =>
      match w, ps_content x with
      | MARKER, _ =>
          match s_list (e_style e) with
          | NOLIST => None
          | l => Some (match ps_content x with
                       | NormalContent => match l with
                                          | DISC => [8226] | CIRCLE => [9702] | SQUARE => [9642]
                                          | DECIMAL => e_number e ++ [46] | _ => []
                                          end
                       | TextContent s => s
                       | _ => []
                       end)
          end
      | _, TextContent s => Some s
      | _, OtherContent => Some []
      | _, _ => None
      end
  end.
(** The text of a pseudo-element that is not in line is in an inline box within a box of its own. *)
Definition shown_pseudo (e : elem) (w : which) (x : option pseudo) (sp : list N) : list sign :=
  match x with
  | None => []
  | Some x =>
      match pseudo_text e w x with
      | None => []
      | Some s => let n := s_span (ps_style x) in
                  letters (ps_style x) (match s_display (ps_style x) with Default _ INLINE _ | CONTENTS => n :: sp | _ => [n; n] end) s
      end
  end.

Inductive mode := Flow (flex : bool) | Graphics.
(** In a flex container every element has a box; elsewhere those that are not plain inline elements. *)
Definition boxed (flex : bool) (t : tag) (d : display) : bool :=
  match d with
  | Default i o _ => flex || match o with BLOCK => true | _ => match t with IMG | SVG => true | _ => match i with FLOW => false | _ => true end end end
  | _ => true
  end.
Definition is_table (d : display) : bool := match d with Default TABLE _ _ => true | _ => false end.
Definition is_flex (d : display) : bool := match d with Default FLEX _ _ => true | _ => false end.
Definition list_item (d : display) : bool := match d with Default _ _ it => it | _ => false end.
Definition has_display (i : internal) (n : node) : bool :=
  match n with Elem e _ => match s_display (e_style e), i with
    | Internal TABLE_CAPTION, TABLE_CAPTION | Internal TABLE_COLUMN, TABLE_COLUMN => true | _, _ => false end | _ => false end.

Fixpoint shown (m : mode) (n : node) (sty : style) (sp : list N) : list sign :=
  match n with
  | Other => []
  | Txt s => match m with Graphics => [] | _ => letters sty sp s end
  | Elem e kids =>
      let here := [s_span (e_style e)] in
      let inner := fun fl sty sp =>
        (if list_item (s_display (e_style e)) then shown_pseudo e MARKER (e_marker e) sp else []) ++
        shown_pseudo e BEFORE (e_before e) sp ++
        flat_map (fun k => shown (Flow fl) k sty sp) kids ++
        shown_pseudo e AFTER (e_after e) sp in
      match m with
      | Graphics =>
          match s_display (e_style e), e_tag e with
          | NOBOX, _ => []
          | _, SHAPE => [Mark (e_id e)]
          | _, (G | SVG) => Mark (e_id e) :: flat_map (fun k => shown Graphics k sty sp) kids
          | _, FOREIGN => Mark (e_id e) :: inner false (e_style e) here
          | _, _ => inner false (e_style e) here
          end
      | Flow flex =>
          match s_display (e_style e) with
          | NOBOX => []
          | CONTENTS => inner flex (e_style e) sp
          | Internal TABLE_COLUMN => [Mark (e_id e)]
          | Internal TABLE_COLUMN_GROUP =>
              Mark (e_id e) :: flat_map (fun k => if has_display TABLE_COLUMN k then shown (Flow false) k sty sp else []) kids
          | d =>
              if boxed flex (e_tag e) d then
                Mark (e_id e) ::
                match e_tag e with
                | BR | IMG | INPUT_HIDDEN | INPUT_BUTTON | VOID => []
                | INPUT_TEXT v => map (fun c => Ch c here) v
                | SVG => flat_map (fun k => shown Graphics k sty sp) kids
                | _ =>
                    if is_table d then
                      let part := fun (p : node -> bool) => flat_map (fun k => if p k then shown (Flow false) k (e_style e) here else []) kids in
                      let captions := part (has_display TABLE_CAPTION) in
                      let rest := part (fun k => negb (has_display TABLE_CAPTION k)) in
                      (if s_top (e_style e) then captions else []) ++
                      shown_pseudo e BEFORE (e_before e) here ++
                      Mark (e_id e) :: rest ++
                      (if s_top (e_style e) then [] else captions) ++
                      shown_pseudo e AFTER (e_after e) here
                    else inner (is_flex d) (e_style e) here
                end
              else
                match e_tag e with
                | BR | INPUT_HIDDEN | VOID => []
                | INPUT_BUTTON => [Mark (e_id e)]
                | INPUT_TEXT v => Mark (e_id e) :: map (fun c => Ch c here) v
                | _ => inner false (e_style e) (s_span (e_style e) :: sp)
                end
          end
      end
  end.
Definition shown_document (e : elem) (kids : list node) : list sign :=
  Mark (e_id e) ::
  match e_tag e with
  | OTHER =>
      let sp := [s_span (e_style e)] in
      (if list_item (s_display (e_style e)) then shown_pseudo e MARKER (e_marker e) sp else []) ++
      shown_pseudo e BEFORE (e_before e) sp ++ flat_map (fun k => shown (Flow false) k (e_style e) sp) kids ++
      shown_pseudo e AFTER (e_after e) sp
  | _ => []
  end.

(** ** Documents the builder can cope with

    Parts of tables are in tables; parts other than cells and captions have no generated content; a table's
    generated content is not in line; [display: contents] sets no text style of its own; a text or button
    input is not [display: inline]; in an SVG there are shapes, groups and foreign objects that are not hidden. *)
Inductive place := PFlow | PTable | PGroup | PRow | PGraphics.
Definition same_text (a b : style) : bool :=
  match s_case a, s_case b with KEEP, KEEP | UPPERCASE, UPPERCASE | LOWERCASE, LOWERCASE => true | _, _ => false end.
Definition not_generated (e : elem) (w : which) (x : option pseudo) : bool :=
  match x with None => true | Some x => match pseudo_text e w x with None => true | Some _ => false end end.
Definition not_in_line (e : elem) (w : which) (x : option pseudo) : bool :=
  match x with
  | None => true
  | Some x => match pseudo_text e w x with None => true | Some _ =>
      match s_display (ps_style x) with Default _ INLINE _ | CONTENTS => false | _ => true end end
  end.
Definition is_other (t : tag) : bool := match t with OTHER => true | _ => false end.

Fixpoint fine (p : place) (flex : bool) (sty : style) (n : node) : bool :=
  match n with
  | Txt _ | Other => true
  | Elem e kids =>
      let sty' := e_style e in
      match p with
      | PGraphics =>
          match s_display sty' with
          | NOBOX => false
          | _ => match e_tag e with
                 | SHAPE => true
                 | G | SVG => forallb (fine PGraphics false sty) kids
                 | FOREIGN => forallb (fine PFlow false sty') kids
                 | _ => false
                 end
          end
      | _ =>
          match s_display sty' with
          | NOBOX => true
          | CONTENTS => same_text sty' sty && forallb (fine PFlow flex sty') kids
          | Internal i =>
              match p, i with
              | PTable, (TABLE_ROW_GROUP | TABLE_HEADER_GROUP | TABLE_FOOTER_GROUP) =>
                  not_generated e BEFORE (e_before e) && not_generated e AFTER (e_after e) && is_other (e_tag e) && forallb (fine PGroup false sty') kids
              | (PTable | PGroup), TABLE_ROW =>
                  not_generated e BEFORE (e_before e) && not_generated e AFTER (e_after e) && is_other (e_tag e) && forallb (fine PRow false sty') kids
              | PTable, TABLE_COLUMN => true
              | PTable, TABLE_COLUMN_GROUP =>
                  forallb (fun k => match k with Elem _ kids' => negb (existsb (has_display TABLE_COLUMN) kids') | _ => true end) kids
              | (PTable | PGroup | PRow), TABLE_CELL | PTable, TABLE_CAPTION => is_other (e_tag e) && forallb (fine PFlow false sty') kids
              | _, _ => false
              end
          | Default i o it =>
              if is_table (Default i o it) then
                is_other (e_tag e) && not_in_line e BEFORE (e_before e) && not_in_line e AFTER (e_after e) &&
                forallb (fine PTable false sty') kids
              else
                match e_tag e with
                | INPUT_BUTTON | INPUT_TEXT _ => boxed flex (e_tag e) (Default i o it)
                | SVG => forallb (fine PGraphics false sty') kids
                | IMG | BR | INPUT_HIDDEN | VOID => true
                | _ => forallb (fine PFlow (boxed flex (e_tag e) (Default i o it) && is_flex (Default i o it)) sty') kids
                end
          end
      end
  end.
Definition fine_document (e : elem) (kids : list node) : bool := is_other (e_tag e) && forallb (fine PFlow false (e_style e)) kids.

(** ** Box trees of the right shape *)
Definition disp (b : box) : display := match b with Box s _ _ _ => s_display s end.
Definition conts (b : box) : content := match b with Box _ c _ _ => c end.
Definition kids_of (b : box) : list box := match b with Box _ _ k _ => k end.
Definition inline_level (b : box) : bool := match disp b with Default _ INLINE _ => true | _ => false end.
Definition block_level (b : box) : bool := match disp b with Default _ BLOCK _ => true | _ => false end.
(** The places of children in a prose, in order. *)
Fixpoint struts (l : list item) : list nat :=
  match l with [] => [] | Strut k _ :: l' => k :: struts l' | Rune _ _ :: l' => struts l' end.

(** A box lays its content out in lines, with each child placed once and in order, or stacks its children. *)
Definition lines_or_blocks (b : box) : Prop :=
  match conts b with
  | CProse p => struts (p_items p) = seq 0 (length (kids_of b)) /\ Forall (fun k => block_level k = false) (kids_of b)
  | CNone => Forall (fun k => inline_level k = false) (kids_of b)
  | _ => kids_of b = []
  end.
(** The children of a flex container are its items: it has no lines of its own. *)
Definition only_items (b : box) : Prop :=
  match disp b with Default FLEX _ _ => match conts b with CProse _ => False | _ => True end | _ => True end.
(** A table has rows, groups of rows, columns and groups of columns; a group of rows has rows, a row has cells. *)
Definition row_of_cells (b : box) : Prop :=
  disp b = Internal TABLE_ROW /\ conts b = CNone /\ Forall (fun k => disp k = Internal TABLE_CELL) (kids_of b).
Definition table_child (b : box) : Prop :=
  match disp b with
  | Internal (TABLE_ROW_GROUP | TABLE_HEADER_GROUP | TABLE_FOOTER_GROUP) => conts b = CNone /\ Forall row_of_cells (kids_of b)
  | Internal TABLE_ROW => row_of_cells b
  | Internal TABLE_COLUMN => kids_of b = []
  | Internal TABLE_COLUMN_GROUP => Forall (fun k => disp k = Internal TABLE_COLUMN) (kids_of b)
  | _ => False
  end.
Definition table_of_rows (b : box) : Prop :=
  match disp b with Internal TABLE_BOX => conts b = CNone /\ Forall table_child (kids_of b) | _ => True end.

(** A predicate of all boxes of a tree. *)
Fixpoint everywhere (P : box -> Prop) (b : box) : Prop :=
  P b /\ match b with Box _ _ kids _ => (fix go l := match l with [] => True | k :: l' => everywhere P k /\ go l' end) kids end.

(** A predicate of all elements of a document. *)
Fixpoint every (P : elem -> bool) (n : node) : bool :=
  match n with Elem e kids => P e && forallb (every P) kids | _ => true end.
(** [display: table-box] cannot be written in CSS; [input] has no [display: inline] or [flex] of the author; no SVG. *)
Definition usual (e : elem) : bool :=
  match s_display (e_style e) with
  | Internal TABLE_BOX => false
  | Default FLOW (INLINE | RUN_IN) _ => match e_tag e with INPUT_BUTTON | INPUT_TEXT _ | SVG => false | _ => true end
  | Default FLEX _ _ => match e_tag e with INPUT_TEXT _ | SVG => false | _ => true end
  | _ => match e_tag e with SVG => false | _ => true end
  end.
Definition pseudos_ok (e : elem) : bool :=
  let ok := fun x => match x with Some x => match s_display (ps_style x) with Internal TABLE_BOX => false | _ => true end | None => true end in
  ok (e_marker e) && ok (e_before e) && ok (e_after e).
Definition usual_elem (e : elem) : bool := usual e && pseudos_ok e.
(** The generated content of a table is not in line. *)
Definition calm (e : elem) : bool :=
  if is_table (s_display (e_style e)) then not_in_line e BEFORE (e_before e) && not_in_line e AFTER (e_after e) else true.

(** ** Words *)
Definition word (w : str) : list str := match w with [] => [] | _ => [w] end.
Fixpoint words_from (cur : str) (s : str) : list str :=
  match s with
  | [] => word cur
  | c :: s' => if is_space c then word cur ++ words_from [] s' else words_from (cur ++ [c]) s'
  end.
(** The maximal runs of characters that are not white space. *)
Definition words (s : str) : list str := words_from [] s.
(** The characters that are read, without the boxes. *)
Definition text (l : list sign) : str := flat_map (fun x => match x with Ch c _ => [c] | Mark _ => [] end) l.
Definition runes (l : list item) : str := flat_map (fun i => match i with Rune c _ => [c] | Strut _ _ => [] end) l.
Fixpoint no_double_space (s : str) : bool :=
  match s with
  | a :: (b :: _) as s' => negb (is_space a && is_space b) && no_double_space s'
  | _ => true
  end.
(** Text and plain inline elements, where text directly in the block is not only white space. *)
Definition all_space (s : str) : bool := forallb is_space s.
Definition plain_inline (e : elem) : bool :=
  match s_display (e_style e), e_tag e, e_before e, e_after e with
  | Default FLOW INLINE false, OTHER, None, None => true
  | _, _, _, _ => false
  end.
Fixpoint phrasing (direct : bool) (n : node) : bool :=
  match n with
  | Txt s => negb (direct && all_space s)
  | Other => true
  | Elem e kids => plain_inline e && forallb (phrasing false) kids
  end.
