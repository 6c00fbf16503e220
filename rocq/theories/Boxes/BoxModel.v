(** The construction of the box tree from a styled document (layout/builder/mod.cpp, layout/base/box.cpp).

    A document is a tree of elements with their computed style and generated pseudo-elements.  Of a style
    the builder reads [display], [white-space], [text-transform], [caption-side] and [list-style-type]; all
    that it only copies (font, colour, margins) is one opaque number.

    Trusted about Karm: a [Prose] is a sequence of runes and struts, each in the span that is current when
    it is appended (with the spans around it); appending a strut counts as a rune ([_runes.len()]); a prose
    made from the current span of another one keeps the spans around it; [scan.eat(Re::space())] skips all
    spaces. *)
From Coq Require Import List NArith Bool Arith.
From Verif.Base Require Import Str.
Import ListNotations.
Local Open Scope N_scope.

(** ** Values of [display] (values/display.cpp:19-130) *)
Inductive inside := FLOW | FLOW_ROOT | FLEX | GRID | RUBY | TABLE | MATH.
Inductive outside := BLOCK | INLINE | RUN_IN.
Inductive internal :=
| TABLE_ROW_GROUP | TABLE_HEADER_GROUP | TABLE_FOOTER_GROUP | TABLE_ROW | TABLE_CELL | TABLE_COLUMN_GROUP | TABLE_COLUMN
| TABLE_CAPTION | TABLE_BOX | RUBY_PART.
Inductive display := Default (i : inside) (o : outside) (item : bool) | Internal (i : internal) | CONTENTS | NOBOX.

Definition is_inside (x : inside) (d : display) : bool :=
  match d, x with
  | Default FLOW _ _, FLOW | Default FLOW_ROOT _ _, FLOW_ROOT | Default FLEX _ _, FLEX | Default GRID _ _, GRID
  | Default RUBY _ _, RUBY | Default TABLE _ _, TABLE | Default MATH _ _, MATH => true
  | _, _ => false
  end.
Definition is_internal (x : internal) (d : display) : bool :=
  match d, x with
  | Internal TABLE_ROW_GROUP, TABLE_ROW_GROUP | Internal TABLE_HEADER_GROUP, TABLE_HEADER_GROUP
  | Internal TABLE_FOOTER_GROUP, TABLE_FOOTER_GROUP | Internal TABLE_ROW, TABLE_ROW | Internal TABLE_CELL, TABLE_CELL
  | Internal TABLE_COLUMN_GROUP, TABLE_COLUMN_GROUP | Internal TABLE_COLUMN, TABLE_COLUMN
  | Internal TABLE_CAPTION, TABLE_CAPTION | Internal TABLE_BOX, TABLE_BOX | Internal RUBY_PART, RUBY_PART => true
  | _, _ => false
  end.
(** values/display.cpp:246-250 [isProperTableChild] *)
Definition proper_table_child (d : display) : bool :=
  match d with
  | Internal (TABLE_CAPTION | TABLE_ROW | TABLE_COLUMN | TABLE_ROW_GROUP | TABLE_HEADER_GROUP | TABLE_FOOTER_GROUP | TABLE_COLUMN_GROUP) => true
  | _ => false
  end.
(** values/display.cpp:271-298 [blockify]; the item flag of an internal display is read from a union
    member that is not set, and taken to be false. *)
Definition blockify (d : display) : display :=
  match d with
  | Default _ BLOCK _ | CONTENTS | NOBOX => d
  | Internal _ => Default FLOW BLOCK false
  | Default FLOW_ROOT _ it => Default FLOW BLOCK it
  | Default i _ it => Default i BLOCK it
  end.

(** ** Styled documents *)
Inductive white_space := NORMAL | PRE | NOWRAP | PRE_WRAP | BREAK_SPACES | PRE_LINE.
Inductive transform := KEEP | UPPERCASE | LOWERCASE.
Inductive list_type := NOLIST | DISC | CIRCLE | SQUARE | DECIMAL | OTHERLIST.
Record style := mkStyle
  { s_display : display; s_space : white_space; s_case : transform; s_top : bool; s_list : list_type; s_span : N }.
Definition with_display (d : display) (s : style) : style :=
  mkStyle d (s_space s) (s_case s) (s_top s) (s_list s) (s_span s).

(** The [content] property. *)
Inductive generated := NormalContent | NoContent | TextContent (s : str) | OtherContent.
Record pseudo := mkPseudo { ps_style : style; ps_content : generated }.
(** What the builder asks of the name and attributes of an element: a text input has the value or the
    placeholder as its text (builder/mod.cpp:354-368); [VOID] is any other void element (element.cpp:172-186). *)
Inductive tag := BR | SVG | IMG | INPUT_HIDDEN | INPUT_BUTTON | INPUT_TEXT (value : str) | VOID | G | SHAPE | FOREIGN | OTHER.
Record elem := mkElem
  { e_id : N; e_tag : tag; e_style : style; e_marker : option pseudo; e_before : option pseudo; e_after : option pseudo;
    e_number : str (** the value of the counter list-item, in decimal *) }.
Inductive node := Elem (e : elem) (kids : list node) | Txt (s : str) | Other.

(** ** Boxes (box.cpp:15-66) *)
Inductive item := Rune (c : N) (spans : list N) | Strut (k : nat) (spans : list N).
Record prose := mkProse { p_items : list item; p_spans : list N }.
Inductive content := CNone | CProse (p : prose) | CScene | CShape.
Inductive origin := OElem (id : N) | OPseudo | OAnon.
Inductive box := Box (s : style) (c : content) (kids : list box) (o : origin).

Definition put_item (x : list N -> item) (p : prose) : prose := mkProse (p_items p ++ [x (p_spans p)]) (p_spans p).
Definition put_rune (c : N) : prose -> prose := put_item (Rune c).
Definition push_span (x : N) (p : prose) : prose := mkProse (p_items p) (x :: p_spans p).
Definition pop_span (p : prose) : prose := mkProse (p_items p) (tl (p_spans p)).
(** box.cpp:28-32 [fromInterruptedInlineBox] *)
Definition interrupted (p : prose) : prose := mkProse [] (p_spans p).
(** box.cpp:141-146 [isActive] of a box with prose *)
Definition active (p : prose) : bool := match p_items p with [] => false | _ => true end.

(** The two boxes a [BuilderContext] refers to (builder/mod.cpp:177-188): the parent, and the root inline box if any. *)
Record st := mkSt { t_content : content; t_kids : list box; t_inline : option (prose * list box) }.
Inductive from := FROM_BLOCK | FROM_INLINE | FROM_FLEX | FROM_TABLE.

Inductive res := Ok (s : st) | NoInlineRoot.
Definition andthen (x : res) (f : st -> res) : res := match x with Ok s => f s | NoInlineRoot => NoInlineRoot end.
Notation "'do' x <- e ; f" := (andthen e (fun x => f)) (at level 200, x binder, e at level 100, f at level 200).

(** box.cpp:49-53 [add]: a box with prose gets a strut for the new child. *)
Definition add_content (c : content) (kids : list box) : content :=
  match c with CProse p => CProse (put_item (Strut (length kids)) p) | c => c end.
Definition add_to_parent (b : box) (t : st) : st :=
  mkSt (add_content (t_content t) (t_kids t)) (t_kids t ++ [b]) (t_inline t).
(** builder/mod.cpp:233-241 [rootInlineBox], [addToInlineRoot] *)
Definition add_to_inline (b : box) (t : st) : res :=
  match t_inline t with
  | None => NoInlineRoot
  | Some (p, k) => Ok (mkSt (t_content t) (t_kids t) (Some (put_item (Strut (length k)) p, k ++ [b])))
  end.
Definition on_prose (f : prose -> prose) (t : st) : res :=
  match t_inline t with
  | None => NoInlineRoot
  | Some (p, k) => Ok (mkSt (t_content t) (t_kids t) (Some (f p, k)))
  end.

(** builder/mod.cpp:191-208 [flushRootInlineBoxIntoAnonymousBox] *)
Definition anonymous (ps : style) (p : prose) (k : list box) : box :=
  Box (with_display (Default FLOW BLOCK false) ps) (CProse p) k OAnon.
Definition flush (ps : style) (t : st) : st :=
  match t_inline t with
  | Some (p, k) =>
      if active p
      then add_to_parent (anonymous ps p k) (mkSt (t_content t) (t_kids t) (Some (interrupted p, [])))
      else t
  | None => t
  end.
(** builder/mod.cpp:210-223 [finalizeParentBoxAndFlushInline] *)
Definition finalize (ps : style) (t : st) : st :=
  match t_inline t with
  | Some (p, k) =>
      if active p then
        match t_kids t with
        | [] => mkSt (CProse p) k (Some (interrupted p, []))
        | _ => flush ps t
        end
      else t
  | None => t
  end.

(** ** Text (builder/mod.cpp:30-173) *)
Definition is_space (c : N) : bool := (c =? 32) || (9 <=? c) && (c <=? 13).
(** builder/mod.cpp:30-32 *)
Definition is_break (c : N) : bool := (c =? 10) || (c =? 13) || (c =? 12) || (c =? 11).
Fixpoint skip_spaces (s : str) : str :=
  match s with c :: s' => if is_space c then skip_spaces s' else s | [] => [] end.
(** builder/mod.cpp:84-99 *)
Definition transformed (t : transform) (c : N) : N :=
  match t with
  | UPPERCASE => if (97 <=? c) && (c <=? 122) then c - 32 else c
  | LOWERCASE => if (65 <=? c) && (c <=? 90) then c + 32 else c
  | KEEP => c
  end.
Definition collapsible (w : white_space) : bool := match w with NORMAL | NOWRAP | PRE_LINE => true | _ => false end.
(** builder/mod.cpp:114-160: the loop of [_appendTextToInlineBox]; [run] says that the characters before are
    spaces that collapse, and whether one of them is a segment break.  The run is written when it ends. *)
Definition end_run (w : white_space) (run : option bool) (p : prose) : prose :=
  match run with
  | None => p
  | Some brk => put_rune (match w with PRE_LINE => if brk then 10 else 32 | _ => 32 end) p
  end.
Fixpoint append_loop (w : white_space) (t : transform) (s : str) (run : option bool) (p : prose) : prose :=
  match s with
  | [] => end_run w run p
  | c :: s' =>
      if is_space c then
        if collapsible w
        then append_loop w t s' (Some (is_break c || match run with Some b => b | None => false end)) p
        else append_loop w t s' None (put_rune c p)
      else append_loop w t s' None (put_rune (transformed t c) (end_run w run p))
  end.
(** builder/mod.cpp:103-161 [_appendTextToInlineBox] *)
Definition append_text (sty : style) (s : str) (p : prose) : prose :=
  append_loop (s_space sty) (s_case sty) (if active p then s else skip_spaces s) None p.

(** builder/mod.cpp:163-173 and 322-348 [_buildText]; [ps] is the style of the context. *)
Definition build_text (f : from) (ps : style) (sty : style) (s : str) (t : st) : res :=
  match t_inline t with
  | None => NoInlineRoot
  | Some (p, k) =>
      let skip := match f with FROM_INLINE => false | _ => true end in
      if skip && (match skip_spaces s with [] => true | _ => false end) then Ok t
      else
        let t' := mkSt (t_content t) (t_kids t) (Some (append_text sty s p, k)) in
        Ok (match f with FROM_FLEX => flush ps t' | _ => t' end)
  end.

(** ** Generated content (builder/mod.cpp:926-997) *)
Inductive which := MARKER | BEFORE | AFTER.
Definition marker_text (l : list_type) (number : str) : str :=
  match l with
  | DISC => [8226] | CIRCLE => [9702] | SQUARE => [9642] | DECIMAL => number ++ [46] | NOLIST | OTHERLIST => []
  end.
(** builder/mod.cpp:941-964 [generateInnerContent] *)
Definition inner_content (e : elem) (w : which) (x : pseudo) (f : from) (ps : style) (t : st) : res :=
  match w, ps_content x with
  | MARKER, NormalContent => build_text f ps (ps_style x) (marker_text (s_list (e_style e)) (e_number e)) t
  | _, TextContent s => build_text f ps (ps_style x) s t
  | _, _ => Ok t
  end.
Definition root_inline (sty : style) : prose * list box := (mkProse [] [s_span sty], []).
Definition new_box (sty : style) : st := mkSt CNone [] (Some (root_inline sty)).
Definition box_of (sty : style) (t : st) (o : origin) : box := Box sty (t_content t) (t_kids t) o.

(** builder/mod.cpp:931-939: whether a pseudo-element is generated at all. *)
Definition generates (e : elem) (w : which) (x : pseudo) : bool :=
  match s_display (ps_style x) with
  | NOBOX => false
  | _ =>
      match w, ps_content x with
      | (BEFORE | AFTER), (NormalContent | NoContent) => false
      | _, _ => match w, s_list (e_style e) with MARKER, NOLIST => false | _, _ => true end
      end
  end.
(** builder/mod.cpp:966-970: [display == Display::INLINE] compares the outer role. *)
Definition in_line (d : display) : bool := match d with Default _ INLINE _ | CONTENTS => true | _ => false end.
Definition build_pseudo (e : elem) (w : which) (x : pseudo) (f : from) (ps : style) (t : st) : res :=
  let sty := ps_style x in
  if generates e w x then
    if in_line (s_display sty) then
      do t <- on_prose (push_span (s_span sty)) t;
      do t <- inner_content e w x f ps t;
      on_prose pop_span t
    else
      let t := flush ps t in
      let f' := if is_inside FLEX (s_display sty) then FROM_FLEX else FROM_BLOCK in
      do u <- on_prose (push_span (s_span sty)) (new_box sty);
      do u <- inner_content e w x f' sty u;
      do u <- on_prose pop_span u;
      Ok (add_to_parent (box_of sty (finalize sty u) OPseudo) t)
  else Ok t.
Definition build_pseudo_opt (e : elem) (w : which) (x : option pseudo) (f : from) (ps : style) (t : st) : res :=
  match x with Some x => build_pseudo e w x f ps t | None => Ok t end.

(** ** Elements

    [made] is how the children of an element are built: as a node ([_buildNode], builder/mod.cpp:894-910), as an
    internal part of a table ([_buildTableInternal], builder/mod.cpp:684-735), and as a part of an SVG
    ([buildSVGElement], builder/mod.cpp:373-410). *)
Record made := mkMade
  { m_node : from -> style -> st -> res; m_internal : display -> st -> res; m_svg : st -> res }.
Definition kid := (node * made)%type.

Fixpoint each (f : kid -> st -> res) (l : list kid) (t : st) : res :=
  match l with [] => Ok t | k :: l' => do t <- f k t; each f l' t end.

(** builder/mod.cpp:837-856 [_buildChildren] *)
Definition is_item (d : display) : bool := match d with Default _ _ it => it | _ => false end.
Definition build_children (e : elem) (ks : list kid) (f : from) (ps : style) (t : st) : res :=
  do t <- (if is_item (s_display (e_style e)) then build_pseudo_opt e MARKER (e_marker e) f ps t else Ok t);
  do t <- build_pseudo_opt e BEFORE (e_before e) f ps t;
  do t <- each (fun k => m_node (snd k) f ps) ks t;
  build_pseudo_opt e AFTER (e_after e) f ps t.

(** builder/mod.cpp:350-368, 421-483 [_buildVoidElement]: it sets the content of the parent box. *)
Definition put_content (c : content) (t : st) : st := mkSt c (t_kids t) (t_inline t).
Definition build_void (e : elem) (t : st) : st :=
  match e_tag e with
  | IMG | INPUT_BUTTON => put_content CScene t
  | INPUT_TEXT v => put_content (CProse (mkProse (map (fun c => Rune c [s_span (e_style e)]) v) [s_span (e_style e)])) t
  | _ => t
  end.
Definition is_void (t : tag) : bool :=
  match t with BR | IMG | INPUT_HIDDEN | INPUT_BUTTON | INPUT_TEXT _ | VOID => true | _ => false end.

(** builder/mod.cpp:412-419 [buildSVGAggregate] *)
Definition build_svg_kids (ks : list kid) (t : st) : res :=
  each (fun k => match fst k with Elem _ _ => m_svg (snd k) | _ => Ok end) ks t.

(** builder/mod.cpp:516-527 [buildBlockFlowFromElement] *)
Definition block_flow (e : elem) (ks : list kid) (f : from) (ps : style) (t : st) : res :=
  do t <- match e_tag e with
          | BR => Ok t
          | SVG => build_svg_kids ks t
          | _ => if is_void (e_tag e) then Ok (build_void e t) else build_children e ks f ps t
          end;
  Ok (finalize ps t).

(** builder/mod.cpp:498-514 [createAndBuildInlineFlowfromElement] *)
Definition inline_flow (e : elem) (ks : list kid) (f : from) (ps : style) (t : st) : res :=
  match e_tag e with
  | BR => Ok (flush ps t)
  | _ =>
      if is_void (e_tag e) then Ok (build_void e t)
      else
        do t <- on_prose (push_span (s_span (e_style e))) t;
        do t <- build_children e ks FROM_INLINE (e_style e) t;
        on_prose pop_span t
  end.

(** builder/mod.cpp:529-547 [createAndBuildBoxFromElement]; [k] is given the box. *)
Definition box_from (e : elem) (ks : list kid) (sty : style) (k : box -> res) : res :=
  let f := if is_inside FLEX (s_display sty) then FROM_FLEX else FROM_BLOCK in
  do u <- block_flow e ks f sty (new_box sty);
  k (box_of sty u (OElem (e_id e))).

(** ** Tables *)

(** The anonymous boxes of a table (builder/mod.cpp:553-620): a row and the cell in it. *)
Record wrap := mkWrap { w_bc : st; w_row : option st; w_cell : option st }.
Inductive wres := WOk (w : wrap) | WNoInlineRoot.
Definition wthen (x : wres) (f : wrap -> wres) : wres := match x with WOk w => f w | WNoInlineRoot => WNoInlineRoot end.

Definition anon_style (i : internal) (sty : style) : style := with_display (Internal i) sty.
(** builder/mod.cpp:561-568 *)
Definition row_if_none (w : wrap) : wrap :=
  match w_row w with Some _ => w | None => mkWrap (w_bc w) (Some (mkSt CNone [] None)) (w_cell w) end.
(** builder/mod.cpp:570-586; the root inline box has the style of the parent. *)
Definition cell_if_none (sty : style) (w : wrap) : wrap :=
  match w_cell w with Some _ => w | None => mkWrap (w_bc w) (w_row w) (Some (new_box sty)) end.
Definition has_something (t : st) : bool :=
  match t_content t, t_kids t with CNone, [] => false | _, _ => true end.
(** builder/mod.cpp:588-601 [finalizeAndResetCell] *)
Definition end_cell (sty : style) (w : wrap) : wrap :=
  match w_cell w with
  | None => w
  | Some c =>
      let cs := anon_style TABLE_CELL sty in
      let c := finalize cs c in
      let b := box_of cs c OAnon in
      if has_something c then
        match w_row w with
        | Some r => mkWrap (w_bc w) (Some (add_to_parent b r)) None
        | None => mkWrap (add_to_parent b (w_bc w)) None None
        end
      else mkWrap (w_bc w) (w_row w) None
  end.
(** builder/mod.cpp:603-611 [finalizeAndResetRow] *)
Definition end_row (sty : style) (w : wrap) : wrap :=
  match w_row w with
  | None => w
  | Some r =>
      if has_something r then mkWrap (add_to_parent (box_of (anon_style TABLE_ROW sty) r OAnon) (w_bc w)) None (w_cell w)
      else mkWrap (w_bc w) None (w_cell w)
  end.
Definition in_bc (f : st -> res) (w : wrap) : wres :=
  match f (w_bc w) with Ok t => WOk (mkWrap t (w_row w) (w_cell w)) | NoInlineRoot => WNoInlineRoot end.
Definition in_row (f : st -> res) (w : wrap) : wres :=
  match w_row w with
  | None => WOk w
  | Some r => match f r with Ok t => WOk (mkWrap (w_bc w) (Some t) (w_cell w)) | NoInlineRoot => WNoInlineRoot end
  end.
Definition in_cell (f : st -> res) (w : wrap) : wres :=
  match w_cell w with
  | None => WOk w
  | Some c => match f c with Ok t => WOk (mkWrap (w_bc w) (w_row w) (Some t)) | NoInlineRoot => WNoInlineRoot end
  end.

(** builder/mod.cpp:634-677: one turn of the loop of [_buildTableChildrenWhileWrappingIntoAnonymousBox]; [sty] is
    the style of the parent box, and [style] of the function: they are the same at all calls. *)
Definition table_kid (sty : style) (skip_caption : bool) (accepted : display -> bool) (k : kid) (w : wrap) : wres :=
  let row := is_internal TABLE_ROW (s_display sty) in
  let cell_style := anon_style TABLE_CELL sty in
  let row_style := anon_style TABLE_ROW sty in
  match fst k with
  | Elem e _ =>
      let d := s_display (e_style e) in
      if skip_caption && is_internal TABLE_CAPTION d then WOk w
      else if accepted d then
        let w := end_row sty (end_cell sty w) in
        if is_internal TABLE_CELL d then in_bc (m_node (snd k) FROM_TABLE sty) w else in_bc (m_internal (snd k) d) w
      else if row then in_cell (m_node (snd k) FROM_TABLE cell_style) (cell_if_none sty w)
      else if is_internal TABLE_CELL d then in_row (m_node (snd k) FROM_TABLE row_style) (row_if_none (end_cell sty w))
      else in_cell (m_node (snd k) FROM_TABLE cell_style) (cell_if_none sty (row_if_none w))
  | Txt s =>
      in_cell (build_text FROM_TABLE cell_style sty s) (cell_if_none sty (if row then w else row_if_none w))
  | Other => WOk w
  end.
Fixpoint table_loop (sty : style) (skip_caption : bool) (accepted : display -> bool) (ks : list kid) (w : wrap) : wres :=
  match ks with
  | [] => WOk w
  | k :: ks' => wthen (table_kid sty skip_caption accepted k w) (table_loop sty skip_caption accepted ks')
  end.
(** builder/mod.cpp:630-681 *)
Definition table_kids (sty : style) (skip_caption : bool) (accepted : display -> bool) (ks : list kid) (t : st) : res :=
  match table_loop sty skip_caption accepted ks (mkWrap t None None) with
  | WOk w => Ok (w_bc (end_row sty (end_cell sty w)))
  | WNoInlineRoot => NoInlineRoot
  end.

(** A box of an internal part, without a root inline box (builder/mod.cpp:297-304). *)
Definition part_box : st := mkSt CNone [] None.
(** builder/mod.cpp:684-735 [_buildTableInternal]; a column in a column group is passed the display of the group
    (line 705). *)
Definition build_part (d : display) (e : elem) (ks : list kid) (t : st) : res :=
  let sty := e_style e in
  let done := fun u => Ok (add_to_parent (box_of sty u (OElem (e_id e))) t) in
  match d with
  | Internal (TABLE_HEADER_GROUP | TABLE_FOOTER_GROUP | TABLE_ROW_GROUP) =>
      do u <- table_kids sty false (is_internal TABLE_ROW) ks part_box; done u
  | Internal TABLE_COLUMN_GROUP =>
      do u <- each (fun k => match fst k with
                             | Elem e' _ => if is_internal TABLE_COLUMN (s_display (e_style e')) then m_internal (snd k) d else Ok
                             | _ => Ok
                             end) ks part_box;
      done u
  | Internal TABLE_ROW => do u <- table_kids sty false (is_internal TABLE_CELL) ks part_box; done u
  | Internal TABLE_COLUMN => done part_box
  | _ => Ok t
  end.

(** builder/mod.cpp:737-774 [_buildTableBox] and 776-807 [_createTableWrapperAndBuildTable].  Of the wrapper's style
    only the display is not initial, among what is read. *)
Definition wrapper_style (sty : style) : style := mkStyle (s_display sty) NORMAL KEEP true DISC 0.
Definition build_captions (ks : list kid) (ws : style) (t : st) : res :=
  each (fun k => match fst k with
                 | Elem e _ => if is_internal TABLE_CAPTION (s_display (e_style e)) then m_node (snd k) FROM_BLOCK ws else Ok
                 | _ => Ok
                 end) ks t.
Definition table_wrapper (e : elem) (ks : list kid) (sty : style) (k : box -> res) : res :=
  let ws := wrapper_style sty in
  let inner := with_display (Internal TABLE_BOX) sty in
  do t <- (if s_top sty then build_captions ks ws part_box else Ok part_box);
  do t <- build_pseudo_opt e BEFORE (e_before e) FROM_BLOCK ws t;
  do u <- table_kids inner true proper_table_child ks part_box;
  let t := add_to_parent (box_of inner u (OElem (e_id e))) t in
  do t <- (if s_top sty then Ok t else build_captions ks ws t);
  do t <- build_pseudo_opt e AFTER (e_after e) FROM_BLOCK ws t;
  k (box_of ws t (OElem (e_id e))).

(** ** Dispatch *)

(** builder/mod.cpp:812-833: the box of an element by its inner display. *)
Definition inner_box (e : elem) (ks : list kid) (sty : style) (k : box -> res) : res :=
  if is_inside TABLE (s_display sty) then table_wrapper e ks sty k else box_from e ks sty k.
Definition always_inline_block (t : tag) : bool := match t with IMG | SVG => true | _ => false end.
(** builder/mod.cpp:858-910 [_buildNode] of an element *)
Definition build_elem (e : elem) (ks : list kid) (f : from) (ps : style) (t : st) : res :=
  let sty := e_style e in
  match s_display sty with
  | NOBOX => Ok t
  | CONTENTS => build_children e ks f ps t
  | Internal _ => inner_box e ks sty (fun b => Ok (add_to_parent b t))
  | Default i o _ =>
      match f with
      | FROM_FLEX => inner_box e ks (with_display (blockify (s_display sty)) sty) (fun b => Ok (add_to_parent b t))
      | _ =>
          match o with
          | BLOCK => let t := flush ps t in inner_box e ks sty (fun b => Ok (add_to_parent b t))
          | _ =>
              if always_inline_block (e_tag e) || negb (is_inside FLOW (s_display sty))
              then inner_box e ks sty (fun b => add_to_inline b t)
              else inline_flow e ks f ps t
          end
      end
  end.

(** builder/mod.cpp:373-410 [buildSVGElement]: [t] is the group. *)
Definition build_svg (e : elem) (ks : list kid) (t : st) : res :=
  let sty := e_style e in
  match e_tag e with
  | SHAPE => Ok (add_to_parent (Box sty CShape [] (OElem (e_id e))) t)
  | G | SVG => do u <- build_svg_kids ks part_box; Ok (add_to_parent (box_of sty u (OElem (e_id e))) t)
  | FOREIGN => do u <- block_flow e ks FROM_BLOCK sty (new_box sty); Ok (add_to_parent (box_of sty u (OElem (e_id e))) t)
  | _ => Ok t
  end.

Fixpoint make (n : node) : made :=
  match n with
  | Elem e kids =>
      let ks := map (fun k => (k, make k)) kids in
      mkMade (build_elem e ks)
             (fun d => build_part d e ks)
             (build_svg e ks)
  | Txt s => mkMade (fun f ps => build_text f ps ps s) (fun _ => Ok) Ok
  | Other => mkMade (fun _ _ => Ok) (fun _ => Ok) Ok
  end.
Definition kid_of (n : node) : kid := (n, make n).

(** builder/mod.cpp:1003-1033 [buildElement], and 1074-1083 [buildDocument] of the document element. *)
Inductive built := Tree (b : box) | Panics.
Definition build_document (e : elem) (kids : list node) : built :=
  let sty := e_style e in
  match block_flow e (map kid_of kids) FROM_BLOCK sty (new_box sty) with
  | Ok t => Tree (box_of sty t (OElem (e_id e)))
  | NoInlineRoot => Panics
  end.
