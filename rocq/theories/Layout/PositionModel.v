(** Where positioned boxes go: layout/positioned.cpp, and where layout/base/layout-impl.cpp,
    layout/block.cpp and driver/print.cpp call it. Lengths ([Au]) are rationals. *)
From Coq Require Import List QArith Qabs Bool.
From Verif.Layout Require Import BlockModel SizingModel.
Import ListNotations.
Local Open Scope Q_scope.

(** Rectangles and the four sides, [RectAu] and [InsetsAu] of Karm; [grow] adds the sides around,
    [shrink] takes them away. *)
Record rect := mkRect { r_x : Q; r_y : Q; r_w : Q; r_h : Q }.
Record sides := mkSides { d_top : Q; d_end : Q; d_bottom : Q; d_start : Q }.
Definition grow (d : sides) (r : rect) : rect :=
  mkRect (r_x r - d_start d) (r_y r - d_top d) (r_w r + d_start d + d_end d) (r_h r + d_top d + d_bottom d).
Definition shrink (d : sides) (r : rect) : rect :=
  mkRect (r_x r + d_start d) (r_y r + d_top d) (r_w r - d_start d - d_end d) (r_h r - d_top d - d_bottom d).

(** The values of justify-self and align-self that are told apart: positioned.cpp:30-63, 84-118. *)
Inductive self := START | END | CENTER | OTHER.

(** What is read of the style of a positioned box, and what its layout gives. [a_width], [a_height]
    are what [computeSpecifiedBorderBoxWidth] and [...Height] give (sizing.cpp), [None] if
    automatic; [a_margin] what [computeMargins] gives, automatic margins being zero. [a_fit_w],
    [a_fit_h]: the size layout gives to the border box if none is given, from the available size. *)
Record abs_box := mkAbs {
  a_fixed : bool;
  a_top : option size; a_end : option size; a_bottom : option size; a_start : option size;
  a_justify : self; a_align : self;
  a_margin : sides;
  a_width : option Q; a_height : option Q;
  a_fit_w : Q -> Q; a_fit_h : Q -> Q }.

Definition is_auto (s : option size) : bool := match s with None => true | Some _ => false end.
Definition inset (base : Q) (s : option size) : Q := match s with Some v => resolve base v | None => 0 end.

(** positioned.cpp:20-75 horizontally, 77-128 vertically: the two insets of an axis. The containing
    block is [size] long from [lo], the static position [ssize] long from [slo]; percentages are of
    [base]. *)
Definition axis_insets (lo_i hi_i : option size) (a : self) (base lo size slo ssize : Q) : Q * Q :=
  if is_auto lo_i && is_auto hi_i then
    match a with
    | START => (slo - lo, 0)
    | END => (0, (lo + size) - (slo + ssize))
    | CENTER =>
      let center := slo + ssize / 2 in
      let to_start := Qabs (center - lo) in
      let to_end := Qabs (center - (lo + size)) in
      if Qle_bool to_start to_end then (0, size - to_start * 2) else (size - to_end * 2, 0)
    | OTHER => (0, 0)
    end
  else (inset base lo_i, inset base hi_i).

(** positioned.cpp:12-133 [_computeInsetModifiedContainingBlock]; the viewport is [vw] by [vh]. *)
Definition available (vw vh : Q) (b : abs_box) (cb st : rect) : rect :=
  let bw := if a_fixed b then vw else r_w cb in
  let bh := if a_fixed b then vh else r_h cb in
  let '(s, e) := axis_insets (a_start b) (a_end b) (a_justify b) bw (r_x cb) (r_w cb) (r_x st) (r_w st) in
  let '(t, o) := axis_insets (a_top b) (a_bottom b) (a_align b) bh (r_y cb) (r_h cb) (r_y st) (r_h st) in
  shrink (mkSides t e o s) cb.

(** positioned.cpp:173-246 [layoutAbsolutePositioned]: the border box of the fragment. *)
Definition layout_absolute (vw vh : Q) (b : abs_box) (cb st : rect) : rect :=
  let av := available vw vh b cb st in
  let w := if negb (is_auto (a_start b)) && negb (is_auto (a_end b)) then Some (r_w av) else a_width b in
  let h := if negb (is_auto (a_top b)) && negb (is_auto (a_bottom b)) then Some (r_h av) else a_height b in
  let x := match w with
           | Some w' => if is_auto (a_start b) && negb (is_auto (a_end b))
                        then r_x av + r_w av - d_end (a_margin b) - w' else r_x av + d_start (a_margin b)
           | None => r_x av + d_start (a_margin b)
           end in
  let y := match h with
           | Some h' => if is_auto (a_top b) && negb (is_auto (a_bottom b))
                        then r_y av + r_h av - d_bottom (a_margin b) - h' else r_y av + d_top (a_margin b)
           | None => r_y av + d_top (a_margin b)
           end in
  mkRect x y (match w with Some w' => w' | None => a_fit_w b (r_w av) end)
             (match h with Some h' => h' | None => a_fit_h b (r_h av) end).

(** layout-impl.cpp:308-326 [_adaptToContentBox]: the content box of a border box. *)
Definition content_box (borders padding : sides) (border_box : rect) : rect :=
  shrink padding (shrink borders border_box).

(** layout-impl.cpp:282-287: a box out of flow in the ancestor that holds it, which has the given
    border box. *)
Definition absolute_in (vw vh : Q) (borders padding : sides) (ancestor : rect) (b : abs_box) (st : rect) : rect :=
  layout_absolute vw vh b (grow padding (content_box borders padding ancestor)) st.

(** layout-impl.cpp:364 with driver/print.cpp:184-194, 250-264, driver/render.cpp:43-51: a box out of
    flow that no box holds, on a page (or in a viewport) with the content area [area]; layoutRoot is
    given its position and size, and passes on the size. *)
Definition absolute_in_root (area : rect) (b : abs_box) (st : rect) : rect :=
  layout_absolute (r_w area) (r_h area) b (mkRect 0 0 (r_w area) (r_h area)) st.

(** positioned.cpp:249-271 [_negotiateInsetsForRelativePositioning] *)
Definition negotiate (base : Q) (start_i end_i : option size) : Q :=
  match start_i, end_i with
  | None, None => 0
  | Some s, None => resolve base s
  | None, Some e => - resolve base e
  | Some s, Some _ => resolve base s
  end.

(** A block-level child in flow: the used top and bottom margins, the height of its border box,
    whether it has position: relative, and its top, end, bottom and start insets. The start margin
    and the like only move it horizontally: [c_x]. *)
Record child := mkChild {
  c_top_margin : Q; c_bottom_margin : Q; c_height : Q; c_x : Q; c_relative : bool;
  c_top : option size; c_end : option size; c_bottom : option size; c_start : option size }.

(** positioned.cpp:274-281 [relativePositionOffset] for the box with sizes [cw], [ch] *)
Definition relative_offset (cw ch : Q) (c : child) : Q * Q :=
  (negotiate cw (c_start c) (c_end c), negotiate ch (c_top c) (c_bottom c)).

(** block.cpp:278-400, the children in flow without page breaks: the positions of their border boxes
    and the height they take. [x], [y]: the content box of the block; [cw], [ch]: the containing
    block of the block itself, which block.cpp:377 passes on. [at_], [last]: blockSize and
    lastMarginBottom. *)
Fixpoint place (x y cw ch : Q) (at_ last : Q) (cs : list child) : list (Q * Q) * Q :=
  match cs with
  | [] => ([], at_)
  | c :: cs' =>
    let most := qmax 0 (qmax (c_top_margin c) last) in
    let least := qmin 0 (qmin (c_top_margin c) last) in
    let at1 := at_ + (most - Qabs least) - last in
    let p := (x + c_x c, y + at1) in
    let p := if c_relative c then (fst p + fst (relative_offset cw ch c), snd p + snd (relative_offset cw ch c)) else p in
    let '(ps, total) := place x y cw ch (at1 + (c_height c + c_bottom_margin c)) (c_bottom_margin c) cs' in
    (p :: ps, total)
  end.

(** The static position: block.cpp:291-295 for a block with the content box at [x], [y], of the known
    width [w], whose children so far take [at_]; inline.cpp:120-124 and flex.cpp:1519 for children of
    lines and flex containers. *)
Definition static_in_block (x y w at_ : Q) : rect := mkRect x (y + at_) w 0.
Definition static_elsewhere : rect := mkRect 0 0 0 0.
