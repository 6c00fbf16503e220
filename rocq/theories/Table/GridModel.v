(** Forming the grid of a table: layout/table.cpp:29-379.

    Indices ([usize]) are natural numbers without overflow: spans are at most 65534
    (style/computer.cpp:263-293). Boxes are known by their spans and an identifier. *)
From Coq Require Import List Arith Bool.
From Verif.Base Require Import Outcome.
Import ListNotations.

(** A cell: its identifier, [rowSpan] (from 0) and [colSpan] (from 1), values/table.cpp:127-134. *)
Record cell := mkCell { c_id : nat; c_rows : nat; c_cols : nat }.

(** table.cpp:29-42 [TableCell]: a slot of the grid. *)
Record slot := mkSlot { s_x : nat; s_y : nat; s_box : option cell }.
(** table.cpp:39-41 [isOccupied] *)
Definition occupied (s : slot) : bool := match s_box s with Some _ => true | None => false end.

(** table.cpp:44-52 [TableAxis] and [TableGroup], with the identifier of the element. *)
Record axis := mkAxis { a_start : nat; a_end : nat; a_el : nat }.

(** table.cpp:124-127 [DownwardsGrowingCell] *)
Record growing := mkGrow { g_x : nat; g_y : nat; g_left : nat; g_width : nat }.

(** table.cpp:54-92 [TableGrid], 112-135: the members of the context. *)
Record grid := mkGrid {
  rows : list (list slot); width : nat; height : nat;
  cur_x : nat; cur_y : nat;
  down : list growing;
  cols : list axis; trs : list axis; row_groups : list axis; col_groups : list axis;
  header_rows : nat; footer_rows : nat }.

(** The members of a new context. *)
Definition empty : grid := mkGrid [] 0 0 0 0 [] [] [] [] [] 0 0.

Definition with_rows (g : grid) r w h := mkGrid r w h (cur_x g) (cur_y g) (down g) (cols g) (trs g) (row_groups g) (col_groups g) (header_rows g) (footer_rows g).
Definition with_cur (g : grid) x y := mkGrid (rows g) (width g) (height g) x y (down g) (cols g) (trs g) (row_groups g) (col_groups g) (header_rows g) (footer_rows g).
Definition with_down (g : grid) d := mkGrid (rows g) (width g) (height g) (cur_x g) (cur_y g) d (cols g) (trs g) (row_groups g) (col_groups g) (header_rows g) (footer_rows g).
Definition with_cols (g : grid) c := mkGrid (rows g) (width g) (height g) (cur_x g) (cur_y g) (down g) c (trs g) (row_groups g) (col_groups g) (header_rows g) (footer_rows g).
Definition with_trs (g : grid) t := mkGrid (rows g) (width g) (height g) (cur_x g) (cur_y g) (down g) (cols g) t (row_groups g) (col_groups g) (header_rows g) (footer_rows g).
Definition with_row_groups (g : grid) r := mkGrid (rows g) (width g) (height g) (cur_x g) (cur_y g) (down g) (cols g) (trs g) r (col_groups g) (header_rows g) (footer_rows g).
Definition with_col_groups (g : grid) c := mkGrid (rows g) (width g) (height g) (cur_x g) (cur_y g) (down g) (cols g) (trs g) (row_groups g) c (header_rows g) (footer_rows g).
Definition with_counts (g : grid) hd ft := mkGrid (rows g) (width g) (height g) (cur_x g) (cur_y g) (down g) (cols g) (trs g) (row_groups g) (col_groups g) hd ft.

(** table.cpp:58-65 [increaseWidth]; [y] is the number of the first row of [rs] *)
Fixpoint widen (span y : nat) (rs : list (list slot)) : list (list slot) :=
  match rs with
  | [] => []
  | r :: rs' => (r ++ map (fun i => mkSlot (length r + i) y None) (seq 0 span)) :: widen span (S y) rs'
  end.
Definition increase_width (span : nat) (g : grid) : grid :=
  with_rows g (widen span 0 (rows g)) (width g + span) (height g).

(** table.cpp:67-77 [increaseHeight] *)
Definition new_row (w y : nat) : list slot := map (fun x => mkSlot x y None) (seq 0 w).
Definition increase_height (span : nat) (g : grid) : grid :=
  with_rows g (rows g ++ map (fun i => new_row (width g) (length (rows g) + i)) (seq 0 span)) (width g) (height g + span).

(** table.cpp:79-91 [at]; the elements of a [Vec] out of range panic too *)
Definition at_ (g : grid) (x y : nat) : outcome slot :=
  if (width g <=? x) || (height g <=? y) then Panic
  else match nth_error (rows g) y with
       | None => Panic
       | Some r => match nth_error r x with None => Panic | Some s => Ok s end
       end.
Fixpoint upd {A} (l : list A) (n : nat) (f : A -> A) : list A :=
  match l, n with
  | [], _ => []
  | a :: l', O => f a :: l'
  | a :: l', S n' => a :: upd l' n' f
  end.
(** [at(x, y) = s] *)
Definition set_at (g : grid) (x y : nat) (s : slot) : outcome grid :=
  obind (at_ g x y) (fun _ => Ok (with_rows g (upd (rows g) y (fun r => upd r x (fun _ => s))) (width g) (height g))).

(** table.cpp:138-143 [growDownwardGrowingCells] *)
Fixpoint grow_one (g : grid) (d : growing) (n : nat) (x : nat) : outcome grid :=
  match n with
  | O => Ok g
  | S n' => obind (at_ g (g_x d) (g_y d)) (fun s => obind (set_at g x (cur_y g) s) (fun g' => grow_one g' d n' (S x)))
  end.
Fixpoint grow_cells (ds : list growing) (g : grid) : outcome grid :=
  match ds with
  | [] => Ok g
  | d :: ds' => obind (grow_one g d (g_width d) (g_left d)) (grow_cells ds')
  end.
Definition grow (g : grid) : outcome grid := grow_cells (down g) g.

(** table.cpp:162-163: the next slot of the row that is not occupied. [fuel]: the columns left. *)
Fixpoint skip_occupied (fuel : nat) (g : grid) (x : nat) : outcome nat :=
  match fuel with
  | O => Ok x
  | S n => if x <? width g
           then obind (at_ g x (cur_y g)) (fun s => if occupied s then skip_occupied n g (S x) else Ok x)
           else Ok x
  end.

(** table.cpp:192-196: the slots of a cell, by columns *)
Fixpoint fill_column (g : grid) (s : slot) (x n y : nat) : outcome grid :=
  match n with
  | O => Ok g
  | S n' => obind (set_at g x y s) (fun g' => fill_column g' s x n' (S y))
  end.
Fixpoint fill (g : grid) (s : slot) (nx x ny y : nat) : outcome grid :=
  match nx with
  | O => Ok g
  | S n' => obind (fill_column g s x ny y) (fun g' => fill g' s n' (S x) ny y)
  end.

(** table.cpp:162-207: one cell *)
Definition process_cell (c : cell) (g : grid) : outcome grid :=
  obind (skip_occupied (width g - cur_x g) g (cur_x g)) (fun x =>
  let g := with_cur g x (cur_y g) in
  let g := if x =? width g then increase_width 1 g else g in
  let grows := c_rows c =? 0 in
  let rs := if grows then 1 else c_rows c in
  let cs := c_cols c in
  let g := if width g <? x + cs then increase_width (x + cs - width g) g else g in
  let g := if height g <? cur_y g + rs then increase_height (cur_y g + rs - height g) g else g in
  obind (fill g (mkSlot x (cur_y g) (Some c)) cs x rs (cur_y g)) (fun g =>
  let g := if grows then with_down g (down g ++ [mkGrow x (cur_y g) x cs]) else g in
  Ok (with_cur g (x + cs) (cur_y g)))).

Fixpoint process_cells (cs : list (option cell)) (g : grid) : outcome grid :=
  match cs with
  | [] => Ok g
  | None :: r => process_cells r g (* not a cell: [advanceUntil] *)
  | Some c :: r => obind (process_cell c g) (process_cells r)
  end.

(** A row: its identifier, its children; [None] is a child that is not a cell. *)
Record row := mkRow { r_id : nat; r_cells : list (option cell) }.

(** table.cpp:146-215 [processRows] *)
Definition process_row (r : row) (g : grid) : outcome grid :=
  let g := if height g =? cur_y g then increase_height 1 g else g in
  let g := with_cur g 0 (cur_y g) in
  obind (grow g) (fun g =>
  obind (process_cells (r_cells r) g) (fun g =>
  Ok (with_cur g (cur_x g) (S (cur_y g))))).

(** table.cpp:218-224 [endRowGroup]. [fuel]: the rows left. *)
Fixpoint end_row_group (fuel : nat) (g : grid) : outcome grid :=
  match fuel with
  | O => Ok g
  | S n => if cur_y g <? height g
           then obind (grow g) (fun g => end_row_group n (with_down (with_cur g (cur_x g) (S (cur_y g))) []))
           else Ok g
  end.

(** table.cpp:233-246: the rows of a group; [None] is a child that is not a row. [grid.size.y - 1]
    is at least 0 after a row. *)
Fixpoint group_rows (rs : list (option row)) (g : grid) : outcome grid :=
  match rs with
  | [] => Ok g
  | None :: r => group_rows r g
  | Some t :: r =>
    let y := height g in
    obind (process_row t g) (fun g => group_rows r (with_trs g (trs g ++ [mkAxis y (height g - 1) (r_id t)])))
  end.

(** A group of rows: its identifier and its children. *)
Record group := mkGroup { gr_id : nat; gr_rows : list (option row) }.

(** table.cpp:227-253 [processRowGroup] *)
Definition process_group (t : group) (g : grid) : outcome grid :=
  let y := height g in
  obind (group_rows (gr_rows t) g) (fun g =>
  let g := if y <? height g then with_row_groups g (row_groups g ++ [mkAxis y (height g - 1) (gr_id t)]) else g in
  end_row_group (height g - cur_y g) g).

(** The children of a table. A column is its identifier and its span; [None] is another child of a
    column group. *)
Inductive child :=
| COLGROUP (id span : nat) (columns : list (option (nat * nat)))
| ROW (r : row)
| HEAD (t : group)
| BODY (t : group)
| FOOT (t : group)
| OTHER.

(** table.cpp:255-267 [findFirstHeader]: the group instead of its index *)
Fixpoint find_header (l : list child) : option group :=
  match l with
  | [] => None
  | HEAD t :: _ => Some t
  | _ :: r => find_header r
  end.

(** table.cpp:299-309 *)
Fixpoint columns (l : list (option (nat * nat))) (g : grid) : grid :=
  match l with
  | [] => g
  | None :: r => columns r g
  | Some (id, span) :: r =>
    let g := increase_width span g in
    columns r (with_cols g (cols g ++ [mkAxis (width g - span) (width g - 1) id]))
  end.
Definition has_column (l : list (option (nat * nat))) : bool := existsb (fun c => match c with Some _ => true | None => false end) l.
(** table.cpp:288-317: one column group *)
Definition column_group (id span : nat) (l : list (option (nat * nat))) (g : grid) : grid :=
  if has_column l then
    let start := width g in
    let g := columns l g in
    with_col_groups g (col_groups g ++ [mkAxis start (width g - 1) id])
  else
    let g := increase_width span g in
    with_col_groups g (col_groups g ++ [mkAxis (width g - span + 1) (width g - 1) id]).

(** table.cpp:279-323: the leading column groups, and the children that are left *)
Fixpoint column_groups (l : list child) (g : grid) : grid * list child :=
  match l with
  | COLGROUP id span cs :: r => column_groups r (column_group id span cs g)
  | OTHER :: r => column_groups r g
  | _ => (g, l)
  end.

(** table.cpp:334-372; [seen]: the first header group was met. The footers are those still to be
    processed. *)
Fixpoint body (seen : bool) (l : list child) (g : grid) : outcome (grid * list group) :=
  match l with
  | [] => Ok (g, [])
  | ROW r :: l' => obind (process_row r g) (body seen l')
  | FOOT t :: l' =>
    obind (end_row_group (height g - cur_y g) g) (fun g =>
    obind (body seen l' g) (fun '(g, fs) => Ok (g, t :: fs)))
  | HEAD t :: l' =>
    obind (end_row_group (height g - cur_y g) g) (fun g =>
    if seen then obind (process_group t g) (body true l') else body true l' g)
  | BODY t :: l' =>
    obind (end_row_group (height g - cur_y g) g) (fun g => obind (process_group t g) (body seen l'))
  | COLGROUP _ _ _ :: l' => body seen l' g
  | OTHER :: l' => body seen l' g
  end.

Fixpoint footers (fs : list group) (g : grid) : outcome grid :=
  match fs with
  | [] => Ok g
  | t :: r => obind (process_group t g) (footers r)
  end.

(** table.cpp:270-379 [buildHTMLTable]. The early returns (276-284) leave a new grid. *)
Definition build (l : list child) : outcome grid :=
  let '(g, l') := column_groups l empty in
  match l' with
  | [] => Ok g
  | _ =>
    let g := with_cur g (cur_x g) 0 in
    obind (match find_header l with
           | Some t => obind (process_group t g) (fun g => Ok (with_counts g (height g) (footer_rows g)))
           | None => Ok g
           end) (fun g =>
    obind (body false l' g) (fun '(g, fs) =>
    let y := height g in
    obind (footers fs g) (fun g => Ok (with_counts g (header_rows g) (height g - y)))))
  end.
