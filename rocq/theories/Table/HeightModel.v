(** The heights of the rows of a table and where its cells are put: layout/table.cpp:95-110,
    1183-1270, 1353-1408, 1427-1572, 1682-1732, 1750-1816.

    Lengths are rationals. The heights that come from the content and the style are given. Tables are
    not broken over pages here: there is no break point, and a cell is as high as it is told to be.
    Rows are read and written without the check of the index; C30 has that cells are in the grid.
    Relative positions and collapsed borders are not modelled. *)
From Coq Require Import List Arith ZArith QArith Bool.
From Verif.Base Require Import Outcome.
From Verif.Table Require Import GridModel WidthModel.
Import ListNotations.
Local Open Scope Q_scope.

Record hsizes := mkH {
  (** the height of a row element, [None] for auto (1204-1217) *)
  tr_height : nat -> option Q;
  (** the height of a cell, [None] for auto (1236-1242) *)
  cell_height : cell -> option Q;
  (** the height of the border box of a cell that is laid out with a width (1254-1262) *)
  measured : Q -> cell -> Q }.
Definition auto_tr (h : hsizes) (t : axis) : bool := match tr_height h (a_el t) with None => true | Some _ => false end.

(** table.cpp:1202-1218 *)
Definition tr_heights (h : hsizes) (ts : list axis) (v : list Q) : list Q :=
  fold_left (fun v t => match tr_height h (a_el t) with Some q => over (interval t) (fun _ => q) v | None => v end) ts v.
(** table.cpp:1236-1267: one cell; [colWidth[j]] is the width of its first column *)
Definition cell_rows (h : hsizes) (columns : list Q) (v : list Q) (a : nat * nat * cell) : list Q :=
  let '(i, j, c) := a in
  let n := inject_Z (Z.of_nat (c_rows c)) in
  let v := match cell_height h c with Some q => over (seq i (c_rows c)) (fun r => qmax r (q / n)) v | None => v end in
  over (seq i (c_rows c)) (fun r => qmax r (measured h (nth j columns 0) c / n)) v.
(** table.cpp:1187-1270 [computeRowHeights] *)
Definition row_heights (h : hsizes) (g : grid) (columns : list Q) : list Q :=
  fold_left (cell_rows h columns) (anchors g) (tr_heights h (trs g) (repeat 0 (height g))).

(** table.cpp:1369-1372; [i]: the number of the row element *)
Fixpoint grow_trs (h : hsizes) (inc : Q) (ts : list axis) (i : nat) (v : list Q) : list Q :=
  match ts with
  | [] => v
  | t :: r => grow_trs h inc r (S i) (if auto_tr h t then over [i] (fun x => x + inc) v else v)
  end.
(** table.cpp:1353-1384: the heights of the rows, that of the table and the number of automatic rows
    for the next layout; [autos]: the number that the layouts before have left (1185, 1211). The
    division by 0 is a panic. *)
Definition table_heights (h : hsizes) (g : grid) (columns : list Q) (spacing : Q) (known : option Q) (autos : nat) : outcome (list Q * Q * nat) :=
  let v := row_heights h g columns in
  let autos := (autos + length (filter (auto_tr h) (trs g)))%nat in
  let used := qsum v + spacing * inject_Z (Z.of_nat (height g + 1)) in
  match known with
  | None => Ok (v, used, autos)
  | Some k =>
    if lt used k then
      if (0 <? autos)%nat then Ok (grow_trs h ((k - used) / inject_Z (Z.of_nat autos)) (trs g) 0 v, k, autos)
      else match length (trs g) with
           | O => Panic
           | n => Ok (map (fun x => x + (k - used) / inject_Z (Z.of_nat n)) v, k, autos)
           end
    else Ok (v, used, autos)
  end.

(** ** Where the cells are put *)

(** table.cpp:95-110 [PrefixSum] *)
Fixpoint prefix (acc : Q) (v : list Q) : list Q :=
  match v with [] => [] | x :: r => (acc + x) :: prefix (acc + x) r end.
(** [query(l, l + n - 1)] *)
Definition query (v : list Q) (l n : nat) : Q :=
  match n with
  | O => 0
  | S m => let p := prefix 0 v in match l with O => nth m p 0 | S l' => nth (l + m) p 0 - nth l' p 0 end
  end.

(** A cell that is put somewhere: its slot, its position and its size. *)
Record box := mkBox { x_cell : cell; x_col : nat; x_row : nat; x_left : Q; x_top : Q; x_width : Q; x_height : Q }.
Record env := mkEnv { e_cols : list Q; e_rows : list Q; e_sx : Q; e_sy : Q }.

(** table.cpp:1427-1516 [layoutCell], for a cell that does not come from the page before; [starts]:
    [startPositionOfRow]. [rowSpan - 1] wraps for a row span of 0; it is -1 here. *)
Definition layout_cell (e : env) (starts : list Q) (s : slot) (c : cell) (j : nat) (x : Q) : box :=
  mkBox c (s_x s) (s_y s) x (nth (s_y s) starts 0)
    (query (e_cols e) j (c_cols c) + e_sx e * inject_Z (Z.of_nat (c_cols c) - 1))
    (query (e_rows e) (s_y s) (c_rows c) + e_sy e * inject_Z (Z.of_nat (c_rows c) - 1)).
(** table.cpp:1547 [isBottomCell]; for a row span of 0 in row 0 it wraps to no row *)
Definition is_bottom (s : slot) (c : cell) (i : nat) : bool := (s_y s + c_rows c =? S i)%nat.
(** table.cpp:1537-1569: from column [j] on, outside of the discovery of breaks; [all]:
    [isBreakpointedRow]. The boxes and the height of the row. *)
Fixpoint row_boxes (e : env) (starts : list Q) (i : nat) (all : bool) (r : list slot) (j : nat) (x size : Q) : list box * Q :=
  match r with
  | [] => ([], size)
  | s :: r' =>
    let next := x + (nth j (e_cols e) 0 + e_sx e) in
    match s_box s with
    | None => row_boxes e starts i all r' (S j) next size
    | Some c =>
      if (s_x s =? j)%nat && (is_bottom s c i || all) then
        let b := layout_cell e starts s c j x in
        let size := qmax size (x_top b + x_height b - nth i starts 0) in
        let '(bs, z) := row_boxes e starts i all r' (S j) next size in
        (b :: bs, z)
      else row_boxes e starts i all r' (S j) next size
    end
  end.
(** table.cpp:1528-1572 [layoutRow] *)
Definition layout_row (e : env) (starts : list Q) (i : nat) (all : bool) (r : list slot) (x0 y : Q) : list Q * (list box * Q) :=
  let starts := upd starts i (fun _ => y) in
  (starts, row_boxes e starts i all r 0 (x0 + e_sx e) 0).
(** table.cpp:1682-1719 [layoutRows], all rows from [i] on. The boxes and where the next row would
    start. *)
Fixpoint layout_rows (e : env) (rs : list (list slot)) (i : nat) (starts : list Q) (x0 y : Q) : list box * Q :=
  match rs with
  | [] => ([], y)
  | r :: rest =>
    let '(starts, (bs, size)) := layout_row e starts i (match rest with [] => true | _ => false end) r x0 y in
    let '(more, z) := layout_rows e rest (S i) starts x0 (y + (size + e_sy e)) in
    (bs ++ more, z)
  end.
(** table.cpp:1750-1816 [run] without pages: the boxes and the height of the table *)
Definition render (e : env) (g : grid) (x0 y0 : Q) : list box * Q :=
  let '(bs, z) := layout_rows e (rows g) 0 (repeat 0 (height g)) x0 (y0 + e_sy e) in (bs, z - y0).

(** ** Repeated headers and footers *)

(** table.cpp:1721-1732 [layoutHeaderFooterRows]: the start of each row; [n]: the rows left *)
Fixpoint repeated_rows (v : list Q) (sy : Q) (n i : nat) (y : Q) : list Q :=
  match n with O => [] | S m => y :: repeated_rows v sy m (S i) (y + (nth i v 0 + sy)) end.
(** table.cpp:1394-1407: the height that is kept for headers and footers *)
Definition header_size (g : grid) (v : list Q) (sy : Q) : Q :=
  match header_rows g with O => 0 | n => query v 0 n + sy * inject_Z (Z.of_nat (n + 1)) end.
Definition footer_size (g : grid) (v : list Q) (sy : Q) : Q :=
  match footer_rows g with O => 0 | n => query v (height g - n) n + sy * inject_Z (Z.of_nat (header_rows g + 1)) end.
