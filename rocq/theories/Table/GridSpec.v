(** What the grid of a table is, after the HTML standard (forming a table), for cells that do not
    reach to the end of their row group. *)
From Coq Require Import List Arith Bool.
From Verif.Table Require Import GridModel.
Import ListNotations.

(** A cell with the column and the row of its first slot. *)
Record placement := mkP { p_cell : cell; p_x : nat; p_y : nat }.
Definition p_height (p : placement) : nat := Nat.max 1 (c_rows (p_cell p)).
Definition covers (p : placement) (x y : nat) : bool :=
  (p_x p <=? x) && (x <? p_x p + c_cols (p_cell p)) && (p_y p <=? y) && (y <? p_y p + p_height p).
(** The placements are listed from the last to the first: the cell that holds a slot is the last
    one that covers it. *)
Definition owner (ps : list placement) (x y : nat) : option placement := find (fun p => covers p x y) ps.

(** The cells of a row, in order, from column [x] on: each is put in the first column that is free
    in its row. *)
Inductive in_row (y : nat) : list placement -> nat -> list cell -> list placement -> Prop :=
| row_end ps x : in_row y ps x [] ps
| row_cell ps x x' c cs ps' :
    x <= x' -> owner ps x' y = None -> (forall i, x <= i < x' -> owner ps i y <> None) ->
    in_row y (mkP c x' y :: ps) (x' + c_cols c) cs ps' -> in_row y ps x (c :: cs) ps'.

(** The first row below all cells. *)
Definition bottom (ps : list placement) (y : nat) : nat := fold_right (fun p => Nat.max (p_y p + p_height p)) y ps.

(** The table as a sequence of rows and of ends of row groups, after which the next row is below
    all cells so far. *)
Inductive step := ROW_OF (cells : list cell) | GROUP_END.
Inductive formed : list placement -> nat -> list step -> list placement -> nat -> Prop :=
| formed_end ps y : formed ps y [] ps y
| formed_row ps y cs ps1 steps ps' y' :
    in_row y ps 0 cs ps1 -> formed ps1 (S y) steps ps' y' -> formed ps y (ROW_OF cs :: steps) ps' y'
| formed_group ps y steps ps' y' :
    formed ps (bottom ps y) steps ps' y' -> formed ps y (GROUP_END :: steps) ps' y'.

Definition catOptions {A} (l : list (option A)) : list A := flat_map (fun o => match o with Some a => [a] | None => [] end) l.
Definition row_step (r : row) : step := ROW_OF (catOptions (r_cells r)).
Definition group_steps (t : group) : list step := map row_step (catOptions (gr_rows t)) ++ [GROUP_END].

(** The first header comes first, the footers come last. *)
Fixpoint body_steps (seen : bool) (l : list child) : list step :=
  match l with
  | [] => []
  | ROW r :: l' => row_step r :: body_steps seen l'
  | FOOT _ :: l' => GROUP_END :: body_steps seen l'
  | HEAD t :: l' => GROUP_END :: (if seen then group_steps t else []) ++ body_steps true l'
  | BODY t :: l' => GROUP_END :: group_steps t ++ body_steps seen l'
  | COLGROUP _ _ _ :: l' | OTHER :: l' => body_steps seen l'
  end.
Definition first_header (l : list child) : option group :=
  match flat_map (fun c => match c with HEAD t => [t] | _ => [] end) l with t :: _ => Some t | [] => None end.
Definition table_footers (l : list child) : list group := flat_map (fun c => match c with FOOT t => [t] | _ => [] end) l.
Definition table_steps (l : list child) : list step :=
  match first_header l with Some t => group_steps t | None => [] end ++ body_steps false l ++ flat_map group_steps (table_footers l).

(** The cells in that order. *)
Definition cells_of (s : list step) : list cell := flat_map (fun s => match s with ROW_OF cs => cs | GROUP_END => [] end) s.
(** Cells from top to bottom and, in a row, from left to right. *)
Definition before (p q : placement) : Prop := p_y p < p_y q \/ (p_y p = p_y q /\ p_x p + c_cols (p_cell p) <= p_x q).

(** The columns that the column elements before the first row declare. *)
Definition declared_columns (c : child) : nat :=
  match c with
  | COLGROUP _ span cs => match catOptions cs with [] => span | l => fold_right (fun c n => snd c + n) 0 l end
  | _ => 0
  end.
Fixpoint leading (l : list child) : list child :=
  match l with
  | (COLGROUP _ _ _ as c) :: r => c :: leading r
  | OTHER :: r => leading r
  | _ => []
  end.
Definition table_columns (l : list child) : nat := fold_right (fun c n => declared_columns c + n) 0 (leading l).
