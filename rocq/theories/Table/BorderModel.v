(** The borders of the cells of a table: layout/table.cpp:399-457, 698-720, 745-783.

    Lengths are rationals, colours are numbers. The conflicts between neighbours are not modelled
    beyond the choice among the borders that meet (459-675, 722-743). *)
From Coq Require Import List Arith NArith QArith Bool.
From Verif.Base Require Import Outcome.
From Verif.Table Require Import GridModel.
Import ListNotations.
Local Open Scope Q_scope.

(** Karm Gfx [BorderStyle] *)
Inductive bstyle := NONE_S | HIDDEN | DOTTED | DASHED | SOLID | DOUBLE | GROOVE | RIDGE | INSET | OUTSET.
Record border := mkB { b_width : Q; b_style : bstyle; b_color : nat }.
Definition is_hidden (b : border) : bool := match b_style b with HIDDEN => true | _ => false end.

Definition qlt (a b : Q) : bool := negb (Qle_bool b a).

(** table.cpp:401-411 [ORDERED_STYLES], and [indexOf]: [None] is smaller than every index *)
Definition style_index (s : bstyle) : option nat :=
  match s with
  | DOUBLE => Some 0 | SOLID => Some 1 | DASHED => Some 2 | DOTTED => Some 3 | RIDGE => Some 4
  | OUTSET => Some 5 | GROOVE => Some 6 | INSET => Some 7 | NONE_S => Some 8 | HIDDEN => None
  end%nat.
Definition index_lt (a b : option nat) : bool :=
  match a, b with Some a, Some b => Nat.ltb a b | None, Some _ => true | _, None => false end.

(** table.cpp:414-457 [harmonizeConflictingBorders]: one candidate *)
Definition challenge (best cand : border) : border :=
  if xorb (is_hidden best) (is_hidden cand) then if is_hidden cand then cand else best
  else if qlt (b_width cand) (b_width best) then best
  else if qlt (b_width best) (b_width cand) then cand
  else if index_lt (style_index (b_style cand)) (style_index (b_style best)) then best (* continue *)
  else best.
(** table.cpp:415-419; the colour black is 0 *)
Definition no_border : border := mkB 0 NONE_S 0.
Definition harmonize (l : list border) : border := fold_left challenge l no_border.

(** ** The widths of separate borders *)

Record insets := mkI { i_top : Q; i_end : Q; i_bottom : Q; i_start : Q }.
Definition no_insets : insets := mkI 0 0 0 0.
(** table.cpp:698-711: the buffer, by rows. Out of range it panics. *)
Definition width_at (w : nat) (b : list insets) (i j : nat) (f : insets -> insets) : outcome (list insets) :=
  if (i * w + j <? length b)%nat then Ok (upd b (i * w + j) f) else Panic.
(** [i + k - 1], used as a row. For 0 it wraps to the largest [usize]; the element of the buffer is
    then out of range, since the buffer is smaller than the memory. *)
Definition last_row (i k : nat) (f : nat -> outcome (list insets)) : outcome (list insets) :=
  match (i + k)%nat with O => Panic | S n => f n end.

(** table.cpp:761-764; [n]: the columns left *)
Fixpoint top_bottom (w i rs : nat) (c : insets) (n : nat) (j : nat) (b : list insets) : outcome (list insets) :=
  match n with
  | O => Ok b
  | S n' =>
    obind (width_at w b i j (fun s => mkI (i_top c) (i_end s) (i_bottom s) (i_start s))) (fun b =>
    obind (last_row i rs (fun i' => width_at w b i' j (fun s => mkI (i_top s) (i_end s) (i_bottom c) (i_start s)))) (fun b =>
    top_bottom w i rs c n' (S j) b))
  end.
(** table.cpp:766-769; [n]: the rows left. The column span is at least 1. *)
Fixpoint start_end (w j cs : nat) (c : insets) (n : nat) (i : nat) (b : list insets) : outcome (list insets) :=
  match n with
  | O => Ok b
  | S n' =>
    obind (width_at w b i j (fun s => mkI (i_top s) (i_end s) (i_bottom s) (i_start c))) (fun b =>
    obind (width_at w b i (j + cs - 1) (fun s => mkI (i_top s) (i_end c) (i_bottom s) (i_start s))) (fun b =>
    start_end w j cs c n' (S i) b))
  end.

(** table.cpp:745-772 [computeBordersStructsSeparate]: one slot; [edges]: the borders of a cell *)
Definition separate_slot (edges : cell -> insets) (g : grid) (i j : nat) (b : list insets) : outcome (list insets) :=
  obind (at_ g j i) (fun s =>
  match s_box s with
  | None => Ok b
  | Some c =>
    if (s_x s =? j) && (s_y s =? i) then
      obind (top_bottom (width g) i (c_rows c) (edges c) (c_cols c) j b) (fun b =>
      start_end (width g) j (c_cols c) (edges c) (c_rows c) i b)
    else Ok b
  end)%nat.
Fixpoint slots (k : nat -> nat -> list insets -> outcome (list insets)) (i : nat) (js : list nat) (b : list insets) : outcome (list insets) :=
  match js with [] => Ok b | j :: r => obind (k i j b) (slots k i r) end.
Fixpoint slot_rows (k : nat -> nat -> list insets -> outcome (list insets)) (is js : list nat) (b : list insets) : outcome (list insets) :=
  match is with [] => Ok b | i :: r => obind (slots k i js b) (slot_rows k r js) end.
(** table.cpp:774-783 [computeBordersStructs], for separate borders *)
Definition separate_borders (edges : cell -> insets) (g : grid) : outcome (list insets) :=
  slot_rows (separate_slot edges g) (seq 0 (height g)) (seq 0 (width g)) (repeat no_insets (width g * height g)).

(** table.cpp:713-720 [buildBordersWidthsForCell] *)
Definition cell_borders (w : nat) (b : list insets) (i j rs cs : nat) : outcome insets :=
  match (i + rs)%nat with
  | O => Panic
  | S i' =>
    match nth_error b (i * w + j), nth_error b (i' * w + (j + cs - 1)) with
    | Some a, Some z => Ok (mkI (i_top a) (i_end z) (i_bottom z) (i_start a))
    | _, _ => Panic
    end
  end.
