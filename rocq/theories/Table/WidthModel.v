(** The widths of the columns of a table: layout/table.cpp:785-1181 and 1317-1351.

    Lengths are rationals. The parts that come from the content and the style of the elements are
    given: the min-content and the max-content width of a cell with its spacing, and the widths of
    elements. Each depends on the width that percentages refer to. Percentages in the padding of
    cells, which refer to the width of the last layout (978-981), are not modelled. The elements of the
    vectors are read and written without the check of the index; C30 has that cells are in the grid. *)
From Coq Require Import List Arith QArith Bool.
From Verif.Base Require Import Outcome.
From Verif.Table Require Import GridModel.
Import ListNotations.
Local Open Scope Q_scope.

Record sizes := mkSizes {
  (** table.cpp:922-961 [getCellMinMaxAutoWidth] *)
  cell_min : Q -> cell -> Q;
  cell_max : Q -> cell -> Q;
  (** the width of a cell, [None] for auto (868-879) *)
  cell_width : Q -> cell -> option Q;
  (** the width of a column or of a group of columns, [None] for auto (839-846, 1040-1055, 1068-1078) *)
  el_width : Q -> nat -> option Q }.

Definition lt (a b : Q) : bool := negb (Qle_bool b a).
Definition qmax (a b : Q) : Q := if lt a b then b else a.
Definition qmin (a b : Q) : Q := if lt a b then a else b.
(** [Sum] *)
Definition qsum (l : list Q) : Q := fold_right Qplus 0 l.

(** [for (x : xs) v[x] = f(v[x])] *)
Definition over {A} (xs : list nat) (f : A -> A) (v : list A) : list A := fold_left (fun v x => upd v x f) xs v.
(** The sum of [v[x]] for [x] in [xs]. *)
Definition range_sum (xs : list nat) (v : list Q) : Q := qsum (map (fun x => nth x v 0) xs).
(** [for (x = start; x <= end; ++x)] *)
Definition interval (a : axis) : list nat := seq (a_start a) (S (a_end a) - a_start a).

(** table.cpp:964-972, 992-1000: the cells by their first slots: row, column, cell *)
Definition row_anchors (i : nat) (r : list slot) : list (nat * nat * cell) :=
  flat_map (fun '(j, s) => match s_box s with
                           | Some c => if (s_x s =? j)%nat && (s_y s =? i)%nat then [(i, j, c)] else []
                           | None => []
                           end) (combine (seq 0 (length r)) r).
Definition anchors (g : grid) : list (nat * nat * cell) :=
  flat_map (fun '(i, r) => row_anchors i r) (combine (seq 0 (length (rows g))) (rows g)).

(** table.cpp:963-989 [computeAutoWidthOfCellsSpan1]; [f]: the width of a cell, once for the minimum and
    once for the maximum *)
Definition span1 (f : cell -> Q) (a : list (nat * nat * cell)) (v : list Q) : list Q :=
  fold_left (fun v '(i, j, c) => if (1 <? c_cols c)%nat then v else over [j] (fun w => qmax w (f c)) v) a v.
(** table.cpp:1066-1085 [computeAutoWidthOfCols] *)
Definition col_widths (f : nat -> option Q) (cs : list axis) (v : list Q) : list Q :=
  fold_left (fun v c => match f (a_el c) with Some w => over (interval c) (fun x => qmax x w) v | None => v end) cs v.
(** table.cpp:991-1036 [computeAutoWidthOfCellsSpanN] *)
Definition spanN (f : cell -> Q) (a : list (nat * nat * cell)) (v : list Q) : list Q :=
  fold_left (fun v '(i, j, c) =>
    if (c_cols c <=? 1)%nat then v
    else let s := range_sum (seq j (c_cols c)) v in
         if lt s (f c) then let d := (f c - s) / inject_Z (Z.of_nat (c_cols c)) in over (seq j (c_cols c)) (fun w => w + d) v else v) a v.
(** table.cpp:1038-1064 [computeAutoWidthOfColGroups]. [end - start + 1] is 0 for the group that
    the grid records with no column (C69); the division by 0 is a panic. *)
Fixpoint group_widths (f : nat -> option Q) (cs : list axis) (v : list Q) : outcome (list Q) :=
  match cs with
  | [] => Ok v
  | c :: r =>
    match f (a_el c) with
    | None => group_widths f r v
    | Some w =>
      let s := range_sum (interval c) v in
      if Qle_bool w s then group_widths f r v
      else match (S (a_end c) - a_start c)%nat with
           | O => Panic
           | S _ as n => let d := (w - s) / inject_Z (Z.of_nat n) in group_widths f r (over (interval c) (fun x => x + d) v)
           end
    end
  end.
(** table.cpp:1087-1100 [computeMinMaxAutoWidths]; [b]: the width that percentages refer to *)
Definition min_max (z : sizes) (g : grid) (b : Q) : outcome (list Q * list Q) :=
  let a := anchors g in
  let zero := repeat 0 (width g) in
  let mn := spanN (cell_min z b) a (col_widths (el_width z b) (cols g) (span1 (cell_min z b) a zero)) in
  let mx := spanN (cell_max z b) a (col_widths (el_width z b) (cols g) (span1 (cell_max z b) a zero)) in
  obind (group_widths (el_width z b) (col_groups g) mn) (fun mn => Ok (mn, mx)).

(** table.cpp:1148-1153 *)
Fixpoint toward (ratio : Q) (from to_ : list Q) : list Q :=
  match from, to_ with
  | a :: r, b :: s => (if Qeq_bool b a then a else a + (b - a) * ratio) :: toward ratio r s
  | _, _ => []
  end.
(** table.cpp:1110-1181 [computeAutoColWidths]: the widths of the columns and of the table *)
Definition auto_widths (z : sizes) (g : grid) (known : option Q) (capmin containing : Q) : outcome (list Q * Q) :=
  obind (min_max z g 0) (fun '(mn, mx) =>
  match known with
  | Some k =>
    let used := qmax capmin k in
    if lt used (qsum mn) then Ok (mn, qsum mn)
    else
      obind (min_max z g k) (fun '(mn', mx') =>
      let wide := lt (qsum mx) used in
      let without := if wide then mx else mn in
      let with_ := if wide then mx' else mn' in
      if lt used (qsum with_) then
        Ok (toward ((used - qsum without) / (qsum with_ - qsum without)) without with_, used)
      else if Qeq_bool (qsum with_) 0 then
        Ok (map (fun _ => used / inject_Z (Z.of_nat (width g))) with_, used)
      else
        let rest := used - qsum with_ in
        Ok (map (fun w => w + rest * (w / qsum with_)) with_, used))
  | None =>
    if lt (qmin (qsum mx) capmin) containing then Ok (mx, qmax (qsum mx) capmin)
    else Ok (mn, qmax (qsum mn) capmin)
  end).

(** ** Fixed layout *)

(** table.cpp:836-850 *)
Definition fixed_cols (z : sizes) (g : grid) (known : Q) : list (option Q) :=
  fold_left (fun v c => match el_width z known (a_el c) with Some w => over (interval c) (fun _ => Some w) v | None => v end)
    (cols g) (repeat None (width g)).
(** table.cpp:854-889; [fuel]: the columns left *)
Fixpoint fixed_row (fuel : nat) (z : sizes) (g : grid) (known : Q) (x : nat) (v : list (option Q)) : outcome (list (option Q)) :=
  match fuel with
  | O => Ok v
  | S n =>
    if (x <? width g)%nat then
      obind (at_ g x 0) (fun s =>
      match s_box s with
      | None => fixed_row n z g known (S x) v
      | Some c =>
        if (s_x s =? x)%nat && (s_y s =? 0)%nat then
          match cell_width z known c with
          | None => fixed_row n z g known (S x) v
          | Some w =>
            fixed_row n z g known (x + c_cols c)%nat
              (over (seq x (c_cols c)) (fun o => match o with Some q => Some q | None => Some (w / inject_Z (Z.of_nat (c_cols c))) end) v)
          end
        else fixed_row n z g known (S x) v
      end)
    else Ok v
  end.
Definition is_auto (o : option Q) : bool := match o with None => true | Some _ => false end.
(** table.cpp:891-898 *)
Definition fixed_sum (borders : list Q) (v : list (option Q)) : Q :=
  qsum (map (fun '(o, b) => match o with Some w => w + b | None => 0 end) (combine v borders)).
(** table.cpp:818-919 [computeFixedColWidths], the columns it adds; [borders]: what 786-810
    [getColumnBorders] gives. The division by 0 is a panic. *)
Definition fixed_widths (z : sizes) (g : grid) (borders : list Q) (spacing known : Q) : outcome (list Q) :=
  let fixed := spacing * inject_Z (Z.of_nat (width g + 1)) in
  obind (fixed_row (width g) z g known 0 (fixed_cols z g known)) (fun v =>
  let sum := fixed_sum borders v in
  let autos := length (filter is_auto v) in
  let or0 := map (fun o => match o with Some w => w | None => 0 end) v in
  if (0 <? autos)%nat then
    if lt sum (known - fixed) then
      let each := (known - fixed - sum) / inject_Z (Z.of_nat autos) in
      Ok (map (fun o => match o with Some w => w | None => each end) v)
    else Ok or0
  else if lt sum (known - fixed) then
    if Qeq_bool sum 0 && negb (length v =? 0)%nat then Panic
    else Ok (map (fun w => w + (known - fixed - sum) * (w / sum)) or0)
  else Ok or0).

(** ** The layouts of one table, one after the other *)

Inductive intrinsic := AUTO | MIN_CONTENT | MAX_CONTENT.
Record input := mkInput { in_intrinsic : intrinsic; in_known : option Q; in_capmin : option Q; in_containing : Q }.
(** table.cpp:812-813, 1317; the cache of the intrinsic widths (1102-1108) is of a value that does not
    change *)
Record wstate := mkW { w_cols : list Q; w_used : Q; w_last : option (Q * Q * option Q) }.
Definition first_state : wstate := mkW [] 0 None.
(** table.cpp:1279-1291 [CacheParametersFromInput]: equality *)
Definition same_params (a b : Q * Q * option Q) : bool :=
  let '(a1, a2, a3) := a in let '(b1, b2, b3) := b in
  Qeq_bool a1 b1 && Qeq_bool a2 b2 &&
  match a3, b3 with Some x, Some y => Qeq_bool x y | None, None => true | _, _ => false end.
(** table.cpp:1319-1351 [computeWidthAndHeight], the widths; [fixed]: [table-layout] *)
Definition layout_widths (fixed : bool) (z : sizes) (g : grid) (borders : list Q) (spacing : Q) (s : wstate) (i : input) : outcome wstate :=
  match (if fixed then in_known i else None) with
  | Some k => omap (fun v => mkW (w_cols s ++ v) k (w_last s)) (fixed_widths z g borders spacing k)
  | None =>
    match in_intrinsic i with
    | AUTO =>
      match in_capmin i with
      | None => Panic
      | Some cap =>
        let p := (in_containing i, cap, in_known i) in
        if match w_last s with Some q => same_params q p | None => false end then Ok s
        else omap (fun '(v, u) => mkW v u (Some p)) (auto_widths z g (in_known i) cap (in_containing i))
      end
    | MIN_CONTENT => omap (fun '(mn, _) => mkW mn (qsum mn) (w_last s)) (min_max z g 0)
    | MAX_CONTENT => omap (fun '(_, mx) => mkW mx (qsum mx) (w_last s)) (min_max z g 0)
    end
  end.
Fixpoint layouts (fixed : bool) (z : sizes) (g : grid) (borders : list Q) (spacing : Q) (s : wstate) (l : list input) : outcome wstate :=
  match l with
  | [] => Ok s
  | i :: r => obind (layout_widths fixed z g borders spacing s i) (fun s => layouts fixed z g borders spacing s r)
  end.
(** table.cpp:1537-1538, 1487: where the cells of a row end: after the space before each column and
    after the last one. *)
Definition row_extent (spacing : Q) (v : list Q) : Q := qsum v + spacing * inject_Z (Z.of_nat (length v + 1)).
