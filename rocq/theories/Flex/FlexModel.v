(** Flex containers, along the main axis: layout/flex.cpp:135-233, 320-327, 564-653, 866-902, 907-1073,
    1078-1095, 1258-1315; layout/base/layout-impl.cpp:65-79; layout/base/values.cpp:58-62.

    Lengths and numbers are rationals. The flex base size of an item and its smallest and largest main
    size (263-318, 330-406) are given; [Limits<Au>::MAX] is some large number. Only sums over
    [unfrozenItems] and [frozenItems] are used, so their order is not kept, and the sums over frozen
    items are recomputed. *)
From Coq Require Import List Arith ZArith QArith Bool.
From Verif.Base Require Import Outcome.
Import ListNotations.
Local Open Scope Q_scope.

Definition ltq (a b : Q) : bool := negb (Qle_bool b a).
Definition maxq (a b : Q) : Q := if ltq a b then b else a.
Definition minq (a b : Q) : Q := if ltq b a then b else a.
Definition absq (a : Q) : Q := if ltq a 0 then - a else a.
Definition sumq (l : list Q) : Q := fold_right Qplus 0 l.
(** [clamp] of Karm *)
Definition clampq (v lo hi : Q) : Q := minq (maxq v lo) hi.

Inductive margin := AUTO | LENGTH (q : Q) | PERCENT (q : Q).
(** values.cpp:58-62, layout-impl.cpp:73-76 *)
Definition resolve (base : Q) (m : margin) : Q := match m with AUTO => 0 | LENGTH q => q | PERCENT q => base * q / 100 end.
Definition is_auto (m : margin) : bool := match m with AUTO => true | _ => false end.

(** flex.cpp:135-148 with what the style gives: the margins at the start and the end of the main axis *)
Record item := mkItem { i_id : nat; i_base : Q; i_min : Q; i_max : Q; i_grow : Q; i_shrink : Q; i_start : margin; i_end : margin }.
(** flex.cpp:320-327 *)
Definition hypo (i : item) : Q := clampq (i_base i) (i_min i) (i_max i).
(** flex.cpp:217-219 [getMargin(BOTH_MAIN)] after 762-768, where the containing block is 0 *)
Definition both (i : item) : Q := resolve 0 (i_start i) + resolve 0 (i_end i).

(** ** Lines *)

(** flex.cpp:872-884: the items of one line and those that are left *)
Fixpoint take_line (main cur : Q) (l : list item) : list item * list item :=
  match l with
  | [] => ([], [])
  | i :: r =>
    let c := hypo i + both i in
    if Qle_bool (cur + c) (main + (1 # 100)) || Qeq_bool cur 0 then let '(a, b) := take_line main (cur + c) r in (i :: a, b)
    else ([], l)
  end.
(** flex.cpp:868-889 *)
Fixpoint collect_wrap (fuel : nat) (main : Q) (l : list item) : outcome (list (list item)) :=
  match fuel with
  | O => OutOfFuel
  | S n =>
    match l with
    | [] => Ok []
    | _ :: _ => let '(a, b) := take_line main 0 l in omap (cons a) (collect_wrap n main b)
    end
  end.
Inductive wrap := NOWRAP | WRAP | WRAP_REVERSE.
Inductive direction := ROW | ROW_REVERSE | COLUMN | COLUMN_REVERSE.
(** flex.cpp:892-902 *)
Definition collect (w : wrap) (d : direction) (main : Q) (l : list item) : outcome (list (list item)) :=
  omap (fun lines => match d with ROW_REVERSE => map (@rev item) lines | _ => lines end)
    (match w with NOWRAP => Ok [l] | _ => collect_wrap (S (length l)) main l end).

(** ** Flexible lengths *)

Record sized := mkS { s_item : item; s_used : Q; s_frozen : bool }.
(** flex.cpp:923-928 *)
Definition starts_frozen (matched grows : bool) (i : item) : bool :=
  matched || (grows && ltq (hypo i) (i_base i)) || (negb grows && ltq (i_base i) (hypo i)) ||
  (Qeq_bool (i_grow i) 0 && grows) || (Qeq_bool (i_shrink i) 0 && negb grows).
(** flex.cpp:921-939 *)
Definition start (matched grows : bool) (i : item) : sized :=
  if starts_frozen matched grows i then mkS i (hypo i) true else mkS i (i_base i) false.
Definition unfrozen (l : list sized) : list item := map s_item (filter (fun s => negb (s_frozen s)) l).
(** flex.cpp:932-934, 1061-1063 [sumFrozenOuterSizes] *)
Definition frozen_size (l : list sized) : Q := sumq (map (fun s => s_used s + both (s_item s)) (filter s_frozen l)).
(** flex.cpp:941-955 [computeStats] *)
Definition outer_sizes (u : list item) : Q := sumq (map (fun i => i_base i + both i) u).
Definition factor (grows : bool) (i : item) : Q := if grows then i_grow i else i_shrink i.
Definition factors (grows : bool) (u : list item) : Q := sumq (map (factor grows) u).
Definition free_space (main : Q) (l : list sized) : Q := main - (outer_sizes (unfrozen l) + frozen_size l).
(** flex.cpp:962-969 *)
Definition to_share (grows : bool) (main initial : Q) (l : list sized) : Q :=
  let f := factors grows (unfrozen l) in
  let free := free_space main l in
  if ltq f 1 && ltq (absq (initial * f)) (absq free) then initial * f else free.
(** flex.cpp:232-234 [getScaledFlexShrinkFactor] *)
Definition scaled (i : item) : Q := i_base i * i_shrink i.
(** flex.cpp:971-994: the size of an unfrozen item *)
Definition share (grows : bool) (u : list item) (free : Q) (i : item) : Q :=
  if grows then i_base i + i_grow i / factors true u * free
  else let s := sumq (map scaled u) in
       if Qeq_bool s 0 then i_base i else i_base i - scaled i / s * absq free.
(** flex.cpp:998-1010 [clampAndFloorContentBox] *)
Definition clamp_floor (i : item) (v : Q) : Q := maxq (clampq v (i_min i) (i_max i)) 0.
Definition violation (s : sized) : Q := clamp_floor (s_item s) (s_used s) - s_used s.
(** flex.cpp:996-1070: what becomes of an item, from the total violation *)
Definition settle (total : Q) (s : sized) : sized :=
  if s_frozen s then s
  else let c := clamp_floor (s_item s) (s_used s) in
       mkS (s_item s) c (if Qeq_bool total 0 then true else if ltq total 0 then ltq c (s_used s) else ltq (s_used s) c).
(** flex.cpp:962-1070: one turn of the loop *)
Definition turn (grows : bool) (main initial : Q) (l : list sized) : list sized :=
  let free := to_share grows main initial l in
  let l := map (fun s => if s_frozen s then s else mkS (s_item s) (share grows (unfrozen l) free (s_item s)) false) l in
  map (settle (sumq (map violation l))) l.
(** flex.cpp:961-1071 *)
Fixpoint loop (fuel : nat) (grows : bool) (main initial : Q) (l : list sized) : outcome (list sized) :=
  match unfrozen l with
  | [] => Ok l
  | _ :: _ => match fuel with O => OutOfFuel | S n => loop n grows main initial (turn grows main initial l) end
  end.
(** flex.cpp:908-1072 for one line: the items and their main sizes *)
Definition resolve_line (fuel : nat) (main : Q) (l : list item) : outcome (list (item * Q)) :=
  let sum := sumq (map (fun i => hypo i + both i) l) in
  let grows := ltq sum main in
  let l := map (start (Qeq_bool sum main) grows) l in
  omap (map (fun s => (s_item s, s_used s))) (loop fuel grows main (free_space main l) l).

(** ** Margins and positions *)

(** An item with its main size, its margins and its position in its line. *)
Record placed := mkPlaced { p_item : item; p_size : Q; p_start : Q; p_end : Q; p_pos : Q }.
Definition outer (p : placed) : Q := p_size p + (p_start p + p_end p).
(** flex.cpp:1078-1095: margins are computed again, now with the main size of the item as the size of
    the containing block *)
Definition margins (x : item * Q) : placed := mkPlaced (fst x) (snd x) (resolve (snd x) (i_start (fst x))) (resolve (snd x) (i_end (fst x))) 0.
Definition occupied (l : list placed) : Q := sumq (map outer l).
Definition autos (i : item) : nat := (if is_auto (i_start i) then 1 else 0) + (if is_auto (i_end i) then 1 else 0).
Definition set_autos (m : Q) (p : placed) : placed :=
  mkPlaced (p_item p) (p_size p) (if is_auto (i_start (p_item p)) then m else p_start p) (if is_auto (i_end (p_item p)) then m else p_end p) (p_pos p).
(** flex.cpp:1260-1296: the items with the space shared among auto margins, and the size that is taken *)
Definition auto_margins (main : Q) (l : list placed) : list placed * Q :=
  let occ := occupied l in
  let n := fold_right (fun p => Nat.add (autos (p_item p))) 0%nat l in
  if ltq occ main && (0 <? n)%nat then (map (set_autos ((main - occ) / inject_Z (Z.of_nat n))) l, main)
  else (map (set_autos 0) l, occ).

(** flex.cpp:564-621: all of them put items one after the other, from some position and with some gap *)
Fixpoint place (gap pos : Q) (l : list placed) : list placed :=
  match l with
  | [] => []
  | p :: r => mkPlaced (p_item p) (p_size p) (p_start p) (p_end p) (pos + p_start p) :: place gap (pos + (outer p + gap)) r
  end.
(** values/align.cpp:33-63, those that [justify-content] takes *)
Inductive justify := NORMAL | CENTER | START | END | FLEX_START | FLEX_END | LEFT | RIGHT | STRETCH | SPACE_BETWEEN | SPACE_AROUND | SPACE_EVENLY.
Definition count (l : list placed) : Q := inject_Z (Z.of_nat (length l)).
(** flex.cpp:624-653 [justifyContent]; the division of 601 is by [items.len() - 1], which is not 0 there
    as lines are not empty *)
Definition justify_content (j : justify) (main occ : Q) (l : list placed) : list placed :=
  match j with
  | SPACE_AROUND =>
    if ltq main occ || (length l =? 1)%nat then place 0 ((main - occ) / 2) l
    else let gap := (main - occ) / count l in place gap (gap / 2) l
  | CENTER => place 0 ((main - occ) / 2) l
  | FLEX_END => place 0 (main - occ) l
  | SPACE_BETWEEN => if ltq main occ || (length l =? 1)%nat then place 0 0 l else place ((main - occ) / (count l - 1)) 0 l
  | _ => place 0 0 l
  end.
(** flex.cpp:1301-1307 *)
Definition flip (d : direction) (j : justify) : justify :=
  match d, j with ROW_REVERSE, FLEX_START => FLEX_END | ROW_REVERSE, FLEX_END => FLEX_START | _, _ => j end.
(** flex.cpp:1258-1315 for one line *)
Definition distribute (d : direction) (j : justify) (main : Q) (l : list (item * Q)) : list placed :=
  let '(l, occ) := auto_margins main (map margins l) in justify_content (flip d j) main occ l.

(** flex.cpp:1562-1584: the lines of a container along the main axis *)
Definition layout (fuel : nat) (w : wrap) (d : direction) (j : justify) (main : Q) (l : list item) : outcome (list (list placed)) :=
  obind (collect w d main l) (fun lines =>
  fold_right (fun line rest => obind (resolve_line fuel main line) (fun r => omap (cons (distribute d j main r)) rest)) (Ok []) lines).
