(** Flex containers, along the cross axis: layout/flex.cpp:478-552, 726-736, 1129-1199, 1211-1253,
    1320-1371, 1380-1467.

    Lengths are rationals. The size of an item that its content gives (1078-1095), its limits and its
    margins are given. Only containers that are laid out, not measured, are modelled:
    [input.intrinsic] is neither [MIN_CONTENT] nor [MAX_CONTENT]. *)
From Coq Require Import List Arith ZArith QArith Bool.
From Verif.Flex Require Import FlexModel.
Import ListNotations.
Local Open Scope Q_scope.

(** values/align.cpp:33-63; [A_OTHER] is for all that have no case of their own in [alignItem] *)
Inductive align := A_AUTO | A_STRETCH | A_CENTER | A_FLEX_START | A_FLEX_END | A_FIRST_BASELINE | A_OTHER.
(** flex.cpp:135-154 and the style: [c_hyp] is the cross size of [speculativeSize], [c_sized] whether
    the cross size is not auto, [c_min] and [c_max] are those of [getMinMaxPrefferedSize]. Margins that
    are auto are [None]. [c_top]: the margin at the top is auto, whatever the direction. *)
Record citem := mkC { c_id : nat; c_hyp : Q; c_sized : bool; c_min : Q; c_max : Q; c_self : align; c_start : option Q; c_end : option Q; c_top : bool }.
(** The cross size that is given, the space that is available (726-732, [known] when there is one),
    whether the cross size is auto in the style, [align-items] and [align-content]. *)
Record container := mkK { k_known : option Q; k_given : Q; k_auto : bool; k_items : align; k_content : justify }.
(** flex.cpp:729-732 *)
Definition space (k : container) : Q := match k_known k with Some q => q | None => k_given k end.
Definition mar (m : option Q) : Q := match m with Some q => q | None => 0 end.
(** flex.cpp:221-223 [getMargin(BOTH_CROSS)] with margins that are auto as 0 *)
Definition cboth (c : citem) : Q := mar (c_start c) + mar (c_end c).
(** flex.cpp:227-230 [hasAnyCrossMarginAuto] *)
Definition any_auto (c : citem) : bool := match c_start c, c_end c with Some _, Some _ => false | _, _ => true end.

(** flex.cpp:1142-1166 *)
Definition counts (c : citem) : bool := match c_self c with A_FIRST_BASELINE => any_auto c | _ => true end.
Definition line_cross (l : list citem) : Q := fold_left (fun m c => if counts c then maxq m (c_hyp c + cboth c) else m) l 0.
(** flex.cpp:1129-1168 *)
Definition cross_sizes (k : container) (ls : list (list citem)) : list Q :=
  match k_known k, ls with
  | Some q, [_] => [q]
  | _, _ => map line_cross ls
  end.
(** flex.cpp:1182-1199 *)
Definition stretch_lines (k : container) (v : list Q) : list Q :=
  match k_content k with
  | STRETCH =>
    if (k_auto k || match k_known k with Some _ => true | None => false end) && ltq (sumq v) (space k) then
      map (fun x => x + (space k - sumq v) / inject_Z (Z.of_nat (length v))) v
    else v
  | _ => v
  end.
Definition self (k : container) (c : citem) : align := match c_self c with A_AUTO => k_items k | a => a end.
(** flex.cpp:1211-1253 *)
Definition used_cross (k : container) (cross : Q) (c : citem) : Q :=
  match self k c with
  | A_STRETCH => if negb (c_sized c) && negb (any_auto c) then clampq (cross - cboth c) (c_min c) (c_max c) else c_hyp c
  | _ => c_hyp c
  end.
(** An item with its cross size, margins and position in its line. *)
Record cplaced := mkP { q_item : citem; q_size : Q; q_start : Q; q_end : Q; q_pos : Q }.
(** flex.cpp:1320-1357; positions are 0 at first *)
Definition cross_autos (cross : Q) (c : citem) (u : Q) : cplaced :=
  match c_start c, c_end c with
  | Some s, Some e => mkP c u s e 0
  | s, e =>
    if ltq (u + cboth c) cross then
      match s, e with
      | Some s, _ => mkP c u s (cross - u - s) s
      | None, Some e => mkP c u (cross - u - e) e (cross - u - e)
      | None, None => mkP c u ((cross - u) / 2) ((cross - u) / 2) ((cross - u) / 2)
      end
    else mkP c u (if c_top c then 0 else mar s) (if ltq u cross then cross - u else mar e) 0
  end.
(** flex.cpp:478-552 [alignItem] *)
Definition align_item (k : container) (cross : Q) (p : cplaced) : cplaced :=
  let at_ x := mkP (q_item p) (q_size p) (q_start p) (q_end p) x in
  let unless_auto x := if any_auto (q_item p) then p else at_ x in
  match self k (q_item p) with
  | A_FLEX_END => unless_auto (cross - q_size p - q_end p)
  | A_CENTER => unless_auto ((cross - q_size p - (q_start p + q_end p)) / 2 + q_start p)
  | A_FIRST_BASELINE => p
  | A_STRETCH => at_ (q_start p)
  | _ => unless_auto (q_start p)
  end.
(** flex.cpp:1211-1371 for one item *)
Definition cross_item (k : container) (cross : Q) (c : citem) : cplaced := align_item k cross (cross_autos cross c (used_cross k cross c)).

(** flex.cpp:1380-1394 *)
Definition container_cross (k : container) (v : list Q) : Q :=
  if k_auto k then sumq v else match k_known k with Some q => q | None => sumq v end.
(** flex.cpp:1402-1466: lines one after the other from some position and with some gap *)
Fixpoint put_lines (gap pos : Q) (v : list Q) : list Q :=
  match v with [] => [] | x :: r => pos :: put_lines gap (pos + (x + gap)) r end.
(** flex.cpp:1399-1467 [_alignAllFlexLines]; the division of 1452 is by [_lines.len() - 1], not 0 there *)
Definition align_lines (k : container) (v : list Q) : list Q :=
  let free := space k - sumq v in
  let n := inject_Z (Z.of_nat (length v)) in
  match k_content k with
  | FLEX_END => put_lines 0 free v
  | CENTER => put_lines 0 (free / 2) v
  | SPACE_AROUND => if ltq free 0 then put_lines 0 (free / 2) v else put_lines (free / n) (free / n / 2) v
  | SPACE_BETWEEN => if ltq free 0 || (length v =? 1)%nat then put_lines 0 0 v else put_lines (free / (n - 1)) 0 v
  | _ => put_lines 0 0 v
  end.
(** A line: its position, its cross size and its items. *)
Record cline := mkL { l_pos : Q; l_cross : Q; l_items : list cplaced }.
(** flex.cpp:1571-1596: the lines and the cross size of the container; [wrap-reverse] is not looked at *)
Definition cross_layout (k : container) (ls : list (list citem)) : list cline * Q :=
  let v := stretch_lines k (cross_sizes k ls) in
  (map (fun x => mkL (fst (fst x)) (snd (fst x)) (map (cross_item k (snd (fst x))) (snd x))) (combine (combine (align_lines k v) v) ls),
   container_cross k v).
