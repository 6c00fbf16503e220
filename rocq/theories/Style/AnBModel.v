(** Model of the An+B micro-syntax matcher.
    Source: /repo/src/vaev-engine/style/selector.cpp, struct AnB. *)
From Coq Require Import ZArith Bool.
Local Open Scope Z_scope.

(** style/selector.cpp:262-263 [struct AnB { Integer a, b; }].  [Integer] is [isize];
    modelled by [Z]; overflow is modelled separately in [anb_match_checked]. *)
Record anb := mkAnB { anb_a : Z; anb_b : Z }.

(** style/selector.cpp:271-282 [AnB::match].  C++ [%] and [/] truncate towards zero:
    [Z.rem] and [Z.quot]. *)
Definition anb_match (p : anb) (index : Z) : bool :=
  let intIndex := index - anb_b p in
  if anb_a p =? 0 then intIndex =? 0
  else if negb (Z.rem intIndex (anb_a p) =? 0) then false
  else Z.quot intIndex (anb_a p) >=? 0.

(** The 64-bit signed range of [isize]. *)
Definition isize_min := - 2 ^ 63.
Definition isize_max := 2 ^ 63 - 1.
Definition in_isize (z : Z) : bool := (isize_min <=? z) && (z <=? isize_max).

(** Same function with undefined behaviour made explicit ([None]): signed overflow of the
    subtraction at line 273, and of [INT_MIN % -1], [INT_MIN / -1] at lines 278 and 281.
    [index] is a [usize] cast to [Integer] (line 273), assumed below 2^63. *)
Definition anb_match_checked (p : anb) (index : Z) : option bool :=
  let intIndex := index - anb_b p in
  if negb (in_isize intIndex) then None
  else if anb_a p =? 0 then Some (intIndex =? 0)
  else if (anb_a p =? -1) && (intIndex =? isize_min) then None
  else if negb (Z.rem intIndex (anb_a p) =? 0) then Some false
  else Some (Z.quot intIndex (anb_a p) >=? 0).
