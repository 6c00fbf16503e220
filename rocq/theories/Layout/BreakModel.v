(** Break points: layout/base/breaks.cpp:64-246. *)
From Coq Require Import List NArith Bool.
Import ListNotations.
Local Open Scope N_scope.

(** breaks.cpp:68-75 [Appeal]; [MAX] only occurs inside [fromChildren] *)
Inductive appeal := EMPTY | OVERFLOW | AVOID | CLASS_B | FORCED.
Definition rank (a : appeal) : N :=
  match a with EMPTY => 0 | OVERFLOW => 1 | AVOID => 2 | CLASS_B => 3 | FORCED => 4 end.

(** breaks.cpp:77-81 [Advance] *)
Inductive advance := DONT | WITH_CHILDREN | WITHOUT_CHILDREN.

(** breaks.cpp:83-87 [Breakpoint]: [endIdx] ([usize]), appeal, children, advance. The flag
    [completelyLaidOut] is never read. *)
Inductive bp := BP (e : N) (a : appeal) (cs : list (option bp)) (adv : advance).
Definition bp_end (b : bp) := match b with BP e _ _ _ => e end.
Definition bp_appeal (b : bp) := match b with BP _ a _ _ => a end.
Definition bp_children (b : bp) := match b with BP _ _ cs _ => cs end.
Definition bp_advance (b : bp) := match b with BP _ _ _ adv => adv end.

(** breaks.cpp:83-87: the default value *)
Definition bp_default : bp := BP 0 EMPTY [] WITHOUT_CHILDREN.
(** breaks.cpp:89-96 [bottomOfMonolithicBox] *)
Definition bottom_of_monolithic (children : N) : bp := BP children CLASS_B [] WITHOUT_CHILDREN.
(** breaks.cpp:98-105 [forced] *)
Definition forced (e : N) : bp := BP e FORCED [] WITHOUT_CHILDREN.
(** breaks.cpp:107-119 [fromChild] *)
Definition from_child (c : bp) (e : N) (avoid : bool) : bp :=
  BP e (if avoid then AVOID else bp_appeal c) [Some c] DONT.
(** breaks.cpp:145-153 [classB] *)
Definition class_b (e : N) (avoid : bool) : bp := BP e (if avoid then AVOID else CLASS_B) [] WITHOUT_CHILDREN.
(** breaks.cpp:155-160 [startOfDocument] *)
Definition start_of_document : bp := BP 0 EMPTY [] WITHOUT_CHILDREN.
(** breaks.cpp:162-169 [overflow] *)
Definition overflow : bp := BP 0 OVERFLOW [] DONT.

Definition appeal_eqb (a b : appeal) : bool := rank a =? rank b.

(** breaks.cpp:176-183 [overrideIfBetter]: the new value of [*this] *)
Definition override_if_better (this other : bp) : bp :=
  if appeal_eqb (bp_appeal this) OVERFLOW && appeal_eqb (bp_appeal other) OVERFLOW then this
  else if rank (bp_appeal this) <=? rank (bp_appeal other) then other else this.

(** breaks.cpp:206-214 [traversePrev], for parallel flow 0; [children[0]] exists when [len > 0] *)
Definition traverse_prev (prev : option bp) (i : N) : option bp :=
  match prev with
  | Some (BP e _ (c :: _) adv) =>
    if (i + 1 =? e) || (match adv with WITH_CHILDREN => i =? e | _ => false end) then c else None
  | _ => None
  end.
(** breaks.cpp:216-222 [traverseCurr] *)
Definition traverse_curr (curr : option bp) (i : N) : option bp :=
  match curr with
  | Some (BP e _ (c :: _) _) => if i + 1 =? e then c else None
  | _ => None
  end.

(** [endIdx - 1] on a [usize] *)
Definition usize_pred (e : N) : N := if e =? 0 then 18446744073709551615 else e - 1.
(** breaks.cpp:235-239 [getStart] *)
Definition get_start (prev : option bp) : option N :=
  match prev with
  | None => None
  | Some b => Some (match bp_advance b with DONT => usize_pred (bp_end b) | _ => bp_end b end)
  end.
(** breaks.cpp:241-245 [getEnd] *)
Definition get_end (curr : option bp) : option N := option_map bp_end curr.
