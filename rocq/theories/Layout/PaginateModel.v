(** Pagination: driver/print.cpp:151-211 [collectBreakPointsAndRunningPositions] and the loop of
    246-288 [print].

    The geometry of page [k] (from 1) is the top and the height of its content area. *)
From Coq Require Import List NArith QArith Bool.
From Verif.Base Require Import Outcome.
From Verif.Layout Require Import BreakModel BlockModel.
Import ListNotations.
Local Open Scope Q_scope.

Definition geometry := nat -> Q * Q.

(** driver/print.cpp:155-210: pages from number [k] on, after the break point [prev]. One unit of
    fuel is one page. *)
Fixpoint collect (fuel : nat) (g : geometry) (root : box) (k : nat) (prev : bp) : outcome (list bp) :=
  match fuel with
  | O => OutOfFuel
  | S fuel =>
    let '(top, height) := g k in
    let o := layout DISCOVERY height root top 0 (Some prev) None in
    if o_complete o then Ok [class_b 1 false]
    else match o_bp o with
         | None => Panic
         | Some b => obind (collect fuel g root (k + 1) b) (fun l => Ok (b :: l))
         end
  end.

(** driver/print.cpp:246-265: the second pass. [lim] is the height the fragmentainer was left with,
    that of the last page of the first pass. *)
Fixpoint render (g : geometry) (lim : Q) (root : box) (k : nat) (prev : bp) (bps : list bp) : list (list frag) :=
  match bps with
  | [] => []
  | b :: bps' => o_frag (layout RENDER lim root (fst (g k)) 0 (Some prev) (Some b)) :: render g lim root (k + 1) b bps'
  end.

Definition print (fuel : nat) (g : geometry) (root : box) : outcome (list (list frag)) :=
  obind (collect fuel g root 1 start_of_document) (fun bps =>
    Ok (render g (snd (g (length bps))) root 1 start_of_document bps)).
