(** Outcomes of modelled functions.

    [Panic] stands for a Karm [panic]/[unreachable], an out-of-range access or undefined
    behaviour; [OutOfFuel] for a loop or recursion that has not finished within the fuel. *)

Inductive outcome (A : Type) :=
| Ok (a : A)
| Panic
| OutOfFuel.
Arguments Ok {A} a.
Arguments Panic {A}.
Arguments OutOfFuel {A}.

Definition obind {A B} (x : outcome A) (f : A -> outcome B) : outcome B :=
  match x with
  | Ok a => f a
  | Panic => Panic
  | OutOfFuel => OutOfFuel
  end.

Definition omap {A B} (f : A -> B) (x : outcome A) : outcome B :=
  obind x (fun a => Ok (f a)).
