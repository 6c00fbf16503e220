(** Strings and symbols.

    Models Karm's [Str]/[String]/[Symbol] (library code, not part of /repo): a string is
    its finite sequence of code points.  Symbols are interned strings compared by
    content, so they are modelled by strings as well. *)
From Coq Require Import List NArith Bool String Ascii.
Import ListNotations.

Notation rune := N (only parsing).
Notation str := (list N) (only parsing).

(** Equality test of two strings (Karm [Str::operator==]). *)
Fixpoint str_eqb (a b : str) : bool :=
  match a, b with
  | [], [] => true
  | x :: a', y :: b' => N.eqb x y && str_eqb a' b'
  | _, _ => false
  end.

Lemma str_eqb_spec a b : str_eqb a b = true <-> a = b.
Proof.
  revert b; induction a as [|x a IH]; destruct b as [|y b]; simpl; split; intros H;
    try discriminate; try reflexivity.
  - apply andb_true_iff in H as [H1 H2]. apply N.eqb_eq in H1. apply IH in H2. congruence.
  - injection H as -> ->. rewrite N.eqb_refl. simpl. now apply IH.
Qed.

Lemma str_eqb_refl a : str_eqb a a = true.
Proof. now apply str_eqb_spec. Qed.

Lemma str_eqb_neq a b : str_eqb a b = false <-> a <> b.
Proof.
  destruct (str_eqb a b) eqn:E; split; intros H; try reflexivity; try discriminate.
  - apply str_eqb_spec in E. contradiction.
  - intros ->. rewrite str_eqb_refl in E. discriminate.
Qed.

Definition str_eq_dec (a b : str) : {a = b} + {a <> b}.
Proof. decide equality. apply N.eq_dec. Defined.

(** Literal notation helper: [s "abc"] is the string of code points of an ASCII literal. *)
Fixpoint of_string (x : string) : str :=
  match x with
  | EmptyString => []
  | String c r => N_of_ascii c :: of_string r
  end.

Definition opt_eqb {A} (eqb : A -> A -> bool) (a b : option A) : bool :=
  match a, b with
  | None, None => true
  | Some x, Some y => eqb x y
  | _, _ => false
  end.
Arguments of_string x%string.
