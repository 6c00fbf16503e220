(** Model of token lists (the class list of an element) and of the attributes of an element.
    Sources: dom/token-list.cpp, dom/element.cpp:111-163. *)
From Coq Require Import String List Arith Bool NArith.
From Verif.Base Require Import Str.
Import ListNotations.
Local Open Scope list_scope.

Definition tokens := list str.

(** [::contains(_tokens, token)] *)
Definition contains (l : tokens) (t : str) : bool := existsb (str_eqb t) l.

(** [Vec::removeAll]: every occurrence goes. *)
Definition remove_all (l : tokens) (t : str) : tokens := filter (fun x => negb (str_eqb t x)) l.

(** token-list.cpp:21-25 [item] *)
Definition item (l : tokens) (i : nat) : option str := nth_error l i.

(** token-list.cpp:31-34 *)
Definition add (l : tokens) (t : str) : tokens := if contains l t then l else l ++ [t].

(** token-list.cpp:36-38 *)
Definition remove (l : tokens) (t : str) : tokens := remove_all l t.

(** token-list.cpp:40-47 *)
Definition toggle (l : tokens) (t : str) : tokens * bool :=
  if contains l t then (remove_all l t, false) else (l ++ [t], true).

(** token-list.cpp:49-55 *)
Definition replace (l : tokens) (old new : str) : tokens * bool :=
  if contains l old then (remove_all l old ++ [new], true) else (l, false).

Inductive op :=
| Clear
| Add (t : str)
| Remove (t : str)
| Toggle (t : str)
| Replace (old new : str).

Definition exec (l : tokens) (o : op) : tokens :=
  match o with
  | Clear => []
  | Add t => add l t
  | Remove t => remove l t
  | Toggle t => fst (toggle l t)
  | Replace a b => fst (replace l a b)
  end.

Definition exec_all (l : tokens) (os : list op) : tokens := fold_left exec os l.

(** ** Attributes *)

(** Karm [iterSplit(value, ' ')] (assumed): the pieces between the separators. *)
Fixpoint split_on (c : N) (v : str) : list str :=
  match v with
  | [] => [[]]
  | x :: v' =>
      if N.eqb x c then [] :: split_on c v'
      else match split_on c v' with
           | [] => [[x]]
           | p :: ps => (x :: p) :: ps
           end
  end.

(** element.cpp:118-125: the class list after [class] is set to [v]. *)
Definition class_list (v : str) : tokens :=
  fold_left (fun l p => match p with [] => l | _ => add l p end) (split_on 32 v) [].
