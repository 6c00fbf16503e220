(** Running elements: layout/base/running-position.cpp.

    Elements are numbers. Karm's [search] (not in /repo) is a binary search: what it returns is a
    parameter, constrained in RunningProps.v. *)
From Coq Require Import List NArith Bool Arith.
From Verif.Base Require Import Str Outcome.
Import ListNotations.
Local Open Scope nat_scope.

(** running-position.cpp:19-32 [RunningPositionInfo], without the name, which is the key *)
Record info := mkInfo { i_page : nat; i_elem : nat }.

(** running-position.cpp:36 [content]: an association list in order of insertion *)
Definition rmap := list (str * list info).

Fixpoint lookup (m : rmap) (n : str) : option (list info) :=
  match m with
  | [] => None
  | (k, l) :: m' => if str_eqb k n then Some l else lookup m' n
  end.

(** running-position.cpp:38-49 [add], for a box that is running under name [n] and has an
    originating element *)
Fixpoint add (m : rmap) (n : str) (i : info) : rmap :=
  match m with
  | [] => [(n, [i])]
  | (k, l) :: m' => if str_eqb k n then (k, l ++ [i]) :: m' else (k, l) :: add m' n i
  end.

(** values/content.cpp:18-24 [ElementFunc::Target] *)
Inductive target := UNDEFINED | FIRST | START | LAST | FIRST_EXCEPT.

(** running-position.cpp:92-95: the left end of the run *)
Fixpoint go_left (l : list info) (page i : nat) : nat :=
  match i with
  | O => O
  | S j => match nth_error l j with
           | Some x => if i_page x =? page then go_left l page j else i
           | None => i
           end
  end.
(** running-position.cpp:97-100: the right end of the run; [n] bounds the number of turns *)
Fixpoint go_right (n : nat) (l : list info) (page i : nat) : nat :=
  match n with
  | O => i
  | S n =>
    if i <? length l - 1 then
      match nth_error l (i + 1) with
      | Some x => if i_page x =? page then go_right n l page (i + 1) else i
      | None => i
      end
    else i
  end.

(** Karm [sub(l, a, b)]: the elements from [a] to [b], excluded *)
Definition sub {A} (l : list A) (a b : nat) : list A := firstn (b - a) (skipn a l).

(** running-position.cpp:80-103 [_searchPage]; [found] is what the binary search returned *)
Definition search_page (found : option nat) (l : list info) (page : nat) : list info :=
  match found with
  | None => sub l 0 1
  | Some i => sub l (go_left l page i) (go_right (length l) l page i + 1)
  end.

(** [elements[i]]; out of range is a panic *)
Definition at_ {A} (l : list A) (i : nat) : outcome (option A) :=
  match nth_error l i with Some x => Ok (Some x) | None => Panic end.

(** running-position.cpp:58-64, the loop of START: [prev] is [list[i - 1]] *)
Fixpoint start_loop (l : list info) (prev : option info) (page : nat) : option info :=
  match l with
  | [] => None
  | x :: l' =>
    match prev with
    | Some p => if i_page x =? page then Some p else start_loop l' (Some x) page
    | None => start_loop l' (Some x) page
    end
  end.

(** running-position.cpp:52-78 [match]; [Ok None] is the error *)
Definition match_ (found : option nat) (m : rmap) (n : str) (t : target) (page : nat) : outcome (option info) :=
  match lookup m n with
  | None => Ok None
  | Some l =>
    match t with
    | UNDEFINED => at_ l 0
    | START => match start_loop l None page with Some p => Ok (Some p) | None => at_ l 0 end
    | FIRST | FIRST_EXCEPT => at_ (search_page found l page) 0
    | LAST => let e := search_page found l page in at_ e (length e - 1)
    end
  end.

(** What printing has registered: running boxes in the order of their layout. *)
Definition registered (h : list (str * info)) : rmap := fold_left (fun m e => add m (fst e) (snd e)) h [].
