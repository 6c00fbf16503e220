(** What the DOM operations mean, on plain lists of children. *)
From Coq Require Import List Arith Bool Relations.
From Verif.Dom Require Import TreeModel.
Import ListNotations.

(** A forest: the list of children of every node. *)
Definition forest := id -> list id.
Definition forest_empty : forest := fun _ => [].

Definition last_error (l : list id) : option id := hd_error (rev l).

(** [dll h p l]: the links of [p] and of the nodes of [l] say that [l] is the list of children of
    [p]. *)
Definition dll (h : heap) (p : id) (l : list id) : Prop :=
  NoDup l /\ first h p = hd_error l /\ last h p = last_error l /\
  forall l1 c l2, l = l1 ++ c :: l2 ->
    parent h c = Some p /\ prev h c = last_error l1 /\ next h c = hd_error l2.

(** The heap represents the forest: every node's child list is linked properly, and every node is
    either a child of the parent it names, or has no parent and no siblings. *)
Definition represents (h : heap) (k : forest) : Prop :=
  (forall p, dll h p (k p)) /\
  (forall c, match parent h c with
             | Some p => In c (k p)
             | None => prev h c = None /\ next h c = None
             end).

(** [a] is an ancestor of [c]. *)
Definition child_of (k : forest) (p c : id) : Prop := In c (k p).
Definition ancestor (k : forest) : id -> id -> Prop := clos_trans id (child_of k).
Definition acyclic (k : forest) : Prop := forall x, ~ ancestor k x x.

(** List operations. *)
Definition take_out (k : forest) (n : id) : forest := fun p => List.remove Nat.eq_dec n (k p).
Definition put_list (k : forest) (p : id) (l : list id) : forest := fun x => if x =? p then l else k x.

Fixpoint insert_before_list (n c : id) (l : list id) : list id :=
  match l with
  | [] => []
  | x :: l' => if x =? c then n :: x :: l' else x :: insert_before_list n c l'
  end.
Fixpoint insert_after_list (n c : id) (l : list id) : list id :=
  match l with
  | [] => []
  | x :: l' => if x =? c then x :: n :: l' else x :: insert_after_list n c l'
  end.

(** What each operation does to the lists: the node leaves the place where it is, and enters the
    list of [p]. *)
Definition apply_op (k : forest) (o : op) : forest :=
  match o with
  | Append p n | Before p n None | After p n None =>
      let k := take_out k n in put_list k p (k p ++ [n])
  | Prepend p n => let k := take_out k n in put_list k p (n :: k p)
  | Before p n (Some c) => let k := take_out k n in put_list k p (insert_before_list n c (k p))
  | After p n (Some c) => let k := take_out k n in put_list k p (insert_after_list n c (k p))
  | Remove n => take_out k n
  | RemoveChild p n => take_out k n
  end.

(** The preconditions of the DOM standard (4.2.3, "ensure pre-insert validity" steps 2 and 3;
    4.2.5 "pre-remove" step 1), and inserting a node next to itself. *)
Definition allowed (k : forest) (o : op) : Prop :=
  let may_insert p n := n <> p /\ ~ ancestor k n p in
  match o with
  | Append p n | Prepend p n | Before p n None | After p n None => may_insert p n
  | Before p n (Some c) | After p n (Some c) => may_insert p n /\ In c (k p) /\ n <> c
  | Remove n => True
  | RemoveChild p n => In n (k p)
  end.

Fixpoint allowed_all (k : forest) (os : list op) : Prop :=
  match os with
  | [] => True
  | o :: os' => allowed k o /\ allowed_all (apply_op k o) os'
  end.

Definition apply_all (k : forest) (os : list op) : forest := fold_left apply_op os k.

(** Document order: [preorder k n l] lists [n] and its descendants depth first. *)
Inductive preorder (k : forest) : id -> list id -> Prop :=
| Pre n ls : Forall2 (preorder k) (k n) ls -> preorder k n (n :: concat ls).
