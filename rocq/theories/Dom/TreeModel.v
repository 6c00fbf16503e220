(** Model of the DOM tree operations.
    Source: /repo/src/vaev-engine/dom/tree.cpp (whole file).

    Nodes are numbered; the heap is the five link fields of every node (lines 12-16), [None]
    being the null pointer.  Node arguments that the code takes as [Gc::Ptr] and dereferences
    unconditionally are taken non-null. *)
From Coq Require Import List Arith Bool.
From Verif.Base Require Import Outcome.
Import ListNotations.

Definition id := nat.

(** tree.cpp:12-16 *)
Record heap := mkHeap {
  parent : id -> option id;
  first : id -> option id;
  last : id -> option id;
  next : id -> option id;
  prev : id -> option id;
}.

(** Freshly allocated nodes. *)
Definition heap_empty := mkHeap (fun _ => None) (fun _ => None) (fun _ => None) (fun _ => None) (fun _ => None).

Definition upd (f : id -> option id) (n : id) (v : option id) : id -> option id :=
  fun x => if x =? n then v else f x.

Definition set_parent h n v := mkHeap (upd (parent h) n v) (first h) (last h) (next h) (prev h).
Definition set_first h n v := mkHeap (parent h) (upd (first h) n v) (last h) (next h) (prev h).
Definition set_last h n v := mkHeap (parent h) (first h) (upd (last h) n v) (next h) (prev h).
Definition set_next h n v := mkHeap (parent h) (first h) (last h) (upd (next h) n v) (prev h).
Definition set_prev h n v := mkHeap (parent h) (first h) (last h) (next h) (upd (prev h) n v).

Definition ptr_eqb (a b : option id) : bool :=
  match a, b with
  | Some x, Some y => x =? y
  | None, None => true
  | _, _ => false
  end.

(** [if (p) f(p)] *)
Definition if_some (p : option id) (f : id -> heap -> heap) (h : heap) : heap :=
  match p with Some x => f x h | None => h end.
Definition if_true (b : bool) (f : heap -> heap) (h : heap) : heap := if b then f h else h.

(** tree.cpp:137-156 [remove]. *)
Definition remove (h : heap) (self : id) : heap :=
  match parent h self with
  | None => h
  | Some p =>
      let h := if_true (ptr_eqb (first h p) (Some self)) (fun h => set_first h p (next h self)) h in
      let h := if_true (ptr_eqb (last h p) (Some self)) (fun h => set_last h p (prev h self)) h in
      let h := if_some (next h self) (fun n h => set_prev h n (prev h self)) h in
      let h := if_some (prev h self) (fun n h => set_next h n (next h self)) h in
      let h := set_next h self None in
      let h := set_prev h self None in
      set_parent h self None
  end.

(** tree.cpp:158-163 [removeChild]; the [panic] of line 160. *)
Definition remove_child (h : heap) (self node : id) : outcome heap :=
  if negb (ptr_eqb (parent h node) (Some self)) then Panic else Ok (remove h node).

(** [if (node->_parent) node->remove();] (lines 70-71, 83-84, 99-100, 120-121) *)
Definition detach (h : heap) (node : id) : heap :=
  match parent h node with Some _ => remove h node | None => h end.

(** tree.cpp:69-80 [appendChild]. *)
Definition append_child (h : heap) (self node : id) : heap :=
  let h := detach h node in
  let h := if_some (last h self) (fun l h => set_next h l (Some node)) h in
  let h := set_prev h node (last h self) in
  let h := set_parent h node (Some self) in
  let h := set_last h self (Some node) in
  if_true (ptr_eqb (first h self) None) (fun h => set_first h self (last h self)) h.

(** tree.cpp:82-93 [prependChild]. *)
Definition prepend_child (h : heap) (self node : id) : heap :=
  let h := detach h node in
  let h := if_some (first h self) (fun f h => set_prev h f (Some node)) h in
  let h := set_next h node (first h self) in
  let h := set_parent h node (Some self) in
  let h := set_first h self (Some node) in
  if_true (ptr_eqb (last h self) None) (fun h => set_last h self (first h self)) h.

(** tree.cpp:95-114 [insertBefore]. *)
Definition insert_before (h : heap) (self node : id) (child : option id) : heap :=
  match child with
  | None => append_child h self node
  | Some child =>
      let h := detach h node in
      let h := set_prev h node (prev h child) in
      let h := set_next h node (Some child) in
      let h := if_some (prev h child) (fun p h => set_next h p (Some node)) h in
      let h := if_true (ptr_eqb (first h self) (Some child)) (fun h => set_first h self (Some node)) h in
      let h := set_prev h child (Some node) in
      set_parent h node (Some self)
  end.

(** tree.cpp:116-135 [insertAfter]. *)
Definition insert_after (h : heap) (self node : id) (child : option id) : heap :=
  match child with
  | None => append_child h self node
  | Some child =>
      let h := detach h node in
      let h := set_prev h node (Some child) in
      let h := set_next h node (next h child) in
      let h := if_some (next h child) (fun n h => set_prev h n (Some node)) h in
      let h := if_true (ptr_eqb (last h self) (Some child)) (fun h => set_last h self (Some node)) h in
      let h := set_next h child (Some node) in
      set_parent h node (Some self)
  end.

(** ** Traversal; [fuel] bounds the number of pointers followed. *)

(** The loop of lines 50, 22, 36, 170 and 177: the nodes visited from [p], following [step]. *)
Fixpoint walk (step : id -> option id) (fuel : nat) (p : option id) : outcome (list id) :=
  match p with
  | None => Ok []
  | Some n =>
      match fuel with
      | 0 => OutOfFuel
      | S f => obind (walk step f (step n)) (fun l => Ok (n :: l))
      end
  end.

(** tree.cpp:175-179 [iterChildren]. *)
Definition iter_children (h : heap) (fuel : nat) (n : id) : outcome (list id) :=
  walk (next h) fuel (first h n).

(** tree.cpp:48-53 [countChildren]. *)
Definition count_children (h : heap) (fuel : nat) (n : id) : outcome nat :=
  omap (@length id) (iter_children h fuel n).

(** tree.cpp:20-32 [index]. *)
Definition index (h : heap) (fuel : nat) (n : id) (filter_ : id -> bool) : outcome nat :=
  omap (fun l => length (filter filter_ l)) (walk (prev h) fuel (prev h n)).

(** tree.cpp:34-40 [reverseIndex]. *)
Definition reverse_index (h : heap) (fuel : nat) (n : id) (filter_ : id -> bool) : outcome nat :=
  omap (fun l => length (filter filter_ l)) (walk (next h) fuel (next h n)).

(** tree.cpp:167-173 [iterDepthFirst]; [depth] bounds the nesting of the generators. *)
Fixpoint iter_depth_first (h : heap) (width depth : nat) (n : id) : outcome (list id) :=
  match depth with
  | 0 => OutOfFuel
  | S d =>
      obind (iter_children h width n) (fun kids =>
        omap (cons n)
          (fold_right (fun k acc => obind (iter_depth_first h width d k) (fun a => omap (app a) acc))
             (Ok []) kids))
  end.

(** ** Histories *)
Inductive op :=
| Append (p n : id)
| Prepend (p n : id)
| Before (p n : id) (c : option id)
| After (p n : id) (c : option id)
| Remove (n : id)
| RemoveChild (p n : id).

Definition exec (h : heap) (o : op) : outcome heap :=
  match o with
  | Append p n => Ok (append_child h p n)
  | Prepend p n => Ok (prepend_child h p n)
  | Before p n c => Ok (insert_before h p n c)
  | After p n c => Ok (insert_after h p n c)
  | Remove n => Ok (remove h n)
  | RemoveChild p n => remove_child h p n
  end.

Fixpoint exec_all (h : heap) (os : list op) : outcome heap :=
  match os with
  | [] => Ok h
  | o :: os' => obind (exec h o) (fun h' => exec_all h' os')
  end.
