(** C21: DOM mutations keep the tree well formed. *)
From Coq Require Import List Arith Bool Lia Relations.
From Verif.Base Require Import Outcome.
From Verif.Dom Require Import TreeModel TreeSpec TreeProofs.
Import ListNotations.

(** Every history of mutations that respects the preconditions ([allowed]: an inserted node is
    neither the new parent nor one of its ancestors; the reference child is a child of the parent,
    and another node; a removed child is a child) runs without panicking, and afterwards the five
    link fields of all nodes describe exactly the lists of children obtained by performing the
    same operations on plain lists; no node is its own ancestor. *)
Theorem C21_history os : allowed_all forest_empty os ->
  exists h, exec_all heap_empty os = Ok h /\
    represents h (apply_all forest_empty os) /\ acyclic (apply_all forest_empty os).
Proof.
  intros H. destruct (exec_all_represents os _ _ represents_empty H) as (h & E & Hr).
  exists h. split; [exact E|]. split; [exact Hr|]. apply apply_all_acyclic; [apply acyclic_empty|exact H].
Qed.

(** The same from any well-formed document, one operation at a time. *)
Theorem C21_step h k o : represents h k -> acyclic k -> allowed k o ->
  exists h', exec h o = Ok h' /\ represents h' (apply_op k o) /\ acyclic (apply_op k o).
Proof.
  intros Hr Hk Ha. destruct (exec_represents h k o Hr Ha) as (h' & E & Hr').
  exists h'. auto using apply_acyclic.
Qed.

(** What the accessors then say: the traversals end, [iterChildren] lists the children,
    [countChildren] counts them, [parentNode] is the node whose list contains the node, and the
    position of a child is the number of siblings before (after) it that pass the filter. *)
Theorem C21_accessors h k : represents h k ->
  (forall p fuel, length (k p) <= fuel -> iter_children h fuel p = Ok (k p)) /\
  (forall p fuel, length (k p) <= fuel -> count_children h fuel p = Ok (length (k p))) /\
  (forall p c, parent h c = Some p <-> In c (k p)) /\
  (forall p, NoDup (k p)) /\
  (forall p, first h p = None <-> k p = []) /\
  (forall p l1 c l2 f fuel, k p = l1 ++ c :: l2 -> length (k p) <= fuel ->
     index h fuel c f = Ok (length (filter f l1)) /\
     reverse_index h fuel c f = Ok (length (filter f l2))) /\
  (forall p l1 a b l2, k p = l1 ++ a :: b :: l2 -> next h a = Some b /\ prev h b = Some a) /\
  (forall p a l, k p = a :: l -> prev h a = None) /\
  (forall p a l, k p = l ++ [a] -> next h a = None).
Proof.
  intros Hr. repeat split.
  - intros. now apply iter_children_spec.
  - intros. unfold count_children. now rewrite (iter_children_spec h k p fuel).
  - now apply (rep_parent h k).
  - now apply (rep_parent h k).
  - intros p. eapply rep_nodup, Hr.
  - intros H. rewrite (rep_first h k p Hr) in H. now destruct (k p).
  - intros H. rewrite (rep_first h k p Hr), H. reflexivity.
  - rewrite H in H0. rewrite app_length in H0. eapply index_spec; eauto. lia.
  - rewrite H in H0. rewrite app_length in H0. simpl in H0. eapply reverse_index_spec; eauto. lia.
  - now rewrite (rep_next _ _ _ _ _ _ Hr H).
  - change (a :: b :: l2) with ([a] ++ b :: l2) in H. rewrite app_assoc in H.
    rewrite (rep_prev _ _ _ _ _ _ Hr H). apply last_error_snoc.
  - intros p a l E. now rewrite (rep_prev h k p [] a l Hr E).
  - intros p a l E. now rewrite (rep_next h k p l a [] Hr E).
Qed.

(** The depth-first traversal of a document built by such a history ends, and lists the node and
    its descendants, in document order, each exactly once. *)
Theorem C21_depth_first os h : allowed_all forest_empty os -> exec_all heap_empty os = Ok h ->
  let k := apply_all forest_empty os in
  exists b, forall n, exists l, iter_depth_first h b (S b) n = Ok l /\ preorder k n l /\
    NoDup l /\ (forall x, In x l <-> x = n \/ ancestor k n x).
Proof.
  intros Ha E k. destruct (C21_history os Ha) as (h' & E' & Hr & Hac).
  rewrite E in E'. injection E' as <-. fold k in Hr, Hac.
  destruct (apply_all_bounded os forest_empty 0) as (b & Hb); [intros p c []|]. fold k in Hb.
  exists b. intros n.
  destruct (depth_first_spec h k b Hr Hac Hb (S b) [] n) as (l & El & Hl).
  - intros a [].
  - constructor.
  - intros a [].
  - simpl. lia.
  - exists l. split; [exact El|]. split; [exact Hl|]. split.
    + eapply (preorder_NoDup k n l); eauto.
      * intros p q c. eapply rep_disjoint, Hr.
      * intros p. eapply rep_nodup, Hr.
    + intros x. rewrite (preorder_In k n l Hl). unfold rtc. split; intros [H|H]; auto.
Qed.

(** [removeChild] with a node that is not a child stops the program. *)
Theorem C21_remove_child_panics h k p n : represents h k ->
  (remove_child h p n = Panic <-> ~ In n (k p)).
Proof.
  intros Hr. rewrite (rep_parent h k p n Hr). unfold remove_child. fold (is (parent h n) p).
  destruct (is (parent h n) p) eqn:E; simpl.
  - apply is_spec in E. split; [discriminate|contradiction].
  - apply is_false in E. tauto.
Qed.

Lemma walk_self step n : step n = Some n -> forall fuel, walk step fuel (Some n) = OutOfFuel.
Proof. intros E. induction fuel as [|fuel IH]; [reflexivity|]. simpl. now rewrite E, IH. Qed.
Lemma walk_self_end step p n fuel : p = Some n -> step n = Some n -> walk step fuel p = OutOfFuel.
Proof. intros -> E. now apply walk_self. Qed.

(** Inserting a node before itself is allowed by the DOM standard, and leaves the tree as it is;
    here the parent loses the child (and everything else if it was the only child), while the
    child still names the parent, and is its own sibling: asking for its index does not end. *)
Theorem C21_before_itself_refuted :
  exists os h, exec_all heap_empty os = Ok h /\
    parent h 1 = Some 0 /\ (forall fuel, iter_children h fuel 0 = Ok []) /\
    next h 1 = Some 1 /\ prev h 1 = Some 1 /\
    forall fuel, index h fuel 1 (fun _ => true) = OutOfFuel.
Proof.
  exists [Append 0 1; Before 0 1 (Some 1)]. eexists. split; [reflexivity|].
  split; [reflexivity|]. split; [intros [|fuel]; reflexivity|]. split; [reflexivity|]. split; [reflexivity|].
  intros fuel. unfold index.
  rewrite (walk_self_end _ _ 1); [reflexivity|reflexivity|reflexivity].
Qed.

(** Nothing stops a node from being appended to itself or to one of its descendants: the
    traversal of the document then never ends. *)
Theorem C21_cycle_refuted :
  exists os h, exec_all heap_empty os = Ok h /\
    parent h 0 = Some 1 /\ parent h 1 = Some 0 /\
    forall width depth, iter_depth_first h (S width) depth 0 = OutOfFuel.
Proof.
  exists [Append 0 1; Append 1 0]. eexists. split; [reflexivity|]. split; [reflexivity|]. split; [reflexivity|].
  intros width depth. set (h := append_child _ _ _).
  assert (Hk : forall n, n = 0 \/ n = 1 -> iter_children h (S width) n = Ok [1 - n]).
  { intros n [->| ->]; destruct width; reflexivity. }
  assert (Hall : forall d n, n = 0 \/ n = 1 -> iter_depth_first h (S width) d n = OutOfFuel).
  { induction d as [|d IH]; intros n Hn; [reflexivity|]. simpl iter_depth_first. rewrite (Hk n Hn). simpl.
    rewrite IH by (destruct Hn as [->| ->]; auto). reflexivity. }
  apply Hall. now left.
Qed.

(** ** A document *)

Lemma not_ancestor k n l p : preorder k n l -> ~ In p l -> ~ ancestor k n p.
Proof. intros H Hn Ha. apply Hn. apply (preorder_In k n l H). now right. Qed.

Definition sample : list op :=
  [Append 0 1; Append 0 2; Prepend 0 3; Before 1 4 None; After 1 5 (Some 4); Before 1 6 (Some 5);
   Append 2 1; Remove 6; RemoveChild 0 3; After 1 3 (Some 4)].

Example sample_allowed : allowed_all forest_empty sample.
Proof.
  assert (Hleaf : forall k n p, k n = [] -> n <> p -> n <> p /\ ~ ancestor k n p).
  { intros k n p E Hne. split; [exact Hne|]. apply (not_ancestor k n [n]).
    - change [n] with (n :: concat []). constructor. rewrite E. constructor.
    - simpl. intuition congruence. }
  repeat split; try (apply Hleaf; [reflexivity|discriminate]); try discriminate; try (vm_compute; tauto).
  apply (not_ancestor _ 1 [1; 4; 6; 5]); [|simpl; intuition discriminate].
  change [1; 4; 6; 5] with (1 :: concat [[4]; [6]; [5]]). constructor.
  match goal with |- Forall2 _ ?l _ => change l with [4; 6; 5] end.
  repeat constructor; match goal with |- preorder _ ?n _ => change [n] with (n :: @concat id []) end; constructor; constructor.
Qed.

Example sample_result :
  match exec_all heap_empty sample with
  | Ok h =>
      (iter_children h 9 0, iter_children h 9 2, iter_children h 9 1,
       iter_depth_first h 9 9 0, index h 9 5 (fun _ => true))
      = (Ok [2], Ok [1], Ok [4; 3; 5], Ok [0; 2; 1; 4; 3; 5], Ok 2)
  | _ => False
  end.
Proof. vm_compute. reflexivity. Qed.

Print Assumptions C21_history.
Print Assumptions C21_step.
Print Assumptions C21_accessors.
Print Assumptions C21_depth_first.
Print Assumptions C21_remove_child_panics.
Print Assumptions C21_before_itself_refuted.
Print Assumptions C21_cycle_refuted.
