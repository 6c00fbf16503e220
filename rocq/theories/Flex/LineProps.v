(** C33: lines of flex items. *)
From Coq Require Import List Arith ZArith QArith Bool Lia Lqa.
From Verif.Base Require Import Outcome.
From Verif.Flex Require Import FlexModel.
Import ListNotations.
Local Open Scope Q_scope.

Lemma ltq_spec a b : reflect (a < b) (ltq a b).
Proof.
  unfold ltq. destruct (Qle_bool b a) eqn:E; cbn; constructor.
  - apply Qle_bool_iff in E. lra.
  - assert (~ b <= a) by (intros C; apply Qle_bool_iff in C; congruence). lra.
Qed.
Lemma leq_spec a b : reflect (a <= b) (Qle_bool a b).
Proof. destruct (Qle_bool a b) eqn:E; constructor; [now apply Qle_bool_iff|intros C; apply Qle_bool_iff in C; congruence]. Qed.
Lemma eqq_spec a b : reflect (a == b) (Qeq_bool a b).
Proof. destruct (Qeq_bool a b) eqn:E; constructor; [now apply Qeq_bool_iff|intros C; apply Qeq_bool_iff in C; congruence]. Qed.
Lemma sumq_cons x l : sumq (x :: l) = x + sumq l.
Proof. reflexivity. Qed.
Lemma sumq_app a b : sumq (a ++ b) == sumq a + sumq b.
Proof. induction a as [|x a IH]; [change (sumq []) with 0; cbn [app]; ring|]. cbn [app]. rewrite !sumq_cons, IH. ring. Qed.

(** The outer size of an item before it is stretched or shrunk. *)
Definition wants (i : item) : Q := hypo i + both i.
Definition line_size (l : list item) : Q := sumq (map wants l).

Lemma take_line_parts main : forall l cur a b, take_line main cur l = (a, b) -> a ++ b = l.
Proof.
  induction l as [|i r IH]; intros cur a b E; cbn [take_line] in E; [now injection E as <- <-|].
  destruct (_ || _); [|now injection E as <- <-]. destruct (take_line main (cur + (hypo i + both i)) r) as [a' b'] eqn:Et. injection E as <- <-. cbn. f_equal. exact (IH _ _ _ Et).
Qed.
Lemma take_line_first main i r : exists a b, take_line main 0 (i :: r) = (i :: a, b).
Proof. cbn [take_line]. rewrite orb_true_r. destruct (take_line main (0 + (hypo i + both i)) r) as [a b]. eauto. Qed.
(** What is left does not fit. *)
Lemma take_line_rest main : forall l cur a i b, take_line main cur l = (a, i :: b) -> main + (1 # 100) < cur + line_size a + wants i.
Proof.
  induction l as [|x r IH]; intros cur a i b E; cbn [take_line] in E; [discriminate|].
  destruct (leq_spec (cur + (hypo x + both x)) (main + (1 # 100))) as [H|H]; cbn [orb] in E.
  - destruct (take_line main (cur + (hypo x + both x)) r) as [a' b'] eqn:Et. injection E as <- ->. specialize (IH _ _ _ _ Et). unfold line_size in *. cbn [map]. rewrite sumq_cons. unfold wants at 1. lra.
  - destruct (eqq_spec cur 0) as [H0|H0].
    + destruct (take_line main (cur + (hypo x + both x)) r) as [a' b'] eqn:Et. injection E as <- ->. specialize (IH _ _ _ _ Et). unfold line_size in *. cbn [map]. rewrite sumq_cons. unfold wants at 1. lra.
    + injection E as <- <- <-. unfold line_size, wants. cbn. lra.
Qed.
Lemma line_size_nonneg l : Forall (fun i => 0 < wants i) l -> 0 <= line_size l.
Proof. induction 1; [apply Qle_refl|]. unfold line_size in *. cbn [map]. rewrite sumq_cons. lra. Qed.
(** What is taken fits, unless it is the first. *)
Lemma take_line_fits main : forall l cur a b, Forall (fun i => 0 < wants i) l -> 0 < cur -> take_line main cur l = (a, b) -> a = [] \/ cur + line_size a <= main + (1 # 100).
Proof.
  induction l as [|x r IH]; intros cur a b P Hc E; cbn [take_line] in E; [injection E as <- <-; now left|].
  inversion_clear P as [|x' r' P1 P2]. assert (Qeq_bool cur 0 = false) as E0 by (destruct (eqq_spec cur 0); [lra|reflexivity]). rewrite E0, orb_false_r in E.
  destruct (leq_spec (cur + (hypo x + both x)) (main + (1 # 100))) as [H|H]; [|injection E as <- <-; now left].
  destruct (take_line main (cur + (hypo x + both x)) r) as [a' b'] eqn:Et. injection E as <- <-. right. unfold wants in P1.
  destruct (IH (cur + (hypo x + both x)) a' b' P2 ltac:(lra) Et) as [->|K]; unfold line_size; cbn [map]; rewrite sumq_cons; [change (sumq []) with 0|fold (line_size a')]; unfold wants at 1; lra.
Qed.

(** No item of a line fits in the line before. *)
Fixpoint greedy (main : Q) (ls : list (list item)) : Prop :=
  match ls with
  | a :: r => match r with (i :: _) :: _ => main + (1 # 100) < line_size a + wants i | _ => True end /\ greedy main r
  | [] => True
  end.
Lemma collect_wrap_spec main : forall n l, (length l < n)%nat ->
  exists ls, collect_wrap n main l = Ok ls /\ concat ls = l /\ Forall (fun a => a <> []) ls /\ greedy main ls /\
    (Forall (fun i => 0 < wants i) l -> Forall (fun a => length a = 1%nat \/ line_size a <= main + (1 # 100)) ls).
Proof.
  induction n as [|n IH]; intros l Hl; [lia|]. destruct l as [|i r].
  { exists []. cbn. auto. }
  destruct (take_line_first main i r) as (a & b & E). pose proof (take_line_parts _ _ _ _ _ E) as P. cbn [collect_wrap]. rewrite E.
  assert (length b < n)%nat as Hb. { pose proof (f_equal (@length item) P) as K. cbn in K. rewrite app_length in K. cbn in Hl. lia. }
  destruct (IH b Hb) as (ls & Els & C & Ne & G & F). exists ((i :: a) :: ls). rewrite Els. split; [reflexivity|]. split; [cbn [concat]; rewrite C; exact P|]. split; [constructor; [discriminate|exact Ne]|]. split.
  - cbn [greedy]. split; [|exact G]. destruct ls as [|[|j c] ls]; [exact I|exact I|]. cbn in C. assert (b = j :: (c ++ concat ls)) as -> by now rewrite <- C. apply take_line_rest in E. lra.
  - intros Pos. rewrite <- P in Pos. apply Forall_app in Pos as [P1 P2]. constructor; [|exact (F P2)].
    inversion_clear P1 as [|x' r' Pi Pa]. assert (Forall (fun i => 0 < wants i) r) as Pr. { cbn in P. injection P as <-. apply Forall_app. now split. }
    cbn [take_line] in E. rewrite orb_true_r in E. destruct (take_line main (0 + (hypo i + both i)) r) as [a' b'] eqn:Et. injection E as -> ->.
    unfold wants in Pi. destruct (take_line_fits main r (0 + (hypo i + both i)) a b Pr ltac:(lra) Et) as [->|K]; [now left|right]. unfold line_size. cbn [map]. rewrite sumq_cons. fold (line_size a). unfold wants at 1. lra.
Qed.

(** Lines have all items in order; no line is empty; an item starts a new line only when it does not
    fit in the line before (a hundredth of a pixel is allowed). In a row that is reversed each line is
    reversed; a container that does not wrap has one line. *)
Theorem C33_lines : forall w d main l, exists ls,
  collect w d main l = Ok (match d with ROW_REVERSE => map (@rev item) ls | _ => ls end) /\ concat ls = l /\
  (w = NOWRAP -> ls = [l]) /\ (w <> NOWRAP -> Forall (fun a => a <> []) ls /\ greedy main ls).
Proof.
  intros w d main l. destruct (collect_wrap_spec main (S (length l)) l ltac:(lia)) as (ls & E & C & Ne & G & _).
  destruct w; [exists [l]; split; [now destruct d|]; split; [apply app_nil_r|split; congruence]|exists ls..]; (split; [unfold collect; rewrite E; now destruct d|]; split; [exact C|]; split; [congruence|auto]).
Qed.
Print Assumptions C33_lines.

(** Items of a line fit together when it has more than one.

    Full statement: for all items. Missing: items whose outer size is not positive. *)
Theorem C33_lines_fit_partial : forall main l, Forall (fun i => 0 < wants i) l -> exists ls,
  collect WRAP ROW main l = Ok ls /\ concat ls = l /\ Forall (fun a => length a = 1%nat \/ line_size a <= main + (1 # 100)) ls.
Proof.
  intros main l P. destruct (collect_wrap_spec main (S (length l)) l ltac:(lia)) as (ls & E & C & _ & _ & F). exists ls. unfold collect. rewrite E. auto.
Qed.
Print Assumptions C33_lines_fit_partial.

Definition it (id : nat) (base : Q) : item := mkItem id base 0 1000 0 1 (LENGTH 0) (LENGTH 0).
Example C33_sample : omap (map (map i_id)) (collect WRAP ROW 100 [it 1 60; it 2 40; it 3 30; it 4 80; it 5 200; it 6 10]) = Ok [[1; 2]; [3]; [4]; [5]; [6]]%nat /\
  Forall (fun i => 0 < wants i) [it 1 60; it 2 40; it 3 30; it 4 80; it 5 200; it 6 10] /\
  omap (map (map i_id)) (collect WRAP ROW_REVERSE 100 [it 1 60; it 2 40; it 3 30]) = Ok [[2; 1]; [3]]%nat.
Proof. split; [vm_compute; reflexivity|]. split; [repeat constructor; vm_compute; reflexivity|vm_compute; reflexivity]. Qed.

(** An empty item does not end the right of the next one to be too large: it stays in the line, and so
    do all after it as long as the line is empty. *)
Definition C33_lines_fit_full : Prop := forall main l ls, collect WRAP ROW main l = Ok ls -> Forall (fun a => length a = 1%nat \/ line_size a <= main + (1 # 100)) ls.
Theorem C33_lines_fit_refuted : omap (map (map i_id)) (collect WRAP ROW 100 [it 1 0; it 2 200]) = Ok [[1; 2]]%nat /\ ~ C33_lines_fit_full.
Proof.
  split; [vm_compute; reflexivity|]. intros F. specialize (F 100 [it 1 0; it 2 200] [[it 1 0; it 2 200]] eq_refl). inversion_clear F as [|a r [H|H] _]; [discriminate|]. vm_compute in H. now apply H.
Qed.
Print Assumptions C33_lines_fit_refuted.
(** [column-reverse] does not reverse anything. *)
Theorem C33_column_reverse_refuted : forall w main l, collect w COLUMN_REVERSE main l = collect w COLUMN main l.
Proof. reflexivity. Qed.
Print Assumptions C33_column_reverse_refuted.
