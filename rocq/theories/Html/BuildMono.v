(** Tree construction with more fuel: what ends with some fuel ends in the same way with more. *)
From Coq Require Import String List Arith Bool NArith Lia.
From Verif.Base Require Import Str.
From Verif.Html Require Import LexerModel SerialModel BuildModel.
Import ListNotations.
Local Open Scope list_scope.

Definition le_act (a b : act) : Prop := forall s s', a s = Done s' -> b s = Done s'.
Lemma le_refl a : le_act a a.
Proof. intros s s' H. exact H. Qed.
Lemma le_seq a a' b b' : le_act a a' -> le_act b b' -> le_act (seq a b) (seq a' b').
Proof. intros Ha Hb s s'. unfold seq. destruct (a s) as [x|w] eqn:E; [|discriminate]. rewrite (Ha _ _ E). cbn [andthen]. apply Hb. Qed.
Lemma le_branch c a a' b b' : le_act a a' -> le_act b b' -> le_act (branch c a b) (branch c a' b').
Proof. intros Ha Hb s s'. unfold branch. destruct (c s) as [x|w]; [|discriminate]. cbn [andthen]. destruct x; auto. Qed.
Lemma le_whenever c a a' : le_act a a' -> le_act (whenever c a) (whenever c a').
Proof. intros Ha. apply le_branch; [exact Ha|apply le_refl]. Qed.

Section Mono.
Variables (acc1 acc2 : token -> act) (in1 in2 : mode -> token -> act).
Hypothesis HA : forall t, le_act (acc1 t) (acc2 t).
Hypothesis HI : forall m t, le_act (in1 m t) (in2 m t).

Ltac mono :=
  lazymatch goal with
  | |- le_act ?a ?a => apply le_refl
  | |- le_act (if ?b then _ else _) _ => destruct b; mono
  | |- le_act (seq _ _) _ => apply le_seq; mono
  | |- le_act (branch _ _ _) _ => apply le_branch; mono
  | |- le_act (whenever _ _) _ => apply le_whenever; mono
  | |- le_act (acc1 _) _ => apply HA
  | |- le_act (in1 _ _) _ => apply HI
  | |- le_act (fun s => _) _ => intros s s'; mono
  | |- andthen ?x _ = Done _ -> _ => destruct x; cbn [andthen]; [mono|discriminate]
  | |- (if ?b then _ else _) = Done _ -> _ => destruct b; mono
  | |- match ?x with _ => _ end = Done _ -> _ => destruct x; mono
  | |- seq ?a ?b ?s = Done ?s' -> seq ?a' ?b' ?s = Done ?s' => revert s'; revert s; change (le_act (seq a b) (seq a' b')); mono
  | |- whenever ?c ?a ?s = Done ?s' -> whenever ?c ?a' ?s = Done ?s' => revert s'; revert s; change (le_act (whenever c a) (whenever c a')); mono
  | |- ?x = Done _ -> ?x = Done _ => exact (fun H => H)
  | |- in1 ?m ?t ?s = Done ?s' -> _ => apply HI
  | |- acc1 ?t ?s = Done ?s' -> _ => apply HA
  | |- _ => idtac
  end.

Lemma mono_each f g l : (forall t, le_act (f t) (g t)) -> le_act (each f l) (each g l).
Proof. intros H. induction l as [|t l IH]; cbn [each]; [apply le_refl|apply le_seq; auto]. Qed.
Lemma mono_table_else t : le_act (table_else in1 t) (table_else in2 t).
Proof. unfold table_else. mono. Qed.
Lemma mono_foreign_end t n k : le_act (foreign_end in1 t n k) (foreign_end in2 t n k).
Proof. induction k as [|e k IH]; cbn [foreign_end]; mono. exact IH. Qed.
Lemma mono_rules m t : le_act (rules acc1 in1 m t) (rules acc2 in2 m t).
Proof.
  destruct m; cbn [rules].
  - unfold on_initial. mono.
  - unfold on_before_html. mono.
  - unfold on_before_head. mono.
  - unfold on_in_head. cbv zeta. mono.
  - unfold on_in_head_noscript. cbv zeta. mono.
  - unfold on_after_head. cbv zeta. mono.
  - unfold on_in_body. mono.
  - apply le_refl.
  - unfold on_in_table. cbv zeta. mono; apply mono_table_else.
  - unfold on_in_table_text. mono. apply mono_each, mono_table_else.
  - unfold on_in_caption, close_caption. mono.
  - unfold on_in_column_group. mono.
  - unfold on_in_table_body. cbv zeta. mono.
  - unfold on_in_row. cbv zeta. mono.
  - unfold on_in_cell. mono.
  - unfold on_in_template. mono.
  - unfold on_after_body. mono.
  - unfold on_in_frameset. mono.
  - unfold on_after_frameset. mono.
  - unfold on_after_after_body. mono.
  - unfold on_after_after_frameset. mono.
Qed.
Lemma mono_foreign t : le_act (on_foreign acc1 in1 t) (on_foreign acc2 in2 t).
Proof. unfold on_foreign. mono. apply mono_foreign_end. Qed.
End Mono.

Lemma dispatch_mono f : forall f', f <= f' -> forall m t, le_act (dispatch f m t) (dispatch f' m t).
Proof.
  induction f as [|f IH]; intros [|f'] Hf m t; try lia; [intros s s' H; discriminate|intros s s' H; discriminate|].
  assert (f <= f') as Hf' by lia. intros s s'. cbn [dispatch]. destruct m as [m|].
  - apply mono_rules; intros; apply IH; exact Hf'.
  - destruct (s_skip_lf s && _)%bool; [exact (fun H => H)|]. cbv zeta. destruct (in_html_content t _).
    + apply mono_rules; intros; apply IH; exact Hf'.
    + apply mono_foreign; intros; apply IH; exact Hf'.
Qed.
