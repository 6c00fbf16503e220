(** The tokenizer depends on the tree builder only through its answers on the tokens it emitted:
    two tree builders that answer the same on those give the same tokens. *)
From Coq Require Import String List Arith Bool NArith Lia.
From Verif.Base Require Import Str.
From Verif.Html Require Import Entities LexerModel.
Import ListNotations.
Local Open Scope list_scope.
Local Open Scope N_scope.
Local Opaque entities has_partial is_entity expansion.

Section Two.
Variables s1 s2 : list token -> option text_mode.

Definition agree (o : list token) : Prop :=
  forall p t r, o = p ++ t :: r -> t_type t = T_START_TAG -> s1 (t :: r) = s2 (t :: r).
Lemma agree_suffix p o : agree (p ++ o) -> agree o.
Proof. intros H q t r ->. apply (H (p ++ q)). now rewrite app_assoc. Qed.

Definition sim (l : lexer) (r1 r2 : res lexer) : Prop :=
  forall l', r1 = Ok l' -> (exists p, l_out l' = p ++ l_out l) /\ (agree (l_out l') -> r2 = Ok l').
Lemma sim_crash l w r : sim l (Crash w) r.
Proof. intros l' H. discriminate H. Qed.
Lemma sim_bind l r1 r2 f1 f2 : sim l r1 r2 -> (forall l1, sim l1 (f1 l1) (f2 l1)) -> sim l (bind r1 f1) (bind r2 f2).
Proof.
  intros Hr Hf l' E. destruct r1 as [l1|w]; [|discriminate]. cbn [bind] in E. destruct (Hr l1 eq_refl) as [(p & Hp) Ha]. destruct (Hf l1 l' E) as [(q & Hq) Hb].
  split; [exists (q ++ p); now rewrite Hq, Hp, app_assoc|]. intros H. rewrite Ha; [exact (Hb H)|]. rewrite Hq in H. now apply agree_suffix in H.
Qed.
Lemma sim_seq l a1 a2 b1 b2 : sim l (a1 l) (a2 l) -> (forall l1, sim l1 (b1 l1) (b2 l1)) -> sim l (seq a1 b1 l) (seq a2 b2 l).
Proof. apply sim_bind. Qed.
Lemma sim_quiet l r : (forall l', r = Ok l' -> l_out l' = l_out l) -> sim l r r.
Proof. intros H l' E. split; [exists []; now apply H|]. intros _. exact E. Qed.

Ltac quiet := apply sim_quiet; intros l' E; injection E as <-; reflexivity.
Lemma sim_ok l : sim l (Ok l) (Ok l). Proof. quiet. Qed.
Lemma sim_switch s l : sim l (switch s l) (switch s l). Proof. quiet. Qed.
Lemma sim_set_ret s l : sim l (set_ret s l) (set_ret s l). Proof. quiet. Qed.
Lemma sim_set_token s l : sim l (set_token s l) (set_token s l). Proof. quiet. Qed.
Lemma sim_set_char s l : sim l (set_char s l) (set_char s l). Proof. quiet. Qed.
Lemma sim_set_builder s l : sim l (set_builder s l) (set_builder s l). Proof. quiet. Qed.
Lemma sim_set_temp s l : sim l (set_temp s l) (set_temp s l). Proof. quiet. Qed.
Lemma sim_set_peek s l : sim l (set_peek s l) (set_peek s l). Proof. quiet. Qed.
Lemma sim_set_matched s l : sim l (set_matched s l) (set_matched s l). Proof. quiet. Qed.
Lemma sim_set_attr s l : sim l (set_attr s l) (set_attr s l). Proof. quiet. Qed.
Lemma sim_set_again s l : sim l (set_again s l) (set_again s l). Proof. quiet. Qed.
Lemma sim_emit l : sim l (emit s1 l) (emit s2 l).
Proof.
  unfold emit. destruct (l_token l) as [t|]; [|apply sim_crash]. intros l' E. injection E as <-. cbn [l_out]. split; [exists [t]; reflexivity|].
  intros H. destruct (ttype_eqb (t_type t) T_START_TAG) eqn:Et; [|reflexivity].
  assert (t_type t = T_START_TAG) as Ht by (destruct (t_type t); discriminate || reflexivity).
  rewrite (H [] t (l_out l) eq_refl Ht). reflexivity.
Qed.

Ltac sim1 :=
  match goal with
  | |- sim _ (Ok _) _ => apply sim_ok
  | |- sim _ (Crash _) _ => apply sim_crash
  | |- sim _ (switch _ _) _ => apply sim_switch
  | |- sim _ (set_ret _ _) _ => apply sim_set_ret
  | |- sim _ (set_token _ _) _ => apply sim_set_token
  | |- sim _ (set_char _ _) _ => apply sim_set_char
  | |- sim _ (set_builder _ _) _ => apply sim_set_builder
  | |- sim _ (set_temp _ _) _ => apply sim_set_temp
  | |- sim _ (set_peek _ _) _ => apply sim_set_peek
  | |- sim _ (set_matched _ _) _ => apply sim_set_matched
  | |- sim _ (set_attr _ _) _ => apply sim_set_attr
  | |- sim _ (set_again _ _) _ => apply sim_set_again
  | |- sim _ (emit _ _) _ => apply sim_emit
  | |- sim _ (seq _ _ _) _ => apply sim_seq; [|intro]
  | |- sim _ (bind _ _) _ => apply sim_bind; [|intro]
  | |- sim _ (match ?x with _ => _ end) _ => destruct x
  | |- sim _ (match ?x with _ => _ end _) _ => destruct x
  end.
Ltac sims := intros; cbv beta zeta; repeat (sim1; cbv beta zeta).
Ltac by_unfold f := unfold f; sims.

Lemma sim_switch_ret l : sim l (switch_ret l) (switch_ret l). Proof. by_unfold switch_ret. Qed.
Lemma sim_reconsume s l : sim l (reconsume s l) (reconsume s l). Proof. by_unfold reconsume. Qed.
Lemma sim_reconsume_ret l : sim l (reconsume_ret l) (reconsume_ret l). Proof. unfold reconsume_ret. apply sim_reconsume. Qed.
Lemma sim_lose_attr l : sim l (lose_attr l) (lose_attr l). Proof. by_unfold lose_attr. Qed.
Lemma sim_begin t l : sim l (begin t l) (begin t l). Proof. unfold begin. apply sim_seq; [apply sim_lose_attr|sims]. Qed.
Lemma sim_with_token f l : sim l (with_token f l) (with_token f l). Proof. by_unfold with_token. Qed.
Lemma sim_ensure t l : sim l (ensure t l) (ensure t l). Proof. by_unfold ensure. Qed.
Lemma sim_emit_char c l : sim l (emit_char s1 c l) (emit_char s2 c l). Proof. unfold emit_char. apply sim_seq; [apply sim_begin|sims]. Qed.
Lemma sim_emit_all s l : sim l (emit_all s1 s l) (emit_all s2 s l).
Proof. revert l. induction s as [|c s IH]; intros l; cbn [emit_all]; [sims|]. apply sim_seq; [apply sim_emit_char|exact IH]. Qed.
Lemma sim_with_attr f l : sim l (with_attr f l) (with_attr f l). Proof. by_unfold with_attr. Qed.
Lemma sim_leave l : sim l (leave_attribute_name l) (leave_attribute_name l). Proof. by_unfold leave_attribute_name. Qed.
Lemma sim_if_script a b l : sim l (if_script a b l) (if_script a b l). Proof. by_unfold if_script. Qed.
Lemma sim_accumulate a b c l : sim l (accumulate a b c l) (accumulate a b c l). Proof. by_unfold accumulate. Qed.
Lemma sim_expand n l : sim l (t_expand n l) (t_expand n l). Proof. by_unfold t_expand. Qed.

Ltac sim2 :=
  match goal with
  | |- sim _ (switch_ret _) _ => apply sim_switch_ret
  | |- sim _ (reconsume _ _) _ => apply sim_reconsume
  | |- sim _ (reconsume_ret _) _ => apply sim_reconsume_ret
  | |- sim _ (lose_attr _) _ => apply sim_lose_attr
  | |- sim _ (begin _ _) _ => apply sim_begin
  | |- sim _ (with_token _ _) _ => apply sim_with_token
  | |- sim _ (ensure _ _) _ => apply sim_ensure
  | |- sim _ (emit_char _ _ _) _ => apply sim_emit_char
  | |- sim _ (emit_all _ _ _) _ => apply sim_emit_all
  | |- sim _ (with_attr _ _) _ => apply sim_with_attr
  | |- sim _ (leave_attribute_name _) _ => apply sim_leave
  | |- sim _ (if_script _ _ _) _ => apply sim_if_script
  | |- sim _ (accumulate _ _ _ _) _ => apply sim_accumulate
  | |- sim _ (t_expand _ _) _ => apply sim_expand
  | |- _ => sim1
  end.
Ltac unf := unfold b_append, b_append_all, b_clear, t_append, t_clear, p_append, p_clear, begin_attribute, emit_temp, flush, append_or_emit,
  commit_name, take_data, take_public, take_system, force_quirks, self_closing, commit_attr_name, commit_attr_value.

Lemma sim_step c eof l : sim l (step s1 c eof l) (step s2 c eof l).
Proof.
  unfold step. destruct (l_state l);
  match goal with |- sim _ ?x _ => let f := (match x with | ?f _ _ _ _ => f | ?f _ _ _ => f end) in unfold f end;
  unf; cbv beta zeta; repeat (sim2; cbv beta zeta).
  all: apply sim_set_builder.
Qed.
Lemma sim_consume f c eof l : sim l (consume s1 f c eof l) (consume s2 f c eof l).
Proof.
  revert l. induction f as [|f IH]; intros l; cbn [consume]; [apply sim_crash|]. apply sim_bind.
  - apply sim_seq; [apply sim_set_again|intros l1; apply sim_step].
  - intros l1. destruct (l_again l1); [apply IH|apply sim_ok].
Qed.
Lemma sim_feed s l : sim l (feed s1 s l) (feed s2 s l).
Proof. revert l. induction s as [|c s IH]; intros l; cbn [feed]; [apply sim_ok|]. apply sim_bind; [apply sim_consume|exact IH]. Qed.
Lemma sim_run s l : sim l (run s1 s l) (run s2 s l).
Proof. unfold run. apply sim_bind; [apply sim_feed|]. intros. apply sim_consume. Qed.
End Two.

Theorem tokenize_sink s1 s2 text ts : tokenize s1 text = Ok ts -> agree s1 s2 (rev ts) -> tokenize s2 text = Ok ts.
Proof.
  unfold tokenize. intros E H. destruct (run s1 (normalize text) init) as [l|w] eqn:Er; [|discriminate]. cbn [bind] in E. injection E as <-.
  rewrite rev_involutive in H. destruct (sim_run s1 s2 _ _ _ Er) as [_ Hs]. rewrite (Hs H). reflexivity.
Qed.
