(** A window shows what it was last told to show: the theorems. *)
From Coq Require Import List ZArith QArith Bool Lia.
From Verif.Batch Require Import WindowModel.
Import ListNotations.
Local Open Scope Z_scope.

Section Window.
Context {D M R S P : Type} (render : D -> media (M := M) -> Z * Z -> R) (print : D -> S -> P).
Local Notation event := (event (D := D) (M := M) (S := S)).
Local Notation run := (run render print).

(** The document that was loaded last, of those that could be loaded *)
Fixpoint document (old : option D) (l : list event) : option D :=
  match l with [] => old | Loaded d :: l => document (Some d) l | _ :: l => document old l end.
(** The size that was asked for last, by a media or on its own *)
Fixpoint size (old : Z * Z) (l : list event) : Z * Z :=
  match l with
  | [] => old
  | ChangeMedia m :: l => size (fst (fst (fst m)), snd (fst (fst m))) l
  | ChangeViewport v :: l => size v l
  | _ :: l => size old l
  end.
(** The media that was asked for last, apart from the sizes *)
Fixpoint features (old : M) (l : list event) : M :=
  match l with [] => old | ChangeMedia m :: l => features (snd m) l | _ :: l => features old l end.

(** What the window has kept is what would be made now. *)
Definition coherent (w : window (D := D) (M := M) (R := R)) : Prop :=
  forall r, w_render w = Some r -> exists d, w_document w = Some d /\ r = render d (w_media w) (viewport_size (w_media w)).
Lemma step_coherent w e w' s : coherent w -> step render print w e = Some (w', s) -> coherent w'.
Proof.
  intros C H. destruct e as [m|v|d| | |x]; cbn [step] in H.
  - injection H as <- _. intros r E. discriminate E.
  - destruct (media_viewport (w_media w) v) as [[m b]|] eqn:Em; [|discriminate H]. injection H as <- _.
    destruct b; [intros r E; discriminate E|]. unfold media_viewport in Em. destruct (w_media w) as [[[ww hh] q] rest] eqn:Ew.
    destruct ((ww =? fst v) && (hh =? snd v)); [|destruct (snd v =? 0); discriminate Em]. injection Em as <-.
    intros r E. cbn [w_render w_document w_media] in *. rewrite <- Ew in *. exact (C r E).
  - injection H as <- _. intros r E. discriminate E.
  - injection H as <- _. exact C.
  - destruct (w_render w) as [r0|] eqn:Er; [injection H as <- _; exact C|]. destruct (w_document w) as [d|]; [|discriminate H].
    injection H as <- _. intros r E. cbn [w_render w_document w_media] in *. injection E as <-. exists d. split; reflexivity.
  - destruct (w_document w); [|discriminate H]. injection H as <- _. exact C.
Qed.
Lemma run_coherent : forall l w w' ss, coherent w -> run w l = Some (w', ss) -> coherent w'.
Proof.
  induction l as [|e l IH]; intros w w' ss C H; cbn [WindowModel.run] in H; [now injection H as <- _|].
  destruct (step render print w e) as [[w1 s]|] eqn:E; [|discriminate H]. destruct (run w1 l) as [[w2 ss']|] eqn:E2; [|discriminate H].
  injection H as <- _. exact (IH w1 w2 ss' (step_coherent w e w1 s C E) E2).
Qed.
Lemma run_app : forall l l' w, run w (l ++ l') =
  match run w l with None => None | Some (w1, s) => match run w1 l' with None => None | Some (w2, s') => Some (w2, s ++ s') end end.
Proof.
  induction l as [|e l IH]; intros l' w; cbn [app WindowModel.run]; [destruct (run w l') as [[? ?]|]; reflexivity|].
  destruct (step render print w e) as [[w1 s]|]; [|reflexivity]. rewrite IH. destruct (run w1 l) as [[w2 ss]|]; [|reflexivity].
  destruct (run w2 l') as [[w3 s3]|]; reflexivity.
Qed.
Lemma run_state : forall l w w' ss, run w l = Some (w', ss) ->
  w_document w' = document (w_document w) l /\ viewport_size (w_media w') = size (viewport_size (w_media w)) l /\ snd (w_media w') = features (snd (w_media w)) l.
Proof.
  induction l as [|e l IH]; intros w w' ss H; cbn [WindowModel.run] in H; [injection H as <- _; repeat split|].
  destruct (step render print w e) as [[w1 s]|] eqn:E; [|discriminate H]. destruct (run w1 l) as [[w2 ss']|] eqn:E2; [|discriminate H].
  injection H as <- _. destruct (IH w1 w2 ss' E2) as (H1 & H2 & H3). rewrite H1, H2, H3. clear - E.
  destruct e as [m|v|d| | |x]; cbn [step document size features] in *.
  - injection E as <- _. destruct m as [[[a b] q] r]. repeat split.
  - destruct (media_viewport (w_media w) v) as [[m b]|] eqn:Em; [|discriminate E]. injection E as <- _.
    unfold media_viewport in Em. destruct (w_media w) as [[[ww hh] q] rest]. destruct v as [vw vh]. cbn [fst snd] in *.
    destruct ((ww =? vw) && (hh =? vh)) eqn:Eq.
    + injection Em as <- <-. apply andb_true_iff in Eq. destruct Eq as [E1 E2]. apply Z.eqb_eq in E1, E2. subst. repeat split.
    + destruct (vh =? 0); [discriminate Em|]. injection Em as <- <-. repeat split.
  - injection E as <- _. repeat split.
  - injection E as <- _. repeat split.
  - destruct (w_render w); [injection E as <- _; repeat split|]. destruct (w_document w) eqn:Ed; [|discriminate E]. injection E as <- _. repeat split.
  - destruct (w_document w) eqn:Ed; [|discriminate E]. injection E as <- _. rewrite Ed. repeat split.
Qed.

(** ** C180 *)

(** After any history, what is drawn is the document loaded last, in the size and with the media asked for
    last. *)
Theorem C180_current : forall m l w ss, run (start m) (l ++ [Render]) = Some (w, ss) ->
  exists d q, document None l = Some d /\ last ss Nothing =
    Scene (render d (size (viewport_size m) l, q, features (snd m) l) (size (viewport_size m) l)).
Proof.
  intros m l w ss H. rewrite run_app in H. destruct (run (start m) l) as [[w1 s1]|] eqn:E; [|discriminate H].
  assert (C : coherent w1) by (apply (run_coherent l (start m) w1 s1); [intros r K; discriminate K|exact E]).
  destruct (run_state l _ _ _ E) as (S1 & S2 & S3). cbn [start w_document w_media] in S1, S2, S3.
  cbn [WindowModel.run step] in H.
  assert (M1 : exists q, w_media w1 = (size (viewport_size m) l, q, features (snd m) l)).
  { destruct (w_media w1) as [[[a b] q] r]. cbn [viewport_size snd] in S2, S3. exists q. now rewrite <- S2, <- S3. }
  destruct M1 as (q & M1). destruct (w_render w1) as [r|] eqn:Er.
  - injection H as _ <-. destruct (C r Er) as (d & Ed & ->). exists d, q. split; [now rewrite <- S1|]. rewrite last_last, S2, M1. reflexivity.
  - destruct (w_document w1) as [d|] eqn:Ed; [|discriminate H]. injection H as _ <-. exists d, q. split; [now rewrite <- S1|]. rewrite last_last, S2, M1. reflexivity.
Qed.
(** Printing is of the document loaded last too. *)
Theorem C180_print : forall m l x w ss, run (start m) (l ++ [Print x]) = Some (w, ss) ->
  exists d, document None l = Some d /\ last ss Nothing = Pages (print d x).
Proof.
  intros m l x w ss H. rewrite run_app in H. destruct (run (start m) l) as [[w1 s1]|] eqn:E; [|discriminate H].
  destruct (run_state l _ _ _ E) as (S1 & _). cbn [start w_document] in S1. cbn [WindowModel.run step] in H.
  destruct (w_document w1) as [d|] eqn:Ed; [|discriminate H]. injection H as _ <-. exists d. split; [now rewrite <- S1|]. now rewrite last_last.
Qed.
(** It does not crash when there is a document before anything is drawn, and no viewport has the height 0. *)
Definition harmless (e : event) : Prop := match e with ChangeViewport v => snd v <> 0 | _ => True end.
Theorem C180_no_crash_partial : forall m l, Forall harmless l ->
  (forall a e b, l = a ++ e :: b -> e = Render \/ (exists x, e = Print x) -> document None a <> None) -> run (start m) l <> None.
Proof.
  intros m l. induction l as [|e l IH] using rev_ind; [discriminate|]. intros F H. apply Forall_app in F. destruct F as [F Fe].
  assert (I : run (start m) l <> None) by (apply IH; [exact F|]; intros a e' b -> He; apply (H a e' (b ++ [e])); [now rewrite <- app_assoc|exact He]).
  rewrite run_app. destruct (run (start m) l) as [[w1 s1]|] eqn:E; [|congruence]. destruct (run_state l _ _ _ E) as (S1 & _). cbn [start w_document] in S1.
  cbn [WindowModel.run]. specialize (H l e [] eq_refl). inversion Fe as [|? ? He _]; subst.
  destruct e as [m'|v|d| | |x]; cbn [step]; try discriminate.
  - unfold media_viewport. destruct (w_media w1) as [[[ww hh] q] rest]. destruct ((ww =? fst v) && (hh =? snd v)); [discriminate|].
    cbn [harmless] in He. destruct (Z.eqb_spec (snd v) 0); [contradiction|discriminate].
  - destruct (w_render w1); [discriminate|]. rewrite S1. destruct (document None l); [discriminate|]. exfalso. apply H; [now left|reflexivity].
  - rewrite S1. destruct (document None l); [discriminate|]. exfalso. apply H; [right; eauto|reflexivity].
Qed.
(** Otherwise it does: with a viewport of the height 0, unless it has that size already. *)
Theorem C180_height_refuted : forall m l w, snd (size (viewport_size m) l) <> 0 -> run (start m) (l ++ [ChangeViewport (w, 0)]) = None.
Proof.
  intros m l w N. rewrite run_app. destruct (run (start m) l) as [[w1 s1]|] eqn:E; [|reflexivity]. destruct (run_state l _ _ _ E) as (_ & S2 & _).
  cbn [start w_media] in S2. cbn [WindowModel.run step]. unfold media_viewport. destruct (w_media w1) as [[[ww hh] q] rest]. cbn [viewport_size fst snd] in *.
  rewrite <- S2 in N. cbn [snd] in N. destruct (Z.eqb_spec hh 0); [contradiction|]. now rewrite andb_false_r.
Qed.
Theorem C180_no_document_refuted : forall m l e, document None l = None -> e = Render \/ (exists x, e = Print x) -> run (start m) (l ++ [e]) = None.
Proof.
  intros m l e N He. rewrite run_app. destruct (run (start m) l) as [[w1 s1]|] eqn:E; [|reflexivity]. destruct (run_state l _ _ _ E) as (S1 & _).
  cbn [start w_document] in S1. rewrite N in S1. cbn [WindowModel.run]. destruct He as [-> |[x ->]]; cbn [step]; rewrite ?S1; [|reflexivity].
  destruct (w_render w1) as [r|] eqn:Er; [|reflexivity].
  assert (C : coherent w1) by (apply (run_coherent l (start m) w1 s1); [intros r' K; discriminate K|exact E]).
  destruct (C r Er) as (d & Ed & _). congruence.
Qed.
End Window.
Print Assumptions C180_current.
Print Assumptions C180_print.
Print Assumptions C180_no_crash_partial.
Print Assumptions C180_height_refuted.
Print Assumptions C180_no_document_refuted.

(** ** Examples *)
Definition ex_history : list (event (D := nat) (M := bool) (S := unit)) :=
  [Loaded 1%nat; Render; ChangeViewport (300, 200); Render; LoadFailed; Loaded 2%nat; ChangeMedia (300, 200, 1%Q, false); ChangeViewport (300, 200)].
Example C180_ex : match run (fun d m v => (d, v, snd m)) (fun d (_ : unit) => d) (start (800, 600, 1%Q, true)) (ex_history ++ [Render]) with
  | Some (_, ss) => nth 1 ss Nothing = Scene (1%nat, (800, 600), true) /\ nth 3 ss Nothing = Scene (1%nat, (300, 200), true) /\ last ss Nothing = Scene (2%nat, (300, 200), false)
  | None => False end.
Proof. vm_compute. repeat split. Qed.
Example C180_ex_harmless : Forall harmless ex_history.
Proof. repeat constructor; discriminate. Qed.
