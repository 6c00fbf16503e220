From Coq Require Import String List NArith Bool Lia Arith.
From Verif.Base Require Import Str.
From Verif.Css Require Import LexerModel ParserModel.
Import ListNotations.
Local Open Scope list_scope.

Lemma ttype_beq_eq a b : ttype_beq a b = true <-> a = b.
Proof. split; [apply internal_ttype_dec_bl|apply internal_ttype_dec_lb]. Qed.
Lemma ttype_beq_neq a b : ttype_beq a b = false <-> a <> b.
Proof.
  destruct (ttype_beq a b) eqn:E; split; intros H; try discriminate; try reflexivity.
  - apply ttype_beq_eq in E. contradiction.
  - intros ->. destruct b; discriminate.
Qed.

Ltac inv H := inversion H; subst; clear H.

(** * Enough fuel *)

Local Open Scope nat_scope.

Lemma cbf_total : forall n,
  (forall ts, 1 <= n -> 2 * length ts <= n ->
     exists v r, component n ts = Some (v, r) /\ length r <= length ts /\ (ts <> [] -> length r < length ts)) /\
  (forall term ts, 2 * length ts + 1 <= n -> exists l r, block n term ts = Some (l, r) /\ length r <= length ts) /\
  (forall ts, 2 * length ts + 1 <= n -> exists l r, func n ts = Some (l, r) /\ length r <= length ts).
Proof.
  induction n as [|n (IHc & IHb & IHf)].
  { split; [|split]; intros; simpl in *; lia. }
  split; [|split].
  - intros ts H1 H2. cbn [component]. destruct ts as [|t ts'].
    + exists (TOK eof_token), []. repeat split; [auto|congruence].
    + simpl in H2.
      assert (Hb : forall term, exists l r, block n term ts' = Some (l, r) /\ length r <= length ts')
        by (intros; apply IHb; lia).
      destruct (t_type t);
        try (exists (TOK t), ts'; simpl; repeat split; lia);
        try (match goal with |- context [block n ?term ts'] =>
               destruct (Hb term) as (l & r & -> & Hr); exists (BLOCK l), r; simpl; repeat split; lia end).
      destruct (IHf ts') as (l & r & -> & Hr); [lia|]. exists (FUNC t l), r. simpl. repeat split; lia.
  - intros term ts H. cbn [block]. destruct ts as [|t ts']; [exists [], []; auto|].
    destruct (ttype_beq (t_type t) term); [exists [], ts'; simpl; split; [reflexivity|lia]|].
    simpl in H. destruct (IHc (t :: ts')) as (v & r & -> & _ & Hr); [lia|simpl; lia|].
    specialize (Hr ltac:(discriminate)). simpl in Hr.
    destruct (IHb term r) as (l & r' & -> & Hr'); [lia|]. exists (v :: l), r'. simpl. split; [reflexivity|lia].
  - intros ts H. cbn [func]. destruct ts as [|t ts']; [exists [], []; auto|]. simpl in H.
    destruct (IHc (t :: ts')) as (v & r & Hv & _ & Hr); [lia|simpl; lia|].
    specialize (Hr ltac:(discriminate)). simpl in Hr.
    destruct (IHf r) as (l & r' & Hl & Hr'); [lia|].
    assert (Hdef : exists l0 r0, match component n (t :: ts') with
             | Some (v, r) => match func n r with Some (l, r') => Some (v :: l, r') | None => None end
             | None => None end = Some (l0, r0) /\ length r0 <= length (t :: ts')).
    { rewrite Hv, Hl. exists (v :: l), r'. simpl. split; [reflexivity|lia]. }
    destruct (t_type t); try exact Hdef.
    + exists [], ts'. simpl. split; [reflexivity|lia].
    + destruct (IHf ts') as (l2 & r2 & -> & Hr2); [lia|]. exists l2, r2. simpl. split; [reflexivity|lia].
Qed.

Lemma component_total n ts : 1 <= n -> 2 * length ts <= n ->
     exists v r, component n ts = Some (v, r) /\ length r <= length ts /\ (ts <> [] -> length r < length ts).
Proof. apply cbf_total. Qed.

Lemma prefix_total semi : forall n ts, 2 * length ts + 1 <= n ->
  exists l r, prefix_loop n semi ts = Some (l, r) /\ length r <= length ts.
Proof.
  induction n as [|n IH]; intros ts H; [lia|]. cbn [prefix_loop].
  destruct ts as [|t ts']; [exists [], []; auto|].
  destruct (_ || _); [exists [], (t :: ts'); auto|].
  simpl in H. destruct (component_total n (t :: ts')) as (v & r & -> & _ & Hr); [lia|simpl; lia|].
  specialize (Hr ltac:(discriminate)). simpl in Hr.
  destruct (IH r) as (l & r' & -> & Hr'); [lia|]. exists (v :: l), r'. simpl. split; [reflexivity|lia].
Qed.

Lemma eat_ws_length ts : length (eat_ws ts) <= length ts.
Proof. induction ts as [|t ts IH]; simpl; [lia|]. destruct (ttype_beq _ _); simpl; lia. Qed.

Lemma tl_length {A} (l : list A) : length (tl l) = length l - 1.
Proof. destruct l; simpl; lia. Qed.

Lemma important_length ts : forall b r, consume_important ts = (b, r) ->
  length r <= length ts /\ (r = ts \/ (length r < length ts)).
Proof.
  intros b r. unfold consume_important.
  destruct (token_eqb (peek ts) delim_bang) eqn:E.
  - assert (ts <> []) by (intros ->; discriminate). destruct ts as [|t ts]; [contradiction|]. cbn [tl].
    pose proof (eat_ws_length ts). pose proof (tl_length (eat_ws ts)).
    destruct (token_eqb _ ident_important); intros [= <- <-]; cbn [length]; lia.
  - intros [= <- <-]. auto.
Qed.

Lemma value_total : forall n ts, 2 * length ts + 1 <= n ->
  exists l i r, value_loop n ts = Some (l, i, r) /\ length r <= length ts.
Proof.
  induction n as [|n IH]; intros ts H; [lia|]. cbn [value_loop].
  destruct (ended_value ts) eqn:E; [exists [], false, ts; auto|].
  assert (Hne : ts <> []) by (intros ->; discriminate).
  destruct (consume_important ts) as [b r] eqn:Ei. destruct (important_length _ _ _ Ei) as [Hi Hi'].
  pose proof (eat_ws_length r) as Hw.
  destruct b; [exists [], true, (eat_ws r); split; [reflexivity|lia]|].
  assert (1 <= length ts) by (destruct ts; [contradiction|simpl; lia]).
  destruct (component_total n r) as (v & r' & -> & Hr & Hr'); [lia|lia|].
  pose proof (eat_ws_length r') as Hw'.
  assert (length r' < length ts).
  { destruct Hi' as [->|Hi']; [now apply Hr'|lia]. }
  destruct (IH (eat_ws r')) as (l & i & r'' & -> & Hr''); [lia|].
  exists (v :: l), i, r''. split; [reflexivity|lia].
Qed.

Section DL.
  Variable dl : list token -> option (list sst * list token).
  Variable n : nat.
  Hypothesis Hdl : forall ts, 2 * length ts + 2 <= n -> exists l r, dl ts = Some (l, r) /\ length r <= length ts.

  Lemma block_total ts : ts <> [] -> 2 * length ts <= n ->
    exists l r, decl_block dl ts = Some (l, r) /\ length r < length ts.
  Proof.
    intros Hne H. destruct ts as [|t ts]; [contradiction|]. unfold decl_block. cbn [tl].
    simpl in H. destruct (Hdl ts) as (l & r & -> & Hr); [lia|].
    exists l. destruct (ttype_beq _ _); eexists; (split; [reflexivity|]); rewrite ?tl_length; simpl; lia.
  Qed.

  Lemma rule_total ts : ts <> [] -> 2 * length ts + 1 <= n ->
    exists x r, rule dl n ts = Some (x, r) /\ length r < length ts.
  Proof.
    intros Hne H. unfold rule. destruct (prefix_total false n ts H) as (p & r & -> & Hr).
    destruct r as [|t r'] eqn:Er.
    - exists None, []. split; [reflexivity|]. destruct ts; [contradiction|simpl; lia].
    - destruct (block_total (t :: r')) as (l & r0 & -> & Hr0); [discriminate|lia|].
      eexists _, r0. split; [reflexivity|lia].
  Qed.

  Lemma at_rule_total ts : ts <> [] -> 2 * length ts + 1 <= n ->
    exists x r, at_rule dl n ts = Some (x, r) /\ length r < length ts.
  Proof.
    intros Hne H. destruct ts as [|t ts]; [contradiction|]. unfold at_rule. cbn [tl]. simpl in H.
    destruct (prefix_total true n ts ltac:(lia)) as (p & r & -> & Hr).
    assert (Hother : exists x r0, Some (RULE (Some (peek (t :: ts))) p [], tl r) = Some (x, r0) /\ length r0 < length (t :: ts)).
    { eexists _, _. split; [reflexivity|]. rewrite tl_length. simpl. lia. }
    destruct (peek_type r) eqn:Er; try exact Hother.
    destruct (block_total r) as (l & r0 & -> & Hr0); [intros ->; discriminate|lia|].
    eexists _, r0. split; [reflexivity|]. simpl. lia.
  Qed.
End DL.

Lemma declaration_total n ts : ts <> [] -> 2 * length ts + 1 <= n ->
  exists x r, declaration n ts = Some (x, r) /\ length r < length ts.
Proof.
  intros Hne H. destruct ts as [|t ts]; [contradiction|]. unfold declaration. cbn [tl].
  pose proof (eat_ws_length ts) as Hw. simpl in H.
  destruct (ttype_beq _ _).
  - unfold declaration_value. pose proof (tl_length (eat_ws ts)).
    pose proof (eat_ws_length (tl (eat_ws ts))).
    destruct (value_total n (eat_ws (tl (eat_ws ts)))) as (l & i & r & -> & Hr); [lia|].
    eexists _, r. split; [reflexivity|]. simpl. lia.
  - eexists _, _. split; [reflexivity|]. simpl. lia.
Qed.

Lemma decl_list_total : forall n ts, 2 * length ts + 2 <= n ->
  exists l r, decl_list n ts = Some (l, r) /\ length r <= length ts.
Proof.
  induction n as [|n IH]; intros ts H; [lia|]. cbn [decl_list].
  destruct ts as [|t ts']; [exists [], []; auto|].
  assert (Hgo : forall (o : option (option sst * list token)),
    (exists x r, o = Some (x, r) /\ length r < length (t :: ts')) ->
    exists l r, match o with
        | Some (x, r) => match decl_list n r with Some (l, r') => Some (opt_cons x l, r') | None => None end
        | None => None
        end = Some (l, r) /\ length r <= length (t :: ts')).
  { intros o (x & r & -> & Hr). simpl in H, Hr. destruct (IH r) as (l & r' & -> & Hr'); [lia|].
    eexists _, r'. split; [reflexivity|simpl; lia]. }
  assert (Hskip : exists l r, decl_list n ts' = Some (l, r) /\ length r <= length (t :: ts')).
  { simpl in H. destruct (IH ts') as (l & r & -> & Hr); [lia|]. exists l, r. split; [reflexivity|simpl; lia]. }
  assert (Hdl : forall ts, 2 * length ts + 2 <= n -> exists l r, decl_list n ts = Some (l, r) /\ length r <= length ts)
    by (intros; apply IH; assumption).
  assert (Hr : exists x r, rule (decl_list n) n (t :: ts') = Some (x, r) /\ length r < length (t :: ts')).
  { apply rule_total; [exact Hdl|discriminate|lia]. }
  destruct (t_type t); try exact Hskip; try (apply Hgo; exact Hr).
  - destruct (str_eqb _ _); [apply Hgo; exact Hr|].
    destruct (declaration_ahead _); [|apply Hgo; exact Hr].
    apply Hgo. apply declaration_total; [discriminate|lia].
  - apply Hgo. destruct (at_rule_total (decl_list n) n Hdl (t :: ts')) as (x & r & -> & Hx); [discriminate|lia|].
    exists (Some x), r. split; [reflexivity|exact Hx].
  - exists [], (t :: ts'). auto.
Qed.

Definition cd (t : token) : bool :=
  match t_type t with CDO | CDC => true | _ => false end.


(** * What is left is a suffix of the input *)

Definition sfx (r ts : list token) : Prop := exists p, ts = p ++ r.
Lemma sfx_refl r : sfx r r. Proof. now exists []. Qed.
Lemma sfx_cons t r ts : sfx r ts -> sfx r (t :: ts).
Proof. intros [p ->]. now exists (t :: p). Qed.
Lemma sfx_trans a b c : sfx a b -> sfx b c -> sfx a c.
Proof. intros [p ->] [q ->]. exists (q ++ p). now rewrite app_assoc. Qed.
Lemma sfx_tl r : sfx (tl r) r.
Proof. destruct r; [apply sfx_refl|]. simpl. apply sfx_cons, sfx_refl. Qed.
Lemma sfx_ws r : sfx (eat_ws r) r.
Proof. induction r as [|t r IH]; simpl; [apply sfx_refl|]. destruct (ttype_beq _ _); [now apply sfx_cons|apply sfx_refl]. Qed.
Lemma sfx_Forall P r ts : sfx r ts -> Forall P ts -> Forall P r.
Proof. intros [p ->] H. now apply Forall_app in H as [_ H]. Qed.
Local Hint Resolve sfx_refl sfx_cons sfx_tl sfx_ws : sfx.

Ltac cases H :=
  repeat match type of H with
  | context [match ?x with _ => _ end] =>
      lazymatch x with context [match _ with _ => _ end] => fail | _ => destruct x eqn:? end
  end; try discriminate.

Lemma cbf_suffix : forall n,
  (forall ts v r, component n ts = Some (v, r) -> sfx r ts) /\
  (forall term ts l r, block n term ts = Some (l, r) -> sfx r ts) /\
  (forall ts l r, func n ts = Some (l, r) -> sfx r ts).
Proof.
  induction n as [|n (IHc & IHb & IHf)]; [repeat split; intros; discriminate|].
  split; [|split].
  - intros ts v r H. cbn [component] in H. destruct ts as [|t ts']; [inv H; auto with sfx|].
    destruct (t_type t); cases H; inv H; eauto with sfx.
  - intros term ts l r H. cbn [block] in H. destruct ts as [|t ts']; [inv H; auto with sfx|].
    destruct (ttype_beq _ _); [inv H; auto with sfx|].
    destruct (component n (t :: ts')) as [[v r1]|] eqn:E; [|discriminate].
    destruct (block n term r1) as [[l2 r2]|] eqn:E2; [|discriminate]. inv H.
    eapply sfx_trans; eauto.
  - intros ts l r H. cbn [func] in H. destruct ts as [|t ts']; [inv H; auto with sfx|].
    assert (Hdef : match component n (t :: ts') with
             | Some (v, r) => match func n r with Some (l, r') => Some (v :: l, r') | None => None end
             | None => None end = Some (l, r) -> sfx r (t :: ts')).
    { intros H0. destruct (component n (t :: ts')) as [[v r1]|] eqn:E; [|discriminate].
      destruct (func n r1) as [[l2 r2]|] eqn:E2; [|discriminate]. inv H0. eapply sfx_trans; eauto. }
    destruct (t_type t); try (apply Hdef; exact H).
    + inv H. auto with sfx.
    + apply sfx_cons. eauto.
Qed.

Lemma component_suffix n ts v r : component n ts = Some (v, r) -> sfx r ts.
Proof. apply cbf_suffix. Qed.

Lemma prefix_suffix semi : forall n ts l r, prefix_loop n semi ts = Some (l, r) -> sfx r ts.
Proof.
  induction n as [|n IH]; intros ts l r H; [discriminate|]. cbn [prefix_loop] in H.
  destruct ts as [|t ts']; [inv H; auto with sfx|]. destruct (_ || _); [inv H; auto with sfx|].
  destruct (component n (t :: ts')) as [[v r1]|] eqn:E; [|discriminate].
  destruct (prefix_loop n semi r1) as [[l2 r2]|] eqn:E2; [|discriminate]. inv H.
  eapply sfx_trans; eauto using component_suffix.
Qed.

Lemma important_suffix ts b r : consume_important ts = (b, r) -> sfx r ts.
Proof.
  unfold consume_important. destruct (token_eqb _ delim_bang); [|intros [= <- <-]; auto with sfx].
  destruct (token_eqb _ ident_important); intros [= <- <-]; auto with sfx.
  eapply sfx_trans; [apply sfx_tl|]. eapply sfx_trans; [apply sfx_ws|apply sfx_tl].
Qed.

Lemma value_suffix : forall n ts l i r, value_loop n ts = Some (l, i, r) -> sfx r ts.
Proof.
  induction n as [|n IH]; intros ts l i r H; [discriminate|]. cbn [value_loop] in H.
  destruct (ended_value ts); [inv H; auto with sfx|].
  destruct (consume_important ts) as [b r1] eqn:Ei. apply important_suffix in Ei.
  destruct b; [inv H; eapply sfx_trans; [apply sfx_ws|exact Ei]|].
  destruct (component n r1) as [[v r2]|] eqn:E; [|discriminate].
  destruct (value_loop n (eat_ws r2)) as [[[l2 i2] r3]|] eqn:E2; [|discriminate]. inv H.
  apply component_suffix in E. apply IH in E2.
  eapply sfx_trans; [exact E2|]. eapply sfx_trans; [apply sfx_ws|]. eapply sfx_trans; eauto.
Qed.

Section DLS.
  Variable dl : list token -> option (list sst * list token).
  Variable n : nat.
  Hypothesis Hdl : forall ts l r, dl ts = Some (l, r) -> sfx r ts.

  Lemma block_suffix ts l r : decl_block dl ts = Some (l, r) -> sfx r ts.
  Proof.
    unfold decl_block. destruct (dl (tl ts)) as [[c r1]|] eqn:E; [|discriminate]. apply Hdl in E.
    assert (H1 : sfx r1 ts) by (eapply sfx_trans; [exact E|apply sfx_tl]).
    destruct (ttype_beq _ _); intros [= <- <-]; [|exact H1]. eapply sfx_trans; [apply sfx_tl|exact H1].
  Qed.
  Lemma rule_suffix ts x r : rule dl n ts = Some (x, r) -> sfx r ts.
  Proof.
    unfold rule. destruct (prefix_loop n false ts) as [[p r1]|] eqn:E; [|discriminate].
    apply prefix_suffix in E. destruct r1 as [|t r1]; [intros [= <- <-]; exact E|].
    destruct (decl_block dl (t :: r1)) as [[c r2]|] eqn:E2; [|discriminate]. intros [= <- <-].
    apply block_suffix in E2. eapply sfx_trans; eauto.
  Qed.
  Lemma at_rule_suffix ts x r : at_rule dl n ts = Some (x, r) -> sfx r ts.
  Proof.
    unfold at_rule. destruct (prefix_loop n true (tl ts)) as [[p r1]|] eqn:E; [|discriminate].
    apply prefix_suffix in E.
    assert (H1 : sfx r1 ts) by (eapply sfx_trans; [exact E|apply sfx_tl]).
    intros H.
    assert (Hother : Some (RULE (Some (peek ts)) p [], tl r1) = Some (x, r) -> sfx r ts).
    { intros [= <- <-]. eapply sfx_trans; [apply sfx_tl|exact H1]. }
    destruct (peek_type r1); try exact (Hother H).
    destruct (decl_block dl r1) as [[c r2]|] eqn:E2; [|discriminate]. inv H.
    apply block_suffix in E2. eapply sfx_trans; eauto.
  Qed.
End DLS.

Lemma declaration_suffix n ts x r : declaration n ts = Some (x, r) -> sfx r ts.
Proof.
  unfold declaration. assert (H1 : sfx (eat_ws (tl ts)) ts) by (eapply sfx_trans; auto with sfx).
  destruct (ttype_beq _ _); [|intros [= <- <-]; exact H1].
  unfold declaration_value. destruct (value_loop _ _) as [[[c i] r1]|] eqn:E; [|discriminate].
  intros [= <- <-]. apply value_suffix in E. eapply sfx_trans; [exact E|].
  eapply sfx_trans; [apply sfx_ws|]. eapply sfx_trans; [apply sfx_tl|exact H1].
Qed.

Lemma decl_list_suffix : forall n ts l r, decl_list n ts = Some (l, r) -> sfx r ts.
Proof.
  induction n as [|n IH]; intros ts l r H; [discriminate|]. cbn [decl_list] in H.
  destruct ts as [|t ts']; [inv H; auto with sfx|].
  assert (Hgo : forall (o : option (option sst * list token)),
    (forall x r, o = Some (x, r) -> sfx r (t :: ts')) ->
    match o with
        | Some (x, r) => match decl_list n r with Some (l, r') => Some (opt_cons x l, r') | None => None end
        | None => None
        end = Some (l, r) -> sfx r (t :: ts')).
  { intros [[x r1]|] Ho H0; [|discriminate].
    destruct (decl_list n r1) as [[l2 r2]|] eqn:E; [|discriminate]. inv H0.
    eapply sfx_trans; [eapply IH; exact E|]. now apply (Ho x). }
  assert (Hr : forall x r, rule (decl_list n) n (t :: ts') = Some (x, r) -> sfx r (t :: ts')).
  { intros x r0. apply rule_suffix. exact IH. }
  destruct (t_type t); try (apply sfx_cons; exact (IH _ _ _ H)); try (exact (Hgo _ Hr H)).
  - destruct (str_eqb _ _); [exact (Hgo _ Hr H)|].
    destruct (declaration_ahead _); [|exact (Hgo _ Hr H)].
    refine (Hgo _ _ H). intros x r0. apply declaration_suffix.
  - refine (Hgo _ _ H). intros x r0 H0.
    destruct (at_rule (decl_list n) n (t :: ts')) as [[y r1]|] eqn:E; [|discriminate]. inv H0.
    exact (at_rule_suffix _ n IH _ _ _ E).
  - inv H. auto with sfx.
Qed.

(** * The rule list *)

Lemma rule_list_total top : forall n ts, 2 * length ts + 3 <= n ->
  (top = false \/ Forall (fun t => cd t = false) ts) -> exists l, rule_list top n ts = Some l.
Proof.
  induction n as [|n IH]; intros ts H Hcd; [lia|]. cbn [rule_list].
  destruct ts as [|t ts']; [exists []; auto|].
  assert (Hsub : forall r, sfx r (t :: ts') -> top = false \/ Forall (fun t => cd t = false) r).
  { intros r Hr. destruct Hcd as [Hcd|Hcd]; [auto|]. right. eapply sfx_Forall; eauto. }
  assert (Hgo : forall (o : option (option sst * list token)),
    (exists x r, o = Some (x, r) /\ length r < length (t :: ts')) ->
    (forall x r, o = Some (x, r) -> sfx r (t :: ts')) ->
    exists l, match o with
        | Some (x, r) => match rule_list top n r with Some l => Some (opt_cons x l) | None => None end
        | None => None
        end = Some l).
  { intros o (x & r & -> & Hr) Ho. simpl in H, Hr.
    destruct (IH r) as (l & ->); [lia|now apply Hsub, (Ho x)|]. eauto. }
  assert (Hskip : exists l, rule_list top n ts' = Some l).
  { simpl in H. apply IH; [lia|]. apply Hsub. auto with sfx. }
  assert (Hr : exists l, match rule (decl_list n) n (t :: ts') with
        | Some (x, r) => match rule_list top n r with Some l => Some (opt_cons x l) | None => None end
        | None => None end = Some l).
  { apply Hgo.
    - apply rule_total; [intros; now apply decl_list_total|discriminate|lia].
    - intros x r. apply rule_suffix. apply decl_list_suffix. }
  destruct (t_type t) eqn:Et; try exact Hskip; try exact Hr.
  - apply Hgo.
    + destruct (at_rule_total (decl_list n) n (fun ts H => decl_list_total n ts H) (t :: ts')) as (x & r & -> & Hx);
        [discriminate|lia|]. exists (Some x), r. auto.
    + intros x r H0.
      destruct (at_rule (decl_list n) n (t :: ts')) as [[y r1]|] eqn:E; [|discriminate]. inv H0.
      exact (at_rule_suffix _ n (decl_list_suffix n) _ _ _ E).
  - destruct Hcd as [->|Hcd]; [exact Hr|]. inv Hcd. unfold cd in H2. rewrite Et in H2. discriminate.
  - destruct Hcd as [->|Hcd]; [exact Hr|]. inv Hcd. unfold cd in H2. rewrite Et in H2. discriminate.
Qed.

(** * More fuel changes nothing *)

Lemma cbf_mono : forall n,
  (forall ts x, component n ts = Some x -> component (S n) ts = Some x) /\
  (forall term ts x, block n term ts = Some x -> block (S n) term ts = Some x) /\
  (forall ts x, func n ts = Some x -> func (S n) ts = Some x).
Proof.
  induction n as [|n (IHc & IHb & IHf)]; [repeat split; intros; discriminate|].
  split; [|split].
  - intros ts x H. cbn [component] in H. remember (S n) as m. cbn [component].
    destruct ts as [|t ts']; [exact H|].
    destruct (t_type t); try exact H;
      try (match type of H with context [block n ?term ts'] =>
             destruct (block n term ts') as [[c r]|] eqn:E; [|discriminate]; rewrite (IHb _ _ _ E); exact H end).
    destruct (func n ts') as [[c r]|] eqn:E; [|discriminate]. rewrite (IHf _ _ E). exact H.
  - intros term ts x H. cbn [block] in H. remember (S n) as m. cbn [block].
    destruct ts as [|t ts']; [exact H|]. destruct (ttype_beq _ _); [exact H|].
    destruct (component n (t :: ts')) as [[v r1]|] eqn:E; [|discriminate]. rewrite (IHc _ _ E).
    destruct (block n term r1) as [[l2 r2]|] eqn:E2; [|discriminate]. rewrite (IHb _ _ _ E2). exact H.
  - intros ts x H. cbn [func] in H. remember (S n) as m. cbn [func].
    destruct ts as [|t ts']; [exact H|].
    assert (Hdef : match component n (t :: ts') with
             | Some (v, r) => match func n r with Some (l, r') => Some (v :: l, r') | None => None end
             | None => None end = Some x ->
             match component m (t :: ts') with
             | Some (v, r) => match func m r with Some (l, r') => Some (v :: l, r') | None => None end
             | None => None end = Some x).
    { intros H0. destruct (component n (t :: ts')) as [[v r1]|] eqn:E; [|discriminate]. rewrite (IHc _ _ E).
      destruct (func n r1) as [[l2 r2]|] eqn:E2; [|discriminate]. rewrite (IHf _ _ E2). exact H0. }
    destruct (t_type t); try exact (Hdef H); [exact H|]. now apply IHf.
Qed.

Lemma mono_le {A} (f : nat -> option A) :
  (forall n x, f n = Some x -> f (S n) = Some x) -> forall n m x, n <= m -> f n = Some x -> f m = Some x.
Proof. intros Hf n m x Hle. induction Hle; auto. Qed.

Lemma component_mono n m ts x : n <= m -> component n ts = Some x -> component m ts = Some x.
Proof. apply (mono_le (fun n => component n ts)). intros k y. apply cbf_mono. Qed.
Lemma block_mono n m term ts x : n <= m -> block n term ts = Some x -> block m term ts = Some x.
Proof. apply (mono_le (fun n => block n term ts)). intros k y. apply cbf_mono. Qed.
Lemma func_mono n m ts x : n <= m -> func n ts = Some x -> func m ts = Some x.
Proof. apply (mono_le (fun n => func n ts)). intros k y. apply cbf_mono. Qed.

Lemma prefix_mono semi n m ts x : n <= m -> prefix_loop n semi ts = Some x -> prefix_loop m semi ts = Some x.
Proof.
  apply (mono_le (fun n => prefix_loop n semi ts)). intros k. revert ts.
  induction k as [|k IH]; intros ts y H; [discriminate|].
  cbn [prefix_loop] in H. remember (S k) as k'. cbn [prefix_loop].
  destruct ts as [|t ts']; [exact H|]. destruct (_ || _); [exact H|].
  destruct (component k (t :: ts')) as [[v r1]|] eqn:E; [|discriminate].
  rewrite (component_mono k k' _ _ ltac:(lia) E).
  destruct (prefix_loop k semi r1) as [[l2 r2]|] eqn:E2; [|discriminate]. now rewrite (IH _ _ E2).
Qed.

Lemma value_mono n m ts x : n <= m -> value_loop n ts = Some x -> value_loop m ts = Some x.
Proof.
  apply (mono_le (fun n => value_loop n ts)). intros k. revert ts.
  induction k as [|k IH]; intros ts y H; [discriminate|].
  cbn [value_loop] in H. remember (S k) as k'. cbn [value_loop].
  destruct (ended_value ts); [exact H|]. destruct (consume_important ts) as [[|] r]; [exact H|].
  destruct (component k r) as [[v r1]|] eqn:E; [|discriminate].
  rewrite (component_mono k k' _ _ ltac:(lia) E).
  destruct (value_loop k (eat_ws r1)) as [[[l2 i] r2]|] eqn:E2; [|discriminate]. now rewrite (IH _ _ E2).
Qed.

Lemma decl_block_mono dl dl' ts x :
  (forall ts x, dl ts = Some x -> dl' ts = Some x) -> decl_block dl ts = Some x -> decl_block dl' ts = Some x.
Proof.
  unfold decl_block. intros H. destruct (dl (tl ts)) as [[c r]|] eqn:E; [|discriminate].
  now rewrite (H _ _ E).
Qed.
Lemma rule_mono dl dl' n m ts x : n <= m ->
  (forall ts x, dl ts = Some x -> dl' ts = Some x) -> rule dl n ts = Some x -> rule dl' m ts = Some x.
Proof.
  unfold rule. intros Hle H. destruct (prefix_loop n false ts) as [[p r]|] eqn:E; [|discriminate].
  rewrite (prefix_mono _ n m _ _ Hle E). destruct r as [|t r]; [auto|].
  destruct (decl_block dl (t :: r)) as [[c r2]|] eqn:E2; [|discriminate].
  now rewrite (decl_block_mono _ _ _ _ H E2).
Qed.
Lemma at_rule_mono dl dl' n m ts x : n <= m ->
  (forall ts x, dl ts = Some x -> dl' ts = Some x) -> at_rule dl n ts = Some x -> at_rule dl' m ts = Some x.
Proof.
  unfold at_rule. intros Hle H. destruct (prefix_loop n true (tl ts)) as [[p r]|] eqn:E; [|discriminate].
  rewrite (prefix_mono _ n m _ _ Hle E). destruct (peek_type r); auto.
  destruct (decl_block dl r) as [[c r2]|] eqn:E2; [|discriminate].
  now rewrite (decl_block_mono _ _ _ _ H E2).
Qed.
Lemma declaration_mono n m ts x : n <= m -> declaration n ts = Some x -> declaration m ts = Some x.
Proof.
  unfold declaration. intros Hle. destruct (ttype_beq _ _); [|auto]. unfold declaration_value.
  destruct (value_loop n _) as [[[c i] r]|] eqn:E; [|discriminate]. now rewrite (value_mono n m _ _ Hle E).
Qed.

Lemma decl_list_step n : forall ts x, decl_list n ts = Some x -> decl_list (S n) ts = Some x.
Proof.
  induction n as [|k IH]; intros ts y H; [discriminate|].
  cbn [decl_list] in H. remember (S k) as k'. cbn [decl_list]. destruct ts as [|t ts']; [exact H|].
  assert (Hgo : forall o o' : option (option sst * list token),
    (forall x, o = Some x -> o' = Some x) ->
    match o with
        | Some (x, r) => match decl_list k r with Some (l, r') => Some (opt_cons x l, r') | None => None end
        | None => None end = Some y ->
    match o' with
        | Some (x, r) => match decl_list k' r with Some (l, r') => Some (opt_cons x l, r') | None => None end
        | None => None end = Some y).
  { intros o o' Ho H0. destruct o as [[x r]|]; [|discriminate]. rewrite (Ho _ eq_refl).
    destruct (decl_list k r) as [[l r']|] eqn:E; [|discriminate]. now rewrite (IH _ _ E). }
  assert (Hr : forall x, rule (decl_list k) k (t :: ts') = Some x -> rule (decl_list k') k' (t :: ts') = Some x).
  { intros x. apply rule_mono; [lia|exact IH]. }
  destruct (t_type t); try (now apply IH); try (exact (Hgo _ _ Hr H)); try exact H.
  - destruct (str_eqb _ _); [exact (Hgo _ _ Hr H)|].
    destruct (declaration_ahead _); [|exact (Hgo _ _ Hr H)].
    refine (Hgo _ _ _ H). intros x. apply declaration_mono. lia.
  - refine (Hgo _ _ _ H). intros x H0.
    destruct (at_rule (decl_list k) k (t :: ts')) as [[z r]|] eqn:E; [|discriminate].
    rewrite (at_rule_mono _ (decl_list k') k k' _ _ ltac:(lia) IH E). exact H0.
Qed.
Lemma decl_list_mono n m ts x : n <= m -> decl_list n ts = Some x -> decl_list m ts = Some x.
Proof. apply (mono_le (fun n => decl_list n ts)). intros k y. apply decl_list_step. Qed.

Lemma rule_list_mono top n m ts x : n <= m -> rule_list top n ts = Some x -> rule_list top m ts = Some x.
Proof.
  apply (mono_le (fun n => rule_list top n ts)). intros k. clear x. revert ts.
  induction k as [|k IH]; intros ts y H; [discriminate|].
  cbn [rule_list] in H. remember (S k) as k'. cbn [rule_list]. destruct ts as [|t ts']; [exact H|].
  assert (Hgo : forall o o' : option (option sst * list token),
    (forall x, o = Some x -> o' = Some x) ->
    match o with
        | Some (x, r) => match rule_list top k r with Some l => Some (opt_cons x l) | None => None end
        | None => None end = Some y ->
    match o' with
        | Some (x, r) => match rule_list top k' r with Some l => Some (opt_cons x l) | None => None end
        | None => None end = Some y).
  { intros o o' Ho H0. destruct o as [[x r]|]; [|discriminate]. rewrite (Ho _ eq_refl).
    destruct (rule_list top k r) as [l|] eqn:E; [|discriminate]. now rewrite (IH _ _ E). }
  assert (Hdl : forall ts x, decl_list k ts = Some x -> decl_list k' ts = Some x)
    by (intros ? ?; apply decl_list_mono; lia).
  assert (Hr : forall x, rule (decl_list k) k (t :: ts') = Some x -> rule (decl_list k') k' (t :: ts') = Some x).
  { intros x. apply rule_mono; [lia|exact Hdl]. }
  destruct (t_type t); try (now apply IH); try (exact (Hgo _ _ Hr H)); try exact H.
  - refine (Hgo _ _ _ H). intros x H0.
    destruct (at_rule (decl_list k) k (t :: ts')) as [[z r]|] eqn:E; [|discriminate].
    rewrite (at_rule_mono _ (decl_list k') k k' _ _ ltac:(lia) Hdl E). exact H0.
  - destruct top; [now apply IH|exact (Hgo _ _ Hr H)].
  - destruct top; [now apply IH|exact (Hgo _ _ Hr H)].
Qed.
