(** The HTML tokenizer on whole inputs. *)
From Coq Require Import String List Arith Bool NArith Lia.
From Verif.Base Require Import Str.
From Verif.Html Require Import Entities LexerModel LexerInv LexerSteps LexerSteps2 LexerFrame.
Import ListNotations.
Local Open Scope list_scope.
Local Open Scope N_scope.

(** ** Character references in the input *)
Definition is_prefix (p x : str) : Prop := exists q, x = p ++ q.

(** What follows an ampersand is a whole reference with its semicolon, or no reference at all. *)
Definition clean (x : str) : Prop :=
  (exists e n, In e entities /\ fst e = n ++ [59] /\ is_prefix (fst e) x) \/
  (forall e, In e entities -> ~ is_prefix (fst e) x).
Definition refs_ok (s : str) : Prop := forall p q, s = p ++ 38 :: q -> clean (38 :: q).

Lemma entity_semicolon :
  forallb (fun e => forallb (fun c => negb (c =? 59)) (removelast (fst e))) entities = true.
Proof. vm_compute. reflexivity. Qed.

Lemma removelast_snoc {A} (l : list A) x : removelast (l ++ [x]) = l.
Proof. apply removelast_last. Qed.

Lemma semicolon_last e a b : In e entities -> fst e = a ++ 59 :: b -> b = [].
Proof.
  intros Hi He. pose proof entity_semicolon as H. rewrite forallb_forall in H. specialize (H e Hi). cbv beta in H.
  destruct (exists_last (l := 59 :: b)) as (b' & x & Eb); [discriminate|].
  rewrite He, Eb, app_assoc, removelast_snoc, forallb_app in H. apply andb_true_iff in H as [_ H].
  destruct b' as [|y b']; cbn in Eb.
  - injection Eb as _ ->. reflexivity.
  - injection Eb as <- _. cbn in H. discriminate.
Qed.

Lemma prefix_cases (p t r : str) c : is_prefix p (t ++ c :: r) ->
  (exists q, t = p ++ q) \/ p = t ++ [c] \/ (exists x q, p = (t ++ [c]) ++ x :: q).
Proof.
  intros [q E]. revert p E. induction t as [|y t IH]; intros p E; cbn in *.
  - destruct p as [|x p]; [left; exists []; reflexivity|]. cbn in E. injection E as -> E.
    destruct p as [|z p]; [right; left; reflexivity|]. right. right. now exists z, p.
  - destruct p as [|x p]; [left; now exists (y :: t)|]. cbn in E. injection E as -> E.
    destruct (IH p E) as [[q' ->]|[->|(z & q' & ->)]].
    + left. now exists q'.
    + right. now left.
    + right. right. now exists z, q'.
Qed.

Lemma amp_partial : has_partial [38] = true.
Proof. vm_compute. reflexivity. Qed.

Local Opaque has_partial is_entity expansion.

(** ** One step *)
Section Sink.
Variable sink : list token -> option text_mode.

Lemma step_all c eof l : (eof = true -> c = 3) -> pending c eof l -> l_again l = false ->
  step_ok c eof l (step sink c eof l).
Proof.
  intros Hc Hp Ha.
  assert (l_state l = AFTER_ATTRIBUTE_NAME \/ (l_state l <> AFTER_ATTRIBUTE_NAME /\ good l)) as [Hs|[Hs Hg]].
  { destruct Hp as [Hg|(Hs & _)]; [|now left]. destruct (l_state l) eqn:E; try (right; split; [discriminate|assumption]). now left. }
  { now apply after_attribute_name. }
  destruct (l_state l) eqn:E.
  - apply step_DATA; assumption.
  - apply step_RCDATA; assumption.
  - apply step_RAWTEXT; assumption.
  - apply step_SCRIPT_DATA; assumption.
  - apply step_PLAINTEXT; assumption.
  - apply step_TAG_OPEN; assumption.
  - apply step_END_TAG_OPEN; assumption.
  - apply step_TAG_NAME; assumption.
  - apply step_RCDATA_LESS_THAN_SIGN; assumption.
  - apply step_RCDATA_END_TAG_OPEN; assumption.
  - apply step_RCDATA_END_TAG_NAME; assumption.
  - apply step_RAWTEXT_LESS_THAN_SIGN; assumption.
  - apply step_RAWTEXT_END_TAG_OPEN; assumption.
  - apply step_RAWTEXT_END_TAG_NAME; assumption.
  - apply step_SCRIPT_DATA_LESS_THAN_SIGN; assumption.
  - apply step_SCRIPT_DATA_END_TAG_OPEN; assumption.
  - apply step_SCRIPT_DATA_END_TAG_NAME; assumption.
  - apply step_SCRIPT_DATA_ESCAPE_START; assumption.
  - apply step_SCRIPT_DATA_ESCAPE_START_DASH; assumption.
  - apply step_SCRIPT_DATA_ESCAPED; assumption.
  - apply step_SCRIPT_DATA_ESCAPED_DASH; assumption.
  - apply step_SCRIPT_DATA_ESCAPED_DASH_DASH; assumption.
  - apply step_SCRIPT_DATA_ESCAPED_LESS_THAN_SIGN; assumption.
  - apply step_SCRIPT_DATA_ESCAPED_END_TAG_OPEN; assumption.
  - apply step_SCRIPT_DATA_ESCAPED_END_TAG_NAME; assumption.
  - apply step_SCRIPT_DATA_DOUBLE_ESCAPE_START; assumption.
  - apply step_SCRIPT_DATA_DOUBLE_ESCAPED; assumption.
  - apply step_SCRIPT_DATA_DOUBLE_ESCAPED_DASH; assumption.
  - apply step_SCRIPT_DATA_DOUBLE_ESCAPED_DASH_DASH; assumption.
  - apply step_SCRIPT_DATA_DOUBLE_ESCAPED_LESS_THAN_SIGN; assumption.
  - apply step_SCRIPT_DATA_DOUBLE_ESCAPE_END; assumption.
  - apply step_BEFORE_ATTRIBUTE_NAME; assumption.
  - apply step_ATTRIBUTE_NAME; assumption.
  - now elim Hs.
  - apply step_BEFORE_ATTRIBUTE_VALUE; assumption.
  - apply step_ATTRIBUTE_VALUE_DOUBLE_QUOTED; assumption.
  - apply step_ATTRIBUTE_VALUE_SINGLE_QUOTED; assumption.
  - apply step_ATTRIBUTE_VALUE_UNQUOTED; assumption.
  - apply step_AFTER_ATTRIBUTE_VALUE_QUOTED; assumption.
  - apply step_SELF_CLOSING_START_TAG; assumption.
  - apply step_BOGUS_COMMENT; assumption.
  - apply step_MARKUP_DECLARATION_OPEN; assumption.
  - apply step_COMMENT_START; assumption.
  - apply step_COMMENT_START_DASH; assumption.
  - apply step_COMMENT; assumption.
  - apply step_COMMENT_LESS_THAN_SIGN; assumption.
  - apply step_COMMENT_LESS_THAN_SIGN_BANG; assumption.
  - apply step_COMMENT_LESS_THAN_SIGN_BANG_DASH; assumption.
  - apply step_COMMENT_LESS_THAN_SIGN_BANG_DASH_DASH; assumption.
  - apply step_COMMENT_END_DASH; assumption.
  - apply step_COMMENT_END; assumption.
  - apply step_COMMENT_END_BANG; assumption.
  - apply step_DOCTYPE; assumption.
  - apply step_BEFORE_DOCTYPE_NAME; assumption.
  - apply step_DOCTYPE_NAME; assumption.
  - apply step_AFTER_DOCTYPE_NAME; assumption.
  - apply step_AFTER_DOCTYPE_PUBLIC_KEYWORD; assumption.
  - apply step_BEFORE_DOCTYPE_PUBLIC_IDENTIFIER; assumption.
  - apply step_DOCTYPE_PUBLIC_IDENTIFIER_DOUBLE_QUOTED; assumption.
  - apply step_DOCTYPE_PUBLIC_IDENTIFIER_SINGLE_QUOTED; assumption.
  - apply step_AFTER_DOCTYPE_PUBLIC_IDENTIFIER; assumption.
  - apply step_BETWEEN_DOCTYPE_PUBLIC_AND_SYSTEM_IDENTIFIERS; assumption.
  - apply step_AFTER_DOCTYPE_SYSTEM_KEYWORD; assumption.
  - apply step_BEFORE_DOCTYPE_SYSTEM_IDENTIFIER; assumption.
  - apply step_DOCTYPE_SYSTEM_IDENTIFIER_DOUBLE_QUOTED; assumption.
  - apply step_DOCTYPE_SYSTEM_IDENTIFIER_SINGLE_QUOTED; assumption.
  - apply step_AFTER_DOCTYPE_SYSTEM_IDENTIFIER; assumption.
  - apply step_BOGUS_DOCTYPE; assumption.
  - apply step_CDATA_SECTION; assumption.
  - apply step_CDATA_SECTION_BRACKET; assumption.
  - apply step_CDATA_SECTION_END; assumption.
  - apply step_CHARACTER_REFERENCE; assumption.
  - apply step_NAMED_CHARACTER_REFERENCE; assumption.
  - apply step_AMBIGUOUS_AMPERSAND; assumption.
  - apply step_NUMERIC_CHARACTER_REFERENCE; assumption.
  - apply step_HEXADECIMAL_CHARACTER_REFERENCE_START; assumption.
  - apply step_DECIMAL_CHARACTER_REFERENCE_START; assumption.
  - apply step_HEXADECIMAL_CHARACTER_REFERENCE; assumption.
  - apply step_DECIMAL_CHARACTER_REFERENCE; assumption.
  - apply step_NUMERIC_CHARACTER_REFERENCE_END; assumption.
Qed.

Lemma pending_returnable c eof l : pending c eof l -> kind_of (l_state l) = KRef -> returnable (l_return l).
Proof.
  intros [Hg|(-> & _)] Hk; [|discriminate]. unfold good in Hg. rewrite Hk in Hg.
  destruct (l_return l); try contradiction; exact I.
Qed.

(** The pending character reference and the input [r] still to be read. *)
Definition refs_inv (r : str) (l : lexer) : Prop :=
  (l_state l <> NAMED_CHARACTER_REFERENCE -> l_matched l = None) /\
  (l_state l = CHARACTER_REFERENCE -> clean (38 :: r)) /\
  (l_state l = NAMED_CHARACTER_REFERENCE ->
   clean (l_temp l ++ r) /\ has_partial (l_temp l) = true /\
   forall m, l_matched l = Some m -> is_entity (firstn m (l_temp l)) = true /\ (m <= length (l_temp l))%nat).

Definition clear_again (l : lexer) : lexer :=
  mkLexer (l_state l) (l_return l) (l_token l) (l_last l) (l_char l) (l_builder l) (l_temp l) (l_peek l) (l_foreign l) (l_matched l) (l_attr l) false (l_out l).

Lemma named_dec (s : state) : {s = NAMED_CHARACTER_REFERENCE} + {s <> NAMED_CHARACTER_REFERENCE}.
Proof. destruct s; first [left; reflexivity | right; discriminate]. Qed.

Lemma ret_state_other l : returnable (l_return l) -> l_return l <> NAMED_CHARACTER_REFERENCE /\ l_return l <> CHARACTER_REFERENCE.
Proof. destruct (l_return l); cbn; intros H; split; try discriminate; contradiction. Qed.

Lemma clean_not_stuck t c r m :
  clean (t ++ c :: r) -> has_partial t = true -> is_entity (firstn m t) = true ->
  has_partial (t ++ [c]) = false -> is_entity (t ++ [c]) = false -> False.
Proof.
  intros Hcl Hp Hm Ep Ee.
  apply is_entity_spec in Hm as (e0 & Hi0 & He0).
  destruct Hcl as [(e & n & Hi & He & Hpre)|Hno].
  2: { apply (Hno e0 Hi0). rewrite He0. exists (skipn m t ++ c :: r). now rewrite app_assoc, firstn_skipn. }
  destruct (prefix_cases _ _ _ _ Hpre) as [[q Eq]|[Eq|(x & q & Eq)]].
  - apply has_partial_spec in Hp as (e' & x & q' & Hi' & He').
    rewrite Eq, He in He'. rewrite <- !app_assoc in He'. cbn in He'.
    apply (semicolon_last _ _ _ Hi') in He'. destruct q; discriminate.
  - assert (is_entity (t ++ [c]) = true); [|congruence]. apply is_entity_spec. exists e. exact (conj Hi Eq).
  - assert (has_partial (t ++ [c]) = true); [|congruence]. apply has_partial_spec. exists e, x, q. exact (conj Hi Eq).
Qed.

Lemma named_refs c eof r l :
  l_state l = NAMED_CHARACTER_REFERENCE -> l_again l = false -> returnable (l_return l) -> refs_inv (c :: r) l ->
  match on_NAMED_CHARACTER_REFERENCE sink c eof l with
  | Ok l' => refs_inv (if l_again l' then c :: r else r) l'
  | Crash w => w <> StaleOffset
  end.
Proof.
  intros Hs Ha Hr (_ & _ & H). destruct (H Hs) as (Hcl & Hp & Hm). clear H.
  destruct (ret_state_other l Hr) as [Hr1 Hr2].
  unfold on_NAMED_CHARACTER_REFERENCE.
  destruct (has_partial (l_temp l ++ [c])) eqn:Ep.
  { unfold seq, bind, t_append, set_temp, set_matched. destruct l as [st re tok la ch bu te pe fo ma at_ ag out]. cbn in *. subst.
    destruct (is_entity (te ++ [c])) eqn:Ee; cbn.
    - split; [intros H; now elim H|]. split; [intros [=]|]. intros _. cbn. rewrite <- app_assoc. split; [exact Hcl|]. split; [exact Ep|].
      intros m [= <-]. rewrite firstn_all. split; [exact Ee|lia].
    - split; [intros H; now elim H|]. split; [intros [=]|]. intros _. cbn. rewrite <- app_assoc. split; [exact Hcl|]. split; [exact Ep|].
      intros m Em. specialize (Hm m Em). destruct Hm as [Hm Hl].
      rewrite firstn_app, (proj2 (Nat.sub_0_le _ _) Hl), firstn_O, app_nil_r. split; [exact Hm|]. rewrite app_length. lia. }
  destruct (is_entity (l_temp l ++ [c])) eqn:Ee.
  { destruct (negb (c =? 59)); [discriminate|].
    unfold seq at 1 2 3. unfold t_append, t_expand, set_temp, set_matched, bind.
    destruct l as [st re tok la ch bu te pe fo ma at_ ag out]. cbn [l_temp l_return l_state l_again] in *. subst.
    destruct (expansion _); unfold seq; cbn [l_state l_return l_token l_last l_char l_builder l_temp l_peek l_foreign l_matched l_attr l_again l_out].
    all: match goal with |- context [flush sink ?l0] => destruct (flush_frame sink l0) as (tok' & a & b & new & E); rewrite E end.
    all: cbn; split; [reflexivity|split; [intros Hx; now elim Hr2|intros Hx; now elim Hr1]]. }
  destruct (l_matched l) as [m|] eqn:Em.
  { exfalso. destruct (Hm m eq_refl) as [Hm1 Hm2]. exact (clean_not_stuck _ _ _ m Hcl Hp Hm1 Ep Ee). }
  unfold seq at 1. destruct (flush_frame sink l) as (tok' & a & b & new & E). rewrite E. unfold bind, reconsume, seq, bind, switch, set_again. cbn.
  split; [intros _; exact Em|]. split; intros [=].
Qed.

Lemma step_refs c eof r l :
  (eof = true -> c = 3) -> pending c eof l -> l_again l = false -> refs_ok (c :: r) -> refs_inv (c :: r) l ->
  match step sink c eof l with
  | Ok l' => refs_inv (if l_again l' then c :: r else r) l'
  | Crash w => False
  end.
Proof.
  intros Hc Hp Ha Hok Hi.
  pose proof (step_all c eof l Hc Hp Ha) as Hstep.
  destruct (named_dec (l_state l)) as [Hs|Hs].
  - pose proof (pending_returnable _ _ _ Hp) as Hr. rewrite Hs in Hr. specialize (Hr eq_refl).
    pose proof (named_refs c eof r l Hs Ha Hr Hi) as H.
    unfold step in *. rewrite Hs in *. destruct (on_NAMED_CHARACTER_REFERENCE sink c eof l) as [l'|w]; [exact H|].
    cbn in Hstep. contradiction.
  - pose proof (step_frame sink c eof l Hs Ha (pending_returnable _ _ _ Hp)) as Hf.
    destruct (step sink c eof l) as [l'|w] eqn:El.
    + destruct Hf as (F1 & F2 & F3). destruct Hi as (I1 & I2 & _).
      split; [intros _; rewrite (F1 Hs); exact (I1 Hs)|]. split.
      * intros E. destruct (F3 E) as [-> ->]. apply (Hok [] r). reflexivity.
      * intros E. destruct (F2 E Hs) as (Es & Et & ->). rewrite Et. split; [exact (I2 Es)|].
        split; [apply amp_partial|]. intros m Em. rewrite (F1 Hs), (I1 Hs) in Em. discriminate.
    + cbn in Hstep. subst w. now apply Hf.
Qed.

(** ** One character *)
Lemma clear_pending c eof l : pending c eof l -> pending c eof (clear_again l).
Proof. destruct l. exact (fun H => H). Qed.
Lemma clear_refs r l : refs_inv r l -> refs_inv r (clear_again l).
Proof. destruct l. exact (fun H => H). Qed.

Lemma emitted_app last a b : emitted last a -> emitted false b -> emitted last (a ++ b).
Proof.
  intros [A1 A2] [B1 B2]. split; [apply Forall_app; auto|]. cbn in B2. destruct last.
  - destruct A2 as (t & r & -> & Ht & Hr). exists t, (r ++ b). split; [reflexivity|]. split; [exact Ht|].
    now rewrite forallb_app, Hr, B2.
  - now rewrite forallb_app, A2, B2.
Qed.

Lemma consume_ok fuel c eof l :
  (eof = true -> c = 3) -> pending c eof l -> (rank c eof (l_state l) < fuel)%nat ->
  match consume sink fuel c eof l with
  | Ok l' => (eof = false -> good l') /\ exists new, l_out l' = new ++ l_out l /\ emitted eof new
  | Crash w => w = StaleOffset
  end.
Proof.
  intros Hc. revert l. induction fuel as [|f IH]; intros l Hp Hr; [lia|].
  cbn [consume]. unfold seq. cbn [bind set_again]. fold (clear_again l).
  pose proof (step_all c eof (clear_again l) Hc (clear_pending _ _ _ Hp) eq_refl) as H.
  destruct (step sink c eof (clear_again l)) as [l'|w]; [|exact H].
  cbn [bind]. destruct H as [H (new & Eo & He)]. destruct (l_again l') eqn:Ea.
  - destruct H as [H1 H2]. specialize (IH l' H1). destruct (consume sink f c eof l') as [l''|w]; [|apply IH; cbn in H2; lia].
    destruct IH as [IH1 (new' & Eo' & He')]; [cbn in H2; lia|]. split; [exact IH1|].
    exists (new' ++ new). rewrite Eo', Eo. split; [apply app_assoc|]. rewrite andb_false_r in He. now apply emitted_app.
  - split; [exact H|]. exists new. split; [exact Eo|]. rewrite andb_true_r in He. exact He.
Qed.

Lemma consume_refs fuel c eof r l :
  (eof = true -> c = 3) -> pending c eof l -> refs_ok (c :: r) -> refs_inv (c :: r) l ->
  (rank c eof (l_state l) < fuel)%nat ->
  match consume sink fuel c eof l with Ok l' => refs_inv r l' | Crash w => False end.
Proof.
  intros Hc. revert l. induction fuel as [|f IH]; intros l Hp Hok Hi Hr; [lia|].
  cbn [consume]. unfold seq. cbn [bind set_again]. fold (clear_again l).
  pose proof (step_all c eof (clear_again l) Hc (clear_pending _ _ _ Hp) eq_refl) as H.
  pose proof (step_refs c eof r (clear_again l) Hc (clear_pending _ _ _ Hp) eq_refl Hok (clear_refs _ _ Hi)) as H2.
  destruct (step sink c eof (clear_again l)) as [l'|w]; [|exact H2].
  cbn [bind]. destruct H as [H _]. destruct (l_again l') eqn:Ea; [|exact H2].
  destruct H as [H0 H1]. apply IH; auto. cbn in H1. lia.
Qed.

Lemma rank_bound c eof s : (rank c eof s < max_depth)%nat.
Proof. unfold max_depth. destruct s; cbn; try (destruct (ender c eof)); lia. Qed.

(** ** Whole inputs *)
Lemma feed_ok s l :
  good l ->
  match feed sink s l with
  | Ok l' => good l' /\ exists new, l_out l' = new ++ l_out l /\ emitted false new
  | Crash w => w = StaleOffset
  end.
Proof.
  revert l; induction s as [|c s IH]; intros l Hg; cbn [feed].
  - split; [exact Hg|]. exists []. split; [reflexivity|]. split; [constructor|reflexivity].
  - pose proof (consume_ok max_depth c false l (fun e => match Bool.diff_false_true e with end) (or_introl Hg) (rank_bound _ _ _)) as H.
    destruct (consume sink max_depth c false l) as [l'|w]; [|exact H]. cbn [bind].
    destruct H as [H (new & Eo & He)]. specialize (IH l' (H eq_refl)).
    destruct (feed sink s l') as [l''|w]; [|exact IH]. destruct IH as [IH (new' & Eo' & He')].
    split; [exact IH|]. exists (new' ++ new). rewrite Eo', Eo. split; [apply app_assoc|]. now apply emitted_app.
Qed.

Lemma run_ok s l :
  good l ->
  match run sink s l with
  | Ok l' => exists new, l_out l' = new ++ l_out l /\ emitted true new
  | Crash w => w = StaleOffset
  end.
Proof.
  intros Hg. unfold run. pose proof (feed_ok s l Hg) as H. destruct (feed sink s l) as [l'|w]; [|exact H].
  cbn [bind]. destruct H as [H (new & Eo & He)]. unfold finish.
  pose proof (consume_ok max_depth 3 true l' (fun _ => eq_refl) (or_introl H) (rank_bound _ _ _)) as H'.
  destruct (consume sink max_depth 3 true l') as [l''|w]; [|exact H'].
  destruct H' as [_ (new' & Eo' & He')]. exists (new' ++ new). rewrite Eo', Eo. split; [apply app_assoc|]. now apply emitted_app.
Qed.

Lemma prefix_marker p q : ~ In 3 p -> is_prefix p (q ++ [3]) -> is_prefix p q.
Proof.
  intros Hn [r E]. destruct r as [|x r] using rev_ind.
  - rewrite app_nil_r in E. subst p. elim Hn. apply in_elt.
  - rewrite app_assoc in E. apply app_inj_tail in E as [-> _]. now exists r.
Qed.

Lemma entity_no_marker e : In e entities -> ~ In 3 (fst e).
Proof. intros Hi H. pose proof (entity_char e 3 Hi H) as E. discriminate E. Qed.

Lemma refs_marker s : refs_ok s -> refs_ok (s ++ [3]).
Proof.
  intros H p q E. destruct q as [|x q] using rev_ind.
  - apply app_inj_tail in E as [_ E]. discriminate.
  - assert (s = p ++ 38 :: q) as Es.
    { change (p ++ 38 :: q ++ [x]) with (p ++ (38 :: q) ++ [x]) in E. rewrite app_assoc in E. now apply app_inj_tail in E as [-> _]. }
    assert (x = 3) as ->.
    { change (p ++ 38 :: q ++ [x]) with (p ++ (38 :: q) ++ [x]) in E. rewrite app_assoc in E. now apply app_inj_tail in E as [_ ->]. }
    clear IHq. destruct (H p q Es) as [(e & n & Hi & He & r & Er)|Hno].
    + left. exists e, n. split; [exact Hi|]. split; [exact He|]. exists (r ++ [3]).
      change (38 :: q ++ [3]) with ((38 :: q) ++ [3]). rewrite Er. symmetry. apply app_assoc.
    + right. intros e Hi Hpre. apply (Hno e Hi). change (38 :: q ++ [3]) with ((38 :: q) ++ [3]) in Hpre.
      apply prefix_marker in Hpre; [exact Hpre|]. now apply entity_no_marker.
Qed.

Lemma refs_suffix c s : refs_ok (c :: s) -> refs_ok s.
Proof. intros H p q ->. apply (H (c :: p) q). reflexivity. Qed.

Lemma feed_refs s r l :
  good l -> refs_ok (s ++ r) -> refs_inv (s ++ r) l ->
  match feed sink s l with Ok l' => good l' /\ refs_inv r l' | Crash w => False end.
Proof.
  revert l; induction s as [|c s IH]; intros l Hg Hok Hi; cbn [feed].
  - split; assumption.
  - cbn [app] in *.
    pose proof (consume_ok max_depth c false l (fun e => match Bool.diff_false_true e with end) (or_introl Hg) (rank_bound _ _ _)) as H.
    pose proof (consume_refs max_depth c false (s ++ r) l (fun e => match Bool.diff_false_true e with end) (or_introl Hg) Hok Hi (rank_bound _ _ _)) as H'.
    destruct (consume sink max_depth c false l) as [l'|w]; [|exact H']. cbn [bind].
    destruct H as [H _]. apply IH; [exact (H eq_refl)|exact (refs_suffix _ _ Hok)|exact H'].
Qed.

Lemma run_refs s l :
  good l -> refs_ok s -> refs_inv (s ++ [3]) l -> exists l', run sink s l = Ok l'.
Proof.
  intros Hg Hok Hi. unfold run. apply refs_marker in Hok.
  pose proof (feed_refs s [3] l Hg Hok Hi) as H. destruct (feed sink s l) as [l'|w]; [|contradiction].
  destruct H as [H1 H2]. cbn [bind]. unfold finish.
  assert (refs_ok [3]) as H3.
  { intros p q E. destruct p as [|? [|? ?]]; discriminate. }
  pose proof (consume_refs max_depth 3 true [] l' (fun _ => eq_refl) (or_introl H1) H3 H2 (rank_bound _ _ _)) as H.
  destruct (consume sink max_depth 3 true l') as [l''|w]; [|contradiction]. now exists l''.
Qed.

Lemma init_good : good init.
Proof. exact I. Qed.
Lemma init_refs r : refs_inv r init.
Proof. split; [reflexivity|split; intros [=]]. Qed.
End Sink.
