(** One step of the HTML tokenizer keeps its invariant: the remaining states. *)
From Coq Require Import String List Arith Bool NArith Lia.
From Verif.Base Require Import Str.
From Verif.Html Require Import Entities LexerModel LexerInv LexerTac.
Import ListNotations.
Local Open Scope list_scope.
Local Open Scope N_scope.

Section Sink.
Variable sink : list token -> option text_mode.

Lemma emitted_chars s new : emitted false new -> emitted false (rev (map char_token s) ++ new).
Proof.
  intros [H1 H2]. split.
  - apply Forall_app; split; [|exact H1]. apply Forall_rev. apply Forall_forall. intros t Ht.
    apply in_map_iff in Ht as (c & <- & _). apply token_ok_other. intros [H|H]; discriminate.
  - cbn in *. rewrite forallb_app, H2, andb_true_r. apply forallb_forall. intros t Ht.
    apply in_rev, in_map_iff in Ht as (c & <- & _). reflexivity.
Qed.
Lemma emitted_chars0 s : emitted false (rev (map char_token s)).
Proof. rewrite <- (app_nil_r (rev _)). apply emitted_chars. split; [constructor|reflexivity]. Qed.

(** *** End tags of text elements *)
Ltac temp_out :=
  unfold emit_temp; cbn [l_temp];
  match goal with
  | |- context [emit_all sink ?s ?l] =>
      let tok := fresh "tok" in let a := fresh "a" in let o := fresh "o" in let E := fresh "E" in let Eo := fresh "Eo" in
      destruct (emit_all_eq sink s l) as (tok & a & o & E & Eo); rewrite E; clear E; cbn [l_out] in Eo; subst o
  end.
Ltac end_name f :=
  intros c eof [st re tok la ch bu te pe fo ma at_ ag out] Hc Hs Hg Ha;
  start f Hs Ha Hg Hc eof; conds; acts; conds; try fin;
  temp_out; acts; cbn [step_ok l_again l_state l_out negb andb];
  (split; [split; [left; good1|cbn [rank]; lia]|]);
  eexists (rev (map char_token te) ++ [_; _]); (split; [rewrite <- app_assoc; reflexivity|]);
  cbn [andb]; try rewrite andb_false_r; (apply emitted_chars; split; [toks|reflexivity]).

Lemma step_RCDATA_END_TAG_NAME : forall c eof l, (eof = true -> c = 3) -> l_state l = RCDATA_END_TAG_NAME -> good l -> l_again l = false ->
  step_ok c eof l (step sink c eof l).
Proof. end_name on_RCDATA_END_TAG_NAME. Qed.
Lemma step_RAWTEXT_END_TAG_NAME : forall c eof l, (eof = true -> c = 3) -> l_state l = RAWTEXT_END_TAG_NAME -> good l -> l_again l = false ->
  step_ok c eof l (step sink c eof l).
Proof. end_name on_RAWTEXT_END_TAG_NAME. Qed.
Lemma step_SCRIPT_DATA_END_TAG_NAME : forall c eof l, (eof = true -> c = 3) -> l_state l = SCRIPT_DATA_END_TAG_NAME -> good l -> l_again l = false ->
  step_ok c eof l (step sink c eof l).
Proof. end_name on_SCRIPT_DATA_END_TAG_NAME. Qed.
Lemma step_SCRIPT_DATA_ESCAPED_END_TAG_NAME : forall c eof l, (eof = true -> c = 3) -> l_state l = SCRIPT_DATA_ESCAPED_END_TAG_NAME -> good l -> l_again l = false ->
  step_ok c eof l (step sink c eof l).
Proof. end_name on_SCRIPT_DATA_ESCAPED_END_TAG_NAME. Qed.

(** *** Attributes *)
Definition upd_attr (l : lexer) (t : token) (a : attr_ref) : lexer :=
  mkLexer (l_state l) (l_return l) (Some t) (l_last l) (l_char l) [] (l_temp l) (l_peek l)
    (l_foreign l) (l_matched l) a (l_again l) (l_out l).

Lemma start_with_ci_refl s : start_with eq_ci s s = YES.
Proof. induction s; cbn; auto. unfold eq_ci at 1. now rewrite N.eqb_refl. Qed.

Lemma name_left l t A :
  l_token l = Some t -> t_attrs t = A ++ [([], [])] -> is_tag t -> NoDup (map fst A) -> l_attr l = Live ->
  exists t' a, seq commit_attr_name leave_attribute_name l = Ok (upd_attr l t' a) /\
               has_attr (Some t') a /\ t_type t' = t_type t.
Proof.
  destruct l as [st re tok la ch bu te pe fo ma at_ ag out]. cbn. intros -> HA Ht Hn ->.
  unfold seq, commit_attr_name, with_attr, seq, bind, b_clear, set_builder, set_token. cbn.
  rewrite HA, rev_app_distr. cbn [rev app]. cbn. rewrite rev_involutive.
  unfold leave_attribute_name. cbn. rewrite removelast_last, last_last. cbn [fst].
  destruct A as [|a1 A1].
  - cbn. unfold upd_attr. cbn. do 2 eexists. split; [reflexivity|]. split; [|reflexivity].
    eexists; split; [reflexivity|]. split; [exact Ht|]. cbn. split; [constructor; [intros []|constructor]|].
    right. split; [reflexivity|discriminate].
  - cbv beta iota zeta. match goal with |- context [if ?b then _ else _] => change b with (existsb (fun a => match start_with eq_ci bu (fst a) with YES => true | _ => false end) (a1 :: A1)) end.
    set (A := a1 :: A1) in *. destruct (existsb _ A) eqn:E.
    + unfold upd_attr, set_attr, set_token, bind, seq. cbn. do 2 eexists. split; [reflexivity|]. split; [|reflexivity].
      eexists; split; [reflexivity|]. split; [exact Ht|]. split; [exact Hn|]. now left.
    + unfold upd_attr. cbn. do 2 eexists. split; [reflexivity|]. split; [|reflexivity].
      eexists; split; [reflexivity|]. split; [exact Ht|]. unfold names. cbn [t_attrs]. split.
      * change (NoDup (map fst (A ++ [(bu, [])]))). rewrite map_app. change (map fst [(bu, [] : str)]) with [bu]. apply NoDup_Add with (a := bu) (l := map fst A) ; [|split; [exact Hn|]].
        { rewrite <- (app_nil_r (map fst A)) at 1. apply Add_app. }
        intros Hi. apply in_map_iff in Hi as (x & Hx & Hi).
        assert (existsb (fun a => match start_with eq_ci bu (fst a) with YES => true | _ => false end) A = true); [|congruence].
        apply existsb_exists. exists x. split; [exact Hi|]. rewrite Hx. now rewrite start_with_ci_refl.
      * right. split; [reflexivity|]. discriminate.
Qed.

Lemma value_committed l :
  has_attr (l_token l) (l_attr l) ->
  exists t t', l_token l = Some t /\ commit_attr_value l = Ok (upd_attr l t' (l_attr l)) /\
               has_attr (Some t') (l_attr l) /\ t_type t' = t_type t.
Proof.
  intros (t & Et & Ht & Hn & Ha). exists t.
  destruct l as [st re tok la ch bu te pe fo ma at_ ag out]. cbn in *. subst tok.
  unfold commit_attr_value, with_attr, seq, bind, b_clear, set_builder, set_token. cbn.
  destruct Ha as [->|[-> Ha]].
  - exists t. split; [reflexivity|]. split; [reflexivity|]. split; [|reflexivity].
    exists t. repeat split; auto.
  - destruct (rev (t_attrs t)) as [|a r] eqn:E.
    { elim Ha. rewrite <- (rev_involutive (t_attrs t)), E. reflexivity. }
    eexists. split; [reflexivity|]. split; [reflexivity|]. split; [|reflexivity].
    eexists. split; [reflexivity|]. split; [exact Ht|]. unfold names in *. cbn [t_attrs].
    assert (t_attrs t = rev r ++ [a]) as EA by (rewrite <- (rev_involutive (t_attrs t)), E; reflexivity).
    split. { rewrite EA in Hn. rewrite map_app in *. exact Hn. }
    right. split; [reflexivity|]. intros H. apply app_eq_nil in H as [_ H]. discriminate.
Qed.

Lemma seq_assoc (f g h : act) l : seq f (seq g h) l = seq (seq f g) h l.
Proof. unfold seq, bind. destruct (f l); reflexivity. Qed.

Ltac intro_state := intros c eof [st re tok la ch bu te pe fo ma at_ ag out] Hc Hs Hg Ha; cbn in Hs, Ha; subst;
  unfold good in Hg; cbn in Hg.
Ltac eof_case eof Hc :=
  destruct eof;
  [ rewrite (Hc eq_refl) in *; clear Hc;
    cbn [N.eqb Pos.eqb is_alpha is_alnum is_digit is_space is_upper is_lower is_hex N.leb N.compare Pos.compare Pos.compare_cont andb orb negb]
  | clear Hc ].

Lemma step_BEFORE_ATTRIBUTE_NAME : forall c eof l, (eof = true -> c = 3) -> l_state l = BEFORE_ATTRIBUTE_NAME -> good l -> l_again l = false ->
  step_ok c eof l (step sink c eof l).
Proof.
  intro_state. unfold step. cbn [l_state]. unfold on_BEFORE_ATTRIBUTE_NAME.
  destruct (is_space c) eqn:Esp.
  { destruct eof; [rewrite (Hc eq_refl) in Esp; discriminate|]. cbn [step_ok l_again l_out]. split; [intros _; exact Hg|news]. }
  destruct ((c =? 47) || (c =? 62) || eof) eqn:Ecl.
  - acts. cbn [step_ok l_again l_state l_out]. split.
    + split. { right. split; [reflexivity|]. split; [exact Ecl|exact Hg]. }
      cbn [rank]. unfold ender, closes. rewrite Ecl, orb_true_r. lia.
    + exists []. split; [reflexivity|]. cbn [negb]. rewrite andb_false_r. split; [constructor|reflexivity].
  - assert (eof = false) as -> by (destruct eof; [rewrite orb_true_r in Ecl; discriminate|reflexivity]).
    unpack; conds; acts; cbn [step_ok l_again l_state l_out andb];
      (split; [|news]); [intros _; good1| |intros _; good1|].
    all: split; [left; good1|]; cbn [rank]; unfold ender, closes; rewrite Esp, Ecl; cbn; lia.
Qed.

Lemma step_ATTRIBUTE_NAME : forall c eof l, (eof = true -> c = 3) -> l_state l = ATTRIBUTE_NAME -> good l -> l_again l = false ->
  step_ok c eof l (step sink c eof l).
Proof.
  intro_state. unfold step. cbn [l_state]. unfold on_ATTRIBUTE_NAME.
  destruct Hg as (t & A & -> & Ht & -> & HA & Hn).
  match goal with |- context [step_ok _ _ ?l _] => destruct (name_left l t A) as (t' & a & E & Hat & Hty); try reflexivity; try assumption end.
  destruct (is_space c || (c =? 47) || (c =? 62) || eof) eqn:Een.
  - rewrite seq_assoc. unfold seq at 1. rewrite E. unfold upd_attr. acts. cbn [step_ok l_again l_state l_out]. split.
    + split. { left. exact Hat. } cbn [rank]. unfold ender, closes. rewrite !orb_assoc, Een. lia.
    + exists []. split; [reflexivity|]. cbn [negb]. rewrite andb_false_r. split; [constructor|reflexivity].
  - assert (eof = false) as -> by (destruct eof; [rewrite orb_true_r in Een; discriminate|reflexivity]).
    destruct (c =? 61).
    + rewrite seq_assoc. unfold seq at 1. rewrite E. unfold upd_attr. acts. cbn [step_ok l_again l_state l_out]. split.
      * intros _. exact Hat.
      * exists []. split; [reflexivity|]. split; [constructor|reflexivity].
    + conds; acts; cbn [step_ok l_again l_state l_out]; (split; [intros _; exists t, A; repeat split; assumption|exists []; split; [reflexivity|]; split; [constructor|reflexivity]]).
Qed.

Lemma after_attribute_name c eof l : (eof = true -> c = 3) -> l_state l = AFTER_ATTRIBUTE_NAME -> pending c eof l -> l_again l = false ->
  step_ok c eof l (step sink c eof l).
Proof.
  destruct l as [st re tok la ch bu te pe fo ma at_ ag out]. intros Hc Hs Hg Ha. cbn in Hs, Ha. subst.
  unfold step. cbn [l_state]. unfold on_AFTER_ATTRIBUTE_NAME.
  assert (has_tag tok) as Htag.
  { destruct Hg as [Hg|(_ & _ & Hg)]; [|exact Hg]. destruct Hg as (t & Et & Ht & Hn & _). exists t. auto. }
  destruct (is_space c) eqn:Esp.
  { cbn. split; [|exists []; split; [reflexivity|]; rewrite andb_true_r; destruct eof; [rewrite (Hc eq_refl) in Esp; discriminate|split; [constructor|reflexivity]]].
    intros ->. destruct Hg as [Hg|(_ & Hcl & _)]; [exact Hg|].
    unfold closes in Hcl. rewrite orb_false_r in Hcl. unfold is_space in Esp.
    apply orb_true_iff in Hcl as [H|H]; apply N.eqb_eq in H; subst c; discriminate. }
  destruct (c =? 47) eqn:E47.
  { unpack; acts; cbn [step_ok l_again l_state l_out]; (split; [intros _; good1|]);
      (destruct eof; [rewrite (Hc eq_refl) in E47; discriminate|]); news. }
  destruct (c =? 61) eqn:E61.
  { destruct eof; [rewrite (Hc eq_refl) in E61; discriminate|].
    acts. cbn [step_ok l_again l_state l_out]. split; [|news]. intros _.
    destruct Hg as [Hg|(_ & Hcl & _)]; [exact Hg|].
    apply N.eqb_eq in E61. subst c. discriminate. }
  destruct (c =? 62) eqn:E62.
  { destruct eof; [rewrite (Hc eq_refl) in E62; discriminate|].
    clear Hg. unpack; acts; conds; fin. }
  destruct eof.
  { clear Hg. unpack; acts; conds; fin. }
  clear Hg. unpack; acts; cbn [step_ok l_again l_state l_out]; (split; [split; [left; good1|]|news]);
    cbn [rank]; unfold ender, closes; rewrite Esp, E47, E62; cbn; lia.
Qed.

Ltac value_commit l :=
  match goal with
  | H : has_attr _ _ |- _ =>
      let t := fresh "t" in let t' := fresh "t'" in let Et := fresh "Et" in let E := fresh "E" in
      let Ha := fresh "Ha" in let Hy := fresh "Hy" in
      destruct (value_committed l H) as (t & t' & Et & E & Ha & Hy); cbn in Et; subst;
      unfold seq at 1; rewrite E; clear E; unfold upd_attr; cbn [l_attr l_state l_return l_last l_char l_temp l_peek l_foreign l_matched l_again l_out] in *; clear Hy; try clear H
  end.
Ltac value_state f :=
  intros c eof [st re tok la ch bu te pe fo ma at_ ag out] Hc Hs Hg Ha; cbn in Hs, Ha; subst;
  unfold good in Hg; cbn in Hg; unfold step; cbn [l_state]; unfold f; eof_case eof Hc;
  [ unpack; acts; conds; fin
  | repeat match goal with |- context [if ?b then _ else _] => destruct b eqn:? end;
    first [ unpack; acts; conds; fin; fail
          | match goal with |- step_ok _ _ ?l _ => value_commit l end; unpack; acts; conds; fin; fail
          | idtac ] ].
Lemma step_ATTRIBUTE_VALUE_DOUBLE_QUOTED : forall c eof l, (eof = true -> c = 3) -> l_state l = ATTRIBUTE_VALUE_DOUBLE_QUOTED -> good l -> l_again l = false ->
  step_ok c eof l (step sink c eof l).
Proof. value_state on_ATTRIBUTE_VALUE_DOUBLE_QUOTED. Qed.
Lemma step_ATTRIBUTE_VALUE_SINGLE_QUOTED : forall c eof l, (eof = true -> c = 3) -> l_state l = ATTRIBUTE_VALUE_SINGLE_QUOTED -> good l -> l_again l = false ->
  step_ok c eof l (step sink c eof l).
Proof. value_state on_ATTRIBUTE_VALUE_SINGLE_QUOTED. Qed.
Lemma step_ATTRIBUTE_VALUE_UNQUOTED : forall c eof l, (eof = true -> c = 3) -> l_state l = ATTRIBUTE_VALUE_UNQUOTED -> good l -> l_again l = false ->
  step_ok c eof l (step sink c eof l).
Proof. value_state on_ATTRIBUTE_VALUE_UNQUOTED. Qed.

(** *** Markup declarations and doctypes *)
Lemma start_with_no eqb s p x : forallb (fun y => negb (eqb y x)) s = true -> start_with eqb s (p ++ [x]) = NO.
Proof.
  revert p; induction s as [|y s IH]; intros p H; cbn in H.
  - destruct p; reflexivity.
  - apply andb_true_iff in H as [H1 H2]. destruct p as [|z p]; cbn.
    + destruct (eqb y x); [discriminate|reflexivity].
    + destruct (eqb y z); auto.
Qed.

Lemma step_MARKUP_DECLARATION_OPEN : forall c eof l, (eof = true -> c = 3) -> l_state l = MARKUP_DECLARATION_OPEN -> good l -> l_again l = false ->
  step_ok c eof l (step sink c eof l).
Proof.
  intro_state. unfold step. cbn [l_state]. unfold on_MARKUP_DECLARATION_OPEN, seq at 1, p_append, set_peek, bind at 1.
  cbn [l_peek l_foreign]. destruct eof.
  - rewrite (Hc eq_refl). rewrite !start_with_no by reflexivity. acts. conds; fin.
  - destruct (start_with N.eqb _ _); [|fin|acts; conds; fin].
    destruct (start_with eq_ci _ _); [|fin|acts; conds; fin].
    destruct (start_with N.eqb _ _); acts; conds; fin.
Qed.

Lemma step_AFTER_DOCTYPE_NAME : forall c eof l, (eof = true -> c = 3) -> l_state l = AFTER_DOCTYPE_NAME -> good l -> l_again l = false ->
  step_ok c eof l (step sink c eof l).
Proof.
  intro_state. unfold step. cbn [l_state]. unfold on_AFTER_DOCTYPE_NAME, seq at 1, p_append, set_peek, bind at 1.
  cbn [l_peek]. unpack. eof_case eof Hc; [acts; conds; fin|].
  repeat match goal with |- context [if ?b then _ else _] => destruct b eqn:? end; [fin|acts; conds; fin|].
  destruct (start_with eq_ci _ _); [|fin|acts; conds; fin].
  destruct (start_with eq_ci _ _); acts; conds; fin.
Qed.

(** *** Character references *)
Lemma flush_ok c eof l : expects KRef (l_return l) (l_token l) (l_attr l) ->
  exists tok a b new,
    flush sink l = Ok (mkLexer (l_state l) (l_return l) tok (l_last l) (l_char l) b (l_temp l) (l_peek l)
                         (l_foreign l) (l_matched l) a (l_again l) (new ++ l_out l)) /\
    emitted false new /\ expects KRef (l_return l) tok a /\
    expects (kind_of (l_return l)) (l_return l) tok a /\ rank c eof (l_return l) = 0%nat.
Proof.
  destruct l as [st re tok la ch bu te pe fo ma at_ ag out]. cbn [l_return l_token l_attr]. intros H.
  unfold flush. cbn [l_temp in_attribute l_return].
  assert (emitted false []) as He by (split; [constructor|reflexivity]).
  destruct re; try contradiction; cbn [in_attribute l_return].
  all: try (unfold b_append_all, set_builder; cbn; exists tok, at_, (bu ++ te), []; cbn; split; [reflexivity|split; [exact He|split; [exact H|split; [exact H|reflexivity]]]]).
  all: temp_out; exists tok0, a, bu, (rev (map char_token te)); cbn [l_state l_return l_last l_char l_builder l_temp l_peek l_foreign l_matched l_again l_out]; (split; [reflexivity|split; [apply emitted_chars0|split; [exact I|split; [exact I|reflexivity]]]]).
Qed.

Ltac do_flush c eof :=
  match goal with
  | |- context [flush sink ?l] =>
      let tok := fresh "tok" in let a := fresh "a" in let b := fresh "b" in let new := fresh "new" in
      let E := fresh "E" in let He := fresh "He" in let H1 := fresh "H1" in let H2 := fresh "H2" in let Hr := fresh "Hr" in
      destruct (flush_ok c eof l) as (tok & a & b & new & E & He & H1 & H2 & Hr); [assumption|];
      rewrite E; clear E; cbn [l_return l_state l_out l_last l_char l_temp l_peek l_foreign l_matched l_again] in *
  end.

(** A flush, then back to the return state. *)
Lemma flush_back c eof l l0 :
  expects KRef (l_return l) (l_token l) (l_attr l) -> l_again l = false ->
  (0 < rank c eof (l_state l0))%nat -> (exists new, l_out l = new ++ l_out l0 /\ emitted false new) ->
  step_ok c eof l0 (seq (flush sink) reconsume_ret l).
Proof.
  destruct l as [st re tok la ch bu te pe fo ma at_ ag out]. cbn [l_return l_token l_attr l_again l_out].
  intros H Ha Hr (new0 & Eo & He0). unfold seq at 1. do_flush c eof. acts. cbn [step_ok l_again l_state l_out].
  split.
  - split; [left; exact H2|]. first [rewrite Hr0; exact Hr | rewrite Hr1; exact Hr | lia].
  - exists (new ++ new0). rewrite Eo, app_assoc. split; [reflexivity|]. cbn [negb]. rewrite andb_false_r.
    destruct He as [A1 A2], He0 as [B1 B2]. split; [apply Forall_app; auto|]. cbn in *. rewrite forallb_app, A2. exact B2.
Qed.
Lemma flush_switch c l l0 :
  expects KRef (l_return l) (l_token l) (l_attr l) -> l_again l = false -> l_out l = l_out l0 ->
  step_ok c false l0 (seq (flush sink) switch_ret l).
Proof.
  destruct l as [st re tok la ch bu te pe fo ma at_ ag out]. cbn [l_return l_token l_attr l_again l_out].
  intros H Ha Eo. unfold seq at 1. do_flush c false. acts. cbn [step_ok l_again l_state l_out]. rewrite Ha.
  split.
  - intros _. exact H2.
  - exists new. rewrite Eo. split; [reflexivity|]. exact He.
Qed.

Lemma none_emitted : emitted false [].
Proof. split; [constructor|reflexivity]. Qed.

Lemma step_CHARACTER_REFERENCE : forall c eof l, (eof = true -> c = 3) -> l_state l = CHARACTER_REFERENCE -> good l -> l_again l = false ->
  step_ok c eof l (step sink c eof l).
Proof.
  intro_state. unfold step. cbn [l_state]. unfold on_CHARACTER_REFERENCE. unfold seq at 1 2. unfold t_clear, t_append, set_temp, bind. cbn [l_temp app].
  destruct (is_alnum c) eqn:E1; [|destruct (c =? 35) eqn:E2].
  - acts. cbn [step_ok l_again l_state l_out]. split; [split; [left; exact Hg|cbn [rank]; lia]|].
    exists []. split; [reflexivity|]. rewrite andb_false_r. apply none_emitted.
  - destruct eof; [rewrite (Hc eq_refl) in E2; discriminate|]. acts. cbn [step_ok l_again l_state l_out]. split; [intros _; exact Hg|].
    exists []. split; [reflexivity|]. apply none_emitted.
  - apply flush_back; [exact Hg|reflexivity|cbn; lia|]. exists []. split; [reflexivity|apply none_emitted].
Qed.

Lemma step_NUMERIC_CHARACTER_REFERENCE : forall c eof l, (eof = true -> c = 3) -> l_state l = NUMERIC_CHARACTER_REFERENCE -> good l -> l_again l = false ->
  step_ok c eof l (step sink c eof l).
Proof.
  intro_state. unfold step. cbn [l_state]. unfold on_NUMERIC_CHARACTER_REFERENCE. eof_case eof Hc.
  all: conds; acts; conds; cbn [step_ok l_again l_state l_out]; (split; [first [intros _; exact Hg | split; [left; exact Hg|cbn [rank]; lia]]|exists []; split; [reflexivity|apply none_emitted]]).
Qed.
Lemma step_HEXADECIMAL_CHARACTER_REFERENCE : forall c eof l, (eof = true -> c = 3) -> l_state l = HEXADECIMAL_CHARACTER_REFERENCE -> good l -> l_again l = false ->
  step_ok c eof l (step sink c eof l).
Proof.
  intro_state. unfold step. cbn [l_state]. unfold on_HEXADECIMAL_CHARACTER_REFERENCE. eof_case eof Hc.
  all: conds; acts; conds; cbn [step_ok l_again l_state l_out]; (split; [first [intros _; exact Hg | split; [left; exact Hg|cbn [rank]; lia]]|exists []; split; [reflexivity|apply none_emitted]]).
Qed.
Lemma step_DECIMAL_CHARACTER_REFERENCE : forall c eof l, (eof = true -> c = 3) -> l_state l = DECIMAL_CHARACTER_REFERENCE -> good l -> l_again l = false ->
  step_ok c eof l (step sink c eof l).
Proof.
  intro_state. unfold step. cbn [l_state]. unfold on_DECIMAL_CHARACTER_REFERENCE. eof_case eof Hc.
  all: conds; acts; conds; cbn [step_ok l_again l_state l_out]; (split; [first [intros _; exact Hg | split; [left; exact Hg|cbn [rank]; lia]]|exists []; split; [reflexivity|apply none_emitted]]).
Qed.
Ltac ref_start :=
  first [ apply flush_back; [assumption|reflexivity|cbn; lia|exists []; split; [reflexivity|apply none_emitted]]
        | acts; cbn [step_ok l_again l_state l_out]; (split; [split; [left; assumption|cbn [rank]; lia]|exists []; split; [reflexivity|apply none_emitted]]) ].
Lemma step_HEXADECIMAL_CHARACTER_REFERENCE_START : forall c eof l, (eof = true -> c = 3) -> l_state l = HEXADECIMAL_CHARACTER_REFERENCE_START -> good l -> l_again l = false ->
  step_ok c eof l (step sink c eof l).
Proof.
  intro_state. unfold step. cbn [l_state]. unfold on_HEXADECIMAL_CHARACTER_REFERENCE_START. eof_case eof Hc; conds; ref_start.
Qed.
Lemma step_DECIMAL_CHARACTER_REFERENCE_START : forall c eof l, (eof = true -> c = 3) -> l_state l = DECIMAL_CHARACTER_REFERENCE_START -> good l -> l_again l = false ->
  step_ok c eof l (step sink c eof l).
Proof.
  intro_state. unfold step. cbn [l_state]. unfold on_DECIMAL_CHARACTER_REFERENCE_START. eof_case eof Hc; conds; ref_start.
Qed.
Lemma step_NUMERIC_CHARACTER_REFERENCE_END : forall c eof l, (eof = true -> c = 3) -> l_state l = NUMERIC_CHARACTER_REFERENCE_END -> good l -> l_again l = false ->
  step_ok c eof l (step sink c eof l).
Proof.
  intro_state. unfold step. cbn [l_state]. unfold on_NUMERIC_CHARACTER_REFERENCE_END. unfold seq at 1 2 3. unfold set_char, t_clear, t_append, set_temp, bind. cbn [l_temp l_char app].
  apply flush_back; [assumption|reflexivity|cbn; lia|exists []; split; [reflexivity|apply none_emitted]].
Qed.
Lemma step_AMBIGUOUS_AMPERSAND : forall c eof l, (eof = true -> c = 3) -> l_state l = AMBIGUOUS_AMPERSAND -> good l -> l_again l = false ->
  step_ok c eof l (step sink c eof l).
Proof.
  intro_state. unfold step. cbn [l_state]. unfold on_AMBIGUOUS_AMPERSAND.
  cbn in Hg. destruct re; try contradiction; unpack; eof_case eof Hc; conds; acts; conds; fin.
Qed.

Lemma entity_chars : forallb (fun e => forallb (fun c => is_alnum c || (c =? 38) || (c =? 59)) (fst e)) entities = true.
Proof. vm_compute. reflexivity. Qed.
Lemma entity_char e c : In e entities -> In c (fst e) -> is_alnum c || (c =? 38) || (c =? 59) = true.
Proof.
  intros H1 H2. pose proof entity_chars as H. rewrite forallb_forall in H. specialize (H e H1). cbv beta in H.
  rewrite forallb_forall in H. exact (H c H2).
Qed.
Lemma bad_char t c : is_alnum c || (c =? 38) || (c =? 59) = false -> has_partial (t ++ [c]) = false /\ is_entity (t ++ [c]) = false.
Proof.
  intros Hc. split.
  - destruct (has_partial _) eqn:E; [|reflexivity]. apply has_partial_spec in E as (e & x & q & Hi & E).
    rewrite (entity_char e c Hi) in Hc; [discriminate|]. rewrite E, <- app_assoc. apply in_elt.
  - destruct (is_entity _) eqn:E; [|reflexivity]. apply is_entity_spec in E as (e & Hi & E).
    rewrite (entity_char e c Hi) in Hc; [discriminate|]. rewrite E. apply in_elt.
Qed.

Lemma step_NAMED_CHARACTER_REFERENCE : forall c eof l, (eof = true -> c = 3) -> l_state l = NAMED_CHARACTER_REFERENCE -> good l -> l_again l = false ->
  step_ok c eof l (step sink c eof l).
Proof.
  intro_state. unfold step. cbn [l_state]. unfold on_NAMED_CHARACTER_REFERENCE. cbn [l_temp l_matched].
  assert (exists new, out = new ++ out /\ emitted false new) as Hnil by (exists []; split; [reflexivity|apply none_emitted]).
  destruct (has_partial (te ++ [c])) eqn:Ep.
  { destruct eof. { rewrite (Hc eq_refl) in Ep. rewrite (proj1 (bad_char te 3 eq_refl)) in Ep. discriminate. }
    destruct (is_entity (te ++ [c])); acts; cbn [step_ok l_again l_state l_out]; (split; [intros _; exact Hg|exact Hnil]). }
  destruct (is_entity (te ++ [c])) eqn:Ee.
  { pose proof (full_match_semicolon _ _ Ep Ee) as ->. cbn [N.eqb Pos.eqb negb].
    destruct eof; [discriminate (Hc eq_refl)|].
    unfold seq at 1 2 3. unfold t_append, set_temp, t_expand, bind. cbn [l_temp l_matched].
    destruct (expansion _); unfold set_temp, set_matched; apply flush_switch; first [exact Hg|reflexivity]. }
  destruct ma as [m|].
  2: { unfold seq at 1. do_flush c eof. acts. cbn [step_ok l_again l_state l_out]. split.
       - split; [left; assumption|cbn [rank]; lia].
       - exists new. split; [reflexivity|]. cbn [negb]. rewrite andb_false_r. exact He. }
  match goal with |- context [if ?b then _ else _] => destruct b eqn:E1 end.
  { apply andb_true_iff in E1 as [E1 _]. apply N.eqb_eq in E1. subst c. destruct eof; [discriminate (Hc eq_refl)|].
    unfold seq at 1 2. unfold t_append, set_temp, set_matched, bind. apply flush_switch; first [exact Hg|reflexivity]. }
  match goal with |- context [if ?b then _ else _] => destruct b eqn:E2 end.
  { apply flush_back; [exact Hg|reflexivity|cbn; lia|exact Hnil]. }
  match goal with |- context [if ?b then _ else _] => destruct b eqn:E3 end; [reflexivity|].
  unfold seq at 1 2. unfold t_expand, bind. cbn [l_temp].
  destruct (expansion _); unfold set_temp, set_matched; (apply flush_back; [exact Hg|reflexivity|cbn; lia|exact Hnil]).
Qed.

End Sink.
