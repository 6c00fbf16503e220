(** What a step of the HTML tokenizer leaves alone: the pending character reference. *)
From Coq Require Import String List Arith Bool NArith Lia.
From Verif.Base Require Import Str.
From Verif.Html Require Import Entities LexerModel LexerInv LexerTac.
Import ListNotations.
Local Open Scope list_scope.
Local Open Scope N_scope.

Section Sink.
Variable sink : list token -> option text_mode.

Definition frame (c : N) (l l' : lexer) : Prop :=
  (l_state l <> NAMED_CHARACTER_REFERENCE -> l_matched l' = l_matched l) /\
  (l_state l' = NAMED_CHARACTER_REFERENCE -> l_state l <> NAMED_CHARACTER_REFERENCE ->
   l_state l = CHARACTER_REFERENCE /\ l_temp l' = [38] /\ l_again l' = true) /\
  (l_state l' = CHARACTER_REFERENCE -> c = 38 /\ l_again l' = false).
Definition frame_ok (c : N) (l : lexer) (r : res lexer) : Prop :=
  match r with Crash w => w <> StaleOffset | Ok l' => frame c l l' end.

(** The states a character reference can return to. *)
Definition returnable (s : state) : Prop :=
  match s with
  | DATA | RCDATA | ATTRIBUTE_VALUE_DOUBLE_QUOTED | ATTRIBUTE_VALUE_SINGLE_QUOTED | ATTRIBUTE_VALUE_UNQUOTED => True
  | _ => False
  end.

Lemma flush_frame l :
  exists tok a b new,
    flush sink l = Ok (mkLexer (l_state l) (l_return l) tok (l_last l) (l_char l) b (l_temp l) (l_peek l)
                         (l_foreign l) (l_matched l) a (l_again l) (new ++ l_out l)).
Proof.
  unfold flush. destruct (in_attribute l).
  - exists (l_token l), (l_attr l), (l_builder l ++ l_temp l), []. destruct l; reflexivity.
  - destruct (emit_all_eq sink (l_temp l) l) as (tok & a & o & E & ->). rewrite E.
    exists tok, a, (l_builder l), (rev (map char_token (l_temp l))). reflexivity.
Qed.

Ltac frame1 :=
  repeat match goal with m : text_mode |- _ => destruct m end;
  cbn [frame_ok mode_state];
  first [ discriminate
        | split; [intros _; reflexivity|split; [intros [=]; fail|first [intros [=]; fail | intros _; split; [apply N.eqb_eq; assumption|reflexivity]]]]
        | split; [intros _; reflexivity|split; [intros _ _; split; [reflexivity|split; reflexivity]|intros [=]; fail]] ].
Ltac opened :=
  cbv beta iota zeta delta [commit_attr_name commit_attr_value with_attr leave_attribute_name] in *; acts.
Ltac branch :=
  repeat match goal with
         | |- context [match ?x with _ => _ end] =>
             match x with context [match _ with _ => _ end] => fail 1 | _ => idtac end;
             first [ is_var x; destruct x | destruct x eqn:? ]; acts
         end.
Ltac frame_state f :=
  intros c eof [st re tok la ch bu te pe fo ma at_ ag out] Hs Ha Hr; cbn in Hs, Ha; subst;
  unfold step; cbn [l_state]; unfold f; conds; opened; branch; conds; acts; branch; try frame1.
Ltac do_flush :=
  match goal with
  | |- context [flush sink ?l] =>
      let tok := fresh "tok" in let a := fresh "a" in let b := fresh "b" in let new := fresh "new" in let E := fresh "E" in
      destruct (flush_frame l) as (tok & a & b & new & E); rewrite E; clear E;
      cbn [l_return l_state l_out l_last l_char l_temp l_peek l_foreign l_matched l_again] in *
  end.
Ltac frame_ref f :=
  intros c eof [st re tok la ch bu te pe fo ma at_ ag out] Hs Ha Hr; cbn in Hs, Ha, Hr; subst;
  unfold step; cbn [l_state]; unfold f; conds; acts;
  first [ frame1; fail | do_flush; acts; destruct re; try (elim (Hr eq_refl); fail); frame1; fail
        | conds; frame1; fail | destruct re; try (elim (Hr eq_refl); fail); acts; frame1; fail | idtac ].
Ltac frame_end f :=
  intros c eof [st re tok la ch bu te pe fo ma at_ ag out] Hs Ha Hr; cbn in Hs, Ha; subst;
  unfold step; cbn [l_state]; unfold f; conds; acts; conds; unfold emit_temp; cbn [l_temp];
  try match goal with
  | |- context [emit_all sink ?s ?l] =>
      let tok := fresh "tok" in let a := fresh "a" in let o := fresh "o" in let E := fresh "E" in let Eo := fresh "Eo" in
      destruct (emit_all_eq sink s l) as (tok & a & o & E & Eo); rewrite E; clear E; acts
  end; branch; try frame1.

Lemma frame_DATA : forall c eof l, l_state l = DATA -> l_again l = false -> (kind_of (l_state l) = KRef -> returnable (l_return l)) ->
  frame_ok c l (step sink c eof l).
Proof. frame_state on_DATA. Qed.
Lemma frame_RCDATA : forall c eof l, l_state l = RCDATA -> l_again l = false -> (kind_of (l_state l) = KRef -> returnable (l_return l)) ->
  frame_ok c l (step sink c eof l).
Proof. frame_state on_RCDATA. Qed.
Lemma frame_RAWTEXT : forall c eof l, l_state l = RAWTEXT -> l_again l = false -> (kind_of (l_state l) = KRef -> returnable (l_return l)) ->
  frame_ok c l (step sink c eof l).
Proof. frame_state on_RAWTEXT. Qed.
Lemma frame_SCRIPT_DATA : forall c eof l, l_state l = SCRIPT_DATA -> l_again l = false -> (kind_of (l_state l) = KRef -> returnable (l_return l)) ->
  frame_ok c l (step sink c eof l).
Proof. frame_state on_SCRIPT_DATA. Qed.
Lemma frame_PLAINTEXT : forall c eof l, l_state l = PLAINTEXT -> l_again l = false -> (kind_of (l_state l) = KRef -> returnable (l_return l)) ->
  frame_ok c l (step sink c eof l).
Proof. frame_state on_PLAINTEXT. Qed.
Lemma frame_TAG_OPEN : forall c eof l, l_state l = TAG_OPEN -> l_again l = false -> (kind_of (l_state l) = KRef -> returnable (l_return l)) ->
  frame_ok c l (step sink c eof l).
Proof. frame_state on_TAG_OPEN. Qed.
Lemma frame_END_TAG_OPEN : forall c eof l, l_state l = END_TAG_OPEN -> l_again l = false -> (kind_of (l_state l) = KRef -> returnable (l_return l)) ->
  frame_ok c l (step sink c eof l).
Proof. frame_state on_END_TAG_OPEN. Qed.
Lemma frame_TAG_NAME : forall c eof l, l_state l = TAG_NAME -> l_again l = false -> (kind_of (l_state l) = KRef -> returnable (l_return l)) ->
  frame_ok c l (step sink c eof l).
Proof. frame_state on_TAG_NAME. Qed.
Lemma frame_RCDATA_LESS_THAN_SIGN : forall c eof l, l_state l = RCDATA_LESS_THAN_SIGN -> l_again l = false -> (kind_of (l_state l) = KRef -> returnable (l_return l)) ->
  frame_ok c l (step sink c eof l).
Proof. frame_state on_RCDATA_LESS_THAN_SIGN. Qed.
Lemma frame_RCDATA_END_TAG_OPEN : forall c eof l, l_state l = RCDATA_END_TAG_OPEN -> l_again l = false -> (kind_of (l_state l) = KRef -> returnable (l_return l)) ->
  frame_ok c l (step sink c eof l).
Proof. frame_state on_RCDATA_END_TAG_OPEN. Qed.
Lemma frame_RCDATA_END_TAG_NAME : forall c eof l, l_state l = RCDATA_END_TAG_NAME -> l_again l = false -> (kind_of (l_state l) = KRef -> returnable (l_return l)) ->
  frame_ok c l (step sink c eof l).
Proof. frame_end on_RCDATA_END_TAG_NAME. Qed.
Lemma frame_RAWTEXT_LESS_THAN_SIGN : forall c eof l, l_state l = RAWTEXT_LESS_THAN_SIGN -> l_again l = false -> (kind_of (l_state l) = KRef -> returnable (l_return l)) ->
  frame_ok c l (step sink c eof l).
Proof. frame_state on_RAWTEXT_LESS_THAN_SIGN. Qed.
Lemma frame_RAWTEXT_END_TAG_OPEN : forall c eof l, l_state l = RAWTEXT_END_TAG_OPEN -> l_again l = false -> (kind_of (l_state l) = KRef -> returnable (l_return l)) ->
  frame_ok c l (step sink c eof l).
Proof. frame_state on_RAWTEXT_END_TAG_OPEN. Qed.
Lemma frame_RAWTEXT_END_TAG_NAME : forall c eof l, l_state l = RAWTEXT_END_TAG_NAME -> l_again l = false -> (kind_of (l_state l) = KRef -> returnable (l_return l)) ->
  frame_ok c l (step sink c eof l).
Proof. frame_end on_RAWTEXT_END_TAG_NAME. Qed.
Lemma frame_SCRIPT_DATA_LESS_THAN_SIGN : forall c eof l, l_state l = SCRIPT_DATA_LESS_THAN_SIGN -> l_again l = false -> (kind_of (l_state l) = KRef -> returnable (l_return l)) ->
  frame_ok c l (step sink c eof l).
Proof. frame_state on_SCRIPT_DATA_LESS_THAN_SIGN. Qed.
Lemma frame_SCRIPT_DATA_END_TAG_OPEN : forall c eof l, l_state l = SCRIPT_DATA_END_TAG_OPEN -> l_again l = false -> (kind_of (l_state l) = KRef -> returnable (l_return l)) ->
  frame_ok c l (step sink c eof l).
Proof. frame_state on_SCRIPT_DATA_END_TAG_OPEN. Qed.
Lemma frame_SCRIPT_DATA_END_TAG_NAME : forall c eof l, l_state l = SCRIPT_DATA_END_TAG_NAME -> l_again l = false -> (kind_of (l_state l) = KRef -> returnable (l_return l)) ->
  frame_ok c l (step sink c eof l).
Proof. frame_end on_SCRIPT_DATA_END_TAG_NAME. Qed.
Lemma frame_SCRIPT_DATA_ESCAPE_START : forall c eof l, l_state l = SCRIPT_DATA_ESCAPE_START -> l_again l = false -> (kind_of (l_state l) = KRef -> returnable (l_return l)) ->
  frame_ok c l (step sink c eof l).
Proof. frame_state on_SCRIPT_DATA_ESCAPE_START. Qed.
Lemma frame_SCRIPT_DATA_ESCAPE_START_DASH : forall c eof l, l_state l = SCRIPT_DATA_ESCAPE_START_DASH -> l_again l = false -> (kind_of (l_state l) = KRef -> returnable (l_return l)) ->
  frame_ok c l (step sink c eof l).
Proof. frame_state on_SCRIPT_DATA_ESCAPE_START_DASH. Qed.
Lemma frame_SCRIPT_DATA_ESCAPED : forall c eof l, l_state l = SCRIPT_DATA_ESCAPED -> l_again l = false -> (kind_of (l_state l) = KRef -> returnable (l_return l)) ->
  frame_ok c l (step sink c eof l).
Proof. frame_state on_SCRIPT_DATA_ESCAPED. Qed.
Lemma frame_SCRIPT_DATA_ESCAPED_DASH : forall c eof l, l_state l = SCRIPT_DATA_ESCAPED_DASH -> l_again l = false -> (kind_of (l_state l) = KRef -> returnable (l_return l)) ->
  frame_ok c l (step sink c eof l).
Proof. frame_state on_SCRIPT_DATA_ESCAPED_DASH. Qed.
Lemma frame_SCRIPT_DATA_ESCAPED_DASH_DASH : forall c eof l, l_state l = SCRIPT_DATA_ESCAPED_DASH_DASH -> l_again l = false -> (kind_of (l_state l) = KRef -> returnable (l_return l)) ->
  frame_ok c l (step sink c eof l).
Proof. frame_state on_SCRIPT_DATA_ESCAPED_DASH_DASH. Qed.
Lemma frame_SCRIPT_DATA_ESCAPED_LESS_THAN_SIGN : forall c eof l, l_state l = SCRIPT_DATA_ESCAPED_LESS_THAN_SIGN -> l_again l = false -> (kind_of (l_state l) = KRef -> returnable (l_return l)) ->
  frame_ok c l (step sink c eof l).
Proof. frame_state on_SCRIPT_DATA_ESCAPED_LESS_THAN_SIGN. Qed.
Lemma frame_SCRIPT_DATA_ESCAPED_END_TAG_OPEN : forall c eof l, l_state l = SCRIPT_DATA_ESCAPED_END_TAG_OPEN -> l_again l = false -> (kind_of (l_state l) = KRef -> returnable (l_return l)) ->
  frame_ok c l (step sink c eof l).
Proof. frame_state on_SCRIPT_DATA_ESCAPED_END_TAG_OPEN. Qed.
Lemma frame_SCRIPT_DATA_ESCAPED_END_TAG_NAME : forall c eof l, l_state l = SCRIPT_DATA_ESCAPED_END_TAG_NAME -> l_again l = false -> (kind_of (l_state l) = KRef -> returnable (l_return l)) ->
  frame_ok c l (step sink c eof l).
Proof. frame_end on_SCRIPT_DATA_ESCAPED_END_TAG_NAME. Qed.
Lemma frame_SCRIPT_DATA_DOUBLE_ESCAPE_START : forall c eof l, l_state l = SCRIPT_DATA_DOUBLE_ESCAPE_START -> l_again l = false -> (kind_of (l_state l) = KRef -> returnable (l_return l)) ->
  frame_ok c l (step sink c eof l).
Proof. frame_state on_SCRIPT_DATA_DOUBLE_ESCAPE_START. Qed.
Lemma frame_SCRIPT_DATA_DOUBLE_ESCAPED : forall c eof l, l_state l = SCRIPT_DATA_DOUBLE_ESCAPED -> l_again l = false -> (kind_of (l_state l) = KRef -> returnable (l_return l)) ->
  frame_ok c l (step sink c eof l).
Proof. frame_state on_SCRIPT_DATA_DOUBLE_ESCAPED. Qed.
Lemma frame_SCRIPT_DATA_DOUBLE_ESCAPED_DASH : forall c eof l, l_state l = SCRIPT_DATA_DOUBLE_ESCAPED_DASH -> l_again l = false -> (kind_of (l_state l) = KRef -> returnable (l_return l)) ->
  frame_ok c l (step sink c eof l).
Proof. frame_state on_SCRIPT_DATA_DOUBLE_ESCAPED_DASH. Qed.
Lemma frame_SCRIPT_DATA_DOUBLE_ESCAPED_DASH_DASH : forall c eof l, l_state l = SCRIPT_DATA_DOUBLE_ESCAPED_DASH_DASH -> l_again l = false -> (kind_of (l_state l) = KRef -> returnable (l_return l)) ->
  frame_ok c l (step sink c eof l).
Proof. frame_state on_SCRIPT_DATA_DOUBLE_ESCAPED_DASH_DASH. Qed.
Lemma frame_SCRIPT_DATA_DOUBLE_ESCAPED_LESS_THAN_SIGN : forall c eof l, l_state l = SCRIPT_DATA_DOUBLE_ESCAPED_LESS_THAN_SIGN -> l_again l = false -> (kind_of (l_state l) = KRef -> returnable (l_return l)) ->
  frame_ok c l (step sink c eof l).
Proof. frame_state on_SCRIPT_DATA_DOUBLE_ESCAPED_LESS_THAN_SIGN. Qed.
Lemma frame_SCRIPT_DATA_DOUBLE_ESCAPE_END : forall c eof l, l_state l = SCRIPT_DATA_DOUBLE_ESCAPE_END -> l_again l = false -> (kind_of (l_state l) = KRef -> returnable (l_return l)) ->
  frame_ok c l (step sink c eof l).
Proof. frame_state on_SCRIPT_DATA_DOUBLE_ESCAPE_END. Qed.
Lemma frame_BEFORE_ATTRIBUTE_NAME : forall c eof l, l_state l = BEFORE_ATTRIBUTE_NAME -> l_again l = false -> (kind_of (l_state l) = KRef -> returnable (l_return l)) ->
  frame_ok c l (step sink c eof l).
Proof. frame_state on_BEFORE_ATTRIBUTE_NAME. Qed.
Lemma frame_ATTRIBUTE_NAME : forall c eof l, l_state l = ATTRIBUTE_NAME -> l_again l = false -> (kind_of (l_state l) = KRef -> returnable (l_return l)) ->
  frame_ok c l (step sink c eof l).
Proof. frame_state on_ATTRIBUTE_NAME. Qed.
Lemma frame_AFTER_ATTRIBUTE_NAME : forall c eof l, l_state l = AFTER_ATTRIBUTE_NAME -> l_again l = false -> (kind_of (l_state l) = KRef -> returnable (l_return l)) ->
  frame_ok c l (step sink c eof l).
Proof. frame_state on_AFTER_ATTRIBUTE_NAME. Qed.
Lemma frame_BEFORE_ATTRIBUTE_VALUE : forall c eof l, l_state l = BEFORE_ATTRIBUTE_VALUE -> l_again l = false -> (kind_of (l_state l) = KRef -> returnable (l_return l)) ->
  frame_ok c l (step sink c eof l).
Proof. frame_state on_BEFORE_ATTRIBUTE_VALUE. Qed.
Lemma frame_ATTRIBUTE_VALUE_DOUBLE_QUOTED : forall c eof l, l_state l = ATTRIBUTE_VALUE_DOUBLE_QUOTED -> l_again l = false -> (kind_of (l_state l) = KRef -> returnable (l_return l)) ->
  frame_ok c l (step sink c eof l).
Proof. frame_state on_ATTRIBUTE_VALUE_DOUBLE_QUOTED. Qed.
Lemma frame_ATTRIBUTE_VALUE_SINGLE_QUOTED : forall c eof l, l_state l = ATTRIBUTE_VALUE_SINGLE_QUOTED -> l_again l = false -> (kind_of (l_state l) = KRef -> returnable (l_return l)) ->
  frame_ok c l (step sink c eof l).
Proof. frame_state on_ATTRIBUTE_VALUE_SINGLE_QUOTED. Qed.
Lemma frame_ATTRIBUTE_VALUE_UNQUOTED : forall c eof l, l_state l = ATTRIBUTE_VALUE_UNQUOTED -> l_again l = false -> (kind_of (l_state l) = KRef -> returnable (l_return l)) ->
  frame_ok c l (step sink c eof l).
Proof. frame_state on_ATTRIBUTE_VALUE_UNQUOTED. Qed.
Lemma frame_AFTER_ATTRIBUTE_VALUE_QUOTED : forall c eof l, l_state l = AFTER_ATTRIBUTE_VALUE_QUOTED -> l_again l = false -> (kind_of (l_state l) = KRef -> returnable (l_return l)) ->
  frame_ok c l (step sink c eof l).
Proof. frame_state on_AFTER_ATTRIBUTE_VALUE_QUOTED. Qed.
Lemma frame_SELF_CLOSING_START_TAG : forall c eof l, l_state l = SELF_CLOSING_START_TAG -> l_again l = false -> (kind_of (l_state l) = KRef -> returnable (l_return l)) ->
  frame_ok c l (step sink c eof l).
Proof. frame_state on_SELF_CLOSING_START_TAG. Qed.
Lemma frame_BOGUS_COMMENT : forall c eof l, l_state l = BOGUS_COMMENT -> l_again l = false -> (kind_of (l_state l) = KRef -> returnable (l_return l)) ->
  frame_ok c l (step sink c eof l).
Proof. frame_state on_BOGUS_COMMENT. Qed.
Lemma frame_MARKUP_DECLARATION_OPEN : forall c eof l, l_state l = MARKUP_DECLARATION_OPEN -> l_again l = false -> (kind_of (l_state l) = KRef -> returnable (l_return l)) ->
  frame_ok c l (step sink c eof l).
Proof. frame_state on_MARKUP_DECLARATION_OPEN. Qed.
Lemma frame_COMMENT_START : forall c eof l, l_state l = COMMENT_START -> l_again l = false -> (kind_of (l_state l) = KRef -> returnable (l_return l)) ->
  frame_ok c l (step sink c eof l).
Proof. frame_state on_COMMENT_START. Qed.
Lemma frame_COMMENT_START_DASH : forall c eof l, l_state l = COMMENT_START_DASH -> l_again l = false -> (kind_of (l_state l) = KRef -> returnable (l_return l)) ->
  frame_ok c l (step sink c eof l).
Proof. frame_state on_COMMENT_START_DASH. Qed.
Lemma frame_COMMENT : forall c eof l, l_state l = COMMENT -> l_again l = false -> (kind_of (l_state l) = KRef -> returnable (l_return l)) ->
  frame_ok c l (step sink c eof l).
Proof. frame_state on_COMMENT. Qed.
Lemma frame_COMMENT_LESS_THAN_SIGN : forall c eof l, l_state l = COMMENT_LESS_THAN_SIGN -> l_again l = false -> (kind_of (l_state l) = KRef -> returnable (l_return l)) ->
  frame_ok c l (step sink c eof l).
Proof. frame_state on_COMMENT_LESS_THAN_SIGN. Qed.
Lemma frame_COMMENT_LESS_THAN_SIGN_BANG : forall c eof l, l_state l = COMMENT_LESS_THAN_SIGN_BANG -> l_again l = false -> (kind_of (l_state l) = KRef -> returnable (l_return l)) ->
  frame_ok c l (step sink c eof l).
Proof. frame_state on_COMMENT_LESS_THAN_SIGN_BANG. Qed.
Lemma frame_COMMENT_LESS_THAN_SIGN_BANG_DASH : forall c eof l, l_state l = COMMENT_LESS_THAN_SIGN_BANG_DASH -> l_again l = false -> (kind_of (l_state l) = KRef -> returnable (l_return l)) ->
  frame_ok c l (step sink c eof l).
Proof. frame_state on_COMMENT_LESS_THAN_SIGN_BANG_DASH. Qed.
Lemma frame_COMMENT_LESS_THAN_SIGN_BANG_DASH_DASH : forall c eof l, l_state l = COMMENT_LESS_THAN_SIGN_BANG_DASH_DASH -> l_again l = false -> (kind_of (l_state l) = KRef -> returnable (l_return l)) ->
  frame_ok c l (step sink c eof l).
Proof. frame_state on_COMMENT_LESS_THAN_SIGN_BANG_DASH_DASH. Qed.
Lemma frame_COMMENT_END_DASH : forall c eof l, l_state l = COMMENT_END_DASH -> l_again l = false -> (kind_of (l_state l) = KRef -> returnable (l_return l)) ->
  frame_ok c l (step sink c eof l).
Proof. frame_state on_COMMENT_END_DASH. Qed.
Lemma frame_COMMENT_END : forall c eof l, l_state l = COMMENT_END -> l_again l = false -> (kind_of (l_state l) = KRef -> returnable (l_return l)) ->
  frame_ok c l (step sink c eof l).
Proof. frame_state on_COMMENT_END. Qed.
Lemma frame_COMMENT_END_BANG : forall c eof l, l_state l = COMMENT_END_BANG -> l_again l = false -> (kind_of (l_state l) = KRef -> returnable (l_return l)) ->
  frame_ok c l (step sink c eof l).
Proof. frame_state on_COMMENT_END_BANG. Qed.
Lemma frame_DOCTYPE : forall c eof l, l_state l = DOCTYPE -> l_again l = false -> (kind_of (l_state l) = KRef -> returnable (l_return l)) ->
  frame_ok c l (step sink c eof l).
Proof. frame_state on_DOCTYPE. Qed.
Lemma frame_BEFORE_DOCTYPE_NAME : forall c eof l, l_state l = BEFORE_DOCTYPE_NAME -> l_again l = false -> (kind_of (l_state l) = KRef -> returnable (l_return l)) ->
  frame_ok c l (step sink c eof l).
Proof. frame_state on_BEFORE_DOCTYPE_NAME. Qed.
Lemma frame_DOCTYPE_NAME : forall c eof l, l_state l = DOCTYPE_NAME -> l_again l = false -> (kind_of (l_state l) = KRef -> returnable (l_return l)) ->
  frame_ok c l (step sink c eof l).
Proof. frame_state on_DOCTYPE_NAME. Qed.
Lemma frame_AFTER_DOCTYPE_NAME : forall c eof l, l_state l = AFTER_DOCTYPE_NAME -> l_again l = false -> (kind_of (l_state l) = KRef -> returnable (l_return l)) ->
  frame_ok c l (step sink c eof l).
Proof. frame_state on_AFTER_DOCTYPE_NAME. Qed.
Lemma frame_AFTER_DOCTYPE_PUBLIC_KEYWORD : forall c eof l, l_state l = AFTER_DOCTYPE_PUBLIC_KEYWORD -> l_again l = false -> (kind_of (l_state l) = KRef -> returnable (l_return l)) ->
  frame_ok c l (step sink c eof l).
Proof. frame_state on_AFTER_DOCTYPE_PUBLIC_KEYWORD. Qed.
Lemma frame_BEFORE_DOCTYPE_PUBLIC_IDENTIFIER : forall c eof l, l_state l = BEFORE_DOCTYPE_PUBLIC_IDENTIFIER -> l_again l = false -> (kind_of (l_state l) = KRef -> returnable (l_return l)) ->
  frame_ok c l (step sink c eof l).
Proof. frame_state on_BEFORE_DOCTYPE_PUBLIC_IDENTIFIER. Qed.
Lemma frame_DOCTYPE_PUBLIC_IDENTIFIER_DOUBLE_QUOTED : forall c eof l, l_state l = DOCTYPE_PUBLIC_IDENTIFIER_DOUBLE_QUOTED -> l_again l = false -> (kind_of (l_state l) = KRef -> returnable (l_return l)) ->
  frame_ok c l (step sink c eof l).
Proof. frame_state on_DOCTYPE_PUBLIC_IDENTIFIER_DOUBLE_QUOTED. Qed.
Lemma frame_DOCTYPE_PUBLIC_IDENTIFIER_SINGLE_QUOTED : forall c eof l, l_state l = DOCTYPE_PUBLIC_IDENTIFIER_SINGLE_QUOTED -> l_again l = false -> (kind_of (l_state l) = KRef -> returnable (l_return l)) ->
  frame_ok c l (step sink c eof l).
Proof. frame_state on_DOCTYPE_PUBLIC_IDENTIFIER_SINGLE_QUOTED. Qed.
Lemma frame_AFTER_DOCTYPE_PUBLIC_IDENTIFIER : forall c eof l, l_state l = AFTER_DOCTYPE_PUBLIC_IDENTIFIER -> l_again l = false -> (kind_of (l_state l) = KRef -> returnable (l_return l)) ->
  frame_ok c l (step sink c eof l).
Proof. frame_state on_AFTER_DOCTYPE_PUBLIC_IDENTIFIER. Qed.
Lemma frame_BETWEEN_DOCTYPE_PUBLIC_AND_SYSTEM_IDENTIFIERS : forall c eof l, l_state l = BETWEEN_DOCTYPE_PUBLIC_AND_SYSTEM_IDENTIFIERS -> l_again l = false -> (kind_of (l_state l) = KRef -> returnable (l_return l)) ->
  frame_ok c l (step sink c eof l).
Proof. frame_state on_BETWEEN_DOCTYPE_PUBLIC_AND_SYSTEM_IDENTIFIERS. Qed.
Lemma frame_AFTER_DOCTYPE_SYSTEM_KEYWORD : forall c eof l, l_state l = AFTER_DOCTYPE_SYSTEM_KEYWORD -> l_again l = false -> (kind_of (l_state l) = KRef -> returnable (l_return l)) ->
  frame_ok c l (step sink c eof l).
Proof. frame_state on_AFTER_DOCTYPE_SYSTEM_KEYWORD. Qed.
Lemma frame_BEFORE_DOCTYPE_SYSTEM_IDENTIFIER : forall c eof l, l_state l = BEFORE_DOCTYPE_SYSTEM_IDENTIFIER -> l_again l = false -> (kind_of (l_state l) = KRef -> returnable (l_return l)) ->
  frame_ok c l (step sink c eof l).
Proof. frame_state on_BEFORE_DOCTYPE_SYSTEM_IDENTIFIER. Qed.
Lemma frame_DOCTYPE_SYSTEM_IDENTIFIER_DOUBLE_QUOTED : forall c eof l, l_state l = DOCTYPE_SYSTEM_IDENTIFIER_DOUBLE_QUOTED -> l_again l = false -> (kind_of (l_state l) = KRef -> returnable (l_return l)) ->
  frame_ok c l (step sink c eof l).
Proof. frame_state on_DOCTYPE_SYSTEM_IDENTIFIER_DOUBLE_QUOTED. Qed.
Lemma frame_DOCTYPE_SYSTEM_IDENTIFIER_SINGLE_QUOTED : forall c eof l, l_state l = DOCTYPE_SYSTEM_IDENTIFIER_SINGLE_QUOTED -> l_again l = false -> (kind_of (l_state l) = KRef -> returnable (l_return l)) ->
  frame_ok c l (step sink c eof l).
Proof. frame_state on_DOCTYPE_SYSTEM_IDENTIFIER_SINGLE_QUOTED. Qed.
Lemma frame_AFTER_DOCTYPE_SYSTEM_IDENTIFIER : forall c eof l, l_state l = AFTER_DOCTYPE_SYSTEM_IDENTIFIER -> l_again l = false -> (kind_of (l_state l) = KRef -> returnable (l_return l)) ->
  frame_ok c l (step sink c eof l).
Proof. frame_state on_AFTER_DOCTYPE_SYSTEM_IDENTIFIER. Qed.
Lemma frame_BOGUS_DOCTYPE : forall c eof l, l_state l = BOGUS_DOCTYPE -> l_again l = false -> (kind_of (l_state l) = KRef -> returnable (l_return l)) ->
  frame_ok c l (step sink c eof l).
Proof. frame_state on_BOGUS_DOCTYPE. Qed.
Lemma frame_CDATA_SECTION : forall c eof l, l_state l = CDATA_SECTION -> l_again l = false -> (kind_of (l_state l) = KRef -> returnable (l_return l)) ->
  frame_ok c l (step sink c eof l).
Proof. frame_state on_CDATA_SECTION. Qed.
Lemma frame_CDATA_SECTION_BRACKET : forall c eof l, l_state l = CDATA_SECTION_BRACKET -> l_again l = false -> (kind_of (l_state l) = KRef -> returnable (l_return l)) ->
  frame_ok c l (step sink c eof l).
Proof. frame_state on_CDATA_SECTION_BRACKET. Qed.
Lemma frame_CDATA_SECTION_END : forall c eof l, l_state l = CDATA_SECTION_END -> l_again l = false -> (kind_of (l_state l) = KRef -> returnable (l_return l)) ->
  frame_ok c l (step sink c eof l).
Proof. frame_state on_CDATA_SECTION_END. Qed.
Lemma frame_CHARACTER_REFERENCE : forall c eof l, l_state l = CHARACTER_REFERENCE -> l_again l = false -> (kind_of (l_state l) = KRef -> returnable (l_return l)) ->
  frame_ok c l (step sink c eof l).
Proof. frame_ref on_CHARACTER_REFERENCE. Qed.
Lemma frame_AMBIGUOUS_AMPERSAND : forall c eof l, l_state l = AMBIGUOUS_AMPERSAND -> l_again l = false -> (kind_of (l_state l) = KRef -> returnable (l_return l)) ->
  frame_ok c l (step sink c eof l).
Proof. frame_ref on_AMBIGUOUS_AMPERSAND. Qed.
Lemma frame_NUMERIC_CHARACTER_REFERENCE : forall c eof l, l_state l = NUMERIC_CHARACTER_REFERENCE -> l_again l = false -> (kind_of (l_state l) = KRef -> returnable (l_return l)) ->
  frame_ok c l (step sink c eof l).
Proof. frame_ref on_NUMERIC_CHARACTER_REFERENCE. Qed.
Lemma frame_HEXADECIMAL_CHARACTER_REFERENCE_START : forall c eof l, l_state l = HEXADECIMAL_CHARACTER_REFERENCE_START -> l_again l = false -> (kind_of (l_state l) = KRef -> returnable (l_return l)) ->
  frame_ok c l (step sink c eof l).
Proof. frame_ref on_HEXADECIMAL_CHARACTER_REFERENCE_START. Qed.
Lemma frame_DECIMAL_CHARACTER_REFERENCE_START : forall c eof l, l_state l = DECIMAL_CHARACTER_REFERENCE_START -> l_again l = false -> (kind_of (l_state l) = KRef -> returnable (l_return l)) ->
  frame_ok c l (step sink c eof l).
Proof. frame_ref on_DECIMAL_CHARACTER_REFERENCE_START. Qed.
Lemma frame_HEXADECIMAL_CHARACTER_REFERENCE : forall c eof l, l_state l = HEXADECIMAL_CHARACTER_REFERENCE -> l_again l = false -> (kind_of (l_state l) = KRef -> returnable (l_return l)) ->
  frame_ok c l (step sink c eof l).
Proof. frame_ref on_HEXADECIMAL_CHARACTER_REFERENCE. Qed.
Lemma frame_DECIMAL_CHARACTER_REFERENCE : forall c eof l, l_state l = DECIMAL_CHARACTER_REFERENCE -> l_again l = false -> (kind_of (l_state l) = KRef -> returnable (l_return l)) ->
  frame_ok c l (step sink c eof l).
Proof. frame_ref on_DECIMAL_CHARACTER_REFERENCE. Qed.
Lemma frame_NUMERIC_CHARACTER_REFERENCE_END : forall c eof l, l_state l = NUMERIC_CHARACTER_REFERENCE_END -> l_again l = false -> (kind_of (l_state l) = KRef -> returnable (l_return l)) ->
  frame_ok c l (step sink c eof l).
Proof. frame_ref on_NUMERIC_CHARACTER_REFERENCE_END. Qed.

Lemma step_frame c eof l :
  l_state l <> NAMED_CHARACTER_REFERENCE -> l_again l = false -> (kind_of (l_state l) = KRef -> returnable (l_return l)) ->
  frame_ok c l (step sink c eof l).
Proof.
  intros Hn Ha Hr. destruct (l_state l) eqn:E; try congruence; rewrite <- E in Hr.
  - apply frame_DATA; assumption.
  - apply frame_RCDATA; assumption.
  - apply frame_RAWTEXT; assumption.
  - apply frame_SCRIPT_DATA; assumption.
  - apply frame_PLAINTEXT; assumption.
  - apply frame_TAG_OPEN; assumption.
  - apply frame_END_TAG_OPEN; assumption.
  - apply frame_TAG_NAME; assumption.
  - apply frame_RCDATA_LESS_THAN_SIGN; assumption.
  - apply frame_RCDATA_END_TAG_OPEN; assumption.
  - apply frame_RCDATA_END_TAG_NAME; assumption.
  - apply frame_RAWTEXT_LESS_THAN_SIGN; assumption.
  - apply frame_RAWTEXT_END_TAG_OPEN; assumption.
  - apply frame_RAWTEXT_END_TAG_NAME; assumption.
  - apply frame_SCRIPT_DATA_LESS_THAN_SIGN; assumption.
  - apply frame_SCRIPT_DATA_END_TAG_OPEN; assumption.
  - apply frame_SCRIPT_DATA_END_TAG_NAME; assumption.
  - apply frame_SCRIPT_DATA_ESCAPE_START; assumption.
  - apply frame_SCRIPT_DATA_ESCAPE_START_DASH; assumption.
  - apply frame_SCRIPT_DATA_ESCAPED; assumption.
  - apply frame_SCRIPT_DATA_ESCAPED_DASH; assumption.
  - apply frame_SCRIPT_DATA_ESCAPED_DASH_DASH; assumption.
  - apply frame_SCRIPT_DATA_ESCAPED_LESS_THAN_SIGN; assumption.
  - apply frame_SCRIPT_DATA_ESCAPED_END_TAG_OPEN; assumption.
  - apply frame_SCRIPT_DATA_ESCAPED_END_TAG_NAME; assumption.
  - apply frame_SCRIPT_DATA_DOUBLE_ESCAPE_START; assumption.
  - apply frame_SCRIPT_DATA_DOUBLE_ESCAPED; assumption.
  - apply frame_SCRIPT_DATA_DOUBLE_ESCAPED_DASH; assumption.
  - apply frame_SCRIPT_DATA_DOUBLE_ESCAPED_DASH_DASH; assumption.
  - apply frame_SCRIPT_DATA_DOUBLE_ESCAPED_LESS_THAN_SIGN; assumption.
  - apply frame_SCRIPT_DATA_DOUBLE_ESCAPE_END; assumption.
  - apply frame_BEFORE_ATTRIBUTE_NAME; assumption.
  - apply frame_ATTRIBUTE_NAME; assumption.
  - apply frame_AFTER_ATTRIBUTE_NAME; assumption.
  - apply frame_BEFORE_ATTRIBUTE_VALUE; assumption.
  - apply frame_ATTRIBUTE_VALUE_DOUBLE_QUOTED; assumption.
  - apply frame_ATTRIBUTE_VALUE_SINGLE_QUOTED; assumption.
  - apply frame_ATTRIBUTE_VALUE_UNQUOTED; assumption.
  - apply frame_AFTER_ATTRIBUTE_VALUE_QUOTED; assumption.
  - apply frame_SELF_CLOSING_START_TAG; assumption.
  - apply frame_BOGUS_COMMENT; assumption.
  - apply frame_MARKUP_DECLARATION_OPEN; assumption.
  - apply frame_COMMENT_START; assumption.
  - apply frame_COMMENT_START_DASH; assumption.
  - apply frame_COMMENT; assumption.
  - apply frame_COMMENT_LESS_THAN_SIGN; assumption.
  - apply frame_COMMENT_LESS_THAN_SIGN_BANG; assumption.
  - apply frame_COMMENT_LESS_THAN_SIGN_BANG_DASH; assumption.
  - apply frame_COMMENT_LESS_THAN_SIGN_BANG_DASH_DASH; assumption.
  - apply frame_COMMENT_END_DASH; assumption.
  - apply frame_COMMENT_END; assumption.
  - apply frame_COMMENT_END_BANG; assumption.
  - apply frame_DOCTYPE; assumption.
  - apply frame_BEFORE_DOCTYPE_NAME; assumption.
  - apply frame_DOCTYPE_NAME; assumption.
  - apply frame_AFTER_DOCTYPE_NAME; assumption.
  - apply frame_AFTER_DOCTYPE_PUBLIC_KEYWORD; assumption.
  - apply frame_BEFORE_DOCTYPE_PUBLIC_IDENTIFIER; assumption.
  - apply frame_DOCTYPE_PUBLIC_IDENTIFIER_DOUBLE_QUOTED; assumption.
  - apply frame_DOCTYPE_PUBLIC_IDENTIFIER_SINGLE_QUOTED; assumption.
  - apply frame_AFTER_DOCTYPE_PUBLIC_IDENTIFIER; assumption.
  - apply frame_BETWEEN_DOCTYPE_PUBLIC_AND_SYSTEM_IDENTIFIERS; assumption.
  - apply frame_AFTER_DOCTYPE_SYSTEM_KEYWORD; assumption.
  - apply frame_BEFORE_DOCTYPE_SYSTEM_IDENTIFIER; assumption.
  - apply frame_DOCTYPE_SYSTEM_IDENTIFIER_DOUBLE_QUOTED; assumption.
  - apply frame_DOCTYPE_SYSTEM_IDENTIFIER_SINGLE_QUOTED; assumption.
  - apply frame_AFTER_DOCTYPE_SYSTEM_IDENTIFIER; assumption.
  - apply frame_BOGUS_DOCTYPE; assumption.
  - apply frame_CDATA_SECTION; assumption.
  - apply frame_CDATA_SECTION_BRACKET; assumption.
  - apply frame_CDATA_SECTION_END; assumption.
  - apply frame_CHARACTER_REFERENCE; assumption.
  - apply frame_AMBIGUOUS_AMPERSAND; assumption.
  - apply frame_NUMERIC_CHARACTER_REFERENCE; assumption.
  - apply frame_HEXADECIMAL_CHARACTER_REFERENCE_START; assumption.
  - apply frame_DECIMAL_CHARACTER_REFERENCE_START; assumption.
  - apply frame_HEXADECIMAL_CHARACTER_REFERENCE; assumption.
  - apply frame_DECIMAL_CHARACTER_REFERENCE; assumption.
  - apply frame_NUMERIC_CHARACTER_REFERENCE_END; assumption.
Qed.

End Sink.
