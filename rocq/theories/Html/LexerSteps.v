(** One step of the HTML tokenizer keeps its invariant: most of the states, by computation. *)
From Coq Require Import String List Arith Bool NArith Lia.
From Verif.Base Require Import Str.
From Verif.Html Require Import Entities LexerModel LexerInv LexerTac.
Import ListNotations.
Local Open Scope list_scope.
Local Open Scope N_scope.

Section Sink.
Variable sink : list token -> option text_mode.

Lemma step_DATA : forall c eof l, (eof = true -> c = 3) -> l_state l = DATA -> good l -> l_again l = false ->
  step_ok c eof l (step sink c eof l).
Proof. run_state on_DATA. Qed.
Lemma step_RCDATA : forall c eof l, (eof = true -> c = 3) -> l_state l = RCDATA -> good l -> l_again l = false ->
  step_ok c eof l (step sink c eof l).
Proof. run_state on_RCDATA. Qed.
Lemma step_RAWTEXT : forall c eof l, (eof = true -> c = 3) -> l_state l = RAWTEXT -> good l -> l_again l = false ->
  step_ok c eof l (step sink c eof l).
Proof. run_state on_RAWTEXT. Qed.
Lemma step_SCRIPT_DATA : forall c eof l, (eof = true -> c = 3) -> l_state l = SCRIPT_DATA -> good l -> l_again l = false ->
  step_ok c eof l (step sink c eof l).
Proof. run_state on_SCRIPT_DATA. Qed.
Lemma step_PLAINTEXT : forall c eof l, (eof = true -> c = 3) -> l_state l = PLAINTEXT -> good l -> l_again l = false ->
  step_ok c eof l (step sink c eof l).
Proof. run_state on_PLAINTEXT. Qed.
Lemma step_TAG_OPEN : forall c eof l, (eof = true -> c = 3) -> l_state l = TAG_OPEN -> good l -> l_again l = false ->
  step_ok c eof l (step sink c eof l).
Proof. run_state on_TAG_OPEN. Qed.
Lemma step_END_TAG_OPEN : forall c eof l, (eof = true -> c = 3) -> l_state l = END_TAG_OPEN -> good l -> l_again l = false ->
  step_ok c eof l (step sink c eof l).
Proof. run_state on_END_TAG_OPEN. Qed.
Lemma step_TAG_NAME : forall c eof l, (eof = true -> c = 3) -> l_state l = TAG_NAME -> good l -> l_again l = false ->
  step_ok c eof l (step sink c eof l).
Proof. run_state on_TAG_NAME. Qed.
Lemma step_RCDATA_LESS_THAN_SIGN : forall c eof l, (eof = true -> c = 3) -> l_state l = RCDATA_LESS_THAN_SIGN -> good l -> l_again l = false ->
  step_ok c eof l (step sink c eof l).
Proof. run_state on_RCDATA_LESS_THAN_SIGN. Qed.
Lemma step_RCDATA_END_TAG_OPEN : forall c eof l, (eof = true -> c = 3) -> l_state l = RCDATA_END_TAG_OPEN -> good l -> l_again l = false ->
  step_ok c eof l (step sink c eof l).
Proof. run_state on_RCDATA_END_TAG_OPEN. Qed.
Lemma step_RAWTEXT_LESS_THAN_SIGN : forall c eof l, (eof = true -> c = 3) -> l_state l = RAWTEXT_LESS_THAN_SIGN -> good l -> l_again l = false ->
  step_ok c eof l (step sink c eof l).
Proof. run_state on_RAWTEXT_LESS_THAN_SIGN. Qed.
Lemma step_RAWTEXT_END_TAG_OPEN : forall c eof l, (eof = true -> c = 3) -> l_state l = RAWTEXT_END_TAG_OPEN -> good l -> l_again l = false ->
  step_ok c eof l (step sink c eof l).
Proof. run_state on_RAWTEXT_END_TAG_OPEN. Qed.
Lemma step_SCRIPT_DATA_LESS_THAN_SIGN : forall c eof l, (eof = true -> c = 3) -> l_state l = SCRIPT_DATA_LESS_THAN_SIGN -> good l -> l_again l = false ->
  step_ok c eof l (step sink c eof l).
Proof. run_state on_SCRIPT_DATA_LESS_THAN_SIGN. Qed.
Lemma step_SCRIPT_DATA_END_TAG_OPEN : forall c eof l, (eof = true -> c = 3) -> l_state l = SCRIPT_DATA_END_TAG_OPEN -> good l -> l_again l = false ->
  step_ok c eof l (step sink c eof l).
Proof. run_state on_SCRIPT_DATA_END_TAG_OPEN. Qed.
Lemma step_SCRIPT_DATA_ESCAPE_START : forall c eof l, (eof = true -> c = 3) -> l_state l = SCRIPT_DATA_ESCAPE_START -> good l -> l_again l = false ->
  step_ok c eof l (step sink c eof l).
Proof. run_state on_SCRIPT_DATA_ESCAPE_START. Qed.
Lemma step_SCRIPT_DATA_ESCAPE_START_DASH : forall c eof l, (eof = true -> c = 3) -> l_state l = SCRIPT_DATA_ESCAPE_START_DASH -> good l -> l_again l = false ->
  step_ok c eof l (step sink c eof l).
Proof. run_state on_SCRIPT_DATA_ESCAPE_START_DASH. Qed.
Lemma step_SCRIPT_DATA_ESCAPED : forall c eof l, (eof = true -> c = 3) -> l_state l = SCRIPT_DATA_ESCAPED -> good l -> l_again l = false ->
  step_ok c eof l (step sink c eof l).
Proof. run_state on_SCRIPT_DATA_ESCAPED. Qed.
Lemma step_SCRIPT_DATA_ESCAPED_DASH : forall c eof l, (eof = true -> c = 3) -> l_state l = SCRIPT_DATA_ESCAPED_DASH -> good l -> l_again l = false ->
  step_ok c eof l (step sink c eof l).
Proof. run_state on_SCRIPT_DATA_ESCAPED_DASH. Qed.
Lemma step_SCRIPT_DATA_ESCAPED_DASH_DASH : forall c eof l, (eof = true -> c = 3) -> l_state l = SCRIPT_DATA_ESCAPED_DASH_DASH -> good l -> l_again l = false ->
  step_ok c eof l (step sink c eof l).
Proof. run_state on_SCRIPT_DATA_ESCAPED_DASH_DASH. Qed.
Lemma step_SCRIPT_DATA_ESCAPED_LESS_THAN_SIGN : forall c eof l, (eof = true -> c = 3) -> l_state l = SCRIPT_DATA_ESCAPED_LESS_THAN_SIGN -> good l -> l_again l = false ->
  step_ok c eof l (step sink c eof l).
Proof. run_state on_SCRIPT_DATA_ESCAPED_LESS_THAN_SIGN. Qed.
Lemma step_SCRIPT_DATA_ESCAPED_END_TAG_OPEN : forall c eof l, (eof = true -> c = 3) -> l_state l = SCRIPT_DATA_ESCAPED_END_TAG_OPEN -> good l -> l_again l = false ->
  step_ok c eof l (step sink c eof l).
Proof. run_state on_SCRIPT_DATA_ESCAPED_END_TAG_OPEN. Qed.
Lemma step_SCRIPT_DATA_DOUBLE_ESCAPE_START : forall c eof l, (eof = true -> c = 3) -> l_state l = SCRIPT_DATA_DOUBLE_ESCAPE_START -> good l -> l_again l = false ->
  step_ok c eof l (step sink c eof l).
Proof. run_state on_SCRIPT_DATA_DOUBLE_ESCAPE_START. Qed.
Lemma step_SCRIPT_DATA_DOUBLE_ESCAPED : forall c eof l, (eof = true -> c = 3) -> l_state l = SCRIPT_DATA_DOUBLE_ESCAPED -> good l -> l_again l = false ->
  step_ok c eof l (step sink c eof l).
Proof. run_state on_SCRIPT_DATA_DOUBLE_ESCAPED. Qed.
Lemma step_SCRIPT_DATA_DOUBLE_ESCAPED_DASH : forall c eof l, (eof = true -> c = 3) -> l_state l = SCRIPT_DATA_DOUBLE_ESCAPED_DASH -> good l -> l_again l = false ->
  step_ok c eof l (step sink c eof l).
Proof. run_state on_SCRIPT_DATA_DOUBLE_ESCAPED_DASH. Qed.
Lemma step_SCRIPT_DATA_DOUBLE_ESCAPED_DASH_DASH : forall c eof l, (eof = true -> c = 3) -> l_state l = SCRIPT_DATA_DOUBLE_ESCAPED_DASH_DASH -> good l -> l_again l = false ->
  step_ok c eof l (step sink c eof l).
Proof. run_state on_SCRIPT_DATA_DOUBLE_ESCAPED_DASH_DASH. Qed.
Lemma step_SCRIPT_DATA_DOUBLE_ESCAPED_LESS_THAN_SIGN : forall c eof l, (eof = true -> c = 3) -> l_state l = SCRIPT_DATA_DOUBLE_ESCAPED_LESS_THAN_SIGN -> good l -> l_again l = false ->
  step_ok c eof l (step sink c eof l).
Proof. run_state on_SCRIPT_DATA_DOUBLE_ESCAPED_LESS_THAN_SIGN. Qed.
Lemma step_SCRIPT_DATA_DOUBLE_ESCAPE_END : forall c eof l, (eof = true -> c = 3) -> l_state l = SCRIPT_DATA_DOUBLE_ESCAPE_END -> good l -> l_again l = false ->
  step_ok c eof l (step sink c eof l).
Proof. run_state on_SCRIPT_DATA_DOUBLE_ESCAPE_END. Qed.
Lemma step_BEFORE_ATTRIBUTE_VALUE : forall c eof l, (eof = true -> c = 3) -> l_state l = BEFORE_ATTRIBUTE_VALUE -> good l -> l_again l = false ->
  step_ok c eof l (step sink c eof l).
Proof. run_state on_BEFORE_ATTRIBUTE_VALUE. Qed.
Lemma step_AFTER_ATTRIBUTE_VALUE_QUOTED : forall c eof l, (eof = true -> c = 3) -> l_state l = AFTER_ATTRIBUTE_VALUE_QUOTED -> good l -> l_again l = false ->
  step_ok c eof l (step sink c eof l).
Proof. run_state on_AFTER_ATTRIBUTE_VALUE_QUOTED. Qed.
Lemma step_SELF_CLOSING_START_TAG : forall c eof l, (eof = true -> c = 3) -> l_state l = SELF_CLOSING_START_TAG -> good l -> l_again l = false ->
  step_ok c eof l (step sink c eof l).
Proof. run_state on_SELF_CLOSING_START_TAG. Qed.
Lemma step_BOGUS_COMMENT : forall c eof l, (eof = true -> c = 3) -> l_state l = BOGUS_COMMENT -> good l -> l_again l = false ->
  step_ok c eof l (step sink c eof l).
Proof. run_state on_BOGUS_COMMENT. Qed.
Lemma step_COMMENT_START : forall c eof l, (eof = true -> c = 3) -> l_state l = COMMENT_START -> good l -> l_again l = false ->
  step_ok c eof l (step sink c eof l).
Proof. run_state on_COMMENT_START. Qed.
Lemma step_COMMENT_START_DASH : forall c eof l, (eof = true -> c = 3) -> l_state l = COMMENT_START_DASH -> good l -> l_again l = false ->
  step_ok c eof l (step sink c eof l).
Proof. run_state on_COMMENT_START_DASH. Qed.
Lemma step_COMMENT : forall c eof l, (eof = true -> c = 3) -> l_state l = COMMENT -> good l -> l_again l = false ->
  step_ok c eof l (step sink c eof l).
Proof. run_state on_COMMENT. Qed.
Lemma step_COMMENT_LESS_THAN_SIGN : forall c eof l, (eof = true -> c = 3) -> l_state l = COMMENT_LESS_THAN_SIGN -> good l -> l_again l = false ->
  step_ok c eof l (step sink c eof l).
Proof. run_state on_COMMENT_LESS_THAN_SIGN. Qed.
Lemma step_COMMENT_LESS_THAN_SIGN_BANG : forall c eof l, (eof = true -> c = 3) -> l_state l = COMMENT_LESS_THAN_SIGN_BANG -> good l -> l_again l = false ->
  step_ok c eof l (step sink c eof l).
Proof. run_state on_COMMENT_LESS_THAN_SIGN_BANG. Qed.
Lemma step_COMMENT_LESS_THAN_SIGN_BANG_DASH : forall c eof l, (eof = true -> c = 3) -> l_state l = COMMENT_LESS_THAN_SIGN_BANG_DASH -> good l -> l_again l = false ->
  step_ok c eof l (step sink c eof l).
Proof. run_state on_COMMENT_LESS_THAN_SIGN_BANG_DASH. Qed.
Lemma step_COMMENT_LESS_THAN_SIGN_BANG_DASH_DASH : forall c eof l, (eof = true -> c = 3) -> l_state l = COMMENT_LESS_THAN_SIGN_BANG_DASH_DASH -> good l -> l_again l = false ->
  step_ok c eof l (step sink c eof l).
Proof. run_state on_COMMENT_LESS_THAN_SIGN_BANG_DASH_DASH. Qed.
Lemma step_COMMENT_END_DASH : forall c eof l, (eof = true -> c = 3) -> l_state l = COMMENT_END_DASH -> good l -> l_again l = false ->
  step_ok c eof l (step sink c eof l).
Proof. run_state on_COMMENT_END_DASH. Qed.
Lemma step_COMMENT_END : forall c eof l, (eof = true -> c = 3) -> l_state l = COMMENT_END -> good l -> l_again l = false ->
  step_ok c eof l (step sink c eof l).
Proof. run_state on_COMMENT_END. Qed.
Lemma step_COMMENT_END_BANG : forall c eof l, (eof = true -> c = 3) -> l_state l = COMMENT_END_BANG -> good l -> l_again l = false ->
  step_ok c eof l (step sink c eof l).
Proof. run_state on_COMMENT_END_BANG. Qed.
Lemma step_DOCTYPE : forall c eof l, (eof = true -> c = 3) -> l_state l = DOCTYPE -> good l -> l_again l = false ->
  step_ok c eof l (step sink c eof l).
Proof. run_state on_DOCTYPE. Qed.
Lemma step_BEFORE_DOCTYPE_NAME : forall c eof l, (eof = true -> c = 3) -> l_state l = BEFORE_DOCTYPE_NAME -> good l -> l_again l = false ->
  step_ok c eof l (step sink c eof l).
Proof. run_state on_BEFORE_DOCTYPE_NAME. Qed.
Lemma step_DOCTYPE_NAME : forall c eof l, (eof = true -> c = 3) -> l_state l = DOCTYPE_NAME -> good l -> l_again l = false ->
  step_ok c eof l (step sink c eof l).
Proof. run_state on_DOCTYPE_NAME. Qed.
Lemma step_AFTER_DOCTYPE_PUBLIC_KEYWORD : forall c eof l, (eof = true -> c = 3) -> l_state l = AFTER_DOCTYPE_PUBLIC_KEYWORD -> good l -> l_again l = false ->
  step_ok c eof l (step sink c eof l).
Proof. run_state on_AFTER_DOCTYPE_PUBLIC_KEYWORD. Qed.
Lemma step_BEFORE_DOCTYPE_PUBLIC_IDENTIFIER : forall c eof l, (eof = true -> c = 3) -> l_state l = BEFORE_DOCTYPE_PUBLIC_IDENTIFIER -> good l -> l_again l = false ->
  step_ok c eof l (step sink c eof l).
Proof. run_state on_BEFORE_DOCTYPE_PUBLIC_IDENTIFIER. Qed.
Lemma step_DOCTYPE_PUBLIC_IDENTIFIER_DOUBLE_QUOTED : forall c eof l, (eof = true -> c = 3) -> l_state l = DOCTYPE_PUBLIC_IDENTIFIER_DOUBLE_QUOTED -> good l -> l_again l = false ->
  step_ok c eof l (step sink c eof l).
Proof. run_state on_DOCTYPE_PUBLIC_IDENTIFIER_DOUBLE_QUOTED. Qed.
Lemma step_DOCTYPE_PUBLIC_IDENTIFIER_SINGLE_QUOTED : forall c eof l, (eof = true -> c = 3) -> l_state l = DOCTYPE_PUBLIC_IDENTIFIER_SINGLE_QUOTED -> good l -> l_again l = false ->
  step_ok c eof l (step sink c eof l).
Proof. run_state on_DOCTYPE_PUBLIC_IDENTIFIER_SINGLE_QUOTED. Qed.
Lemma step_AFTER_DOCTYPE_PUBLIC_IDENTIFIER : forall c eof l, (eof = true -> c = 3) -> l_state l = AFTER_DOCTYPE_PUBLIC_IDENTIFIER -> good l -> l_again l = false ->
  step_ok c eof l (step sink c eof l).
Proof. run_state on_AFTER_DOCTYPE_PUBLIC_IDENTIFIER. Qed.
Lemma step_BETWEEN_DOCTYPE_PUBLIC_AND_SYSTEM_IDENTIFIERS : forall c eof l, (eof = true -> c = 3) -> l_state l = BETWEEN_DOCTYPE_PUBLIC_AND_SYSTEM_IDENTIFIERS -> good l -> l_again l = false ->
  step_ok c eof l (step sink c eof l).
Proof. run_state on_BETWEEN_DOCTYPE_PUBLIC_AND_SYSTEM_IDENTIFIERS. Qed.
Lemma step_AFTER_DOCTYPE_SYSTEM_KEYWORD : forall c eof l, (eof = true -> c = 3) -> l_state l = AFTER_DOCTYPE_SYSTEM_KEYWORD -> good l -> l_again l = false ->
  step_ok c eof l (step sink c eof l).
Proof. run_state on_AFTER_DOCTYPE_SYSTEM_KEYWORD. Qed.
Lemma step_BEFORE_DOCTYPE_SYSTEM_IDENTIFIER : forall c eof l, (eof = true -> c = 3) -> l_state l = BEFORE_DOCTYPE_SYSTEM_IDENTIFIER -> good l -> l_again l = false ->
  step_ok c eof l (step sink c eof l).
Proof. run_state on_BEFORE_DOCTYPE_SYSTEM_IDENTIFIER. Qed.
Lemma step_DOCTYPE_SYSTEM_IDENTIFIER_DOUBLE_QUOTED : forall c eof l, (eof = true -> c = 3) -> l_state l = DOCTYPE_SYSTEM_IDENTIFIER_DOUBLE_QUOTED -> good l -> l_again l = false ->
  step_ok c eof l (step sink c eof l).
Proof. run_state on_DOCTYPE_SYSTEM_IDENTIFIER_DOUBLE_QUOTED. Qed.
Lemma step_DOCTYPE_SYSTEM_IDENTIFIER_SINGLE_QUOTED : forall c eof l, (eof = true -> c = 3) -> l_state l = DOCTYPE_SYSTEM_IDENTIFIER_SINGLE_QUOTED -> good l -> l_again l = false ->
  step_ok c eof l (step sink c eof l).
Proof. run_state on_DOCTYPE_SYSTEM_IDENTIFIER_SINGLE_QUOTED. Qed.
Lemma step_AFTER_DOCTYPE_SYSTEM_IDENTIFIER : forall c eof l, (eof = true -> c = 3) -> l_state l = AFTER_DOCTYPE_SYSTEM_IDENTIFIER -> good l -> l_again l = false ->
  step_ok c eof l (step sink c eof l).
Proof. run_state on_AFTER_DOCTYPE_SYSTEM_IDENTIFIER. Qed.
Lemma step_BOGUS_DOCTYPE : forall c eof l, (eof = true -> c = 3) -> l_state l = BOGUS_DOCTYPE -> good l -> l_again l = false ->
  step_ok c eof l (step sink c eof l).
Proof. run_state on_BOGUS_DOCTYPE. Qed.
Lemma step_CDATA_SECTION : forall c eof l, (eof = true -> c = 3) -> l_state l = CDATA_SECTION -> good l -> l_again l = false ->
  step_ok c eof l (step sink c eof l).
Proof. run_state on_CDATA_SECTION. Qed.
Lemma step_CDATA_SECTION_BRACKET : forall c eof l, (eof = true -> c = 3) -> l_state l = CDATA_SECTION_BRACKET -> good l -> l_again l = false ->
  step_ok c eof l (step sink c eof l).
Proof. run_state on_CDATA_SECTION_BRACKET. Qed.
Lemma step_CDATA_SECTION_END : forall c eof l, (eof = true -> c = 3) -> l_state l = CDATA_SECTION_END -> good l -> l_again l = false ->
  step_ok c eof l (step sink c eof l).
Proof. run_state on_CDATA_SECTION_END. Qed.

End Sink.
