(** C18, C47, C48: the CSS tokenizer. *)
From Coq Require Import String List NArith Bool Lia.
From Verif.Base Require Import Str.
From Verif.Css Require Import LexerModel LexerSpec LexerProofs.
Import ListNotations.
Local Open Scope list_scope.
Local Open Scope N_scope.

(** ** C18: tokenization terminates and loses no input *)

(** For every text, [length s] steps are enough to reach the end; the pieces the tokens were
    made from are non-empty and concatenate to the input, and every token other than a
    string carries exactly its piece. *)
Theorem C18_tokenization_total_and_lossless : forall rb s,
  exists l, lex rb (length s) s = Some l /\ concat (map snd l) = s /\
    Forall (fun x => snd x <> [] /\ t_type (fst x) <> END_OF_FILE /\
       (t_type (fst x) <> STRING -> t_type (fst x) <> BAD_STRING -> t_data (fst x) = snd x)) l.
Proof.
  intros rb s. destruct (lex_total rb s (length s) (le_n _)) as (l & H1 & H2 & H3).
  exists l. split; [exact H1|]. split; [exact H2|]. eapply Forall_impl; [|exact H3].
  intros [t p] (Ha & Hb & Hc). cbn [fst snd] in *. split; [exact Ha|]. split; [exact Hb|].
  intros Hn1 Hn2. apply Hc. destruct (t_type t); try reflexivity; contradiction.
Qed.
Print Assumptions C18_tokenization_total_and_lossless.

(** One step, from any point of any text. *)
Theorem C18_every_token_consumes_input : forall rb s t r,
  s <> [] -> next rb s = (t, r) -> (length r < length s)%nat.
Proof.
  intros rb s t r Hs H. destruct (next_progress rb s t r Hs H) as (p & Hp & -> & _).
  rewrite app_length. destruct p; [contradiction|]. simpl. lia.
Qed.
Print Assumptions C18_every_token_consumes_input.

Example C18_example :
  tokens true (of_string "a{b:1px 'x") =
  Some [mkT IDENT (of_string "a"); mkT LEFT_CURLY_BRACKET (of_string "{"); mkT IDENT (of_string "b");
        mkT COLON (of_string ":"); mkT DIMENSION (of_string "1px"); mkT WHITESPACE (of_string " ");
        mkT STRING (of_string "x")].
Proof. vm_compute. reflexivity. Qed.

(** ** C47: tokens are recognised as written *)

(** Any sequence of identifiers, functions, at-keywords, hashes, strings, numbers,
    percentages, dimensions, white space, punctuation and delimiters, each followed by text
    that does not extend it, is read back as exactly that sequence. Missing: names that
    contain escapes (refuted below) and url tokens. *)
Theorem C47_tokens_as_written_partial : forall rb l,
  Forall valid l -> separated l -> tokens rb (source l) = Some (map token_of l).
Proof.
  intros rb l Hv Hs. destruct (lex_source rb l Hv Hs) as (x & H1 & H2 & _).
  unfold tokens. rewrite H1. simpl. now rewrite H2.
Qed.
Print Assumptions C47_tokens_as_written_partial.

Definition ex_written : list written :=
  [ WIdent (of_string "a"); WSpace [32]; WDelim 62; WSpace [10; 32]; WHash (of_string "x-1");
    WPunct LEFT_CURLY_BRACKET; WIdent (of_string "--w"); WPunct COLON; WFunc (of_string "calc");
    WDim (of_string "+1.5e-3") (of_string "em"); WSpace [32]; WNum (of_string "-.5");
    WPunct RIGHT_PARENTHESIS; WPct (of_string "50"); WString (34 :: 92 :: 10 :: of_string "it's");
    WPunct SEMICOLON; WAt (of_string "media"); WPunct RIGHT_CURLY_BRACKET ].
Lemma digits_5 : digits [53]. Proof. split; [discriminate|repeat constructor]. Qed.
Lemma digits_1 : digits [49]. Proof. split; [discriminate|repeat constructor]. Qed.
Lemma digits_3 : digits [51]. Proof. split; [discriminate|repeat constructor]. Qed.
Lemma digits_50 : digits [53; 48]. Proof. split; [discriminate|repeat constructor]. Qed.
Example C47_example : Forall valid ex_written /\ separated ex_written.
Proof.
  split.
  - repeat apply Forall_cons; try apply Forall_nil; cbn [valid];
      try (split; [repeat constructor|]; left; do 2 eexists; split; reflexivity);
      try (split; [discriminate|repeat constructor]); try reflexivity; try discriminate.
    + split; [repeat constructor|]. right. right. do 2 eexists. reflexivity.
    + split; [|reflexivity]. split; [repeat constructor|]. left. do 2 eexists. split; reflexivity.
    + split.
      * exists [43], (of_string "1.5"), (of_string "e-3"). split; [reflexivity|]. split; [auto|]. split.
        -- right. left. exists [49], [53]. split; [reflexivity|]. auto using digits_1, digits_5.
        -- right. exists 101, [45], [51]. split; [auto|]. split; [auto|]. split; [apply digits_3|reflexivity].
      * split; [repeat constructor|]. split; [do 2 eexists; split; reflexivity|reflexivity].
    + exists [45], (of_string ".5"), []. split; [reflexivity|]. split; [auto|]. split; [|auto].
      right. right. exists [53]. split; [reflexivity|apply digits_5].
    + exists [], (of_string "50"), []. split; [reflexivity|]. split; [auto|]. split; [|auto].
      left. apply digits_50.
  - vm_compute. tauto.
Qed.

(** Escapes in names: the escape rule swallows everything after the backslash up to the next
    hexadecimal digit or line break, so that in [.x\:top{left:0}] the name runs into the
    block; and the escape is left undecoded in the name. *)
Theorem C47_escaped_names_refuted :
  (exists s r, tokens true (of_string ".x\:top{left:0}") = Some (mkT DELIM [46] :: mkT IDENT s :: r) /\
               s = of_string "x\:top{left") /\
  tokens true (of_string "\31 a") = Some [mkT IDENT (of_string "\31 a")].
Proof.
  split.
  - eexists _, _. vm_compute. split; reflexivity.
  - vm_compute. reflexivity.
Qed.
Print Assumptions C47_escaped_names_refuted.

(** ** C48: string literals *)

(** Every string without U+0000, written as a CSS string literal with quotes, backslashes
    and control characters escaped, is read back as itself, whatever follows. *)
Theorem C48_string_literals_round_trip_partial : forall rb s r,
  Forall (fun c => 0 < c) s -> next rb (string_text s ++ r) = (mkT STRING s, r).
Proof. intros rb s r Hs. apply (next_text rb (WString s) r); [exact Hs|exact I]. Qed.
Print Assumptions C48_string_literals_round_trip_partial.

Example C48_example : string_text [34; 65; 10; 92] = 34 :: of_string "\" ++ 34 :: of_string "A\a \\" ++ [34].
Proof. reflexivity. Qed.

(** The general form: a string literal with either quote, made of plain characters,
    escaped characters, hexadecimal escapes and escaped line breaks, and ended by its quote,
    by the end of input or (bad string) by a line break. Missing: hexadecimal escapes of six
    digits, and CRLF as one line break (both refuted below). *)
Theorem C48_string_literals_partial : forall rb q l e ty r,
  (q = 34 \/ q = 39) -> Forall (sitem_ok 5 q) l -> sending q e ty r ->
  next rb (q :: concat (map sitem_text l) ++ e) = (mkT ty (concat (map sitem_value l)), r).
Proof. exact next_string_items. Qed.
Print Assumptions C48_string_literals_partial.

Example C48_items_example :
  Forall (sitem_ok 5 39) [SPlain 97; SEsc 39; SCont 10; SHex (of_string "d800") 32; SHex (of_string "41") 9; SPlain 34]
  /\ concat (map sitem_value [SPlain 97; SEsc 39; SCont 10; SHex (of_string "d800") 32; SHex (of_string "41") 9; SPlain 34])
     = [97; 39; 65533; 65; 34].
Proof.
  split; [|reflexivity]. repeat apply Forall_cons; try apply Forall_nil; cbn; repeat split; try lia; try discriminate; auto;
    repeat constructor.
Qed.

(** An escaped CRLF line break is not one line break: the string ends there as a bad string. *)
Theorem C48_escaped_crlf_refuted :
  next true (34 :: 97 :: 92 :: 13 :: 10 :: 98 :: [34]) = (mkT BAD_STRING [97], [10; 98; 34]).
Proof. vm_compute. reflexivity. Qed.
Print Assumptions C48_escaped_crlf_refuted.

(** The escape with six hexadecimal digits, which the grammar allows, is cut after five:
    the sixth digit becomes a character of the string. *)
Theorem C48_six_digit_escape_refuted :
  next true (34 :: of_string "\000041" ++ [34]) = (mkT STRING [4; 49], []).
Proof. vm_compute. reflexivity. Qed.
Print Assumptions C48_six_digit_escape_refuted.
