(** Invariants of the HTML tokenizer. *)
From Coq Require Import String List Arith Bool NArith Lia.
From Verif.Base Require Import Str.
From Verif.Html Require Import Entities LexerModel.
Import ListNotations.
Local Open Scope list_scope.
Local Open Scope N_scope.

(** ** What each state expects of the current token *)
Inductive kind := KText | KTag | KName | KAttr | KComment | KDoctype | KRef.
Definition kind_of (s : state) : kind :=
  match s with
  | TAG_NAME | RCDATA_END_TAG_NAME | RAWTEXT_END_TAG_NAME | SCRIPT_DATA_END_TAG_NAME
  | SCRIPT_DATA_ESCAPED_END_TAG_NAME | BEFORE_ATTRIBUTE_NAME | AFTER_ATTRIBUTE_VALUE_QUOTED
  | SELF_CLOSING_START_TAG => KTag
  | ATTRIBUTE_NAME => KName
  | AFTER_ATTRIBUTE_NAME | BEFORE_ATTRIBUTE_VALUE | ATTRIBUTE_VALUE_DOUBLE_QUOTED
  | ATTRIBUTE_VALUE_SINGLE_QUOTED | ATTRIBUTE_VALUE_UNQUOTED => KAttr
  | BOGUS_COMMENT | COMMENT_START | COMMENT_START_DASH | COMMENT | COMMENT_LESS_THAN_SIGN
  | COMMENT_LESS_THAN_SIGN_BANG | COMMENT_LESS_THAN_SIGN_BANG_DASH
  | COMMENT_LESS_THAN_SIGN_BANG_DASH_DASH | COMMENT_END_DASH | COMMENT_END | COMMENT_END_BANG => KComment
  | DOCTYPE_NAME | AFTER_DOCTYPE_NAME | AFTER_DOCTYPE_PUBLIC_KEYWORD | BEFORE_DOCTYPE_PUBLIC_IDENTIFIER
  | DOCTYPE_PUBLIC_IDENTIFIER_DOUBLE_QUOTED | DOCTYPE_PUBLIC_IDENTIFIER_SINGLE_QUOTED
  | AFTER_DOCTYPE_PUBLIC_IDENTIFIER | BETWEEN_DOCTYPE_PUBLIC_AND_SYSTEM_IDENTIFIERS
  | AFTER_DOCTYPE_SYSTEM_KEYWORD | BEFORE_DOCTYPE_SYSTEM_IDENTIFIER
  | DOCTYPE_SYSTEM_IDENTIFIER_DOUBLE_QUOTED | DOCTYPE_SYSTEM_IDENTIFIER_SINGLE_QUOTED
  | AFTER_DOCTYPE_SYSTEM_IDENTIFIER | BOGUS_DOCTYPE => KDoctype
  | CHARACTER_REFERENCE | NAMED_CHARACTER_REFERENCE | AMBIGUOUS_AMPERSAND | NUMERIC_CHARACTER_REFERENCE
  | HEXADECIMAL_CHARACTER_REFERENCE_START | DECIMAL_CHARACTER_REFERENCE_START
  | HEXADECIMAL_CHARACTER_REFERENCE | DECIMAL_CHARACTER_REFERENCE | NUMERIC_CHARACTER_REFERENCE_END => KRef
  | _ => KText
  end.

Definition is_tag (t : token) : Prop := t_type t = T_START_TAG \/ t_type t = T_END_TAG.
Definition names (t : token) : list str := map fst (t_attrs t).

Definition has_tag (o : option token) : Prop :=
  exists t, o = Some t /\ is_tag t /\ NoDup (names t).
Definition has_attr (o : option token) (a : attr_ref) : Prop :=
  exists t, o = Some t /\ is_tag t /\ NoDup (names t) /\
            (a = NoAttr \/ (a = Live /\ t_attrs t <> [])).
Definition has_new_attr (o : option token) (a : attr_ref) : Prop :=
  exists t attrs, o = Some t /\ is_tag t /\ a = Live /\ t_attrs t = attrs ++ [([], [])] /\ NoDup (map fst attrs).
Definition has_type (ty : ttype) (o : option token) : Prop := exists t, o = Some t /\ t_type t = ty.

Definition expects (k : kind) (ret : state) (o : option token) (a : attr_ref) : Prop :=
  match k with
  | KText => True
  | KTag => has_tag o
  | KName => has_new_attr o a
  | KAttr => has_attr o a
  | KComment => has_type T_COMMENT o
  | KDoctype => has_type T_DOCTYPE o
  | KRef =>
      match ret with
      | DATA | RCDATA => True
      | ATTRIBUTE_VALUE_DOUBLE_QUOTED | ATTRIBUTE_VALUE_SINGLE_QUOTED | ATTRIBUTE_VALUE_UNQUOTED => has_attr o a
      | _ => False
      end
  end.
Definition good (l : lexer) : Prop := expects (kind_of (l_state l)) (l_return l) (l_token l) (l_attr l).

(** While a character is being reconsumed, the attribute may be missing when the character ends
    the tag. *)
Definition closes (c : N) (eof : bool) : bool := (c =? 47) || (c =? 62) || eof.
Definition pending (c : N) (eof : bool) (l : lexer) : Prop :=
  good l \/ (l_state l = AFTER_ATTRIBUTE_NAME /\ closes c eof = true /\ has_tag (l_token l)).

Definition ender (c : N) (eof : bool) : bool := is_space c || closes c eof.
Definition rank (c : N) (eof : bool) (s : state) : nat :=
  match s with
  | BEFORE_ATTRIBUTE_NAME => 2
  | ATTRIBUTE_NAME => if ender c eof then 1 else 0
  | AFTER_ATTRIBUTE_NAME => if ender c eof then 0 else 1
  | SELF_CLOSING_START_TAG | AFTER_ATTRIBUTE_VALUE_QUOTED => 3
  | SCRIPT_DATA_ESCAPED_LESS_THAN_SIGN | RCDATA_END_TAG_OPEN | RAWTEXT_END_TAG_OPEN | SCRIPT_DATA_END_TAG_OPEN
  | SCRIPT_DATA_ESCAPED_END_TAG_OPEN | COMMENT_LESS_THAN_SIGN_BANG_DASH
  | COMMENT_LESS_THAN_SIGN_BANG_DASH_DASH => 2
  | CHARACTER_REFERENCE => 6
  | NAMED_CHARACTER_REFERENCE | NUMERIC_CHARACTER_REFERENCE => 5
  | AMBIGUOUS_AMPERSAND | DECIMAL_CHARACTER_REFERENCE_START | HEXADECIMAL_CHARACTER_REFERENCE_START => 4
  | DECIMAL_CHARACTER_REFERENCE | HEXADECIMAL_CHARACTER_REFERENCE => 3
  | NUMERIC_CHARACTER_REFERENCE_END => 2
  | DATA | RCDATA | RAWTEXT | SCRIPT_DATA | PLAINTEXT | TAG_NAME | SCRIPT_DATA_ESCAPED
  | SCRIPT_DATA_DOUBLE_ESCAPED | ATTRIBUTE_VALUE_DOUBLE_QUOTED | ATTRIBUTE_VALUE_SINGLE_QUOTED
  | ATTRIBUTE_VALUE_UNQUOTED | COMMENT | BOGUS_COMMENT | BOGUS_DOCTYPE | BEFORE_DOCTYPE_NAME | CDATA_SECTION => 0
  | _ => 1
  end.

(** ** The table of character references *)

Lemma entities_closed :
  forallb (fun e => match rev (fst e) with
                    | c :: _ => if c =? 59 then true else existsb (fun e' => str_eqb (fst e') (fst e ++ [59])) entities
                    | [] => false end) entities = true.
Proof. vm_compute. reflexivity. Qed.

Lemma start_with_yes s p : start_with N.eqb s p = YES <-> s = p.
Proof.
  revert p; induction s as [|y s IH]; destruct p as [|x p]; cbn; split; intros H; try discriminate; try reflexivity.
  - destruct (N.eqb_spec y x) as [->|]; [|discriminate]. f_equal. now apply IH.
  - injection H as -> ->. rewrite N.eqb_refl. now apply IH.
Qed.

Lemma start_with_partial s p : start_with N.eqb s p = PARTIAL <-> exists x q, s = p ++ x :: q.
Proof.
  revert p; induction s as [|y s IH]; destruct p as [|x p]; cbn; split; intros H; try discriminate.
  - destruct H as (? & ? & H); discriminate.
  - destruct H as (? & ? & H); discriminate.
  - now exists y, s.
  - reflexivity.
  - destruct (N.eqb_spec y x) as [->|]; [|discriminate]. apply IH in H as (z & q & ->). now exists z, q.
  - destruct H as (z & q & H). injection H as -> ->. rewrite N.eqb_refl. apply IH. now exists z, q.
Qed.

Lemma is_entity_spec t : is_entity t = true <-> exists e, In e entities /\ fst e = t.
Proof.
  unfold is_entity. rewrite existsb_exists. split; intros (e & Hi & H); exists e; (split; [exact Hi|]).
  - destruct (start_with _ _ _) eqn:E; try discriminate. now apply start_with_yes in E.
  - apply start_with_yes in H. now rewrite H.
Qed.
Lemma has_partial_spec t : has_partial t = true <-> exists e x q, In e entities /\ fst e = t ++ x :: q.
Proof.
  unfold has_partial. rewrite existsb_exists. split.
  - intros (e & Hi & H). destruct (start_with _ _ _) eqn:E; try discriminate.
    apply start_with_partial in E as (x & q & E). exists e, x, q. exact (conj Hi E).
  - intros (e & x & q & Hi & H). exists e. split; [exact Hi|].
    assert (E : start_with N.eqb (fst e) t = PARTIAL) by (apply start_with_partial; now exists x, q).
    now rewrite E.
Qed.

(** A name that cannot be continued ends with a semicolon. *)
Lemma full_match_semicolon t c : has_partial (t ++ [c]) = false -> is_entity (t ++ [c]) = true -> c = 59.
Proof.
  intros Hp He. apply is_entity_spec in He as (e & Hi & He).
  pose proof entities_closed as HC. rewrite forallb_forall in HC. specialize (HC e Hi).
  rewrite He, rev_app_distr in HC. cbn [rev app] in HC.
  destruct (N.eqb_spec c 59) as [->|_]; [reflexivity|].
  apply existsb_exists in HC as (e' & Hi' & He'). apply str_eqb_spec in He'.
  assert (has_partial (t ++ [c]) = true); [|congruence].
  apply has_partial_spec. exists e', 59, []. split; [exact Hi'|exact He'].
Qed.


Section Sink.
Variable sink : list token -> option text_mode.

Definition is_eof (t : token) : bool := ttype_eqb (t_type t) T_END_OF_FILE.

Lemma emit_all_eq s l :
  exists tok a out,
    emit_all sink s l =
    Ok (mkLexer (l_state l) (l_return l) tok (l_last l) (l_char l) (l_builder l) (l_temp l) (l_peek l)
          (l_foreign l) (l_matched l) a (l_again l) (rev (map char_token s) ++ out)) /\ out = l_out l.
Proof.
  revert l; induction s as [|c s IH]; intros l; cbn [emit_all].
  - exists (l_token l), (l_attr l), (l_out l). destruct l; auto.
  - destruct l as [st re tok la ch bu te pe fo ma at_ ag out].
    destruct (IH (mkLexer st re (Some (char_token c)) la ch bu te pe fo ma (match at_ with Live => Dangling | a => a end) ag (char_token c :: out)))
      as (tok' & a' & out' & E & Eo).
    exists tok', a', out. split; [|reflexivity]. cbn [l_out l_state l_return l_last l_char l_builder l_temp l_peek l_foreign l_matched l_again] in *.
    subst out'. cbn [map rev]. rewrite <- app_assoc. cbn [app].
    rewrite <- E. unfold emit_char, seq, bind, begin, lose_attr, emit. cbn. destruct at_; reflexivity.
Qed.

(** A tag is emitted with pairwise distinct attribute names. *)
Definition token_ok (t : token) : Prop := is_tag t -> NoDup (names t).

Definition emitted (last : bool) (new : list token) : Prop :=
  Forall token_ok new /\
  (if last then exists t r, new = t :: r /\ is_eof t = true /\ forallb (fun t => negb (is_eof t)) r = true
   else forallb (fun t => negb (is_eof t)) new = true).

(** What one step guarantees. *)
Definition step_ok (c : N) (eof : bool) (l : lexer) (r : res lexer) : Prop :=
  match r with
  | Crash w => w = StaleOffset
  | Ok l' =>
      (if l_again l' then pending c eof l' /\ (rank c eof (l_state l') < rank c eof (l_state l))%nat
       else eof = false -> good l') /\
      exists new, l_out l' = new ++ l_out l /\ emitted (eof && negb (l_again l')) new
  end.

Lemma token_ok_other t : ~ is_tag t -> token_ok t.
Proof. intros H H'. now elim H. Qed.

End Sink.
