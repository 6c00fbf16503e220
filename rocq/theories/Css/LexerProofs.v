From Coq Require Import String List NArith Bool Arith Lia ZifyBool ZifyN ZifyNat.
From Verif.Base Require Import Str.
From Verif.Css Require Import LexerModel LexerSpec.
Import ListNotations.
Local Open Scope list_scope.
Local Open Scope N_scope.

(** * Progress *)

Definition suffix (r s : str) : Prop := exists p, s = p ++ r.
Definition ssuffix (r s : str) : Prop := exists p, p <> [] /\ s = p ++ r.

Lemma suffix_refl s : suffix s s.
Proof. exists []. reflexivity. Qed.
Lemma suffix_trans a b c : suffix a b -> suffix b c -> suffix a c.
Proof. intros [p ->] [q ->]. exists (q ++ p). now rewrite app_assoc. Qed.
Lemma ssuffix_l a b c : ssuffix a b -> suffix b c -> ssuffix a c.
Proof.
  intros (p & Hp & ->) [q ->]. exists (q ++ p). split; [|now rewrite app_assoc].
  intros H. apply app_eq_nil in H as [_ H]. contradiction.
Qed.
Lemma ssuffix_r a b c : suffix a b -> ssuffix b c -> ssuffix a c.
Proof.
  intros [p ->] (q & Hq & ->). exists (q ++ p). split; [|now rewrite app_assoc].
  intros H. apply app_eq_nil in H as [H _]. contradiction.
Qed.
Lemma ssuffix_suffix a b : ssuffix a b -> suffix a b.
Proof. intros (p & _ & ->). now exists p. Qed.
Lemma ssuffix_length a b : ssuffix a b -> (length a < length b)%nat.
Proof. intros (p & Hp & ->). rewrite app_length. destruct p; [contradiction|]. simpl. lia. Qed.
Lemma suffix_length a b : suffix a b -> (length a <= length b)%nat.
Proof. intros (p & ->). rewrite app_length. lia. Qed.
Lemma ssuffix_cons c s : ssuffix s (c :: s).
Proof. exists [c]. split; [discriminate|reflexivity]. Qed.

Lemma consumed_app p r : consumed (p ++ r) r = p.
Proof.
  unfold consumed. rewrite app_length, Nat.add_sub, firstn_app, Nat.sub_diag. simpl.
  now rewrite app_nil_r, firstn_all.
Qed.

(** [weak a]: a match leaves a suffix; [strong a]: a proper one. *)
Definition weak (a : re) : Prop := forall s r, a s = Some r -> suffix r s.
Definition strong (a : re) : Prop := forall s r, a s = Some r -> ssuffix r s.

Lemma strong_weak a : strong a -> weak a.
Proof. intros H s r E. apply ssuffix_suffix, H, E. Qed.
Lemma strong_if f : strong (re_if f).
Proof.
  intros s r H. unfold re_if in H. destruct s as [|c s]; [discriminate|].
  destruct (f c); [|discriminate]. injection H as <-. apply ssuffix_cons.
Qed.
Lemma weak_word w : weak (re_word w).
Proof.
  induction w as [|x w IH]; intros s r H; simpl in H.
  - injection H as <-. apply suffix_refl.
  - destruct s as [|c s]; [discriminate|]. destruct (c =? x); [|discriminate].
    apply IH in H as [p ->]. now exists (c :: p).
Qed.
Lemma strong_word x w : strong (re_word (x :: w)).
Proof.
  intros s r H. simpl in H. destruct s as [|c s]; [discriminate|].
  destruct (c =? x); [|discriminate]. apply weak_word in H as [p ->]. exists (c :: p).
  split; [discriminate|reflexivity].
Qed.
Lemma weak_nothing : weak re_nothing.
Proof. intros s r H. injection H as <-. apply suffix_refl. Qed.
Lemma weak_chain a b : weak a -> weak b -> weak (re_chain a b).
Proof.
  intros Ha Hb s r H. unfold re_chain in H. destruct (a s) as [s'|] eqn:E; [|discriminate].
  eapply suffix_trans; [apply Hb, H|apply Ha, E].
Qed.
Lemma strong_chain_l a b : strong a -> weak b -> strong (re_chain a b).
Proof.
  intros Ha Hb s r H. unfold re_chain in H. destruct (a s) as [s'|] eqn:E; [|discriminate].
  eapply ssuffix_r; [apply Hb, H|apply Ha, E].
Qed.
Lemma strong_chain_r a b : weak a -> strong b -> strong (re_chain a b).
Proof.
  intros Ha Hb s r H. unfold re_chain in H. destruct (a s) as [s'|] eqn:E; [|discriminate].
  eapply ssuffix_l; [apply Hb, H|apply Ha, E].
Qed.
Lemma weak_either a b : weak a -> weak b -> weak (re_either a b).
Proof.
  intros Ha Hb s r H. unfold re_either in H. destruct (a s) as [s'|] eqn:E.
  - injection H as <-. apply Ha, E.
  - apply Hb, H.
Qed.
Lemma strong_either a b : strong a -> strong b -> strong (re_either a b).
Proof.
  intros Ha Hb s r H. unfold re_either in H. destruct (a s) as [s'|] eqn:E.
  - injection H as <-. apply Ha, E.
  - apply Hb, H.
Qed.
Lemma weak_opt a : weak a -> weak (re_opt a).
Proof.
  intros Ha s r H. unfold re_opt in H. destruct (a s) as [s'|] eqn:E; injection H as <-.
  - apply Ha, E.
  - apply suffix_refl.
Qed.
Lemma many_suffix a n s : weak a -> suffix (re_many a n s) s.
Proof.
  intros Ha. revert s; induction n as [|n IH]; intros s; simpl; [apply suffix_refl|].
  destruct (a s) as [s'|] eqn:E; [|apply suffix_refl].
  eapply suffix_trans; [apply IH|apply Ha, E].
Qed.
Lemma weak_star a : weak a -> weak (re_star a).
Proof. intros Ha s r H. injection H as <-. now apply many_suffix. Qed.
Lemma weak_atmost n a : weak a -> weak (re_atmost n a).
Proof. intros Ha s r H. injection H as <-. now apply many_suffix. Qed.
Lemma strong_plus a : strong a -> strong (re_plus a).
Proof.
  intros Ha s r H. unfold re_plus in H. destruct (a s) as [s'|] eqn:E; [|discriminate].
  injection H as <-. eapply ssuffix_r; [apply many_suffix, strong_weak, Ha|apply Ha, E].
Qed.
Lemma strong_neg a : strong (re_neg a).
Proof.
  intros s r H. unfold re_neg in H. destruct (a s); [discriminate|].
  destruct s as [|c s]; [discriminate|]. injection H as <-. apply ssuffix_cons.
Qed.

(** Greedy repetition is really maximal: the bound by the input length never cuts it. *)
Lemma many_maximal a n s : strong a -> (length s <= n)%nat -> a (re_many a n s) = None.
Proof.
  intros Ha. revert s; induction n as [|n IH]; intros s Hn; simpl.
  - destruct s; [|simpl in Hn; lia]. destruct (a []) as [r|] eqn:E; [|reflexivity].
    apply Ha, ssuffix_length in E. simpl in E. lia.
  - destruct (a s) as [s'|] eqn:E; [|exact E]. apply IH.
    apply Ha, ssuffix_length in E. lia.
Qed.

Create HintDb lexer.
Global Hint Resolve strong_if strong_word weak_word weak_nothing weak_chain weak_either strong_either
  weak_opt weak_star weak_atmost strong_plus strong_neg suffix_refl : lexer.

Lemma strong_newline : strong RE_NEWLINE.
Proof. unfold RE_NEWLINE, re_single. auto with lexer. Qed.
Lemma strong_ws : strong RE_WHITESPACE.
Proof. unfold RE_WHITESPACE, re_space, re_single. pose proof strong_newline. auto with lexer. Qed.
Lemma strong_wst : strong RE_WHITESPACE_TOKEN.
Proof. apply strong_plus, strong_ws. Qed.
Lemma strong_escape : strong RE_ESCAPE.
Proof.
  unfold RE_ESCAPE. apply strong_chain_l; [apply strong_if|]. apply weak_either.
  - apply strong_weak, strong_plus, strong_neg.
  - apply weak_chain; [apply strong_weak, strong_if|]. apply weak_chain.
    + apply weak_atmost, strong_weak, strong_if.
    + apply weak_opt, strong_weak, strong_ws.
Qed.
Lemma strong_name_start : strong RE_NAME_START.
Proof. unfold RE_NAME_START, re_alpha, re_single. auto with lexer. Qed.
Lemma strong_name_char : strong RE_NAME_CHAR.
Proof. unfold RE_NAME_CHAR, re_alnum, re_single. auto with lexer. Qed.
Lemma strong_esc_char : strong (re_either RE_ESCAPE RE_NAME_CHAR).
Proof. apply strong_either; [apply strong_escape|apply strong_name_char]. Qed.
Lemma strong_identifier : strong RE_IDENTIFIER.
Proof.
  unfold RE_IDENTIFIER. apply strong_chain_l.
  - apply strong_either; [apply strong_word|]. apply strong_chain_r.
    + apply weak_opt, strong_weak, strong_if.
    + apply strong_either; [apply strong_escape|apply strong_name_start].
  - apply weak_opt, strong_weak, strong_plus, strong_esc_char.
Qed.
Lemma strong_at : strong RE_AT_KEYWORD.
Proof. apply strong_chain_l; [apply strong_if|apply strong_weak, strong_identifier]. Qed.
Lemma strong_hash : strong RE_HASH.
Proof. apply strong_chain_l; [apply strong_if|apply strong_weak, strong_plus, strong_esc_char]. Qed.
Lemma strong_digits : strong RE_DIGIT.
Proof. apply strong_plus, strong_if. Qed.
Lemma weak_operator : weak RE_OPERATOR.
Proof. apply weak_either; [apply strong_weak, strong_if|apply weak_nothing]. Qed.
Lemma strong_number : strong RE_NUMBER.
Proof.
  unfold RE_NUMBER. apply strong_chain_r; [apply weak_operator|]. apply strong_chain_l.
  - apply strong_either.
    + apply strong_chain_l; [apply strong_digits|]. apply weak_opt.
      apply weak_chain; [apply strong_weak, strong_if|apply strong_weak, strong_digits].
    + apply strong_chain_l; [apply strong_if|apply strong_weak, strong_digits].
  - apply weak_opt, weak_chain.
    + apply weak_either; apply strong_weak, strong_if.
    + apply weak_chain; [apply weak_operator|apply strong_weak, strong_digits].
Qed.
Lemma weak_url : weak RE_URL.
Proof.
  unfold RE_URL. apply weak_chain; [apply weak_opt, strong_weak, strong_wst|].
  apply weak_chain.
  - apply weak_star, strong_weak, strong_either; [apply strong_escape|apply strong_neg].
  - apply weak_chain; [apply weak_opt, strong_weak, strong_wst|apply strong_weak, strong_if].
Qed.

Lemma consume_escape_suffix s r s' : consume_escape s = (r, s') -> suffix s' s.
Proof.
  unfold consume_escape. destruct (re_xdigit s) as [s1|] eqn:E.
  - intros H.
    assert (H1 : suffix s1 s) by (apply ssuffix_suffix, (strong_if _ _ _ E)).
    assert (H2 : suffix (re_many re_xdigit 4 s1) s1) by (apply many_suffix, strong_weak, strong_if).
    destruct (RE_WHITESPACE (re_many re_xdigit 4 s1)) as [r'|] eqn:E2; injection H as _ <-.
    + eapply suffix_trans; [apply ssuffix_suffix, strong_ws, E2|]. eapply suffix_trans; eassumption.
    + eapply suffix_trans; eassumption.
  - destruct s as [|c s]; intros H; injection H as _ <-; [apply suffix_refl|].
    apply ssuffix_suffix, ssuffix_cons.
Qed.

Lemma string_loop_suffix n q s acc ty d r : string_loop n q s acc = (ty, d, r) -> suffix r s.
Proof.
  revert s acc; induction n as [|n IH]; intros s acc H; cbn [string_loop] in H.
  - injection H as _ _ <-. apply suffix_refl.
  - destruct s as [|c s]; [injection H as _ _ <-; apply suffix_refl|].
    destruct (c =? q); [injection H as _ _ <-; apply ssuffix_suffix, ssuffix_cons|].
    destruct (RE_NEWLINE (c :: s)); [injection H as _ _ <-; apply suffix_refl|].
    assert (Hc : suffix s (c :: s)) by (apply ssuffix_suffix, ssuffix_cons).
    destruct (c =? 92).
    + destruct s as [|c' s]; [apply IH in H; eapply suffix_trans; eassumption|].
      destruct (RE_NEWLINE (c' :: s)) as [s''|] eqn:E.
      * apply IH in H. eapply suffix_trans; [exact H|]. eapply suffix_trans; [|exact Hc].
        apply ssuffix_suffix, strong_newline, E.
      * destruct (consume_escape (c' :: s)) as [x s''] eqn:E2. apply IH in H.
        eapply suffix_trans; [exact H|]. eapply suffix_trans; [|exact Hc].
        eapply consume_escape_suffix, E2.
    + apply IH in H. eapply suffix_trans; eassumption.
Qed.

Lemma until_suffix s r : until_comment_end s = Some r -> suffix r s.
Proof.
  induction s as [|c s IH]; cbn [until_comment_end]; intros H.
  - discriminate.
  - destruct (re_word [42; 47] (c :: s)) as [r'|] eqn:E.
    + injection H as <-. eapply weak_word, E.
    + eapply suffix_trans; [apply IH, H|]. apply ssuffix_suffix, ssuffix_cons.
Qed.

Lemma skip_comment_suffix rb s : suffix (skip_comment rb s) s.
Proof.
  unfold skip_comment. destruct (until_comment_end s) as [r|] eqn:E; [now apply until_suffix|].
  destruct rb; [apply suffix_refl|]. exists s. now rewrite app_nil_r.
Qed.

Lemma next_ident_suffix s0 s ty r : next_ident s0 s = (ty, r) -> suffix r s.
Proof.
  assert (Hcons : forall (c : rune) s', suffix s' (c :: s')) by (intros; apply ssuffix_suffix, ssuffix_cons).
  unfold next_ident. destruct s as [|c s']; [intros H; injection H as _ <-; apply suffix_refl|].
  destruct (N.eq_dec c 40) as [->|Hc].
  - destruct (eq_ci (consumed s0 s') str_url); [|intros H; injection H as _ <-; apply Hcons].
    destruct (re_chain (re_star RE_WHITESPACE) RE_QUOTES s'); [intros H; injection H as _ <-; apply Hcons|].
    destruct (RE_URL s') as [r'|] eqn:E; intros H; injection H as _ <-; [|apply Hcons].
    eapply suffix_trans; [apply weak_url, E|apply Hcons].
  - intros H. assert ((IDENT, c :: s') = (ty, r)) as H'.
    { rewrite <- H. destruct c as [|p]; [reflexivity|]. repeat (destruct p; try reflexivity). contradiction. }
    injection H' as _ <-. apply suffix_refl.
Qed.

Definition is_string_type (t : ttype) : bool :=
  match t with STRING | BAD_STRING => true | _ => false end.

Ltac step_next :=
  match goal with
  | H : match ?x with Some _ => _ | None => _ end = _ |- _ =>
      let E := fresh "E" in destruct x eqn:E
  end.

Ltac by_match :=
  match goal with
  | E : _ = Some _ |- _ =>
      first [exact (strong_wst _ _ E) | exact (strong_if _ _ _ E) | exact (strong_hash _ _ E)
            |exact (strong_word _ _ _ _ E) | exact (strong_at _ _ E) | exact (strong_identifier _ _ E)
            |exact (ssuffix_r _ _ _ (skip_comment_suffix _ _) (strong_word _ _ _ _ E))]
  end.

(** [next] takes a nonempty piece off the front; except for strings the token's data
    is that piece. *)
Lemma next_progress rb s t r :
  s <> [] -> next rb s = (t, r) ->
  exists p, p <> [] /\ s = p ++ r /\
            (is_string_type (t_type t) = false -> t_data t = p) /\ t_type t <> END_OF_FILE.
Proof.
  intros Hne H.
  assert (Hgo : forall ty r', ssuffix r' s -> ty <> END_OF_FILE ->
            (mkT ty (consumed s r'), r') = (t, r) ->
            exists p, p <> [] /\ s = p ++ r /\
              (is_string_type (t_type t) = false -> t_data t = p) /\ t_type t <> END_OF_FILE).
  { intros ty r' (p & Hp & Hs) Hty Heq. injection Heq as <- <-. exists p. split; [exact Hp|].
    split; [exact Hs|]. split; [|exact Hty]. intros _. simpl. rewrite Hs. apply consumed_app. }
  destruct s as [|c s']; [contradiction|]. unfold next in H.
  do 14 (step_next; [refine (Hgo _ _ _ _ H); [|discriminate]; by_match|]).
  destruct (RE_NUMBER (c :: s')) as [rn|] eqn:En0.
  { (* number *) pose proof (strong_number _ _ En0) as Hn.
    repeat step_next; (refine (Hgo _ _ _ _ H); [|discriminate]).
    - eapply ssuffix_r; [|exact Hn]. apply ssuffix_suffix. by_match.
    - eapply ssuffix_r; [|exact Hn]. apply ssuffix_suffix. by_match.
    - exact Hn. }
  destruct (RE_IDENTIFIER (c :: s')) as [ri|] eqn:Ei0.
  { pose proof (strong_identifier _ _ Ei0) as Hi.
    destruct (next_ident (c :: s') ri) as [ty r'] eqn:En.
    refine (Hgo _ _ _ _ H).
    - eapply ssuffix_r; [eapply next_ident_suffix, En|exact Hi].
    - unfold next_ident in En. intros ->.
      destruct ri as [|c2 s2]; [discriminate|].
      destruct c2 as [|p]; try discriminate.
      repeat (destruct p; try discriminate En).
      all: destruct (eq_ci _ _) in En; try discriminate En;
        destruct (re_chain _ _ _) in En; try discriminate En; destruct (RE_URL _) in En; discriminate En. }
  step_next; [refine (Hgo _ _ _ _ H); [|discriminate]; by_match|].
  destruct ((c =? 34) || (c =? 39)).
  - destruct (string_loop (length s') c s' []) as [[ty d] r'] eqn:Es. injection H as <- <-.
    apply string_loop_suffix in Es as Hs. destruct Hs as [p Hp]. exists (c :: p).
    split; [discriminate|]. split; [now rewrite Hp at 1|].
    assert (Hty : ty = STRING \/ ty = BAD_STRING).
    { clear -Es. revert Es. generalize (length s') at 1. intros n. generalize (@nil rune) as acc.
      revert s'. induction n as [|n IH]; intros s acc H; cbn [string_loop] in H.
      - injection H as <- _ _. auto.
      - destruct s as [|c' s]; [injection H as <- _ _; auto|].
        destruct (c' =? c); [injection H as <- _ _; auto|].
        destruct (RE_NEWLINE (c' :: s)); [injection H as <- _ _; auto|].
        destruct (c' =? 92); [|eapply IH, H].
        destruct s as [|c'' s]; [eapply IH, H|].
        destruct (RE_NEWLINE (c'' :: s)); [eapply IH, H|].
        destruct (consume_escape (c'' :: s)). eapply IH, H. }
    simpl. destruct Hty as [-> | ->]; split; discriminate.
  - refine (Hgo _ _ _ _ H); [|discriminate]. apply ssuffix_cons.
Qed.

Lemma lex_total rb s : forall n, (length s <= n)%nat ->
  exists l, lex rb n s = Some l /\ concat (map snd l) = s /\
    Forall (fun x => snd x <> [] /\ t_type (fst x) <> END_OF_FILE /\
                     (is_string_type (t_type (fst x)) = false -> t_data (fst x) = snd x)) l.
Proof.
  intros n. revert s; induction n as [|n IH]; intros s Hn.
  - destruct s; [|simpl in Hn; lia]. exists []. auto.
  - destruct s as [|c s']; [exists []; auto|]. cbn [lex].
    destruct (next rb (c :: s')) as [t r] eqn:E.
    destruct (next_progress rb (c :: s') t r ltac:(discriminate) E) as (p & Hp & Hs & Hd & Ht).
    assert (Hlen : (length r < length (c :: s'))%nat).
    { rewrite Hs, app_length. destruct p; [contradiction|]. simpl. lia. }
    destruct (IH r) as (l & -> & Hl & Hf); [simpl in *; lia|].
    assert (Hc : consumed (c :: s') r = p) by (rewrite Hs; apply consumed_app).
    rewrite Hc. exists ((t, p) :: l). split; [reflexivity|]. split.
    + simpl. now rewrite Hl.
    + constructor; [|exact Hf]. simpl. auto.
Qed.

Lemma lex_fuel rb s : forall n m l, lex rb n s = Some l -> (n <= m)%nat -> lex rb m s = Some l.
Proof.
  intros n. revert s; induction n as [|n IH]; intros s m l H Hm.
  - destruct s; [|discriminate]. destruct m; exact H.
  - destruct s as [|c s']; [destruct m; exact H|]. destruct m as [|m]; [lia|].
    cbn [lex] in *. destruct (next rb (c :: s')) as [t r].
    destruct (lex rb n r) as [l'|] eqn:E; [|discriminate].
    rewrite (IH r m l' E) by lia. exact H.
Qed.

(** * Round trip of written tokens *)

Section Many.
  Variable a : re.
  Variable f : rune -> bool.
  Hypothesis Hf : forall c s, f c = true -> a (c :: s) = Some s.

  Lemma many_prefix p r n :
    Forall (fun c => f c = true) p -> a r = None -> (length p <= n)%nat -> re_many a n (p ++ r) = r.
  Proof.
    intros Hp Hr. revert n; induction p as [|c p IH]; intros n Hn; simpl.
    - destruct n; [reflexivity|]. simpl. now rewrite Hr.
    - simpl in Hn. destruct n as [|n]; [lia|]. inversion Hp; subst. simpl. rewrite Hf by assumption.
      apply IH; [assumption|lia].
  Qed.

  Lemma plus_prefix c p r :
    f c = true -> Forall (fun c => f c = true) p -> a r = None -> re_plus a (c :: p ++ r) = Some r.
  Proof.
    intros Hc Hp Hr. unfold re_plus. rewrite Hf by exact Hc. f_equal.
    apply many_prefix; [exact Hp|exact Hr|]. rewrite app_length. lia.
  Qed.
End Many.

Lemma re_if_no f r : head_not f r -> re_if f r = None.
Proof. destruct r as [|c r]; [reflexivity|]. simpl. now intros ->. Qed.

Lemma head_not_impl (f g : rune -> bool) r :
  (forall c, g c = true -> f c = true) -> head_not f r -> head_not g r.
Proof.
  intros H. destruct r as [|c r]; [auto|]. simpl. intros Hf. destruct (g c) eqn:E; [|reflexivity].
  apply H in E. congruence.
Qed.

Ltac hn := let x := fresh in let Hx := fresh in intros x Hx; cbn beta in *; rewrite ?Hx, ?orb_true_r; reflexivity.

Lemma ascii_neg c s : re_neg RE_ASCII (c :: s) = if 128 <=? c then Some s else None.
Proof.
  unfold re_neg, RE_ASCII, re_range, re_if.
  destruct ((0 <=? c) && (c <=? 127)) eqn:E1, (128 <=? c) eqn:E2; try reflexivity; lia.
Qed.

Lemma name_char_yes c s : name_char c = true -> RE_NAME_CHAR (c :: s) = Some s.
Proof.
  intros H. unfold RE_NAME_CHAR, re_either, re_alnum, re_single. cbn [re_if existsb].
  rewrite ascii_neg. unfold name_char in H.
  destruct (is_alnum c); [reflexivity|].
  destruct ((c =? 95) || ((c =? 45) || false)) eqn:E; [reflexivity|].
  destruct (128 <=? c) eqn:E2; [reflexivity|]. simpl in H. lia.
Qed.
Lemma name_char_no r : head_not name_char r -> RE_NAME_CHAR r = None.
Proof.
  destruct r as [|c r]; [reflexivity|]. intros H. simpl in H.
  unfold RE_NAME_CHAR, re_either, re_alnum, re_single. cbn [re_if existsb]. rewrite ascii_neg.
  unfold name_char in H. destruct (is_alnum c); [discriminate|].
  destruct ((c =? 95) || ((c =? 45) || false)) eqn:E; [simpl in H; lia|].
  destruct (128 <=? c) eqn:E2; [simpl in H; lia|]. reflexivity.
Qed.
Lemma name_start_yes c s : name_start c = true -> RE_NAME_START (c :: s) = Some s.
Proof.
  intros H. unfold RE_NAME_START, re_either, re_alpha, re_single. cbn [re_if existsb].
  rewrite ascii_neg. unfold name_start in H.
  destruct (is_alpha c); [reflexivity|].
  destruct ((c =? 95) || false) eqn:E; [reflexivity|].
  destruct (128 <=? c) eqn:E2; [reflexivity|]. simpl in H. lia.
Qed.

Lemma escape_no r : head_not (fun c => c =? 92) r -> RE_ESCAPE r = None.
Proof.
  intros H. unfold RE_ESCAPE, re_chain, re_single. rewrite re_if_no; [reflexivity|].
  eapply head_not_impl; [|exact H]. intros c Hc. simpl in Hc. now rewrite orb_false_r in Hc.
Qed.

Lemma esc_char_yes c s : name_char c = true -> re_either RE_ESCAPE RE_NAME_CHAR (c :: s) = Some s.
Proof.
  intros H. unfold re_either at 1. rewrite escape_no; [now apply name_char_yes|].
  simpl. unfold name_char, is_alnum, is_alpha, is_upper, is_lower, is_digit in H. lia.
Qed.
Lemma esc_char_no r : head_not (fun c => name_char c || (c =? 92)) r -> re_either RE_ESCAPE RE_NAME_CHAR r = None.
Proof.
  intros H. unfold re_either at 1. rewrite escape_no.
  - apply name_char_no. eapply head_not_impl; [|exact H]. hn.
  - eapply head_not_impl; [|exact H]. intros c Hc. simpl in *. rewrite Hc. apply orb_true_r.
Qed.

Lemma name_start_char c : name_start c = true -> name_char c = true.
Proof. unfold name_start, name_char, is_alnum. destruct (is_alpha c); [reflexivity|]. simpl. lia. Qed.

(** Everything after the first part of an identifier. *)
Lemma ident_tail p r :
  Forall (fun c => name_char c = true) p -> head_not (fun c => name_char c || (c =? 92)) r ->
  re_opt (re_plus (re_either RE_ESCAPE RE_NAME_CHAR)) (p ++ r) = Some r.
Proof.
  intros Hp Hr. pose proof (esc_char_no r Hr) as Hno. unfold re_opt. destruct p as [|c p].
  - simpl. unfold re_plus. now rewrite Hno.
  - inversion Hp; subst. simpl app. rewrite (plus_prefix _ name_char); auto using esc_char_yes.
Qed.

Lemma ident_unfold s r1 r :
  re_either (re_word [45; 45]) (re_chain (re_opt (re_single [45])) (re_either RE_ESCAPE RE_NAME_START)) s = Some r1 ->
  re_opt (re_plus (re_either RE_ESCAPE RE_NAME_CHAR)) r1 = Some r ->
  RE_IDENTIFIER s = Some r.
Proof. intros H1 H2. unfold RE_IDENTIFIER, re_chain at 1. now rewrite H1. Qed.

Lemma ident_text s r :
  plain_ident s -> head_not (fun c => name_char c || (c =? 92)) r ->
  RE_IDENTIFIER (s ++ r) = Some r.
Proof.
  intros (Hall & Hs) Hr.
  destruct Hs as [(c & p & -> & Hc)|[(c & p & -> & Hc)|(c & p & ->)]].
  - inversion Hall; subst.
    assert (Hn : c <> 45 /\ c <> 92) by (unfold name_start, is_alpha, is_upper, is_lower in Hc; lia).
    apply (ident_unfold _ (p ++ r)).
    { unfold re_either at 1. cbn [app re_word]. destruct (c =? 45) eqn:E; [lia|].
      unfold re_chain, re_opt, re_single. cbn [re_if existsb]. rewrite E. cbn [orb].
      unfold re_either. rewrite escape_no by (simpl; lia). now apply name_start_yes. }
    now apply ident_tail.
  - inversion Hall as [|? ? _ Hall']; subst. inversion Hall'; subst.
    assert (Hn : c <> 45 /\ c <> 92) by (unfold name_start, is_alpha, is_upper, is_lower in Hc; lia).
    apply (ident_unfold _ (p ++ r)).
    { unfold re_either at 1. cbn [app re_word]. destruct (c =? 45) eqn:E; [lia|]. cbn.
      unfold re_either. rewrite escape_no by (simpl; lia). now apply name_start_yes. }
    now apply ident_tail.
  - inversion Hall as [|? ? _ Hall']; subst. inversion Hall' as [|? ? _ Hall'']; subst.
    apply (ident_unfold _ ((c :: p) ++ r)); [reflexivity|now apply ident_tail].
Qed.

Lemma digits_text d r : digits d -> head_not is_digit r -> RE_DIGIT (d ++ r) = Some r.
Proof.
  intros [Hne Hd] Hr. destruct d as [|c d]; [contradiction|]. inversion Hd; subst.
  simpl app. apply (plus_prefix re_digit is_digit); auto.
  - intros c' s Hc. unfold re_digit, re_if. now rewrite Hc.
  - now apply re_if_no.
Qed.

(** What may follow a number so that it ends there. *)
Definition number_ends (r : str) : Prop :=
  head_not (fun c => is_digit c || (c =? 46)) r /\
  re_chain (re_either (re_single [101]) (re_single [69])) (re_chain RE_OPERATOR RE_DIGIT) r = None.

Lemma operator_none c s : c <> 43 -> c <> 45 -> RE_OPERATOR (c :: s) = Some (c :: s).
Proof.
  intros H1 H2. unfold RE_OPERATOR, re_either, re_single. cbn [re_if existsb].
  destruct ((c =? 45) || ((c =? 43) || false)) eqn:E; [lia|reflexivity].
Qed.

Lemma digits_head d r : digits d -> exists c d', d ++ r = c :: d' ++ r /\ is_digit c = true.
Proof.
  intros [Hne Hd]. destruct d as [|c d]; [contradiction|]. inversion Hd; subst. exists c, d. auto.
Qed.

Lemma sign_text sgn s r c :
  (sgn = [] \/ sgn = [43] \/ sgn = [45]) -> s = c :: r -> c <> 43 -> c <> 45 ->
  RE_OPERATOR (sgn ++ s) = Some s.
Proof.
  intros H -> H1 H2. destruct H as [->|[->| ->]]; [now apply operator_none|reflexivity|reflexivity].
Qed.

Lemma exponent_text e sgn d r :
  (e = 101 \/ e = 69) -> (sgn = [] \/ sgn = [43] \/ sgn = [45]) -> digits d -> head_not is_digit r ->
  re_chain (re_either (re_single [101]) (re_single [69])) (re_chain RE_OPERATOR RE_DIGIT)
    ((e :: sgn ++ d) ++ r) = Some r.
Proof.
  intros He Hs Hd Hr. unfold re_chain at 1.
  assert (re_either (re_single [101]) (re_single [69]) ((e :: sgn ++ d) ++ r) = Some (sgn ++ d ++ r)) as ->.
  { rewrite app_assoc. destruct He as [-> | ->]; reflexivity. }
  unfold re_chain. destruct (digits_head d r Hd) as (c & d' & Heq & Hc).
  rewrite (sign_text sgn (d ++ r) _ c Hs Heq); [now apply digits_text| |];
    unfold is_digit in Hc; lia.
Qed.

Lemma number_text_re n r : number_text n -> number_ends r -> RE_NUMBER (n ++ r) = Some r.
Proof.
  intros (sgn & mant & expo & -> & Hs & Hm & He) [Hr1 Hr2].
  assert (Hdot : head_not is_digit r).
  { eapply head_not_impl; [|exact Hr1]. hn. }
  set (t := expo ++ r).
  assert (Ht : head_not (fun c => is_digit c || (c =? 46)) t /\
               re_opt (re_chain (re_either (re_single [101]) (re_single [69])) (re_chain RE_OPERATOR RE_DIGIT)) t = Some r).
  { unfold t. destruct He as [->|(e & s' & d & He & Hs' & Hd & ->)].
    - split; [exact Hr1|]. simpl app. unfold re_opt. now rewrite Hr2.
    - split; [destruct He as [-> | ->]; reflexivity|]. unfold re_opt. now rewrite exponent_text. }
  destruct Ht as [Ht1 Ht2].
  assert (Ht3 : head_not is_digit t).
  { eapply head_not_impl; [|exact Ht1]. hn. }
  assert (Ht4 : head_not (fun c => c =? 46) t).
  { eapply head_not_impl; [|exact Ht1]. hn. }
  assert (Hmant : exists c m', mant ++ t = c :: m' /\ c <> 43 /\ c <> 45 /\
    re_either (re_chain RE_DIGIT (re_opt (re_chain (re_single [46]) RE_DIGIT)))
              (re_chain (re_single [46]) RE_DIGIT) (mant ++ t) = Some t).
  { destruct Hm as [Hd|[(a & b & -> & Ha & Hb)|(b & -> & Hb)]].
    - destruct (digits_head mant t Hd) as (c & d' & Heq & Hc). exists c, (d' ++ t).
      split; [exact Heq|]. split; [unfold is_digit in Hc; lia|]. split; [unfold is_digit in Hc; lia|].
      unfold re_either, re_chain. rewrite digits_text by assumption.
      unfold re_opt, re_single. rewrite re_if_no; [reflexivity|].
      eapply head_not_impl; [|exact Ht4]. intros x Hx. simpl in Hx. now rewrite orb_false_r in Hx.
    - rewrite <- app_assoc. cbn [app].
      destruct (digits_head a (46 :: b ++ t) Ha) as (c & d' & Heq & Hc). exists c, (d' ++ 46 :: b ++ t).
      split; [exact Heq|]. split; [unfold is_digit in Hc; lia|]. split; [unfold is_digit in Hc; lia|].
      unfold re_either, re_chain. rewrite digits_text by (try assumption; reflexivity).
      unfold re_opt. cbn [re_single re_if existsb N.eqb Pos.eqb orb]. now rewrite digits_text.
    - exists 46, (b ++ t). cbn [app]. split; [reflexivity|]. split; [lia|]. split; [lia|].
      unfold re_either, re_chain at 1.
      assert (RE_DIGIT (46 :: b ++ t) = None) as -> by reflexivity.
      unfold re_chain. cbn [re_single re_if existsb N.eqb Pos.eqb orb]. now rewrite digits_text. }
  destruct Hmant as (c & m' & Heq & Hc1 & Hc2 & Hm').
  rewrite <- !app_assoc. fold t. unfold RE_NUMBER, re_chain at 1.
  rewrite (sign_text sgn (mant ++ t) m' c Hs Heq Hc1 Hc2).
  unfold re_chain at 1. rewrite Hm'. exact Ht2.
Qed.

Lemma number_head n r : number_text n ->
  exists c n', n ++ r = c :: n' /\ (is_digit c = true \/ c = 46 \/
    ((c = 43 \/ c = 45) /\ exists c' n'', n' = c' :: n'' /\ (is_digit c' = true \/ c' = 46))).
Proof.
  intros (sgn & mant & expo & -> & Hs & Hm & He).
  assert (Hmant : exists c m', mant = c :: m' /\ (is_digit c = true \/ c = 46)).
  { destruct Hm as [[Hne Hd]|[(a & b & -> & [Hne Ha] & Hb)|(b & -> & Hb)]].
    - destruct mant as [|c m]; [contradiction|]. inversion Hd; subst. eauto.
    - destruct a as [|c a]; [contradiction|]. inversion Ha; subst. simpl. eauto.
    - eauto. }
  destruct Hmant as (c & m' & -> & Hc). rewrite <- !app_assoc.
  destruct Hs as [->|[->| ->]]; simpl.
  - exists c, (m' ++ expo ++ r). split; [reflexivity|]. tauto.
  - eexists 43, _. split; [reflexivity|]. right. right. split; [auto|]. eauto.
  - eexists 45, _. split; [reflexivity|]. right. right. split; [auto|]. eauto.
Qed.

(** Characters on which the one-character alternatives of [next] fail. *)
Definition not_special (c : rune) : Prop :=
  is_space c = false /\ ~ In c [123; 125; 91; 93; 40; 41; 59; 58; 44; 35].

Lemma ws_yes c s : is_space c = true -> RE_WHITESPACE (c :: s) = Some s.
Proof. intros H. unfold RE_WHITESPACE, re_either, re_space, re_if. now rewrite H. Qed.
Lemma newline_no' c s : c <> 10 -> c <> 12 -> c <> 13 -> RE_NEWLINE (c :: s) = None.
Proof.
  intros H1 H2 H3. unfold RE_NEWLINE, re_either, re_single, re_if. cbn [existsb re_word].
  destruct ((c =? 10) || ((c =? 13) || ((c =? 12) || false))) eqn:E; [lia|].
  destruct (c =? 13) eqn:E2; [lia|reflexivity].
Qed.
Lemma newline_no c s : is_space c = false -> RE_NEWLINE (c :: s) = None.
Proof. intros H. unfold is_space in H. apply newline_no'; lia. Qed.
Lemma ws_no r : head_not is_space r -> RE_WHITESPACE r = None.
Proof.
  destruct r as [|c s]; [reflexivity|]. intros H. simpl in H.
  unfold RE_WHITESPACE, re_either, re_space, re_single. cbn [re_if existsb]. rewrite H.
  unfold is_space in H. destruct ((c =? 9) || false) eqn:E; [lia|]. now apply newline_no.
Qed.

Lemma single_no x c s : c <> x -> re_single [x] (c :: s) = None.
Proof. intros H. unfold re_single, re_if. cbn [existsb]. destruct (c =? x) eqn:E; [lia|reflexivity]. Qed.
Lemma word_no x w c s : c <> x -> re_word (x :: w) (c :: s) = None.
Proof. intros H. cbn [re_word]. destruct (c =? x) eqn:E; [lia|reflexivity]. Qed.

(** [next] once the one-character alternatives and the hash have failed. *)
Definition next_rest (rb : bool) (c : rune) (s' : str) : token * str :=
  let s := c :: s' in
  let tk ty r := (mkT ty (consumed s r), r) in
      match re_word (of_string "<!--") s with Some r => tk CDO r | None =>
      match re_word (of_string "-->") s with Some r => tk CDC r | None =>
      match re_word (of_string "/*") s with Some r => tk COMMENT (skip_comment rb r) | None =>
      match RE_NUMBER s with
      | Some r =>
          match RE_IDENTIFIER r with
          | Some r' => tk DIMENSION r'
          | None => match re_single [37] r with
                    | Some r' => tk PERCENTAGE r'
                    | None => tk NUMBER r
                    end
          end
      | None =>
      match RE_IDENTIFIER s with
      | Some r => let (ty, r') := next_ident s r in tk ty r'
      | None =>
      match RE_AT_KEYWORD s with Some r => tk AT_KEYWORD r | None =>
      if (c =? 34) || (c =? 39) then
        let '(ty, d, r) := string_loop (length s') c s' [] in (mkT ty d, r)
      else tk DELIM s'
      end end end end end end.

Lemma next_rest_eq rb c s' : not_special c -> next rb (c :: s') = next_rest rb c s'.
Proof.
  intros [Hs Hc]. unfold next.
  assert (RE_WHITESPACE_TOKEN (c :: s') = None) as ->.
  { unfold RE_WHITESPACE_TOKEN, re_plus. now rewrite ws_no. }
  simpl In in Hc. rewrite !single_no by (intros ->; apply Hc; tauto).
  assert (RE_HASH (c :: s') = None) as ->.
  { unfold RE_HASH, re_chain. rewrite single_no; [reflexivity|]. intros ->. apply Hc. tauto. }
  reflexivity.
Qed.

Lemma number_no c s :
  is_digit c = false -> c <> 46 ->
  ((c <> 43 /\ c <> 45) \/ head_not (fun c => is_digit c || (c =? 46)) s) ->
  RE_NUMBER (c :: s) = None.
Proof.
  intros Hd Hdot Hs.
  assert (Hno : forall r, head_not (fun c => is_digit c || (c =? 46)) r ->
     re_either (re_chain RE_DIGIT (re_opt (re_chain (re_single [46]) RE_DIGIT)))
              (re_chain (re_single [46]) RE_DIGIT) r = None).
  { intros r Hr. unfold re_either, re_chain, RE_DIGIT, re_plus, re_digit, re_single.
    rewrite !re_if_no; [reflexivity| |].
    - eapply head_not_impl; [|exact Hr]. intros x Hx. simpl in Hx. rewrite orb_false_r in Hx. cbn beta. rewrite Hx. apply orb_true_r.
    - eapply head_not_impl; [|exact Hr]. hn. }
  unfold RE_NUMBER, re_chain at 1.
  destruct Hs as [[H1 H2]|Hs].
  - rewrite operator_none by assumption. unfold re_chain at 1. rewrite Hno; [reflexivity|].
    simpl. rewrite Hd. simpl. lia.
  - destruct (N.eq_dec c 43) as [->|H1]; [|destruct (N.eq_dec c 45) as [->|H2]].
    + change (RE_OPERATOR (43 :: s)) with (Some s). cbv iota beta. unfold re_chain at 1. now rewrite Hno.
    + change (RE_OPERATOR (45 :: s)) with (Some s). cbv iota beta. unfold re_chain at 1. now rewrite Hno.
    + rewrite operator_none by assumption. unfold re_chain at 1. rewrite Hno; [reflexivity|].
      simpl. rewrite Hd. simpl. lia.
Qed.

Lemma ident_no c s : name_start c = false -> c <> 45 -> c <> 92 -> RE_IDENTIFIER (c :: s) = None.
Proof.
  intros H1 H2 H3. unfold RE_IDENTIFIER, re_chain at 1, re_either at 1.
  rewrite word_no by exact H2. unfold re_chain, re_opt. rewrite single_no by exact H2.
  unfold re_either. rewrite escape_no by (simpl; lia).
  unfold RE_NAME_START, re_either, re_alpha, re_single. cbn [re_if existsb]. rewrite ascii_neg.
  unfold name_start in H1. destruct (is_alpha c); [discriminate|].
  destruct ((c =? 95) || false) eqn:E; [simpl in H1; lia|]. destruct (128 <=? c) eqn:E2; [simpl in H1; lia|].
  reflexivity.
Qed.

Lemma eq_ci_app_same a b x : eq_ci (a ++ [x]) (b ++ [x]) = eq_ci a b.
Proof.
  revert b; induction a as [|c a IH]; intros [|d b]; simpl.
  - now rewrite N.eqb_refl.
  - destruct b; simpl; apply andb_false_r.
  - destruct a; simpl; apply andb_false_r.
  - now rewrite IH.
Qed.

(** First characters of identifiers. *)
Lemma plain_ident_head s r : plain_ident s ->
  exists c s', s ++ r = c :: s' ++ r /\ s = c :: s' /\ not_special c /\ is_digit c = false /\
    c <> 46 /\ c <> 43 /\ c <> 60 /\ c <> 47 /\
    (c <> 45 \/ (c = 45 /\ exists d s'', s' = d :: s'' /\ is_digit d = false /\ d <> 46 /\
                  (d <> 45 \/ exists e s3, s'' = e :: s3 /\ e <> 62))).
Proof.
  intros (Hall & Hs).
  destruct Hs as [(c & p & -> & Hc)|[(c & p & -> & Hc)|(c & p & ->)]].
  - exists c, p. unfold not_special, name_start, is_alpha, is_upper, is_lower, is_digit, is_space in *. cbn [In].
    repeat split; try reflexivity; try lia.
  - exists 45, (c :: p). split; [reflexivity|]. split; [reflexivity|].
    split; [split; [reflexivity|cbn [In]; lia]|]. split; [reflexivity|].
    split; [lia|]. split; [lia|]. split; [lia|]. split; [lia|]. right. split; [reflexivity|]. exists c, p.
    unfold name_start, is_alpha, is_upper, is_lower, is_digit in *.
    repeat split; try reflexivity; try lia.
  - exists 45, (45 :: c :: p). split; [reflexivity|]. split; [reflexivity|].
    split; [split; [reflexivity|cbn [In]; lia]|]. split; [reflexivity|].
    split; [lia|]. split; [lia|]. split; [lia|]. split; [lia|]. right. split; [reflexivity|]. exists 45, (c :: p).
    repeat split; try reflexivity; try lia. right. exists c, p. split; [reflexivity|].
    inversion Hall as [|? ? _ H1]; subst. inversion H1 as [|? ? _ H2]; subst. inversion H2 as [|? ? H3 _]; subst.
    intros ->. discriminate.
Qed.

Lemma next_rest_ident rb s r :
  plain_ident s -> forall c s', s ++ r = c :: s' -> 
  head_not (fun c => name_char c || (c =? 92)) r ->
  next_rest rb c s' = let (ty, r') := next_ident (c :: s') r in (mkT ty (consumed (c :: s') r'), r').
Proof.
  intros Hs c s' Heq Hr. destruct (plain_ident_head s r Hs) as
    (c0 & s0 & H1 & H2 & H3 & H4 & H5 & H6 & H7 & H8 & H9).
  assert (c0 = c /\ s0 ++ r = s') as [<- <-] by (rewrite H1 in Heq; injection Heq; auto).
  unfold next_rest.
  change (of_string "<!--") with [60; 33; 45; 45]. change (of_string "-->") with [45; 45; 62].
  change (of_string "/*") with [47; 42].
  rewrite word_no by exact H7.
  assert (re_word [45; 45; 62] (c0 :: s0 ++ r) = None) as ->.
  { destruct H9 as [H9|(-> & d & s3 & -> & Hd & Hd' & [H9|(e & s4 & -> & He)])].
    - now apply word_no.
    - cbn [re_word app]. change (45 =? 45) with true. cbv iota. destruct (d =? 45) eqn:E; [lia|reflexivity].
    - cbn [re_word app]. change (45 =? 45) with true. cbv iota. destruct (d =? 45); [|reflexivity].
      destruct (e =? 62) eqn:E; [lia|reflexivity]. }
  rewrite word_no by exact H8.
  rewrite number_no; [|exact H4|exact H5|].
  - rewrite <- H1, ident_text by assumption. reflexivity.
  - destruct H9 as [H9|(-> & d & s3 & -> & Hd & Hd' & _)]; [left; auto|]. right. simpl. rewrite Hd. simpl. lia.
Qed.

Lemma next_ident_plain s0 r : head_not (fun c => c =? 40) r -> next_ident s0 r = (IDENT, r).
Proof.
  destruct r as [|c r]; [reflexivity|]. intros H. cbn [head_not] in H. unfold next_ident.
  destruct c as [|p]; [reflexivity|]. repeat (destruct p; try reflexivity). discriminate.
Qed.

Lemma next_rest_number rb n r :
  number_text n -> number_ends r -> forall c s', n ++ r = c :: s' ->
  not_special c /\
  next_rest rb c s' =
    match RE_IDENTIFIER r with
    | Some r' => (mkT DIMENSION (consumed (c :: s') r'), r')
    | None => match re_single [37] r with
              | Some r' => (mkT PERCENTAGE (consumed (c :: s') r'), r')
              | None => (mkT NUMBER (consumed (c :: s') r), r)
              end
    end.
Proof.
  intros Hn Hr c s' Heq. destruct (number_head n r Hn) as (c0 & n' & H1 & H2).
  rewrite Heq in H1. injection H1 as <- <-.
  split.
  { unfold not_special. cbn [In]. unfold is_digit, is_space in *. split; [lia|]. lia. }
  unfold next_rest.
  change (of_string "<!--") with [60; 33; 45; 45]. change (of_string "-->") with [45; 45; 62].
  change (of_string "/*") with [47; 42].
  rewrite word_no by (unfold is_digit in H2; lia).
  assert (re_word [45; 45; 62] (c :: s') = None) as ->.
  { destruct H2 as [H2|[->|[[->| ->] (c' & n'' & -> & Hc')]]].
    - apply word_no. unfold is_digit in H2. lia.
    - reflexivity.
    - reflexivity.
    - cbn [re_word]. change (45 =? 45) with true. cbv iota.
      destruct (c' =? 45) eqn:E; [|reflexivity]. unfold is_digit in Hc'. lia. }
  rewrite word_no by (unfold is_digit in H2; lia).
  rewrite <- Heq at 1. rewrite number_text_re by assumption. reflexivity.
Qed.

Lemma number_ends_of r :
  head_not (fun c => name_char c || (c =? 92) || (c =? 46) || (c =? 37)) r -> number_ends r.
Proof.
  intros H. split.
  - eapply head_not_impl; [|exact H]. intros c Hc. unfold name_char, is_alnum.
    apply orb_true_iff in Hc as [-> | ->]; rewrite ?orb_true_r; reflexivity.
  - unfold re_chain at 1, re_either, re_single. rewrite !re_if_no; [reflexivity| |];
      (eapply head_not_impl; [|exact H]); intros c Hc; simpl in Hc; rewrite orb_false_r in Hc;
      apply N.eqb_eq in Hc; subst c; reflexivity.
Qed.

Lemma number_ends_unit u r :
  unit_ok u -> head_not (fun c => name_char c || (c =? 92)) r -> number_ends (u ++ r).
Proof.
  intros (Hall & (c & u' & -> & Hc) & He) Hr. split.
  - simpl. unfold name_start, is_alpha, is_upper, is_lower, is_digit in *. lia.
  - unfold re_chain at 1. cbn [app].
    assert (Hcase : (c = 101 \/ c = 69) \/ (c <> 101 /\ c <> 69)) by lia.
    destruct Hcase as [Hc'|[H1 H2]].
    2:{ unfold re_either. now rewrite !single_no. }
    assert (re_either (re_single [101]) (re_single [69]) (c :: u' ++ r) = Some (u' ++ r)) as ->.
    { destruct Hc' as [-> | ->]; reflexivity. }
    cbn [exponent_like] in He.
    assert (Hc2 : (c =? 101) || (c =? 69) = true) by lia. rewrite Hc2 in He. cbn [andb] in He.
    assert (Hdno : forall x, head_not is_digit x -> RE_DIGIT x = None).
    { intros x Hx. unfold RE_DIGIT, re_plus. now rewrite (re_if_no is_digit). }
    destruct u' as [|d u']; [discriminate|]. apply orb_false_iff in He as [He1 He2].
    inversion Hall as [|? ? _ Hall']; subst. inversion Hall' as [|? ? Hd _]; subst.
    unfold re_chain. cbn [app].
    destruct (N.eq_dec d 45) as [->|Hd45].
    + change (RE_OPERATOR (45 :: u' ++ r)) with (Some (u' ++ r)). cbv iota beta. apply Hdno.
      change (45 =? 45) with true in He2. cbn [andb] in He2.
      destruct u' as [|e u']; [discriminate|]. exact He2.
    + rewrite operator_none; [|unfold name_char, is_alnum, is_alpha, is_upper, is_lower, is_digit in Hd; lia|exact Hd45].
      apply Hdno. exact He1.
Qed.

(** ** Strings *)

Definition low_codes : list N := map N.of_nat (seq 0 16).

Lemma hex_digit_props n : n < 16 -> is_xdigit (hex_digit n) = true /\ xdigit_val (hex_digit n) = n.
Proof.
  intros H. assert (In n low_codes) as Hin.
  { unfold low_codes. apply in_map_iff. exists (N.to_nat n). split; [apply N2Nat.id|].
    apply in_seq. lia. }
  assert (forallb (fun n => is_xdigit (hex_digit n) && (xdigit_val (hex_digit n) =? n)) low_codes = true) as Hall
    by (vm_compute; reflexivity).
  rewrite forallb_forall in Hall. specialize (Hall n Hin). apply andb_true_iff in Hall as [H1 H2].
  apply N.eqb_eq in H2. auto.
Qed.

Lemma consume_escape_1 c r : 0 < c < 16 -> consume_escape (hex_digit c :: 32 :: r) = (c, r).
Proof.
  intros Hc. destruct (hex_digit_props c) as [H1 H2]; [lia|].
  unfold consume_escape, re_xdigit. cbn [re_if]. rewrite H1.
  change (re_many re_xdigit 4 (32 :: r)) with (32 :: r).
  change (hex_digit c :: 32 :: r) with ([hex_digit c] ++ 32 :: r). rewrite consumed_app.
  change (RE_WHITESPACE (32 :: r)) with (Some r).
  unfold hex_val. cbn [fold_left]. rewrite H2. change (0 * 16 + c) with (0 + c). rewrite N.add_0_l.
  destruct ((55296 <=? c) && (c <=? 57343)) eqn:E1; [lia|].
  destruct ((c =? 0) || (1114111 <? c)) eqn:E2; [lia|]. reflexivity.
Qed.

Lemma consume_escape_2 c r :
  16 <= c < 256 -> consume_escape (hex_digit (c / 16) :: hex_digit (c mod 16) :: 32 :: r) = (c, r).
Proof.
  intros Hc. destruct (hex_digit_props (c / 16)) as [H1 H2].
  { apply N.div_lt_upper_bound; lia. }
  destruct (hex_digit_props (c mod 16)) as [H3 H4]; [apply N.mod_lt; lia|].
  unfold consume_escape, re_xdigit at 1. cbn [re_if]. rewrite H1.
  assert (re_many re_xdigit 4 (hex_digit (c mod 16) :: 32 :: r) = 32 :: r) as ->.
  { cbn [re_many]. unfold re_xdigit at 1. cbn [re_if]. now rewrite H3. }
  change (hex_digit (c / 16) :: hex_digit (c mod 16) :: 32 :: r)
    with ([hex_digit (c / 16); hex_digit (c mod 16)] ++ 32 :: r). rewrite consumed_app.
  change (RE_WHITESPACE (32 :: r)) with (Some r).
  unfold hex_val. cbn [fold_left]. rewrite H2, H4.
  assert ((0 * 16 + c / 16) * 16 + c mod 16 = c) as ->.
  { rewrite N.mul_0_l, N.add_0_l, N.mul_comm. symmetry. apply N.div_mod. lia. }
  destruct ((55296 <=? c) && (c <=? 57343)) eqn:E1; [lia|].
  destruct ((c =? 0) || (1114111 <? c)) eqn:E2; [lia|]. reflexivity.
Qed.

Lemma hex_digit_not n : n < 16 -> forall s, RE_NEWLINE (hex_digit n :: s) = None.
Proof.
  intros H s. apply newline_no. unfold hex_digit, is_space. destruct (n <? 10) eqn:E; lia.
Qed.

Lemma string_loop_text s : forall n acc r,
  Forall (fun c => 0 < c) s -> (length (concat (map escape_char s) ++ 34%N :: r) <= n)%nat ->
  string_loop n 34 (concat (map escape_char s) ++ 34 :: r) acc = (STRING, rev acc ++ s, r).
Proof.
  induction s as [|c s IH]; intros n acc r Hs Hn.
  - simpl in *. destruct n as [|n]; [lia|]. cbn [string_loop]. change (34 =? 34) with true. cbv iota.
    now rewrite app_nil_r.
  - inversion Hs as [|? ? Hc Hs']; subst. cbn [map concat] in *. rewrite <- app_assoc in *.
    set (t := concat (map escape_char s) ++ 34 :: r) in *.
    assert (Hfin : rev (c :: acc) ++ s = rev acc ++ c :: s) by (simpl; now rewrite <- app_assoc).
    assert (Hgo : forall m, (length t <= m)%nat -> string_loop m 34 t (c :: acc) = (STRING, rev acc ++ c :: s, r)).
    { intros m Hm. rewrite <- Hfin. apply IH; assumption. }
    unfold escape_char in *. destruct (c <? 16) eqn:E1.
    { cbn [app length] in *. destruct n as [|n]; [lia|]. cbn [string_loop].
      change (92 =? 34) with false. cbv iota. change (RE_NEWLINE (92 :: hex_digit c :: 32 :: t)) with (@None str).
      change (92 =? 92) with true. cbv iota.
      rewrite hex_digit_not by lia. rewrite consume_escape_1 by lia. apply Hgo. lia. }
    destruct ((c <? 32) || (c =? 127)) eqn:E2.
    { cbn [app length] in *. destruct n as [|n]; [lia|]. cbn [string_loop].
      change (92 =? 34) with false. cbv iota.
      change (RE_NEWLINE (92 :: hex_digit (c / 16) :: hex_digit (c mod 16) :: 32 :: t)) with (@None str).
      change (92 =? 92) with true. cbv iota.
      rewrite hex_digit_not by (apply N.div_lt_upper_bound; lia).
      rewrite consume_escape_2 by lia. apply Hgo. lia. }
    destruct ((c =? 34) || (c =? 92)) eqn:E3.
    { cbn [app length] in *. destruct n as [|n]; [lia|]. cbn [string_loop].
      change (92 =? 34) with false. cbv iota.
      change (RE_NEWLINE (92 :: c :: t)) with (@None str).
      change (92 =? 92) with true. cbv iota.
      rewrite newline_no by (unfold is_space; lia).
      assert (consume_escape (c :: t) = (c, t)) as ->.
      { unfold consume_escape, re_xdigit, re_if.
        destruct (is_xdigit c) eqn:Ex; [unfold is_xdigit, is_digit in Ex; lia|]. reflexivity. }
      apply Hgo. lia. }
    cbn [app length] in *. destruct n as [|n]; [lia|]. cbn [string_loop].
    destruct (c =? 34) eqn:E4; [lia|]. rewrite newline_no' by lia.
    destruct (c =? 92) eqn:E5; [lia|]. apply Hgo. lia.
Qed.

(** ** All written tokens *)

Lemma next_text rb w r : valid w -> ends_before w r -> next rb (text w ++ r) = (token_of w, r).
Proof.
  intros Hv He. destruct w as [s|s|s|s|s|s|s|n u|s|t|c]; cbn [valid ends_before text token_of] in *.
  - (* ident *)
    destruct (plain_ident_head s r Hv) as (c & s' & H1 & H2 & H3 & _).
    rewrite H1, next_rest_eq by exact H3.
    assert (Hr : head_not (fun c => name_char c || (c =? 92)) r).
    { eapply head_not_impl; [|exact He]. hn. }
    rewrite (next_rest_ident rb s r Hv c (s' ++ r) H1 Hr), next_ident_plain.
    + rewrite <- H1, consumed_app. reflexivity.
    + eapply head_not_impl; [|exact He]. hn.
  - (* function *)
    destruct Hv as [Hv Hurl]. rewrite <- app_assoc. cbn [app].
    destruct (plain_ident_head s (40 :: r) Hv) as (c & s' & H1 & H2 & H3 & _).
    rewrite H1, next_rest_eq by exact H3.
    rewrite (next_rest_ident rb s (40 :: r) Hv c (s' ++ 40 :: r) H1 eq_refl).
    unfold next_ident. rewrite <- H1.
    assert (consumed (s ++ 40 :: r) r = s ++ [40]) as Hc.
    { change (40 :: r) with ([40] ++ r). rewrite app_assoc. apply consumed_app. }
    rewrite Hc. change str_url with (of_string "url" ++ [40]). rewrite eq_ci_app_same, Hurl, Hc. reflexivity.
  - (* at *)
    cbn [app]. rewrite next_rest_eq.
    2:{ split; [reflexivity|]. cbn [In]. lia. }
    unfold next_rest.
    change (of_string "<!--") with [60; 33; 45; 45]. change (of_string "-->") with [45; 45; 62].
    change (of_string "/*") with [47; 42]. rewrite !word_no by lia.
    rewrite number_no by (try reflexivity; lia). rewrite ident_no by (try reflexivity; lia).
    unfold RE_AT_KEYWORD, re_chain. change (re_single [64] (64 :: s ++ r)) with (Some (s ++ r)). cbv iota beta.
    rewrite ident_text by assumption.
    change (64 :: s ++ r) with ((64 :: s) ++ r). rewrite consumed_app. reflexivity.
  - (* hash *)
    destruct Hv as [Hne Hall]. destruct s as [|c s]; [contradiction|]. inversion Hall; subst.
    cbn [app]. unfold next.
    assert (RE_WHITESPACE_TOKEN (35 :: c :: s ++ r) = None) as ->.
    { unfold RE_WHITESPACE_TOKEN, re_plus. now rewrite ws_no. }
    rewrite !single_no by lia.
    assert (RE_HASH (35 :: c :: s ++ r) = Some r) as ->.
    { unfold RE_HASH, re_chain. change (re_single [35] (35 :: c :: s ++ r)) with (Some (c :: s ++ r)). cbv iota beta.
      apply (plus_prefix _ name_char); auto using esc_char_yes, esc_char_no. }
    change (35 :: c :: s ++ r) with ((35 :: c :: s) ++ r). rewrite consumed_app. reflexivity.
  - (* string *)
    unfold string_text. cbn [app]. rewrite <- app_assoc. cbn [app]. rewrite next_rest_eq.
    2:{ split; [reflexivity|]. cbn [In]. lia. }
    unfold next_rest.
    change (of_string "<!--") with [60; 33; 45; 45]. change (of_string "-->") with [45; 45; 62].
    change (of_string "/*") with [47; 42]. rewrite !word_no by lia.
    rewrite number_no by (try reflexivity; lia). rewrite ident_no by (try reflexivity; lia).
    unfold RE_AT_KEYWORD, re_chain. rewrite single_no by lia. cbv iota.
    change ((34 =? 34) || (34 =? 39)) with true. cbv iota.
    rewrite string_loop_text by (try assumption; lia). reflexivity.
  - (* number *)
    assert (Hends := number_ends_of r He).
    destruct (number_head s r Hv) as (c & s' & H1 & _).
    destruct (next_rest_number rb s r Hv Hends c s' H1) as [Hsp Heq].
    rewrite H1, next_rest_eq, Heq by exact Hsp.
    assert (RE_IDENTIFIER r = None) as ->.
    { destruct r as [|x r]; [reflexivity|]. cbn [head_not] in He. apply ident_no.
      - destruct (name_start x) eqn:E; [|reflexivity]. apply name_start_char in E. rewrite E in He. discriminate.
      - intros ->. discriminate.
      - intros ->. discriminate. }
    assert (re_single [37] r = None) as ->.
    { apply re_if_no. eapply head_not_impl; [|exact He]. intros x Hx. simpl in Hx.
      rewrite orb_false_r in Hx. cbn beta. rewrite Hx. apply orb_true_r. }
    rewrite <- H1, consumed_app. reflexivity.
  - (* percentage *)
    rewrite <- app_assoc. cbn [app].
    assert (Hends : number_ends (37 :: r)) by (split; reflexivity).
    destruct (number_head s (37 :: r) Hv) as (c & s' & H1 & _).
    destruct (next_rest_number rb s (37 :: r) Hv Hends c s' H1) as [Hsp Heq].
    rewrite H1, next_rest_eq, Heq by exact Hsp.
    rewrite ident_no by (try reflexivity; lia).
    change (re_single [37] (37 :: r)) with (Some r). cbv iota.
    rewrite <- H1. change (37 :: r) with ([37] ++ r). rewrite app_assoc, consumed_app. reflexivity.
  - (* dimension *)
    destruct Hv as [Hn Hu]. rewrite <- app_assoc.
    assert (Hends := number_ends_unit u r Hu He).
    destruct (number_head n (u ++ r) Hn) as (c & s' & H1 & _).
    destruct (next_rest_number rb n (u ++ r) Hn Hends c s' H1) as [Hsp Heq].
    rewrite H1, next_rest_eq, Heq by exact Hsp.
    destruct Hu as (Hall & (x & u' & Hx & Hx') & _).
    rewrite ident_text.
    + rewrite <- H1, app_assoc, consumed_app. reflexivity.
    + split; [exact Hall|]. left. eauto.
    + exact He.
  - (* white space *)
    destruct Hv as [Hne Hall]. destruct s as [|c s]; [contradiction|]. inversion Hall; subst.
    cbn [app]. unfold next.
    assert (RE_WHITESPACE_TOKEN (c :: s ++ r) = Some r) as ->.
    { apply (plus_prefix _ is_space); auto using ws_yes, ws_no. }
    change (c :: s ++ r) with ((c :: s) ++ r). rewrite consumed_app. reflexivity.
  - (* punctuation *)
    assert (Hcons : forall x : N, consumed (x :: r) r = [x]).
    { intros x. change (x :: r) with ([x] ++ r). apply consumed_app. }
    destruct t; try (exfalso; apply Hv; reflexivity); cbn [punct_char app]; unfold next;
      change RE_WHITESPACE_TOKEN with (re_plus RE_WHITESPACE); unfold re_plus;
      rewrite (ws_no (_ :: r)) by reflexivity;
      lazymatch goal with |- _ = (mkT ?t [?x], _) =>
        transitivity (mkT t (consumed (x :: r) r), r); [reflexivity|now rewrite Hcons] end.
  - (* delim *)
    cbn [app].
    assert (Hin : In c [62; 126; 42; 33; 124; 61; 38; 36; 94; 63; 37]).
    { unfold plain_delim in Hv. apply existsb_exists in Hv as (x & Hx & E). apply N.eqb_eq in E. now subst. }
    assert (Hc : not_special c /\ c <> 60 /\ c <> 45 /\ c <> 47 /\ is_digit c = false /\ c <> 46 /\ c <> 43 /\
                 name_start c = false /\ c <> 92 /\ c <> 64 /\ c <> 34 /\ c <> 39).
    { simpl in Hin. unfold not_special. cbn [In].
      repeat (destruct Hin as [<-|Hin]; [repeat split; try reflexivity; lia|]). destruct Hin. }
    destruct Hc as (Hsp & H1 & H2 & H3 & H4 & H5 & H6 & H7 & H8 & H9 & H10 & H11).
    rewrite next_rest_eq by exact Hsp. unfold next_rest.
    change (of_string "<!--") with [60; 33; 45; 45]. change (of_string "-->") with [45; 45; 62].
    change (of_string "/*") with [47; 42]. rewrite !word_no by assumption.
    rewrite number_no by (try assumption; left; auto). rewrite ident_no by assumption.
    unfold RE_AT_KEYWORD, re_chain. rewrite single_no by exact H9. cbv iota.
    destruct ((c =? 34) || (c =? 39)) eqn:E; [lia|].
    change (c :: r) with ([c] ++ r). now rewrite consumed_app.
Qed.

Lemma text_nonempty w : valid w -> text w <> [].
Proof.
  assert (Hpi : forall s, plain_ident s -> s <> []).
  { intros s (_ & [(c & p & -> & _)|[(c & p & -> & _)|(c & p & ->)]]); discriminate. }
  assert (Hnum : forall s, number_text s -> s <> []).
  { intros s Hs ->. destruct (number_head [] [] Hs) as (c & n & H & _). discriminate. }
  assert (Happ : forall a b : str, a <> [] -> a ++ b <> []).
  { intros a b Ha Hb. apply app_eq_nil in Hb as [Hb _]. contradiction. }
  destruct w as [s|s|s|s|s|s|s|n u|s|t|c]; cbn [valid text]; intros Hv; try discriminate.
  - now apply Hpi.
  - apply Happ, Hpi, Hv.
  - now apply Hnum.
  - apply Happ, Hnum, Hv.
  - apply Happ, Hnum, Hv.
  - apply Hv.
  - destruct (punct_char t); [discriminate|contradiction].
Qed.

Lemma lex_source rb l :
  Forall valid l -> separated l ->
  exists x, lex rb (length (source l)) (source l) = Some x /\ map fst x = map token_of l /\ map snd x = map text l.
Proof.
  intros Hv Hs.
  assert (Hgen : exists n x, lex rb n (source l) = Some x /\ map fst x = map token_of l /\ map snd x = map text l).
  { induction Hv as [|w l Hw Hv IH]; [exists 0%nat, []; auto|].
    destruct Hs as [He Hs]. destruct (IH Hs) as (n & x & Hx & H1 & H2).
    unfold source. cbn [map concat]. fold (source l) in *.
    exists (S n), ((token_of w, text w) :: x). split.
    - assert (Hne := text_nonempty w Hw). destruct (text w ++ source l) as [|c s] eqn:E.
      { apply app_eq_nil in E as [E _]. contradiction. }
      cbn [lex]. rewrite <- E. rewrite next_text by assumption. rewrite Hx.
      rewrite consumed_app. reflexivity.
    - simpl. now rewrite H1, H2. }
  destruct Hgen as (n & x & Hx & H1 & H2).
  destruct (lex_total rb (source l) (length (source l)) (Nat.le_refl _)) as (y & Hy & _).
  assert (x = y) as <-.
  { destruct (Nat.le_ge_cases n (length (source l))) as [Hle|Hle].
    - rewrite (lex_fuel rb _ _ _ _ Hx Hle) in Hy. now injection Hy.
    - rewrite (lex_fuel rb _ _ _ _ Hy Hle) in Hx. now injection Hx. }
  eauto.
Qed.

(** ** Strings in general *)

Lemma many_xdigits d : forall n w r,
  Forall (fun c => is_xdigit c = true) d -> (length d <= n)%nat -> is_xdigit w = false ->
  re_many re_xdigit n (d ++ w :: r) = w :: r.
Proof.
  intros n w r Hd Hn Hw. apply (many_prefix re_xdigit is_xdigit); auto.
  - intros c s Hc. unfold re_xdigit, re_if. now rewrite Hc.
  - unfold re_xdigit, re_if. now rewrite Hw.
Qed.

Lemma consume_escape_hex d w r :
  (1 <= length d <= 5)%nat -> Forall (fun c => is_xdigit c = true) d -> (w = 32 \/ w = 9 \/ w = 10) ->
  consume_escape (d ++ w :: r) = (hex_rune d, r).
Proof.
  intros Hl Hd Hw. destruct d as [|c d]; [simpl in Hl; lia|]. inversion Hd; subst.
  unfold consume_escape. unfold re_xdigit at 1. cbn [app re_if]. rewrite H1.
  rewrite many_xdigits; [|assumption|simpl in Hl; lia|destruct Hw as [->|[->| ->]]; reflexivity].
  change (c :: d ++ w :: r) with ((c :: d) ++ w :: r). rewrite consumed_app.
  assert (RE_WHITESPACE (w :: r) = Some r) as -> by (destruct Hw as [->|[->| ->]]; reflexivity).
  unfold hex_rune. change (hex_number (c :: d)) with (hex_val (c :: d)). set (n := hex_val (c :: d)).
  destruct ((55296 <=? n) && (n <=? 57343)); rewrite ?orb_true_r, ?orb_false_r; [reflexivity|].
  destruct ((n =? 0) || (1114111 <? n)); reflexivity.
Qed.

Lemma newline_iff c s : RE_NEWLINE (c :: s) = if newline c then Some s else None.
Proof.
  destruct (newline c) eqn:E; unfold newline in E.
  - unfold RE_NEWLINE, re_either, re_single, re_if. cbn [existsb].
    destruct ((c =? 10) || ((c =? 13) || ((c =? 12) || false))) eqn:E2; [reflexivity|lia].
  - apply newline_no'; lia.
Qed.

Lemma xdigit_not_newline c : is_xdigit c = true -> newline c = false.
Proof. unfold is_xdigit, is_digit, newline. lia. Qed.

Lemma string_loop_items q e ty r : sending q e ty r -> (q = 34 \/ q = 39) ->
  forall l n acc, Forall (sitem_ok 5 q) l ->
  (length (concat (map sitem_text l) ++ e) <= n)%nat ->
  string_loop n q (concat (map sitem_text l) ++ e) acc = (ty, rev acc ++ concat (map sitem_value l), r).
Proof.
  intros He Hq. induction l as [|i l IH]; intros n acc Hl Hn.
  - simpl. rewrite app_nil_r. simpl in Hn. destruct He as [r| |c r Hc].
    + simpl in Hn. destruct n as [|n]; [lia|]. cbn [string_loop]. now rewrite N.eqb_refl.
    + destruct n; reflexivity.
    + simpl in Hn. destruct n as [|n]; [lia|]. cbn [string_loop].
      destruct (c =? q) eqn:E; [unfold newline in Hc; lia|]. rewrite newline_iff, Hc. reflexivity.
  - inversion Hl as [|? ? Hi Hl']; subst. cbn [map concat] in *. rewrite <- app_assoc in *.
    set (t := concat (map sitem_text l) ++ e) in *.
    assert (Hgo : forall m v, (length t <= m)%nat ->
       string_loop m q t (rev v ++ acc) = (ty, rev acc ++ v ++ concat (map sitem_value l), r)).
    { intros m v Hm. rewrite IH by assumption. rewrite rev_app_distr, rev_involutive.
      now rewrite <- app_assoc. }
    destruct i as [c|c|d w|c]; cbn [sitem_ok sitem_text sitem_value app length] in *.
    + destruct Hi as (H1 & H2 & H3). destruct n as [|n]; [lia|]. cbn [string_loop].
      destruct (c =? q) eqn:E1; [lia|]. rewrite newline_iff, H3. destruct (c =? 92) eqn:E2; [lia|].
      apply (Hgo n [c]). lia.
    + destruct Hi as (H1 & H2). destruct n as [|n]; [lia|]. cbn [string_loop].
      destruct (92 =? q) eqn:E1; [lia|]. change (RE_NEWLINE (92 :: c :: t)) with (@None str).
      change (92 =? 92) with true. cbv iota. rewrite newline_iff, H2.
      assert (consume_escape (c :: t) = (c, t)) as ->.
      { unfold consume_escape, re_xdigit, re_if. now rewrite H1. }
      apply (Hgo n [c]). lia.
    + destruct Hi as (H1 & H2 & H3). destruct n as [|n]; [lia|]. cbn [string_loop].
      destruct (92 =? q) eqn:E1; [lia|]. rewrite <- app_assoc in *. cbn [app] in *.
      change (RE_NEWLINE (92 :: d ++ w :: t)) with (@None str).
      change (92 =? 92) with true. cbv iota.
      destruct (d ++ w :: t) as [|x u] eqn:Ed; [destruct d; discriminate|]. 
      assert (Hx : is_xdigit x = true).
      { destruct d as [|y d]; [simpl in H1; lia|]. injection Ed as <- <-. now inversion H2. }
      rewrite newline_iff, (xdigit_not_newline x Hx). rewrite <- Ed, consume_escape_hex by assumption.
      apply (Hgo n [hex_rune d]). rewrite <- Ed, app_length in Hn. simpl in Hn. lia.
    + destruct n as [|n]; [lia|]. cbn [string_loop].
      destruct (92 =? q) eqn:E1; [lia|]. change (RE_NEWLINE (92 :: c :: t)) with (@None str).
      change (92 =? 92) with true. cbv iota. rewrite newline_iff, Hi. apply (Hgo n []). lia.
Qed.

Lemma next_string rb q s' : (q = 34 \/ q = 39) ->
  next rb (q :: s') = let '(ty, d, r) := string_loop (length s') q s' [] in (mkT ty d, r).
Proof.
  intros Hq. rewrite next_rest_eq.
  2:{ destruct Hq as [-> | ->]; (split; [reflexivity|]); cbn [In]; lia. }
  unfold next_rest.
  change (of_string "<!--") with [60; 33; 45; 45]. change (of_string "-->") with [45; 45; 62].
  change (of_string "/*") with [47; 42]. rewrite !word_no by lia.
  rewrite number_no by (destruct Hq as [-> | ->]; (reflexivity || lia)).
  rewrite ident_no by (destruct Hq as [-> | ->]; (reflexivity || lia)).
  unfold RE_AT_KEYWORD, re_chain. rewrite single_no by lia. cbv iota.
  destruct ((q =? 34) || (q =? 39)) eqn:E; [reflexivity|lia].
Qed.

Lemma next_string_items rb q l e ty r :
  (q = 34 \/ q = 39) -> Forall (sitem_ok 5 q) l -> sending q e ty r ->
  next rb (q :: concat (map sitem_text l) ++ e) = (mkT ty (concat (map sitem_value l)), r).
Proof.
  intros Hq Hl He. rewrite next_string by exact Hq.
  now rewrite (string_loop_items q e ty r He Hq l _ [] Hl (le_n _)).
Qed.
