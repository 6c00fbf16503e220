(** An+B texts are read as their value. *)
From Coq Require Import String List NArith ZArith Bool Arith Lia.
From Verif.Base Require Import Str Outcome.
From Verif.Css Require Import LexerModel ParserModel.
From Verif.Values Require Import Number LengthModel CalcModel.
From Verif.Style Require Import AnBModel CascadeModel SelectorModel SelectorSpec SelectorParseModel SelectorParseSpec.
Import ListNotations.
Local Open Scope nat_scope.
Local Open Scope list_scope.

Lemma eat_sps w c : eat_wss (sps w ++ c) = eat_wss c.
Proof. induction w; cbn; auto. Qed.
Lemma eat_tok ty s r : ty <> WHITESPACE -> eat_wss (tok ty s :: r) = tok ty s :: r.
Proof. intros H. cbn. destruct (ttype_beq ty WHITESPACE) eqn:E; [|reflexivity]. now apply internal_ttype_dec_bl in E. Qed.
Lemma eat_idem c : eat_wss (eat_wss c) = eat_wss c.
Proof. induction c as [|[t| | | |] c IH]; cbn; auto. destruct (ttype_beq (t_type t) WHITESPACE) eqn:E; auto. cbn. now rewrite E. Qed.

Lemma digit_is d : digit_ok d -> Number.is_digit (show_digit d) = true.
Proof. unfold Number.is_digit, show_digit, digit_ok. intros. apply andb_true_iff. split; apply N.leb_le; lia. Qed.

Lemma atoi_snum s ds r : digits_ok ds -> no_digit r -> atoi (snum s ds ++ r) = Some (snum_value s ds, r).
Proof.
  intros [N F] H. unfold atoi, snum. rewrite <- app_assoc.
  assert (E : sign (show_sgn s ++ show_digits ds ++ r) = ((match s with SgMinus => -1 | _ => 1 end)%Z, show_digits ds ++ r)).
  { destruct s; try reflexivity. destruct ds as [|d ds]; [contradiction|]. inversion F; subst. cbn [show_sgn app show_digits map].
    cbn [sign]. destruct (N.eqb_spec (show_digit d) 45); [exfalso; now apply (show_digit_neq d 45%N)|].
    destruct (N.eqb_spec (show_digit d) 43); [exfalso; now apply (show_digit_neq d 43%N)|]. reflexivity. }
  rewrite E. unfold show_digits. rewrite digits_show by assumption. destruct ds as [|d ds]; [contradiction|].
  rewrite number_of_dval. unfold snum_value. destruct s; do 2 f_equal; lia.
Qed.
Lemma atoi_snum' s ds : digits_ok ds -> atoi (snum s ds) = Some (snum_value s ds, []).
Proof. intros H. rewrite <- (app_nil_r (snum s ds)) at 1. now apply atoi_snum. Qed.

Lemma read_snum s ds tail : digits_ok ds -> read_integer (tok NUMBER (snum s ds) :: tail) = rret (snum_value s ds, tail).
Proof. intros H. unfold read_integer, parse_integer, tok. cbn [t_type t_data ttype_beq]. now rewrite atoi_snum'. Qed.

Definition no_digit_end (p : str) : Prop := match rev p with c :: _ => Number.is_digit c = false | [] => True end.
Lemma split_digits_show p ds : no_digit_end p -> Forall digit_ok ds -> split_digits (p ++ show_digits ds) = (p, show_digits ds).
Proof.
  intros P F. unfold split_digits. rewrite rev_app_distr.
  set (go := fix go (r acc : str) := _).
  assert (G : forall l acc, Forall (fun c => Number.is_digit c = true) l -> go (l ++ rev p) acc = (p, rev l ++ acc)).
  { induction l as [|c l IH]; intros acc H; cbn [app rev].
    - unfold no_digit_end in P. destruct (rev p) as [|c q] eqn:E.
      + cbn. f_equal. rewrite <- (rev_involutive p), E. reflexivity.
      + cbn. rewrite P. f_equal. rewrite <- (rev_involutive p), E. reflexivity.
    - inversion H as [|? ? H1 H2]; subst. cbn. rewrite H1, IH by assumption. now rewrite <- app_assoc. }
  rewrite G.
  - now rewrite rev_involutive, app_nil_r.
  - apply Forall_rev. unfold show_digits. apply Forall_map. eapply Forall_impl; [|exact F]. exact digit_is.
Qed.
Lemma split_nodigits p : no_digit_end p -> split_digits p = (p, []).
Proof. intros H. rewrite <- (app_nil_r p) at 1. now apply (split_digits_show p []). Qed.

Lemma after_n_none c : eat_wss c = [] -> after_n c = rret (0%Z, []).
Proof. intros H. unfold after_n. rewrite H. reflexivity. Qed.

Lemma first_snum s ds : digits_ok ds -> exists ch, first_rune (tok NUMBER (snum s ds)) = Some ch /\
  is_sign ch = (match s with SgNone => false | _ => true end) /\ (s = SgNone -> Number.is_digit ch = true).
Proof.
  intros [N F]. unfold first_rune. cbn [tok_data tok t_data]. destruct s; cbn.
  - destruct ds as [|d ds]; [contradiction|]. inversion F as [|? ? D]; subst. eexists. split; [reflexivity|]. split.
    + unfold is_sign, plus, minus. destruct (N.eqb_spec (show_digit d) 43); [exfalso; now apply (show_digit_neq d 43%N)|].
      destruct (N.eqb_spec (show_digit d) 45); [exfalso; now apply (show_digit_neq d 45%N)|]. reflexivity.
    + intros _. now apply digit_is.
  - eexists. repeat split. discriminate.
  - eexists. repeat split. discriminate.
Qed.

Lemma after_n_signed w (neg : bool) ds tail : digits_ok ds ->
  after_n (sps w ++ tok NUMBER (snum (if neg then SgMinus else SgPlus) ds) :: tail) = rret (if neg then (- dval ds)%Z else dval ds, tail).
Proof.
  intros H. unfold after_n. rewrite eat_sps, eat_tok by discriminate. unfold tok; cbn [is_tok t_type ttype_beq].
  destruct (first_snum (if neg then SgMinus else SgPlus) ds H) as (ch & E & S & _). unfold tok in E. rewrite E, S.
  replace (match (if neg then SgMinus else SgPlus) with SgNone => false | _ => true end) with true by (destruct neg; reflexivity).
  pose proof (read_snum (if neg then SgMinus else SgPlus) ds tail H) as R. unfold tok in R. rewrite R. now destruct neg.
Qed.

Lemma after_n_delim w (neg : bool) w' ds tail : digits_ok ds ->
  after_n (sps w ++ (if neg then dl "-" else dl "+") :: sps w' ++ tok NUMBER (show_digits ds) :: tail) = rret (if neg then (- dval ds)%Z else dval ds, tail).
Proof.
  intros H. unfold after_n. rewrite eat_sps.
  destruct (first_snum SgNone ds H) as (ch & E & S & _). 
  pose proof (read_snum SgNone ds tail H) as R. unfold snum, show_sgn in R, E. cbn [app] in R, E. unfold tok in R, E.
  assert (W : eat_wss (sps w' ++ TOK (mkT NUMBER (show_digits ds)) :: tail) = TOK (mkT NUMBER (show_digits ds)) :: tail).
  { rewrite eat_sps. apply (eat_tok NUMBER). discriminate. }
  unfold tok. destruct neg.
  - change (eat_wss (dl "-" :: sps w' ++ TOK (mkT NUMBER (show_digits ds)) :: tail)) with (dl "-" :: sps w' ++ TOK (mkT NUMBER (show_digits ds)) :: tail).
    change (is_tok NUMBER (dl "-")) with false. change (is_tok DELIM (dl "-")) with true. cbn iota.
    change (tok_data (dl "-")) with [minus]. cbn [str_eqb N.eqb plus minus Pos.eqb andb negb]. rewrite W, E, S, R. reflexivity.
  - change (eat_wss (dl "+" :: sps w' ++ TOK (mkT NUMBER (show_digits ds)) :: tail)) with (dl "+" :: sps w' ++ TOK (mkT NUMBER (show_digits ds)) :: tail).
    change (is_tok NUMBER (dl "+")) with false. change (is_tok DELIM (dl "+")) with true. cbn iota.
    change (tok_data (dl "+")) with [plus]. cbn [str_eqb N.eqb plus minus Pos.eqb andb negb]. rewrite W, E, S, R. reflexivity.
Qed.

Lemma after_dash w ds tail : digits_ok ds -> after_n_dash (sps w ++ tok NUMBER (show_digits ds) :: tail) = rret (dval ds, tail).
Proof.
  intros H. unfold after_n_dash. rewrite eat_sps, eat_tok by discriminate. unfold tok; cbn [is_tok t_type ttype_beq].
  destruct (first_snum SgNone ds H) as (ch & E & _ & D). unfold snum, show_sgn, tok in E. cbn [app] in E. rewrite E, (D eq_refl).
  pose proof (read_snum SgNone ds tail H) as R. unfold snum, show_sgn, tok in R. cbn [app] in R. now rewrite R.
Qed.

Lemma n_digit_end p : no_digit_end (p ++ of_string "n").
Proof. unfold no_digit_end. rewrite rev_app_distr. reflexivity. Qed.
Lemma n_dash_end p : no_digit_end (p ++ of_string "n" ++ [minus]).
Proof. unfold no_digit_end. rewrite app_assoc, rev_app_distr. reflexivity. Qed.

(** What follows the text is left, up to whitespace. *)
Definition rest_of (tail r : list sst) : Prop := eat_wss r = eat_wss tail.

Lemma read_digits sg ds : digits_ok ds -> read_atoi (show_sgn sg ++ show_digits ds) = rret (snum_value sg ds).
Proof. intros H. unfold read_atoi. change (show_sgn sg ++ show_digits ds) with (snum sg ds). now rewrite atoi_snum'. Qed.

(** The constant after a head token that ends in "n". *)
Definition tail_ok (b : atail) (tail : list sst) : Prop :=
  match b with BNone => eat_wss tail = [] | BSigned _ _ ds | BDelim _ _ _ ds | BDash _ ds | BJoined ds => digits_ok ds end.

Ltac fin E nm neg pre P := cbv beta iota zeta; rewrite ?E; unfold nm; destruct neg; [rewrite P by reflexivity|]; destruct pre; reflexivity.
Lemma ident_read (neg pre : bool) b tail : (neg = true -> pre = false) -> tail_ok b tail ->
  exists r, rest_of tail r /\
  anb_ident (tok IDENT (of_string (if neg then "-n" else "n") ++ dash_text b)) (show_tail b ++ tail) pre = rret (mkAnB (if neg then -1 else 1) (tail_value b), r).
Proof.
  intros P B. set (nm := of_string (if neg then "-n" else "n")).
  assert (Hn : nm = (if neg then [minus] else []) ++ of_string "n") by (unfold nm; destruct neg; reflexivity).
  assert (Hh : forall x, exists c0 y, nm ++ x = c0 :: y /\ (c0 =? minus)%N = neg).
  { intros x. unfold nm. destruct neg; cbn; eexists; eexists; split; try reflexivity. }
  unfold anb_ident. cbn [tok tok_data t_data].
  destruct b as [|w sg ds|w sg w' ds|w ds|ds]; cbn [dash_text show_tail tail_value tail_ok] in *.
  - rewrite app_nil_r. replace (split_digits nm) with (nm, @nil rune) by (rewrite split_nodigits; [reflexivity|rewrite Hn; apply n_digit_end]).
    exists []. split; [symmetry; exact B|]. cbn [app].
    assert (E : after_n (eat_wss tail) = rret (0%Z, [])) by (apply after_n_none; now rewrite eat_idem).
    fin E nm neg pre P.
  - rewrite app_nil_r. replace (split_digits nm) with (nm, @nil rune) by (rewrite split_nodigits; [reflexivity|rewrite Hn; apply n_digit_end]).
    exists tail. split; [reflexivity|]. rewrite <- app_assoc. cbn [app].
    assert (E : after_n (eat_wss (sps w ++ tok NUMBER (snum (if sg then SgMinus else SgPlus) ds) :: tail)) = rret (if sg then (- dval ds)%Z else dval ds, tail)).
    { rewrite eat_sps, eat_tok by discriminate. apply (after_n_signed []). exact B. }
    fin E nm neg pre P.
  - rewrite app_nil_r. replace (split_digits nm) with (nm, @nil rune) by (rewrite split_nodigits; [reflexivity|rewrite Hn; apply n_digit_end]).
    exists tail. split; [reflexivity|]. rewrite <- app_assoc. cbn [app]. rewrite <- app_assoc. cbn [app].
    assert (E : after_n (eat_wss (sps w ++ (if sg then dl "-" else dl "+") :: sps w' ++ tok NUMBER (show_digits ds) :: tail)) = rret (if sg then (- dval ds)%Z else dval ds, tail)).
    { rewrite eat_sps. replace (eat_wss ((if sg then dl "-" else dl "+") :: sps w' ++ tok NUMBER (show_digits ds) :: tail)) with ((if sg then dl "-" else dl "+") :: sps w' ++ tok NUMBER (show_digits ds) :: tail) by (destruct sg; reflexivity).
      apply (after_n_delim []). exact B. }
    fin E nm neg pre P.
  - replace (split_digits (nm ++ [minus])) with (nm ++ [minus], @nil rune) by (rewrite split_nodigits; [reflexivity|rewrite Hn, <- app_assoc; apply n_dash_end]).
    exists tail. split; [reflexivity|]. rewrite <- app_assoc. cbn [app].
    assert (E : after_n_dash (eat_wss (sps w ++ tok NUMBER (show_digits ds) :: tail)) = rret (dval ds, tail)).
    { rewrite eat_sps, eat_tok by discriminate. apply (after_dash []). exact B. }
    fin E nm neg pre P.
  - change (nm ++ minus :: show_digits ds) with (nm ++ [minus] ++ show_digits ds). rewrite app_assoc.
    rewrite split_digits_show; [|rewrite Hn, <- app_assoc; apply n_dash_end|apply B].
    exists (eat_wss tail). split; [apply eat_idem|]. cbn [app].
    assert (ND : show_digits ds <> []) by (destruct B as [N _]; destruct ds; [contradiction|discriminate]).
    assert (SL : split_last (nm ++ [minus]) = Some (nm, minus)) by (unfold split_last; rewrite rev_app_distr; cbn; now rewrite rev_involutive).
    pose proof (read_digits SgMinus ds B) as R. cbn [show_sgn app snum_value] in R.
    destruct (show_digits ds) as [|x xs] eqn:Ed; [contradiction|].
    destruct (Hh ([minus] ++ x :: xs)) as (c0 & y & Hc & Hm). rewrite <- app_assoc, Hc, Hm.
    replace (neg && pre)%bool with false by (destruct neg; [now rewrite P|reflexivity]).
    rewrite SL, N.eqb_refl. rewrite R. unfold nm. destruct neg; reflexivity.
Qed.

Lemma dim_read s ds b tail : digits_ok ds -> tail_ok b tail ->
  exists r, rest_of tail r /\
  anb_dimension (tok DIMENSION (snum s ds ++ of_string "n" ++ dash_text b)) (show_tail b ++ tail) false = rret (mkAnB (snum_value s ds) (tail_value b), r).
Proof.
  intros D B. unfold anb_dimension. cbn [tok tok_data t_data].
  rewrite atoi_snum by (assumption || reflexivity). rewrite andb_false_r.
  destruct b as [|w sg ds'|w sg w' ds'|w ds'|ds']; cbn [dash_text show_tail tail_value tail_ok] in *.
  - exists []. split; [symmetry; exact B|]. cbn [app]. rewrite app_nil_r. rewrite split_nodigits by reflexivity.
    assert (E : after_n (eat_wss tail) = rret (0%Z, [])) by (apply after_n_none; now rewrite eat_idem).
    cbv beta iota zeta. rewrite E. reflexivity.
  - exists tail. split; [reflexivity|]. rewrite app_nil_r, split_nodigits by reflexivity. rewrite <- app_assoc. cbn [app].
    assert (E : after_n (eat_wss (sps w ++ tok NUMBER (snum (if sg then SgMinus else SgPlus) ds') :: tail)) = rret (if sg then (- dval ds')%Z else dval ds', tail)).
    { rewrite eat_sps, eat_tok by discriminate. apply (after_n_signed []). exact B. }
    rewrite E. reflexivity.
  - exists tail. split; [reflexivity|]. rewrite app_nil_r, split_nodigits by reflexivity. rewrite <- app_assoc. cbn [app]. rewrite <- app_assoc. cbn [app].
    assert (E : after_n (eat_wss (sps w ++ (if sg then dl "-" else dl "+") :: sps w' ++ tok NUMBER (show_digits ds') :: tail)) = rret (if sg then (- dval ds')%Z else dval ds', tail)).
    { rewrite eat_sps. replace (eat_wss ((if sg then dl "-" else dl "+") :: sps w' ++ tok NUMBER (show_digits ds') :: tail)) with ((if sg then dl "-" else dl "+") :: sps w' ++ tok NUMBER (show_digits ds') :: tail) by (destruct sg; reflexivity).
      apply (after_n_delim []). exact B. }
    rewrite E. reflexivity.
  - exists tail. split; [reflexivity|]. rewrite split_nodigits by reflexivity. rewrite <- app_assoc. cbn [app].
    assert (E : after_n_dash (eat_wss (sps w ++ tok NUMBER (show_digits ds') :: tail)) = rret (dval ds', tail)).
    { rewrite eat_sps, eat_tok by discriminate. apply (after_dash []). exact B. }
    rewrite E. reflexivity.
  - change (of_string "n" ++ minus :: show_digits ds') with ((of_string "n" ++ [minus]) ++ show_digits ds').
    rewrite split_digits_show; [|reflexivity|apply B].
    exists (eat_wss tail). split; [apply eat_idem|]. cbn [app].
    assert (ND : show_digits ds' <> []) by (destruct B as [N _]; destruct ds'; [contradiction|discriminate]).
    pose proof (read_digits SgMinus ds' B) as R. cbn [show_sgn app snum_value] in R.
    destruct (show_digits ds') as [|x xs] eqn:Ed; [contradiction|]. 
    change (str_eqb (of_string "n" ++ [minus]) (of_string "n")) with false. change (str_eqb (of_string "n" ++ [minus]) (of_string "n-")) with true.
    cbn [negb andb]. rewrite R. reflexivity.
Qed.

Theorem anb_read w a tail : anb_ok a -> (bare_n a = true -> eat_wss tail = []) ->
  exists r, rest_of tail r /\ parse_anb (sps w ++ show_anb a ++ tail) = rret (anb_value a, r).
Proof.
  intros O B. unfold parse_anb. rewrite eat_sps.
  destruct a as [| |s ds|h b]; cbn [show_anb anb_value anb_ok bare_n] in *.
  - exists tail. split; reflexivity.
  - exists tail. split; reflexivity.
  - exists tail. split; [reflexivity|]. cbn [app]. rewrite eat_tok by discriminate. unfold tok; cbn [is_tok t_type ttype_beq andb].
    pose proof (read_snum s ds tail O) as R. unfold tok in R. now rewrite R.
  - assert (T : tail_ok b tail) by (destruct O as [_ O]; destruct b; cbn in *; auto). destruct O as [O _].
    destruct h as [s ds| | |]; cbn [show_head head_value app].
    + destruct (dim_read s ds b tail O T) as (r & R & E). exists r. split; [exact R|].
      rewrite eat_tok by discriminate. unfold tok; cbn [is_tok t_type ttype_beq andb]. exact E.
    + destruct (ident_read false false b tail (fun _ => eq_refl) T) as (r & R & E). exists r. split; [exact R|].
      rewrite eat_tok by discriminate. unfold tok; cbn [is_tok t_type ttype_beq]. 
      replace (str_eqb (tok_data (TOK (mkT IDENT (of_string "n" ++ dash_text b)))) (of_string "odd")) with false by reflexivity.
      replace (str_eqb (tok_data (TOK (mkT IDENT (of_string "n" ++ dash_text b)))) (of_string "even")) with false by reflexivity.
      cbn [orb andb]. exact E.
    + destruct (ident_read false true b tail (fun H => False_rect _ (Bool.diff_false_true H)) T) as (r & R & E). exists r. split; [exact R|].
      exact E.
    + destruct (ident_read true false b tail (fun _ => eq_refl) T) as (r & R & E). exists r. split; [exact R|].
      rewrite eat_tok by discriminate. unfold tok; cbn [is_tok t_type ttype_beq].
      replace (str_eqb (tok_data (TOK (mkT IDENT (of_string "-n" ++ dash_text b)))) (of_string "odd")) with false by reflexivity.
      replace (str_eqb (tok_data (TOK (mkT IDENT (of_string "-n" ++ dash_text b)))) (of_string "even")) with false by reflexivity.
      cbn [orb andb]. exact E.
Qed.
