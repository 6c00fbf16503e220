(** Numeric character references, and text around references. *)
From Coq Require Import String List Arith Bool NArith Lia.
From Verif.Base Require Import Str.
From Verif.Html Require Import Entities LexerModel LexerInv LexerTac LexerFrame LexerProofs RefProofs SerialModel SerialSpec SerialProofs.
Import ListNotations.
Local Open Scope list_scope.
Local Open Scope N_scope.
Local Opaque has_partial is_entity expansion entities.

(** The number that digits write in a base: most significant first. *)
Definition digit_value (c : N) : N := if is_digit c then c - 48 else if is_upper c then c - 55 else c - 87.
Definition number (base : N) (ds : str) : N := fold_left (fun v c => v * base + digit_value c) ds 0.

Definition base_state (hex : bool) : state := if hex then HEXADECIMAL_CHARACTER_REFERENCE else DECIMAL_CHARACTER_REFERENCE.
Definition base_of (hex : bool) : N := if hex then 16 else 10.
Definition base_digit (hex : bool) (c : N) : bool := if hex then is_hex c else is_digit c.
Definition base_prefix (hex : bool) : str := if hex then [38; 35; 120] else [38; 35].

(** The code point so far: exact while it is one, too large for ever after. *)
Definition code_of (ch v : N) : Prop := ch = v /\ v <= 1114111 \/ 1114111 < ch /\ 1114111 < v.

Section Sink.
Variable sink : list token -> option text_mode.

(** In a reference that returns to [st]. *)
Definition num_at (hex : bool) (st : state) (la : option token) (o : list token) (ch : N) (l : lexer) : Prop :=
  l_state l = base_state hex /\ l_return l = st /\ l_builder l = [] /\ l_peek l = [] /\ l_last l = la /\ l_out l = o /\ l_char l = ch.

Lemma accumulate_code base offset c ch v st re tok la b te pe fo ma at_ ag o :
  offset <= c -> 0 < base -> c - offset = digit_value c -> code_of ch v ->
  exists ch', accumulate base offset c (mkLexer st re tok la ch b te pe fo ma at_ ag o) = Ok (mkLexer st re tok la ch' b te pe fo ma at_ ag o) /\
    code_of ch' (v * base + digit_value c).
Proof.
  intros Ho Hb Hd Hc. unfold accumulate, is_unicode. cbn [l_char]. destruct (ch <=? 1114111) eqn:E.
  - apply N.leb_le in E. destruct Hc as [[-> Hv]|[Hc _]]; [|lia].
    exists (v * base + c - offset). split; [reflexivity|].
    rewrite <- Hd. replace (v * base + c - offset) with (v * base + (c - offset)) by lia.
    unfold code_of. lia.
  - apply N.leb_gt in E. destruct Hc as [[-> Hv]|[_ Hv]]; [lia|].
    exists ch. split; [reflexivity|]. right. split; [exact E|]. nia.
Qed.

Lemma num_digit hex st la o ch v c l f : base_digit hex c = true -> code_of ch v -> num_at hex st la o ch l ->
  exists l', consume sink (S f) c false l = Ok l' /\ exists ch', num_at hex st la o ch' l' /\ code_of ch' (v * base_of hex + digit_value c).
Proof.
  intros Hd Hc (Hs & Hr & Hb & Hp & Hl & Ho & Hch). destruct l as [st' re tok la' ch0 bu te pe fo ma at_ ag out].
  cbn in Hs, Hr, Hb, Hp, Hl, Ho, Hch. subst.
  unfold base_digit in Hd. unfold base_state. destruct hex.
  - unfold base_of. destruct (is_digit c) eqn:E1; [|destruct (is_upper c) eqn:E2].
    + destruct (accumulate_code 16 48 c ch v HEXADECIMAL_CHARACTER_REFERENCE st tok la [] te [] fo ma at_ false o) as (ch' & E & H); try assumption; try reflexivity.
      { unfold is_digit in E1. apply andb_true_iff in E1 as [E1 _]. now apply N.leb_le in E1. }
      { unfold digit_value. now rewrite E1. }
      eexists. split; [apply once; [unfold step, clear_again; cbn [l_state]; unfold on_HEXADECIMAL_CHARACTER_REFERENCE; rewrite E1; exact E|reflexivity]|].
      exists ch'. split; [unfold num_at; cbn; repeat split; reflexivity|exact H].
    + destruct (accumulate_code 16 55 c ch v HEXADECIMAL_CHARACTER_REFERENCE st tok la [] te [] fo ma at_ false o) as (ch' & E & H); try assumption; try reflexivity.
      { unfold is_upper in E2. apply andb_true_iff in E2 as [E2 _]. apply N.leb_le in E2. lia. }
      { unfold digit_value. now rewrite E1, E2. }
      eexists. split; [apply once; [unfold step, clear_again; cbn [l_state]; unfold on_HEXADECIMAL_CHARACTER_REFERENCE; rewrite E1, E2; exact E|reflexivity]|].
      exists ch'. split; [unfold num_at; cbn; repeat split; reflexivity|exact H].
    + assert (97 <= c /\ c <= 102) as Hc'.
      { unfold is_hex in Hd. rewrite E1 in Hd. unfold is_upper in E2. destruct ((65 <=? c) && (c <=? 70)) eqn:E3.
        - apply andb_true_iff in E3 as [E3 E4]. apply N.leb_le in E3, E4. apply andb_false_iff in E2 as [E2|E2]; apply N.leb_gt in E2; lia.
        - cbn [orb] in Hd. apply andb_true_iff in Hd as [H1 H2]. apply N.leb_le in H1, H2. lia. }
      assert (is_lower c = true) as E3 by (unfold is_lower; apply andb_true_iff; split; apply N.leb_le; lia).
      destruct (accumulate_code 16 87 c ch v HEXADECIMAL_CHARACTER_REFERENCE st tok la [] te [] fo ma at_ false o) as (ch' & E & H); try assumption; try reflexivity.
      { lia. }
      { unfold digit_value. now rewrite E1, E2. }
      eexists. split; [apply once; [unfold step, clear_again; cbn [l_state]; unfold on_HEXADECIMAL_CHARACTER_REFERENCE; rewrite E1, E2, E3; exact E|reflexivity]|].
      exists ch'. split; [unfold num_at; cbn; repeat split; reflexivity|exact H].
  - unfold base_of.
    destruct (accumulate_code 10 48 c ch v DECIMAL_CHARACTER_REFERENCE st tok la [] te [] fo ma at_ false o) as (ch' & E & H); try assumption; try reflexivity.
    { unfold is_digit in Hd. apply andb_true_iff in Hd as [E1 _]. now apply N.leb_le in E1. }
    { unfold digit_value. now rewrite Hd. }
    eexists. split; [apply once; [unfold step, clear_again; cbn [l_state]; unfold on_DECIMAL_CHARACTER_REFERENCE; rewrite Hd; exact E|reflexivity]|].
    exists ch'. split; [unfold num_at; cbn; repeat split; reflexivity|exact H].
Qed.

Lemma num_digits hex st la o ds : Forall (fun c => base_digit hex c = true) ds -> forall ch v l, code_of ch v -> num_at hex st la o ch l ->
  exists l', feed sink ds l = Ok l' /\ exists ch', num_at hex st la o ch' l' /\ code_of ch' (fold_left (fun v c => v * base_of hex + digit_value c) ds v).
Proof.
  induction 1 as [|c ds Hc Hds IH]; intros ch v l Hch Hl.
  - exists l. split; [reflexivity|]. exists ch. auto.
  - destruct (num_digit hex st la o ch v c l 7 Hc Hch Hl) as (l' & E & ch' & Hl' & Hch').
    destruct (IH _ _ _ Hch' Hl') as (l'' & E' & H). exists l''. split; [|exact H]. cbn [feed]. unfold max_depth. rewrite E. exact E'.
Qed.

(** The opening of a reference up to its first digit. *)
Lemma num_start hex st la o c l : decodes st -> base_digit hex c = true -> text_at st la o l ->
  exists l', feed sink (base_prefix hex ++ [c]) l = Ok l' /\ exists ch, num_at hex st la o ch l' /\ code_of ch (digit_value c).
Proof.
  intros Hd Hc (Hs & Hb & Hp & Hl & Ho). destruct l as [st' re tok la' ch0 bu te pe fo ma at_ ag out].
  cbn in Hs, Hb, Hp, Hl, Ho. subst. rewrite feed_app.
  assert (code_of 0 0) as C0 by (left; lia).
  destruct hex; cbn [base_prefix base_digit] in *.
  - assert (exists te' ag', feed sink [38; 35; 120] (mkLexer st re tok la ch0 [] te [] fo ma at_ ag o) =
       Ok (mkLexer HEXADECIMAL_CHARACTER_REFERENCE_START st tok la 0 [] te' [] fo ma at_ ag' o)) as (te' & ag' & E).
    { destruct Hd as [-> | ->]; eexists; eexists; vm_compute; reflexivity. }
    rewrite E. cbn [bind]. clear E. rewrite feed1.
    destruct (num_digit true st la o 0 0 c (mkLexer HEXADECIMAL_CHARACTER_REFERENCE st tok la 0 [] te' [] fo ma at_ true o) 6 Hc C0) as (l' & E & ch' & H1 & H2).
    { unfold num_at. cbn. repeat split; reflexivity. }
    exists l'. split; [|exists ch'; split; [exact H1|exact H2]].
    etransitivity; [apply twice; [unfold step, clear_again; cbn [l_state]; unfold on_HEXADECIMAL_CHARACTER_REFERENCE_START; rewrite Hc; acts; reflexivity|reflexivity]|].
    exact E.
  - assert (exists te' ag', feed sink [38; 35] (mkLexer st re tok la ch0 [] te [] fo ma at_ ag o) =
       Ok (mkLexer NUMERIC_CHARACTER_REFERENCE st tok la ch0 [] te' [] fo ma at_ ag' o)) as (te' & ag' & E).
    { destruct Hd as [-> | ->]; eexists; eexists; vm_compute; reflexivity. }
    rewrite E. cbn [bind]. clear E. rewrite feed1.
    destruct (num_digit false st la o 0 0 c (mkLexer DECIMAL_CHARACTER_REFERENCE st tok la 0 [] te' [] fo ma at_ true o) 5 Hc C0) as (l' & E & ch' & H1 & H2).
    { unfold num_at. cbn. repeat split; reflexivity. }
    exists l'. split; [|exists ch'; split; [exact H1|exact H2]].
    assert ((c =? 120) = false /\ (c =? 88) = false) as [A1 A2].
    { unfold is_digit in Hc. apply andb_true_iff in Hc as [A1 A2]. apply N.leb_le in A1, A2. rewrite !N.eqb_neq. lia. }
    etransitivity; [apply twice; [unfold step, clear_again; cbn [l_state]; unfold on_NUMERIC_CHARACTER_REFERENCE; acts; rewrite A1, A2; cbn [orb]; acts; reflexivity|reflexivity]|].
    etransitivity; [apply twice; [unfold step, clear_again; cbn [l_state]; unfold on_DECIMAL_CHARACTER_REFERENCE_START; rewrite Hc; acts; reflexivity|reflexivity]|].
    exact E.
Qed.

(** After the semicolon the character is held back. *)
Definition end_at (st : state) (la : option token) (o : list token) (ch : N) (l : lexer) : Prop :=
  l_state l = NUMERIC_CHARACTER_REFERENCE_END /\ l_return l = st /\ l_builder l = [] /\ l_peek l = [] /\ l_last l = la /\ l_out l = o /\ l_char l = ch.

Lemma num_semicolon hex st la o ch l : num_at hex st la o ch l ->
  exists l', consume sink max_depth 59 false l = Ok l' /\ end_at st la o ch l'.
Proof.
  intros (Hs & Hr & Hb & Hp & Hl & Ho & Hch). destruct l as [st' re tok la' ch0 bu te pe fo ma at_ ag out].
  cbn in Hs, Hr, Hb, Hp, Hl, Ho, Hch. subst. destruct hex; eexists; (split; [vm_compute; reflexivity|]); unfold end_at; cbn; repeat split; reflexivity.
Qed.

Lemma twice_eof c eof l l' f : step sink c eof (clear_again l) = Ok l' -> l_again l' = true -> consume sink (S f) c eof l = consume sink f c eof l'.
Proof.
  intros H Ha. cbn [consume]. unfold seq. cbn [bind set_again]. fold (clear_again l). rewrite H. cbn [bind]. now rewrite Ha.
Qed.
Lemma end_next st la o ch c eof l : decodes st -> end_at st la o ch l ->
  exists l', text_at st la (char_token (decode_code ch) :: o) l' /\ consume sink max_depth c eof l = consume sink 7 c eof l'.
Proof.
  intros Hd (Hs & Hr & Hb & Hp & Hl & Ho & Hch). destruct l as [st' re tok la' ch0 bu te pe fo ma at_ ag out].
  cbn in Hs, Hr, Hb, Hp, Hl, Ho, Hch. subst.
  destruct Hd as [-> | ->], at_; eexists; (split; [|apply twice_eof; [unfold step, clear_again; cbn [l_state];
    unfold on_NUMERIC_CHARACTER_REFERENCE_END, flush; acts; unfold app, emit_all; acts; reflexivity|reflexivity]]); unfold text_at; cbn; auto.
Qed.

Lemma decode_ext ch v : code_of ch v -> decode_code ch = decode_code v.
Proof.
  intros [[-> _]|[H1 H2]]; [reflexivity|]. unfold decode_code, is_unicode.
  assert ((ch =? 0) = false) as -> by (apply N.eqb_neq; lia). assert ((v =? 0) = false) as -> by (apply N.eqb_neq; lia).
  assert ((ch <=? 1114111) = false) as -> by (apply N.leb_gt; lia). assert ((v <=? 1114111) = false) as -> by (apply N.leb_gt; lia).
  reflexivity.
Qed.

(** A whole numeric reference. *)
Lemma num_run hex st la o ds l : decodes st -> ds <> [] -> Forall (fun c => base_digit hex c = true) ds -> text_at st la o l ->
  exists l', feed sink (base_prefix hex ++ ds ++ [59]) l = Ok l' /\
    exists ch, end_at st la o ch l' /\ decode_code ch = decode_code (number (base_of hex) ds).
Proof.
  intros Hd Hne Hds Hl. destruct Hds as [|c ds Hc Hds]; [contradiction Hne; reflexivity|].
  change (base_prefix hex ++ (c :: ds) ++ [59]) with (base_prefix hex ++ [c] ++ ds ++ [59]). rewrite app_assoc.
  destruct (num_start hex st la o c l Hd Hc Hl) as (l1 & E1 & ch1 & H1 & C1).
  destruct (num_digits hex st la o ds Hds ch1 _ l1 C1 H1) as (l2 & E2 & ch2 & H2 & C2).
  destruct (num_semicolon hex st la o ch2 l2 H2) as (l3 & E3 & H3).
  exists l3. split.
  - rewrite feed_app, E1. cbn [bind]. rewrite feed_app, E2. cbn [bind]. rewrite feed1. exact E3.
  - exists ch2. split; [exact H3|]. apply decode_ext. exact C2.
Qed.

Definition plain (c : N) : Prop := c <> 38 /\ c <> 60 /\ c <> 0 /\ c <> 13.

Lemma plain_text st la s : decodes st -> Forall plain s -> forall o l, text_at st la o l ->
  exists l', feed sink s l = Ok l' /\ text_at st la (rev (map char_token s) ++ o) l'.
Proof.
  intros Hd. induction 1 as [|c s (H1 & H2 & H3 & _) Hs IH]; intros o l Hl.
  - exists l. split; [reflexivity|exact Hl].
  - eapply feed_cons_then; [apply text_char; eassumption|]. clear l Hl. intros l Hl.
    destruct (IH _ _ Hl) as (l' & E & H). exists l'. split; [exact E|]. cbn [map rev]. rewrite <- app_assoc. exact H.
Qed.

(** What follows a numeric reference is read as if its character had been emitted before. *)
Lemma run_after la o ch l t : Forall plain t -> end_at DATA la o ch l ->
  exists l', run sink t l = Ok l' /\ l_out l' = new_token T_END_OF_FILE :: rev (map char_token t) ++ char_token (decode_code ch) :: o.
Proof.
  intros Ht Hl. unfold run. destruct Ht as [|c t (H1 & H2 & H3 & H4) Ht].
  - cbn [feed bind map rev app]. unfold finish.
    destruct (end_next DATA la o ch 3 true l (or_introl eq_refl) Hl) as (l' & (Hs & Hb & Hp & Hla & Ho) & ->).
    destruct l' as [st' re tok la' ch0 bu te pe fo ma at_ ag out]. cbn in Hs, Hb, Hp, Hla, Ho. subst.
    destruct at_; eexists; (split; [cbv -[decode_code]; reflexivity|]); reflexivity.
  - cbn [feed]. destruct (end_next DATA la o ch c false l (or_introl eq_refl) Hl) as (l1 & Hl1 & ->).
    assert (exists l2, consume sink 7 c false l1 = Ok l2 /\ text_at DATA la (char_token c :: char_token (decode_code ch) :: o) l2) as (l2 & E2 & H2').
    { destruct Hl1 as (Hs & Hb & Hp & Hla & Ho). destruct l1 as [st' re tok la' ch0 bu te pe fo ma at_ ag out]. cbn in Hs, Hb, Hp, Hla, Ho. subst.
      apply N.eqb_neq in H1, H2, H3.
      destruct at_; (eexists; split; [apply once; [unfold step, clear_again; cbn [l_state]; unfold on_DATA; rewrite H1, H2, H3; acts; reflexivity|reflexivity]|]); unfold text_at; cbn; auto. }
    rewrite E2. cbn [bind]. destruct (plain_text DATA la t (or_introl eq_refl) Ht _ _ H2') as (l3 & E3 & H3').
    rewrite E3. cbn [bind]. destruct (finish_data sink la _ l3 H3') as (l4 & E4 & H4'). exists l4. split; [exact E4|].
    rewrite H4'. cbn [map rev]. rewrite <- app_assoc. reflexivity.
Qed.
End Sink.

Lemma normalize_id s : ~ In 13 s -> normalize s = s.
Proof.
  induction s as [|c s IH]; intros H; [reflexivity|]. cbn [normalize].
  destruct (c =? 13) eqn:E; [apply N.eqb_eq in E; subst; contradiction H; left; reflexivity|].
  f_equal. apply IH. intros h. apply H. right. exact h.
Qed.
Lemma plain_no_cr s : Forall plain s -> ~ In 13 s.
Proof. intros H Hi. rewrite Forall_forall in H. destruct (H _ Hi) as (_ & _ & _ & H13). apply H13. reflexivity. Qed.
Lemma init_text : text_at DATA None [] init.
Proof. unfold text_at. auto. Qed.
