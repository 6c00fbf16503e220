(** Proofs about ColorModel.v: reading ends, reading small numbers is defined, mixes. *)
From Coq Require Import String List NArith ZArith QArith Qabs Bool Lia Lqa.
From Verif.Base Require Import Str Outcome.
From Verif.Css Require Import LexerModel ParserModel.
From Verif.Values Require Import Number LengthModel CalcModel ColorModel ColorSpec ColorProofs ColorProofs2.
Import ListNotations.
Local Open Scope list_scope.

(** What a reading gives satisfies [P]; it does not run out of fuel, nor, if [b], into undefined
    behaviour. *)
Definition good {A} (b : bool) (P : A -> Prop) (o : res A) : Prop :=
  match o with
  | Ok (Some a) => P a
  | Ok None => True
  | Panic => b = false
  | OutOfFuel => False
  end.
Lemma good_bind {A B} b (P : A -> Prop) (R : B -> Prop) (x : res A) f :
  good b P x -> (forall a, P a -> good b R (f a)) -> good b R (rbind x f).
Proof. destruct x as [[a|]| |]; cbn; auto. Qed.
Lemma good_some {A} b (P : A -> Prop) a : P a -> good b P (Ok (Some a)).
Proof. auto. Qed.
Lemma good_none {A} b (P : A -> Prop) : good b P (Ok None).
Proof. exact I. Qed.
Lemma good_impl {A} b (P R : A -> Prop) o : good b P o -> (forall a, P a -> R a) -> good b R o.
Proof. destruct o as [[a|]| |]; cbn; auto. Qed.

(** The values left to read; if [b], they are tame. *)
Definition rest_ok (b : bool) (c : list sst) : Prop := b = true -> Forall tame c.
Lemma rest_tail b x c : rest_ok b (x :: c) -> rest_ok b c.
Proof. intros H B. specialize (H B). now inversion H. Qed.
Lemma rest_head b x c : rest_ok b (x :: c) -> b = true -> tame x.
Proof. intros H B. specialize (H B). now inversion H. Qed.
Lemma eat_wss_forall (P : sst -> Prop) c : Forall P c -> Forall P (eat_wss c).
Proof.
  induction 1 as [|x c X H IH]; [constructor|]. cbn [eat_wss]. destruct x; try (now constructor).
  destruct (ttype_beq _ _); [exact IH|now constructor].
Qed.
Lemma rest_eat b c : rest_ok b c -> rest_ok b (eat_wss c).
Proof. intros H B. apply eat_wss_forall. auto. Qed.
Lemma skip_tok_tail t c r : skip_tok t c = Some r -> exists x, c = x :: r.
Proof.
  destruct c as [|x c]; [discriminate|]. destruct x; try discriminate. cbn [skip_tok].
  destruct (token_eqb _ _); [|discriminate]. intros [= <-]. eauto.
Qed.
Lemma skip_type_tail t c r : skip_type t c = Some r -> exists x, c = x :: r.
Proof.
  destruct c as [|x c]; [discriminate|]. cbn [skip_type]. destruct (is_type x t); [|discriminate].
  intros [= <-]. eauto.
Qed.
Lemma rest_skip b t c r : rest_ok b c -> skip_tok t c = Some r -> rest_ok b r.
Proof. intros H E. apply skip_tok_tail in E as [x ->]. now apply rest_tail in H. Qed.
#[local] Hint Resolve rest_eat rest_tail rest_skip : col.

Definition unit_or (b : bool) (hi : Q) (q : Q) : Prop := b = true -> 0 <= q <= hi.
Lemma percent_good b c : rest_ok b c ->
  good b (fun x => unit_or b 100 (fst x) /\ rest_ok b (snd x)) (percent_value c).
Proof.
  intros H. unfold percent_value, parse_percent. destruct c as [|x c]; [exact I|]. destruct x as [t| | | |]; try exact I.
  destruct (ttype_beq (t_type t) PERCENTAGE) eqn:E; [|exact I]. cbn [good fst snd].
  split; [|eauto with col]. intros B. apply (rest_head _ _ _ H) in B. inversion B as [? _ K _| | | |]; subst.
  apply internal_ttype_dec_bl in E. destruct (atof (t_data t)) as [[q r]|] eqn:F; [eauto|lra].
Qed.
Lemma number_good b c : rest_ok b c ->
  good b (fun x => unit_or b 1 (fst x) /\ rest_ok b (snd x)) (number_value c).
Proof.
  intros H. unfold number_value, parse_number. destruct c as [|x c]; [exact I|]. destruct x as [t| | | |]; try exact I.
  destruct (ttype_beq (t_type t) NUMBER) eqn:E; [|exact I].
  destruct (atof (t_data t)) as [[q r]|] eqn:F; [|exact I]. cbn [good fst snd].
  split; [|eauto with col]. intros B. apply (rest_head _ _ _ H) in B. inversion B as [? K _ _| | | |]; subst.
  apply internal_ttype_dec_bl in E. eauto.
Qed.

Section Good.
Variable rnd : Q -> Z.
Hypothesis Hrnd : rounds rnd.
Variable pi : Q.
Variable hsl_to_rgb : hsl -> rgba.

Lemma u8_good b q : (b = true -> 0 <= q < 256) -> good b (fun _ => True) (u8 q).
Proof.
  intros H. unfold u8. destruct ((0 <=? trunc q) && (trunc q <=? 255))%Z eqn:E; [exact I|]. cbn.
  destruct b; [|reflexivity]. destruct (H eq_refl) as [L U]. pose proof (u8_some q L U) as K. unfold u8 in K.
  rewrite E in K. discriminate.
Qed.
Lemma round_good b q : unit_or b 255 q -> good b (fun _ => True) (u8 (round rnd q)).
Proof.
  intros H. apply u8_good. intros B. specialize (H B). unfold round.
  assert (0 <= rnd q <= 255)%Z by (apply (nearest_range _ q 0 255); [apply Hrnd|exact H]).
  split; [change 0 with (inject_Z 0); rewrite <- Zle_Qle; lia|].
  change 256 with (inject_Z 256). rewrite <- Zlt_Qlt. lia.
Qed.
Lemma alpha_good b c : rest_ok b c -> good b (fun x => rest_ok b (snd x)) (alpha_value rnd c).
Proof.
  intros H. unfold alpha_value. destruct c as [|s c]; [exact I|]. destruct (is_type s PERCENTAGE).
  - eapply good_bind; [apply percent_good, H|]. intros [q r] [K R]. cbn [fst snd] in *.
    eapply good_bind; [apply round_good; intros B; specialize (K B); split; [|]|intros; exact R].
    + unfold Qdiv. change (/ 100) with (1 # 100). lra.
    + unfold Qdiv. change (/ 100) with (1 # 100). lra.
  - destruct (is_type s NUMBER); [|exact I].
    eapply good_bind; [apply number_good, H|]. intros [q r] [K R]. cbn [fst snd] in *.
    eapply good_bind; [apply round_good; intros B; specialize (K B); lra|intros; exact R].
Qed.
Lemma alpha_modern_good b c : rest_ok b c -> good b (fun x => rest_ok b (snd x)) (alpha_modern rnd c).
Proof.
  intros H. unfold alpha_modern. destruct c as [|s c]; [exact I|].
  destruct (skip_tok _ (s :: c)) as [r|] eqn:E; [|exact I]. assert (R : rest_ok b (eat_wss r)) by eauto with col.
  destruct (skip_tok _ (eat_wss r)) as [r'|] eqn:F; [cbn; eauto with col|].
  eapply good_bind; [apply alpha_good, R|]. intros [a r'] K. exact K.
Qed.
Lemma num_perc_good b full c : 1 <= full -> rest_ok b c ->
  good b (fun x => unit_or b full (fst x) /\ rest_ok b (snd x)) (num_perc_none full c).
Proof.
  intros F H. unfold num_perc_none. destruct c as [|s c]; [exact I|].
  destruct (skip_tok _ (s :: c)) as [r|] eqn:E.
  - cbn [good fst snd]. split; [intros _; lra|eauto with col].
  - destruct (is_type s PERCENTAGE).
    + eapply good_bind; [apply percent_good, H|]. intros [q r] [K R]. cbn [good fst snd] in *. split; [|exact R].
      intros B. specialize (K B). unfold Qdiv. change (/ 100) with (1 # 100). nra.
    + eapply good_impl; [apply number_good, H|]. intros [q r] [K R]. cbn [fst snd] in *. split; [|exact R].
      intros B. specialize (K B). lra.
Qed.
(** A rounded number between 0 and [hi]. *)
Definition whole_to (b : bool) (hi : Z) (q : Q) : Prop := exists z, q = inject_Z z /\ (b = true -> (0 <= z <= hi)%Z).
Lemma rgb_param_good b hi c : (1 <= hi)%Z -> rest_ok b c ->
  good b (fun x => whole_to b hi (fst x) /\ rest_ok b (snd x)) (rgb_param rnd (inject_Z hi) c).
Proof.
  intros F H. unfold rgb_param. destruct (ended c); [exact I|].
  eapply good_bind; [apply num_perc_good; [change 1 with (inject_Z 1); now rewrite <- Zle_Qle|exact H]|].
  intros [q r] [K R]. cbn [good fst snd] in *. split; [|auto with col].
  exists (rnd q). split; [reflexivity|]. intros B. specialize (K B).
  apply (nearest_range _ q); [apply Hrnd|exact K].
Qed.
Lemma rgb_params_good b hi c : (1 <= hi)%Z -> rest_ok b c ->
  good b (fun x => match x with (p, q, r, rest) =>
            whole_to b hi p /\ whole_to b hi q /\ whole_to b hi r /\ rest_ok b rest end) (rgb_params rnd (inject_Z hi) c).
Proof.
  intros F H. unfold rgb_params.
  eapply good_bind; [apply rgb_param_good; eauto|]. intros [p c1] [K1 R1]. cbn [fst snd] in *.
  eapply good_bind; [apply rgb_param_good; eauto|]. intros [q c2] [K2 R2]. cbn [fst snd] in *.
  eapply good_bind; [apply rgb_param_good; eauto|]. intros [r c3] [K3 R3]. cbn [fst snd] in *.
  cbn. auto.
Qed.
Lemma whole_round b q : whole_to b 255 q -> good b (fun _ => True) (u8 (round rnd q)).
Proof.
  intros (z & -> & K). apply round_good. intros B. specialize (K B).
  change 0 with (inject_Z 0). change 255 with (inject_Z 255). rewrite <- !Zle_Qle. exact K.
Qed.
Lemma whole_round1 b q : whole_to b 1 q -> good b (fun _ => True) (u8 (round rnd (q * 255))).
Proof.
  intros (z & -> & K). apply round_good. intros B. specialize (K B).
  change 0 with (inject_Z 0). change 255 with (inject_Z 255). rewrite <- inject_Z_mult, <- !Zle_Qle. lia.
Qed.
Lemma rgb_modern_good b c : rest_ok b c -> good b (fun _ => True) (rgb_modern rnd c).
Proof.
  intros H. unfold rgb_modern. cbn zeta. destruct (ended (eat_wss c)); [exact I|].
  eapply good_bind; [apply (rgb_params_good b 255); [lia|auto with col]|]. intros [[[p q] r] rest] (K1 & K2 & K3 & R).
  eapply good_bind; [apply whole_round, K1|]. intros ? _.
  eapply good_bind; [apply whole_round, K2|]. intros ? _.
  eapply good_bind; [apply whole_round, K3|]. intros ? _.
  destruct (ended (eat_wss rest)); [exact I|].
  eapply good_bind; [apply alpha_modern_good; eauto with col|]. intros [? ?] _. exact I.
Qed.
Lemma channel_good b perc c : rest_ok b c -> good b (fun x => rest_ok b (snd x)) (legacy_channel rnd perc c).
Proof.
  intros H. unfold legacy_channel. destruct (ended c); [exact I|].
  eapply good_bind with (P := fun x => rest_ok b (snd x)).
  - destruct perc.
    + eapply good_bind; [apply percent_good, H|]. intros [q r] [K R]. cbn [fst snd] in *.
      eapply good_bind; [apply round_good; intros B; specialize (K B)|intros; exact R].
      unfold Qdiv. change (/ 100) with (1 # 100). lra.
    + eapply good_bind; [apply number_good, H|]. intros [q r] [K R]. cbn [fst snd] in *.
      eapply good_bind; [apply u8_good; intros B; specialize (K B); lra|intros; exact R].
  - intros [z r] R. cbn [good fst snd] in *. auto with col.
Qed.
Lemma comma_good b c : rest_ok b c -> good b (rest_ok b) (legacy_comma c).
Proof.
  intros H. unfold legacy_comma. destruct (skip_type COMMA c) as [r|] eqn:E; [|exact I].
  apply skip_type_tail in E as [x ->]. cbn. eauto with col.
Qed.
Lemma rgb_legacy_good b c : rest_ok b c -> good b (fun _ => True) (rgb_legacy rnd c).
Proof.
  intros H. unfold rgb_legacy. cbn zeta. destruct (ended (eat_wss c)); [exact I|].
  eapply good_bind; [apply channel_good; auto with col|]. intros [? c1] R1. cbn [snd] in R1.
  eapply good_bind; [apply comma_good, R1|]. intros c2 R2.
  eapply good_bind; [apply channel_good, R2|]. intros [? c3] R3. cbn [snd] in R3.
  eapply good_bind; [apply comma_good, R3|]. intros c4 R4.
  eapply good_bind; [apply channel_good, R4|]. intros [? c5] R5. cbn [snd] in R5.
  destruct (ended (eat_wss c5)); [exact I|].
  eapply good_bind; [apply comma_good; auto with col|]. intros c6 R6.
  eapply good_bind; [apply alpha_good, R6|]. intros [? ?] _. exact I.
Qed.
Lemma hue_good b c : rest_ok b c -> good b (fun x => rest_ok b (snd x)) (hue_value pi c).
Proof.
  intros H. unfold hue_value. destruct (skip_tok _ c) as [r|] eqn:E; [cbn; eauto with col|].
  destruct (next_is c DIMENSION).
  - destruct c as [|x c]; [exact I|]. destruct x as [t| | | |]; try exact I. cbn [parse_angle].
    destruct (ttype_beq _ _); [|exact I]. destruct (dimension _) as [q u]. destruct (angle_unit_of u); [|exact I].
    cbn. eauto with col.
  - destruct (next_is c NUMBER); [|exact I]. eapply good_impl; [apply number_good, H|]. now intros [q r] [_ R].
Qed.
Lemma hsl_modern_good b c : rest_ok b c -> good b (fun _ => True) (hsl_modern rnd pi hsl_to_rgb c).
Proof.
  intros H. unfold hsl_modern. cbn zeta. destruct (ended (eat_wss c)); [exact I|].
  eapply good_bind; [apply hue_good; auto with col|]. intros [? c1] R1. cbn [snd] in R1.
  eapply good_bind; [apply num_perc_good; [lra|auto with col]|]. intros [? c2] [_ R2]. cbn [snd] in R2.
  eapply good_bind; [apply num_perc_good; [lra|auto with col]|]. intros [? c3] [_ R3]. cbn [snd] in R3.
  destruct (ended (eat_wss c3)); [exact I|].
  eapply good_bind; [apply alpha_modern_good; auto with col|]. intros [? ?] _. exact I.
Qed.
Lemma hsl_legacy_good b c : rest_ok b c -> good b (fun _ => True) (hsl_legacy rnd pi hsl_to_rgb c).
Proof.
  intros H. unfold hsl_legacy. cbn zeta. destruct (ended (eat_wss c)); [exact I|].
  eapply good_bind; [apply hue_good; auto with col|]. intros [? c1] R1. cbn [snd] in R1.
  eapply good_bind; [apply comma_good; auto with col|]. intros c2 R2.
  eapply good_bind; [apply percent_good, R2|]. intros [? c3] [_ R3]. cbn [snd] in R3.
  eapply good_bind; [apply comma_good; auto with col|]. intros c4 R4.
  eapply good_bind; [apply percent_good, R4|]. intros [? c5] [_ R5]. cbn [snd] in R5.
  destruct (ended (eat_wss c5)); [exact I|].
  eapply good_bind; [apply comma_good; auto with col|]. intros c6 R6.
  eapply good_bind; [apply alpha_good, R6|]. intros [? ?] _. exact I.
Qed.
Lemma color_func_good b c : rest_ok b c -> good b (fun _ => True) (color_func rnd c).
Proof.
  intros H. unfold color_func. pose proof (rest_eat _ _ H) as E. destruct (eat_wss c) as [|x r]; [exact I|].
  destruct x as [t| | | |]; try exact I. destruct (ttype_beq _ _); [|exact I]. destruct (existsb _ _); [|exact I].
  apply rest_tail in E.
  eapply good_bind; [apply (rgb_params_good b 1); [lia|auto with col]|]. intros [[[p q] s] rest] (K1 & K2 & K3 & R).
  destruct (ended (eat_wss rest)).
  - eapply good_bind; [apply whole_round1, K1|]. intros ? _.
    eapply good_bind; [apply whole_round1, K2|]. intros ? _.
    eapply good_bind; [apply whole_round1, K3|]. intros ? _. exact I.
  - eapply good_bind; [apply alpha_modern_good; auto with col|]. intros [? ?] _.
    eapply good_bind; [apply whole_round1, K1|]. intros ? _.
    eapply good_bind; [apply whole_round1, K2|]. intros ? _.
    eapply good_bind; [apply whole_round1, K3|]. intros ? _. exact I.
Qed.
Lemma first_of_good {A} b (P : A -> Prop) x y : good b P x -> good b P y -> good b P (first_of x y).
Proof. destruct x as [[a|]| |]; cbn; auto. Qed.
Lemma func_color_good b n c : rest_ok b c -> good b (fun _ => True) (func_color rnd pi hsl_to_rgb n c).
Proof.
  intros H. unfold func_color. destruct (is_func n "color("); [now apply color_func_good|].
  destruct (is_func n "rgb(" || _); [apply first_of_good; [now apply rgb_modern_good|now apply rgb_legacy_good]|].
  destruct (is_func n "hsl(" || _); [apply first_of_good; [now apply hsl_modern_good|now apply hsl_legacy_good]|].
  exact I.
Qed.

(** ** Mixes *)
Section MixGood.
Variable b : bool.
Variable k : sst -> res color.
(** Reading is good for each of the values in a list. *)
Definition all_good (c : list sst) : Prop := Forall (fun x => good b (fun _ => True) (k x)) c.
Lemma all_good_eat c : all_good c -> all_good (eat_wss c).
Proof. apply eat_wss_forall. Qed.
Lemma all_good_tail x c : all_good (x :: c) -> all_good c.
Proof. intros H. now inversion H. Qed.
#[local] Hint Resolve all_good_eat all_good_tail : col.
Lemma percent_all c : all_good c -> good b (fun x => all_good (snd x)) (percent_value c).
Proof.
  intros H. unfold percent_value, parse_percent. destruct c as [|x c]; [exact I|]. destruct x; try exact I.
  destruct (ttype_beq _ _); [|exact I]. cbn. eauto with col.
Qed.
Lemma read_color_good c : all_good c -> good b (fun x => all_good (snd x)) (read_color k c).
Proof.
  intros H. destruct c as [|x c]; [exact I|]. cbn [read_color].
  eapply good_bind; [inversion H; eassumption|]. intros a _. cbn. eauto with col.
Qed.
Lemma mix_side_good c : all_good c -> good b (fun x => all_good (snd x)) (mix_side k c).
Proof.
  intros H. unfold mix_side. destruct c as [|s c]; [exact I|]. destruct (is_type s PERCENTAGE).
  - eapply good_bind; [apply percent_all, H|]. intros [p c1] R1. cbn [snd] in R1.
    eapply good_bind; [apply read_color_good; auto with col|]. intros [x c2] R2. exact R2.
  - eapply good_bind; [apply read_color_good, H|]. intros [x c2] R2. cbn [snd] in R2. cbn zeta.
    destruct (next_is _ _); [|cbn; auto with col].
    eapply good_bind; [apply percent_all; auto with col|]. intros [p c1] R1. exact R1.
Qed.
Lemma skip_comma_all c r : all_good c -> skip_comma c = (true, r) -> all_good r.
Proof.
  intros H. unfold skip_comma. cbn zeta. destruct (skip_type COMMA (eat_wss c)) as [r'|] eqn:E; [|discriminate].
  intros [= <-]. apply skip_type_tail in E as [x E]. apply all_good_eat.
  apply all_good_tail with x. rewrite <- E. auto with col.
Qed.
Lemma color_mix_good c : all_good c -> good b (fun _ => True) (color_mix k c).
Proof.
  intros H. unfold color_mix. destruct (skip_tok _ (eat_wss c)) as [r|] eqn:E; [|exact I].
  apply skip_tok_tail in E as [x E]. assert (R : all_good (eat_wss r)).
  { apply all_good_eat. apply all_good_tail with x. rewrite <- E. auto with col. }
  destruct (eat_wss r) as [|y r1]; [exact I|]. destruct y as [t| | | |]; try exact I.
  destruct (ttype_beq _ _); [|exact I]. destruct (skip_comma r1) as [[] r2] eqn:F; [|exact I].
  assert (R2 : all_good r2) by (eapply skip_comma_all; [|exact F]; eauto with col).
  eapply good_bind; [apply mix_side_good, R2|]. intros [[l lp] r3] R3. cbn [snd] in R3.
  destruct (skip_comma r3) as [[] r4] eqn:G; [|exact I].
  assert (R4 : all_good r4) by (eapply skip_comma_all; [|exact G]; exact R3).
  eapply good_bind; [apply mix_side_good, R4|]. intros [[? ?] ?] _. exact I.
Qed.
End MixGood.

Lemma parse_hex_good b s : (b = true -> exists r, s = 35%N :: r) -> good b (fun _ => True) (parse_hex s).
Proof.
  intros H. unfold parse_hex. destruct s as [|h s].
  - cbn. destruct b; [|reflexivity]. destruct (H eq_refl) as [r K]. discriminate.
  - destruct (negb (h =? 35)%N) eqn:E.
    + cbn. destruct b; [|reflexivity]. destruct (H eq_refl) as [r [= -> _]]. discriminate.
    + do 9 (destruct s as [|? s]; [exact I|]). exact I.
Qed.

Lemma color_of_good b fuel s : (nesting s < fuel)%nat -> (b = true -> tame s) ->
  good b (fun _ => True) (color_of rnd pi hsl_to_rgb fuel s).
Proof.
  revert s. induction fuel as [|fuel IH]; intros s N T; [lia|]. cbn [color_of].
  destruct s as [t|n c|c|n p c|n c i]; try exact I.
  - destruct (ttype_beq (t_type t) HASH) eqn:E.
    + apply internal_ttype_dec_bl in E. eapply good_bind; [apply parse_hex_good|intros ? _; exact I].
      intros B. specialize (T B). inversion T; subst; auto.
    + destruct (ttype_beq (t_type t) IDENT); [|exact I]. cbn. destruct (ident_color _); exact I.
  - assert (R : rest_ok b c) by (intros B; specialize (T B); now inversion T).
    destruct (is_func n "color-mix(").
    + apply color_mix_good. unfold all_good. apply Forall_forall. intros x X. apply IH.
      * cbn [nesting] in N. clear - N X. assert (nesting x <= fold_right (fun x m => Nat.max (nesting x) m) 0 c)%nat; [|lia].
        clear N. induction c as [|y c IH]; [contradiction|]. cbn [fold_right]. destruct X as [-> | X]; [lia|]. specialize (IH X). lia.
      * intros B. specialize (R B). rewrite Forall_forall in R. auto.
    + eapply good_bind; [now apply func_color_good|]. intros ? _. exact I.
Qed.

(** More fuel changes nothing. *)
Lemma mix_side_ext k k' c : (forall x, In x c -> k x = k' x) -> mix_side k c = mix_side k' c.
Proof.
  intros H. unfold mix_side. destruct c as [|s c]; [reflexivity|]. destruct (is_type s PERCENTAGE) eqn:E.
  - destruct s as [t| | | |]; try discriminate E. cbn [is_type] in E. unfold percent_value. cbn [parse_percent].
    rewrite E. ev. pose proof (eat_wss_forall (fun x => k x = k' x) c) as K.
    assert (F : Forall (fun x => k x = k' x) c) by (apply Forall_forall; intros x X; apply H; now right).
    specialize (K F). destruct (eat_wss c) as [|y r]; [reflexivity|]. cbn [read_color]. inversion K; subst. now rewrite H2.
  - cbn [read_color]. now rewrite (H s) by now left.
Qed.

Lemma eat_wss_incl c : incl (eat_wss c) c.
Proof.
  induction c as [|x c IH]; [apply incl_refl|]. cbn [eat_wss]. destruct x; try apply incl_refl.
  destruct (ttype_beq _ _); [now apply incl_tl|apply incl_refl].
Qed.
Lemma percent_incl c q r : parse_percent c = Some (q, r) -> incl r c.
Proof.
  destruct c as [|x c]; [discriminate|]. destruct x as [t| | | |]; try discriminate. cbn [parse_percent].
  destruct (ttype_beq _ _); [|discriminate]. intros [= _ <-]. apply incl_tl, incl_refl.
Qed.
Lemma mix_side_incl k c l p r : mix_side k c = Ok (Some (l, p, r)) -> incl r c.
Proof.
  unfold mix_side. destruct c as [|s c]; [discriminate|]. destruct (is_type s PERCENTAGE).
  - unfold percent_value. destruct (parse_percent (s :: c)) as [[q c1]|] eqn:E; [|discriminate]. ev.
    apply percent_incl in E. pose proof (eat_wss_incl c1) as W.
    destruct (eat_wss c1) as [|y c2]; [discriminate|]. cbn [read_color].
    destruct (k y) as [[x|]| |]; try discriminate. cbn. intros [= _ _ <-].
    eapply incl_tran; [|exact E]. eapply incl_tran; [|exact W]. apply incl_tl, incl_refl.
  - cbn [read_color]. destruct (k s) as [[x|]| |]; try discriminate. ev. cbn zeta.
    assert (W : incl (eat_wss c) (s :: c)) by apply incl_tl, eat_wss_incl.
    destruct (next_is _ _).
    + unfold percent_value. destruct (parse_percent (eat_wss c)) as [[q c1]|] eqn:E; [|discriminate]. ev.
      intros [= _ _ <-]. apply percent_incl in E. eapply incl_tran; eassumption.
    + intros [= _ _ <-]. exact W.
Qed.
Lemma skip_comma_incl c o r : skip_comma c = (o, r) -> incl r c.
Proof.
  unfold skip_comma. cbn zeta. destruct (skip_type COMMA (eat_wss c)) as [r'|] eqn:E; intros [= _ <-].
  - apply skip_type_tail in E as [x E]. eapply incl_tran; [apply eat_wss_incl|].
    eapply incl_tran; [|apply (eat_wss_incl c)]. rewrite E. apply incl_tl, incl_refl.
  - eapply incl_tran; apply eat_wss_incl.
Qed.
Lemma color_mix_ext k k' c : (forall x, In x c -> k x = k' x) -> color_mix k c = color_mix k' c.
Proof.
  intros H. unfold color_mix. destruct (skip_tok _ (eat_wss c)) as [r|] eqn:E; [|reflexivity].
  apply skip_tok_tail in E as [x E]. assert (R : incl (eat_wss r) c).
  { eapply incl_tran; [apply eat_wss_incl|]. eapply incl_tran; [|apply (eat_wss_incl c)]. rewrite E. apply incl_tl, incl_refl. }
  destruct (eat_wss r) as [|y r1]; [reflexivity|]. destruct y as [t| | | |]; try reflexivity.
  destruct (ttype_beq _ _); [|reflexivity]. destruct (skip_comma r1) as [[] r2] eqn:F; [|reflexivity].
  assert (R2 : incl r2 c).
  { eapply incl_tran; [eapply skip_comma_incl, F|]. eapply incl_tran; [|exact R]. apply incl_tl, incl_refl. }
  rewrite (mix_side_ext k k' r2) by auto. destruct (mix_side k' r2) as [[[[l lp] r3]|]| |] eqn:G; try reflexivity. ev.
  destruct (skip_comma r3) as [[] r4] eqn:J; [|reflexivity].
  rewrite (mix_side_ext k k' r4); [reflexivity|]. intros z Z. apply H. apply R2.
  apply (mix_side_incl _ _ _ _ _ G). now apply (skip_comma_incl _ _ _ J).
Qed.
Lemma nesting_in x c : In x c -> (nesting x <= fold_right (fun x m => Nat.max (nesting x) m) 0 c)%nat.
Proof.
  induction c as [|y c IH]; [contradiction|]. cbn [fold_right]. intros [-> | X]; [lia|]. specialize (IH X). lia.
Qed.
Lemma color_of_fuel n m s : (nesting s < n)%nat -> (nesting s < m)%nat ->
  color_of rnd pi hsl_to_rgb n s = color_of rnd pi hsl_to_rgb m s.
Proof.
  revert m s. induction n as [|n IH]; intros m s N M; [lia|]. destruct m as [|m]; [lia|]. cbn [color_of].
  destruct s as [t|f c|c|? p c|? c i]; try reflexivity. destruct (is_func f "color-mix("); [|reflexivity].
  apply color_mix_ext. intros x X. apply IH; cbn [nesting] in *; apply nesting_in in X; lia.
Qed.

(** ** Reading a mix *)

(** One side of a mix: a color, and a percentage before or after it, or none. *)
Inductive side := Plain (x : sst) | Before (d : decimal) (w : list sst) (x : sst) | After (x : sst) (w : list sst) (d : decimal).
Definition side_text (s : side) : list sst :=
  match s with
  | Plain x => [x]
  | Before d w x => chan_tok (Perc d) :: w ++ [x]
  | After x w d => x :: w ++ [chan_tok (Perc d)]
  end.
Definition side_color (s : side) : sst := match s with Plain x | Before _ _ x | After x _ _ => x end.
Definition side_share (s : side) : option Q :=
  match s with Plain _ => None | Before d _ _ | After _ _ d => Some (decimal_value d) end.
Definition side_ok (s : side) : Prop :=
  match s with Plain _ => True | Before d w _ | After _ w d => decimal_ok d /\ spaces w end.
Definition same_share (p q : option Q) : Prop :=
  match p, q with Some p, Some q => p == q | None, None => True | _, _ => False end.

Lemma color_not_space n x k : color_of rnd pi hsl_to_rgb n x = Ok (Some k) -> is_type x PERCENTAGE = false /\ not_space x.
Proof.
  destruct n as [|n]; [discriminate|]. unfold not_space. destruct x as [t| | | |]; try (split; reflexivity). cbn [color_of is_type].
  destruct (t_type t); cbn; try discriminate; now split.
Qed.
Lemma mix_side_read n s kx tail :
  side_ok s -> color_of rnd pi hsl_to_rgb n (side_color s) = Ok (Some kx) ->
  next_is (eat_wss tail) PERCENTAGE = false ->
  exists p r, mix_side (color_of rnd pi hsl_to_rgb n) (side_text s ++ tail) = Ok (Some (kx, p, r)) /\
    same_share p (side_share s) /\ eat_wss r = eat_wss tail.
Proof.
  intros O K N. destruct (color_not_space _ _ _ K) as [P S]. destruct s as [x|d w x|x w d]; cbn [side_text side_color app] in *.
  - cbn [mix_side]. rewrite P. cbn [read_color]. rewrite K. ev. cbn zeta. rewrite N.
    exists None, (eat_wss tail). split; [reflexivity|]. split; [exact I|].
    clear. induction tail as [|y tail IH]; [reflexivity|]. cbn [eat_wss]. destruct y; try reflexivity.
    destruct (ttype_beq (t_type t) WHITESPACE) eqn:E; [exact IH|]. cbn [eat_wss]. now rewrite E.
  - destruct O as [O W]. rewrite <- app_assoc. cbn [app].
    destruct (percent_read d (w ++ x :: tail) O) as (q & E & V).
    cbn [mix_side]. change (is_type (chan_tok (Perc d)) PERCENTAGE) with true. cbn iota. rewrite E. ev.
    rewrite eat_wss_to by assumption. cbn [read_color]. rewrite K. ev.
    exists (Some q), tail. split; [reflexivity|]. split; [exact V|reflexivity].
  - destruct O as [O W]. cbn [mix_side]. rewrite P. cbn [read_color]. rewrite K. ev. cbn zeta.
    rewrite <- app_assoc. cbn [app]. rewrite eat_wss_to by auto with col.
    change (next_is (chan_tok (Perc d) :: tail) PERCENTAGE) with true. cbn iota.
    destruct (percent_read d tail O) as (q & E & V). rewrite E. ev.
    exists (Some q), tail. split; [reflexivity|]. split; [exact V|reflexivity].
Qed.
Definition mix_text (w : nat -> list sst) (sp : str) (l r : side) : list sst :=
  w 0%nat ++ ident (of_string "in") :: w 1%nat ++ ident sp :: w 2%nat ++ comma :: w 3%nat ++
    side_text l ++ w 4%nat ++ comma :: w 5%nat ++ side_text r ++ w 6%nat.

Lemma skip_comma_read w w' r : spaces w -> spaces w' -> skip_comma (w ++ comma :: w' ++ r) = (true, eat_wss r).
Proof.
  intros W W'. unfold skip_comma. rewrite eat_wss_to by auto with col. cbn zeta.
  change (skip_type COMMA (comma :: w' ++ r)) with (Some (w' ++ r)). cbn iota. now rewrite eat_wss_spaces.
Qed.
Lemma side_head n s kx : color_of rnd pi hsl_to_rgb n (side_color s) = Ok (Some kx) ->
  forall r, eat_wss (side_text s ++ r) = side_text s ++ r.
Proof.
  intros K r. destruct (color_not_space _ _ _ K) as [_ S].
  destruct s; cbn [side_text side_color app] in *; now apply eat_wss_stop.
Qed.
Lemma skip_comma_eat c d : eat_wss c = eat_wss d -> skip_comma c = skip_comma d.
Proof. intros E. unfold skip_comma. now rewrite E. Qed.
Lemma mix_read n t w sp l r kl kr :
  func_named "color-mix(" t -> (forall i, spaces (w i)) -> side_ok l -> side_ok r ->
  color_of rnd pi hsl_to_rgb n (side_color l) = Ok (Some kl) ->
  color_of rnd pi hsl_to_rgb n (side_color r) = Ok (Some kr) ->
  exists p q, color_of rnd pi hsl_to_rgb (S n) (FUNC t (mix_text w sp l r)) = Ok (Some (Mix (space_of sp) kl p kr q)) /\
    same_share p (side_share l) /\ same_share q (side_share r).
Proof.
  intros T W Ol Or Kl Kr. cbn [color_of]. rewrite (func_is _ _ _ T). change (eq_ci _ _) with true. cbn iota.
  unfold color_mix, mix_text. rewrite eat_wss_to by (auto; reflexivity).
  change (skip_tok _ (ident (of_string "in") :: ?x)) with (Some x).
  cbn iota.
  rewrite eat_wss_to by (auto; reflexivity). cbn [ident t_type t_data ttype_beq].
  rewrite skip_comma_read by auto. rewrite (side_head _ _ _ Kl).
  destruct (mix_side_read n l kl (w 4%nat ++ comma :: w 5%nat ++ side_text r ++ w 6%nat) Ol Kl) as (p & r1 & E1 & P & R1).
  { now rewrite eat_wss_to by auto with col. }
  rewrite E1. ev. rewrite (skip_comma_eat _ _ R1), skip_comma_read by auto. rewrite (side_head _ _ _ Kr).
  destruct (mix_side_read n r kr (w 6%nat) Or Kr) as (q & r2 & E2 & Q' & _).
  { now rewrite eat_wss_all by auto. }
  rewrite E2. ev. exists p, q. split; [reflexivity|]. now split.
Qed.
End Good.

(** ** What a mix is *)
Section Resolve.
Variable hsl_to_rgb : hsl -> rgba.
Variable rgb_to_hsl : rgba -> hsl.
Variable premultiply unpremultiply : rgba -> rgba.
Variable lerp_rgb : rgba -> rgba -> Q -> rgba.
Variable lerp_hsl : hsl -> hsl -> Q -> hsl.
Variable with_opacity : rgba -> Q -> rgba.
Notation resolve := (resolve_color hsl_to_rgb rgb_to_hsl premultiply unpremultiply lerp_rgb lerp_hsl with_opacity).
Notation mix := (resolve_mix hsl_to_rgb rgb_to_hsl premultiply unpremultiply lerp_rgb lerp_hsl with_opacity).
Notation inter := (interpolate hsl_to_rgb rgb_to_hsl premultiply unpremultiply lerp_rgb lerp_hsl).

Lemma mix_shares s l p r q : share_ok p -> share_ok q ->
  let (x, y) := shares p q in
  0 < x + y ->
  exists t, t == y / (x + y) /\
    ((x + y < 100 /\ exists o, o == (x + y) / 100 /\ mix s l p r q = with_opacity (inter s l r t) o) \/
     (100 <= x + y /\ mix s l p r q = inter s l r t)).
Proof.
  intros P R.
  assert (G : forall x y, 0 < x + y -> 0 <= x -> 0 <= y ->
    (match p with Some v => v | None => 100 - match q with Some v => v | None => 50 end end) = x ->
    (match q with Some v => v | None => 100 - match p with Some v => v | None => 50 end end) = y ->
    exists t, t == y / (x + y) /\
    ((x + y < 100 /\ exists o, o == (x + y) / 100 /\ mix s l p r q = with_opacity (inter s l r t) o) \/
     (100 <= x + y /\ mix s l p r q = inter s l r t))).
  { intros x y XY X Y Ex Ey. unfold resolve_mix. cbn zeta. rewrite Ex, Ey.
    destruct (Qeq_bool x y && Qeq_bool x 0) eqn:Z.
    { apply andb_true_iff in Z as [Z1 Z2]. apply Qeq_bool_iff in Z1, Z2. exfalso. lra. }
    destruct (Qeq_bool (x + y) 100) eqn:H; cbn [negb].
    - apply Qeq_bool_iff in H. exists (y / 100). split; [now rewrite H|].
      right. split; [rewrite H; apply Qle_refl|]. destruct (Qle_bool 100 (x + y)) eqn:L; [reflexivity|].
      exfalso. assert (K : Qle_bool 100 (x + y) = true) by (apply Qle_bool_iff; rewrite H; apply Qle_refl). congruence.
    - exists (y / (x + y)). split; [reflexivity|]. destruct (Qle_bool 100 (x + y)) eqn:L; cbn [negb].
      + right. split; [now apply Qle_bool_iff|reflexivity].
      + left. split; [apply lt_spec; now rewrite L|]. eexists. split; [|reflexivity]. reflexivity. }
  unfold shares. destruct p as [p|], q as [q|]; cbn [share_ok] in *; intros XY; apply G; auto; try lra; try reflexivity.
Qed.

Lemma resolve_constant c x y : mentions_current c = false -> resolve c x = resolve c y.
Proof.
  induction c as [k| |i|s l IHl lp r IHr rp]; cbn [mentions_current resolve_color]; try reflexivity; try discriminate.
  intros H. apply orb_false_iff in H as [H1 H2]. now rewrite IHl, IHr.
Qed.
Lemma resolve_put x c k : resolve (put_current x c) k = resolve c (resolve x k).
Proof.
  induction c as [j| |i|s l IHl lp r IHr rp]; cbn [put_current resolve_color]; try reflexivity. now rewrite IHl, IHr.
Qed.

(** Interpolation of the library goes from the first color to the second one. *)
Definition lerp_sym {A} (f : A -> A -> Q -> A) : Prop := forall a b t u, t + u == 1 -> f a b t = f b a u.
Definition respects {A} (f : A -> Q -> A) : Prop := forall a t u, t == u -> f a t = f a u.

Lemma prepare_shorter a b : prepare_polar SHORTER b a = (snd (prepare_polar SHORTER a b), fst (prepare_polar SHORTER a b)).
Proof.
  unfold prepare_polar.
  destruct (negb (Qle_bool (a - b) 180)) eqn:E1; destruct (negb (Qle_bool (b - a) 180)) eqn:E2;
    destruct (negb (Qle_bool (-180) (a - b))) eqn:E3; destruct (negb (Qle_bool (-180) (b - a))) eqn:E4; cbn [fst snd];
    try reflexivity; exfalso;
    repeat match goal with
    | H : negb (Qle_bool _ _) = true |- _ => apply lt_spec in H
    | H : negb (Qle_bool _ _) = false |- _ => apply lt_false in H
    end; lra.
Qed.
Lemma inter_sym sp a b t u : lerp_sym lerp_rgb -> lerp_sym lerp_hsl -> t + u == 1 ->
  inter (space_of sp) a b t = inter (space_of sp) b a u.
Proof.
  intros Lr Lh E. unfold space_of. destruct (str_eqb _ _); cbn [interpolate].
  - unfold interpolate_polar. rewrite prepare_shorter.
    destruct (prepare_polar SHORTER (h_hue (rgb_to_hsl (premultiply b))) (h_hue (rgb_to_hsl (premultiply a)))) as [x y].
    cbn [fst snd]. now rewrite (Lh _ _ t u E).
  - now rewrite (Lr _ _ t u E).
Qed.
Lemma mix_sym sp a p b q : lerp_sym lerp_rgb -> lerp_sym lerp_hsl -> respects with_opacity ->
  share_ok p -> share_ok q -> mix (space_of sp) a p b q = mix (space_of sp) b q a p.
Proof.
  intros Lr Lh Lo P R.
  pose proof (mix_shares (space_of sp) a p b q P R) as H1. pose proof (mix_shares (space_of sp) b q a p R P) as H2.
  assert (X : shares q p = (snd (shares p q), fst (shares p q))) by now destruct p, q.
  rewrite X in H2. destruct (shares p q) as [x y] eqn:Exy. cbn [fst snd] in H2.
  assert (XY : 0 <= x /\ 0 <= y).
  { unfold shares in Exy. destruct p, q; injection Exy as <- <-; cbn [share_ok] in *; lra. }
  destruct (Qlt_le_dec 0 (x + y)) as [S|S].
  - destruct (H1 S) as (t & T & D1). assert (S' : 0 < y + x) by lra. destruct (H2 S') as (u & U & D2).
    assert (TU : t + u == 1). { rewrite T, U. field. intros Z; lra. }
    pose proof (inter_sym sp a b t u Lr Lh TU) as I.
    destruct D1 as [(A1 & o1 & O1 & ->)|(A1 & ->)], D2 as [(A2 & o2 & O2 & ->)|(A2 & ->)]; try (exfalso; lra).
    + rewrite I. apply Lo. rewrite O1, O2. field.
    + exact I.
  - assert (Zx : x == 0) by lra. assert (Zy : y == 0) by lra.
    unfold shares in Exy. destruct p as [p|], q as [q|]; injection Exy as <- <-; try (exfalso; lra).
    + unfold resolve_mix. cbn zeta.
      replace (Qeq_bool p q && Qeq_bool p 0) with true; [replace (Qeq_bool q p && Qeq_bool q 0) with true; [reflexivity|]|];
        symmetry; apply andb_true_iff; rewrite !Qeq_bool_iff; split; lra.
Qed.
End Resolve.
