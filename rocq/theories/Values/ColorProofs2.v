(** Proofs about ColorModel.v: color functions. *)
From Coq Require Import String List NArith ZArith QArith Qabs Bool Lia Lqa.
From Verif.Base Require Import Str Outcome.
From Verif.Css Require Import LexerModel ParserModel.
From Verif.Values Require Import Number LengthModel CalcModel ColorModel ColorSpec ColorProofs.
Import ListNotations.
Local Open Scope list_scope.

(** ** Tokens *)

Definition not_space (s : sst) : Prop := is_type s WHITESPACE = false.

Lemma eat_wss_spaces w r : spaces w -> eat_wss (w ++ r) = eat_wss r.
Proof.
  intros H. induction H as [|x w [d ->] H IH]; [reflexivity|]. cbn [app eat_wss t_type ttype_beq]. exact IH.
Qed.
Lemma eat_wss_stop x r : not_space x -> eat_wss (x :: r) = x :: r.
Proof. unfold not_space, is_type. destruct x; cbn [eat_wss]; try reflexivity. now intros ->. Qed.
Lemma eat_wss_to w x r : spaces w -> not_space x -> eat_wss (w ++ x :: r) = x :: r.
Proof. intros H N. rewrite eat_wss_spaces by assumption. now apply eat_wss_stop. Qed.
Lemma eat_wss_all w : spaces w -> eat_wss w = [].
Proof. intros H. rewrite <- (app_nil_r w). rewrite eat_wss_spaces by assumption. reflexivity. Qed.

Lemma chan_not_space c : not_space (chan_tok c).
Proof. destruct c; reflexivity. Qed.
Lemma comma_not_space : not_space comma. Proof. reflexivity. Qed.
Lemma slash_not_space : not_space slash. Proof. reflexivity. Qed.
#[export] Hint Resolve chan_not_space comma_not_space slash_not_space : col.

Lemma stops_percent : stops [37%N]. Proof. cbn. now split. Qed.

Lemma number_read d r : decimal_ok d ->
  exists q, number_value (chan_tok (Num d) :: r) = Ok (Some (q, r)) /\ q == decimal_value d.
Proof.
  intros O. destruct (atof_show d [] O I) as (q & E & V). rewrite app_nil_r in E. exists q. split; [|exact V].
  unfold number_value. cbn [chan_tok parse_number t_type t_data ttype_beq]. now rewrite E.
Qed.
Lemma percent_read d r : decimal_ok d ->
  exists q, percent_value (chan_tok (Perc d) :: r) = Ok (Some (q, r)) /\ q == decimal_value d.
Proof.
  intros O. destruct (atof_show d [37%N] O stops_percent) as (q & E & V). exists q. split; [|exact V].
  unfold percent_value. cbn [chan_tok parse_percent t_type t_data ttype_beq]. now rewrite E.
Qed.

Lemma func_is n t m : func_named n t -> is_func t m = eq_ci (of_string n) (of_string m).
Proof.
  intros [T D]. unfold is_func, token_eqb. cbn [t_type t_data]. rewrite T. cbn [ttype_beq andb].
  now apply eq_ci_left.
Qed.

Ltac ev := cbn [rbind obind].

Section Functions.
Variable rnd : Q -> Z.
Hypothesis Hrnd : rounds rnd.
Variable pi : Q.
Variable hsl_to_rgb : hsl -> rgba.

Lemma num_perc_none_chan full c r : chan_ok c ->
  exists q, num_perc_none full (chan_tok c :: r) = Ok (Some (q, r)) /\ q == chan_value full c.
Proof.
  destruct c as [d|d|]; cbn [chan_ok]; intros O.
  - destruct (number_read d r O) as (q & E & V). exists q. split; [|exact V]. rewrite <- E. reflexivity.
  - destruct (percent_read d r O) as (q & E & V). exists (q * full / 100). split.
    + unfold num_perc_none. change (skip_tok _ _) with (@None (list sst)).
      change (is_type (chan_tok (Perc d)) PERCENTAGE) with true. cbn iota. rewrite E. reflexivity.
    + cbn [chan_value]. now rewrite V.
  - exists 0. split; reflexivity.
Qed.
Lemma rgb_param_chan full c w x r : chan_ok c -> spaces w -> not_space x ->
  exists q, rgb_param rnd full (chan_tok c :: w ++ x :: r) = Ok (Some (q, x :: r)) /\
    exists z, q = inject_Z z /\ nearest z (chan_value full c).
Proof.
  intros O W N. destruct (num_perc_none_chan full c (w ++ x :: r) O) as (q & E & V).
  exists (round rnd q). split.
  - unfold rgb_param. cbn [ended]. rewrite E. ev. now rewrite eat_wss_to.
  - exists (rnd q). split; [reflexivity|]. eapply nearest_comp; [exact V|]. apply Hrnd.
Qed.
Lemma rgb_param_last full c w : chan_ok c -> spaces w ->
  exists q, rgb_param rnd full (chan_tok c :: w) = Ok (Some (q, [])) /\
    exists z, q = inject_Z z /\ nearest z (chan_value full c).
Proof.
  intros O W. destruct (num_perc_none_chan full c w O) as (q & E & V).
  exists (round rnd q). split.
  - unfold rgb_param. cbn [ended]. rewrite E. ev. now rewrite eat_wss_all.
  - exists (rnd q). split; [reflexivity|]. eapply nearest_comp; [exact V|]. apply Hrnd.
Qed.

(** Three channels and what comes after them. *)
Definition after (w : nat -> list sst) (al : option sst) : list sst :=
  match al with Some x => slash :: w 4%nat ++ x :: w 5%nat | None => [] end.
Lemma rgb_params_modern full w a b c al :
  chan_ok a -> chan_ok b -> chan_ok c -> (forall i, spaces (w i)) ->
  exists x y z,
    rgb_params rnd full (eat_wss (modern w (chan_tok a) (chan_tok b) (chan_tok c) al)) =
      Ok (Some (inject_Z x, inject_Z y, inject_Z z, after w al)) /\
    nearest x (chan_value full a) /\ nearest y (chan_value full b) /\ nearest z (chan_value full c).
Proof.
  intros A B C W. unfold modern. rewrite eat_wss_to by auto with col.
  destruct (rgb_param_chan full a (w 1%nat) (chan_tok b)
    (w 2%nat ++ chan_tok c :: w 3%nat ++ after w al) A (W _) (chan_not_space b)) as (q1 & E1 & x & -> & N1).
  destruct (rgb_param_chan full b (w 2%nat) (chan_tok c) (w 3%nat ++ after w al) B (W _) (chan_not_space c))
    as (q2 & E2 & y & -> & N2).
  assert (E3 : exists q3, rgb_param rnd full (chan_tok c :: w 3%nat ++ after w al) = Ok (Some (q3, after w al)) /\
    exists z, q3 = inject_Z z /\ nearest z (chan_value full c)).
  { destruct al as [s|]; cbn [after].
    - apply rgb_param_chan; auto with col.
    - rewrite app_nil_r. now apply rgb_param_last. }
  destruct E3 as (q3 & E3 & z & -> & N3).
  exists x, y, z. split; [|auto]. unfold rgb_params. unfold after in *. rewrite E1. ev. rewrite E2. ev. rewrite E3. reflexivity.
Qed.

Lemma alpha_value_chan c r : chan_ok c -> in_range 1 c -> c <> NoneC ->
  exists z, alpha_value rnd (chan_tok c :: r) = Ok (Some (z, r)) /\ nearest z (alpha_byte (Some c)).
Proof.
  intros O R N. destruct c as [d|d|]; [| |contradiction].
  - destruct (number_read d r O) as (q & E & V). exists (rnd (q * 255)).
    assert (K : nearest (rnd (q * 255)) (alpha_byte (Some (Num d)))).
    { eapply nearest_comp; [|apply Hrnd]. cbn [alpha_byte chan_value]. rewrite V. ring. }
    split; [|exact K]. unfold alpha_value. change (is_type (chan_tok (Num d)) PERCENTAGE) with false.
    change (is_type (chan_tok (Num d)) NUMBER) with true. cbn iota. rewrite E. ev. unfold round. rewrite u8_whole.
    + reflexivity.
    + apply (nearest_range _ _ _ _ K). unfold in_range in R. cbn [alpha_byte chan_value] in *.
      change (inject_Z 0) with 0. change (inject_Z 255) with 255. lra.
  - destruct (percent_read d r O) as (q & E & V). exists (rnd (q * 255 / 100)).
    assert (K : nearest (rnd (q * 255 / 100)) (alpha_byte (Some (Perc d)))).
    { eapply nearest_comp; [|apply Hrnd]. cbn [alpha_byte chan_value]. rewrite V. field. }
    split; [|exact K]. unfold alpha_value. change (is_type (chan_tok (Perc d)) PERCENTAGE) with true.
    cbn iota. rewrite E. ev. unfold round. rewrite u8_whole.
    + reflexivity.
    + apply (nearest_range _ _ _ _ K). unfold in_range in R. cbn [alpha_byte chan_value] in *.
      change (inject_Z 0) with 0. change (inject_Z 255) with 255. lra.
Qed.

Definition alpha_ok (al : option chan) : Prop :=
  match al with Some c => chan_ok c /\ in_range 1 c | None => True end.
Lemma alpha_modern_chan c w r : chan_ok c -> in_range 1 c -> spaces w ->
  exists o, alpha_modern rnd (slash :: w ++ chan_tok c :: r) = Ok (Some (o, r)) /\
    (o = None <-> c = NoneC) /\ nearest (match o with Some a => a | None => 0%Z end) (alpha_byte (Some c)).
Proof.
  intros O R W. unfold alpha_modern. change (skip_tok _ (slash :: _)) with (Some (w ++ chan_tok c :: r)).
  cbn iota. rewrite eat_wss_to by auto with col.
  destruct c as [d|d|].
  - change (skip_tok _ (chan_tok (Num d) :: r)) with (@None (list sst)). cbn iota.
    destruct (alpha_value_chan (Num d) r O R) as (z & E & K); [discriminate|]. rewrite E. ev.
    exists (Some z). split; [reflexivity|]. split; [split; discriminate|exact K].
  - change (skip_tok _ (chan_tok (Perc d) :: r)) with (@None (list sst)). cbn iota.
    destruct (alpha_value_chan (Perc d) r O R) as (z & E & K); [discriminate|]. rewrite E. ev.
    exists (Some z). split; [reflexivity|]. split; [split; discriminate|exact K].
  - exists None. split; [reflexivity|]. split; [tauto|]. unfold nearest. cbn. discriminate.
Qed.

Lemma range255 z c : nearest z (chan_value 255 c) -> in_range 255 c -> (0 <= z <= 255)%Z.
Proof. intros N R. apply (nearest_range _ _ 0 255 N). exact R. Qed.

Lemma round_whole z : round rnd (inject_Z z) = inject_Z z.
Proof. unfold round. f_equal. apply nearest_whole, Hrnd. Qed.

Lemma rgb_modern_ok w a b c al :
  chan_ok a -> chan_ok b -> chan_ok c -> alpha_ok al -> (forall i, spaces (w i)) ->
  in_range 255 a -> in_range 255 b -> in_range 255 c ->
  exists k, rgb_modern rnd (modern w (chan_tok a) (chan_tok b) (chan_tok c) (option_map chan_tok al)) = Ok (Some k) /\
    color_near k (chan_value 255 a) (chan_value 255 b) (chan_value 255 c) (alpha_byte al).
Proof.
  intros A B C L W Ra Rb Rc.
  destruct (rgb_params_modern 255 w a b c (option_map chan_tok al) A B C W) as (x & y & z & E & N1 & N2 & N3).
  unfold rgb_modern.
  assert (T : ended (eat_wss (modern w (chan_tok a) (chan_tok b) (chan_tok c) (option_map chan_tok al))) = false).
  { unfold modern. now rewrite eat_wss_to by auto with col. }
  cbn zeta. rewrite T, E. ev. rewrite !round_whole.
  rewrite !u8_whole by (eapply range255; eassumption). ev.
  destruct al as [d|]; cbn [option_map after].
  - destruct L as [L1 L2]. rewrite eat_wss_stop by auto with col. cbn [ended].
    destruct (alpha_modern_chan d (w 4%nat) (w 5%nat) L1 L2 (W _)) as (o & F & _ & K). rewrite F. ev.
    eexists. split; [reflexivity|]. now repeat split.
  - cbn [eat_wss ended]. eexists. split; [reflexivity|]. repeat split; cbn [c_r c_g c_b c_a]; auto.
    cbn. unfold nearest. cbn. discriminate.
Qed.

(** Commas are not modern syntax. *)
Lemma num_perc_none_comma full r : num_perc_none full (comma :: r) = Ok None.
Proof. reflexivity. Qed.
Lemma rgb_modern_legacy w a b c al : chan_ok a -> (forall i, spaces (w i)) ->
  rgb_modern rnd (legacy w (chan_tok a) b c al) = Ok None.
Proof.
  intros A W. unfold rgb_modern, legacy. rewrite eat_wss_to by auto with col. cbn [ended]. unfold rgb_params.
  destruct (rgb_param_chan 255 a (w 1%nat) comma
    (w 2%nat ++ b :: w 3%nat ++ comma :: w 4%nat ++ c :: w 5%nat ++
       match al with Some x => comma :: w 6%nat ++ x :: w 7%nat | None => [] end) A (W _) comma_not_space) as (q & E & _).
  rewrite E. reflexivity.
Qed.

(** A channel of the old syntax: percentages are rounded, numbers are cut off. *)
Definition near_legacy (c : chan) (z : Z) : Prop :=
  match c with
  | Num d => inject_Z z <= decimal_value d < inject_Z (z + 1)
  | _ => nearest z (chan_value 255 c)
  end.
Definition is_perc (c : chan) : bool := match c with Perc _ => true | _ => false end.

Lemma trunc_comp p q : 0 <= p -> p == q -> inject_Z (trunc p) <= q < inject_Z (trunc p + 1).
Proof. intros P E. destruct (trunc_floor p P) as [H1 H2]. split; [now rewrite <- E|now rewrite <- E]. Qed.

Lemma legacy_chan c r : chan_ok c -> in_range 255 c -> c <> NoneC ->
  exists z, legacy_channel rnd (is_perc c) (chan_tok c :: r) = Ok (Some (z, eat_wss r)) /\ near_legacy c z.
Proof.
  intros O R N. destruct c as [d|d|]; [| |contradiction]; unfold in_range in R; cbn [chan_value] in R;
    unfold legacy_channel; cbn [ended is_perc].
  - destruct (number_read d r O) as (q & E & V). rewrite E. ev.
    assert (P : 0 <= q) by (rewrite V; tauto).
    rewrite u8_some by (try exact P; rewrite V; lra). ev.
    exists (trunc q). split; [reflexivity|]. cbn [near_legacy]. now apply trunc_comp.
  - destruct (percent_read d r O) as (q & E & V). rewrite E. ev.
    assert (K : nearest (rnd (q * 255 / 100)) (chan_value 255 (Perc d))).
    { eapply nearest_comp; [|apply Hrnd]. cbn [chan_value]. now rewrite V. }
    unfold round. rewrite u8_whole by (apply (range255 _ _ K); exact R). ev.
    eexists. split; [reflexivity|exact K].
Qed.
Lemma legacy_comma_skip w r : spaces w -> legacy_comma (comma :: w ++ r) = Ok (Some (eat_wss r)).
Proof. intros W. unfold legacy_comma. cbn [skip_type is_type comma t_type ttype_beq]. now rewrite eat_wss_spaces. Qed.

Lemma next_is_chan c r : next_is (chan_tok c :: r) PERCENTAGE = is_perc c.
Proof. now destruct c. Qed.

Lemma rgb_legacy_ok w a b c al :
  chan_ok a -> chan_ok b -> chan_ok c -> alpha_ok al -> (forall i, spaces (w i)) ->
  in_range 255 a -> in_range 255 b -> in_range 255 c ->
  a <> NoneC -> b <> NoneC -> c <> NoneC -> al <> Some NoneC ->
  is_perc b = is_perc a -> is_perc c = is_perc a ->
  exists k, rgb_legacy rnd (legacy w (chan_tok a) (chan_tok b) (chan_tok c) (option_map chan_tok al)) = Ok (Some k) /\ near_legacy a (c_r k) /\ near_legacy b (c_g k) /\ near_legacy c (c_b k) /\ nearest (c_a k) (alpha_byte al).
Proof.
  intros A B C L W Ra Rb Rc Na Nb Nc Nl Pb Pc. unfold rgb_legacy, legacy.
  rewrite eat_wss_to by auto with col. cbn [ended]. rewrite next_is_chan.
  destruct (legacy_chan a (w 1%nat ++ comma :: w 2%nat ++ chan_tok b :: w 3%nat ++ comma :: w 4%nat ++
     chan_tok c :: w 5%nat ++ match option_map chan_tok al with Some x => comma :: w 6%nat ++ x :: w 7%nat | None => [] end)
     A Ra Na) as (r & E1 & K1).
  rewrite E1. ev. rewrite eat_wss_to by auto with col. rewrite legacy_comma_skip by auto. ev.
  rewrite eat_wss_stop by auto with col. rewrite <- Pb.
  destruct (legacy_chan b (w 3%nat ++ comma :: w 4%nat ++
     chan_tok c :: w 5%nat ++ match option_map chan_tok al with Some x => comma :: w 6%nat ++ x :: w 7%nat | None => [] end)
     B Rb Nb) as (g & E2 & K2).
  rewrite E2. ev. rewrite eat_wss_to by auto with col. rewrite legacy_comma_skip by auto. ev.
  rewrite eat_wss_stop by auto with col. rewrite Pb, <- Pc.
  destruct (legacy_chan c (w 5%nat ++ match option_map chan_tok al with Some x => comma :: w 6%nat ++ x :: w 7%nat | None => [] end)
     C Rc Nc) as (bl & E3 & K3).
  rewrite E3. ev. rewrite eat_wss_spaces by auto.
  destruct al as [d|]; cbn [option_map].
  - destruct L as [L1 L2]. rewrite !(eat_wss_stop comma) by auto with col. cbn [ended].
    rewrite legacy_comma_skip by auto. ev. rewrite eat_wss_stop by auto with col.
    assert (D : d <> NoneC) by (intros ->; now apply Nl).
    destruct (alpha_value_chan d (w 7%nat) L1 L2 D) as (z & F & K). rewrite F. ev.
    eexists. split; [reflexivity|]. now repeat split.
  - cbn [eat_wss ended]. eexists. split; [reflexivity|]. repeat (split; [assumption|]).
    cbn. unfold nearest. cbn. discriminate.
Qed.

(** Channels that are too large *)
Lemma rgb_modern_large w a b c al : chan_ok a -> chan_ok b -> chan_ok c -> (forall i, spaces (w i)) ->
  256 <= chan_value 255 a ->
  rgb_modern rnd (modern w (chan_tok a) (chan_tok b) (chan_tok c) al) = Panic.
Proof.
  intros A B C W R. destruct (rgb_params_modern 255 w a b c al A B C W) as (x & y & z & E & N1 & _).
  unfold rgb_modern.
  assert (T : ended (eat_wss (modern w (chan_tok a) (chan_tok b) (chan_tok c) al)) = false).
  { unfold modern. now rewrite eat_wss_to by auto with col. }
  cbn zeta. rewrite T, E. ev. rewrite round_whole.
  assert (K : 256 <= inject_Z x).
  { change 256 with (inject_Z 256). rewrite <- Zle_Qle. unfold nearest in N1. apply Qabs_Qle_condition in N1.
    assert (inject_Z 255 < inject_Z x) by (change (inject_Z 255) with 255; lra). rewrite <- Zlt_Qlt in H. lia. }
  now rewrite (u8_big _ K).
Qed.
Lemma rgb_legacy_large w d b c al : decimal_ok d -> (forall i, spaces (w i)) -> 256 <= decimal_value d ->
  rgb_legacy rnd (legacy w (chan_tok (Num d)) b c al) = Panic.
Proof.
  intros O W R. unfold rgb_legacy, legacy. rewrite eat_wss_to by auto with col. cbn [ended].
  rewrite next_is_chan. unfold legacy_channel. cbn [ended is_perc].
  destruct (number_read d (w 1%nat ++ comma :: w 2%nat ++ b :: w 3%nat ++ comma :: w 4%nat ++
     c :: w 5%nat ++ match al with Some x => comma :: w 6%nat ++ x :: w 7%nat | None => [] end) O) as (q & E & V).
  rewrite E. ev. rewrite u8_big by (now rewrite V). reflexivity.
Qed.

(** ** hsl() *)

(** A hue: a number of degrees, an angle with a unit, or none. *)
Inductive hue := HNum (d : decimal) | HDim (d : decimal) (unit : str) | HNone.
Definition hue_tok (h : hue) : sst :=
  match h with
  | HNum d => chan_tok (Num d)
  | HDim d u => TOK (mkT DIMENSION (show_decimal d ++ u))
  | HNone => ident (of_string "none")
  end.
(** https://www.w3.org/TR/css-values-4/#angles *)
Definition unit_factor (u : str) (f : Q) : Prop :=
  (same_letters u (of_string "deg") /\ f = 1) \/ (same_letters u (of_string "grad") /\ f = 360 / 400) \/
  (same_letters u (of_string "turn") /\ f = 360) \/ (same_letters u (of_string "rad") /\ f = 360 / (2 * pi)).
Definition hue_is (h : hue) (v : Q) : Prop :=
  match h with
  | HNum d => decimal_ok d /\ v == decimal_value d
  | HDim d u => decimal_ok d /\ exists f, unit_factor u f /\ v == decimal_value d * f
  | HNone => v == 0
  end.
Hypothesis Hpi : ~ pi == 0.

Lemma letters_head u n : same_letters u n -> n <> [] -> (forall c, In c n -> (97 <= c <= 122)%N) ->
  exists c r, u = c :: r /\ (65 <= c <= 122)%N.
Proof.
  unfold same_letters. destruct n as [|y n]; [contradiction|]. intros H _ L.
  destruct u as [|x u]; [discriminate|]. exists x, u. split; [reflexivity|]. cbn [map] in H. injection H as H _.
  specialize (L y (or_introl eq_refl)). unfold lower in H.
  destruct ((65 <=? y) && (y <=? 90))%N eqn:Ey; [apply andb_true_iff in Ey as [E1 E2]; apply N.leb_le in E1, E2; lia|].
  destruct ((65 <=? x) && (x <=? 90))%N eqn:Ex; [apply andb_true_iff in Ex as [E1 E2]; apply N.leb_le in E1, E2; lia|].
  lia.
Qed.
Lemma unit_stops u f : unit_factor u f -> stops u.
Proof.
  intros H. assert (K : exists c r, u = c :: r /\ (65 <= c <= 122)%N).
  { destruct H as [[H _]|[[H _]|[[H _]|[H _]]]]; (eapply letters_head; [exact H|discriminate|]);
      vm_compute; intros c [<-|[<-|[<-|H']]]; try (split; discriminate);
      try (destruct H' as [<-|H']; try (split; discriminate)); contradiction. }
  destruct K as (c & r & -> & R). cbn [stops]. split; [|lia].
  unfold is_digit. apply andb_false_iff. right. apply N.leb_gt. lia.
Qed.
Lemma unit_read u f : unit_factor u f ->
  exists x, angle_unit_of u = Some x /\ forall v, to_degree pi v x == v * f.
Proof.
  intros H. unfold angle_unit_of.
  destruct H as [[H ->]|[[H ->]|[[H ->]|[H ->]]]]; rewrite !(eq_ci_left _ _ _ H); eexists; (split; [reflexivity|]);
    intros v; cbn [to_degree]; field; auto.
Qed.
Lemma hue_read h v r : hue_is h v ->
  exists q, hue_value pi (hue_tok h :: r) = Ok (Some (q, r)) /\ q == v.
Proof.
  destruct h as [d|d u|]; cbn [hue_is hue_tok].
  - intros [O V]. destruct (number_read d r O) as (q & E & F). exists q. split; [|now rewrite F, V].
    rewrite <- E. reflexivity.
  - intros (O & f & U & V). destruct (atof_show d u O (unit_stops _ _ U)) as (q & E & F).
    destruct (unit_read _ _ U) as (x & X & D). exists (to_degree pi q x). split; [|now rewrite D, F, V].
    unfold hue_value. cbn [skip_tok token_eqb t_type t_data ttype_beq andb next_is is_type parse_angle].
    unfold dimension. rewrite E, X. reflexivity.
  - intros V. exists 0. split; [reflexivity|now rewrite V].
Qed.
Lemma hue_not_space h : not_space (hue_tok h). Proof. destruct h; reflexivity. Qed.
#[local] Hint Resolve hue_not_space : col.

Lemma hsl_modern_ok w h v s l al : hue_is h v -> chan_ok s -> chan_ok l -> alpha_ok al -> (forall i, spaces (w i)) ->
  exists x y z, x == v /\ y == chan_value 1 s /\ z == chan_value 1 l /\
    exists k, hsl_modern rnd pi hsl_to_rgb (modern w (hue_tok h) (chan_tok s) (chan_tok l) (option_map chan_tok al)) = Ok (Some k) /\
      match al with
      | None => k = hsl_to_rgb (mkHsl x y z)
      | Some c => exists a, k = with_alpha (hsl_to_rgb (mkHsl x y z)) a /\
          (c <> NoneC -> nearest a (alpha_byte al)) /\ (c = NoneC -> a = 255%Z)
      end.
Proof.
  intros H A B L W. unfold hsl_modern, modern. rewrite eat_wss_to by auto with col. cbn [ended].
  destruct (hue_read h v (w 1%nat ++ chan_tok s :: w 2%nat ++ chan_tok l :: w 3%nat ++ after w (option_map chan_tok al)) H) as (x & E1 & V1).
  unfold after in E1. rewrite E1. ev. rewrite eat_wss_to by auto with col.
  destruct (num_perc_none_chan 1 s (w 2%nat ++ chan_tok l :: w 3%nat ++ after w (option_map chan_tok al)) A) as (y & E2 & V2).
  unfold after in E2. rewrite E2. ev. rewrite eat_wss_to by auto with col.
  destruct (num_perc_none_chan 1 l (w 3%nat ++ after w (option_map chan_tok al)) B) as (z & E3 & V3).
  unfold after in E3. rewrite E3. ev. rewrite eat_wss_spaces by auto.
  exists x, y, z. split; [exact V1|]. split; [exact V2|]. split; [exact V3|].
  destruct al as [d|]; cbn [option_map].
  - destruct L as [L1 L2]. rewrite eat_wss_stop by auto with col. cbn [ended].
    destruct (alpha_modern_chan d (w 4%nat) (w 5%nat) L1 L2 (W _)) as (o & F & I & K). rewrite F. ev.
    eexists. split; [reflexivity|]. eexists. split; [reflexivity|]. destruct o as [a|].
    + split; [intros _; exact K|]. intros D. apply I in D. discriminate.
    + split; [intros D; exfalso; apply D; now apply I|reflexivity].
  - cbn [eat_wss ended]. eexists. split; reflexivity.
Qed.
Lemma hsl_modern_legacy w h v b c al : hue_is h v -> (forall i, spaces (w i)) ->
  hsl_modern rnd pi hsl_to_rgb (legacy w (hue_tok h) b c al) = Ok None.
Proof.
  intros A W. unfold hsl_modern, legacy. rewrite eat_wss_to by auto with col. cbn [ended].
  destruct (hue_read h v (w 1%nat ++ comma :: w 2%nat ++ b :: w 3%nat ++ comma :: w 4%nat ++ c :: w 5%nat ++
       match al with Some x => comma :: w 6%nat ++ x :: w 7%nat | None => [] end) A) as (q & E & _).
  rewrite E. ev. rewrite eat_wss_to by auto with col. reflexivity.
Qed.
Lemma hsl_legacy_ok w h v s l al : hue_is h v -> decimal_ok s -> decimal_ok l -> alpha_ok al -> al <> Some NoneC ->
  (forall i, spaces (w i)) ->
  exists x y z, x == v /\ y == decimal_value s / 100 /\ z == decimal_value l / 100 /\
    exists k, hsl_legacy rnd pi hsl_to_rgb (legacy w (hue_tok h) (chan_tok (Perc s)) (chan_tok (Perc l)) (option_map chan_tok al)) = Ok (Some k) /\
      match al with
      | None => k = hsl_to_rgb (mkHsl x y z)
      | Some c => exists a, k = with_alpha (hsl_to_rgb (mkHsl x y z)) a /\ nearest a (alpha_byte al)
      end.
Proof.
  intros H A B L Nl W. unfold hsl_legacy, legacy. rewrite eat_wss_to by auto with col. cbn [ended].
  destruct (hue_read h v (w 1%nat ++ comma :: w 2%nat ++ chan_tok (Perc s) :: w 3%nat ++ comma :: w 4%nat ++
     chan_tok (Perc l) :: w 5%nat ++ match option_map chan_tok al with Some x => comma :: w 6%nat ++ x :: w 7%nat | None => [] end) H) as (x & E1 & V1).
  rewrite E1. ev. rewrite eat_wss_to by auto with col. rewrite legacy_comma_skip by auto. ev.
  rewrite eat_wss_stop by auto with col.
  destruct (percent_read s (w 3%nat ++ comma :: w 4%nat ++
     chan_tok (Perc l) :: w 5%nat ++ match option_map chan_tok al with Some x => comma :: w 6%nat ++ x :: w 7%nat | None => [] end) A) as (y & E2 & V2).
  rewrite E2. ev. rewrite eat_wss_to by auto with col. rewrite legacy_comma_skip by auto. ev.
  rewrite eat_wss_stop by auto with col.
  destruct (percent_read l (w 5%nat ++ match option_map chan_tok al with Some x => comma :: w 6%nat ++ x :: w 7%nat | None => [] end) B) as (z & E3 & V3).
  rewrite E3. ev. rewrite eat_wss_spaces by auto.
  exists x, (y / 100), (z / 100). split; [exact V1|]. split; [now rewrite V2|]. split; [now rewrite V3|].
  destruct al as [d|]; cbn [option_map].
  - destruct L as [L1 L2]. rewrite eat_wss_stop by auto with col. cbn [ended].
    rewrite legacy_comma_skip by auto. ev. rewrite eat_wss_stop by auto with col.
    assert (D : d <> NoneC) by (intros ->; now apply Nl).
    destruct (alpha_value_chan d (w 7%nat) L1 L2 D) as (a & F & K). rewrite F. ev.
    eexists. split; [reflexivity|]. eexists. split; [reflexivity|exact K].
  - cbn [eat_wss ended]. eexists. split; reflexivity.
Qed.

(** ** color() *)

Definition unit_channel (z : Z) : Prop := z = 0%Z \/ z = 255%Z.
Lemma unit_nearest x c : nearest x (chan_value 1 c) -> in_range 1 c -> (x = 0 \/ x = 1)%Z.
Proof. intros N R. assert (0 <= x <= 1)%Z by (apply (nearest_range _ _ 0 1 N); exact R). lia. Qed.
Lemma color_func_ok w0 sp w a b c al : In sp rgb_spaces -> spaces w0 ->
  chan_ok a -> chan_ok b -> chan_ok c -> alpha_ok al -> (forall i, spaces (w i)) ->
  in_range 1 a -> in_range 1 b -> in_range 1 c ->
  exists x y z k, color_func rnd (w0 ++ ident (of_string sp) :: modern w (chan_tok a) (chan_tok b) (chan_tok c) (option_map chan_tok al)) = Ok (Some k) /\
    nearest x (chan_value 1 a) /\ nearest y (chan_value 1 b) /\ nearest z (chan_value 1 c) /\
    c_r k = (255 * x)%Z /\ c_g k = (255 * y)%Z /\ c_b k = (255 * z)%Z /\ nearest (c_a k) (alpha_byte al).
Proof.
  intros I W0 A B C L W Ra Rb Rc.
  destruct (rgb_params_modern 1 w a b c (option_map chan_tok al) A B C W) as (x & y & z & E & N1 & N2 & N3).
  exists x, y, z.
  assert (U : forall t, (t = 0 \/ t = 1)%Z -> u8 (round rnd (inject_Z t * 255)) = Ok (Some (255 * t)%Z)).
  { intros t T. change 255 with (inject_Z 255). rewrite <- inject_Z_mult, round_whole, u8_whole by lia. do 2 f_equal. lia. }
  pose proof (U x (unit_nearest _ _ N1 Ra)) as Ux. pose proof (U y (unit_nearest _ _ N2 Rb)) as Uy.
  pose proof (U z (unit_nearest _ _ N3 Rc)) as Uz. clear U.
  unfold color_func. rewrite eat_wss_to by (auto; reflexivity).
  assert (X : existsb (fun n => str_eqb (of_string sp) (of_string n)) rgb_spaces = true).
  { apply existsb_exists. exists sp. split; [exact I|apply str_eqb_refl]. }
  cbn [ident t_type t_data ttype_beq]. rewrite X. cbn zeta. rewrite E. ev.
  destruct al as [d|]; cbn [option_map after].
  - destruct L as [L1 L2]. rewrite eat_wss_stop by auto with col. cbn [ended].
    destruct (alpha_modern_chan d (w 4%nat) (w 5%nat) L1 L2 (W _)) as (o & F & _ & K). rewrite F. ev.
    rewrite Ux. ev. rewrite Uy. ev. rewrite Uz. ev. eexists. split; [reflexivity|]. now repeat split.
  - cbn [eat_wss ended]. rewrite Ux. ev. rewrite Uy. ev. rewrite Uz. ev.
    eexists. split; [reflexivity|]. repeat (split; [assumption || reflexivity|]). cbn. unfold nearest. cbn. discriminate.
Qed.
Lemma color_func_other w0 sp r : ~ In sp (map of_string rgb_spaces) -> spaces w0 ->
  color_func rnd (w0 ++ ident sp :: r) = Ok (Some WHITE).
Proof.
  intros N W0. unfold color_func. rewrite eat_wss_to by (auto; reflexivity). cbn [ident t_type t_data ttype_beq].
  assert (X : existsb (fun n => str_eqb sp (of_string n)) rgb_spaces = false).
  { apply not_true_iff_false. intros K. apply existsb_exists in K as (n & I & J). apply str_eqb_spec in J. subst.
    apply N. now apply in_map. }
  now rewrite X.
Qed.
End Functions.
