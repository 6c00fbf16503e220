(** C129-C135: colors. *)
From Coq Require Import String List NArith ZArith QArith Qabs Qround Bool Lia Lqa.
From Verif.Base Require Import Str Outcome.
From Verif.Css Require Import LexerModel ParserModel LexerSpec LexerProofs LexerProps.
From Verif.Values Require Import Number LengthModel CalcModel ColorModel ColorSpec ColorProofs ColorProofs2 ColorProofs3.
Import ListNotations.
Local Open Scope list_scope.

Section Any.
(** Library code: any rounding to a nearest whole number, any conversions. *)
Variable rnd : Q -> Z.
Variable pi : Q.
Variable hsl_to_rgb : hsl -> rgba.
Notation color_of := (color_of rnd pi hsl_to_rgb).

(** ** C129: hexadecimal colors *)

(** "#" and any hexadecimal digits, of either case, is one token, and it is the color that CSS
    says, or no color. *)
Theorem C129_hex_partial : forall rb ds n, Forall hex_ok ds -> ds <> [] ->
  exists t, tokens rb (35%N :: map hex_char ds) = Some [t] /\
    color_of (S n) (TOK t) = Ok (option_map Srgb (css_hex (map fst ds))).
Proof.
  intros rb ds n H N. exists (mkT HASH (35%N :: map hex_char ds)). split.
  - assert (V : Forall valid [WHash (map hex_char ds)]).
    { constructor; [|constructor]. split; [now destruct ds|]. apply Forall_forall. intros c C.
      apply in_map_iff in C as (d & <- & D). rewrite Forall_forall in H. specialize (H d D). destruct d as [z u].
      unfold hex_ok in H. cbn [fst] in H. apply hex_cases in H.
      repeat match goal with H : _ \/ _ |- _ => destruct H as [-> | H] | H : z = _ |- _ => subst z end;
        destruct u; reflexivity. }
    pose proof (C47_tokens_as_written_partial rb [WHash (map hex_char ds)] V) as K.
    cbn [separated map concat ends_before source text token_of] in K. unfold source in K. cbn [map concat text token_of] in K.
    rewrite app_nil_r in K. apply K. now split.
  - cbn [ColorModel.color_of t_type t_data ttype_beq]. rewrite parse_hex_digits by assumption. cbn [rbind obind].
    destruct (css_hex (map fst ds)); reflexivity.
Qed.

(** The panic on a hash token without "#" is never reached. *)
Theorem C129_no_panic : forall rb s t r n, next rb s = (t, r) -> exists o, color_of (S n) (TOK t) = Ok o.
Proof.
  intros rb s t r n H.
  assert (G : good true (fun _ => True) (color_of (S n) (TOK t))).
  { cbn [ColorModel.color_of]. destruct (ttype_beq (t_type t) HASH) eqn:E.
    - apply internal_ttype_dec_bl in E. eapply good_bind; [apply parse_hex_good|intros ? _; exact I].
      intros _. now apply (next_hash rb s t r).
    - destruct (ttype_beq (t_type t) IDENT); [|exact I]. cbn. destruct (ident_color _); exact I. }
  destruct (color_of (S n) (TOK t)) as [o| |]; [now exists o|discriminate G|contradiction].
Qed.

(** Full statement: what is not made of hexadecimal digits is no color. Refuted: any three
    characters that are not are black. *)
Theorem C129_invalid_digits_refuted : forall a b c n, ~ is_hex a -> ~ is_hex b -> ~ is_hex c ->
  color_of (S n) (hash [a; b; c]) = Ok (Some (Srgb (mkRgba 0 0 0 255))).
Proof.
  assert (K : forall c, ~ is_hex c -> next_hex [c] = 0%Z).
  { intros c H. unfold next_hex, atou16. cbn [hex_digits]. destruct (hex_digit c) as [z|] eqn:E; [|reflexivity].
    exfalso. apply H. unfold hex_digit in E.
    destruct ((48 <=? c) && (c <=? 57))%N eqn:E1.
    { apply andb_true_iff in E1 as [L U]. apply N.leb_le in L, U. exists ((Z.of_N c - 48)%Z, false).
      split; [unfold hex_ok; cbn [fst]; lia|].
      assert (D : (c = 48 \/ c = 49 \/ c = 50 \/ c = 51 \/ c = 52 \/ c = 53 \/ c = 54 \/ c = 55 \/ c = 56 \/ c = 57)%N) by lia.
      repeat (destruct D as [-> | D]; [reflexivity|]). now subst. }
    destruct ((97 <=? c) && (c <=? 102))%N eqn:E2.
    { apply andb_true_iff in E2 as [L U]. apply N.leb_le in L, U. exists ((Z.of_N c - 87)%Z, false).
      split; [unfold hex_ok; cbn [fst]; lia|].
      assert (D : (c = 97 \/ c = 98 \/ c = 99 \/ c = 100 \/ c = 101 \/ c = 102)%N) by lia.
      repeat (destruct D as [-> | D]; [reflexivity|]). now subst. }
    destruct ((65 <=? c) && (c <=? 70))%N eqn:E3; [|discriminate].
    apply andb_true_iff in E3 as [L U]. apply N.leb_le in L, U. exists ((Z.of_N c - 55)%Z, true).
    split; [unfold hex_ok; cbn [fst]; lia|].
    assert (D : (c = 65 \/ c = 66 \/ c = 67 \/ c = 68 \/ c = 69 \/ c = 70)%N) by lia.
    repeat (destruct D as [-> | D]; [reflexivity|]). now subst. }
  intros a b c n A B C. cbn [ColorModel.color_of hash t_type t_data ttype_beq parse_hex N.eqb Pos.eqb negb].
  now rewrite (K a A), (K b B), (K c C).
Qed.

(** ** C130: color names *)

(** Each of the 148 names of CSS, in any case, is the color that CSS says. *)
Theorem C130_named_colors : forall name r g b s n,
  In (name, (r, g, b)) css_named -> same_letters s (of_string name) ->
  color_of (S n) (ident s) = Ok (Some (Srgb (mkRgba r g b 255))).
Proof.
  intros name r g b s n I H. cbn [ColorModel.color_of ident t_type t_data ttype_beq].
  now rewrite (ident_color_named _ _ _ _ _ I H).
Qed.

(** So are currentcolor and transparent; what is none of these, nor a system color, is no color. *)
Theorem C130_other_names : forall s n,
  (same_letters s (of_string "currentcolor") -> color_of (S n) (ident s) = Ok (Some CurrentColor)) /\
  (same_letters s (of_string "transparent") -> color_of (S n) (ident s) = Ok (Some (Srgb (mkRgba 0 0 0 0)))) /\
  ((forall m, In m ("currentcolor" :: "transparent" :: map fst css_named)%string -> ~ same_letters s (of_string m)) ->
   ~ In s (map of_string css_systems) -> color_of (S n) (ident s) = Ok None).
Proof.
  intros s n. cbn [ColorModel.color_of ident t_type t_data ttype_beq]. split; [|split].
  - intros H. unfold ident_color. now rewrite (eq_ci_left _ _ _ H).
  - intros H. unfold ident_color. now rewrite !(eq_ci_left _ _ _ H).
  - intros H K. now rewrite ident_color_other.
Qed.

(** The system colors of CSS are known, each as itself, when written with these capitals. Full
    statement: in any case (refuted below). *)
Theorem C130_system_colors_partial : forall i name n,
  nth_error css_systems i = Some name -> color_of (S n) (ident (of_string name)) = Ok (Some (System i)).
Proof.
  intros i name n H. rewrite <- table_systems in H.
  assert (D : forallb (fun i => match nth_error (map fst systems) i with
     | Some m => match ident_color (of_string m) with Some (System j) => Nat.eqb i j | _ => false end
     | None => false end) (seq 0 19) = true) by (vm_compute; reflexivity).
  assert (I : (i < 19)%nat) by (change 19%nat with (List.length (map fst systems)); apply nth_error_Some; congruence).
  rewrite forallb_forall in D. specialize (D i ltac:(apply in_seq; lia)). cbv beta in D. rewrite H in D.
  cbn [ColorModel.color_of ident t_type t_data ttype_beq].
  destruct (ident_color (of_string name)) as [[| |j|]|]; try discriminate. apply Nat.eqb_eq in D. now subst.
Qed.
Theorem C130_system_case_refuted : forall n,
  color_of (S n) (ident (of_string "canvas")) = Ok None /\ color_of (S n) (ident (of_string "Canvas")) <> Ok None.
Proof. intros n. split; [vm_compute; reflexivity|vm_compute; discriminate]. Qed.

(** ** C131: rgb() *)

Definition rgb_func (t : token) : Prop := func_named "rgb(" t \/ func_named "rgba(" t.

Lemma rgb_func_color n t c : rgb_func t ->
  color_of (S n) (FUNC t c) = rbind (first_of (rgb_modern rnd c) (rgb_legacy rnd c)) (fun k => Ok (Some (Srgb k))).
Proof.
  intros [T|T]; cbn [ColorModel.color_of]; unfold func_color; rewrite !(func_is _ _ _ T); reflexivity.
Qed.

(** Numbers, percentages or none in any mixture, within the range, separated by white space:
    each channel is a nearest whole number. *)
Theorem C131_rgb_partial : rounds rnd -> forall n t w a b c al, rgb_func t -> (forall i, spaces (w i)) ->
  chan_ok a -> chan_ok b -> chan_ok c -> alpha_ok al ->
  in_range 255 a -> in_range 255 b -> in_range 255 c ->
  exists k, color_of (S n) (FUNC t (modern w (chan_tok a) (chan_tok b) (chan_tok c) (option_map chan_tok al))) = Ok (Some (Srgb k)) /\
    color_near k (chan_value 255 a) (chan_value 255 b) (chan_value 255 c) (alpha_byte al).
Proof.
  intros Hr n t w a b c al T W A B C L Ra Rb Rc. rewrite rgb_func_color by assumption.
  destruct (rgb_modern_ok rnd Hr w a b c al A B C L W Ra Rb Rc) as (k & E & K). exists k. split; [|exact K].
  rewrite E. reflexivity.
Qed.

(** With commas: whole numbers are the channels, percentages are a nearest one. *)
Definition legacy_channel_ok (c : chan) (z : Z) : Prop :=
  match c with
  | Num d => forall i, decimal_value d == inject_Z i -> z = i
  | _ => nearest z (chan_value 255 c)
  end.
Theorem C131_rgb_commas_partial : rounds rnd -> forall n t w a b c al, rgb_func t -> (forall i, spaces (w i)) ->
  chan_ok a -> chan_ok b -> chan_ok c -> alpha_ok al ->
  in_range 255 a -> in_range 255 b -> in_range 255 c ->
  a <> NoneC -> b <> NoneC -> c <> NoneC -> al <> Some NoneC -> is_perc b = is_perc a -> is_perc c = is_perc a ->
  exists k, color_of (S n) (FUNC t (legacy w (chan_tok a) (chan_tok b) (chan_tok c) (option_map chan_tok al))) = Ok (Some (Srgb k)) /\
    legacy_channel_ok a (c_r k) /\ legacy_channel_ok b (c_g k) /\ legacy_channel_ok c (c_b k) /\
    nearest (c_a k) (alpha_byte al).
Proof.
  intros Hr n t w a b c al T W A B C L Ra Rb Rc Na Nb Nc Nl Pb Pc. rewrite rgb_func_color by assumption.
  destruct (rgb_legacy_ok rnd Hr w a b c al A B C L W Ra Rb Rc Na Nb Nc Nl Pb Pc) as (k & E & K1 & K2 & K3 & K4).
  rewrite rgb_modern_legacy by assumption. cbn [first_of obind]. rewrite E. exists k. split; [reflexivity|].
  assert (Z : forall c z, near_legacy c z -> legacy_channel_ok c z).
  { intros c0 z. destruct c0 as [d|d|]; cbn [near_legacy legacy_channel_ok]; auto. intros [H1 H2] i I.
    rewrite I in H1, H2. rewrite <- Zle_Qle in H1. rewrite <- Zlt_Qlt in H2. lia. }
  auto.
Qed.

(** Full statement: also numbers that are not whole are rounded. Refuted: with commas they are cut
    off, whatever the rounding; 1.75 is 1. *)
Definition d_1_75 : decimal := mkD false [1%Z] [7%Z; 5%Z].
Definition no_space : nat -> list sst := fun _ => [].
Definition rgb_t : token := mkT FUNCTION (of_string "rgb(").
Definition zero : chan := Num (mkD false [0%Z] []).
Theorem C131_fraction_refuted : forall n, rounds rnd ->
  color_of (S n) (FUNC rgb_t (legacy no_space (chan_tok (Num d_1_75)) (chan_tok zero) (chan_tok zero) None)) =
    Ok (Some (Srgb (mkRgba 1 0 0 255))) /\
  color_of (S n) (FUNC rgb_t (modern no_space (chan_tok (Num d_1_75)) (chan_tok zero) (chan_tok zero) None)) =
    Ok (Some (Srgb (mkRgba 2 0 0 255))).
Proof.
  intros n Hr. split.
  - rewrite rgb_func_color by (left; split; reflexivity).
    rewrite (rgb_modern_legacy rnd Hr no_space (Num d_1_75));
      [vm_compute; reflexivity|repeat split; try discriminate; repeat (constructor; try (vm_compute; split; [discriminate|reflexivity]))|constructor].
  - assert (D : decimal_ok d_1_75) by (repeat split; try discriminate; repeat (constructor; try (vm_compute; split; [discriminate|reflexivity]))).
    assert (Z : decimal_ok (mkD false [0%Z] [])) by (repeat split; try discriminate; repeat (constructor; try (vm_compute; split; [discriminate|reflexivity]))).
    destruct (C131_rgb_partial Hr n rgb_t no_space (Num d_1_75) zero zero None) as (k & E & K1 & K2 & K3 & K4);
      try (left; split; reflexivity); try exact D; try exact Z; try exact I;
      try (constructor); try (vm_compute; discriminate); try (intros; constructor).
    assert (R : forall z, nearest z (chan_value 255 (Num d_1_75)) -> z = 2%Z).
    { intros z H. unfold nearest in H. apply Qabs_Qle_condition in H as [H1 H2].
      assert (V : chan_value 255 (Num d_1_75) == 175 # 100) by (vm_compute; reflexivity). rewrite V in H1, H2.
      assert (A1 : inject_Z 1 < inject_Z z) by (change (inject_Z 1) with 1; lra).
      assert (A2 : inject_Z z < inject_Z 3) by (change (inject_Z 3) with 3; lra).
      rewrite <- Zlt_Qlt in A1, A2. lia. }
    assert (R0 : forall z, nearest z (chan_value 255 zero) -> z = 0%Z).
    { intros z H. apply nearest_whole. eapply nearest_comp; [|exact H]. vm_compute. reflexivity. }
    assert (R1 : c_a k = 255%Z) by (apply nearest_whole; exact K4).
    apply R in K1. apply R0 in K2, K3. destruct k as [k1 k2 k3 k4]. cbn [c_r c_g c_b c_a] in *. subst. exact E.
Qed.

(** Full statement: larger numbers stand for the largest. Refuted: any channel of 256 or more is
    undefined behaviour, with or without commas. *)
Theorem C131_too_large_refuted : rounds rnd -> forall n t w d b c al, rgb_func t -> (forall i, spaces (w i)) ->
  decimal_ok d -> chan_ok b -> chan_ok c -> 256 <= decimal_value d ->
  color_of (S n) (FUNC t (modern w (chan_tok (Num d)) (chan_tok b) (chan_tok c) al)) = Panic /\
  color_of (S n) (FUNC t (legacy w (chan_tok (Num d)) (chan_tok b) (chan_tok c) al)) = Panic.
Proof.
  intros Hr n t w d b c al T W D B C R. rewrite !rgb_func_color by assumption. split.
  - now rewrite (rgb_modern_large rnd Hr w (Num d) b c al D B C W R).
  - rewrite (rgb_modern_legacy rnd Hr w (Num d)) by assumption. cbn [first_of obind].
    now rewrite (rgb_legacy_large rnd w d _ _ al D W R).
Qed.

(** Full statement: what follows the alpha makes it invalid. Refuted: anything may follow. *)
Theorem C131_trailing_refuted : forall n junk, rounds rnd ->
  color_of (S n) (FUNC rgb_t (modern no_space (chan_tok zero) (chan_tok zero) (chan_tok zero) (Some (chan_tok zero)) ++ junk)) =
  Ok (Some (Srgb (mkRgba 0 0 0 0))).
Proof.
  intros n junk Hr. rewrite rgb_func_color by (left; split; reflexivity).
  assert (R0 : forall q, q == 0 -> rnd q = 0%Z).
  { intros q Q0. apply nearest_whole. eapply nearest_comp; [exact Q0|]. apply Hr. }
  assert (E : rgb_modern rnd (modern no_space (chan_tok zero) (chan_tok zero) (chan_tok zero) (Some (chan_tok zero)) ++ junk) =
    Ok (Some (mkRgba 0 0 0 0))); [|rewrite E; reflexivity].
  cbn. unfold rgb_modern. cbn. unfold round. rewrite (R0 (inject_Z 0)), (R0 (inject_Z 0)), (R0 (inject_Z 0 * 255)) by reflexivity.
  reflexivity.
Qed.

(** ** C132: hsl() *)

Definition hsl_func (t : token) : Prop := func_named "hsl(" t \/ func_named "hsla(" t.
Lemma hsl_func_color n t c : hsl_func t ->
  color_of (S n) (FUNC t c) =
  rbind (first_of (hsl_modern rnd pi hsl_to_rgb c) (hsl_legacy rnd pi hsl_to_rgb c)) (fun k => Ok (Some (Srgb k))).
Proof.
  intros [T|T]; cbn [ColorModel.color_of]; unfold func_color; rewrite !(func_is _ _ _ T); reflexivity.
Qed.
(** [k] is the color with these hue, saturation, lightness and alpha. *)
Definition is_hsl (k : rgba) (h s l : Q) (al : option chan) : Prop :=
  exists x y z, x == h /\ y == s /\ z == l /\
    c_r k = c_r (hsl_to_rgb (mkHsl x y z)) /\ c_g k = c_g (hsl_to_rgb (mkHsl x y z)) /\
    c_b k = c_b (hsl_to_rgb (mkHsl x y z)) /\
    match al with None => c_a k = c_a (hsl_to_rgb (mkHsl x y z)) | Some _ => nearest (c_a k) (alpha_byte al) end.

(** With percentages, both notations hand the hue in degrees, the fractions and the alpha to the
    conversion. Full statement: also plain numbers, which are percentages (refuted below), and
    an alpha of none (refuted below). *)
Theorem C132_hsl_partial : rounds rnd -> ~ pi == 0 -> forall n t w h v s l al, hsl_func t -> (forall i, spaces (w i)) ->
  hue_is pi h v -> decimal_ok s -> decimal_ok l -> alpha_ok al -> al <> Some NoneC ->
  (exists k, color_of (S n) (FUNC t (modern w (hue_tok h) (chan_tok (Perc s)) (chan_tok (Perc l)) (option_map chan_tok al))) = Ok (Some (Srgb k)) /\
     is_hsl k v (decimal_value s / 100) (decimal_value l / 100) al) /\
  (exists k, color_of (S n) (FUNC t (legacy w (hue_tok h) (chan_tok (Perc s)) (chan_tok (Perc l)) (option_map chan_tok al))) = Ok (Some (Srgb k)) /\
     is_hsl k v (decimal_value s / 100) (decimal_value l / 100) al).
Proof.
  intros Hr Hp n t w h v s l al T W H Ds Dl L Nl. rewrite !hsl_func_color by assumption. split.
  - destruct (hsl_modern_ok rnd Hr pi hsl_to_rgb Hp w h v (Perc s) (Perc l) al H Ds Dl L W) as (x & y & z & X & Y & Z & k & E & K).
    rewrite E. exists k. split; [reflexivity|]. exists x, y, z. cbn [chan_value] in *.
    split; [exact X|]. split; [rewrite Y; field|]. split; [rewrite Z; field|]. destruct al as [c|].
    + destruct K as (a & -> & K & _). repeat split. apply K. intros ->. now apply Nl.
    + subst. repeat split.
  - rewrite (hsl_modern_legacy rnd pi hsl_to_rgb Hp w h v) by assumption. cbn [first_of obind].
    destruct (hsl_legacy_ok rnd Hr pi hsl_to_rgb Hp w h v s l al H Ds Dl L Nl W) as (x & y & z & X & Y & Z & k & E & K).
    rewrite E. exists k. split; [reflexivity|]. exists x, y, z.
    split; [exact X|]. split; [exact Y|]. split; [exact Z|]. destruct al as [c|].
    + destruct K as (a & -> & K). repeat split. exact K.
    + subst. repeat split.
Qed.
(** Plain numbers are taken for fractions: hsl(h 100 50) has a saturation of 10000%. *)
Theorem C132_plain_numbers_refuted : rounds rnd -> ~ pi == 0 -> forall n t w h v s l, hsl_func t -> (forall i, spaces (w i)) ->
  hue_is pi h v -> decimal_ok s -> decimal_ok l ->
  exists k, color_of (S n) (FUNC t (modern w (hue_tok h) (chan_tok (Num s)) (chan_tok (Num l)) None)) = Ok (Some (Srgb k)) /\
     is_hsl k v (decimal_value s) (decimal_value l) None.
Proof.
  intros Hr Hp n t w h v s l T W H Ds Dl. rewrite !hsl_func_color by assumption.
  destruct (hsl_modern_ok rnd Hr pi hsl_to_rgb Hp w h v (Num s) (Num l) None H Ds Dl I W) as (x & y & z & X & Y & Z & k & E & K).
  cbn [option_map] in E. rewrite E. exists k. split; [reflexivity|]. exists x, y, z. subst k. now repeat split.
Qed.
(** An alpha of none is transparent in CSS, and in rgb(); here it is opaque. *)
Theorem C132_alpha_none_refuted : rounds rnd -> ~ pi == 0 -> forall n t w h v s l, hsl_func t -> (forall i, spaces (w i)) ->
  hue_is pi h v -> decimal_ok s -> decimal_ok l ->
  exists k, color_of (S n) (FUNC t (modern w (hue_tok h) (chan_tok (Perc s)) (chan_tok (Perc l)) (Some (chan_tok NoneC)))) = Ok (Some (Srgb k)) /\
     c_a k = 255%Z.
Proof.
  intros Hr Hp n t w h v s l T W H Ds Dl. rewrite !hsl_func_color by assumption.
  assert (L : alpha_ok (Some NoneC)) by (split; [exact I|unfold in_range; cbn; lra]).
  destruct (hsl_modern_ok rnd Hr pi hsl_to_rgb Hp w h v (Perc s) (Perc l) (Some NoneC) H Ds Dl L W) as (x & y & z & X & Y & Z & k & E & a & -> & _ & K).
  cbn [option_map] in E. rewrite E. eexists. split; [reflexivity|]. now apply K.
Qed.

(** ** C133: color() *)

(** Full statement: each channel is the nearest to 255 times its value. Here it is rounded before:
    it is 255 times the nearest of 0 and 1. *)
Theorem C133_color_function_partial : rounds rnd -> forall n t sp w0 w a b c al, func_named "color(" t ->
  In sp rgb_spaces -> spaces w0 -> (forall i, spaces (w i)) ->
  chan_ok a -> chan_ok b -> chan_ok c -> alpha_ok al -> in_range 1 a -> in_range 1 b -> in_range 1 c ->
  exists k x y z,
    color_of (S n) (FUNC t (w0 ++ ident (of_string sp) :: modern w (chan_tok a) (chan_tok b) (chan_tok c) (option_map chan_tok al))) = Ok (Some (Srgb k)) /\
    nearest x (chan_value 1 a) /\ nearest y (chan_value 1 b) /\ nearest z (chan_value 1 c) /\
    c_r k = (255 * x)%Z /\ c_g k = (255 * y)%Z /\ c_b k = (255 * z)%Z /\ nearest (c_a k) (alpha_byte al).
Proof.
  intros Hr n t sp w0 w a b c al T S W0 W A B C L Ra Rb Rc. cbn [ColorModel.color_of]. unfold func_color.
  rewrite !(func_is _ _ _ T). change (eq_ci (of_string "color(") (of_string "color-mix(")) with false.
  change (eq_ci (of_string "color(") (of_string "color(")) with true. cbn iota.
  destruct (color_func_ok rnd Hr w0 sp w a b c al S W0 A B C L W Ra Rb Rc) as (x & y & z & k & E & K).
  exists k, x, y, z. rewrite E. split; [reflexivity|exact K].
Qed.
(** So all the colors there are have channels of 0 and 255. *)
Theorem C133_eight_colors_refuted : rounds rnd -> forall n t sp w0 w a b c al, func_named "color(" t ->
  In sp rgb_spaces -> spaces w0 -> (forall i, spaces (w i)) ->
  chan_ok a -> chan_ok b -> chan_ok c -> alpha_ok al -> in_range 1 a -> in_range 1 b -> in_range 1 c ->
  exists k, color_of (S n) (FUNC t (w0 ++ ident (of_string sp) :: modern w (chan_tok a) (chan_tok b) (chan_tok c) (option_map chan_tok al))) = Ok (Some (Srgb k)) /\
    unit_channel (c_r k) /\ unit_channel (c_g k) /\ unit_channel (c_b k).
Proof.
  intros Hr n t sp w0 w a b c al T S W0 W A B C L Ra Rb Rc.
  destruct (C133_color_function_partial Hr n t sp w0 w a b c al T S W0 W A B C L Ra Rb Rc) as (k & x & y & z & E & X & Y & Z & Kr & Kg & Kb & _).
  exists k. split; [exact E|]. unfold unit_channel.
  apply unit_nearest in X, Y, Z; auto. rewrite Kr, Kg, Kb. lia.
Qed.
(** Every other color space is white, also the same one in capitals. *)
Theorem C133_other_spaces_refuted : forall n t sp w0 r, func_named "color(" t -> spaces w0 ->
  ~ In sp (map of_string rgb_spaces) ->
  color_of (S n) (FUNC t (w0 ++ ident sp :: r)) = Ok (Some (Srgb (mkRgba 255 255 255 255))).
Proof.
  intros n t sp w0 r T W N. cbn [ColorModel.color_of]. unfold func_color.
  rewrite !(func_is _ _ _ T). change (eq_ci (of_string "color(") (of_string "color-mix(")) with false.
  change (eq_ci (of_string "color(") (of_string "color(")) with true. cbn iota.
  rewrite color_func_other by assumption. reflexivity.
Qed.

(** ** C135: reading a color *)

(** Reading always ends; a color is one value, and what is left are the values after it. *)
Theorem C135_reading_ends : rounds rnd -> forall s r n, (nesting s < n)%nat ->
  parse_color rnd pi hsl_to_rgb n (s :: r) <> OutOfFuel /\
  (forall k c, parse_color rnd pi hsl_to_rgb n (s :: r) = Ok (Some k, c) -> c = r) /\
  forall m, (nesting s < m)%nat -> parse_color rnd pi hsl_to_rgb m (s :: r) = parse_color rnd pi hsl_to_rgb n (s :: r).
Proof.
  intros Hr s r n N. cbn [parse_color]. split; [|split].
  - pose proof (color_of_good rnd Hr pi hsl_to_rgb false n s N ltac:(discriminate)) as G.
    destruct (color_of n s) as [o| |]; cbn in *; try discriminate. contradiction.
  - intros k c. destruct (color_of n s) as [[x|]| |]; cbn [obind]; try discriminate. now intros [= _ <-].
  - intros m M. now rewrite (color_of_fuel rnd pi hsl_to_rgb m n s M N).
Qed.
(** Reading is defined if all numbers are between 0 and 1 and all percentages between 0 and 100.
    Full statement: always (refuted by C131_too_large_refuted). *)
Theorem C135_defined_partial : rounds rnd -> forall s r n, (nesting s < n)%nat -> tame s ->
  exists o, parse_color rnd pi hsl_to_rgb n (s :: r) = Ok o.
Proof.
  intros Hr s r n N T. cbn [parse_color].
  pose proof (color_of_good rnd Hr pi hsl_to_rgb true n s N ltac:(auto)) as G.
  destruct (color_of n s) as [o| |]; cbn in *; [eauto|discriminate|contradiction].
Qed.
(** A reader that fails leaves the values as they are for the next one to try. Refuted: a hash is
    gone. *)
Theorem C135_failure_consumes_refuted : forall n r,
  parse_color rnd pi hsl_to_rgb (S n) (hash (of_string "12") :: r) = Ok (None, r).
Proof. intros n r. vm_compute. reflexivity. Qed.
End Any.

(** ** C134: color-mix() and currentcolor *)
Section Mix.
Variable rnd : Q -> Z.
Variable pi : Q.
Variable hsl_to_rgb : hsl -> rgba.
Variable rgb_to_hsl : rgba -> hsl.
Variable premultiply unpremultiply : rgba -> rgba.
Variable lerp_rgb : rgba -> rgba -> Q -> rgba.
Variable lerp_hsl : hsl -> hsl -> Q -> hsl.
Variable with_opacity : rgba -> Q -> rgba.
Notation color_of := (color_of rnd pi hsl_to_rgb).
Notation resolve := (resolve_color hsl_to_rgb rgb_to_hsl premultiply unpremultiply lerp_rgb lerp_hsl with_opacity).

(** The color of a mix of two colors in sRGB, [t] of the way to the second. *)
Definition srgb_mix (a b : rgba) (t : Q) : rgba := unpremultiply (lerp_rgb (premultiply a) (premultiply b) t).

Theorem C134_mix_is_read : forall n t w sp l r kl kr,
  func_named "color-mix(" t -> (forall i, spaces (w i)) -> side_ok l -> side_ok r ->
  color_of n (side_color l) = Ok (Some kl) -> color_of n (side_color r) = Ok (Some kr) ->
  exists p q, color_of (S n) (FUNC t (mix_text w sp l r)) = Ok (Some (Mix (space_of sp) kl p kr q)) /\
    same_share p (side_share l) /\ same_share q (side_share r).
Proof. intros. now apply mix_read. Qed.

(** The shares are those of CSS: a share that is missing is the rest of 100%, or half; the second
    color counts as much as its share of the sum; less than 100% in all is less opaque. Full
    statement: for every color space (refuted below). *)
Theorem C134_shares_partial : forall a p b q k, share_ok p -> share_ok q ->
  let (x, y) := shares p q in 0 < x + y ->
  exists t, t == y / (x + y) /\
    ((x + y < 100 /\ exists o, o == (x + y) / 100 /\
        resolve (Mix SRGB a p b q) k = with_opacity (srgb_mix (resolve a k) (resolve b k) t) o) \/
     (100 <= x + y /\ resolve (Mix SRGB a p b q) k = srgb_mix (resolve a k) (resolve b k) t)).
Proof.
  intros a p b q k P R.
  exact (mix_shares hsl_to_rgb rgb_to_hsl premultiply unpremultiply lerp_rgb lerp_hsl with_opacity SRGB (resolve a k) p (resolve b k) q P R).
Qed.

(** The order of the two does not matter, if it does not for the library. *)
Theorem C134_order : forall sp a p b q k,
  lerp_sym lerp_rgb -> lerp_sym lerp_hsl -> respects with_opacity -> share_ok p -> share_ok q ->
  resolve (Mix (space_of sp) a p b q) k = resolve (Mix (space_of sp) b q a p) k.
Proof. intros. cbn [resolve_color]. now apply mix_sym. Qed.

(** The element's own color matters only where currentcolor is written; there it is as if that
    color had been written. *)
Theorem C134_current : forall c x k k',
  (mentions_current c = false -> resolve c k = resolve c k') /\
  resolve (put_current x c) k = resolve c (resolve x k).
Proof. intros c x k k'. split; [apply resolve_constant|apply resolve_put]. Qed.

(** Every color space but one is sRGB, also those that are not, like hsl or oklab; and lch is hsl. *)
Theorem C134_space_refuted : forall sp a p b q k,
  (sp <> of_string "lch" -> resolve (Mix (space_of sp) a p b q) k = resolve (Mix SRGB a p b q) k) /\
  space_of (of_string "lch") = HSL SHORTER.
Proof.
  intros sp a p b q k. split; [|reflexivity]. intros N. unfold space_of.
  destruct (str_eqb sp (of_string "lch")) eqn:E; [|reflexivity]. apply str_eqb_spec in E. contradiction.
Qed.

(** Two shares of nothing are invalid in CSS; here they are white. *)
Theorem C134_no_shares_refuted : forall s a b k p q, p == 0 -> q == 0 ->
  resolve (Mix s a (Some p) b (Some q)) k = mkRgba 255 255 255 255.
Proof.
  intros s a b k p q P R. cbn [resolve_color]. unfold resolve_mix. cbn zeta.
  replace (Qeq_bool p q && Qeq_bool p 0) with true; [reflexivity|].
  symmetry. apply andb_true_iff. rewrite !Qeq_bool_iff. split; lra.
Qed.

(** Hues go around the circle as CSS says for each of the four methods. *)
Theorem C134_hue_arc : forall m a b a' b', 0 <= a < 360 -> 0 <= b < 360 -> prepare_polar m a b = (a', b') ->
  arc_ok m (b' - a') /\ same_hue a a' /\ same_hue b b'.
Proof. apply prepare_polar_ok. Qed.
End Mix.

(** ** Cases that meet the hypotheses *)

(** A rounding: half goes up. *)
Definition half_up (q : Q) : Z := Qfloor (q + (1 # 2)).
Example half_up_rounds : rounds half_up.
Proof.
  intros q. unfold nearest, half_up. pose proof (Qfloor_le (q + (1 # 2))). pose proof (Qlt_floor (q + (1 # 2))).
  rewrite inject_Z_plus in H0. change (inject_Z 1) with 1 in H0. apply Qabs_Qle_condition. split; lra.
Qed.
Definition gray (h : hsl) : rgba := mkRgba (half_up (255 * h_light h)) (half_up (255 * h_light h)) (half_up (255 * h_light h)) 255.
Definition read (s : string) : option (res color) :=
  match tokens true (of_string s) with
  | Some ts => match component 30 ts with Some (x, _) => Some (ColorModel.color_of half_up (22 # 7) gray 5 x) | None => None end
  | None => None
  end.
Example C129_example : read "#1aF" = Some (Ok (Some (Srgb (mkRgba 17 170 255 255)))) /\
  read "#12345678" = Some (Ok (Some (Srgb (mkRgba 18 52 86 120)))) /\ read "#12345" = Some (Ok None) /\
  Forall hex_ok [(1, false); (10, false); (15, true)]%Z.
Proof. repeat split; try (vm_compute; reflexivity). repeat constructor; vm_compute; discriminate || reflexivity. Qed.
Example C130_example : read "RebeccaPurple" = Some (Ok (Some (Srgb (mkRgba 102 51 153 255)))) /\
  In ("rebeccapurple"%string, (102, 51, 153)%Z) css_named /\ read "reddish" = Some (Ok None) /\
  read "LinkText" = Some (Ok (Some (System 13))).
Proof. split; [vm_compute; reflexivity|]. split; [|split; vm_compute; reflexivity]. vm_compute. tauto. Qed.
Example C131_example : read "rgb( 1.75 50% none / 25%)" = Some (Ok (Some (Srgb (mkRgba 2 128 0 64)))) /\
  read "RGBA(1,2 , 3, 0.5)" = Some (Ok (Some (Srgb (mkRgba 1 2 3 128)))) /\ read "rgb(300 0 0)" = Some Panic.
Proof. repeat split; vm_compute; reflexivity. Qed.
Example C132_example : read "hsl(0.5turn 100% 50% / 1)" = Some (Ok (Some (Srgb (mkRgba 128 128 128 255)))) /\
  read "hsl(180, 100%, 50%)" = read "hsl(180deg 100% 50%)" /\
  hue_is (22 # 7) (HDim (mkD false [0%Z] [5%Z]) (of_string "turn")) 180.
Proof.
  split; [vm_compute; reflexivity|]. split; [vm_compute; reflexivity|]. split.
  - repeat split; try discriminate; repeat (constructor; try (vm_compute; split; [discriminate|reflexivity])).
  - exists 360. split; [right; right; left; now split|]. vm_compute. reflexivity.
Qed.
Example C133_example : read "color(srgb 0.6 0.4 1)" = Some (Ok (Some (Srgb (mkRgba 255 0 255 255)))) /\
  read "color(xyz 0.6 0.4 1)" = Some (Ok (Some (Srgb WHITE))).
Proof. split; vm_compute; reflexivity. Qed.
Example C134_example :
  read "color-mix(in srgb, red 20%, currentcolor)" =
    Some (Ok (Some (Mix SRGB (Srgb (mkRgba 255 0 0 255)) (Some 20) CurrentColor None))) /\
  read "color-mix(in lch, 30% color-mix(in hsl, red, blue), #fff)" =
    Some (Ok (Some (Mix (HSL SHORTER) (Mix SRGB (Srgb (mkRgba 255 0 0 255)) None (Srgb (mkRgba 0 0 255 255)) None) (Some 30)
       (Srgb WHITE) None))).
Proof. split; vm_compute; reflexivity. Qed.
Example C134_library : lerp_sym (fun a b t => Qred (a * (1 - t) + b * t)) /\
  prepare_polar SHORTER 350 10 = (350, 370) /\ share_ok (Some 30).
Proof.
  split; [|split; [reflexivity|cbn; lra]]. intros a b t u E. apply Qred_complete.
  assert (T : t == 1 - u) by lra. rewrite T. ring.
Qed.
Example C135_example : tame (FUNC rgb_t [chan_tok (Num (mkD false [1%Z] [])); chan_tok (Perc (mkD false [5%Z] [])); chan_tok NoneC]).
Proof.
  apply tame_func. repeat (apply Forall_cons; [apply tame_tok; cbn [t_type t_data]; try discriminate|]); [| |constructor].
  - intros _ q r H. vm_compute in H. injection H as <- _. split; vm_compute; discriminate.
  - intros _ q r H. vm_compute in H. injection H as <- _. split; vm_compute; discriminate.
Qed.

Print Assumptions C129_hex_partial.
Print Assumptions C129_no_panic.
Print Assumptions C129_invalid_digits_refuted.
Print Assumptions C130_named_colors.
Print Assumptions C130_other_names.
Print Assumptions C130_system_colors_partial.
Print Assumptions C130_system_case_refuted.
Print Assumptions C131_rgb_partial.
Print Assumptions C131_rgb_commas_partial.
Print Assumptions C131_fraction_refuted.
Print Assumptions C131_too_large_refuted.
Print Assumptions C131_trailing_refuted.
Print Assumptions C132_hsl_partial.
Print Assumptions C132_plain_numbers_refuted.
Print Assumptions C132_alpha_none_refuted.
Print Assumptions C133_color_function_partial.
Print Assumptions C133_eight_colors_refuted.
Print Assumptions C133_other_spaces_refuted.
Print Assumptions C134_mix_is_read.
Print Assumptions C134_shares_partial.
Print Assumptions C134_order.
Print Assumptions C134_current.
Print Assumptions C134_space_refuted.
Print Assumptions C134_no_shares_refuted.
Print Assumptions C134_hue_arc.
Print Assumptions C135_reading_ends.
Print Assumptions C135_defined_partial.
Print Assumptions C135_failure_consumes_refuted.
