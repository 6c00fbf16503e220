(** Proofs about ColorModel.v: hexadecimal notation, names, numbers, hues. *)
From Coq Require Import String List NArith ZArith QArith Qabs Bool Lia Lqa.
From Verif.Base Require Import Str Outcome.
From Verif.Css Require Import LexerModel ParserModel LexerSpec LexerProofs.
From Verif.Values Require Import Number LengthModel CalcModel ColorModel ColorSpec.
Import ListNotations.
Local Open Scope list_scope.

(** ** Hexadecimal notation *)

Lemma hex_cases z : (0 <= z < 16)%Z ->
  (z = 0 \/ z = 1 \/ z = 2 \/ z = 3 \/ z = 4 \/ z = 5 \/ z = 6 \/ z = 7 \/ z = 8 \/ z = 9 \/ z = 10 \/ z = 11
   \/ z = 12 \/ z = 13 \/ z = 14 \/ z = 15)%Z.
Proof. lia. Qed.

Lemma hex_digit_char d : hex_ok d -> hex_digit (hex_char d) = Some (fst d).
Proof.
  destruct d as [z u]. unfold hex_ok. cbn [fst]. intros H. apply hex_cases in H.
  repeat match goal with H : _ \/ _ |- _ => destruct H as [-> | H] | H : z = _ |- _ => subst z end;
    destruct u; reflexivity.
Qed.

Lemma next_hex_one d : hex_ok d -> next_hex [hex_char d] = fst d.
Proof.
  intros H. unfold next_hex, atou16. cbn [hex_digits]. rewrite hex_digit_char by assumption.
  cbn [fold_left]. lia.
Qed.
Lemma next_hex_two d e : hex_ok d -> hex_ok e -> next_hex [hex_char d; hex_char e] = byte (fst d) (fst e).
Proof.
  intros H K. unfold next_hex, atou16. cbn [hex_digits]. rewrite !hex_digit_char by assumption.
  cbn [fold_left]. unfold byte. lia.
Qed.
Lemma twice_byte z : (0 <= z < 16)%Z -> twice z = byte z z.
Proof.
  intros H. apply hex_cases in H.
  repeat match goal with H : _ \/ _ |- _ => destruct H as [-> | H] | H : z = _ |- _ => subst z end; reflexivity.
Qed.
Lemma twice_hex d : hex_ok d -> twice (next_hex [hex_char d]) = byte (fst d) (fst d).
Proof. intros H. rewrite next_hex_one by assumption. now apply twice_byte. Qed.

Lemma parse_hex_digits ds : Forall hex_ok ds ->
  parse_hex (35%N :: map hex_char ds) = Ok (css_hex (map fst ds)).
Proof.
  intros H. unfold parse_hex. cbn [N.eqb Pos.eqb negb].
  do 9 (destruct ds as [|? ds]; [cbn [map css_hex];
    repeat match goal with H : Forall _ (_ :: _) |- _ => inversion H; clear H; subst end;
    rewrite ?next_hex_two, ?twice_hex by assumption; reflexivity|]).
  reflexivity.
Qed.

(** A hash token starts with its "#". *)
Lemma hash_re s r : RE_HASH s = Some r -> exists s', s = 35%N :: s'.
Proof.
  unfold RE_HASH, re_chain, re_single, re_if. destruct s as [|c s]; [discriminate|].
  cbn [existsb]. destruct (N.eqb_spec c 35) as [-> | N]; [now exists s|]. discriminate.
Qed.
Lemma consumed_head c s r : suffix r s -> exists s', consumed (c :: s) r = c :: s'.
Proof.
  intros [p ->]. change (c :: p ++ r) with ((c :: p) ++ r). rewrite consumed_app. now exists p.
Qed.

Lemma next_ident_type s0 s ty r : next_ident s0 s = (ty, r) -> ty <> HASH.
Proof.
  unfold next_ident. intros H.
  repeat match type of H with match ?x with _ => _ end = _ => destruct x end; injection H as <- <-; discriminate.
Qed.
Lemma string_loop_type n q s acc ty d r : string_loop n q s acc = (ty, d, r) -> ty <> HASH.
Proof.
  revert s acc. induction n as [|n IH]; intros s acc H; cbn [string_loop] in H.
  - repeat match type of H with match ?x with _ => _ end = _ => destruct x end; injection H as <- <- <-; discriminate.
  - repeat match type of H with
           | string_loop _ _ _ _ = _ => now apply IH in H
           | match ?x with _ => _ end = _ => destruct x
           end; try (injection H as <- <- <-; discriminate); now apply IH in H.
Qed.

Lemma next_hash rb s t r : next rb s = (t, r) -> t_type t = HASH -> exists d, t_data t = 35%N :: d.
Proof.
  intros H T. destruct s as [|c s]; [injection H as <- <-; discriminate T|].
  unfold next in H.
  repeat match type of H with
  | match RE_HASH ?x with _ => _ end = _ =>
      let E := fresh "E" in destruct (RE_HASH x) as [r0|] eqn:E;
      [injection H as <- <-; cbn [t_type t_data] in *;
       destruct (hash_re _ _ E) as [s' Es]; injection Es as -> ->;
       destruct (strong_hash _ _ E) as (p & Hp & Ep); destruct p as [|p0 p]; [contradiction|];
       injection Ep as <- Es; apply consumed_head; now exists p|]
  | match next_ident ?a ?b with _ => _ end = _ =>
      let E := fresh "E" in destruct (next_ident a b) as [ty r'] eqn:E; injection H as <- <-;
      exfalso; now apply (next_ident_type _ _ _ _ E)
  | match string_loop ?a ?b ?c ?d with _ => _ end = _ =>
      let E := fresh "E" in destruct (string_loop a b c d) as [[ty d'] r'] eqn:E; injection H as <- <-;
      exfalso; now apply (string_loop_type _ _ _ _ _ _ _ E)
  | match ?x with _ => _ end = _ => destruct x; try (injection H as <- <-; discriminate T)
  end.
Qed.

(** ** Names *)

Lemma eq_ci_spec a b : eq_ci a b = true <-> same_letters a b.
Proof.
  unfold same_letters. revert b. induction a as [|x a IH]; destruct b as [|y b]; cbn [eq_ci map]; split; intros H;
    try discriminate; try reflexivity.
  - apply andb_true_iff in H as [H1 H2]. apply N.eqb_eq in H1. apply IH in H2. congruence.
  - injection H as H1 H2. rewrite H1, N.eqb_refl. cbn [andb]. now apply IH.
Qed.
Lemma eq_ci_left a b c : same_letters a b -> eq_ci a c = eq_ci b c.
Proof.
  intros H. destruct (eq_ci a c) eqn:E, (eq_ci b c) eqn:F; try reflexivity.
  - apply eq_ci_spec in E. assert (K : same_letters b c) by (unfold same_letters in *; congruence).
    apply eq_ci_spec in K. congruence.
  - apply eq_ci_spec in F. assert (K : same_letters a c) by (unfold same_letters in *; congruence).
    apply eq_ci_spec in K. congruence.
Qed.
Lemma named_color_letters t a b : same_letters a b -> named_color t a = named_color t b.
Proof.
  intros H. induction t as [|[n v] t IH]; [reflexivity|]. cbn [named_color]. rewrite IH.
  now rewrite (eq_ci_left _ _ _ H).
Qed.

Definition is_rgb (o : option color) (r g b : Z) : bool :=
  match o with
  | Some (Srgb k) => Z.eqb (c_r k) r && Z.eqb (c_g k) g && Z.eqb (c_b k) b && Z.eqb (c_a k) 255
  | _ => false
  end.
Lemma is_rgb_spec o r g b : is_rgb o r g b = true -> o = Some (Srgb (mkRgba r g b 255)).
Proof.
  destruct o as [[k| | |]|]; try discriminate. cbn [is_rgb]. rewrite !andb_true_iff, !Z.eqb_eq.
  intros [[[H1 H2] H3] H4]. destruct k. cbn in *. now subst.
Qed.
Lemma table_ok : forallb (fun x => match x with (n, (r, g, b)) => is_rgb (ident_color (of_string n)) r g b end) css_named = true.
Proof. vm_compute. reflexivity. Qed.
Lemma table_named : forallb (fun x => match named_color named (of_string (fst x)) with Some _ => true | None => false end) css_named = true.
Proof. vm_compute. reflexivity. Qed.
Lemma table_names : forallb (fun x => existsb (String.eqb (fst x)) (map fst css_named)) named = true.
Proof. vm_compute. reflexivity. Qed.
Lemma table_systems : map fst systems = css_systems.
Proof. reflexivity. Qed.

Lemma ident_color_named n r g b s :
  In (n, (r, g, b)) css_named -> same_letters s (of_string n) -> ident_color s = Some (Srgb (mkRgba r g b 255)).
Proof.
  intros I H. apply is_rgb_spec.
  pose proof (proj1 (forallb_forall _ _) table_ok _ I) as K. cbn beta iota in K.
  pose proof (proj1 (forallb_forall _ _) table_named _ I) as J. cbn beta iota in J. cbn [fst] in J.
  unfold ident_color in *. rewrite !(eq_ci_left _ _ _ H), (named_color_letters _ _ _ H).
  destruct (named_color named (of_string n)); [exact K|discriminate].
Qed.

Lemma named_color_none t s : (forall n v, In (n, v) t -> ~ same_letters s (of_string n)) -> named_color t s = None.
Proof.
  induction t as [|[n v] t IH]; intros H; [reflexivity|]. cbn [named_color].
  destruct (eq_ci s (of_string n)) eqn:E.
  - apply eq_ci_spec in E. exfalso. apply (H n v); [now left|assumption].
  - apply IH. intros m u I. apply (H m u). now right.
Qed.
Lemma system_color_none t s : ~ In s (map (fun x => of_string (fst x)) t) -> system_color t s = None.
Proof.
  induction t as [|[n v] t IH]; intros H; [reflexivity|]. cbn [system_color map In fst] in *.
  destruct (str_eqb s (of_string n)) eqn:E.
  - apply str_eqb_spec in E. exfalso. apply H. now left.
  - rewrite IH by tauto. reflexivity.
Qed.

Lemma ident_color_other s :
  (forall n, In n ("currentcolor" :: "transparent" :: map fst css_named)%string -> ~ same_letters s (of_string n)) ->
  ~ In s (map of_string css_systems) -> ident_color s = None.
Proof.
  intros H K. unfold ident_color.
  destruct (eq_ci s (of_string "currentcolor")) eqn:E1.
  { apply eq_ci_spec in E1. exfalso. apply (H "currentcolor"%string); [now left|assumption]. }
  destruct (eq_ci s (of_string "transparent")) eqn:E2.
  { apply eq_ci_spec in E2. exfalso. apply (H "transparent"%string); [right; now left|assumption]. }
  rewrite named_color_none, system_color_none; [reflexivity| |].
  - intros I. apply K. rewrite <- table_systems, map_map. exact I.
  - intros n v I. apply H. right. right.
    pose proof (proj1 (forallb_forall _ _) table_names _ I) as J. cbn [fst] in J.
    apply existsb_exists in J as (m & J1 & J2). apply String.eqb_eq in J2. now subst.
Qed.

Lemma system_color_nth t i n v : NoDup (map (fun x => of_string (fst x)) t) ->
  nth_error t i = Some (n, v) -> system_color t (of_string n) = Some i.
Proof.
  revert i. induction t as [|[m u] t IH]; intros i D H; [destruct i; discriminate|].
  cbn [map fst] in D. inversion D as [|? ? D1 D2]; subst. cbn [system_color].
  destruct i as [|i]; cbn [nth_error] in H.
  - injection H as -> ->. now rewrite str_eqb_refl.
  - destruct (str_eqb (of_string n) (of_string m)) eqn:E.
    + apply str_eqb_spec in E. exfalso. apply D1. rewrite <- E.
      apply nth_error_In in H. now apply (in_map (fun x => of_string (fst x))) in H.
    + now rewrite (IH i D2 H).
Qed.

(** ** Numbers *)

Lemma nearest_range z q lo hi : nearest z q -> inject_Z lo <= q <= inject_Z hi -> (lo <= z <= hi)%Z.
Proof.
  unfold nearest. intros H [L U]. apply Qabs_Qle_condition in H as [H1 H2].
  split.
  - assert (inject_Z lo < inject_Z (z + 1)) by (rewrite inject_Z_plus; change (inject_Z 1) with 1; lra).
    rewrite <- Zlt_Qlt in H. lia.
  - assert (inject_Z z < inject_Z (hi + 1)) by (rewrite inject_Z_plus; change (inject_Z 1) with 1; lra).
    rewrite <- Zlt_Qlt in H. lia.
Qed.
Lemma nearest_whole z n : nearest z (inject_Z n) -> z = n.
Proof. intros H. apply (nearest_range _ _ n n) in H; [lia|split; apply Qle_refl]. Qed.
Lemma nearest_comp z p q : p == q -> nearest z p -> nearest z q.
Proof. unfold nearest. intros E H. now rewrite <- E. Qed.

Lemma trunc_whole z : trunc (inject_Z z) = z.
Proof. unfold trunc. cbn. apply Z.quot_1_r. Qed.
Lemma trunc_floor q : 0 <= q -> inject_Z (trunc q) <= q < inject_Z (trunc q + 1).
Proof.
  unfold trunc, Qle, Qlt. destruct q as [n d]. cbn [Qnum Qden inject_Z]. intros H.
  rewrite Z.quot_div_nonneg by lia.
  pose proof (Z.div_mod n (Z.pos d) ltac:(lia)). pose proof (Z.mod_pos_bound n (Z.pos d) ltac:(lia)).
  rewrite !Z.mul_1_r. split; nia.
Qed.
Lemma trunc_big q n : (0 <= n)%Z -> inject_Z n <= q -> (n <= trunc q)%Z.
Proof.
  intros N H. assert (P : 0 <= q) by (change 0 with (inject_Z 0); eapply Qle_trans; [|exact H]; now rewrite <- Zle_Qle).
  destruct (trunc_floor q P) as [_ U]. assert (K : inject_Z n < inject_Z (trunc q + 1)) by (eapply Qle_lt_trans; eassumption).
  rewrite <- Zlt_Qlt in K. lia.
Qed.

Lemma u8_whole z : (0 <= z <= 255)%Z -> u8 (inject_Z z) = Ok (Some z).
Proof.
  intros H. unfold u8. rewrite trunc_whole.
  replace ((0 <=? z) && (z <=? 255))%Z with true; [reflexivity|].
  symmetry. apply andb_true_iff. split; apply Z.leb_le; lia.
Qed.
Lemma u8_some q : 0 <= q -> q < 256 -> u8 q = Ok (Some (trunc q)).
Proof.
  intros L U. unfold u8. destruct (trunc_floor q L) as [H1 H2].
  assert (A : inject_Z 0 < inject_Z (trunc q + 1)) by (eapply Qle_lt_trans; [exact L|exact H2]).
  assert (B : inject_Z (trunc q) < inject_Z 256) by (eapply Qle_lt_trans; [exact H1|exact U]).
  rewrite <- Zlt_Qlt in A, B.
  replace ((0 <=? trunc q) && (trunc q <=? 255))%Z with true; [reflexivity|].
  symmetry. apply andb_true_iff. split; apply Z.leb_le; lia.
Qed.
Lemma u8_big q : 256 <= q -> u8 q = Panic.
Proof.
  intros H. unfold u8. apply (trunc_big q 256) in H; [|lia].
  replace (trunc q <=? 255)%Z with false; [now rewrite andb_false_r|]. symmetry. apply Z.leb_gt. lia.
Qed.
Lemma u8_neg q : q <= -(1) -> u8 q = Panic.
Proof.
  intros H. unfold u8. assert (K : (trunc q <= -1)%Z).
  { revert H. unfold trunc, Qle. destruct q as [n d]. cbn. intros H.
    rewrite <- (Z.opp_involutive n), Z.quot_opp_l by lia. rewrite Z.quot_div_nonneg by lia.
    assert (1 <= - n / Z.pos d)%Z by (apply Z.div_le_lower_bound; lia). lia. }
  replace (0 <=? trunc q)%Z with false; [reflexivity|]. symmetry. apply Z.leb_gt. lia.
Qed.

(** ** Hues *)

Lemma lt_spec x y : negb (Qle_bool y x) = true <-> x < y.
Proof. rewrite negb_true_iff. split; intros H.
  - apply Qnot_le_lt. intros K. apply Qle_bool_iff in K. congruence.
  - destruct (Qle_bool y x) eqn:E; [|reflexivity]. apply Qle_bool_iff in E. lra.
Qed.
Lemma lt_false x y : negb (Qle_bool y x) = false <-> y <= x.
Proof. rewrite negb_false_iff. apply Qle_bool_iff. Qed.
Lemma same_hue_refl a : same_hue a a.
Proof. exists 0%Z. change (inject_Z 0) with 0. ring. Qed.
Lemma same_hue_turn a : same_hue a (a + 360).
Proof. exists 1%Z. change (inject_Z 1) with 1. ring. Qed.

Lemma prepare_polar_ok m a b a' b' : 0 <= a < 360 -> 0 <= b < 360 -> prepare_polar m a b = (a', b') ->
  arc_ok m (b' - a') /\ same_hue a a' /\ same_hue b b'.
Proof.
  intros A B. unfold prepare_polar. destruct m;
    repeat match goal with
    | |- context [if ?x && ?y then _ else _] => destruct x eqn:?; cbn [andb]
    | |- context [if ?x then _ else _] => destruct x eqn:?
    end; intros [= <- <-];
    repeat match goal with
    | H : negb (Qle_bool _ _) = true |- _ => apply lt_spec in H
    | H : negb (Qle_bool _ _) = false |- _ => apply lt_false in H
    | H : Qle_bool _ _ = true |- _ => apply Qle_bool_iff in H
    | H : Qle_bool _ _ = false |- _ => apply negb_true_iff, lt_spec in H
    end; (split; [|split; first [apply same_hue_refl | apply same_hue_turn]]); cbn [arc_ok];
    try (split; lra); try (left; lra); try (right; lra).
Qed.
