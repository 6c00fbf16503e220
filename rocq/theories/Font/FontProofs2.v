(** What the parsers of fonts read. *)
From Coq Require Import String List NArith ZArith QArith Bool Lia.
From Verif.Base Require Import Str Outcome.
From Verif.Css Require Import LexerModel ParserModel.
From Verif.Values Require Import CalcModel Number LengthModel LengthSpec LengthProps ColorModel ColorProofs.
From Verif.Props Require Import VarModel EngineModel EngineSpec BoxPropModel BoxPropSpec LonghandModel LonghandSpec LonghandProofs LonghandProofs2.
From Verif.Font Require Import FontModel FontSpec.
Import ListNotations.
Local Open Scope list_scope.
Local Open Scope string_scope.

(** ** Families *)
Definition over (r : list sst) : Prop := r = [] \/ exists ws, r = comma :: ws.
Lemma spaced_app d x ds : spaced (d ++ space :: x)%list ds = (d ++ space :: spaced x ds)%list.
Proof. destruct ds; cbn [spaced]; [reflexivity|]. now rewrite <- app_assoc, <- app_comm_cons. Qed.
Lemma idents_gap b d r : gap b -> idents d (b ++ r)%list = idents d r.
Proof. induction 1 as [|? b [x ->] _ IH]; [reflexivity|exact IH]. Qed.
Lemma idents_words w ds : words_are w ds -> forall d r, over r -> idents d (w ++ r)%list = (spaced d ds, r).
Proof.
  induction 1 as [b B|b x w ds B W IH]; intros d r Hr.
  - rewrite (idents_gap b d r B). destruct Hr as [-> |(ws & ->)]; reflexivity.
  - rewrite <- app_assoc, (idents_gap b d _ B). cbn [app]. change (idents d (word x :: w ++ r)%list) with (idents (d ++ space :: x)%list (w ++ r)%list).
    rewrite (IH _ _ Hr), spaced_app. reflexivity.
Qed.
Lemma family_reads w s r : family_is w s -> over r -> parse_family (w ++ r)%list = (Some s, r).
Proof.
  intros [s'|d w' ds W] Hr; [reflexivity|].
  change (parse_family ((word d :: w') ++ r)%list) with (let '(s, r') := idents d (w' ++ r)%list in (Some s, r')).
  now rewrite (idents_words w' ds W d r Hr).
Qed.
Lemma family_head w s : family_is w s -> exists t w', w = TOK t :: w' /\ (t_type t = STRING \/ t_type t = IDENT).
Proof. intros [s'|d w' ds _]; eexists _, _; (split; [reflexivity|]); auto. Qed.
Lemma families_head w l : families_are w l -> exists t w', w = TOK t :: w' /\ (t_type t = STRING \/ t_type t = IDENT).
Proof.
  intros [w' s H|w' s ws l' H _]; destruct (family_head _ _ H) as (t & w2 & -> & Ht); [eauto|]. exists t. eexists. split; [reflexivity|exact Ht].
Qed.
Lemma families_eat w l : families_are w l -> eat_wss w = w.
Proof. intros H. destruct (families_head _ _ H) as (t & w' & -> & [E|E]); cbn [eat_wss]; rewrite E; reflexivity. Qed.
Lemma families_loop w l : families_are w l -> forall fuel, (List.length w <= fuel)%nat -> family_loop fuel w = (Some l, []).
Proof.
  induction 1 as [w s H|w s ws l H Hl IH]; intros fuel Hf.
  - pose proof (family_reads w s [] H (or_introl eq_refl)) as E. rewrite app_nil_r in E.
    destruct (family_head _ _ H) as (t & w' & -> & _). destruct fuel as [|fuel]; [cbn in Hf; lia|]. cbn [family_loop]. rewrite E.
    cbn [EngineModel.skip_comma eat_wss]. destruct fuel; reflexivity.
  - pose proof (family_reads w s (comma :: ws) H (or_intror (ex_intro _ ws eq_refl))) as E.
    destruct (family_head _ _ H) as (t & w' & -> & _). cbn [app List.length] in Hf. rewrite app_length in Hf. cbn [List.length] in Hf.
    destruct fuel as [|fuel]; [lia|]. cbn [app family_loop]. cbn [app] in E. rewrite E.
    change (EngineModel.skip_comma (comma :: ws)) with (eat_wss ws). rewrite (families_eat _ _ Hl), (IH fuel) by lia. reflexivity.
Qed.
Lemma families_read w l : families_are w l -> parse_families w = (Some (Families l), []).
Proof.
  intros H. unfold parse_families, as_, map_fst. rewrite (families_eat _ _ H), (families_loop w l H) by lia. reflexivity.
Qed.

(** ** Weights *)
Lemma integer_reads w z : integer_is w z -> exists t, w = [TOK t] /\ t_type t = NUMBER /\ forall r, parse_integer (TOK t :: r) = (Some z, r).
Proof.
  intros (neg & ds & -> & Hok & ->). exists (mkT NUMBER (show_integer neg ds)). split; [reflexivity|]. split; [reflexivity|].
  intros r. cbn [parse_integer t_type t_data ttype_beq]. pose proof (atoi_show neg ds [] Hok Logic.I) as E. rewrite app_nil_r in E. now rewrite E.
Qed.
Lemma kw_token {A} (l : list (string * A)) t r : t_type t <> IDENT -> parse_keyword l (TOK t :: r) = (None, TOK t :: r).
Proof.
  intros Ht. induction l as [|[k a] l IH]; [reflexivity|]. cbn [parse_keyword is_ident]. unfold token_eqb. cbn [t_type].
  destruct (t_type t); try exact IH. contradiction.
Qed.
Lemma number_plain t : t_type t <> IDENT -> t_type t <> WHITESPACE -> forall r, starts_plain (TOK t :: r).
Proof.
  intros Ht Hw r. split; [|split; [discriminate|]].
  - apply Forall_forall. intros k _. cbn [is_ident]. unfold token_eqb. cbn [t_type]. destruct (t_type t); try reflexivity. contradiction.
  - intros t' E. now injection E as <-.
Qed.

Ltac open_font := unfold parse_style, parse_weight, parse_width, parse_size, parse_number_weight, size_keywords, width_names, orelse, lift; cbn [map app].
Lemma percent_spells k s r : spells k s -> parse_percent (s :: r) = None.
Proof. intros (d & -> & _). reflexivity. Qed.
Lemma length_spells k s r : spells k s -> parse_length (s :: r) = None.
Proof. intros (d & -> & _). reflexivity. Qed.
Lemma angle_spells k s r : spells k s -> parse_angle (s :: r) = None.
Proof. intros (d & -> & _). reflexivity. Qed.
Ltac read_font :=
  match goal with
  | H : spells ?k ?s |- _ =>
    repeat progress (open_font; kw k H;
      rewrite ?(percent_spells k s _ H), ?(length_spells k s _ H), ?(integer_spells k s _ H); cbn beta iota; rewrite ?kw_end)
  end.

Lemma weight_reads w z : weight_is w z -> starts_plain w /\ forall r, parse_weight (w ++ r)%list = (Some (Weight z), r).
Proof.
  intros [w' (s & -> & H)|w' (s & -> & H)|w' z' H Hz].
  - split; [apply (spells_plain "normal" s [] H); vm_compute; reflexivity|]. intros r. cbn [app]. read_font. reflexivity.
  - split; [apply (spells_plain "bold" s [] H); vm_compute; reflexivity|]. intros r. cbn [app]. read_font. reflexivity.
  - destruct (integer_reads _ _ H) as (t & -> & Ht & E). split; [apply number_plain; rewrite Ht; discriminate|]. intros r. cbn [app]. open_font.
    rewrite !kw_token by (rewrite Ht; discriminate). rewrite E.
    replace (z' <? 0)%Z with false by (symmetry; apply Z.ltb_ge; lia). now replace (1000 <? z')%Z with false by (symmetry; apply Z.ltb_ge; lia).
Qed.

(** ** Widths *)
Lemma percentage_reads d : decimal_ok d -> exists q, q == decimal_value d /\ forall r, parse_percent (percentage d :: r) = Some (q, r).
Proof.
  intros O. destruct (atof_show d [37%N] O) as (q & E & Hq); [split; [reflexivity|discriminate]|]. exists q. split; [exact Hq|].
  intros r. unfold percentage. cbn [parse_percent t_type t_data ttype_beq]. now rewrite E.
Qed.
Lemma percentage_plain d r : starts_plain (percentage d :: r).
Proof. apply number_plain; discriminate. Qed.
Lemma width_reads w q : width_is w q -> starts_plain w /\ exists q', q' == q /\ forall r, parse_width (w ++ r)%list = (Some (Width q'), r).
Proof.
  intros [k q' w' Hk (s & -> & H)|d O].
  - cbn [width_keywords In] in Hk. repeat destruct Hk as [Hk|Hk]; try contradiction; injection Hk as <- <-;
      (split; [eapply (spells_plain _ s [] H); vm_compute; reflexivity|]);
      (eexists; split; [|intros r; cbn [app]; read_font; reflexivity]); reflexivity.
  - split; [apply percentage_plain|]. destruct (percentage_reads d O) as (q' & Hq & E). exists q'. split; [exact Hq|]. intros r. cbn [app].
    open_font. unfold percentage at 1. rewrite kw_token by discriminate. fold (percentage d). now rewrite E.
Qed.

(** ** Styles *)
Lemma style_reads k s r : In k ["normal"; "italic"] -> spells k s -> starts_plain [s] /\ parse_style (s :: r) = (Some (Slant k), r).
Proof.
  intros Hk H. cbn [In] in Hk. destruct Hk as [<-|[<-|[]]]; (split; [eapply (spells_plain _ s [] H); vm_compute; reflexivity|]); read_font; reflexivity.
Qed.
Lemma oblique_reads s r : spells "oblique" s -> starts_plain (s :: r) /\
  parse_style (s :: r) = match parse_angle r with Some (q, u, r') => (Some (Oblique q u), r') | None => (Some (Oblique 14 DEGREE), r) end.
Proof.
  intros H. split; [apply (spells_plain _ s r H); vm_compute; reflexivity|]. read_font. reflexivity.
Qed.
Lemma angle_stops u s : unit_text angle_units u s -> Number.stops s.
Proof. apply (unit_stops angle_units). reflexivity. Qed.
Lemma angle_lookup u s : unit_text angle_units u s -> angle_unit_of s = Some u.
Proof.
  intros (n & I & E). unfold angle_unit_of. rewrite !(eq_ci_sym s), !(eq_ci_subst n _ s E).
  cbn [angle_units In] in I. intuition; match goal with H : (_, _) = _ |- _ => injection H as <- <-; reflexivity end.
Qed.
Lemma angle_reads d u s : decimal_ok d -> unit_text angle_units u s ->
  exists q, q == decimal_value d /\ forall r, parse_angle (dim d s :: r) = Some (q, u, r).
Proof.
  intros O T. destruct (dimension_show d s O (angle_stops u s T)) as (q & E & Hq). exists q. split; [exact Hq|].
  intros r. unfold parse_angle, dim. cbn [t_type t_data ttype_beq]. now rewrite E, (angle_lookup u s T).
Qed.

(** ** Sizes *)
Lemma absolute_reads d u s : decimal_ok d -> unit_text aunits u s ->
  exists q, q == decimal_value d /\ forall r, parse_size (dim d s :: r) = (Some (Size (SLen (Abs q u))), r).
Proof.
  intros O T. destruct (C16_parse_absolute d u s [] O T) as (q & E & Hq). exists q. split; [exact Hq|]. intros r.
  destruct (C16_parse_absolute d u s r O T) as (q' & E' & _).
  assert (q' = q) as ->; [|unfold parse_size, orelse, lift; now rewrite E'].
  unfold parse_length, dim in E, E'. cbn [skip_tok t_type t_data] in E, E'. unfold token_eqb in E, E'. cbn [t_type number_zero ttype_beq andb] in E, E'.
  destruct (dimension _) as [x y]. destruct (value_of_ci aunits y); [|destruct (value_of_ci runits y); discriminate]. congruence.
Qed.
Lemma relative_reads d u s : decimal_ok d -> unit_text runits u s ->
  exists q, q == decimal_value d /\ forall r, parse_size (dim d s :: r) = (Some (Size (SLen (Rel q u))), r).
Proof.
  intros O T. destruct (C16_parse_relative d u s [] O T) as (q & E & Hq). exists q. split; [exact Hq|]. intros r.
  destruct (C16_parse_relative d u s r O T) as (q' & E' & _).
  assert (q' = q) as ->; [|unfold parse_size, orelse, lift; now rewrite E'].
  unfold parse_length, dim in E, E'. cbn [skip_tok t_type t_data] in E, E'. unfold token_eqb in E, E'. cbn [t_type number_zero ttype_beq andb] in E, E'.
  destruct (dimension _) as [x y]. destruct (value_of_ci aunits y); [discriminate|]. destruct (value_of_ci runits y); [|discriminate]. congruence.
Qed.
Lemma dim_plain d s r : starts_plain (dim d s :: r).
Proof. apply number_plain; discriminate. Qed.
Lemma size_percent_reads d : decimal_ok d -> exists q, q == decimal_value d /\ forall r, parse_size (percentage d :: r) = (Some (Size (SPct q)), r).
Proof.
  intros O. destruct (percentage_reads d O) as (q & Hq & E). exists q. split; [exact Hq|]. intros r. unfold parse_size, orelse, lift.
  change (parse_length (percentage d :: r)) with (@None (length * list sst)). cbn beta iota. now rewrite E.
Qed.
Lemma size_keyword_reads k s r : In k ("smaller" :: "larger" :: absolute_sizes) -> spells k s ->
  starts_plain [s] /\ parse_size (s :: r) = (Some (Size (SKey k)), r).
Proof.
  intros Hk H. cbn [In absolute_sizes] in Hk. repeat destruct Hk as [Hk|Hk]; try contradiction; subst k;
    (split; [eapply (spells_plain _ s [] H); vm_compute; reflexivity|]); read_font; reflexivity.
Qed.

(** ** The shorthand *)
Definition skips {A} (p : list sst -> option A * list sst) (w : list sst) : Prop := forall r, p (w ++ r)%list = (None, (w ++ r)%list).
Definition takes {A} (p : list sst -> option A * list sst) (w : list sst) (v : A) : Prop := forall r, p (w ++ r)%list = (Some v, r).

Lemma part_token k w : part_is k w -> exists t, w = [TOK t] /\ (t_type t = IDENT \/ t_type t = NUMBER).
Proof.
  intros [k' w' _ (s & -> & d & -> & _)|k' w' _ (s & -> & d & -> & _)|w' z H _|k' q w' _ _ (s & -> & d & -> & _)|w' (s & -> & d & -> & _)];
    try (eexists; split; [reflexivity|]; cbn; now left).
  destruct (integer_reads _ _ H) as (t & -> & Ht & _). eauto.
Qed.
Lemma part_angle k w r : part_is k w -> parse_angle (w ++ r)%list = None.
Proof. intros H. destruct (part_token _ _ H) as (t & -> & [E|E]); cbn [app parse_angle]; now rewrite E. Qed.
Lemma part_plain k w r : part_is k w -> starts_plain (w ++ r)%list.
Proof.
  intros [k' w' Hk (s & -> & H)|k' w' Hk (s & -> & H)|w' z H _|k' q w' Hk _ (s & -> & H)|w' (s & -> & H)].
  - cbn [In] in Hk. destruct Hk as [<-|[<-|[]]]; apply (spells_plain _ s r H); vm_compute; reflexivity.
  - cbn [In] in Hk. destruct Hk as [<-|[<-|[<-|[]]]]; apply (spells_plain _ s r H); vm_compute; reflexivity.
  - destruct (integer_reads _ _ H) as (t & -> & Ht & _). apply number_plain; rewrite Ht; discriminate.
  - cbn [width_keywords In] in Hk. repeat destruct Hk as [Hk|Hk]; try contradiction; injection Hk as <- <-; apply (spells_plain _ s r H); vm_compute; reflexivity.
  - apply (spells_plain _ s r H); vm_compute; reflexivity.
Qed.

Lemma part_style_reads w : part_is "font-style" w -> exists v, forall r, parse_angle r = None -> parse_style (w ++ r)%list = (Some v, r).
Proof.
  inversion 1 as [k w' Hk (s & -> & Hs)| | | |]; subst. cbn [In] in Hk. destruct Hk as [<-|[<-|[]]].
  - exists (Slant "italic"). intros r _. cbn [app]. read_font. reflexivity.
  - exists (Oblique 14 DEGREE). intros r Hr. cbn [app]. rewrite (proj2 (oblique_reads s r Hs)), Hr. reflexivity.
Qed.
Lemma part_normal_reads w : part_is "normal" w -> takes parse_style w (Slant "normal").
Proof. inversion 1 as [| | | |w' (s & -> & Hs)]; subst. intros r. cbn [app]. read_font. reflexivity. Qed.
Lemma part_weight_reads w : part_is "font-weight" w -> exists v, skips parse_style w /\ takes parse_weight w v.
Proof.
  inversion 1 as [|k w' Hk (s & -> & Hs)|w' z Hz Hr| |]; subst.
  - cbn [In] in Hk. destruct Hk as [<-|[<-|[<-|[]]]]; eexists; (split; intros r; cbn [app]; read_font; reflexivity).
  - exists (Weight z). split.
    + destruct (integer_reads _ _ Hz) as (t & -> & Ht & E). intros r. cbn [app]. open_font. rewrite !kw_token by (rewrite Ht; discriminate). reflexivity.
    + intros r. apply (weight_reads w z). now constructor.
Qed.
Lemma part_width_reads w : part_is "font-width" w -> exists v, skips parse_style w /\ skips parse_weight w /\ takes parse_width w v.
Proof.
  inversion 1 as [| | |k q w' Hk Hn (s & -> & Hs)|]; subst. cbn [width_keywords In] in Hk. repeat destruct Hk as [Hk|Hk]; try contradiction; injection Hk as <- <-;
    try contradiction; eexists; (split; [|split]); intros r; cbn [app]; read_font; reflexivity.
Qed.

Lemma length_angle w r : length_text w -> parse_angle (w ++ r)%list = None.
Proof.
  intros [d u s O T|d u s O T]; cbn [app]; unfold parse_angle, dim; cbn [t_type t_data ttype_beq].
  - destruct (dimension_show d s O) as (q & E & _); [now apply (unit_stops aunits u)|]. rewrite E.
    destruct T as (n & I & C). unfold angle_unit_of. rewrite !(eq_ci_sym s), !(eq_ci_subst n _ s C).
    cbn [aunits In] in I. intuition; match goal with H : (_, _) = _ |- _ => injection H as <- <-; reflexivity end.
  - destruct (dimension_show d s O) as (q & E & _); [now apply (unit_stops runits u)|]. rewrite E.
    destruct T as (n & I & C). unfold angle_unit_of. rewrite !(eq_ci_sym s), !(eq_ci_subst n _ s C).
    cbn [runits In] in I. intuition; match goal with H : (_, _) = _ |- _ => injection H as <- <-; reflexivity end.
Qed.
Lemma size_reads w : size_part w -> exists v, skips parse_style w /\ skips parse_weight w /\ skips parse_width w /\
  takes parse_size w (Size v) /\ (forall r, parse_angle (w ++ r)%list = None) /\ forall r, starts_plain (w ++ r)%list.
Proof.
  intros [w' H|k w' Hk (s & -> & H)].
  - assert (X : exists v, takes parse_size w' (Size v)).
    { destruct H as [d u s O T|d u s O T].
      - destruct (absolute_reads d u s O T) as (q & _ & E). eexists. exact E.
      - destruct (relative_reads d u s O T) as (q & _ & E). eexists. exact E. }
    destruct X as (v & X). exists v. pose proof (length_angle w') as Y.
    assert (exists d s, w' = [dim d s]) as (d & s & ->) by (destruct H; eauto).
    split; [|split; [|split; [|split; [|split]]]].
    + intros r. cbn [app]. open_font. unfold dim. repeat (cbn beta iota; rewrite kw_token by discriminate). reflexivity.
    + intros r. cbn [app]. open_font. unfold dim. repeat (cbn beta iota; rewrite kw_token by discriminate). reflexivity.
    + intros r. cbn [app]. open_font. unfold dim. repeat (cbn beta iota; rewrite kw_token by discriminate). reflexivity.
    + exact X.
    + intros r. now apply Y.
    + intros r. apply dim_plain.
  - exists (SKey k). cbn [In absolute_sizes] in Hk. repeat destruct Hk as [Hk|Hk]; try contradiction; subst k;
    (split; [|split; [|split; [|split; [|split]]]]; intros r; cbn [app];
     [read_font; reflexivity|read_font; reflexivity|read_font; reflexivity|read_font; reflexivity|now apply (angle_spells _ s r H)|
      apply (spells_plain _ s r H); vm_compute; reflexivity]).
Qed.

Definition absent (k : string) (parts : list (string * list sst)) : Prop := ~ In k (map fst parts).
Lemma loop_reads z zv tail : skips parse_style z -> skips parse_weight z -> skips parse_width z -> takes parse_size z zv ->
  (forall r, parse_angle (z ++ r)%list = None) ->
  forall parts fuel st we wi, (List.length parts < fuel)%nat -> Forall (fun x => part_is (fst x) (snd x)) parts ->
  exists st' we' wi', font_loop fuel st we wi (concat (map snd parts) ++ z ++ tail)%list = (Some (st', we', wi', zv), tail) /\
    (st = Slant "normal" -> absent "font-style" parts -> st' = Slant "normal") /\ (absent "font-style" parts -> absent "normal" parts -> st' = st) /\
    (forall a w b, parts = (a ++ ("font-style", w) :: b)%list -> absent "font-style" b -> absent "normal" b -> parse_style w = (Some st', [])) /\
    (absent "font-weight" parts -> we' = we) /\
    (forall a w b, parts = (a ++ ("font-weight", w) :: b)%list -> absent "font-weight" b -> exists v, we' = Some v /\ parse_weight w = (Some v, [])) /\
    (absent "font-width" parts -> wi' = wi) /\
    (forall a w b, parts = (a ++ ("font-width", w) :: b)%list -> absent "font-width" b -> parse_width w = (Some wi', [])).
Proof.
  intros S1 S2 S3 T A. induction parts as [|[k w] parts IH]; intros fuel st we wi Hf HF.
  - destruct fuel as [|fuel]; [cbn in Hf; lia|]. exists st, we, wi. cbn [map concat app font_loop]. rewrite S1, S2, S3, T.
    split; [reflexivity|]. repeat split; auto; intros a w b E; destruct a; discriminate.
  - destruct fuel as [|fuel]; [cbn in Hf; lia|]. cbn [List.length] in Hf. inversion HF as [|? ? Hk HF']; subst. cbn [fst snd] in Hk.
    cbn [map concat snd]. rewrite <- app_assoc. set (rest := (concat (map snd parts) ++ z ++ tail)%list) in *.
    assert (Hrest : parse_angle rest = None).
    { unfold rest. destruct parts as [|[k' w'] parts]; [apply A|]. inversion HF' as [|? ? Hk' _]; subst. cbn [map concat snd fst] in *.
      rewrite <- app_assoc. now apply (part_angle k'). }
    assert (Hkind : (k = "font-style" /\ part_is "font-style" w) \/ (k = "normal" /\ part_is "normal" w) \/ (k = "font-weight" /\ part_is "font-weight" w) \/
                    (k = "font-width" /\ part_is "font-width" w)).
    { pose proof Hk as Hk'. inversion Hk; subst; auto 6. }
    cbn [font_loop]. destruct Hkind as [(-> & Hp)|[(-> & Hp)|[(-> & Hp)|(-> & Hp)]]].
    + destruct (part_style_reads _ Hp) as (v & E). rewrite (E rest Hrest).
      destruct (IH fuel v we wi ltac:(lia) HF') as (st' & we' & wi' & E1 & P1 & P2 & P3 & P4 & P5 & P6 & P7).
      exists st', we', wi'. split; [exact E1|]. split; [|split; [|split; [|split; [|split; [|split]]]]].
      * intros _ Hn. exfalso. apply Hn. now left.
      * intros Hn. exfalso. apply Hn. now left.
      * intros [|x a] w' b Eq Hb1 Hb2; [injection Eq as <- <-|injection Eq as _ Eq; now eauto].
        rewrite (P2 Hb1 Hb2). specialize (E [] eq_refl). now rewrite app_nil_r in E.
      * intros Hn. apply P4. intros X. apply Hn. now right.
      * intros [|x a] w' b Eq Hb; [discriminate|]. injection Eq as _ Eq. eauto.
      * intros Hn. apply P6. intros X. apply Hn. now right.
      * intros [|x a] w' b Eq Hb; [discriminate|]. injection Eq as _ Eq. eauto.
    + pose proof (part_normal_reads _ Hp rest) as E. rewrite E.
      destruct (IH fuel (Slant "normal") we wi ltac:(lia) HF') as (st' & we' & wi' & E1 & P1 & P2 & P3 & P4 & P5 & P6 & P7).
      exists st', we', wi'. split; [exact E1|]. split; [|split; [|split; [|split; [|split; [|split]]]]].
      * intros _ Hn. apply P1; [reflexivity|]. intros X. apply Hn. now right.
      * intros _ Hn. exfalso. apply Hn. now left.
      * intros [|x a] w' b Eq Hb1 Hb2; [discriminate|]. injection Eq as _ Eq. eauto.
      * intros Hn. apply P4. intros X. apply Hn. now right.
      * intros [|x a] w' b Eq Hb; [discriminate|]. injection Eq as _ Eq. eauto.
      * intros Hn. apply P6. intros X. apply Hn. now right.
      * intros [|x a] w' b Eq Hb; [discriminate|]. injection Eq as _ Eq. eauto.
    + destruct (part_weight_reads _ Hp) as (v & Es & E). rewrite Es, E.
      destruct (IH fuel st (Some v) wi ltac:(lia) HF') as (st' & we' & wi' & E1 & P1 & P2 & P3 & P4 & P5 & P6 & P7).
      exists st', we', wi'. split; [exact E1|]. split; [|split; [|split; [|split; [|split; [|split]]]]].
      * intros Hs Hn. apply P1; [exact Hs|]. intros X. apply Hn. now right.
      * intros Hn Hn'. apply P2; intros X; [apply Hn|apply Hn']; now right.
      * intros [|x a] w' b Eq Hb1 Hb2; [discriminate|]. injection Eq as _ Eq. eauto.
      * intros Hn. exfalso. apply Hn. now left.
      * intros [|x a] w' b Eq Hb; [injection Eq as <- <-|injection Eq as _ Eq; now eauto].
        exists v. split; [now apply P4|]. specialize (E []). now rewrite app_nil_r in E.
      * intros Hn. apply P6. intros X. apply Hn. now right.
      * intros [|x a] w' b Eq Hb; [discriminate|]. injection Eq as _ Eq. eauto.
    + destruct (part_width_reads _ Hp) as (v & Es & Ew & E). rewrite Es, Ew, E.
      destruct (IH fuel st we v ltac:(lia) HF') as (st' & we' & wi' & E1 & P1 & P2 & P3 & P4 & P5 & P6 & P7).
      exists st', we', wi'. split; [exact E1|]. split; [|split; [|split; [|split; [|split; [|split]]]]].
      * intros Hs Hn. apply P1; [exact Hs|]. intros X. apply Hn. now right.
      * intros Hn Hn'. apply P2; intros X; [apply Hn|apply Hn']; now right.
      * intros [|x a] w' b Eq Hb1 Hb2; [discriminate|]. injection Eq as _ Eq. eauto.
      * intros Hn. apply P4. intros X. apply Hn. now right.
      * intros [|x a] w' b Eq Hb; [discriminate|]. injection Eq as _ Eq. eauto.
      * intros Hn. exfalso. apply Hn. now left.
      * intros [|x a] w' b Eq Hb; [injection Eq as <- <-|injection Eq as _ Eq; now eauto].
        rewrite (P6 Hb). specialize (E []). now rewrite app_nil_r in E.
Qed.

Lemma line_reads l f : line_part l -> (exists t f', f = TOK t :: f' /\ t_type t <> DELIM) ->
  match skip_tok slash (l ++ f)%list with Some r => snd (parse_line_height r) | None => (l ++ f)%list end = f.
Proof.
  intros H (t & f' & -> & Ht). assert (B : forall r, skip_tok slash (TOK (mkT DELIM [47%N]) :: r) = Some r) by reflexivity.
  destruct H as [|s H|d O|d O|w H]; cbn [app]; rewrite ?B.
  - cbn [skip_tok]. unfold token_eqb. cbn [slash t_type]. destruct (t_type t); try reflexivity. contradiction.
  - unfold parse_line_height. kw "normal" H. reflexivity.
  - destruct (atof_show d [] O Logic.I) as (q & E & _). rewrite app_nil_r in E. unfold parse_line_height. rewrite kw_token by discriminate.
    cbn [parse_number t_type t_data ttype_beq]. now rewrite E.
  - unfold parse_line_height. unfold percentage at 1. rewrite kw_token by discriminate. destruct (percentage_reads d O) as (q & _ & E).
    unfold lift, parse_percent_or. change (parse_number (percentage d :: TOK t :: f')) with (@None Q, percentage d :: TOK t :: f'). cbn beta iota.
    now rewrite E.
  - unfold parse_line_height. assert (exists d s, w = [dim d s] /\ exists x, parse_length (dim d s :: TOK t :: f') = Some (x, TOK t :: f')) as (d & s & -> & x & E).
    { destruct H as [d u s O T|d u s O T].
      - destruct (C16_parse_absolute d u s (TOK t :: f') O T) as (q & E & _). eauto.
      - destruct (C16_parse_relative d u s (TOK t :: f') O T) as (q & E & _). eauto. }
    cbn [app]. unfold dim at 1. rewrite kw_token by discriminate. unfold lift, parse_percent_or.
    change (parse_number (dim d s :: TOK t :: f')) with (@None Q, dim d s :: TOK t :: f'). cbn beta iota.
    change (parse_percent (dim d s :: TOK t :: f')) with (@None (Q * list sst)). cbn beta iota. now rewrite E.
Qed.

Lemma font_reads parts z l f s : Forall (fun x => part_is (fst x) (snd x)) parts -> size_part z -> line_part l -> family_is f s ->
  exists st we wi zv, parse_font (concat (map snd parts) ++ z ++ l ++ f)%list = (Some (Font [s] we wi st (Size zv)), []) /\
    parse_size z = (Some (Size zv), []) /\ parse_families f = (Some (Families [s]), []) /\
    (absent "font-style" parts -> st = Slant "normal") /\
    (forall a w b, parts = (a ++ ("font-style", w) :: b)%list -> absent "font-style" b -> absent "normal" b -> parse_style w = (Some st, [])) /\
    (absent "font-weight" parts -> we = None) /\
    (forall a w b, parts = (a ++ ("font-weight", w) :: b)%list -> absent "font-weight" b -> exists v, we = Some v /\ parse_weight w = (Some v, [])) /\
    (absent "font-width" parts -> wi = Width 100) /\
    (forall a w b, parts = (a ++ ("font-width", w) :: b)%list -> absent "font-width" b -> parse_width w = (Some wi, [])).
Proof.
  intros HF Hz Hl Hs. destruct (size_reads _ Hz) as (zv & S1 & S2 & S3 & T & A & _).
  destruct (loop_reads z (Size zv) (l ++ f)%list S1 S2 S3 T A parts (S (List.length (concat (map snd parts) ++ z ++ l ++ f)%list)) (Slant "normal") None (Width 100))
    as (st & we & wi & E & P1 & P2 & P3 & P4 & P5 & P6 & P7).
  - assert (X : (List.length parts <= List.length (concat (map snd parts)))%nat).
    { clear -HF. induction HF as [|[k w] parts Hk _ IH]; [cbn; lia|]. destruct (part_token _ _ Hk) as (t & E & _). cbn [snd] in E.
      subst w. cbn [map snd concat app List.length]. lia. }
    rewrite app_length. lia.
  - exact HF.
  - exists st, we, wi, zv. split; [|split; [|split; [|split; [auto|auto 8]]]].
    + unfold parse_font. rewrite E. rewrite line_reads.
      * pose proof (family_reads f s [] Hs (or_introl eq_refl)) as F. rewrite app_nil_r in F. now rewrite F.
      * exact Hl.
      * destruct (family_head _ _ Hs) as (t & f' & -> & Ht). exists t, f'. split; [reflexivity|]. destruct Ht as [-> | ->]; discriminate.
    + specialize (T []). now rewrite app_nil_r in T.
    + apply families_read. now constructor.
Qed.
