(** C161-C170: fonts. *)
From Coq Require Import String List NArith ZArith QArith Bool Lia Lqa.
From Verif.Base Require Import Str Outcome.
From Verif.Css Require Import LexerModel ParserModel.
From Verif.Values Require Import CalcModel Number LengthModel LengthSpec LengthProps ColorModel ColorProofs.
From Verif.Style Require Import CascadeModel CascadeSpec.
From Verif.Props Require Import VarModel EngineModel EngineSpec EngineProofs2 EngineProofs3 BoxPropModel BoxPropSpec LonghandModel LonghandSpec
  LonghandProofs LonghandProofs2.
From Verif.Font Require Import FontModel FontSpec FontProofs FontProofs2.
Import ListNotations.
Local Open Scope list_scope.
Local Open Scope string_scope.

Section Fonts.
Context {Face : Type}
        (lighter bolder : Z -> Z) (rnd : Q -> Q)
        (query : str -> Z * Z * string -> option Face) (system : option Face) (fallback : Face)
        (stretch : Q -> Z) (metrics_of : Face -> Q -> metrics) (base : ctx) (V_eqb : V -> V -> bool).
Local Notation G := (font_registry lighter bolder rnd query system fallback stretch metrics_of base).
Local Notation compute := (compute lighter bolder rnd query system fallback stretch metrics_of base).
Local Notation compute_val := (compute_val lighter bolder rnd query system fallback stretch metrics_of base).
Local Notation longs := (font_longs lighter bolder rnd query system fallback stretch metrics_of base).
Local Notation font_long := (font_long lighter bolder rnd query system fallback stretch metrics_of base).
Local Notation matched := (matched V field).
Local Notation counted := (counted lighter bolder rnd query system fallback stretch metrics_of base V_eqb).
Local Notation unsaid := (unsaid lighter bolder rnd query system fallback stretch metrics_of base V_eqb).
Local Notation from_sheet := (from_sheet lighter bolder rnd query system fallback stretch metrics_of base).
Local Notation declares := (declares lighter bolder rnd query system fallback stretch metrics_of base).
Local Notation compute_values := (compute_values V_eqb).
Local Notation style_element := (style_element V_eqb).

Lemma family_in : In (font_long "font-family" (Families [of_string "sans-serif"]) parse_families) longs.
Proof. cbn [font_longs In]. auto. Qed.
Lemma weight_reg : In (font_long "font-weight" (Weight 400) parse_weight) longs.
Proof. cbn [font_longs In]. auto. Qed.
Lemma width_in : In (font_long "font-width" (Width 100) parse_width) longs.
Proof. cbn [font_longs In]. auto. Qed.
Lemma style_reg : In (font_long "font-style" (Slant "normal") parse_style) longs.
Proof. cbn [font_longs In]. auto 6. Qed.
Lemma size_in : In (font_long "font-size" (Size (SKey "medium")) parse_size) longs.
Proof. cbn [font_longs In]. auto 8. Qed.

Lemma value_of n i p content v parent c : In (font_long n i p) longs -> counted n n content parent c ->
  starts_plain content -> p content = (Some v, []) -> c_get c n = Value (compute v parent).
Proof.
  intros Hin. apply (font_value lighter bolder rnd query system fallback stretch metrics_of base V_eqb n n i p content v parent c Hin).
  exact (font_resolve lighter bolder rnd query system fallback stretch metrics_of base _ (font_in lighter bolder rnd query system fallback stretch metrics_of base _ Hin)).
Qed.

(** ** C161: families *)

(** The names of a declaration of families, in their order. Missing from the full claim: values
    that CSS does not allow are taken as well, see below. *)
Theorem C161_families_partial : forall w l parent c, families_are w l -> starts_plain w ->
  counted "font-family" "font-family" w parent c -> c_get c "font-family" = Value (Families l).
Proof.
  intros w l parent c Hw Hp Hc. exact (value_of _ _ _ w (Families l) parent c family_in Hc Hp (families_read w l Hw)).
Qed.

(** Two names without a comma between them are taken like two with one. *)
Theorem C161_no_comma_refuted : forall s s' parent c,
  counted "font-family" "font-family" [TOK (mkT STRING s); TOK (mkT STRING s')] parent c ->
  (forall l, ~ families_are [TOK (mkT STRING s); TOK (mkT STRING s')] l) /\ c_get c "font-family" = Value (Families [s; s']).
Proof.
  intros s s' parent c Hc. split.
  - intros l H. inversion H as [w x Hx Ew|w x ws l' Hx Hl Ew]; subst.
    + inversion Hx as [x' E|d ds E].
    + inversion Hx; subst; cbn in Ew; discriminate.
  - apply (value_of _ _ _ [TOK (mkT STRING s); TOK (mkT STRING s')] (Families [s; s']) parent c family_in Hc); [|reflexivity].
    apply number_plain; discriminate.
Qed.

(** ** C162: weights *)

Theorem C162_weight_partial : forall parent c,
  (forall w z, weight_is w z -> counted "font-weight" "font-weight" w parent c -> c_get c "font-weight" = Value (Weight z)) /\
  (forall s z, spells "bolder" s -> c_get parent "font-weight" = Value (Weight z) -> counted "font-weight" "font-weight" [s] parent c ->
     c_get c "font-weight" = Value (Weight (bolder z))) /\
  (forall s z, spells "lighter" s -> c_get parent "font-weight" = Value (Weight z) -> counted "font-weight" "font-weight" [s] parent c ->
     c_get c "font-weight" = Value (Weight (lighter z))).
Proof.
  intros parent c. split; [|split].
  - intros w z Hw Hc. destruct (weight_reads w z Hw) as [Hp E]. specialize (E []). rewrite app_nil_r in E.
    exact (value_of _ _ _ w (Weight z) parent c weight_reg Hc Hp E).
  - intros s z Hs Hz Hc. rewrite (value_of _ _ _ [s] Bolder parent c weight_reg Hc).
    + cbn [FontModel.compute]. unfold weight_in. now rewrite Hz.
    + apply (spells_plain "bolder" s [] Hs). vm_compute. reflexivity.
    + read_font. reflexivity.
  - intros s z Hs Hz Hc. rewrite (value_of _ _ _ [s] Lighter parent c weight_reg Hc).
    + cbn [FontModel.compute]. unfold weight_in. now rewrite Hz.
    + apply (spells_plain "lighter" s [] Hs). vm_compute. reflexivity.
    + read_font. reflexivity.
Qed.

(** CSS allows numbers from 1 to 1000, and these need not be integers. Here 0 is a weight, and of
    a number with a fraction nothing is taken: the weight is that of the parent. *)
Theorem C162_range_refuted : forall parent c,
  (forall w, integer_is w 0 -> counted "font-weight" "font-weight" w parent c -> c_get c "font-weight" = Value (Weight 0)) /\
  (forall d, decimal_ok d -> d_frac d <> [] -> counted "font-weight" "font-weight" [TOK (mkT NUMBER (show_decimal d))] parent c ->
     c_get c "font-weight" = c_get parent "font-weight").
Proof.
  intros parent c. split.
  - intros w Hw Hc. destruct (integer_reads _ _ Hw) as (t & -> & Ht & E).
    apply (value_of _ _ _ [TOK t] (Weight 0) parent c weight_reg Hc).
    + apply number_plain; rewrite Ht; discriminate.
    + open_font. rewrite !kw_token by (rewrite Ht; discriminate). now rewrite E.
  - intros d O Hf Hc.
    assert (E : fst (parse_weight [TOK (mkT NUMBER (show_decimal d))]) = None).
    { open_font. rewrite !kw_token by discriminate. cbn [parse_integer t_type t_data ttype_beq].
      assert (X : exists z r, atoi (show_decimal d) = Some (z, 46%N :: r) \/ atoi (show_decimal d) = None).
      { unfold atoi. destruct O as (Hn & Hi & Hfr). pose proof (sign_show d [] (conj Hn (conj Hi Hfr))) as S1. rewrite app_nil_r in S1. rewrite S1.
        cbn [fst snd]. destruct (d_frac d) as [|f fs] eqn:Ef; [contradiction|].
        rewrite app_nil_r. rewrite digits_show by (try assumption; split; reflexivity).
        destruct (d_int d); [contradiction|]. eexists _, _. left. reflexivity. }
      destruct X as (z & r & [-> | ->]); reflexivity. }
    rewrite (font_deferred lighter bolder rnd query system fallback stretch metrics_of base V_eqb _ _ _ _ parent c weight_reg Hc).
    + now rewrite E.
    + apply number_plain; discriminate.
    + reflexivity.
    + intros v c' X. rewrite X in E. discriminate.
Qed.

(** ** C163: widths *)

(** Under either name of the property. *)
Theorem C163_width : forall n w q parent c, In n ["font-width"; "font-stretch"] -> width_is w q ->
  counted "font-width" n w parent c -> exists q', c_get c "font-width" = Value (Width q') /\ q' == q.
Proof.
  intros n w q parent c Hn Hw Hc. destruct (width_reads w q Hw) as (Hp & q' & Hq & E). specialize (E []). rewrite app_nil_r in E.
  exists q'. split; [|exact Hq].
  apply (font_value lighter bolder rnd query system fallback stretch metrics_of base V_eqb "font-width" n _ _ w (Width q') parent c width_in); [|exact Hc|exact Hp|exact E].
  destruct Hn as [<-|[<-|[]]]; reflexivity.
Qed.

(** ** C164: styles *)

(** An oblique style without an angle has one of 14 degrees. *)
Theorem C164_style : forall parent c,
  (forall k s, In k ["normal"; "italic"] -> spells k s -> counted "font-style" "font-style" [s] parent c -> c_get c "font-style" = Value (Slant k)) /\
  (forall s, spells "oblique" s -> counted "font-style" "font-style" [s] parent c -> c_get c "font-style" = Value (Oblique 14 DEGREE)) /\
  (forall s d u t, spells "oblique" s -> decimal_ok d -> unit_text angle_units u t -> counted "font-style" "font-style" [s; dim d t] parent c ->
     exists q, c_get c "font-style" = Value (Oblique q u) /\ q == decimal_value d).
Proof.
  intros parent c. split; [|split].
  - intros k s Hk Hs Hc. destruct (style_reads k s [] Hk Hs) as [Hp E]. exact (value_of _ _ _ [s] (Slant k) parent c style_reg Hc Hp E).
  - intros s Hs Hc. destruct (oblique_reads s [] Hs) as [Hp E]. exact (value_of _ _ _ [s] (Oblique 14 DEGREE) parent c style_reg Hc Hp E).
  - intros s d u t Hs O T Hc. destruct (oblique_reads s [dim d t] Hs) as [Hp E]. destruct (angle_reads d u t O T) as (q & Hq & Ea). rewrite Ea in E.
    exists q. split; [|exact Hq]. exact (value_of _ _ _ [s; dim d t] (Oblique q u) parent c style_reg Hc Hp E).
Qed.

(** ** C165: sizes *)

Lemma size_value content s parent c : counted "font-size" "font-size" content parent c -> starts_plain content ->
  parse_size content = (Some (Size s), []) ->
  has_size c (resolve_size rnd query system fallback stretch metrics_of base s parent).
Proof.
  intros Hc Hp E. eexists. split; [exact (value_of _ _ _ content (Size s) parent c size_in Hc Hp E)|]. reflexivity.
Qed.
Lemma has_size_of c q : has_size c q -> size_of c == q.
Proof. intros (q' & E & Hq). unfold size_of. now rewrite E. Qed.
Lemma has_size_eq c q q' : q == q' -> has_size c q -> has_size c q'.
Proof. intros H (x & E & Hx). exists x. split; [exact E|]. now rewrite Hx. Qed.

(** Lengths, and percentages of the size of the parent. Missing from the full claim: the other
    relative units, and the values of the theorem below. *)
Theorem C165_size_partial : forall d parent c, rounding rnd -> decimal_ok d ->
  (forall u s, unit_text aunits u s -> counted "font-size" "font-size" [dim d s] parent c ->
     exists x, same_distance x (decimal_value d) u /\ has_size c (rnd x)) /\
  (forall s z, unit_text runits EM s -> has_size parent z -> counted "font-size" "font-size" [dim d s] parent c ->
     has_size c (rnd (decimal_value d * z))) /\
  (forall s, unit_text runits REM s -> counted "font-size" "font-size" [dim d s] parent c ->
     has_size c (rnd (decimal_value d * cx_rfont base))) /\
  (forall z, has_size parent z -> counted "font-size" "font-size" [percentage d] parent c ->
     has_size c (rnd (decimal_value d / 100 * z))).
Proof.
  intros d parent c R O. split; [|split; [|split]].
  - intros u s T Hc. destruct (absolute_reads d u s O T) as (q & Hq & E). exists (pixels q u). split.
    + pose proof (C16_absolute q u) as H. unfold same_distance in *. rewrite H. unfold Qdiv. now rewrite Hq.
    + exact (size_value _ _ _ _ Hc (dim_plain d s []) (E [])).
  - intros s z T Hz Hc. destruct (relative_reads d EM s O T) as (q & Hq & E).
    apply (has_size_eq c (rnd (q * size_of parent))); [|exact (size_value _ _ _ _ Hc (dim_plain d s []) (E []))].
    apply rounding_eq; [exact R|]. now rewrite Hq, (has_size_of _ _ Hz).
  - intros s T Hc. destruct (relative_reads d REM s O T) as (q & Hq & E).
    apply (has_size_eq c (rnd (q * cx_rfont base))); [|exact (size_value _ _ _ _ Hc (dim_plain d s []) (E []))].
    apply rounding_eq; [exact R|]. now rewrite Hq.
  - intros z Hz Hc. destruct (size_percent_reads d O) as (q & Hq & E).
    apply (has_size_eq c (rnd (size_of parent * (q / 100)))); [|exact (size_value _ _ _ _ Hc (percentage_plain d []) (E []))].
    apply rounding_eq; [exact R|]. rewrite (has_size_of _ _ Hz). unfold Qdiv. rewrite Hq. ring.
Qed.

(** The words for sizes do not depend on the parent, [medium] is 16 pixels and each is larger than
    the one before; [larger] and [smaller] are relative to the parent. *)
Theorem C165_keywords : rounding rnd -> (forall z, rnd (inject_Z z) == inject_Z z) ->
  (forall s parent c, spells "medium" s -> counted "font-size" "font-size" [s] parent c -> has_size c 16) /\
  (forall a k b k' d s s' parent parent' c c', absolute_sizes = (a ++ k :: b ++ k' :: d)%list -> spells k s -> spells k' s' ->
     counted "font-size" "font-size" [s] parent c -> counted "font-size" "font-size" [s'] parent' c' ->
     exists q q', has_size c q /\ has_size c' q' /\ q < q') /\
  (forall s z parent c, spells "larger" s -> has_size parent z -> 0 <= z -> rnd z == z -> counted "font-size" "font-size" [s] parent c ->
     exists q, has_size c q /\ z <= q /\ q == rnd (z * (5 # 4))) /\
  (forall s z parent c, spells "smaller" s -> has_size parent z -> 0 <= z -> rnd z == z -> counted "font-size" "font-size" [s] parent c ->
     exists q, has_size c q /\ q <= z /\ q == rnd (z * (7 # 8))).
Proof.
  intros R W.
  assert (A : forall k s parent c, In k absolute_sizes -> spells k s -> counted "font-size" "font-size" [s] parent c ->
    exists z, has_size c (inject_Z z) /\ In (k, z) [("xx-small", 8); ("x-small", 12); ("small", 14); ("medium", 16); ("large", 18); ("x-large", 20); ("xx-large", 24)]%Z).
  { intros k s parent c Hk Hs Hc. destruct (size_keyword_reads k s [] (or_intror (or_intror Hk)) Hs) as [Hp E].
    pose proof (size_value _ _ _ _ Hc Hp E) as H.
    assert (B : forall x z, x == inject_Z z -> has_size c (rnd x) -> has_size c (inject_Z z)).
    { intros x z Hx. apply has_size_eq. rewrite <- (W z). now apply rounding_eq. }
    cbn [In absolute_sizes] in Hk. repeat destruct Hk as [Hk|Hk]; try contradiction; subst k;
      [exists 8%Z|exists 12%Z|exists 14%Z|exists 16%Z|exists 18%Z|exists 20%Z|exists 24%Z]; (split; [refine (B _ _ _ H); vm_compute; reflexivity|]); cbn; tauto. }
  split; [|split; [|split]].
  - intros s parent c Hs Hc. destruct (A "medium" s parent c ltac:(cbn; tauto) Hs Hc) as (z & Hz & Hin).
    cbn [In] in Hin. repeat destruct Hin as [Hin|Hin]; try contradiction; injection Hin as E; try discriminate. now subst z.
  - intros a k b k' d s s' parent parent' c c' E Hs Hs' Hc Hc'.
    destruct (A k s parent c) as (z & Hz & Hin); [rewrite E; apply in_or_app; right; now left|exact Hs|exact Hc|].
    destruct (A k' s' parent' c') as (z' & Hz' & Hin'); [rewrite E; apply in_or_app; right; right; apply in_or_app; right; now left|exact Hs'|exact Hc'|].
    exists (inject_Z z), (inject_Z z'). split; [exact Hz|]. split; [exact Hz'|]. rewrite <- Zlt_Qlt.
    clear -E Hin Hin'. unfold absolute_sizes in E.
    do 7 (destruct a as [|? a]; [cbn [app] in E; injection E as <- E;
      do 7 (destruct b as [|? b]; [cbn [app] in E; try discriminate; injection E as <- E; cbn [In] in Hin, Hin';
        repeat destruct Hin as [Hin|Hin]; try contradiction; try discriminate Hin; injection Hin as <-;
        repeat destruct Hin' as [Hin'|Hin']; try contradiction; try discriminate Hin'; injection Hin' as <-; lia
        |cbn [app] in E; try discriminate; injection E as _ E])
      |cbn [app] in E; injection E as _ E]); destruct a; discriminate.
  - intros s z parent c Hs Hz H0 Hr Hc. destruct (size_keyword_reads "larger" s [] ltac:(cbn; tauto) Hs) as [Hp E].
    pose proof (size_value _ _ _ _ Hc Hp E) as H. eexists. split; [exact H|]. cbn -[Qmult].
    assert (X : rnd (size_of parent * (5 # 4)) == rnd (z * (5 # 4))) by (apply rounding_eq; [exact R|]; now rewrite (has_size_of _ _ Hz)).
    split; [|exact X]. rewrite X, <- Hr at 1. apply R. lra.
  - intros s z parent c Hs Hz H0 Hr Hc. destruct (size_keyword_reads "smaller" s [] ltac:(cbn; tauto) Hs) as [Hp E].
    pose proof (size_value _ _ _ _ Hc Hp E) as H. eexists. split; [exact H|]. cbn -[Qmult].
    assert (X : rnd (size_of parent * (7 # 8)) == rnd (z * (7 # 8))) by (apply rounding_eq; [exact R|]; now rewrite (has_size_of _ _ Hz)).
    split; [|exact X]. rewrite X. rewrite <- Hr at 2. apply R. lra.
Qed.

(** [xxx-large] is not known, and nothing is calculated: the size is that of the parent. *)
Theorem C165_unknown_refuted : forall parent c,
  (forall s, spells "xxx-large" s -> counted "font-size" "font-size" [s] parent c -> c_get c "font-size" = c_get parent "font-size") /\
  (forall n args, token_eqb n toggle_name = false -> (forall e, expand_content e [FUNC n args] = Some [FUNC n args]) ->
     counted "font-size" "font-size" [FUNC n args] parent c -> c_get c "font-size" = c_get parent "font-size").
Proof.
  intros parent c. split.
  - intros s Hs Hc. assert (E : parse_size [s] = (None, [s])) by (read_font; reflexivity).
    rewrite (font_deferred lighter bolder rnd query system fallback stretch metrics_of base V_eqb _ _ _ _ parent c size_in Hc).
    + now rewrite E.
    + apply (spells_plain "xxx-large" s [] Hs). vm_compute. reflexivity.
    + intros e. now apply (expand_spells "xxx-large").
    + intros v c' X. rewrite E in X. discriminate.
  - intros n args Hn He Hc. assert (E : parse_size [FUNC n args] = (None, [FUNC n args])) by reflexivity.
    rewrite (font_deferred lighter bolder rnd query system fallback stretch metrics_of base V_eqb _ _ _ _ parent c size_in Hc).
    + now rewrite E.
    + split; [repeat constructor|]. split; [|discriminate]. intros n' a X. injection X as <- <-. exact Hn.
    + exact He.
    + intros v c' X. rewrite E in X. discriminate.
Qed.

(** ** C166: sizes compound *)

(** [scales ms f]: of an element with the declarations [ms], the size is [f] of that of the parent. *)
Inductive scales : list matched -> (Q -> Q) -> Prop :=
| scale_em l1 m l2 d s : decimal_ok d -> unit_text runits EM s -> declares "font-size" [dim d s] m -> counts "font-size" l1 m l2 ->
    scales (l1 ++ m :: l2)%list (fun z => rnd (decimal_value d * z))
| scale_percent l1 m l2 d : decimal_ok d -> declares "font-size" [percentage d] m -> counts "font-size" l1 m l2 ->
    scales (l1 ++ m :: l2)%list (fun z => rnd (decimal_value d / 100 * z))
| scale_silent ms : silent "font-size" ms -> scales ms (fun z => z).

Lemma scales_step blank parent ms c f z : rounding rnd -> from_sheet ms -> compute_values G blank parent ms = Ok c -> scales ms f ->
  has_size parent z -> has_size c (f z).
Proof.
  intros R Hs Hc Hf Hz. destruct Hf as [l1 m l2 d s O T Hd Hn|l1 m l2 d O Hd Hn|ms Hn].
  - apply (C165_size_partial d parent c R O) with (s := s); [exact T|exact Hz|]. exists blank, l1, m, l2. auto.
  - apply (C165_size_partial d parent c R O); [exact Hz|]. exists blank, l1, m, l2. auto.
  - destruct Hz as (q & E & Hq). exists q. split; [|exact Hq]. rewrite <- E.
    apply (font_silent lighter bolder rnd query system fallback stretch metrics_of base V_eqb blank parent c ms "font-size"); [cbn; tauto|exact Hs|exact Hc|exact Hn].
Qed.
Lemma scales_eq ms f x y : rounding rnd -> scales ms f -> x == y -> f x == f y.
Proof.
  intros R Hf H. destruct Hf; [apply rounding_eq; [exact R|]; now rewrite H|apply rounding_eq; [exact R|]; now rewrite H|exact H].
Qed.

Lemma last_any {A} (l : list A) : forall a d d', last (a :: l) d = last (a :: l) d'.
Proof. induction l as [|b l IH]; intros a d d'; [reflexivity|]. exact (IH b d d'). Qed.

(** However deep the tree is and whatever is on the way, the size of an element is that of the
    first on the path to it, changed by every element in between, in order. *)
Theorem C166_compound : forall blank t root r path l x y fs z, rounding rnd ->
  style_element G blank root t = Ok r -> along t r path = Some (x :: l) ->
  Forall2 (fun e f => from_sheet (fst e) /\ scales (fst e) f) l fs ->
  has_size (snd x) z -> last (x :: l) x = y -> has_size (snd y) (fold_left (fun q f => f q) fs z).
Proof.
  intros blank t root r path l x y fs z R Hr Ha HF Hz <-.
  pose proof (style_elements V_eqb G blank t root r Hr) as He.
  pose proof (along_parent V_eqb G blank path t root r (x :: l) He Ha) as Hstep. clear He Ha Hr.
  revert x z Hstep Hz. induction HF as [|e f l fs [Hs Hf] HF IH]; intros x z Hstep Hz; [exact Hz|].
  cbn [fold_left]. assert (E : last (x :: e :: l) x = last (e :: l) e).
  { change (last (x :: e :: l) x) with (last (e :: l) x). apply last_any. }
  rewrite E. apply IH.
  - intros k a b Hka Hkb. exact (Hstep (S k) a b Hka Hkb).
  - apply (scales_step blank (snd x) (fst e) (snd e) f z R Hs); [|exact Hf|exact Hz]. exact (Hstep O x e eq_refl eq_refl).
Qed.

(** ** C167: the shorthand *)

Lemma split_once k (w : list sst) parts : In (k, w) parts -> (List.length (filter (fun x => String.eqb (fst x) k) parts) <= 1)%nat ->
  exists a b, parts = (a ++ (k, w) :: b)%list /\ absent k b.
Proof.
  intros Hin Hl. apply in_split in Hin as (a & b & ->). exists a, b. split; [reflexivity|].
  rewrite filter_app, app_length in Hl. cbn [filter fst] in Hl. rewrite String.eqb_refl in Hl. cbn [List.length] in Hl.
  intros Hk. apply in_map_iff in Hk as ([k' w'] & E & Hb). cbn [fst] in E. subst k'.
  assert (X : In (k, w') (filter (fun x => String.eqb (fst x) k) b)) by (apply filter_In; split; [exact Hb|apply String.eqb_refl]).
  destruct (filter _ b); [contradiction|]. cbn [List.length] in Hl. lia.
Qed.

(** What a part of the shorthand sets is what the property of the part is when it is declared with
    the same words. A style or a width that is not given is the initial one. Missing from the full
    claim: the theorems below. *)
Theorem C167_shorthand_partial : forall parts z l f s k parent c, Forall (fun x => part_is (fst x) (snd x)) parts -> proper parts ->
  size_part z -> line_part l -> family_is f s -> starts_plain f -> counted k "font" (concat (map snd parts) ++ z ++ l ++ f)%list parent c ->
  (forall w c', In (k, w) parts -> In k font_names -> counted k k w parent c' -> c_get c k = c_get c' k) /\
  (forall c', k = "font-size" -> counted k k z parent c' -> c_get c k = c_get c' k) /\
  (forall c', k = "font-family" -> counted k k f parent c' -> c_get c k = c_get c' k) /\
  (k = "font-style" -> ~ In k (map fst parts) -> c_get c k = Value (Slant "normal")) /\
  (k = "font-width" -> ~ In k (map fst parts) -> c_get c k = Value (Width 100)).
Proof.
  intros parts z l f s k parent c HF [H1 H2] Hz Hl Hf Hpf Hc.
  destruct (font_reads parts z l f s HF Hz Hl Hf) as (st & we & wi & zv & E & Ez & Ef & P1 & P2 & P3 & P4 & P5 & P6).
  destruct (size_reads _ Hz) as (_ & _ & _ & _ & _ & _ & Hpz).
  assert (Hp : starts_plain (concat (map snd parts) ++ z ++ l ++ f)%list).
  { destruct parts as [|[k' w'] parts]; [apply Hpz|]. inversion HF as [|? ? Hk _]; subst. cbn [map concat snd] in *. rewrite <- app_assoc. now apply (part_plain k'). }
  assert (Hsv : forall u, In (of_string k, Value u) (font_parts (Value (Font [s] we wi st (Size zv)))) -> c_get c k = Value (compute u parent)).
  { intros u. apply (short_value lighter bolder rnd query system fallback stretch metrics_of base V_eqb _ _ k u parent c Hc Hp E). }
  split; [|split; [|split; [|split]]].
  - intros w c' Hin Hk Hc'.
    assert (Hw : starts_plain w).
    { rewrite Forall_forall in HF. specialize (HF _ Hin). cbn [fst snd] in HF. pose proof (part_plain k w [] HF) as X. now rewrite app_nil_r in X. }
    assert (Hkn : k <> "normal") by (intros ->; cbn in Hk; intuition discriminate).
    destruct (split_once k w parts Hin (H1 k Hkn)) as (a & b & Eq & Hb).
    cbn [font_names In] in Hk. destruct Hk as [<-|[<-|[<-|[<-|[<-|[]]]]]].
    + exfalso. rewrite Forall_forall in HF. specialize (HF _ Hin). inversion HF.
    + destruct (P4 a w b Eq Hb) as (v & -> & Ev). rewrite (Hsv v); [|cbn [font_parts app In]; tauto].
      symmetry. exact (value_of _ _ _ w v parent c' weight_reg Hc' Hw Ev).
    + rewrite (Hsv wi); [|cbn [font_parts]; apply in_or_app; left; right; now left].
      symmetry. exact (value_of _ _ _ w wi parent c' width_in Hc' Hw (P6 a w b Eq Hb)).
    + rewrite (Hsv st); [|cbn [font_parts]; apply in_or_app; left; now left].
      symmetry. apply (value_of _ _ _ w st parent c' style_reg Hc' Hw). apply (P2 a w b Eq Hb).
      intros Hn. apply in_map_iff in Hn as ([k' w'] & En & Hn). cbn [fst] in En. subst k'. apply in_split in Hn as (b1 & b2 & ->).
      apply (H2 (a ++ ("font-style", w) :: b1)%list b2 w').
      * rewrite Eq. now rewrite <- app_assoc.
      * rewrite map_app. apply in_or_app. right. now left.
    + exfalso. rewrite Forall_forall in HF. specialize (HF _ Hin). inversion HF.
  - intros c' -> Hc'. rewrite (Hsv (Size zv)); [|cbn [font_parts]; apply in_or_app; left; right; right; now left].
    symmetry. apply (value_of _ _ _ z (Size zv) parent c' size_in Hc'); [|exact Ez]. specialize (Hpz []). now rewrite app_nil_r in Hpz.
  - intros c' -> Hc'. rewrite (Hsv (Families [s])); [|cbn [font_parts]; apply in_or_app; left; right; right; right; now left].
    symmetry. exact (value_of _ _ _ f (Families [s]) parent c' family_in Hc' Hpf Ef).
  - intros -> Hn. rewrite (Hsv st); [|cbn [font_parts]; apply in_or_app; left; now left]. now rewrite (P1 Hn).
  - intros -> Hn. rewrite (Hsv wi); [|cbn [font_parts]; apply in_or_app; left; right; now left]. now rewrite (P5 Hn).
Qed.

(** ** C168: faces *)

(** The face that CSS says: of the first family that there is, or else some default. *)
Definition face_for (c : computed) (f : Face) : Prop :=
  let k := (weight_in c, stretch (width_of c * 10), style_in c) in
  (exists a n b, families_of c = (a ++ n :: b)%list /\ Forall (fun n' => query n' k = None) a /\ query n k = Some f) \/
  (Forall (fun n' => query n' k = None) (families_of c) /\ match system with Some x => f = x | None => f = fallback end).
Fixpoint values_at (r : result V field) (path : list nat) : option computed :=
  match r, path with
  | Result c _, [] => Some c
  | Result _ rs, i :: path => match nth_error rs i with Some r => values_at r path | None => None end
  end.
Fixpoint face_at (t : faces) (path : list nat) : option Face :=
  match t, path with
  | Faces f _, [] => Some f
  | Faces _ ts, i :: path => match nth_error ts i with Some t => face_at t path | None => None end
  end.

Lemma lookup_for c : face_for c (lookup_face query system fallback stretch c).
Proof.
  unfold face_for, lookup_face. set (k := (weight_in c, stretch (width_of c * 10), style_in c)). induction (families_of c) as [|n l IH].
  - cbn [first_face]. right. split; [constructor|]. now destruct system.
  - cbn [first_face]. destruct (query n k) as [x|] eqn:E.
    + left. exists [], n, l. split; [reflexivity|]. split; [constructor|exact E].
    + destruct IH as [(a & n' & b & El & Ha & Hq)|[Ha Hq]].
      * left. exists (n :: a), n', b. split; [now rewrite El|]. split; [now constructor|exact Hq].
      * right. split; [now constructor|exact Hq].
Qed.
Lemma names_eqb_eq a : forall b, names_eqb a b = true -> a = b.
Proof.
  induction a as [|x a IH]; intros [|y b] H; try discriminate; [reflexivity|]. cbn [names_eqb] in H. apply andb_prop in H as [H1 H2].
  apply str_eqb_spec in H1. subst. f_equal. now apply IH.
Qed.
Lemma update_is angle_eqb parent c : (forall q q', q == q' -> stretch q = stretch q') ->
  update_face query system fallback stretch angle_eqb parent (lookup_face query system fallback stretch parent) c = lookup_face query system fallback stretch c.
Proof.
  intros Hs. unfold update_face. destruct (_ && _) eqn:E; [|reflexivity]. apply andb_prop in E as [E E4]. apply andb_prop in E as [E E3]. apply andb_prop in E as [E1 E2].
  apply names_eqb_eq in E1. apply Z.eqb_eq in E2. apply Qeq_bool_iff in E4. unfold lookup_face. rewrite E1, E2.
  assert (stretch (width_of parent * 10) = stretch (width_of c * 10)) as -> by (apply Hs; now rewrite E4).
  assert (style_in parent = style_in c) as ->; [|reflexivity]. unfold style_in, style_eqb in *.
  destruct (c_get parent "font-style") as [x|[]], (c_get c "font-style") as [y|[]]; cbn [slant_of] in *; try (now apply String.eqb_eq in E3); reflexivity.
Qed.

(** The face of an element is the one for its own values, although it is looked up only when
    these differ from those of the parent. *)
Theorem C168_faces : forall angle_eqb root r path c, (forall q q', q == q' -> stretch q = stretch q') ->
  values_at r path = Some c ->
  exists f, face_at (style_faces query system fallback stretch angle_eqb root (lookup_face query system fallback stretch root) r) path = Some f /\ face_for c f.
Proof.
  intros angle_eqb root r path c Hs. revert root r. induction path as [|i path IH]; intros root [x rs] H.
  - injection H as <-. cbn [style_faces face_at]. eexists. split; [reflexivity|]. rewrite update_is by exact Hs. apply lookup_for.
  - cbn [values_at] in H. cbn [style_faces face_at]. rewrite nth_error_map. destruct (nth_error rs i) as [r'|]; [|discriminate]. cbn [option_map].
    rewrite update_is by exact Hs. exact (IH x r' H).
Qed.

(** ** C169: inheritance *)

(** A property of fonts that nothing is said about is inherited. *)
Theorem C169_inherited : forall k parent c, In k font_names -> unsaid k parent c -> c_get c k = c_get parent k.
Proof.
  intros k parent c Hk (blank & ms & Hs & Hc & Hn).
  exact (font_silent lighter bolder rnd query system fallback stretch metrics_of base V_eqb blank parent c ms k Hk Hs Hc Hn).
Qed.

(** The values that elements have. *)
Definition settled (v : val V) : Prop :=
  match v with
  | Value (Size s) => exists q, s = SLen (Abs q PX) /\ rnd q = q
  | Value Lighter | Value Bolder | Content _ => False
  | _ => True
  end.
Definition initial_of (k : string) (v : val V) : Prop :=
  (k = "font-family" /\ v = Value (Families [of_string "sans-serif"])) \/ (k = "font-weight" /\ v = Value (Weight 400)) \/
  (k = "font-width" /\ v = Value (Width 100)) \/ (k = "font-style" /\ v = Value (Slant "normal")) \/
  (k = "font-size" /\ v = Value (Size (SLen (Abs (rnd (16 * 1)) PX)))).
Lemma default_read n i p d s parent c : In (font_long n i p) longs -> In d ["initial"; "inherit"; "unset"] -> spells d s ->
  counted n n [s] parent c -> c_get c n = compute_val (if String.eqb d "initial" then Value i else c_get parent n) parent.
Proof.
  intros Hin Hd Hs (blank & l1 & m & l2 & Hsh & Hc & (fuel & Hm) & Hco).
  pose proof (font_resolve lighter bolder rnd query system fallback stretch metrics_of base _ (font_in lighter bolder rnd query system fallback stretch metrics_of base _ Hin)) as Hr. cbn [FontModel.font_long r_name] in Hr.
  assert (E : parse_value fuel G (of_string n) [s] = Ok (Defaulted (font_long n i p)
     (if String.eqb d "inherit" then D_INHERIT else if String.eqb d "initial" then D_INITIAL else D_UNSET))).
  { unfold parse_value. rewrite Hr.
    assert (eat_wss [s] = [s]) as -> by (destruct Hs as (x & -> & _); reflexivity).
    cbn [parse_defaulted]. rewrite !(ident_spells _ _ _ Hs).
    destruct Hd as [<-|[<-|[<-|[]]]]; vm_compute; reflexivity. }
  rewrite E in Hm. injection Hm as Hm.
  pose proof (font_counts lighter bolder rnd query system fallback stretch metrics_of base V_eqb blank parent c l1 m l2 n i p Hin Hsh Hc) as H. unfold name in H. rewrite <- Hm in H.
  specialize (H eq_refl eq_refl Hco).
  destruct Hd as [<-|[<-|[<-|[]]]]; cbn -[of_string FontModel.compute_val] in H |- *; injection H; intros ->; reflexivity.
Qed.
Theorem C169_keywords : forall k d s parent c, In k font_names -> spells d s -> counted k k [s] parent c ->
  (d = "initial" -> initial_of k (c_get c k)) /\ (In d ["inherit"; "unset"] -> settled (c_get parent k) -> c_get c k = c_get parent k).
Proof.
  intros k d s parent c Hk Hs Hc. split.
  - intros ->. unfold initial_of. cbn [font_names In] in Hk. destruct Hk as [<-|[<-|[<-|[<-|[<-|[]]]]]].
    + rewrite (default_read _ _ _ "initial" s parent c family_in ltac:(cbn; tauto) Hs Hc). left. auto.
    + rewrite (default_read _ _ _ "initial" s parent c weight_reg ltac:(cbn; tauto) Hs Hc). right. left. auto.
    + rewrite (default_read _ _ _ "initial" s parent c width_in ltac:(cbn; tauto) Hs Hc). right. right. left. auto.
    + rewrite (default_read _ _ _ "initial" s parent c style_reg ltac:(cbn; tauto) Hs Hc). right. right. right. left. auto.
    + rewrite (default_read _ _ _ "initial" s parent c size_in ltac:(cbn; tauto) Hs Hc). right. right. right. right. auto.
  - intros Hd Hv. assert (E : c_get c k = compute_val (c_get parent k) parent).
    { assert (Hd' : In d ["initial"; "inherit"; "unset"]) by (cbn in *; tauto).
      assert (Hn : String.eqb d "initial" = false) by (destruct Hd as [<-|[<-|[]]]; reflexivity).
      cbn [font_names In] in Hk. destruct Hk as [<-|[<-|[<-|[<-|[<-|[]]]]]].
      - rewrite (default_read _ _ _ d s parent c family_in Hd' Hs Hc). now rewrite Hn.
      - rewrite (default_read _ _ _ d s parent c weight_reg Hd' Hs Hc). now rewrite Hn.
      - rewrite (default_read _ _ _ d s parent c width_in Hd' Hs Hc). now rewrite Hn.
      - rewrite (default_read _ _ _ d s parent c style_reg Hd' Hs Hc). now rewrite Hn.
      - rewrite (default_read _ _ _ d s parent c size_in Hd' Hs Hc). now rewrite Hn. }
    rewrite E. destruct (c_get parent k) as [x|v]; [contradiction|]. destruct v; try reflexivity; try contradiction.
    destruct Hv as (q & -> & Hq). cbn [FontModel.compute_val FontModel.compute resolve_size resolve_length pixels]. now rewrite Hq.
Qed.

(** ** C170: the height of lines *)

(** Whatever the heights of lines are declared to be, the values of an element do not change. *)
Theorem C170_line_height_refuted : forall blank parent ms c k, Forall (fun m => exists content, declares "line-height" content m) ms ->
  compute_values G blank parent ms = Ok c -> In k font_names -> c_get c k = c_get parent k.
Proof.
  intros blank parent ms c k HF Hc Hk.
  apply (font_silent lighter bolder rnd query system fallback stretch metrics_of base V_eqb blank parent c ms k Hk); [|exact Hc|].
  - revert HF. apply Forall_impl. intros m (content & fuel & E). exists fuel, (of_string "line-height"), content. exact E.
  - revert HF. apply Forall_impl. intros m (content & fuel & E) Hn.
    assert (X : name m = of_string "line-height").
    { unfold name. clear -E. unfold parse_value in E. change (resolve G (of_string "line-height")) with (Some line_height) in E.
      destruct (m_prop m); cbn [prop_name]; revert E; repeat (match goal with |- context [match ?x with _ => _ end] => destruct x end); intros E; try discriminate;
        injection E as <-; try reflexivity. }
    rewrite X in Hn. cbn [font_names In] in Hk. destruct Hk as [<-|[<-|[<-|[<-|[<-|[]]]]]]; vm_compute in Hn; intuition discriminate.
Qed.
End Fonts.

Print Assumptions C161_families_partial.
Print Assumptions C161_no_comma_refuted.
Print Assumptions C162_weight_partial.
Print Assumptions C162_range_refuted.
Print Assumptions C163_width.
Print Assumptions C164_style.
Print Assumptions C165_size_partial.
Print Assumptions C165_keywords.
Print Assumptions C165_unknown_refuted.
Print Assumptions C166_compound.
Print Assumptions C167_shorthand_partial.
Print Assumptions C168_faces.
Print Assumptions C169_inherited.
Print Assumptions C169_keywords.
Print Assumptions C170_line_height_refuted.
