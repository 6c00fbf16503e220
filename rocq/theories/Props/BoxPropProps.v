(** C121 to C128: from declarations to the computed values of margins, paddings, borders,
    [color] and [visibility]. The parsers of lengths and colors are arbitrary. *)
From Coq Require Import String List NArith ZArith Bool Lia PeanoNat.
From Verif.Base Require Import Str Outcome.
From Verif.Css Require Import LexerModel ParserModel.
From Verif.Values Require Import CalcModel.
From Verif.Style Require Import CascadeModel CascadeSpec CascadeProofs.
From Verif.Props Require Import VarModel VarSpec VarProofs EngineModel EngineSpec EngineProofs EngineProofs2 EngineProofs3
  BoxPropModel BoxPropProofs BoxPropSpec BoxPropProofs2 BoxPropProofs3 BoxPropProofs4 BoxPropProofs5.
Import ListNotations.
Local Open Scope list_scope.

Lemma by_value {A} (o : outcome A) (P : A -> Prop) : match o with Ok c => P c | _ => False end -> exists c, o = Ok c /\ P c.
Proof. destruct o as [c| |]; try contradiction. eauto. Qed.

Section Box.
Context {W C L K : Type}
        (pW : list sst -> option W * list sst) (pC : list sst -> option C * list sst)
        (pL : list sst -> option L * list sst) (pK : list sst -> option K * list sst)
        (zeroW : W) (zeroC : C) (black current : K) (resolve_color : K -> K -> K).
Variable V_eqb : @V W C L K -> @V W C L K -> bool.
(** Black is black, whatever the color of the parent is. *)
Hypothesis Hblack : forall k, resolve_color black k = black.

Local Notation V := (@V W C L K).
Local Notation G := (@box_registry W C L K pW pC pL pK zeroW zeroC black current resolve_color).
Local Notation matched := (matched V field).
Local Notation computed := (computed V field).
Local Notation prop := (prop V field).
Local Notation compute_values := (compute_values V_eqb).
Local Notation style_element := (style_element V_eqb).
Local Notation Good := (box_good pW pC pL pK zeroW zeroC black current resolve_color).
Local Notation Closed := (box_closed pW pC pL pK zeroW zeroC black current resolve_color).
Local Notation sensible := (sensible pW pC pL pK zeroW zeroC black current resolve_color).
Local Notation declares := (declares pW pC pL pK zeroW zeroC black current resolve_color).
Local Notation from_sheet := (from_sheet pW pC pL pK zeroW zeroC black current resolve_color).
Local Notation initial_of := (@initial_of W C L K zeroW zeroC black).
Local Notation value_of := (@value_of W C L K black resolve_color).
Local Notation says := (says pW pC pL pK).
Local Notation reg := (reg pW pC pL pK zeroW zeroC black resolve_color).
Local Notation side_word := (@side_word W C K pW pC pK).
Local Notation stops := (@stops W C K pW pC pK).

(** ** C121: reading a declaration ends *)

(** With parsers of lengths and colors that take something when they succeed: for every property
    but the shorthands of borders, reading any value gives a property. *)
Theorem C121_reading_ends_partial : forall n content,
  consumes pW -> consumes pC -> consumes pL -> consumes pK ->
  ~ among n ["border"; "border-top"; "border-right"; "border-bottom"; "border-left"]%string ->
  exists p fuel0, forall fuel, fuel0 <= fuel -> parse_value fuel G n content = Ok p.
Proof. exact (box_reading_ends pW pC pL pK zeroW zeroC black current resolve_color). Qed.

(** [border: toggle(x)] with an [x] that is no part of a border is read forever. *)
Theorem C121_border_toggle_refuted : forall n s,
  In n ["border"; "border-top"; "border-right"; "border-bottom"; "border-left"]%string ->
  pL [s] = (None, [s]) -> pK [s] = (None, [s]) -> parse_bstyle [s] = (None, [s]) -> parse_line_width pL [s] = (None, [s]) ->
  starts_plain [s] -> is_type COMMA s = false ->
  forall fuel, parse_value fuel G (of_string n) [FUNC toggle_name [s]] = OutOfFuel.
Proof.
  intros n s Hn H1 H2 H3 H4 H5 H6. apply (box_endless pW pC pL pK zeroW zeroC black current resolve_color n s Hn).
  exact (conj H1 (conj H2 (conj H3 (conj H5 (conj H6 H4))))).
Qed.

(** ** C122: nothing declared *)

Theorem C122_undeclared_partial : forall blank parent c f ms,
  from_sheet ms -> compute_values G blank parent ms = Ok c -> silent f ms ->
  c_get c f = match f with F_TEXT => c_get parent F_TEXT | _ => Value (initial_of f) end.
Proof. exact (silent_unset pW pC pL pK zeroW zeroC black current resolve_color V_eqb Hblack). Qed.

(** The color of text goes down from an element to all below it, up to one that declares it. *)
Theorem C122_color_goes_down : forall blank parent t r path l,
  style_element G blank parent t = Ok r -> along t r path = Some l ->
  Forall (fun x => from_sheet (fst x) /\ silent F_TEXT (fst x)) (tl l) ->
  forall x y, In x l -> hd_error l = Some y -> c_get (snd x) F_TEXT = c_get (snd y) F_TEXT.
Proof.
  intros blank parent t r path l Hs Hl HF x y Hx Hy.
  destruct (inherited_down V_eqb G blank (fun ms => from_sheet ms /\ silent F_TEXT ms) F_TEXT) with (path := path) (t := t) (parent := parent) (r := r) (l := l) (x := x)
    as (y' & Hy' & E); try assumption.
  - intros p ms c (H1 & H2) Hc. exact (silent_unset pW pC pL pK zeroW zeroC black current resolve_color V_eqb Hblack blank p c F_TEXT ms H1 Hc H2).
  - now apply style_elements.
  - congruence.
Qed.

(** Visibility does not: an element in a hidden one is visible. *)
Theorem C122_visibility_inherited_refuted : forall blank parent m,
  declares "visibility" [keyword "hidden"] m ->
  exists c c', style_element G blank parent (Styled [m] [Styled [] []]) = Ok (Result c [Result c' []]) /\
    c_get c F_VISIBILITY = Value (VV V_HIDDEN) /\ c_get c' F_VISIBILITY = Value (VV VISIBLE).
Proof.
  intros blank parent m (fuel & Hm).
  assert (Hr : read G (m_prop m)) by (eexists; eexists; eexists; exact Hm).
  assert (Em : m_prop m = Parsed (reg F_VISIBILITY) (Value (VV V_HIDDEN))).
  { assert (Hs : says F_VISIBILITY [keyword "hidden"] (VV V_HIDDEN)) by (exists "hidden"%string, V_HIDDEN; cbn; auto).
    assert (Hp : starts_plain [keyword "hidden"]).
    { split; [repeat constructor|]. split; [discriminate|]. intros t Ht. injection Ht as <-. discriminate. }
    change "visibility"%string with (name_of F_VISIBILITY) in Hm.
    rewrite (read_says pW pC pL pK zeroW zeroC black current resolve_color fuel F_VISIBILITY _ _ Hp Hs) in Hm. congruence. }
  destruct (compute_ok V_eqb G Good Closed blank parent [m]) as (c & Hc).
  { constructor; [|constructor]. apply (read_made _ _ _ _ _ _ _ _ _ _ Hr). }
  { constructor; [|constructor]. intros q. rewrite Em. discriminate. }
  destruct (compute_ok V_eqb G Good Closed blank c []) as (c' & Hc'); [constructor|constructor|].
  exists c, c'. cbn [EngineModel.style_element]. rewrite Hc. cbn [obind]. rewrite Hc'. split; [reflexivity|]. split.
  - assert (E : Some (c_get c F_VISIBILITY) = used V_eqb (reg F_VISIBILITY) F_VISIBILITY (value_of F_VISIBILITY) (m_prop m) parent c).
    { apply (decisive_used pW pC pL pK zeroW zeroC black current resolve_color V_eqb Hblack blank parent c F_VISIBILITY [] m []).
      - constructor; [|constructor]. split; [exact Hr|]. split; [intros q; rewrite Em; discriminate|]. unfold is_short. rewrite Em. discriminate.
      - exact Hc.
      - split; [unfold name; rewrite Em; reflexivity|]. repeat constructor. }
    rewrite Em in E. cbn [used] in E. injection E as ->. reflexivity.
  - exact (silent_unset pW pC pL pK zeroW zeroC black current resolve_color V_eqb Hblack blank c c' F_VISIBILITY [] (Forall_nil _) Hc' (Forall_nil _)).
Qed.

(** ** C123: [initial], [inherit], [unset], [revert] *)

(** The values of an element exist, unless [revert] is used. *)
Theorem C123_values_exist_partial : forall blank parent ms,
  from_sheet ms -> Forall (fun m => no_revert (m_prop m)) ms -> exists c, compute_values G blank parent ms = Ok c.
Proof.
  intros blank parent ms H1 H2. apply (compute_ok V_eqb G Good Closed blank parent ms); [|exact H2].
  eapply read_all_made. exact H1.
Qed.

(** The value of the parent does not change when it is taken over. *)
Definition settled (parent : computed) : Prop := exists k, c_get parent F_TEXT = Value (VK k) /\ resolve_color k k = k.

Theorem C123_keywords_partial : forall blank parent c f k l1 m l2,
  sensible parent c (l1 ++ m :: l2) -> compute_values G blank parent (l1 ++ m :: l2) = Ok c ->
  declares (name_of f) [keyword k] m -> decisive f l1 m l2 -> settled parent ->
  (k = "initial"%string -> c_get c f = Value (initial_of f)) /\
  (k = "inherit"%string -> c_get c f = c_get parent f) /\
  (k = "unset"%string -> c_get c f = match f with F_TEXT => c_get parent F_TEXT | _ => Value (initial_of f) end).
Proof.
  intros blank parent c f k l1 m l2 Hs Hc (fuel & Hm) Hd (k0 & Hk0 & Hk1).
  pose proof (decisive_used pW pC pL pK zeroW zeroC black current resolve_color V_eqb Hblack blank parent c f l1 m l2 Hs Hc Hd) as E.
  assert (Key : forall d, parse_defaulted [keyword k] = Some d -> m_prop m = Defaulted (reg f) d).
  { intros d Hd'. rewrite (keyword_read pW pC pL pK zeroW zeroC black current resolve_color fuel _ (reg f) k d (reg_resolve _ _ _ _ _ _ _ _ _ _) Hd') in Hm. congruence. }
  split; [|split]; intros ->.
  - rewrite (Key D_INITIAL eq_refl) in E. cbn [used] in E. injection E as ->. rewrite reg_initial.
    destruct f; try reflexivity. cbn. now rewrite Hblack.
  - rewrite (Key D_INHERIT eq_refl) in E. cbn [used] in E. injection E as ->.
    destruct f; try reflexivity. rewrite Hk0. cbn. rewrite Hk0. cbn. now rewrite Hk1.
  - rewrite (Key D_UNSET eq_refl) in E. cbn [used] in E. rewrite reg_inherited in E. rewrite reg_initial in E. injection E as ->.
    destruct f; try reflexivity. rewrite Hk0. cbn. rewrite Hk0. cbn. now rewrite Hk1.
Qed.

(** [margin: inherit] and [padding: inherit] say [inherit] for every side. *)
Theorem C123_sides_inherit_partial : forall blank parent c c' x l1 m q l2,
  (x = MARGIN /\ (forall s, exists w, c_get parent (F_MARGIN s) = Value (VW w)) \/
   x = PADDING /\ (forall s, exists w, c_get parent (F_PADDING s) = Value (VC w))) ->
  declares (sided_name x) [keyword "inherit"] m ->
  (forall s, declares (name_of (member x s)) [keyword "inherit"] (q s) /\ weight_of (q s) = weight_of m) ->
  sensible parent c (l1 ++ l2) -> physical (l1 ++ l2) ->
  compute_values G blank parent (l1 ++ m :: l2) = Ok c ->
  compute_values G blank parent (l1 ++ [q TOP; q END; q BOTTOM; q START] ++ l2) = Ok c' ->
  forall f, c_get c f = c_get c' f.
Proof.
  intros blank parent c c' x l1 m q l2 Hx (fuel & Hm) Hq Hs Hph Hc Hc'.
  apply (sided_inherit pW pC pL pK zeroW zeroC black current resolve_color V_eqb Hblack blank parent c c' x l1 m q l2).
  - destruct Hx as [(-> & H)|(-> & H)]; exact H.
  - rewrite (keyword_read pW pC pL pK zeroW zeroC black current resolve_color fuel _ _ "inherit" D_INHERIT (sided_resolve pW pC pL pK zeroW zeroC black current resolve_color x) eq_refl) in Hm. congruence.
  - intros s. destruct (Hq s) as ((fuel' & H) & Hw). split; [|exact Hw].
    rewrite (keyword_read pW pC pL pK zeroW zeroC black current resolve_color fuel' _ _ "inherit" D_INHERIT (reg_resolve _ _ _ _ _ _ _ _ _ _) eq_refl) in H. congruence.
  - exact Hs.
  - exact Hph.
  - exact Hc.
  - exact Hc'.
Qed.

(** [border: inherit] takes the top border of the parent for all sides. *)
Theorem C123_border_inherit_refuted : forall blank parent m s,
  declares "border" [keyword "inherit"] m ->
  exists c, compute_values G blank parent [m] = Ok c /\
    (forall w, c_get parent (F_WIDTH TOP) = Value (VL w) -> c_get c (F_WIDTH s) = Value (VL w)) /\
    (forall x, c_get parent (F_STYLE TOP) = Value (VS x) -> c_get c (F_STYLE s) = Value (VS x)).
Proof.
  intros blank parent m s (fuel & Hm).
  assert (Hn : In "border"%string endless) by (left; reflexivity).
  assert (Hr : read G (m_prop m)) by (eexists; eexists; eexists; exact Hm).
  rewrite (keyword_read pW pC pL pK zeroW zeroC black current resolve_color fuel _ _ "inherit" D_INHERIT (border_resolve pW pC pL pK zeroW zeroC black current resolve_color _ Hn) eq_refl) in Hm.
  injection Hm as Em. symmetry in Em.
  set (b := mkB (asL (c_get parent (F_WIDTH TOP))) (asS (c_get parent (F_STYLE TOP))) (asK black (c_get parent (F_COLOR TOP)))).
  assert (Hv : exists d, m_prop m = Defaulted (border_reg pW pC pL pK zeroW zeroC black current resolve_color "border") d /\
     default_value (border_reg pW pC pL pK zeroW zeroC black current resolve_color "border") d parent = Ok (Value (VB b))).
  { exists D_INHERIT. split; [exact Em|reflexivity]. }
  destruct (compute_ok V_eqb G Good Closed blank parent [m]) as (c & Hc).
  { constructor; [|constructor]. apply (read_made _ _ _ _ _ _ _ _ _ _ Hr). }
  { constructor; [|constructor]. intros q. rewrite Em. discriminate. }
  exists c. split; [exact Hc|].
  assert (Hs : sensible parent c ([] ++ m :: [])).
  { constructor; [|constructor]. split; [exact Hr|]. split; [intros q; rewrite Em; discriminate|].
    intros _ x Hx. rewrite (border_ex pW pC pL pK zeroW zeroC black current resolve_color "border" b parent c (m_prop m) Hn) in Hx; [|now rewrite Em|now right].
    injection Hx as <-. discriminate. }
  assert (Hname : name m = of_string "border") by (unfold name; rewrite Em; reflexivity).
  assert (HD1 : decisive_short (F_WIDTH s) [] m []).
  { split; [rewrite Hname; right; right; left; reflexivity|]. repeat constructor. }
  assert (HD2 : decisive_short (F_STYLE s) [] m []).
  { split; [rewrite Hname; right; right; left; reflexivity|]. repeat constructor. }
  destruct (border_in (W := W) (C := C) "border" s b) as (I1 & I2 & _). { destruct s; cbn; tauto. }
  split.
  - intros w Hw.
    rewrite (border_value pW pC pL pK zeroW zeroC black current resolve_color V_eqb Hblack blank parent c "border" b _ _ [] m [] Hn
      (f_equal (@prop_reg V field) Em) (or_intror Hv) Hs Hc HD1 I1).
    unfold b. cbn [b_width]. now rewrite Hw.
  - intros x Hw.
    rewrite (border_value pW pC pL pK zeroW zeroC black current resolve_color V_eqb Hblack blank parent c "border" b _ _ [] m [] Hn
      (f_equal (@prop_reg V field) Em) (or_intror Hv) Hs Hc HD2 I2).
    unfold b. cbn [b_style]. now rewrite Hw.
Qed.

(** [revert] ends the program, for every property. *)
Theorem C123_revert_refuted : forall blank parent f m,
  declares (name_of f) [keyword "revert"] m -> compute_values G blank parent [m] = Panic.
Proof.
  intros blank parent f m (fuel & Hm).
  rewrite (keyword_read pW pC pL pK zeroW zeroC black current resolve_color fuel _ _ "revert" D_REVERT (reg_resolve _ _ _ _ _ _ _ _ _ _) eq_refl) in Hm.
  injection Hm as Em. destruct m as [p i o s]. cbn [m_prop] in Em. subst p.
  apply (revert_panics V_eqb G Good). apply reg_in.
Qed.

(** ** C124: the declaration that counts *)

Theorem C124_declared_value_partial : forall blank parent c f content v l1 m l2,
  sensible parent c (l1 ++ m :: l2) -> compute_values G blank parent (l1 ++ m :: l2) = Ok c ->
  declares (name_of f) content m -> starts_plain content -> says f content v -> decisive f l1 m l2 ->
  c_get c f = value_of f (Value v) parent.
Proof.
  intros blank parent c f content v l1 m l2 Hs Hc (fuel & Hm) Hp Hv Hd.
  pose proof (decisive_used pW pC pL pK zeroW zeroC black current resolve_color V_eqb Hblack blank parent c f l1 m l2 Hs Hc Hd) as E.
  rewrite (read_says pW pC pL pK zeroW zeroC black current resolve_color fuel f _ _ Hp Hv) in Hm. injection Hm as Em. rewrite <- Em in E.
  cbn [used] in E. now injection E.
Qed.

(** With variables: what counts is the value after they have been replaced. *)
Theorem C124_variables_partial : forall blank parent c f content out v k l1 m l2,
  sensible parent c (l1 ++ m :: l2) -> compute_values G blank parent (l1 ++ m :: l2) = Ok c ->
  declares (name_of f) content m -> (exists r, m_prop m = Deferred r content) -> decisive f l1 m l2 ->
  substituted (c_custom c) k content out -> k < 32 -> starts_plain out -> says f out v ->
  c_get c f = value_of f (Value v) parent.
Proof.
  intros blank parent c f content out v k l1 m l2 Hs Hc Hm (r & Hr) Hd Hsub Hk Hp Hv.
  pose proof (decisive_used pW pC pL pK zeroW zeroC black current resolve_color V_eqb Hblack blank parent c f l1 m l2 Hs Hc Hd) as E.
  rewrite Hr in E. cbn [used] in E. 
  assert (expand_content (c_custom c) content = Some out) as Ex by exact (expand_complete _ _ _ _ Hsub 32 Hk). rewrite Ex in E.
  destruct (plain_start (C := C) (W := W) (L := L) (K := K) _ Hp) as (Ew & _). rewrite Ew, reg_parse in E.
  rewrite (says_reader pW pC pL pK _ _ _ Hv) in E. cbn [fst] in E. now injection E.
Qed.

(** Declarations of unknown properties do nothing. *)
Theorem C124_unknown_ignored : forall blank parent n content l1 m l2,
  declares n content m -> (forall r, In r (g_props G) -> r_name r <> of_string n) -> starts_with (of_string "--") (of_string n) = false ->
  compute_values G blank parent (l1 ++ m :: l2) = compute_values G blank parent (l1 ++ l2).
Proof.
  intros blank parent n content l1 m l2 (fuel & Hm) Hn Hd. apply bogus_ignored.
  rewrite (unknown_bogus G fuel (of_string n) content eq_refl Hn Hd) in Hm. injection Hm as <-. reflexivity.
Qed.

(** A later declaration that makes no sense takes the place of an earlier one that does. *)
Theorem C124_invalid_declaration_wins_refuted : forall blank parent content k t m1 m2,
  declares "color" content m1 -> starts_plain content -> pK content = (Some k, []) ->
  declares "color" [TOK t] m2 -> starts_plain [TOK t] -> fst (pK [TOK t]) = None -> weight_of m1 = weight_of m2 ->
  exists c, compute_values G blank parent [m1; m2] = Ok c /\ c_get c F_TEXT = c_get parent F_TEXT.
Proof.
  intros blank parent content k t m1 m2 (fuel1 & H1) Hp1 Hk (fuel2 & H2) Hp2 Hn Hw.
  assert (R1 : read G (m_prop m1)) by (eexists; eexists; eexists; exact H1).
  assert (R2 : read G (m_prop m2)) by (eexists; eexists; eexists; exact H2).
  assert (Hsays : says F_TEXT content (VK k)) by (exists k; auto).
  change "color"%string with (name_of F_TEXT) in H1, H2.
  rewrite (read_says pW pC pL pK zeroW zeroC black current resolve_color fuel1 F_TEXT _ _ Hp1 Hsays) in H1. injection H1 as E1. symmetry in E1.
  assert (E2 : m_prop m2 = Deferred (reg F_TEXT) [TOK t]).
  { unfold parse_value in H2. rewrite reg_resolve in H2.
    destruct (plain_start (C := C) (W := W) (L := L) (K := K) _ Hp2) as (A1 & A2 & A3). rewrite A1, A2, A3, reg_parse in H2.
    cbn [reader] in H2. unfold reads, map_fst in H2. rewrite Hn in H2. cbn [option_map] in H2. congruence. }
  assert (HR : Forall (fun m => read G (m_prop m)) [m1; m2]) by (repeat constructor; assumption).
  destruct (compute_ok V_eqb G Good Closed blank parent [m1; m2]) as (c & Hc).
  { eapply read_all_made. exact HR. }
  { repeat constructor; intros q; [rewrite E1|rewrite E2]; discriminate. }
  exists c. split; [exact Hc|].
  assert (E : Some (c_get c F_TEXT) = used V_eqb (reg F_TEXT) F_TEXT (value_of F_TEXT) (m_prop m2) parent c).
  { apply (decisive_used pW pC pL pK zeroW zeroC black current resolve_color V_eqb Hblack blank parent c F_TEXT [m1] m2 []).
    - repeat constructor; try assumption; try (intros q; first [rewrite E1|rewrite E2]; discriminate); unfold is_short; rewrite ?E1, ?E2; discriminate.
    - exact Hc.
    - split; [unfold name; rewrite E2; reflexivity|]. split.
      + constructor; [|constructor]. intros _. rewrite Hw. apply weaker_irrefl.
      + split; [constructor|]. repeat constructor. intros [].
  }
  rewrite E2 in E. cbn [used] in E.
  assert (expand_content (c_custom c) [TOK t] = Some [TOK t]) as Ex by reflexivity. rewrite Ex in E.
  destruct (plain_start (C := C) (W := W) (L := L) (K := K) _ Hp2) as (A1 & _). rewrite A1, reg_parse in E. cbn [reader] in E.
  unfold reads, map_fst in E. rewrite Hn in E. cbn [fst option_map] in E. rewrite unset_value in E. now injection E.
Qed.

(** ** C125: shorthands *)

(** [margin], [padding], [border-style] and [border-color] with one to four values stand for the
    declarations of the four sides. *)
Theorem C125_one_to_four_values_partial : forall blank parent c c' x ws l1 m q l2,
  stops x -> 1 <= List.length ws <= 4 -> Forall (side_word x) ws ->
  declares (sided_name x) (concat ws) m ->
  (forall s, exists w, for_side s ws = Some w /\ declares (name_of (member x s)) w (q s) /\ weight_of (q s) = weight_of m) ->
  sensible parent c (l1 ++ l2) -> physical (l1 ++ l2) ->
  compute_values G blank parent (l1 ++ m :: l2) = Ok c ->
  compute_values G blank parent (l1 ++ [q TOP; q END; q BOTTOM; q START] ++ l2) = Ok c' ->
  forall f, c_get c f = c_get c' f.
Proof.
  intros blank parent c c' x ws l1 m q l2 H0 Hl Hw (fuel & Hm) Hq Hs Hph Hc Hc'.
  apply (sided_same pW pC pL pK zeroW zeroC black current resolve_color V_eqb Hblack blank parent c c' x fuel ws l1 m q l2); try assumption.
  intros s. destruct (Hq s) as (w & A1 & (fuel' & A2) & A3). exists w, fuel'. auto.
Qed.

(** [margin-inline: a b] sets both sides to [b], [margin-block: a b] sets both to [a]. *)
Theorem C125_logical_pairs_refuted : forall blank parent wa wb a b i o s,
  pW [wa; wb] = (Some a, [wb]) -> pW [wb] = (Some b, []) -> pW [] = (None, []) ->
  (forall m, declares "margin-inline" [wa; wb] m -> starts_plain [wa; wb] -> m = mkM (m_prop m) i o s ->
     exists c, compute_values G blank parent [m] = Ok c /\
       c_get c (F_MARGIN START) = Value (VW b) /\ c_get c (F_MARGIN END) = Value (VW b)) /\
  (forall m, declares "margin-block" [wa; wb] m -> starts_plain [wa; wb] -> m = mkM (m_prop m) i o s ->
     exists c, compute_values G blank parent [m] = Ok c /\
       c_get c (F_MARGIN TOP) = Value (VW a) /\ c_get c (F_MARGIN BOTTOM) = Value (VW a)).
Proof.
  intros blank parent wa wb a b i o s H1 H2 H3.
  assert (P : parse_insets pW [wa; wb] = (Some (insets2 a b), [])) by (unfold parse_insets; now rewrite H1, H2, H3).
  split; intros m (fuel & Hm) Hp ->; cbn [m_prop] in *; apply by_value.
  - assert (Hr : nth_error (g_props G) 29 = Some (pair_of pW zeroW "margin-inline" i_start i_end (F_MARGIN START) (F_MARGIN END))) by reflexivity.
    apply nth_error_In in Hr. pose proof (resolve_registered _ Good _ Hr) as Hr'.
    rewrite (read_plain pW pC pL pK zeroW zeroC black current resolve_color fuel (of_string "margin-inline") _ _ (Value (VIW (insets2 a b))) Hr' Hp) in Hm.
    2:{ cbn [pair_of r_parse]. unfold reads, map_fst. now rewrite P. }
    injection Hm as <-. vm_compute. auto.
  - assert (Hr : nth_error (g_props G) 32 = Some (pair_of pW zeroW "margin-block" i_top i_bottom (F_MARGIN TOP) (F_MARGIN BOTTOM))) by reflexivity.
    apply nth_error_In in Hr. pose proof (resolve_registered _ Good _ Hr) as Hr'.
    rewrite (read_plain pW pC pL pK zeroW zeroC black current resolve_color fuel (of_string "margin-block") _ _ (Value (VIW (insets2 a b))) Hr' Hp) in Hm.
    2:{ cbn [pair_of r_parse]. unfold reads, map_fst. now rewrite P. }
    injection Hm as <-. vm_compute. auto.
Qed.

(** ** C126: properties do not interfere *)

Theorem C126_other_properties_partial : forall blank parent c c' f l1 m l2,
  sensible parent c (l1 ++ m :: l2) ->
  compute_values G blank parent (l1 ++ m :: l2) = Ok c -> compute_values G blank parent (l1 ++ l2) = Ok c' ->
  Forall (fun m : matched => ~ among (name m) (logical_of f)) (l1 ++ l2) ->
  ~ among (name m) (name_of f :: shorthands_of f ++ logical_of f) -> starts_with (of_string "--") (name m) = false ->
  c_get c f = c_get c' f.
Proof.
  intros blank parent c c' f l1 m l2 Hs Hc Hc' Hl Hn Hd.
  apply (irrelevant pW pC pL pK zeroW zeroC black current resolve_color V_eqb Hblack blank parent c c' f l1 m l2); try assumption.
  apply (not_custom pW pC pL pK zeroW zeroC black current resolve_color); [|exact Hd].
  apply (read_made _ _ _ _ _ _ _ _ _ _). apply (sensible_read pW pC pL pK zeroW zeroC black current resolve_color) in Hs.
  rewrite Forall_forall in Hs. apply Hs, in_elt.
Qed.

(** An important [margin-left] loses against a later [margin-inline-start] that is not. *)
Theorem C126_logical_margin_refuted : forall blank parent wa wb a b o s m1 m2,
  declares "margin-left" [wa] m1 -> starts_plain [wa] -> pW [wa] = (Some a, []) -> m1 = mkM (m_prop m1) true o s ->
  declares "margin-inline-start" [wb] m2 -> starts_plain [wb] -> pW [wb] = (Some b, []) -> m2 = mkM (m_prop m2) false o s ->
  exists c, compute_values G blank parent [m1; m2] = Ok c /\ c_get c (F_MARGIN START) = Value (VW b).
Proof.
  intros blank parent wa wb a b o s m1 m2 (fuel1 & H1) Hp1 Ha E1 (fuel2 & H2) Hp2 Hb E2. rewrite E1, E2. clear E1 E2.
  change "margin-left"%string with (name_of (F_MARGIN START)) in H1.
  assert (S1 : says (F_MARGIN START) [wa] (VW a)) by (exists a; auto).
  rewrite (read_says pW pC pL pK zeroW zeroC black current resolve_color fuel1 (F_MARGIN START) _ _ Hp1 S1) in H1. injection H1 as <-.
  assert (Hr : nth_error (g_props G) 27 = Some (stores "margin-inline-start" (F_MARGIN START) (VW zeroW) (reads VW pW))) by reflexivity.
  apply nth_error_In in Hr. pose proof (resolve_registered _ Good _ Hr) as Hr'.
  rewrite (read_plain pW pC pL pK zeroW zeroC black current resolve_color fuel2 (of_string "margin-inline-start") _ _ (Value (VW b)) Hr' Hp2) in H2.
  2:{ cbn [stores r_parse]. unfold reads, map_fst. now rewrite Hb. }
  injection H2 as <-. apply by_value. vm_compute. reflexivity.
Qed.

(** ** C127: custom properties *)

Theorem C127_custom_declared : forall blank parent c l1 m l2 n content,
  from_sheet (l1 ++ m :: l2) -> compute_values G blank parent (l1 ++ m :: l2) = Ok c ->
  starts_with (of_string "--") (of_string n) = true -> starts_plain content -> declares n content m ->
  Forall (fun m' => name m' = of_string n -> ~ weaker (weight_of m) (weight_of m')) l1 ->
  Forall (fun m' => name m' = of_string n -> weaker (weight_of m') (weight_of m)) l2 ->
  lookup (c_custom c) (of_string n) = Some content.
Proof.
  intros blank parent c l1 m l2 n content Hr Hc Hn Hp (fuel & Hm) H1 H2.
  pose proof (custom_resolve pW pC pL pK zeroW zeroC black current resolve_color _ Hn) as Hres.
  rewrite (read_plain pW pC pL pK zeroW zeroC black current resolve_color fuel _ _ content (Content content) Hres Hp eq_refl) in Hm. injection Hm as Em. symmetry in Em.
  exact (custom_declared pW pC pL pK zeroW zeroC black current resolve_color V_eqb blank parent c l1 m l2 _ _ Hr Hc Hn Em H1 H2).
Qed.

Theorem C127_custom_inherited : forall blank parent c ms n,
  from_sheet ms -> compute_values G blank parent ms = Ok c ->
  starts_with (of_string "--") (of_string n) = true -> Forall (fun m => name m <> of_string n) ms ->
  lookup (c_custom c) (of_string n) = lookup (c_custom parent) (of_string n).
Proof. intros blank parent c ms n. exact (custom_inherited pW pC pL pK zeroW zeroC black current resolve_color V_eqb blank parent c ms (of_string n)). Qed.

(** ** C128: borders *)

(** Width, style and color in any order; those left out have their initial values. *)
Theorem C128_border_parts_partial : forall blank parent c n s ws ps l1 m l2,
  n = "border"%string \/ (s <> TOP /\ n = border_side s) ->
  ws <> [] -> Forall2 (is_part pL pK) ws ps -> declares n (concat ws) m ->
  sensible parent c (l1 ++ m :: l2) -> compute_values G blank parent (l1 ++ m :: l2) = Ok c ->
  (decisive_short (F_WIDTH s) l1 m l2 -> c_get c (F_WIDTH s) = Value (VL (last_width ps))) /\
  (decisive_short (F_STYLE s) l1 m l2 -> c_get c (F_STYLE s) = Value (VS (last_style ps))) /\
  (decisive_short (F_COLOR s) l1 m l2 -> c_get c (F_COLOR s) = Value (VK (last_color current ps))).
Proof.
  intros blank parent c n s ws ps l1 m l2 Hn Hne HF (fuel & Hm) Hs Hc.
  assert (Hin : In n endless /\ n <> "border-top"%string /\ In s (set_sides n)).
  { destruct Hn as [->|(Ht & ->)]; [|destruct s; try contradiction]; cbn; repeat split; try discriminate; try tauto. destruct s; tauto. }
  destruct Hin as (Hn' & Ht & Hsd).
  assert (Hp : starts_plain (concat ws)).
  { destruct HF as [|w p ws ps (N & P & _) _]; [contradiction|]. cbn [concat]. now apply plain_app. }
  pose proof (border_resolve pW pC pL pK zeroW zeroC black current resolve_color n Hn') as Hres.
  set (b := mkB (last_width ps) (last_style ps) (last_color current ps)).
  rewrite (read_plain pW pC pL pK zeroW zeroC black current resolve_color fuel _ _ _ (Value (VB b)) Hres Hp) in Hm.
  2:{ rewrite (border_parse pW pC pL pK zeroW zeroC black current resolve_color n Hn' Ht). unfold reads, map_fst.
      now rewrite (border_read (W := W) (C := C) pL pK current ws ps HF). }
  injection Hm as Em. symmetry in Em. destruct (border_in (W := W) (C := C) n s b Hsd) as (I1 & I2 & I3).
  pose proof (fun f v H => border_value pW pC pL pK zeroW zeroC black current resolve_color V_eqb Hblack blank parent c n b f v l1 m l2 Hn'
    (f_equal (@prop_reg V field) Em) (or_introl Em) Hs Hc H) as HV.
  split; [|split]; intros Hd; now apply HV.
Qed.

(** [border-top: thin solid] gives no border. *)
Theorem C128_border_top_thin_refuted : forall blank parent m,
  pL [keyword "thin"; keyword "solid"] = (None, [keyword "thin"; keyword "solid"]) ->
  pK [keyword "thin"; keyword "solid"] = (None, [keyword "thin"; keyword "solid"]) ->
  declares "border-top" [keyword "thin"; keyword "solid"] m ->
  exists c, compute_values G blank parent [m] = Ok c /\ c_get c (F_STYLE TOP) = Value (VS S_NONE).
Proof.
  intros blank parent m HL HK (fuel & Hm).
  assert (Hn : In "border-top"%string endless) by (right; left; reflexivity).
  assert (Hp : starts_plain [keyword "thin"; keyword "solid"]).
  { split; [repeat constructor|]. split; [discriminate|]. intros t Ht. injection Ht as <-. discriminate. }
  assert (Hb : parse_border_top pL pK current [keyword "thin"; keyword "solid"] = (Some (border0 current), [keyword "thin"; keyword "solid"])).
  { unfold parse_border_top. cbn [List.length border_loop]. unfold map_fst at 1. rewrite HL. cbn [fst snd option_map]. rewrite HK. reflexivity. }
  assert (Em : m_prop m = Deferred (border_reg pW pC pL pK zeroW zeroC black current resolve_color "border-top") [keyword "thin"; keyword "solid"]).
  { unfold parse_value in Hm. rewrite (border_resolve pW pC pL pK zeroW zeroC black current resolve_color _ Hn) in Hm.
    destruct (plain_start (C := C) (W := W) (L := L) (K := K) _ Hp) as (A1 & A2 & A3). rewrite A1, A2, A3 in Hm.
    replace (r_parse (border_reg pW pC pL pK zeroW zeroC black current resolve_color "border-top")) with (reads (@VB W C L K) (parse_border_top pL pK current)) in Hm by reflexivity.
    unfold reads, map_fst in Hm. rewrite Hb in Hm. cbn [fst snd option_map] in Hm. rewrite A1 in Hm. injection Hm as Hm. symmetry. exact Hm. }
  destruct m as [p i o s]. cbn [m_prop] in Em. subst p. apply by_value.
  assert (Hex : forall parent child, expansion G (Deferred (border_reg pW pC pL pK zeroW zeroC black current resolve_color "border-top") [keyword "thin"; keyword "solid"]) parent child
    = Ok (map (fun x => Parsed (reg (fst x)) (Value (snd x))) (border_fields "border-top" (border0 current)))).
  { intros p ch. destruct (border_short pW pC pL pK zeroW zeroC black current resolve_color _ Hn) as (fn & A & B).
    cbn [expansion]. unfold expand_property.
    assert (expand_content (c_custom ch) [keyword "thin"; keyword "solid"] = Some [keyword "thin"; keyword "solid"]) as -> by reflexivity.
    destruct (plain_start (C := C) (W := W) (L := L) (K := K) _ Hp) as (A1 & _). rewrite A1.
    replace (r_parse (border_reg pW pC pL pK zeroW zeroC black current resolve_color "border-top")) with (reads (@VB W C L K) (parse_border_top pL pK current)) by reflexivity.
    unfold reads, map_fst. rewrite Hb. cbn [fst snd option_map]. rewrite A, B. apply resolve_all_fields. }
  destruct (compute_ok V_eqb G Good Closed blank parent [mkM (Deferred (border_reg pW pC pL pK zeroW zeroC black current resolve_color "border-top") [keyword "thin"; keyword "solid"]) i o s]) as (c & Hc).
  { constructor; [|constructor]. apply (read_made _ _ _ _ _ _ _ _ _ _ ). eexists. eexists. eexists. exact Hm. }
  { constructor; [|constructor]. intros q. discriminate. }
  rewrite Hc.
  assert (Hx : ex G parent c (Deferred (border_reg pW pC pL pK zeroW zeroC black current resolve_color "border-top") [keyword "thin"; keyword "solid"]) =
    Some (map (fun x => (of_string (name_of (fst x)), Parsed (reg (fst x)) (Value (snd x)))) (border_fields "border-top" (border0 current)))).
  { unfold ex. rewrite Hex. cbn [is_short prop_reg]. destruct (border_short pW pC pL pK zeroW zeroC black current resolve_color _ Hn) as (fn & A & _).
    unfold is_short. cbn [prop_reg]. rewrite A, map_map. reflexivity. }
  assert (E : Some (c_get c (F_STYLE TOP)) = used V_eqb (reg (F_STYLE TOP)) (F_STYLE TOP) (value_of (F_STYLE TOP)) (Parsed (reg (F_STYLE TOP)) (Value (VS S_NONE))) parent c).
  { eapply (decisive_short_used pW pC pL pK zeroW zeroC black current resolve_color V_eqb Hblack blank parent c (F_STYLE TOP) [] (mkM _ i o s) []).
    - constructor; [|constructor]. split; [eexists; eexists; eexists; exact Hm|]. split; [intros q; discriminate|].
      intros _ x Hx'. cbn [m_prop] in Hx'. rewrite Hx in Hx'. injection Hx' as <-. discriminate.
    - exact Hc.
    - split; [right; left; reflexivity|]. repeat constructor.
    - exact Hx.
    - apply in_map_iff. exists (F_STYLE TOP, VS S_NONE). split; [reflexivity|]. exact (proj1 (proj2 (border_in (W := W) (C := C) "border-top" TOP (border0 current) (or_introl eq_refl)))). }
  cbn [used] in E. injection E as ->. reflexivity.
Qed.

(** [border-bottom-width: thin] is not understood. *)
Theorem C128_bottom_width_refuted : forall blank parent m k,
  In k ["thin"; "medium"; "thick"]%string -> fst (pL [keyword k]) = None ->
  declares "border-bottom-width" [keyword k] m ->
  exists c, compute_values G blank parent [m] = Ok c /\ c_get c (F_WIDTH BOTTOM) = Value (VL MEDIUM).
Proof.
  intros blank parent m k Hk HL (fuel & Hm).
  assert (Hp : starts_plain [keyword k]).
  { split; [|split; [discriminate|intros t Ht; injection Ht as <-; discriminate]].
    cbn [In] in Hk. destruct Hk as [<-|[<-|[<-|[]]]]; repeat constructor. }
  assert (Hr : read G (m_prop m)) by (eexists; eexists; eexists; exact Hm).
  change "border-bottom-width"%string with (name_of (F_WIDTH BOTTOM)) in Hm.
  assert (Em : m_prop m = Deferred (reg (F_WIDTH BOTTOM)) [keyword k]).
  { unfold parse_value in Hm. rewrite reg_resolve in Hm.
    destruct (plain_start (C := C) (W := W) (L := L) (K := K) _ Hp) as (A1 & A2 & A3). rewrite A1, A2, A3, reg_parse in Hm.
    cbn [reader] in Hm. unfold reads, map_fst in Hm. cbn [fst snd] in Hm. rewrite HL in Hm. cbn [option_map] in Hm. congruence. }
  destruct (compute_ok V_eqb G Good Closed blank parent [m]) as (c & Hc).
  { constructor; [|constructor]. apply (read_made _ _ _ _ _ _ _ _ _ _ Hr). }
  { constructor; [|constructor]. intros q. rewrite Em. discriminate. }
  exists c. split; [exact Hc|].
  assert (E : Some (c_get c (F_WIDTH BOTTOM)) = used V_eqb (reg (F_WIDTH BOTTOM)) (F_WIDTH BOTTOM) (value_of (F_WIDTH BOTTOM)) (m_prop m) parent c).
  { apply (decisive_used pW pC pL pK zeroW zeroC black current resolve_color V_eqb Hblack blank parent c (F_WIDTH BOTTOM) [] m []).
    - constructor; [|constructor]. split; [exact Hr|]. split; [intros q; rewrite Em; discriminate|]. unfold is_short. rewrite Em. discriminate.
    - exact Hc.
    - split; [unfold name; rewrite Em; reflexivity|]. repeat constructor. }
  rewrite Em in E. cbn [used] in E.
  assert (expand_content (c_custom c) [keyword k] = Some [keyword k]) as Ex by reflexivity. rewrite Ex in E.
  destruct (plain_start (C := C) (W := W) (L := L) (K := K) _ Hp) as (A1 & _). rewrite A1, reg_parse in E. cbn [reader] in E.
  unfold reads, map_fst in E. cbn [fst] in E. rewrite HL in E. cbn [fst option_map] in E. rewrite unset_value in E. now injection E.
Qed.

(** A border whose color is not declared is black, whatever the color of the text is. *)
Theorem C128_border_color_refuted : forall blank parent c s ms,
  from_sheet ms -> compute_values G blank parent ms = Ok c -> silent (F_COLOR s) ms ->
  c_get c (F_COLOR s) = Value (VK black).
Proof.
  intros blank parent c s ms H1 H2 H3.
  exact (silent_unset pW pC pL pK zeroW zeroC black current resolve_color V_eqb Hblack blank parent c (F_COLOR s) ms H1 H2 H3).
Qed.

End Box.

Print Assumptions C121_reading_ends_partial.
Print Assumptions C121_border_toggle_refuted.
Print Assumptions C122_undeclared_partial.
Print Assumptions C122_color_goes_down.
Print Assumptions C122_visibility_inherited_refuted.
Print Assumptions C123_values_exist_partial.
Print Assumptions C123_keywords_partial.
Print Assumptions C123_sides_inherit_partial.
Print Assumptions C123_border_inherit_refuted.
Print Assumptions C123_revert_refuted.
Print Assumptions C124_declared_value_partial.
Print Assumptions C124_variables_partial.
Print Assumptions C124_unknown_ignored.
Print Assumptions C124_invalid_declaration_wins_refuted.
Print Assumptions C125_one_to_four_values_partial.
Print Assumptions C125_logical_pairs_refuted.
Print Assumptions C126_other_properties_partial.
Print Assumptions C126_logical_margin_refuted.
Print Assumptions C127_custom_declared.
Print Assumptions C127_custom_inherited.
Print Assumptions C128_border_parts_partial.
Print Assumptions C128_border_top_thin_refuted.
Print Assumptions C128_bottom_width_refuted.
Print Assumptions C128_border_color_refuted.

(** ** With simple lengths and colors *)

(** A dimension; a name of a color. *)
Definition d_length (c : list sst) : option str * list sst :=
  match c with
  | TOK t :: r => if ttype_beq (t_type t) DIMENSION then (Some (t_data t), r) else (None, c)
  | _ => (None, c)
  end.
Definition d_colors : list (string * str) :=
  map (fun k => (k, of_string k)) ["red"; "blue"; "black"; "currentcolor"]%string.
Definition d_color : list sst -> option str * list sst := parse_keyword d_colors.
Definition d_resolve (k text : str) : str := if str_eqb k (of_string "currentcolor") then text else k.
Definition D : registry (@V str str str str) field :=
  box_registry d_length d_length d_length d_color (of_string "0") (of_string "0") (of_string "black") (of_string "currentcolor") d_resolve.
Definition d_eqb (a b : @V str str str str) : bool := false.
Definition px (x : string) : sst := TOK (mkT DIMENSION (of_string x)).
Definition vard (x : string) : sst := FUNC var_name [keyword x].

Definition d_read (n : string) (content : list sst) : outcome (prop (@V str str str str) field) := parse_value 9 D (of_string n) content.
Definition d_decl (n : string) (content : list sst) (i : bool) : matched (@V str str str str) field :=
  match d_read n content with
  | Ok p => mkM p i AUTHOR (mkSpec 0 0 1)%Z
  | _ => mkM (Bogus []) i AUTHOR (mkSpec 0 0 1)%Z
  end.

Local Notation d_compute := (compute_values d_eqb D).
Definition d_blank : computed (@V str str str str) field := mkC (fun _ => Content []) [].
(** The values of an element without declarations, except that its text is blue. *)
Definition d_parent : computed (@V str str str str) field :=
  match d_compute d_blank (initial_values D d_blank) [d_decl "color" [keyword "blue"] false; d_decl "--gap" [px "7px"] false] with
  | Ok c => c
  | _ => d_blank
  end.

Lemma d_consumes : consumes d_length /\ consumes d_color.
Proof.
  split; [|apply keyword_consumes]. split.
  - intros c v c' _ H. destruct c as [|[t| | | |] r]; try discriminate. unfold d_length in H.
    destruct (ttype_beq (t_type t) DIMENSION); [|discriminate]. injection H as _ <-. cbn [List.length]. lia.
  - intros c. destruct c as [|[t| | | |] r]; cbn; try lia. destruct (ttype_beq (t_type t) DIMENSION); cbn; lia.
Qed.
Example C121_example : exists p, d_read "margin-top" [FUNC toggle_name [px "1px"; TOK (mkT COMMA (of_string ",")); px "2px"]] = Ok p /\
  p = Toggle (stores "margin-top" (F_MARGIN TOP) (VW (of_string "0")) (reads VW d_length)) [Value (VW (of_string "1px")); Value (VW (of_string "2px"))].
Proof. eexists. split; reflexivity. Qed.
Example C121_example_endless : forall fuel, parse_value fuel D (of_string "border") [FUNC toggle_name [keyword "nonsense"]] = OutOfFuel.
Proof.
  apply C121_border_toggle_refuted; try reflexivity; [left; reflexivity|].
  split; [repeat constructor|]. split; [discriminate|]. intros t Ht. injection Ht as <-. discriminate.
Qed.

Lemma d_black : forall k, d_resolve (of_string "black") k = of_string "black".
Proof. reflexivity. Qed.
Lemma d_declares n content i : (match d_read n content with Ok _ => true | _ => false end) = true ->
  declares d_length d_length d_length d_color (of_string "0") (of_string "0") (of_string "black") (of_string "currentcolor") d_resolve n content (d_decl n content i).
Proof.
  intros H. unfold d_decl. unfold d_read in *. exists 9. fold D. destruct (parse_value 9 D (of_string n) content); [reflexivity|discriminate|discriminate].
Qed.

(** [margin: 1px 2px; color: red; margin-left: 3px !important; margin-left: 4px; padding-top: var(--gap)] *)
Definition d_ms : list (matched (@V str str str str) field) :=
  [d_decl "margin" [px "1px"; px "2px"] false; d_decl "color" [keyword "red"] false; d_decl "margin-left" [px "3px"] true;
   d_decl "margin-left" [px "4px"] false; d_decl "padding-top" [vard "--gap"] false].

Lemma d_ms_sensible c : sensible d_length d_length d_length d_color (of_string "0") (of_string "0") (of_string "black") (of_string "currentcolor") d_resolve
  d_parent c d_ms.
Proof.
  assert (R : forall n content i, (match d_read n content with Ok _ => true | _ => false end) = true -> read D (m_prop (d_decl n content i))).
  { intros n content i H. destruct (d_declares n content i H) as (fuel & Hf). exists fuel, (of_string n), content. exact Hf. }
  assert (N : forall n content i, match d_read n content with Ok (Defaulted _ D_REVERT) => False | Ok _ => True | _ => False end ->
    no_revert (m_prop (d_decl n content i))).
  { intros n content i H q. unfold d_decl. destruct (d_read n content) as [p| |]; try contradiction. cbn [m_prop]. intros ->. contradiction. }
  unfold d_ms. repeat (apply Forall_cons; [split; [apply R; reflexivity|]; split; [apply N; exact I|]|]); [..|apply Forall_nil].
  - intros _ x Hx.
    rewrite (sided_ex d_length d_length d_length d_color (of_string "0") (of_string "0") (of_string "black") (of_string "currentcolor") d_resolve
      MARGIN (Value (VIW (insets2 (of_string "1px") (of_string "2px")))) _
      (fun s => Value (VW (at_side (insets2 (of_string "1px") (of_string "2px")) s))) d_parent c eq_refl) in Hx; try reflexivity.
    + injection Hx as <-. discriminate.
    + left. reflexivity.
  - discriminate.
  - discriminate.
  - discriminate.
  - discriminate.
Qed.

(** The important declaration is the one that counts, though it is not the last; the other
    sides are those of [margin]; the text is red; the padding is that of the variable; nothing is
    said about the border. *)
Example C124_example : exists c, d_compute d_blank d_parent d_ms = Ok c /\
  c_get c (F_MARGIN START) = Value (VW (of_string "3px")) /\ c_get c (F_MARGIN END) = Value (VW (of_string "2px")) /\
  c_get c (F_MARGIN TOP) = Value (VW (of_string "1px")) /\ c_get c F_TEXT = Value (VK (of_string "red")) /\
  c_get c (F_PADDING TOP) = Value (VC (of_string "7px")) /\ c_get c (F_WIDTH TOP) = Value (VL MEDIUM).
Proof. apply by_value. vm_compute. repeat split. Qed.
Example C124_example_hypotheses :
  let l1 := [d_decl "margin" [px "1px"; px "2px"] false; d_decl "color" [keyword "red"] false] in
  let l2 := [d_decl "margin-left" [px "4px"] false; d_decl "padding-top" [vard "--gap"] false] in
  decisive (F_MARGIN START) l1 (d_decl "margin-left" [px "3px"] true) l2 /\ starts_plain [px "3px"] /\
  says d_length d_length d_length d_color (F_MARGIN START) [px "3px"] (VW (of_string "3px")) /\
  silent (F_WIDTH TOP) d_ms /\ physical d_ms.
Proof.
  assert (Dec : forall n l, existsb (str_eqb n) (map of_string l) = false -> ~ among n l).
  { intros n l H Hin. unfold among in Hin. assert (existsb (str_eqb n) (map of_string l) = true); [|congruence].
    apply existsb_exists. exists n. split; [exact Hin|apply str_eqb_refl]. }
  cbv zeta. split; [|split; [|split; [|split]]].
  - split; [reflexivity|]. split; [|split].
    + repeat constructor; intros _ H; destruct H as [(_ & H)|(H & _)]; discriminate H.
    + repeat constructor; intros _; left; split; reflexivity.
    + repeat (apply Forall_cons; [apply Dec; reflexivity|]). apply Forall_nil.
  - split; [repeat constructor|]. split; [discriminate|]. intros t Ht. injection Ht as <-. discriminate.
  - exists (of_string "3px"). split; reflexivity.
  - repeat (apply Forall_cons; [apply Dec; reflexivity|]). apply Forall_nil.
  - repeat (apply Forall_cons; [intros f; apply Dec; destruct f as [[]|[]|[]|[]|[]| |]; reflexivity|]). apply Forall_nil.
Qed.

(** [color: red; color: nonsense] in a blue element. *)
Example C124_example_invalid : exists c,
  d_compute d_blank d_parent [d_decl "color" [keyword "red"] false; d_decl "color" [keyword "nonsense"] false] = Ok c /\
  c_get c F_TEXT = Value (VK (of_string "blue")).
Proof. apply by_value. vm_compute. reflexivity. Qed.

(** Three elements, one in the other. *)
Example C122_example : exists r, style_element d_eqb D d_blank d_parent
    (Styled [d_decl "color" [keyword "red"] false] [Styled [d_decl "margin" [px "1px"] false] [Styled [] []]]) = Ok r /\
  option_map (map (fun x => c_get (snd x) F_TEXT))
    (along (Styled [d_decl "color" [keyword "red"] false] [Styled [d_decl "margin" [px "1px"] false] [Styled [] []]]) r [0; 0]) =
  Some (repeat (Value (VK (of_string "red"))) 3).
Proof. apply by_value. vm_compute. reflexivity. Qed.

(** Keywords: [color: unset; margin-top: initial; padding-left: inherit; border-top-width: inherit]. *)
Example C123_example : exists c, d_compute d_blank d_parent
    [d_decl "color" [keyword "unset"] false; d_decl "margin-top" [keyword "initial"] false; d_decl "padding-left" [keyword "inherit"] false] = Ok c /\
  c_get c F_TEXT = Value (VK (of_string "blue")) /\ c_get c (F_MARGIN TOP) = Value (VW (of_string "0")) /\
  c_get c (F_PADDING START) = Value (VC (of_string "0")).
Proof. apply by_value. vm_compute. repeat split. Qed.
Example C123_example_settled : settled d_resolve d_parent.
Proof. exists (of_string "blue"). split; reflexivity. Qed.
Example C123_example_revert : d_compute d_blank d_parent [d_decl "margin-top" [keyword "revert"] false] = Panic.
Proof. reflexivity. Qed.

(** Words of the shorthand [margin]. *)
Example C125_example : Forall (side_word d_length d_length d_color MARGIN) [[px "1px"]; [px "2px"]; [px "3px"]] /\
  stops d_length d_length d_color MARGIN /\ for_side START [[px "1px"]; [px "2px"]; [px "3px"]] = Some [px "2px"].
Proof.
  split; [|split; reflexivity].
  repeat (apply Forall_cons; [split; [discriminate|]; split;
    [split; [repeat constructor|]; split; [discriminate|]; intros t Ht; injection Ht as <-; discriminate|eexists; intros rest; reflexivity]|]).
  apply Forall_nil.
Qed.
Example C125_example_inline : exists c, d_compute d_blank d_parent [d_decl "margin-inline" [px "1px"; px "2px"] false] = Ok c /\
  c_get c (F_MARGIN START) = Value (VW (of_string "2px")) /\ c_get c (F_MARGIN END) = Value (VW (of_string "2px")).
Proof. apply by_value. vm_compute. repeat split. Qed.
Example C126_example : exists c, d_compute d_blank d_parent [d_decl "margin-left" [px "1px"] true; d_decl "margin-inline-start" [px "2px"] false] = Ok c /\
  c_get c (F_MARGIN START) = Value (VW (of_string "2px")).
Proof. apply by_value. vm_compute. reflexivity. Qed.

(** ** C127: a variable that uses another *)

(** The value of [--a: var(--b)] should be found where it is declared. A child that changes [--b]
    changes its [--a] as well. *)
Theorem C127_resolved_where_declared_refuted : exists c c',
  style_element d_eqb D d_blank d_parent
    (Styled [d_decl "--b" [px "1px"] false; d_decl "--a" [vard "--b"] false; d_decl "margin-top" [vard "--a"] false]
       [Styled [d_decl "--b" [px "2px"] false; d_decl "margin-top" [vard "--a"] false] []]) = Ok (Result c [Result c' []]) /\
  c_get c (F_MARGIN TOP) = Value (VW (of_string "1px")) /\ c_get c' (F_MARGIN TOP) = Value (VW (of_string "2px")).
Proof.
  cbn [style_element].
  match goal with |- exists c c', obind ?o ?k = _ /\ _ /\ _ =>
    assert (H : match o with Ok c => match d_compute d_blank c [d_decl "--b" [px "2px"] false; d_decl "margin-top" [vard "--a"] false] with
                             | Ok c' => c_get c (F_MARGIN TOP) = Value (VW (of_string "1px")) /\ c_get c' (F_MARGIN TOP) = Value (VW (of_string "2px"))
                             | _ => False end | _ => False end) by (vm_compute; split; reflexivity);
    destruct o as [c| |]; try contradiction
  end.
  cbn [obind]. destruct (d_compute d_blank c _) as [c'| |] eqn:E; try contradiction. cbn [obind].
  exists c, c'. split; [reflexivity|exact H].
Qed.
Print Assumptions C127_resolved_where_declared_refuted.
Example C127_example : exists c, d_compute d_blank d_parent [d_decl "--b" [px "1px"] false; d_decl "--b" [px "2px"] true; d_decl "--b" [px "3px"] false] = Ok c /\
  lookup (c_custom c) (of_string "--b") = Some [px "2px"] /\ lookup (c_custom c) (of_string "--gap") = Some [px "7px"].
Proof. apply by_value. vm_compute. split; reflexivity. Qed.

(** [border-left: red 2px solid] *)
Example C128_example : Forall2 (is_part d_length d_color) [[keyword "red"]; [px "2px"]; [keyword "solid"]]
    [P_COLOR (of_string "red"); P_WIDTH (Line (of_string "2px")); P_STYLE S_SOLID] /\
  exists c, d_compute d_blank d_parent [d_decl "border-left" [keyword "red"; px "2px"; keyword "solid"] false] = Ok c /\
    c_get c (F_COLOR START) = Value (VK (of_string "red")) /\ c_get c (F_WIDTH START) = Value (VL (Line (of_string "2px"))) /\
    c_get c (F_STYLE START) = Value (VS S_SOLID) /\ c_get c (F_STYLE TOP) = Value (VS S_NONE).
Proof.
  split; [|apply by_value; vm_compute; repeat split].
  assert (P : forall k, existsb (fun x => is_ident x (keyword k)) ["initial"; "inherit"; "unset"; "revert"]%string = false -> starts_plain [keyword k]).
  { intros k H. cbn [existsb] in H. repeat (apply orb_false_elim in H as [? H]). split; [repeat constructor; assumption|].
    split; [discriminate|]. intros t Ht. injection Ht as <-. discriminate. }
  repeat constructor; try discriminate; try (intros t Ht; injection Ht as <-; discriminate).
Qed.
Example C128_example_top : exists c, d_compute d_blank d_parent [d_decl "border-top" [keyword "thin"; keyword "solid"] false] = Ok c /\
  c_get c (F_STYLE TOP) = Value (VS S_NONE).
Proof. apply by_value. vm_compute. reflexivity. Qed.
