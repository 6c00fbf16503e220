(** Declarations of box properties: what does not matter, and shorthands. *)
From Coq Require Import String List NArith Bool Lia PeanoNat.
From Verif.Base Require Import Str Outcome.
From Verif.Css Require Import LexerModel ParserModel.
From Verif.Values Require Import CalcModel.
From Verif.Style Require Import CascadeModel CascadeSpec CascadeProofs.
From Verif.Props Require Import VarModel EngineModel EngineSpec EngineProofs EngineProofs2 EngineProofs3
  BoxPropModel BoxPropProofs BoxPropSpec BoxPropProofs2 BoxPropProofs3.
Import ListNotations.
Local Open Scope list_scope.

Lemma Forall2_same {A} (R : A -> A -> Prop) l : (forall x, R x x) -> Forall2 R l l.
Proof. intros H. induction l; constructor; auto. Qed.

Lemma Forall2_weaken {A B} (P Q : A -> B -> Prop) l k : (forall a b, P a b -> Q a b) -> Forall2 P l k -> Forall2 Q l k.
Proof. intros H HF. induction HF; constructor; auto. Qed.

Section Box.
Context {W C L K : Type}
        (pW : list sst -> option W * list sst) (pC : list sst -> option C * list sst)
        (pL : list sst -> option L * list sst) (pK : list sst -> option K * list sst)
        (zeroW : W) (zeroC : C) (black current : K) (resolve_color : K -> K -> K).
Variable V_eqb : @V W C L K -> @V W C L K -> bool.
Hypothesis Hblack : forall k, resolve_color black k = black.

Local Notation V := (@V W C L K).
Local Notation G := (@box_registry W C L K pW pC pL pK zeroW zeroC black current resolve_color).
Local Notation matched := (matched V field).
Local Notation computed := (computed V field).
Local Notation prop := (prop V field).
Local Notation compute_values := (compute_values V_eqb).
Local Notation Good := (box_good pW pC pL pK zeroW zeroC black current resolve_color).
Local Notation Closed := (box_closed pW pC pL pK zeroW zeroC black current resolve_color).
Local Notation sensible := (sensible pW pC pL pK zeroW zeroC black current resolve_color).
Local Notation initial_of := (@initial_of W C L K zeroW zeroC black).
Local Notation value_of := (@value_of W C L K black resolve_color).
Local Notation reg := (reg pW pC pL pK zeroW zeroC black resolve_color).
Local Notation side_word := (@side_word W C K pW pC pK).
Local Notation stops := (@stops W C K pW pC pK).

(** ** Replacing some declarations by others *)

Lemma sensible_custom parent c c' ms : c_custom c = c_custom c' -> sensible parent c ms -> sensible parent c' ms.
Proof.
  intros E. apply Forall_impl. intros m (H1 & H2 & H3). split; [exact H1|]. split; [exact H2|]. intros Hs x Hx.
  apply (H3 Hs). unfold ex in *. now rewrite (expansion_custom _ _ _ _ _ E).
Qed.

(** The same, for one member, if the middle parts say the same about it. *)
Lemma replace_same blank parent c c' f l1 a b l2 :
  sensible parent c (l1 ++ a ++ l2) -> sensible parent c' (l1 ++ b ++ l2) ->
  compute_values G blank parent (l1 ++ a ++ l2) = Ok c -> compute_values G blank parent (l1 ++ b ++ l2) = Ok c' ->
  Forall (fun m : matched => ~ among (name m) (logical_of f)) (l1 ++ a ++ l2) ->
  Forall (fun m : matched => ~ among (name m) (logical_of f)) (l1 ++ b ++ l2) ->
  filter (fun m => is_custom G (m_prop m)) a = filter (fun m => is_custom G (m_prop m)) b ->
  (c_custom c = c_custom c' ->
   Forall2 (fun x y => fst x = fst y /\ fst (snd x) = fst (snd y) /\
     used V_eqb (reg f) f (value_of f) (snd (snd x)) parent c = used V_eqb (reg f) f (value_of f) (snd (snd y)) parent c')
    (filter (fun x => str_eqb (fst x) (of_string (name_of f))) (all_longhands (map (declared G parent c) a)))
    (filter (fun x => str_eqb (fst x) (of_string (name_of f))) (all_longhands (map (declared G parent c') b)))) ->
  c_get c f = c_get c' f.
Proof.
  intros Hs Hs' Hc Hc' Hl Hl' Hcu HF.
  pose proof (sensible_read _ _ _ _ _ _ _ _ _ _ _ _ Hs) as Hr. pose proof (sensible_read _ _ _ _ _ _ _ _ _ _ _ _ Hs') as Hr'.
  assert (Hm : Forall (fun m : matched => made_by G (m_prop m)) (l1 ++ a ++ l2)) by (eapply read_all_made; exact Hr).
  assert (Hm' : Forall (fun m : matched => made_by G (m_prop m)) (l1 ++ b ++ l2)) by (eapply read_all_made; exact Hr').
  assert (E : c_custom c = c_custom c').
  { apply (compute_custom_same V_eqb G Good blank parent _ _ _ _ Hm Hm'); [|exact Hc|exact Hc'].
    rewrite !filter_app. now rewrite Hcu. }
  specialize (HF E).
  apply (compute_same V_eqb G Good _ _ _ _ (reg_owns _ _ _ _ _ _ _ _ _ Hblack f) blank blank parent parent _ _ _ _ Hm Hm' Hc Hc').
  - exact (sensible_well_formed _ _ _ _ _ _ _ _ _ _ _ _ Hs).
  - exact (sensible_well_formed _ _ _ _ _ _ _ _ _ _ _ _ Hs').
  - exact (no_logical _ _ _ _ _ _ _ _ _ parent c f _ Hr Hl).
  - exact (no_logical _ _ _ _ _ _ _ _ _ parent c' f _ Hr' Hl').
  - reflexivity.
  - rewrite reg_name.
    assert (Hd : forall l, map (declared G parent c) l = map (declared G parent c') l).
    { intros l. apply map_ext. intros m. now apply declared_custom. }
    unfold all_longhands in *. rewrite !map_app, !flat_map_app, !filter_app, !(Hd l1), !(Hd l2).
    apply Forall2_app; [|apply Forall2_app; [exact HF|]];
      apply Forall2_same; intros x; (split; [reflexivity|split; [reflexivity|]]); now apply used_custom.
Qed.

(** ** Declarations of other properties *)

Lemma irrelevant blank parent c c' f l1 m0 l2 :
  sensible parent c (l1 ++ m0 :: l2) ->
  compute_values G blank parent (l1 ++ m0 :: l2) = Ok c -> compute_values G blank parent (l1 ++ l2) = Ok c' ->
  Forall (fun m : matched => ~ among (name m) (logical_of f)) (l1 ++ l2) ->
  ~ among (name m0) (name_of f :: shorthands_of f ++ logical_of f) -> is_custom G (m_prop m0) = false ->
  c_get c f = c_get c' f.
Proof.
  intros Hs Hc Hc' Hl Hn Hcu.
  assert (Hr0 : read G (m_prop m0)).
  { pose proof (sensible_read _ _ _ _ _ _ _ _ _ _ _ _ Hs) as Hr. rewrite Forall_forall in Hr. apply Hr, in_elt. }
  assert (Hs0 : sensible parent c (l1 ++ l2)).
  { unfold BoxPropSpec.sensible in *. apply Forall_app in Hs as [H1 H2]. inversion H2; subst. apply Forall_app. auto. }
  assert (E : c_custom c = c_custom c').
  { apply (compute_custom_same V_eqb G Good blank parent (l1 ++ m0 :: l2) (l1 ++ l2)).
    - eapply read_all_made. exact (sensible_read _ _ _ _ _ _ _ _ _ _ _ _ Hs).
    - eapply read_all_made. exact (sensible_read _ _ _ _ _ _ _ _ _ _ _ _ Hs0).
    - rewrite !filter_app. cbn [filter]. now rewrite Hcu.
    - exact Hc.
    - exact Hc'. }
  apply (replace_same blank parent c c' f l1 [m0] [] l2); cbn [app].
  - exact Hs.
  - exact (sensible_custom _ _ _ _ E Hs0).
  - exact Hc.
  - exact Hc'.
  - apply Forall_app in Hl as [H1 H2]. apply Forall_app. split; [exact H1|]. constructor; [|exact H2].
    intros H. apply Hn. unfold among. cbn [map]. rewrite map_app. right. apply in_or_app. now right.
  - exact Hl.
  - cbn [filter]. now rewrite Hcu.
  - intros _. replace (filter _ (all_longhands (map (declared G parent c) [m0]))) with (@nil (str * (weight * prop))); [constructor|].
    symmetry. destruct (filter _ (all_longhands (map (declared G parent c) [m0]))) as [|[k [w p]] l] eqn:El; [reflexivity|].
    exfalso. assert (Hi : In (k, (w, p)) (filter (fun x => str_eqb (fst x) (of_string (name_of f))) (all_longhands (map (declared G parent c) [m0]))))
      by (rewrite El; now left).
    apply filter_In in Hi as [Hi Hk]. cbn [fst] in Hk. apply str_eqb_spec in Hk. subst k.
    apply in_longhands in Hi as (m & [<-|[]] & Hco & _). apply concerns_name in Hco; [|exact Hr0]. apply Hn.
    unfold among in *. cbn [map] in *. rewrite map_app. destruct Hco as [H|H]; [now left|right; apply in_or_app; now left].
Qed.

(** ** Shorthands for the four sides *)

Definition order (x : sided) : list side := match x with MARGIN => [TOP; BOTTOM; START; END] | _ => [TOP; END; BOTTOM; START] end.
Definition css_order : list side := [TOP; END; BOTTOM; START].

Lemma order_same x f :
  filter (fun s => str_eqb (of_string (name_of (member x s))) (of_string (name_of f))) (order x) =
  filter (fun s => str_eqb (of_string (name_of (member x s))) (of_string (name_of f))) css_order.
Proof. destruct x, f as [[]|[]|[]|[]|[]| |]; vm_compute; reflexivity. Qed.

Lemma name_inj f g : str_eqb (of_string (name_of f)) (of_string (name_of g)) = true -> f = g.
Proof. destruct f as [[]|[]|[]|[]|[]| |], g as [[]|[]|[]|[]|[]| |]; vm_compute; first [reflexivity|discriminate]. Qed.

Definition sided_reg_index (x : sided) : nat := match x with B_COLOR => 14 | B_STYLE => 15 | MARGIN => 26 | PADDING => 39 end.

Lemma filter_map {A B} (f : A -> B) (p : B -> bool) l : filter p (map f l) = map f (filter (fun a => p (f a)) l).
Proof. induction l as [|a l IH]; [reflexivity|]. cbn [map filter]. rewrite IH. now destruct (p (f a)). Qed.

(** [m] gives [P s] to every side, and the four declarations [q s] give [Q s]; where these
    come to the same, so do all computed values. *)
Lemma sided_replace blank parent c c' x l1 m q l2 (P : side -> prop) :
  sensible parent c (l1 ++ m :: l2) -> sensible parent c' (l1 ++ map q css_order ++ l2) ->
  compute_values G blank parent (l1 ++ m :: l2) = Ok c -> compute_values G blank parent (l1 ++ map q css_order ++ l2) = Ok c' ->
  physical (l1 ++ l2) -> name m = of_string (sided_name x) ->
  ex G parent c (m_prop m) = Some (map (fun s => (of_string (name_of (member x s)), P s)) (order x)) ->
  (forall s, prop_reg (m_prop (q s)) = Some (reg (member x s)) /\ weight_of (q s) = weight_of m) ->
  (forall s, c_custom c = c_custom c' ->
     used V_eqb (reg (member x s)) (member x s) (value_of (member x s)) (P s) parent c =
     used V_eqb (reg (member x s)) (member x s) (value_of (member x s)) (m_prop (q s)) parent c') ->
  forall f, c_get c f = c_get c' f.
Proof.
  intros Hs Hs' Hc Hc' Hph Hn Hx Hq Hu f.
  assert (Hqn : forall s, name (q s) = of_string (name_of (member x s))).
  { intros s. destruct (Hq s) as [H _]. unfold name.
    assert (prop_name (m_prop (q s)) = r_name (reg (member x s))) as -> by (destruct (m_prop (q s)); cbn [prop_reg prop_name] in *; congruence).
    apply reg_name. }
  assert (Hqb : forall s, is_bogus (m_prop (q s)) = false).
  { intros s. destruct (Hq s) as [H _]. destruct (m_prop (q s)); [reflexivity..|discriminate]. }
  assert (Hmb : is_bogus (m_prop m) = false).
  { destruct (m_prop m); [reflexivity..|discriminate]. }
  apply (replace_same blank parent c c' f l1 [m] (map q css_order) l2); cbn [app].
  - exact Hs.
  - exact Hs'.
  - exact Hc.
  - exact Hc'.
  - unfold physical in Hph. apply Forall_app in Hph as [H1 H2]. apply Forall_app. split; [|constructor].
    + eapply Forall_impl; [|exact H1]. auto.
    + rewrite Hn. intros H. assert (A : existsb (str_eqb (of_string (sided_name x))) (map of_string (logical_of f)) = false)
        by (clear; destruct x, f as [[]|[]|[]|[]|[]| |]; vm_compute; reflexivity).
      assert (B : existsb (str_eqb (of_string (sided_name x))) (map of_string (logical_of f)) = true)
        by (apply existsb_exists; eexists; split; [exact H|apply str_eqb_refl]).
      congruence.
    + eapply Forall_impl; [|exact H2]. auto.
  - unfold physical in Hph. apply Forall_app in Hph as [H1 H2]. apply Forall_app. split; [|apply Forall_app; split].
    + eapply Forall_impl; [|exact H1]. auto.
    + apply Forall_map. apply Forall_forall. intros s _. rewrite Hqn. apply logical_not_named.
    + eapply Forall_impl; [|exact H2]. auto.
  - assert (Hcm : is_custom G (m_prop m) = false).
    { unfold is_custom. unfold name in Hn. rewrite Hn. destruct x; vm_compute; reflexivity. }
    cbn [filter]. rewrite Hcm, filter_map. replace (filter _ css_order) with (@nil side); [reflexivity|].
    unfold css_order. cbn [filter].
    assert (Hcq : forall s, is_custom G (m_prop (q s)) = false).
    { intros s. unfold is_custom. specialize (Hqn s). unfold name in Hqn. rewrite Hqn, reg_resolve, reg_phase. reflexivity. }
    now rewrite !Hcq.
  - intros E.
    assert (L1 : all_longhands (map (declared G parent c) [m]) = map (fun s => (of_string (name_of (member x s)), (weight_of m, P s))) (order x)).
    { unfold all_longhands. cbn [map flat_map]. rewrite app_nil_r. unfold longhands_of, declared.
      cbn [p_bogus p_expansion p_name p_value p_important]. rewrite Hmb, Hx, map_map. reflexivity. }
    assert (L2 : all_longhands (map (declared G parent c') (map q css_order)) =
      map (fun s => (of_string (name_of (member x s)), (weight_of m, m_prop (q s)))) css_order).
    { unfold all_longhands. rewrite map_map. generalize css_order as l. induction l as [|s l IH]; [reflexivity|].
      cbn [map flat_map]. rewrite IH. unfold longhands_of, declared. cbn [p_bogus p_expansion p_name p_value p_important].
      rewrite Hqb. destruct (Hq s) as [Hqr Hqw]. unfold ex, is_short. rewrite Hqr, reg_short. cbn [app].
      specialize (Hqn s). unfold name in Hqn. rewrite Hqn. unfold weight_of in Hqw. now rewrite Hqw. }
    rewrite L1, L2, !filter_map. cbn [fst]. rewrite order_same.
    assert (A : forall l, (forall s, In s l -> member x s = f) -> Forall2 (fun x y => fst x = fst y /\ fst (snd x) = fst (snd y) /\
      used V_eqb (reg f) f (value_of f) (snd (snd x)) parent c = used V_eqb (reg f) f (value_of f) (snd (snd y)) parent c')
      (map (fun s => (of_string (name_of (member x s)), (weight_of m, P s))) l)
      (map (fun s => (of_string (name_of (member x s)), (weight_of m, m_prop (q s)))) l)).
    { induction l as [|s l IH]; intros Hl; [constructor|]. cbn [map]. constructor; [|apply IH; intros s' Hs'0; apply Hl; now right].
      cbn [fst snd]. split; [reflexivity|]. split; [reflexivity|]. rewrite <- (Hl s (or_introl eq_refl)). now apply Hu. }
    apply A. intros s Hin. apply filter_In in Hin as [_ Hin]. now apply name_inj.
Qed.

(** *** One to four values *)

Definition apart {A} (p : list sst -> option A * list sst) (vs : list A) (i : insets A) : Prop :=
  for_side TOP vs = Some (i_top i) /\ for_side END vs = Some (i_end i) /\
  for_side BOTTOM vs = Some (i_bottom i) /\ for_side START vs = Some (i_start i).

Lemma insets_words {A} (p : list sst -> option A * list sst) ws vs :
  p [] = (None, []) -> (1 <= List.length ws <= 4) ->
  Forall2 (fun w v => w <> [] /\ forall rest, p (w ++ rest) = (Some v, rest)) ws vs ->
  exists i, parse_insets p (concat ws) = (Some i, []) /\ apart p vs i.
Proof.
  intros H0 Hlen HF. unfold parse_insets, apart.
  inversion HF as [|w1 v1 ws1 vs1 [N1 R1] F1]; subst; cbn [List.length] in Hlen; [lia|]. cbn [concat].
  destruct w1 as [|s w1]; [contradiction|]. cbn [app] in R1 |- *. rewrite R1.
  inversion F1 as [|w2 v2 ws2 vs2 [N2 R2] F2]; subst; cbn [List.length concat] in *.
  { rewrite H0. exists (insets1 v1). split; [reflexivity|]. repeat split. }
  rewrite R2. inversion F2 as [|w3 v3 ws3 vs3 [N3 R3] F3]; subst; cbn [List.length concat] in *.
  { rewrite H0. exists (insets2 v1 v2). split; [reflexivity|]. repeat split. }
  rewrite R3. inversion F3 as [|w4 v4 ws4 vs4 [N4 R4] F4]; subst; cbn [List.length concat] in *.
  { rewrite H0. exists (insets3 v1 v2 v3). split; [reflexivity|]. repeat split. }
  rewrite R4. inversion F4; subst; cbn [List.length concat] in *; [|lia].
  exists (mkI v1 v2 v3 v4). split; [reflexivity|]. repeat split.
Qed.

Lemma for_side_related {A B} (R : A -> B -> Prop) s ws vs w : Forall2 R ws vs -> for_side s ws = Some w ->
  exists v, for_side s vs = Some v /\ R w v.
Proof.
  intros HF. inversion HF as [|w1 v1 ws1 vs1 R1 F1]; subst; [discriminate|].
  inversion F1 as [|w2 v2 ws2 vs2 R2 F2]; subst.
  { cbn. intros H. injection H as <-. eexists. split; [reflexivity|exact R1]. }
  inversion F2 as [|w3 v3 ws3 vs3 R3 F3]; subst.
  { destruct s; cbn; intros H; injection H as <-; eexists; (split; [reflexivity|assumption]). }
  inversion F3 as [|w4 v4 ws4 vs4 R4 F4]; subst.
  { destruct s; cbn; intros H; injection H as <-; eexists; (split; [reflexivity|assumption]). }
  inversion F4; subst; [|discriminate].
  destruct s; cbn; intros H; injection H as <-; eexists; (split; [reflexivity|assumption]).
Qed.

Lemma plain_app w rest : w <> [] -> starts_plain w -> starts_plain (w ++ rest).
Proof. destruct w; [contradiction|]. intros _ H. exact H. Qed.

Definition sided_reg (x : sided) : registration V field :=
  nth (sided_reg_index x) (g_props G) (custom_registration []).
Lemma sided_resolve x : resolve G (of_string (sided_name x)) = Some (sided_reg x).
Proof.
  destruct x.
  - apply (resolve_registered _ Good (sided_reg MARGIN)). apply (nth_error_In (g_props G) 26). reflexivity.
  - apply (resolve_registered _ Good (sided_reg PADDING)). apply (nth_error_In (g_props G) 39). reflexivity.
  - apply (resolve_registered _ Good (sided_reg B_STYLE)). apply (nth_error_In (g_props G) 15). reflexivity.
  - apply (resolve_registered _ Good (sided_reg B_COLOR)). apply (nth_error_In (g_props G) 14). reflexivity.
Qed.

Lemma resolve_all_sides x (val_at : side -> val V) l :
  resolve_all G (map (fun s => (of_string (name_of (member x s)), val_at s)) l) =
  Ok (map (fun s => Parsed (reg (member x s)) (val_at s)) l).
Proof.
  induction l as [|s l IH]; [reflexivity|]. cbn [map resolve_all]. rewrite reg_resolve, IH. reflexivity.
Qed.

Lemma sided_ex x (v : val V) fn (val_at : side -> val V) parent child : r_short (sided_reg x) = Some fn ->
  fn v = map (fun s => (of_string (name_of (member x s)), val_at s)) (order x) ->
  forall p, prop_reg p = Some (sided_reg x) ->
    (p = Parsed (sided_reg x) v \/ exists d, p = Defaulted (sided_reg x) d /\ default_value (sided_reg x) d parent = Ok v) ->
  ex G parent child p = Some (map (fun s => (of_string (name_of (member x s)), Parsed (reg (member x s)) (val_at s))) (order x)).
Proof.
  intros Hs Hf p Hp Hv. unfold ex, is_short. rewrite Hp, Hs.
  assert (expansion G p parent child = Ok (map (fun s => Parsed (reg (member x s)) (val_at s)) (order x))) as ->.
  { destruct Hv as [->|(d & -> & Hd)]; cbn [expansion]; [|rewrite Hd; cbn [obind]]; rewrite Hs, Hf; apply resolve_all_sides. }
  rewrite map_map. f_equal. apply map_ext. intros s. cbn [prop_name]. now rewrite reg_name.
Qed.

(** The values of the sides in a value of the shorthand. *)
Definition at_side {A} (i : insets A) (s : side) : A :=
  match s with TOP => i_top i | END => i_end i | BOTTOM => i_bottom i | START => i_start i end.

Lemma sided_read fuel x ws : stops x -> 1 <= List.length ws <= 4 -> Forall (side_word x) ws ->
  exists (v : val V) (val_at : side -> val V) fn,
    parse_value fuel G (of_string (sided_name x)) (concat ws) = Ok (Parsed (sided_reg x) v) /\
    r_short (sided_reg x) = Some fn /\
    fn v = map (fun s => (of_string (name_of (member x s)), val_at s)) (order x) /\
    forall fuel' s w, for_side s ws = Some w ->
      parse_value fuel' G (of_string (name_of (member x s))) w = Ok (Parsed (reg (member x s)) (val_at s)).
Proof.
  intros H0 Hlen Hw.
  assert (Hst : starts_plain (concat ws)).
  { destruct ws as [|w ws]; [cbn [List.length] in Hlen; lia|]. inversion Hw as [|? ? Hw1 _]; subst. cbn [concat].
    destruct x; destruct Hw1 as (N & S & _); now apply plain_app. }
  assert (Gen : forall {A} (inj : A -> V) (inj4 : insets A -> V) (p : list sst -> option A * list sst),
    Forall (word p) ws -> p [] = (None, []) ->
    r_parse (sided_reg x) = reads inj4 (parse_insets p) -> (forall s, reader pW pC pL pK (member x s) = reads inj p) ->
    (exists fn, r_short (sided_reg x) = Some fn /\ forall i, fn (Value (inj4 i)) =
       map (fun s => (of_string (name_of (member x s)), Value (inj (at_side i s)))) (order x)) ->
    exists (v : val V) (val_at : side -> val V) fn,
    parse_value fuel G (of_string (sided_name x)) (concat ws) = Ok (Parsed (sided_reg x) v) /\
    r_short (sided_reg x) = Some fn /\
    fn v = map (fun s => (of_string (name_of (member x s)), val_at s)) (order x) /\
    forall fuel' s w, for_side s ws = Some w ->
      parse_value fuel' G (of_string (name_of (member x s))) w = Ok (Parsed (reg (member x s)) (val_at s))).
  { intros A inj inj4 p Hp Hp0 Hrp Hrd (fn & Hfn & Hfv).
    assert (exists vs, Forall2 (fun w v => w <> [] /\ starts_plain w /\ forall rest, p (w ++ rest) = (Some v, rest)) ws vs) as (vs & HF).
    { clear - Hp. induction Hp as [|w ws (N & S & v & R) _ (vs & IH)]; [exists []; constructor|].
      exists (v :: vs). constructor; auto. }
    destruct (insets_words p ws vs Hp0 Hlen) as (i & Hi & Ha).
    { eapply Forall2_weaken; [|exact HF]. cbn beta. tauto. }
    exists (Value (inj4 i)), (fun s => Value (inj (at_side i s))), fn. split; [|split; [exact Hfn|split; [apply Hfv|]]].
    - apply read_plain; [apply sided_resolve|exact Hst|]. rewrite Hrp. unfold reads, map_fst. now rewrite Hi.
    - intros fuel' s w Hsw. destruct (for_side_related _ s ws vs w HF Hsw) as (v & Hv & N & S & R).
      assert (v = at_side i s) as ->.
      { destruct Ha as (A1 & A2 & A3 & A4). destruct s; cbn [at_side]; congruence. }
      apply read_plain; [apply reg_resolve|exact S|]. rewrite reg_parse, Hrd. unfold reads, map_fst.
      specialize (R []). rewrite app_nil_r in R. now rewrite R. }
  destruct x; cbn [BoxPropSpec.side_word BoxPropSpec.stops] in *.
  - apply (Gen W VW VIW pW Hw H0); [reflexivity|reflexivity|]. eexists. split; [reflexivity|]. reflexivity.
  - apply (Gen C VC VIC pC Hw H0); [reflexivity|reflexivity|]. eexists. split; [reflexivity|]. reflexivity.
  - apply (Gen bstyle VS VIS parse_bstyle Hw eq_refl); [reflexivity|reflexivity|]. eexists. split; [reflexivity|]. reflexivity.
  - apply (Gen K VK VIK pK Hw H0); [reflexivity|reflexivity|]. eexists. split; [reflexivity|]. reflexivity.
Qed.

Lemma sided_custom blank parent c c' x l1 m q l2 :
  Forall (fun m : matched => read G (m_prop m)) (l1 ++ m :: l2) ->
  Forall (fun m : matched => read G (m_prop m)) (l1 ++ map q css_order ++ l2) ->
  compute_values G blank parent (l1 ++ m :: l2) = Ok c -> compute_values G blank parent (l1 ++ map q css_order ++ l2) = Ok c' ->
  name m = of_string (sided_name x) -> (forall s, name (q s) = of_string (name_of (member x s))) ->
  c_custom c = c_custom c'.
Proof.
  intros Hr Hr' Hc Hc' Hn Hqn.
  apply (compute_custom_same V_eqb G Good blank parent (l1 ++ m :: l2) (l1 ++ map q css_order ++ l2)).
  - eapply read_all_made. exact Hr.
  - eapply read_all_made. exact Hr'.
  - assert (Hcm : is_custom G (m_prop m) = false).
    { unfold is_custom. unfold name in Hn. rewrite Hn. destruct x; vm_compute; reflexivity. }
    assert (Hcq : forall s, is_custom G (m_prop (q s)) = false).
    { intros s. unfold is_custom. specialize (Hqn s). unfold name in Hqn. rewrite Hqn, reg_resolve, reg_phase. reflexivity. }
    rewrite !filter_app. cbn [filter map css_order]. unfold css_order. cbn [map filter]. now rewrite Hcm, !Hcq.
  - exact Hc.
  - exact Hc'.
Qed.

(** [m], a declaration of the shorthand, against the four declarations [q]. *)
Lemma sided_equal blank parent c c' x l1 m q l2 v fn (val_at : side -> val V) :
  sensible parent c (l1 ++ l2) -> physical (l1 ++ l2) ->
  read G (m_prop m) -> no_revert (m_prop m) -> prop_reg (m_prop m) = Some (sided_reg x) ->
  (m_prop m = Parsed (sided_reg x) v \/ exists d, m_prop m = Defaulted (sided_reg x) d /\ default_value (sided_reg x) d parent = Ok v) ->
  r_short (sided_reg x) = Some fn ->
  fn v = map (fun s => (of_string (name_of (member x s)), val_at s)) (order x) ->
  (forall s, read G (m_prop (q s)) /\ no_revert (m_prop (q s)) /\ prop_reg (m_prop (q s)) = Some (reg (member x s)) /\
     weight_of (q s) = weight_of m /\
     used V_eqb (reg (member x s)) (member x s) (value_of (member x s)) (m_prop (q s)) parent c' = Some (val_at s)) ->
  compute_values G blank parent (l1 ++ m :: l2) = Ok c -> compute_values G blank parent (l1 ++ map q css_order ++ l2) = Ok c' ->
  forall f, c_get c f = c_get c' f.
Proof.
  intros Hs Hph Hmr Hmn Hmp Hmv Hfn Hfv Hq Hc Hc'.
  assert (Hn : name m = of_string (sided_name x)).
  { unfold name. assert (prop_name (m_prop m) = r_name (sided_reg x)) as -> by (destruct (m_prop m); cbn [prop_reg prop_name] in *; congruence).
    destruct x; reflexivity. }
  assert (Hqn : forall s, name (q s) = of_string (name_of (member x s))).
  { intros s. destruct (Hq s) as (_ & _ & H & _). unfold name.
    assert (prop_name (m_prop (q s)) = r_name (reg (member x s))) as -> by (destruct (m_prop (q s)); cbn [prop_reg prop_name] in *; congruence).
    apply reg_name. }
  pose proof (fun child => sided_ex x v fn val_at parent child Hfn Hfv (m_prop m) Hmp Hmv) as Hex.
  assert (S1 : sensible parent c (l1 ++ m :: l2)).
  { unfold BoxPropSpec.sensible in *. apply Forall_app in Hs as [H1 H2]. apply Forall_app. split; [exact H1|]. constructor; [|exact H2].
    split; [exact Hmr|]. split; [exact Hmn|]. intros _ y Hy. rewrite (Hex c) in Hy. injection Hy as <-. destruct x; discriminate. }
  assert (R2 : Forall (fun m : matched => read G (m_prop m)) (l1 ++ map q css_order ++ l2)).
  { apply (sensible_read _ _ _ _ _ _ _ _ _ _ _ _) in Hs. apply Forall_app in Hs as [H1 H2]. apply Forall_app. split; [exact H1|].
    apply Forall_app. split; [|exact H2]. apply Forall_map, Forall_forall. intros s _. apply Hq. }
  pose proof (sided_custom blank parent c c' x l1 m q l2 (sensible_read _ _ _ _ _ _ _ _ _ _ _ _ S1) R2 Hc Hc' Hn Hqn) as E.
  assert (S2 : sensible parent c' (l1 ++ map q css_order ++ l2)).
  { apply (sensible_custom _ _ _ _ E) in Hs. unfold BoxPropSpec.sensible in *. apply Forall_app in Hs as [H1 H2].
    apply Forall_app. split; [exact H1|]. apply Forall_app. split; [|exact H2]. apply Forall_map, Forall_forall. intros s _.
    destruct (Hq s) as (A1 & A2 & A3 & _). split; [exact A1|]. split; [exact A2|]. unfold is_short. rewrite A3, reg_short. discriminate. }
  apply (sided_replace blank parent c c' x l1 m q l2 (fun s => Parsed (reg (member x s)) (val_at s)) S1 S2 Hc Hc' Hph Hn (Hex c)).
  - intros s. destruct (Hq s) as (_ & _ & A3 & A4 & _). auto.
  - intros s _. destruct (Hq s) as (_ & _ & _ & _ & A5). rewrite A5. cbn [used]. destruct x; reflexivity.
Qed.

Lemma sided_same blank parent c c' x fuel ws l1 m q l2 :
  stops x -> 1 <= List.length ws <= 4 -> Forall (side_word x) ws ->
  parse_value fuel G (of_string (sided_name x)) (concat ws) = Ok (m_prop m) ->
  (forall s, exists w fuel', for_side s ws = Some w /\
     parse_value fuel' G (of_string (name_of (member x s))) w = Ok (m_prop (q s)) /\ weight_of (q s) = weight_of m) ->
  sensible parent c (l1 ++ l2) -> physical (l1 ++ l2) ->
  compute_values G blank parent (l1 ++ m :: l2) = Ok c ->
  compute_values G blank parent (l1 ++ map q css_order ++ l2) = Ok c' ->
  forall f, c_get c f = c_get c' f.
Proof.
  intros H0 Hlen Hw Hm Hq Hs Hph Hc Hc'.
  destruct (sided_read fuel x ws H0 Hlen Hw) as (v & val_at & fn & Hread & Hfn & Hfv & Hlong).
  assert (Em : m_prop m = Parsed (sided_reg x) v) by congruence.
  apply (sided_equal blank parent c c' x l1 m q l2 v fn val_at Hs Hph); try assumption.
  - eexists. eexists. eexists. exact Hm.
  - intros k. rewrite Em. discriminate.
  - now rewrite Em.
  - left. exact Em.
  - intros s. destruct (Hq s) as (w & fuel' & Hw' & Hp & Hwt). pose proof (Hlong fuel' s w Hw') as Hp'. rewrite Hp in Hp'.
    injection Hp' as Eq. split; [eexists; eexists; eexists; exact Hp|]. rewrite Eq. split; [discriminate|].
    split; [reflexivity|]. split; [exact Hwt|]. cbn [used]. destruct x; reflexivity.
Qed.

(** *** [inherit] and [initial] *)

(** Margins and paddings of the parent are lengths. *)
Definition proper (x : sided) (parent : computed) : Prop :=
  match x with
  | MARGIN => forall s, exists w, c_get parent (F_MARGIN s) = Value (VW w)
  | PADDING => forall s, exists w, c_get parent (F_PADDING s) = Value (VC w)
  | _ => False
  end.

Lemma sided_inherit blank parent c c' x l1 m q l2 :
  proper x parent ->
  m_prop m = Defaulted (sided_reg x) D_INHERIT ->
  (forall s, m_prop (q s) = Defaulted (reg (member x s)) D_INHERIT /\ weight_of (q s) = weight_of m) ->
  sensible parent c (l1 ++ l2) -> physical (l1 ++ l2) ->
  compute_values G blank parent (l1 ++ m :: l2) = Ok c ->
  compute_values G blank parent (l1 ++ map q css_order ++ l2) = Ok c' ->
  forall f, c_get c f = c_get c' f.
Proof.
  intros Hp Hm Hq Hs Hph Hc Hc'.
  set (iw := TOK (mkT IDENT (of_string "inherit"))).
  assert (exists fn, r_short (sided_reg x) = Some fn /\ fn (r_load (sided_reg x) parent) =
    map (fun s => (of_string (name_of (member x s)), c_get parent (member x s))) (order x)) as (fn & Hfn & Hfv).
  { destruct x; cbn [proper] in Hp; try contradiction; eexists; (split; [reflexivity|]).
    - destruct (Hp TOP) as (a & E1), (Hp END) as (b & E2), (Hp BOTTOM) as (d & E3), (Hp START) as (e & E4).
      cbn [order map member name_of]. rewrite E1, E2, E3, E4. cbn. now rewrite E1, E2, E3, E4.
    - destruct (Hp TOP) as (a & E1), (Hp END) as (b & E2), (Hp BOTTOM) as (d & E3), (Hp START) as (e & E4).
      cbn [order map member name_of]. rewrite E1, E2, E3, E4. cbn. now rewrite E1, E2, E3, E4. }
  apply (sided_equal blank parent c c' x l1 m q l2 (r_load (sided_reg x) parent) fn (fun s => c_get parent (member x s)) Hs Hph); try assumption.
  - exists 0, (of_string (sided_name x)), [iw]. unfold parse_value. rewrite sided_resolve. symmetry. rewrite Hm. reflexivity.
  - intros k. rewrite Hm. discriminate.
  - now rewrite Hm.
  - right. exists D_INHERIT. split; [exact Hm|reflexivity].
  - intros s. destruct (Hq s) as (Eq & Hwt). rewrite Eq.
    split; [exists 0, (of_string (name_of (member x s))), [iw]; unfold parse_value; rewrite reg_resolve; reflexivity|].
    split; [discriminate|]. split; [reflexivity|]. split; [exact Hwt|]. cbn [used]. destruct x; reflexivity.
Qed.

(** ** Borders *)

Lemma border_words ws ps : Forall2 (is_part pL pK) ws ps -> forall fuel b, List.length (concat ws) < fuel ->
  exists b', border_loop pK fuel eat_wss (parse_line_width pL) b (concat ws) = (b', []) /\
    b_width b' = fold_left (fun a p => match p with P_WIDTH w => w | _ => a end) ps (b_width b) /\
    b_style b' = fold_left (fun a p => match p with P_STYLE s => s | _ => a end) ps (b_style b) /\
    b_color b' = fold_left (fun a p => match p with P_COLOR k => k | _ => a end) ps (b_color b).
Proof.
  intros HF. induction HF as [|w p ws ps Hp _ IH]; intros fuel b Hf; cbn [concat].
  - exists b. destruct fuel; cbn [border_loop]; auto.
  - destruct Hp as (N & Sp & Hp). cbn [concat] in Hf. rewrite app_length in Hf.
    assert (Hl : 0 < List.length w) by (destruct w; [contradiction|cbn [List.length]; lia]).
    assert (He : eat_wss (w ++ concat ws) = w ++ concat ws) by (apply (plain_start (C := C) (W := W) (L := L) (K := K)), plain_app; assumption).
    destruct fuel as [|fuel]; [lia|].
    assert (Hstep : border_loop pK (S fuel) eat_wss (parse_line_width pL) b (w ++ concat ws) =
      match parse_line_width pL (w ++ concat ws) with
      | (Some w, c1) => border_loop pK fuel eat_wss (parse_line_width pL) (mkB w (b_style b) (b_color b)) c1
      | (None, c1) =>
        match pK c1 with
        | (Some k, c2) => border_loop pK fuel eat_wss (parse_line_width pL) (mkB (b_width b) (b_style b) k) c2
        | (None, c2) =>
          match parse_bstyle c2 with
          | (Some s, c3) => border_loop pK fuel eat_wss (parse_line_width pL) (mkB (b_width b) s (b_color b)) c3
          | (None, c3) => (b, c3)
          end
        end
      end).
    { destruct w as [|t w]; [contradiction|]. cbn [border_loop app]. cbn [app] in He. now rewrite He. }
    rewrite Hstep. clear Hstep. cbn [fold_left].
    destruct p as [x|x|x].
    + rewrite Hp. destruct (IH fuel (mkB x (b_style b) (b_color b))) as (b' & Hb & H); [lia|]. exists b'. split; [exact Hb|exact H].
    + destruct (Hp (concat ws)) as (E1 & E2 & E3). rewrite E1, E2, E3.
      destruct (IH fuel (mkB (b_width b) x (b_color b))) as (b' & Hb & H); [lia|]. exists b'. split; [exact Hb|exact H].
    + destruct (Hp (concat ws)) as (E1 & E2). rewrite E1, E2.
      destruct (IH fuel (mkB (b_width b) (b_style b) x)) as (b' & Hb & H); [lia|]. exists b'. split; [exact Hb|exact H].
Qed.

Lemma border_read ws ps : Forall2 (is_part pL pK) ws ps ->
  parse_border pL pK current (concat ws) = (Some (mkB (last_width ps) (last_style ps) (last_color current ps)), []).
Proof.
  intros HF. unfold parse_border. destruct (border_words ws ps HF (S (List.length (concat ws))) (border0 current)) as (b' & Hb & E1 & E2 & E3); [lia|].
  rewrite Hb. unfold last_width, last_style, last_color. destruct b' as [w s k]. cbn [b_width b_style b_color border0] in *. now subst.
Qed.

End Box.
