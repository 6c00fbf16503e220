(** What the declarations of box properties give. *)
From Coq Require Import String List NArith Bool Lia PeanoNat.
From Verif.Base Require Import Str Outcome.
From Verif.Css Require Import LexerModel ParserModel.
From Verif.Values Require Import CalcModel.
From Verif.Style Require Import CascadeModel CascadeSpec CascadeProofs.
From Verif.Props Require Import VarModel EngineModel EngineSpec EngineProofs EngineProofs2 EngineProofs3
  BoxPropModel BoxPropProofs BoxPropSpec BoxPropProofs2.
Import ListNotations.
Local Open Scope list_scope.

Section Box.
Context {W C L K : Type}
        (pW : list sst -> option W * list sst) (pC : list sst -> option C * list sst)
        (pL : list sst -> option L * list sst) (pK : list sst -> option K * list sst)
        (zeroW : W) (zeroC : C) (black current : K) (resolve_color : K -> K -> K).
Variable V_eqb : @V W C L K -> @V W C L K -> bool.
Hypothesis Hblack : forall k, resolve_color black k = black.

Local Notation V := (@V W C L K).
Local Notation G := (@box_registry W C L K pW pC pL pK zeroW zeroC black current resolve_color).
Local Notation matched := (matched V field).
Local Notation computed := (computed V field).
Local Notation prop := (prop V field).
Local Notation compute_values := (compute_values V_eqb).
Local Notation Good := (box_good pW pC pL pK zeroW zeroC black current resolve_color).
Local Notation Closed := (box_closed pW pC pL pK zeroW zeroC black current resolve_color).
Local Notation sensible := (sensible pW pC pL pK zeroW zeroC black current resolve_color).
Local Notation initial_of := (@initial_of W C L K zeroW zeroC black).
Local Notation value_of := (@value_of W C L K black resolve_color).
Local Notation says := (@says W C L K pW pC pL pK).

(** ** The registration of each member *)

Definition index (f : field) : nat :=
  match f with
  | F_TEXT => 0 | F_VISIBILITY => 1
  | F_COLOR s => 2 + match s with TOP => 0 | END => 1 | BOTTOM => 2 | START => 3 end
  | F_WIDTH s => 6 + match s with TOP => 0 | END => 1 | BOTTOM => 2 | START => 3 end
  | F_STYLE s => 10 + match s with TOP => 0 | END => 1 | BOTTOM => 2 | START => 3 end
  | F_MARGIN s => 22 + match s with TOP => 0 | END => 1 | BOTTOM => 2 | START => 3 end
  | F_PADDING s => 33 + match s with TOP => 0 | END => 1 | BOTTOM => 2 | START => 3 end
  end.
Definition reader (f : field) : list sst -> option (val V) * list sst :=
  match f with
  | F_TEXT | F_COLOR _ => reads VK pK | F_VISIBILITY => reads VV parse_visibility
  | F_WIDTH BOTTOM => reads VL (fun c => map_fst Line (pL c))
  | F_WIDTH _ => reads VL (parse_line_width pL) | F_STYLE _ => reads VS parse_bstyle
  | F_MARGIN _ => reads VW pW | F_PADDING _ => reads VC pC
  end.
Definition reg (f : field) : registration V field :=
  match f with
  | F_TEXT => color_registration pK black resolve_color
  | _ => stores (name_of f) f (initial_of f) (reader f)
  end.

Lemma reg_at f : nth_error (g_props G) (index f) = Some (reg f).
Proof. destruct f as [[]|[]|[]|[]|[]| |]; reflexivity. Qed.
Lemma reg_in f : In (reg f) (g_props G).
Proof. exact (nth_error_In _ _ (reg_at f)). Qed.
Lemma reg_name f : r_name (reg f) = of_string (name_of f).
Proof. destruct f; reflexivity. Qed.
Lemma reg_short f : r_short (reg f) = None.
Proof. destruct f; reflexivity. Qed.
Lemma reg_initial f : r_initial (reg f) = Value (initial_of f).
Proof. destruct f; reflexivity. Qed.
Lemma reg_parse f : r_parse (reg f) = reader f.
Proof. destruct f; reflexivity. Qed.
Lemma reg_inherited f : r_inherited (reg f) = match f with F_TEXT => true | _ => false end.
Proof. destruct f; reflexivity. Qed.
Lemma reg_phase f : r_phase (reg f) = NORMAL.
Proof. destruct f; reflexivity. Qed.
Lemma reg_resolve f : resolve G (of_string (name_of f)) = Some (reg f).
Proof. rewrite <- reg_name. apply (resolve_registered _ Good). apply reg_in. Qed.

Lemma own_text : owns G [] (reg F_TEXT) F_TEXT (value_of F_TEXT).
Proof.
  split.
  - apply reg_in.
  - intros [].
  - reflexivity.
  - reflexivity.
  - intros v p c. cbn [reg color_registration r_apply]. now rewrite set_same.
  - intros _ p c. cbn [reg color_registration r_inherit]. now rewrite set_same.
  - intros p p'. cbn [reg color_registration r_initial BoxPropSpec.value_of color_in]. now rewrite !Hblack.
  - intros q v p c Hq Hn _. destruct (in_writes _ _ _ _ _ _ _ _ _ q Hq) as (x & Hx & Hqn & Hw). apply Hw. intros Hin.
    assert (Hf : forallb (fun x => String.eqb (fst x) "color" || negb (existsb (field_eqb F_TEXT) (snd x))) wtable = true) by reflexivity.
    rewrite forallb_forall in Hf. specialize (Hf x Hx). apply orb_prop in Hf as [Hf|Hf].
    + apply String.eqb_eq in Hf. apply Hn. rewrite Hqn, Hf. reflexivity.
    + apply negb_true_iff in Hf. assert (E : existsb (field_eqb F_TEXT) (snd x) = true).
      { apply existsb_exists. exists F_TEXT. split; [exact Hin|reflexivity]. }
      congruence.
  - intros q p c _ [].
  - intros q p c Hq Hi Hn. pose proof (box_inherited pW pC pL pK zeroW zeroC black current resolve_color) as H. rewrite Forall_forall in H.
    rewrite (H q Hq Hi) in Hn. now contradiction Hn.
Qed.

Lemma reg_owns f : owns G (map of_string (logical_of f)) (reg f) f (value_of f).
Proof.
  assert (A : f <> F_TEXT -> In (name_of f, f, logical_of f) longhand_table).
  { intros Hf. unfold longhand_table. destruct f as [[]|[]|[]|[]|[]| |]; cbn [name_of logical_of];
      try contradiction; repeat (first [left; reflexivity|right]). }
  destruct f eqn:E; try exact own_text; rewrite <- E in *;
    pose proof (box_owns pW pC pL pK zeroW zeroC black current resolve_color) as H; rewrite Forall_forall in H;
    (destruct (H _ (A ltac:(rewrite E; discriminate))) as (r & Hr & Hn & Ho)); cbn [fst snd] in *;
    (assert (r = reg f) as -> by (rewrite reg_resolve in Hr; congruence)); subst f; exact Ho.
Qed.

(** ** What concerns a member *)

Lemma longs_related : Forall (fun q => forall f, In (of_string (name_of f)) (longs (r_name q)) -> among (r_name q) (shorthands_of f)) (g_props G).
Proof.
  apply (proj1 (Forall_map r_name (fun n => forall f, In (of_string (name_of f)) (longs n) -> among n (shorthands_of f)) _)).
  assert (A : Forall (fun n => forall f, existsb (str_eqb (of_string (name_of f))) (longs n) = true ->
     existsb (str_eqb n) (map of_string (shorthands_of f)) = true) (map r_name (g_props G))).
  { rewrite box_names. unfold wtable. cbn [map fst].
    repeat (apply Forall_cons; [intros [[]|[]|[]|[]|[]| |]; vm_compute; first [reflexivity|discriminate]|]). apply Forall_nil. }
  eapply Forall_impl; [|exact A]. cbn beta. intros n Hn f Hf.
  assert (Hb : existsb (str_eqb (of_string (name_of f))) (longs n) = true).
  { apply existsb_exists. eexists. split; [exact Hf|]. apply str_eqb_refl. }
  apply Hn in Hb. apply existsb_exists in Hb as (x & Hx & E). apply str_eqb_spec in E. subst x. exact Hx.
Qed.

Lemma longs_not_logical : Forall (fun q => forall f n, among n (logical_of f) -> ~ In n (longs (r_name q))) (g_props G).
Proof.
  apply (proj1 (Forall_map r_name (fun k => forall f n, among n (logical_of f) -> ~ In n (longs k)) _)).
  assert (A : Forall (fun k => forall f, forallb (fun n => negb (existsb (str_eqb n) (longs k))) (map of_string (logical_of f)) = true) (map r_name (g_props G))).
  { rewrite box_names. unfold wtable. cbn [map fst].
    repeat (apply Forall_cons; [intros [[]|[]|[]|[]|[]| |]; vm_compute; reflexivity|]). apply Forall_nil. }
  eapply Forall_impl; [|exact A]. cbn beta. intros k Hk f n Hn Hin. specialize (Hk f). rewrite forallb_forall in Hk.
  specialize (Hk n Hn). apply negb_true_iff in Hk.
  assert (Hb : existsb (str_eqb n) (longs k) = true) by (apply existsb_exists; exists n; split; [exact Hin|apply str_eqb_refl]).
  congruence.
Qed.

Lemma logical_not_named f g : ~ among (of_string (name_of f)) (logical_of g).
Proof.
  intros H. assert (A : existsb (str_eqb (of_string (name_of f))) (map of_string (logical_of g)) = false)
    by (destruct f as [[]|[]|[]|[]|[]| |], g as [[]|[]|[]|[]|[]| |]; vm_compute; reflexivity).
  assert (B : existsb (str_eqb (of_string (name_of f))) (map of_string (logical_of g)) = true)
    by (apply existsb_exists; eexists; split; [exact H|apply str_eqb_refl]).
  congruence.
Qed.

(** The shorthand and its registration. *)
Lemma ex_reg p parent child x : read G p -> ex G parent child p = Some x ->
  exists q, In q (g_props G) /\ prop_name p = r_name q /\ (x = [] \/ map fst x = longs (r_name q)).
Proof.
  intros Hr Hx. pose proof (ex_names _ _ _ _ _ _ _ _ _ _ _ _ _ Hr Hx) as Hn. unfold ex in Hx.
  destruct (is_short p) eqn:Es; [|discriminate]. unfold is_short in Es.
  destruct (prop_reg p) as [q|] eqn:Eq; [|discriminate]. destruct (r_short q) as [fn|] eqn:Ef; [|discriminate].
  exists q. assert (Hpn : prop_name p = r_name q) by (destruct p; cbn [prop_reg prop_name] in *; congruence).
  split; [|split; [exact Hpn|now rewrite <- Hpn]].
  eapply short_in; [|now rewrite Ef]. exact (read_made _ _ _ _ _ _ _ _ _ p Hr q Eq).
Qed.

Lemma concerns_name parent child f m : read G (m_prop m) ->
  concerns G parent child (of_string (name_of f)) m -> among (name m) (name_of f :: shorthands_of f).
Proof.
  intros Hr [Hb [H|(x & Hx & Hin)]]; [now left|].
  right. destruct (ex_reg _ _ _ _ Hr Hx) as (q & Hq & Hn & [->|E]); [contradiction|]. rewrite E in Hin.
  pose proof longs_related as HL. rewrite Forall_forall in HL. unfold name. rewrite Hn. exact (HL q Hq f Hin).
Qed.

Lemma concerns_logical parent child f n m : read G (m_prop m) -> among n (logical_of f) ->
  concerns G parent child n m -> name m = n.
Proof.
  intros Hr Hn [Hb [H|(x & Hx & Hin)]]; [exact H|].
  exfalso. destruct (ex_reg _ _ _ _ Hr Hx) as (q & Hq & Hqn & [->|E]); [contradiction|]. rewrite E in Hin.
  pose proof longs_not_logical as HL. rewrite Forall_forall in HL. exact (HL q Hq f n Hn Hin).
Qed.

(** Declarations from all_longhands. *)
Lemma in_longhands parent child ms n w p : In (n, (w, p)) (all_longhands (map (declared G parent child) ms)) ->
  exists m, In m ms /\ concerns G parent child n m /\ w = weight_of m.
Proof.
  unfold all_longhands. intros H. apply in_flat_map in H as (d & Hd & H). apply in_map_iff in Hd as (m & <- & Hm).
  exists m. split; [exact Hm|]. unfold longhands_of, declared in H. cbn [p_bogus p_important p_expansion p_name p_value] in H.
  unfold concerns. destruct (is_bogus (m_prop m)) eqn:Eb; [contradiction|].
  destruct (ex G parent child (m_prop m)) as [x|] eqn:Ex.
  - apply in_map_iff in H as ([k v] & E & H). cbn [fst snd] in E. injection E as -> <- <-.
    split; [|reflexivity]. split; [reflexivity|]. right. exists x. split; [reflexivity|].
    apply (in_map fst) in H. exact H.
  - destruct H as [E|[]]. injection E as <- <- <-. split; [|reflexivity]. split; [reflexivity|]. now left.
Qed.

Lemma sensible_read parent child ms : sensible parent child ms -> Forall (fun m : matched => read G (m_prop m)) ms.
Proof. apply Forall_impl. tauto. Qed.

Lemma no_logical parent child f ms : Forall (fun m : matched => read G (m_prop m)) ms ->
  Forall (fun m : matched => ~ among (name m) (logical_of f)) ms ->
  forall n w p, In n (map of_string (logical_of f)) -> ~ In (n, (w, p)) (all_longhands (map (declared G parent child) ms)).
Proof.
  intros Hr Hl n w p Hn Hin. apply in_longhands in Hin as (m & Hm & Hc & _).
  rewrite Forall_forall in Hr, Hl. apply (Hl m Hm). rewrite (concerns_logical _ _ f n m (Hr m Hm) Hn Hc). exact Hn.
Qed.

(** ** The declaration that counts *)

Lemma decisive_used blank parent c f l1 m l2 :
  sensible parent c (l1 ++ m :: l2) -> compute_values G blank parent (l1 ++ m :: l2) = Ok c ->
  decisive f l1 m l2 -> Some (c_get c f) = used V_eqb (reg f) f (value_of f) (m_prop m) parent c.
Proof.
  intros Hs Hc (Hn & H1 & H2 & H3).
  pose proof (sensible_read _ _ _ Hs) as Hr.
  assert (Hread : forall x, In x (l1 ++ m :: l2) -> read G (m_prop x)) by (rewrite Forall_forall in Hr; exact Hr).
  assert (Hlog : Forall (fun m' : matched => ~ among (name m') (logical_of f)) (l1 ++ m :: l2)).
  { apply Forall_app in H3 as [H3a H3b]. apply Forall_app. split; [exact H3a|]. constructor; [|exact H3b].
    rewrite Hn. apply logical_not_named. }
  destruct (compute_winner V_eqb G Good _ _ _ _ (reg_owns f) blank parent (l1 ++ m :: l2) c) as [HW _].
  - eapply read_all_made. exact Hr.
  - exact Hc.
  - exact (sensible_well_formed _ _ _ _ _ _ _ _ _ _ _ _ Hs).
  - exact (no_logical parent c f _ Hr Hlog).
  - apply HW. rewrite reg_name. unfold all_longhands. rewrite map_app, flat_map_app. cbn [map flat_map].
    assert (Hd : longhands_of (declared G parent c m) = [(of_string (name_of f), (weight_of m, m_prop m))]).
    { assert (Hmr : read G (m_prop m)) by (apply Hread, in_elt).
      destruct (read_cases _ _ _ _ _ _ _ _ _ _ Hmr) as [(n & E)|(r & Hr' & Hp & _)].
      - exfalso. unfold name in Hn. rewrite E in Hn. cbn [prop_name] in Hn. subst n.
        destruct Hmr as (fuel & n & content & HH). rewrite E in HH. unfold parse_value in HH.
        destruct (resolve G n) as [r|] eqn:Er.
        + destruct (parse_defaulted _); [discriminate|]. destruct (parse_toggle _ _ _) as [[|]| |]; try discriminate.
          destruct (r_parse r _) as [[|] c']; [destruct (eat_wss c')|]; discriminate.
        + injection HH as ->. rewrite reg_resolve in Er. discriminate.
      - assert (Hname : prop_name (m_prop m) = r_name r) by (destruct (m_prop m); cbn [prop_reg prop_name] in *; congruence).
        unfold name in Hn. rewrite Hname in Hn. rewrite Hn, reg_resolve in Hr'. injection Hr' as <-.
        unfold longhands_of, declared. cbn [p_bogus p_expansion p_name p_value p_important].
        replace (is_bogus (m_prop m)) with false by (destruct (m_prop m); [reflexivity..|discriminate]).
        unfold ex, is_short. rewrite Hp, reg_short, Hname, reg_name. reflexivity. }
    rewrite Hd. exists (flat_map longhands_of (map (declared G parent c) l1)), (weight_of m), (flat_map longhands_of (map (declared G parent c) l2)).
    split; [reflexivity|]. split.
    + intros w' v' Hin. apply in_longhands in Hin as (m' & Hm' & Hco & ->).
      rewrite Forall_forall in H1. apply (H1 m' Hm'). apply (concerns_name parent c); [|exact Hco]. apply Hread. apply in_or_app. now left.
    + intros w' v' Hin. apply in_longhands in Hin as (m' & Hm' & Hco & ->).
      rewrite Forall_forall in H2. apply (H2 m' Hm'). apply (concerns_name parent c); [|exact Hco]. apply Hread. apply in_or_app. right. now right.
Qed.

(** ** What nobody declares *)

Lemma unset_value f parent : unset (reg f) f (value_of f) parent =
  match f with F_TEXT => c_get parent F_TEXT | _ => Value (initial_of f) end.
Proof. unfold unset. rewrite reg_inherited, reg_initial. destruct f; reflexivity. Qed.

Lemma silent_unset blank parent c f ms :
  Forall (fun m : matched => read G (m_prop m)) ms -> compute_values G blank parent ms = Ok c -> silent f ms ->
  c_get c f = match f with F_TEXT => c_get parent F_TEXT | _ => Value (initial_of f) end.
Proof.
  intros Hr Hc Hs. rewrite <- unset_value.
  apply (compute_undeclared V_eqb G Good _ _ _ _ (reg_owns f) blank parent ms c).
  - eapply read_all_made. exact Hr.
  - exact Hc.
  - unfold silent in Hs. rewrite Forall_forall in *. intros m Hm. specialize (Hr m Hm). specialize (Hs m Hm). unfold among in Hs.
    cbn [map] in Hs. rewrite map_app in Hs. split.
    + rewrite reg_name. intros Hco. apply (concerns_name parent c) in Hco; [|exact Hr]. apply Hs.
      destruct Hco as [H|H]; [now left|right; apply in_or_app; now left].
    + intros n Hn Hco. apply Hs. right. apply in_or_app. right.
      rewrite (concerns_logical parent c f n m Hr Hn Hco). exact Hn.
Qed.

(** ** Reading one value *)

Lemma says_reader f content v : says f content v -> reader f content = (Some (Value v), []).
Proof.
  assert (A : forall {B} (i : B -> V) (p : list sst -> option B * list sst) x, p content = (Some x, []) ->
     reads i p content = (Some (Value (i x)), [])).
  { intros B i p x H. unfold reads, map_fst. now rewrite H. }
  destruct f as [s|s|s|s|s| |]; cbn [BoxPropSpec.says reader].
  - intros (w & H & ->). now apply A.
  - intros (w & H & ->). now apply A.
  - assert (B : ((exists k w, content = [keyword k] /\ In (k, w) [("thin", THIN); ("medium", MEDIUM); ("thick", THICK)]%string /\ v = VL w) \/
      (exists l s r, pL content = (Some l, []) /\ content = s :: r /\
         Forall (fun k => is_ident k s = false) ["thin"; "medium"; "thick"]%string /\ v = VL (Line l))) ->
      reads VL (parse_line_width pL) content = (Some (Value v), [])).
    { intros [(k & w & -> & Hk & ->)|(l & s0 & r & Hl & Hc & Hk & ->)].
      - cbn [In] in Hk. repeat (destruct Hk as [Hk|Hk]; [injection Hk as <- <-; reflexivity|]). contradiction.
      - subst content. apply A. unfold parse_line_width. cbn [parse_keyword].
        inversion Hk as [|? ? E1 Hk1]; subst. inversion Hk1 as [|? ? E2 Hk2]; subst. inversion Hk2 as [|? ? E3 _]; subst.
        rewrite E1, E2, E3. unfold map_fst. now rewrite Hl. }
    destruct s; try exact B. intros (l & Hl & ->). apply A. unfold map_fst. now rewrite Hl.
  - intros (k & x & -> & Hk & ->). cbn [In] in Hk. repeat (destruct Hk as [Hk|Hk]; [injection Hk as <- <-; reflexivity|]). contradiction.
  - intros (w & H & ->). now apply A.
  - intros (w & H & ->). now apply A.
  - intros (k & x & -> & Hk & ->). cbn [In] in Hk. repeat (destruct Hk as [Hk|Hk]; [injection Hk as <- <-; reflexivity|]). contradiction.
Qed.

Lemma plain_start content : starts_plain content ->
  eat_wss content = content /\ parse_defaulted content = None /\ forall fuel (r : registration V field), parse_toggle fuel r content = Ok None.
Proof.
  destruct content as [|s content]; [contradiction|]. cbn [starts_plain]. intros (Hk & Hf & Hw).
  inversion Hk as [|? ? E1 Hk1]; subst. inversion Hk1 as [|? ? E2 Hk2]; subst. inversion Hk2 as [|? ? E3 Hk3]; subst. inversion Hk3 as [|? ? E4 _]; subst.
  split; [|split].
  - destruct s as [t| | | |]; try reflexivity. cbn [eat_wss]. destruct (ttype_beq (t_type t) WHITESPACE) eqn:E; [|reflexivity].
    exfalso. apply (Hw t eq_refl). now apply internal_ttype_dec_bl in E.
  - cbn [parse_defaulted]. now rewrite E1, E2, E3, E4.
  - intros fuel r. unfold parse_toggle. destruct s as [|n c| | |]; try reflexivity. now rewrite (Hf n c eq_refl).
Qed.

Lemma read_plain fuel n r content v : resolve G n = Some r -> starts_plain content -> r_parse r content = (Some v, []) ->
  parse_value fuel G n content = Ok (Parsed r v).
Proof.
  intros Hr Hp Hv. destruct (plain_start _ Hp) as (E1 & E2 & E3). unfold parse_value. now rewrite Hr, E1, E2, E3, Hv.
Qed.

Lemma read_says fuel f content v : starts_plain content -> says f content v ->
  parse_value fuel G (of_string (name_of f)) content = Ok (Parsed (reg f) (Value v)).
Proof.
  intros Hp Hs. apply read_plain; [apply reg_resolve|exact Hp|]. rewrite reg_parse. now apply says_reader.
Qed.

(** ** A shorthand that counts *)

Lemma decisive_short_used blank parent c f l1 m l2 x p :
  sensible parent c (l1 ++ m :: l2) -> compute_values G blank parent (l1 ++ m :: l2) = Ok c ->
  decisive_short f l1 m l2 -> ex G parent c (m_prop m) = Some x -> In (of_string (name_of f), p) x ->
  Some (c_get c f) = used V_eqb (reg f) f (value_of f) p parent c.
Proof.
  intros Hs Hc (Hn & H1 & H2 & H3) Hx Hp.
  pose proof (sensible_read _ _ _ Hs) as Hr.
  assert (Hread : forall x, In x (l1 ++ m :: l2) -> read G (m_prop x)) by (rewrite Forall_forall in Hr; exact Hr).
  assert (Hmr : read G (m_prop m)) by (apply Hread, in_elt).
  destruct (ex_reg _ _ _ _ Hmr Hx) as (q & Hq & Hqn & [->|Ex]); [contradiction|].
  assert (Hlog : Forall (fun m' : matched => ~ among (name m') (logical_of f)) (l1 ++ m :: l2)).
  { apply Forall_app in H3 as [H3a H3b]. apply Forall_app. split; [exact H3a|]. constructor; [|exact H3b].
    intros Hl. assert (A : forallb (fun n => negb (existsb (str_eqb n) (map of_string (logical_of f)))) (map of_string (shorthands_of f)) = true)
      by (clear; destruct f as [[]|[]|[]|[]|[]| |]; vm_compute; reflexivity).
    rewrite forallb_forall in A. specialize (A _ Hn). apply negb_true_iff in A.
    assert (B : existsb (str_eqb (name m)) (map of_string (logical_of f)) = true)
      by (apply existsb_exists; eexists; split; [exact Hl|apply str_eqb_refl]).
    congruence. }
  destruct (compute_winner V_eqb G Good _ _ _ _ (reg_owns f) blank parent (l1 ++ m :: l2) c) as [HW _].
  - eapply read_all_made. exact Hr.
  - exact Hc.
  - exact (sensible_well_formed _ _ _ _ _ _ _ _ _ _ _ _ Hs).
  - exact (no_logical parent c f _ Hr Hlog).
  - apply HW. rewrite reg_name. unfold all_longhands. rewrite map_app, flat_map_app. cbn [map flat_map].
    pose proof (longs_nodup pW pC pL pK zeroW zeroC black current resolve_color) as HN. rewrite Forall_forall in HN. specialize (HN q Hq). rewrite <- Ex in HN.
    apply in_split in Hp as (x1 & x2 & ->). rewrite map_app in HN. cbn [map fst] in HN. apply NoDup_remove_2 in HN.
    assert (Hb : is_bogus (m_prop m) = false) by (destruct (m_prop m); [reflexivity..|discriminate]).
    assert (Hd : longhands_of (declared G parent c m) =
       map (fun nv => (fst nv, (weight_of m, snd nv))) x1 ++ (of_string (name_of f), (weight_of m, p)) :: map (fun nv => (fst nv, (weight_of m, snd nv))) x2).
    { unfold longhands_of, declared. cbn [p_bogus p_expansion p_name p_value p_important]. rewrite Hb, Hx, map_app. reflexivity. }
    rewrite Hd.
    exists (flat_map longhands_of (map (declared G parent c) l1) ++ map (fun nv => (fst nv, (weight_of m, snd nv))) x1), (weight_of m),
      (map (fun nv => (fst nv, (weight_of m, snd nv))) x2 ++ flat_map longhands_of (map (declared G parent c) l2)).
    split; [rewrite <- !app_assoc; reflexivity|].
    assert (Hnot : forall y w' v', (y = x1 \/ y = x2) -> ~ In (of_string (name_of f), (w', v')) (map (fun nv => (fst nv, (weight_of m, snd nv))) y)).
    { intros y w' v' Hy Hin. apply in_map_iff in Hin as ([k v] & E & Hin). cbn [fst snd] in E. injection E as -> _ _.
      apply HN. apply in_or_app. apply (in_map fst) in Hin. cbn [fst] in Hin. destruct Hy as [-> | ->]; auto. }
    split.
    + intros w' v' Hin. apply in_app_or in Hin as [Hin|Hin]; [|exfalso; exact (Hnot x1 w' v' (or_introl eq_refl) Hin)].
      apply in_longhands in Hin as (m' & Hm' & Hco & ->).
      rewrite Forall_forall in H1. apply (H1 m' Hm'). apply (concerns_name parent c); [|exact Hco]. apply Hread. apply in_or_app. now left.
    + intros w' v' Hin. apply in_app_or in Hin as [Hin|Hin]; [exfalso; exact (Hnot x2 w' v' (or_intror eq_refl) Hin)|].
      apply in_longhands in Hin as (m' & Hm' & Hco & ->).
      rewrite Forall_forall in H2. apply (H2 m' Hm'). apply (concerns_name parent c); [|exact Hco]. apply Hread. apply in_or_app. right. now right.
Qed.

End Box.
