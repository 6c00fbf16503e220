(** The registry of BoxPropModel.v meets what EngineSpec.v asks for. *)
From Coq Require Import String List NArith Bool Lia PeanoNat.
From Verif.Base Require Import Str Outcome.
From Verif.Css Require Import LexerModel ParserModel.
From Verif.Values Require Import CalcModel.
From Verif.Style Require Import CascadeModel CascadeSpec CascadeProofs.
From Verif.Props Require Import VarModel EngineModel EngineSpec EngineProofs EngineProofs2 BoxPropModel.
Import ListNotations.
Local Open Scope list_scope.

Fixpoint nodupb (l : list str) : bool :=
  match l with
  | [] => true
  | x :: r => negb (existsb (fun y => str_eqb y x) r) && nodupb r
  end.
Lemma nodupb_NoDup l : nodupb l = true -> NoDup l.
Proof.
  induction l as [|x l IH]; cbn [nodupb]; intros H; [constructor|].
  apply andb_prop in H as [H1 H2]. constructor; [|auto]. intros Hin.
  apply negb_true_iff in H1. assert (E : existsb (fun y => str_eqb y x) l = true).
  { apply existsb_exists. exists x. split; [exact Hin|apply str_eqb_refl]. }
  congruence.
Qed.

(** For facts about every registration. *)
Ltac all_regs := cbv [g_props box_registry border_longhands border_sides border_shorthands margins logical_margins paddings app visibility_registration];
  repeat (apply Forall_cons; [|]); [..|apply Forall_nil].

Section Box.
Context {W C L K : Type}
        (pW : list sst -> option W * list sst) (pC : list sst -> option C * list sst)
        (pL : list sst -> option L * list sst) (pK : list sst -> option K * list sst)
        (zeroW : W) (zeroC : C) (black current : K) (resolve_color : K -> K -> K).

Local Notation V := (@V W C L K).
Local Notation G := (@box_registry W C L K pW pC pL pK zeroW zeroC black current resolve_color).

Lemma field_eqb_spec a b : field_eqb a b = true -> a = b.
Proof. destruct a, b; cbn [field_eqb]; try discriminate; try reflexivity; intros H; apply internal_side_dec_bl in H; now subst. Qed.

Lemma set_other (c : computed V field) f v f' : f' <> f -> c_get (set_field field_eqb c f v) f' = c_get c f'.
Proof.
  intros H. cbn [set_field c_get]. destruct (field_eqb f' f) eqn:E; [|reflexivity].
  apply field_eqb_spec in E. contradiction.
Qed.

Lemma field_eqb_refl f : field_eqb f f = true.
Proof. destruct f; cbn [field_eqb]; try reflexivity; now apply internal_side_dec_lb. Qed.

Lemma set_same (c : computed V field) f v : c_get (set_field field_eqb c f v) f = v.
Proof. cbn [set_field c_get]. now rewrite field_eqb_refl. Qed.

(** What each property can change. *)
Definition writes_only (q : registration V field) (fs : list field) : Prop :=
  forall v p c f, ~ In f fs -> c_get (r_apply q v p c) f = c_get c f.

Definition wtable : list (string * list field) :=
  [("color", [F_TEXT]); ("visibility", [F_VISIBILITY]);
   ("border-top-color", [F_COLOR TOP]); ("border-right-color", [F_COLOR END]);
   ("border-bottom-color", [F_COLOR BOTTOM]); ("border-left-color", [F_COLOR START]);
   ("border-top-width", [F_WIDTH TOP]); ("border-right-width", [F_WIDTH END]);
   ("border-bottom-width", [F_WIDTH BOTTOM]); ("border-left-width", [F_WIDTH START]);
   ("border-top-style", [F_STYLE TOP]); ("border-right-style", [F_STYLE END]);
   ("border-bottom-style", [F_STYLE BOTTOM]); ("border-left-style", [F_STYLE START]);
   ("border-color", []); ("border-style", []); ("border-width", []);
   ("border-top", []); ("border-right", []); ("border-bottom", []); ("border-left", []); ("border", []);
   ("margin-top", [F_MARGIN TOP]); ("margin-right", [F_MARGIN END]);
   ("margin-bottom", [F_MARGIN BOTTOM]); ("margin-left", [F_MARGIN START]); ("margin", []);
   ("margin-inline-start", [F_MARGIN START]); ("margin-inline-end", [F_MARGIN END]);
   ("margin-inline", [F_MARGIN START; F_MARGIN END]);
   ("margin-block-start", [F_MARGIN TOP]); ("margin-block-end", [F_MARGIN BOTTOM]);
   ("margin-block", [F_MARGIN TOP; F_MARGIN BOTTOM]);
   ("padding-top", [F_PADDING TOP]); ("padding-right", [F_PADDING END]);
   ("padding-bottom", [F_PADDING BOTTOM]); ("padding-left", [F_PADDING START]);
   ("padding-inline-start", [F_PADDING START]); ("padding-inline-end", [F_PADDING END]); ("padding", [])]%string.

Lemma w_stores n f i p : writes_only (@stores W C L K n f i p) [f].
Proof. intros v par c f' H. cbn [stores r_apply]. apply set_other. intros ->. apply H. now left. Qed.
Lemma w_short n i l p e : writes_only (@shorthand W C L K n i l p e) [].
Proof. intros v par c f' H. reflexivity. Qed.
Lemma w_pair n a b f1 f2 : writes_only (@pair_of W C L K pW zeroW n a b f1 f2) [f1; f2].
Proof.
  intros v par c f' H. cbn [pair_of r_apply]. destruct v as [|[]]; try reflexivity.
  rewrite !set_other; [reflexivity| |]; intros ->; apply H; cbn [In]; auto.
Qed.
Lemma w_color : writes_only (@color_registration W C L K pK black resolve_color) [F_TEXT].
Proof. intros v par c f' H. cbn [color_registration r_apply]. apply set_other. intros ->. apply H. now left. Qed.

Lemma box_writes : Forall2 (fun q x => r_name q = of_string (fst x) /\ writes_only q (snd x)) (g_props G) wtable.
Proof.
  cbv [g_props box_registry border_longhands border_sides border_shorthands margins logical_margins paddings app wtable visibility_registration].
  repeat (apply Forall2_cons; [split; [reflexivity|first [exact w_color|apply w_stores|apply w_short|apply w_pair]]|]).
  apply Forall2_nil.
Qed.

Lemma box_custom : Forall (fun q => r_phase q = NORMAL /\
  (forall v p c, c_custom (r_apply q v p c) = c_custom c) /\ (forall p c, c_custom (r_inherit q p c) = c_custom c)) (g_props G).
Proof.
  assert (A : forall n f i p, r_phase (@stores W C L K n f i p) = NORMAL /\
     (forall v p' c, c_custom (r_apply (@stores W C L K n f i p) v p' c) = c_custom c) /\
     (forall p' c, c_custom (r_inherit (@stores W C L K n f i p) p' c) = c_custom c)) by (intros; repeat split; reflexivity).
  assert (B : forall n i l p e, r_phase (@shorthand W C L K n i l p e) = NORMAL /\
     (forall v p' c, c_custom (r_apply (@shorthand W C L K n i l p e) v p' c) = c_custom c) /\
     (forall p' c, c_custom (r_inherit (@shorthand W C L K n i l p e) p' c) = c_custom c)) by (intros; repeat split; reflexivity).
  assert (D : forall n a b f1 f2, r_phase (@pair_of W C L K pW zeroW n a b f1 f2) = NORMAL /\
     (forall v p' c, c_custom (r_apply (@pair_of W C L K pW zeroW n a b f1 f2) v p' c) = c_custom c) /\
     (forall p' c, c_custom (r_inherit (@pair_of W C L K pW zeroW n a b f1 f2) p' c) = c_custom c)).
  { intros. split; [reflexivity|split]; [|reflexivity]. intros v p' c. cbn [pair_of r_apply]. destruct v as [|[]]; reflexivity. }
  all_regs; first [apply A|apply B|apply D|repeat split; reflexivity].
Qed.

Lemma box_inherited : Forall (fun q => r_inherited q = true -> q = @color_registration W C L K pK black resolve_color) (g_props G).
Proof. all_regs; first [discriminate|reflexivity]. Qed.

Lemma box_names : map r_name (g_props G) = map (fun x => of_string (fst x)) wtable.
Proof.
  pose proof box_writes as H. induction H as [|q x l l' [H _] _ IH]; [reflexivity|]. cbn [map]. now rewrite H, IH.
Qed.

Lemma box_good : good G.
Proof.
  pose proof box_custom as Hc. rewrite Forall_forall in Hc. split.
  - apply nodupb_NoDup. rewrite box_names. vm_compute. reflexivity.
  - intros q _. reflexivity.
  - discriminate.
  - intros q Hin. destruct (Hc q Hin) as [-> _]. discriminate.
  - intros q v p c Hin. apply (Hc q Hin).
  - intros q p c Hin. apply (Hc q Hin).
Qed.

Definition long_name (n : str) : bool :=
  existsb (fun x => str_eqb (of_string (fst x)) n) (filter (fun x => match snd x with [] => false | _ => true end) wtable).

(** A name with something to write is that of a longhand. *)
Lemma box_longs : Forall2 (fun q x => r_short q = None <-> snd x <> []) (g_props G) wtable.
Proof.
  cbv [g_props box_registry border_longhands border_sides border_shorthands margins logical_margins paddings app wtable visibility_registration].
  repeat (apply Forall2_cons; [split; [intros E; discriminate E || discriminate|intros E; first [reflexivity|exfalso; now apply E]]|]).
  apply Forall2_nil.
Qed.

Lemma resolve_long n : long_name n = true -> exists r, resolve G n = Some r /\ r_short r = None.
Proof.
  unfold long_name. intros H. apply existsb_exists in H as (x & Hx & E). apply str_eqb_spec in E. subst n.
  apply filter_In in Hx as [Hx Hw].
  pose proof box_longs as HL. pose proof box_writes as HW.
  assert (exists q, In q (g_props G) /\ r_name q = of_string (fst x) /\ r_short q = None) as (q & Hq & Hn & Hs).
  { clear - Hx Hw HL HW. revert HW. induction HL as [|q y l l' H1 _ IH]; intros HW; [contradiction|].
    inversion HW as [|? ? ? ? [H2 _] HW']; subst. destruct Hx as [->|Hx].
    - exists q. split; [now left|]. split; [exact H2|]. apply H1. intros E. rewrite E in Hw. discriminate.
    - destruct (IH Hx HW') as (q' & Hq' & H'). exists q'. split; [now right|exact H']. }
  exists q. split; [|exact Hs]. rewrite <- Hn. apply (resolve_registered _ box_good). exact Hq.
Qed.

Lemma box_closed : closed G.
Proof.
  assert (H : Forall (fun q => forall fn v n w, r_short q = Some fn -> In (n, w) (fn v) -> long_name n = true) (g_props G)).
  { all_regs; intros fn v n w Hs Hn; try discriminate Hs; injection Hs as <-; destruct v as [|[]]; try contradiction;
      cbn in Hn; repeat (destruct Hn as [Hn|Hn]; [injection Hn as <- <-; vm_compute; reflexivity|]); contradiction. }
  rewrite Forall_forall in H. intros q fn v n w Hq Hs Hn. apply resolve_long. exact (H q Hq fn v n w Hs Hn).
Qed.

(** Each longhand with the member that it sets and its rivals. *)
Definition longhand_table : list (string * field * list string) :=
  [("visibility", F_VISIBILITY, []);
   ("border-top-color", F_COLOR TOP, []); ("border-right-color", F_COLOR END, []);
   ("border-bottom-color", F_COLOR BOTTOM, []); ("border-left-color", F_COLOR START, []);
   ("border-top-width", F_WIDTH TOP, []); ("border-right-width", F_WIDTH END, []);
   ("border-bottom-width", F_WIDTH BOTTOM, []); ("border-left-width", F_WIDTH START, []);
   ("border-top-style", F_STYLE TOP, []); ("border-right-style", F_STYLE END, []);
   ("border-bottom-style", F_STYLE BOTTOM, []); ("border-left-style", F_STYLE START, []);
   ("margin-top", F_MARGIN TOP, ["margin-block-start"; "margin-block"]);
   ("margin-right", F_MARGIN END, ["margin-inline-end"; "margin-inline"]);
   ("margin-bottom", F_MARGIN BOTTOM, ["margin-block-end"; "margin-block"]);
   ("margin-left", F_MARGIN START, ["margin-inline-start"; "margin-inline"]);
   ("padding-top", F_PADDING TOP, []); ("padding-right", F_PADDING END, ["padding-inline-end"]);
   ("padding-bottom", F_PADDING BOTTOM, []); ("padding-left", F_PADDING START, ["padding-inline-start"])]%string.

Definition as_is (v : val V) (_ : computed V field) : val V := v.


Definition frame_ok (n : string) (f : field) (rv : list string) : bool :=
  forallb (fun x => String.eqb (fst x) n || existsb (String.eqb (fst x)) rv || negb (existsb (field_eqb f) (snd x))) wtable.

Lemma in_writes q : In q (g_props G) -> exists x, In x wtable /\ r_name q = of_string (fst x) /\ writes_only q (snd x).
Proof.
  intros Hq. pose proof box_writes as H. induction H as [|q' x l l' [H1 H2] _ IH]; [contradiction|].
  destruct Hq as [->|Hq]; [exists x; split; [now left|auto]|].
  destruct (IH Hq) as (y & Hy & H'). exists y. split; [now right|exact H'].
Qed.

Lemma own_stores n f i p rv :
  In (@stores W C L K n f i p) (g_props G) ->
  existsb (fun x => str_eqb (of_string n) (of_string x)) rv = false -> frame_ok n f rv = true -> f <> F_TEXT ->
  Forall (fun q => existsb (fun x => str_eqb (of_string x) (r_name q)) rv = true ->
     forall par c, c_get (r_apply q (r_initial q) par c) f = Value i) (g_props G) ->
  owns G (map of_string rv) (@stores W C L K n f i p) f as_is.
Proof.
  intros Hin Hself Hf Ht Hr. rewrite Forall_forall in Hr. split.
  - exact Hin.
  - cbn [stores r_name]. intros H. apply in_map_iff in H as (x & E & Hx).
    assert (H : existsb (fun x => str_eqb (of_string n) (of_string x)) rv = true).
    { apply existsb_exists. exists x. split; [exact Hx|]. rewrite E. apply str_eqb_refl. }
    congruence.
  - reflexivity.
  - reflexivity.
  - intros v par c. cbn [stores r_apply]. apply set_same.
  - discriminate.
  - reflexivity.
  - intros q v par c Hq Hne Hnr. destruct (in_writes q Hq) as (x & Hx & Hn & Hw). apply Hw.
    unfold frame_ok in Hf. rewrite forallb_forall in Hf. specialize (Hf x Hx).
    apply orb_prop in Hf as [Hf|Hf]; [apply orb_prop in Hf as [Hf|Hf]|].
    + apply String.eqb_eq in Hf. exfalso. apply Hne. rewrite Hn, Hf. reflexivity.
    + apply existsb_exists in Hf as (y & Hy & E). apply String.eqb_eq in E. exfalso. apply Hnr. rewrite Hn, E.
      now apply in_map.
    + intros Hif. apply negb_true_iff in Hf.
      assert (H : existsb (field_eqb f) (snd x) = true).
      { apply existsb_exists. exists f. split; [exact Hif|apply field_eqb_refl]. }
      congruence.
  - intros q par c Hq Hri. apply Hr; [exact Hq|].
    apply in_map_iff in Hri as (x & E & Hx). apply existsb_exists. exists x. split; [exact Hx|]. rewrite E. apply str_eqb_refl.
  - intros q par c Hq Hi _. pose proof box_inherited as H. rewrite Forall_forall in H. rewrite (H q Hq Hi).
    cbn [color_registration r_inherit]. now apply set_other.
Qed.

Lemma no_rivals f i : Forall (fun q : registration V field => existsb (fun x => str_eqb (of_string x) (r_name q)) [] = true ->
     forall par c, c_get (r_apply q (r_initial q) par c) f = Value i) (g_props G).
Proof. apply Forall_forall. discriminate. Qed.

Ltac some_rivals :=
  all_regs; (let H := fresh in intros H; first [discriminate (H : _ = true)|intros par c; reflexivity]).

Lemma box_owns : Forall (fun x => exists r, resolve G (of_string (fst (fst x))) = Some r /\ r_name r = of_string (fst (fst x)) /\
  owns G (map of_string (snd x)) r (snd (fst x)) as_is) longhand_table.
Proof.
  assert (A : forall k n f i p rv, nth_error (g_props G) k = Some (@stores W C L K n f i p) ->
    existsb (fun x => str_eqb (of_string n) (of_string x)) rv = false -> frame_ok n f rv = true -> f <> F_TEXT ->
    Forall (fun q => existsb (fun x => str_eqb (of_string x) (r_name q)) rv = true ->
     forall par c, c_get (r_apply q (r_initial q) par c) f = Value i) (g_props G) ->
    exists r, resolve G (of_string n) = Some r /\ r_name r = of_string n /\ owns G (map of_string rv) r f as_is).
  { intros k n f i p rv Hk Hs Hf Ht Hr. apply nth_error_In in Hk. eexists. split; [|split].
    - exact (resolve_registered _ box_good _ Hk).
    - reflexivity.
    - now apply own_stores. }
  unfold longhand_table.
  apply Forall_cons; [eapply (A 1); [reflexivity|vm_compute; reflexivity|vm_compute; reflexivity|discriminate|apply no_rivals]|].
  apply Forall_cons; [eapply (A 2); [reflexivity|vm_compute; reflexivity|vm_compute; reflexivity|discriminate|apply no_rivals]|].
  apply Forall_cons; [eapply (A 3); [reflexivity|vm_compute; reflexivity|vm_compute; reflexivity|discriminate|apply no_rivals]|].
  apply Forall_cons; [eapply (A 4); [reflexivity|vm_compute; reflexivity|vm_compute; reflexivity|discriminate|apply no_rivals]|].
  apply Forall_cons; [eapply (A 5); [reflexivity|vm_compute; reflexivity|vm_compute; reflexivity|discriminate|apply no_rivals]|].
  apply Forall_cons; [eapply (A 6); [reflexivity|vm_compute; reflexivity|vm_compute; reflexivity|discriminate|apply no_rivals]|].
  apply Forall_cons; [eapply (A 7); [reflexivity|vm_compute; reflexivity|vm_compute; reflexivity|discriminate|apply no_rivals]|].
  apply Forall_cons; [eapply (A 8); [reflexivity|vm_compute; reflexivity|vm_compute; reflexivity|discriminate|apply no_rivals]|].
  apply Forall_cons; [eapply (A 9); [reflexivity|vm_compute; reflexivity|vm_compute; reflexivity|discriminate|apply no_rivals]|].
  apply Forall_cons; [eapply (A 10); [reflexivity|vm_compute; reflexivity|vm_compute; reflexivity|discriminate|apply no_rivals]|].
  apply Forall_cons; [eapply (A 11); [reflexivity|vm_compute; reflexivity|vm_compute; reflexivity|discriminate|apply no_rivals]|].
  apply Forall_cons; [eapply (A 12); [reflexivity|vm_compute; reflexivity|vm_compute; reflexivity|discriminate|apply no_rivals]|].
  apply Forall_cons; [eapply (A 13); [reflexivity|vm_compute; reflexivity|vm_compute; reflexivity|discriminate|apply no_rivals]|].
  apply Forall_cons; [eapply (A 22); [reflexivity|vm_compute; reflexivity|vm_compute; reflexivity|discriminate|some_rivals]|].
  apply Forall_cons; [eapply (A 23); [reflexivity|vm_compute; reflexivity|vm_compute; reflexivity|discriminate|some_rivals]|].
  apply Forall_cons; [eapply (A 24); [reflexivity|vm_compute; reflexivity|vm_compute; reflexivity|discriminate|some_rivals]|].
  apply Forall_cons; [eapply (A 25); [reflexivity|vm_compute; reflexivity|vm_compute; reflexivity|discriminate|some_rivals]|].
  apply Forall_cons; [eapply (A 33); [reflexivity|vm_compute; reflexivity|vm_compute; reflexivity|discriminate|some_rivals]|].
  apply Forall_cons; [eapply (A 34); [reflexivity|vm_compute; reflexivity|vm_compute; reflexivity|discriminate|some_rivals]|].
  apply Forall_cons; [eapply (A 35); [reflexivity|vm_compute; reflexivity|vm_compute; reflexivity|discriminate|some_rivals]|].
  apply Forall_cons; [eapply (A 36); [reflexivity|vm_compute; reflexivity|vm_compute; reflexivity|discriminate|some_rivals]|].
  apply Forall_nil.
Qed.
End Box.
