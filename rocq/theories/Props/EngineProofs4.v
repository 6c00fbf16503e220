(** One declaration decides about a member of the computed values, whatever else is declared. *)
From Coq Require Import String List NArith Bool.
From Verif.Base Require Import Str Outcome.
From Verif.Css Require Import LexerModel ParserModel.
From Verif.Values Require Import CalcModel.
From Verif.Style Require Import CascadeModel CascadeSpec CascadeProofs CascadeDecisive.
From Verif.Props Require Import VarModel EngineModel EngineSpec EngineProofs EngineProofs2 EngineProofs3 BoxPropSpec.
Import ListNotations.
Local Open Scope list_scope.

Section Proofs.
Context {V field : Type} (V_eqb : V -> V -> bool).
Local Notation registration := (registration V field).
Local Notation computed := (computed V field).
Local Notation prop := (prop V field).
Local Notation registry := (registry V field).
Local Notation matched := (matched V field).
Local Notation compute_values := (compute_values V_eqb).

Variable g : registry.
Hypothesis Hg : good g.
Variables (r : registration) (f : field) (res : val V -> computed -> val V).
Hypothesis Ho : owns g [] r f res.

(** [m'] says something about [r], or has the name of [m]. *)
Definition rival (parent c : computed) (m m' : matched) : Prop :=
  concerns g parent c (r_name r) m' \/ (is_bogus (m_prop m') = false /\ name m' = name m).

Lemma named_long m : made_by g (m_prop m) -> is_bogus (m_prop m) = false -> name m = r_name r -> is_short (m_prop m) = false.
Proof.
  intros Hm Hb Hn. unfold is_short. unfold name in Hn.
  assert (Hq : exists q, prop_reg (m_prop m) = Some q /\ prop_name (m_prop m) = r_name q).
  { destruct (m_prop m); cbn [prop_reg prop_name is_bogus] in *; try discriminate; eauto. }
  destruct Hq as (q & Hq & E). rewrite Hq. pose proof (Hm q Hq) as Hr.
  rewrite <- E, Hn in Hr. rewrite (resolve_registered _ Hg _ (owns_in _ _ _ _ _ Ho)) in Hr. injection Hr as <-.
  now rewrite (owns_long _ _ _ _ _ Ho).
Qed.

Lemma compute_decisive blank parent c l1 m l2 p :
  Forall (fun m => made_by g (m_prop m)) (l1 ++ m :: l2) ->
  compute_values g blank parent (l1 ++ m :: l2) = Ok c ->
  is_bogus (m_prop m) = false ->
  (name m = r_name r /\ p = m_prop m) \/
  (exists l, ex g parent c (m_prop m) = Some l /\ In (r_name r, p) l /\ forall p', In (r_name r, p') l -> p' = p) ->
  (forall m', In m' l1 -> rival parent c m m' -> ~ weaker (weight_of m) (weight_of m')) ->
  (forall m', In m' l2 -> rival parent c m m' -> weaker (weight_of m') (weight_of m)) ->
  Some (c_get c f) = used V_eqb r f res p parent c.
Proof.
  intros Hms Hc Hb Hp H1 H2.
  assert (Hq : quiet [] (c_entries (cascade (map (declared g parent c) (l1 ++ m :: l2))))) by (intros n e _ []).
  pose proof (compute_value V_eqb g Hg [] r f res Ho _ _ _ _ Hms Hc Hq) as Hv.
  assert (Hriv : forall m', about (r_name r) (declared g parent c m') \/
     (p_bogus (prop_of (declared g parent c m')) = false /\ p_name (prop_of (declared g parent c m')) = p_name (prop_of (declared g parent c m))) ->
     rival parent c m m').
  { intros m' [(A & [B|(l & v & B & C)])|A].
    - left. split; [exact A|]. now left.
    - left. split; [exact A|]. right. exists l. split; [exact B|]. apply in_map_iff. exists (r_name r, v). auto.
    - right. exact A. }
  assert (Hl : exists e, lookup (c_entries (cascade (map (declared g parent c) (l1 ++ m :: l2)))) (r_name r) = Some e /\ e_value e = p).
  { rewrite map_app. cbn [map]. apply decisive_lookup.
    - exact Hb.
    - cbn [declared prop_of fst p_name p_value p_expansion]. destruct Hp as [[A ->]|(l & A & B & C)]; [left; auto|right; eauto].
    - intros d' Hin Hb' Hn. change (declared g parent c m :: map (declared g parent c) l2) with (map (declared g parent c) (m :: l2)) in Hin.
      rewrite <- map_app in Hin. apply in_map_iff in Hin as (m' & <- & Hin). cbn [declared prop_of fst p_name p_expansion p_bogus] in *.
      unfold ex. rewrite Forall_forall in Hms. now rewrite (named_long m' (Hms m' Hin) Hb' Hn).
    - intros d' Hin. apply in_map_iff in Hin as (m' & <- & Hin). intros Ha. exact (H1 m' Hin (Hriv m' Ha)).
    - intros d' Hin. apply in_map_iff in Hin as (m' & <- & Hin). intros Ha. exact (H2 m' Hin (Hriv m' Ha)). }
  destruct Hl as (e & He & <-). now rewrite He in Hv.
Qed.

End Proofs.
