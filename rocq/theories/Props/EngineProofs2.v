(** Further proofs about computed values: when computing succeeds, what custom properties
    depend on, and trees. *)
From Coq Require Import String List NArith Bool Lia PeanoNat.
From Verif.Base Require Import Str Outcome.
From Verif.Css Require Import LexerModel ParserModel.
From Verif.Values Require Import CalcModel.
From Verif.Style Require Import CascadeModel CascadeSpec CascadeProofs.
From Verif.Props Require Import VarModel EngineModel EngineSpec EngineProofs.
Import ListNotations.
Local Open Scope list_scope.

Section Proofs.
Context {V field : Type} (V_eqb : V -> V -> bool).
Local Notation registration := (registration V field).
Local Notation computed := (computed V field).
Local Notation prop := (prop V field).
Local Notation registry := (registry V field).
Local Notation matched := (matched V field).
Local Notation apply := (apply V_eqb).
Local Notation apply_phase := (apply_phase V_eqb).
Local Notation compute_values := (compute_values V_eqb).

Section Good.
Variable g : registry.
Hypothesis Hg : good g.

(** ** Computing succeeds *)

Section Closed.
Hypothesis Hc : closed g.

Definition longhand (p : prop) : Prop := forall q, prop_reg p = Some q -> r_short q = None.

Lemma resolve_all_ok l : (forall n w, In (n, w) l -> exists r, resolve g n = Some r /\ r_short r = None) ->
  exists ps, resolve_all g l = Ok ps /\ Forall longhand ps.
Proof.
  induction l as [|[n w] l IH]; cbn [resolve_all]; intros H.
  - exists []. split; [reflexivity|constructor].
  - destruct (H n w (or_introl eq_refl)) as (r & Hr & Hs). rewrite Hr.
    destruct IH as (ps & Hps & Hl); [intros n' w' Hin; apply (H n' w'); now right|].
    rewrite Hps. cbn [obind]. eexists. split; [reflexivity|]. constructor; [|exact Hl].
    intros q Hq. injection Hq as <-. exact Hs.
Qed.

Lemma expansion_ok p parent child : made_by g p -> no_revert p -> is_short p = true ->
  exists ps, expansion g p parent child = Ok ps /\ Forall longhand ps.
Proof.
  intros Hm Hr Hs. unfold is_short in Hs.
  destruct (prop_reg p) as [q|] eqn:Eq; [|discriminate].
  destruct (r_short q) as [fn|] eqn:Ef; [|discriminate].
  assert (Hq : In q (g_props g)).
  { destruct (resolve_cases _ _ _ (Hm q Eq)) as [H|(m & ->)]; [exact H|]. discriminate Ef. }
  assert (Hall : forall v, exists ps, resolve_all g (fn v) = Ok ps /\ Forall longhand ps).
  { intros v. apply resolve_all_ok. intros n w Hin. exact (Hc q fn v n w Hq Ef Hin). }
  destruct p as [r v|r c|r d|r vs|n]; cbn [prop_reg] in Eq; [injection Eq as -> ..|discriminate]; cbn [expansion]; rewrite ?Ef.
  - apply Hall.
  - destruct (expand_property q c child); [apply Hall|]. exists []. split; [reflexivity|constructor].
  - destruct d; cbn [default_value obind]; rewrite ?Ef; try apply Hall.
    exfalso. exact (Hr q eq_refl).
  - destruct (resolve_all_ok (flat_map fn vs)) as (ps & Hps & Hl).
    { intros n w Hin. apply in_flat_map in Hin as (v & _ & Hin). exact (Hc q fn v n w Hq Ef Hin). }
    rewrite Hps. cbn [obind]. eexists. split; [reflexivity|].
    rewrite Forall_forall in Hl |- *. intros x Hx. apply in_map_iff in Hx as (y & <- & Hy).
    destruct (gather_regs _ _ Hy) as (w & Hw). unfold parsed_pairs in Hw.
    apply in_flat_map in Hw as (z & Hz & Hw). specialize (Hl z Hz).
    destruct z as [zr zv| | | |]; try contradiction. destruct Hw as [Hw|[]].
    intros q' Hq'. cbn [prop_reg] in Hq'. injection Hq' as <-. apply Hl. cbn [prop_reg]. congruence.
Qed.

Definition fine (l : list (str * entry prop)) : Prop := forall n e, In (n, e) l -> no_revert (e_value e).

Lemma fine_put l n e : fine l -> no_revert (e_value e) -> fine (put_longhand l n e).
Proof.
  intros Hl He. induction l as [|[k x] l IH]; cbn [put_longhand].
  - intros n' e' [H|[]]. injection H as <- <-. exact He.
  - assert (Hl' : fine l) by (intros n' e' H; apply (Hl n' e'); now right).
    destruct (str_eqb k n).
    + intros n' e' [H|H]; [|apply (Hl n' e'); now right]. injection H as <- <-.
      destruct (entry_geb e x); [exact He|]. apply (Hl k x). now left.
    + intros n' e' [H|H]; [apply (Hl n' e'); now left|]. exact (IH Hl' n' e' H).
Qed.

Lemma fine_put_all ms : Forall (fun m => no_revert (m_prop m)) ms -> forall c, fine (c_entries c) ->
  fine (c_entries (fold_left (fun c m => put c (to_property m) (m_origin m) (m_spec m)) ms c)).
Proof.
  induction 1 as [|m ms Hm _ IH]; intros c Hcc; cbn [fold_left]; [exact Hcc|].
  apply IH. unfold put, to_property. cbn [p_bogus p_name p_value]. destruct (is_bogus (m_prop m)); [exact Hcc|].
  cbn [c_entries]. apply fine_put; [exact Hcc|exact Hm].
Qed.

Lemma annotate_ok parent child l : named g l -> fine l -> exists l', annotate g parent child l = Ok l'.
Proof.
  induction l as [|[n e] l IH]; cbn [annotate]; intros Hl Hf; [eexists; reflexivity|].
  destruct IH as (l' & Hl').
  { intros n' e' H'. apply Hl. now right. }
  { intros n' e' H'. apply (Hf n' e'). now right. }
  destruct (Hl n e (or_introl eq_refl)) as (_ & Hm & _).
  destruct (is_short (e_value e)) eqn:Es.
  - destruct (expansion_ok _ parent child Hm (Hf n e (or_introl eq_refl)) Es) as (ps & -> & _).
    cbn [obind]. rewrite Hl'. eexists; reflexivity.
  - cbn [obind]. rewrite Hl'. eexists; reflexivity.
Qed.

Lemma expansion_no_revert p parent child ps : expansion g p parent child = Ok ps -> Forall no_revert ps.
Proof.
  assert (A : forall l qs, resolve_all g l = Ok qs -> Forall no_revert qs).
  { intros l qs H. apply resolve_all_made in H.
    induction H as [|[n v] q l qs (r & Hr & ->) _ IH]; constructor; [|exact IH]. intros q. discriminate. }
  destruct p as [r v|r c|r d|r vs|n]; cbn [expansion].
  - destruct (r_short r); [apply A|discriminate].
  - destruct (expand_property r c child).
    + destruct (r_short r); [apply A|discriminate].
    + intros H. injection H as <-. constructor.
  - destruct (default_value r d parent); cbn [obind]; try discriminate.
    destruct (r_short r); [apply A|discriminate].
  - destruct (r_short r) as [fn|].
    + destruct (resolve_all g (flat_map fn vs)) as [qs| |]; cbn [obind]; try discriminate.
      intros H. injection H as <-. apply Forall_forall. intros q Hq. apply in_map_iff in Hq as (y & <- & _). intros q'. discriminate.
    + destruct vs; [|discriminate]. intros H. injection H as <-. constructor.
  - discriminate.
Qed.

Lemma fine_expand parent child l m : fine m -> (forall ne, In ne l -> exists ne0, ne = ann g parent child ne0) ->
  fine (fold_left CascadeModel.expand_one l m).
Proof.
  revert m. induction l as [|ne l IH]; intros m Hm Hl; cbn [fold_left]; [exact Hm|].
  apply IH; [|intros x Hx; apply Hl; now right].
  destruct (Hl ne (or_introl eq_refl)) as (ne0 & ->).
  unfold CascadeModel.expand_one, ann. cbn [fst snd e_expansion]. unfold ex.
  destruct (is_short (e_value (snd ne0))); [|exact Hm].
  destruct (expansion g (e_value (snd ne0)) parent child) as [ps| |] eqn:E; try exact Hm.
  apply expansion_no_revert in E.
  assert (Hr : fine (map_remove m (fst ne0))).
  { clear - Hm. induction m as [|[k x] m IH]; cbn [map_remove]; [exact Hm|].
    assert (Hm' : fine m) by (intros n' e' H; apply (Hm n' e'); now right).
    destruct (str_eqb k (fst ne0)); [exact Hm'|]. intros n' e' [H|H]; [apply (Hm n' e'); now left|]. exact (IH Hm' n' e' H). }
  unfold put_expansion. revert Hr. generalize (map_remove m (fst ne0)). clear IH Hl Hm m.
  induction E as [|p ps Hp _ IHp]; intros m Hm; cbn [map fold_left]; [exact Hm|].
  apply IHp. apply fine_put; [exact Hm|exact Hp].
Qed.

(** No shorthand is left. *)
Lemma all_long parent child l :
  named g l -> fine l -> NoDup (map fst l) ->
  let es := fold_left CascadeModel.expand_one (filter is_shorthand (map (ann g parent child) l)) (map (ann g parent child) l) in
  named g es -> NoDup (map fst es) ->
  forall n e, In (n, e) es -> longhand (e_value e).
Proof.
  intros Hl Hf Hnd es Hes Hnde n e Hin q Hq.
  destruct (r_short q) as [fn|] eqn:Ef; [|reflexivity]. exfalso.
  destruct (Hes n e Hin) as (Hn & Hm & _).
  assert (Hqn : r_name q = n) by (rewrite <- Hn; destruct (e_value e); cbn [prop_reg prop_name] in *; congruence).
  specialize (Hm q Hq). rewrite Hqn in Hm.
  assert (Hgone : lookup es n = None).
  { apply expand_gone.
    - rewrite map_map. cbn [ann fst]. exact Hnd.
    - intros ne Hne. now apply filter_In in Hne as [_ Hne].
    - intros ne e' Hne He'. apply filter_In in Hne as [Hne _]. apply in_map_iff in Hne as ([k x] & <- & Hx).
      unfold exp_entries, ann in He'. cbn [snd fst e_expansion] in He'. unfold ex in He'.
      destruct (is_short (e_value x)) eqn:Es; [|contradiction].
      destruct (Hl k x Hx) as (_ & Hmx & _).
      destruct (expansion_ok _ parent child Hmx (Hf k x Hx) Es) as (ps & Hps & Hlong).
      rewrite Hps in He'. rewrite map_map in He'. apply in_map_iff in He' as (p & Hp & Hpin).
      cbn [fst snd] in Hp. injection Hp as Hpn _.
      rewrite Forall_forall in Hlong. specialize (Hlong p Hpin).
      pose proof (expansion_made g Hg _ _ _ _ Hps) as Hmade. rewrite Forall_forall in Hmade.
      destruct (Hmade p Hpin) as [Hpm Hpb].
      destruct (prop_reg p) as [q'|] eqn:Eq'; [|destruct p; discriminate].
      specialize (Hpm q' Eq'). specialize (Hlong q' Eq').
      assert (r_name q' = n) as En by (rewrite <- Hpn; destruct p; cbn [prop_reg prop_name] in *; congruence).
      rewrite En, Hm in Hpm. injection Hpm as ->. congruence.
    - destruct (lookup (map (ann g parent child) l) n) as [x|] eqn:El; [|now left]. right.
      apply lookup_In in El. exists (n, x). split; [|reflexivity]. apply filter_In. split; [exact El|].
      apply in_map_iff in El as ([k y] & Ey & Hy). unfold ann in Ey. cbn [fst snd] in Ey. injection Ey as -> <-.
      unfold is_shorthand. cbn [snd e_expansion]. unfold ex.
      destruct (Hl n y Hy) as (Hyn & Hym & Hyb).
      assert (Es : is_short (e_value y) = true).
      { unfold is_short. destruct (prop_reg (e_value y)) as [q'|] eqn:Eq'; [|destruct (e_value y); discriminate].
        specialize (Hym q' Eq').
        assert (r_name q' = n) as En by (rewrite <- Hyn; destruct (e_value y); cbn [prop_reg prop_name] in *; congruence).
        rewrite En, Hm in Hym. injection Hym as <-. now rewrite Ef. }
      rewrite Es. destruct (expansion_ok _ parent child Hym (Hf n y Hy) Es) as (ps & -> & _). reflexivity. }
  rewrite (In_lookup _ _ _ Hnde Hin) in Hgone. discriminate.
Qed.

Lemma apply_ok p parent c : no_revert p -> longhand p -> is_bogus p = false -> exists c', apply p parent c = Ok c'.
Proof.
  intros Hr Hl Hb. destruct p as [q v|q k|q d|q vs|n]; cbn [EngineModel.apply]; try discriminate Hb;
    pose proof (Hl q eq_refl) as Hs; rewrite ?Hs.
  - eexists; reflexivity.
  - destruct (expand_property q k c); rewrite ?Hs; eexists; reflexivity.
  - destruct d; cbn [default_value obind]; rewrite ?Hs; try (eexists; reflexivity). exfalso. exact (Hr q eq_refl).
  - destruct vs; [eexists; reflexivity|]. destruct (toggle_index _ _ _ _ _ _ _) as [i c1]. rewrite ?Hs. eexists; reflexivity.
Qed.

Lemma apply_phase_ok ph l parent c : named g l -> fine l ->
  (forall n e, In (n, e) l -> ph = CUSTOM_PROPERTY \/ longhand (e_value e)) ->
  exists c', apply_phase ph l parent c = Ok c'.
Proof.
  revert c. induction l as [|[n e] l IH]; cbn [EngineModel.apply_phase]; intros c Hl Hf Hlong; [eexists; reflexivity|].
  assert (IH' : forall c, exists c', apply_phase ph l parent c = Ok c').
  { intros c'. apply IH; intros n' e' H'; [apply Hl|apply (Hf n' e')|apply (Hlong n' e')]; now right. }
  destruct (prop_reg (e_value e)) as [q|] eqn:Eq; [|apply IH'].
  destruct (phase_beq (r_phase q) ph) eqn:Ep; [|apply IH'].
  destruct (Hl n e (or_introl eq_refl)) as (Hn & Hm & Hb).
  destruct (apply_ok (e_value e) parent c) as (c' & Hc').
  - apply (Hf n e). now left.
  - destruct (Hlong n e (or_introl eq_refl)) as [->|H]; [|exact H].
    apply internal_phase_dec_bl in Ep. intros q' Hq'. assert (q' = q) by congruence. subst q'.
    destruct (resolve_cases _ _ _ (Hm q Eq)) as [H|(m & ->)]; [exfalso; exact (good_phase _ Hg q H Ep)|reflexivity].
  - exact Hb.
  - rewrite Hc'. cbn [obind]. apply IH'.
Qed.

Lemma compute_ok blank parent ms :
  Forall (fun m => made_by g (m_prop m)) ms -> Forall (fun m => no_revert (m_prop m)) ms ->
  exists c, compute_values g blank parent ms = Ok c.
Proof.
  intros Hms Hnr. unfold EngineModel.compute_values. cbv zeta.
  pose proof (named_stage1 g ms Hms) as N0.
  assert (F0 : fine (c_entries (put_all ms))) by (apply fine_put_all; [exact Hnr|intros n e []]).
  destruct (apply_phase_ok CUSTOM_PROPERTY (c_entries (put_all ms)) parent (inherits g blank parent) N0 F0) as (c0 & ->); [auto|].
  cbn [obind].
  destruct (annotate_ok parent c0 _ N0 F0) as (l & Hl). rewrite Hl. cbn [obind].
  pose proof (named_entries g Hg _ _ _ _ Hms Hl) as N1.
  rewrite (entries_cascade g _ _ _ _ Hl) in N1 |- *.
  assert (Hnd0 : NoDup (map fst (c_entries (put_all ms)))).
  { rewrite <- plain_cascade. apply cascade_nodup. }
  assert (Hes : c_entries (cascade (map (declared g parent c0) ms)) =
     fold_left CascadeModel.expand_one (filter is_shorthand (map (ann g parent c0) (c_entries (put_all ms))))
       (map (ann g parent c0) (c_entries (put_all ms)))).
  { unfold cascade, expand_shorthands. cbn [c_entries].
    unfold put_all. rewrite (put_all_declared g parent c0 ms _ cascaded_empty); reflexivity. }
  assert (F1 : fine (c_entries (cascade (map (declared g parent c0) ms)))).
  { rewrite Hes. eapply fine_expand.
    - intros n e Hin. apply in_map_iff in Hin as ([k x] & E & Hx). unfold ann in E. cbn [fst snd] in E. injection E as <- <-.
      exact (F0 k x Hx).
    - intros ne Hne. apply filter_In in Hne as [Hne _]. apply in_map_iff in Hne as (x & <- & _). eexists; reflexivity. }
  assert (L1 : forall n e, In (n, e) (c_entries (cascade (map (declared g parent c0) ms))) -> longhand (e_value e)).
  { pose proof (cascade_nodup (map (declared g parent c0) ms)) as Hnd.
    rewrite Hes in N1, Hnd |- *. exact (all_long parent c0 _ N0 F0 Hnd0 N1 Hnd). }
  set (es := c_entries (cascade (map (declared g parent c0) ms))) in *.
  destruct (apply_phase_ok PRE_FONT es parent c0 N1 F1) as (c1 & ->); [intros n e H; right; exact (L1 n e H)|]. cbn [obind].
  destruct (apply_phase_ok FONT es parent c1 N1 F1) as (c2 & ->); [intros n e H; right; exact (L1 n e H)|]. cbn [obind].
  destruct (apply_phase_ok NORMAL es parent c2 N1 F1) as (c3 & ->); [intros n e H; right; exact (L1 n e H)|]. cbn [obind].
  destruct (apply_phase_ok LATE es parent c3 N1 F1) as (c4 & ->); [intros n e H; right; exact (L1 n e H)|].
  eexists; reflexivity.
Qed.

End Closed.

(** ** Custom properties depend on custom properties only *)

Definition strip (ne : str * entry prop) : str * entry prop :=
  let e := snd ne in (fst ne, mkEntry (e_value e) (e_expansion e) (e_important e) (e_origin e) (e_spec e) 0).

Lemma filter_put (k : str -> bool) m n e :
  filter (fun ne => k (fst ne)) (put_longhand m n e) =
  (if k n then put_longhand (filter (fun ne => k (fst ne)) m) n e else filter (fun ne : str * entry prop => k (fst ne)) m).
Proof.
  induction m as [|[j x] m IH]; cbn [put_longhand filter fst].
  - now destruct (k n).
  - destruct (str_eqb j n) eqn:E.
    + apply str_eqb_spec in E. subst j. cbn [filter fst]. destruct (k n) eqn:Ek; [|reflexivity].
      cbn [put_longhand]. now rewrite str_eqb_refl.
    + cbn [filter fst]. rewrite IH. destruct (k j), (k n); try reflexivity. cbn [put_longhand]. now rewrite E.
Qed.

Lemma strip_put m n e : (forall k x, In (k, x) m -> e_order x < e_order e) ->
  map strip (put_longhand m n e) = put_longhand (map strip m) n (snd (strip (n, e))).
Proof.
  induction m as [|[k x] m IH]; intros Hlt; cbn [put_longhand map]; [reflexivity|].
  change (strip (k, x)) with (k, snd (strip (k, x))). cbn [put_longhand].
  destruct (str_eqb k n).
  - cbn [map]. change (strip (k, if entry_geb e x then e else x)) with (k, snd (strip (k, if entry_geb e x then e else x))).
    f_equal. f_equal. specialize (Hlt k x (or_introl eq_refl)).
    unfold entry_geb, entry_cmp, strip. cbn [fst snd e_important e_origin e_spec e_order e_value e_expansion].
    destruct (Nat.compare (important_rank (e_important e)) (important_rank (e_important x))); try reflexivity.
    destruct (Nat.compare (origin_rank (e_origin e)) (origin_rank (e_origin x))); try reflexivity.
    destruct (spec_cmp (e_spec e) (e_spec x)); try reflexivity.
    apply Nat.compare_gt_iff in Hlt. rewrite Hlt. reflexivity.
  - cbn [map]. rewrite IH; [reflexivity|]. intros k' x' H'. apply (Hlt k'). now right.
Qed.

Definition later (c : cascaded prop) : Prop := forall k x, In (k, x) (c_entries c) -> e_order x < c_order c.

Lemma later_put c p o s : later c -> later (put c p o s).
Proof.
  intros Hc. unfold put. destruct (p_bogus p); [exact Hc|]. intros k x. cbn [c_entries c_order]. intros Hin.
  assert (H : e_order x < c_order c \/ e_order x = c_order c); [|lia].
  revert Hin. unfold later in Hc. induction (c_entries c) as [|[j y] m IH]; cbn [put_longhand].
  - intros [E|[]]. injection E as <- <-. right. reflexivity.
  - destruct (str_eqb j (p_name p)).
    + intros [E|Hin]; [|left; apply (Hc k); now right]. injection E as <- <-.
      destruct (entry_geb _ y); [right; reflexivity|left; apply (Hc j); now left].
    + intros [E|Hin]; [injection E as <- <-; left; apply (Hc j); now left|].
      apply IH; [|exact Hin]. intros k' x' H'. apply (Hc k'). now right.
Qed.

Definition kept (k : str -> bool) (m : matched) : bool := k (prop_name (m_prop m)) && negb (is_bogus (m_prop m)).

Lemma put_all_kept k ms : forall c l, later c ->
  map strip (filter (fun ne => k (fst ne)) (c_entries c)) = l ->
  map strip (filter (fun ne => k (fst ne))
    (c_entries (fold_left (fun c m => put c (to_property m) (m_origin m) (m_spec m)) ms c))) =
  fold_left (fun l m => put_longhand l (prop_name (m_prop m))
     (mkEntry (m_prop m) None (m_important m) (m_origin m) (m_spec m) 0)) (filter (kept k) ms) l.
Proof.
  induction ms as [|m ms IH]; intros c l Hc Hl; cbn [fold_left filter]; [exact Hl|].
  assert (Hk : kept k m = k (prop_name (m_prop m)) && negb (is_bogus (m_prop m))) by reflexivity. rewrite Hk. clear Hk.
  destruct (is_bogus (m_prop m)) eqn:Eb; cbn [negb].
  - rewrite andb_false_r. apply IH.
    + unfold put, to_property. cbn [p_bogus]. now rewrite Eb.
    + unfold put, to_property. cbn [p_bogus]. now rewrite Eb.
  - rewrite andb_true_r. destruct (k (prop_name (m_prop m))) eqn:Ek; cbn [fold_left]; apply IH; try now apply later_put.
    + unfold put, to_property. cbn [p_bogus p_name p_value p_expansion p_important c_entries]. rewrite Eb. cbn [c_entries].
      rewrite filter_put, Ek, strip_put, Hl; [reflexivity|].
      intros j x Hj. apply filter_In in Hj as [Hj _]. cbn [e_order]. exact (Hc j x Hj).
    + unfold put, to_property. cbn [p_bogus p_name p_value p_expansion p_important c_entries]. rewrite Eb. cbn [c_entries].
      rewrite filter_put, Ek. exact Hl.
Qed.

Lemma computed_value_custom m v parent c d : c_custom c = c_custom d ->
  fst (computed_value (custom_registration m) v parent c) = fst (computed_value (V := V) (field := field) (custom_registration m) v parent d) /\
  c_custom (snd (computed_value (custom_registration m) v parent c)) = c_custom (snd (computed_value (custom_registration m) v parent d)).
Proof.
  intros H. unfold computed_value. cbn [custom_registration r_load r_apply fst snd c_custom content_of]. rewrite H. split; reflexivity.
Qed.

Lemma toggle_custom m pv vs i parent c d : c_custom c = c_custom d ->
  fst (toggle_index V_eqb (custom_registration m) pv vs i parent c) = fst (toggle_index (field := field) V_eqb (custom_registration m) pv vs i parent d) /\
  c_custom (snd (toggle_index V_eqb (custom_registration m) pv vs i parent c)) = c_custom (snd (toggle_index V_eqb (custom_registration m) pv vs i parent d)).
Proof.
  revert i c d. induction vs as [|v vs IH]; intros i c d H; cbn [toggle_index]; [split; [reflexivity|exact H]|].
  destruct (computed_value_custom m v parent c d H) as [H1 H2].
  destruct (computed_value (custom_registration m) v parent c) as [cv c1].
  destruct (computed_value (custom_registration m) v parent d) as [dv d1]. cbn [fst snd] in H1, H2. subst dv.
  destruct (val_eqb V_eqb pv cv); [split; [reflexivity|exact H2]|]. now apply IH.
Qed.

Definition same_custom (x y : outcome computed) : Prop :=
  match x, y with
  | Ok c, Ok d => c_custom c = c_custom d
  | Panic, Panic => True
  | OutOfFuel, OutOfFuel => True
  | _, _ => False
  end.

Lemma apply_custom p m parent c d : prop_reg p = Some (custom_registration m) -> c_custom c = c_custom d ->
  same_custom (apply p parent c) (apply p parent d).
Proof.
  destruct p as [q v|q k|q dd|q vs|n]; cbn [prop_reg EngineModel.apply]; intros Hq H; [injection Hq as -> ..|discriminate].
  - cbn [custom_registration r_short r_apply same_custom c_custom]. now rewrite H.
  - unfold expand_property. rewrite H. destruct (expand_content (c_custom d) k); [|exact H].
    cbn [custom_registration r_parse fst r_short r_apply same_custom c_custom]. now rewrite H.
  - destruct dd; cbn [default_value obind custom_registration r_short r_apply same_custom c_custom r_inherited]; rewrite ?H; try exact I; reflexivity.
  - destruct vs as [|v vs]; [exact H|].
    destruct (toggle_custom m (r_load (custom_registration m) parent) (v :: vs) 0 parent c d H) as [H1 H2].
    destruct (toggle_index V_eqb (custom_registration m) (r_load (custom_registration m) parent) (v :: vs) 0 parent c) as [i c1].
    destruct (toggle_index V_eqb (custom_registration m) (r_load (custom_registration m) parent) (v :: vs) 0 parent d) as [j d1].
    cbn [fst snd] in H1, H2. subst j.
    cbn [custom_registration r_short r_apply same_custom c_custom]. now rewrite H2.
Qed.

Definition ck (n : str) : bool := match resolve g n with Some r => phase_beq (r_phase r) CUSTOM_PROPERTY | None => false end.

Lemma custom_phase_same l l' parent c d :
  named g l -> named g l' ->
  map strip (filter (fun ne => ck (fst ne)) l) = map strip (filter (fun ne => ck (fst ne)) l') ->
  c_custom c = c_custom d ->
  same_custom (apply_phase CUSTOM_PROPERTY l parent c) (apply_phase CUSTOM_PROPERTY l' parent d).
Proof.
  assert (F : forall l c, named g l -> apply_phase CUSTOM_PROPERTY l parent c =
     apply_phase CUSTOM_PROPERTY (map strip (filter (fun ne => ck (fst ne)) l)) parent c).
  { clear - Hg. induction l as [|[n e] l IH]; intros c Hl; [reflexivity|]. cbn [EngineModel.apply_phase filter fst].
    assert (Hl' : named g l) by (intros n' e' H'; apply Hl; now right).
    destruct (Hl n e (or_introl eq_refl)) as (Hn & Hm & Hb).
    destruct (prop_reg (e_value e)) as [q|] eqn:Eq; [|destruct (e_value e); discriminate].
    assert (Hqn : r_name q = n) by (rewrite <- Hn; destruct (e_value e); cbn [prop_reg prop_name] in *; congruence).
    unfold ck at 1. rewrite <- Hqn, (Hm q Eq).
    destruct (phase_beq (r_phase q) CUSTOM_PROPERTY) eqn:Ep.
    - cbn [map]. unfold strip at 1. cbn [fst snd EngineModel.apply_phase e_value]. rewrite Eq, Ep.
      destruct (apply (e_value e) parent c); cbn [obind]; [apply IH; exact Hl'|reflexivity|reflexivity].
    - cbn [obind]. now apply IH. }
  intros Hl Hl' Heq Hcd. rewrite (F l c Hl), (F l' d Hl'), <- Heq. clear Heq Hl' l' F.
  assert (N : forall n e, In (n, e) (map strip (filter (fun ne => ck (fst ne)) l)) ->
     exists m, prop_reg (e_value e) = Some (custom_registration m)).
  { intros n e Hin. apply in_map_iff in Hin as ([k x] & E & Hx). unfold strip in E. cbn [fst snd] in E. injection E as <- <-.
    apply filter_In in Hx as [Hx Hk]. cbn [fst] in Hk. destruct (Hl k x Hx) as (Hn & Hm & Hb). cbn [e_value].
    destruct (prop_reg (e_value x)) as [q|] eqn:Eq; [|destruct (e_value x); discriminate].
    assert (Hqn : r_name q = k) by (rewrite <- Hn; destruct (e_value x); cbn [prop_reg prop_name] in *; congruence).
    unfold ck in Hk. rewrite <- Hqn, (Hm q Eq) in Hk. apply internal_phase_dec_bl in Hk.
    destruct (resolve_cases _ _ _ (Hm q Eq)) as [H|(m & ->)]; [exfalso; exact (good_phase _ Hg q H Hk)|].
    exists m. reflexivity. }
  revert N c d Hcd. generalize (map strip (filter (fun ne => ck (fst ne)) l)). clear l Hl.
  induction l as [|[n e] l IH]; intros N c d Hcd; cbn [EngineModel.apply_phase]; [exact Hcd|].
  destruct (N n e (or_introl eq_refl)) as (m & Hm). rewrite Hm. cbn [r_phase custom_registration].
  change (phase_beq CUSTOM_PROPERTY CUSTOM_PROPERTY) with true. cbv iota.
  pose proof (apply_custom _ m parent c d Hm Hcd) as Ha.
  destruct (apply (e_value e) parent c) as [c1| |], (apply (e_value e) parent d) as [d1| |]; cbn [same_custom] in Ha;
    try contradiction; cbn [obind]; try exact I.
  apply IH; [|exact Ha]. intros n' e' H'. apply (N n' e'). now right.
Qed.

Lemma compute_custom_same blank parent ms ms' c c' :
  Forall (fun m => made_by g (m_prop m)) ms -> Forall (fun m => made_by g (m_prop m)) ms' ->
  filter (fun m => is_custom g (m_prop m)) ms = filter (fun m => is_custom g (m_prop m)) ms' ->
  compute_values g blank parent ms = Ok c -> compute_values g blank parent ms' = Ok c' ->
  c_custom c = c_custom c'.
Proof.
  intros Hms Hms' Hf H H'.
  destruct (compute_custom V_eqb g Hg _ _ _ _ Hms H) as (c0 & H0 & ->).
  destruct (compute_custom V_eqb g Hg _ _ _ _ Hms' H') as (c0' & H0' & ->).
  pose proof (custom_phase_same (c_entries (put_all ms)) (c_entries (put_all ms')) parent
     (inherits g blank parent) (inherits g blank parent) (named_stage1 g ms Hms) (named_stage1 g ms' Hms')) as Hs.
  rewrite H0, H0' in Hs. apply Hs; [|reflexivity].
  assert (L0 : later cascaded_empty) by (intros k x []).
  unfold put_all. rewrite !(put_all_kept ck _ cascaded_empty [] L0 eq_refl).
  assert (K : forall l, filter (kept ck) l = filter (fun m => negb (is_bogus (m_prop m))) (filter (fun m => is_custom g (m_prop m)) l)).
  { induction l as [|m l IH]; [reflexivity|]. cbn [filter]. unfold kept at 1, ck at 1. fold (is_custom g (m_prop m)).
    destruct (is_custom g (m_prop m)); cbn [filter andb]; [|exact IH].
    destruct (negb (is_bogus (m_prop m))); now rewrite IH. }
  rewrite !K, Hf. reflexivity.
Qed.

End Good.

(** ** Trees *)

Fixpoint elements (blank : computed) (g : registry) (parent : computed) (t : styled V field) (r : result V field) {struct t} : Prop :=
  match t, r with
  | Styled ms ts, Result c rs =>
    compute_values g blank parent ms = Ok c /\
    (fix all (ts : list (styled V field)) (rs : list (result V field)) : Prop :=
       match ts, rs with
       | [], [] => True
       | t :: ts', r :: rs' => elements blank g c t r /\ all ts' rs'
       | _, _ => False
       end) ts rs
  end.

Fixpoint styled_ind' (P : styled V field -> Prop)
  (H : forall ms ts, Forall P ts -> P (Styled ms ts)) (t : styled V field) {struct t} : P t :=
  match t with
  | Styled ms ts =>
    H ms ts ((fix all (ts : list (styled V field)) : Forall P ts :=
                match ts with
                | [] => Forall_nil P
                | t :: ts' => Forall_cons t (styled_ind' P H t) (all ts')
                end) ts)
  end.

Lemma style_elements g blank t : forall parent r,
  style_element V_eqb g blank parent t = Ok r -> elements blank g parent t r.
Proof.
  induction t as [ms ts IH] using styled_ind'. intros parent r H. cbn [style_element] in H.
  destruct (compute_values g blank parent ms) as [c| |] eqn:Ec; cbn [obind] in H; try discriminate.
  match type of H with obind (?F ts) _ = _ => set (all := F) in H end.
  destruct (all ts) as [rs| |] eqn:Er; cbn [obind] in H; try discriminate. injection H as <-.
  cbn [elements]. split; [exact Ec|]. revert rs Er. induction IH as [|t ts Ht _ IHt]; intros rs Er.
  - injection Er as <-. exact I.
  - cbn in Er. destruct (style_element V_eqb g blank c t) as [y| |] eqn:Ey; cbn [obind] in Er; try discriminate.
    fold all in Er. destruct (all ts) as [ys| |]; cbn [obind] in Er; try discriminate. injection Er as <-.
    split; [exact (Ht c y Ey)|]. exact (IHt ys eq_refl).
Qed.

(** ** Reading values *)

Lemma eat_wss_length c : List.length (eat_wss c) <= List.length c.
Proof.
  induction c as [|s c IH]; [constructor|]. destruct s; cbn [eat_wss]; try lia.
  destruct (ttype_beq (t_type t) WHITESPACE); cbn [List.length]; lia.
Qed.

Lemma skip_comma_length c : List.length (skip_comma c) <= List.length c.
Proof.
  unfold skip_comma. pose proof (eat_wss_length c). destruct (eat_wss c) as [|s r]; [lia|].
  cbn [List.length] in *. destruct (is_type COMMA s); [pose proof (eat_wss_length r); lia|cbn [List.length]; lia].
Qed.

Lemma toggle_loop_ends (r : registration) fuel c : takes_some (r_parse r) -> List.length c <= fuel ->
  toggle_loop fuel r c <> OutOfFuel.
Proof.
  intros Ht. revert c. induction fuel as [|fuel IH]; intros c Hc.
  - destruct c; [discriminate|cbn [List.length] in Hc; lia].
  - cbn [toggle_loop]. destruct c as [|s c]; [discriminate|].
    destruct (r_parse r (s :: c)) as [[v|] c'] eqn:E; [|discriminate].
    apply Ht in E; [|discriminate]. pose proof (skip_comma_length c').
    specialize (IH (skip_comma c')). destruct (toggle_loop fuel r (skip_comma c')) as [[vs|]| |]; try discriminate.
    apply IH. cbn [List.length] in *. lia.
Qed.

End Proofs.
