(** Proofs about computed values. *)
From Coq Require Import String List NArith Bool Lia PeanoNat.
From Verif.Base Require Import Str Outcome.
From Verif.Css Require Import LexerModel ParserModel.
From Verif.Values Require Import CalcModel.
From Verif.Style Require Import CascadeModel CascadeSpec CascadeProofs.
From Verif.Props Require Import VarModel EngineModel EngineSpec.
Import ListNotations.
Local Open Scope list_scope.

Section Proofs.
Context {V field : Type} (V_eqb : V -> V -> bool).
Local Notation registration := (registration V field).
Local Notation computed := (computed V field).
Local Notation prop := (prop V field).
Local Notation registry := (registry V field).
Local Notation matched := (matched V field).
Local Notation apply := (apply V_eqb).
Local Notation apply_phase := (apply_phase V_eqb).
Local Notation compute_values := (compute_values V_eqb).

(** ** Registries *)

Lemma find_reg_in (l : list registration) n r : find_reg l n = Some r -> In r l /\ r_name r = n.
Proof.
  induction l as [|x l IH]; [discriminate|]. cbn [find_reg]. destruct (str_eqb (r_name x) n) eqn:E.
  - intros H. injection H as <-. apply str_eqb_spec in E. split; [now left|exact E].
  - intros H. destruct (IH H). split; [now right|assumption].
Qed.

Lemma find_reg_self (l : list registration) r :
  NoDup (map r_name l) -> In r l -> find_reg l (r_name r) = Some r.
Proof.
  induction l as [|x l IH]; [contradiction|]. cbn [find_reg map]. intros Hnd [->|Hin].
  - now rewrite str_eqb_refl.
  - inversion Hnd as [|? ? Hni Hnd']; subst. destruct (str_eqb (r_name x) (r_name r)) eqn:E; [|auto].
    exfalso. apply str_eqb_spec in E. apply Hni. rewrite E. now apply in_map.
Qed.

Section Good.
Variable g : registry.
Hypothesis Hg : good g.

Lemma resolve_registered q : In q (g_props g) -> resolve g (r_name q) = Some q.
Proof.
  intros H. unfold resolve. rewrite (good_alias _ Hg q H).
  now rewrite (find_reg_self _ _ (good_names _ Hg) H).
Qed.

Lemma resolve_cases n q : resolve g n = Some q ->
  In q (g_props g) \/ exists m, q = custom_registration m.
Proof.
  unfold resolve. set (m := match lookup (g_alias g) n with Some x => x | None => n end).
  destruct (find_reg (g_props g) m) eqn:E.
  - intros H. injection H as <-. left. eapply find_reg_in; eassumption.
  - destruct (starts_with _ m); [|discriminate]. intros H. injection H as <-. right. eexists; reflexivity.
Qed.

Lemma resolve_self n q : resolve g n = Some q -> resolve g (r_name q) = Some q.
Proof.
  unfold resolve at 1. set (m := match lookup (g_alias g) n with Some x => x | None => n end).
  assert (Hm : lookup (g_alias g) m = None).
  { unfold m. destruct (lookup (g_alias g) n) eqn:E; [|exact E]. eapply good_target; eassumption. }
  destruct (find_reg (g_props g) m) eqn:E.
  - intros H. injection H as <-. apply resolve_registered. eapply find_reg_in; eassumption.
  - destruct (starts_with _ m) eqn:E2; [|discriminate]. intros H. injection H as <-.
    unfold resolve. cbn [r_name custom_registration]. rewrite Hm, E, E2. reflexivity.
Qed.

Lemma resolve_all_made l ps : resolve_all g l = Ok ps ->
  Forall2 (fun nv p => exists r, resolve g (fst nv) = Some r /\ p = Parsed r (snd nv)) l ps.
Proof.
  revert ps. induction l as [|[n v] l IH]; cbn [resolve_all]; intros ps H.
  - injection H as <-. constructor.
  - destruct (resolve g n) as [r|] eqn:E; [|discriminate].
    destruct (resolve_all g l) as [x| |]; try discriminate. injection H as <-.
    constructor; [exists r; split; [exact E|reflexivity]|]. apply IH. reflexivity.
Qed.

Lemma gather_regs (l : list (registration * val V)) x : In x (gather l) -> exists v, In (fst x, v) l.
Proof.
  revert x. induction l as [|[r v] l IH]; cbn [gather]; intros x H; [contradiction|].
  destruct (existsb _ (gather l)).
  - apply in_map_iff in H as (y & Ey & Hy). destruct (IH y Hy) as (w & Hw).
    exists w. right. destruct (str_eqb (r_name (fst y)) (r_name r)); subst x; exact Hw.
  - destruct H as [<-|H]; [exists v; now left|]. destruct (IH x H) as (w & Hw). exists w. now right.
Qed.

Lemma expansion_made p parent child ps : expansion g p parent child = Ok ps ->
  Forall (fun p => made_by g p /\ is_bogus p = false) ps.
Proof.
  assert (A : forall l qs, resolve_all g l = Ok qs -> Forall (fun p => made_by g p /\ is_bogus p = false) qs).
  { intros l qs H. apply resolve_all_made in H.
    induction H as [|[n v] q l qs (r & Hr & ->) _ IH]; constructor; [|exact IH].
    split; [|reflexivity]. intros q Hq. injection Hq as <-. eapply resolve_self; eassumption. }
  destruct p as [r v|r c|r d|r vs|n]; cbn [expansion].
  - destruct (r_short r); [apply A|discriminate].
  - destruct (expand_property r c child).
    + destruct (r_short r); [apply A|discriminate].
    + intros H. injection H as <-. constructor.
  - destruct (default_value r d parent); cbn [obind]; try discriminate.
    destruct (r_short r); [apply A|discriminate].
  - destruct (r_short r) as [f|].
    + destruct (resolve_all g (flat_map f vs)) as [qs| |] eqn:E; cbn [obind]; try discriminate.
      intros H. injection H as <-. apply A in E. rewrite Forall_forall in E.
      apply Forall_forall. intros q Hq. apply in_map_iff in Hq as (y & <- & Hy).
      destruct (gather_regs _ _ Hy) as (w & Hw). unfold parsed_pairs in Hw.
      apply in_flat_map in Hw as (z & Hz & Hw). destruct (E z Hz) as [Ez _]. split; [|reflexivity].
      destruct z as [zr zv| | | |]; try contradiction. destruct Hw as [Hw|[]].
      intros q Hq. cbn [prop_reg] in Hq. injection Hq as <-. apply Ez. cbn [prop_reg]. congruence.
    + destruct vs; [|discriminate]. intros H. injection H as <-. constructor.
  - discriminate.
Qed.

(** ** Only custom properties matter to the longhands of a declaration *)

Lemma expand_property_custom (r : registration) c child child' :
  c_custom child = c_custom child' -> expand_property r c child = expand_property r c child'.
Proof. intros H. unfold expand_property. now rewrite H. Qed.

Lemma expansion_custom p parent child child' : c_custom child = c_custom child' ->
  expansion g p parent child = expansion g p parent child'.
Proof.
  intros H. destruct p; cbn [expansion]; try reflexivity.
  now rewrite (expand_property_custom _ _ _ _ H).
Qed.

Lemma declared_custom parent child child' m : c_custom child = c_custom child' ->
  declared g parent child m = declared g parent child' m.
Proof.
  intros H. unfold declared, ex. now rewrite (expansion_custom _ _ _ _ H).
Qed.

Lemma used_custom r (f : field) res p parent child child' : c_custom child = c_custom child' ->
  used V_eqb r f res p parent child = used V_eqb r f res p parent child'.
Proof. intros H. destruct p; cbn [used]; try reflexivity. now rewrite H. Qed.

(** ** The entries are those of the cascade *)

Definition ann (parent child : computed) (ne : str * entry prop) : str * entry prop :=
  let e := snd ne in
  (fst ne, mkEntry (e_value e) (ex g parent child (e_value e)) (e_important e) (e_origin e) (e_spec e) (e_order e)).

Lemma annotate_map parent child l l' : annotate g parent child l = Ok l' -> l' = map (ann parent child) l.
Proof.
  revert l'. induction l as [|[n e] l IH]; cbn [annotate map]; intros l' H; [congruence|].
  unfold ann at 1, ex. cbn [fst snd]. destruct (is_short (e_value e)).
  - destruct (expansion g (e_value e) parent child) as [ps| |]; cbn [obind] in H; try discriminate.
    destruct (annotate g parent child l) as [x| |]; cbn [obind] in H; try discriminate.
    injection H as <-. now rewrite (IH x eq_refl).
  - cbn [obind] in H. destruct (annotate g parent child l) as [x| |]; cbn [obind] in H; try discriminate.
    injection H as <-. now rewrite (IH x eq_refl).
Qed.

Lemma ann_put parent child m n e :
  map (ann parent child) (put_longhand m n e) =
  put_longhand (map (ann parent child) m) n (snd (ann parent child (n, e))).
Proof.
  induction m as [|[k x] m IH]; cbn [put_longhand map]; [reflexivity|].
  change (ann parent child (k, x)) with (k, snd (ann parent child (k, x))). cbn [put_longhand].
  destruct (str_eqb k n) eqn:E.
  - cbn [map]. change (ann parent child (k, if entry_geb e x then e else x)) with (k, snd (ann parent child (k, if entry_geb e x then e else x))). f_equal. f_equal.
    unfold entry_geb, entry_cmp, ann. cbn [fst snd e_important e_origin e_spec e_order e_value].
    match goal with |- context [match ?c with _ => _ end] => destruct c end; reflexivity.
  - cbn [map]. rewrite IH. reflexivity.
Qed.

Lemma put_all_declared parent child ms : forall c c',
  c_order c = c_order c' -> map (ann parent child) (c_entries c) = c_entries c' ->
  map (ann parent child) (c_entries (fold_left (fun c m => put c (to_property m) (m_origin m) (m_spec m)) ms c)) =
  c_entries (fold_left (fun c d => put c (fst (fst d)) (snd (fst d)) (snd d)) (map (declared g parent child) ms) c').
Proof.
  induction ms as [|m ms IH]; intros c c' Ho He; cbn [fold_left map]; [exact He|].
  apply IH; unfold put, to_property, declared; cbn [p_bogus fst snd p_name p_value p_expansion p_important];
    destruct (is_bogus (m_prop m)); cbn [c_order c_entries]; try assumption.
  - now rewrite Ho.
  - rewrite ann_put, He, Ho. reflexivity.
Qed.

Lemma entries_cascade parent child ms l :
  annotate g parent child (c_entries (put_all ms)) = Ok l ->
  c_entries (expand_shorthands (mkCascaded l 0)) =
  c_entries (cascade (map (declared g parent child) ms)).
Proof.
  intros H. apply annotate_map in H. subst l. unfold cascade, expand_shorthands. cbn [c_entries].
  unfold put_all. rewrite (put_all_declared parent child ms _ cascaded_empty); [|reflexivity|reflexivity].
  reflexivity.
Qed.

(** ** The entries have their names *)

Definition named (l : list (str * entry prop)) : Prop :=
  forall n e, In (n, e) l -> prop_name (e_value e) = n /\ made_by g (e_value e) /\ is_bogus (e_value e) = false.

Lemma named_put l n e : named l -> prop_name (e_value e) = n -> made_by g (e_value e) -> is_bogus (e_value e) = false ->
  named (put_longhand l n e).
Proof.
  intros Hl Hn Hm Hb. induction l as [|[k x] l IH]; cbn [put_longhand].
  - intros n' e' [H|[]]. injection H as <- <-. auto.
  - assert (Hl' : named l) by (intros n' e' H; apply Hl; now right).
    destruct (str_eqb k n) eqn:E.
    + apply str_eqb_spec in E. subst k. intros n' e' [H|H]; [|apply Hl; now right].
      injection H as <- <-. destruct (entry_geb e x); [auto|]. apply Hl. now left.
    + intros n' e' [H|H]; [apply Hl; now left|]. exact (IH Hl' n' e' H).
Qed.

Lemma named_remove l n : named l -> named (map_remove l n).
Proof.
  intros Hl. induction l as [|[k x] l IH]; cbn [map_remove]; [exact Hl|].
  assert (Hl' : named l) by (intros n' e' H; apply Hl; now right).
  destruct (str_eqb k n); [exact Hl'|]. intros n' e' [H|H]; [apply Hl; now left|]. exact (IH Hl' n' e' H).
Qed.

Lemma named_put_all ms : Forall (fun m => made_by g (m_prop m)) ms -> forall c, named (c_entries c) ->
  named (c_entries (fold_left (fun c m => put c (to_property m) (m_origin m) (m_spec m)) ms c)).
Proof.
  induction 1 as [|m ms Hm _ IH]; intros c Hc; cbn [fold_left]; [exact Hc|].
  apply IH. unfold put, to_property. cbn [p_bogus p_name p_value]. destruct (is_bogus (m_prop m)) eqn:Eb; [exact Hc|].
  cbn [c_entries]. apply named_put; [exact Hc|reflexivity|exact Hm|exact Eb].
Qed.

Lemma named_expand parent child l m :
  named m ->
  (forall ne, In ne l -> exists ne0, ne = ann parent child ne0) ->
  named (fold_left CascadeModel.expand_one l m).
Proof.
  revert m. induction l as [|ne l IH]; intros m Hm Hl; cbn [fold_left]; [exact Hm|].
  apply IH; [|intros x Hx; apply Hl; now right].
  destruct (Hl ne (or_introl eq_refl)) as (ne0 & ->).
  unfold CascadeModel.expand_one, ann. cbn [fst snd e_expansion]. unfold ex.
  destruct (is_short (e_value (snd ne0))); [|exact Hm].
  destruct (expansion g (e_value (snd ne0)) parent child) as [ps| |] eqn:E; try exact Hm.
  apply expansion_made in E.
  assert (Hr : named (map_remove m (fst ne0))) by now apply named_remove.
  unfold put_expansion. revert Hr. generalize (map_remove m (fst ne0)). clear IH Hl Hm m.
  induction E as [|p ps [Hp Hb] _ IHp]; intros m Hm; cbn [map fold_left]; [exact Hm|].
  apply IHp. apply named_put; [exact Hm|reflexivity|exact Hp|exact Hb].
Qed.

Lemma named_ann parent child l : named l -> named (map (ann parent child) l).
Proof.
  intros Hl n e H. apply in_map_iff in H as ([n' e'] & E & H). unfold ann in E. cbn [fst snd] in E.
  injection E as <- <-. cbn [e_value]. now apply Hl.
Qed.

Lemma named_empty : named [].
Proof. intros n e []. Qed.

Lemma named_stage1 ms : Forall (fun m => made_by g (m_prop m)) ms -> named (c_entries (put_all ms)).
Proof. intros H. apply named_put_all; [exact H|apply named_empty]. Qed.

Lemma named_entries parent child ms l :
  Forall (fun m => made_by g (m_prop m)) ms ->
  annotate g parent child (c_entries (put_all ms)) = Ok l ->
  named (c_entries (expand_shorthands (mkCascaded l 0))).
Proof.
  intros Hms H. apply annotate_map in H. subst l. unfold expand_shorthands. cbn [c_entries].
  apply named_expand with (parent := parent) (child := child).
  - apply named_ann. now apply named_stage1.
  - intros ne Hne. apply filter_In in Hne as [Hne _]. apply in_map_iff in Hne as (x & <- & _).
    eexists; reflexivity.
Qed.

(** ** Applying *)

Definition ok_reg (q : registration) : Prop := In q (g_props g) \/ exists m, q = custom_registration m.

Lemma made_ok p q : made_by g p -> prop_reg p = Some q -> ok_reg q.
Proof. intros H Hq. eapply resolve_cases. now apply H. Qed.

(** What an application can do: apply the registration's [r_apply] some number of times. *)
Inductive applied (q : registration) (parent : computed) : computed -> computed -> Prop :=
| A_none c : applied q parent c c
| A_step v c c' : applied q parent (r_apply q v parent c) c' -> applied q parent c c'.

Lemma applied_trans q parent a b c : applied q parent a b -> applied q parent b c -> applied q parent a c.
Proof. induction 1; [auto|]. intros H2. econstructor. eauto. Qed.

Lemma toggle_applied q pv vs i parent c i' c' :
  toggle_index V_eqb q pv vs i parent c = (i', c') -> applied q parent c c'.
Proof.
  revert i c. induction vs as [|v vs IH]; cbn [toggle_index]; intros i c H.
  - injection H as _ <-. constructor.
  - unfold computed_value in H.
    destruct (val_eqb V_eqb pv (r_load q (r_apply q v parent c))).
    + injection H as _ <-. eapply A_step, A_step, A_none.
    + apply IH in H. eapply A_step, A_step. exact H.
Qed.

Lemma apply_applied p q parent c c' : prop_reg p = Some q -> apply p parent c = Ok c' -> applied q parent c c'.
Proof.
  destruct p as [r v|r k|r d|r vs|n]; cbn [prop_reg EngineModel.apply]; intros Hq; [injection Hq as -> ..|discriminate].
  - destruct (r_short q); [discriminate|]. intros H. injection H as <-. eapply A_step, A_none.
  - destruct (expand_property q k c).
    + destruct (r_short q); [discriminate|]. intros H. injection H as <-. eapply A_step, A_none.
    + intros H. injection H as <-. constructor.
  - destruct (default_value q d parent); cbn [obind]; try discriminate.
    destruct (r_short q); [discriminate|]. intros H. injection H as <-. eapply A_step, A_none.
  - destruct vs as [|v vs]; [intros H; injection H as <-; constructor|].
    destruct (toggle_index V_eqb q (r_load q parent) (v :: vs) 0 parent c) as [i c1] eqn:E.
    destruct (r_short q); [discriminate|]. intros H. injection H as <-.
    eapply applied_trans; [eapply toggle_applied; exact E|]. eapply A_step, A_none.
Qed.

Lemma applied_custom q parent c c' : In q (g_props g) -> applied q parent c c' -> c_custom c' = c_custom c.
Proof.
  intros Hq H. induction H as [|v c c' H IH]; [reflexivity|]. rewrite IH. now apply (good_apply _ Hg).
Qed.

Section Owns.
Variables (rivals : list str) (r : registration) (f : field) (res : val V -> computed -> val V).
Hypothesis Ho : owns g rivals r f res.

(** No rival is declared. *)
Definition quiet (l : list (str * entry prop)) : Prop := forall n e, In (n, e) l -> ~ In n rivals.

Lemma applied_frame q parent c c' : ok_reg q -> r_name q <> r_name r -> ~ In (r_name q) rivals -> applied q parent c c' ->
  c_get c' f = c_get c f.
Proof.
  intros Hq Hn Hr H. induction H as [|v c c' H IH]; [reflexivity|]. rewrite IH.
  destruct Hq as [Hq|(m & ->)]; [|reflexivity]. now apply (owns_frame _ _ _ _ _ Ho).
Qed.

Lemma toggle_pick pv vs i parent c i' c' :
  toggle_index V_eqb r pv vs i parent c = (i', c') ->
  (exists k, k < List.length vs /\ i' = S (i + k) /\ after_parent V_eqb res pv vs parent = nth_error vs (S k)) \/
  (i' = i + List.length vs /\ after_parent V_eqb res pv vs parent = None).
Proof.
  revert i c. induction vs as [|v vs IH]; cbn [toggle_index]; intros i c H.
  - injection H as <- _. right. split; [cbn [List.length]; lia|reflexivity].
  - unfold computed_value in H. rewrite (owns_load _ _ _ _ _ Ho), (owns_apply _ _ _ _ _ Ho) in H.
    destruct (val_eqb V_eqb pv (res v parent)) eqn:E.
    + injection H as <- _. left. exists 0. split; [cbn [List.length]; lia|]. split; [lia|].
      destruct vs as [|w vs]; [reflexivity|]. cbn [after_parent nth_error]. now rewrite E.
    + apply IH in H as [(k & Hk & -> & Ha)|(-> & Ha)].
      * left. exists (S k). split; [cbn [List.length]; lia|]. split; [lia|].
        destruct vs as [|w vs]; [cbn [List.length] in Hk; lia|].
        change (nth_error (v :: w :: vs) (S (S k))) with (nth_error (w :: vs) (S k)). rewrite <- Ha.
        cbn [after_parent]. rewrite E. reflexivity.
      * right. split; [cbn [List.length]; lia|]. destruct vs as [|w vs]; [reflexivity|].
        cbn [after_parent] in Ha |- *. rewrite E. exact Ha.
Qed.

Lemma apply_used p parent c c' :
  prop_reg p = Some r -> apply p parent c = Ok c' -> c_get c f = unset r f res parent ->
  Some (c_get c' f) = used V_eqb r f res p parent c.
Proof.
  destruct p as [q v|q k|q d|q vs|n]; cbn [prop_reg EngineModel.apply used]; intros Hq; [injection Hq as -> ..|discriminate];
    rewrite ?(owns_long _ _ _ _ _ Ho).
  - intros H _. injection H as <-. now rewrite (owns_apply _ _ _ _ _ Ho).
  - unfold expand_property. destruct (expand_content (c_custom c) k).
    + destruct (fst (r_parse r (eat_wss l))); intros H Hu; injection H as <-; [now rewrite (owns_apply _ _ _ _ _ Ho)|now rewrite Hu].
    + intros H Hu. injection H as <-. now rewrite Hu.
  - destruct d; cbn [default_value obind]; intros H _; try discriminate; injection H as <-;
      rewrite (owns_apply _ _ _ _ _ Ho), ?(owns_load _ _ _ _ _ Ho); try reflexivity.
    now destruct (r_inherited r).
  - destruct vs as [|v vs]; [intros H Hu; injection H as <-; now rewrite Hu|].
    destruct (toggle_index V_eqb r (r_load r parent) (v :: vs) 0 parent c) as [i c1] eqn:E.
    intros H _. match type of H with Ok ?x = Ok ?y => assert (Hc : y = x) by congruence end.
    rewrite Hc, (owns_apply _ _ _ _ _ Ho). clear H Hc.
    apply (f_equal (fun x => Some (res x parent))).
    rewrite (owns_load _ _ _ _ _ Ho) in E. apply toggle_pick in E as [(k & Hk & -> & Ha)|(-> & Ha)].
    + rewrite Ha. cbn [Nat.add].
      destruct (Nat.eq_dec (S k) (List.length (v :: vs))) as [Hl|Hl].
      * rewrite Hl, Nat.mod_same by discriminate.
        replace (nth_error (v :: vs) (List.length (v :: vs))) with (@None (val V)); [reflexivity|].
        symmetry. apply nth_error_None. lia.
      * rewrite Nat.mod_small by lia. destruct (nth_error (v :: vs) (S k)) eqn:En.
        -- apply nth_error_nth with (d := r_initial r) in En. exact En.
        -- apply nth_error_None in En. lia.
    + rewrite Ha. cbn [Nat.add]. rewrite Nat.mod_same by discriminate. reflexivity.
Qed.

(** A phase that is not that of [r] leaves its value alone. *)
Lemma phase_other ph l parent c c' : ph <> r_phase r -> named l -> quiet l -> apply_phase ph l parent c = Ok c' ->
  c_get c' f = c_get c f.
Proof.
  intros Hph. revert c. induction l as [|[n e] l IH]; cbn [EngineModel.apply_phase]; intros c Hl Hq H.
  - now injection H as <-.
  - assert (Hl' : named l) by (intros n' e' H'; apply Hl; now right).
    assert (Hq' : quiet l) by (intros n' e' H'; apply (Hq n' e'); now right).
    destruct (Hl n e (or_introl eq_refl)) as (Hn & Hm & Hnb).
    destruct (prop_reg (e_value e)) as [q|] eqn:Eq; [|cbn [obind] in H; now apply IH].
    destruct (phase_beq (r_phase q) ph) eqn:Ep; [|cbn [obind] in H; now apply IH].
    destruct (apply (e_value e) parent c) as [c1| |] eqn:Ea; cbn [obind] in H; try discriminate.
    rewrite (IH c1 Hl' Hq' H). eapply applied_frame; [eapply made_ok; eassumption| | |eapply apply_applied; eassumption].
    2:{ replace (r_name q) with n; [exact (Hq n e (or_introl eq_refl))|]. rewrite <- Hn. destruct (e_value e); cbn [prop_reg prop_name] in *; congruence. }
    intros En. apply internal_phase_dec_bl in Ep. apply Hph. rewrite <- Ep.
    specialize (Hm q Eq). rewrite En, (resolve_registered r (owns_in _ _ _ _ _ Ho)) in Hm. now injection Hm as ->.
Qed.

Lemma named_reg l n e : named l -> In (n, e) l -> n = r_name r -> forall q, prop_reg (e_value e) = Some q -> q = r.
Proof.
  intros Hl Hin -> q Hq. destruct (Hl _ _ Hin) as (Hn & Hm & Hnb). specialize (Hm q Hq).
  assert (r_name q = prop_name (e_value e)) as E by (destruct (e_value e); cbn [prop_reg prop_name] in *; congruence).
  rewrite E, Hn, (resolve_registered r (owns_in _ _ _ _ _ Ho)) in Hm. congruence.
Qed.

(** In its own phase, the value is that of the entry of [r]. *)
Lemma phase_own l parent c c' : named l -> quiet l -> NoDup (map fst l) -> apply_phase (r_phase r) l parent c = Ok c' ->
  r_phase r <> CUSTOM_PROPERTY ->
  c_get c f = unset r f res parent ->
  match lookup l (r_name r) with
  | Some e => Some (c_get c' f) = used V_eqb r f res (e_value e) parent c
  | None => c_get c' f = unset r f res parent
  end.
Proof.
  intros Hl Hq Hnd H Hph Hu. revert c Hl Hq Hnd H Hu.
  induction l as [|[n e] l IH]; cbn [EngineModel.apply_phase lookup]; intros c Hl Hq Hnd H Hu.
  - injection H as <-. exact Hu.
  - assert (Hl' : named l) by (intros n' e' H'; apply Hl; now right).
    assert (Hq' : quiet l) by (intros n' e' H'; apply (Hq n' e'); now right).
    cbn [map fst] in Hnd. inversion Hnd as [|? ? Hni Hnd']; subst.
    destruct (Hl n e (or_introl eq_refl)) as (Hn & Hm & Hnb).
    destruct (str_eqb n (r_name r)) eqn:En.
    + apply str_eqb_spec in En.
      assert (Hrest : forall c1 c2, apply_phase (r_phase r) l parent c1 = Ok c2 -> c_get c2 f = c_get c1 f).
      { clear - Ho Hl' Hq' Hni En Hg. subst n. induction l as [|[k x] l IHl]; cbn [EngineModel.apply_phase]; intros c1 c2 H.
        - now injection H as <-.
        - destruct (Hl' k x (or_introl eq_refl)) as (Hk & Hkm & _).
          assert (Hkr : k <> r_name r) by (intros ->; apply Hni; now left).
          assert (IH' : forall c1 c2, apply_phase (r_phase r) l parent c1 = Ok c2 -> c_get c2 f = c_get c1 f).
          { apply IHl; [intros n' e' H'; apply Hl'; now right|intros n' e' H'; apply (Hq' n' e'); now right|intros H'; apply Hni; now right]. }
          destruct (prop_reg (e_value x)) as [q|] eqn:Eq; [|cbn [obind] in H; now apply IH'].
          destruct (phase_beq (r_phase q) (r_phase r)); [|cbn [obind] in H; now apply IH'].
          destruct (apply (e_value x) parent c1) as [c3| |] eqn:Ea; cbn [obind] in H; try discriminate.
          rewrite (IH' _ _ H). eapply applied_frame; [eapply made_ok; eassumption| | |eapply apply_applied; eassumption].
          2:{ replace (r_name q) with k; [exact (Hq' k x (or_introl eq_refl))|]. rewrite <- Hk. destruct (e_value x); cbn [prop_reg prop_name] in *; congruence. }
          intros Enq. apply Hkr. rewrite <- Hk, <- Enq. destruct (e_value x); cbn [prop_reg prop_name] in *; congruence. }
      destruct (prop_reg (e_value e)) as [q|] eqn:Eq.
      2:{ destruct (e_value e); try discriminate Eq. discriminate Hnb. }
      assert (q = r) as -> by (eapply named_reg; [exact Hl|now left|exact En|exact Eq]).
      rewrite (internal_phase_dec_lb _ _ eq_refl) in H.
      destruct (apply (e_value e) parent c) as [c1| |] eqn:Ea; cbn [obind] in H; try discriminate.
      rewrite (Hrest _ _ H). now apply apply_used.
    + assert (Hnr : n <> r_name r) by (intros ->; rewrite str_eqb_refl in En; discriminate).
      destruct (prop_reg (e_value e)) as [q|] eqn:Eq; [|cbn [obind] in H; exact (IH c Hl' Hq' Hnd' H Hu)].
      destruct (phase_beq (r_phase q) (r_phase r)) eqn:Ep; [|cbn [obind] in H; exact (IH c Hl' Hq' Hnd' H Hu)].
      destruct (apply (e_value e) parent c) as [c1| |] eqn:Ea; cbn [obind] in H; try discriminate.
      pose proof (made_ok _ _ Hm Eq) as Hok.
      pose proof (apply_applied _ _ _ _ _ Eq Ea) as Hap.
      assert (Hc : c_custom c1 = c_custom c).
      { destruct Hok as [Hqi|(m & ->)]; [exact (applied_custom _ _ _ _ Hqi Hap)|].
        apply internal_phase_dec_bl in Ep. cbn [r_phase custom_registration] in Ep. now symmetry in Ep. }
      assert (Hf : c_get c1 f = c_get c f).
      { eapply applied_frame; [exact Hok| | |exact Hap].
        2:{ replace (r_name q) with n; [exact (Hq n e (or_introl eq_refl))|]. rewrite <- Hn. destruct (e_value e); cbn [prop_reg prop_name] in *; congruence. }
        intros Enq. apply Hnr. rewrite <- Hn, <- Enq. destruct (e_value e); cbn [prop_reg prop_name] in *; congruence. }
      specialize (IH c1 Hl' Hq' Hnd' H). rewrite Hf in IH. specialize (IH Hu).
      destruct (lookup l (r_name r)) as [x|]; [|exact IH].
      rewrite IH. now apply used_custom.
Qed.

Lemma phase_custom ph l parent c c' : ph <> CUSTOM_PROPERTY -> named l -> apply_phase ph l parent c = Ok c' ->
  c_custom c' = c_custom c.
Proof.
  intros Hph. revert c. induction l as [|[n e] l IH]; cbn [EngineModel.apply_phase]; intros c Hl H.
  - now injection H as <-.
  - assert (Hl' : named l) by (intros n' e' H'; apply Hl; now right).
    destruct (Hl n e (or_introl eq_refl)) as (Hn & Hm & Hnb).
    destruct (prop_reg (e_value e)) as [q|] eqn:Eq; [|cbn [obind] in H; now apply IH].
    destruct (phase_beq (r_phase q) ph) eqn:Ep; [|cbn [obind] in H; now apply IH].
    destruct (apply (e_value e) parent c) as [c1| |] eqn:Ea; cbn [obind] in H; try discriminate.
    rewrite (IH c1 Hl' H). eapply applied_custom; [|eapply apply_applied; eassumption].
    destruct (made_ok _ _ Hm Eq) as [Hq|(m & ->)]; [exact Hq|].
    apply internal_phase_dec_bl in Ep. exfalso. now apply Hph.
Qed.

(** The phase of custom properties changes nothing else. *)
Lemma custom_phase l parent c c' : named l -> apply_phase CUSTOM_PROPERTY l parent c = Ok c' ->
  c_get c' = c_get c.
Proof.
  revert c. induction l as [|[n e] l IH]; cbn [EngineModel.apply_phase]; intros c Hl H.
  - now injection H as <-.
  - assert (Hl' : named l) by (intros n' e' H'; apply Hl; now right).
    destruct (Hl n e (or_introl eq_refl)) as (Hn & Hm & Hnb).
    destruct (prop_reg (e_value e)) as [q|] eqn:Eq; [|cbn [obind] in H; now apply IH].
    destruct (phase_beq (r_phase q) CUSTOM_PROPERTY) eqn:Ep; [|cbn [obind] in H; now apply IH].
    destruct (apply (e_value e) parent c) as [c1| |] eqn:Ea; cbn [obind] in H; try discriminate.
    rewrite (IH c1 Hl' H). apply internal_phase_dec_bl in Ep.
    pose proof (apply_applied _ _ _ _ _ Eq Ea) as Hap.
    destruct (made_ok _ _ Hm Eq) as [Hq|(m & ->)]; [exfalso; exact (good_phase _ Hg q Hq Ep)|].
    clear - Hap. induction Hap as [|v c c' Hap IH]; [reflexivity|]. exact IH.
Qed.

(** ** What an element starts with *)

Lemma fold_initial p0 l c : (forall q, In q l -> In q (g_props g)) ->
  c_get c f = res (r_initial r) p0 \/ In r l ->
  c_get (fold_left (fun c q => match r_short q with None => r_apply q (r_initial q) c c | Some _ => c end) l c) f =
  res (r_initial r) p0.
Proof.
  revert c. induction l as [|q l IH]; cbn [fold_left]; intros c Hin Hc.
  - destruct Hc as [Hc|[]]. exact Hc.
  - assert (Hq : In q (g_props g)) by (apply Hin; now left).
    apply IH; [intros q' Hq'; apply Hin; now right|].
    destruct (str_eqb (r_name q) (r_name r)) eqn:E.
    + apply str_eqb_spec in E.
      assert (q = r) as ->.
      { pose proof (resolve_registered _ Hq) as H1. rewrite E, (resolve_registered _ (owns_in _ _ _ _ _ Ho)) in H1. congruence. }
      left. rewrite (owns_long _ _ _ _ _ Ho), (owns_apply _ _ _ _ _ Ho). apply (owns_initial _ _ _ _ _ Ho).
    + assert (Hne : r_name q <> r_name r) by (intros Ex; rewrite Ex, str_eqb_refl in E; discriminate).
      destruct Hc as [Hc|[->|Hc]]; [|congruence|now right].
      left. destruct (r_short q); [exact Hc|].
      destruct (in_dec (list_eq_dec N.eq_dec) (r_name q) rivals) as [Hr|Hr].
      * rewrite (owns_rival _ _ _ _ _ Ho) by assumption. apply (owns_initial _ _ _ _ _ Ho).
      * now rewrite (owns_frame _ _ _ _ _ Ho).
Qed.

Lemma initial_field blank parent : c_get (initial_values g blank) f = res (r_initial r) parent.
Proof. unfold initial_values. apply fold_initial; [auto|]. right. exact (owns_in _ _ _ _ _ Ho). Qed.

Lemma fold_inherit l parent c : (forall q, In q l -> In q (g_props g)) ->
  c_get (fold_left (fun c q => if r_inherited q then r_inherit q parent c else c) l c) f =
  if existsb (fun q => str_eqb (r_name q) (r_name r)) l && r_inherited r then c_get parent f else c_get c f.
Proof.
  revert c. induction l as [|q l IH]; cbn [fold_left existsb]; intros c Hin; [reflexivity|].
  rewrite IH; [|intros q' Hq'; apply Hin; now right].
  assert (Hq : In q (g_props g)) by (apply Hin; now left).
  destruct (str_eqb (r_name q) (r_name r)) eqn:E; cbn [orb andb].
  - apply str_eqb_spec in E.
    assert (q = r) as ->.
    { pose proof (resolve_registered _ Hq) as H1. rewrite E, (resolve_registered _ (owns_in _ _ _ _ _ Ho)) in H1. congruence. }
    destruct (r_inherited r) eqn:Er; [|rewrite andb_false_r; reflexivity].
    rewrite (owns_inherit _ _ _ _ _ Ho Er). now destruct (_ && true).
  - assert (Hne : r_name q <> r_name r) by (intros Ex; rewrite Ex, str_eqb_refl in E; discriminate).
    destruct (_ && _); [reflexivity|].
    destruct (r_inherited q) eqn:Ei; [|reflexivity]. now apply (owns_frame_inherit _ _ _ _ _ Ho).
Qed.

Lemma inherits_field blank parent : c_get (inherits g blank parent) f = unset r f res parent.
Proof.
  unfold inherits, unset. rewrite fold_inherit by auto.
  replace (existsb _ (g_props g)) with true.
  - cbn [andb c_get]. now rewrite (initial_field blank parent).
  - symmetry. apply existsb_exists. exists r. split; [exact (owns_in _ _ _ _ _ Ho)|apply str_eqb_refl].
Qed.

(** ** The value of a property *)

Lemma winner_lookup parent child ms p :
  well_formed (map (declared g parent child) ms) ->
  wins (all_longhands (map (declared g parent child) ms)) (r_name r) p ->
  exists e, lookup (c_entries (cascade (map (declared g parent child) ms))) (r_name r) = Some e /\ e_value e = p.
Proof. intros Hw H. now apply (cascade_winner _ Hw). Qed.

Lemma no_winner_lookup parent child ms :
  well_formed (map (declared g parent child) ms) ->
  (forall w p, ~ In (r_name r, (w, p)) (all_longhands (map (declared g parent child) ms))) ->
  lookup (c_entries (cascade (map (declared g parent child) ms))) (r_name r) = None.
Proof.
  intros Hw H. destruct (lookup _ (r_name r)) as [e|] eqn:E; [|reflexivity].
  exfalso. assert (Hwin : wins (all_longhands (map (declared g parent child) ms)) (r_name r) (e_value e)).
  { apply (cascade_winner _ Hw). exists e. auto. }
  destruct (wins_exists_In _ _ _ Hwin) as (w & Hin). exact (H w _ Hin).
Qed.

Lemma cascade_nodup (ds : list (property prop * origin * specificity)) : NoDup (map fst (c_entries (cascade ds))).
Proof.
  rewrite cascade_entries. apply expand_nodup; [apply stage1_nodup|].
  intros ne H. now apply filter_In in H as [_ H].
Qed.

Lemma compute_value blank parent ms c :
  Forall (fun m => made_by g (m_prop m)) ms ->
  compute_values g blank parent ms = Ok c ->
  quiet (c_entries (cascade (map (declared g parent c) ms))) ->
  match lookup (c_entries (cascade (map (declared g parent c) ms))) (r_name r) with
  | Some e => Some (c_get c f) = used V_eqb r f res (e_value e) parent c
  | None => c_get c f = unset r f res parent
  end.
Proof.
  intros Hms H Q1. unfold EngineModel.compute_values in H. cbv zeta in H.
  pose proof (named_stage1 ms Hms) as N0.
  pose proof (good_phase _ Hg r (owns_in _ _ _ _ _ Ho)) as Hph.
  destruct (apply_phase CUSTOM_PROPERTY (c_entries (put_all ms)) parent (inherits g blank parent)) as [c0| |] eqn:E0;
    cbn [obind] in H; try discriminate.
  destruct (annotate g parent c0 (c_entries (put_all ms))) as [l| |] eqn:El; cbn [obind] in H; try discriminate.
  pose proof (named_entries _ _ _ _ Hms El) as N1.
  rewrite (entries_cascade _ _ _ _ El) in H, N1.
  set (es := c_entries (cascade (map (declared g parent c0) ms))) in *.
  destruct (apply_phase PRE_FONT es parent c0) as [c1| |] eqn:E1; cbn [obind] in H; try discriminate.
  destruct (apply_phase FONT es parent c1) as [c2| |] eqn:E2; cbn [obind] in H; try discriminate.
  destruct (apply_phase NORMAL es parent c2) as [c3| |] eqn:E3; cbn [obind] in H; try discriminate.
  assert (K1 : c_custom c1 = c_custom c0) by (eapply phase_custom; [|exact N1|exact E1]; discriminate).
  assert (K2 : c_custom c2 = c_custom c1) by (eapply phase_custom; [|exact N1|exact E2]; discriminate).
  assert (K3 : c_custom c3 = c_custom c2) by (eapply phase_custom; [|exact N1|exact E3]; discriminate).
  assert (K4 : c_custom c = c_custom c3) by (eapply phase_custom; [|exact N1|exact H]; discriminate).
  assert (Hd : map (declared g parent c) ms = map (declared g parent c0) ms).
  { apply map_ext. intros m. apply declared_custom. congruence. }
  rewrite Hd in Q1 |- *. fold es in Q1 |- *.
  assert (F0 : c_get c0 f = unset r f res parent).
  { rewrite (custom_phase _ _ _ _ N0 E0). apply inherits_field. }
  assert (Hnd : NoDup (map fst es)) by apply cascade_nodup.
  assert (Hgo : forall a b, apply_phase (r_phase r) es parent a = Ok b ->
     c_get a f = c_get c0 f -> c_custom a = c_custom c -> c_get c f = c_get b f ->
     match lookup es (r_name r) with
     | Some e => Some (c_get c f) = used V_eqb r f res (e_value e) parent c
     | None => c_get c f = unset r f res parent
     end).
  { intros a b Hab Ha Hca Hb. rewrite F0 in Ha.
    pose proof (phase_own es parent a b N1 Q1 Hnd Hab Hph Ha) as Hown. rewrite Hb.
    destruct (lookup es (r_name r)) as [e|]; [|exact Hown]. rewrite Hown. now apply used_custom. }
  assert (O1 : PRE_FONT <> r_phase r -> c_get c1 f = c_get c0 f) by (intros X; exact (phase_other _ _ _ _ _ X N1 Q1 E1)).
  assert (O2 : FONT <> r_phase r -> c_get c2 f = c_get c1 f) by (intros X; exact (phase_other _ _ _ _ _ X N1 Q1 E2)).
  assert (O3 : NORMAL <> r_phase r -> c_get c3 f = c_get c2 f) by (intros X; exact (phase_other _ _ _ _ _ X N1 Q1 E3)).
  assert (O4 : LATE <> r_phase r -> c_get c f = c_get c3 f) by (intros X; exact (phase_other _ _ _ _ _ X N1 Q1 H)).
  destruct (r_phase r) eqn:Er; [contradiction| | | |].
  - apply (Hgo c0 c1 E1); [reflexivity|congruence|]. rewrite O4, O3, O2; [reflexivity|discriminate..].
  - apply (Hgo c1 c2 E2); [apply O1; discriminate|congruence|]. rewrite O4, O3; [reflexivity|discriminate..].
  - apply (Hgo c2 c3 E3); [rewrite O2, O1; [reflexivity|discriminate..]|congruence|]. apply O4; discriminate.
  - apply (Hgo c3 c H); [rewrite O3, O2, O1; [reflexivity|discriminate..]|congruence|reflexivity].
Qed.

Lemma compute_winner blank parent ms c :
  Forall (fun m => made_by g (m_prop m)) ms ->
  compute_values g blank parent ms = Ok c ->
  well_formed (map (declared g parent c) ms) ->
  (forall n w p, In n rivals -> ~ In (n, (w, p)) (all_longhands (map (declared g parent c) ms))) ->
  (forall p, wins (all_longhands (map (declared g parent c) ms)) (r_name r) p ->
     Some (c_get c f) = used V_eqb r f res p parent c) /\
  ((forall w p, ~ In (r_name r, (w, p)) (all_longhands (map (declared g parent c) ms))) ->
     c_get c f = unset r f res parent).
Proof.
  intros Hms H Hw Hr.
  assert (Hq : quiet (c_entries (cascade (map (declared g parent c) ms)))).
  { intros n e Hin Hn. apply In_lookup in Hin; [|apply cascade_nodup].
    assert (Hwin : wins (all_longhands (map (declared g parent c) ms)) n (e_value e)).
    { apply (cascade_winner _ Hw). exists e. auto. }
    destruct (wins_exists_In _ _ _ Hwin) as (w & Hi). exact (Hr n w _ Hn Hi). }
  pose proof (compute_value _ _ _ _ Hms H Hq) as Hv. split.
  - intros p Hp. destruct (winner_lookup _ _ _ _ Hw Hp) as (e & He & <-). now rewrite He in Hv.
  - intros Hno. now rewrite (no_winner_lookup _ _ _ Hw Hno) in Hv.
Qed.

End Owns.
(** ** Custom properties *)

Lemma inherits_custom blank parent : c_custom (inherits g blank parent) = c_custom parent.
Proof.
  unfold inherits.
  assert (H : forall l c, (forall q, In q l -> In q (g_props g)) ->
    c_custom (fold_left (fun c q => if r_inherited q then r_inherit q parent c else c) l c) = c_custom c).
  { induction l as [|q l IH]; intros c Hin; cbn [fold_left]; [reflexivity|].
    rewrite IH; [|intros q' Hq'; apply Hin; now right].
    destruct (r_inherited q); [|reflexivity]. apply (good_inherit _ Hg). apply Hin. now left. }
  rewrite H by auto. reflexivity.
Qed.

(** The custom properties after computing are those of the first phase. *)
Lemma compute_custom blank parent ms c :
  Forall (fun m => made_by g (m_prop m)) ms ->
  compute_values g blank parent ms = Ok c ->
  exists c0, apply_phase CUSTOM_PROPERTY (c_entries (put_all ms)) parent (inherits g blank parent) = Ok c0 /\
             c_custom c = c_custom c0.
Proof.
  intros Hms H. unfold EngineModel.compute_values in H. cbv zeta in H.
  destruct (apply_phase CUSTOM_PROPERTY (c_entries (put_all ms)) parent (inherits g blank parent)) as [c0| |] eqn:E0;
    cbn [obind] in H; try discriminate.
  destruct (annotate g parent c0 (c_entries (put_all ms))) as [l| |] eqn:El; cbn [obind] in H; try discriminate.
  pose proof (named_entries _ _ _ _ Hms El) as N1.
  rewrite (entries_cascade _ _ _ _ El) in H, N1.
  set (es := c_entries (cascade (map (declared g parent c0) ms))) in *.
  destruct (apply_phase PRE_FONT es parent c0) as [c1| |] eqn:E1; cbn [obind] in H; try discriminate.
  destruct (apply_phase FONT es parent c1) as [c2| |] eqn:E2; cbn [obind] in H; try discriminate.
  destruct (apply_phase NORMAL es parent c2) as [c3| |] eqn:E3; cbn [obind] in H; try discriminate.
  assert (K1 : c_custom c1 = c_custom c0) by (eapply phase_custom; [|exact N1|exact E1]; discriminate).
  assert (K2 : c_custom c2 = c_custom c1) by (eapply phase_custom; [|exact N1|exact E2]; discriminate).
  assert (K3 : c_custom c3 = c_custom c2) by (eapply phase_custom; [|exact N1|exact E3]; discriminate).
  assert (K4 : c_custom c = c_custom c3) by (eapply phase_custom; [|exact N1|exact H]; discriminate).
  exists c0. split; [reflexivity|congruence].
Qed.

Lemma lookup_set_custom e n x m :
  lookup (set_custom e n x) m = if str_eqb n m then Some x else lookup e m.
Proof. reflexivity. Qed.

Lemma applied_lookup m parent c c' n : applied (custom_registration m) parent c c' -> m <> n ->
  lookup (c_custom c') n = lookup (c_custom c) n.
Proof.
  intros H Hne. induction H as [|v c c' H IH]; [reflexivity|]. rewrite IH.
  cbn [r_apply custom_registration c_custom]. rewrite lookup_set_custom.
  destruct (str_eqb m n) eqn:E; [apply str_eqb_spec in E; contradiction|reflexivity].
Qed.

Lemma custom_phase_lookup n l parent c c' : named l -> NoDup (map fst l) ->
  resolve g n = Some (custom_registration n) ->
  apply_phase CUSTOM_PROPERTY l parent c = Ok c' ->
  match lookup l n with
  | Some e => forall q v, e_value e = Parsed q (Content v) -> lookup (c_custom c') n = Some v
  | None => lookup (c_custom c') n = lookup (c_custom c) n
  end.
Proof.
  intros Hl Hnd Hn. revert c Hl Hnd. induction l as [|[k e] l IH]; cbn [EngineModel.apply_phase lookup]; intros c Hl Hnd H.
  - now injection H as <-.
  - assert (Hl' : named l) by (intros n' e' H'; apply Hl; now right).
    cbn [map fst] in Hnd. assert (Hni : ~ In k (map fst l)) by now inversion Hnd.
    assert (Hnd' : NoDup (map fst l)) by now inversion Hnd.
    destruct (Hl k e (or_introl eq_refl)) as (Hk & Hm & Hnb).
    destruct (prop_reg (e_value e)) as [q|] eqn:Eq.
    2:{ destruct (e_value e); try discriminate Eq. discriminate Hnb. }
    assert (Hqk : r_name q = k) by (rewrite <- Hk; destruct (e_value e); cbn [prop_reg prop_name] in *; congruence).
    specialize (Hm q Eq).
    destruct (str_eqb k n) eqn:Ek.
    + apply str_eqb_spec in Ek. rewrite Hqk, Ek, Hn in Hm. injection Hm as <-. cbn [r_phase custom_registration] in H.
      change (phase_beq CUSTOM_PROPERTY CUSTOM_PROPERTY) with true in H. cbv iota in H.
      destruct (apply (e_value e) parent c) as [c1| |] eqn:Ea; cbn [obind] in H; try discriminate.
      intros q v Hv. rewrite Hv in Ea, Eq. cbn [prop_reg] in Eq. injection Eq as ->.
      cbn [EngineModel.apply r_short custom_registration r_apply content_of] in Ea. injection Ea as <-.
      specialize (IH _ Hl' Hnd' H).
      replace (lookup l n) with (@None (entry prop)) in IH.
      * rewrite IH. cbn [c_custom]. rewrite lookup_set_custom, str_eqb_refl. reflexivity.
      * symmetry. destruct (lookup l n) eqn:E; [|reflexivity]. exfalso. apply Hni.
        rewrite Ek. apply lookup_In in E. change n with (fst (n, e0)). now apply in_map.
    + destruct (phase_beq (r_phase q) CUSTOM_PROPERTY) eqn:Ep; cbn [obind] in H; [|exact (IH _ Hl' Hnd' H)].
      destruct (apply (e_value e) parent c) as [c1| |] eqn:Ea; cbn [obind] in H; try discriminate.
      specialize (IH _ Hl' Hnd' H).
      assert (Hc1 : lookup (c_custom c1) n = lookup (c_custom c) n).
      { pose proof (apply_applied _ _ _ _ _ Eq Ea) as Hap.
        destruct (resolve_cases _ _ Hm) as [Hq|(m & ->)].
        - now rewrite (applied_custom _ _ _ _ Hq Hap).
        - eapply applied_lookup; [exact Hap|]. cbn [r_name custom_registration] in Hqk. intros ->. rewrite Hqk in Ek.
          rewrite str_eqb_refl in Ek. discriminate. }
      rewrite Hc1 in IH. exact IH.
Qed.

Definition plain (m : matched) : property prop * origin * specificity := (to_property m, m_origin m, m_spec m).

Lemma plain_well_formed ms : well_formed (map plain ms).
Proof.
  exists (fun _ => None). split; [|split].
  - intros p o s H _. apply in_map_iff in H as (m & E & _). injection E as <- _ _. reflexivity.
  - discriminate.
  - discriminate.
Qed.

Lemma plain_cascade ms : c_entries (cascade (map plain ms)) = c_entries (put_all ms).
Proof.
  assert (Hs : forall l, (forall ne, In ne l -> e_expansion (snd ne) = @None (list (str * prop))) ->
    fold_left CascadeModel.expand_one (filter is_shorthand l) l = l).
  { intros l Hl. replace (filter is_shorthand l) with (@nil (str * entry prop)); [reflexivity|].
    symmetry. induction l as [|x l IH]; [reflexivity|]. cbn [filter].
    unfold is_shorthand at 1. rewrite (Hl x (or_introl eq_refl)). apply IH. intros y Hy. apply Hl. now right. }
  unfold cascade, expand_shorthands. cbn [c_entries].
  assert (Hf : forall c, fold_left (fun c d => put c (fst (fst d)) (snd (fst d)) (snd d)) (map plain ms) c =
    fold_left (fun c m => put c (to_property m) (m_origin m) (m_spec m)) ms c).
  { induction ms as [|m ms IH]; intros c; cbn [map fold_left]; [reflexivity|]. apply IH. }
  rewrite Hf. unfold put_all. apply Hs.
  assert (Hg' : forall c, (forall ne, In ne (c_entries c) -> e_expansion (snd ne) = @None (list (str * prop))) ->
    forall ne, In ne (c_entries (fold_left (fun c m => put c (to_property m) (m_origin m) (m_spec m)) ms c)) ->
    e_expansion (snd ne) = None).
  { clear Hf. induction ms as [|m ms IH]; intros c Hc; cbn [fold_left]; [exact Hc|].
    apply IH. unfold put, to_property. cbn [p_bogus p_name p_value p_expansion]. destruct (is_bogus (m_prop m)); [exact Hc|].
    cbn [c_entries]. clear IH. induction (c_entries c) as [|[k x] l IHl]; cbn [put_longhand].
    - intros ne [<-|[]]. reflexivity.
    - destruct (str_eqb k (prop_name (m_prop m))).
      + intros ne [<-|H]; [|apply Hc; now right]. cbn [snd]. destruct (entry_geb _ x); [reflexivity|].
        exact (Hc (k, x) (or_introl eq_refl)).
      + intros ne [<-|H]; [exact (Hc (k, x) (or_introl eq_refl))|]. apply IHl; [|exact H].
        intros y Hy. apply Hc. now right. }
  apply Hg'. intros ne [].
Qed.

Lemma custom_value blank parent ms c n :
  Forall (fun m => made_by g (m_prop m)) ms ->
  compute_values g blank parent ms = Ok c ->
  resolve g n = Some (custom_registration n) ->
  (forall q v, wins (all_longhands (map plain ms)) n (Parsed q (Content v)) -> lookup (c_custom c) n = Some v) /\
  ((forall w p, ~ In (n, (w, p)) (all_longhands (map plain ms))) -> lookup (c_custom c) n = lookup (c_custom parent) n).
Proof.
  intros Hms H Hn. destruct (compute_custom _ _ _ _ Hms H) as (c0 & H0 & ->).
    assert (Hnd : NoDup (map fst (c_entries (put_all ms)))).
  { rewrite <- plain_cascade, cascade_entries. apply expand_nodup; [apply stage1_nodup|].
    intros ne Hne. now apply filter_In in Hne as [_ Hne]. }
  pose proof (custom_phase_lookup n _ _ _ _ (named_stage1 ms Hms) Hnd Hn H0) as Hp. rewrite inherits_custom in Hp. split.
  - intros q v Hw. apply (cascade_winner _ (plain_well_formed ms)) in Hw as (e & He & Hv).
    rewrite plain_cascade in He. rewrite He in Hp. exact (Hp q v Hv).
  - intros Hno. destruct (lookup (c_entries (put_all ms)) n) as [e|] eqn:E; [|exact Hp].
    exfalso. rewrite <- plain_cascade in E.
    assert (Hw : wins (all_longhands (map plain ms)) n (e_value e)).
    { apply (cascade_winner _ (plain_well_formed ms)). exists e. auto. }
    destruct (wins_exists_In _ _ _ Hw) as (w & Hi). exact (Hno w _ Hi).
Qed.

End Good.
End Proofs.
