(** Further proofs about computed values: what is not declared, what does not depend on what, and
    declarations that go wrong. *)
From Coq Require Import String List NArith Bool Lia PeanoNat.
From Verif.Base Require Import Str Outcome.
From Verif.Css Require Import LexerModel ParserModel.
From Verif.Values Require Import CalcModel.
From Verif.Style Require Import CascadeModel CascadeSpec CascadeProofs.
From Verif.Props Require Import VarModel EngineModel EngineSpec EngineProofs EngineProofs2.
Import ListNotations.
Local Open Scope list_scope.

Section Names.
Context {A : Type}.
Implicit Types (m : entries (V := A)).

Lemma put_keys m k e n : In n (map fst (put_longhand m k e)) -> n = k \/ In n (map fst m).
Proof.
  induction m as [|[j x] m IH]; cbn [put_longhand map fst]; [intros [<-|[]]; now left|].
  destruct (str_eqb j k) eqn:E; cbn [map fst].
  - intros [<-|H]; right; [now left|now right].
  - intros [<-|H]; [right; now left|]. destruct (IH H); [now left|right; now right].
Qed.

Lemma remove_keys m k n : In n (map fst (map_remove m k)) -> In n (map fst m).
Proof.
  induction m as [|[j x] m IH]; cbn [map_remove map fst]; [auto|].
  destruct (str_eqb j k); cbn [map fst]; [now right|]. intros [<-|H]; [now left|right; auto].
Qed.

Lemma expand_keys l m n : In n (map fst (fold_left CascadeModel.expand_one l m)) ->
  In n (map fst m) \/ exists ne x, In ne l /\ e_expansion (snd ne) = Some x /\ In n (map fst x).
Proof.
  revert m. induction l as [|ne l IH]; cbn [fold_left]; intros m H; [now left|].
  destruct (IH _ H) as [H1|(ne' & x & H1 & H2)]; [|right; exists ne', x; split; [now right|exact H2]].
  unfold CascadeModel.expand_one in H1. destruct (e_expansion (snd ne)) as [x|] eqn:E; [|now left].
  assert (G : forall x' m', In n (map fst (put_expansion (snd ne) m' x')) -> In n (map fst m') \/ In n (map fst x')).
  { unfold put_expansion. induction x' as [|y x' IHx]; cbn [fold_left]; intros m' H'; [now left|].
    destruct (IHx _ H') as [H2|H2]; [|right; now right]. apply put_keys in H2 as [->|H2]; [right; now left|now left]. }
  apply G in H1 as [H1|H1].
  - left. now apply remove_keys in H1.
  - right. exists ne, x. split; [now left|]. split; [exact E|exact H1].
Qed.

Lemma put_expansions (P : str -> option (list (str * A)) -> Prop) m k e :
  (forall n x, In (n, x) m -> P n (e_expansion x)) -> P k (e_expansion e) ->
  forall n x, In (n, x) (put_longhand m k e) -> P n (e_expansion x).
Proof.
  intros Hm He. induction m as [|[j y] m IH]; cbn [put_longhand]; intros n x.
  - intros [H|[]]. injection H as <- <-. exact He.
  - assert (Hm' : forall n x, In (n, x) m -> P n (e_expansion x)) by (intros; apply Hm; now right).
    destruct (str_eqb j k) eqn:E.
    + apply str_eqb_spec in E. subst j. intros [H|H]; [|now apply Hm']. injection H as <- <-.
      destruct (entry_geb e y); [exact He|]. apply Hm. now left.
    + intros [H|H]; [injection H as <- <-; apply Hm; now left|]. now apply IH.
Qed.

(** The names that the cascade has entries for are among those declared. *)
Lemma cascade_names (ds : list (property A * origin * specificity)) n :
  In n (map fst (c_entries (cascade ds))) ->
  exists p o s, In (p, o, s) ds /\ p_bogus p = false /\
    (p_name p = n \/ exists x, p_expansion p = Some x /\ In n (map fst x)).
Proof.
  set (P := fun n x => exists p o s, In (p, o, s) ds /\ p_bogus p = false /\ p_name p = n /\ p_expansion p = x).
  assert (H0 : forall ds' c, (forall d, In d ds' -> In d ds) -> (forall n x, In (n, x) (c_entries c) -> P n (e_expansion x)) ->
     forall n x, In (n, x) (c_entries (fold_left (fun c d => put c (fst (fst d)) (snd (fst d)) (snd d)) ds' c)) -> P n (e_expansion x)).
  { induction ds' as [|[[p o] s] ds' IH]; intros c Hin Hc; cbn [fold_left]; [exact Hc|].
    apply IH; [intros d Hd; apply Hin; now right|]. unfold put. cbn [fst snd].
    destruct (p_bogus p) eqn:Eb; [exact Hc|]. cbn [c_entries]. apply put_expansions; [exact Hc|].
    exists p, o, s. split; [apply Hin; now left|]. auto. }
  unfold cascade, expand_shorthands. cbn [c_entries]. intros H. apply expand_keys in H as [H|([k e] & x & H1 & H2 & H3)].
  - apply in_map_iff in H as ([k e] & <- & H). apply (H0 ds cascaded_empty) in H; [|auto|intros ? ? []].
    destruct H as (p & o & s & Hi & Hb & Hn & _). exists p, o, s. auto.
  - apply filter_In in H1 as [H1 _]. apply (H0 ds cascaded_empty) in H1; [|auto|intros ? ? []].
    destruct H1 as (p & o & s & Hi & Hb & Hn & Hx). exists p, o, s. split; [exact Hi|]. split; [exact Hb|]. right.
    exists x. split; [|exact H3]. rewrite Hx. exact H2.
Qed.

Lemma cascade_present (ds : list (property A * origin * specificity)) : well_formed ds ->
  forall n w p, In (n, (w, p)) (all_longhands ds) -> exists e, lookup (c_entries (cascade ds)) n = Some e.
Proof.
  intros (longhands & Hname & Hflat & Hnodup) n w p Hin.
  pose proof (cascade_best ds longhands Hname Hflat n) as B.
  destruct (lookup (c_entries (cascade ds)) n) as [e|]; [eexists; reflexivity|]. exfalso. simpl in B.
  rewrite <- (longhands_cands 0) in Hin. apply in_map_iff in Hin as [[n' e'] [Hf Hi]].
  unfold forget in Hf; simpl in Hf. injection Hf as -> _ _. exact (B e' Hi).
Qed.

(** Winning depends on the declarations of the name alone. *)
Lemma wins_filter (ls : list (str * (weight * A))) n p :
  wins (filter (fun x => str_eqb (fst x) n) ls) n p <-> wins ls n p.
Proof.
  assert (Hin : forall (l : list (str * (weight * A))) w v, In (n, (w, v)) (filter (fun x => str_eqb (fst x) n) l) <-> In (n, (w, v)) l).
  { intros l w v. rewrite filter_In. cbn [fst]. rewrite str_eqb_refl. tauto. }
  split.
  - intros (l1 & w & l2 & E & H1 & H2).
    assert (exists k1 k2, ls = k1 ++ (n, (w, p)) :: k2 /\ l1 = filter (fun x => str_eqb (fst x) n) k1 /\
              l2 = filter (fun x => str_eqb (fst x) n) k2) as (k1 & k2 & -> & -> & ->).
    { clear H1 H2. revert l1 E. induction ls as [|x ls IH]; cbn [filter]; intros l1 E.
      - destruct l1; discriminate.
      - destruct (str_eqb (fst x) n) eqn:Ex.
        + destruct l1 as [|y l1]; cbn [app] in E.
          * exists [], ls. cbn [app]. split; [|split; [reflexivity|]]; congruence.
          * destruct (IH l1) as (k1 & k2 & -> & -> & ->); [congruence|].
            exists (x :: k1), k2. cbn [app filter]. rewrite Ex. split; [reflexivity|]. split; [|reflexivity]. congruence.
        + destruct (IH l1 E) as (k1 & k2 & -> & -> & ->). exists (x :: k1), k2. cbn [app filter]. rewrite Ex. auto. }
    exists k1, w, k2. split; [reflexivity|]. split.
    + intros w' v' Hi. apply (H1 w' v'). now apply Hin.
    + intros w' v' Hi. apply (H2 w' v'). now apply Hin.
  - intros (l1 & w & l2 & -> & H1 & H2).
    exists (filter (fun x => str_eqb (fst x) n) l1), w, (filter (fun x => str_eqb (fst x) n) l2). split.
    + rewrite filter_app. cbn [filter fst]. now rewrite str_eqb_refl.
    + split; intros w' v' Hi; apply (proj1 (Hin _ _ _)) in Hi; eauto.
Qed.

(** Lists of declarations that differ in the values alone have winners at the same place. *)
Lemma wins_related (R : A -> A -> Prop) (ls ls' : list (str * (weight * A))) n p :
  Forall2 (fun x y => fst x = fst y /\ fst (snd x) = fst (snd y) /\ R (snd (snd x)) (snd (snd y))) ls ls' ->
  wins ls n p -> exists p', wins ls' n p' /\ R p p'.
Proof.
  intros HF (l1 & w & l2 & -> & H1 & H2).
  apply Forall2_app_inv_l in HF as (k1 & k & F1 & F2 & ->).
  inversion F2 as [|x y ? k2 (Hn & Hw & HR) F3]; subst. destruct y as [n' [w' p']]. cbn [fst snd] in *. subst n' w'.
  assert (Hin : forall l k, Forall2 (fun x y : str * (weight * A) => fst x = fst y /\ fst (snd x) = fst (snd y) /\ R (snd (snd x)) (snd (snd y))) l k ->
     forall w' v', In (n, (w', v')) k -> exists v, In (n, (w', v)) l).
  { clear. intros l k HF. induction HF as [|[a [b c]] [a' [b' c']] l k (E1 & E2 & _) _ IH]; intros w' v'; [contradiction|].
    cbn [fst snd] in E1, E2. subst a' b'. intros [H|H].
    - injection H as <- <- <-. exists c. now left.
    - destruct (IH _ _ H) as (v & Hv). exists v. now right. }
  exists p'. split; [|exact HR]. exists k1, w, k2. split; [reflexivity|]. split.
  - intros w' v' Hi. destruct (Hin _ _ F1 _ _ Hi) as (v & Hv). exact (H1 _ _ Hv).
  - intros w' v' Hi. destruct (Hin _ _ F3 _ _ Hi) as (v & Hv). exact (H2 _ _ Hv).
Qed.

End Names.

Section Proofs.
Context {V field : Type} (V_eqb : V -> V -> bool).
Local Notation registration := (registration V field).
Local Notation computed := (computed V field).
Local Notation prop := (prop V field).
Local Notation registry := (registry V field).
Local Notation matched := (matched V field).
Local Notation apply := (apply V_eqb).
Local Notation apply_phase := (apply_phase V_eqb).
Local Notation compute_values := (compute_values V_eqb).

Section Good.
Variable g : registry.
Hypothesis Hg : good g.

(** [m] says something about [n], itself or as a shorthand. *)
Definition concerns (parent child : computed) (n : str) (m : matched) : Prop :=
  is_bogus (m_prop m) = false /\
  (prop_name (m_prop m) = n \/ exists x, ex g parent child (m_prop m) = Some x /\ In n (map fst x)).

Lemma not_concerned parent child ms n :
  Forall (fun m => ~ concerns parent child n m) ms ->
  ~ In n (map fst (c_entries (cascade (map (declared g parent child) ms)))).
Proof.
  intros HF H. apply cascade_names in H as (p & o & s & Hi & Hb & Hn).
  apply in_map_iff in Hi as (m & E & Hm). rewrite Forall_forall in HF. apply (HF m Hm).
  unfold declared in E. injection E as <- <- <-. cbn [p_bogus p_name p_expansion] in *. split; assumption.
Qed.

Section Owns.
Variables (rivals : list str) (r : registration) (f : field) (res : val V -> computed -> val V).
Hypothesis Ho : owns g rivals r f res.

(** What nobody declares. *)
Lemma compute_undeclared blank parent ms c :
  Forall (fun m => made_by g (m_prop m)) ms ->
  compute_values g blank parent ms = Ok c ->
  Forall (fun m => ~ concerns parent c (r_name r) m /\ forall n, In n rivals -> ~ concerns parent c n m) ms ->
  c_get c f = unset r f res parent.
Proof.
  intros Hms H Hno.
  assert (Hq : quiet rivals (c_entries (cascade (map (declared g parent c) ms)))).
  { intros n e Hin Hn. apply (not_concerned parent c ms n).
    - eapply Forall_impl; [|exact Hno]. cbn beta. intros m [_ Hm]. now apply Hm.
    - apply in_map_iff. exists (n, e). auto. }
  pose proof (compute_value V_eqb g Hg rivals r f res Ho _ _ _ _ Hms H Hq) as Hv.
  destruct (lookup (c_entries (cascade (map (declared g parent c) ms))) (r_name r)) as [e|] eqn:E; [|exact Hv].
  exfalso. apply (not_concerned parent c ms (r_name r)).
  - eapply Forall_impl; [|exact Hno]. cbn beta. tauto.
  - apply lookup_In in E. apply in_map_iff. exists (r_name r, e). auto.
Qed.

(** Two lists of declarations that say the same about [r] give it the same value. *)
Lemma compute_same blank blank' parent parent' ms ms' c c' :
  Forall (fun m => made_by g (m_prop m)) ms -> Forall (fun m => made_by g (m_prop m)) ms' ->
  compute_values g blank parent ms = Ok c -> compute_values g blank' parent' ms' = Ok c' ->
  well_formed (map (declared g parent c) ms) -> well_formed (map (declared g parent' c') ms') ->
  (forall n w p, In n rivals -> ~ In (n, (w, p)) (all_longhands (map (declared g parent c) ms))) ->
  (forall n w p, In n rivals -> ~ In (n, (w, p)) (all_longhands (map (declared g parent' c') ms'))) ->
  unset r f res parent = unset r f res parent' ->
  Forall2 (fun x y => fst x = fst y /\ fst (snd x) = fst (snd y) /\
     used V_eqb r f res (snd (snd x)) parent c = used V_eqb r f res (snd (snd y)) parent' c')
    (filter (fun x => str_eqb (fst x) (r_name r)) (all_longhands (map (declared g parent c) ms)))
    (filter (fun x => str_eqb (fst x) (r_name r)) (all_longhands (map (declared g parent' c') ms'))) ->
  c_get c f = c_get c' f.
Proof.
  intros Hms Hms' H H' Hw Hw' Hr Hr' Hu HF.
  destruct (compute_winner V_eqb g Hg rivals r f res Ho _ _ _ _ Hms H Hw Hr) as [W1 W2].
  destruct (compute_winner V_eqb g Hg rivals r f res Ho _ _ _ _ Hms' H' Hw' Hr') as [W1' W2'].
  destruct (lookup (c_entries (cascade (map (declared g parent c) ms))) (r_name r)) as [e|] eqn:E.
  - assert (Hwin : wins (all_longhands (map (declared g parent c) ms)) (r_name r) (e_value e)).
    { apply (cascade_winner _ Hw). exists e. auto. }
    pose proof (proj2 (wins_filter _ _ _) Hwin) as Hwf.
    destruct (wins_related (fun p q => used V_eqb r f res p parent c = used V_eqb r f res q parent' c') _ _ _ _ HF Hwf)
      as (p' & Hp' & Hrel).
    apply (proj1 (wins_filter _ _ _)) in Hp'. specialize (W1 _ Hwin). specialize (W1' _ Hp'). cbn beta in Hrel.
    assert (Some (c_get c f) = Some (c_get c' f)) as X by congruence. now injection X.
  - assert (Hno : forall w p, ~ In (r_name r, (w, p)) (all_longhands (map (declared g parent c) ms))).
    { intros w p Hin. pose proof (cascade_present _ Hw _ _ _ Hin) as (e & He). congruence. }
    assert (Hnil : filter (fun x => str_eqb (fst x) (r_name r)) (all_longhands (map (declared g parent c) ms)) = []).
    { destruct (filter _ (all_longhands (map (declared g parent c) ms))) as [|[k [w p]] l] eqn:El; [reflexivity|].
      exfalso. assert (Hi : In (k, (w, p)) (filter (fun x => str_eqb (fst x) (r_name r)) (all_longhands (map (declared g parent c) ms)))) by (rewrite El; now left).
      apply filter_In in Hi as [Hi Hk]. cbn [fst] in Hk. apply str_eqb_spec in Hk. subst k. exact (Hno _ _ Hi). }
    rewrite Hnil in HF.
    rewrite (W2 Hno), Hu. symmetry. apply W2'. intros w p Hi.
    assert (Hi' : In (r_name r, (w, p)) (filter (fun x => str_eqb (fst x) (r_name r)) (all_longhands (map (declared g parent' c') ms')))).
    { apply filter_In. split; [exact Hi|]. apply str_eqb_refl. }
    destruct (filter _ (all_longhands (map (declared g parent' c') ms'))); [contradiction|inversion HF].
Qed.

End Owns.

(** ** Unknown properties *)

Lemma unknown_bogus fuel n content : lookup (g_alias g) n = None ->
  (forall q, In q (g_props g) -> r_name q <> n) -> starts_with (of_string "--") n = false ->
  parse_value fuel g n content = Ok (Bogus n).
Proof.
  intros Ha Hno Hs. unfold parse_value, resolve. rewrite Ha.
  destruct (find_reg (g_props g) n) as [r|] eqn:E.
  - apply find_reg_in in E as [Hi Hn]. exfalso. exact (Hno r Hi Hn).
  - now rewrite Hs.
Qed.

Lemma bogus_ignored (blank parent : computed) ms1 m ms2 : is_bogus (m_prop m) = true ->
  compute_values g blank parent (ms1 ++ m :: ms2) = compute_values g blank parent (ms1 ++ ms2).
Proof.
  intros Hb. unfold EngineModel.compute_values.
  assert (E : put_all (ms1 ++ m :: ms2) = put_all (ms1 ++ ms2)).
  { unfold put_all. rewrite !fold_left_app. cbn [fold_left]. f_equal. unfold put, to_property. cbn [p_bogus]. now rewrite Hb. }
  now rewrite E.
Qed.

(** ** [revert] *)

Definition revert_word : sst := TOK (mkT IDENT (of_string "revert")).

Lemma revert_read fuel n r rest : resolve g n = Some r -> parse_value fuel g n (revert_word :: rest) = Ok (Defaulted r D_REVERT).
Proof. intros H. unfold parse_value. rewrite H. reflexivity. Qed.

Lemma revert_panics r (blank parent : computed) i o s : In r (g_props g) ->
  compute_values g blank parent [mkM (Defaulted r D_REVERT) i o s] = Panic.
Proof.
  intros Hr. unfold EngineModel.compute_values. cbv zeta.
  pose proof (good_phase _ Hg r Hr) as Hp.
  unfold put_all, put, to_property, cascaded_empty.
  cbn [fold_left p_bogus is_bogus m_prop m_important m_origin m_spec c_entries put_longhand p_name p_value p_expansion p_important prop_name].
  cbn [EngineModel.apply_phase e_value prop_reg].
  destruct (phase_beq (r_phase r) CUSTOM_PROPERTY) eqn:Ec; [apply internal_phase_dec_bl in Ec; contradiction|].
  cbn [obind annotate e_value]. unfold is_short. cbn [prop_reg].
  destruct (r_short r) as [fn|] eqn:Es; [reflexivity|].
  cbn [obind]. unfold expand_shorthands. cbn [c_entries filter is_shorthand snd e_expansion fold_left].
  cbn [EngineModel.apply_phase e_value prop_reg EngineModel.apply default_value obind].
  destruct (r_phase r); cbn [phase_beq obind]; try reflexivity. now contradiction Hp.
Qed.

(** ** Down the tree *)

Lemma along_cons t r i path l : along t r (i :: path) = Some l ->
  exists ms c ts rs t' r' l', t = Styled ms ts /\ r = Result c rs /\ nth_error ts i = Some t' /\ nth_error rs i = Some r' /\
    along (V := V) (field := field) t' r' path = Some l' /\ l = (ms, c) :: l'.
Proof.
  destruct t as [ms ts], r as [c rs]. cbn [along].
  destruct (nth_error ts i) as [t'|] eqn:E1; [|discriminate]. destruct (nth_error rs i) as [r'|] eqn:E2; [|discriminate].
  destruct (along t' r' path) as [l'|] eqn:E3; [|discriminate]. intros H. injection H as <-.
  exists ms, c, ts, rs, t', r', l'. auto 8.
Qed.

Lemma along_head t r path l : along (V := V) (field := field) t r path = Some l ->
  exists ms c ts rs l', t = Styled ms ts /\ r = Result c rs /\ l = (ms, c) :: l'.
Proof.
  destruct t as [ms ts], r as [c rs]. destruct path as [|i path].
  - intros H. injection H as <-. do 5 eexists. repeat split; reflexivity.
  - intros H. apply along_cons in H as (ms' & c' & ts' & rs' & t' & r' & l' & E1 & E2 & _ & _ & _ & ->).
    injection E1 as <- <-. injection E2 as <- <-. do 5 eexists. repeat split; reflexivity.
Qed.

Lemma elements_nth (blank parent : computed) ms c ts rs i t' r' :
  elements V_eqb blank g parent (Styled ms ts) (Result c rs) -> nth_error ts i = Some t' -> nth_error rs i = Some r' ->
  elements V_eqb blank g c t' r'.
Proof.
  cbn [elements]. intros [_ H]. revert rs i H. induction ts as [|t ts IH]; intros rs i H Ht Hr; destruct i, rs as [|x rs]; try discriminate; try contradiction.
  - injection Ht as <-. injection Hr as <-. apply H.
  - apply (IH rs i); [apply H|exact Ht|exact Hr].
Qed.

(** If nothing but inherits on the way down, the values stay. *)
Lemma inherited_down (blank : computed) (P : list matched -> Prop) (f : field) :
  (forall parent ms c, P ms -> compute_values g blank parent ms = Ok c -> c_get c f = c_get parent f) ->
  forall path t parent r l, elements V_eqb blank g parent t r -> along t r path = Some l ->
  Forall (fun x => P (fst x)) (tl l) ->
  forall x, In x l -> exists y, hd_error l = Some y /\ c_get (snd x) f = c_get (snd y) f.
Proof.
  intros HP. induction path as [|i path IH]; intros t parent r l He Ha Hl x Hx.
  - destruct (along_head _ _ _ _ Ha) as (ms & c & ts & rs & l' & -> & -> & ->). cbn [along] in Ha. injection Ha as <-.
    destruct Hx as [<-|[]]. eexists. split; reflexivity.
  - destruct (along_cons _ _ _ _ _ Ha) as (ms & c & ts & rs & t' & r' & l' & -> & -> & Ht & Hr & Ha' & ->).
    cbn [hd_error tl] in *. eexists. split; [reflexivity|]. cbn [snd].
    destruct Hx as [<-|Hx]; [reflexivity|].
    pose proof (elements_nth _ _ _ _ _ _ _ _ _ He Ht Hr) as He'.
    destruct (along_head _ _ _ _ Ha') as (ms2 & c2 & ts2 & rs2 & l2 & -> & -> & ->).
    inversion Hl as [|? ? Hl1 Hl2]; subst. cbn [fst] in Hl1.
    destruct (IH _ _ _ _ He' Ha' Hl2 x Hx) as (y & Hy & ->). cbn [hd_error] in Hy. injection Hy as <-. cbn [snd].
    apply (HP c ms2 c2 Hl1). apply He'.
Qed.

(** Every element on the way gets its values from the one above. *)
Lemma along_parent (blank : computed) : forall path t parent r l, elements V_eqb blank g parent t r -> along t r path = Some l ->
  forall k a b, nth_error l k = Some a -> nth_error l (S k) = Some b -> compute_values g blank (snd a) (fst b) = Ok (snd b).
Proof.
  induction path as [|i path IH]; intros t parent r l He Ha k a b Hka Hkb.
  - destruct (along_head _ _ _ _ Ha) as (ms & c & ts & rs & l' & -> & -> & ->). cbn [along] in Ha. injection Ha as <-.
    cbn [nth_error] in Hkb. destruct k as [|k]; cbn in Hkb; discriminate.
  - destruct (along_cons _ _ _ _ _ Ha) as (ms & c & ts & rs & t' & r' & l' & -> & -> & Ht & Hr & Ha' & ->).
    pose proof (elements_nth _ _ _ _ _ _ _ _ _ He Ht Hr) as He'. cbn [nth_error] in Hkb. destruct k as [|k].
    + cbn [nth_error] in Hka. injection Hka as <-. cbn [snd].
      destruct (along_head _ _ _ _ Ha') as (ms2 & c2 & ts2 & rs2 & l2 & -> & -> & ->).
      cbn [nth_error] in Hkb. injection Hkb as <-. cbn [fst snd]. apply He'.
    + cbn [nth_error] in Hka. exact (IH _ _ _ _ He' Ha' k a b Hka Hkb).
Qed.

End Good.
End Proofs.
