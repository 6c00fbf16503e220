From Coq Require Import List ZArith Bool Arith Lia.
From Verif.Base Require Import Str.
From Verif.Style Require Import CascadeModel CascadeSpec.
Import ListNotations.

(** * Specificity *)

Lemma spec_cmp_lt x y : spec_cmp x y = Lt <-> spec_lt x y.
Proof.
  unfold spec_cmp, spec_lt.
  destruct (Z.compare_spec (sp_a x) (sp_a y)), (Z.compare_spec (sp_b x) (sp_b y)),
    (Z.compare_spec (sp_c x) (sp_c y)); split; intros; try discriminate; try reflexivity; lia.
Qed.

Lemma spec_cmp_eq x y : spec_cmp x y = Eq <-> x = y.
Proof.
  unfold spec_cmp. destruct x as [a b c], y as [a' b' c']; simpl.
  destruct (Z.compare_spec a a'), (Z.compare_spec b b'), (Z.compare_spec c c');
    split; intros H'; try discriminate; try congruence; injection H'; lia.
Qed.

Lemma spec_cmp_gt x y : spec_cmp x y = Gt <-> spec_lt y x.
Proof.
  unfold spec_cmp, spec_lt.
  destruct (Z.compare_spec (sp_a x) (sp_a y)), (Z.compare_spec (sp_b x) (sp_b y)),
    (Z.compare_spec (sp_c x) (sp_c y)); split; intros; try discriminate; try reflexivity; lia.
Qed.

Lemma spec_lt_trans x y z : spec_lt x y -> spec_lt y z -> spec_lt x z.
Proof. unfold spec_lt. lia. Qed.

Lemma spec_lt_irrefl x : ~ spec_lt x x.
Proof. unfold spec_lt. lia. Qed.

Lemma spec_trichotomy x y : spec_lt x y \/ x = y \/ spec_lt y x.
Proof.
  destruct (spec_cmp x y) eqn:E.
  - right; left. now apply spec_cmp_eq.
  - left. now apply spec_cmp_lt.
  - right; right. now apply spec_cmp_gt.
Qed.

(** * Weights *)

Lemma origin_rank_inj x y : origin_rank x = origin_rank y -> x = y.
Proof. destruct x, y; simpl; congruence. Qed.

Lemma origin_lt_rank x y : origin_lt x y <-> origin_rank x < origin_rank y.
Proof.
  split.
  - intros (l1 & l2 & l3 & H). unfold origins_ascending in H.
    do 5 (destruct l1 as [|? l1]; [injection H; clear H; intros H E; subst x;
      do 5 (destruct l2 as [|? l2]; [try discriminate H; injection H; intros; subst; simpl; lia|];
            try discriminate H; injection H; clear H; intros H _)|];
      try discriminate H; injection H; clear H; intros H _);
    destruct l1; discriminate H.
  - unfold origin_lt, origins_ascending. destruct x, y; simpl; intros H; try lia.
    + now exists [], [], [AUTHOR_PRESENTATIONAL_HINT; AUTHOR; INLINE].
    + now exists [], [USER], [AUTHOR; INLINE].
    + now exists [], [USER; AUTHOR_PRESENTATIONAL_HINT], [INLINE].
    + now exists [], [USER; AUTHOR_PRESENTATIONAL_HINT; AUTHOR], [].
    + now exists [USER_AGENT], [], [AUTHOR; INLINE].
    + now exists [USER_AGENT], [AUTHOR_PRESENTATIONAL_HINT], [INLINE].
    + now exists [USER_AGENT], [AUTHOR_PRESENTATIONAL_HINT; AUTHOR], [].
    + now exists [USER_AGENT; USER], [], [INLINE].
    + now exists [USER_AGENT; USER], [AUTHOR], [].
    + now exists [USER_AGENT; USER; AUTHOR_PRESENTATIONAL_HINT], [], [].
Qed.

Lemma weaker_rank x y : weaker x y <->
  (w_important x = false /\ w_important y = true) \/
  (w_important x = w_important y /\
    (origin_rank (w_origin x) < origin_rank (w_origin y) \/
     (w_origin x = w_origin y /\ spec_lt (w_spec x) (w_spec y)))).
Proof. unfold weaker. now rewrite origin_lt_rank. Qed.

Lemma weaker_trans x y z : weaker x y -> weaker y z -> weaker x z.
Proof.
  rewrite !weaker_rank.
  intros [[H1 H2]|[H1 [H2|[H2 H3]]]] [[G1 G2]|[G1 [G2|[G2 G3]]]];
    try (left; split; congruence); try congruence;
    right; (split; [congruence|]).
  - left. lia.
  - left. rewrite <- G2. lia.
  - left. rewrite H2. lia.
  - right. split; [congruence|]. eapply spec_lt_trans; eassumption.
Qed.

Lemma weaker_irrefl x : ~ weaker x x.
Proof.
  rewrite weaker_rank. intros [[H1 H2]|[_ [H|[_ H]]]].
  - congruence.
  - lia.
  - now apply spec_lt_irrefl in H.
Qed.

Lemma weight_trichotomy x y : weaker x y \/ x = y \/ weaker y x.
Proof.
  rewrite !weaker_rank. destruct x as [i o s], y as [i' o' s']; simpl.
  destruct (bool_dec i i') as [->|Hi].
  - destruct (lt_eq_lt_dec (origin_rank o) (origin_rank o')) as [[H|H]|H].
    + left. right. auto.
    + apply origin_rank_inj in H as ->.
      destruct (spec_trichotomy s s') as [H|[->|H]].
      * left. right. auto.
      * auto.
      * right. right. right. auto.
    + right; right; right. auto.
  - destruct i, i'; try congruence; [right; right | left]; left; auto.
Qed.

Section Proofs.
  Context {V : Type}.
  Implicit Types (e : entry V) (m : @entries V).

  Definition wt e : weight := mkWeight (e_important e) (e_origin e) (e_spec e).

  (** [below x y]: [x] sorts at or before [y]. *)
  Definition below (x y : entry V) : Prop :=
    weaker (wt x) (wt y) \/ (wt x = wt y /\ e_order x <= e_order y).

  Lemma entry_geb_below x y : entry_geb x y = true <-> below y x.
  Proof.
    unfold entry_geb, entry_cmp, below; rewrite weaker_rank; unfold wt; simpl.
    destruct (Nat.compare_spec (important_rank (e_important x)) (important_rank (e_important y))) as [H|H|H].
    - assert (e_important x = e_important y) as Hi
        by (destruct (e_important x), (e_important y); simpl in H; congruence).
      destruct (Nat.compare_spec (origin_rank (e_origin x)) (origin_rank (e_origin y))) as [Ho|Ho|Ho].
      + apply origin_rank_inj in Ho.
        destruct (spec_cmp (e_spec x) (e_spec y)) eqn:Es.
        * apply spec_cmp_eq in Es.
          destruct (Nat.compare_spec (e_order x) (e_order y)) as [Hn|Hn|Hn]; split; intros Hx;
            try discriminate; try reflexivity.
          -- right. rewrite Hi, Ho, Es. split; [reflexivity|lia].
          -- exfalso. destruct Hx as [[[? ?]|[? [?|[? Hs]]]]|[_ ?]]; try congruence; try lia.
             ++ rewrite Ho in *. lia.
             ++ rewrite Es in Hs. now apply spec_lt_irrefl in Hs.
          -- right. rewrite Hi, Ho, Es. split; [reflexivity|lia].
        * apply spec_cmp_lt in Es. split; [discriminate|]. intros Hx. exfalso.
          destruct Hx as [[[? ?]|[? [?|[? Hs]]]]|[Hw ?]]; try congruence.
          -- rewrite Ho in *. lia.
          -- eapply spec_lt_irrefl, spec_lt_trans; eassumption.
          -- injection Hw as _ _ Hw. rewrite Hw in Es. now apply spec_lt_irrefl in Es.
        * apply spec_cmp_gt in Es. split; [|reflexivity]. intros _. left. right.
          split; [congruence|]. right. split; congruence.
      + split; [discriminate|]. intros [[[? ?]|[? [?|[Hq ?]]]]|[Hw ?]]; exfalso; try congruence; try lia.
        * rewrite Hq in Ho. lia.
        * injection Hw as _ Hw _. rewrite Hw in Ho. lia.
      + split; [|reflexivity]. intros _. left. right. split; [congruence|]. left. lia.
    - split; [discriminate|].
      destruct (e_important x), (e_important y); simpl in H; try (exfalso; lia).
      intros [[[? ?]|[? ?]]|[Hw ?]]; exfalso; try discriminate.
    - split; [|reflexivity].
      destruct (e_important x), (e_important y); simpl in H; try (exfalso; lia).
      intros _. left. left. auto.
  Qed.

  Lemma below_refl x : below x x.
  Proof. right. split; [reflexivity|lia]. Qed.

  Lemma below_trans x y z : below x y -> below y z -> below x z.
  Proof.
    unfold below. intros [H|[H1 H2]] [G|[G1 G2]].
    - left. eapply weaker_trans; eassumption.
    - left. now rewrite <- G1.
    - left. now rewrite H1.
    - right. split; [congruence|lia].
  Qed.

  Lemma below_total x y : below x y \/ below y x.
  Proof.
    unfold below. destruct (weight_trichotomy (wt x) (wt y)) as [H|[H|H]]; auto.
    destruct (le_lt_dec (e_order x) (e_order y)); [left|right]; right; split; auto; lia.
  Qed.

  (** * Association lists *)

  Lemma lookup_put m n e k :
    lookup (put_longhand m n e) k =
    if str_eqb n k
    then Some (match lookup m n with
               | None => e
               | Some x => if entry_geb e x then e else x
               end)
    else lookup m k.
  Proof.
    induction m as [|[k' x] m IH]; simpl.
    - destruct (str_eqb n k) eqn:E; reflexivity.
    - destruct (str_eqb k' n) eqn:E1; simpl.
      + apply str_eqb_spec in E1 as ->. destruct (str_eqb n k); reflexivity.
      + destruct (str_eqb k' k) eqn:E2.
        * apply str_eqb_spec in E2 as ->. destruct (str_eqb n k) eqn:E3.
          -- apply str_eqb_spec in E3 as ->. rewrite str_eqb_refl in E1. discriminate.
          -- reflexivity.
        * exact IH.
  Qed.

  Lemma keys_put m n e :
    NoDup (map fst m) -> NoDup (map fst (put_longhand m n e)) /\
    (forall k, In k (map fst (put_longhand m n e)) <-> k = n \/ In k (map fst m)).
  Proof.
    induction m as [|[k' x] m IH]; simpl; intros H.
    - split; [constructor; [simpl; tauto|constructor]|]. intros k. simpl. intuition congruence.
    - inversion H as [|? ? Hni Hnd]; subst. destruct (str_eqb k' n) eqn:E1; simpl.
      + apply str_eqb_spec in E1 as ->. split; [exact H|]. intros k. intuition congruence.
      + destruct (IH Hnd) as [IH1 IH2]. split.
        * constructor; [|exact IH1]. rewrite IH2. intros [->|Hin]; [|contradiction].
          rewrite str_eqb_refl in E1. discriminate.
        * intros k. rewrite IH2. tauto.
  Qed.

  Lemma lookup_remove m n k :
    NoDup (map fst m) ->
    lookup (map_remove m n) k = if str_eqb n k then None else lookup m k.
  Proof.
    assert (Hnone : forall m k, ~ In k (map fst m) -> lookup m k = None).
    { clear. induction m as [|[k' x] m IH]; simpl; intros k H; [reflexivity|].
      destruct (str_eqb k' k) eqn:E; [apply str_eqb_spec in E; tauto|]. apply IH. tauto. }
    induction m as [|[k' x] m IH]; simpl; intros H.
    - now destruct (str_eqb n k).
    - inversion H as [|? ? Hni Hnd]; subst. destruct (str_eqb k' n) eqn:E1.
      + apply str_eqb_spec in E1 as ->. destruct (str_eqb n k) eqn:E2; [|reflexivity].
        apply str_eqb_spec in E2 as ->. now apply Hnone.
      + simpl. destruct (str_eqb k' k) eqn:E2.
        * apply str_eqb_spec in E2 as ->. destruct (str_eqb n k) eqn:E3; [|reflexivity].
          apply str_eqb_spec in E3 as ->. rewrite str_eqb_refl in E1. discriminate.
        * now apply IH.
  Qed.

  Lemma keys_remove m n :
    NoDup (map fst m) -> NoDup (map fst (map_remove m n)).
  Proof.
    assert (Hsub : forall m n k, In k (map fst (map_remove m n)) -> In k (map fst m)).
    { clear. induction m as [|[k' x] m IH]; simpl; intros n k H; [exact H|].
      destruct (str_eqb k' n); [now right|]. simpl in H. destruct H as [H|H]; [now left|].
      right. eapply IH, H. }
    induction m as [|[k' x] m IH]; simpl; intros H; [exact H|].
    inversion H as [|? ? Hni Hnd]; subst. destruct (str_eqb k' n); [exact Hnd|].
    simpl. constructor; [|now apply IH]. intros Hin. apply Hni. eapply Hsub, Hin.
  Qed.

  Lemma lookup_In m n e : lookup m n = Some e -> In (n, e) m.
  Proof.
    induction m as [|[k x] m IH]; simpl; [discriminate|].
    destruct (str_eqb k n) eqn:E; intros H.
    - apply str_eqb_spec in E as ->. injection H as ->. now left.
    - right. now apply IH.
  Qed.

  Lemma In_lookup m n e : NoDup (map fst m) -> In (n, e) m -> lookup m n = Some e.
  Proof.
    induction m as [|[k x] m IH]; simpl; intros Hnd H; [destruct H|destruct H as [H|H]].
    - injection H as -> ->. now rewrite str_eqb_refl.
    - inversion Hnd as [|? ? Hni Hnd']; subst. destruct (str_eqb k n) eqn:E.
      + apply str_eqb_spec in E as ->. exfalso. apply Hni.
        apply in_map_iff. now exists (n, e).
      + now apply IH.
  Qed.

  (** * Folding [put_longhand] over a list of named entries computes a maximum *)

  Definition puts (l : list (str * entry V)) m :=
    fold_left (fun m ne => put_longhand m (fst ne) (snd ne)) l m.

  Definition best_of (P : entry V -> Prop) (r : option (entry V)) : Prop :=
    match r with
    | None => forall e, ~ P e
    | Some e => P e /\ forall e', P e' -> below e' e
    end.

  Lemma best_of_ext P Q r : (forall e, P e <-> Q e) -> best_of P r -> best_of Q r.
  Proof.
    intros H. destruct r as [e|]; simpl.
    - intros [H1 H2]. split; [now apply H|]. intros e' He'. apply H2. now apply H.
    - intros H1 e He. apply (H1 e). now apply H.
  Qed.

  Lemma puts_best l m n (P : entry V -> Prop) :
    best_of P (lookup m n) ->
    best_of (fun e => P e \/ In (n, e) l) (lookup (puts l m) n).
  Proof.
    revert m P. induction l as [|[k x] l IH]; simpl; intros m P HP.
    - eapply best_of_ext; [|exact HP]. tauto.
    - specialize (IH (put_longhand m k x) (fun e => P e \/ (k = n /\ e = x))).
      eapply best_of_ext; [|apply IH].
      + intros e. simpl. split.
        * intros [[H|[-> ->]]|H]; auto.
        * intros [H|[H|H]]; auto. injection H as -> ->. auto.
      + rewrite lookup_put. destruct (str_eqb k n) eqn:E.
        * apply str_eqb_spec in E as ->. destruct (lookup m n) as [y|]; simpl in *.
          -- destruct HP as [HPy Hmax]. destruct (entry_geb x y) eqn:G.
             ++ apply entry_geb_below in G. split; [auto|].
                intros e' [He'|[_ ->]]; [|apply below_refl].
                eapply below_trans; [apply Hmax, He'|exact G].
             ++ split; [auto|]. intros e' [He'|[_ ->]]; [now apply Hmax|].
                destruct (below_total x y) as [B|B]; [exact B|].
                apply entry_geb_below in B. congruence.
          -- split; [auto|]. intros e' [He'|[_ ->]]; [exfalso; eapply HP, He'|apply below_refl].
        * eapply best_of_ext; [|exact HP]. intros e. split; [auto|].
          intros [H|[-> _]]; [exact H|]. rewrite str_eqb_refl in E. discriminate.
  Qed.

  Lemma puts_keys l m : NoDup (map fst m) -> NoDup (map fst (puts l m)).
  Proof.
    revert m; induction l as [|[k x] l IH]; simpl; intros m H; [exact H|].
    apply IH. now apply keys_put.
  Qed.

  (** * Stage 1: the declarations *)

  Definition decl := (property V * origin * specificity)%type.

  Fixpoint idecls (k : nat) (ds : list decl) : list (str * entry V) :=
    match ds with
    | [] => []
    | (p, o, s) :: r =>
        if p_bogus p then idecls k r
        else (p_name p, mkEntry (p_value p) (p_expansion p) (p_important p) o s k)
               :: idecls (S k) r
    end.

  Lemma fold_put ds c :
    c_entries (fold_left (fun c d => put c (fst (fst d)) (snd (fst d)) (snd d)) ds c) =
    puts (idecls (c_order c) ds) (c_entries c).
  Proof.
    revert c; induction ds as [|[[p o] s] ds IH]; intros c; simpl; [reflexivity|].
    rewrite IH. unfold put. destruct (p_bogus p); reflexivity.
  Qed.

  Definition stage1 (ds : list decl) : @entries V := puts (idecls 0 ds) [].

  Lemma stage1_best ds n : best_of (fun e => In (n, e) (idecls 0 ds)) (lookup (stage1 ds) n).
  Proof.
    unfold stage1. eapply best_of_ext; [|apply (puts_best _ _ _ (fun _ => False))].
    - tauto.
    - simpl. auto.
  Qed.

  Lemma stage1_nodup ds : NoDup (map fst (stage1 ds)).
  Proof. apply puts_keys. constructor. Qed.

  Lemma cascade_entries ds :
    c_entries (cascade ds) =
    fold_left expand_one (filter is_shorthand (stage1 ds)) (stage1 ds).
  Proof.
    unfold cascade, expand_shorthands. simpl. rewrite fold_put. reflexivity.
  Qed.

  (** * Stage 2: expansion *)

  (** The entries a shorthand entry stands for. *)
  Definition exp_entries e : list (str * entry V) :=
    match e_expansion e with
    | Some l => map (fun nv => (fst nv,
        mkEntry (snd nv) None (e_important e) (e_origin e) (e_spec e) (e_order e))) l
    | None => []
    end.

  Lemma put_expansion_puts e l m :
    e_expansion e = Some l -> put_expansion e m l = puts (exp_entries e) m.
  Proof.
    intros H. unfold put_expansion, puts, exp_entries. rewrite H.
    clear H. revert m; induction l as [|[n v] l IH]; intros m; simpl; [reflexivity|]. apply IH.
  Qed.

  Lemma expand_one_eq m ne l :
    e_expansion (snd ne) = Some l ->
    expand_one m ne = puts (exp_entries (snd ne)) (map_remove m (fst ne)).
  Proof.
    intros H. unfold expand_one. rewrite H. now apply put_expansion_puts.
  Qed.

  Lemma expand_nodup S m :
    NoDup (map fst m) -> (forall ne, In ne S -> is_shorthand ne = true) ->
    NoDup (map fst (fold_left expand_one S m)).
  Proof.
    revert m; induction S as [|ne S IH]; simpl; intros m Hnd HS; [exact Hnd|].
    apply IH; [|now auto].
    specialize (HS ne (or_introl eq_refl)). unfold is_shorthand in HS.
    destruct (e_expansion (snd ne)) as [l|] eqn:E; [|discriminate].
    rewrite (expand_one_eq _ _ _ E). apply puts_keys. now apply keys_remove.
  Qed.

  (** A name that is no shorthand: expansions only add candidates. *)
  Lemma expand_best S m n (P : entry V -> Prop) :
    NoDup (map fst m) ->
    (forall ne, In ne S -> is_shorthand ne = true) ->
    (forall ne, In ne S -> fst ne <> n) ->
    best_of P (lookup m n) ->
    best_of (fun e => P e \/ exists ne, In ne S /\ In (n, e) (exp_entries (snd ne)))
            (lookup (fold_left expand_one S m) n).
  Proof.
    revert m P; induction S as [|ne S IH]; simpl; intros m P Hnd HS Hn HP.
    - eapply best_of_ext; [|exact HP]. intros e; split; [auto|]. intros [H|[ne [[] _]]]. exact H.
    - assert (is_shorthand ne = true) as Hsh by auto. unfold is_shorthand in Hsh.
      destruct (e_expansion (snd ne)) as [l|] eqn:E; [|discriminate].
      rewrite (expand_one_eq _ _ _ E).
      eapply best_of_ext; [|apply (IH _ (fun e => P e \/ In (n, e) (exp_entries (snd ne))))].
      + intros e. simpl. split.
        * intros [[H|H]|[ne' [H1 H2]]]; eauto 6.
        * intros [H|[ne' [[<-|H1] H2]]]; eauto.
      + apply puts_keys. now apply keys_remove.
      + auto.
      + auto.
      + apply puts_best. rewrite lookup_remove by exact Hnd.
        destruct (str_eqb (fst ne) n) eqn:G; [|exact HP].
        apply str_eqb_spec in G. exfalso. exact (Hn ne (or_introl eq_refl) G).
  Qed.

  (** A shorthand name disappears. *)
  Lemma expand_gone S m n :
    NoDup (map fst m) ->
    (forall ne, In ne S -> is_shorthand ne = true) ->
    (forall ne e, In ne S -> ~ In (n, e) (exp_entries (snd ne))) ->
    (lookup m n = None \/ exists ne, In ne S /\ fst ne = n) ->
    lookup (fold_left expand_one S m) n = None.
  Proof.
    revert m; induction S as [|ne S IH]; simpl; intros m Hnd HS Hn HP.
    - destruct HP as [H|[ne [[] _]]]. exact H.
    - assert (is_shorthand ne = true) as Hsh by auto. unfold is_shorthand in Hsh.
      destruct (e_expansion (snd ne)) as [l|] eqn:E; [|discriminate].
      rewrite (expand_one_eq _ _ _ E). apply IH.
      + apply puts_keys. now apply keys_remove.
      + auto.
      + intros ne' e' H1 H2. exact (Hn ne' e' (or_intror H1) H2).
      + assert (Hstay : forall L m0, (forall e, ~ In (n, e) L) -> lookup (puts L m0) n = lookup m0 n).
        { clear. induction L as [|[k x] L IH]; simpl; intros m0 H; [reflexivity|].
          rewrite IH by (intros e He; apply (H e); auto). rewrite lookup_put.
          destruct (str_eqb k n) eqn:E; [|reflexivity]. apply str_eqb_spec in E as ->.
          exfalso. apply (H x). auto. }
        rewrite Hstay by (intros e He; exact (Hn ne e (or_introl eq_refl) He)).
        rewrite lookup_remove by exact Hnd.
        destruct (str_eqb (fst ne) n) eqn:G; [now left|].
        destruct HP as [H|[ne' [[<-|H1] H2]]].
        * now left.
        * subst n. rewrite str_eqb_refl in G. discriminate.
        * right. eauto.
  Qed.

  (** * Putting the stages together *)

  (** All longhand entries, with their declaration index. *)
  Definition cand_of (ne : str * entry V) : list (str * entry V) :=
    match e_expansion (snd ne) with
    | None => [ne]
    | Some _ => exp_entries (snd ne)
    end.

  Definition cands (ds : list decl) := flat_map cand_of (idecls 0 ds).

  Lemma idecls_In ds k n e :
    In (n, e) (idecls k ds) ->
    exists p o s, In (p, o, s) ds /\ p_bogus p = false /\ n = p_name p /\
      e_expansion e = p_expansion p /\ k <= e_order e.
  Proof.
    revert k; induction ds as [|[[p o] s] ds IH]; simpl; intros k H; [destruct H|].
    destruct (p_bogus p) eqn:B.
    - destruct (IH _ H) as (p' & o' & s' & H1 & H2). exists p', o', s'. tauto.
    - destruct H as [H|H].
      + injection H as <- <-. exists p, o, s. simpl. repeat split; auto.
      + destruct (IH _ H) as (p' & o' & s' & H1 & H2 & H3 & H4 & H5).
        exists p', o', s'. repeat split; auto. lia.
  Qed.

  Section WF.
    Variable ds : list decl.
    Variable longhands : str -> option (list str).
    Hypothesis Hname : forall p o s, In (p, o, s) ds -> p_bogus p = false ->
       option_map (map fst) (p_expansion p) = longhands (p_name p).
    Hypothesis Hflat : forall n l n2, longhands n = Some l -> In n2 l -> longhands n2 = None.
    Hypothesis Hnodup : forall n l, longhands n = Some l -> NoDup l.

    Lemma idecls_longhands n e k :
      In (n, e) (idecls k ds) -> option_map (map fst) (e_expansion e) = longhands n.
    Proof.
      intros H. destruct (idecls_In _ _ _ _ H) as (p & o & s & H1 & H2 & -> & -> & _).
      eauto.
    Qed.

    Lemma exp_entries_names e n x :
      In (n, x) (exp_entries e) <->
      exists l v, e_expansion e = Some l /\ In (n, v) l /\
        x = mkEntry v None (e_important e) (e_origin e) (e_spec e) (e_order e).
    Proof.
      unfold exp_entries. destruct (e_expansion e) as [l|].
      - rewrite in_map_iff. split.
        + intros [[n' v] [H1 H2]]. simpl in H1. injection H1 as -> <-. eauto.
        + intros (l' & v & H1 & H2 & ->). injection H1 as <-. exists (n, v). auto.
      - split; [intros []|]. intros (l' & v & H1 & _). discriminate.
    Qed.

    Lemma stage1_In n e : In (n, e) (stage1 ds) -> In (n, e) (idecls 0 ds).
    Proof.
      intros H. apply In_lookup in H; [|apply stage1_nodup].
      pose proof (stage1_best ds n) as B. rewrite H in B. apply B.
    Qed.

    Lemma cascade_best n :
      best_of (fun e => In (n, e) (cands ds)) (lookup (c_entries (cascade ds)) n).
    Proof.
      rewrite cascade_entries.
      set (S := filter is_shorthand (stage1 ds)).
      assert (HS : forall ne, In ne S -> is_shorthand ne = true)
        by (intros ne H; apply filter_In in H; tauto).
      assert (HS1 : forall ne, In ne S -> In ne (idecls 0 ds)).
      { intros [k e] H. apply filter_In in H as [H _]. now apply stage1_In. }
      destruct (longhands n) as [l|] eqn:L.
      - (* shorthand name: nothing to find, no candidates *)
        assert (Hno : forall e, ~ In (n, e) (cands ds)).
        { intros e H. unfold cands in H. apply in_flat_map in H as [[k x] [H1 H2]].
          pose proof (idecls_longhands _ _ _ H1) as Hk. unfold cand_of in H2; simpl in H2.
          destruct (e_expansion x) as [lx|] eqn:Ex; simpl in Hk.
          - apply exp_entries_names in H2 as (l' & v & H3 & H4 & _). rewrite Ex in H3.
            injection H3 as <-.
            assert (longhands n = None); [|congruence].
            eapply Hflat; [symmetry; exact Hk|]. apply in_map_iff. exists (n, v). auto.
          - destruct H2 as [H2|[]]. injection H2 as -> ->. congruence. }
        rewrite expand_gone; [simpl; exact Hno|apply stage1_nodup|exact HS| |].
        + intros [k x] e H1 H2. apply HS1 in H1. simpl in H2.
          apply (Hno e). unfold cands. apply in_flat_map. exists (k, x). split; [exact H1|].
          unfold cand_of; simpl. apply exp_entries_names in H2 as H3.
          destruct H3 as (l' & v & H3 & _). rewrite H3. exact H2.
        + destruct (lookup (stage1 ds) n) as [e|] eqn:E; [right|now left].
          exists (n, e). split; [|reflexivity]. apply filter_In.
          apply lookup_In in E. split; [exact E|]. unfold is_shorthand; simpl.
          apply stage1_In in E. apply idecls_longhands in E. rewrite L in E.
          destruct (e_expansion e); [reflexivity|discriminate].
      - (* longhand name *)
        assert (B : best_of
          (fun e => In (n, e) (idecls 0 ds) \/
                    exists ne, In ne S /\ In (n, e) (exp_entries (snd ne)))
          (lookup (fold_left expand_one S (stage1 ds)) n)).
        { apply expand_best; [apply stage1_nodup|exact HS| |apply stage1_best].
          intros [k x] H1 H2. simpl in H2. subst k. pose proof (HS _ H1) as H3.
          apply HS1 in H1. apply idecls_longhands in H1. unfold is_shorthand in H3; simpl in H3.
          rewrite L in H1. destruct (e_expansion x); discriminate. }
        assert (Hin : forall e,
          In (n, e) (idecls 0 ds) \/ (exists ne, In ne S /\ In (n, e) (exp_entries (snd ne)))
          -> In (n, e) (cands ds)).
        { intros e [H|[[k x] [H1 H2]]]; unfold cands; apply in_flat_map.
          - exists (n, e). split; [exact H|]. apply idecls_longhands in H. rewrite L in H.
            unfold cand_of; simpl. destruct (e_expansion e); [discriminate|now left].
          - exists (k, x). split; [now apply HS1|]. simpl in H2. unfold cand_of; simpl.
            apply exp_entries_names in H2 as H3. destruct H3 as (l' & v & H3 & _).
            now rewrite H3. }
        assert (Hdom : forall e, In (n, e) (cands ds) ->
          exists e', (In (n, e') (idecls 0 ds) \/
                     (exists ne, In ne S /\ In (n, e') (exp_entries (snd ne)))) /\ below e e').
        { intros e H. unfold cands in H. apply in_flat_map in H as [[k x] [H1 H2]].
          unfold cand_of in H2; simpl in H2. destruct (e_expansion x) as [lx|] eqn:Ex.
          - (* the winner among the shorthands of this name dominates *)
            pose proof (stage1_best ds k) as Bk.
            destruct (lookup (stage1 ds) k) as [y|] eqn:Ey; simpl in Bk; [|exfalso; eapply Bk; exact H1].
            destruct Bk as [Hy Hmax]. specialize (Hmax x H1).
            pose proof (idecls_longhands _ _ _ H1) as Lx.
            pose proof (idecls_longhands _ _ _ Hy) as Ly.
            rewrite Ex in Lx. simpl in Lx. rewrite <- Lx in Ly.
            destruct (e_expansion y) as [ly|] eqn:Exy; simpl in Ly; [|discriminate].
            injection Ly as Ly.
            apply exp_entries_names in H2 as (l' & v & H3 & H4 & ->).
            rewrite Ex in H3. injection H3 as <-.
            assert (Hn : In n (map fst ly)).
            { rewrite Ly. apply in_map_iff. exists (n, v). auto. }
            apply in_map_iff in Hn as [[n' v'] [Hn1 Hn2]]. simpl in Hn1. subst n'.
            exists (mkEntry v' None (e_important y) (e_origin y) (e_spec y) (e_order y)).
            split.
            + right. exists (k, y). split.
              * apply filter_In. split; [now apply lookup_In|].
                unfold is_shorthand; simpl. now rewrite Exy.
              * simpl. apply exp_entries_names. exists ly, v'. auto.
            + exact Hmax.
          - destruct H2 as [H2|[]]. injection H2 as -> ->. exists e.
            split; [now left|apply below_refl]. }
        destruct (lookup (fold_left expand_one S (stage1 ds)) n) as [e|]; simpl in *.
        + destruct B as [B1 B2]. split; [now apply Hin|].
          intros e' He'. destruct (Hdom _ He') as [e'' [H1 H2]].
          eapply below_trans; [exact H2|]. now apply B2.
        + intros e He. destruct (Hdom _ He) as [e' [H1 _]]. exact (B e' H1).
    Qed.

    (** * From maximal candidates to [wins] *)

    Definition forget (ne : str * entry V) : str * (weight * V) :=
      (fst ne, (wt (snd ne), e_value (snd ne))).

    Lemma longhands_cands k ds' :
      map forget (flat_map cand_of (idecls k ds')) = all_longhands ds'.
    Proof.
      revert k; induction ds' as [|[[p o] s] ds' IH]; intros k; [reflexivity|].
      unfold all_longhands. simpl. destruct (p_bogus p) eqn:Bp.
      - simpl. apply IH.
      - simpl. rewrite map_app, IH. f_equal. unfold cand_of; simpl.
        destruct (p_expansion p) as [l|] eqn:Ex; [|reflexivity].
        unfold exp_entries; simpl. rewrite map_map. apply map_ext. reflexivity.
    Qed.

    (** Candidate lists are sorted by order, and one name appears once per order. *)
    Lemma cands_sorted k ds' l1 n e l2 :
      flat_map cand_of (idecls k ds') = l1 ++ (n, e) :: l2 ->
      (forall ne, In ne (idecls k ds') -> In ne (idecls 0 ds) \/ exists j, In ne (idecls j ds)) ->
      (forall e', In (n, e') l1 -> e_order e' < e_order e) /\
      (forall e', In (n, e') l2 -> e_order e < e_order e').
    Proof.
      revert k l1; induction ds' as [|[[p o] s] ds' IH]; intros k l1 Heq Hsub.
      { destruct l1; discriminate. }
      simpl in Heq, Hsub. destruct (p_bogus p) eqn:Bp; [now apply (IH k)|].
      set (x := mkEntry (p_value p) (p_expansion p) (p_important p) o s k) in *.
      simpl in Heq.
      assert (Hk : forall ne, In ne (cand_of (p_name p, x)) -> e_order (snd ne) = k).
      { intros [n' e'] H. unfold cand_of in H. simpl in H. destruct (p_expansion p) as [l|] eqn:Ex.
        - apply exp_entries_names in H as (l' & v & _ & _ & ->). reflexivity.
        - destruct H as [H|[]]. injection H as <- <-. reflexivity. }
      assert (Hgt : forall ne, In ne (flat_map cand_of (idecls (S k) ds')) -> k < e_order (snd ne)).
      { intros [n' e'] H. apply in_flat_map in H as [[n'' e''] [H1 H2]].
        apply idecls_In in H1 as (_ & _ & _ & _ & _ & _ & _ & H1).
        unfold cand_of in H2; simpl in H2. destruct (e_expansion e'') eqn:Ex.
        - apply exp_entries_names in H2 as (l' & v & _ & _ & ->). simpl. lia.
        - destruct H2 as [H2|[]]. injection H2 as <- <-. simpl. lia. }
      assert (Hnd : NoDup (map fst (cand_of (p_name p, x)))).
      { unfold cand_of; simpl. destruct (p_expansion p) as [l|] eqn:Ex.
        - assert (Hx : In (p_name p, x) (idecls 0 ds) \/ exists j, In (p_name p, x) (idecls j ds))
            by (apply Hsub; now left).
          assert (HL : option_map (map fst) (e_expansion x) = longhands (p_name p)).
          { destruct Hx as [Hx|[j Hx]]; eapply idecls_longhands; exact Hx. }
          unfold x in HL; simpl in HL. simpl in HL. symmetry in HL.
          apply Hnodup in HL. unfold exp_entries. simpl. rewrite map_map. exact HL.
        - constructor; [simpl; tauto|constructor]. }
      assert (Hcase : (exists l1', l1 = cand_of (p_name p, x) ++ l1' /\
                         flat_map cand_of (idecls (S k) ds') = l1' ++ (n, e) :: l2) \/
                      (exists r, cand_of (p_name p, x) = l1 ++ (n, e) :: r /\
                         l2 = r ++ flat_map cand_of (idecls (S k) ds'))).
      { apply app_eq_app in Heq as [l [[H1 H2]|[H1 H2]]].
        - destruct l as [|y l]; simpl in H2.
          + left. exists []. rewrite app_nil_r in *. auto.
          + injection H2 as <- ->. right. eauto.
        - left. eauto. }
      destruct Hcase as [(l1' & -> & Heq')|(r & Hc & ->)].
      - assert (He : k < e_order e).
        { apply (Hgt (n, e)). rewrite Heq'. apply in_or_app. right. now left. }
        destruct (IH (S k) l1' Heq') as [I1 I2].
        { intros ne H. apply Hsub. now right. }
        split; [|exact I2]. intros e' H. apply in_app_or in H as [H|H]; [|now apply I1].
        apply Hk in H. simpl in H. lia.
      - assert (He : e_order e = k).
        { apply (Hk (n, e)). rewrite Hc. apply in_or_app. right. now left. }
        rewrite Hc, map_app in Hnd. simpl in Hnd.
        apply NoDup_remove_2 in Hnd. split; intros e' H.
        + exfalso. apply Hnd. apply in_or_app. left. apply in_map_iff. exists (n, e'). auto.
        + apply in_app_or in H as [H|H].
          * exfalso. apply Hnd. apply in_or_app. right. apply in_map_iff. exists (n, e'). auto.
          * apply Hgt in H. simpl in H. lia.
    Qed.

    Lemma best_wins n e :
      In (n, e) (cands ds) -> (forall e', In (n, e') (cands ds) -> below e' e) ->
      wins (all_longhands ds) n (e_value e).
    Proof.
      intros Hin Hmax. unfold cands in *. apply in_split in Hin as (l1 & l2 & Heq).
      destruct (cands_sorted _ _ _ _ _ _ Heq) as [H1 H2]; [intros; now left|].
      exists (map forget l1), (wt e), (map forget l2). split.
      { rewrite <- (longhands_cands 0), Heq, map_app. reflexivity. }
      assert (HmaxL : forall e', In (n, e') l1 \/ In (n, e') l2 -> below e' e).
      { intros e' H. apply Hmax. rewrite Heq. apply in_or_app. destruct H; [now left|].
        right. now right. }
      split; intros w' v' H; apply in_map_iff in H as [[n' e'] [Hf Hi]];
        unfold forget in Hf; simpl in Hf; injection Hf as -> <- <-.
      - intros Hw. destruct (HmaxL e' (or_introl Hi)) as [B|[B _]].
        + eapply weaker_irrefl, weaker_trans; eassumption.
        + rewrite B in Hw. now apply weaker_irrefl in Hw.
      - destruct (HmaxL e' (or_intror Hi)) as [B|[_ B]]; [exact B|].
        specialize (H2 e' Hi). lia.
    Qed.
  End WF.

  (** [wins] determines the value. *)
  Lemma wins_unique (ls : list (str * (weight * V))) n v v' :
    wins ls n v -> wins ls n v' -> v = v'.
  Proof.
    intros (l1 & w & l2 & -> & A1 & A2) (m1 & w' & m2 & Heq & B1 & B2).
    apply app_eq_app in Heq as [l [[-> Heq]|[-> Heq]]].
    - destruct l as [|y l]; simpl in Heq.
      + congruence.
      + injection Heq as <- ->. exfalso.
        assert (H1 : ~ weaker w w').
        { apply (A1 w' v'). apply in_or_app. right. now left. }
        assert (H2 : weaker w w').
        { apply (B2 w v). apply in_or_app. right. now left. }
        contradiction.
    - destruct l as [|y l]; simpl in Heq.
      + congruence.
      + injection Heq as <- ->. exfalso.
        assert (H1 : ~ weaker w' w).
        { apply (B1 w v). apply in_or_app. right. now left. }
        assert (H2 : weaker w' w).
        { apply (A2 w' v'). apply in_or_app. right. now left. }
        contradiction.
  Qed.

  Lemma wins_exists_In (ls : list (str * (weight * V))) n v :
    wins ls n v -> exists w, In (n, (w, v)) ls.
  Proof. intros (l1 & w & l2 & -> & _). exists w. apply in_or_app. right. now left. Qed.

  Lemma cascade_winner (ds : list decl) :
    well_formed ds -> forall n v,
    (exists e, lookup (c_entries (cascade ds)) n = Some e /\ e_value e = v) <->
    wins (all_longhands ds) n v.
  Proof.
    intros (longhands & Hname & Hflat & Hnodup) n v.
    pose proof (cascade_best ds longhands Hname Hflat n) as B.
    destruct (lookup (c_entries (cascade ds)) n) as [e|]; simpl in B.
    - destruct B as [B1 B2].
      pose proof (best_wins ds longhands Hname Hnodup n e B1 B2) as W. split.
      + intros (e' & H & <-). injection H as <-. exact W.
      + intros W'. exists e. split; [reflexivity|]. eapply wins_unique; eassumption.
    - split; [intros (e' & H & _); discriminate|].
      intros W. exfalso. apply wins_exists_In in W as [w W].
      rewrite <- (longhands_cands 0) in W. apply in_map_iff in W as [[n' e'] [Hf Hi]].
      unfold forget in Hf; simpl in Hf. injection Hf as -> _ _. exact (B e' Hi).
  Qed.
End Proofs.
