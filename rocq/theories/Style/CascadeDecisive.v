(** When one declaration decides about a longhand, whatever else is declared. Unlike
    [cascade_winner], this does not need declarations of the same shorthand to set the same
    longhands. *)
From Coq Require Import List ZArith Bool Arith Lia.
From Verif.Base Require Import Str.
From Verif.Style Require Import CascadeModel CascadeSpec CascadeProofs.
Import ListNotations.

Section Decisive.
  Context {V : Type}.
  Local Notation decl := (property V * origin * specificity)%type.

  Definition prop_of (d : decl) : property V := fst (fst d).
  Definition weight_in (d : decl) : weight := mkWeight (p_important (prop_of d)) (snd (fst d)) (snd d).
  (** The declaration says something about [n]. *)
  Definition about (n : str) (d : decl) : Prop :=
    p_bogus (prop_of d) = false /\
    (p_name (prop_of d) = n \/ exists l v, p_expansion (prop_of d) = Some l /\ In (n, v) l).

  Fixpoint count (ds : list decl) : nat :=
    match ds with [] => 0 | d :: r => if p_bogus (prop_of d) then count r else S (count r) end.

  Lemma idecls_app a b k : idecls k (a ++ b) = idecls k a ++ idecls (k + count a) b.
  Proof.
    revert k; induction a as [|[[p o] s] a IH]; intros k; cbn [app idecls count prop_of fst snd].
    - now rewrite Nat.add_0_r.
    - destruct (p_bogus p); rewrite IH; [reflexivity|].
      replace (k + S (count a)) with (S k + count a) by lia. reflexivity.
  Qed.

  (** Where an entry comes from. *)
  Lemma idecls_from ds k n e : In (n, e) (idecls k ds) ->
    exists d, In d ds /\ p_bogus (prop_of d) = false /\ n = p_name (prop_of d) /\
      e_expansion e = p_expansion (prop_of d) /\ wt e = weight_in d /\ k <= e_order e < k + count ds.
  Proof.
    revert k; induction ds as [|[[p o] s] ds IH]; cbn [idecls]; intros k H; [destruct H|].
    destruct (p_bogus p) eqn:B.
    - destruct (IH _ H) as (d & H1 & H2 & H3 & H4 & H5 & H6). exists d. cbn [count prop_of fst]. rewrite B.
      repeat split; auto; try lia. now right.
    - destruct H as [H|H].
      + injection H as <- <-. exists (p, o, s). cbn [count prop_of fst e_order e_expansion]. rewrite B.
        repeat split; auto; try lia. now left.
      + destruct (IH _ H) as (d & H1 & H2 & H3 & H4 & H5 & H6). exists d. cbn [count prop_of fst]. rewrite B.
        repeat split; auto; try lia. now right.
  Qed.

  Section One.
    Variables (l1 l2 : list decl) (d : decl) (n : str) (v : V).
    Hypothesis Hb : p_bogus (prop_of d) = false.
    Hypothesis Hd : (p_name (prop_of d) = n /\ p_value (prop_of d) = v) \/
      (exists l, p_expansion (prop_of d) = Some l /\ In (n, v) l /\ forall v', In (n, v') l -> v' = v).
    Hypothesis Hlong : forall d', In d' (l1 ++ d :: l2) -> p_bogus (prop_of d') = false ->
      p_name (prop_of d') = n -> p_expansion (prop_of d') = None.
    Hypothesis H1 : forall d', In d' l1 -> about n d' \/ (p_bogus (prop_of d') = false /\ p_name (prop_of d') = p_name (prop_of d)) ->
      ~ weaker (weight_in d) (weight_in d').
    Hypothesis H2 : forall d', In d' l2 -> about n d' \/ (p_bogus (prop_of d') = false /\ p_name (prop_of d') = p_name (prop_of d)) ->
      weaker (weight_in d') (weight_in d).

    Let ds := l1 ++ d :: l2.
    Let x := mkEntry (p_value (prop_of d)) (p_expansion (prop_of d)) (p_important (prop_of d)) (snd (fst d)) (snd d) (count l1).

    Lemma idecls_split : idecls 0 ds = idecls 0 l1 ++ (p_name (prop_of d), x) :: idecls (S (count l1)) l2.
    Proof.
      unfold ds. rewrite idecls_app. cbn [Nat.add]. f_equal. destruct d as [[p o] s]. cbn [idecls].
      cbn [prop_of fst] in Hb. now rewrite Hb.
    Qed.

    (** Entries at least as strong as that of [d] are no others. *)
    Lemma at_least k e (w : entry V) : In (k, e) (idecls 0 ds) ->
      (k = n \/ k = p_name (prop_of d) \/ exists l u, e_expansion e = Some l /\ In (n, u) l) ->
      wt w = wt e -> e_order w = e_order e ->
      weaker (weight_in d) (wt w) \/ (weight_in d = wt w /\ count l1 <= e_order w) -> k = p_name (prop_of d) /\ e = x.
    Proof.
      rewrite idecls_split. intros Hin Hk Hw Ho Hbel.
      rewrite Hw, Ho in Hbel. rename Hbel into Hb'. apply in_app_or in Hin as [Hin|[Hin|Hin]].
      - exfalso. destruct (idecls_from _ _ _ _ Hin) as (d' & A & B & C & D & E & F).
        assert (Hn : ~ weaker (weight_in d) (weight_in d')).
        { apply H1; [exact A|]. unfold about. rewrite C, D in Hk. destruct Hk as [G|[G|(l & u & G & I)]]; eauto 8. }
        rewrite <- E in Hn. destruct Hb' as [G|[_ G]]; [contradiction|]. lia.
      - injection Hin as <- <-. auto.
      - exfalso. destruct (idecls_from _ _ _ _ Hin) as (d' & A & B & C & D & E & F).
        assert (Hn : weaker (weight_in d') (weight_in d)).
        { apply H2; [exact A|]. unfold about. rewrite C, D in Hk. destruct Hk as [G|[G|(l & u & G & I)]]; eauto 8. }
        rewrite <- E in Hn. destruct Hb' as [G|[G _]].
        + apply (weaker_irrefl (wt e)). eapply weaker_trans; eassumption.
        + rewrite G in Hn. now apply weaker_irrefl in Hn.
    Qed.

    Lemma decisive_lookup : exists e, lookup (c_entries (cascade ds)) n = Some e /\ e_value e = v.
    Proof.
      rewrite cascade_entries. set (SH := filter is_shorthand (stage1 ds)).
      assert (HS : forall ne, In ne SH -> is_shorthand ne = true)
        by (intros ne H; apply filter_In in H; tauto).
      assert (HS1 : forall ne, In ne SH -> In ne (idecls 0 ds)).
      { intros [k e] H. apply filter_In in H as [H _]. now apply stage1_In. }
      assert (Hplain : forall e, In (n, e) (idecls 0 ds) -> e_expansion e = None).
      { intros e H. destruct (idecls_from _ _ _ _ H) as (d' & A & B & C & -> & _). now apply Hlong. }
      assert (B : best_of
        (fun e => In (n, e) (idecls 0 ds) \/ exists ne, In ne SH /\ In (n, e) (exp_entries (snd ne)))
        (lookup (fold_left expand_one SH (stage1 ds)) n)).
      { apply expand_best; [apply stage1_nodup|exact HS| |apply stage1_best].
        intros [k e] A C. cbn [fst] in C. subst k. pose proof (HS _ A) as D. apply HS1 in A.
        unfold is_shorthand in D. cbn [snd] in D. now rewrite (Hplain _ A) in D. }
      (** The entry that [d] stands for. *)
      assert (Hx : exists y, (In (n, y) (idecls 0 ds) \/ exists ne, In ne SH /\ In (n, y) (exp_entries (snd ne))) /\
        e_value y = v /\ wt y = weight_in d /\ e_order y = count l1).
      { destruct Hd as [[A C]|(l & A & C & D)].
        - exists x. split; [|auto]. left. rewrite idecls_split. apply in_or_app. right. left. now rewrite A.
        - exists (mkEntry v None (e_important x) (e_origin x) (e_spec x) (e_order x)). split; [|auto]. right.
          exists (p_name (prop_of d), x). cbn [snd]. split.
          + apply filter_In. split; [|unfold is_shorthand; cbn [snd x e_expansion]; now rewrite A].
            pose proof (stage1_best ds (p_name (prop_of d))) as Bk.
            assert (Hin : In (p_name (prop_of d), x) (idecls 0 ds)).
            { rewrite idecls_split. apply in_or_app. right. now left. }
            destruct (lookup (stage1 ds) (p_name (prop_of d))) as [y|] eqn:Ey; cbn [best_of] in Bk.
            * destruct Bk as [Hy Hmax]. destruct (at_least _ _ y Hy (or_intror (or_introl eq_refl)) eq_refl eq_refl) as [_ E].
              { specialize (Hmax x Hin). exact Hmax. }
              subst y. now apply lookup_In.
            * exfalso. exact (Bk x Hin).
          + apply exp_entries_names. exists l, v. cbn [x e_expansion]. auto. }
      destruct Hx as (y & Hy & Hyv & Hyw & Hyo).
      destruct (lookup (fold_left expand_one SH (stage1 ds)) n) as [e|]; cbn [best_of] in B.
      - destruct B as [B1 B2]. exists e. split; [reflexivity|]. specialize (B2 y Hy).
        assert (Hbel : weaker (weight_in d) (wt e) \/ (weight_in d = wt e /\ count l1 <= e_order e))
          by (rewrite <- Hyw, <- Hyo; exact B2).
        destruct B1 as [A|([k z] & A & C)].
        + destruct (at_least n e e A (or_introl eq_refl) eq_refl eq_refl Hbel) as [E ->].
          destruct Hd as [[D F]|(l & D & F & G)]; [exact F|]. pose proof (Hplain _ A) as I. cbn [x e_expansion] in I. congruence.
        + cbn [snd] in C. apply exp_entries_names in C as (l & u & C & D & ->).
          assert (E : k = p_name (prop_of d) /\ z = x).
          { apply (at_least k z (mkEntry u None (e_important z) (e_origin z) (e_spec z) (e_order z)) (HS1 _ A)).
            - right; right. exists l, u. auto.
            - reflexivity.
            - reflexivity.
            - exact Hbel. }
          destruct E as [-> ->]. cbn [e_value]. destruct Hd as [[F G]|(l' & F & G & I)].
          * cbn [x e_expansion] in C. rewrite (Hlong d) in C; [discriminate| |exact Hb|exact F]. apply in_or_app. right. now left.
          * cbn [x e_expansion] in C. rewrite F in C. injection C as ->. now apply I.
      - exfalso. exact (B y Hy).
    Qed.
  End One.

End Decisive.
