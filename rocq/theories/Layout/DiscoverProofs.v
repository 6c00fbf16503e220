From Coq Require Import List NArith QArith Bool Lia Lqa.
From Verif.Base Require Import Outcome.
From Verif.Layout Require Import BreakModel BlockModel PaginateModel PaginateSpec PaginateProofs.
Import ListNotations.
Local Open Scope Q_scope.

Lemma qle_spec a b : (a <= b /\ Qle_bool a b = true) \/ (b < a /\ Qle_bool a b = false).
Proof.
  destruct (Qle_bool a b) eqn:E; [left; split; [apply Qle_bool_iff, E|reflexivity]|right; split; [|reflexivity]].
  apply Qnot_le_lt. intros F. apply Qle_bool_iff in F. congruence.
Qed.
Lemma qmax_spec a b : (a <= b /\ qmax a b = b) \/ (b < a /\ qmax a b = a).
Proof. unfold qmax. destruct (qle_spec a b) as [[H ->]|[H ->]]; auto. Qed.
Lemma qmin_spec a b : (a <= b /\ qmin a b = a) \/ (b < a /\ qmin a b = b).
Proof. unfold qmin. destruct (qle_spec a b) as [[H ->]|[H ->]]; auto. Qed.
Lemma qabs_spec a : (0 <= a /\ qabs a = a) \/ (a < 0 /\ qabs a = - a).
Proof. unfold qabs. destruct (qle_spec 0 a) as [[H ->]|[H ->]]; auto. Qed.
Lemma collapsed_zero t : collapsed_margin t 0 == t.
Proof.
  unfold collapsed_margin.
  destruct (qmax_spec t 0) as [[? ->]|[? ->]], (qmin_spec t 0) as [[? ->]|[? ->]];
  repeat match goal with
  | |- context [qmax ?a ?b] => destruct (qmax_spec a b) as [[? ->]|[? ->]]
  | |- context [qmin ?a ?b] => destruct (qmin_spec a b) as [[? ->]|[? ->]]
  | |- context [qabs ?a] => destruct (qabs_spec a) as [[? ->]|[? ->]]
  end; lra.
Qed.
Lemma room_le lim b : forall y pend y', room lim y pend b -> y' <= y -> room lim y' pend b.
Proof.
  induction b as [id s h inner _|id s cs IH] using box_induct; intros y pend y' H L; inversion H; subst.
  - apply room_mono. lra.
  - rewrite Forall_forall in IH. apply room_block; [lra| |].
    + intros E h Eh. match goal with H : cs = [] -> _ |- _ => pose proof (H E h Eh) end. lra.
    + intros c Hc Hs. eapply IH; [exact Hc|match goal with H : forall c, In c cs -> _ |- _ => exact (H c Hc Hs) end|lra].
Qed.

Definition disc_ok (lim : Q) (b : box) (y pend : Q) (prev : option bp) (o : output) : Prop :=
  (o_complete o = true -> whole b prev /\ forall p, o_bp o = Some p -> (rank (bp_appeal p) <= 3)%N) /\
  (o_complete o = false -> exists p, o_bp o = Some p /\
    ((bp_appeal p = OVERFLOW /\ ~ room lim y pend b) \/ (good b prev p /\ (bp_appeal p = CLASS_B \/ bp_appeal p = FORCED)))).

Section Block.
  Variables (lim y pend : Q) (id : nat) (s : style) (all : list box) (prev : option bp).
  Hypothesis Hs : startable (Block id s all) prev.
  Hypothesis Hf : flowing (Block id s all).
  Hypothesis IH : forall c, In c all -> skipped c = false -> forall prev y, startable c prev ->
    disc_ok lim c y pend prev (layout DISCOVERY lim c y pend prev None).
  Hypothesis Hstart : (start_of prev < len all)%N.

  Definition past (i : N) : Prop :=
    forall j c, nth_error all j = Some c -> (start_of prev <= N.of_nat j < i)%N -> skipped c = false ->
      fits (start_of prev) None j c /\ whole c (traverse_prev prev (N.of_nat j)).
  Definition rooms : Prop := forall c, In c all -> skipped c = false -> room lim (y + first_offset c) pend c.

  (** the state: nothing laid out yet, or a break between two children *)
  Definition fresh (st : lstate) : Prop := l_size st = 0 /\ l_last st = 0 /\ l_bp st = bp_default.
  Definition seen (i : N) (st : lstate) : Prop :=
    exists e, l_bp st = class_b e false /\ (start_of prev < e)%N /\ (e <= i)%N /\ (e < len all)%N.

  Lemma past_good i e a : past i -> (start_of prev < e)%N -> (e <= i)%N -> (e < len all)%N -> good (Block id s all) prev (BP e a [] WITHOUT_CHILDREN).
  Proof.
    intros Hp H1 H2 H3. apply gd_between; try assumption; intros j c Hj Hr Hk; destruct (Hp j c Hj) as [[F1 F2] W]; auto; try lia.
    split; [exact F1|]. destruct F2 as [F2|F2]; [discriminate|right; exact F2].
  Qed.

  Lemma disc_loop cs : forall pre st, all = pre ++ cs ->
    past (len pre) -> (fresh st \/ seen (len pre) st \/ cs = []) -> (rank (bp_appeal (l_bp st)) <= 3)%N -> (cs = [] -> l_complete st = true) ->
    let r := block_loop DISCOVERY s (layout DISCOVERY lim) y pend prev None (start_of prev) (len all) (len all) (len pre) cs st in
    (snd r = false -> l_complete (fst r) = true /\ past (len all) /\ (rank (bp_appeal (l_bp (fst r))) <= 3)%N) /\
    (snd r = true -> (bp_appeal (l_bp (fst r)) = OVERFLOW /\ ~ rooms) \/
        (good (Block id s all) prev (l_bp (fst r)) /\ (bp_appeal (l_bp (fst r)) = CLASS_B \/ bp_appeal (l_bp (fst r)) = FORCED))).
  Proof.
    induction cs as [|c rest IHl]; intros pre st E Hp Hst Hrk Hcm; cbn [block_loop].
    { cbn [fst snd]. split; [|discriminate]. intros _. rewrite E, app_nil_r. auto. }
    set (i := len pre) in *.
    assert (nth_error all (length pre) = Some c) as Hc by (rewrite E, nth_error_app2, PeanoNat.Nat.sub_diag by lia; reflexivity).
    assert (In c all) as Hin by (eapply nth_error_In; exact Hc).
    assert (N.of_nat (length pre) = i) as Hi by reflexivity.
    assert (all = (pre ++ [c]) ++ rest) as E' by (rewrite E, <- app_assoc; reflexivity).
    assert (len (pre ++ [c]) = i + 1)%N as Hl by (unfold len, i; rewrite app_length; cbn [length]; unfold len; lia).
    assert (len all = i + 1 + len rest)%N as Hn by (rewrite E'; unfold len; rewrite !app_length; cbn [length]; unfold i, len; lia).
    assert ((i + 1 =? len all)%N = match rest with [] => true | _ => false end) as Elast.
    { destruct rest as [|r0 rs]; [change (len []) with 0%N in Hn; apply N.eqb_eq; lia|]. apply N.eqb_neq. unfold len at 2 in Hn. cbn [length] in Hn. lia. }
    inversion Hf as [|? ? ? Havin Hav Hfl Hlast]; subst.
    assert (forall st', past (i + 1) -> (fresh st' \/ seen (i + 1) st' \/ rest = []) -> (rank (bp_appeal (l_bp st')) <= 3)%N -> (rest = [] -> l_complete st' = true) ->
      let r := block_loop DISCOVERY s (layout DISCOVERY lim) y pend prev None (start_of prev) (len all) (len all) (i + 1) rest st' in
      (snd r = false -> l_complete (fst r) = true /\ past (len all) /\ (rank (bp_appeal (l_bp (fst r))) <= 3)%N) /\
      (snd r = true -> (bp_appeal (l_bp (fst r)) = OVERFLOW /\ ~ rooms) \/
        (good (Block id s all) prev (l_bp (fst r)) /\ (bp_appeal (l_bp (fst r)) = CLASS_B \/ bp_appeal (l_bp (fst r)) = FORCED)))) as NEXT.
    { intros st' A B C D. rewrite <- Hl in A, B |- *. apply IHl; assumption. }
    clear IHl.
    assert (past (i + 1) -> seen i st -> seen (i + 1) st) as Hseen by (intros _ (e & A & B & C & D); exists e; repeat split; auto; lia).
    destruct (N.ltb_spec i (start_of prev)) as [L|L].
    { apply NEXT; auto.
      - intros j d Hj Hr Hk. lia.
      - destruct Hst as [Hst|[(e & A & B & C & D)|Hst]]; [left; exact Hst|lia|discriminate].
      - intros ->. change (len []) with 0%N in Hn. lia. }
    destruct (N.leb_spec (len all) i) as [L'|L']; [lia|].
    assert (skipped c = true -> past (i + 1)) as Hpsk.
    { intros Hk j d Hj Hr Hkd. destruct (N.eq_dec (N.of_nat j) i) as [Ej|Ej]; [|apply Hp; auto; lia].
      replace j with (length pre) in Hj by lia. congruence. }
    destruct (skipped c) eqn:Esk.
    - assert (fresh st \/ seen (i + 1) st \/ rest = []) as Hst'.
      { destruct Hst as [Hst|[Hst|Hst]]; [auto|right; left; apply Hseen; auto|discriminate]. }
      assert (s_position (style_of c) = ABSOLUTE \/ s_position (style_of c) = RUNNING) as [Ep|Ep]
        by (unfold skipped in Esk; destruct (s_position (style_of c)); auto; discriminate); rewrite Ep.
      + apply NEXT; auto. intros ->. cbn [l_complete]. rewrite Elast. reflexivity.
      + apply NEXT; auto. intros ->. exfalso. apply (proj1 (Hlast pre c E)). exact Ep.
    - clear Hpsk.
      assert (exists rel, relative_offset (style_of c) = rel /\
        match s_position (style_of c) with RUNNING => False | ABSOLUTE => False | _ => True end /\
        rel = match s_position (style_of c) with RELATIVE dy => dy | _ => 0 end) as (rel & Erel & Hpos & Erel').
      { exists (relative_offset (style_of c)). unfold relative_offset. unfold skipped in Esk. destruct (s_position (style_of c)); try discriminate; auto. }
      set (body := match s_position (style_of c) with STATIC => _ | RELATIVE _ => _ | _ => _ end).
      match goal with |- (snd ?b = false -> _) /\ _ => change b with body end. subst body.
      (* the forced break before the child *)
      destruct (is_page (s_before (style_of c)) && negb (start_of prev =? i)%N) eqn:Ebf.
      { apply andb_true_iff in Ebf as [Eb1 Eb2]. apply negb_true_iff, N.eqb_neq in Eb2.
        assert (good (Block id s all) prev (forced i)) as G by (apply (past_good i); auto; lia).
        destruct (s_position (style_of c)); try contradiction; cbn [fst snd l_bp]; (split; [discriminate|]; intros _; right; split; [exact G|right; reflexivity]). }
      assert (N.of_nat (length pre) = start_of prev \/ is_page (s_before (style_of c)) = false) as Hfit.
      { apply andb_false_iff in Ebf as [Eb|Eb]; [right; exact Eb|left]. apply negb_false_iff, N.eqb_eq in Eb. lia. }
      pose proof (startable_child id s all prev (length pre) c Hs Hc ltac:(lia)) as Hsc. rewrite Hi in Hsc.
      set (size1 := if removed (style_of c) then l_size st else l_size st + (collapsed_margin (s_margin_top (style_of c)) (l_last st) - l_last st)).
      pose proof (IH c Hin Esk (traverse_prev prev i) (y + size1 + rel) Hsc) as Ho. cbv zeta.
      assert (rel = match s_position (style_of c) with RELATIVE dy => dy | _ => 0 end) as Er by exact Erel'.
      set (o := layout DISCOVERY lim c (y + size1 + rel) pend (traverse_prev prev i) None) in *.
      assert (traverse_curr None i = None) as Etc by reflexivity.
      (* all in-flow positions share the same code *)
      set (goal := fun r : lstate * bool => (snd r = false -> l_complete (fst r) = true /\ past (len all) /\ (rank (bp_appeal (l_bp (fst r))) <= 3)%N) /\
        (snd r = true -> (bp_appeal (l_bp (fst r)) = OVERFLOW /\ ~ rooms) \/
          (good (Block id s all) prev (l_bp (fst r)) /\ (bp_appeal (l_bp (fst r)) = CLASS_B \/ bp_appeal (l_bp (fst r)) = FORCED)))) in *.
      match goal with |- (snd ?b = false -> _) /\ _ => change (goal b) end.
      assert (goal (let frags := l_frags st ++ o_frag o in
            let out := removed (style_of c) || s_marker (style_of c) in
            let size2 := if out then size1 else size1 + (o_size o + s_margin_bottom (style_of c)) in
            let last2 := if out then l_last st else s_margin_bottom (style_of c) in
            let b1 := match o_bp o with
                        | Some cb => override_if_better (l_bp st) (from_child cb (i + 1) (is_avoid_inside (s_inside s)))
                        | None => l_bp st
                        end in
            if negb (o_complete o) then (mkL size2 last2 b1 false frags, true)
            else
              let is_last := (i + 1 =? len all)%N in
              let avoided := is_avoid_inside (s_inside s) || is_avoid (s_after (style_of c))
                             || match rest with next :: _ => is_avoid (s_before (style_of next)) | [] => false end in
              let b2 := if negb is_last then override_if_better b1 (class_b (i + 1) avoided) else b1 in
              if is_page (s_after (style_of c)) then (mkL size2 last2 (forced (i + 1)) false frags, true)
              else
                let complete := if (i + 1 =? len all)%N then o_complete o && is_last else l_complete st in
                block_loop DISCOVERY s (layout DISCOVERY lim) y pend prev None (start_of prev) (len all) (len all) (i + 1) rest (mkL size2 last2 b2 complete frags))) as G.
      { destruct Ho as [Ho1 Ho2]. cbv zeta. rewrite Havin. destruct (o_complete o) eqn:Eco; cbn [negb].
        - destruct (Ho1 eq_refl) as [Hw Hrb].
          assert (is_page (s_after (style_of c)) = false -> past (i + 1)) as Hp'.
          { intros Haf j d Hj Hr Hk. destruct (N.eq_dec (N.of_nat j) i) as [Ej|Ej]; [|apply Hp; auto; lia].
            replace j with (length pre) in * by lia. replace d with c by congruence. split; [split; [exact Hfit|right; exact Haf]|]. rewrite Hi. exact Hw. }
          set (b1 := match o_bp o with Some cb => override_if_better (l_bp st) (from_child cb (i + 1) false) | None => l_bp st end).
          assert (rank (bp_appeal b1) <= 3)%N as Hb1.
          { unfold b1. destruct (o_bp o) as [cb|]; [|exact Hrk]. unfold override_if_better.
            match goal with |- context [if ?x then l_bp st else _] => destruct x end; [exact Hrk|].
            match goal with |- context [if ?x then _ else l_bp st] => destruct x end; [|exact Hrk]. cbn [from_child bp_appeal]. apply Hrb. reflexivity. }
          rewrite (proj2 (Hav c Hin)). rewrite Elast. destruct rest as [|nx rs].
          + cbn [negb orb andb]. pose proof (proj2 (Hlast pre c E) Esk) as Haf. rewrite Haf. apply NEXT; auto.
          + cbn [negb orb]. rewrite (proj1 (Hav nx ltac:(rewrite E; apply in_or_app; right; right; left; reflexivity))).
            assert (override_if_better b1 (class_b (i + 1) false) = class_b (i + 1) false) as ->.
            { unfold override_if_better. cbn [class_b bp_appeal appeal_eqb rank]. unfold appeal_eqb. cbn [rank]. change (3 =? 1)%N with false. rewrite andb_false_r.
              destruct (N.leb_spec (rank (bp_appeal b1)) 3); [reflexivity|lia]. }
            assert (i + 1 < len all)%N as Hlt by (rewrite Hn; unfold len; cbn [length]; lia).
            destruct (is_page (s_after (style_of c))) eqn:Eaf.
            * unfold goal. cbn [fst snd l_bp]. split; [discriminate|]. intros _. right. split; [|right; reflexivity].
              apply gd_between; [lia|lia| |]; intros j d Hj Hr Hk; (destruct (N.eq_dec (N.of_nat j) i) as [Ej|Ej];
                [replace j with (length pre) in * by lia; replace d with c by congruence|destruct (Hp j d Hj ltac:(lia) Hk) as [[F1 F2] W]]).
              -- split; [exact Hfit|left; reflexivity].
              -- split; [exact F1|]. destruct F2 as [F2|F2]; [discriminate|right; exact F2].
              -- rewrite Hi. exact Hw.
              -- exact W.
            * apply NEXT; [exact (Hp' eq_refl)| |cbn; lia|discriminate].
              right. left. exists (i + 1)%N. repeat split; auto; lia.
        - unfold goal. cbn [fst snd l_bp]. split; [discriminate|]. intros _. destruct (Ho2 eq_refl) as (cb & Ecb & Hcb). rewrite Ecb.
          assert (is_avoid_inside (s_inside s) = false) by assumption.
          destruct Hcb as [[Hov Hroom]|[Hg Hap]].
          + destruct Hst as [(Hz1 & Hz2 & Hz3)|[(e & Hb & He1 & He2 & He3)|?]]; [| |discriminate].
            * left. rewrite Hz3. unfold override_if_better. cbn [bp_default bp_appeal from_child]. rewrite Hov. cbn. rewrite Hov. split; [reflexivity|].
              intros HR. apply Hroom. apply (room_le lim c (y + first_offset c)); [exact (HR c Hin Esk)|].
              unfold first_offset, size1, removed. rewrite Hz1, Hz2, Erel. destruct (s_floating (style_of c)); [lra|]. rewrite collapsed_zero. lra.
            * right. rewrite Hb. unfold override_if_better, appeal_eqb. cbn [class_b bp_appeal from_child]. rewrite Hov. cbn.
              split; [|left; reflexivity]. apply (past_good i); auto.
          + right.
            assert (override_if_better (l_bp st) (from_child cb (i + 1) false) = from_child cb (i + 1) false) as ->.
            { unfold override_if_better. cbn [from_child bp_appeal]. unfold appeal_eqb.
              destruct Hap as [-> | ->]; cbn [rank]; [change (3 =? 1)%N with false|change (4 =? 1)%N with false]; rewrite andb_false_r;
                destruct (N.leb_spec (rank (bp_appeal (l_bp st))) 3), (N.leb_spec (rank (bp_appeal (l_bp st))) 4); try reflexivity; lia. }
            cbn [from_child bp_appeal]. split; [|exact Hap]. unfold from_child. rewrite <- Hi. apply (gd_inside _ _ _ _ (length pre) c); auto; try lia.
            * intros j d Hj Hr Hk. destruct (N.eq_dec (N.of_nat j) i) as [Ej|Ej].
              { replace j with (length pre) in * by lia. replace d with c by congruence. split; [exact Hfit|left; reflexivity]. }
              destruct (Hp j d Hj ltac:(lia) Hk) as [[F1 F2] W]. split; [exact F1|]. destruct F2 as [F2|F2]; [discriminate|right; exact F2].
            * intros j d Hj Hr Hk. apply (Hp j d Hj); [lia|exact Hk].
      }
      cbv zeta in G. cbn [is_discovery allow_break andb].
      destruct (s_position (style_of c)); try contradiction; rewrite <- Er; exact G.
  Qed.
End Block.

Lemma discover lim b : flowing b -> forall prev y pend, startable b prev ->
  disc_ok lim b y pend prev (layout DISCOVERY lim b y pend prev None).
Proof.
  induction b as [id s h inner _|id s cs IH] using box_induct; intros Hf prev y pend Hs.
  - cbn [layout style_of is_discovery andb]. unfold accepts_fit. destruct (Qle_bool _ _) eqn:E; cbn [negb].
    + split; [|discriminate]. intros _. split; [constructor|]. intros p [= <-]. cbn. lia.
    + split; [discriminate|]. intros _. exists overflow. split; [reflexivity|]. left. split; [reflexivity|].
      intros HR. inversion HR; subst. apply Bool.not_true_iff_false in E. apply E, Qle_bool_iff. lra.
  - cbn [layout style_of is_discovery andb]. unfold accepts_fit at 1. destruct (Qle_bool (y + s_top s + 0 + (pend + s_bottom s)) lim) eqn:E; cbn [negb].
    2:{ split; [discriminate|]. intros _. exists overflow. split; [reflexivity|]. left. split; [reflexivity|].
      intros HR. inversion HR; subst. apply Bool.not_true_iff_false in E. apply E, Qle_bool_iff. lra. }
    destruct cs as [|c0 r0].
    + unfold empty_box. cbn [is_discovery]. unfold accepts_fit.
      match goal with |- context [if Qle_bool ?a lim then (_, true, _) else _] => destruct (Qle_bool a lim) eqn:E2 end; unfold disc_ok; cbn [o_complete o_bp].
      * split; [|discriminate]. intros _. split; [|discriminate]. constructor; intros [|i] c Hc; discriminate.
      * split; [discriminate|]. intros _. exists overflow. split; [reflexivity|]. left. split; [reflexivity|].
        intros HR. inversion HR; subst. apply Bool.not_true_iff_false in E2. apply E2, Qle_bool_iff.
        destruct (s_height s) as [h|]; [|lra]. match goal with H : [] = [] -> _ |- _ => pose proof (H eq_refl h eq_refl) end. lra.
    + set (cs := c0 :: r0) in *.
      assert (start_of prev < len cs)%N as Hst.
      { inversion Hs; subst; unfold start_of; cbn [get_start bp_advance bp_end]; try assumption; try (unfold len, cs; cbn [length]; lia).
        match goal with H : nth_error _ ?k = _ |- _ => pose proof (nth_len _ _ _ H) end. unfold usize_pred. match goal with |- context [N.eqb ?a 0] => destruct (N.eqb_spec a 0) end; lia. }
      rewrite Forall_forall in IH.
      destruct (disc_loop lim (y + s_top s) (pend + s_bottom s) id s cs prev Hs Hf) with (cs := cs) (pre := @nil box) (st := mkL 0 0 bp_default false []) as [A B]; auto.
      { intros c Hc Hk p y' Hp. apply IH; auto. inversion Hf; subst. auto. }
      { intros j c Hj Hr. change (len []) with 0%N in Hr. lia. }
      { left. repeat split. }
      { cbn. lia. }
      { discriminate. }
      change (len []) with 0%N in A, B. cbn [allow_break andb negb].
      change (match get_start prev with Some n => n | None => 0%N end) with (start_of prev).
      destruct (block_loop _ _ _ _ _ _ _ _ _ _ _ _ _) as [st early]. cbn [fst snd] in A, B. destruct early; unfold disc_ok; cbn [o_complete o_bp].
      * split; [discriminate|]. intros _. exists (l_bp st). split; [reflexivity|]. destruct (B eq_refl) as [[HO HR]|HG]; [left|right; exact HG].
        split; [exact HO|]. intros HRoom. apply HR. inversion HRoom; subst. intros c Hc Hk. auto.
      * destruct (A eq_refl) as (Hcm & Hpast & Hrk). rewrite Hcm. split; [|discriminate]. intros _. split; [|intros p [= <-]; exact Hrk].
        constructor; intros j c Hj Hr Hk; apply (Hpast j c Hj); auto; pose proof (nth_len _ _ _ Hj); lia.
Qed.
