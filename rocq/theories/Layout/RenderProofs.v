From Coq Require Import List NArith QArith Bool Lia Lqa.
From Verif.Base Require Import Outcome.
From Verif.Layout Require Import BreakModel BlockModel PaginateModel PaginateSpec PaginateProofs.
Import ListNotations.
Local Open Scope Q_scope.

(** ** One turn of the loop, outside discovery *)
Lemma skipped_pos c : skipped c = true -> s_position (style_of c) = ABSOLUTE \/ s_position (style_of c) = RUNNING.
Proof. unfold skipped. destruct (s_position (style_of c)); auto; discriminate. Qed.

(** A loop that is not looking for break points lays out the children from [start] to [stop]. *)
Lemma plain_loop m s lay y pend prev curr start stop n (f : N -> box -> list nat) cs : is_discovery m = false ->
  forall i st,
  (forall j c, nth_error cs j = Some c -> (start <= i + N.of_nat j < stop)%N -> skipped c = false ->
     ((i + N.of_nat j = start)%N \/ is_page (s_before (style_of c)) = false) /\
     forall y' , flat_map printed (o_frag (lay c y' pend (traverse_prev prev (i + N.of_nat j)) (traverse_curr curr (i + N.of_nat j)))) = f (i + N.of_nat j)%N c) ->
  let r := block_loop m s lay y pend prev curr start stop n i cs st in
  snd r = false /\
  flat_map printed (l_frags (fst r)) = flat_map printed (l_frags st) ++
    icat (fun i c => if (start <=? i)%N && (i <? stop)%N && negb (skipped c) then f i c else []) i cs.
Proof.
  intros Hm. induction cs as [|c rest IH]; intros i st H; cbn [block_loop icat].
  { split; [reflexivity|]. cbn [fst]. now rewrite app_nil_r. }
  assert (forall st', let r := block_loop m s lay y pend prev curr start stop n (i + 1) rest st' in
    snd r = false /\ flat_map printed (l_frags (fst r)) = flat_map printed (l_frags st') ++
      icat (fun i c => if (start <=? i)%N && (i <? stop)%N && negb (skipped c) then f i c else []) (i + 1) rest) as IH'.
  { intros st'. apply IH. intros j d Hj. replace (i + 1 + N.of_nat j)%N with (i + N.of_nat (S j))%N by lia. apply (H (S j) d Hj). }
  clear IH. pose proof (H 0%nat c eq_refl) as H0. cbn [N.of_nat] in H0. rewrite N.add_0_r in H0.
  destruct (N.ltb_spec i start) as [L|L].
  { destruct (N.leb_spec start i); [lia|]. cbn [andb app]. apply IH'. }
  destruct (N.leb_spec start i); [|lia]. cbn [andb].
  destruct (N.leb_spec stop i) as [L'|L'].
  { destruct (N.ltb_spec i stop); [lia|]. cbn [andb app fst snd]. split; [reflexivity|].
    rewrite icat_nil, app_nil_r; [reflexivity|]. intros j d Hj. destruct (N.ltb_spec (i + 1 + N.of_nat j) stop); [lia|]. now rewrite andb_false_r. }
  destruct (N.ltb_spec i stop); [|lia]. cbn [andb].
  destruct (skipped c) eqn:Es; cbn [negb app].
  - apply skipped_pos in Es as [-> | ->]; [|apply IH']. specialize (IH' (mkL (l_size st) (l_last st) (l_bp st) (if (i + 1 =? n)%N then true else l_complete st) (l_frags st))). exact IH'.
  - destruct (H0 ltac:(lia) eq_refl) as [Hb Hf].
    assert (is_page (s_before (style_of c)) && negb (start =? i)%N = false) as ->.
    { destruct Hb as [-> | ->]; [now rewrite N.eqb_refl, andb_false_r|reflexivity]. }
    rewrite Hm. cbn [andb].
    assert (forall q fr, flat_map printed fr = flat_map printed (l_frags st) ++ f i c ->
      let r := block_loop m s lay y pend prev curr start stop n (i + 1) rest (mkL (fst (fst q)) (snd (fst q)) (fst (snd q)) (snd (snd q)) fr) in
      snd r = false /\ flat_map printed (l_frags (fst r)) = flat_map printed (l_frags st) ++ f i c ++
        icat (fun i c => if (start <=? i)%N && (i <? stop)%N && negb (skipped c) then f i c else []) (i + 1) rest) as K.
    { intros q fr E. destruct (IH' (mkL (fst (fst q)) (snd (fst q)) (fst (snd q)) (snd (snd q)) fr)) as [A B]. split; [exact A|].
      rewrite B. cbn [l_frags]. rewrite E, <- app_assoc. reflexivity. }
    assert (forall y', flat_map printed (l_frags st ++ o_frag (lay c y' pend (traverse_prev prev i) (traverse_curr curr i))) = flat_map printed (l_frags st) ++ f i c) as E
      by (intros; rewrite flat_map_app, Hf; reflexivity).
    unfold skipped in Es. destruct (s_position (style_of c)); try discriminate; apply (K (_, _, (_, _))), E.
Qed.

Lemma icat_in {A} (h : box -> list A) (f : N -> box -> list A) cs i :
  (forall j c, nth_error cs j = Some c -> f (i + N.of_nat j)%N c = h c) -> icat f i cs = flat_map h cs.
Proof.
  intros H. rewrite (icat_ext f (fun _ => h) cs i H). clear. revert i. induction cs as [|c r IH]; intros i; [reflexivity|]. cbn [icat flat_map]. now rewrite IH.
Qed.

Lemma frag_mono id s h inner m lim y pend prev curr : is_discovery m = false ->
  flat_map printed (o_frag (layout m lim (Mono id s h inner) y pend prev curr)) =
  id :: flat_map printed (flat_map (fun e => match e with (dy, c) => o_frag (layout MONO lim c (y + s_top s + dy) 0 None None) end) inner).
Proof. intros Hm. cbn [layout style_of]. rewrite Hm. cbn [andb o_frag flat_map printed]. now rewrite app_nil_r. Qed.
Lemma frag_block m lim id s cs y pend prev curr : is_discovery m = false -> cs <> [] ->
  flat_map printed (o_frag (layout m lim (Block id s cs) y pend prev curr)) =
  flat_map printed (l_frags (fst (block_loop m s (layout m lim) (y + s_top s) (pend + s_bottom s) prev curr
    (if allow_break m then start_of prev else 0%N)
    (match (if allow_break m && negb (is_discovery m) then get_end curr else None) with Some e => e | None => len cs end) (len cs) 0 cs (mkL 0 0 bp_default false [])))).
Proof.
  intros Hm Hne. destruct cs as [|c0 r0]; [congruence|]. set (cs := c0 :: r0).
  cbn [layout style_of]. rewrite Hm. cbn [andb]. fold cs. unfold start_of.
  destruct (block_loop _ _ _ _ _ _ _ _ _ _ _ _ _) as [st early]. unfold cs. cbn [o_frag flat_map printed fst]. now rewrite app_nil_r.
Qed.
Lemma frag_empty m lim id s y pend prev curr : is_discovery m = false ->
  flat_map printed (o_frag (layout m lim (Block id s []) y pend prev curr)) = [id].
Proof.
  intros Hm. cbn [layout style_of]. rewrite Hm. cbn [andb]. destruct (empty_box _ _ _ _ _) as [[? ?] ?]. reflexivity.
Qed.

(** ** Unbreakable boxes print all they contain *)
Lemma mono_content c : unbroken c -> forall lim y pend, flat_map printed (o_frag (layout MONO lim c y pend None None)) = content c.
Proof.
  induction c as [id s h inner IH|id s cs IH] using box_induct; intros Hu lim y pend; inversion Hu; subst.
  - rewrite frag_mono by reflexivity. cbn [content]. f_equal. rewrite Forall_forall in IH.
    match goal with H : forall dy c, In (dy, c) inner -> _ |- _ => revert H end. clear Hu. revert IH. generalize (y + s_top s). intros y0.
    induction inner as [|[dy c] r IHr]; intros IH Hi; [reflexivity|]. cbn [flat_map]. rewrite flat_map_app. f_equal.
    + apply (IH (dy, c)); [now left|]. apply (Hi dy). now left.
    + apply IHr; [intros e He; apply IH; now right|intros d x Hx; apply (Hi d); now right].
  - destruct cs as [|c0 r0]; [apply frag_empty; reflexivity|]. set (cs := c0 :: r0) in *.
    rewrite frag_block by (reflexivity || discriminate). cbn [allow_break is_discovery andb negb].
    rewrite Forall_forall in IH.
    destruct (plain_loop MONO s (layout MONO lim) (y + s_top s) (pend + s_bottom s) None None 0 (len cs) (len cs) (fun _ c => content c) cs eq_refl 0%N (mkL 0 0 bp_default false [])) as [_ E].
    + intros j c Hj Hr Hsk. rewrite N.add_0_l. split.
      * destruct j as [|j]; [left; reflexivity|right].
        match goal with H : forall c r, cs = c :: r -> _ |- _ => apply (H c0 r0 eq_refl) end; [|exact Hsk]. eapply nth_error_In; exact Hj.
      * intros y'. cbn [traverse_prev traverse_curr]. apply nth_error_In in Hj. apply IH; auto.
    + rewrite E. cbn [l_frags flat_map app]. change (content (Block id s cs)) with (flat_map (fun c => if skipped c then [] else content c) cs).
      apply icat_in. intros j c Hj. rewrite N.add_0_l. pose proof (nth_len cs j c Hj). destruct (N.leb_spec 0 (N.of_nat j)); [|lia].
      destruct (N.ltb_spec (N.of_nat j) (len cs)); [|lia]. cbn [andb]. destruct (skipped c); reflexivity.
Qed.

(** ** A page prints what is between its break points *)
Lemma render_between b : flowing b -> forall prev curr, match curr with Some p => good b prev p | None => whole b prev end ->
  forall lim y pend, flat_map printed (o_frag (layout RENDER lim b y pend prev curr)) = between b prev curr.
Proof.
  induction b as [id s h inner _|id s cs IH] using box_induct; intros Hf prev curr Hc lim y pend; inversion Hf; subst.
  - rewrite frag_mono by reflexivity. cbn [between content]. f_equal. generalize (y + s_top s). intros y0.
    match goal with H : forall dy c, In (dy, c) inner -> _ |- _ => revert H end. clear.
    induction inner as [|[dy c] r IHr]; intros Hi; [reflexivity|]. cbn [flat_map]. rewrite flat_map_app. f_equal.
    + apply mono_content. apply (Hi dy). now left.
    + apply IHr. intros d x Hx; apply (Hi d); now right.
  - destruct cs as [|c0 r0]; [apply frag_empty; reflexivity|]. set (cs := c0 :: r0) in *.
    rewrite frag_block by (reflexivity || discriminate). cbn [allow_break is_discovery andb negb].
    rewrite Forall_forall in IH.
    destruct (plain_loop RENDER s (layout RENDER lim) (y + s_top s) (pend + s_bottom s) prev curr (start_of prev)
       (match get_end curr with Some e => e | None => len cs end) (len cs) (fun i c => between c (traverse_prev prev i) (traverse_curr curr i)) cs eq_refl 0%N (mkL 0 0 bp_default false [])) as [_ E].
    + intros j c Hj Hr Hsk. rewrite N.add_0_l in *.
      assert ((exists e, fits (start_of prev) e j c) /\ match traverse_curr curr (N.of_nat j) with Some p => good c (traverse_prev prev (N.of_nat j)) p | None => whole c (traverse_prev prev (N.of_nat j)) end) as [[e0 [Hfit _]] Hch].
      { destruct curr as [p|].
        - inversion Hc; subst; cbn [get_end option_map bp_end] in Hr.
          + cbn [traverse_curr]. split; [eexists|]; eauto.
          + split; [eexists; match goal with H : forall i c, _ -> _ -> _ -> fits _ _ _ _ |- _ => eapply H; eauto; lia end|].
            rewrite traverse_curr_inside. destruct (N.eqb_spec (N.of_nat j) (N.of_nat k)) as [Ejk|Ejk].
            * replace j with k in * by lia. replace c with ck by congruence. assumption.
            * match goal with H : forall i c, _ -> _ -> _ -> whole _ _ |- _ => eapply H; eauto; lia end.
        - inversion Hc; subst. cbn [traverse_curr]. split; [eexists; match goal with H : forall i c, _ -> _ -> _ -> fits _ _ _ _ |- _ => eapply H; eauto; lia end|match goal with H : forall i c, _ -> _ -> _ -> whole _ _ |- _ => eapply H; eauto; lia end]. }
      split; [exact Hfit|]. intros y'. apply nth_error_In in Hj. apply IH; auto.
    + rewrite E. reflexivity.
Qed.
