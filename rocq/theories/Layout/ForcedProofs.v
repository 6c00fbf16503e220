(** The pages of a document respect the forced breaks. *)
From Coq Require Import List NArith QArith Bool Lia Lqa.
From Verif.Layout Require Import BreakModel BlockModel PaginateSpec PaginateProofs RenderProofs.
Import ListNotations.
Local Open Scope Q_scope.

(** The fragments of the children from [start] to [stop], the first of [cs] being number [i]. *)
Inductive placed (lay : box -> Q -> Q -> option bp -> option bp -> output) (pend : Q) (prev curr : option bp) (start stop : N) : N -> list box -> list frag -> Prop :=
| pl_nil i : placed lay pend prev curr start stop i [] []
| pl_stop i cs : (stop <= i)%N -> placed lay pend prev curr start stop i cs []
| pl_skip i c cs fs : placed lay pend prev curr start stop (i + 1) cs fs -> placed lay pend prev curr start stop i (c :: cs) fs
| pl_put i c cs fs y : (start <= i < stop)%N -> skipped c = false -> placed lay pend prev curr start stop (i + 1) cs fs ->
    placed lay pend prev curr start stop i (c :: cs) (o_frag (lay c y pend (traverse_prev prev i) (traverse_curr curr i)) ++ fs).

Lemma loop_placed m s lay y pend prev curr start stop n cs : is_discovery m = false ->
  forall i st, exists fs, l_frags (fst (block_loop m s lay y pend prev curr start stop n i cs st)) = l_frags st ++ fs /\
    placed lay pend prev curr start stop i cs fs.
Proof.
  intros Hm. induction cs as [|c cs IH]; intros i st; cbn [block_loop]; [exists []; rewrite app_nil_r; split; [reflexivity|constructor]|].
  destruct (N.ltb_spec i start) as [L|L]; [destruct (IH (i + 1)%N st) as (fs & E & P); exists fs; split; [exact E|now apply pl_skip]|].
  destruct (N.leb_spec stop i) as [L'|L']; [exists []; rewrite app_nil_r; split; [reflexivity|now apply pl_stop]|].
  rewrite Hm. cbn [andb].
  assert (skipped c = false -> forall y' st',
    exists fs, l_frags (fst (block_loop m s lay y pend prev curr start stop n (i + 1) cs
        (mkL (l_size st') (l_last st') (l_bp st') (l_complete st') (l_frags st ++ o_frag (lay c y' pend (traverse_prev prev i) (traverse_curr curr i)))))) = l_frags st ++ fs /\
      placed lay pend prev curr start stop i (c :: cs) fs) as FLOW.
  { intros Hk y' st'. destruct (IH (i + 1)%N (mkL (l_size st') (l_last st') (l_bp st') (l_complete st') (l_frags st ++ o_frag (lay c y' pend (traverse_prev prev i) (traverse_curr curr i))))) as (fs & E & P).
    exists (o_frag (lay c y' pend (traverse_prev prev i) (traverse_curr curr i)) ++ fs). split; [|apply pl_put; auto]. rewrite E. cbn [l_frags]. now rewrite app_assoc. }
  unfold skipped in FLOW. destruct (s_position (style_of c)) eqn:Ep.
  - destruct (is_page (s_before (style_of c)) && negb (start =? i)%N); [exists []; cbn; rewrite app_nil_r; split; [reflexivity|]|].
    + apply pl_skip. clear. generalize (i + 1)%N. induction cs; intros; [apply pl_nil|apply pl_skip; auto].
    + match goal with |- context [block_loop _ _ _ _ _ _ _ _ _ _ _ cs ?x] => exact (FLOW eq_refl _ x) end.
  - destruct (is_page (s_before (style_of c)) && negb (start =? i)%N); [exists []; cbn; rewrite app_nil_r; split; [reflexivity|]|].
    + apply pl_skip. clear. generalize (i + 1)%N. induction cs; intros; [apply pl_nil|apply pl_skip; auto].
    + match goal with |- context [block_loop _ _ _ _ _ _ _ _ _ _ _ cs ?x] => exact (FLOW eq_refl _ x) end.
  - match goal with |- context [block_loop _ _ _ _ _ _ _ _ _ _ _ cs ?x] => destruct (IH (i + 1)%N x) as (fs & E & P) end.
    exists fs. split; [exact E|now apply pl_skip].
  - destruct (IH (i + 1)%N st) as (fs & E & P). exists fs. split; [exact E|now apply pl_skip].
Qed.

(** Every box laid out by the second pass gives one fragment. *)
Lemma one_fragment lim b y pend prev curr : exists f, o_frag (layout RENDER lim b y pend prev curr) = [f] /\ f_box f = b.
Proof.
  destruct b as [id s h inner|id s [|c cs]]; cbn [layout style_of is_discovery andb].
  - eexists. split; reflexivity.
  - destruct (empty_box _ _ _ _ _) as [[? ?] ?]. eexists. split; reflexivity.
  - destruct (block_loop _ _ _ _ _ _ _ _ _ _ _ _ _) as [st early]. eexists. split; reflexivity.
Qed.

Lemma placed_nth lim pend prev curr start stop : forall i cs fs, placed (layout RENDER lim) pend prev curr start stop i cs fs ->
  forall f, In f fs -> exists j c y, nth_error cs j = Some c /\ (start <= i + N.of_nat j < stop)%N /\ skipped c = false /\
    In f (o_frag (layout RENDER lim c y pend (traverse_prev prev (i + N.of_nat j)) (traverse_curr curr (i + N.of_nat j)))) /\ f_box f = c.
Proof.
  induction 1 as [|i cs L|i c cs fs H IH|i c cs fs y Hr Hk H IH]; intros f I; [destruct I|destruct I| |].
  - destruct (IH f I) as (j & d & y & A & B & C & D & E). exists (S j), d, y. replace (i + N.of_nat (S j))%N with (i + 1 + N.of_nat j)%N by lia. auto.
  - apply in_app_or in I as [I|I].
    + exists 0%nat, c, y. rewrite N.add_0_r. repeat split; auto; try lia.
      destruct (one_fragment lim c y pend (traverse_prev prev i) (traverse_curr curr i)) as (f' & E & Eb). rewrite E in I. destruct I as [<-|[]]. exact Eb.
    + destruct (IH f I) as (j & d & y' & A & B & C & D & E). exists (S j), d, y'. replace (i + N.of_nat (S j))%N with (i + 1 + N.of_nat j)%N by lia. auto.
Qed.
Lemma placed_pair lim pend prev curr start stop : forall i cs fs, placed (layout RENDER lim) pend prev curr start stop i cs fs ->
  forall l f g r, fs = l ++ f :: g :: r -> exists j k, nth_error cs j = Some (f_box f) /\ nth_error cs k = Some (f_box g) /\ (j < k)%nat /\
    (start <= i + N.of_nat j)%N /\ (i + N.of_nat k < stop)%N /\ skipped (f_box f) = false /\ skipped (f_box g) = false.
Proof.
  induction 1 as [|i cs L|i c cs fs H IH|i c cs fs y Hr Hk H IH]; intros l f g r E.
  - destruct l; discriminate.
  - destruct l; discriminate.
  - destruct (IH l f g r E) as (j & k & A & B & C & D & F & G). exists (S j), (S k). repeat split; auto; try lia; apply G.
  - destruct (one_fragment lim c y pend (traverse_prev prev i) (traverse_curr curr i)) as (f' & Ef & Eb). rewrite Ef in E. cbn [app] in E.
    destruct l as [|l0 l]; cbn [app] in E; injection E as -> E.
    + subst fs. destruct (placed_nth _ _ _ _ _ _ _ _ _ H g (or_introl eq_refl)) as (k & d & y' & A & B & C & D & F).
      exists 0%nat, (S k). rewrite Eb, F. repeat split; auto; lia.
    + destruct (IH l f g r E) as (j & k & A & B & C & D & F & G). exists (S j), (S k). repeat split; auto; try lia; apply G.
Qed.

Lemma render_respects b : flowing b -> forall prev curr, match curr with Some p => good b prev p | None => whole b prev end ->
  forall lim y pend f, In f (o_frag (layout RENDER lim b y pend prev curr)) -> respects f.
Proof.
  induction b as [id s h inner _|id s cs IH] using box_induct; intros Hf prev curr Hc lim y pend f I; inversion Hf; subst.
  - destruct I as [<-|[]]. constructor.
  - destruct cs as [|c0 r0].
    { cbn [layout style_of is_discovery andb] in I. destruct (empty_box _ _ _ _ _) as [[? ?] ?]. destruct I as [<-|[]]. constructor; [|intros f []]. intros [|x l]; discriminate. }
    set (cs := c0 :: r0) in *. rewrite Forall_forall in IH.
    assert (exists t h, f = Frag (Block id s cs) t h (l_frags (fst (block_loop RENDER s (layout RENDER lim) (y + s_top s) (pend + s_bottom s) prev curr (start_of prev)
      (match get_end curr with Some e => e | None => len cs end) (len cs) 0 cs (mkL 0 0 bp_default false []))))) as (t & h & ->).
    { cbn [layout style_of is_discovery allow_break andb negb] in I. fold cs in I. fold (start_of prev) in I.
      change (match get_start prev with Some n => n | None => 0%N end) with (start_of prev) in I.
      destruct (block_loop _ _ _ _ _ _ _ _ _ _ _ _ _) as [st early]. destruct I as [<-|[]]. eauto. }
    clear I. destruct (loop_placed RENDER s (layout RENDER lim) (y + s_top s) (pend + s_bottom s) prev curr (start_of prev)
      (match get_end curr with Some e => e | None => len cs end) (len cs) cs eq_refl 0%N (mkL 0 0 bp_default false [])) as (fs & E & P).
    rewrite E. cbn [l_frags app]. clear E.
    assert (forall j c, nth_error cs j = Some c -> (start_of prev <= N.of_nat j < match get_end curr with Some e => e | None => len cs end)%N -> skipped c = false ->
      fits (start_of prev) (get_end curr) j c /\
      match traverse_curr curr (N.of_nat j) with Some p => good c (traverse_prev prev (N.of_nat j)) p | None => whole c (traverse_prev prev (N.of_nat j)) end) as CH.
    { intros j c Hj Hr Hsk. destruct curr as [p|].
      - inversion Hc; subst; cbn [get_end option_map bp_end] in *.
        + cbn [traverse_curr]. split; eauto.
        + split; [match goal with H : forall i c, _ -> _ -> _ -> fits _ _ _ _ |- _ => eapply H; eauto; lia end|].
          rewrite traverse_curr_inside. destruct (N.eqb_spec (N.of_nat j) (N.of_nat k)) as [Ejk|Ejk].
          * replace j with k in * by lia. replace c with ck by congruence. assumption.
          * match goal with H : forall i c, _ -> _ -> _ -> whole _ _ |- _ => eapply H; eauto; lia end.
      - inversion Hc; subst. cbn [traverse_curr get_end option_map]. split; [match goal with H : forall i c, _ -> _ -> _ -> fits _ _ _ _ |- _ => eapply H; eauto; lia end|match goal with H : forall i c, _ -> _ -> _ -> whole _ _ |- _ => eapply H; eauto; lia end]. }
    constructor.
    + intros l f g r E. destruct (placed_pair _ _ _ _ _ _ _ _ _ P l f g r E) as (j & k & A & B & Hjk & Hl & Hr & Kf & Kg).
      rewrite N.add_0_l in *.
      assert (N.of_nat k < match get_end curr with Some e => e | None => len cs end)%N as Hk by exact Hr.
      destruct (CH j _ A ltac:(lia) Kf) as [[_ [F|F]] _]; [rewrite F in Hk; lia|].
      destruct (CH k _ B ltac:(lia) Kg) as [[[G|G] _] _]; [lia|]. auto.
    + intros f I. destruct (placed_nth _ _ _ _ _ _ _ _ _ P f I) as (j & c & y' & A & B & Kc & D & _). rewrite N.add_0_l in *.
      apply (IH c (nth_error_In _ _ A)) with (prev := traverse_prev prev (N.of_nat j)) (curr := traverse_curr curr (N.of_nat j)) (lim := lim) (y := y') (pend := pend + s_bottom s).
      * match goal with H : forall c, In c cs -> skipped c = false -> flowing c |- _ => apply H; [eapply nth_error_In; exact A|exact Kc] end.
      * apply (CH j c A B Kc).
      * exact D.
Qed.
