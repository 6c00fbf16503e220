(** C28, C64: where the children of a block are placed. *)
From Coq Require Import List NArith QArith Qminmax Qabs Bool Lia Lqa.
From Verif.Layout Require Import BreakModel BlockModel PaginateSpec RenderProofs DiscoverProofs.
Import ListNotations.
Local Open Scope Q_scope.

(** CSS 2.1, 8.3.1: the margin between two boxes whose margins are adjoining *)
Definition collapses (a b m : Q) : Prop :=
  (0 <= a -> 0 <= b -> m == Qmax a b) /\ (a <= 0 -> b <= 0 -> m == Qmin a b) /\
  (0 <= a -> b <= 0 -> m == a + b) /\ (a <= 0 -> 0 <= b -> m == a + b).

Definition in_flow (c : box) : Prop :=
  skipped c = false /\ s_floating (style_of c) = false /\ s_marker (style_of c) = false.
(** Floating boxes and the markers of lists, which have no margin. *)
Definition beside (c : box) : Prop :=
  skipped c = false /\ (s_floating (style_of c) = true \/ (s_floating (style_of c) = false /\ s_marker (style_of c) = true /\ s_margin_top (style_of c) == 0)).

(** [stacked edge margin cs fs last]: the children [cs] have the fragments [fs], one below the other: [edge] is the
    bottom of the box above, [margin] its bottom margin, and [last] where the margin of the last one ends. *)
Inductive stacked : Q -> Q -> list box -> list frag -> Q -> Prop :=
| sk_nil e m last : last == e + m -> stacked e m [] [] last
| sk_skip e m c cs fs last : skipped c = true -> stacked e m cs fs last -> stacked e m (c :: cs) fs last
| sk_beside e m c cs t h fc fs last : beside c -> stacked e m cs fs last -> stacked e m (c :: cs) (Frag c t h fc :: fs) last
| sk_flow e m c cs g t h fc fs last : in_flow c -> collapses m (s_margin_top (style_of c)) g ->
    t == e + g + relative_offset (style_of c) ->
    stacked (e + g + h) (s_margin_bottom (style_of c)) cs fs last -> stacked e m (c :: cs) (Frag c t h fc :: fs) last.

Lemma stacked_eq e m cs fs last : stacked e m cs fs last -> forall e' m', e == e' -> m == m' -> stacked e' m' cs fs last.
Proof.
  induction 1 as [e m last El|e m c cs fs last K H IH|e m c cs t h fc fs last K H IH|e m c cs g t h fc fs last K C T H IH]; intros e' m' Ee Em.
  - constructor. rewrite El, Ee, Em. reflexivity.
  - apply sk_skip; auto.
  - apply sk_beside; auto.
  - apply (sk_flow e' m' c cs g); auto.
    + destruct C as (C1 & C2 & C3 & C4). repeat split; intros A B; rewrite <- ?Em; [apply C1|apply C2|apply C3|apply C4]; rewrite ?Em; auto.
    + rewrite T, Ee. reflexivity.
    + apply IH; [rewrite Ee; reflexivity|reflexivity].
Qed.

Lemma collapsed_spec last top : collapses last top (collapsed_margin top last).
Proof.
  unfold collapses, collapsed_margin.
  destruct (qmax_spec top last) as [[? ->]|[? ->]], (qmin_spec top last) as [[? ->]|[? ->]];
  repeat match goal with
  | |- context [qmax ?a ?b] => destruct (qmax_spec a b) as [[? ->]|[? ->]]
  | |- context [qmin ?a ?b] => destruct (qmin_spec a b) as [[? ->]|[? ->]]
  | |- context [qabs ?a] => destruct (qabs_spec a) as [[? ->]|[? ->]]
  end; repeat split; intros;
  repeat match goal with
  | |- context [Qmax ?a ?b] => destruct (Q.max_spec a b) as [[? ->]|[? ->]]
  | |- context [Qmin ?a ?b] => destruct (Q.min_spec a b) as [[? ->]|[? ->]]
  end; lra.
Qed.
Lemma collapsed_same top last : top == 0 -> collapsed_margin top last == last.
Proof.
  intros H. unfold collapsed_margin.
  destruct (qmax_spec top last) as [[? ->]|[? ->]], (qmin_spec top last) as [[? ->]|[? ->]];
  repeat match goal with
  | |- context [qmax ?a ?b] => destruct (qmax_spec a b) as [[? ->]|[? ->]]
  | |- context [qmin ?a ?b] => destruct (qmin_spec a b) as [[? ->]|[? ->]]
  | |- context [qabs ?a] => destruct (qabs_spec a) as [[? ->]|[? ->]]
  end; lra.
Qed.

(** A layout that does not look for break points gives one fragment, of the size of the box. *)
Lemma one_frag m lim b y pend prev curr : is_discovery m = false ->
  exists fs, o_frag (layout m lim b y pend prev curr) = [Frag b y (o_size (layout m lim b y pend prev curr)) fs].
Proof.
  intros Hm. destruct b as [id s h inner|id s [|c cs]]; cbn [layout style_of]; rewrite Hm; cbn [andb].
  - eexists. reflexivity.
  - destruct (empty_box _ _ _ _ _) as [[? ?] ?]. eexists. reflexivity.
  - destruct (block_loop _ _ _ _ _ _ _ _ _ _ _ _ _) as [st early]. eexists. reflexivity.
Qed.

Lemma loop_stacked m lim s y pend n : is_discovery m = false -> forall cs i st,
  (forall c, In c cs -> skipped c = true \/ beside c \/ in_flow c) ->
  (forall c, In c cs -> skipped c = false -> i <> 0%N -> is_page (s_before (style_of c)) = false) ->
  (forall c r, cs = c :: r -> forall d, In d r -> skipped d = false -> is_page (s_before (style_of d)) = false) ->
  n = (i + len cs)%N ->
  let r := block_loop m s (layout m lim) y pend None None 0 n n i cs st in
  snd r = false /\ exists fs, l_frags (fst r) = l_frags st ++ fs /\
    stacked (y + l_size st - l_last st) (l_last st) cs fs (y + l_size (fst r)).
Proof.
  intros Hm. induction cs as [|c cs IH]; intros i st Hk Hi H0 Hn; cbn [block_loop].
  { split; [reflexivity|]. exists []. rewrite app_nil_r. split; [reflexivity|]. constructor. cbn [fst]. ring. }
  assert ((i <? 0)%N = false) as -> by (apply N.ltb_ge; lia).
  assert ((n <=? i)%N = false) as -> by (apply N.leb_gt; unfold len in Hn; cbn [length] in Hn; lia).
  rewrite Hm. cbn [andb].
  assert (n = (i + 1 + len cs)%N) as Hn' by (unfold len in *; cbn [length] in Hn; lia).
  assert (forall d, In d cs -> skipped d = true \/ beside d \/ in_flow d) as Hk' by (intros; apply Hk; now right).
  assert (forall d, In d cs -> skipped d = false -> (i + 1)%N <> 0%N -> is_page (s_before (style_of d)) = false) as Hi'
    by (intros d Hd Hs _; eapply H0; [reflexivity|exact Hd|exact Hs]).
  assert (forall d r, cs = d :: r -> forall e, In e r -> skipped e = false -> is_page (s_before (style_of e)) = false) as H0'
    by (intros d r -> e He Hs; eapply H0; [reflexivity|now right|exact Hs]).
  destruct (skipped c) eqn:Esk.
  - assert (s_position (style_of c) = ABSOLUTE \/ s_position (style_of c) = RUNNING) as [Ep|Ep]
        by (unfold skipped in Esk; destruct (s_position (style_of c)); auto; discriminate); rewrite Ep.
    + match goal with |- context [block_loop _ _ _ _ _ _ _ _ _ _ _ cs ?x] => destruct (IH (i + 1)%N x Hk' Hi' H0' Hn') as (A & fs & B & C) end.
      split; [exact A|]. exists fs. split; [exact B|]. apply sk_skip; [exact Esk|exact C].
    + destruct (IH (i + 1)%N st Hk' Hi' H0' Hn') as (A & fs & B & C). split; [exact A|]. exists fs. split; [exact B|]. apply sk_skip; [exact Esk|exact C].
  - assert (is_page (s_before (style_of c)) && negb (0 =? i)%N = false) as Ebf.
    { destruct (N.eqb_spec 0 i) as [E|E]; [apply andb_false_r|]. rewrite (Hi c (or_introl eq_refl) Esk); [reflexivity|lia]. }
    rewrite Ebf. cbn [traverse_prev traverse_curr]. cbv zeta.
    set (size1 := if removed (style_of c) then l_size st else l_size st + (collapsed_margin (s_margin_top (style_of c)) (l_last st) - l_last st)).
    assert (relative_offset (style_of c) = match s_position (style_of c) with RELATIVE dy => dy | _ => 0 end) as Er by reflexivity.
    set (comp := fun o : output => if allow_break m && (i + 1 =? n)%N then o_complete o && (i + 1 =? n)%N else l_complete st).
    assert (let o := layout m lim c (y + size1 + relative_offset (style_of c)) pend None None in
      let r := block_loop m s (layout m lim) y pend None None 0 n n (i + 1) cs
        (mkL (if removed (style_of c) || s_marker (style_of c) then size1 else size1 + (o_size o + s_margin_bottom (style_of c)))
             (if removed (style_of c) || s_marker (style_of c) then l_last st else s_margin_bottom (style_of c)) (l_bp st) (comp o) (l_frags st ++ o_frag o)) in
      snd r = false /\ exists fs, l_frags (fst r) = l_frags st ++ fs /\
        stacked (y + l_size st - l_last st) (l_last st) (c :: cs) fs (y + l_size (fst r))) as G.
    { cbv zeta. destruct (one_frag m lim c (y + size1 + relative_offset (style_of c)) pend None None Hm) as (fc & Ef). rewrite Ef.
      match goal with |- context [block_loop _ _ _ _ _ _ _ _ _ _ _ cs ?x] => destruct (IH (i + 1)%N x Hk' Hi' H0' Hn') as (A & fs & B & C) end.
      split; [exact A|]. eexists. split; [rewrite B; cbn [l_frags]; rewrite <- app_assoc; reflexivity|]. cbn [app].
      match type of C with stacked _ _ _ _ ?z => set (last := z) in *; clearbody last end.
      cbn [l_size l_last] in C. destruct (Hk c (or_introl eq_refl)) as [?|[Hb|Hb]]; [congruence| |].
      - apply sk_beside; [exact Hb|]. destruct Hb as [_ [Hb|(Hb1 & Hb2 & Hb3)]].
        + unfold size1, removed in C. rewrite Hb in C. cbn [orb] in C. exact C.
        + unfold removed in C. rewrite Hb2, orb_true_r in C. eapply stacked_eq; [exact C| |reflexivity].
          unfold size1, removed. rewrite Hb1. rewrite (collapsed_same _ _ Hb3). ring.
      - pose proof Hb as (_ & Hfl & Hmk). apply (sk_flow _ _ c cs (collapsed_margin (s_margin_top (style_of c)) (l_last st))); [exact Hb|apply collapsed_spec| |].
        + unfold size1, removed. rewrite Hfl. ring.
        + unfold removed in C. rewrite Hfl, Hmk in C. cbn [orb] in C. eapply stacked_eq; [exact C| |reflexivity].
          unfold size1, removed. rewrite Hfl. ring. }
    cbv zeta in G. unfold skipped in Esk. rewrite Er in G. destruct (s_position (style_of c)); try discriminate; exact G.
Qed.

(** ** C28. The children of a block are stacked in order, and the distance between two neighbours is
    what CSS prescribes. The first child is its top margin below the content edge of the block, and a
    block without a specified height ends where the margin of the last one ends: see C64. *)
Theorem C28_margins_collapse : forall m lim id s cs y pend,
  m = MONO \/ m = RENDER -> cs <> [] ->
  (forall c, In c cs -> skipped c = true \/ beside c \/ in_flow c) ->
  (forall c r, cs = c :: r -> forall d, In d r -> skipped d = false -> is_page (s_before (style_of d)) = false) ->
  exists h fs, o_frag (layout m lim (Block id s cs) y pend None None) = [Frag (Block id s cs) y h fs] /\
    exists last, stacked (y + s_top s) 0 cs fs last /\
      (s_height s = None -> y + h == last + s_bottom s) /\ (forall k, s_height s = Some k -> h == k).
Proof.
  intros m lim id s cs y pend Hm Hne Hk H0.
  assert (is_discovery m = false) as Hd by (destruct Hm as [-> | ->]; reflexivity).
  destruct (loop_stacked m lim s (y + s_top s) (pend + s_bottom s) (len cs) Hd cs 0%N (mkL 0 0 bp_default false []) Hk) as (A & fs & B & C);
    [intros; congruence|exact H0|lia|].
  destruct cs as [|c0 r0]; [congruence|]. set (cs := c0 :: r0) in *.
  cbn [layout style_of]. rewrite Hd. cbn [andb]. fold cs. 
  assert ((if allow_break m then match get_start None with Some n => n | None => 0%N end else 0%N) = 0%N) as -> by now destruct (allow_break m).
  assert ((match (if allow_break m && negb false then get_end None else None) with Some e => e | None => len cs end) = len cs) as -> by now destruct (allow_break m).
  destruct (block_loop m s (layout m lim) (y + s_top s) (pend + s_bottom s) None None 0 (len cs) (len cs) 0 cs (mkL 0 0 bp_default false [])) as [st early].
  cbn [fst snd l_frags app l_size l_last] in *. subst early. cbn [o_frag].
  do 2 eexists. split; [unfold cs; reflexivity|]. exists (y + s_top s + l_size st). split; [|split].
  - rewrite B. eapply stacked_eq; [exact C|ring|reflexivity].
  - intros ->. ring.
  - intros k ->. ring.
Qed.
Print Assumptions C28_margins_collapse.

Definition st (mt mb : Q) : style := mkStyle B_AUTO B_AUTO I_AUTO mt mb 0 0 None STATIC false false.
Fixpoint tops (f : frag) : list (nat * Q) :=
  match f with Frag b t _ fs => ((match b with Mono id _ _ _ => id | Block id _ _ => id end), Qred t) :: flat_map tops fs end.
(** Three paragraphs with margins (10, 20), (5, -8), (-3, 0): the second starts 20 below the first,
    the third 8 above the end of the second. *)
Example C28_sample : let cs := [Mono 1 (st 10 20) 30 []; Mono 2 (st 5 (-(8))) 30 []; Mono 3 (st (-(3)) 0) 30 []] in
  (forall c, In c cs -> in_flow c) /\
  flat_map tops (o_frag (layout MONO 1000 (Block 0 (st 0 0) cs) 100 0 None None)) = [(0%nat, 100); (1%nat, 110); (2%nat, 110 + 30 + 20); (3%nat, 160 + 30 - 8)].
Proof. cbv zeta. split; [intros c [<-|[<-|[<-|[]]]]; repeat split|]. vm_compute. reflexivity. Qed.

(** ** C64: margins through parents and empty boxes.

    CSS 2.1, 8.3.1: the top margin of a block without top border and padding collapses with that of
    its first child, and the margins of an empty box collapse with each other.
    They do not: a paragraph with a margin of 10, first in a block with a margin of 20, is 30 and not
    20 below the paragraph above the block; and an empty box with margins of 20 between two paragraphs
    pushes them 40 apart. *)
Theorem C64_margins_collapse_through_refuted :
  flat_map tops (o_frag (layout MONO 1000 (Block 0 (st 0 0) [Mono 1 (st 0 0) 30 []; Block 2 (st 20 0) [Mono 3 (st 10 0) 30 []]]) 0 0 None None))
    = [(0%nat, 0); (1%nat, 0); (2%nat, 30 + 20); (3%nat, 30 + 20 + 10)] /\
  flat_map tops (o_frag (layout MONO 1000 (Block 0 (st 0 0) [Mono 1 (st 0 0) 30 []; Block 2 (st 20 20) []; Mono 3 (st 0 0) 30 []]) 0 0 None None))
    = [(0%nat, 0); (1%nat, 0); (2%nat, 30 + 20); (3%nat, 30 + 20 + 20)].
Proof. split; vm_compute; reflexivity. Qed.
Print Assumptions C64_margins_collapse_through_refuted.
