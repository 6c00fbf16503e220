(** Pagination (C26): what is printed, for documents in which every break can be honoured, and the
    documents for which printing never ends, loses content or prints it twice. *)
From Coq Require Import List NArith QArith Bool Lia Lqa.
From Verif.Base Require Import Outcome.
From Verif.Layout Require Import BreakModel BlockModel PaginateModel PaginateSpec PaginateProofs RenderProofs DiscoverProofs ForcedProofs.
Import ListNotations.
Local Open Scope Q_scope.

Lemma weight_start b prev : start_of prev = 0%N -> (forall i, traverse_prev prev i = None) -> weight b prev = boxes b.
Proof.
  revert prev. induction b as [id s h inner _|id s cs IH] using box_induct; intros prev H0 Ht; [reflexivity|].
  cbn [weight boxes]. f_equal. rewrite H0. rewrite Forall_forall in IH.
  enough (forall i l, (forall c, In c l -> In c cs) ->
    isum (fun i c => if (0 <=? i)%N then weight c (traverse_prev prev i) else 0%nat) i l = fold_right (fun c n => (boxes c + n)%nat) 0%nat l) as K by (apply K; auto).
  intros i l; revert i. induction l as [|c l IHl]; intros i Hl; [reflexivity|]. cbn [isum fold_right].
  rewrite IHl by (intros d Hd; apply Hl; now right). f_equal.
  destruct (N.leb_spec 0 i); [|lia]. rewrite Ht. apply IH; [apply Hl; now left|reflexivity|reflexivity].
Qed.

(** The last page, up to the end of the document. *)
Lemma last_page lim root y prev : single_child root -> 
  o_frag (layout RENDER lim root y 0 prev (Some (class_b 1 false))) = o_frag (layout RENDER lim root y 0 prev None).
Proof.
  destruct root as [id s h inner|id s [|c [|d r]]]; intros H; [reflexivity|reflexivity|reflexivity|]. cbn in H. lia.
Qed.

Lemma pages_from g root : flowing root -> single_child root -> (forall k, room (snd (g k)) (fst (g k)) 0 root) ->
  forall fuel k prev, startable root (Some prev) -> (weight root (Some prev) <= fuel)%nat ->
  exists bps, collect fuel g root k prev = Ok bps /\ (length bps <= weight root (Some prev))%nat /\
    forall lim, flat_map (flat_map printed) (render g lim root k prev bps) = between root (Some prev) None /\
      forall page f, In page (render g lim root k prev bps) -> In f page -> respects f.
Proof.
  intros Hf Hone Hr. induction fuel as [|fuel IH]; intros k prev Hs Hw.
  { pose proof (weight_pos root (Some prev)). lia. }
  cbn [collect]. pose proof (Hr k) as Hroom. destruct (g k) as [top height] eqn:G. cbn [fst snd] in Hroom.
  pose proof (discover height root Hf (Some prev) top 0 Hs) as [Hc Hn].
  destruct (o_complete (layout DISCOVERY height root top 0 (Some prev) None)) eqn:E.
  - exists [class_b 1 false]. split; [reflexivity|]. split; [apply weight_pos|]. intros lim. cbn [render flat_map].
    rewrite app_nil_r, G, last_page by exact Hone. destruct (Hc eq_refl) as [Hwh _].
    split; [apply render_between; [exact Hf|exact Hwh]|]. intros page f [<-|[]] I. exact (render_respects root Hf (Some prev) None Hwh _ _ _ f I).
  - destruct (Hn eq_refl) as (p & -> & [[_ HR]|[Hg _]]); [contradiction|].
    pose proof (good_weight root _ _ Hs Hg) as Hlt.
    destruct (IH (k + 1)%nat p) as (bps & -> & Hl & Hp); [eapply good_startable; exact Hg|lia|].
    exists (p :: bps). split; [reflexivity|]. split; [cbn [length]; lia|]. intros lim. cbn [render flat_map].
    destruct (Hp lim) as [Hp1 Hp2]. split.
    + rewrite Hp1, (between_cut root _ p Hs Hg). f_equal. apply render_between; [exact Hf|exact Hg].
    + intros page f [<-|I] J; [exact (render_respects root Hf (Some prev) (Some p) Hg _ _ _ f J)|eapply Hp2; eassumption].
Qed.

(** ** C26: printing ends, and prints every piece of content once and in order.

    Full statement: for every document and every sequence of page geometries, printing ends, and
    the pages hold every piece of in-flow content of the document exactly once and in order.

    Missing: it is proved for documents without break avoidance, whose root has one child, whose
    blocks do not end with a running element or a forced break, and such that the first piece of
    every box has room at the top of an empty page. The refutations below show that none of these
    can be left out. *)
Lemma pagination g root : flowing root -> single_child root -> (forall k, room (snd (g k)) (fst (g k)) 0 root) ->
  exists pages, (length pages <= boxes root)%nat /\ flat_map (flat_map printed) pages = content root /\
    (forall page f, In page pages -> In f page -> respects f) /\
    forall fuel, (boxes root <= fuel)%nat -> print fuel g root = Ok pages.
Proof.
  intros Hf Hone Hr.
  assert (forall fuel, (boxes root <= fuel)%nat -> exists bps, collect fuel g root 1 start_of_document = Ok bps /\ (length bps <= boxes root)%nat /\
    forall lim, flat_map (flat_map printed) (render g lim root 1 start_of_document bps) = content root /\
      forall page f, In page (render g lim root 1 start_of_document bps) -> In f page -> respects f) as K.
  { intros fuel Hfu. rewrite <- (weight_start root (Some start_of_document)) in Hfu |- * by reflexivity.
    destruct (pages_from g root Hf Hone Hr fuel 1%nat start_of_document (st_zero root EMPTY) Hfu) as (bps & E & L & P).
    exists bps. split; [exact E|]. split; [exact L|]. intros lim. destruct (P lim) as [P1 P2]. split; [|exact P2]. rewrite P1. now apply between_zero. }
  destruct (K (boxes root) (Nat.le_refl _)) as (bps & E & L & P).
  exists (render g (snd (g (length bps))) root 1 start_of_document bps). split; [|split; [apply P|split; [apply P|]]].
  - enough (forall k lim p, length (render g lim root k p bps) = length bps) as -> by exact L.
    clear. induction bps as [|b bps IH]; intros; [reflexivity|]. cbn [render length]. now rewrite IH.
  - intros fuel Hfu. unfold print.
    enough (collect fuel g root 1 start_of_document = Ok bps) as -> by reflexivity.
    revert Hfu E. clear. generalize (boxes root) as n. generalize 1%nat as k. generalize start_of_document as p. intros p k n H. revert bps p k fuel H.
    induction n as [|n IH]; intros bps p k fuel H E; [discriminate|]. destruct fuel as [|fuel]; [lia|].
    cbn [collect] in E |- *. destruct (g k) as [t h]. destruct (o_complete _); [exact E|]. destruct (o_bp _) as [b|]; [|exact E].
    destruct (collect n g root (k + 1) b) as [l| |] eqn:El; try discriminate. rewrite (IH _ _ _ fuel ltac:(lia) El). exact E.
Qed.

Theorem C26_pagination_partial g root : flowing root -> single_child root -> (forall k, room (snd (g k)) (fst (g k)) 0 root) ->
  exists pages, (length pages <= boxes root)%nat /\ flat_map (flat_map printed) pages = content root /\
    forall fuel, (boxes root <= fuel)%nat -> print fuel g root = Ok pages.
Proof. intros Hf Hone Hr. destruct (pagination g root Hf Hone Hr) as (pages & A & B & _ & C). eauto. Qed.
Print Assumptions C26_pagination_partial.

(** A document to which the theorem applies: two sections, with margins, a list item and its marker,
    an image, an empty box and a forced break, on pages of which the first is shorter. *)
Definition plain (mt mb : Q) : style := mkStyle B_AUTO B_AUTO I_AUTO mt mb 0 0 None STATIC false false.
Definition text (id : nat) (h : Q) : box := Mono id (plain 0 0) h [].
Definition new_page : style := mkStyle B_PAGE B_AUTO I_AUTO 5 5 1 1 None STATIC false false.
Definition marker : style := mkStyle B_AUTO B_AUTO I_AUTO 0 0 0 0 None STATIC false true.
Definition sample_pages : geometry := fun k => if Nat.eqb k 1 then (40, 100) else (20, 150).
Definition sample : box :=
  Block 0 (plain 0 0) [Block 1 (plain 8 8)
    [ Block 2 (plain 0 0) [text 3 30; text 4 30; text 5 30];
      Block 6 (plain 10 10) [Mono 7 marker 10 []; text 8 20; Mono 9 (plain 0 0) 60 [(0, Block 10 new_page [text 11 5])]];
      Block 12 new_page [text 13 100; Block 14 (mkStyle B_AUTO B_AUTO I_AUTO 0 0 0 0 (Some 20) STATIC false false) []; text 15 40] ]].
Definition printed_ids (r : outcome (list (list frag))) : outcome (list (list nat)) :=
  obind r (fun pages => Ok (map (flat_map printed) pages)).
Ltac ub := match goal with
  | |- unbroken (text _ _) => unfold text; ub
  | |- unbroken (Mono _ _ _ _) => constructor; intros dy c I; cbn in I; repeat (destruct I as [I|I]; [injection I as <- <-; ub|]); contradiction
  | |- unbroken (Block _ _ _) => constructor;
     [ intros c r Ecs; first [discriminate | injection Ecs as <- <-]; intros d I S; cbn in I; repeat (destruct I as [I|I]; [subst d; reflexivity|]); contradiction
     | intros c I S; cbn in I; repeat (destruct I as [I|I]; [subst c; clear S; ub|]); contradiction ]
  end.
Ltac fl := match goal with
  | |- flowing (text _ _) => unfold text; fl
  | |- flowing (Mono _ _ _ _) => constructor; intros dy c I; cbn in I; repeat (destruct I as [I|I]; [injection I as <- <-; ub|]); contradiction
  | |- flowing (Block _ _ _) => constructor; [reflexivity| | |];
     [ intros c I; cbn in I; repeat (destruct I as [I|I]; [subst c; split; reflexivity|]); contradiction
     | intros c I S; cbn in I; repeat (destruct I as [I|I]; [subst c; clear S; fl|]); contradiction
     | intros l c El; try (destruct l; discriminate);
       repeat (destruct l as [|? l]; cbn in El; [injection El as <-; split; [discriminate|reflexivity]|injection El as _ El]); destruct l; discriminate ]
  end.
Ltac rm := match goal with
  | |- room _ _ _ (text _ _) => unfold text; rm
  | |- room _ _ _ (Mono _ _ _ _) => apply room_mono; vm_compute; discriminate
  | |- room _ _ _ (Block _ _ _) => apply room_block;
     [ vm_compute; discriminate
     | intros Ecs h Eh; first [discriminate Ecs | discriminate Eh | injection Eh as <-; vm_compute; discriminate]
     | intros c I S; cbn [In] in I; repeat (destruct I as [I|I]; [subst c; clear S; rm|]); contradiction ]
  end.
Example C26_sample : flowing sample /\ single_child sample /\ (forall k, room (snd (sample_pages k)) (fst (sample_pages k)) 0 sample) /\
  printed_ids (print 20 sample_pages sample) = Ok [[3; 4]; [5; 7; 8; 9; 11]; [13]; [14; 15]]%nat.
Proof.
  split; [unfold sample; fl|]. split; [cbn; lia|]. split; [|vm_compute; reflexivity].
  intros k. unfold sample_pages. destruct (Nat.eqb k 1); cbn [fst snd]; unfold sample; rm.
Qed.

(** ** What the full statement says, and the documents that break it *)
Definition C26_statement (g : geometry) (root : box) : Prop :=
  exists fuel pages, print fuel g root = Ok pages /\ flat_map (flat_map printed) pages = content root.
Definition same_pages (t h : Q) : geometry := fun _ => (t, h).

Definition page_end (t h : Q) (root : box) (p : bp) : bool * option bp :=
  let o := layout DISCOVERY h root t 0 (Some p) None in (o_complete o, o_bp o).
(** Break points that only lead to each other. *)
Lemma stuck t h root (ps : list bp) :
  (forall p, In p ps -> exists p', In p' ps /\ page_end t h root p = (false, Some p')) ->
  forall fuel k p, In p ps -> collect fuel (same_pages t h) root k p = OutOfFuel.
Proof.
  intros H. induction fuel as [|fuel IH]; intros k p Hp; [reflexivity|]. cbn [collect]. unfold same_pages at 1.
  destruct (H p Hp) as (p' & Hp' & E). unfold page_end in E. injection E as -> ->. now rewrite IH.
Qed.
Lemma stuck_print t h root ps :
  (forall p, In p (start_of_document :: ps) -> exists p', In p' (start_of_document :: ps) /\ page_end t h root p = (false, Some p')) ->
  forall fuel, print fuel (same_pages t h) root = OutOfFuel.
Proof. intros H fuel. unfold print. rewrite (stuck t h root _ H) by now left. reflexivity. Qed.
Lemma wrong_pages g root fuel pages : print fuel g root = Ok pages -> flat_map (flat_map printed) pages <> content root ->
  ~ C26_statement g root.
Proof.
  intros E N (fuel' & pages' & E' & C). apply N. enough (pages = pages') by congruence.
  enough (forall f1 f2 k p l1 l2, collect f1 g root k p = Ok l1 -> collect f2 g root k p = Ok l2 -> l1 = l2) as K.
  { unfold print in E, E'. destruct (collect fuel g root 1 start_of_document) eqn:A; try discriminate.
    destruct (collect fuel' g root 1 start_of_document) eqn:B; try discriminate.
    pose proof (K _ _ _ _ _ _ A B). subst. cbn in E, E'. congruence. }
  clear. induction f1 as [|f1 IH]; intros [|f2] k p l1 l2 E1 E2; try discriminate. cbn [collect] in E1, E2.
  destruct (g k). destruct (o_complete _); [congruence|]. destruct (o_bp _) as [b|]; [|discriminate].
  destruct (collect f1 _ _ _ _) eqn:A; try discriminate. destruct (collect f2 _ _ _ _) eqn:B; try discriminate.
  pose proof (IH _ _ _ _ _ A B). subst. cbn in E1, E2. congruence.
Qed.

Definition body (s : style) (cs : list box) : box := Block 0 (plain 0 0) [Block 1 s cs].
Definition brk (b a : BlockModel.between) (i : inside) : style := mkStyle b a i 0 0 0 0 None STATIC false false.

(** Printing never ends: a page whose top margin is larger than its content area; a box whose own
    padding does not fit; a forced break after the last paragraph; an empty box taller than a page;
    a running element at the end. *)
Theorem C26_endless_refuted :
  (forall fuel, print fuel (same_pages 60 50) (body (plain 0 0) [text 2 10]) = OutOfFuel) /\
  (forall fuel, print fuel (same_pages 20 100) (body (mkStyle B_AUTO B_AUTO I_AUTO 0 0 50 50 None STATIC false false) [text 2 10]) = OutOfFuel) /\
  (forall fuel, print fuel (same_pages 20 100) (body (plain 0 0) [text 2 10; Mono 3 (brk B_AUTO B_PAGE I_AUTO) 10 []]) = OutOfFuel) /\
  (forall fuel, print fuel (same_pages 20 100) (body (plain 0 0) [Block 2 (mkStyle B_AUTO B_AUTO I_AUTO 0 0 0 0 (Some 90) STATIC false false) []]) = OutOfFuel) /\
  (forall fuel, print fuel (same_pages 20 100) (body (plain 0 0) [text 2 10; Mono 3 (mkStyle B_AUTO B_AUTO I_AUTO 0 0 0 0 None RUNNING false false) 10 []]) = OutOfFuel).
Proof.
  assert (forall (P : bp -> Prop) l, Forall P l -> forall p, In p l -> P p) as K by (intros P l H p; apply Forall_forall; exact H).
  repeat split.
  - apply stuck_print with (ps := [overflow]). apply K. repeat constructor; eexists; (split; [|vm_compute; reflexivity]); vm_compute; tauto.
  - apply stuck_print with (ps := [from_child overflow 1 false]). apply K.
    repeat constructor; eexists; (split; [|vm_compute; reflexivity]); vm_compute; tauto.
  - apply stuck_print with (ps := [from_child (forced 2) 1 false; from_child bp_default 1 false]). apply K.
    repeat constructor; eexists; (split; [|vm_compute; reflexivity]); vm_compute; tauto.
  - apply stuck_print with (ps := [from_child (from_child overflow 1 false) 1 false]). apply K.
    repeat constructor; eexists; (split; [|vm_compute; reflexivity]); vm_compute; tauto.
  - apply stuck_print with (ps := [from_child (class_b 1 false) 1 false; from_child bp_default 1 false]). apply K.
    repeat constructor; eexists; (split; [|vm_compute; reflexivity]); vm_compute; tauto.
Qed.
Print Assumptions C26_endless_refuted.

(** Content is printed twice: a heading that must stay with what follows it, at the bottom of one
    page and at the top of the next; the last line of a block that must not be broken. *)
Theorem C26_repeated_refuted :
  printed_ids (print 10 (same_pages 20 100) (body (plain 0 0) [text 2 80; Mono 3 (brk B_AUTO B_AVOID I_AUTO) 10 []; text 5 10])) =
    Ok [[2; 3]; [3; 5]]%nat /\
  printed_ids (print 10 (same_pages 20 100) (body (brk B_AUTO B_AUTO I_AVOID) [text 2 50; text 3 50; text 5 10])) =
    Ok [[2; 3; 5]; [5]]%nat /\
  ~ C26_statement (same_pages 20 100) (body (plain 0 0) [text 2 80; Mono 3 (brk B_AUTO B_AVOID I_AUTO) 10 []; text 5 10]).
Proof.
  split; [vm_compute; reflexivity|]. split; [vm_compute; reflexivity|].
  eapply wrong_pages with (fuel := 10%nat); [vm_compute; reflexivity|vm_compute; discriminate].
Qed.
Print Assumptions C26_repeated_refuted.

(** Content is lost: the second child of the root, and what follows a forced break inside an
    unbreakable box. *)
Theorem C26_lost_refuted :
  printed_ids (print 10 (same_pages 20 100) (Block 0 (plain 0 0) [text 1 10; text 2 10])) = Ok [[1]]%nat /\
  printed_ids (print 10 (same_pages 20 100)
    (body (plain 0 0) [Mono 2 (plain 0 0) 20 [(0, Block 3 (plain 0 0) [text 4 10; Mono 5 (brk B_PAGE B_AUTO I_AUTO) 10 []])]])) = Ok [[2; 4]]%nat /\
  ~ C26_statement (same_pages 20 100) (Block 0 (plain 0 0) [text 1 10; text 2 10]).
Proof.
  split; [vm_compute; reflexivity|]. split; [vm_compute; reflexivity|].
  eapply wrong_pages with (fuel := 10%nat); [vm_compute; reflexivity|vm_compute; discriminate].
Qed.
Print Assumptions C26_lost_refuted.

(** ** C62: forced breaks start a new page.

    Full statement: a box with a forced break before it is the first content of its page, and one
    with a forced break after it the last.

    Missing: the theorem is about the children of each block. A break before the first child of a
    block that has content before it is not carried over to the block: see the refutation. *)
Theorem C62_forced_breaks_partial g root : flowing root -> single_child root -> (forall k, room (snd (g k)) (fst (g k)) 0 root) ->
  exists pages, (forall fuel, (boxes root <= fuel)%nat -> print fuel g root = Ok pages) /\
    flat_map (flat_map printed) pages = content root /\
    forall page f, In page pages -> In f page -> respects f.
Proof. intros Hf Hone Hr. destruct (pagination g root Hf Hone Hr) as (pages & A & B & C & D). eauto. Qed.
Print Assumptions C62_forced_breaks_partial.

(** The title of a section, with a page break before it, is on the page of the end of the section
    before it. *)
Theorem C62_forced_breaks_refuted : let d := body (plain 0 0) [text 2 10; Block 3 (plain 0 0) [Mono 4 (brk B_PAGE B_AUTO I_AUTO) 10 []; text 5 10]] in
  flowing d /\ single_child d /\ (forall k, room (snd (same_pages 20 100 k)) (fst (same_pages 20 100 k)) 0 d) /\
  printed_ids (print 10 (same_pages 20 100) d) = Ok [[2; 4; 5]]%nat.
Proof.
  cbv zeta. unfold body, brk. split; [fl|]. split; [cbn; lia|]. split; [|vm_compute; reflexivity]. intros k. cbn [same_pages fst snd]. rm.
Qed.
Print Assumptions C62_forced_breaks_refuted.

(** ** C63: the content of a page is inside its content area.

    A page whose content area starts at [t] and is [h] high prints from [t] to [t + h]. Two
    paragraphs of 60 on pages with an area of 100 from 20: the second one is printed on the first
    page, from 80 to 140, over the bottom margin. Two paragraphs of 45 on pages with an area of 100
    from 60: the second one fits from 105 to 150, but is printed on another page. *)
Fixpoint edges (f : frag) : list (Q * Q) :=
  match f with
  | Frag (Mono _ _ _ _) top h _ => [(top, top + h)]
  | Frag _ _ _ fs => flat_map edges fs
  end.
Definition all_edges (r : outcome (list (list frag))) : outcome (list (list (Q * Q))) :=
  match r with Ok pages => Ok (map (fun p => map (fun e => (Qred (fst e), Qred (snd e))) (flat_map edges p)) pages) | Panic => Panic | OutOfFuel => OutOfFuel end.
Theorem C63_page_area_refuted :
  all_edges (print 5 (same_pages 20 100) (body (plain 0 0) [text 2 60; text 3 60])) = Ok [[(20, 80); (80, 140)]] /\
  all_edges (print 5 (same_pages 60 100) (body (plain 0 0) [text 2 45; text 3 45])) = Ok [[(60, 105)]; [(60, 105)]].
Proof. split; vm_compute; reflexivity. Qed.
Print Assumptions C63_page_area_refuted.
