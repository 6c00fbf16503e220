(** A whole document: from its tokens to its tree. *)
From Coq Require Import String List Arith Bool NArith Lia Permutation.
From Verif.Base Require Import Str.
From Verif.Html Require Import LexerModel SerialModel SerialSpec SerialProofs BuildModel BuildSpec BuildDom BuildSteps BuildTags BuildStart BuildEnd BuildRun BuildTable BuildTree LexerSink.
Import ListNotations.
Local Open Scope list_scope.
Local Infix ";;" := seq (at level 61, right associativity).

Lemma add_nodes_app d p a b : add_nodes d p (a ++ b) = add_nodes (add_nodes d p a) p b.
Proof. unfold add_nodes. apply fold_left_app. Qed.
Lemma add_nodes_length d p ns : p < length d -> length d <= length (add_nodes d p ns).
Proof. intros H. destruct (add_nodes_reads ns d p H) as (new & G & _). apply G. Qed.

(** ** Outside of the html element *)
Lemma enter_empty f t s d m sw : 1 <= f -> good d [] m None false sw s ->
  exists f', f = S f' /\ dispatch f None t s = rules (dispatch f' None) (fun m => dispatch f' (Some m)) m t s.
Proof.
  intros Hf G. destruct f as [|f]; [lia|]. exists f. split; [reflexivity|]. cbn [dispatch]. rewrite (g_skip _ _ _ _ _ _ _ G). cbn [andb].
  unfold in_html_content. cbn [set_skip s_stack s_mode]. rewrite (g_stack _ _ _ _ _ _ _ G), (g_mode _ _ _ _ _ _ _ G).
  assert (set_skip false s = s) as ->; [|reflexivity]. pose proof (g_skip _ _ _ _ _ _ _ G) as E. destruct s. cbn in E. rewrite E. reflexivity.
Qed.

Lemma doc_append d m s sk sw k x : good d k m None sk sw s -> 0 < length d -> good (put_under d 0 x) k m None sk sw (append_to_document x s).
Proof. intros G Hl. unfold append_to_document. rewrite (g_dom _ _ _ _ _ _ _ G), append_new by exact Hl. destruct G. constructor; auto. Qed.

Lemma first_comments ns d sk sw s : Forall is_comment_node ns -> good d [] INITIAL None sk sw s -> 0 < length d ->
  exists s', runs (flat_map toks ns) s s' /\ exists sk' sw', good (add_nodes d 0 ns) [] INITIAL None sk' sw' s'.
Proof.
  intros H. revert d sk sw s. induction H as [|n ns (w & ->) _ IH]; intros d sk sw s G Hl; [exists s; split; [constructor|eauto]|].
  destruct (step_good (comment_token w) d [] INITIAL None sk sw s (fun s' => good (put_under d 0 (KComment w)) [] INITIAL None false None s') eq_refl G) as (s1 & E1 & G1).
  { intros f s0 Hf G0. destruct (enter_empty f (comment_token w) s0 d INITIAL None ltac:(lia) G0) as (f' & _ & E). rewrite E. cbn [rules].
    eexists. split; [reflexivity|]. apply doc_append; assumption. }
  destruct (IH _ _ _ _ G1) as (s2 & R2 & G2); [rewrite length_put; lia|]. exists s2. split; [|exact G2].
  cbn [flat_map toks app]. econstructor; [|exact R2]. split; [exact E1|discriminate].
Qed.
Lemma the_doctype w d sk sw s : good d [] INITIAL None sk sw s -> 0 < length d ->
  exists s', runs [doctype_token w] s s' /\ exists sk' sw', good (add_node d 0 (Doctype w)) [] BEFORE_HTML None sk' sw' s'.
Proof.
  intros G Hl.
  destruct (step_good (doctype_token w) d [] INITIAL None sk sw s (fun s' => good (put_under d 0 (KDoctype w [] [])) [] BEFORE_HTML None false None s') eq_refl G) as (s1 & E1 & G1).
  { intros f s0 Hf G0. destruct (enter_empty f (doctype_token w) s0 d INITIAL None ltac:(lia) G0) as (f' & _ & E). rewrite E. cbn [rules].
    eexists. split; [reflexivity|]. eapply good_mode, doc_append; eassumption. }
  exists s1. split; [apply runs_one; split; [exact E1|discriminate]|eauto].
Qed.

Definition html_n : str := of_string "html".
Definition head_n : str := of_string "head".
Definition body_n : str := of_string "body".
Lemma html_open a d m sk sw s : m = INITIAL \/ m = BEFORE_HTML -> good d [] m None sk sw s -> 0 < length d -> attrs_ok a ->
  exists s', runs [stag html_n a] s s' /\ good (put_under d 0 (KElement (hq html_n) a)) [opening d html_n] BEFORE_HEAD None false None s'.
Proof.
  intros Hm G Hl Ha.
  assert (forall f s0, 5 <= f -> good d [] BEFORE_HTML None false None s0 -> exists s', dispatch f None (stag html_n a) s0 = Done s' /\ good (put_under d 0 (KElement (hq html_n) a)) [opening d html_n] BEFORE_HEAD None false None s') as H.
  { intros f s0 Hf G0. destruct (enter_empty f (stag html_n a) s0 d BEFORE_HTML None ltac:(lia) G0) as (f' & _ & E). rewrite E. cbn [rules].
    change (on_before_html (dispatch f' None) (stag html_n a) s0) with
      (((fun s => andthen (create_for (stag html_n a) html_ns (s_dom s)) (fun r => Done (set_stack (fst r :: s_stack s) (set_dom (append_child (snd r) 0 (e_id (fst r))) s)))) ;; switch_to BEFORE_HEAD) s0).
    unfold seq, create_for. cbn [stag tag_token t_name andthen fst snd e_id]. fold (stag html_n a).
    change (fold_left _ (t_attrs _) []) with (attrs_of_token (stag html_n a)). unfold stag. rewrite attrs_token by exact Ha.
    rewrite (g_dom _ _ _ _ _ _ _ G0), append_new by exact Hl. rewrite (g_stack _ _ _ _ _ _ _ G0). unfold switch_to, pure.
    eexists. split; [reflexivity|]. destruct G0 as [G1 G2 G3 G4 G5 G6 G7 G8 G9 G10]. constructor; flds; auto.
    apply act_plain; [reflexivity|reflexivity|exact G3]. }
  destruct (step_good (stag html_n a) d [] m None sk sw s (fun s' => good (put_under d 0 (KElement (hq html_n) a)) [opening d html_n] BEFORE_HEAD None false None s') eq_refl G) as (s1 & E1 & G1).
  { intros f s0 Hf G0. destruct Hm as [->| ->]; [|apply H; [lia|exact G0]].
    destruct (enter_empty f (stag html_n a) s0 d INITIAL None ltac:(lia) G0) as (f' & -> & E). rewrite E. cbn [rules].
    change (on_initial (dispatch f' None) (stag html_n a) s0) with (dispatch f' None (stag html_n a) (set_mode BEFORE_HTML s0)).
    apply H; [lia|]. eapply good_mode. exact G0. }
  exists s1. split; [|exact G1]. apply runs_one. split; [exact E1|]. intros _ n En. injection En as <-. apply (g_switch _ _ _ _ _ _ _ G1).
Qed.
Lemma wfk_root d a : 0 < length d -> wfk (put_under d 0 (KElement (hq html_n) a)) [opening d html_n].
Proof.
  intros H. split; [split|].
  - repeat constructor. intros [].
  - repeat constructor. cbn [opening e_id]. rewrite length_put. lia.
  - repeat constructor. exists a. cbn [opening e_id e_name]. unfold kind_of. rewrite nth_put_new. reflexivity.
Qed.

(** ** In the html element *)
Definition html_mode (m : mode) : Prop := m = BEFORE_HEAD \/ m = AFTER_HEAD.
Lemma comment_between w d k m hd sk sw s : html_mode m -> good d k m hd sk sw s -> top_html k -> wfk d k ->
  exists s', runs [comment_token w] s s' /\ good (put_under d (top k) (KComment w)) k m hd false None s'.
Proof.
  intros Hm G Hh Hw.
  destruct (step_good (comment_token w) d k m hd sk sw s (fun s' => good (put_under d (top k) (KComment w)) k m hd false None s') eq_refl G) as (s1 & E1 & G1).
  { intros f s0 Hf G0. destruct (comment_insert _ _ _ _ _ _ _ w G0 (top_html_ne _ Hh) Hw) as (s' & E & G'). exists s'. split; [|exact G'].
    destruct (enter_rules f (comment_token w) _ _ _ _ _ _ ltac:(lia) G0 Hh) as (f' & _ & E'). rewrite E'. destruct Hm as [->| ->]; exact E. }
  exists s1. split; [|exact G1]. apply runs_one. split; [exact E1|discriminate].
Qed.
Lemma between_run m ns : m = BEFORE_HEAD /\ Forall is_comment_node ns \/ m = AFTER_HEAD /\ Forall blank_or_comment ns ->
  forall d k hd sk sw s, good d k m hd sk sw s -> top_html k -> wfk d k -> no_double_text ns = true ->
  sk = false -> (forall n r, ns = n :: r -> is_text n = true -> ends_in_text d (top k) = false) ->
  exists s', runs (flat_map toks ns) s s' /\ exists sw', good (add_nodes d (top k) ns) k m hd false sw' s'.
Proof.
  intros Hns. assert (html_mode m) as Hm by (destruct Hns as [[-> _]|[-> _]]; unfold html_mode; auto).
  assert (Forall (fun n => is_comment_node n \/ m = AFTER_HEAD /\ exists w, n = Text w /\ w <> [] /\ Forall blank w) ns) as H.
  { destruct Hns as [[-> H]|[-> H]]; (eapply Forall_impl; [|exact H]); cbn; intros n Hn; auto. destruct Hn; auto. }
  clear Hns. induction H as [|n ns Hn _ IH]; intros d k hd sk sw s G Hh Hw Hd -> Hx; [exists s; split; [constructor|eauto]|].
  cbn [no_double_text] in Hd. apply andb_true_iff in Hd as [Hd1 Hd2]. pose proof (top_html_ne _ Hh) as Hne.
  assert (exists s1, runs (toks n) s s1 /\ good (add_node d (top k) n) k m hd false None s1) as (s1 & R1 & G1).
  { destruct Hn as [(w & ->)|(-> & w & -> & Hw1 & Hw2)]; [cbn [toks add_node]; eapply comment_between; eauto|].
    destruct (text_run k AFTER_HEAD hd w) with (d := d) (sk := false) (sw := sw) (s := s) as (s1 & R1 & G1 & _); auto.
    - eapply Forall_impl; [|exact Hw2]. intros c Hc. apply char_blank; auto.
    - discriminate.
    - eapply Hx; reflexivity.
    - eauto. }
  destruct (IH _ _ _ _ _ _ G1 Hh) as (s2 & R2 & G2); auto.
  - apply wfk_add; assumption.
  - intros x r -> Hx1. rewrite (ends_add _ _ _ (wfk_top _ _ Hw Hne)). rewrite Hx1, andb_true_r in Hd1. now apply negb_true_iff in Hd1.
  - exists s2. split; [|exact G2]. cbn [flat_map]. eapply runs_app; eauto.
Qed.

Lemma head_open a d e sw s : good d [e] BEFORE_HEAD None false sw s -> e_name e = hq html_n -> wfk d [e] -> attrs_ok a ->
  exists s', runs [stag head_n a] s s' /\ good (opened d [e] head_n a) [opening d head_n; e] IN_HEAD (Some (opening d head_n)) false None s'.
Proof.
  intros G He Hw Ha. assert (top_html [e]) as Hh by (cbn; rewrite He; reflexivity).
  destruct (step_good (stag head_n a) d [e] BEFORE_HEAD None false sw s (fun s' => good (opened d [e] head_n a) [opening d head_n; e] IN_HEAD (Some (opening d head_n)) false None s') eq_refl G) as (s1 & E1 & G1).
  { intros f s0 Hf G0. destruct (enter_rules f (stag head_n a) _ _ _ _ _ _ ltac:(lia) G0 Hh) as (f' & _ & E'). rewrite E'. cbn [rules].
    change (on_before_head _ _ (stag head_n a) s0) with (insert_head (stag head_n a) s0). unfold insert_head.
    rewrite (insert_stag _ _ _ _ _ _ _ head_n a G0 ltac:(discriminate) (proj1 Hw) Ha). cbn [andthen fst snd].
    eexists. split; [reflexivity|]. destruct G0 as [G1 G2 G3 G4 G5 G6 G7 G8 G9 G10]. constructor; flds; auto.
    apply act_plain; [reflexivity|reflexivity|exact G3]. }
  exists s1. split; [|exact G1]. apply runs_one. split; [exact E1|]. intros _ n En. injection En as <-. apply (g_switch _ _ _ _ _ _ _ G1).
Qed.
Lemma head_close d e k hd s : (exists sk sw, good d (e :: k) IN_HEAD hd sk sw s) -> e_name e = hq head_n ->
  exists s', runs [etag head_n] s s' /\ good d k AFTER_HEAD hd false None s'.
Proof.
  intros (sk & sw & G) He. assert (top_html (e :: k)) as Hh by (cbn; rewrite He; reflexivity).
  destruct (step_good (etag head_n) d (e :: k) IN_HEAD hd sk sw s (fun s' => good d k AFTER_HEAD hd false None s') eq_refl G) as (s1 & E1 & G1).
  { intros f s0 Hf G0. destruct (enter_rules f (etag head_n) _ _ _ _ _ _ ltac:(lia) G0 Hh) as (f' & _ & E'). rewrite E'. cbn [rules].
    change (on_in_head _ _ (etag head_n) s0) with ((pop ;; switch_to AFTER_HEAD) s0).
    destruct (pop_plain _ _ _ _ _ _ _ _ G0) as (s1 & E1 & G1); [unfold ename; rewrite He; repeat split; reflexivity|]. unfold seq. rewrite E1. cbn [andthen].
    eexists. split; [reflexivity|]. eapply good_mode. exact G1. }
  exists s1. split; [|exact G1]. apply runs_one. split; [exact E1|discriminate].
Qed.
Lemma body_open a d e hd sw s : good d [e] AFTER_HEAD hd false sw s -> e_name e = hq html_n -> wfk d [e] -> attrs_ok a ->
  exists s', runs [stag body_n a] s s' /\ good (opened d [e] body_n a) [opening d body_n; e] IN_BODY hd false None s'.
Proof.
  intros G He Hw Ha. assert (top_html [e]) as Hh by (cbn; rewrite He; reflexivity).
  destruct (step_good (stag body_n a) d [e] AFTER_HEAD hd false sw s (fun s' => good (opened d [e] body_n a) [opening d body_n; e] IN_BODY hd false None s') eq_refl G) as (s1 & E1 & G1).
  { intros f s0 Hf G0. destruct (enter_rules f (stag body_n a) _ _ _ _ _ _ ltac:(lia) G0 Hh) as (f' & _ & E'). rewrite E'. cbn [rules].
    change (on_after_head _ _ (stag body_n a) s0) with ((insert_ (stag body_n a) ;; frameset_not_ok ;; switch_to IN_BODY) s0).
    destruct (insert_plain _ _ _ _ _ _ _ body_n a G0 ltac:(discriminate) (proj1 Hw) Ha) as (s1 & E1 & G1); [repeat split; reflexivity|]. unfold seq. rewrite E1. cbn [andthen].
    eexists. split; [reflexivity|]. eapply good_mode, good_frameset. exact G1. }
  exists s1. split; [|exact G1]. apply runs_one. split; [exact E1|]. intros _ n En. injection En as <-. apply (g_switch _ _ _ _ _ _ _ G1).
Qed.
Lemma body_close d b e hd s : (exists sk sw, good d [b; e] IN_BODY hd sk sw s) -> e_name b = hq body_n ->
  exists s', runs [etag body_n; etag html_n; new_token T_END_OF_FILE] s s' /\ s_dom s' = d.
Proof.
  intros (sk & sw & G) Hb. assert (top_html [b; e]) as Hh by (cbn; rewrite Hb; reflexivity).
  destruct (step_good (etag body_n) d [b; e] IN_BODY hd sk sw s (fun s' => good d [b; e] AFTER_BODY hd false None s') eq_refl G) as (s1 & E1 & G1).
  { intros f s0 Hf G0. destruct (enter_rules f (etag body_n) _ _ _ _ _ _ ltac:(lia) G0 Hh) as (f' & _ & E'). rewrite E'. cbn [rules].
    assert (on_in_body (dispatch f' None) (fun m => dispatch f' (Some m)) (etag body_n) s0 = Done (set_mode AFTER_BODY s0)) as ->.
    { change (on_in_body (dispatch f' None) (fun m => dispatch f' (Some m)) (etag body_n) s0) with
        (branch (in_scope (h "body")) (switch_to AFTER_BODY ;; (if named ["html"]%string (etag body_n) then dispatch f' None (etag body_n) else nop)) nop s0).
      unfold branch, in_scope, has_in. rewrite (g_stack _ _ _ _ _ _ _ G0). cbn [scope_loop]. rewrite Hb. reflexivity. }
    eexists. split; [reflexivity|]. eapply good_mode. exact G0. }
  destruct (step_good (etag html_n) d [b; e] AFTER_BODY hd false None s1 (fun s' => good d [b; e] AFTER_AFTER_BODY hd false None s') eq_refl G1) as (s2 & E2 & G2).
  { intros f s0 Hf G0. destruct (enter_rules f (etag html_n) _ _ _ _ _ _ ltac:(lia) G0 Hh) as (f' & _ & E'). rewrite E'. cbn [rules].
    eexists. split; [reflexivity|]. eapply good_mode. exact G0. }
  destruct (step_good (new_token T_END_OF_FILE) d [b; e] AFTER_AFTER_BODY hd false None s2 (fun s' => good d [b; e] AFTER_AFTER_BODY hd false None s') eq_refl G2) as (s3 & E3 & G3).
  { intros f s0 Hf G0. destruct (enter_rules f (new_token T_END_OF_FILE) _ _ _ _ _ _ ltac:(lia) G0 Hh) as (f' & _ & E'). rewrite E'. cbn [rules].
    eexists. split; [reflexivity|]. exact G0. }
  exists s3. split; [|apply (g_dom _ _ _ _ _ _ _ G3)]. econstructor; [split; [exact E1|discriminate]|]. econstructor; [split; [exact E2|discriminate]|]. apply runs_one. split; [exact E3|discriminate].
Qed.

Definition dom0 : dom := [mkNode KDocument None []].
Lemma document_add s ns : s_dom s = add_nodes dom0 0 ns -> document s = ns.
Proof.
  intros E. unfold document. rewrite E. destruct (add_nodes_reads ns dom0 0 ltac:(cbn; lia)) as (new & (G1 & G2 & G3 & G4) & R).
  eapply reads_document; [exact G2| |exact R|lia]. eapply Forall_impl; [|exact G4]. cbn. intros; lia.
Qed.

Theorem document_run doc : conforming doc -> Forall expressible doc ->
  exists s', runs (flat_map toks doc ++ [new_token T_END_OF_FILE]) st_init s' /\ document s' = doc.
Proof.
  intros Hc He. destruct Hc as [comments doctype before between a1 a2 a3 head body Hco Hdt Hbe Hbt Hbd Hhd Hhf Hbod Hbf].
  apply Forall_app in He as [_ He]. apply Forall_app in He as [_ He]. inversion He as [|? ? Hx _]; subst. clear He. unfold html_node in Hx.
  cbn [expressible] in Hx. destruct Hx as (_ & Ha1 & Hx). change (void_element _) with false in Hx. change (mode_of (q_name _)) with (@None text_mode) in Hx. cbn iota in Hx.
  destruct Hx as [_ Hx]. apply fold_conj in Hx. apply Forall_app in Hx as [_ Hx]. inversion Hx as [|? ? Hhe Hx']; subst. clear Hx. apply Forall_app in Hx' as [_ Hx2].
  inversion Hx2 as [|? ? Hbo _]; subst. clear Hx2.
  cbn [expressible] in Hhe, Hbo. destruct Hhe as (_ & Ha2 & Hhe). destruct Hbo as (_ & Ha3 & Hbo).
  change (void_element _) with false in Hhe, Hbo. change (mode_of (q_name _)) with (@None text_mode) in Hhe, Hbo. cbn iota in Hhe, Hbo.
  destruct Hhe as [_ Hhe]. destruct Hbo as [_ Hbo]. apply fold_conj in Hhe, Hbo.
  assert (good dom0 [] INITIAL None false None st_init) as G0 by (constructor; try reflexivity; constructor).
  destruct (first_comments comments dom0 _ _ _ Hco G0 ltac:(cbn; lia)) as (s1 & R1 & sk1 & sw1 & G1).
  set (d1 := add_nodes dom0 0 comments) in *. assert (0 < length d1) as L1 by (pose proof (add_nodes_length dom0 0 comments ltac:(cbn; lia)) as L; cbn [dom0 length] in L; unfold d1; lia).
  assert (exists s2 m2 sk2 sw2, runs (flat_map toks doctype) s1 s2 /\ (m2 = INITIAL \/ m2 = BEFORE_HTML) /\ good (add_nodes d1 0 doctype) [] m2 None sk2 sw2 s2) as (s2 & m2 & sk2 & sw2 & R2 & Hm2 & G2).
  { destruct Hdt as [->|(w & ->)].
    - exists s1, INITIAL, sk1, sw1. split; [constructor|]. split; [auto|exact G1].
    - destruct (the_doctype w _ _ _ _ G1 L1) as (s2 & R2 & sk2 & sw2 & G2). exists s2, BEFORE_HTML, sk2, sw2. split; [exact R2|]. split; [auto|exact G2]. }
  set (d2 := add_nodes d1 0 doctype) in *. assert (0 < length d2) as L2 by (pose proof (add_nodes_length d1 0 doctype L1); unfold d2; lia).
  destruct (html_open a1 _ _ _ _ _ Hm2 G2 L2 Ha1) as (s3 & R3 & G3). set (e := opening d2 html_n) in *. set (d3 := put_under d2 0 (KElement (hq html_n) a1)) in *.
  assert (wfk d3 [e]) as W3 by (apply wfk_root, L2). assert (top_html [e]) as Hh by reflexivity.
  destruct (between_run BEFORE_HEAD before (or_introl (conj eq_refl Hbe)) _ _ _ _ _ _ G3 Hh W3) as (s4 & R4 & sw4 & G4); auto.
  { clear -Hbe. induction Hbe as [|n ns (w & ->) _ IH]; [reflexivity|exact IH]. }
  { intros n r -> Ht. inversion Hbe as [|? ? (w & ->) _]; subst. discriminate. }
  set (d4 := add_nodes d3 (top [e]) before) in *. assert (wfk d4 [e]) as W4 by (apply wfk_adds; [exact W3|discriminate]).
  destruct (head_open a2 _ _ _ _ G4 eq_refl W4 Ha2) as (s5 & R5 & G5). set (eh := opening d4 head_n) in *.
  assert (wfk (opened d4 [e] head_n a2) [eh; e]) as W5 by (apply wfk_opened; [exact W4|discriminate]).
  destruct (nodes_ok Head head) with (path := [head_n; html_n]) (k := [eh; e]) (d := opened d4 [e] head_n a2) (hd := Some eh) (s := s5) as (s6 & R6 & S6); auto.
  { apply Forall_forall. intros x _. apply every_node. }
  { eapply at_good. exact G5. }
  { apply at_head. }
  { reflexivity. }
  { rewrite (g_skip _ _ _ _ _ _ _ G5). discriminate. }
  { intros n r _ _. apply ends_new. }
  set (d6 := add_nodes (opened d4 [e] head_n a2) (top [eh; e]) head) in *. assert (wfk d6 [eh; e]) as W6 by (apply wfk_adds; [exact W5|discriminate]).
  destruct (head_close _ _ _ _ _ S6 eq_refl) as (s7 & R7 & G7).
  assert (d6 = add_node d4 (top [e]) (Element (hq head_n) a2 head)) as E6 by reflexivity.
  assert (wfk d6 [e]) as W6' by (apply wfk_tail in W6; exact W6).
  destruct (between_run AFTER_HEAD between (or_intror (conj eq_refl Hbt)) _ _ _ _ _ _ G7 Hh W6') as (s8 & R8 & sw8 & G8); auto.
  { intros n r _ _. rewrite E6, ends_add; [reflexivity|]. apply (wfk_top d4 [e] W4). discriminate. }
  set (d8 := add_nodes d6 (top [e]) between) in *. assert (wfk d8 [e]) as W8 by (apply wfk_adds; [exact W6'|discriminate]).
  destruct (body_open a3 _ _ _ _ _ G8 eq_refl W8 Ha3) as (s9 & R9 & G9). set (eb := opening d8 body_n) in *.
  assert (wfk (opened d8 [e] body_n a3) [eb; e]) as W9 by (apply wfk_opened; [exact W8|discriminate]).
  destruct (nodes_ok Flow body) with (path := [body_n; html_n]) (k := [eb; e]) (d := opened d8 [e] body_n a3) (hd := Some eh) (s := s9) as (s10 & R10 & S10); auto.
  { apply Forall_forall. intros x _. apply every_node. }
  { eapply at_good. exact G9. }
  { apply at_body. }
  { reflexivity. }
  { rewrite (g_skip _ _ _ _ _ _ _ G9). discriminate. }
  { intros n r _ _. apply ends_new. }
  destruct (body_close _ _ _ _ _ S10 eq_refl) as (s11 & R11 & E11).
  exists s11. split.
  - rewrite !flat_map_app. cbn [flat_map]. rewrite app_nil_r. unfold html_node at 1. cbn [toks q_name]. change (void_element (mkQName (Some (of_string "http://www.w3.org/1999/xhtml")) (of_string "html"))) with false. cbn iota.
    rewrite !flat_map_app. cbn [flat_map]. rewrite !app_nil_r. unfold html_node. cbn [toks q_name].
    change (void_element (mkQName (Some (of_string "http://www.w3.org/1999/xhtml")) (of_string "head"))) with false.
    change (void_element (mkQName (Some (of_string "http://www.w3.org/1999/xhtml")) (of_string "body"))) with false. cbn iota.
    repeat (rewrite <- app_assoc || rewrite <- app_comm_cons || rewrite app_nil_l).
    eapply runs_app; [exact R1|]. eapply runs_app; [exact R2|]. refine (runs_app [_] _ _ _ _ R3 _). eapply runs_app; [exact R4|]. refine (runs_app [_] _ _ _ _ R5 _).
    eapply runs_app; [exact R6|]. refine (runs_app [_] _ _ _ _ R7 _). eapply runs_app; [exact R8|]. refine (runs_app [_] _ _ _ _ R9 _). eapply runs_app; [exact R10|]. exact R11.
  - apply document_add. rewrite E11. rewrite !add_nodes_app. fold d1. fold d2. cbn [add_nodes fold_left]. unfold html_node at 1. rewrite add_element.
    rewrite !add_nodes_app. reflexivity.
Qed.

(** ** From a run to the tree builder as the sink of the tokenizer *)
Inductive bruns : list token -> st -> st -> Prop :=
| bruns_nil s : bruns [] s s
| bruns_cons t ts s s1 s2 : build1 t s = Done s1 -> (t_type t = T_START_TAG -> forall n, t_name t = Some n -> s_switch s1 = mode_of n) ->
    bruns ts s1 s2 -> bruns (t :: ts) s s2.
Lemma runs_bruns ts s s' : runs ts s s' -> bruns ts s s'.
Proof. induction 1 as [|t ts s s1 s2 [E Sw] _ IH]; [constructor|]. econstructor; [apply take1_build, E|exact Sw|exact IH]. Qed.
Lemma runs_build ts s s' : bruns ts s s' -> build ts s = Done s'.
Proof. induction 1 as [|t ts s s1 s2 E _ _ IH]; [reflexivity|]. cbn [build]. rewrite E. exact IH. Qed.
Lemma runs_app_inv ts us s s' : bruns (ts ++ us) s s' -> exists s1, bruns ts s s1 /\ bruns us s1 s'.
Proof.
  revert s. induction ts as [|t ts IH]; intros s H; [exists s; split; [constructor|exact H]|]. cbn [app] in H. inversion H as [|? ? ? s1 ? E Sw R]; subst.
  destruct (IH _ R) as (s2 & R1 & R2). exists s2. split; [econstructor; eauto|exact R2].
Qed.
Lemma runs_back ts : forall s', bruns ts st_init s' -> build_back (rev ts) = Done s'.
Proof.
  induction ts as [|t ts IH] using rev_ind; intros s' H; [inversion H; reflexivity|].
  destruct (runs_app_inv _ _ _ _ H) as (s1 & R1 & R2). rewrite rev_app_distr. cbn [rev app build_back]. rewrite (IH _ R1). cbn [andthen].
  inversion R2 as [|? ? ? s2 ? E _ R3]; subst. inversion R3; subst. exact E.
Qed.
Definition named_start (t : token) : Prop := t_type t = T_START_TAG -> exists n, t_name t = Some n.
Lemma runs_agree sink ts s' : by_name sink -> Forall named_start ts -> bruns ts st_init s' -> agree sink builder_sink (rev ts).
Proof.
  intros Hb Hn R p t r E Ht. assert (ts = rev r ++ t :: rev p) as E1.
  { rewrite <- (rev_involutive ts), E, rev_app_distr. cbn [rev]. rewrite <- app_assoc. reflexivity. }
  subst ts. apply Forall_app in Hn as [_ Hn]. inversion Hn as [|? ? Hn1 _]; subst. destruct (Hn1 Ht) as [n Hn2].
  rewrite (Hb t r n Ht Hn2). destruct (runs_app_inv _ _ _ _ R) as (s1 & R1 & R2). unfold builder_sink. cbn [build_back].
  rewrite <- (rev_involutive r), (runs_back _ _ R1). cbn [andthen]. inversion R2 as [|? ? ? s2 ? E2 E3 _]; subst. rewrite E2. symmetry. apply E3; assumption.
Qed.

(** ** The order of attributes does not matter *)
Lemma attrs_perm a b : Permutation a b -> attrs_ok a -> attrs_ok b.
Proof.
  intros P [H1 H2]. split; [eapply Permutation_Forall; eauto|]. eapply Permutation_NoDup; [|exact H2]. now apply Permutation_map.
Qed.
Lemma tokens_tree n : forall ts, token_list n ts -> exists n', same_tree n n' /\ ts = toks n'.
Proof.
  induction n as [w|w|w|q a ns IH] using node_induct; intros ts H; inversion H; subst.
  - exists (Text w). split; [constructor|reflexivity].
  - exists (Comment w). split; [constructor|reflexivity].
  - exists (Doctype w). split; [constructor|reflexivity].
  - match goal with P : Permutation (map local_attr a) ?l |- _ => destruct (Permutation_map_inv _ _ (Permutation_sym P)) as (a' & -> & P') end.
    exists (Element q a' []). split; [constructor; [exact P'|constructor]|]. cbn [toks]. match goal with V : void_element q = true |- _ => rewrite V end. reflexivity.
  - match goal with P : Permutation (map local_attr a) ?l |- _ => destruct (Permutation_map_inv _ _ (Permutation_sym P)) as (a' & -> & P') end.
    match goal with T : token_lists ns ?l |- _ => rename T into HT; rename l into us end.
    assert (exists ns', Forall2 same_tree ns ns' /\ us = flat_map toks ns') as (ns' & F & ->).
    { clear -IH HT. revert us HT. induction IH as [|n ns Hn _ IH']; intros us HT; inversion HT; subst; [exists []; split; [constructor|reflexivity]|].
      match goal with T : token_list n ?l |- _ => destruct (Hn _ T) as (n' & S1 & ->) end.
      match goal with T : token_lists ns ?l |- _ => destruct (IH' _ T) as (ns' & S2 & ->) end.
      exists (n' :: ns'). split; [now constructor|reflexivity]. }
    exists (Element q a' ns'). split; [constructor; assumption|]. cbn [toks]. match goal with V : void_element q = false |- _ => rewrite V end. reflexivity.
Qed.
Lemma tokens_trees ns ts : token_lists ns ts -> exists ns', Forall2 same_tree ns ns' /\ ts = flat_map toks ns'.
Proof.
  revert ts. induction ns as [|n ns IH]; intros ts H; inversion H; subst; [exists []; split; [constructor|reflexivity]|].
  match goal with T : token_list n ?l |- _ => destruct (tokens_tree _ _ T) as (n' & S1 & ->) end.
  match goal with T : token_lists ns ?l |- _ => destruct (IH _ T) as (ns' & S2 & ->) end.
  exists (n' :: ns'). split; [now constructor|reflexivity].
Qed.
Lemma same_is_text n n' : same_tree n n' -> is_text n' = is_text n.
Proof. now intros []. Qed.
Lemma same_double ns ns' : Forall2 same_tree ns ns' -> no_double_text ns' = no_double_text ns.
Proof.
  induction 1 as [|n n' ns ns' H F IH]; [reflexivity|]. cbn [no_double_text]. rewrite IH, (same_is_text _ _ H).
  destruct F as [|m m' ? ? H' _]; [reflexivity|]. now rewrite (same_is_text _ _ H').
Qed.
Lemma same_texts ns ns' w : Forall2 same_tree ns ns' -> ns = [Text w] -> ns' = [Text w].
Proof. intros F ->. inversion F as [|? x ? l H F']; subst. inversion F'; subst. inversion H; subst. reflexivity. Qed.
Lemma same_nil ns ns' : Forall2 same_tree ns ns' -> ns = [] -> ns' = [].
Proof. intros F ->. inversion F. reflexivity. Qed.
Lemma same_first ns ns' : Forall2 same_tree ns ns' -> no_first_feed ns -> no_first_feed ns'.
Proof. intros F H w r ->. inversion F as [|x ? l ? H1 F']; subst. inversion H1; subst. eapply H. reflexivity. Qed.
Lemma same_raw ns ns' : Forall2 same_tree ns ns' -> raw_content ns -> raw_content ns'.
Proof. intros F [E|(w & E & Hw)]; [left; eapply same_nil; eauto|right; exists w; split; [eapply same_texts; eauto|exact Hw]]. Qed.
Lemma same_fold (P Q : node -> Prop) ns ns' : Forall2 same_tree ns ns' -> Forall (fun n => forall n', same_tree n n' -> P n -> Q n') ns ->
  fold_right (fun x R => P x /\ R) True ns -> fold_right (fun x R => Q x /\ R) True ns'.
Proof.
  induction 1 as [|n n' ns ns' H F IH]; intros G; [auto|]. inversion G; subst. cbn [fold_right]. intros [K1 K2]. split; eauto.
Qed.
Lemma same_fits n : forall n' c path, same_tree n n' -> fits c path n -> fits c path n'.
Proof.
  induction n as [w|w|w|q a ns IH] using node_induct; intros n' c path H; inversion H as [| | |? ? a' ? ns' P F]; subst; auto.
  cbn [fits]. intros [Hq Hf]. split; [exact Hq|]. clear Hq.
  assert (forall c', no_double_text ns = true /\ fold_right (fun x P => fits c' (q_name q :: path) x /\ P) True ns ->
                     no_double_text ns' = true /\ fold_right (fun x P => fits c' (q_name q :: path) x /\ P) True ns') as All.
  { intros c' [H1 H2]. split; [now rewrite (same_double _ _ F)|]. eapply same_fold; [exact F| |exact H2]. eapply Forall_impl; [|exact IH]. cbn. eauto. }
  destruct c.
  - destruct Hf as [H1 H2]. split; [exact H1|]. destruct (empty_element _); [exact I|]. destruct (raw_element _).
    + destruct H2 as [H2 H3]. split; [eapply same_raw; eauto|]. intros E. eapply same_first; eauto.
    + destruct (in_names ["table"]%string _); [auto|]. destruct H2 as [H2 H3]. split; [auto|]. intros E. eapply same_first; eauto.
  - destruct (in_names ["base"; "basefont"; "bgsound"; "link"; "meta"]%string _); [exact I|]. destruct Hf as [H1 H2]. split; [exact H1|]. eapply same_raw; eauto.
  - destruct (in_names ["caption"]%string _); [auto|]. destruct (in_names ["colgroup"]%string _); [auto|]. destruct Hf as [H1 H2]. auto.
  - exact Hf.
  - destruct Hf as [H1 H2]. auto.
  - destruct Hf as [H1 H2]. auto.
Qed.
Lemma same_expressible n : forall n', same_tree n n' -> expressible n -> expressible n'.
Proof.
  induction n as [w|w|w|q a ns IH] using node_induct; intros n' H; inversion H as [| | |? ? a' ? ns' P F]; subst; auto.
  cbn [expressible]. intros (Hq & Ha & Hx). split; [exact Hq|]. split; [eapply attrs_perm; eauto|].
  destruct (void_element q); [eapply same_nil; eauto|].
  assert (forall R : str -> Prop, match ns with [Text s] => R s | _ => ns = [] end -> match ns' with [Text s] => R s | _ => ns' = [] end) as One.
  { intros R HR. destruct F as [|n n' ns ns' S1 F]; [reflexivity|]. destruct S1; try discriminate HR. destruct F; [exact HR|discriminate HR]. }
  destruct (mode_of _) as [[]|]; try exact (One text_ok Hx); try exact (One raw_ok Hx); [contradiction|].
  destruct Hx as [H1 H2]. split; [exact H1|]. eapply same_fold; eauto.
Qed.
Lemma same_all (P : node -> Prop) : (forall n n', same_tree n n' -> P n -> P n') -> forall ns ns', Forall2 same_tree ns ns' -> Forall P ns -> Forall P ns'.
Proof. intros H ns ns' F. induction F; intros G; inversion G; subst; constructor; eauto. Qed.
Lemma same_comment_node n n' : same_tree n n' -> is_comment_node n -> is_comment_node n'.
Proof. intros H (w & ->). inversion H; subst. now exists w. Qed.
Lemma same_blank n n' : same_tree n n' -> blank_or_comment n -> blank_or_comment n'.
Proof. intros H [H1|(w & -> & H1)]; [left; eapply same_comment_node; eauto|]. inversion H; subst. right. now exists w. Qed.
Lemma same_conforming ns ns' : Forall2 same_tree ns ns' -> conforming ns -> conforming ns'.
Proof.
  intros F Hc. destruct Hc as [comments doctype before between a1 a2 a3 head body Hco Hdt Hbe Hbt Hbd Hhd Hhf Hbod Hbf].
  apply Forall2_app_inv_l in F as (co & r & F1 & F & ->). apply Forall2_app_inv_l in F as (dt & r' & F2 & F & ->).
  inversion F as [|? x ? l S1 F0]; subst. inversion F0; subst. clear F F0. inversion S1 as [| | |? ? b1 ? kids P1 F]; subst. clear S1.
  apply Forall2_app_inv_l in F as (be & r & F3 & F & ->). cbn [app] in F. inversion F as [|? x ? l S1 F0]; subst. clear F. inversion S1 as [| | |? ? b2 ? hd P2 F4]; subst. clear S1.
  apply Forall2_app_inv_l in F0 as (bt & r & F5 & F & ->). inversion F as [|? x ? l S1 F0]; subst. inversion F0; subst. clear F F0. inversion S1 as [| | |? ? b3 ? bo P3 F6]; subst. clear S1.
  apply (conforming_doc co dt be bt b1 b2 b3 hd bo).
  - exact (same_all _ same_comment_node _ _ F1 Hco).
  - destruct Hdt as [->|(w & ->)]; [left; inversion F2; reflexivity|right; exists w]. inversion F2 as [|? ? ? ? S1 F']; subst. inversion F'; subst. inversion S1; subst. reflexivity.
  - exact (same_all _ same_comment_node _ _ F3 Hbe).
  - exact (same_all _ same_blank _ _ F5 Hbt).
  - now rewrite (same_double _ _ F5).
  - now rewrite (same_double _ _ F4).
  - refine (same_all _ _ _ _ F4 Hhf). intros n n' Hn. apply same_fits, Hn.
  - now rewrite (same_double _ _ F6).
  - refine (same_all _ _ _ _ F6 Hbf). intros n n' Hn. apply same_fits, Hn.
Qed.

Lemma toks_named n : Forall named_start (toks n).
Proof.
  induction n as [w|w|w|q a ns IH] using node_induct; cbn [toks].
  - apply Forall_forall. intros t Ht. apply in_map_iff in Ht as (c & <- & _). discriminate.
  - repeat constructor. discriminate.
  - repeat constructor. discriminate.
  - constructor; [intros _; eexists; reflexivity|]. destruct (void_element q); [constructor|]. apply Forall_app. split; [|repeat constructor; discriminate].
    apply Forall_flat_map. exact IH.
Qed.

(** What the tree builder makes of the tokens that any other builder that goes by names gets. *)
Lemma parse_runs sink ns ns' s' : by_name sink -> tokenize sink (serialize ns) = Ok (flat_map toks ns' ++ [new_token T_END_OF_FILE]) ->
  bruns (flat_map toks ns' ++ [new_token T_END_OF_FILE]) st_init s' -> parse (serialize ns) = Tree (document s').
Proof.
  intros Hb Et R. unfold parse. rewrite (tokenize_sink sink builder_sink _ _ Et).
  - rewrite (runs_build _ _ _ R). reflexivity.
  - eapply runs_agree; [exact Hb| |exact R]. apply Forall_app. split; [|repeat constructor; discriminate].
    apply Forall_flat_map, Forall_forall. intros n _. apply toks_named.
Qed.
Definition lexes (sink : list token -> option text_mode) : Prop :=
  forall ns, Forall expressible ns -> exists ts, token_lists ns ts /\ tokenize sink (serialize ns) = Ok (ts ++ [new_token T_END_OF_FILE]).

Theorem rebuilt sink doc : by_name sink -> lexes sink -> conforming doc -> Forall expressible doc ->
  exists doc', parse (serialize doc) = Tree doc' /\ Forall2 same_tree doc doc'.
Proof.
  intros Hb H22 Hc He. destruct (H22 doc He) as (ts & Hts & Et). destruct (tokens_trees _ _ Hts) as (doc' & F & ->).
  destruct (document_run doc' (same_conforming _ _ F Hc) (same_all _ same_expressible _ _ F He)) as (s' & R & E).
  exists doc'. split; [|exact F]. rewrite <- E. eapply parse_runs; [exact Hb|exact Et|apply runs_bruns, R].
Qed.
