(** A piece of content without html, head and body tags. *)
From Coq Require Import String List Arith Bool NArith Lia Permutation.
From Verif.Base Require Import Str.
From Verif.Html Require Import LexerModel SerialModel SerialSpec SerialProofs BuildModel BuildSpec BuildDom BuildSteps BuildTags BuildStart BuildEnd BuildMono BuildRun BuildTable BuildTree LexerSink BuildDoc.
Import ListNotations.
Local Open Scope list_scope.
Local Infix ";;" := seq (at level 61, right associativity).

Definition body_dom : dom :=
  [mkNode KDocument None [1]; mkNode (KElement (hq html_n) []) (Some 0) [2; 3];
   mkNode (KElement (hq head_n) []) (Some 1) []; mkNode (KElement (hq body_n) []) (Some 1) []].
Definition body_stack : list elem := [mkElem 3 (hq body_n); mkElem 1 (hq html_n)].
Definition in_body : st := mkSt body_dom body_stack [] 0 IN_BODY INITIAL (Some (mkElem 2 (hq head_n))) None true false [] false None.

Definition pre_body : list string :=
  ["html"; "head"; "body"; "frameset"; "base"; "basefont"; "bgsound"; "link"; "meta"; "title"; "noframes"; "style"; "noscript"; "script"; "template"]%string.
Definition body_token (t : token) : Prop :=
  (exists c, t = char_token c /\ ~ blank c /\ c <> 13%N) \/ (exists n a, t = stag n a /\ in_names pre_body n = false).
Lemma starts_sub l n a : incl l pre_body -> in_names pre_body n = false -> starts l (stag n a) = false.
Proof.
  intros Hl Hn. unfold starts, named. change (is_start (stag n a)) with true. cbn [stag tag_token t_name andb].
  destruct (one_of l n) eqn:E; [|reflexivity]. unfold one_of in E. apply existsb_exists in E as (x & Hx & Ex).
  assert (in_names pre_body n = true); [|congruence]. unfold in_names. apply existsb_exists. exists x. split; [apply Hl, Hx|exact Ex].
Qed.
Ltac sub := let x := fresh in intros x; cbn [In]; unfold pre_body; cbn [In]; intuition auto.
Lemma first_token t : body_token t -> dispatch 30 None t (set_switch None st_init) = dispatch 25 None t in_body.
Proof.
  intros H.
  assert (is_blank4 t = false /\ is_blank t = false /\ is_comment t = false /\ is_doctype t = false /\ is_end t = false /\ is_lf t = false /\
          (forall l, incl l pre_body -> starts l t = false)) as (B4 & B & C & D & E & L & St).
  { destruct H as [(c & -> & Hc & Hr)|(n & a & -> & Hn)].
    - assert (c <> 9 /\ c <> 10 /\ c <> 12 /\ c <> 32)%N as (H1 & H2 & H3 & H4) by (unfold blank in Hc; repeat split; intros ->; apply Hc; auto).
      unfold is_blank4, is_blank, is_lf. cbn [is_char char_token t_type ttype_eqb t_rune andb]. apply N.eqb_neq in H1, H2, H3, H4, Hr. rewrite H1, H2, H3, H4, Hr.
      repeat split.
    - repeat split. intros l Hl. now apply starts_sub. }
  assert (forall l, ends l t = false) as En by (intros l; unfold ends; rewrite E; reflexivity).
  assert (Eskip : (is_char t && (t_rune t =? 10)%N)%bool = false) by exact L.
  assert (Hd : forall f s e k, s_skip_lf s = false -> s_stack s = e :: k -> is_html (e_name e) = true -> dispatch (S f) None t s = rules (dispatch f None) (fun m => dispatch f (Some m)) (s_mode s) t s).
  { intros f s e k Hs Hk Hh. cbn [dispatch]. rewrite Hs. cbn [andb]. unfold in_html_content. cbn [set_skip s_stack s_mode]. rewrite Hk, Hh. cbn [orb].
    assert (set_skip false s = s) as -> by (destruct s; cbn in Hs; rewrite Hs; reflexivity). reflexivity. }
  assert (Hd0 : forall f s, s_skip_lf s = false -> s_stack s = [] -> dispatch (S f) None t s = rules (dispatch f None) (fun m => dispatch f (Some m)) (s_mode s) t s).
  { intros f s Hs Hk. cbn [dispatch]. rewrite Hs. cbn [andb]. unfold in_html_content. cbn [set_skip s_stack s_mode]. rewrite Hk.
    assert (set_skip false s = s) as -> by (destruct s; cbn in Hs; rewrite Hs; reflexivity). reflexivity. }
  change (set_switch None st_init) with st_init. rewrite (Hd0 29 st_init) by reflexivity. change (s_mode st_init) with INITIAL.
  cbn [rules]. unfold on_initial. rewrite B4, C, D. unfold seq, switch_to, pure. cbn [andthen].
  rewrite (Hd0 28 (set_mode BEFORE_HTML st_init)) by reflexivity. change (s_mode (set_mode BEFORE_HTML st_init)) with BEFORE_HTML.
  cbn [rules]. unfold on_before_html. rewrite C, B4, E, (St ["html"]%string) by sub. cbn [andb]. unfold seq, nop, pure, switch_to, pure. cbn [andthen].
  match goal with |- dispatch 28 None t ?x = _ => set (s2 := x) end.
  rewrite (Hd 27 s2 (mkElem 1 (hq html_n)) []) by reflexivity. change (s_mode s2) with BEFORE_HEAD. cbn [rules]. unfold on_before_head.
  rewrite B4, C, D, E, (St ["html"]%string), (St ["head"]%string) by sub. cbn [andb]. unfold seq.
  assert (exists s3, insert_head (tag_named "head") s2 = Done s3 /\ s3 = mkSt [mkNode KDocument None [1]; mkNode (KElement (hq html_n) []) (Some 0) [2]; mkNode (KElement (hq head_n) []) (Some 1) []]
            [mkElem 2 (hq head_n); mkElem 1 (hq html_n)] [] 0 IN_HEAD INITIAL (Some (mkElem 2 (hq head_n))) None true false [] false None) as (s3 & E3 & Es3).
  { eexists. split; [vm_compute; reflexivity|]. vm_compute. reflexivity. }
  rewrite E3. cbn [andthen].
  rewrite (Hd 26 s3 (mkElem 2 (hq head_n)) [mkElem 1 (hq html_n)]) by (try rewrite Es3; reflexivity).
  assert (s_mode s3 = IN_HEAD) as -> by (rewrite Es3; reflexivity). cbn [rules]. unfold on_in_head. cbv zeta.
  rewrite B4, C, D, E, !En, !St by sub. cbn [orb]. unfold seq. assert (exists s4, pop s3 = Done s4 /\ s4 = set_stack [mkElem 1 (hq html_n)] s3) as (s4 & E4 & Es4) by (rewrite Es3; eexists; split; reflexivity).
  rewrite E4. unfold switch_to, pure. cbn [andthen].
  rewrite (Hd 25 (set_mode AFTER_HEAD s4) (mkElem 1 (hq html_n)) []) by (try rewrite Es4, Es3; reflexivity).
  change (s_mode (set_mode AFTER_HEAD s4)) with AFTER_HEAD. cbn [rules]. unfold on_after_head. cbv zeta. rewrite B, C, D, E, !En, !St by sub. cbn [orb]. unfold seq.
  assert (insert_ (tag_named "body") (set_mode AFTER_HEAD s4) = Done (set_mode AFTER_HEAD in_body)) as -> by (rewrite Es4, Es3; vm_compute; reflexivity).
  reflexivity.
Qed.

Lemma toks_first n ts : expressible n -> opens_body n -> exists t us, toks n ++ ts = t :: us /\ body_token t.
Proof.
  destruct n as [q a ns|[|c w]|w|w]; intros He Ho; try contradiction; [cbn [toks]; eexists; eexists; split; [reflexivity|]; right; eauto|].
  exists (char_token c), (map char_token w ++ ts). split; [reflexivity|]. left. exists c. split; [reflexivity|exact Ho].
Qed.
Lemma same_opens n n' : same_tree n n' -> opens_body n -> opens_body n'.
Proof. now intros []. Qed.

Theorem fragment_run ns : Forall (fits Flow [body_n; html_n]) ns -> no_double_text ns = true -> Forall expressible ns ->
  (exists n r, ns = n :: r /\ opens_body n) ->
  exists s1 s' t ts, flat_map toks ns ++ [new_token T_END_OF_FILE] = t :: ts /\ build1 t st_init = Done s1 /\
    (t_type t = T_START_TAG -> forall n, t_name t = Some n -> s_switch s1 = mode_of n) /\ runs ts s1 s' /\
    document s' = [html_node "html" [] [html_node "head" [] []; html_node "body" [] ns]].
Proof.
  intros Hf Hd He (n & r & En & Ho).
  assert (wfk body_dom body_stack) as W.
  { split; [split|].
    - repeat constructor; cbn; intuition discriminate.
    - repeat constructor; cbn; lia.
    - repeat constructor; exists []; reflexivity. }
  assert (good body_dom body_stack IN_BODY (Some (mkElem 2 (hq head_n))) false None in_body) as G by (constructor; try reflexivity; cbn; apply act_plain; [reflexivity|reflexivity|apply act_plain; [reflexivity|reflexivity|apply act_nil]]).
  destruct (nodes_ok Flow ns) with (path := [body_n; html_n]) (k := body_stack) (d := body_dom) (hd := Some (mkElem 2 (hq head_n))) (s := in_body) as (s2 & R2 & S2); auto.
  { apply Forall_forall. intros x _. apply every_node. }
  { eapply at_good. exact G. }
  { apply at_body. }
  { reflexivity. }
  { discriminate. }
  change (top body_stack) with 3 in S2. destruct S2 as (sk2 & sw2 & G2). change (mode_at Flow [body_n; html_n]) with IN_BODY in G2.
  destruct (step_good (new_token T_END_OF_FILE) _ body_stack IN_BODY (Some (mkElem 2 (hq head_n))) _ _ s2 (fun s' => good (add_nodes body_dom 3 ns) body_stack IN_BODY (Some (mkElem 2 (hq head_n))) false None s') eq_refl G2) as (s3 & E3 & G3).
  { intros f s0 Hf0 G0. destruct (enter_rules f (new_token T_END_OF_FILE) _ _ _ _ _ _ ltac:(lia) G0 eq_refl) as (f' & _ & E'). rewrite E'.
    eexists. split; [reflexivity|exact G0]. }
  assert (runs (flat_map toks ns ++ [new_token T_END_OF_FILE]) in_body s3) as R.
  { eapply runs_app; [exact R2|]. apply runs_one. split; [exact E3|discriminate]. }
  destruct (toks_first n (flat_map toks r ++ [new_token T_END_OF_FILE])) as (t & ts & Et & Ht); [rewrite En in He; inversion He; assumption|exact Ho|].
  assert (flat_map toks ns ++ [new_token T_END_OF_FILE] = t :: ts) as Et'.
  { rewrite En. cbn [flat_map]. rewrite <- app_assoc. exact Et. }
  rewrite Et' in R. inversion R as [|? ? ? s1 ? [E1 Sw1] R1]; subst.
  exists s1, s3, t, ts. split; [exact Et'|]. split.
  { unfold build1. change (max_calls st_init) with 30. rewrite (first_token t Ht). eapply dispatch_mono; [|exact E1]. rewrite calls_24. lia. }
  split; [exact Sw1|]. split; [exact R1|].
  apply document_add. rewrite (g_dom _ _ _ _ _ _ _ G3). reflexivity.
Qed.

Theorem fragment_rebuilt sink ns : by_name sink -> lexes sink -> Forall (fits Flow [body_n; html_n]) ns -> no_double_text ns = true -> Forall expressible ns ->
  (exists n r, ns = n :: r /\ opens_body n) ->
  exists ns', parse (serialize ns) = Tree [html_node "html" [] [html_node "head" [] []; html_node "body" [] ns']] /\ Forall2 same_tree ns ns'.
Proof.
  intros Hb H22 Hf Hd He (n & r & En & Ho). destruct (H22 ns He) as (ts & Hts & Et). destruct (tokens_trees _ _ Hts) as (ns' & F & ->).
  destruct (fragment_run ns') as (s1 & s' & t & us & Eu & E1 & Sw & R & E).
  - refine (same_all _ _ _ _ F Hf). intros x x' Hx. apply same_fits, Hx.
  - now rewrite (same_double _ _ F).
  - exact (same_all _ same_expressible _ _ F He).
  - subst ns. inversion F as [|? n' ? r' S1 F']; subst. exists n', r'. split; [reflexivity|]. eapply same_opens; eassumption.
  - exists ns'. split; [|exact F]. rewrite <- E. eapply parse_runs; [exact Hb|exact Et|]. rewrite Eu. econstructor; [exact E1|exact Sw|apply runs_bruns, R].
Qed.
