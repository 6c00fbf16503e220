(** The tags of html, head and body may be left out. *)
From Coq Require Import String List Arith Bool NArith Lia Permutation.
From Verif.Base Require Import Str.
From Verif.Html Require Import LexerModel SerialModel SerialSpec SerialProofs BuildModel BuildSpec BuildDom BuildSteps BuildTags BuildStart BuildEnd BuildMono BuildRun BuildTable BuildTree LexerSink BuildDoc BuildFrag OmitSpec OmitSteps OmitTree.
Import ListNotations.
Local Open Scope list_scope.
Local Infix ";;" := seq (at level 61, right associativity).

(** ** The end of the document *)
Lemma skip_omit t n m p : skip t n (m :: p) -> exists next, omit m n next = true.
Proof. intros H. inversion H; subst; eauto. Qed.
Lemma lag_final hd t s d k : lag hd t s Flow [body_n; html_n] d k ->
  exists k0 sk sw, (k0 = k \/ exists i, k0 = mkElem i (hq (of_string "p")) :: k) /\ good d k0 IN_BODY hd sk sw s.
Proof.
  intros H. inversion H as [c path d0 k0 Hs|c path d0 k0 n c' i Hc Hsk Hw Hl]; subst.
  - destruct Hs as (sk & sw & G). eauto 6.
  - destruct (skip_omit _ _ _ _ Hsk) as (next & Ho). pose proof (omit_names _ _ _ Ho) as Hd.
    destruct (child_cases _ _ _ _ Hc) as [(_ & -> & F)|[E|[(E & _)|[(E & _)|[(E & _)|[(E & _)|(E & _)]]]]]]; try discriminate E; [|subst n; discriminate Hd].
    assert (in_names leaves n = true) as Hn by (apply flow_name in F; clear -F Hd; name_cases Hd; first [reflexivity|discriminate F]).
    assert (n = of_string "p") as En by (destruct (place_cases _ _ (omit_place _ _ _ Ho) Hn) as [(E & X)|[(E & X)|[(E & X)|[(E & X)|[(E & X)|(E & X)]]]]]; [exact E|discriminate X..]).
    subst n. inversion Hl as [c path d0 k0 Hs|c path d0 k0 n c1 i1 Hc1 Hsk1 Hw1 Hl1]; subst.
    + destruct Hs as (sk & sw & G). exists (mkElem i (hq (of_string "p")) :: k), sk, sw. split; [right; eauto|exact G].
    + exfalso. destruct (skip_omit _ _ _ _ Hsk1) as (next1 & Ho1). pose proof (omit_names _ _ _ Ho1) as Hd1.
      destruct (child_cases _ _ _ _ Hc1) as [(_ & -> & F1)|[E|[(E & _)|[(E & _)|[(E & _)|[(E & _)|(E & _)]]]]]]; try discriminate E; [|subst n; discriminate Hd1].
      assert (in_names leaves n = true) as Hn1 by (apply flow_name in F1; clear -F1 Hd1; name_cases Hd1; first [reflexivity|discriminate F1]).
      destruct (place_cases _ _ (omit_place _ _ _ Ho1) Hn1) as [(E & X)|[(E & X)|[(E & X)|[(E & X)|[(E & X)|(E & X)]]]]]; try discriminate X.
      subst n. discriminate F1.
Qed.

Definition tok_if (b : bool) (t : token) : list token := if b then [t] else [].
Definition closing (e3 e1 : bool) : list token := tok_if e3 (etag body_n) ++ tok_if e1 (etag html_n) ++ [new_token T_END_OF_FILE].
Lemma first_closing e3 e1 : final (first (closing e3 e1) (new_token T_END_OF_FILE)).
Proof. unfold final. destruct e3, e1; cbn; auto. Qed.
Lemma close_run d k0 b e hd sk sw s e3 e1 : k0 = [b; e] \/ (exists i, k0 = mkElem i (hq (of_string "p")) :: [b; e]) -> e_name b = hq body_n -> good d k0 IN_BODY hd sk sw s ->
  exists s', runs (closing e3 e1) s s' /\ s_dom s' = d.
Proof.
  intros Hk Hb G. assert (top_html k0) as Hh by (destruct Hk as [->|(i & ->)]; [cbn; rewrite Hb|]; reflexivity).
  assert (forall s0, s_stack s0 = k0 -> in_scope (h "body") s0 = Done true) as Hsc.
  { intros s0 E. unfold in_scope, has_in. rewrite E. destruct Hk as [->|(i & ->)]; cbn [scope_loop]; rewrite Hb; reflexivity. }
  assert (forall m sk sw s, (m = IN_BODY \/ m = AFTER_BODY \/ m = AFTER_AFTER_BODY) -> good d k0 m hd sk sw s -> exists s', runs [new_token T_END_OF_FILE] s s' /\ s_dom s' = d) as Hend.
  { intros m sk0 sw0 s0 Hm G0.
    destruct (step_good (new_token T_END_OF_FILE) d k0 m hd sk0 sw0 s0 (fun s' => good d k0 m hd false None s') eq_refl G0) as (s3 & E3 & G3).
    { intros f s1 Hf G1. destruct (enter_rules f (new_token T_END_OF_FILE) _ _ _ _ _ _ ltac:(lia) G1 Hh) as (f' & _ & E'). rewrite E'. exists s1. split; [|exact G1]. destruct Hm as [->|[->| ->]]; reflexivity. }
    exists s3. split; [|apply (g_dom _ _ _ _ _ _ _ G3)]. apply runs_one. split; [exact E3|discriminate]. }
  assert (forall acc ai t s0, s_stack s0 = k0 -> t = etag body_n \/ t = etag html_n -> on_in_body acc ai t s0 = (if named ["html"]%string t then acc t else nop) (set_mode AFTER_BODY s0)) as Hin.
  { intros acc ai t s0 E Ht.
    assert (on_in_body acc ai t s0 = branch (in_scope (h "body")) (switch_to AFTER_BODY ;; (if named ["html"]%string t then acc t else nop)) nop s0) as -> by (destruct Ht as [->| ->]; reflexivity).
    unfold branch. rewrite (Hsc _ E). reflexivity. }
  destruct e3; cbn [closing tok_if app].
  - destruct (step_good (etag body_n) d k0 IN_BODY hd sk sw s (fun s' => good d k0 AFTER_BODY hd false None s') eq_refl G) as (s1 & E1 & G1).
    { intros f s0 Hf G0. destruct (enter_rules f (etag body_n) _ _ _ _ _ _ ltac:(lia) G0 Hh) as (f' & _ & E'). rewrite E'. cbn [rules].
      rewrite Hin by (auto; apply (g_stack _ _ _ _ _ _ _ G0)). eexists. split; [reflexivity|]. eapply good_mode. exact G0. }
    destruct e1; cbn [closing tok_if app].
    + destruct (step_good (etag html_n) d k0 AFTER_BODY hd false None s1 (fun s' => good d k0 AFTER_AFTER_BODY hd false None s') eq_refl G1) as (s2 & E2 & G2).
      { intros f s0 Hf G0. destruct (enter_rules f (etag html_n) _ _ _ _ _ _ ltac:(lia) G0 Hh) as (f' & _ & E'). rewrite E'. cbn [rules]. eexists. split; [reflexivity|]. eapply good_mode. exact G0. }
      destruct (Hend _ _ _ _ (or_intror (or_intror eq_refl)) G2) as (s3 & R3 & D3). exists s3. split; [|exact D3].
      econstructor; [split; [exact E1|discriminate]|]. econstructor; [split; [exact E2|discriminate]|]. exact R3.
    + destruct (Hend _ _ _ _ (or_intror (or_introl eq_refl)) G1) as (s3 & R3 & D3). exists s3. split; [|exact D3]. econstructor; [split; [exact E1|discriminate]|]. exact R3.
  - destruct e1; cbn [tok_if app]; [|exact (Hend _ _ _ _ (or_introl eq_refl) G)].
    destruct (step_good (etag html_n) d k0 IN_BODY hd sk sw s (fun s' => good d k0 AFTER_AFTER_BODY hd false None s') eq_refl G) as (s1 & E1 & G1).
    { intros f s0 Hf G0. destruct (enter_rules f (etag html_n) _ _ _ _ _ _ ltac:(lia) G0 Hh) as (f' & Ef & E'). rewrite E'. cbn [rules].
      rewrite Hin by (auto; apply (g_stack _ _ _ _ _ _ _ G0)). change (named ["html"]%string (etag html_n)) with true. cbn iota.
      destruct (enter_rules f' (etag html_n) (set_mode AFTER_BODY s0) d k0 AFTER_BODY hd None ltac:(lia) (good_mode _ _ _ _ _ _ _ _ G0) Hh) as (f'' & _ & E''). rewrite E''. cbn [rules].
      eexists. split; [reflexivity|]. eapply good_mode, good_mode. exact G0. }
    destruct (Hend _ _ _ _ (or_intror (or_intror eq_refl)) G1) as (s3 & R3 & D3). exists s3. split; [|exact D3]. econstructor; [split; [exact E1|discriminate]|]. exact R3.
Qed.

(** ** A token that opens what was left out *)
Definition tail_token (t : token) : Prop := body_token t \/ final t.
Definition after_head_token (t : token) : Prop := tail_token t \/ exists a, t = stag body_n a.
Definition head_names : list string := ["base"; "basefont"; "bgsound"; "link"; "meta"; "title"; "noframes"; "style"; "script"]%string.
Definition in_head_token (t : token) : Prop := after_head_token t \/ t = etag head_n \/ exists n a, t = stag n a /\ in_names head_names n = true.
Definition in_html_token (t : token) : Prop := in_head_token t \/ exists a, t = stag head_n a.
Definition jump (t : token) (s s1 : st) : Prop := forall f, dispatch (S f) None t s = dispatch f None t s1.

Record not_early (t : token) : Prop := {
  ne4 : is_blank4 t = false; ne : is_blank t = false; nec : is_comment t = false; ned : is_doctype t = false; nel : is_lf t = false;
  neh : starts ["html"]%string t = false; nee : is_end t = true -> named ["head"; "body"; "html"; "br"]%string t = true }.
Lemma body_token_facts t : body_token t -> not_early t /\ is_end t = false /\ (forall l, incl l pre_body -> starts l t = false).
Proof.
  intros [(c & -> & Hc & Hr)|(n & a & -> & Hn)].
  - assert (c <> 9 /\ c <> 10 /\ c <> 12 /\ c <> 32)%N as (H1 & H2 & H3 & H4) by (unfold blank in Hc; repeat split; intros ->; apply Hc; auto).
    apply N.eqb_neq in H1, H2, H3, H4, Hr. split; [|split; [reflexivity|reflexivity]].
    constructor; try reflexivity; try discriminate; unfold is_blank4, is_blank, is_lf; cbn [is_char char_token t_type ttype_eqb t_rune andb]; rewrite ?H1, ?H2, ?H3, ?H4, ?Hr; reflexivity.
  - split; [|split; [reflexivity|intros l Hl; now apply starts_sub]]. constructor; try reflexivity; try discriminate. apply starts_sub; [sub|exact Hn].
Qed.
Lemma early_html t : in_html_token t -> not_early t.
Proof.
  intros [[[[H|[->|[->| ->]]]|(a & ->)]|[->|(n & a & -> & H)]]|(a & ->)]; try (constructor; (reflexivity || discriminate)).
  - apply body_token_facts, H.
  - name_cases H; constructor; (reflexivity || discriminate).
Qed.
Lemma early_skip t f s : not_early t -> dispatch f None t s = dispatch f None t (set_skip false s).
Proof.
  intros H. destruct f as [|f]; [reflexivity|]. cbn [dispatch]. pose proof (nel _ H) as L. unfold is_lf in L. rewrite L, andb_false_r. reflexivity.
Qed.


(** ** Runs whose first token may need more than [n] calls *)
Definition win (n : nat) (ts : list token) (d : dom) (s : st) : Prop :=
  match ts with
  | [] => False
  | t :: us => exists s1 s', dispatch n None t (set_switch None s) = Done s1 /\ (t_type t = T_START_TAG -> forall m, t_name t = Some m -> s_switch s1 = mode_of m) /\
      bruns us s1 s' /\ s_dom s' = d
  end.
Lemma win_le n m ts d s : n <= m -> win n ts d s -> win m ts d s.
Proof. destruct ts as [|t us]; [auto|]. intros Hl (s1 & s' & E & H). exists s1, s'. split; [|exact H]. eapply dispatch_mono; [exact Hl|exact E]. Qed.
Lemma win_bruns n ts d s : n <= 30 -> win n ts d s -> exists s', bruns ts s s' /\ s_dom s' = d.
Proof.
  destruct ts as [|t us]; [contradiction|]. intros Hl (s1 & s' & E & Sw & R & D). exists s'. split; [|exact D]. econstructor; [|exact Sw|exact R].
  unfold build1. eapply dispatch_mono; [|exact E]. unfold max_calls. lia.
Qed.
Lemma win_runs ts d s s' : runs ts s s' -> ts <> [] -> s_dom s' = d -> win 24 ts d s.
Proof.
  intros R Hn D. destruct R as [|t us s s1 s2 [E Sw] R]; [contradiction|]. exists s1, s2. unfold take1 in E. rewrite calls_24 in E.
  split; [exact E|]. split; [exact Sw|]. split; [apply runs_bruns, R|exact D].
Qed.
Lemma bruns_app ts us s s1 s2 : bruns ts s s1 -> bruns us s1 s2 -> bruns (ts ++ us) s s2.
Proof. induction 1; intros H'; [exact H'|]. cbn [app]. econstructor; eauto. Qed.
Lemma win_app n ts us d s s1 : 24 <= n <= 30 -> runs ts s s1 -> win n us d s1 -> win n (ts ++ us) d s.
Proof.
  intros Hn R Hw. destruct R as [|t ts s s0 s1 [E Sw] R]; [exact Hw|]. destruct (win_bruns _ _ _ _ (proj2 Hn) Hw) as (s' & R' & D).
  cbn [app win]. exists s0, s'. unfold take1 in E. rewrite calls_24 in E. split; [eapply dispatch_mono; [|exact E]; lia|]. split; [exact Sw|].
  split; [|exact D]. eapply bruns_app; [apply runs_bruns, R|exact R'].
Qed.
Lemma win_jump n t us d s s1 : not_early t -> s_switch s1 = None -> jump t (set_skip false (set_switch None s)) s1 -> win n (t :: us) d s1 -> win (S n) (t :: us) d s.
Proof.
  intros Ht Hs Hj (s2 & s' & E & H). exists s2, s'. split; [|exact H]. rewrite early_skip by exact Ht. rewrite Hj.
  assert (set_switch None s1 = s1) as <- by (destruct s1; cbn in Hs; rewrite Hs; reflexivity). exact E.
Qed.

Lemma jump_initial t d s : good d [] INITIAL None false None s -> in_html_token t -> exists s1, good d [] BEFORE_HTML None false None s1 /\ jump t s s1.
Proof.
  intros G Ht. pose proof (early_html _ Ht) as H. exists (set_mode BEFORE_HTML s). split; [eapply good_mode; exact G|]. intros f.
  destruct (enter_empty (S f) t s d INITIAL None ltac:(lia) G) as (f' & Ef & ->). injection Ef as <-. cbn [rules]. unfold on_initial.
  rewrite (ne4 _ H), (nec _ H), (ned _ H). reflexivity.
Qed.
Lemma end_early t : not_early t -> is_end t && negb (named ["head"; "body"; "html"; "br"]%string t) = false.
Proof. intros H. destruct (is_end t) eqn:E; [|reflexivity]. rewrite (nee _ H E). reflexivity. Qed.
Lemma jump_html t d s : good d [] BEFORE_HTML None false None s -> 0 < length d -> in_html_token t ->
  exists s1, good (put_under d 0 (KElement (hq html_n) [])) [opening d html_n] BEFORE_HEAD None false None s1 /\ jump t s s1.
Proof.
  intros G Hl Ht. pose proof (early_html _ Ht) as H.
  set (s1 := set_mode BEFORE_HEAD (set_stack (mkElem (length (s_dom s)) (h "html") :: s_stack s) (append_to_document (KElement (h "html") []) s))).
  exists s1. split.
  - destruct G as [G1 G2 G3 G4 G5 G6 G7 G8 G9 G10]. unfold s1, append_to_document. constructor; flds; auto.
    + rewrite G1. now apply append_new.
    + rewrite G1, G2. reflexivity.
    + apply act_plain; [reflexivity|reflexivity|exact G3].
  - intros f. destruct (enter_empty (S f) t s d BEFORE_HTML None ltac:(lia) G) as (f' & Ef & ->). injection Ef as <-. cbn [rules]. unfold on_before_html.
    rewrite (ne4 _ H), (nec _ H), (neh _ H), (end_early _ H). destruct (is_doctype t) eqn:Ed; [pose proof (ned _ H); congruence|]. reflexivity.
Qed.
Lemma in_head_start t : in_head_token t -> starts ["head"]%string t = false.
Proof.
  intros [[[H|[->|[->| ->]]]|(a & ->)]|[->|(n & a & -> & H)]]; try reflexivity.
  - apply (body_token_facts t H). sub.
  - name_cases H; reflexivity.
Qed.
Lemma jump_head t d e s : good d [e] BEFORE_HEAD None false None s -> e_name e = hq html_n -> wfk d [e] -> in_head_token t ->
  exists s1, good (opened d [e] head_n []) [opening d head_n; e] IN_HEAD (Some (opening d head_n)) false None s1 /\ jump t s s1.
Proof.
  intros G He Hw Ht. pose proof (early_html t (or_introl Ht)) as H. assert (top_html [e]) as Hh by (cbn; rewrite He; reflexivity).
  assert (exists s1, insert_head (tag_named "head") s = Done s1 /\ good (opened d [e] head_n []) [opening d head_n; e] IN_HEAD (Some (opening d head_n)) false None s1) as (s1 & E1 & G1).
  { change (tag_named "head") with (stag head_n []). unfold insert_head.
    rewrite (insert_stag _ _ _ _ _ _ _ head_n [] G ltac:(discriminate) (proj1 Hw) ltac:(split; constructor)). cbn [andthen fst snd].
    eexists. split; [reflexivity|]. destruct G as [G1 G2 G3 G4 G5 G6 G7 G8 G9 G10]. constructor; flds; auto.
    apply act_plain; [reflexivity|reflexivity|exact G3]. }
  exists s1. split; [exact G1|]. intros f. destruct (enter_rules (S f) t _ _ _ _ _ _ ltac:(lia) G Hh) as (f' & Ef & ->). injection Ef as <-. cbn [rules]. unfold on_before_head.
  rewrite (ne4 _ H), (nec _ H), (ned _ H), (neh _ H), (end_early _ H), (in_head_start _ Ht). unfold seq. rewrite E1. reflexivity.
Qed.
Lemma jump_after t d e k hd s : good d (e :: k) IN_HEAD hd false None s -> e_name e = hq head_n -> after_head_token t ->
  exists s1, good d k AFTER_HEAD hd false None s1 /\ jump t s s1.
Proof.
  intros G He Ht. assert (top_html (e :: k)) as Hh by (cbn; rewrite He; reflexivity).
  destruct (pop_plain _ _ _ _ _ _ _ _ G) as (s1 & E1 & G1); [unfold ename; rewrite He; repeat split; reflexivity|].
  exists (set_mode AFTER_HEAD s1). split; [eapply good_mode; exact G1|]. intros f. destruct (enter_rules (S f) t _ _ _ _ _ _ ltac:(lia) G Hh) as (f' & Ef & ->). injection Ef as <-. cbn [rules].
  assert (on_in_head (dispatch f None) (fun m => dispatch f (Some m)) t s = (pop ;; switch_to AFTER_HEAD ;; dispatch f None t) s) as ->.
  { destruct Ht as [[Hb|[->|[->| ->]]]|(a & ->)]; try reflexivity. destruct (body_token_facts _ Hb) as (N & En & St). unfold on_in_head. cbv zeta.
    rewrite (ne4 _ N), (nec _ N), (ned _ N), !St by sub. unfold ends. rewrite En. reflexivity. }
  unfold seq. rewrite E1. reflexivity.
Qed.
Lemma jump_body t d e hd s : good d [e] AFTER_HEAD hd false None s -> e_name e = hq html_n -> wfk d [e] -> tail_token t ->
  exists s1, good (opened d [e] body_n []) [opening d body_n; e] IN_BODY hd false None s1 /\ jump t s s1.
Proof.
  intros G He Hw Ht. assert (top_html [e]) as Hh by (cbn; rewrite He; reflexivity).
  destruct (insert_plain _ _ _ _ _ _ _ body_n [] G ltac:(discriminate) (proj1 Hw) ltac:(split; constructor)) as (s1 & E1 & G1); [repeat split; reflexivity|].
  exists (set_mode IN_BODY s1). split; [eapply good_mode; exact G1|]. intros f. destruct (enter_rules (S f) t _ _ _ _ _ _ ltac:(lia) G Hh) as (f' & Ef & ->). injection Ef as <-. cbn [rules].
  assert (on_after_head (dispatch f None) (fun m => dispatch f (Some m)) t s = (insert_ (tag_named "body") ;; switch_to IN_BODY ;; dispatch f None t) s) as ->.
  { destruct Ht as [Hb|[->|[->| ->]]]; try reflexivity. destruct (body_token_facts _ Hb) as (N & En & St). unfold on_after_head. cbv zeta.
    rewrite (ne _ N), (nec _ N), (ned _ N), !St by sub. unfold ends. rewrite En. reflexivity. }
  unfold seq. change (tag_named "body") with (stag body_n []). rewrite E1. reflexivity.
Qed.

(** ** The document, from its end to its beginning *)
Definition begins (P : token -> Prop) (ts : list token) : Prop := exists t us, ts = t :: us /\ P t.
Lemma begins_app (P : token -> Prop) ts us : begins P ts -> begins P (ts ++ us).
Proof. intros (t & r & -> & H). exists t, (r ++ us). split; [reflexivity|exact H]. Qed.
Lemma begins_le (P Q : token -> Prop) ts : (forall t, P t -> Q t) -> begins P ts -> begins Q ts.
Proof. intros H (t & r & -> & Ht). exists t, r. auto. Qed.
Lemma begins_closing e3 e1 : begins tail_token (closing e3 e1).
Proof. destruct e3, e1; eexists _, _; (split; [reflexivity|]); right; unfold final; auto. Qed.
Lemma begins_body body bts : briefs body_n [] body bts -> Forall expressible body -> (forall x r, body = x :: r -> opens_body x) -> forall us, begins tail_token us -> begins tail_token (bts ++ us).
Proof.
  intros Hb He Ho us Hu. destruct body as [|[q a ns|w|w|w] r].
  - inversion Hb; subst. exact Hu.
  - apply begins_app. destruct (briefs_first _ _ _ _ _ _ _ Hb) as (t & r' & -> & Hop). exists t, r'. split; [reflexivity|]. left. right.
    inversion Hop as [q0 a0 ns0|q0 q1 b1 l1 r1 Hs]; subst.
    + eexists _, _. split; [reflexivity|]. exact (Ho _ _ eq_refl).
    + eexists _, _. split; [reflexivity|]. destruct (bare_cases _ _ _ _ Hs) as [(_ & X & _)|(_ & X & _)]; apply named_element, in_one in X; rewrite X; reflexivity.
  - pose proof (Ho _ _ eq_refl) as Hop. inversion Hb as [|? ? ? ? ts0 ts1 cut' H1 H2]; subst. inversion H1; subst. rewrite <- app_assoc. destruct w as [|c w]; [contradiction|].
    eexists _, _. split; [reflexivity|]. left. left. exists c. split; [reflexivity|exact Hop].
  - destruct (Ho _ _ eq_refl).
  - destruct (Ho _ _ eq_refl).
Qed.

Lemma head_name q a ns path : fits Head path (Element q a ns) -> in_names head_names (q_name q) = true.
Proof.
  intros Hx. cbn [fits] in Hx. destruct Hx as [_ Hx].
  destruct (in_names ["base"; "basefont"; "bgsound"; "link"; "meta"]%string (q_name q)) eqn:E; [|destruct Hx as [Hx _]]; revert E Hx; generalize (q_name q); intros n E Hx.
  - clear Hx. name_cases E; reflexivity.
  - clear E. name_cases Hx; reflexivity.
Qed.

Lemma comments_apart ns : Forall is_comment_node ns -> no_double_text ns = true.
Proof. induction 1 as [|n ns (w & ->) _ IH]; [reflexivity|exact IH]. Qed.

Section Document.
Variables (a1 a2 a3 : list (qname * str)) (before between head body : list node) (bts : list token) (o1 o2 o3 e1 e2 e3 : bool).
Hypothesis O1 : o1 = false -> a1 = [] /\ before = [].
Hypothesis O2 : o2 = false -> a2 = [] /\ (forall x r, head = x :: r -> exists q a ns, x = Element q a ns).
Hypothesis E2 : e2 = false -> between = [].
Hypothesis O3 : o3 = false -> a3 = [] /\ (forall x r, body = x :: r -> opens_body x).
Hypothesis Hbe : Forall is_comment_node before.
Hypothesis Hbt : Forall blank_or_comment between.
Hypothesis Hbd : no_double_text between = true.
Hypothesis Hhf : Forall (fits Head [head_n; html_n]) head.
Hypothesis Hhd : no_double_text head = true.
Hypothesis Hbf : Forall (fits Flow [body_n; html_n]) body.
Hypothesis Hbod : no_double_text body = true.
Hypothesis (Ha1 : attrs_ok a1) (Ha2 : attrs_ok a2) (Ha3 : attrs_ok a3).
Hypothesis (Hhe : Forall expressible head) (Hboe : Forall expressible body).
Hypothesis Hb : briefs body_n [] body bts.

Definition from_body := bts ++ closing e3 e1.
Definition from_after := tok_if o3 (stag body_n a3) ++ from_body.
Definition from_head := tok_if e2 (etag head_n) ++ flat_map toks between ++ from_after.
Definition from_html := tok_if o2 (stag head_n a2) ++ flat_map toks head ++ from_head.
Definition from_root := tok_if o1 (stag html_n a1) ++ flat_map toks before ++ from_html.

Lemma win_body d e b hd sk sw s : good d [b; e] IN_BODY hd sk sw s -> e_name b = hq body_n -> e_name e = hq html_n -> wfk d [b; e] ->
  sk = false -> ends_in_text d (e_id b) = false -> win 24 from_body (add_nodes d (e_id b) body) s.
Proof.
  intros G Eb Ee Hw -> Hx. assert (top_html [b; e]) as Hh by (cbn; rewrite Eb; reflexivity).
  destruct (briefs_run _ _ _ _ Hb Flow [body_n; html_n] [html_n] [b; e] d hd s (first (closing e3 e1) (new_token T_END_OF_FILE))) as (s1 & R1 & L1); auto.
  - apply at_body.
  - unfold stack_path. cbn [map]. rewrite Eb, Ee. reflexivity.
  - eapply before_at; [eapply at_good; exact G|exact Hh|exact Hb| |].
    + rewrite (g_skip _ _ _ _ _ _ _ G). discriminate.
    + intros n r _ _. exact Hx.
  - intros n Hn. apply skip_final; [exact Hn|apply first_closing].
  - destruct (lag_final _ _ _ _ _ L1) as (k0 & sk & sw0 & Hk & G1). destruct (close_run _ _ _ _ _ _ _ _ e3 e1 Hk Eb G1) as (s2 & R2 & D2).
    eapply win_runs; [eapply runs_app; [exact R1|exact R2]| |exact D2]. intros X. apply app_eq_nil in X as [_ X]. clear -X. destruct e3, e1; discriminate X.
Qed.
Lemma begins_after : begins after_head_token from_after.
Proof.
  unfold from_after, from_body. destruct o3; cbn [tok_if app].
  - eexists _, _. split; [reflexivity|]. right. eauto.
  - eapply begins_le with (P := tail_token); [intros t Ht; now left|]. eapply begins_body; [exact Hb|exact Hboe|apply O3; reflexivity|apply begins_closing].
Qed.
Lemma win_after d e hd sw s : good d [e] AFTER_HEAD hd false sw s -> e_name e = hq html_n -> wfk d [e] -> win 25 from_after (add_node d (e_id e) (Element (hq body_n) a3 body)) s.
Proof.
  intros G Ee Hw. assert (forall a, add_node d (e_id e) (Element (hq body_n) a body) = add_nodes (opened d [e] body_n a) (e_id (opening d body_n)) body) as Ed by reflexivity. rewrite Ed.
  unfold from_after. destruct o3; cbn [tok_if].
  - destruct (body_open a3 _ _ _ _ _ G Ee Hw Ha3) as (s1 & R1 & G1).
    eapply win_app; [lia|exact R1|]. apply win_le with (n := 24); [lia|].
    eapply win_body; [exact G1|reflexivity|exact Ee|apply wfk_opened; [exact Hw|discriminate]|reflexivity|apply ends_new].
  - destruct (O3 eq_refl) as [-> Ho]. cbn [app]. destruct (begins_body _ _ Hb Hboe Ho (closing e3 e1) (begins_closing _ _)) as (t & us & Et & Ht).
    assert (not_early t) as Hn by (apply early_html; left; left; left; exact Ht).
    destruct (jump_body t d e hd (set_skip false (set_switch None s))) as (s1 & G1 & J); [eapply good_skip, good_switch, G|exact Ee|exact Hw|exact Ht|].
    unfold from_body. rewrite Et. eapply win_jump; [exact Hn|apply (g_switch _ _ _ _ _ _ _ G1)|exact J|]. rewrite <- Et.
    eapply win_body; [exact G1|reflexivity|exact Ee|apply wfk_opened; [exact Hw|discriminate]|reflexivity|apply ends_new].
Qed.
Lemma begins_head : begins in_head_token from_head.
Proof.
  unfold from_head. destruct e2; cbn [tok_if app].
  - eexists _, _. split; [reflexivity|]. right. auto.
  - rewrite (E2 eq_refl). cbn [flat_map app]. eapply begins_le; [|exact begins_after]. intros t Ht. now left.
Qed.
Lemma win_head d e eh hd sk sw s : good d [eh; e] IN_HEAD hd sk sw s -> e_name eh = hq head_n -> e_name e = hq html_n -> wfk d [eh; e] -> wfk d [e] -> ends_in_text d (e_id e) = false ->
  win 26 from_head (add_node (add_nodes d (e_id e) between) (e_id e) (Element (hq body_n) a3 body)) s.
Proof.
  intros G Eh Ee Hw Hw' Hx. assert (top_html [e]) as Hh by (cbn; rewrite Ee; reflexivity). unfold from_head. destruct e2; cbn [tok_if].
  - destruct (head_close d eh [e] hd s ltac:(eauto) Eh) as (s7 & R7 & G7). eapply win_app; [lia|exact R7|].
    destruct (between_run AFTER_HEAD between (or_intror (conj eq_refl Hbt)) _ _ _ _ _ _ G7 Hh Hw') as (s8 & R8 & sw8 & G8); auto.
    eapply win_app; [lia|exact R8|]. apply win_le with (n := 25); [lia|]. eapply win_after; [exact G8|exact Ee|]. apply wfk_adds; [exact Hw'|discriminate].
  - rewrite (E2 eq_refl). cbn [flat_map app add_nodes fold_left]. destruct begins_after as (t & us & Et & Ht). rewrite Et.
    assert (not_early t) as Hn by (apply early_html; left; left; exact Ht).
    destruct (jump_after t d eh [e] hd (set_skip false (set_switch None s))) as (s1 & G1 & J); [eapply good_skip, good_switch, G|exact Eh|exact Ht|].
    eapply win_jump; [exact Hn|apply (g_switch _ _ _ _ _ _ _ G1)|exact J|]. rewrite <- Et.
    eapply win_after; [exact G1|exact Ee|exact Hw'].
Qed.
Lemma begins_html : begins in_html_token from_html.
Proof.
  unfold from_html. destruct o2; cbn [tok_if app].
  - eexists _, _. split; [reflexivity|]. right. eauto.
  - destruct (O2 eq_refl) as [_ Ho]. apply (begins_le in_head_token); [intros t Ht; now left|]. destruct head as [|x r]; [exact begins_head|].
    destruct (Ho _ _ eq_refl) as (q & a & ns & ->). cbn [flat_map toks app]. eexists _, _. split; [reflexivity|]. right. right. eexists _, _. split; [reflexivity|].
    inversion Hhf as [|? ? Hx _]; subst. exact (head_name _ _ _ _ Hx).
Qed.
Lemma win_html d e sw s : good d [e] BEFORE_HEAD None false sw s -> e_name e = hq html_n -> wfk d [e] ->
  win 27 from_html (add_node (add_nodes (add_node d (e_id e) (Element (hq head_n) a2 head)) (e_id e) between) (e_id e) (Element (hq body_n) a3 body)) s.
Proof.
  intros G Ee Hw. set (eh := opening d head_n).
  assert (forall sw s, good (opened d [e] head_n a2) [eh; e] IN_HEAD (Some eh) false sw s ->
    win 26 (flat_map toks head ++ from_head) (add_node (add_nodes (add_node d (e_id e) (Element (hq head_n) a2 head)) (e_id e) between) (e_id e) (Element (hq body_n) a3 body)) s) as Hin.
  { intros sw5 s5 G5. assert (wfk (opened d [e] head_n a2) [eh; e]) as W5 by (apply wfk_opened; [exact Hw|discriminate]).
    destruct (nodes_ok Head head) with (path := [head_n; html_n]) (k := [eh; e]) (d := opened d [e] head_n a2) (hd := Some eh) (s := s5) as (s6 & R6 & sk6 & sw6 & G6); auto.
    { apply Forall_forall. intros x _. apply every_node. }
    { eapply at_good. exact G5. }
    { apply at_head. }
    { unfold stack_path. cbn [map]. rewrite Ee. reflexivity. }
    { rewrite (g_skip _ _ _ _ _ _ _ G5). discriminate. }
    { intros n r _ _. apply ends_new. }
    change (add_node d (e_id e) (Element (hq head_n) a2 head)) with (add_nodes (opened d [e] head_n a2) (top [eh; e]) head).
    set (d6 := add_nodes (opened d [e] head_n a2) (top [eh; e]) head) in *. assert (wfk d6 [eh; e]) as W6 by (apply wfk_adds; [exact W5|discriminate]).
    assert (wfk d6 [e]) as W6' by (apply wfk_tail in W6; exact W6).
    eapply win_app; [lia|exact R6|]. eapply win_head; [exact G6|reflexivity|exact Ee|exact W6|exact W6'|].
    change d6 with (add_node d (e_id e) (Element (hq head_n) a2 head)). rewrite ends_add; [reflexivity|]. apply (wfk_top d [e] Hw). discriminate. }
  unfold from_html. destruct o2; cbn [tok_if].
  - destruct (head_open a2 _ _ _ _ G Ee Hw Ha2) as (s5 & R5 & G5). eapply win_app; [lia|exact R5|]. apply win_le with (n := 26); [lia|]. eapply Hin. exact G5.
  - destruct (O2 eq_refl) as [Ea Ho]. cbn [app].
    assert (begins in_head_token (flat_map toks head ++ from_head)) as (t & us & Et & Ht).
    { destruct head as [|x r]; [exact begins_head|].
      destruct (Ho _ _ eq_refl) as (q & a & ns & ->). cbn [flat_map toks app]. eexists _, _. split; [reflexivity|]. right. right. eexists _, _. split; [reflexivity|].
      inversion Hhf as [|? ? Hx _]; subst. exact (head_name _ _ _ _ Hx). }
    assert (not_early t) as Hn by (apply early_html; left; exact Ht).
    destruct (jump_head t d e (set_skip false (set_switch None s))) as (s1 & G1 & J); [eapply good_skip, good_switch, G|exact Ee|exact Hw|exact Ht|].
    rewrite Et. eapply win_jump; [exact Hn|apply (g_switch _ _ _ _ _ _ _ G1)|exact J|]. rewrite <- Et. eapply Hin. rewrite Ea. exact G1.
Qed.
Lemma win_root d m sk sw s : m = INITIAL \/ m = BEFORE_HTML -> good d [] m None sk sw s -> 0 < length d ->
  win 29 from_root (add_node d 0 (Element (hq html_n) a1 (before ++ [Element (hq head_n) a2 head] ++ between ++ [Element (hq body_n) a3 body]))) s.
Proof.
  intros Hm G Hl. set (e := opening d html_n). set (d3 := put_under d 0 (KElement (hq html_n) a1)).
  assert (wfk d3 [e]) as W3 by (apply wfk_root, Hl). assert (top_html [e]) as Hh by reflexivity.
  assert (forall sw s, good d3 [e] BEFORE_HEAD None false sw s ->
    win 27 (flat_map toks before ++ from_html) (add_node d 0 (Element (hq html_n) a1 (before ++ [Element (hq head_n) a2 head] ++ between ++ [Element (hq body_n) a3 body]))) s) as Hin.
  { intros sw3 s3 G3. destruct (between_run BEFORE_HEAD before (or_introl (conj eq_refl Hbe)) _ _ _ _ _ _ G3 Hh W3) as (s4 & R4 & sw4 & G4); auto.
    { now apply comments_apart. }
    { intros n r E Ht. rewrite E in Hbe. inversion Hbe as [|? ? (w & ->) _]; subst. discriminate. }
    eapply win_app; [lia|exact R4|]. rewrite add_element, !add_nodes_app.
    pose proof (win_html _ e _ _ G4 eq_refl (wfk_adds _ _ _ W3 ltac:(discriminate))) as X. exact X. }
  unfold from_root. destruct o1; cbn [tok_if].
  - destruct (html_open a1 _ _ _ _ _ Hm G Hl Ha1) as (s3 & R3 & G3). eapply win_app; [lia|exact R3|]. apply win_le with (n := 27); [lia|]. eapply Hin. exact G3.
  - destruct (O1 eq_refl) as [Ea Eb]. cbn [app]. rewrite Eb at 1. cbn [flat_map app].
    destruct begins_html as (t & us & Et & Ht). pose proof (early_html _ Ht) as Hn. rewrite Et.
    assert (forall s, good d [] BEFORE_HTML None false None s ->
      win 28 (t :: us) (add_node d 0 (Element (hq html_n) a1 (before ++ [Element (hq head_n) a2 head] ++ between ++ [Element (hq body_n) a3 body]))) s) as H2.
    { intros s2 G2. destruct (jump_html t d (set_skip false (set_switch None s2))) as (s3 & G3 & J); [eapply good_skip, good_switch, G2|exact Hl|exact Ht|].
      eapply win_jump; [exact Hn|apply (g_switch _ _ _ _ _ _ _ G3)|exact J|]. rewrite <- Et.
      specialize (Hin None s3). rewrite Eb in Hin at 1. apply Hin. unfold d3. rewrite Ea. exact G3. }
    destruct Hm as [->| ->].
    + destruct (jump_initial t d (set_skip false (set_switch None s))) as (s2 & G2 & J); [eapply good_skip, good_switch, G|exact Ht|].
      eapply win_jump; [exact Hn|apply (g_switch _ _ _ _ _ _ _ G2)|exact J|]. apply H2, G2.
    + apply win_le with (n := 28); [lia|].
      assert (win 28 (t :: us) (add_node d 0 (Element (hq html_n) a1 (before ++ [Element (hq head_n) a2 head] ++ between ++ [Element (hq body_n) a3 body]))) (set_skip false (set_switch None s))) as (s1 & s' & E & H) by (apply H2; eapply good_skip, good_switch, G).
      exists s1, s'. split; [|exact H]. rewrite early_skip by exact Hn. exact E.
Qed.
End Document.

Theorem omitted_run comments doctype before between a1 a2 a3 head body bts o1 o2 o3 e1 e2 e3 :
  Forall is_comment_node comments -> (doctype = [] \/ exists s, doctype = [Doctype s]) -> Forall is_comment_node before ->
  Forall blank_or_comment between -> no_double_text between = true ->
  no_double_text head = true -> Forall (fits Head [head_n; html_n]) head -> no_double_text body = true -> Forall (fits Flow [body_n; html_n]) body ->
  (o1 = false -> a1 = [] /\ before = []) ->
  (o2 = false -> a2 = [] /\ (forall x r, head = x :: r -> exists q a ns, x = Element q a ns)) ->
  (e2 = false -> between = []) ->
  (o3 = false -> a3 = [] /\ (forall x r, body = x :: r -> opens_body x)) ->
  attrs_ok a1 -> attrs_ok a2 -> attrs_ok a3 -> Forall expressible head -> Forall expressible body -> briefs body_n [] body bts ->
  exists s', bruns (flat_map toks comments ++ flat_map toks doctype ++ from_root a1 a2 a3 before between head bts o1 o2 o3 e1 e2 e3) st_init s' /\
    document s' = comments ++ doctype ++ [html_node "html" a1 (before ++ [html_node "head" a2 head] ++ between ++ [html_node "body" a3 body])].
Proof.
  intros Hco Hdt Hbe Hbt Hbd Hhd Hhf Hbod Hbf O1 O2 E2 O3 Ha1 Ha2 Ha3 Hhe Hboe Hb.
  assert (good dom0 [] INITIAL None false None st_init) as G0 by (constructor; try reflexivity; constructor).
  destruct (first_comments comments dom0 _ _ _ Hco G0 ltac:(cbn; lia)) as (s1 & R1 & sk1 & sw1 & G1).
  set (d1 := add_nodes dom0 0 comments) in *. assert (0 < length d1) as L1 by (pose proof (add_nodes_length dom0 0 comments ltac:(cbn; lia)) as L; cbn [dom0 length] in L; unfold d1; lia).
  assert (exists s2 m2 sk2 sw2, runs (flat_map toks doctype) s1 s2 /\ (m2 = INITIAL \/ m2 = BEFORE_HTML) /\ good (add_nodes d1 0 doctype) [] m2 None sk2 sw2 s2) as (s2 & m2 & sk2 & sw2 & R2 & Hm2 & G2).
  { destruct Hdt as [->|(w & ->)].
    - exists s1, INITIAL, sk1, sw1. split; [constructor|]. split; [auto|exact G1].
    - destruct (the_doctype w _ _ _ _ G1 L1) as (s2 & R2 & sk2 & sw2 & G2). exists s2, BEFORE_HTML, sk2, sw2. split; [exact R2|]. split; [auto|exact G2]. }
  set (d2 := add_nodes d1 0 doctype) in *. assert (0 < length d2) as L2 by (pose proof (add_nodes_length d1 0 doctype L1); unfold d2; lia).
  destruct (win_bruns 29 _ _ _ ltac:(lia) (win_root a1 a2 a3 before between head body bts o1 o2 o3 e1 e2 e3 O1 O2 E2 O3 Hbe Hbt Hbd Hhf Hhd Hbf Hbod Ha1 Ha2 Ha3 Hhe Hboe Hb d2 m2 sk2 sw2 s2 Hm2 G2 L2)) as (s' & R3 & D).
  exists s'. split.
  - eapply bruns_app; [apply runs_bruns, R1|]. eapply bruns_app; [apply runs_bruns, R2|]. exact R3.
  - apply document_add. rewrite D, !add_nodes_app. reflexivity.
Qed.
