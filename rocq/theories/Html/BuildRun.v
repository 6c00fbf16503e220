(** Whole nodes: text, comments, empty and raw elements. *)
From Coq Require Import String List Arith Bool NArith Lia Permutation.
From Verif.Base Require Import Str.
From Verif.Html Require Import LexerModel SerialModel SerialSpec SerialProofs BuildModel BuildSpec BuildDom BuildSteps BuildTags BuildStart BuildEnd BuildMono.
Import ListNotations.
Local Open Scope list_scope.
Local Infix ";;" := seq (at level 61, right associativity).

(** ** Runs *)
(** One token, with as little fuel as suffices here; [build1] has at least this (BuildMono.v). *)
Definition calls : nat := 24.
Lemma calls_24 : calls = 24.
Proof. reflexivity. Qed.
Global Opaque calls.
Definition take1 (t : token) (s : st) : bres st := dispatch calls None t (set_switch None s).
Definition step (t : token) (s s' : st) : Prop :=
  take1 t s = Done s' /\ (t_type t = T_START_TAG -> forall n, t_name t = Some n -> s_switch s' = mode_of n).
Inductive runs : list token -> st -> st -> Prop :=
| runs_nil s : runs [] s s
| runs_cons t ts s s1 s2 : step t s s1 -> runs ts s1 s2 -> runs (t :: ts) s s2.
Lemma runs_app ts us s s1 s2 : runs ts s s1 -> runs us s1 s2 -> runs (ts ++ us) s s2.
Proof. induction 1; intros H'; [exact H'|]. cbn [app]. econstructor; eauto. Qed.
Lemma runs_one t s s' : step t s s' -> runs [t] s s'.
Proof. intros H. econstructor; [exact H|constructor]. Qed.

Lemma take1_build t s s' : take1 t s = Done s' -> build1 t s = Done s'.
Proof. apply dispatch_mono. rewrite calls_24. unfold max_calls. lia. Qed.

(** ** The elements of the stack are in the document *)
Definition elems_ok (d : dom) (k : list elem) : Prop := Forall (fun e => exists a, kind_of d (e_id e) = Some (KElement (e_name e) a)) k.
Definition wfk (d : dom) (k : list elem) : Prop := ids_ok d k /\ elems_ok d k.

Lemma grows_kind p d d' new i : grows p d d' new -> i < length d -> kind_of d' i = kind_of d i.
Proof.
  intros (G1 & G2 & G3 & _) Hi. unfold kind_of. destruct (Nat.eq_dec i p) as [->|Hn].
  - rewrite G2. now destruct (nth_error d p).
  - rewrite G3 by assumption. reflexivity.
Qed.
Lemma wfk_grows p d d' new k : grows p d d' new -> wfk d k -> wfk d' k.
Proof.
  intros G [[Hn Hl] He]. pose proof (proj1 G) as G1. split; [split; [exact Hn|]|].
  - eapply Forall_impl; [|exact Hl]. cbn. intros. lia.
  - unfold elems_ok in *. rewrite Forall_forall in *. intros e Hi. destruct (He e Hi) as [a Ea]. exists a. rewrite (grows_kind _ _ _ _ _ G); [exact Ea|apply Hl, Hi].
Qed.
Lemma wfk_top d k : wfk d k -> k <> [] -> top k < length d.
Proof. intros [[_ Hl] _] Hk. destruct k as [|e k]; [congruence|]. now inversion Hl. Qed.
Lemma wfk_opened d k n a : wfk d k -> k <> [] -> wfk (opened d k n a) (opening d n :: k).
Proof.
  intros H Hk. pose proof (wfk_top _ _ H Hk) as Ht. pose proof (wfk_grows _ _ _ _ _ (grows_put d (top k) (KElement (hq n) a) Ht) H) as [_ He].
  split; [apply ids_opened, H|]. constructor; [|exact He]. exists a. cbn [opening e_id e_name]. unfold kind_of, opened. rewrite nth_put_new. reflexivity.
Qed.
Lemma wfk_add d k n : wfk d k -> k <> [] -> wfk (add_node d (top k) n) k.
Proof. intros H Hk. destruct (add_node_grows n d (top k) (wfk_top _ _ H Hk)) as [Hg _]. eapply wfk_grows; eauto. Qed.
Lemma wfk_adds d k ns : wfk d k -> k <> [] -> wfk (add_nodes d (top k) ns) k.
Proof. intros H Hk. destruct (add_nodes_reads ns d (top k) (wfk_top _ _ H Hk)) as (new & Hg & _). eapply wfk_grows; eauto. Qed.
Lemma wfk_tail d e k : wfk d (e :: k) -> wfk d k.
Proof. intros [[H1 H2] H3]. inversion H1; inversion H2; inversion H3; subst. split; [split|]; assumption. Qed.

(** ** Text *)
Definition top_html (k : list elem) : Prop := match k with e :: _ => is_html (e_name e) = true | [] => False end.
Lemma path_top_html c path k : path_at c path -> stack_path k path -> top_html k.
Proof.
  intros Hp Hk. destruct path as [|x p]; [inversion Hp|]. destruct k as [|e k]; [discriminate|]. unfold stack_path in Hk. cbn [map] in Hk. injection Hk as E _.
  cbn [top_html]. rewrite E. reflexivity.
Qed.
Lemma top_html_ne k : top_html k -> k <> [].
Proof. destruct k; [intros []|discriminate]. Qed.

Lemma char_first d k m hd sk sw s c : good d k m hd sk sw s -> k <> [] -> wfk d k -> ends_in_text d (top k) = false ->
  insert_char c s = Done (set_dom (put_under d (top k) (KText [c])) s).
Proof.
  intros G Hk Hw He. pose proof (wfk_top _ _ Hw Hk) as Ht. destruct k as [|e k]; [congruence|]. cbn [top] in *.
  unfold insert_char, place, current. rewrite (g_stack _ _ _ _ _ _ _ G), (g_foster _ _ _ _ _ _ _ G). cbn [andthen andb l_parent].
  rewrite (g_dom _ _ _ _ _ _ _ G). destruct Hw as [_ Hw]. inversion Hw as [|? ? [a Ea] _]; subst. rewrite Ea.
  unfold loc_previous. cbn [l_before l_parent loc_insert]. unfold ends_in_text in He. rewrite append_new by exact Ht.
  destruct (hd_error (rev (kids d (e_id e)))) as [j|]; [|reflexivity]. destruct (kind_of d j) as [[]|]; try reflexivity. discriminate He.
Qed.
Lemma char_next d k m hd sk sw s w c : good (put_under d (top k) (KText w)) k m hd sk sw s -> k <> [] -> wfk d k ->
  insert_char c s = Done (set_dom (put_under d (top k) (KText (w ++ [c]))) s).
Proof.
  intros G Hk Hw. pose proof (wfk_top _ _ Hw Hk) as Ht. pose proof (wfk_grows _ _ _ _ _ (grows_put d (top k) (KText w) Ht) Hw) as [_ Hw']. destruct k as [|e k]; [congruence|]. cbn [top] in *.
  unfold insert_char, place, current. rewrite (g_stack _ _ _ _ _ _ _ G), (g_foster _ _ _ _ _ _ _ G). cbn [andthen andb l_parent].
  rewrite (g_dom _ _ _ _ _ _ _ G). inversion Hw' as [|? ? [a Ea] _]; subst. rewrite Ea.
  unfold loc_previous. cbn [l_before l_parent loc_insert]. unfold kids. rewrite nth_put_parent by exact Ht.
  destruct (nth_error d (e_id e)) as [x|] eqn:Ex; [|apply nth_error_None in Ex; lia]. cbn [option_map set_kids d_kids]. rewrite rev_unit. cbn [hd_error].
  unfold kind_of. rewrite nth_put_new. cbn [d_kind]. rewrite put_append by exact Ht. reflexivity.
Qed.

(** A character is inserted in this mode. *)
Definition char_rule (k : list elem) (m : mode) (c : N) : Prop := forall f (s : st) d hd sw, 6 <= f -> good d k m hd false sw s ->
  exists b : bool, dispatch f None (char_token c) s = andthen (insert_char c s) (fun s => Done (if b then set_frameset false s else s)).

Lemma skip_first f t s : (s_skip_lf s = true -> is_lf t = false) -> dispatch (S f) None t s = dispatch (S f) None t (set_skip false s).
Proof.
  intros H. cbn [dispatch]. assert (s_skip_lf s && (is_char t && (t_rune t =? 10)%N) = false) as ->.
  { destruct (s_skip_lf s); [exact (H eq_refl)|reflexivity]. }
  reflexivity.
Qed.
Lemma take1_eq t s : (s_skip_lf s = true -> is_lf t = false) -> take1 t s = dispatch calls None t (set_skip false (set_switch None s)).
Proof.
  intros H. unfold take1. pose proof calls_24. destruct calls as [|f]; [discriminate|]. apply skip_first. exact H.
Qed.

Lemma text_run k m hd w : Forall (char_rule k m) w -> w <> [] -> k <> [] -> forall d sk sw s, wfk d k -> good d k m hd sk sw s ->
  (sk = true -> hd_error w <> Some 10%N) -> ends_in_text d (top k) = false ->
  exists s', runs (map char_token w) s s' /\ good (put_under d (top k) (KText w)) k m hd false None s' /\ s_orig s' = s_orig s.
Proof.
  intros Hw Hne Hk d sk sw s Hd G Hsk He. destruct w as [|c w]; [congruence|]. inversion Hw as [|? ? Hc Hw']; subst. clear Hne Hw.
  pose proof (good_skip _ _ _ _ _ _ _ false (good_switch _ _ _ _ _ _ _ None G)) as G0.
  destruct (Hc calls _ _ _ _ ltac:(pose proof calls_24; lia) G0) as [b Eb].
  rewrite (char_first _ _ _ _ _ _ _ c G0 Hk Hd He) in Eb. cbn [andthen] in Eb.
  set (s1 := if b then set_frameset false (set_dom (put_under d (top k) (KText [c])) (set_skip false (set_switch None s))) else set_dom (put_under d (top k) (KText [c])) (set_skip false (set_switch None s))) in *.
  assert (step (char_token c) s s1) as St.
  { split; [|discriminate]. rewrite take1_eq; [exact Eb|]. rewrite (g_skip _ _ _ _ _ _ _ G). intros ->. cbn [is_lf char_token is_char ttype_eqb t_type t_rune andb]. apply N.eqb_neq. intros ->. apply Hsk; reflexivity. }
  assert (good (put_under d (top k) (KText [c])) k m hd false None s1) as G1.
  { unfold s1. destruct G0. destruct b; constructor; auto. }
  assert (s_orig s1 = s_orig s) as O1 by (unfold s1; destruct b; reflexivity).
  assert (exists s', runs (map char_token w) s1 s' /\ good (put_under d (top k) (KText ([c] ++ w))) k m hd false None s' /\ s_orig s' = s_orig s1) as (s' & R & G' & O').
  { clearbody s1. clear -Hw' G1 Hk Hd. revert s1 G1. generalize [c] as pre. clear c. induction Hw' as [|c w Hc Hw IH]; intros pre s G.
    - exists s. rewrite app_nil_r. split; [constructor|]. split; [exact G|reflexivity].
    - pose proof (good_skip _ _ _ _ _ _ _ false (good_switch _ _ _ _ _ _ _ None G)) as G0.
      destruct (Hc calls _ _ _ _ ltac:(pose proof calls_24; lia) G0) as [b Eb].
      rewrite (char_next _ _ _ _ _ _ _ _ c G0 Hk Hd) in Eb. cbn [andthen] in Eb.
      match type of Eb with _ = Done ?x => set (s1 := x) in * end.
      assert (step (char_token c) s s1) as St.
      { split; [|discriminate]. rewrite take1_eq; [exact Eb|]. rewrite (g_skip _ _ _ _ _ _ _ G). discriminate. }
      assert (good (put_under d (top k) (KText (pre ++ [c]))) k m hd false None s1) as G1 by (unfold s1; destruct G0; destruct b; constructor; auto).
      destruct (IH (pre ++ [c]) s1 G1) as (s' & R & G' & O'). exists s'. rewrite <- app_assoc in G'. split; [econstructor; eassumption|]. split; [exact G'|].
      rewrite O'. unfold s1. destruct b; reflexivity. }
  exists s'. split; [econstructor; eassumption|]. split; [exact G'|congruence].
Qed.

Lemma enter_rules f t s d k m hd sw : 1 <= f -> good d k m hd false sw s -> top_html k ->
  exists f', f = S f' /\ dispatch f None t s = rules (dispatch f' None) (fun m => dispatch f' (Some m)) m t s.
Proof.
  intros Hf G Hh. destruct f as [|f]; [lia|]. exists f. split; [reflexivity|]. destruct k as [|e k]; [destruct Hh|].
  rewrite (enter f t s e k); [|apply (g_stack _ _ _ _ _ _ _ G)|exact Hh|rewrite (g_skip _ _ _ _ _ _ _ G); discriminate].
  rewrite (g_mode _ _ _ _ _ _ _ G). assert (set_skip false s = s) as ->; [|reflexivity].
  pose proof (g_skip _ _ _ _ _ _ _ G) as E. destruct s. cbn in E. rewrite E. reflexivity.
Qed.
Lemma enter_flow f t s d k path hd sw : 2 <= f -> good d k (ctx_mode path) hd false sw s -> top_html k -> table_tag t = false ->
  exists f', f - 2 <= f' /\ dispatch f None t s = on_in_body (dispatch f' None) (fun m => dispatch f' (Some m)) t s.
Proof.
  intros Hf G Hh Ht. destruct k as [|e k]; [destruct Hh|].
  destruct (enter_body f t s e k path Hf (g_stack _ _ _ _ _ _ _ G) Hh) as (f' & Hf' & E);
    [rewrite (g_skip _ _ _ _ _ _ _ G); discriminate|apply (g_mode _ _ _ _ _ _ _ G)|exact Ht|].
  exists f'. split; [exact Hf'|]. rewrite E. assert (set_skip false s = s) as ->; [|reflexivity].
  pose proof (g_skip _ _ _ _ _ _ _ G) as E'. destruct s. cbn in E'. rewrite E'. reflexivity.
Qed.

Lemma char_flow path k c : path_at Flow path -> stack_path k path -> c <> 0%N -> char_rule k (ctx_mode path) c.
Proof.
  intros Hp Hk Hc f s d hd sw Hf G. pose proof (path_top_html _ _ _ Hp Hk) as Hh.
  destruct (enter_flow f (char_token c) s d k path hd sw ltac:(lia) G Hh eq_refl) as (f' & _ & E). rewrite E.
  unfold on_in_body. assert (is_nul (char_token c) = false) as -> by (cbn; now apply N.eqb_neq).
  destruct (is_blank (char_token c)).
  - exists false. unfold seq. rewrite (reconstruct_nop _ _ _ _ _ _ _ G). cbn [andthen]. cbn [char_token t_rune]. now destruct (insert_char c s).
  - exists true. change (is_char (char_token c)) with true. unfold seq. rewrite (reconstruct_nop _ _ _ _ _ _ _ G). cbn [andthen]. cbn [char_token t_rune]. now destruct (insert_char c s).
Qed.
Lemma char_text k c : top_html k -> c <> 0%N -> char_rule k TEXT c.
Proof.
  intros Hh Hc f s d hd sw Hf G. destruct (enter_rules f (char_token c) s d k TEXT hd sw ltac:(lia) G Hh) as (f' & _ & E). exists false. rewrite E.
  cbn [rules]. unfold on_text. change (is_char (char_token c)) with true. cbn [char_token t_rune]. apply N.eqb_neq in Hc. rewrite Hc. now destruct (insert_char c s).
Qed.
Lemma blank4 c : blank c -> is_blank4 (char_token c) = true.
Proof. intros [->|[->|[->| ->]]]; reflexivity. Qed.
Lemma blank5 c : blank c -> is_blank (char_token c) = true.
Proof. intros [->|[->|[->| ->]]]; reflexivity. Qed.
Lemma char_blank k m c : top_html k -> m = IN_HEAD \/ m = AFTER_HEAD \/ m = IN_COLUMN_GROUP -> blank c -> char_rule k m c.
Proof.
  intros Hh Hm Hc f s d hd sw Hf G. destruct (enter_rules f (char_token c) s d k m hd sw ltac:(lia) G Hh) as (f' & _ & E). exists false. rewrite E.
  destruct Hm as [->|[->| ->]]; cbn [rules]; [unfold on_in_head; rewrite (blank4 _ Hc)|unfold on_after_head; rewrite (blank5 _ Hc)|unfold on_in_column_group; rewrite (blank5 _ Hc)];
    cbn [char_token t_rune]; now destruct (insert_char c s).
Qed.

(** ** Comments *)
Lemma comment_insert d k m hd sk sw s c : good d k m hd sk sw s -> k <> [] -> wfk d k ->
  exists s', insert_comment (comment_token c) s = Done s' /\ good (put_under d (top k) (KComment c)) k m hd sk sw s'.
Proof.
  intros G Hk Hw. pose proof (wfk_top _ _ Hw Hk) as Ht. destruct k as [|e k]; [congruence|]. cbn [top] in *.
  unfold insert_comment, place, current. rewrite (g_stack _ _ _ _ _ _ _ G), (g_foster _ _ _ _ _ _ _ G). cbn [andthen andb l_parent].
  unfold insert_comment_at. cbn [loc_insert l_before l_parent comment_token t_data]. rewrite (g_dom _ _ _ _ _ _ _ G), append_new by exact Ht.
  eexists. split; [reflexivity|]. destruct G. constructor; auto.
Qed.

(** ** A tag in a state without pending text *)
Lemma tag_step t d k m hd sk sw s s' : is_char t = false -> good d k m hd sk sw s ->
  (forall f s0, 20 <= f -> good d k m hd false None s0 -> (s0 = set_skip false (set_switch None s)) -> dispatch f None t s0 = Done s') ->
  take1 t s = Done s'.
Proof.
  intros Ht G H. rewrite take1_eq; [|intros _; unfold is_lf; rewrite Ht; reflexivity].
  apply H; [pose proof calls_24; lia| |reflexivity]. eapply good_skip, good_switch, G.
Qed.

Lemma step_good t d k m hd sk sw s (Q : st -> Prop) : is_char t = false -> good d k m hd sk sw s ->
  (forall f s0, 20 <= f -> good d k m hd false None s0 -> exists s', dispatch f None t s0 = Done s' /\ Q s') ->
  exists s', take1 t s = Done s' /\ Q s'.
Proof.
  intros Ht G H. rewrite take1_eq; [|intros _; unfold is_lf; rewrite Ht; reflexivity].
  apply H; [pose proof calls_24; lia|]. eapply good_skip, good_switch, G.
Qed.

(** ** Raw text *)
Lemma raw_open d k m hd sk sw s n a r : good d k m hd sk sw s -> k <> [] -> wfk d k -> attrs_ok a -> plain n ->
  exists s', raw_text r (stag n a) s = Done s' /\ good (opened d k n a) (opening d n :: k) TEXT hd sk (Some r) s' /\ s_orig s' = m.
Proof.
  intros G Hk [Hi _] Ha P. destruct (insert_plain _ _ _ _ _ _ _ _ _ G Hk Hi Ha P) as (s1 & E1 & G1).
  unfold raw_text, seq. rewrite E1. cbn. eexists. split; [reflexivity|]. split; [destruct G1; constructor; auto|exact (g_mode _ _ _ _ _ _ _ G1)].
Qed.

(** The content and the end tag of a raw element. *)
Lemma raw_close d e k hd sk sw s m ns : wfk d (e :: k) -> top_html (e :: k) -> plain (ename e) -> good d (e :: k) TEXT hd sk sw s -> s_orig s = m ->
  raw_content ns -> (forall w, ns = [Text w] -> ~ In 0%N w) -> (sk = true -> no_first_feed ns) -> ends_in_text d (e_id e) = false -> forall n,
  exists s', runs (flat_map (fun x => match x with Text w => map char_token w | _ => [] end) ns ++ [etag n]) s s' /\
             good (add_nodes d (e_id e) ns) k m hd false None s'.
Proof.
  intros Hw Hh P G O Hr Hz Hf He n.
  assert (exists s1 sk1 sw1, runs (flat_map (fun x => match x with Text w => map char_token w | _ => [] end) ns) s s1 /\
            good (add_nodes d (e_id e) ns) (e :: k) TEXT hd sk1 sw1 s1 /\ s_orig s1 = m) as (s1 & sk1 & sw1 & R1 & G1 & O1).
  { destruct Hr as [->|(w & -> & Hne)].
    - exists s, sk, sw. split; [constructor|]. split; [exact G|exact O].
    - cbn [flat_map]. rewrite app_nil_r.
      destruct (text_run (e :: k) TEXT hd w) with (d := d) (sk := sk) (sw := sw) (s := s) as (s1 & R & G1 & O1); auto.
      + apply Forall_forall. intros c Hc. apply char_text; [exact Hh|]. intros ->. exact (Hz w eq_refl Hc).
      + discriminate.
      + intros Hk E. destruct w as [|c w]; [discriminate|]. injection E as ->. exact (Hf Hk w [] eq_refl).
      + exists s1, false, None. split; [exact R|]. split; [exact G1|congruence]. }
  assert (exists s2, step (etag n) s1 s2 /\ good (add_nodes d (e_id e) ns) k m hd false None s2) as (s2 & S2 & G2).
  { pose proof (good_skip _ _ _ _ _ _ _ false (good_switch _ _ _ _ _ _ _ None G1)) as G0.
    destruct (pop_plain _ _ _ _ _ _ _ _ G0 P) as (s2 & E2 & G2).
    destruct (enter_rules calls (etag n) _ _ _ _ _ _ ltac:(pose proof calls_24; lia) G0 Hh) as (f' & _ & E).
    exists (set_mode m s2). split; [|apply good_mode with (m := TEXT); exact G2]. split; [|discriminate].
    rewrite take1_eq by reflexivity. rewrite E. cbn [rules]. unfold on_text.
    change (is_char (etag n)) with false. change (is_eof (etag n)) with false. change (is_end (etag n)) with true. cbn iota. unfold seq. rewrite E2. cbn [andthen].
    assert (s_orig s2 = m) as ->; [|reflexivity].
    unfold pop in E2. rewrite (g_stack _ _ _ _ _ _ _ G0) in E2. injection E2 as <-. exact O1. }
  exists s2. split; [|exact G2]. eapply runs_app; [exact R1|]. apply runs_one, S2.
Qed.
