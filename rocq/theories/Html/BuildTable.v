(** Tables: text that is held back, and the tags of rows and cells. *)
From Coq Require Import String List Arith Bool NArith Lia Permutation.
From Verif.Base Require Import Str.
From Verif.Html Require Import LexerModel SerialModel SerialSpec SerialProofs BuildModel BuildSpec BuildDom BuildSteps BuildTags BuildStart BuildEnd BuildRun.
Import ListNotations.
Local Open Scope list_scope.
Local Infix ";;" := seq (at level 61, right associativity).

(** ** Text between the tags of a table *)
Definition held (d : dom) (k : list elem) (m : mode) (hd : option elem) (s : st) : Prop :=
  exists d0 w, w <> [] /\ Forall blank w /\ d = put_under d0 (top k) (KText w) /\ wfk d0 k /\ ends_in_text d0 (top k) = false /\
    good d0 k IN_TABLE_TEXT hd false None s /\ s_orig s = m /\ s_pending s = map char_token w.

Lemma each_next k m hd sk sw w : k <> [] -> forall d, wfk d k -> forall pre s, good (put_under d (top k) (KText pre)) k m hd sk sw s ->
  exists s', each (fun x => insert_char (t_rune x)) (map char_token w) s = Done s' /\ good (put_under d (top k) (KText (pre ++ w))) k m hd sk sw s' /\ s_orig s' = s_orig s.
Proof.
  intros Hk d Hd. induction w as [|c w IH]; intros pre s G.
  - exists s. rewrite app_nil_r. split; [reflexivity|]. split; [exact G|reflexivity].
  - cbn [map each]. unfold seq. cbn [char_token t_rune]. rewrite (char_next _ _ _ _ _ _ _ _ c G Hk Hd). cbn [andthen].
    assert (good (put_under d (top k) (KText (pre ++ [c]))) k m hd sk sw (set_dom (put_under d (top k) (KText (pre ++ [c]))) s)) as G1 by (destruct G; constructor; auto).
    destruct (IH _ _ G1) as (s' & E & G' & O'). exists s'. split; [exact E|]. rewrite <- app_assoc in G'. split; [exact G'|]. rewrite O'. reflexivity.
Qed.
Lemma each_chars k m hd sk sw w : w <> [] -> k <> [] -> forall d s, wfk d k -> good d k m hd sk sw s -> ends_in_text d (top k) = false ->
  exists s', each (fun x => insert_char (t_rune x)) (map char_token w) s = Done s' /\ good (put_under d (top k) (KText w)) k m hd sk sw s' /\ s_orig s' = s_orig s.
Proof.
  intros Hne Hk d s Hd G He. destruct w as [|c w]; [congruence|]. cbn [map each]. unfold seq. cbn [char_token t_rune].
  rewrite (char_first _ _ _ _ _ _ _ c G Hk Hd He). cbn [andthen].
  assert (good (put_under d (top k) (KText [c])) k m hd sk sw (set_dom (put_under d (top k) (KText [c])) s)) as G1 by (destruct G; constructor; auto).
  destruct (each_next k m hd sk sw w Hk d Hd [c] _ G1) as (s' & E & G' & O'). exists s'. split; [exact E|]. split; [exact G'|]. rewrite O'. reflexivity.
Qed.

Lemma flush d k m hd s t f : held d k m hd s -> top_html k -> is_char t = false -> 1 <= f ->
  exists s1 f', f = S f' /\ good d k m hd false None s1 /\ dispatch f None t (set_switch None s) = dispatch f' None t s1.
Proof.
  intros (d0 & w & Hne & Hb & -> & Hw & He & G & O & Pe) Hh Ht Hf.
  pose proof (good_switch _ _ _ _ _ _ _ None G) as G0.
  destruct (enter_rules f t _ _ _ _ _ _ Hf G0 Hh) as (f' & -> & E).
  destruct (each_chars _ _ _ _ _ w Hne (top_html_ne _ Hh) _ _ Hw G0 He) as (s' & E' & G' & O').
  exists (set_mode m s'), f'. split; [reflexivity|]. split; [eapply good_mode; exact G'|]. rewrite E. cbn [rules]. unfold on_in_table_text.
  assert (is_nul t = false) as -> by (unfold is_nul; rewrite Ht; reflexivity). rewrite Ht. unfold seq. flds. rewrite Pe.
  assert (existsb (fun x => negb (is_blank x)) (map char_token w) = false) as ->.
  { clear -Hb. induction Hb as [|c w Hc _ IH]; [reflexivity|]. cbn [map existsb]. rewrite (blank5 _ Hc). exact IH. }
  rewrite E'. cbn [andthen]. rewrite O'. flds. rewrite O. reflexivity.
Qed.

(** ** A state in which text may be held back *)
Definition tstate (d : dom) (k : list elem) (m : mode) (hd : option elem) (s : st) : Prop :=
  (exists sk sw, good d k m hd sk sw s) \/ held d k m hd s.
Lemma table_step d k m hd s t (Q : st -> Prop) : tstate d k m hd s -> top_html k -> is_char t = false ->
  (forall f s0, 20 <= f -> good d k m hd false None s0 -> exists s', dispatch f None t s0 = Done s' /\ Q s') ->
  exists s', take1 t s = Done s' /\ Q s'.
Proof.
  intros [(sk & sw & G)|Hd] Hh Ht H.
  - eapply step_good; eauto.
  - pose proof calls_24. destruct (flush _ _ _ _ _ _ calls Hd Hh Ht ltac:(lia)) as (s1 & f' & Ef & G1 & E).
    unfold take1. rewrite E. apply H; [lia|exact G1].
Qed.

Definition table_mode (m : mode) : Prop := m = IN_TABLE \/ m = IN_TABLE_BODY \/ m = IN_ROW.
Definition top_named (l : list string) (k : list elem) : Prop := match k with e :: _ => exists n, e_name e = hq n /\ in_names l n = true | [] => False end.

Lemma table_char d k m hd s c f : table_mode m -> top_named ["table"; "tbody"; "template_"; "tfoot"; "thead"; "tr"]%string k -> top_html k -> blank c -> 6 <= f ->
  good d k m hd false None s ->
  exists s', dispatch f None (char_token c) s = Done s' /\ good d k IN_TABLE_TEXT hd false None s' /\ s_orig s' = m /\ s_pending s' = [char_token c].
Proof.
  intros Hm Hn Hh Hc Hf G. destruct (enter_rules f (char_token c) _ _ _ _ _ _ ltac:(lia) G Hh) as (f' & -> & E). rewrite E.
  assert (forall g, 3 <= g -> exists s', on_in_table (dispatch g None) (fun m => dispatch g (Some m)) (char_token c) s = Done s' /\
            good d k IN_TABLE_TEXT hd false None s' /\ s_orig s' = m /\ s_pending s' = [char_token c]) as HT.
  { intros g Hg. unfold on_in_table, branch. change (is_char (char_token c)) with true. cbn iota.
    assert (cur_one ["table"; "tbody"; "template_"; "tfoot"; "thead"; "tr"]%string s = Done true) as ->.
    { unfold cur_one, cur_is, current. rewrite (g_stack _ _ _ _ _ _ _ G). destruct k as [|e k]; [destruct Hn|]. destruct Hn as (n & En & Hn). cbn [andthen]. rewrite En, qone_h, Hn. reflexivity. }
    cbn [andthen]. unfold seq, pure, keep_mode, switch_to, pure. cbn [andthen].
    set (s1 := set_mode IN_TABLE_TEXT _). assert (good d k IN_TABLE_TEXT hd false None s1) as G1 by (destruct G; constructor; auto).
    destruct (enter_rules g (char_token c) _ _ _ _ _ _ ltac:(lia) G1 Hh) as (g' & -> & E'). rewrite E'. cbn [rules]. unfold on_in_table_text.
    assert (is_nul (char_token c) = false) as -> by (destruct Hc as [->|[->|[->| ->]]]; reflexivity).
    change (is_char (char_token c)) with true. cbn iota. eexists. split; [reflexivity|]. split; [eapply good_pending; exact G1|].
    split; [unfold s1; flds; exact (g_mode _ _ _ _ _ _ _ G)|]. reflexivity. }
  destruct Hm as [->|[->| ->]]; cbn [rules].
  - apply HT. lia.
  - change (on_in_table_body (dispatch f' None) (fun m => dispatch f' (Some m)) (char_token c) s) with (dispatch f' (Some IN_TABLE) (char_token c) s).
    destruct f' as [|f']; [lia|]. cbn [dispatch rules]. apply HT. lia.
  - change (on_in_row (dispatch f' None) (fun m => dispatch f' (Some m)) (char_token c) s) with (dispatch f' (Some IN_TABLE) (char_token c) s).
    destruct f' as [|f']; [lia|]. cbn [dispatch rules]. apply HT. lia.
Qed.

Lemma table_text_run d k m hd sk sw s w : table_mode m -> top_named ["table"; "tbody"; "template_"; "tfoot"; "thead"; "tr"]%string k -> top_html k ->
  w <> [] -> Forall blank w -> wfk d k -> ends_in_text d (top k) = false -> (sk = true -> hd_error w <> Some 10%N) -> good d k m hd sk sw s ->
  exists s', runs (map char_token w) s s' /\ held (put_under d (top k) (KText w)) k m hd s'.
Proof.
  intros Hm Hn Hh Hne Hb Hw He Hsk G. destruct w as [|c w]; [congruence|]. inversion Hb as [|? ? Hc Hb']; subst.
  pose proof (good_skip _ _ _ _ _ _ _ false (good_switch _ _ _ _ _ _ _ None G)) as G0.
  destruct (table_char _ _ _ _ _ c calls Hm Hn Hh Hc ltac:(pose proof calls_24; lia) G0) as (s1 & E1 & G1 & O1 & P1).
  assert (step (char_token c) s s1) as St.
  { split; [|discriminate]. rewrite take1_eq; [exact E1|]. rewrite (g_skip _ _ _ _ _ _ _ G). intros ->. cbn [is_lf char_token is_char ttype_eqb t_type t_rune andb]. apply N.eqb_neq. intros ->. apply Hsk; reflexivity. }
  assert (forall pre s1, good d k IN_TABLE_TEXT hd false None s1 -> s_orig s1 = m -> s_pending s1 = map char_token pre ->
    exists s', runs (map char_token w) s1 s' /\ good d k IN_TABLE_TEXT hd false None s' /\ s_orig s' = m /\ s_pending s' = map char_token (pre ++ w)) as HW.
  { clear -Hb' Hh. induction Hb' as [|c w Hc Hb' IH]; intros pre s1 G1 O1 P1.
    - exists s1. rewrite app_nil_r. split; [constructor|]. split; [exact G1|]. split; [exact O1|exact P1].
    - cbn [map]. pose proof (good_switch _ _ _ _ _ _ _ None G1) as G0.
      destruct (enter_rules calls (char_token c) _ _ _ _ _ _ ltac:(pose proof calls_24; lia) G0 Hh) as (f' & _ & E).
      cbn [rules] in E. unfold on_in_table_text in E. assert (is_nul (char_token c) = false) as En by (destruct Hc as [->|[->|[->| ->]]]; reflexivity).
      rewrite En in E. change (is_char (char_token c)) with true in E. cbn iota in E. unfold pure in E.
      match type of E with _ = Done ?x => set (s2 := x) in * end.
      assert (good d k IN_TABLE_TEXT hd false None s2) as G2 by (unfold s2; eapply good_pending; exact G0).
      destruct (IH (pre ++ [c]) s2 G2) as (s' & R & G' & O' & P').
      + exact O1.
      + unfold s2. flds. rewrite P1, map_app. reflexivity.
      + exists s'. rewrite <- app_assoc in P'. split; [|auto]. econstructor; [|exact R]. split; [exact E|discriminate]. }
  destruct (HW [c] s1 G1 O1 P1) as (s' & R & G' & O' & P'). exists s'. split; [econstructor; eassumption|].
  exists d, (c :: w). split; [discriminate|]. split; [exact Hb|]. split; [reflexivity|]. split; [exact Hw|]. split; [exact He|]. split; [exact G'|]. split; [exact O'|exact P'].
Qed.

(** ** The tags of a table *)
Lemma clear_nop l d k m hd sk sw s : good d k m hd sk sw s -> top_named l k -> clear_back l s = Done s.
Proof.
  intros G Hn. unfold clear_back. rewrite (g_stack _ _ _ _ _ _ _ G). destruct k as [|e k]; [destruct Hn|]. destruct Hn as (n & En & Hn).
  cbn [clear_loop]. rewrite En, qone_h, Hn. cbn [andthen]. rewrite <- (g_stack _ _ _ _ _ _ _ G). now destruct s.
Qed.

Definition opens (d : dom) (k : list elem) (hd : option elem) (n : str) (a : list (qname * str)) (m : mode) (s' : st) : Prop :=
  good (opened d k n a) (opening d n :: k) m hd false None s'.

Section Tags.
Variables (d : dom) (k : list elem) (hd : option elem) (s : st) (a : list (qname * str)) (n : str).
Hypothesis Hk : k <> [].
Hypothesis Hw : wfk d k.
Hypothesis Ha : attrs_ok a.

Lemma box_before m : in_names boxes n = true -> good d k m hd false None s ->
  exists s', (push_marker ;; insert_ (stag n a)) s = Done s' /\ opens d k hd n a m s'.
Proof.
  intros Hb G. unfold seq, push_marker. cbn [andthen]. unfold insert_.
  assert (exists e k', k = e :: k') as (e & k' & Ek) by (destruct k as [|e k']; [congruence|eauto]).
  rewrite (insert_eq _ e k' n); flds; [|rewrite (g_stack _ _ _ _ _ _ _ G); exact Ek|apply (g_foster _ _ _ _ _ _ _ G)|reflexivity|].
  2: { rewrite (g_dom _ _ _ _ _ _ _ G). pose proof (wfk_top _ _ Hw Hk) as Ht. rewrite Ek in Ht. exact Ht. }
  cbn [andthen snd]. eexists. split; [reflexivity|]. unfold stag. rewrite attrs_token by exact Ha. destruct G as [G1 G2 G3 G4 G5 G6 G7 G8 G9 G10].
  rewrite G1, G2. unfold opens, opened, opening. replace (top k) with (e_id e) by (rewrite Ek; reflexivity). constructor; flds; auto.
  - now apply act_box.
  - rewrite rev_unit. cbn [after_last_marker]. now rewrite rev_length.
  - rewrite form_other; [exact G7|]. unfold ename. cbn [e_name hq q_name]. name_cases Hb; reflexivity.
Qed.

Lemma box_after m m' : in_names boxes n = true -> good d k m hd false None s ->
  exists s', (insert_ (stag n a) ;; switch_to m' ;; push_marker) s = Done s' /\ opens d k hd n a m' s'.
Proof.
  intros Hb G. destruct Hw as [Hi _]. unfold seq, insert_. rewrite (insert_stag _ _ _ _ _ _ _ _ _ G Hk Hi Ha). cbn [andthen fst snd].
  unfold switch_to, pure, push_marker. cbn [andthen]. flds. eexists. split; [reflexivity|]. destruct G as [G1 G2 G3 G4 G5 G6 G7 G8 G9 G10]. constructor; flds; auto.
  - now apply act_box.
  - rewrite rev_unit. cbn [after_last_marker]. now rewrite rev_length.
  - rewrite form_other; [exact G7|]. unfold ename. cbn [opening e_name hq q_name]. name_cases Hb; reflexivity.
Qed.

Lemma plain_switch m m' : plain n -> good d k m hd false None s ->
  exists s', (insert_ (stag n a) ;; switch_to m') s = Done s' /\ opens d k hd n a m' s'.
Proof.
  intros P G. destruct (insert_plain _ _ _ _ _ _ _ _ _ G Hk (proj1 Hw) Ha P) as (s1 & E1 & G1). unfold seq. rewrite E1. cbn [andthen].
  eexists. split; [reflexivity|]. eapply good_mode. exact G1.
Qed.
End Tags.

Section Rows.
Variables (acc : token -> act) (ai : mode -> token -> act) (a : list (qname * str)) (s : st).
Lemma tab_caption : on_in_table acc ai (stag (of_string "caption") a) s =
  (clear_back ["table"; "template_"; "html"]%string ;; push_marker ;; insert_ (stag (of_string "caption") a) ;; switch_to IN_CAPTION) s.
Proof. reflexivity. Qed.
Lemma tab_colgroup : on_in_table acc ai (stag (of_string "colgroup") a) s =
  (clear_back ["table"; "template_"; "html"]%string ;; insert_ (stag (of_string "colgroup") a) ;; switch_to IN_COLUMN_GROUP) s.
Proof. reflexivity. Qed.
Lemma tab_body n : in_names ["tbody"; "thead"; "tfoot"]%string n = true -> on_in_table acc ai (stag n a) s =
  (clear_back ["table"; "template_"; "html"]%string ;; insert_ (stag n a) ;; switch_to IN_TABLE_BODY) s.
Proof. intros H. name_cases H; reflexivity. Qed.
Lemma tab_end : on_in_table acc ai (etag (of_string "table")) s =
  whenever (in_table_scope (h "table")) (pop_until_tags ["table"]%string ;; reset_mode) s.
Proof. reflexivity. Qed.
Lemma tab_comment c : on_in_table acc ai (comment_token c) s = insert_comment (comment_token c) s.
Proof. reflexivity. Qed.
Lemma cap_end : on_in_caption acc ai (etag (of_string "caption")) s = close_caption nop s.
Proof. reflexivity. Qed.
Lemma col_col : on_in_column_group acc ai (stag (of_string "col") a) s = (insert_ (stag (of_string "col") a) ;; pop) s.
Proof. reflexivity. Qed.
Lemma col_end : on_in_column_group acc ai (etag (of_string "colgroup")) s = whenever (cur_one ["colgroup"]%string) (pop ;; switch_to IN_TABLE) s.
Proof. reflexivity. Qed.
Lemma col_comment c : on_in_column_group acc ai (comment_token c) s = insert_comment (comment_token c) s.
Proof. reflexivity. Qed.
Lemma sec_tr : on_in_table_body acc ai (stag (of_string "tr") a) s =
  (clear_back ["tbody"; "tfoot"; "thead"; "template_"; "html"]%string ;; insert_ (stag (of_string "tr") a) ;; switch_to IN_ROW) s.
Proof. reflexivity. Qed.
Lemma sec_end n : in_names ["tbody"; "thead"; "tfoot"]%string n = true -> on_in_table_body acc ai (etag n) s =
  whenever (in_table_scope (hq n)) (clear_back ["tbody"; "tfoot"; "thead"; "template_"; "html"]%string ;; pop ;; switch_to IN_TABLE) s.
Proof. intros H. name_cases H; reflexivity. Qed.
Lemma sec_comment c : on_in_table_body acc ai (comment_token c) s = ai IN_TABLE (comment_token c) s.
Proof. reflexivity. Qed.
Lemma row_cell n : in_names ["td"; "th"]%string n = true -> on_in_row acc ai (stag n a) s =
  (clear_back ["tr"; "template_"; "html"]%string ;; insert_ (stag n a) ;; switch_to IN_CELL ;; push_marker) s.
Proof. intros H. name_cases H; reflexivity. Qed.
Lemma row_end : on_in_row acc ai (etag (of_string "tr")) s =
  whenever (in_table_scope (h "tr")) (clear_back ["tr"; "template_"; "html"]%string ;; pop ;; switch_to IN_TABLE_BODY) s.
Proof. reflexivity. Qed.
Lemma row_comment c : on_in_row acc ai (comment_token c) s = ai IN_TABLE (comment_token c) s.
Proof. reflexivity. Qed.
Lemma cell_end n : in_names ["td"; "th"]%string n = true -> on_in_cell acc ai (etag n) s =
  whenever (in_table_scope (hq n))
    (implied None ;; (fun s => andthen (current s) (fun _ => Done s)) ;; pop_until_name [hq n] ;; clear_to_marker ;; switch_to IN_ROW) s.
Proof. intros H. name_cases H; reflexivity. Qed.
End Rows.

Lemma reset_flow path : path_at Flow path -> forall k hd, stack_path k path -> reset_loop hd k = Done (ctx_mode path).
Proof.
  intros H. remember Flow as c eqn:Ec. induction H as [| |n p Hn Hp IH|n p Hn Hp IH|p Hp IH|p Hp IH|p Hp IH|n p Hn Hp IH|p Hp IH]; try discriminate Ec; intros k hd Hk;
    (destruct k as [|e k]; [discriminate|]); unfold stack_path in Hk; cbn [map] in Hk; injection Hk as En Hk; cbn [reset_loop]; rewrite En.
  - reflexivity.
  - rewrite !qone_h, !h_eqb.
    assert (forall l, forallb (fun x => in_names ("table"%string :: not_flow) (of_string x)) l = true -> in_names l n = false) as Ho by (intros l Hl; eapply in_names_out; eauto).
    rewrite !Ho by reflexivity. cbn [andb]. unfold ctx_mode. fold ctx_mode. rewrite !Ho by reflexivity.
    assert (forall x, in_names ("table"%string :: not_flow) (of_string x) = true -> str_eqb n (of_string x) = false) as Hx.
    { intros x Hx. apply str_eqb_neq. intros ->. congruence. }
    rewrite !Hx by reflexivity. cbn [andb]. apply IH; [reflexivity|exact Hk].
  - rewrite qone_h. cbn [ctx_mode]. rewrite Hn. destruct k as [|e' k']; [|reflexivity]. destruct p; [inversion Hp|discriminate Hk].
  - reflexivity.
Qed.
