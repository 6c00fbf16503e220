(** What a start tag does in running content, when nothing has to be closed for it. *)
From Coq Require Import String List Arith Bool NArith Lia Permutation.
From Verif.Base Require Import Str.
From Verif.Html Require Import LexerModel SerialModel SerialSpec SerialProofs BuildModel BuildSpec BuildDom BuildSteps BuildTags.
Import ListNotations.
Local Open Scope list_scope.
Local Infix ";;" := seq (at level 61, right associativity).

Lemma special_spec n : n <> of_string "template_" ->
  (is_special (hq n) && negb (qone_of (map h ["address"; "div"; "p"]%string) (hq n))) = in_names item_walls n.
Proof.
  intros Hn. rewrite qone_h.
  destruct (in_names item_walls n) eqn:E.
  - name_cases E; reflexivity.
  - unfold is_special, qone_of, special_names. rewrite !existsb_app. fold (qone_of).
    assert (forall l, existsb (qname_eqb (hq n)) (map math_tag l) = false) as Hm by (induction l as [|x l IH]; [reflexivity|exact IH]).
    assert (forall l, existsb (qname_eqb (hq n)) (map svg_tag l) = false) as Hs by (induction l as [|x l IH]; [reflexivity|exact IH]).
    rewrite Hm, Hs, !orb_false_r. 
    match goal with |- existsb _ (map h ?l) && _ = _ => change (existsb (qname_eqb (hq n)) (map h l)) with (qone_of (map h l) (hq n)); rewrite (qone_h l n);
      destruct (in_names l n) eqn:E2; [|reflexivity] end.
    apply in_names_In in E2. destruct E2 as (x & Hx & ->). apply negb_false_iff.
    repeat (destruct Hx as [<-|Hx]; [first [reflexivity|discriminate E|congruence]|]). destruct Hx.
Qed.

Lemma item_none c items t k path s : path_at c path -> stack_path k path ->
  inside (in_names items) item_walls path = false -> item_loop items t k s = (close_p_in_button_scope ;; insert_ t) s.
Proof.
  intros Hp Hk. pose proof (path_html _ _ Hp) as Hh. pose proof (path_no_template _ _ Hp) as Ht. clear Hp.
  revert k Hk. induction path as [|n path IH]; intros k Hk Hi; [destruct Hh|].
  destruct k as [|[i q'] k]; [discriminate|]. unfold stack_path in Hk. cbn [map e_name] in Hk. injection Hk as -> Hk.
  cbn [item_loop e_name]. cbn [inside] in Hi. rewrite qone_h. destruct (in_names items n); [discriminate|].
  rewrite special_spec by (intros ->; apply Ht; left; reflexivity). destruct (in_names item_walls n) eqn:E; [reflexivity|].
  apply IH; [|intros H; apply Ht; right; exact H|exact Hk|exact Hi]. destruct Hh as [Hh|Hh]; [rewrite Hh in E; discriminate|exact Hh].
Qed.

Lemma first_entry_none (P : elem -> bool) l : Forall (fun x => exists e t, x = Formatting e t /\ P e = false) l -> first_entry P l = Done None.
Proof. induction 1 as [|x l (e & t & -> & H) _ IH]; [reflexivity|]. cbn [first_entry]. now rewrite H. Qed.
Lemma similars_none d e l : Forall (fun x => exists f t, x = Formatting f t /\ qname_eqb (e_name f) (e_name e) = false) l -> similars d e l = Done [].
Proof. induction 1 as [|x l (f & t & -> & H) _ IH]; [reflexivity|]. cbn [similars similar]. rewrite H, IH. reflexivity. Qed.

Lemma since_other k a path n : act_ok k a -> stack_path k path -> inside (str_eqb n) boxes path = false ->
  Forall (fun x => exists e t, x = Formatting e t /\ exists m, e_name e = hq m /\ str_eqb m n = false) (skipn (after_last_marker (rev a)) a).
Proof.
  intros Ha Hk Hi. eapply Forall_impl; [|exact (act_since _ _ _ Ha Hk)]. intros x (e & t & -> & m & Em & Hm).
  exists e, t. split; [reflexivity|]. exists m. split; [exact Em|]. apply str_eqb_neq. intros ->. congruence.
Qed.

Section Start.
Variables (path : list str) (k : list elem) (d : dom) (hd : option elem) (m : mode) (s : st).
Hypothesis Hpath : path_at Flow path.
Hypothesis Hk : stack_path k path.
Hypothesis Hids : ids_ok d k.
Hypothesis G : good d k m hd false None s.
Variables (n : str) (a : list (qname * str)).
Hypothesis Ha : attrs_ok a.

Lemma k_some : exists e k', k = e :: k'.
Proof. destruct Hpath; destruct k; try discriminate Hk; eauto. Qed.
Lemma k_ne : k <> [].
Proof. destruct k_some as (e & k' & ->). discriminate. Qed.
Lemma path_top : exists e k' x p', k = e :: k' /\ path = x :: p' /\ e_name e = hq x /\ stack_path k' p'.
Proof. destruct path as [|x p']; [inversion Hpath|]. destruct k as [|e k']; [discriminate Hk|]. unfold stack_path in Hk. cbn [map] in Hk. injection Hk as E1 E2. exists e, k', x, p'. auto. Qed.

Lemma s_is : s_stack s = k.
Proof. exact (g_stack _ _ _ _ _ _ _ G). Qed.

Lemma p_nop : inside (eq_name "p") ("button"%string :: walls) path = false -> close_p_in_button_scope s = Done s.
Proof. intros. eapply close_p_nop; eauto using s_is. Qed.
Lemma r_nop : reconstruct s = Done s.
Proof. eapply reconstruct_nop; exact G. Qed.

Lemma insert_ok : plain n -> exists s', insert_ (stag n a) s = Done s' /\ good (opened d k n a) (opening d n :: k) m hd false None s'.
Proof. intros P. exact (insert_plain _ _ _ _ _ _ _ _ _ G k_ne Hids Ha P). Qed.

Lemma scope_is q wanted : (forall x, x <> of_string "template_" -> qname_eqb (hq x) q = wanted x) ->
  in_scope q s = Done (inside wanted walls path).
Proof. intros H. eapply in_scope_spec; eauto using s_is. Qed.

Lemma cur_is_path l : cur_one l s = Done (directly (in_names l) path).
Proof.
  destruct path_top as (e & k' & x & p' & E1 & E2 & E3 & _). unfold cur_one, cur_is, current. rewrite s_is, E1, E2. cbn [andthen directly].
  rewrite E3, qone_h. reflexivity.
Qed.

Lemma implied_nop ex : (forall x, directly (fun y => str_eqb x y) path = true -> in_names ("optgroup" :: optional_end)%string x = true -> opt_eqb qname_eqb (Some (hq x)) ex = true) ->
  implied ex s = Done s.
Proof.
  intros H. destruct path_top as (e & k' & x & p' & E1 & E2 & E3 & _). unfold implied. rewrite s_is, E1. cbn [implied_loop]. rewrite E3.
  unfold implied_end_tags. rewrite qone_h.
  assert (in_names ["dd"; "dt"; "li"; "option"; "optgroup"; "p"; "rb"; "rp"; "rt"; "rt"]%string x = in_names ("optgroup" :: optional_end)%string x) as ->.
  { apply eq_true_iff_eq. rewrite !in_names_In. split; intros (y & Hy & ->); exists y; (split; [|reflexivity]); cbn [In optional_end] in *; intuition. }
  destruct (in_names _ x) eqn:E.
  - rewrite (H x); [|rewrite E2; cbn [directly]; apply str_eqb_refl|exact E]. cbn [negb andb andthen]. rewrite <- E1, <- s_is. now destruct s.
  - cbn [andb andthen]. rewrite <- E1, <- s_is. now destruct s.
Qed.

(** Formatting elements are put on their list. *)
Lemma insert_formatting : in_names formatting n = true -> inside (str_eqb n) boxes path = false ->
  exists s', insert_active_html (stag n a) s = Done s' /\ good (opened d k n a) (opening d n :: k) m hd false None s'.
Proof.
  intros Hf Hi. unfold insert_active_html. rewrite (insert_stag _ _ _ _ _ _ _ _ _ G k_ne Hids Ha). cbn [andthen fst snd].
  unfold push_active. flds. destruct G as [G1 G2 G3 G4 G5 G6 G7 G8 G9 G10].
  rewrite similars_none.
  - cbn [andthen]. eexists. split; [reflexivity|]. constructor; flds; auto.
    + now apply act_format.
    + rewrite rev_unit. exact G4.
    + rewrite form_other; [exact G7|]. unfold ename. cbn [opening e_name hq q_name]. name_cases Hf; reflexivity.
  - rewrite G4. eapply Forall_impl; [|exact (since_other _ _ _ _ G3 Hk Hi)]. intros x (e & t & -> & y & Ey & Hy). exists e, t. split; [reflexivity|].
    rewrite Ey. exact Hy.
Qed.

Lemma insert_box : in_names boxes n = true ->
  exists s', (insert_ (stag n a) ;; push_marker) s = Done s' /\ good (opened d k n a) (opening d n :: k) m hd false None s'.
Proof.
  intros Hb. unfold seq, insert_. rewrite (insert_stag _ _ _ _ _ _ _ _ _ G k_ne Hids Ha). cbn [andthen fst snd].
  unfold push_marker. flds. eexists. split; [reflexivity|]. destruct G as [G1 G2 G3 G4 G5 G6 G7 G8 G9 G10]. constructor; flds; auto.
  - now apply act_box.
  - rewrite rev_unit. cbn [after_last_marker]. now rewrite rev_length.
  - rewrite form_other; [exact G7|]. unfold ename. cbn [opening e_name hq q_name]. name_cases Hb; reflexivity.
Qed.

Lemma not_in l l' : forallb (fun x => in_names l' (of_string x)) l = true -> in_names l' n = false -> in_names l n = false.
Proof. apply in_names_out. Qed.

Definition start_result (r : bres st) : Prop :=
  exists s', r = Done s' /\ good (opened d k n a) (opening d n :: k) m hd (in_names ["pre"; "listing"]%string n) None s'.

Lemma no_form : existsb (eq_name "form") path = false -> s_form s = None.
Proof.
  intros H. rewrite (g_form _ _ _ _ _ _ _ G). clear -Hk H. revert k Hk. induction path as [|x p IH]; intros [|e k'] Hk; try discriminate; [reflexivity|].
  cbn [existsb] in H. apply orb_false_iff in H as [H1 H2]. unfold stack_path in Hk. cbn [map] in Hk. injection Hk as E Hk.
  cbn [find]. unfold is_form at 1, ename. rewrite E. cbn [hq q_name]. unfold eq_name in H1. rewrite H1. apply IH; assumption.
Qed.

Lemma no_template : stack_has (h "template_") k = false.
Proof.
  pose proof (path_no_template _ _ Hpath) as Ht. clear -Hk Ht. revert k Hk. induction path as [|x p IH]; intros [|e k'] Hk; try discriminate; [reflexivity|].
  unfold stack_path in Hk. cbn [map] in Hk. injection Hk as E Hk. cbn [stack_has existsb]. rewrite E, h_eqb.
  assert (str_eqb x (of_string "template_") = false) as -> by (apply str_eqb_neq; intros ->; apply Ht; left; reflexivity).
  apply IH; [intros Hi; apply Ht; right; exact Hi|exact Hk].
Qed.

Ltac go E := unfold seq at 1; rewrite E; cbn [andthen].

Lemma start_flow acc ai : fits_here path n = true -> empty_element n = false -> raw_element n = false -> in_names ["table"]%string n = false ->
  start_result (on_in_body acc ai (stag n a) s).
Proof.
  intros Hf Hv Hr Hta. apply fits_facts in Hf. destruct Hf as [F0 F1 F2 F3 F4 F5 F6 F7 F8 F9 F10 F11]. unfold start_result.
  destruct (in_names blocks n) eqn:E1.
  { rewrite (rule_block acc ai a n E1). go (p_nop (F1 ltac:(clear -E1; name_cases E1; reflexivity))).
    assert (in_names ["pre"; "listing"]%string n = false /\ plain n) as [-> P] by (clear -E1; name_cases E1; repeat split; reflexivity).
    apply insert_ok, P. }
  destruct (in_names headings n) eqn:E2.
  { rewrite (rule_heading acc ai a n E2). go (p_nop (F1 ltac:(clear -E2; name_cases E2; reflexivity))).
    unfold whenever, branch. unfold seq. rewrite (cur_is_path heading_names). cbn [andthen]. change heading_names with headings. rewrite (F2 eq_refl). cbn [nop andthen].
    assert (in_names ["pre"; "listing"]%string n = false /\ plain n) as [-> P] by (clear -E2; name_cases E2; repeat split; reflexivity).
    unfold nop. cbn [andthen]. apply insert_ok, P. }
  destruct (in_names ["pre"; "listing"]%string n) eqn:E3.
  { rewrite (rule_pre acc ai a n E3). go (p_nop (F1 ltac:(clear -E3; name_cases E3; reflexivity))).
    assert (plain n) as P by (clear -E3; name_cases E3; repeat split; reflexivity).
    destruct (insert_ok P) as (s' & E & G'). go E. cbn. eexists. split; [reflexivity|]. apply good_frameset. eapply good_skip. exact G'. }
  destruct (in_names ["form"]%string n) eqn:E4.
  { rewrite (rule_form acc ai a n s E4 (no_form (F8 eq_refl))). go (p_nop (F1 ltac:(clear -E4; name_cases E4; reflexivity))).
    rewrite (insert_stag _ _ _ _ _ _ _ _ _ G k_ne Hids Ha). cbn [andthen fst snd].
    assert (n = of_string "form") as -> by (clear -E4; name_cases E4; reflexivity).
    unfold has_template. flds. assert (stack_has (h "template_") (opening d (of_string "form") :: k) = false) as -> by (exact no_template).
    eexists. split; [reflexivity|]. destruct G as [G1 G2 G3 G4 G5 G6 G7 G8 G9 G10]. constructor; flds; auto.
    apply act_plain; [reflexivity|reflexivity|exact G3]. }
  destruct (in_names ["li"]%string n) eqn:E5.
  { rewrite (rule_li acc ai a n E5). unfold seq, frameset_not_ok, pure. cbn [andthen]. flds. rewrite s_is.
    rewrite (item_none _ _ _ _ _ _ Hpath Hk).
    2: { specialize (F3 eq_refl). clear -F3. induction path as [|x p IH]; [reflexivity|]. cbn [inside] in *. unfold in_names at 1. cbn [existsb]. rewrite orb_false_r.
         unfold eq_name in F3 at 1. destruct (str_eqb x (of_string "li")); [discriminate|]. destruct (in_names item_walls x); [reflexivity|]. apply IH, F3. }
    pose proof (good_frameset _ _ _ _ _ _ _ false G) as G'.
    unfold seq. rewrite (close_p_nop _ _ _ _ Hpath Hk (g_stack _ _ _ _ _ _ _ G')); [|apply F1; clear -E5; name_cases E5; reflexivity]. cbn [andthen].
    apply (insert_plain _ _ _ _ _ _ _ _ _ G' k_ne Hids Ha). clear -E5; name_cases E5; repeat split; reflexivity. }
  destruct (in_names ["dd"; "dt"]%string n) eqn:E6.
  { rewrite (rule_dd acc ai a n E6). unfold seq, frameset_not_ok, pure. cbn [andthen]. flds. rewrite s_is.
    rewrite (item_none _ _ _ _ _ _ Hpath Hk) by (apply F4; reflexivity).
    pose proof (good_frameset _ _ _ _ _ _ _ false G) as G'.
    unfold seq. rewrite (close_p_nop _ _ _ _ Hpath Hk (g_stack _ _ _ _ _ _ _ G')); [|apply F1; clear -E6; name_cases E6; reflexivity]. cbn [andthen].
    apply (insert_plain _ _ _ _ _ _ _ _ _ G' k_ne Hids Ha). clear -E6; name_cases E6; repeat split; reflexivity. }
  destruct (in_names ["button"]%string n) eqn:E7.
  { rewrite (rule_button acc ai a n E7). assert (n = of_string "button") as En by (clear -E7; name_cases E7; reflexivity).
    unfold seq, whenever, branch. rewrite (scope_is (h "button") (str_eqb n)) by (rewrite En; exact (eqb_hq _)). rewrite (F6 ltac:(rewrite En; reflexivity)).
    cbn [andthen nop]. unfold nop. rewrite r_nop. cbn [andthen].
    destruct (insert_ok ltac:(rewrite En; repeat split; reflexivity)) as (s' & E & G'). rewrite E. cbn [andthen]. eexists. split; [reflexivity|]. apply good_frameset, G'. }
  destruct (in_names ["a"]%string n) eqn:E8.
  { rewrite (rule_a acc ai a n E8). assert (n = of_string "a") as En by (clear -E8; name_cases E8; reflexivity).
    assert (in_names formatting n = true) as Hf by (rewrite En; reflexivity). specialize (F5 Hf).
    assert (find_active (fun e => qname_eqb (e_name e) (h "a")) s = Done None) as Hn.
    { unfold find_active. rewrite (g_after _ _ _ _ _ _ _ G). apply first_entry_none. eapply Forall_impl; [|exact (since_other _ _ _ _ (g_act _ _ _ _ _ _ _ G) Hk F5)].
      intros x (e & t & -> & y & Ey & Hy). exists e, t. split; [reflexivity|]. rewrite Ey, h_eqb, <- En. exact Hy. }
    unfold seq. rewrite Hn. cbn [andthen]. rewrite r_nop. cbn [andthen]. apply insert_formatting; assumption. }
  destruct (in_names formatting_names n) eqn:E9.
  { rewrite (rule_formatting acc ai a n E9). go r_nop. 
    assert (in_names formatting n = true) as Hf by (clear -E9; name_cases E9; reflexivity). apply insert_formatting; [exact Hf|apply F5, Hf]. }
  destruct (in_names ["nobr"]%string n) eqn:E10.
  { rewrite (rule_nobr acc ai a n E10). go r_nop. assert (n = of_string "nobr") as En by (clear -E10; name_cases E10; reflexivity).
    assert (in_names formatting n = true) as Hf by (rewrite En; reflexivity). specialize (F5 Hf).
    assert (inside (str_eqb n) walls path = false) as Hw.
    { clear -F5 En. subst n. induction path as [|x p IH]; [reflexivity|]. cbn [inside] in *. destruct (str_eqb (of_string "nobr") x); [discriminate|].
      destruct (in_names walls x) eqn:E1; [reflexivity|]. destruct (in_names boxes x) eqn:E2; [|apply IH, F5].
      exfalso. clear -E1 E2. name_cases E2; discriminate E1. }
    unfold seq, whenever, branch. rewrite (scope_is (h "nobr") (str_eqb n)) by (rewrite En; exact (eqb_hq _)). rewrite Hw. cbn [andthen]. unfold nop. cbn [andthen].
    apply insert_formatting; assumption. }
  destruct (in_names ["applet"; "marquee"; "object"]%string n) eqn:E11.
  { rewrite (rule_applet acc ai a n E11). unfold whenever, branch, negate. rewrite (scope_is (hq n) (str_eqb n)) by exact (eqb_hq n).
    rewrite F6 by (clear -E11; name_cases E11; reflexivity). cbn [andthen negb]. go r_nop.
    destruct insert_box as (s' & E & G'); [clear -E11; name_cases E11; reflexivity|].
    unfold seq in E |- *. destruct (insert_ (stag n a) s) as [s1|]; [|discriminate E]. cbn [andthen] in *. rewrite E. cbn [andthen].
    eexists. split; [reflexivity|]. apply good_frameset, G'. }
  destruct (in_names ["select"]%string n) eqn:E12.
  { rewrite (rule_select acc ai a n E12). assert (n = of_string "select") as En by (clear -E12; name_cases E12; reflexivity).
    unfold branch. rewrite (scope_is (h "select") (str_eqb n)) by (rewrite En; exact (eqb_hq _)). rewrite (F6 ltac:(rewrite En; reflexivity)). cbn [andthen]. go r_nop.
    destruct (insert_ok ltac:(rewrite En; repeat split; reflexivity)) as (s' & E & G'). unfold seq. rewrite E. cbn [andthen]. eexists. split; [reflexivity|]. apply good_frameset, G'. }
  destruct (in_names ["option"]%string n) eqn:E13.
  { rewrite (rule_option acc ai a n E13). assert (n = of_string "option") as En by (clear -E13; name_cases E13; reflexivity).
    specialize (F9 ltac:(reflexivity)). unfold seq at 1. unfold branch. rewrite (scope_is (h "select") (eq_name "select")) by exact (eqb_h _).
    assert (plain n) as P by (rewrite En; repeat split; reflexivity).
    destruct (inside (eq_name "select") walls path); cbn [andthen].
    - apply negb_true_iff in F9. unfold seq. rewrite implied_nop.
      + cbn [andthen]. rewrite (scope_is (h "option") (eq_name "option")) by exact (eqb_h _). cbn [andthen]. rewrite r_nop. cbn [andthen]. apply insert_ok, P.
      + intros x Hx Hi. destruct path as [|y p]; [discriminate Hx|]. cbn [directly] in Hx, F9. apply str_eqb_spec in Hx. subst y.
        cbn [in_names existsb] in Hi. fold (in_names optional_end x) in Hi. apply orb_true_iff in Hi as [Hi|Hi]; [|congruence]. apply str_eqb_spec in Hi. subst x. reflexivity.
    - unfold whenever, branch. rewrite (cur_is_path ["option"]%string). cbn [andthen].
      assert (directly (in_names ["option"]%string) path = false) as ->.
      { apply negb_true_iff in F9. destruct path as [|y p]; [reflexivity|]. cbn [directly] in *. cbn [in_names existsb]. rewrite orb_false_r. exact F9. }
      unfold nop. cbn [andthen]. go r_nop. apply insert_ok, P. }
  destruct (in_names ["optgroup"]%string n) eqn:E14.
  { rewrite (rule_optgroup acc ai a n E14). assert (n = of_string "optgroup") as En by (clear -E14; name_cases E14; reflexivity).
    assert (plain n) as P by (rewrite En; repeat split; reflexivity).
    destruct (F10 eq_refl) as [F10a F10b]. unfold whenever at 1. unfold branch at 1. rewrite (scope_is (h "select") (eq_name "select")) by exact (eqb_h _). rewrite F10a. cbn [andthen].
    go implied_nop.
    2: { intros x Hx Hi. destruct path as [|y p]; [discriminate Hx|]. cbn [directly] in Hx, F10b. apply str_eqb_spec in Hx. subst y.
         cbn [in_names existsb] in Hi. fold (in_names optional_end x) in Hi. apply orb_true_iff in Hi as [Hi|Hi]; [|congruence]. apply str_eqb_spec in Hi. subst x. reflexivity. }
    unfold seq at 1. unfold branch at 1. unfold either. rewrite (scope_is (h "option") (eq_name "option")) by exact (eqb_h _). rewrite (scope_is (h "optgroup") (eq_name "optgroup")) by exact (eqb_h _). cbn [andthen].
    assert (forall b : bool, (if b then nop s else whenever (cur_one ["option"]%string) pop s) = Done s) as Hb.
    { intros [|]; [reflexivity|]. unfold whenever, branch. rewrite (cur_is_path ["option"]%string). cbn [andthen].
      assert (directly (in_names ["option"]%string) path = false) as ->; [|reflexivity].
      destruct path as [|y p]; [reflexivity|]. cbn [directly] in *. eapply in_names_out; [|exact F10b]. reflexivity. }
    pose proof (Hb true) as Hb1. pose proof (Hb false) as Hb2. cbn iota in Hb1, Hb2.
    destruct (inside (eq_name "option") walls path); cbn [andthen]; [|destruct (inside (eq_name "optgroup") walls path)];
      rewrite ?Hb1, ?Hb2; cbn [andthen]; go r_nop; apply insert_ok, P. }
  destruct (in_names ["rb"; "rtc"; "rp"; "rt"]%string n) eqn:E15.
  { assert (plain n) as P by (clear -E15; name_cases E15; repeat split; reflexivity).
    assert (forall ex, whenever (in_scope (h "ruby")) (implied ex ;; (fun s => andthen (current s) (fun _ => Done s))) s = Done s) as Hw.
    { intros ex. unfold whenever, branch. rewrite (scope_is (h "ruby") (eq_name "ruby")) by exact (eqb_h _). specialize (F11 eq_refl).
      destruct (inside (eq_name "ruby") walls path); [|reflexivity]. cbn [andthen andb] in *. unfold seq. rewrite implied_nop.
      - cbn [andthen]. unfold current. rewrite s_is. destruct k_some as (e & k' & ->). reflexivity.
      - intros x Hx Hi. destruct path as [|y p]; [discriminate Hx|]. cbn [directly] in Hx, F11. apply str_eqb_spec in Hx. subst y. congruence. }
    destruct (in_names ["rb"; "rtc"]%string n) eqn:E16.
    - rewrite (rule_rb acc ai a n E16). go (Hw None). apply insert_ok, P.
    - rewrite (rule_rt acc ai a n); [go (Hw (Some (h "rtc"))); apply insert_ok, P|]. clear -E15 E16.
      cbn [in_names existsb] in *. destruct (str_eqb n (of_string "rb")); [discriminate|]. destruct (str_eqb n (of_string "rtc")); [discriminate|]. exact E15. }
  assert (in_names known n = false) as Hn.
  { unfold known. rewrite !in_names_app, F0, E1, E2.
    assert (in_names formatting n = false) as ->.
    { destruct (in_names formatting n) eqn:Ef; [|reflexivity]. exfalso. clear -Ef E8 E9 E10. name_cases Ef; first [discriminate E8|discriminate E9|discriminate E10]. }
    cbn [orb]. match goal with |- in_names ?l n = false => destruct (in_names l n) eqn:Ef; [|reflexivity] end. exfalso. clear -Ef E1 E2 E3 E4 E5 E6 E7 E8 E9 E10 E11 E12 E13 E14 E15 Hv Hr Hta F0.
    apply in_names_In in Ef. destruct Ef as (x & Hx & ->).
    repeat (destruct Hx as [<-|Hx]; [first [discriminate Hv|discriminate Hr|discriminate Hta|discriminate E3|discriminate E4|discriminate E5|discriminate E6|discriminate E7|discriminate E8|discriminate E11|discriminate E12|discriminate E13|discriminate E14|discriminate E15]|]). destruct Hx. }
  rewrite (rule_other acc ai a n Hn). go r_nop. apply insert_ok.
  split; [|split]; (eapply in_names_out; [|exact Hn]; vm_compute; reflexivity).
Qed.
End Start.
