(** What the end tag of the current element does in running content. *)
From Coq Require Import String List Arith Bool NArith Lia Permutation.
From Verif.Base Require Import Str.
From Verif.Html Require Import LexerModel SerialModel SerialSpec SerialProofs BuildModel BuildSpec BuildDom BuildSteps BuildTags BuildStart.
Import ListNotations.
Local Open Scope list_scope.
Local Infix ";;" := seq (at level 61, right associativity).

Lemma remove_at_last {A} (l : list A) x : remove_at (length l) (l ++ [x]) = l.
Proof. induction l as [|y l IH]; [reflexivity|]. cbn. now rewrite IH. Qed.
Lemma index_of_last e l t : index_of e l = None -> index_of e (l ++ [Formatting e t]) = Some (length l).
Proof.
  induction l as [|x l IH]; intros H; cbn [app index_of is_entry length].
  - rewrite same_refl. reflexivity.
  - cbn [index_of] in H. destruct (is_entry e x); [discriminate|]. destruct (index_of e l) eqn:E; [discriminate|]. rewrite IH by reflexivity. reflexivity.
Qed.
Lemma first_entry_last (P : elem -> bool) l e t : Forall (fun x => exists e t, x = Formatting e t /\ P e = false) l -> P e = true ->
  first_entry P (l ++ [Formatting e t]) = Done (Some e).
Proof. intros H He. induction H as [|x l (f & u & -> & H) _ IH]; cbn [app first_entry]; [rewrite He|rewrite H]; auto. Qed.

Lemma act_inv_format e k l : act_ok (e :: k) l -> in_names formatting (ename e) = true -> exists a t, l = a ++ [Formatting e t] /\ act_ok k a.
Proof.
  intros H Hf. inversion H; subst; [congruence|eauto|]. rewrite (formatting_not_box _ Hf) in *. discriminate.
Qed.
Lemma act_inv_box e k l : act_ok (e :: k) l -> in_names boxes (ename e) = true -> exists a, l = a ++ [Marker] /\ act_ok k a.
Proof.
  intros H Hb. inversion H as [|? ? ? Q1 Q2|? ? ? ? Q1|]; subst; [congruence| |eauto]. rewrite (formatting_not_box _ Q1) in Hb. discriminate.
Qed.
Lemma act_inv_plain e k l : act_ok (e :: k) l -> in_names formatting (ename e) = false -> in_names boxes (ename e) = false -> act_ok k l.
Proof. intros H Hf Hb. inversion H; subst; congruence. Qed.

Lemma take_off_none e k : ~ In (e_id e) (map e_id k) -> take_off e k = k.
Proof.
  induction k as [|x k IH]; intros Hn; [reflexivity|]. cbn [take_off filter]. cbn [map In] in Hn.
  assert (same x e = false) as -> by (apply Nat.eqb_neq; intros Hx; apply Hn; left; exact Hx). cbn [negb]. f_equal. apply IH. intros Hi. apply Hn. right. exact Hi.
Qed.
Lemma take_off_top e k : ~ In (e_id e) (map e_id k) -> take_off e (e :: k) = k.
Proof. intros H. cbn [take_off filter]. rewrite same_refl. cbn [negb]. apply take_off_none, H. Qed.
Lemma no_form_path path k : stack_path k path -> existsb (eq_name "form") path = false -> find is_form k = None.
Proof.
  revert k. induction path as [|x p IH]; intros [|f k'] Hk F8; try discriminate; [reflexivity|].
  cbn [existsb] in F8. apply orb_false_iff in F8 as [H1 H2]. unfold stack_path in Hk. cbn [map] in Hk. injection Hk as E Hk.
  cbn [find]. unfold is_form at 1, ename. rewrite E. cbn [hq q_name]. unfold eq_name in H1. rewrite H1. apply IH; assumption.
Qed.

Section End_.
Variables (path : list str) (k : list elem) (d : dom) (hd : option elem) (m : mode) (s : st) (n : str) (i : nat).
Let e := mkElem i (hq n).
Hypothesis Hpath : path_at Flow path.
Hypothesis Hk : stack_path k path.
Hypothesis Hids : ids_ok d (e :: k).
Hypothesis G : good d (e :: k) m hd false None s.

Lemma e_is : s_stack s = e :: k.
Proof. exact (g_stack _ _ _ _ _ _ _ G). Qed.

Definition end_result (r : bres st) : Prop := exists s', r = Done s' /\ good d k m hd false None s'.

Lemma drop_plain : plain n -> good d k m hd false None (set_stack k s).
Proof.
  intros (P1 & P2 & P3). destruct G as [G1 G2 G3 G4 G5 G6 G7 G8 G9 G10]. constructor; flds; auto.
  - exact (act_inv_plain _ _ _ G3 P1 P2).
  - rewrite form_other in G7 by exact P3. exact G7.
Qed.

Lemma top_in delim : scope_loop delim (hq n) (e :: k) = Done true.
Proof. cbn [scope_loop e e_name]. rewrite hq_eqb, str_eqb_refl. reflexivity. Qed.
Lemma implied_top ex : in_names ("optgroup" :: optional_end)%string n = false \/ ex = Some (hq n) -> implied ex s = Done s.
Proof.
  intros H. unfold implied. rewrite e_is. cbn [implied_loop e e_name]. unfold implied_end_tags. rewrite qone_h.
  assert (in_names ["dd"; "dt"; "li"; "option"; "optgroup"; "p"; "rb"; "rp"; "rt"; "rt"]%string n && negb (opt_eqb qname_eqb (Some (hq n)) ex) = false) as ->.
  { destruct H as [H| ->].
    - apply andb_false_iff. left. eapply in_names_out; [|exact H]. reflexivity.
    - cbn [opt_eqb]. rewrite hq_eqb, str_eqb_refl. apply andb_false_r. }
  cbn [andthen]. fold e. rewrite <- e_is. now destruct s.
Qed.
Lemma drop_top l : in_names l n = true -> pop_until_tags l s = Done (set_stack k s).
Proof. intros H. unfold pop_until_tags, pop_until_name. rewrite e_is. cbn [drop_through e e_name]. rewrite qone_h, H. reflexivity. Qed.
Lemma drop_top1 : pop_until_name [hq n] s = Done (set_stack k s).
Proof. unfold pop_until_name. rewrite e_is. cbn [drop_through e e_name qone_of existsb]. rewrite hq_eqb, str_eqb_refl. reflexivity. Qed.

Ltac go E := unfold seq at 1; rewrite E; cbn [andthen].
Ltac scoped := unfold whenever, branch; first [unfold in_scope at 1|unfold in_list_scope at 1]; unfold has_in; rewrite e_is.

Lemma end_formatting : in_names formatting n = true -> inside (str_eqb n) boxes path = false -> end_result (agency (etag n) s).
Proof.
  intros Hf Hi. unfold agency. cbn [etag tag_token t_name]. unfold current. rewrite e_is. cbn [andthen].
  cbn [e e_name]. rewrite hq_eqb, str_eqb_refl. cbn [andb].
  destruct G as [G1 G2 G3 G4 G5 G6 G7 G8 G9 G10].
  destruct (act_inv_format _ _ _ G3 Hf) as (a & t & Ea & Q3).
  fold e. assert (is_active e s = true) as ->.
  { unfold is_active. rewrite Ea. rewrite existsb_app. cbn [existsb is_entry]. rewrite same_refl. cbn [orb]. now rewrite orb_true_r. }
  cbn [negb agency_outer]. unfold find_active. rewrite G4, Ea. rewrite rev_unit. cbn [after_last_marker].
  pose proof (alm_le (rev a)) as Hl. rewrite rev_length in Hl.
  rewrite skipn_app. replace (after_last_marker (rev a) - length a) with 0 by lia. cbn [skipn].
  rewrite first_entry_last.
  2: { eapply Forall_impl; [|exact (since_other _ _ _ _ Q3 Hk Hi)]. intros x (f & u & -> & y & Ey & Hy). exists f, u. split; [reflexivity|]. rewrite Ey. exact Hy. }
  2: { cbn [e e_name hq q_name]. apply str_eqb_refl. }
  cbn [andthen]. unfold on_stack, in_scope, has_in. rewrite G2. cbn [existsb]. rewrite same_refl. cbn [orb negb].
  cbn [e e_name]. fold e. rewrite top_in. cbn [andthen negb]. unfold furthest_block. cbn [stack_over drop_through]. rewrite !same_refl. cbn [rev find].
  eexists. split; [reflexivity|]. unfold remove_active. flds. rewrite Ea.
  destruct Hids as [Hnd _]. cbn [map] in Hnd. apply NoDup_cons_iff in Hnd as [Hn _].
  rewrite (index_of_last _ _ _ (act_new _ _ Q3 e Hn)), remove_at_last. rewrite G4, Ea, rev_unit. cbn [after_last_marker].
  assert (Nat.ltb (length a) (after_last_marker (rev a)) = false) as -> by (apply Nat.ltb_ge; exact Hl).
  constructor; flds; auto. rewrite form_other in G7; [exact G7|]. clear -Hf. unfold ename. cbn. name_cases Hf; reflexivity.
Qed.

Lemma clear_box s' : in_names boxes n = true -> s' = set_stack k s -> exists s'', clear_to_marker s' = Done s'' /\ good d k m hd false None s''.
Proof.
  intros Hb ->. unfold clear_to_marker. flds. destruct G as [G1 G2 G3 G4 G5 G6 G7 G8 G9 G10].
  destruct (act_inv_box _ _ _ G3 Hb) as (a & Ea & Q3). rewrite Ea, rev_unit. cbn [pop_marker andthen].
  assert (forall X Y : bres st, match a ++ [Marker] with [] => X | _ :: _ => Y end = Y) as -> by (destruct a; reflexivity).
  eexists. split; [reflexivity|]. constructor; flds; auto.
  - rewrite rev_involutive. exact Q3.
  - now rewrite rev_involutive.
  - rewrite form_other in G7; [exact G7|]. clear -Hb. unfold ename. cbn. name_cases Hb; reflexivity.
Qed.

Lemma no_template_top : in_names not_flow n = false -> has_template s = false.
Proof.
  intros H. unfold has_template. rewrite e_is. cbn [stack_has existsb e e_name]. rewrite h_eqb.
  fold (stack_has (h "template_") k). rewrite (no_template _ _ Hpath Hk), orb_false_r. apply str_eqb_neq. intros ->. discriminate H.
Qed.

Lemma end_flow acc ai : fits_here path n = true -> empty_element n = false -> raw_element n = false -> in_names ["table"]%string n = false ->
  end_result (on_in_body acc ai (etag n) s).
Proof.
  intros Hf Hv Hr Hta. apply fits_facts in Hf. destruct Hf as [F0 F1 F2 F3 F4 F5 F6 F7 F8 F9 F10 F11]. unfold end_result.
  assert (path_at Flow (n :: path)) as Hp'.
  { apply at_flow; [|exact Hpath]. cbn [in_names existsb] in Hta |- *. rewrite orb_false_r in Hta. rewrite Hta. exact F0. }
  assert (stack_path (e :: k) (n :: path)) as Hk' by (unfold stack_path in *; cbn [map e e_name]; now rewrite Hk).
  destruct (in_names block_end_names n) eqn:E1.
  { rewrite (rend_block acc ai n E1). scoped. rewrite top_in. cbn [andthen].
    assert (in_names ("optgroup" :: optional_end)%string n = false /\ plain n) as [Hi P] by (clear -E1; name_cases E1; repeat split; reflexivity).
    go (implied_top None (or_introl Hi)). rewrite drop_top1. eexists. split; [reflexivity|]. apply drop_plain, P. }
  destruct (in_names ["form"]%string n) eqn:E2.
  { rewrite (rend_form acc ai n s E2 (no_template_top F0)). assert (n = of_string "form") as En by (clear -E2; name_cases E2; reflexivity).
    assert (s_form s = Some e) as ->.
    { rewrite (g_form _ _ _ _ _ _ _ G). cbn [find]. unfold is_form, ename. cbn [e e_name hq q_name]. rewrite En. reflexivity. }
    unfold whenever, branch, in_scope, has_in. flds. rewrite e_is. cbn [e e_name]. fold e. rewrite top_in. cbn [andthen].
    unfold seq, implied. flds. rewrite e_is. cbn [implied_loop e e_name].
    assert (qone_of implied_end_tags (hq n) = false) as -> by (rewrite En; reflexivity). cbn [andb andthen]. flds. unfold current. flds. cbn [andthen]. fold e.
    unfold unstack. flds. eexists. split; [reflexivity|].
    assert (take_off e (e :: k) = k) as ->.
    { apply take_off_top. destruct Hids as [Hnd _]. cbn [map] in Hnd. now apply NoDup_cons_iff in Hnd as [Hn _]. }
    destruct G as [G1 G2 G3 G4 G5 G6 G7 G8 G9 G10]. constructor; flds; auto.
    - apply (act_inv_plain _ _ _ G3); unfold ename; cbn [e e_name hq q_name]; rewrite En; reflexivity.
    - symmetry. apply (no_form_path path); [exact Hk|apply F8; reflexivity]. }
  destruct (in_names ["p"]%string n) eqn:E3.
  { rewrite (rend_p acc ai n E3). assert (n = of_string "p") as En by (clear -E3; name_cases E3; reflexivity).
    unfold whenever, branch, negate, seq at 1. unfold in_button_scope, has_in. rewrite e_is. change (h "p") with (hq (of_string "p")). rewrite <- En. rewrite top_in. cbn [andthen negb]. unfold nop. cbn [andthen].
    unfold close_p. change (h "p") with (hq (of_string "p")). rewrite <- En. go (implied_top (Some (hq n)) (or_intror eq_refl)).
    rewrite drop_top by (rewrite En; reflexivity). eexists. split; [reflexivity|]. apply drop_plain. rewrite En. repeat split; reflexivity. }
  destruct (in_names ["li"]%string n) eqn:E4.
  { rewrite (rend_li acc ai n E4). assert (n = of_string "li") as En by (clear -E4; name_cases E4; reflexivity).
    scoped. change (h "li") with (hq (of_string "li")). rewrite <- En. rewrite top_in. cbn [andthen].
    go (implied_top (Some (hq n)) (or_intror eq_refl)).
    rewrite drop_top by (rewrite En; reflexivity). eexists. split; [reflexivity|]. apply drop_plain. rewrite En. repeat split; reflexivity. }
  destruct (in_names ["dd"; "dt"]%string n) eqn:E5.
  { rewrite (rend_dd acc ai n E5). scoped. rewrite top_in. cbn [andthen].
    go (implied_top (Some (hq n)) (or_intror eq_refl)). rewrite drop_top1. eexists. split; [reflexivity|]. apply drop_plain.
    clear -E5; name_cases E5; repeat split; reflexivity. }
  destruct (in_names headings n) eqn:E6.
  { rewrite (rend_heading acc ai n E6).
    assert (forall x, in_scope (h x) s = Done (inside (eq_name x) walls (n :: path))) as Hs.
    { intros x. apply (in_scope_spec _ _ _ _ _ _ Hp' Hk' e_is). exact (eqb_h x). }
    unfold whenever, branch, either. rewrite !Hs. cbn [andthen].
    assert (forall r : bres st, andthen (if inside (eq_name "h1") walls (n :: path) then Done true else
      andthen (Done (inside (eq_name "h2") walls (n :: path))) (fun v => if v then Done true else
      andthen (Done (inside (eq_name "h3") walls (n :: path))) (fun v => if v then Done true else
      andthen (Done (inside (eq_name "h4") walls (n :: path))) (fun v => if v then Done true else
      andthen (Done (inside (eq_name "h5") walls (n :: path))) (fun v => if v then Done true else
      Done (inside (eq_name "h6") walls (n :: path)))))))
      (fun v => if v then r else nop s) = r) as Hr'.
    { intros r. cbn [andthen]. assert (existsb (fun x => inside (eq_name x) walls (n :: path)) headings = true) as Hx.
      { apply in_names_In in E6 as (x & Hx & ->). apply existsb_exists. exists x. split; [exact Hx|]. cbn [inside]. unfold eq_name at 1. now rewrite str_eqb_refl. }
      cbn [existsb headings] in Hx. do 5 (match goal with |- context [inside (eq_name ?x) walls (n :: path)] => destruct (inside (eq_name x) walls (n :: path)); [reflexivity|] end).
      cbn [orb] in Hx. rewrite orb_false_r in Hx. rewrite Hx. reflexivity. }
    cbn [andthen] in Hr'. rewrite Hr'.
    assert (in_names ("optgroup" :: optional_end)%string n = false /\ plain n) as [Hi P] by (clear -E6; name_cases E6; repeat split; reflexivity).
    go (implied_top None (or_introl Hi)). rewrite drop_top by exact E6. eexists. split; [reflexivity|]. apply drop_plain, P. }
  destruct (in_names formatting n) eqn:E7.
  { rewrite (rend_formatting acc ai n E7). apply end_formatting; [exact E7|apply F5; reflexivity]. }
  destruct (in_names ["applet"; "marquee"; "object"]%string n) eqn:E8.
  { rewrite (rend_applet acc ai n E8). scoped. rewrite top_in. cbn [andthen].
    assert (in_names ("optgroup" :: optional_end)%string n = false /\ in_names boxes n = true) as [Hi P] by (clear -E8; name_cases E8; repeat split; reflexivity).
    go (implied_top None (or_introl Hi)). unfold seq at 1. rewrite drop_top1. cbn [andthen]. apply clear_box; [exact P|reflexivity]. }
  assert (in_names end_known n = false) as Hn.
  { unfold end_known. rewrite !in_names_app, E1, E6, E7. rewrite !orb_false_r.
    match goal with |- in_names ?l n = false => destruct (in_names l n) eqn:Ef; [|reflexivity] end. exfalso. clear -Ef E1 E2 E3 E4 E5 E8 Hv F0.
    apply in_names_In in Ef. destruct Ef as (x & Hx & ->).
    repeat (destruct Hx as [<-|Hx]; [first [discriminate Hv|discriminate F0|discriminate E2|discriminate E3|discriminate E4|discriminate E5|discriminate E8]|]). destruct Hx. }
  rewrite (rend_other acc ai n Hn). rewrite e_is. cbn [any_end_loop e e_name hq q_name]. rewrite str_eqb_refl.
  go (implied_top (Some (hq n)) (or_intror eq_refl)). fold e. rewrite e_is. cbn [on_stack existsb drop_through]. rewrite same_refl. cbn [orb].
  eexists. split; [reflexivity|]. apply drop_plain.
  split; [exact E7|]. split; [|exact E2].
  destruct (in_names boxes n) eqn:Eb; [|reflexivity]. exfalso. clear -Eb F0 E8. name_cases Eb; first [discriminate F0|discriminate E8].
Qed.
End End_.
