(** An element whose end tag was left out is closed by what comes after it. *)
From Coq Require Import String List Arith Bool NArith Lia Permutation.
From Verif.Base Require Import Str.
From Verif.Html Require Import LexerModel SerialModel SerialSpec SerialProofs BuildModel BuildSpec BuildDom BuildSteps BuildTags BuildStart BuildEnd BuildRun BuildTable BuildTree OmitSpec.
Import ListNotations.
Local Open Scope list_scope.
Local Infix ";;" := seq (at level 61, right associativity).

Definition omit := but_mistaken.

(** The first tag of an element, when [cut] was left open before it. *)
Inductive opener (cut : str) : node -> token -> Prop :=
| op_tag q a ns : opener cut (Element q a ns) (stag (q_name q) a)
| op_bare q q' a' ns' r : start_is_optional cut (q_name q) (Element q' a' ns' :: r) = true ->
    opener cut (Element q [] (Element q' a' ns' :: r)) (stag (q_name q') a').

Definition final (t : token) : Prop := t = etag (of_string "body") \/ t = etag (of_string "html") \/ t = new_token T_END_OF_FILE.

(** The token [t] may come after the content of an element [n] in [path], without the end tag of [n]. *)
Inductive skip (t : token) : str -> list str -> Prop :=
| skip_next n m p c x : omit m n (Some x) = true -> fits c (m :: p) x -> path_at c (m :: p) -> opener n x t -> skip t n (m :: p)
| skip_last n m p : omit m n None = true -> empty_element m = false -> t = etag m -> skip t n (m :: p)
| skip_up n m p : omit m n None = true -> skip t m p -> skip t n (m :: p)
| skip_final n p : omit (of_string "body") n None = true -> final t -> skip t n (of_string "body" :: p).

(** ** Names *)
Definition leaves : list string := ["li"; "dt"; "dd"; "p"; "rt"; "rp"; "optgroup"; "option"]%string.
Definition droppable : list string := leaves ++ ["colgroup"; "caption"; "thead"; "tbody"; "tfoot"; "tr"; "td"; "th"]%string.
Lemma in_one x n : in_names [x] n = true -> n = of_string x.
Proof. intros H. name_cases H. reflexivity. Qed.

Lemma omit_names m n next : omit m n next = true -> in_names droppable n = true.
Proof.
  unfold omit, but_mistaken, standard, end_is_optional. intros H. apply andb_true_iff in H as [H _]. apply andb_true_iff in H as [H _].
  rewrite !orb_true_iff in H.
  repeat match goal with H : _ \/ _ |- _ => destruct H as [H|H] end; apply andb_true_iff in H as [H _]; name_cases H; reflexivity.
Qed.
Lemma omit_place m n next : omit m n next = true -> in_its_place m n = true.
Proof. unfold omit, but_mistaken, standard. intros H. apply andb_true_iff in H as [H _]. apply andb_true_iff in H as [_ H]. exact H. Qed.
Lemma omit_end m n next : omit m n next = true -> end_is_optional m n next = true /\ mistaken n next = false.
Proof. unfold omit, but_mistaken, standard. intros H. apply andb_true_iff in H as [H1 H2]. apply andb_true_iff in H1 as [H _]. split; [exact H|]. now apply negb_true_iff. Qed.

(** ** Single operations on an element that is closed by itself *)
Definition implied_names : list string := ["dd"; "dt"; "li"; "option"; "optgroup"; "p"; "rb"; "rp"; "rt"]%string.

Section Drop.
Variables (i : nat) (n : str) (k : list elem) (s : st).
Let e := mkElem i (hq n).
Let s1 := set_stack k s.
Hypothesis Hs : s_stack s = e :: k.

Lemma implied_skip ex : in_names implied_names n = true -> opt_eqb qname_eqb (Some (hq n)) ex = false -> implied ex s = implied ex s1.
Proof.
  intros H He. unfold implied. rewrite Hs. cbn [implied_loop e e_name]. unfold implied_end_tags. rewrite qone_h.
  assert (in_names ["dd"; "dt"; "li"; "option"; "optgroup"; "p"; "rb"; "rp"; "rt"; "rt"]%string n = true) as -> by (name_cases H; reflexivity).
  rewrite He. reflexivity.
Qed.
Lemma scope_skip delim q : qname_eqb (hq n) q = false -> delim (hq n) = false -> has_in delim q s = has_in delim q s1.
Proof. intros H1 H2. unfold has_in. rewrite Hs. cbn [scope_loop e e_name]. rewrite H1, H2. reflexivity. Qed.
Lemma any_skip path x : stack_path k path -> In x path -> in_names implied_names n = true -> str_eqb n x = false ->
  any_end_loop x (s_stack s) s = any_end_loop x k s1.
Proof.
  intros Hk Hx Hn Hne. rewrite Hs. cbn [any_end_loop e e_name hq q_name]. rewrite Hne.
  assert (forall k' path', stack_path k' path' -> In x path' -> any_end_loop x k' s = any_end_loop x k' s1) as H; [|exact (H k path Hk Hx)].
  clear Hk Hx. intros k' path'. revert k'. induction path' as [|y p IH]; intros k' Hk' Hx; [destruct Hx|].
  destruct k' as [|e' k']; [discriminate|]. unfold stack_path in Hk'. cbn [map] in Hk'. injection Hk' as E Hk'. cbn [any_end_loop]. rewrite E. cbn [hq q_name].
  destruct (str_eqb y x) eqn:Exy.
  - apply str_eqb_spec in Exy. subst y. unfold seq. rewrite implied_skip; [reflexivity|exact Hn|]. cbn [opt_eqb]. fold (hq x). rewrite hq_eqb. exact Hne.
  - destruct Hx as [->|Hx]; [rewrite str_eqb_refl in Exy; discriminate|]. apply IH; assumption.
Qed.
End Drop.

Lemma whenever_eq t a s s1 : t s1 = Done true -> t s = t s1 -> a s = a s1 -> whenever t a s = whenever t a s1.
Proof. intros H1 H2 H3. unfold whenever, branch. rewrite H2, H1. exact H3. Qed.
Lemma seq_eq a b s s1 : a s = a s1 -> (a ;; b) s = (a ;; b) s1.
Proof. intros H. unfold seq. now rewrite H. Qed.

(** Entering running content with the same fuel in two states. *)
Lemma enter_both f t path : 2 <= f -> table_tag t = false ->
  exists f', f - 2 <= f' /\ forall s d k hd sw, good d k (ctx_mode path) hd false sw s -> top_html k ->
    dispatch f None t s = on_in_body (dispatch f' None) (fun m => dispatch f' (Some m)) t s.
Proof.
  intros Hf Ht. pose proof Ht as Ht0. apply orb_false_iff in Ht as [Ht1 Ht2].
  assert (ctx_mode path = IN_BODY \/ ctx_mode path = IN_CELL \/ ctx_mode path = IN_CAPTION) as [E|[E|E]].
  { clear. induction path as [|n p IH]; [left; reflexivity|]. cbn [ctx_mode]. destruct (in_names _ n); [auto|]. destruct (in_names _ n); [auto|]. destruct (in_names _ n); auto. }
  - exists (f - 1). split; [lia|]. intros s d k hd sw G Hh. rewrite E in G. destruct (enter_rules f t _ _ _ _ _ _ ltac:(lia) G Hh) as (f' & -> & ->).
    replace (S f' - 1) with f' by lia. reflexivity.
  - exists (f - 2). split; [lia|]. intros s d k hd sw G Hh. rewrite E in G. destruct (enter_rules f t _ _ _ _ _ _ ltac:(lia) G Hh) as (f' & -> & ->).
    destruct f' as [|f']; [lia|]. replace (S (S f') - 2) with f' by lia. cbn [rules]. unfold on_in_cell, starts, ends.
    not_named Ht1 t. rewrite !andb_false_r.
    replace (is_end t && named ["table"; "tbody"; "tfoot"; "thead"; "tr"]%string t) with false; [reflexivity|].
    symmetry. apply andb_false_iff in Ht2 as [Ht2|Ht2]; [rewrite Ht2; reflexivity|]. apply andb_false_iff. right.
    assert (named ["tbody"; "tfoot"; "thead"; "tr"]%string t = false) as Ht3 by (apply (named_out _ _ t) with (2 := Ht1); reflexivity). unfold named in *. destruct (t_name t) as [n|]; [|reflexivity].
    cbn [one_of existsb] in *. rewrite orb_false_r in Ht2. rewrite Ht2. exact Ht3.
  - exists (f - 2). split; [lia|]. intros s d k hd sw G Hh. rewrite E in G. destruct (enter_rules f t _ _ _ _ _ _ ltac:(lia) G Hh) as (f' & -> & ->).
    destruct f' as [|f']; [lia|]. replace (S (S f') - 2) with f' by lia. cbn [rules]. unfold on_in_caption, starts, ends.
    not_named Ht1 t. rewrite !andb_false_r, Ht2. reflexivity.
Qed.

(** ** Running content *)
Section Flow_.
Variables (path : list str) (k : list elem) (d : dom) (hd : option elem) (n : str) (i : nat) (s : st).
Let e := mkElem i (hq n).
Let s1 := set_stack k s.
Hypothesis Hp : path_at Flow path.
Hypothesis Hk : stack_path k path.
Hypothesis Hw : wfk d (e :: k).
Hypothesis Hn : in_names leaves n = true.
Hypothesis Hfit : fits_here path n = true.
Hypothesis G : good d (e :: k) (ctx_mode path) hd false None s.

Lemma leaf_plain : plain n.
Proof. clear -Hn. name_cases Hn; repeat split; reflexivity. Qed.
Lemma leaf_implied : in_names implied_names n = true.
Proof. clear -Hn. name_cases Hn; reflexivity. Qed.
Lemma leaf_basic : basic_scope (hq n) = false.
Proof. clear -Hn. name_cases Hn; reflexivity. Qed.
Lemma G1 : good d k (ctx_mode path) hd false None s1.
Proof. eapply drop_plain; [exact G|apply leaf_plain]. Qed.
Let Hs : s_stack s = e :: k := g_stack _ _ _ _ _ _ _ G.
Lemma both_flow f t : 2 <= f -> table_tag t = false -> (forall acc ai, on_in_body acc ai t s = on_in_body acc ai t s1) ->
  dispatch f None t s = dispatch f None t s1.
Proof.
  intros Hf Ht H. destruct (enter_both f t path Hf Ht) as (f' & _ & E). rewrite (E _ _ _ _ _ G eq_refl).
  rewrite (E _ _ _ _ _ G1 (path_top_html _ _ _ Hp Hk)). apply H.
Qed.

Lemma in_scope_up x : str_eqb n x = false -> inside (str_eqb x) walls path = true ->
  in_scope (hq x) s = Done true /\ in_scope (hq x) s1 = Done true.
Proof.
  intros Hx Hi. assert (in_scope (hq x) s1 = Done true) as E.
  { rewrite (in_scope_spec _ _ _ _ _ s1 Hp Hk eq_refl (eqb_hq x)), Hi. reflexivity. }
  split; [|exact E]. unfold in_scope in *. rewrite (scope_skip i n k s Hs); [exact E|exact Hx|apply leaf_basic].
Qed.

(** The end tags of the elements around. *)
Lemma end_block x acc ai : in_names block_end_names x = true -> str_eqb n x = false -> inside (str_eqb x) walls path = true ->
  on_in_body acc ai (etag x) s = on_in_body acc ai (etag x) s1.
Proof.
  intros Hx Hne Hi. rewrite !(rend_block acc ai x Hx). destruct (in_scope_up x Hne Hi) as [E E1].
  apply whenever_eq; [exact E1|congruence|]. apply seq_eq. apply (implied_skip i n k s Hs); [apply leaf_implied|reflexivity].
Qed.
Lemma end_any x acc ai : in_names end_known x = false -> str_eqb n x = false -> In x path ->
  on_in_body acc ai (etag x) s = on_in_body acc ai (etag x) s1.
Proof. intros Hx Hne Hi. rewrite !(rend_other acc ai x Hx). apply (any_skip i n k s Hs path x Hk Hi leaf_implied Hne). Qed.

Lemma end_parent m p acc ai : path = m :: p -> in_names ("table"%string :: not_flow) m = false -> str_eqb n m = false ->
  in_names ("p"%string :: formatting) m = false -> empty_element m = false -> (in_names ["li"; "dd"; "dt"]%string m = true -> n = of_string "p") ->
  on_in_body acc ai (etag m) s = on_in_body acc ai (etag m) s1.
Proof.
  intros Ep Hm Hne Hf Hv Hli.
  assert (inside (str_eqb m) walls path = true) as Hi by (rewrite Ep; cbn [inside]; now rewrite str_eqb_refl).
  destruct (in_scope_up m Hne Hi) as [E E1].
  destruct (in_names block_end_names m) eqn:E2; [apply end_block; auto|].
  destruct (in_names ["form"]%string m) eqn:E3.
  { assert (has_template s = false) as T.
    { unfold has_template. rewrite Hs. cbn [stack_has existsb e e_name]. rewrite h_eqb. fold (stack_has (h "template_") k). rewrite (no_template _ _ Hp Hk), orb_false_r. clear -Hn. name_cases Hn; reflexivity. }
    assert (has_template s1 = false) as T1 by exact (no_template _ _ Hp Hk).
    rewrite (rend_form acc ai m s E3 T), (rend_form acc ai m s1 E3 T1). change (s_form s1) with (s_form s).
    pose proof (g_form _ _ _ _ _ _ _ G1) as Ef. change (s_form s1) with (s_form s) in Ef. apply in_one in E3. subst m.
    assert (exists e', s_form s = Some e' /\ e_name e' = hq (of_string "form")) as (e' & Ef' & En).
    { pose proof Hk as Hk'. rewrite Ep in Hk'. unfold stack_path in Hk'. rewrite Ef. destruct k as [|e' k']; [discriminate|]. cbn [map] in Hk'. injection Hk' as En _.
      exists e'. split; [|exact En]. cbn [find]. assert (is_form e' = true) as -> by (unfold is_form, ename; rewrite En; reflexivity). reflexivity. }
    rewrite Ef', En.
    apply whenever_eq; [exact E1|change (in_scope (hq (of_string "form")) s = in_scope (hq (of_string "form")) s1); congruence|].
    apply seq_eq. apply (implied_skip i n k (set_form None s) Hs); [apply leaf_implied|reflexivity]. }
  destruct (in_names ["li"]%string m) eqn:E4.
  { rewrite !(rend_li acc ai m E4). apply in_one in E4. subst m. pose proof (Hli eq_refl) as En.
    assert (in_list_scope (h "li") s1 = Done true) as X by (rewrite (in_list_scope_spec _ _ _ _ _ s1 Hp Hk eq_refl (eqb_h "li")), Ep; reflexivity).
    apply whenever_eq; [exact X| |apply seq_eq; apply (implied_skip i n k s Hs); [apply leaf_implied|rewrite En; reflexivity]].
    unfold in_list_scope. apply (scope_skip i n k s Hs); rewrite En; reflexivity. }
  destruct (in_names ["dd"; "dt"]%string m) eqn:E5.
  { rewrite !(rend_dd acc ai m E5). assert (n = of_string "p") as Hnp by (apply Hli; clear -E5; name_cases E5; reflexivity).
    apply whenever_eq; [exact E1|congruence|]. apply seq_eq. apply (implied_skip i n k s Hs); [apply leaf_implied|]. cbn [opt_eqb]. rewrite hq_eqb. exact Hne. }
  destruct (in_names headings m) eqn:E6.
  { rewrite !(rend_heading acc ai m E6).
    assert (forall x, In x headings -> in_scope (h x) s = in_scope (h x) s1) as Q.
    { intros x Hx. unfold in_scope. apply (scope_skip i n k s Hs); [|apply leaf_basic]. rewrite h_eqb. clear -Hx Hn. name_cases Hn; repeat (destruct Hx as [<-|Hx]; [reflexivity|]); destruct Hx. }
    assert (forall x, in_scope (h x) s1 = Done (inside (eq_name x) walls path)) as Q1.
    { intros x. apply (in_scope_spec _ _ _ _ _ s1 Hp Hk eq_refl). exact (eqb_h x). }
    apply whenever_eq.
    - unfold either. rewrite !Q1, Ep. cbn [andthen]. cbn [inside]. clear -E6. name_cases E6; repeat match goal with |- context [inside ?f ?w p] => destruct (inside f w p) end; reflexivity.
    - unfold either. rewrite !Q by (cbn; tauto). reflexivity.
    - apply seq_eq. apply (implied_skip i n k s Hs); [apply leaf_implied|reflexivity]. }
  destruct (in_names ["applet"; "marquee"; "object"]%string m) eqn:E8.
  { rewrite !(rend_applet acc ai m E8). apply whenever_eq; [exact E1|congruence|]. apply seq_eq. apply (implied_skip i n k s Hs); [apply leaf_implied|reflexivity]. }
  apply end_any; [|exact Hne|rewrite Ep; left; reflexivity].
  assert (in_names formatting m = false /\ in_names ["p"]%string m = false) as [Ef Ep0].
  { cbn [in_names existsb] in Hf. apply orb_false_iff in Hf as [Hf1 Hf2]. split; [exact Hf2|]. cbn [in_names existsb]. now rewrite Hf1. }
  unfold end_known. rewrite !in_names_app, E2, E6, Ef. rewrite !orb_false_r.
  match goal with |- in_names ?l m = false => destruct (in_names l m) eqn:Ex; [|reflexivity] end. exfalso. clear -Ex E2 E3 E4 E5 E8 Hv Hm Ep0.
  apply in_names_In in Ex. destruct Ex as (x & Hx & ->).
  repeat (destruct Hx as [<-|Hx]; [first [discriminate Hv|discriminate Hm|discriminate E3|discriminate E4|discriminate E5|discriminate E8|discriminate Ep0]|]). destruct Hx.
Qed.

(** The start tags. *)
Lemma close_p_top : n = of_string "p" -> close_p_in_button_scope s = Done s1.
Proof.
  intros En. unfold close_p_in_button_scope, whenever, branch, in_button_scope, has_in. rewrite Hs. cbn [scope_loop e e_name].
  assert (qname_eqb (hq n) (h "p") = true) as -> by (rewrite En; reflexivity). cbn [andthen].
  unfold close_p, seq. assert (implied (Some (h "p")) s = Done s) as ->.
  { rewrite <- (implied_top _ _ _ _ _ _ _ G (Some (hq n)) (or_intror eq_refl)). rewrite En. reflexivity. }
  cbn [andthen]. rewrite (drop_top _ _ _ _ _ _ _ G) by (rewrite En; reflexivity). reflexivity.
Qed.
Lemma start_p x a acc ai : n = of_string "p" -> in_names after_p x = true -> in_names ["table"]%string x = false -> fits_here path x = true ->
  on_in_body acc ai (stag x a) s = on_in_body acc ai (stag x a) s1.
Proof.
  intros En Hx Ht Hf. apply fits_facts in Hf.
  assert (close_p_in_button_scope s1 = Done s1) as C1.
  { apply (close_p_nop _ _ _ s1 Hp Hk eq_refl). apply (ff_p _ _ Hf). clear -Hx Ht. name_cases Hx; first [discriminate Ht|reflexivity]. }
  pose proof (close_p_top En) as C.
  destruct (in_names ["form"]%string x) eqn:Ef.
  { assert (s_form s = None) as F.
    { change (s_form s) with (s_form s1). rewrite (g_form _ _ _ _ _ _ _ G1). apply (no_form_path path); [exact Hk|]. apply (ff_form _ _ Hf Ef). }
    rewrite (rule_form acc ai a x s Ef F), (rule_form acc ai a x s1 Ef F). unfold seq. rewrite C, C1. reflexivity. }
  assert (exists r, on_in_body acc ai (stag x a) = (close_p_in_button_scope ;; r)) as (r & ->).
  { clear -Hx Ht Ef. name_cases Hx; first [discriminate Ht|discriminate Ef|eexists; reflexivity]. }
  unfold seq. rewrite C, C1. reflexivity.
Qed.
Lemma start_item items x a acc ai : items = ["li"]%string \/ items = ["dd"; "dt"]%string -> in_names items n = true -> in_names items x = true -> fits_here path x = true ->
  on_in_body acc ai (stag x a) s = on_in_body acc ai (stag x a) s1.
Proof.
  intros Hi Hni Hxi Hf. apply fits_facts in Hf.
  assert (on_in_body acc ai (stag x a) = (frameset_not_ok ;; (fun s => item_loop items (stag x a) (s_stack s) s))) as ->.
  { destruct Hi as [-> | ->]; [apply rule_li|apply rule_dd]; exact Hxi. }
  unfold seq at 1 2. unfold frameset_not_ok, pure. cbn [andthen]. cbn [set_frameset s_stack]. rewrite Hs.
  rewrite (item_none Flow items (stag x a) _ path _ Hp Hk).
  2: { destruct Hi as [-> | ->].
       - assert (forall p, inside (in_names ["li"]%string) item_walls p = inside (eq_name "li") item_walls p) as ->; [|apply (ff_li _ _ Hf Hxi)].
         induction p as [|y p IH]; [reflexivity|]. cbn [inside]. rewrite IH. unfold eq_name. cbn [in_names existsb]. now rewrite orb_false_r.
       - apply (ff_dd _ _ Hf Hxi). }
  cbn [item_loop e e_name]. rewrite qone_h, Hni. unfold seq at 1 2.
  pose proof (good_frameset _ _ _ _ _ _ _ false G) as G'. fold (hq n).
  rewrite (implied_top _ _ _ _ _ _ _ G' (Some (hq n)) (or_intror eq_refl)). cbn [andthen].
  rewrite (drop_top1 _ _ _ _ _ _ _ G'). reflexivity.
Qed.
Lemma start_item_up items x a m p acc ai : items = ["li"]%string \/ items = ["dd"; "dt"]%string -> n = of_string "p" -> path = m :: p -> in_names items m = true -> in_names items x = true ->
  on_in_body acc ai (stag x a) s = on_in_body acc ai (stag x a) s1.
Proof.
  intros Hi En Ep Hm Hx.
  assert (on_in_body acc ai (stag x a) = (frameset_not_ok ;; (fun s => item_loop items (stag x a) (s_stack s) s))) as ->.
  { destruct Hi as [-> | ->]; [apply rule_li|apply rule_dd]; exact Hx. }
  unfold seq at 1 2. unfold frameset_not_ok, pure. cbn [andthen]. cbn [set_frameset s_stack s1 set_stack]. rewrite Hs.
  assert (exists e' k', k = e' :: k' /\ e_name e' = hq m) as (e' & k' & Ek & Em).
  { pose proof Hk as Hk'. rewrite Ep in Hk'. unfold stack_path in Hk'. destruct k as [|e' k']; [discriminate|]. cbn [map] in Hk'. injection Hk' as Em _. eauto. }
  rewrite Ek. cbn [item_loop e e_name]. rewrite Em, !qone_h, Hm, En.
  assert (in_names items (of_string "p") = false) as -> by (destruct Hi as [-> | ->]; reflexivity).
  change (is_special (hq (of_string "p")) && negb (in_names ["address"; "div"; "p"]%string (of_string "p"))) with false. cbn iota.
  apply seq_eq. apply (implied_skip i n k (set_frameset false s) Hs); [apply leaf_implied|].
  rewrite En.
  cbn [opt_eqb]. rewrite hq_eqb. clear -Hi Hm. destruct Hi as [-> | ->]; name_cases Hm; reflexivity.
Qed.
Lemma start_ruby x a m p acc ai : in_names ["rt"; "rp"]%string n = true -> in_names ["rt"; "rp"]%string x = true -> path = m :: p -> m = of_string "ruby" ->
  on_in_body acc ai (stag x a) s = on_in_body acc ai (stag x a) s1.
Proof.
  intros Hr Hx Ep Em. rewrite !(rule_rt acc ai a x) by (clear -Hx; name_cases Hx; reflexivity).
  destruct (in_scope_up (of_string "ruby")) as [E E1]; [clear -Hr; name_cases Hr; reflexivity|rewrite Ep, Em; reflexivity|].
  apply seq_eq. apply whenever_eq; [exact E1|change (in_scope (hq (of_string "ruby")) s = in_scope (hq (of_string "ruby")) s1); congruence|].
  apply seq_eq. apply (implied_skip i n k s Hs); [apply leaf_implied|clear -Hr; name_cases Hr; reflexivity].
Qed.
Lemma start_option x a m p acc ai : n = of_string "option" -> in_names ["option"; "optgroup"]%string x = true -> fits_here path x = true ->
  path = m :: p -> in_names ["option"]%string m = false ->
  on_in_body acc ai (stag x a) s = on_in_body acc ai (stag x a) s1.
Proof.
  intros En Hx Hf Ep Hm. apply fits_facts in Hf.
  assert (in_scope (h "select") s = in_scope (h "select") s1) as Q.
  { unfold in_scope. apply (scope_skip i n k s Hs); [rewrite En; reflexivity|apply leaf_basic]. }
  assert (implied (Some (h "optgroup")) s = implied (Some (h "optgroup")) s1) as Qi by (apply (implied_skip i n k s Hs); [apply leaf_implied|rewrite En; reflexivity]).
  assert (in_scope (h "select") s1 = Done (inside (eq_name "select") walls path)) as Q1 by (apply (in_scope_spec _ _ _ _ _ s1 Hp Hk eq_refl); exact (eqb_h "select")).
  destruct (in_names ["option"]%string x) eqn:Eo.
  - rewrite !(rule_option acc ai a x Eo). apply seq_eq. unfold branch. rewrite Q, Q1. cbn [andthen]. destruct (inside (eq_name "select") walls path).
    + apply seq_eq. exact Qi.
    + unfold whenever, branch, cur_one, cur_is, current. rewrite Hs. cbn [andthen e e_name]. rewrite En. change (qone_of (map h ["option"%string]) (hq (of_string "option"))) with true. cbn iota.
      unfold pop. rewrite Hs. cbn [s1 set_stack s_stack]. 
      assert (exists e' k', k = e' :: k' /\ e_name e' = hq m) as (e' & k' & Ek & Em).
      { pose proof Hk as Hk'. rewrite Ep in Hk'. unfold stack_path in Hk'. destruct k as [|e' k']; [discriminate|]. cbn [map] in Hk'. injection Hk' as Em _. eauto. }
      rewrite Ek. cbn [andthen]. rewrite Em, qone_h, Hm. rewrite <- Ek. reflexivity.
  - assert (in_names ["optgroup"]%string x = true) as Eg by (clear -Hx Eo; name_cases Hx; [discriminate Eo|reflexivity]).
    rewrite !(rule_optgroup acc ai a x Eg). destruct (ff_optgroup _ _ Hf Eg) as [Hsel _]. rewrite Hsel in Q1.
    apply whenever_eq; [exact Q1|exact Q|]. apply seq_eq. exact Qi.
Qed.
End Flow_.

(** ** What can come after the content of an element *)
Lemma path_fun c p : path_at c p -> forall c', path_at c' p -> c = c'.
Proof.
  intros H c' H'. inversion H as [| |n p0 Hn Hp|n p0 Hn Hp|p0 Hp|p0 Hp|p0 Hp|n p0 Hn Hp|p0 Hp]; subst;
    inversion H' as [| |n' p1 Hn' Hp'|n' p1 Hn' Hp'|p1 Hp'|p1 Hp'|p1 Hp'|n' p1 Hn' Hp'|p1 Hp']; subst; try reflexivity;
    repeat match goal with H : in_names _ _ = true |- _ => name_cases H end; try discriminate;
    try match goal with H : in_names _ _ = false |- _ => discriminate H end.
Qed.
Ltac names_in H := repeat match type of H with context [in_names ?l (of_string ?x)] =>
  let v := eval vm_compute in (in_names l (of_string x)) in change (in_names l (of_string x)) with v in H end.
Ltac omitted H := unfold omit, but_mistaken, standard, end_is_optional, mistaken, in_its_place, implies in H; names_in H; cbn [andb orb negb followed_by is_last] in H;
  rewrite ?orb_false_r, ?andb_true_r in H; cbn [andb orb negb] in H.
Lemma fits_tag c path q a ns : fits c path (Element q a ns) -> q = hq (q_name q).
Proof. cbn [fits]. intros [H _]. destruct q as [o n]. cbn in *. now subst. Qed.
Lemma named_element l q a ns : is_element l (Element q a ns) = true -> in_names l (q_name q) = true.
Proof. cbn [is_element]. unfold html_named. intros H. now apply andb_true_iff in H as [_ H]. Qed.
Lemma skip_names t n path : skip t n path -> in_names droppable n = true.
Proof. intros H. inversion H; subst; eapply omit_names; eassumption. Qed.

Definition tag_in (l : list string) (t : token) : Prop := exists x a, t = stag x a /\ in_names l x = true.
Definition sec_next (t : token) : Prop := tag_in sections t \/ t = etag (of_string "table").
Definition row_next (sec : str) (t : token) : Prop := sec_next t \/ tag_in ["tr"]%string t \/ t = etag sec.
Definition cell_next (sec : str) (t : token) : Prop := row_next sec t \/ tag_in ["td"; "th"]%string t \/ t = etag (of_string "tr").
Definition caption_next (t : token) : Prop := tag_in ["caption"; "colgroup"; "tbody"; "thead"; "tfoot"; "tr"; "col"]%string t \/ t = etag (of_string "table").
Definition columns_next (t : token) : Prop := tag_in ["caption"; "colgroup"; "tbody"; "thead"; "tfoot"; "tr"]%string t \/ t = etag (of_string "table").

Lemma bare_cases cut n x r : start_is_optional cut n (x :: r) = true ->
  n = of_string "tbody" /\ is_element ["tr"]%string x = true /\ in_names sections cut = false \/
  n = of_string "colgroup" /\ is_element ["col"]%string x = true /\ in_names ["colgroup"]%string cut = false.
Proof.
  cbn [start_is_optional]. intros H. apply orb_true_iff in H as [H|H]; apply andb_true_iff in H as [H H3]; apply andb_true_iff in H as [H1 H2]; apply in_one in H1; apply negb_true_iff in H3; auto.
Qed.

Definition nexts : list (string * list string) :=
  [("li", ["li"]); ("dt", ["dt"; "dd"]); ("dd", ["dd"; "dt"]); ("p", after_p); ("rt", ["rt"; "rp"]); ("rp", ["rt"; "rp"]);
   ("optgroup", ["optgroup"; "hr"]); ("option", ["option"; "optgroup"; "hr"]); ("thead", ["tbody"; "tfoot"]); ("tbody", ["tbody"; "tfoot"]);
   ("tr", ["tr"]); ("td", ["td"; "th"]); ("th", ["td"; "th"])]%string.
Lemma omit_next m n x : omit m n (Some x) = true -> in_names ["colgroup"; "caption"]%string n = true \/
  exists n' l, In (n', l) nexts /\ n = of_string n' /\ is_element l x = true.
Proof.
  intros H. apply omit_end in H as [H _]. unfold end_is_optional in H. cbn [is_last followed_by] in H. rewrite !andb_false_l, !orb_false_r in H.
  rewrite !orb_true_iff in H.
  repeat match goal with H : _ \/ _ |- _ => destruct H as [H|H] end; apply andb_true_iff in H as [H H'];
    first [left; exact H|discriminate H'|right; name_cases H; eexists _, _; (split; [|split; [reflexivity|exact H']]); cbn [In nexts]; tauto].
Qed.
Lemma omit_section m n x : omit m n (Some x) = true -> in_names sections n = true -> is_element sections x = true.
Proof.
  intros H Hn. apply omit_next in H as [H|(n' & l & Hi & -> & Hx)]; [name_cases H; discriminate Hn|].
  repeat (destruct Hi as [[= <- <-]|Hi]; [try discriminate Hn|]); [..|destruct Hi]; destruct x; try discriminate Hx; cbn [is_element] in *; unfold html_named in *;
    apply andb_true_iff in Hx as [-> Hx]; name_cases Hx; reflexivity.
Qed.
Lemma omit_one n0 l m x : In (n0, l) nexts -> omit m (of_string n0) (Some x) = true -> is_element l x = true.
Proof.
  intros Hi0 H. apply omit_next in H as [H|(n' & l' & Hi & E & Hx)].
  - repeat (destruct Hi0 as [[= <- <-]|Hi0]; [discriminate H|]). destruct Hi0.
  - repeat (destruct Hi0 as [[= <- <-]|Hi0]; [repeat (destruct Hi as [[= <- <-]|Hi]; [first [discriminate E|exact Hx]|]); destruct Hi|]). destruct Hi0.
Qed.

Lemma skip_section t n path : path_at InTable path -> in_names sections n = true -> skip t n path -> sec_next t.
Proof.
  intros Hp Hn H. inversion H as [n' m p c x Ho Hf Hc Hop|n' m p Ho Hv Ht|n' m p Ho Hs|n' p Ho Ht]; subst.
  - assert (c = InTable) as -> by (eapply path_fun; eassumption).
    pose proof (omit_section _ _ _ Ho Hn) as Hx.
    inversion Hop as [q a ns|q q' a' ns' r Hb]; subst.
    + left. exists (q_name q), a. split; [reflexivity|]. exact (named_element _ _ _ _ Hx).
    + exfalso. apply bare_cases in Hb as [(_ & _ & Hb)|(Hb & _)]; [congruence|]. apply named_element in Hx. rewrite Hb in Hx. discriminate.
  - right. inversion Hp; subst. reflexivity.
  - inversion Hp; subst. apply skip_names in Hs. discriminate.
  - inversion Hp.
Qed.
Lemma no_bare cut q a l t : opener cut (Element q a l) t -> in_names ["tbody"; "colgroup"]%string (q_name q) = false -> t = stag (q_name q) a.
Proof. intros H Hn. inversion H as [|q0 q' a' ns' r Hb]; subst; [reflexivity|]. apply bare_cases in Hb as [(E & _)|(E & _)]; rewrite E in Hn; discriminate. Qed.
Lemma opener_element cut x t : opener cut x t -> exists q a l, x = Element q a l.
Proof. intros H. inversion H; eauto. Qed.

Lemma skip_row t sec p : path_at InSection (sec :: p) -> skip t (of_string "tr") (sec :: p) -> row_next sec t.
Proof.
  intros Hp H. inversion H as [n' m p' c x Ho Hf Hc Hop|n' m p' Ho Hv Ht|n' m p' Ho Hs|n' p' Ho Ht]; subst.
  - apply (omit_one "tr" ["tr"]%string) in Ho; [|cbn; tauto]. destruct (opener_element _ _ _ Hop) as (q & a & l & ->). apply named_element in Ho.
    apply no_bare in Hop; [|name_cases Ho; reflexivity]. right. left. exists (q_name q), a. auto.
  - right. right. reflexivity.
  - left. inversion Hp as [| | | | | | |x y Hx Hy|]; subst. eapply skip_section; eassumption.
  - inversion Hp as [| | | | | | |x y Hx Hy|]; subst. discriminate Hx.
Qed.
Lemma skip_cell t n sec p : path_at InRow (of_string "tr" :: sec :: p) -> in_names ["td"; "th"]%string n = true -> skip t n (of_string "tr" :: sec :: p) -> cell_next sec t.
Proof.
  intros Hp Hn H. inversion H as [n' m p' c x Ho Hf Hc Hop|n' m p' Ho Hv Ht|n' m p' Ho Hs|n' p' Ho Ht]; subst.
  - assert (is_element ["td"; "th"]%string x = true) as Hx by (name_cases Hn; [apply (omit_one "td" ["td"; "th"]%string) in Ho|apply (omit_one "th" ["td"; "th"]%string) in Ho]; auto; cbn; tauto).
    destruct (opener_element _ _ _ Hop) as (q & a & l & ->). apply named_element in Hx.
    apply no_bare in Hop; [|name_cases Hx; reflexivity]. right. left. exists (q_name q), a. auto.
  - right. right. reflexivity.
  - left. inversion Hp; subst. eapply skip_row; eassumption.
Qed.
Lemma fits_table path q a l : fits InTable path (Element q a l) -> in_names ["caption"; "colgroup"; "tbody"; "thead"; "tfoot"]%string (q_name q) = true.
Proof.
  cbn [fits]. intros [_ H]. destruct (in_names ["caption"]%string (q_name q)) eqn:E1; [apply in_one in E1; rewrite E1; reflexivity|].
  destruct (in_names ["colgroup"]%string (q_name q)) eqn:E2; [apply in_one in E2; rewrite E2; reflexivity|]. destruct H as [H _]. name_cases H; reflexivity.
Qed.
Lemma skip_columns t n path : path_at InTable path -> in_names ["caption"; "colgroup"]%string n = true -> skip t n path ->
  caption_next t /\ (in_names ["colgroup"]%string n = true -> columns_next t).
Proof.
  intros Hp Hn H. inversion H as [n' m p' c x Ho Hf Hc Hop|n' m p' Ho Hv Ht|n' m p' Ho Hs|n' p' Ho Ht]; subst.
  - assert (c = InTable) as -> by (eapply path_fun; eassumption). inversion Hop as [q a ns|q q' a' ns' r Hb]; subst.
    + apply fits_table in Hf. split; [|intros _]; left; exists (q_name q), a; (split; [reflexivity|name_cases Hf; reflexivity]).
    + apply bare_cases in Hb as [(_ & Hx & _)|(_ & Hx & Hc')]; apply named_element in Hx.
      * split; [|intros _]; left; exists (q_name q'), a'; (split; [reflexivity|name_cases Hx; reflexivity]).
      * split; [left; exists (q_name q'), a'; (split; [reflexivity|name_cases Hx; reflexivity])|]. congruence.
  - inversion Hp; subst. split; [|intros _]; right; reflexivity.
  - inversion Hp; subst. apply skip_names in Hs. discriminate.
  - inversion Hp.
Qed.

Lemma cell_start acc ai t s : tag_in ["tbody"; "thead"; "tfoot"; "tr"; "td"; "th"]%string t -> on_in_cell acc ai t s =
  ((fun s => andthen (either (in_table_scope (h "td")) (in_table_scope (h "tr")) s) (fun _ => Done s)) ;; close_cell ;; acc t) s.
Proof. intros (x & a & -> & H). name_cases H; reflexivity. Qed.
Lemma cell_close acc ai x s : in_names ["table"; "tbody"; "thead"; "tfoot"; "tr"]%string x = true -> on_in_cell acc ai (etag x) s =
  whenever (in_table_scope (hq x)) (close_cell ;; acc (etag x)) s.
Proof. intros H. name_cases H; reflexivity. Qed.
Lemma cell_next_cases sec t : in_names sections sec = true -> cell_next sec t ->
  tag_in ["tbody"; "thead"; "tfoot"; "tr"; "td"; "th"]%string t \/ t = etag (of_string "table") \/ t = etag sec \/ t = etag (of_string "tr").
Proof.
  intros Hs [[[(x & a & -> & H)| ->]|[(x & a & -> & H)| ->]]|[(x & a & -> & H)| ->]]; auto; left; exists x, a; (split; [reflexivity|name_cases H; reflexivity]).
Qed.
Lemma caption_tag acc ai t s : caption_next t -> on_in_caption acc ai t s = close_caption (acc t) s.
Proof. intros [(x & a & -> & H)| ->]; [name_cases H|]; reflexivity. Qed.

(** A paragraph at the end of a cell or of a caption. *)
Section Paragraph.
Variables (path : list str) (k : list elem) (d : dom) (hd : option elem) (i : nat) (s : st).
Let n := of_string "p".
Let e := mkElem i (hq n).
Let s1 := set_stack k s.
Hypothesis Hp : path_at Flow path.
Hypothesis Hk : stack_path k path.
Hypothesis G : good d (e :: k) (ctx_mode path) hd false None s.
Let Hs : s_stack s = e :: k := g_stack _ _ _ _ _ _ _ G.
Lemma para_good : good d k (ctx_mode path) hd false None s1.
Proof. eapply drop_plain; [exact G|repeat split; reflexivity]. Qed.
Lemma table_scope_both q wanted : (forall x, x <> of_string "template_" -> qname_eqb (hq x) q = wanted x) -> qname_eqb (hq n) q = false ->
  in_table_scope q s = in_table_scope q s1 /\ in_table_scope q s1 = Done (inside wanted ["html"; "table"]%string path).
Proof.
  intros Hq Hn. split; [|exact (in_table_scope_spec _ _ _ _ _ s1 Hp Hk eq_refl Hq)]. unfold in_table_scope. apply (scope_skip i n k s Hs); [exact Hn|reflexivity].
Qed.
Lemma implied_both : implied None s = implied None s1.
Proof. apply (implied_skip i n k s Hs); reflexivity. Qed.
Lemma para_enter f t m : ctx_mode path = m -> 1 <= f -> (forall acc ai, rules acc ai m t s = rules acc ai m t s1) -> dispatch f None t s = dispatch f None t s1.
Proof.
  intros Hm Hf H. pose proof G as G0. pose proof para_good as G1. rewrite Hm in G0, G1.
  destruct (enter_rules f t _ _ _ _ _ _ Hf G0 eq_refl) as (f' & E & ->). destruct (enter_rules f t _ _ _ _ _ _ Hf G1 (path_top_html _ _ _ Hp Hk)) as (f'' & E' & ->).
  assert (f' = f'') as -> by lia. apply H.
Qed.
Lemma para_cell m sec p t f : path = m :: of_string "tr" :: sec :: p -> in_names ["td"; "th"]%string m = true -> in_names sections sec = true ->
  t = etag m \/ cell_next sec t -> 1 <= f -> dispatch f None t s = dispatch f None t s1.
Proof.
  intros Ep Hm Hsec Ht Hf. apply (para_enter f t IN_CELL); [rewrite Ep; cbn [ctx_mode]; now rewrite Hm|exact Hf|]. intros acc ai. cbn [rules].
  assert (forall x, str_eqb n x = false -> inside (str_eqb x) ["html"; "table"]%string path = true -> in_table_scope (hq x) s = Done true /\ in_table_scope (hq x) s1 = Done true) as Q.
  { intros x Hx Hi. destruct (table_scope_both (hq x) (str_eqb x) (eqb_hq x)) as [E E1]; [now rewrite hq_eqb|]. rewrite Hi in E1. split; congruence. }
  destruct Ht as [-> |Ht].
  - rewrite !(cell_end _ _ _ _ Hm). destruct (Q m) as [E E1]; [clear -Hm; name_cases Hm; reflexivity|rewrite Ep; cbn [inside]; now rewrite str_eqb_refl|].
    apply whenever_eq; [exact E1|congruence|]. apply seq_eq. exact implied_both.
  - apply (cell_next_cases _ _ Hsec) in Ht.
    assert (forall x, in_names ["table"; "tbody"; "thead"; "tfoot"; "tr"]%string x = true -> inside (str_eqb x) ["html"; "table"]%string path = true -> on_in_cell acc ai (etag x) s = on_in_cell acc ai (etag x) s1) as W.
    { intros x Hx Hi. rewrite !(cell_close _ _ _ _ Hx). destruct (Q x) as [E E1]; [clear -Hx; name_cases Hx; reflexivity|exact Hi|].
      apply whenever_eq; [exact E1|congruence|]. apply seq_eq. unfold close_cell. apply seq_eq. exact implied_both. }
    destruct Ht as [Ht|[-> |[-> | ->]]].
    + rewrite !(cell_start _ _ _ _ Ht). unfold seq at 1 3.
      destruct (table_scope_both (h "td") (eq_name "td") (eqb_h "td") eq_refl) as [E E1]. destruct (table_scope_both (h "tr") (eq_name "tr") (eqb_h "tr") eq_refl) as [E2 E3].
      unfold either. rewrite E, E1, E2, E3. cbn [andthen].
      destruct (inside (eq_name "td") ["html"; "table"]%string path); cbn [andthen]; apply seq_eq; unfold close_cell; apply seq_eq; exact implied_both.
    + apply W; [reflexivity|]. pose proof Hp as Hp'. rewrite Ep in Hp' |- *. clear -Hp' Hm Hsec. inversion Hp' as [| |x p0 Hx Hp0|x p0 Hx Hp0|p0 Hp0| | | |]; subst.
      * clear -Hm Hx. name_cases Hm; discriminate Hx.
      * inversion Hp0 as [| | | | | | | |p1 Hp1]; subst. inversion Hp1 as [| | | | | | |y p2 Hy Hp2|]; subst. inversion Hp2; subst. name_cases Hm; name_cases Hsec; reflexivity.
      * discriminate Hm.
    + apply W; [clear -Hsec; name_cases Hsec; reflexivity|]. rewrite Ep. clear -Hm Hsec. name_cases Hm; name_cases Hsec; reflexivity.
    + apply W; [reflexivity|]. rewrite Ep. clear -Hm. name_cases Hm; reflexivity.
Qed.
Lemma para_caption p t f : path = of_string "caption" :: p -> t = etag (of_string "caption") \/ caption_next t -> 1 <= f -> dispatch f None t s = dispatch f None t s1.
Proof.
  intros Ep Ht Hf. apply (para_enter f t IN_CAPTION); [rewrite Ep; reflexivity|exact Hf|]. intros acc ai. cbn [rules].
  assert (forall a, close_caption a s = close_caption a s1) as W.
  { intros a. unfold close_caption. destruct (table_scope_both (h "caption") (eq_name "caption") (eqb_h "caption") eq_refl) as [E E1].
    rewrite Ep in E1. change (inside (eq_name "caption") ["html"; "table"]%string (of_string "caption" :: p)) with true in E1. apply whenever_eq; [exact E1|exact E|]. apply seq_eq. exact implied_both. }
  destruct Ht as [-> |Ht]; [rewrite !cap_end|rewrite !(caption_tag _ _ _ _ Ht)]; apply W.
Qed.
End Paragraph.

Lemma flow_path_cases m p : path_at Flow (m :: p) ->
  m = of_string "body" /\ p = [of_string "html"] \/ in_names ("table"%string :: not_flow) m = false /\ path_at Flow p \/
  (in_names ["td"; "th"]%string m = true /\ exists sec p', p = of_string "tr" :: sec :: p' /\ in_names sections sec = true /\ path_at InRow p) \/
  m = of_string "caption" /\ path_at InTable p.
Proof.
  intros H. inversion H as [| |x p0 Hx Hp0|x p0 Hx Hp0|p0 Hp0| | | |]; subst; auto 6.
  right. right. left. split; [exact Hx|]. inversion Hp0 as [| | | | | | | |p1 Hp1]; subst. inversion Hp1 as [| | | | | | |y p2 Hy Hp2|]; subst. eauto 8.
Qed.
Lemma place_cases m n : in_its_place m n = true -> in_names leaves n = true ->
  n = of_string "p" /\ in_names (["option"; "optgroup"; "rt"; "rp"; "ruby"]%string ++ formatting) m = false \/
  in_names ["li"]%string n = true /\ in_names ["ul"; "ol"; "menu"]%string m = true \/ in_names ["dd"; "dt"]%string n = true /\ in_names ["dl"; "div"]%string m = true \/
  in_names ["rt"; "rp"]%string n = true /\ in_names ["ruby"]%string m = true \/ n = of_string "option" /\ in_names ["select"; "optgroup"; "datalist"]%string m = true \/
  n = of_string "optgroup" /\ in_names ["select"]%string m = true.
Proof.
  intros H Hn. unfold in_its_place in H. name_cases Hn; unfold implies in H; names_in H; cbn [negb orb andb] in H; rewrite ?andb_true_r in H; auto 8.
  left. split; [reflexivity|]. now apply negb_true_iff in H.
Qed.

Lemma close_flow t n path k d hd i s f : skip t n path -> ~ final t -> in_names leaves n = true -> fits_here path n = true -> path_at Flow path -> stack_path k path ->
  wfk d (mkElem i (hq n) :: k) -> good d (mkElem i (hq n) :: k) (ctx_mode path) hd false None s -> 2 <= f ->
  dispatch f None t s = dispatch f None t (set_stack k s).
Proof.
  intros Hsk Hnf Hn Hfit Hp Hk Hw G Hf.
  pose proof (both_flow path k d hd n i s Hp Hk Hn G f) as BF.
  inversion Hsk as [n' m p c x Ho Hfx Hc Hop|n' m p Ho Hv Ht|n' m p Ho Hup|n' p Ho Ht]; subst n'.
  - (* the next element *)
    assert (c = Flow) as -> by (eapply path_fun; [eassumption|now subst]). subst path.
    destruct (opener_element _ _ _ Hop) as (q & a & l & ->). pose proof Hfx as Hq. cbn [fits] in Hq. destruct Hq as [_ [Hq _]].
    apply no_bare in Hop. 2: { apply flow_name in Hq. eapply in_names_out; [|exact Hq]. reflexivity. }
    subst t. apply BF; [exact Hf|exact (flow_tag _ _ _ Hq)|]. intros acc ai.
    pose proof (place_cases _ _ (omit_place _ _ _ Ho) Hn) as Hpl. pose proof (omit_end _ _ _ Ho) as [_ Hmis].
    destruct Hpl as [(E & Hm)|[(E & Hm)|[(E & Hm)|[(E & Hm)|[(E & Hm)|(E & Hm)]]]]].
    + rewrite E in Ho, Hmis. apply (omit_one "p" after_p) in Ho; [|cbn; tauto]. pose proof (named_element _ _ _ _ Ho) as Hx.
      eapply (start_p (m :: p)); try eassumption. destruct (in_names ["table"]%string (q_name q)) eqn:Et; [|reflexivity].
      exfalso. unfold mistaken in Hmis. names_in Hmis. cbn [andb orb followed_by] in Hmis. rewrite !orb_false_r in Hmis. cbn [is_element] in Ho, Hmis. unfold html_named in Ho, Hmis.
      apply andb_true_iff in Ho as [Ho _]. rewrite Ho in Hmis. cbn [andb] in Hmis. congruence.
    + apply in_one in E. rewrite E in Ho. apply (omit_one "li" ["li"]%string) in Ho; [|cbn; tauto]. pose proof (named_element _ _ _ _ Ho) as Hx.
      eapply (start_item (m :: p)) with (items := ["li"]%string); try eassumption; auto. rewrite E. reflexivity.
    + assert (in_names ["dd"; "dt"]%string (q_name q) = true) as Hx.
      { clear -E Ho. name_cases E; [apply (omit_one "dd" ["dd"; "dt"]%string) in Ho|apply (omit_one "dt" ["dt"; "dd"]%string) in Ho]; try (cbn; tauto); apply named_element in Ho; name_cases Ho; reflexivity. }
      eapply (start_item (m :: p)) with (items := ["dd"; "dt"]%string); try eassumption; auto.
    + assert (in_names ["rt"; "rp"]%string (q_name q) = true) as Hx.
      { clear -E Ho. name_cases E; [apply (omit_one "rt" ["rt"; "rp"]%string) in Ho|apply (omit_one "rp" ["rt"; "rp"]%string) in Ho]; try (cbn; tauto); apply named_element in Ho; name_cases Ho; reflexivity. }
      apply in_one in Hm. eapply (start_ruby (m :: p)); try eassumption; auto.
    + rewrite E in Ho, Hmis. apply (omit_one "option" ["option"; "optgroup"; "hr"]%string) in Ho; [|cbn; tauto]. pose proof (named_element _ _ _ _ Ho) as Hx.
      eapply (start_option (m :: p)); try eassumption; try reflexivity; [|clear -Hm; name_cases Hm; reflexivity].
      destruct (in_names ["hr"]%string (q_name q)) eqn:Et; [|clear -Hx Et; revert Hx Et; generalize (q_name q); intros y Hx Et; name_cases Hx; first [discriminate Et|reflexivity]].
      exfalso. unfold mistaken in Hmis. names_in Hmis. cbn [andb orb followed_by] in Hmis. rewrite ?orb_false_r in Hmis. cbn [is_element] in Ho, Hmis. unfold html_named in Ho, Hmis.
      apply andb_true_iff in Ho as [Ho _]. rewrite Ho in Hmis. cbn [andb] in Hmis. congruence.
    + rewrite E in Ho, Hmis. apply (omit_one "optgroup" ["optgroup"; "hr"]%string) in Ho; [|cbn; tauto].
      exfalso. unfold mistaken in Hmis. names_in Hmis. cbn [andb orb followed_by] in Hmis. rewrite ?orb_false_r in Hmis. congruence.
  - (* the end of the parent *)
    subst t. pose proof (place_cases _ _ (omit_place _ _ _ Ho) Hn) as Hpl. pose proof (fits_facts _ _ Hfit) as Hff. subst path.
    destruct (flow_path_cases _ _ Hp) as [(E & _)|[(Hm & Hp')|[(Hm & sec & p' & Ep & Hsec & Hp')|(Hm & Hp')]]].
    + exfalso. apply Hnf. left. now rewrite E.
    + assert (str_eqb n m = false) as Hne.
      { apply str_eqb_neq. intros ->. destruct Hpl as [(E & X)|[(E & X)|[(E & X)|[(E & X)|[(E & X)|(E & X)]]]]]; try (subst m; discriminate X).
        - subst m. assert (inside (eq_name "p") walls (of_string "p" :: p) = true) as Y by reflexivity. pose proof (ff_p _ _ Hff eq_refl) as Z. discriminate Z.
        - clear -E X. name_cases E; discriminate X.
        - clear -E X. name_cases E; discriminate X.
        - clear -E X. name_cases E; discriminate X. }
      apply BF; [exact Hf| |].
      { unfold table_tag. change (is_end (etag m)) with true. cbn [andb]. unfold named. cbn [etag tag_token t_name]. apply orb_false_iff. split; (eapply in_names_out; [|exact Hm]; reflexivity). }
      intros acc ai. eapply (end_parent (m :: p)); try eassumption; try reflexivity.
      * cbn [in_names existsb]. destruct Hpl as [(E & X)|[(E & X)|[(E & X)|[(E & X)|[(E & X)|(E & X)]]]]]; try (clear -X; name_cases X; reflexivity).
        apply orb_false_iff. split; [apply str_eqb_neq; intros Y; rewrite Y, E, str_eqb_refl in Hne; discriminate|]. rewrite in_names_app in X. apply orb_false_iff in X as [_ X]. exact X.
      * intros Hli. destruct Hpl as [(E & X)|[(E & X)|[(E & X)|[(E & X)|[(E & X)|(E & X)]]]]]; [exact E|exfalso; clear -X Hli; name_cases X; discriminate Hli..].
    + assert (n = of_string "p") as En by (destruct Hpl as [(E & X)|[(E & X)|[(E & X)|[(E & X)|[(E & X)|(E & X)]]]]]; [exact E|exfalso; clear -X Hm; name_cases X; discriminate Hm..]).
      subst n. eapply (para_cell (m :: p)); try eassumption; [rewrite Ep; reflexivity|left; reflexivity|lia].
    + assert (n = of_string "p") as En by (destruct Hpl as [(E & X)|[(E & X)|[(E & X)|[(E & X)|[(E & X)|(E & X)]]]]]; [exact E|exfalso; rewrite Hm in X; clear -X; discriminate X..]).
      subst n. eapply (para_caption (m :: p)); try eassumption; [rewrite Hm; reflexivity|left; now rewrite Hm|lia].
  - (* the parent is left open as well *)
    pose proof (place_cases _ _ (omit_place _ _ _ Ho) Hn) as Hpl. pose proof (fits_facts _ _ Hfit) as Hff. pose proof (skip_names _ _ _ Hup) as Hmd. subst path.
    destruct Hpl as [(En & X)|[(E & X)|[(E & X)|[(E & X)|[(E & X)|(E & X)]]]]]; try (exfalso; clear -X Hmd; name_cases X; discriminate Hmd).
    + subst n. pose proof (ff_p _ _ Hff eq_refl) as Hnp.
      destruct (flow_path_cases _ _ Hp) as [(E & _)|[(Hm & Hp')|[(Hm & sec & p' & Ep & Hsec & Hp')|(Hm & Hp')]]].
      * subst m. discriminate Hmd.
      * assert (in_names ["li"; "dt"; "dd"]%string m = true) as Hmi.
        { clear -Hmd X Hm Hnp. name_cases Hmd; first [discriminate X|discriminate Hm|discriminate Hnp|reflexivity]. }
        assert (in_names leaves m = true) as Hml by (clear -Hmi; name_cases Hmi; reflexivity).
        inversion Hup as [n' u p1 c x Ho2 Hfx Hc Hop|n' u p1 Ho2 Hv2 Ht2|n' u p1 Ho2 Hup2|n' p1 Ho2 Ht2]; subst n'.
        -- assert (exists items, (items = ["li"]%string \/ items = ["dd"; "dt"]%string) /\ in_names items m = true /\ is_element items x = true) as (items & Hi & Him & Hix).
           { clear -Hmi Ho2. name_cases Hmi.
             - exists ["li"]%string. repeat split; auto. apply (omit_one "li" ["li"]%string) in Ho2; [exact Ho2|cbn; tauto].
             - exists ["dd"; "dt"]%string. repeat split; auto. apply (omit_one "dt" ["dt"; "dd"]%string) in Ho2; [|cbn; tauto]. destruct x; try discriminate Ho2. cbn [is_element] in *. unfold html_named in *. apply andb_true_iff in Ho2 as [-> Ho2]. cbn [andb]. name_cases Ho2; reflexivity.
             - exists ["dd"; "dt"]%string. repeat split; auto. apply (omit_one "dd" ["dd"; "dt"]%string) in Ho2; [exact Ho2|cbn; tauto]. }
           destruct (opener_element _ _ _ Hop) as (q & a & l & ->). apply named_element in Hix.
           apply no_bare in Hop; [|clear -Hi Hix; destruct Hi as [-> | ->]; name_cases Hix; reflexivity]. subst t.
           apply BF; [exact Hf| |].
           { clear -Hi Hix. destruct Hi as [-> | ->]; name_cases Hix; reflexivity. }
           intros acc ai. eapply (start_item_up (m :: p)) with (m := m); try eassumption; reflexivity.
        -- subst t. pose proof (place_cases _ _ (omit_place _ _ _ Ho2) Hml) as Hpl2.
           assert (in_names ["ul"; "ol"; "menu"; "dl"; "div"]%string u = true) as Hu.
           { clear -Hpl2 Hmi. destruct Hpl2 as [(E & X)|[(E & X)|[(E & X)|[(E & X)|[(E & X)|(E & X)]]]]]; try (clear Hmi; name_cases X; reflexivity); try (rewrite E in Hmi; discriminate Hmi). exfalso. clear X. name_cases E; discriminate Hmi. }
           apply BF; [exact Hf|clear -Hu; name_cases Hu; reflexivity|].
           intros acc ai. subst p. eapply (end_block (m :: u :: p1)) with (n := of_string "p"); try eassumption; try (clear -Hu; name_cases Hu; reflexivity).
           clear -Hu Hmi. name_cases Hmi; name_cases Hu; reflexivity.
        -- exfalso. pose proof (place_cases _ _ (omit_place _ _ _ Ho2) Hml) as Hpl2. pose proof (skip_names _ _ _ Hup2) as Hud. clear -Hpl2 Hud Hmi.
           destruct Hpl2 as [(E & X)|[(E & X)|[(E & X)|[(E & X)|[(E & X)|(E & X)]]]]]; try (clear Hmi; name_cases X; discriminate Hud); rewrite E in Hmi; discriminate Hmi.
        -- contradiction.
      * eapply (para_cell (m :: p)); try eassumption; [rewrite Ep; reflexivity| |lia]. right. subst p. eapply skip_cell; eassumption.
      * eapply (para_caption (m :: p)); try eassumption; [rewrite Hm; reflexivity| |lia]. right. eapply skip_columns; [exact Hp'| |exact Hup]. rewrite Hm. reflexivity.
    + assert (m = of_string "optgroup") as Em by (clear -X Hmd; name_cases X; first [discriminate Hmd|reflexivity]). subst m n. clear X Hmd.
      inversion Hup as [n' u p1 c x Ho2 Hfx Hc Hop|n' u p1 Ho2 Hv2 Ht2|n' u p1 Ho2 Hup2|n' p1 Ho2 Ht2]; subst n'.
      * exfalso. pose proof (omit_end _ _ _ Ho2) as [_ Hmis]. apply (omit_one "optgroup" ["optgroup"; "hr"]%string) in Ho2; [|cbn; tauto].
        unfold mistaken in Hmis. names_in Hmis. cbn [andb orb followed_by] in Hmis. rewrite ?orb_false_r in Hmis. congruence.
      * pose proof (place_cases _ _ (omit_place _ _ _ Ho2) eq_refl) as Hpl2.
        assert (u = of_string "select") as ->.
        { destruct Hpl2 as [(E & X)|[(E & X)|[(E & X)|[(E & X)|[(E & X)|(E & X)]]]]]; try discriminate E. exact (in_one _ _ X). }
        subst t p. apply BF; [exact Hf|reflexivity|]. intros acc ai. eapply (end_any (of_string "optgroup" :: of_string "select" :: p1)) with (n := of_string "option"); try eassumption; try reflexivity. right. left. reflexivity.
      * exfalso. pose proof (place_cases _ _ (omit_place _ _ _ Ho2) eq_refl) as Hpl2. apply skip_names in Hup2. 
        destruct Hpl2 as [(E & X)|[(E & X)|[(E & X)|[(E & X)|[(E & X)|(E & X)]]]]]; try discriminate E. apply in_one in X. subst u. discriminate Hup2.
      * contradiction.
  - contradiction.
Qed.

(** ** Any element *)
Lemma columns_tag acc ai t s : columns_next t -> on_in_column_group acc ai t s = whenever (cur_one ["colgroup"]%string) (pop ;; switch_to IN_TABLE ;; acc t) s.
Proof. intros [(x & a & -> & H)| ->]; [name_cases H|]; reflexivity. Qed.
Lemma section_tag acc ai t s : sec_next t -> on_in_table_body acc ai t s =
  whenever (either (in_table_scope (h "tbody")) (either (in_table_scope (h "thead")) (in_table_scope (h "tfoot"))))
    (clear_back ["tbody"; "tfoot"; "thead"; "template_"; "html"]%string ;; pop ;; switch_to IN_TABLE ;; acc t) s.
Proof. intros [(x & a & -> & H)| ->]; [name_cases H|]; reflexivity. Qed.
Lemma row_tag acc ai sec t s : in_names sections sec = true -> row_next sec t -> exists x, in_names ["tr"]%string x || str_eqb sec x = true /\ on_in_row acc ai t s =
  whenever (in_table_scope (hq x)) (clear_back ["tr"; "template_"; "html"]%string ;; pop ;; switch_to IN_TABLE_BODY ;; acc t) s.
Proof.
  intros Hs [[(x & a & -> & H)| ->]|[(x & a & -> & H)| ->]]; [exists (of_string "tr")..|exists sec]; (split; [try reflexivity|]); [name_cases H; reflexivity|reflexivity|name_cases H; reflexivity| |].
  - rewrite str_eqb_refl. apply orb_true_r.
  - name_cases Hs; reflexivity.
Qed.

Lemma child_cases c path n c' : child c path n c' ->
  (c = Flow /\ c' = Flow /\ fits_here path n = true) \/ (of_string "table" = n) \/
  (c = InTable /\ c' = Flow /\ of_string "caption" = n) \/ (c = InTable /\ c' = InColumns /\ of_string "colgroup" = n) \/
  (c = InTable /\ c' = InSection /\ in_names sections n = true) \/ (c = InSection /\ c' = InRow /\ of_string "tr" = n) \/
  (c = InRow /\ c' = Flow /\ in_names ["td"; "th"]%string n = true).
Proof. intros H. destruct H; auto 10. Qed.

Section Close.
Variables (path : list str) (k : list elem) (d : dom) (hd : option elem) (n : str) (i : nat) (s : st) (t : token) (f : nat).
Let e := mkElem i (hq n).
Hypothesis Hk : stack_path k path.
Hypothesis Hw : wfk d (e :: k).
Hypothesis Hsk : skip t n path.
Hypothesis Hnf : ~ final t.
Hypothesis Hf : 2 <= f.
Let Hh : top_html (e :: k) := eq_refl.
Lemma close_path : stack_path (e :: k) (n :: path).
Proof. unfold stack_path in *. cbn [map e e_name]. now rewrite Hk. Qed.

Lemma close_step c c' : child c path n c' -> path_at c path -> good d (e :: k) (mode_at c' (n :: path)) hd false None s ->
  exists f' s1, f <= f' + (match c with Flow => 0 | _ => 1 end) /\ good d k (mode_at c path) hd false None s1 /\ dispatch f None t s = dispatch f' None t s1.
Proof.
  intros Hc Hp G. pose proof (child_path _ _ _ _ Hc Hp) as Hp1. pose proof close_path as Hk1.
  assert (Hs : s_stack s = e :: k) by exact (g_stack _ _ _ _ _ _ _ G).
  pose proof (skip_names _ _ _ Hsk) as Hd.
  destruct (child_cases _ _ _ _ Hc) as [(-> & -> & F1)|[En|[(-> & -> & En)|[(-> & -> & En)|[(-> & -> & F)|[(-> & -> & En)|(-> & -> & F)]]]]]]; cbn [mode_at] in *.
  - rewrite (flow_mode path n (flow_name _ _ F1)) in G.
    assert (in_names leaves n = true) as Hl.
    { apply flow_name in F1. clear -F1 Hd. name_cases Hd; first [reflexivity|discriminate F1]. }
    exists f, (set_stack k s). split; [lia|]. split; [eapply drop_plain; [exact G|apply leaf_plain; exact Hl]|]. eapply close_flow; eassumption.
  - rewrite <- En in Hd. discriminate Hd.
  - assert (ctx_mode (n :: path) = IN_CAPTION) as Em by (rewrite <- En; reflexivity). rewrite Em in G.
    destruct (enter_rules f t _ _ _ _ _ _ ltac:(lia) G Hh) as (f' & Ef & ->). cbn [rules].
    destruct (skip_columns t n path Hp) as [Hn _]; [rewrite <- En; reflexivity|exact Hsk|]. rewrite (caption_tag _ _ _ _ Hn).
    unfold close_caption, whenever, branch. rewrite (in_table_scope_spec _ _ _ _ _ s Hp1 Hk1 Hs (eqb_h "caption")).
    replace (inside (eq_name "caption") ["html"; "table"]%string (n :: path)) with true by (rewrite <- En; reflexivity). cbn [andthen]. unfold seq.
    rewrite (implied_top _ _ _ _ _ _ _ G) by (left; rewrite <- En; reflexivity). cbn [andthen]. unfold current. rewrite Hs. cbn [andthen].
    rewrite (drop_top _ _ _ _ _ _ _ G) by (rewrite <- En; reflexivity). cbn [andthen].
    destruct (clear_box _ _ _ _ _ _ _ G _ ltac:(rewrite <- En; reflexivity) eq_refl) as (s2 & E2 & G2). rewrite E2. cbn [andthen switch_to pure].
    exists f', (set_mode IN_TABLE s2). split; [lia|]. split; [eapply good_mode; exact G2|reflexivity].
  - destruct (enter_rules f t _ _ _ _ _ _ ltac:(lia) G Hh) as (f' & Ef & ->). cbn [rules].
    destruct (skip_columns t n path Hp) as [_ Hn]; [rewrite <- En; reflexivity|exact Hsk|]. rewrite (columns_tag _ _ _ _ (Hn ltac:(rewrite <- En; reflexivity))).
    unfold whenever, branch, cur_one, cur_is, current. rewrite Hs. cbn [andthen e e_name]. rewrite qone_h. replace (in_names ["colgroup"]%string n) with true by (rewrite <- En; reflexivity).
    assert (plain n) as P by (rewrite <- En; repeat split; reflexivity). destruct (pop_plain _ _ _ _ _ _ _ _ G P) as (s1 & E1 & G1). unfold seq. rewrite E1. cbn [andthen].
    exists f', (set_mode IN_TABLE s1). split; [lia|]. split; [eapply good_mode; exact G1|reflexivity].
  - destruct (enter_rules f t _ _ _ _ _ _ ltac:(lia) G Hh) as (f' & Ef & ->). cbn [rules].
    rewrite (section_tag _ _ _ _ (skip_section _ _ _ Hp F Hsk)). unfold whenever, branch, either.
    rewrite !(in_table_scope_spec _ _ _ _ _ s Hp1 Hk1 Hs (eqb_h _)). cbn [andthen].
    match goal with |- context [andthen ?x (fun t => if t then ?a else ?b)] => assert (x = Done true) as -> end.
    { cbn [inside]. repeat match goal with |- context [inside ?g ?w path] => generalize (inside g w path) end. clear -F. name_cases F; intros [] [] []; reflexivity. }
    cbn [andthen]. unfold seq.
    erewrite clear_nop; [|exact G|exists n; split; [reflexivity|clear -F; name_cases F; reflexivity]]. cbn [andthen].
    assert (plain n) as P by (clear -F; name_cases F; repeat split; reflexivity). destruct (pop_plain _ _ _ _ _ _ _ _ G P) as (s1 & E1 & G1). rewrite E1. cbn [andthen].
    exists f', (set_mode IN_TABLE s1). split; [lia|]. split; [eapply good_mode; exact G1|reflexivity].
  - destruct (enter_rules f t _ _ _ _ _ _ ltac:(lia) G Hh) as (f' & Ef & ->). cbn [rules].
    assert (exists sec p', path = sec :: p' /\ in_names sections sec = true) as (sec & p' & Ep & Hsec).
    { clear -Hp. inversion Hp as [| | | | | | |y p2 Hy Hp2|]; subst. eauto. }
    assert (row_next sec t) as Hn by (apply (skip_row t sec p'); [rewrite <- Ep; exact Hp|rewrite <- Ep, En; exact Hsk]).
    destruct (row_tag (dispatch f' None) (fun m => dispatch f' (Some m)) sec t s Hsec Hn) as (x & Hx & ->).
    unfold whenever, branch. rewrite (in_table_scope_spec _ _ _ _ _ s Hp1 Hk1 Hs (eqb_hq x)).
    assert (inside (str_eqb x) ["html"; "table"]%string (n :: path) = true) as ->.
    { rewrite <- En, Ep. clear -Hx Hsec. apply orb_true_iff in Hx as [Hx|Hx]; [apply in_one in Hx; subst x; reflexivity|]. apply str_eqb_spec in Hx. subst x. name_cases Hsec; reflexivity. }
    cbn [andthen]. unfold seq.
    erewrite clear_nop; [|exact G|exists n; split; [reflexivity|rewrite <- En; reflexivity]]. cbn [andthen].
    assert (plain n) as P by (rewrite <- En; repeat split; reflexivity). destruct (pop_plain _ _ _ _ _ _ _ _ G P) as (s1 & E1 & G1). rewrite E1. cbn [andthen].
    exists f', (set_mode IN_TABLE_BODY s1). split; [lia|]. split; [eapply good_mode; exact G1|reflexivity].
  - assert (ctx_mode (n :: path) = IN_CELL) as Em by (cbn [ctx_mode]; now rewrite F). rewrite Em in G.
    destruct (enter_rules f t _ _ _ _ _ _ ltac:(lia) G Hh) as (f' & Ef & ->). cbn [rules].
    assert (exists sec p', path = of_string "tr" :: sec :: p' /\ in_names sections sec = true /\ In (of_string "table") p') as (sec & p' & Ep & Hsec & Htab).
    { clear -Hp. inversion Hp as [| | | | | | | |p1 Hp1]; subst. inversion Hp1 as [| | | | | | |y p2 Hy Hp2|]; subst. inversion Hp2; subst. eexists _, _. split; [reflexivity|]. split; [exact Hy|left; reflexivity]. }
    assert (cell_next sec t) as Hn by (apply (skip_cell t n sec p'); [rewrite <- Ep; exact Hp|exact F|rewrite <- Ep; exact Hsk]).
    assert (exists s1, good d k IN_ROW hd false None s1 /\ forall r, (close_cell ;; r) s = r s1) as (s1 & G1 & E1).
    { unfold close_cell. destruct (clear_box _ _ _ _ _ _ _ G _ ltac:(clear -F; name_cases F; reflexivity) eq_refl) as (s2 & E2 & G2).
      exists (set_mode IN_ROW s2). split; [eapply good_mode; exact G2|]. intros r. unfold seq.
      rewrite (implied_top _ _ _ _ _ _ _ G) by (left; clear -F; name_cases F; reflexivity). cbn [andthen]. unfold current. rewrite Hs. cbn [andthen].
      rewrite (drop_top _ _ _ _ _ _ _ G) by (clear -F; name_cases F; reflexivity). cbn [andthen]. rewrite E2. reflexivity. }
    exists f', s1. split; [lia|]. split; [exact G1|].
    assert (forall x, in_names ["table"; "tbody"; "thead"; "tfoot"; "tr"]%string x = true -> inside (str_eqb x) ["html"; "table"]%string (n :: path) = true ->
      on_in_cell (dispatch f' None) (fun m => dispatch f' (Some m)) (etag x) s = dispatch f' None (etag x) s1) as W.
    { intros x Hx Hi. rewrite (cell_close _ _ _ _ Hx). unfold whenever, branch. rewrite (in_table_scope_spec _ _ _ _ _ s Hp1 Hk1 Hs (eqb_hq x)), Hi. cbn [andthen]. apply E1. }
    apply (cell_next_cases _ _ Hsec) in Hn. destruct Hn as [Hn|[Hn|[Hn|Hn]]].
    + rewrite (cell_start _ _ _ _ Hn). unfold seq at 1. unfold either. rewrite !(in_table_scope_spec _ _ _ _ _ s Hp1 Hk1 Hs (eqb_h _)). cbn [andthen].
      destruct (inside (eq_name "td") ["html"; "table"]%string (n :: path)); cbn [andthen]; apply E1.
    + rewrite Hn. apply W; [reflexivity|]. rewrite Ep. inversion Hp as [| | | | | | | |p1 Hp1' Ex Ey]; [rewrite Ep in *; discriminate..|]. clear Ex.
      rewrite Ep in Ey. injection Ey as Ey. rewrite Ey in Hp1'. clear -Hp1' F Hsec. inversion Hp1' as [| | | | | | |y p2 Hy Hp2|]; subst. inversion Hp2; subst. name_cases F; name_cases Hsec; reflexivity.
    + rewrite Hn. apply W; [clear -Hsec; name_cases Hsec; reflexivity|]. rewrite Ep. clear -F Hsec. name_cases F; name_cases Hsec; reflexivity.
    + rewrite Hn. apply W; [reflexivity|]. rewrite Ep. clear -F. name_cases F; reflexivity.
Qed.
End Close.
