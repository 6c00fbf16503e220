(** The tokens of a whole tree rebuild it. *)
From Coq Require Import String List Arith Bool NArith Lia Permutation.
From Verif.Base Require Import Str.
From Verif.Html Require Import LexerModel SerialModel SerialSpec SerialProofs BuildModel BuildSpec BuildDom BuildSteps BuildTags BuildStart BuildEnd BuildRun BuildTable.
Import ListNotations.
Local Open Scope list_scope.
Local Infix ";;" := seq (at level 61, right associativity).

Lemma seq_assoc a b c s : (a ;; b ;; c) s = andthen ((a ;; b) s) c.
Proof. unfold seq. now destruct (a s). Qed.

Definition mode_at (c : place_in) (path : list str) : mode :=
  match c with
  | Flow => ctx_mode path | Head => IN_HEAD | InTable => IN_TABLE | InColumns => IN_COLUMN_GROUP
  | InSection => IN_TABLE_BODY | InRow => IN_ROW
  end.

(** Elements whose content is again made of nodes. *)
Inductive child : place_in -> list str -> str -> place_in -> Prop :=
| ch_flow path n : fits_here path n = true -> empty_element n = false -> raw_element n = false -> in_names ["table"]%string n = false -> child Flow path n Flow
| ch_table path : fits_here path (of_string "table") = true -> child Flow path (of_string "table") InTable
| ch_caption path : child InTable path (of_string "caption") Flow
| ch_columns path : child InTable path (of_string "colgroup") InColumns
| ch_section path n : in_names ["tbody"; "thead"; "tfoot"]%string n = true -> child InTable path n InSection
| ch_row path : child InSection path (of_string "tr") InRow
| ch_cell path n : in_names ["td"; "th"]%string n = true -> child InRow path n Flow.

Lemma flow_name path n : fits_here path n = true -> in_names not_flow n = false.
Proof. intros H. exact (ff_flow _ _ (fits_facts _ _ H)). Qed.
Lemma child_path c path n c' : child c path n c' -> path_at c path -> path_at c' (n :: path).
Proof.
  intros H Hp. inversion H; subst; try (constructor; assumption). apply at_flow; [|exact Hp].
  cbn [in_names existsb] in *. rewrite orb_false_r in *. rewrite H3. exact (flow_name _ _ H0).
Qed.
Lemma flow_tag path n a : fits_here path n = true -> table_tag (stag n a) = false.
Proof.
  intros H. apply flow_name in H. unfold table_tag. change (is_end (stag n a)) with false. cbn [andb]. rewrite orb_false_r.
  unfold named. cbn [stag tag_token t_name]. eapply in_names_out; [|exact H]. reflexivity.
Qed.
Lemma flow_end path n : fits_here path n = true -> in_names ["table"]%string n = false -> table_tag (etag n) = false.
Proof.
  intros H Ht. apply flow_name in H. unfold table_tag. change (is_end (etag n)) with true. cbn [andb].
  unfold named. cbn [etag tag_token t_name]. change (one_of ["table"]%string n) with (in_names ["table"]%string n). rewrite Ht, orb_false_r. eapply in_names_out; [|exact H]. reflexivity.
Qed.
Lemma flow_mode path n : in_names not_flow n = false -> ctx_mode (n :: path) = ctx_mode path.
Proof. intros H. cbn [ctx_mode]. assert (forall l, forallb (fun x => in_names not_flow (of_string x)) l = true -> in_names l n = false) as X by (intros; eapply in_names_out; eauto). now rewrite !X by reflexivity. Qed.
Lemma path_top c path k : path_at c path -> stack_path k path -> forall n p, path = n :: p -> forall l, in_names l n = true -> top_named l k.
Proof.
  intros _ Hk n p -> l Hl. destruct k as [|e k]; [discriminate|]. unfold stack_path in Hk. cbn [map] in Hk. injection Hk as E _. exists n. auto.
Qed.

Definition sk_of (n : str) : bool := in_names ["pre"; "listing"]%string n.

Section Steps.
Variables (path : list str) (k : list elem) (d : dom) (hd : option elem) (n : str).
Hypothesis Hk : stack_path k path.

Lemma child_start c c' f s a : child c path n c' -> path_at c path -> wfk d k -> attrs_ok a -> 5 <= f -> good d k (mode_at c path) hd false None s ->
  exists s', dispatch f None (stag n a) s = Done s' /\ good (opened d k n a) (opening d n :: k) (mode_at c' (n :: path)) hd (sk_of n) None s'.
Proof.
  intros Hc Hp Hw Ha Hf G. pose proof (path_top_html _ _ _ Hp Hk) as Hh. pose proof (top_html_ne _ Hh) as Hne.
  inversion Hc as [p x F1 F2 F3 F4|p F|p|p|p x F|p|p x F]; subst; cbn [mode_at] in *.
  - destruct (enter_flow f (stag n a) s d k path hd None ltac:(lia) G Hh (flow_tag _ _ _ F1)) as (f' & _ & E). rewrite E.
    rewrite (flow_mode path n (flow_name _ _ F1)). exact (start_flow path k d hd _ s Hp Hk (proj1 Hw) G n a Ha _ _ F1 F2 F3 F4).
  - destruct (enter_flow f (stag (of_string "table") a) s d k path hd None ltac:(lia) G Hh eq_refl) as (f' & _ & E). rewrite E. rewrite (rule_table _ _ a (of_string "table") eq_refl).
    destruct (insert_plain _ _ _ _ _ _ _ (of_string "table") a G Hne (proj1 Hw) Ha ltac:(repeat split; reflexivity)) as (s1 & E1 & G1). unfold seq. rewrite E1. cbn [andthen].
    eexists. split; [reflexivity|]. eapply good_mode, good_frameset. exact G1.
  - destruct (enter_rules f (stag (of_string "caption") a) _ _ _ _ _ _ ltac:(lia) G Hh) as (f' & _ & E). rewrite E. cbn [rules]. rewrite tab_caption.
    unfold seq at 1. erewrite clear_nop; [|exact G|inversion Hp; subst; eapply path_top; [exact Hp|exact Hk|reflexivity|reflexivity]]. cbn [andthen].
    destruct (box_before d k hd s a (of_string "caption") Hne Hw Ha _ eq_refl G) as (s1 & E1 & G1). rewrite seq_assoc, E1. cbn [andthen].
    eexists. split; [reflexivity|]. eapply good_mode. exact G1.
  - destruct (enter_rules f (stag (of_string "colgroup") a) _ _ _ _ _ _ ltac:(lia) G Hh) as (f' & _ & E). rewrite E. cbn [rules]. rewrite tab_colgroup.
    unfold seq at 1. erewrite clear_nop; [|exact G|inversion Hp; subst; eapply path_top; [exact Hp|exact Hk|reflexivity|reflexivity]]. cbn [andthen].
    apply plain_switch with (m := IN_TABLE); auto. repeat split; reflexivity.
  - destruct (enter_rules f (stag n a) _ _ _ _ _ _ ltac:(lia) G Hh) as (f' & _ & E). rewrite E. cbn [rules]. rewrite (tab_body _ _ _ _ _ F).
    unfold seq at 1. erewrite clear_nop; [|exact G|inversion Hp; subst; eapply path_top; [exact Hp|exact Hk|reflexivity|reflexivity]]. cbn [andthen].
    assert (sk_of n = false /\ plain n) as [-> P] by (clear -F; name_cases F; repeat split; reflexivity).
    apply plain_switch with (m := IN_TABLE); auto.
  - destruct (enter_rules f (stag (of_string "tr") a) _ _ _ _ _ _ ltac:(lia) G Hh) as (f' & _ & E). rewrite E. cbn [rules]. rewrite sec_tr.
    unfold seq at 1. erewrite clear_nop; [|exact G|].
    2: { inversion Hp as [| | | | | | |x p Hx Hp'|]; subst. eapply path_top; [exact Hp|exact Hk|reflexivity|]. clear -Hx. name_cases Hx; reflexivity. }
    cbn [andthen]. apply plain_switch with (m := IN_TABLE_BODY); auto. repeat split; reflexivity.
  - destruct (enter_rules f (stag n a) _ _ _ _ _ _ ltac:(lia) G Hh) as (f' & _ & E). rewrite E. cbn [rules]. rewrite (row_cell _ _ _ _ _ F).
    unfold seq at 1. erewrite clear_nop; [|exact G|inversion Hp; subst; eapply path_top; [exact Hp|exact Hk|reflexivity|reflexivity]]. cbn [andthen].
    assert (sk_of n = false /\ in_names boxes n = true) as [-> P] by (clear -F; name_cases F; split; reflexivity).
    cbn [ctx_mode]. rewrite F. apply box_after with (m := IN_ROW); auto.
Qed.

Lemma child_end c c' f s i : child c path n c' -> path_at c path -> wfk d (mkElem i (hq n) :: k) -> 5 <= f ->
  good d (mkElem i (hq n) :: k) (mode_at c' (n :: path)) hd false None s ->
  exists s', dispatch f None (etag n) s = Done s' /\ good d k (mode_at c path) hd false None s'.
Proof.
  intros Hc Hp Hw Hf G. assert (top_html (mkElem i (hq n) :: k)) as Hh by reflexivity.
  inversion Hc as [p x F1 F2 F3 F4|p F|p|p|p x F|p|p x F]; subst; cbn [mode_at] in *.
  - destruct (enter_flow f (etag n) s _ _ (n :: path) hd None ltac:(lia) G Hh (flow_end _ _ F1 F4)) as (f' & _ & E). rewrite E.
    rewrite (flow_mode path n (flow_name _ _ F1)) in G. exact (end_flow path k d hd _ s n i Hp Hk (proj1 Hw) G _ _ F1 F2 F3 F4).
  - destruct (enter_rules f (etag (of_string "table")) _ _ _ _ _ _ ltac:(lia) G Hh) as (f' & _ & E). rewrite E. cbn [rules]. rewrite tab_end.
    unfold whenever, branch, in_table_scope, has_in. rewrite (g_stack _ _ _ _ _ _ _ G). change (h "table") with (hq (of_string "table")). rewrite top_in. cbn [andthen]. unfold seq.
    rewrite (drop_top _ _ _ _ _ _ _ G) by reflexivity. cbn [andthen]. pose proof (drop_plain _ _ _ _ _ _ _ G ltac:(repeat split; reflexivity)) as G1.
    unfold reset_mode. rewrite (g_stack _ _ _ _ _ _ _ G1), (reset_flow path Hp _ _ Hk). cbn [andthen]. eexists. split; [reflexivity|]. eapply good_mode. exact G1.
  - destruct (enter_rules f (etag (of_string "caption")) _ _ _ _ _ _ ltac:(lia) G Hh) as (f' & _ & E). rewrite E. cbn [ctx_mode in_names existsb]. change (rules (dispatch f' None) (fun m => dispatch f' (Some m)) _ (etag (of_string "caption")) s) with (on_in_caption (dispatch f' None) (fun m => dispatch f' (Some m)) (etag (of_string "caption")) s). rewrite cap_end.
    unfold close_caption, whenever, branch, in_table_scope, has_in. rewrite (g_stack _ _ _ _ _ _ _ G). change (h "caption") with (hq (of_string "caption")). rewrite top_in. cbn [andthen]. unfold seq.
    rewrite (implied_top _ _ _ _ _ _ _ G) by (left; reflexivity). cbn [andthen]. unfold current. rewrite (g_stack _ _ _ _ _ _ _ G). cbn [andthen].
    rewrite (drop_top _ _ _ _ _ _ _ G) by reflexivity. cbn [andthen]. destruct (clear_box _ _ _ _ _ _ _ G _ eq_refl eq_refl) as (s2 & E2 & G2). rewrite E2. cbn [andthen].
    eexists. split; [reflexivity|]. eapply good_mode. exact G2.
  - destruct (enter_rules f (etag (of_string "colgroup")) _ _ _ _ _ _ ltac:(lia) G Hh) as (f' & _ & E). rewrite E. cbn [rules]. rewrite col_end.
    unfold whenever, branch, cur_one, cur_is, current. rewrite (g_stack _ _ _ _ _ _ _ G). cbn [andthen]. change (qone_of (map h ["colgroup"%string]) (e_name {| e_id := i; e_name := hq (of_string "colgroup") |})) with true. cbn iota.
    destruct (pop_plain _ _ _ _ _ _ _ _ G ltac:(repeat split; reflexivity)) as (s1 & E1 & G1). unfold seq. rewrite E1. cbn [andthen]. eexists. split; [reflexivity|]. eapply good_mode. exact G1.
  - destruct (enter_rules f (etag n) _ _ _ _ _ _ ltac:(lia) G Hh) as (f' & _ & E). rewrite E. cbn [rules]. rewrite (sec_end _ _ _ _ F).
    unfold whenever, branch, in_table_scope, has_in. rewrite (g_stack _ _ _ _ _ _ _ G). rewrite top_in. cbn [andthen]. unfold seq.
    erewrite clear_nop; [|exact G|exists n; split; [reflexivity|clear -F; name_cases F; reflexivity]]. cbn [andthen].
    destruct (pop_plain _ _ _ _ _ _ _ _ G ltac:(clear -F; name_cases F; repeat split; reflexivity)) as (s1 & E1 & G1). rewrite E1. cbn [andthen]. eexists. split; [reflexivity|]. eapply good_mode. exact G1.
  - destruct (enter_rules f (etag (of_string "tr")) _ _ _ _ _ _ ltac:(lia) G Hh) as (f' & _ & E). rewrite E. cbn [rules]. rewrite row_end.
    unfold whenever, branch, in_table_scope, has_in. rewrite (g_stack _ _ _ _ _ _ _ G). change (h "tr") with (hq (of_string "tr")). rewrite top_in. cbn [andthen]. unfold seq.
    erewrite clear_nop; [|exact G|exists (of_string "tr"); split; reflexivity]. cbn [andthen].
    destruct (pop_plain _ _ _ _ _ _ _ _ G ltac:(repeat split; reflexivity)) as (s1 & E1 & G1). rewrite E1. cbn [andthen]. eexists. split; [reflexivity|]. eapply good_mode. exact G1.
  - cbn [ctx_mode] in G. rewrite F in G. destruct (enter_rules f (etag n) _ _ _ _ _ _ ltac:(lia) G Hh) as (f' & _ & E). rewrite E. cbn [rules]. rewrite (cell_end _ _ _ _ F).
    unfold whenever, branch, in_table_scope, has_in. rewrite (g_stack _ _ _ _ _ _ _ G). rewrite top_in. cbn [andthen]. unfold seq.
    rewrite (implied_top _ _ _ _ _ _ _ G) by (left; clear -F; name_cases F; reflexivity). cbn [andthen]. unfold current. rewrite (g_stack _ _ _ _ _ _ _ G). cbn [andthen].
    rewrite (drop_top1 _ _ _ _ _ _ _ G). cbn [andthen]. destruct (clear_box _ _ _ _ _ _ _ G _ ltac:(clear -F; name_cases F; reflexivity) eq_refl) as (s2 & E2 & G2). rewrite E2. cbn [andthen].
    eexists. split; [reflexivity|]. eapply good_mode. exact G2.
Qed.
End Steps.

(** ** Empty and raw elements *)
Definition in_head_void : list string := ["base"; "basefont"; "bgsound"; "link"; "meta"]%string.
Definition in_head_raw : list string := ["title"; "style"; "noframes"; "script"]%string.
Lemma dispatch_in f m t s : 1 <= f -> exists f', dispatch f (Some m) t s = rules (dispatch f' None) (fun m => dispatch f' (Some m)) m t s.
Proof. intros H. destruct f as [|f]; [lia|]. exists f. reflexivity. Qed.

Section Leaves.
Variables (k : list elem) (d : dom) (hd : option elem) (n : str) (s : st) (a : list (qname * str)) (m : mode).
Hypothesis Hne : k <> [].
Hypothesis Hw : wfk d k.
Hypothesis Ha : attrs_ok a.
Hypothesis G : good d k m hd false None s.

Lemma leaf : plain n -> exists s', (insert_ (stag n a) ;; pop) s = Done s' /\ good (opened d k n a) k m hd false None s'.
Proof.
  intros P. destruct (insert_plain _ _ _ _ _ _ _ _ _ G Hne (proj1 Hw) Ha P) as (s1 & E1 & G1). unfold seq. rewrite E1. cbn [andthen].
  exact (pop_plain _ _ _ _ _ _ _ _ G1 P).
Qed.
Lemma leaf3 x : plain n -> (forall s', good (opened d k n a) k m hd false None s' -> exists s'', x s' = Done s'' /\ good (opened d k n a) k m hd false None s'') ->
  exists s', (insert_ (stag n a) ;; pop ;; x) s = Done s' /\ good (opened d k n a) k m hd false None s'.
Proof. intros P Hx. destruct (leaf P) as (s1 & E1 & G1). rewrite seq_assoc, E1. cbn [andthen]. apply Hx, G1. Qed.
Lemma head_void acc ai : in_names in_head_void n = true -> exists s', on_in_head acc ai (stag n a) s = Done s' /\ good (opened d k n a) k m hd false None s'.
Proof.
  intros H. assert (on_in_head acc ai (stag n a) = (insert_ (stag n a) ;; pop)) as -> by (clear -H; name_cases H; reflexivity).
  apply leaf. clear -H. name_cases H; repeat split; reflexivity.
Qed.
Lemma head_raw acc ai : in_names in_head_raw n = true ->
  exists s', on_in_head acc ai (stag n a) s = Done s' /\ good (opened d k n a) (opening d n :: k) TEXT hd false (mode_of n) s' /\ s_orig s' = m.
Proof.
  intros H. assert (exists r, mode_of n = Some r /\ on_in_head acc ai (stag n a) = raw_text r (stag n a)) as (r & -> & ->) by (clear -H; name_cases H; eexists; split; reflexivity).
  apply raw_open with (sw := None); auto. clear -H. name_cases H; repeat split; reflexivity.
Qed.

Lemma void_flow path f : path_at Flow path -> stack_path k path -> m = ctx_mode path -> fits_here path n = true -> empty_element n = true -> 5 <= f ->
  exists s', dispatch f None (stag n a) s = Done s' /\ good (opened d k n a) k m hd false None s'.
Proof.
  intros Hp Hk Hm Hfit Hv Hf. pose proof (path_top_html _ _ _ Hp Hk) as Hh. pose proof G as G0. rewrite Hm in G0.
  destruct (enter_flow f (stag n a) s d k path hd None ltac:(lia) G0 Hh (flow_tag _ _ _ Hfit)) as (f' & Hf' & E). rewrite E.
  pose proof (flow_name _ _ Hfit) as Hno. apply fits_facts in Hfit. destruct Hfit as [F0 F1 F2 F3 F4 F5 F6 F7 F8 F9 F10 F11].
  assert (forall s', good (opened d k n a) k m hd false None s' -> exists s'', frameset_not_ok s' = Done s'' /\ good (opened d k n a) k m hd false None s'') as Hfr.
  { intros s' G'. eexists. split; [reflexivity|]. apply good_frameset, G'. }
  destruct (in_names ["area"; "br"; "embed"; "img"; "keygen"; "wbr"]%string n) eqn:E1.
  { rewrite (rule_br _ _ a n E1). unfold seq at 1. rewrite (reconstruct_nop _ _ _ _ _ _ _ G). cbn [andthen]. apply leaf3; [clear -E1; name_cases E1; repeat split; reflexivity|exact Hfr]. }
  destruct (in_names ["input"]%string n) eqn:E2.
  { rewrite (rule_input _ _ a n E2). unfold seq at 1, whenever, branch. rewrite (in_scope_spec _ _ _ _ _ _ Hp Hk (g_stack _ _ _ _ _ _ _ G) (eqb_h "select")), (F7 eq_refl). cbn [andthen nop].
    unfold seq at 1. rewrite (reconstruct_nop _ _ _ _ _ _ _ G). cbn [andthen]. apply leaf3; [clear -E2; name_cases E2; repeat split; reflexivity|].
    intros s' G'. destruct (is_hidden (stag n a)); [|apply Hfr, G']. exists s'. split; [reflexivity|exact G']. }
  destruct (in_names ["param"; "source"; "track"]%string n) eqn:E3.
  { rewrite (rule_param _ _ a n E3). apply leaf. clear -E3; name_cases E3; repeat split; reflexivity. }
  destruct (in_names ["hr"]%string n) eqn:E4.
  { rewrite (rule_hr _ _ a n E4). unfold seq at 1. rewrite (close_p_nop _ _ _ _ Hp Hk (g_stack _ _ _ _ _ _ _ G)); [|apply F1; clear -E4; name_cases E4; reflexivity].
    cbn [andthen]. apply leaf3; [clear -E4; name_cases E4; repeat split; reflexivity|exact Hfr]. }
  destruct (in_names in_head_void n) eqn:E5.
  { rewrite (rule_head _ _ a n) by (clear -E5; name_cases E5; reflexivity). destruct (dispatch_in f' IN_HEAD (stag n a) s ltac:(lia)) as (g & ->). cbn [rules]. apply head_void, E5. }
  exfalso. clear -Hv Hno E1 E2 E3 E4 E5. unfold empty_element, void_element, html_named in Hv. apply andb_true_iff in Hv as [_ Hv]. cbn [q_name] in Hv.
  clear -Hv Hno E1 E2 E3 E4 E5. name_cases Hv; discriminate.
Qed.

Lemma raw_flow path f : path_at Flow path -> stack_path k path -> m = ctx_mode path -> fits_here path n = true -> raw_element n = true -> 5 <= f ->
  exists s', dispatch f None (stag n a) s = Done s' /\
             good (opened d k n a) (opening d n :: k) TEXT hd (in_names ["textarea"]%string n) (mode_of n) s' /\ s_orig s' = m.
Proof.
  intros Hp Hk Hm Hfit Hv Hf. pose proof (path_top_html _ _ _ Hp Hk) as Hh. pose proof G as G0. rewrite Hm in G0.
  destruct (enter_flow f (stag n a) s d k path hd None ltac:(lia) G0 Hh (flow_tag _ _ _ Hfit)) as (f' & Hf' & E). rewrite E.
  pose proof (flow_name _ _ Hfit) as Hno. apply fits_facts in Hfit. destruct Hfit as [F0 F1 F2 F3 F4 F5 F6 F7 F8 F9 F10 F11].
  destruct (in_names in_head_raw n) eqn:E1.
  { rewrite (rule_head _ _ a n) by (clear -E1; name_cases E1; reflexivity). destruct (dispatch_in f' IN_HEAD (stag n a) s ltac:(lia)) as (g & ->). cbn [rules].
    assert (in_names ["textarea"]%string n = false) as -> by (clear -E1; name_cases E1; reflexivity). apply head_raw, E1. }
  destruct (in_names ["textarea"]%string n) eqn:E2.
  { rewrite (rule_textarea _ _ a n E2). assert (plain n /\ mode_of n = Some Rcdata) as [P ->] by (clear -E2; name_cases E2; repeat split; reflexivity).
    destruct (insert_plain _ _ _ _ _ _ _ _ _ G Hne (proj1 Hw) Ha P) as (s1 & E1' & G1). unfold seq. rewrite E1'. cbn. eexists. split; [reflexivity|].
    split; [destruct G1; constructor; auto|exact (g_mode _ _ _ _ _ _ _ G1)]. }
  destruct (in_names ["xmp"]%string n) eqn:E3.
  { rewrite (rule_xmp _ _ a n E3). assert (plain n /\ mode_of n = Some Rawtext) as [P ->] by (clear -E3; name_cases E3; repeat split; reflexivity).
    unfold seq at 1. rewrite (close_p_nop _ _ _ _ Hp Hk (g_stack _ _ _ _ _ _ _ G)); [|apply F1; clear -E3; name_cases E3; reflexivity]. cbn [andthen].
    unfold seq at 1. rewrite (reconstruct_nop _ _ _ _ _ _ _ G). cbn [andthen]. unfold seq at 1, frameset_not_ok, pure. cbn [andthen].
    apply raw_open with (sw := None); auto. apply good_frameset, G. }
  destruct (in_names ["iframe"]%string n) eqn:E4.
  { rewrite (rule_iframe _ _ a n E4). assert (plain n /\ mode_of n = Some Rawtext) as [P ->] by (clear -E4; name_cases E4; repeat split; reflexivity).
    unfold seq at 1, frameset_not_ok, pure. cbn [andthen]. apply raw_open with (sw := None); auto. apply good_frameset, G. }
  destruct (in_names ["noembed"]%string n) eqn:E5.
  { rewrite (rule_noembed _ _ a n E5). assert (plain n /\ mode_of n = Some Rawtext) as [P ->] by (clear -E5; name_cases E5; repeat split; reflexivity).
    apply raw_open with (sw := None); auto. }
  exfalso. unfold raw_element, mode_of in Hv. clear -Hv Hno E1 E2 E3 E4 E5.
  destruct (in_names ["title"; "textarea"]%string n) eqn:Q1; [clear Hv; name_cases Q1; discriminate|].
  destruct (in_names ["style"; "xmp"; "iframe"; "noembed"; "noframes"]%string n) eqn:Q2; [clear Hv; name_cases Q2; discriminate|].
  destruct (in_names ["script"]%string n) eqn:Q3; [clear Hv; name_cases Q3; discriminate|].
  destruct (in_names ["plaintext"]%string n) eqn:Q4; [clear Hv; name_cases Q4; discriminate|]. discriminate.
Qed.
End Leaves.

(** ** Whole nodes *)
Fixpoint toks (n : node) : list token :=
  match n with
  | Text s => map char_token s
  | Comment s => [comment_token s]
  | Doctype s => [doctype_token s]
  | Element q a ns => stag (q_name q) a :: if void_element q then [] else flat_map toks ns ++ [etag (q_name q)]
  end.

Definition st_at (c : place_in) (path : list str) (d : dom) (k : list elem) (hd : option elem) (s : st) : Prop :=
  match c with
  | InTable | InSection | InRow => tstate d k (mode_at c path) hd s
  | _ => exists sk sw, good d k (mode_at c path) hd sk sw s
  end.
Lemma at_good c path d k hd sk sw s : good d k (mode_at c path) hd sk sw s -> st_at c path d k hd s.
Proof. intros H. destruct c; cbn [st_at]; unfold tstate; eauto. Qed.
Lemma at_step c path d k hd s t (Q : st -> Prop) : st_at c path d k hd s -> top_html k -> is_char t = false ->
  (forall f s0, 20 <= f -> good d k (mode_at c path) hd false None s0 -> exists s', dispatch f None t s0 = Done s' /\ Q s') ->
  exists s', take1 t s = Done s' /\ Q s'.
Proof.
  intros H Hh Ht HQ. destruct c; cbn [st_at] in H; try (destruct H as (sk & sw & G); eapply step_good; eauto); eapply table_step; eauto.
Qed.

(** What the tag [t] does in the state [s] is what it does, within [b] calls, in the mode [m] (at the place [c]). *)
Definition ready_in (b : nat) (d : dom) (k : list elem) (m : mode) (hd : option elem) (t : token) (s : st) : Prop := forall Q : st -> Prop,
  (forall f s0, b <= f -> good d k m hd false None s0 -> exists s', dispatch f None t s0 = Done s' /\ Q s') ->
  exists s', take1 t s = Done s' /\ Q s'.
Definition ready (b : nat) (c : place_in) (path : list str) (d : dom) (k : list elem) (hd : option elem) (t : token) (s : st) : Prop :=
  ready_in b d k (mode_at c path) hd t s.
Lemma at_ready c path d k hd s t : st_at c path d k hd s -> top_html k -> is_char t = false -> ready 20 c path d k hd t s.
Proof. intros H Hh Ht Q HQ. eapply at_step; eauto. Qed.
Lemma ready_le b b' c path d k hd t s : b' <= b -> ready b c path d k hd t s -> ready b' c path d k hd t s.
Proof. intros Hb H Q HQ. apply H. intros f s0 Hf. apply HQ. lia. Qed.

Definition node_ok (n : node) : Prop := forall c path k d hd s,
  st_at c path d k hd s -> path_at c path -> stack_path k path -> wfk d k -> fits c path n -> expressible n ->
  (s_skip_lf s = true -> no_first_feed [n]) -> (is_text n = true -> ends_in_text d (top k) = false) ->
  exists s', runs (toks n) s s' /\ st_at c path (add_node d (top k) n) k hd s' /\ s_skip_lf s' = false.

Lemma nodes_ok c ns : Forall node_ok ns -> forall path k d hd s,
  st_at c path d k hd s -> path_at c path -> stack_path k path -> wfk d k -> Forall (fits c path) ns -> Forall expressible ns ->
  no_double_text ns = true -> (s_skip_lf s = true -> no_first_feed ns) -> (forall n r, ns = n :: r -> is_text n = true -> ends_in_text d (top k) = false) ->
  exists s', runs (flat_map toks ns) s s' /\ st_at c path (add_nodes d (top k) ns) k hd s'.
Proof.
  intros H path k d hd s Hs Hp Hk Hw Hf He Hd Hsk Hx. pose proof (top_html_ne _ (path_top_html _ _ _ Hp Hk)) as Hne. revert d s Hs Hw Hf He Hd Hsk Hx.
  induction H as [|n ns Hn Hns IH]; intros d s Hs Hw Hf He Hd Hsk Hx.
  - exists s. split; [constructor|exact Hs].
  - inversion Hf as [|? ? Hf1 Hf2]; inversion He as [|? ? He1 He2]; subst. cbn [no_double_text] in Hd. apply andb_true_iff in Hd as [Hd1 Hd2].
    destruct (Hn c path k d hd s Hs Hp Hk Hw Hf1 He1) as (s1 & R1 & S1 & K1).
    + intros Hsk' w r E. injection E as -> _. exact (Hsk Hsk' w ns eq_refl).
    + exact (Hx n ns eq_refl).
    + destruct (IH (add_node d (top k) n) s1 S1 (wfk_add _ _ _ Hw Hne) Hf2 He2 Hd2) as (s2 & R2 & S2).
      * rewrite K1. discriminate.
      * intros m r -> Hm. rewrite (ends_add _ _ _ (wfk_top _ _ Hw Hne)). rewrite Hm, andb_true_r in Hd1. now apply negb_true_iff in Hd1.
      * exists s2. split; [|exact S2]. cbn [flat_map]. eapply runs_app; eauto.
Qed.

Lemma comment_at c path k d hd s w : st_at c path d k hd s -> path_at c path -> stack_path k path -> wfk d k ->
  exists s', runs [comment_token w] s s' /\ st_at c path (put_under d (top k) (KComment w)) k hd s' /\ s_skip_lf s' = false.
Proof.
  intros Hs Hp Hk Hw. pose proof (path_top_html _ _ _ Hp Hk) as Hh. pose proof (top_html_ne _ Hh) as Hne.
  destruct (at_step c path d k hd s (comment_token w) (fun s' => good (put_under d (top k) (KComment w)) k (mode_at c path) hd false None s') Hs Hh eq_refl) as (s' & E & G').
  - intros f s0 Hf G0. destruct (comment_insert _ _ _ _ _ _ _ w G0 Hne Hw) as (s' & E & G'). exists s'. split; [|exact G']. destruct c; cbn [mode_at] in *.
    + destruct (enter_flow f (comment_token w) s0 d k path hd None ltac:(lia) G0 Hh eq_refl) as (f' & _ & E'). rewrite E'. exact E.
    + destruct (enter_rules f (comment_token w) _ _ _ _ _ _ ltac:(lia) G0 Hh) as (f' & _ & E'). rewrite E'. exact E.
    + destruct (enter_rules f (comment_token w) _ _ _ _ _ _ ltac:(lia) G0 Hh) as (f' & _ & E'). rewrite E'. exact E.
    + destruct (enter_rules f (comment_token w) _ _ _ _ _ _ ltac:(lia) G0 Hh) as (f' & _ & E'). rewrite E'. exact E.
    + destruct (enter_rules f (comment_token w) _ _ _ _ _ _ ltac:(lia) G0 Hh) as (f' & -> & E'). rewrite E'. cbn [rules]. rewrite sec_comment.
      destruct (dispatch_in f' IN_TABLE (comment_token w) s0 ltac:(lia)) as (g & ->). exact E.
    + destruct (enter_rules f (comment_token w) _ _ _ _ _ _ ltac:(lia) G0 Hh) as (f' & -> & E'). rewrite E'. cbn [rules]. rewrite row_comment.
      destruct (dispatch_in f' IN_TABLE (comment_token w) s0 ltac:(lia)) as (g & ->). exact E.
  - exists s'. split; [apply runs_one; split; [exact E|discriminate]|]. split; [eapply at_good; exact G'|apply (g_skip _ _ _ _ _ _ _ G')].
Qed.

Lemma text_at c path k d hd s w : st_at c path d k hd s -> path_at c path -> stack_path k path -> wfk d k ->
  w <> [] -> ~ In 0%N w -> (c <> Flow -> Forall blank w) -> (s_skip_lf s = true -> hd_error w <> Some 10%N) -> ends_in_text d (top k) = false ->
  exists s', runs (map char_token w) s s' /\ st_at c path (put_under d (top k) (KText w)) k hd s' /\ s_skip_lf s' = false.
Proof.
  intros Hs Hp Hk Hw Hne Hz Hb Hsk He. pose proof (path_top_html _ _ _ Hp Hk) as Hh. pose proof (top_html_ne _ Hh) as Hkne.
  assert (forall m, (exists sk sw, good d k m hd sk sw s) -> Forall (char_rule k m) w -> exists s', runs (map char_token w) s s' /\ good (put_under d (top k) (KText w)) k m hd false None s') as HT.
  { intros m (sk & sw & G) Hc. destruct (text_run k m hd w Hc Hne Hkne d sk sw s Hw G) as (s' & R & G' & _); [rewrite <- (g_skip _ _ _ _ _ _ _ G); exact Hsk|exact He|]. eauto. }
  assert (forall m, table_mode m -> top_named ["table"; "tbody"; "template_"; "tfoot"; "thead"; "tr"]%string k -> Forall blank w -> tstate d k m hd s ->
     exists s', runs (map char_token w) s s' /\ held (put_under d (top k) (KText w)) k m hd s') as HB.
  { intros m Hm Hn Hbl [(sk & sw & G)|(d0 & w0 & Hn0 & _ & -> & Hw0 & _ & _)].
    - apply table_text_run with (sk := sk) (sw := sw); auto. rewrite <- (g_skip _ _ _ _ _ _ _ G). exact Hsk.
    - pose proof (ends_add d0 (top k) (Text w0) (wfk_top _ _ Hw0 Hkne)) as X. cbn [add_node is_text] in X. congruence. }
  assert (forall m (s' : st), held (put_under d (top k) (KText w)) k m hd s' -> s_skip_lf s' = false) as HS.
  { intros m s' (d0 & w0 & _ & _ & _ & _ & _ & G & _). apply (g_skip _ _ _ _ _ _ _ G). }
  destruct c; cbn [st_at mode_at] in *.
  - destruct (HT _ Hs) as (s' & R & G').
    + apply Forall_forall. intros x Hx. apply char_flow; auto. intros ->. contradiction.
    + exists s'. split; [exact R|]. split; [eauto|apply (g_skip _ _ _ _ _ _ _ G')].
  - destruct (HT _ Hs) as (s' & R & G').
    + eapply Forall_impl; [|apply Hb; discriminate]. intros x Hx. apply char_blank; auto.
    + exists s'. split; [exact R|]. split; [eauto|apply (g_skip _ _ _ _ _ _ _ G')].
  - destruct (HB IN_TABLE) as (s' & R & G'); [left; reflexivity|inversion Hp; subst; eapply path_top; [exact Hp|exact Hk|reflexivity|reflexivity]|apply Hb; discriminate|exact Hs|].
    exists s'. split; [exact R|]. split; [right; exact G'|eapply HS; exact G'].
  - destruct (HT _ Hs) as (s' & R & G').
    + eapply Forall_impl; [|apply Hb; discriminate]. intros x Hx. apply char_blank; auto.
    + exists s'. split; [exact R|]. split; [eauto|apply (g_skip _ _ _ _ _ _ _ G')].
  - destruct (HB IN_TABLE_BODY) as (s' & R & G'); [right; left; reflexivity| |apply Hb; discriminate|exact Hs|].
    + inversion Hp as [| | | | | | |x p Hx Hp'|]; subst. eapply path_top; [exact Hp|exact Hk|reflexivity|]. clear -Hx. name_cases Hx; reflexivity.
    + exists s'. split; [exact R|]. split; [right; exact G'|eapply HS; exact G'].
  - destruct (HB IN_ROW) as (s' & R & G'); [right; right; reflexivity|inversion Hp; subst; eapply path_top; [exact Hp|exact Hk|reflexivity|reflexivity]|apply Hb; discriminate|exact Hs|].
    exists s'. split; [exact R|]. split; [right; exact G'|eapply HS; exact G'].
Qed.

Lemma fold_conj {A} (P : A -> Prop) l : fold_right (fun x Q => P x /\ Q) True l <-> Forall P l.
Proof.
  induction l as [|x l IH]; cbn [fold_right]; [split; auto|]. rewrite IH. split; [intros []; constructor; assumption|intros H; now inversion H].
Qed.

(** An element with nodes in it. *)
Lemma child_ok c c' path k d hd s n a ns : Forall node_ok ns -> child c path n c' -> ready 5 c path d k hd (stag n a) s -> path_at c path -> stack_path k path -> wfk d k ->
  attrs_ok a -> mode_of n = None -> no_double_text ns = true -> Forall (fits c' (n :: path)) ns -> Forall expressible ns -> (sk_of n = true -> no_first_feed ns) ->
  exists s', runs (stag n a :: flat_map toks ns ++ [etag n]) s s' /\ st_at c path (add_nodes (opened d k n a) (length d) ns) k hd s' /\ s_skip_lf s' = false.
Proof.
  intros IH Hc Hs Hp Hk Hw Ha Hm Hdt Hfit Hex Hff. pose proof (path_top_html _ _ _ Hp Hk) as Hh. pose proof (top_html_ne _ Hh) as Hne.
  destruct (Hs (fun s' => good (opened d k n a) (opening d n :: k) (mode_at c' (n :: path)) hd (sk_of n) None s')) as (s1 & E1 & G1).
  { intros f s0 Hf G0. eapply child_start; eauto; lia. }
  assert (step (stag n a) s s1) as St1.
  { split; [exact E1|]. intros _ x Ex. injection Ex as <-. rewrite (g_switch _ _ _ _ _ _ _ G1). symmetry. exact Hm. }
  pose proof (child_path _ _ _ _ Hc Hp) as Hp1. assert (stack_path (opening d n :: k) (n :: path)) as Hk1 by (unfold stack_path in *; cbn [map opening e_name]; now rewrite Hk).
  pose proof (wfk_opened d k n a Hw Hne) as Hw1.
  destruct (nodes_ok c' ns IH (n :: path) (opening d n :: k) (opened d k n a) hd s1) as (s2 & R2 & S2); auto.
  { eapply at_good. exact G1. }
  { rewrite (g_skip _ _ _ _ _ _ _ G1). exact Hff. }
  { intros x r _ _. cbn [top opening e_id]. apply ends_new. }
  cbn [top opening e_id] in S2.
  assert (wfk (add_nodes (opened d k n a) (length d) ns) (opening d n :: k)) as Hw2.
  { pose proof (wfk_adds _ _ ns Hw1 ltac:(discriminate)) as X. exact X. }
  destruct (at_step c' (n :: path) _ _ hd s2 (etag n) (fun s' => good (add_nodes (opened d k n a) (length d) ns) k (mode_at c path) hd false None s') S2 eq_refl eq_refl) as (s3 & E3 & G3).
  { intros f s0 Hf G0. eapply child_end; eauto; lia. }
  exists s3. split; [|split; [eapply at_good; exact G3|apply (g_skip _ _ _ _ _ _ _ G3)]].
  econstructor; [exact St1|]. eapply runs_app; [exact R2|]. apply runs_one. split; [exact E3|discriminate].
Qed.

(** A raw element. *)
Lemma raw_ok_run c path k d hd s n a ns : (c = Flow /\ fits_here path n = true /\ raw_element n = true \/ c = Head /\ in_names in_head_raw n = true) ->
  ready 5 c path d k hd (stag n a) s -> path_at c path -> stack_path k path -> wfk d k -> attrs_ok a -> plain n ->
  raw_content ns -> (forall w, ns = [Text w] -> ~ In 0%N w) -> (n = of_string "textarea" -> no_first_feed ns) ->
  exists s', runs (stag n a :: flat_map toks ns ++ [etag n]) s s' /\ st_at c path (add_nodes (opened d k n a) (length d) ns) k hd s' /\ s_skip_lf s' = false.
Proof.
  intros Hc Hs Hp Hk Hw Ha P Hr Hz Hff. pose proof (path_top_html _ _ _ Hp Hk) as Hh. pose proof (top_html_ne _ Hh) as Hne.
  destruct (Hs (fun s' => good (opened d k n a) (opening d n :: k) TEXT hd (in_names ["textarea"]%string n) (mode_of n) s' /\ s_orig s' = mode_at c path)) as (s1 & E1 & G1 & O1).
  { intros f s0 Hf G0. destruct Hc as [(-> & F1 & F2)|(-> & F)]; cbn [mode_at] in *.
    - apply raw_flow with (path := path); auto; lia.
    - destruct (enter_rules f (stag n a) _ _ _ _ _ _ ltac:(lia) G0 Hh) as (f' & _ & E'). rewrite E'. cbn [rules].
      assert (in_names ["textarea"]%string n = false) as -> by (clear -F; name_cases F; reflexivity). apply head_raw; auto. }
  assert (step (stag n a) s s1) as St1.
  { split; [exact E1|]. intros _ x Ex. injection Ex as <-. apply (g_switch _ _ _ _ _ _ _ G1). }
  destruct (raw_close _ _ _ _ _ _ _ _ ns (wfk_opened d k n a Hw Hne) eq_refl P G1 O1 Hr Hz) with (n := n) as (s2 & R2 & G2).
  { intros Ht. apply Hff. apply in_names_In in Ht as (x & [<-|[]] & ->). reflexivity. }
  { apply ends_new. }
  exists s2. split; [|split; [eapply at_good; exact G2|apply (g_skip _ _ _ _ _ _ _ G2)]]. econstructor; [exact St1|].
  assert (flat_map toks ns = flat_map (fun x => match x with Text w => map char_token w | _ => [] end) ns) as ->; [|exact R2].
  destruct Hr as [->|(w & -> & _)]; reflexivity.
Qed.

(** An empty element. *)
Lemma void_ok_run c path k d hd s n a : (c = Flow /\ fits_here path n = true /\ empty_element n = true \/ c = Head /\ in_names in_head_void n = true \/ c = InColumns /\ n = of_string "col") ->
  ready 5 c path d k hd (stag n a) s -> path_at c path -> stack_path k path -> wfk d k -> attrs_ok a -> mode_of n = None ->
  exists s', runs [stag n a] s s' /\ st_at c path (opened d k n a) k hd s' /\ s_skip_lf s' = false.
Proof.
  intros Hc Hs Hp Hk Hw Ha Hm. pose proof (path_top_html _ _ _ Hp Hk) as Hh. pose proof (top_html_ne _ Hh) as Hne.
  destruct (Hs (fun s' => good (opened d k n a) k (mode_at c path) hd false None s')) as (s1 & E1 & G1).
  { intros f s0 Hf G0. destruct Hc as [(-> & F1 & F2)|[(-> & F)|(-> & ->)]]; cbn [mode_at] in *.
    - apply void_flow with (path := path); auto; lia.
    - destruct (enter_rules f (stag n a) _ _ _ _ _ _ ltac:(lia) G0 Hh) as (f' & _ & E'). rewrite E'. cbn [rules]. apply head_void; auto.
    - destruct (enter_rules f (stag (of_string "col") a) _ _ _ _ _ _ ltac:(lia) G0 Hh) as (f' & _ & E'). rewrite E'. cbn [rules]. rewrite col_col. apply leaf; auto. repeat split; reflexivity. }
  exists s1. split; [|split; [eapply at_good; exact G1|apply (g_skip _ _ _ _ _ _ _ G1)]].
  apply runs_one. split; [exact E1|]. intros _ x Ex. injection Ex as <-. rewrite (g_switch _ _ _ _ _ _ _ G1). symmetry. exact Hm.
Qed.

Lemma void_no_mode n : empty_element n = true -> mode_of n = None.
Proof. unfold empty_element, void_element, html_named. intros H. apply andb_true_iff in H as [_ H]. cbn [q_name] in H. name_cases H; reflexivity. Qed.
Lemma raw_plain n : raw_element n = true -> plain n.
Proof.
  unfold raw_element, mode_of. intros H.
  destruct (in_names ["title"; "textarea"]%string n) eqn:Q1; [clear H; name_cases Q1; repeat split; reflexivity|].
  destruct (in_names ["style"; "xmp"; "iframe"; "noembed"; "noframes"]%string n) eqn:Q2; [clear H; name_cases Q2; repeat split; reflexivity|].
  destruct (in_names ["script"]%string n) eqn:Q3; [clear H; name_cases Q3; repeat split; reflexivity|].
  destruct (in_names ["plaintext"]%string n) eqn:Q4; [clear H; name_cases Q4; repeat split; reflexivity|discriminate].
Qed.

Lemma element_ok q a ns : Forall node_ok ns -> forall c path k d hd s,
  ready 5 c path d k hd (stag (q_name q) a) s -> path_at c path -> stack_path k path -> wfk d k -> fits c path (Element q a ns) -> expressible (Element q a ns) ->
  exists s', runs (toks (Element q a ns)) s s' /\ st_at c path (add_node d (top k) (Element q a ns)) k hd s' /\ s_skip_lf s' = false.
Proof.
  intros IH c path k d hd s Hs Hp Hk Hw Hf He.
  destruct q as [ns0 n]. cbn [fits q_ns q_name] in Hf. destruct Hf as [-> Hf]. cbn [expressible q_name] in He. destruct He as (Hname & Ha & He).
    change (mkQName (Some html_ns) n) with (hq n) in *. rewrite add_element. cbn [toks q_name hq].
    change (void_element (hq n)) with (empty_element n) in *. fold (hq n). change (put_under d (top k) (KElement (hq n) a)) with (opened d k n a).
    assert (forall c', mode_of n = None -> empty_element n = false -> child c path n c' -> (no_double_text ns = true /\ fold_right (fun x P => fits c' (n :: path) x /\ P) True ns) ->
      (sk_of n = true -> no_first_feed ns) ->
      exists s', runs (stag n a :: (if empty_element n then [] else flat_map toks ns ++ [etag n])) s s' /\ st_at c path (add_nodes (opened d k n a) (length d) ns) k hd s' /\ s_skip_lf s' = false) as Hchild.
    { intros c' Hm Hv Hc [Hdt Hall] Hff. rewrite Hv in *. rewrite Hm in He. destruct He as [_ He]. apply fold_conj in He. apply fold_conj in Hall. eapply child_ok; eauto. }
    assert (empty_element n = false -> raw_element n = true -> (forall w, ns = [Text w] -> ~ In 0%N w)) as Hzero.
    { intros Hv Hr w ->. rewrite Hv in He. unfold raw_element in Hr. destruct (mode_of n) as [[]|]; try discriminate Hr; try exact (proj1 He); try exact (proj1 (proj1 He)). destruct He. }
    destruct c.
    + destruct Hf as [Hfit Hf]. destruct (empty_element n) eqn:Hv.
      { subst ns. cbn [add_nodes fold_left]. apply void_ok_run; auto. apply void_no_mode, Hv. }
      destruct (raw_element n) eqn:Hr.
      { destruct Hf as [Hraw Hff]. apply raw_ok_run; auto. apply raw_plain, Hr. }
      assert (mode_of n = None) as Hm by (unfold raw_element in Hr; destruct (mode_of n); [discriminate|reflexivity]).
      destruct (in_names ["table"]%string n) eqn:Ht.
      { apply in_names_In in Ht as (x & [<-|[]] & ->). apply (Hchild InTable Hm eq_refl (ch_table _ Hfit) Hf). discriminate. }
      destruct Hf as [Hf Hff]. apply (Hchild Flow Hm eq_refl (ch_flow _ _ Hfit Hv Hr Ht) Hf Hff).
    + destruct (in_names ["base"; "basefont"; "bgsound"; "link"; "meta"]%string n) eqn:Hv.
      { assert (empty_element n = true) as Hv' by (clear -Hv; name_cases Hv; reflexivity). rewrite Hv' in *. subst ns. cbn [add_nodes fold_left]. apply void_ok_run; auto. apply void_no_mode, Hv'. }
      destruct Hf as [Hn Hraw]. assert (empty_element n = false /\ raw_element n = true /\ n <> of_string "textarea") as (Hv' & Hr & Hnt) by (clear -Hn; name_cases Hn; repeat split; discriminate).
      rewrite Hv' in *. apply raw_ok_run; auto; [apply raw_plain, Hr|contradiction].
    + destruct (in_names ["caption"]%string n) eqn:E1.
      { apply in_names_In in E1 as (x & [<-|[]] & ->). apply (Hchild Flow eq_refl eq_refl (ch_caption _) Hf). discriminate. }
      destruct (in_names ["colgroup"]%string n) eqn:E2.
      { apply in_names_In in E2 as (x & [<-|[]] & ->). apply (Hchild InColumns eq_refl eq_refl (ch_columns _) Hf). discriminate. }
      destruct Hf as [Hn Hf]. apply (Hchild InSection); auto; try (clear -Hn; name_cases Hn; reflexivity); [apply ch_section, Hn|].
      intros Hsk'. exfalso. clear -Hn Hsk'. name_cases Hn; discriminate.
    + apply in_names_In in Hf as (x & [<-|[]] & ->). change (empty_element (of_string "col")) with true in *. cbn iota in He |- *. subst ns. cbn [add_nodes fold_left]. apply void_ok_run; auto.
    + destruct Hf as [Hn Hf]. apply in_names_In in Hn as (x & [<-|[]] & ->). apply (Hchild InRow eq_refl eq_refl (ch_row _) Hf). discriminate.
    + destruct Hf as [Hn Hf]. apply (Hchild Flow); auto; try (clear -Hn; name_cases Hn; reflexivity); [apply ch_cell, Hn|].
      intros Hsk'. exfalso. clear -Hn Hsk'. name_cases Hn; discriminate.
Qed.

Theorem every_node n : node_ok n.
Proof.
  induction n as [w|w|w|q a ns IH] using node_induct; intros c path k d hd s Hs Hp Hk Hw Hf He Hsk Hx.
  - destruct Hf as [Hne Hb]. destruct He as [Hz _]. cbn [toks add_node]. eapply text_at; eauto.
    + intros Hc. destruct c; congruence || exact Hb.
    + intros H E. destruct w as [|x w]; [discriminate|]. injection E as ->. exact (Hsk H w [] eq_refl).
  - cbn [toks add_node]. apply comment_at; auto.
  - destruct Hf.
  - apply element_ok; auto. eapply ready_le; [|apply at_ready; [exact Hs|exact (path_top_html _ _ _ Hp Hk)|reflexivity]]. lia.
Qed.
