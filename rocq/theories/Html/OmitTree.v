(** The tokens of a tree, without the tags that may be left out, rebuild it. *)
From Coq Require Import String List Arith Bool NArith Lia Permutation.
From Verif.Base Require Import Str.
From Verif.Html Require Import LexerModel SerialModel SerialSpec SerialProofs BuildModel BuildSpec BuildDom BuildSteps BuildTags BuildStart BuildEnd BuildRun BuildTable BuildTree OmitSpec OmitSteps.
Import ListNotations.
Local Open Scope list_scope.
Local Infix ";;" := seq (at level 61, right associativity).

(** [t] comes after the content of elements that are still open. *)
Inductive lag (hd : option elem) (t : token) (s : st) : place_in -> list str -> dom -> list elem -> Prop :=
| lag0 c path d k : st_at c path d k hd s -> lag hd t s c path d k
| lag1 c path d k n c' i : child c path n c' -> skip t n path -> wfk d (mkElem i (hq n) :: k) ->
    lag hd t s c' (n :: path) d (mkElem i (hq n) :: k) -> lag hd t s c path d k.

Definition lvl (c : place_in) : nat := match c with InTable => 3 | InSection => 2 | InRow => 1 | _ => 0 end.
Lemma lag_ready hd t s c path d k : lag hd t s c path d k -> path_at c path -> stack_path k path -> ~ final t -> is_char t = false ->
  ready (20 - lvl c) c path d k hd t s.
Proof.
  intros H Hp Hk Hnf Ht. induction H as [c path d k H|c path d k n c' i Hc Hs Hw H IH].
  - eapply ready_le; [|apply at_ready; [exact H|exact (path_top_html _ _ _ Hp Hk)|exact Ht]]. lia.
  - pose proof (child_path _ _ _ _ Hc Hp) as Hp1. specialize (IH Hp1 (close_path path k n i Hk)).
    intros Q HQ. apply IH. intros f s0 Hf G.
    destruct (close_step path k d hd n i s0 t f Hk Hw Hs Hnf) with (c := c) (c' := c') as (f' & s1 & Hf' & G1 & E); auto.
    { clear -Hf Hc. destruct Hc; cbn [lvl] in Hf; lia. }
    rewrite E. apply HQ; [|exact G1].
    pose proof (skip_names _ _ _ Hs) as Hd. clear -Hf Hf' Hc Hd. destruct Hc; cbn [lvl] in *; try lia. discriminate Hd.
Qed.

(** The start tags of tbody and colgroup. *)
Lemma bare_ready b path d k hd a s n x c m : path_at InTable path -> stack_path k path -> wfk d k -> 1 <= b ->
  n = "tbody"%string /\ x = of_string "tr" /\ c = InSection /\ m = IN_TABLE_BODY \/ n = "colgroup"%string /\ x = of_string "col" /\ c = InColumns /\ m = IN_COLUMN_GROUP ->
  ready b InTable path d k hd (stag x a) s ->
  ready (b - 1) c (of_string n :: path) (opened d k (of_string n) []) (opening d (of_string n) :: k) hd (stag x a) s.
Proof.
  intros Hp Hk Hw Hb Hn H Q HQ. apply H. intros f s0 Hf G. pose proof (path_top_html _ _ _ Hp Hk) as Hh. pose proof (top_html_ne _ Hh) as Hne.
  destruct (enter_rules f (stag x a) _ _ _ _ _ _ ltac:(lia) G Hh) as (f' & Ef & ->). cbn [rules mode_at].
  assert (on_in_table (dispatch f' None) (fun m => dispatch f' (Some m)) (stag x a) s0 =
    (clear_back ["table"; "template_"; "html"]%string ;; insert_ (tag_named n) ;; switch_to m ;; dispatch f' None (stag x a)) s0) as ->.
  { destruct Hn as [(-> & -> & -> & ->)|(-> & -> & -> & ->)]; reflexivity. }
  unfold seq at 1. erewrite clear_nop; [|exact G|inversion Hp; subst; eapply path_top; [exact Hp|exact Hk|reflexivity|reflexivity]]. cbn [andthen].
  change (tag_named n) with (stag (of_string n) []).
  assert (plain (of_string n)) as P by (destruct Hn as [(-> & _)|(-> & _)]; repeat split; reflexivity).
  destruct (insert_plain _ _ _ _ _ _ _ (of_string n) [] G Hne (proj1 Hw)) as (s1 & E1 & G1); [split; constructor|exact P|].
  unfold seq. rewrite E1. cbn [andthen switch_to pure]. apply HQ; [lia|].
  assert (mode_at c (of_string n :: path) = m) as -> by (destruct Hn as [(-> & -> & -> & ->)|(-> & -> & -> & ->)]; reflexivity).
  eapply good_mode. exact G1.
Qed.

(** The tokens. *)
Inductive brief : str -> str -> option node -> node -> list token -> str -> Prop :=
| b_whole parent cut next x : brief parent cut next x (toks x) []
| b_element parent cut next q attrs ns ts (opened closed : bool) :
    void_element q = false -> mode_of (q_name q) = None ->
    (opened = false -> attrs = [] /\ start_is_optional cut (q_name q) ns = true) ->
    (closed = false -> omit parent (q_name q) next = true) ->
    briefs (q_name q) [] ns ts ->
    brief parent cut next (Element q attrs ns)
      ((if opened then [stag (q_name q) attrs] else []) ++ ts ++ (if closed then [etag (q_name q)] else []))
      (if closed then [] else q_name q)
with briefs : str -> str -> list node -> list token -> Prop :=
| bs_nil parent cut : briefs parent cut [] []
| bs_cons parent cut x xs ts ts' cut' :
    brief parent cut (hd_error xs) x ts cut' -> briefs parent cut' xs ts' -> briefs parent cut (x :: xs) (ts ++ ts').
Scheme brief_mind := Induction for brief Sort Prop
  with briefs_mind := Induction for briefs Sort Prop.

Lemma brief_first parent cut next x ts cut' : brief parent cut next x ts cut' -> forall q a ns, x = Element q a ns -> exists t r, ts = t :: r /\ opener cut x t.
Proof.
  intros H. induction H as [parent cut next x|parent cut next q attrs ns ts opened closed Hv Hm Ho Hc Hb IH|parent cut|parent cut x xs ts ts' cut' H1 IH1 H2 IH2]
    using brief_mind with (P0 := fun parent cut ns ts _ => forall q a l r, ns = Element q a l :: r -> exists t us, ts = t :: us /\ opener cut (Element q a l) t).
  - intros q a ns ->. cbn [toks]. eexists _, _. split; [reflexivity|]. constructor.
  - intros q0 a ns0 E. destruct opened; [eexists _, _; split; [reflexivity|constructor]|]. destruct (Ho eq_refl) as [-> Hs]. cbn [app].
    destruct ns as [|x r]; [discriminate Hs|]. pose proof (bare_cases _ _ _ _ Hs) as Hcs.
    assert (exists q' a' l, x = Element q' a' l) as (q' & a' & l & ->) by (destruct x; try (destruct Hcs as [(_ & X & _)|(_ & X & _)]; discriminate X); eauto).
    destruct (IH _ _ _ _ eq_refl) as (t & us & -> & Hop). eexists _, _. split; [reflexivity|].
    apply no_bare in Hop.
    + rewrite Hop. constructor. exact Hs.
    + destruct Hcs as [(_ & X & _)|(_ & X & _)]; apply named_element in X; apply in_one in X; rewrite X; reflexivity.
  - discriminate.
  - intros q a l r E. injection E as -> ->. destruct (IH1 _ _ _ eq_refl) as (t & us & -> & Hop). eexists _, _. split; [reflexivity|exact Hop].
Qed.

Lemma fits_child c path q a ns : fits c path (Element q a ns) -> void_element q = false -> mode_of (q_name q) = None -> q = hq (q_name q) /\
  exists c', child c path (q_name q) c' /\ no_double_text ns = true /\ Forall (fits c' (q_name q :: path)) ns /\ (sk_of (q_name q) = true -> no_first_feed ns).
Proof.
  intros Hf Hv Hm. pose proof (fits_tag _ _ _ _ _ Hf) as Eq. split; [exact Eq|]. destruct q as [o n]. cbn [q_name] in *. rewrite Eq in Hv, Hf. clear Eq o. cbn [fits q_ns q_name hq] in Hf.
  destruct Hf as [_ Hf]. change (void_element (hq n)) with (empty_element n) in Hv.
  assert (raw_element n = false) as Hr by (unfold raw_element; now rewrite Hm).
  assert (forall c', child c path n c' -> no_double_text ns = true /\ fold_right (fun x P => fits c' (n :: path) x /\ P) True ns -> (sk_of n = true -> no_first_feed ns) ->
    exists c', child c path n c' /\ no_double_text ns = true /\ Forall (fits c' (n :: path)) ns /\ (sk_of n = true -> no_first_feed ns)) as K.
  { intros c' Hc [H1 H2] H3. apply fold_conj in H2. eauto. }
  destruct c.
  - destruct Hf as [Hfit Hf]. rewrite Hv, Hr in Hf. destruct (in_names ["table"]%string n) eqn:Ht.
    + apply in_one in Ht. subst n. apply (K InTable (ch_table _ Hfit) Hf). discriminate.
    + destruct Hf as [Hf Hff]. exact (K Flow (ch_flow _ _ Hfit Hv Hr Ht) Hf Hff).
  - destruct (in_names ["base"; "basefont"; "bgsound"; "link"; "meta"]%string n) eqn:E.
    + exfalso. clear -E Hv. name_cases E; discriminate Hv.
    + destruct Hf as [Hn _]. exfalso. clear -Hn Hm. name_cases Hn; discriminate Hm.
  - destruct (in_names ["caption"]%string n) eqn:E1; [apply in_one in E1; subst n; apply (K Flow (ch_caption _) Hf); discriminate|].
    destruct (in_names ["colgroup"]%string n) eqn:E2; [apply in_one in E2; subst n; apply (K InColumns (ch_columns _) Hf); discriminate|].
    destruct Hf as [Hn Hf]. apply (K InSection (ch_section _ _ Hn) Hf). intros Hsk. exfalso. clear -Hn Hsk. name_cases Hn; discriminate.
  - apply in_one in Hf. subst n. discriminate Hv.
  - destruct Hf as [Hn Hf]. apply in_one in Hn. subst n. apply (K InRow (ch_row _) Hf). discriminate.
  - destruct Hf as [Hn Hf]. apply (K Flow (ch_cell _ _ Hn) Hf). intros Hsk. exfalso. clear -Hn Hsk. name_cases Hn; discriminate.
Qed.
Lemma child_not_final c path n c' : child c path n c' -> ~ final (etag n).
Proof.
  intros H [E|[E|E]]; [injection E as E|injection E as E|discriminate E]; subst n; inversion H as [p x F1 F2 F3 F4|p F|p|p|p x F|p|p x F]; subst; try discriminate F; apply flow_name in F1; discriminate F1.
Qed.
Lemma stag_not_final n a : ~ final (stag n a).
Proof. intros [E|[E|E]]; discriminate E. Qed.
Lemma opener_stag cut x t : opener cut x t -> exists n a, t = stag n a.
Proof. intros H. inversion H; eauto. Qed.
Lemma cut_element c path m n x : (exists c', child c path n c') -> omit m n (Some x) = true -> fits c path x -> exists q a ns, x = Element q a ns.
Proof.
  intros (c' & Hc) Ho Hf. destruct x as [q a ns|w|w|w]; [eauto|exfalso..]; pose proof (omit_end _ _ _ Ho) as [He _];
    (apply omit_next in Ho as [Ho|(n' & l & Hi & En & Hx)]; [|discriminate Hx]).
  - assert (c = InTable) as ->. { clear -Hc Ho. inversion Hc as [p x F1 F2 F3 F4|p F|p|p|p x F|p|p x F]; subst; try reflexivity; try discriminate Ho; [apply flow_name in F1; exfalso; name_cases Ho; discriminate F1|exfalso; name_cases Ho; discriminate F]. }
    cbn [fits] in Hf. destruct Hf as [Hw Hb]. destruct w as [|x w]; [contradiction|]. inversion Hb as [|? ? Hx _]; subst.
    assert (not_blank_or_comment (Some (Text (x :: w))) = true) as X.
    { clear -He Ho. unfold end_is_optional in He. name_cases Ho; names_in He; cbn [andb orb] in He; rewrite ?orb_false_r in He; exact He. }
    cbn [not_blank_or_comment] in X. clear -X Hx. unfold blank in Hx. repeat destruct Hx as [->|Hx]; try discriminate X. subst x. discriminate X.
  - clear -He Ho. unfold end_is_optional in He. name_cases Ho; names_in He; cbn [andb orb] in He; rewrite ?orb_false_r in He; discriminate He.
  - exact Hf.
Qed.

Definition first (ts : list token) (t : token) : token := match ts with [] => t | x :: _ => x end.
(** Before the nodes [ns], written as [ts] and followed by [t]. *)
Definition before (c : place_in) (path : list str) (d : dom) (k : list elem) (hd : option elem) (ns : list node) (ts : list token) (t : token) (s : st) : Prop :=
  match ns with
  | [] => lag hd t s c path d k
  | Element _ _ _ :: _ => ready (11 + (lvl c) / 3) c path d k hd (first ts t) s
  | x :: _ => st_at c path d k hd s /\ (s_skip_lf s = true -> no_first_feed [x]) /\ (is_text x = true -> ends_in_text d (top k) = false)
  end.

Lemma briefs_first parent cut q a l r ts : briefs parent cut (Element q a l :: r) ts -> exists t us, ts = t :: us /\ opener cut (Element q a l) t.
Proof. intros H. inversion H as [|? ? ? ? ts0 ts1 cut' H1 H2]; subst. destruct (brief_first _ _ _ _ _ _ H1 _ _ _ eq_refl) as (t & us & -> & Ho). eexists _, _. split; [reflexivity|exact Ho]. Qed.
Lemma before_at c path d k hd parent cut ns ts t s : st_at c path d k hd s -> top_html k -> briefs parent cut ns ts ->
  (s_skip_lf s = true -> no_first_feed ns) -> (forall n r, ns = n :: r -> is_text n = true -> ends_in_text d (top k) = false) -> before c path d k hd ns ts t s.
Proof.
  intros Hs Hh Hb Hsk Hx. unfold before. destruct ns as [|[q a l|w|w|w] r].
  - now apply lag0.
  - destruct (briefs_first _ _ _ _ _ _ _ Hb) as (t0 & us & -> & Ho). cbn [first]. destruct (opener_stag _ _ _ Ho) as (n & b & ->).
    eapply ready_le; [|apply at_ready; [exact Hs|exact Hh|reflexivity]]. destruct c; cbn; lia.
  - split; [exact Hs|]. split; [|intros _; eapply Hx; reflexivity]. intros H w0 r0 E. injection E as -> _. exact (Hsk H _ _ eq_refl).
  - split; [exact Hs|]. split; [discriminate|]. discriminate.
  - split; [exact Hs|]. split; [discriminate|]. discriminate.
Qed.

Definition brief_ok (parent : str) (x : node) (ts : list token) (cut' : str) : Prop := forall c path p k d hd s t,
  path = parent :: p -> path_at c path -> stack_path k path -> wfk d k -> fits c path x -> expressible x ->
  before c path d k hd [x] ts t s -> (cut' <> [] -> skip t cut' path) ->
  exists s', runs ts s s' /\ lag hd t s' c path (add_node d (top k) x) k /\ (cut' = [] -> st_at c path (add_node d (top k) x) k hd s' /\ s_skip_lf s' = false).
Definition briefs_ok (parent : str) (ns : list node) (ts : list token) : Prop := forall c path p k d hd s t,
  path = parent :: p -> path_at c path -> stack_path k path -> wfk d k -> Forall (fits c path) ns -> Forall expressible ns -> no_double_text ns = true ->
  before c path d k hd ns ts t s -> (forall n, omit parent n None = true -> skip t n path) ->
  exists s', runs ts s s' /\ lag hd t s' c path (add_nodes d (top k) ns) k.
Lemma cons_ok parent cut x xs ts ts' cut' : brief parent cut (hd_error xs) x ts cut' -> briefs parent cut' xs ts' -> brief_ok parent x ts cut' -> briefs_ok parent xs ts' ->
  briefs_ok parent (x :: xs) (ts ++ ts').
Proof.
  intros H1 H2 IH1 IH2. 
  intros c path p k d hd s t Ep Hp Hk Hw Hf He Hd Hs Hsk. inversion Hf as [|? ? Hf1 Hf2]; inversion He as [|? ? He1 He2]; subst x0 l x1 l0.
    cbn [no_double_text] in Hd. apply andb_true_iff in Hd as [Hd1 Hd2]. pose proof (path_top_html _ _ _ Hp Hk) as Hh. pose proof (top_html_ne _ Hh) as Hne.
    assert (cut' <> [] -> omit parent cut' (hd_error xs) = true /\ exists c', child c path cut' c') as Hcut.
    { clear -H1 Hf1. inversion H1; subst; [congruence|]. destruct closed; [congruence|]. intros _. split; [auto|]. destruct (fits_child _ _ _ _ _ Hf1) as (_ & c' & Hc & _); eauto. }
    assert (cut' <> [] -> skip (first ts' t) cut' path) as Hsk1.
    { intros Hc. destruct (Hcut Hc) as [Ho Hch]. destruct xs as [|y ys].
      - inversion H2; subst. cbn [first]. apply Hsk. exact Ho.
      - cbn [hd_error] in Ho. inversion Hf2 as [|? ? Hy _]; subst. destruct (cut_element _ _ _ _ _ Hch Ho Hy) as (q & a & l & ->).
        destruct (briefs_first _ _ _ _ _ _ _ H2) as (t0 & us & -> & Hop). cbn [first]. eapply skip_next; eassumption. }
    destruct (IH1 c path p k d hd s (first ts' t)) as (s1 & R1 & L1 & S1); auto.
    { unfold before in Hs |- *. destruct x as [q a l| | |]; auto. destruct (brief_first _ _ _ _ _ _ H1 _ _ _ eq_refl) as (t0 & us & -> & Hop). exact Hs. }
    assert (wfk (add_node d (top k) x) k) as Hw1 by (apply wfk_add; assumption).
    destruct (IH2 c path p k (add_node d (top k) x) hd s1 t) as (s2 & R2 & L2); auto.
    { assert (cut' = [] \/ cut' <> []) as [Ec|Ec] by (destruct cut'; [left; reflexivity|right; discriminate]).
      - destruct (S1 Ec) as [S1' K1]. eapply before_at; [exact S1'|exact Hh|exact H2|rewrite K1; discriminate|].
        intros m r -> Hm. rewrite (ends_add _ _ _ (wfk_top _ _ Hw Hne)). rewrite Hm, andb_true_r in Hd1. now apply negb_true_iff in Hd1.
      - destruct (Hcut Ec) as [Ho Hch]. destruct xs as [|y ys].
        + inversion H2; subst. exact L1.
        + cbn [hd_error] in Ho. inversion Hf2 as [|? ? Hy _]; subst. destruct (cut_element _ _ _ _ _ Hch Ho Hy) as (q & a & l & ->).
          destruct (briefs_first _ _ _ _ _ _ _ H2) as (t0 & us & -> & Hop). cbn [first before] in *. destruct (opener_stag _ _ _ Hop) as (n & b & ->).
          eapply ready_le; [|apply lag_ready; [exact L1|exact Hp|exact Hk|apply stag_not_final|reflexivity]]. destruct c; cbn; lia. }
    exists s2. split; [eapply runs_app; eauto|exact L2].
Qed.
Lemma brief_run parent cut next x ts cut' : brief parent cut next x ts cut' -> brief_ok parent x ts cut'.
Proof.
  intros H. induction H as [parent cut next x|parent cut next q attrs ns ts op closed Hv Hm Ho Hc Hb IH|parent cut|parent cut x xs ts ts' cut' H1 IH1 H2 IH2]
    using brief_mind with (P0 := fun parent cut ns ts _ => briefs_ok parent ns ts).
  - intros c path p k d hd s t Ep Hp Hk Hw Hf He Hs _.
    assert (exists s', runs (toks x) s s' /\ st_at c path (add_node d (top k) x) k hd s' /\ s_skip_lf s' = false) as (s' & R & S1 & K).
    { destruct x as [q a ns|w|w|w].
      - apply element_ok; auto; [apply Forall_forall; intros; apply every_node|]. cbn [before toks first] in Hs. eapply ready_le; [|exact Hs]. lia.
      - destruct Hs as (H1 & H2 & H3). apply every_node; auto.
      - destruct Hs as (H1 & H2 & H3). apply every_node; auto.
      - destruct Hf. }
    exists s'. split; [exact R|]. split; [now apply lag0|]. auto.
  - intros c path p k d hd s t Ep Hp Hk Hw Hf He Hs Hsk. cbn [before] in Hs.
    destruct (fits_child _ _ _ _ _ Hf Hv Hm) as (Eq & c' & Hch & Hdt & Hfits & Hff).
    set (n := q_name q) in *. rewrite Eq in *. clearbody n. clear q Eq. cbn [q_name hq] in *.
    cbn [expressible] in He. destruct He as (_ & Ha & He). rewrite Hv in He. cbn [q_name hq] in He. rewrite Hm in He. destruct He as [_ He]. apply fold_conj in He.
    pose proof (path_top_html _ _ _ Hp Hk) as Hh. pose proof (top_html_ne _ Hh) as Hne.
    pose proof (child_path _ _ _ _ Hch Hp) as Hp1. assert (stack_path (opening d n :: k) (n :: path)) as Hk1 by (unfold stack_path in *; cbn [map opening e_name]; now rewrite Hk).
    assert (wfk (opened d k n attrs) (opening d n :: k)) as Hw1 by (apply wfk_opened; assumption).
    set (t' := if closed then etag n else t).
    assert (forall n', omit n n' None = true -> skip t' n' (n :: path)) as Hsk1.
    { intros n' Hn'. unfold t'. destruct closed; [apply skip_last; [exact Hn'|exact Hv|reflexivity]|]. apply skip_up; [exact Hn'|]. apply Hsk.
      specialize (Hc eq_refl). apply omit_names in Hc. intros ->. discriminate Hc. }
    assert (exists s1, runs (if op then [stag n attrs] else []) s s1 /\ before c' (n :: path) (opened d k n attrs) (opening d n :: k) hd ns ts t' s1) as (s1 & R1 & B1).
    { destruct op.
      - destruct (Hs (fun s' => good (opened d k n attrs) (opening d n :: k) (mode_at c' (n :: path)) hd (sk_of n) None s')) as (s1 & E1 & G1).
        { intros f s0 Hf0 G0. eapply child_start; eauto; lia. }
        exists s1. split.
        { apply runs_one. split; [exact E1|]. intros _ x Ex. injection Ex as <-. rewrite (g_switch _ _ _ _ _ _ _ G1). symmetry. exact Hm. }
        eapply before_at; [eapply at_good; exact G1|reflexivity|exact Hb|rewrite (g_skip _ _ _ _ _ _ _ G1); exact Hff|].
        intros x r _ _. cbn [top opening e_id]. apply ends_new.
      - exists s. split; [constructor|]. destruct (Ho eq_refl) as [-> Hst]. cbn [app] in Hs. destruct ns as [|x r]; [discriminate Hst|].
        destruct (bare_cases _ _ _ _ Hst) as [(En & Hx & _)|(En & Hx & _)]; destruct x as [q' a' l|w|w|w]; try discriminate Hx; apply named_element, in_one in Hx;
          destruct (briefs_first _ _ _ _ _ _ _ Hb) as (t0 & us & -> & Hop); (apply no_bare in Hop; [|rewrite Hx; reflexivity]); subst t0; cbn [app first before] in *; rewrite Hx in Hs |- *.
        + assert (c = InTable /\ c' = InSection) as [-> ->].
          { clear -Hch En. inversion Hch as [p x F1 F2 F3 F4|p F|p|p|p x F|p|p x F]; subst; auto; try discriminate F; try (match goal with H : of_string _ = of_string _ |- _ => discriminate H end). apply flow_name in F1. discriminate F1. }
          subst n. apply (bare_ready 12 path d k hd a' s "tbody" (of_string "tr") InSection IN_TABLE_BODY); auto; lia.
        + assert (c = InTable /\ c' = InColumns) as [-> ->].
          { clear -Hch En. inversion Hch as [p x F1 F2 F3 F4|p F|p|p|p x F|p|p x F]; subst; auto; try discriminate F; try (match goal with H : of_string _ = of_string _ |- _ => discriminate H end). apply flow_name in F1. discriminate F1. }
          subst n. apply (bare_ready 12 path d k hd a' s "colgroup" (of_string "col") InColumns IN_COLUMN_GROUP); auto 6; lia. }
    destruct (IH c' (n :: path) path (opening d n :: k) (opened d k n attrs) hd s1 t' eq_refl Hp1 Hk1 Hw1 Hfits He Hdt B1 Hsk1) as (s2 & R2 & L2).
    cbn [top opening e_id] in L2. fold (opening d n) in L2. rewrite add_element. fold (hq n). change (put_under d (top k) (KElement (hq n) attrs)) with (opened d k n attrs).
    set (d2 := add_nodes (opened d k n attrs) (length d) ns) in *.
    assert (wfk d2 (opening d n :: k)) as Hw2 by exact (wfk_adds _ _ ns Hw1 ltac:(discriminate)).
    destruct closed.
    + assert (ready (20 - lvl c') c' (n :: path) d2 (opening d n :: k) hd t' s2) as Rd by (apply lag_ready; auto; eapply child_not_final; exact Hch).
      destruct (Rd (fun s' => good d2 k (mode_at c path) hd false None s')) as (s3 & E3 & G3).
      { intros f s0 Hf0 G0. eapply child_end; eauto. clear -Hf0. destruct c'; cbn [lvl] in Hf0; lia. }
      exists s3. pose proof (at_good _ _ _ _ _ _ _ _ G3) as S3. split; [|split; [now apply lag0|]].
      * eapply runs_app; [exact R1|]. eapply runs_app; [exact R2|]. apply runs_one. split; [exact E3|discriminate].
      * intros _. split; [exact S3|apply (g_skip _ _ _ _ _ _ _ G3)].
    + assert (n <> []) as Hn0 by (specialize (Hc eq_refl); apply omit_names in Hc; intros ->; discriminate Hc).
      exists s2. split; [|split; [|intros E; contradiction]].
      * eapply runs_app; [exact R1|]. rewrite app_nil_r. exact R2.
      * eapply lag1; [exact Hch|apply Hsk; exact Hn0|exact Hw2|exact L2].
  - intros c path p k d hd s t Ep Hp Hk Hw _ _ _ Hs _. exists s. split; [constructor|exact Hs].
  - exact (cons_ok _ _ _ _ _ _ _ H1 H2 IH1 IH2).
Qed.
Lemma briefs_run parent cut ns ts : briefs parent cut ns ts -> briefs_ok parent ns ts.
Proof.
  intros H. induction H as [parent cut|parent cut x xs ts ts' cut' H1 H2 IH2].
  - intros c path p k d hd s t Ep Hp Hk Hw _ _ _ Hs _. exists s. split; [constructor|exact Hs].
  - exact (cons_ok _ _ _ _ _ _ _ H1 H2 (brief_run _ _ _ _ _ _ H1) IH2).
Qed.
