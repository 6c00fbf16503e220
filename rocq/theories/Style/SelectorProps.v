(** C05 complex selectors, C43 attribute selectors, C44 selector specificity, C45 pseudo-elements,
    C46 structural pseudo-classes. *)
From Coq Require Import String List NArith ZArith Bool Arith Lia.
From Verif.Base Require Import Str.
From Verif.Style Require Import AnBModel CascadeModel CascadeSpec CascadeProofs SelectorModel SelectorSpec SelectorProofs.
Import ListNotations.
Local Open Scope list_scope.

(** ** C05 *)

(** Full statement: for every tree, complex selector [x] and element [e],
    [match_selector] accepts [e] for [left_assoc x] iff [matches_complex]. Proved here for the
    supported simple selectors ([supported]: everything but [:root], [:empty], [:only-*], [:nth-*]
    without argument, [*|attr], and column combinators), and either no next-sibling
    combinator or a tree without text between element siblings. *)
Theorem C05_complex_selector_matching_partial : forall t x e pe,
  attrs_unique t -> supported (left_assoc x) = true ->
  (no_adjacent (left_assoc x) = true \/ no_gaps t) ->
  is_elem t e ->
  exists r, match_selector t (left_assoc x) e pe = Some r /\
            (r <> None <-> matches_complex t x e pe).
Proof.
  intros t x e pe Ha Hs Hg He.
  destruct (match_selector_some t _ e pe Hs Ha Hg He) as (r & H1 & H2).
  exists r. split; [exact H1|]. rewrite H2, <- left_assoc_sem by exact He.
  destruct (msel_sem t Ha _ Hs Hg e pe He) as (b & Hb & Hbp). rewrite Hb, <- Hbp.
  split; [congruence|intros ->; reflexivity].
Qed.
Print Assumptions C05_complex_selector_matching_partial.

(** A selector list is matched iff one of its complex selectors is, and the specificity reported
    is that of the most specific complex selector that matches. *)
Theorem C05_selector_list_partial : forall t xs e pe,
  attrs_unique t ->
  (forall x, In x xs -> supported (left_assoc x) = true /\ (no_adjacent (left_assoc x) = true \/ no_gaps t)) ->
  is_elem t e ->
  exists r, match_selector t (Nfix OR (map left_assoc xs)) e pe = Some r /\
    match r with
    | None => forall x, In x xs -> ~ matches_complex t x e pe
    | Some sp => (exists x, In x xs /\ matches_complex t x e pe /\ sp = spec (left_assoc x)) /\
                 (forall x, In x xs -> matches_complex t x e pe -> ~ spec_lt sp (spec (left_assoc x)))
    end.
Proof.
  intros t xs e pe Ha Hxs He.
  assert (Hs : supported (Nfix OR (map left_assoc xs)) = true).
  { simpl. apply forallb_forall. intros s Hin. apply in_map_iff in Hin as (x & <- & Hx). now apply Hxs. }
  assert (Hiff : forall x, In x xs -> msel t (left_assoc x) e pe = Some true <-> matches_complex t x e pe).
  { intros x Hx. destruct (Hxs x Hx) as [H1 H2].
    destruct (msel_sem t Ha _ H1 H2 e pe He) as (b & Hb & Hbp).
    rewrite <- left_assoc_sem, Hb, <- Hbp by exact He. split; [congruence|intros ->; reflexivity]. }
  assert (Hdef : exists r, match_selector t (Nfix OR (map left_assoc xs)) e pe = Some r).
  { simpl.
    assert (Hg : forall l (acc : option specificity), (forall s, In s l -> msel t s e pe <> None) -> exists r,
      fold_left (fun acc i =>
        match acc with
        | None => None
        | Some sp =>
            match msel t i e pe with
            | None => None
            | Some true => Some (opt_spec_max sp (spec i))
            | Some false => Some sp
            end
        end) l (Some acc) = Some r).
    { induction l as [|s l IH]; intros acc H; simpl; [eauto|].
      assert (msel t s e pe <> None) by (apply H; now left).
      destruct (msel t s e pe) as [[|]|]; [| |contradiction]; apply IH; intros; apply H; now right. }
    apply Hg. intros s Hin. apply in_map_iff in Hin as (x & <- & Hx). destruct (Hxs x Hx) as [H1 H2].
    destruct (msel_sem t Ha _ H1 H2 e pe He) as (b & Hb & _). congruence. }
  destruct Hdef as [r Hr]. exists r. split; [exact Hr|].
  apply match_selector_spec in Hr. simpl in Hr. destruct r as [sp|].
  - destruct Hr as [(s & H1 & H2 & H3) H4]. split.
    + apply in_map_iff in H1 as (x & <- & Hx). exists x. split; [exact Hx|]. split; [now apply Hiff|exact H3].
    + intros x Hx Hm. apply H4; [now apply in_map|now apply Hiff].
  - intros x Hx Hm. apply Hiff in Hm; [|exact Hx].
    rewrite Hr in Hm by now apply in_map. discriminate.
Qed.
Print Assumptions C05_selector_list_partial.

Definition tag (s : string) : qname := mkQ (Some html_ns) (of_string s).
Definition el (s : string) (kids : list node) : node := Elem (mkE (tag s) [] []) kids.
Definition elc (s c : string) (kids : list node) : node := Elem (mkE (tag s) [] [of_string c]) kids.
Definition txt : node := Other [].
Definition ty (s : string) : selector := TypeSel (mkQS (NsExact html_ns) (NameExact (of_string s))).

Definition ex_tree : node :=
  el "html" [el "div" [elc "p" "x" [el "b" []]; el "div" [el "p" [el "i" []; el "b" []]]]].

Fixpoint all_paths (n : node) : list path :=
  [] :: (fix go (l : list node) (i : nat) : list path :=
           match l with
           | [] => []
           | k :: l' => map (fun p => p ++ [i]) (all_paths k) ++ go l' (S i)
           end) (kids_of n) 0.

Lemma all_paths_complete n : forall p x, node_at n p = Some x -> In p (all_paths n).
Proof.
  intros p. revert n. induction p as [|i p IH] using rev_ind; intros n x Hx.
  - destruct n; now left.
  - assert (Hin : exists k, nth_error (kids_of n) i = Some k /\ node_at k p = Some x).
    { revert x Hx. induction p as [|j p IHp]; intros x Hx; simpl in *.
      - destruct (nth_error (kids_of n) i); [|discriminate]. exists n0. auto.
      - destruct (node_at n (p ++ [i])) as [m|] eqn:E; [|discriminate].
        assert (Hk : exists k, nth_error (kids_of n) i = Some k /\ node_at k p = Some m).
        { clear -E. revert m E. induction p as [|j p IHp]; intros m E; simpl in *.
          - destruct (nth_error (kids_of n) i) eqn:E'; [|discriminate]. exists n0. split; congruence.
          - destruct (node_at n (p ++ [i])) as [m'|]; [|discriminate].
            destruct (IHp m' eq_refl) as (k & H1 & H2). exists k. split; [exact H1|]. now rewrite H2. }
        destruct Hk as (k & H1 & H2). exists k. split; [exact H1|]. now rewrite H2. }
    destruct Hin as (k & Hk & Hp). apply IH in Hp. destruct n as [d ks|ks]; simpl in *; right.
    + clear IH Hx. replace i with (0 + i) by reflexivity. revert i Hk. generalize 0.
      induction ks as [|y ks IHk]; intros b i Hk; [destruct i; discriminate|].
      apply in_or_app. destruct i as [|i]; simpl in Hk.
      * injection Hk as ->. left. rewrite Nat.add_0_r. apply in_map_iff. eauto.
      * right. replace (b + S i) with (S b + i) by lia. now apply IHk.
    + clear IH Hx. replace i with (0 + i) by reflexivity. revert i Hk. generalize 0.
      induction ks as [|y ks IHk]; intros b i Hk; [destruct i; discriminate|].
      apply in_or_app. destruct i as [|i]; simpl in Hk.
      * injection Hk as ->. left. rewrite Nat.add_0_r. apply in_map_iff. eauto.
      * right. replace (b + S i) with (S b + i) by lia. now apply IHk.
Qed.

Lemma attrs_unique_check t :
  forallb (fun p => match elem_at t p with
                    | Some d => match map fst (d_attrs d) with [] | [_] => true | _ => false end
                    | None => true end) (all_paths t) = true ->
  attrs_unique t.
Proof.
  intros H p d Hd. rewrite forallb_forall in H.
  assert (In p (all_paths t)) as Hin.
  { unfold elem_at in Hd. destruct (node_at t p) eqn:E; [|discriminate]. eapply all_paths_complete, E. }
  specialize (H p Hin). rewrite Hd in H. destruct (map fst (d_attrs d)) as [|? [|? ?]]; try discriminate;
    repeat constructor; simpl; tauto.
Qed.

Example ex_tree_attrs : attrs_unique ex_tree.
Proof. apply attrs_unique_check. vm_compute. reflexivity. Qed.

(** [div > p.x ~ div b:last-child] selects the [b] in the nested paragraph. *)
Definition ex_complex : complex :=
  (ty "div", [(CHILD, Nfix AND [ty "p"; ClassSel (of_string "x")]);
              (SUBSEQUENT, ty "div");
              (DESCENDANT, Nfix AND [ty "b"; PseudoClass LAST_CHILD])]).

Example C05_example_hyps :
  supported (left_assoc ex_complex) = true /\ no_adjacent (left_assoc ex_complex) = true /\
  is_elem ex_tree [1; 0; 1; 0] /\ matches_complex ex_tree ex_complex [1; 0; 1; 0] None /\
  ~ matches_complex ex_tree ex_complex [0; 0; 0] None.
Proof.
  assert (Hs : supported (left_assoc ex_complex) = true) by reflexivity.
  assert (Hn : no_adjacent (left_assoc ex_complex) = true) by reflexivity.
  assert (He : is_elem ex_tree [1; 0; 1; 0]) by (eexists; reflexivity).
  assert (He' : is_elem ex_tree [0; 0; 0]) by (eexists; reflexivity).
  split; [exact Hs|]. split; [exact Hn|]. split; [exact He|]. split.
  - destruct (C05_complex_selector_matching_partial ex_tree ex_complex _ None ex_tree_attrs Hs (or_introl Hn) He)
      as (r & H1 & H2). apply H2. vm_compute in H1. injection H1 as <-. discriminate.
  - intros Hm.
    destruct (C05_complex_selector_matching_partial ex_tree ex_complex _ None ex_tree_attrs Hs (or_introl Hn) He')
      as (r & H1 & H2). apply H2 in Hm. vm_compute in H1. injection H1 as <-. contradiction.
Qed.

(** The full statement is false: with white space between the elements, [h1 + p] does not
    match a paragraph that directly follows a heading. *)
Theorem C05_next_sibling_refuted : exists t e,
  attrs_unique t /\ is_elem t e /\
  matches_complex t (ty "h1", [(ADJACENT, ty "p")]) e None /\
  match_selector t (left_assoc (ty "h1", [(ADJACENT, ty "p")])) e None = Some None.
Proof.
  exists (el "body" [el "h1" []; txt; el "p" []]), [2].
  split; [apply attrs_unique_check; reflexivity|].
  assert (He : forall i, i <> 1 -> is_elem (el "body" [el "h1" []; txt; el "p" []]) [i] -> i = 0 \/ i = 2).
  { intros [|[|[|i]]] Hi [d Hd]; try lia. unfold elem_at in Hd. simpl in Hd. destruct i; discriminate. }
  split; [eexists; reflexivity|]. split; [|reflexivity].
  exists [0]. split; [eexists; reflexivity|]. split.
  { simpl. eexists. split; [reflexivity|]. split; reflexivity. }
  apply chain_last.
  - split; [eexists; reflexivity|]. split; [exists 0, 2, []; repeat split; lia|].
    split; [eexists; reflexivity|].
    intros r (i & j & up & -> & H & Hlt) Hr. injection H as <- <-.
    destruct i as [|[|i]]; [now left| |lia]. destruct Hr as [d Hd]. discriminate.
  - simpl. eexists. split; [reflexivity|]. split; reflexivity.
Qed.
Print Assumptions C05_next_sibling_refuted.

(** [:root] is the [html] element wherever it is, not the root of the tree. *)
Theorem C05_root_refuted : exists t e,
  attrs_unique t /\ is_elem t e /\ pc_sem t ROOT e /\
  match_selector t (PseudoClass ROOT) e None = Some None.
Proof.
  exists (el "svg" []), []. split; [apply attrs_unique_check; reflexivity|].
  split; [eexists; reflexivity|]. split; [|reflexivity].
  intros q [i H]. discriminate.
Qed.
Print Assumptions C05_root_refuted.

(** [:empty], [:only-child] and [:only-of-type] are never matched. *)
Theorem C05_unsupported_pseudo_classes_refuted :
  (forall t e pe ty, In ty [EMPTY; ONLY_CHILD; ONLY_OF_TYPE] ->
     match_selector t (PseudoClass ty) e pe = Some None) /\
  (exists t e, is_elem t e /\ forall ty, In ty [EMPTY; ONLY_CHILD; ONLY_OF_TYPE] -> pc_sem t ty e).
Proof.
  split.
  - intros t e pe ty0 H. unfold match_selector. simpl.
    destruct (elem_at t e); [|reflexivity].
    simpl in H. destruct H as [<-|[<-|[<-|[]]]]; reflexivity.
  - exists (el "body" [el "p" []]), [0]. split; [eexists; reflexivity|].
    assert (Hb : forall P, first_of sibling_before P [0]).
    { intros P q (i & j & up & _ & H & Hlt). injection H as <- <-. lia. }
    assert (Ha : forall P : path -> Prop, (forall q, P q -> is_elem (el "body" [el "p" []]) q) -> first_of sibling_after P [0]).
    { intros P HP q (i & j & up & H & -> & Hlt) Hq. injection H as <- <-. apply HP in Hq as [d Hd].
      destruct j as [|j]; [lia|]. unfold elem_at in Hd; simpl in Hd. destruct j; discriminate. }
    intros ty0 [<-|[<-|[<-|[]]]].
    + eexists. reflexivity.
    + split; [apply Hb|apply Ha; auto].
    + split; [apply Hb|apply Ha]. intros q (d & d' & _ & H & _). eexists. exact H.
Qed.
Print Assumptions C05_unsupported_pseudo_classes_refuted.

(** ** C43: attribute selectors *)

Theorem C43_attribute_selectors_partial : forall t a e d pe,
  elem_at t e = Some d -> NoDup (map fst (d_attrs d)) ->
  qs_ns (as_name a) <> NsUniversal -> qs_name (as_name a) <> NameUniversal ->
  exists r, match_selector t (AttrSel a) e pe = Some r /\ (r <> None <-> attr_sem a (d_attrs d)).
Proof.
  intros t a e d pe Hd Hn H1 H2. unfold match_selector. cbn [msel]. rewrite Hd.
  pose proof (attr_matches_sem a (d_attrs d) Hn H1 H2) as H.
  destruct (attr_matches a (d_attrs d)); eexists; (split; [reflexivity|]).
  - split; [intros _; now apply H|discriminate].
  - split; [congruence|]. intros Hs. apply H in Hs. discriminate.
Qed.
Print Assumptions C43_attribute_selectors_partial.

Definition at_ (n : string) (ins : bool) (m : attr_match) (v : string) : attr_sel :=
  mkAttr (mkQS NsNull (NameExact (of_string n))) ins m (of_string v).

Example C43_example :
  match_selector (Elem (mkE (tag "p") [(mkQ None (of_string "lang"), of_string "EN-us")] []) [])
     (AttrSel (at_ "lang" true HYPHENATED "en")) [] None = Some (Some (mkSpec 0 1 0)) /\
  match_selector (Elem (mkE (tag "p") [(mkQ None (of_string "lang"), of_string "EN-us")] []) [])
     (AttrSel (at_ "lang" false HYPHENATED "en")) [] None = Some None.
Proof. vm_compute. auto. Qed.

(** [[*|x]] looks only at the first attribute with that local name. *)
Theorem C43_universal_namespace_refuted : exists t a e d,
  elem_at t e = Some d /\ NoDup (map fst (d_attrs d)) /\ attr_sem a (d_attrs d) /\
  match_selector t (AttrSel a) e None = Some None.
Proof.
  set (d := mkE (tag "p") [(mkQ None (of_string "href"), of_string "a");
                           (mkQ (Some (of_string "x")) (of_string "href"), of_string "b")] []).
  exists (Elem d []), (mkAttr (mkQS NsUniversal (NameExact (of_string "href"))) false EXACT (of_string "b")), [], d.
  split; [reflexivity|]. split.
  - repeat constructor; simpl; [|tauto]. intros [H|[]]. discriminate.
  - split; [|reflexivity]. exists (mkQ (Some (of_string "x")) (of_string "href")), (of_string "b").
    split; [right; left; reflexivity|]. split; [split; exact I || reflexivity|reflexivity].
Qed.
Print Assumptions C43_universal_namespace_refuted.

(** ** C44: specificity of a selector *)

Theorem C44_selector_specificity_partial : forall s, plain s = true -> spec s = css_spec s.
Proof. exact spec_plain. Qed.
Print Assumptions C44_selector_specificity_partial.

Example C44_example :
  plain (left_assoc ex_complex) = true /\ spec (left_assoc ex_complex) = mkSpec 0 2 4.
Proof. vm_compute. auto. Qed.

(** A pseudo-element adds nothing; [:not(a, .b)] adds up its arguments; [:nth-child(n of #a)]
    ignores [#a]. *)
Theorem C44_selector_specificity_refuted :
  (exists n, spec_cmp (spec (PseudoElemSel n)) (css_spec (PseudoElemSel n)) = Lt) /\
  (exists a b, spec_cmp (spec (Nfix NOT [a; b])) (css_spec (Nfix NOT [a; b])) = Gt) /\
  (exists s, spec_cmp (spec (PseudoClassAnBof NTH_CHILD (mkAnB 1 0) s))
                      (css_spec (PseudoClassAnBof NTH_CHILD (mkAnB 1 0) s)) = Lt).
Proof.
  split; [|split].
  - exists (of_string "before"). reflexivity.
  - exists (ty "a"), (ClassSel (of_string "b")). reflexivity.
  - exists (IdSel (of_string "a")). reflexivity.
Qed.
Print Assumptions C44_selector_specificity_refuted.

(** ** C45: rules for an element do not style its pseudo-elements *)

(** Every selector without a pseudo-element selector matches the pseudo-elements of whatever it
    matches. *)
Theorem C45_pseudo_element_isolation_refuted :
  (forall t s e pe, mentions_pe s = false -> msel t s e pe = msel t s e None) /\
  (exists t s e, mentions_pe s = false /\ is_elem t e /\
     match_selector t s e (Some (of_string "before")) <> Some None).
Proof.
  split.
  - intros t s e pe H. now apply msel_pe_irrelevant.
  - exists (el "p" []), (ty "p"), []. split; [reflexivity|]. split; [eexists; reflexivity|]. discriminate.
Qed.
Print Assumptions C45_pseudo_element_isolation_refuted.

(** What does hold: a selector ending in a compound that contains [::x] selects only the
    pseudo-element [x]. *)
Theorem C45_pseudo_element_selected_partial : forall t n l e pe,
  In (PseudoElemSel n) l -> msel t (Nfix AND l) e pe = Some true -> pe = Some n.
Proof.
  intros t n l e pe Hin H. simpl in H. destruct (elem_at t e) eqn:E; [|discriminate].
  induction l as [|x l IH]; [destruct Hin|]. simpl in H. destruct Hin as [->|Hin].
  - simpl in H. rewrite E in H. destruct (opt_eqb str_eqb pe (Some n)) eqn:Ep; [|discriminate].
    now apply opt_str_eqb in Ep.
  - destruct (msel t x e pe) as [[|]|]; try discriminate. apply IH; assumption.
Qed.
Print Assumptions C45_pseudo_element_selected_partial.

Example C45_example : msel ex_tree (Nfix AND [ty "html"; PseudoElemSel (of_string "before")]) []
                        (Some (of_string "before")) = Some true.
Proof. reflexivity. Qed.

(** ** C46: matching never crashes *)

(** Matching any selector whose positional pseudo-classes carry their argument, against any
    element of any tree, returns normally. Missing: positional pseudo-classes without one. *)
Theorem C46_matching_total_partial : forall t s e pe,
  has_args s = true -> match_selector t s e pe <> None.
Proof. intros t s e pe H. now apply match_selector_total. Qed.
Print Assumptions C46_matching_total_partial.

(** [:nth-child] without an argument aborts the process on any element. *)
Theorem C46_matching_total_refuted : forall t e pe, is_elem t e ->
  match_selector t (PseudoClass NTH_CHILD) e pe = None.
Proof. intros t e pe [d Hd]. unfold match_selector. simpl. now rewrite Hd. Qed.
Print Assumptions C46_matching_total_refuted.

Example C46_example :
  has_args (left_assoc ex_complex) = true /\ has_args (PseudoClass ROOT) = true /\
  has_args (Nfix NOT [PseudoClassAnB NTH_CHILD (mkAnB 2 1)]) = true.
Proof. repeat split. Qed.
