(** C140 namespaces, C141 from the sheets to the cascaded value, C142 attributes in the cascade,
    C143 table attributes. *)
From Coq Require Import Ascii String List NArith ZArith QArith Bool Arith Lia.
From Verif.Base Require Import Str Outcome.
From Verif.Css Require Import LexerModel LexerSpec LexerProps ParserModel.
From Verif.Values Require Import Number LengthModel CalcModel.
From Verif.Style Require Import CascadeModel CascadeSpec CascadeProofs SelectorModel SelectorSpec SelectorProofs IndexModel IndexSpec IndexProofs.
From Verif.Style Require Import SelectorParseModel SelectorParseSpec SelectorTree SelectorParseProofs SelectorParseProps.
From Verif.Style Require Import MediaModel MediaSpec MediaProofs MediaProps.
From Verif.Html Require SerialModel.
From Verif.Print Require PageModel PageProps.
From Verif.Sheet Require Import SheetModel SheetSpec SheetProofs SheetProps.
Import ListNotations.
Local Open Scope nat_scope.
Local Open Scope list_scope.

(** ** C140 *)

(** The last declaration of a prefix, or of the default namespace *)
Definition last_ns (l : list nsdecl) (p : option str) (u : str) : Prop :=
  exists l1 d l2, l = l1 ++ d :: l2 /\ nd_prefix d = p /\ uri_name (nd_uri d) = u /\ forall d', In d' l2 -> nd_prefix d' <> p.
Definition type_list (q : nsq) (name : str) : slist := Sl [] (Cx (KOne (SType q (Some name))) RNil) LNil None.
Definition one_rule (decls : list nsdecl) (q : nsq) (name : str) (body : list wdecl) : csheet :=
  mkSheet decls [CStyle (type_list q name) body].

Lemma lookup_app a b p : ns_lookup (a ++ b) p = match ns_lookup a p with Some u => Some u | None => ns_lookup b p end.
Proof. induction a as [|[k v] a IH]; cbn; [reflexivity|]. destruct (str_eqb k p); [reflexivity|exact IH]. Qed.
Lemma lookup_none a p : ns_lookup a p = None <-> ~ In p (map fst a).
Proof.
  induction a as [|[k v] a IH]; cbn; [tauto|]. destruct (str_eqb k p) eqn:E.
  - apply str_eqb_spec in E. split; [discriminate|tauto].
  - apply str_eqb_neq in E. tauto.
Qed.
Definition pairs (l : list nsdecl) : list (str * str) :=
  flat_map (fun d => match nd_prefix d with Some p => [(p, uri_name (nd_uri d))] | _ => [] end) l.
Definition defaults (l : list nsdecl) : list str := flat_map (fun d => match nd_prefix d with None => [uri_name (nd_uri d)] | _ => [] end) l.
Lemma pairs_in l p : In p (map fst (pairs l)) <-> exists d, In d l /\ nd_prefix d = Some p.
Proof.
  unfold pairs. rewrite in_map_iff. split.
  - intros ([k v] & <- & H). apply in_flat_map in H as (d & H1 & H2). exists d. split; [exact H1|].
    destruct (nd_prefix d); [|destruct H2]. destruct H2 as [[= -> _]|[]]. reflexivity.
  - intros (d & H1 & H2). exists (p, uri_name (nd_uri d)). split; [reflexivity|]. apply in_flat_map. exists d. rewrite H2. split; [exact H1|now left].
Qed.
Lemma prefix_last l p u : last_ns l (Some p) u -> ns_lookup (ns_prefixes (declared_ns l)) p = Some u.
Proof.
  intros (l1 & d & l2 & -> & H1 & H2 & H3). unfold declared_ns. cbn [ns_prefixes]. fold (pairs (l1 ++ d :: l2)).
  unfold pairs. rewrite flat_map_app. cbn [flat_map]. rewrite H1. cbn [app]. fold (pairs l1) (pairs l2).
  rewrite rev_app_distr. cbn [rev]. rewrite <- app_assoc, lookup_app.
  assert (E : ns_lookup (rev (pairs l2)) p = None).
  { apply lookup_none. rewrite map_rev, <- in_rev, pairs_in. intros (d' & A & B). now apply (H3 d'). }
  rewrite E. cbn. now rewrite str_eqb_refl, H2.
Qed.
Lemma default_last l u : last_ns l None u -> ns_default (declared_ns l) = u.
Proof.
  intros (l1 & d & l2 & -> & H1 & H2 & H3). unfold declared_ns. cbn [ns_default]. fold (defaults (l1 ++ d :: l2)).
  unfold defaults. rewrite flat_map_app. cbn [flat_map]. rewrite H1. cbn [app]. fold (defaults l1) (defaults l2).
  assert (E : defaults l2 = []).
  { clear -H3. induction l2 as [|x l IH]; [reflexivity|]. cbn. destruct (nd_prefix x) eqn:E; [|now destruct (H3 x (or_introl eq_refl))].
    apply IH. intros d' Hd. apply H3. now right. }
  rewrite E, last_last. exact H2.
Qed.

(** The elements that [q|name] selects. *)
Definition in_namespace (decls : list nsdecl) (q : nsq) (x : option str) : Prop :=
  match q with
  | QAny => True
  | QOmitted => exists u, last_ns decls None u /\ x = Some u
  | QPrefix p => exists u, last_ns decls (Some p) u /\ x = Some u
  end.

Lemma name_meaning decls q name x :
  match q with QAny => True | QOmitted => exists u, last_ns decls None u | QPrefix p => exists u, last_ns decls (Some p) u end ->
  name_sem (mkQS (nsq_pattern (declared_ns decls) (NsExact (ns_default (declared_ns decls))) q) (NameExact name)) x <->
  q_name x = name /\ in_namespace decls q (q_ns x).
Proof.
  intros H. unfold name_sem, in_namespace. cbn [qs_ns qs_name]. destruct q as [| |p]; cbn [nsq_pattern].
  - destruct H as (u & H). rewrite (default_last _ _ H). split; [intros (-> & ->); split; [reflexivity|now exists u]|].
    intros (-> & u' & H' & ->). rewrite <- (default_last _ _ H), <- (default_last _ _ H'). now split.
  - tauto.
  - destruct H as (u & H). rewrite (prefix_last _ _ _ H). split; [intros (-> & ->); split; [reflexivity|now exists u]|].
    intros (-> & u' & H' & ->). apply prefix_last in H. apply prefix_last in H'. split; congruence.
Qed.

(** Full statement: a type selector selects the elements of that name in the namespace of its
    prefix, or in the default namespace if there is one, or in any. Proved when there is a default
    namespace or the selector has a prefix. *)
Theorem C140_namespaces_partial : forall P (read_decl : str -> list sst -> bool -> option P) o decls q name body,
  match q with QAny => True | QOmitted => exists u, last_ns decls None u | QPrefix p => exists u, last_ns decls (Some p) u end ->
  exists N rules s props, (forall n, N <= n -> parse_sheet read_decl n o (show_sheet (one_rule decls q name body)) = Ok rules) /\
  (forall m, typed_media m -> flat_map (style_rules m) rules = [(s, (props, o))]) /\
  forall t e d, elem_at t e = Some d -> (sem t s e None <-> q_name (d_name d) = name /\ in_namespace decls q (q_ns (d_name d))).
Proof.
  intros P read_decl o decls q name body H.
  assert (Pk : prefix_ok (declared_ns decls) q).
  { destruct q; cbn; auto. destruct H as (u & H). exists u. now apply prefix_last. }
  assert (O : sheet_ok (one_rule decls q name body)) by (constructor; [cbn; tauto|constructor]).
  destruct (sheet_written read_decl o _ O) as (N & rs & E & M).
  exists N, rs, (m_slist (declared_ns decls) tree (type_list q name)), (props_of read_decl body). split; [exact E|]. split.
  - intros m T. destruct (M m T) as (out & A & F). inversion A as [|? ? ? ? A'| | | | | |]; subst. inversion A'; subst.
    cbn [sh_ns one_rule] in F. inversion F as [|? ? ? ? F1 F2 E1]; subst. inversion F2; subst. unfold reads_as in F1. rewrite F1. reflexivity.
  - intros t e d Hd. change (sem t (TypeSel (mkQS (nsq_pattern (declared_ns decls) (NsExact (ns_default (declared_ns decls))) q) (NameExact name))) e None
      <-> q_name (d_name d) = name /\ in_namespace decls q (q_ns (d_name d))).
    rewrite <- (name_meaning decls q name (d_name d) H). cbn [sem]. split; [|now exists d].
    intros (d' & Hd' & Hn). rewrite Hd in Hd'. injection Hd' as <-. exact Hn.
Qed.
Print Assumptions C140_namespaces_partial.
Definition ex_decls : list nsdecl :=
  [mkNsd 1 (Some (of_string "s")) 1 (UString (of_string "old")); mkNsd 1 None 0 (UUrl (of_string "d"));
   mkNsd 1 (Some (of_string "s")) 1 (UFunc 1 (of_string "new"))].
Example C140_example : last_ns ex_decls (Some (of_string "s")) (of_string "new") /\ last_ns ex_decls None (of_string "d").
Proof.
  split.
  - exists (firstn 2 ex_decls), (mkNsd 1 (Some (of_string "s")) 1 (UFunc 1 (of_string "new"))), []. repeat split. intros d [].
  - exists (firstn 1 ex_decls), (mkNsd 1 None 0 (UUrl (of_string "d"))), (skipn 2 ex_decls). repeat split. intros d [<-|[]]. discriminate.
Qed.

(** But without a default namespace a type selector selects HTML elements only; and a
    [@namespace] that comes too late, or in an [@media] that does not hold, takes effect. *)
Theorem C140_namespaces_refuted : forall P (read_decl : str -> list sst -> bool -> option P) o,
  (forall n name, 8 <= n -> exists s, parse_sheet read_decl n o [RULE None [id_tok name] []] = Ok [StyleRule s [] o] /\
     forall t e d, elem_at t e = Some d -> q_ns (d_name d) <> Some SerialModel.html_ns -> ~ sem t s e None) /\
  (forall n name u q, 8 <= n -> exists r s, parse_sheet read_decl n o
       [RULE None [id_tok name] []; RULE (at_tok "@media") (show_list [q]) [RULE (at_tok "@namespace") [show_uri (UString u)] []]; RULE None [id_tok name] []] =
       omap (fun x => r x ++ [StyleRule s [] o]) (parse_media_query n (show_list [q])) /\
     forall t e d, elem_at t e = Some d -> (sem t s e None <-> q_name (d_name d) = name /\ q_ns (d_name d) = Some u)).
Proof.
  intros P read_decl o. split.
  - intros n name L. do 8 (destruct n as [|n]; [lia|]). eexists. split; [reflexivity|].
    intros t e d Hd Hn (d' & Hd' & H1 & _). rewrite Hd in Hd'. injection Hd' as <-. now apply Hn.
  - intros n name u q L. do 8 (destruct n as [|n]; [lia|]).
    exists (fun x => [StyleRule (TypeSel (mkQS (NsExact SerialModel.html_ns) (NameExact name))) [] o; MediaRule x [NamespaceRule None u]]),
      (TypeSel (mkQS (NsExact u) (NameExact name))). split.
    + unfold parse_sheet. rewrite parse_rules_cons.
      change (parse_rule read_decl (S (S (S (S (S (S (S (S n)))))))) o (RULE None [id_tok name] []) no_namespaces) with
        (Ok (StyleRule (P:=P) (TypeSel (mkQS (NsExact SerialModel.html_ns) (NameExact name))) [] o, no_namespaces)).
      cbn [obind fst snd]. rewrite parse_rules_cons, parse_rule_media.
      destruct (parse_media_query _ (show_list [q])) as [x| |]; reflexivity.
    + intros t e d Hd. split.
      * intros (d' & Hd' & H1 & H2). rewrite Hd in Hd'. injection Hd' as <-. now split.
      * intros (H1 & H2). exists d. split; [exact Hd|]. split; assumption.
Qed.
Print Assumptions C140_namespaces_refuted.

(** ** C141 *)

Section Values.
Context {V : Type}.
Variable read_decl : str -> list sst -> bool -> option (property V).
Variable read_value : string -> str -> option (property V).
Variable read_attribute : str -> str -> option (property V).
Variable read_inline : str -> list (property V).

Lemma get_own attrs n : get_attribute attrs n =
  option_map snd (find (fun a => match q_ns (fst a) with None => str_eqb (q_name (fst a)) (of_string n) | Some _ => false end) attrs).
Proof.
  induction attrs as [|[q v] r IH]; [reflexivity|]. cbn [get_attribute find fst]. destruct (q_ns q); cbn [opt_eqb andb]; [exact IH|].
  destruct (str_eqb (q_name q) (of_string n)); [reflexivity|exact IH].
Qed.
Lemma get_style attrs : match get_unqualified attrs "style" with Some s => s | None => [] end =
  match find (fun a => str_eqb (q_name (fst a)) (of_string "style")) attrs with Some a => snd a | None => [] end.
Proof.
  induction attrs as [|[q v] r IH]; [reflexivity|]. cbn [get_unqualified find fst]. destruct (str_eqb (q_name q) (of_string "style")); [reflexivity|exact IH].
Qed.
Lemma hint_own d a p (u : string) : hint read_value (d_attrs d) a p (of_string u) =
  flat_map (fun v => the (read_value p (v ++ of_string u))) (the (own_attr d a)).
Proof.
  unfold hint, own_attr. rewrite get_own. destruct (option_map _ _) as [v|]; cbn [the flat_map]; [|reflexivity].
  destruct (read_value p (v ++ of_string u)); reflexivity.
Qed.
Lemma gather_attributes m sheets t p d parent pe : gather read_value read_attribute read_inline m sheets t p d parent pe =
  option_map (fun out => from_rules (all_style_rules m sheets) out ++ attribute_input read_value read_attribute read_inline d parent pe)
    (index_match (build (map fst (all_style_rules m sheets))) t p pe).
Proof.
  unfold gather, attribute_input. destruct (index_match _ _ _ _) as [out|]; [|reflexivity]. cbn [option_map]. destruct pe; [reflexivity|].
  unfold html_hints, inline_style, svg_hints. rewrite get_style. fold (style_attribute d). unfold legacy_hints, legacy_attributes. cbn [flat_map].
  rewrite <- !hint_own. rewrite !app_nil_r. do 5 f_equal.
  destruct (opt_eqb str_eqb (q_ns (d_name d)) (Some SerialModel.svg_ns)); [|reflexivity]. unfold presentation. f_equal.
  destruct (str_eqb (q_name (d_name d)) (of_string "svg")); [|reflexivity]. unfold svg_sizing. destruct parent as [ns|]; [|reflexivity].
  change (own_attr d "viewBox") with (option_map snd (find (fun a => match q_ns (fst a) with None => str_eqb (q_name (fst a)) (of_string "viewBox") | Some _ => false end) (d_attrs d))).
  rewrite <- get_own. destruct (opt_eqb str_eqb ns (Some SerialModel.svg_ns)); [now destruct (get_attribute (d_attrs d) "viewBox")|].
  destruct (get_attribute (d_attrs d) "viewBox"); [reflexivity|]. unfold svg_defaults, own_attr. cbn [flat_map fst snd]. rewrite <- !get_own, app_nil_r.
  destruct (get_attribute (d_attrs d) "width"), (get_attribute (d_attrs d) "height"), (read_value "width" (of_string "300px")), (read_value "height" (of_string "150px")); reflexivity.
Qed.

Lemma sheets_written sheets : Forall (fun os => sheet_ok (snd os)) sheets ->
  exists N parsed, (forall n, N <= n -> Forall2 (fun rs os => parse_sheet read_decl n (fst os) (show_sheet (snd os)) = Ok rs) parsed sheets) /\
  Forall2 (fun rs os => means read_decl (declared_ns (sh_ns (snd os))) (fst os) (sh_rules (snd os)) rs) parsed sheets.
Proof.
  induction 1 as [|[o s] sheets O _ IH]; [exists 0, []; split; constructor|]. destruct IH as (N & parsed & E & M).
  destruct (sheet_written read_decl o s O) as (N1 & rs & E1 & M1). exists (N + N1), (rs :: parsed). split.
  - intros n L. constructor; [apply E1; lia|apply E; lia].
  - now constructor.
Qed.

(** Full statement: the value of each property is the one of the strongest declaration among
    those of the style rules whose selector selects the element, in the sheets' media that hold, and those of its
    attributes. Proved for sheets in the covered syntax, with one complex selector in each rule. *)
Theorem C141_cascaded_value_partial : forall lh m sheets t e d parent pe,
  typed_media m -> registry_ok lh ->
  (forall n c i p, read_decl n c i = Some p -> registered lh p) ->
  (forall n v p, read_value n v = Some p -> registered lh p) -> (forall n v p, read_attribute n v = Some p -> registered lh p) ->
  (forall s p, In p (read_inline s) -> registered lh p) ->
  Forall (fun os => sheet_ok (snd os)) sheets ->
  elem_at t e = Some d -> plain_element d -> attrs_unique t ->
  (forall A, applies_all m sheets A -> Forall (rule_good t) A) ->
  exists N parsed all A ds,
    (forall n, N <= n -> Forall2 (fun rs os => parse_sheet read_decl n (fst os) (show_sheet (snd os)) = Ok rs) parsed sheets) /\
    gather read_value read_attribute read_inline m parsed t e d parent pe = Some all /\
    applies_all m sheets A /\ sheet_input read_decl t e pe A ds /\
    forall n v, (exists x, lookup (c_entries (cascade all)) n = Some x /\ e_value x = v) <->
      wins (all_longhands (ds ++ attribute_input read_value read_attribute read_inline d parent pe)) n v.
Proof.
  intros lh m sheets t e d parent pe Tm Rg Rd Rv Ra Ri Ok Hd Pd At G. destruct (sheets_written _ Ok) as (N & parsed & E & M).
  destruct (all_written read_decl m parsed sheets M Tm) as (A & HA & W).
  destruct (end_to_end read_decl lh t e d pe _ A (attribute_input read_value read_attribute read_inline d parent pe) Rg Rd Hd Pd At W (G A HA)) as (out & H1 & ds & H2 & H3).
  { assert (Rt : forall A0 (f : A0 -> list (property V)) l q, In q (flat_map f l) -> (forall x q, In q (f x) -> registered lh q) -> registered lh q).
    { intros A0 f l q Hq Hf. apply in_flat_map in Hq as (x & _ & Hx). eauto. }
    assert (Rth : forall n v q, In q (the (read_value n v)) -> registered lh q).
    { intros n v q. destruct (read_value n v) eqn:Ev; [|intros []]. intros [<-|[]]. eauto. }
    intros p o s. unfold attribute_input. destruct pe; [intros []|]. rewrite !in_app_iff, !in_map_iff.
    intros [(q & [= <- <- <-] & Hq)|[(q & [= <- <- <-] & Hq)|(q & [= <- <- <-] & Hq)]].
    - destruct (opt_eqb _ _ _); [|destruct Hq]. unfold legacy_hints in Hq. eapply Rt; [exact Hq|]. intros [[a b] c] q' Hq'.
      eapply Rt; [exact Hq'|]. intros v q'' Hq''. eauto.
    - eauto.
    - destruct (opt_eqb _ _ _); [|destruct Hq]. unfold presentation in Hq. apply in_app_or in Hq as [Hq|Hq].
      + eapply Rt; [exact Hq|]. intros x q' Hq'. cbv beta in Hq'. destruct (read_attribute _ _) eqn:Ev; [|destruct Hq']. destruct Hq' as [<-|[]]. eauto.
      + destruct (str_eqb _ _); [|destruct Hq]. destruct parent as [ns|]; [|destruct Hq]. destruct (own_attr d "viewBox"); [destruct Hq|].
        destruct (opt_eqb _ _ _); [destruct Hq|]. unfold svg_defaults in Hq. eapply Rt; [exact Hq|]. intros x q' Hq'. cbv beta in Hq'.
        destruct (own_attr d (fst x)); [destruct Hq'|eauto]. }
  eexists N, parsed, _, A, ds. split; [exact E|]. split; [rewrite gather_attributes, H1; reflexivity|]. split; [exact HA|]. split; [exact H2|]. exact H3.
Qed.

(** ** C142 *)

Lemma weaker_key x y : weaker x y <->
  Nat.b2n (w_important x) < Nat.b2n (w_important y) \/
  Nat.b2n (w_important x) = Nat.b2n (w_important y) /\
  (origin_rank (w_origin x) < origin_rank (w_origin y) \/
   origin_rank (w_origin x) = origin_rank (w_origin y) /\ spec_lt (w_spec x) (w_spec y)).
Proof.
  rewrite weaker_rank. assert (Q : w_origin x = w_origin y <-> origin_rank (w_origin x) = origin_rank (w_origin y)).
  { split; [congruence|]. destruct (w_origin x), (w_origin y); cbn; congruence. }
  rewrite Q. destruct (w_important x), (w_important y); cbn [Nat.b2n]; intuition (try discriminate; lia).
Qed.
Lemma weaker_not x y w : weaker x y -> ~ weaker w y -> weaker x w.
Proof. rewrite !weaker_key. unfold spec_lt. lia. Qed.
Lemma weaker_asym x y : weaker x y -> ~ weaker y x.
Proof. rewrite !weaker_key. unfold spec_lt. lia. Qed.

Lemma split_cases {A} (a b l1 l2 : list A) x y : a ++ x :: b = l1 ++ y :: l2 ->
  (exists l, a = l1 ++ y :: l /\ l2 = l ++ x :: b) \/ (l1 = a /\ x = y /\ b = l2) \/ (exists l, l1 = a ++ x :: l /\ b = l ++ y :: l2).
Proof.
  revert l1. induction a as [|z a IH]; intros [|z' l1] E; cbn in E; injection E as E1 E2.
  - right. left. now repeat split.
  - right. right. exists l1. subst. now split.
  - left. exists a. subst. now split.
  - destruct (IH l1 E2) as [(l & A1 & B)|[(A1 & B & C)|(l & A1 & B)]].
    + left. exists l. subst. now split.
    + right. left. subst. now repeat split.
    + right. right. exists l. subst. now split.
Qed.
Lemma split_cases2 {A} (a b l1 l2 : list A) y : a ++ b = l1 ++ y :: l2 ->
  (exists l, a = l1 ++ y :: l /\ l2 = l ++ b) \/ (exists l, l1 = a ++ l /\ b = l ++ y :: l2).
Proof.
  revert l1. induction a as [|z a IH]; intros l1 E; [right; exists l1; now split|]. destruct l1 as [|z' l1]; cbn in E; injection E as E1 E2.
  - left. exists a. subst. now split.
  - destruct (IH l1 E2) as [(l & A1 & B)|(l & A1 & B)]; [left|right]; exists l; subst; now split.
Qed.

(** Something weaker than another declaration of the same property does not matter. *)
Lemma wins_drop (a b : list (str * (weight * V))) k w0 v0 n v :
  (k = n -> exists w u, In (n, (w, u)) (a ++ b) /\ weaker w0 w) ->
  (wins (a ++ (k, (w0, v0)) :: b) n v <-> wins (a ++ b) n v).
Proof.
  intros H. split.
  - intros (l1 & w & l2 & E & H1 & H2).
    pose proof (split_cases _ _ _ _ _ _ E) as X.
    destruct X as [(l & -> & ->)|[(-> & X & ->)|(l & -> & ->)]].
    + exists l1, w, (l ++ b). split; [now rewrite <- app_assoc|]. split; [exact H1|]. intros w' v' Hi. apply (H2 w' v').
      apply in_app_or in Hi as [Hi|Hi]; apply in_or_app; [now left|right; now right].
    + injection X as -> -> ->. destruct (H eq_refl) as (w' & u & Hi & Hw). apply in_app_or in Hi as [Hi|Hi].
      * now destruct (H1 w' u Hi).
      * destruct (weaker_asym _ _ Hw). eauto.
    + exists (a ++ l), w, l2. split; [now rewrite <- app_assoc|]. split; [|exact H2]. intros w' v' Hi. apply (H1 w' v').
      apply in_app_or in Hi as [Hi|Hi]; apply in_or_app; [now left|right; now right].
  - intros (l1 & w & l2 & E & H1 & H2).
    assert (Hx : k = n -> weaker w0 w).
    { intros Ek. destruct (H Ek) as (w' & u & Hi & Hw). rewrite E in Hi. apply in_app_or in Hi as [Hi|[Hi|Hi]].
      - exact (weaker_not _ _ _ Hw (H1 w' u Hi)).
      - injection Hi as <- _. exact Hw.
      - exact (weaker_trans _ _ _ Hw (H2 w' u Hi)). }
    pose proof (split_cases2 _ _ _ _ _ E) as X.
    destruct X as [(l & -> & ->)|(l & -> & ->)].
    + exists l1, w, (l ++ (k, (w0, v0)) :: b). split; [now rewrite <- app_assoc|]. split; [exact H1|]. intros w' v' Hi.
      apply in_app_or in Hi as [Hi|[Hi|Hi]]; [apply (H2 w' v'), in_or_app; now left| |apply (H2 w' v'), in_or_app; now right].
      injection Hi as Ek <- _. now apply Hx.
    + exists (a ++ (k, (w0, v0)) :: l), w, l2. split; [now rewrite <- app_assoc|]. split; [|exact H2]. intros w' v' Hi.
      apply in_app_or in Hi as [Hi|[Hi|Hi]]; [apply (H1 w' v'), in_or_app; now left| |apply (H1 w' v'), in_or_app; now right].
      injection Hi as Ek <- _. apply weaker_asym. now apply Hx.
Qed.
Lemma wins_drop_all n v (keep : str * (weight * V) -> bool) : forall b a,
  (exists w u, In (n, (w, u)) (a ++ b) /\ (In (n, (w, u)) a \/ keep (n, (w, u)) = true) /\
     forall w' u', In (n, (w', u')) b -> keep (n, (w', u')) = false -> weaker w' w) ->
  (wins (a ++ b) n v <-> wins (a ++ filter keep b) n v).
Proof.
  induction b as [|[k [w0 v0]] b IH]; intros a (w & u & Hi & Hk & Hw); [reflexivity|]. cbn [filter]. destruct (keep (k, (w0, v0))) eqn:Ek.
  - change (a ++ (k, (w0, v0)) :: b) with (a ++ [(k, (w0, v0))] ++ b). change (a ++ (k, (w0, v0)) :: filter keep b) with (a ++ [(k, (w0, v0))] ++ filter keep b).
    rewrite !app_assoc. apply IH. exists w, u. split; [|split].
    + rewrite <- app_assoc. exact Hi.
    + destruct Hk as [Hk|Hk]; [left; apply in_or_app; now left|now right].
    + intros w' u' Hb. apply Hw. now right.
  - assert (Hi' : In (n, (w, u)) (a ++ b)).
    { apply in_app_or in Hi as [Hi|[Hi|Hi]]; [apply in_or_app; now left| |apply in_or_app; now right].
      destruct Hk as [Hk|Hk]; [apply in_or_app; now left|congruence]. }
    rewrite wins_drop.
    + apply IH. exists w, u. split; [exact Hi'|]. split; [exact Hk|]. intros w' u' Hb. apply Hw. now right.
    + intros Kn. subst k. exists w, u. split; [exact Hi'|]. apply (Hw w0 v0); [now left|exact Ek].
Qed.

Definition no_hint (x : property V * origin * specificity) : bool := match snd (fst x) with AUTHOR_PRESENTATIONAL_HINT => false | _ => true end.
Lemma longhands_filter all : filter (fun x : str * (weight * V) => match w_origin (fst (snd x)) with AUTHOR_PRESENTATIONAL_HINT => false | _ => true end) (all_longhands all) =
  all_longhands (filter no_hint all).
Proof.
  induction all as [|[[p o] s] all IH]; [reflexivity|]. unfold all_longhands. cbn [flat_map filter]. fold (all_longhands all).
  rewrite filter_app, IH.
  assert (E : filter (fun x : str * (weight * V) => match w_origin (fst (snd x)) with AUTHOR_PRESENTATIONAL_HINT => false | _ => true end) (longhands_of (p, o, s)) =
              if no_hint (p, o, s) then longhands_of (p, o, s) else []).
  { unfold longhands_of, no_hint. cbn [fst snd]. destruct (p_bogus p); [now destruct o|]. destruct (p_expansion p) as [l|]; [|now destruct o].
    induction l as [|x l IHl]; [now destruct o|]. cbn [map filter fst snd w_origin]. rewrite IHl. destruct o; reflexivity. }
  rewrite E. destruct (no_hint (p, o, s)); reflexivity.
Qed.

(** Presentational hints do not matter for a property that an author rule or the [style]
    attribute declares: the value is the one without the hints. *)
Theorem C142_hints_are_weak : forall m sheets t e d parent pe all n w u,
  (forall n v p, read_value n v = Some p -> p_important p = false) -> (forall n v p, read_attribute n v = Some p -> p_important p = false) ->
  (forall s b, In (s, b) (all_style_rules m sheets) -> snd b <> AUTHOR_PRESENTATIONAL_HINT) ->
  gather read_value read_attribute read_inline m sheets t e d parent pe = Some all -> well_formed all ->
  In (n, (w, u)) (all_longhands all) -> w_origin w = AUTHOR \/ w_origin w = INLINE ->
  forall v, (exists x, lookup (c_entries (cascade all)) n = Some x /\ e_value x = v) <->
            (exists x, lookup (c_entries (cascade (filter no_hint all))) n = Some x /\ e_value x = v).
Proof.
  intros m sheets t e d parent pe all n w u Rv Ra Ro G W Hi Ho v.
  rewrite (cascade_winner all W n v). rewrite (cascade_winner (filter no_hint all)).
  2:{ destruct W as (lh & W1 & W2 & W3). exists lh. split; [|now split]. intros p o s Hp. apply filter_In in Hp as (Hp & _). eauto. }
  rewrite <- longhands_filter. apply (wins_drop_all n v _ (all_longhands all) []). exists w, u. split; [exact Hi|]. split.
  - right. cbn. destruct Ho as [->| ->]; reflexivity.
  - intros w' u' Hb Hk. cbn in Hk.
    assert (Hh : w_origin w' = AUTHOR_PRESENTATIONAL_HINT) by (destruct (w_origin w'); congruence).
    assert (Hm : w_important w' = false).
    { unfold all_longhands in Hb. apply in_flat_map in Hb as ([[p o] s] & Hp & Hl).
      assert (X : w' = mkWeight (p_important p) o s).
      { unfold longhands_of in Hl. destruct (p_bogus p); [destruct Hl|]. destruct (p_expansion p) as [l|].
        - apply in_map_iff in Hl as (z & [= _ <- _] & _). reflexivity.
        - destruct Hl as [[= _ <- _]|[]]. reflexivity. }
      rewrite X in *. cbn in *. rewrite gather_attributes in G. destruct (index_match _ _ _ _) as [out|]; [|discriminate]. injection G as <-.
      apply in_app_or in Hp as [Hp|Hp].
      - unfold from_rules in Hp. apply in_flat_map in Hp as (es & _ & Hp). destruct (nth_error _ _) as [[s' [ps o']]|] eqn:En; [|destruct Hp].
        apply in_map_iff in Hp as (q & [= _ <- _] & _). apply nth_error_In in En. now apply Ro in En.
      - assert (Rt : forall A0 (f : A0 -> list (property V)) l q, In q (flat_map f l) -> (forall x q, In q (f x) -> p_important q = false) -> p_important q = false).
        { intros A0 f l q Hq Hf. apply in_flat_map in Hq as (x & _ & Hx). eauto. }
        assert (Rth : forall n v q, In q (the (read_value n v)) -> p_important q = false).
        { intros n1 v1 q. destruct (read_value n1 v1) eqn:Ev; [|intros []]. intros [<-|[]]. eauto. }
        unfold attribute_input in Hp. destruct pe; [destruct Hp|]. rewrite !in_app_iff, !in_map_iff in Hp.
        destruct Hp as [(q & E & Hq)|[(q & E & Hq)|(q & E & Hq)]].
        + injection E as <- _ _. destruct (opt_eqb _ _ _); [|destruct Hq]. unfold legacy_hints in Hq. eapply Rt; [exact Hq|]. intros [[a b] c] q' Hq'.
          eapply Rt; [exact Hq'|]. intros v1 q'' Hq''. eauto.
        + injection E as _ E _. congruence.
        + injection E as <- _ _. destruct (opt_eqb _ _ _); [|destruct Hq]. unfold presentation in Hq. apply in_app_or in Hq as [Hq|Hq].
          * eapply Rt; [exact Hq|]. intros x q' Hq'. cbv beta in Hq'. destruct (read_attribute _ _) eqn:Ev; [|destruct Hq']. destruct Hq' as [<-|[]]. eauto.
          * destruct (str_eqb _ _); [|destruct Hq]. destruct parent as [ns|]; [|destruct Hq]. destruct (own_attr d "viewBox"); [destruct Hq|].
            destruct (opt_eqb _ _ _); [destruct Hq|]. unfold svg_defaults in Hq. eapply Rt; [exact Hq|]. intros x q' Hq'. cbv beta in Hq'.
            destruct (own_attr d (fst x)); [destruct Hq'|eauto]. }
    apply weaker_key. rewrite Hm, Hh. destruct Ho as [-> | ->]; destruct (w_important w); cbn; lia.
Qed.

(** The [style] attribute wins over the style rules: the last normal declaration of a property in it is
    its value if none is important; the last important one always. *)
Theorem C142_style_attribute_wins : forall m sheets t e d parent all n v l1 p l2,
  (forall s b, In (s, b) (all_style_rules m sheets) -> snd b <> INLINE) ->
  gather read_value read_attribute read_inline m sheets t e d parent None = Some all -> well_formed all ->
  read_inline (style_attribute d) = l1 ++ p :: l2 -> p_bogus p = false -> p_expansion p = None -> p_name p = n -> p_value p = v ->
  (forall q w u, In q l2 -> In (n, (w, u)) (longhands_of (q, INLINE, spec_zero)) -> p_important q = false /\ p_important p = true) ->
  (p_important p = true \/ forall w u, In (n, (w, u)) (all_longhands all) -> w_important w = false) ->
  exists x, lookup (c_entries (cascade all)) n = Some x /\ e_value x = v.
Proof.
  intros m sheets t e d parent all n v l1 p l2 Ro G W Hs Bp Ep Np Vp H2 Hm. apply (cascade_winner all W n v).
  rewrite gather_attributes in G. destruct (index_match _ _ _ _) as [out|]; [|discriminate]. cbn [option_map] in G. injection G as <-.
  unfold attribute_input in *. rewrite Hs in *. rewrite map_app in *. cbn [map] in *.
  set (HT := map _ (if opt_eqb str_eqb (q_ns (d_name d)) (Some SerialModel.html_ns) then _ else _)) in *.
  set (SV := map _ (if opt_eqb str_eqb (q_ns (d_name d)) (Some SerialModel.svg_ns) then _ else _)) in *.
  set (FR := from_rules _ out) in *. set (L1 := map _ l1) in *. set (L2 := map _ l2) in *.
  assert (EQ : all_longhands (FR ++ HT ++ (L1 ++ (p, INLINE, spec_zero) :: L2) ++ SV) =
               all_longhands (FR ++ HT ++ L1) ++ (n, (mkWeight (p_important p) INLINE spec_zero, v)) :: all_longhands (L2 ++ SV)).
  { rewrite <- app_assoc. rewrite (app_assoc HT L1), (app_assoc FR (HT ++ L1)). unfold all_longhands at 1. rewrite flat_map_app. f_equal.
    cbn [app flat_map]. unfold longhands_of at 1. rewrite Bp, Ep, Np, Vp. reflexivity. }
  rewrite EQ in Hm |- *. exists (all_longhands (FR ++ HT ++ L1)), (mkWeight (p_important p) INLINE spec_zero), (all_longhands (L2 ++ SV)).
  split; [reflexivity|].
  assert (Ow : forall (X : list (property V * origin * specificity)) w u, In (n, (w, u)) (all_longhands X) -> exists q o s, In (q, o, s) X /\ w = mkWeight (p_important q) o s /\ In (n, (w, u)) (longhands_of (q, o, s))).
  { intros X w u Hi. apply in_flat_map in Hi as ([[q o] s] & Hq & Hl). exists q, o, s. split; [exact Hq|]. split; [|exact Hl].
    unfold longhands_of in Hl. destruct (p_bogus q); [destruct Hl|]. destruct (p_expansion q) as [l|].
    - apply in_map_iff in Hl as (z & [= _ <- _] & _). reflexivity.
    - destruct Hl as [[= _ <- _]|[]]. reflexivity. }
  assert (Im : forall w u, In (n, (w, u)) (all_longhands (FR ++ HT ++ L1)) \/ In (n, (w, u)) (all_longhands (L2 ++ SV)) -> w_important w = true -> p_important p = true).
  { intros w u Hi Hw. destruct Hm as [Hm|Hm]; [exact Hm|]. rewrite (Hm w u) in Hw; [discriminate|]. apply in_or_app. destruct Hi; [now left|right; now right]. }
  split; intros w u Hi.
  - pose proof (Im w u (or_introl Hi)) as Hw. destruct (Ow _ _ _ Hi) as (q & o & s & Hq & -> & _). cbn in Hw. rewrite weaker_key. cbn [w_important w_origin w_spec].
    rewrite !in_app_iff in Hq. destruct Hq as [Hq|[Hq|Hq]].
    + unfold FR, from_rules in Hq. apply in_flat_map in Hq as (es & _ & Hq). destruct (nth_error _ _) as [[s' [ps o']]|] eqn:En; [|destruct Hq].
      apply in_map_iff in Hq as (z & [= _ <- _] & _). apply nth_error_In in En. apply Ro in En. cbn in En.
      destruct (p_important q), (p_important p); try (specialize (Hw eq_refl); discriminate); destruct o'; cbn; try lia; congruence.
    + unfold HT in Hq. apply in_map_iff in Hq as (z & [= _ <- <-] & _).
      destruct (p_important q), (p_important p); try (specialize (Hw eq_refl); discriminate); cbn; lia.
    + unfold L1 in Hq. apply in_map_iff in Hq as (z & [= _ <- <-] & _). unfold spec_lt.
      destruct (p_important q), (p_important p); try (specialize (Hw eq_refl); discriminate); cbn; lia.
  - pose proof (Im w u (or_intror Hi)) as Hw. destruct (Ow _ _ _ Hi) as (q & o & s & Hq & -> & Hl). cbn in Hw. rewrite weaker_key. cbn [w_important w_origin w_spec].
    apply in_app_or in Hq as [Hq|Hq].
    + unfold L2 in Hq. apply in_map_iff in Hq as (z & [= -> <- <-] & Hz). destruct (H2 _ _ _ Hz Hl) as (-> & ->). cbn. lia.
    + unfold SV in Hq. apply in_map_iff in Hq as (z & [= _ <- <-] & _).
      destruct (p_important q), (p_important p); try (specialize (Hw eq_refl); discriminate); cbn; lia.
Qed.
End Values.
Print Assumptions C141_cascaded_value_partial.
Print Assumptions C142_hints_are_weak.
Print Assumptions C142_style_attribute_wins.

(** But the [align] attribute wins over every declaration of [text-align]; and [size] sets the width
    of every HTML element, also where HTML gives it another meaning. *)
Theorem C142_hints_are_weak_refuted :
  (forall attrs v css css', get_attribute attrs "align" = Some v -> In v (map of_string ["left"; "right"; "center"; "justify"]%string) ->
     align_attr attrs css = align_attr attrs css') /\
  (forall V (read_value : string -> str -> option (property V)) read_attribute read_inline name v parent,
     (forall a b, In (a, b) (attribute_input read_value read_attribute read_inline (mkE (mkQ (Some SerialModel.html_ns) name) [(mkQ None (of_string "size"), v)] []) parent None) <->
        (exists p, read_value "width"%string (v ++ of_string "ch") = Some p /\ (a, b) = (p, AUTHOR_PRESENTATIONAL_HINT, spec_zero)) \/
        (exists p, In p (read_inline []) /\ (a, b) = (p, INLINE, spec_zero)))).
Proof.
  split.
  - intros attrs v css css' H Hv. unfold align_attr. rewrite H. destruct Hv as [<-|[<-|[<-|[<-|[]]]]]; reflexivity.
  - intros V read_value read_attribute read_inline name v parent a b.
    assert (E : attribute_input read_value read_attribute read_inline (mkE (mkQ (Some SerialModel.html_ns) name) [(mkQ None (of_string "size"), v)] []) parent None =
      map (fun p => (p, AUTHOR_PRESENTATIONAL_HINT, spec_zero)) ((the (read_value "width"%string (v ++ of_string "ch")) ++ []) ++ []) ++
      map (fun p => (p, INLINE, spec_zero)) (read_inline []) ++ []) by reflexivity.
    rewrite E, !app_nil_r, in_app_iff, !in_map_iff. split.
    + intros [(p & Ep & Hp)|(p & Ep & Hp)]; [left|right]; exists p; [|now split].
      destruct (read_value _ _) as [q|]; [|destruct Hp]. destruct Hp as [->|[]]. now split.
    + intros [(p & Hp & ->)|(p & Hp & ->)]; [left|right]; exists p; [|now split]. rewrite Hp. split; [reflexivity|now left].
Qed.
Print Assumptions C142_hints_are_weak_refuted.

(** ** C143 *)

Lemma digits_of ds : digits_ok ds -> LexerSpec.digits (show_digits ds).
Proof.
  intros (N & F). split.
  - destruct ds; [contradiction|discriminate].
  - unfold show_digits. apply Forall_map. eapply Forall_impl; [|exact F]. intros d Hd. unfold digit_ok in Hd. unfold show_digit, is_digit.
    apply andb_true_intro. split; apply N.leb_le; lia.
Qed.
Lemma attr_integer_show rb neg ds : digits_ok ds -> attr_integer rb (show_integer neg ds) = integer_value neg ds.
Proof.
  intros D. unfold attr_integer.
  assert (T : tokens rb (LexerSpec.source [LexerSpec.WNum (show_integer neg ds)]) = Some [mkT NUMBER (show_integer neg ds)]).
  { apply C47_tokens_as_written_partial; [|now constructor]. constructor; [|constructor].
    exists (if neg then [45%N] else []), (show_digits ds), []. split; [unfold show_integer, show_decimal; destruct neg; cbn; now rewrite ?app_nil_r|].
    split; [destruct neg; auto|]. split; [left; now apply digits_of|now left]. }
  change (LexerSpec.source [LexerSpec.WNum (show_integer neg ds)]) with (show_integer neg ds ++ []) in T. rewrite app_nil_r in T. rewrite T.
  assert (A : atoi (show_integer neg ds) = Some (integer_value neg ds, [])).
  { rewrite <- (app_nil_r (show_integer neg ds)). now apply atoi_show. }
  cbn -[atoi show_integer]. rewrite A. reflexivity.
Qed.

(** Full statement (HTML 4.9.11): [colspan] and [span] are at least 1 and at most 1000, [rowspan] at most 65534,
    and a value that is no number counts as 1. Proved for the numbers below. *)
Theorem C143_spans_partial : forall rb attrs n s ds old, digits_ok ds -> get_attribute attrs n = Some (show_integer s ds) ->
  ((1 <= integer_value s ds <= 1000)%Z -> span_attr rb attrs n old = integer_value s ds) /\
  ((integer_value s ds < 1)%Z -> span_attr rb attrs n old = 1%Z) /\
  (n = "rowspan"%string -> (0 <= integer_value s ds <= 65534)%Z -> rowspan_attr rb attrs old = integer_value s ds) /\
  (n = "rowspan"%string -> (65534 < integer_value s ds)%Z -> rowspan_attr rb attrs old = 65534%Z).
Proof.
  intros rb attrs n s ds old D G. unfold span_attr, rowspan_attr. rewrite G, attr_integer_show by exact D.
  destruct (Z.leb_spec (integer_value s ds) 0), (Z.ltb_spec 1000 (integer_value s ds)); cbn [orb];
    (split; [lia|split; [lia|split; intros -> L; rewrite G, attr_integer_show by exact D]]);
    destruct (Z.ltb_spec (integer_value s ds) 0); cbv zeta;
    repeat match goal with |- context [Z.ltb ?a ?b] => destruct (Z.ltb_spec a b) end; lia.
Qed.
Print Assumptions C143_spans_partial.
Example C143_example : digits_ok [1; 2]%Z /\ span_attr true [(mkQ None (of_string "colspan"), of_string "12")] "colspan" 1 = 12%Z /\
  of_string "12" = show_integer false [1; 2]%Z.
Proof. split; [split; [discriminate|repeat constructor; unfold digit_ok; cbn; lia]|]. split; reflexivity. Qed.

(** The value never leaves the range, whatever the attribute. *)
Theorem C143_range : forall rb attrs n old,
  ((1 <= old <= 1000)%Z -> (1 <= span_attr rb attrs n old <= 1000)%Z) /\ ((0 <= old <= 65534)%Z -> (0 <= rowspan_attr rb attrs old <= 65534)%Z).
Proof.
  intros rb attrs n old. unfold span_attr, rowspan_attr. split; intros H.
  - destruct (get_attribute attrs n) as [s|]; [|exact H]. destruct (Z.leb_spec (attr_integer rb s) 0), (Z.ltb_spec 1000 (attr_integer rb s)); cbn [orb]; lia.
  - destruct (get_attribute attrs "rowspan") as [s|]; [|exact H]. cbv zeta.
    destruct (Z.ltb_spec (attr_integer rb s) 0); repeat match goal with |- context [Z.ltb ?a ?b] => destruct (Z.ltb_spec a b) end; lia.
Qed.
Print Assumptions C143_range.

(** But a [colspan] above 1000 counts as 1, not as 1000; a negative [rowspan], or one that is no
    number, counts as 0 (to the end of the row group), not as 1. *)
Theorem C143_spans_refuted :
  (forall rb attrs n s ds old, digits_ok ds -> get_attribute attrs n = Some (show_integer s ds) -> (1000 < integer_value s ds)%Z -> span_attr rb attrs n old = 1%Z) /\
  (forall rb attrs s ds old, digits_ok ds -> get_attribute attrs "rowspan" = Some (show_integer s ds) -> (integer_value s ds < 0)%Z -> rowspan_attr rb attrs old = 0%Z) /\
  (forall old, rowspan_attr true [(mkQ None (of_string "rowspan"), of_string "two")] old = 0%Z /\ rowspan_attr true [(mkQ None (of_string "rowspan"), of_string "2x")] old = 0%Z).
Proof.
  split; [|split].
  - intros rb attrs n s ds old D G L. unfold span_attr. rewrite G, attr_integer_show by exact D.
    destruct (Z.leb_spec (integer_value s ds) 0); [lia|]. destruct (Z.ltb_spec 1000 (integer_value s ds)); [reflexivity|lia].
  - intros rb attrs s ds old D G L. unfold rowspan_attr. rewrite G, attr_integer_show by exact D. cbv zeta.
    destruct (Z.ltb_spec (integer_value s ds) 0); [reflexivity|lia].
  - intros old. split; reflexivity.
Qed.
Print Assumptions C143_spans_refuted.

(** ** Examples for C138, C139, C141 and C142 *)

Definition ty (n : string) : compound := KOne (SType QOmitted (Some (of_string n))).
Definition sel1 (k : compound) (r : rest) : slist := Sl [] (Cx k r) LNil None.
Definition dcl (n : string) (k : nat) (i : bool) : wdecl := mkWd (of_string n) (repeat comma k) i.
Definition ex_medium : media := for_print 600%Q 800%Q 0 1.
Definition on_print : mq := mkMq 1 And (LType (of_string "print")) [] 0.
Definition on_screen : mq := mkMq 1 And (LType (of_string "screen")) [] 0.
(** The user agent's [p { color: 1 }]; the author's
    [@namespace s url(s); @media print { div > p { color: 2; width: 2 } } @media screen { p { color: 3 !important } }
     @import "x"; @page :first { } .c { width: 4 } s|p { color: 5 }] *)
Definition ex_ua : csheet := mkSheet [] [CStyle (sel1 (ty "p") RNil) [dcl "color" 1 false]].
Definition ex_author : csheet := mkSheet [mkNsd 1 (Some (of_string "s")) 1 (UUrl (of_string "s"))]
  [CMedia [on_print] [CStyle (sel1 (ty "div") (RCons (Child Tight) (ty "p") RNil)) [dcl "color" 2 false; dcl "width" 2 false]];
   CMedia [on_screen] [CStyle (sel1 (ty "p") RNil) [dcl "color" 3 true]];
   CImport [TOK (mkT STRING (of_string "x"))];
   CPage [id_tok (of_string "a")] [];
   CStyle (sel1 (KOne (SClass (of_string "c"))) RNil) [dcl "width" 4 false];
   CStyle (sel1 (KOne (SType (QPrefix (of_string "s")) (Some (of_string "p")))) RNil) [dcl "color" 5 false]].
Definition ex_sheets : list (origin * csheet) := [(USER_AGENT, ex_ua); (AUTHOR, ex_author)].
Definition hname (n : string) : qname := mkQ (Some SerialModel.html_ns) (of_string n).
Definition ex_p : edata := mkE (hname "p") [(mkQ None (of_string "class"), of_string "c"); (mkQ None (of_string "width"), of_string "7");
  (mkQ None (of_string "style"), of_string "!")] [of_string "c"].
Definition ex_tree : node := Elem (mkE (hname "div") [] []) [Elem ex_p []].
Definition ex_read (n : str) (c : list sst) (i : bool) : option (property nat) := Some (mkProp n (List.length c) i false None).
Definition ex_value (n : string) (v : str) : option (property nat) := Some (mkProp (of_string n) (100 + List.length v) false false None).
Definition ex_attribute (n v : str) : option (property nat) := None.
Definition ex_inline (s : str) : list (property nat) :=
  match s with [] => [] | _ => [mkProp (of_string "color") 50 false false None; mkProp (of_string "top") 51 false false None] end.

Lemma ex_page : PageProps.plain [id_tok (of_string "a")].
Proof. apply PageProps.pl_name, PageProps.pl_nil. Qed.
Lemma ex_ok : Forall (fun os => sheet_ok (snd os)) ex_sheets.
Proof.
  constructor; [repeat constructor; cbn; tauto|]. constructor; [|constructor]. unfold sheet_ok. cbn [snd ex_author sh_rules].
  constructor; [repeat constructor; cbn; try tauto; exists "print"%string; split; [cbn; tauto|reflexivity]|].
  constructor; [repeat constructor; cbn; try tauto; exists "screen"%string; split; [cbn; tauto|reflexivity]|].
  constructor; [exact I|]. constructor; [exact ex_page|]. constructor; [cbn; tauto|]. constructor; [|constructor].
  repeat split. exists (of_string "s"). reflexivity.
Qed.
Example C138_example : sheet_ok ex_author /\
  exists rules, parse_sheet ex_read 100 AUTHOR (show_sheet ex_author) = Ok rules /\
  map (fun y => map (fun p => (p_name p, p_value p)) (fst (snd y))) (flat_map (style_rules ex_medium) rules) =
  [[(of_string "color", 2); (of_string "width", 2)]; [(of_string "width", 4)]; [(of_string "color", 5)]].
Proof. split; [exact (Forall_inv (Forall_inv_tail ex_ok))|]. eexists. split; vm_compute; reflexivity. Qed.
Example C139_example : Forall pages_ok (show_sheet ex_author).
Proof.
  unfold ex_author, show_sheet. cbn [sh_ns sh_rules map app show_rule show_ns].
  repeat apply Forall_cons; try apply Forall_nil; cbn -[of_string]; repeat split; try discriminate. intros _. exact ex_page.
Qed.

Definition ex_applied : list arule :=
  map (fun lb => mkA USER_AGENT (declared_ns []) (fst lb) (snd lb)) [(sel1 (ty "p") RNil, [dcl "color" 1 false])] ++
  map (fun lb => mkA AUTHOR (declared_ns (sh_ns ex_author)) (fst lb) (snd lb))
    ([(sel1 (ty "div") (RCons (Child Tight) (ty "p") RNil), [dcl "color" 2 false; dcl "width" 2 false])] ++
     [(sel1 (KOne (SClass (of_string "c"))) RNil, [dcl "width" 4 false]); (sel1 (KOne (SType (QPrefix (of_string "s")) (Some (of_string "p")))) RNil, [dcl "color" 5 false])]) ++ [].
Lemma ex_applies : applies_all ex_medium ex_sheets ex_applied.
Proof.
  unfold ex_applied. constructor; [repeat constructor|]. constructor; [|constructor]. cbn [sh_rules ex_author].
  apply A_in; [right; constructor; split; [|exact I]; right; left; split; reflexivity|repeat constructor|].
  apply A_out. { intros [H|H]; [discriminate|]. inversion H as [? ? T0|? ? H']; subst; [|inversion H'].
    destruct T0 as (T & _). destruct T as [T|[(T & _)|(_ & T)]]; discriminate T. }
  repeat constructor.
Qed.
Lemma ex_nodes p : forall n, node_at ex_tree p = Some n -> n = ex_tree \/ n = Elem ex_p [].
Proof.
  induction p as [|i p IH]; intros n; [intros [= <-]; now left|]. cbn [node_at]. destruct (node_at ex_tree p) as [x|]; [|discriminate].
  destruct (IH x eq_refl) as [-> | ->]; destruct i as [|[|i]]; try discriminate. intros [= <-]. now right.
Qed.
Example C141_example : typed_media ex_medium /\ registry_ok (fun _ => None) /\
  (forall n c i p, ex_read n c i = Some p -> registered (fun _ => None) p) /\
  Forall (fun os => sheet_ok (snd os)) ex_sheets /\ elem_at ex_tree [0] = Some ex_p /\ plain_element ex_p /\ attrs_unique ex_tree /\
  (forall A, applies_all ex_medium ex_sheets A -> Forall (rule_good ex_tree) A) /\
  exists parsed all, Forall2 (fun rs os => parse_sheet ex_read 100 (fst os) (show_sheet (snd os)) = Ok rs) parsed ex_sheets /\
    gather ex_value ex_attribute ex_inline ex_medium parsed ex_tree [0] ex_p (Some (Some SerialModel.html_ns)) None = Some all /\
    map (fun n => option_map (fun x => e_value x) (lookup (c_entries (cascade all)) (of_string n))) ["color"; "width"; "top"]%string = [Some 50; Some 4; Some 51].
Proof.
  split; [split; [|reflexivity]; intros f; destruct f; cbn; try exact I; try lia; now left|].
  split; [split; discriminate|]. split; [intros n c i p [= <-] _; reflexivity|].
  split; [exact ex_ok|]. split; [reflexivity|]. split; [split; repeat constructor; cbn; intuition discriminate|].
  split; [|split].
  - intros p d. unfold elem_at. destruct (node_at ex_tree p) as [n|] eqn:E; [|discriminate].
    destruct (ex_nodes p n E) as [-> | ->]; intros [= <-]; [constructor|]. repeat (constructor; [cbn; intuition discriminate|]). constructor.
  - intros A HA. rewrite <- (applies_all_det _ _ _ ex_applies _ HA).
    repeat constructor; cbn; try tauto; try (eexists; reflexivity).
  - do 2 eexists. split; [apply Forall2_cons; [vm_compute; reflexivity|]; apply Forall2_cons; [vm_compute; reflexivity|]; apply Forall2_nil|]. split; [vm_compute; reflexivity|]. vm_compute. reflexivity.
Qed.
Example C142_example :
  ex_inline (style_attribute ex_p) = [] ++ mkProp (of_string "color") 50 false false None :: [mkProp (of_string "top") 51 false false None] /\
  attribute_input ex_value ex_attribute ex_inline ex_p (Some (Some SerialModel.html_ns)) None =
  [(mkProp (of_string "width") 101 false false None, AUTHOR_PRESENTATIONAL_HINT, spec_zero);
   (mkProp (of_string "color") 50 false false None, INLINE, spec_zero); (mkProp (of_string "top") 51 false false None, INLINE, spec_zero)] /\
  align_attr [(mkQ None (of_string "align"), of_string "center")] RIGHT = BLOCK_CENTER.
Proof. repeat split. Qed.
