(** Proofs about Sheet/SheetModel.v. *)
From Coq Require Import Ascii String List NArith ZArith Bool Arith Lia.
From Verif.Base Require Import Str Outcome.
From Verif.Css Require Import LexerModel ParserModel.
From Verif.Values Require Import LengthModel CalcModel.
From Verif.Style Require Import CascadeModel CascadeSpec CascadeProofs SelectorModel SelectorSpec SelectorProofs SelectorProps.
From Verif.Style Require Import SelectorParseModel SelectorParseSpec SelectorTree SelectorParseProofs SelectorParseProps.
From Verif.Style Require Import MediaModel MediaSpec MediaProofs MediaProps IndexModel IndexSpec IndexProofs IndexProps.
From Verif.Html Require SerialModel.
From Verif.Print Require PageModel PageProps.
From Verif.Sheet Require Import SheetModel SheetSpec.
Import ListNotations.
Local Open Scope nat_scope.
Local Open Scope list_scope.

(** ** Reading rules *)

Section Rules.
Context {P : Type}.
Variable read_decl : str -> list sst -> bool -> option P.
Notation parse_rule := (parse_rule read_decl).
Notation parse_rules := (parse_rules read_decl).

Lemma parse_rule_media n o prefix content ns : parse_rule n o (RULE (at_tok "@media") prefix content) ns =
  obind (parse_media_query n prefix) (fun q => obind (parse_rules n o content ns) (fun b => Ok (MediaRule q (fst b), snd b))).
Proof.
  cbn [SheetModel.parse_rule]. change (named (at_tok "@media") "@media") with true. cbn match.
  destruct (parse_media_query n prefix) as [q| |]; cbn [obind]; try reflexivity.
  match goal with |- obind (?F content ns) _ = _ => assert (E : forall l ns, F l ns = parse_rules n o l ns) end.
  { induction l as [|y l IH]; intros ns'; [reflexivity|]. destruct y; cbn [SheetModel.parse_rules]; try apply IH.
    match goal with |- obind ?a _ = obind ?b _ => change a with b end.
    destruct (parse_rule n o _ ns') as [a| |]; cbn [obind]; try reflexivity. now rewrite IH. }
  now rewrite E.
Qed.
Lemma parse_rules_cons n o t p c l ns : parse_rules n o (RULE t p c :: l) ns =
  obind (parse_rule n o (RULE t p c) ns) (fun a => obind (parse_rules n o l (snd a)) (fun b => Ok (fst a :: fst b, snd b))).
Proof. reflexivity. Qed.
Lemma parse_rules_app n o a : forall b ns, parse_rules n o (a ++ b) ns =
  obind (parse_rules n o a ns) (fun x => obind (parse_rules n o b (snd x)) (fun y => Ok (fst x ++ fst y, snd y))).
Proof.
  induction a as [|x a IH]; intros b ns.
  - cbn. destruct (parse_rules n o b ns) as [[]| |]; reflexivity.
  - destruct x; cbn [app SheetModel.parse_rules]; try apply IH.
    destruct (parse_rule n o _ ns) as [y| |]; cbn [obind]; try reflexivity. rewrite IH.
    destruct (parse_rules n o a (snd y)) as [z| |]; cbn [obind]; try reflexivity.
    destruct (parse_rules n o b _) as [w| |]; reflexivity.
Qed.

(** Namespaces *)
Lemma eat_wss_show a c : eat_wss (wss a ++ c) = eat_wss c.
Proof. induction a as [|a IH]; [reflexivity|]. cbn. exact IH. Qed.
Lemma parse_uri_show x r : parse_uri (show_uri x :: r) = Some (uri_name x).
Proof.
  destruct x as [u|u|a u]; cbn [show_uri parse_uri t_type ttype_beq t_data uri_name].
  - reflexivity.
  - f_equal. rewrite !app_length. change (List.length (of_string "url(")) with 4. change (List.length (of_string ")")) with 1.
    replace (4 + (List.length u + 1) - 5) with (List.length u) by lia.
    change (skipn 4 (of_string "url(" ++ u ++ of_string ")")) with (u ++ of_string ")").
    rewrite firstn_app, Nat.sub_diag, firstn_all. cbn. apply app_nil_r.
  - change (token_eqb (mkT FUNCTION (of_string "url(")) (mkT FUNCTION (of_string "url("))) with true. cbn match.
    rewrite eat_wss_show. reflexivity.
Qed.
Definition ns_add (ns : namespaces) (d : nsdecl) : namespaces :=
  match nd_prefix d with
  | Some p => mkNs (ns_default ns) ((p, uri_name (nd_uri d)) :: ns_prefixes ns)
  | None => mkNs (uri_name (nd_uri d)) (ns_prefixes ns)
  end.
Lemma show_uri_eat x r : eat_wss (show_uri x :: r) = show_uri x :: r.
Proof. destruct x; reflexivity. Qed.
Lemma parse_ns n o d ns : parse_rule n o (show_ns d) ns = Ok (NamespaceRule (nd_prefix d) (uri_name (nd_uri d)), ns_add ns d).
Proof.
  unfold show_ns. cbn [SheetModel.parse_rule].
  change (named (at_tok "@namespace") "@media") with false. change (named (at_tok "@namespace") "@import") with false.
  change (named (at_tok "@namespace") "@font-face") with false. change (named (at_tok "@namespace") "@counter-style") with false.
  change (named (at_tok "@namespace") "@page") with false. change (named (at_tok "@namespace") "@supports") with false.
  change (named (at_tok "@namespace") "@namespace") with true. cbn match. unfold parse_namespace. rewrite eat_wss_show.
  unfold ns_add. destruct d as [a p b u]. cbn [nd_a nd_prefix nd_b nd_uri]. destruct p as [p|]; cbn [app].
  - cbn [eat_wss id_tok t_type ttype_beq]. change (wss b ++ [show_uri u]) with (wss b ++ [show_uri u]).
    cbn match. rewrite eat_wss_show, show_uri_eat, parse_uri_show. reflexivity.
  - rewrite eat_wss_show, show_uri_eat. destruct u as [u|u|k u]; cbn [show_uri t_type ttype_beq];
    [pose proof (parse_uri_show (UString u) [])|pose proof (parse_uri_show (UUrl u) [])|pose proof (parse_uri_show (UFunc k u) [])]; cbn [show_uri] in *.
    + change (eat_wss [TOK (mkT STRING u)]) with [TOK (mkT STRING u)]. rewrite H. reflexivity.
    + change (eat_wss [TOK (mkT URL (of_string "url(" ++ u ++ of_string ")"))]) with [TOK (mkT URL (of_string "url(" ++ u ++ of_string ")"))]. rewrite H. reflexivity.
    + change (eat_wss [FUNC (mkT FUNCTION (of_string "url(")) (wss k ++ [TOK (mkT STRING u)])]) with [FUNC (mkT FUNCTION (of_string "url(")) (wss k ++ [TOK (mkT STRING u)])].
      rewrite H. reflexivity.
Qed.
Lemma parse_nss n o l : forall ns, exists rs, parse_rules n o (map show_ns l) ns = Ok (rs, fold_left ns_add l ns) /\
  rs = map (fun d => NamespaceRule (nd_prefix d) (uri_name (nd_uri d))) l.
Proof.
  induction l as [|d l IH]; intros ns; [now exists []|]. cbn [map]. unfold show_ns at 1. rewrite parse_rules_cons. fold (show_ns d).
  rewrite parse_ns. cbn [obind snd fst]. destruct (IH (ns_add ns d)) as (rs & -> & ->). cbn [obind fst snd].
  eexists. split; reflexivity.
Qed.
Lemma ns_fold l : forall d ps, fold_left ns_add l (mkNs d ps) =
  mkNs (last (flat_map (fun d => match nd_prefix d with None => [uri_name (nd_uri d)] | _ => [] end) l) d)
       (rev (flat_map (fun d => match nd_prefix d with Some p => [(p, uri_name (nd_uri d))] | _ => [] end) l) ++ ps).
Proof.
  induction l as [|x l IH]; intros d ps; [reflexivity|]. cbn [fold_left flat_map]. unfold ns_add at 2. destruct (nd_prefix x) as [p|].
  - cbn [ns_default ns_prefixes]. rewrite IH. cbn [app rev]. now rewrite <- app_assoc.
  - cbn [ns_prefixes]. rewrite IH. cbn [app]. f_equal.
    generalize (flat_map (fun d0 => match nd_prefix d0 with None => [uri_name (nd_uri d0)] | _ => [] end) l) as k.
    intros k. destruct k as [|y k]; [reflexivity|]. cbn [last]. clear.
    revert y. induction k as [|z k IH]; intros y; [reflexivity|]. apply (IH z).
Qed.
Lemma ns_declared l : fold_left ns_add l no_namespaces = declared_ns l.
Proof. unfold no_namespaces. rewrite ns_fold, app_nil_r. reflexivity. Qed.

(** Page selectors: more fuel does not change the result. *)
Lemma page_loop_mono n : forall c l, PageModel.parse_list_loop n c = Ok l -> forall m, n <= m -> PageModel.parse_list_loop m c = Ok l.
Proof.
  induction n as [|n IH]; intros c l E m L; [discriminate|]. destruct m as [|m]; [lia|]. cbn [PageModel.parse_list_loop] in *.
  destruct c as [|s c]; [exact E|]. destruct (PageModel.parse_selector _ _) as [q| |]; try discriminate. cbn [obind] in *.
  destruct (PageModel.parse_list_loop n (eat_wss (snd q))) as [l'| |] eqn:E2; try discriminate.
  rewrite (IH _ _ E2 m) by lia. exact E.
Qed.
Lemma page_good c : PageProps.plain c -> exists N l, forall n, N <= n -> PageModel.parse_list n c = Ok l.
Proof. intros H. apply PageProps.C61_reading_page_selectors_ends_partial in H as (n & l & E). exists n, l. intros m L. exact (page_loop_mono _ _ _ E m L). Qed.

(** Rules *)
Fixpoint crule_size (r : crule) : nat := match r with CMedia _ rules => S (fold_right (fun r n => crule_size r + n) 0 rules) | _ => 1 end.
Lemma crule_size_pos r : 1 <= crule_size r. Proof. destruct r; cbn; lia. Qed.

Definition props_of (body : list wdecl) : list P :=
  flat_map (fun d => match read_decl (wd_name d) (wd_value d) (wd_important d) with Some p => [p] | None => [] end) body.
Lemma read_props_show body : read_props read_decl (map show_decl body) = props_of body.
Proof.
  induction body as [|d body IH]; [reflexivity|]. cbn [map show_decl read_props props_of flat_map t_data].
  fold (props_of body). rewrite IH. now destruct (read_decl _ _ _).
Qed.

(** What a list of rules is read as. *)
Definition reads_as (ns : namespaces) (o : origin) (y : selector * (list P * origin)) (x : slist * list wdecl) : Prop :=
  y = (m_slist ns tree (fst x), (props_of (snd x), o)).
Definition means (ns : namespaces) (o : origin) (rules : list crule) (rs : list (rule P)) : Prop :=
  forall m, typed_media m -> exists out, applies m rules out /\ Forall2 (reads_as ns o) (flat_map (style_rules m) rs) out.

Lemma Forall2_app_inv {A B} (R : A -> B -> Prop) a b a' b' : Forall2 R a b -> Forall2 R a' b' -> Forall2 R (a ++ a') (b ++ b').
Proof. induction 1; cbn; auto. Qed.

Lemma means_cons ns o x r1 rest rs :
  (forall m, typed_media m -> forall out, applies m rest out -> exists out1, applies m (x :: rest) (out1 ++ out) /\ Forall2 (reads_as ns o) (style_rules m r1) out1) ->
  means ns o rest rs -> means ns o (x :: rest) (r1 :: rs).
Proof.
  intros H M m T. destruct (M m T) as (out & A & F). destruct (H m T out A) as (out1 & A1 & F1).
  exists (out1 ++ out). split; [exact A1|]. cbn [flat_map]. now apply Forall2_app_inv.
Qed.

Lemma named_other s s' : str_eqb (of_string s) (of_string s') = false -> named (at_tok s) s' = false.
Proof. intros H. exact H. Qed.

Lemma parse_written o ns k : forall rules, fold_right (fun r n => crule_size r + n) 0 rules <= k -> Forall (rule_ok ns) rules ->
  exists N rs, (forall n, N <= n -> parse_rules n o (map show_rule rules) ns = Ok (rs, ns)) /\ means ns o rules rs.
Proof.
  induction k as [|k IH]; intros rules L F.
  - destruct rules as [|r rules]; [|pose proof (crule_size_pos r); cbn in L; lia].
    exists 0, []. split; [reflexivity|]. intros m T. exists []. split; constructor.
  - destruct rules as [|r rules]; [exists 0, []; split; [reflexivity|]; intros m T; exists []; split; constructor|].
    cbn [fold_right] in L. pose proof (crule_size_pos r). apply Forall_cons_iff in F as (Fr & F).
    destruct (IH rules ltac:(lia) F) as (N1 & rs & E1 & M1).
    assert (Q : exists N2 r1, (forall n, N2 <= n -> parse_rule n o (show_rule r) ns = Ok (r1, ns)) /\
      (forall m, typed_media m -> forall out, applies m rules out -> exists out1, applies m (r :: rules) (out1 ++ out) /\ Forall2 (reads_as ns o) (style_rules m r1) out1)).
    { destruct r as [l body|qs inner|prefix|prefix content|a name rest content|prefix content]; cbn [rule_ok] in Fr.
      - destruct (parse_meaning ns l Fr) as (N & E & _).
        exists N, (StyleRule (m_slist ns tree l) (props_of body) o). split.
        + intros n Ln. cbn [show_rule SheetModel.parse_rule]. cbn [named rule_name str_eqb].
          repeat match goal with |- context [named None ?s] => change (named None s) with false end. cbn match.
          unfold parse_style. rewrite E by exact Ln. cbn [obind rret]. now rewrite read_props_show.
        + intros m T out A. exists [(l, body)]. split; [now constructor|]. cbn [style_rules]. constructor; [reflexivity|constructor].
      - destruct Fr as (Fq & Fi). cbn [crule_size] in L.
        assert (Fi' : Forall (rule_ok ns) inner) by (clear -Fi; induction inner; constructor; [apply Fi|apply IHinner; apply Fi]).
        destruct (IH inner ltac:(lia) Fi') as (N2 & rs2 & E2 & M2).
        destruct (C15_list_partial qs Fq) as (N3 & q & E3).
        exists (N2 + N3), (MediaRule q rs2). split.
        + intros n Ln. cbn [show_rule]. rewrite parse_rule_media. destruct (E3 n ltac:(lia)) as [-> _]. cbn [obind].
          rewrite E2 by lia. reflexivity.
        + intros m T out A. destruct (E3 N3 (le_n _)) as [_ Q]. specialize (Q m T). cbn [style_rules].
          destruct (match_query q m).
          * destruct (M2 m T) as (out2 & A2 & F2). exists out2. split; [apply A_in; [now apply Q|exact A2|exact A]|exact F2].
          * exists []. split; [apply A_out; [intros G; apply Q in G; discriminate|exact A]|constructor].
      - exists 0, ImportRule. split; [reflexivity|]. intros m T out A. exists []. split; [now constructor|constructor].
      - exists 0, (FontFaceRule content). split; [reflexivity|]. intros m T out A. exists []. split; [now constructor|constructor].
      - exists 0, (CounterRule name content). split.
        + intros n Ln. cbn [show_rule SheetModel.parse_rule].
          change (named (at_tok "@counter-style") "@media") with false. change (named (at_tok "@counter-style") "@import") with false.
          change (named (at_tok "@counter-style") "@font-face") with false. change (named (at_tok "@counter-style") "@counter-style") with true.
          cbn match. unfold parse_counter. rewrite eat_wss_show. reflexivity.
        + intros m T out A. exists []. split; [now constructor|constructor].
      - destruct (page_good prefix Fr) as (N & l & E). exists N, (PageRule l (read_props read_decl content) (read_areas read_decl content)). split.
        + intros n Ln. cbn [show_rule SheetModel.parse_rule].
          change (named (at_tok "@page") "@media") with false. change (named (at_tok "@page") "@import") with false.
          change (named (at_tok "@page") "@font-face") with false. change (named (at_tok "@page") "@counter-style") with false.
          change (named (at_tok "@page") "@page") with true. cbn match. unfold parse_page. rewrite E by exact Ln. reflexivity.
        + intros m T out A. exists []. split; [now constructor|constructor]. }
    destruct Q as (N2 & r1 & E2 & M2). exists (N1 + N2), (r1 :: rs). split.
    + intros n Ln. cbn [map]. assert (exists t p c, show_rule r = RULE t p c) as (t & p & c & Er) by (destruct r; do 3 eexists; reflexivity).
      rewrite Er, parse_rules_cons, <- Er, E2 by lia. cbn [obind snd fst]. rewrite E1 by lia. reflexivity.
    + now apply means_cons.
Qed.

Lemma sheet_written o s : sheet_ok s -> exists N rs, (forall n, N <= n -> parse_sheet read_decl n o (show_sheet s) = Ok rs) /\
  means (declared_ns (sh_ns s)) o (sh_rules s) rs.
Proof.
  intros O. destruct (parse_written o (declared_ns (sh_ns s)) _ (sh_rules s) (le_n _) O) as (N & rs & E & M).
  exists N, (map (fun d => NamespaceRule (nd_prefix d) (uri_name (nd_uri d))) (sh_ns s) ++ rs). split.
  - intros n Ln. unfold parse_sheet, show_sheet. rewrite parse_rules_app.
    destruct (parse_nss n o (sh_ns s) no_namespaces) as (l & -> & ->). cbn [obind snd fst]. rewrite ns_declared, E by exact Ln. reflexivity.
  - intros m T. destruct (M m T) as (out & A & F). exists out. split; [exact A|]. rewrite flat_map_app.
    assert (Z : flat_map (style_rules m) (map (fun d => NamespaceRule (P:=P) (nd_prefix d) (uri_name (nd_uri d))) (sh_ns s)) = []) by (generalize (sh_ns s); clear; intros l; induction l as [|d l IH]; [reflexivity|exact IH]).
    rewrite Z. exact F.
Qed.
End Rules.

(** [applies] names one list. *)
Lemma applies_det m rules out : applies m rules out -> forall out', applies m rules out' -> out = out'.
Proof.
  induction 1; intros out' A'; inversion A'; subst; try congruence; try (f_equal; now auto); auto; try tauto.
Qed.
Lemma applies_all_det m l out : applies_all m l out -> forall out', applies_all m l out' -> out = out'.
Proof.
  induction 1 as [|o s r out1 out2 A _ IH]; intros out' A'; inversion A'; subst; [reflexivity|].
  f_equal; [f_equal; eapply applies_det; eassumption|now apply IH].
Qed.

(** ** From the sheets to the cascade *)

Section Cascade.
Context {V : Type}.
Variable read_decl : str -> list sst -> bool -> option (property V).

(** What the theorem asks of a rule: one complex selector, in the part of the language that is
    read and matched as CSS says, with a specificity counted as CSS says. *)
Definition rule_good (t : node) (a : arule) : Prop :=
  slist_ok (a_ns a) (a_sel a) /\ (exists x, slist_cplx (a_sel a) = [x]) /\
  supported (meaning (a_ns a) (a_sel a)) = true /\ SelectorSpec.plain (meaning (a_ns a) (a_sel a)) = true /\
  (no_adjacent (meaning (a_ns a) (a_sel a)) = true \/ no_gaps t).

Lemma supported_args s : supported s = true -> has_args s = true.
Proof.
  revert s. fix IH 1. intros s. destruct s; cbn; try reflexivity.
  - destruct ty; cbn.
    + induction inners as [|i l IHl]; cbn; [reflexivity|]. intros H. apply andb_prop in H as [H1 H2]. rewrite (IH _ H1). now apply IHl.
    + induction inners as [|i l IHl]; cbn; [reflexivity|]. intros H. apply andb_prop in H as [H1 H2]. rewrite (IH _ H1). now apply IHl.
    + destruct inners as [|i [|j l]]; try discriminate. intros H. cbn. now rewrite (IH _ H).
    + discriminate.
  - destruct ty; try discriminate; intros H; apply andb_prop in H as [H1 H2]; now rewrite (IH _ H1), (IH _ H2).
  - destruct ty; cbn; try reflexivity; discriminate.
  - intros H. apply andb_prop in H as [_ H]. now apply IH.
Qed.
Lemma supported_sensitive s : supported s = true -> sensitive s = true.
Proof.
  destruct s; cbn; try reflexivity. unfold is_universal_ns.
  destruct (as_match a); try (intros _; now rewrite andb_false_r).
  destruct (qs_ns (as_name a)); try discriminate; intros _; now rewrite andb_false_r.
Qed.
Lemma supported_nfix ty l : supported (Nfix ty l) = true -> forallb sensitive l = true.
Proof.
  intros H. apply forallb_forall. intros s Hs. apply supported_sensitive. destruct ty; cbn in H; try discriminate.
  - now apply (proj1 (forallb_forall _ _) H).
  - now apply (proj1 (forallb_forall _ _) H).
  - destruct l as [|i [|j l]]; try discriminate. destruct Hs as [<-|[]]. exact H.
Qed.
Lemma supported_indexable s : supported s = true -> indexable s = true.
Proof.
  destruct s; try exact (supported_sensitive _); [apply supported_nfix|]. intros H.
  assert (R : supported s2 = true) by (destruct ty; cbn in H; try discriminate; now apply andb_prop in H).
  destruct s2; try exact (supported_sensitive _ R). exact (supported_nfix _ _ R).
Qed.

Lemma ptree_list r : forall o k, is_list k = false -> Forall (fun ck => is_list (snd ck) = false) r -> is_list (fst (ptree o k r)) = false.
Proof.
  intros o k Hk F. destruct r as [|[c k'] r]; [exact Hk|]. cbn [ptree]. destruct (multi k); [exact Hk|].
  destruct (o <? rank c); [|exact Hk]. destruct (ptree (rank c) k' r). reflexivity.
Qed.
Lemma tloop_list n : forall acc r, is_list acc = false -> is_list (tloop n acc r) = false.
Proof.
  induction n as [|n IH]; intros acc r H; [exact H|]. destruct r as [|[c k] r]; [exact H|]. cbn [tloop].
  destruct (ptree (rank c) k r). now apply IH.
Qed.
Lemma conj_list ns f k : is_list (SelectorParseSpec.conj (m_compound ns f k)) = false.
Proof.
  destruct k as [s|s k]; [rewrite m_compound_one; cbn; destruct s; reflexivity|].
  rewrite m_compound_more. destruct (m_compound_cons ns f k) as (x & l & -> & _). reflexivity.
Qed.
Lemma single_list ns l x : slist_cplx l = [x] -> is_list (m_slist ns tree l) = false.
Proof.
  destruct l as [a y r b]. cbn [slist_cplx]. intros H. injection H as -> H. destruct r; [|discriminate].
  rewrite m_slist_eq. cbn [m_lrest disj]. destruct x as [k r]. rewrite m_cplx_eq. unfold tree. apply tloop_list. cbn [fst]. apply conj_list.
Qed.
Lemma single_alternatives s : is_list s = false -> alternatives s = [s].
Proof. destruct s; try reflexivity. destruct ty; try reflexivity; discriminate. Qed.

Lemma match_read t a e pe : rule_good t a -> attrs_unique t -> is_elem t e ->
  exists r, match_selector t (m_slist (a_ns a) tree (a_sel a)) e pe = Some r /\
  match r with
  | Some sp => selects t e pe a /\ sp = css_spec (meaning (a_ns a) (a_sel a))
  | None => ~ selects t e pe a
  end.
Proof.
  intros (O & (x & X) & Su & Pl & Ga) At He. destruct (parse_meaning _ _ O) as (N & _ & E).
  rewrite <- supported_same in Su. rewrite <- no_adjacent_same in Ga.
  destruct (match_selector_some t _ e pe Su At Ga He) as (r & H1 & H2). exists r. split; [exact H1|].
  assert (S1 : r <> None <-> selects t e pe a).
  { unfold selects. rewrite H2, <- meaning_list, <- (E t e pe) by exact He.
    destruct (msel_sem t At _ Su Ga e pe He) as (b & Hb & Hbp). rewrite Hb, <- Hbp. split; [congruence|intros ->; reflexivity]. }
  pose proof (match_selector_spec _ _ _ _ _ H1) as M. destruct r as [sp|].
  - split; [apply S1; discriminate|]. destruct M as ((i & Hi & _ & ->) & _).
    rewrite (single_alternatives _ (single_list _ _ _ X)) in Hi. destruct Hi as [<-|[]].
    rewrite spec_same. now apply spec_plain.
  - intros G. now apply S1 in G.
Qed.

Definition bodies (rules : list (selector * (list (property V) * origin))) (i : nat) : list (property V) * origin :=
  match nth_error rules (i - 1) with Some (_, pb) => pb | None => ([], AUTHOR) end.
Lemma from_rules_declared rules out : from_rules rules out = declared (bodies rules) out.
Proof.
  unfold from_rules, declared, bodies. induction out as [|es out IH]; [reflexivity|]. cbn [flat_map]. rewrite IH. f_equal.
  destruct (nth_error rules (ie_order (fst es) - 1)) as [[s [ps o]]|]; reflexivity.
Qed.

Definition written (y : selector * (list (property V) * origin)) (a : arule) : Prop :=
  y = (m_slist (a_ns a) tree (a_sel a), (declares read_decl (a_body a), a_origin a)).

Lemma linear_input t e pe : attrs_unique t -> is_elem t e -> forall body R A i, Forall2 written R A -> Forall (rule_good t) A ->
  (forall j y, nth_error R j = Some y -> body (i + j) = snd y) ->
  sheet_input read_decl t e pe A (declared body (flat_map (fun x => match match_selector t (ie_rule x) e pe with
                     | Some (Some sp) => [(x, sp)] | _ => [] end) (number i (map fst R)))).
Proof.
  intros At He body R A i F. revert i. induction F as [|y a R A H F IH]; intros i G B; [constructor|].
  apply Forall_cons_iff in G as (Ga & G). cbn [map number flat_map ie_rule].
  assert (IH' := IH (S i) G). clear IH.
  assert (B' : forall j y, nth_error R j = Some y -> body (S i + j) = snd y).
  { intros j z Hz. specialize (B (S j) z Hz). now replace (S i + j) with (i + S j) by lia. }
  specialize (IH' B'). specialize (B 0 y eq_refl). rewrite Nat.add_0_r in B.
  destruct (match_read t a e pe Ga At He) as (r & E & Q). unfold written in H. rewrite H in *. cbn [fst snd] in *. rewrite E.
  destruct r as [sp|]; cbn [app].
  - destruct Q as (Q & ->). unfold declared. cbn [flat_map fst snd ie_order]. rewrite B. cbn [fst snd]. now apply I_hit.
  - now apply I_skip.
Qed.

Lemma listing_wins_mid (body : nat -> list (property V) * origin) t p pe l out :
  (forall e, In e l -> is_list (ie_rule e) = false) ->
  listing t p pe index_ok l out ->
  forall a b k v,
  wins (a ++ all_longhands (declared body out) ++ b) k v <->
  wins (a ++ all_longhands (declared body
     (flat_map (fun e => match match_selector t (ie_rule e) p pe with
                         | Some (Some sp) => [(e, sp)] | _ => [] end) l)) ++ b) k v.
Proof.
  intros Hl H. induction H as [|e l out Hm _ IH|e l out sp sp' n Hm Hn [Hs Hc] _ IH]; intros a b k v; simpl.
  - reflexivity.
  - rewrite Hm. apply IH. intros x Hx. apply Hl. now right.
  - rewrite Hm. rewrite (Hs (Hl e (or_introl eq_refl))).
    unfold declared at 1 2. rewrite !flat_map_app. fold (declared body (repeat (e, sp) n)).
    fold (declared body [(e, sp)]). fold (declared body out).
    rewrite declared_repeat, !all_longhands_app, all_longhands_concat.
    rewrite <- !app_assoc. rewrite wins_repeat by exact Hn. rewrite (app_assoc a), (app_assoc a). apply IH. intros x Hx. apply Hl. now right.
Qed.

(** The property registry: which names are shorthands, of which longhands. *)
Definition registry_ok (lh : str -> option (list str)) : Prop :=
  (forall n l m, lh n = Some l -> In m l -> lh m = None) /\ (forall n l, lh n = Some l -> NoDup l).
Definition registered (lh : str -> option (list str)) (p : property V) : Prop :=
  p_bogus p = false -> option_map (map fst) (p_expansion p) = lh (p_name p).

Lemma listing_in t p pe l out : listing t p pe index_ok l out -> forall e sp, In (e, sp) out -> In e l.
Proof.
  induction 1 as [|e l out _ _ IH|e l out sp sp' n _ Hn _ _ IH]; intros e' s'; simpl; [tauto| |].
  - intros H. right. eauto.
  - intros H. apply in_app_or in H as [H|H]; [left|right; eauto]. apply repeat_spec in H. congruence.
Qed.

Lemma end_to_end lh t e d pe R A extra : registry_ok lh -> (forall n c i p, read_decl n c i = Some p -> registered lh p) ->
  elem_at t e = Some d -> plain_element d -> attrs_unique t ->
  Forall2 written R A -> Forall (rule_good t) A ->
  (forall p o s, In (p, o, s) extra -> registered lh p) ->
  exists out, index_match (build (map fst R)) t e pe = Some out /\
  exists ds, sheet_input read_decl t e pe A ds /\
  forall n v, (exists x, lookup (c_entries (cascade (from_rules R out ++ extra))) n = Some x /\ e_value x = v) <->
    wins (all_longhands (ds ++ extra)) n v.
Proof.
  intros (R1 & R2) Rd Hd Pd At F G Rx.
  assert (Hs : forall s, In s (map fst R) -> supported s = true /\ is_list s = false).
  { clear -F G. induction F as [|y a R A H F IH]; cbn [map]; [intros s []|]. apply Forall_cons_iff in G as (Ga & G).
    intros s [<-|Hi]; [|now apply IH]. unfold written in H. rewrite H. cbn [fst]. destruct Ga as (_ & (x & X) & Su & _).
    split; [now rewrite supported_same|]. eapply single_list; eassumption. }
  destruct (index_listing t e pe d (map fst R) Hd Pd) as (out & H1 & H2).
  { intros s Hi. destruct (Hs s Hi). split; [now apply supported_args|now apply supported_indexable]. }
  exists out. split; [exact H1|].
  eexists. split.
  { apply (linear_input t e pe At ltac:(now exists d) (bodies R) R A 1 F G).
    intros j y E. unfold bodies. cbn. rewrite Nat.sub_0_r, E. now destruct y. }
  intros n v. rewrite from_rules_declared. rewrite (cascade_winner (V:=V)).
  - rewrite !all_longhands_app.
    assert (Hl : forall x, In x (number 1 (map fst R)) -> is_list (ie_rule x) = false).
    { intros x Hx. apply Hs. clear -Hx. revert Hx. generalize 1. induction (map fst R) as [|s l IH]; intros i; simpl; [tauto|].
      intros [<-|H]; [now left|right; eauto]. }
    exact (listing_wins_mid (bodies R) t e pe _ _ Hl H2 [] (all_longhands extra) n v).
  - exists lh. split; [|split; assumption]. intros p o s Hi. apply in_app_or in Hi as [Hi|Hi]; [|exact (Rx _ _ _ Hi)].
    unfold declared in Hi. apply in_flat_map in Hi as ([x sp] & _ & Hi). cbn [fst snd] in Hi. apply in_map_iff in Hi as (q & [= -> _ _] & Hq).
    unfold bodies in Hq. destruct (nth_error R (ie_order x - 1)) as [[s' [ps o']]|] eqn:E; [|destruct Hq]. cbn [fst] in Hq.
    apply nth_error_In in E. clear -F E Hq Rd. induction F as [|y a R A H F IH]; [destruct E|]. destruct E as [->|E]; [|now apply IH].
    unfold written in H. injection H as _ -> _. unfold declares in Hq. apply in_flat_map in Hq as (w & _ & Hw).
    destruct (read_decl _ _ _) as [q|] eqn:Eq; [|destruct Hw]. destruct Hw as [->|[]]. now apply Rd in Eq.
Qed.

(** All the sheets. *)
Lemma all_written m parsed sheets : Forall2 (fun rs os => means read_decl (declared_ns (sh_ns (snd os))) (fst os) (sh_rules (snd os)) rs) parsed sheets ->
  typed_media m -> exists A, applies_all m sheets A /\ Forall2 written (all_style_rules m parsed) A.
Proof.
  induction 1 as [|rs [o s] parsed sheets M _ IH]; intros T; [exists []; split; constructor|].
  destruct (IH T) as (A & H1 & H2). destruct (M m T) as (out & H3 & H4). cbn [fst snd] in *.
  exists (map (fun lb => mkA o (declared_ns (sh_ns s)) (fst lb) (snd lb)) out ++ A). split; [now constructor|].
  cbn [all_style_rules flat_map]. apply Forall2_app_inv; [|exact H2]. clear -H4. induction H4 as [|y x l l' H _ IH]; cbn; constructor; [|exact IH].
  unfold reads_as in H. unfold written. exact H.
Qed.
End Cascade.
