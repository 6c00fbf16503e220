(** C136 the sheets of a document, C137 failed loads, C138 rules, C139 reading ends, C140 namespaces. *)
From Coq Require Import Ascii String List NArith ZArith Bool Arith Lia.
From Verif.Base Require Import Str Outcome.
From Verif.Css Require Import LexerModel ParserModel.
From Verif.Values Require Import LengthModel CalcModel.
From Verif.Style Require Import CascadeModel CascadeSpec SelectorModel SelectorSpec SelectorProofs.
From Verif.Style Require Import SelectorParseModel SelectorParseSpec SelectorTree SelectorParseProofs SelectorParseProps.
From Verif.Style Require Import MediaModel MediaSpec MediaProofs MediaProps.
From Verif.Html Require SerialModel.
From Verif.Print Require PageModel PageProps.
From Verif.Sheet Require Import SheetModel SheetSpec SheetProofs.
Import ListNotations.
Local Open Scope nat_scope.
Local Open Scope list_scope.

(** ** C136 *)

Section Documents.
Import SerialModel.

Lemma node_ind' (Q : node -> Prop) :
  (forall q a kids, Forall Q kids -> Q (Element q a kids)) -> (forall s, Q (Text s)) -> (forall s, Q (Comment s)) -> (forall s, Q (Doctype s)) ->
  forall x, Q x.
Proof.
  intros HE HT HC HD. fix IH 1. intros [q a kids|s|s|s]; [|apply HT|apply HC|apply HD]. apply HE. induction kids as [|k kids IHk]; constructor; [apply IH|exact IHk].
Qed.
Lemma style_text kids : Forall (fun y => match y with Text _ => True | _ => False end) kids ->
  flat_map text_content kids = flat_map dom_text kids.
Proof. induction 1 as [|y kids H _ IH]; [reflexivity|]. cbn [flat_map]. rewrite IH. now destruct y. Qed.
Lemma style_inside fetch kids : Forall (fun y => match y with Text _ => True | _ => False end) kids ->
  flat_map (node_sheets fetch) (flat_map preorder kids) = [].
Proof. induction 1 as [|y kids H _ IH]; [reflexivity|]. destruct y; try contradiction. exact IH. Qed.
Lemma qname_eqb_eq a b : qname_eqb a b = true -> a = b.
Proof.
  destruct a as [na xa], b as [nb xb]. unfold qname_eqb. cbn [q_ns q_name]. intros H. apply andb_prop in H as [H1 H2].
  apply str_eqb_spec in H2 as ->. destruct na as [na|], nb as [nb|]; try discriminate; [|reflexivity].
  cbn in H1. now apply str_eqb_spec in H1 as ->.
Qed.

Lemma fetch_preorder fetch x : html_like x -> fetch_resources fetch x = flat_map (node_sheets fetch) (preorder x).
Proof.
  induction x as [q a kids IH| | |] using node_ind'; try reflexivity. intros (H1 & H2 & H3). cbn [fetch_resources preorder flat_map node_sheets].
  destruct (qname_eqb q (html_tag "img")) eqn:Ei.
  - rewrite (H1 (or_introl eq_refl)). apply qname_eqb_eq in Ei. rewrite Ei. reflexivity.
  - destruct (qname_eqb q (html_tag "style")) eqn:Es.
    + specialize (H2 eq_refl). rewrite style_inside, app_nil_r, style_text by exact H2. reflexivity.
    + destruct (qname_eqb q (html_tag "link")) eqn:El.
      * rewrite (H1 (or_intror eq_refl)). cbn [flat_map]. rewrite app_nil_r. change attribute with attr.
        destruct (attr a "rel") as [r|]; cbn [opt_eqb]; [|reflexivity].
        destruct (attr a "href") as [u|]; destruct (str_eqb r (of_string "stylesheet")); reflexivity.
      * cbn [app]. clear -IH H3. induction kids as [|k kids IHk]; [reflexivity|]. apply Forall_cons_iff in IH as (I1 & I2).
        destruct H3 as (A & B). cbn [flat_map]. rewrite flat_map_app, I1, IHk by assumption. reflexivity.
Qed.
Lemma fetch_preorder_all fetch l : Forall html_like l -> flat_map (fetch_resources fetch) l = flat_map (node_sheets fetch) (flat_map preorder l).
Proof. induction 1 as [|x l H _ IH]; [reflexivity|]. cbn [flat_map]. rewrite flat_map_app, IH, fetch_preorder by exact H. reflexivity. Qed.

(** Full statement: the style sheets of a document are the built-in ones, then those of its
    [style] and [link] elements, in document order. Proved for documents as read from HTML, for the
    HTML [style] elements whatever their [media] and the links with [rel] exactly "stylesheet". *)
Theorem C136_document_order_partial : forall fetch bundle quirks markdown doc, Forall html_like doc ->
  exists builtin, (forall doc', exists l, document_sheets fetch bundle quirks markdown doc' = map (fun s => (USER_AGENT, bundle s)) builtin ++ l) /\
  (In "html-quirk.css"%string builtin <-> quirks = true) /\ (In "markdown.css"%string builtin <-> markdown = true) /\
  (forall s, In s ["html.css"; "counters.css"; "print.css"; "svg.css"; "math.css"]%string -> In s builtin) /\
  document_sheets fetch bundle quirks markdown doc =
  map (fun s => (USER_AGENT, bundle s)) builtin ++ map (fun s => (AUTHOR, s)) (flat_map (node_sheets fetch) (flat_map preorder doc)).
Proof.
  intros fetch bundle quirks markdown doc H. exists (builtin_sheets quirks markdown). split; [|split; [|split; [|split]]].
  - intros doc'. eexists. reflexivity.
  - destruct quirks, markdown; cbn; intuition discriminate.
  - destruct quirks, markdown; cbn; intuition discriminate.
  - intros s Hs. unfold builtin_sheets. rewrite !in_app_iff. cbn in Hs |- *. tauto.
  - unfold document_sheets. now rewrite fetch_preorder_all.
Qed.
Print Assumptions C136_document_order_partial.

Definition el (s : string) (attrs : list (string * string)) (kids : list node) : node :=
  Element (html_tag s) (map (fun a => (mkQName None (of_string (fst a)), of_string (snd a))) attrs) kids.
Definition ex_doc : list node :=
  [Doctype (of_string "html");
   el "html" [] [
     el "head" [] [el "style" [] [Text (of_string "a{}")]; el "link" [("rel", "stylesheet"); ("href", "x.css")]%string [];
                   el "link" [("rel", "icon"); ("href", "y.png")]%string []];
     el "body" [] [el "img" [("src", "z.png")]%string []; el "div" [] [el "link" [("href", "gone.css"); ("rel", "stylesheet")]%string []; el "style" [] [Text (of_string "b{}")]]]]].
Definition ex_fetch (u : str) : option str := if str_eqb u (of_string "x.css") then Some (of_string "x{}") else None.
Example C136_example : Forall html_like ex_doc /\
  document_sheets ex_fetch of_string true false ex_doc =
  map (fun s => (USER_AGENT, of_string s)) ["html.css"; "counters.css"; "html-quirk.css"; "print.css"; "svg.css"; "math.css"]%string ++
  map (fun s => (AUTHOR, of_string s)) ["a{}"; "x{}"; "b{}"]%string.
Proof.
  split; [|reflexivity]. repeat constructor; cbn; repeat split; auto; try discriminate; intros [H|H]; discriminate.
Qed.

(** But the [media] attribute is not looked at, other spellings of [rel] hide the sheet, and a
    [style] element in SVG is no sheet. *)
Theorem C136_document_order_refuted :
  (forall fetch m attrs kids, fetch_resources fetch (Element (html_tag "style") ((mkQName None (of_string "media"), m) :: attrs) kids) =
     fetch_resources fetch (Element (html_tag "style") attrs kids)) /\
  (forall fetch m attrs kids, fetch_resources fetch (Element (html_tag "link") ((mkQName None (of_string "media"), m) :: attrs) kids) =
     fetch_resources fetch (Element (html_tag "link") attrs kids)) /\
  (forall fetch rel attrs kids, rel <> of_string "stylesheet" ->
     fetch_resources fetch (Element (html_tag "link") ((mkQName None (of_string "rel"), rel) :: attrs) kids) = []) /\
  (forall fetch attrs s, fetch_resources fetch (Element (mkQName (Some svg_ns) (of_string "style")) attrs [Text s]) = []).
Proof.
  split; [|split; [|split]]; try reflexivity.
  intros fetch rel attrs kids N. apply str_eqb_neq in N. cbn [fetch_resources].
  change (attribute ((mkQName None (of_string "rel"), rel) :: attrs) "rel") with (Some rel).
  change (qname_eqb (html_tag "link") (html_tag "link")) with true. cbn [opt_eqb]. rewrite N. reflexivity.
Qed.
Print Assumptions C136_document_order_refuted.

(** ** C137 *)

Definition links_to (bad : str -> bool) (x : node) : bool :=
  match x with
  | Element q attrs _ => qname_eqb q (html_tag "link") && match attr attrs "href" with Some u => bad u | None => false end
  | _ => false
  end.

(** A style sheet that cannot be loaded is as if its [link] were not there; the others are the
    same, in the same order. *)
Theorem C137_failed_loads_partial : forall (fetch : str -> option str) (bad : str -> bool) doc, Forall html_like doc ->
  flat_map (fetch_resources (fun u : str => if bad u then None else fetch u)) doc =
  flat_map (node_sheets fetch) (filter (fun x => negb (links_to bad x)) (flat_map preorder doc)).
Proof.
  intros fetch bad doc H. rewrite fetch_preorder_all by exact H. induction (flat_map preorder doc) as [|x l IH]; [reflexivity|].
  assert (Q : node_sheets (fun u => if bad u then None else fetch u) x = if links_to bad x then [] else node_sheets fetch x).
  { destruct x as [q attrs kids|s|s|s]; try reflexivity. cbn [node_sheets links_to]. destruct (qname_eqb q (html_tag "style")) eqn:Es.
    - apply qname_eqb_eq in Es. rewrite Es. reflexivity.
    - destruct (qname_eqb q (html_tag "link")); cbn [andb]; [|reflexivity].
      destruct (attr attrs "rel") as [r|], (attr attrs "href") as [u|]; try reflexivity; destruct (bad u); try reflexivity.
      destruct (str_eqb r (of_string "stylesheet")); reflexivity. }
  cbn [flat_map filter]. rewrite IH, Q. destruct (links_to bad x); reflexivity.
Qed.
Print Assumptions C137_failed_loads_partial.
Example C137_example : flat_map (fetch_resources (fun u => if str_eqb u (of_string "x.css") then None else Some (of_string "c{}"))) ex_doc =
  map of_string ["a{}"; "c{}"; "b{}"]%string.
Proof. reflexivity. Qed.
End Documents.

(** ** C138 *)

Section Reading.
Context {P : Type}.
Variable read_decl : str -> list sst -> bool -> option P.

(** A style rule of the result stands for the written one. *)
Definition stands_for (ns : namespaces) (o : origin) (y : selector * (list P * origin)) (x : slist * list wdecl) : Prop :=
  let '(s, (props, o')) := y in
  o' = o /\
  props = flat_map (fun d => match read_decl (wd_name d) (wd_value d) (wd_important d) with Some p => [p] | None => [] end) (snd x) /\
  (forall t e pe, is_elem t e ->
     (sem t s e pe <-> exists c, In c (slist_cplx (fst x)) /\ matches_complex t (m_cplx ns left_assoc c) e pe)) /\
  css_spec s = css_spec (meaning ns (fst x)).

Lemma stands ns o y x : slist_ok ns (fst x) -> reads_as read_decl ns o y x -> stands_for ns o y x.
Proof.
  intros O H. unfold reads_as in H. rewrite H. destruct (parse_meaning ns (fst x) O) as (N & _ & E).
  split; [reflexivity|]. split; [reflexivity|]. split; [|apply css_spec_same].
  intros t e pe He. rewrite (E t e pe). now apply meaning_list.
Qed.
Lemma applies_ok ns m rules out : applies m rules out -> Forall (rule_ok ns) rules -> Forall (fun x => slist_ok ns (fst x)) out.
Proof.
  induction 1; intros F; try (apply Forall_cons_iff in F as (F1 & F2)).
  - constructor.
  - constructor; [exact F1|now apply IHapplies].
  - apply Forall_app. split; [|now apply IHapplies2]. apply IHapplies1. destruct F1 as (_ & F1).
    clear -F1. induction rules as [|x l IH]; constructor; [apply F1|apply IH; apply F1].
  - now apply IHapplies.
  - now apply IHapplies.
  - now apply IHapplies.
  - now apply IHapplies.
  - now apply IHapplies.
Qed.

(** Full statement: the style rules of a sheet that apply on a device are, in order, those at the
    top level and those in the [@media] rules that hold, each with its selector, its declarations
    and the sheet's origin; the other at-rules add none. Proved for sheets of the rules of [crule], with the selectors
    of C06, the media queries of C15 and the page selectors of C61, and the namespaces first. *)
Theorem C138_style_rules_partial : forall o s, sheet_ok s ->
  exists N rules, (forall n, N <= n -> parse_sheet read_decl n o (show_sheet s) = Ok rules) /\
  forall m, typed_media m -> exists out, applies m (sh_rules s) out /\ (forall out', applies m (sh_rules s) out' -> out' = out) /\
    Forall2 (stands_for (declared_ns (sh_ns s)) o) (flat_map (style_rules m) rules) out.
Proof.
  intros o s O. destruct (sheet_written read_decl o s O) as (N & rs & E & M). exists N, rs. split; [exact E|].
  intros m T. destruct (M m T) as (out & A & F). exists out. split; [exact A|]. split; [intros out' A'; symmetry; eapply applies_det; eassumption|].
  pose proof (applies_ok _ _ _ _ A O) as G. clear -F G. induction F as [|y x l l' H F IH]; [constructor|].
  apply Forall_cons_iff in G as (G1 & G2). constructor; [now apply stands|now apply IH].
Qed.

(** An invalid selector makes its rule match nothing. *)
Theorem C138_invalid_selector : forall n o ns t prefix content, rule_name t = [] -> parse ns n prefix = Ok None ->
  exists props, parse_rule read_decl n o (RULE t prefix content) ns = Ok (StyleRule EmptySel props o, ns) /\
  forall d e pe, ~ sem d EmptySel e pe.
Proof.
  intros n o ns t prefix content H E. exists (read_props read_decl content). split; [|intros d e pe []].
  cbn [parse_rule]. unfold named. rewrite H. cbn. unfold parse_style. rewrite E. reflexivity.
Qed.

Fixpoint tree_size (x : sst) : nat :=
  match x with RULE _ _ c => S (fold_right (fun y n => tree_size y + n) 0 c) | _ => 1 end.
Lemma tree_size_pos x : 1 <= tree_size x. Proof. destruct x; cbn; lia. Qed.

(** All the style rules of a sheet have its origin, whatever the sheet; what [@supports] leaves has no declaration. *)
Definition has_origin (o : origin) (y : selector * (list P * origin)) : Prop := snd (snd y) = o \/ (fst (snd y) = [] /\ snd (snd y) = AUTHOR).
Lemma parse_rule_origin k : (forall x n o ns r ns' m y, tree_size x <= k -> parse_rule read_decl n o x ns = Ok (r, ns') -> In y (style_rules m r) -> has_origin o y) /\
  (forall l n o ns rs ns' m y, fold_right (fun y n => tree_size y + n) 0 l <= k -> parse_rules read_decl n o l ns = Ok (rs, ns') -> In y (flat_map (style_rules m) rs) -> has_origin o y).
Proof.
  induction k as [|k (IH1 & IH2)].
  - split; [intros x ? ? ? ? ? ? ? L; pose proof (tree_size_pos x); lia|]. intros [|x l] n o ns rs ns' m y L E Hy; [|pose proof (tree_size_pos x); cbn in L; lia].
    cbn in E. injection E as <- _. destruct Hy.
  - assert (H1 : forall x n o ns r ns' m y, tree_size x <= S k -> parse_rule read_decl n o x ns = Ok (r, ns') -> In y (style_rules m r) -> has_origin o y).
    { intros x n o ns r ns' m y L E Hy. destruct x as [tk|nm c|c|t prefix content|nm c i]; try discriminate E. cbn [tree_size] in L.
      destruct (named t "@media") eqn:Em.
      - assert (Ht : rule_name t = of_string "@media") by (now apply str_eqb_spec in Em).
        assert (Er : parse_rule read_decl n o (RULE t prefix content) ns = parse_rule read_decl n o (RULE (at_tok "@media") prefix content) ns)
          by (cbn [parse_rule]; unfold named; rewrite Ht; reflexivity).
        rewrite Er, parse_rule_media in E. destruct (parse_media_query n prefix) as [q| |]; try discriminate E. cbn [obind] in E.
        destruct (parse_rules read_decl n o content ns) as [[rs ns1]| |] eqn:Ec; try discriminate E. injection E as <- _. cbn [style_rules] in Hy.
        destruct (match_query q m); [|destruct Hy]. eapply IH2; [|exact Ec|exact Hy]. lia.
      - cbn [parse_rule] in E. rewrite Em in E. destruct (named t "@import"); [injection E as <- _; destruct Hy|].
        destruct (named t "@font-face"); [injection E as <- _; destruct Hy|]. destruct (named t "@counter-style").
        { unfold parse_counter in E. destruct (eat_wss prefix) as [|[t1| | | |] ?]; try discriminate E. destruct (ttype_beq (t_type t1) IDENT); [|discriminate E]. injection E as <- _. destruct Hy. }
        destruct (named t "@page").
        { unfold parse_page in E. destruct (PageModel.parse_list n prefix); try discriminate E. injection E as <- _. destruct Hy. }
        destruct (named t "@supports"); [injection E as <- _; destruct Hy as [<-|[]]; right; now split|]. destruct (named t "@namespace").
        { unfold parse_namespace in E. destruct (eat_wss prefix) as [|x1 r1]; [discriminate E|].
          match type of E with (let '(_, _) := ?w in _) = _ => destruct w as [pp cc] end. destruct (parse_uri (eat_wss cc)); injection E as <- _; destruct Hy. }
        unfold parse_style in E. destruct (parse ns n prefix) as [s| |]; try discriminate E. injection E as <- _. destruct Hy as [<-|[]]. now left. }
    split; [exact H1|]. induction l as [|x l IHl]; intros n o ns rs ns' m y L E Hy; [cbn in E; injection E as <- _; destruct Hy|].
    cbn [fold_right] in L. pose proof (tree_size_pos x). destruct x as [tk|nm c|c|t prefix content|nm c i];
      try (cbn [parse_rules] in E; eapply IHl; [|exact E|exact Hy]; lia).
    rewrite parse_rules_cons in E. destruct (parse_rule _ _ _ _ _) as [[r ns1]| |] eqn:Er; try discriminate E. cbn [obind fst snd] in E.
    destruct (parse_rules read_decl n o l ns1) as [[rs1 ns2]| |] eqn:El; try discriminate E. injection E as <- _. cbn [flat_map] in Hy.
    apply in_app_or in Hy as [Hy|Hy]; [eapply H1; [|exact Er|exact Hy]; lia|eapply IHl; [|exact El|exact Hy]; lia].
Qed.
Theorem C138_origin : forall n o items rules m s props o', parse_sheet read_decl n o items = Ok rules ->
  In (s, (props, o')) (flat_map (style_rules m) rules) -> o' = o \/ (props = [] /\ o' = AUTHOR).
Proof.
  intros n o items rules m s props o' E Hi. unfold parse_sheet, omap in E. destruct (parse_rules _ _ _ _ _) as [[rs ns]| |] eqn:Er; try discriminate E.
  injection E as <-. exact (proj2 (parse_rule_origin _) _ _ _ _ _ _ m _ (le_n _) Er Hi).
Qed.

(** But an unknown at-rule is read as a style rule, for every name that is not one of the seven,
    like [@MEDIA] or [@layer]; the content of [@supports] and the rules nested in a style rule are dropped;
    and nothing is imported. *)
Theorem C138_style_rules_refuted :
  (forall n o ns k prefix content,
     ~ In k (map of_string ["@media"; "@import"; "@font-face"; "@counter-style"; "@page"; "@supports"; "@namespace"]%string) ->
     parse_rule read_decl n o (RULE (Some (mkT AT_KEYWORD k)) prefix content) ns = parse_rule read_decl n o (RULE None prefix content) ns) /\
  (forall n o ns prefix content m, exists r, parse_rule read_decl n o (RULE (at_tok "@supports") prefix content) ns = Ok (r, ns) /\
     flat_map (fun y => fst (snd y)) (style_rules m r) = []) /\
  (forall n o ns prefix c1 t p c c2, parse_style read_decl n prefix (c1 ++ RULE t p c :: c2) o ns = parse_style read_decl n prefix (c1 ++ c2) o ns) /\
  (forall n o ns prefix content m, exists r, parse_rule read_decl n o (RULE (at_tok "@import") prefix content) ns = Ok (r, ns) /\ style_rules m r = []).
Proof.
  split; [|split; [|split]].
  - intros n o ns k prefix content N. cbn [parse_rule]. unfold named, rule_name. cbn [t_data].
    assert (H : forall s, In s (["@media"; "@import"; "@font-face"; "@counter-style"; "@page"; "@supports"; "@namespace"]%string) -> str_eqb k (of_string s) = false).
    { intros s Hs. apply str_eqb_neq. intros ->. apply N. now apply in_map. }
    rewrite !H by (cbn; tauto). reflexivity.
  - intros. eexists. split; reflexivity.
  - intros n o ns prefix c1 t p c c2. unfold parse_style. destruct (parse ns n prefix); cbn [obind]; try reflexivity. do 2 f_equal.
    induction c1 as [|x c1 IH]; [reflexivity|]. cbn [app read_props]. destruct x; rewrite ?IH; reflexivity.
  - intros. eexists. split; reflexivity.
Qed.

(** ** C139 *)

(** Every page rule has selectors whose reading ends (C61). *)
Fixpoint pages_ok (x : sst) : Prop :=
  match x with
  | RULE t prefix content =>
    (rule_name t = of_string "@page" -> PageProps.plain prefix) /\ fold_right (fun y Q => pages_ok y /\ Q) True content
  | _ => True
  end.

Lemma obind_fuel {A B} (x : outcome A) (f : A -> outcome B) : x <> OutOfFuel -> (forall a, f a <> OutOfFuel) -> obind x f <> OutOfFuel.
Proof. destruct x; cbn; auto; discriminate. Qed.

Lemma rules_end k : forall l, fold_right (fun y n => tree_size y + n) 0 l <= k -> Forall pages_ok l ->
  exists N, forall n o ns, N <= n -> parse_rules read_decl n o l ns <> OutOfFuel.
Proof.
  induction k as [|k IH]; intros l L F.
  - destruct l as [|x l]; [|pose proof (tree_size_pos x); cbn in L; lia]. exists 0. discriminate.
  - destruct l as [|x l]; [exists 0; discriminate|]. cbn [fold_right] in L. pose proof (tree_size_pos x). apply Forall_cons_iff in F as (Fx & F).
    destruct (IH l ltac:(lia) F) as (N1 & E1).
    destruct x as [t|nm c|c|t prefix content|nm c i];
      try (exists N1; intros n o ns Ln; cbn [parse_rules]; apply E1; exact Ln).
    assert (Q : exists N, forall n o ns, N <= n -> parse_rule read_decl n o (RULE t prefix content) ns <> OutOfFuel).
    { cbn [pages_ok] in Fx. destruct Fx as (Fp & Fc).
      assert (Fc' : Forall pages_ok content) by (clear -Fc; induction content; constructor; [apply Fc|apply IHcontent; apply Fc]).
      cbn [tree_size] in L. destruct (IH content ltac:(lia) Fc') as (N2 & E2).
      destruct (named t "@media") eqn:Em.
      - exists (N2 + (3 * MediaProofs.size prefix + 3)). intros n o ns Ln.
        assert (Ht : rule_name t = of_string "@media") by (now apply str_eqb_spec in Em).
        assert (Er : parse_rule read_decl n o (RULE t prefix content) ns = parse_rule read_decl n o (RULE (at_tok "@media") prefix content) ns)
          by (cbn [parse_rule]; unfold named; rewrite Ht; reflexivity).
        rewrite Er, parse_rule_media. apply obind_fuel; [apply media_total; lia|]. intros q. apply obind_fuel; [apply E2; lia|discriminate].
      - destruct (named t "@page") eqn:Ep.
        + assert (Ht : rule_name t = of_string "@page") by (now apply str_eqb_spec in Ep).
          destruct (page_good prefix (Fp Ht)) as (N3 & pl & E3). exists N3. intros n o ns Ln. cbn [parse_rule]. unfold named. rewrite Ht. cbn [str_eqb].
          change (str_eqb (of_string "@page") (of_string "@media")) with false. change (str_eqb (of_string "@page") (of_string "@import")) with false.
          change (str_eqb (of_string "@page") (of_string "@font-face")) with false. change (str_eqb (of_string "@page") (of_string "@counter-style")) with false.
          change (str_eqb (of_string "@page") (of_string "@page")) with true. cbn match. unfold parse_page. rewrite E3 by exact Ln. discriminate.
        + exists (8 * SelectorParseTotal.size prefix + 6). intros n o ns Ln. cbn [parse_rule]. rewrite Em, Ep.
          destruct (named t "@import"); [discriminate|]. destruct (named t "@font-face"); [discriminate|].
          destruct (named t "@counter-style").
          { apply obind_fuel; [|discriminate]. unfold parse_counter. destruct (eat_wss prefix) as [|[]]; try discriminate. destruct (ttype_beq _ _); discriminate. }
          destruct (named t "@supports"); [discriminate|]. destruct (named t "@namespace").
          { unfold parse_namespace. destruct (eat_wss prefix) as [|x r]; [discriminate|].
            match goal with |- (let '(_, _) := ?w in _) <> _ => destruct w as [pp cc] end. destruct (parse_uri (eat_wss cc)); discriminate. }
          apply obind_fuel; [|discriminate]. unfold parse_style. apply obind_fuel; [now apply C54_ends|discriminate]. }
    destruct Q as (N2 & E2). exists (N1 + N2). intros n o ns Ln. rewrite parse_rules_cons. apply obind_fuel; [apply E2; lia|].
    intros a. apply obind_fuel; [apply E1; lia|discriminate].
Qed.

(** Full statement: reading a style sheet ends, and does not end the process. Proved: it ends
    when the selectors of page rules are names and pseudo-classes; C138 shows that it does not crash on
    the sheets of its statement. *)
Theorem C139_reading_ends_partial : forall items, Forall pages_ok items ->
  exists N, forall n o, N <= n -> parse_sheet read_decl n o items <> OutOfFuel.
Proof.
  intros items F. destruct (rules_end _ items (le_n _) F) as (N & E). exists N. intros n o L. unfold parse_sheet, omap.
  apply obind_fuel; [now apply E|discriminate].
Qed.

(** [@page a, b {}] is read for ever, whatever precedes and follows it when what precedes is fine; and [@counter-style {}], [@namespace;] and
    [@media () {}] end the process. *)
Theorem C139_reading_refuted :
  (forall n o content rest, parse_sheet read_decl n o (RULE (at_tok "@page") [id_tok (of_string "a"); comma; id_tok (of_string "b")] content :: rest) = OutOfFuel) /\
  (forall n o content rest, parse_sheet read_decl n o (RULE (at_tok "@counter-style") [] content :: rest) = Panic) /\
  (forall n o content rest, parse_sheet read_decl n o (RULE (at_tok "@namespace") [] content :: rest) = Panic) /\
  (forall n o content rest, 6 <= n -> parse_sheet read_decl n o (RULE (at_tok "@media") [BLOCK []] content :: rest) = Panic).
Proof.
  split; [|split; [|split]]; try reflexivity.
  - intros n o content rest. unfold parse_sheet. rewrite parse_rules_cons. cbn [parse_rule].
    change (named (at_tok "@page") "@media") with false. change (named (at_tok "@page") "@import") with false.
    change (named (at_tok "@page") "@font-face") with false. change (named (at_tok "@page") "@counter-style") with false.
    change (named (at_tok "@page") "@page") with true. cbn match. unfold parse_page.
    pose proof (proj1 PageProps.C61_reading_page_selectors_ends_refuted n) as E. unfold id_tok, comma. rewrite E. reflexivity.
  - intros n o content rest L. unfold parse_sheet. rewrite parse_rules_cons, parse_rule_media.
    destruct (C51_crash_refuted n L) as (-> & _). reflexivity.
Qed.
End Reading.
Print Assumptions C138_style_rules_partial.
Print Assumptions C138_invalid_selector.
Print Assumptions C138_origin.
Print Assumptions C138_style_rules_refuted.
Print Assumptions C139_reading_ends_partial.
Print Assumptions C139_reading_refuted.
