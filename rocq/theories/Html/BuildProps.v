(** Properties of parsing HTML. *)
From Coq Require Import String List Arith Bool NArith Lia Permutation.
From Verif.Base Require Import Str.
From Verif.Html Require Import LexerModel SerialModel SerialSpec SvgNames FromSpec HtmlProps BuildModel BuildSpec BuildDoc BuildFrag BuildFrom.
Import ListNotations.
Local Open Scope list_scope.
Local Open Scope N_scope.

Lemma lexes_by_name : lexes switch_by_name.
Proof. intros ns H. apply C22_serialisation_roundtrip_partial; [exact switch_by_name_ok|exact H]. Qed.

(** ** C98: a conforming document survives writing and parsing *)
Theorem C98_conforming_document_survives : forall doc,
  conforming doc -> Forall expressible doc ->
  exists doc', parse (serialize doc) = Tree doc' /\ Forall2 same_tree doc doc'.
Proof. intros doc Hc He. exact (rebuilt switch_by_name doc switch_by_name_ok lexes_by_name Hc He). Qed.
Print Assumptions C98_conforming_document_survives.

Definition at_name (n : string) (v : string) : qname * str := (mkQName None (of_string n), of_string v).
Definition T (s : string) : node := Text (of_string s).
Definition sample_head : list node :=
  [html_node "meta" [at_name "charset" "utf-8"] []; html_node "title" [] [T "Invoice <1>"];
   html_node "style" [] [T "td > p { color: red }"]].
Definition sample_body : list node :=
  [T "intro "; html_node "p" [at_name "class" "a"; at_name "id" "b"] [T "x "; html_node "b" [] [html_node "i" [] [T "y & z"]]; html_node "br" [] []];
   html_node "ul" [] [html_node "li" [] [T "1"]; T " "; html_node "li" [] [html_node "p" [] [T "2"]]];
   html_node "table" []
     [html_node "caption" [] [T "c"]; html_node "colgroup" [] [html_node "col" [] []];
      html_node "thead" [] [html_node "tr" [] [html_node "th" [] [T "h"]; html_node "th" [] []]];
      html_node "tbody" []
        [T " "; html_node "tr" []
           [html_node "td" [at_name "colspan" "2"] [html_node "div" [] [html_node "table" [] [html_node "tbody" [] [html_node "tr" [] [html_node "td" [] [T "in"]]]]]]]]];
   html_node "pre" [] [T "a  b"]; html_node "form" [] [html_node "textarea" [] [T "<p>"]; html_node "input" [at_name "type" "text"] []];
   html_node "h1" [] [T "end"]].
Definition sample_doc : list node :=
  [Comment (of_string " top "); Doctype (of_string "html");
   html_node "html" [at_name "lang" "en"] [html_node "head" [] sample_head; T " "; html_node "body" [at_name "class" "o_pdf"] sample_body]].
Ltac not_in := let H := fresh in intros H; vm_compute in H; repeat (destruct H as [H|H]; [discriminate|]); contradiction.
Example C98_sample_conforming : conforming sample_doc.
Proof.
  refine (conforming_doc [Comment (of_string " top ")] [Doctype (of_string "html")] [] [T " "] [at_name "lang" "en"] [] [at_name "class" "o_pdf"] sample_head sample_body _ _ _ _ _ _ _ _ _); try reflexivity.
  - repeat constructor. eexists. reflexivity.
  - right. eexists. reflexivity.
  - constructor.
  - constructor; [|constructor]. right. eexists. split; [reflexivity|]. split; [discriminate|]. constructor; [|constructor]. right. right. right. reflexivity.
  - unfold sample_head. repeat (apply Forall_cons; [|try apply Forall_nil]); cbn; repeat split; try discriminate; right; eexists; (split; [reflexivity|discriminate]).
  - unfold sample_body. assert (blank 32) as Hb by (right; right; right; reflexivity).
    repeat (apply Forall_cons; [|try apply Forall_nil]); vm_compute; repeat split; try discriminate; try (constructor; [exact Hb|constructor]); try (right; eexists; (split; [reflexivity|discriminate])); intros; discriminate.
Qed.
Example C98_sample_expressible : Forall expressible sample_doc.
Proof.
  assert (comment_ok (of_string " top ")) as Hc.
  { split; [split; not_in|]. split; [intros r; discriminate|]. split; [intros r; discriminate|]. split.
    - intros a b E. assert (In 45 (of_string " top ")) as Hi by (rewrite E; apply in_elt). revert Hi. not_in.
    - intros a E. assert (In 45 (of_string " top ")) as Hi by (rewrite E; apply in_elt). revert Hi. not_in. }
  assert (raw_ok (of_string "td > p { color: red }")) as Hr.
  { split; [split; not_in|]. split; intros a b E.
    - assert (In 47 (of_string "td > p { color: red }")) as Hi by (rewrite E; apply in_or_app; right; right; left; reflexivity). revert Hi. not_in.
    - assert (In 33 (of_string "td > p { color: red }")) as Hi by (rewrite E; apply in_or_app; right; right; left; reflexivity). revert Hi. not_in. }
  repeat (first [exact Hc|exact Hr|constructor]).
  all: try discriminate.
  all: try not_in.
Qed.
Example C98_sample_case : parse (serialize sample_doc) = Tree sample_doc.
Proof. vm_compute. reflexivity. Qed.

(** ** C99: content without html, head and body *)
Theorem C99_fragment_gets_its_body : forall ns,
  (exists n r, ns = n :: r /\ opens_body n) ->
  Forall (fits Flow [of_string "body"; of_string "html"]) ns -> no_double_text ns = true -> Forall expressible ns ->
  exists ns', parse (serialize ns) = Tree [html_node "html" [] [html_node "head" [] []; html_node "body" [] ns']] /\
              Forall2 same_tree ns ns'.
Proof. intros ns Ho Hf Hd He. exact (fragment_rebuilt switch_by_name ns switch_by_name_ok lexes_by_name Hf Hd He Ho). Qed.
Print Assumptions C99_fragment_gets_its_body.
Example C99_fragment_case : exists ns',
  parse (of_string "<p>a</p><table><tbody><tr><td>b</td></tr></tbody></table>") = Tree [html_node "html" [] [html_node "head" [] []; html_node "body" [] ns']] /\
  Forall2 same_tree [html_node "p" [] [T "a"]; html_node "table" [] [html_node "tbody" [] [html_node "tr" [] [html_node "td" [] [T "b"]]]]] ns'.
Proof.
  apply (C99_fragment_gets_its_body [html_node "p" [] [T "a"]; html_node "table" [] [html_node "tbody" [] [html_node "tr" [] [html_node "td" [] [T "b"]]]]]).
  - eexists. eexists. split; reflexivity.
  - repeat (apply Forall_cons; [|try apply Forall_nil]); vm_compute; repeat split; try discriminate.
  - reflexivity.
  - repeat constructor; try discriminate; not_in.
Qed.

(** ** C100: parsing ends with a document *)

(** Full claim: [forall s, exists doc, parse s = Tree doc].  It holds for the documents and the pieces
    of C98 and C99; each of the inputs below ends the process, or never ends. *)
Theorem C100_parsing_gives_a_document_partial : forall doc,
  Forall expressible doc ->
  conforming doc \/ (exists n r, doc = n :: r /\ opens_body n) /\ Forall (fits Flow [of_string "body"; of_string "html"]) doc /\ no_double_text doc = true ->
  exists doc', parse (serialize doc) = Tree doc'.
Proof.
  intros doc He [Hc|(Ho & Hf & Hd)].
  - destruct (C98_conforming_document_survives doc Hc He) as (doc' & H & _). eauto.
  - destruct (C99_fragment_gets_its_body doc Ho Hf Hd He) as (doc' & H & _). eauto.
Qed.
Print Assumptions C100_parsing_gives_a_document_partial.
Example C100_parsing_case : exists doc', parse (serialize sample_doc) = Tree doc'.
Proof. apply C100_parsing_gives_a_document_partial; [exact C98_sample_expressible|left; exact C98_sample_conforming]. Qed.

(** An end tag across a cell empties the stack of open elements, and its top is then read. *)
Theorem C100_end_tag_across_cell_refuted : ~ forall s, exists doc, parse s = Tree doc.
Proof. intros H. destruct (H (of_string "<span><table><tr><td>a</span></td><td>b")) as (doc & E). vm_compute in E. discriminate. Qed.
Print Assumptions C100_end_tag_across_cell_refuted.
Example C100_end_tag_across_cell_case : parse (of_string "<span><table><tr><td>a</span></td><td>b") = BuildFail NoCurrent.
Proof. vm_compute. reflexivity. Qed.
Example C100_foreign_in_cell_case : parse (of_string "<table><tr><td><svg></td><td>") = BuildFail NoCurrent.
Proof. vm_compute. reflexivity. Qed.
(** Five nested formatting elements around a block, closed in the wrong order. *)
Theorem C100_deep_formatting_refuted : parse (of_string "<b><i><u><s><code><p></b>") = BuildFail OutOfRange.
Proof. vm_compute. reflexivity. Qed.
Print Assumptions C100_deep_formatting_refuted.
(** The end tag of a paragraph in an SVG title: the parser calls itself for ever. *)
Lemma loops t s f : in_html_content t s = false -> ends ["br"; "p"]%string t = true -> s_skip_lf s = false ->
  leave_foreign (s_dom s) (s_stack s) = s_stack s -> dispatch f None t s = Fail TooDeep.
Proof.
  intros Hc He Hs Hl. assert (is_end t = true) as Hend by (unfold ends in He; apply andb_true_iff in He; tauto).
  assert (set_skip false s = s) as E0 by (destruct s; cbn in *; now subst).
  assert (set_stack (leave_foreign (s_dom s) (s_stack s)) s = s) as E1 by (rewrite Hl; destruct s; reflexivity).
  induction f as [|f IH]; [reflexivity|]. cbn [dispatch]. rewrite Hs. cbn [andb]. cbv zeta. rewrite E0, Hc. unfold on_foreign.
  assert (is_char t = false /\ is_comment t = false /\ is_doctype t = false) as (H1 & H2 & H3).
  { unfold is_end, is_char, is_comment, is_doctype in *. destruct (t_type t); try discriminate; auto. }
  assert (is_nul t = false) as -> by (unfold is_nul; now rewrite H1). assert (is_blank t = false) as -> by (unfold is_blank; now rewrite H1).
  rewrite H1, H2, H3, He, orb_true_r. unfold BuildModel.seq, pure. cbn [andthen]. rewrite E1. exact IH.
Qed.
Theorem C100_endless_recursion_refuted :
  exists s t, build [tag_token T_START_TAG (of_string "svg") []; tag_token T_START_TAG (of_string "title") []] st_init = Done s /\
    t = tag_token T_END_TAG (of_string "p") [] /\ forall calls, dispatch calls None t (set_switch None s) = Fail TooDeep.
Proof.
  destruct (build [tag_token T_START_TAG (of_string "svg") []; tag_token T_START_TAG (of_string "title") []] st_init) as [s|w] eqn:E; [|vm_compute in E; discriminate].
  exists s, (tag_token T_END_TAG (of_string "p") []). split; [reflexivity|]. split; [reflexivity|]. intros f. vm_compute in E. injection E as <-. apply loops; vm_compute; reflexivity.
Qed.
Print Assumptions C100_endless_recursion_refuted.
Example C100_endless_recursion_case : parse (of_string "<svg><title></p>") = BuildFail TooDeep.
Proof. vm_compute. reflexivity. Qed.

(** ** C101: all that is in the document comes from the text *)
Theorem C101_content_comes_from_the_text : forall s doc,
  parse s = Tree doc -> exists ts, tokenize builder_sink s = Ok ts /\ Forall (node_from ts) (flat_map nodes_of doc).
Proof.
  intros s doc E. unfold parse in E. destruct (tokenize builder_sink s) as [ts|w]; [|discriminate]. exists ts. split; [reflexivity|].
  destruct (build ts st_init) as [s'|w] eqn:Eb; [|discriminate]. injection E as <-. exact (build_provenance ts s' Eb).
Qed.
Print Assumptions C101_content_comes_from_the_text.
Example C101_case : exists doc, parse (of_string "<b><p a=1>x</b>y<svg viewbox=0><lineargradient/></svg><!--c-->") = Tree doc /\ length (flat_map nodes_of doc) = 11%nat.
Proof. eexists. split; [vm_compute; reflexivity|vm_compute; reflexivity]. Qed.
(** A document made of another's tokens would not do. *)
Example C101_not_vacuous : ~ node_from [char_token 97] (Text [98]).
Proof. intros (_ & H). inversion H as [|? ? (t & [<-|[]] & _ & [Ht|[Ht _]]) _]; subst; vm_compute in Ht; discriminate. Qed.

(** ** C102: no text is there twice *)
Theorem C102_text_is_not_duplicated : forall s doc,
  parse s = Tree doc -> exists ts, tokenize builder_sink s = Ok ts /\ forall c, (text_count c doc <= token_count c ts)%nat.
Proof.
  intros s doc E. unfold parse in E. destruct (tokenize builder_sink s) as [ts|w]; [|discriminate]. exists ts. split; [reflexivity|].
  destruct (build ts st_init) as [s'|w] eqn:Eb; [|discriminate]. injection E as <-. intros c. exact (build_text ts s' c Eb).
Qed.
Print Assumptions C102_text_is_not_duplicated.
Example C102_case : exists doc, parse (of_string "<table><b>x<tr>y<td><i><p>x</i>z</table>") = Tree doc /\
  text_count 120 doc = 2%nat /\ text_count 121 doc = 1%nat /\ text_count 122 doc = 1%nat.
Proof. eexists. split; [vm_compute; reflexivity|]. repeat split. Qed.

(** ** C103: html, head and body *)

(** Full claim: every parsed document has one html element, with one head and one body or frameset.
    It holds for the inputs of C98 and C99; it fails when the text ends in an element of raw text. *)
Definition names_of (ns : list node) : list (str) := flat_map (fun n => match n with Element q _ _ => [q_name q] | _ => [] end) ns.
Definition has_parts (doc : list node) : Prop :=
  exists a kids, flat_map (fun n => match n with Element q a k => [(q_name q, a, k)] | _ => [] end) doc = [(of_string "html", a, kids)] /\
    names_of kids = [of_string "head"; of_string "body"].
Theorem C103_document_has_its_parts_partial : forall doc, conforming doc -> Forall expressible doc ->
  exists doc', parse (serialize doc) = Tree doc' /\ has_parts doc'.
Proof.
  intros doc Hc He. destruct (C98_conforming_document_survives doc Hc He) as (doc' & Hp & Hs). exists doc'. split; [exact Hp|].
  pose proof (same_conforming _ _ Hs Hc) as Hc'. destruct Hc' as [comments doctype before between a1 a2 a3 head body H1 H2 H3 H4 _ _ _ _ _].
  exists a1, (before ++ [html_node "head" a2 head] ++ between ++ [html_node "body" a3 body]).
  assert (forall (A : Type) (f : qname -> list (qname * str) -> list node -> A) l, Forall is_comment_node l -> flat_map (fun n => match n with Element q a k => [f q a k] | _ => [] end) l = []) as HC.
  { intros A f l H. induction H as [|x l [y ->] _ IH]; [reflexivity|exact IH]. }
  split.
  - rewrite !flat_map_app, HC by exact H1. destruct H2 as [->|[y ->]]; reflexivity.
  - unfold names_of. rewrite !flat_map_app. rewrite (HC _ (fun q _ _ => q_name q) before H3).
    assert (flat_map (fun n => match n with Element q _ _ => [q_name q] | _ => [] end) between = []) as ->; [|reflexivity].
    clear - H4. induction H4 as [|x l [[y ->]|(y & -> & _)] _ IH]; [reflexivity|exact IH|exact IH].
Qed.
Print Assumptions C103_document_has_its_parts_partial.
Example C103_case : exists doc', parse (serialize sample_doc) = Tree doc' /\ has_parts doc'.
Proof. apply C103_document_has_its_parts_partial; [exact C98_sample_conforming|exact C98_sample_expressible]. Qed.
Theorem C103_no_body_refuted : ~ forall s doc, parse s = Tree doc -> has_parts doc.
Proof.
  intros H. destruct (H (of_string "<title>x") _ ltac:(vm_compute; reflexivity)) as (a & kids & E & F). injection E as <- <-. vm_compute in F. discriminate.
Qed.
Print Assumptions C103_no_body_refuted.

(** ** C104: a comment is there once *)
Definition comments_in (doc : list node) : nat := length (filter (fun n => match n with Comment _ => true | _ => false end) (flat_map nodes_of doc)).
Definition comments_of (ts : list token) : nat := length (filter (fun t => match t_type t with T_COMMENT => true | _ => false end) ts).
Lemma comments_same : forall n n', same_tree n n' -> comments_in [n] = comments_in [n'].
Proof.
  fix F 3. intros n n' H. destruct H as [x|x|x|q a a' k k' _ Hk]; try reflexivity. unfold comments_in. cbn [flat_map nodes_of filter]. rewrite !app_nil_r.
  enough (length (filter (fun n => match n with Comment _ => true | _ => false end) (flat_map nodes_of k)) = length (filter (fun n => match n with Comment _ => true | _ => false end) (flat_map nodes_of k'))) by assumption.
  induction Hk as [|x x' l l' Hx _ IH]; [reflexivity|]. cbn [flat_map]. rewrite !filter_app, !app_length, IH. f_equal.
  pose proof (F x x' Hx) as E. unfold comments_in in E. cbn [flat_map] in E. rewrite !app_nil_r in E. exact E.
Qed.
(** Full claim: [comments_in doc = comments_of ts] whenever [parse s = Tree doc] and
    [tokenize builder_sink s = Ok ts].  A conforming document, whose comments are before the doctype or
    within the html element, keeps each of them once. *)
Theorem C104_comments_kept_partial : forall doc, conforming doc -> Forall expressible doc ->
  exists doc', parse (serialize doc) = Tree doc' /\ comments_in doc' = comments_in doc.
Proof.
  intros doc Hc He. destruct (C98_conforming_document_survives doc Hc He) as (doc' & Hp & Hs). exists doc'. split; [exact Hp|]. clear - Hs.
  induction Hs as [|x x' l l' Hx _ IH]; [reflexivity|]. pose proof (comments_same _ _ Hx) as E. unfold comments_in in *. cbn [flat_map] in *. rewrite !app_nil_r in E.
  rewrite !filter_app, !app_length, IH, E. reflexivity.
Qed.
Print Assumptions C104_comments_kept_partial.
Example C104_kept_case : exists doc', parse (serialize sample_doc) = Tree doc' /\ comments_in doc' = 1%nat.
Proof. apply (C104_comments_kept_partial sample_doc); [exact C98_sample_conforming|exact C98_sample_expressible]. Qed.
Theorem C104_comment_between_doctype_and_html_refuted : ~ forall s doc ts,
  parse s = Tree doc -> tokenize builder_sink s = Ok ts -> (comments_in doc <= comments_of ts)%nat.
Proof.
  intros H. specialize (H (of_string "<!DOCTYPE html><!-- c --><html lang=en><body class=a>x") _ _ ltac:(vm_compute; reflexivity) ltac:(vm_compute; reflexivity)).
  vm_compute in H. lia.
Qed.
Print Assumptions C104_comment_between_doctype_and_html_refuted.
(** That comment also starts the html element: the attributes of the real one go to the head. *)
Example C104_attributes_lost_case : parse (of_string "<!DOCTYPE html><!-- c --><html lang=en><body class=a>x") =
  Tree [Doctype (of_string "html"); Comment (of_string " c ");
        html_node "html" [(mkQName (Some []) (of_string "lang"), of_string "en")]
          [Comment (of_string " c "); html_node "head" [] []; html_node "body" [at_name "class" "a"] [T "x"]]].
Proof. vm_compute. reflexivity. Qed.

(** ** C105: formatting ends with its cell *)

(** Full claim: what is after a table has the formatting elements that are around the table.  By C98
    this holds for a conforming document, where the elements are nested; it fails when a cell has an
    end tag in the wrong order. *)
Theorem C105_formatting_leaks_out_of_table_refuted :
  parse (of_string "<table><tr><td><b><p>x</b>y</td></tr></table>z") =
  Tree [html_node "html" [] [html_node "head" [] []; html_node "body" []
    [html_node "table" [] [html_node "tbody" [] [html_node "tr" [] [html_node "td" [] [html_node "b" [] []; html_node "p" [] [html_node "b" [] [T "xy"]]]]]];
     html_node "b" [] [T "z"]]]].
Proof. vm_compute. reflexivity. Qed.
Print Assumptions C105_formatting_leaks_out_of_table_refuted.
