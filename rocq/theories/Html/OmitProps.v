(** Properties of parsing HTML with tags left out. *)
From Coq Require Import String List Arith Bool NArith Lia Permutation.
From Verif.Base Require Import Str.
From Verif.Html Require Import LexerModel SerialModel SerialSpec HtmlProps BuildModel BuildSpec BuildProps OmitSpec OmitLex.
Import ListNotations.
Local Open Scope list_scope.
Local Open Scope N_scope.

(** ** C118: tags that HTML lets an author leave out make no difference *)

(** Full claim: the theorem with [standard] for [but_mistaken].  It does not hold for a p before a table,
    an optgroup before an optgroup or an hr, and an option before an hr: see below. *)
Theorem C118_optional_tags_make_no_difference_partial : forall doc w,
  conforming doc -> Forall expressible doc -> written_document but_mistaken doc w ->
  exists doc', parse w = Tree doc' /\ Forall2 same_tree doc doc'.
Proof. intros doc w. exact (omitted_rebuilt switch_by_name doc w switch_by_name_ok). Qed.
Print Assumptions C118_optional_tags_make_no_difference_partial.

(** A document written without any tag that may be left out. *)
Definition brief_body : list node :=
  [html_node "p" [] [T "a "; html_node "b" [] [T "b"]]; html_node "p" [at_name "id" "q"] [T "c"];
   html_node "ul" [] [html_node "li" [] [T "1"; html_node "p" [] [T "in"]]; html_node "li" [] [html_node "ol" [] [html_node "li" [] [T "2"]]]];
   html_node "dl" [] [html_node "dt" [] [T "x"]; html_node "dd" [] [T "y"; html_node "p" [] [T "z"]]; html_node "dt" [] [T "t"]; html_node "dd" [] []];
   html_node "select" [] [html_node "optgroup" [] [html_node "option" [] [T "o"]; html_node "option" [] [T "p"]]];
   html_node "div" []
     [html_node "p" [] [T "w"];
      html_node "table" []
     [html_node "caption" [] [T "c"]; html_node "colgroup" [] [html_node "col" [] []; html_node "col" [] []];
      html_node "tbody" []
        [html_node "tr" [] [html_node "th" [] [T "h"]; html_node "td" [] [T "1"; html_node "table" [] [html_node "tbody" [] [html_node "tr" [] [html_node "td" [] [T "deep"]]]]]];
         html_node "tr" [] [html_node "td" [at_name "colspan" "2"] [html_node "p" [] [T "2"]]]];
      html_node "tbody" [] [html_node "tr" [] [html_node "td" [] []]];
      html_node "tfoot" [] [html_node "tr" [] [html_node "td" [] [T "f"]]]]];
   html_node "p" [] [T "end"]].
Definition brief_doc : list node :=
  [Doctype (of_string "html"); html_node "html" [] [html_node "head" [] [html_node "title" [] [T "t"]]; html_node "body" [] brief_body]].
Definition brief_text : str := of_string
  "<!DOCTYPE html><title>t</title><p>a <b>b</b><p id=""q"">c<ul><li>1<p>in<li><ol><li>2</ol></ul><dl><dt>x<dd>y<p>z<dt>t<dd></dl><select><optgroup><option>o<option>p</select><div><p>w</p><table><caption>c<col><col><tr><th>h<td>1<table><tr><td>deep</table><tr><td colspan=""2""><p>2<tbody><tr><td><tfoot><tr><td>f</table></div><p>end".

Lemma written_is rule doc w w' : written_document rule doc w -> w = w' -> written_document rule doc w'.
Proof. now intros H <-. Qed.
(** Leaves out every tag that may be left out. *)
Ltac briefly :=
  lazymatch goal with
  | |- writtens _ _ _ [] _ => apply ws_nil
  | |- writtens _ _ _ (Text _ :: _) _ => eapply ws_cons; [apply w_whole|briefly]
  | |- writtens _ _ _ (_ :: _) _ => eapply ws_cons;
      [first
        [eapply w_element with (opened := false) (closed := false); [reflexivity|reflexivity|intros _; split; vm_compute; reflexivity|intros _; vm_compute; reflexivity|briefly]
        |eapply w_element with (opened := false) (closed := true); [reflexivity|reflexivity|intros _; split; vm_compute; reflexivity|discriminate|briefly]
        |eapply w_element with (opened := true) (closed := false); [reflexivity|reflexivity|discriminate|intros _; vm_compute; reflexivity|briefly]
        |eapply w_element with (opened := true) (closed := true); [reflexivity|reflexivity|discriminate|discriminate|briefly]
        |apply w_whole]
      |briefly]
  end.
Ltac no_tags doctype head body := eapply written_is;
  [refine (written_doc _ [] doctype [] [] [] [] [] head body _ false false false false false false _ _ _ _ _);
     [intros _; split; reflexivity|intros _; split; [reflexivity|]|reflexivity|intros _; split; [reflexivity|]|]|].
Lemma brief_written : written_document but_mistaken brief_doc brief_text.
Proof.
  no_tags [Doctype (of_string "html")] [html_node "title" [] [T "t"]] brief_body.
  - intros x r E. injection E as <- _. eexists _, _, _. reflexivity.
  - intros x r E. injection E as <- _. reflexivity.
  - unfold brief_body, html_node, T. briefly.
  - vm_compute. reflexivity.
Qed.
Ltac fitting := repeat (apply Forall_cons; [|try apply Forall_nil]); vm_compute; repeat split; try discriminate; try (right; eexists; (split; [reflexivity|discriminate])); intros; discriminate.
Lemma brief_conforming : conforming brief_doc.
Proof.
  refine (conforming_doc [] [Doctype (of_string "html")] [] [] [] [] [] [html_node "title" [] [T "t"]] brief_body _ _ _ _ _ _ _ _ _); try reflexivity; try (apply Forall_nil).
  - right. eexists. reflexivity.
  - constructor; [|constructor]. vm_compute. repeat split. right. eexists. split; [reflexivity|discriminate].
  - unfold brief_body. fitting.
Qed.
Lemma brief_expressible : Forall expressible brief_doc.
Proof. repeat constructor; try discriminate; try not_in. Qed.
Example C118_brief_case : parse brief_text = Tree brief_doc /\
  exists doc', parse brief_text = Tree doc' /\ Forall2 same_tree brief_doc doc'.
Proof. split; [vm_compute; reflexivity|]. exact (C118_optional_tags_make_no_difference_partial _ _ brief_conforming brief_expressible brief_written). Qed.

(** The full claim fails for each of these bodies, in a document with a doctype. *)
Definition short_doc (body : list node) : list node := [Doctype (of_string "html"); html_node "html" [] [html_node "head" [] []; html_node "body" [] body]].
Definition misread (rule : str -> str -> option node -> bool) (body : list node) (w : str) : Prop :=
  conforming (short_doc body) /\ Forall expressible (short_doc body) /\ written_document rule (short_doc body) w /\
  exists doc', parse w = Tree doc' /\ ~ Forall2 same_tree (short_doc body) doc'.
Ltac differ := unfold short_doc, html_node, T; intros H; repeat match goal with
  | X : Forall2 same_tree (_ :: _) _ |- _ => inversion X; clear X; subst
  | X : Forall2 same_tree [] _ |- _ => inversion X; clear X; subst
  | X : same_tree _ _ |- _ => inversion X; clear X; subst
  end.
Ltac misreading body := split; [|split; [|split]];
  [refine (conforming_doc [] [Doctype (of_string "html")] [] [] [] [] [] [] body _ _ _ _ _ _ _ _ _); try reflexivity; try (apply Forall_nil); [right; eexists; reflexivity|fitting]
  |repeat constructor; try discriminate; try not_in
  |no_tags [Doctype (of_string "html")] (@nil node) body; [discriminate|intros x r E; injection E as <- _; reflexivity|unfold html_node, T; briefly|vm_compute; reflexivity]
  |eexists; split; [vm_compute; reflexivity|differ]].
Theorem C118_optional_tags_refuted :
  misread standard [html_node "p" [] [T "a"]; html_node "table" [] []] (of_string "<!DOCTYPE html><p>a<table></table>") /\
  misread standard [html_node "select" [] [html_node "optgroup" [] [html_node "option" [] [T "x"]]; html_node "optgroup" [] []]]
    (of_string "<!DOCTYPE html><select><optgroup><option>x<optgroup></select>") /\
  misread standard [html_node "select" [] [html_node "option" [] [T "x"]; html_node "hr" [] []]]
    (of_string "<!DOCTYPE html><select><option>x<hr></select>").
Proof.
  split; [|split].
  - misreading [html_node "p" [] [T "a"]; html_node "table" [] []].
  - misreading [html_node "select" [] [html_node "optgroup" [] [html_node "option" [] [T "x"]]; html_node "optgroup" [] []]].
  - misreading [html_node "select" [] [html_node "option" [] [T "x"]; html_node "hr" [] []]].
Qed.
Print Assumptions C118_optional_tags_refuted.
