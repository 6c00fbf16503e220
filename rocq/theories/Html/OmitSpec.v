(** Which tags an author may leave out, after the HTML standard (section 13.1.2.4, "Optional tags"),
    and the texts that are a document with such tags left out.  Nothing here uses the model of the
    tree builder. *)
From Coq Require Import String List Arith Bool NArith.
From Verif.Base Require Import Str.
From Verif.Html Require Import LexerModel SerialModel SerialSpec BuildSpec.
Import ListNotations.
Local Open Scope list_scope.
Local Open Scope N_scope.

Definition is_element (l : list string) (x : node) : bool :=
  match x with Element q _ _ => html_named l q | _ => false end.
(** What comes next in the same parent. *)
Definition followed_by (l : list string) (next : option node) : bool :=
  match next with Some x => is_element l x | None => false end.
Definition is_last (next : option node) : bool := match next with None => true | Some _ => false end.
Definition blankb (c : N) : bool := (c =? 9) || (c =? 10) || (c =? 12) || (c =? 32).
Definition not_blank_or_comment (next : option node) : bool :=
  match next with Some (Comment _) => false | Some (Text (c :: _)) => negb (blankb c) | _ => true end.

(** The elements that close a paragraph when they come after it. *)
Definition after_p : list string :=
  ["address"; "article"; "aside"; "blockquote"; "details"; "dialog"; "div"; "dl"; "fieldset"; "figcaption"; "figure";
   "footer"; "form"; "h1"; "h2"; "h3"; "h4"; "h5"; "h6"; "header"; "hgroup"; "hr"; "main"; "menu"; "nav"; "ol"; "p";
   "pre"; "search"; "section"; "table"; "ul"]%string.
Definition sections : list string := ["tbody"; "thead"; "tfoot"]%string.
Definition is_custom (n : str) : bool := existsb (N.eqb 45) n.

(** The end tag of an element [n] of [parent], when [next] comes after it. *)
Definition end_is_optional (parent n : str) (next : option node) : bool :=
  let is l := in_names l n in
  let follows l := followed_by l next in
  let last := is_last next in
  is ["colgroup"; "caption"]%string && not_blank_or_comment next ||
  is ["li"]%string && (follows ["li"]%string || last) ||
  is ["dt"]%string && follows ["dt"; "dd"]%string ||
  is ["dd"]%string && (follows ["dd"; "dt"]%string || last) ||
  is ["p"]%string && (follows after_p ||
    last && negb (in_names ["a"; "audio"; "del"; "ins"; "map"; "noscript"; "video"]%string parent || is_custom parent)) ||
  is ["rt"; "rp"]%string && (follows ["rt"; "rp"]%string || last) ||
  is ["optgroup"]%string && (follows ["optgroup"; "hr"]%string || last) ||
  is ["option"]%string && (follows ["option"; "optgroup"; "hr"]%string || last) ||
  is ["thead"]%string && follows ["tbody"; "tfoot"]%string ||
  is ["tbody"]%string && (follows ["tbody"; "tfoot"]%string || last) ||
  is ["tfoot"]%string && last ||
  is ["tr"]%string && (follows ["tr"]%string || last) ||
  is ["td"; "th"]%string && (follows ["td"; "th"]%string || last).

(** Where the standard lets these elements be (their content model), as far as it matters here. *)
Definition in_its_place (parent n : str) : bool :=
  let is l := in_names l n in
  let within l := in_names l parent in
  implies (is ["li"]%string) (within ["ul"; "ol"; "menu"]%string) &&
  implies (is ["dd"; "dt"]%string) (within ["dl"; "div"]%string) &&
  implies (is ["rt"; "rp"]%string) (within ["ruby"]%string) &&
  implies (is ["option"]%string) (within ["select"; "optgroup"; "datalist"]%string) &&
  implies (is ["optgroup"]%string) (within ["select"]%string) &&
  implies (is ["p"]%string) (negb (within (["option"; "optgroup"; "rt"; "rp"; "ruby"]%string ++ formatting))).

Definition standard (parent n : str) (next : option node) : bool := end_is_optional parent n next && in_its_place parent n.

(** The cases of the standard that the parser treats otherwise. *)
Definition mistaken (n : str) (next : option node) : bool :=
  in_names ["p"]%string n && followed_by ["table"]%string next ||
  in_names ["optgroup"]%string n && followed_by ["optgroup"; "hr"]%string next ||
  in_names ["option"]%string n && followed_by ["hr"]%string next.
Definition but_mistaken (parent n : str) (next : option node) : bool := standard parent n next && negb (mistaken n next).

(** The start tag of tbody and of colgroup, when they have no attributes: [cut] is the name of the
    element before it, if the end tag of that was left out. *)
Definition start_is_optional (cut n : str) (ns : list node) : bool :=
  match ns with
  | x :: _ =>
      in_names ["tbody"]%string n && is_element ["tr"]%string x && negb (in_names sections cut) ||
      in_names ["colgroup"]%string n && is_element ["col"]%string x && negb (in_names ["colgroup"]%string cut)
  | [] => false
  end.

Section Written.
(** Which end tags may be left out. *)
Variable rule : str -> str -> option node -> bool.

(** [written parent cut next x w cut']: the text [w] is the node [x] of an element [parent], in which
    [next] comes after it; [cut] and [cut'] are the names of the element before and of this one, if
    their end tags are left out. *)
Inductive written : str -> str -> option node -> node -> str -> str -> Prop :=
| w_whole parent cut next x : written parent cut next x (serialize_node (Some (mkQName (Some html_ns) parent)) x) []
| w_element parent cut next q attrs ns w (opened closed : bool) :
    void_element q = false -> mode_of (q_name q) = None ->
    (opened = false -> attrs = [] /\ start_is_optional cut (q_name q) ns = true) ->
    (closed = false -> rule parent (q_name q) next = true) ->
    writtens (q_name q) [] ns w ->
    written parent cut next (Element q attrs ns)
      ((if opened then start_tag q attrs else []) ++ w ++ (if closed then end_tag q else []))
      (if closed then [] else q_name q)
with writtens : str -> str -> list node -> str -> Prop :=
| ws_nil parent cut : writtens parent cut [] []
| ws_cons parent cut x xs w w' cut' :
    written parent cut (hd_error xs) x w cut' -> writtens parent cut' xs w' -> writtens parent cut (x :: xs) (w ++ w').
End Written.
Scheme written_mind := Induction for written Sort Prop
  with writtens_mind := Induction for writtens Sort Prop.

(** Nodes with nothing left out, in an element [n]. *)
Definition content (n : string) (ns : list node) : str := flat_map (serialize_node (Some (mkQName (Some html_ns) (of_string n)))) ns.
Definition tag_if (b : bool) (w : str) : str := if b then w else [].
Definition tag_of (n : string) : qname := mkQName (Some html_ns) (of_string n).

(** A document: the tags of html, head and body may be left out too.
    - the start tag of html, if its content does not start with a comment;
    - the start tag of head, if it is empty or starts with an element;
    - the end tag of head, if no blank text or comment follows it;
    - the start tag of body, if it is empty, or starts with text that is not blank or with an element
      that has no place before the body;
    - the end tags of body and html. *)
Inductive written_document (rule : str -> str -> option node -> bool) : list node -> str -> Prop :=
| written_doc comments doctype before between a1 a2 a3 head body w (o1 o2 o3 e1 e2 e3 : bool) :
    (o1 = false -> a1 = [] /\ before = []) ->
    (o2 = false -> a2 = [] /\ (forall x r, head = x :: r -> exists q a ns, x = Element q a ns)) ->
    (e2 = false -> between = []) ->
    (o3 = false -> a3 = [] /\ (forall x r, body = x :: r -> opens_body x)) ->
    writtens rule (of_string "body") [] body w ->
    written_document rule
      (comments ++ doctype ++ [html_node "html" a1 (before ++ [html_node "head" a2 head] ++ between ++ [html_node "body" a3 body])])
      (serialize comments ++ serialize doctype ++
       tag_if o1 (start_tag (tag_of "html") a1) ++ content "html" before ++
       tag_if o2 (start_tag (tag_of "head") a2) ++ content "head" head ++ tag_if e2 (end_tag (tag_of "head")) ++ content "html" between ++
       tag_if o3 (start_tag (tag_of "body") a3) ++ w ++ tag_if e3 (end_tag (tag_of "body")) ++ tag_if e1 (end_tag (tag_of "html"))).
