(** Which documents should be rebuilt exactly from their serialisation, and what "the same tree"
    means.  Nothing here uses the model of the tree builder: the conditions are the ones an author of
    HTML can check on the document (which element may be where). *)
From Coq Require Import String List Arith Bool NArith Permutation.
From Verif.Base Require Import Str.
From Verif.Html Require Import LexerModel SerialModel SerialSpec.
Import ListNotations.
Local Open Scope list_scope.
Local Open Scope N_scope.

(** The same tree, but for the order of the attributes of its elements. *)
Inductive same_tree : node -> node -> Prop :=
| same_text s : same_tree (Text s) (Text s)
| same_comment s : same_tree (Comment s) (Comment s)
| same_doctype s : same_tree (Doctype s) (Doctype s)
| same_element q attrs attrs' kids kids' :
    Permutation attrs attrs' -> Forall2 same_tree kids kids' ->
    same_tree (Element q attrs kids) (Element q attrs' kids').

(** The names of the elements around a place, the nearest first.  Whether one of those wanted is met
    before any of those that hide what is around them. *)
Fixpoint inside (wanted : str -> bool) (walls : list string) (path : list str) : bool :=
  match path with
  | [] => false
  | n :: path' => if wanted n then true else if in_names walls n then false else inside wanted walls path'
  end.
Definition directly (wanted : str -> bool) (path : list str) : bool :=
  match path with [] => false | n :: _ => wanted n end.

Definition walls : list string := ["applet"; "caption"; "html"; "table"; "td"; "th"; "marquee"; "object"]%string.
Definition boxes : list string := ["applet"; "caption"; "td"; "th"; "marquee"; "object"]%string.
Definition blocks : list string :=
  ["address"; "article"; "aside"; "blockquote"; "center"; "details"; "dialog"; "dir"; "div"; "dl"; "fieldset";
   "figcaption"; "figure"; "footer"; "header"; "hgroup"; "main"; "menu"; "nav"; "ol"; "p"; "search"; "section";
   "summary"; "ul"]%string.
Definition headings : list string := ["h1"; "h2"; "h3"; "h4"; "h5"; "h6"]%string.
Definition formatting : list string :=
  ["a"; "b"; "big"; "code"; "em"; "font"; "i"; "nobr"; "s"; "small"; "strike"; "strong"; "tt"; "u"]%string.
(** The elements that cannot be within a paragraph. *)
Definition closes_p : list string :=
  blocks ++ headings ++ ["pre"; "listing"; "form"; "li"; "dd"; "dt"; "hr"; "xmp"]%string.
(** What ends the search for the item that a new item closes: the special elements of the standard
    but address, div and p. *)
Definition item_walls : list string :=
  ["applet"; "area"; "article"; "aside"; "base"; "basefont"; "bgsound"; "blockquote"; "body"; "br";
   "button"; "caption"; "center"; "col"; "colgroup"; "dd"; "details"; "dir"; "dl"; "dt"; "embed";
   "fieldset"; "figcaption"; "figure"; "footer"; "form"; "frame"; "frameset"; "h1"; "h2"; "h3"; "h4"; "h5"; "h6";
   "head"; "header"; "hgroup"; "hr"; "html"; "iframe"; "img"; "input"; "keygen"; "li"; "link"; "listing"; "main";
   "marquee"; "menu"; "meta"; "nav"; "noembed"; "noframes"; "noscript"; "object"; "ol"; "param"; "plaintext";
   "pre"; "script"; "search"; "section"; "select"; "source"; "style"; "summary"; "table"; "tbody"; "td";
   "textarea"; "tfoot"; "th"; "thead"; "title"; "tr"; "track"; "ul"; "wbr"; "xmp"]%string.
(** The elements whose end tag may be left out in running content. *)
Definition optional_end : list string := ["dd"; "dt"; "li"; "option"; "p"; "rb"; "rp"; "rt"]%string.
(** The elements that running content cannot have. *)
Definition not_flow : list string :=
  ["html"; "head"; "body"; "frameset"; "frame"; "caption"; "col"; "colgroup"; "tbody"; "thead"; "tfoot"; "tr"; "td"; "th";
   "template"; "template_"; "image"; "plaintext"; "math"; "svg"]%string.

Definition eq_name (x : string) (n : str) : bool := str_eqb n (of_string x).
Definition implies (a b : bool) : bool := negb a || b.
(** Whether an element with this name can be here in running content, unless the parser is to move it
    or to close something. *)
Definition fits_here (path : list str) (n : str) : bool :=
  let is := in_names in
  negb (is not_flow n) &&
  implies (is closes_p n) (negb (inside (eq_name "p") ("button"%string :: walls) path)) &&
  implies (is headings n) (negb (directly (is headings) path)) &&
  implies (is ["li"]%string n) (negb (inside (eq_name "li") item_walls path)) &&
  implies (is ["dd"; "dt"]%string n) (negb (inside (is ["dd"; "dt"]%string) item_walls path)) &&
  implies (is formatting n) (negb (inside (str_eqb n) boxes path)) &&
  implies (is ["button"; "applet"; "marquee"; "object"; "select"]%string n) (negb (inside (str_eqb n) walls path)) &&
  implies (is ["input"]%string n) (negb (inside (eq_name "select") walls path)) &&
  implies (is ["form"]%string n) (negb (existsb (eq_name "form") path)) &&
  implies (is ["option"]%string n)
    (if inside (eq_name "select") walls path then negb (directly (is optional_end) path)
     else negb (directly (eq_name "option") path)) &&
  implies (is ["optgroup"]%string n)
    (inside (eq_name "select") walls path && negb (directly (is optional_end) path)) &&
  implies (is ["rb"; "rtc"; "rp"; "rt"]%string n)
    (negb (inside (eq_name "ruby") walls path && directly (is ("optgroup" :: optional_end)%string) path)).

Definition blank (c : N) : Prop := c = 9 \/ c = 10 \/ c = 12 \/ c = 32.
Definition is_text (n : node) : bool := match n with Text _ => true | _ => false end.
(** No two texts are next to each other. *)
Fixpoint no_double_text (ns : list node) : bool :=
  match ns with
  | [] => true
  | n :: ns' => negb (is_text n && match ns' with m :: _ => is_text m | [] => false end) && no_double_text ns'
  end.
(** A line feed that opens the content of pre, listing and textarea is dropped. *)
Definition no_first_feed (ns : list node) : Prop := forall s r, ns <> Text (10 :: s) :: r.

(** Where a node is. *)
Inductive place_in := Flow | Head | InTable | InColumns | InSection | InRow.

Definition empty_element (n : str) : bool := void_element (mkQName (Some html_ns) n).
Definition raw_element (n : str) : bool := match mode_of n with Some _ => true | None => false end.
Definition raw_content (ns : list node) : Prop := ns = [] \/ exists s, ns = [Text s] /\ s <> [].

Fixpoint fits (c : place_in) (path : list str) (x : node) {struct x} : Prop :=
  match x with
  | Text s => s <> [] /\ match c with Flow => True | _ => Forall blank s end
  | Comment _ => True
  | Doctype _ => False
  | Element q attrs ns =>
      let n := q_name q in
      let all c' := no_double_text ns = true /\ fold_right (fun x P => fits c' (n :: path) x /\ P) True ns in
      q_ns q = Some html_ns /\
      match c with
      | Flow =>
          fits_here path n = true /\
          if empty_element n then True
          else if raw_element n then raw_content ns /\ (n = of_string "textarea" -> no_first_feed ns)
          else if in_names ["table"]%string n then all InTable
          else all Flow /\ (in_names ["pre"; "listing"]%string n = true -> no_first_feed ns)
      | Head =>
          if in_names ["base"; "basefont"; "bgsound"; "link"; "meta"]%string n then True
          else in_names ["title"; "style"; "noframes"; "script"]%string n = true /\ raw_content ns
      | InTable =>
          if in_names ["caption"]%string n then all Flow
          else if in_names ["colgroup"]%string n then all InColumns
          else in_names ["tbody"; "thead"; "tfoot"]%string n = true /\ all InSection
      | InColumns => in_names ["col"]%string n = true
      | InSection => in_names ["tr"]%string n = true /\ all InRow
      | InRow => in_names ["td"; "th"]%string n = true /\ all Flow
      end
  end.

Definition is_comment_node (n : node) : Prop := exists s, n = Comment s.
Definition blank_or_comment (n : node) : Prop := is_comment_node n \/ exists s, n = Text s /\ s <> [] /\ Forall blank s.
Definition html_node (n : string) (attrs : list (qname * str)) (ns : list node) : node :=
  Element (mkQName (Some (of_string "http://www.w3.org/1999/xhtml")) (of_string n)) attrs ns.

(** A whole document: comments, the doctype, and the html element with its head and its body. *)
Inductive conforming : list node -> Prop :=
| conforming_doc comments doctype before between a1 a2 a3 head body :
    Forall is_comment_node comments ->
    (doctype = [] \/ exists s, doctype = [Doctype s]) ->
    Forall is_comment_node before ->
    Forall blank_or_comment between -> no_double_text between = true ->
    no_double_text head = true -> Forall (fits Head [of_string "head"; of_string "html"]) head ->
    no_double_text body = true -> Forall (fits Flow [of_string "body"; of_string "html"]) body ->
    conforming
      (comments ++ doctype ++
       [html_node "html" a1 (before ++ [html_node "head" a2 head] ++ between ++ [html_node "body" a3 body])]).

(** A piece of running content whose first node can only be in a body: not blank text, and not an
    element that has a place before the body. *)
Definition opens_body (n : node) : Prop :=
  match n with
  | Text (c :: _) => ~ blank c /\ c <> 13
  | Element q _ _ =>
      in_names ["html"; "head"; "body"; "frameset"; "base"; "basefont"; "bgsound"; "link"; "meta"; "title"; "noframes"; "style";
                "noscript"; "script"; "template"]%string (q_name q) = false
  | _ => False
  end.
