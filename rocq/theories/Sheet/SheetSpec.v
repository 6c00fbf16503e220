(** Style sheets as an author writes them, and what they mean (css-syntax-3, css-namespaces-3,
    css-conditional-3, css-cascade-4), independently of style/rules.cpp. *)
From Coq Require Import Ascii String List NArith ZArith Bool.
From Verif.Base Require Import Str Outcome.
From Verif.Css Require Import LexerModel ParserModel.
From Verif.Style Require Import CascadeModel CascadeSpec SelectorModel SelectorSpec SelectorParseModel SelectorParseSpec.
From Verif.Style Require Import MediaModel MediaSpec.
From Verif.Html Require SerialModel.
From Verif.Print Require PageProps.
Import ListNotations.
Local Open Scope list_scope.

(** ** Sheets *)

(** A namespace name: ["u"], [url(u)] or [url( "u")]. *)
Inductive uri := UString (u : str) | UUrl (u : str) | UFunc (a : nat) (u : str).
Definition uri_name (x : uri) : str := match x with UString u | UUrl u | UFunc _ u => u end.
Definition show_uri (x : uri) : sst :=
  match x with
  | UString u => TOK (mkT STRING u)
  | UUrl u => TOK (mkT URL (of_string "url(" ++ u ++ of_string ")"))
  | UFunc a u => FUNC (mkT FUNCTION (of_string "url(")) (wss a ++ [TOK (mkT STRING u)])
  end.
Definition at_tok (s : string) : option token := Some (mkT AT_KEYWORD (of_string s)).

(** [@namespace p u;] or [@namespace u;], with some spaces *)
Record nsdecl := mkNsd { nd_a : nat; nd_prefix : option str; nd_b : nat; nd_uri : uri }.
Definition show_ns (d : nsdecl) : sst :=
  RULE (at_tok "@namespace")
    (wss (nd_a d) ++ (match nd_prefix d with Some p => [id_tok p] | None => [] end) ++ wss (nd_b d) ++ [show_uri (nd_uri d)]) [].

(** A declaration: its name, its value, whether it is important. *)
Record wdecl := mkWd { wd_name : str; wd_value : list sst; wd_important : bool }.
Definition show_decl (d : wdecl) : sst := DECL (mkT IDENT (wd_name d)) (wd_value d) (wd_important d).

(** A rule: a style rule; [@media]; [@import] or [@font-face]; [@counter-style]; [@page]. *)
Inductive crule :=
| CStyle (l : slist) (body : list wdecl)
| CMedia (qs : list mq) (rules : list crule)
| CImport (prefix : list sst)
| CFontFace (prefix content : list sst)
| CCounter (a : nat) (name : str) (rest content : list sst)
| CPage (prefix content : list sst).

Fixpoint show_rule (r : crule) : sst :=
  match r with
  | CStyle l body => RULE None (show_slist l) (map show_decl body)
  | CMedia qs rules => RULE (at_tok "@media") (show_list qs) (map show_rule rules)
  | CImport prefix => RULE (at_tok "@import") prefix []
  | CFontFace prefix content => RULE (at_tok "@font-face") prefix content
  | CCounter a name rest content => RULE (at_tok "@counter-style") (wss a ++ id_tok name :: rest) content
  | CPage prefix content => RULE (at_tok "@page") prefix content
  end.

(** The namespaces come first. *)
Record csheet := mkSheet { sh_ns : list nsdecl; sh_rules : list crule }.
Definition show_sheet (s : csheet) : list sst := map show_ns (sh_ns s) ++ map show_rule (sh_rules s).

(** ** Meaning *)

(** The namespaces in force: the last default one, and for each prefix the last one. An
    unprefixed name is an HTML one when there is no default namespace. *)
Definition declared_ns (l : list nsdecl) : namespaces :=
  mkNs (last (flat_map (fun d => match nd_prefix d with None => [uri_name (nd_uri d)] | _ => [] end) l) SerialModel.html_ns)
       (rev (flat_map (fun d => match nd_prefix d with Some p => [(p, uri_name (nd_uri d))] | _ => [] end) l)).

Section Ok.
Variable ns : namespaces.
Fixpoint rule_ok (r : crule) : Prop :=
  match r with
  | CStyle l _ => slist_ok ns l
  | CMedia qs rules => Forall mq_ok qs /\ fold_right (fun r P => rule_ok r /\ P) True rules
  | CPage prefix _ => PageProps.plain prefix
  | _ => True
  end.
End Ok.
Definition sheet_ok (s : csheet) : Prop := Forall (rule_ok (declared_ns (sh_ns s))) (sh_rules s).

(** The style rules that apply on a device, in order: those at the top level and those in the
    [@media] rules that are true of it. *)
Inductive applies (m : media) : list crule -> list (slist * list wdecl) -> Prop :=
| A_nil : applies m [] []
| A_style l body r out : applies m r out -> applies m (CStyle l body :: r) ((l, body) :: out)
| A_in qs rules r o1 o2 : qs = [] \/ Exists (mq_holds m) qs -> applies m rules o1 -> applies m r o2 ->
    applies m (CMedia qs rules :: r) (o1 ++ o2)
| A_out qs rules r out : ~ (qs = [] \/ Exists (mq_holds m) qs) -> applies m r out -> applies m (CMedia qs rules :: r) out
| A_import prefix r out : applies m r out -> applies m (CImport prefix :: r) out
| A_font prefix content r out : applies m r out -> applies m (CFontFace prefix content :: r) out
| A_counter a name rest content r out : applies m r out -> applies m (CCounter a name rest content :: r) out
| A_page prefix content r out : applies m r out -> applies m (CPage prefix content :: r) out.

(** A style rule of several sheets, with its origin and namespaces. *)
Record arule := mkA { a_origin : origin; a_ns : namespaces; a_sel : slist; a_body : list wdecl }.
Inductive applies_all (m : media) : list (origin * csheet) -> list arule -> Prop :=
| AA_nil : applies_all m [] []
| AA_cons o s r out1 out2 : applies m (sh_rules s) out1 -> applies_all m r out2 ->
    applies_all m ((o, s) :: r) (map (fun lb => mkA o (declared_ns (sh_ns s)) (fst lb) (snd lb)) out1 ++ out2).

(** The selector of a rule selects an element. *)
Definition selects (t : node) (e : path) (pe : option str) (a : arule) : Prop :=
  exists x, In x (slist_cplx (a_sel a)) /\ matches_complex t (m_cplx (a_ns a) left_assoc x) e pe.

Section Declared.
Context {V : Type}.
Variable read_decl : str -> list sst -> bool -> option (property V).
(** The properties that a block declares: the declarations that can be read, in order. *)
Definition declares (body : list wdecl) : list (property V) :=
  flat_map (fun d => match read_decl (wd_name d) (wd_value d) (wd_important d) with Some p => [p] | None => [] end) body.

(** The declarations that the style sheets make for an element, in order, with the origin of their
    sheet and the specificity of their selector. *)
Inductive sheet_input (t : node) (e : path) (pe : option str) : list arule -> list (property V * origin * specificity) -> Prop :=
| I_nil : sheet_input t e pe [] []
| I_skip a r out : ~ selects t e pe a -> sheet_input t e pe r out -> sheet_input t e pe (a :: r) out
| I_hit a r out : selects t e pe a -> sheet_input t e pe r out ->
    sheet_input t e pe (a :: r)
      (map (fun p => (p, a_origin a, css_spec (meaning (a_ns a) (a_sel a)))) (declares (a_body a)) ++ out).
End Declared.

(** ** Documents *)

Section Documents.
Import SerialModel.
(** The nodes of a tree, in document order. *)
Fixpoint preorder (x : node) : list node :=
  x :: match x with Element _ _ kids => flat_map preorder kids | _ => [] end.

(** The text of an element: the text in it, without comments (dom.spec.whatwg.org). *)
Fixpoint dom_text (x : node) : str :=
  match x with Element _ _ kids => flat_map dom_text kids | Text s => s | _ => [] end.

(** The style sheet that a node stands for: the text of a [style], the target of a
    [<link rel=stylesheet href=...>]. *)
Definition attr (attrs : list (qname * str)) (n : string) : option str :=
  option_map snd (find (fun a => qname_eqb (fst a) (mkQName None (of_string n))) attrs).
Definition node_sheets (fetch : str -> option str) (x : node) : list str :=
  match x with
  | Element q attrs kids =>
    if qname_eqb q (html_tag "style") then [flat_map dom_text kids]
    else if qname_eqb q (html_tag "link") then
      match attr attrs "rel", attr attrs "href" with
      | Some rel, Some u => if str_eqb rel (of_string "stylesheet") then match fetch u with Some s => [s] | None => [] end else []
      | _, _ => []
      end
    else []
  | _ => []
  end.

(** In a document read from HTML, [img] and [link] are empty and [style] has only text in it. *)
Fixpoint html_like (x : node) : Prop :=
  match x with
  | Element q _ kids =>
    (qname_eqb q (html_tag "img") = true \/ qname_eqb q (html_tag "link") = true -> kids = []) /\
    (qname_eqb q (html_tag "style") = true -> Forall (fun y => match y with Text _ => True | _ => False end) kids) /\
    fold_right (fun y P => html_like y /\ P) True kids
  | _ => True
  end.
End Documents.

(** ** Attributes that stand for declarations *)

(** An attribute, the property it sets, and what is put after its value (HTML 15). *)
Definition legacy_attributes : list (string * string * string) :=
  [("fgcolor", "color", ""); ("bgcolor", "background-color", ""); ("width", "width", ""); ("height", "height", ""); ("size", "width", "ch")]%string.

Section Attributes.
Context {V : Type}.
(** The values of properties, as written in attributes, and the content of a [style] attribute *)
Variable read_value : string -> str -> option (property V).
Variable read_attribute : str -> str -> option (property V).
Variable read_inline : str -> list (property V).

Definition the {A} (x : option A) : list A := match x with Some a => [a] | None => [] end.
(** The value of the element's own attribute [n] (without namespace) *)
Definition own_attr (d : edata) (n : string) : option str :=
  option_map snd (find (fun a => match q_ns (fst a) with None => str_eqb (q_name (fst a)) (of_string n) | Some _ => false end) (d_attrs d)).
Definition legacy_hints (d : edata) : list (property V) :=
  flat_map (fun x => let '(a, p, unit) := x in flat_map (fun v => the (read_value p (v ++ of_string unit))) (the (own_attr d a))) legacy_attributes.
(** The attributes of an SVG element are properties; an [svg] in another element without size is 300 by 150. *)
Definition svg_defaults (d : edata) : list (property V) :=
  flat_map (fun x : string * string => if own_attr d (fst x) then [] else the (read_value (fst x) (of_string (snd x)))) [("width", "300px"); ("height", "150px")]%string.
Definition presentation (d : edata) (parent : option (option str)) : list (property V) :=
  flat_map (fun a => the (read_attribute (q_name (fst a)) (snd a))) (d_attrs d) ++
  (if str_eqb (q_name (d_name d)) (of_string "svg") then
     match parent, own_attr d "viewBox" with
     | Some ns, None => if opt_eqb str_eqb ns (Some SerialModel.svg_ns) then [] else svg_defaults d
     | _, _ => []
     end
   else []).
Definition style_attribute (d : edata) : str :=
  match find (fun a => str_eqb (q_name (fst a)) (of_string "style")) (d_attrs d) with Some a => snd a | None => [] end.

(** What the attributes of an element (not a pseudo-element) declare: hints, and the [style] attribute *)
Definition attribute_input (d : edata) (parent : option (option str)) (pe : option str) : list (property V * origin * specificity) :=
  match pe with
  | Some _ => []
  | None =>
    let is ns := opt_eqb str_eqb (q_ns (d_name d)) (Some ns) in
    map (fun p => (p, AUTHOR_PRESENTATIONAL_HINT, spec_zero)) (if is SerialModel.html_ns then legacy_hints d else []) ++
    map (fun p => (p, INLINE, spec_zero)) (read_inline (style_attribute d)) ++
    map (fun p => (p, AUTHOR_PRESENTATIONAL_HINT, spec_zero)) (if is SerialModel.svg_ns then presentation d parent else [])
  end.
End Attributes.
