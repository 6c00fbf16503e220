(** Model of style sheets: reading rules, finding the sheets of a document, and gathering the
    declarations that apply to an element.
    Sources: /repo/src/vaev-engine/style/rules.cpp, style/stylesheet.cpp, style/namespace.cpp,
    loader/loader.cpp:152-235, style/computer.cpp:205-260, 308-350, 354-371 and 515-540.

    Selectors, media queries and page selectors are read by the models of Style/ and Print/,
    with the fuel [n]; a cursor is the list of component values left. *)
From Coq Require Import Ascii String List NArith ZArith Bool.
From Verif.Base Require Import Str Outcome.
From Verif.Css Require Import LexerModel ParserModel.
From Verif.Values Require Import LengthModel CalcModel.
From Verif.Style Require Import CascadeModel SelectorModel SelectorParseModel MediaModel IndexModel.
From Verif.Print Require PageModel.
From Verif.Html Require SerialModel.
Import ListNotations.
Local Open Scope list_scope.

Section Rules.
(** The declared properties. *)
Context {P : Type}.
(** props/base.cpp:799-811 [RegisteredPropertySet::parseDeclaration]: the name, the value and whether it is
    important; [None] is a declaration that is dropped. Left abstract here, see Props/EngineModel.v. *)
Variable read_decl : str -> list sst -> bool -> option P.

(** style/rules.cpp:273-280 [Rule]. The descriptors of font faces and counter styles are kept
    unread. *)
Inductive rule :=
| StyleRule (s : selector) (props : list P) (o : origin)
| FontFaceRule (content : list sst)
| CounterRule (name : str) (content : list sst)
| MediaRule (media : query) (rules : list rule)
| ImportRule
| NamespaceRule (prefix : option str) (url : str)
| PageRule (sels : list PageModel.page_selector) (props : list P) (areas : list (PageModel.area * list P)).

(** style/rules.cpp:51-58, style/page.cpp:203-210: the loop over the declarations of a block *)
Fixpoint read_props (content : list sst) : list P :=
  match content with
  | [] => []
  | DECL n c i :: r =>
    match read_decl (t_data n) c i with
    | Some p => p :: read_props r
    | None => read_props r
    end
  | _ :: r => read_props r
  end.

(** style/rules.cpp:31-62 [StyleRule::parse] *)
Definition parse_style (n : nat) (prefix content : list sst) (o : origin) (ns : namespaces) : outcome rule :=
  obind (parse ns n prefix) (fun s =>
  Ok (StyleRule (match s with Some s => s | None => EmptySel end) (read_props content) o)).

(** style/rules.cpp:132-143 [CounterRule::parse], with values/primitives.cpp:121-135: the name is
    [unwrap]ped *)
Definition parse_counter (prefix content : list sst) : outcome rule :=
  match eat_wss prefix with
  | TOK t :: _ => if ttype_beq (t_type t) IDENT then Ok (CounterRule (t_data t) content) else Panic
  | _ => Panic
  end.

(** values/primitives.cpp:83-91 [ValueParser<String>] then 142-161 [parseUrlIntoString]. Of a URL
    token, [sub] drops the first four characters and keeps the length minus five. *)
Definition parse_uri (c : list sst) : option str :=
  match c with
  | TOK t :: _ =>
    if ttype_beq (t_type t) STRING then Some (t_data t)
    else if ttype_beq (t_type t) URL then Some (firstn (List.length (t_data t) - 5) (skipn 4 (t_data t)))
    else None
  | FUNC f c' :: _ =>
    if token_eqb f (mkT FUNCTION (of_string "url(")) then
      match eat_wss c' with
      | TOK t :: _ => if ttype_beq (t_type t) STRING then Some (t_data t) else None
      | _ => None
      end
    else None
  | _ => None
  end.

(** style/rules.cpp:155-189 [NamespaceRule::parse]. The prefixes are a map; a new binding shadows
    the earlier ones of the same prefix. *)
Definition parse_namespace (prefix : list sst) (ns : namespaces) : outcome (rule * namespaces) :=
  match eat_wss prefix with
  | [] => Panic
  | x :: r =>
    let '(p, c) := match x with
                   | TOK t => if ttype_beq (t_type t) IDENT then (Some (t_data t), r) else (None, x :: r)
                   | _ => (None, x :: r)
                   end in
    match parse_uri (eat_wss c) with
    | None => Ok (NamespaceRule None [], ns)
    | Some u =>
      Ok (NamespaceRule p u,
          match p with
          | Some p => mkNs (ns_default ns) ((p, u) :: ns_prefixes ns)
          | None => mkNs u (ns_prefixes ns)
          end)
    end
  end.

(** style/rules.cpp:221-224, style/page.cpp:198-213: the margin areas of a page rule *)
Fixpoint read_areas (content : list sst) : list (PageModel.area * list P) :=
  match content with
  | [] => []
  | RULE (Some t) _ c :: r =>
    if ttype_beq (t_type t) AT_KEYWORD then
      match PageModel.parse_area (t_data t) with
      | Some a => (a, read_props c) :: read_areas r
      | None => read_areas r
      end
    else read_areas r
  | _ :: r => read_areas r
  end.

(** style/rules.cpp:201-231 [PageRule::parse] *)
Definition parse_page (n : nat) (prefix content : list sst) : outcome rule :=
  obind (PageModel.parse_list n prefix) (fun sels => Ok (PageRule sels (read_props content) (read_areas content))).

(** style/rules.cpp:285-307 [Rule::parse], 316-340 [MediaRule::parse]. The name of a rule without an
    at-keyword is empty. *)
Definition rule_name (t : option token) : str := match t with Some t => t_data t | None => [] end.
Definition named (t : option token) (s : string) : bool := str_eqb (rule_name t) (of_string s).
Fixpoint parse_rule (n : nat) (o : origin) (x : sst) (ns : namespaces) {struct x} : outcome (rule * namespaces) :=
  match x with
  | RULE t prefix content =>
    if named t "@media" then
      obind (parse_media_query n prefix) (fun q =>
      obind ((fix rules (l : list sst) (ns : namespaces) : outcome (list rule * namespaces) :=
                match l with
                | [] => Ok ([], ns)
                | y :: l' =>
                  match y with
                  | RULE _ _ _ =>
                    obind (parse_rule n o y ns) (fun a =>
                    obind (rules l' (snd a)) (fun b => Ok (fst a :: fst b, snd b)))
                  | _ => rules l' ns
                  end
                end) content ns) (fun b =>
      Ok (MediaRule q (fst b), snd b)))
    else if named t "@import" then Ok (ImportRule, ns)
    else if named t "@font-face" then Ok (FontFaceRule content, ns)
    else if named t "@counter-style" then obind (parse_counter prefix content) (fun r => Ok (r, ns))
    else if named t "@page" then obind (parse_page n prefix content) (fun r => Ok (r, ns))
    else if named t "@supports" then Ok (StyleRule (TypeSel (mkQS NsUniversal NameUniversal)) [] AUTHOR, ns)
    else if named t "@namespace" then parse_namespace prefix ns
    else obind (parse_style n prefix content o ns) (fun r => Ok (r, ns))
  | _ => Panic
  end.

(** style/stylesheet.cpp:28-35: the loop of [StyleSheet::parse]; also that of [MediaRule::parse] *)
Fixpoint parse_rules (n : nat) (o : origin) (l : list sst) (ns : namespaces) : outcome (list rule * namespaces) :=
  match l with
  | [] => Ok ([], ns)
  | y :: l' =>
    match y with
    | RULE _ _ _ =>
      obind (parse_rule n o y ns) (fun a =>
      obind (parse_rules n o l' (snd a)) (fun b => Ok (fst a :: fst b, snd b)))
    | _ => parse_rules n o l' ns
    end
  end.
(** style/stylesheet.cpp:22-41 [StyleSheet::parse], style/namespace.cpp:10-12 *)
Definition parse_sheet (n : nat) (o : origin) (items : list sst) : outcome (list rule) :=
  omap fst (parse_rules n o items no_namespaces).

(** style/stylesheet.cpp:43-47: from the text; [rb] as in Css/LexerModel.v *)
Definition read_sheet (rb : bool) (n : nat) (o : origin) (text : str) : outcome (list rule) :=
  match parse_stylesheet rb text with
  | Some items => parse_sheet n o items
  | None => OutOfFuel
  end.

(** style/computer.cpp:515-540 [build], [_addRuleToLookup]: the style rules in the order in which
    they are added to the index *)
Fixpoint style_rules (m : media) (r : rule) : list (selector * (list P * origin)) :=
  match r with
  | StyleRule s props o => [(s, (props, o))]
  | MediaRule q rules => if match_query q m then flat_map (style_rules m) rules else []
  | _ => []
  end.
Definition all_style_rules (m : media) (sheets : list (list rule)) : list (selector * (list P * origin)) :=
  flat_map (flat_map (style_rules m)) sheets.

End Rules.
Arguments rule : clear implicits.

(** ** The declarations of an element *)

Section Gather.
Context {V : Type}.
(** props/base.cpp:790-795 [RegisteredPropertySet::parseValue] on a text, 840-844 [parsePresentationAttribute] *)
Variable read_value : string -> str -> option (property V).
Variable read_attribute : str -> str -> option (property V).
(** props/base.cpp:833-838 [parseDeclarations] on a text *)
Variable read_inline : str -> list (property V).

(** dom/element.cpp:142-147 [getAttribute] of a name without namespace, 149-154 [getAttributeUnqualified] *)
Fixpoint get_attribute (attrs : list (qname * str)) (n : string) : option str :=
  match attrs with
  | [] => None
  | (q, v) :: r => if opt_eqb str_eqb (q_ns q) None && str_eqb (q_name q) (of_string n) then Some v else get_attribute r n
  end.
Fixpoint get_unqualified (attrs : list (qname * str)) (n : string) : option str :=
  match attrs with
  | [] => None
  | (q, v) :: r => if str_eqb (q_name q) (of_string n) then Some v else get_unqualified r n
  end.

Definition hint (attrs : list (qname * str)) (attribute : string) (prop : string) (suffix : str) : list (property V) :=
  match get_attribute attrs attribute with
  | Some v => match read_value prop (v ++ suffix) with Some p => [p] | None => [] end
  | None => []
  end.
(** style/computer.cpp:206-248 [_considerHtmlPresentationalHint] *)
Definition html_hints (d : edata) : list (property V) :=
  if opt_eqb str_eqb (q_ns (d_name d)) (Some SerialModel.html_ns) then
    hint (d_attrs d) "fgcolor" "color" [] ++ hint (d_attrs d) "bgcolor" "background-color" [] ++
    hint (d_attrs d) "width" "width" [] ++ hint (d_attrs d) "height" "height" [] ++
    hint (d_attrs d) "size" "width" (of_string "ch")
  else [].

(** style/computer.cpp:250-259 [_considerInlineStyleAttribute] *)
Definition inline_style (d : edata) : list (property V) :=
  read_inline (match get_unqualified (d_attrs d) "style" with Some s => s | None => [] end).

(** style/computer.cpp:310-336 [_applySvgElementSizingRules]; [parent] is the namespace of the
    parent if it is an element *)
Definition svg_sizing (d : edata) (parent : option (option str)) : list (property V) :=
  match parent with
  | None => []
  | Some ns =>
    if opt_eqb str_eqb ns (Some SerialModel.svg_ns) then []
    else match get_attribute (d_attrs d) "viewBox" with
    | Some _ => []
    | None =>
      (match get_attribute (d_attrs d) "width", read_value "width" (of_string "300px") with None, Some p => [p] | _, _ => [] end) ++
      (match get_attribute (d_attrs d) "height", read_value "height" (of_string "150px") with None, Some p => [p] | _, _ => [] end)
    end
  end.
(** style/computer.cpp:338-351 [_considerSvgPresentationAttributes] *)
Definition svg_hints (d : edata) (parent : option (option str)) : list (property V) :=
  if opt_eqb str_eqb (q_ns (d_name d)) (Some SerialModel.svg_ns) then
    flat_map (fun a => match read_attribute (q_name (fst a)) (snd a) with Some p => [p] | None => [] end) (d_attrs d) ++
    (if str_eqb (q_name (d_name d)) (of_string "svg") then svg_sizing d parent else [])
  else [].

(** style/computer.cpp:361-371: what [computeValues] puts in the cascade, in order. [rules] are
    the style rules in the index; [PRESENTATION_HINT_SPEC] and [INLINE_SPEC] are zero. *)
Definition from_rules (rules : list (selector * (list (property V) * origin))) (out : matching_rules)
  : list (property V * origin * specificity) :=
  flat_map (fun es =>
    match nth_error rules (ie_order (fst es) - 1) with
    | Some (_, (props, o)) => map (fun p => (p, o, snd es)) props
    | None => []
    end) out.
Definition gather (m : media) (sheets : list (list (rule (property V)))) (t : node) (p : path) (d : edata)
    (parent : option (option str)) (pe : option str) : option (list (property V * origin * specificity)) :=
  let rules := all_style_rules m sheets in
  option_map (fun out =>
    from_rules rules out ++
    (match pe with
     | None =>
       map (fun x => (x, AUTHOR_PRESENTATIONAL_HINT, spec_zero)) (html_hints d) ++
       map (fun x => (x, INLINE, spec_zero)) (inline_style d) ++
       map (fun x => (x, AUTHOR_PRESENTATIONAL_HINT, spec_zero)) (svg_hints d parent)
     | Some _ => []
     end)) (index_match (build (map fst rules)) t p pe).
End Gather.

(** ** Attributes that are read after the cascade *)

(** values/base.cpp:36-43 [parseValue<Integer>] of a text, [unwrapOr(0)] *)
Definition attr_integer (rb : bool) (text : str) : Z :=
  match tokens rb text with
  | Some ts =>
    match declaration_value (enough ts) ts with
    | Some (c, _, _) => match fst (parse_integer c) with Some z => z | None => 0%Z end
    | None => 0%Z
    end
  | None => 0%Z
  end.
(** style/computer.cpp:261-288, the table part of [_considerElementAttributes]: [old] is the value before *)
Definition span_attr (rb : bool) (attrs : list (qname * str)) (n : string) (old : Z) : Z :=
  match get_attribute attrs n with
  | Some s => let v := attr_integer rb s in if (v <=? 0)%Z || (1000 <? v)%Z then 1%Z else v
  | None => old
  end.
Definition rowspan_attr (rb : bool) (attrs : list (qname * str)) (old : Z) : Z :=
  match get_attribute attrs "rowspan" with
  | Some s =>
    let v := attr_integer rb s in
    let v := if (v <? 0)%Z then 0%Z else v in
    if (65534 <? v)%Z then 65534%Z else v
  | None => old
  end.
(** style/computer.cpp:290-303: the [align] attribute *)
Inductive text_align := START | END | LEFT | RIGHT | CENTER | JUSTIFY | MATCH_PARENT | JUSTIFY_ALL | BLOCK_CENTER.
Definition align_attr (attrs : list (qname * str)) (old : text_align) : text_align :=
  match get_attribute attrs "align" with
  | Some s =>
    if str_eqb s (of_string "left") then LEFT
    else if str_eqb s (of_string "right") then RIGHT
    else if str_eqb s (of_string "center") then BLOCK_CENTER
    else if str_eqb s (of_string "justify") then JUSTIFY
    else old
  | None => old
  end.

(** ** The style sheets of a document *)

Section Load.
Import SerialModel.

(** dom/element.cpp:164-167, dom/character-data.cpp:32-34 and dom/node.cpp:54-61 [textContent]: comments are
    character data too *)
Fixpoint text_content (x : node) : str :=
  match x with
  | Element _ _ kids => flat_map text_content kids
  | Text s | Comment s => s
  | Doctype _ => []
  end.

(** dom/element.cpp:142-147 [getAttribute] again, on the nodes of Html/SerialModel.v *)
Definition attribute (attrs : list (qname * str)) (n : string) : option str :=
  option_map snd (find (fun a => qname_eqb (fst a) (mkQName None (of_string n))) attrs).

(** The network: the text at a link's target, [None] when it cannot be loaded. *)
Variable fetch : str -> option str.

(** loader/loader.cpp:180-235 [_fetchResourcesAsync]: the texts of the style sheets that are added to the document,
    in order. An error ends the visit of a node only, its caller ignores it. Images are left out: they
    add no sheet, and the children of an image are not visited. *)
Fixpoint fetch_resources (x : node) : list str :=
  match x with
  | Element q attrs kids =>
    if qname_eqb q (html_tag "img") then []
    else if qname_eqb q (html_tag "style") then [flat_map text_content kids]
    else if qname_eqb q (html_tag "link") then
      if opt_eqb str_eqb (attribute attrs "rel") (Some (of_string "stylesheet")) then
        match attribute attrs "href" with
        | None => []
        | Some u => match fetch u with Some s => [s] | None => [] end
        end
      else []
    else flat_map fetch_resources kids
  | _ => []
  end.

(** loader/loader.cpp:241-292 [fetchDocumentAsync]: the built-in sheets *)
Definition builtin_sheets (quirks markdown : bool) : list string :=
  ["html.css"; "counters.css"]%string ++ (if quirks then ["html-quirk.css"%string] else []) ++
  (if markdown then ["markdown.css"%string] else []) ++ ["print.css"; "svg.css"; "math.css"]%string.
(** All the sheets of a document with their origins; [document] are the children of the document
    node, [bundle] the texts of the built-in sheets. *)
Definition document_sheets (bundle : string -> str) (quirks markdown : bool) (document : list node) : list (origin * str) :=
  map (fun s => (USER_AGENT, bundle s)) (builtin_sheets quirks markdown) ++
  map (fun s => (AUTHOR, s)) (flat_map fetch_resources document).
End Load.
