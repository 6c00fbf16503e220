(** Model of the serialisation of a DOM tree to HTML.
    Source: /repo/src/vaev-engine/dom/serialisation.cpp, element.cpp:172-186, names.cpp:132-153. *)
From Coq Require Import String List Arith Bool NArith.
From Verif.Base Require Import Str.
Import ListNotations.
Local Open Scope list_scope.
Local Open Scope N_scope.

(** names.cpp:14-18 *)
Record qname := mkQName { q_ns : option str; q_name : str }.
Definition qname_eqb (a b : qname) : bool :=
  opt_eqb str_eqb (q_ns a) (q_ns b) && str_eqb (q_name a) (q_name b).

Definition html_ns : str := of_string "http://www.w3.org/1999/xhtml".
Definition svg_ns : str := of_string "http://www.w3.org/2000/svg".
Definition mathml_ns : str := of_string "http://www.w3.org/1998/Math/MathML".
Definition xml_ns : str := of_string "http://www.w3.org/XML/1998/namespace".
Definition xmlns_ns : str := of_string "http://www.w3.org/2000/xmlns/".
Definition html_tag (s : string) : qname := mkQName (Some html_ns) (of_string s).

(** The parts of a node that serialisation reads: an element has a qualified name, its attributes
    in insertion order and its children. *)
Inductive node :=
| Element (name : qname) (attrs : list (qname * str)) (children : list node)
| Text (data : str)
| Comment (data : str)
| Doctype (name : str).

(** serialisation.cpp:18-43 [escapeString] *)
Definition escape_char (attribute : bool) (r : N) : str :=
  if r =? 38 then of_string "&amp;"
  else if r =? 160 then of_string "&nbsp;"
  else if r =? 60 then of_string "&lt;"
  else if r =? 62 then of_string "&gt;"
  else if attribute && (r =? 34) then of_string "&quot;"
  else [r].
Definition escape (attribute : bool) (s : str) : str := flat_map (escape_char attribute) s.

(** element.cpp:172-186, serialisation.cpp:54-67 *)
Definition void_names : list qname :=
  map html_tag ["area"; "base"; "br"; "col"; "embed"; "hr"; "img"; "input"; "link"; "meta"; "source"; "track"; "wbr";
                "basefont"; "bgsound"; "frame"; "keygen"; "param"]%string.
Definition is_void (q : qname) : bool := existsb (qname_eqb q) void_names.

(** serialisation.cpp:146-154 *)
Definition raw_names : list qname :=
  map html_tag ["style"; "script"; "xmp"; "iframe"; "noembed"; "noframes"; "plaintext"; "noscript"]%string.
Definition is_raw (q : qname) : bool := existsb (qname_eqb q) raw_names.

(** names.cpp:132-153 [QualifiedName::repr] *)
Definition repr (q : qname) : str :=
  match q_ns q with
  | None => q_name q
  | Some ns =>
      (if str_eqb ns html_ns then of_string "html"
       else if str_eqb ns svg_ns then of_string "svg"
       else if str_eqb ns mathml_ns then of_string "mathml"
       else if str_eqb ns xml_ns then of_string "xml"
       else if str_eqb ns xmlns_ns then of_string "xmlns"
       else ns) ++ [58] ++ q_name q
  end.

(** serialisation.cpp:102-106, 134-138 *)
Definition tag_name (q : qname) : str :=
  if existsb (fun ns => opt_eqb str_eqb (q_ns q) (Some ns)) [html_ns; mathml_ns; svg_ns]
  then q_name q else repr q.

(** ns-html-attr-names.inc:79 *)
Definition is_attr : qname := mkQName None (of_string "is").

(** serialisation.cpp:112, 121-123 *)
Definition serialize_attr (a : qname * str) : str :=
  [32] ++ q_name (fst a) ++ [61; 34] ++ escape true (snd a) ++ [34].

(** serialisation.cpp:108-125: the [is] attribute first, then the others. *)
Definition attr_order (attrs : list (qname * str)) : list (qname * str) :=
  match find (fun a => qname_eqb (fst a) is_attr) attrs with
  | Some a => [a] | None => [] end ++
  filter (fun a => negb (qname_eqb (fst a) is_attr)) attrs.
Definition start_tag (q : qname) (attrs : list (qname * str)) : str :=
  [60] ++ tag_name q ++ flat_map serialize_attr (attr_order attrs) ++ [62].
Definition end_tag (q : qname) : str := [60; 47] ++ tag_name q ++ [62].

(** serialisation.cpp:96-185: one child of an element named [parent] ([None] at the root). *)
Fixpoint serialize_node (parent : option qname) (n : node) : str :=
  match n with
  | Element q attrs children =>
      start_tag q attrs ++
      (if is_void q then []
       else flat_map (serialize_node (Some q)) children ++ end_tag q)
  | Text s =>
      match parent with
      | Some q => if is_raw q then s else escape false s
      | None => escape false s
      end
  | Comment s => of_string "<!--" ++ s ++ of_string "-->"
  | Doctype s => of_string "<!DOCTYPE " ++ s ++ of_string ">"
  end.

(** serialisation.cpp:70-187 [serializeHtmlFragment]: the children of a document (the test for void
    elements at the start is [is_void] above). *)
Definition serialize (children : list node) : str := flat_map (serialize_node None) children.
