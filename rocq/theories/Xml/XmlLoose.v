(** What every text that the parser takes looks like, independently of the parser: it need not be
    well-formed, but its tags nest and its prefixes are declared. Only the data types of the model are used. *)
From Coq Require Import String List Arith NArith Bool.
From Verif.Xml Require Import XmlModel XmlSpec.
Import ListNotations.
Local Open Scope list_scope.

(** A name with at most one colon, and that not at an end. *)
Definition loose_name (n : name) : Prop :=
  valid_name (name_text n) /\ ~ In 58%N (n_local n) /\ n_local n <> [] /\ match n_prefix n with Some p => ~ In 58%N p /\ p <> [] | None => True end.
(** From [&] to the first [;]. Which character it stands for is not said here. *)
Inductive loose_ref : str -> Prop :=
| loose_reference t : t <> [] -> ~ In 38%N t -> ~ In 59%N t -> ~ In 60%N t -> loose_ref (text "&" ++ t ++ text ";").
Inductive loose_value (quote : N) : str -> str -> Prop :=
| lvalue_end : loose_value quote [] []
| lvalue_char c v s : c <> quote -> loose_value quote v s -> loose_value quote (c :: v) (c :: s)
| lvalue_ref c t v s : loose_ref t -> loose_value quote v s -> loose_value quote (c :: v) (t ++ s).
(** White space between attributes may be missing, but there is none beside [=]. *)
Inductive loose_attrs : list (name * str) -> str -> Prop :=
| lattrs_end : loose_attrs [] []
| lattrs_next n v q s b l r : loose_name n -> q = 34%N \/ q = 39%N -> loose_value q v s -> blanks b -> loose_attrs l r ->
    loose_attrs ((n, v) :: l) (name_text n ++ text "=" ++ (q :: s ++ [q]) ++ b ++ r).
Inductive loose_text : str -> str -> Prop :=
| ltext_end : loose_text [] []
| ltext_char c v s : c <> 60%N -> c <> 38%N -> loose_text v s -> loose_text (c :: v) (c :: s)
| ltext_ref c t v s : loose_ref t -> loose_text v s -> loose_text (c :: v) (t ++ s)
| ltext_cdata d v s : ends (text "]]>") d -> loose_text v s -> loose_text (d ++ v) (text "<![CDATA[" ++ d ++ text "]]>" ++ s).
Inductive loose_pi : str -> Prop :=
| lpi n d : valid_name n -> ~ is_xml n -> Forall xml_char d -> ends (text "?>") d -> loose_pi (text "<?" ++ n ++ d ++ text "?>").

(** ** Namespaces. If an element has the same declaration twice, either may be meant. *)
Inductive bound_to : scope -> str -> str -> Prop :=
| bound_xml sc : bound_to sc (text "xml") (text "http://www.w3.org/XML/1998/namespace")
| bound_xmlns sc : bound_to sc (text "xmlns") (text "http://www.w3.org/2000/xmlns/")
| bound_here l sc p v : p <> text "xml" -> p <> text "xmlns" -> In (mkName (Some (text "xmlns")) p, v) l -> bound_to (l :: sc) p v
| bound_there (l : list (name * str)) sc p v : p <> text "xml" -> p <> text "xmlns" -> (forall w, ~ In (mkName (Some (text "xmlns")) p, w) l) -> bound_to sc p v -> bound_to (l :: sc) p v.
Inductive default_to (ns : option str) : scope -> option str -> Prop :=
| default_start : default_to ns [] ns
| default_here l sc v : In (mkName None (text "xmlns"), v) l -> default_to ns (l :: sc) (Some v)
| default_there (l : list (name * str)) sc o : (forall w, ~ In (mkName None (text "xmlns"), w) l) -> default_to ns sc o -> default_to ns (l :: sc) o.
Inductive loose_element_name (ns : option str) (sc : scope) : name -> qname -> Prop :=
| lname_default l o : default_to ns sc o -> loose_element_name ns sc (mkName None l) (mkQ o l)
| lname_prefixed p l v : bound_to sc p v -> loose_element_name ns sc (mkName (Some p) l) (mkQ (Some v) l).
Inductive loose_attribute_name (sc : scope) : name -> qname -> Prop :=
| lattr_plain l : loose_attribute_name sc (mkName None l) (mkQ None l)
| lattr_prefixed p l v : bound_to sc p v -> loose_attribute_name sc (mkName (Some p) l) (mkQ (Some v) l).
(** The attributes [a] of a node are those that are written, each once. *)
Definition same_attrs (sc : scope) (l : list (name * str)) (a : list (qname * str)) : Prop :=
  NoDup (map fst a) /\ (forall q v, In (q, v) a -> exists n, In (n, v) l /\ loose_attribute_name sc n q) /\
  (forall n v, In (n, v) l -> exists q, loose_attribute_name sc n q /\ In q (map fst a)).

(** ** Elements: an end tag has the name of the start tag, or one that means the same. *)
Definition nodes_of (v : str) : list node := match v with [] => [] | _ => [TEXT v] end.
Inductive loose_element (ns : option str) (sc : scope) : str -> node -> Prop :=
| lelement_empty n l b s q a : loose_name n -> blanks b -> loose_attrs l s -> loose_element_name ns (l :: sc) n q -> same_attrs (l :: sc) l a ->
    loose_element ns sc (text "<" ++ name_text n ++ b ++ s ++ text "/>") (ELEMENT q a [])
| lelement_full n m l b s q a t k e : loose_name n -> blanks b -> loose_attrs l s -> loose_element_name ns (l :: sc) n q -> same_attrs (l :: sc) l a ->
    loose_content ns (l :: sc) t k -> loose_name m -> loose_element_name ns (l :: sc) m q -> blanks e ->
    loose_element ns sc (text "<" ++ name_text n ++ b ++ s ++ text ">" ++ t ++ text "</" ++ name_text m ++ e ++ text ">") (ELEMENT q a k)
with loose_content (ns : option str) (sc : scope) : str -> list node -> Prop :=
| lcontent_end v s : loose_text v s -> loose_content ns sc s (nodes_of v)
| lcontent_element v s t x r k : loose_text v s -> loose_element ns sc t x -> loose_content ns sc r k -> loose_content ns sc (s ++ t ++ r) (nodes_of v ++ x :: k)
| lcontent_comment v s w t r k : loose_text v s -> writes_comment w t -> loose_content ns sc r k -> loose_content ns sc (s ++ t ++ r) (nodes_of v ++ COMMENT w :: k)
| lcontent_pi v s t r k : loose_text v s -> loose_pi t -> loose_content ns sc r k -> loose_content ns sc (s ++ t ++ r) (nodes_of v ++ k).
(** A tag that the end of the text cuts off after an attribute or the name. *)
Inductive cut_tag (ns : option str) : str -> node -> Prop :=
| cut n l b s q a : loose_name n -> blanks b -> loose_attrs l s -> loose_element_name ns [l] n q -> same_attrs [l] l a -> cut_tag ns (text "<" ++ name_text n ++ b ++ s) (ELEMENT q a []).
(** ** Around the root *)
Inductive loose_misc : str -> list node -> Prop :=
| lmisc_end : loose_misc [] []
| lmisc_comment v s r k : writes_comment v s -> loose_misc r k -> loose_misc (s ++ r) (COMMENT v :: k)
| lmisc_pi s r k : loose_pi s -> loose_misc r k -> loose_misc (s ++ r) k
| lmisc_space c r k : space c -> loose_misc r k -> loose_misc (c :: r) k.
Inductive loose_prolog : str -> list node -> Prop :=
| lprolog_none d s k : d = [] \/ (exists u, d = text "<?xml" ++ u ++ text "?>") -> loose_misc s k -> loose_prolog (d ++ s) k
| lprolog_doctype d s k u n p v s' k' : d = [] \/ (exists u, d = text "<?xml" ++ u ++ text "?>") -> loose_misc s k -> loose_misc s' k' ->
    loose_prolog (d ++ s ++ (text "<!DOCTYPE" ++ u ++ text ">") ++ s') (k ++ DOCTYPE n p v :: k').
