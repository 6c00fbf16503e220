(** What XML 1.0 and Namespaces in XML say, independently of the parser: how documents are written, and
    what they mean. Only the data types of the model are used. *)
From Coq Require Import String List Arith NArith Bool.
From Verif.Xml Require Import XmlModel.
Import ListNotations.
Local Open Scope list_scope.

(** ** Names, https://www.w3.org/TR/xml/#NT-NameStartChar *)
Local Open Scope N_scope.
Definition name_start (c : N) : Prop :=
  c = 0x3A \/ 0x41 <= c <= 0x5A \/ c = 0x5F \/ 0x61 <= c <= 0x7A \/ 0xC0 <= c <= 0xD6 \/ 0xD8 <= c <= 0xF6 \/ 0xF8 <= c <= 0x2FF \/
  0x370 <= c <= 0x37D \/ 0x37F <= c <= 0x1FFF \/ 0x200C <= c <= 0x200D \/ 0x2070 <= c <= 0x218F \/ 0x2C00 <= c <= 0x2FEF \/
  0x3001 <= c <= 0xD7FF \/ 0xF900 <= c <= 0xFDCF \/ 0xFDF0 <= c <= 0xFFFD \/ 0x10000 <= c <= 0xEFFFF.
Definition name_char (c : N) : Prop :=
  name_start c \/ c = 0x2D \/ c = 0x2E \/ 0x30 <= c <= 0x39 \/ c = 0xB7 \/ 0x300 <= c <= 0x36F \/ 0x203F <= c <= 0x2040.
Definition xml_char (c : N) : Prop := c = 0x9 \/ c = 0xA \/ c = 0xD \/ 0x20 <= c <= 0xD7FF \/ 0xE000 <= c <= 0xFFFD \/ 0x10000 <= c <= 0x10FFFF.
Definition space (c : N) : Prop := c = 0x20 \/ c = 0x9 \/ c = 0xD \/ c = 0xA.
Local Close Scope N_scope.
Definition valid_name (s : str) : Prop := match s with c :: r => name_start c /\ Forall name_char r | [] => False end.
(** A name without a colon. *)
Definition ncname (s : str) : Prop := valid_name s /\ ~ In 58%N s.
Definition valid_qname (n : name) : Prop := ncname (n_local n) /\ match n_prefix n with Some p => ncname p | None => True end.
Definition name_text (n : name) : str := match n_prefix n with None => n_local n | Some p => p ++ 58%N :: n_local n end.

(** [s] is some white space, maybe none. *)
Definition blanks (s : str) : Prop := Forall space s.
(** The end mark comes at the end of [v ++ stop], not before. *)
Definition ends (stop v : str) : Prop := forall a b, v ++ stop = a ++ stop ++ b -> b = [].

(** ** Characters by reference *)
Inductive digit_char (base : N) : N -> N -> Prop :=
| digit_low d : (d < 10)%N -> (d < base)%N -> digit_char base d (48 + d)
| digit_upper d : (10 <= d)%N -> (d < base)%N -> (d < 16)%N -> digit_char base d (55 + d)
| digit_lower d : (10 <= d)%N -> (d < base)%N -> (d < 16)%N -> digit_char base d (87 + d).
(** The first digit counts most. *)
Fixpoint number (base : N) (ds : list N) : N :=
  match ds with [] => 0%N | d :: r => (d * base ^ N.of_nat (length r) + number base r)%N end.
Definition entities : list (string * N) := [("lt", 60%N); ("gt", 62%N); ("amp", 38%N); ("apos", 39%N); ("quot", 34%N)]%string.
Inductive writes_ref : N -> str -> Prop :=
| ref_decimal c ds s : Forall2 (digit_char 10) ds s -> s <> [] -> number 10 ds = c -> (c < 2 ^ 32)%N -> writes_ref c (text "&#" ++ s ++ text ";")
| ref_hex c ds s : Forall2 (digit_char 16) ds s -> s <> [] -> number 16 ds = c -> (c < 2 ^ 32)%N -> writes_ref c (text "&#x" ++ s ++ text ";")
| ref_entity c n : In (n, c) entities -> writes_ref c (text "&" ++ text n ++ text ";").

(** ** Attributes *)
Inductive writes_value (quote : N) : str -> str -> Prop :=
| value_end : writes_value quote [] []
| value_char c v s : c <> quote -> c <> 38%N -> c <> 60%N -> writes_value quote v s -> writes_value quote (c :: v) (c :: s)
| value_ref c t v s : writes_ref c t -> writes_value quote v s -> writes_value quote (c :: v) (t ++ s).
Inductive writes_attr : name * str -> str -> Prop :=
| attr_written n v q s : valid_qname n -> q = 34%N \/ q = 39%N -> writes_value q v s -> writes_attr (n, v) (name_text n ++ text "=" ++ q :: s ++ [q]).
Inductive writes_attrs : list (name * str) -> str -> Prop :=
| attrs_end b : blanks b -> writes_attrs [] b
| attrs_next a l b s r : blanks b -> b <> [] -> writes_attr a s -> writes_attrs l r -> writes_attrs (a :: l) (b ++ s ++ r).

(** ** Text: characters, references and CDATA sections *)
Inductive writes_text : str -> str -> Prop :=
| text_end : writes_text [] []
| text_char c v s : c <> 60%N -> c <> 38%N -> (forall r, c :: s <> text "]]>" ++ r) -> writes_text v s -> writes_text (c :: v) (c :: s)
| text_ref c t v s : writes_ref c t -> writes_text v s -> writes_text (c :: v) (t ++ s)
| text_cdata d v s : ends (text "]]>") d -> writes_text v s -> writes_text (d ++ v) (text "<![CDATA[" ++ d ++ text "]]>" ++ s).

(** ** Comments and processing instructions *)
Inductive writes_comment : str -> str -> Prop :=
| comment_written v : Forall xml_char v -> ends (text "-->") v -> writes_comment v (text "<!--" ++ v ++ text "-->").
(** The target is not [xml] in any case of letters. *)
Definition is_xml (n : str) : Prop := exists a b c, n = [a; b; c] /\ (a = 120 \/ a = 88)%N /\ (b = 109 \/ b = 77)%N /\ (c = 108 \/ c = 76)%N.
Inductive writes_pi : str -> Prop :=
| pi_written n d : valid_name n -> ~ is_xml n -> (d = [] \/ exists c d', d = c :: d' /\ space c) -> Forall xml_char d -> ends (text "?>") d -> writes_pi (text "<?" ++ n ++ d ++ text "?>").

(** ** Elements, as they are written *)
Inductive src :=
| S_TEXT (s : str) | S_COMMENT (s : str) | S_PI | S_ELEMENT (n : name) (attrs : list (name * str)) (children : list src).
Definition text_of (v : str) : list src := match v with [] => [] | _ => [S_TEXT v] end.
Inductive writes_item : src -> str -> Prop :=
| item_comment v s : writes_comment v s -> writes_item (S_COMMENT v) s
| item_pi s : writes_pi s -> writes_item S_PI s
| item_empty n l s : valid_qname n -> writes_attrs l s -> writes_item (S_ELEMENT n l []) (text "<" ++ name_text n ++ s ++ text "/>")
| item_element n l s k t b :
    valid_qname n -> writes_attrs l s -> writes_content k t -> blanks b ->
    writes_item (S_ELEMENT n l k) (text "<" ++ name_text n ++ s ++ text ">" ++ t ++ text "</" ++ name_text n ++ b ++ text ">")
with writes_content : list src -> str -> Prop :=
| content_end v s : writes_text v s -> writes_content (text_of v) s
| content_next v s i t l r : writes_text v s -> writes_item i t -> writes_content l r -> writes_content (text_of v ++ i :: l) (s ++ t ++ r).

(** ** What names mean. The attributes of the elements around, the nearest first. *)
Definition scope := list (list (name * str)).
(** The value of the first attribute with this name in the nearest element that has it. *)
Definition same_name (a b : name) : bool := opt_eqb (n_prefix a) (n_prefix b) && str_eqb (n_local a) (n_local b).
Fixpoint declared (sc : scope) (n : name) : option str :=
  match sc with
  | [] => None
  | l :: sc => match find (fun a => same_name (fst a) n) l with Some a => Some (snd a) | None => declared sc n end
  end.
(** The empty name takes a declaration back. *)
Definition nonempty (o : option str) : option str := match o with Some [] => None | _ => o end.
Definition default_ns (ns : option str) (sc : scope) : option str :=
  match declared sc (mkName None (text "xmlns")) with Some v => nonempty (Some v) | None => ns end.
Inductive prefix_ns (sc : scope) : str -> str -> Prop :=
| prefix_xml : prefix_ns sc (text "xml") (text "http://www.w3.org/XML/1998/namespace")
| prefix_xmlns : prefix_ns sc (text "xmlns") (text "http://www.w3.org/2000/xmlns/")
| prefix_declared p v : p <> text "xml" -> p <> text "xmlns" -> nonempty (declared sc (mkName (Some (text "xmlns")) p)) = Some v -> prefix_ns sc p v.
Inductive element_name (ns : option str) (sc : scope) : name -> qname -> Prop :=
| element_default l : element_name ns sc (mkName None l) (mkQ (default_ns ns sc) l)
| element_prefixed p l v : prefix_ns sc p v -> element_name ns sc (mkName (Some p) l) (mkQ (Some v) l).
Inductive attribute_name (sc : scope) : name -> qname -> Prop :=
| attribute_plain l : attribute_name sc (mkName None l) (mkQ None l)
| attribute_prefixed p l v : prefix_ns sc p v -> attribute_name sc (mkName (Some p) l) (mkQ (Some v) l).
Inductive attribute_means (sc : scope) : name * str -> qname * str -> Prop :=
| attribute_meaning n q v : attribute_name sc n q -> attribute_means sc (n, v) (q, v).
(** The nodes that a document has where this is written. The names of the attributes of an element are
    different. *)
Inductive means (ns : option str) (sc : scope) : src -> list node -> Prop :=
| mean_text v : means ns sc (S_TEXT v) [TEXT v]
| mean_comment v : means ns sc (S_COMMENT v) [COMMENT v]
| mean_pi : means ns sc S_PI []
| mean_element n l k q a c :
    element_name ns (l :: sc) n q -> Forall2 (attribute_means (l :: sc)) l a -> NoDup (map fst a) -> mean_all ns (l :: sc) k c ->
    means ns sc (S_ELEMENT n l k) [ELEMENT q a c]
with mean_all (ns : option str) (sc : scope) : list src -> list node -> Prop :=
| mean_none : mean_all ns sc [] []
| mean_more x l a b : means ns sc x a -> mean_all ns sc l b -> mean_all ns sc (x :: l) (a ++ b).
(** No element takes the default namespace back with [xmlns=""]. *)
Inductive keeps_default : src -> Prop :=
| keeps_text v : keeps_default (S_TEXT v)
| keeps_comment v : keeps_default (S_COMMENT v)
| keeps_pi : keeps_default S_PI
| keeps_element n l k : ~ In (mkName None (text "xmlns"), []) l -> Forall keeps_default k -> keeps_default (S_ELEMENT n l k).

(** ** Documents *)
Inductive writes_misc : list node -> str -> Prop :=
| misc_end : writes_misc [] []
| misc_comment v s l r : writes_comment v s -> writes_misc l r -> writes_misc (COMMENT v :: l) (s ++ r)
| misc_pi s l r : writes_pi s -> writes_misc l r -> writes_misc l (s ++ r)
| misc_space c l r : space c -> writes_misc l r -> writes_misc l (c :: r).
Definition eq_sign (s : str) : Prop := exists a b, blanks a /\ blanks b /\ s = a ++ text "=" ++ b.
Inductive writes_pseudo (n : string) (v : str) : str -> Prop :=
| pseudo_written b e q : blanks b -> b <> [] -> eq_sign e -> q = 34%N \/ q = 39%N -> writes_pseudo n v (b ++ text n ++ e ++ q :: v ++ [q]).
Definition version_number (v : str) : Prop := exists d, v = text "1." ++ d /\ d <> [] /\ Forall (fun c => 48 <= c <= 57)%N d.
Definition letter (c : N) : Prop := (65 <= c <= 90 \/ 97 <= c <= 122)%N.
Definition encoding_name (v : str) : Prop :=
  match v with c :: r => letter c /\ Forall (fun c => letter c \/ (48 <= c <= 57)%N \/ c = 95%N \/ c = 46%N \/ c = 45%N) r | [] => False end.
(** Version, encoding and standalone, the empty string for what is not written. *)
Definition maybe (P : str -> str -> Prop) (v s : str) : Prop := v = [] /\ s = [] \/ P v s.
Inductive writes_decl : str * str * str -> str -> Prop :=
| decl_written v e a s t u b :
    version_number v -> writes_pseudo "version" v s ->
    maybe (fun e t => encoding_name e /\ writes_pseudo "encoding" e t) e t ->
    maybe (fun a u => (a = text "yes" \/ a = text "no") /\ writes_pseudo "standalone" a u) a u -> blanks b ->
    writes_decl (v, e, a) (text "<?xml" ++ s ++ t ++ u ++ b ++ text "?>").
Inductive writes_literal : str -> str -> Prop :=
| literal_written v q : q = 34%N \/ q = 39%N -> ~ In q v -> ~ In 38%N v -> writes_literal v (q :: v ++ [q]).
Inductive writes_external : str * str -> str -> Prop :=
| external_none : writes_external ([], []) []
| external_system b c v s : blanks b -> b <> [] -> blanks c -> c <> [] -> writes_literal v s -> writes_external ([], v) (b ++ text "SYSTEM" ++ c ++ s)
| external_public b c d p v s t : blanks b -> b <> [] -> blanks c -> c <> [] -> blanks d -> d <> [] -> writes_literal p s -> writes_literal v t ->
    writes_external (p, v) (b ++ text "PUBLIC" ++ c ++ s ++ d ++ t).
(** Without an internal subset. *)
Inductive writes_doctype : node -> str -> Prop :=
| doctype_written b n p v s c : blanks b -> b <> [] -> valid_name n -> writes_external (p, v) s -> blanks c ->
    writes_doctype (DOCTYPE n p v) (text "<!DOCTYPE" ++ b ++ n ++ s ++ c ++ text ">").
Inductive writes_prolog : str * str * str -> list node -> str -> Prop :=
| prolog_written d s m t : (writes_decl d s \/ d = ([], [], []) /\ s = []) -> writes_misc m t -> writes_prolog d m (s ++ t)
| prolog_doctype d s m t x u k w : (writes_decl d s \/ d = ([], [], []) /\ s = []) -> writes_misc m t -> writes_doctype x u -> writes_misc k w ->
    writes_prolog d (m ++ x :: k) (s ++ t ++ u ++ w).
Inductive writes_document (ns : option str) : src -> document -> str -> Prop :=
| document_written v e a m s x t n k u : writes_prolog (v, e, a) m s -> writes_item x t -> means ns [] x [n] -> (exists q l c, n = ELEMENT q l c) -> writes_misc k u ->
    writes_document ns x (mkDoc v e a (m ++ n :: k)) (s ++ t ++ u).
