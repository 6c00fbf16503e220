(** What the tokens of a serialised tree should be, and for which trees. *)
From Coq Require Import String List Arith Bool NArith Permutation.
From Verif.Base Require Import Str.
From Verif.Html Require Import LexerModel SerialModel.
Import ListNotations.
Local Open Scope list_scope.
Local Open Scope N_scope.

Definition tag_token (ty : ttype) (name : str) (attrs : list (str * str)) : token :=
  mkToken ty (Some name) 0 [] None None attrs false false.
Definition comment_token (s : str) : token := mkToken T_COMMENT None 0 s None None [] false false.
Definition doctype_token (s : str) : token := mkToken T_DOCTYPE (Some s) 0 [] None None [] false false.

Definition local_attr (a : qname * str) : str * str := (q_name (fst a), snd a).

(** The void elements of the HTML standard (13.1.2), with those that its serialisation algorithm
    adds (13.3: basefont, bgsound, frame, keygen, param), written down here independently of the
    model. *)
Definition in_names (l : list string) (n : str) : bool := existsb (fun x => str_eqb n (of_string x)) l.
Definition html_named (l : list string) (q : qname) : bool :=
  opt_eqb str_eqb (q_ns q) (Some (of_string "http://www.w3.org/1999/xhtml")) && in_names l (q_name q).
Definition void_element (q : qname) : bool :=
  html_named ["area"; "base"; "basefont"; "bgsound"; "br"; "col"; "embed"; "frame"; "hr"; "img"; "input"; "keygen";
              "link"; "meta"; "param"; "source"; "track"; "wbr"]%string q.

(** The tokens of a node: one per character of text, one per comment and doctype, and a start and
    an end tag around those of the children (no end tag for a void element). The attributes of a
    start tag are those of the element, each once, in some order. *)
Inductive token_list : node -> list token -> Prop :=
| tl_text s : token_list (Text s) (map char_token s)
| tl_comment s : token_list (Comment s) [comment_token s]
| tl_doctype s : token_list (Doctype s) [doctype_token s]
| tl_void q attrs attrs' : void_element q = true -> Permutation (map local_attr attrs) attrs' ->
    token_list (Element q attrs []) [tag_token T_START_TAG (q_name q) attrs']
| tl_element q attrs attrs' children ts : void_element q = false -> Permutation (map local_attr attrs) attrs' ->
    token_lists children ts ->
    token_list (Element q attrs children)
      (tag_token T_START_TAG (q_name q) attrs' :: ts ++ [tag_token T_END_TAG (q_name q) []])
with token_lists : list node -> list token -> Prop :=
| tl_nil : token_lists [] []
| tl_cons n ns ts us : token_list n ts -> token_lists ns us -> token_lists (n :: ns) (ts ++ us).

(** Names that the tokenizer reads back unchanged. *)
Definition name_char (c : N) : Prop := is_space c = false /\ is_upper c = false /\ c <> 47 /\ c <> 62 /\ c <> 0 /\ c <> 13.
Definition tag_name_ok (s : str) : Prop :=
  match s with [] => False | c :: s' => is_lower c = true /\ Forall name_char s' end.
Definition attr_name_ok (s : str) : Prop := s <> [] /\ Forall (fun c => name_char c /\ c <> 61) s.
Definition text_ok (s : str) : Prop := ~ In 0 s /\ ~ In 13 s.
Definition doctype_ok (s : str) : Prop := s <> [] /\ Forall name_char s.
(** A comment that HTML can express. *)
Definition comment_ok (s : str) : Prop :=
  text_ok s /\
  (forall r, s <> 62 :: r) /\ (forall r, s <> 45 :: 62 :: r) /\
  (forall a b, s <> a ++ 45 :: 45 :: b) /\ (forall a, s <> a ++ [45]).
(** Raw text that has nothing like a tag in it. *)
Definition raw_ok (s : str) : Prop :=
  text_ok s /\ (forall a b, s <> a ++ 60 :: 47 :: b) /\ (forall a b, s <> a ++ 60 :: 33 :: b).

(** parser.cpp:950-960, 1243-1252, 1304, 2109, 2582, 2609-2626: how the content of an element is
    tokenized (scripting is off). *)
Definition mode_of (n : str) : option text_mode :=
  if in_names ["title"; "textarea"]%string n then Some Rcdata
  else if in_names ["style"; "xmp"; "iframe"; "noembed"; "noframes"]%string n then Some Rawtext
  else if in_names ["script"]%string n then Some ScriptData
  else if in_names ["plaintext"]%string n then Some Plaintext
  else None.
(** A tree builder that picks the mode by name. *)
Definition by_name (sink : list token -> option text_mode) : Prop :=
  forall t out n, t_type t = T_START_TAG -> t_name t = Some n -> sink (t :: out) = mode_of n.

Definition attrs_ok (attrs : list (qname * str)) : Prop :=
  Forall (fun a => q_ns (fst a) = None /\ attr_name_ok (q_name (fst a)) /\ text_ok (snd a)) attrs /\
  NoDup (map (fun a => q_name (fst a)) attrs).

Definition name_ok (q : qname) : Prop :=
  tag_name_ok (q_name q) /\
  (q_ns q = Some html_ns \/ (q_ns q = Some svg_ns \/ q_ns q = Some mathml_ns) /\ mode_of (q_name q) = None).

Fixpoint expressible (n : node) : Prop :=
  match n with
  | Text s => text_ok s
  | Comment s => comment_ok s
  | Doctype s => doctype_ok s
  | Element q attrs children =>
      name_ok q /\ attrs_ok attrs /\
      if void_element q then children = []
      else
        match mode_of (q_name q) with
        | None => html_named ["noscript"]%string q = false /\ fold_right (fun n P => expressible n /\ P) True children
        | Some Rcdata => match children with [Text s] => text_ok s | _ => children = [] end
        | Some Rawtext | Some ScriptData => match children with [Text s] => raw_ok s | _ => children = [] end
        | Some Plaintext => False
        end
  end.
