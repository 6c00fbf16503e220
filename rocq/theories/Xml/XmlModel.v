(** The XML parser: vaev-engine/xml/parser.cpp.

    Text is a list of code points. [Bad] stands for all errors. A scan that fails goes back to where it
    began, so errors carry no position. Karm's [Match::PARTIAL], for a pattern that the end of the text
    cuts off, counts as no match here; in each place of the parser that asks for it the document is
    refused in both cases. The depth of the machine stack is not modelled. *)
From Coq Require Import String Ascii List Arith NArith ZArith Bool.
Import ListNotations.
Local Open Scope list_scope.

Definition str := list N.
Definition text (s : string) : str := List.map N_of_ascii (list_ascii_of_string s).
Fixpoint str_eqb (a b : str) : bool :=
  match a, b with [], [] => true | x :: a, y :: b => N.eqb x y && str_eqb a b | _, _ => false end.
Definition opt_eqb (a b : option str) : bool :=
  match a, b with None, None => true | Some a, Some b => str_eqb a b | _, _ => false end.

(** [Good a s]: the result and the rest of the text; [Fuel]: out of fuel *)
Inductive res (A : Type) := Good (a : A) (s : str) | Bad | Fuel.
Arguments Good {A} _ _. Arguments Bad {A}. Arguments Fuel {A}.
Definition bind {A B} (r : res A) (f : A -> str -> res B) : res B :=
  match r with Good a s => f a s | Bad => Bad | Fuel => Fuel end.
Definition or_else {A} (r : res A) (k : res A) : res A := match r with Bad => k | _ => r end.

(** Karm [SScan::skip] *)
Fixpoint skip (p s : str) : option str :=
  match p, s with
  | [], _ => Some s
  | c :: p, d :: s => if N.eqb c d then skip p s else None
  | _ :: _, [] => None
  end.
Definition ahead (p s : str) : bool := match skip p s with Some _ => true | None => false end.
Definition expect (p s : str) : res unit := match skip p s with Some r => Good tt r | None => Bad end.
Fixpoint take_while (f : N -> bool) (s : str) : str * str :=
  match s with
  | c :: r => if f c then let '(a, b) := take_while f r in (c :: a, b) else ([], s)
  | [] => ([], [])
  end.

(** dom/names.cpp:14-18 *)
Record qname := mkQ { q_ns : option str; q_name : str }.
Definition q_eqb (a b : qname) : bool := opt_eqb (q_ns a) (q_ns b) && str_eqb (q_name a) (q_name b).

(** dom/names.cpp:120, 126 *)
Definition XML_NS : str := text "http://www.w3.org/XML/1998/namespace".
Definition XMLNS_NS : str := text "http://www.w3.org/2000/xmlns/".

(** Karm [Map] *)
Fixpoint lookup {A} (eqb : A -> A -> bool) {B} (k : A) (m : list (A * B)) : option B :=
  match m with [] => None | (k', v) :: m => if eqb k k' then Some v else lookup eqb k m end.
Fixpoint put {A} (eqb : A -> A -> bool) {B} (k : A) (v : B) (m : list (A * B)) : list (A * B) :=
  match m with [] => [(k, v)] | (k', v') :: m => if eqb k k' then (k', v) :: m else (k', v') :: put eqb k v m end.

(** xml/parser.cpp:19-22 *)
Record name := mkName { n_prefix : option str; n_local : str }.
(** xml/parser.cpp:28-30 *)
Record context := mkCtx { c_default : option str; c_prefixes : list (str * str) }.
(** xml/parser.cpp:32-38 *)
Definition make_context (ns : option str) : context :=
  mkCtx ns (put str_eqb (text "xmlns") XMLNS_NS (put str_eqb (text "xml") XML_NS [])).
(** xml/parser.cpp:40-49 *)
Definition resolve_element (c : context) (n : name) : option qname :=
  match n_prefix n with
  | None => Some (mkQ (c_default c) (n_local n))
  | Some p => match lookup str_eqb p (c_prefixes c) with None => None | Some ns => Some (mkQ (Some ns) (n_local n)) end
  end.
(** xml/parser.cpp:51-60 *)
Definition resolve_attribute (c : context) (n : name) : option qname :=
  match n_prefix n with
  | None => Some (mkQ None (n_local n))
  | Some p => match lookup str_eqb p (c_prefixes c) with None => None | Some ns => Some (mkQ (Some ns) (n_local n)) end
  end.
(** xml/parser.cpp:62-70; the second argument is never none, see line 771 *)
Definition declare_prefix (c : context) (p ns : str) : context :=
  if str_eqb p (text "xml") || str_eqb p (text "xmlns") then c
  else mkCtx (c_default c) (put str_eqb p ns (c_prefixes c)).

(** ** Characters *)

Definition in_ranges (l : list (N * N)) (c : N) : bool := existsb (fun r => (fst r <=? c)%N && (c <=? snd r)%N) l.
(** xml/parser.cpp:96-98 *)
Definition is_char (c : N) : bool := in_ranges [(9, 9); (10, 10); (13, 13); (32, 55295); (57344, 65533); (65536, 1114111)]%N c.
(** xml/parser.cpp:103-104 *)
Definition is_space (c : N) : bool := (N.eqb c 32 || N.eqb c 9 || N.eqb c 13 || N.eqb c 10)%bool.
(** xml/parser.cpp:106-131 *)
Definition is_name_start (c : N) : bool :=
  in_ranges [(58, 58); (65, 90); (95, 95); (97, 122); (192, 214); (216, 246); (248, 767); (880, 893); (895, 8191); (8204, 8205);
    (8304, 8591); (11264, 12271); (12289, 55295); (63744, 64975); (65008, 65533); (65536, 983039)]%N c.
(** xml/parser.cpp:135-152 *)
Definition is_name_char (c : N) : bool :=
  is_name_start c || in_ranges [(45, 45); (46, 46); (48, 57); (183, 183); (768, 879); (8255, 8256)]%N c.

(** xml/parser.cpp:159-167: the places of the colons *)
Fixpoint colons (i : nat) (s : str) : list nat :=
  match s with [] => [] | c :: s => if N.eqb c 58 then i :: colons (S i) s else colons (S i) s end.
(** xml/parser.cpp:156-180 [_parseQualifiedName] of a string *)
Definition split_name (s : str) : option name :=
  match colons 0 s with
  | [] => Some (mkName None s)
  | [i] => if Nat.eqb i 0 || Nat.eqb (S i) (length s) then None else Some (mkName (Some (firstn i s)) (skipn (S i) s))
  | _ => None
  end.
(** xml/parser.cpp:186-192 [_parseS] *)
Definition spaces (s : str) : str := snd (take_while is_space s).
(** xml/parser.cpp:194-201 [_parseName] *)
Definition parse_name (s : str) : res str :=
  match s with
  | c :: r => if is_name_start c then let '(a, b) := take_while is_name_char r in Good (c :: a) b else Bad
  | [] => Bad
  end.
(** xml/parser.cpp:182-184 *)
Definition parse_qname (s : str) : res name :=
  bind (parse_name s) (fun n s => match split_name n with Some q => Good q s | None => Bad end).

(** ** References *)

(** Karm [Io::atoi]: a sign and at least one digit; overflow is not modelled *)
Definition digit (base c : N) : option N :=
  let d := (if (48 <=? c) && (c <=? 57) then Some (c - 48) else if (65 <=? c) && (c <=? 70) then Some (c - 55) else if (97 <=? c) && (c <=? 102) then Some (c - 87) else None)%N in
  match d with Some d => if (d <? base)%N then Some d else None | None => None end.
Fixpoint digits (base : N) (acc : N) (s : str) : N * str :=
  match s with
  | c :: r => match digit base c with Some d => digits base (acc * base + d)%N r | None => (acc, s) end
  | [] => (acc, [])
  end.
Definition natural (base : N) (s : str) : option (N * str) :=
  match s with c :: _ => match digit base c with Some _ => Some (digits base 0 s) | None => None end | [] => None end.
Definition atoi (base : N) (s : str) : option (Z * str) :=
  match s with
  | 45%N :: r => match natural base r with Some (n, r) => Some ((- Z.of_N n)%Z, r) | None => None end
  | 43%N :: r => match natural base r with Some (n, r) => Some (Z.of_N n, r) | None => None end
  | _ => match natural base s with Some (n, r) => Some (Z.of_N n, r) | None => None end
  end.
(** A rune has 32 bits. *)
Definition to_rune (z : Z) : N := Z.to_N (z mod 4294967296).
(** xml/parser.cpp:650-677 [_parseCharRef] *)
Definition char_ref (s : str) : res N :=
  match skip (text "&#") s with
  | None => Bad
  | Some s =>
    match (match skip (text "x") s with Some s => atoi 16 s | None => atoi 10 s end) with
    | None => Bad
    | Some (z, s) => bind (expect (text ";") s) (fun _ s => Good (to_rune z) s)
    end
  end.
(** xml/parser.cpp:693-706 *)
Definition entity (n : str) : option N :=
  if str_eqb n (text "lt") then Some 60%N
  else if str_eqb n (text "gt") then Some 62%N
  else if str_eqb n (text "amp") then Some 38%N
  else if str_eqb n (text "apos") then Some 39%N
  else if str_eqb n (text "quot") then Some 34%N
  else if str_eqb n (text "nbsp") then Some 160%N
  else None.
(** xml/parser.cpp:679-710 [_parseEntityRef] *)
Definition entity_ref (s : str) : res N :=
  bind (expect (text "&") s) (fun _ s => bind (parse_name s) (fun n s => bind (expect (text ";") s) (fun _ s =>
    match entity n with Some c => Good c s | None => Bad end))).
(** xml/parser.cpp:712-721 [_parseReference] *)
Definition reference (s : str) : res N := or_else (char_ref s) (entity_ref s).

(** xml/parser.cpp:537-542 *)
Fixpoint value_loop (fuel : nat) (quote : N) (s : str) : res str :=
  match fuel with
  | O => Fuel
  | S fuel =>
    match s with
    | [] => Good [] []
    | c :: r =>
      if N.eqb c quote then Good [] s
      else match reference s with
        | Good x s => bind (value_loop fuel quote s) (fun l s => Good (x :: l) s)
        | _ => bind (value_loop fuel quote r) (fun l s => Good (c :: l) s)
        end
    end
  end.
(** xml/parser.cpp:525-552 [_parseAttValue] *)
Definition att_value (s : str) : res str :=
  match s with
  | q :: r => if N.eqb q 34 || N.eqb q 39 then bind (value_loop (S (length r)) q r) (fun v s => bind (expect [q] s) (fun _ s => Good v s)) else Bad
  | [] => Bad
  end.

(** ** Nodes *)

Inductive node :=
| TEXT (s : str) | COMMENT (s : str) | DOCTYPE (name public system : str)
| ELEMENT (n : qname) (attrs : list (qname * str)) (children : list node).
(** The document: what the XML declaration says (empty if it does not), and its children. *)
Record document := mkDoc { d_version : str; d_encoding : str; d_standalone : str; d_children : list node }.

(** xml/parser.cpp:208-225 [_parseCharData]: the characters and the rest; nothing is an error *)
Fixpoint char_data (s : str) : str * str :=
  match s with
  | [] => ([], [])
  | c :: r => if N.eqb c 60 || N.eqb c 38 || ahead (text "]]>") s then ([], s) else let '(a, b) := char_data r in (c :: a, b)
  end.
(** xml/parser.cpp:241-246, 270-274: up to the end mark; none if a character is not allowed *)
Fixpoint until (stop : str) (ok : N -> bool) (s : str) : option (str * str) :=
  match s with
  | [] => Some ([], [])
  | c :: r => if ahead stop s then Some ([], s) else if ok c then option_map (fun x => (c :: fst x, snd x)) (until stop ok r) else None
  end.
(** xml/parser.cpp:232-253 [_parseComment] *)
Definition parse_comment (s : str) : res str :=
  bind (expect (text "<!--") s) (fun _ s =>
    match until (text "-->") is_char s with
    | None => Bad
    | Some (v, s) => bind (expect (text "-->") s) (fun _ s => Good v s)
    end).
Definition lower (c : N) : N := if ((65 <=? c) && (c <=? 90))%N then (c + 32)%N else c.
(** xml/parser.cpp:261-290 [_parsePi], [_parsePiTarget] *)
Definition parse_pi (s : str) : res unit :=
  bind (expect (text "<?") s) (fun _ s => bind (parse_name s) (fun n s =>
    if str_eqb (List.map lower n) (text "xml") then Bad
    else match until (text "?>") is_char s with
      | None => Bad
      | Some (_, s) => expect (text "?>") s
      end)).
(** xml/parser.cpp:295-313 [_parseCDSect]. What is read before an end that does not come stays in the
    text, as in the code; the scan goes back. *)
Definition cd_sect (s : str) : str * option str :=
  match skip (text "<![CDATA[") s with
  | None => ([], None)
  | Some s =>
    match until (text "]]>") (fun _ => true) s with
    | Some (v, s) => (v, skip (text "]]>") s)
    | None => ([], None)
    end
  end.
(** xml/parser.cpp:601-612 [_parseTextItem] *)
Definition text_item (s : str) : str * option str :=
  match char_data s with
  | (c :: v, s) => (c :: v, Some s)
  | ([], _) =>
    match cd_sect s with
    | (v, Some s) => (v, Some s)
    | (v, None) => match reference s with Good c s => (v ++ [c], Some s) | _ => (v, None) end
    end
  end.
(** xml/parser.cpp:615-617 *)
Fixpoint text_loop (fuel : nat) (s : str) : res str :=
  match fuel with
  | O => Fuel
  | S fuel =>
    match text_item s with
    | (v, Some s) => bind (text_loop fuel s) (fun l s => Good (v ++ l) s)
    | (v, None) => Good v s
    end
  end.
(** xml/parser.cpp:614-624 [_parseText]: the nodes that are appended *)
Definition parse_text (s : str) : res (list node) :=
  bind (text_loop (S (length s)) s) (fun v s => Good (match v with [] => [] | _ => [TEXT v] end) s).

(** ** Elements *)

(** xml/parser.cpp:510-515 and 761-766: a name, [=] and a value *)
Definition parse_attr (s : str) : res (name * str) :=
  bind (parse_qname s) (fun n s => bind (expect (text "=") s) (fun _ s => bind (att_value s) (fun v s => Good (n, v) s))).
Definition xmlns : str := text "xmlns".
(** xml/parser.cpp:768-771 *)
Definition declare (c : context) (a : name * str) : context :=
  match n_prefix (fst a) with
  | None => if str_eqb (n_local (fst a)) xmlns then mkCtx (Some (snd a)) (c_prefixes c) else c
  | Some p => if str_eqb p xmlns then declare_prefix c (n_local (fst a)) (snd a) else c
  end.
(** xml/parser.cpp:757-774 *)
Fixpoint context_loop (fuel : nat) (c : context) (s : str) : res context :=
  match fuel with
  | O => Fuel
  | S fuel =>
    if ahead (text ">") s || ahead (text "/>") s || match s with [] => true | _ => false end then Good c s
    else bind (parse_attr s) (fun a s => context_loop fuel (declare c a) (spaces s))
  end.
(** xml/parser.cpp:755-777 [_parseNamespaceContext]; the scan always goes back *)
Definition parse_context (c : context) (s : str) : res context :=
  bind (context_loop (S (length s)) c s) (fun c _ => Good c s).
(** xml/parser.cpp:505-523 [_parseAttribute]; dom/element.cpp:126 *)
Definition parse_attribute (c : context) (l : list (qname * str)) (s : str) : res (list (qname * str)) :=
  bind (parse_attr s) (fun a s => match resolve_attribute c (fst a) with None => Bad | Some q => Good (put q_eqb q (snd a) l) s end).
(** xml/parser.cpp:496-499, 638-641; [stop] is the end of the tag. At the end of the text the tag ends,
    too. *)
Fixpoint attributes (fuel : nat) (stop : str) (c : context) (l : list (qname * str)) (s : str) : res (list (qname * str)) :=
  match fuel with
  | O => Fuel
  | S fuel =>
    match skip stop s with
    | Some s => Good l s
    | None =>
      match s with
      | [] => Good l []
      | _ => bind (parse_attribute c l s) (fun l s => attributes fuel stop c l (spaces s))
      end
    end
  end.
(** xml/parser.cpp:483-503 [_parseStartTag] and 626-645 [_parseEmptyElementTag], which differ in the end *)
Definition parse_tag (stop : str) (c : context) (s : str) : res (qname * list (qname * str) * context) :=
  bind (expect (text "<") s) (fun _ s => bind (parse_qname s) (fun n s =>
    let s := spaces s in
    bind (parse_context c s) (fun c s =>
      match resolve_element c n with
      | None => Bad
      | Some q => bind (attributes (S (length s)) stop c [] s) (fun l s => Good (q, l, c) s)
      end))).
(** xml/parser.cpp:554-572 [_parseEndTag] *)
Definition parse_end_tag (c : context) (q : qname) (s : str) : res unit :=
  bind (expect (text "</") s) (fun _ s => bind (parse_qname s) (fun n s =>
    match resolve_element c n with
    | None => Bad
    | Some q' => if q_eqb q' q then expect (text ">") (spaces s) else Bad
    end)).

(** xml/parser.cpp:458-478 [_parseElement], 574-599 [_parseContentItem], [_parseContent] *)
Fixpoint parse_element (fuel : nat) (c : context) (s : str) : res node :=
  match fuel with
  | O => Fuel
  | S fuel =>
    match parse_tag (text "/>") c s with
    | Good (q, l, _) s => Good (ELEMENT q l []) s
    | Fuel => Fuel
    | Bad =>
      bind (parse_tag (text ">") c s) (fun r s =>
        let '(q, l, c) := r in
        bind (parse_text s) (fun t s =>
        bind (parse_items fuel c s) (fun k s =>
        bind (parse_end_tag c q s) (fun _ s => Good (ELEMENT q l (t ++ k)) s))))
    end
  end
with parse_items (fuel : nat) (c : context) (s : str) : res (list node) :=
  match fuel with
  | O => Fuel
  | S fuel =>
    match or_else (bind (parse_element fuel c s) (fun e s => Good [e] s))
          (or_else (bind (parse_pi s) (fun _ s => Good [] s))
                   (bind (parse_comment s) (fun v s => Good [COMMENT v] s))) with
    | Good k s => bind (parse_text s) (fun t s => bind (parse_items fuel c s) (fun r s => Good (k ++ t ++ r) s))
    | Bad => Good [] s
    | Fuel => Fuel
    end
  end.

(** ** Documents *)

Definition is_digit (c : N) : bool := ((48 <=? c) && (c <=? 57))%N.
Definition is_alpha (c : N) : bool := (((65 <=? c) && (c <=? 90)) || ((97 <=? c) && (c <=? 122)))%N.
(** xml/parser.cpp:319-321: what matches, empty if nothing does; Karm [Re::word] is letters, digits and [_] *)
Definition re_version (s : str) : str * str :=
  match skip (text "1.") s with
  | Some r => match take_while is_digit r with ([], _) => ([], s) | (d, r) => (text "1." ++ d, r) end
  | None => ([], s)
  end.
Definition re_encoding (s : str) : str * str :=
  match s with
  | c :: r => if is_alpha c then let '(a, b) := take_while (fun c => is_alpha c || is_digit c || N.eqb c 95 || N.eqb c 46 || N.eqb c 45) r in (c :: a, b) else ([], s)
  | [] => ([], s)
  end.
Definition re_standalone (s : str) : str * str :=
  match skip (text "yes") s with Some r => (text "yes", r) | None => match skip (text "no") s with Some r => (text "no", r) | None => ([], s) end end.
(** xml/parser.cpp:323-352 [_parseXmlDeclAttr] *)
Definition decl_attr (n : str) (value : str -> str * str) (s : str) : res str :=
  bind (expect n (spaces s)) (fun _ s => bind (expect (text "=") (spaces s)) (fun _ s =>
    match spaces s with
    | q :: s =>
      if N.eqb q 34 || N.eqb q 39 then
        match value s with
        | ([], _) => Bad
        | (v, s) => bind (expect [q] s) (fun _ s => Good v s)
        end
      else Bad
    | [] => Bad
    end)).
Definition optional (r : res str) (s : str) : str * str := match r with Good v s => (v, s) | _ => ([], s) end.
(** xml/parser.cpp:354-381 [_parseXmlDecl] *)
Definition xml_decl (s : str) : res (str * str * str) :=
  bind (expect (text "<?xml") s) (fun _ s => bind (decl_attr (text "version") re_version s) (fun v s =>
    let '(e, s) := optional (decl_attr (text "encoding") re_encoding s) s in
    let '(a, s) := optional (decl_attr (text "standalone") re_standalone s) s in
    bind (expect (text "?>") (spaces s)) (fun _ s => Good (v, e, a) s))).
(** xml/parser.cpp:383-400 [_parseMisc] *)
Definition misc (s : str) : res (list node) :=
  if ahead (text "<!--") s then bind (parse_comment s) (fun v s => Good [COMMENT v] s)
  else if ahead (text "<?") s then bind (parse_pi s) (fun _ s => Good [] s)
  else match s with c :: _ => if is_space c then Good [] (spaces s) else Bad | [] => Bad end.
(** xml/parser.cpp:87-88, 409-410, 414-415. The loops of lines 409 and 414 stop at the end of the text
    without asking for more, where there is nothing more. *)
Fixpoint miscs (fuel : nat) (s : str) : res (list node) :=
  match fuel with
  | O => Fuel
  | S fuel =>
    match misc s with
    | Good k s => bind (miscs fuel s) (fun r s => Good (k ++ r) s)
    | Bad => Good [] s
    | Fuel => Fuel
    end
  end.
(** xml/parser.cpp:726-748 [_parseExternalId]; what is set before an error stays set *)
Definition external_id (s : str) : (str * str) * option str :=
  match skip (text "SYSTEM") s with
  | Some s => match att_value (spaces s) with Good v s => (([], v), Some s) | _ => (([], []), None) end
  | None =>
    match skip (text "PUBLIC") s with
    | Some s =>
      match att_value (spaces s) with
      | Good p s => match att_value (spaces s) with Good v s => ((p, v), Some s) | _ => ((p, []), None) end
      | _ => (([], []), None)
      end
    | None => (([], []), None)
    end
  end.
(** xml/parser.cpp:424-446 [_parseDoctype] *)
Definition parse_doctype (s : str) : res node :=
  bind (expect (text "<!DOCTYPE") s) (fun _ s => bind (parse_name (spaces s)) (fun n s =>
    let s := spaces s in
    let '((p, v), o) := external_id s in
    let s := match o with Some s => s | None => s end in
    bind (expect (text ">") (spaces s)) (fun _ s => Good (DOCTYPE n p v) s))).
(** xml/parser.cpp:402-420 [_parseProlog] *)
Definition prolog (s : str) : res (str * str * str * list node) :=
  bind (if ahead (text "<?xml") s then xml_decl s else Good ([], [], []) s) (fun d s =>
  bind (miscs (S (length s)) s) (fun m s =>
    match parse_doctype s with
    | Good t s => bind (miscs (S (length s)) s) (fun m' s => Good (d, m ++ t :: m') s)
    | Bad => Good (d, m) s
    | Fuel => Fuel
    end)).
(** xml/parser.cpp:82-91 [parse]: the document, and the text that is left *)
Definition parse (ns : option str) (s : str) : res document :=
  bind (prolog s) (fun p s =>
    let '((v, e, a), m) := p in
    bind (parse_element (2 * length s + 2) (make_context ns) s) (fun x s =>
    bind (miscs (S (length s)) s) (fun m' s => Good (mkDoc v e a (m ++ x :: m')) s))).
