(** Model of selectors and of selector matching.
    Sources: /repo/src/vaev-engine/style/selector.cpp (AST, specificity),
    style/matcher.cpp (whole file), dom/tree.cpp:20-40 (index), dom/element.cpp:112-161
    (attributes).

    A document is a finite tree; a node is named by its path, the list of child indices
    from the node up to the root (innermost index first), so that the parent pointer is
    [tl] and the previous sibling pointer decrements the head.  That the pointer structure
    of dom/tree.cpp does represent such a tree is the subject of Dom/TreeModel.v.

    The result type is [option bool]; [None] is a panic (failed [unwrap], index out of
    range). *)
From Coq Require Import String List NArith ZArith Bool Arith.
From Verif.Base Require Import Str.
From Verif.Style Require Import AnBModel CascadeModel.
Import ListNotations.
Local Open Scope list_scope.

(** dom/names.cpp:14-18 [QualifiedName]. *)
Record qname := mkQ { q_ns : option str; q_name : str }.

Definition qname_eqb (a b : qname) : bool :=
  opt_eqb str_eqb (q_ns a) (q_ns b) && str_eqb (q_name a) (q_name b).

(** dom/element.cpp:64-76: the parts of [Element] the matcher reads.  [attributes] is a Karm
    [Map] (insertion order, unique keys). *)
Record edata := mkE {
  d_name : qname;
  d_attrs : list (qname * str);
  d_classes : list str;
}.

(** Nodes: elements, and everything else (document, text, comment, ...). *)
Inductive node :=
| Elem (d : edata) (kids : list node)
| Other (kids : list node).

Definition kids_of (n : node) : list node := match n with Elem _ k => k | Other k => k end.

Definition path := list nat.

Fixpoint node_at (t : node) (p : path) : option node :=
  match p with
  | [] => Some t
  | i :: up => match node_at t up with
               | Some n => nth_error (kids_of n) i
               | None => None
               end
  end.

(** [node->is<Dom::Element>()]. *)
Definition elem_at (t : node) (p : path) : option edata :=
  match node_at t p with Some (Elem d _) => Some d | _ => None end.

(** style/selector.cpp:51-83 [QualifiedNameSelector]. *)
Inductive ns_pattern := NsNull | NsUniversal | NsExact (s : str).
Inductive name_pattern := NameUniversal | NameExact (s : str).
Record qsel := mkQS { qs_ns : ns_pattern; qs_name : name_pattern }.

(** style/selector.cpp:85-89 [exactName]. *)
Definition exact_name (q : qsel) : option str :=
  match qs_name q with NameExact s => Some s | NameUniversal => None end.

(** style/selector.cpp:91-119 [match]. *)
Definition qsel_match (q : qsel) (n : qname) : bool :=
  match qs_ns q with
  | NsNull => match q_ns n with None => true | Some _ => false end
  | NsUniversal => true
  | NsExact s => opt_eqb str_eqb (q_ns n) (Some s)
  end &&
  match qs_name q with
  | NameUniversal => true
  | NameExact s => str_eqb (q_name n) s
  end.

(** style/selector.cpp:521-543 [AttributeSelector]. *)
Inductive attr_match :=
  PRESENT | EXACT | CONTAINS | HYPHENATED | STR_START_WITH | STR_END_WITH | STR_CONTAIN.
Record attr_sel := mkAttr {
  as_name : qsel;
  as_insensitive : bool;
  as_match : attr_match;
  as_value : str;
}.

(** style/selector.cpp:155-176 [Infix::Type]; 178-199 [Nfix::Type]. *)
Inductive infix_ty := DESCENDANT | CHILD | ADJACENT | SUBSEQUENT | COLUMN.
Inductive nfix_ty := AND | OR | NOT | WHERE.

(** style/selector.cpp:474-481 and defs/pseudo-class.inc.  Pseudo-classes the matcher does
    not implement are [PC_OTHER], except three that a static document could decide. *)
Inductive pc_ty :=
  LINK | ROOT | EMPTY | ONLY_CHILD | ONLY_OF_TYPE
| FIRST_CHILD | LAST_CHILD | FIRST_OF_TYPE | LAST_OF_TYPE
| NTH_CHILD | NTH_LAST_CHILD | NTH_OF_TYPE | NTH_LAST_OF_TYPE
| PC_OTHER.

(** style/selector.cpp:545-554 [Selector].  The [extra] of a pseudo-class (line 492) is
    split over three constructors: none, An+B, An+B of S. *)
Inductive selector :=
| Nfix (ty : nfix_ty) (inners : list selector)
| Infix (ty : infix_ty) (lhs rhs : selector)
| TypeSel (q : qsel)
| EmptySel
| IdSel (id : str)
| ClassSel (c : str)
| PseudoElemSel (ty : str)
| PseudoClass (ty : pc_ty)
| PseudoClassAnB (ty : pc_ty) (ab : anb)
| PseudoClassAnBof (ty : pc_ty) (ab : anb) (s : selector)
| AttrSel (a : attr_sel).

(** ** Attributes *)

(** dom/element.cpp:142-147 [getAttribute]. *)
Fixpoint get_attribute (m : list (qname * str)) (q : qname) : option str :=
  match m with
  | [] => None
  | (k, v) :: m' => if qname_eqb k q then Some v else get_attribute m' q
  end.

(** dom/element.cpp:149-154 [getAttributeUnqualified]. *)
Fixpoint get_attribute_unqualified (m : list (qname * str)) (n : str) : option str :=
  match m with
  | [] => None
  | (k, v) :: m' => if str_eqb (q_name k) n then Some v else get_attribute_unqualified m' n
  end.

(** style/matcher.cpp:140-149 [_getAttributeValue], with style/selector.cpp:121-131
    [fullyQualified] inlined (its panic is unreachable here). *)
Definition get_attribute_value (q : qsel) (m : list (qname * str)) : option str :=
  match exact_name q with
  | None => None
  | Some n =>
      match qs_ns q with
      | NsUniversal => get_attribute_unqualified m n
      | NsNull => get_attribute m (mkQ None n)
      | NsExact s => get_attribute m (mkQ (Some s) n)
      end
  end.

(** Karm [toAsciiLower]. *)
Definition to_ascii_lower (c : rune) : rune :=
  (if (65 <=? c) && (c <=? 90) then c + 32 else c)%N.

(** style/matcher.cpp:186-191: the comparison lambda. *)
Definition attr_cmp (insensitive : bool) (a b : rune) : bool :=
  if insensitive then N.eqb (to_ascii_lower a) (to_ascii_lower b) else N.eqb a b.

(** Karm [Match] and [startWith(str, prefix, cmp)]: YES when all of [str] was compared,
    PARTIAL when [prefix] is a proper prefix. *)
Inductive matching := NO | PARTIAL | YES.

Fixpoint start_with (cmp : rune -> rune -> bool) (s prefix : str) : matching :=
  match prefix, s with
  | [], [] => YES
  | [], _ :: _ => PARTIAL
  | _ :: _, [] => NO
  | x :: p', y :: s' => if cmp y x then start_with cmp s' p' else NO
  end.

Definition end_with (cmp : rune -> rune -> bool) (s suffix : str) : matching :=
  start_with cmp (rev s) (rev suffix).

(** Karm [contains(str, needle, cmp)]. *)
Fixpoint contains_str (cmp : rune -> rune -> bool) (s needle : str) : bool :=
  match start_with cmp s needle with
  | NO => match s with [] => false | _ :: s' => contains_str cmp s' needle end
  | _ => true
  end.

(** Karm [isAsciiSpace]. *)
Definition is_ascii_space (c : rune) : bool :=
  ((c =? 32) || ((9 <=? c) && (c <=? 13)))%N.

(** style/matcher.cpp:151-168 [_matchContainsWord]: the scan is modelled by the list of
    maximal runs of non-space characters it enumerates. *)
Fixpoint words_aux (s cur : str) : list str :=
  match s with
  | [] => match cur with [] => [] | _ => [rev cur] end
  | c :: s' =>
      if is_ascii_space c
      then match cur with [] => words_aux s' [] | _ => rev cur :: words_aux s' [] end
      else words_aux s' (c :: cur)
  end.
Definition words (s : str) : list str := words_aux s [].

Definition is_yes (m : matching) : bool := match m with YES => true | _ => false end.
Definition is_no (m : matching) : bool := match m with NO => true | _ => false end.

Definition contains_word (cmp : rune -> rune -> bool) (s word : str) : bool :=
  existsb (fun w => is_yes (start_with cmp w word)) (words s).

(** style/matcher.cpp:170-235 [_match(AttributeSelector)]. *)
Definition attr_matches (a : attr_sel) (m : list (qname * str)) : bool :=
  let v := get_attribute_value (as_name a) m in
  match as_match a with
  | PRESENT => match v with Some _ => true | None => false end
  | mt =>
    match v with
    | None => false
    | Some av =>
      let cmp := attr_cmp (as_insensitive a) in
      let val := as_value a in
      match mt with
      | PRESENT => true
      | EXACT => is_yes (start_with cmp av val)
      | CONTAINS =>
          if existsb (N.eqb 32) val then false
          else match val with [] => false | _ => contains_word cmp av val end
      | HYPHENATED =>
          match start_with cmp av val with
          | YES => true
          | NO => false
          | PARTIAL => match nth_error av (length val) with
                       | Some c => N.eqb c 45
                       | None => false
                       end
          end
      | STR_START_WITH =>
          match val with [] => false | _ => negb (is_no (start_with cmp av val)) end
      | STR_END_WITH =>
          match val with [] => false | _ => negb (is_no (end_with cmp av val)) end
      | STR_CONTAIN =>
          match val with [] => false | _ => contains_str cmp av val end
      end
    end
  end.

(** ** Matching *)

(** [for (x : l) if (f(x)) return true; return false], with panics. *)
Definition oex {A} (f : A -> option bool) : list A -> option bool :=
  fix go l :=
  match l with
  | [] => Some false
  | x :: l' => match f x with
               | Some true => Some true
               | Some false => go l'
               | None => None
               end
  end.

(** [for (x : l) if (not f(x)) return false; return true], with panics. *)
Definition oall {A} (f : A -> option bool) : list A -> option bool :=
  fix go l :=
  match l with
  | [] => Some true
  | x :: l' => match f x with
               | Some true => go l'
               | r => r
               end
  end.

(** Counting loop of dom/tree.cpp:20-26 and 34-40. *)
Fixpoint ocount {A} (f : A -> option bool) (l : list A) : option nat :=
  match l with
  | [] => Some 0
  | x :: l' => match f x, ocount f l' with
               | Some b, Some n => Some (if b then S n else n)
               | _, _ => None
               end
  end.

Definition html_ns : str := of_string "http://www.w3.org/1999/xhtml".
Definition html_tag : qname := mkQ (Some html_ns) (of_string "html").
Definition a_tag : qname := mkQ (Some html_ns) (of_string "a").
(** html/names: attributes live in no namespace (dom/names.cpp, [ATTR] macro). *)
Definition href_attr : qname := mkQ None (of_string "href").
Definition id_name : str := of_string "id".

Section Match.
  Variable t : node.

  (** Previous siblings, nearest first (dom/tree.cpp:22). *)
  Definition prev_siblings (p : path) : list path :=
    match p with
    | [] => []
    | i :: up => map (fun j => j :: up) (rev (seq 0 i))
    end.

  (** Next siblings, nearest first (dom/tree.cpp:36). *)
  Definition next_siblings (p : path) : list path :=
    match p with
    | [] => []
    | i :: up =>
        match node_at t up with
        | Some n => map (fun j => j :: up) (seq (S i) (length (kids_of n) - S i))
        | None => []
        end
    end.

  (** Ancestors, nearest first (matcher.cpp:23-30). *)
  Fixpoint ancestors (p : path) : list path :=
    match p with
    | [] => []
    | _ :: up => up :: ancestors up
    end.

  (** [if (auto el = n->is<Dom::Element>()) f(el)], false otherwise. *)
  Definition if_elem (f : path -> option bool) (q : path) : option bool :=
    match elem_at t q with Some _ => f q | None => Some false end.

  (** matcher.cpp:22-32 *)
  Definition match_descendant (f : path -> option bool) (p : path) : option bool :=
    oex (if_elem f) (ancestors p).

  (** matcher.cpp:35-43 *)
  Definition match_child (f : path -> option bool) (p : path) : option bool :=
    match p with [] => Some false | _ :: up => if_elem f up end.

  (** matcher.cpp:46-54: the previous sibling *node*. *)
  Definition match_adjacent (f : path -> option bool) (p : path) : option bool :=
    match prev_siblings p with [] => Some false | q :: _ => if_elem f q end.

  (** matcher.cpp:57-67 *)
  Definition match_subsequent (f : path -> option bool) (p : path) : option bool :=
    oex (if_elem f) (prev_siblings p).

  Definition siblings (reverse : bool) (p : path) : list path :=
    if reverse then next_siblings p else prev_siblings p.

  (** [anb.match(index + 1)] *)
  Definition anb_index (ab : anb) (n : option nat) : option bool :=
    match n with Some k => Some (anb_match ab (Z.of_nat k + 1)) | None => None end.

  (** matcher.cpp:252-274 [_matchNthChild]; [f] is the test of the optional [of S]. *)
  Definition match_nth_child (ab : anb) (f : option (path -> option bool)) (p : path)
      (reverse : bool) : option bool :=
    match f with
    | Some f =>
        match f p with
        | Some true => anb_index ab (ocount (if_elem f) (siblings reverse p))
        | r => r
        end
    | None => anb_index ab (ocount (if_elem (fun _ => Some true)) (siblings reverse p))
    end.

  (** matcher.cpp:284-299 [_matchNthOfType]. *)
  Definition match_nth_of_type (ab : anb) (p : path) (d : edata) (reverse : bool) : option bool :=
    anb_index ab (ocount (fun q => match elem_at t q with
                                   | Some d' => Some (qname_eqb (d_name d') (d_name d))
                                   | None => Some false
                                   end) (siblings reverse p)).

  (** matcher.cpp:308-344 for pseudo-classes without argument; [None]: the [unwrap] of a
      missing An+B panics. *)
  Definition match_pseudo_class (ty : pc_ty) (p : path) (d : edata) : option bool :=
    match ty with
    | LINK => Some (qname_eqb (d_name d) a_tag &&
                    match get_attribute (d_attrs d) href_attr with Some _ => true | None => false end)
    | ROOT => Some (qname_eqb (d_name d) html_tag)
    | FIRST_OF_TYPE => match_nth_of_type (mkAnB 0 1) p d false
    | LAST_OF_TYPE => match_nth_of_type (mkAnB 0 1) p d true
    | FIRST_CHILD => match_nth_child (mkAnB 0 1) None p false
    | LAST_CHILD => match_nth_child (mkAnB 0 1) None p true
    | NTH_CHILD | NTH_LAST_CHILD | NTH_OF_TYPE | NTH_LAST_OF_TYPE => None
    | EMPTY | ONLY_CHILD | ONLY_OF_TYPE | PC_OTHER => Some false
    end.

  (** The same for [:name(An+B of S)]; types that ignore their argument fall back to the
      previous function. *)
  Definition match_pseudo_class_anb (ty : pc_ty) (ab : anb) (f : option (path -> option bool))
      (p : path) (d : edata) : option bool :=
    match ty with
    | NTH_CHILD => match_nth_child ab f p false
    | NTH_LAST_CHILD => match_nth_child ab f p true
    | NTH_OF_TYPE => match_nth_of_type ab p d false
    | NTH_LAST_OF_TYPE => match_nth_of_type ab p d true
    | _ => match_pseudo_class ty p d
    end.

  Definition onot (b : option bool) : option bool := option_map negb b.

  (** matcher.cpp:348-361 [_matchSelector] with the overloads of [_match] it dispatches to:
      69-90 (Infix), 92-121 (Nfix), 125-135 (type, id, class), 301-306 (pseudo-element).
      [p] names the element; the test of [of S] is written with [msel] instead of
      [matchSelector] (matcher.cpp:259-264): the two agree, see [match_selector_some]. *)
  Fixpoint msel (s : selector) (p : path) (pe : option str) {struct s} : option bool :=
    match elem_at t p with
    | None => Some false
    | Some d =>
      match s with
      | Infix ty l r =>
          match msel r p pe with
          | Some true =>
              match ty with
              | DESCENDANT => match_descendant (fun q => msel l q None) p
              | CHILD => match_child (fun q => msel l q None) p
              | ADJACENT => match_adjacent (fun q => msel l q None) p
              | SUBSEQUENT => match_subsequent (fun q => msel l q None) p
              | COLUMN => Some false
              end
          | r => r
          end
      | Nfix AND l => oall (fun i => msel i p pe) l
      | Nfix OR l => oex (fun i => msel i p pe) l
      | Nfix NOT l => match l with [] => None | i :: _ => onot (msel i p pe) end
      | Nfix WHERE l => match l with [] => None | i :: _ => onot (msel i p pe) end
      | TypeSel q => Some (qsel_match q (d_name d))
      | EmptySel => Some false
      | IdSel i => Some (opt_eqb str_eqb (get_attribute_unqualified (d_attrs d) id_name) (Some i))
      | ClassSel c => Some (existsb (str_eqb c) (d_classes d))
      | PseudoElemSel ty => Some (opt_eqb str_eqb pe (Some ty))
      | PseudoClass ty => match_pseudo_class ty p d
      | PseudoClassAnB ty ab => match_pseudo_class_anb ty ab None p d
      | PseudoClassAnBof ty ab s => match_pseudo_class_anb ty ab (Some (fun q => msel s q None)) p d
      | AttrSel a => Some (attr_matches a (d_attrs d))
      end
    end.
End Match.

(** ** Specificity of a selector: style/selector.cpp:1208-1249 [spec]. *)
Fixpoint spec (s : selector) : specificity :=
  match s with
  | Nfix WHERE _ => spec_zero
  | Nfix _ l => fold_left (fun acc i => spec_add acc (spec i)) l spec_zero
  | Infix _ l r => spec_add (spec l) (spec r)
  | EmptySel => spec_zero
  | IdSel _ => spec_A
  | TypeSel q => match exact_name q with Some _ => spec_C | None => spec_zero end
  | ClassSel _ => spec_B
  | PseudoClass _ | PseudoClassAnB _ _ | PseudoClassAnBof _ _ _ => spec_B
  | AttrSel _ => spec_B
  | PseudoElemSel _ => spec_zero
  end.

(** [max] of an optional and a present specificity (matcher.cpp:368): [NONE] sorts first. *)
Definition opt_spec_max (a : option specificity) (b : specificity) : option specificity :=
  match a with
  | None => Some b
  | Some a => Some (match spec_cmp a b with Lt => b | _ => a end)
  end.

(** matcher.cpp:363-377 [matchSelector]: outer [None] is a panic. *)
Definition match_selector (t : node) (s : selector) (p : path) (pe : option str)
  : option (option specificity) :=
  match s with
  | Nfix OR l =>
      fold_left (fun acc i =>
        match acc with
        | None => None
        | Some sp =>
            match msel t i p pe with
            | None => None
            | Some true => Some (opt_spec_max sp (spec i))
            | Some false => Some sp
            end
        end) l (Some None)
  | _ => match msel t s p pe with
         | None => None
         | Some true => Some (Some (spec s))
         | Some false => Some None
         end
  end.
