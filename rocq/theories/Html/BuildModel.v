(** Model of HTML tree construction.
    Source: /repo/src/vaev-engine/html/parser.cpp (every insertion mode), defs/special.inc,
    dom/names.cpp:39-62.

    The DOM is a list of numbered nodes, each with its parent and the list of its children (the
    links of dom/tree.cpp are proved to describe such lists in Dom/TreeProofs.v).  The stack of open
    elements has the current node first.  An element is referred to by its number together with its
    qualified name, which never changes.  Left out: diagnostics ([_raise]), debug logs,
    [_acknowledgeSelfClosingFlag] (it only logs), the quirks mode of the document (always set, never
    read here), class lists (Dom/TokenListModel.v), and the fragment case ([_contextElement] is
    always null).  [_scriptingEnabled] is always false, [_templateInsertionModes] always empty. *)
From Coq Require Import String List Arith Bool NArith.
From Verif.Base Require Import Str.
From Verif.Html Require Import LexerModel SerialModel SvgNames.
Import ListNotations.
Local Open Scope list_scope.
Local Open Scope N_scope.

(** ** Outcomes *)

(** How tree construction can go wrong. *)
Inductive fail :=
| NoCurrent     (** parser.cpp:413: no current element *)
| NotInScope    (** parser.cpp:980, 1000: nothing delimits the scope *)
| PopEmpty      (** [popBack] of an empty vector *)
| NoEntry       (** parser.cpp:302: the last of an empty list *)
| IsMarker      (** parser.cpp:154, 158: a marker used as an element *)
| NotFound      (** [unwrap] of a missing index, parser.cpp:114, 126, 339 *)
| OutOfRange    (** a vector used outside its bounds *)
| NullPointer   (** a null [Gc::Ptr] dereferenced *)
| NoName        (** a tag without a name *)
| TooDeep.      (** [accept] called itself more often than the fuel *)
Inductive bres (A : Type) := Done (a : A) | Fail (w : fail).
Arguments Done {A} a.
Arguments Fail {A} w.
Definition andthen {A B} (x : bres A) (f : A -> bres B) : bres B :=
  match x with Done a => f a | Fail w => Fail w end.
Local Notation "'do' x <- m ; k" := (andthen m (fun x => k)) (at level 200, x name, m at level 100, k at level 200).

(** ** The document *)

(** dom/node.cpp, element.cpp, text.cpp, comment.cpp, document-type.cpp: the kinds of nodes the
    parser makes. *)
Inductive kind :=
| KDocument
| KDoctype (name public system : str)
| KElement (name : qname) (attrs : list (qname * str))
| KText (data : str)
| KComment (data : str).
Record dnode := mkNode { d_kind : kind; d_parent : option nat; d_kids : list nat }.
Definition dom := list dnode.

Fixpoint update (d : dom) (i : nat) (f : dnode -> dnode) : dom :=
  match d, i with
  | [], _ => []
  | x :: d', O => f x :: d'
  | x :: d', S j => x :: update d' j f
  end.
Definition alloc (k : kind) (d : dom) : dom := d ++ [mkNode k None []].
Definition kids (d : dom) (i : nat) : list nat := match nth_error d i with Some x => d_kids x | None => [] end.
Definition parent_of (d : dom) (i : nat) : option nat := match nth_error d i with Some x => d_parent x | None => None end.
Definition kind_of (d : dom) (i : nat) : option kind := match nth_error d i with Some x => Some (d_kind x) | None => None end.
Definition set_kids (l : list nat) (x : dnode) : dnode := mkNode (d_kind x) (d_parent x) l.
Definition set_parent (p : option nat) (x : dnode) : dnode := mkNode (d_kind x) p (d_kids x).
Definition set_kind (k : kind) (x : dnode) : dnode := mkNode k (d_parent x) (d_kids x).

(** dom/tree.cpp:137-156 [remove] *)
Definition remove_node (d : dom) (n : nat) : dom :=
  match parent_of d n with
  | None => d
  | Some p => update (update d p (fun x => set_kids (remove Nat.eq_dec n (d_kids x)) x)) n (set_parent None)
  end.
(** dom/tree.cpp:69-80 [appendChild] *)
Definition append_child (d : dom) (p n : nat) : dom :=
  let d := remove_node d n in
  update (update d p (fun x => set_kids (d_kids x ++ [n]) x)) n (set_parent (Some p)).
Fixpoint before_in (n c : nat) (l : list nat) : list nat :=
  match l with
  | [] => []
  | x :: l' => if Nat.eqb x c then n :: x :: l' else x :: before_in n c l'
  end.
(** dom/tree.cpp:95-114 [insertBefore] *)
Definition insert_before (d : dom) (p n c : nat) : dom :=
  let d := remove_node d n in
  update (update d p (fun x => set_kids (before_in n c (d_kids x)) x)) n (set_parent (Some p)).

(** element.cpp:117-127 [setAttribute]; the map keeps the place of a name it already has. *)
Fixpoint put_attr (q : qname) (v : str) (l : list (qname * str)) : list (qname * str) :=
  match l with
  | [] => [(q, v)]
  | (q', v') :: l' => if qname_eqb q' q then (q', v) :: l' else (q', v') :: put_attr q v l'
  end.
Definition attrs_of (d : dom) (i : nat) : list (qname * str) :=
  match kind_of d i with Some (KElement _ a) => a | _ => [] end.
(** element.cpp:142-147 [getAttribute] *)
Definition get_attr (q : qname) (l : list (qname * str)) : option str :=
  match find (fun x => qname_eqb (fst x) q) l with Some (_, v) => Some v | None => None end.
(** element.cpp:129-131 [hasAttribute], and [setAttribute] when it is missing
    (parser.cpp:1750-1756, 1785-1791). *)
Definition add_missing (ns : option str) (n v : str) (x : dnode) : dnode :=
  match d_kind x with
  | KElement q a =>
      match get_attr (mkQName ns n) a with
      | Some _ => x
      | None => set_kind (KElement q (put_attr (mkQName ns n) v a)) x
      end
  | _ => x
  end.

(** ** The state of the parser *)

Record elem := mkElem { e_id : nat; e_name : qname }.
Definition same (a b : elem) : bool := Nat.eqb (e_id a) (e_id b).

(** parser.cpp:345-375 *)
Inductive mode :=
| INITIAL | BEFORE_HTML | BEFORE_HEAD | IN_HEAD | IN_HEAD_NOSCRIPT | AFTER_HEAD | IN_BODY | TEXT | IN_TABLE
| IN_TABLE_TEXT | IN_CAPTION | IN_COLUMN_GROUP | IN_TABLE_BODY | IN_ROW | IN_CELL | IN_TEMPLATE | AFTER_BODY
| IN_FRAMESET | AFTER_FRAMESET | AFTER_AFTER_BODY | AFTER_AFTER_FRAMESET.

(** parser.cpp:137-163 *)
Inductive entry := Marker | Formatting (e : elem) (t : token).

(** parser.cpp:377-400 *)
Record st := mkSt {
  s_dom : dom;
  s_stack : list elem;      (** [_openElements], the current node first *)
  s_active : list entry;    (** [_activeFormattingElements.entries], oldest first *)
  s_after : nat;            (** [indexAfterLastMarker] *)
  s_mode : mode;
  s_orig : mode;
  s_head : option elem;
  s_form : option elem;
  s_frameset_ok : bool;
  s_foster : bool;
  s_pending : list token;   (** [_pendingTableCharacterTokens] *)
  s_skip_lf : bool;
  s_switch : option text_mode;  (** the state the tokenizer was switched to by this token, if any *)
}.
Definition st_init : st :=
  mkSt [mkNode KDocument None []] [] [] 0 INITIAL INITIAL None None true false [] false None.

Definition set_dom d s := mkSt d (s_stack s) (s_active s) (s_after s) (s_mode s) (s_orig s) (s_head s) (s_form s) (s_frameset_ok s) (s_foster s) (s_pending s) (s_skip_lf s) (s_switch s).
Definition set_stack k s := mkSt (s_dom s) k (s_active s) (s_after s) (s_mode s) (s_orig s) (s_head s) (s_form s) (s_frameset_ok s) (s_foster s) (s_pending s) (s_skip_lf s) (s_switch s).
Definition set_active a i s := mkSt (s_dom s) (s_stack s) a i (s_mode s) (s_orig s) (s_head s) (s_form s) (s_frameset_ok s) (s_foster s) (s_pending s) (s_skip_lf s) (s_switch s).
Definition set_mode m s := mkSt (s_dom s) (s_stack s) (s_active s) (s_after s) m (s_orig s) (s_head s) (s_form s) (s_frameset_ok s) (s_foster s) (s_pending s) (s_skip_lf s) (s_switch s).
Definition set_orig m s := mkSt (s_dom s) (s_stack s) (s_active s) (s_after s) (s_mode s) m (s_head s) (s_form s) (s_frameset_ok s) (s_foster s) (s_pending s) (s_skip_lf s) (s_switch s).
Definition set_head h s := mkSt (s_dom s) (s_stack s) (s_active s) (s_after s) (s_mode s) (s_orig s) h (s_form s) (s_frameset_ok s) (s_foster s) (s_pending s) (s_skip_lf s) (s_switch s).
Definition set_form f s := mkSt (s_dom s) (s_stack s) (s_active s) (s_after s) (s_mode s) (s_orig s) (s_head s) f (s_frameset_ok s) (s_foster s) (s_pending s) (s_skip_lf s) (s_switch s).
Definition set_frameset b s := mkSt (s_dom s) (s_stack s) (s_active s) (s_after s) (s_mode s) (s_orig s) (s_head s) (s_form s) b (s_foster s) (s_pending s) (s_skip_lf s) (s_switch s).
Definition set_foster b s := mkSt (s_dom s) (s_stack s) (s_active s) (s_after s) (s_mode s) (s_orig s) (s_head s) (s_form s) (s_frameset_ok s) b (s_pending s) (s_skip_lf s) (s_switch s).
Definition set_pending l s := mkSt (s_dom s) (s_stack s) (s_active s) (s_after s) (s_mode s) (s_orig s) (s_head s) (s_form s) (s_frameset_ok s) (s_foster s) l (s_skip_lf s) (s_switch s).
Definition set_skip b s := mkSt (s_dom s) (s_stack s) (s_active s) (s_after s) (s_mode s) (s_orig s) (s_head s) (s_form s) (s_frameset_ok s) (s_foster s) (s_pending s) b (s_switch s).
Definition set_switch x s := mkSt (s_dom s) (s_stack s) (s_active s) (s_after s) (s_mode s) (s_orig s) (s_head s) (s_form s) (s_frameset_ok s) (s_foster s) (s_pending s) (s_skip_lf s) x.

(** A statement. *)
Definition act := st -> bres st.
Definition seq (f g : act) : act := fun s => andthen (f s) g.
Local Infix ";;" := seq (at level 61, right associativity).
Definition nop : act := Done.
Definition test := st -> bres bool.
Definition branch (b : test) (x y : act) : act := fun s => andthen (b s) (fun v => if v then x s else y s).
Definition whenever (b : test) (x : act) : act := branch b x nop.
Definition negate (b : test) : test := fun s => andthen (b s) (fun v => Done (negb v)).
Definition both (a b : test) : test := fun s => andthen (a s) (fun v => if v then b s else Done false).
Definition either (a b : test) : test := fun s => andthen (a s) (fun v => if v then Done true else b s).
Definition pure (f : st -> st) : act := fun s => Done (f s).
Definition switch_to (m : mode) : act := pure (set_mode m).
Definition frameset_not_ok : act := pure (set_frameset false).

(** ** Names *)
Definition one_of (l : list string) (n : str) : bool := existsb (fun x => str_eqb n (of_string x)) l.
Definition qone_of (l : list qname) (q : qname) : bool := existsb (qname_eqb q) l.
Definition h (x : string) : qname := html_tag x.
Definition svg_tag (x : string) : qname := mkQName (Some svg_ns) (of_string x).
Definition math_tag (x : string) : qname := mkQName (Some mathml_ns) (of_string x).
Definition is_html (q : qname) : bool := opt_eqb str_eqb (q_ns q) (Some html_ns).

(** dom/names.cpp:39-49; the name of [TEMPLATE_TAG] is "template_" (defs/ns-html-tag-names.inc:129). *)
Definition scope_delimiters : list qname :=
  map h ["applet"; "caption"; "html"; "table"; "td"; "th"; "marquee"; "object"; "template_"]%string.
(** dom/names.cpp:51-62 *)
Definition implied_end_tags : list qname :=
  map h ["dd"; "dt"; "li"; "option"; "optgroup"; "p"; "rb"; "rp"; "rt"; "rt"]%string.
(** html/defs/special.inc:1-97 *)
Definition special_names : list qname :=
  map h ["address"; "applet"; "area"; "article"; "aside"; "base"; "basefont"; "bgsound"; "blockquote"; "body"; "br";
         "button"; "caption"; "center"; "col"; "colgroup"; "dd"; "details"; "dir"; "div"; "dl"; "dt"; "embed";
         "fieldset"; "figcaption"; "figure"; "footer"; "form"; "frame"; "frameset"; "h1"; "h2"; "h3"; "h4"; "h5"; "h6";
         "head"; "header"; "hgroup"; "hr"; "html"; "iframe"; "img"; "input"; "keygen"; "li"; "link"; "listing"; "main";
         "marquee"; "menu"; "meta"; "nav"; "noembed"; "noframes"; "noscript"; "object"; "ol"; "p"; "param"; "plaintext";
         "pre"; "script"; "search"; "section"; "select"; "source"; "style"; "summary"; "table"; "tbody"; "td";
         "template_"; "textarea"; "tfoot"; "th"; "thead"; "title"; "tr"; "track"; "ul"; "wbr"; "xmp"]%string ++
  map math_tag ["mi"; "mo"; "mn"; "ms"; "mtext"; "annotation-xml"]%string ++
  map svg_tag ["foreignObject"; "desc"; "title"]%string.
(** parser.cpp:443-451 *)
Definition is_special (q : qname) : bool := qone_of special_names q.

(** ** Tokens *)
Definition is_char (t : token) : bool := ttype_eqb (t_type t) T_CHARACTER.
Definition is_comment (t : token) : bool := ttype_eqb (t_type t) T_COMMENT.
Definition is_doctype (t : token) : bool := ttype_eqb (t_type t) T_DOCTYPE.
Definition is_eof (t : token) : bool := ttype_eqb (t_type t) T_END_OF_FILE.
Definition is_start (t : token) : bool := ttype_eqb (t_type t) T_START_TAG.
Definition is_end (t : token) : bool := ttype_eqb (t_type t) T_END_TAG.
Definition named (l : list string) (t : token) : bool := match t_name t with Some n => one_of l n | None => false end.
Definition starts (l : list string) (t : token) : bool := is_start t && named l t.
Definition ends (l : list string) (t : token) : bool := is_end t && named l t.
(** tab, line feed, form feed, space: the test of the modes before "after head" *)
Definition is_blank4 (t : token) : bool :=
  is_char t && ((t_rune t =? 9) || (t_rune t =? 10) || (t_rune t =? 12) || (t_rune t =? 32)).
(** and carriage return: the test of the later modes *)
Definition is_blank (t : token) : bool :=
  is_char t && ((t_rune t =? 9) || (t_rune t =? 10) || (t_rune t =? 12) || (t_rune t =? 13) || (t_rune t =? 32)).
Definition is_nul (t : token) : bool := is_char t && (t_rune t =? 0).
Definition tag_named (n : string) : token := mkToken T_START_TAG (Some (of_string n)) 0 [] None None [] false false.
Definition set_name (n : str) (t : token) : token :=
  mkToken (t_type t) (Some n) (t_rune t) (t_data t) (t_public t) (t_system t) (t_attrs t) (t_quirks t) (t_self_closing t).
Definition set_attrs (a : list (str * str)) (t : token) : token :=
  mkToken (t_type t) (t_name t) (t_rune t) (t_data t) (t_public t) (t_system t) a (t_quirks t) (t_self_closing t).
(** token.cpp:71-77 [hasAttribute] *)
Definition has_attr (n : string) (t : token) : bool := existsb (fun a => str_eqb (fst a) (of_string n)) (t_attrs t).
(** [HtmlElement name of the token] *)
Definition token_tag (t : token) : bres qname :=
  match t_name t with Some n => Done (mkQName (Some html_ns) n) | None => Fail NoName end.
(** Karm [eqCi]: the letters of ASCII are compared without their case. *)
Fixpoint eq_ci_str (a b : str) : bool :=
  match a, b with
  | [], [] => true
  | x :: a', y :: b' => eq_ci x y && eq_ci_str a' b'
  | _, _ => false
  end.
(** dom/names.cpp:82-100: the first listed name that is equal but for its case. *)
Definition cased (l : list string) (n : str) : str :=
  match find (fun x => eq_ci_str (of_string x) n) l with Some x => of_string x | None => n end.
Definition case_attrs (t : token) : token :=
  set_attrs (map (fun a => (cased svg_attr_names (fst a), snd a)) (t_attrs t)) t.
(** parser.cpp:2514-2520, 3062-3068: [startWith(value, "hidden", eqAsciiCi) == YES] *)
Definition is_hidden (t : token) : bool :=
  existsb (fun a => str_eqb (fst a) (of_string "type") &&
             match start_with eq_ci (snd a) (of_string "hidden") with YES => true | _ => false end) (t_attrs t).

(** ** The stack of open elements (parser.cpp:18-134) *)
Definition current (s : st) : bres elem :=
  match s_stack s with [] => Fail NoCurrent | e :: _ => Done e end.
Definition cur_is (f : qname -> bool) : test := fun s => do e <- current s; Done (f (e_name e)).
Definition cur_one (l : list string) : test := cur_is (qone_of (map h l)).
Definition push (e : elem) : act := fun s => Done (set_stack (e :: s_stack s) s).
(** parser.cpp:34-36 *)
Definition pop : act := fun s => match s_stack s with [] => Fail PopEmpty | _ :: k => Done (set_stack k s) end.
Fixpoint drop_through (f : elem -> bool) (k : list elem) : list elem :=
  match k with [] => [] | e :: k' => if f e then k' else drop_through f k' end.
(** parser.cpp:38-43 [popUntil] *)
Definition pop_until (e : elem) : act := fun s => Done (set_stack (drop_through (same e) (s_stack s)) s).
(** parser.cpp:45-51 [popUntilOneOf] *)
Definition pop_until_name (l : list qname) : act :=
  fun s => Done (set_stack (drop_through (fun e => qone_of l (e_name e)) (s_stack s)) s).
Definition pop_until_tags (l : list string) : act := pop_until_name (map h l).
(** parser.cpp:67-75 [elementImmediatelyAbove] *)
Fixpoint above (e : elem) (k : list elem) : bres elem :=
  match k with
  | [] => Fail NullPointer
  | x :: k' => if same x e then match k' with y :: _ => Done y | [] => Fail NullPointer end else above e k'
  end.
(** parser.cpp:77-85 [findLast] *)
Definition find_last (q : qname) (k : list elem) : option elem := find (fun e => qname_eqb (e_name e) q) k.
Definition on_stack (e : elem) (k : list elem) : bool := existsb (same e) k.
Definition stack_has (q : qname) (k : list elem) : bool := existsb (fun e => qname_eqb (e_name e) q) k.
Definition has_template (s : st) : bool := stack_has (h "template_") (s_stack s).
(** parser.cpp:118-120 [remove] *)
Definition take_off (e : elem) (k : list elem) : list elem := filter (fun x => negb (same x e)) k.
Definition unstack (e : elem) : act := fun s => Done (set_stack (take_off e (s_stack s)) s).
(** parser.cpp:113-116 [insertBelow] *)
Fixpoint insert_below (b e : elem) (k : list elem) : bres (list elem) :=
  match k with
  | [] => Fail NotFound
  | x :: k' => if same x b then Done (e :: x :: k') else do k'' <- insert_below b e k'; Done (x :: k'')
  end.
(** parser.cpp:122-129 [replace] *)
Fixpoint replace_on (o e : elem) (k : list elem) : bres (list elem) :=
  match k with
  | [] => Fail NotFound
  | x :: k' => if same x o then Done (e :: k') else do k'' <- replace_on o e k'; Done (x :: k'')
  end.
(** [_openElements[1]] *)
Definition second (s : st) : bres elem :=
  match nth_error (rev (s_stack s)) 1 with Some e => Done e | None => Fail OutOfRange end.
(** [_openElements.bottom()] *)
Definition bottom (s : st) : bres elem :=
  match rev (s_stack s) with e :: _ => Done e | [] => Fail NullPointer end.

(** parser.cpp:977-1001 [_hasElementInLambdaScope] *)
Fixpoint scope_loop (delim : qname -> bool) (q : qname) (k : list elem) : bres bool :=
  match k with
  | [] => Fail NotInScope
  | e :: k' =>
      if qname_eqb (e_name e) q then Done true
      else if delim (e_name e) then Done false
      else scope_loop delim q k'
  end.
Definition has_in (delim : qname -> bool) (q : qname) : test := fun s => scope_loop delim q (s_stack s).
Definition basic_scope (q : qname) : bool := qone_of scope_delimiters q.
(** parser.cpp:1004-1008, 1011-1015, 1018-1022, 1025-1029 *)
Definition in_scope (q : qname) : test := has_in basic_scope q.
Definition in_button_scope (q : qname) : test := has_in (fun n => qname_eqb n (h "button") || basic_scope n) q.
Definition in_list_scope (q : qname) : test :=
  has_in (fun n => qname_eqb n (h "ol") || qname_eqb n (h "ul") || basic_scope n) q.
Definition in_table_scope (q : qname) : test :=
  has_in (fun n => qname_eqb n (h "html") || qname_eqb n (h "table") || qname_eqb n (h "template_")) q.

(** parser.cpp:967-972 [_generateImpliedEndTags] *)
Fixpoint implied_loop (except : option qname) (k : list elem) : bres (list elem) :=
  match k with
  | [] => Fail NoCurrent
  | e :: k' =>
      if qone_of implied_end_tags (e_name e) && negb (opt_eqb qname_eqb (Some (e_name e)) except)
      then implied_loop except k' else Done k
  end.
Definition implied (except : option qname) : act :=
  fun s => do k <- implied_loop except (s_stack s); Done (set_stack k s).

(** The loops of parser.cpp:2901-2908, 3339-3348 and 3445-3452. *)
Fixpoint clear_loop (l : list qname) (k : list elem) : bres (list elem) :=
  match k with
  | [] => Fail NoCurrent
  | e :: k' => if qone_of l (e_name e) then Done k else clear_loop l k'
  end.
Definition clear_back (l : list string) : act :=
  fun s => do k <- clear_loop (map h l) (s_stack s); Done (set_stack k s).

(** ** Inserting nodes *)

(** parser.cpp:589-603 *)
Record location := mkLoc { l_parent : nat; l_before : option nat }.
Definition loc_insert (l : location) (n : nat) (d : dom) : dom :=
  match l_before l with
  | Some c => insert_before d (l_parent l) n c
  | None => append_child d (l_parent l) n
  end.

Definition foster_names : list qname := map h ["table"; "tbody"; "tfoot"; "thead"; "tr"]%string.
(** The elements of the stack below [e] (nearest first) are above it in the sense of the standard. *)
Fixpoint index_above (e : elem) (k : list elem) : bres elem :=
  match k with
  | [] => Fail OutOfRange
  | x :: k' => if same x e then match k' with y :: _ => Done y | [] => Fail OutOfRange end else index_above e k'
  end.
(** [lastTemplate->v1 > lastTable->v1]: whichever comes first from the current node. *)
Fixpoint template_first (k : list elem) : bool :=
  match k with
  | [] => false
  | e :: k' => if qname_eqb (e_name e) (h "template_") then true
               else if qname_eqb (e_name e) (h "table") then false else template_first k'
  end.
(** parser.cpp:618-690 [_apropriatePlaceForInsertingANode] *)
Definition place (override : option elem) (s : st) : bres location :=
  do cur <- current s;
  let target := match override with Some e => e | None => cur end in
  if s_foster s && qone_of foster_names (e_name cur) then
    match find_last (h "template_") (s_stack s), find_last (h "table") (s_stack s) with
    | Some tpl, None => Done (mkLoc (e_id tpl) None)
    | None, None => do b <- bottom s; Done (mkLoc (e_id b) None)
    | tpl, Some tab =>
        match tpl, template_first (s_stack s) with
        | Some tpl, true => Done (mkLoc (e_id tpl) None)
        | _, _ =>
            match parent_of (s_dom s) (e_id tab) with
            | Some p => Done (mkLoc p (Some (e_id tab)))
            | None => do p <- index_above tab (s_stack s); Done (mkLoc (e_id p) None)
            end
        end
    end
  else Done (mkLoc (e_id target) None).

(** parser.cpp:693-774 [_createElementFor] *)
Definition create_for (t : token) (ns : str) (d : dom) : bres (elem * dom) :=
  match t_name t with
  | None => Fail NoName
  | Some n =>
      let q := mkQName (Some ns) n in
      let attrs := fold_left (fun a x => put_attr (mkQName None (fst x)) (snd x) a) (t_attrs t) [] in
      Done (mkElem (length d) q, alloc (KElement q attrs) d)
  end.

(** parser.cpp:777-796 [_insertAForeignElement] *)
Definition insert_foreign (t : token) (ns : str) (s : st) : bres (elem * st) :=
  do l <- place None s;
  do r <- create_for t ns (s_dom s);
  let d := loc_insert l (e_id (fst r)) (snd r) in
  Done (fst r, set_stack (fst r :: s_stack s) (set_dom d s)).
(** parser.cpp:799-803 [_insertHtmlElement] *)
Definition insert_html (t : token) : st -> bres (elem * st) := insert_foreign t html_ns.
Definition insert_ (t : token) : act := fun s => do r <- insert_html t s; Done (snd r).
Definition insert_foreign_ (t : token) (ns : str) : act := fun s => do r <- insert_foreign t ns s; Done (snd r).

Fixpoint node_before (c : nat) (l : list nat) (last : option nat) : option nat :=
  match l with [] => None | x :: l' => if Nat.eqb x c then last else node_before c l' (Some x) end.
(** parser.cpp:605-614 [previousSibling] *)
Definition loc_previous (l : location) (d : dom) : option nat :=
  match l_before l with
  | Some c => node_before c (kids d (l_parent l)) None
  | None => hd_error (rev (kids d (l_parent l)))
  end.
(** dom/character-data.cpp:24-26 [appendData] *)
Definition append_data (c : N) (x : dnode) : dnode :=
  match d_kind x with KText s => set_kind (KText (s ++ [c])) x | _ => x end.
(** parser.cpp:806-831 [_insertACharacter] *)
Definition insert_char (c : N) : act := fun s =>
  do l <- place None s;
  match kind_of (s_dom s) (l_parent l) with
  | Some KDocument => Done s
  | _ =>
      match loc_previous l (s_dom s) with
      | Some p =>
          match kind_of (s_dom s) p with
          | Some (KText _) => Done (set_dom (update (s_dom s) p (append_data c)) s)
          | _ => Done (set_dom (loc_insert l (length (s_dom s)) (alloc (KText [c]) (s_dom s))) s)
          end
      | None => Done (set_dom (loc_insert l (length (s_dom s)) (alloc (KText [c]) (s_dom s))) s)
      end
  end.
(** parser.cpp:834-849 [_insertAComment] *)
Definition insert_comment_at (l : location) (t : token) (s : st) : st :=
  set_dom (loc_insert l (length (s_dom s)) (alloc (KComment (t_data t)) (s_dom s))) s.
Definition insert_comment (t : token) : act := fun s => do l <- place None s; Done (insert_comment_at l t s).
(** [_document->appendChild(...)] *)
Definition append_to_document (k : kind) (s : st) : st :=
  set_dom (append_child (alloc k (s_dom s)) 0 (length (s_dom s))) s.

(** ** The list of active formatting elements (parser.cpp:136-343) *)
Definition is_entry (e : elem) (x : entry) : bool := match x with Formatting f _ => same f e | Marker => false end.
Definition is_active (e : elem) (s : st) : bool := existsb (is_entry e) (s_active s).
Fixpoint index_of (e : elem) (l : list entry) : option nat :=
  match l with [] => None | x :: l' => if is_entry e x then Some O else option_map S (index_of e l') end.
(** parser.cpp:177-195: the first entry after the last marker that satisfies the test *)
Fixpoint first_entry (f : elem -> bool) (l : list entry) : bres (option elem) :=
  match l with
  | [] => Done None
  | Marker :: _ => Fail IsMarker
  | Formatting e _ :: l' => if f e then Done (Some e) else first_entry f l'
  end.
Definition find_active (f : elem -> bool) (s : st) : bres (option elem) := first_entry f (skipn (s_after s) (s_active s)).
(** parser.cpp:197-205 [findElement(element)->token()] *)
Definition token_of (e : elem) (s : st) : bres token :=
  match find (is_entry e) (s_active s) with Some (Formatting _ t) => Done t | _ => Fail NotFound end.
Fixpoint remove_at {A} (i : nat) (l : list A) : list A :=
  match l, i with [], _ => [] | _ :: l', O => l' | x :: l', S j => x :: remove_at j l' end.
(** parser.cpp:317-329 [remove] *)
Definition remove_active (e : elem) (s : st) : st :=
  match index_of e (s_active s) with
  | None => s
  | Some i => set_active (remove_at i (s_active s)) (if Nat.ltb i (s_after s) then Nat.pred (s_after s) else s_after s) s
  end.
(** parser.cpp:219-234: the same attributes *)
Definition same_attrs (a b : list (qname * str)) : bool :=
  Nat.eqb (length a) (length b) &&
  forallb (fun x => match get_attr (fst x) b with Some v => str_eqb (snd x) v | None => false end) a.
Definition similar (d : dom) (e : elem) (x : entry) : bres bool :=
  match x with
  | Marker => Fail IsMarker
  | Formatting f _ => Done (qname_eqb (e_name f) (e_name e) && same_attrs (attrs_of d (e_id f)) (attrs_of d (e_id e)))
  end.
Fixpoint similars (d : dom) (e : elem) (l : list entry) : bres (list elem) :=
  match l with
  | [] => Done []
  | x :: l' =>
      do b <- similar d e x;
      do r <- similars d e l';
      Done (match x with Formatting f _ => if b then f :: r else r | Marker => r end)
  end.
(** parser.cpp:208-256 [push] *)
Definition push_active (e : elem) (t : token) : act := fun s =>
  do l <- similars (s_dom s) e (skipn (s_after s) (s_active s));
  let s := match l with
           | f :: _ => if Nat.leb 3 (length l) then remove_active f s else s
           | [] => s
           end in
  Done (set_active (s_active s ++ [Formatting e t]) (s_after s) s).
(** parser.cpp:258-261 *)
Definition push_marker : act := fun s =>
  Done (set_active (s_active s ++ [Marker]) (S (length (s_active s))) s).
(** parser.cpp:264-292 [clearUpToLastMarker]; the list is given backwards. *)
Fixpoint pop_marker (l : list entry) : bres (list entry) :=
  match l with [] => Fail NoEntry | Marker :: l' => Done l' | _ :: l' => pop_marker l' end.
Fixpoint after_last_marker (l : list entry) : nat :=
  match l with [] => O | Marker :: l' => S (length l') | _ :: l' => after_last_marker l' end.
Definition clear_to_marker : act := fun s =>
  match s_active s with
  | [] => Done s
  | _ => do l <- pop_marker (rev (s_active s)); Done (set_active (rev l) (after_last_marker l) s)
  end.
Fixpoint insert_at {A} (i : nat) (x : A) (l : list A) : bres (list A) :=
  match i, l with
  | O, _ => Done (x :: l)
  | S j, y :: l' => do r <- insert_at j x l'; Done (y :: r)
  | S _, [] => Fail OutOfRange
  end.
(** parser.cpp:294-299 [insert] *)
Definition insert_active (i : nat) (e : elem) (t : token) : act := fun s =>
  do l <- insert_at i (Formatting e t) (s_active s);
  Done (set_active l (if Nat.ltb i (s_after s) then S (s_after s) else s_after s) s).
Fixpoint replace_at {A} (i : nat) (x : A) (l : list A) : list A :=
  match l, i with [], _ => [] | _ :: l', O => x :: l' | y :: l', S j => y :: replace_at j x l' end.
(** parser.cpp:331-342 [replace] *)
Definition replace_active (o e : elem) (t : token) : act := fun s =>
  match index_of o (s_active s) with
  | None => Fail NotFound
  | Some i => Done (set_active (replace_at i (Formatting e t) (s_active s)) (s_after s) s)
  end.

(** parser.cpp:498-575 [_reconstructActiveFormattingElements] *)
Definition closed_entry (k : list elem) (x : entry) : bool :=
  match x with Marker => false | Formatting e _ => negb (on_stack e k) end.
(** The rewinding (lines 514-554): [l] is the entries before the current one, backwards; the number
    of entries to create. *)
Fixpoint rewind (k : list elem) (l : list entry) (n : nat) : nat :=
  match l with [] => n | x :: l' => if closed_entry k x then rewind k l' (S n) else n end.
(** The creation (lines 556-572), [n] entries from index [i]. *)
Fixpoint create_entries (n i : nat) : act := fun s =>
  match n with
  | O => Done s
  | S m =>
      match nth_error (s_active s) i with
      | Some (Formatting _ t) =>
          do r <- insert_html t s;
          create_entries m (S i) (set_active (replace_at i (Formatting (fst r) t) (s_active (snd r))) (s_after (snd r)) (snd r))
      | Some Marker => Fail IsMarker
      | None => Fail OutOfRange
      end
  end.
Definition reconstruct : act := fun s =>
  match rev (s_active s) with
  | [] => Done s
  | x :: l =>
      if closed_entry (s_stack s) x then
        let n := rewind (s_stack s) l 1 in
        create_entries n (length (s_active s) - n)%nat s
      else Done s
  end.

(** ** Insertion modes *)

(** parser.cpp:852-946 [_resetTheInsertionModeAppropriately] *)
Fixpoint reset_loop (head : option elem) (k : list elem) : bres mode :=
  match k with
  | [] => Fail OutOfRange
  | e :: k' =>
      let last := match k' with [] => true | _ => false end in
      let q := e_name e in
      if qone_of (map h ["td"; "th"]%string) q && negb last then Done IN_CELL
      else if qname_eqb q (h "tr") then Done IN_ROW
      else if qone_of (map h ["tbody"; "thead"; "tfoot"]%string) q then Done IN_TABLE_BODY
      else if qname_eqb q (h "caption") then Done IN_CAPTION
      else if qname_eqb q (h "colgroup") then Done IN_COLUMN_GROUP
      else if qname_eqb q (h "table") then Done IN_TABLE
      else if qname_eqb q (h "head") && negb last then Done IN_HEAD
      else if qname_eqb q (h "body") then Done IN_BODY
      else if qname_eqb q (h "frameset") then Done IN_FRAMESET
      else if qname_eqb q (h "html") then Done (match head with None => BEFORE_HEAD | Some _ => AFTER_HEAD end)
      else reset_loop head k'
  end.
Definition reset_mode : act := fun s => do m <- reset_loop (s_head s) (s_stack s); Done (set_mode m s).

Definition lexer_to (m : text_mode) : act := pure (set_switch (Some m)).
Definition keep_mode : act := pure (fun s => set_orig (s_mode s) s).
(** parser.cpp:950-962 *)
Definition raw_text (m : text_mode) (t : token) : act := insert_ t ;; lexer_to m ;; keep_mode ;; switch_to TEXT.

(** parser.cpp:1495-1505 [closePElement] *)
Definition close_p : act := implied (Some (h "p")) ;; pop_until_tags ["p"]%string.
Definition close_p_in_button_scope : act := whenever (in_button_scope (h "p")) close_p.

(** ** The adoption agency algorithm (parser.cpp:1508-1704) *)

(** Lines 1570-1580: the topmost special element below the formatting element; [k] is the stack
    above it, current node first. *)
Fixpoint stack_over (e : elem) (k : list elem) : list elem :=
  match k with [] => [] | x :: k' => if same x e then [] else x :: stack_over e k' end.
Definition furthest_block (e : elem) (k : list elem) : option elem :=
  find (fun x => is_special (e_name x)) (rev (stack_over e k)).

(** Lines 1609-1667, the inner loop; [n] is the fuel, [i] the number of turns so far, [node] the
    next node, [last] the last one. *)
Fixpoint agency_inner (n i : nat) (fmt furthest node last : elem) (bookmark : nat) (s : st)
    : bres (elem * nat * st) :=
  match n with
  | O => Fail TooDeep
  | S m =>
      do next <- above node (s_stack s);
      if same node fmt then Done (last, bookmark, s)
      else
        let s := if Nat.ltb 3 (S i) && is_active node s then remove_active node s else s in
        if negb (is_active node s)
        then agency_inner m (S i) fmt furthest next last bookmark (set_stack (take_off node (s_stack s)) s)
        else
          do t <- token_of node s;
          do r <- create_for t html_ns (s_dom s);
          let e := fst r in
          let s := set_dom (snd r) s in
          do s <- replace_active node e t s;
          do k <- replace_on node e (s_stack s);
          let s := set_stack k s in
          do next <- above e (s_stack s);
          do bookmark <- (if same last furthest then
                            match index_of e (s_active s) with Some j => Done (S j) | None => Fail NotFound end
                          else Done bookmark);
          agency_inner m (S i) fmt furthest next e bookmark (set_dom (append_child (s_dom s) (e_id e) (e_id last)) s)
  end.

(** Lines 1679-1681: all the children of [a] move to [b]. *)
Definition move_kids (a b : nat) (d : dom) : dom := fold_left (fun d c => append_child d b c) (kids d a) d.

(** Lines 1524-1703, the outer loop; [n] is the number of turns left. *)
Fixpoint agency_outer (n : nat) (subject : str) (s : st) : bres st :=
  match n with
  | O => Done s
  | S m =>
      do f <- find_active (fun e => str_eqb (q_name (e_name e)) subject) s;
      match f with
      | None => Done s
      | Some fmt =>
          if negb (on_stack fmt (s_stack s)) then Done (remove_active fmt s)
          else
            do b <- in_scope (e_name fmt) s;
            if negb b then Done s
            else
              match furthest_block fmt (s_stack s) with
              | None => Done (remove_active fmt (set_stack (drop_through (same fmt) (s_stack s)) s))
              | Some furthest =>
                  do ancestor <- index_above fmt (s_stack s);
                  do bookmark <- match index_of fmt (s_active s) with Some j => Done j | None => Fail NotFound end;
                  do node <- above furthest (s_stack s);
                  do r <- agency_inner (S (length (s_stack s))) 0 fmt furthest node furthest bookmark s;
                  let '(last, bookmark, s) := r in
                  do l <- place (Some ancestor) s;
                  let s := set_dom (loc_insert l (e_id last) (s_dom s)) s in
                  do t <- token_of fmt s;
                  do r <- create_for t html_ns (s_dom s);
                  let e := fst r in
                  let d := append_child (move_kids (e_id furthest) (e_id e) (snd r)) (e_id furthest) (e_id e) in
                  let s := remove_active fmt (set_dom d s) in
                  do s <- insert_active (Nat.pred bookmark) e t s;
                  do k <- insert_below furthest e (take_off fmt (s_stack s));
                  agency_outer m subject (set_stack k s)
              end
      end
  end.
Definition agency (t : token) : act := fun s =>
  match t_name t with
  | None => Fail NoName
  | Some subject =>
      do cur <- current s;
      if qname_eqb (e_name cur) (mkQName (Some html_ns) subject) && negb (is_active cur s)
      then Done (set_stack (take_off cur (s_stack s)) s)
      else agency_outer 8 subject s
  end.

(** Insert an element and push it onto the list of active formatting elements
    (parser.cpp:2352, 2361, 2382). *)
Definition insert_active_html (t : token) : act := fun s => do r <- insert_html t s; push_active (fst r) t (snd r).

(** ** The rules of the modes *)
Section Rules.
(** [accept] and [_acceptIn] *)
Variable accept : token -> act.
Variable accept_in : mode -> token -> act.

(** parser.cpp:1048-1084 *)
Definition on_initial (t : token) : act :=
  if is_blank4 t then nop
  else if is_comment t then pure (append_to_document (KComment (t_data t)))
  else if is_doctype t then
    pure (append_to_document
      (KDoctype (match t_name t with Some n => n | None => [] end)
                (match t_public t with Some n => n | None => [] end)
                (match t_system t with Some n => n | None => [] end))) ;; switch_to BEFORE_HTML
  else switch_to BEFORE_HTML ;; accept t.

(** parser.cpp:1088-1134; a comment is appended, and then goes on to the other cases. *)
Definition on_before_html (t : token) : act :=
  (if is_comment t then pure (append_to_document (KComment (t_data t))) else nop) ;;
  (if is_blank4 t then nop
   else if starts ["html"]%string t then
     (fun s => do r <- create_for t html_ns (s_dom s);
               Done (set_stack (fst r :: s_stack s) (set_dom (append_child (snd r) 0 (e_id (fst r))) s))) ;;
     switch_to BEFORE_HEAD
   else if is_end t && negb (named ["head"; "body"; "html"; "br"]%string t) then nop
   else
     pure (fun s => set_stack (mkElem (length (s_dom s)) (h "html") :: s_stack s)
                      (append_to_document (KElement (h "html") []) s)) ;;
     switch_to BEFORE_HEAD ;; accept t).

Definition insert_head (t : token) : act := fun s =>
  do r <- insert_html t s; Done (set_mode IN_HEAD (set_head (Some (fst r)) (snd r))).
(** parser.cpp:1138-1190 *)
Definition on_before_head (t : token) : act :=
  if is_blank4 t then nop
  else if is_comment t then insert_comment t
  else if is_doctype t then nop
  else if starts ["html"]%string t then accept_in IN_BODY t
  else if starts ["head"]%string t then insert_head t
  else if is_end t && negb (named ["head"; "body"; "html"; "br"]%string t) then nop
  else insert_head (tag_named "head") ;; accept t.

(** parser.cpp:1194-1326 *)
Definition on_in_head (t : token) : act :=
  let anything_else := pop ;; switch_to AFTER_HEAD ;; accept t in
  if is_blank4 t then insert_char (t_rune t)
  else if is_comment t then insert_comment t
  else if is_doctype t then nop
  else if starts ["html"]%string t then accept_in IN_BODY t
  else if starts ["base"; "basefont"; "bgsound"; "link"]%string t then insert_ t ;; pop
  else if starts ["meta"]%string t then insert_ t ;; pop
  else if starts ["title"]%string t then raw_text Rcdata t
  else if starts ["noframes"; "style"]%string t then raw_text Rawtext t
  else if starts ["noscript"]%string t then insert_ t ;; switch_to IN_HEAD_NOSCRIPT
  else if starts ["script"]%string t then raw_text ScriptData t
  else if ends ["head"]%string t then pop ;; switch_to AFTER_HEAD
  else if ends ["body"; "html"; "br"]%string t then anything_else
  else if starts ["template"]%string t then nop
  else if ends ["template"]%string t then nop
  else if starts ["head"]%string t || is_end t then nop
  else anything_else.

(** parser.cpp:1330-1391 *)
Definition on_in_head_noscript (t : token) : act :=
  let anything_else := pop ;; switch_to IN_HEAD ;; accept t in
  if is_doctype t then nop
  else if starts ["html"]%string t then accept_in IN_BODY t
  else if ends ["noscript"]%string t then pop ;; switch_to IN_HEAD
  else if is_blank4 t || is_comment t ||
          starts ["basefont"; "bgsound"; "link"; "meta"; "noframes"; "style"]%string t then accept_in IN_HEAD t
  else if ends ["br"]%string t then anything_else
  else if starts ["head"; "noscript"]%string t || is_end t then nop
  else anything_else.

(** parser.cpp:1395-1489 *)
Definition on_after_head (t : token) : act :=
  let anything_else := insert_ (tag_named "body") ;; switch_to IN_BODY ;; accept t in
  if is_blank t then insert_char (t_rune t)
  else if is_comment t then insert_comment t
  else if is_doctype t then nop
  else if starts ["html"]%string t then accept_in IN_BODY t
  else if starts ["body"]%string t then insert_ t ;; frameset_not_ok ;; switch_to IN_BODY
  else if starts ["frameset"]%string t then insert_ t ;; switch_to IN_FRAMESET
  else if starts ["base"; "basefont"; "bgsound"; "link"; "meta"; "noframes"; "script"; "style"; "template"; "title"]%string t then
    (fun s => match s_head s with
              | None => Fail NullPointer
              | Some hd => (push hd ;; accept_in IN_HEAD t ;; unstack hd) s
              end)
  else if ends ["template"]%string t then accept_in IN_HEAD t
  else if ends ["body"; "html"; "br"]%string t then anything_else
  else if is_end t || starts ["head"]%string t then nop
  else anything_else.

Definition block_names : list string :=
  ["address"; "article"; "aside"; "blockquote"; "center"; "details"; "dialog"; "dir"; "div"; "dl"; "fieldset";
   "figcaption"; "figure"; "footer"; "header"; "hgroup"; "main"; "menu"; "nav"; "ol"; "p"; "search"; "section";
   "summary"; "ul"]%string.
Definition block_end_names : list string :=
  ["address"; "article"; "aside"; "blockquote"; "button"; "center"; "details"; "dialog"; "dir"; "div"; "dl";
   "fieldset"; "figcaption"; "figure"; "footer"; "header"; "hgroup"; "listing"; "main"; "menu"; "nav"; "ol"; "pre";
   "search"; "section"; "summary"; "ul"]%string.
Definition heading_names : list string := ["h1"; "h2"; "h3"; "h4"; "h5"; "h6"]%string.
Definition formatting_names : list string :=
  ["b"; "big"; "code"; "em"; "font"; "i"; "s"; "small"; "strike"; "strong"; "tt"; "u"]%string.

(** parser.cpp:1983-2026 and 2035-2095: the search for an item to close; [k] is what is left of the
    stack, [items] the names of items.  Without any special element nothing is inserted. *)
Fixpoint item_loop (items : list string) (t : token) (k : list elem) : act :=
  let done := close_p_in_button_scope ;; insert_ t in
  match k with
  | [] => nop
  | e :: k' =>
      if qone_of (map h items) (e_name e) then
        implied (Some (e_name e)) ;; pop_until_name [e_name e] ;; done
      else if is_special (e_name e) && negb (qone_of (map h ["address"; "div"; "p"]%string) (e_name e)) then done
      else item_loop items t k'
  end.

(** parser.cpp:2812-2846: any other end tag. *)
Fixpoint any_end_loop (n : str) (k : list elem) : act :=
  match k with
  | [] => nop
  | e :: k' =>
      if str_eqb (q_name (e_name e)) n then
        implied (Some (e_name e)) ;;
        (fun s => if on_stack e (s_stack s) then Done (set_stack (drop_through (same e) (s_stack s)) s)
                  else Fail NoCurrent)
      else any_end_loop n k'
  end.

(** parser.cpp:1707-2847 *)
Definition on_in_body (t : token) : act :=
  if is_nul t then nop
  else if is_blank t then reconstruct ;; insert_char (t_rune t)
  else if is_char t then reconstruct ;; insert_char (t_rune t) ;; frameset_not_ok
  else if is_comment t then insert_comment t
  else if is_doctype t then nop
  else if starts ["html"]%string t then
    (fun s => if has_template s then Done s
              else match t_attrs t with
                   | [] => Done s
                   | l => do e <- current s;
                          Done (set_dom (fold_left (fun d a => update d (e_id e) (add_missing (Some []) (fst a) (snd a))) l (s_dom s)) s)
                   end)
  else if starts ["base"; "basefont"; "bgsound"; "link"; "meta"; "noframes"; "script"; "style"; "template"; "title"]%string t
          || ends ["template"]%string t then accept_in IN_HEAD t
  else if starts ["body"]%string t then
    (fun s => if Nat.eqb (length (s_stack s)) 1 then Done s
              else do e <- second s;
                   if negb (qname_eqb (e_name e) (h "body")) || has_template s then Done s
                   else Done (set_dom (fold_left (fun d a => update d (e_id e) (add_missing (Some []) (fst a) (snd a))) (t_attrs t) (s_dom s))
                                (set_frameset false s)))
  else if starts ["frameset"]%string t then
    (fun s => if Nat.eqb (length (s_stack s)) 1 then Done s
              else do e <- second s;
                   if negb (qname_eqb (e_name e) (h "body")) || negb (s_frameset_ok s) then Done s
                   else (insert_ t ;; switch_to IN_FRAMESET)
                          (set_stack (skipn (length (s_stack s) - 1) (s_stack s)) (set_dom (remove_node (s_dom s) (e_id e)) s)))
  else if is_eof t then nop
  else if ends ["body"; "html"]%string t then
    branch (in_scope (h "body"))
      (switch_to AFTER_BODY ;; if named ["html"]%string t then accept t else nop) nop
  else if starts block_names t then close_p_in_button_scope ;; insert_ t
  else if starts heading_names t then
    close_p_in_button_scope ;; whenever (cur_one heading_names) pop ;; insert_ t
  else if starts ["pre"; "listing"]%string t then
    close_p_in_button_scope ;; insert_ t ;; pure (set_skip true) ;; frameset_not_ok
  else if starts ["form"]%string t then
    (fun s => match s_form s with
              | Some _ => if has_template s then
                            (close_p_in_button_scope ;; insert_ t) s
                          else Done s
              | None =>
                  (close_p_in_button_scope ;;
                   (fun s => do r <- insert_html t s;
                             Done (if has_template (snd r) then snd r else set_form (Some (fst r)) (snd r)))) s
              end)
  else if starts ["li"]%string t then frameset_not_ok ;; (fun s => item_loop ["li"]%string t (s_stack s) s)
  else if starts ["dd"; "dt"]%string t then frameset_not_ok ;; (fun s => item_loop ["dd"; "dt"]%string t (s_stack s) s)
  else if starts ["plaintext"]%string t then close_p_in_button_scope ;; insert_ t ;; lexer_to Plaintext
  else if starts ["button"]%string t then
    whenever (in_scope (h "button")) (implied None ;; pop_until_tags ["button"]%string) ;;
    reconstruct ;; insert_ t ;; frameset_not_ok
  else if ends block_end_names t then
    (fun s => do q <- token_tag t;
              whenever (in_scope q) (implied None ;; pop_until_name [q]) s)
  else if ends ["form"]%string t then
    (fun s =>
       if has_template s then
         whenever (in_scope (h "form")) (implied None ;; pop_until_tags ["form"]%string) s
       else
         let node := s_form s in
         let s := set_form None s in
         match node with
         | None => Done s
         | Some e => whenever (in_scope (e_name e)) (implied None ;; (fun s => do _ <- current s; Done s) ;; unstack e) s
         end)
  else if ends ["p"]%string t then
    whenever (negate (in_button_scope (h "p"))) (insert_ (tag_named "p")) ;; close_p
  else if ends ["li"]%string t then
    whenever (in_list_scope (h "li")) (implied (Some (h "li")) ;; pop_until_tags ["li"]%string)
  else if ends ["dd"; "dt"]%string t then
    (fun s => do q <- token_tag t;
              whenever (in_scope q) (implied (Some q) ;; pop_until_name [q]) s)
  else if ends heading_names t then
    whenever (either (in_scope (h "h1")) (either (in_scope (h "h2")) (either (in_scope (h "h3"))
               (either (in_scope (h "h4")) (either (in_scope (h "h5")) (in_scope (h "h6")))))))
      (implied None ;; pop_until_tags heading_names)
  else if starts ["a"]%string t then
    (fun s => do a <- find_active (fun e => qname_eqb (e_name e) (h "a")) s;
              match a with
              | Some e => (agency t ;; pure (remove_active e) ;; unstack e) s
              | None => Done s
              end) ;;
    reconstruct ;; insert_active_html t
  else if starts formatting_names t then reconstruct ;; insert_active_html t
  else if starts ["nobr"]%string t then
    reconstruct ;; whenever (in_scope (h "nobr")) (agency t ;; reconstruct) ;; insert_active_html t
  else if ends ("a" :: "nobr" :: formatting_names)%string t then agency t
  else if starts ["applet"; "marquee"; "object"]%string t then
    (fun s => do q <- token_tag t;
              whenever (negate (in_scope q)) (reconstruct ;; insert_ t ;; push_marker ;; frameset_not_ok) s)
  else if ends ["applet"; "marquee"; "object"]%string t then
    (fun s => do q <- token_tag t;
              whenever (in_scope q) (implied None ;; pop_until_name [q] ;; clear_to_marker) s)
  else if starts ["table"]%string t then insert_ t ;; frameset_not_ok ;; switch_to IN_TABLE
  else if named ["br"]%string t || starts ["area"; "br"; "embed"; "img"; "keygen"; "wbr"]%string t then
    reconstruct ;; insert_ t ;; pop ;; frameset_not_ok
  else if starts ["input"]%string t then
    whenever (in_scope (h "select")) (pop_until_tags ["select"]%string) ;;
    reconstruct ;; insert_ t ;; pop ;; (if is_hidden t then nop else frameset_not_ok)
  else if starts ["param"; "source"; "track"]%string t then insert_ t ;; pop
  else if starts ["hr"]%string t then close_p_in_button_scope ;; insert_ t ;; pop ;; frameset_not_ok
  else if starts ["image"]%string t then accept (set_name (of_string "img") t)
  else if starts ["textarea"]%string t then
    insert_ t ;; pure (set_skip true) ;; lexer_to Rcdata ;; keep_mode ;; frameset_not_ok ;; switch_to TEXT
  else if starts ["xmp"]%string t then
    close_p_in_button_scope ;; reconstruct ;; frameset_not_ok ;; raw_text Rawtext t
  else if starts ["iframe"]%string t then frameset_not_ok ;; raw_text Rawtext t
  else if starts ["noembed"]%string t then raw_text Rawtext t
  else if starts ["select"]%string t then
    branch (in_scope (h "select")) (pop_until_tags ["select"]%string)
      (reconstruct ;; insert_ t ;; frameset_not_ok)
  else if starts ["option"]%string t then
    branch (in_scope (h "select"))
      (implied (Some (h "optgroup")) ;; (fun s => do _ <- in_scope (h "option") s; Done s))
      (whenever (cur_one ["option"]%string) pop) ;;
    reconstruct ;; insert_ t
  else if starts ["optgroup"]%string t then
    whenever (in_scope (h "select"))
      (implied (Some (h "optgroup")) ;;
       branch (either (in_scope (h "option")) (in_scope (h "optgroup"))) nop
         (whenever (cur_one ["option"]%string) pop) ;;
       reconstruct ;; insert_ t)
  else if starts ["rb"; "rtc"]%string t then
    whenever (in_scope (h "ruby")) (implied None ;; (fun s => do _ <- current s; Done s)) ;; insert_ t
  else if starts ["rp"; "rt"]%string t then
    whenever (in_scope (h "ruby")) (implied (Some (h "rtc")) ;; (fun s => do _ <- current s; Done s)) ;; insert_ t
  else if starts ["math"]%string t then
    reconstruct ;; insert_foreign_ t mathml_ns ;; (if t_self_closing t then pop else nop)
  else if starts ["svg"]%string t then
    reconstruct ;; insert_foreign_ (case_attrs t) svg_ns ;; (if t_self_closing t then pop else nop)
  else if starts ["caption"; "col"; "colgroup"; "frame"; "head"; "tbody"; "td"; "tfoot"; "th"; "thead"; "tr"]%string t then nop
  else if is_start t then reconstruct ;; insert_ t
  else if is_end t then
    (fun s => match t_name t with Some n => any_end_loop n (s_stack s) s | None => Done s end)
  else nop.

(** parser.cpp:2851-2882 *)
Definition on_text (t : token) : act :=
  if is_char t then insert_char (if t_rune t =? 0 then 65533 else t_rune t)
  else if is_eof t then pop ;; (fun s => Done (set_mode (s_orig s) s))
  else if is_end t then pop ;; (fun s => Done (set_mode (s_orig s) s))
  else nop.

(** parser.cpp:2886-2898 *)
Definition table_else (t : token) : act :=
  pure (set_foster true) ;; accept_in IN_BODY t ;; pure (set_foster false).

(** parser.cpp:2900-3121 *)
Definition on_in_table (t : token) : act :=
  let to_table := clear_back ["table"; "template_"; "html"]%string in
  branch (fun s => if is_char t then cur_one ["table"; "tbody"; "template_"; "tfoot"; "thead"; "tr"]%string s else Done false)
    (pure (set_pending []) ;; keep_mode ;; switch_to IN_TABLE_TEXT ;; accept t)
    (if is_comment t then insert_comment t
     else if is_doctype t then nop
     else if starts ["caption"]%string t then to_table ;; push_marker ;; insert_ t ;; switch_to IN_CAPTION
     else if starts ["colgroup"]%string t then to_table ;; insert_ t ;; switch_to IN_COLUMN_GROUP
     else if starts ["col"]%string t then to_table ;; insert_ (tag_named "colgroup") ;; switch_to IN_COLUMN_GROUP ;; accept t
     else if starts ["tbody"; "tfoot"; "thead"]%string t then to_table ;; insert_ t ;; switch_to IN_TABLE_BODY
     else if starts ["td"; "th"; "tr"]%string t then to_table ;; insert_ (tag_named "tbody") ;; switch_to IN_TABLE_BODY ;; accept t
     else if starts ["table"]%string t then
       whenever (in_table_scope (h "table")) (pop_until_tags ["table"]%string ;; reset_mode ;; accept t)
     else if ends ["table"]%string t then
       whenever (in_table_scope (h "table")) (pop_until_tags ["table"]%string ;; reset_mode)
     else if ends ["body"; "caption"; "col"; "colgroup"; "html"; "tbody"; "td"; "tfoot"; "th"; "thead"; "tr"]%string t then nop
     else if starts ["style"; "script"; "template"]%string t then accept_in IN_HEAD t
     else if ends ["template"]%string t then accept_in IN_HEAD t
     else if starts ["input"]%string t then
       if is_hidden t then insert_ t ;; pop else table_else t
     else if starts ["form"]%string t then
       (fun s => if has_template s then Done s
                 else match s_form s with
                      | Some _ => Done s
                      | None => do r <- insert_html (tag_named "form") s; pop (set_form (Some (fst r)) (snd r))
                      end)
     else if is_eof t then accept_in IN_BODY t
     else table_else t).

(** parser.cpp:3125-3171 *)
Fixpoint each (f : token -> act) (l : list token) : act :=
  match l with [] => nop | t :: l' => f t ;; each f l' end.
Definition on_in_table_text (t : token) : act :=
  if is_nul t then nop
  else if is_char t then pure (fun s => set_pending (s_pending s ++ [t]) s)
  else
    (fun s => if existsb (fun x => negb (is_blank x)) (s_pending s)
              then each table_else (s_pending s) s
              else each (fun x => insert_char (t_rune x)) (s_pending s) s) ;;
    (fun s => accept t (set_mode (s_orig s) s)).

(** parser.cpp:3176-3203 *)
Definition close_caption (k : act) : act :=
  whenever (in_table_scope (h "caption"))
    (implied None ;; (fun s => do _ <- current s; Done s) ;; pop_until_tags ["caption"]%string ;; clear_to_marker ;;
     switch_to IN_TABLE ;; k).
(** parser.cpp:3175-3235 *)
Definition on_in_caption (t : token) : act :=
  if ends ["caption"]%string t then close_caption nop
  else if starts ["caption"; "col"; "colgroup"; "tbody"; "td"; "tfoot"; "th"; "thead"; "tr"]%string t || ends ["table"]%string t
  then close_caption (accept t)
  else if ends ["body"; "col"; "colgroup"; "html"; "tbody"; "td"; "tfoot"; "th"; "thead"; "tr"]%string t then nop
  else accept_in IN_BODY t.

(** parser.cpp:3239-3334 *)
Definition on_in_column_group (t : token) : act :=
  if is_blank t then insert_char (t_rune t)
  else if is_comment t then insert_comment t
  else if is_doctype t then nop
  else if starts ["html"]%string t then accept_in IN_BODY t
  else if starts ["col"]%string t then insert_ t ;; pop
  else if ends ["colgroup"]%string t then whenever (cur_one ["colgroup"]%string) (pop ;; switch_to IN_TABLE)
  else if ends ["col"]%string t then nop
  else if (is_start t || is_end t) && named ["template"]%string t then accept_in IN_HEAD t
  else if is_eof t then accept_in IN_BODY t
  else whenever (cur_one ["colgroup"]%string) (pop ;; switch_to IN_TABLE ;; accept t).

(** parser.cpp:3338-3440 *)
Definition on_in_table_body (t : token) : act :=
  let to_body := clear_back ["tbody"; "tfoot"; "thead"; "template_"; "html"]%string in
  if starts ["tr"]%string t then to_body ;; insert_ t ;; switch_to IN_ROW
  else if starts ["th"; "td"]%string t then to_body ;; insert_ (tag_named "tr") ;; switch_to IN_ROW ;; accept t
  else if ends ["tbody"; "tfoot"; "thead"]%string t then
    (fun s => do q <- token_tag t;
              whenever (in_table_scope q) (to_body ;; pop ;; switch_to IN_TABLE) s)
  else if starts ["caption"; "col"; "colgroup"; "tbody"; "tfoot"; "thead"]%string t || ends ["table"]%string t then
    whenever (either (in_table_scope (h "tbody")) (either (in_table_scope (h "thead")) (in_table_scope (h "tfoot"))))
      (to_body ;; pop ;; switch_to IN_TABLE ;; accept t)
  else if ends ["body"; "caption"; "col"; "colgroup"; "html"; "td"; "th"; "tr"]%string t then nop
  else accept_in IN_TABLE t.

(** parser.cpp:3444-3546 *)
Definition on_in_row (t : token) : act :=
  let to_row := clear_back ["tr"; "template_"; "html"]%string in
  if starts ["th"; "td"]%string t then to_row ;; insert_ t ;; switch_to IN_CELL ;; push_marker
  else if ends ["tr"]%string t then
    whenever (in_table_scope (h "tr")) (to_row ;; pop ;; switch_to IN_TABLE_BODY)
  else if starts ["caption"; "col"; "colgroup"; "tbody"; "tfoot"; "thead"; "tr"]%string t || ends ["table"]%string t then
    whenever (in_table_scope (h "tr")) (to_row ;; pop ;; switch_to IN_TABLE_BODY ;; accept t)
  else if ends ["tbody"; "tfoot"; "thead"]%string t then
    (fun s => do q <- token_tag t;
              whenever (in_table_scope q) (to_row ;; pop ;; switch_to IN_TABLE_BODY ;; accept t) s)
  else if ends ["body"; "caption"; "col"; "colgroup"; "html"; "td"; "th"]%string t then nop
  else accept_in IN_TABLE t.

(** parser.cpp:3551-3568 *)
Definition close_cell : act :=
  implied None ;; (fun s => do _ <- current s; Done s) ;; pop_until_tags ["td"; "th"]%string ;; clear_to_marker ;;
  switch_to IN_ROW.
(** parser.cpp:3550-3644 *)
Definition on_in_cell (t : token) : act :=
  if ends ["td"; "th"]%string t then
    (fun s => do q <- token_tag t;
              whenever (in_table_scope q)
                (implied None ;; (fun s => do _ <- current s; Done s) ;; pop_until_name [q] ;; clear_to_marker ;; switch_to IN_ROW) s)
  else if starts ["caption"; "col"; "colgroup"; "tbody"; "td"; "tfoot"; "th"; "thead"; "tr"]%string t then
    (fun s => do _ <- either (in_table_scope (h "td")) (in_table_scope (h "tr")) s; Done s) ;; close_cell ;; accept t
  else if ends ["body"; "caption"; "col"; "colgroup"; "html"]%string t then nop
  else if ends ["table"; "tbody"; "tfoot"; "thead"; "tr"]%string t then
    (fun s => do q <- token_tag t; whenever (in_table_scope q) (close_cell ;; accept t) s)
  else accept_in IN_BODY t.

(** parser.cpp:3648-3746; no code switches to this mode. *)
Definition on_in_template (t : token) : act :=
  if is_char t || is_comment t || is_doctype t then accept_in IN_BODY t
  else if starts ["base"; "basefont"; "bgsound"; "link"; "meta"; "noframes"; "script"; "style"; "template"; "title"]%string t
          || ends ["template"]%string t then accept_in IN_HEAD t
  else if starts ["caption"; "colgroup"; "tbody"; "tfoot"; "thead"]%string t then switch_to IN_TABLE ;; accept t
  else if starts ["col"]%string t then switch_to IN_COLUMN_GROUP ;; accept t
  else if starts ["td"; "th"]%string t then switch_to IN_ROW ;; accept t
  else if is_start t then switch_to IN_BODY ;; accept t
  else if is_end t then nop
  else if is_eof t then
    (fun s => if has_template s
              then (pop_until_tags ["template_"]%string ;; clear_to_marker ;; reset_mode ;; accept t) s
              else Done s)
  else nop.

(** parser.cpp:3750-3799 *)
Definition on_after_body (t : token) : act :=
  if is_blank t then accept_in IN_BODY t
  else if is_comment t then (fun s => do b <- bottom s; Done (insert_comment_at (mkLoc (e_id b) None) t s))
  else if is_doctype t then nop
  else if starts ["html"]%string t then accept_in IN_BODY t
  else if ends ["html"]%string t then switch_to AFTER_AFTER_BODY
  else if is_eof t then nop
  else switch_to IN_BODY ;; accept t.

(** parser.cpp:3803-3889 *)
Definition on_in_frameset (t : token) : act :=
  if is_blank t then insert_char (t_rune t)
  else if is_comment t then insert_comment t
  else if is_doctype t then nop
  else if starts ["html"]%string t then accept_in IN_BODY t
  else if starts ["frameset"]%string t then insert_ t
  else if ends ["frameset"]%string t then
    (fun s => if Nat.eqb (length (s_stack s)) 1 then Done s else pop s)
  else if starts ["frame"]%string t then insert_ t ;; pop
  else if starts ["noframes"]%string t then accept_in IN_HEAD t
  else nop.

(** parser.cpp:3893-3941 *)
Definition on_after_frameset (t : token) : act :=
  if is_blank t then insert_char (t_rune t)
  else if is_comment t then insert_comment t
  else if is_doctype t then nop
  else if starts ["html"]%string t then accept_in IN_BODY t
  else if ends ["html"]%string t then switch_to AFTER_AFTER_FRAMESET
  else if starts ["noframes"]%string t then accept_in IN_HEAD t
  else nop.

(** parser.cpp:3945-3970 *)
Definition on_after_after_body (t : token) : act :=
  if is_comment t then insert_comment t
  else if is_doctype t || is_blank t || starts ["html"]%string t then accept_in IN_BODY t
  else if is_eof t then nop
  else switch_to IN_BODY ;; accept t.

(** parser.cpp:3974-4005 *)
Definition on_after_after_frameset (t : token) : act :=
  if is_comment t then insert_comment t
  else if is_doctype t || is_blank t || starts ["html"]%string t then accept_in IN_BODY t
  else if is_eof t then nop
  else if starts ["noframes"]%string t then accept_in IN_HEAD t
  else nop.

(** parser.cpp:454-470 *)
Definition math_text_point (q : qname) : bool := qone_of (map math_tag ["mi"; "mo"; "mn"; "ms"; "mtext"]%string) q.
(** parser.cpp:473-494 *)
Definition html_point (d : dom) (e : elem) : bool :=
  (qname_eqb (e_name e) (math_tag "annotation-xml") &&
   let v := get_attr (mkQName None (of_string "encoding")) (attrs_of d (e_id e)) in
   opt_eqb str_eqb v (Some (of_string "text/html")) || opt_eqb str_eqb v (Some (of_string "application/xhtml+xml"))) ||
  qone_of (map svg_tag ["foreignObject"; "desc"; "title"]%string) (e_name e).

(** parser.cpp:4079-4093: the elements that break out are popped. *)
Fixpoint leave_foreign (d : dom) (k : list elem) : list elem :=
  match k with
  | [] => []
  | e :: k' => if math_text_point (e_name e) || html_point d e || is_html (e_name e) then k else leave_foreign d k'
  end.
(** parser.cpp:4155-4183: the loop over the stack; [node] is read again at the same place after
    [curr--]. *)
Fixpoint foreign_end (t : token) (n : str) (k : list elem) : act :=
  match k with
  | [] => nop
  | e :: k' =>
      if eq_ci_str (q_name (e_name e)) n then pop_until e
      else if is_html (e_name e) then (fun s => accept_in (s_mode s) t s)
      else foreign_end t n k'
  end.
Definition breakout_names : list string :=
  ["b"; "big"; "blockquote"; "body"; "br"; "center"; "code"; "dd"; "div"; "dl"; "dt"; "em"; "embed"; "h1"; "h2"; "h3";
   "h4"; "h5"; "h6"; "head"; "hr"; "i"; "img"; "li"; "listing"; "menu"; "meta"; "nobr"; "ol"; "p"; "pre"; "ruby"; "s";
   "small"; "span"; "strong"; "strike"; "sub"; "sup"; "table"; "tt"; "u"; "ul"; "var"]%string.
(** parser.cpp:4009-4185 *)
Definition on_foreign (t : token) : act :=
  if is_nul t then insert_char 65533
  else if is_blank t then insert_char (t_rune t)
  else if is_char t then insert_char (t_rune t) ;; frameset_not_ok
  else if is_comment t then insert_comment t
  else if is_doctype t then nop
  else if starts breakout_names t || (is_start t && (has_attr "color" t || has_attr "face" t || has_attr "size" t))
          || ends ["br"; "p"]%string t then
    pure (fun s => set_stack (leave_foreign (s_dom s) (s_stack s)) s) ;; accept t
  else if is_start t then
    (fun s =>
       do cur <- current s;
       let t := if opt_eqb str_eqb (q_ns (e_name cur)) (Some svg_ns)
                then case_attrs (match t_name t with Some n => set_name (cased svg_tag_names n) t | None => t end) else t in
       match q_ns (e_name cur) with
       | None => Fail NotFound
       | Some ns => (insert_foreign_ t ns ;; if t_self_closing t then pop else nop) s
       end)
  else if is_end t then
    branch (cur_one ["script"]%string) pop
      (fun s => match t_name t with
                | None => Fail NoName
                | Some n => do _ <- current s; foreign_end t n (s_stack s) s
                end)
  else nop.
End Rules.

(** parser.cpp:4191-4289 [_acceptIn] *)
Definition rules (accept : token -> act) (accept_in : mode -> token -> act) (m : mode) (t : token) : act :=
  match m with
  | INITIAL => on_initial accept t
  | BEFORE_HTML => on_before_html accept t
  | BEFORE_HEAD => on_before_head accept accept_in t
  | IN_HEAD => on_in_head accept accept_in t
  | IN_HEAD_NOSCRIPT => on_in_head_noscript accept accept_in t
  | AFTER_HEAD => on_after_head accept accept_in t
  | IN_BODY => on_in_body accept accept_in t
  | TEXT => on_text t
  | IN_TABLE => on_in_table accept accept_in t
  | IN_TABLE_TEXT => on_in_table_text accept accept_in t
  | IN_CAPTION => on_in_caption accept accept_in t
  | IN_COLUMN_GROUP => on_in_column_group accept accept_in t
  | IN_TABLE_BODY => on_in_table_body accept accept_in t
  | IN_ROW => on_in_row accept accept_in t
  | IN_CELL => on_in_cell accept accept_in t
  | IN_TEMPLATE => on_in_template accept accept_in t
  | AFTER_BODY => on_after_body accept accept_in t
  | IN_FRAMESET => on_in_frameset accept_in t
  | AFTER_FRAMESET => on_after_frameset accept_in t
  | AFTER_AFTER_BODY => on_after_after_body accept accept_in t
  | AFTER_AFTER_FRAMESET => on_after_after_frameset accept_in t
  end.

(** parser.cpp:4309-4318: whether a token is handled by the rules of the insertion mode. *)
Definition in_html_content (t : token) (s : st) : bool :=
  match s_stack s with
  | [] => true
  | e :: _ =>
      is_html (e_name e) ||
      (math_text_point (e_name e) && is_start t && negb (named ["mglyph"; "malignmark"]%string t)) ||
      (math_text_point (e_name e) && is_char t) ||
      (qname_eqb (e_name e) (math_tag "annotation-xml") && starts ["svg"]%string t) ||
      (html_point (s_dom s) e && is_start t) || (html_point (s_dom s) e && is_char t) ||
      is_eof t
  end.

(** parser.cpp:4292-4329 [accept] and [_acceptIn], which call each other: [None] is [accept]. *)
Fixpoint dispatch (fuel : nat) (m : option mode) (t : token) : act := fun s =>
  match fuel with
  | O => Fail TooDeep
  | S f =>
      let accept := dispatch f None in
      let accept_in := fun m => dispatch f (Some m) in
      match m with
      | Some m => rules accept accept_in m t s
      | None =>
          if s_skip_lf s && (is_char t && (t_rune t =? 10)) then Done (set_skip false s)
          else
            let s := set_skip false s in
            if in_html_content t s then rules accept accept_in (s_mode s) t s else on_foreign accept accept_in t s
      end
  end.
Definition max_calls (s : st) : nat := 10 * (length (s_stack s) + 3).
(** One token from the tokenizer. *)
Definition build1 (t : token) (s : st) : bres st :=
  dispatch (max_calls s) None t (set_switch None s).
Fixpoint build (ts : list token) (s : st) : bres st :=
  match ts with [] => Done s | t :: ts' => do s' <- build1 t s; build ts' s' end.

(** ** The whole parser (parser.cpp:4331-4350) *)

(** The tree builder as the sink of the tokenizer: the tokens are given newest first. *)
Fixpoint build_back (out : list token) : bres st :=
  match out with [] => Done st_init | t :: out' => do s <- build_back out'; build1 t s end.
Definition builder_sink (out : list token) : option text_mode :=
  match build_back out with Done s => s_switch s | Fail _ => None end.

(** The tree under a node; [fuel] bounds its depth. *)
Fixpoint subtree (fuel : nat) (d : dom) (i : nat) : list node :=
  match fuel with
  | O => []
  | S f =>
      match nth_error d i with
      | None => []
      | Some x =>
          let below := flat_map (subtree f d) (d_kids x) in
          match d_kind x with
          | KDocument => below
          | KDoctype n _ _ => [Doctype n]
          | KElement q a => [Element q a below]
          | KText s => [Text s]
          | KComment s => [Comment s]
          end
      end
  end.
(** The children of the document. *)
Definition document (s : st) : list node := subtree (length (s_dom s)) (s_dom s) 0.

Inductive parsed := Tree (l : list node) | LexFail (w : why) | BuildFail (w : fail).
(** [HtmlParser::write] on a new document. *)
Definition parse (text : str) : parsed :=
  match tokenize builder_sink text with
  | Crash w => LexFail w
  | Ok ts => match build ts st_init with Done s => Tree (document s) | Fail w => BuildFail w end
  end.
