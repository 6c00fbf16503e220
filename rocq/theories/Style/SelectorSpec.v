(** What selectors mean (Selectors Level 4), written over paths in a finite tree and
    independently of the matching algorithm. *)
From Coq Require Import String List NArith ZArith Bool Arith.
From Verif.Base Require Import Str.
From Verif.Style Require Import AnBModel CascadeModel SelectorModel.
Import ListNotations.
Local Open Scope list_scope.

(** ** Structure of the tree *)

Definition is_elem (t : node) (p : path) : Prop := exists d, elem_at t p = Some d.

Definition is_parent (q p : path) : Prop := exists i, p = i :: q.
Definition is_ancestor (q p : path) : Prop := exists r, r <> [] /\ p = r ++ q.
Definition sibling_before (q p : path) : Prop :=
  exists i j up, q = i :: up /\ p = j :: up /\ i < j.
Definition sibling_after (q p : path) : Prop := sibling_before p q.

(** [q] is the element immediately preceding [p] among its siblings; text and comments in
    between do not count (Selectors 4, 15.3). *)
Definition prev_element (t : node) (q p : path) : Prop :=
  sibling_before q p /\ is_elem t q /\
  forall r, sibling_before r p -> is_elem t r -> r = q \/ sibling_before r q.

Definition related (t : node) (c : infix_ty) (q p : path) : Prop :=
  is_elem t q /\
  match c with
  | DESCENDANT => is_ancestor q p
  | CHILD => is_parent q p
  | ADJACENT => prev_element t q p
  | SUBSEQUENT => sibling_before q p
  | COLUMN => False
  end.

(** ** Attribute selectors *)

(** Two strings are equal, up to ASCII case when [ins]. *)
Definition eqv (ins : bool) (x y : str) : Prop :=
  if ins then map to_ascii_lower x = map to_ascii_lower y else x = y.

(** [w] is one of the whitespace-separated words of [s]. *)
Definition is_word (w s : str) : Prop :=
  w <> [] /\ Forall (fun c => is_ascii_space c = false) w /\
  exists a b, s = a ++ w ++ b /\
    (a = [] \/ exists a' c, a = a' ++ [c] /\ is_ascii_space c = true) /\
    (b = [] \/ exists c b', b = c :: b' /\ is_ascii_space c = true).

Definition hyphen : rune := 45%N.

Definition value_sem (m : attr_match) (ins : bool) (av val : str) : Prop :=
  match m with
  | PRESENT => True
  | EXACT => eqv ins av val
  | CONTAINS => exists w, is_word w av /\ eqv ins w val
  | HYPHENATED => eqv ins av val \/ exists a r, av = a ++ hyphen :: r /\ eqv ins a val
  | STR_START_WITH => val <> [] /\ exists a r, av = a ++ r /\ eqv ins a val
  | STR_END_WITH => val <> [] /\ exists r a, av = r ++ a /\ eqv ins a val
  | STR_CONTAIN => val <> [] /\ exists r a r', av = r ++ a ++ r' /\ eqv ins a val
  end.

Definition name_sem (q : qsel) (n : qname) : Prop :=
  match qs_ns q with
  | NsNull => q_ns n = None
  | NsUniversal => True
  | NsExact s => q_ns n = Some s
  end /\
  match qs_name q with
  | NameUniversal => True
  | NameExact s => q_name n = s
  end.

Definition attr_sem (a : attr_sel) (attrs : list (qname * str)) : Prop :=
  exists n v, In (n, v) attrs /\ name_sem (as_name a) n /\
              value_sem (as_match a) (as_insensitive a) v (as_value a).

(** ** Positions *)

(** [k] is the 1-based position of [p] among the siblings [R] that satisfy [P]. *)
Definition position (R : path -> path -> Prop) (P : path -> Prop) (p : path) (k : nat) : Prop :=
  exists l, NoDup l /\ (forall q, In q l <-> R q p /\ P q) /\ k = S (length l).

Definition progression (ab : anb) (k : nat) : Prop :=
  exists n, (0 <= n /\ Z.of_nat k = anb_a ab * n + anb_b ab)%Z.

Definition nth_sem (R : path -> path -> Prop) (P : path -> Prop) (ab : anb) (p : path) : Prop :=
  exists k, position R P p k /\ progression ab k.

Definition same_type (t : node) (p q : path) : Prop :=
  exists d d', elem_at t p = Some d /\ elem_at t q = Some d' /\ d_name d' = d_name d.

Definition first_of (R : path -> path -> Prop) (P : path -> Prop) (p : path) : Prop :=
  forall q, R q p -> ~ P q.

(** ** Selectors *)

Definition any_of {A} (P : A -> Prop) : list A -> Prop :=
  fix go l := match l with [] => False | x :: l' => P x \/ go l' end.
Definition all_of {A} (P : A -> Prop) : list A -> Prop :=
  fix go l := match l with [] => True | x :: l' => P x /\ go l' end.

Definition pc_sem (t : node) (ty : pc_ty) (p : path) : Prop :=
  match ty with
  | LINK => exists d v, elem_at t p = Some d /\ d_name d = a_tag /\ In (href_attr, v) (d_attrs d)
  | ROOT => forall q, is_parent q p -> ~ is_elem t q
  | EMPTY => exists d, node_at t p = Some (Elem d [])
  | FIRST_CHILD => first_of sibling_before (is_elem t) p
  | LAST_CHILD => first_of sibling_after (is_elem t) p
  | ONLY_CHILD => first_of sibling_before (is_elem t) p /\ first_of sibling_after (is_elem t) p
  | FIRST_OF_TYPE => first_of sibling_before (same_type t p) p
  | LAST_OF_TYPE => first_of sibling_after (same_type t p) p
  | ONLY_OF_TYPE => first_of sibling_before (same_type t p) p /\
                    first_of sibling_after (same_type t p) p
  | _ => False
  end.

Definition pc_anb_sem (t : node) (ty : pc_ty) (ab : anb) (P : path -> Prop) (p : path) : Prop :=
  match ty with
  | NTH_CHILD => P p /\ nth_sem sibling_before (fun q => is_elem t q /\ P q) ab p
  | NTH_LAST_CHILD => P p /\ nth_sem sibling_after (fun q => is_elem t q /\ P q) ab p
  | NTH_OF_TYPE => nth_sem sibling_before (same_type t p) ab p
  | NTH_LAST_OF_TYPE => nth_sem sibling_after (same_type t p) ab p
  | _ => False
  end.

(** [sem t s p pe]: selector [s] represents the element at [p], or its pseudo-element [pe]. *)
Fixpoint sem (t : node) (s : selector) (p : path) (pe : option str) {struct s} : Prop :=
  match s with
  | Nfix AND l => all_of (fun i => sem t i p pe) l
  | Nfix OR l => any_of (fun i => sem t i p pe) l
  | Nfix NOT l => ~ any_of (fun i => sem t i p pe) l
  | Nfix WHERE l => any_of (fun i => sem t i p pe) l
  | Infix c l r => sem t r p pe /\ exists q, related t c q p /\ sem t l q None
  | TypeSel q => exists d, elem_at t p = Some d /\ name_sem q (d_name d)
  | EmptySel => False
  | IdSel i => exists d, elem_at t p = Some d /\
                 get_attribute_unqualified (d_attrs d) id_name = Some i
  | ClassSel c => exists d, elem_at t p = Some d /\ In c (d_classes d)
  | PseudoElemSel ty => pe = Some ty
  | PseudoClass ty => pc_sem t ty p
  | PseudoClassAnB ty ab => pc_anb_sem t ty ab (fun _ => True) p
  | PseudoClassAnBof ty ab s => pc_anb_sem t ty ab (fun q => sem t s q None) p
  | AttrSel a => exists d, elem_at t p = Some d /\ attr_sem a (d_attrs d)
  end.

(** ** Complex selectors, as the author writes them: a compound, then combinator/compound
    pairs from left to right. *)
Definition complex := (selector * list (infix_ty * selector))%type.

(** There is a sequence of elements, one per compound, each satisfying its compound and
    related to its successor by the combinator in between, ending in [e]. *)
Inductive chain (t : node) (pe : option str) : path -> list (infix_ty * selector) -> path -> Prop :=
| chain_nil : forall e, chain t pe e [] e
| chain_last : forall e0 c s e, related t c e0 e -> sem t s e pe ->
    chain t pe e0 [(c, s)] e
| chain_cons : forall e0 c s rest e1 e, rest <> [] ->
    related t c e0 e1 -> is_elem t e1 -> sem t s e1 None ->
    chain t pe e1 rest e -> chain t pe e0 ((c, s) :: rest) e.

Definition matches_complex (t : node) (x : complex) (e : path) (pe : option str) : Prop :=
  exists e0, is_elem t e0 /\
    sem t (fst x) e0 (match snd x with [] => pe | _ => None end) /\ chain t pe e0 (snd x) e.

(** The syntax tree in which combinators associate to the left. *)
Definition left_assoc (x : complex) : selector :=
  fold_left (fun acc cs => Infix (fst cs) acc (snd cs)) (snd x) (fst x).

(** ** Side conditions *)

(** Selector features the theorem covers. *)
Definition pc_anb_ok (ty : pc_ty) : bool :=
  match ty with NTH_CHILD | NTH_LAST_CHILD | NTH_OF_TYPE | NTH_LAST_OF_TYPE => true | _ => false end.
Definition pc_ok (ty : pc_ty) : bool :=
  match ty with
  | LINK | FIRST_CHILD | LAST_CHILD | FIRST_OF_TYPE | LAST_OF_TYPE | PC_OTHER => true
  | _ => false
  end.

Fixpoint supported (s : selector) : bool :=
  match s with
  | Nfix AND l | Nfix OR l => forallb supported l
  | Nfix NOT l => match l with [i] => supported i | _ => false end
  | Nfix WHERE _ => false
  | Infix COLUMN _ _ => false
  | Infix _ l r => supported l && supported r
  | PseudoClass ty => pc_ok ty
  | PseudoClassAnB ty _ => pc_anb_ok ty
  | PseudoClassAnBof ty _ s => pc_anb_ok ty && supported s
  | AttrSel a => match qs_ns (as_name a), qs_name (as_name a) with
                 | NsUniversal, _ | _, NameUniversal => false
                 | _, _ => true
                 end
  | _ => true
  end.

(** No next-sibling combinator anywhere. *)
Fixpoint no_adjacent (s : selector) : bool :=
  match s with
  | Nfix _ l => forallb no_adjacent l
  | Infix ADJACENT _ _ => false
  | Infix _ l r => no_adjacent l && no_adjacent r
  | PseudoClassAnBof _ _ s => no_adjacent s
  | _ => true
  end.

(** No text or comment between two element siblings. *)
Definition no_gaps (t : node) : Prop :=
  forall i j up, i < j -> is_elem t (i :: up) -> is_elem t (j :: up) -> is_elem t ((j - 1) :: up).

(** Attribute maps have unique keys. *)
Definition attrs_unique (t : node) : Prop :=
  forall p d, elem_at t p = Some d -> NoDup (map fst (d_attrs d)).

(** ** Specificity (Selectors 4, 17): ids, then classes/attributes/pseudo-classes, then types and
    pseudo-elements; [:not()] counts as its most specific argument, [:nth-child(... of S)] as
    a pseudo-class plus the most specific alternative of S. *)
Definition spec_max (a b : specificity) : specificity :=
  match spec_cmp a b with Lt => b | _ => a end.

Fixpoint css_spec (s : selector) : specificity :=
  match s with
  | Nfix AND l => fold_right (fun i acc => spec_add (css_spec i) acc) spec_zero l
  | Nfix OR l | Nfix NOT l => fold_right (fun i acc => spec_max (css_spec i) acc) spec_zero l
  | Nfix WHERE _ => spec_zero
  | Infix _ l r => spec_add (css_spec l) (css_spec r)
  | TypeSel q => match qs_name q with NameUniversal => spec_zero | NameExact _ => mkSpec 0 0 1 end
  | EmptySel => spec_zero
  | IdSel _ => mkSpec 1 0 0
  | ClassSel _ | PseudoClass _ | PseudoClassAnB _ _ | AttrSel _ => mkSpec 0 1 0
  | PseudoClassAnBof _ _ s => spec_add (mkSpec 0 1 0) (css_spec s)
  | PseudoElemSel _ => mkSpec 0 0 1
  end.

(** Selectors on which the engine's count agrees with [css_spec]. *)
Fixpoint plain (s : selector) : bool :=
  match s with
  | Nfix AND l => forallb plain l
  | Nfix OR l | Nfix NOT l => match l with [i] => plain i | _ => false end
  | Nfix WHERE _ => true
  | Infix _ l r => plain l && plain r
  | PseudoElemSel _ => false
  | PseudoClassAnBof _ _ _ => false
  | _ => true
  end.

(** No pseudo-element selector anywhere in the subject part of the selector. *)
Fixpoint mentions_pe (s : selector) : bool :=
  match s with
  | Nfix _ l => existsb mentions_pe l
  | Infix _ _ r => mentions_pe r
  | PseudoElemSel _ => true
  | _ => false
  end.

(** No positional pseudo-class without its argument, no empty [:not()]. *)
Fixpoint has_args (s : selector) : bool :=
  match s with
  | Nfix NOT l | Nfix WHERE l => negb (match l with [] => true | _ => false end) && forallb has_args l
  | Nfix _ l => forallb has_args l
  | Infix _ l r => has_args l && has_args r
  | PseudoClass ty => negb (pc_anb_ok ty)
  | PseudoClassAnBof _ _ s => has_args s
  | _ => true
  end.
