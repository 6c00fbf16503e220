(** Selectors as authors write them: abstract syntax, its text (as component values), and what
    it means (through SelectorSpec.v). Nothing here refers to the parser. *)
From Coq Require Import String List NArith ZArith Bool Arith.
From Verif.Base Require Import Str Outcome.
From Verif.Css Require Import LexerModel ParserModel.
From Verif.Values Require Import Number.
From Verif.Style Require Import AnBModel CascadeModel SelectorModel SelectorSpec SelectorParseModel.
Import ListNotations.
Local Open Scope nat_scope.
Local Open Scope list_scope.

(** Whitespace tokens with the given texts *)
Definition ws (w : str) : sst := TOK (mkT WHITESPACE w).
Definition sps (l : list str) : list sst := map ws l.
Definition tok (ty : ttype) (s : str) : sst := TOK (mkT ty s).
Definition dl (s : string) : sst := TOK (delim s).

(** ** An+B *)

Inductive sgn := SgNone | SgPlus | SgMinus.
Definition show_sgn (s : sgn) : str := match s with SgNone => [] | SgPlus => [plus] | SgMinus => [minus] end.
Definition show_digits (ds : list Z) : str := map show_digit ds.
Definition snum (s : sgn) (ds : list Z) : str := show_sgn s ++ show_digits ds.
Definition snum_value (s : sgn) (ds : list Z) : Z := match s with SgMinus => (- dval ds)%Z | _ => dval ds end.
Definition digits_ok (ds : list Z) : Prop := ds <> [] /\ Forall digit_ok ds.

(** The coefficient: a number, or nothing, "+" or "-" for one *)
Inductive ahead := ADim (s : sgn) (ds : list Z) | AN | APlusN | AMinusN.
(** The constant: none; [n+1]; [n + 1]; [n- 1]; [n-1] *)
Inductive atail :=
| BNone
| BSigned (w : list str) (neg : bool) (ds : list Z)
| BDelim (w : list str) (neg : bool) (w' : list str) (ds : list Z)
| BDash (w : list str) (ds : list Z)
| BJoined (ds : list Z).
Inductive anb_text := Odd | Even | Int (s : sgn) (ds : list Z) | Lin (h : ahead) (b : atail).

Definition dash_text (b : atail) : str :=
  match b with BDash _ _ => [minus] | BJoined ds => minus :: show_digits ds | _ => [] end.
Definition show_head (h : ahead) (suffix : str) : list sst :=
  match h with
  | ADim s ds => [tok DIMENSION (snum s ds ++ of_string "n" ++ suffix)]
  | AN => [tok IDENT (of_string "n" ++ suffix)]
  | APlusN => [dl "+"; tok IDENT (of_string "n" ++ suffix)]
  | AMinusN => [tok IDENT (of_string "-n" ++ suffix)]
  end.
Definition show_tail (b : atail) : list sst :=
  match b with
  | BNone | BJoined _ => []
  | BSigned w neg ds => sps w ++ [tok NUMBER (snum (if neg then SgMinus else SgPlus) ds)]
  | BDelim w neg w' ds => sps w ++ (if neg then dl "-" else dl "+") :: sps w' ++ [tok NUMBER (show_digits ds)]
  | BDash w ds => sps w ++ [tok NUMBER (show_digits ds)]
  end.
Definition show_anb (a : anb_text) : list sst :=
  match a with
  | Odd => [tok IDENT (of_string "odd")]
  | Even => [tok IDENT (of_string "even")]
  | Int s ds => [tok NUMBER (snum s ds)]
  | Lin h b => show_head h (dash_text b) ++ show_tail b
  end.
Definition head_value (h : ahead) : Z :=
  match h with ADim s ds => snum_value s ds | AMinusN => (-1)%Z | _ => 1%Z end.
Definition tail_value (b : atail) : Z :=
  match b with
  | BNone => 0%Z
  | BSigned _ neg ds | BDelim _ neg _ ds => if neg then (- dval ds)%Z else dval ds
  | BDash _ ds | BJoined ds => (- dval ds)%Z
  end.
Definition anb_value (a : anb_text) : anb :=
  match a with
  | Odd => mkAnB 2 1
  | Even => mkAnB 2 0
  | Int s ds => mkAnB 0 (snum_value s ds)
  | Lin h b => mkAnB (head_value h) (tail_value b)
  end.
Definition anb_ok (a : anb_text) : Prop :=
  match a with
  | Odd | Even => True
  | Int _ ds => digits_ok ds
  | Lin h b =>
    match h with ADim _ ds => digits_ok ds | _ => True end /\
    match b with BNone => True | BSigned _ _ ds | BDelim _ _ _ ds | BDash _ ds | BJoined ds => digits_ok ds end
  end.
(** Nothing follows the "n". *)
Definition bare_n (a : anb_text) : bool := match a with Lin _ BNone => true | _ => false end.

(** ** Names and attributes *)

Inductive nsq := QOmitted | QAny | QPrefix (p : str).
Definition show_nsq (q : nsq) : list sst :=
  match q with QOmitted => [] | QAny => [dl "*"; dl "|"] | QPrefix p => [tok IDENT p; dl "|"] end.
Definition show_name (n : option str) : sst := match n with Some n => tok IDENT n | None => dl "*" end.
Definition prefix_ok (ns : namespaces) (q : nsq) : Prop :=
  match q with QPrefix p => exists u, ns_lookup (ns_prefixes ns) p = Some u | _ => True end.
Definition nsq_pattern (ns : namespaces) (default_ : ns_pattern) (q : nsq) : ns_pattern :=
  match q with
  | QOmitted => default_
  | QAny => NsUniversal
  | QPrefix p => match ns_lookup (ns_prefixes ns) p with Some u => NsExact u | None => NsNull end
  end.

(** The test on the value: operator, value as a string or an identifier, and modifier
    ([Some true] for "i", [Some false] for "s"), with spaces *)
Record attr_test := mkTest {
  av_w1 : list str; av_op : attr_match; av_w2 : list str; av_string : bool; av_value : str;
  av_w3 : list str; av_mod : option bool; av_w4 : list str }.
Record attr_text := mkAt { at_w : list str; at_ns : nsq; at_name : str; at_w' : list str; at_test : option attr_test }.
Definition show_op (m : attr_match) : list sst :=
  match m with
  | PRESENT => []
  | EXACT => [dl "="]
  | CONTAINS => [dl "~"; dl "="]
  | HYPHENATED => [dl "|"; dl "="]
  | STR_START_WITH => [dl "^"; dl "="]
  | STR_END_WITH => [dl "$"; dl "="]
  | STR_CONTAIN => [dl "*"; dl "="]
  end.
Definition show_attr_test (v : attr_test) : list sst :=
  sps (av_w1 v) ++ show_op (av_op v) ++ sps (av_w2 v) ++ tok (if av_string v then STRING else IDENT) (av_value v) :: sps (av_w3 v)
  ++ match av_mod v with
     | None => []
     | Some i => tok IDENT (of_string (if i then "i" else "s")) :: sps (av_w4 v)
     end.
Definition show_attr (a : attr_text) : list sst :=
  sps (at_w a) ++ show_nsq (at_ns a) ++ tok IDENT (at_name a) :: sps (at_w' a)
  ++ match at_test a with None => [] | Some v => show_attr_test v end.
Definition attr_of (ns : namespaces) (a : attr_text) : attr_sel :=
  let q := mkQS (nsq_pattern ns NsNull (at_ns a)) (NameExact (at_name a)) in
  match at_test a with
  | None => mkAttr q false PRESENT []
  | Some v => mkAttr q (match av_mod v with Some i => i | None => false end) (av_op v) (av_value v)
  end.
(** A "|=" right after a name without prefix is not covered (see C06_hyphenated_refuted). *)
Definition attr_ok (ns : namespaces) (a : attr_text) : Prop :=
  prefix_ok ns (at_ns a) /\
  match at_test a with
  | None => True
  | Some v => av_op v <> PRESENT /\
      (av_op v = HYPHENATED -> at_ns a = QOmitted -> at_w' a ++ av_w1 v <> [])
  end.

(** ** Selectors *)

(** How a combinator or comma is written: [a>b], [a> b], [a > b] *)
Inductive layout := Tight | After (w : str) | Both (w w' : str).
Inductive comb := Desc (w : str) | Child (l : layout) | Next (l : layout) | Later (l : layout).

Inductive simple :=
| SType (q : nsq) (n : option str)
| SId (i : str)
| SClass (c : str)
| SAttr (a : attr_text)
| SPseudo (name : str)
| SElement (double : bool) (name : str)
| SNth (name : str) (w : list str) (a : anb_text) (w' : list str)
| SNthOf (name : str) (w : list str) (a : anb_text) (w' : list str) (l : slist)
| SNot (l : slist)
with compound := KOne (s : simple) | KCons (s : simple) (k : compound)
with rest := RNil | RCons (c : comb) (k : compound) (r : rest)
with cplx := Cx (k : compound) (r : rest)
with slist := Sl (lead : list str) (x : cplx) (r : lrest) (trail : option str)
with lrest := LNil | LCons (l : layout) (x : cplx) (r : lrest).

Definition lay (s : sst) (l : layout) : list sst :=
  match l with Tight => [s] | After w => [s; ws w] | Both w w' => [ws w; s; ws w'] end.
Definition show_comb (c : comb) : list sst :=
  match c with
  | Desc w => [ws w]
  | Child l => lay (dl ">") l
  | Next l => lay (dl "+") l
  | Later l => lay (dl "~") l
  end.
Definition comma : sst := tok COMMA (of_string ",").
Definition colon : sst := tok COLON (of_string ":").

Fixpoint show_simple (s : simple) : list sst :=
  match s with
  | SType q n => show_nsq q ++ [show_name n]
  | SId i => [tok HASH (35%N :: i)]
  | SClass c => [dl "."; tok IDENT c]
  | SAttr a => [BLOCK (show_attr a)]
  | SPseudo n => [colon; tok IDENT n]
  | SElement d n => (if d then [colon; colon] else [colon]) ++ [tok IDENT n]
  | SNth n w a w' => [colon; FUNC (mkT FUNCTION (n ++ of_string "(")) (sps w ++ show_anb a ++ sps w')]
  | SNthOf n w a w' l => [colon; FUNC (mkT FUNCTION (n ++ of_string "(")) (sps w ++ show_anb a ++ sps w' ++ tok IDENT (of_string "of") :: show_slist l)]
  | SNot l => [colon; FUNC (mkT FUNCTION (of_string "not(")) (show_slist l)]
  end
with show_compound (k : compound) : list sst :=
  match k with KOne s => show_simple s | KCons s k => show_simple s ++ show_compound k end
with show_rest (r : rest) : list sst :=
  match r with RNil => [] | RCons c k r => show_comb c ++ show_compound k ++ show_rest r end
with show_cplx (x : cplx) : list sst :=
  match x with Cx k r => show_compound k ++ show_rest r end
with show_slist (l : slist) : list sst :=
  match l with Sl a x r b => sps a ++ show_cplx x ++ show_lrest r ++ match b with Some w => [ws w] | None => [] end end
with show_lrest (r : lrest) : list sst :=
  match r with LNil => [] | LCons l x r => lay comma l ++ show_cplx x ++ show_lrest r end.

Definition comb_ty (c : comb) : infix_ty :=
  match c with Desc _ => DESCENDANT | Child _ => CHILD | Next _ => ADJACENT | Later _ => SUBSEQUENT end.
Definition nth_table : list (str * pc_ty) :=
  [(of_string "nth-child", NTH_CHILD); (of_string "nth-last-child", NTH_LAST_CHILD);
   (of_string "nth-of-type", NTH_OF_TYPE); (of_string "nth-last-of-type", NTH_LAST_OF_TYPE)].
Definition nth_type (n : str) : pc_ty := match pc_lookup nth_table n with Some ty => ty | None => PC_OTHER end.
Definition pc_type (n : str) : pc_ty := match pc_lookup pc_table n with Some ty => ty | None => PC_OTHER end.

(** A compound is the conjunction of its simple selectors, a list the disjunction of its complex
    ones. *)
Definition conj (l : list selector) : selector := match l with [s] => s | _ => Nfix AND l end.
Definition disj (l : list selector) : selector := match l with [s] => s | _ => Nfix OR l end.

(** [f] builds the selector of a complex selector from its compounds. *)
Section Meaning.
Variable ns : namespaces.
Variable f : complex -> selector.
Fixpoint m_simple (s : simple) : selector :=
  match s with
  | SType q n => TypeSel (mkQS (nsq_pattern ns (NsExact (ns_default ns)) q) (name_of n))
  | SId i => IdSel i
  | SClass c => ClassSel c
  | SAttr a => AttrSel (attr_of ns a)
  | SPseudo n => PseudoClass (pc_type n)
  | SElement _ n => PseudoElemSel n
  | SNth n _ a _ => PseudoClassAnB (nth_type n) (anb_value a)
  | SNthOf n _ a _ l => PseudoClassAnBof (nth_type n) (anb_value a) (m_slist l)
  | SNot l => Nfix NOT [m_slist l]
  end
with m_compound (k : compound) : list selector :=
  match k with KOne s => [m_simple s] | KCons s k => m_simple s :: m_compound k end
with m_rest (r : rest) : list (infix_ty * selector) :=
  match r with RNil => [] | RCons c k r => (comb_ty c, conj (m_compound k)) :: m_rest r end
with m_cplx (x : cplx) : complex :=
  match x with Cx k r => (conj (m_compound k), m_rest r) end
with m_slist (l : slist) : selector :=
  match l with Sl _ x r _ => disj (f (m_cplx x) :: m_lrest r) end
with m_lrest (r : lrest) : list selector :=
  match r with LNil => [] | LCons _ x r => f (m_cplx x) :: m_lrest r end.
End Meaning.

(** The complex selectors of a list *)
Fixpoint lrest_cplx (r : lrest) : list cplx := match r with LNil => [] | LCons _ x r => x :: lrest_cplx r end.
Definition slist_cplx (l : slist) : list cplx := match l with Sl _ x r _ => x :: lrest_cplx r end.

(** What the list means: combinators associate to the left. *)
Definition meaning (ns : namespaces) (l : slist) : selector := m_slist ns left_assoc l.

(** ** The covered selectors *)

Definition is_type (s : simple) : bool := match s with SType _ _ => true | _ => false end.
Definition is_attr (s : simple) : bool := match s with SAttr _ => true | _ => false end.
Definition first_simple (k : compound) : simple := match k with KOne s | KCons s _ => s end.
Definition single (k : compound) : bool := match k with KOne _ => true | _ => false end.

(** A pair of combinators around a single simple selector that the parser groups wrongly:
    descendant then child, next-sibling then later-sibling. *)
Definition bad_pair (c d : comb) : bool :=
  match c, d with Desc _, Child _ | Next _, Later _ => true | _, _ => false end.

Section Ok.
Variable ns : namespaces.
Fixpoint simple_ok (s : simple) : Prop :=
  match s with
  | SType q n => prefix_ok ns q
  | SId _ | SClass _ => True
  | SAttr a => attr_ok ns a
  | SPseudo n => ~ In n pe_names /\ (In n (map fst pc_table) \/ In n pc_others)
  | SElement _ n => In n pe_names
  | SNth n _ a _ => In n (map fst nth_table) /\ anb_ok a
  | SNthOf n _ a _ l => (n = of_string "nth-child" \/ n = of_string "nth-last-child") /\ anb_ok a /\ bare_n a = false /\ slist_ok l
  | SNot l => slist_ok l
  end
with compound_ok (k : compound) : Prop :=
  match k with KOne s => simple_ok s | KCons s k => simple_ok s /\ is_type (first_simple k) = false /\ compound_ok k end
with rest_ok (r : rest) : Prop :=
  match r with
  | RNil => True
  | RCons c k r =>
    compound_ok k /\ rest_ok r /\
    match c with Desc _ => is_attr (first_simple k) = false | _ => True end /\
    match r with RCons d _ _ => single k && bad_pair c d = false | RNil => True end
  end
with cplx_ok (x : cplx) : Prop := match x with Cx k r => compound_ok k /\ rest_ok r end
with slist_ok (l : slist) : Prop := match l with Sl _ x r _ => cplx_ok x /\ lrest_ok r end
with lrest_ok (r : lrest) : Prop := match r with LNil => True | LCons _ x r => cplx_ok x /\ lrest_ok r end.
End Ok.

Scheme simple_mut := Induction for simple Sort Prop
with compound_mut := Induction for compound Sort Prop
with rest_mut := Induction for rest Sort Prop
with cplx_mut := Induction for cplx Sort Prop
with slist_mut := Induction for slist Sort Prop
with lrest_mut := Induction for lrest Sort Prop.
Combined Scheme selector_mut from simple_mut, compound_mut, rest_mut, cplx_mut, slist_mut, lrest_mut.
