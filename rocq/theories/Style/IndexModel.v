(** Model of the rule index.
    Source: /repo/src/vaev-engine/style/rules-index.cpp (whole file); the index is filled by
    style/computer.cpp:515-540 with the style rules of all sheets, in order.

    A style rule is represented by its selector (its declarations and origin are carried along
    unread by the index, see Style/IndexProps.v for the combination with the cascade).
    Simplification: the six lookup tables (lines 28-33) and [_nonLookupRules] (35) are one map
    whose keys are tagged with the table they belong to. *)
From Coq Require Import String List NArith ZArith Bool Arith.
From Verif.Base Require Import Str.
From Verif.Style Require Import AnBModel CascadeModel SelectorModel.
Import ListNotations.
Local Open Scope list_scope.

(** rules-index.cpp:28-35: which table, and the key in it. *)
Inductive key :=
| KId (s : str)
| KClass (s : str)
| KType (s : str)
| KPseudo (s : str)
| KAttrPresent (s : str)
| KAttrExact (s v : str)
| KNone.

Definition key_eqb (a b : key) : bool :=
  match a, b with
  | KId x, KId y | KClass x, KClass y | KType x, KType y | KPseudo x, KPseudo y
  | KAttrPresent x, KAttrPresent y => str_eqb x y
  | KAttrExact x v, KAttrExact y w => str_eqb x y && str_eqb v w
  | KNone, KNone => true
  | _, _ => false
  end.

(** rules-index.cpp:21-24 [Entry]. *)
Record ientry := mkIE { ie_order : nat; ie_rule : selector }.

(** rules-index.cpp:26-37. *)
Record index := mkIndex {
  ix_count : nat;
  ix_tables : list (key * list ientry);
  ix_needed : list (nat * nat);
}.
Definition index_empty := mkIndex 0 [] [].

(** Karm [Map::lookup]. *)
Fixpoint tlookup (m : list (key * list ientry)) (k : key) : option (list ientry) :=
  match m with
  | [] => None
  | (k', v) :: m' => if key_eqb k' k then Some v else tlookup m' k
  end.

(** [table.lookupOrPutDefault(k).pushBack(e)]. *)
Fixpoint tpush (m : list (key * list ientry)) (k : key) (e : ientry) : list (key * list ientry) :=
  match m with
  | [] => [(k, [e])]
  | (k', v) :: m' => if key_eqb k' k then (k', v ++ [e]) :: m' else (k', v) :: tpush m' k e
  end.

(** [_ruleIdToNeededCount.lookup], [put]. *)
Fixpoint nlookup (m : list (nat * nat)) (k : nat) : option nat :=
  match m with
  | [] => None
  | (k', v) :: m' => if k' =? k then Some v else nlookup m' k
  end.
Fixpoint nput (m : list (nat * nat)) (k v : nat) : list (nat * nat) :=
  match m with
  | [] => [(k, v)]
  | (k', w) :: m' => if k' =? k then (k', v) :: m' else (k', w) :: nput m' k v
  end.

Definition is_universal_ns (q : qsel) : bool :=
  match qs_ns q with NsUniversal => true | _ => false end.
Definition has_exact_name (q : qsel) : bool :=
  match exact_name q with Some _ => true | None => false end.

(** rules-index.cpp:134-137; line 44 calls it on the qualified name of a type selector. *)
Definition lookup_equiv_type (q : qsel) : bool := is_universal_ns q && has_exact_name q.

(** rules-index.cpp:125-132. *)
Definition lookup_equiv_attr (a : attr_sel) : bool :=
  match as_match a with
  | PRESENT | EXACT => is_universal_ns (as_name a) && has_exact_name (as_name a)
  | _ => false
  end.

(** rules-index.cpp:139-149 [isLookupEquivalentToMatch]. *)
Definition lookup_equiv (s : selector) : bool :=
  match s with
  | AttrSel a => lookup_equiv_attr a
  | TypeSel q => lookup_equiv_type q
  | PseudoElemSel _ | IdSel _ | ClassSel _ => true
  | _ => false
  end.

Definition push (ix : index) (k : key) (e : ientry) : index :=
  mkIndex (ix_count ix) (tpush (ix_tables ix) k e) (ix_needed ix).

(** rules-index.cpp:41-73: the overloads of [_add]'s visitor for simple selectors.  Line 49 and
    66 [unwrap] an exact name that the test before guarantees. *)
Definition add_simple (ix : index) (e : ientry) (s : selector) : index :=
  match s with
  | TypeSel q =>
      if lookup_equiv_type q
      then match exact_name q with Some n => push ix (KType n) e | None => ix end
      else push ix KNone e
  | PseudoElemSel ty => push ix (KPseudo ty) e
  | IdSel i => push ix (KId i) e
  | ClassSel c => push ix (KClass c) e
  | AttrSel a =>
      if lookup_equiv_attr a
      then match exact_name (as_name a) with
           | Some n => match as_match a with
                       | PRESENT => push ix (KAttrPresent n) e
                       | EXACT => push ix (KAttrExact n (as_value a)) e
                       | _ => ix
                       end
           | None => ix
           end
      else push ix KNone e
  | _ => push ix KNone e
  end.

(** rules-index.cpp:86-92: the loop over the conjuncts; the conjuncts it recurses into are
    lookup-equivalent, hence simple. *)
Fixpoint add_and (ix : index) (e : ientry) (l : list selector) (conditions : nat) : index * nat :=
  match l with
  | [] => (ix, conditions)
  | i :: l' => if lookup_equiv i then add_and (add_simple ix e i) e l' (S conditions)
               else add_and ix e l' conditions
  end.

(** rules-index.cpp:100-107: the loop over the alternatives. *)
Fixpoint add_or (ix : index) (e : ientry) (l : list selector) (non : bool) : index * bool :=
  match l with
  | [] => (ix, non)
  | i :: l' => if lookup_equiv i then add_or (add_simple ix e i) e l' non
               else add_or ix e l' true
  end.

(** rules-index.cpp:81-113 *)
Definition add_nfix (ix : index) (e : ientry) (ty : nfix_ty) (l : list selector) : index :=
  match ty with
  | AND => let (ix', n) := add_and ix e l 0 in
           match n with
           | 0 => push ix' KNone e
           | _ => mkIndex (ix_count ix') (ix_tables ix') (nput (ix_needed ix') (ie_order e) n)
           end
  | OR => let (ix', non) := add_or ix e l false in
          if non then push ix' KNone e else ix'
  | _ => push ix KNone e
  end.

(** rules-index.cpp:39-118 [_add]. *)
Definition add_sel (ix : index) (e : ientry) (s : selector) : index :=
  match s with
  | Infix _ _ r =>
      match r with
      | Nfix ty l => add_nfix ix e ty l
      | _ => if lookup_equiv r then add_simple ix e r else push ix KNone e
      end
  | Nfix ty l => add_nfix ix e ty l
  | _ => add_simple ix e s
  end.

(** rules-index.cpp:120-123 [add]. *)
Definition add (ix : index) (rule : selector) : index :=
  let n := S (ix_count ix) in
  add_sel (mkIndex n (ix_tables ix) (ix_needed ix)) (mkIE n rule) rule.

Definition build (rules : list selector) : index := fold_left add rules index_empty.

(** rules-index.cpp:160-182: the keys looked up for an element, in order. *)
Definition elem_keys (d : edata) (pe : option str) : list key :=
  map KClass (d_classes d) ++
  match get_attribute_unqualified (d_attrs d) id_name with Some i => [KId i] | None => [] end ++
  match pe with Some x => [KPseudo x] | None => [] end ++
  [KType (q_name (d_name d))] ++
  flat_map (fun nv => [KAttrPresent (q_name (fst nv)); KAttrExact (q_name (fst nv)) (snd nv)])
    (d_attrs d) ++
  [KNone].

(** rules-index.cpp:153-183 [_collectMatchedRulesCursors]: a cursor is what is left to read. *)
Definition collect (ix : index) (d : edata) (pe : option str) : list (list ientry) :=
  flat_map (fun k => match tlookup (ix_tables ix) k with Some v => [v] | None => [] end)
    (elem_keys d pe).

(** rules-index.cpp:185-190, rules.cpp:358: a matching rule is a rule and a specificity; the
    rule pointer is represented by the entry. *)
Definition matching_rules := list (ientry * specificity).

(** rules-index.cpp:257-262: index of the cursor with the least order, the first one among
    equals; [None] reads a cursor at its end, a panic. *)
Fixpoint best_from (cs : list (list ientry)) (i best : nat) (best_order : nat) : option nat :=
  match cs with
  | [] => Some best
  | [] :: _ => None
  | (e :: _) :: cs' =>
      if ie_order e <? best_order then best_from cs' (S i) i (ie_order e)
      else best_from cs' (S i) best best_order
  end.
Definition best (cs : list (list ientry)) : option nat :=
  match cs with
  | [] => None
  | [] :: _ => None
  | (e :: _) :: cs' => best_from cs' 1 0 (ie_order e)
  end.

Fixpoint set_nth {A} (i : nat) (x : A) (l : list A) : list A :=
  match i, l with
  | _, [] => []
  | 0, _ :: l' => x :: l'
  | S i', y :: l' => y :: set_nth i' x l'
  end.

(** rules-index.cpp:280-284: advance the cursor, and when it ended swap it with the last one and
    drop it. *)
Definition advance (cs : list (list ientry)) (i : nat) : list (list ientry) :=
  match nth_error cs i with
  | None => cs
  | Some c =>
      match tl c with
      | [] => removelast (set_nth i (last cs []) cs)
      | r => set_nth i r cs
      end
  end.

Section Lookup.
  Variable ix : index.
  Variable t : node.
  Variable p : path.
  Variable pe : option str.

  (** rules-index.cpp:187-190 [_evalStyleRule]. *)
  Definition eval_rule (out : matching_rules) (e : ientry) : option matching_rules :=
    match match_selector t (ie_rule e) p pe with
    | None => None
    | Some None => Some out
    | Some (Some sp) => Some (out ++ [(e, sp)])
    end.

  (** rules-index.cpp:192-230 [_maybeDeferRuleEvaluation]: the boolean, and the effect on
      [_matchingRules]. *)
  Definition maybe_defer (out : matching_rules) (e : ientry) (count : nat) : bool * matching_rules :=
    let hit := (true, out ++ [(e, spec (ie_rule e))]) in
    if lookup_equiv (ie_rule e) then hit
    else match ie_rule e with
         | Nfix OR _ => (true, out)
         | Nfix AND l =>
             match nlookup (ix_needed ix) (ie_order e) with
             | None => (false, out)
             | Some needed =>
                 if negb (count =? needed) then (true, out)
                 else if negb (length l =? count) then (false, out)
                 else hit
             end
         | _ => (false, out)
         end.

  (** rules-index.cpp:233-235 *)
  Record mstate := mkM {
    m_count : nat;
    m_last_id : nat;
    m_last : option ientry;
    m_out : matching_rules;
  }.

  (** rules-index.cpp:237-254 [maybeFinalizeNfixOrRule]. *)
  Definition finalize (st : mstate) : option matching_rules :=
    match m_last st with
    | None => Some (m_out st)
    | Some e =>
        match ie_rule e with
        | Nfix OR _ =>
            if m_count st =? 1 then eval_rule (m_out st) e
            else Some (m_out st ++ [(e, spec (ie_rule e))])
        | _ => Some (m_out st)
        end
    end.

  (** rules-index.cpp:264-278: the body of the loop for the entry under the best cursor. *)
  Definition step (st : mstate) (e : ientry) : option mstate :=
    match (if negb (m_last_id st =? ie_order e)
           then match finalize st with Some o => Some (1, o) | None => None end
           else Some (S (m_count st), m_out st)) with
    | None => None
    | Some (count, out) =>
        let (deferred, out') := maybe_defer out e count in
        match (if deferred then Some out' else eval_rule out' e) with
        | None => None
        | Some out'' => Some (mkM count (ie_order e) (Some e) out'')
        end
    end.

  (** rules-index.cpp:256-287; [fuel] bounds the number of iterations, one per entry. *)
  Fixpoint merge (fuel : nat) (cs : list (list ientry)) (st : mstate) : option matching_rules :=
    match cs with
    | [] => finalize st
    | _ =>
        match fuel with
        | 0 => None
        | S fuel' =>
            match best cs with
            | None => None
            | Some i =>
                match nth_error cs i with
                | Some (e :: _) =>
                    match step st e with
                    | None => None
                    | Some st' => merge fuel' (advance cs i) st'
                    end
                | _ => None
                end
            end
        end
    end.

  (** rules-index.cpp:290-298 [match]; the element is the one at [p]. *)
  Definition index_match : option matching_rules :=
    match elem_at t p with
    | None => None
    | Some d =>
        let cs := collect ix d pe in
        merge (length (concat cs)) cs (mkM 0 0 None [])
    end.
End Lookup.
