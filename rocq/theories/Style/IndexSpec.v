(** What looking up the rules for an element should return, independently of the index: go
    through the rules in order and test each. *)
From Coq Require Import String List NArith ZArith Bool Arith.
From Verif.Base Require Import Str.
From Verif.Style Require Import AnBModel CascadeModel SelectorModel SelectorSpec IndexModel.
Import ListNotations.
Local Open Scope list_scope.

(** Rules in order of appearance, numbered from [i]. *)
Fixpoint number (i : nat) (rules : list selector) : list ientry :=
  match rules with
  | [] => []
  | s :: l => mkIE i s :: number (S i) l
  end.

(** The rules that match, in order, each once, with the specificity of the match. *)
Definition linear (t : node) (p : path) (pe : option str) (rules : list selector)
  : list (ientry * specificity) :=
  flat_map (fun e => match match_selector t (ie_rule e) p pe with
                     | Some (Some sp) => [(e, sp)]
                     | _ => []
                     end) (number 1 rules).

(** [listing l out]: [out] lists exactly the matching rules among [l], in order, each one or
    more times in a row, with a specificity and a number of copies allowed by [ok]. *)
Inductive listing (t : node) (p : path) (pe : option str)
    (ok : selector -> specificity -> specificity -> nat -> Prop)
  : list ientry -> list (ientry * specificity) -> Prop :=
| L_nil : listing t p pe ok [] []
| L_skip e l out : match_selector t (ie_rule e) p pe = Some None ->
    listing t p pe ok l out -> listing t p pe ok (e :: l) out
| L_hit e l out sp sp' n : match_selector t (ie_rule e) p pe = Some (Some sp) ->
    n <> 0 -> ok (ie_rule e) sp sp' n ->
    listing t p pe ok l out -> listing t p pe ok (e :: l) (repeat (e, sp') n ++ out).

(** A selector list [a, b]. *)
Definition is_list (s : selector) : bool := match s with Nfix OR _ => true | _ => false end.
(** A complex selector with a combinator. *)
Definition is_complex (s : selector) : bool := match s with Infix _ _ _ => true | _ => false end.

(** No case-insensitive [[*|x="v" i]] among the simple selectors of the subject compound. *)
Definition sensitive (s : selector) : bool :=
  match s with
  | AttrSel a => negb (as_insensitive a &&
                       match as_match a with EXACT => is_universal_ns (as_name a) | _ => false end)
  | _ => true
  end.
Definition indexable (s : selector) : bool :=
  match s with
  | Nfix _ l => forallb sensitive l
  | Infix _ _ (Nfix _ l) => forallb sensitive l
  | Infix _ _ r => sensitive r
  | s => sensitive s
  end.

(** Elements whose class list has no duplicates and whose attributes have different local
    names. *)
Definition plain_element (d : edata) : Prop :=
  NoDup (d_classes d) /\ NoDup (map (fun nv => q_name (fst nv)) (d_attrs d)).

(** What holds of the index: rules that are not selector lists get the specificity of the match,
    rules without combinators are reported once. *)
Definition index_ok (s : selector) (sp sp' : specificity) (n : nat) : Prop :=
  (is_list s = false -> sp' = sp) /\ (is_complex s = false -> n = 1).
