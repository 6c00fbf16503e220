(** What CSS Counter Styles 3 and CSS Lists 3 ask for, stated without the model's helpers. *)
From Coq Require Import String List ZArith Bool Lia.
From Verif.Base Require Import Str Outcome.
From Verif.Style Require Import CounterModel.
Import ListNotations.
Local Open Scope list_scope.
Local Open Scope Z_scope.

(** Value of a digit string in base [b], most significant digit first. *)
Fixpoint horner (b acc : Z) (ds : list Z) : Z :=
  match ds with
  | [] => acc
  | d :: r => horner b (acc * b + d) r
  end.

(** [out] spells the digits [ds] with the symbols [syms] (digit 0 = first symbol). *)
Definition spells (syms : list str) (ds : list Z) (out : list str) : Prop :=
  Forall2 (fun d s => nth_error syms (Z.to_nat d) = Some s) ds out.

(** Digits of a base-[n] numeral without leading zero, except for zero itself. *)
Definition numeral (n : Z) (ds : list Z) : Prop :=
  Forall (fun d => 0 <= d < n) ds /\
  match ds with
  | [] => False
  | d :: r => d = 0 -> r = []
  end.

(** Digits of a bijective base-[n] numeral: digit [d] is the symbol number [d - 1]. *)
Definition bijective (n : Z) (ds : list Z) : Prop :=
  ds <> [] /\ Forall (fun d => 1 <= d <= n) ds.

(** The range descriptor admits the value ([auto] admits all values the systems can do). *)
Definition in_range (r : crange) (v : Z) : Prop :=
  match r with
  | Auto => True
  | Ranges l => Exists (fun r => (forall lo, fst r = Some lo -> lo <= v) /\
                                 (forall hi, snd r = Some hi -> v <= hi)) l
  end.

(** The multiplicities [reps] of the tuples are the greedy ones for [v]: they add up to
    [v], and what is left after each tuple of non-zero weight is less than this weight. *)
Inductive greedy : list (Z * str) -> Z -> list nat -> Prop :=
| greedy_nil : greedy [] 0 []
| greedy_zero : forall s r v reps,
    greedy r v reps -> greedy ((0, s) :: r) v (O :: reps)
| greedy_cons : forall w s r v k reps,
    0 < w -> 0 <= v < w -> greedy r v reps ->
    greedy ((w, s) :: r) (w * Z.of_nat k + v) (k :: reps).

Fixpoint spread (tuples : list (Z * str)) (reps : list nat) : list str :=
  match tuples, reps with
  | (_, s) :: t, k :: r => repeat s k ++ spread t r
  | _, _ => []
  end.

(** Sum of the weights, used as the independent reading of "adds up to the value". *)
Fixpoint weigh (tuples : list (Z * str)) (reps : list nat) : Z :=
  match tuples, reps with
  | (w, _) :: t, k :: r => w * Z.of_nat k + weigh t r
  | _, _ => 0
  end.

(** The values a style can represent (CSS Counter Styles 3, section 3.1), the way the code
    treats the sign: the system is given the absolute value. *)
Definition can_represent (s : cstyle) (v : Z) : Prop :=
  in_range (st_range s) v /\
  match st_system s with
  | Numeric => 2 <= len (st_symbols s)
  | Alphabetic => 2 <= len (st_symbols s) /\ v <> 0
  | Cyclic | Symbolic => 1 <= len (st_symbols s)
  | Fixed n => st_symbols s <> [] /\ Z.abs v <= unwrap_or n 0 + len (st_symbols s)
  | Additive =>
      if v =? 0 then exists s0, In (0, s0) (st_additive s)
      else exists reps, greedy (st_additive s) (Z.abs v) reps
  | Extends _ => False
  end.

(** Inputs on which the systems themselves do not crash. *)
Definition safe (s : cstyle) (v : Z) : Prop :=
  match st_system s with
  | Fixed n => st_symbols s = [] \/ unwrap_or n 0 < Z.abs v
  | Additive => Forall (fun t => 0 <= fst t) (st_additive s)
  | Extends _ => False
  | _ => True
  end.

(** The style that ends up representing the value: follow the fallbacks; a fallback that has been
    used before, or that does not exist, is [decimal]. *)
Inductive picks (cs : list (str * cstyle)) (v : Z) : list str -> cstyle -> cstyle -> Prop :=
| picks_here : forall seen s, can_represent s v -> picks cs v seen s s
| picks_next : forall seen s s' t,
    ~ can_represent s v -> ~ In (st_fallback s) seen ->
    (lookup cs (st_fallback s) = Some s' \/
     lookup cs (st_fallback s) = None /\ lookup cs decimal_name = Some s') ->
    picks cs v (st_fallback s :: seen) s' t -> picks cs v seen s t
| picks_cycle : forall seen s d t,
    ~ can_represent s v -> In (st_fallback s) seen -> lookup cs decimal_name = Some d ->
    picks cs v seen d t -> picks cs v seen s t.

(** CSS Counter Styles 3, section 2 ("generate a counter"), for a representation [repr] of
    the absolute value: sign inside the prefix, padding counts the sign. *)
Definition css_text (glen : str -> Z) (s : cstyle) (v : Z) (repr : list str) : str :=
  let neg := v <? 0 in
  let app := unwrap_or (st_neg_app s) [] in
  let used := measure_repr glen repr + if neg then glen (st_neg_pre s) + glen app else 0 in
  st_prefix s
    ++ (if neg then st_neg_pre s else [])
    ++ concat (repeat (st_pad_sym s) (Z.to_nat (st_pad_len s - used)))
    ++ concat repr
    ++ (if neg then app else [])
    ++ st_suffix s.

(** * extends *)

(** The descriptors along the [extends] chain of a name, nearest first.  A name has
    a chain exactly when following its [extends] ends. *)
Inductive chain (cs : list (str * cdesc)) : str -> list cdesc -> Prop :=
| chain_missing : forall n, lookup cs n = None -> chain cs n []
| chain_base : forall n d, lookup cs n = Some d ->
    (forall m, d_system d <> Some (Extends m)) -> chain cs n [d]
| chain_ext : forall n d m l, lookup cs n = Some d ->
    d_system d = Some (Extends m) -> chain cs m l -> chain cs n (d :: l).

Definition own_system (d : cdesc) : option csystem :=
  match d_system d with
  | Some (Extends _) => None
  | o => o
  end.

(** The first descriptor given along the chain, else the initial value. *)
Fixpoint first_given {A} (f : cdesc -> option A) (l : list cdesc) (init : A) : A :=
  match l with
  | [] => init
  | d :: r => match f d with Some a => a | None => first_given f r init end
  end.

Definition css_resolved (l : list cdesc) (s : cstyle) : Prop :=
  st_system s = first_given own_system l Symbolic /\
  (st_neg_pre s, st_neg_app s) = first_given d_negative l (of_string "-", None) /\
  st_prefix s = first_given d_prefix l [] /\
  st_suffix s = first_given d_suffix l (of_string ". ") /\
  st_range s = first_given d_range l Auto /\
  (st_pad_len s, st_pad_sym s) = first_given d_pad l (0, []) /\
  st_fallback s = first_given d_fallback l (of_string "decimal") /\
  st_symbols s = first_given d_symbols l [] /\
  st_additive s = first_given d_additive l [].

(** * Counter scoping *)

(** The state of one counter name: reversed or not, and the value. *)
Definition cstate := option (bool * Z).

(** Effect of the counter properties of one element on the innermost counter [name]. *)
Definition ops_effect (name : str) (o : cops) (st : cstate) : cstate :=
  let st := fold_left (fun st r => if str_eqb (r_name r) name
                                   then Some (r_reversed r, r_value r) else st)
              (o_reset o) st in
  let incs := match o_increment o with
              | [] => if o_item o then [(of_string "list-item", Some 1)] else []
              | l => l
              end in
  let st := fold_left (fun st (i : str * option Z) =>
                         if str_eqb (fst i) name then
                           let '(rev, v) := unwrap_or st (false, 0) in
                           Some (rev, if rev : bool then v - unwrap_or (snd i) 1
                                      else v + unwrap_or (snd i) 1)
                         else st) incs st in
  fold_left (fun st (i : str * option Z) =>
               if str_eqb (fst i) name
               then Some (fst (unwrap_or st (false, 0)), unwrap_or (snd i) 0) else st)
    (o_set o) st.

Definition state_value (st : cstate) : Z := snd (unwrap_or st (false, 0)).

(** [e] is the element itself or an element below it. *)
Inductive occurs (e : celem) : celem -> Prop :=
| occurs_here : occurs e e
| occurs_below : forall e' c, In c (ce_children e') -> occurs e c -> occurs e e'.

Fixpoint ids (e : celem) : list nat :=
  match e with CElem i _ l => i :: flat_map ids l end.
