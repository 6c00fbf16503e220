(** Counter styles and counter sets.

    Models src/vaev-engine/style/counter.cpp, and the counter traversal of
    src/vaev-engine/style/computer.cpp.

    Simplifications, everywhere in this file:
    - [Integer] is [Z] (no overflow), [f64] in [_constructSymbolicCounter] is exact.
    - A [CounterSymbol] (a string or an identifier) is its text.
    - [Icu::countGrapheneClusters] is a function parameter [glen]; the theorems hold for
      every such function.
    - A Karm [Map] is an association list with the keys in insertion order; [Set] is a list.
    - The [speak-as] descriptor is dropped (no effect on the text). *)
From Coq Require Import String List ZArith Bool Lia.
From Verif.Base Require Import Str Outcome.
Import ListNotations.
Local Open Scope list_scope.
Local Open Scope Z_scope.

(** values/counter.cpp:63-87: [FixedCounterSystem], [ExtendsCounterSystem], [CounterSystem]. *)
Inductive csystem :=
| Cyclic
| Numeric
| Alphabetic
| Symbolic
| Additive
| Fixed (number : option Z)
| Extends (name : str).

(** values/counter.cpp:100: [CounterRange]; [None] as a bound is [infinite]
    ([Limits<Integer>::MIN]/[MAX], which every [Integer] satisfies). *)
Inductive crange :=
| Auto
| Ranges (l : list (option Z * option Z)).

(** style/counter.cpp:160-189: [CounterStyle] ([CounterNegative], [CounterPad] inlined). *)
Record cstyle := mkStyle {
  st_system : csystem;
  st_neg_pre : str;
  st_neg_app : option str;
  st_prefix : str;
  st_suffix : str;
  st_range : crange;
  st_pad_len : Z;
  st_pad_sym : str;
  st_fallback : str;
  st_symbols : list str;
  st_additive : list (Z * str)
}.

(** The name "decimal" (style/counter.cpp:199, 507). *)
Definition decimal_name : str := of_string "decimal".

(** style/counter.cpp:191-204: [CounterStyle::initial]. *)
Definition initial_style : cstyle := {|
  st_system := Symbolic;
  st_neg_pre := of_string "-";
  st_neg_app := None;
  st_prefix := [];
  st_suffix := of_string ". ";
  st_range := Auto;
  st_pad_len := 0;
  st_pad_sym := [];
  st_fallback := decimal_name;
  st_symbols := [];
  st_additive := []
|}.

(** Karm [Vec::operator[]] with the index converted to [usize]: out of range panics. *)
Definition index {A} (l : list A) (i : Z) : outcome A :=
  if i <? 0 then Panic
  else match nth_error l (Z.to_nat i) with
       | Some a => Ok a
       | None => Panic
       end.

Definition len {A} (l : list A) : Z := Z.of_nat (length l).

(** style/counter.cpp:296-303: [_constructCyclicCounter]. *)
Definition construct_cyclic (s : cstyle) (value : Z) : outcome (option (list str)) :=
  match st_symbols s with
  | [] => Ok None
  | _ =>
      let i := Z.rem (value - 1) (len (st_symbols s)) in
      let i := if i <? 0 then i + len (st_symbols s) else i in
      omap (fun x => Some [x]) (index (st_symbols s) i)
  end.

(** style/counter.cpp:306-314: [_constructFixedCounter]. *)
Definition construct_fixed (s : cstyle) (number : option Z) (value : Z)
  : outcome (option (list str)) :=
  match st_symbols s with
  | [] => Ok None
  | _ =>
      let value := value - match number with Some n => n | None => 0 end in
      let value := value - 1 in
      if value >=? len (st_symbols s) then Ok None
      else omap (fun x => Some [x]) (index (st_symbols s) value)
  end.

(** style/counter.cpp:317-333: [_constructSymbolicCounter].  [(value - 1) % n] is computed on
    64-bit unsigned integers because [n] is a [usize]. *)
Definition construct_symbolic (s : cstyle) (value : Z) : outcome (option (list str)) :=
  match st_symbols s with
  | [] => Ok None
  | _ =>
      let n := len (st_symbols s) in
      let i := ((value - 1) mod 2 ^ 64) mod n in
      omap (fun x => Some (repeat x (Z.to_nat (- ((- value) / n)))))
           (index (st_symbols s) i)
  end.

(** style/counter.cpp:347-354: the loop of [_constructAlphabeticCounter]. *)
Fixpoint alphabetic_loop (fuel : nat) (syms : list str) (value : Z) (acc : list str)
  : outcome (list str) :=
  match fuel with
  | O => OutOfFuel
  | S f =>
      if value =? 0 then Ok acc
      else
        let value := value - 1 in
        obind (index syms (value mod len syms)) (fun x =>
        alphabetic_loop f syms (value / len syms) (x :: acc))
  end.

(** style/counter.cpp:376-381: the loop of [_constructNumericCounter]. *)
Fixpoint numeric_loop (fuel : nat) (syms : list str) (value : Z) (acc : list str)
  : outcome (list str) :=
  match fuel with
  | O => OutOfFuel
  | S f =>
      if value =? 0 then Ok acc
      else
        obind (index syms (value mod len syms)) (fun x =>
        numeric_loop f syms (value / len syms) (x :: acc))
  end.

(** Fuel for the two loops (the loops have no bound in the code). *)
Definition loop_fuel (value : Z) : nat := S (S (Z.to_nat (Z.log2 value))).

(** style/counter.cpp:336-358: [_constructAlphabeticCounter]. *)
Definition construct_alphabetic (s : cstyle) (value : Z) : outcome (option (list str)) :=
  if len (st_symbols s) <? 2 then Ok None
  else if value =? 0 then Ok None
  else omap Some (alphabetic_loop (loop_fuel value) (st_symbols s) value []).

(** style/counter.cpp:361-385: [_constructNumericCounter]. *)
Definition construct_numeric (s : cstyle) (value : Z) : outcome (option (list str)) :=
  if len (st_symbols s) <? 2 then Ok None
  else if value =? 0 then omap (fun x => Some [x]) (index (st_symbols s) value)
  else omap Some (numeric_loop (loop_fuel value) (st_symbols s) value []).

(** style/counter.cpp:418-437: the loop of [_constructAdditiveCounter].  A negative number of
    repetitions, converted to [usize] for [urange::zeroTo], is an astronomically long
    loop that exhausts memory: a [Panic]. *)
Fixpoint additive_loop (tuples : list (Z * str)) (value : Z) (acc : list str)
  : outcome (option (list str)) :=
  match tuples with
  | [] => Ok None
  | (weight, symbol) :: r =>
      if (weight =? 0) || (weight >? value) then additive_loop r value acc
      else
        let reps := Z.quot value weight in
        if reps <? 0 then Panic
        else
          let acc := acc ++ repeat symbol (Z.to_nat reps) in
          let value := value - weight * reps in
          if value =? 0 then Ok (Some acc) else additive_loop r value acc
  end.

(** style/counter.cpp:388-444: [_constructAdditiveCounter]. *)
Definition construct_additive (s : cstyle) (value : Z) : outcome (option (list str)) :=
  match st_additive s with
  | [] => Ok None
  | tuples =>
      if value =? 0 then
        match find (fun t => fst t =? 0) tuples with
        | Some (_, symbol) => Ok (Some [symbol])
        | None => Ok None
        end
      else additive_loop tuples value []
  end.

(** style/counter.cpp:446-473: [_dispatchCounterSystem]; [extends] is [unreachable()]. *)
Definition dispatch_system (s : cstyle) (value : Z) : outcome (option (list str)) :=
  match st_system s with
  | Cyclic => construct_cyclic s value
  | Fixed n => construct_fixed s n value
  | Numeric => construct_numeric s value
  | Alphabetic => construct_alphabetic s value
  | Symbolic => construct_symbolic s value
  | Additive => construct_additive s value
  | Extends _ => Panic
  end.

(** style/counter.cpp:475-504: [_counterDefinedFor]. *)
Definition defined_for (s : cstyle) (value : Z) : option bool :=
  match st_range s with
  | Ranges l =>
      Some (existsb (fun r =>
              match fst r with Some lo => lo <=? value | None => true end
              && match snd r with Some hi => value <=? hi | None => true end) l)
  | Auto => None
  end.

(** Karm [Map::lookup]. *)
Fixpoint lookup {A} (m : list (str * A)) (k : str) : option A :=
  match m with
  | [] => None
  | (k', a) :: r => if str_eqb k' k then Some a else lookup r k
  end.

(** Karm [Map::put]: replaces the value of an existing key, else appends. *)
Fixpoint put {A} (m : list (str * A)) (k : str) (a : A) : list (str * A) :=
  match m with
  | [] => [(k, a)]
  | (k', a') :: r => if str_eqb k' k then (k', a) :: r else (k', a') :: put r k a
  end.

(** Karm [Set::contains]. *)
Definition mem (k : str) (l : list str) : bool := existsb (str_eqb k) l.

(** style/counter.cpp:506-508: [_fallbackToDecimal] ([unwrap] of nothing panics). *)
Definition fallback_to_decimal (cs : list (str * cstyle)) : outcome cstyle :=
  match lookup cs decimal_name with
  | Some s => Ok s
  | None => Panic
  end.

(** style/counter.cpp:510-516: [_lookupCounterOrFallbackToDecimal]. *)
Definition lookup_or_decimal (cs : list (str * cstyle)) (name : str) : outcome cstyle :=
  match lookup cs name with
  | Some s => Ok s
  | None => fallback_to_decimal cs
  end.

(** style/counter.cpp:526-536: [_measureRepresentation]. *)
Definition measure_repr (glen : str -> Z) (repr : list str) : Z :=
  fold_left (fun n s => n + glen s) repr 0.

(** style/counter.cpp:559-566: the [pad] descriptor.  ([CounterPad::operator bool], 150-152: a zero
    length or an empty symbol adds no text either way.) *)
Definition pad_repr (glen : str -> Z) (s : cstyle) (repr : list str) : list str :=
  let n := measure_repr glen repr in
  if negb (st_pad_len s =? 0) && negb (str_eqb (st_pad_sym s) [])
     && (n <? st_pad_len s)
  then repeat (st_pad_sym s) (Z.to_nat (st_pad_len s - n)) ++ repr
  else repr.

(** style/counter.cpp:559-582: steps 4 to 6 of [_dispatchCounterFallback]. *)
Definition finish_repr (glen : str -> Z) (s : cstyle) (value : Z) (repr : list str)
  : list str :=
  let repr := st_prefix s :: pad_repr glen s repr in
  let repr :=
    if value <? 0 then
      (st_neg_pre s :: repr)
        ++ match st_neg_app s with Some a => [a] | None => [] end
    else repr in
  repr ++ [st_suffix s].

(** style/counter.cpp:518-524 and 539-583: [_dispatchToFallbackCounter] and
    [_dispatchCounterFallback], mutually recursive without any bound. *)
Fixpoint dispatch_fallback (glen : str -> Z) (fuel : nat) (cs : list (str * cstyle))
    (s : cstyle) (value : Z) (seen : list str) : outcome (list str) :=
  match fuel with
  | O => OutOfFuel
  | S f =>
      let to_fallback :=
        if mem (st_fallback s) seen then
          obind (fallback_to_decimal cs) (fun d =>
          dispatch_fallback glen f cs d value seen)
        else
          obind (lookup_or_decimal cs (st_fallback s)) (fun s' =>
          dispatch_fallback glen f cs s' value (st_fallback s :: seen)) in
      match defined_for s value with
      | Some false => to_fallback
      | _ =>
          obind (dispatch_system s (Z.abs value)) (fun r =>
          match r with
          | None => to_fallback
          | Some repr => Ok (finish_repr glen s value repr)
          end)
      end
  end.

(** style/counter.cpp:586-590: [constructCounterRepresentation] by name. *)
Definition construct_representation (glen : str -> Z) (fuel : nat)
    (cs : list (str * cstyle)) (name : str) (value : Z) : outcome (list str) :=
  obind (lookup_or_decimal cs name) (fun s =>
  dispatch_fallback glen fuel cs s value [name]).

(** style/counter.cpp:592-595: [constructCounterRepresentation] of an anonymous style. *)
Definition construct_anonymous (glen : str -> Z) (fuel : nat)
    (cs : list (str * cstyle)) (s : cstyle) (value : Z) : outcome (list str) :=
  dispatch_fallback glen fuel cs s value [].

(** style/counter.cpp:224-253: [CounterDescriptors]. *)
Record cdesc := mkDesc {
  d_system : option csystem;
  d_negative : option (str * option str);
  d_prefix : option str;
  d_suffix : option str;
  d_range : option crange;
  d_pad : option (Z * str);
  d_fallback : option str;
  d_symbols : option (list str);
  d_additive : option (list (Z * str))
}.

Definition unwrap_or {A} (o : option A) (d : A) : A :=
  match o with Some a => a | None => d end.

(** style/counter.cpp:255-268: [CounterDescriptors::extends]. *)
Definition desc_extends (d : cdesc) (o : cstyle) : cstyle := {|
  st_system := unwrap_or (d_system d) (st_system o);
  st_neg_pre := fst (unwrap_or (d_negative d) (st_neg_pre o, st_neg_app o));
  st_neg_app := snd (unwrap_or (d_negative d) (st_neg_pre o, st_neg_app o));
  st_prefix := unwrap_or (d_prefix d) (st_prefix o);
  st_suffix := unwrap_or (d_suffix d) (st_suffix o);
  st_range := unwrap_or (d_range d) (st_range o);
  st_pad_len := fst (unwrap_or (d_pad d) (st_pad_len o, st_pad_sym o));
  st_pad_sym := snd (unwrap_or (d_pad d) (st_pad_len o, st_pad_sym o));
  st_fallback := unwrap_or (d_fallback d) (st_fallback o);
  st_symbols := unwrap_or (d_symbols d) (st_symbols o);
  st_additive := unwrap_or (d_additive d) (st_additive o)
|}.

Definition set_system (s : cstyle) (y : csystem) : cstyle := {|
  st_system := y;
  st_neg_pre := st_neg_pre s; st_neg_app := st_neg_app s;
  st_prefix := st_prefix s; st_suffix := st_suffix s;
  st_range := st_range s;
  st_pad_len := st_pad_len s; st_pad_sym := st_pad_sym s;
  st_fallback := st_fallback s;
  st_symbols := st_symbols s; st_additive := st_additive s
|}.

(** style/counter.cpp:606-633: the closure [resolveOne] of [resolveExtends]; it updates
    [resolved] and [seen] and returns a style. *)
Fixpoint resolve_one (fuel : nat) (cs : list (str * cdesc))
    (resolved : list (str * cstyle)) (seen : list str) (name : str)
  : outcome (cstyle * list (str * cstyle) * list str) :=
  match fuel with
  | O => OutOfFuel
  | S f =>
      match lookup resolved name with
      | Some s => Ok (s, resolved, seen)
      | None =>
          if mem name seen then Ok (initial_style, resolved, seen)
          else
            match lookup cs name with
            | None => Ok (initial_style, resolved, seen)
            | Some desc =>
                let seen := name :: seen in
                match d_system desc with
                | Some (Extends ext) =>
                    obind (resolve_one f cs resolved seen ext) (fun '(base, resolved, seen) =>
                    let s := set_system (desc_extends desc base) (st_system base) in
                    Ok (s, put resolved name s, seen))
                | _ =>
                    let s := desc_extends desc initial_style in
                    Ok (s, put resolved name s, seen)
                end
            end
      end
  end.

(** style/counter.cpp:635-638: the loop over all the keys of [resolveExtends]. *)
Fixpoint resolve_all (fuel : nat) (cs : list (str * cdesc)) (keys : list str)
    (resolved : list (str * cstyle)) : outcome (list (str * cstyle)) :=
  match keys with
  | [] => Ok resolved
  | k :: r =>
      obind (resolve_one fuel cs resolved [] k) (fun '(_, resolved, _) =>
      resolve_all fuel cs r resolved)
  end.

(** style/counter.cpp:604-641: [resolveExtends]. *)
Definition resolve_extends (fuel : nat) (cs : list (str * cdesc))
  : outcome (list (str * cstyle)) :=
  resolve_all fuel cs (map fst cs) [].

(** computer.cpp:480-493: [_resolveCounterStyle]; the rules of all the sheets, each with its
    name and its descriptors already applied in order. *)
Definition resolve_counter_style (fuel : nat) (rules : list (str * cdesc))
  : outcome (list (str * cstyle)) :=
  resolve_extends fuel (fold_left (fun m r => put m (fst r) (snd r)) rules []).

(** * Counter sets *)

(** style/counter.cpp:19-28: [Counter]; elements are identified by a number. *)
Record counter := mkCounter {
  c_name : str;
  c_el : nat;
  c_reversed : bool;
  c_value : Z
}.

(** values/counter.cpp:178-203: [CounterProps].  The initial value of [counter-reset] is always
    present: [ValueParser<Reset>] (205-226) requires an integer. *)
Record creset := mkReset { r_name : str; r_reversed : bool; r_value : Z }.

Record cops := mkOps {
  o_reset : list creset;
  o_increment : list (str * option Z);
  o_set : list (str * option Z);
  o_item : bool   (** [style.display == Display::Item::YES] *)
}.

(** style/counter.cpp:107-112: [CounterSet::contains]. *)
Definition cset_contains (s : list counter) (name : str) (el : nat) : bool :=
  existsb (fun c => str_eqb (c_name c) name && Nat.eqb (c_el c) el) s.

(** style/counter.cpp:33-56: [CounterSet::inherits]. *)
Definition inherits (parent sibling : list counter) : list counter :=
  let source := match sibling with [] => parent | _ => sibling end in
  filter (fun c => cset_contains source (c_name c) (c_el c)) sibling.

(** style/counter.cpp:114-125: [CounterSet::innerMost] (the counter and its index). *)
Fixpoint inner_most_from (i : nat) (s : list counter) (name : str)
  : option (nat * counter) :=
  match s with
  | [] => None
  | c :: r =>
      match inner_most_from (S i) r name with
      | Some x => Some x
      | None => if str_eqb (c_name c) name then Some (i, c) else None
      end
  end.
Definition inner_most := inner_most_from 0.

(** Karm [Vec::removeAt]. *)
Definition remove_at {A} (i : nat) (l : list A) : list A := firstn i l ++ skipn (S i) l.

(** style/counter.cpp:59-73: [CounterSet::instantiateCounter]. *)
Definition instantiate (el : nat) (name : str) (reversed : bool) (initial : Z)
    (s : list counter) : list counter :=
  let s :=
    match inner_most s name with
    | Some (i, c) => if Nat.eqb (c_el c) el then remove_at i s else s
    | None => s
    end in
  s ++ [mkCounter name el reversed initial].

(** Writing through the reference returned by [innerMost]. *)
Fixpoint update_inner (s : list counter) (name : str) (f : counter -> Z) : list counter :=
  match s with
  | [] => []
  | c :: r =>
      match inner_most r name with
      | Some _ => c :: update_inner r name f
      | None =>
          if str_eqb (c_name c) name
          then mkCounter (c_name c) (c_el c) (c_reversed c) (f c) :: r
          else c :: r
      end
  end.

Definition ensure (el : nat) (name : str) (s : list counter) : list counter :=
  match inner_most s name with
  | Some _ => s
  | None => instantiate el name false 0 s
  end.

(** style/counter.cpp:76-87: [CounterSet::increment]. *)
Definition increment (el : nat) (i : str * option Z) (s : list counter) : list counter :=
  update_inner (ensure el (fst i) s) (fst i)
    (fun c => c_value c + (if c_reversed c then -1 else 1) * unwrap_or (snd i) 1).

(** style/counter.cpp:90-101: [CounterSet::set]. *)
Definition cset (el : nat) (i : str * option Z) (s : list counter) : list counter :=
  update_inner (ensure el (fst i) s) (fst i) (fun _ => unwrap_or (snd i) 0).

(** style/counter.cpp:127-132: [CounterSet::innerMostValue]. *)
Definition inner_most_value (s : list counter) (name : str) : Z :=
  match inner_most s name with
  | Some (_, c) => c_value c
  | None => 0
  end.

Definition list_item : str := of_string "list-item".

(** computer.cpp:98-128: [_resolveCounter]. *)
Definition resolve_counter (parent sibling : list counter) (el : nat) (o : cops)
  : list counter :=
  let s := inherits parent sibling in
  let s := fold_left (fun s r => instantiate el (r_name r) (r_reversed r) (r_value r) s)
             (o_reset o) s in
  let s :=
    match o_increment o with
    | [] => if o_item o then increment el (list_item, Some 1) s else s
    | l => fold_left (fun s i => increment el i s) l s
    end in
  fold_left (fun s i => cset el i s) (o_set o) s.

(** The element children of an element, with their counter properties (the text nodes are
    skipped by the loop at computer.cpp:139-140). *)
Inductive celem := CElem (id : nat) (ops : cops) (children : list celem).

Definition ce_id (e : celem) : nat := match e with CElem i _ _ => i end.
Definition ce_ops (e : celem) : cops := match e with CElem _ o _ => o end.
Definition ce_children (e : celem) : list celem := match e with CElem _ _ c => c end.

(** computer.cpp:130-151: [_resolveCounters]; returns the counters of [el] and the
    assignments [childEl->counters = ...] in the order in which they are made. *)
Fixpoint resolve_counters (parent sibling : list counter) (e : celem)
  : list counter * list (nat * list counter) :=
  match e with
  | CElem id ops children =>
      let cur := resolve_counter parent sibling id ops in
      let fix go (sib : list counter) (l : list celem) : list (nat * list counter) :=
        match l with
        | [] => []
        | c :: r =>
            let '(s, log) := resolve_counters cur sib c in
            log ++ (ce_id c, s) :: go s r
        end in
      (cur, go [] children)
  end.

(** computer.cpp:501-512: the call in [styleDocument]: the counters stored on each element
    below the root element (which itself keeps the empty set). *)
Definition style_counters (root : celem) : list (nat * list counter) :=
  snd (resolve_counters [] [] root).
