(** Model of the cascade.
    Sources: /repo/src/vaev-engine/style/cascaded.cpp (whole file),
    style/selector.cpp:1148-1196 (Specificity), style/origin.cpp:10-26,
    css/parser.cpp:21-24 (Important).

    A declared value is an abstract [V]; a shorthand property carries the list of
    (longhand name, value) pairs its [expandShorthand] returns. *)
From Coq Require Import List ZArith Bool Arith.
From Verif.Base Require Import Str.
Import ListNotations.

(** style/selector.cpp:1148-1158 [struct Specificity { isize a, b, c; }]. *)
Record specificity := mkSpec { sp_a : Z; sp_b : Z; sp_c : Z }.

(** style/selector.cpp:1160-1166 [operator+]. *)
Definition spec_add (x y : specificity) : specificity :=
  mkSpec (sp_a x + sp_a y)%Z (sp_b x + sp_b y)%Z (sp_c x + sp_c y)%Z.

(** style/selector.cpp:1198-1201 *)
Definition spec_zero := mkSpec 0 0 0.
Definition spec_A := mkSpec 1 0 0.
Definition spec_B := mkSpec 0 1 0.
Definition spec_C := mkSpec 0 0 1.

(** style/selector.cpp:1191 defaulted [operator<=>]: member-wise, in declaration order. *)
Definition spec_cmp (x y : specificity) : comparison :=
  match Z.compare (sp_a x) (sp_a y) with
  | Eq => match Z.compare (sp_b x) (sp_b y) with
          | Eq => Z.compare (sp_c x) (sp_c y)
          | c => c
          end
  | c => c
  end.

(** style/selector.cpp:1176-1180 [operator or]. *)
Definition spec_or (x y : specificity) : specificity :=
  match spec_cmp x y with Gt => x | _ => y end.

(** style/origin.cpp:10-18: the enumerators in order; the underlying value is the rank. *)
Inductive origin := USER_AGENT | USER | AUTHOR_PRESENTATIONAL_HINT | AUTHOR | INLINE.

(** style/origin.cpp:20-22 [operator<=>] compares underlying values. *)
Definition origin_rank (o : origin) : nat :=
  match o with
  | USER_AGENT => 0 | USER => 1 | AUTHOR_PRESENTATIONAL_HINT => 2 | AUTHOR => 3 | INLINE => 4
  end.

(** css/parser.cpp:21-24 [enum struct Important { UNSET, YES }]. *)
Definition important_rank (b : bool) : nat := if b then 1 else 0.

Section Cascade.
  Context {V : Type}.

  (** props/base.cpp:74-252 [Property]: the parts the cascade looks at. [p_expansion] is
      [Some] exactly for properties with SHORTHAND_PROPERTY (base.cpp:233-235), holding what
      [expandShorthand] (base.cpp:201) returns.  Simplification: the expansion is given with the
      property rather than computed from the parent and child computed values. *)
  Record property := mkProp {
    p_name : str;
    p_value : V;
    p_important : bool;
    p_bogus : bool;
    p_expansion : option (list (str * V));
  }.

  (** style/cascaded.cpp:18-23 [struct Entry]. *)
  Record entry := mkEntry {
    e_value : V;
    e_expansion : option (list (str * V));
    e_important : bool;
    e_origin : origin;
    e_spec : specificity;
    e_order : nat;
  }.

  (** style/cascaded.cpp:25-33 [Entry::operator<=>]. *)
  Definition entry_cmp (x y : entry) : comparison :=
    match Nat.compare (important_rank (e_important x)) (important_rank (e_important y)) with
    | Eq => match Nat.compare (origin_rank (e_origin x)) (origin_rank (e_origin y)) with
            | Eq => match spec_cmp (e_spec x) (e_spec y) with
                    | Eq => Nat.compare (e_order x) (e_order y)
                    | c => c
                    end
            | c => c
            end
    | c => c
    end.

  Definition entry_geb (x y : entry) : bool :=
    match entry_cmp x y with Lt => false | _ => true end.

  (** style/cascaded.cpp:36 [Map<Symbol, Entry> _entries]: association list in insertion
      order (Karm [Map]). *)
  Definition entries := list (str * entry).

  Fixpoint lookup {A} (m : list (str * A)) (n : str) : option A :=
    match m with
    | [] => None
    | (k, e) :: m' => if str_eqb k n then Some e else lookup m' n
    end.

  (** style/cascaded.cpp:39-45 [_putLonghand]: [lookupOrPutDefault], then overwrite when the
      new entry compares [>=] with the existing one. *)
  Fixpoint put_longhand (m : entries) (n : str) (e : entry) : entries :=
    match m with
    | [] => [(n, e)]
    | (k, x) :: m' =>
        if str_eqb k n then (k, if entry_geb e x then e else x) :: m'
        else (k, x) :: put_longhand m' n e
    end.

  (** style/cascaded.cpp:36-37: the state of [CascadedValues]. *)
  Record cascaded := mkCascaded { c_entries : entries; c_order : nat }.
  Definition cascaded_empty := mkCascaded [] 0.

  (** style/cascaded.cpp:47-52 [put]. *)
  Definition put (c : cascaded) (p : property) (o : origin) (s : specificity) : cascaded :=
    if p_bogus p then c
    else mkCascaded
           (put_longhand (c_entries c) (p_name p)
              (mkEntry (p_value p) (p_expansion p) (p_important p) o s (c_order c)))
           (S (c_order c)).

  (** Karm [Map::remove]. *)
  Fixpoint map_remove (m : entries) (n : str) : entries :=
    match m with
    | [] => []
    | (k, e) :: m' => if str_eqb k n then m' else (k, e) :: map_remove m' n
    end.

  (** style/cascaded.cpp:69-71: the inner loop over the longhands of one shorthand. *)
  Definition put_expansion (e : entry) (m : entries) (l : list (str * V)) : entries :=
    fold_left (fun m nv =>
      put_longhand m (fst nv)
        (mkEntry (snd nv) None (e_important e) (e_origin e) (e_spec e) (e_order e))) l m.

  (** style/cascaded.cpp:66-72: the loop over the collected shorthand entries. *)
  Definition expand_one (m : entries) (ne : str * entry) : entries :=
    match e_expansion (snd ne) with
    | Some l => put_expansion (snd ne) (map_remove m (fst ne)) l
    | None => m
    end.

  (** style/cascaded.cpp:61-64: entries whose property is a shorthand. *)
  Definition is_shorthand (ne : str * entry) : bool :=
    match e_expansion (snd ne) with Some _ => true | None => false end.

  (** style/cascaded.cpp:59-73 [expandShorthands]. *)
  Definition expand_shorthands (c : cascaded) : cascaded :=
    mkCascaded (fold_left expand_one (filter is_shorthand (c_entries c)) (c_entries c))
               (c_order c).

  (** style/computer.cpp:358-381: all matched declarations are [put] in turn, then
      shorthands are expanded. *)
  Definition cascade (ds : list (property * origin * specificity)) : cascaded :=
    expand_shorthands
      (fold_left (fun c d => put c (fst (fst d)) (snd (fst d)) (snd d)) ds cascaded_empty).
End Cascade.
Arguments property : clear implicits.
Arguments entry : clear implicits.
Arguments cascaded : clear implicits.
