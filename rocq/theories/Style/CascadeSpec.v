(** Specification of the cascade, independent of the algorithm.

    A declaration list is seen as the list of longhand declarations it stands for; the
    cascaded value of a longhand is the value of the strongest declaration for it, and of
    the last one written among equally strong ones. *)
From Coq Require Import List ZArith.
From Verif.Base Require Import Str.
From Verif.Style Require Import CascadeModel.
Import ListNotations.

(** The strength of a declaration: importance, origin, and specificity. *)
Record weight := mkWeight { w_important : bool; w_origin : origin; w_spec : specificity }.

(** Specificity: lexicographic order on (ids, classes, types). *)
Definition spec_lt (x y : specificity) : Prop :=
  (sp_a x < sp_a y \/
   sp_a x = sp_a y /\ (sp_b x < sp_b y \/
   sp_b x = sp_b y /\ sp_c x < sp_c y))%Z.

(** Origins of declarations, weakest first. *)
Definition origins_ascending : list origin :=
  [USER_AGENT; USER; AUTHOR_PRESENTATIONAL_HINT; AUTHOR; INLINE].

(** [x] is weaker than [y]: it comes earlier in that list. *)
Definition origin_lt (x y : origin) : Prop :=
  exists l1 l2 l3, origins_ascending = l1 ++ x :: l2 ++ y :: l3.

Definition weaker (x y : weight) : Prop :=
  (w_important x = false /\ w_important y = true) \/
  (w_important x = w_important y /\
    (origin_lt (w_origin x) (w_origin y) \/
     (w_origin x = w_origin y /\ spec_lt (w_spec x) (w_spec y)))).

(** The longhand declarations a declaration list stands for, in order of appearance:
    invalid (bogus) declarations stand for nothing, a shorthand stands for its longhands. *)
Definition longhands_of {V} (d : property V * origin * specificity)
  : list (str * (weight * V)) :=
  let '(p, o, s) := d in
  if p_bogus p then []
  else let w := mkWeight (p_important p) o s in
       match p_expansion p with
       | None => [(p_name p, (w, p_value p))]
       | Some l => map (fun nv => (fst nv, (w, snd nv))) l
       end.

Definition all_longhands {V} (ds : list (property V * origin * specificity)) :=
  flat_map longhands_of ds.

(** [v] wins for longhand [n]: the list of declarations splits as [l1 ++ d :: l2] where [d]
    declares [v] for [n], nothing declared for [n] before is stronger, and everything
    declared for [n] afterwards is strictly weaker. *)
Definition wins {V} (ls : list (str * (weight * V))) (n : str) (v : V) : Prop :=
  exists l1 w l2, ls = l1 ++ (n, (w, v)) :: l2 /\
    (forall w' v', In (n, (w', v')) l1 -> ~ weaker w w') /\
    (forall w' v', In (n, (w', v')) l2 -> weaker w' w).

(** Well-formed declaration lists: a name is either a shorthand or a longhand name, two
    declarations of the same shorthand set the same longhands, each at most once, and the longhands of a
    shorthand are not shorthands (this is a fact about the property registry, props/*.cpp). *)
Definition well_formed {V} (ds : list (property V * origin * specificity)) : Prop :=
  exists longhands : str -> option (list str),
    (forall p o s, In (p, o, s) ds -> p_bogus p = false ->
       option_map (map fst) (p_expansion p) = longhands (p_name p)) /\
    (forall n l m, longhands n = Some l -> In m l -> longhands m = None) /\
    (forall n l, longhands n = Some l -> NoDup l).
