(** What a registry of properties has to satisfy, and which declarations count. *)
From Coq Require Import String List NArith Bool.
From Verif.Base Require Import Str Outcome.
From Verif.Css Require Import LexerModel ParserModel.
From Verif.Values Require Import CalcModel.
From Verif.Style Require Import CascadeModel CascadeSpec.
From Verif.Props Require Import VarModel EngineModel.
Import ListNotations.
Local Open Scope list_scope.

Section Spec.
Context {V field : Type} (V_eqb : V -> V -> bool).
Local Notation registration := (registration V field).
Local Notation computed := (computed V field).
Local Notation prop := (prop V field).
Local Notation registry := (registry V field).
Local Notation matched := (matched V field).

(** Names are given once and not to aliases or custom properties; properties other than custom
    ones leave custom properties alone. *)
Record good (g : registry) : Prop := {
  good_names : NoDup (map r_name (g_props g));
  good_alias : forall q, In q (g_props g) -> lookup (g_alias g) (r_name q) = None;
  good_target : forall n m, lookup (g_alias g) n = Some m -> lookup (g_alias g) m = None;
  good_phase : forall q, In q (g_props g) -> r_phase q <> CUSTOM_PROPERTY;
  good_apply : forall q v p c, In q (g_props g) -> c_custom (r_apply q v p c) = c_custom c;
  good_inherit : forall q p c, In q (g_props g) -> c_custom (r_inherit q p c) = c_custom c;
}.

(** [r] is a longhand whose value is the member [f] of the computed values, computed from the
    value declared and the parent by [res]. The only other properties that change [f] are its
    [rivals], and their initial value is that of [r]. *)
Record owns (g : registry) (rivals : list str) (r : registration) (f : field) (res : val V -> computed -> val V) : Prop := {
  owns_in : In r (g_props g);
  owns_self : ~ In (r_name r) rivals;
  owns_long : r_short r = None;
  owns_load : forall c, r_load r c = c_get c f;
  owns_apply : forall v p c, c_get (r_apply r v p c) f = res v p;
  owns_inherit : r_inherited r = true -> forall p c, c_get (r_inherit r p c) f = c_get p f;
  owns_initial : forall p p', res (r_initial r) p = res (r_initial r) p';
  owns_frame : forall q v p c, In q (g_props g) -> r_name q <> r_name r -> ~ In (r_name q) rivals ->
    c_get (r_apply q v p c) f = c_get c f;
  owns_rival : forall q p c, In q (g_props g) -> In (r_name q) rivals ->
    c_get (r_apply q (r_initial q) p c) f = res (r_initial r) p;
  owns_frame_inherit : forall q p c, In q (g_props g) -> r_inherited q = true -> r_name q <> r_name r ->
    c_get (r_inherit q p c) f = c_get c f;
}.

(** The property was made by reading a declaration with this registry. *)
Definition made_by (g : registry) (p : prop) : Prop :=
  forall q, prop_reg p = Some q -> resolve g (r_name q) = Some q.

(** The longhand declarations that a matched declaration stands for, once the custom properties
    of the element are known ([child]). *)
Definition ex (g : registry) (parent child : computed) (p : prop) : option (list (str * prop)) :=
  if is_short p then
    match expansion g p parent child with
    | Ok ps => Some (map (fun p => (prop_name p, p)) ps)
    | _ => None
    end
  else None.
Definition declared (g : registry) (parent child : computed) (m : matched)
  : property prop * origin * specificity :=
  (mkProp (prop_name (m_prop m)) (m_prop m) (m_important m) (is_bogus (m_prop m)) (ex g parent child (m_prop m)),
   m_origin m, m_spec m).

(** What an element has when nothing is said: the value of the parent or the initial one. *)
Definition unset (r : registration) (f : field) (res : val V -> computed -> val V) (parent : computed) : val V :=
  if r_inherited r then c_get parent f else res (r_initial r) parent.

(** The value that [toggle()] stands for: the one after the parent's value, else the first. *)
Fixpoint after_parent (res : val V -> computed -> val V) (pv : val V) (vs : list (val V)) (parent : computed) : option (val V) :=
  match vs with
  | v :: ((w :: _) as r) => if val_eqb V_eqb pv (res v parent) then Some w else after_parent res pv r parent
  | _ => None
  end.

(** The value that a property gives to [f], when it is the one that counts. *)
Definition used (r : registration) (f : field) (res : val V -> computed -> val V) (p : prop)
  (parent child : computed) : option (val V) :=
  match p with
  | Parsed _ v => Some (res v parent)
  | Deferred _ c =>
    match expand_content (c_custom child) c with
    | Some out => match fst (r_parse r (eat_wss out)) with
                  | Some v => Some (res v parent)
                  | None => Some (unset r f res parent)
                  end
    | None => Some (unset r f res parent)
    end
  | Defaulted _ D_INITIAL => Some (res (r_initial r) parent)
  | Defaulted _ D_INHERIT => Some (res (c_get parent f) parent)
  | Defaulted _ D_UNSET => Some (if r_inherited r then res (c_get parent f) parent else res (r_initial r) parent)
  | Defaulted _ D_REVERT => None
  | Toggle _ [] => Some (unset r f res parent)
  | Toggle _ (v :: vs) =>
    Some (res (match after_parent res (c_get parent f) (v :: vs) parent with Some w => w | None => v end) parent)
  | Bogus _ => None
  end.

(** The longhands of shorthands are registered longhands. *)
Definition closed (g : registry) : Prop :=
  forall q fn v n w, In q (g_props g) -> r_short q = Some fn -> In (n, w) (fn v) ->
  exists r, resolve g n = Some r /\ r_short r = None.

(** [revert] is not used. *)
Definition no_revert (p : prop) : Prop := forall q, p <> Defaulted q D_REVERT.

(** A declaration of a custom property. *)
Definition is_custom (g : registry) (p : prop) : bool :=
  match resolve g (prop_name p) with Some r => phase_beq (r_phase r) CUSTOM_PROPERTY | None => false end.

(** The elements on a path downwards, each with its declarations and its values. *)
Fixpoint along (t : styled V field) (r : result V field) (path : list nat) : option (list (list matched * computed)) :=
  match t, r with
  | Styled ms ts, Result c rs =>
    match path with
    | [] => Some [(ms, c)]
    | i :: path' =>
      match nth_error ts i, nth_error rs i with
      | Some t', Some r' => option_map (cons (ms, c)) (along t' r' path')
      | _, _ => None
      end
    end
  end.

(** Reading a value takes at least one component from the input. *)
Definition takes_some {A} (p : list sst -> option A * list sst) : Prop :=
  forall c v c', c <> [] -> p c = (Some v, c') -> (List.length c' < List.length c)%nat.
(** The same, and what is left after a failure is not longer. *)
Definition consumes {A} (p : list sst -> option A * list sst) : Prop :=
  takes_some p /\ forall c, (List.length (snd (p c)) <= List.length c)%nat.

End Spec.
