(** From declarations to computed values: props/base.cpp and the part of style/computer.cpp
    that computes the values of an element. The properties themselves (props/*.cpp) are
    described by [registration]; BoxPropModel.v has those of margins, paddings and borders. *)
From Coq Require Import String List NArith Bool.
From Verif.Base Require Import Str Outcome.
From Verif.Css Require Import LexerModel ParserModel.
From Verif.Values Require Import CalcModel.
From Verif.Style Require Import CascadeModel.
From Verif.Props Require Import VarModel.
Import ListNotations.
Local Open Scope list_scope.

(** props/base.cpp:104-125 [ComputationPhase] *)
Inductive phase := CUSTOM_PROPERTY | PRE_FONT | FONT | NORMAL | LATE.
Scheme Equality for phase.

(** props/base.cpp:483-490 [Default] *)
Inductive default := D_INITIAL | D_INHERIT | D_UNSET | D_REVERT.

Section Engine.
(** [V]: the values that properties other than custom ones have. [field]: the members of
    [ComputedValues]. *)
Context {V field : Type} (field_eqb : field -> field -> bool) (V_eqb : V -> V -> bool).

(** The value of a property: a content for custom properties (props/base.cpp:305). *)
Inductive val := Content (c : list sst) | Value (v : V).

(** style/computed.cpp:39-99 [ComputedValues]. *)
Record computed := mkC { c_get : field -> val; c_custom : env }.

Definition set_field (c : computed) (f : field) (v : val) : computed :=
  mkC (fun g => if field_eqb g f then v else c_get c g) (c_custom c).

(** A parser gets the rest of the content and returns what it read, if anything, and the
    content that is left: cursors are passed by reference. *)
Definition parser (A : Type) := list sst -> option A * list sst.

(** props/base.cpp:134-194 [Registration], and [apply] or [expandShorthand] of the property
    that it makes (201-212). [r_short] is there exactly for SHORTHAND_PROPERTY; it gives names and
    values of the longhands. [ComputationContext], on which font-size alone depends, is left out:
    it is determined by the parent, the root and the viewport. *)
Record registration := mkR {
  r_name : str;
  r_inherited : bool;
  r_phase : phase;
  r_initial : val;
  r_load : computed -> val;
  r_inherit : computed -> computed -> computed;
  r_parse : parser val;
  r_apply : val -> computed -> computed -> computed;
  r_short : option (val -> list (str * val));
}.

(** props/base.cpp:258-315 [CustomProperty]. Its [inherit] (286-289) is not called, since the
    custom properties are inherited all at once (697). *)
Definition content_of (v : val) : list sst := match v with Content c => c | Value _ => [] end.
Definition invalid_content : list sst := [TOK (mkT GUARANTEED_INVALID [])].
Definition custom_registration (n : str) : registration :=
  mkR n true CUSTOM_PROPERTY (Content invalid_content)
    (fun c => Content (match lookup (c_custom c) n with Some x => x | None => [] end))
    (fun parent child =>
       match lookup (c_custom parent) n with
       | Some x => mkC (c_get child) (set_custom (c_custom child) n x)
       | None => child
       end)
    (fun c => (Some (Content c), []))
    (fun v parent child => mkC (c_get child) (set_custom (c_custom child) n (content_of v)))
    None.

(** The properties that declarations make: props/base.cpp:199-252, with a parsed value, 367-479
    [DeferredProperty], 492-555 [DefaultedProperty], 321-361 [ToggleProperty], 559-601
    [BogusProperty]. *)
Inductive prop :=
| Parsed (r : registration) (v : val)
| Deferred (r : registration) (c : list sst)
| Defaulted (r : registration) (d : default)
| Toggle (r : registration) (vs : list val)
| Bogus (n : str).

Definition prop_name (p : prop) : str :=
  match p with
  | Parsed r _ | Deferred r _ | Defaulted r _ | Toggle r _ => r_name r
  | Bogus n => n
  end.
Definition prop_reg (p : prop) : option registration :=
  match p with
  | Parsed r _ | Deferred r _ | Defaulted r _ | Toggle r _ => Some r
  | Bogus _ => None
  end.

(** ** Reading declarations *)

(** props/base.cpp:607-609 [_legacyAlias] and [_registrations]. *)
Record registry := mkG { g_alias : list (str * str); g_props : list registration }.

Fixpoint find_reg (l : list registration) (n : str) : option registration :=
  match l with
  | [] => None
  | r :: l' => if str_eqb (r_name r) n then Some r else find_reg l' n
  end.

Fixpoint starts_with (p s : str) : bool :=
  match p, s with
  | [], _ => true
  | x :: p', y :: s' => N.eqb x y && starts_with p' s'
  | _, _ => false
  end.

(** props/base.cpp:651-671 [resolveRegistration] with the options of [TOP_LEVEL] (618). The
    registration of a custom property is made on first use (660-663) and is then found
    (657-658): it is the same either way. *)
Definition resolve (g : registry) (n : str) : option registration :=
  let n' := match lookup (g_alias g) n with Some m => m | None => n end in
  match find_reg (g_props g) n' with
  | Some r => Some r
  | None => if starts_with (of_string "--") n' then Some (custom_registration n') else None
  end.

(** props/base.cpp:719-734 [_parseDefaulted] *)
Definition is_ident (k : string) (s : sst) : bool :=
  match s with TOK t => token_eqb t (mkT IDENT (of_string k)) | _ => false end.
Definition parse_defaulted (c : list sst) : option default :=
  match c with
  | [] => None
  | s :: _ =>
    if is_ident "initial" s then Some D_INITIAL
    else if is_ident "inherit" s then Some D_INHERIT
    else if is_ident "unset" s then Some D_UNSET
    else if is_ident "revert" s then Some D_REVERT
    else None
  end.

(** values/base.cpp:16-21 [skipOmmitableComma] *)
Definition skip_comma (c : list sst) : list sst :=
  let c := eat_wss c in
  match c with
  | s :: r => if is_type COMMA s then eat_wss r else c
  | [] => []
  end.

(** props/base.cpp:745-748: the loop of [_parseToggle]. [Ok None] is an error. *)
Fixpoint toggle_loop (fuel : nat) (r : registration) (c : list sst) : outcome (option (list val)) :=
  match c with
  | [] => Ok (Some [])
  | _ =>
    match fuel with
    | O => OutOfFuel
    | S fuel =>
      match r_parse r c with
      | (None, _) => Ok None
      | (Some v, c') =>
        match toggle_loop fuel r (skip_comma c') with
        | Ok (Some vs) => Ok (Some (v :: vs))
        | x => x
        end
      end
    end
  end.

(** props/base.cpp:736-751 [_parseToggle] *)
Definition toggle_name : token := mkT FUNCTION (of_string "toggle(").
Definition parse_toggle (fuel : nat) (r : registration) (c : list sst) : outcome (option (list val)) :=
  match c with
  | FUNC n content :: _ => if token_eqb n toggle_name then toggle_loop fuel r content else Ok None
  | _ => Ok None
  end.

(** props/base.cpp:757-788 [parseValue] with the options of [TOP_LEVEL]; what follows a
    defaulting keyword or a toggle is not looked at (765-771). *)
Definition parse_value (fuel : nat) (g : registry) (n : str) (content : list sst) : outcome prop :=
  match resolve g n with
  | None => Ok (Bogus n)
  | Some r =>
    let c := eat_wss content in
    match parse_defaulted c with
    | Some d => Ok (Defaulted r d)
    | None =>
      match parse_toggle fuel r c with
      | Panic => Panic
      | OutOfFuel => OutOfFuel
      | Ok (Some vs) => Ok (Toggle r vs)
      | Ok None =>
        match r_parse r c with
        | (Some v, c') => match eat_wss c' with [] => Ok (Parsed r v) | _ => Ok (Deferred r content) end
        | (None, _) => Ok (Deferred r content)
        end
      end
    end
  end.

(** A declaration in a style sheet: its name, its value as the parser of CSS read it
    (css/parser.cpp:344-373) and its importance. *)
Record decl := mkD { d_name : str; d_content : list sst; d_important : bool }.

(** props/base.cpp:799-831 [parseDeclaration], [parseDeclarations] *)
Fixpoint parse_decls (fuel : nat) (g : registry) (ds : list decl) : outcome (list (prop * bool)) :=
  match ds with
  | [] => Ok []
  | d :: ds' =>
    obind (parse_value fuel g (d_name d) (d_content d)) (fun p =>
    obind (parse_decls fuel g ds') (fun ps => Ok ((p, d_important d) :: ps)))
  end.

(** ** Applying properties *)

(** props/base.cpp:441-457 [_expandProperty]: what follows the value is not looked at. *)
Definition expand_property (r : registration) (c : list sst) (child : computed) : option val :=
  match expand_content (c_custom child) c with
  | None => None
  | Some out => fst (r_parse r (eat_wss out))
  end.

Definition sst_list_eqb : list sst -> list sst -> bool :=
  let token_same a b := ttype_beq (t_type a) (t_type b) && str_eqb (t_data a) (t_data b) in
  fix eqb (a b : list sst) : bool :=
    match a, b with
    | [], [] => true
    | TOK x :: a', TOK y :: b' => token_same x y && eqb a' b'
    | _, _ => false
    end.
(** props/base.cpp:246-251 [operator==] compares what properties print. For contents: token by
    token; nested values are taken to differ. *)
Definition val_eqb (a b : val) : bool :=
  match a, b with
  | Value x, Value y => V_eqb x y
  | Content x, Content y => sst_list_eqb x y
  | _, _ => false
  end.

(** props/base.cpp:220-227 [computedValue]: the value, and the child, whose own value has been
    put back. *)
Definition computed_value (r : registration) (v : val) (parent child : computed) : val * computed :=
  let save := r_load r child in
  let child1 := r_apply r v parent child in
  (r_load r child1, r_apply r save parent child1).

(** props/base.cpp:349-354: the loop over the values of a toggle; the index that is reached,
    one more than that of the value that equals the parent's if there is one. *)
Fixpoint toggle_index (r : registration) (pv : val) (vs : list val) (i : nat) (parent child : computed)
  : nat * computed :=
  match vs with
  | [] => (i, child)
  | v :: vs' =>
    let '(cv, child') := computed_value r v parent child in
    if val_eqb pv cv then (S i, child') else toggle_index r pv vs' (S i) parent child'
  end.

(** props/base.cpp:502-508 and 526-541: the value that a defaulting keyword stands for; [revert] is [unreachable()]. *)
Definition default_value (r : registration) (d : default) (parent : computed) : outcome val :=
  match d with
  | D_INITIAL => Ok (r_initial r)
  | D_INHERIT => Ok (r_load r parent)
  | D_UNSET => Ok (if r_inherited r then r_load r parent else r_initial r)
  | D_REVERT => Panic
  end.

(** [apply]: props/base.cpp:344-356, 469-474, 522-545. The default of [Property::apply] ends the
    program (214-216); a shorthand or a bogus property comes there. *)
Definition apply (p : prop) (parent child : computed) : outcome computed :=
  match p with
  | Bogus _ => Panic
  | Parsed r v => match r_short r with None => Ok (r_apply r v parent child) | Some _ => Panic end
  | Deferred r c =>
    match expand_property r c child with
    | None => Ok child
    | Some v => match r_short r with None => Ok (r_apply r v parent child) | Some _ => Panic end
    end
  | Defaulted r d =>
    obind (default_value r d parent) (fun v =>
    match r_short r with None => Ok (r_apply r v parent child) | Some _ => Panic end)
  | Toggle r vs =>
    match vs with
    | [] => Ok child
    | _ =>
      let '(i, child') := toggle_index r (r_load r parent) vs 0 parent child in
      match r_short r with
      | None => Ok (r_apply r (nth (Nat.modulo i (List.length vs)) vs (r_initial r)) parent child')
      | Some _ => Panic
      end
    end
  end.

(** The longhands of a shorthand: [resolveRegistration(...).unwrap()], props/margin.cpp:185-189
    and the like. *)
Fixpoint resolve_all (g : registry) (l : list (str * val)) : outcome (list prop) :=
  match l with
  | [] => Ok []
  | (n, v) :: l' =>
    match resolve g n with
    | None => Panic
    | Some r => obind (resolve_all g l') (fun ps => Ok (Parsed r v :: ps))
    end
  end.

(** props/base.cpp:325-342 [ToggleProperty::expandShorthand]: the values of every longhand. *)
Fixpoint gather (l : list (registration * val)) : list (registration * list val) :=
  match l with
  | [] => []
  | (r, v) :: l' =>
    let rest := gather l' in
    if existsb (fun x => str_eqb (r_name (fst x)) (r_name r)) rest
    then map (fun x => if str_eqb (r_name (fst x)) (r_name r) then (fst x, v :: snd x) else x) rest
    else (r, [v]) :: rest
  end.
Definition parsed_pairs (ps : list prop) : list (registration * val) :=
  flat_map (fun p => match p with Parsed r v => [(r, v)] | _ => [] end) ps.

(** [expandShorthand]: props/base.cpp:201-212, 325-342, 459-467, 497-520, and those of the
    shorthands. *)
Definition expansion (g : registry) (p : prop) (parent child : computed) : outcome (list prop) :=
  let longhands r v := match r_short r with Some f => resolve_all g (f v) | None => Panic end in
  match p with
  | Bogus _ => Panic
  | Parsed r v => longhands r v
  | Deferred r c =>
    match expand_property r c child with
    | None => Ok []
    | Some v => longhands r v
    end
  | Defaulted r d => obind (default_value r d parent) (longhands r)
  | Toggle r vs =>
    match r_short r with
    | Some f => obind (resolve_all g (flat_map f vs)) (fun ps =>
                Ok (map (fun x => Toggle (fst x) (snd x)) (gather (parsed_pairs ps))))
    | None => match vs with [] => Ok [] | _ => Panic end
    end
  end.

Definition is_short (p : prop) : bool :=
  match prop_reg p with Some r => match r_short r with Some _ => true | None => false end | None => false end.
Definition is_bogus (p : prop) : bool := match p with Bogus _ => true | _ => false end.

(** ** The values of an element *)

(** A declaration that applies to an element: the property, its importance, origin and
    specificity. *)
Record matched := mkM { m_prop : prop; m_important : bool; m_origin : origin; m_spec : specificity }.

(** style/computer.cpp:361-371: every declaration is put. *)
Definition to_property (m : matched) : property prop :=
  mkProp (prop_name (m_prop m)) (m_prop m) (m_important m) (is_bogus (m_prop m)) None.
Definition put_all (ms : list matched) : cascaded prop :=
  fold_left (fun c m => put c (to_property m) (m_origin m) (m_spec m)) ms cascaded_empty.

(** style/cascaded.cpp:69: the longhands of the shorthands among the entries, so that
    [expand_shorthands] (CascadeModel.v) can put them. *)
Fixpoint annotate (g : registry) (parent child : computed) (l : entries (V := prop)) : outcome (entries (V := prop)) :=
  match l with
  | [] => Ok []
  | (n, e) :: l' =>
    obind (if is_short (e_value e)
           then obind (expansion g (e_value e) parent child) (fun ps =>
                Ok (Some (map (fun p => (prop_name p, p)) ps)))
           else Ok None) (fun x =>
    obind (annotate g parent child l') (fun l'' =>
    Ok ((n, mkEntry (e_value e) x (e_important e) (e_origin e) (e_spec e) (e_order e)) :: l'')))
  end.

(** style/cascaded.cpp:75-84 [CascadedValues::apply] *)
Fixpoint apply_phase (ph : phase) (l : entries (V := prop)) (parent child : computed) : outcome computed :=
  match l with
  | [] => Ok child
  | (_, e) :: l' =>
    let here := match prop_reg (e_value e) with Some r => phase_beq (r_phase r) ph | None => false end in
    obind (if here then apply (e_value e) parent child else Ok child) (fun child' =>
    apply_phase ph l' parent child')
  end.

(** props/base.cpp:682-692 [initialComputedValues]: the initial value of every longhand is
    applied to values [blank] as [ComputedValues()] makes them. *)
Definition initial_values (g : registry) (blank : computed) : computed :=
  fold_left (fun c r => match r_short r with None => r_apply r (r_initial r) c c | Some _ => c end)
            (g_props g) blank.

(** props/base.cpp:697-715 [inheritsComputedValues] *)
Definition inherits (g : registry) (blank parent : computed) : computed :=
  fold_left (fun c r => if r_inherited r then r_inherit r parent c else c) (g_props g)
            (mkC (c_get (initial_values g blank)) (c_custom parent)).

(** style/computer.cpp:354-399 [computeValues]. Left out: the face of the font, and the
    attributes of table cells ([_considerElementAttributes]). *)
Definition compute_values (g : registry) (blank parent : computed) (ms : list matched) : outcome computed :=
  let values := inherits g blank parent in
  let entries0 := c_entries (put_all ms) in
  obind (apply_phase CUSTOM_PROPERTY entries0 parent values) (fun values =>
  obind (annotate g parent values entries0) (fun l =>
  let entries := c_entries (expand_shorthands (mkCascaded l 0)) in
  obind (apply_phase PRE_FONT entries parent values) (fun values =>
  obind (apply_phase FONT entries parent values) (fun values =>
  obind (apply_phase NORMAL entries parent values) (fun values =>
  apply_phase LATE entries parent values))))).

(** style/computer.cpp:434-449 [styleElement], without pseudo-elements, for a tree of elements
    with the declarations that apply to each. *)
Inductive styled := Styled (ms : list matched) (children : list styled).
Inductive result := Result (c : computed) (children : list result).

Fixpoint style_element (g : registry) (blank parent : computed) (t : styled) : outcome result :=
  match t with
  | Styled ms children =>
    obind (compute_values g blank parent ms) (fun c =>
    obind ((fix all (l : list styled) : outcome (list result) :=
              match l with
              | [] => Ok []
              | x :: r => obind (style_element g blank c x) (fun y => obind (all r) (fun ys => Ok (y :: ys)))
              end) children) (fun rs =>
    Ok (Result c rs)))
  end.

End Engine.
Arguments val : clear implicits.
Arguments computed : clear implicits.
Arguments registration : clear implicits.
Arguments prop : clear implicits.
Arguments registry : clear implicits.
Arguments matched : clear implicits.
Arguments styled : clear implicits.
Arguments result : clear implicits.
