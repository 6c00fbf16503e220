(** Script values, objects and properties: vaev-script/value.cpp, properties.cpp, object-impl.cpp,
    internal-slots.cpp, internal-slots-impl.cpp and ops-impl.cpp.

    The heap is a list of objects, an object is named by its place in it. Garbage collection is left out:
    objects stay. An object has the methods of internal-slots.cpp:38-76; the only one that a host changes
    here is [call], whose function is named by a number; what it does is a parameter. Names of [_Opt] and
    pointers: [None] is both [NONE] and [nullptr]. *)
From Coq Require Import List Arith ZArith NArith Bool.
Import ListNotations.

(** value.cpp:48-127: a double that is not a number, a zero, or any other one, named by its bits *)
Inductive number := NAN | PZERO | NZERO | OTHER (bits : Z).
(** value.cpp:134-144; strings are lists of UTF-16 units, symbols are interned *)
Inductive value := UNDEFINED | NULL | BOOLEAN (b : bool) | STRING (s : list N) | SYMBOL (n : nat) | NUMBER (n : number) | OBJECT (o : nat).
(** properties.cpp:8-32 *)
Inductive key := K_STRING (s : list N) | K_SYMBOL (n : nat) | K_INDEX (n : N).
Definition string_eq (a b : list N) : bool := if list_eq_dec N.eq_dec a b then true else false.
Definition key_eq (a b : key) : bool :=
  match a, b with
  | K_STRING x, K_STRING y => string_eq x y
  | K_SYMBOL x, K_SYMBOL y => Nat.eqb x y
  | K_INDEX x, K_INDEX y => N.eqb x y
  | _, _ => false
  end.
(** properties.cpp:35-41 *)
Record descriptor := mkDesc { d_value : value; d_writable : option bool; d_get : option (option nat); d_set : option (option nat); d_enumerable : option bool; d_configurable : option bool }.
(** properties.cpp:94-120 *)
Inductive content := DATA (v : value) | ACCESSOR (get set : option nat).
Record property := mkProp { p_content : content; p_writable : bool; p_enumerable : bool; p_configurable : bool }.
(** object.cpp:26-31 *)
Record object := mkObj { o_props : list (key * property); o_proto : option nat; o_extensible : bool; o_call : option nat }.
Definition heap := list object.
Inductive exc (A : Type) := Done (a : A) | Throw (v : value) | Panic | OutOfFuel.
Arguments Done {A} _. Arguments Throw {A} _. Arguments Panic {A}. Arguments OutOfFuel {A}.

Definition is_undefined (v : value) : bool := match v with UNDEFINED => true | _ => false end.
Definition present {A} (o : option A) : bool := match o with Some _ => true | None => false end.
(** properties.cpp:43-50 *)
Definition d_empty (d : descriptor) : bool := is_undefined (d_value d) && negb (present (d_writable d)) && negb (present (d_get d)) && negb (present (d_set d)) && negb (present (d_enumerable d)) && negb (present (d_configurable d)).
(** properties.cpp:53-62 *)
Definition is_accessor (d : descriptor) : bool := present (d_get d) || present (d_set d).
(** properties.cpp:65-78 *)
Definition is_data (d : descriptor) : bool := negb (is_undefined (d_value d)) || present (d_writable d).
(** properties.cpp:81-91 *)
Definition is_generic (d : descriptor) : bool := negb (is_accessor d || is_data d).

(** properties.cpp:122-134 *)
Definition own (o : object) (k : key) : option property := match find (fun x => key_eq (fst x) k) (o_props o) with Some x => Some (snd x) | None => None end.
Definition put_prop (k : key) (p : property) (l : list (key * property)) : list (key * property) :=
  if existsb (fun x => key_eq (fst x) k) l then map (fun x => if key_eq (fst x) k then (k, p) else x) l else l ++ [(k, p)].
Definition set_obj (h : heap) (n : nat) (o : object) : heap := firstn n h ++ o :: skipn (S n) h.
Definition store (h : heap) (n : nat) (k : key) (p : property) : heap :=
  match nth_error h n with
  | Some o => set_obj h n (mkObj (put_prop k p (o_props o)) (o_proto o) (o_extensible o) (o_call o))
  | None => h
  end.

(** A reference to an object that does not exist; the heap of Karm gives none. *)
Definition at_obj {A} (h : heap) (n : nat) (f : object -> heap * exc A) : heap * exc A := match nth_error h n with Some o => f o | None => (h, Panic) end.

(** internal-slots-impl.cpp:26-57 [ordinaryGetOwnProperty] *)
Definition describe (p : property) : descriptor :=
  match p_content p with
  | DATA v => mkDesc v (Some (p_writable p)) None None (Some (p_enumerable p)) (Some (p_configurable p))
  | ACCESSOR g s => mkDesc UNDEFINED None (Some g) (Some s) (Some (p_enumerable p)) (Some (p_configurable p))
  end.
Definition get_own (o : object) (k : key) : option descriptor := option_map describe (own o k).

Definition or {A} (o : option A) (d : A) : A := match o with Some a => a | None => d end.
(** internal-slots-impl.cpp:75-114: the property that is created *)
Definition created (d : descriptor) : property :=
  if is_accessor d then mkProp (ACCESSOR (or (d_get d) None) (or (d_set d) None)) false (or (d_enumerable d) false) (or (d_configurable d) false)
  else mkProp (DATA (d_value d)) (or (d_writable d) false) (or (d_enumerable d) false) (or (d_configurable d) false).
(** internal-slots-impl.cpp:119-177: what is answered when there is a property. Line 126 asks whether
    [configurable] is there, not whether it is true; what is there is taken from the property, so it is.
    Lines 157-175 do nothing. *)
Definition validate (d current : descriptor) : bool :=
  if d_empty d then true
  else if negb (present (d_configurable current)) then
    if (match d_configurable d with Some true => true | _ => false end) then false
    else if (match d_enumerable d, d_enumerable current with Some a, Some b => negb (Bool.eqb a b) | Some _, None => true | None, _ => false end) then false
    else if negb (is_generic d) && negb (Bool.eqb (is_accessor d) (is_accessor current)) then false
    else if is_generic current then true
    else match d_writable current, d_writable d with Some false, Some true => false | _, _ => true end
  else true.
(** internal-slots-impl.cpp:181-190 [ordinaryDefineOwnProperty] *)
Definition define_own (h : heap) (n : nat) (k : key) (d : descriptor) : heap * exc bool :=
  at_obj h n (fun o =>
    match get_own o k with
    | Some current => (h, Done (validate d current))
    | None => if o_extensible o then (store h n k (created d), Done true) else (h, Done false)
    end).
(** ops-impl.cpp:205-216 *)
Definition data_desc (v : value) : descriptor := mkDesc v (Some true) None None (Some true) (Some true).
Definition create_data_property (h : heap) (n : nat) (k : key) (v : value) : heap * exc bool := define_own h n k (data_desc v).

(** "name" and "Exception" *)
Definition name_key : key := K_STRING [110; 97; 109; 101]%N.
Definition exception_name : value := STRING [69; 120; 99; 101; 112; 116; 105; 111; 110]%N.
(** object-impl.cpp:15-19 *)
Definition alloc (h : heap) (proto : option nat) : heap := h ++ [mkObj [] proto true None].
(** ops-impl.cpp:14-31; setting a property of a new object without a prototype creates it, see
    [ScriptProofs.exception_set] *)
Definition throw_error {A} (h : heap) : heap * exc A :=
  let n := length h in (fst (create_data_property (alloc h None) n name_key exception_name), Throw (OBJECT n)).

Section Host.
(** What the function that is named by a number does with the heap, this and its arguments. *)
Variable host : nat -> heap -> nat -> list value -> heap * exc value.

(** ops-impl.cpp:81-92, 194-202 *)
Definition callable (h : heap) (v : value) : option nat := match v with OBJECT n => match nth_error h n with Some o => o_call o | None => None end | _ => None end.
Definition call (h : heap) (f v : value) (args : list value) : heap * exc value :=
  match callable h f with
  | None => throw_error h
  | Some c => match v with OBJECT t => host c h t args | _ => (h, Panic) end
  end.
(** value.cpp:151-156 *)
Definition of_ptr (p : option nat) : value := match p with Some n => OBJECT n | None => NULL end.

(** internal-slots-impl.cpp:193-229 [ordinaryGet] *)
Fixpoint get (fuel : nat) (h : heap) (n : nat) (k : key) (receiver : value) : heap * exc value :=
  match fuel with
  | O => (h, OutOfFuel)
  | S fuel =>
    at_obj h n (fun o =>
      match get_own o k with
      | None => match o_proto o with None => (h, Done UNDEFINED) | Some p => get fuel h p k receiver end
      | Some d =>
        if is_data d then (h, Done (d_value d))
        else if negb (is_accessor d) then (h, Panic)
        else match d_get d with None => (h, Done UNDEFINED) | Some g => call h (of_ptr g) receiver [] end
      end)
  end.

(** internal-slots-impl.cpp:232-301 [ordinarySetWithOwnDescriptor], with a descriptor *)
Definition set_with (h : heap) (n : nat) (k : key) (v receiver : value) (d : descriptor) : heap * exc bool :=
  if is_data d then
    match d_writable d with
    | Some false => (h, Done false)
    | _ =>
      match receiver with
      | OBJECT r => at_obj h r (fun ro =>
        match get_own ro k with
        | None => create_data_property h n k v
        | Some e =>
          if is_accessor e then (h, Done false)
          else match d_writable e with
            | Some false => (h, Done false)
            | _ => define_own h r k (mkDesc v None None None None None)
            end
        end)
      | _ => (h, Done false)
      end
    end
  else
    match d_set d with
    | None => (h, Done false)
    | Some _ => (* line 297 calls the receiver *)
      let '(h, r) := call h receiver v [] in
      (h, match r with Done _ => Done true | Throw e => Throw e | Panic => Panic | OutOfFuel => OutOfFuel end)
    end.
(** internal-slots-impl.cpp:234-247, 304-307 [ordinarySet] *)
Fixpoint set (fuel : nat) (h : heap) (n : nat) (k : key) (v receiver : value) : heap * exc bool :=
  match fuel with
  | O => (h, OutOfFuel)
  | S fuel =>
    at_obj h n (fun o =>
      match get_own o k with
      | Some d => set_with h n k v receiver d
      | None =>
        match o_proto o with
        | Some p => set fuel h p k v receiver
        | None => set_with h n k v receiver (mkDesc UNDEFINED (Some true) None None (Some true) (Some true))
        end
      end)
  end.

(** What a host does with objects. [CALLABLE] gives an object a function; the last one stands for the
    methods that no object has (internal-slots.cpp:43, 49, 58, 67, 70, 76; object-impl.cpp:27-31 and
    similar). *)
Inductive op :=
| CREATE (proto : option nat) | CALLABLE (n c : nat) | DEFINE (n : nat) (k : key) (d : descriptor)
| GET (n : nat) (k : key) (receiver : value) | SET (n : nat) (k : key) (v receiver : value)
| GET_OWN (n : nat) (k : key) | GET_PROTO (n : nat) | MISSING_METHOD (n : nat).
Inductive answer := A_VALUE (r : exc value) | A_BOOL (r : exc bool) | A_DESC (d : option descriptor) | A_OBJ (o : option nat).
Definition step (h : heap) (x : op) : heap * answer :=
  match x with
  | CREATE p => (alloc h p, A_OBJ (Some (length h)))
  | CALLABLE n c => (match nth_error h n with Some o => set_obj h n (mkObj (o_props o) (o_proto o) (o_extensible o) (Some c)) | None => h end, A_OBJ (Some n))
  | DEFINE n k d => let '(h, r) := define_own h n k d in (h, A_BOOL r)
  | GET n k r => let '(h, r) := get (S n) h n k r in (h, A_VALUE r)
  | SET n k v r => let '(h, r) := set (S n) h n k v r in (h, A_BOOL r)
  | GET_OWN n k => (h, A_DESC (match nth_error h n with Some o => get_own o k | None => None end))
  | GET_PROTO n => (h, A_OBJ (match nth_error h n with Some o => o_proto o | None => None end))
  | MISSING_METHOD n => let '(h, r) := throw_error (A := value) h in (h, A_VALUE r)
  end.
Fixpoint run (h : heap) (l : list op) : heap := match l with [] => h | x :: r => run (fst (step h x)) r end.
(** Objects that an operation is given have to exist. *)
Definition arg_ok (h : heap) (x : op) : Prop :=
  match x with
  | CREATE (Some p) => p < length h
  | CALLABLE n _ | DEFINE n _ _ | GET_OWN n _ | GET_PROTO n | MISSING_METHOD n => n < length h
  | GET n _ r => n < length h /\ match r with OBJECT m => m < length h | _ => True end
  | SET n _ _ r => n < length h /\ match r with OBJECT m => m < length h | _ => True end
  | _ => True
  end.
Fixpoint args_ok (h : heap) (l : list op) : Prop := match l with [] => True | x :: r => arg_ok h x /\ args_ok (fst (step h x)) r end.
End Host.

(** ** Comparison *)

(** value.cpp:97-104; [==] of doubles *)
Definition same_number (a b : number) : bool :=
  match a, b with
  | NAN, _ | _, NAN => false
  | PZERO, PZERO | PZERO, NZERO | NZERO, PZERO | NZERO, NZERO => true
  | OTHER x, OTHER y => Z.eqb x y
  | _, _ => false
  end.
(** ops-impl.cpp:95-131 *)
Definition same_type (x y : value) : bool :=
  match x, y with
  | UNDEFINED, UNDEFINED | NULL, NULL | BOOLEAN _, BOOLEAN _ | STRING _, STRING _ | SYMBOL _, SYMBOL _ | NUMBER _, NUMBER _ | OBJECT _, OBJECT _ => true
  | _, _ => false
  end.
(** ops-impl.cpp:149-183; line 165 takes a string out of a value that may be something else *)
Definition same_non_number (x y : value) : exc bool :=
  if negb (same_type x y) then Panic
  else match x, y with
  | NULL, _ | UNDEFINED, _ => Done true
  | STRING a, STRING b => if string_eq a b then Done true else Panic (* 179-180 *)
  | _, _ => Panic
  end.
(** ops-impl.cpp:134-146 *)
Definition same_value (x y : value) : exc bool :=
  if negb (same_type x y) then Done false
  else match x, y with NUMBER a, NUMBER b => Done (same_number a b) | _, _ => same_non_number x y end.
