(** Styling a document, once or again and again: style/computer.cpp:417-478, 495-515, with dom/element.cpp:186-205 and
    dom/document.cpp:82-106.

    How the values of one element or pseudo-element are computed (EngineModel.v and FontModel.v are about
    that) is a parameter [compute], which is given the values of the parent, the element, and which
    pseudo-element is asked for; another media gives another [compute]. Counters are left out here
    (CounterModel.v). *)
From Coq Require Import List Bool.
Import ListNotations.

Section Restyle.
Context {A V B : Type}.

(** dom/element.cpp:59-61 *)
Inductive pseudo := MARKER | AFTER | BEFORE.
(** props/content.cpp [content], as far as it matters here *)
Inductive content := C_NONE | C_NORMAL | C_ITEMS.

(** dom/element.cpp:63-74: what an element is (its name, its attributes, its place), its values and its pseudo-elements,
    of which there are three; other nodes do not matter. *)
Record pseudos := mkP { p_marker : option V; p_after : option V; p_before : option V }.
Inductive node := Elem (a : A) (v : option V) (ps : pseudos) (kids : list node) | Other.

Context (content_of : V -> content) (is_item : V -> bool).

(** dom/element.cpp:198-201 [addPseudoElement] *)
Definition put (p : pseudo) (x : V) (ps : pseudos) : pseudos :=
  match p with
  | MARKER => mkP (Some x) (p_after ps) (p_before ps)
  | AFTER => mkP (p_marker ps) (Some x) (p_before ps)
  | BEFORE => mkP (p_marker ps) (p_after ps) (Some x)
  end.
(** style/computer.cpp:417-432 [generatePseudoElement] *)
Definition generate (compute : V -> A -> option pseudo -> V) (v : V) (a : A) (p : pseudo) (ps : pseudos) : pseudos :=
  let x := compute v a (Some p) in
  match content_of x, p with
  | C_NONE, _ => ps
  | C_NORMAL, (BEFORE | AFTER) => ps
  | _, _ => put p x ps
  end.
(** style/computer.cpp:434-448 [styleElement]; [clearPseudoElement] (dom/element.cpp:190-192) is not called here, nor
    anywhere else. *)
Fixpoint style (compute : V -> A -> option pseudo -> V) (parent : V) (n : node) : node :=
  match n with
  | Other => Other
  | Elem a _ ps kids =>
    let v := compute parent a None in
    let ps := if is_item v then generate compute v a MARKER ps else ps in
    let ps := generate compute v a AFTER ps in
    let ps := generate compute v a BEFORE ps in
    Elem a (Some v) ps (map (style compute v) kids)
  end.

(** The background of values; whether it has neither a color nor an image; the initial one *)
Context (bg : V -> B) (with_bg : V -> B -> V) (nothing : B -> bool) (initial_bg : B)
        (in_html : A -> bool) (html_tag : A -> bool) (body_tag : A -> bool).

(** dom/document.cpp:82-87 [documentElement]: what is before it, the element, what is after it *)
Fixpoint split_element (is : A -> bool) (l : list node) : option (list node * (A * option V * pseudos * list node) * list node) :=
  match l with
  | [] => None
  | n :: r =>
    match n with
    | Elem a v ps kids => if is a then Some ([], (a, v, ps, kids), r)
                          else option_map (fun '(x, e, y) => (n :: x, e, y)) (split_element is r)
    | Other => option_map (fun '(x, e, y) => (n :: x, e, y)) (split_element is r)
    end
  end.
Definition document_element := split_element (fun _ => true).
(** dom/document.cpp:90-106 [body], among the children of the document element *)
Definition body (a : A) (kids : list node) := if html_tag a then split_element body_tag kids else None.
(** style/computer.cpp:453-478 [_propagateBodyBackgroundToHtml]; [None] is the use of a null pointer or of missing values *)
Definition propagate (doc : list node) : option (list node) :=
  match document_element doc with
  | None => None
  | Some (x, (a, v, ps, kids), y) =>
    if in_html a then
      match v with
      | None => None
      | Some v =>
        match body a kids with
        | None => Some doc
        | Some (kx, (ba, bv, bps, bkids), ky) =>
          match bv with
          | None => None
          | Some bv =>
            if nothing (bg v)
            then Some (x ++ Elem a (Some (with_bg v (bg bv))) ps (kx ++ Elem ba (Some (with_bg bv initial_bg)) bps bkids :: ky) :: y)
            else Some doc
          end
        end
      end
    else Some doc
  end.
(** style/computer.cpp:495-515 [styleDocument] *)
Definition style_document (compute : V -> A -> option pseudo -> V) (initial : V) (doc : list node) : option (list node) :=
  propagate match document_element doc with
            | None => doc
            | Some (x, (a, v, ps, kids), y) => x ++ style compute initial (Elem a v ps kids) :: y
            end.
End Restyle.
Arguments Elem {A V}. Arguments Other {A V}. Arguments mkP {V}.
