(** A window: dom/window.cpp:24-113 with style/media.cpp:140-155, 280-282.

    What is made of a document, for a media and a viewport, is a parameter; that styling a document again may leave traces is
    the matter of RestyleModel.v. Loading ends at some time with a document or a failure; what happens in between are
    further events. [None] is a crash: a null pointer, or a division by zero. *)
From Coq Require Import List ZArith QArith Bool.
Import ListNotations.
Local Open Scope Z_scope.

Section Window.
Context {D M R S P : Type} (render : D -> (Z * Z * Q * M) -> Z * Z -> R) (print : D -> S -> P).

(** style/media.cpp:26-34, 136-138: the width and the height (of the viewport and of the device), their ratio, and the rest *)
Definition media : Type := Z * Z * Q * M.
Definition viewport_size (m : media) : Z * Z := let '(w, h, _, _) := m in (w, h).
(** style/media.cpp:140-155; the flag is what it returns *)
Definition media_viewport (m : media) (v : Z * Z) : option (media * bool) :=
  let '(w, h, _, rest) := m in
  if (w =? fst v) && (h =? snd v) then Some (m, false)
  else if snd v =? 0 then None
  else Some ((fst v, snd v, inject_Z (fst v) / inject_Z (snd v), rest)%Q, true).

(** dom/window.cpp:24-30 *)
Record window := mkW { w_document : option D; w_media : media; w_render : option R }.
(** What is done with a window, and what one gets *)
Inductive event := ChangeMedia (m : media) | ChangeViewport (v : Z * Z) | Loaded (d : D) | LoadFailed | Render | Print (s : S).
Inductive seen := Nothing | Scene (r : R) | Pages (p : P).

(** dom/window.cpp:98-100 *)
Definition invalidate (w : window) : window := mkW (w_document w) (w_media w) None.
(** dom/window.cpp:39-113 *)
Definition step (w : window) (e : event) : option (window * seen) :=
  match e with
  | ChangeMedia m => Some (invalidate (mkW (w_document w) m (w_render w)), Nothing)
  | ChangeViewport v =>
    match media_viewport (w_media w) v with
    | None => None
    | Some (m, changed) =>
      let w := mkW (w_document w) m (w_render w) in Some (if changed then invalidate w else w, Nothing)
    end
  | Loaded d => Some (invalidate (mkW (Some d) (w_media w) (w_render w)), Nothing)
  | LoadFailed => Some (w, Nothing)
  | Render =>
    match w_render w with
    | Some r => Some (w, Scene r)
    | None =>
      match w_document w with
      | None => None
      | Some d =>
        let r := render d (w_media w) (viewport_size (w_media w)) in
        Some (mkW (w_document w) (w_media w) (Some r), Scene r)
      end
    end
  | Print s => match w_document w with None => None | Some d => Some (w, Pages (print d s)) end
  end.
(** A window from its start (dom/window.cpp:32-37) *)
Fixpoint run (w : window) (l : list event) : option (window * list seen) :=
  match l with
  | [] => Some (w, [])
  | e :: l =>
    match step w e with
    | None => None
    | Some (w1, s) => match run w1 l with None => None | Some (w2, ss) => Some (w2, s :: ss) end
    end
  end.
Definition start (m : media) : window := mkW None m None.
End Window.
Arguments ChangeMedia {D M S}. Arguments ChangeViewport {D M S}. Arguments Loaded {D M S}. Arguments LoadFailed {D M S}.
Arguments Render {D M S}. Arguments Print {D M S}. Arguments Nothing {R P}. Arguments Scene {R P}. Arguments Pages {R P}.
