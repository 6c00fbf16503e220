(** Headers and footers of printed pages: src/mod.cpp [HeaderFooterDecorator], and its use in
    driver/print.cpp. Lengths are integers in the unit of Karm's [Au]. The engine is a function: how tall a
    document is when it is laid out in a viewport. A division by zero is a crash, [None]. *)
From Coq Require Import List ZArith Bool.
From Verif Require Import Batch.BatchModel.
Import ListNotations.
Local Open Scope list_scope.
Local Open Scope Z_scope.

Record rect := mkRect { r_x : Z; r_y : Z; r_w : Z; r_h : Z }.
Definition r_size (r : rect) : Z * Z := (r_w r, r_h r).
(** Karm [Rect::shrink] with top, sides and bottom *)
Definition shrink (r : rect) (top sides bottom : Z) : rect := mkRect (r_x r + sides) (r_y r + top) (r_w r - sides - sides) (r_h r - top - bottom).
Definition same (a b : Z * Z) : bool := (fst a =? fst b) && (snd a =? snd b).

Section Decorator.
  Variable doc : Type.
  Variable height : doc -> Z * Z -> Z. (* driver/render.cpp:26-68, the height of the border box of the root *)
  (** src/mod.cpp:134-138; the memo is separate *)
  Record decorator := mkDecorator { d_header : option doc; d_footer : option doc; d_header_size : size; d_footer_size : size }.
  Definition memo := list ((Z * Z) * (Z * Z)).
  (** Karm [Map::lookup] *)
  Fixpoint lookup (m : memo) (k : Z * Z) : option (Z * Z) :=
    match m with [] => None | (k', v) :: r => if same k' k then Some v else lookup r k end.

  (** style/media.cpp:140-154 [changeViewport], for a window that was given the media before
      (dom/window.cpp:39-47): the viewport it has then *)
  Definition change_viewport (media v : Z * Z) : option (Z * Z) :=
    if same media v then Some media else if snd v =? 0 then None else Some v.
  (** src/mod.cpp:145-153 and 155-163 *)
  Definition band (media area : Z * Z) (w : option doc) (s : size) : option Z :=
    match s with
    | AUTO_SIZE => match w with None => Some 0 | Some d => match change_viewport media area with None => None | Some v => Some (height d v) end end
    | LENGTH z => Some z
    end.
  (** src/mod.cpp:141-168 [layout] *)
  Definition layout (D : decorator) (media : Z * Z) (area : rect) (m : memo) : option (rect * memo) :=
    let put hf m := Some (shrink area (fst hf) 0 (snd hf), m) in
    match lookup m (r_size area) with
    | Some hf => put hf m
    | None =>
      match band media (r_size area) (d_header D) (d_header_size D) with
      | None => None
      | Some h =>
        match band media (r_size area) (d_footer D) (d_footer_size D) with
        | None => None
        | Some f => put (h, f) (m ++ [(r_size area, (h, f))])
        end
      end
    end.

  (** What is added to a page: a document drawn in a viewport, moved to a place. *)
  Record painted := mkPainted { p_doc : doc; p_viewport : Z * Z; p_at : Z * Z }.
  (** src/mod.cpp:174-179 and 181-186 *)
  Definition paint (media : Z * Z) (w : option doc) (v at_ : Z * Z) : option (list painted) :=
    match w with None => Some [] | Some d => match change_viewport media v with None => None | Some v => Some [mkPainted d v at_] end end.
  (** src/mod.cpp:170-187 [decorate] *)
  Definition decorate (D : decorator) (media : Z * Z) (area : rect) (m : memo) : option (list painted) :=
    match lookup m (r_size area) with
    | None => None
    | Some (h, f) =>
      match paint media (d_header D) (r_w area, h) (r_x area, r_y area) with
      | None => None
      | Some a =>
        match paint media (d_footer D) (r_w area, f) (r_x area, r_y area + r_h area - f) with
        | None => None
        | Some b => Some (a ++ b)
        end
      end
    end.

  (** driver/print.cpp:151-210 [collectBreakPointsAndRunningPositions]: how many pages there are and the
      area of each, within its margins, are those of the content and of the style; here any list. *)
  Fixpoint collect (D : decorator) (media : Z * Z) (areas : list rect) (m : memo) : option (list (rect * rect) * memo) :=
    match areas with
    | [] => Some ([], m)
    | a :: r =>
      match layout D media a m with
      | None => None
      | Some (c, m) => match collect D media r m with None => None | Some (l, m) => Some ((a, c) :: l, m) end
      end
    end.
  (** driver/print.cpp:243-288: the area of the content of each page, and what is added to it *)
  Fixpoint emit (D : decorator) (media : Z * Z) (m : memo) (l : list (rect * rect)) : option (list (rect * list painted)) :=
    match l with
    | [] => Some []
    | (a, c) :: r =>
      match decorate D media a m with
      | None => None
      | Some p => match emit D media m r with None => None | Some l => Some ((c, p) :: l) end
      end
    end.
  (** driver/print.cpp:213-289 [print] *)
  Definition print (D : decorator) (media : Z * Z) (areas : list rect) : option (list (rect * list painted)) :=
    match collect D media areas [] with None => None | Some (l, m) => emit D media m l end.
End Decorator.
