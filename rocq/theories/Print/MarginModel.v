(** The areas of a page: driver/print.cpp:84-108, 120-149, 163-177.

    Lengths ([Au]) are rationals. The rectangles of Karm (not in /repo) have a position, that of
    their top start corner, and a size; [fromTwoPoint] spans two opposite corners in any order;
    start is left and end right. *)
From Coq Require Import List QArith Bool.
Import ListNotations.
Local Open Scope Q_scope.

Record point := mkPoint { px : Q; py : Q }.
Record rect := mkRect { rx : Q; ry : Q; rw : Q; rh : Q }.
Record insets := mkInsets { i_top : Q; i_end : Q; i_bottom : Q; i_start : Q }.

Definition qmin (a b : Q) : Q := if Qle_bool a b then a else b.
Definition qmax (a b : Q) : Q := if Qle_bool a b then b else a.

Definition from_two_point (a b : point) : rect :=
  mkRect (qmin (px a) (px b)) (qmin (py a) (py b))
         (qmax (px a) (px b) - qmin (px a) (px b)) (qmax (py a) (py b) - qmin (py a) (py b)).
Definition top_start (r : rect) := mkPoint (rx r) (ry r).
Definition top_end (r : rect) := mkPoint (rx r + rw r) (ry r).
Definition bottom_start (r : rect) := mkPoint (rx r) (ry r + rh r).
Definition bottom_end (r : rect) := mkPoint (rx r + rw r) (ry r + rh r).
Definition shrink (r : rect) (i : insets) : rect :=
  mkRect (rx r + i_start i) (ry r + i_top i) (rw r - (i_start i + i_end i)) (rh r - (i_top i + i_bottom i)).

(** driver/print.cpp:120-149 [_resolvePageMargin]; a margin is given by its resolution against
    the page's height or width *)
Inductive margin_setting := MARGIN_NONE | MARGIN_DEFAULT | MARGIN_MINIMUM | MARGIN_CUSTOM (i : insets).
Record margins := mkMargins { m_top : Q -> Q; m_end : Q -> Q; m_bottom : Q -> Q; m_start : Q -> Q }.
Definition resolve_page_margin (s : margin_setting) (m : margins) (page : rect) : insets :=
  match s with
  | MARGIN_NONE | MARGIN_MINIMUM => mkInsets 0 0 0 0
  | MARGIN_DEFAULT => mkInsets (m_top m (rh page)) (m_end m (rw page)) (m_bottom m (rh page)) (m_start m (rw page))
  | MARGIN_CUSTOM i => i
  end.

(** driver/print.cpp:163-167: the content area; without decorator *)
Definition page_content (s : margin_setting) (m : margins) (page : rect) : rect :=
  shrink page (resolve_page_margin s m page).

(** driver/print.cpp:86-89 *)
Definition top_left_corner (page content : rect) := from_two_point (top_start page) (top_start content).
Definition top_right_corner (page content : rect) := from_two_point (top_end page) (top_end content).
Definition bottom_left_corner (page content : rect) := from_two_point (bottom_start page) (bottom_start content).
Definition bottom_right_corner (page content : rect) := from_two_point (bottom_end page) (bottom_end content).

(** driver/print.cpp:98-101 *)
Definition top_rect (page content : rect) :=
  from_two_point (top_end (top_left_corner page content)) (bottom_start (top_right_corner page content)).
Definition bottom_rect (page content : rect) :=
  from_two_point (top_end (bottom_left_corner page content)) (bottom_start (bottom_right_corner page content)).
Definition left_rect (page content : rect) :=
  from_two_point (bottom_end (top_left_corner page content)) (top_start (bottom_left_corner page content)).
Definition right_rect (page content : rect) :=
  from_two_point (bottom_end (top_right_corner page content)) (top_start (bottom_right_corner page content)).

(** The rectangles that driver/print.cpp:84-108 paints into, and the content area. *)
Definition regions (page content : rect) : list rect :=
  [ content; top_left_corner page content; top_right_corner page content; bottom_left_corner page content;
    bottom_right_corner page content; top_rect page content; bottom_rect page content;
    left_rect page content; right_rect page content ].
