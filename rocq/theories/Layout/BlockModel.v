(** The vertical side of block layout and its fragmentation: layout/block.cpp,
    layout/base/layout-impl.cpp:243-334, inline.cpp, replaced.cpp, and the fragmentainer of
    layout/base/breaks.cpp:17-62.

    Lengths ([Au]) are rationals. Widths and horizontal positions are left out; paddings, borders,
    margins and specified heights are given as used values. Boxes that are laid out by the inline,
    replaced, SVG and flex contexts are [Mono]: their content height is given, with the offsets at
    which they lay out boxes inside them. Those contexts enter a monolithic box before they ask
    whether a break is allowed (inline.cpp:40, 186; replaced.cpp:20, 42), so the test for
    overflow that follows never succeeds and is left out. Tables are not covered, nor the
    positioning of absolute and fixed boxes. Fragments are built in both passes, although the
    program only keeps those of the second one. *)
From Coq Require Import List NArith QArith Bool.
From Verif.Layout Require Import BreakModel.
Import ListNotations.
Local Open Scope Q_scope.

Definition qmin (a b : Q) : Q := if Qle_bool a b then a else b.
Definition qmax (a b : Q) : Q := if Qle_bool a b then b else a.
Definition qabs (a : Q) : Q := if Qle_bool 0 a then a else - a.

(** values/breaks.cpp:18-33, 74-82: the values the code tells apart *)
Inductive between := B_AUTO | B_AVOID | B_AVOID_PAGE | B_PAGE | B_OTHER.
Inductive inside := I_AUTO | I_AVOID | I_AVOID_PAGE | I_OTHER.
Definition is_avoid (b : between) : bool := match b with B_AVOID | B_AVOID_PAGE => true | _ => false end.
Definition is_avoid_inside (b : inside) : bool := match b with I_AVOID | I_AVOID_PAGE => true | _ => false end.
Definition is_page (b : between) : bool := match b with B_PAGE => true | _ => false end.

(** values/insets.cpp:25 [Position]; [RELATIVE] with the vertical offset; [ABSOLUTE] also for fixed *)
Inductive position := STATIC | RELATIVE (dy : Q) | ABSOLUTE | RUNNING.

Record style := mkStyle {
  s_before : between; s_after : between; s_inside : inside;
  s_margin_top : Q; s_margin_bottom : Q;
  s_top : Q;     (* border and padding *)
  s_bottom : Q;
  s_height : option Q; (* specified height of the border box *)
  s_position : position; s_floating : bool; s_marker : bool }.

Inductive box :=
| Mono (id : nat) (s : style) (h : Q) (inner : list (Q * box))
| Block (id : nat) (s : style) (children : list box).
Definition style_of (b : box) : style := match b with Mono _ s _ _ => s | Block _ s _ => s end.

(** layout/base/box.cpp:115-120 [isRemovedFromFlow] of a box that is not absolute, fixed or running *)
Definition removed (s : style) : bool := s_floating s.

(** A fragment: the box it comes from, the top and the height of its border box, its children. *)
Inductive frag := Frag (b : box) (top height : Q) (children : list frag).

(** breaks.cpp:17-62 [Fragmentainer]: looking for break points, printing, or inside a monolithic
    box, where no break is allowed *)
Inductive mode := DISCOVERY | RENDER | MONO.
Definition is_discovery (m : mode) : bool := match m with DISCOVERY => true | _ => false end.
Definition allow_break (m : mode) : bool := match m with MONO => false | _ => true end.

(** breaks.cpp:54-57 [acceptsFit] *)
Definition accepts_fit (lim y h pend : Q) : bool := Qle_bool (y + h + pend) lim.
(** breaks.cpp:59-61 [leftVerticalSpace] *)
Definition left_space (lim y pend : Q) : Q := lim - y - pend.

(** layout/base/output.cpp:51-76 [Output] *)
Record output := mkOut { o_size : Q; o_complete : bool; o_bp : option bp; o_frag : list frag }.

(** block.cpp:99-139 [fragmentEmptyBox]: size, completeness, break point *)
Definition empty_box (m : mode) (lim y pend known : Q) : Q * bool * option bp :=
  if is_discovery m then
    if accepts_fit lim y known pend then (known, true, None) else (0, false, Some overflow)
  else
    let left := left_space lim y pend in
    (qmin known left, Qle_bool known left, None).

(** block.cpp:348-352: the new [blockSize] before a child *)
Definition collapsed_margin (top last : Q) : Q :=
  qmax 0 (qmax top last) - qabs (qmin 0 (qmin top last)).

(** The state of the loop of block.cpp:262-434. *)
Record lstate := mkL { l_size : Q; l_last : Q; l_bp : bp; l_complete : bool; l_frags : list frag }.

Section Loop.
  Variables (m : mode) (s : style).
  (* [layoutBorderBox] of a child *)
  Variable lay : box -> Q -> Q -> option bp -> option bp -> output.
  Variables (y pend : Q) (prev curr : option bp) (start stop n : N).

  (** block.cpp:283-418: the children from number [i] on. Returns the state, and whether the
      function returned early. [input.knownSize.height] does not matter inside. *)
  Fixpoint block_loop (i : N) (cs : list box) (st : lstate) : lstate * bool :=
    match cs with
    | [] => (st, false)
    | c :: rest =>
      if (i <? start)%N then block_loop (i + 1) rest st
      else if (stop <=? i)%N then (st, false)
      else
        let sc := style_of c in
        match s_position sc with
        | RUNNING => block_loop (i + 1) rest st
        | ABSOLUTE =>
          block_loop (i + 1) rest
            (mkL (l_size st) (l_last st) (l_bp st) (if (i + 1 =? n)%N then true else l_complete st) (l_frags st))
        | pos =>
          (* 85-97 processBreakpointsBeforeChild *)
          if is_page (s_before sc) && negb (start =? i)%N then
            (mkL (l_size st) (l_last st) (forced i) false (l_frags st), true)
          else
            (* 345-353 *)
            let size1 := if removed sc then l_size st
                         else l_size st + (collapsed_margin (s_margin_top sc) (l_last st) - l_last st) in
            (* 365, 376-378 *)
            let cy := y + size1 + match pos with RELATIVE dy => dy | _ => 0 end in
            (* 380 *)
            let o := lay c cy pend (traverse_prev prev i) (traverse_curr curr i) in
            let frags := l_frags st ++ o_frag o in
            (* 385-388 *)
            let out := removed sc || s_marker sc in
            let size2 := if out then size1 else size1 + (o_size o + s_margin_bottom sc) in
            let last2 := if out then l_last st else s_margin_bottom sc in
            (* 17-34 maybeProcessChildBreakpoint *)
            let b1 := if is_discovery m then
                        match o_bp o with
                        | Some cb => override_if_better (l_bp st) (from_child cb (i + 1) (is_avoid_inside (s_inside s)))
                        | None => l_bp st
                        end
                      else l_bp st in
            (* 36-83 processBreakpointsAfterChild *)
            if is_discovery m && negb (o_complete o) then
              (mkL size2 last2 b1 false frags, true)
            else
              let is_last := (i + 1 =? n)%N in
              let avoided := is_avoid_inside (s_inside s) || is_avoid (s_after sc)
                             || match rest with next :: _ => is_avoid (s_before (style_of next)) | [] => false end in
              let b2 := if is_discovery m && negb is_last then override_if_better b1 (class_b (i + 1) avoided) else b1 in
              if is_discovery m && is_page (s_after sc) then
                (mkL size2 last2 (forced (i + 1)) false frags, true)
              else
                (* 413-415 *)
                let complete := if allow_break m && (i + 1 =? stop)%N then o_complete o && is_last else l_complete st in
                block_loop (i + 1) rest (mkL size2 last2 b2 complete frags)
        end
    end.
End Loop.

Definition len {A} (l : list A) : N := N.of_nat (length l).

(** layout-impl.cpp:329-334 [layoutBorderBox], 308-327 [_adaptToContentBox], 262-306
    [layoutContentBox] and 243-260 [_shouldAbortFragmentingBeforeLayout]; then the contexts.
    [y] is the top of the border box. *)
Fixpoint layout (m : mode) (lim : Q) (b : box) (y0 pend0 : Q) (prev curr : option bp) {struct b} : output :=
  let s := style_of b in
  let y := y0 + s_top s in
  let pend := pend0 + s_bottom s in
  let start := if allow_break m then match get_start prev with Some n => n | None => 0%N end else 0%N in
  let stop_at := if allow_break m && negb (is_discovery m) then get_end curr else None in
  if is_discovery m && negb (accepts_fit lim y 0 pend) then
    mkOut (0 + (s_top s + s_bottom s)) false (Some overflow) []
  else
    match b with
    | Mono _ _ h inner =>
      let size := h + (s_top s + s_bottom s) in
      mkOut size true (Some (bottom_of_monolithic (len inner)))
        [Frag b y0 size (flat_map (fun e => match e with (dy, c) => o_frag (layout MONO lim c (y + dy) 0 None None) end) inner)]
    | Block _ _ [] =>
      let known := match s_height s with Some h => h - (s_top s + s_bottom s) | None => 0 end in
      let '(size, complete, p) := empty_box m lim y pend known in
      mkOut (size + (s_top s + s_bottom s)) complete p [Frag b y0 (size + (s_top s + s_bottom s)) []]
    | Block _ _ children =>
      let n := len children in
      let stop := match stop_at with Some e => e | None => n end in
      let '(st, early) := block_loop m s (layout m lim) y pend prev curr start stop n 0 children
                            (mkL 0 0 bp_default false []) in
      let size := if early then l_size st
                  else match s_height s with Some h => h - (s_top s + s_bottom s) | None => l_size st end in
      let border := size + (s_top s + s_bottom s) in
      mkOut border (if early then false else l_complete st) (Some (l_bp st)) [Frag b y0 border (l_frags st)]
    end.
