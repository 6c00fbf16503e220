(** Widths and sizes: layout/base/sizing.cpp, layout/replaced.cpp, the widths and automatic margins of
    layout/block.cpp. Lengths ([Au]) are rationals; [Limits<Au>::MAX] is [None]. *)
From Coq Require Import List QArith Bool.
From Verif.Layout Require Import BlockModel.
Import ListNotations.
Local Open Scope Q_scope.

(** ** Replaced boxes *)

(** A length or a percentage, resolved against a size of the containing block; calculations are left
    out. *)
Inductive size := LENGTH (q : Q) | PERCENT (q : Q).
Definition resolve (base : Q) (s : size) : Q := match s with LENGTH q => q | PERCENT q => base * q / 100 end.

(** [clamp] of Karm: the value, but at least [lo] and at most [hi] *)
Definition clamp (v lo : Q) (hi : option Q) : Q :=
  let v := qmax v lo in match hi with Some h => qmin v h | None => v end.
Definition gt_opt (v : Q) (hi : option Q) : bool := match hi with Some h => negb (Qle_bool v h) | None => false end.
Definition min_opt (v : Q) (hi : option Q) : Q := match hi with Some h => qmin v h | None => v end.
Definition lt (a b : Q) : bool := negb (Qle_bool b a).

(** style/props/sizing: the four limits; values that are not lengths or percentages are [None] *)
Record limits := mkLimits { min_w : option size; max_w : option size; min_h : option size; max_h : option size }.

(** sizing.cpp:75-91 *)
Definition low (base : Q) (m : option size) : Q := match m with Some s => resolve base s | None => 0 end.
Definition high (base : Q) (m M : option size) : option Q :=
  match M with Some s => Some (qmax (resolve base s) (low base m)) | None => None end.

(** sizing.cpp:72-155 [applyReplacedMinMaxSizeConstraints]; [wa] and [ha]: the width and the height
    are automatic. [maxWidth / w] with an infinite [maxWidth] is only reached when [w > maxWidth]. *)
Definition constrain (minw : Q) (maxw : option Q) (minh : Q) (maxh : option Q) (w h : Q) (wa ha : bool) : Q * Q :=
  if negb wa && negb ha then (clamp w minw maxw, clamp h minh maxh)
  else if negb wa && ha then (clamp w minw maxw, clamp h minh maxh)
  else if Qeq_bool w 0 || Qeq_bool h 0 then (clamp w minw maxw, clamp h minh maxh)
  else if gt_opt w maxw && lt h minh then (match maxw with Some x => x | None => w end, minh)
  else if lt w minw && gt_opt h maxh then (minw, match maxh with Some x => x | None => h end)
  else if lt w minw && lt h minh then
    if lt (minh / h) (minw / w) then (minw, min_opt (minw * (h / w)) maxh)
    else (min_opt (minh * (w / h)) maxw, minh)
  else match maxw, maxh with
  | Some mw, Some mh =>
    if lt mw w && lt mh h then
      if lt (mh / h) (mw / w) then (qmax minw (mh * (w / h)), mh) else (mw, qmax minh (mw * (h / w)))
    else if lt h minh then (qmin (minh * (w / h)) mw, minh)
    else if lt mh h then (qmax (mh * (w / h)) minw, mh)
    else if lt w minw then (minw, qmin (minw * (h / w)) mh)
    else if lt mw w then (mw, qmax (mw * (h / w)) minh)
    else (w, h)
  | _, _ =>
    if lt h minh then (min_opt (minh * (w / h)) maxw, minh)
    else if gt_opt h maxh then (match maxh with Some mh => (qmax (mh * (w / h)) minw, mh) | None => (w, h) end)
    else if lt w minw then (minw, min_opt (minw * (h / w)) maxh)
    else if gt_opt w maxw then (match maxw with Some mw => (mw, qmax (mw * (h / w)) minh) | None => (w, h) end)
    else (w, h)
  end.

(** sizing.cpp:165-214 [resolvePartialSpecifiedSize] *)
Definition partial_size (nw nh ratio : option Q) (sw sh : option Q) : option (Q * Q) :=
  match sw, sh with
  | Some w, Some h => Some (w, h)
  | Some w, None =>
    match ratio with
    | Some r => Some (w, w / r)
    | None => match nh with Some h => Some (w, h) | None => Some (w, 150) end
    end
  | None, Some h =>
    match ratio with
    | Some r => Some (h * r, h)
    | None => match nw with Some w => Some (w, h) | None => Some (300, h) end
    end
  | None, None => None
  end.
(** sizing.cpp:164-235 [resolveObjectDefaultSizing] *)
Definition default_size (nw nh ratio : option Q) (sw sh : option Q) : Q * Q :=
  match partial_size nw nh ratio sw sh with
  | Some r => r
  | None =>
    match partial_size nw nh ratio nw nh with
    | Some r => r
    | None =>
      match ratio with
      | Some r => if lt r (300 / 150) then (150 * r, 150) else (300, 300 / r)
      | None => (300, 150)
      end
    end
  end.

(** replaced.cpp:27-37: the content size of an image of natural size [nw] by [nh], in a containing
    block of [cw] by [ch]; sizing.cpp:53-68 [resolvePreferredSize] *)
Definition image_size (nw nh : Q) (sw sh : option size) (l : limits) (cw ch : Q) : Q * Q :=
  let sw' := option_map (resolve cw) sw in
  let sh' := option_map (resolve ch) sh in
  let '(w, h) := default_size (Some nw) (Some nh) (Some (nw / nh)) sw' sh' in
  constrain (low cw (min_w l)) (high cw (min_w l) (max_w l)) (low ch (min_h l)) (high ch (min_h l) (max_h l)) w h
    (match sw with None => true | _ => false end) (match sh with None => true | _ => false end).

(** block.cpp:325: the height of the containing block of the children, of which that of the block
    is not known *)
Definition child_base (known : option Q) : Q := match known with Some h => h | None => 0 end.

(** ** The width of a block-level box (block.cpp:161-200), that is not a table *)
Record horizontal := mkH {
  h_start : option size; h_end : option size; (* margins; [None] is automatic *)
  h_inner : Q; (* borders and paddings of both sides *)
  h_width : option size; (* [None] is automatic *)
  h_content_box : bool; (* box-sizing *)
  h_min : option size; h_max : option size }. (* never read here *)

(** layout-impl.cpp:65-78 [computeMargins]: percentages are of [base]; automatic margins are resolved
    to zero *)
Definition margin_of (base : Q) (m : option size) : Q := match m with Some s => resolve base s | None => 0 end.
(** block.cpp:161-200 [_populateChildSpecifiedSizes]; layout-impl.cpp:164-171. [cb] is the width of the block *)
Definition known_width (base cb : Q) (b : horizontal) : Q :=
  match h_width b with
  | None => cb - (margin_of base (h_start b) + margin_of base (h_end b))
  | Some s => if h_content_box b then resolve base s + h_inner b else resolve base s
  end.
(** block.cpp:206-232 [_resolveAutoHorizontalMargins] *)
Definition used_margins (base cb : Q) (b : horizontal) : Q * Q :=
  let ms := margin_of base (h_start b) in
  let me := margin_of base (h_end b) in
  let sa := match h_start b with None => true | _ => false end in
  let ea := match h_end b with None => true | _ => false end in
  if negb (sa || ea) then (ms, me)
  else
    let free := cb - known_width base cb b - (ms + me) in
    if Qle_bool free 0 then (ms, me)
    else if sa && ea then (free / 2, free - free / 2)
    else if sa then (free, me)
    else (ms, free).
(** block.cpp:262-418: the children of a block of width [cb], none of them replaced, positioned, floating or a
    marker: the distance of each from the left edge of the block, and its width (365, 380; its
    [output.size.x] is its known width). [base] is the variable [inlineSize], to which percentages
    refer (325) and which grows (417). *)
Fixpoint place_x (base cb : Q) (bs : list horizontal) : list (Q * Q) :=
  match bs with
  | [] => []
  | b :: r =>
    let '(ms, me) := used_margins base cb b in
    let w := known_width base cb b in
    (ms, w) :: place_x (qmax base (w + (ms + me))) cb r
  end.
