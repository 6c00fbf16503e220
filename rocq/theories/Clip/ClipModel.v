(** Clipping with [clip-path]: values/background.cpp:43-242 (positions), values/basic-shape.cpp (shapes),
    props/visibility.cpp:99-138 (the property) and layout/paint.cpp:405-602 (what is left of the content).

    Numbers are exact rationals; [Au]'s rounding is left out. Not modelled, and so parameters: how
    [path(...)] is read, how corner radii are read (in values/borders.cpp) and resolved
    (in layout/paint.cpp), and the square root in the radius of a circle. *)
From Coq Require Import String List NArith ZArith QArith Qminmax Qabs Bool.
From Verif.Base Require Import Str.
From Verif.Css Require Import LexerModel ParserModel.
From Verif.Values Require Import LengthModel CalcModel ColorModel.
From Verif.Transform Require Import TransformModel.
Import ListNotations.
Local Open Scope list_scope.
Local Open Scope Q_scope.

(** A failure of the parsers of lengths and keywords leaves the cursor where it was
    (values/length.cpp:293-312, 399-418, values/percent.cpp:20-33, values/calc.cpp:192-218). *)
Notation length_value := (cvalue percent_or).

(** ** Positions *)

(** values/background.cpp:43-50 [BackgroundPosition] *)
Inductive hside := H_LEFT | H_CENTER | H_RIGHT.
Inductive vside := V_TOP | V_CENTER | V_BOTTOM.
Record position := mkPos { p_h : hside; p_x : length_value; p_v : vside; p_y : length_value }.
Definition zero_percent : length_value := CPlain (OT (Percent 0)).

(** values/background.cpp:81 [Item] *)
Inductive item := LEFT | CENTER | RIGHT | TOP | BOTTOM | Off (v : length_value).
Definition read_item : reader item := fun c =>
  match read_keyword [("left", LEFT); ("center", CENTER); ("right", RIGHT); ("top", TOP); ("bottom", BOTTOM)]%string c with
  | Some x => Some x
  | None => take v, c <- lengths c; Some (Off v, c)
  end.
(** values/background.cpp:83-92 *)
Fixpoint read_items (n : nat) (c : list sst) : list item * list sst :=
  match n, c with
  | O, _ | _, [] => ([], c)
  | S n, _ =>
    match read_item (eat_wss c) with
    | Some (i, c1) => let '(l, c2) := read_items n (eat_wss c1) in (i :: l, c2)
    | None => ([], eat_wss c)
    end
  end.

(** values/background.cpp:104-146, without the exchange *)
Definition two_items (a b : item) : option position :=
  match match a with
        | LEFT => Some (H_LEFT, zero_percent) | RIGHT => Some (H_RIGHT, zero_percent) | CENTER => Some (H_CENTER, zero_percent)
        | Off v => Some (H_LEFT, v)
        | TOP | BOTTOM => None
        end,
        match b with
        | TOP => Some (V_TOP, zero_percent) | BOTTOM => Some (V_BOTTOM, zero_percent) | CENTER => Some (V_CENTER, zero_percent)
        | Off v => Some (V_TOP, v)
        | LEFT | RIGHT => None
        end with
  | Some (h, x), Some (v, y) => Some (mkPos h x v y)
  | _, _ => None
  end.
(** values/background.cpp:196-237: the second pair starts [tail]; [h_set] is [hSet]. What follows the
    value of the second pair is not looked at. *)
Definition last_value (old : length_value) (l : list item) : option length_value :=
  match l with [] => Some old | Off v :: _ => Some v | _ => None end.
Definition second_horizontal (h_set : bool) (p : position) (h : hside) (rest : list item) : option position :=
  match (if h_set then match p_h p with H_CENTER => Some (mkPos H_CENTER (p_x p) V_CENTER (p_x p)) | _ => None end
         else Some p) with
  | None => None
  | Some q => option_map (fun x => mkPos h x (p_v q) (p_y q)) (last_value (p_x q) rest)
  end.
Definition second_vertical (p : position) (v : vside) (rest : list item) : option position :=
  option_map (fun y => mkPos (p_h p) (p_x p) v y) (last_value (p_y p) rest).
Definition second_pair (h_set : bool) (p : position) (tail : list item) : option position :=
  match tail with
  | LEFT :: rest => second_horizontal h_set p H_LEFT rest
  | RIGHT :: rest => second_horizontal h_set p H_RIGHT rest
  | TOP :: rest => second_vertical p V_TOP rest
  | BOTTOM :: rest => second_vertical p V_BOTTOM rest
  | CENTER :: rest => second_vertical p V_CENTER rest
  | Off _ :: _ | [] => None
  end.
(** values/background.cpp:148-240, for three or four items *)
Definition pairs (a b : item) (rest : list item) : option position :=
  let '(v, tail) := match b with Off v => (v, rest) | _ => (zero_percent, b :: rest) end in
  match a with
  | LEFT => second_pair true (mkPos H_LEFT v V_TOP zero_percent) tail
  | RIGHT => second_pair true (mkPos H_RIGHT v V_TOP zero_percent) tail
  | CENTER => second_pair true (mkPos H_CENTER zero_percent V_TOP zero_percent) (b :: rest)
  | TOP => second_pair false (mkPos H_LEFT zero_percent V_TOP v) tail
  | BOTTOM => second_pair false (mkPos H_LEFT zero_percent V_BOTTOM v) tail
  | Off _ => None
  end.
(** values/background.cpp:94-240 *)
Definition of_items (l : list item) : option position :=
  match l with
  | [] => None
  | [TOP] => two_items CENTER TOP
  | [BOTTOM] => two_items CENTER BOTTOM
  | [a] => two_items a CENTER
  | [CENTER; LEFT] => two_items LEFT CENTER
  | [CENTER; RIGHT] => two_items RIGHT CENTER
  | [a; b] => two_items a b
  | a :: b :: rest => pairs a b rest
  end.
(** values/background.cpp:75-242: the items stay read when they are no position. *)
Definition read_position (c : list sst) : option position * list sst :=
  let '(l, c1) := read_items 4 c in (of_items l, c1).

(** ** Shapes *)

Section Clip.
Context {Pa R C : Type} (read_path : list sst -> option Pa) (read_radii : reader R) (sharp : R)
        (resolve_radii : R -> rect -> C) (sharp_corners : C) (diagonal : Q -> Q -> Q).

(** values/basic-shape.cpp:53-56 [ShapeRadius] *)
Inductive radius := CLOSEST | FARTHEST | Radius (v : length_value).
Definition read_radius : reader radius := fun c =>
  match lengths c with
  | Some (v, r) => Some (Radius v, r)
  | None => read_keyword [("closest-side", CLOSEST); ("farthest-side", FARTHEST)]%string c
  end.

(** values/basic-shape.cpp:61-68, 106-114, 154-161, 201-208, 250-257, 299-306, 355-362; the sides of
    [Inset] and [Rect] are the top, the right, the bottom and the left one. *)
Inductive shape :=
| Circle (r : radius) (p : position)
| Ellipse (rx ry : radius) (p : position)
| Inset (t r b l : length_value) (corners : R)
| PathShape (p : Pa)
| Polygon (evenodd : bool) (points : list (length_value * length_value))
| Rect (t r b l : length_value) (corners : R)
| Xywh (x y w h : length_value) (corners : R).

Definition middle : position := mkPos H_CENTER zero_percent V_CENTER zero_percent.
(** values/basic-shape.cpp:84-94, 132-142. A position that is wrong is passed over. *)
Definition at_position (c : list sst) : option position :=
  let c := eat_wss c in
  match skip_tok (ident "at") c with
  | Some c1 =>
    let '(p, c2) := read_position (eat_wss c1) in
    match eat_wss c2 with [] => Some (match p with Some p => p | None => middle end) | _ => None end
  | None => match c with [] => Some middle | _ => None end
  end.
(** values/basic-shape.cpp:70-101 *)
Definition circle_of (content : list sst) : option shape :=
  let '(r, c) := match read_radius content with Some x => x | None => (CLOSEST, content) end in
  option_map (Circle r) (at_position c).
(** values/basic-shape.cpp:116-149 *)
Definition ellipse_of (content : list sst) : option shape :=
  match read_radius content with
  | Some (rx, c) => take ry, c <- read_radius (eat_wss c); option_map (Ellipse rx ry) (at_position c)
  | None => option_map (Ellipse CLOSEST CLOSEST) (at_position content)
  end.

(** values/basic-shape.cpp:179-189, 334-343, 386-396 *)
Definition rounded (c : list sst) : option R :=
  let c := eat_wss c in
  match skip_tok (ident "round") c with
  | Some c1 =>
    let c1 := eat_wss c1 in
    let '(r, c2) := match read_radii c1 with Some x => x | None => (sharp, c1) end in
    match eat_wss c2 with [] => Some r | _ => None end
  | None => match c with [] => Some sharp | _ => None end
  end.
(** values/insets.cpp:65-89: no white space is skipped. One value is for all sides, two are for the
    vertical and the horizontal sides, three are for the top, the horizontal sides and the bottom. *)
Definition read_insets : reader (length_value * length_value * length_value * length_value) := fun c =>
  take t, c <- lengths c;
  match lengths c with
  | None => Some (t, t, t, t, c)
  | Some (r, c) =>
    match lengths c with
    | None => Some (t, r, t, r, c)
    | Some (b, c) =>
      match lengths c with
      | None => Some (t, r, b, r, c)
      | Some (l, c) => Some (t, r, b, l, c)
      end
    end
  end.
(** values/basic-shape.cpp:163-196 *)
Definition inset_of (content : list sst) : option shape :=
  match read_insets content with
  | Some (t, r, b, l, c) => option_map (Inset t r b l) (rounded c)
  | None => None
  end.

(** values/basic-shape.cpp:269-284; the fuel is the number of components, of which each point takes two *)
Fixpoint read_points (fuel : nat) (begin : bool) (c : list sst) : option (list (length_value * length_value)) :=
  match (if begin then Some c else skip_type COMMA c) with
  | None | Some [] => Some []
  | Some c1 =>
    match fuel with
    | O => None
    | S fuel =>
      take x, c2 <- lengths (eat_wss c1);
      take y, c3 <- lengths (eat_wss c2);
      option_map (cons (x, y)) (read_points fuel false (eat_wss c3))
    end
  end.
(** values/basic-shape.cpp:38-51, 259-294 *)
Definition polygon_of (content : list sst) : option shape :=
  let '(rule, begin, c) :=
    match read_keyword [("nonzero", false); ("evenodd", true)]%string content with
    | Some (rule, c) => (rule, false, c)
    | None => (false, true, content)
    end in
  match read_points (S (List.length c)) begin c with
  | None | Some [] => None
  | Some l => Some (Polygon rule l)
  end.

(** values/basic-shape.cpp:318-332: a side, or [auto] for the side of the box *)
Definition read_side (auto : length_value) : reader length_value := fun c =>
  let c := eat_wss c in
  match read_keyword [("auto", tt)]%string c with
  | Some (_, r) => Some (auto, r)
  | None => lengths c
  end.
Definition whole_percent : length_value := CPlain (OT (Percent 100)).
(** values/basic-shape.cpp:308-350 *)
Definition rect_of (content : list sst) : option shape :=
  take t, c <- read_side zero_percent content;
  take r, c <- read_side whole_percent c;
  take b, c <- read_side whole_percent c;
  take l, c <- read_side zero_percent c;
  option_map (Rect t r b l) (rounded c).
(** values/basic-shape.cpp:364-403 *)
Definition xywh_of (content : list sst) : option shape :=
  take x, c <- lengths (eat_wss content);
  take y, c <- lengths (eat_wss c);
  take w, c <- lengths (eat_wss c);
  take h, c <- lengths (eat_wss c);
  option_map (Xywh x y w h) (rounded c).

(** values/basic-shape.cpp:409-410, with values/primitives.cpp:175-185 *)
Definition shape_of (name : token) (content : list sst) : option shape :=
  if is_func name "circle(" then circle_of content
  else if is_func name "ellipse(" then ellipse_of content
  else if is_func name "inset(" then inset_of content
  else if is_func name "path(" then option_map PathShape (read_path content)
  else if is_func name "polygon(" then polygon_of content
  else if is_func name "rect(" then rect_of content
  else if is_func name "xywh(" then xywh_of content
  else None.
Definition read_shape : reader shape := fun c =>
  match c with
  | FUNC name content :: r => option_map (fun s => (s, r)) (shape_of name content)
  | _ => None
  end.

(** values/basic-shape.cpp:26-36 [GeometryBox] *)
Inductive gbox := G_BORDER | G_PADDING | G_CONTENT | G_MARGIN | G_FILL | G_STROKE | G_VIEW.
Definition read_gbox : reader gbox :=
  read_keyword [("border-box", G_BORDER); ("padding-box", G_PADDING); ("content-box", G_CONTENT); ("margin-box", G_MARGIN);
                ("fill-box", G_FILL); ("stroke-box", G_STROKE); ("view-box", G_VIEW)]%string.

(** values/basic-shape.cpp:412-444 [BasicShape] *)
Record clip := mkClip { c_shape : option shape; c_box : gbox }.
Definition maybe {A} (p : reader A) (c : list sst) : option A * list sst :=
  match p c with Some (a, r) => (Some a, r) | None => (None, c) end.
Definition read_clip : reader clip := fun c =>
  let '(box, c1) := maybe read_gbox c in
  let '(s, c2) := maybe read_shape c1 in
  match s, box with
  | None, None => None
  | Some s, None => let '(box, c3) := maybe read_gbox c2 in
                    Some (mkClip (Some s) (match box with Some b => b | None => G_BORDER end), c3)
  | s, Some b => Some (mkClip s b, c2)
  end.
(** props/visibility.cpp:101, 118-120; [None] is the keyword. *)
Definition read_clip_path : reader (option clip) := fun c =>
  match read_clip c with
  | Some (k, r) => Some (Some k, r)
  | None => match skip_tok (ident "none") c with Some r => Some (None, r) | None => None end
  end.

(** ** What is left of the content *)

Local Notation "'get' x <- e ; f" := (bind e (fun x => f)) (at level 200, x name, right associativity).

(** layout/paint.cpp:405-425 [_resolveBackgroundPosition]; [None]: a division by zero in a [calc()] *)
Definition resolve_position (p : position) (box : rect) : option point :=
  get x <- match p_h p with
           | H_LEFT => len (p_x p) (r_w box)
           | H_RIGHT => get q <- len (p_x p) (r_w box); Some (r_w box - q)
           | H_CENTER => Some (r_w box / 2)
           end;
  get y <- match p_v p with
           | V_TOP => len (p_y p) (r_h box)
           | V_BOTTOM => get q <- len (p_y p) (r_h box); Some (r_h box - q)
           | V_CENTER => Some (r_h box / 2)
           end;
  Some (x, y).

(** The boxes of a fragment, with the corner radii of the border *)
Record boxes := mkBoxes { b_border : rect; b_padding : rect; b_content : rect; b_margin : rect; b_radii : C }.
(** layout/paint.cpp:433-460 *)
Definition reference (b : boxes) (g : gbox) : rect * C :=
  match g with
  | G_BORDER => (b_border b, b_radii b)
  | G_PADDING => (b_padding b, sharp_corners)
  | G_CONTENT => (b_content b, sharp_corners)
  | G_MARGIN => (b_margin b, sharp_corners)
  | G_FILL => (b_content b, sharp_corners)
  | G_STROKE => (b_border b, b_radii b)
  | G_VIEW => (b_border b, sharp_corners)
  end.

(** What [Math::Path] is told to draw. The [round()] of layout/paint.cpp:463 is left out. *)
Inductive region :=
| RRect (r : rect) (corners : C)
| REllipse (center : point) (rx ry : Q)
| RPolygon (evenodd : bool) (points : list point)
| RPath (p : Pa) (offset : point).

Definition min4 (a b c d : Q) : Q := Qmin (Qmin a b) (Qmin c d).
Definition max4 (a b c d : Q) : Q := Qmax (Qmax a b) (Qmax c d).
(** layout/paint.cpp:491-514; [diagonal w h] is the square root of (h² + w²) / 2 *)
Definition circle_radius (r : radius) (box : rect) (c : point) : option Q :=
  match r with
  | CLOSEST => Some (min4 (Qabs (r_w box - fst c)) (fst c) (snd c) (Qabs (r_h box - snd c)))
  | FARTHEST => Some (max4 (Qabs (r_w box - fst c)) (fst c) (snd c) (Qabs (r_h box - snd c)))
  | Radius v => len v (diagonal (r_w box) (r_h box))
  end.
(** layout/paint.cpp:567-591 *)
Definition ellipse_radius (r : radius) (whole c : Q) : option Q :=
  match r with
  | CLOSEST => Some (Qmin (Qabs (whole - c)) c)
  | FARTHEST => Some (Qmax (Qabs (whole - c)) c)
  | Radius v => len v whole
  end.
(** layout/paint.cpp:469-488 *)
Fixpoint resolve_points (box : rect) (l : list (length_value * length_value)) : option (list point) :=
  match l with
  | [] => Some []
  | (x, y) :: l =>
    get x <- len x (r_w box); get y <- len y (r_h box); get ps <- resolve_points box l;
    Some ((r_x box + x, r_y box + y) :: ps)
  end.
(** layout/paint.cpp:467-602; [shrink] of Karm's [Rect] takes the insets off the sides. *)
Definition region_of (box : rect) (s : shape) : option region :=
  match s with
  | Polygon rule l => option_map (RPolygon rule) (resolve_points box l)
  | Circle r p =>
    get c <- resolve_position p box; get q <- circle_radius r box c;
    Some (REllipse (fst c + r_x box, snd c + r_y box) q q)
  | Inset t r b l k =>
    get l <- len l (r_w box); get r <- len r (r_w box); get t <- len t (r_h box); get b <- len b (r_h box);
    Some (RRect (mkRect (r_x box + l) (r_y box + t) (r_w box - l - r) (r_h box - t - b)) (resolve_radii k box))
  | Xywh x y w h k =>
    get x <- len x (r_w box); get y <- len y (r_h box); get w <- len w (r_w box); get h <- len h (r_h box);
    Some (RRect (mkRect (r_x box + x) (r_y box + y) w h) (resolve_radii k box))
  | Rect t r b l k =>
    get t <- len t (r_h box); get r <- len r (r_w box); get b <- len b (r_h box); get l <- len l (r_w box);
    Some (RRect (mkRect (r_x box + l) (r_y box + t) (Qmax (r - l) 0) (Qmax (b - t) 0)) (resolve_radii k box))
  | Ellipse rx ry p =>
    get c <- resolve_position p box;
    get a <- ellipse_radius rx (r_w box) (fst c); get b <- ellipse_radius ry (r_h box) (snd c);
    Some (REllipse (fst c + r_x box, snd c + r_y box) a b)
  | PathShape p => Some (RPath p (r_x box, r_y box))
  end.
(** layout/paint.cpp:429-603 [_applyClip] *)
Definition clip_region (b : boxes) (k : clip) : option region :=
  let '(box, corners) := reference b (c_box k) in
  match c_shape k with
  | None => Some (RRect box corners)
  | Some s => region_of box s
  end.
End Clip.
