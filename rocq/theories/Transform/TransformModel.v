(** Transforms: values/transform.cpp and props/transform.cpp (reading the properties [transform],
    [transform-origin], [transform-box] and the attribute [transform] of SVG), layout/paint.cpp:606-752
    (the matrix that content is painted with), layout/svg.cpp:211-310 (the matrix of an SVG viewport,
    and its size).

    Numbers are exact rationals; [Au]'s rounding is left out. The sine, cosine and tangent, and the number
    pi, are parameters: any functions, any number. *)
From Coq Require Import String List NArith ZArith QArith Qminmax Bool.
From Verif.Base Require Import Str Outcome.
From Verif.Css Require Import LexerModel ParserModel.
From Verif.Values Require Import Number LengthModel CalcModel ColorModel.
Import ListNotations.
Local Open Scope list_scope.
Local Open Scope Q_scope.

(** ** Reading values *)

(** values/calc.cpp:34-79 [CalcValue<T>] with what the parser builds of it (no [Leaf], no [Unary]) *)
Inductive operand (A : Type) := OT (a : A) | ON (q : Q).
Inductive cvalue (A : Type) := CPlain (x : operand A) | CBinary (o : op) (l r : operand A).
Arguments OT {A}. Arguments ON {A}. Arguments CPlain {A}. Arguments CBinary {A}.

(** [parseValue<T>]: the value and what is left. No caller below goes on after a failure that has moved the
    cursor. *)
Definition reader (A : Type) := list sst -> option (A * list sst).

(** values/calc.cpp:245-254 [parseVal] *)
Definition read_operand {A} (p : reader A) : reader (operand A) := fun c =>
  if next_is c NUMBER then
    match parse_number c with (Some q, r) => Some (ON q, r) | (None, _) => None end
  else match p c with Some (a, r) => Some (OT a, r) | None => None end.

(** values/calc.cpp:192-218 [ValueParser<CalcValue<T>>::parse], for any [T] *)
Definition read_calc {A} (p : reader A) : reader (cvalue A) := fun c =>
  let plain := match p c with Some (a, r) => Some (CPlain (OT a), r) | None => None end in
  match c with
  | FUNC name content :: rest =>
    if str_eqb (t_data name) (of_string "calc(") then
      match read_operand p content with
      | None => None
      | Some (l, c1) =>
        match parse_op c1 with
        | None => Some (CPlain l, rest)
        | Some (o, c2) =>
          match read_operand p (eat_wss c2) with
          | None => None
          | Some (r, _) => Some (CBinary o l r, rest)
          end
        end
      end
    else plain
  | _ => plain
  end.

(** values/primitives.cpp:56-70, values/angle.cpp:141-157 *)
Definition read_number : reader Q := fun c => match parse_number c with (Some q, r) => Some (q, r) | (None, _) => None end.
Definition angle := (Q * angle_unit)%type.
Definition read_angle : reader angle := fun c => match parse_angle c with Some (q, u, r) => Some ((q, u), r) | None => None end.
Definition zero_length : cvalue percent_or := CPlain (OT (Len (Abs 0 PX))).

(** values/transform.cpp:130-439: the transform functions *)
Inductive tfun :=
| Matrix (a b c d e f : cvalue Q)
| Translate (x y : cvalue percent_or)
| Scale (x y : cvalue Q)
| Rotate (a : cvalue angle)
| Skew (x y : cvalue angle)
| SkewX (a : cvalue angle)
| SkewY (a : cvalue angle).

Notation "'take' x , c <- e ; f" := (match e with Some (x, c) => f | None => None end)
  (at level 200, x pattern, c name, right associativity).
(** values/base.cpp:16-21 [skipOmmitableComma], where its result is not used *)
Definition comma (c : list sst) : list sst := snd (skip_comma c).

(** values/transform.cpp:139-166. What follows the sixth value is not looked at. *)
Fixpoint read_list {A} (p : reader A) (n : nat) (c : list sst) : option (list A) :=
  match n with
  | O => Some []
  | S n' =>
    match p c with
    | None => None
    | Some (a, c) =>
      match read_list p n' (match n' with O => c | _ => comma c end) with
      | Some l => Some (a :: l)
      | None => None
      end
    end
  end.
Definition matrix_of (content : list sst) : option tfun :=
  match read_list (read_calc read_number) 6 (eat_wss content) with
  | Some [a; b; c; d; e; f] => Some (Matrix a b c d e f)
  | _ => None
  end.

(** One value and nothing else: values/transform.cpp:185-195, 197-206, 248-258, 260-269, 311-322, 385-396,
    419-430 *)
Definition one_value {A} (p : reader A) (content : list sst) : option A :=
  take a, c <- p (eat_wss content);
  match eat_wss c with [] => Some a | _ => None end.
(** One or two values: values/transform.cpp:211-229, 274-293, 347-367 *)
Definition two_values {A} (p : reader A) (second : A -> A) (content : list sst) : option (A * A) :=
  take a, c <- p (eat_wss content);
  match comma c with
  | [] => Some (a, second a)
  | c => take b, c <- p c;
         match eat_wss c with [] => Some (a, b) | _ => None end
  end.

(** values/transform.cpp:139-439, tried in the order of 441-448 *)
Definition number_one : cvalue Q := CPlain (OT 1).
Definition zero_angle : cvalue angle := CPlain (OT (0, DEGREE)).
Definition lengths := read_calc parse_percent_or.
Definition numbers := read_calc read_number.
Definition angles := read_calc read_angle.
Definition function_of (name : token) (content : list sst) : option tfun :=
  if is_func name "matrix(" then matrix_of content
  else if is_func name "translateX(" then option_map (fun x => Translate x zero_length) (one_value lengths content)
  else if is_func name "translateY(" then option_map (fun y => Translate zero_length y) (one_value lengths content)
  else if is_func name "translate(" then
    option_map (fun v => Translate (fst v) (snd v)) (two_values lengths (fun _ => zero_length) content)
  else if is_func name "scaleX(" then option_map (fun x => Scale x number_one) (one_value numbers content)
  else if is_func name "scaleY(" then option_map (fun y => Scale number_one y) (one_value numbers content)
  else if is_func name "scale(" then option_map (fun v => Scale (fst v) (snd v)) (two_values numbers (fun x => x) content)
  else if is_func name "rotate(" then option_map Rotate (one_value angles content)
  else if is_func name "skew(" then
    option_map (fun v => Skew (fst v) (snd v)) (two_values angles (fun _ => zero_angle) content)
  else if is_func name "skewX(" then option_map SkewX (one_value angles content)
  else if is_func name "skewY(" then option_map SkewY (one_value angles content)
  else None.

(** values/transform.cpp:453-471 [ValueParser<Transform>::parse]. [None] is the keyword. *)
Definition transform := option (list tfun).
Fixpoint read_functions (c : list sst) : option (list tfun * list sst) :=
  match c with
  | FUNC name content :: r =>
    match function_of name content with
    | None => None
    | Some f =>
      (fix after (r : list sst) : option (list tfun * list sst) :=
         match r with
         | TOK t :: r' => if ttype_beq (t_type t) WHITESPACE then after r' else Some ([f], r)
         | _ => match read_functions r with Some (fs, r) => Some (f :: fs, r) | None => None end
         end) r
    end
  | _ => Some ([], c)
  end.
Definition ident (s : string) : token := mkT IDENT (of_string s).
Definition read_transform : reader transform := fun c =>
  match c with
  | [] => None
  | _ =>
    match skip_tok (ident "none") c with
    | Some r => Some (None, r)
    | None => match read_functions c with Some (fs, r) => Some (Some fs, r) | None => None end
    end
  end.

(** values/transform.cpp:28-37 [TransformOrigin] *)
Inductive xoff := X_LEFT | X_CENTER | X_RIGHT | XOff (v : cvalue percent_or).
Inductive yoff := Y_TOP | Y_CENTER | Y_BOTTOM | YOff (v : cvalue percent_or).
Record torigin := mkO { o_x : xoff; o_y : yoff }.

(** values/primitives.cpp:175-185: the alternatives in order; keywords of values/keywords.cpp:24-37 *)
Fixpoint read_keyword {A} (l : list (string * A)) : reader A := fun c =>
  match l with
  | [] => None
  | (k, a) :: l' => match skip_tok (ident k) c with Some r => Some (a, r) | None => read_keyword l' c end
  end.
Definition read_x : reader xoff := fun c =>
  match read_keyword [("left", X_LEFT); ("center", X_CENTER); ("right", X_RIGHT)]%string c with
  | Some x => Some x
  | None => take v, c <- lengths c; Some (XOff v, c)
  end.
Definition read_y : reader yoff := fun c =>
  match read_keyword [("top", Y_TOP); ("center", Y_CENTER); ("bottom", Y_BOTTOM)]%string c with
  | Some y => Some y
  | None => take v, c <- lengths c; Some (YOff v, c)
  end.
(** values/transform.cpp:45-114. The single value is [left], [center], [right] or an offset (29). *)
Definition two_offsets : reader torigin := fun c =>
  take x, c <- read_x c;
  match c with [] => None | _ => take y, c <- read_y c; Some (mkO x y, c) end.
Definition read_origin : reader torigin := fun c =>
  match c with
  | [] => None
  | _ =>
    match two_offsets c with
    | Some o => Some o
    | None =>
      take x, c <- read_x c;
      match c with [] => None | _ => Some (mkO x Y_CENTER, c) end
    end
  end.

(** values/transform.cpp:119-124 *)
Inductive tbox := CONTENT_BOX | BORDER_BOX | FILL_BOX | STROKE_BOX | VIEW_BOX.
Definition read_box : reader tbox :=
  read_keyword [("content-box", CONTENT_BOX); ("border-box", BORDER_BOX); ("fill-box", FILL_BOX);
                ("stroke-box", STROKE_BOX); ("view-box", VIEW_BOX)]%string.

(** ** Matrices *)

(** [Math::Trans2f] of Karm: a point [(x, y)] goes to
    [(x * xx + y * yx + ox, x * xy + y * yy + oy)]. *)
Record trans := mkTrans { xx : Q; xy : Q; yx : Q; yy : Q; ox : Q; oy : Q }.
Definition point := (Q * Q)%type.
Definition on (t : trans) (p : point) : point :=
  (fst p * xx t + snd p * yx t + ox t, fst p * xy t + snd p * yy t + oy t).
(** [a.multiply(b)]: first [a], then [b] *)
Definition multiply (a b : trans) : trans :=
  mkTrans (xx a * xx b + xy a * yx b) (xx a * xy b + xy a * yy b)
          (yx a * xx b + yy a * yx b) (yx a * xy b + yy a * yy b)
          (ox a * xx b + oy a * yx b + ox b) (ox a * xy b + oy a * yy b + oy b).
Definition identity : trans := mkTrans 1 0 0 1 0 0.
Definition translate (p : point) : trans := mkTrans 1 0 0 1 (fst p) (snd p).
Definition scale (p : point) : trans := mkTrans (fst p) 0 0 (snd p) 0 0.
(** [skew({x, y})] adds [x] times the vertical position to the horizontal one, and [y] the other way. *)
Definition skew (p : point) : trans := mkTrans 1 (snd p) (fst p) 1 0 0.
(** [t.translated(v)] and the like: first the translation, then [t] *)
Definition translated (t : trans) (p : point) : trans := multiply (translate p) t.
Definition scaled (t : trans) (p : point) : trans := multiply (scale p) t.

Definition neg (p : point) : point := (- fst p, - snd p).

Record rect := mkRect { r_x : Q; r_y : Q; r_w : Q; r_h : Q }.

(** values/length.cpp:78-104: the members of [Resolver{}] are zero. *)
Definition no_ctx : ctx := mkCtx 0 0 0 0 0 0 0 0 0 0 0 0 0 0 0 0 true.

(** values/calc.cpp:154-188 [resolve]; [None]: a division by zero *)
Definition resolve_operand {A} (res : A -> Q) (x : operand A) : Q := match x with OT a => res a | ON q => q end.
Definition resolve_cvalue {A} (res : A -> Q) (v : cvalue A) : option Q :=
  match v with
  | CPlain x => Some (resolve_operand res x)
  | CBinary o l r => resolve_infix o (resolve_operand res l) (resolve_operand res r)
  end.

Section Geometry.
Variables sine cosine tangent : Q -> Q.
Variable pi : Q.

(** [Math::Trans2f::rotate] *)
Definition rotate (a : Q) : trans := mkTrans (cosine a) (sine a) (- sine a) (cosine a) 0 0.
Definition rotated (t : trans) (a : Q) : trans := multiply (rotate a) t.

(** values/angle.cpp:70-81 [toRadian] *)
Definition to_radian (a : angle) : Q :=
  match snd a with
  | DEGREE => fst a * pi / 180
  | RADIAN => fst a
  | GRAD => fst a * pi / 200
  | TURN => fst a * 2 * pi
  end.

Definition len (v : cvalue percent_or) (relative : Q) : option Q :=
  resolve_cvalue (fun x => resolve_percent_or (fun q => q) x no_ctx relative) v.
Definition num (v : cvalue Q) : option Q := resolve_cvalue (fun q => q) v.
Definition ang (v : cvalue angle) : option Q := resolve_cvalue to_radian v.

Definition bind {A B} (x : option A) (f : A -> option B) : option B := match x with Some a => f a | None => None end.
Notation "'get' x <- e ; f" := (bind e (fun x => f)) (at level 200, x name, right associativity).

(** layout/paint.cpp:606-627 [_resolveTransformReferenceSVG], 629-650 [_resolveTransformReferenceCSS] *)
Definition reference_svg (b : tbox) (object stroke view : rect) : rect :=
  match b with
  | CONTENT_BOX => object
  | BORDER_BOX => stroke
  | FILL_BOX => object
  | STROKE_BOX => stroke
  | VIEW_BOX => view
  end.
Definition reference_css (b : tbox) (content border : rect) : rect :=
  match b with
  | CONTENT_BOX => content
  | BORDER_BOX => border
  | FILL_BOX => content
  | STROKE_BOX => border
  | VIEW_BOX => border
  end.

(** layout/paint.cpp:652-686 [_resolveTransformOrigin] *)
Definition resolve_origin (box : rect) (o : torigin) : option point :=
  get x <- match o_x o with
           | X_LEFT => Some (r_x box)
           | X_RIGHT => Some (r_x box + r_w box)
           | X_CENTER => Some (r_x box + r_w box / 2)
           | XOff v => get q <- len v (r_w box); Some (r_x box + q)
           end;
  get y <- match o_y o with
           | Y_TOP => Some (r_y box)
           | Y_BOTTOM => Some (r_y box + r_h box)
           | Y_CENTER => Some (r_y box + r_h box / 2)
           | YOff v => get q <- len v (r_h box); Some (r_y box + q)
           end;
  Some (x, y).

(** layout/paint.cpp:694-741: the matrix of one function *)
Definition trans_of (box : rect) (f : tfun) : option trans :=
  match f with
  | Matrix a b c d e g =>
    get a <- num a; get b <- num b; get c <- num c; get d <- num d; get e <- num e; get g <- num g;
    Some (mkTrans a b c d e g)
  | Translate x y => get x <- len x (r_w box); get y <- len y (r_h box); Some (translate (x, y))
  | Scale x y => get x <- num x; get y <- num y; Some (scale (x, y))
  | Rotate a => get a <- ang a; Some (rotate a)
  | Skew x y => get x <- ang x; get y <- ang y; Some (skew (tangent x, tangent y))
  | SkewX a => get a <- ang a; Some (skew (tangent a, 0))
  | SkewY a => get a <- ang a; Some (skew (0, tangent a))
  end.

(** layout/paint.cpp:688-745 [_resolveTransform] *)
Fixpoint compose (box : rect) (result : trans) (fs : list tfun) : option trans :=
  match fs with
  | [] => Some result
  | f :: fs' => get t <- trans_of box f; compose box (multiply t result) fs'
  end.
Definition resolve_transform (box : rect) (origin : point) (fs : list tfun) : option trans :=
  get t <- compose box (translate origin) fs;
  Some (multiply (translate (neg origin)) t).

(** layout/paint.cpp:747-752 [_applyTransform]: the matrix that the content is painted with *)
Definition painted (box : rect) (o : torigin) (fs : list tfun) : option trans :=
  get p <- resolve_origin box o; resolve_transform box p fs.

(** ** The attribute [transform] of SVG *)

(** What [Io::format] of Karm prints for a number *)
Variable fmt : Q -> str.
Definition number_token (q : Q) : sst := TOK (mkT NUMBER (fmt q)).
Definition comma_token : sst := TOK (mkT COMMA (of_string ",")).
Definition space_token : sst := TOK (mkT WHITESPACE (of_string " ")).
(** props/transform.cpp:149-159: the text is read back by the lexer; here, what it reads. *)
Definition matrix_sst (t : trans) : sst :=
  FUNC (mkT FUNCTION (of_string "matrix("))
    [number_token (xx t); comma_token; space_token; number_token (xy t); comma_token; space_token;
     number_token (yx t); comma_token; space_token; number_token (yy t); comma_token; space_token;
     number_token (ox t); comma_token; space_token; number_token (oy t)].

(** props/transform.cpp:118-142: the angle and the center of [rotate(a, x, y)] *)
Definition rotate_args (content : list sst) : option (Q * Q * Q) :=
  take a, c <- read_number (eat_wss content);
  take x, c <- read_number (comma c);
  take y, c <- read_number (comma c);
  match eat_wss c with [] => Some (a, x, y) | _ => None end.
(** props/transform.cpp:115-162 [_expandSvgRotate]: a [rotate] without a center ends the loop. *)
Fixpoint expand_rotate (l : list sst) : list sst :=
  match l with
  | FUNC name content :: l' =>
    if is_func name "rotate(" then
      match rotate_args content with
      | None => l
      | Some (a, x, y) =>
        matrix_sst (translated (rotated (translated identity (x, y)) (a * pi / 180)) (- x, - y)) :: expand_rotate l'
      end
    else FUNC name content :: expand_rotate l'
  | s :: l' => s :: expand_rotate l'
  | [] => []
  end.

(** props/transform.cpp:164-193 [_fixTransformNumberToDimensions] *)
Definition with_unit (u : string) (s : sst) : sst :=
  match s with
  | TOK t => if ttype_beq (t_type t) NUMBER then TOK (mkT DIMENSION (t_data t ++ of_string u)) else s
  | _ => s
  end.
Definition fix_function (s : sst) : sst :=
  match s with
  | FUNC name content =>
    if is_func name "translate(" then FUNC name (map (with_unit "px") content)
    else if is_func name "rotate(" || is_func name "skewX(" || is_func name "skewY("
         then FUNC name (map (with_unit "deg") content)
         else s
  | _ => s
  end.

(** props/transform.cpp:195-203 [parsePresentationAttribute], from the component values on; what follows the
    value is not looked at. *)
Definition svg_attribute (l : list sst) : option transform :=
  option_map fst (read_transform (map fix_function (expand_rotate l))).

End Geometry.

(** ** SVG viewports *)

(** values/svg.cpp:55-65 [SvgViewBox] *)
Definition viewbox := rect.

(** layout/svg.cpp:211-270 [_computeEquivalentTransformOfSVGViewport]: [xMidYMid] and [meet] always. [None]:
    a division by zero, which gives infinities. *)
Definition viewport_transform (vb : viewbox) (pos size : point) : option trans :=
  if Qeq_bool (r_w vb) 0 || Qeq_bool (r_h vb) 0 then None else
  let s := Qmin (fst size / r_w vb) (snd size / r_h vb) in
  let tx := fst pos - r_x vb * s + (fst size - r_w vb * s) / 2 in
  let ty := snd pos - r_y vb * s + (snd size - r_h vb * s) / 2 in
  Some (scaled (translate (tx, ty)) (s, s)).

(** layout/base/fragment.cpp:296-333 [SvgRootFragment]; layout/svg.cpp:272-287 [_commitRoot] *)
Record svg_root := mkSvg { v_trans : trans; v_box : rect }.
Definition commit_root (vb : option viewbox) (pos size : point) : option svg_root :=
  match (match vb with Some vb => viewport_transform vb pos size | None => Some (translate pos) end) with
  | Some t => Some (mkSvg t (mkRect (fst pos) (snd pos) (fst size) (snd size)))
  | None => None
  end.
(** layout/base/fragment.cpp:330-333 [offset] *)
Definition offset_root (r : svg_root) (d : point) : svg_root := mkSvg (translated (v_trans r) d) (v_box r).
(** layout/paint.cpp:282-299, 329-339: where a point of the content is painted, and the rectangle that it is
    clipped to; nothing when that has no area. *)
Definition paint_root (r : svg_root) : option (trans * rect) :=
  if Qeq_bool (Qmin (r_w (v_box r)) (r_h (v_box r))) 0 then None else Some (v_trans r, v_box r).

(** layout/svg.cpp:56-91 [intrinsicAspectRatio], 291-310 [_defaultSizing]; [w], [h]: the absolute lengths that
    [width] and [height] are, if they are. A relative length counts as zero there (81-82) and is [Some 0]. *)
Definition aspect_ratio (vb : option viewbox) (w h : option Q) : option Q :=
  match w, h with
  | Some w, Some h => Some (w / h)
  | _, _ => match vb with Some vb => Some (r_w vb / r_h vb) | None => None end
  end.
Definition default_sizing (known : option Q * option Q) (ratio : option Q) (default : point) : point :=
  match known with
  | (Some x, Some y) => (x, y)
  | (Some x, None) => (x, match ratio with Some a => x / a | None => snd default end)
  | (None, Some y) => (match ratio with Some a => y * a | None => fst default end, y)
  | (None, None) => (fst default, match ratio with Some a => fst default / a | None => snd default end)
  end.
