(* What should be painted of a tree of boxes, and in which order; said of the
   boxes, without fragments, placeholders, scenes or passes. *)
From Coq Require Import List Arith ZArith Bool Permutation.
From Verif Require Import Paint.PaintModel.
Import ListNotations.
Local Open Scope list_scope.

Definition mark := (what * list (effect * nat))%type.

(* The effects an element sets, the outer one first. *)
Definition effects (id : nat) (s : style) : list (effect * nat) :=
  (if s_opacity s then [(OPACITY, id)] else [])
  ++ (if s_transform s then [(TRANSFORM, id)] else [])
  ++ (if s_clip s then [(CLIP, id)] else []).

Definition positioned (s : style) : bool := negb (is_static s).
Definition running (b : box) : bool := pos_eqb (s_pos (b_style b)) RUNNING.

(* What a box shows of itself. *)
Definition shows (b : box) : list what :=
  if s_hidden (b_style b) then []
  else match b_kind b with
       | LINES | REPLACED => (if b_paints b then [Decor (b_id b)] else []) ++ [Content (b_id b)]
       | SHAPE => if b_paints b then [Shape (b_id b)] else []
       | SVG | GROUP => []
       | _ => if b_paints b then [Decor (b_id b)] else []
       end.

(* ---- Everything, in tree order ------------------------------------------- *)

(* Every box shows itself and what is in it, under its effects and those around
   it. What is in an SVG is in its viewport, what is in a foreignObject within
   its borders. Running boxes are shown elsewhere. *)
Fixpoint expected (in_svg : bool) (fx : list (effect * nat)) (b : box) : list mark :=
  match b with
  | Box id k s paints kids =>
      let fx := fx ++ effects id s in
      let here := map (fun w => (w, fx)) (shows b) in
      if running b then []
      else match k with
           | SVG => if paints then flat_map (expected true (fx ++ [(VIEW, id)])) kids else []
           | SHAPE => here
           | GROUP => flat_map (expected true fx) kids
           | _ =>
               let fx := if in_svg then fx ++ [(VIEW, id)] else fx in
               map (fun w => (w, fx)) (shows b) ++ flat_map (expected false fx) kids
           end
  end.

(* ---- Boxes that are laid out and painted as they should ------------------- *)

Fixpoint everywhere (P : box -> Prop) (b : box) : Prop :=
  P b /\ (fix all l := match l with [] => True | c :: l' => everywhere P c /\ all l' end) (b_kids b).

Definition is_kind (ks : list kind) (b : box) : Prop := In (b_kind b) ks.
Definition each (P : box -> Prop) (b : box) : Prop := Forall P (b_kids b).

(* The styles of the boxes in [b] whose containing block is not in [b]. *)
Fixpoint escaping (b : box) : list style :=
  match b with
  | Box _ k s _ kids =>
      match k with
      | TABLE | SVG | GROUP | SHAPE | REPLACED => []
      | _ =>
          filter (fun e => negb (contains s e))
            (flat_map (fun c => if running c then [] else (if out_of_flow (b_style c) then [b_style c] else []) ++ escaping c) kids)
      end
  end.

Definition plain (s : style) : Prop :=
  s_pos s = STATIC /\ s_z s = None /\ s_clip s = false /\ s_transform s = false /\ s_opacity s = false.

Definition tame_box (b : box) : Prop :=
  s_float (b_style b) = false
  /\ (s_pos (b_style b) = STATIC -> s_z (b_style b) <> Some 0%Z)
  /\ match b_kind b with
     | BLOCK => each (fun c => ~ is_kind [PART; SHAPE; GROUP] c) b
     | LINES => each (fun c => ~ is_kind [PART; SHAPE; GROUP] c /\ running c = false) b
     | FLEX => each (fun c => ~ is_kind [PART; SHAPE; GROUP] c /\ out_of_flow (b_style c) = false) b
     | TABLE => each (fun c => ~ is_kind [SHAPE; GROUP] c /\ running c = false /\ escaping c = []) b
     | PART => each (fun c => ~ is_kind [SHAPE; GROUP] c /\ running c = false /\ escaping c = []) b
               /\ plain (b_style b) /\ s_inline (b_style b) = false /\ b_paints b = false
     | REPLACED => b_kids b = []
     | SVG => each (fun c => ~ is_kind [PART] c /\ running c = false /\ escaping c = []
                             /\ (b_kind c = SVG -> b_paints c = true)) b
              /\ s_hidden (b_style b) = false
     | SHAPE => b_kids b = [] /\ s_hidden (b_style b) = false
     | GROUP => each (fun c => ~ is_kind [PART] c /\ running c = false /\ escaping c = []
                               /\ (b_kind c = SVG -> b_paints c = true)) b
     end.

(* No floats, no z-index: 0 without position, nothing out of flow in a flex
   container, nothing that leaves a table or an SVG, rows without style,
   SVGs and shapes that are visible; and parts where they belong. *)
Definition tame (b : box) : Prop :=
  everywhere tame_box b /\ ~ is_kind [PART; SHAPE; GROUP] b /\ running b = false.

(* In addition: clip and opacity are not set within an SVG, transform not of a
   foreignObject. *)
Definition clear_box (b : box) : Prop :=
  match b_kind b with
  | SVG | GROUP =>
      each (fun c => s_clip (b_style c) = false /\ s_opacity (b_style c) = false
                     /\ (~ is_kind [SVG; GROUP; SHAPE] c -> s_transform (b_style c) = false)) b
  | _ => True
  end.
Definition clear (b : box) : Prop := everywhere clear_box b.

(* ---- In order ------------------------------------------------------------ *)

(* https://www.w3.org/TR/CSS22/zindex.html: in a stacking context, first the
   element itself, then what has a negative level, then blocks, floats, lines,
   what is positioned or has level 0, and what has a positive level. Inline-level
   boxes, and positioned boxes, are painted as a whole but for the contexts and
   positioned boxes in them. A layer is a
   level and a place within level 0; layers come in order, within a layer things
   are in tree order. *)
Definition layer := (Z * nat)%type.
Definition blocks : layer := (0%Z, 0).
Definition lines : layer := (0%Z, 2).
Definition zero : layer := (0%Z, 3).
Definition before (a b : layer) : bool :=
  (fst a <? fst b)%Z || ((fst a =? fst b)%Z && (snd a <=? snd b)).
Definition in_layers (l : list (layer * list mark)) : list mark :=
  flat_map snd (sort (fun a b => before (fst a) (fst b)) l).

(* Which elements make a stacking context. *)
Definition makes_context (s : style) : bool :=
  (positioned s && negb (has_auto_z s)) || s_clip s || s_transform s || s_opacity s.

(* What a box shows of itself: its background, and its text or image. *)
Definition is_text (w : what) : bool := match w with Content _ => true | _ => false end.
Definition background (b : box) : list what := filter (fun w => negb (is_text w)) (shows b).
Definition text (b : box) : list what := filter is_text (shows b).

Inductive place := Within | InAnSvg | Alone.

(* What is painted of a box: as part of the context it is in, as element of an
   SVG, or as a context of its own. [text_with_box]: text is painted with the
   background of the block it is in, and not after all backgrounds of blocks. *)
Section Order.
Variable text_with_box : bool.

Definition text_layer : layer := if text_with_box then blocks else lines.

Definition own_layers (b : box) (fx : list (effect * nat)) : list (layer * list mark) :=
  [(blocks, map (fun w => (w, fx)) (background b)); (text_layer, map (fun w => (w, fx)) (text b))].

(* A box that is painted as a whole, but for what has a place of its own in the
   context. *)
Definition in_flow (l : layer * list mark) : bool := (fst (fst l) =? 0)%Z && (snd (fst l) <? 3).
Definition as_a_whole (at_ : layer) (b : box) (fx : list (effect * nat)) (ls : list (layer * list mark)) :
    list (layer * list mark) :=
  (at_, map (fun w => (w, fx)) (background b)
        ++ in_layers ((text_layer, map (fun w => (w, fx)) (text b)) :: filter in_flow ls))
  :: filter (fun l => negb (in_flow l)) ls.

Fixpoint ordered (p : place) (fx : list (effect * nat)) (b : box) : list (layer * list mark) :=
  match b with
  | Box id k s paints kids =>
      let inner := fun p fx => flat_map (ordered p fx) kids in
      let svg := fun fx => flat_map snd (inner InAnSvg fx) in
      (* the box as a context under [fx], without its own effects *)
      let alone := fun fx =>
        match k with
        | SVG => if paints then svg (fx ++ [(VIEW, id)]) else []
        | _ => map (fun w => (w, fx)) (background b)
               ++ in_layers ((text_layer, map (fun w => (w, fx)) (text b)) :: inner Within fx)
        end in
      if running b then []
      else
        match p with
        | Alone => [(zero, alone (fx ++ effects id s))]
        | InAnSvg =>
            let fx := fx ++ effects id s in
            [(zero, match k with
                    | SHAPE => map (fun w => (w, fx)) (shows b)
                    | GROUP => svg fx
                    | SVG => svg (fx ++ [(VIEW, id)])
                    | _ => alone (fx ++ [(VIEW, id)])
                    end)]
        | Within =>
            if makes_context s
            then [((z_or_0 s, if (z_or_0 s =? 0)%Z then 3 else 0), alone (fx ++ effects id s))]
            else if positioned s || s_inline s
            then let at_ := if positioned s then zero else lines in
                 match k with
                 | SVG => [(at_, alone fx)]
                 | _ => as_a_whole at_ b fx (inner Within fx)
                 end
            else match k with
                 | SVG => [(blocks, alone fx)]
                 | _ => own_layers b fx ++ inner Within fx
                 end
        end
  end.

Definition css_order (b : box) : list mark := flat_map snd (ordered Alone [] b).
End Order.

(* The levels of the contexts in [b] that are part of the context [b] is in. *)
Fixpoint levels (b : box) : list Z :=
  match b with
  | Box _ k s _ kids =>
      if running b then []
      else if makes_context s then [z_or_0 s]
      else match k with SVG => [] | _ => flat_map levels kids end
  end.

Definition orderly_box (b : box) : Prop :=
  let s := b_style b in
  (* contexts are made by positioned boxes, and by z-index or by other effects *)
  (s_pos s = STATIC -> s_z s = None /\ s_clip s = false /\ s_transform s = false /\ s_opacity s = false)
  /\ (s_clip s || s_transform s || s_opacity s = true -> z_or_0 s = 0%Z)
  (* what is in a positioned box with z-index auto stays at its level *)
  /\ (positioned s = true -> makes_context s = false ->
      Forall (fun c => Forall (fun z => z = 0%Z) (levels c)) (b_kids b))
  (* what is in an inline-level box is inline-level *)
  /\ (s_pos s = STATIC -> s_inline s = true ->
      each (fun c => running c = false -> s_pos (b_style c) = STATIC -> s_inline (b_style c) = true) b)
  (* nothing is behind the document element *)
  /\ (s_root s = true -> Forall (fun c => Forall (fun z => (0 <= z)%Z) (levels c)) (b_kids b))
  (* nor behind a foreignObject *)
  /\ match b_kind b with
     | SVG | GROUP =>
         Forall (fun c => makes_context (b_style c) = false ->
                          Forall (fun d => Forall (fun z => (0 <= z)%Z) (levels d)) (b_kids c)) (b_kids b)
     | _ => True
     end.
Definition orderly (b : box) : Prop :=
  everywhere orderly_box b
  /\ (makes_context (b_style b) = false -> Forall (fun c => Forall (fun z => (0 <= z)%Z) (levels c)) (b_kids b)).

(* ---- Containing blocks ---------------------------------------------------- *)

(* https://www.w3.org/TR/css-position-3/#containing-block: the containing block of
   an absolutely positioned box is made by the nearest ancestor that is positioned
   or transformed, that of a fixed one by the nearest ancestor that is transformed,
   and where there is none it is the initial containing block. *)
Definition can_hold (s : style) (ancestor : box) : bool :=
  match s_pos s with
  | FIXED => s_transform (b_style ancestor)
  | _ => positioned (b_style ancestor) || s_transform (b_style ancestor)
  end.
Definition containing_block (s : style) (ancestors : list box) : option nat :=
  option_map b_id (find (can_hold s) ancestors).

(* The boxes out of flow in [b], which is in [ancestors], the nearest first, each
   with its containing block. Parts of tables and of SVGs are not positioned. *)
Fixpoint containing_blocks (ancestors : list box) (b : box) : list (nat * option nat) :=
  match b with
  | Box _ k _ _ kids =>
      flat_map (fun c =>
        if running c then []
        else match k with
             | BLOCK | LINES | FLEX =>
                 if out_of_flow (b_style c) then [(b_id c, containing_block (b_style c) (b :: ancestors))] else []
             | _ => []
             end ++ containing_blocks (b :: ancestors) c) kids
  end.
