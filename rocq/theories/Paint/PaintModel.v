(* How the boxes of a document become fragments, where the fragments of boxes
   that are out of flow go, and in which order fragments are painted.
   Models src/vaev-engine/layout/paint.cpp and, as far as the shape of the
   fragment tree goes, layout-impl.cpp and the formatting contexts. Sizes and
   positions are not modelled here (see Layout/ and Flex/ and Table/), nor is
   breaking across pages: the whole box is laid out. *)
From Coq Require Import List Arith ZArith Bool.
Import ListNotations.
Local Open Scope list_scope.

(* values/insets.cpp:25 (Position). *)
Inductive position := STATIC | RELATIVE | ABSOLUTE | FIXED | STICKY | RUNNING.

Definition pos_eqb (a b : position) : bool :=
  match a, b with
  | STATIC, STATIC | RELATIVE, RELATIVE | ABSOLUTE, ABSOLUTE | FIXED, FIXED
  | STICKY, STICKY | RUNNING, RUNNING => true
  | _, _ => false
  end.

(* The part of style/computed.cpp:22-88 (ComputedValues) that painting looks
   at. [s_float] is "float is not none", [s_inline] "the outer display is
   inline" (values/display.cpp:159-161), [s_opacity] "opacity is not 1",
   [s_root] is not style but Box::isRootElementPrincipalBox
   (layout/base/box.cpp:102-113). *)
Record style := mkStyle {
  s_pos : position; s_z : option Z; s_float : bool; s_inline : bool; s_hidden : bool;
  s_clip : bool; s_transform : bool; s_opacity : bool; s_root : bool
}.

(* Which formatting context lays the box out: layout/base/layout-impl.cpp:24-53
   (_constructFormatingContext). BLOCK is also grid (layout/grid.cpp:10-12),
   cells, captions and table wrappers; LINES is a box whose content is text.
   PART is a row or group of rows, which has no formatting context. SHAPE and
   GROUP are elements in an SVG. A foreignObject is a box of another kind whose
   parent is SVG or GROUP. *)
Inductive kind := BLOCK | LINES | FLEX | TABLE | PART | REPLACED | SVG | SHAPE | GROUP.

(* layout/base/box.cpp:15-41 (Box). [paints] is "has a background, borders or an
   outline to paint"; of a SHAPE "is filled or stroked"; of SVG "has an area". *)
Inductive box := Box (id : nat) (k : kind) (s : style) (paints : bool) (kids : list box).

Definition b_id (b : box) := let 'Box i _ _ _ _ := b in i.
Definition b_kind (b : box) := let 'Box _ k _ _ _ := b in k.
Definition b_style (b : box) := let 'Box _ _ s _ _ := b in s.
Definition b_paints (b : box) := let 'Box _ _ _ p _ := b in p.
Definition b_kids (b : box) := let 'Box _ _ _ _ ks := b in ks.

(* layout/base/fragment.cpp:14-431. FBox has whether it has decorations and
   whether it has text or an image; FSvg is an SvgRootFragment. [oof] is the flag
   OOF. A placeholder (149-182) has the fragment that is, or would be, put in it;
   whether it has been put in it is known from the identifiers of those filled. *)
Inductive fkind := FBox (decor content : bool) | FSvg (area : bool) | FShape (paints : bool) | FGroup.
Inductive frag :=
  | Frag (id : nat) (k : fkind) (s : style) (oof : bool) (kids : list frag)
  | Place (id : nat) (s : style) (f : list frag).

(* ---- Layout -------------------------------------------------------------- *)

(* An entry of Output::outOfFlowStash: layout/base/output.cpp:75. The box is laid
   out when its containing block is found; as sizes are not modelled the result
   does not depend on it, so the entry carries it: the fragment, what it leaves
   out of flow and the placeholders filled in it. *)
Inductive pend := Pend (id : nat) (s : style) (f : list frag) (stash : list pend) (filled : list (nat * option nat)) (crash : bool).

(* layout/base/output.cpp:52-76 (Output), without sizes. [o_frags] is Opt<Fragment>
   but for a PART in a table, where it has the fragments of its cells. [o_filled]
   has each placeholder that has been filled and the box that filled it, None for
   the root. *)
Record out := mkOut { o_frags : list frag; o_stash : list pend; o_filled : list (nat * option nat); o_crash : bool }.

(* layout/base/box.cpp:115-125 (isRemovedFromFlow, isFloating). *)
Definition removed (s : style) : bool :=
  s_float s || match s_pos s with ABSOLUTE | FIXED | RUNNING => true | _ => false end.

(* block.cpp:289, inline.cpp:117, flex.cpp:1516. *)
Definition out_of_flow (s : style) : bool :=
  match s_pos s with ABSOLUTE | FIXED => true | _ => false end.

(* layout/positioned.cpp:135-170: isAbsolutePositioningContainingBlock and
   isFixedPositioningContainingBlock, as used in layout-impl.cpp:278-279. *)
Definition contains (cb : style) (s : style) : bool :=
  match s_pos s with
  | ABSOLUTE => negb (pos_eqb (s_pos cb) STATIC) || s_transform cb
  | FIXED => s_transform cb
  | _ => false
  end.

(* layout-impl.cpp:292: flags().set(Fragment::OOF). *)
Definition set_oof (f : frag) : frag :=
  match f with Frag i k s _ ks => Frag i k s true ks | Place _ _ _ => f end.

(* One entry of the loop layout-impl.cpp:275-300 (and 361-374): where this box is
   its containing block the placeholder is filled, the fragment becomes a child
   flagged OOF, and what it leaves out of flow is looked at as well; unwrapping a
   fragment that is not there ends the process. Simplified: what it leaves is
   looked at at once, not at the end of the queue, which only changes the order
   of the children flagged OOF and of the entries passed on. *)
Fixpoint settle (can : style -> bool) (h : option nat) (p : pend) : out :=
  match p with
  | Pend id s f stash filled crash =>
      if can s then
        let os := map (settle can h) stash in
        mkOut (map set_oof f ++ flat_map o_frags os) (flat_map o_stash os)
              ((id, h) :: filled ++ flat_map o_filled os)
              (crash || match f with [] => true | _ => false end || existsb o_crash os)
      else mkOut [] [p] [] false
  end.

Definition settle_all (can : style -> bool) (h : option nat) (o : out) : out :=
  let os := map (settle can h) (o_stash o) in
  mkOut (map (fun f => match f with
                       | Frag i k s b ks => Frag i k s b (ks ++ flat_map o_frags os)
                       | Place _ _ _ => f end) (o_frags o))
        (flat_map o_stash os)
        (o_filled o ++ flat_map o_filled os)
        (o_crash o || existsb o_crash os).

Definition placeholder (b : box) (o : out) : frag := Place (b_id b) (b_style b) (o_frags o).
Definition pending (b : box) (o : out) : pend :=
  Pend (b_id b) (b_style b) (o_frags o) (o_stash o) (o_filled o) (o_crash o).

Definition none : out := mkOut [] [] [] false.

(* block.cpp:283-383: a child out of flow leaves a placeholder, a running one is
   skipped. *)
Definition block_child (b : box) (o : out) : out :=
  match s_pos (b_style b) with
  | RUNNING => none
  | ABSOLUTE | FIXED => mkOut [placeholder b o] [pending b o] [] false
  | _ => o
  end.

(* inline.cpp:110-184. A running box is laid out like any other. *)
Definition line_child (b : box) (o : out) : out :=
  if out_of_flow (b_style b) then mkOut [placeholder b o] [pending b o] [] false else o.

Definition gather (os : list out) : out :=
  mkOut (flat_map o_frags os) (flat_map o_stash os) (flat_map o_filled os) (existsb o_crash os).

(* flex.cpp:669-700, 1471-1528, 1598-1608: the items are the children that are not
   removed from flow; the placeholders are added to the builder of the fragment
   after the fragment is built, unless there is no item, when what is out of flow
   is not passed on. *)
Definition flex_children (kos : list (box * out)) : out :=
  let items := map snd (filter (fun ko => negb (removed (b_style (fst ko)))) kos) in
  let oofs := filter (fun ko => out_of_flow (b_style (fst ko))) kos in
  match items with
  | [] => mkOut (map (fun ko => placeholder (fst ko) (snd ko)) oofs) [] [] false
  | _ =>
      let o := gather items in
      mkOut (o_frags o) (o_stash o ++ map (fun ko => pending (fst ko) (snd ko)) oofs) (o_filled o) (o_crash o)
  end.

(* table.cpp:1528-1572, 1751-1816: only cells have fragments, and what they leave
   out of flow is not passed on. Simplified: cells in document order.
   svg.cpp:166-204: neither is what a foreignObject leaves. *)
Definition dropped (o : out) : out := mkOut (o_frags o) [] (o_filled o) (o_crash o).

(* layout-impl.cpp:55-64, 262-306 (_dispatchFormatingContext, layoutContentBox)
   for a box and everything in it. [in_table]: the parent is a table or part of
   one, which looks for the cells in it. *)
Fixpoint lay (in_table : bool) (b : box) : out :=
  match b with
  | Box id k s paints kids =>
      let kid_outs (t : bool) := map (fun c => (c, lay t c)) kids in
      let frag1 (fk : fkind) (o : out) := mkOut [Frag id fk s false (o_frags o)] (o_stash o) (o_filled o) (o_crash o) in
      match k with
      | BLOCK => settle_all (contains s) (Some id)
                   (frag1 (FBox paints false) (gather (map (fun ko => block_child (fst ko) (snd ko)) (kid_outs false))))
      | LINES => settle_all (contains s) (Some id)
                   (frag1 (FBox paints true) (gather (map (fun ko => line_child (fst ko) (snd ko)) (kid_outs false))))
      | FLEX => settle_all (contains s) (Some id) (frag1 (FBox paints false) (flex_children (kid_outs false)))
      | TABLE => settle_all (contains s) (Some id) (frag1 (FBox paints false) (dropped (gather (map snd (kid_outs true)))))
      | REPLACED => frag1 (FBox paints true) none
      | SVG => frag1 (FSvg paints) (dropped (gather (map snd (kid_outs false))))
      | SHAPE => frag1 (FShape paints) none
      | GROUP => frag1 FGroup (dropped (gather (map snd (kid_outs false))))
      | PART => if in_table then gather (map snd (kid_outs true)) else none
      end
  end.

(* layout-impl.cpp:333-378 (layoutRoot): what is still out of flow is put in the
   root. *)
Definition layout_root (b : box) : out := settle_all (fun _ => true) None (lay false b).

(* ---- Scenes -------------------------------------------------------------- *)

(* What is painted: decorations, text or image, shape of a box. *)
Inductive what := Decor (id : nat) | Content (id : nat) | Shape (id : nat).

(* Scene::Clip, Transform, Opacity, of the properties clip-path, transform and
   opacity; VIEW is the transform and clip of the viewport of an SVG, or the clip
   of a foreignObject. *)
Inductive effect := CLIP | TRANSFORM | OPACITY | VIEW.

(* Scene nodes. The children of a stack have a zIndex, None being the least
   (Limits<isize>::MIN). *)
Inductive scene :=
  | Mark (w : what)
  | Fx (e : effect) (id : nat) (c : scene)
  | Stack (l : list (option Z * scene)).

Definition lez (a b : option Z) : bool :=
  match a, b with None, _ => true | Some _, None => false | Some x, Some y => Z.leb x y end.

(* Scene::Stack::prepare sorts the children by zIndex; children of equal zIndex
   stay in order. (Karm library, assumed.) *)
Fixpoint insert {A} (le : A -> A -> bool) (x : A) (l : list A) : list A :=
  match l with
  | [] => [x]
  | y :: l' => if le x y then x :: l else y :: insert le x l'
  end.
Fixpoint sort {A} (le : A -> A -> bool) (l : list A) : list A :=
  match l with [] => [] | x :: l' => insert le x (sort le l') end.

Fixpoint prepare (c : scene) : scene :=
  match c with
  | Mark w => Mark w
  | Fx e i c' => Fx e i (prepare c')
  | Stack l => Stack (sort (fun a b => lez (fst a) (fst b)) (map (fun zc => (fst zc, prepare (snd zc))) l))
  end.

(* What is painted, in order, each under the effects around it. *)
Fixpoint painted (fx : list (effect * nat)) (c : scene) : list (what * list (effect * nat)) :=
  match c with
  | Mark w => [(w, fx)]
  | Fx e i c' => painted (fx ++ [(e, i)]) c'
  | Stack l => flat_map (fun zc => painted fx (snd zc)) l
  end.

(* ---- Painting ------------------------------------------------------------ *)

(* layout/base/box.cpp:128-133 (impliesNewStackingContext). *)
Definition implies_new (s : style) : bool :=
  match s_z s with Some _ => true | None => false end || s_clip s || s_transform s || s_opacity s.

Definition has_auto_z (s : style) : bool := match s_z s with None => true | _ => false end.
Definition z_or_0 (s : style) : Z := match s_z s with Some z => z | None => 0%Z end.
Definition is_static (s : style) : bool := pos_eqb (s_pos s) STATIC.

(* paint.cpp:771-800: the predicates of steps 2 to 7. *)
Inductive pass := NEGATIVE | BLOCKS | FLOATS | INLINES | ZERO | POSITIVE.
Definition passes := [NEGATIVE; BLOCKS; FLOATS; INLINES; ZERO; POSITIVE].
Definition chosen (p : pass) (s : style) : bool :=
  match p with
  | NEGATIVE => (z_or_0 s <? 0)%Z
  | BLOCKS => has_auto_z s && negb (s_inline s) && is_static s
  | FLOATS => has_auto_z s && is_static s && s_float s
  | INLINES => has_auto_z s && s_inline s && is_static s
  | ZERO => (z_or_0 s =? 0)%Z && negb (is_static s)
  | POSITIVE => (0 <? z_or_0 s)%Z
  end.

(* paint.cpp:97-130 and 281-305 (_paintFrag of a box): decorations, then text or
   image. The decorations of the document element are in a Scene::Clear, whose
   zIndex is 0; those of other boxes that make a stacking context are lowest. *)
Definition own_box (id : nat) (s : style) (decor content : bool) : list (option Z * scene) :=
  if s_hidden s then []
  else (if decor then [(if s_root s then Some 0%Z else if implies_new s then None else Some 0%Z, Mark (Decor id))] else [])
       ++ (if content then [(Some 0%Z, Mark (Content id))] else []).

(* paint.cpp:801-816 (_establishStackingContext): the stack, in the effects. The
   zIndex of an effect is 0. *)
Definition establish (id : nat) (s : style) (inner : list (option Z * scene)) : option Z * scene :=
  let c := Stack inner in
  let c := if s_clip s then Fx CLIP id c else c in
  let c := if s_transform s then Fx TRANSFORM id c else c in
  let c := if s_opacity s then Fx OPACITY id c else c in
  (if s_clip s || s_transform s || s_opacity s then Some 0%Z else Some (z_or_0 s), c).

(* paint.cpp:138-147 (_applyTransformIfNeeded). *)
Definition transformed (id : nat) (s : style) (c : scene) : scene :=
  if s_transform s then Fx TRANSFORM id c else c.

(* What is done with a fragment: visited in one of the passes over the children of
   another (paint.cpp:343-388, the body of the loop of _paintChildren), painted as
   an element of an SVG (paint.cpp:222-250, _paintSVGElement), or made a stacking
   context (paint.cpp:764-800). *)
Inductive mode := Visit (p : pass) | InSvg | Context.

Section Paint.
(* The placeholders that have been filled. *)
Variable filled : nat -> bool.

Fixpoint go (m : mode) (f : frag) {struct f} : list (option Z * scene) :=
  match f with
  | Place id s fs =>
      match m with
      | Visit p =>
          if filled id then
            match fs with
            | Frag i k s' _ ks :: _ =>
                let all := fun p => flat_map (go (Visit p)) ks in
                let own :=
                  match k with
                  | FBox d c => own_box i s' d c
                  | FSvg area =>
                      if s_hidden s' || negb area then []
                      else [(Some 0%Z, Fx VIEW i (Stack (flat_map (go InSvg) ks)))]
                  | _ => []
                  end in
                let ctx := own ++ match k with FSvg _ => [] | _ => flat_map all passes end in
                if implies_new s' then if chosen p s' then [establish i s' ctx] else []
                else if negb (is_static s') then if chosen p s' then ctx else []
                else (if chosen p s' then own else []) ++ all p
            | _ => []
            end
          else []
      | _ => []
      end
  | Frag i k s' oof ks =>
      let all := fun p => flat_map (go (Visit p)) ks in
      let own :=
        match k with
        | FBox d c => own_box i s' d c
        | FSvg area =>
            if s_hidden s' || negb area then []
            else [(Some 0%Z, Fx VIEW i (Stack (flat_map (go InSvg) ks)))]
        | _ => []
        end in
      let ctx := own ++ match k with FSvg _ => [] | _ => flat_map all passes end in
      match m with
      | Visit p =>
          if oof then []
          else if implies_new s' then if chosen p s' then [establish i s' ctx] else []
          else if negb (is_static s') then if chosen p s' then ctx else []
          else (if chosen p s' then own else []) ++ match k with FSvg _ => [] | _ => all p end
      | InSvg =>
          match k with
          | FShape paints => if paints then [(Some 0%Z, transformed i s' (Mark (Shape i)))] else []
          | FGroup => [(Some 0%Z, transformed i s' (Stack (flat_map (go InSvg) ks)))]
          | FSvg _ => [(Some 0%Z, transformed i s' (Fx VIEW i (Stack (flat_map (go InSvg) ks))))]
          | FBox _ _ => [(Some 0%Z, Fx VIEW i (Stack [establish i s' ctx]))]
          end
      | Context => [establish i s' ctx]
      end
  end.

End Paint.

(* render.cpp:53-55: the fragment of the document is painted in a stack, which is
   then prepared. None is the end of the process. *)
Definition render (b : box) : option (list (what * list (effect * nat))) :=
  let o := layout_root b in
  match o_crash o, o_frags o with
  | false, f :: _ => Some (painted [] (prepare (Stack (go (fun i => existsb (Nat.eqb i) (map fst (o_filled o))) Context f))))
  | _, _ => None
  end.
