(** What pagination should print, and for which documents the theorem of PaginateProps.v holds. *)
From Coq Require Import List NArith QArith Bool.
From Verif.Layout Require Import BreakModel BlockModel.
Import ListNotations.
Local Open Scope Q_scope.

(** Boxes out of the flow: their content is not part of the flow of the document. *)
Definition skipped (c : box) : bool :=
  match s_position (style_of c) with ABSOLUTE | RUNNING => true | _ => false end.

(** The pieces of content of a document, in order: every text, image and other unbreakable box,
    with what it contains, and every empty block. *)
Fixpoint content (b : box) : list nat :=
  match b with
  | Mono id _ _ inner => id :: flat_map (fun e => match e with (_, c) => content c end) inner
  | Block id _ [] => [id]
  | Block _ _ cs => flat_map (fun c => if skipped c then [] else content c) cs
  end.

(** The pieces of content of which a page has a fragment, in order. *)
Fixpoint printed (f : frag) : list nat :=
  match f with
  | Frag (Mono id _ _ _) _ _ fs => id :: flat_map printed fs
  | Frag (Block id _ []) _ _ _ => [id]
  | Frag (Block _ _ _) _ _ fs => flat_map printed fs
  end.

(** Inside an unbreakable box: no forced break before a box that is not the first child. *)
Inductive unbroken : box -> Prop :=
| ub_mono id s h inner : (forall dy c, In (dy, c) inner -> unbroken c) -> unbroken (Mono id s h inner)
| ub_block id s cs :
    (forall c r, cs = c :: r -> forall d, In d r -> skipped d = false -> is_page (s_before (style_of d)) = false) ->
    (forall c, In c cs -> skipped c = false -> unbroken c) -> unbroken (Block id s cs).

(** Documents without break avoidance, whose blocks do not end with a running element or with a
    forced break. *)
Inductive flowing : box -> Prop :=
| fl_mono id s h inner : (forall dy c, In (dy, c) inner -> unbroken c) -> flowing (Mono id s h inner)
| fl_block id s cs :
    is_avoid_inside (s_inside s) = false ->
    (forall c, In c cs -> is_avoid (s_before (style_of c)) = false /\ is_avoid (s_after (style_of c)) = false) ->
    (forall c, In c cs -> skipped c = false -> flowing c) ->
    (forall l c, cs = l ++ [c] -> s_position (style_of c) <> RUNNING /\ (skipped c = false -> is_page (s_after (style_of c)) = false)) ->
    flowing (Block id s cs).

Definition relative_offset (s : style) : Q := match s_position s with RELATIVE dy => dy | _ => 0 end.
(** Where a child starts when nothing precedes it on the page. *)
Definition first_offset (c : box) : Q :=
  (if s_floating (style_of c) then 0 else s_margin_top (style_of c)) + relative_offset (style_of c).

(** There is room for the first piece of every box when it comes first on a page: [y] is the top of
    the box, [pend] the space that its ancestors need below. *)
Inductive room (lim : Q) : Q -> Q -> box -> Prop :=
| room_mono y pend id s h inner :
    y + s_top s + (pend + s_bottom s) <= lim -> room lim y pend (Mono id s h inner)
| room_block y pend id s cs :
    y + s_top s + (pend + s_bottom s) <= lim ->
    (cs = [] -> forall h, s_height s = Some h -> y + h + pend <= lim) ->
    (forall c, In c cs -> skipped c = false -> room lim (y + s_top s + first_offset c) (pend + s_bottom s) c) ->
    room lim y pend (Block id s cs).

Definition single_child (root : box) : Prop :=
  match root with Mono _ _ _ _ => True | Block _ _ cs => (length cs <= 1)%nat end.
Fixpoint boxes (b : box) : nat :=
  match b with
  | Mono _ _ _ _ => 1
  | Block _ _ cs => S (fold_right (fun c n => (boxes c + n)%nat) 0%nat cs)
  end.

(** Forced breaks are respected on a page: of the fragments of the children of a block, only the
    first may ask for a page break before it, and only the last for one after it. *)
Definition f_box (f : frag) : box := match f with Frag b _ _ _ => b end.
Inductive respects : frag -> Prop :=
| rs_mono id s h inner top height fs : respects (Frag (Mono id s h inner) top height fs)
| rs_block id s cs top height fs :
    (forall l f g r, fs = l ++ f :: g :: r ->
       is_page (s_after (style_of (f_box f))) = false /\ is_page (s_before (style_of (f_box g))) = false) ->
    (forall f, In f fs -> respects f) -> respects (Frag (Block id s cs) top height fs).
