(* What is painted of a document, in which order, and under which effects. *)
From Coq Require Import List Arith ZArith Bool Permutation Lia.
From Verif Require Import Paint.PaintModel Paint.PaintSpec Paint.PaintProofs Paint.PaintOnce Paint.PaintOrder Paint.PaintHolders.
Import ListNotations.
Local Open Scope list_scope.

(* Parts of tables are in tables, shapes and groups in SVGs, and images have
   nothing in them: what the builder makes. *)
Definition proper_box (b : box) : Prop :=
  match b_kind b with
  | TABLE | PART => each (fun c => ~ is_kind [SHAPE; GROUP] c) b
  | SVG | GROUP => each (fun c => ~ is_kind [PART] c) b
  | REPLACED | SHAPE => b_kids b = []
  | _ => each (fun c => ~ is_kind [PART; SHAPE; GROUP] c) b
  end.
Definition proper (b : box) : Prop := everywhere proper_box b /\ ~ is_kind [PART; SHAPE; GROUP] b.

Definition st : style := mkStyle STATIC None false false false false false false false.
Definition abs : style := mkStyle ABSOLUTE None false false false false false false false.
Definition fixed : style := mkStyle FIXED None false false false false false false false.
Definition rel : style := mkStyle RELATIVE None false false false false false false false.
Definition z (p : position) (n : Z) : style := mkStyle p (Some n) false false false false false false false.
Definition inl : style := mkStyle STATIC None false true false false false false false.
Definition floated : style := mkStyle STATIC None true false false false false false false.
Definition hidden : style := mkStyle STATIC None false false true false false false false.
Definition clipped : style := mkStyle STATIC None false false false true false false false.
Definition turned : style := mkStyle STATIC None false false false false true false false.
Definition faint : style := mkStyle STATIC None false false false false false true false.
Definition root_style : style := mkStyle STATIC None false false false false false false true.

Definition blk i s ks := Box i BLOCK s true ks.
Definition txt i s ks := Box i LINES s true ks.

Ltac no_kind := let Q := fresh in intros Q; repeat (destruct Q as [Q|Q]; [discriminate Q|]); exact Q.
Ltac proper_tac :=
  split; [cbn; unfold proper_box, each; cbn;
          repeat first [exact I | apply Forall_nil | apply Forall_cons | apply conj | reflexivity | no_kind]
         | no_kind].

(* ---- C112 ------------------------------------------------------------------- *)

(* Whatever there is to see of the boxes of a document is painted, and painted
   once; nothing else is; and the process goes on. *)
Theorem C112_painted_once_partial b : tame b ->
  exists l, render b = Some l /\ Permutation (map fst l) (map fst (expected false [] b)).
Proof.
  intros H. apply (render_once fst); [exact H | left; intros w fx fx'; reflexivity].
Qed.
Print Assumptions C112_painted_once_partial.

(* Said of a single thing to see: how often it is painted is how often it is in
   the boxes. *)
Theorem C112_count_partial b (D : forall x y : what, {x = y} + {x <> y}) w : tame b ->
  exists l, render b = Some l /\ count_occ D (map fst l) w = count_occ D (map fst (expected false [] b)) w.
Proof.
  intros H. destruct (C112_painted_once_partial b H) as (l & E & P). exists l. split; [exact E|].
  rewrite Permutation_count_occ in P. apply P.
Qed.
Print Assumptions C112_count_partial.

Definition page : box :=
  blk 0 root_style
    [ blk 1 rel [ txt 2 st [ txt 3 abs [ txt 4 fixed [] ]; txt 5 inl [] ] ; Box 6 REPLACED (z RELATIVE (-1)) true [] ];
      blk 7 (z STATIC 2) [ Box 8 TABLE st true [ Box 9 PART st false [ Box 10 PART st false [ txt 11 st []; blk 12 rel [ txt 13 abs [] ] ] ] ] ];
      Box 14 FLEX faint true [ blk 15 turned []; txt 16 hidden [ blk 17 st [] ] ];
      Box 18 SVG st true [ Box 19 GROUP turned false [ Box 20 SHAPE st true []; blk 21 clipped [ txt 22 st [] ] ]; Box 23 SHAPE faint true [] ];
      blk 24 (mkStyle RUNNING None false false false false false false false) [ txt 25 st [] ] ].

Ltac tame_tac :=
  split; [cbn; unfold tame_box, each, plain, is_kind, running; cbn;
          repeat split; try discriminate; repeat constructor; try discriminate;
          try (intros Q; repeat (destruct Q as [Q|Q]; try discriminate Q); contradiction)
         | split; [intros Q; repeat (destruct Q as [Q|Q]; try discriminate Q); contradiction | reflexivity]].

Example C112_page : tame page.
Proof. tame_tac. Qed.
Example C112_page_shows : length (expected false [] page) = 27.
Proof. vm_compute. reflexivity. Qed.

(* What holds of tame boxes does not hold of all. *)
Definition painted_once (b : box) : Prop :=
  exists l, render b = Some l /\ Permutation (map fst l) (map fst (expected false [] b)).

Ltac not_once :=
  intros (l & E & P); vm_compute in E; injection E as <-; apply Permutation_length in P; vm_compute in P; discriminate P.

(* A float is painted twice: with the blocks and with the floats. *)
Theorem C112_float_refuted : exists b, proper b /\ ~ painted_once b.
Proof. exists (blk 0 root_style [blk 1 floated []]). split; [proper_tac | not_once]. Qed.
Print Assumptions C112_float_refuted.

(* A box that is not positioned is not painted at all if it has z-index: 0. *)
Theorem C112_static_z0_refuted : exists b, proper b /\ ~ painted_once b.
Proof. exists (blk 0 root_style [blk 1 (z STATIC 0) [txt 2 st []]]). split; [proper_tac | not_once]. Qed.
Print Assumptions C112_static_z0_refuted.

(* Absolutely positioned children of flex containers are not painted. *)
Theorem C112_absolute_in_flex_refuted : exists b, proper b /\ ~ painted_once b.
Proof. exists (blk 0 root_style [Box 1 FLEX rel true [txt 2 st []; txt 3 abs []]]). split; [proper_tac | not_once]. Qed.
Print Assumptions C112_absolute_in_flex_refuted.

(* Neither are children with float, which should be items like others. *)
Theorem C112_float_in_flex_refuted : exists b, proper b /\ ~ painted_once b.
Proof. exists (blk 0 root_style [Box 1 FLEX st true [txt 2 floated []]]). split; [proper_tac | not_once]. Qed.
Print Assumptions C112_float_in_flex_refuted.

(* What is positioned in a cell relative to something outside the table is not
   painted. *)
Theorem C112_absolute_in_cell_refuted : exists b, proper b /\ ~ painted_once b.
Proof. exists (blk 0 root_style [blk 1 rel [Box 2 TABLE st true [Box 3 PART st false [blk 4 st [txt 5 abs []]]]]]). split; [proper_tac | not_once]. Qed.
Print Assumptions C112_absolute_in_cell_refuted.

(* The backgrounds of rows and groups of rows are not painted. *)
Theorem C112_row_background_refuted : exists b, proper b /\ ~ painted_once b.
Proof. exists (blk 0 root_style [Box 2 TABLE st true [Box 3 PART st true [blk 4 st []]]]). split; [proper_tac | not_once]. Qed.
Print Assumptions C112_row_background_refuted.

(* What is positioned in a foreignObject relative to something outside the SVG is
   not painted. *)
Theorem C112_absolute_in_foreign_refuted : exists b, proper b /\ ~ painted_once b.
Proof. exists (blk 0 root_style [blk 1 rel [Box 2 SVG st true [blk 4 st [txt 5 abs []]]]]). split; [proper_tac | not_once]. Qed.
Print Assumptions C112_absolute_in_foreign_refuted.

(* Shapes with visibility: hidden are painted. *)
Theorem C112_hidden_shape_refuted : exists b, proper b /\ ~ painted_once b.
Proof. exists (blk 0 root_style [Box 1 SVG st true [Box 2 SHAPE hidden true []]]). split; [proper_tac | not_once]. Qed.
Print Assumptions C112_hidden_shape_refuted.

(* Visible shapes are not painted if the SVG is hidden. *)
Theorem C112_hidden_svg_refuted : exists b, proper b /\ ~ painted_once b.
Proof. exists (blk 0 root_style [Box 1 SVG hidden true [Box 2 SHAPE st true []]]). split; [proper_tac | not_once]. Qed.
Print Assumptions C112_hidden_svg_refuted.

(* A running element that is inline-level is painted where it is, too. *)
Theorem C112_running_inline_refuted : exists b, proper b /\ ~ painted_once b.
Proof. exists (txt 0 root_style [txt 1 (mkStyle RUNNING None false true false false false false false) []]). split; [proper_tac | not_once]. Qed.
Print Assumptions C112_running_inline_refuted.

(* ---- C113 ------------------------------------------------------------------- *)

(* Boxes are painted in the order of CSS 2.2, appendix E, but for text, which is
   painted with the background of its block. *)
Theorem C113_paint_order_partial b : tame b -> clear b -> orderly b -> render b = Some (css_order true b).
Proof. apply render_order. Qed.
Print Assumptions C113_paint_order_partial.

(* Where no block follows another with text in a context that is the order of
   appendix E: see [C113_pile]. *)
Definition pile : box :=
  blk 0 root_style
    [ blk 1 (z RELATIVE 1) [ blk 2 (z RELATIVE (-1)) []; blk 3 st [ blk 4 rel [ blk 5 st [] ] ] ];
      blk 6 (z ABSOLUTE 3) []; blk 7 (z FIXED 2) []; blk 8 rel [ txt 9 st [ Box 10 REPLACED inl true [] ] ]; blk 11 st [];
      blk 12 (mkStyle RELATIVE None false false false false false true false) [ blk 13 (z ABSOLUTE (-1)) [] ];
      blk 14 (z RELATIVE 1) [];
      Box 15 TABLE st true [ Box 16 PART st false [ blk 17 st []; blk 18 rel [ blk 19 abs [] ] ] ] ].

Example C113_pile : tame pile /\ clear pile /\ orderly pile /\ css_order true pile = css_order false pile
  /\ map fst (css_order true pile)
     = [Decor 0; Decor 11; Decor 15; Decor 17; Decor 8; Decor 9; Content 9; Decor 10; Content 10; Decor 12; Decor 13; Decor 18; Decor 19;
        Decor 1; Decor 2; Decor 3; Decor 4; Decor 5; Decor 14; Decor 7; Decor 6].
Proof.
  split; [tame_tac|]. split; [cbn; unfold clear_box, each; cbn; repeat split; repeat constructor|].
  split; [|split; vm_compute; reflexivity].
  split.
  - cbn. unfold orderly_box, each, running; cbn. repeat split; try discriminate; repeat constructor; try discriminate; try lia.
  - intros _. cbn. repeat (first [apply Forall_nil | apply Forall_cons]). all: unfold z_or_0; cbn; lia.
Qed.

Definition in_css_order (b : box) : Prop := exists l, render b = Some l /\ map fst l = map fst (css_order false b).
Ltac not_ordered := intros (l & E & P); vm_compute in E; injection E as <-; vm_compute in P; discriminate P.

(* Text is painted before the background of a block that follows it. *)
Theorem C113_text_refuted : exists b, proper b /\ ~ in_css_order b.
Proof. exists (blk 0 root_style [txt 1 st []; blk 2 st []]). split; [proper_tac | not_ordered]. Qed.
Print Assumptions C113_text_refuted.

(* The blocks in an inline-level box are painted before its background, which
   covers them. *)
Theorem C113_inline_block_refuted : exists b, proper b /\ ~ in_css_order b.
Proof. exists (txt 0 root_style [blk 1 inl [txt 2 st []]]). split; [proper_tac | not_ordered]. Qed.
Print Assumptions C113_inline_block_refuted.

(* Boxes with opacity that are not positioned are painted with the blocks, not
   above them. *)
Theorem C113_opacity_refuted : exists b, proper b /\ ~ in_css_order b.
Proof. exists (blk 0 root_style [blk 1 faint []; blk 2 st []]). split; [proper_tac | not_ordered]. Qed.
Print Assumptions C113_opacity_refuted.

(* Boxes of equal z-index are not in tree order if one of them is in a positioned
   box. *)
Theorem C113_equal_levels_refuted : exists b, proper b /\ ~ in_css_order b.
Proof. exists (blk 0 root_style [blk 1 (z RELATIVE 1) []; blk 2 rel [blk 3 (z RELATIVE 1) []]]). split; [proper_tac | not_ordered]. Qed.
Print Assumptions C113_equal_levels_refuted.

(* Boxes with negative z-index are painted before the background of the document
   element, which covers them. *)
Theorem C113_root_refuted : exists b, proper b /\ ~ in_css_order b.
Proof. exists (blk 0 root_style [blk 1 (z RELATIVE (-1)) []]). split; [proper_tac | not_ordered]. Qed.
Print Assumptions C113_root_refuted.

(* Likewise in a foreignObject. *)
Theorem C113_foreign_refuted : exists b, proper b /\ ~ in_css_order b.
Proof. exists (blk 0 root_style [Box 1 SVG st true [blk 2 st [blk 3 (z RELATIVE (-1)) []]]]). split; [proper_tac | not_ordered]. Qed.
Print Assumptions C113_foreign_refuted.

(* z-index is applied to boxes that are not positioned. *)
Theorem C113_static_z_refuted : exists b, proper b /\ ~ in_css_order b.
Proof. exists (blk 0 root_style [blk 1 (z STATIC 1) []; blk 2 rel []]). split; [proper_tac | not_ordered]. Qed.
Print Assumptions C113_static_z_refuted.

(* z-index is not applied to boxes with opacity, transform or clip-path. *)
Theorem C113_effect_level_refuted : exists b, proper b /\ ~ in_css_order b.
Proof. exists (blk 0 root_style [blk 1 (mkStyle RELATIVE (Some 2%Z) false false false false false true false) []; blk 2 (z RELATIVE 1) []]). split; [proper_tac | not_ordered]. Qed.
Print Assumptions C113_effect_level_refuted.

(* ---- C114 ------------------------------------------------------------------- *)

(* Opacity, transform and clip-path are applied to what is in the element they
   are set on, and to nothing else, the outer ones first. *)
Theorem C114_effects_partial b : tame b -> clear b ->
  exists l, render b = Some l /\ Permutation l (expected false [] b).
Proof.
  intros H C. destruct (render_once (fun m => m) b H (or_intror C)) as (l & E & P). exists l. split; [exact E|].
  unfold eqv in P. rewrite !map_id in P. exact P.
Qed.
Print Assumptions C114_effects_partial.

Example C114_case : let b := blk 0 faint [ blk 1 turned [ txt 2 clipped []; txt 3 st [] ]; blk 4 abs [ txt 5 faint [] ];
                                           Box 6 SVG turned true [ Box 7 GROUP turned false [ Box 8 SHAPE turned true [] ] ] ] in
  tame b /\ clear b
  /\ In (Content 2, [(OPACITY, 0); (TRANSFORM, 1); (CLIP, 2)]) (expected false [] b)
  /\ In (Content 3, [(OPACITY, 0); (TRANSFORM, 1)]) (expected false [] b)
  /\ In (Shape 8, [(OPACITY, 0); (TRANSFORM, 6); (VIEW, 6); (TRANSFORM, 7); (TRANSFORM, 8)]) (expected false [] b).
Proof.
  cbv zeta. split; [tame_tac|]. split; [cbn; unfold clear_box, each; cbn; repeat split; repeat constructor; intros N; exfalso; apply N; cbn; tauto|].
  vm_compute. tauto.
Qed.

Definition under_effects (b : box) : Prop := exists l, render b = Some l /\ Permutation l (expected false [] b).

(* Opacity is not applied to elements of an SVG. *)
Theorem C114_opacity_of_shape_refuted : exists b, proper b /\ ~ under_effects b.
Proof.
  exists (blk 0 root_style [Box 1 SVG st true [Box 2 SHAPE faint true []]]). split; [proper_tac|].
  intros (l & E & P). vm_compute in E. injection E as <-.
  assert (Q : In (Shape 2, [(VIEW, 1); (OPACITY, 2)]) (expected false [] (blk 0 root_style [Box 1 SVG st true [Box 2 SHAPE faint true []]]))) by (vm_compute; tauto).
  apply (Permutation_in _ (Permutation_sym P)) in Q. repeat (destruct Q as [Q|Q]; [discriminate Q|]). exact Q.
Qed.
Print Assumptions C114_opacity_of_shape_refuted.

(* Neither is clip-path. *)
Theorem C114_clip_of_group_refuted : exists b, proper b /\ ~ under_effects b.
Proof.
  exists (blk 0 root_style [Box 1 SVG st true [Box 2 GROUP clipped true [Box 3 SHAPE st true []]]]). split; [proper_tac|].
  intros (l & E & P). vm_compute in E. injection E as <-.
  assert (Q : In (Shape 3, [(VIEW, 1); (CLIP, 2)]) (expected false [] (blk 0 root_style [Box 1 SVG st true [Box 2 GROUP clipped true [Box 3 SHAPE st true []]]]))) by (vm_compute; tauto).
  apply (Permutation_in _ (Permutation_sym P)) in Q. repeat (destruct Q as [Q|Q]; [discriminate Q|]). exact Q.
Qed.
Print Assumptions C114_clip_of_group_refuted.

(* A foreignObject with a transform is clipped to where it would be without. *)
Theorem C114_transform_of_foreign_refuted : exists b, proper b /\ ~ under_effects b.
Proof.
  exists (blk 0 root_style [Box 1 SVG st true [blk 2 turned []]]). split; [proper_tac|].
  intros (l & E & P). vm_compute in E. injection E as <-.
  assert (Q : In (Decor 2, [(VIEW, 1); (TRANSFORM, 2); (VIEW, 2)]) (expected false [] (blk 0 root_style [Box 1 SVG st true [blk 2 turned []]]))) by (vm_compute; tauto).
  apply (Permutation_in _ (Permutation_sym P)) in Q. repeat (destruct Q as [Q|Q]; [discriminate Q|]). exact Q.
Qed.
Print Assumptions C114_transform_of_foreign_refuted.

(* ---- C115 ------------------------------------------------------------------- *)

(* Each box out of flow is laid out once, in the containing block CSS gives it. *)
Theorem C115_containing_block_partial b : tame b ->
  Permutation (o_filled (layout_root b)) (containing_blocks [] b).
Proof. exact (filled_by_containing_block b). Qed.
Print Assumptions C115_containing_block_partial.

Definition nest : box :=
  blk 0 root_style
    [ blk 1 rel [ blk 2 st [ txt 3 abs [ txt 4 fixed []; txt 5 abs [] ]; blk 6 turned [ txt 7 fixed [ txt 8 abs [ txt 9 fixed [] ] ] ] ] ];
      txt 10 abs [ blk 11 st [ blk 12 abs [] ] ] ].
Example C115_nest : tame nest
  /\ containing_blocks [] nest = [ (3, Some 1); (4, None); (5, Some 3); (7, Some 6); (8, Some 7); (9, Some 6);
                                   (10, None); (12, Some 10) ].
Proof. split; [tame_tac | vm_compute; reflexivity]. Qed.

Definition held_right (b : box) : Prop := Permutation (o_filled (layout_root b)) (containing_blocks [] b).

Ltac not_held := intros P; apply Permutation_length in P; vm_compute in P; discriminate P.

(* What leaves a cell is not laid out at all. *)
Theorem C115_cell_refuted : exists b, proper b /\ ~ held_right b.
Proof. exists (blk 0 root_style [blk 1 rel [Box 2 TABLE st true [Box 3 PART st false [blk 4 st [txt 5 abs []]]]]]). split; [proper_tac | not_held]. Qed.
Print Assumptions C115_cell_refuted.

(* Neither is a child of a flex container that has no other child. *)
Theorem C115_flex_refuted : exists b, proper b /\ ~ held_right b.
Proof. exists (blk 0 root_style [Box 1 FLEX rel true [txt 3 abs []]]). split; [proper_tac | not_held]. Qed.
Print Assumptions C115_flex_refuted.
