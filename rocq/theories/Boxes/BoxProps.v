(** The box tree of a styled document: what is shown and in what order, words, lines and blocks, tables, flex containers. *)
From Coq Require Import List NArith Bool Arith.
From Verif.Base Require Import Str.
From Verif.Boxes Require Import BoxModel BoxSpec BoxProofs BoxShape BoxText.
Import ListNotations.
Local Open Scope N_scope.

(** ** Documents for the examples *)
Definition sty (d : display) (n : N) : style := mkStyle d NORMAL KEEP true DISC n.
Definition el (n : N) (t : tag) (d : display) : elem := mkElem n t (sty d n) None None None [].
Definition generated_text (d : display) (s : str) : option pseudo := Some (mkPseudo (sty d 99) (TextContent s)).
Definition with_before (x : option pseudo) (e : elem) : elem := mkElem (e_id e) (e_tag e) (e_style e) (e_marker e) x (e_after e) (e_number e).
Definition block : display := Default FLOW BLOCK false.
Definition inline : display := Default FLOW INLINE false.
Definition table : display := Default TABLE BLOCK false.
Definition row : display := Internal TABLE_ROW.
Definition cell : display := Internal TABLE_CELL.
Definition flex : display := Default FLEX BLOCK false.
Definition root : elem := el 1 OTHER block.

(** ** C106: the text and the boxes are those of the document, in its order *)

(** For every document the builder copes with, what is read off the box tree is what should be shown: the same
    characters, each within the inline boxes of its ancestors, and the boxes of the elements, in document order
    (white space aside). *)
Theorem C106_shown_in_order_partial : forall e kids, fine_document e kids = true ->
  exists b, build_document e kids = Tree b /\ ink (read b) = ink (shown_document e kids).
Proof. exact document_reads. Qed.
Print Assumptions C106_shown_in_order_partial.

(** A paragraph with emphasis around a block, a list with markers, a table with a caption at the bottom, a stray cell
    and stray text, a flex container with text, an SVG. *)
Definition sample : list node :=
  [ Elem (el 2 OTHER block) [Txt [97]; Elem (el 3 OTHER inline) [Txt [98]; Elem (el 4 OTHER block) [Txt [99]]; Txt [100]]; Txt [32; 101]];
    Elem (mkElem 5 OTHER (sty (Default FLOW BLOCK true) 5) (Some (mkPseudo (sty inline 50) NormalContent)) None None []) [Txt [102]];
    Elem (mkElem 6 OTHER (mkStyle table NORMAL UPPERCASE false DISC 6) None (generated_text block [103]) None [])
      [Elem (el 7 OTHER (Internal TABLE_CAPTION)) [Txt [104]]; Txt [105];
       Elem (el 8 OTHER cell) [Txt [106]]; Elem (el 9 OTHER row) [Elem (el 10 OTHER cell) [Txt [107]]; Txt [108]]];
    Elem (el 11 OTHER flex) [Txt [109]; Other; Txt [110]; Elem (el 12 IMG inline) []];
    Elem (el 13 SVG inline) [Elem (el 14 G inline) [Elem (el 15 SHAPE inline) []; Elem (el 16 FOREIGN block) [Txt [111]]]] ].
Example C106_case : fine_document root sample = true /\
  (exists b, build_document root sample = Tree b /\
     text (ink (read b)) = [97; 98; 99; 100; 101; 8226; 102; 103; 73; 106; 107; 108; 104; 109; 110; 111]) /\
  In (Ch 98 [3; 2]) (shown_document root sample) /\ In (Ch 100 [3; 2]) (shown_document root sample).
Proof.
  split; [reflexivity|]. split; [eexists; split; reflexivity|]. split; cbn; tauto.
Qed.

(** A part of a table in the flow comes before the text that precedes it: [a<span style="display: table-cell">b</span>c]. *)
Theorem C106_table_part_in_text_refuted : exists e kids b, build_document e kids = Tree b /\
  text (ink (shown_document e kids)) = [97; 98; 99] /\ text (ink (read b)) = [98; 97; 99].
Proof. exists root, [Txt [97]; Elem (el 2 OTHER cell) [Txt [98]]; Txt [99]]. eexists. split; [reflexivity|]. split; reflexivity. Qed.
Print Assumptions C106_table_part_in_text_refuted.
(** [tr::before] is not shown. *)
Theorem C106_generated_in_row_refuted : exists e kids b, build_document e kids = Tree b /\
  text (ink (shown_document e kids)) = [97; 98] /\ text (ink (read b)) = [98].
Proof.
  exists root, [Elem (el 2 OTHER table) [Elem (with_before (generated_text inline [97]) (el 3 OTHER row)) [Elem (el 4 OTHER cell) [Txt [98]]]]].
  eexists. split; [reflexivity|]. split; reflexivity.
Qed.
Print Assumptions C106_generated_in_row_refuted.
(** The text of an element with [display: contents] does not have its [text-transform]. *)
Theorem C106_contents_style_refuted : exists e kids b, build_document e kids = Tree b /\
  text (ink (shown_document e kids)) = [65] /\ text (ink (read b)) = [97].
Proof.
  exists root, [Elem (mkElem 2 OTHER (mkStyle CONTENTS NORMAL UPPERCASE true DISC 2) None None None []) [Txt [97]]].
  eexists. split; [reflexivity|]. split; reflexivity.
Qed.
Print Assumptions C106_contents_style_refuted.
(** A part of an SVG with [display: none] is shown. *)
Theorem C106_hidden_shape_refuted : exists e kids b, build_document e kids = Tree b /\
  ink (shown_document e kids) = [Mark 1; Mark 2] /\ ink (read b) = [Mark 1; Mark 2; Mark 3].
Proof. exists root, [Elem (el 2 SVG inline) [Elem (el 3 SHAPE NOBOX) []]]. eexists. split; [reflexivity|]. split; reflexivity. Qed.
Print Assumptions C106_hidden_shape_refuted.
(** The text of a text field with [display: inline] is lost when there is text beside it. *)
Theorem C106_inline_field_refuted : exists e kids b, build_document e kids = Tree b /\
  text (ink (shown_document e kids)) = [97; 98] /\ text (ink (read b)) = [97].
Proof. exists root, [Txt [97]; Elem (el 2 (INPUT_TEXT [98]) inline) []]. eexists. split; [reflexivity|]. split; reflexivity. Qed.
Print Assumptions C106_inline_field_refuted.
(** The document element is shown even with [display: none]. *)
Theorem C106_hidden_document_refuted : exists e kids b, s_display (e_style e) = NOBOX /\ build_document e kids = Tree b /\ text (read b) = [97].
Proof. exists (el 1 OTHER NOBOX), [Txt [97]]. eexists. split; [reflexivity|]. split; reflexivity. Qed.
Print Assumptions C106_hidden_document_refuted.

(** ** C107: words are kept apart *)

(** Not across the children of a block: [<p><b>a</b> <i>b</i></p>] reads "ab". *)
Theorem C107_words_kept_apart_refuted : exists e kids b, build_document e kids = Tree b /\
  words (text (shown_document e kids)) = [[97]; [98]] /\ words (text (read b)) = [[97; 98]].
Proof. exists root, [Elem (el 2 OTHER inline) [Txt [97]]; Txt [32]; Elem (el 3 OTHER inline) [Txt [98]]]. eexists. split; [reflexivity|]. split; reflexivity. Qed.
Print Assumptions C107_words_kept_apart_refuted.
(** In a block of text and inline elements, however nested, where no text directly in the block is only white space,
    the words that are read are the words of the document. *)
Theorem C107_words_of_a_block_partial : forall e kids,
  e_tag e = OTHER -> list_item (s_display (e_style e)) = false -> e_before e = None -> e_after e = None -> forallb (phrasing true) kids = true ->
  exists b, build_document e kids = Tree b /\ words (text (read b)) = words (text (shown_document e kids)).
Proof. exact paragraph_words. Qed.
Print Assumptions C107_words_of_a_block_partial.
(** One text node: its words are added, in its letter case; where white space collapses no two spaces are adjacent;
    where it does not all characters are kept, unless they are spaces at the start of a line. *)
Theorem C107_words_of_a_text : forall sty s p, exists n,
  runes (p_items (append_text sty s p)) = runes (p_items p) ++ n /\
  words n = map (map (transformed (s_case sty))) (words s) /\
  (collapsible (s_space sty) = true -> no_double_space n = true) /\
  (collapsible (s_space sty) = false -> active p = true \/ match s with c :: _ => is_space c = false | [] => True end ->
     n = map (transformed (s_case sty)) s).
Proof.
  intros sty0 s p. exists (added sty0 s p). split; [apply text_added|]. split; [apply added_words|]. split; [apply added_single|apply added_kept].
Qed.
Print Assumptions C107_words_of_a_text.
(** The spaces at the start of preformatted text are lost. *)
Theorem C107_preformatted_refuted : exists sty s b, s_space sty = PRE /\
  build_document (mkElem 1 OTHER sty None None None []) [Txt s] = Tree b /\ text (read b) <> s.
Proof. exists (mkStyle block PRE KEEP true DISC 1), [32; 32; 97]. eexists. split; [reflexivity|]. split; [reflexivity|discriminate]. Qed.
Print Assumptions C107_preformatted_refuted.
(** Spaces on both sides of the start of an inline element are both kept: [a <b> b</b>]. *)
Theorem C107_spaces_across_elements_refuted : exists e kids b, s_space (e_style e) = NORMAL /\ build_document e kids = Tree b /\ no_double_space (text (read b)) = false.
Proof. exists root, [Txt [97; 32]; Elem (el 2 OTHER inline) [Txt [32; 98]]]. eexists. split; [reflexivity|]. split; reflexivity. Qed.
Print Assumptions C107_spaces_across_elements_refuted.
Example C107_case :
  forallb (phrasing true) [Txt [97; 32]; Elem (el 2 OTHER inline) [Txt [98]; Elem (el 3 OTHER inline) [Txt [32]]; Txt [99; 9; 10; 100]]; Txt [32; 101]] = true /\
  words (text (shown_document root [Txt [97; 32]; Elem (el 2 OTHER inline) [Txt [98]; Elem (el 3 OTHER inline) [Txt [32]]; Txt [99; 9; 10; 100]]; Txt [32; 101]]))
    = [[97]; [98]; [99]; [100]; [101]].
Proof. split; reflexivity. Qed.

(** ** C108: a box has lines or blocks *)

Lemma everywhere_impl (P Q : box -> Prop) : (forall b, P b -> Q b) -> forall b, everywhere P b -> everywhere Q b.
Proof.
  intros H. fix IH 1. intros [s c kids o] Hb. apply everywhere_box in Hb as [H1 H2]. apply everywhere_box. split; [now apply H|].
  clear H1. revert kids H2. fix IHl 1. intros [|k l] H2; constructor; inversion_clear H2; [now apply IH|now apply IHl].
Qed.
(** Without SVG and inline fields, in every box of the tree: either the content is lines, in which each child is placed
    exactly once and in order, and no child is block-level; or the children are stacked and none is inline-level. *)
Theorem C108_lines_or_blocks_partial : forall e kids b,
  every usual_elem (Elem e kids) = true -> e_tag e = OTHER -> is_flex (s_display (e_style e)) = false ->
  build_document e kids = Tree b -> everywhere lines_or_blocks b.
Proof.
  intros e kids b Hu Ho Hf E. apply (everywhere_impl shaped); [intros b' H; apply H|]. exact (document_shaped e kids b Hu Ho Hf E).
Qed.
Print Assumptions C108_lines_or_blocks_partial.
(** A field with [display: inline] makes its parent lose a child: [<div><p>a</p><input style="display: inline"></div>]. *)
Theorem C108_inline_field_refuted : exists e kids b, build_document e kids = Tree b /\ ~ lines_or_blocks b /\
  text (shown_document e kids) = [97; 98] /\ text (read b) = [98].
Proof.
  exists root, [Elem (el 2 OTHER block) [Txt [97]]; Elem (el 3 (INPUT_TEXT [98]) inline) []]. eexists. split; [reflexivity|]. split; [|split; reflexivity].
  intros [H _]. discriminate.
Qed.
Print Assumptions C108_inline_field_refuted.
Definition plain_sample : list node := firstn 4 sample.
Example C108_case : every usual_elem (Elem root plain_sample) = true /\
  exists b, build_document root plain_sample = Tree b /\ length (kids_of b) = 4%nat.
Proof. split; [reflexivity|]. eexists. split; reflexivity. Qed.

(** ** C109: the builder does not panic *)

(** For every document whose tables have no inline [::before] and [::after]. *)
Theorem C109_no_panic_partial : forall e kids, forallb (every calm) kids = true -> exists b, build_document e kids = Tree b.
Proof. exact document_builds. Qed.
Print Assumptions C109_no_panic_partial.
(** [table::before { content: "a" }] panics. *)
Theorem C109_table_before_refuted : exists e kids, build_document e kids = Panics.
Proof. exists root, [Elem (with_before (generated_text inline [97]) (el 2 OTHER table)) []]. reflexivity. Qed.
Print Assumptions C109_table_before_refuted.
(** A document that is not among those of C106: a row in a list item, a cell in a paragraph, a caption in a row. *)
Example C109_case : forallb (every calm)
  [Elem (el 2 OTHER (Default FLOW BLOCK true)) [Elem (el 3 OTHER row) [Elem (el 4 OTHER (Internal TABLE_CAPTION)) [Txt [97]]]]; Elem (el 5 OTHER cell) [Elem (el 6 BR inline) []]] = true.
Proof. reflexivity. Qed.

(** ** C110: the parts of a table *)

(** In every table box: rows, groups of rows, columns and groups of columns only; groups of rows have only rows, and rows
    have only cells. *)
Theorem C110_table_fixup_partial : forall e kids b,
  every usual_elem (Elem e kids) = true -> e_tag e = OTHER -> is_flex (s_display (e_style e)) = false ->
  build_document e kids = Tree b -> everywhere table_of_rows b.
Proof.
  intros e kids b Hu Ho Hf E. apply (everywhere_impl shaped); [intros b' H; apply H|]. exact (document_shaped e kids b Hu Ho Hf E).
Qed.
Print Assumptions C110_table_fixup_partial.
(** A row outside a table is not put in one: its children are not cells. *)
Theorem C110_stray_row_refuted : exists e kids b k, every usual_elem (Elem e kids) = true /\ build_document e kids = Tree b /\
  In k (kids_of b) /\ disp k = row /\ ~ row_of_cells k.
Proof.
  exists root, [Elem (el 2 OTHER row) [Txt [97]]]. eexists. eexists. split; [reflexivity|]. split; [reflexivity|]. split; [left; reflexivity|]. split; [reflexivity|].
  intros (_ & H & _). discriminate.
Qed.
Print Assumptions C110_stray_row_refuted.
(** A group of rows, with text and a cell beside its row. *)
Example C110_case : exists t, build_document root
   [Elem (el 2 OTHER table) [Elem (el 3 OTHER (Internal TABLE_ROW_GROUP)) [Txt [97]; Elem (el 4 OTHER row) [Txt [98]]; Elem (el 5 OTHER cell) []]; Txt [99]]] = Tree t /\
   exists w x, kids_of t = [w] /\ kids_of w = [x] /\ disp x = Internal TABLE_BOX /\
   map disp (kids_of x) = [Internal TABLE_ROW_GROUP; Internal TABLE_ROW] /\
   map (fun g => length (kids_of g)) (kids_of x) = [3%nat; 1%nat].
Proof. eexists. split; [reflexivity|]. eexists. eexists. split; [reflexivity|]. split; [reflexivity|]. split; [reflexivity|]. split; reflexivity. Qed.

(** ** C111: the items of a flex container *)

(** A flex container has no lines of its own, and no child of it is inline-level. *)
Theorem C111_flex_items_partial : forall e kids b,
  every usual_elem (Elem e kids) = true -> e_tag e = OTHER -> is_flex (s_display (e_style e)) = false ->
  build_document e kids = Tree b ->
  everywhere (fun x => is_flex (disp x) = true ->
    (forall p, conts x <> CProse p) /\ (conts x = CNone -> Forall (fun k => inline_level k = false) (kids_of x))) b.
Proof.
  intros e kids b Hu Ho Hf E. apply (everywhere_impl shaped); [|exact (document_shaped e kids b Hu Ho Hf E)]. intros x (H1 & H2 & _) Hx.
  unfold only_items in H2. destruct (disp x) as [[] o it|i| |]; try discriminate. split.
  - intros p Ep. rewrite Ep in H2. contradiction.
  - intros Ec. unfold lines_or_blocks in H1. rewrite Ec in H1. exact H1.
Qed.
Print Assumptions C111_flex_items_partial.
(** [html { display: flex }] is not a flex container: its text is not in items. *)
Theorem C111_flex_document_refuted : exists e kids b p, is_flex (s_display (e_style e)) = true /\ build_document e kids = Tree b /\ conts b = CProse p.
Proof. exists (el 1 OTHER flex), [Txt [97]; Elem (el 2 OTHER inline) [Txt [98]]]. eexists. eexists. split; [reflexivity|]. split; reflexivity. Qed.
Print Assumptions C111_flex_document_refuted.
(** A comment splits a run of text into two items. *)
Theorem C111_comment_splits_item_refuted : exists a c x y,
  build_document root [Elem (el 2 OTHER flex) [Txt a; Other; Txt c]] = Tree x /\ build_document root [Elem (el 2 OTHER flex) [Txt (a ++ c)]] = Tree y /\
  map (fun k => length (kids_of k)) (kids_of x) = [2%nat] /\ map (fun k => length (kids_of k)) (kids_of y) = [1%nat].
Proof. exists [97], [98]. eexists. eexists. split; [reflexivity|]. split; [reflexivity|]. split; reflexivity. Qed.
Print Assumptions C111_comment_splits_item_refuted.
Example C111_case : exists b k, build_document root [Elem (el 2 OTHER flex) [Txt [97]; Elem (el 3 OTHER inline) [Txt [98]]; Elem (el 4 OTHER CONTENTS) [Txt [99]]]] = Tree b /\
  kids_of b = [k] /\ is_flex (disp k) = true /\ conts k = CNone /\ length (kids_of k) = 3%nat.
Proof. eexists. eexists. split; [reflexivity|]. split; [reflexivity|]. split; [reflexivity|]. split; reflexivity. Qed.
