(** The shape of the box tree: lines or blocks, flex items, the parts of tables; and what makes the builder panic. *)
From Coq Require Import List NArith Bool Arith Lia.
From Verif.Base Require Import Str.
From Verif.Boxes Require Import BoxModel BoxSpec BoxProofs.
Import ListNotations.
Local Open Scope N_scope.

Lemma everywhere_box P s c kids o : everywhere P (Box s c kids o) <-> P (Box s c kids o) /\ Forall (everywhere P) kids.
Proof.
  cbn [everywhere]. split; intros [H1 H2]; split; try exact H1.
  - clear H1. induction kids as [|k l IH]; constructor; [apply H2|apply IH, H2].
  - clear H1. induction H2 as [|k l H HF IH]; [exact I|]. split; assumption.
Qed.
Definition shaped (b : box) : Prop := lines_or_blocks b /\ only_items b /\ table_of_rows b.
Definition ok_box (b : box) : Prop := everywhere shaped b.

Definition lines_ok (i : option (prose * list box)) : Prop :=
  match i with
  | Some (p, k) => struts (p_items p) = seq 0 (length k) /\ Forall ok_box k /\ Forall (fun b => block_level b = false) k
  | None => True
  end.
Definition inv (f : from) (t : st) : Prop :=
  t_content t = CNone /\ Forall ok_box (t_kids t) /\ Forall (fun b => inline_level b = false) (t_kids t) /\ lines_ok (t_inline t) /\ (f = FROM_FLEX -> idle t).
Definition keeps (f : from) (x : res) : Prop := forall t', x = Ok t' -> inv f t'.

Lemma keeps_ok f t : inv f t -> keeps f (Ok t). Proof. intros H t' [= <-]. exact H. Qed.
Lemma keeps_seq f x g : keeps f x -> (forall t, inv f t -> keeps f (g t)) -> keeps f (andthen x g).
Proof. intros H1 H2. destruct x as [t|]; [|discriminate]. cbn. apply H2. now apply H1. Qed.
Lemma struts_app a b : struts (a ++ b) = struts a ++ struts b.
Proof. induction a as [|[c sp|k sp] a IH]; cbn; [reflexivity|exact IH|now f_equal]. Qed.
Lemma struts_none l : (forall j sp, ~ In (Strut j sp) l) -> struts l = [].
Proof. induction l as [|[c sp|k sp] l IH]; intros H; [reflexivity| |]. - apply IH. intros j s Hi. apply (H j s). now right. - destruct (H k sp). now left. Qed.
Lemma inv_new f sty : inv f (new_box sty).
Proof. split; [reflexivity|]. split; [constructor|]. split; [constructor|]. split; [cbn; auto|reflexivity]. Qed.
Lemma inv_weaken f f' t : inv f t -> f' <> FROM_FLEX -> inv f' t.
Proof. intros (H1 & H2 & H3 & H4 & H5) H. split; [exact H1|]. split; [exact H2|]. split; [exact H3|]. split; [exact H4|]. congruence. Qed.

Lemma inv_add f b t : inv f t -> ok_box b -> inline_level b = false -> inv f (add_to_parent b t).
Proof.
  intros (H1 & H2 & H3 & H4 & H5) Hb Hl. unfold add_to_parent. rewrite H1. split; [reflexivity|]. cbn [t_kids t_inline].
  split; [apply Forall_app; auto|]. split; [apply Forall_app; auto|]. split; [exact H4|exact H5].
Qed.
Lemma anonymous_ok ps p k : struts (p_items p) = seq 0 (length k) -> Forall ok_box k -> Forall (fun b => block_level b = false) k -> ok_box (anonymous ps p k).
Proof. intros H1 H2 H3. apply everywhere_box. split; [|exact H2]. split; [split; assumption|]. split; exact I. Qed.
Lemma inv_flush f ps t : inv f t -> inv FROM_FLEX (flush ps t).
Proof.
  intros (H1 & H2 & H3 & H4 & H5). unfold flush. destruct (t_inline t) as [[p k]|] eqn:Ei.
  - cbn [lines_ok] in H4. destruct H4 as (H6 & H7 & H8). destruct (active p) eqn:Ea.
    + apply inv_add; [|now apply anonymous_ok|reflexivity]. split; [exact H1|]. split; [exact H2|]. split; [exact H3|]. split; [cbn; auto|reflexivity].
    + split; [exact H1|]. split; [exact H2|]. split; [exact H3|]. rewrite Ei. split; [cbn; auto|]. intros _. unfold idle. now rewrite Ei.
  - split; [exact H1|]. split; [exact H2|]. split; [exact H3|]. rewrite Ei. split; [exact I|]. intros _. unfold idle. now rewrite Ei.
Qed.
Lemma inv_flex_any f t : inv FROM_FLEX t -> inv f t.
Proof. intros (H1 & H2 & H3 & H4 & H5). split; [exact H1|]. split; [exact H2|]. split; [exact H3|]. split; [exact H4|]. intros _. now apply H5. Qed.

(** The box made of a state. *)
Lemma none_shaped sty t o : t_content t = CNone -> Forall ok_box (t_kids t) -> Forall (fun b => inline_level b = false) (t_kids t) -> s_display sty <> Internal TABLE_BOX -> ok_box (box_of sty t o).
Proof.
  intros H1 H2 H3 H4. apply everywhere_box. split; [|exact H2]. unfold shaped, lines_or_blocks, only_items, table_of_rows. cbn [conts kids_of disp]. rewrite H1.
  split; [exact H3|]. split; destruct (s_display sty) as [i ? ?|i| |]; try exact I; destruct i; try exact I. congruence.
Qed.
Lemma finalize_ok f ps sty t o : inv f t -> s_display sty <> Internal TABLE_BOX -> (is_flex (s_display sty) = true -> f = FROM_FLEX) -> ok_box (box_of sty (finalize ps t) o).
Proof.
  intros HI Hd Hf. pose proof HI as (H1 & H2 & H3 & H4 & H5). unfold finalize. destruct (t_inline t) as [[p k]|] eqn:Ei; [|now apply none_shaped].
  destruct (active p) eqn:Ea; [|now apply none_shaped]. cbn [lines_ok] in H4. destruct H4 as (H6 & H7 & H8). destruct (t_kids t) as [|b l] eqn:Ek.
  - apply everywhere_box. split; [|exact H7]. unfold shaped, lines_or_blocks, only_items, table_of_rows. cbn [conts kids_of disp t_content t_kids]. split; [auto|].
    destruct (s_display sty) as [i ? ?|i| |]; try (split; exact I); destruct i; try (split; exact I); [|congruence].
    specialize (H5 (Hf eq_refl)). unfold idle in H5. rewrite Ei in H5. congruence.
  - destruct (inv_flush f ps t HI) as (F1 & F2 & F3 & _). now apply none_shaped.
Qed.

Lemma keeps_prose f (g : prose -> prose) t : (forall p, p_items (g p) = p_items p) -> inv f t -> keeps f (on_prose g t).
Proof.
  intros Hg (H1 & H2 & H3 & H4 & H5) t' E. unfold on_prose in E. destruct (t_inline t) as [[p k]|] eqn:Ei; [|discriminate]. injection E as <-.
  split; [exact H1|]. split; [exact H2|]. split; [exact H3|]. split; [cbn; now rewrite Hg|]. intros Ef. specialize (H5 Ef). unfold idle, active in *. cbn. rewrite Hg. now rewrite Ei in H5.
Qed.
Lemma keeps_text f ps sty s t : inv f t -> keeps f (build_text f ps sty s t).
Proof.
  intros (H1 & H2 & H3 & H4 & H5). unfold build_text. destruct (t_inline t) as [[p k]|] eqn:Ei; [|discriminate].
  match goal with |- keeps f (if ?c then _ else _) => destruct c end.
  - apply keeps_ok. split; [exact H1|]. split; [exact H2|]. split; [exact H3|]. rewrite Ei. auto.
  - destruct (appended_text sty s p) as (_ & n & A2 & A3 & _). cbn [lines_ok] in H4. destruct H4 as (H6 & H7 & H8). apply keeps_ok.
    assert (inv FROM_INLINE (mkSt (t_content t) (t_kids t) (Some (append_text sty s p, k)))) as Hi.
    { split; [exact H1|]. split; [exact H2|]. split; [exact H3|]. split; [|discriminate]. cbn. rewrite A2, struts_app, (struts_none n A3), app_nil_r. auto. }
    destruct f; try (apply (inv_weaken FROM_INLINE); [exact Hi|discriminate]). exact (inv_flush _ ps _ Hi).
Qed.
Lemma keeps_inner e w x f ps t : inv f t -> keeps f (inner_content e w x f ps t).
Proof. intros H. unfold inner_content. destruct w, (ps_content x); try (now apply keeps_text); now apply keeps_ok. Qed.
Lemma keeps_pseudo e w x f ps t : inv f t -> match x with Some x => s_display (ps_style x) <> Internal TABLE_BOX | None => True end -> keeps f (build_pseudo_opt e w x f ps t).
Proof.
  intros H Hx. destruct x as [x|]; [|now apply keeps_ok]. cbn [build_pseudo_opt]. unfold build_pseudo. destruct (generates e w x); [|now apply keeps_ok].
  destruct (in_line (s_display (ps_style x))) eqn:El.
  - apply keeps_seq; [now apply keeps_prose|]. intros t1 I1. apply keeps_seq; [now apply keeps_inner|]. intros t2 I2. now apply keeps_prose.
  - cbv zeta. set (f' := if is_inside FLEX (s_display (ps_style x)) then FROM_FLEX else FROM_BLOCK).
    assert (keeps f' (andthen (on_prose (push_span (s_span (ps_style x))) (new_box (ps_style x))) (fun u => andthen (inner_content e w x f' (ps_style x) u) (on_prose pop_span)))) as HK.
    { apply keeps_seq; [apply keeps_prose; [reflexivity|apply inv_new]|]. intros u1 I1. apply keeps_seq; [now apply keeps_inner|]. intros u2 I2. now apply keeps_prose. }
    destruct (on_prose (push_span (s_span (ps_style x))) (new_box (ps_style x))) as [u1|]; [|discriminate]. cbn [andthen] in *.
    destruct (inner_content e w x f' (ps_style x) u1) as [u2|]; [|discriminate]. cbn [andthen] in *. destruct (on_prose pop_span u2) as [u3|]; [|discriminate]. cbn [andthen].
    apply keeps_ok. apply inv_add.
    + apply inv_flex_any. now apply (inv_flush f).
    + apply (finalize_ok f'); [now apply HK|exact Hx|]. unfold f'. destruct (s_display (ps_style x)) as [[] o it|[]| |]; cbn; try discriminate; reflexivity.
    + unfold inline_level. cbn [disp box_of]. unfold in_line in El. destruct (s_display (ps_style x)) as [i [] it|i| |]; try reflexivity; discriminate.
Qed.

(** ** Elements *)
Definition one_box (x : res) (t : st) (Q : box -> Prop) : Prop := forall t', x = Ok t' -> exists b, t' = add_to_parent b t /\ ok_box b /\ Q b.
Definition node_inv (n : node) : Prop := every usual_elem n = true ->
  (forall f ps t, inv f t -> keeps f (m_node (make n) f ps t)) /\
  (forall f ps t e kids i, n = Elem e kids -> s_display (e_style e) = Internal i -> one_box (m_node (make n) f ps t) t (fun b => disp b = Internal i)) /\
  (forall t e kids d, n = Elem e kids -> s_display (e_style e) = d -> proper_table_child d = true -> d <> Internal TABLE_CAPTION ->
     one_box (m_internal (make n) d t) t (fun b => table_child b /\ disp b = d)) /\
  (forall t e kids, n = Elem e kids -> s_display (e_style e) = Internal TABLE_COLUMN ->
     one_box (m_internal (make n) (Internal TABLE_COLUMN_GROUP) t) t (fun b => disp b = Internal TABLE_COLUMN)).

Lemma pseudos_split e : pseudos_ok e = true -> forall x, x = e_marker e \/ x = e_before e \/ x = e_after e ->
  match x with Some x => s_display (ps_style x) <> Internal TABLE_BOX | None => True end.
Proof.
  unfold pseudos_ok. cbv zeta. rewrite !andb_true_iff. intros [[H1 H2] H3] x [-> | [-> | ->]].
  all: match goal with |- match ?y with _ => _ end => destruct y as [z|]; [|exact I] end; intros E; rewrite E in *; discriminate.
Qed.
Lemma keeps_each f ps : forall kids t, Forall node_inv kids -> forallb (every usual_elem) kids = true -> inv f t -> keeps f (each (fun k => m_node (snd k) f ps) (map kid_of kids) t).
Proof.
  induction kids as [|n kids IH]; intros t HF H Hi; [now apply keeps_ok|]. cbn [map each forallb kid_of snd] in *. apply andb_true_iff in H as [H1 H2].
  inversion_clear HF as [|? ? Hn HF']. apply keeps_seq; [now apply (Hn H1)|]. intros t' Hi'. now apply IH.
Qed.
Lemma keeps_children e kids f ps t : Forall node_inv kids -> pseudos_ok e = true -> forallb (every usual_elem) kids = true -> inv f t ->
  keeps f (build_children e (map kid_of kids) f ps t).
Proof.
  intros HF Hp H Hi. pose proof (pseudos_split e Hp) as HP. unfold build_children. apply keeps_seq.
  - destruct (is_item (s_display (e_style e))); [|now apply keeps_ok]. apply keeps_pseudo; [exact Hi|apply HP; auto].
  - intros t1 I1. apply keeps_seq; [apply keeps_pseudo; [exact I1|apply HP; auto]|]. intros t2 I2. apply keeps_seq; [now apply keeps_each|]. intros t3 I3. apply keeps_pseudo; [exact I3|apply HP; auto].
Qed.
Lemma block_shaped e kids f ps o u : Forall node_inv kids -> e_tag e <> SVG -> pseudos_ok e = true -> forallb (every usual_elem) kids = true ->
  s_display ps <> Internal TABLE_BOX -> (is_flex (s_display ps) = true -> f = FROM_FLEX) ->
  match e_tag e with INPUT_TEXT _ => is_flex (s_display ps) = false | _ => True end ->
  block_flow e (map kid_of kids) f ps (new_box ps) = Ok u -> ok_box (box_of ps u o).
Proof.
  intros HF Hs Hp H Hd Hfl Hin. unfold block_flow.
  assert (andthen (build_children e (map kid_of kids) f ps (new_box ps)) (fun t => Ok (finalize ps t)) = Ok u -> ok_box (box_of ps u o)) as HC.
  { pose proof (keeps_children e kids f ps (new_box ps) HF Hp H (inv_new f ps)) as HK.
    destruct (build_children e (map kid_of kids) f ps (new_box ps)) as [t|]; [|discriminate]. cbn. intros [= <-]. apply (finalize_ok f); [now apply HK|exact Hd|exact Hfl]. }
  assert (forall c, match c with CProse p => struts (p_items p) = [] /\ is_flex (s_display ps) = false | _ => True end -> ok_box (Box ps c [] o)) as HV.
  { intros c Hc. apply everywhere_box. split; [|constructor]. unfold shaped, lines_or_blocks, only_items, table_of_rows. cbn [conts kids_of disp].
    split; [destruct c as [|p| |]; try reflexivity; [constructor|split; [apply Hc|constructor]]|].
    destruct (s_display ps) as [i ? ?|i| |]; try (split; exact I); destruct i; try (split; exact I); [|congruence]. destruct c; try (split; exact I). now destruct Hc. }
  destruct (e_tag e) eqn:Et; cbn [is_void]; unfold build_void; rewrite ?Et; try exact HC; try contradiction; cbn; intros [= <-];
    try (apply HV; exact I); unfold box_of; cbn.
  apply HV. split; [|exact Hin]. cbn. clear. induction value; [reflexivity|assumption].
Qed.

(** ** Tables *)
Definition tinv (Q : box -> Prop) (t : st) : Prop :=
  t_content t = CNone /\ t_inline t = None /\ Forall ok_box (t_kids t) /\ Forall Q (t_kids t).
Lemma tinv_add Q b t : tinv Q t -> ok_box b -> Q b -> tinv Q (add_to_parent b t).
Proof. intros (H1 & H2 & H3 & H4) Hb HQ. unfold add_to_parent. rewrite H1. split; [reflexivity|]. split; [exact H2|]. split; apply Forall_app; auto. Qed.
Lemma tinv_part Q : tinv Q part_box. Proof. split; [reflexivity|]. split; [reflexivity|]. split; constructor. Qed.
Definition is_cell (b : box) : Prop := disp b = Internal TABLE_CELL.
(** [row]: the parent is a row. *)
Definition winv (row : bool) (Q : box -> Prop) (w : wrap) : Prop :=
  tinv Q (w_bc w) /\ (forall r, w_row w = Some r -> tinv is_cell r) /\ (forall c, w_cell w = Some c -> inv FROM_TABLE c) /\
  (if row then w_row w = None else w_cell w <> None -> w_row w <> None).

Lemma cell_box sty c : inv FROM_TABLE c -> let b := box_of (anon_style TABLE_CELL sty) (finalize (anon_style TABLE_CELL sty) c) OAnon in ok_box b /\ is_cell b.
Proof. intros H. cbv zeta. split; [|reflexivity]. apply (finalize_ok FROM_TABLE); [exact H|discriminate|discriminate]. Qed.
Lemma internal_not_inline (l : list box) : Forall is_cell l -> Forall (fun b => inline_level b = false) l.
Proof. apply Forall_impl. intros b Hb. unfold inline_level. now rewrite Hb. Qed.
Lemma row_box sty r : tinv is_cell r -> ok_box (box_of (anon_style TABLE_ROW sty) r OAnon) /\ row_of_cells (box_of (anon_style TABLE_ROW sty) r OAnon).
Proof.
  intros (H1 & H2 & H3 & H4). split; [|split; [reflexivity|split; [exact H1|exact H4]]]. apply none_shaped; [exact H1|exact H3|now apply internal_not_inline|discriminate].
Qed.
Lemma row_child b : row_of_cells b -> table_child b.
Proof. intros H. unfold table_child. pose proof (proj1 H) as ->. exact H. Qed.

Lemma winv_row row Q w : winv row Q w -> row = false -> winv row Q (row_if_none w) /\ w_row (row_if_none w) <> None.
Proof.
  intros (H1 & H2 & H3 & H4) ->. unfold row_if_none. destruct (w_row w) as [r|] eqn:E.
  - split; [|now rewrite E]. split; [exact H1|]. split; [now rewrite E|]. split; [exact H3|]. now rewrite E.
  - split; [|cbn; discriminate]. split; [exact H1|]. split; [cbn; intros r [= <-]; apply tinv_part|]. split; [exact H3|]. cbn. discriminate.
Qed.
Lemma winv_cell row Q sty w : winv row Q w -> row = true \/ w_row w <> None -> winv row Q (cell_if_none sty w) /\ w_cell (cell_if_none sty w) <> None.
Proof.
  intros (H1 & H2 & H3 & H4) Hr. unfold cell_if_none. destruct (w_cell w) as [c|] eqn:E.
  - split; [|now rewrite E]. split; [exact H1|]. split; [exact H2|]. split; [now rewrite E|]. rewrite E. exact H4.
  - split; [|cbn; discriminate]. split; [exact H1|]. split; [exact H2|]. split; [cbn; intros c [= <-]; apply inv_new|]. cbn. destruct row; [exact H4|]. intros _. destruct Hr; [discriminate|assumption].
Qed.
Lemma winv_end_cell (row : bool) (Q : box -> Prop) sty w : (forall b, is_cell b -> row = true -> Q b) -> winv row Q w -> winv row Q (end_cell sty w) /\ w_cell (end_cell sty w) = None.
Proof.
  intros HQ (H1 & H2 & H3 & H4). unfold end_cell. destruct (w_cell w) as [c|] eqn:E.
  - cbv zeta. destruct (cell_box sty c (H3 c eq_refl)) as [Hb Hc].
    destruct (has_something (finalize (anon_style TABLE_CELL sty) c)).
    + destruct (w_row w) as [r|] eqn:Er.
      * split; [|reflexivity]. split; [exact H1|]. split; [cbn; intros r' [= <-]; apply tinv_add; [now apply H2|exact Hb|exact Hc]|]. split; [cbn; discriminate|]. cbn.
        destruct row; [discriminate|contradiction].
      * destruct row; [|now destruct H4]. split; [|reflexivity]. split; [apply tinv_add; [exact H1|exact Hb|now apply HQ]|]. split; [cbn; discriminate|]. split; [cbn; discriminate|reflexivity].
    + split; [|reflexivity]. split; [exact H1|]. split; [exact H2|]. split; [cbn; discriminate|]. cbn. destruct row; [exact H4|contradiction].
  - split; [|exact E]. split; [exact H1|]. split; [exact H2|]. split; [now rewrite E|]. rewrite E. exact H4.
Qed.
Lemma winv_end_row (row : bool) (Q : box -> Prop) sty w : (forall b, row_of_cells b -> row = false -> Q b) -> winv row Q w -> w_cell w = None ->
  winv row Q (end_row sty w) /\ w_cell (end_row sty w) = None /\ w_row (end_row sty w) = None.
Proof.
  intros HQ (H1 & H2 & H3 & H4) E. unfold end_row. destruct (w_row w) as [r|] eqn:Er.
  - destruct row; [discriminate|]. destruct (row_box sty r (H2 r eq_refl)) as [Hb Hr]. destruct (has_something r).
    + split; [|split; [exact E|reflexivity]]. split; [apply tinv_add; [exact H1|exact Hb|now apply HQ]|]. split; [cbn; discriminate|]. split; [exact H3|]. cbn. rewrite E. contradiction.
    + split; [|split; [exact E|reflexivity]]. split; [exact H1|]. split; [cbn; discriminate|]. split; [exact H3|]. cbn. rewrite E. contradiction.
  - split; [|split; [exact E|exact Er]]. split; [exact H1|]. split; [rewrite Er; discriminate|]. split; [exact H3|]. rewrite Er. destruct row; [reflexivity|]. rewrite E. contradiction.
Qed.
Definition wkeeps (row : bool) Q (x : wres) : Prop := forall w, x = WOk w -> winv row Q w.
Lemma wkeeps_cell row Q f w : winv row Q w -> (forall c, inv FROM_TABLE c -> keeps FROM_TABLE (f c)) -> wkeeps row Q (in_cell f w).
Proof.
  intros (H1 & H2 & H3 & H4) Hf w' E. unfold in_cell in E. destruct (w_cell w) as [c|] eqn:Ec; [|injection E as <-; split; [exact H1|]; split; [exact H2|]; split; [now rewrite Ec|]; rewrite Ec; exact H4].
  specialize (Hf c (H3 c eq_refl)). destruct (f c) as [t|]; [|discriminate]. injection E as <-. split; [exact H1|]. split; [exact H2|]. split; [cbn; intros c' [= <-]; now apply Hf|].
  cbn. destruct row; [exact H4|]. intros _. apply H4. discriminate.
Qed.
Lemma wkeeps_row Q f w : winv false Q w -> (forall r, one_box (f r) r is_cell) -> wkeeps false Q (in_row f w).
Proof.
  intros (H1 & H2 & H3 & H4) Hf w' E. unfold in_row in E. destruct (w_row w) as [r|] eqn:Er; [|injection E as <-; split; [exact H1|]; split; [rewrite Er; discriminate|]; split; [exact H3|]; rewrite Er; exact H4].
  specialize (Hf r). destruct (f r) as [t|]; [|discriminate]. injection E as <-. destruct (Hf t eq_refl) as (b & -> & Hb & Hc). split; [exact H1|].
  split; [cbn; intros r' [= <-]; apply tinv_add; [now apply H2|exact Hb|exact Hc]|]. split; [exact H3|]. cbn. discriminate.
Qed.
Lemma wkeeps_bc row Q f w : winv row Q w -> one_box (f (w_bc w)) (w_bc w) Q -> wkeeps row Q (in_bc f w).
Proof.
  intros (H1 & H2 & H3 & H4) Hf w' E. unfold in_bc in E. destruct (f (w_bc w)) as [t|]; [|discriminate]. injection E as <-. destruct (Hf t eq_refl) as (b & -> & Hb & Hc).
  split; [now apply tinv_add|]. split; [exact H2|]. split; [exact H3|exact H4].
Qed.
(** What is accepted, and of which boxes the result is made. *)
Definition takes (row skip : bool) (accepted : display -> bool) (Q : box -> Prop) : Prop :=
  match row, skip with
  | true, false => accepted = is_internal TABLE_CELL /\ Q = is_cell
  | false, false => accepted = is_internal TABLE_ROW /\ Q = row_of_cells
  | false, true => accepted = proper_table_child /\ Q = table_child
  | true, true => False
  end.
Lemma is_internal_eq i d : is_internal i d = true -> d = Internal i.
Proof. destruct d as [a b c|[]| |], i; try discriminate; reflexivity. Qed.
Lemma wkeeps_kid row skip accepted Q sty n w : node_inv n -> every usual_elem n = true -> is_internal TABLE_ROW (s_display sty) = row -> takes row skip accepted Q ->
  winv row Q w -> wkeeps row Q (table_kid sty skip accepted (kid_of n) w).
Proof.
  intros Hn Hu Hr Ht Hw. destruct (Hn Hu) as (N1 & N2 & N3 & _). unfold table_kid. cbn [kid_of fst snd]. rewrite Hr.
  assert (forall b, is_cell b -> row = true -> Q b) as HQ1 by (intros b Hb ->; destruct skip; [contradiction|]; cbn in Ht; destruct Ht as [_ ->]; exact Hb).
  assert (forall b, row_of_cells b -> row = false -> Q b) as HQ2 by (intros b Hb ->; destruct skip; cbn in Ht; destruct Ht as [_ ->]; [now apply row_child|exact Hb]).
  destruct (winv_end_cell row Q sty w HQ1 Hw) as [He Ne].
  destruct n as [e kids|s|].
  - set (d := s_display (e_style e)) in *. destruct (skip && is_internal TABLE_CAPTION d) eqn:Es; [intros w' [= <-]; exact Hw|].
    destruct (accepted d) eqn:Ea.
    + destruct (winv_end_row row Q sty _ HQ2 He Ne) as (H1 & H2 & H3). destruct (is_internal TABLE_CELL d) eqn:Ec.
      * apply wkeeps_bc; [exact H1|]. intros t' E. destruct (N2 FROM_TABLE sty _ e kids TABLE_CELL eq_refl (is_internal_eq _ _ Ec) t' E) as (b & E' & Hb & Hd). exists b. split; [exact E'|]. split; [exact Hb|].
        destruct row, skip; cbn in Ht; try contradiction; destruct Ht as [-> ->]; [exact Hd| |]; apply is_internal_eq in Ec; rewrite Ec in Ea; discriminate.
      * apply wkeeps_bc; [exact H1|]. intros t' E.
        assert (proper_table_child d = true /\ d <> Internal TABLE_CAPTION) as [Hp Hc].
        { destruct row, skip; cbn in Ht; try contradiction; destruct Ht as [-> _].
          - congruence.
          - split; [exact Ea|]. intros E0. rewrite E0 in Es. discriminate.
          - apply is_internal_eq in Ea. rewrite Ea. split; [reflexivity|discriminate]. }
        destruct (N3 _ e kids d eq_refl eq_refl Hp Hc t' E) as (b & E' & Hb & Hd & Hdb). exists b. split; [exact E'|]. split; [exact Hb|].
        destruct row, skip; cbn in Ht; try contradiction; destruct Ht as [-> ->]; [congruence|exact Hd|].
        apply is_internal_eq in Ea. unfold table_child in Hd. rewrite Hdb, Ea in Hd. exact Hd.
    + destruct row.
      * destruct (winv_cell true Q sty w Hw (or_introl eq_refl)) as [H1 H2]. apply wkeeps_cell; [exact H1|]. intros c Hc. now apply N1.
      * destruct (is_internal TABLE_CELL d) eqn:Ec.
        -- destruct (winv_row false Q _ He eq_refl) as [H1 H2]. apply wkeeps_row; [exact H1|]. intros r. exact (N2 FROM_TABLE _ r e kids TABLE_CELL eq_refl (is_internal_eq _ _ Ec)).
        -- destruct (winv_row false Q _ Hw eq_refl) as [H1 H2]. destruct (winv_cell false Q sty _ H1 (or_intror H2)) as [H3 H4]. apply wkeeps_cell; [exact H3|]. intros c Hc. now apply N1.
  - set (w1 := if row then w else row_if_none w). assert (winv row Q w1 /\ (row = true \/ w_row w1 <> None)) as [H1 H2].
    { unfold w1. destruct row; [auto|]. destruct (winv_row false Q _ Hw eq_refl). auto. }
    destruct (winv_cell row Q sty w1 H1 H2) as [H3 H4]. apply wkeeps_cell; [exact H3|]. intros c Hc. now apply keeps_text.
  - intros w' [= <-]. exact Hw.
Qed.
Lemma table_kids_inv row skip accepted Q sty kids u : Forall node_inv kids -> forallb (every usual_elem) kids = true -> is_internal TABLE_ROW (s_display sty) = row -> takes row skip accepted Q ->
  table_kids sty skip accepted (map kid_of kids) part_box = Ok u -> tinv Q u.
Proof.
  intros HF Hu Hr Ht. unfold table_kids.
  assert (forall l w, Forall node_inv l -> forallb (every usual_elem) l = true -> winv row Q w -> wkeeps row Q (table_loop sty skip accepted (map kid_of l) w)) as HL.
  { induction l as [|n l IH]; intros w Hl Hul Hw; [intros w' [= <-]; exact Hw|]. cbn [map table_loop forallb] in *. apply andb_true_iff in Hul as [U1 U2]. inversion_clear Hl as [|? ? Hn Hl'].
    pose proof (wkeeps_kid row skip accepted Q sty n w Hn U1 Hr Ht Hw) as HK. destruct (table_kid sty skip accepted (kid_of n) w) as [w1|]; [|discriminate]. cbn [wthen]. apply IH; try assumption. now apply HK. }
  assert (winv row Q (mkWrap part_box None None)) as Hw0.
  { split; [apply tinv_part|]. split; [cbn; discriminate|]. split; [cbn; discriminate|]. destruct row; [reflexivity|contradiction]. }
  specialize (HL kids _ HF Hu Hw0). destruct (table_loop sty skip accepted (map kid_of kids) (mkWrap part_box None None)) as [w|]; [|discriminate]. intros E.
  assert (forall b, is_cell b -> row = true -> Q b) as HQ1 by (intros b Hb ->; destruct skip; [contradiction|]; cbn in Ht; destruct Ht as [_ ->]; exact Hb).
  assert (forall b, row_of_cells b -> row = false -> Q b) as HQ2 by (intros b Hb ->; destruct skip; cbn in Ht; destruct Ht as [_ ->]; [now apply row_child|exact Hb]).
  destruct (winv_end_cell row Q sty w HQ1 (HL w eq_refl)) as [He Ne]. destruct (winv_end_row row Q sty _ HQ2 He Ne) as ((H1 & _) & _).
  assert (u = w_bc (end_row sty (end_cell sty w))) as -> by congruence. exact H1.
Qed.

Lemma captions_inv ws : forall kids t, Forall node_inv kids -> forallb (every usual_elem) kids = true -> inv FROM_BLOCK t -> keeps FROM_BLOCK (build_captions (map kid_of kids) ws t).
Proof.
  unfold build_captions. induction kids as [|n kids IH]; intros t HF Hu Hi; [now apply keeps_ok|]. cbn [map each forallb kid_of fst snd] in *. apply andb_true_iff in Hu as [U1 U2].
  inversion_clear HF as [|? ? Hn HF']. apply keeps_seq; [|intros t' Hi'; now apply IH]. destruct n as [e ks|s|]; [|now apply keeps_ok|now apply keeps_ok].
  destruct (is_internal TABLE_CAPTION (s_display (e_style e))) eqn:E; [|now apply keeps_ok]. apply is_internal_eq in E.
  destruct (Hn U1) as (_ & N2 & _). intros t' Et. destruct (N2 FROM_BLOCK ws t e ks TABLE_CAPTION eq_refl E t' Et) as (b & -> & Hb & Hd). apply inv_add; [exact Hi|exact Hb|]. unfold inline_level. now rewrite Hd.
Qed.
Lemma table_box_ok sty u o : tinv table_child u -> ok_box (box_of (with_display (Internal TABLE_BOX) sty) u o).
Proof.
  intros (H1 & H2 & H3 & H4). apply everywhere_box. split; [|exact H3]. unfold shaped, lines_or_blocks, only_items, table_of_rows. cbn [conts kids_of disp s_display with_display]. rewrite H1.
  split; [|split; [exact I|auto]]. revert H4. apply Forall_impl. intros b Hb. unfold inline_level. unfold table_child in Hb. destruct (disp b); try contradiction. reflexivity.
Qed.
Lemma inner_box_inv e kids ps k t' : Forall node_inv kids -> pseudos_ok e = true -> e_tag e <> SVG -> forallb (every usual_elem) kids = true -> s_display ps <> Internal TABLE_BOX ->
  match e_tag e with INPUT_TEXT _ => is_flex (s_display ps) = false | _ => True end ->
  inner_box e (map kid_of kids) ps k = Ok t' -> exists b, k b = Ok t' /\ ok_box b /\ disp b = s_display ps.
Proof.
  intros HF Hp Hs Hu Hd Hin. unfold inner_box. destruct (is_inside TABLE (s_display ps)) eqn:Et.
  - unfold table_wrapper. cbv zeta. pose proof (pseudos_split e Hp) as HP.
    assert (inv FROM_BLOCK part_box) as I0 by (split; [reflexivity|split; [constructor|split; [constructor|split; [exact I|discriminate]]]]).
    assert (forall (b : bool) t, inv FROM_BLOCK t -> keeps FROM_BLOCK (if b then build_captions (map kid_of kids) (wrapper_style ps) t else Ok t)) as Hcap
      by (intros [|] t Ht; [now apply captions_inv|now apply keeps_ok]).
    pose proof (Hcap (s_top ps) part_box I0) as K1. destruct (if s_top ps then build_captions (map kid_of kids) (wrapper_style ps) part_box else Ok part_box) as [t1|]; [|discriminate]. cbn [andthen].
    pose proof (keeps_pseudo e BEFORE (e_before e) FROM_BLOCK (wrapper_style ps) t1 (K1 t1 eq_refl)) as K2. destruct (build_pseudo_opt e BEFORE (e_before e) FROM_BLOCK (wrapper_style ps) t1) as [t2|]; [|discriminate]. cbn [andthen].
    pose proof (table_kids_inv false true proper_table_child table_child (with_display (Internal TABLE_BOX) ps) kids) as K3.
    destruct (table_kids (with_display (Internal TABLE_BOX) ps) true proper_table_child (map kid_of kids) part_box) as [u|]; [|discriminate]. cbn [andthen].
    specialize (K3 u HF Hu eq_refl (conj eq_refl eq_refl) eq_refl).
    assert (inv FROM_BLOCK t2) as I2 by (apply K2; [apply HP; auto|reflexivity]).
    pose proof (inv_add FROM_BLOCK _ t2 I2 (table_box_ok ps u (OElem (e_id e)) K3) eq_refl) as I3.
    set (t3 := add_to_parent (box_of (with_display (Internal TABLE_BOX) ps) u (OElem (e_id e))) t2) in *.
    assert (keeps FROM_BLOCK (if s_top ps then Ok t3 else build_captions (map kid_of kids) (wrapper_style ps) t3)) as K4 by (destruct (s_top ps); [now apply keeps_ok|now apply captions_inv]).
    destruct (if s_top ps then Ok t3 else build_captions (map kid_of kids) (wrapper_style ps) t3) as [t4|]; [|discriminate]. cbn [andthen].
    pose proof (keeps_pseudo e AFTER (e_after e) FROM_BLOCK (wrapper_style ps) t4 (K4 t4 eq_refl)) as K5. destruct (build_pseudo_opt e AFTER (e_after e) FROM_BLOCK (wrapper_style ps) t4) as [t5|]; [|discriminate]. cbn [andthen].
    intros E. eexists. split; [exact E|]. split; [|reflexivity]. destruct (K5 ltac:(apply HP; auto) t5 eq_refl) as (J1 & J2 & J3 & _). now apply none_shaped.
  - unfold box_from. cbv zeta. set (f := if is_inside FLEX (s_display ps) then FROM_FLEX else FROM_BLOCK).
    destruct (block_flow e (map kid_of kids) f ps (new_box ps)) as [u|] eqn:Eu; [|discriminate]. cbn [andthen]. intros E. eexists. split; [exact E|]. split; [|reflexivity].
    apply (block_shaped e kids f ps _ u HF Hs Hp Hu Hd); [|exact Hin|exact Eu]. unfold f. destruct (s_display ps) as [[] ? ?| | |]; cbn; try discriminate; reflexivity.
Qed.
Lemma one_internal e kids i t : Forall node_inv kids -> usual_elem e = true -> forallb (every usual_elem) kids = true -> s_display (e_style e) = Internal i ->
  one_box (inner_box e (map kid_of kids) (e_style e) (fun b => Ok (add_to_parent b t))) t (fun b => disp b = Internal i).
Proof.
  intros HF Hu Hk Ed t' E. apply andb_true_iff in Hu as [U1 U2]. unfold usual in U1. rewrite Ed in U1.
  destruct (inner_box_inv e kids (e_style e) (fun b => Ok (add_to_parent b t)) t' HF U2) as (b & Eb & Hb & Hd); try exact E.
  - intros Et. rewrite Et in U1. destruct i; discriminate.
  - exact Hk.
  - rewrite Ed. destruct i; discriminate || congruence.
  - destruct (e_tag e); try exact I. now rewrite Ed.
  - injection Eb as <-. exists b. split; [reflexivity|]. split; [exact Hb|congruence].
Qed.

Theorem nodes_inv : forall n, node_inv n.
Proof.
  induction n as [e kids HF|s|] using node_ind'; intros Hu.
  2:{ split; [intros f ps t Hi; now apply keeps_text|]. split; [discriminate|]. split; discriminate. }
  2:{ split; [intros f ps t Hi; now apply keeps_ok|]. split; [discriminate|]. split; discriminate. }
  assert (m_node (make (Elem e kids)) = build_elem e (map kid_of kids)) as Mn by reflexivity.
  assert (forall d, m_internal (make (Elem e kids)) d = build_part d e (map kid_of kids)) as Mi by reflexivity.
  cbn [every] in Hu. apply andb_true_iff in Hu as [Hu Hk]. pose proof Hu as Hu'. apply andb_true_iff in Hu' as [U1 U2].
  assert (forall d t u, match d with Internal TABLE_COLUMN_GROUP => d <> s_display (e_style e) -> s_display (e_style e) = Internal TABLE_COLUMN | _ => True end ->
     d = Internal TABLE_COLUMN_GROUP ->
     each (fun k => match fst k with
                    | Elem e' _ => if is_internal TABLE_COLUMN (s_display (e_style e')) then m_internal (snd k) d else Ok
                    | _ => Ok end) (map kid_of kids) t = Ok u -> tinv (fun b => disp b = Internal TABLE_COLUMN) t -> tinv (fun b => disp b = Internal TABLE_COLUMN) u) as Hcols.
  { intros d t u _ ->. revert t. clear Mn Mi Hu U1 U2. induction kids as [|n l IH]; intros t E Ht; [cbn in E; congruence|]. cbn [map each forallb kid_of fst snd] in *. apply andb_true_iff in Hk as [K1 K2].
    inversion_clear HF as [|? ? Hn HF'].
    destruct n as [e' ks'|s|]; cbn [andthen] in E; try (now apply (IH HF' K2 t)).
    destruct (is_internal TABLE_COLUMN (s_display (e_style e'))) eqn:Ec; [|now apply (IH HF' K2 t)].
    destruct (Hn K1) as (_ & _ & _ & N4). pose proof (N4 t e' ks' eq_refl (is_internal_eq _ _ Ec)) as H4.
    destruct (m_internal (make (Elem e' ks')) (Internal TABLE_COLUMN_GROUP) t) as [t1|]; [|discriminate]. cbn [andthen] in E. destruct (H4 t1 eq_refl) as (b & -> & Hb & Hd).
    apply (IH HF' K2 _ E). now apply tinv_add. }
  assert (forall d t t' u, tinv (fun b => disp b = Internal TABLE_COLUMN) u -> s_display (e_style e) = d -> d = Internal TABLE_COLUMN_GROUP \/ d = Internal TABLE_COLUMN ->
     Ok (add_to_parent (box_of (e_style e) u (OElem (e_id e))) t) = Ok t' ->
     exists b, t' = add_to_parent b t /\ ok_box b /\ disp b = d /\ Forall (fun b => disp b = Internal TABLE_COLUMN) (kids_of b)) as Hcol.
  { intros d t t' u (T1 & T2 & T3 & T4) Hd Hd' [= <-]. eexists. split; [reflexivity|]. split; [|split; [exact Hd|exact T4]].
    apply none_shaped; [exact T1|exact T3| |rewrite Hd; destruct Hd' as [-> | ->]; discriminate]. revert T4. apply Forall_impl. intros b Hb. unfold inline_level. now rewrite Hb. }
  split; [|split; [|split]].
  - intros f ps t Hi. rewrite Mn. unfold build_elem. cbv zeta. destruct (s_display (e_style e)) as [i o it|i| |] eqn:Ed.
    + assert (e_tag e <> SVG) as Hs by (intros Et; unfold usual in U1; rewrite Ed, Et in U1; destruct i, o; discriminate).
      assert (forall v, e_tag e = INPUT_TEXT v -> i <> FLEX) as Hin by (intros v Et ->; unfold usual in U1; rewrite Ed, Et in U1; discriminate).
      assert (forall ps' k t', s_display ps' = Default i o it \/ s_display ps' = blockify (Default i o it) -> inner_box e (map kid_of kids) ps' k = Ok t' ->
        exists b, k b = Ok t' /\ ok_box b /\ disp b = s_display ps') as Hbox.
      { intros ps' k t' Hd E. apply (inner_box_inv e kids ps' k t' HF U2 Hs Hk); [destruct Hd as [-> | ->]; destruct i, o; discriminate| |exact E].
        destruct (e_tag e) as [| | | | |v| | | | |] eqn:Et; try exact I. specialize (Hin v eq_refl). destruct Hd as [-> | ->]; destruct i, o; try reflexivity; congruence. }
      assert (f <> FROM_FLEX -> forall o', o' = o -> o' <> BLOCK -> keeps f (if always_inline_block (e_tag e) || negb (is_inside FLOW (Default i o it)) then inner_box e (map kid_of kids) (e_style e) (fun b => add_to_inline b t)
         else inline_flow e (map kid_of kids) f ps t)) as Hinl.
      { intros Hf o' -> Ho. destruct (always_inline_block (e_tag e) || negb (is_inside FLOW (Default i o it))) eqn:Eb.
        - intros t' E. destruct (Hbox (e_style e) _ t' (or_introl Ed) E) as (b & Eb' & Hb & Hd). unfold add_to_inline in Eb'. destruct Hi as (H1 & H2 & H3 & H4 & H5).
          destruct (t_inline t) as [[p k]|] eqn:Ei; [|discriminate]. injection Eb' as <-. cbn [lines_ok] in H4. destruct H4 as (H6 & H7 & H8).
          split; [exact H1|]. split; [exact H2|]. split; [exact H3|]. split; [|contradiction]. cbn. rewrite struts_app, H6, app_length, Nat.add_1_r, seq_S. split; [reflexivity|]. split; apply Forall_app; split; auto. constructor; [|constructor]. unfold block_level. rewrite Hd, Ed. destruct o; try reflexivity. contradiction.
        - apply orb_false_iff in Eb as [Eb1 Eb2]. assert (i = FLOW) as -> by (destruct i; try discriminate; reflexivity).
          unfold inline_flow.
          assert (keeps f (andthen (on_prose (push_span (s_span (e_style e))) t) (fun u => andthen (build_children e (map kid_of kids) FROM_INLINE (e_style e) u) (on_prose pop_span)))) as HK.
          { apply keeps_seq; [now apply keeps_prose|]. intros t1 I1. apply (inv_weaken f FROM_INLINE) in I1; [|discriminate].
            pose proof (keeps_children e kids FROM_INLINE (e_style e) t1 HF U2 Hk I1) as K2. intros t' E. destruct (build_children e (map kid_of kids) FROM_INLINE (e_style e) t1) as [t2|]; [|discriminate].
            cbn [andthen] in E. apply (inv_weaken FROM_INLINE f); [|exact Hf]. revert E. apply (keeps_prose FROM_INLINE pop_span); [reflexivity|now apply K2]. }
          unfold usual in U1. rewrite Ed in U1. destruct (e_tag e) eqn:Et; cbn [is_void]; unfold build_void; rewrite ?Et; try exact HK; try (now apply keeps_ok); try discriminate; try (destruct o; try discriminate; contradiction).
          apply keeps_ok. apply inv_flex_any. now apply (inv_flush f). }
      assert (f <> FROM_FLEX -> keeps f match o with BLOCK => inner_box e (map kid_of kids) (e_style e) (fun b => Ok (add_to_parent b (flush ps t)))
         | _ => if always_inline_block (e_tag e) || negb (is_inside FLOW (Default i o it)) then inner_box e (map kid_of kids) (e_style e) (fun b => add_to_inline b t)
                else inline_flow e (map kid_of kids) f ps t end) as Hnf.
      { intros Hf. destruct o; [|now apply (Hinl Hf INLINE)|now apply (Hinl Hf RUN_IN)]. intros t' E. destruct (Hbox (e_style e) _ t' (or_introl Ed) E) as (b & [= <-] & Hb & Hd).
        apply inv_add; [apply inv_flex_any; now apply (inv_flush f)|exact Hb|]. unfold inline_level. now rewrite Hd, Ed. }
      destruct f; try (apply Hnf; discriminate). intros t' E.
      destruct (Hbox (with_display (blockify (Default i o it)) (e_style e)) _ t' (or_intror eq_refl) E) as (b & [= <-] & Hb & Hd). apply inv_add; [exact Hi|exact Hb|]. unfold inline_level. rewrite Hd. destruct i, o; reflexivity.
    + intros t' E. destruct (one_internal e kids i t HF Hu Hk Ed t' E) as (b & -> & Hb & Hd). apply inv_add; [exact Hi|exact Hb|]. unfold inline_level. now rewrite Hd.
    + now apply keeps_children.
    + now apply keeps_ok.
  - intros f ps t e' kids' i [= <- <-] Ed. rewrite Mn. unfold build_elem. cbv zeta. rewrite Ed. now apply one_internal.
  - intros t e' kids' d [= <- <-] Ed Hp Hc t' E. rewrite Mi in E. unfold build_part in E. cbv zeta in E.
    assert (forall row, is_internal TABLE_ROW (s_display (e_style e)) = row -> forall skip accepted Q, takes row skip accepted Q ->
      andthen (table_kids (e_style e) skip accepted (map kid_of kids) part_box) (fun u => Ok (add_to_parent (box_of (e_style e) u (OElem (e_id e))) t)) = Ok t' ->
      exists b, t' = add_to_parent b t /\ (Forall (fun x => inline_level x = false) (kids_of b) -> ok_box b) /\ disp b = d /\ conts b = CNone /\ Forall Q (kids_of b)) as HT.
    { intros row Hr skip acc Q Ht E'. destruct (table_kids (e_style e) skip acc (map kid_of kids) part_box) as [u|] eqn:Eu; [|discriminate]. cbn [andthen] in E'. injection E' as <-.
      destruct (table_kids_inv row skip acc Q (e_style e) kids u HF Hk Hr Ht Eu) as (T1 & T2 & T3 & T4). eexists. split; [reflexivity|]. split; [|split; [exact Ed|split; [exact T1|exact T4]]].
      intros Hl. apply none_shaped; try assumption. rewrite Ed. intros ->. discriminate. }
    destruct d as [a b c|i| |]; try discriminate. destruct i; try discriminate; try contradiction.
    + destruct (HT false ltac:(now rewrite Ed) false (is_internal TABLE_ROW) row_of_cells (conj eq_refl eq_refl) E) as (b & -> & Hb & Hd & Hn & HQ).
      exists b. split; [reflexivity|]. split; [apply Hb; revert HQ; apply Forall_impl; intros x Hx; unfold inline_level; now rewrite (proj1 Hx)|]. split; [unfold table_child; rewrite Hd; auto|exact Hd].
    + destruct (HT false ltac:(now rewrite Ed) false (is_internal TABLE_ROW) row_of_cells (conj eq_refl eq_refl) E) as (b & -> & Hb & Hd & Hn & HQ).
      exists b. split; [reflexivity|]. split; [apply Hb; revert HQ; apply Forall_impl; intros x Hx; unfold inline_level; now rewrite (proj1 Hx)|]. split; [unfold table_child; rewrite Hd; auto|exact Hd].
    + destruct (HT false ltac:(now rewrite Ed) false (is_internal TABLE_ROW) row_of_cells (conj eq_refl eq_refl) E) as (b & -> & Hb & Hd & Hn & HQ).
      exists b. split; [reflexivity|]. split; [apply Hb; revert HQ; apply Forall_impl; intros x Hx; unfold inline_level; now rewrite (proj1 Hx)|]. split; [unfold table_child; rewrite Hd; auto|exact Hd].
    + destruct (HT true ltac:(now rewrite Ed) false (is_internal TABLE_CELL) is_cell (conj eq_refl eq_refl) E) as (b & -> & Hb & Hd & Hn & HQ).
      exists b. split; [reflexivity|]. split; [apply Hb; now apply internal_not_inline|]. split; [|exact Hd]. unfold table_child. rewrite Hd. split; [exact Hd|]. split; [exact Hn|exact HQ].
    + match type of E with andthen ?x _ = _ => destruct x as [u|] eqn:Eu end; [|discriminate]. cbn [andthen] in E.
      pose proof (Hcols (Internal TABLE_COLUMN_GROUP) part_box u) as HC. rewrite Ed in HC. specialize (HC ltac:(congruence) eq_refl Eu (tinv_part _)).
      destruct (Hcol (Internal TABLE_COLUMN_GROUP) t t' u HC Ed (or_introl eq_refl) E) as (b & -> & Hb & Hd & HQ). exists b. split; [reflexivity|]. split; [exact Hb|]. split; [|exact Hd]. unfold table_child. now rewrite Hd.
    + injection E as <-. eexists. split; [reflexivity|]. split; [apply none_shaped; [reflexivity|constructor|constructor|rewrite Ed; discriminate]|]. split; [|exact Ed]. unfold table_child. cbn [disp box_of]. rewrite Ed. reflexivity.
  - intros t e' kids' [= <- <-] Ed t' E. rewrite Mi in E. unfold build_part in E. cbv zeta in E.
    match type of E with andthen ?x _ = _ => destruct x as [u|] eqn:Eu end; [|discriminate]. cbn [andthen] in E.
    pose proof (Hcols (Internal TABLE_COLUMN_GROUP) part_box u) as HC. rewrite Ed in HC. specialize (HC ltac:(reflexivity) eq_refl Eu (tinv_part _)).
    destruct (Hcol (Internal TABLE_COLUMN) t t' u HC Ed (or_intror eq_refl) E) as (b & -> & Hb & Hd & HQ). exists b. auto.
Qed.

Theorem document_shaped e kids b : every usual_elem (Elem e kids) = true -> e_tag e = OTHER -> is_flex (s_display (e_style e)) = false ->
  build_document e kids = Tree b -> ok_box b.
Proof.
  intros Hu Ho Hfl E. cbn [every] in Hu. apply andb_true_iff in Hu as [Hu Hk]. apply andb_true_iff in Hu as [U1 U2]. unfold build_document in E. cbv zeta in E.
  destruct (block_flow e (map kid_of kids) FROM_BLOCK (e_style e) (new_box (e_style e))) as [u|] eqn:Eu; [|discriminate]. injection E as <-.
  apply (block_shaped e kids FROM_BLOCK (e_style e) _ u); try assumption.
  - apply Forall_forall. intros n _. apply nodes_inv.
  - rewrite Ho. discriminate.
  - intros Ed. unfold usual in U1. rewrite Ed in U1. discriminate.
  - rewrite Hfl. discriminate.
  - rewrite Ho. exact I.
Qed.

(** ** What makes the builder panic *)
(** Goes well from [t], and there is a root inline box after iff there was one before. *)
Definition well (x : res) (t : st) : Prop := exists t', x = Ok t' /\ (t_inline t' = None <-> t_inline t = None).
Lemma well_ok t : well (Ok t) t. Proof. exists t. split; [reflexivity|tauto]. Qed.
Lemma well_seq x g t : well x t -> (forall t', (t_inline t' = None <-> t_inline t = None) -> well (g t') t') -> well (andthen x g) t.
Proof. intros (t1 & -> & H1) H. destruct (H t1 H1) as (t2 & E & H2). exists t2. cbn. split; [exact E|tauto]. Qed.
Lemma well_add b t : well (Ok (add_to_parent b t)) t. Proof. eexists. split; [reflexivity|]. unfold add_to_parent. cbn. tauto. Qed.
Lemma well_flush_add b ps t : well (Ok (add_to_parent b (flush ps t))) t.
Proof.
  eexists. split; [reflexivity|]. unfold add_to_parent. cbn. unfold flush. destruct (t_inline t) as [[p k]|] eqn:E; [|now rewrite E]. destruct (active p); cbn; [split; discriminate|now rewrite E].
Qed.
Lemma well_flush ps t : well (Ok (flush ps t)) t.
Proof. eexists. split; [reflexivity|]. unfold flush. destruct (t_inline t) as [[p k]|] eqn:E; [|now rewrite E]. destruct (active p); cbn; [split; discriminate|now rewrite E]. Qed.
Lemma well_finalize ps t : well (Ok (finalize ps t)) t.
Proof.
  unfold finalize. destruct (t_inline t) as [[p k]|] eqn:E; [|apply well_ok]. destruct (active p); [|apply well_ok]. destruct (t_kids t); [|apply well_flush].
  eexists. split; [reflexivity|]. cbn. rewrite E. split; discriminate.
Qed.
Lemma well_prose g t : t_inline t <> None -> well (on_prose g t) t.
Proof. intros H. unfold on_prose. destruct (t_inline t) as [[p k]|] eqn:E; [|contradiction]. eexists. split; [reflexivity|]. cbn. rewrite E. split; discriminate. Qed.
Lemma well_text f ps sty s t : t_inline t <> None -> well (build_text f ps sty s t) t.
Proof.
  intros H. unfold build_text. destruct (t_inline t) as [[p k]|] eqn:E; [|contradiction]. match goal with |- well (if ?c then _ else _) _ => destruct c end; [apply well_ok|].
  assert (well (Ok (mkSt (t_content t) (t_kids t) (Some (append_text sty s p, k)))) t) as H1 by (eexists; split; [reflexivity|]; cbn; rewrite E; split; discriminate).
  destruct f; try exact H1. destruct (well_flush ps (mkSt (t_content t) (t_kids t) (Some (append_text sty s p, k)))) as (t2 & E2 & H2). exists t2. split; [exact E2|]. cbn in H2. rewrite E. split; [|discriminate]. intros Hn. apply H2 in Hn. discriminate.
Qed.
Lemma well_inner e w x f ps t : t_inline t <> None -> well (inner_content e w x f ps t) t.
Proof. intros H. unfold inner_content. destruct w, (ps_content x); try (now apply well_text); apply well_ok. Qed.
Lemma well_pseudo e w x f ps t : t_inline t <> None \/ not_in_line e w x = true -> well (build_pseudo_opt e w x f ps t) t.
Proof.
  intros H. destruct x as [x|]; [|apply well_ok]. cbn [build_pseudo_opt]. unfold build_pseudo. rewrite generates_text. destruct (pseudo_text e w x) as [s|] eqn:Es; [|apply well_ok].
  destruct (in_line (s_display (ps_style x))) eqn:El.
  - assert (t_inline t <> None) as Hn.
    { destruct H as [H|H]; [exact H|]. cbn [not_in_line] in H. rewrite Es in H. unfold in_line in El. destruct (s_display (ps_style x)) as [i [] it|i| |]; discriminate. }
    apply well_seq; [now apply well_prose|]. intros t1 H1. apply well_seq; [apply well_inner; tauto|]. intros t2 H2. apply well_prose. tauto.
  - cbv zeta. set (f' := if is_inside FLEX (s_display (ps_style x)) then FROM_FLEX else FROM_BLOCK).
    assert (t_inline (new_box (ps_style x)) <> None) as H0 by discriminate.
    destruct (well_prose (push_span (s_span (ps_style x))) (new_box (ps_style x)) H0) as (u1 & -> & H1). cbn [andthen].
    destruct (well_inner e w x f' (ps_style x) u1) as (u2 & -> & H2); [tauto|]. cbn [andthen]. destruct (well_prose pop_span u2) as (u3 & -> & H3); [tauto|]. cbn [andthen]. apply well_flush_add.
Qed.

Definition node_well (n : node) : Prop := every calm n = true ->
  (forall f ps t, t_inline t <> None -> well (m_node (make n) f ps t) t) /\
  (forall f ps t e kids i, n = Elem e kids -> s_display (e_style e) = Internal i -> well (m_node (make n) f ps t) t) /\
  (forall d t, well (m_internal (make n) d t) t) /\
  (forall t, well (m_svg (make n) t) t).

Lemma well_each (g : kid -> st -> res) (C : st -> Prop) : (forall t t', (t_inline t' = None <-> t_inline t = None) -> C t -> C t') ->
  forall ks t, C t -> Forall (fun k => forall t, C t -> well (g k t) t) ks -> well (each g ks t) t.
Proof.
  intros HC. induction ks as [|k ks IH]; intros t Ht HF; [apply well_ok|]. cbn [each]. inversion_clear HF as [|? ? Hk HF']. apply well_seq; [now apply Hk|]. intros t' H'. apply IH; [|exact HF']. exact (HC t t' H' Ht).
Qed.
Lemma wells kids : Forall node_well kids -> forallb (every calm) kids = true -> Forall (fun n => (forall f ps t, t_inline t <> None -> well (m_node (make n) f ps t) t) /\
  (forall f ps t e kids i, n = Elem e kids -> s_display (e_style e) = Internal i -> well (m_node (make n) f ps t) t) /\
  (forall d t, well (m_internal (make n) d t) t) /\ (forall t, well (m_svg (make n) t) t)) kids.
Proof. induction 1 as [|n l Hn HF IH]; intros Hc; constructor; cbn in Hc; apply andb_true_iff in Hc as [C1 C2]; [now apply Hn|now apply IH]. Qed.
Lemma Forall_kids (P : node -> Prop) (R : kid -> Prop) kids : (forall n, P n -> R (kid_of n)) -> Forall P kids -> Forall R (map kid_of kids).
Proof. intros H. induction 1; cbn; constructor; auto. Qed.

Lemma well_children e kids f ps t : Forall node_well kids -> forallb (every calm) kids = true -> t_inline t <> None -> well (build_children e (map kid_of kids) f ps t) t.
Proof.
  intros HF Hc Ht. pose proof (wells kids HF Hc) as HW. unfold build_children. apply well_seq.
  - destruct (is_item (s_display (e_style e))); [apply well_pseudo; now left|apply well_ok].
  - intros t1 H1. apply well_seq; [apply well_pseudo; left; tauto|]. intros t2 H2. apply well_seq.
    + apply (well_each _ (fun t => t_inline t <> None)); [tauto|tauto|]. revert HW. apply Forall_kids. intros n (W1 & _) u Hu. now apply W1.
    + intros t3 H3. apply well_pseudo. left. tauto.
Qed.
Lemma well_svg_kids kids t : Forall node_well kids -> forallb (every calm) kids = true -> well (build_svg_kids (map kid_of kids) t) t.
Proof.
  intros HF Hc. pose proof (wells kids HF Hc) as HW. unfold build_svg_kids. apply (well_each _ (fun _ => True)); [tauto|exact I|]. revert HW. apply Forall_kids. intros n (_ & _ & _ & W4) u _. cbn. destruct n; [apply W4|apply well_ok|apply well_ok].
Qed.
Lemma well_block e kids f ps t : Forall node_well kids -> forallb (every calm) kids = true -> t_inline t <> None -> well (block_flow e (map kid_of kids) f ps t) t.
Proof.
  intros HF Hc Ht. unfold block_flow. apply well_seq; [|intros t' _; apply well_finalize].
  assert (forall c, well (Ok (put_content c t)) t) as HV by (intros c; eexists; split; [reflexivity|]; cbn; tauto).
  pose proof (well_children e kids f ps t HF Hc Ht) as HC.
  destruct (e_tag e) eqn:Et; cbn [is_void]; unfold build_void; rewrite ?Et; try exact HC; try apply well_ok; try apply HV. now apply well_svg_kids.
Qed.
(** The loop of a table, from parts without a root inline box. *)
Definition wwell (x : wres) : Prop := exists w, x = WOk w /\ forall c, w_cell w = Some c -> t_inline c <> None.
Lemma wwell_kid sty skip acc n w : ((forall f ps t, t_inline t <> None -> well (m_node (make n) f ps t) t) /\
  (forall f ps t e kids i, n = Elem e kids -> s_display (e_style e) = Internal i -> well (m_node (make n) f ps t) t) /\
  (forall d t, well (m_internal (make n) d t) t) /\ (forall t, well (m_svg (make n) t) t)) ->
  (forall c, w_cell w = Some c -> t_inline c <> None) -> wwell (table_kid sty skip acc (kid_of n) w).
Proof.
  intros (W1 & W2 & W3 & _) Hw. unfold table_kid. cbn [kid_of fst snd].
  assert (forall g w0, (forall c, w_cell w0 = Some c -> t_inline c <> None) -> (forall c, t_inline c <> None -> well (g c) c) -> wwell (in_cell g w0)) as HC.
  { intros g w0 H0 Hg. unfold in_cell. destruct (w_cell w0) as [c|] eqn:Ec; [|exists w0; split; [reflexivity|]; rewrite Ec; discriminate]. destruct (Hg c (H0 c eq_refl)) as (t & -> & Ht).
    eexists. split; [reflexivity|]. cbn. intros c' [= <-]. specialize (H0 c eq_refl). tauto. }
  assert (forall g w0, (forall c, w_cell w0 = Some c -> t_inline c <> None) -> (forall c, well (g c) c) -> wwell (in_bc g w0)) as HB.
  { intros g w0 H0 Hg. unfold in_bc. destruct (Hg (w_bc w0)) as (t & -> & Ht). eexists. split; [reflexivity|]. exact H0. }
  assert (forall g w0, (forall c, w_cell w0 = Some c -> t_inline c <> None) -> (forall c, well (g c) c) -> wwell (in_row g w0)) as HR.
  { intros g w0 H0 Hg. unfold in_row. destruct (w_row w0) as [r|]; [|exists w0; auto]. destruct (Hg r) as (t & -> & Ht). eexists. split; [reflexivity|]. exact H0. }
  assert (forall c, w_cell (end_cell sty w) = Some c -> t_inline c <> None) as He.
  { unfold end_cell. destruct (w_cell w) as [c|] eqn:Ec; [|rewrite Ec; discriminate]. cbv zeta. destruct (has_something _); [destruct (w_row w)|]; cbn; discriminate. }
  assert (forall c, w_cell (end_row sty (end_cell sty w)) = Some c -> t_inline c <> None) as Hr.
  { unfold end_row. destruct (w_row (end_cell sty w)) as [r|]; [|exact He]. destruct (has_something r); exact He. }
  assert (forall w0 c, (forall c, w_cell w0 = Some c -> t_inline c <> None) -> w_cell (cell_if_none sty w0) = Some c -> t_inline c <> None) as Hci.
  { intros w0 c H0. unfold cell_if_none. destruct (w_cell w0) as [c0|] eqn:Ec; [rewrite Ec; intros [= <-]; now apply H0|]. cbn. intros [= <-]. discriminate. }
  assert (forall w0, w_cell (row_if_none w0) = w_cell w0) as Hri by (intros w0; unfold row_if_none; destruct (w_row w0); reflexivity).
  destruct n as [e kids|s|].
  - destruct (skip && is_internal TABLE_CAPTION (s_display (e_style e))); [exists w; auto|]. destruct (acc (s_display (e_style e))).
    + destruct (is_internal TABLE_CELL (s_display (e_style e))) eqn:Ec; apply HB; try exact Hr; intros c; [|apply W3]. exact (W2 FROM_TABLE sty c e kids TABLE_CELL eq_refl (is_internal_eq _ _ Ec)).
    + destruct (is_internal TABLE_ROW (s_display sty)).
      * apply HC; [intros c; now apply Hci|]. intros c Hc. now apply W1.
      * destruct (is_internal TABLE_CELL (s_display (e_style e))) eqn:Ec.
        -- apply HR; [intros c; rewrite Hri; apply He|]. intros c. exact (W2 FROM_TABLE _ c e kids TABLE_CELL eq_refl (is_internal_eq _ _ Ec)).
        -- apply HC; [intros c; apply Hci; intros c0; rewrite Hri; apply Hw|]. intros c Hc. now apply W1.
  - apply HC; [|intros c Hc; now apply well_text]. intros c. apply Hci. intros c0. destruct (is_internal TABLE_ROW (s_display sty)); [apply Hw|rewrite Hri; apply Hw].
  - exists w. auto.
Qed.
Lemma well_table_kids sty skip acc kids t : Forall node_well kids -> forallb (every calm) kids = true -> exists u, table_kids sty skip acc (map kid_of kids) t = Ok u.
Proof.
  intros HF Hc. pose proof (wells kids HF Hc) as HW. unfold table_kids.
  assert (forall w, (forall c, w_cell w = Some c -> t_inline c <> None) -> exists w', table_loop sty skip acc (map kid_of kids) w = WOk w') as HL.
  { clear HF Hc. induction HW as [|n l Hn HW' IH]; intros w Hw; [eexists; reflexivity|]. cbn [map table_loop]. destruct (wwell_kid sty skip acc n w Hn Hw) as (w1 & -> & H1). cbn [wthen]. now apply IH. }
  destruct (HL (mkWrap t None None)) as (w & ->); [cbn; discriminate|]. eexists. reflexivity.
Qed.
Lemma well_captions ws kids t : Forall node_well kids -> forallb (every calm) kids = true -> well (build_captions (map kid_of kids) ws t) t.
Proof.
  intros HF Hc. pose proof (wells kids HF Hc) as HW. unfold build_captions. apply (well_each _ (fun _ => True)); [tauto|exact I|]. revert HW. apply Forall_kids. intros n (_ & W2 & _ & _) u _. cbn [kid_of fst snd].
  destruct n as [e ks|s|]; [|apply well_ok|apply well_ok]. destruct (is_internal TABLE_CAPTION (s_display (e_style e))) eqn:E; [|apply well_ok]. exact (W2 FROM_BLOCK ws u e ks TABLE_CAPTION eq_refl (is_internal_eq _ _ E)).
Qed.
Lemma well_inner_box e kids ps k t : Forall node_well kids -> forallb (every calm) kids = true ->
  (is_inside TABLE (s_display ps) = true -> not_in_line e BEFORE (e_before e) = true /\ not_in_line e AFTER (e_after e) = true) ->
  (forall b, well (k b) t) -> well (inner_box e (map kid_of kids) ps k) t.
Proof.
  intros HF Hc Hp Hk. unfold inner_box. destruct (is_inside TABLE (s_display ps)).
  - destruct (Hp eq_refl) as [P1 P2]. unfold table_wrapper. cbv zeta.
    assert (exists t1, (if s_top ps then build_captions (map kid_of kids) (wrapper_style ps) part_box else Ok part_box) = Ok t1) as (t1 & ->).
    { destruct (s_top ps); [|eexists; reflexivity]. destruct (well_captions (wrapper_style ps) kids part_box HF Hc) as (t1 & E & _). eexists. exact E. }
    cbn [andthen]. destruct (well_pseudo e BEFORE (e_before e) FROM_BLOCK (wrapper_style ps) t1 (or_intror P1)) as (t2 & -> & _). cbn [andthen].
    destruct (well_table_kids (with_display (Internal TABLE_BOX) ps) true proper_table_child kids part_box HF Hc) as (u & ->). cbn [andthen].
    set (t3 := add_to_parent _ t2). assert (exists t4, (if s_top ps then Ok t3 else build_captions (map kid_of kids) (wrapper_style ps) t3) = Ok t4) as (t4 & ->).
    { destruct (s_top ps); [eexists; reflexivity|]. destruct (well_captions (wrapper_style ps) kids t3 HF Hc) as (t4 & E & _). eexists. exact E. }
    cbn [andthen]. destruct (well_pseudo e AFTER (e_after e) FROM_BLOCK (wrapper_style ps) t4 (or_intror P2)) as (t5 & -> & _). cbn [andthen]. apply Hk.
  - unfold box_from. cbv zeta. destruct (well_block e kids (if is_inside FLEX (s_display ps) then FROM_FLEX else FROM_BLOCK) ps (new_box ps) HF Hc) as (u & -> & _); [discriminate|]. cbn [andthen]. apply Hk.
Qed.

Theorem nodes_well : forall n, node_well n.
Proof.
  induction n as [e kids HF|s|] using node_ind'; intros Hu.
  2:{ split; [intros f ps t Ht; now apply well_text|]. split; [discriminate|]. split; intros; apply well_ok. }
  2:{ split; [intros f ps t Ht; apply well_ok|]. split; [discriminate|]. split; intros; apply well_ok. }
  assert (m_node (make (Elem e kids)) = build_elem e (map kid_of kids)) as Mn by reflexivity.
  assert (forall d, m_internal (make (Elem e kids)) d = build_part d e (map kid_of kids)) as Mi by reflexivity.
  assert (m_svg (make (Elem e kids)) = build_svg e (map kid_of kids)) as Ms by reflexivity.
  cbn [every] in Hu. apply andb_true_iff in Hu as [Hu Hk].
  assert (forall ps, is_inside TABLE (s_display ps) = is_table (s_display (e_style e)) ->
    is_inside TABLE (s_display ps) = true -> not_in_line e BEFORE (e_before e) = true /\ not_in_line e AFTER (e_after e) = true) as HP.
  { intros ps E1 E2. rewrite E1 in E2. unfold calm in Hu. rewrite E2 in Hu. now apply andb_true_iff in Hu. }
  assert (is_inside TABLE (s_display (e_style e)) = is_table (s_display (e_style e))) as ET by (destruct (s_display (e_style e)) as [[] o it|[]| |]; reflexivity).
  split; [|split; [|split]].
  - intros f ps t Ht. rewrite Mn. unfold build_elem. cbv zeta. destruct (s_display (e_style e)) as [i o it|i| |] eqn:Ed.
    + assert (well match o with BLOCK => inner_box e (map kid_of kids) (e_style e) (fun b => Ok (add_to_parent b (flush ps t)))
         | _ => if always_inline_block (e_tag e) || negb (is_inside FLOW (Default i o it)) then inner_box e (map kid_of kids) (e_style e) (fun b => add_to_inline b t)
                else inline_flow e (map kid_of kids) f ps t end t) as Hnf.
      { assert (well (if always_inline_block (e_tag e) || negb (is_inside FLOW (Default i o it)) then inner_box e (map kid_of kids) (e_style e) (fun b => add_to_inline b t)
                else inline_flow e (map kid_of kids) f ps t) t) as Hin.
        { match goal with |- well (if ?c then _ else _) _ => destruct c end.
          - apply well_inner_box; [exact HF|exact Hk|apply HP; now rewrite Ed|]. intros b. unfold add_to_inline. destruct (t_inline t) as [[p k]|] eqn:E; [|contradiction]. eexists. split; [reflexivity|]. cbn. rewrite E. split; discriminate.
          - unfold inline_flow.
            assert (well (andthen (on_prose (push_span (s_span (e_style e))) t) (fun u => andthen (build_children e (map kid_of kids) FROM_INLINE (e_style e) u) (on_prose pop_span))) t) as HK.
            { apply well_seq; [now apply well_prose|]. intros t1 H1. apply well_seq; [apply well_children; tauto|]. intros t2 H2. apply well_prose. tauto. }
            assert (forall c, well (Ok (put_content c t)) t) as HV by (intros c; eexists; split; [reflexivity|]; cbn; tauto).
            destruct (e_tag e) eqn:Et; cbn [is_void]; unfold build_void; rewrite ?Et; try exact HK; try apply well_ok; try apply HV. apply well_flush. }
        destruct o; try exact Hin. apply well_inner_box; [exact HF|exact Hk|apply HP; now rewrite Ed|]. intros b. apply well_flush_add. }
      destruct f; try exact Hnf. apply well_inner_box; [exact HF|exact Hk|apply HP; destruct i, o; reflexivity|]. intros b. apply well_add.
    + apply well_inner_box; [exact HF|exact Hk|apply HP; now rewrite Ed|]. intros b. apply well_add.
    + now apply well_children.
    + apply well_ok.
  - intros f ps t e' kids' i [= <- <-] Ed. rewrite Mn. unfold build_elem. cbv zeta. rewrite Ed. apply well_inner_box; [exact HF|exact Hk|apply HP; now rewrite ET|]. intros b. apply well_add.
  - intros d t. rewrite Mi. unfold build_part. cbv zeta.
    assert (forall acc, well (andthen (table_kids (e_style e) false acc (map kid_of kids) part_box) (fun u => Ok (add_to_parent (box_of (e_style e) u (OElem (e_id e))) t))) t) as HT.
    { intros acc. destruct (well_table_kids (e_style e) false acc kids part_box HF Hk) as (u & ->). apply well_add. }
    destruct d as [a b c|i| |]; try apply well_ok. destruct i; try apply well_ok; try apply HT; [|apply well_add].
    pose proof (wells kids HF Hk) as HW.
    destruct (well_each (fun k => match fst k with
                    | Elem e' _ => if is_internal TABLE_COLUMN (s_display (e_style e')) then m_internal (snd k) (Internal TABLE_COLUMN_GROUP) else Ok
                    | _ => Ok end) (fun _ => True) ltac:(tauto) (map kid_of kids) part_box I) as (u & -> & _); [|apply well_add].
    revert HW. apply Forall_kids. intros n (_ & _ & W3 & _) u _. cbn [kid_of fst snd]. destruct n as [e' ks'|s|]; [|apply well_ok|apply well_ok]. destruct (is_internal TABLE_COLUMN (s_display (e_style e'))); [apply W3|apply well_ok].
  - intros t. rewrite Ms. unfold build_svg. cbv zeta. destruct (e_tag e); try apply well_ok; try apply well_add.
    + destruct (well_svg_kids kids part_box HF Hk) as (u & -> & _). apply well_add.
    + destruct (well_svg_kids kids part_box HF Hk) as (u & -> & _). apply well_add.
    + destruct (well_block e kids FROM_BLOCK (e_style e) (new_box (e_style e)) HF Hk) as (u & -> & _); [discriminate|]. apply well_add.
Qed.
Theorem document_builds e kids : forallb (every calm) kids = true -> exists b, build_document e kids = Tree b.
Proof.
  intros Hc. unfold build_document. cbv zeta. destruct (well_block e (kids) FROM_BLOCK (e_style e) (new_box (e_style e))) as (u & -> & _).
  - apply Forall_forall. intros n _. apply nodes_well.
  - exact Hc.
  - discriminate.
  - eexists. reflexivity.
Qed.
