(** Where positioned boxes go. *)
From Coq Require Import List QArith Qabs Lqa Bool.
From Verif.Layout Require Import BlockModel SizingModel PositionModel.
Import ListNotations.
Local Open Scope Q_scope.

(** ** Absolute positioning *)

(** https://www.w3.org/TR/CSS22/visudet.html#abs-non-replaced-width, for a containing block from [lo]
    to [hi], automatic margins being zero: if a start inset is given, the margin box starts that far
    from the containing block; if an end inset is given and the start inset or the size is automatic,
    it ends that far from the end; if neither is, it starts at its static position. It has the
    specified size, if any. The border box starts at [x] and is [w] long. *)
Definition css_axis (lo hi : Q) (lo_i hi_i : option size) (st m_lo m_hi : Q) (specified : option Q) (x w : Q) : Prop :=
  (forall s, specified = Some s -> w == s)
  /\ (forall a, lo_i = Some a -> x - m_lo == lo + resolve (hi - lo) a)
  /\ (forall a, hi_i = Some a -> lo_i = None \/ specified = None -> x + w + m_hi == hi - resolve (hi - lo) a)
  /\ (lo_i = None -> hi_i = None -> x - m_lo == st).

Definition right_of (r : rect) : Q := r_x r + r_w r.
Definition bottom_of (r : rect) : Q := r_y r + r_h r.

(** [b] is placed in the rectangle [cb] as CSS says, its static position being [st]. *)
Definition css_placed (cb st : rect) (b : abs_box) (r : rect) : Prop :=
  css_axis (r_x cb) (right_of cb) (a_start b) (a_end b) (r_x st) (d_start (a_margin b)) (d_end (a_margin b)) (a_width b) (r_x r) (r_w r)
  /\ css_axis (r_y cb) (bottom_of cb) (a_top b) (a_bottom b) (r_y st) (d_top (a_margin b)) (d_bottom (a_margin b)) (a_height b) (r_y r) (r_h r).

(** The box with the given border box within its borders. *)
Definition padding_box (borders : sides) (r : rect) : rect :=
  mkRect (r_x r + d_start borders) (r_y r + d_top borders)
         (r_w r - d_start borders - d_end borders) (r_h r - d_top borders - d_bottom borders).

(** When it is: with both insets the size is the space between them, whatever size is specified and
    whatever margins there are; with only the end inset, the box is put at the end only if its size is
    specified. *)
Definition right_axis (lo_i hi_i : option size) (size m_lo m_hi : Q) (specified : option Q) (fit : Q -> Q) : Prop :=
  match lo_i, hi_i with
  | Some s, Some e =>
    match specified with
    | Some w => size - resolve size s - resolve size e == w
    | None => m_lo + m_hi == 0
    end
  | Some _, None => True
  | None, Some e =>
    match specified with
    | Some _ => True
    | None => let room := size - resolve size e in fit room + m_lo + m_hi == room
    end
  | None, None => True
  end.

Definition no_percent (s : option size) : Prop := match s with Some (PERCENT _) => False | _ => True end.

Lemma resolve_comp b b' s : b == b' -> resolve b s == resolve b' s.
Proof. intros H. destruct s as [q|q]; simpl; [reflexivity|]. rewrite H. reflexivity. Qed.

(** One axis of layout_absolute. *)
Definition axis_result (lo_i hi_i : option size) (a : self) (base lo size slo ssize m_lo m_hi : Q)
    (specified : option Q) (fit : Q -> Q) : Q * Q :=
  let '(i, j) := axis_insets lo_i hi_i a base lo size slo ssize in
  let room := size - i - j in
  let known := if negb (is_auto lo_i) && negb (is_auto hi_i) then Some room else specified in
  (match known with
   | Some w => if is_auto lo_i && negb (is_auto hi_i) then (lo + i) + room - m_hi - w else (lo + i) + m_lo
   | None => (lo + i) + m_lo
   end,
   match known with Some w => w | None => fit room end).

Lemma axes vw vh b cb st : layout_absolute vw vh b cb st =
  let h := axis_result (a_start b) (a_end b) (a_justify b) (if a_fixed b then vw else r_w cb) (r_x cb) (r_w cb)
             (r_x st) (r_w st) (d_start (a_margin b)) (d_end (a_margin b)) (a_width b) (a_fit_w b) in
  let v := axis_result (a_top b) (a_bottom b) (a_align b) (if a_fixed b then vh else r_h cb) (r_y cb) (r_h cb)
             (r_y st) (r_h st) (d_top (a_margin b)) (d_bottom (a_margin b)) (a_height b) (a_fit_h b) in
  mkRect (fst h) (fst v) (snd h) (snd v).
Proof.
  unfold layout_absolute, available, axis_result. cbv zeta.
  destruct (axis_insets (a_start b) _ _ _ _ _ _ _) as [i j].
  destruct (axis_insets (a_top b) _ _ _ _ _ _ _) as [k l]. reflexivity.
Qed.

Lemma axis_exact lo_i hi_i a base lo size slo ssize m_lo m_hi specified fit lo' size' :
  base == size \/ (no_percent lo_i /\ no_percent hi_i) ->
  (lo_i = None -> hi_i = None -> a = START) ->
  (forall p q, p == q -> fit p == fit q) ->
  lo' == lo -> size' == size ->
  let r := axis_result lo_i hi_i a base lo size slo ssize m_lo m_hi specified fit in
  css_axis lo' (lo' + size') lo_i hi_i slo m_lo m_hi specified (fst r) (snd r) <->
  right_axis lo_i hi_i size' m_lo m_hi specified fit.
Proof.
  intros HB HA HF EL ES.
  assert (B : forall s, lo_i = Some s \/ hi_i = Some s -> resolve base s == resolve size s).
  { intros s Hs. destruct HB as [HB|[P1 P2]]; [apply resolve_comp, HB|].
    destruct Hs as [Hs|Hs]; rewrite Hs in *; (destruct s; [reflexivity | contradiction]). }
  assert (C : forall s, resolve (lo' + size' - lo') s == resolve size s).
  { intros s. apply resolve_comp. rewrite ES. ring. }
  assert (D : forall s, resolve size' s == resolve size s) by (intros s; apply resolve_comp, ES).
  unfold axis_result, css_axis, right_axis, axis_insets.
  destruct lo_i as [s|], hi_i as [e|]; cbn [is_auto negb andb inset].
  - pose proof (B s (or_introl eq_refl)) as Bs. pose proof (B e (or_intror eq_refl)) as Be.
    cbn [fst snd]. destruct specified as [w|]; split.
    + intros (H & _). specialize (H w eq_refl). rewrite !D. lra.
    + intros H. rewrite !D in H. repeat apply conj; try discriminate.
      * intros ? [= <-]. lra.
      * intros ? [= <-]. rewrite C. lra.
      * intros ? [= <-] [X|X]; discriminate X.
    + intros (_ & _ & H & _). specialize (H e eq_refl (or_intror eq_refl)). rewrite C in H. lra.
    + intros H. repeat apply conj; try discriminate.
      * intros ? [= <-]. rewrite C. lra.
      * intros ? [= <-] _. rewrite C. lra.
  - pose proof (B s (or_introl eq_refl)) as Bs. cbn [fst snd]. split; [trivial|intros _].
    repeat apply conj; try discriminate.
    + intros w ->. reflexivity.
    + intros ? [= <-]. rewrite C. destruct specified; lra.
  - pose proof (B e (or_intror eq_refl)) as Be. cbn [fst snd]. destruct specified as [w|].
    + split; [trivial|intros _]. repeat apply conj; try discriminate.
      * intros ? [= <-]. reflexivity.
      * intros ? [= <-] _. rewrite C. lra.
    + assert (F : fit (size - 0 - resolve base e) == fit (size' - resolve size' e)).
      { apply HF. rewrite D, Be, ES. lra. }
      split.
      * intros (_ & _ & H & _). specialize (H e eq_refl (or_introl eq_refl)). rewrite C in H. cbv zeta.
        rewrite <- F. rewrite D. lra.
      * cbv zeta. intros H. rewrite <- F in H. rewrite D in H. repeat apply conj; try discriminate.
        intros ? [= <-] _. rewrite C. lra.
  - rewrite (HA eq_refl eq_refl). cbn [fst snd]. split; [trivial|intros _].
    repeat apply conj; try discriminate.
    + intros w ->. reflexivity.
    + intros _ _. destruct specified; lra.
Qed.

(** Layout of an automatic size only depends on how much room there is. *)
Definition regular (b : abs_box) : Prop :=
  (forall p q, p == q -> a_fit_w b p == a_fit_w b q) /\ (forall p q, p == q -> a_fit_h b p == a_fit_h b q).

(** The usual self-alignment, where the static position is used. *)
Definition usual (b : abs_box) : Prop :=
  (a_start b = None -> a_end b = None -> a_justify b = START)
  /\ (a_top b = None -> a_bottom b = None -> a_align b = START).

Definition right_box (w h : Q) (b : abs_box) : Prop :=
  right_axis (a_start b) (a_end b) w (d_start (a_margin b)) (d_end (a_margin b)) (a_width b) (a_fit_w b)
  /\ right_axis (a_top b) (a_bottom b) h (d_top (a_margin b)) (d_bottom (a_margin b)) (a_height b) (a_fit_h b).

(** In the ancestor that holds it, a box is placed against the padding edges of the ancestor, as CSS
    says, exactly if it is one of those of [right_box]. Missing: percentages of fixed boxes, other
    self-alignments, automatic margins; and the cases [right_box] leaves out. *)
Theorem C116_in_ancestor_partial vw vh borders padding ancestor b st :
  regular b -> usual b ->
  (a_fixed b = true -> no_percent (a_start b) /\ no_percent (a_end b) /\ no_percent (a_top b) /\ no_percent (a_bottom b)) ->
  let cb := padding_box borders ancestor in
  css_placed cb st b (absolute_in vw vh borders padding ancestor b st) <-> right_box (r_w cb) (r_h cb) b.
Proof.
  intros [F1 F2] [U1 U2] P. cbv zeta. unfold css_placed, right_box, absolute_in. rewrite axes. cbv zeta.
  cbn [r_x r_y r_w r_h]. unfold right_of, bottom_of.
  rewrite <- (axis_exact (a_start b) (a_end b) (a_justify b)
     (if a_fixed b then vw else r_w (grow padding (content_box borders padding ancestor)))
     (r_x (grow padding (content_box borders padding ancestor))) (r_w (grow padding (content_box borders padding ancestor)))
     (r_x st) (r_w st) (d_start (a_margin b)) (d_end (a_margin b)) (a_width b) (a_fit_w b)
     (r_x (padding_box borders ancestor)) (r_w (padding_box borders ancestor))); [| | exact U1 | exact F1 | |].
  rewrite <- (axis_exact (a_top b) (a_bottom b) (a_align b)
     (if a_fixed b then vh else r_h (grow padding (content_box borders padding ancestor)))
     (r_y (grow padding (content_box borders padding ancestor))) (r_h (grow padding (content_box borders padding ancestor)))
     (r_y st) (r_h st) (d_top (a_margin b)) (d_bottom (a_margin b)) (a_height b) (a_fit_h b)
     (r_y (padding_box borders ancestor)) (r_h (padding_box borders ancestor))); [reflexivity | | exact U2 | exact F2 | |].
  all: try (unfold padding_box, grow, content_box, shrink; cbn; lra).
  - destruct (a_fixed b); [right | left; reflexivity]. split; apply P; reflexivity.
  - destruct (a_fixed b); [right | left; reflexivity]. split; apply P; reflexivity.
Qed.
Print Assumptions C116_in_ancestor_partial.

(** Where there is no such ancestor, the box is placed against the edges of the content area of the
    page, if this area begins in the corner of the page; and so are fixed boxes, percentages
    included. *)
Theorem C116_in_page_partial area b st :
  regular b -> usual b -> r_x area == 0 -> r_y area == 0 ->
  css_placed area st b (absolute_in_root area b st) <-> right_box (r_w area) (r_h area) b.
Proof.
  intros [F1 F2] [U1 U2] X Y. unfold css_placed, right_box, absolute_in_root. rewrite axes. cbv zeta.
  cbn [r_x r_y r_w r_h]. unfold right_of, bottom_of.
  rewrite <- (axis_exact (a_start b) (a_end b) (a_justify b) (if a_fixed b then r_w area else r_w area) 0 (r_w area)
     (r_x st) (r_w st) (d_start (a_margin b)) (d_end (a_margin b)) (a_width b) (a_fit_w b) (r_x area) (r_w area));
    [| | exact U1 | exact F1 | exact X | reflexivity].
  rewrite <- (axis_exact (a_top b) (a_bottom b) (a_align b) (if a_fixed b then r_h area else r_h area) 0 (r_h area)
     (r_y st) (r_h st) (d_top (a_margin b)) (d_bottom (a_margin b)) (a_height b) (a_fit_h b) (r_y area) (r_h area));
    [reflexivity| | exact U2 | exact F2 | exact Y | reflexivity].
  - left. destruct (a_fixed b); reflexivity.
  - left. destruct (a_fixed b); reflexivity.
Qed.
Print Assumptions C116_in_page_partial.

Definition no_margin := mkSides 0 0 0 0.
Definition fill (room : Q) : Q := room.

(** In a box with a border of 2 and a padding of 5: 10 from the end, 20 from the top, with a size. *)
Definition badge : abs_box :=
  mkAbs false (Some (LENGTH 20)) (Some (PERCENT 10)) None None START START (mkSides 1 3 1 3) (Some 40) (Some 30) fill fill.
Example C116_badge :
  let r := absolute_in 800 600 (mkSides 2 2 2 2) (mkSides 5 5 5 5) (mkRect 100 100 204 104) badge (mkRect 107 107 0 0) in
  regular badge /\ usual badge /\ right_box 200 100 badge /\ r_x r == 239 /\ r_y r == 123 /\ r_w r == 40 /\ r_h r == 30.
Proof.
  cbv zeta. repeat apply conj; try (vm_compute; reflexivity); try exact I; try (intros p q H; exact H); discriminate.
Qed.

(** Both insets given: the width that is specified does not count. *)
Theorem C116_width_refuted borders padding ancestor b st s e w vw vh :
  regular b -> usual b -> a_fixed b = false -> a_start b = Some s -> a_end b = Some e -> a_width b = Some w ->
  let cb := padding_box borders ancestor in
  ~ r_w cb - resolve (r_w cb) s - resolve (r_w cb) e == w ->
  ~ css_placed cb st b (absolute_in vw vh borders padding ancestor b st).
Proof.
  intros R U F Hs He Hw. cbv zeta. intros N H.
  apply C116_in_ancestor_partial in H; [|exact R | exact U | congruence]. destruct H as [H _]. unfold right_axis in H.
  rewrite Hs, He, Hw in H. exact (N H).
Qed.
Print Assumptions C116_width_refuted.

(** Nor do margins: the box is as wide as the room between the insets, and sticks out. *)
Theorem C116_margin_refuted borders padding ancestor b st s e vw vh :
  regular b -> usual b -> a_fixed b = false -> a_start b = Some s -> a_end b = Some e -> a_width b = None ->
  ~ d_start (a_margin b) + d_end (a_margin b) == 0 ->
  ~ css_placed (padding_box borders ancestor) st b (absolute_in vw vh borders padding ancestor b st).
Proof.
  intros R U F Hs He Hw N H.
  apply C116_in_ancestor_partial in H; [|exact R | exact U | congruence]. destruct H as [H _]. unfold right_axis in H.
  rewrite Hs, He, Hw in H. exact (N H).
Qed.
Print Assumptions C116_margin_refuted.

(** With right: 0 alone a box that is less wide than the room is put at the left. *)
Theorem C116_right_refuted borders padding ancestor b st e vw vh :
  regular b -> usual b -> a_fixed b = false -> a_start b = None -> a_end b = Some e -> a_width b = None ->
  let w := r_w (padding_box borders ancestor) in let room := w - resolve w e in
  a_fit_w b room + d_start (a_margin b) + d_end (a_margin b) < room ->
  ~ css_placed (padding_box borders ancestor) st b (absolute_in vw vh borders padding ancestor b st).
Proof.
  intros R U F Hs He Hw. cbv zeta. intros N H.
  apply C116_in_ancestor_partial in H; [|exact R | exact U | congruence]. destruct H as [H _]. unfold right_axis in H.
  rewrite Hs, He, Hw in H. cbv zeta in H. lra.
Qed.
Print Assumptions C116_right_refuted.

(** On a page with a margin, what is positioned from the edge of the page area is positioned from the
    edge of the sheet. *)
Theorem C116_page_margin_refuted area b st s :
  ~ r_x area == 0 -> a_start b = Some s -> ~ css_placed area st b (absolute_in_root area b st).
Proof.
  intros N Hs [(_ & H & _) _]. specialize (H s Hs). unfold absolute_in_root in H. rewrite axes in H. cbn [r_x] in H.
  unfold axis_result, axis_insets in H. rewrite Hs in H. cbn [is_auto andb negb inset r_w] in H.
  unfold right_of in H.
  assert (E : resolve (r_x area + r_w area - r_x area) s == resolve (if a_fixed b then r_w area else r_w area) s)
    by (apply resolve_comp; destruct (a_fixed b); ring).
  rewrite E in H. apply N.
  destruct (a_end b); cbn [is_auto negb fst] in H; [|destruct (a_width b)]; lra.
Qed.
Print Assumptions C116_page_margin_refuted.
Example C116_page_margin_case :
  let b := mkAbs false (Some (LENGTH 0)) None None (Some (LENGTH 0)) START START no_margin (Some 40) (Some 30) fill fill in
  let r := absolute_in_root (mkRect 96 96 600 900) b (mkRect 96 96 600 0) in r_x r == 0 /\ r_y r == 0.
Proof. vm_compute. split; reflexivity. Qed.

(** In a transformed ancestor that is not as wide as the viewport, percentages of a fixed box are of
    the wrong width. *)
Theorem C116_fixed_percent_refuted vw vh borders padding ancestor b st q :
  a_fixed b = true -> a_start b = Some (PERCENT q) -> ~ q == 0 -> ~ r_w (padding_box borders ancestor) == vw ->
  ~ css_placed (padding_box borders ancestor) st b (absolute_in vw vh borders padding ancestor b st).
Proof.
  intros F Hs NQ N [(_ & H & _) _]. specialize (H _ Hs). unfold absolute_in in H. rewrite axes in H. cbn [r_x] in H.
  unfold axis_result, axis_insets in H. rewrite Hs, F in H. cbn [is_auto andb negb inset] in H.
  unfold right_of in H. cbn [resolve] in H. revert H N. unfold padding_box, grow, content_box, shrink. cbn.
  intros H N.
  assert (K : (r_w ancestor - d_start borders - d_end borders - vw) * q == 0).
  { destruct (a_end b); cbn [is_auto negb fst] in H; [|destruct (a_width b)];
      unfold Qdiv in H; change (/ 100) with (1 # 100) in H; lra. }
  apply Qmult_integral in K. destruct K as [K|K]; [apply N; lra | exact (NQ K)].
Qed.
Print Assumptions C116_fixed_percent_refuted.

(** justify-self: end with automatic insets: the margin box should end where the static position
    does, but begins where the containing block does. *)
Theorem C116_self_end_refuted : exists b cb st,
  a_justify b = END /\ a_start b = None /\ a_end b = None /\ regular b
  /\ let r := layout_absolute 800 600 b cb st in ~ right_of r + d_end (a_margin b) == right_of st.
Proof.
  exists (mkAbs false None None None None END START no_margin (Some 40) (Some 30) fill fill),
         (mkRect 0 0 200 100), (mkRect 0 0 200 0).
  repeat apply conj; try reflexivity; try (intros p q H; exact H). vm_compute. discriminate.
Qed.
Print Assumptions C116_self_end_refuted.

(** With automatic insets, a child of a block is put below the children before it. *)
Theorem C116_static vw vh borders padding ancestor b x y w at_ : usual b ->
  a_start b = None -> a_end b = None -> a_top b = None -> a_bottom b = None ->
  let r := absolute_in vw vh borders padding ancestor b (static_in_block x y w at_) in
  r_x r - d_start (a_margin b) == x /\ r_y r - d_top (a_margin b) == y + at_.
Proof.
  intros [U1 U2] E1 E2 E3 E4. cbv zeta. unfold absolute_in. rewrite axes. cbn [r_x r_y static_in_block].
  unfold axis_result, axis_insets. rewrite (U1 E1 E2), (U2 E3 E4), E1, E2, E3, E4. cbn [is_auto andb negb fst].
  destruct (a_width b), (a_height b); split; lra.
Qed.
Print Assumptions C116_static.

(** A child of a line, or of a flex container, is put in the corner of the page, wherever it is. *)
Theorem C116_static_in_line_refuted vw vh borders padding ancestor b : usual b ->
  a_start b = None -> a_end b = None -> a_top b = None -> a_bottom b = None ->
  let r := absolute_in vw vh borders padding ancestor b static_elsewhere in
  r_x r - d_start (a_margin b) == 0 /\ r_y r - d_top (a_margin b) == 0.
Proof.
  intros [U1 U2] E1 E2 E3 E4. cbv zeta. unfold absolute_in. rewrite axes. cbn [r_x r_y static_elsewhere].
  unfold axis_result, axis_insets. rewrite (U1 E1 E2), (U2 E3 E4), E1, E2, E3, E4. cbn [is_auto andb negb fst].
  destruct (a_width b), (a_height b); split; lra.
Qed.
Print Assumptions C116_static_in_line_refuted.

(** ** Relative positioning *)

Definition still (c : child) : child :=
  mkChild (c_top_margin c) (c_bottom_margin c) (c_height c) (c_x c) false None None None None.

(** https://www.w3.org/TR/css-position-3/#relpos-insets: how far a box is moved along an axis, in a
    containing block of [base]. *)
Definition css_moved (base : Q) (start_i end_i : option size) (d : Q) : Prop :=
  (forall s, start_i = Some s -> d == resolve base s)
  /\ (forall e, start_i = None -> end_i = Some e -> d == - resolve base e)
  /\ (start_i = None -> end_i = None -> d == 0).

(** [p] is where the child is, [p0] where it were without its position; the block is [w] by [h]. *)
Definition css_relative (w h : Q) (c : child) (p p0 : Q * Q) : Prop :=
  if c_relative c
  then css_moved w (c_start c) (c_end c) (fst p - fst p0) /\ css_moved h (c_top c) (c_bottom c) (snd p - snd p0)
  else p = p0.

Inductive all3 {A B C} (P : A -> B -> C -> Prop) : list A -> list B -> list C -> Prop :=
  | all3_nil : all3 P [] [] []
  | all3_cons a b c la lb lc : P a b c -> all3 P la lb lc -> all3 P (a :: la) (b :: lb) (c :: lc).

Definition right_base (w h cw ch : Q) (c : child) : Prop :=
  c_relative c = true ->
  (cw == w \/ (no_percent (c_start c) /\ no_percent (c_end c)))
  /\ (ch == h \/ (no_percent (c_top c) /\ no_percent (c_bottom c))).

Lemma negotiate_moved base w s e d x : base == w \/ (no_percent s /\ no_percent e) ->
  d == x + negotiate base s e - x -> css_moved w s e d.
Proof.
  intros HB HD.
  assert (B : forall q, s = Some q \/ e = Some q -> resolve base q == resolve w q).
  { intros q Hq. destruct HB as [HB|[P1 P2]]; [apply resolve_comp, HB|].
    destruct Hq as [Hq|Hq]; rewrite Hq in *; (destruct q; [reflexivity | contradiction]). }
  unfold negotiate in HD. unfold css_moved. repeat apply conj.
  - intros q ->. rewrite <- (B q) by (left; reflexivity). destruct e; lra.
  - intros q -> ->. rewrite <- (B q) by (right; reflexivity). lra.
  - intros -> ->. lra.
Qed.

(** Relative positioning moves each child by its insets and changes nothing else: the other children
    are where they were, and the block is as high. Missing: percentages where the block is not as
    large as its own containing block. *)
Theorem C117_relative_partial x y cw ch w h cs : forall at_ last,
  Forall (right_base w h cw ch) cs ->
  let '(ps, total) := place x y cw ch at_ last cs in
  let '(ps0, total0) := place x y cw ch at_ last (map still cs) in
  total = total0 /\ all3 (css_relative w h) cs ps ps0.
Proof.
  induction cs as [|c cs IH]; intros at_ last HB.
  - cbn. split; [reflexivity | constructor].
  - inversion HB as [|? ? Hc HB']; subst. cbn [map place still c_relative].
    cbn [c_top_margin c_bottom_margin c_height c_x].
    set (at1 := at_ + _ - last). cbv zeta.
    specialize (IH (at1 + (c_height c + c_bottom_margin c)) (c_bottom_margin c) HB').
    destruct (place x y cw ch _ _ cs) as [ps total].
    destruct (place x y cw ch _ _ (map still cs)) as [ps0 total0].
    destruct IH as [E A]. split; [exact E|]. constructor; [|exact A].
    unfold css_relative. destruct (c_relative c) eqn:R; [|reflexivity].
    destruct (Hc R) as [B1 B2]. cbn [fst snd relative_offset]. split.
    + apply (negotiate_moved cw w _ _ _ (x + c_x c)); [exact B1 | reflexivity].
    + apply (negotiate_moved ch h _ _ _ (y + at1)); [exact B2 | reflexivity].
Qed.
Print Assumptions C117_relative_partial.

Definition paragraph (r : bool) (t : option size) (s e : option size) : child := mkChild 10 10 50 0 r t e None s.
Example C117_case :
  let cs := [paragraph false None None None; paragraph true (Some (LENGTH 5)) None (Some (PERCENT 10));
             paragraph true None (Some (LENGTH 7)) (Some (LENGTH 9))] in
  Forall (right_base 300 0 300 0) cs
  /\ let '(ps, total) := place 0 0 300 0 0 0 cs in
     map (fun p => (Qred (fst p), Qred (snd p))) ps = [(0, 10); (-30#1, 75); (7, 130)] /\ Qred total = 190.
Proof.
  cbv zeta. split; [|vm_compute; split; reflexivity].
  repeat constructor; try reflexivity; try (left; reflexivity); try discriminate.
Qed.

(** Percentages are of the containing block of the parent, not of the parent. *)
Theorem C117_percent_refuted : exists x y cw ch w h c p p0,
  c_relative c = true /\ fst (place x y cw ch 0 0 [c]) = [p] /\ fst (place x y cw ch 0 0 [still c]) = [p0]
  /\ w < cw /\ ~ css_relative w h c p p0.
Proof.
  exists 0, 0, 600, 0, 300, 0, (paragraph true None (Some (PERCENT 50)) None).
  eexists. eexists. repeat apply conj; [reflexivity | reflexivity | reflexivity | reflexivity |].
  intros [(H & _) _]. specialize (H _ eq_refl). vm_compute in H. discriminate H.
Qed.
Print Assumptions C117_percent_refuted.
