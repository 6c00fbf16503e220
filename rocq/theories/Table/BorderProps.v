(** C31: the border that wins where borders collapse. C70: the borders of cells that do not collapse. *)
From Coq Require Import List Arith QArith Bool Lia Lqa.
From Verif.Base Require Import Outcome.
From Verif.Table Require Import GridModel GridSpec GridProofs GridProps BorderModel.
Import ListNotations.
Local Open Scope Q_scope.

Lemma qlt_spec a b : reflect (a < b) (qlt a b).
Proof.
  unfold qlt. destruct (Qle_bool b a) eqn:E; constructor.
  - apply Qle_bool_iff in E. lra.
  - destruct (Qlt_le_dec a b) as [L|L]; [exact L|]. apply Qle_bool_iff in L. congruence.
Qed.

(** ** C31

    CSS 2.1, 17.6.2.1: hidden is before all others, a border without style is after all others, then
    the wider one, then the style: double, solid, dashed, dotted, ridge, outset, groove, inset. *)
Definition css_style (s : bstyle) : nat :=
  match s with
  | HIDDEN => 0 | DOUBLE => 1 | SOLID => 2 | DASHED => 3 | DOTTED => 4 | RIDGE => 5 | OUTSET => 6 | GROOVE => 7 | INSET => 8 | NONE_S => 9
  end%nat.
Definition css_before (a b : border) : Prop :=
  b_style b <> HIDDEN /\
  (b_style a = HIDDEN \/
   (b_style a <> NONE_S /\
    (b_style b = NONE_S \/ b_width b < b_width a \/ (b_width a == b_width b /\ (css_style (b_style a) < css_style (b_style b))%nat)))).

Lemma hidden_iff b : is_hidden b = true <-> b_style b = HIDDEN.
Proof. unfold is_hidden. destruct (b_style b); split; intros; congruence. Qed.
Lemma challenge_cases best cand : challenge best cand = best \/ challenge best cand = cand.
Proof. unfold challenge. repeat match goal with |- context [if ?b then _ else _] => destruct b end; auto. Qed.
Lemma fold_hidden l : forall best, is_hidden (fold_left challenge l best) = is_hidden best || existsb is_hidden l.
Proof.
  induction l as [|c l IH]; intros best; cbn [fold_left existsb]; [now rewrite orb_false_r|]. rewrite IH, orb_assoc. f_equal.
  unfold challenge. destruct (is_hidden best) eqn:A, (is_hidden c) eqn:B; cbn [xorb orb]; rewrite ?A, ?B; try reflexivity;
    repeat match goal with |- context [if ?b then _ else _] => destruct b end; rewrite ?A, ?B; reflexivity.
Qed.
Lemma fold_in l : forall best, In (fold_left challenge l best) (best :: l).
Proof.
  induction l as [|c l IH]; intros best; cbn [fold_left]; [now left|]. destruct (IH (challenge best c)) as [H|H]; [|right; now right].
  destruct (challenge_cases best c) as [E|E]; rewrite E in *; [left; exact H|right; left; exact H].
Qed.
Lemma fold_width l : forall best, is_hidden best = false -> existsb is_hidden l = false ->
  forall b, In b (best :: l) -> b_width b <= b_width (fold_left challenge l best).
Proof.
  induction l as [|c l IH]; intros best Hb Hl b Hin; cbn [fold_left].
  - destruct Hin as [->|[]]. lra.
  - cbn [existsb] in Hl. apply orb_false_iff in Hl as [Hc Hl].
    assert (is_hidden (challenge best c) = false) as H1 by (destruct (challenge_cases best c) as [->| ->]; assumption).
    pose proof (IH _ H1 Hl) as K. pose proof (K _ (or_introl eq_refl)) as K0.
    assert (b_width best <= b_width (challenge best c) /\ b_width c <= b_width (challenge best c)) as [M1 M2].
    { unfold challenge. rewrite Hb, Hc. cbn [xorb]. destruct (qlt_spec (b_width c) (b_width best)); [split; lra|].
      destruct (qlt_spec (b_width best) (b_width c)); [split; lra|]. destruct (index_lt _ _); split; lra. }
    destruct Hin as [<-|[<-|Hin]]; [lra|lra|]. apply K. now right.
Qed.

(** The border that wins is one of those that meet, or there is none. A hidden one wins. When none is
    hidden, none is wider, and the first of the widest wins. *)
Theorem C31_winner : forall l,
  (In (harmonize l) l \/ harmonize l = no_border) /\
  ((exists b, In b l /\ b_style b = HIDDEN) -> b_style (harmonize l) = HIDDEN /\ In (harmonize l) l) /\
  (forall l1 b l2, l = l1 ++ b :: l2 -> (forall c, In c l -> b_style c <> HIDDEN) -> 0 < b_width b ->
     (forall c, In c l1 -> b_width c < b_width b) -> (forall c, In c l2 -> b_width c <= b_width b) -> harmonize l = b).
Proof.
  intros l. assert (In (harmonize l) l \/ harmonize l = no_border) as I by (destruct (fold_in l no_border) as [H|H]; [right; symmetry; exact H|left; exact H]).
  split; [exact I|]. split.
  - intros (b & Hin & Hb). assert (b_style (harmonize l) = HIDDEN) as H.
    { apply hidden_iff. unfold harmonize. rewrite fold_hidden. cbn [is_hidden no_border b_style orb]. apply existsb_exists. exists b. split; [exact Hin|now apply hidden_iff]. }
    split; [exact H|]. destruct I as [I|I]; [exact I|]. rewrite I in H. discriminate.
  - intros l1 b l2 -> Hh Hpos H1 H2. unfold harmonize. rewrite fold_left_app. cbn [fold_left].
    set (m := fold_left challenge l1 no_border).
    assert (forall c, In c (l1 ++ b :: l2) -> is_hidden c = false) as Hn.
    { intros c Hc. destruct (is_hidden c) eqn:E; [|reflexivity]. apply hidden_iff in E. exfalso. exact (Hh c Hc E). }
    assert (is_hidden m = false /\ b_width m < b_width b) as [Hm Wm].
    { destruct (fold_in l1 no_border) as [E|E]; fold m in E; [rewrite <- E; split; [reflexivity|exact Hpos]|].
      split; [apply Hn, in_app_iff; now left|now apply H1]. }
    assert (challenge m b = b) as ->.
    { unfold challenge. rewrite Hm, (Hn b); [|apply in_app_iff; right; now left]. cbn [xorb].
      destruct (qlt_spec (b_width b) (b_width m)); [lra|]. destruct (qlt_spec (b_width m) (b_width b)); [reflexivity|lra]. }
    assert (forall c, In c l2 -> is_hidden c = false) as Hn2 by (intros c Hc; apply Hn, in_app_iff; right; now right).
    assert (is_hidden b = false) as Hb by (apply Hn, in_app_iff; right; now left).
    clear - H2 Hn2 Hb. induction l2 as [|c l2 IH]; cbn [fold_left]; [reflexivity|].
    assert (challenge b c = b) as ->.
    { unfold challenge. rewrite Hb, (Hn2 c (or_introl eq_refl)). cbn [xorb]. pose proof (H2 c (or_introl eq_refl)).
      destruct (qlt_spec (b_width c) (b_width b)); [reflexivity|]. destruct (qlt_spec (b_width b) (b_width c)); [lra|]. now destruct (index_lt _ _). }
    apply IH; intros; [apply H2|apply Hn2]; now right.
Qed.
Print Assumptions C31_winner.

(** No border is before the one that wins.

    Full statement: without the hypothesis on the styles of borders of the same width. Missing: the
    style decides nothing, see the refutation. That borders without style have no width and that the
    others have one: table.cpp:17-27, and borders of width 0 are not seen. *)
Theorem C31_css_order_partial : forall l,
  (forall b, In b l -> (b_style b = NONE_S -> b_width b == 0) /\ (b_style b <> NONE_S -> 0 < b_width b)) ->
  (forall a b, In a l -> In b l -> b_width a == b_width b -> b_style a = b_style b) ->
  forall b, In b l -> ~ css_before b (harmonize l).
Proof.
  intros l Hw Hs b Hin (Nh & H). destruct (existsb is_hidden l) eqn:E.
  - apply existsb_exists in E as (h & Hh & Eh). apply hidden_iff in Eh. destruct (C31_winner l) as (_ & K & _).
    destruct (K (ex_intro _ h (conj Hh Eh))) as [K1 _]. exact (Nh K1).
  - pose proof (fold_width l no_border eq_refl E b (or_intror Hin)) as W. fold (harmonize l) in W.
    destruct H as [H|(Nn & H)]. { assert (existsb is_hidden l = true) by (apply existsb_exists; exists b; split; [exact Hin|now apply hidden_iff]). congruence. }
    destruct (Hw b Hin) as [_ Pb]. specialize (Pb Nn).
    destruct (C31_winner l) as ([Hi|Hi] & _); [|rewrite Hi in W; cbn in W; lra].
    destruct H as [H|[H|[H1 H2]]].
    + destruct (Hw _ Hi) as [Z _]. specialize (Z H). lra.
    + lra.
    + rewrite (Hs b _ Hin Hi H1) in H2. lia.
Qed.
Print Assumptions C31_css_order_partial.
Example C31_sample :
  let l := [mkB 1 SOLID 1; mkB 3 DASHED 2; mkB 0 NONE_S 3; mkB 3 DASHED 4; mkB 2 DOUBLE 5] in
  (forall b, In b l -> (b_style b = NONE_S -> b_width b == 0) /\ (b_style b <> NONE_S -> 0 < b_width b)) /\
  (forall a b, In a l -> In b l -> b_width a == b_width b -> b_style a = b_style b) /\
  harmonize l = mkB 3 DASHED 2 /\ harmonize (l ++ [mkB 1 HIDDEN 6]) = mkB 1 HIDDEN 6.
Proof.
  split; [|split; [|split; vm_compute; reflexivity]].
  - cbn. intros b [<-|[<-|[<-|[<-|[<-|[]]]]]]; cbn; split; intros H; try congruence; try (vm_compute; reflexivity).
  - cbn. intros a b [<-|[<-|[<-|[<-|[<-|[]]]]]] [<-|[<-|[<-|[<-|[<-|[]]]]]]; cbn; intros H; try reflexivity; vm_compute in H; discriminate.
Qed.

(** Of two borders of the same width the double one is before the dashed one, in any order; and of
    two hidden ones nothing is drawn, but the border has a width (as a hidden border alone has). *)
Theorem C31_css_order_refuted :
  let a := mkB 3 DASHED 1 in let b := mkB 3 DOUBLE 2 in
  css_before b a /\ harmonize [a; b] = a /\ harmonize [b; a] = b /\
  harmonize [mkB 3 SOLID 1; mkB 7 HIDDEN 2] = mkB 7 HIDDEN 2.
Proof.
  cbn zeta. split; [|repeat split; vm_compute; reflexivity]. split; [discriminate|]. right. split; [discriminate|]. right. right.
  split; [reflexivity|]. cbn. lia.
Qed.
Print Assumptions C31_css_order_refuted.

(** ** C70 *)
Local Open Scope nat_scope.
Definition view (w : nat) (b : list insets) (i j : nat) : insets := nth (i * w + j) b no_insets.
Lemma index_inj w i j i' j' : j < w -> j' < w -> i * w + j = i' * w + j' -> i = i' /\ j = j'.
Proof. intros. assert (i = i') by nia. subst. lia. Qed.
Lemma nth_upd_nth {A} (d : A) f l : forall n i, n < length l -> nth i (upd l n f) d = if i =? n then f (nth i l d) else nth i l d.
Proof.
  induction l as [|a l IH]; intros n i H; cbn in H; [lia|]. destruct n as [|n], i as [|i]; cbn; try reflexivity. apply IH. lia.
Qed.
Lemma width_at_ok w h b i j f : length b = w * h -> i < h -> j < w ->
  exists b', width_at w b i j f = Ok b' /\ length b' = w * h /\
    forall i' j', j' < w -> view w b' i' j' = if (i' =? i) && (j' =? j) then f (view w b i j) else view w b i' j'.
Proof.
  intros L Hi Hj. unfold width_at. assert (i * w + j < length b) as Hl by (rewrite L; nia).
  destruct (Nat.ltb_spec (i * w + j) (length b)) as [_|]; [|lia]. eexists. split; [reflexivity|]. split; [now rewrite upd_length|].
  intros i' j' Hj'. unfold view. rewrite nth_upd_nth by exact Hl.
  destruct (Nat.eqb_spec (i' * w + j') (i * w + j)) as [E|N].
  - destruct (index_inj w _ _ _ _ Hj' Hj E) as [-> ->]. now rewrite !Nat.eqb_refl.
  - destruct (Nat.eqb_spec i' i) as [->|]; [|reflexivity]. destruct (Nat.eqb_spec j' j) as [->|]; [lia|reflexivity].
Qed.

Lemma top_bottom_ok w h i rs c : 0 < rs -> i + rs <= h -> forall n j b, length b = w * h -> j + n <= w ->
  exists b', top_bottom w i rs c n j b = Ok b' /\ length b' = w * h /\
    forall i' j', j' < w ->
      view w b' i' j' =
      let s := view w b i' j' in let here := (j <=? j') && (j' <? j + n) in
      mkI (if here && (i' =? i) then i_top c else i_top s) (i_end s) (if here && (i' =? i + rs - 1) then i_bottom c else i_bottom s) (i_start s).
Proof.
  intros Hr Hi. induction n as [|n IH]; intros j b L Hj; cbn [top_bottom].
  - exists b. split; [reflexivity|]. split; [exact L|]. intros i' j' _. cbn zeta. destruct (view w b i' j'). bcase.
  - destruct (width_at_ok w h b i j (fun s => mkI (i_top c) (i_end s) (i_bottom s) (i_start s)) L ltac:(lia) ltac:(lia)) as (b1 & -> & L1 & V1). cbn [obind].
    unfold last_row. destruct (i + rs) as [|m] eqn:Em; [lia|].
    destruct (width_at_ok w h b1 m j (fun s => mkI (i_top s) (i_end s) (i_bottom c) (i_start s)) L1 ltac:(lia) ltac:(lia)) as (b2 & -> & L2 & V2). cbn [obind].
    destruct (IH (S j) b2 L2 ltac:(lia)) as (b3 & -> & L3 & V3). exists b3. split; [reflexivity|]. split; [exact L3|].
    intros i' j' Hj'. rewrite V3 by exact Hj'. cbn zeta. rewrite V2 by exact Hj'. rewrite !V1 by lia. replace (S m - 1) with m by lia.
    destruct (Nat.eqb_spec j' j) as [->|Nj].
    + destruct (Nat.eqb_spec i' m), (Nat.eqb_spec i' i), (Nat.eqb_spec m i); try lia; cbn [andb]; rewrite ?Nat.eqb_refl;
        cbn [i_top i_end i_bottom i_start]; bcase; congruence.
    + rewrite !andb_false_r. bcase.
Qed.
Lemma start_end_ok w h j cs c : 0 < cs -> j + cs <= w -> forall n i b, length b = w * h -> i + n <= h ->
  exists b', start_end w j cs c n i b = Ok b' /\ length b' = w * h /\
    forall i' j', j' < w ->
      view w b' i' j' =
      let s := view w b i' j' in let here := (i <=? i') && (i' <? i + n) in
      mkI (i_top s) (if here && (j' =? j + cs - 1) then i_end c else i_end s) (i_bottom s) (if here && (j' =? j) then i_start c else i_start s).
Proof.
  intros Hr Hi. induction n as [|n IH]; intros i b L Hj; cbn [start_end].
  - exists b. split; [reflexivity|]. split; [exact L|]. intros i' j' _. cbn zeta. destruct (view w b i' j'). bcase.
  - destruct (width_at_ok w h b i j (fun s => mkI (i_top s) (i_end s) (i_bottom s) (i_start c)) L ltac:(lia) ltac:(lia)) as (b1 & -> & L1 & V1). cbn [obind].
    destruct (width_at_ok w h b1 i (j + cs - 1) (fun s => mkI (i_top s) (i_end c) (i_bottom s) (i_start s)) L1 ltac:(lia) ltac:(lia)) as (b2 & -> & L2 & V2). cbn [obind].
    destruct (IH (S i) b2 L2 ltac:(lia)) as (b3 & -> & L3 & V3). exists b3. split; [reflexivity|]. split; [exact L3|].
    intros i' j' Hj'. rewrite V3 by exact Hj'. cbn zeta. rewrite V2 by exact Hj'. rewrite !V1 by lia. set (m := j + cs - 1).
    destruct (Nat.eqb_spec i' i) as [->|Ni].
    + destruct (Nat.eqb_spec j' m), (Nat.eqb_spec j' j), (Nat.eqb_spec m j); try lia; cbn [andb]; rewrite ?Nat.eqb_refl;
        cbn [i_top i_end i_bottom i_start]; bcase; cbn [i_top i_end i_bottom i_start]; congruence.
    + cbn [andb]. bcase.
Qed.

(** No slot is in two cells. *)
Definition disjoint (ps : list placement) : Prop :=
  forall p q x y, In p ps -> In q ps -> covers p x y = true -> covers q x y = true -> p = q.

Section Separate.
Variables (g : grid) (ps : list placement) (edges : cell -> insets).
Hypothesis fits : forall p, In p ps -> p_x p + c_cols (p_cell p) <= width g /\ p_y p + c_rows (p_cell p) <= height g /\ 0 < c_cols (p_cell p) /\ 0 < c_rows (p_cell p).
Hypothesis anchored : forall p, In p ps -> slot_of ps (p_x p) (p_y p) = mkSlot (p_x p) (p_y p) (Some (p_cell p)).
Hypothesis at_g : forall x y, x < width g -> y < height g -> at_ g x y = Ok (slot_of ps x y).
Let w := width g.
Let h := height g.
(** The borders of [p] are at its edges. *)
Definition own (p : placement) (b : list insets) : Prop :=
  forall x y, covers p x y = true ->
    (y = p_y p -> i_top (view w b y x) = i_top (edges (p_cell p))) /\
    (y = p_y p + c_rows (p_cell p) - 1 -> i_bottom (view w b y x) = i_bottom (edges (p_cell p))) /\
    (x = p_x p -> i_start (view w b y x) = i_start (edges (p_cell p))) /\
    (x = p_x p + c_cols (p_cell p) - 1 -> i_end (view w b y x) = i_end (edges (p_cell p))).
Definition sep_inv (done : nat -> nat -> Prop) (b : list insets) : Prop :=
  length b = w * h /\ (disjoint ps -> forall p, In p ps -> done (p_y p) (p_x p) -> own p b).

Lemma covers_iff p x y : In p ps -> covers p x y = true <-> (p_x p <= x < p_x p + c_cols (p_cell p) /\ p_y p <= y < p_y p + c_rows (p_cell p)).
Proof.
  intros Hp. destruct (fits p Hp) as (_ & _ & _ & Hr). unfold covers, p_height. rewrite !andb_true_iff, !Nat.leb_le, !Nat.ltb_lt. lia.
Qed.

Lemma slot_ok done b i j : sep_inv done b -> i < h -> j < w ->
  exists b', separate_slot edges g i j b = Ok b' /\ sep_inv (fun y x => done y x \/ (y = i /\ x = j)) b'.
Proof.
  intros [L I] Hi Hj. unfold separate_slot. rewrite at_g by assumption. cbn [obind].
  assert (forall b', sep_inv done b' -> (forall p, In p ps -> p_y p = i -> p_x p = j -> False) -> sep_inv (fun y x => done y x \/ (y = i /\ x = j)) b') as Skip.
  { intros b' [L' I'] Hno. split; [exact L'|]. intros D p Hp [Hd|[Hy Hx]]; [exact (I' D p Hp Hd)|]. destruct (Hno p Hp Hy Hx). }
  destruct (s_box (slot_of ps j i)) as [c|] eqn:Eb.
  2: { exists b. split; [reflexivity|]. apply Skip; [split; assumption|]. intros p Hp Hy Hx. pose proof (anchored p Hp) as A. rewrite Hx, Hy in A. rewrite A in Eb. discriminate. }
  destruct ((s_x (slot_of ps j i) =? j) && (s_y (slot_of ps j i) =? i)) eqn:Ea.
  2: { exists b. split; [reflexivity|]. apply Skip; [split; assumption|]. intros p Hp Hy Hx. pose proof (anchored p Hp) as A. rewrite Hx, Hy in A. rewrite A in Ea. cbn in Ea.
       rewrite !Nat.eqb_refl in Ea. discriminate. }
  apply andb_true_iff in Ea as [Ex Ey]. apply Nat.eqb_eq in Ex, Ey.
  assert (exists q, In q ps /\ p_x q = j /\ p_y q = i /\ p_cell q = c) as (q & Hq & Qx & Qy & Qc).
  { unfold slot_of in Eb, Ex, Ey. destruct (owner ps j i) as [q|] eqn:Eo; [|discriminate]. cbn in Eb, Ex, Ey. injection Eb as <-. exists q. unfold owner in Eo. apply find_some in Eo as [Eo _]. auto. }
  destruct (fits q Hq) as (F1 & F2 & F3 & F4). rewrite Qx, Qc in F1. rewrite Qy, Qc in F2. rewrite Qc in F3, F4.
  destruct (top_bottom_ok w h i (c_rows c) (edges c) F4 F2 (c_cols c) j b L F1) as (b1 & E1 & L1 & V1). fold w. rewrite E1. cbn [obind].
  destruct (start_end_ok w h j (c_cols c) (edges c) F3 F1 (c_rows c) i b1 L1 F2) as (b2 & E2 & L2 & V2). rewrite E2.
  exists b2. split; [reflexivity|]. split; [exact L2|]. intros D p Hp Hd x y Hc.
  pose proof (proj1 (covers_iff p x y Hp) Hc) as Hc'. destruct (fits p Hp) as (G1 & G2 & _ & _).
  assert (x < w) as Hx by (unfold w; lia). rewrite V2 by exact Hx. cbn zeta. rewrite V1 by exact Hx. cbn zeta. cbn [i_top i_end i_bottom i_start].
  destruct (covers q x y) eqn:Ec.
  - rewrite (D p q x y Hp Hq Hc Ec) in *. clear p Hp Hc G1 G2. rewrite Qx, Qy, Qc in *. repeat split; intros ->; bcase.
  - assert (~ (j <= x < j + c_cols c /\ i <= y < i + c_rows c)) as Out.
    { intros K. rewrite <- Qx, <- Qy, <- Qc in K. apply (proj2 (covers_iff q x y Hq)) in K. congruence. }
    destruct Hd as [Hd|[Hy' Hx']].
    + destruct (I D p Hp Hd x y Hc) as (K1 & K2 & K3 & K4). repeat split; intros Z; bcase; auto.
    + assert (p_cell p = c) as Pc. { pose proof (anchored p Hp) as A. rewrite Hx', Hy' in A. rewrite A in Eb. now injection Eb. }
      rewrite Pc, Hx', Hy' in Hc'. lia.
Qed.
Lemma slots_ok i : i < h -> forall js done b, sep_inv done b -> (forall j, In j js -> j < w) ->
  exists b', slots (separate_slot edges g) i js b = Ok b' /\ sep_inv (fun y x => done y x \/ (y = i /\ In x js)) b'.
Proof.
  intros Hi. induction js as [|j js IH]; intros done b I Hj; cbn [slots].
  - exists b. split; [reflexivity|]. destruct I as [L I]. split; [exact L|]. intros D p Hp [Hd|[_ []]]. exact (I D p Hp Hd).
  - destruct (slot_ok done b i j I Hi (Hj j (or_introl eq_refl))) as (b1 & -> & I1). cbn [obind].
    destruct (IH _ b1 I1 (fun k Hk => Hj k (or_intror Hk))) as (b2 & -> & [L2 I2]). exists b2. split; [reflexivity|]. split; [exact L2|].
    intros D p Hp Hd. apply (I2 D p Hp). cbn [In] in Hd. intuition auto.
Qed.
Lemma slot_rows_ok js : (forall j, In j js -> j < w) -> forall is done b, sep_inv done b -> (forall i, In i is -> i < h) ->
  exists b', slot_rows (separate_slot edges g) is js b = Ok b' /\ sep_inv (fun y x => done y x \/ (In y is /\ In x js)) b'.
Proof.
  intros Hj. induction is as [|i is IH]; intros done b I Hi; cbn [slot_rows].
  - exists b. split; [reflexivity|]. destruct I as [L I]. split; [exact L|]. intros D p Hp [Hd|[[] _]]. exact (I D p Hp Hd).
  - destruct (slots_ok i (Hi i (or_introl eq_refl)) js done b I Hj) as (b1 & -> & I1). cbn [obind].
    destruct (IH _ b1 I1 (fun k Hk => Hi k (or_intror Hk))) as (b2 & -> & [L2 I2]). exists b2. split; [reflexivity|]. split; [exact L2|].
    intros D p Hp Hd. apply (I2 D p Hp). cbn [In] in Hd. intuition auto.
Qed.
Lemma separate_ok : exists b, separate_borders edges g = Ok b /\ length b = w * h /\ (disjoint ps -> forall p, In p ps -> own p b).
Proof.
  unfold separate_borders. fold w h.
  destruct (slot_rows_ok (seq 0 w) (fun j Hj => proj2 (proj1 (in_seq _ _ _) Hj)) (seq 0 h) (fun _ _ => False) (repeat no_insets (w * h))) as (b & -> & [L I]).
  - split; [apply repeat_length|]. intros _ p _ [].
  - intros i Hi. apply in_seq in Hi. lia.
  - exists b. split; [reflexivity|]. split; [exact L|]. intros D p Hp. apply (I D p Hp). right. destruct (fits p Hp) as (F1 & F2 & F3 & F4). unfold w, h. rewrite !in_seq. lia.
Qed.
Lemma own_cell_borders b p : length b = w * h -> In p ps -> own p b ->
  cell_borders w b (p_y p) (p_x p) (c_rows (p_cell p)) (c_cols (p_cell p)) = Ok (edges (p_cell p)).
Proof.
  intros L Hp O. destruct (fits p Hp) as (F1 & F2 & F3 & F4). unfold cell_borders.
  destruct (p_y p + c_rows (p_cell p)) as [|m] eqn:Em; [lia|]. fold w in F1. fold h in F2.
  destruct (nth_error b (p_y p * w + p_x p)) as [a|] eqn:Ea; [|apply nth_error_None in Ea; rewrite L in Ea; nia].
  destruct (nth_error b (m * w + (p_x p + c_cols (p_cell p) - 1))) as [z|] eqn:Ez; [|apply nth_error_None in Ez; rewrite L in Ez; nia].
  apply (nth_error_nth _ _ no_insets) in Ea, Ez.
  destruct (O (p_x p) (p_y p)) as (T & _ & St & _); [apply covers_iff; [exact Hp|lia]|].
  destruct (O (p_x p + c_cols (p_cell p) - 1) m) as (_ & B & _ & E); [apply covers_iff; [exact Hp|lia]|].
  unfold view in *. rewrite Ea in T, St. rewrite Ez in B, E. rewrite T, St, B, E by lia. now destruct (edges (p_cell p)).
Qed.
End Separate.

(** The borders of the cells of every table are computed, and where no two cells overlap each cell
    has its own.

    Full statement: for all tables. Missing: cells with a row span of 0, see the refutation. *)
Theorem C70_separate_borders_partial : forall l edges, Forall positive_child l -> Forall (fun c => 0 < c_rows c) (cells_of (table_steps l)) ->
  exists g ps y b, build l = Ok g /\ formed [] 0 (table_steps l) ps y /\ map p_cell ps = rev (cells_of (table_steps l)) /\
    separate_borders edges g = Ok b /\
    (disjoint ps -> forall p, In p ps -> cell_borders (width g) b (p_y p) (p_x p) (c_rows (p_cell p)) (c_cols (p_cell p)) = Ok (edges (p_cell p))).
Proof.
  intros l edges Hp Hz. destruct (build_inv l Hp) as (g & ps & E & (f & I & Hb & Hw) & M & Sp).
  assert (forall p, In p ps -> 0 < c_rows (p_cell p)) as Hr.
  { intros p Hin. rewrite Forall_forall in Hz. apply Hz, in_rev. rewrite <- M. now apply in_map. }
  assert (forallb finite_span ps = true) as Hf.
  { apply forallb_forall. intros p Hin. specialize (Hr p Hin). unfold finite_span. destruct (Nat.eqb_spec (c_rows (p_cell p)) 0); [lia|reflexivity]. }
  destruct (i_exact _ _ _ _ I Hf) as [_ X].
  assert (forall p, In p ps -> p_x p + c_cols (p_cell p) <= width g /\ p_y p + c_rows (p_cell p) <= height g /\ 0 < c_cols (p_cell p) /\ 0 < c_rows (p_cell p)) as Fits.
  { intros p Hin. destruct (i_fits _ _ _ _ I p Hin) as (F1 & F2 & F3). specialize (Hr p Hin). unfold p_height in F2. lia. }
  destruct (separate_ok g ps edges Fits) as (b & Eb & L & O).
  { intros p Hin. rewrite <- X. exact (i_anchor _ _ _ _ I p Hin). }
  { intros x y Hx Hy. rewrite <- X. exact (at_rep g f x y (i_rep _ _ _ _ I) Hx Hy). }
  exists g, ps, (cur_y g), b. split; [exact E|]. split; [exact (Sp Hf)|]. split; [exact M|]. split; [exact Eb|].
  intros D p Hin. apply (own_cell_borders g ps edges Fits); [exact L|exact Hin|exact (O D p Hin)].
Qed.
Print Assumptions C70_separate_borders_partial.

Definition numbered (c : cell) : insets := let n := inject_Z (Z.of_nat (c_id c)) in mkI n (n + 10) (n + 20) (n + 30).
Definition border_table (rs : nat) : list child :=
  [BODY (mkGroup 1 [tr 2 [one 1; Some (mkCell 2 rs 2)]; tr 3 [one 3]; tr 4 [one 4; one 5; one 6]])].
Definition borders_of (l : list child) (i j rs cs : nat) : outcome insets :=
  obind (build l) (fun g => obind (separate_borders numbered g) (fun b => cell_borders (width g) b i j rs cs)).
Example C70_sample : Forall positive_child (border_table 2) /\ Forall (fun c => 0 < c_rows c) (cells_of (table_steps (border_table 2))) /\
  borders_of (border_table 2) 0 1 2 2 = Ok (numbered (mkCell 2 2 2)) /\ borders_of (border_table 2) 2 2 1 1 = Ok (numbered (mkCell 6 1 1)).
Proof. repeat split; try (vm_compute; reflexivity); vm_compute; repeat constructor. Qed.

(** A row span of 0 in the first row of a table crashes; in a later row the cell above it gets the
    border of this cell at its bottom. *)
Theorem C70_separate_borders_refuted :
  borders_of (border_table 0) 0 0 1 1 = Panic /\
  borders_of [BODY (mkGroup 1 [tr 2 [one 1]; tr 3 [Some (mkCell 2 0 1)]])] 0 0 1 1 = Ok (mkI 1 11 22 31).
Proof. split; vm_compute; reflexivity. Qed.
Print Assumptions C70_separate_borders_refuted.
