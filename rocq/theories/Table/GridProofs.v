From Coq Require Import List Arith Bool Lia Sorted.
From Verif.Base Require Import Outcome.
From Verif.Table Require Import GridModel GridSpec.
Import ListNotations.

(** ** The grid as a function *)
Definition get2 (rs : list (list slot)) (x y : nat) : option slot :=
  match nth_error rs y with Some r => nth_error r x | None => None end.
Record rep (g : grid) (f : nat -> nat -> slot) : Prop := {
  rep_h : length (rows g) = height g;
  rep_w : forall r, In r (rows g) -> length r = width g;
  rep_in : forall x y, x < width g -> y < height g -> get2 (rows g) x y = Some (f x y);
  rep_out : forall x y, width g <= x \/ height g <= y -> f x y = mkSlot x y None }.

Lemma at_rep g f x y : rep g f -> x < width g -> y < height g -> at_ g x y = Ok (f x y).
Proof.
  intros R Hx Hy. unfold at_. destruct (Nat.leb_spec (width g) x); [lia|]. destruct (Nat.leb_spec (height g) y); [lia|]. cbn.
  pose proof (rep_in _ _ R x y Hx Hy) as E. unfold get2 in E. destruct (nth_error (rows g) y) as [r|]; [|discriminate]. now rewrite E.
Qed.

Lemma nth_widen span rs : forall y k, nth_error (widen span k rs) y =
  match nth_error rs y with Some r => Some (r ++ map (fun i => mkSlot (length r + i) (k + y) None) (seq 0 span)) | None => None end.
Proof.
  induction rs as [|r rs IH]; intros y k; [destruct y; reflexivity|]. destruct y as [|y]; cbn; [now rewrite Nat.add_0_r|].
  rewrite IH. destruct (nth_error rs y); [|reflexivity]. do 2 f_equal. apply map_ext. intros a. f_equal; lia.
Qed.
Lemma widen_length span rs : forall k, length (widen span k rs) = length rs.
Proof. induction rs as [|r rs IH]; intros k; cbn; [reflexivity|]. now rewrite IH. Qed.
Lemma nth_map_seq {A} (h : nat -> A) n : forall s i, nth_error (map h (seq s n)) i = if i <? n then Some (h (s + i)) else None.
Proof.
  induction n as [|n IH]; intros s i; [destruct i; reflexivity|]. destruct i as [|i]; cbn [seq map nth_error].
  - now rewrite Nat.add_0_r.
  - rewrite IH. change (S i <? S n) with (i <? n). destruct (i <? n); [do 2 f_equal; lia|reflexivity].
Qed.

Lemma rep_width g f n : rep g f -> rep (increase_width n g) f.
Proof.
  intros R. destruct R as [H1 H2 H3 H4]. constructor; cbn [increase_width with_rows rows width height].
  - now rewrite widen_length.
  - intros r Hr. apply In_nth_error in Hr as [y Hy]. rewrite nth_widen in Hy. destruct (nth_error (rows g) y) as [r0|] eqn:E; [|discriminate].
    injection Hy as <-. rewrite app_length, map_length, seq_length, (H2 r0 (nth_error_In _ _ E)). reflexivity.
  - intros x y Hx Hy. unfold get2. rewrite nth_widen. destruct (nth_error (rows g) y) as [r0|] eqn:E.
    + pose proof (H2 r0 (nth_error_In _ _ E)) as L. destruct (Nat.lt_ge_cases x (width g)) as [Lt|Ge].
      * rewrite nth_error_app1 by lia. specialize (H3 x y Lt Hy). unfold get2 in H3. now rewrite E in H3.
      * rewrite nth_error_app2 by lia. rewrite nth_map_seq. destruct (Nat.ltb_spec (x - length r0) n); [|lia].
        rewrite H4 by lia. f_equal. f_equal; lia.
    + apply nth_error_None in E. lia.
  - intros x y H. apply H4. lia.
Qed.
Lemma rep_height g f n : rep g f -> rep (increase_height n g) f.
Proof.
  intros R. destruct R as [H1 H2 H3 H4]. constructor; cbn [increase_height with_rows rows width height].
  - rewrite app_length, map_length, seq_length. lia.
  - intros r Hr. apply in_app_or in Hr as [Hr|Hr]; [now apply H2|]. apply in_map_iff in Hr as (i & <- & _). unfold new_row. now rewrite map_length, seq_length.
  - intros x y Hx Hy. unfold get2. destruct (Nat.lt_ge_cases y (height g)) as [Lt|Ge].
    + rewrite nth_error_app1 by lia. exact (H3 x y Hx Lt).
    + rewrite nth_error_app2 by lia. rewrite nth_map_seq. destruct (Nat.ltb_spec (y - length (rows g)) n); [|lia].
      unfold new_row. rewrite nth_map_seq. destruct (Nat.ltb_spec x (width g)); [|lia]. rewrite H4 by lia. f_equal. f_equal; lia.
  - intros x y H. apply H4. lia.
Qed.

Lemma nth_upd {A} (h : A -> A) l : forall n i, nth_error (upd l n h) i = if i =? n then option_map h (nth_error l i) else nth_error l i.
Proof.
  induction l as [|a l IH]; intros n i; cbn; [destruct i, n; cbn; try reflexivity; now destruct (_ =? _)|].
  destruct n as [|n], i as [|i]; cbn; try reflexivity. apply IH.
Qed.
Lemma upd_length {A} (h : A -> A) l : forall n, length (upd l n h) = length l.
Proof. induction l as [|a l IH]; intros [|n]; cbn; auto. Qed.

Definition put (f : nat -> nat -> slot) (x y : nat) (s : slot) : nat -> nat -> slot :=
  fun x' y' => if (x' =? x) && (y' =? y) then s else f x' y'.

(** Everything but the slots is kept. *)
Definition same_but_slots (g g' : grid) : Prop :=
  width g' = width g /\ height g' = height g /\ cur_x g' = cur_x g /\ cur_y g' = cur_y g /\ down g' = down g /\
  cols g' = cols g /\ trs g' = trs g /\ row_groups g' = row_groups g /\ col_groups g' = col_groups g /\
  header_rows g' = header_rows g /\ footer_rows g' = footer_rows g.
Lemma same_refl g : same_but_slots g g.
Proof. repeat split. Qed.
Lemma same_trans a b c : same_but_slots a b -> same_but_slots b c -> same_but_slots a c.
Proof. unfold same_but_slots. intuition congruence. Qed.

Lemma set_rep g f x y s : rep g f -> x < width g -> y < height g ->
  exists g', set_at g x y s = Ok g' /\ rep g' (put f x y s) /\ same_but_slots g g'.
Proof.
  intros R Hx Hy. unfold set_at. rewrite (at_rep g f x y R Hx Hy). cbn [obind]. eexists. split; [reflexivity|].
  split; [|repeat split]. destruct R as [H1 H2 H3 H4]. constructor; cbn [with_rows rows width height].
  - now rewrite upd_length.
  - intros r Hr. apply In_nth_error in Hr as [i Hi]. rewrite nth_upd in Hi. destruct (i =? y).
    + destruct (nth_error (rows g) i) as [r0|] eqn:E; [|discriminate]. injection Hi as <-. rewrite upd_length. exact (H2 r0 (nth_error_In _ _ E)).
    + exact (H2 r (nth_error_In _ _ Hi)).
  - intros x' y' Hx' Hy'. specialize (H3 x' y' Hx' Hy'). unfold get2 in *. rewrite nth_upd. unfold put.
    destruct (Nat.eqb_spec y' y) as [->|Ny].
    + destruct (nth_error (rows g) y) as [r0|]; [|discriminate]. cbn [option_map]. rewrite nth_upd.
      destruct (Nat.eqb_spec x' x) as [->|Nx]; cbn [andb]; [rewrite H3; reflexivity|exact H3].
    + rewrite andb_false_r. exact H3.
  - intros x' y' H. unfold put. destruct (Nat.eqb_spec x' x), (Nat.eqb_spec y' y); cbn [andb]; try (apply H4; exact H). lia.
Qed.

Definition block (f : nat -> nat -> slot) (s : slot) (nx x ny y : nat) : nat -> nat -> slot :=
  fun x' y' => if (x <=? x') && (x' <? x + nx) && (y <=? y') && (y' <? y + ny) then s else f x' y'.
Lemma rep_ext g f f' : rep g f -> (forall x y, f x y = f' x y) -> rep g f'.
Proof. intros [A B C D] E. constructor; [exact A|exact B|intros; rewrite <- E; auto|intros; rewrite <- E; auto]. Qed.
Ltac bcase := repeat match goal with
  | |- context [?a <=? ?b] => destruct (Nat.leb_spec a b)
  | |- context [?a <? ?b] => destruct (Nat.ltb_spec a b)
  | |- context [?a =? ?b] => destruct (Nat.eqb_spec a b)
  end; cbn [andb orb]; try reflexivity; try lia.

Lemma fill_column_rep s x : forall n g f y, rep g f -> x < width g -> y + n <= height g ->
  exists g', fill_column g s x n y = Ok g' /\ rep g' (block f s 1 x n y) /\ same_but_slots g g'.
Proof.
  induction n as [|n IH]; intros g f y R Hx Hy.
  - exists g. split; [reflexivity|]. split; [|apply same_refl]. eapply rep_ext; [exact R|]. intros x' y'. unfold block. bcase.
  - cbn [fill_column]. destruct (set_rep g f x y s R Hx ltac:(lia)) as (g1 & -> & R1 & S1). cbn [obind].
    pose proof S1 as (W & Hh & _).
    destruct (IH g1 _ (S y) R1 ltac:(lia) ltac:(lia)) as (g2 & -> & R2 & S2). exists g2. split; [reflexivity|].
    split; [|exact (same_trans _ _ _ S1 S2)]. eapply rep_ext; [exact R2|]. intros x' y'. unfold block, put. bcase.
Qed.
Lemma fill_rep s ny y : forall nx g f x, rep g f -> x + nx <= width g -> y + ny <= height g ->
  exists g', fill g s nx x ny y = Ok g' /\ rep g' (block f s nx x ny y) /\ same_but_slots g g'.
Proof.
  induction nx as [|n IH]; intros g f x R Hx Hy.
  - exists g. split; [reflexivity|]. split; [|apply same_refl]. eapply rep_ext; [exact R|]. intros x' y'. unfold block. bcase.
  - cbn [fill]. destruct (fill_column_rep s x ny g f y R ltac:(lia) Hy) as (g1 & -> & R1 & S1). cbn [obind].
    pose proof S1 as (W & Hh & _).
    destruct (IH g1 _ (S x) R1 ltac:(lia) ltac:(lia)) as (g2 & -> & R2 & S2). exists g2. split; [reflexivity|].
    split; [|exact (same_trans _ _ _ S1 S2)]. eapply rep_ext; [exact R2|]. intros x' y'. unfold block. bcase.
Qed.

(** Growing cells only write to the current row. *)
Definition grow_ok (g : grid) (d : growing) : Prop := g_x d < width g /\ g_y d < height g /\ g_left d + g_width d <= width g.
Lemma grow_one_rep d : forall n g f x, rep g f -> g_x d < width g -> g_y d < height g -> x + n <= width g -> cur_y g < height g ->
  exists g' f', grow_one g d n x = Ok g' /\ rep g' f' /\ same_but_slots g g' /\ (forall x' y', y' <> cur_y g -> f' x' y' = f x' y').
Proof.
  induction n as [|n IH]; intros g f x R Gx Gy Hx Hc.
  - exists g, f. split; [reflexivity|]. split; [exact R|]. split; [apply same_refl|auto].
  - cbn [grow_one]. rewrite (at_rep g f _ _ R Gx Gy). cbn [obind].
    destruct (set_rep g f x (cur_y g) (f (g_x d) (g_y d)) R ltac:(lia) Hc) as (g1 & -> & R1 & S1). cbn [obind].
    pose proof S1 as (W & Hh & _ & Cy & _).
    destruct (IH g1 _ (S x) R1 ltac:(lia) ltac:(lia) ltac:(lia) ltac:(lia)) as (g2 & f2 & -> & R2 & S2 & K). exists g2, f2.
    split; [reflexivity|]. split; [exact R2|]. split; [exact (same_trans _ _ _ S1 S2)|]. intros x' y' N. rewrite K by lia.
    unfold put. bcase.
Qed.
Lemma grow_cells_rep : forall ds g f, rep g f -> Forall (grow_ok g) ds -> cur_y g < height g ->
  exists g' f', grow_cells ds g = Ok g' /\ rep g' f' /\ same_but_slots g g' /\ (forall x' y', y' <> cur_y g -> f' x' y' = f x' y').
Proof.
  induction ds as [|d ds IH]; intros g f R F Hc.
  - exists g, f. split; [reflexivity|]. split; [exact R|]. split; [apply same_refl|auto].
  - inversion F as [|? ? (G1 & G2 & G3) F']; subst. cbn [grow_cells].
    destruct (grow_one_rep d (g_width d) g f (g_left d) R G1 G2 G3 Hc) as (g1 & f1 & -> & R1 & S1 & K1). cbn [obind].
    pose proof S1 as (W & Hh & _ & Cy & _).
    destruct (IH g1 f1 R1) as (g2 & f2 & -> & R2 & S2 & K2).
    { eapply Forall_impl; [|exact F']. unfold grow_ok. intros a. lia. }
    { lia. }
    exists g2, f2. split; [reflexivity|]. split; [exact R2|]. split; [exact (same_trans _ _ _ S1 S2)|]. intros x' y' N. rewrite K2 by lia. apply K1, N.
Qed.

Lemma skip_rep f : forall n g x, rep g f -> cur_y g < height g -> x <= width g -> n = width g - x ->
  exists x', skip_occupied n g x = Ok x' /\ x <= x' <= width g /\ (forall i, x <= i < x' -> occupied (f i (cur_y g)) = true) /\
    (x' < width g -> occupied (f x' (cur_y g)) = false).
Proof.
  induction n as [|n IH]; intros g x R Hc Hx E.
  - exists x. split; [reflexivity|]. repeat split; try lia; intros; lia.
  - cbn [skip_occupied]. destruct (Nat.ltb_spec x (width g)) as [L|L]; [|lia].
    rewrite (at_rep g f _ _ R L Hc). cbn [obind]. destruct (occupied (f x (cur_y g))) eqn:O.
    + destruct (IH g (S x) R Hc ltac:(lia) ltac:(lia)) as (x' & -> & B & A & C). exists x'. split; [reflexivity|]. split; [lia|]. split; [|exact C].
      intros i Hi. destruct (Nat.eq_dec i x) as [->|N]; [exact O|apply A; lia].
    + exists x. split; [reflexivity|]. repeat split; try lia; intros; try lia; exact O.
Qed.

(** ** The invariant *)
Definition slot_of (ps : list placement) (x y : nat) : slot :=
  match owner ps x y with Some p => mkSlot (p_x p) (p_y p) (Some (p_cell p)) | None => mkSlot x y None end.
Definition finite_span (p : placement) : bool := negb (c_rows (p_cell p) =? 0).

(** [ps]: the cells so far, from the last to the first; the next one goes to row [cur_y], from
    column [x] on. *)
Record inv (g : grid) (f : nat -> nat -> slot) (ps : list placement) (x : nat) : Prop := {
  i_rep : rep g f;
  i_cur : cur_y g <= height g;
  i_down : Forall (grow_ok g) (down g);
  i_anchor : forall p, In p ps -> f (p_x p) (p_y p) = mkSlot (p_x p) (p_y p) (Some (p_cell p));
  i_before : forall p, In p ps -> p_y p < cur_y g \/ (p_y p = cur_y g /\ p_x p + c_cols (p_cell p) <= x);
  i_sorted : StronglySorted (fun q p => before p q) ps;
  i_fits : forall p, In p ps -> p_x p + c_cols (p_cell p) <= width g /\ p_y p + p_height p <= height g /\ 0 < c_cols (p_cell p);
  i_exact : forallb finite_span ps = true -> down g = [] /\ forall x y, f x y = slot_of ps x y }.

Lemma owner_app ps c x y : forall x' y',
  owner (mkP c x y :: ps) x' y' = if covers (mkP c x y) x' y' then Some (mkP c x y) else owner ps x' y'.
Proof. reflexivity. Qed.

Lemma process_cell_inv c g f ps x0 : inv g f ps x0 -> x0 = cur_x g -> cur_x g <= width g -> cur_y g < height g -> 0 < c_cols c ->
  exists g' f' x, process_cell c g = Ok g' /\ inv g' f' (mkP c x (cur_y g) :: ps) (x + c_cols c) /\
    cur_x g' = x + c_cols c /\ cur_x g' <= width g' /\ cur_y g' = cur_y g /\ 
    width g' = Nat.max (width g) (x + c_cols c) /\ height g' = Nat.max (height g) (cur_y g + Nat.max 1 (c_rows c)) /\
    trs g' = trs g /\ row_groups g' = row_groups g /\ cols g' = cols g /\ col_groups g' = col_groups g /\ header_rows g' = header_rows g /\ footer_rows g' = footer_rows g /\
    cur_x g <= x /\
    (forallb finite_span ps = true -> owner ps x (cur_y g) = None /\ (forall i, cur_x g <= i < x -> owner ps i (cur_y g) <> None)).
Proof.
  intros I E0 Hx Hy Hc. subst x0. pose proof (i_rep _ _ _ _ I) as R. unfold process_cell.
  destruct (skip_rep f _ g (cur_x g) R Hy Hx eq_refl) as (x & -> & Bx & Occ & Free). cbn [obind].
  assert (exists g1, (let g0 := with_cur g x (cur_y g) in let g0 := if x =? width g0 then increase_width 1 g0 else g0 in
     let g0 := if width g0 <? x + c_cols c then increase_width (x + c_cols c - width g0) g0 else g0 in
     let rs := if c_rows c =? 0 then 1 else c_rows c in
     if height g0 <? cur_y g0 + rs then increase_height (cur_y g0 + rs - height g0) g0 else g0) = g1 /\ rep g1 f /\
     width g1 = Nat.max (width g) (x + c_cols c) /\ height g1 = Nat.max (height g) (cur_y g + Nat.max 1 (c_rows c)) /\
     cur_y g1 = cur_y g /\ down g1 = down g /\ trs g1 = trs g /\ row_groups g1 = row_groups g /\ cols g1 = cols g /\ col_groups g1 = col_groups g /\
     header_rows g1 = header_rows g /\ footer_rows g1 = footer_rows g) as (g1 & Eg & R1 & W1 & H1 & C1 & D1 & T1 & T2 & T3 & T4 & T5 & T6).
  { eexists. split; [reflexivity|]. cbv zeta.
    assert (rep (with_cur g x (cur_y g)) f) as R0 by (destruct R; constructor; assumption).
    set (ga := if x =? width (with_cur g x (cur_y g)) then increase_width 1 (with_cur g x (cur_y g)) else with_cur g x (cur_y g)).
    assert (rep ga f /\ width g <= width ga <= Nat.max (width g) (x + 1) /\ height ga = height g /\ cur_y ga = cur_y g /\ down ga = down g /\ trs ga = trs g /\ row_groups ga = row_groups g /\ cols ga = cols g /\ col_groups ga = col_groups g /\ header_rows ga = header_rows g /\ footer_rows ga = footer_rows g) as (Ra & Wa & Ha & Ka).
    { unfold ga. cbn [with_cur width]. destruct (Nat.eqb_spec x (width g)); (split; [try apply rep_width; exact R0|]); cbn; repeat split; lia. }
    clearbody ga.
    set (gb := if width ga <? x + c_cols c then increase_width (x + c_cols c - width ga) ga else ga).
    assert (rep gb f /\ width gb = Nat.max (width g) (x + c_cols c) /\ height gb = height g /\ cur_y gb = cur_y g /\ down gb = down g /\ trs gb = trs g /\ row_groups gb = row_groups g /\ cols gb = cols g /\ col_groups gb = col_groups g /\ header_rows gb = header_rows g /\ footer_rows gb = footer_rows g) as (Rb & Wb & Hb & Cb & Kb).
    { unfold gb. destruct (Nat.ltb_spec (width ga) (x + c_cols c)); (split; [try apply rep_width; exact Ra|]); cbn; (split; [lia|]); intuition congruence. }
    clearbody gb.
    assert ((if c_rows c =? 0 then 1 else c_rows c) = Nat.max 1 (c_rows c)) as -> by (destruct (Nat.eqb_spec (c_rows c) 0); lia).
    rewrite Hb, Cb. destruct (Nat.ltb_spec (height g) (cur_y g + Nat.max 1 (c_rows c))).
    - split; [apply rep_height; exact Rb|]. cbn. split; [exact Wb|]. split; [rewrite Hb; lia|]. intuition congruence.
    - split; [exact Rb|]. split; [exact Wb|]. split; [lia|]. intuition congruence. }
  cbv zeta in Eg |- *. cbn [with_cur width cur_y] in Eg |- *.
  match type of Eg with ?t = g1 => match goal with |- context [fill ?u] => change u with t end end.
  rewrite Eg.
  assert ((if c_rows c =? 0 then 1 else c_rows c) = Nat.max 1 (c_rows c)) as -> by (destruct (Nat.eqb_spec (c_rows c) 0); lia).
  destruct (fill_rep (mkSlot x (cur_y g1) (Some c)) (Nat.max 1 (c_rows c)) (cur_y g1) (c_cols c) g1 f x R1 ltac:(lia) ltac:(lia)) as (g2 & -> & R2 & S2). cbn [obind].
  destruct S2 as (W2 & H2 & X2 & C2 & D2 & U1 & U2 & U3 & U4 & U5 & U6).
  set (f2 := block f (mkSlot x (cur_y g1) (Some c)) (c_cols c) x (Nat.max 1 (c_rows c)) (cur_y g1)) in *.
  eexists. exists f2, x. split; [reflexivity|].
  set (g3 := if c_rows c =? 0 then with_down g2 (down g2 ++ [mkGrow x (cur_y g2) x (c_cols c)]) else g2).
  assert (rows g3 = rows g2 /\ width g3 = width g2 /\ height g3 = height g2 /\ cur_y g3 = cur_y g2 /\ trs g3 = trs g2 /\ row_groups g3 = row_groups g2 /\ cols g3 = cols g2 /\ col_groups g3 = col_groups g2 /\ header_rows g3 = header_rows g2 /\ footer_rows g3 = footer_rows g2) as (Q0 & Q1 & Q2 & Q3 & Q4 & Q5 & Q6 & Q7 & Q8 & Q9)
    by (unfold g3; destruct (c_rows c =? 0); repeat split; reflexivity).
  split; [|cbn [with_cur cur_x cur_y width height trs row_groups cols col_groups header_rows footer_rows]; do 12 (split; [congruence || lia|]); intros Hz; destruct (i_exact _ _ _ _ I Hz) as [Hd Hf]].
  2: { split.
       - destruct (Nat.lt_ge_cases x (width g)) as [L|L].
         + specialize (Free L). rewrite Hf in Free. unfold slot_of in Free. destruct (owner ps x (cur_y g)); [discriminate|reflexivity].
         + destruct (owner ps x (cur_y g)) as [p|] eqn:O; [|reflexivity]. unfold owner in O. apply find_some in O as [Ip Cp].
           destruct (i_fits _ _ _ _ I p Ip) as [F1 _]. unfold covers in Cp. rewrite !andb_true_iff, !Nat.leb_le, !Nat.ltb_lt in Cp. lia.
       - intros i Hi O. specialize (Occ i Hi). rewrite Hf in Occ. unfold slot_of in Occ. rewrite O in Occ. discriminate. }
  assert (rep (with_cur g3 (x + c_cols c) (cur_y g3)) f2) as R3.
  { destruct R2 as [P1 P2 P3 P4]. constructor; cbn [with_cur rows width height]; rewrite ?Q0, ?Q1, ?Q2; assumption. }
  assert (forall q, In q ps -> f2 (p_x q) (p_y q) = f (p_x q) (p_y q)) as Keep.
  { intros q Hq. unfold f2, block. destruct (i_before _ _ _ _ I q Hq) as [B|[B1 B2]]; destruct (i_fits _ _ _ _ I q Hq) as (F1 & F2 & F3); rewrite C1; bcase. }
  constructor; cbn [with_cur width height cur_y down].
  - exact R3.
  - lia.
  - unfold g3. destruct (c_rows c =? 0); cbn [with_down down width height].
    + apply Forall_app. split.
      * rewrite D2, D1. eapply Forall_impl; [|exact (i_down _ _ _ _ I)]. unfold grow_ok. cbn. intros a. lia.
      * constructor; [|constructor]. unfold grow_ok. cbn. lia.
    + rewrite D2, D1. eapply Forall_impl; [|exact (i_down _ _ _ _ I)]. unfold grow_ok. cbn. intros a. lia.
  - intros p [<-|Hp]; cbn [p_x p_y p_cell].
    + unfold f2, block. rewrite C1. bcase.
    + rewrite Keep by exact Hp. exact (i_anchor _ _ _ _ I p Hp).
  - intros p [<-|Hp]; cbn [p_x p_y p_cell]; [lia|]. destruct (i_before _ _ _ _ I p Hp); lia.
  - constructor; [exact (i_sorted _ _ _ _ I)|]. apply Forall_forall. intros p Hp. unfold before. cbn [p_x p_y p_cell].
    destruct (i_before _ _ _ _ I p Hp); lia.
  - intros p [<-|Hp]; unfold p_height in *; cbn [p_x p_y p_cell]; [lia|]. destruct (i_fits _ _ _ _ I p Hp) as (F1 & F2 & F3). unfold p_height in F2. lia.
  - cbn [forallb]. rewrite andb_true_iff. unfold finite_span at 1. cbn [p_cell]. intros [Hz Hps]. destruct (i_exact _ _ _ _ I Hps) as [Hd Hf].
    apply negb_true_iff in Hz. unfold g3. rewrite Hz. split; [congruence|]. intros x' y'. unfold slot_of. rewrite owner_app. unfold f2, block, covers, p_height. cbn [p_x p_y p_cell].
    rewrite C1. match goal with |- (if ?b then _ else _) = _ => destruct b end; [reflexivity|]. exact (Hf x' y').
Qed.

Definition right (ps : list placement) (w : nat) : nat := fold_right (fun p => Nat.max (p_x p + c_cols (p_cell p))) w ps.
(** The members that rows do not change. *)
Definition same_columns (g g' : grid) : Prop :=
  cols g' = cols g /\ col_groups g' = col_groups g /\ header_rows g' = header_rows g /\ footer_rows g' = footer_rows g.
Definition same_records (g g' : grid) : Prop := trs g' = trs g /\ row_groups g' = row_groups g.

Lemma catOptions_cons {A} (a : A) l : catOptions (Some a :: l) = a :: catOptions l.
Proof. reflexivity. Qed.

Lemma process_cells_inv b w0 : forall cs g f ps, inv g f ps (cur_x g) -> cur_x g <= width g -> cur_y g < height g ->
  Forall (fun c => 0 < c_cols c) (catOptions cs) -> height g = bottom ps b -> width g = right ps w0 ->
  exists g' f' new, process_cells cs g = Ok g' /\ inv g' f' (new ++ ps) (cur_x g') /\ cur_y g' = cur_y g /\ 
    map p_cell new = rev (catOptions cs) /\ (forall p, In p new -> p_y p = cur_y g) /\ height g' = bottom (new ++ ps) b /\ width g' = right (new ++ ps) w0 /\
    same_columns g g' /\ same_records g g' /\
    (forallb finite_span (new ++ ps) = true -> in_row (cur_y g) ps (cur_x g) (catOptions cs) (new ++ ps)).
Proof.
  induction cs as [|[c|] cs IH]; intros g f ps I Hx Hy Hc Hb Hw.
  - exists g, f, []. cbn. split; [reflexivity|]. split; [exact I|]. repeat split; try tauto. intros _. constructor.
  - rewrite catOptions_cons in Hc. inversion Hc as [|? ? Hc1 Hc2]; subst. cbn [process_cells].
    destruct (process_cell_inv c g f ps (cur_x g) I eq_refl Hx Hy Hc1) as (g1 & f1 & x & -> & I1 & X1 & X2 & Y1 & W1 & H1 & T1 & T2 & T3 & T4 & T5 & T6 & Lx & Sp). cbn [obind].
    destruct (IH g1 f1 (mkP c x (cur_y g) :: ps)) as (g2 & f2 & new & -> & I2 & Y2 & M2 & N2 & H2 & W2 & (S1 & S2 & S3 & S4) & (S5 & S6) & Sp2).
    + rewrite X1. exact I1.
    + exact X2.
    + lia.
    + exact Hc2.
    + cbn [bottom fold_right p_y p_cell]. fold (bottom ps b). unfold p_height. cbn [p_cell]. lia.
    + cbn [right fold_right p_x p_cell]. fold (right ps w0). lia.
    + exists g2, f2, (new ++ [mkP c x (cur_y g)]). rewrite <- app_assoc. cbn [app]. split; [reflexivity|]. split; [exact I2|]. split; [congruence|].
      split; [rewrite map_app, M2, catOptions_cons; reflexivity|]. split.
      { intros p Hp. apply in_app_or in Hp as [Hp|[<-|[]]]; [rewrite N2 by exact Hp; exact Y1|reflexivity]. }
      split; [exact H2|]. split; [exact W2|]. split; [unfold same_columns; repeat split; congruence|]. split; [split; congruence|].
      intros Hz. assert (forallb finite_span ps = true) as Hps.
      { rewrite forallb_app in Hz. apply andb_true_iff in Hz as [_ Hz]. cbn in Hz. apply andb_true_iff in Hz as [_ Hz]. exact Hz. }
      destruct (Sp Hps) as [O1 O2]. rewrite catOptions_cons. apply row_cell with (x' := x); [exact Lx|exact O1|exact O2|].
      rewrite <- X1, <- Y1. rewrite Y1. rewrite <- Y1 at 1. rewrite Y1 in Sp2. rewrite <- Y1 in Sp2. rewrite Y1 in *. exact (Sp2 Hz).
  - destruct (IH g f ps I Hx Hy Hc Hb Hw) as (g2 & f2 & new & E & K). exists g2, f2, new. split; [exact E|exact K].
Qed.

(** ** Between two rows *)
Definition st (w0 : nat) (g : grid) (ps : list placement) : Prop :=
  exists f, inv g f ps 0 /\ height g = bottom ps (cur_y g) /\ width g = right ps w0.

Lemma bottom_cons p ps b : bottom (p :: ps) b = Nat.max (p_y p + p_height p) (bottom ps b).
Proof. reflexivity. Qed.
Lemma bottom_nil b : bottom [] b = b.
Proof. reflexivity. Qed.
Lemma bottom_max ps b : bottom ps b = Nat.max b (bottom ps 0).
Proof. induction ps as [|p ps IH]; rewrite ?bottom_cons, ?bottom_nil; lia. Qed.
Lemma bottom_ge ps b : b <= bottom ps b.
Proof. rewrite bottom_max. lia. Qed.
Lemma bottom_S ps b : bottom ps b <= b -> bottom ps (S b) = S b.
Proof. rewrite (bottom_max ps b), (bottom_max ps (S b)). lia. Qed.
Lemma bottom_big ps b : b < bottom ps b -> bottom ps (S b) = bottom ps b.
Proof. rewrite (bottom_max ps b), (bottom_max ps (S b)). lia. Qed.
Lemma bottom_app a ps b : bottom ps b <= bottom (a ++ ps) (S b).
Proof. induction a as [|p a IH]; cbn [app]; rewrite ?bottom_cons; [|lia]. rewrite (bottom_max ps b), (bottom_max ps (S b)). lia. Qed.

Lemma inv_height g f ps x n : inv g f ps x -> inv (increase_height n g) f ps x.
Proof.
  intros [A B C D E F G H]. constructor; cbn [increase_height with_rows width height cur_y down]; try assumption.
  - apply rep_height, A.
  - lia.
  - eapply Forall_impl; [|exact C]. unfold grow_ok. cbn. intros a. lia.
  - intros p Hp. specialize (G p Hp). lia.
Qed.
Lemma inv_zero g f ps p : inv g f ps 0 -> In p ps -> p_y p < cur_y g.
Proof. intros I Hp. destruct (i_before _ _ _ _ I p Hp); destruct (i_fits _ _ _ _ I p Hp); lia. Qed.

Lemma grow_inv g f ps : inv g f ps 0 -> cur_y g < height g ->
  exists g' f', grow g = Ok g' /\ inv g' f' ps 0 /\ same_but_slots g g'.
Proof.
  intros I Hy. unfold grow. destruct (grow_cells_rep (down g) g f (i_rep _ _ _ _ I) (i_down _ _ _ _ I) Hy) as (g' & f' & E & R & S & K).
  exists g', f'. split; [exact E|]. split; [|exact S]. destruct S as (S1 & S2 & S3 & S4 & S5 & _).
  destruct I as [A B C D F G H X]. constructor; rewrite ?S1, ?S2, ?S4, ?S5; try assumption.
  - eapply Forall_impl; [|exact C]. unfold grow_ok. intros a. lia.
  - intros p Hp. rewrite K; [apply D, Hp|]. destruct (F p Hp); destruct (H p Hp); lia.
  - intros Hz. destruct (X Hz) as [Hd Hf]. split; [exact Hd|]. rewrite Hd in E. injection E as <-.
    intros x y. destruct (Nat.lt_ge_cases x (width g)), (Nat.lt_ge_cases y (height g)).
    1: { pose proof (rep_in _ _ R x y ltac:(lia) ltac:(lia)) as E1. rewrite (rep_in _ _ A x y ltac:(lia) ltac:(lia)) in E1. injection E1 as <-. apply Hf. }
    all: rewrite (rep_out _ _ R) by lia; rewrite <- (rep_out _ _ A) by lia; apply Hf.
Qed.

Lemma process_row_inv w0 r g ps : st w0 g ps -> Forall (fun c => 0 < c_cols c) (catOptions (r_cells r)) ->
  exists g' new, process_row r g = Ok g' /\ st w0 g' (new ++ ps) /\ cur_y g' = S (cur_y g) /\ 
    map p_cell new = rev (catOptions (r_cells r)) /\ (forall p, In p new -> p_y p = cur_y g) /\ same_columns g g' /\ same_records g g' /\
    height g' = bottom (new ++ ps) (S (cur_y g)) /\
    (forallb finite_span (new ++ ps) = true -> in_row (cur_y g) ps 0 (catOptions (r_cells r)) (new ++ ps)).
Proof.
  intros (f & I & Hb & Hw) Hc. unfold process_row. cbv zeta.
  set (g1 := if height g =? cur_y g then increase_height 1 g else g).
  assert (inv g1 f ps 0 /\ cur_y g1 < height g1 /\ cur_y g1 = cur_y g /\ height g1 = bottom ps (S (cur_y g)) /\ width g1 = width g /\ same_columns g g1 /\ same_records g g1) as (I1 & L1 & C1 & B1 & W1 & S1 & S2).
  { pose proof (i_cur _ _ _ _ I) as Hc0. unfold g1. destruct (Nat.eqb_spec (height g) (cur_y g)) as [E|N].
    - split; [now apply inv_height|]. cbn. split; [lia|]. split; [reflexivity|]. split; [|repeat split].
      rewrite bottom_S; lia.
    - split; [exact I|]. split; [lia|]. split; [reflexivity|]. split; [|repeat split]. rewrite Hb. symmetry. apply bottom_big. lia. }
  clearbody g1.
  assert (inv (with_cur g1 0 (cur_y g1)) f ps 0) as I2.
  { destruct I1 as [A B C D E F G H]. constructor; cbn; try assumption. destruct A; constructor; assumption. }
  destruct (grow_inv _ _ _ I2) as (g3 & f3 & E3 & I3 & S3); [exact L1|]. unfold grow in E3 |- *. rewrite E3. cbn [obind]. clear E3.
  destruct S3 as (Q1 & Q2 & Q3 & Q4 & Q5 & Q6 & Q7 & Q8 & Q9 & Q10 & Q11). cbn [with_cur width height cur_x cur_y down cols trs row_groups col_groups header_rows footer_rows] in *.
  destruct (process_cells_inv (S (cur_y g)) w0 (r_cells r) g3 f3 ps) as (g4 & f4 & new & -> & I4 & Y4 & M4 & N4 & H4 & W4 & S4 & S5 & Sp).
  { rewrite Q3. exact I3. } { lia. } { lia. } { exact Hc. } { lia. } { lia. }
  cbn [obind]. eexists. exists new. split; [reflexivity|]. unfold st. cbn [with_cur width height cur_x cur_y].
  assert (cur_y g4 = cur_y g) as Y5 by congruence.
  split; [exists f4; split; [|split; [rewrite Y5; exact H4|exact W4]]|].
  { pose proof (i_cur _ _ _ _ I4) as Hc0. destruct I4 as [A B C D E F G H]. constructor; cbn; try assumption.
    - destruct A; constructor; assumption.
    - rewrite H4, Y5. apply bottom_ge.
    - intros p Hp. destruct (E p Hp); lia. }
  split; [lia|]. split; [exact M4|]. split; [intros p Hp; rewrite N4 by exact Hp; congruence|].
  unfold same_columns, same_records in *. cbn [with_cur trs row_groups cols col_groups header_rows footer_rows]. split; [intuition congruence|]. split; [intuition congruence|].
  split; [exact H4|]. intros Hz. specialize (Sp Hz). rewrite Q3 in Sp. replace (cur_y g3) with (cur_y g) in Sp by congruence. exact Sp.
Qed.

Lemma end_row_group_inv w0 : forall n g ps, st w0 g ps -> n = height g - cur_y g ->
  exists g', end_row_group n g = Ok g' /\ st w0 g' ps /\ cur_y g' = bottom ps (cur_y g) /\ height g' = height g /\ same_columns g g' /\ same_records g g'.
Proof.
  induction n as [|n IH]; intros g ps S En.
  - exists g. split; [reflexivity|]. split; [exact S|]. destruct S as (f & I & Hb & Hw). pose proof (i_cur _ _ _ _ I). split; [lia|]. repeat split.
  - destruct S as (f & I & Hb & Hw). cbn [end_row_group]. destruct (Nat.ltb_spec (cur_y g) (height g)) as [L|L]; [|lia].
    destruct (grow_inv _ _ _ I L) as (g1 & f1 & -> & I1 & S1). cbn [obind].
    destruct S1 as (Q1 & Q2 & Q3 & Q4 & Q5 & Q6 & Q7 & Q8 & Q9 & Q10 & Q11).
    destruct (IH (with_down (with_cur g1 (cur_x g1) (S (cur_y g1))) []) ps) as (g2 & -> & S2 & Y2 & H2 & C2 & R2).
    { exists f1. cbn [with_down with_cur height width cur_y]. split; [|split; [|congruence]].
      - destruct I1 as [A B C D E F G H]. constructor; cbn; try assumption.
        + destruct A; constructor; assumption.
        + lia.
        + constructor.
        + intros p Hp. destruct (E p Hp); destruct (G p Hp); lia.
        + intros Hz. destruct (H Hz) as [_ Hf]. split; [reflexivity|exact Hf].
      - rewrite Q2, Hb, Q4. symmetry. apply bottom_big. lia. }
    { cbn. lia. }
    exists g2. split; [reflexivity|]. split; [exact S2|]. cbn [with_down with_cur height cur_y cols trs row_groups col_groups header_rows footer_rows] in *.
    split; [rewrite Y2, Q4; apply bottom_big; lia|]. split; [lia|]. unfold same_columns, same_records in *. cbn [with_down with_cur height cur_y cols trs row_groups col_groups header_rows footer_rows] in *. split; intuition congruence.
Qed.

Definition positive_row (r : row) : Prop := Forall (fun c => 0 < c_cols c) (catOptions (r_cells r)).

Lemma formed_app ps y a ps1 y1 : formed ps y a ps1 y1 -> forall b ps2 y2, formed ps1 y1 b ps2 y2 -> formed ps y (a ++ b) ps2 y2.
Proof. induction 1; intros b ps2 y2 H2; cbn; [exact H2|econstructor; eauto|constructor; eauto]. Qed.
Lemma finite_app_r a b : forallb finite_span (a ++ b) = true -> forallb finite_span b = true.
Proof. rewrite forallb_app. intros H. now apply andb_true_iff in H. Qed.
Lemma cells_rows l : forall rs, cells_of (map row_step rs ++ l) = flat_map (fun r => catOptions (r_cells r)) rs ++ cells_of l.
Proof. induction rs as [|r rs IH]; cbn; [reflexivity|]. fold (cells_of (map row_step rs ++ l)). now rewrite IH, app_assoc. Qed.

Lemma group_rows_inv w0 : forall rs g ps, st w0 g ps -> Forall positive_row (catOptions rs) ->
  exists g' new, group_rows rs g = Ok g' /\ st w0 g' (new ++ ps) /\ height g <= height g' /\ 
    map p_cell new = rev (cells_of (map row_step (catOptions rs))) /\ same_columns g g' /\ row_groups g' = row_groups g /\
    (forallb finite_span (new ++ ps) = true -> formed ps (cur_y g) (map row_step (catOptions rs)) (new ++ ps) (cur_y g')).
Proof.
  induction rs as [|[r|] rs IH]; intros g ps S Hr.
  - exists g, []. cbn. split; [reflexivity|]. split; [exact S|]. repeat split; try lia. intros _. constructor.
  - rewrite catOptions_cons in Hr. inversion Hr as [|? ? Hr1 Hr2]; subst. cbn [group_rows]. cbv zeta.
    destruct (process_row_inv w0 r g ps S Hr1) as (g1 & n1 & -> & S1 & Y1 & M1 & N1 & C1 & [R1 R1'] & H1 & Sp1). cbn [obind].
    destruct (IH (with_trs g1 (trs g1 ++ [mkAxis (height g) (height g1 - 1) (r_id r)])) (n1 ++ ps)) as (g2 & n2 & -> & S2 & L2 & M2 & C2 & G2 & Sp2).
    { destruct S1 as (f & [A B C D E F G H] & Hb & Hw). exists f. cbn. split; [|split; assumption]. constructor; cbn; try assumption. destruct A; constructor; assumption. }
    { exact Hr2. }
    exists g2, (n2 ++ n1). rewrite <- app_assoc. split; [reflexivity|]. split; [exact S2|]. cbn [with_trs height cur_y row_groups] in *.
    assert (height g <= height g1) as L1.
    { destruct S as (f & I & Hb & Hw). rewrite H1, Hb. apply bottom_app. }
    split; [lia|]. split.
    { rewrite map_app, M2, M1, catOptions_cons. cbn [map cells_of flat_map row_step]. rewrite rev_app_distr. reflexivity. }
    split; [unfold same_columns in *; cbn in *; intuition congruence|]. split; [congruence|].
    intros Hz. rewrite catOptions_cons. cbn [map]. econstructor; [apply Sp1; exact (finite_app_r n2 _ Hz)|]. rewrite <- Y1. exact (Sp2 Hz).
  - destruct (IH g ps S Hr) as (g2 & n2 & E & K). exists g2, n2. split; [exact E|exact K].
Qed.

Definition positive_group (t : group) : Prop := Forall positive_row (catOptions (gr_rows t)).
Lemma cells_app a b : cells_of (a ++ b) = cells_of a ++ cells_of b.
Proof. unfold cells_of. apply flat_map_app. Qed.

Lemma process_group_inv w0 t g ps : st w0 g ps -> positive_group t ->
  exists g' new, process_group t g = Ok g' /\ st w0 g' (new ++ ps) /\ cur_y g' = height g' /\ height g <= height g' /\
    map p_cell new = rev (cells_of (group_steps t)) /\ same_columns g g' /\
    (forallb finite_span (new ++ ps) = true -> formed ps (cur_y g) (group_steps t) (new ++ ps) (cur_y g')).
Proof.
  intros S Hp. unfold process_group. cbv zeta. destruct (group_rows_inv w0 (gr_rows t) g ps S Hp) as (g1 & n1 & -> & S1 & L1 & M1 & C1 & G1 & Sp1). cbn [obind].
  set (g2 := if height g <? height g1 then with_row_groups g1 (row_groups g1 ++ [mkAxis (height g) (height g1 - 1) (gr_id t)]) else g1).
  assert (st w0 g2 (n1 ++ ps) /\ height g2 = height g1 /\ cur_y g2 = cur_y g1 /\ same_columns g1 g2) as (S2 & H2 & Y2 & C2).
  { unfold g2. destruct (height g <? height g1); [|repeat split; exact S1]. cbn. repeat split. destruct S1 as (f & [A B C D E F G H] & Hb & Hw). exists f. cbn. split; [|split; assumption]. constructor; cbn; try assumption. destruct A; constructor; assumption. }
  clearbody g2. destruct (end_row_group_inv w0 _ g2 _ S2 eq_refl) as (g3 & -> & S3 & Y3 & H3 & C3 & R3).
  exists g3, n1. split; [reflexivity|]. split; [exact S3|]. assert (cur_y g3 = height g3) as E3.
  { destruct S3 as (f & I & Hb & Hw). destruct S2 as (f' & I' & Hb' & Hw'). congruence. }
  split; [exact E3|]. split; [lia|]. split.
  { unfold group_steps. rewrite cells_app. cbn [cells_of flat_map]. rewrite app_nil_r. exact M1. }
  split; [unfold same_columns in *; intuition congruence|]. intros Hz. unfold group_steps. eapply formed_app; [apply Sp1, Hz|].
  rewrite Y3, Y2. constructor. constructor.
Qed.

Definition positive_child (c : child) : Prop :=
  match c with ROW r => positive_row r | HEAD t | BODY t | FOOT t => positive_group t | _ => True end.

Lemma body_inv w0 : forall l seen g ps, st w0 g ps -> Forall positive_child l ->
  exists g' new, body seen l g = Ok (g', table_footers l) /\ st w0 g' (new ++ ps) /\ same_columns g g' /\ 
    map p_cell new = rev (cells_of (body_steps seen l)) /\
    (forallb finite_span (new ++ ps) = true -> formed ps (cur_y g) (body_steps seen l) (new ++ ps) (cur_y g')).
Proof.
  assert (forall g ps, st w0 g ps -> exists g1, end_row_group (height g - cur_y g) g = Ok g1 /\ st w0 g1 ps /\ same_columns g g1 /\ cur_y g1 = bottom ps (cur_y g)) as End.
  { intros g ps S. destruct (end_row_group_inv w0 _ g ps S eq_refl) as (g1 & E & S1 & Y1 & H1 & C1 & R1). exists g1. auto. }
  assert (forall t g ps l seen, positive_group t -> st w0 g ps -> 
    (forall g ps, st w0 g ps -> exists g' new, body seen l g = Ok (g', table_footers l) /\ st w0 g' (new ++ ps) /\ same_columns g g' /\ 
      map p_cell new = rev (cells_of (body_steps seen l)) /\ (forallb finite_span (new ++ ps) = true -> formed ps (cur_y g) (body_steps seen l) (new ++ ps) (cur_y g'))) ->
    exists g' new, obind (end_row_group (height g - cur_y g) g) (fun g => obind (process_group t g) (body seen l)) = Ok (g', table_footers l) /\ st w0 g' (new ++ ps) /\ same_columns g g' /\ 
      map p_cell new = rev (cells_of (GROUP_END :: group_steps t ++ body_steps seen l)) /\
      (forallb finite_span (new ++ ps) = true -> formed ps (cur_y g) (GROUP_END :: group_steps t ++ body_steps seen l) (new ++ ps) (cur_y g'))) as Grp.
  { intros t g ps l seen Ht S IH. destruct (End g ps S) as (g1 & -> & S1 & C1 & Y1). cbn [obind].
    destruct (process_group_inv w0 t g1 ps S1 Ht) as (g2 & n2 & -> & S2 & Y2 & L2 & M2 & C2 & Sp2). cbn [obind].
    destruct (IH g2 (n2 ++ ps) S2) as (g3 & n3 & -> & S3 & C3 & M3 & Sp3). exists g3, (n3 ++ n2). rewrite <- app_assoc. split; [reflexivity|]. split; [exact S3|].
    split; [unfold same_columns in *; intuition congruence|]. split.
    - rewrite map_app, M3, M2. cbn [cells_of flat_map app]. fold (cells_of (group_steps t ++ body_steps seen l)). rewrite cells_app, rev_app_distr. reflexivity.
    - intros Hz. constructor. rewrite <- Y1. eapply formed_app; [apply Sp2; exact (finite_app_r n3 _ Hz)|]. exact (Sp3 Hz). }
  induction l as [|c l IH]; intros seen g ps S Hp.
  - exists g, []. cbn. split; [reflexivity|]. split; [exact S|]. repeat split. intros _. constructor.
  - inversion Hp as [|? ? Hp1 Hp2]; subst. destruct c as [id span cs|r|t|t|t|]; cbn [body body_steps table_footers flat_map positive_child] in *; fold (table_footers l); rewrite ?app_nil_l.
    + apply IH; assumption.
    + destruct (process_row_inv w0 r g ps S Hp1) as (g1 & n1 & -> & S1 & Y1 & M1 & N1 & C1 & R1 & H1 & Sp1). cbn [obind].
      destruct (IH seen g1 (n1 ++ ps) S1 Hp2) as (g2 & n2 & -> & S2 & C2 & M2 & Sp2). exists g2, (n2 ++ n1). rewrite <- app_assoc. split; [reflexivity|]. split; [exact S2|].
      split; [unfold same_columns in *; intuition congruence|]. split.
      * rewrite map_app, M2, M1. cbn [cells_of flat_map row_step]. rewrite rev_app_distr. reflexivity.
      * intros Hz. econstructor; [apply Sp1; exact (finite_app_r n2 _ Hz)|]. rewrite <- Y1. exact (Sp2 Hz).
    + destruct seen.
      * apply Grp; [exact Hp1|exact S|]. intros g' ps' S'. apply IH; assumption.
      * destruct (End g ps S) as (g1 & -> & S1 & C1 & Y1). cbn [obind app]. destruct (IH true g1 ps S1 Hp2) as (g2 & n2 & -> & S2 & C2 & M2 & Sp2).
        exists g2, n2. split; [reflexivity|]. split; [exact S2|]. split; [unfold same_columns in *; intuition congruence|]. split; [exact M2|].
        intros Hz. constructor. rewrite <- Y1. exact (Sp2 Hz).
    + apply Grp; [exact Hp1|exact S|]. intros g' ps' S'. apply IH; assumption.
    + destruct (End g ps S) as (g1 & -> & S1 & C1 & Y1). cbn [obind app]. destruct (IH seen g1 ps S1 Hp2) as (g2 & n2 & -> & S2 & C2 & M2 & Sp2). cbn [obind].
      exists g2, n2. split; [reflexivity|]. split; [exact S2|]. split; [unfold same_columns in *; intuition congruence|]. split; [exact M2|].
      intros Hz. constructor. rewrite <- Y1. exact (Sp2 Hz).
    + apply IH; assumption.
Qed.

Lemma footers_inv w0 : forall fs g ps, st w0 g ps -> Forall positive_group fs ->
  exists g' new, footers fs g = Ok g' /\ st w0 g' (new ++ ps) /\ same_columns g g' /\ 
    map p_cell new = rev (cells_of (flat_map group_steps fs)) /\
    (forallb finite_span (new ++ ps) = true -> formed ps (cur_y g) (flat_map group_steps fs) (new ++ ps) (cur_y g')).
Proof.
  induction fs as [|t fs IH]; intros g ps S Hp.
  - exists g, []. cbn. split; [reflexivity|]. split; [exact S|]. repeat split. intros _. constructor.
  - inversion Hp as [|? ? Hp1 Hp2]; subst. cbn [footers flat_map]. destruct (process_group_inv w0 t g ps S Hp1) as (g2 & n2 & -> & S2 & Y2 & L2 & M2 & C2 & Sp2). cbn [obind].
    destruct (IH g2 (n2 ++ ps) S2 Hp2) as (g3 & n3 & -> & S3 & C3 & M3 & Sp3). exists g3, (n3 ++ n2). rewrite <- app_assoc. split; [reflexivity|]. split; [exact S3|].
    split; [unfold same_columns in *; intuition congruence|]. split.
    + rewrite map_app, M3, M2, cells_app, rev_app_distr. reflexivity.
    + intros Hz. eapply formed_app; [apply Sp2; exact (finite_app_r n3 _ Hz)|]. exact (Sp3 Hz).
Qed.
