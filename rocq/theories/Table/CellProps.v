(** C76: every cell of a table is shown once. C77: cells are put in their rows and columns. *)
From Coq Require Import List Arith ZArith QArith Bool Lia Lqa Sorted Permutation.
From Verif.Base Require Import Outcome.
From Verif.Table Require Import GridModel GridSpec GridProofs GridProps RecordProps WidthModel WidthProofs WidthProps HeightModel HeightProps.
Import ListNotations.
Local Open Scope Q_scope.

(** ** The slots that are shown in a row: the first columns of the cells that end there. *)
Definition shown_slot (i : nat) (m : nat * slot) : list (slot * cell) :=
  match s_box (snd m) with
  | Some c => if (s_x (snd m) =? fst m)%nat && is_bottom (snd m) c i then [(snd m, c)] else []
  | None => []
  end.
Definition shown_from (i j : nat) (r : list slot) : list (slot * cell) := flat_map (shown_slot i) (combine (seq j (length r)) r).
(** In the last row all cells end. *)
Definition ends (i : nat) (all : bool) (j : nat) (r : list slot) : Prop :=
  forall m s c, nth_error r m = Some s -> s_box s = Some c -> all = true -> is_bottom s c i = true.
Lemma ends_tail i all j s r : ends i all j (s :: r) -> ends i all (S j) r.
Proof. intros H m s' c Hn Hb Ha. exact (H (S m) s' c Hn Hb Ha). Qed.
Definition key (b : box) : cell * nat * nat := (x_cell b, x_col b, x_row b).
Definition slot_key (p : slot * cell) : cell * nat * nat := (snd p, s_x (fst p), s_y (fst p)).

Lemma row_boxes_spec e starts i all X t : 0 <= t -> forall r j x size, ends i all j r -> x == X + offset (e_sx e) (e_cols e) j ->
  Forall2 (fun p b => exists x', b = layout_cell e starts (fst p) (snd p) (s_x (fst p)) x' /\ x' == X + offset (e_sx e) (e_cols e) (s_x (fst p)))
    (shown_from i j r) (fst (row_boxes e starts i all r j x size)) /\
  ((forall p, In p (shown_from i j r) -> let b := layout_cell e starts (fst p) (snd p) (s_x (fst p)) 0 in x_top b + x_height b - nth i starts 0 == t) ->
   size == 0 \/ size == t ->
   (shown_from i j r = [] -> snd (row_boxes e starts i all r j x size) = size) /\
   (shown_from i j r <> [] \/ size == t -> snd (row_boxes e starts i all r j x size) == t)).
Proof.
  intros Ht. induction r as [|s r IH]; intros j x size He Hx.
  - cbn. split; [constructor|]. intros _ Hs. split; [reflexivity|]. intros [C|C]; [congruence|exact C].
  - assert (x + (nth j (e_cols e) 0 + e_sx e) == X + offset (e_sx e) (e_cols e) (S j)) as Hx' by (rewrite offset_S, Hx; ring).
    pose proof (ends_tail _ _ _ _ _ He) as He'. unfold shown_from. cbn [length seq combine flat_map]. fold (shown_from i (S j) r). replace (shown_slot i (j, s)) with (match s_box s with Some c => if (s_x s =? j)%nat && is_bottom s c i then [(s, c)] else [] | None => [] end) by reflexivity. cbn [row_boxes].
    destruct (s_box s) as [c|] eqn:Eb; [|apply IH; assumption].
    assert (is_bottom s c i || all = is_bottom s c i)%bool as ->.
    { destruct all; [|apply orb_false_r]. rewrite (He 0%nat s c eq_refl Eb eq_refl). reflexivity. }
    destruct (Nat.eqb_spec (s_x s) j) as [Ej|Nj]; cbn [andb app]; [|apply IH; assumption].
    destruct (is_bottom s c i) eqn:Ebot; [|apply IH; assumption].
    set (b := layout_cell e starts s c j x). set (size' := qmax size (x_top b + x_height b - nth i starts 0)).
    specialize (IH (S j) (x + (nth j (e_cols e) 0 + e_sx e)) size' He' Hx'). destruct (row_boxes e starts i all r (S j) (x + (nth j (e_cols e) 0 + e_sx e)) size') as [bs z]. cbn [fst snd] in *.
    destruct IH as [IH1 IH2]. split.
    + constructor; [|exact IH1]. exists x. cbn [fst snd]. rewrite Ej. split; [reflexivity|exact Hx].
    + intros Hp Hs. assert (size' == t) as Hs'.
      { pose proof (Hp (s, c) (or_introl eq_refl)) as H0. cbn in H0. unfold size', b. cbn [layout_cell x_top x_height]. unfold qmax. destruct (lt_spec size (nth (s_y s) starts 0 + (query (e_rows e) (s_y s) (c_rows c) + e_sy e * inject_Z (Z.of_nat (c_rows c) - 1)) - nth i starts 0)); destruct Hs; lra. }
      destruct IH2 as [Z1 Z2]; [intros p Hin; apply Hp; now right|now right|]. split; [discriminate|]. intros _. apply Z2. now right.
Qed.

Definition shown (i : nat) (rs : list (list slot)) : list (slot * cell) := flat_map (fun '(i, r) => shown_from i 0 r) (combine (seq i (length rs)) rs).
(** The last row of the table is number [h - 1]. *)
Definition inside (h : nat) (i : nat) (rs : list (list slot)) : Prop :=
  forall n r m s c, nth_error rs n = Some r -> nth_error r m = Some s -> s_box s = Some c -> (s_y s <= i + n /\ 0 < c_rows c /\ s_y s + c_rows c <= h /\ i + n < s_y s + c_rows c)%nat.
Lemma layout_rows_keys e x0 h : forall rs i starts y, (i + length rs = h)%nat -> inside h i rs -> map key (fst (layout_rows e rs i starts x0 y)) = map slot_key (shown i rs).
Proof.
  induction rs as [|r rs IH]; intros i starts y L I; [reflexivity|]. cbn [layout_rows]. unfold layout_row. unfold shown. cbn [length seq combine flat_map]. fold (shown (S i) rs).
  destruct (row_boxes e (upd starts i (fun _ => y)) i (match rs with [] => true | _ :: _ => false end) r 0 (x0 + e_sx e) 0) as [bs size] eqn:Er.
  specialize (IH (S i) (upd starts i (fun _ => y)) (y + (size + e_sy e))). destruct (layout_rows e rs (S i) (upd starts i (fun _ => y)) x0 (y + (size + e_sy e))) as [more z].
  cbn [fst] in *. rewrite !map_app. f_equal.
  - assert (ends i (match rs with [] => true | _ :: _ => false end) 0 r) as En.
    { intros m s c Hn Hb Ha. destruct rs; [|discriminate]. cbn in L. destruct (I 0%nat r m s c eq_refl Hn Hb) as (A & B & C & D). apply Nat.eqb_eq. lia. }
    destruct (row_boxes_spec e (upd starts i (fun _ => y)) i _ (x0 + e_sx e) 0 ltac:(lra) r 0%nat (x0 + e_sx e) 0 En) as [F _]; [change (offset (e_sx e) (e_cols e) 0) with 0; ring|].
    rewrite Er in F. cbn [fst] in F. clear Er. induction F as [|p b ps' bs' (x' & -> & _) F IHF]; [reflexivity|]. cbn [map]. rewrite IHF. reflexivity.
  - apply IH; [cbn in L; lia|]. intros n r' m s c Hn. specialize (I (S n) r' m s c Hn). rewrite Nat.add_succ_r in I. exact I.
Qed.

(** ** The cells of a table by their placements *)
Lemma table_slots l : spans l -> exists g ps y, build l = Ok g /\ formed [] 0 (table_steps l) ps y /\ map p_cell ps = rev (cells_of (table_steps l)) /\ NoDup ps /\ (forall p q, In p ps -> In q ps -> p_x p = p_x q -> p_y p = p_y q -> p = q) /\ length (rows g) = height g /\
  (forall p, In p ps -> (p_x p + c_cols (p_cell p) <= width g)%nat /\ (p_y p + c_rows (p_cell p) <= height g)%nat /\ (0 < c_cols (p_cell p))%nat /\ (0 < c_rows (p_cell p))%nat) /\
  (forall i r, nth_error (rows g) i = Some r -> length r = width g /\ forall j, (j < width g)%nat -> nth_error r j = Some (slot_of ps j i)).
Proof.
  intros [Hp Hz]. destruct (build_inv l Hp) as (g & ps & E & (f & I & Hb & Hw) & M & Sp).
  assert (forall p, In p ps -> 0 < c_rows (p_cell p))%nat as Hr.
  { intros p Hin. rewrite Forall_forall in Hz. apply Hz, in_rev. rewrite <- M. now apply in_map. }
  assert (forallb finite_span ps = true) as Hf.
  { apply forallb_forall. intros p Hin. specialize (Hr p Hin). unfold finite_span. destruct (Nat.eqb_spec (c_rows (p_cell p)) 0); [lia|reflexivity]. }
  destruct (i_exact _ _ _ _ I Hf) as [_ X]. pose proof (i_rep _ _ _ _ I) as R.
  assert (forall p, In p ps -> (p_x p + c_cols (p_cell p) <= width g)%nat /\ (p_y p + c_rows (p_cell p) <= height g)%nat /\ (0 < c_cols (p_cell p))%nat /\ (0 < c_rows (p_cell p))%nat) as Fits.
  { intros p Hin. destruct (i_fits _ _ _ _ I p Hin) as (F1 & F2 & F3). specialize (Hr p Hin). unfold p_height in F2. lia. }
  exists g, ps, (cur_y g). split; [exact E|]. split; [exact (Sp Hf)|]. split; [exact M|]. split.
  { pose proof (i_sorted _ _ _ _ I) as S. clear - S Fits. induction S as [|p ps S IH HF]; [constructor|]. constructor; [|apply IH; intros q Hq; apply Fits; now right].
    intros Hin. rewrite Forall_forall in HF. specialize (HF p Hin). destruct (Fits p (or_introl eq_refl)) as (_ & _ & C & _). unfold before in HF. lia. }
  split.
  { pose proof (i_sorted _ _ _ _ I) as S. clear - S Fits. induction S as [|p ps S IH HF]; [intros p q []|]. rewrite Forall_forall in HF.
    assert (forall q, In q ps -> p_x p = p_x q -> p_y p = p_y q -> p = q) as H.
    { intros q Hq Ex Ey. specialize (HF q Hq). destruct (Fits q (or_intror Hq)) as (_ & _ & C & _). unfold before in HF. lia. }
    intros a b [<-|Ha] [<-|Hb] Ex Ey; [reflexivity|now apply H|symmetry; now apply H|]. apply IH; auto. intros q Hq. apply Fits. now right. }
  split; [exact (rep_h _ _ R)|]. split; [exact Fits|]. intros i r Hr'. split; [exact (rep_w _ _ R r (nth_error_In _ _ Hr'))|]. intros j Hj.
  assert (i < height g)%nat as Hi by (rewrite <- (rep_h _ _ R); apply nth_error_Some; congruence).
  pose proof (rep_in _ _ R j i Hj Hi) as G. unfold get2 in G. rewrite Hr' in G. rewrite G, X. reflexivity.
Qed.
Lemma slot_box ps j i c : s_box (slot_of ps j i) = Some c -> exists p, In p ps /\ covers p j i = true /\ slot_of ps j i = mkSlot (p_x p) (p_y p) (Some (p_cell p)) /\ owner ps j i = Some p.
Proof.
  unfold slot_of. destruct (owner ps j i) as [p|] eqn:E; [|discriminate]. intros _. exists p. unfold owner in E. pose proof E as E'. apply find_some in E as [A B]. auto.
Qed.
Lemma covers_iff p x y : covers p x y = true <-> (p_x p <= x < p_x p + c_cols (p_cell p) /\ p_y p <= y < p_y p + p_height p)%nat.
Proof. unfold covers. rewrite !andb_true_iff, !Nat.leb_le, !Nat.ltb_lt. lia. Qed.
Lemma shown_in i rs s c : In (s, c) (shown i rs) <-> exists n r m, nth_error rs n = Some r /\ nth_error r m = Some s /\ s_box s = Some c /\ s_x s = m /\ is_bottom s c (i + n) = true.
Proof.
  unfold shown. rewrite in_flat_map. split.
  - intros ((k & r) & Hin & H). apply in_combine_seq in Hin as [Hk Hr]. unfold shown_from in H. apply in_flat_map in H as ((m & s') & Hm & H). apply in_combine_seq in Hm as [_ Hm]. rewrite Nat.sub_0_r in Hm.
    unfold shown_slot in H. cbn [fst snd] in H. destruct (s_box s') as [c'|] eqn:Eb; [|destruct H]. destruct (Nat.eqb_spec (s_x s') m); cbn in H; [|destruct H]. destruct (is_bottom s' c' k) eqn:B; [|destruct H].
    destruct H as [H|[]]. injection H as -> ->. exists (k - i)%nat, r, m. replace (i + (k - i))%nat with k by lia. auto.
  - intros (n & r & m & Hr & Hm & Hb & Hx & B). exists ((i + n)%nat, r). split; [apply in_combine_seq; split; [lia|]; replace (i + n - i)%nat with n by lia; exact Hr|].
    unfold shown_from. apply in_flat_map. exists (m, s). split; [apply in_combine_seq; rewrite Nat.sub_0_r; split; [lia|exact Hm]|]. unfold shown_slot. cbn [fst snd]. rewrite Hb, B, Hx, Nat.eqb_refl. now left.
Qed.
(** Each first column and last row is met once. *)
Lemma shown_NoDup : forall rs i, NoDup (map (fun p => (s_x (fst p), (s_y (fst p) + c_rows (snd p))%nat)) (shown i rs)).
Proof.
  assert (forall i r j, NoDup (map (fun p : slot * cell => s_x (fst p)) (shown_from i j r)) /\ forall p, In p (shown_from i j r) -> (j <= s_x (fst p))%nat /\ (s_y (fst p) + c_rows (snd p) = S i)%nat) as Row.
  { intros i. induction r as [|s r IH]; intros j; [split; [constructor|intros p []]|]. destruct (IH (S j)) as [N H]. unfold shown_from. cbn [length seq combine flat_map]. fold (shown_from i (S j) r). replace (shown_slot i (j, s)) with (match s_box s with Some c => if (s_x s =? j)%nat && is_bottom s c i then [(s, c)] else [] | None => [] end) by reflexivity.
    destruct (s_box s) as [c|]; [|split; [exact N|intros p Hp; destruct (H p Hp); split; [lia|assumption]]]. destruct (Nat.eqb_spec (s_x s) j) as [Ej|Nj]; cbn [andb app]; [|split; [exact N|intros p Hp; destruct (H p Hp); split; [lia|assumption]]].
    destruct (is_bottom s c i) eqn:B; cbn [app]; [|split; [exact N|intros p Hp; destruct (H p Hp); split; [lia|assumption]]]. split.
    - cbn [map fst]. constructor; [|exact N]. intros Hin. apply in_map_iff in Hin as (q & Eq & Hq). destruct (H q Hq). lia.
    - intros p [<-|Hp]; [cbn [fst snd]; apply Nat.eqb_eq in B; lia|]. destruct (H p Hp). split; [lia|assumption]. }
  induction rs as [|r rs IH]; intros i; [constructor|]. unfold shown. cbn [length seq combine flat_map]. fold (shown (S i) rs). rewrite map_app. destruct (Row i r 0%nat) as [N H].
  assert (forall p, In p (shown (S i) rs) -> (S i < s_y (fst p) + c_rows (snd p))%nat) as Later.
  { intros [s c] Hp. apply shown_in in Hp as (n & _ & _ & _ & _ & _ & _ & B). apply Nat.eqb_eq in B. cbn [fst snd]. lia. }
  clear Row. assert (NoDup (map (fun p : slot * cell => (s_x (fst p), (s_y (fst p) + c_rows (snd p))%nat)) (shown_from i 0 r))) as N'.
  { clear - N. induction (shown_from i 0 r) as [|p l IHl]; [constructor|]. cbn [map] in *. inversion N as [|? ? H1 H2]; subst. constructor; [|apply IHl; exact H2]. intros Hin. apply H1. apply in_map_iff in Hin as (q & Eq & Hq). apply in_map_iff. exists q. split; [congruence|exact Hq]. }
  revert N' H. generalize (shown_from i 0 r) as a. induction a as [|p a IHa]; intros N' H; [exact (IH (S i))|]. cbn [map app] in *. inversion N' as [|? ? H1 H2]; subst. constructor; [|apply IHa; [exact H2|intros q Hq; apply H; now right]].
  intros Hin. apply in_app_or in Hin as [Hin|Hin]; [contradiction|]. apply in_map_iff in Hin as (q & Eq & Hq). destruct (H p (or_introl eq_refl)) as [_ Hp]. specialize (Later q Hq). injection Eq as _ Eq. lia.
Qed.

(** ** C76: the cells that are shown are the cells of the table, each once, when no two cells
    overlap.

    Full statement: for all tables. Missing: overlapping cells, and row spans of 0. *)
Definition apart (ps : list placement) : Prop := forall p q x y, In p ps -> In q ps -> covers p x y = true -> covers q x y = true -> p = q.
Lemma table_inside g ps : (forall i r, nth_error (rows g) i = Some r -> length r = width g /\ forall j, (j < width g)%nat -> nth_error r j = Some (slot_of ps j i)) ->
  (forall p, In p ps -> (p_x p + c_cols (p_cell p) <= width g)%nat /\ (p_y p + c_rows (p_cell p) <= height g)%nat /\ (0 < c_cols (p_cell p))%nat /\ (0 < c_rows (p_cell p))%nat) ->
  inside (height g) 0 (rows g).
Proof.
  intros G Fits n r m s c Hn Hm Hb. destruct (G n r Hn) as [L H]. assert (m < width g)%nat as Hw by (rewrite <- L; apply nth_error_Some; congruence). rewrite (H m Hw) in Hm. injection Hm as <-.
  destruct (slot_box ps m n c Hb) as (p & Hp & Cv & Es & _). rewrite Es in Hb |- *. cbn in Hb |- *. injection Hb as <-. apply covers_iff in Cv. destruct (Fits p Hp) as (F1 & F2 & F3 & F4). unfold p_height in Cv. lia.
Qed.
Theorem C76_cells_shown_partial : forall l e x0 y0, spans l ->
  exists g ps y, build l = Ok g /\ formed [] 0 (table_steps l) ps y /\ map p_cell ps = rev (cells_of (table_steps l)) /\
    (apart ps -> Permutation (map x_cell (fst (render e g x0 y0))) (cells_of (table_steps l))) /\
    (forall b, In b (fst (render e g x0 y0)) -> In (mkP (x_cell b) (x_col b) (x_row b)) ps) /\
    NoDup (map (fun b => (x_col b, x_row b)) (fst (render e g x0 y0))).
Proof.
  intros l e x0 y0 Sp. destruct (table_slots l Sp) as (g & ps & y & E & F & M & Nd & Inj & Lh & Fits & G). exists g, ps, y. do 3 (split; [assumption|]).
  pose proof (table_inside g ps G Fits) as I. assert (map key (fst (render e g x0 y0)) = map slot_key (shown 0 (rows g))) as K.
  { unfold render. pose proof (layout_rows_keys e x0 (height g) (rows g) 0 (repeat 0 (height g)) (y0 + e_sy e) Lh I) as K. destruct (layout_rows e (rows g) 0 (repeat 0 (height g)) x0 (y0 + e_sy e)) as [bs z]. exact K. }
  set (pl := map (fun p : slot * cell => mkP (snd p) (s_x (fst p)) (s_y (fst p))) (shown 0 (rows g))).
  assert (forall p, In p pl <-> In p ps /\ owner ps (p_x p) (p_y p + c_rows (p_cell p) - 1) = Some p) as In_pl.
  { intros p. unfold pl. rewrite in_map_iff. split.
    - intros ([s c] & <- & Hin). apply shown_in in Hin as (n & r & m & Hr & Hm & Hb & Hx & B). cbn [fst snd Nat.add] in *. apply Nat.eqb_eq in B. destruct (G n r Hr) as [L H].
      assert (m < width g)%nat as Hw by (rewrite <- L; apply nth_error_Some; congruence). rewrite (H m Hw) in Hm. injection Hm as <-. destruct (slot_box ps m n c Hb) as (q & Hq & Cv & Es & Ow).
      rewrite Es in *. cbn in Hb, Hx, B |- *. injection Hb as <-. destruct q as [qc qx qy]. cbn in *. split; [exact Hq|]. replace (qy + c_rows qc - 1)%nat with n by lia. subst m. exact Ow.
    - intros [Hp Ow]. destruct (Fits p Hp) as (F1 & F2 & F3 & F4). set (n := (p_y p + c_rows (p_cell p) - 1)%nat) in *. assert (n < height g)%nat as Hn by (unfold n; lia).
      destruct (nth_error (rows g) n) as [r|] eqn:Er; [|apply nth_error_None in Er; lia]. destruct (G n r Er) as [L H].
      exists (mkSlot (p_x p) (p_y p) (Some (p_cell p)), p_cell p). cbn [fst snd s_x s_y]. split; [now destruct p|]. apply shown_in. exists n, r, (p_x p). split; [exact Er|]. split.
      + rewrite (H (p_x p)) by lia. unfold slot_of. rewrite Ow. reflexivity.
      + split; [reflexivity|]. split; [reflexivity|]. apply Nat.eqb_eq. cbn. unfold n. lia. }
  assert (NoDup pl) as Npl.
  { pose proof (shown_NoDup (rows g) 0) as N. unfold pl. clear - N. induction (shown 0 (rows g)) as [|p a IH]; [constructor|]. cbn [map] in *. inversion N as [|? ? H1 H2]; subst. constructor; [|exact (IH H2)].
    intros Hin. apply H1. apply in_map_iff in Hin as (q & Eq & Hq). apply in_map_iff. exists q. split; [|exact Hq]. injection Eq as E1 E2 E3. congruence. }
  assert (map (fun b => mkP (x_cell b) (x_col b) (x_row b)) (fst (render e g x0 y0)) = pl) as Kp.
  { transitivity (map (fun k => mkP (fst (fst k)) (snd (fst k)) (snd k)) (map key (fst (render e g x0 y0)))); [rewrite map_map; reflexivity|]. rewrite K, map_map. reflexivity. }
  split; [|split].
  - intros Ap. assert (map x_cell (fst (render e g x0 y0)) = map p_cell pl) as -> by (rewrite <- Kp, map_map; reflexivity).
    assert (Permutation pl ps) as P.
    { apply NoDup_Permutation; [exact Npl|exact Nd|]. intros p. rewrite In_pl. split; [tauto|]. intros Hp. split; [exact Hp|]. destruct (Fits p Hp) as (F1 & F2 & F3 & F4).
      assert (covers p (p_x p) (p_y p + c_rows (p_cell p) - 1) = true) as Cv by (apply covers_iff; unfold p_height; lia).
      unfold owner. destruct (find (fun q => covers q (p_x p) (p_y p + c_rows (p_cell p) - 1)) ps) as [q|] eqn:Eq; [|pose proof (find_none _ _ Eq p Hp) as C; cbn beta in C; congruence].
      apply find_some in Eq as [Hq Cq]. f_equal. exact (Ap q p _ _ Hq Hp Cq Cv). }
    apply (Permutation_map p_cell) in P. eapply Permutation_trans; [exact P|]. rewrite M. apply Permutation_sym, Permutation_rev.
  - intros b Hb. apply (In_pl (mkP (x_cell b) (x_col b) (x_row b))). rewrite <- Kp. apply in_map_iff. exists b. auto.
  - assert (map (fun b => (x_col b, x_row b)) (fst (render e g x0 y0)) = map (fun p => (p_x p, p_y p)) pl) as -> by (rewrite <- Kp, map_map; reflexivity).
    assert (forall p q, In p pl -> In q pl -> p_x p = p_x q -> p_y p = p_y q -> p = q) as Inj' by (intros p q Hp Hq; apply Inj; [apply In_pl in Hp|apply In_pl in Hq]; tauto).
    clear - Npl Inj'. rename Inj' into Inj. unfold pl in *. clear pl. set (pl := map _ _) in *. clearbody pl.
    induction pl as [|p pl IH]; [constructor|]. inversion Npl as [|? ? H1 H2]; subst. cbn [map]. constructor; [|apply IH; [exact H2|intros a b Ha Hb; apply Inj; now right]].
    intros Hin. apply in_map_iff in Hin as (q & Eq & Hq). injection Eq as E1 E2. apply H1. rewrite (Inj p q); [exact Hq|now left|now right|now symmetry|now symmetry].
Qed.
Print Assumptions C76_cells_shown_partial.
Definition boxes_of (l : list child) (cs vs : list Q) (sx sy : Q) : outcome (list (nat * (Q * Q * Q * Q)) * Q) :=
  omap (fun g => let '(bs, z) := render (mkEnv cs vs sx sy) g 0 0 in (map (fun b => (c_id (x_cell b), (Qred (x_left b), Qred (x_top b), Qred (x_width b), Qred (x_height b)))) bs, Qred z)) (build l).
Definition spanned : list child := [BODY (mkGroup 1 [tr 2 [one 1; Some (mkCell 2 2 1)]; tr 3 [one 3]; tr 4 [Some (mkCell 4 1 2)]])].
Example C76_sample : spans spanned /\ boxes_of spanned [10; 20] [5; 6; 7] 1 2 =
  Ok ([(1%nat, (1, 2, 10, 5)); (3%nat, (1, 9, 10, 6)); (2%nat, (12, 2, 20, 13)); (4%nat, (1, 17, 31, 7))], 26).
Proof. split; [split; vm_compute; repeat constructor|vm_compute; reflexivity]. Qed.

(** A cell that another one covers at its end is not shown (cell 3). *)
Definition C76_full : Prop := forall l e x0 y0 g, Forall positive_child l -> build l = Ok g -> Permutation (map x_cell (fst (render e g x0 y0))) (cells_of (table_steps l)).
Theorem C76_cells_shown_refuted :
  let shown_ids l := omap (fun g => map (fun b => c_id (x_cell b)) (fst (render (mkEnv [] [] 0 0) g 0 0))) (build l) in
  shown_ids [BODY (mkGroup 1 [tr 2 [one 1; one 2; Some (mkCell 3 2 1)]; tr 3 [one 4; Some (mkCell 5 1 2)]])] = Ok [1; 2; 4; 5]%nat /\
  ~ C76_full.
Proof.
  split; [vm_compute; reflexivity|]. intros F.
  set (l := [BODY (mkGroup 1 [tr 2 [one 1; one 2; Some (mkCell 3 2 1)]; tr 3 [one 4; Some (mkCell 5 1 2)]])]). assert (exists g, build l = Ok g) as [g Eg] by (eexists; vm_compute; reflexivity).
  specialize (F l (mkEnv [] [] 0 0) 0 0 g ltac:(repeat constructor) Eg). apply Permutation_length in F. vm_compute in Eg. injection Eg as <-. vm_compute in F. discriminate.
Qed.
Print Assumptions C76_cells_shown_refuted.

(** ** C77 *)
Lemma layout_rows_spec e x0 Y h : length (e_rows e) = h -> (forall k, 0 <= nth k (e_rows e) 0) -> forall rs i starts y, (i + length rs = h)%nat -> inside h i rs ->
  length starts = h -> (forall k, (k < i)%nat -> nth k starts 0 == Y + offset (e_sy e) (e_rows e) k) -> y == Y + offset (e_sy e) (e_rows e) i ->
  (forall n r, nth_error rs n = Some r -> shown_from (i + n) 0 r <> []) ->
  (forall b, In b (fst (layout_rows e rs i starts x0 y)) ->
     exists p, In p (shown i rs) /\ key b = slot_key p /\ x_left b == x0 + e_sx e + offset (e_sx e) (e_cols e) (x_col b) /\ x_top b == Y + offset (e_sy e) (e_rows e) (x_row b) /\
       x_width b = query (e_cols e) (x_col b) (c_cols (x_cell b)) + e_sx e * inject_Z (Z.of_nat (c_cols (x_cell b)) - 1) /\
       x_height b = query (e_rows e) (x_row b) (c_rows (x_cell b)) + e_sy e * inject_Z (Z.of_nat (c_rows (x_cell b)) - 1)) /\
  snd (layout_rows e rs i starts x0 y) == Y + offset (e_sy e) (e_rows e) h.
Proof.
  intros Lr Pos. induction rs as [|r rs IH]; intros i starts y L I Ls Hst Hy Hne.
  - cbn. cbn in L. rewrite Nat.add_0_r in L. subst i. split; [intros b []|exact Hy].
  - cbn [layout_rows]. unfold layout_row. cbn [length] in L.
    set (starts' := upd starts i (fun _ => y)).
    assert (length starts' = h) as Ls' by (unfold starts'; rewrite upd_length; exact Ls).
    assert (forall k, (k < S i)%nat -> nth k starts' 0 == Y + offset (e_sy e) (e_rows e) k) as Hst'.
    { intros k Hk. unfold starts'. rewrite nth_upd_any. assert (i <? length starts = true)%nat as -> by (apply Nat.ltb_lt; lia). rewrite andb_true_r. destruct (Nat.eqb_spec k i) as [->|]; [exact Hy|]. apply Hst. lia. }
    assert (ends i (match rs with [] => true | _ :: _ => false end) 0 r) as En.
    { intros m s c Hn Hb Ha. destruct rs; [|discriminate]. cbn in L. destruct (I 0%nat r m s c eq_refl Hn Hb) as (A & B & C & D). apply Nat.eqb_eq. lia. }
    assert (forall p, In p (shown_from i 0 r) -> (s_y (fst p) <= i /\ 0 < c_rows (snd p) /\ s_y (fst p) + c_rows (snd p) = S i)%nat) as Sh.
    { intros [s c] Hp. assert (In (s, c) (shown i [r])) as Hp' by (unfold shown; cbn; rewrite app_nil_r; exact Hp). apply shown_in in Hp' as (n & r' & m & Hr' & Hm & Hb & Hx & B).
      destruct n as [|n]; [|now destruct n]. injection Hr' as <-. destruct (I 0%nat r m s c eq_refl Hm Hb) as (A1 & A2 & A3 & A4). apply Nat.eqb_eq in B. cbn [fst snd]. lia. }
    destruct (row_boxes_spec e starts' i _ (x0 + e_sx e) (nth i (e_rows e) 0) (Pos i) r 0%nat (x0 + e_sx e) 0 En) as [F Z]; [change (offset (e_sx e) (e_cols e) 0) with 0; ring|].
    destruct (row_boxes e starts' i (match rs with [] => true | _ :: _ => false end) r 0 (x0 + e_sx e) 0) as [bs size]. cbn [fst snd] in F, Z.
    assert (size == nth i (e_rows e) 0) as Hz.
    { destruct Z as [_ Z]; [|left; reflexivity|apply Z; left; specialize (Hne 0%nat r eq_refl); rewrite Nat.add_0_r in Hne; exact Hne].
      intros p Hp. destruct (Sh p Hp) as (A & B & C). cbn [layout_cell x_top x_height]. rewrite !Hst' by lia. rewrite query_sum by lia.
      pose proof (offset_add (e_sy e) (e_rows e) (c_rows (snd p)) (s_y (fst p))) as O. rewrite C, offset_S in O.
      assert (inject_Z (Z.of_nat (c_rows (snd p)) - 1) == inject_Z (Z.of_nat (c_rows (snd p))) - 1) as -> by (unfold Z.sub; rewrite inject_Z_plus; reflexivity). lra. }
    specialize (IH (S i) starts' (y + (size + e_sy e)) ltac:(lia)). destruct IH as [IH1 IH2].
    { intros n r' m s c Hn. specialize (I (S n) r' m s c Hn). rewrite Nat.add_succ_r in I. exact I. }
    { exact Ls'. } { exact Hst'. } { rewrite offset_S, Hy, Hz. ring. } { intros n r' Hn. specialize (Hne (S n) r' Hn). rewrite Nat.add_succ_r in Hne. exact Hne. }
    destruct (layout_rows e rs (S i) starts' x0 (y + (size + e_sy e))) as [more z]. cbn [fst snd] in *. split; [|exact IH2].
    intros b Hb. apply in_app_or in Hb as [Hb|Hb].
    + assert (exists p x', In p (shown_from i 0 r) /\ b = layout_cell e starts' (fst p) (snd p) (s_x (fst p)) x' /\ x' == x0 + e_sx e + offset (e_sx e) (e_cols e) (s_x (fst p))) as (p & x' & Hp & -> & Hx).
      { clear - F Hb. induction F as [|p b' ps' bs' (x' & E & Hx) F IHF]; [destruct Hb|]. destruct Hb as [<-|Hb]; [exists p, x'; split; [now left|auto]|]. destruct (IHF Hb) as (q & u & Hq & K). exists q, u. split; [now right|exact K]. }
      destruct (Sh p Hp) as (A & B & C). exists p. split; [unfold shown; cbn [length seq combine flat_map]; apply in_or_app; now left|]. split; [reflexivity|]. cbn [layout_cell x_left x_top x_width x_height x_col x_row x_cell].
      split; [exact Hx|]. split; [apply Hst'; lia|]. split; reflexivity.
    + destruct (IH1 b Hb) as (p & Hp & K). exists p. split; [unfold shown; cbn [length seq combine flat_map]; apply in_or_app; now right|exact K].
Qed.

(** When in every row some cell ends, cells are where the columns and rows say: below the rows before
    them and after the columns before them, each with its space, as wide and high as the columns and
    rows they span with the space between. The table ends after its last row.

    Full statement: for all tables. Missing: rows in which no cell ends. *)
Theorem C77_cells_placed_partial : forall l e x0 y0, spans l ->
  exists g ps y, build l = Ok g /\ formed [] 0 (table_steps l) ps y /\
  (length (e_cols e) = width g -> length (e_rows e) = height g -> (forall k, 0 <= nth k (e_rows e) 0) -> apart ps ->
   (forall i, (i < height g)%nat -> exists p, In p ps /\ (p_y p + c_rows (p_cell p) = S i)%nat) ->
   (forall b, In b (fst (render e g x0 y0)) ->
      (In (mkP (x_cell b) (x_col b) (x_row b)) ps /\ (0 < c_cols (x_cell b) /\ 0 < c_rows (x_cell b))%nat) /\
      x_left b == x0 + e_sx e + qsum (map (fun c => c + e_sx e) (firstn (x_col b) (e_cols e))) /\
      x_top b == y0 + e_sy e + qsum (map (fun c => c + e_sy e) (firstn (x_row b) (e_rows e))) /\
      x_left b + x_width b + e_sx e == x0 + e_sx e + qsum (map (fun c => c + e_sx e) (firstn (x_col b + c_cols (x_cell b)) (e_cols e))) /\
      x_top b + x_height b + e_sy e == y0 + e_sy e + qsum (map (fun c => c + e_sy e) (firstn (x_row b + c_rows (x_cell b)) (e_rows e)))) /\
   snd (render e g x0 y0) == e_sy e + qsum (map (fun c => c + e_sy e) (e_rows e))).
Proof.
  intros l e x0 y0 Sp. destruct (table_slots l Sp) as (g & ps & y & E & F & M & Nd & Inj & Lh & Fits & G). exists g, ps, y. do 2 (split; [assumption|]). intros Lc Lr Pos Ap Full.
  pose proof (table_inside g ps G Fits) as I.
  assert (forall s v k, (k <= length v)%nat -> offset s v k == qsum (map (fun r => r + s) (firstn k v))) as Off.
  { intros s v k Hk. unfold offset. rewrite <- (map_map (fun i => nth i v 0) (fun r => r + s)). replace (firstn k v) with (firstn k (skipn 0 v)) by reflexivity. rewrite (window 0) by lia. reflexivity. }
  destruct (layout_rows_spec e x0 (y0 + e_sy e) (height g) Lr Pos (rows g) 0 (repeat 0 (height g)) (y0 + e_sy e)) as [B Z]; [exact Lh|exact I|apply repeat_length|intros k Hk; lia|change (offset (e_sy e) (e_rows e) 0) with 0; ring| |].
  { intros n r Hn. assert (n < height g)%nat as Hl by (rewrite <- Lh; apply nth_error_Some; congruence). destruct (Full n Hl) as (p & Hp & Ep). destruct (Fits p Hp) as (F1 & F2 & F3 & F4). destruct (G n r Hn) as [L H].
    assert (covers p (p_x p) n = true) as Cv by (apply covers_iff; unfold p_height; lia).
    assert (slot_of ps (p_x p) n = mkSlot (p_x p) (p_y p) (Some (p_cell p))) as Es.
    { unfold slot_of, owner. destruct (find (fun q => covers q (p_x p) n) ps) as [q|] eqn:Eq; [|pose proof (find_none _ _ Eq p Hp) as C; cbn beta in C; congruence]. apply find_some in Eq as [Hq Cq]. rewrite (Ap q p _ _ Hq Hp Cq Cv). reflexivity. }
    intros C. assert (In (mkSlot (p_x p) (p_y p) (Some (p_cell p)), p_cell p) (shown_from (0 + n) 0 r)) as Hin; [|rewrite C in Hin; destruct Hin].
    unfold shown_from. apply in_flat_map. exists (p_x p, slot_of ps (p_x p) n). split; [apply in_combine_seq; rewrite Nat.sub_0_r; split; [lia|apply H; lia]|]. unfold shown_slot. cbn [fst snd]. rewrite Es. cbn [s_box s_x]. rewrite Nat.eqb_refl.
    assert (is_bottom (mkSlot (p_x p) (p_y p) (Some (p_cell p))) (p_cell p) (0 + n) = true) as ->; [apply Nat.eqb_eq; cbn; lia|]. now left. }
  unfold render. destruct (layout_rows e (rows g) 0 (repeat 0 (height g)) x0 (y0 + e_sy e)) as [bs z]. cbn [fst snd] in *. split.
  - intros b Hb. destruct (B b Hb) as ([s c] & Hp & K & B1 & B2 & B3 & B4). apply shown_in in Hp as (n & r & m & Hr & Hm & Hbx & Hx & _). cbn [Nat.add] in *.
    destruct (G n r Hr) as [L H]. assert (m < width g)%nat as Hw by (rewrite <- L; apply nth_error_Some; congruence). rewrite (H m Hw) in Hm. injection Hm as <-. destruct (slot_box ps m n c Hbx) as (q & Hq & Cv & Es & Ow).
    rewrite Es in Hbx, K. cbn in Hbx. injection Hbx as <-. unfold key, slot_key in K. cbn [fst snd s_x s_y] in K. injection K as K1 K2 K3. destruct (Fits q Hq) as (F1 & F2 & F3 & F4). rewrite K1, K2, K3 in *.
    split; [split; [destruct q; exact Hq|lia]|]. rewrite <- !Off by lia. split; [exact B1|]. split; [exact B2|].
    assert (forall n, (0 < n)%nat -> inject_Z (Z.of_nat n - 1) == inject_Z (Z.of_nat n) - 1) as Sub by (intros n' _; unfold Z.sub; rewrite inject_Z_plus; reflexivity).
    rewrite !offset_add, B3, B4, B1, B2, !query_sum, !Sub by lia. split; ring.
  - rewrite Z. rewrite Off by lia. rewrite <- Lr, firstn_all. ring.
Qed.
Print Assumptions C77_cells_placed_partial.

Lemma sum_prefix_le s v : 0 <= s -> (forall k, 0 <= nth k v 0) -> forall a b, (a <= b)%nat -> qsum (map (fun c => c + s) (firstn a v)) <= qsum (map (fun c => c + s) (firstn b v)).
Proof.
  intros Hs. induction v as [|x v IH]; intros Hv a b Hab; [rewrite !firstn_nil; apply Qle_refl|].
  assert (forall k, 0 <= nth k v 0) as Hv' by (intros k; exact (Hv (S k))). pose proof (Hv 0%nat) as H0. cbn in H0.
  destruct b as [|b]; [assert (a = 0%nat) as -> by lia; apply Qle_refl|]. cbn [firstn map]. change (qsum (?h :: ?t)) with (h + qsum t).
  destruct a as [|a].
  - cbn [firstn map]. specialize (IH Hv' 0%nat b ltac:(lia)). cbn [firstn map] in IH. change (qsum []) with 0 in *. lra.
  - cbn [firstn map]. change (qsum (?h :: ?t)) with (h + qsum t). specialize (IH Hv' a b ltac:(lia)). lra.
Qed.
(** With the same conditions no two cells overlap: one ends, with the space after it, before the
    other starts. *)
Theorem C77_no_overlap_partial : forall l e x0 y0, spans l ->
  exists g ps y, build l = Ok g /\ formed [] 0 (table_steps l) ps y /\
  (length (e_cols e) = width g -> length (e_rows e) = height g -> (forall k, 0 <= nth k (e_cols e) 0) -> (forall k, 0 <= nth k (e_rows e) 0) -> 0 <= e_sx e -> 0 <= e_sy e -> apart ps ->
   (forall i, (i < height g)%nat -> exists p, In p ps /\ (p_y p + c_rows (p_cell p) = S i)%nat) ->
   forall b1 b2, In b1 (fst (render e g x0 y0)) -> In b2 (fst (render e g x0 y0)) ->
     key b1 = key b2 \/
     x_left b1 + x_width b1 + e_sx e <= x_left b2 \/ x_left b2 + x_width b2 + e_sx e <= x_left b1 \/
     x_top b1 + x_height b1 + e_sy e <= x_top b2 \/ x_top b2 + x_height b2 + e_sy e <= x_top b1).
Proof.
  intros l e x0 y0 Sp. destruct (C77_cells_placed_partial l e x0 y0 Sp) as (g & ps & y & E & F & C). exists g, ps, y. do 2 (split; [assumption|]). intros Lc Lr Pc Pr Sx Sy Ap Full b1 b2 H1 H2.
  destruct (C Lc Lr Pr Ap Full) as [B _]. destruct (B b1 H1) as ((P1 & N1 & M1) & L1 & T1 & R1 & D1). destruct (B b2 H2) as ((P2 & N2 & M2) & L2 & T2 & R2 & D2).
  set (p1 := mkP (x_cell b1) (x_col b1) (x_row b1)) in *. set (p2 := mkP (x_cell b2) (x_col b2) (x_row b2)) in *.
  destruct (le_lt_dec (x_col b1 + c_cols (x_cell b1)) (x_col b2)) as [A|A]; [right; left; rewrite R1, L2; apply Qplus_le_r; apply sum_prefix_le; assumption|].
  destruct (le_lt_dec (x_col b2 + c_cols (x_cell b2)) (x_col b1)) as [A'|A']; [right; right; left; rewrite R2, L1; apply Qplus_le_r; apply sum_prefix_le; assumption|].
  destruct (le_lt_dec (x_row b1 + c_rows (x_cell b1)) (x_row b2)) as [A1|A1]; [right; right; right; left; rewrite D1, T2; apply Qplus_le_r; apply sum_prefix_le; assumption|].
  destruct (le_lt_dec (x_row b2 + c_rows (x_cell b2)) (x_row b1)) as [A2|A2]; [right; right; right; right; rewrite D2, T1; apply Qplus_le_r; apply sum_prefix_le; assumption|].
  left. assert (p1 = p2) as Ep.
  { apply (Ap p1 p2 (max (x_col b1) (x_col b2)) (max (x_row b1) (x_row b2)) P1 P2); apply covers_iff; unfold p_height; subst p1 p2; cbn [p_x p_y p_cell]; lia. }
  subst p1 p2. injection Ep as E1 E2 E3. unfold key. congruence.
Qed.
Print Assumptions C77_no_overlap_partial.
Example C77_sample : spans spanned /\ (forall i, (i < 3)%nat -> exists c y, In (c, y) [(mkCell 1 1 1, 0%nat); (mkCell 2 2 1, 0%nat); (mkCell 4 1 2, 2%nat)] /\ (y + c_rows c = S i)%nat).
Proof.
  split; [split; vm_compute; repeat constructor|]. intros [|[|[|i]]] H; [exists (mkCell 1 1 1), 0%nat|exists (mkCell 2 2 1), 0%nat|exists (mkCell 4 1 2), 2%nat|lia]; cbn; auto.
Qed.

(** In the first row only a cell of two rows starts: the second row starts as if the first were
    empty, and its cell 2 is 40 too high. A row without cells takes no space, whatever its height. *)
Theorem C77_cells_placed_refuted :
  boxes_of [BODY (mkGroup 1 [tr 2 [Some (mkCell 1 2 1)]; tr 3 [one 2]])] [10; 20] [40; 40] 0 0 = Ok ([(1%nat, (0, 0, 10, 80)); (2%nat, (10, 0, 20, 40))], 80) /\
  boxes_of [BODY (mkGroup 1 [tr 2 []; tr 3 [one 2]])] [10] [40; 40] 0 0 = Ok ([(2%nat, (0, 0, 10, 40))], 40).
Proof. split; vm_compute; reflexivity. Qed.
Print Assumptions C77_cells_placed_refuted.
