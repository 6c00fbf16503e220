(** C30: the grid of a table. *)
From Coq Require Import List Arith Bool Lia Sorted.
From Verif.Base Require Import Outcome.
From Verif.Table Require Import GridModel GridSpec GridProofs.
Import ListNotations.

(** No row yet. *)
Definition fresh (w : nat) (g : grid) : Prop :=
  rows g = [] /\ height g = 0 /\ width g = w /\ cur_x g = 0 /\ cur_y g = 0 /\ down g = [] /\ trs g = [] /\ row_groups g = [] /\ header_rows g = 0 /\ footer_rows g = 0.
Lemma fresh_st w g : fresh w g -> st w g [].
Proof.
  intros (A & B & C & D & E & F & _). exists (fun x y => mkSlot x y None). rewrite B, C, E. repeat split; try (intros; contradiction).
  - rewrite A, B. reflexivity.
  - intros r. rewrite A. intros [].
  - intros x y _ H. lia.
  - lia.
  - rewrite F. constructor.
  - constructor.
  - exact F.
Qed.
Lemma fresh_width w g n : fresh w g -> fresh (w + n) (increase_width n g).
Proof. intros (A & B & C & D). unfold fresh, increase_width. cbn. rewrite A, B, C. repeat split; apply D. Qed.
Lemma fresh_columns : forall l w g, fresh w g -> fresh (w + fold_right (fun c n => snd c + n) 0 (catOptions l)) (columns l g).
Proof.
  induction l as [|[[id sp]|] l IH]; intros w g F; cbn [columns].
  - cbn. now rewrite Nat.add_0_r.
  - rewrite catOptions_cons. cbn [fold_right snd]. rewrite Nat.add_assoc. apply IH.
    pose proof (fresh_width w g sp F) as (A & B & C & D). repeat split; try apply D; assumption.
  - apply IH, F.
Qed.
Lemma has_catOptions l : has_column l = match catOptions l with [] => false | _ => true end.
Proof. induction l as [|[[a b]|] l IH]; cbn; [reflexivity|reflexivity|exact IH]. Qed.
Lemma fresh_group w g id span l : fresh w g -> fresh (w + declared_columns (COLGROUP id span l)) (column_group id span l g).
Proof.
  intros F. unfold column_group, declared_columns. rewrite has_catOptions. destruct (catOptions l) eqn:E.
  - destruct (fresh_width w g span F) as (A & B & C & D). repeat split; try apply D; assumption.
  - rewrite <- E. destruct (fresh_columns l w g F) as (A & B & C & D). repeat split; try apply D; assumption.
Qed.
Lemma column_groups_spec : forall l w g, fresh w g ->
  exists g' l', column_groups l g = (g', l') /\ fresh (w + table_columns l) g' /\
    (forall seen, body_steps seen l' = body_steps seen l) /\ table_footers l' = table_footers l /\ (Forall positive_child l -> Forall positive_child l').
Proof.
  induction l as [|c l IH]; intros w g F; [exists g, []; unfold table_columns; cbn; rewrite Nat.add_0_r; auto|].
  destruct c as [id span cs|r|t|t|t|]; cbn [column_groups].
  - destruct (IH _ _ (fresh_group w g id span cs F)) as (g' & l' & -> & F' & B & Ft & P). exists g', l'. split; [reflexivity|].
    split; [unfold table_columns in *; cbn [leading fold_right]; rewrite Nat.add_assoc; exact F'|]. split; [exact B|]. split; [exact Ft|].
    intros H. inversion H; subst. auto.
  - exists g. eexists. split; [reflexivity|]. unfold table_columns. cbn [leading fold_right]. rewrite Nat.add_0_r. auto.
  - exists g. eexists. split; [reflexivity|]. unfold table_columns. cbn [leading fold_right]. rewrite Nat.add_0_r. auto.
  - exists g. eexists. split; [reflexivity|]. unfold table_columns. cbn [leading fold_right]. rewrite Nat.add_0_r. auto.
  - exists g. eexists. split; [reflexivity|]. unfold table_columns. cbn [leading fold_right]. rewrite Nat.add_0_r. auto.
  - destruct (IH _ _ F) as (g' & l' & -> & F' & B & Ft & P). exists g', l'. split; [reflexivity|]. split; [exact F'|]. split; [exact B|]. split; [exact Ft|].
    intros H. inversion H; subst. auto.
Qed.
Lemma find_header_spec l : find_header l = first_header l.
Proof. unfold first_header. induction l as [|c l IH]; [reflexivity|]. destruct c; cbn; try exact IH. reflexivity. Qed.
Lemma find_header_positive l t : find_header l = Some t -> Forall positive_child l -> positive_group t.
Proof. induction l as [|c l IH]; [discriminate|]. intros E H. inversion H; subst. destruct c; cbn in E; auto. injection E as <-. assumption. Qed.
Lemma footers_positive l : Forall positive_child l -> Forall positive_group (table_footers l).
Proof. induction 1 as [|c l H1 H2 IH]; [constructor|]. destruct c; cbn; auto. Qed.
Lemma empty_steps l : body_steps false [] = body_steps false l -> first_header l = None.
Proof.
  unfold first_header. intros H. symmetry in H. cbn in H. induction l as [|c l IH]; [reflexivity|]. destruct c; cbn in H |- *; try discriminate; auto.
Qed.

(** The table after it was formed. *)
Lemma build_inv l : Forall positive_child l ->
  exists g ps, build l = Ok g /\ st (table_columns l) g ps /\ map p_cell ps = rev (cells_of (table_steps l)) /\
    (forallb finite_span ps = true -> formed [] 0 (table_steps l) ps (cur_y g)).
Proof.
  intros Hp. unfold build. destruct (column_groups_spec l 0 empty) as (g0 & l' & -> & F & B & Ft & P).
  { repeat split. }
  cbn [Nat.add] in F. specialize (P Hp).
  destruct l' as [|c0 l0] eqn:El.
  - exists g0, []. split; [reflexivity|]. split; [now apply fresh_st|]. unfold table_steps. rewrite (empty_steps l (B false)), <- Ft, <- B. cbn. split; [reflexivity|].
    intros _. destruct F as (_ & _ & _ & _ & -> & _). constructor.
  - rewrite <- El in *. clear El c0 l0.
    set (g1 := with_cur g0 (cur_x g0) 0).
    assert (fresh (table_columns l) g1) as F1 by (destruct F as (A1 & A2 & A3 & A4 & A5 & A6); repeat split; try apply A6; assumption).
    assert (exists g2 n, (match find_header l with
           | Some t => obind (process_group t g1) (fun g => Ok (with_counts g (height g) (footer_rows g)))
           | None => Ok g1
           end) = Ok g2 /\ st (table_columns l) g2 n /\ map p_cell n = rev (cells_of (match first_header l with Some t => group_steps t | None => [] end)) /\
           (forallb finite_span n = true -> formed [] 0 (match first_header l with Some t => group_steps t | None => [] end) n (cur_y g2))) as (g2 & n & -> & S2 & M2 & Sp2).
    { rewrite <- find_header_spec. pose proof (fresh_st _ _ F1) as S1. destruct (find_header l) as [t|] eqn:E.
      - destruct (process_group_inv _ t g1 [] S1 (find_header_positive _ _ E Hp)) as (g2 & n & -> & S2 & Y2 & L2 & M2 & C2 & Sp2). cbn [obind].
        eexists. exists n. split; [reflexivity|]. rewrite app_nil_r in *. split; [|split; [exact M2|exact Sp2]].
        destruct S2 as (f & [A1 A2 A3 A4 A5 A6 A7 A8] & Hb & Hw). exists f. cbn. split; [|split; assumption]. constructor; cbn; try assumption. destruct A1; constructor; assumption.
      - exists g1, []. split; [reflexivity|]. split; [exact S1|]. split; [reflexivity|]. intros _. constructor. }
    cbn [obind]. destruct (body_inv _ l' false g2 n S2 P) as (g3 & n3 & -> & S3 & C3 & M3 & Sp3). cbn [obind].
    destruct (footers_inv _ (table_footers l') g3 _ S3 (footers_positive _ P)) as (g4 & n4 & -> & S4 & C4 & M4 & Sp4). cbn [obind].
    eexists. exists (n4 ++ n3 ++ n). split; [reflexivity|]. split.
    { destruct S4 as (f & [A1 A2 A3 A4 A5 A6 A7 A8] & Hb & Hw). exists f. cbn. split; [|split; assumption]. constructor; cbn; try assumption. destruct A1; constructor; assumption. }
    unfold table_steps. rewrite <- (B false), <- Ft. split.
    + rewrite !map_app, M2, M3, M4, !cells_app, !rev_app_distr, app_assoc. reflexivity.
    + intros Hz. cbn [with_counts cur_y]. pose proof (finite_app_r _ _ Hz) as Hz1. pose proof (finite_app_r _ _ Hz1) as Hz2.
      eapply formed_app; [exact (Sp2 Hz2)|]. eapply formed_app; [exact (Sp3 Hz1)|exact (Sp4 Hz)].
Qed.

(** ** C30: no cell is lost, and the grid is formed without crash.

    For all tables, whatever the row spans: the grid is rectangular; every cell of the table has a
    first slot, that holds it; these are in the order of the table, from top to bottom and from left
    to right, without overlap in a row; every cell is inside the grid. *)
Theorem C30_cells_kept : forall l, Forall positive_child l ->
  exists g ps, build l = Ok g /\
    (length (rows g) = height g /\ forall r, In r (rows g) -> length r = width g) /\
    map p_cell ps = cells_of (table_steps l) /\ StronglySorted before ps /\
    forall p, In p ps -> at_ g (p_x p) (p_y p) = Ok (mkSlot (p_x p) (p_y p) (Some (p_cell p))) /\
      p_x p + c_cols (p_cell p) <= width g /\ p_y p + p_height p <= height g.
Proof.
  intros l Hp. destruct (build_inv l Hp) as (g & ps & E & (f & I & Hb & Hw) & M & _). exists g, (rev ps). split; [exact E|].
  pose proof (i_rep _ _ _ _ I) as R. split; [split; [exact (rep_h _ _ R)|exact (rep_w _ _ R)]|].
  split; [rewrite map_rev, M, rev_involutive; reflexivity|]. split.
  - pose proof (i_sorted _ _ _ _ I) as Hs. clear - Hs. induction Hs as [|p ps Hs IH HF]; [constructor|]. cbn [rev].
    assert (forall a b, StronglySorted before a -> (forall x, In x a -> before x b) -> StronglySorted before (a ++ [b])) as App.
    { induction a as [|x a IHa]; intros b Ha Hb; cbn; [constructor; constructor|]. inversion Ha; subst. constructor.
      - apply IHa; [assumption|]. intros y Hy. apply Hb. now right.
      - apply Forall_app. split; [assumption|]. constructor; [apply Hb; now left|constructor]. }
    apply App; [exact IH|]. intros x Hx. apply in_rev in Hx. rewrite Forall_forall in HF. exact (HF x Hx).
  - intros p Hx. apply in_rev in Hx. destruct (i_fits _ _ _ _ I p Hx) as (F1 & F2 & F3).
    split; [|split; [exact F1|exact F2]]. rewrite (at_rep g f); [|exact R|lia|unfold p_height in F2; lia]. now rewrite (i_anchor _ _ _ _ I p Hx).
Qed.
Print Assumptions C30_cells_kept.

(** The grid is that of the HTML standard: cells are put in the first free column of their row, and
    a slot belongs to the last cell that covers it.

    Full statement: for all tables. Missing: cells with a row span of 0, see the refutation. *)
Theorem C30_grid_partial : forall l, Forall positive_child l -> Forall (fun c => 0 < c_rows c) (cells_of (table_steps l)) ->
  exists g ps y, build l = Ok g /\ formed [] 0 (table_steps l) ps y /\
    height g = bottom ps y /\ width g = fold_right (fun p => Nat.max (p_x p + c_cols (p_cell p))) (table_columns l) ps /\
    forall i j, i < width g -> j < height g ->
      at_ g i j = Ok (match owner ps i j with Some p => mkSlot (p_x p) (p_y p) (Some (p_cell p)) | None => mkSlot i j None end).
Proof.
  intros l Hp Hz. destruct (build_inv l Hp) as (g & ps & E & (f & I & Hb & Hw) & M & Sp). exists g, ps, (cur_y g).
  assert (forallb finite_span ps = true) as Hf.
  { apply forallb_forall. intros p Hin. assert (In (p_cell p) (cells_of (table_steps l))) as Hc.
    { apply in_rev. rewrite <- M. now apply in_map. }
    rewrite Forall_forall in Hz. specialize (Hz _ Hc). unfold finite_span. destruct (Nat.eqb_spec (c_rows (p_cell p)) 0); [lia|reflexivity]. }
  split; [exact E|]. split; [exact (Sp Hf)|]. split; [exact Hb|]. split; [exact Hw|]. intros i j Hi Hj.
  rewrite (at_rep g f i j (i_rep _ _ _ _ I) Hi Hj). destruct (i_exact _ _ _ _ I Hf) as [_ X]. rewrite X. reflexivity.
Qed.
Print Assumptions C30_grid_partial.

Definition one (id : nat) : option cell := Some (mkCell id 1 1).
Definition tr (id : nat) (cs : list (option cell)) : option row := Some (mkRow id cs).
Definition ids (g : outcome grid) : outcome (list (list nat)) :=
  match g with Ok g => Ok (map (map (fun s => match s_box s with Some c => c_id c | None => 0 end)) (rows g)) | Panic => Panic | OutOfFuel => OutOfFuel end.
(** A footer before the body, spans in both directions, an overlap (cell 6 over cell 3). *)
Definition sample_table : list child :=
  [OTHER; COLGROUP 100 5 []; FOOT (mkGroup 101 [tr 102 [one 9]]);
   BODY (mkGroup 103 [tr 104 [one 1; Some (mkCell 2 1 2); Some (mkCell 3 2 1)]; tr 105 [one 4; None; one 5; Some (mkCell 6 1 2)]]);
   HEAD (mkGroup 106 [tr 107 [Some (mkCell 7 1 2); one 8]])].
Example C30_sample : Forall positive_child sample_table /\ Forall (fun c => 0 < c_rows c) (cells_of (table_steps sample_table)) /\
  ids (build sample_table) = Ok [[7; 7; 8; 0; 0]; [1; 2; 2; 3; 0]; [4; 5; 6; 6; 0]; [9; 0; 0; 0; 0]].
Proof.
  split; [|split; [|vm_compute; reflexivity]].
  - repeat constructor.
  - vm_compute. repeat constructor.
Qed.

(** A cell with a row span of 0 reaches to the end of its row group. It reaches into the next one
    when it is the last row of the group that it starts in, and, when the group is longer because of
    another span, it ends after one row. *)
Theorem C30_grid_refuted :
  ids (build [BODY (mkGroup 1 [tr 2 [Some (mkCell 1 0 1); one 2]]); BODY (mkGroup 3 [tr 4 [one 3; one 4]])]) = Ok [[1; 2; 0]; [1; 3; 4]] /\
  ids (build [BODY (mkGroup 1 [tr 2 [Some (mkCell 1 0 1); Some (mkCell 2 3 1)]])]) = Ok [[1; 2]; [1; 2]; [0; 2]].
Proof. split; vm_compute; reflexivity. Qed.
Print Assumptions C30_grid_refuted.
