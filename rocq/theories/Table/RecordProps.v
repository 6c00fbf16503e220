(** C69: the rows and the columns of the grid that the elements of a table stand for. *)
From Coq Require Import List Arith Bool Lia.
From Verif.Base Require Import Outcome.
From Verif.Table Require Import GridModel GridSpec GridProofs GridProps.
Import ListNotations.

(** The rows of a table from top to bottom: a row outside of a group, or a group of rows. *)
Inductive item := BARE | GROUP (id : nat) (rows : list nat).
Definition group_item (t : group) : item := GROUP (gr_id t) (map r_id (catOptions (gr_rows t))).
Fixpoint body_items (seen : bool) (l : list child) : list item :=
  match l with
  | [] => []
  | ROW _ :: l' => BARE :: body_items seen l'
  | HEAD t :: l' => (if seen then [group_item t] else []) ++ body_items true l'
  | BODY t :: l' => group_item t :: body_items seen l'
  | _ :: l' => body_items seen l'
  end.
Definition table_items (l : list child) : list item :=
  match first_header l with Some t => [group_item t] | None => [] end ++ body_items false l ++ map group_item (table_footers l).
(** Each row is one row of the grid. *)
Definition item_rows (i : item) : nat := match i with BARE => 1 | GROUP _ r => length r end.
Fixpoint row_records (y : nat) (l : list item) : list axis :=
  match l with
  | [] => []
  | i :: l' => match i with BARE => [] | GROUP _ r => map (fun '(k, id) => mkAxis (y + k) (y + k) id) (combine (seq 0 (length r)) r) end ++ row_records (y + item_rows i) l'
  end.
Fixpoint group_records (y : nat) (l : list item) : list axis :=
  match l with
  | [] => []
  | i :: l' => match i with GROUP id ((_ :: _) as r) => [mkAxis y (y + length r - 1) id] | _ => [] end ++ group_records (y + item_rows i) l'
  end.

Definition flat_row (r : row) : Prop := Forall (fun c => 0 < c_cols c /\ c_rows c = 1) (catOptions (r_cells r)).
Definition flat_group (t : group) : Prop := Forall flat_row (catOptions (gr_rows t)).
Definition flat_child (c : child) : Prop :=
  match c with ROW r => flat_row r | HEAD t | BODY t | FOOT t => flat_group t | _ => True end.

Definition flat (w0 : nat) (g : grid) : Prop := exists ps, st w0 g ps /\ forall p, In p ps -> c_rows (p_cell p) = 1.
Lemma flat_height w0 g : flat w0 g -> height g = cur_y g.
Proof.
  intros (ps & (f & I & Hb & _) & H1). rewrite Hb. assert (forall p, In p ps -> p_y p < cur_y g) as Hy by (intros p Hp; exact (inv_zero _ _ _ _ I Hp)).
  clear - H1 Hy. induction ps as [|p ps IH]; [reflexivity|]. rewrite bottom_cons. rewrite IH; [|intros; apply H1; now right|intros; apply Hy; now right].
  pose proof (Hy p (or_introl eq_refl)). unfold p_height. rewrite (H1 p (or_introl eq_refl)). lia.
Qed.
Lemma flat_pos r : flat_row r -> positive_row r.
Proof. unfold flat_row, positive_row. intros H. eapply Forall_impl; [|exact H]. intros c [A _]. exact A. Qed.
Lemma flat_st w0 g ps new cs : st w0 g (new ++ ps) -> map p_cell new = rev cs -> Forall (fun c => 0 < c_cols c /\ c_rows c = 1) cs ->
  (forall p, In p ps -> c_rows (p_cell p) = 1) -> flat w0 g.
Proof.
  intros S M H1 H2. exists (new ++ ps). split; [exact S|]. intros p Hp. apply in_app_iff in Hp as [Hp|Hp]; [|exact (H2 p Hp)].
  rewrite Forall_forall in H1. apply H1, in_rev. rewrite <- M. now apply in_map.
Qed.
Lemma flat_process_row w0 r g : flat w0 g -> flat_row r ->
  exists g', process_row r g = Ok g' /\ flat w0 g' /\ cur_y g' = S (cur_y g) /\ height g' = S (height g) /\ same_columns g g' /\ same_records g g'.
Proof.
  intros F Hr. pose proof (flat_height _ _ F) as Hh. destruct F as (ps & S & H1). destruct (process_row_inv w0 r g ps S (flat_pos r Hr)) as (g' & new & E & S' & Y & M & _ & C & R & _).
  assert (flat w0 g') as F' by (eapply flat_st; eauto).
  exists g'. split; [exact E|]. split; [exact F'|]. split; [exact Y|]. pose proof (flat_height _ _ F'). split; [lia|]. split; [exact C|exact R].
Qed.
Lemma flat_same w0 g g' : flat w0 g -> rows g' = rows g -> width g' = width g -> height g' = height g -> cur_y g' = cur_y g -> down g' = down g -> flat w0 g'.
Proof.
  intros (ps & (f & [A B C D E F G H] & Hb & Hw) & H1) E1 E2 E3 E4 E5. exists ps. split; [|exact H1]. exists f. rewrite E2, E3, E4. split; [|split; assumption].
  constructor; rewrite ?E4, ?E5, ?E3, ?E2; try assumption.
  - destruct A; constructor; rewrite ?E1, ?E2, ?E3; assumption.
  - eapply Forall_impl; [|exact C]. unfold grow_ok. intros d. now rewrite E2, E3.
Qed.
Lemma records_cons y id ids : map (fun '(k, id) => mkAxis (y + k) (y + k) id) (combine (seq 0 (length (id :: ids))) (id :: ids)) =
  mkAxis y y id :: map (fun '(k, id) => mkAxis (S y + k) (S y + k) id) (combine (seq 0 (length ids)) ids).
Proof.
  cbn [length seq combine map]. rewrite Nat.add_0_r. f_equal. rewrite <- seq_shift. generalize (length ids). intros n. generalize 0.
  revert ids. induction n as [|n IH]; intros [|i ids] s; cbn; try reflexivity. f_equal; [f_equal; lia|]. apply IH.
Qed.
Lemma flat_group_rows w0 : forall rs g, flat w0 g -> Forall flat_row (catOptions rs) ->
  exists g', group_rows rs g = Ok g' /\ flat w0 g' /\ cur_y g' = cur_y g + length (catOptions rs) /\ same_columns g g' /\ row_groups g' = row_groups g /\
    trs g' = trs g ++ row_records (cur_y g) [GROUP 0 (map r_id (catOptions rs))].
Proof.
  induction rs as [|[r|] rs IH]; intros g F Hr.
  - exists g. cbn. rewrite app_nil_r. repeat split; auto.
  - rewrite catOptions_cons in *. inversion Hr as [|? ? Hr1 Hr2]; subst. cbn [group_rows]. cbv zeta. pose proof (flat_height _ _ F) as Hh.
    destruct (flat_process_row w0 r g F Hr1) as (g1 & -> & F1 & Y1 & H1 & C1 & R1 & R1'). cbn [obind].
    destruct (IH (with_trs g1 (trs g1 ++ [mkAxis (height g) (height g1 - 1) (r_id r)]))) as (g2 & -> & F2 & Y2 & C2 & G2 & T2); [|exact Hr2|].
    { eapply flat_same; [exact F1|reflexivity..]. }
    exists g2. split; [reflexivity|]. split; [exact F2|]. cbn [with_trs cur_y row_groups trs] in *. split; [cbn [length]; lia|]. split; [unfold same_columns in *; cbn in *; intuition congruence|].
    split; [congruence|]. rewrite T2, R1, <- app_assoc. f_equal. cbn [map row_records]. rewrite records_cons. cbn [app]. f_equal; [f_equal; lia|]. now rewrite Y1.
  - destruct (IH g F Hr) as (g2 & E & K). exists g2. split; [exact E|exact K].
Qed.
Lemma flat_end w0 g : flat w0 g -> end_row_group (height g - cur_y g) g = Ok g.
Proof. intros F. rewrite (flat_height _ _ F), Nat.sub_diag. reflexivity. Qed.
Lemma flat_process_group w0 t g : flat w0 g -> flat_group t ->
  exists g', process_group t g = Ok g' /\ flat w0 g' /\ cur_y g' = cur_y g + item_rows (group_item t) /\ same_columns g g' /\
    trs g' = trs g ++ row_records (cur_y g) [group_item t] /\ row_groups g' = row_groups g ++ group_records (cur_y g) [group_item t].
Proof.
  intros F Ht. unfold process_group. cbv zeta. destruct (flat_group_rows w0 (gr_rows t) g F Ht) as (g1 & -> & F1 & Y1 & C1 & G1 & T1). cbn [obind].
  pose proof (flat_height _ _ F) as Hh. pose proof (flat_height _ _ F1) as Hh1. cbn [group_item item_rows]. rewrite map_length.
  destruct (Nat.ltb_spec (height g) (height g1)) as [L|L].
  - set (g2 := with_row_groups g1 _). assert (flat w0 g2) as F2 by (eapply flat_same; [exact F1|reflexivity..]). rewrite (flat_end _ _ F2). exists g2. split; [reflexivity|]. split; [exact F2|].
    cbn [g2 with_row_groups cur_y trs row_groups]. split; [exact Y1|]. split; [exact C1|]. split; [exact T1|]. rewrite G1. f_equal. cbn [group_records group_item].
    destruct (catOptions (gr_rows t)) as [|r rs] eqn:E; [cbn in Y1; lia|]. cbn [map app]. do 2 f_equal; [exact Hh|]. cbn [length] in *. rewrite map_length.
lia.
  - rewrite (flat_end _ _ F1). exists g1. split; [reflexivity|]. split; [exact F1|]. split; [exact Y1|]. split; [exact C1|]. split; [exact T1|]. rewrite G1. cbn [group_records group_item].
    destruct (catOptions (gr_rows t)) as [|r rs] eqn:E; [cbn; now rewrite app_nil_r|cbn in Y1; lia].
Qed.
Lemma row_records_app a b : forall y, row_records y (a ++ b) = row_records y a ++ row_records (y + fold_right (fun i n => item_rows i + n) 0 a) b.
Proof.
  induction a as [|i a IH]; intros y; cbn [app row_records fold_right]; [now rewrite Nat.add_0_r|]. rewrite IH, <- app_assoc, <- Nat.add_assoc. reflexivity.
Qed.
Lemma group_records_app a b : forall y, group_records y (a ++ b) = group_records y a ++ group_records (y + fold_right (fun i n => item_rows i + n) 0 a) b.
Proof.
  induction a as [|i a IH]; intros y; cbn [app group_records fold_right]; [now rewrite Nat.add_0_r|]. rewrite IH, <- app_assoc, <- Nat.add_assoc. reflexivity.
Qed.
(** What a step of the algorithm adds. *)
Definition adds (w0 : nat) (g : grid) (l : list item) (g' : grid) : Prop :=
  flat w0 g' /\ cur_y g' = cur_y g + fold_right (fun i n => item_rows i + n) 0 l /\ same_columns g g' /\
  trs g' = trs g ++ row_records (cur_y g) l /\ row_groups g' = row_groups g ++ group_records (cur_y g) l.
Lemma adds_nil w0 g : flat w0 g -> adds w0 g [] g.
Proof. intros F. split; [exact F|]. cbn. rewrite !app_nil_r, Nat.add_0_r. repeat split. Qed.
Lemma adds_app w0 g a g1 b g2 : adds w0 g a g1 -> adds w0 g1 b g2 -> adds w0 g (a ++ b) g2.
Proof.
  intros (F1 & Y1 & C1 & T1 & G1) (F2 & Y2 & C2 & T2 & G2). split; [exact F2|]. split.
  { rewrite Y2, Y1. clear. induction a; cbn in *; lia. }
  split; [unfold same_columns in *; intuition congruence|]. split.
  - rewrite T2, T1, Y1, row_records_app, app_assoc. reflexivity.
  - rewrite G2, G1, Y1, group_records_app, app_assoc. reflexivity.
Qed.
Lemma adds_group w0 t g : flat w0 g -> flat_group t -> exists g', process_group t g = Ok g' /\ adds w0 g [group_item t] g'.
Proof.
  intros F Ht. destruct (flat_process_group w0 t g F Ht) as (g' & E & F' & Y & C & T & G). exists g'. split; [exact E|]. split; [exact F'|]. cbn [fold_right]. rewrite Nat.add_0_r. auto.
Qed.
Lemma flat_body w0 : forall l seen g, flat w0 g -> Forall flat_child l ->
  exists g', body seen l g = Ok (g', table_footers l) /\ adds w0 g (body_items seen l) g'.
Proof.
  induction l as [|c l IH]; intros seen g F Hp; [exists g; split; [reflexivity|now apply adds_nil]|].
  inversion Hp as [|? ? Hp1 Hp2]; subst. assert (forall t seen', flat_group t -> exists g', obind (process_group t g) (body seen' l) = Ok (g', table_footers l) /\ adds w0 g (group_item t :: body_items seen' l) g') as Grp.
  { intros t seen' Ht. destruct (adds_group w0 t g F Ht) as (g1 & -> & A1). cbn [obind]. destruct (IH seen' g1 (proj1 A1) Hp2) as (g2 & -> & A2). exists g2. split; [reflexivity|]. exact (adds_app _ _ [_] _ _ _ A1 A2). }
  destruct c as [id span cs|r|t|t|t|]; cbn [body body_items table_footers flat_map flat_child] in *; fold (table_footers l).
  - apply IH; assumption.
  - destruct (flat_process_row w0 r g F Hp1) as (g1 & -> & F1 & Y1 & H1 & C1 & R1 & R1'). cbn [obind]. destruct (IH seen g1 F1 Hp2) as (g2 & -> & A2). exists g2. split; [reflexivity|].
    apply (adds_app w0 g [BARE] g1); [|exact A2]. split; [exact F1|]. cbn. rewrite !app_nil_r. repeat split; try apply C1; try assumption. lia.
  - rewrite (flat_end _ _ F). cbn [obind]. destruct seen; cbn [app]; [apply Grp, Hp1|]. apply IH; assumption.
  - rewrite (flat_end _ _ F). cbn [obind]. apply Grp, Hp1.
  - rewrite (flat_end _ _ F). cbn [obind]. destruct (IH seen g F Hp2) as (g2 & -> & A2). exists g2. split; [reflexivity|exact A2].
  - apply IH; assumption.
Qed.
Lemma flat_footers w0 : forall fs g, flat w0 g -> Forall flat_group fs -> exists g', footers fs g = Ok g' /\ adds w0 g (map group_item fs) g'.
Proof.
  induction fs as [|t fs IH]; intros g F Hp; [exists g; split; [reflexivity|now apply adds_nil]|]. inversion Hp; subst. cbn [footers map].
  destruct (adds_group w0 t g F) as (g1 & -> & A1); [assumption|]. cbn [obind]. destruct (IH g1 (proj1 A1)) as (g2 & -> & A2); [assumption|]. exists g2. split; [reflexivity|]. exact (adds_app _ _ [_] _ _ _ A1 A2).
Qed.

(** The columns that the leading column elements stand for: the columns one after the other, and
    their groups. *)
Fixpoint column_records (x : nat) (l : list (nat * nat)) : list axis :=
  match l with [] => [] | (id, span) :: r => mkAxis x (x + span - 1) id :: column_records (x + span) r end.
Definition leading_columns (l : list child) : list (nat * nat * list (nat * nat)) :=
  flat_map (fun c => match c with COLGROUP id span cs => [(id, span, catOptions cs)] | _ => [] end) (leading l).
Definition group_span (c : nat * nat * list (nat * nat)) : nat :=
  match c with (_, span, []) => span | (_, _, cs) => fold_right (fun c n => snd c + n) 0 cs end.
Fixpoint colgroup_records (x : nat) (l : list (nat * nat * list (nat * nat))) : list axis :=
  match l with [] => [] | c :: r => mkAxis x (x + group_span c - 1) (fst (fst c)) :: colgroup_records (x + group_span c) r end.
Fixpoint col_records (x : nat) (l : list (nat * nat * list (nat * nat))) : list axis :=
  match l with [] => [] | c :: r => column_records x (snd c) ++ col_records (x + group_span c) r end.

Lemma columns_records : forall l g,
  width (columns l g) = width g + fold_right (fun c n => snd c + n) 0 (catOptions l) /\
  cols (columns l g) = cols g ++ column_records (width g) (catOptions l) /\ col_groups (columns l g) = col_groups g /\ trs (columns l g) = trs g /\ row_groups (columns l g) = row_groups g.
Proof.
  induction l as [|[[id sp]|] l IH]; intros g; cbn [columns].
  - cbn. rewrite app_nil_r, Nat.add_0_r. auto.
  - rewrite catOptions_cons. cbv zeta. destruct (IH (with_cols (increase_width sp g) (cols (increase_width sp g) ++ [mkAxis (width (increase_width sp g) - sp) (width (increase_width sp g) - 1) id]))) as (A & B & C & D & E).
    rewrite A, B, C, D, E. cbn [with_cols increase_width with_rows width cols col_groups trs row_groups fold_right snd column_records]. split; [lia|]. split; [|auto].
    rewrite <- app_assoc. cbn [app]. repeat f_equal; lia.
  - apply IH.
Qed.
Lemma column_groups_records : forall l g, Forall (fun c => snd c <> []) (leading_columns l) ->
  cols (fst (column_groups l g)) = cols g ++ col_records (width g) (leading_columns l) /\
  col_groups (fst (column_groups l g)) = col_groups g ++ colgroup_records (width g) (leading_columns l) /\
  trs (fst (column_groups l g)) = trs g /\ row_groups (fst (column_groups l g)) = row_groups g.
Proof.
  induction l as [|c l IH]; intros g H; [cbn; rewrite !app_nil_r; auto|].
  destruct c as [id span cs|r|t|t|t|]; cbn [column_groups]; try (cbn; rewrite !app_nil_r; auto; fail).
  - unfold leading_columns in *. cbn [leading flat_map app] in *. inversion H as [|? ? H1 H2]; subst. cbn [snd] in H1.
    assert (col_groups (column_group id span cs g) = col_groups g ++ [mkAxis (width g) (width g + group_span (id, span, catOptions cs) - 1) id] /\
      cols (column_group id span cs g) = cols g ++ column_records (width g) (catOptions cs) /\ width (column_group id span cs g) = width g + group_span (id, span, catOptions cs) /\
      trs (column_group id span cs g) = trs g /\ row_groups (column_group id span cs g) = row_groups g) as (A & B & C & D & E).
    { unfold column_group. rewrite has_catOptions. destruct (columns_records cs g) as (A & B & C & D & E). destruct (catOptions cs) as [|c0 cl]; [congruence|].
      cbn [with_col_groups col_groups cols width trs row_groups group_span]. rewrite A, B, C, D, E. auto. }
    destruct (IH (column_group id span cs g) H2) as (P & Q & R & S). rewrite P, Q, R, S, A, B, C, D, E. cbn [col_records colgroup_records snd fst]. rewrite <- !app_assoc. auto.
  - apply IH. exact H.
Qed.

(** C69. Each row element in a group is the row of the grid that it is in the table (the first header
    first, the footers last), each group with rows is all of them; each column element is the columns
    it spans, each group is all of them.

    Full statement: for all tables. Missing: row spans other than 1, and groups without columns; see
    the refutations. *)
Theorem C69_records_partial : forall l, Forall flat_child l -> Forall (fun c => snd c <> []) (leading_columns l) ->
  exists g, build l = Ok g /\ trs g = row_records 0 (table_items l) /\ row_groups g = group_records 0 (table_items l) /\
    cols g = col_records 0 (leading_columns l) /\ col_groups g = colgroup_records 0 (leading_columns l).
Proof.
  intros l Hp Hcol. unfold build. destruct (column_groups_spec l 0 empty) as (g0 & l' & E0 & F & B & Ft & P); [repeat split|]. cbn [Nat.add] in F.
  destruct (column_groups_records l empty Hcol) as (K1 & K2 & K3 & K4). rewrite E0 in *. cbn [fst empty cols col_groups width trs row_groups app] in K1, K2, K3, K4.
  assert (Forall flat_child l') as Hp'.
  { clear - Hp E0. revert E0. generalize empty. induction l as [|c l IH]; intros g E; [cbn in E; injection E as _ <-; constructor|].
    inversion Hp; subst. destruct c; cbn in E; try (injection E as _ <-; exact Hp); eapply IH; eauto. }
  assert (body_items false l' = body_items false l) as Bi.
  { clear - E0. revert E0. generalize empty. induction l as [|c l IH]; intros g E; [cbn in E; injection E as _ <-; reflexivity|].
    destruct c; cbn in E; try (injection E as _ <-; reflexivity); eapply IH; eauto. }
  destruct l' as [|c0 l0] eqn:El.
  - exists g0. split; [reflexivity|]. unfold table_items. rewrite (empty_steps l (B false)), <- Ft, <- Bi. cbn. auto.
  - rewrite <- El in *. clear El c0 l0.
    set (g1 := with_cur g0 (cur_x g0) 0).
    assert (fresh (table_columns l) g1) as F1 by (destruct F as (A1 & A2 & A3 & A4 & A5 & A6); repeat split; try apply A6; assumption).
    assert (flat (table_columns l) g1) as Fl by (exists []; split; [now apply fresh_st|intros _ []]).
    assert (exists g2, (match find_header l with
           | Some t => obind (process_group t g1) (fun g => Ok (with_counts g (height g) (footer_rows g)))
           | None => Ok g1
           end) = Ok g2 /\ flat (table_columns l) g2 /\ cur_y g2 = fold_right (fun i n => item_rows i + n) 0 (match first_header l with Some t => [group_item t] | None => [] end) /\
           cols g2 = cols g0 /\ col_groups g2 = col_groups g0 /\
           trs g2 = row_records 0 (match first_header l with Some t => [group_item t] | None => [] end) /\
           row_groups g2 = group_records 0 (match first_header l with Some t => [group_item t] | None => [] end)) as (g2 & -> & S2 & Y2 & C2 & C2' & T2 & G2).
    { rewrite <- find_header_spec. destruct (find_header l) as [t|] eqn:E.
      - assert (flat_group t) as Hft.
        { clear - E Hp. revert E Hp. induction l as [|c l IH]; [discriminate|]. intros E H. inversion H; subst. destruct c; cbn in E; auto. injection E as <-. assumption. }
        destruct (adds_group _ t g1 Fl Hft) as (g2 & -> & (S2 & Y2 & (C2 & C2' & _) & T2 & G2)). cbn [obind]. eexists. split; [reflexivity|].
        split; [eapply flat_same; [exact S2|reflexivity..]|]. cbn [with_counts cur_y cols col_groups trs row_groups]. cbn [g1 with_cur cur_y trs row_groups cols col_groups] in *. rewrite K3 in T2. rewrite K4 in G2. auto.
      - exists g1. split; [reflexivity|]. split; [exact Fl|]. cbn. auto. }
    cbn [obind]. destruct (flat_body _ l' false g2 S2 Hp') as (g3 & -> & (S3 & Y3 & (C3 & C3' & _) & T3 & G3)). cbn [obind].
    assert (Forall flat_group (table_footers l')) as Hff by (clear - Hp'; induction Hp' as [|c l H1 H2 IH]; [constructor|]; destruct c; cbn; auto).
    destruct (flat_footers _ (table_footers l') g3 S3 Hff) as (g4 & -> & (S4 & Y4 & (C4 & C4' & _) & T4 & G4)). cbn [obind].
    eexists. split; [reflexivity|]. cbn [with_counts trs row_groups cols col_groups]. unfold table_items. rewrite Bi, Ft in *.
    split; [|split; [|split; congruence]].
    + rewrite T4, T3, T2, Y3, Y2. rewrite !row_records_app, app_assoc. reflexivity.
    + rewrite G4, G3, G2, Y3, Y2. rewrite !group_records_app, app_assoc. reflexivity.
Qed.
Print Assumptions C69_records_partial.

Definition records_of (l : list child) : outcome (list axis * list axis * list axis * list axis) :=
  obind (build l) (fun g => Ok (trs g, row_groups g, cols g, col_groups g)).
Definition record_table : list child :=
  [COLGROUP 20 1 [Some (21, 2); None; Some (22, 1)]; COLGROUP 23 1 [Some (24, 1)]; FOOT (mkGroup 1 [tr 2 [one 1]]); ROW (mkRow 3 [one 2]);
   BODY (mkGroup 4 [tr 5 [one 3; Some (mkCell 4 1 3)]; None; tr 6 []]); BODY (mkGroup 7 []); HEAD (mkGroup 8 [tr 9 [one 5]])].
Example C69_sample : Forall flat_child record_table /\ Forall (fun c => snd c <> []) (leading_columns record_table) /\
  records_of record_table = Ok ([mkAxis 0 0 9; mkAxis 2 2 5; mkAxis 3 3 6; mkAxis 4 4 2], [mkAxis 0 0 8; mkAxis 2 3 4; mkAxis 4 4 1],
    [mkAxis 0 1 21; mkAxis 2 2 22; mkAxis 3 3 24], [mkAxis 0 2 20; mkAxis 3 3 23]).
Proof.
  split; [|split; [|vm_compute; reflexivity]].
  - repeat constructor.
  - cbn. repeat (constructor; [cbn; discriminate|]). constructor.
Qed.

(** The row below a row span of 2 is recorded as no row at all ([start > end]), and the row that has
    it as both rows; a group without columns does not have its first one, and with a span of 1 it
    has none. *)
Theorem C69_records_refuted :
  records_of [BODY (mkGroup 1 [tr 2 [Some (mkCell 1 2 1); one 2]; tr 3 [one 3]])] = Ok ([mkAxis 0 1 2; mkAxis 2 1 3], [mkAxis 0 1 1], [], []) /\
  records_of [COLGROUP 1 3 []; COLGROUP 2 1 []; ROW (mkRow 3 [one 1])] = Ok ([], [], [], [mkAxis 1 2 1; mkAxis 4 3 2]).
Proof. split; vm_compute; reflexivity. Qed.
Print Assumptions C69_records_refuted.
