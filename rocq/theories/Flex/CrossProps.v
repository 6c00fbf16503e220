(** C79: where items are put in their line on the cross axis. C80: where lines are put. *)
From Coq Require Import List Arith ZArith QArith Bool Lia Lqa.
From Verif.Flex Require Import FlexModel LineProps FlexProps FillProps JustifyProps CrossModel.
Import ListNotations.
Local Open Scope Q_scope.

(** The space before the margin box of an item in its line, and after it. *)
Definition before (p : cplaced) : Q := q_pos p - q_start p.
Definition after (cross : Q) (p : cplaced) : Q := cross - (q_pos p + q_size p + q_end p).
(** The size that the item would like is within its limits. *)
Definition fair (c : citem) : Prop := c_min c <= c_hyp c <= c_max c.
(** CSS Flexbox 9.6 for an item without auto margins; [a]: its alignment. *)
Definition aligned (a : align) (cross : Q) (p : cplaced) : Prop :=
  match a with
  | A_FLEX_END => after cross p == 0 /\ q_size p = c_hyp (q_item p)
  | A_CENTER => before p == after cross p /\ q_size p = c_hyp (q_item p)
  | A_FLEX_START => before p == 0 /\ q_size p = c_hyp (q_item p)
  | A_STRETCH => before p == 0 /\ if c_sized (q_item p) then q_size p = c_hyp (q_item p) else after cross p == 0 \/ (0 < after cross p /\ q_size p == c_max (q_item p)) \/ (after cross p < 0 /\ q_size p == c_min (q_item p))
  | _ => False
  end.
(** CSS Flexbox 8.3: [align-self: auto] is the [align-items] of the container. *)
Definition wanted (k : container) (c : citem) : align := match c_self c with A_AUTO => k_items k | A_STRETCH => A_STRETCH | A_CENTER => A_CENTER | A_FLEX_START => A_FLEX_START | A_FLEX_END => A_FLEX_END | A_FIRST_BASELINE => A_FIRST_BASELINE | A_OTHER => A_OTHER end.
Lemma wanted_self k c : wanted k c = self k c.
Proof. unfold wanted, self. now destruct (c_self c). Qed.
Definition known_align (a : align) : Prop := In a [A_FLEX_END; A_CENTER; A_FLEX_START; A_STRETCH].

Theorem C79_aligned_partial : forall k cross c s e, c_start c = Some s -> c_end c = Some e -> fair c -> known_align (wanted k c) ->
  let p := cross_item k cross c in
  q_item p = c /\ q_start p = s /\ q_end p = e /\ aligned (wanted k c) cross p /\
  (c_hyp c + (s + e) <= cross -> 0 <= before p /\ 0 <= after cross p).
Proof.
  intros k cross c s e Es Ee [F1 F2] Ha p. rewrite wanted_self in *. assert (any_auto c = false) as Na by (unfold any_auto; now rewrite Es, Ee).
  assert (p = align_item k cross (mkP c (used_cross k cross c) s e 0)) as Ep by (unfold p, cross_item, cross_autos; now rewrite Es, Ee). clearbody p.
  assert (cboth c = s + e) as Eb by (unfold cboth; now rewrite Es, Ee).
  unfold align_item, used_cross in Ep. cbn [q_item q_size q_start q_end] in Ep. rewrite Na, Eb in Ep. cbn in Ha. destruct Ha as [Ha|[Ha|[Ha|[Ha|[]]]]]; rewrite <- Ha in *; subst p; unfold before, after; cbn [q_item q_size q_start q_end q_pos aligned negb]; (split; [reflexivity|]); (split; [reflexivity|]); (split; [reflexivity|]); unfold before, after; cbn [q_item q_size q_start q_end q_pos].
  - split; [split; [ring|reflexivity]|]. intros H. split; lra.
  - assert (forall x, x / 2 + x / 2 == x) as Hf by (intros; field). pose proof (Hf (cross - c_hyp c - (s + e))) as H2. split; [split; [lra|reflexivity]|]. intros H. split; lra.
  - split; [split; [ring|reflexivity]|]. intros H. split; lra.
  - destruct (c_sized c); cbn [negb andb].
    + split; [split; [ring|reflexivity]|]. intros H. split; lra.
    + destruct (clamp_cases (cross - (s + e)) (c_min c) (c_max c) ltac:(lra)) as [[H1 E]|[[H1 E]|[H1 E]]].
      * split; [split; [ring|right; right; split; [lra|exact E]]|]. intros H. split; lra.
      * split; [split; [ring|left; lra]|]. intros H. split; lra.
      * split; [split; [ring|right; left; split; [lra|exact E]]|]. intros H. split; lra.
Qed.
Print Assumptions C79_aligned_partial.

(** Auto margins take what is left of the line, in equal parts. *)
Theorem C79_auto_margins_partial : forall k cross c, any_auto c = true -> c_hyp c + cboth c < cross ->
  let p := cross_item k cross c in
  q_size p = c_hyp c /\ before p == 0 /\ after cross p == 0 /\ (forall s, c_start c = Some s -> q_start p = s) /\ (forall e, c_end c = Some e -> q_end p = e) /\
  (c_start c = None -> c_end c = None -> q_start p == q_end p).
Proof.
  intros k cross c Na H p.
  assert (used_cross k cross c = c_hyp c) as Eu by (unfold used_cross; rewrite Na, andb_false_r; now destruct (self k c)).
  assert (ltq (c_hyp c + cboth c) cross = true) as El by (destruct (ltq_spec (c_hyp c + cboth c) cross); [reflexivity|lra]).
  set (p0 := cross_autos cross c (c_hyp c)).
  assert (q_size p0 = c_hyp c /\ q_pos p0 = q_start p0 /\ after cross p0 == 0 /\ (forall s, c_start c = Some s -> q_start p0 = s) /\ (forall e, c_end c = Some e -> q_end p0 = e) /\ (c_start c = None -> c_end c = None -> q_start p0 == q_end p0) /\ q_item p0 = c) as (H1 & H2 & H3 & H4 & H5 & H6 & H7).
  { unfold p0, cross_autos. rewrite El. unfold any_auto in Na. destruct (c_start c) as [s|], (c_end c) as [e|]; try discriminate; unfold after; cbn [q_item q_size q_start q_end q_pos]; repeat split; try ring; try congruence; try reflexivity; try field. }
  assert (p = p0) as ->.
  { unfold p, cross_item. rewrite Eu. fold p0. unfold align_item. rewrite H7, Na. destruct (self k c); try reflexivity. destruct p0; cbn in *; congruence. }
  repeat split; try assumption. unfold before. rewrite H2. ring.
Qed.
Print Assumptions C79_auto_margins_partial.

(** ** The cross size of lines *)

Lemma line_cross_step l : forall m, m <= fold_left (fun m c => if counts c then maxq m (c_hyp c + cboth c) else m) l m /\
  forall c, In c l -> counts c = true -> c_hyp c + cboth c <= fold_left (fun m c => if counts c then maxq m (c_hyp c + cboth c) else m) l m.
Proof.
  induction l as [|x l IH]; intros m; cbn [fold_left]; [split; [lra|easy]|]. set (m' := if counts x then maxq m (c_hyp x + cboth x) else m). destruct (IH m') as [H1 H2].
  assert (m <= m' /\ (counts x = true -> c_hyp x + cboth x <= m')) as [M1 M2]. { unfold m'. destruct (counts x); unfold maxq; qcase; split; intros; try lra; try discriminate. }
  split; [lra|]. intros c [<-|Hc] Hn; [specialize (M2 Hn); lra|now apply H2].
Qed.
Lemma line_cross_attained l : forall m, let r := fold_left (fun m c => if counts c then maxq m (c_hyp c + cboth c) else m) l m in r = m \/ exists c, In c l /\ r = c_hyp c + cboth c.
Proof.
  induction l as [|x l IH]; intros m; cbn [fold_left]; [now left|]. destruct (IH (if counts x then maxq m (c_hyp x + cboth x) else m)) as [E|(c & Hc & E)]; [|right; exists c; split; [now right|exact E]].
  rewrite E. destruct (counts x); [|now left]. unfold maxq. destruct (ltq m (c_hyp x + cboth x)); [right; exists x; split; [now left|reflexivity]|now left].
Qed.
(** A line is as large as its largest item, margins included. *)
Theorem C80_line_cross_partial : forall l, (forall c, In c l -> c_self c <> A_FIRST_BASELINE) ->
  (forall c, In c l -> c_hyp c + cboth c <= line_cross l) /\ 0 <= line_cross l /\ (line_cross l = 0 \/ exists c, In c l /\ line_cross l = c_hyp c + cboth c).
Proof.
  intros l H. destruct (line_cross_step l 0) as [H1 H2]. split; [|split; [exact H1|apply (line_cross_attained l 0)]]. intros c Hc. apply H2; [exact Hc|]. unfold counts. specialize (H c Hc). destruct (c_self c); congruence.
Qed.
Print Assumptions C80_line_cross_partial.

Definition widened (v w : list Q) : Prop := Forall2 Qle v w.
Lemma stretch_widens k v : widened v (stretch_lines k v).
Proof.
  assert (forall d, 0 <= d -> widened v (map (fun x => x + d) v)) as W by (intros d Hd; unfold widened; induction v; cbn [map]; constructor; (lra || assumption)).
  assert (widened v v) as R by (clear W; unfold widened; induction v; constructor; (lra || assumption)).
  unfold stretch_lines. destruct (k_content k); try exact R. destruct (_ && _) eqn:E; [|exact R]. apply andb_true_iff in E as [_ E]. apply W. apply div_nonneg; [|lia]. destruct (ltq_spec (sumq v) (space k)); [lra|discriminate].
Qed.
(** With [align-content: stretch] and a known size the lines fill the container. *)
Theorem C80_stretch_partial : forall k q ls, ls <> [] -> k_known k = Some q -> k_content k = STRETCH ->
  let v := cross_sizes k ls in let w := stretch_lines k v in
  length w = length ls /\ widened v w /\ (sumq v <= q -> sumq w == q) /\ (q <= sumq v -> w = v).
Proof.
  intros k q ls Ne Hk Hc v w. assert (length v = length ls) as Lv by (unfold v, cross_sizes; rewrite Hk; destruct ls as [|a [|b ls]]; try reflexivity; apply map_length).
  assert (forall d, sumq (map (fun x => x + d) v) == sumq v + inject_Z (Z.of_nat (length v)) * d) as Sm.
  { intros d. generalize v. induction v0 as [|x v0 IH]; [reflexivity|]. cbn [map length]. rewrite !sumq_cons, IH, Nat2Z.inj_succ. unfold Z.succ. rewrite inject_Z_plus. change (inject_Z 1) with 1. ring. }
  split; [unfold w, stretch_lines; rewrite Hc; destruct (_ && _); rewrite ?map_length; exact Lv|]. split; [apply stretch_widens|].
  assert (space k = q) as Es by (unfold space; now rewrite Hk).
  assert (~ inject_Z (Z.of_nat (length v)) == 0) as Nz. { intros C. change 0 with (inject_Z 0) in C. rewrite inject_Z_injective in C. destruct ls; [congruence|]. cbn in Lv. lia. }
  unfold w, stretch_lines. rewrite Hc, Hk, Es, orb_true_r. cbn [andb]. destruct (ltq_spec (sumq v) q); split; intros; try lra; [|reflexivity]. rewrite Sm. field. exact Nz.
Qed.
Print Assumptions C80_stretch_partial.

(** ** Where lines are put *)

Fixpoint lspaces (from total : Q) (l : list (Q * Q)) : list Q :=
  match l with [] => [total - from] | (p, x) :: r => (p - from) :: lspaces (p + x) total r end.
Lemma lspaces_put gap total : forall v from pos, v <> [] ->
  eqs (lspaces from total (combine (put_lines gap pos v) v)) ((pos - from) :: repeat gap (length v - 1) ++ [total - (pos + sumq v + gap * inject_Z (Z.of_nat (length v) - 1))]).
Proof.
  induction v as [|x v IH]; intros from pos Ne; [congruence|]. cbn [put_lines combine lspaces]. constructor; [ring|]. rewrite sumq_cons. destruct v as [|y v].
  - cbn [put_lines combine lspaces length repeat app Nat.sub]. constructor; [|constructor]. change (sumq []) with 0. change (inject_Z (Z.of_nat 1 - 1)) with 0. ring.
  - specialize (IH (pos + x) (pos + (x + gap)) ltac:(discriminate)). replace (length (x :: y :: v) - 1)%nat with (S (length (y :: v) - 1)) by (cbn; lia). cbn [repeat app]. refine (eqs_trans _ _ _ IH _). constructor; [ring|]. apply eqs_app; [apply eqs_refl|]. constructor; [|constructor].
    replace (Z.of_nat (length (x :: y :: v)) - 1)%Z with ((Z.of_nat (length (y :: v)) - 1) + 1)%Z by (cbn [length]; lia). rewrite inject_Z_plus. change (inject_Z 1) with 1. ring.
Qed.
Lemma put_length gap : forall v pos, length (put_lines gap pos v) = length v.
Proof. induction v as [|x v IH]; intros pos; [reflexivity|]. cbn [put_lines length]. now rewrite IH. Qed.
(** The spaces before, between and after the lines are those that CSS asks for in a container whose size is known. *)
Theorem C80_lines_placed_partial : forall k q v, v <> [] -> k_known k = Some q -> k_auto k = false -> plain (k_content k) \/ k_content k = STRETCH ->
  container_cross k v = q /\ length (align_lines k v) = length v /\
  eqs (lspaces 0 q (combine (align_lines k v) v)) (expected (k_content k) (length v) (q - sumq v)) /\
  (sumq v <= q -> Forall (fun x => 0 <= x) (lspaces 0 q (combine (align_lines k v) v))).
Proof.
  intros k q v Ne Hk Ha Hj. assert (0 < length v)%nat as Ln by (destruct v; [congruence|cbn; lia]). assert (space k = q) as Es by (unfold space; now rewrite Hk).
  split; [unfold container_cross; now rewrite Ha, Hk|].
  assert (length (align_lines k v) = length v /\ eqs (lspaces 0 q (combine (align_lines k v) v)) (expected (k_content k) (length v) (q - sumq v))) as [H1 H2].
  { set (r := align_lines k v).
    assert (forall gap pos e, r = put_lines gap pos v -> eqs ((pos - 0) :: repeat gap (length v - 1) ++ [q - (pos + sumq v + gap * inject_Z (Z.of_nat (length v) - 1))]) e -> length r = length v /\ eqs (lspaces 0 q (combine r v)) e) as K.
    { intros gap pos e -> E. split; [apply put_length|]. exact (eqs_trans _ _ _ (lspaces_put gap q v 0 pos Ne) E). }
    assert (forall e, r = put_lines 0 0 v -> e = repeat 0 (length v) ++ [q - sumq v] -> length r = length v /\ eqs (lspaces 0 q (combine r v)) e) as K0.
    { intros e E ->. apply (K 0 0 _ E). rewrite <- (repeat_last (length v) Ln). cbn [app]. constructor; [ring|]. apply eqs_app; [apply eqs_refl|]. constructor; [ring|constructor]. }
    assert (forall e, r = put_lines 0 ((q - sumq v) / 2) v -> e = ((q - sumq v) / 2) :: repeat 0 (length v - 1) ++ [(q - sumq v) / 2] -> length r = length v /\ eqs (lspaces 0 q (combine r v)) e) as K2.
    { intros e E ->. apply (K 0 ((q - sumq v) / 2) _ E). constructor; [ring|]. apply eqs_app; [apply eqs_refl|]. constructor; [field|constructor]. }
    assert (r = align_lines k v) as Er by reflexivity. clearbody r. unfold align_lines in Er. rewrite Es in Er.
    assert (In (k_content k) [NORMAL; CENTER; FLEX_START; FLEX_END; SPACE_BETWEEN; SPACE_AROUND; STRETCH]) as Hj' by (destruct Hj as [Hj|Hj]; [unfold plain in Hj; cbn in Hj |- *; tauto|rewrite Hj; cbn; tauto]).
    clear Hj. cbn in Hj'. destruct Hj' as [E|[E|[E|[E|[E|[E|[E|[]]]]]]]]; rewrite <- E in *; unfold expected; cbv zeta; try (apply K0; [exact Er|reflexivity]); try (apply K2; [exact Er|reflexivity]).
    - apply (K 0 (q - sumq v) _ Er). constructor; [ring|]. clear - Ln. destruct (length v) as [|n]; [lia|]. cbn [Nat.sub repeat]. rewrite Nat.sub_0_r.
      change (0 :: repeat 0 n) with (repeat 0 (S n)). replace (S n) with (n + 1)%nat at 2 by lia. rewrite repeat_app. apply eqs_app; [apply eqs_refl|]. constructor; [ring|constructor].
    - destruct (ltq (q - sumq v) 0 || (length v =? 1)%nat) eqn:El; [now apply K0|]. apply orb_false_iff in El as [_ El]. apply Nat.eqb_neq in El. apply (K _ _ _ Er).
      assert (inject_Z (Z.of_nat (length v)) - 1 == inject_Z (Z.of_nat (length v) - 1)) as Ec by (unfold Z.sub; rewrite inject_Z_plus; reflexivity).
      assert (~ inject_Z (Z.of_nat (length v) - 1) == 0) as Nz. { intros C. change 0 with (inject_Z 0) in C. rewrite inject_Z_injective in C. lia. }
      constructor; [ring|]. apply eqs_app; [apply eqs_repeat; now rewrite Ec|]. constructor; [|constructor]. rewrite Ec. field. exact Nz.
    - destruct (ltq (q - sumq v) 0); [now apply K2|]. apply (K _ _ _ Er).
      assert (~ inject_Z (Z.of_nat (length v)) == 0) as Nz. { intros C. change 0 with (inject_Z 0) in C. rewrite inject_Z_injective in C. lia. }
      constructor; [ring|]. apply eqs_app; [apply eqs_refl|]. constructor; [|constructor]. unfold Z.sub. rewrite inject_Z_plus. change (inject_Z (- (1))) with (-1). field. exact Nz. }
  split; [exact H1|]. split; [exact H2|]. intros H. apply (eqs_nonneg _ _ H2). apply expected_nonneg; [exact Ln|lra].
Qed.
Print Assumptions C80_lines_placed_partial.

(** ** The whole container *)

Definition simple (k : container) (c : citem) : Prop :=
  any_auto c = false /\ fair c /\ known_align (wanted k c) /\ c_self c <> A_FIRST_BASELINE.
Lemma in_combine3 (a b : list Q) (ls : list (list citem)) x : In x (combine (combine a b) ls) -> exists n, nth_error a n = Some (fst (fst x)) /\ nth_error b n = Some (snd (fst x)) /\ nth_error ls n = Some (snd x).
Proof.
  revert b ls. induction a as [|p a IH]; intros [|q b] ls H; try (now destruct ls). destruct ls as [|l ls]; [easy|]. cbn [combine] in H. destruct H as [<-|H]; [now exists O|]. destruct (IH b ls H) as (n & H1 & H2 & H3). exists (S n). auto.
Qed.
Lemma widened_nth v w : widened v w -> forall n y, nth_error w n = Some y -> exists x, nth_error v n = Some x /\ x <= y.
Proof. induction 1 as [|x y v w H _ IH]; intros [|n] z E; try discriminate; cbn in *; [injection E as <-; eauto|eauto]. Qed.
(** Every item is inside of its line and aligned as CSS asks, when the size of the line is that of its
    items. *)
Theorem C79_in_line_partial : forall k ls, (k_known k = None \/ length ls <> 1%nat) -> Forall (Forall (simple k)) ls ->
  forall l p, In l (fst (cross_layout k ls)) -> In p (l_items l) ->
  aligned (wanted k (q_item p)) (l_cross l) p /\ c_start (q_item p) = Some (q_start p) /\ c_end (q_item p) = Some (q_end p) /\ 0 <= before p /\ 0 <= after (l_cross l) p.
Proof.
  intros k ls Hk S l p Hl Hp. unfold cross_layout in Hl. cbn [fst] in Hl. apply in_map_iff in Hl as ([[pos x] items] & <- & Hl). cbn [l_items l_cross fst snd] in *. apply in_map_iff in Hp as (c & <- & Hc).
  apply in_combine3 in Hl as (n & _ & H2 & H3). cbn [fst snd] in *. destruct (widened_nth _ _ (stretch_widens k (cross_sizes k ls)) n x H2) as (y & Hy & Hle).
  assert (y = line_cross items) as ->.
  { assert (cross_sizes k ls = map line_cross ls) as E by (unfold cross_sizes; destruct (k_known k); [|reflexivity]; destruct ls as [|a [|b ls]]; try reflexivity; destruct Hk as [|Hk]; [discriminate|cbn in Hk; congruence]). rewrite E, nth_error_map, H3 in Hy. cbn in Hy. congruence. }
  assert (Forall (simple k) items) as Si by (rewrite Forall_forall in S; apply S; eapply nth_error_In; exact H3). rewrite Forall_forall in Si.
  destruct (Si c Hc) as (Na & F & Ka & _). unfold any_auto in Na. destruct (c_start c) as [s|] eqn:Es; [|discriminate]. destruct (c_end c) as [e|] eqn:Ee; [|discriminate].
  destruct (C79_aligned_partial k x c s e Es Ee F Ka) as (Ei & E1 & E2 & Al & Ins). rewrite Ei, E1, E2, Es, Ee.
  destruct (C80_line_cross_partial items) as [Big _]; [intros c' Hc'; apply (Si c' Hc')|]. specialize (Big c Hc). unfold cboth in Big. rewrite Es, Ee in Big. cbn [mar] in Big. destruct (Ins ltac:(lra)) as [I1 I2]. auto.
Qed.
Print Assumptions C79_in_line_partial.

Definition ci (id : nat) (h : Q) (a : align) (s e : option Q) : citem := mkC id h false 0 1000 a s e false.
Definition box100 (a : align) (j : justify) : container := mkK (Some 200) 0 false a j.
Definition two_lines : list (list citem) := [[ci 1 20 A_AUTO (Some 5) (Some 5); ci 2 50 A_CENTER (Some 0) (Some 0); ci 3 10 A_STRETCH (Some 1) (Some 2)]; [ci 4 30 A_FLEX_START (Some 4) (Some 6)]].
Example C79_sample : Forall (Forall (simple (box100 A_FLEX_END SPACE_BETWEEN))) two_lines /\
  map (fun l => (Qred (l_pos l), Qred (l_cross l), map (fun p => (c_id (q_item p), Qred (q_pos p), Qred (q_size p))) (l_items l))) (fst (cross_layout (box100 A_FLEX_END SPACE_BETWEEN) two_lines)) =
    [(0, 50, [(1%nat, 25, 20); (2%nat, 0, 50); (3%nat, 1, 47)]); (160, 40, [(4%nat, 4, 30)])].
Proof.
  split; [|vm_compute; reflexivity]. unfold two_lines. repeat (apply Forall_cons || apply Forall_nil); (split; [reflexivity|]); (split; [split; vm_compute; discriminate|]); (split; [cbn; tauto|discriminate]).
Qed.
Example C80_sample :
  map (fun l => (Qred (l_pos l), Qred (l_cross l))) (fst (cross_layout (box100 A_STRETCH STRETCH) two_lines)) = [(0, 105); (105, 95)] /\
  map (fun l => (Qred (l_pos l), Qred (l_cross l))) (fst (cross_layout (box100 A_STRETCH SPACE_AROUND) two_lines)) = [(55 # 2, 50); (265 # 2, 40)].
Proof. split; vm_compute; reflexivity. Qed.
Example C79_auto_sample : let p := cross_item (box100 A_STRETCH STRETCH) 100 (ci 1 20 A_CENTER None (Some 10)) in (Qred (q_pos p), Qred (q_start p), q_end p) = (70, 70, 10).
Proof. vm_compute. reflexivity. Qed.

(** Not with an auto margin when nothing is left for it: the other margin does not count any more. The
    only item of a container, with a margin of 10 at the start and an auto one at the end, is put at 0. *)
Theorem C79_auto_margins_refuted : exists c p, c_start c = Some 10 /\ fst (cross_layout (mkK None 0 true A_CENTER FLEX_START) [[c]]) = [mkL 0 50 [p]] /\ c_hyp c = 40 /\ q_start p = 10 /\ before p == - (10).
Proof. exists (ci 1 40 A_AUTO (Some 10) None). eexists. split; [reflexivity|]. split; [vm_compute; reflexivity|]. repeat split. Qed.
Print Assumptions C79_auto_margins_refuted.
(** [end], [self-end] and the other keywords without a case of their own are taken for [flex-start];
    with [baseline] margins are not looked at. *)
Theorem C79_aligned_refuted : forall k cross h s e, q_pos (cross_item k cross (ci 1 h A_OTHER (Some s) (Some e))) = s /\ q_pos (cross_item k cross (ci 1 h A_FIRST_BASELINE (Some s) (Some e))) = 0.
Proof. intros. split; reflexivity. Qed.
Print Assumptions C79_aligned_refuted.
(** Not in a container whose height is auto: [align-content] uses the space that is available, which is
    0 in a block (layout/block.cpp:337). The lines of a centered container are above it. *)
Theorem C80_lines_placed_refuted : exists p q, map (fun l => (l_pos l, l_cross l)) (fst (cross_layout (mkK None 0 true A_STRETCH CENTER) two_lines)) = [(p, 50); (q, 40)] /\
  snd (cross_layout (mkK None 0 true A_STRETCH CENTER) two_lines) == 90 /\ p == - (45).
Proof. do 2 eexists. split; [vm_compute; reflexivity|]. split; reflexivity. Qed.
Print Assumptions C80_lines_placed_refuted.
(** A container that is told its size may be smaller when its own size is auto. *)
Theorem C80_container_refuted : snd (cross_layout (mkK (Some 200) 0 true A_STRETCH FLEX_START) two_lines) == 90.
Proof. reflexivity. Qed.
Print Assumptions C80_container_refuted.
(** [wrap-reverse] does not reverse the lines: it is the same as [wrap]. *)
Theorem C80_wrap_reverse_refuted : forall d main l, collect WRAP_REVERSE d main l = collect WRAP d main l.
Proof. reflexivity. Qed.
Print Assumptions C80_wrap_reverse_refuted.
