From Coq Require Import List NArith QArith Bool Lia Lqa.
From Verif.Base Require Import Outcome.
From Verif.Layout Require Import BreakModel BlockModel PaginateModel PaginateSpec.
Import ListNotations.
Local Open Scope Q_scope.

Section Induct.
  Variable P : box -> Prop.
  Hypothesis HM : forall id s h inner, Forall (fun e => P (snd e)) inner -> P (Mono id s h inner).
  Hypothesis HB : forall id s cs, Forall P cs -> P (Block id s cs).
  Fixpoint box_induct (b : box) : P b :=
    match b with
    | Mono id s h inner =>
      HM id s h inner ((fix go l : Forall (fun e => P (snd e)) l :=
        match l with [] => Forall_nil _ | (q, c) :: r => Forall_cons (q, c) (box_induct c : P (snd (q, c))) (go r) end) inner)
    | Block id s cs =>
      HB id s cs ((fix go l : Forall P l :=
        match l with [] => Forall_nil _ | c :: r => Forall_cons c (box_induct c) (go r) end) cs)
    end.
End Induct.

(** ** Sums and concatenations over numbered children *)
Section Indexed.
  Context {A : Type} (f : N -> box -> list A).
  Fixpoint icat (i : N) (cs : list box) : list A :=
    match cs with [] => [] | c :: r => f i c ++ icat (i + 1) r end.
  Variable g : N -> box -> nat.
  Fixpoint isum (i : N) (cs : list box) : nat :=
    match cs with [] => 0%nat | c :: r => (g i c + isum (i + 1) r)%nat end.
End Indexed.

Lemma icat_ext {A} (f g : N -> box -> list A) cs : forall i,
  (forall j c, nth_error cs j = Some c -> f (i + N.of_nat j)%N c = g (i + N.of_nat j)%N c) -> icat f i cs = icat g i cs.
Proof.
  induction cs as [|c r IH]; intros i H; [reflexivity|]. cbn [icat]. f_equal.
  - pose proof (H 0%nat c eq_refl) as H0. now rewrite N.add_0_r in H0.
  - apply IH. intros j d Hj. pose proof (H (S j) d Hj) as H1. replace (i + 1 + N.of_nat j)%N with (i + N.of_nat (S j))%N by lia. exact H1.
Qed.
Lemma icat_nil {A} (f : N -> box -> list A) cs i :
  (forall j c, nth_error cs j = Some c -> f (i + N.of_nat j)%N c = []) -> icat f i cs = [].
Proof.
  intros H. rewrite (icat_ext f (fun _ _ => []) cs i H). clear. revert i. induction cs; intros i; [reflexivity|]. cbn [icat]. apply IHcs.
Qed.
(** a concatenation cut at number [i + k] *)
Lemma icat_split {A} (f f1 f2 : N -> box -> list A) cs : forall i k,
  (forall j c, nth_error cs j = Some c -> (j < k)%nat -> f (i + N.of_nat j)%N c = f1 (i + N.of_nat j)%N c /\ f2 (i + N.of_nat j)%N c = []) ->
  (forall c, nth_error cs k = Some c -> f (i + N.of_nat k)%N c = f1 (i + N.of_nat k)%N c ++ f2 (i + N.of_nat k)%N c) ->
  (forall j c, nth_error cs j = Some c -> (k < j)%nat -> f (i + N.of_nat j)%N c = f2 (i + N.of_nat j)%N c /\ f1 (i + N.of_nat j)%N c = []) ->
  icat f i cs = icat f1 i cs ++ icat f2 i cs.
Proof.
  induction cs as [|c r IH]; intros i k Hl He Hg; [reflexivity|]. cbn [icat].
  assert (forall (h : N -> box -> list A) j, h (i + 1 + N.of_nat j)%N = h (i + N.of_nat (S j))%N) as R by (intros; f_equal; lia).
  destruct k as [|k].
  - pose proof (He c eq_refl) as H0. cbn [N.of_nat] in H0. rewrite N.add_0_r in H0. rewrite H0.
    rewrite (icat_nil f1 r (i + 1)), app_nil_r.
    + rewrite <- app_assoc. do 2 f_equal. apply icat_ext. intros j d Hj. rewrite !R. apply (Hg (S j) d Hj). lia.
    + intros j d Hj. rewrite R. apply (Hg (S j) d Hj). lia.
  - pose proof (Hl 0%nat c eq_refl ltac:(lia)) as [H0 H1]. cbn [N.of_nat] in H0, H1. rewrite N.add_0_r in H0, H1. rewrite H0, H1.
    rewrite <- app_assoc. f_equal. cbn [app]. apply (IH (i + 1)%N k).
    + intros j d Hj Hk. rewrite !R. apply (Hl (S j) d Hj). lia.
    + intros d Hj. rewrite !R. apply (He d Hj).
    + intros j d Hj Hk. rewrite !R. apply (Hg (S j) d Hj). lia.
Qed.
Lemma isum_le (f g : N -> box -> nat) cs : forall i,
  (forall j c, nth_error cs j = Some c -> (f (i + N.of_nat j)%N c <= g (i + N.of_nat j)%N c)%nat) -> (isum f i cs <= isum g i cs)%nat.
Proof.
  induction cs as [|c r IH]; intros i H; [reflexivity|]. cbn [isum].
  pose proof (H 0%nat c eq_refl) as H0. cbn [N.of_nat] in H0. rewrite N.add_0_r in H0.
  assert (isum f (i + 1) r <= isum g (i + 1) r)%nat; [|lia].
  apply IH. intros j d Hj. pose proof (H (S j) d Hj) as H1. replace (i + 1 + N.of_nat j)%N with (i + N.of_nat (S j))%N by lia. exact H1.
Qed.
Lemma isum_lt (f g : N -> box -> nat) cs : forall i k ck,
  (forall j c, nth_error cs j = Some c -> (f (i + N.of_nat j)%N c <= g (i + N.of_nat j)%N c)%nat) ->
  nth_error cs k = Some ck -> (f (i + N.of_nat k)%N ck < g (i + N.of_nat k)%N ck)%nat -> (isum f i cs < isum g i cs)%nat.
Proof.
  induction cs as [|c r IH]; intros i k ck H Hk Hlt; [destruct k; discriminate|]. cbn [isum].
  assert (forall (h : N -> box -> nat) j, h (i + 1 + N.of_nat j)%N = h (i + N.of_nat (S j))%N) as R by (intros; f_equal; lia).
  pose proof (H 0%nat c eq_refl) as H0. cbn [N.of_nat] in H0. rewrite N.add_0_r in H0.
  destruct k as [|k].
  - injection Hk as ->. cbn [N.of_nat] in Hlt. rewrite N.add_0_r in Hlt.
    assert (isum f (i + 1) r <= isum g (i + 1) r)%nat; [|lia].
    apply isum_le. intros j d Hj. rewrite !R. apply (H (S j) d Hj).
  - assert (isum f (i + 1) r < isum g (i + 1) r)%nat; [|lia].
    apply (IH (i + 1)%N k ck); [|exact Hk|rewrite !R; exact Hlt]. intros j d Hj. rewrite !R. apply (H (S j) d Hj).
Qed.

(** ** Positions in a document *)
Definition start_of (prev : option bp) : N := match get_start prev with Some n => n | None => 0%N end.

(** What comes between two break points. *)
Fixpoint between (b : box) (prev curr : option bp) : list nat :=
  match b with
  | Mono _ _ _ _ => content b
  | Block id _ [] => [id]
  | Block _ _ cs =>
    icat (fun i c => if (start_of prev <=? i)%N && (i <? match get_end curr with Some e => e | None => len cs end)%N && negb (skipped c)
                     then between c (traverse_prev prev i) (traverse_curr curr i) else []) 0 cs
  end.

Definition fits (start : N) (stop : option N) (i : nat) (c : box) : Prop :=
  (N.of_nat i = start \/ is_page (s_before (style_of c)) = false) /\
  (stop = Some (N.of_nat i + 1)%N \/ is_page (s_after (style_of c)) = false).

Inductive startable : box -> option bp -> Prop :=
| st_none b : startable b None
| st_zero b a : startable b (Some (BP 0 a [] WITHOUT_CHILDREN))
| st_between id s cs e a : (e < len cs)%N -> startable (Block id s cs) (Some (BP e a [] WITHOUT_CHILDREN))
| st_inside id s cs k ck a cb : nth_error cs k = Some ck -> skipped ck = false -> startable ck (Some cb) ->
    startable (Block id s cs) (Some (BP (N.of_nat k + 1) a [Some cb] DONT)).

Inductive whole : box -> option bp -> Prop :=
| wh_mono id s h inner prev : whole (Mono id s h inner) prev
| wh_block id s cs prev :
    (forall i c, nth_error cs i = Some c -> (start_of prev <= N.of_nat i)%N -> skipped c = false -> fits (start_of prev) None i c) ->
    (forall i c, nth_error cs i = Some c -> (start_of prev <= N.of_nat i)%N -> skipped c = false -> whole c (traverse_prev prev (N.of_nat i))) ->
    whole (Block id s cs) prev.

Inductive good : box -> option bp -> bp -> Prop :=
| gd_between id s cs prev e a :
    (start_of prev < e)%N -> (e < len cs)%N ->
    (forall i c, nth_error cs i = Some c -> (start_of prev <= N.of_nat i < e)%N -> skipped c = false -> fits (start_of prev) (Some e) i c) ->
    (forall i c, nth_error cs i = Some c -> (start_of prev <= N.of_nat i < e)%N -> skipped c = false -> whole c (traverse_prev prev (N.of_nat i))) ->
    good (Block id s cs) prev (BP e a [] WITHOUT_CHILDREN)
| gd_inside id s cs prev k ck a cb :
    nth_error cs k = Some ck -> skipped ck = false -> (start_of prev <= N.of_nat k)%N ->
    (forall i c, nth_error cs i = Some c -> (start_of prev <= N.of_nat i <= N.of_nat k)%N -> skipped c = false -> fits (start_of prev) (Some (N.of_nat k + 1)%N) i c) ->
    (forall i c, nth_error cs i = Some c -> (start_of prev <= N.of_nat i < N.of_nat k)%N -> skipped c = false -> whole c (traverse_prev prev (N.of_nat i))) ->
    good ck (traverse_prev prev (N.of_nat k)) cb ->
    good (Block id s cs) prev (BP (N.of_nat k + 1) a [Some cb] DONT).

Lemma nth_len {A} (l : list A) i c : nth_error l i = Some c -> (N.of_nat i < len l)%N.
Proof. intros H. assert (i < length l)%nat by (apply nth_error_Some; congruence). unfold len. lia. Qed.

Lemma good_startable b prev p : good b prev p -> startable b (Some p).
Proof.
  revert prev p. induction b as [id s h inner _|id s cs IH] using box_induct; intros prev p H; inversion H; subst.
  - apply st_between. assumption.
  - eapply st_inside; try eassumption. rewrite Forall_forall in IH. eapply IH; [eapply nth_error_In; eassumption|eassumption].
Qed.

(** the break point inside the child at which a page starts; none for the others *)
Lemma traverse_start b prev i : startable b prev -> (start_of prev < i)%N -> traverse_prev prev i = None.
Proof.
  intros H Hi. inversion H; subst; try reflexivity. cbn [traverse_prev].
  unfold start_of, get_start, bp_advance, bp_end, usize_pred in Hi. rewrite orb_false_r.
  destruct (N.eqb_spec (N.of_nat k + 1) 0); [lia|]. destruct (N.eqb_spec (i + 1) (N.of_nat k + 1)); [lia|reflexivity].
Qed.
Lemma startable_child id s cs prev i c : startable (Block id s cs) prev -> nth_error cs i = Some c -> (start_of prev <= N.of_nat i)%N ->
  startable c (traverse_prev prev (N.of_nat i)).
Proof.
  intros H Hc Hi. inversion H; subst; cbn [traverse_prev]; try apply st_none. rewrite orb_false_r.
  destruct (N.eqb_spec (N.of_nat i + 1) (N.of_nat k + 1)) as [E|E]; [|apply st_none].
  replace i with k in Hc by lia. replace c with ck by congruence. assumption.
Qed.
Lemma traverse_inside k a cb i : traverse_prev (Some (BP (N.of_nat k + 1) a [Some cb] DONT)) i = if (i =? N.of_nat k)%N then Some cb else None.
Proof.
  cbn [traverse_prev]. rewrite orb_false_r. destruct (N.eqb_spec (i + 1) (N.of_nat k + 1)), (N.eqb_spec i (N.of_nat k)); try reflexivity; lia.
Qed.
Lemma traverse_curr_inside k a cb i : traverse_curr (Some (BP (N.of_nat k + 1) a [Some cb] DONT)) i = if (i =? N.of_nat k)%N then Some cb else None.
Proof.
  cbn [traverse_curr]. destruct (N.eqb_spec (i + 1) (N.of_nat k + 1)), (N.eqb_spec i (N.of_nat k)); try reflexivity; lia.
Qed.
Lemma start_inside k a cbs : start_of (Some (BP (N.of_nat k + 1) a cbs DONT)) = N.of_nat k.
Proof. unfold start_of. cbn [get_start bp_advance bp_end]. unfold usize_pred. destruct (N.eqb_spec (N.of_nat k + 1) 0); lia. Qed.

(** ** What is left decreases *)
Fixpoint weight (b : box) (prev : option bp) : nat :=
  match b with
  | Mono _ _ _ _ => 1
  | Block _ _ cs => S (isum (fun i c => if (start_of prev <=? i)%N then weight c (traverse_prev prev i) else 0%nat) 0 cs)
  end.
Lemma weight_pos b prev : (1 <= weight b prev)%nat.
Proof. destruct b; cbn [weight]; lia. Qed.

Lemma good_weight b : forall prev p, startable b prev -> good b prev p -> (weight b (Some p) < weight b prev)%nat.
Proof.
  induction b as [id s h inner _|id s cs IH] using box_induct; intros prev p Hs H; [inversion H|].
  rewrite Forall_forall in IH. cbn [weight]. apply -> PeanoNat.Nat.succ_lt_mono. inversion H; subst.
  - assert (exists ck, nth_error cs (N.to_nat (start_of prev)) = Some ck) as [ck Hck].
    { destruct (nth_error cs (N.to_nat (start_of prev))) eqn:E; [eauto|]. apply nth_error_None in E. unfold len in *. lia. }
    apply (isum_lt _ _ cs 0%N (N.to_nat (start_of prev)) ck); [|exact Hck|].
    + intros j c Hj. rewrite N.add_0_l. unfold start_of at 1. cbn [get_start bp_advance bp_end].
      destruct (N.leb_spec e (N.of_nat j)) as [L|L]; [|lia].
      destruct (N.leb_spec (start_of prev) (N.of_nat j)); [|lia].
      rewrite (traverse_start _ prev (N.of_nat j) Hs) by lia. reflexivity.
    + rewrite N.add_0_l, Nnat.N2Nat.id. unfold start_of at 1. cbn [get_start bp_advance bp_end].
      destruct (N.leb_spec e (start_of prev)); [lia|]. rewrite N.leb_refl. apply weight_pos.
  - apply (isum_lt _ _ cs 0%N k ck); [|assumption|].
    + intros j c Hj. rewrite N.add_0_l, start_inside, traverse_inside.
      destruct (N.leb_spec (N.of_nat k) (N.of_nat j)) as [L|L]; [|lia].
      destruct (N.leb_spec (start_of prev) (N.of_nat j)); [|lia].
      destruct (N.eqb_spec (N.of_nat j) (N.of_nat k)) as [E|E].
      * replace j with k in Hj |- * by lia. replace c with ck by congruence.
        assert (weight ck (Some cb) < weight ck (traverse_prev prev (N.of_nat k)))%nat; [|lia].
        apply IH; [eapply nth_error_In; eassumption| |assumption]. eapply startable_child; eassumption.
      * rewrite (traverse_start _ prev (N.of_nat j) Hs) by lia. reflexivity.
    + rewrite N.add_0_l, start_inside, traverse_inside, N.leb_refl, N.eqb_refl.
      destruct (N.leb_spec (start_of prev) (N.of_nat k)); [|lia].
      apply IH; [eapply nth_error_In; eassumption| |assumption]. eapply startable_child; eassumption.
Qed.

(** ** Cutting the content at a break point *)
Lemma between_cut b : forall prev p, startable b prev -> good b prev p ->
  between b prev None = between b prev (Some p) ++ between b (Some p) None.
Proof.
  induction b as [id s h inner _|id s cs IH] using box_induct; intros prev p Hs H; [inversion H|].
  rewrite Forall_forall in IH.
  assert (cs <> []) as Hne.
  { inversion H; subst; intros ->; [unfold len in *; cbn in *; lia|destruct k; discriminate]. }
  assert (forall prev curr, between (Block id s cs) prev curr =
    icat (fun i c => if (start_of prev <=? i)%N && (i <? match get_end curr with Some e => e | None => len cs end)%N && negb (skipped c)
                     then between c (traverse_prev prev i) (traverse_curr curr i) else []) 0 cs) as EQ
    by (intros; destruct cs; [congruence|reflexivity]).
  rewrite !EQ. clear EQ. inversion H; subst.
  - apply (icat_split _ _ _ cs 0%N (N.to_nat e)).
    + intros j c Hj L. rewrite !N.add_0_l. unfold start_of at 3. cbn [get_start get_end option_map bp_advance bp_end traverse_curr]. pose proof (nth_len cs j c Hj).
      destruct (N.ltb_spec (N.of_nat j) e); [|lia]. destruct (N.ltb_spec (N.of_nat j) (len cs)); [|lia]. destruct (N.leb_spec e (N.of_nat j)); [lia|]. split; reflexivity.
    + intros c Hj. rewrite !N.add_0_l, Nnat.N2Nat.id. unfold start_of at 3. cbn [get_start get_end option_map bp_advance bp_end traverse_curr traverse_prev].
      rewrite N.ltb_irrefl, andb_false_r. cbn [andb app]. rewrite N.leb_refl. destruct (N.leb_spec (start_of prev) e); [|lia].
      rewrite (traverse_start _ prev e Hs) by lia. reflexivity.
    + intros j c Hj L. rewrite !N.add_0_l. unfold start_of at 2. cbn [get_start get_end option_map bp_advance bp_end traverse_curr traverse_prev].
      destruct (N.ltb_spec (N.of_nat j) e); [lia|]. rewrite andb_false_r. cbn [andb]. destruct (N.leb_spec e (N.of_nat j)); [|lia].
      destruct (N.leb_spec (start_of prev) (N.of_nat j)); [|lia].
      rewrite (traverse_start _ prev (N.of_nat j) Hs) by lia. split; reflexivity.
  - apply (icat_split _ _ _ cs 0%N k).
    + intros j c Hj L. rewrite !N.add_0_l, start_inside, traverse_curr_inside. cbn [get_end option_map bp_end]. pose proof (nth_len cs j c Hj).
      destruct (N.ltb_spec (N.of_nat j) (N.of_nat k + 1)); [|lia]. destruct (N.ltb_spec (N.of_nat j) (len cs)); [|lia].
      destruct (N.leb_spec (N.of_nat k) (N.of_nat j)); [lia|]. destruct (N.eqb_spec (N.of_nat j) (N.of_nat k)); [lia|]. split; reflexivity.
    + intros c Hj. replace c with ck by congruence. rewrite !N.add_0_l, start_inside, traverse_curr_inside, traverse_inside. cbn [get_end option_map bp_end].
      pose proof (nth_len cs k c Hj).
      destruct (N.ltb_spec (N.of_nat k) (N.of_nat k + 1)); [|lia]. destruct (N.ltb_spec (N.of_nat k) (len cs)); [|lia].
      rewrite N.leb_refl, N.eqb_refl. destruct (N.leb_spec (start_of prev) (N.of_nat k)); [|lia]. cbn [andb].
      match goal with H : skipped ck = false |- _ => rewrite H end. cbn [negb traverse_curr].
      apply IH; [eapply nth_error_In; eassumption| |assumption]. eapply startable_child; eassumption.
    + intros j c Hj L. rewrite !N.add_0_l, start_inside, traverse_inside. cbn [get_end option_map bp_end].
      destruct (N.ltb_spec (N.of_nat j) (N.of_nat k + 1)); [lia|]. rewrite andb_false_r. cbn [andb].
      destruct (N.leb_spec (N.of_nat k) (N.of_nat j)); [|lia]. destruct (N.eqb_spec (N.of_nat j) (N.of_nat k)); [lia|].
      destruct (N.leb_spec (start_of prev) (N.of_nat j)); [|lia].
      rewrite (traverse_start _ prev (N.of_nat j) Hs) by lia. split; reflexivity.
Qed.

Lemma between_zero b prev : start_of prev = 0%N -> (forall i, traverse_prev prev i = None) -> between b prev None = content b.
Proof.
  revert prev. induction b as [id s h inner _|id s cs IH] using box_induct; intros prev H0 Ht; [reflexivity|].
  destruct cs as [|c0 r0]; [reflexivity|]. set (cs := c0 :: r0) in *.
  change (between (Block id s cs) prev None) with
    (icat (fun i c => if (start_of prev <=? i)%N && (i <? len cs)%N && negb (skipped c)
                     then between c (traverse_prev prev i) None else []) 0 cs).
  change (content (Block id s cs)) with (flat_map (fun c => if skipped c then [] else content c) cs).
  rewrite H0. rewrite (icat_ext _ (fun _ c => if skipped c then [] else content c)).
  - generalize 0%N. clear. induction cs as [|c r IH]; intros i; [reflexivity|]. cbn [icat flat_map]. now rewrite IH.
  - intros j c Hj. rewrite N.add_0_l. pose proof (nth_len cs j c Hj). destruct (N.leb_spec 0 (N.of_nat j)); [|lia].
    destruct (N.ltb_spec (N.of_nat j) (len cs)); [|lia]. cbn [andb]. destruct (skipped c); [reflexivity|]. cbn [negb].
    rewrite Forall_forall in IH. rewrite Ht. apply IH; [eapply nth_error_In; eassumption|reflexivity|reflexivity].
Qed.
