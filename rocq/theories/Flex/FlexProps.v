(** C34: resolving flexible lengths. *)
From Coq Require Import List Arith ZArith QArith Bool Lia Lqa.
From Verif.Base Require Import Outcome.
From Verif.Flex Require Import FlexModel LineProps.
Import ListNotations.
Local Open Scope Q_scope.

(** ** Sums *)
Definition sums {A} (f : A -> Q) (l : list A) : Q := sumq (map f l).
Lemma sums_cons {A} (f : A -> Q) x l : sums f (x :: l) = f x + sums f l.
Proof. reflexivity. Qed.
Lemma sums_nil {A} (f : A -> Q) : sums f [] = 0.
Proof. reflexivity. Qed.
Lemma sums_le {A} (f g : A -> Q) l : (forall x, In x l -> f x <= g x) -> sums f l <= sums g l.
Proof. induction l as [|x l IH]; intros H; [apply Qle_refl|]. rewrite !sums_cons. pose proof (H x (or_introl eq_refl)). assert (sums f l <= sums g l) by (apply IH; intros; apply H; now right). lra. Qed.
Lemma sums_eq {A} (f g : A -> Q) l : (forall x, In x l -> f x == g x) -> sums f l == sums g l.
Proof. intros H. apply Qle_antisym; apply sums_le; intros x Hx; rewrite (H x Hx); apply Qle_refl. Qed.
Lemma sums_add {A} (f g : A -> Q) l : sums (fun x => f x + g x) l == sums f l + sums g l.
Proof. induction l as [|x l IH]; [rewrite !sums_nil; ring|]. rewrite !sums_cons, IH. ring. Qed.
Lemma sums_scale {A} (f : A -> Q) k l : sums (fun x => f x * k) l == sums f l * k.
Proof. induction l as [|x l IH]; [rewrite !sums_nil; ring|]. rewrite !sums_cons, IH. ring. Qed.
Lemma sums_map {A B} (f : B -> Q) (h : A -> B) l : sums f (map h l) = sums (fun x => f (h x)) l.
Proof. unfold sums. now rewrite map_map. Qed.
Lemma sums_filter {A} (f : A -> Q) p l : sums f (filter p l) == sums (fun x => if p x then f x else 0) l.
Proof. induction l as [|x l IH]; [reflexivity|]. cbn [filter]. rewrite sums_cons. destruct (p x); [rewrite sums_cons|]; rewrite IH; ring. Qed.
Lemma sums_nonneg {A} (f : A -> Q) l : (forall x, In x l -> 0 <= f x) -> 0 <= sums f l.
Proof. induction l as [|x l IH]; intros H; [apply Qle_refl|]. rewrite sums_cons. pose proof (H x (or_introl eq_refl)). assert (0 <= sums f l) by (apply IH; intros; apply H; now right). lra. Qed.
Lemma sums_zero {A} (f : A -> Q) l : (forall x, In x l -> 0 <= f x) -> sums f l == 0 -> forall x, In x l -> f x == 0.
Proof.
  induction l as [|y l IH]; intros H Z x; [intros []|]. rewrite sums_cons in Z. pose proof (H y (or_introl eq_refl)). assert (0 <= sums f l) by (apply sums_nonneg; intros; apply H; now right).
  intros [<-|Hx]; [lra|]. apply IH; [intros; apply H; now right|lra|exact Hx].
Qed.
Lemma sums_one {A} (f : A -> Q) l x : (forall y, In y l -> 0 <= f y) -> In x l -> f x <= sums f l.
Proof.
  induction l as [|y l IH]; intros H; [intros []|]. rewrite sums_cons. pose proof (H y (or_introl eq_refl)). assert (0 <= sums f l) by (apply sums_nonneg; intros; apply H; now right).
  intros [<-|Hx]; [lra|]. specialize (IH ltac:(intros; apply H; now right) Hx). lra.
Qed.
Lemma sums_neg {A} (f : A -> Q) l : sums f l < 0 -> exists x, In x l /\ f x < 0.
Proof.
  induction l as [|x l IH]; [rewrite sums_nil; intros; lra|]. rewrite sums_cons. intros H. destruct (Qlt_le_dec (f x) 0) as [C|C]; [exists x; split; [now left|exact C]|].
  destruct IH as (y & Hy & C'); [lra|]. exists y. split; [now right|exact C'].
Qed.
Lemma sums_pos {A} (f : A -> Q) l : 0 < sums f l -> exists x, In x l /\ 0 < f x.
Proof.
  induction l as [|x l IH]; [rewrite sums_nil; intros; lra|]. rewrite sums_cons. intros H. destruct (Qlt_le_dec 0 (f x)) as [C|C]; [exists x; split; [now left|exact C]|].
  destruct IH as (y & Hy & C'); [lra|]. exists y. split; [now right|exact C'].
Qed.

(** ** One item *)
(** The smallest and the largest size make sense. *)
Definition bounded (i : item) : Prop := 0 <= i_min i /\ i_min i <= i_max i.
Definition within (i : item) (v : Q) : Prop := i_min i <= v <= i_max i.
Ltac qcase := repeat match goal with
  | |- context [ltq ?a ?b] => destruct (ltq_spec a b)
  | H : context [ltq ?a ?b] |- _ => destruct (ltq_spec a b)
  end.
Lemma clamp_cases v lo hi : lo <= hi -> (v < lo /\ clampq v lo hi == lo) \/ (lo <= v <= hi /\ clampq v lo hi == v) \/ (hi < v /\ clampq v lo hi == hi).
Proof. intros H. unfold clampq, minq, maxq. qcase; lra. Qed.
Lemma clamp_floor_cases i v : bounded i ->
  (v < i_min i /\ clamp_floor i v == i_min i) \/ (within i v /\ clamp_floor i v == v) \/ (i_max i < v /\ clamp_floor i v == i_max i).
Proof.
  intros [H0 H1]. assert (clamp_floor i v == clampq v (i_min i) (i_max i)) as E.
  { unfold clamp_floor, maxq. qcase; destruct (clamp_cases v _ _ H1); lra. }
  rewrite E. unfold within. destruct (clamp_cases v _ _ H1) as [K|[K|K]]; lra.
Qed.
Lemma hypo_cases i : bounded i -> (i_base i < i_min i /\ hypo i == i_min i) \/ (within i (i_base i) /\ hypo i == i_base i) \/ (i_max i < i_base i /\ hypo i == i_max i).
Proof. intros [H0 H1]. unfold hypo, within. destruct (clamp_cases (i_base i) _ _ H1) as [K|[K|K]]; lra. Qed.
Lemma clamp_floor_within i v : bounded i -> within i (clamp_floor i v).
Proof. intros H. destruct (clamp_floor_cases i v H) as [K|[K|K]]; unfold within in *; destruct H; lra. Qed.
Lemma hypo_within i : bounded i -> within i (hypo i).
Proof. intros H. destruct (hypo_cases i H) as [K|[K|K]]; unfold within in *; destruct H; lra. Qed.

(** ** Termination and bounds *)
(** Frozen items keep to their limits. *)
Definition good (s : sized) : Prop := bounded (s_item s) /\ (s_frozen s = true -> within (s_item s) (s_used s)).
Definition given (grows : bool) (main initial : Q) (l : list sized) (s : sized) : sized :=
  if s_frozen s then s else mkS (s_item s) (share grows (unfrozen l) (to_share grows main initial l) (s_item s)) false.
Definition total (grows : bool) (main initial : Q) (l : list sized) : Q := sums (fun s => violation (given grows main initial l s)) l.
Lemma turn_eq grows main initial l : turn grows main initial l = map (fun s => settle (total grows main initial l) (given grows main initial l s)) l.
Proof. unfold turn, total, sums. rewrite !map_map. reflexivity. Qed.
Lemma good_violation s : good s -> s_frozen s = true -> violation s == 0.
Proof. intros [B W] F. specialize (W F). unfold violation. destruct (clamp_floor_cases (s_item s) (s_used s) B) as [K|[K|K]]; unfold within in *; lra. Qed.
Lemma settle_item t s : s_item (settle t s) = s_item s.
Proof. unfold settle. now destruct (s_frozen s). Qed.
Lemma given_item grows main initial l s : s_item (given grows main initial l s) = s_item s.
Proof. unfold given. now destruct (s_frozen s). Qed.
Lemma given_frozen grows main initial l s : s_frozen (given grows main initial l s) = s_frozen s.
Proof. unfold given. destruct (s_frozen s) eqn:E; [exact E|reflexivity]. Qed.
Lemma settle_good t s : bounded (s_item s) -> good s -> good (settle t s).
Proof. intros B G. unfold settle. destruct (s_frozen s) eqn:E; [exact G|]. split; [exact B|]. intros _. apply clamp_floor_within. exact B. Qed.
Lemma given_good grows main initial l s : good s -> good (given grows main initial l s).
Proof. intros G. unfold given. destruct (s_frozen s) eqn:E; [exact G|]. split; [apply G|discriminate]. Qed.
Lemma turn_good grows main initial l : Forall good l -> Forall good (turn grows main initial l).
Proof.
  intros G. rewrite turn_eq. apply Forall_map. eapply Forall_impl; [|exact G]. intros s Gs. apply settle_good; [|now apply given_good]. rewrite given_item. apply Gs.
Qed.
Lemma turn_items grows main initial l : map s_item (turn grows main initial l) = map s_item l.
Proof. rewrite turn_eq, map_map. apply map_ext. intros s. now rewrite settle_item, given_item. Qed.
Definition left (l : list sized) : nat := length (filter (fun s => negb (s_frozen s)) l).
Lemma left_map (f : sized -> sized) l : (forall s, In s l -> s_frozen s = true -> s_frozen (f s) = true) ->
  (left (map f l) <= left l)%nat /\ (forall x, In x l -> s_frozen x = false -> s_frozen (f x) = true -> (left (map f l) < left l)%nat).
Proof.
  induction l as [|s l IH]; intros H; [split; [auto|intros x []]|]. destruct IH as [I1 I2]; [intros; apply H; [now right|assumption]|]. unfold left in *. cbn [map filter].
  pose proof (H s (or_introl eq_refl)) as Hs. split.
  - destruct (s_frozen s) eqn:E; [rewrite (Hs eq_refl)|destruct (s_frozen (f s))]; cbn [negb length]; lia.
  - intros x [<-|Hx] F1 F2; [rewrite F1, F2; cbn [negb length]; lia|]. specialize (I2 x Hx F1 F2). destruct (s_frozen s) eqn:E; [rewrite (Hs eq_refl)|destruct (s_frozen (f s))]; cbn [negb length]; lia.
Qed.
Lemma unfrozen_left l : length (unfrozen l) = left l.
Proof. unfold unfrozen, left. apply map_length. Qed.
Lemma unfrozen_in l : unfrozen l <> [] -> exists s, In s l /\ s_frozen s = false.
Proof.
  unfold unfrozen. induction l as [|s l IH]; [contradiction|]. cbn. destruct (s_frozen s) eqn:E; cbn; [|intros _; exists s; auto]. intros H. destruct (IH H) as (x & Hx & F). exists x; auto.
Qed.
Lemma turn_left grows main initial l : Forall good l -> unfrozen l <> [] -> (left (turn grows main initial l) < left l)%nat.
Proof.
  intros G Ne. rewrite turn_eq. set (t := total grows main initial l). set (f := fun s => settle t (given grows main initial l s)).
  assert (forall s, In s l -> s_frozen s = true -> s_frozen (f s) = true) as K. { intros s _ F. unfold f, given. rewrite F. unfold settle. now rewrite F. }
  destruct (left_map f l K) as [_ L]. assert (exists x, In x l /\ s_frozen x = false /\ s_frozen (f x) = true) as (x & Hx & F1 & F2); [|exact (L x Hx F1 F2)].
  assert (forall s, s_frozen s = false -> s_frozen (f s) = if Qeq_bool t 0 then true else if ltq t 0 then ltq (violation (given grows main initial l s)) 0 else ltq 0 (violation (given grows main initial l s))) as Fs.
  { intros s F. unfold f, settle. rewrite given_frozen, F. cbn [s_frozen]. unfold violation. destruct (Qeq_bool t 0); [reflexivity|]. qcase; try reflexivity; lra. }
  assert (forall s, In s l -> ~ violation (given grows main initial l s) == 0 -> s_frozen s = false) as Un.
  { intros s Hs V. destruct (s_frozen s) eqn:E; [|reflexivity]. exfalso. apply V. rewrite Forall_forall in G. apply good_violation; [apply given_good; now apply G|now rewrite given_frozen]. }
  destruct (eqq_spec t 0) as [T0|T0].
  - destruct (unfrozen_in l Ne) as (x & Hx & F). exists x. rewrite (Fs x F). auto.
  - assert (Qeq_bool t 0 = false) as Te by (destruct (eqq_spec t 0); [contradiction|reflexivity]). destruct (ltq_spec t 0) as [T1|T1].
    + destruct (sums_neg _ _ T1) as (x & Hx & V). assert (s_frozen x = false) as F by (apply Un; [exact Hx|lra]). exists x. split; [exact Hx|]. split; [exact F|]. rewrite Fs by exact F. qcase; [reflexivity|lra].
    + assert (0 < t) as T2. { destruct (Qlt_le_dec 0 t); [assumption|]. exfalso. apply T0. lra. }
      destruct (sums_pos _ _ T2) as (x & Hx & V). assert (s_frozen x = false) as F by (apply Un; [exact Hx|lra]). exists x. split; [exact Hx|]. split; [exact F|]. rewrite Fs by exact F. qcase; [reflexivity|lra].
Qed.

(** A property that every turn keeps holds at the end. *)
Lemma loop_ends grows main initial (P : list sized -> Prop) :
  (forall l, Forall good l -> P l -> unfrozen l <> [] -> P (turn grows main initial l)) ->
  forall n l, (left l <= n)%nat -> Forall good l -> P l ->
  exists l', loop n grows main initial l = Ok l' /\ map s_item l' = map s_item l /\ Forall good l' /\ P l' /\ unfrozen l' = [].
Proof.
  intros Keep. induction n as [|n IH]; intros l Hl G Hp.
  - rewrite <- unfrozen_left in Hl. destruct (unfrozen l) as [|u us] eqn:E; [|cbn in Hl; lia]. exists l. cbn. rewrite E. auto.
  - cbn [loop]. destruct (unfrozen l) as [|u us] eqn:E; [exists l; auto|]. assert (unfrozen l <> []) as Ne by congruence.
    destruct (IH (turn grows main initial l)) as (l' & El & Hm & Gl & Pl & Ul); [pose proof (turn_left grows main initial l G Ne); lia|now apply turn_good|now apply Keep|].
    exists l'. rewrite Hm, turn_items. auto.
Qed.
Lemma start_good matched grows i : bounded i -> good (start matched grows i).
Proof. intros B. unfold start. destruct (starts_frozen matched grows i); split; cbn; auto; [intros _; now apply hypo_within|discriminate]. Qed.
Lemma start_item matched grows i : s_item (start matched grows i) = i.
Proof. unfold start. now destruct (starts_frozen matched grows i). Qed.
Lemma left_length l : (left l <= length l)%nat.
Proof. unfold left. induction l as [|s l IH]; [auto|]. cbn. destruct (negb (s_frozen s)); cbn; lia. Qed.
Lemma all_frozen l : unfrozen l = [] -> Forall (fun s => s_frozen s = true) l.
Proof. unfold unfrozen. induction l as [|s l IH]; [constructor|]. cbn. destruct (s_frozen s) eqn:E; cbn; [constructor; auto|discriminate]. Qed.

(** The loop ends after at most as many turns as the line has items, every item of the line has a size,
    and every size is within its limits.

    Full statement: for all items. Missing: limits below 0, or a largest size below the smallest. *)
Theorem C34_within_limits_partial : forall l main fuel, Forall bounded l -> (length l <= fuel)%nat ->
  exists r, resolve_line fuel main l = Ok r /\ map fst r = l /\ Forall (fun x => i_min (fst x) <= snd x <= i_max (fst x)) r.
Proof.
  intros l main fuel B Hf. unfold resolve_line. set (sum := sumq (map (fun i => hypo i + both i) l)). set (gr := ltq sum main). set (l0 := map (start (Qeq_bool sum main) gr) l).
  assert (Forall good l0) as G. { unfold l0. apply Forall_map. eapply Forall_impl; [|exact B]. intros i Hi. now apply start_good. }
  destruct (loop_ends gr main (free_space main l0) (fun _ => True) ltac:(auto) fuel l0) as (l' & El & Hm & Gl & _ & Ul); [pose proof (left_length l0) as K; unfold l0 in K at 2; rewrite map_length in K; lia|exact G|exact I|].
  exists (map (fun s => (s_item s, s_used s)) l'). rewrite El. split; [reflexivity|]. split.
  - rewrite map_map. cbn [fst]. change (map s_item l' = l). rewrite Hm. unfold l0. rewrite map_map. rewrite <- map_id. apply map_ext. intros i. apply start_item.
  - apply Forall_map. pose proof (all_frozen l' Ul) as Fr. rewrite Forall_forall in *. intros s Hs. cbn. exact (proj2 (Gl s Hs) (Fr s Hs)).
Qed.
Print Assumptions C34_within_limits_partial.

(** An item that is less than nothing wide and cannot grow, beside one that grows: the loop never ends.
    Its violation is counted in every turn and no other item makes up for it. *)
Definition narrow : item := mkItem 1 (-10) (-10) 1000 0 1 (LENGTH 0) (LENGTH 0).
Definition grower : item := mkItem 2 20 0 1000 1 1 (LENGTH 0) (LENGTH 0).
Theorem C34_terminates_refuted : forall fuel, resolve_line fuel 100 [narrow; grower] = OutOfFuel.
Proof.
  intros fuel. set (l := map (start false true) [narrow; grower]). set (init := free_space 100 l).
  change (omap (map (fun s => (s_item s, s_used s))) (loop fuel true 100 init l) = OutOfFuel).
  assert (forall n, loop n true 100 init (turn true 100 init l) = OutOfFuel) as K.
  { assert (turn true 100 init (turn true 100 init l) = turn true 100 init l) as E by (vm_compute; reflexivity).
    assert (exists u us, unfrozen (turn true 100 init l) = u :: us) as (u & us & Eu) by (do 2 eexists; vm_compute; reflexivity).
    induction n as [|n IH]; cbn [loop]; rewrite Eu; [reflexivity|]. rewrite E. exact IH. }
  assert (exists u us, unfrozen l = u :: us) as (u & us & Eu) by (do 2 eexists; vm_compute; reflexivity).
  destruct fuel as [|n]; cbn [loop]; rewrite Eu; [reflexivity|]. now rewrite K.
Qed.
Print Assumptions C34_terminates_refuted.
