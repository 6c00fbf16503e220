(** Proofs about [resolveExtends] and about counter scoping. *)
From Coq Require Import String List ZArith Bool Lia Permutation.
From Verif.Base Require Import Str Outcome.
From Verif.Style Require Import CounterModel CounterSpec CounterProofs.
Import ListNotations.
Local Open Scope list_scope.

(** * Maps *)

Lemma lookup_put {A} (m : list (str * A)) k a k' :
  lookup (put m k a) k' = if str_eqb k k' then Some a else lookup m k'.
Proof.
  induction m as [|[q b] m IH]; simpl.
  - reflexivity.
  - destruct (str_eqb q k) eqn:E; simpl.
    + apply str_eqb_spec in E. subst. destruct (str_eqb k k'); reflexivity.
    + rewrite IH. destruct (str_eqb q k') eqn:E2; auto.
      destruct (str_eqb k k') eqn:E3; auto.
      apply str_eqb_spec in E2, E3. subst. rewrite str_eqb_refl in E. discriminate.
Qed.

Lemma lookup_key {A} (m : list (str * A)) k a : lookup m k = Some a -> In k (map fst m).
Proof. intros H. apply lookup_in in H. apply in_map_iff. exists (k, a). auto. Qed.

Lemma key_lookup {A} (m : list (str * A)) k : In k (map fst m) -> exists a, lookup m k = Some a.
Proof.
  induction m as [|[q b] m IH]; simpl; [contradiction|].
  intros [->|I].
  - rewrite str_eqb_refl. eauto.
  - destruct (str_eqb q k); eauto.
Qed.

(** * Chains *)

Ltac same_desc :=
  repeat match goal with
  | A : lookup ?cs ?n = _, B : lookup ?cs ?n = _ |- _ =>
      rewrite A in B; first [discriminate B | injection B as <- | clear B]
  | A : d_system ?d = Some (Extends _), B : d_system ?d = Some (Extends _) |- _ =>
      rewrite A in B; first [injection B as <- | clear B]
  | A : d_system ?d = Some (Extends ?m), B : forall m0, d_system ?d <> Some (Extends m0) |- _ =>
      destruct (B m A)
  end.

Lemma chain_fun cs n l1 l2 : chain cs n l1 -> chain cs n l2 -> l1 = l2.
Proof.
  intros H; revert l2. induction H as [n L|n d L N|n d m l L E H IH];
    intros l2 H2; inversion H2; subst; same_desc; try reflexivity.
  f_equal. auto.
Qed.

(** One step of extends. *)
Definition ext_step (cs : list (str * cdesc)) (n m : str) : Prop :=
  exists d, lookup cs n = Some d /\ d_system d = Some (Extends m).

Inductive reaches (cs : list (str * cdesc)) : str -> str -> Prop :=
| reach_one n m : ext_step cs n m -> reaches cs n m
| reach_more n m k : reaches cs n m -> ext_step cs m k -> reaches cs n k.

Lemma chain_step cs n m l : ext_step cs n m -> chain cs n l -> exists d l', l = d :: l' /\ chain cs m l'.
Proof.
  intros (d & L & E) H. inversion H; subst; same_desc. eauto.
Qed.

Lemma chain_reaches cs n m : reaches cs n m -> forall l, chain cs n l ->
  exists l', chain cs m l' /\ length l' < length l.
Proof.
  induction 1 as [n m S|n m k R IH S]; intros l H.
  - destruct (chain_step _ _ _ _ S H) as (d & l' & -> & C). exists l'. simpl. split; auto.
  - destruct (IH _ H) as (l1 & C1 & L1).
    destruct (chain_step _ _ _ _ S C1) as (d & l' & -> & C). exists l'. simpl in *. split; auto; lia.
Qed.

Lemma cycle_no_chain cs n l : reaches cs n n -> ~ chain cs n l.
Proof.
  intros R C. destruct (chain_reaches _ _ _ R _ C) as (l' & C' & L).
  rewrite (chain_fun _ _ _ _ C C') in L. lia.
Qed.

(** * What the resolution of one name guarantees *)

Definition resolved_ok (cs : list (str * cdesc)) (n : str) (s : cstyle) : Prop :=
  (forall l, chain cs n l -> css_resolved l s) /\
  ((forall l, ~ chain cs n l) -> st_system s = Symbolic) /\
  (forall m, st_system s <> Extends m).

Lemma initial_missing cs n : lookup cs n = None -> resolved_ok cs n initial_style.
Proof.
  intros L. split; [|split; [auto|discriminate]].
  intros l H. inversion H; subst; try congruence. repeat split; reflexivity.
Qed.

Lemma initial_cycle cs n : reaches cs n n -> resolved_ok cs n initial_style.
Proof.
  intros R. split; [|split; [auto|discriminate]].
  intros l H. exfalso. eapply cycle_no_chain; eauto.
Qed.

Lemma resolved_base cs n d : lookup cs n = Some d ->
  (forall m, d_system d <> Some (Extends m)) -> resolved_ok cs n (desc_extends d initial_style).
Proof.
  intros L N. split; [|split].
  - intros l H. inversion H; subst; same_desc.
      unfold css_resolved; cbn -[of_string]; unfold own_system, unwrap_or.
      split.
      { destruct (d_system d) as [[]|] eqn:Y; auto. destruct (N name eq_refl). }
      split; [destruct (d_negative d) as [[? ?]|]; reflexivity|].
      split; [destruct (d_prefix d); reflexivity|].
      split; [destruct (d_suffix d); reflexivity|].
      split; [destruct (d_range d); reflexivity|].
      split; [destruct (d_pad d) as [[? ?]|]; reflexivity|].
      split; [destruct (d_fallback d); reflexivity|].
      split; [destruct (d_symbols d); reflexivity|].
      destruct (d_additive d); reflexivity.
  - intros H. exfalso. eapply H. eapply chain_base; eauto.
  - intros m. cbn. destruct (d_system d) eqn:E; cbn; try discriminate.
    intros ->. eapply N; eauto.
Qed.

Lemma resolved_ext cs n d m base : lookup cs n = Some d -> d_system d = Some (Extends m) ->
  resolved_ok cs m base -> resolved_ok cs n (set_system (desc_extends d base) (st_system base)).
Proof.
  intros L E (R1 & R2 & R3). split; [|split].
  - intros l H. inversion H; subst; same_desc.
      match goal with X : chain cs m ?l' |- _ => destruct (R1 _ X) as (A1 & A2 & A3 & A4 & A5 & A6 & A7 & A8 & A9) end.
      unfold css_resolved; cbn -[of_string first_given]; cbn [first_given].
      unfold own_system at 1. rewrite E.
      unfold unwrap_or.
      split; [exact A1|].
      repeat split.
      * destruct (d_negative d) as [[? ?]|]; cbn -[of_string first_given]; auto.
      * destruct (d_prefix d); auto.
      * destruct (d_suffix d); auto.
      * destruct (d_range d); auto.
      * destruct (d_pad d) as [[? ?]|]; cbn -[of_string first_given]; auto.
      * destruct (d_fallback d); auto.
      * destruct (d_symbols d); auto.
      * destruct (d_additive d); auto.
  - intros H. cbn. apply R2. intros l C. eapply H. eapply chain_ext; eauto.
  - intros k. cbn. apply R3.
Qed.

Definition all_ok (cs : list (str * cdesc)) (res : list (str * cstyle)) : Prop :=
  forall n s, lookup res n = Some s -> resolved_ok cs n s.

Lemma resolve_one_ok cs : forall fuel res seen n,
  all_ok cs res -> (forall m, In m seen -> reaches cs m n) ->
  avail (map fst cs) seen < fuel ->
  exists s res' seen', resolve_one fuel cs res seen n = Ok (s, res', seen') /\
    resolved_ok cs n s /\ all_ok cs res' /\
    (forall k, In k (map fst res) -> In k (map fst res')) /\
    (forall k, In k (map fst res') -> In k (map fst res) \/ In k (map fst cs)) /\
    (seen = [] -> In n (map fst cs) -> In n (map fst res')).
Proof.
  induction fuel as [|f IH]; intros res seen n A R F; [lia|].
  cbn [resolve_one]. destruct (lookup res n) as [s|] eqn:LR.
  { exists s, res, seen. split; [reflexivity|]. split; [apply A; auto|].
    repeat (split; [solve [auto]|]). eauto using lookup_key. }
  destruct (mem n seen) eqn:M.
  { apply mem_spec in M. exists initial_style, res, seen.
    split; [reflexivity|]. split; [apply initial_cycle; auto|]. repeat (split; [solve [auto]|]).
    intros ->. contradiction. }
  destruct (lookup cs n) as [d|] eqn:L.
  2: { exists initial_style, res, seen. split; [reflexivity|]. split; [now apply initial_missing|].
       repeat (split; [solve [auto]|]). intros _ I. apply key_lookup in I as [a Ha]. congruence. }
  apply mem_false in M.
  assert (PUT : forall res s, all_ok cs res -> resolved_ok cs n s -> all_ok cs (put res n s)).
  { intros r s Ar Rs k t. rewrite lookup_put. destruct (str_eqb n k) eqn:E.
    - apply str_eqb_spec in E. subst. intros [= <-]. auto.
    - apply Ar. }
  assert (KEY : forall (r : list (str * cstyle)) s k, In k (map fst (put r n s)) <-> k = n \/ In k (map fst r)).
  { intros r s k. induction r as [|[q b] r IHr]; simpl.
    - split; intros [|]; auto.
    - destruct (str_eqb q n) eqn:E; simpl.
      + apply str_eqb_spec in E. subst. split; [intros [|]|intros [|[|]]]; auto.
      + rewrite IHr. split; [intros [|[|]]|intros [|[|]]]; auto. }
  assert (BASE : (forall m, d_system d <> Some (Extends m)) ->
    exists (s : cstyle) (res' : list (str * cstyle)) (seen' : list str),
    Ok (desc_extends d initial_style, put res n (desc_extends d initial_style), n :: seen) = Ok (s, res', seen') /\
    resolved_ok cs n s /\ all_ok cs res' /\
    (forall k, In k (map fst res) -> In k (map fst res')) /\
    (forall k, In k (map fst res') -> In k (map fst res) \/ In k (map fst cs)) /\
    (seen = [] -> In n (map fst cs) -> In n (map fst res'))).
  { intros N. pose proof (resolved_base cs n d L N) as B. do 3 eexists. split; [reflexivity|].
    split; [exact B|]. split; [auto|]. split; [intros k K; apply KEY; auto|].
    split; [|intros _ _; apply KEY; auto].
    intros k K. apply KEY in K as [->|K]; auto. right. eauto using lookup_key. }
  destruct (d_system d) as [y|] eqn:E; [destruct y|]; try (apply BASE; congruence).
  destruct (IH res (n :: seen) name A) as (s & res' & seen' & -> & Rs & A' & K1 & K2 & _).
  { intros m [->|I].
    - apply reach_one. exists d. auto.
    - eapply reach_more; [apply R; auto|]. exists d. auto. }
  { pose proof (avail_lt (map fst cs) seen n (lookup_key _ _ _ L) M). lia. }
  cbn [obind].
  pose proof (resolved_ext cs n d name s L E Rs) as B.
  do 3 eexists. split; [reflexivity|]. split; [exact B|]. split; [auto|].
  split; [intros k K; apply KEY; auto|].
  split; [|intros _ _; apply KEY; auto].
  intros k K. apply KEY in K as [->|K]; auto. right. eauto using lookup_key.
Qed.

Lemma resolve_all_ok cs fuel : length cs < fuel -> forall keys res,
  all_ok cs res -> (forall k, In k keys -> In k (map fst cs)) ->
  (forall k, In k (map fst res) -> In k (map fst cs)) ->
  exists res', resolve_all fuel cs keys res = Ok res' /\ all_ok cs res' /\
    (forall k, In k keys \/ In k (map fst res) -> In k (map fst res')) /\
    (forall k, In k (map fst res') -> In k (map fst cs)).
Proof.
  intros F. induction keys as [|k keys IH]; intros res A K1 K2.
  { exists res. split; [reflexivity|]. split; [auto|]. split; [|auto].
    intros k [[]|]; auto. }
  cbn [resolve_all].
  destruct (resolve_one_ok cs fuel res [] k A) as (s & res' & seen' & -> & _ & A' & P1 & P2 & P3).
  { intros m []. }
  { pose proof (avail_bound (map fst cs) []) as B. rewrite map_length in B. exact (Nat.le_lt_trans _ _ _ B F). }
  cbn [obind].
  destruct (IH res') as (res'' & E & A'' & Q1 & Q2); auto.
  { intros q I. apply K1. simpl; auto. }
  { intros q I. apply P2 in I as [I|I]; auto. }
  exists res''. split; [exact E|]. split; [auto|]. split; [|auto].
  intros q [[->|I]|I]; apply Q1; auto. right. apply P3; auto. apply K1. simpl; auto.
Qed.

Lemma resolve_extends_ok cs fuel : length cs < fuel ->
  exists res, resolve_extends fuel cs = Ok res /\
    (forall n, In n (map fst cs) <-> In n (map fst res)) /\
    (forall n s, lookup res n = Some s -> resolved_ok cs n s).
Proof.
  intros F. destruct (resolve_all_ok cs fuel F (map fst cs) []) as (res & E & A & P & Q); auto.
  { intros n s. discriminate. }
  { intros k []. }
  exists res. split; [exact E|]. split; [|exact A].
  intros n. split; [intros I; apply P; auto|apply Q].
Qed.

(** * Counter sets *)

Local Open Scope Z_scope.

Definition view (s : list counter) (name : str) : cstate :=
  match inner_most s name with
  | Some (_, c) => Some (c_reversed c, c_value c)
  | None => None
  end.

Lemma inner_most_shift s name : forall i,
  inner_most_from i s name = match inner_most_from 0 s name with
                             | Some (j, c) => Some ((i + j)%nat, c) | None => None end.
Proof.
  induction s as [|c s IH]; intros i; cbn [inner_most_from]; auto.
  rewrite (IH (S i)), (IH 1%nat). destruct (inner_most_from 0 s name) as [[j c']|].
  - simpl. do 2 f_equal. lia.
  - destruct (str_eqb _ _); auto. rewrite Nat.add_0_r. auto.
Qed.

Lemma view_nil name : view [] name = None.
Proof. reflexivity. Qed.

Lemma view_cons c s name :
  view (c :: s) name = match view s name with
                       | Some x => Some x
                       | None => if str_eqb (c_name c) name then Some (c_reversed c, c_value c) else None
                       end.
Proof.
  unfold view, inner_most. cbn [inner_most_from]. rewrite inner_most_shift.
  destruct (inner_most_from 0 s name) as [[j c']|]; auto.
  destruct (str_eqb _ _); auto.
Qed.

Lemma view_app s1 s2 name :
  view (s1 ++ s2) name = match view s2 name with Some x => Some x | None => view s1 name end.
Proof.
  induction s1 as [|c s IH]; cbn [app].
  - destruct (view s2 name); auto.
  - rewrite !view_cons, IH. destruct (view s2 name); auto.
Qed.

Lemma view_inner s name : view s name = None <-> inner_most s name = None.
Proof. unfold view. destruct (inner_most s name) as [[? ?]|]; split; congruence. Qed.

Lemma inner_most_nth s name : forall j c,
  inner_most s name = Some (j, c) -> nth_error s j = Some c /\ c_name c = name.
Proof.
  unfold inner_most. induction s as [|x s IH]; intros j c; cbn [inner_most_from]; [discriminate|].
  rewrite inner_most_shift. destruct (inner_most_from 0 s name) as [[j' c']|] eqn:E.
  - intros [= <- <-]. simpl. auto.
  - destruct (str_eqb _ _) eqn:Q; [|discriminate]. intros [= <- <-]. simpl.
    apply str_eqb_spec in Q. auto.
Qed.

Lemma view_remove_other (s : list counter) i c name :
  nth_error s i = Some c -> str_eqb (c_name c) name = false ->
  view (remove_at i s) name = view s name.
Proof.
  unfold remove_at. revert s. induction i as [|i IH]; intros [|x s]; simpl; try discriminate.
  - intros [= ->] H. rewrite view_cons, H. destruct (view s name); auto.
  - intros N H. rewrite !view_cons.
    specialize (IH s N H). simpl in IH. rewrite IH. auto.
Qed.

Lemma view_instantiate el nm rev v s name :
  view (instantiate el nm rev v s) name = if str_eqb nm name then Some (rev, v) else view s name.
Proof.
  unfold instantiate. rewrite view_app, view_cons, view_nil. cbn [c_name c_reversed c_value].
  destruct (str_eqb nm name) eqn:E; auto.
  destruct (inner_most s nm) as [[i c]|] eqn:I; auto.
  destruct (Nat.eqb _ _); auto.
  apply inner_most_nth in I as [N Q]. eapply view_remove_other; eauto. congruence.
Qed.

Lemma view_update s nm f name :
  (forall c c', c_reversed c = c_reversed c' -> c_value c = c_value c' -> f c = f c') ->
  view (update_inner s nm f) name =
    if str_eqb nm name then
      match view s name with
      | Some (rev, v) => Some (rev, f (mkCounter nm 0 rev v))
      | None => None
      end
    else view s name.
Proof.
  intros Hf. induction s as [|c s IH]; cbn [update_inner].
  { destruct (str_eqb nm name); auto. }
  destruct (inner_most s nm) eqn:I.
  - rewrite !view_cons, IH. destruct (str_eqb nm name) eqn:E; auto.
    apply str_eqb_spec in E. subst.
    destruct (view s name) as [[rev v]|] eqn:V; auto.
    apply view_inner in V. congruence.
  - apply view_inner in I.
    destruct (str_eqb (c_name c) nm) eqn:Q.
    + apply str_eqb_spec in Q. rewrite !view_cons. cbn [c_name c_reversed c_value]. rewrite Q.
      destruct (str_eqb nm name) eqn:E.
      * apply str_eqb_spec in E. rewrite E in *. rewrite I.
        do 2 f_equal. apply Hf; reflexivity.
      * reflexivity.
    + rewrite view_cons. destruct (str_eqb nm name) eqn:E; auto.
      apply str_eqb_spec in E. subst. rewrite I, Q. auto.
Qed.

Lemma view_ensure el nm s name :
  view (ensure el nm s) name =
    if str_eqb nm name then Some (unwrap_or (view s name) (false, 0)) else view s name.
Proof.
  unfold ensure. destruct (inner_most s nm) as [[i c]|] eqn:I.
  - destruct (str_eqb nm name) eqn:E; auto. apply str_eqb_spec in E. subst.
    unfold view. rewrite I. reflexivity.
  - rewrite view_instantiate. destruct (str_eqb nm name) eqn:E; auto.
    apply str_eqb_spec in E. subst. apply view_inner in I. rewrite I. reflexivity.
Qed.

Lemma view_increment el i s name :
  view (increment el i s) name =
    if str_eqb (fst i) name then
      let '(rev, v) := unwrap_or (view s name) (false, 0) in
      Some (rev, if rev : bool then v - unwrap_or (snd i) 1 else v + unwrap_or (snd i) 1)
    else view s name.
Proof.
  unfold increment. rewrite view_update by (intros c c' -> ->; reflexivity). rewrite view_ensure.
  destruct (str_eqb (fst i) name); auto.
  destruct (unwrap_or (view s name) (false, 0)) as [rev v]. cbn [c_value c_reversed].
  do 2 f_equal. destruct rev; lia.
Qed.

Lemma view_set el i s name :
  view (cset el i s) name =
    if str_eqb (fst i) name then
      Some (fst (unwrap_or (view s name) (false, 0)), unwrap_or (snd i) 0)
    else view s name.
Proof.
  unfold cset. rewrite view_update by reflexivity. rewrite view_ensure.
  destruct (str_eqb (fst i) name); auto.
  destruct (unwrap_or (view s name) (false, 0)) as [rev v]. reflexivity.
Qed.

Lemma view_fold {X} (f : list counter -> X -> list counter) (g : cstate -> X -> cstate) name l :
  (forall s x, view (f s x) name = g (view s name) x) ->
  forall s, view (fold_left f l s) name = fold_left g l (view s name).
Proof.
  intros H. induction l as [|x l IH]; intros s; simpl; auto. rewrite IH, H. auto.
Qed.

Lemma inherits_id parent sibling : inherits parent sibling = sibling.
Proof.
  unfold inherits. destruct sibling as [|c s]; auto.
  set (src := c :: s).
  assert (H : forall l, (forall x, In x l -> In x src) ->
            filter (fun c0 => cset_contains src (c_name c0) (c_el c0)) l = l).
  { induction l as [|x l IH]; intros Sub; auto. cbn [filter].
    assert (cset_contains src (c_name x) (c_el x) = true) as ->.
    { unfold cset_contains. apply existsb_exists. exists x. split; [apply Sub; simpl; auto|].
      now rewrite str_eqb_refl, Nat.eqb_refl. }
    f_equal. apply IH. intros y I. apply Sub. simpl; auto. }
  apply H. auto.
Qed.

Lemma view_resolve parent sibling el o name :
  view (resolve_counter parent sibling el o) name = ops_effect name o (view sibling name).
Proof.
  unfold resolve_counter, ops_effect. rewrite inherits_id.
  rewrite (view_fold _ (fun st (i : str * option Z) =>
               if str_eqb (fst i) name
               then Some (fst (unwrap_or st (false, 0)), unwrap_or (snd i) 0) else st))
    by (intros; apply view_set).
  f_equal.
  set (s1 := fold_left _ (o_reset o) sibling).
  assert (E1 : view s1 name = fold_left (fun st r => if str_eqb (r_name r) name
            then Some (r_reversed r, r_value r) else st) (o_reset o) (view sibling name)).
  { unfold s1. apply (view_fold _ (fun st r => if str_eqb (r_name r) name
            then Some (r_reversed r, r_value r) else st)). intros. apply view_instantiate. }
  rewrite <- E1.
  destruct (o_increment o) as [|i l].
  - destruct (o_item o); [|reflexivity]. simpl fold_left. rewrite view_increment. reflexivity.
  - apply view_fold. intros. apply view_increment.
Qed.

Lemma inner_most_value_view s name : inner_most_value s name = state_value (view s name).
Proof.
  unfold inner_most_value, state_value, view. destruct (inner_most s name) as [[i c]|]; reflexivity.
Qed.

(** The loop of [_resolveCounters] over the children. *)
Fixpoint children_log (cur sib : list counter) (l : list celem) : list (nat * list counter) :=
  match l with
  | [] => []
  | c :: r =>
      let '(s, log) := resolve_counters cur sib c in
      log ++ (ce_id c, s) :: children_log cur s r
  end.

Lemma resolve_counters_eq parent sibling e :
  resolve_counters parent sibling e =
  (resolve_counter parent sibling (ce_id e) (ce_ops e),
   children_log (resolve_counter parent sibling (ce_id e) (ce_ops e)) [] (ce_children e)).
Proof.
  destruct e as [i o l]. cbn [resolve_counters ce_id ce_ops ce_children]. f_equal.
  generalize (@nil counter) as sib. induction l as [|c r IH]; intros sib; auto.
  cbn [children_log]. destruct (resolve_counters _ sib c). f_equal. f_equal. apply IH.
Qed.

Lemma fst_resolve_counters parent sibling e :
  fst (resolve_counters parent sibling e) = resolve_counter parent sibling (ce_id e) (ce_ops e).
Proof. rewrite resolve_counters_eq. reflexivity. Qed.

Lemma celem_ind' (P : celem -> Prop) :
  (forall i o l, Forall P l -> P (CElem i o l)) -> forall e, P e.
Proof.
  intros H. fix IH 1. intros [i o l]. apply H.
  induction l as [|c r IHl]; constructor; [apply IH|exact IHl].
Qed.

(** Siblings: the state after the first children. *)
Lemma children_log_in cur : forall pre sib c post,
  exists s, In (ce_id c, s) (children_log cur sib (pre ++ c :: post)) /\
    forall name, view s name =
      fold_left (fun st e => ops_effect name (ce_ops e) st) (pre ++ [c]) (view sib name).
Proof.
  induction pre as [|x pre IH]; intros sib c post; cbn [app children_log].
  - rewrite resolve_counters_eq. eexists. split; [apply in_or_app; right; left; reflexivity|].
    intros name. cbn [app fold_left]. apply view_resolve.
  - rewrite resolve_counters_eq.
    destruct (IH (resolve_counter cur sib (ce_id x) (ce_ops x)) c post) as (s & I & V).
    exists s. split; [apply in_or_app; right; right; exact I|].
    intros name. rewrite V. cbn [app fold_left]. now rewrite view_resolve.
Qed.

(** In any tree, the counters stored on a child depend on its preceding siblings only. *)
Lemma sibling_state p root pre c post :
  occurs p root -> ce_children p = pre ++ c :: post ->
  exists s, In (ce_id c, s) (style_counters root) /\
    forall name, view s name =
      fold_left (fun st e => ops_effect name (ce_ops e) st) (pre ++ [c]) None.
Proof.
  intros O E. unfold style_counters.
  enough (H : forall par sib, exists s, In (ce_id c, s) (snd (resolve_counters par sib root)) /\
     forall name, view s name =
      fold_left (fun st e => ops_effect name (ce_ops e) st) (pre ++ [c]) None) by apply H.
  induction O as [|e' c' I O IH]; intros par sib.
  - rewrite resolve_counters_eq, E. cbn [snd].
    destruct (children_log_in (resolve_counter par sib (ce_id p) (ce_ops p)) pre [] c post)
      as (s & In' & V). exists s. split; auto.
  - rewrite resolve_counters_eq. cbn [snd].
    generalize (resolve_counter par sib (ce_id e') (ce_ops e')) as cur. intros cur.
    revert I. generalize (@nil counter) as sb. induction (ce_children e') as [|y l IHl]; intros sb I; [contradiction|].
    cbn [children_log]. destruct I as [->|I].
    + destruct (IH cur sb) as (s & In' & V). exists s. split; auto.
      destruct (resolve_counters cur sb c'). apply in_or_app. left. exact In'.
    + destruct (resolve_counters cur sb y) as [s0 log] eqn:R.
      destruct (IHl s0 I) as (s & In' & V). exists s. split; auto.
      apply in_or_app. right. right. exact In'.
Qed.

(** Every element below the root gets exactly one counter set. *)
Lemma log_ids : forall e par sib,
  Permutation (map fst (snd (resolve_counters par sib e))) (flat_map ids (ce_children e)).
Proof.
  induction e as [i o l F] using celem_ind'. intros par sib. rewrite resolve_counters_eq. cbn [snd ce_children].
  generalize (resolve_counter par sib (ce_id (CElem i o l)) (ce_ops (CElem i o l))) as cur.
  intros cur. generalize (@nil counter) as sb.
  induction F as [|c l Hc F IHl]; intros sb; cbn [children_log flat_map]; auto.
  specialize (Hc cur sb). destruct (resolve_counters cur sb c) as [s log].
  rewrite map_app. cbn [map fst]. destruct c as [j p cl]. cbn [ids ce_id ce_children snd] in *.
  cbn [app]. rewrite <- Permutation_middle. apply perm_skip. apply Permutation_app; auto.
Qed.
