(** Proofs about the rule index. *)
From Coq Require Import String List NArith ZArith Bool Arith Lia Permutation Sorted.
From Verif.Base Require Import Str.
From Verif.Style Require Import AnBModel CascadeModel SelectorModel SelectorSpec SelectorProofs
  IndexModel IndexSpec.
Import ListNotations.
Local Open Scope list_scope.

Lemma key_eqb_spec a b : key_eqb a b = true <-> a = b.
Proof.
  destruct a, b; simpl; rewrite ?andb_true_iff, ?str_eqb_spec; split;
    try (intros [= ->]; reflexivity); try congruence; try (intros [= -> ->]; split; reflexivity).
  intros [-> ->]; reflexivity.
Qed.
Lemma key_eqb_refl a : key_eqb a a = true.
Proof. now apply key_eqb_spec. Qed.
Lemma key_dec (a b : key) : {a = b} + {a <> b}.
Proof.
  destruct (key_eqb a b) eqn:E; [left; now apply key_eqb_spec|right].
  intros ->. rewrite key_eqb_refl in E. discriminate.
Qed.
Definition kcount := count_occ key_dec.

(** ** The tables *)

Definition leaf (s : selector) : key :=
  match s with
  | TypeSel q => if lookup_equiv_type q
                 then match exact_name q with Some n => KType n | None => KNone end else KNone
  | PseudoElemSel ty => KPseudo ty
  | IdSel i => KId i
  | ClassSel c => KClass c
  | AttrSel a =>
      if lookup_equiv_attr a
      then match exact_name (as_name a) with
           | Some n => match as_match a with EXACT => KAttrExact n (as_value a) | _ => KAttrPresent n end
           | None => KNone
           end
      else KNone
  | _ => KNone
  end.

Definition leaves_nfix (ty : nfix_ty) (l : list selector) : list key :=
  match ty with
  | AND => match filter lookup_equiv l with [] => [KNone] | f => map leaf f end
  | OR => map leaf (filter lookup_equiv l) ++
          (if forallb lookup_equiv l then [] else [KNone])
  | _ => [KNone]
  end.

Definition leaves (s : selector) : list key :=
  match s with
  | Infix _ _ (Nfix ty l) => leaves_nfix ty l
  | Infix _ _ r => [leaf r]
  | Nfix ty l => leaves_nfix ty l
  | _ => [leaf s]
  end.

Definition pushes (m : list (key * list ientry)) (ks : list key) (e : ientry) :=
  fold_left (fun m k => tpush m k e) ks m.

Lemma add_simple_tables ix e s :
  (forall ty l, s <> Nfix ty l) -> (forall ty l r, s <> Infix ty l r) ->
  add_simple ix e s = push ix (leaf s) e.
Proof.
  intros H1 H2. destruct s as [ty l|ty l r|q| | | | | | | |a]; try reflexivity.
  - simpl. unfold lookup_equiv_type, has_exact_name.
    destruct (is_universal_ns q), (exact_name q); reflexivity.
  - simpl. unfold lookup_equiv_attr, has_exact_name.
    destruct (as_match a), (is_universal_ns (as_name a)), (exact_name (as_name a)); reflexivity.
Qed.

Lemma lookup_equiv_simple s : lookup_equiv s = true ->
  (forall ty l, s <> Nfix ty l) /\ (forall ty l r, s <> Infix ty l r).
Proof. destruct s; simpl; try discriminate; intros _; split; congruence. Qed.

Lemma add_and_tables e l : forall ix n,
  add_and ix e l n =
  (mkIndex (ix_count ix) (pushes (ix_tables ix) (map leaf (filter lookup_equiv l)) e) (ix_needed ix),
   n + length (filter lookup_equiv l)).
Proof.
  induction l as [|i l IH]; intros ix n; simpl.
  - rewrite Nat.add_0_r. destruct ix; reflexivity.
  - destruct (lookup_equiv i) eqn:E; [|apply IH].
    destruct (lookup_equiv_simple _ E). rewrite add_simple_tables, IH by assumption. simpl.
    f_equal. lia.
Qed.

Lemma add_or_tables e l : forall ix b,
  add_or ix e l b =
  (mkIndex (ix_count ix) (pushes (ix_tables ix) (map leaf (filter lookup_equiv l)) e) (ix_needed ix),
   b || negb (forallb lookup_equiv l)).
Proof.
  induction l as [|i l IH]; intros ix b; simpl.
  - rewrite orb_false_r. destruct ix; reflexivity.
  - destruct (lookup_equiv i) eqn:E.
    + destruct (lookup_equiv_simple _ E). rewrite add_simple_tables, IH by assumption. reflexivity.
    + rewrite IH. simpl. rewrite orb_true_r. reflexivity.
Qed.

Definition needed_nfix (ty : nfix_ty) (l : list selector) : option nat :=
  match ty with
  | AND => match filter lookup_equiv l with [] => None | f => Some (length f) end
  | _ => None
  end.
Definition needed_of (s : selector) : option nat :=
  match s with
  | Nfix ty l => needed_nfix ty l
  | Infix _ _ (Nfix ty l) => needed_nfix ty l
  | _ => None
  end.

Lemma add_nfix_eq ix e ty l :
  add_nfix ix e ty l =
  mkIndex (ix_count ix) (pushes (ix_tables ix) (leaves_nfix ty l) e)
    (match needed_nfix ty l with Some n => nput (ix_needed ix) (ie_order e) n | None => ix_needed ix end).
Proof.
  destruct ty; try reflexivity; unfold add_nfix, leaves_nfix, needed_nfix.
  - rewrite add_and_tables. simpl. destruct (filter lookup_equiv l); reflexivity.
  - rewrite add_or_tables. simpl. destruct (forallb lookup_equiv l); simpl.
    + now rewrite app_nil_r.
    + unfold push, pushes. simpl. now rewrite fold_left_app.
Qed.

Lemma add_sel_eq ix e s :
  add_sel ix e s =
  mkIndex (ix_count ix) (pushes (ix_tables ix) (leaves s) e)
    (match needed_of s with Some n => nput (ix_needed ix) (ie_order e) n | None => ix_needed ix end).
Proof.
  destruct s as [ty l|c l r|q| | | | | | | |a]; try reflexivity.
  - apply add_nfix_eq.
  - destruct r as [ty' l'|c' l' r'|q| | | | | | | |a]; try reflexivity.
    + apply add_nfix_eq.
    + unfold add_sel. destruct (lookup_equiv (TypeSel q)) eqn:E.
      * now rewrite add_simple_tables.
      * simpl in E. unfold leaves, leaf. rewrite E. reflexivity.
    + unfold add_sel. destruct (lookup_equiv (AttrSel a)) eqn:E.
      * now rewrite add_simple_tables.
      * simpl in E. unfold leaves, leaf. rewrite E. reflexivity.
  - unfold add_sel. now rewrite add_simple_tables.
  - unfold add_sel. now rewrite add_simple_tables.
Qed.

Definition bucket (m : list (key * list ientry)) (k : key) : list ientry :=
  match tlookup m k with Some v => v | None => [] end.

Lemma bucket_tpush m k e k' :
  bucket (tpush m k e) k' = bucket m k' ++ (if key_eqb k k' then [e] else []).
Proof.
  unfold bucket. induction m as [|[k0 v] m IH]; simpl.
  - destruct (key_eqb k k'); reflexivity.
  - destruct (key_eqb k0 k) eqn:E; simpl.
    + apply key_eqb_spec in E as ->. destruct (key_eqb k k'); [reflexivity|]. now rewrite app_nil_r.
    + destruct (key_eqb k0 k') eqn:E'; [|exact IH].
      destruct (key_eqb k k') eqn:E''; [|now rewrite app_nil_r].
      apply key_eqb_spec in E', E''. subst. rewrite key_eqb_refl in E. discriminate.
Qed.

Lemma bucket_pushes ks e : forall m k,
  bucket (pushes m ks e) k = bucket m k ++ repeat e (kcount ks k).
Proof.
  induction ks as [|k0 ks IH]; intros m k; simpl.
  - now rewrite app_nil_r.
  - rewrite IH, bucket_tpush. unfold kcount. simpl. destruct (key_dec k0 k) as [->|N].
    + rewrite key_eqb_refl, <- app_assoc. reflexivity.
    + destruct (key_eqb k0 k) eqn:E; [apply key_eqb_spec in E; congruence|]. now rewrite app_nil_r.
Qed.

Definition nonempties (m : list (key * list ientry)) := Forall (fun kv => snd kv <> []) m.

Lemma nonempties_pushes ks e : forall m, nonempties m -> nonempties (pushes m ks e).
Proof.
  induction ks as [|k0 ks IH]; intros m Hm; simpl; [exact Hm|]. apply IH.
  clear IH ks. induction Hm as [|[k1 v1] m H Hm IHm]; simpl.
  - repeat constructor. discriminate.
  - destruct (key_eqb k1 k0); constructor; auto. simpl. destruct v1; discriminate.
Qed.

Lemma nonempties_lookup m k v : nonempties m -> tlookup m k = Some v -> v <> [].
Proof.
  induction 1 as [|[k1 v1] m H Hm IHm]; simpl; [discriminate|].
  destruct (key_eqb k1 k); [intros [= <-]; exact H|exact IHm].
Qed.

Lemma nlookup_nput m k v k' :
  nlookup (nput m k v) k' = if k =? k' then Some v else nlookup m k'.
Proof.
  induction m as [|[k0 w] m IH]; simpl; [reflexivity|].
  destruct (k0 =? k) eqn:E; simpl.
  - apply Nat.eqb_eq in E as ->. destruct (k =? k'); reflexivity.
  - destruct (k0 =? k') eqn:E'; [|exact IH].
    destruct (k =? k') eqn:E''; [|reflexivity].
    apply Nat.eqb_eq in E', E''. subst. rewrite Nat.eqb_refl in E. discriminate.
Qed.

Lemma number_order i rules e : In e (number i rules) -> i <= ie_order e < i + length rules.
Proof.
  revert i. induction rules as [|s l IH]; intros i; simpl; [tauto|].
  intros [<-|H]; simpl; [lia|]. apply IH in H. lia.
Qed.

Lemma number_app i a b : number i (a ++ b) = number i a ++ number (i + length a) b.
Proof.
  revert i. induction a as [|s a IH]; intros i; simpl; [now rewrite Nat.add_0_r|].
  f_equal. rewrite IH. do 2 f_equal. lia.
Qed.

Lemma build_spec rules :
  let ix := build rules in
  ix_count ix = length rules /\
  nonempties (ix_tables ix) /\
  (forall k, bucket (ix_tables ix) k =
     flat_map (fun e => repeat e (kcount (leaves (ie_rule e)) k)) (number 1 rules)) /\
  (forall e, In e (number 1 rules) -> nlookup (ix_needed ix) (ie_order e) = needed_of (ie_rule e)) /\
  (forall i, length rules < i -> nlookup (ix_needed ix) i = None).
Proof.
  induction rules as [|s rules IH] using rev_ind.
  - cbn. repeat split; auto. constructor. intros e [].
  - cbv zeta in *. unfold build in *. rewrite fold_left_app. simpl fold_left.
    set (ix := fold_left add rules index_empty) in *.
    destruct IH as (H1 & H2 & H3 & H4 & H5). unfold add. rewrite add_sel_eq. cbn [ix_count ix_tables ix_needed ie_order].
    rewrite app_length, H1. simpl length. split; [lia|]. split; [now apply nonempties_pushes|].
    split; [|split].
    + intros k. rewrite bucket_pushes, H3, number_app, flat_map_app. simpl.
      now rewrite app_nil_r.
    + intros e He. rewrite number_app in He. apply in_app_or in He as [He|[<-|[]]]; simpl.
      * pose proof (number_order _ _ _ He) as Ho.
        destruct (needed_of s); [|now apply H4].
        rewrite nlookup_nput. destruct (S (length rules) =? ie_order e) eqn:E; [|now apply H4].
        apply Nat.eqb_eq in E. lia.
      * destruct (needed_of s); [rewrite nlookup_nput, Nat.eqb_refl; reflexivity|].
        apply H5. lia.
    + intros i Hi. destruct (needed_of s); [rewrite nlookup_nput|apply H5; lia].
      destruct (S (length rules) =? i) eqn:E; [apply Nat.eqb_eq in E; lia|apply H5; lia].
Qed.

(** ** Merging *)

Definition head_le (n : nat) (c : list ientry) : Prop :=
  match c with [] => True | e :: _ => n <= ie_order e end.

Lemma best_from_spec cs : Forall (fun c => c <> []) cs ->
  forall pre i b bo, length pre = i -> b < i ->
  (exists e r, nth_error pre b = Some (e :: r) /\ ie_order e = bo) ->
  Forall (head_le bo) pre ->
  exists j e r, best_from cs i b bo = Some j /\ nth_error (pre ++ cs) j = Some (e :: r) /\
  Forall (head_le (ie_order e)) (pre ++ cs).
Proof.
  induction 1 as [|c cs Hc Hcs IH]; intros pre i b bo Hl Hb (e & r & He & Ho) Hp.
  - exists b, e, r. rewrite app_nil_r. simpl. rewrite Ho. auto.
  - destruct c as [|e' r']; [congruence|]. simpl.
    destruct (ie_order e' <? bo) eqn:E.
    + apply Nat.ltb_lt in E.
      destruct (IH (pre ++ [e' :: r']) (S i) i (ie_order e')) as (j & e1 & r1 & H1 & H2 & H3).
      * rewrite app_length. simpl. lia.
      * lia.
      * exists e', r'. rewrite nth_error_app2 by lia. replace (i - length pre) with 0 by lia. auto.
      * apply Forall_app. split; [|constructor; [simpl; lia|constructor]].
        eapply Forall_impl; [|exact Hp]. intros [|x y]; simpl; lia.
      * exists j, e1, r1. rewrite <- app_assoc in H2, H3. auto.
    + apply Nat.ltb_ge in E.
      destruct (IH (pre ++ [e' :: r']) (S i) b bo) as (j & e1 & r1 & H1 & H2 & H3).
      * rewrite app_length. simpl. lia.
      * lia.
      * exists e, r. rewrite nth_error_app1 by lia. auto.
      * apply Forall_app. split; [exact Hp|]. constructor; [simpl; lia|constructor].
      * exists j, e1, r1. rewrite <- app_assoc in H2, H3. auto.
Qed.

Lemma best_spec cs : cs <> [] -> Forall (fun c => c <> []) cs ->
  exists j e r, best cs = Some j /\ nth_error cs j = Some (e :: r) /\
  Forall (head_le (ie_order e)) cs.
Proof.
  intros Hn H. destruct H as [|c cs Hc Hcs]; [congruence|].
  destruct c as [|e r]; [congruence|].
  destruct (best_from_spec cs Hcs [e :: r] 1 0 (ie_order e)) as (j & e1 & r1 & H1 & H2 & H3); auto.
  - exists e, r. auto.
  - constructor; [simpl; lia|constructor].
  - exists j, e1, r1. auto.
Qed.

Lemma set_nth_split {A} (l1 : list A) x y l2 : set_nth (length l1) y (l1 ++ x :: l2) = l1 ++ y :: l2.
Proof. induction l1 as [|a l1 IH]; simpl; [reflexivity|]. now rewrite IH. Qed.

Lemma removelast_set_last {A} (l1 : list A) x l2 d :
  Permutation (removelast (set_nth (length l1) (last (l1 ++ x :: l2) d) (l1 ++ x :: l2))) (l1 ++ l2).
Proof.
  rewrite set_nth_split. destruct (exists_last (l := x :: l2)) as (l2' & z & Hz); [discriminate|].
  rewrite Hz at 1. rewrite app_assoc, last_last.
  destruct l2 as [|y l2].
  - rewrite removelast_last, app_nil_r. reflexivity.
  - destruct l2' as [|x' l2']; [destruct l2; discriminate|]. injection Hz as <- Hz. rewrite Hz.
    replace (l1 ++ z :: l2' ++ [z]) with ((l1 ++ z :: l2') ++ [z]) by (rewrite <- app_assoc; reflexivity).
    rewrite removelast_last. apply Permutation_app_head.
    rewrite Permutation_app_comm. reflexivity.
Qed.

Lemma concat_perm {A} (a b : list (list A)) : Permutation a b -> Permutation (concat a) (concat b).
Proof.
  induction 1 as [|x a b _ IH|x y a|a b c _ IH1 _ IH2]; simpl.
  - reflexivity.
  - now apply Permutation_app_head.
  - rewrite !app_assoc. apply Permutation_app_tail, Permutation_app_comm.
  - now transitivity (concat b).
Qed.

Definition asc (c : list ientry) := StronglySorted (fun a b => ie_order a <= ie_order b) c.

Lemma advance_spec cs j e r :
  nth_error cs j = Some (e :: r) ->
  Forall (fun c => c <> []) cs -> Forall asc cs ->
  Permutation (concat cs) (e :: concat (advance cs j)) /\
  Forall (fun c => c <> []) (advance cs j) /\ Forall asc (advance cs j).
Proof.
  intros Hj Hn Hs. unfold advance. rewrite Hj. cbn [tl].
  apply nth_error_split in Hj as (l1 & l2 & -> & <-).
  apply Forall_app in Hn as [Hn1 Hn2]. inversion Hn2 as [|? ? _ Hn3]; subst.
  apply Forall_app in Hs as [Hs1 Hs2]. inversion Hs2 as [|? ? Hs3 Hs4]; subst.
  assert (Hp0 : Permutation (concat (l1 ++ (e :: r) :: l2)) (e :: concat (l1 ++ r :: l2))).
  { rewrite !concat_app. simpl. symmetry. apply Permutation_middle. }
  destruct r as [|e' r].
  - pose proof (removelast_set_last l1 [e] l2 []) as Hp. split; [|split].
    + rewrite Hp0. constructor. rewrite (concat_perm _ _ Hp), !concat_app. simpl. reflexivity.
    + eapply Permutation_Forall; [symmetry; exact Hp|]. now apply Forall_app.
    + eapply Permutation_Forall; [symmetry; exact Hp|]. now apply Forall_app.
  - rewrite set_nth_split. split; [exact Hp0|]. split.
    + apply Forall_app. split; [exact Hn1|]. constructor; [discriminate|exact Hn3].
    + apply Forall_app. split; [exact Hs1|]. constructor; [|exact Hs4].
      now inversion Hs3.
Qed.

(** The order in which the loop visits the entries. *)
Fixpoint emit (fuel : nat) (cs : list (list ientry)) : list ientry :=
  match fuel with
  | 0 => []
  | S f => match best cs with
           | None => []
           | Some j => match nth_error cs j with
                       | Some (e :: _) => e :: emit f (advance cs j)
                       | _ => []
                       end
           end
  end.

Definition run (ix : index) (t : node) (p : path) (pe : option str) (l : list ientry) (st : option mstate)
  : option mstate :=
  fold_left (fun st e => match st with Some st => step ix t p pe st e | None => None end) l st.

Lemma run_none ix t p pe l : run ix t p pe l None = None.
Proof. induction l as [|e l IH]; [reflexivity|exact IH]. Qed.

Lemma merge_emit ix t p pe fuel : forall cs st,
  Forall (fun c => c <> []) cs -> Forall asc cs -> length (concat cs) <= fuel ->
  merge ix t p pe fuel cs st =
    match run ix t p pe (emit fuel cs) (Some st) with Some st => finalize t p pe st | None => None end /\
  Permutation (concat cs) (emit fuel cs) /\ asc (emit fuel cs).
Proof.
  induction fuel as [|fuel IH]; intros cs st Hn Hs Hl.
  - destruct cs as [|c cs].
    + simpl. repeat split; constructor.
    + inversion Hn; subst. destruct c; [congruence|]. simpl in Hl. lia.
  - destruct cs as [|c0 cs0] eqn:Ecs.
    + simpl. repeat split; constructor.
    + rewrite <- Ecs in *. assert (Hne : cs <> []) by (rewrite Ecs; discriminate).
      destruct (best_spec cs Hne Hn) as (j & e & r & Hb & Hj & Hmin).
      destruct (advance_spec cs j e r Hj Hn Hs) as (Hp & Hn' & Hs').
      assert (Hl' : length (concat (advance cs j)) <= fuel).
      { apply Permutation_length in Hp. simpl in Hp. lia. }
      assert (Hm : merge ix t p pe (S fuel) cs st =
        match step ix t p pe st e with
        | None => None | Some st' => merge ix t p pe fuel (advance cs j) st' end).
      { rewrite Ecs at 1. cbn [merge]. rewrite <- Ecs, Hb, Hj. reflexivity. }
      cbn [emit]. rewrite Hb, Hj. split; [|split].
      * rewrite Hm. cbn [run fold_left]. fold (run ix t p pe (emit fuel (advance cs j)) (step ix t p pe st e)).
        destruct (step ix t p pe st e) as [st'|].
        -- apply IH; assumption.
        -- now rewrite run_none.
      * destruct (IH (advance cs j) st Hn' Hs' Hl') as (_ & Hpp & _).
        rewrite Hp. now constructor.
      * destruct (IH (advance cs j) st Hn' Hs' Hl') as (_ & Hpp & Ha).
        constructor; [exact Ha|].
        eapply Permutation_Forall; [exact Hpp|].
        apply Forall_forall. intros x Hx.
        assert (Hx' : In x (concat cs)).
        { eapply Permutation_in; [symmetry; exact Hp|now right]. }
        apply in_concat in Hx' as (c & Hc & Hxc).
        rewrite Forall_forall in Hmin, Hs. specialize (Hmin c Hc). specialize (Hs c Hc).
        destruct c as [|y c]; [destruct Hxc|]. simpl in Hmin.
        destruct Hxc as [->|Hxc]; [exact Hmin|].
        apply StronglySorted_inv in Hs as [_ Hs]. rewrite Forall_forall in Hs.
        specialize (Hs x Hxc). lia.
Qed.

(** Sorted lists with the same elements are equal. *)
Lemma asc_perm_eq l1 : forall l2,
  asc l1 -> asc l2 -> Permutation l1 l2 ->
  (forall a b, In a l1 -> In b l1 -> ie_order a = ie_order b -> a = b) -> l1 = l2.
Proof.
  induction l1 as [|a l1 IH]; intros l2 H1 H2 Hp Hi.
  - apply Permutation_nil in Hp. congruence.
  - destruct l2 as [|b l2]; [symmetry in Hp; apply Permutation_nil in Hp; discriminate|].
    apply StronglySorted_inv in H1 as [H1 H1']. apply StronglySorted_inv in H2 as [H2 H2'].
    rewrite Forall_forall in H1', H2'.
    assert (Hab : a = b).
    { assert (Ha : In a (b :: l2)) by (eapply Permutation_in; [exact Hp|now left]).
      assert (Hb : In b (a :: l1)) by (eapply Permutation_in; [symmetry; exact Hp|now left]).
      apply Hi; [now left|exact Hb|].
      assert (ie_order b <= ie_order a) by (destruct Ha as [->|Ha]; [lia|now apply H2']).
      assert (ie_order a <= ie_order b) by (destruct Hb as [->|Hb]; [lia|now apply H1']).
      lia. }
    subst b. f_equal. apply IH; auto.
    + now apply Permutation_cons_inv in Hp.
    + intros x y Hx Hy. apply Hi; now right.
Qed.

(** ** The entries visited for an element *)

Definition hits (ks : list key) (s : selector) : nat :=
  list_sum (map (fun k => kcount (leaves s) k) ks).

Definition canon (ks : list key) (l : list ientry) : list ientry :=
  flat_map (fun e => repeat e (hits ks (ie_rule e))) l.

Lemma flat_map_app_perm {A B} (f g : A -> list B) l :
  Permutation (flat_map f l ++ flat_map g l) (flat_map (fun x => f x ++ g x) l).
Proof.
  induction l as [|x l IH]; simpl; [reflexivity|].
  rewrite <- app_assoc, <- app_assoc. apply Permutation_app_head.
  rewrite Permutation_app_comm, <- app_assoc. apply Permutation_app_head.
  now rewrite Permutation_app_comm.
Qed.

Lemma canon_perm ks l :
  Permutation (flat_map (fun k => flat_map (fun e => repeat e (kcount (leaves (ie_rule e)) k)) l) ks)
    (canon ks l).
Proof.
  unfold canon. induction ks as [|k ks IH]; simpl.
  - unfold hits. simpl. induction l; simpl; auto.
  - rewrite IH, flat_map_app_perm. apply Permutation_refl'. apply flat_map_ext.
    intros e. unfold hits. simpl. now rewrite repeat_app.
Qed.

Lemma asc_app a b : asc a -> asc b -> (forall x y, In x a -> In y b -> ie_order x <= ie_order y) ->
  asc (a ++ b).
Proof.
  intros Ha Hb H. induction Ha as [|x a Ha IH Hx]; simpl; [exact Hb|].
  constructor.
  - apply IH. intros u v Hu. apply H. now right.
  - apply Forall_app. split; [exact Hx|]. apply Forall_forall. intros y Hy. apply H; [now left|exact Hy].
Qed.

Lemma asc_repeat e n : asc (repeat e n).
Proof.
  induction n as [|n IH]; simpl; constructor; [exact IH|].
  apply Forall_forall. intros x Hx. apply repeat_spec in Hx as ->. lia.
Qed.

Lemma asc_repeats (f : ientry -> nat) rules : forall i,
  asc (flat_map (fun e => repeat e (f e)) (number i rules)).
Proof.
  induction rules as [|s l IH]; intros i; simpl; [constructor|].
  apply asc_app; [apply asc_repeat|apply IH|].
  intros x y Hx Hy. apply repeat_spec in Hx as ->.
  apply in_flat_map in Hy as (z & Hz & Hy). apply repeat_spec in Hy as ->.
  apply number_order in Hz. simpl. lia.
Qed.

Lemma number_inj i rules a b : In a (number i rules) -> In b (number i rules) ->
  ie_order a = ie_order b -> a = b.
Proof.
  revert i. induction rules as [|s l IH]; intros i; simpl; [tauto|].
  intros [<-|Ha] [<-|Hb] H; auto.
  - apply number_order in Hb. simpl in H. lia.
  - apply number_order in Ha. simpl in H. lia.
  - eapply IH; eauto.
Qed.

Lemma collect_spec rules d pe :
  let cs := collect (build rules) d pe in
  Forall (fun c => c <> []) cs /\ Forall asc cs /\
  Permutation (concat cs) (canon (elem_keys d pe) (number 1 rules)).
Proof.
  destruct (build_spec rules) as (_ & Hn & Hb & _). cbv zeta. unfold collect.
  rewrite <- canon_perm. induction (elem_keys d pe) as [|k ks IH]; simpl.
  - repeat split; constructor.
  - destruct IH as (IH1 & IH2 & IH3). specialize (Hb k). unfold bucket in Hb.
    destruct (tlookup (ix_tables (build rules)) k) as [v|] eqn:E; simpl.
    + split; [constructor; [eapply nonempties_lookup; eauto|exact IH1]|].
      rewrite <- Hb. split; [constructor; [|exact IH2]|now apply Permutation_app_head].
      rewrite Hb. apply asc_repeats.
    + rewrite <- Hb. auto.
Qed.

Lemma index_match_run rules t p pe d :
  elem_at t p = Some d ->
  index_match (build rules) t p pe =
  match run (build rules) t p pe (canon (elem_keys d pe) (number 1 rules)) (Some (mkM 0 0 None [])) with
  | Some st => finalize t p pe st
  | None => None
  end.
Proof.
  intros Hd. unfold index_match. rewrite Hd. cbv zeta.
  destruct (collect_spec rules d pe) as (H1 & H2 & H3). cbv zeta in *.
  destruct (merge_emit (build rules) t p pe (length (concat (collect (build rules) d pe)))
    (collect (build rules) d pe) (mkM 0 0 None []) H1 H2 (le_n _)) as (-> & H4 & H5).
  rewrite (asc_perm_eq _ (canon (elem_keys d pe) (number 1 rules)) H5).
  - reflexivity.
  - apply asc_repeats.
  - now rewrite <- H4.
  - assert (Hin : forall a, In a (emit (length (concat (collect (build rules) d pe))) (collect (build rules) d pe)) ->
      In a (number 1 rules)).
    { intros a Ha. apply (Permutation_in _ (Permutation_sym H4)) in Ha. apply (Permutation_in _ H3) in Ha.
      apply in_flat_map in Ha as (e & He & Ha). apply repeat_spec in Ha as ->. exact He. }
    intros a b Ha Hb. apply number_inj with (i := 1) (rules := rules); auto.
Qed.

(** ** What a group of equal entries contributes *)

Section Groups.
  Variable rules : list selector.
  Variable t : node.
  Variable p : path.
  Variable pe : option str.
  Let ix := build rules.

  (** The result of testing the rule, when that does not panic. *)
  Definition tested (e : ientry) : matching_rules :=
    match match_selector t (ie_rule e) p pe with
    | Some (Some sp) => [(e, sp)]
    | _ => []
    end.

  Definition fires (s : selector) (c : nat) : bool :=
    match s with
    | Nfix OR _ => false
    | Nfix AND _ => match needed_of s with Some n => c =? n | None => true end
    | _ => true
    end.
  (** The rule is reported without testing it. *)
  Definition blind (s : selector) (c : nat) : bool :=
    lookup_equiv s ||
    match s with
    | Nfix AND l => match needed_of s with Some n => length l =? c | None => false end
    | _ => false
    end.

  (** Contribution of the [c]-th entry of a group. *)
  Definition eff (e : ientry) (c : nat) : matching_rules :=
    if fires (ie_rule e) c
    then if blind (ie_rule e) c then [(e, spec (ie_rule e))] else tested e
    else [].

  (** Contribution of the end of the group. *)
  Definition feff (e : ientry) (c : nat) : matching_rules :=
    match ie_rule e with
    | Nfix OR _ => if c =? 1 then tested e else [(e, spec (ie_rule e))]
    | _ => []
    end.

  Definition geff (e : ientry) (h : nat) : matching_rules :=
    match h with 0 => [] | _ => flat_map (eff e) (seq 1 h) ++ feff e h end.

  Definition quiet (e : ientry) : Prop := match_selector t (ie_rule e) p pe <> None.

  Lemma eval_rule_tested out e : quiet e -> eval_rule t p pe out e = Some (out ++ tested e).
  Proof.
    unfold quiet, eval_rule, tested. destruct (match_selector t (ie_rule e) p pe) as [[sp|]|]; [reflexivity| |congruence].
    now rewrite app_nil_r.
  Qed.

  Lemma step_effect e st count out :
    In e (number 1 rules) -> quiet e ->
    (if negb (m_last_id st =? ie_order e)
     then match finalize t p pe st with Some o => Some (1, o) | None => None end
     else Some (S (m_count st), m_out st)) = Some (count, out) ->
    step ix t p pe st e = Some (mkM count (ie_order e) (Some e) (out ++ eff e count)).
  Proof.
    intros Hin Hq H. unfold step. rewrite H.
    destruct (build_spec rules) as (_ & _ & _ & Hneed & _). specialize (Hneed e Hin). cbv zeta in Hneed. fold ix in Hneed.
    pose proof (eval_rule_tested out e Hq) as He.
    unfold maybe_defer, eff, fires, blind.
    destruct (lookup_equiv (ie_rule e)) eqn:El.
    - destruct (ie_rule e) as [ty l|ty l r|q| | | | | | | |a]; try discriminate; reflexivity.
    - destruct (ie_rule e) as [ty l|ty l r|q| | | | | | | |a] eqn:Er; cbn [orb];
        try (rewrite He; reflexivity).
      destruct ty; try (rewrite He; reflexivity).
      + rewrite Hneed. destruct (needed_of (Nfix AND l)) as [n|]; [|rewrite He; reflexivity].
        destruct (count =? n); cbn [negb]; cbv iota; [|now rewrite app_nil_r].
        destruct (length l =? count); cbn [negb]; cbv iota; [reflexivity|]. rewrite He. reflexivity.
      + now rewrite app_nil_r.
  Qed.

  Lemma run_repeat e n : In e (number 1 rules) -> quiet e -> forall c out,
    run ix t p pe (repeat e n) (Some (mkM c (ie_order e) (Some e) out)) =
    Some (mkM (c + n) (ie_order e) (Some e) (out ++ flat_map (eff e) (seq (S c) n))).
  Proof.
    intros Hin Hq. induction n as [|n IH]; intros c out.
    - simpl. rewrite Nat.add_0_r, app_nil_r. reflexivity.
    - simpl repeat. cbn [run fold_left]. fold (run ix t p pe (repeat e n)).
      rewrite (step_effect e _ (S c) out); auto.
      + unfold run in IH. rewrite IH. f_equal. cbn [seq flat_map]. rewrite <- app_assoc. f_equal. lia.
      + simpl. now rewrite Nat.eqb_refl.
  Qed.

  Lemma finalize_feff c i e out : quiet e ->
    finalize t p pe (mkM c i (Some e) out) = Some (out ++ feff e c).
  Proof.
    intros Hq. unfold finalize, feff. simpl.
    destruct (ie_rule e) as [[]| | | | | | | | | |] eqn:E; rewrite ?app_nil_r; try reflexivity.
    destruct (c =? 1); [|reflexivity]. now apply eval_rule_tested.
  Qed.

  Lemma run_group e h st o : In e (number 1 rules) -> quiet e ->
    m_last_id st <> ie_order e -> finalize t p pe st = Some o -> h <> 0 ->
    run ix t p pe (repeat e h) (Some st) =
    Some (mkM h (ie_order e) (Some e) (o ++ flat_map (eff e) (seq 1 h))).
  Proof.
    intros Hin Hq Hid Hf Hh. destruct h as [|h]; [congruence|].
    simpl repeat. cbn [run fold_left]. fold (run ix t p pe (repeat e h)).
    rewrite (step_effect e st 1 o Hin Hq).
    - pose proof (run_repeat e h Hin Hq 1 (o ++ eff e 1)) as Hr. unfold run in Hr. rewrite Hr.
      cbn [seq flat_map]. rewrite <- app_assoc. reflexivity.
    - destruct (m_last_id st =? ie_order e) eqn:E; [apply Nat.eqb_eq in E; congruence|].
      simpl. rewrite Hf. reflexivity.
  Qed.

  Lemma run_groups ks l : forall st o,
    (forall e, In e l -> In e (number 1 rules) /\ quiet e) ->
    StronglySorted (fun a b => ie_order a < ie_order b) l ->
    Forall (fun e => m_last_id st < ie_order e) l ->
    finalize t p pe st = Some o ->
    match run ix t p pe (canon ks l) (Some st) with Some st => finalize t p pe st | None => None end =
    Some (o ++ flat_map (fun e => geff e (hits ks (ie_rule e))) l).
  Proof.
    induction l as [|e l IH]; intros st o Hl Hs Hlt Hf.
    - simpl. now rewrite Hf, app_nil_r.
    - destruct (Hl e (or_introl eq_refl)) as [Hin Hq].
      inversion Hlt as [|? ? Hlt1 Hlt2]; subst. apply StronglySorted_inv in Hs as [Hs Hs'].
      simpl flat_map. change (canon ks (e :: l)) with (repeat e (hits ks (ie_rule e)) ++ canon ks l).
      unfold run. rewrite fold_left_app. fold (run ix t p pe (repeat e (hits ks (ie_rule e))) (Some st)).
      destruct (hits ks (ie_rule e)) as [|h] eqn:Eh.
      + simpl. apply IH; auto. intros x Hx. apply Hl. now right.
      + rewrite (run_group e (S h) st o); auto; try lia.
        match goal with |- context [fold_left ?f (canon ks l) ?x] =>
          change (fold_left f (canon ks l) x) with (run ix t p pe (canon ks l) x) end.
        rewrite (IH _ (o ++ geff e (S h))).
        * rewrite <- app_assoc. reflexivity.
        * intros x Hx. apply Hl. now right.
        * exact Hs.
        * exact Hs'.
        * rewrite finalize_feff by exact Hq. unfold geff. rewrite <- !app_assoc. reflexivity.
  Qed.

  Lemma number_sorted i l : StronglySorted (fun a b => ie_order a < ie_order b) (number i l).
  Proof.
    revert i. induction l as [|s l IH]; intros i; simpl; constructor; [apply IH|].
    apply Forall_forall. intros x Hx. apply number_order in Hx. simpl. lia.
  Qed.

  Lemma index_match_groups d :
    elem_at t p = Some d -> (forall e, In e (number 1 rules) -> quiet e) ->
    index_match (build rules) t p pe =
    Some (flat_map (fun e => geff e (hits (elem_keys d pe) (ie_rule e))) (number 1 rules)).
  Proof.
    intros Hd Hq. rewrite (index_match_run rules t p pe d Hd). fold ix.
    rewrite (run_groups (elem_keys d pe) (number 1 rules) (mkM 0 0 None []) []); auto.
    - apply number_sorted.
    - apply Forall_forall. intros e He. apply number_order in He. simpl. lia.
  Qed.
End Groups.

(** ** Hits of simple selectors *)

Lemma hits_swap ks s : hits ks s = list_sum (map (fun l => kcount ks l) (leaves s)).
Proof.
  unfold hits, kcount. induction ks as [|k ks IH]; simpl.
  - induction (leaves s); simpl; auto.
  - rewrite IH. clear IH. induction (leaves s) as [|x l IHl]; simpl; [reflexivity|].
    rewrite <- IHl. repeat match goal with |- context [key_dec ?a ?b] => destruct (key_dec a b) end; try congruence; lia.
Qed.

Lemma nodup_elem_keys d pe : plain_element d -> NoDup (elem_keys d pe).
Proof.
  intros [Hc Ha]. unfold elem_keys.
  assert (Happ : forall (a b : list key), NoDup a -> NoDup b -> (forall x, In x a -> ~ In x b) -> NoDup (a ++ b)).
  { intros a b H1 H2 H. induction H1 as [|x a Hx H1 IH]; simpl; [exact H2|]. constructor.
    - intros Hin. apply in_app_or in Hin as [Hin|Hin]; [contradiction|]. eapply H; [now left|exact Hin].
    - apply IH. intros y Hy. apply H. now right. }
  assert (Hattrs : NoDup (flat_map (fun nv : qname * str =>
      [KAttrPresent (q_name (fst nv)); KAttrExact (q_name (fst nv)) (snd nv)]) (d_attrs d))).
  { induction (d_attrs d) as [|[n v] l IH]; simpl; [constructor|]. inversion Ha as [|? ? Hn Ha']; subst. simpl in Hn.
    assert (Hno : forall k, In k (flat_map (fun nv : qname * str =>
      [KAttrPresent (q_name (fst nv)); KAttrExact (q_name (fst nv)) (snd nv)]) l) ->
      k <> KAttrPresent (q_name n) /\ k <> KAttrExact (q_name n) v).
    { intros k Hk. apply in_flat_map in Hk as ([n' v'] & Hnv & Hk). simpl in Hk.
      assert (q_name n' <> q_name n).
      { intros E. apply Hn. rewrite <- E. apply in_map_iff. exists (n', v'). auto. }
      destruct Hk as [<-|[<-|[]]]; split; congruence. }
    constructor.
    - intros [H|H]; [discriminate|]. apply Hno in H as [H _]. congruence.
    - constructor; [|now apply IH]. intros H. apply Hno in H as [_ H]. congruence. }
  assert (Hin_attr : forall k, In k (flat_map (fun nv : qname * str =>
      [KAttrPresent (q_name (fst nv)); KAttrExact (q_name (fst nv)) (snd nv)]) (d_attrs d)) ->
      match k with KAttrPresent _ | KAttrExact _ _ => True | _ => False end).
  { intros k Hk. apply in_flat_map in Hk as (nv & _ & [<-|[<-|[]]]); exact I. }
  apply Happ.
  - clear -Hc. induction Hc as [|c l Hx Hc IH]; simpl; constructor; auto.
    rewrite in_map_iff. intros (y & [= ->] & Hy). contradiction.
  - apply Happ; [destruct (get_attribute_unqualified (d_attrs d) id_name); repeat constructor; auto| |].
    + apply Happ; [destruct pe; repeat constructor; auto| |].
      * simpl. constructor.
        -- intros H. simpl in H; apply in_app_or in H as [H|[H|[]]]; [apply Hin_attr in H; exact H|discriminate].
        -- apply Happ; [exact Hattrs|repeat constructor; auto|].
           intros x Hx [<-|[]]. apply Hin_attr in Hx. exact Hx.
      * intros x Hx Hx'. destruct pe as [s|]; simpl in Hx; [|contradiction]. destruct Hx as [<-|[]].
        destruct Hx' as [H|H]; [discriminate|].
        simpl in H; apply in_app_or in H as [H|[H|[]]]; [apply Hin_attr in H; exact H|discriminate].
    + intros x Hx Hx'. destruct (get_attribute_unqualified (d_attrs d) id_name); simpl in Hx; [|contradiction].
      destruct Hx as [<-|[]]. apply in_app_or in Hx' as [H|[H|H]].
      * destruct pe; simpl in H; [destruct H as [H|[]]; discriminate|contradiction].
      * discriminate.
      * simpl in H; apply in_app_or in H as [H|[H|[]]]; [apply Hin_attr in H; exact H|discriminate].
  - intros x Hx Hx'. apply in_map_iff in Hx as (c & <- & _).
    apply in_app_or in Hx' as [H|H].
    + destruct (get_attribute_unqualified (d_attrs d) id_name); simpl in H; [destruct H as [H|[]]; discriminate|contradiction].
    + apply in_app_or in H as [H|[H|H]].
      * destruct pe; simpl in H; [destruct H as [H|[]]; discriminate|contradiction].
      * discriminate.
      * simpl in H; apply in_app_or in H as [H|[H|[]]]; [apply Hin_attr in H; exact H|discriminate].
Qed.

Lemma in_elem_keys d pe k : In k (elem_keys d pe) <->
  match k with
  | KClass c => In c (d_classes d)
  | KId i => get_attribute_unqualified (d_attrs d) id_name = Some i
  | KPseudo x => pe = Some x
  | KType n => q_name (d_name d) = n
  | KAttrPresent n => exists q v, In (q, v) (d_attrs d) /\ q_name q = n
  | KAttrExact n v => exists q, In (q, v) (d_attrs d) /\ q_name q = n
  | KNone => True
  end.
Proof.
  unfold elem_keys. rewrite !in_app_iff.
  assert (Hid : In k (match get_attribute_unqualified (d_attrs d) id_name with Some i => [KId i] | None => [] end)
    <-> exists i, get_attribute_unqualified (d_attrs d) id_name = Some i /\ k = KId i).
  { destruct (get_attribute_unqualified (d_attrs d) id_name) as [i|]; simpl.
    - split; [intros [<-|[]]; eauto|intros (j & [= ->] & ->); now left].
    - split; [tauto|intros (j & H & _); discriminate]. }
  assert (Hpe : In k (match pe with Some x => [KPseudo x] | None => [] end) <-> exists x, pe = Some x /\ k = KPseudo x).
  { destruct pe as [i|]; simpl.
    - split; [intros [<-|[]]; eauto|intros (j & [= ->] & ->); now left].
    - split; [tauto|intros (j & H & _); discriminate]. }
  rewrite Hid, Hpe, in_map_iff, in_flat_map. simpl. clear Hid Hpe.
  split.
  - intros [(c & <- & H)|[(i & H & ->)|[(x & H & ->)|[[<-|[]]|[([q v] & H & [<-|[<-|[]]])|[<-|[]]]]]]]; simpl; eauto.
  - destruct k; simpl; intros H.
    + right. left. eauto.
    + left. eauto.
    + subst. right. right. right. left. now left.
    + right. right. left. eauto.
    + destruct H as (q & v & H & <-). do 4 right. left. exists (q, v). simpl. auto.
    + destruct H as (q & H & <-). do 4 right. left. exists (q, v). simpl. auto.
    + do 5 right. now left.
Qed.

Lemma unqualified_some m n : (exists v, get_attribute_unqualified m n = Some v) <-> exists q v, In (q, v) m /\ q_name q = n.
Proof.
  induction m as [|[q v] m IH]; simpl.
  - split; [intros [v H]; discriminate|intros (q & v & [] & _)].
  - destruct (str_eqb (q_name q) n) eqn:E.
    + apply str_eqb_spec in E. split; [intros _; exists q, v; auto|eauto].
    + rewrite IH. split; intros (q' & v' & H & H'); exists q', v'; split; auto.
      destruct H as [[= <- <-]|H]; [|exact H].
      apply (proj2 (str_eqb_spec _ _)) in H'. congruence.
Qed.

Lemma unqualified_nodup m n v : NoDup (map (fun nv : qname * str => q_name (fst nv)) m) ->
  get_attribute_unqualified m n = Some v <-> exists q, In (q, v) m /\ q_name q = n.
Proof.
  induction m as [|[q v'] m IH]; simpl; intros Hn.
  - split; [discriminate|intros (q & [] & _)].
  - inversion Hn as [|? ? Hx Hn']; subst. destruct (str_eqb (q_name q) n) eqn:E.
    + apply str_eqb_spec in E. split.
      * intros [= <-]. exists q. auto.
      * intros (q' & [H|H] & H'); [congruence|]. exfalso. apply Hx. simpl in *. rewrite E, <- H'.
        apply in_map_iff. exists (q', v). auto.
    + rewrite IH by exact Hn'. split; intros (q' & H & H'); exists q'; split; auto.
      destruct H as [[= <- <-]|H]; [|exact H].
      apply (proj2 (str_eqb_spec _ _)) in H'. congruence.
Qed.

Lemma start_with_exact a b : is_yes (start_with (attr_cmp false) a b) = true <-> a = b.
Proof.
  revert b. induction a as [|x a IH]; intros [|y b]; simpl; try (split; congruence).
  unfold attr_cmp. destruct (N.eqb x y) eqn:E.
  - apply N.eqb_eq in E as ->. rewrite IH. split; congruence.
  - apply N.eqb_neq in E. split; [discriminate|]. intros [= H _]. congruence.
Qed.

(** A lookup-equivalent simple selector is looked up exactly when it matches. *)
Lemma leaf_match t p pe d s : elem_at t p = Some d -> plain_element d ->
  lookup_equiv s = true -> sensitive s = true ->
  exists b, msel t s p pe = Some b /\ kcount (elem_keys d pe) (leaf s) = Nat.b2n b.
Proof.
  intros Hd Hp Hl Hs.
  assert (Hk : forall b, (b = true <-> In (leaf s) (elem_keys d pe)) ->
     kcount (elem_keys d pe) (leaf s) = Nat.b2n b).
  { intros b Hb. unfold kcount. pose proof (nodup_elem_keys d pe Hp) as Hnd.
    destruct b; simpl.
    - apply NoDup_count_occ'; [exact Hnd|now apply Hb].
    - apply count_occ_not_In. intros H. apply Hb in H. discriminate. }
  destruct s as [ty l|ty l r|q| |i|c|x| | | |a]; try discriminate; cbn [msel]; rewrite Hd.
  - eexists. split; [reflexivity|]. apply Hk. unfold leaf. simpl in Hl. rewrite Hl.
    unfold lookup_equiv_type, has_exact_name, is_universal_ns in Hl.
    rewrite qsel_match_spec. unfold name_sem, exact_name in *.
    destruct (qs_ns q); try discriminate. destruct (qs_name q) as [|n]; [discriminate|].
    rewrite in_elem_keys. tauto.
  - eexists. split; [reflexivity|]. apply Hk. simpl leaf. rewrite in_elem_keys. apply opt_str_eqb.
  - eexists. split; [reflexivity|]. apply Hk. simpl leaf. rewrite in_elem_keys, existsb_exists. split.
    + intros (y & H1 & H2). apply str_eqb_spec in H2 as ->. exact H1.
    + intros H. exists c. split; [exact H|apply str_eqb_refl].
  - eexists. split; [reflexivity|]. apply Hk. simpl leaf. rewrite in_elem_keys. apply opt_str_eqb.
  - eexists. split; [reflexivity|]. apply Hk. unfold leaf. simpl in Hl. rewrite Hl.
    unfold lookup_equiv_attr, has_exact_name, is_universal_ns in Hl.
    unfold attr_matches, get_attribute_value. simpl in Hs. unfold is_universal_ns in Hs.
    destruct (as_match a) eqn:Em; try discriminate;
      apply andb_true_iff in Hl as [Hl1 Hl2];
      destruct (qs_ns (as_name a)); try discriminate;
      destruct (exact_name (as_name a)) as [n|]; try discriminate.
    + rewrite in_elem_keys. rewrite <- unqualified_some.
      destruct (get_attribute_unqualified (d_attrs d) n); split; eauto; try discriminate.
      intros [v H]. discriminate.
    + rewrite in_elem_keys. rewrite andb_true_r in Hs. apply negb_true_iff in Hs. rewrite Hs.
      rewrite <- unqualified_nodup by apply Hp.
      destruct (get_attribute_unqualified (d_attrs d) n) as [v|]; [|split; discriminate].
      rewrite start_with_exact. split; congruence.
Qed.

(** ** The lookup and the matcher agree *)

Definition spec_ok (s : selector) (sp sp' : specificity) : Prop :=
  sp' = sp \/ is_list s = true /\ sp' = spec s.

Section Agree.
  Variable t : node.
  Variable p : path.
  Variable pe : option str.
  Variable d : edata.
  Hypothesis Hd : elem_at t p = Some d.
  Hypothesis Hp : plain_element d.
  Let ks := elem_keys d pe.

  Lemma kcount_none : kcount ks KNone = 1.
  Proof.
    apply NoDup_count_occ'; [now apply nodup_elem_keys|]. now apply in_elem_keys.
  Qed.

  (** The number of simple selectors of [l] that match. *)
  Definition matching_count (l : list selector) : nat :=
    list_sum (map (fun s => kcount ks (leaf s)) l).

  Lemma matching_count_all l : forallb lookup_equiv l = true -> forallb sensitive l = true ->
    matching_count l <= length l /\
    (matching_count l = length l <-> oall (fun i => msel t i p pe) l = Some true) /\
    (matching_count l = 0 <-> oex (fun i => msel t i p pe) l = Some false) /\
    (matching_count l <> 0 <-> oex (fun i => msel t i p pe) l = Some true).
  Proof.
    induction l as [|s l IH]; intros H1 H2.
    - cbn. repeat split; auto; try lia; congruence.
    - simpl in H1, H2. apply andb_true_iff in H1 as [H1 H1'], H2 as [H2 H2'].
      destruct (IH H1' H2') as (I1 & I2 & I3 & I4). clear IH.
      destruct (leaf_match t p pe d s Hd Hp H1 H2) as (b & Hb & Hc). fold ks in Hc.
      unfold matching_count in *. simpl. rewrite Hb, Hc. destruct b; simpl Nat.b2n; simpl.
      + split; [lia|]. split; [rewrite <- I2; lia|]. split; [split; [lia|discriminate]|].
        split; [reflexivity|lia].
      + split; [lia|]. split; [split; [lia|discriminate]|]. split; [rewrite <- I3; lia|rewrite <- I4; lia].
  Qed.

  Lemma oall_filter (f : selector -> option bool) g l :
    oall f l = Some true -> oall f (filter g l) = Some true.
  Proof.
    induction l as [|x l IH]; simpl; [auto|]. destruct (f x) as [[|]|] eqn:E; try discriminate.
    intros H. destruct (g x); simpl; rewrite ?E; auto.
  Qed.

  Lemma forallb_filter (g h : selector -> bool) l : forallb h l = true -> forallb h (filter g l) = true.
  Proof.
    rewrite !forallb_forall. intros H x Hx. apply filter_In in Hx as [Hx _]. auto.
  Qed.
  Lemma forallb_filter_same (g : selector -> bool) l : forallb g (filter g l) = true.
  Proof. rewrite forallb_forall. intros x Hx. now apply filter_In in Hx. Qed.

  Lemma filter_length_le (g : selector -> bool) l : length (filter g l) <= length l.
  Proof. induction l as [|x l IH]; simpl; [lia|]. destruct (g x); simpl; lia. Qed.

  Lemma filter_length_all (g : selector -> bool) l : length (filter g l) = length l -> filter g l = l.
  Proof.
    induction l as [|x l IH]; simpl; [reflexivity|]. destruct (g x); simpl.
    - intros [= H]. now rewrite IH.
    - intros H. pose proof (filter_length_le g l). lia.
  Qed.

  Lemma oex_filter_true (f : selector -> option bool) g l :
    (forall x, In x l -> f x <> None) -> oex f (filter g l) = Some true -> oex f l = Some true.
  Proof.
    intros Hn. induction l as [|x l IH]; simpl; [auto|].
    assert (f x <> None) by (apply Hn; now left).
    destruct (g x); simpl; destruct (f x) as [[|]|]; auto; try congruence;
      apply IH; intros; apply Hn; now right.
  Qed.

  Lemma match_or l : (forall x, In x l -> msel t x p pe <> None) ->
    (oex (fun i => msel t i p pe) l = Some false -> match_selector t (Nfix OR l) p pe = Some None) /\
    (oex (fun i => msel t i p pe) l = Some true ->
       exists sp, match_selector t (Nfix OR l) p pe = Some (Some sp)).
  Proof.
    intros Hn. cbn [match_selector].
    set (f := fun acc i => match acc with
      | Some sp => match msel t i p pe with
                   | Some true => Some (opt_spec_max sp (spec i))
                   | Some false => Some sp | None => None end
      | None => None end).
    assert (Hsome : forall l sp, (forall x, In x l -> msel t x p pe <> None) ->
      exists sp', fold_left f l (Some (Some sp)) = Some (Some sp')).
    { clear. induction l as [|x l IH]; intros sp Hn; simpl; [eauto|].
      assert (msel t x p pe <> None) by (apply Hn; now left).
      destruct (msel t x p pe) as [[|]|]; try congruence; apply IH; intros; apply Hn; now right. }
    split.
    - induction l as [|x l IH]; simpl; [reflexivity|].
      destruct (msel t x p pe) as [[|]|]; try discriminate. apply IH. intros; apply Hn; now right.
    - induction l as [|x l IH]; simpl; [discriminate|].
      assert (msel t x p pe <> None) by (apply Hn; now left).
      destruct (msel t x p pe) as [[|]|]; try congruence.
      + intros _. apply Hsome. intros; apply Hn; now right.
      + apply IH. intros; apply Hn; now right.
  Qed.

  Lemma match_not_or s : is_list s = false ->
    match_selector t s p pe = match msel t s p pe with
                              | None => None | Some true => Some (Some (spec s)) | Some false => Some None end.
  Proof. destruct s as [[]| | | | | | | | | |]; try reflexivity; discriminate. Qed.

  Lemma flat_map_seq_const {B} (f : nat -> list B) x h :
    (forall c, 1 <= c <= h -> f c = x) -> flat_map f (seq 1 h) = concat (repeat x h).
  Proof.
    intros H. assert (G : forall n b, (forall c, b <= c < b + n -> f c = x) ->
      flat_map f (seq b n) = concat (repeat x n)).
    { induction n as [|n IH]; intros b Hb; simpl; [reflexivity|]. rewrite Hb by lia. f_equal.
      apply IH. intros c Hc. apply Hb. lia. }
    apply G. intros c Hc. apply H. lia.
  Qed.

  Lemma concat_repeat_single {B} (x : B) h : concat (repeat [x] h) = repeat x h.
  Proof. induction h; simpl; congruence. Qed.
  Lemma concat_repeat_nil {B} h : concat (repeat (@nil B) h) = [].
  Proof. induction h; simpl; auto. Qed.

  (** The contribution of a group: nothing if the rule does not match; else the rule, once or
      more. *)
  Definition good (e : ientry) (out : matching_rules) : Prop :=
    (match_selector t (ie_rule e) p pe = Some None /\ out = []) \/
    (exists sp sp' n, match_selector t (ie_rule e) p pe = Some (Some sp) /\
       spec_ok (ie_rule e) sp sp' /\ out = repeat (e, sp') (S n) /\
       (is_complex (ie_rule e) = false -> n = 0)).

  Lemma good_tested e h : match_selector t (ie_rule e) p pe <> None ->
    (h = 0 -> match_selector t (ie_rule e) p pe = Some None) ->
    (is_complex (ie_rule e) = false -> h <= 1) ->
    good e (concat (repeat (tested t p pe e) h)).
  Proof.
    intros Hq H0 H1. unfold good, tested.
    destruct (match_selector t (ie_rule e) p pe) as [[sp|]|] eqn:E; [right|left|congruence].
    - destruct h as [|h]; [now discriminate H0|].
      exists sp, sp, h. split; [reflexivity|]. split; [now left|]. split; [exact (concat_repeat_single (e, sp) (S h))|].
      intros Hc. specialize (H1 Hc). lia.
    - split; [reflexivity|]. exact (concat_repeat_nil h).
  Qed.

  Lemma geff_unconditional e h :
    (forall c, 1 <= c <= h -> eff t p pe e c = tested t p pe e) -> is_list (ie_rule e) = false ->
    geff t p pe e h = concat (repeat (tested t p pe e) h).
  Proof.
    intros H Hl. unfold geff. destruct h as [|h]; [reflexivity|].
    rewrite (flat_map_seq_const _ _ _ H). unfold feff.
    destruct (ie_rule e) as [[]| | | | | | | | | |]; try discriminate; now rewrite app_nil_r.
  Qed.

  (** Counting the hits of a conjunction or a disjunction. *)
  Lemma hits_nfix_and l : forallb sensitive l = true -> forallb has_args l = true ->
    let h := list_sum (map (fun k => kcount ks k) (leaves_nfix AND l)) in
    match filter lookup_equiv l with
    | [] => h = 1
    | f => h <= length f /\
           (h = length f <-> oall (fun i => msel t i p pe) f = Some true)
    end.
  Proof.
    intros Hs Ha. cbv zeta. unfold leaves_nfix.
    destruct (filter lookup_equiv l) as [|x f] eqn:E.
    - simpl. rewrite kcount_none. reflexivity.
    - rewrite <- E. rewrite map_map.
      destruct (matching_count_all (filter lookup_equiv l)) as (H1 & H2 & _).
      + apply forallb_filter_same.
      + now apply forallb_filter.
      + split; [exact H1|exact H2].
  Qed.

  Lemma nfix_and_none l f : f = filter lookup_equiv l -> forallb has_args l = true ->
    oall (fun i => msel t i p pe) f <> Some true ->
    oall (fun i => msel t i p pe) l = Some false.
  Proof.
    intros -> Ha Hf.
    assert (oall (fun i => msel t i p pe) l <> None).
    { apply oall_total. intros x Hx. rewrite forallb_forall in Ha. apply msel_total. auto. }
    destruct (oall (fun i => msel t i p pe) l) as [[|]|] eqn:E; try congruence.
    exfalso. apply Hf. now apply oall_filter.
  Qed.

  Lemma hits_nfix_or l : forallb sensitive l = true -> forallb has_args l = true ->
    let h := list_sum (map (fun k => kcount ks k) (leaves_nfix OR l)) in
    (h = 0 -> oex (fun i => msel t i p pe) l = Some false) /\
    (2 <= h -> oex (fun i => msel t i p pe) l = Some true).
  Proof.
    intros Hs Ha. cbv zeta. unfold leaves_nfix.
    rewrite map_app, list_sum_app, map_map.
    destruct (matching_count_all (filter lookup_equiv l)) as (H1 & H2 & H3 & H4);
      [apply forallb_filter_same|now apply forallb_filter|].
    unfold matching_count in *.
    assert (Hn : forall x, In x l -> msel t x p pe <> None).
    { intros x Hx. rewrite forallb_forall in Ha. apply msel_total. auto. }
    destruct (forallb lookup_equiv l) eqn:E; simpl.
    - assert (Hf : filter lookup_equiv l = l).
      { clear -E. induction l as [|x l IH]; simpl in *; [reflexivity|].
        apply andb_true_iff in E as [E1 E2]. rewrite E1, IH by exact E2. reflexivity. }
      rewrite Hf in *. rewrite Nat.add_0_r. split; [intros H; now apply H3|intros H; apply H4; lia].
    - rewrite kcount_none. split; [lia|].
      intros H. apply oex_filter_true with (g := lookup_equiv); [exact Hn|]. apply H4. lia.
  Qed.

  Lemma msel_nfix_and l : msel t (Nfix AND l) p pe = oall (fun i => msel t i p pe) l.
  Proof. cbn [msel]. now rewrite Hd. Qed.
  Lemma msel_nfix_or l : msel t (Nfix OR l) p pe = oex (fun i => msel t i p pe) l.
  Proof. cbn [msel]. now rewrite Hd. Qed.

  Lemma infix_false c l r : msel t r p pe = Some false -> match_selector t (Infix c l r) p pe = Some None.
  Proof. intros H. cbn [match_selector msel]. rewrite Hd. cbn [msel] in H. rewrite H. reflexivity. Qed.

  Lemma fires_simple e c : (forall ty l, ie_rule e <> Nfix ty l) -> lookup_equiv (ie_rule e) = false ->
    eff t p pe e c = tested t p pe e.
  Proof.
    intros H1 H2. unfold eff, fires, blind. rewrite H2.
    destruct (ie_rule e); try reflexivity. now destruct (H1 ty inners).
  Qed.

  Lemma simple_good e : lookup_equiv (ie_rule e) = true -> sensitive (ie_rule e) = true ->
    good e (geff t p pe e (kcount ks (leaf (ie_rule e)))).
  Proof.
    intros Hl Hs. destruct (leaf_match t p pe d (ie_rule e) Hd Hp Hl Hs) as (b & Hb & Hc). fold ks in Hc.
    rewrite Hc. destruct (lookup_equiv_simple _ Hl) as [Hn _].
    assert (His : is_list (ie_rule e) = false) by (destruct (ie_rule e) as [[]| | | | | | | | | |]; auto; discriminate).
    destruct b; simpl.
    - right. exists (spec (ie_rule e)), (spec (ie_rule e)), 0.
      rewrite match_not_or, Hb by exact His. repeat split; auto; [now left|].
      unfold geff, eff, feff, fires, blind. simpl. rewrite Hl. simpl.
      destruct (ie_rule e); try discriminate; reflexivity.
    - left. rewrite match_not_or, Hb by exact His. auto.
  Qed.

  Lemma geff_good e : has_args (ie_rule e) = true -> indexable (ie_rule e) = true ->
    good e (geff t p pe e (hits ks (ie_rule e))).
  Proof.
    intros Ha Hi. rewrite hits_swap.
    assert (Hq : match_selector t (ie_rule e) p pe <> None) by now apply match_selector_total.
    assert (Hsingle : (forall ty l, ie_rule e <> Nfix ty l) -> (forall c l r, ie_rule e <> Infix c l r) ->
      leaves (ie_rule e) = [leaf (ie_rule e)] -> sensitive (ie_rule e) = true ->
      good e (geff t p pe e (list_sum (map (fun l => kcount ks l) (leaves (ie_rule e)))))).
    { intros H1 H2 H3 H4. rewrite H3. simpl. rewrite Nat.add_0_r.
      destruct (lookup_equiv (ie_rule e)) eqn:El; [now apply simple_good|].
      assert (Hleaf : leaf (ie_rule e) = KNone).
      { destruct (ie_rule e) as [ | |q| | | | | | | |a]; try reflexivity; try discriminate;
          simpl in El; unfold leaf; now rewrite El. }
      rewrite Hleaf, kcount_none.
      rewrite geff_unconditional.
      - apply good_tested; auto; lia.
      - intros c _. now apply fires_simple.
      - destruct (ie_rule e) as [ty l| | | | | | | | | |]; auto. now destruct (H1 ty l). }
    destruct (ie_rule e) as [ty l|c l r|q| |i|x|x|x|x ab|x ab s|a] eqn:Er;
      try (rewrite <- Er in *; apply Hsingle; rewrite ?Er; try discriminate; try reflexivity; exact Hi).
    - (* Nfix *)
      simpl leaves. destruct ty.
      + (* AND *)
        simpl in Ha, Hi. pose proof (hits_nfix_and l Hi Ha) as Hh. cbv zeta in Hh.
        set (h := list_sum _) in *. destruct (filter lookup_equiv l) as [|x f] eqn:Ef.
        * rewrite Hh. rewrite geff_unconditional; [|intros c _|now rewrite Er].
          -- rewrite <- Er in Hq. apply good_tested; auto; try lia. 
          -- unfold eff, fires, blind. rewrite Er. simpl. rewrite Ef. reflexivity.
        * rewrite <- Ef in Hh. destruct Hh as [Hle Heq].
          assert (Heff : forall c, eff t p pe e c =
            if c =? length (filter lookup_equiv l)
            then if length l =? c then [(e, spec (Nfix AND l))] else tested t p pe e else []).
          { intros c. unfold eff, fires, blind. rewrite Er. simpl. rewrite Ef. reflexivity. }
          assert (Hg : geff t p pe e h = if h =? length (filter lookup_equiv l)
             then (if length l =? h then [(e, spec (Nfix AND l))] else tested t p pe e) else []).
          { assert (Hpre : forall n b, b + n <= length (filter lookup_equiv l) ->
               flat_map (eff t p pe e) (seq b n) = []).
            { induction n as [|n IH]; intros b Hb; [reflexivity|]. simpl. rewrite Heff, IH by lia.
              destruct (b =? length (filter lookup_equiv l)) eqn:Eb; [apply Nat.eqb_eq in Eb; lia|reflexivity]. }
            unfold geff, feff. rewrite Er. destruct h as [|h'] eqn:Eh.
            - rewrite Ef. reflexivity.
            - rewrite app_nil_r, seq_S, flat_map_app, Hpre by lia. simpl app. simpl flat_map.
              rewrite app_nil_r. apply Heff. }
          rewrite Hg. destruct (h =? length (filter lookup_equiv l)) eqn:Eh.
          -- apply Nat.eqb_eq in Eh. destruct (length l =? h) eqn:El.
             ++ apply Nat.eqb_eq in El. right. exists (spec (Nfix AND l)), (spec (Nfix AND l)), 0.
                unfold good. rewrite Er. repeat split; auto; [|now left].
                rewrite match_not_or, msel_nfix_and by reflexivity.
                rewrite (filter_length_all lookup_equiv l) in Heq by lia.
                rewrite (proj1 Heq) by (rewrite <- (filter_length_all lookup_equiv l) by lia; exact Eh).
                reflexivity.
             ++ replace (tested t p pe e) with (concat (repeat (tested t p pe e) 1)) by apply app_nil_r.
                rewrite <- Er in Hq. apply good_tested; auto; lia.
          -- apply Nat.eqb_neq in Eh. left. split; [|reflexivity]. rewrite Er.
             rewrite match_not_or, msel_nfix_and by reflexivity.
             rewrite (nfix_and_none l _ eq_refl Ha); [reflexivity|]. intros H. apply Heq in H. contradiction.
      + (* OR *)
        simpl in Ha, Hi. pose proof (hits_nfix_or l Hi Ha) as Hh. cbv zeta in Hh.
        set (h := list_sum _) in *. destruct Hh as [H0 H2].
        assert (Hn : forall x, In x l -> msel t x p pe <> None).
        { intros x Hx. rewrite forallb_forall in Ha. apply msel_total. auto. }
        destruct (match_or l Hn) as [M0 M2].
        assert (Heff : forall c, eff t p pe e c = []).
        { intros c. unfold eff, fires. rewrite Er. reflexivity. }
        assert (Hg : h <> 0 -> geff t p pe e h = feff t p pe e h).
        { intros Hne. unfold geff. rewrite (flat_map_seq_const _ []) by (intros; apply Heff).
          rewrite concat_repeat_nil. destruct h; [congruence|reflexivity]. }
        destruct h as [|[|h']] eqn:Eh.
        * left. rewrite Er. auto.
        * rewrite Hg by lia. unfold feff. rewrite Er. simpl.
          replace (tested t p pe e) with (concat (repeat (tested t p pe e) 1)) by apply app_nil_r.
          rewrite <- Er in Hq. apply good_tested; auto; lia.
        * rewrite Hg by lia. unfold feff. rewrite Er. simpl. right.
          destruct (M2 (H2 ltac:(lia))) as [sp Hsp]. rewrite Er.
          exists sp, (spec (Nfix OR l)), 0. repeat split; auto. right. auto.
      + (* NOT *) simpl. rewrite kcount_none. rewrite geff_unconditional.
        * rewrite <- Er in Hq. apply good_tested; auto; lia.
        * intros c _. unfold eff, fires, blind. rewrite Er. reflexivity.
        * now rewrite Er.
      + (* WHERE *) simpl. rewrite kcount_none. rewrite geff_unconditional.
        * rewrite <- Er in Hq. apply good_tested; auto; lia.
        * intros c _. unfold eff, fires, blind. rewrite Er. reflexivity.
        * now rewrite Er.
    - (* Infix *)
      assert (Hc : forall h, geff t p pe e h = concat (repeat (tested t p pe e) h)).
      { intros h. apply geff_unconditional; [|now rewrite Er]. intros k _.
        apply fires_simple; rewrite Er; [discriminate|reflexivity]. }
      rewrite Hc. apply andb_true_iff in Ha as [_ Ha].
      apply good_tested; [now rewrite Er| |rewrite Er; discriminate]. rewrite Er.
      intros H0. apply infix_false.
      assert (Hr : msel t r p pe <> None) by (apply msel_total; exact Ha).
      assert (Hsimple : forall s, s = r -> sensitive s = true -> list_sum (map (fun k => kcount ks k) [leaf s]) = 0 ->
        msel t s p pe = Some false).
      { intros s -> Hs Hz. simpl in Hz. destruct (lookup_equiv r) eqn:El.
        - destruct (leaf_match t p pe d r Hd Hp El Hs) as (b & Hb & Hb'). fold ks in Hb'.
          rewrite Hb. destruct b; [simpl in Hb'; lia|reflexivity].
        - assert (Hleaf : leaf r = KNone).
          { destruct r as [ | |q| | | | | | | |a]; try reflexivity; try discriminate;
              simpl in El; unfold leaf; now rewrite El. }
          rewrite Hleaf, kcount_none in Hz. lia. }
      destruct r as [ty l'|c' l' r'|q| |i|x|x|x|x ab|x ab s|a];
        try (apply (Hsimple _ eq_refl); [exact Hi|exact H0]).
      simpl in Hi, H0. destruct ty.
      + simpl in Ha. pose proof (hits_nfix_and l' Hi Ha) as Hh. cbv zeta in Hh. rewrite H0 in Hh.
        destruct (filter lookup_equiv l') as [|x f] eqn:Ef; [discriminate|].
        rewrite msel_nfix_and. apply (nfix_and_none l' _ eq_refl Ha). rewrite Ef.
        destruct Hh as [_ Hh]. intros H. apply Hh in H. discriminate.
      + simpl in Ha. rewrite msel_nfix_or. now apply (hits_nfix_or l' Hi Ha).
      + simpl in H0. rewrite kcount_none in H0. lia.
      + simpl in H0. rewrite kcount_none in H0. lia.
    - apply Hsingle; try discriminate; [reflexivity|exact Hi].
  Qed.
End Agree.

(** The main result about the index. *)
Lemma index_listing t p pe d rules :
  elem_at t p = Some d -> plain_element d ->
  (forall s, In s rules -> has_args s = true /\ indexable s = true) ->
  exists out, index_match (build rules) t p pe = Some out /\
    listing t p pe index_ok (number 1 rules) out.
Proof.
  intros Hd Hp Hr.
  assert (Hin : forall i e, In e (number i rules) -> In (ie_rule e) rules).
  { clear. induction rules as [|s l IH]; simpl; [tauto|]. intros i e [<-|H]; [now left|right; eauto]. }
  eexists. split; [apply (index_match_groups rules t p pe d Hd)|].
  { intros e He. unfold quiet. apply match_selector_total. apply Hr. eauto. }
  assert (Hg : forall e, In e (number 1 rules) ->
    good t p pe e (geff t p pe e (hits (elem_keys d pe) (ie_rule e)))).
  { intros e He. destruct (Hr _ (Hin _ _ He)). apply geff_good; auto. }
  revert Hg. clear Hin Hr. generalize 1 as b.
  induction rules as [|s l IH]; intros b Hg; simpl; [constructor|].
  destruct (Hg (mkIE b s) (or_introl eq_refl)) as [[H1 H2]|(sp & sp' & n & H1 & H2 & H3 & H4)].
  - simpl ie_rule in *. rewrite H2. apply L_skip; [exact H1|]. apply IH. intros e He. apply Hg. now right.
  - simpl ie_rule in *. rewrite H3. eapply L_hit; eauto.
    + split; [|intros Hc; now rewrite H4]. intros Hl. destruct H2 as [H2|[H2 _]]; [exact H2|simpl in *; congruence].
    + apply IH. intros e He. apply Hg. now right.
Qed.
