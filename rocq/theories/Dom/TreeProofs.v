(** Proofs about the DOM tree operations. *)
From Coq Require Import List Arith Bool Lia Relations Wellfounded.
From Verif.Base Require Import Outcome.
From Verif.Dom Require Import TreeModel TreeSpec.
Import ListNotations.

(** ** Lists *)

Lemma last_error_snoc l x : last_error (l ++ [x]) = Some x.
Proof. unfold last_error. now rewrite rev_unit. Qed.

Lemma last_error_cons x l : last_error (x :: l) = match last_error l with Some y => Some y | None => Some x end.
Proof.
  unfold last_error. simpl. destruct (rev l) as [|y r] eqn:E; reflexivity.
Qed.

Lemma last_error_app l1 l2 :
  last_error (l1 ++ l2) = match last_error l2 with Some y => Some y | None => last_error l1 end.
Proof.
  unfold last_error. rewrite rev_app_distr. destruct (rev l2); reflexivity.
Qed.

Lemma last_error_In l x : last_error l = Some x -> In x l.
Proof.
  unfold last_error. intros H. apply in_rev. destruct (rev l); [discriminate|]. injection H as ->. now left.
Qed.

Lemma last_error_none l : last_error l = None -> l = [].
Proof.
  unfold last_error. destruct l as [|x l]; [reflexivity|]. simpl. destruct (rev l); discriminate.
Qed.

Lemma hd_error_In (l : list id) x : hd_error l = Some x -> In x l.
Proof. destruct l; [discriminate|]. intros [= ->]. now left. Qed.

Lemma hd_error_app (l1 l2 : list id) :
  hd_error (l1 ++ l2) = match hd_error l1 with Some y => Some y | None => hd_error l2 end.
Proof. destruct l1; reflexivity. Qed.

Lemma split_app {A} (x y u z : list A) e : x ++ y = u ++ e :: z ->
  (exists x2, x = u ++ e :: x2 /\ z = x2 ++ y) \/ (exists y1, y = y1 ++ e :: z /\ u = x ++ y1).
Proof.
  revert u. induction x as [|h x IH]; intros u E; simpl in E.
  - right. exists u. auto.
  - destruct u as [|h' u]; simpl in E; injection E as -> E.
    + left. exists x. auto.
    + apply IH in E as [(x2 & -> & ->)|(y1 & -> & ->)]; [left; exists x2; auto|right; exists y1; auto].
Qed.

Lemma nodup_mid l1 (c : id) l2 : NoDup (l1 ++ c :: l2) -> ~ In c l1 /\ ~ In c l2.
Proof.
  intros H. apply NoDup_remove_2 in H. rewrite in_app_iff in H. tauto.
Qed.

Lemma nodup_split l1 (c : id) l2 m1 m2 : NoDup (l1 ++ c :: l2) -> l1 ++ c :: l2 = m1 ++ c :: m2 ->
  l1 = m1 /\ l2 = m2.
Proof.
  revert m1. induction l1 as [|x l1 IH]; intros m1 Hn E; destruct m1 as [|y m1]; simpl in E.
  - injection E as ->. auto.
  - injection E as -> ->. inversion Hn as [|? ? H _]; subst. exfalso. apply H. apply in_or_app. right. now left.
  - injection E as -> <-. inversion Hn as [|? ? H _]; subst. exfalso. apply H. apply in_or_app. right. now left.
  - injection E as -> E. inversion Hn; subst. destruct (IH m1) as [-> ->]; auto.
Qed.

Lemma remove_notin n (l : list id) : ~ In n l -> List.remove Nat.eq_dec n l = l.
Proof. apply notin_remove. Qed.

Lemma remove_mid n l1 l2 : NoDup (l1 ++ n :: l2) ->
  List.remove Nat.eq_dec n (l1 ++ n :: l2) = l1 ++ l2.
Proof.
  intros H. apply nodup_mid in H as [H1 H2]. rewrite remove_app. simpl.
  destruct (Nat.eq_dec n n); [|congruence]. now rewrite !remove_notin.
Qed.

Lemma NoDup_insert l1 (n : id) l2 : NoDup (l1 ++ l2) -> ~ In n (l1 ++ l2) -> NoDup (l1 ++ n :: l2).
Proof. intros H1 H2. apply NoDup_Add with (a := n) (l := l1 ++ l2); [apply Add_app|auto]. Qed.

Lemma nodup_app (l1 l2 : list id) : NoDup l1 -> NoDup l2 -> (forall x, In x l1 -> ~ In x l2) -> NoDup (l1 ++ l2).
Proof.
  induction l1 as [|x l1 IH]; simpl; intros H1 H2 H; [assumption|]. inversion H1; subst. constructor.
  - rewrite in_app_iff. intros [Hx|Hx]; [contradiction|]. eapply H; [now left|exact Hx].
  - apply IH; auto.
Qed.

(** ** Facts about represented forests *)

Lemma rep_parent h k p c : represents h k -> (In c (k p) <-> parent h c = Some p).
Proof.
  intros [H1 H2]. split.
  - intros Hin. apply in_split in Hin as (l1 & l2 & E). destruct (H1 p) as (_ & _ & _ & H).
    now apply (H l1 c l2).
  - intros E. specialize (H2 c). rewrite E in H2. exact H2.
Qed.

Lemma rep_prev h k p l1 c l2 : represents h k -> k p = l1 ++ c :: l2 -> prev h c = last_error l1.
Proof. intros [H _] E. destruct (H p) as (_ & _ & _ & H'). now apply (H' l1 c l2). Qed.
Lemma rep_next h k p l1 c l2 : represents h k -> k p = l1 ++ c :: l2 -> next h c = hd_error l2.
Proof. intros [H _] E. destruct (H p) as (_ & _ & _ & H'). now apply (H' l1 c l2). Qed.
Lemma rep_nodup h k p : represents h k -> NoDup (k p).
Proof. intros [H _]. apply H. Qed.
Lemma rep_first h k p : represents h k -> first h p = hd_error (k p).
Proof. intros [H _]. apply H. Qed.
Lemma rep_last h k p : represents h k -> last h p = last_error (k p).
Proof. intros [H _]. apply H. Qed.
Lemma rep_free h k c : represents h k -> parent h c = None -> prev h c = None /\ next h c = None.
Proof. intros [_ H] E. specialize (H c). now rewrite E in H. Qed.

Definition is (p : option id) (x : id) : bool := ptr_eqb p (Some x).
Lemma is_spec p x : is p x = true <-> p = Some x.
Proof. destruct p as [y|]; simpl; [|split; discriminate]. unfold is. simpl. rewrite Nat.eqb_eq. split; congruence. Qed.
Lemma is_false p x : is p x = false <-> p <> Some x.
Proof. rewrite <- is_spec. destruct (is p x); split; congruence. Qed.

(** ** Linking a detached node between [l1] and [l2] *)

Record linked (h h' : heap) (p : id) (l1 : list id) (n : id) (l2 : list id) : Prop := {
  lk_parent : forall x, parent h' x = if x =? n then Some p else parent h x;
  lk_first : forall x, first h' x = if x =? p then hd_error (l1 ++ n :: l2) else first h x;
  lk_last : forall x, last h' x = if x =? p then last_error (l1 ++ n :: l2) else last h x;
  lk_next : forall x, next h' x = if x =? n then hd_error l2 else if is (last_error l1) x then Some n else next h x;
  lk_prev : forall x, prev h' x = if x =? n then last_error l1 else if is (hd_error l2) x then Some n else prev h x;
}.

Lemma rep_disjoint h k p q c : represents h k -> In c (k p) -> In c (k q) -> p = q.
Proof. intros H H1 H2. apply (rep_parent h k) in H1, H2; auto. congruence. Qed.

Lemma linked_represents h h' k p l1 n l2 :
  represents h k -> parent h n = None -> k p = l1 ++ l2 ->
  linked h h' p l1 n l2 -> represents h' (put_list k p (l1 ++ n :: l2)).
Proof.
  intros Hr Hn Hk [L1 L2 L3 L4 L5].
  assert (Hfree : forall q, ~ In n (k q)).
  { intros q Hin. apply (rep_parent h k) in Hin; auto. congruence. }
  assert (Hnd : NoDup (l1 ++ l2)) by (rewrite <- Hk; eapply rep_nodup, Hr).
  assert (Hnin : ~ In n (l1 ++ l2)) by (rewrite <- Hk; apply Hfree).
  assert (Hnd' : NoDup (l1 ++ n :: l2)) by now apply NoDup_insert.
  split.
  - intros q. unfold put_list. destruct (q =? p) eqn:Eq.
    + apply Nat.eqb_eq in Eq as ->. split; [exact Hnd'|].
      rewrite L2, L3, Nat.eqb_refl. split; [reflexivity|]. split; [reflexivity|].
      intros m1 c m2 E. apply split_app in E as [(x2 & -> & ->)|(y1 & E & ->)].
      * (* c in l1 *)
        assert (Hcn : c =? n = false).
        { apply Nat.eqb_neq. intros ->. apply Hnin. rewrite !in_app_iff. simpl. tauto. }
        assert (Hpar : parent h c = Some p).
        { apply (rep_parent h k); auto. rewrite Hk, !in_app_iff. simpl. tauto. }
        rewrite L1, L4, L5, Hcn. split; [exact Hpar|]. split.
        -- destruct (is (hd_error l2) c) eqn:Eh.
           ++ apply is_spec, hd_error_In in Eh. exfalso.
              rewrite <- app_assoc in Hnd. apply nodup_mid in Hnd as [_ Hnd].
              apply Hnd. apply in_or_app. now right.
           ++ rewrite <- app_assoc in Hk. eapply rep_prev; [exact Hr|exact Hk].
        -- rewrite hd_error_app. destruct x2 as [|y x2].
           ++ rewrite last_error_snoc. replace (is (Some c) c) with true; [reflexivity|].
              symmetry. now apply is_spec.
           ++ destruct (is (last_error (m1 ++ c :: y :: x2)) c) eqn:El.
              ** apply is_spec in El. rewrite last_error_app, last_error_cons in El.
                 rewrite last_error_cons in El.
                 assert (Hin : In c (y :: x2)).
                 { destruct (last_error x2) as [z|] eqn:E2; injection El as ->; [right; now apply last_error_In|now left]. }
                 exfalso. rewrite <- app_assoc in Hnd. apply nodup_mid in Hnd as [_ Hnd].
                 apply Hnd. simpl. rewrite in_app_iff. simpl in Hin. tauto.
              ** rewrite <- app_assoc in Hk. rewrite (rep_next h k p m1 c ((y :: x2) ++ l2) Hr Hk). reflexivity.
      * destruct y1 as [|y y1].
        -- (* the new node *)
           simpl in E. injection E as <- <-. rewrite L1, L4, L5, Nat.eqb_refl, app_nil_r. auto.
        -- (* c in l2 *)
           simpl in E. injection E as <- ->.
           assert (Hcn : c =? n = false).
           { apply Nat.eqb_neq. intros ->. apply Hnin. rewrite !in_app_iff. simpl. tauto. }
           assert (Hpar : parent h c = Some p).
           { apply (rep_parent h k); auto. rewrite Hk, !in_app_iff. simpl. tauto. }
           rewrite L1, L4, L5, Hcn. split; [exact Hpar|]. split.
           ++ rewrite last_error_app, last_error_cons. destruct y1 as [|y y1].
              ** unfold is. simpl. now rewrite Nat.eqb_refl.
              ** destruct (is (hd_error ((y :: y1) ++ c :: m2)) c) eqn:Eh.
                 --- apply is_spec in Eh. simpl in Eh. injection Eh as ->. exfalso.
                     rewrite app_assoc in Hnd. apply nodup_mid in Hnd as [Hnd _]. apply Hnd.
                     apply in_or_app. right. now left.
                 --- rewrite app_assoc in Hk. rewrite (rep_prev h k p _ c m2 Hr Hk).
                     rewrite last_error_app. rewrite last_error_cons. destruct (last_error y1); reflexivity.
           ++ destruct (is (last_error l1) c) eqn:El.
              ** apply is_spec, last_error_In in El. exfalso.
                 rewrite app_assoc in Hnd. apply nodup_mid in Hnd as [Hnd _]. apply Hnd.
                 apply in_or_app. now left.
              ** rewrite app_assoc in Hk. eapply rep_next; [exact Hr|exact Hk].
    + apply Nat.eqb_neq in Eq. destruct Hr as [Hr1 Hr2]. destruct (Hr1 q) as (D1 & D2 & D3 & D4).
      split; [exact D1|]. rewrite L2, L3. replace (q =? p) with false by (symmetry; now apply Nat.eqb_neq).
      split; [exact D2|]. split; [exact D3|].
      intros m1 c m2 E. specialize (D4 m1 c m2 E) as (D4 & D5 & D6).
      assert (Hcq : In c (k q)) by (rewrite E, in_app_iff; simpl; tauto).
      assert (Hcn : c =? n = false) by (apply Nat.eqb_neq; intros ->; now apply (Hfree q)).
      assert (Hcp : ~ In c (k p)).
      { intros Hc. apply Eq. apply (rep_disjoint h k q p c (conj Hr1 Hr2)); auto. }
      rewrite Hk, in_app_iff in Hcp.
      rewrite L1, L4, L5, Hcn. split; [exact D4|]. split.
      * destruct (is (hd_error l2) c) eqn:Eh; [|exact D5]. apply is_spec, hd_error_In in Eh. tauto.
      * destruct (is (last_error l1) c) eqn:Eh; [|exact D6]. apply is_spec, last_error_In in Eh. tauto.
  - intros c. rewrite L1. unfold put_list. destruct (c =? n) eqn:Ec.
    + apply Nat.eqb_eq in Ec as ->. rewrite Nat.eqb_refl, in_app_iff. simpl. tauto.
    + destruct Hr as [Hr1 Hr2]. pose proof (Hr2 c) as H2. destruct (parent h c) as [q|] eqn:Ep.
      * destruct (q =? p) eqn:Eq; [|exact H2]. apply Nat.eqb_eq in Eq as ->.
        rewrite Hk in H2. rewrite in_app_iff in *. simpl. tauto.
      * rewrite L4, L5, Ec. destruct H2 as [H2 H3].
        assert (Hcp : ~ In c (l1 ++ l2)).
        { rewrite <- Hk. intros Hc. apply (rep_parent h k) in Hc; [congruence|split; auto]. }
        rewrite in_app_iff in Hcp. split.
        -- destruct (is (hd_error l2) c) eqn:Eh; [|exact H2]. apply is_spec, hd_error_In in Eh. tauto.
        -- destruct (is (last_error l1) c) eqn:Eh; [|exact H3]. apply is_spec, last_error_In in Eh. tauto.
Qed.

(** ** Unlinking *)

Record unlinked (h h' : heap) (p : id) (l1 : list id) (n : id) (l2 : list id) : Prop := {
  ul_parent : forall x, parent h' x = if x =? n then None else parent h x;
  ul_first : forall x, first h' x = if x =? p then hd_error (l1 ++ l2) else first h x;
  ul_last : forall x, last h' x = if x =? p then last_error (l1 ++ l2) else last h x;
  ul_next : forall x, next h' x = if x =? n then None else if is (last_error l1) x then hd_error l2 else next h x;
  ul_prev : forall x, prev h' x = if x =? n then None else if is (hd_error l2) x then last_error l1 else prev h x;
}.

Lemma unlinked_represents h h' k p l1 n l2 :
  represents h k -> k p = l1 ++ n :: l2 -> unlinked h h' p l1 n l2 ->
  represents h' (take_out k n).
Proof.
  intros Hr Hk [L1 L2 L3 L4 L5].
  assert (Hnd : NoDup (l1 ++ n :: l2)) by (rewrite <- Hk; eapply rep_nodup, Hr).
  assert (Hnd' : NoDup (l1 ++ l2)) by (eapply NoDup_remove_1, Hnd).
  assert (Hin : In n (k p)) by (rewrite Hk, in_app_iff; simpl; tauto).
  assert (Hother : forall q, q <> p -> take_out k n q = k q).
  { intros q Hq. apply remove_notin. intros H. apply Hq. eapply rep_disjoint; eauto. }
  assert (Hp : take_out k n p = l1 ++ l2) by (unfold take_out; rewrite Hk; now apply remove_mid).
  split.
  - intros q. destruct (Nat.eq_dec q p) as [->|Hq].
    + rewrite Hp. split; [exact Hnd'|]. rewrite L2, L3, Nat.eqb_refl. split; [reflexivity|]. split; [reflexivity|].
      intros m1 c m2 E.
      assert (Hc : In c (l1 ++ l2)) by (rewrite E, in_app_iff; simpl; tauto).
      assert (Hcn : c =? n = false).
      { apply Nat.eqb_neq. intros ->. apply NoDup_remove_2 in Hnd. contradiction. }
      assert (Hpar : parent h c = Some p).
      { apply (rep_parent h k); auto. rewrite Hk. rewrite in_app_iff in *. simpl. tauto. }
      rewrite L1, L4, L5, Hcn. split; [exact Hpar|].
      apply split_app in E as [(x2 & -> & ->)|(y1 & -> & ->)].
      * split.
        -- destruct (is (hd_error l2) c) eqn:Eh.
           ++ apply is_spec, hd_error_In in Eh. exfalso.
              rewrite <- app_assoc in Hnd'. apply nodup_mid in Hnd' as [_ Hnd'].
              apply Hnd'. apply in_or_app. now right.
           ++ rewrite <- app_assoc in Hk. eapply rep_prev; [exact Hr|exact Hk].
        -- destruct x2 as [|y x2].
           ++ rewrite last_error_snoc. replace (is (Some c) c) with true; [reflexivity|]. symmetry. now apply is_spec.
           ++ destruct (is (last_error (m1 ++ c :: y :: x2)) c) eqn:El.
              ** apply is_spec in El. rewrite last_error_app, last_error_cons in El.
                 rewrite last_error_cons in El.
                 assert (Hi : In c (y :: x2)).
                 { destruct (last_error x2) as [z|] eqn:E2; injection El as ->; [right; now apply last_error_In|now left]. }
                 exfalso. rewrite <- app_assoc in Hnd'. apply nodup_mid in Hnd' as [_ Hnd'].
                 apply Hnd'. simpl. rewrite in_app_iff. simpl in Hi. tauto.
              ** rewrite <- app_assoc in Hk. rewrite (rep_next h k p m1 c ((y :: x2) ++ n :: l2) Hr Hk). reflexivity.
      * assert (Hk' : k p = (l1 ++ n :: y1) ++ c :: m2) by (rewrite Hk, <- app_assoc; reflexivity).
        split.
        -- destruct y1 as [|y y1].
           ++ unfold is. simpl. now rewrite Nat.eqb_refl, app_nil_r.
           ++ destruct (is (hd_error ((y :: y1) ++ c :: m2)) c) eqn:Eh.
              ** apply is_spec in Eh. simpl in Eh. injection Eh as ->. exfalso.
                 rewrite app_assoc in Hnd'. apply nodup_mid in Hnd' as [Hnd' _]. apply Hnd'.
                 apply in_or_app. right. now left.
              ** rewrite (rep_prev h k p _ c m2 Hr Hk').
                 rewrite !last_error_app. rewrite !last_error_cons. destruct (last_error y1); reflexivity.
        -- destruct (is (last_error l1) c) eqn:El.
           ++ apply is_spec, last_error_In in El. exfalso.
              rewrite app_assoc in Hnd'. apply nodup_mid in Hnd' as [Hnd' _]. apply Hnd'.
              apply in_or_app. now left.
           ++ eapply rep_next; [exact Hr|exact Hk'].
    + rewrite Hother by exact Hq. destruct Hr as [Hr1 Hr2]. destruct (Hr1 q) as (D1 & D2 & D3 & D4).
      split; [exact D1|]. rewrite L2, L3. replace (q =? p) with false by (symmetry; now apply Nat.eqb_neq).
      split; [exact D2|]. split; [exact D3|].
      intros m1 c m2 E. specialize (D4 m1 c m2 E) as (D4 & D5 & D6).
      assert (Hcq : In c (k q)) by (rewrite E, in_app_iff; simpl; tauto).
      assert (Hcp : ~ In c (k p)).
      { intros Hc. apply Hq. apply (rep_disjoint h k q p c (conj Hr1 Hr2)); auto. }
      assert (Hcn : c =? n = false) by (apply Nat.eqb_neq; intros ->; contradiction).
      rewrite Hk, in_app_iff in Hcp. simpl in Hcp.
      rewrite L1, L4, L5, Hcn. split; [exact D4|]. split.
      * destruct (is (hd_error l2) c) eqn:Eh; [|exact D5]. apply is_spec, hd_error_In in Eh. tauto.
      * destruct (is (last_error l1) c) eqn:Eh; [|exact D6]. apply is_spec, last_error_In in Eh. tauto.
  - intros c. rewrite L1. destruct (c =? n) eqn:Ec.
    + rewrite L4, L5, Ec. auto.
    + apply Nat.eqb_neq in Ec. destruct Hr as [Hr1 Hr2]. pose proof (Hr2 c) as H2. destruct (parent h c) as [q|] eqn:Ep.
      * unfold take_out. apply in_in_remove; auto.
      * rewrite L4, L5. replace (c =? n) with false by (symmetry; now apply Nat.eqb_neq). destruct H2 as [H2 H3].
        assert (Hcp : ~ In c (k p)).
        { intros Hc. apply (rep_parent h k) in Hc; [congruence|split; auto]. }
        rewrite Hk, in_app_iff in Hcp. simpl in Hcp. split.
        -- destruct (is (hd_error l2) c) eqn:Eh; [|exact H2]. apply is_spec, hd_error_In in Eh. tauto.
        -- destruct (is (last_error l1) c) eqn:Eh; [|exact H3]. apply is_spec, last_error_In in Eh. tauto.
Qed.

(** ** The operations *)

Ltac beq := repeat match goal with
  | |- context [?a =? ?b] => destruct (Nat.eqb_spec a b); subst
  | H : context [?a =? ?b] |- _ => destruct (Nat.eqb_spec a b); subst
  end.

Lemma remove_unlinked h k n p l1 l2 : represents h k -> k p = l1 ++ n :: l2 ->
  unlinked h (remove h n) p l1 n l2.
Proof.
  intros Hr Hk.
  assert (Hp : parent h n = Some p) by (apply (rep_parent h k); auto; rewrite Hk, in_app_iff; simpl; tauto).
  pose proof (rep_prev _ _ _ _ _ _ Hr Hk) as Hprev. pose proof (rep_next _ _ _ _ _ _ Hr Hk) as Hnext.
  pose proof (rep_first _ _ p Hr) as Hf. pose proof (rep_last _ _ p Hr) as Hl. rewrite Hk in Hf, Hl.
  assert (Hnd : NoDup (l1 ++ n :: l2)) by (rewrite <- Hk; eapply rep_nodup, Hr).
  pose proof (nodup_mid _ _ _ Hnd) as [Hn1 Hn2].
  (* first and last of the list, with and without [n] *)
  assert (HF : (if ptr_eqb (first h p) (Some n) then next h n else first h p) = hd_error (l1 ++ l2)).
  { rewrite Hf, Hnext. destruct l1 as [|x l1]; simpl.
    - rewrite Nat.eqb_refl. reflexivity.
    - destruct (Nat.eqb_spec x n) as [->|]; [exfalso; apply Hn1; now left|reflexivity]. }
  assert (HL : (if ptr_eqb (last h p) (Some n) then prev h n else last h p) = last_error (l1 ++ l2)).
  { rewrite Hl, Hprev. rewrite !last_error_app, last_error_cons. destruct (last_error l2) as [y|] eqn:E2; simpl.
    - destruct (Nat.eqb_spec y n) as [->|]; [|reflexivity]. exfalso. apply Hn2. now apply last_error_In.
    - rewrite Nat.eqb_refl. reflexivity. }
  unfold remove. rewrite Hp.
  assert (Hne1 : forall x, last_error l1 = Some x -> x <> n).
  { intros x E ->. apply Hn1. now apply last_error_In. }
  assert (Hne2 : forall x, hd_error l2 = Some x -> x <> n).
  { intros x E ->. apply Hn2. now apply hd_error_In. }
  assert (Hne3 : forall x y, last_error l1 = Some x -> hd_error l2 = Some y -> x <> y).
  { intros x y E1 E2 ->. apply last_error_In in E1. apply hd_error_In in E2.
    apply NoDup_remove_1 in Hnd. clear -Hnd E1 E2. induction l1 as [|z l1 IH]; [destruct E1|].
    inversion Hnd; subst. destruct E1 as [->|E1]; [apply H1, in_or_app; tauto|auto]. }
  unfold if_true, if_some.
  destruct (ptr_eqb (first h p) (Some n)) eqn:EF; cbn [last set_first next prev first parent];
  destruct (ptr_eqb (last h p) (Some n)) eqn:EL; cbn [last set_last set_first next prev first parent];
  rewrite ?Hnext, ?Hprev in *;
  destruct (hd_error l2) as [y|] eqn:E2; cbn [last set_prev set_last set_first next prev first parent]; unfold upd;
  repeat match goal with
  | |- context [?a =? ?b] => destruct (Nat.eqb_spec a b); try congruence; subst
  end;
  rewrite ?Hprev, ?Hnext;
  destruct (last_error l1) as [z|] eqn:E1; cbn [last set_next set_prev set_last set_first next prev first parent]; unfold upd;
  rewrite ?Hnext, ?Hprev;
  (split; cbn [last set_next set_prev set_last set_first set_parent next prev first parent]; unfold upd, is, ptr_eqb; intros x; rewrite ?E1, ?E2;
   repeat match goal with
   | |- context [?a =? ?b] => destruct (Nat.eqb_spec a b); try congruence; subst
   end; try congruence; try (exfalso; eapply Hne1; [reflexivity|reflexivity]);
   try (exfalso; eapply Hne2; [reflexivity|reflexivity]); try (exfalso; eapply Hne3; [reflexivity|reflexivity|reflexivity])).
Qed.

Lemma represents_ext h k k' : (forall p, k p = k' p) -> represents h k -> represents h k'.
Proof.
  intros E [H1 H2]. split.
  - intros p. rewrite <- E. apply H1.
  - intros c. specialize (H2 c). destruct (parent h c); [now rewrite <- E|exact H2].
Qed.

Lemma remove_represents h k n : represents h k -> represents (remove h n) (take_out k n).
Proof.
  intros Hr. destruct (parent h n) as [p|] eqn:Ep.
  - assert (Hin : In n (k p)) by now apply (rep_parent h k).
    apply in_split in Hin as (l1 & l2 & Hk).
    eapply unlinked_represents; eauto. eapply remove_unlinked; eauto.
  - unfold remove. rewrite Ep. eapply represents_ext; [|exact Hr].
    intros p. unfold take_out. symmetry. apply remove_notin.
    intros H. apply (rep_parent h k) in H; auto. congruence.
Qed.

Lemma remove_parent h k n : represents h k -> parent (remove h n) n = None.
Proof.
  intros Hr. destruct (parent h n) as [p|] eqn:Ep.
  - assert (Hin : In n (k p)) by now apply (rep_parent h k).
    apply in_split in Hin as (l1 & l2 & Hk).
    rewrite (ul_parent _ _ _ _ _ _ (remove_unlinked h k n p l1 l2 Hr Hk)). now rewrite Nat.eqb_refl.
  - unfold remove. now rewrite Ep.
Qed.

Lemma detach_remove h n : detach h n = remove h n.
Proof. unfold detach, remove. destruct (parent h n); reflexivity. Qed.

(** Each insertion, on a heap where the node is detached. *)
Ltac eqbs := repeat match goal with
  | |- context [?a =? ?b] => destruct (Nat.eqb_spec a b); try congruence; subst
  end.

Lemma append_linked h k p n : represents h k -> parent h n = None ->
  linked h (append_child h p n) p (k p) n [].
Proof.
  intros Hr Hn. unfold append_child. rewrite detach_remove.
  assert (Hd : remove h n = h) by (unfold remove; now rewrite Hn). rewrite Hd. clear Hd.
  pose proof (rep_last _ _ p Hr) as Hl. pose proof (rep_first _ _ p Hr) as Hf.
  destruct (rep_free _ _ _ Hr Hn) as [Hpn Hnn].
  assert (Hni : forall x, In x (k p) -> x <> n).
  { intros x Hx ->. apply (rep_parent h k) in Hx; auto. congruence. }
  rewrite Hl. destruct (last_error (k p)) as [z|] eqn:E; unfold if_some, if_true;
    cbn [set_next set_prev set_parent set_last first last next prev parent]; rewrite ?Hl, Hf.
  - assert (Hz : z <> n) by (apply Hni; now apply last_error_In).
    destruct (k p) as [|y l] eqn:Ek; [discriminate|]. simpl ptr_eqb. cbv iota.
    split; intros x; cbn [set_next set_prev set_parent set_last set_first first last next prev parent];
      unfold upd, is, ptr_eqb; rewrite ?last_error_snoc, ?E, <- ?Hf; simpl; eqbs; try congruence; try reflexivity; try (cbn in *; congruence).
  - apply last_error_none in E. rewrite E in *. simpl ptr_eqb. cbv iota.
    split; intros x; cbn [set_next set_prev set_parent set_last set_first first last next prev parent];
      unfold upd, is, ptr_eqb; simpl; eqbs; try congruence; try reflexivity; try (cbn in *; congruence).
Qed.

Lemma prepend_linked h k p n : represents h k -> parent h n = None ->
  linked h (prepend_child h p n) p [] n (k p).
Proof.
  intros Hr Hn. unfold prepend_child. rewrite detach_remove.
  assert (Hd : remove h n = h) by (unfold remove; now rewrite Hn). rewrite Hd. clear Hd.
  pose proof (rep_last _ _ p Hr) as Hl. pose proof (rep_first _ _ p Hr) as Hf.
  destruct (rep_free _ _ _ Hr Hn) as [Hpn Hnn].
  assert (Hni : forall x, In x (k p) -> x <> n).
  { intros x Hx ->. apply (rep_parent h k) in Hx; auto. congruence. }
  rewrite Hf. destruct (k p) as [|y l] eqn:Ek; unfold if_some, if_true;
    cbn [set_next set_prev set_parent set_last set_first first last next prev parent hd_error]; rewrite ?Hf, Hl.
  - simpl ptr_eqb. cbv iota.
    split; intros x; cbn [set_next set_prev set_parent set_last set_first first last next prev parent];
      unfold upd, is, ptr_eqb; simpl; eqbs; try congruence; try reflexivity; try (cbn in *; congruence).
  - assert (Hz : y <> n) by (apply Hni; now left).
    destruct (last_error (y :: l)) as [z|] eqn:E; [|apply last_error_none in E; discriminate]. simpl ptr_eqb. cbv iota.
    assert (HL : last_error ([] ++ n :: y :: l) = Some z).
    { simpl. rewrite last_error_cons, E. reflexivity. }
    split; intros x; cbn [set_next set_prev set_parent set_last set_first first last next prev parent];
      unfold upd, is, ptr_eqb; rewrite ?HL; simpl; eqbs; try congruence; try reflexivity; try (cbn in *; congruence).
Qed.

Lemma before_linked h k p n c l1 l2 : represents h k -> parent h n = None ->
  k p = l1 ++ c :: l2 -> linked h (insert_before h p n (Some c)) p l1 n (c :: l2).
Proof.
  intros Hr Hn Hk. unfold insert_before. rewrite detach_remove.
  assert (Hd : remove h n = h) by (unfold remove; now rewrite Hn). rewrite Hd. clear Hd.
  pose proof (rep_last _ _ p Hr) as Hl. pose proof (rep_first _ _ p Hr) as Hf. rewrite Hk in Hl, Hf.
  pose proof (rep_prev _ _ _ _ _ _ Hr Hk) as Hprev.
  destruct (rep_free _ _ _ Hr Hn) as [Hpn Hnn].
  assert (Hni : forall x, In x (k p) -> x <> n).
  { intros x Hx ->. apply (rep_parent h k) in Hx; auto. congruence. }
  assert (Hcn : c <> n) by (apply Hni; rewrite Hk, in_app_iff; simpl; tauto).
  assert (Hnd : NoDup (l1 ++ c :: l2)) by (rewrite <- Hk; eapply rep_nodup, Hr).
  destruct (nodup_mid _ _ _ Hnd) as [Hc1 Hc2].
  assert (HF : hd_error (l1 ++ n :: c :: l2) = if ptr_eqb (first h p) (Some c) then Some n else first h p).
  { rewrite Hf. destruct l1 as [|y l1]; simpl; [now rewrite Nat.eqb_refl|].
    destruct (Nat.eqb_spec y c) as [->|]; [exfalso; apply Hc1; now left|reflexivity]. }
  assert (HL : last_error (l1 ++ n :: c :: l2) = last h p).
  { rewrite Hl, !last_error_app, !last_error_cons. destruct (last_error l2); reflexivity. }
  assert (Hne : forall z, last_error l1 = Some z -> z <> n /\ z <> c).
  { intros z E. apply last_error_In in E. split; [apply Hni; rewrite Hk, in_app_iff; tauto|].
    intros ->. contradiction. }
  cbn [set_next set_prev set_parent set_last set_first first last next prev parent]. unfold upd at 1.
  assert (Ecn : (c =? n) = false) by now apply Nat.eqb_neq.
  unfold upd. rewrite ?Ecn, ?Nat.eqb_refl, ?Hprev.
  destruct (last_error l1) as [z|] eqn:E; unfold if_some, if_true;
    cbn [set_next set_prev set_parent set_last set_first first last next prev parent];
    unfold upd; rewrite ?Ecn, ?Nat.eqb_refl, ?Hprev, ?Hnext;
    [destruct (Hne z eq_refl)|];
    destruct (ptr_eqb (first h p) (Some c)) eqn:EF;
    (split; intros x; cbn [set_next set_prev set_parent set_last set_first first last next prev parent hd_error];
      unfold upd; rewrite ?HL, ?HF, ?E; cbn [is ptr_eqb]; eqbs; try congruence; try reflexivity; try (cbn in *; congruence)).
Qed.

Lemma after_linked h k p n c l1 l2 : represents h k -> parent h n = None ->
  k p = l1 ++ c :: l2 -> linked h (insert_after h p n (Some c)) p (l1 ++ [c]) n l2.
Proof.
  intros Hr Hn Hk. unfold insert_after. rewrite detach_remove.
  assert (Hd : remove h n = h) by (unfold remove; now rewrite Hn). rewrite Hd. clear Hd.
  pose proof (rep_last _ _ p Hr) as Hl. pose proof (rep_first _ _ p Hr) as Hf. rewrite Hk in Hl, Hf.
  pose proof (rep_next _ _ _ _ _ _ Hr Hk) as Hnext.
  destruct (rep_free _ _ _ Hr Hn) as [Hpn Hnn].
  assert (Hni : forall x, In x (k p) -> x <> n).
  { intros x Hx ->. apply (rep_parent h k) in Hx; auto. congruence. }
  assert (Hcn : c <> n) by (apply Hni; rewrite Hk, in_app_iff; simpl; tauto).
  assert (Hnd : NoDup (l1 ++ c :: l2)) by (rewrite <- Hk; eapply rep_nodup, Hr).
  destruct (nodup_mid _ _ _ Hnd) as [Hc1 Hc2].
  assert (HL : last_error ((l1 ++ [c]) ++ n :: l2) = if ptr_eqb (last h p) (Some c) then Some n else last h p).
  { rewrite Hl, !last_error_app, !last_error_cons. destruct (last_error l2) as [y|] eqn:E; simpl.
    - destruct (Nat.eqb_spec y c) as [->|]; [|reflexivity]. exfalso. apply Hc2. now apply last_error_In.
    - now rewrite Nat.eqb_refl. }
  assert (HF : hd_error ((l1 ++ [c]) ++ n :: l2) = first h p).
  { rewrite Hf. destruct l1; reflexivity. }
  assert (Hne : forall z, hd_error l2 = Some z -> z <> n /\ z <> c).
  { intros z E. apply hd_error_In in E. split; [apply Hni; rewrite Hk, in_app_iff; simpl; tauto|].
    intros ->. contradiction. }
  cbn [set_next set_prev set_parent set_last set_first first last next prev parent]. unfold upd at 1.
  assert (Ecn : (c =? n) = false) by now apply Nat.eqb_neq.
  unfold upd. rewrite ?Ecn, ?Nat.eqb_refl, ?Hnext.
  destruct (hd_error l2) as [z|] eqn:E; unfold if_some, if_true;
    cbn [set_next set_prev set_parent set_last set_first first last next prev parent];
    unfold upd; rewrite ?Ecn, ?Nat.eqb_refl, ?Hprev, ?Hnext;
    [destruct (Hne z eq_refl)|];
    destruct (ptr_eqb (last h p) (Some c)) eqn:EF;
    (split; intros x; cbn [set_next set_prev set_parent set_last set_first first last next prev parent hd_error];
      unfold upd; rewrite ?HL, ?HF, ?E, ?last_error_snoc; cbn [is ptr_eqb]; eqbs; try congruence; try reflexivity; try (cbn in *; congruence)).
Qed.

(** ** Each operation does to the heap what [apply_op] does to the lists *)

Lemma detach_idem h k n : represents h k -> detach (remove h n) n = remove h n.
Proof. intros Hr. unfold detach. now rewrite (remove_parent h k n Hr). Qed.

Lemma append_detached h k p n : represents h k -> append_child h p n = append_child (remove h n) p n.
Proof. intros Hr. unfold append_child. rewrite (detach_idem h k n Hr), detach_remove. reflexivity. Qed.
Lemma prepend_detached h k p n : represents h k -> prepend_child h p n = prepend_child (remove h n) p n.
Proof. intros Hr. unfold prepend_child. rewrite (detach_idem h k n Hr), detach_remove. reflexivity. Qed.
Lemma before_detached h k p n c : represents h k ->
  insert_before h p n (Some c) = insert_before (remove h n) p n (Some c).
Proof. intros Hr. unfold insert_before. rewrite (detach_idem h k n Hr), detach_remove. reflexivity. Qed.
Lemma after_detached h k p n c : represents h k ->
  insert_after h p n (Some c) = insert_after (remove h n) p n (Some c).
Proof. intros Hr. unfold insert_after. rewrite (detach_idem h k n Hr), detach_remove. reflexivity. Qed.

Lemma insert_before_mid n c l1 l2 : ~ In c l1 ->
  insert_before_list n c (l1 ++ c :: l2) = l1 ++ n :: c :: l2.
Proof.
  induction l1 as [|x l1 IH]; simpl; intros H.
  - now rewrite Nat.eqb_refl.
  - destruct (Nat.eqb_spec x c) as [->|]; [tauto|]. now rewrite IH by tauto.
Qed.
Lemma insert_after_mid n c l1 l2 : ~ In c l1 ->
  insert_after_list n c (l1 ++ c :: l2) = (l1 ++ [c]) ++ n :: l2.
Proof.
  induction l1 as [|x l1 IH]; simpl; intros H.
  - now rewrite Nat.eqb_refl.
  - destruct (Nat.eqb_spec x c) as [->|]; [tauto|]. now rewrite IH by tauto.
Qed.

Lemma take_out_In k n p x : In x (take_out k n p) <-> In x (k p) /\ x <> n.
Proof.
  unfold take_out. split.
  - intros H. apply in_remove in H. tauto.
  - intros [H1 H2]. apply in_in_remove; auto.
Qed.

Lemma append_represents h k p n : represents h k ->
  represents (append_child h p n) (put_list (take_out k n) p (take_out k n p ++ [n])).
Proof.
  intros Hr. rewrite (append_detached h k p n Hr).
  pose proof (remove_represents h k n Hr) as Hr'. pose proof (remove_parent h k n Hr) as Hp.
  eapply linked_represents; eauto using append_linked. now rewrite app_nil_r.
Qed.

Lemma exec_represents h k o : represents h k -> allowed k o ->
  exists h', exec h o = Ok h' /\ represents h' (apply_op k o).
Proof.
  intros Hr Ha.
  assert (Hins : forall n, represents (remove h n) (take_out k n)) by (intros; now apply remove_represents).
  assert (Hpar : forall n, parent (remove h n) n = None) by (intros; eapply remove_parent; eauto).
  destruct o as [p n|p n|p n [c|]|p n [c|]|n|p n]; cbn [exec apply_op allowed] in *.
  - eexists. split; [reflexivity|]. now apply append_represents.
  - eexists. split; [reflexivity|]. rewrite (prepend_detached h k p n Hr).
    eapply linked_represents with (l1 := []) (l2 := take_out k n p); auto using prepend_linked.
  - destruct Ha as (_ & Hc & Hne). eexists. split; [reflexivity|]. rewrite (before_detached h k p n c Hr).
    assert (Hc' : In c (take_out k n p)) by (apply take_out_In; auto).
    apply in_split in Hc' as (l1 & l2 & E). rewrite E.
    assert (Hnd : NoDup (l1 ++ c :: l2)) by (rewrite <- E; eapply rep_nodup, Hins).
    rewrite insert_before_mid by (now apply nodup_mid in Hnd).
    eapply linked_represents; eauto using before_linked.
  - eexists. split; [reflexivity|]. now apply append_represents.
  - destruct Ha as (_ & Hc & Hne). eexists. split; [reflexivity|]. rewrite (after_detached h k p n c Hr).
    assert (Hc' : In c (take_out k n p)) by (apply take_out_In; auto).
    apply in_split in Hc' as (l1 & l2 & E). rewrite E.
    assert (Hnd : NoDup (l1 ++ c :: l2)) by (rewrite <- E; eapply rep_nodup, Hins).
    rewrite insert_after_mid by (now apply nodup_mid in Hnd).
    eapply linked_represents; eauto using after_linked. rewrite E, <- app_assoc. reflexivity.
  - eexists. split; [reflexivity|]. now apply append_represents.
  - eexists. split; [reflexivity|]. apply Hins.
  - unfold remove_child. apply (rep_parent h k) in Ha; auto. rewrite Ha. simpl.
    rewrite Nat.eqb_refl. simpl. eexists. split; [reflexivity|]. apply Hins.
Qed.

(** ** No node becomes its own ancestor *)

Definition rtc (k : forest) (a b : id) : Prop := a = b \/ ancestor k a b.

Lemma anc_mono k k' a b : (forall p c, In c (k p) -> In c (k' p)) -> ancestor k a b -> ancestor k' a b.
Proof.
  intros H P. induction P as [a b E|a b c _ IH1 _ IH2].
  - apply t_step. now apply H.
  - eapply t_trans; eauto.
Qed.

Lemma rtc_anc k a b c : rtc k a b -> ancestor k b c -> ancestor k a c.
Proof. intros [->|H1] H2; [auto|]. eapply t_trans; eauto. Qed.
Lemma anc_rtc k a b c : ancestor k a b -> rtc k b c -> ancestor k a c.
Proof. intros H1 [->|H2]; [auto|]. eapply t_trans; eauto. Qed.

Lemma anc_new_edge k k' p n a b :
  (forall q c, In c (k' q) -> In c (k q) \/ (q = p /\ c = n)) ->
  ancestor k' a b -> ancestor k a b \/ (rtc k a p /\ rtc k n b).
Proof.
  intros H P. induction P as [a b E|a b c _ IH1 _ IH2].
  - destruct (H _ _ E) as [H1|[-> ->]]; [left; now apply t_step|right; split; left; reflexivity].
  - destruct IH1 as [H1|[H1 H1']]; destruct IH2 as [H2|[H2 H2']].
    + left. eapply t_trans; eauto.
    + right. split; [|auto]. right. eapply anc_rtc; eauto.
    + right. split; [auto|]. right. eapply rtc_anc; eauto.
    + right. auto.
Qed.

Lemma acyclic_new_edge k k' p n :
  (forall q c, In c (k' q) -> In c (k q) \/ (q = p /\ c = n)) ->
  n <> p -> ~ ancestor k n p -> acyclic k -> acyclic k'.
Proof.
  intros H Hne Hna Hk x P. destruct (anc_new_edge k k' p n x x H P) as [H1|[H1 H2]].
  - now apply (Hk x).
  - destruct H1 as [->|H1], H2 as [->|H2].
    + congruence.
    + contradiction.
    + contradiction.
    + apply Hna. eapply t_trans; eauto.
Qed.

Lemma insert_before_In n c l x : In x (insert_before_list n c l) -> In x l \/ x = n.
Proof.
  induction l as [|y l IH]; simpl; [tauto|]. destruct (y =? c); simpl; [|tauto].
  intros [->|[->|H]]; auto.
Qed.
Lemma insert_after_In n c l x : In x (insert_after_list n c l) -> In x l \/ x = n.
Proof.
  induction l as [|y l IH]; simpl; [tauto|]. destruct (y =? c); simpl; [|tauto].
  intros [->|[->|H]]; auto.
Qed.

(** The edges after an insertion: at most one new one. *)
Lemma apply_edges k o q c : In c (apply_op k o q) ->
  In c (k q) \/ match o with
                | Append p n | Prepend p n | Before p n _ | After p n _ => q = p /\ c = n
                | _ => False
                end.
Proof.
  assert (Ht : forall n x, In c (take_out k n x) -> In c (k x)) by (intros n x H; now apply take_out_In in H).
  destruct o as [p n|p n|p n [b|]|p n [b|]|n|p n]; simpl; unfold put_list;
    try (destruct (Nat.eqb_spec q p) as [->|]; intros H); eauto.
  - apply in_app_iff in H as [H|[->|[]]]; eauto.
  - destruct H as [->|H]; eauto.
  - apply insert_before_In in H as [H| ->]; eauto.
  - apply in_app_iff in H as [H|[->|[]]]; eauto.
  - apply insert_after_In in H as [H| ->]; eauto.
  - apply in_app_iff in H as [H|[->|[]]]; eauto.
Qed.

Lemma apply_acyclic k o : acyclic k -> allowed k o -> acyclic (apply_op k o).
Proof.
  intros Hk Ha.
  assert (Hm : (forall q c, In c (apply_op k o q) -> In c (k q)) -> acyclic (apply_op k o)).
  { intros H x P. apply (Hk x). eapply anc_mono; eauto. }
  destruct o as [p n|p n|p n [b|]|p n [b|]|n|p n];
    try (apply Hm; intros q c H; apply apply_edges in H as [H|[]]; assumption);
    simpl in Ha; eapply (acyclic_new_edge k _ p n); auto; try tauto; intros q c H; now apply apply_edges in H.
Qed.

(** ** Histories *)

Lemma represents_empty : represents heap_empty forest_empty.
Proof.
  split.
  - intros p. split; [constructor|]. split; [reflexivity|]. split; [reflexivity|].
    intros [|x l1] c l2 E; discriminate.
  - intros c. simpl. auto.
Qed.

Lemma acyclic_empty : acyclic forest_empty.
Proof.
  intros x P. assert (H : forall a b, ancestor forest_empty a b -> False).
  { intros a b Q. induction Q as [a b []|]; auto. }
  eauto.
Qed.

Lemma exec_all_represents os : forall h k, represents h k -> allowed_all k os ->
  exists h', exec_all h os = Ok h' /\ represents h' (apply_all k os).
Proof.
  induction os as [|o os IH]; intros h k Hr Ha; simpl in *.
  - eauto.
  - destruct Ha as [Ha1 Ha2]. destruct (exec_represents h k o Hr Ha1) as (h1 & -> & Hr1). simpl.
    now apply IH.
Qed.

Lemma apply_all_acyclic os : forall k, acyclic k -> allowed_all k os -> acyclic (apply_all k os).
Proof.
  induction os as [|o os IH]; intros k Hk Ha; simpl in *; [assumption|].
  destruct Ha as [Ha1 Ha2]. apply IH; auto. now apply apply_acyclic.
Qed.

(** Only the nodes named by the operations occur. *)
Definition bounded (k : forest) (b : nat) : Prop := forall p c, In c (k p) -> p < b /\ c < b.

Definition op_bound (o : op) : nat :=
  match o with
  | Append p n | Prepend p n | Before p n _ | After p n _ => S (max p n)
  | _ => 0
  end.

Lemma apply_bounded k o b : bounded k b -> bounded (apply_op k o) (max b (op_bound o)).
Proof.
  intros Hk q c H. apply apply_edges in H as [H|H].
  - apply Hk in H. lia.
  - destruct o as [p n|p n|p n m|p n m|n|p n]; try contradiction; destruct H as [-> ->]; unfold op_bound; lia.
Qed.

Lemma apply_all_bounded os : forall k b, bounded k b -> exists b', bounded (apply_all k os) b'.
Proof.
  induction os as [|o os IH]; intros k b Hk; simpl; [eauto|].
  eapply IH. apply apply_bounded. exact Hk.
Qed.

(** ** Traversal *)

Lemma walk_next h k p : represents h k -> forall l2 l1 fuel, k p = l1 ++ l2 -> length l2 <= fuel ->
  walk (next h) fuel (hd_error l2) = Ok l2.
Proof.
  intros Hr. induction l2 as [|c l2 IH]; intros l1 fuel E Hf.
  - destruct fuel; reflexivity.
  - destruct fuel as [|fuel]; simpl in Hf; [lia|]. simpl. rewrite (rep_next _ _ _ _ _ _ Hr E).
    rewrite (IH (l1 ++ [c]) fuel); [reflexivity|now rewrite <- app_assoc|lia].
Qed.

Lemma walk_prev h k p : represents h k -> forall l1 l2 fuel, k p = l1 ++ l2 -> length l1 <= fuel ->
  walk (prev h) fuel (last_error l1) = Ok (rev l1).
Proof.
  intros Hr. induction l1 as [|c l1 IH] using rev_ind; intros l2 fuel E Hf.
  - destruct fuel; reflexivity.
  - rewrite app_length in Hf. destruct fuel as [|fuel]; simpl in Hf; [lia|].
    rewrite last_error_snoc, rev_unit. simpl. rewrite <- app_assoc in E. simpl in E.
    rewrite (rep_prev _ _ _ _ _ _ Hr E). rewrite (IH (c :: l2) fuel); [reflexivity|assumption|lia].
Qed.

Lemma iter_children_spec h k p fuel : represents h k -> length (k p) <= fuel ->
  iter_children h fuel p = Ok (k p).
Proof.
  intros Hr Hf. unfold iter_children. rewrite (rep_first _ _ p Hr). eapply (walk_next h k p Hr (k p) []); auto.
Qed.

Lemma filter_rev_length (f : id -> bool) l : length (filter f (rev l)) = length (filter f l).
Proof.
  induction l as [|x l IH]; [reflexivity|]. simpl. rewrite filter_app, app_length, IH. simpl.
  destruct (f x); simpl; lia.
Qed.

Lemma index_spec h k p l1 c l2 f fuel : represents h k -> k p = l1 ++ c :: l2 -> length l1 <= fuel ->
  index h fuel c f = Ok (length (filter f l1)).
Proof.
  intros Hr E Hf. unfold index. rewrite (rep_prev _ _ _ _ _ _ Hr E).
  rewrite (walk_prev h k p Hr l1 (c :: l2) fuel E Hf). simpl. now rewrite filter_rev_length.
Qed.

Lemma reverse_index_spec h k p l1 c l2 f fuel : represents h k -> k p = l1 ++ c :: l2 -> length l2 <= fuel ->
  reverse_index h fuel c f = Ok (length (filter f l2)).
Proof.
  intros Hr E Hf. unfold reverse_index. rewrite (rep_next _ _ _ _ _ _ Hr E).
  rewrite (walk_next h k p Hr l2 (l1 ++ [c]) fuel); auto. now rewrite <- app_assoc.
Qed.

(** ** Depth first *)

Lemma bounded_length k b p : bounded k b -> NoDup (k p) -> length (k p) <= b.
Proof.
  intros Hb Hn. rewrite <- (seq_length b 0). apply NoDup_incl_length; [assumption|].
  intros x Hx. apply in_seq. apply Hb in Hx. lia.
Qed.

Lemma depth_first_spec h k b : represents h k -> acyclic k -> bounded k b ->
  forall d v n, (forall a, In a v -> ancestor k a n) -> NoDup v -> (forall a, In a v -> a < b) ->
    b - length v < d -> exists l, iter_depth_first h b d n = Ok l /\ preorder k n l.
Proof.
  intros Hr Hac Hb. induction d as [|d IH]; intros v n Hv Hnd Hlt Hd; [lia|].
  assert (Hw : length (k n) <= b) by (apply (bounded_length k b n Hb); eapply rep_nodup, Hr).
  simpl. rewrite (iter_children_spec h k n b Hr Hw). simpl.
  assert (Hkids : forall c, In c (k n) -> exists l, iter_depth_first h b d c = Ok l /\ preorder k c l).
  { intros c Hc. destruct (Hb _ _ Hc) as [Hnb Hcb].
    assert (Hnv : ~ In n v) by (intros H; apply (Hac n), Hv, H).
    assert (Hlen : length (n :: v) <= b).
    { rewrite <- (seq_length b 0). apply NoDup_incl_length; [now constructor|].
      intros x [->|Hx]; apply in_seq; [lia|]. apply Hlt in Hx. lia. }
    apply (IH (n :: v) c).
    - intros a [->|Ha]; [now apply t_step|]. eapply t_trans; [now apply Hv|now apply t_step].
    - now constructor.
    - intros a [->|Ha]; auto.
    - simpl in *. lia. }
  assert (Hall : forall ks, (forall c, In c ks -> In c (k n)) ->
    exists ls, fold_right (fun k0 acc => obind (iter_depth_first h b d k0) (fun a => omap (app a) acc)) (Ok []) ks
      = Ok (concat ls) /\ Forall2 (preorder k) ks ls).
  { induction ks as [|c ks IHk]; intros Hin.
    - exists []. auto.
    - destruct IHk as (ls & E & HF); [intros; apply Hin; now right|].
      destruct (Hkids c) as (l & El & Hl); [apply Hin; now left|].
      exists (l :: ls). simpl. rewrite El. simpl. rewrite E. simpl. auto. }
  destruct (Hall (k n)) as (ls & E & HF); [auto|]. rewrite E. simpl. eexists. split; [reflexivity|].
  now constructor.
Qed.

Lemma preorder_ind' (k : forest) (P : id -> list id -> Prop) :
  (forall n ls, Forall2 (preorder k) (k n) ls -> Forall2 P (k n) ls -> P n (n :: concat ls)) ->
  forall n l, preorder k n l -> P n l.
Proof.
  intros H. fix IH 3. intros n l [n' ls HF]. apply H; [assumption|].
  revert HF. generalize (k n'). intros ks HF. induction HF as [|c l' ks ls' Hc _ IHF]; constructor; auto.
Qed.

Lemma preorder_In k n l : preorder k n l -> forall x, In x l <-> rtc k n x.
Proof.
  intros H. induction H as [n ls _ IH] using preorder_ind'. intros x. simpl. split.
  - intros [->|Hx]; [now left|].
    assert (Hg : exists c, In c (k n) /\ rtc k c x).
    { revert IH Hx. generalize (k n). intros ks HF. induction HF as [|c l ks ls Hc HF IHF]; simpl; [tauto|].
      rewrite in_app_iff. intros [Hx|Hx].
      - exists c. split; [now left|]. now apply Hc.
      - destruct (IHF Hx) as (c' & H1 & H2). eauto. }
    destruct Hg as (c & Hc & Hr). right. destruct Hr as [->|Hr]; [now apply t_step|].
    eapply t_trans; [apply t_step, Hc|exact Hr].
  - intros [->|Ha]; [now left|]. right.
    assert (Hg : exists c, In c (k n) /\ rtc k c x).
    { apply clos_trans_t1n in Ha. destruct Ha as [x Hx|c x Hc Hx].
      - exists x. split; [exact Hx|now left].
      - exists c. split; [exact Hc|]. right. now apply clos_t1n_trans. }
    destruct Hg as (c & Hc & Hr). revert IH Hc. generalize (k n). intros ks HF.
    induction HF as [|c' l ks ls Hc' HF IHF]; simpl; [tauto|]. rewrite in_app_iff. intros [->|Hc].
    + left. now apply Hc'.
    + right. now apply IHF.
Qed.

Definition unique_parent (k : forest) : Prop := forall p q c, In c (k p) -> In c (k q) -> p = q.

Lemma rtc_parent k c n p : unique_parent k -> In c (k p) -> rtc k n c -> n = c \/ rtc k n p.
Proof.
  intros Hu Hc [->|H]; [now left|]. right. apply clos_trans_tn1 in H.
  inversion H as [y Hx E|q z Hx Hy E]; subst.
  - rewrite (Hu p n c Hc Hx). now left.
  - rewrite (Hu p q c Hc Hx). right. now apply clos_tn1_trans.
Qed.

(** In a forest, two ancestors of a node are comparable. *)
Lemma ancestors_comparable k x : unique_parent k -> forall a b, rtc k a x -> rtc k b x -> rtc k a b \/ rtc k b a.
Proof.
  intros Hu a b [->|Ha]; intros Hb; [right; exact Hb|].
  apply clos_trans_tn1 in Ha. revert b Hb.
  induction Ha as [y Hy|y z Hy Ha IH]; intros b Hb.
  - destruct (rtc_parent k y b a Hu Hy Hb) as [->|H]; [left; right; now apply t_step|now right].
  - destruct (rtc_parent k z b y Hu Hy Hb) as [->|H].
    + left. right. eapply t_trans; [apply clos_tn1_trans, Ha|apply t_step, Hy].
    + now apply IH.
Qed.

Lemma preorder_NoDup k n l : unique_parent k -> acyclic k -> (forall p, NoDup (k p)) ->
  preorder k n l -> NoDup l.
Proof.
  intros Hu Hac Hnd H. induction H as [n ls H IH] using preorder_ind'.
  assert (Hsub : forall c, In c (k n) -> ~ rtc k c n).
  { intros c Hc Hr. apply (Hac n). eapply anc_rtc; [apply t_step, Hc|exact Hr]. }
  assert (Hall : forall ks ls, Forall2 (preorder k) ks ls -> Forall2 (fun _ l => NoDup l) ks ls -> NoDup ks ->
     (forall c, In c ks -> In c (k n)) ->
     NoDup (concat ls) /\ forall x, In x (concat ls) -> exists c, In c ks /\ rtc k c x).
  { intros ks ls' HF. induction HF as [|c l ks ls' Hc HF IHF]; intros HF2 Hn Hin; simpl.
    - split; [constructor|intros x []].
    - inversion HF2; subst. inversion Hn; subst. destruct IHF as [IH1 IH2]; auto; [intros; apply Hin; now right|].
      split.
      + apply nodup_app; auto. intros x Hx Hx'.
        apply (preorder_In k c l Hc) in Hx. destruct (IH2 x Hx') as (c' & Hc' & Hr').
        assert (Hcase : forall a b, In a (k n) -> In b (k n) -> a <> b -> ~ rtc k a b).
        { intros a b H1a H1b Hab Hr. destruct (rtc_parent k b a n Hu H1b Hr) as [->|Hr2]; [congruence|].
          now apply (Hsub a). }
        assert (Hcc : c <> c') by (intros ->; contradiction).
        assert (In c (k n)) by (apply Hin; now left). assert (In c' (k n)) by (apply Hin; now right).
        destruct (ancestors_comparable k x Hu c c' Hx Hr') as [Hr|Hr]; [now apply (Hcase c c')|now apply (Hcase c' c); auto].
      + intros x Hx. apply in_app_iff in Hx as [Hx|Hx].
        * exists c. split; [now left|]. now apply (preorder_In k c l Hc).
        * destruct (IH2 x Hx) as (c' & Hc' & Hr'). exists c'. split; [now right|exact Hr']. }
  destruct (Hall (k n) ls H IH (Hnd n)) as [H1 H2]; [auto|]. constructor; [|assumption].
  intros Hx. destruct (H2 n Hx) as (c & Hc & Hr). now apply (Hsub c).
Qed.
