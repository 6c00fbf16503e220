(** Facts about heaps, and the invariant of all histories. *)
From Coq Require Import List Arith ZArith NArith Bool Lia.
From Verif.Script Require Import ScriptModel.
Import ListNotations.

(** ** Keys and properties *)

Lemma string_eq_spec a b : string_eq a b = true <-> a = b.
Proof. unfold string_eq. destruct (list_eq_dec N.eq_dec a b); split; congruence. Qed.
Lemma key_eq_spec a b : key_eq a b = true <-> a = b.
Proof.
  destruct a, b; cbn; try (split; congruence).
  - rewrite string_eq_spec. split; congruence.
  - rewrite Nat.eqb_eq. split; congruence.
  - rewrite N.eqb_eq. split; congruence.
Qed.
Lemma key_eq_refl a : key_eq a a = true.
Proof. now apply key_eq_spec. Qed.
Lemma key_neq a b : a <> b -> key_eq a b = false.
Proof. intros H. destruct (key_eq a b) eqn:E; [apply key_eq_spec in E; congruence|reflexivity]. Qed.
Definition look (l : list (key * property)) (k : key) : option property := match find (fun x => key_eq (fst x) k) l with Some x => Some (snd x) | None => None end.
Lemma look_put k p l k' : look (put_prop k p l) k' = if key_eq k k' then Some p else look l k'.
Proof.
  unfold put_prop. destruct (existsb (fun x => key_eq (fst x) k) l) eqn:E.
  - induction l as [|[a q] l IH]; [discriminate|]. cbn [existsb fst] in E. cbn [map fst]. destruct (key_eq a k) eqn:Ea.
    + apply key_eq_spec in Ea. subst a. unfold look. cbn [find fst]. destruct (key_eq k k') eqn:Ek; [reflexivity|].
      clear IH E. fold (look l k'). fold (look (map (fun x => if key_eq (fst x) k then (k, p) else x) l) k'). induction l as [|[b r] l IH]; [reflexivity|]. cbn [map fst]. destruct (key_eq b k) eqn:Eb.
      * apply key_eq_spec in Eb. subst b. unfold look. cbn [find fst]. rewrite Ek. exact IH.
      * unfold look. cbn [find fst]. destruct (key_eq b k'); [reflexivity|exact IH].
    + cbn [orb] in E. specialize (IH E). unfold look in *. cbn [find fst]. destruct (key_eq a k') eqn:Ea'; [|exact IH].
      apply key_eq_spec in Ea'. subst a. destruct (key_eq k k') eqn:Ek; [|reflexivity]. apply key_eq_spec in Ek. subst k'. rewrite key_eq_refl in Ea. discriminate.
  - induction l as [|[a q] l IH]; [unfold look; cbn [app find fst snd]; destruct (key_eq k k'); reflexivity|]. cbn [existsb fst] in E. apply orb_false_iff in E as [E1 E2]. specialize (IH E2). unfold look in *. cbn [app find fst]. destruct (key_eq a k') eqn:Ea'; [|exact IH].
    apply key_eq_spec in Ea'. subst a. destruct (key_eq k k') eqn:Ek; [|reflexivity]. apply key_eq_spec in Ek. subst k'. rewrite key_eq_refl in E1. discriminate.
Qed.

(** ** Heaps *)

Lemma nth_set h n o m : n < length h -> nth_error (set_obj h n o) m = if Nat.eqb n m then Some o else nth_error h m.
Proof.
  revert n m. unfold set_obj. induction h as [|a h IH]; intros n m L; [cbn in L; lia|]. destruct n as [|n].
  - destruct m; reflexivity.
  - destruct m as [|m]; [reflexivity|]. cbn [firstn skipn app nth_error Nat.eqb]. apply IH. cbn in L. lia.
Qed.
Lemma length_set h n o : n < length h -> length (set_obj h n o) = length h.
Proof. intros L. unfold set_obj. rewrite app_length. cbn [length]. rewrite firstn_length, skipn_length. lia. Qed.
Lemma nth_lt (h : heap) n o : nth_error h n = Some o -> n < length h.
Proof. intros E. apply nth_error_Some. congruence. Qed.
Lemma nth_some (h : heap) n : n < length h -> exists o, nth_error h n = Some o.
Proof. intros L. destruct (nth_error h n) eqn:E; [eauto|]. apply nth_error_None in E. lia. Qed.
(** What is at a place after a property was stored. *)
Lemma nth_store h n k p o m : nth_error h n = Some o ->
  nth_error (store h n k p) m = if Nat.eqb n m then Some (mkObj (put_prop k p (o_props o)) (o_proto o) (o_extensible o) (o_call o)) else nth_error h m.
Proof. intros E. unfold store. rewrite E. apply nth_set. exact (nth_lt h n o E). Qed.
Lemma length_store h n k p : length (store h n k p) = length h.
Proof. unfold store. destruct (nth_error h n) eqn:E; [|reflexivity]. apply length_set. exact (nth_lt h n _ E). Qed.

(** Prototypes are older than the objects that have them. *)
Definition wf (h : heap) : Prop := forall n o p, nth_error h n = Some o -> o_proto o = Some p -> p < n.
(** Objects, their prototypes and properties that are there stay as they are. *)
Definition keeps (h h' : heap) : Prop := forall n o, nth_error h n = Some o ->
  exists o', nth_error h' n = Some o' /\ o_proto o' = o_proto o /\ o_extensible o' = o_extensible o /\ forall k p, own o k = Some p -> own o' k = Some p.
Definition good (h h' : heap) : Prop := wf h' /\ keeps h h'.
Lemma keeps_refl h : keeps h h.
Proof. intros n o E. exists o. auto. Qed.
Lemma keeps_trans a b c : keeps a b -> keeps b c -> keeps a c.
Proof. intros H K n o E. destruct (H n o E) as (o1 & E1 & P1 & X1 & Q1). destruct (K n o1 E1) as (o2 & E2 & P2 & X2 & Q2). exists o2. repeat split; [exact E2|congruence|congruence|auto]. Qed.
Lemma good_refl h : wf h -> good h h.
Proof. intros W. split; [exact W|apply keeps_refl]. Qed.
Lemma good_trans a b c : good a b -> good b c -> good a c.
Proof. intros [_ K1] [W K2]. split; [exact W|exact (keeps_trans _ _ _ K1 K2)]. Qed.
Lemma good_store h n k p o : wf h -> nth_error h n = Some o -> own o k = None -> good h (store h n k p).
Proof.
  intros W E N. split.
  - intros m x q Ex Ep. rewrite (nth_store h n k p o m E) in Ex. destruct (Nat.eqb_spec n m) as [<-|Nm]; [|exact (W m x q Ex Ep)]. injection Ex as <-. cbn in Ep. exact (W n o q E Ep).
  - intros m x Ex. rewrite (nth_store h n k p o m E). destruct (Nat.eqb_spec n m) as [<-|Nm]; [|exists x; auto]. rewrite E in Ex. injection Ex as <-. eexists. split; [reflexivity|]. cbn. repeat split. intros k' p' Ep. change (own o k') with (look (o_props o) k') in Ep. unfold own. cbn [o_props]. change (look (put_prop k p (o_props o)) k' = Some p'). rewrite look_put. destruct (key_eq k k') eqn:Ek; [|exact Ep]. apply key_eq_spec in Ek. subst k'. unfold own in N. unfold look in Ep. congruence.
Qed.
Lemma nth_alloc h p m o : nth_error (alloc h p) m = Some o -> nth_error h m = Some o \/ m = length h /\ o = mkObj [] p true None.
Proof.
  unfold alloc. intros E. destruct (Nat.lt_ge_cases m (length h)) as [L|L]; [rewrite nth_error_app1 in E by exact L; auto|]. rewrite nth_error_app2 in E by exact L. right. destruct (m - length h) as [|j] eqn:Ej; [injection E as <-; split; [lia|reflexivity]|destruct j; discriminate].
Qed.
Lemma alloc_old h p m o : nth_error h m = Some o -> nth_error (alloc h p) m = Some o.
Proof. intros E. unfold alloc. rewrite nth_error_app1; [exact E|exact (nth_lt h m o E)]. Qed.
Lemma alloc_new h p : nth_error (alloc h p) (length h) = Some (mkObj [] p true None).
Proof. unfold alloc. rewrite nth_error_app2 by lia. now rewrite Nat.sub_diag. Qed.
Lemma good_alloc h p : wf h -> (forall q, p = Some q -> q < length h) -> good h (alloc h p).
Proof.
  intros W L. split.
  - intros m o q E Ep. destruct (nth_alloc h p m o E) as [E0|[-> ->]]; [exact (W m o q E0 Ep)|exact (L q Ep)].
  - intros m o E. exists o. split; [now apply alloc_old|auto].
Qed.
Lemma good_define h n k d : wf h -> good h (fst (define_own h n k d)).
Proof.
  intros W. unfold define_own, at_obj. destruct (nth_error h n) as [o|] eqn:E; [|now apply good_refl]. unfold get_own. destruct (own o k) eqn:Eo; [now apply good_refl|]. cbn [option_map]. destruct (o_extensible o); [|now apply good_refl]. now apply (good_store h n k _ o).
Qed.
Lemma good_throw {A} h : wf h -> good h (fst (@throw_error A h)).
Proof. intros W. unfold throw_error. cbn [fst]. assert (good h (alloc h None)) as G by (apply good_alloc; [exact W|discriminate]). apply (good_trans _ _ _ G). apply good_define. exact (proj1 G). Qed.

(** The object of an error is what setting its name gives. *)
Lemma exception_set host h : set host 1 (alloc h None) (length h) name_key exception_name (OBJECT (length h)) = (fst (@throw_error value h), Done true).
Proof.
  cbn [set]. unfold at_obj at 1. rewrite alloc_new. unfold get_own at 1. cbn [own o_props find option_map o_proto]. unfold set_with. cbn [is_data d_value is_undefined negb d_writable present orb]. unfold at_obj. rewrite alloc_new. unfold get_own. cbn [own o_props find option_map].
  unfold throw_error, create_data_property. cbn [fst]. unfold define_own, at_obj. rewrite alloc_new. unfold get_own. cbn [own o_props find option_map o_extensible]. reflexivity.
Qed.

Section Host.
Variable host : nat -> heap -> nat -> list value -> heap * exc value.
(** Functions of the host act on objects through the same operations, so that what is there stays. *)
Definition respects : Prop := forall c h t a, wf h -> good h (fst (host c h t a)).
Hypothesis R : respects.

Lemma good_call h f v a : wf h -> good h (fst (call host h f v a)).
Proof. intros W. unfold call. destruct (callable h f) as [c|]; [|now apply good_throw]. destruct v; try (now apply good_refl). now apply R. Qed.
Lemma good_get : forall fuel h n k r, wf h -> good h (fst (get host fuel h n k r)).
Proof.
  induction fuel as [|fuel IH]; intros h n k r W; [now apply good_refl|]. cbn [get]. unfold at_obj. destruct (nth_error h n) as [o|]; [|now apply good_refl]. destruct (get_own o k) as [d|].
  - destruct (is_data d); [now apply good_refl|]. destruct (negb (is_accessor d)); [now apply good_refl|]. destruct (d_get d); [now apply good_call|now apply good_refl].
  - destruct (o_proto o); [now apply IH|now apply good_refl].
Qed.
Lemma good_set_with h n k v r d : wf h -> good h (fst (set_with host h n k v r d)).
Proof.
  intros W. unfold set_with. destruct (is_data d).
  - destruct (d_writable d) as [[]|]; try (now apply good_refl); (destruct r; try (now apply good_refl); unfold at_obj; destruct (nth_error h o) as [ro|]; [|now apply good_refl]; destruct (get_own ro k) as [e|]; [|now apply good_define]; destruct (is_accessor e); [now apply good_refl|]; destruct (d_writable e) as [[]|]; try (now apply good_refl); now apply good_define).
  - destruct (d_set d); [|now apply good_refl]. pose proof (good_call h r v [] W) as G. destruct (call host h r v []). exact G.
Qed.
Lemma good_set : forall fuel h n k v r, wf h -> good h (fst (set host fuel h n k v r)).
Proof.
  induction fuel as [|fuel IH]; intros h n k v r W; [now apply good_refl|]. cbn [set]. unfold at_obj. destruct (nth_error h n) as [o|]; [|now apply good_refl]. destruct (get_own o k) as [d|]; [now apply good_set_with|]. destruct (o_proto o); [now apply IH|now apply good_set_with].
Qed.
Lemma good_step h x : wf h -> arg_ok h x -> good h (fst (step host h x)).
Proof.
  intros W A. destruct x; cbn [step].
  - apply good_alloc; [exact W|]. intros q ->. exact A.
  - cbn [fst]. cbn in A. destruct (nth_some h n A) as [o E]. rewrite E. split.
    + intros m y q Ey Ep. rewrite nth_set in Ey by exact A. destruct (Nat.eqb_spec n m) as [<-|N]; [injection Ey as <-; exact (W n o q E Ep)|exact (W m y q Ey Ep)].
    + intros m y Ey. rewrite nth_set by exact A. destruct (Nat.eqb_spec n m) as [<-|N]; [rewrite E in Ey; injection Ey as <-; eexists; split; [reflexivity|auto]|exists y; auto].
  - pose proof (good_define h n k d W) as G. destruct (define_own h n k d). exact G.
  - pose proof (good_get (S n) h n k receiver W) as G. destruct (get host (S n) h n k receiver). exact G.
  - pose proof (good_set (S n) h n k v receiver W) as G. destruct (set host (S n) h n k v receiver). exact G.
  - now apply good_refl.
  - now apply good_refl.
  - pose proof (@good_throw value h W) as G. destruct (throw_error h). exact G.
Qed.
Lemma good_run : forall l h, wf h -> args_ok host h l -> good h (run host h l).
Proof.
  induction l as [|x l IH]; intros h W A; [now apply good_refl|]. cbn [run args_ok] in *. destruct A as [A1 A2]. pose proof (good_step h x W A1) as G. apply (good_trans _ _ _ G). apply IH; [exact (proj1 G)|exact A2].
Qed.
Lemma wf_nil : wf [].
Proof. intros [|n] o p E; discriminate. Qed.
End Host.
