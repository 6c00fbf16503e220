(** C39: a property that was set can be read. C85: reading looks along the chain of prototypes. C86: other
    properties and objects stay as they are. C87: comparison of values. C88: accessors. C89: attributes. *)
From Coq Require Import List Arith ZArith NArith Bool Lia.
From Verif.Script Require Import ScriptModel ScriptProofs.
Import ListNotations.

(** ECMA-262 10.1.8: the property that an object or, if it has none, the nearest of its prototypes has. *)
Inductive nearest (h : heap) (k : key) : nat -> option property -> Prop :=
| near_here n o p : nth_error h n = Some o -> own o k = Some p -> nearest h k n (Some p)
| near_up n o q r : nth_error h n = Some o -> own o k = None -> o_proto o = Some q -> nearest h k q r -> nearest h k n r
| near_end n o : nth_error h n = Some o -> own o k = None -> o_proto o = None -> nearest h k n None.
Lemma nearest_unique h k n a : nearest h k n a -> forall b, nearest h k n b -> a = b.
Proof. induction 1; intros b Hb; inversion Hb; subst; try congruence. apply IHnearest. congruence. Qed.
Lemma nearest_exists h k : wf h -> forall n, n < length h -> exists r, nearest h k n r.
Proof.
  intros W. induction n as [n IH] using lt_wf_ind. intros L. destruct (nth_some h n L) as [o E]. destruct (own o k) as [p|] eqn:Eo; [exists (Some p); econstructor 1; eassumption|]. destruct (o_proto o) as [q|] eqn:Ep.
  - pose proof (W n o q E Ep) as Lq. destruct (IH q Lq ltac:(lia)) as [r Hr]. exists r. econstructor 2; eassumption.
  - exists None. econstructor 3; eassumption.
Qed.
(** Objects whose prototypes are older: those that any history of operations makes. *)
Theorem C85_histories : forall host l, respects host -> args_ok host [] l -> wf (run host [] l).
Proof. intros host l R A. exact (proj1 (good_run host R l [] wf_nil A)). Qed.
Print Assumptions C85_histories.

Section Get.
Variable host : nat -> heap -> nat -> list value -> heap * exc value.
Definition read (h : heap) (r : option property) (receiver : value) : heap * exc value :=
  match r with
  | None => (h, Done UNDEFINED)
  | Some p => match p_content p with DATA v => (h, Done v) | ACCESSOR g _ => call host h (of_ptr g) receiver [] end
  end.
Lemma get_nearest h k rc : wf h -> forall n r, nearest h k n r -> forall fuel, n < fuel -> get host fuel h n k rc = read h r rc.
Proof.
  intros W n r H. induction H as [n o p E Eo|n o q r E Eo Ep _ IH|n o E Eo Ep]; intros fuel L; (destruct fuel as [|fuel]; [lia|]); cbn [get]; unfold at_obj; rewrite E; unfold get_own; rewrite Eo; cbn [option_map].
  - unfold describe, read. destruct (p_content p) as [v|g st]; unfold is_data, is_accessor; cbn; [destruct (is_undefined v); reflexivity|reflexivity].
  - rewrite Ep. apply IH. pose proof (W n o q E Ep). lia.
  - now rewrite Ep.
Qed.
(** Reading ends, and gives the value of the nearest property; it is [undefined] without one. *)
Theorem C85_get : forall h n k rc, wf h -> n < length h -> exists r, nearest h k n r /\ get host (S n) h n k rc = read h r rc.
Proof. intros h n k rc W L. destruct (nearest_exists h k W n L) as [r Hr]. exists r. split; [exact Hr|]. apply (get_nearest h k rc W n r Hr). lia. Qed.

(** ** Setting *)

(** The last object of a chain of prototypes. *)
Inductive root (h : heap) : nat -> nat -> Prop :=
| root_here n o : nth_error h n = Some o -> o_proto o = None -> root h n n
| root_up n o q r : nth_error h n = Some o -> o_proto o = Some q -> root h q r -> root h n r.
Lemma root_exists h : wf h -> forall n, n < length h -> exists r, root h n r /\ r <= n.
Proof.
  intros W. induction n as [n IH] using lt_wf_ind. intros L. destruct (nth_some h n L) as [o E]. destruct (o_proto o) as [q|] eqn:Ep.
  - pose proof (W n o q E Ep) as Lq. destruct (IH q Lq ltac:(lia)) as (r & Hr & Lr). exists r. split; [econstructor 2; eassumption|lia].
  - exists n. split; [econstructor 1; eassumption|lia].
Qed.
Lemma root_object h n r : root h n r -> exists o, nth_error h r = Some o /\ o_proto o = None.
Proof. induction 1; eauto. Qed.
Definition fresh (v : value) : property := mkProp (DATA v) true true true.
(** A property that no object of the chain has is created in the last one. *)
Lemma set_new h k v : wf h -> forall n, nearest h k n None -> forall m rc fuel, root h n m -> n < fuel ->
  (exists ro, nth_error h rc = Some ro /\ own ro k = None) -> forall o, nth_error h m = Some o -> o_extensible o = true ->
  set host fuel h n k v (OBJECT rc) = (store h m k (fresh v), Done true).
Proof.
  intros W n H. remember None as none. induction H as [|n o q r E Eo Ep _ IH|n o E Eo Ep]; [discriminate| |]; intros m rc fuel Hm L (ro & Er & Ero) om Em Ex; (destruct fuel as [|fuel]; [lia|]); cbn [set]; unfold at_obj at 1; rewrite E; unfold get_own at 1; rewrite Eo; cbn [option_map]; rewrite Ep.
  - inversion Hm as [x y Ey Epy|x y z w Ey Epy Hz]; subst; rewrite E in Ey; injection Ey as <-; [congruence|]. rewrite Ep in Epy. injection Epy as <-. apply (IH eq_refl m rc fuel Hz) with (o := om); auto; [pose proof (W n o q E Ep); lia|exists ro; auto].
  - inversion Hm as [x y Ey Epy|x y z w Ey Epy Hz]; subst; rewrite E in Ey; injection Ey as <-; [|congruence]. rewrite E in Em. injection Em as <-. unfold set_with. cbn [is_data d_value is_undefined negb orb d_writable present]. unfold at_obj. rewrite Er. unfold get_own. rewrite Ero. cbn [option_map]. unfold create_data_property, define_own, at_obj. rewrite E. unfold get_own. rewrite Eo. cbn [option_map]. rewrite Ex. reflexivity.
Qed.
Lemma own_store h m k p o j x : nth_error h m = Some o -> nth_error (store h m k p) j = Some x -> forall k', own x k' = if (m =? j) && key_eq k k' then Some p else match nth_error h j with Some y => own y k' | None => None end.
Proof.
  intros E Ex k'. rewrite (nth_store h m k p o j E) in Ex. destruct (Nat.eqb_spec m j) as [->|N]; cbn [andb]; [|now rewrite Ex]. injection Ex as <-. rewrite E. unfold own. cbn [o_props]. change (look (put_prop k p (o_props o)) k' = if key_eq k k' then Some p else look (o_props o) k'). apply look_put.
Qed.
Lemma nearest_root h k n : nearest h k n None -> forall m p o, root h n m -> nth_error h m = Some o -> nearest (store h m k p) k n (Some p).
Proof.
  intros H m p o. remember None as none. induction H as [|n x q r E Eo Ep _ IH|n x E Eo Ep]; [discriminate| |]; intros Hm Em.
  - inversion Hm as [a b Eb Epb|a b c d Eb Epb Hc]; subst; rewrite E in Eb; injection Eb as <-; [congruence|]. rewrite Ep in Epb. injection Epb as <-. destruct (Nat.eq_dec m n) as [->|N].
    + assert (nth_error (store h n k p) n = Some (mkObj (put_prop k p (o_props x)) (o_proto x) (o_extensible x) (o_call x))) as Es by (rewrite (nth_store h n k p x n E), Nat.eqb_refl; reflexivity).
      econstructor 1; [exact Es|]. rewrite (own_store h n k p x n _ E Es), Nat.eqb_refl, key_eq_refl. reflexivity.
    + assert (nth_error (store h m k p) n = Some x) as Es by (rewrite (nth_store h m k p o n Em); destruct (Nat.eqb_spec m n); congruence).
      econstructor 2; [exact Es|exact Eo|exact Ep|]. now apply IH.
  - inversion Hm as [a b Eb Epb|a b c d Eb Epb Hc]; subst; rewrite E in Eb; injection Eb as <-; [|congruence]. rewrite E in Em. injection Em as <-.
    assert (nth_error (store h m k p) m = Some (mkObj (put_prop k p (o_props x)) (o_proto x) (o_extensible x) (o_call x))) as Es by (rewrite (nth_store h m k p x m E), Nat.eqb_refl; reflexivity).
    econstructor 1; [exact Es|]. rewrite (own_store h m k p x m _ E Es), Nat.eqb_refl, key_eq_refl. reflexivity.
Qed.
(** A property that did not exist can be set, and is read back. (Extensible objects only; no operation
    makes an object that is not.) *)
Theorem C39_set_get_partial : forall h n k v rc, wf h -> n < length h -> nearest h k n None -> (forall m o, nth_error h m = Some o -> o_extensible o = true) ->
  exists h', set host (S n) h n k v (OBJECT n) = (h', Done true) /\ get host (S n) h' n k rc = (h', Done v).
Proof.
  intros h n k v rc W L Hn Ex. destruct (root_exists h W n L) as (m & Hm & Lm). destruct (root_object h n m Hm) as (om & Em & Pm). destruct (nth_some h n L) as [o E].
  assert (own o k = None) as Eo by (inversion Hn; congruence).
  exists (store h m k (fresh v)). split; [apply (set_new h k v W n Hn m n (S n) Hm ltac:(lia)) with (o := om); eauto|].
  assert (own om k = None) as Eom. { clear - Hn Hm Em. revert Hm. remember None as none. induction Hn as [|a x q r Ex Eo Ep _ IH|a x Ex Eo Ep]; [discriminate| |]; intros Hm; inversion Hm; subst; try congruence. apply IH; [reflexivity|congruence]. }
  pose proof (good_store h m k (fresh v) om W Em Eom) as [W' _]. rewrite (get_nearest _ k rc W' n (Some (fresh v))); [reflexivity| |lia]. exact (nearest_root h k n Hn m (fresh v) om Hm Em).
Qed.
End Get.
Print Assumptions C85_get.
Print Assumptions C39_set_get_partial.

Definition no_host (c : nat) (h : heap) (t : nat) (a : list value) : heap * exc value := (h, Done (OBJECT t)).
Lemma no_host_respects : respects no_host.
Proof. intros c h t a W. now apply good_refl. Qed.
Definition foo : key := K_STRING [102; 111; 111]%N.
Definition bar : key := K_STRING [98; 97; 114]%N.
(** Two objects with a common prototype that has [foo], cf. main.cpp:20-36. *)
Definition sample_ops : list op := [CREATE None; DEFINE 0 foo (data_desc (NUMBER (OTHER 42))); CREATE (Some 0); CREATE (Some 0)].
Definition sample : heap := run no_host [] sample_ops.
Lemma sample_wf : wf sample.
Proof. apply C85_histories; [exact no_host_respects|]. cbn. repeat split; lia. Qed.
Example C85_sample : args_ok no_host [] sample_ops /\ get no_host 3 sample 2 foo (OBJECT 2) = (sample, Done (NUMBER (OTHER 42))) /\ get no_host 3 sample 2 bar (OBJECT 2) = (sample, Done UNDEFINED).
Proof. repeat split; cbn; lia. Qed.
Example C39_sample : 1 < length sample /\ nearest sample bar 1 None /\ (forall m o, nth_error sample m = Some o -> o_extensible o = true).
Proof.
  split; [cbn; lia|]. split; [econstructor 2; [reflexivity|reflexivity|reflexivity|]; econstructor 3; reflexivity|].
  intros [|[|[|m]]] o E; try (injection E as <-; reflexivity). destruct m; discriminate.
Qed.
(** Setting a property that is there answers [true], but the value stays as it was: for an own property,
    and for one of a prototype. *)
Theorem C39_set_get_refuted :
  set no_host 1 sample 0 foo (NUMBER (OTHER 7)) (OBJECT 0) = (sample, Done true) /\ get no_host 1 sample 0 foo (OBJECT 0) = (sample, Done (NUMBER (OTHER 42))) /\
  set no_host 2 sample 1 foo (NUMBER (OTHER 7)) (OBJECT 1) = (sample, Done true) /\ get no_host 2 sample 1 foo (OBJECT 1) = (sample, Done (NUMBER (OTHER 42))).
Proof. repeat split. Qed.
Print Assumptions C39_set_get_refuted.

(** ** Other properties and objects *)

(** What a property holds is data, so that no function of the host runs. *)
Definition plain (h : heap) : Prop := forall n o k p, nth_error h n = Some o -> own o k = Some p -> exists v, p_content p = DATA v.
Definition same_object (a b : option object) (k : key) : Prop :=
  match a, b with
  | None, None => True
  | Some x, Some y => o_proto x = o_proto y /\ forall k', k' <> k -> own x k' = own y k'
  | _, _ => False
  end.
Lemma same_refl a k : same_object a a k.
Proof. destruct a; cbn; auto. Qed.
Lemma same_store h n k p m : same_object (nth_error h m) (nth_error (store h n k p) m) k.
Proof.
  destruct (nth_error h n) as [o|] eqn:E; [|unfold store; rewrite E; apply same_refl]. destruct (nth_error (store h n k p) m) as [x|] eqn:Ex.
  - pose proof (own_store h n k p o m x E Ex) as H. rewrite (nth_store h n k p o m E) in Ex. destruct (Nat.eqb_spec n m) as [->|N].
    + injection Ex as <-. rewrite E. cbn. split; [reflexivity|]. intros k' Nk. rewrite H, E. rewrite (key_neq k k') by congruence. now rewrite andb_false_r.
    + rewrite Ex. cbn. auto.
  - rewrite (nth_store h n k p o m E) in Ex. destruct (n =? m); [discriminate|]. rewrite Ex. exact I.
Qed.
Lemma define_same h n k d m : same_object (nth_error h m) (nth_error (fst (define_own h n k d)) m) k.
Proof. unfold define_own, at_obj. destruct (nth_error h n) as [o|]; [|apply same_refl]. destruct (get_own o k); [apply same_refl|]. destruct (o_extensible o); [apply same_store|apply same_refl]. Qed.
Lemma set_with_same host h n k v r d m : is_data d = true -> same_object (nth_error h m) (nth_error (fst (set_with host h n k v r d)) m) k.
Proof.
  intros D. unfold set_with. rewrite D. destruct (d_writable d) as [[]|]; try apply same_refl; (destruct r; try apply same_refl; unfold at_obj; destruct (nth_error h o) as [ro|]; [|apply same_refl]; destruct (get_own ro k) as [e|]; [|apply define_same]; destruct (is_accessor e); [apply same_refl|]; destruct (d_writable e) as [[]|]; try apply same_refl; apply define_same).
Qed.
Lemma set_same host h : plain h -> forall fuel n k v r m, same_object (nth_error h m) (nth_error (fst (set host fuel h n k v r)) m) k.
Proof.
  intros P. induction fuel as [|fuel IH]; intros n k v r m; [apply same_refl|]. cbn [set]. unfold at_obj. destruct (nth_error h n) as [o|] eqn:E; [|apply same_refl]. unfold get_own. destruct (own o k) as [p|] eqn:Eo; cbn [option_map].
  - apply set_with_same. destruct (P n o k p E Eo) as [w Ew]. unfold describe. rewrite Ew. unfold is_data. cbn. apply orb_true_r.
  - destruct (o_proto o); [apply IH|]. now apply set_with_same.
Qed.
Lemma same_nearest h h' k k' : k' <> k -> (forall m, same_object (nth_error h m) (nth_error h' m) k) -> forall n r, nearest h k' n r -> nearest h' k' n r.
Proof.
  intros Nk S n r H. induction H as [n o p E Eo|n o q r E Eo Ep _ IH|n o E Eo Ep]; specialize (S n); rewrite E in S; destruct (nth_error h' n) as [x|] eqn:Ex; try contradiction; cbn in S; destruct S as [Sp So].
  - econstructor 1; [exact Ex|]. rewrite <- So by exact Nk. exact Eo.
  - econstructor 2; [exact Ex| | |exact IH]; [rewrite <- So by exact Nk; exact Eo|congruence].
  - econstructor 3; [exact Ex| |]; [rewrite <- So by exact Nk; exact Eo|congruence].
Qed.
(** Setting or defining a property of an object does not change what is read for another key, from any
    object. *)
Theorem C86_keys : forall host h n k v r d, wf h -> plain h -> forall h', h' = fst (set host (S n) h n k v r) \/ h' = fst (define_own h n k d) ->
  forall m k' rc p, k' <> k -> m < length h -> nearest h k' m p -> nearest h' k' m p /\ snd (get host (S m) h' m k' rc) = snd (get host (S m) h m k' rc).
Proof.
  intros host h n k v r d W P h' Hh m k' rc p Nk L Hp.
  assert (forall j, same_object (nth_error h j) (nth_error h' j) k) as S by (intros j; destruct Hh as [->| ->]; [now apply set_same|apply define_same]).
  assert (wf h') as W'. { intros a o q E Ep. specialize (S a). rewrite E in S. destruct (nth_error h a) as [x|] eqn:Ex; [|contradiction]. destruct S as [Sp _]. apply (W a x q Ex). congruence. }
  pose proof (same_nearest h h' k k' Nk S m p Hp) as Hp'. split; [exact Hp'|]. rewrite (get_nearest host h k' rc W m p Hp) by lia. rewrite (get_nearest host h' k' rc W' m p Hp') by lia. destruct p as [p|]; [|reflexivity]. cbn.
  assert (forall j x, nearest h k' j x -> forall pp, x = Some pp -> exists w, p_content pp = DATA w) as Hd. { intros j x Hx. induction Hx as [a o0 pp0 E0 Eo0|a o0 q r0 E0 Eo0 Ep0 Hx IH|a o0 E0 Eo0 Ep0]; intros pp Epp; [injection Epp as <-; exact (P _ _ _ _ E0 Eo0)|now apply IH|discriminate]. }
  destruct (Hd m (Some p) Hp p eq_refl) as [w ->]. reflexivity.
Qed.
Print Assumptions C86_keys.
(** An object without prototype: no other object changes. *)
Theorem C86_objects_partial : forall host h n k v r o, plain h -> nth_error h n = Some o -> o_proto o = None -> (r = OBJECT n \/ forall m, r <> OBJECT m) ->
  forall m, m <> n -> nth_error (fst (set host (S n) h n k v r)) m = nth_error h m.
Proof.
  intros host h n k v r o P E Ep Hr m Nm.
  assert (forall k d, nth_error (fst (define_own h n k d)) m = nth_error h m) as D.
  { intros k0 d. unfold define_own, at_obj. rewrite E. destruct (get_own o k0); [reflexivity|]. destruct (o_extensible o); [|reflexivity]. cbn [fst]. rewrite (nth_store h n k0 _ o m E). destruct (Nat.eqb_spec n m); [congruence|reflexivity]. }
  assert (forall d, is_data d = true -> nth_error (fst (set_with host h n k v r d)) m = nth_error h m) as S.
  { intros d Hd. unfold set_with. rewrite Hd. destruct (d_writable d) as [[]|]; try reflexivity; (destruct Hr as [->|Hr]; [|destruct r; try reflexivity; destruct (Hr o0 eq_refl)]; unfold at_obj; rewrite E; destruct (get_own o k) as [e|]; [|apply D]; destruct (is_accessor e); [reflexivity|]; destruct (d_writable e) as [[]|]; try reflexivity; apply D). }
  cbn [set]. unfold at_obj. rewrite E. unfold get_own. destruct (own o k) as [p|] eqn:Eo; cbn [option_map].
  - apply S. destruct (P n o k p E Eo) as [w Ew]. unfold describe. rewrite Ew. unfold is_data. cbn. apply orb_true_r.
  - rewrite Ep. now apply S.
Qed.
Print Assumptions C86_objects_partial.
Lemma sample_plain : plain sample.
Proof.
  assert (forall o, In o sample -> Forall (fun x : key * property => match p_content (snd x) with DATA _ => True | _ => False end) (o_props o)) as H by (cbn; intros o [<-|[<-|[<-|[]]]]; repeat constructor).
  intros n o k p E Eo. apply nth_error_In in E. specialize (H o E). rewrite Forall_forall in H. unfold own in Eo. destruct (find _ (o_props o)) as [x|] eqn:F; [|discriminate]. injection Eo as <-. apply find_some in F as [F _]. specialize (H x F). destruct (p_content (snd x)) as [v|]; [eauto|contradiction].
Qed.
Example C86_sample : wf sample /\ plain sample /\ nearest sample foo 2 (Some (mkProp (DATA (NUMBER (OTHER 42))) true true true)).
Proof. split; [exact sample_wf|]. split; [exact sample_plain|]. econstructor 2; [reflexivity|reflexivity|reflexivity|]. econstructor 1; reflexivity. Qed.
(** A property that is set on an object with a prototype is created in the prototype, and then seen from
    every other object that has it. *)
Theorem C86_objects_refuted : let h := fst (set no_host 2 sample 1 bar NULL (OBJECT 1)) in
  get no_host 3 sample 2 bar (OBJECT 2) = (sample, Done UNDEFINED) /\ get no_host 3 h 2 bar (OBJECT 2) = (h, Done NULL) /\ (exists o, nth_error h 1 = Some o /\ own o bar = None).
Proof. split; [reflexivity|]. split; [reflexivity|]. eexists. split; reflexivity. Qed.
Print Assumptions C86_objects_refuted.

(** ** Comparison *)

(** Values that are the same answer [true], and others of different types [false]; proved for those that
    are not booleans, symbols or objects. *)
Definition comparable (v : value) : Prop := match v with UNDEFINED | NULL | STRING _ => True | NUMBER n => n <> NAN | _ => False end.
Theorem C87_same_partial : forall x y, (comparable x -> same_value x x = Done true) /\ (same_type x y = false -> same_value x y = Done false) /\
  (forall a b, x = NUMBER a -> y = NUMBER b -> (a = PZERO \/ a = NZERO \/ b = PZERO \/ b = NZERO) \/ (same_value x y = Done true <-> a = b /\ a <> NAN)) /\
  (same_value x y = Done true -> x = y \/ x = NUMBER PZERO /\ y = NUMBER NZERO \/ x = NUMBER NZERO /\ y = NUMBER PZERO).
Proof.
  intros x y. refine (conj _ (conj _ (conj _ _))).
  - destruct x; cbn; try contradiction; intros H; unfold same_value; cbn; try reflexivity.
    + assert (string_eq s s = true) as -> by now apply string_eq_spec. reflexivity.
    + destruct n; cbn; try reflexivity; [congruence|]. now rewrite Z.eqb_refl.
  - intros H. unfold same_value. now rewrite H.
  - intros a b -> ->. unfold same_value. cbn. destruct a, b; cbn; auto 6; right.
    + split; [discriminate|intros [_ C]; congruence].
    + split; [discriminate|intros [C _]; discriminate].
    + split; [discriminate|intros [C _]; discriminate].
    + destruct (Z.eqb_spec bits bits0) as [->|N]; split; [intros _; split; [reflexivity|discriminate]|reflexivity|discriminate|intros [C _]; congruence].
  - unfold same_value. destruct x, y; cbn; try discriminate; auto.
    + destruct (string_eq s s0) eqn:E; [|discriminate]. apply string_eq_spec in E. subst. auto.
    + intros H. injection H as H. destruct n, n0; cbn in H; try discriminate; auto. apply Z.eqb_eq in H. subst. auto.
Qed.
Print Assumptions C87_same_partial.
Example C87_sample : comparable (STRING [97]%N) /\ same_value (STRING [97]%N) (STRING [97]%N) = Done true /\ same_type NULL UNDEFINED = false.
Proof. repeat split. Qed.
(** Two different strings, and any two booleans, symbols or objects, end the program; not-a-number is not
    the same as itself, and both zeros are. *)
Theorem C87_same_refuted :
  (forall a b, a <> b -> same_value (STRING a) (STRING b) = Panic) /\ (forall a b, same_value (BOOLEAN a) (BOOLEAN b) = Panic) /\ (forall a b, same_value (SYMBOL a) (SYMBOL b) = Panic) /\ (forall a b, same_value (OBJECT a) (OBJECT b) = Panic) /\
  same_value (NUMBER NAN) (NUMBER NAN) = Done false /\ same_value (NUMBER PZERO) (NUMBER NZERO) = Done true.
Proof.
  refine (conj _ (conj _ (conj _ (conj _ (conj _ _))))); try reflexivity. intros a b N. unfold same_value. cbn. destruct (string_eq a b) eqn:E; [apply string_eq_spec in E; congruence|reflexivity].
Qed.
Print Assumptions C87_same_refuted.

(** ** Accessors *)

(** Reading a property with a getter calls it, with the receiver as this and no arguments. *)
Theorem C88_getter_partial : forall host h n k g go c s w e cf t, wf h -> nearest h k n (Some (mkProp (ACCESSOR (Some g) s) w e cf)) -> nth_error h g = Some go -> o_call go = Some c ->
  get host (S n) h n k (OBJECT t) = host c h t [].
Proof. intros host h n k g go c s w e cf t W H Eg Ec. rewrite (get_nearest host h k (OBJECT t) W n _ H) by lia. cbn. unfold call, callable. rewrite Eg, Ec. reflexivity. Qed.
Print Assumptions C88_getter_partial.
(** A getter (object 0, function 5) and a setter (object 1, function 6); object 2 has both, object 3 only
    a setter. *)
Definition accessors : list op := [CREATE None; CALLABLE 0 5; CREATE None; CALLABLE 1 6; CREATE None; DEFINE 2 foo (mkDesc UNDEFINED None (Some (Some 0)) (Some (Some 1)) None None); CREATE None; DEFINE 3 foo (mkDesc UNDEFINED None None (Some (Some 1)) None None)].
Definition accessor_heap : heap := run no_host [] accessors.
Example C88_sample : args_ok no_host [] accessors /\ nearest accessor_heap foo 2 (Some (mkProp (ACCESSOR (Some 0) (Some 1)) false false false)) /\ (exists go, nth_error accessor_heap 0 = Some go /\ o_call go = Some 5).
Proof. split; [cbn; repeat split; lia|]. split; [econstructor 1; reflexivity|]. eexists. split; reflexivity. Qed.
(** With a primitive receiver the program ends; without a getter an error is thrown instead of giving
    [undefined]; setting throws, and the setter is not called: the answer is the same for every host. *)
Theorem C88_accessors_refuted : forall host,
  get host 3 accessor_heap 2 foo NULL = (accessor_heap, Panic) /\
  snd (get host 4 accessor_heap 3 foo (OBJECT 3)) = Throw (OBJECT 4) /\
  snd (set host 3 accessor_heap 2 foo NULL (OBJECT 2)) = Throw (OBJECT 4).
Proof. intros host. repeat split. Qed.
Print Assumptions C88_accessors_refuted.
(** If the receiver is a function, it is the one that is called; with a value that is no object the program
    ends. *)
Theorem C88_setter_refuted : forall host, set host 3 accessor_heap 2 foo NULL (OBJECT 0) = (accessor_heap, Panic) /\
  forall t, fst (set host 3 accessor_heap 2 foo (OBJECT t) (OBJECT 0)) = fst (host 5 accessor_heap t []).
Proof. intros host. split; [reflexivity|]. intros t. cbn. destruct (host 5 _ t []); reflexivity. Qed.
Print Assumptions C88_setter_refuted.

(** ** Attributes *)

(** Whatever is done afterwards, a property stays as it was created; in particular one that is read-only
    keeps its value. *)
Theorem C89_permanent : forall host l m n k p, respects host -> args_ok host [] (l ++ m) ->
  (exists o, nth_error (run host [] l) n = Some o /\ own o k = Some p) -> exists o, nth_error (run host [] (l ++ m)) n = Some o /\ own o k = Some p.
Proof.
  intros host l m n k p R A (o & E & Eo).
  assert (forall a h, run host h (a ++ m) = run host (run host h a) m /\ (args_ok host h (a ++ m) -> args_ok host h a /\ args_ok host (run host h a) m)) as K.
  { induction a as [|x a IH]; intros h; [cbn; auto|]. cbn [app run args_ok]. destruct (IH (fst (step host h x))) as [I1 I2]. split; [exact I1|]. intros [A1 A2]. destruct (I2 A2). auto. }
  destruct (K l []) as [K1 K2]. destruct (K2 A) as [A1 A2]. pose proof (good_run host R l [] wf_nil A1) as [W _]. pose proof (good_run host R m _ W A2) as [_ Ke]. destruct (Ke n o E) as (o' & E' & _ & _ & H). rewrite K1. exists o'. auto.
Qed.
Print Assumptions C89_permanent.
(** Setting a property that is read-only, or inherited and read-only, is refused and changes nothing. *)
Theorem C89_read_only : forall host h n k v r x e c, wf h -> nearest h k n (Some (mkProp (DATA x) false e c)) -> set host (S n) h n k v r = (h, Done false).
Proof.
  intros host h n k v r x e c W H. assert (forall fuel, n < fuel -> set host fuel h n k v r = (h, Done false)) as K; [|apply K; lia].
  remember (Some (mkProp (DATA x) false e c)) as s. induction H as [n o p E Eo|n o q p E Eo Ep _ IH|]; [| |discriminate]; intros fuel L; (destruct fuel as [|fuel]; [lia|]); cbn [set]; unfold at_obj at 1; rewrite E; unfold get_own at 1; rewrite Eo; cbn [option_map].
  - injection Heqs as ->. unfold describe, set_with, is_data. cbn. rewrite orb_true_r. reflexivity.
  - rewrite Ep. apply (IH Heqs). pose proof (W n o q E Ep). lia.
Qed.
Print Assumptions C89_read_only.
(** A property that is defined on an object that does not have it gets the attributes that were asked for,
    and [false] for those that were left out. *)
Theorem C89_define_partial : forall h n o k d, nth_error h n = Some o -> own o k = None -> o_extensible o = true ->
  exists h' o' p, define_own h n k d = (h', Done true) /\ nth_error h' n = Some o' /\ own o' k = Some p /\
    p_enumerable p = or (d_enumerable d) false /\ p_configurable p = or (d_configurable d) false /\
    (d_get d = None -> d_set d = None -> p_content p = DATA (d_value d) /\ p_writable p = or (d_writable d) false) /\
    (forall g s, d_get d = Some g -> d_set d = Some s -> p_content p = ACCESSOR g s).
Proof.
  intros h n o k d E Eo Ex. unfold define_own, at_obj. rewrite E. unfold get_own. rewrite Eo. cbn [option_map]. rewrite Ex. exists (store h n k (created d)). eexists. exists (created d). split; [reflexivity|]. split; [rewrite (nth_store h n k _ o n E), Nat.eqb_refl; reflexivity|].
  split. { unfold own. cbn [o_props]. change (look (put_prop k (created d) (o_props o)) k = Some (created d)). now rewrite look_put, key_eq_refl. }
  unfold created, is_accessor. destruct (d_get d) as [g|], (d_set d) as [s|]; cbn; repeat split; try discriminate; intros; try discriminate; congruence.
Qed.
Print Assumptions C89_define_partial.
Example C89_sample : (exists o, nth_error sample 1 = Some o /\ own o bar = None /\ o_extensible o = true) /\ nearest (run no_host [] [CREATE None; DEFINE 0 foo (mkDesc NULL None None None None None)]) foo 0 (Some (mkProp (DATA NULL) false false false)).
Proof. split; [eexists; repeat split|]. econstructor 1; reflexivity. Qed.
(** Defining a property that exists always answers [true] and changes nothing, even if it may not be
    changed, or has to be. *)
Theorem C89_define_refuted : forall h n o k p d, nth_error h n = Some o -> own o k = Some p -> define_own h n k d = (h, Done true).
Proof.
  intros h n o k p d E Eo. unfold define_own, at_obj. rewrite E. unfold get_own. rewrite Eo. cbn [option_map]. unfold validate. assert (present (d_configurable (describe p)) = true) as -> by (unfold describe; destruct (p_content p); reflexivity). cbn. destruct (d_empty d); reflexivity.
Qed.
Print Assumptions C89_define_refuted.

(** ** Nothing crashes without accessors *)

Lemma set_done host h : wf h -> plain h -> forall n k v r, n < length h -> (forall m, r = OBJECT m -> m < length h) -> forall fuel, n < fuel -> exists h' b, set host fuel h n k v r = (h', Done b).
Proof.
  intros W P n k v r L Lr. assert (forall m d, m < length h -> exists h' b, define_own h m k d = (h', Done b)) as D.
  { intros m d Lm. unfold define_own, at_obj. destruct (nth_some h m Lm) as [o ->]. destruct (get_own o k); [eauto|]. destruct (o_extensible o); eauto. }
  assert (forall m d, m < length h -> is_data d = true -> exists h' b, set_with host h m k v r d = (h', Done b)) as S.
  { intros m d Lm Hd. unfold set_with. rewrite Hd. destruct (d_writable d) as [[]|]; eauto; (destruct r; eauto; unfold at_obj; destruct (nth_some h o (Lr o eq_refl)) as [ro ->]; destruct (get_own ro k) as [e|]; [|now apply D]; destruct (is_accessor e); [eauto|]; destruct (d_writable e) as [[]|]; eauto). }
  revert L. induction n as [n IH] using lt_wf_ind. intros L fuel Lf. destruct fuel as [|fuel]; [lia|]. cbn [set]. unfold at_obj. destruct (nth_some h n L) as [o E]. rewrite E. unfold get_own. destruct (own o k) as [p|] eqn:Eo; cbn [option_map].
  - apply S; [exact L|]. destruct (P n o k p E Eo) as [w Ew]. unfold describe. rewrite Ew. unfold is_data. cbn. apply orb_true_r.
  - destruct (o_proto o) as [q|] eqn:Ep; [|now apply S]. pose proof (W n o q E Ep). apply IH; lia.
Qed.
(** Without accessors, reading, setting and defining properties ends and gives an answer: no exception, no
    crash. *)
Theorem C85_total : forall host h n k v r d, wf h -> plain h -> n < length h -> (forall m, r = OBJECT m -> m < length h) ->
  (exists x, get host (S n) h n k r = (h, Done x)) /\ (exists h' b, set host (S n) h n k v r = (h', Done b)) /\ (exists h' b, define_own h n k d = (h', Done b)).
Proof.
  intros host h n k v r d W P L Lr. refine (conj _ (conj _ _)).
  - destruct (C85_get host h n k r W L) as (x & Hx & ->). assert (forall j y, nearest h k j y -> forall pp, y = Some pp -> exists w, p_content pp = DATA w) as Hd. { intros j y Hy. induction Hy as [a o0 pp0 E0 Eo0|a o0 q r0 E0 Eo0 Ep0 Hx' IH|a o0 E0 Eo0 Ep0]; intros pp Epp; [injection Epp as <-; exact (P _ _ _ _ E0 Eo0)|now apply IH|discriminate]. }
    destruct x as [p|]; [|cbn; eauto]. cbn. destruct (Hd n _ Hx p eq_refl) as [w ->]. eauto.
  - apply set_done; auto.
  - unfold define_own, at_obj. destruct (nth_some h n L) as [o ->]. destruct (get_own o k); [eauto|]. destruct (o_extensible o); eauto.
Qed.
Print Assumptions C85_total.
