(** C42, C55: token lists and class attributes. *)
From Coq Require Import String List Arith Bool NArith Lia Sorted.
From Verif.Base Require Import Str.
From Verif.Dom Require Import TokenListModel.
Import ListNotations.
Local Open Scope list_scope.

(** ** Specification *)

(** Which tokens are in the set, as a set. *)
Definition set := str -> bool.
Definition set_add (s : set) (t : str) : set := fun x => str_eqb t x || s x.
Definition set_del (s : set) (t : str) : set := fun x => negb (str_eqb t x) && s x.
Definition set_step (s : set) (o : op) : set :=
  match o with
  | Clear => fun _ => false
  | Add t => set_add s t
  | Remove t => set_del s t
  | Toggle t => if s t then set_del s t else set_add s t
  | Replace a b => if s a then set_add (set_del s a) b else s
  end.
Definition set_after (os : list op) : set := fold_left set_step os (fun _ => false).

(** When each token entered the set for the last time: [None] when it is not in it. *)
Definition times := str -> option nat.
Definition time_set (e : times) (t : str) (v : option nat) : times := fun x => if str_eqb t x then v else e x.
Definition time_step (ne : nat * times) (o : op) : nat * times :=
  let (n, e) := ne in
  (S n,
   match o with
   | Clear => fun _ => None
   | Add t => match e t with Some _ => e | None => time_set e t (Some n) end
   | Remove t => time_set e t None
   | Toggle t => match e t with Some _ => time_set e t None | None => time_set e t (Some n) end
   | Replace _ _ => e
   end).
Definition times_after (os : list op) : times := snd (fold_left time_step os (0, fun _ => None)).

Definition is_replace (o : op) : bool := match o with Replace _ _ => true | _ => false end.

Definition entered_before (e : times) (a b : str) : Prop :=
  exists i j, e a = Some i /\ e b = Some j /\ i < j.

(** ** Lemmas *)

Lemma contains_In l t : contains l t = true <-> In t l.
Proof.
  unfold contains. rewrite existsb_exists. split.
  - intros (x & H & E). apply str_eqb_spec in E. now subst.
  - intros H. exists t. split; [exact H|apply str_eqb_refl].
Qed.
Lemma contains_false l t : contains l t = false <-> ~ In t l.
Proof. rewrite <- contains_In. destruct (contains l t); split; congruence. Qed.

Lemma remove_all_In l t x : In x (remove_all l t) <-> In x l /\ x <> t.
Proof.
  unfold remove_all. rewrite filter_In. rewrite negb_true_iff, str_eqb_neq. intuition congruence.
Qed.

Lemma bool_iff (a b : bool) : (a = true <-> b = true) -> a = b.
Proof. destruct a, b; intuition congruence. Qed.

Lemma contains_snoc l t x : contains (l ++ [t]) x = str_eqb t x || contains l x.
Proof.
  apply bool_iff. rewrite orb_true_iff, !contains_In, in_app_iff, str_eqb_spec. simpl. intuition.
Qed.
Lemma contains_remove l t x : contains (remove_all l t) x = negb (str_eqb t x) && contains l x.
Proof.
  apply bool_iff. rewrite andb_true_iff, !contains_In, remove_all_In, negb_true_iff, str_eqb_neq. intuition congruence.
Qed.

Lemma exec_set l s o : (forall x, contains l x = s x) -> forall x, contains (exec l o) x = set_step s o x.
Proof.
  intros H x. destruct o as [|t|t|t|a b]; simpl.
  - reflexivity.
  - unfold add, set_add. destruct (contains l t) eqn:E.
    + rewrite H. destruct (str_eqb t x) eqn:Ex; [|reflexivity]. apply str_eqb_spec in Ex. subst.
      rewrite <- H, E. reflexivity.
    + now rewrite contains_snoc, H.
  - unfold remove, set_del. now rewrite contains_remove, H.
  - unfold toggle. rewrite <- (H t). unfold set_del, set_add.
    destruct (contains l t); simpl; [now rewrite contains_remove, H|now rewrite contains_snoc, H].
  - unfold replace. rewrite <- (H a). unfold set_del, set_add.
    destruct (contains l a); simpl; [now rewrite contains_snoc, contains_remove, H|apply H].
Qed.

Lemma exec_all_set os : forall l s, (forall x, contains l x = s x) ->
  forall x, contains (exec_all l os) x = fold_left set_step os s x.
Proof.
  induction os as [|o os IH]; intros l s H x; simpl; [apply H|]. apply IH. now apply exec_set.
Qed.

Lemma nodup_snoc (l : tokens) t : NoDup l -> ~ In t l -> NoDup (l ++ [t]).
Proof.
  intros H1 H2. apply NoDup_Add with (a := t) (l := l); [|auto].
  rewrite <- (app_nil_r l) at 1. apply Add_app.
Qed.
Lemma nodup_remove_all (l : tokens) t : NoDup l -> NoDup (remove_all l t).
Proof. apply NoDup_filter. Qed.

(** ** C42 *)

(** Membership: for every history of operations, a token is in the list exactly when the set the
    operations describe contains it; this is also what [contains], [toggle] and [replace] answer. *)
Theorem C42_membership os t :
  let l := exec_all [] os in
  contains l t = set_after os t /\
  (In t l <-> set_after os t = true) /\
  snd (toggle l t) = negb (set_after os t) /\
  (forall u, snd (replace l t u) = set_after os t).
Proof.
  intros l. assert (H : contains l t = set_after os t) by (apply exec_all_set; reflexivity).
  split; [exact H|]. split; [rewrite <- H; symmetry; apply contains_In|].
  split; [|intros u]; unfold toggle, replace; rewrite H; destruct (set_after os t); reflexivity.
Qed.

Lemma sorted_app (R : str -> str -> Prop) l t :
  StronglySorted R l -> (forall x, In x l -> R x t) -> StronglySorted R (l ++ [t]).
Proof.
  intros Hs H. induction Hs as [|x l Hs IH Hx]; simpl; [repeat constructor|].
  constructor.
  - apply IH. intros y Hy. apply H. now right.
  - apply Forall_app. split; [exact Hx|]. constructor; [apply H; now left|constructor].
Qed.

Lemma sorted_ext (R R' : str -> str -> Prop) l :
  (forall x y, In x l -> In y l -> R x y -> R' x y) -> StronglySorted R l -> StronglySorted R' l.
Proof.
  intros H Hs. induction Hs as [|x l Hs IH Hx]; constructor.
  - apply IH. intros; apply H; simpl; auto.
  - rewrite Forall_forall in *. intros y Hy. apply H; simpl; auto.
Qed.

Lemma sorted_filter (R : str -> str -> Prop) f l : StronglySorted R l -> StronglySorted R (filter f l).
Proof.
  intros Hs. induction Hs as [|x l Hs IH Hx]; simpl; [constructor|].
  destruct (f x); [|exact IH]. constructor; [exact IH|].
  rewrite Forall_forall in *. intros y Hy. apply filter_In in Hy. apply Hx, Hy.
Qed.

Definition timed (l : tokens) (n : nat) (e : times) : Prop :=
  StronglySorted (entered_before e) l /\ (forall x, In x l <-> e x <> None) /\
  (forall x i, e x = Some i -> i < n).

Lemma timed_add l n e t : timed l n e -> ~ In t l -> timed (l ++ [t]) (S n) (time_set e t (Some n)).
Proof.
  intros (Hs & Hin & Hlt) Ht. set (e' := time_set e t (Some n)).
  assert (He : forall x, In x l -> e' x = e x).
  { intros x Hx. unfold e', time_set. destruct (str_eqb t x) eqn:E; [|reflexivity].
    apply str_eqb_spec in E. subst. contradiction. }
  assert (Ht' : e' t = Some n) by (unfold e', time_set; now rewrite str_eqb_refl).
  split; [|split].
  - apply sorted_app.
    + eapply sorted_ext; [|exact Hs]. intros x y Hx Hy (i & j & E1 & E2 & Hij). exists i, j.
      rewrite !He by assumption. auto.
    + intros x Hx. destruct (e x) as [i|] eqn:Ex; [|now apply Hin in Hx].
      exists i, n. rewrite He by assumption. split; [exact Ex|]. split; [exact Ht'|]. eapply Hlt; eauto.
  - intros x. rewrite in_app_iff. simpl. unfold e', time_set. destruct (str_eqb t x) eqn:E.
    + apply str_eqb_spec in E. subst. split; [discriminate|auto].
    + apply str_eqb_neq in E. rewrite Hin. intuition congruence.
  - intros x i. unfold e', time_set. destruct (str_eqb t x); [intros [= <-]; lia|]. intros E. apply Hlt in E. lia.
Qed.

Lemma timed_del l n e t : timed l n e -> timed (remove_all l t) (S n) (time_set e t None).
Proof.
  intros (Hs & Hin & Hlt). split; [|split].
  - eapply sorted_ext; [|apply sorted_filter, Hs].
    intros x y Hx Hy (i & j & E1 & E2 & Hij).
    apply remove_all_In in Hx as [_ Hx]. apply remove_all_In in Hy as [_ Hy].
    exists i, j. unfold time_set.
    rewrite (proj2 (str_eqb_neq t x)), (proj2 (str_eqb_neq t y)) by congruence. auto.
  - intros x. rewrite remove_all_In. unfold time_set. destruct (str_eqb t x) eqn:E.
    + apply str_eqb_spec in E. subst. intuition congruence.
    + apply str_eqb_neq in E. rewrite Hin. intuition congruence.
  - intros x i. unfold time_set. destruct (str_eqb t x); [discriminate|]. intros E. apply Hlt in E. lia.
Qed.

Lemma timed_later l n e : timed l n e -> timed l (S n) e.
Proof. intros (Hs & Hin & Hlt). split; [exact Hs|]. split; [exact Hin|]. intros x i E. apply Hlt in E. lia. Qed.

Lemma exec_timed l n e o : is_replace o = false -> timed l n e ->
  timed (exec l o) (S n) (snd (time_step (n, e) o)).
Proof.
  intros Ho Ht. pose proof Ht as (_ & Hin & _).
  assert (Hc : forall t, contains l t = match e t with Some _ => true | None => false end).
  { intros t. apply bool_iff. rewrite contains_In, Hin. destruct (e t); split; congruence. }
  destruct o as [|t|t|t|a b]; simpl; try discriminate.
  - split; [constructor|]. split; [intros x; split; [intros []|congruence]|discriminate].
  - unfold add. rewrite Hc. destruct (e t) eqn:E; [now apply timed_later|]. apply timed_add; [exact Ht|].
    rewrite Hin, E. congruence.
  - now apply timed_del.
  - unfold toggle. rewrite Hc. destruct (e t) eqn:E; [now apply timed_del|]. apply timed_add; [exact Ht|].
    rewrite Hin, E. congruence.
Qed.

Lemma exec_all_timed os : forallb (fun o => negb (is_replace o)) os = true -> forall l n e, timed l n e ->
  exists m, timed (exec_all l os) m (snd (fold_left time_step os (n, e))).
Proof.
  induction os as [|o os IH]; simpl; intros Hr l n e Ht; [eauto|].
  apply andb_true_iff in Hr as [Ho Hr]. apply negb_true_iff in Ho.
  destruct (IH Hr _ _ _ (exec_timed l n e o Ho Ht)) as (m & Hm). exists m.
  exact Hm.
Qed.

(** Order: for every history of clear, add, remove and toggle, the list holds the tokens in the
    order in which they last entered it, each once. *)
Theorem C42_order_partial os : forallb (fun o => negb (is_replace o)) os = true ->
  let l := exec_all [] os in
  NoDup l /\ (forall t, In t l <-> times_after os t <> None) /\
  StronglySorted (entered_before (times_after os)) l.
Proof.
  intros Hr l. destruct (exec_all_timed os Hr [] 0 (fun _ => None)) as (m & Hs & Hin & Hlt).
  - split; [constructor|]. split; [intros x; split; [intros []|congruence]|discriminate].
  - split; [|split; assumption]. fold l in Hs, Hin. clear - Hs.
    induction Hs as [|x l Hs IH Hx]; constructor; [|exact IH].
    intros Hin. rewrite Forall_forall in Hx. destruct (Hx x Hin) as (i & j & E1 & E2 & Hij).
    rewrite E1 in E2. injection E2 as ->. lia.
Qed.

(** With [replace], no token is listed twice as long as the new token is not already there. *)
Fixpoint fresh_replaces (s : set) (os : list op) : Prop :=
  match os with
  | [] => True
  | o :: os' =>
      match o with Replace a b => s a = true -> b = a \/ s b = false | _ => True end /\
      fresh_replaces (set_step s o) os'
  end.

Theorem C42_no_duplicates_partial os : fresh_replaces (fun _ => false) os -> NoDup (exec_all [] os).
Proof.
  intros H. unfold exec_all.
  assert (Hg : forall l s, (forall x, contains l x = s x) -> NoDup l -> fresh_replaces s os ->
    NoDup (fold_left exec os l)).
  { clear H. induction os as [|o os IH]; simpl; intros l s Hs Hn Hf; [exact Hn|].
    destruct Hf as [Ho Hf]. apply (IH _ (set_step s o)); auto; [intros; now apply exec_set|].
    destruct o as [|t|t|t|a b]; simpl.
    - constructor.
    - unfold add. destruct (contains l t) eqn:E; [exact Hn|]. apply nodup_snoc; [exact Hn|now apply contains_false].
    - now apply nodup_remove_all.
    - unfold toggle. destruct (contains l t) eqn:E; simpl; [now apply nodup_remove_all|].
      apply nodup_snoc; [exact Hn|now apply contains_false].
    - unfold replace. destruct (contains l a) eqn:E; simpl; [|exact Hn].
      apply nodup_snoc; [now apply nodup_remove_all|]. rewrite remove_all_In. rewrite Hs in E.
      destruct (Ho E) as [->|Hb]; [tauto|]. intros [Hb' _]. apply contains_In in Hb'. rewrite Hs in Hb'. congruence. }
  apply (Hg [] (fun _ => false)); auto. constructor.
Qed.

(** [replace] by a token that is already there lists it twice ... *)
Theorem C42_duplicate_refuted : exists os, ~ NoDup (exec_all [] os).
Proof.
  exists [Add (of_string "a"); Add (of_string "b"); Replace (of_string "a") (of_string "b")].
  vm_compute. intros H. inversion H as [|? ? Hx _]; subst. apply Hx. now left.
Qed.

(** ... and the new token does not take the place of the old one, as the DOM standard asks
    ("replace oldToken in this's token set with newToken"). *)
Theorem C42_replace_moves_refuted :
  exec_all [] [Add (of_string "a"); Add (of_string "b"); Replace (of_string "a") (of_string "c")]
  = [of_string "b"; of_string "c"].
Proof. reflexivity. Qed.

Example C42_history :
  exec_all [] [Add (of_string "x"); Add (of_string "y"); Toggle (of_string "x"); Add (of_string "z");
               Toggle (of_string "x"); Add (of_string "y"); Remove (of_string "z")]
  = [of_string "y"; of_string "x"].
Proof. reflexivity. Qed.

(** ** C55: the class attribute *)

(** The maximal runs of characters that are not separators. *)
Inductive words (sep : N -> bool) : str -> list str -> Prop :=
| W_end v : (forall x, In x v -> sep x = true) -> words sep v []
| W_word gap w v ws :
    (forall x, In x gap -> sep x = true) ->
    w <> [] -> (forall x, In x w -> sep x = false) ->
    (forall x, hd_error v = Some x -> sep x = true) ->
    words sep v ws -> words sep (gap ++ w ++ v) (w :: ws).

(** The first occurrence of each word. *)
Fixpoint firsts (ws : list str) : list str :=
  match ws with
  | [] => []
  | w :: ws' => w :: filter (fun x => negb (str_eqb w x)) (firsts ws')
  end.

(** ASCII whitespace of the HTML standard: TAB, LF, FF, CR, SPACE. *)
Definition html_space (c : N) : bool :=
  (N.eqb c 9 || N.eqb c 10 || N.eqb c 12 || N.eqb c 13 || N.eqb c 32)%N.

Definition non_empty (p : str) : bool := match p with [] => false | _ => true end.

Lemma split_nonnil c v : split_on c v <> [].
Proof. destruct v as [|x v]; simpl; [discriminate|]. destruct (N.eqb x c); [discriminate|]. destruct (split_on c v); discriminate. Qed.

(** The first piece goes up to the first separator. *)
Lemma split_shape c v : exists p rest,
  (forall x, In x p -> N.eqb x c = false) /\ v = p ++ rest /\
  ((rest = [] /\ split_on c v = [p]) \/
   exists v', rest = c :: v' /\ split_on c v = p :: split_on c v').
Proof.
  induction v as [|x v (p & rest & Hp & E & H)]; simpl.
  - exists [], []. split; [intros ? []|]. auto.
  - destruct (N.eqb_spec x c) as [->|Hne].
    + exists [], (c :: v). split; [intros ? []|]. split; [reflexivity|]. right. eauto.
    + exists (x :: p), rest. split; [intros y [<-|Hy]; [now apply N.eqb_neq|auto]|].
      split; [now rewrite E|]. destruct H as [[-> Hs]|(v' & -> & Hs)]; rewrite Hs; [left|right]; eauto.
Qed.

Lemma words_gap sep c v ws : sep c = true -> words sep v ws -> words sep (c :: v) ws.
Proof.
  intros Hc [v' H|gap w v' ws' H1 H2 H3 H4 H5].
  - constructor. intros x [<-|Hx]; auto.
  - change (c :: gap ++ w ++ v') with ((c :: gap) ++ w ++ v'). constructor; auto.
    intros x [<-|Hx]; auto.
Qed.

Lemma split_words c v : words (fun x => N.eqb x c) v (filter non_empty (split_on c v)).
Proof.
  remember (List.length v) as n eqn:Hn. assert (Hl : List.length v <= n) by lia. clear Hn.
  revert v Hl. induction n as [|n IH]; intros v Hl.
  - destruct v; [|simpl in Hl; lia]. simpl. constructor. intros x [].
  - destruct (split_shape c v) as (p & rest & Hp & -> & [[-> Hs]|(v' & -> & Hs)]); rewrite Hs.
    + destruct p as [|x p]; simpl.
      * constructor. intros x [].
      * apply (W_word _ [] (x :: p) [] []); auto; try discriminate; try (intros ? []; fail); try (constructor; intros ? []).
    + rewrite app_length in Hl. simpl in Hl. assert (Hw := IH v' ltac:(lia)).
      assert (Hw' : words (fun x => N.eqb x c) (c :: v') (filter non_empty (split_on c v'))).
      { apply words_gap; [apply N.eqb_refl|exact Hw]. }
      destruct p as [|x p]; simpl filter; cbn [non_empty].
      * exact Hw'.
      * apply (W_word _ [] (x :: p) (c :: v')); auto; try discriminate; try (intros ? []; fail).
        intros y [= <-]. apply N.eqb_refl.
Qed.

Lemma words_ext sep sep' v ws : (forall x, In x v -> sep x = sep' x) -> words sep v ws -> words sep' v ws.
Proof.
  intros H Hw. induction Hw as [v Hv|gap w v ws H1 H2 H3 H4 H5 IH].
  - constructor. intros x Hx. rewrite <- H; auto.
  - constructor; auto.
    + intros x Hx. rewrite <- H; auto. rewrite !in_app_iff. auto.
    + intros x Hx. rewrite <- H; auto. rewrite !in_app_iff. auto.
    + intros x Hx. rewrite <- H; auto. rewrite !in_app_iff. right. right.
      destruct v; [discriminate|]. injection Hx as ->. now left.
    + apply IH. intros x Hx. apply H. rewrite !in_app_iff. auto.
Qed.

Lemma class_list_words v :
  class_list v = fold_left add (filter non_empty (split_on 32 v)) [].
Proof.
  unfold class_list. generalize (@nil str) as l. generalize (split_on 32 v) as ps.
  induction ps as [|p ps IH]; intros l; simpl; [reflexivity|]. destruct p; simpl; apply IH.
Qed.

Lemma filter_comm {A} (f g : A -> bool) l : filter f (filter g l) = filter g (filter f l).
Proof.
  induction l as [|x l IH]; simpl; [reflexivity|].
  destruct (f x) eqn:F, (g x) eqn:G; simpl; rewrite ?F, ?G, IH; reflexivity.
Qed.

Lemma add_all_firsts ws : forall l,
  fold_left add ws l = l ++ filter (fun x => negb (contains l x)) (firsts ws).
Proof.
  induction ws as [|w ws IH]; intros l; simpl; [now rewrite app_nil_r|].
  rewrite IH. unfold add. destruct (contains l w) eqn:E.
  - f_equal. simpl. rewrite filter_comm. symmetry.
    assert (Hf : forall l', filter (fun x => negb (str_eqb w x)) (filter (fun x => negb (contains l x)) l')
                 = filter (fun x => negb (contains l x)) l').
    { induction l' as [|x l' IHl]; simpl; [reflexivity|]. destruct (contains l x) eqn:Ex; simpl; [exact IHl|].
      destruct (str_eqb w x) eqn:Ewx; simpl; [apply str_eqb_spec in Ewx; subst; congruence|]. now rewrite IHl. }
    apply Hf.
  - simpl. rewrite <- app_assoc. f_equal. simpl. f_equal.
    clear IH. induction (firsts ws) as [|x l' IHl]; simpl; [reflexivity|].
    rewrite contains_snoc. destruct (str_eqb w x); simpl; [exact IHl|].
    destruct (contains l x); simpl; [exact IHl|]. now rewrite IHl.
Qed.

(** The classes of an element are the space-separated words of the attribute, each once, in order
    of first occurrence ... *)
Theorem C55_space_separated v : exists ws, words (fun x => N.eqb x 32) v ws /\ class_list v = firsts ws.
Proof.
  exists (filter non_empty (split_on 32 v)). split; [apply split_words|].
  rewrite class_list_words, add_all_firsts. simpl.
  induction (firsts (filter non_empty (split_on 32 v))) as [|x l IH]; simpl; [reflexivity|]. now rewrite IH.
Qed.

(** ... which is what HTML asks when the only whitespace in the attribute is the space ... *)
Theorem C55_classes_partial v :
  (forall x, In x v -> html_space x = true -> x = 32%N) ->
  exists ws, words html_space v ws /\ class_list v = firsts ws.
Proof.
  intros H. destruct (C55_space_separated v) as (ws & Hw & E). exists ws. split; [|exact E].
  eapply words_ext; [|exact Hw]. intros x Hx. apply bool_iff. rewrite N.eqb_eq. split.
  - intros ->. reflexivity.
  - intros Hs. now apply H.
Qed.

(** ... and only then: classes separated by a line feed make one class. *)
Theorem C55_newline_refuted :
  exists v ws, words html_space v ws /\ class_list v <> firsts ws /\ List.length (class_list v) = 1 /\ List.length ws = 2.
Proof.
  exists [97; 10; 98]%N, [[97]; [98]]%N. split; [|split; [vm_compute; discriminate|auto]].
  apply (W_word html_space [] [97]%N [10; 98]%N); try discriminate; try (intros ? []; fail).
  - intros x [<-|[]]; reflexivity.
  - intros x [= <-]. reflexivity.
  - apply (W_word html_space [10]%N [98]%N []); try discriminate.
    + intros x [<-|[]]; reflexivity.
    + intros x [<-|[]]; reflexivity.
    + constructor. intros x [].
Qed.

Example C55_example : class_list (of_string " note  big note ") = [of_string "note"; of_string "big"].
Proof. reflexivity. Qed.

Print Assumptions C42_membership.
Print Assumptions C42_order_partial.
Print Assumptions C42_no_duplicates_partial.
Print Assumptions C42_duplicate_refuted.
Print Assumptions C42_replace_moves_refuted.
Print Assumptions C55_space_separated.
Print Assumptions C55_classes_partial.
Print Assumptions C55_newline_refuted.
