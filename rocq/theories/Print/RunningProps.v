(** Running elements in page margins (C37). *)
From Coq Require Import String List NArith Bool Arith Lia.
From Verif.Base Require Import Str Outcome.
From Verif.Print Require Import RunningModel.
Import ListNotations.
Local Open Scope nat_scope.
Local Open Scope list_scope.

(** The assignments of a name, in document order. *)
Definition assigned (h : list (str * info)) (n : str) : list info :=
  map snd (filter (fun e => str_eqb (fst e) n) h).
(** The pages of the assignments made so far: in order, and none after the page being printed. *)
Definition printed_up_to (page : nat) (l : list info) : Prop :=
  (forall a x b y c, l = a ++ x :: b ++ y :: c -> i_page x <= i_page y) /\ (forall x, In x l -> i_page x <= page).

(** css-gcpm-3, 1.1.1. The first and the last assignment on the page; the value in force when
    the page starts. *)
Definition first_on (page : nat) (l : list info) (x : info) : Prop :=
  exists a b, l = a ++ x :: b /\ i_page x = page /\ forall y, In y a -> i_page y <> page.
Definition last_on (page : nat) (l : list info) (x : info) : Prop :=
  exists a b, l = a ++ x :: b /\ i_page x = page /\ forall y, In y b -> i_page y <> page.
Definition entry (page : nat) (l : list info) (x : info) : Prop :=
  exists a b, l = a ++ x :: b /\ i_page x < page /\ forall y, In y b -> page <= i_page y.
(** What [element(name, target)] must give. ([start] is the entry value: whether the element is the
    first on its page is not known to the program. No value before the first assignment. *)
Definition gives (page : nat) (l : list info) (t : target) (r : option info) : Prop :=
  match t with
  | UNDEFINED | FIRST =>
    (exists x, first_on page l x /\ r = Some x) \/
    ((forall x, In x l -> i_page x <> page) /\ exists x, entry page l x /\ r = Some x) \/
    (l = [] /\ r = None)
  | LAST =>
    (exists x, last_on page l x /\ r = Some x) \/
    ((forall x, In x l -> i_page x <> page) /\ exists x, entry page l x /\ r = Some x) \/
    (l = [] /\ r = None)
  | START =>
    (exists x, entry page l x /\ r = Some x) \/ ((forall x, In x l -> page <= i_page x) /\ r = None)
  | FIRST_EXCEPT =>
    ((exists x, In x l /\ i_page x = page) /\ r = None) \/
    ((forall x, In x l -> i_page x <> page) /\ exists x, entry page l x /\ r = Some x) \/
    (l = [] /\ r = None)
  end.

(** A binary search finds an element of the page if there is one. *)
Definition search_ok (found : option nat) (l : list info) (page : nat) : Prop :=
  match found with
  | Some i => exists x, nth_error l i = Some x /\ i_page x = page
  | None => forall x, In x l -> i_page x <> page
  end.

(** ** The map holds the assignments *)

Lemma lookup_add m n i k : lookup (add m n i) k =
  if str_eqb n k then Some (match lookup m n with Some l => l ++ [i] | None => [i] end) else lookup m k.
Proof.
  induction m as [|[k' l] m IH]; cbn.
  - reflexivity.
  - destruct (str_eqb k' n) eqn:E.
    + apply str_eqb_spec in E. subst. cbn. now destruct (str_eqb n k).
    + cbn. destruct (str_eqb k' k) eqn:E'; [|exact IH].
      apply str_eqb_spec in E'. subst. destruct (str_eqb n k) eqn:F; [|reflexivity].
      apply str_eqb_spec in F. subst. now rewrite str_eqb_refl in E.
Qed.

Lemma lookup_registered h n : lookup (registered h) n = match assigned h n with [] => None | l => Some l end.
Proof.
  unfold registered, assigned.
  assert (G : forall h m, lookup (fold_left (fun m e => add m (fst e) (snd e)) h m) n =
    match (match lookup m n with Some l => l | None => [] end) ++ map snd (filter (fun e => str_eqb (fst e) n) h) with
    | [] => lookup m n | l => Some l end).
  { clear. induction h as [|[k i] h IH]; intros m; cbn [fold_left filter map fst snd].
    - rewrite app_nil_r. destruct (lookup m n) as [[|]|]; reflexivity.
    - rewrite IH, lookup_add. destruct (str_eqb k n) eqn:E; [|reflexivity].
      apply str_eqb_spec in E. subst. cbn [map snd]. destruct (lookup m n) as [l|]; cbn.
      + rewrite <- app_assoc. cbn. now destruct l.
      + reflexivity. }
  rewrite G. cbn. reflexivity.
Qed.

(** ** The run of a page *)

Lemma go_left_spec l page i x : nth_error l i = Some x -> i_page x = page ->
  exists y, nth_error l (go_left l page i) = Some y /\ i_page y = page /\ go_left l page i <= i /\
    (forall j z, go_left l page i <= j <= i -> nth_error l j = Some z -> i_page z = page) /\
    (forall j z, S j = go_left l page i -> nth_error l j = Some z -> i_page z <> page).
Proof.
  revert x. induction i as [|i IH]; intros x N P.
  - exists x. cbn. repeat split; auto; try lia. intros j z L E. assert (j = 0) by lia. subst. congruence.
  - cbn [go_left]. destruct (nth_error l i) as [y|] eqn:E.
    + destruct (i_page y =? page) eqn:Q.
      * apply Nat.eqb_eq in Q. destruct (IH y eq_refl Q) as (z & A & B & C & D & F). exists z. repeat split; auto; try lia.
        intros j w L W. destruct (Nat.eq_dec j (S i)) as [->|]; [congruence|]. apply (D j); [lia|exact W].
      * apply Nat.eqb_neq in Q. exists x. repeat split; auto; try lia.
        -- intros j z L W. assert (j = S i) by lia. subst. congruence.
        -- intros j z L W. injection L as ->. congruence.
    + exfalso. assert (H : nth_error l (S i) <> None) by congruence. apply nth_error_Some in H. apply nth_error_None in E. lia.
Qed.

Lemma go_right_spec n l page i x : length l <= n + i -> nth_error l i = Some x -> i_page x = page ->
  exists y, nth_error l (go_right n l page i) = Some y /\ i_page y = page /\ i <= go_right n l page i /\
    (forall j z, i <= j <= go_right n l page i -> nth_error l j = Some z -> i_page z = page) /\
    (forall z, nth_error l (S (go_right n l page i)) = Some z -> i_page z <> page).
Proof.
  revert i x. induction n as [|n IH]; intros i x L N P.
  - exfalso. assert (H : nth_error l i <> None) by congruence. apply nth_error_Some in H. lia.
  - cbn [go_right]. assert (H : nth_error l i <> None) by congruence. apply nth_error_Some in H.
    assert (Stop : (forall z, nth_error l (S i) = Some z -> i_page z <> page) ->
      exists y, nth_error l i = Some y /\ i_page y = page /\ i <= i /\
        (forall j z, i <= j <= i -> nth_error l j = Some z -> i_page z = page) /\
        (forall z, nth_error l (S i) = Some z -> i_page z <> page)).
    { intros Z. exists x. repeat split; auto. intros j z L' W. assert (j = i) by lia. subst. congruence. }
    destruct (i <? length l - 1) eqn:B.
    + apply Nat.ltb_lt in B. rewrite Nat.add_1_r. destruct (nth_error l (S i)) as [y|] eqn:E in |- *.
      * destruct (i_page y =? page) eqn:Q.
        -- apply Nat.eqb_eq in Q. destruct (IH (S i) y) as (z & A1 & A2 & A3 & A4 & A5); [lia|exact E|exact Q|].
           exists z. repeat split; auto; try lia.
           intros j w L' W. destruct (Nat.eq_dec j i) as [->|]; [congruence|]. apply (A4 j); [lia|exact W].
        -- apply Nat.eqb_neq in Q. apply Stop. intros z Z. congruence.
      * apply Stop. intros z Z. congruence.
    + apply Nat.ltb_ge in B. apply Stop. intros z Z. assert (S i < length l) by (apply nth_error_Some; congruence). lia.
Qed.

Lemma split_at {A} (l : list A) i x : nth_error l i = Some x -> l = firstn i l ++ x :: skipn (S i) l.
Proof.
  revert i. induction l as [|a l IH]; intros [|i] E; cbn in *; try discriminate.
  - now injection E as ->.
  - f_equal. now apply IH.
Qed.
Lemma nth_sub {A} (l : list A) a b i : nth_error (sub l a b) i = if i <? b - a then nth_error l (a + i) else None.
Proof.
  unfold sub. revert l i. generalize (b - a) as k. intros k l i.
  assert (F : forall (l : list A) k i, nth_error (firstn k l) i = if i <? k then nth_error l i else None).
  { clear. induction l as [|x l IH]; intros k i.
    - rewrite firstn_nil. destruct i; cbn [nth_error]; now destruct (_ <? k).
    - destruct k; cbn [firstn]; [now destruct i|]. destruct i as [|i]; [reflexivity|]. cbn [nth_error]. rewrite IH. reflexivity. }
  rewrite F. destruct (i <? k); [|reflexivity]. clear. revert l i. induction a as [|a IH]; intros l i; [reflexivity|].
  destruct l as [|x l]; [now destruct i|]. cbn. apply IH.
Qed.
Lemma sub_len {A} (l : list A) a b : b <= length l -> length (sub l a b) = b - a.
Proof. intros L. unfold sub. rewrite firstn_length, skipn_length. lia. Qed.

Section Sorted.
  Variables (page : nat) (l : list info).
  Hypothesis P : printed_up_to page l.

  Lemma sorted_nth i j x y : i < j -> nth_error l i = Some x -> nth_error l j = Some y -> i_page x <= i_page y.
  Proof.
    intros L X Y. destruct P as [S _]. pose proof (split_at _ _ _ X) as E.
    assert (Y' : nth_error (skipn (Datatypes.S i) l) (j - Datatypes.S i) = Some y).
    { rewrite <- Y. clear - L. revert l i j L. induction l as [|a l' IH]; intros i j L; [destruct (j - S i), j; reflexivity|].
      destruct j as [|j]; [lia|]. destruct i as [|i]; [cbn [skipn nth_error]; now rewrite Nat.sub_succ, Nat.sub_0_r|].
      change (nth_error (skipn (Datatypes.S i) l') (j - Datatypes.S i) = nth_error l' j). apply IH. lia. }
    apply split_at in Y'. rewrite Y' in E. apply (S _ _ _ _ _ E).
  Qed.

  (** the run found is the run of the page *)
  Lemma run found : search_ok found l page -> (exists x, In x l /\ i_page x = page) ->
    exists a b, search_page found l page = sub l a (S b) /\ a <= b < length l /\
      (forall j x, nth_error l j = Some x -> (i_page x = page <-> a <= j <= b)).
  Proof.
    intros H (x0 & I0 & E0). destruct found as [i|]; [|now specialize (H x0 I0)].
    destruct H as (x & N & Px). exists (go_left l page i), (go_right (length l) l page i). cbn [search_page].
    destruct (go_left_spec l page i x N Px) as (y & A1 & A2 & A3 & A4 & A5).
    destruct (go_right_spec (length l) l page i x) as (z & B1 & B2 & B3 & B4 & B5); [lia|exact N|exact Px|].
    assert (LB : go_right (length l) l page i < length l) by (apply nth_error_Some; congruence).
    split; [now rewrite Nat.add_1_r|]. split; [lia|].
    intros j w W. split.
    - intros E. split.
      + destruct (le_lt_dec (go_left l page i) j) as [L|L]; [exact L|exfalso].
        destruct (go_left l page i) as [|k] eqn:G; [lia|]. destruct (nth_error l k) as [v|] eqn:V.
        * assert (i_page v <> page) by (eapply A5; [reflexivity|exact V]).
          assert (i_page v <= i_page y) by (eapply sorted_nth; [|exact V|exact A1]; lia).
          destruct (Nat.eq_dec j k) as [->|]; [congruence|].
          assert (i_page w <= i_page v) by (eapply sorted_nth; [|exact W|exact V]; lia). lia.
        * assert (k < length l) by lia. apply nth_error_None in V. lia.
      + destruct (le_lt_dec j (go_right (length l) l page i)) as [L|L]; [exact L|exfalso].
        destruct (nth_error l (S (go_right (length l) l page i))) as [v|] eqn:V.
        * pose proof (B5 v eq_refl). assert (i_page z <= i_page v) by (eapply sorted_nth; [|exact B1|exact V]; lia).
          destruct (Nat.eq_dec j (S (go_right (length l) l page i))) as [->|]; [congruence|].
          assert (i_page v <= i_page w) by (eapply sorted_nth; [|exact V|exact W]; lia). lia.
        * apply nth_error_None in V. assert (j < length l) by (apply nth_error_Some; congruence). lia.
    - intros L. destruct (le_lt_dec j i) as [K|K]; [apply (A4 j); [lia|exact W]|apply (B4 j); [lia|exact W]].
  Qed.
End Sorted.

Lemma in_firstn {A} (l : list A) i y : In y (firstn i l) -> exists j, j < i /\ nth_error l j = Some y.
Proof.
  intros I. apply In_nth_error in I as [j E]. assert (L : j < length (firstn i l)) by (apply nth_error_Some; congruence).
  rewrite firstn_length in L. exists j. split; [lia|]. revert l i E L. induction j as [|j IH]; intros [|x l] [|i] E L; cbn in *; try discriminate; auto.
  eapply IH; [exact E|lia].
Qed.
Lemma in_skipn {A} (l : list A) i y : In y (skipn i l) -> exists j, i <= j /\ nth_error l j = Some y.
Proof.
  revert l. induction i as [|i IH]; intros l I.
  - apply In_nth_error in I as [j E]. exists j. split; [lia|exact E].
  - destruct l as [|x l]; [destruct I|]. destruct (IH l I) as (j & L & E). exists (S j). split; [lia|exact E].
Qed.

Lemma start_loop_app a x b page p : (forall y, In y a -> i_page y <> page) -> i_page x = page ->
  start_loop (a ++ x :: b) (Some p) page = Some (last a p).
Proof.
  revert p. induction a as [|y a IH]; intros p N E; cbn [app start_loop].
  - now rewrite E, Nat.eqb_refl.
  - assert (i_page y =? page = false) as -> by (apply Nat.eqb_neq, N; now left).
    rewrite IH; [|intros z I; apply N; now right|exact E]. destruct a; [reflexivity|]. cbn. f_equal. clear.
    revert i. induction a as [|z a IH]; intros i; [reflexivity|]. cbn. apply IH.
Qed.
Lemma start_loop_none l p page : (forall y, In y l -> i_page y <> page) -> start_loop l p page = None.
Proof.
  revert p. induction l as [|y l IH]; intros p N; [reflexivity|]. cbn.
  assert (i_page y =? page = false) as -> by (apply Nat.eqb_neq, N; now left).
  destruct p; apply IH; intros z I; apply N; now right.
Qed.

Lemma first_exists page l : (exists x, In x l /\ i_page x = page) -> exists x, first_on page l x.
Proof.
  induction l as [|y l IH]; intros (x & I & E); [destruct I|]. destruct (Nat.eq_dec (i_page y) page) as [Q|Q].
  - exists y, [], l. repeat split; auto; intros z [].
  - destruct I as [->|I]; [contradiction|]. destruct IH as (z & a & b & -> & Z & F); [now exists x|].
    exists z, (y :: a), b. repeat split; auto. intros w [<-|W]; [exact Q|now apply F].
Qed.

(** On a page where the name is assigned, [first] and [last] give the first and the last assignment
    of the page, and [start] the last one before the page if there is one; a name that was never
    assigned gives nothing; and with a single assignment so far all but [first-except] are right.
    The lookups never run out of range. *)
Theorem C37_running_elements_partial : forall h n page found,
  printed_up_to page (assigned h n) -> search_ok found (assigned h n) page ->
  (forall t, match_ found (registered h) n t page <> Panic /\ match_ found (registered h) n t page <> OutOfFuel) /\
  (assigned h n = [] -> forall t, match_ found (registered h) n t page = Ok None) /\
  ((exists x, In x (assigned h n) /\ i_page x = page) ->
     (exists r, match_ found (registered h) n FIRST page = Ok r /\ gives page (assigned h n) FIRST r) /\
     (exists r, match_ found (registered h) n LAST page = Ok r /\ gives page (assigned h n) LAST r) /\
     ((exists x, In x (assigned h n) /\ i_page x < page) ->
        exists r, match_ found (registered h) n START page = Ok r /\ gives page (assigned h n) START r)) /\
  (forall x, assigned h n = [x] -> i_page x < page -> forall t,
     match_ found (registered h) n t page = Ok (Some x) /\ gives page (assigned h n) t (Some x)).
Proof.
  intros h n page found P S. remember (assigned h n) as l eqn:El.
  assert (Lk : lookup (registered h) n = match l with [] => None | l => Some l end) by (rewrite lookup_registered, <- El; now destruct l).
  clear El. unfold match_. rewrite Lk.
  split; [|split; [|split]].
  - intros t. destruct l as [|y l']; [now split|]. remember (y :: l') as l eqn:El.
    assert (Z : exists v, at_ l 0 = Ok v) by (rewrite El; eexists; reflexivity).
    assert (Sub : exists z zs, search_page found l page = z :: zs).
    { destruct found as [i|].
      - destruct S as (x & N & Px). destruct (run page l P (Some i)) as (a & b & E & L & _).
        + now exists x. + exists x. split; [eapply nth_error_In, N|exact Px].
        + rewrite E. pose proof (sub_len l a (Datatypes.S b) ltac:(lia)) as SL. destruct (sub l a (Datatypes.S b)) as [|z zs]; [cbn [length] in SL; lia|eauto].
      - rewrite El. cbn. eauto. }
    destruct Sub as (z & zs & E).
    destruct t; try (destruct Z as [v ->]; split; discriminate).
    + rewrite E. split; discriminate.
    + destruct (start_loop l None page); [split; discriminate|]. destruct Z as [v ->]; split; discriminate.
    + rewrite E. unfold at_. destruct (nth_error (z :: zs) _) eqn:F; [split; discriminate|].
      apply nth_error_None in F. cbn in F. lia.
    + rewrite E. split; discriminate.
  - intros -> t. reflexivity.
  - intros Ex. destruct l as [|y l']; [now destruct Ex as (x & [] & _)|]. remember (y :: l') as l eqn:El.
    destruct (run page l P found S Ex) as (a & b & E & L & R).
    destruct (nth_error l a) as [xa|] eqn:Na; [|apply nth_error_None in Na; lia].
    destruct (nth_error l b) as [xb|] eqn:Nb; [|apply nth_error_None in Nb; lia].
    split; [|split].
    + exists (Some xa). rewrite E. unfold at_. rewrite nth_sub. replace (0 <? Datatypes.S b - a) with true by (symmetry; apply Nat.ltb_lt; lia).
      rewrite Nat.add_0_r, Na. split; [reflexivity|]. left. exists xa. split; [|reflexivity].
      exists (firstn a l), (skipn (Datatypes.S a) l). split; [now apply split_at|]. split; [apply (R a); [exact Na|lia]|].
      intros z I Q. apply in_firstn in I as (j & Lj & Ej). apply (R j z Ej) in Q. lia.
    + exists (Some xb). rewrite E. rewrite sub_len by lia. unfold at_. rewrite nth_sub.
      replace (Datatypes.S b - a - 1 <? Datatypes.S b - a) with true by (symmetry; apply Nat.ltb_lt; lia).
      replace (a + (Datatypes.S b - a - 1)) with b by lia. rewrite Nb. split; [reflexivity|]. left. exists xb. split; [|reflexivity].
      exists (firstn b l), (skipn (Datatypes.S b) l). split; [now apply split_at|]. split; [apply (R b); [exact Nb|lia]|].
      intros z I Q. apply in_skipn in I as (j & Lj & Ej). apply (R j z Ej) in Q. lia.
    + intros (xe & Ie & Le).
      assert (La : 0 < a).
      { destruct a; [|lia]. exfalso. apply In_nth_error in Ie as [j Ej].
        destruct (Nat.eq_dec j 0) as [->|]; [assert (i_page xa = page) by (apply (R 0); [exact Na|lia]); assert (xa = xe) by congruence; subst xe; lia|].
        assert (i_page xa = page) by (apply (R 0); [exact Na|lia]).
        assert (i_page xa <= i_page xe) by (eapply sorted_nth; [exact P| |exact Na|exact Ej]; lia). lia. }
      destruct a as [|a]; [lia|]. destruct (nth_error l a) as [xp|] eqn:Np; [|apply nth_error_None in Np; lia].
      assert (Hl : l = y :: (skipn 1 (firstn (Datatypes.S a) l)) ++ xa :: skipn (Datatypes.S (Datatypes.S a)) l).
      { rewrite (split_at _ _ _ Na) at 1. rewrite El. cbn. reflexivity. }
      assert (SL : start_loop l None page = Some xp).
      { rewrite Hl. cbn [start_loop]. rewrite start_loop_app.
        - f_equal. clear - El Np. rewrite El in *. clear El l. cbn [firstn skipn].
          revert y l' Np. induction a as [|a IH]; intros y l' Np; [cbn in *; congruence|].
          destruct l' as [|y' l']; [destruct a; discriminate|]. cbn [nth_error] in Np. cbn [firstn]. specialize (IH y' l' Np).
          cbn [last]. destruct (firstn a l') as [|w ws] eqn:F; [exact IH|]. rewrite <- IH. clear. revert w. induction ws as [|v ws IH]; intros w; [reflexivity|]. cbn. apply IH.
        - intros z I Q. assert (I' : In z (firstn (Datatypes.S a) l)).
          { rewrite El in *. cbn [firstn skipn] in *. now right. }
          apply in_firstn in I' as (j & Lj & Ej). apply (R j z Ej) in Q. lia.
        - apply (R (Datatypes.S a)); [exact Na|lia]. }
      exists (Some xp). rewrite SL. split; [reflexivity|]. left. exists xp. split; [|reflexivity].
      exists (firstn a l), (skipn (Datatypes.S a) l). split; [now apply split_at|].
      assert (i_page xa = page) by (apply (R (Datatypes.S a)); [exact Na|lia]).
      assert (i_page xp <> page) by (intros Q; apply (R a xp Np) in Q; lia).
      assert (i_page xp <= i_page xa) by (eapply sorted_nth; [exact P| |exact Np|exact Na]; lia).
      split; [lia|]. intros z I. apply in_skipn in I as (j & Lj & Ej). 
      destruct (Nat.eq_dec j (Datatypes.S a)) as [->|]; [assert (z = xa) by congruence; subst; lia|].
      assert (i_page xa <= i_page z) by (eapply sorted_nth; [exact P| |exact Na|exact Ej]; lia). lia.
  - intros x -> Lx t. assert (F : search_page found [x] page = [x]).
    { destruct found as [i|]; [|reflexivity]. destruct S as (z & N & Q). destruct i; [cbn in N; injection N as <-; lia|destruct i; discriminate]. }
    assert (E : entry page [x] x) by (exists [], []; repeat split; auto; intros z []).
    assert (N : forall z, In z [x] -> i_page z <> page) by (intros z [<-|[]]; lia).
    split.
    + destruct t; try rewrite F; reflexivity.
    + destruct t; cbn; eauto 6.
Qed.
Print Assumptions C37_running_elements_partial.

(** With two assignments, on pages 1 and 2, on page 3 every target gives the first one, not the one
    in force; on page 2 [element(n)] gives the element of page 1; and [first-except] gives the
    element on the page that assigns it. *)
Definition hd_ : str := of_string "header".
Definition history : list (str * info) := [(hd_, mkInfo 1 10); (hd_, mkInfo 2 20)].
Theorem C37_running_elements_refuted :
  printed_up_to 3 (assigned history hd_) /\ search_ok None (assigned history hd_) 3 /\
  (forall t, match_ None (registered history) hd_ t 3 = Ok (Some (mkInfo 1 10)) /\
             gives 3 (assigned history hd_) t (Some (mkInfo 2 20)) /\
             ~ gives 3 (assigned history hd_) t (Some (mkInfo 1 10))) /\
  search_ok (Some 1) (assigned history hd_) 2 /\
  match_ (Some 1) (registered history) hd_ UNDEFINED 2 = Ok (Some (mkInfo 1 10)) /\
  gives 2 (assigned history hd_) UNDEFINED (Some (mkInfo 2 20)) /\
  match_ (Some 1) (registered history) hd_ FIRST_EXCEPT 2 = Ok (Some (mkInfo 2 20)) /\
  gives 2 (assigned history hd_) FIRST_EXCEPT None.
Proof.
  change (assigned history hd_) with [mkInfo 1 10; mkInfo 2 20].
  assert (E : entry 3 [mkInfo 1 10; mkInfo 2 20] (mkInfo 2 20)) by (exists [mkInfo 1 10], []; repeat split; cbn; auto; intros z []).
  assert (N : forall z, In z [mkInfo 1 10; mkInfo 2 20] -> i_page z <> 3) by (intros z [<-|[<-|[]]]; discriminate).
  assert (NE : ~ entry 3 [mkInfo 1 10; mkInfo 2 20] (mkInfo 1 10)).
  { intros (a & b & E' & _ & B). destruct a as [|a0 [|a1 a]]; cbn in E'.
    - injection E' as <-. specialize (B (mkInfo 2 20) (or_introl eq_refl)). cbn in B. lia.
    - discriminate.
    - apply (f_equal (@length _)) in E'. cbn in E'. rewrite app_length in E'. cbn in E'. lia. }
  assert (NF : forall x, ~ first_on 3 [mkInfo 1 10; mkInfo 2 20] x).
  { intros x (a & b & E' & P & _). apply (N x); [rewrite E'; apply in_app_iff; right; now left|exact P]. }
  assert (NL : forall x, ~ last_on 3 [mkInfo 1 10; mkInfo 2 20] x).
  { intros x (a & b & E' & P & _). apply (N x); [rewrite E'; apply in_app_iff; right; now left|exact P]. }
  split; [|split; [exact N|split; [|split; [|split; [reflexivity|split; [|split; [reflexivity|]]]]]]].
  - split.
    + intros a x b y c E'. destruct a as [|a0 [|a1 a]]; cbn in E'.
      * injection E' as <- E'. destruct b as [|b0 b]; cbn in E'; [injection E' as <- _; cbn; lia|].
        apply (f_equal (@length _)) in E'. cbn in E'. rewrite app_length in E'. cbn in E'. lia.
      * apply (f_equal (@length _)) in E'. cbn in E'. rewrite app_length in E'. cbn in E'. lia.
      * apply (f_equal (@length _)) in E'. cbn in E'. rewrite !app_length in E'. cbn in E'. rewrite app_length in E'. cbn in E'. lia.
    + intros x [<-|[<-|[]]]; cbn; lia.
  - intros t. split; [destruct t; reflexivity|]. split.
    + destruct t; cbn; eauto 6.
    + destruct t; cbn; intros H;
        repeat match goal with
        | H : _ \/ _ |- _ => destruct H as [H|H]
        | H : _ /\ _ |- _ => destruct H
        | H : exists _, _ |- _ => destruct H
        | H : Some _ = Some _ |- _ => injection H as <-
        end; try discriminate; try (now apply NE); try (eapply NF; eassumption); try (eapply NL; eassumption).
  - exists (mkInfo 2 20). split; reflexivity.
  - left. exists (mkInfo 2 20). split; [|reflexivity]. exists [mkInfo 1 10], []. repeat split. intros y [<-|[]]. discriminate.
  - left. split; [|reflexivity]. exists (mkInfo 2 20). split; [right; now left|reflexivity].
Qed.
Print Assumptions C37_running_elements_refuted.

(** Two assignments on page 2 after one on page 1. *)
Example C37_sample : exists r,
  match_ (Some 2) (registered [(hd_, mkInfo 1 10); (of_string "x", mkInfo 1 5); (hd_, mkInfo 2 20); (hd_, mkInfo 2 30)]) hd_ LAST 2 = Ok r /\ r = Some (mkInfo 2 30).
Proof. eexists. split; reflexivity. Qed.
