(** The tree that the parser builds for a complex selector, and when it means the same as the
    left-associated one. *)
From Coq Require Import String List NArith ZArith Bool Arith Lia.
From Verif.Base Require Import Str Outcome.
From Verif.Css Require Import LexerModel ParserModel.
From Verif.Values Require Import Number.
From Verif.Style Require Import AnBModel CascadeModel SelectorModel SelectorSpec SelectorProofs SelectorParseModel SelectorParseSpec.
Import ListNotations.
Local Open Scope nat_scope.
Local Open Scope list_scope.

Definition rank (c : infix_ty) : nat :=
  match c with DESCENDANT => oDESC | CHILD => oCHILD | ADJACENT => oADJ | SUBSEQUENT => oSUBSEQ | COLUMN => 9 end.
Definition multi (s : selector) : bool := match s with Nfix AND _ => true | _ => false end.

(** What one call of [pse] takes: a compound and, when it is a single simple selector and the
    next combinator binds tighter, that combinator and what one call takes after it. *)
Fixpoint ptree (op : nat) (k : selector) (r : list (infix_ty * selector)) : selector * list (infix_ty * selector) :=
  match r with
  | [] => (k, [])
  | (c, k') :: r' =>
    if multi k then (k, r)
    else if op <? rank c then let (s, r'') := ptree (rank c) k' r' in (Infix c k s, r'')
    else (k, r)
  end.
Fixpoint tloop (n : nat) (acc : selector) (r : list (infix_ty * selector)) : selector :=
  match n, r with
  | S n, (c, k) :: r' => let (s, r'') := ptree (rank c) k r' in tloop n (Infix c acc s) r''
  | _, _ => acc
  end.
Definition tree (x : complex) : selector := tloop (length (snd x)) (fst x) (snd x).

Lemma ptree_length r : forall op k, length (snd (ptree op k r)) <= length r.
Proof.
  induction r as [|[c k'] r IH]; intros op k; cbn [ptree]; [cbn; lia|]. destruct (multi k); [cbn; lia|].
  destruct (Nat.ltb op (rank c)); [|cbn; lia]. specialize (IH (rank c) k'). destruct (ptree (rank c) k' r). cbn in *. lia.
Qed.
Lemma tloop_fuel n m r : forall acc, length r <= n -> length r <= m -> tloop n acc r = tloop m acc r.
Proof.
  revert m r. induction n as [|n IH]; intros m r acc Ln Lm.
  - destruct r; cbn in Ln; [|lia]. now destruct m.
  - destruct r as [|[c k] r]; [now destruct m|]. cbn in Ln, Lm. destruct m as [|m]; [lia|]. cbn.
    pose proof (ptree_length r (rank c) k) as L. destruct (ptree (rank c) k r) as [s r'']. cbn in L. apply IH; lia.
Qed.

(** ** Meaning *)

Definition equiv (a b : selector) : Prop := forall t e pe, sem t a e pe <-> sem t b e pe.
Lemma equiv_refl a : equiv a a. Proof. firstorder. Qed.
Lemma equiv_trans a b c : equiv a b -> equiv b c -> equiv a c.
Proof. intros H G t e pe. now rewrite (H t e pe). Qed.
Lemma equiv_infix c a a' b b' : equiv a a' -> equiv b b' -> equiv (Infix c a b) (Infix c a' b').
Proof. intros A B t e pe. cbn. rewrite (B t e pe). setoid_rewrite (A t _ None). tauto. Qed.

(** A sibling has the same parent and ancestors. *)
Lemma sibling_up t c q p x : (c = DESCENDANT \/ c = CHILD) -> sibling_before q p -> related t c x q <-> related t c x p.
Proof.
  intros C (i & j & up & -> & -> & _). unfold related. destruct C as [-> | ->].
  - assert (H : forall k, is_ancestor x (k :: up) <-> exists r, up = r ++ x).
    { intros k. split.
      - intros (r & N & E). destruct r as [|y r]; [contradiction|]. injection E as _ E. now exists r.
      - intros (r & ->). exists (k :: r). split; [discriminate|reflexivity]. }
    now rewrite !H.
  - assert (H : forall k, is_parent x (k :: up) <-> x = up).
    { intros k. split; [intros (y & E); now injection E as _ ->|intros ->; now exists k]. }
    now rewrite !H.
Qed.
Lemma related_sibling t d q p : (d = ADJACENT \/ d = SUBSEQUENT) -> related t d q p -> sibling_before q p.
Proof. intros [-> | ->] [_ H]; [apply H|exact H]. Qed.

Lemma rotate c d a b z : (c = DESCENDANT \/ c = CHILD) -> (d = ADJACENT \/ d = SUBSEQUENT) ->
  equiv (Infix c a (Infix d b z)) (Infix d (Infix c a b) z).
Proof.
  intros C D t e pe. cbn [sem]. split.
  - intros [[Z (q & R & B)] (x & R' & A)]. split; [exact Z|]. exists q. split; [exact R|]. split; [exact B|].
    exists x. split; [|exact A]. apply (sibling_up t c q e); auto. eapply related_sibling; eauto.
  - intros [Z (q & R & B & x & R' & A)]. split; [split; [exact Z|now exists q]|]. exists x. split; [|exact A].
    apply (sibling_up t c q e); auto. eapply related_sibling; eauto.
Qed.

Lemma fold_equiv r : forall a b, equiv a b ->
  equiv (fold_left (fun acc cs => Infix (fst cs) acc (snd cs)) r a) (fold_left (fun acc cs => Infix (fst cs) acc (snd cs)) r b).
Proof. induction r as [|[c k] r IH]; intros a b H; cbn; [exact H|]. apply IH. apply equiv_infix; [exact H|apply equiv_refl]. Qed.

(** No wrongly grouped pair of combinators. *)
Definition bad (c d : infix_ty) : bool :=
  match c, d with DESCENDANT, CHILD | ADJACENT, SUBSEQUENT => true | _, _ => false end.
Fixpoint good (r : list (infix_ty * selector)) : Prop :=
  match r with
  | (c, k) :: r' => c <> COLUMN /\ match r' with (d, _) :: _ => multi k = false -> bad c d = false | [] => True end /\ good r'
  | [] => True
  end.

Lemma tloop_equiv n : forall r acc, length r <= n -> good r ->
  equiv (tloop n acc r) (fold_left (fun acc cs => Infix (fst cs) acc (snd cs)) r acc).
Proof.
  induction n as [n IH] using lt_wf_ind. intros r acc L G.
  destruct r as [|[c k] r]; [destruct n; apply equiv_refl|].
  destruct n as [|n]; [cbn in L; lia|]. cbn [length] in L. cbn [tloop fold_left fst snd].
  destruct G as (Nc & B & G). destruct r as [|[d k2] r2].
  - cbn. destruct n; apply equiv_refl.
  - cbn [ptree]. destruct (multi k) eqn:Mk; [apply IH; [lia|cbn in *; lia|exact G]|].
    destruct (rank c <? rank d) eqn:Lt; [|apply IH; [lia|cbn in *; lia|exact G]].
    specialize (B eq_refl). destruct G as (Nd & B2 & G2). apply Nat.ltb_lt in Lt.
    assert (CD : (c = DESCENDANT \/ c = CHILD) /\ (d = ADJACENT \/ d = SUBSEQUENT)).
    { destruct c, d; cbn [bad] in B; unfold rank, oDESC, oCHILD, oADJ, oSUBSEQ in Lt; try lia; try congruence; auto. }
    assert (P : ptree (rank d) k2 r2 = (k2, r2)).
    { destruct r2 as [|[d2 k3] r3]; [reflexivity|]. cbn [ptree]. destruct (multi k2) eqn:M2; [reflexivity|].
      specialize (B2 eq_refl). destruct (rank d <? rank d2) eqn:Lt2; [|reflexivity]. exfalso. apply Nat.ltb_lt in Lt2.
      destruct G2 as (Nd2 & _). destruct CD as [_ [-> | ->]]; destruct d2; cbn [bad] in B2; unfold rank, oDESC, oCHILD, oADJ, oSUBSEQ in Lt2; try lia; try congruence. }
    rewrite P. cbn [fold_left fst snd].
    eapply equiv_trans; [apply IH; [lia|cbn in L; lia|exact G2]|]. apply fold_equiv. now apply rotate.
Qed.

Lemma tree_equiv x : good (snd x) -> equiv (tree x) (left_assoc x).
Proof. intros G. unfold tree, left_assoc. now apply tloop_equiv. Qed.

(** ** The whole abstract syntax *)

Lemma m_rest_cons ns f c k r : m_rest ns f (RCons c k r) = (comb_ty c, conj (m_compound ns f k)) :: m_rest ns f r.
Proof. reflexivity. Qed.
Lemma m_compound_more ns f s k : m_compound ns f (KCons s k) = m_simple ns f s :: m_compound ns f k.
Proof. reflexivity. Qed.
Lemma m_compound_one ns f s : m_compound ns f (KOne s) = [m_simple ns f s].
Proof. reflexivity. Qed.
Lemma m_cplx_eq ns f k r : m_cplx ns f (Cx k r) = (conj (m_compound ns f k), m_rest ns f r).
Proof. reflexivity. Qed.
Lemma m_slist_eq ns f a x r b : m_slist ns f (Sl a x r b) = disj (f (m_cplx ns f x) :: m_lrest ns f r).
Proof. reflexivity. Qed.
Lemma m_lrest_cons ns f l x r : m_lrest ns f (LCons l x r) = f (m_cplx ns f x) :: m_lrest ns f r.
Proof. reflexivity. Qed.
Lemma rest_ok_cons ns c k r : rest_ok ns (RCons c k r) =
  (compound_ok ns k /\ rest_ok ns r /\ match c with Desc _ => is_attr (first_simple k) = false | _ => True end /\
   match r with RCons d _ _ => single k && bad_pair c d = false | RNil => True end).
Proof. reflexivity. Qed.

Lemma m_simple_multi ns f s : multi (m_simple ns f s) = false.
Proof. destruct s; reflexivity. Qed.
Lemma m_compound_cons ns f k : exists s l, m_compound ns f k = s :: l /\ (single k = true <-> l = []).
Proof. destruct k as [s|s k]; [|destruct k]; eexists; eexists; (split; [reflexivity|split; intros H; try reflexivity; discriminate]). Qed.
Lemma multi_conj ns f k : multi (conj (m_compound ns f k)) = negb (single k).
Proof.
  destruct k as [s|s k]; [apply m_simple_multi|]. rewrite m_compound_more.
  destruct (m_compound_cons ns f k) as (x & l & E & _). rewrite E. reflexivity.
Qed.

Lemma good_rest ns f r : rest_ok ns r -> good (m_rest ns f r).
Proof.
  induction r as [|c k r IH]; [intros _; exact I|]. rewrite rest_ok_cons, m_rest_cons. intros (_ & R & _ & B). cbn [good].
  split; [destruct c; discriminate|]. split; [|now apply IH]. destruct r as [|d k2 r2]; [exact I|]. rewrite m_rest_cons.
  intros M. rewrite multi_conj in M. apply negb_false_iff in M. rewrite M in B. cbn in B. destruct c, d; cbn in *; auto.
Qed.

Definition all_equiv (l l' : list selector) : Prop := Forall2 equiv l l'.
Lemma all_of_equiv t e pe l l' : all_equiv l l' -> all_of (fun i => sem t i e pe) l <-> all_of (fun i => sem t i e pe) l'.
Proof. induction 1 as [|a b l l' H F IH]; [tauto|]. cbn. now rewrite (H t e pe), IH. Qed.
Lemma any_of_equiv t e pe l l' : all_equiv l l' -> any_of (fun i => sem t i e pe) l <-> any_of (fun i => sem t i e pe) l'.
Proof. induction 1 as [|a b l l' H F IH]; [tauto|]. cbn. now rewrite (H t e pe), IH. Qed.
Lemma conj_equiv l l' : all_equiv l l' -> equiv (conj l) (conj l').
Proof.
  intros H t e pe. pose proof (all_of_equiv t e pe l l' H) as A. destruct H as [|a b l l' H F]; [tauto|]. destruct F; [exact (H t e pe)|exact A].
Qed.
Lemma disj_equiv l l' : all_equiv l l' -> equiv (disj l) (disj l').
Proof.
  intros H t e pe. pose proof (any_of_equiv t e pe l l' H) as A. destruct H as [|a b l l' H F]; [tauto|]. destruct F; [exact (H t e pe)|exact A].
Qed.
Definition rest_equiv (r r' : list (infix_ty * selector)) : Prop := Forall2 (fun a b => fst a = fst b /\ equiv (snd a) (snd b)) r r'.
Lemma left_assoc_equiv r r' : rest_equiv r r' -> forall a b, equiv a b -> equiv (left_assoc (a, r)) (left_assoc (b, r')).
Proof.
  unfold left_assoc. cbn [fst snd]. induction 1 as [|[c k] [c' k'] r r' [H1 H2] F IH]; intros a b E; cbn [fold_left]; [exact E|].
  cbn [fst snd] in *. subst c'. apply IH. now apply equiv_infix.
Qed.
Lemma nth_equiv ty ab a b : equiv a b -> equiv (PseudoClassAnBof ty ab a) (PseudoClassAnBof ty ab b).
Proof.
  intros H t e pe. cbn. 
  assert (X : forall R, nth_sem R (fun q => is_elem t q /\ sem t a q None) ab e <-> nth_sem R (fun q => is_elem t q /\ sem t b q None) ab e).
  { intros R. unfold nth_sem, position. setoid_rewrite (H t _ None). tauto. }
  destruct ty; cbn; try tauto; now rewrite X, (H t e None).
Qed.

Lemma meaning_equiv ns :
  (forall s, simple_ok ns s -> equiv (m_simple ns tree s) (m_simple ns left_assoc s)) /\
  (forall k, compound_ok ns k -> all_equiv (m_compound ns tree k) (m_compound ns left_assoc k)) /\
  (forall r, rest_ok ns r -> rest_equiv (m_rest ns tree r) (m_rest ns left_assoc r)) /\
  (forall x, cplx_ok ns x -> equiv (tree (m_cplx ns tree x)) (left_assoc (m_cplx ns left_assoc x))) /\
  (forall l, slist_ok ns l -> equiv (m_slist ns tree l) (m_slist ns left_assoc l)) /\
  (forall r, lrest_ok ns r -> all_equiv (m_lrest ns tree r) (m_lrest ns left_assoc r)).
Proof.
  apply selector_mut; cbn [simple_ok compound_ok rest_ok cplx_ok slist_ok lrest_ok m_simple m_compound m_rest m_cplx m_slist m_lrest];
    try (intros; apply equiv_refl).
  - intros n w a w' l IH (_ & _ & _ & O). apply nth_equiv. now apply IH.
  - intros l IH O t e pe. cbn. now rewrite (IH O t e pe).
  - intros s IH O. constructor; [now apply IH|constructor].
  - intros s IH k IHk (O & _ & Ok). constructor; [now apply IH|now apply IHk].
  - intros _. constructor.
  - intros c k IHk r IHr (Ok & Or & _). constructor; [|now apply IHr]. cbn. split; [reflexivity|]. apply conj_equiv. now apply IHk.
  - intros k IHk r IHr (Ok & Or). eapply equiv_trans; [apply tree_equiv; cbn; now apply good_rest|].
    apply left_assoc_equiv; [now apply IHr|]. apply conj_equiv. now apply IHk.
  - intros lead x IHx r IHr trail (Ox & Or). apply disj_equiv. constructor; [now apply IHx|now apply IHr].
  - intros _. constructor.
  - intros l x IHx r IHr (Ox & Or). constructor; [now apply IHx|now apply IHr].
Qed.

(** ** What depends only on the parts: same for both groupings *)

Section Folded.
Variable M : Type.
Variable op : M -> M -> M.
Variable g : infix_ty -> M.
Variable F : selector -> M.
Variable H : nfix_ty -> list M -> M.
Variable G : pc_ty -> anb -> M -> M.
Hypothesis op_assoc : forall a b c, op (op a b) c = op a (op b c).
Hypothesis op_comm : forall a b, op a b = op b a.
Hypothesis F_infix : forall c a b, F (Infix c a b) = op (g c) (op (F a) (F b)).
Hypothesis F_nfix : forall ty l, F (Nfix ty l) = H ty (map F l).
Hypothesis F_of : forall ty ab s, F (PseudoClassAnBof ty ab s) = G ty ab (F s).

Definition fsum (a : M) (r : list (infix_ty * selector)) : M := fold_left (fun acc ck => op (op (g (fst ck)) (F (snd ck))) acc) r a.
Lemma fsum_op r : forall a b, fsum (op a b) r = op a (fsum b r).
Proof.
  induction r as [|[c k] r IH]; intros a b; [reflexivity|]. unfold fsum in *. cbn [fold_left fst snd]. rewrite <- IH. f_equal.
  rewrite <- (op_assoc _ a b), (op_comm _ a), op_assoc. reflexivity.
Qed.
Lemma ptree_F r : forall o k, fsum (F (fst (ptree o k r))) (snd (ptree o k r)) = fsum (F k) r.
Proof.
  induction r as [|[c k'] r IH]; intros o k; [reflexivity|]. cbn [ptree]. destruct (multi k); [reflexivity|]. destruct (o <? rank c); [|reflexivity].
  specialize (IH (rank c) k'). destruct (ptree (rank c) k' r) as [s r'']. cbn [fst snd] in *. rewrite F_infix, !fsum_op, IH.
  unfold fsum at 2. cbn [fold_left fst snd]. change (op (g c) (op (F k) (fsum (F k') r)) = fsum (op (op (g c) (F k')) (F k)) r).
  rewrite (op_assoc (g c)), (op_comm (F k')), !fsum_op. reflexivity.
Qed.
Lemma tloop_F n : forall a r, List.length r <= n -> F (tloop n a r) = fsum (F a) r.
Proof.
  induction n as [|n IH]; intros a r L; [destruct r; [reflexivity|cbn in L; lia]|]. destruct r as [|[c k] r]; [reflexivity|]. cbn [tloop].
  pose proof (ptree_F r (rank c) k) as P. pose proof (ptree_length r (rank c) k) as Pl. destruct (ptree (rank c) k r) as [s r'']. cbn [fst snd] in *.
  cbn [List.length] in L. rewrite IH by lia. rewrite F_infix, !fsum_op, P. unfold fsum at 2. cbn [fold_left fst snd].
  change (op (g c) (op (F a) (fsum (F k) r)) = fsum (op (op (g c) (F k)) (F a)) r).
  rewrite (op_assoc (g c)), (op_comm (F k)), !fsum_op. reflexivity.
Qed.
Lemma tree_F x : F (tree x) = fsum (F (fst x)) (snd x).
Proof. unfold tree. now apply tloop_F. Qed.
Lemma left_F x : F (left_assoc x) = fsum (F (fst x)) (snd x).
Proof.
  destruct x as [k r]. unfold left_assoc. cbn [fst snd]. revert k. induction r as [|[c k'] r IH]; intros k; [reflexivity|]. cbn [fold_left fst snd].
  rewrite IH. unfold fsum. cbn [fold_left fst snd]. f_equal. now rewrite F_infix, op_assoc, (op_comm (F k)).
Qed.
Lemma conj_F l l' : map F l = map F l' -> F (conj l) = F (conj l').
Proof. intros E. destruct l as [|a [|b l]], l' as [|a' [|b' l']]; try discriminate; cbn [conj]; rewrite ?F_nfix, ?E; auto. now injection E. Qed.
Lemma disj_F l l' : map F l = map F l' -> F (disj l) = F (disj l').
Proof. intros E. destruct l as [|a [|b l]], l' as [|a' [|b' l']]; try discriminate; cbn [disj]; rewrite ?F_nfix, ?E; auto. now injection E. Qed.
Lemma fsum_ext r : forall r' a, map (fun ck => (fst ck, F (snd ck))) r = map (fun ck => (fst ck, F (snd ck))) r' -> fsum a r = fsum a r'.
Proof.
  induction r as [|[c k] r IH]; intros [|[c' k'] r'] a E; try discriminate; [reflexivity|]. injection E as <- Ek E. unfold fsum. cbn [fold_left fst snd].
  rewrite Ek. now apply IH.
Qed.
Lemma meaning_F ns :
  (forall s, F (m_simple ns tree s) = F (m_simple ns left_assoc s)) /\
  (forall k, map F (m_compound ns tree k) = map F (m_compound ns left_assoc k)) /\
  (forall r, map (fun ck => (fst ck, F (snd ck))) (m_rest ns tree r) = map (fun ck => (fst ck, F (snd ck))) (m_rest ns left_assoc r)) /\
  (forall x, F (tree (m_cplx ns tree x)) = F (left_assoc (m_cplx ns left_assoc x))) /\
  (forall l, F (m_slist ns tree l) = F (m_slist ns left_assoc l)) /\
  (forall r, map F (m_lrest ns tree r) = map F (m_lrest ns left_assoc r)).
Proof.
  apply selector_mut; try reflexivity.
  - intros n w a w' l IH. cbn [m_simple]. rewrite !F_of. f_equal. exact IH.
  - intros l IH. cbn [m_simple]. rewrite !F_nfix. cbn [map]. f_equal. f_equal. exact IH.
  - intros s IH. rewrite !m_compound_one. cbn [map]. now rewrite IH.
  - intros s IH k IHk. rewrite !m_compound_more. cbn [map]. now rewrite IH, IHk.
  - intros c k IHk r IHr. rewrite !m_rest_cons. cbn [map fst snd]. f_equal; [|exact IHr]. f_equal. now apply conj_F.
  - intros k IHk r IHr. rewrite !m_cplx_eq, tree_F, left_F. cbn [fst snd]. rewrite (conj_F _ _ IHk). now apply fsum_ext.
  - intros lead x IHx r IHr trail. rewrite !m_slist_eq. apply disj_F. cbn [map]. now rewrite IHx, IHr.
  - intros l x IHx r IHr. rewrite !m_lrest_cons. cbn [map]. now rewrite IHx, IHr.
Qed.
End Folded.

Lemma supported_same ns l : supported (m_slist ns tree l) = supported (meaning ns l).
Proof.
  refine (proj1 (proj2 (proj2 (proj2 (proj2 (meaning_F bool andb (fun c => match c with COLUMN => false | _ => true end) supported
    (fun ty l => match ty with NOT => match l with [i] => i | _ => false end | WHERE => false | _ => forallb (fun b => b) l end)
    (fun ty _ b => pc_anb_ok ty && b) _ _ _ _ _ ns))))) l).
  - intros. now rewrite andb_assoc.
  - apply andb_comm.
  - intros [] a b; reflexivity.
  - intros [] k; cbn; try reflexivity; try (induction k; cbn; congruence). now destruct k as [|? []].
  - reflexivity.
Qed.
Lemma no_adjacent_same ns l : no_adjacent (m_slist ns tree l) = no_adjacent (meaning ns l).
Proof.
  refine (proj1 (proj2 (proj2 (proj2 (proj2 (meaning_F bool andb (fun c => match c with ADJACENT => false | _ => true end) no_adjacent
    (fun ty l => forallb (fun b => b) l) (fun ty _ b => b) _ _ _ _ _ ns))))) l).
  - intros. now rewrite andb_assoc.
  - apply andb_comm.
  - intros [] a b; reflexivity.
  - intros ty k. cbn. induction k; cbn; congruence.
  - reflexivity.
Qed.
Lemma spec_add_assoc a b c : spec_add (spec_add a b) c = spec_add a (spec_add b c).
Proof. unfold spec_add. cbn. f_equal; lia. Qed.
Lemma spec_add_comm a b : spec_add a b = spec_add b a.
Proof. unfold spec_add. cbn. f_equal; lia. Qed.
Lemma spec_add_zero a : spec_add spec_zero a = a.
Proof. destruct a. reflexivity. Qed.
Lemma css_spec_same ns l : css_spec (m_slist ns tree l) = css_spec (meaning ns l).
Proof.
  refine (proj1 (proj2 (proj2 (proj2 (proj2 (meaning_F specificity spec_add (fun _ => spec_zero) css_spec
    (fun ty l => match ty with AND => fold_right spec_add spec_zero l | WHERE => spec_zero | _ => fold_right spec_max spec_zero l end)
    (fun ty _ b => spec_add (mkSpec 0 1 0) b) _ _ _ _ _ ns))))) l).
  - apply spec_add_assoc.
  - apply spec_add_comm.
  - intros c a b. now rewrite spec_add_zero.
  - intros [] k; cbn; try reflexivity; induction k; cbn; congruence.
  - reflexivity.
Qed.
Lemma spec_same ns l : spec (m_slist ns tree l) = spec (meaning ns l).
Proof.
  refine (proj1 (proj2 (proj2 (proj2 (proj2 (meaning_F specificity spec_add (fun _ => spec_zero) spec
    (fun ty l => match ty with WHERE => spec_zero | _ => fold_left spec_add l spec_zero end)
    (fun ty _ b => spec_B) _ _ _ _ _ ns))))) l).
  - apply spec_add_assoc.
  - apply spec_add_comm.
  - intros c a b. now rewrite spec_add_zero.
  - assert (Q : forall k a, fold_left (fun acc i => spec_add acc (spec i)) k a = fold_left spec_add (map spec k) a) by (induction k; cbn; auto).
    intros [] k; cbn; auto.
  - reflexivity.
Qed.
