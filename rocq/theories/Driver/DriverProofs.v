(** Maps, and what holds in every state of the driver. *)
From Coq Require Import List Arith ZArith Bool Lia.
From Verif.Driver Require Import DriverModel.
Import ListNotations.

Section Map.
Context {A : Type}.
Implicit Types (m : list (nat * A)) (v : A).
Lemma lookup_nil k : lookup k (@nil (nat * A)) = None.
Proof. reflexivity. Qed.
Lemma lookup_cons k x m : lookup k (x :: m) = if fst x =? k then Some (snd x) else lookup k m.
Proof. unfold lookup. cbn [find]. destruct (fst x =? k); reflexivity. Qed.
Lemma lookup_none k m : lookup k m = None <-> existsb (fun x => fst x =? k) m = false.
Proof.
  induction m as [|x m IH]; [easy|]. rewrite lookup_cons. cbn [existsb]. destruct (fst x =? k); [easy|exact IH].
Qed.
Lemma lookup_app k m m' : lookup k (m ++ m') = match lookup k m with Some v => Some v | None => lookup k m' end.
Proof. induction m as [|x m IH]; [reflexivity|]. cbn [app]. rewrite !lookup_cons. destruct (fst x =? k); [reflexivity|exact IH]. Qed.
Lemma lookup_put k v m : lookup k (put k v m) = Some v.
Proof.
  unfold put. destruct (existsb _ m) eqn:E.
  - induction m as [|x m IH]; [discriminate|]. cbn [map existsb] in *. rewrite lookup_cons. destruct (fst x =? k) eqn:Ek; cbn [fst snd]; [now rewrite Nat.eqb_refl|]. rewrite Ek. now apply IH.
  - apply lookup_none in E. rewrite lookup_app, E, lookup_cons. cbn [fst snd]. now rewrite Nat.eqb_refl.
Qed.
Lemma lookup_put_other k k' v m : k <> k' -> lookup k (put k' v m) = lookup k m.
Proof.
  intros N. unfold put. destruct (existsb _ m) eqn:E.
  - clear E. induction m as [|x m IH]; [reflexivity|]. cbn [map]. rewrite !lookup_cons, IH. destruct (Nat.eqb_spec (fst x) k') as [e|ne]; cbn [fst snd]; [|reflexivity]. destruct (Nat.eqb_spec k' k); [congruence|]. destruct (Nat.eqb_spec (fst x) k); [congruence|reflexivity].
  - rewrite lookup_app, lookup_cons. cbn [fst]. destruct (Nat.eqb_spec k' k); [congruence|]. now destruct (lookup k m).
Qed.
Lemma lookup_remove k m : lookup k (remove k m) = None.
Proof. induction m as [|x m IH]; [reflexivity|]. unfold remove in *. cbn [filter]. destruct (fst x =? k) eqn:E; cbn [negb]; [exact IH|]. now rewrite lookup_cons, E. Qed.
Lemma lookup_remove_other k k' m : k <> k' -> lookup k (remove k' m) = lookup k m.
Proof.
  intros N. induction m as [|x m IH]; [reflexivity|]. unfold remove in *. cbn [filter]. rewrite lookup_cons. destruct (Nat.eqb_spec (fst x) k'); cbn [negb].
  - rewrite IH. destruct (Nat.eqb_spec (fst x) k); [congruence|reflexivity].
  - rewrite lookup_cons, IH. reflexivity.
Qed.
End Map.

Lemma has_in h l : existsb (Nat.eqb h) l = true <-> In h l.
Proof. rewrite existsb_exists. split; [intros (x & Hx & E); apply Nat.eqb_eq in E; now subst|intros H; exists h; now rewrite Nat.eqb_refl]. Qed.

(** The window that a task will add to a session. *)
Definition adds (t : task) : option nat := match t with T_SESSION _ h | T_WINDOW _ h => Some h | T_LOAD _ _ => None end.
Record inv (st : state) : Prop := mkInv {
  i_session : forall sid s, lookup sid (sessions st) = Some s -> sid < next st /\ In (s_current s) (s_windows s) /\ NoDup (s_windows s);
  i_window : forall sid s h, lookup sid (sessions st) = Some s -> In h (s_windows s) -> h < next st /\ exists w u, lookup h (windows st) = Some w /\ w_doc w = Some u;
  i_apart : forall s1 s2 x1 x2 h, lookup s1 (sessions st) = Some x1 -> lookup s2 (sessions st) = Some x2 -> In h (s_windows x1) -> In h (s_windows x2) -> s1 = s2;
  i_task : forall t k, lookup t (tasks st) = Some k -> t < next st;
  i_start : forall t sid h, lookup t (tasks st) = Some (T_SESSION sid h) -> sid < next st /\ lookup sid (sessions st) = None;
  i_adds : forall t k h, lookup t (tasks st) = Some k -> adds k = Some h -> h < next st /\ (exists w, lookup h (windows st) = Some w) /\ forall sid s, lookup sid (sessions st) = Some s -> ~ In h (s_windows s);
  i_adds1 : forall t1 t2 k1 k2 h, lookup t1 (tasks st) = Some k1 -> lookup t2 (tasks st) = Some k2 -> adds k1 = Some h -> adds k2 = Some h -> t1 = t2;
  i_start1 : forall t1 t2 sid h1 h2, lookup t1 (tasks st) = Some (T_SESSION sid h1) -> lookup t2 (tasks st) = Some (T_SESSION sid h2) -> t1 = t2 }.

Lemma inv_initial : inv initial.
Proof. constructor; cbn; discriminate. Qed.

(** The same sessions, except for what is said of [sid]. *)
Lemma inv_sessions st st' sid : inv st -> windows st' = windows st -> tasks st' = tasks st -> next st' = next st ->
  (forall s, s <> sid -> lookup s (sessions st') = lookup s (sessions st)) ->
  match lookup sid (sessions st') with
  | None => True
  | Some y => exists x, lookup sid (sessions st) = Some x /\ incl (s_windows y) (s_windows x) /\ In (s_current y) (s_windows y) /\ NoDup (s_windows y)
  end -> inv st'.
Proof.
  intros I Ew Et En Ho Hs.
  assert (forall s y, lookup s (sessions st') = Some y -> exists x, lookup s (sessions st) = Some x /\ incl (s_windows y) (s_windows x) /\ In (s_current y) (s_windows y) /\ NoDup (s_windows y)) as K.
  { intros s y E. destruct (Nat.eq_dec s sid) as [->|N]; [now rewrite E in Hs|]. rewrite Ho in E by exact N. destruct (i_session st I s y E) as (_ & H1 & H2). exists y. repeat split; auto. apply incl_refl. }
  constructor; rewrite ?Ew, ?Et, ?En.
  - intros s y E. destruct (K s y E) as (x & Ex & _ & H1 & H2). destruct (i_session st I s x Ex). auto.
  - intros s y h E H. destruct (K s y E) as (x & Ex & Ix & _). exact (i_window st I s x h Ex (Ix h H)).
  - intros s1 s2 y1 y2 h E1 E2 H1 H2. destruct (K s1 y1 E1) as (x1 & Ex1 & I1 & _). destruct (K s2 y2 E2) as (x2 & Ex2 & I2 & _). exact (i_apart st I s1 s2 x1 x2 h Ex1 Ex2 (I1 h H1) (I2 h H2)).
  - exact (i_task st I).
  - intros t s h E. destruct (i_start st I t s h E) as [H1 H2]. split; [exact H1|]. destruct (lookup s (sessions st')) as [y|] eqn:Ey; [|reflexivity]. destruct (K s y Ey) as (x & Ex & _). congruence.
  - intros t k h E Ea. destruct (i_adds st I t k h E Ea) as (H1 & H2 & H3). split; [exact H1|]. split; [exact H2|]. intros s y Ey Hin. destruct (K s y Ey) as (x & Ex & Ix & _). exact (H3 s x Ex (Ix h Hin)).
  - exact (i_adds1 st I).
  - exact (i_start1 st I).
Qed.
(** The same sessions and tasks; windows stay and keep a document. *)
Lemma inv_windows st st' : inv st -> sessions st' = sessions st -> tasks st' = tasks st -> next st' = next st ->
  (forall h w, lookup h (windows st) = Some w -> exists w', lookup h (windows st') = Some w' /\ (w_doc w <> None -> w_doc w' <> None)) -> inv st'.
Proof.
  intros I Es Et En Hw. constructor; rewrite ?Es, ?Et, ?En; try apply I.
  - intros s x h E H. destruct (i_window st I s x h E H) as (L & w & u & Ew & Eu). split; [exact L|]. destruct (Hw h w Ew) as (w' & Ew' & Hd). destruct (w_doc w') as [u'|] eqn:D; [|destruct (Hd ltac:(congruence) eq_refl)]. exists w', u'. auto.
  - intros t k h E Ea. destruct (i_adds st I t k h E Ea) as (H1 & (w & Ew) & H3). split; [exact H1|]. split; [|exact H3]. destruct (Hw h w Ew) as (w' & Ew' & _). eauto.
Qed.
(** Fewer tasks. *)
Lemma inv_tasks st st' : inv st -> sessions st' = sessions st -> windows st' = windows st -> next st' = next st ->
  (forall t k, lookup t (tasks st') = Some k -> lookup t (tasks st) = Some k) -> inv st'.
Proof.
  intros I Es Ew En Ht. constructor; rewrite ?Es, ?Ew, ?En; try apply I.
  - intros t k E. exact (i_task st I t k (Ht t k E)).
  - intros t s h E. exact (i_start st I t s h (Ht _ _ E)).
  - intros t k h E Ea. exact (i_adds st I t k h (Ht _ _ E) Ea).
  - intros t1 t2 k1 k2 h E1 E2. exact (i_adds1 st I t1 t2 k1 k2 h (Ht _ _ E1) (Ht _ _ E2)).
  - intros t1 t2 s h1 h2 E1 E2. exact (i_start1 st I t1 t2 s h1 h2 (Ht _ _ E1) (Ht _ _ E2)).
Qed.
(** One more task, with new numbers. *)
Lemma inv_wait st ws k used : inv st ->
  (forall h, h < next st -> lookup h ws = lookup h (windows st)) ->
  (forall h, adds k = Some h -> next st <= h < next st + used /\ exists w, lookup h ws = Some w) ->
  (forall sid h, k = T_SESSION sid h -> next st <= sid < next st + used) -> inv (fst (wait st ws k used)).
Proof.
  intros I Hw Ha Hs. set (n := next st + used). assert (lookup n (tasks st) = None) as Fr. { destruct (lookup n (tasks st)) eqn:E; [|reflexivity]. pose proof (i_task st I _ _ E). lia. }
  assert (forall t k', lookup t (tasks st ++ [(n, k)]) = Some k' -> (lookup t (tasks st) = Some k' /\ t < next st) \/ (t = n /\ k' = k)) as K.
  { intros t k' E. rewrite lookup_app in E. destruct (lookup t (tasks st)) eqn:Et; [injection E as <-; left; split; [reflexivity|exact (i_task st I _ _ Et)]|]. rewrite lookup_cons in E. cbn [fst snd] in E. destruct (Nat.eqb_spec n t); [|discriminate]. injection E as <-. auto. }
  unfold wait. cbn [fst]. fold n. constructor; cbn [sessions windows tasks next].
  - intros s x E. destruct (i_session st I s x E) as (H1 & H2). split; [lia|exact H2].
  - intros s x h E H. destruct (i_window st I s x h E H) as (H1 & H2). split; [lia|]. now rewrite Hw.
  - exact (i_apart st I).
  - intros t k' E. destruct (K t k' E) as [[_ H]|[-> _]]; lia.
  - intros t s h E. destruct (K t _ E) as [[H _]|[_ H]].
    + destruct (i_start st I t s h H). split; [lia|assumption].
    + specialize (Hs s h (eq_sym H)). split; [lia|]. destruct (lookup s (sessions st)) eqn:Es; [|reflexivity]. destruct (i_session st I _ _ Es). lia.
  - intros t k' h E Ea. destruct (K t _ E) as [[H _]|[_ ->]].
    + destruct (i_adds st I t k' h H Ea) as (H1 & H2 & H3). split; [lia|]. split; [now rewrite Hw|exact H3].
    + destruct (Ha h Ea) as [H1 H2]. split; [lia|]. split; [exact H2|]. intros s x Ex Hin. destruct (i_window st I s x h Ex Hin). lia.
  - intros t1 t2 k1 k2 h E1 E2 A1 A2. destruct (K t1 _ E1) as [[H1 _]|[-> ->]], (K t2 _ E2) as [[H2 _]|[-> ->]].
    + exact (i_adds1 st I t1 t2 k1 k2 h H1 H2 A1 A2).
    + destruct (i_adds st I t1 k1 h H1 A1). destruct (Ha h A2). lia.
    + destruct (i_adds st I t2 k2 h H2 A2). destruct (Ha h A1). lia.
    + reflexivity.
  - intros t1 t2 s h1 h2 E1 E2. destruct (K t1 _ E1) as [[H1 _]|[-> K1]], (K t2 _ E2) as [[H2 _]|[-> K2]].
    + exact (i_start1 st I t1 t2 s h1 h2 H1 H2).
    + destruct (i_start st I t1 s h1 H1). specialize (Hs s h2 (eq_sym K2)). lia.
    + destruct (i_start st I t2 s h2 H2). specialize (Hs s h1 (eq_sym K1)). lia.
    + reflexivity.
Qed.

Lemma inv_call st c : inv st -> inv (fst (call st c)).
Proof.
  intros I. assert (forall sid f, (forall s, lookup sid (sessions st) = Some s -> inv (fst (f s))) -> inv (fst (with_session st sid f))) as WS.
  { intros sid f H. unfold with_session. destruct (lookup sid (sessions st)) eqn:E; [now apply H|exact I]. }
  assert (forall s f, (forall w, lookup (s_current s) (windows st) = Some w -> inv (fst (f w))) -> inv (fst (with_window st s f))) as WW.
  { intros s f H. unfold with_window. destruct (existsb _ _); [|exact I]. destruct (lookup (s_current s) (windows st)) eqn:E; [now apply H|exact I]. }
  assert (forall sid, inv (fst (delete_session st sid))) as DS.
  { intros sid. apply WS. intros s E. cbn [fst]. apply (inv_sessions st _ sid I); try reflexivity; cbn [sessions]; [intros s' N; now apply lookup_remove_other|now rewrite lookup_remove]. }
  assert (forall sid s x, lookup sid (sessions st) = Some s -> incl (s_windows x) (s_windows s) -> In (s_current x) (s_windows x) -> NoDup (s_windows x) -> inv (set_session st sid x)) as SS.
  { intros sid s x E Hi Hc Hn. apply (inv_sessions st _ sid I); try reflexivity; cbn [sessions set_session]; [intros s' N; now apply lookup_put_other|]. rewrite lookup_put. exists s. auto. }
  assert (forall h u, inv (fst (wait st (windows st) (T_LOAD h u) 0))) as WL by (intros; apply inv_wait; try easy).
  destruct c; cbn [call].
  - apply inv_wait; [exact I|intros h Hh; apply lookup_put_other; lia|cbn; intros h [= <-]; split; [lia|rewrite lookup_put; eauto]|intros a b [= <- <-]; lia].
  - apply DS.
  - apply WS. intros; exact I.
  - apply WS. intros x E. cbn [fst]. destruct (i_session st I _ _ E) as (_ & H1 & H2). eapply SS; eauto using incl_refl.
  - apply WS. intros x E. apply WW. intros w Ew. apply WL.
  - apply WS. intros x E. apply WW. intros w Ew. exact I.
  - apply WS. intros x E. apply WW. intros w Ew. destruct (w_doc w); [apply WL|exact I].
  - apply WS. intros; exact I.
  - apply WS. intros x E. destruct (existsb _ _); [|exact I]. destruct (filter _ _) as [|h r] eqn:Ef.
    + specialize (DS s). destruct (delete_session st s); exact DS.
    + cbn [fst]. apply (SS s x); [exact E| | |]; cbn [s_windows s_current].
      * rewrite <- Ef. intros a Ha. now apply filter_In in Ha.
      * now left.
      * rewrite <- Ef. apply NoDup_filter. apply (i_session st I _ _ E).
  - apply WS. intros x E. destruct (existsb _ _) eqn:Eh; [|exact I]. apply has_in in Eh. cbn [fst]. apply (SS s x); [exact E|apply incl_refl|exact Eh|apply (i_session st I _ _ E)].
  - apply WS. intros; exact I.
  - apply WS. intros x E. apply inv_wait; [exact I|intros a Ha; apply lookup_put_other; lia|cbn; intros a [= <-]; split; [lia|rewrite lookup_put; eauto]|discriminate].
  - apply WS. intros x E. apply WW. intros; exact I.
  - apply WS. intros x' E. apply WW. intros w' Ew. cbv zeta. destruct (_ && _); [exact I|]. destruct (_ =? 0)%Z; [exact I|]. cbn [fst]. apply (inv_windows st _ I); try reflexivity. cbn [windows].
    intros a v Ev. destruct (Nat.eq_dec a (s_current x')) as [->|N]; [rewrite lookup_put; eexists; split; [reflexivity|]; cbn; congruence|rewrite lookup_put_other by exact N; eauto].
Qed.

Lemma load_other ws h u a : a <> h -> lookup a (load ws h u) = lookup a ws.
Proof. intros N. unfold load. destruct (lookup h ws); [now apply lookup_put_other|reflexivity]. Qed.
Lemma load_this ws h u w : lookup h ws = Some w -> lookup h (load ws h u) = Some (mkW (Some u) (w_width w) (w_height w)).
Proof. intros E. unfold load. rewrite E. apply lookup_put. Qed.
Lemma load_keeps ws h u a w : lookup a ws = Some w -> exists w', lookup a (load ws h u) = Some w' /\ (w_doc w <> None -> w_doc w' <> None).
Proof.
  intros E. destruct (Nat.eq_dec a h) as [->|N]; [rewrite (load_this ws h u w E); eexists; split; [reflexivity|discriminate]|rewrite load_other by exact N; eauto].
Qed.
Lemma NoDup_snoc {A} (l : list A) x : NoDup l -> ~ In x l -> NoDup (l ++ [x]).
Proof.
  intros H N. induction H as [|y l Hy H IH]; cbn; constructor; [easy|constructor| |].
  - rewrite in_app_iff. intros [K|[<-|[]]]; [easy|apply N; now left].
  - apply IH. intros K. apply N. now right.
Qed.

Lemma inv_step st e : inv st -> inv (fst (step st e)).
Proof.
  intros I. destruct e as [c|t ok]; [now apply inv_call|]. cbn [step]. destruct (lookup t (tasks st)) as [k|] eqn:Et; [|exact I].
  set (st0 := mkState (sessions st) (windows st) (remove t (tasks st)) (next st)).
  assert (forall a k', lookup a (tasks st0) = Some k' -> a <> t /\ lookup a (tasks st) = Some k') as Kt.
  { intros a k' E. cbn [st0 tasks] in E. destruct (Nat.eq_dec a t) as [->|N]; [now rewrite lookup_remove in E|]. rewrite lookup_remove_other in E by exact N. auto. }
  assert (inv st0) as I0 by (apply (inv_tasks st _ I); try reflexivity; intros a k' E; apply (Kt a k' E)).
  unfold resume. destruct ok; [|exact I0].
  (* a window [h] that a task adds is not the one of another task, and is given to session [sid] with others [more] *)
  assert (forall sid h more tm, adds k = Some h -> sid < next st -> (forall x, lookup sid (sessions st) = Some x -> more = s_windows x) -> (lookup sid (sessions st) = None -> more = []) ->
    (forall a b, lookup a (tasks st0) = Some (T_SESSION sid b) -> False) ->
    inv (mkState (put sid (mkS (more ++ [h]) h tm) (sessions st)) (load (windows st) h 0) (remove t (tasks st)) (next st))) as Add.
  { intros sid h more tm Ha Hl Hm Hm0 Hf. destruct (i_adds st I t k h Et Ha) as (Lh & (w & Ew) & Nh).
    assert (forall s x, lookup s (put sid (mkS (more ++ [h]) h tm) (sessions st)) = Some x -> (s = sid /\ x = mkS (more ++ [h]) h tm) \/ (s <> sid /\ lookup s (sessions st) = Some x)) as Ks.
    { intros s x E. destruct (Nat.eq_dec s sid) as [->|N]; [rewrite lookup_put in E; injection E as <-; auto|rewrite lookup_put_other in E by exact N; auto]. }
    assert (forall a, In a more -> exists x, lookup sid (sessions st) = Some x /\ In a (s_windows x)) as Km.
    { intros a Hin. destruct (lookup sid (sessions st)) as [x|] eqn:E; [exists x; split; [reflexivity|now rewrite (Hm x eq_refl) in Hin]|now rewrite (Hm0 eq_refl) in Hin]. }
    assert (forall a w', lookup a (windows st) = Some w' -> w_doc w' <> None \/ a = h -> exists v u, lookup a (load (windows st) h 0) = Some v /\ w_doc v = Some u) as Kw.
    { intros a w' E Hd. destruct (Nat.eq_dec a h) as [->|N]; [rewrite (load_this _ h 0 w' E); do 2 eexists; split; reflexivity|]. rewrite load_other by exact N. destruct (w_doc w') as [u|] eqn:D; [exists w', u; auto|destruct Hd; congruence]. }
    constructor; cbn [sessions windows tasks next].
    - intros s x E. destruct (Ks s x E) as [[-> ->]|[N E']]; [|exact (i_session st I s x E')]. split; [exact Hl|]. cbn [s_current s_windows]. split; [apply in_or_app; right; now left|]. apply NoDup_snoc.
      + destruct (lookup sid (sessions st)) as [x|] eqn:Ex; [rewrite (Hm x eq_refl); apply (i_session st I _ _ Ex)|rewrite (Hm0 eq_refl); constructor].
      + intros Hin. destruct (Km h Hin) as (x & Ex & Hx). exact (Nh sid x Ex Hx).
    - intros s x a E Hin. destruct (Ks s x E) as [[-> ->]|[N E']].
      + cbn [s_windows] in Hin. apply in_app_iff in Hin as [Hin|[<-|[]]]; [|split; [exact Lh|exact (Kw h w Ew (or_intror eq_refl))]].
        destruct (Km a Hin) as (x & Ex & Hx). destruct (i_window st I sid x a Ex Hx) as (La & v & u & Ev & Eu). split; [exact La|]. apply (Kw a v Ev). left. congruence.
      + destruct (i_window st I s x a E' Hin) as (La & v & u & Ev & Eu). split; [exact La|]. apply (Kw a v Ev). left. congruence.
    - intros s1 s2 x1 x2 a E1 E2 H1 H2. destruct (Ks s1 x1 E1) as [[-> ->]|[N1 E1']], (Ks s2 x2 E2) as [[-> ->]|[N2 E2']]; [reflexivity| | |exact (i_apart st I s1 s2 x1 x2 a E1' E2' H1 H2)].
      + cbn [s_windows] in H1. apply in_app_iff in H1 as [H1|[<-|[]]]; [|now destruct (Nh s2 x2 E2')]. destruct (Km a H1) as (x & Ex & Hx). exact (i_apart st I sid s2 x x2 a Ex E2' Hx H2).
      + cbn [s_windows] in H2. apply in_app_iff in H2 as [H2|[<-|[]]]; [|now destruct (Nh s1 x1 E1')]. destruct (Km a H2) as (x & Ex & Hx). exact (i_apart st I s1 sid x1 x a E1' Ex H1 Hx).
    - intros a k' E. exact (i_task st0 I0 a k' E).
    - intros a s b E. destruct (i_start st0 I0 a s b E) as [H1 H2]. split; [exact H1|]. destruct (Nat.eq_dec s sid) as [->|N]; [destruct (Hf a b E)|now rewrite lookup_put_other].
    - intros a k' b E Ea. destruct (i_adds st0 I0 a k' b E Ea) as (H1 & (v & Ev) & H3). cbn [st0 sessions windows] in *. split; [exact H1|]. split; [destruct (load_keeps (windows st) h 0 b v Ev) as (v' & Ev' & _); eauto|].
      intros s x Ex Hin. destruct (Ks s x Ex) as [[-> ->]|[N E']]; [|exact (H3 s x E' Hin)]. cbn [s_windows] in Hin. apply in_app_iff in Hin as [Hin|[<-|[]]].
      + destruct (Km b Hin) as (x & Ex' & Hx). exact (H3 sid x Ex' Hx).
      + destruct (Kt a k' E) as [Na Ea']. exact (Na (i_adds1 st I a t k' k h Ea' Et Ea Ha)).
    - exact (i_adds1 st0 I0).
    - exact (i_start1 st0 I0). }
  destruct k as [sid h|sid h|h u].
  - destruct (i_start st I t sid h Et) as [H1 H2]. apply (Add sid h [] default_timeouts eq_refl H1); [congruence|easy|]. intros a b E. destruct (Kt a _ E) as [Na E']. exact (Na (i_start1 st I a t sid b h E' Et)).
  - cbn [st0 sessions windows tasks next]. destruct (lookup sid (sessions st)) as [x|] eqn:Ex.
    + apply (Add sid h (s_windows x) (s_timeouts x) eq_refl); [apply (i_session st I _ _ Ex)|congruence|congruence|]. intros a b E. destruct (Kt a _ E) as [Na E']. destruct (i_start st I a sid b E'). congruence.
    + apply (inv_windows st0 _ I0); try reflexivity. cbn [windows st0]. intros a w. apply load_keeps.
  - apply (inv_windows st0 _ I0); try reflexivity. cbn [windows st0]. intros a w. apply load_keeps.
Qed.
Lemma inv_run l : forall st, inv st -> inv (fst (run st l)).
Proof.
  induction l as [|e l IH]; intros st I; [exact I|]. cbn [run]. pose proof (inv_step st e I) as I'. destruct (step st e) as [st1 a]. specialize (IH st1 I'). destruct (run st1 l). exact IH.
Qed.
Lemma reachable l : inv (fst (run initial l)).
Proof. apply inv_run, inv_initial. Qed.
