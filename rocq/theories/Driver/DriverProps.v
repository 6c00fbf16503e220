(** C38: a session has a current window. C81: commands act on their session only. C82: opening, closing
    and switching windows. C83: timeouts and sizes are kept. C84: locations. *)
From Coq Require Import List Arith ZArith Bool Lia.
From Verif.Driver Require Import DriverModel DriverProofs.
Import ListNotations.

Definition after (l : list event) : state := fst (run initial l).
(** The answer to a command after a schedule. *)
Definition ask (st : state) (c : command) : answer := snd (call st c).

(** Whatever was done before, a session that exists has windows, its current window is one of them, and
    that window has a document. *)
Theorem C38_current_window : forall l sid h, ask (after l) (GET_HANDLE sid) = ID h ->
  exists hs u w ht, ask (after l) (GET_HANDLES sid) = IDS hs /\ NoDup hs /\ In h hs /\
    ask (after l) (GET_URL sid) = URL u /\ ask (after l) (GET_RECT sid) = RECT 0 0 w ht.
Proof.
  intros l sid h. pose proof (reachable l) as I. fold (after l) in I. unfold ask. cbn [call]. unfold with_session. destruct (lookup sid (sessions (after l))) as [s|] eqn:E; [|discriminate]. cbn [snd]. intros [= <-].
  destruct (i_session _ I sid s E) as (_ & H1 & H2). destruct (i_window _ I sid s _ E H1) as (_ & w & u & Ew & Eu).
  exists (s_windows s), u, (w_width w), (w_height w). unfold with_window. apply has_in in H1 as H1'. rewrite H1', Ew. cbn [snd]. rewrite Eu. auto.
Qed.
Print Assumptions C38_current_window.
(** And no command crashes, but for a window that is made 0 high. *)
Theorem C38_no_crash_partial : forall l c, (forall s x y w h, c = SET_RECT s x y w h -> h <> Some 0%Z) -> Forall (fun e => forall s x y w h, e = CALL (SET_RECT s x y w h) -> h <> Some 0%Z) l -> ask (after l) c <> CRASH.
Proof.
  intros l c Hc Hl. pose proof (reachable l) as I. fold (after l) in I.
  assert (forall h w, lookup h (windows (after l)) = Some w -> w_height w <> 0%Z) as Hh.
  { unfold after. clear - Hl. cut (forall st, (forall h w, lookup h (windows st) = Some w -> w_height w <> 0%Z) -> forall h w, lookup h (windows (fst (run st l))) = Some w -> w_height w <> 0%Z); [intros K; apply K; discriminate|].
    induction Hl as [|e l He Hl IH]; intros st H; [exact H|]. cbn [run]. specialize (IH (fst (step st e))). destruct (step st e) as [st1 a] eqn:Es. cbn [fst] in IH. destruct (run st1 l). apply IH. clear IH. replace st1 with (fst (step st e)) by now rewrite Es. clear Es.
    assert (forall a v, w_height v <> 0%Z -> forall h w, lookup h (put a v (windows st)) = Some w -> w_height w <> 0%Z) as Hp.
    { intros b v Hv h w E. destruct (Nat.eq_dec h b) as [->|N]; [rewrite lookup_put in E; congruence|rewrite lookup_put_other in E by exact N; eauto]. }
    assert (forall b u h w, lookup h (load (windows st) b u) = Some w -> w_height w <> 0%Z) as Hd.
    { intros b u h w. unfold load. destruct (lookup b (windows st)) as [v|] eqn:Ev; [apply Hp; cbn; eauto|apply H]. }
    set (Q := fun st' : state => forall h w, lookup h (windows st') = Some w -> w_height w <> 0%Z).
    destruct e as [c|t ok]; cbn [step].
    - assert (forall s1 f, (forall x, Q (fst (f x))) -> Q (fst (with_session st s1 f))) as WS by (intros s1 f K; unfold with_session; destruct (lookup s1 _); [apply K|exact H]).
      assert (forall x f, (forall w, lookup (s_current x) (windows st) = Some w -> Q (fst (f w))) -> Q (fst (with_window st x f))) as WW by (intros x f K; unfold with_window; destruct (existsb _ _); [|exact H]; destruct (lookup _ (windows st)) eqn:E; [now apply K|exact H]).
      change (Q (fst (call st c))). destruct c; cbn [call]; unfold delete_session; try (apply WS; intros x0); try (apply WW; intros w0 Ew0); try exact H; try (intros a0 v0; apply Hp; cbn; lia).
      + destruct (w_doc w0); exact H.
      + destruct (existsb _ _); [|exact H]. destruct (filter _ _); [|exact H]. unfold with_session. destruct (lookup s0 (sessions st)); exact H.
      + destruct (existsb _ _); exact H.
      + cbv zeta. destruct (_ && _); [exact H|]. destruct (Z.eqb_spec (or h (w_height w0)) 0); [exact H|]. cbn [fst]. intros a0 v0. cbn [windows]. apply Hp. cbn. assumption.
    - destruct (lookup t (tasks st)) as [k|]; [|exact H]. unfold resume. destruct ok; [|exact H]. destruct k; [| |]; cbn [fst windows sessions]; try (apply Hd). destruct (lookup sid (sessions st)); cbn [fst windows]; apply Hd. }
  destruct c; unfold ask; cbn [call]; unfold with_session, delete_session, with_session; try (destruct (lookup s (sessions (after l))) as [x0|] eqn:E); try discriminate; unfold with_window, wait; try (destruct (existsb (Nat.eqb (s_current x0)) (s_windows x0)) eqn:Ex; [|discriminate]); try (destruct (lookup (s_current x0) (windows (after l))) as [w0|] eqn:Ew; [|discriminate]); try discriminate.
  - apply has_in in Ex. destruct (i_window _ I s x0 _ E Ex) as (_ & w1 & u & Ew1 & Eu). rewrite Ew in Ew1. injection Ew1 as <-. cbn. rewrite Eu. discriminate.
  - apply has_in in Ex. destruct (i_window _ I s x0 _ E Ex) as (_ & w1 & u & Ew1 & Eu). rewrite Ew in Ew1. injection Ew1 as <-. rewrite Eu. discriminate.
  - destruct (filter _ _); cbn; discriminate.
  - destruct (existsb _ _); discriminate.
  - cbv zeta. destruct (_ && _); [discriminate|]. destruct (Z.eqb_spec (or h (w_height w0)) 0) as [Z0|]; [|discriminate]. destruct h as [z|]; cbn in Z0; [subst z; destruct (Hc s x y w (Some 0%Z) eq_refl eq_refl)|]. destruct (Hh _ _ Ew Z0).
Qed.
Print Assumptions C38_no_crash_partial.
Definition opened : list event := [CALL NEW_SESSION; FETCHED 2 true].
Example C38_sample : ask (after opened) (GET_HANDLE 0) = ID 1 /\ ask (after opened) (GET_HANDLES 0) = IDS [1] /\ ask (after opened) (GET_URL 0) = URL 0.
Proof. repeat split. Qed.
(** Setting the height of a window to 0 divides by it. *)
Theorem C38_no_crash_refuted : ask (after opened) (SET_RECT 0 None None None (Some 0%Z)) = CRASH.
Proof. reflexivity. Qed.
Print Assumptions C38_no_crash_refuted.

(** ** Isolation *)

(** The session that a command is for. *)
Definition target (c : command) : option nat :=
  match c with
  | NEW_SESSION => None
  | DELETE_SESSION s | GET_TIMEOUTS s | SET_TIMEOUTS s _ _ _ | NAVIGATE s _ | GET_URL s | REFRESH s | GET_HANDLE s | CLOSE s | SWITCH s _ | GET_HANDLES s | NEW_WINDOW s | GET_RECT s | SET_RECT s _ _ _ _ => Some s
  end.
(** Commands that only ask. *)
Definition asks (c : command) : bool := match c with GET_TIMEOUTS _ | GET_URL _ | GET_HANDLE _ | GET_HANDLES _ | GET_RECT _ => true | _ => false end.
(** An event has to do with a session: a command for it, or the end of a fetch for it or for one of its
    windows. *)
Definition concerns (st : state) (e : event) (sid : nat) : Prop :=
  match e with
  | CALL c => target c = Some sid
  | FETCHED t _ =>
    match lookup t (tasks st) with
    | Some (T_SESSION s _) | Some (T_WINDOW s _) => s = sid
    | Some (T_LOAD h _) => exists s, lookup sid (sessions st) = Some s /\ In h (s_windows s)
    | None => False
    end
  end.
Definition alike (st st' : state) (sid : nat) : Prop :=
  lookup sid (sessions st') = lookup sid (sessions st) /\
  forall s h, lookup sid (sessions st) = Some s -> In h (s_windows s) -> lookup h (windows st') = lookup h (windows st).
Lemma alike_refl st sid : alike st st sid.
Proof. split; auto. Qed.
Lemma step_alike st e sid : inv st -> ~ concerns st e sid -> alike st (fst (step st e)) sid.
Proof.
  intros I N. assert (forall h, next st <= h -> forall s, lookup sid (sessions st) = Some s -> ~ In h (s_windows s)) as Fr by (intros h Hh s Es Hin; destruct (i_window st I sid s h Es Hin); lia).
  destruct e as [c|t ok]; cbn [step concerns] in *.
  - assert (forall s f, (forall x, lookup s (sessions st) = Some x -> alike st (fst (f x)) sid) -> alike st (fst (with_session st s f)) sid) as WS.
    { intros s f H. unfold with_session. destruct (lookup s (sessions st)) eqn:E; [now apply H|apply alike_refl]. }
    assert (forall x f, (In (s_current x) (s_windows x) -> forall w, alike st (fst (f w)) sid) -> alike st (fst (with_window st x f)) sid) as WW.
    { intros x f H. unfold with_window. destruct (existsb _ _) eqn:Eh; [|apply alike_refl]. apply has_in in Eh. destruct (lookup (s_current x) (windows st)); [now apply H|apply alike_refl]. }
    assert (forall s, s <> sid -> alike st (fst (delete_session st s)) sid) as DS.
    { intros s Hs. apply WS. intros x E. split; cbn [fst sessions windows]; [apply lookup_remove_other; congruence|auto]. }
    assert (forall s x, s <> sid -> alike st (set_session st s x) sid) as SS by (intros s x Hs; split; cbn; [apply lookup_put_other; congruence|auto]).
    assert (forall h v t0 used, next st <= h -> alike st (fst (wait st (put h v (windows st)) t0 used)) sid) as WP.
    { intros h v t0 used Hh. split; [reflexivity|]. cbn [fst wait windows]. intros s a Es Hin. apply lookup_put_other. intros ->. exact (Fr h Hh s Es Hin). }
    destruct c; cbn [target call] in *; try (assert (s <> sid) as Ns by congruence); try (now apply DS); try (apply WS; intros x0 E0); try (apply WW; intros Eh w0); try apply alike_refl; try (apply WP; lia); cbn [fst]; try (now apply SS).
    + split; auto.
    + destruct (w_doc w0); split; auto.
    + destruct (existsb _ _); [|apply alike_refl]. destruct (filter _ _); [specialize (DS s Ns); destruct (delete_session st s); exact DS|now apply SS].
    + destruct (existsb _ _); [now apply SS|apply alike_refl].
    + cbv zeta. destruct (_ && _); [apply alike_refl|]. destruct (_ =? 0)%Z; [apply alike_refl|]. split; [reflexivity|]. cbn [fst windows]. intros s1 a E1 Hin. apply lookup_put_other. intros ->. exact (Ns (i_apart st I s sid x0 s1 _ E0 E1 Eh Hin)).
  - destruct (lookup t (tasks st)) as [k|] eqn:Et; [|apply alike_refl]. unfold resume. destruct ok; [|split; auto]. destruct k as [s h|s h|h u].
    + destruct (i_adds st I t _ h Et eq_refl) as (_ & _ & Nh). split; cbn [fst sessions windows]; [apply lookup_put_other; congruence|]. intros x a Ex Hin. apply load_other. intros ->. exact (Nh sid x Ex Hin).
    + destruct (i_adds st I t _ h Et eq_refl) as (_ & _ & Nh). cbn [sessions windows tasks next]. assert (forall x a, lookup sid (sessions st) = Some x -> In a (s_windows x) -> lookup a (load (windows st) h 0) = lookup a (windows st)) as Hl by (intros x a Ex Hin; apply load_other; intros ->; exact (Nh sid x Ex Hin)).
      destruct (lookup s (sessions st)); split; cbn [fst sessions windows]; auto. apply lookup_put_other. congruence.
    + split; [reflexivity|]. cbn [fst windows]. intros x a Ex Hin. apply load_other. intros ->. apply N. eauto.
Qed.
Lemma alike_asks st st' sid c : alike st st' sid -> target c = Some sid -> asks c = true -> (forall s, lookup sid (sessions st) = Some s -> In (s_current s) (s_windows s)) -> ask st' c = ask st c.
Proof.
  intros [E Ew] Ht Ha Hc. unfold ask. destruct c; try discriminate; injection Ht as ->; cbn [call]; unfold with_session; rewrite E; (destruct (lookup sid (sessions st)) as [s|] eqn:Es; [|reflexivity]); try reflexivity; unfold with_window; rewrite (Ew s _ eq_refl (Hc s eq_refl)); destruct (existsb _ _); try reflexivity; destruct (lookup (s_current s) (windows st)); reflexivity.
Qed.
(** What has nothing to do with a session does not change what can be read from it. *)
Theorem C81_isolation : forall l e sid c, ~ concerns (after l) e sid -> target c = Some sid -> asks c = true ->
  ask (fst (step (after l) e)) c = ask (after l) c.
Proof.
  intros l e sid c N Ht Ha. pose proof (reachable l) as I. apply (alike_asks _ _ sid); [now apply step_alike|exact Ht|exact Ha|]. intros s E. apply (i_session _ I sid s E).
Qed.
Print Assumptions C81_isolation.
Definition two_sessions : list event := opened ++ [CALL NEW_SESSION; FETCHED 5 true].
Example C81_sample : ~ concerns (after two_sessions) (CALL (CLOSE 0)) 3 /\ ask (fst (step (after two_sessions) (CALL (CLOSE 0)))) (GET_HANDLES 3) = IDS [4] /\ ask (fst (step (after two_sessions) (CALL (CLOSE 0)))) (GET_HANDLES 0) = ERROR.
Proof. split; [cbn; congruence|]. split; reflexivity. Qed.

(** ** Sessions that ended *)

(** The session ended and is not being started. *)
Definition gone (st : state) (sid : nat) : Prop :=
  lookup sid (sessions st) = None /\ sid < next st /\ forall t h, lookup t (tasks st) <> Some (T_SESSION sid h).
Lemma gone_error st sid c : gone st sid -> target c = Some sid -> call st c = (st, ERROR).
Proof. intros (E & _) Ht. destruct c; try discriminate; injection Ht as ->; cbn [call]; unfold delete_session, with_session; now rewrite E. Qed.
Lemma gone_step st sid e : gone st sid -> gone (fst (step st e)) sid.
Proof.
  intros G. pose proof G as (E & L & T).
  assert (forall s x, lookup s (sessions st) = Some x -> forall y, gone (set_session st s y) sid) as Gs.
  { intros s x Es y. split; [|split; [exact L|exact T]]. cbn. rewrite lookup_put_other; [exact E|congruence]. }
  assert (forall ws k used, (forall h, k <> T_SESSION sid h) -> gone (fst (wait st ws k used)) sid) as Gw.
  { intros ws k used Hk. split; [exact E|]. split; [cbn; lia|]. cbn. intros t h Et. rewrite lookup_app in Et. destruct (lookup t (tasks st)) eqn:E0; [injection Et as ->; exact (T t h E0)|]. rewrite lookup_cons in Et. cbn [fst snd] in Et. destruct (_ =? t); [injection Et as Et; exact (Hk h Et)|discriminate]. }
  assert (forall s, gone (mkState (remove s (sessions st)) (windows st) (tasks st) (next st)) sid) as Gd.
  { intros s. split; [|split; [exact L|exact T]]. cbn. destruct (Nat.eq_dec sid s) as [->|N]; [apply lookup_remove|now rewrite lookup_remove_other]. }
  destruct e as [c|t ok]; cbn [step].
  - assert (forall s f, (forall x, lookup s (sessions st) = Some x -> gone (fst (f x)) sid) -> gone (fst (with_session st s f)) sid) as WS by (intros s f HH; unfold with_session; destruct (lookup s (sessions st)) eqn:E0; [now apply HH|exact G]).
    assert (forall x f, (forall v, gone (fst (f v)) sid) -> gone (fst (with_window st x f)) sid) as WW by (intros x f HH; unfold with_window; destruct (existsb (Nat.eqb (s_current x)) (s_windows x)); [|exact G]; destruct (lookup (s_current x) (windows st)); [apply HH|exact G]).
    destruct c; cbn [call]; unfold delete_session; try (apply WS; intros x0 E0); try (apply WW; intros v0); try exact G; try (apply Gw; discriminate); try (apply Gd).
    + apply Gw. intros h C. injection C as C _. lia.
    + exact (Gs s x0 E0 _).
    + destruct (w_doc v0); [apply Gw; discriminate|exact G].
    + destruct (existsb (Nat.eqb (s_current x0)) (s_windows x0)); [|exact G]. destruct (filter _ _); [unfold with_session; rewrite E0; apply Gd|exact (Gs s x0 E0 _)].
    + destruct (existsb (Nat.eqb h) (s_windows x0)); [exact (Gs s x0 E0 _)|exact G].
    + cbv zeta. destruct (_ && _); [exact G|]. destruct (_ =? 0)%Z; exact G.
  - destruct (lookup t (tasks st)) as [k|] eqn:Et; [|exact G].
    assert (forall ss ws, lookup sid ss = None -> gone (mkState ss ws (remove t (tasks st)) (next st)) sid) as Gr.
    { intros ss ws Hs. split; [exact Hs|]. split; [exact L|]. cbn. intros t1 h1 E1. destruct (Nat.eq_dec t1 t) as [->|N]; [rewrite lookup_remove in E1; discriminate|rewrite lookup_remove_other in E1 by exact N; exact (T t1 h1 E1)]. }
    unfold resume. destruct ok; [|now apply Gr]. destruct k as [s h|s h|h u]; cbn [sessions windows tasks next fst].
    + apply Gr. rewrite lookup_put_other; [exact E|]. intros ->. exact (T t h Et).
    + destruct (lookup s (sessions st)) as [x|] eqn:E0; cbn [fst]; apply Gr; [|exact E]. rewrite lookup_put_other; [exact E|congruence].
    + now apply Gr.
Qed.
(** Once a session was deleted, or its last window closed, every command on it fails for ever, whatever
    else happens, and changes nothing. *)
Theorem C38_deleted : forall l d m c sid, (d = DELETE_SESSION sid /\ ask (after l) d = DONE \/ d = CLOSE sid /\ ask (after l) d = IDS []) -> target c = Some sid ->
  let st := fst (run (fst (step (after l) (CALL d))) m) in step st (CALL c) = (st, ERROR).
Proof.
  intros l d m c sid Hd Ht st. cbn [step]. apply (gone_error _ sid); [|exact Ht]. unfold st. clear st Ht. pose proof (reachable l) as I. fold (after l) in I.
  assert (forall s, lookup sid (sessions (after l)) = Some s -> gone (mkState (remove sid (sessions (after l))) (windows (after l)) (tasks (after l)) (next (after l))) sid) as K.
  { intros s E. split; [apply lookup_remove|]. split; [exact (proj1 (i_session _ I sid s E))|]. cbn. intros t h Et. destruct (i_start _ I t sid h Et). congruence. }
  assert (gone (fst (step (after l) (CALL d))) sid) as G.
  { destruct Hd as [[-> Hd]|[-> Hd]]; unfold ask in Hd; cbn [step call] in *; unfold delete_session, with_session in *; (destruct (lookup sid (sessions (after l))) as [s|] eqn:E; [|discriminate]).
    - exact (K s eq_refl).
    - destruct (existsb (Nat.eqb (s_current s)) (s_windows s)); [|discriminate]. destruct (filter _ _); [exact (K s eq_refl)|discriminate]. }
  revert G. generalize (fst (step (after l) (CALL d))). induction m as [|e m IH]; intros st G; [exact G|]. cbn [run]. pose proof (gone_step st sid e G) as G1. specialize (IH (fst (step st e)) G1). destruct (step st e) as [st1 a]. cbn [fst] in *. destruct (run st1 m). exact IH.
Qed.
Print Assumptions C38_deleted.
Example C38_deleted_sample : ask (after opened) (DELETE_SESSION 0) = DONE /\ ask (after opened) (CLOSE 0) = IDS [] /\ target (NAVIGATE 0 1) = Some 0.
Proof. repeat split. Qed.

(** ** Windows *)

Lemma get_handles st sid hs : ask st (GET_HANDLES sid) = IDS hs -> exists s, lookup sid (sessions st) = Some s /\ s_windows s = hs.
Proof. unfold ask. cbn [call]. unfold with_session. destruct (lookup sid (sessions st)) as [s|]; [|discriminate]. intros [= <-]. eauto. Qed.
Lemma get_handle st sid h : ask st (GET_HANDLE sid) = ID h -> exists s, lookup sid (sessions st) = Some s /\ s_current s = h.
Proof. unfold ask. cbn [call]. unfold with_session. destruct (lookup sid (sessions st)) as [s|]; [|discriminate]. intros [= <-]. eauto. Qed.
Lemma asks_set st sid x : ask (set_session st sid x) (GET_HANDLES sid) = IDS (s_windows x) /\ ask (set_session st sid x) (GET_HANDLE sid) = ID (s_current x) /\ ask (set_session st sid x) (GET_TIMEOUTS sid) = TIMEOUTS (s_timeouts x).
Proof. unfold ask. cbn [call]. unfold with_session. cbn [sessions set_session]. now rewrite lookup_put. Qed.

(** Switching works exactly for the windows of the session, and the window is then the current one. *)
Theorem C82_switch : forall l sid hs h, ask (after l) (GET_HANDLES sid) = IDS hs ->
  let st := fst (step (after l) (CALL (SWITCH sid h))) in
  if existsb (Nat.eqb h) hs then ask (after l) (SWITCH sid h) = DONE /\ ask st (GET_HANDLE sid) = ID h /\ ask st (GET_HANDLES sid) = IDS hs
  else ask (after l) (SWITCH sid h) = ERROR /\ st = after l.
Proof.
  intros l sid hs h H st. destruct (get_handles _ _ _ H) as (s & E & <-). assert (call (after l) (SWITCH sid h) = if existsb (Nat.eqb h) (s_windows s) then (set_session (after l) sid (mkS (s_windows s) h (s_timeouts s)), DONE) else (after l, ERROR)) as Ec by (cbn [call]; unfold with_session; now rewrite E).
  unfold st. cbn [step]. unfold ask at 1 4. rewrite Ec. destruct (existsb (Nat.eqb h) (s_windows s)); cbn [fst snd]; [|auto].
  destruct (asks_set (after l) sid (mkS (s_windows s) h (s_timeouts s))) as (H1 & H2 & _). auto.
Qed.
Print Assumptions C82_switch.

(** Closing takes away the current window and answers with the others; with the last one the session ends. *)
Theorem C82_close : forall l sid hs h, ask (after l) (GET_HANDLES sid) = IDS hs -> ask (after l) (GET_HANDLE sid) = ID h ->
  let st := fst (step (after l) (CALL (CLOSE sid))) in
  exists rest, ask (after l) (CLOSE sid) = IDS rest /\ (forall x, In x rest <-> In x hs /\ x <> h) /\
  match rest with
  | [] => ask st (GET_HANDLES sid) = ERROR
  | _ :: _ => ask st (GET_HANDLES sid) = IDS rest /\ exists h', ask st (GET_HANDLE sid) = ID h' /\ In h' rest
  end.
Proof.
  intros l sid hs h H Hh st. pose proof (reachable l) as I. fold (after l) in I. destruct (get_handles _ _ _ H) as (s & E & <-). destruct (get_handle _ _ _ Hh) as (s' & E' & <-). rewrite E in E'. injection E' as <-.
  destruct (i_session _ I sid s E) as (_ & Hc & _). apply has_in in Hc.
  assert (call (after l) (CLOSE sid) = match filter (fun h => negb (h =? s_current s)) (s_windows s) with [] => (mkState (remove sid (sessions (after l))) (windows (after l)) (tasks (after l)) (next (after l)), IDS []) | a :: r => (set_session (after l) sid (mkS (a :: r) a (s_timeouts s)), IDS (a :: r)) end) as Ec.
  { cbn [call]. unfold delete_session, with_session. rewrite E, Hc. destruct (filter _ _); reflexivity. }
  set (rest := filter (fun h => negb (h =? s_current s)) (s_windows s)) in *.
  assert (forall x, In x rest <-> In x (s_windows s) /\ x <> s_current s) as Hr by (intros x; unfold rest; rewrite filter_In; destruct (Nat.eqb_spec x (s_current s)); cbn; intuition congruence).
  exists rest. unfold st, ask at 1. cbn [step]. rewrite Ec. destruct rest as [|a r] eqn:Er; cbn [fst snd]; (split; [reflexivity|]); (split; [exact Hr|]).
  - unfold ask. cbn [call]. unfold with_session. cbn [sessions]. now rewrite lookup_remove.
  - destruct (asks_set (after l) sid (mkS (a :: r) a (s_timeouts s))) as (H1 & H2 & _). cbn [s_windows s_current] in *. split; [exact H1|]. exists a. split; [exact H2|now left].
Qed.
Print Assumptions C82_close.

(** A new window is the last and the current one, if its session is still there when it is loaded. *)
Theorem C82_new_window_partial : forall l sid hs t, ask (after l) (GET_HANDLES sid) = IDS hs -> (exists h, lookup t (tasks (after l)) = Some (T_WINDOW sid h)) ->
  exists h, snd (step (after l) (FETCHED t true)) = ID h /\ ~ In h hs /\
  let st := fst (step (after l) (FETCHED t true)) in
  ask st (GET_HANDLES sid) = IDS (hs ++ [h]) /\ ask st (GET_HANDLE sid) = ID h /\ ask st (GET_URL sid) = URL 0.
Proof.
  intros l sid hs t H (h & Et). pose proof (reachable l) as I. fold (after l) in I. destruct (get_handles _ _ _ H) as (s & E & <-). destruct (i_adds _ I t _ h Et eq_refl) as (_ & (w & Ew) & Nh).
  exists h. cbn [step]. rewrite Et. unfold resume. cbn [sessions windows tasks next]. rewrite E. cbn [fst snd]. split; [reflexivity|]. split; [exact (Nh sid s E)|]. cbv zeta. unfold ask. cbn [call]. unfold with_session. cbn [sessions]. rewrite lookup_put. cbn [snd s_windows s_current].
  split; [reflexivity|]. split; [reflexivity|]. unfold with_window. cbn [s_current s_windows windows]. assert (existsb (Nat.eqb h) (s_windows s ++ [h]) = true) as -> by (apply has_in, in_or_app; right; now left). rewrite (load_this _ h 0 w Ew). reflexivity.
Qed.
Print Assumptions C82_new_window_partial.
Example C82_sample : let st := opened ++ [CALL (NEW_WINDOW 0)] in lookup 4 (tasks (after st)) = Some (T_WINDOW 0 3) /\ ask (after (st ++ [FETCHED 4 true])) (GET_HANDLES 0) = IDS [1; 3] /\
  ask (after (st ++ [FETCHED 4 true; CALL (CLOSE 0)])) (GET_HANDLE 0) = ID 1.
Proof. repeat split. Qed.
(** When the last window is closed while a new one is loaded, the client gets a handle that cannot be
    used. *)
Theorem C82_new_window_refuted : let l := opened ++ [CALL (NEW_WINDOW 0); CALL (CLOSE 0); FETCHED 4 true] in
  snd (run initial l) = [WAITING 2; ID 0; WAITING 4; IDS []; ID 3] /\ ask (after l) (SWITCH 0 3) = ERROR.
Proof. split; reflexivity. Qed.
Print Assumptions C82_new_window_refuted.

(** ** What was set is kept *)

Definition sets_timeouts (e : event) (sid : nat) : Prop := exists a b c, e = CALL (SET_TIMEOUTS sid a b c).
(** Timeouts are those that were set last, with the default for what was left out. *)
Theorem C83_timeouts : forall l a b c m sid, ask (after l) (SET_TIMEOUTS sid a b c) = DONE -> Forall (fun e => ~ sets_timeouts e sid) m ->
  let st := fst (run (fst (step (after l) (CALL (SET_TIMEOUTS sid a b c)))) m) in
  ask st (GET_TIMEOUTS sid) = ERROR \/ ask st (GET_TIMEOUTS sid) = TIMEOUTS (mkT (or a 30000) (or b 300000) (or c 0)).
Proof.
  intros l a b c m sid H Hm. pose proof (inv_step _ (CALL (SET_TIMEOUTS sid a b c)) (reachable l)) as I. fold (after l) in I. set (tm := mkT (or a 30000) (or b 300000) (or c 0)). set (st0 := fst (step (after l) (CALL (SET_TIMEOUTS sid a b c)))) in *.
  assert ((forall s, lookup sid (sessions st0) = Some s -> s_timeouts s = tm) /\ sid < next st0) as [K L].
  { unfold ask in H. cbn [call] in H. unfold st0. cbn [step call]. unfold with_session in *. destruct (lookup sid (sessions (after l))) as [s|] eqn:E; [|discriminate]. cbn [fst sessions set_session next]. rewrite lookup_put. split; [intros s' [= <-]; reflexivity|exact (proj1 (i_session _ (reachable l) sid s E))]. }
  assert (forall t h, lookup t (tasks st0) = Some (T_SESSION sid h) -> False) as P.
  { intros t h E. destruct (i_start _ I t sid h E) as [_ N]. unfold ask in H. cbn [call] in H. unfold st0 in N. cbn [step call] in N. unfold with_session in *. destruct (lookup sid (sessions (after l))) as [s|]; [|discriminate]. cbn [fst sessions set_session] in N. rewrite lookup_put in N. discriminate. }
  clearbody st0. clear H. cbv zeta. revert st0 I K L P. induction Hm as [|e m He Hm IH]; intros st0 I K L P.
  - cbn [run fst]. unfold ask. cbn [call]. unfold with_session. destruct (lookup sid (sessions st0)) as [s|] eqn:E; [|now left]. right. cbn [snd]. f_equal. now apply K.
  - cbn [run]. pose proof (inv_step st0 e I) as I1. specialize (IH (fst (step st0 e)) I1). destruct (step st0 e) as [st1 an] eqn:Es. cbn [fst] in IH. destruct (run st1 m) as [st2 ans]. cbn [fst] in *.
    assert (st1 = fst (step st0 e)) as -> by now rewrite Es. clear Es.
    assert (forall X : list (nat * session), (forall s, lookup sid X = Some s -> exists s', lookup sid (sessions st0) = Some s' /\ s_timeouts s = s_timeouts s') -> forall s, lookup sid X = Some s -> s_timeouts s = tm) as Tr by (intros X HX s E; destruct (HX s E) as (s' & E' & ->); now apply K).
    assert (forall s x, (s <> sid \/ exists y, lookup sid (sessions st0) = Some y /\ s_timeouts x = s_timeouts y) -> forall z, lookup sid (put s x (sessions st0)) = Some z -> s_timeouts z = tm) as Pu.
    { intros s x Hs z E. destruct (Nat.eq_dec sid s) as [->|N].
      - rewrite lookup_put in E. injection E as <-. destruct Hs as [Hs|(y & Ey & ->)]; [congruence|now apply K].
      - rewrite lookup_put_other in E by exact N. now apply K. }
    set (Q := fun st' : state => (forall s, lookup sid (sessions st') = Some s -> s_timeouts s = tm) /\ sid < next st' /\ forall t h, lookup t (tasks st') = Some (T_SESSION sid h) -> False).
    assert (Q (fst (step st0 e))) as (K1 & L1 & P1); [|now apply IH]. clear IH. assert (Q st0) as Q0 by (repeat split; auto).
    assert (forall s x, (s <> sid \/ exists y, lookup sid (sessions st0) = Some y /\ s_timeouts x = s_timeouts y) -> Q (set_session st0 s x)) as Qs by (intros s x Hs; repeat split; cbn; [now apply Pu|exact L|exact P]).
    assert (forall ws k used, (forall h, k <> T_SESSION sid h) -> Q (fst (wait st0 ws k used))) as Qw.
    { intros ws k used Hk. repeat split; cbn; [exact K|lia|]. intros t h E. rewrite lookup_app in E. destruct (lookup t (tasks st0)) eqn:Et; [injection E as ->; exact (P t h Et)|]. rewrite lookup_cons in E. cbn [fst snd] in E. destruct (_ =? t); [injection E as E; exact (Hk h E)|discriminate]. }
    assert (forall s, Q (mkState (remove s (sessions st0)) (windows st0) (tasks st0) (next st0))) as Qd.
    { intros s. repeat split; cbn; [|exact L|exact P]. intros z E. destruct (Nat.eq_dec sid s) as [->|N]; [rewrite lookup_remove in E; discriminate|rewrite lookup_remove_other in E by exact N; now apply K]. }
    destruct e as [cm|t ok]; cbn [step].
    + assert (forall s f, (forall x, lookup s (sessions st0) = Some x -> Q (fst (f x))) -> Q (fst (with_session st0 s f))) as WS by (intros s f HH; unfold with_session; destruct (lookup s (sessions st0)) eqn:E; [now apply HH|exact Q0]).
      assert (forall x f, (forall w, Q (fst (f w))) -> Q (fst (with_window st0 x f))) as WW by (intros x f HH; unfold with_window; destruct (existsb _ _); [|exact Q0]; destruct (lookup (s_current x) (windows st0)); [apply HH|exact Q0]).
      assert (forall s x y, lookup s (sessions st0) = Some x -> s_timeouts y = s_timeouts x -> Q (set_session st0 s y)) as Qk. { intros s x y E Et. apply Qs. destruct (Nat.eq_dec s sid) as [->|N]; [right; exists x; auto|now left]. }
      destruct cm; cbn [call]; unfold delete_session; try (apply WS; intros x0 E0); try (apply WW; intros w0); try exact Q0; try (apply Qw; discriminate); try (apply Qd).
      * apply Qw. intros hh C. injection C as C _. lia.
      * cbn [fst]. apply Qs. left. intros ->. apply He. unfold sets_timeouts. eauto.
      * destruct (w_doc w0); [apply Qw; discriminate|exact Q0].
      * destruct (existsb _ _); [|exact Q0]. destruct (filter _ _); [unfold with_session; rewrite E0; apply Qd|now apply (Qk s x0 _ E0)].
      * destruct (existsb _ _); [now apply (Qk s x0 _ E0)|exact Q0].
      * cbv zeta. destruct (_ && _); [exact Q0|]. destruct (_ =? 0)%Z; exact Q0.
    + destruct (lookup t (tasks st0)) as [k|] eqn:Et; [|exact Q0].
      assert (forall t1 h1, lookup t1 (remove t (tasks st0)) = Some (T_SESSION sid h1) -> False) as P'. { intros t1 h1 E. destruct (Nat.eq_dec t1 t) as [->|N]; [rewrite lookup_remove in E; discriminate|rewrite lookup_remove_other in E by exact N; exact (P t1 h1 E)]. }
      unfold resume. destruct ok; [|repeat split; auto]. destruct k as [s h|s h|h u]; cbn [sessions windows tasks next].
      * repeat split; cbn; [|exact L|exact P']. apply Pu. left. intros ->. exact (P t h Et).
      * destruct (lookup s (sessions st0)) as [x|] eqn:E; repeat split; cbn; auto. apply Pu. destruct (Nat.eq_dec s sid) as [->|N]; [right; exists x; auto|now left].
      * repeat split; auto.
Qed.
Print Assumptions C83_timeouts.
Example C83_sample : ask (after (opened ++ [CALL (SET_TIMEOUTS 0 (Some 5%Z) None None); CALL (NEW_WINDOW 0); FETCHED 4 true])) (GET_TIMEOUTS 0) = TIMEOUTS (mkT 5 300000 0).
Proof. reflexivity. Qed.
(** The size of a window that was set is read back, its position is not. *)
Theorem C83_rect_partial : forall l sid x y w h a b c d, ask (after l) (SET_RECT sid x y w h) = RECT a b c d ->
  ask (fst (step (after l) (CALL (SET_RECT sid x y w h)))) (GET_RECT sid) = RECT 0 0 c d /\ (forall z, w = Some z -> c = z) /\ (forall z, h = Some z -> d = z) /\ (forall z, x = Some z -> a = z) /\ (forall z, y = Some z -> b = z).
Proof.
  intros l sid x y w h a b c d. cbn [step].
  assert (forall st, sessions st = sessions (after l) -> ask st (GET_RECT sid) = match lookup sid (sessions (after l)) with Some s => if existsb (Nat.eqb (s_current s)) (s_windows s) then match lookup (s_current s) (windows st) with Some v => RECT 0 0 (w_width v) (w_height v) | None => ERROR end else ERROR | None => ERROR end) as G.
  { intros st Es. unfold ask. cbn [call]. unfold with_session, with_window. rewrite Es. destruct (lookup sid (sessions (after l))) as [s|]; [|reflexivity]. destruct (existsb _ _); [|reflexivity]. destruct (lookup (s_current s) (windows st)); reflexivity. }
  unfold ask at 1. destruct (call (after l) (SET_RECT sid x y w h)) as [st an] eqn:Ec. cbn [fst snd]. cbn [call] in Ec. unfold with_session, with_window in Ec.
  destruct (lookup sid (sessions (after l))) as [s|] eqn:E; [|injection Ec as <- <-; discriminate]. destruct (existsb (Nat.eqb (s_current s)) (s_windows s)) eqn:Eh; [|injection Ec as <- <-; discriminate]. destruct (lookup (s_current s) (windows (after l))) as [v|] eqn:Ev; [|injection Ec as <- <-; discriminate]. cbv zeta in Ec.
  destruct (_ && _) eqn:Eq.
  - injection Ec as <- <-. intros [= <- <- <- <-]. apply andb_true_iff in Eq as [Q1 Q2]. apply Z.eqb_eq in Q1, Q2. rewrite G, Ev by reflexivity. rewrite Q1, Q2. split; [reflexivity|]. repeat split; intros z ->; cbn in *; congruence.
  - destruct (_ =? 0)%Z; [injection Ec as <- <-; discriminate|]. injection Ec as <- <-. intros [= <- <- <- <-]. rewrite G by reflexivity. cbn [windows]. rewrite lookup_put. cbn [w_width w_height]. split; [reflexivity|]. repeat split; intros z ->; reflexivity.
Qed.
Print Assumptions C83_rect_partial.
(** The size of the current window stays as it is until it is set again. *)
Theorem C83_size : forall l sid h wd ht e, ask (after l) (GET_HANDLE sid) = ID h -> ask (after l) (GET_RECT sid) = RECT 0 0 wd ht ->
  (forall x y w v, e <> CALL (SET_RECT sid x y w v)) ->
  let st := fst (step (after l) e) in ask st (GET_HANDLE sid) = ID h -> ask st (GET_RECT sid) = RECT 0 0 wd ht.
Proof.
  intros l sid h wd ht e Hh Hr Ne st Hh'. pose proof (reachable l) as I. fold (after l) in I. destruct (get_handle _ _ _ Hh) as (s & E & Ec). destruct (i_session _ I sid s E) as (_ & Hin & _). destruct (i_window _ I sid s _ E Hin) as (Lh & w & u' & Ew & Eu). rewrite Ec in *.
  assert (w_width w = wd /\ w_height w = ht) as [Ww Wh]. { apply has_in in Hin as Hb. unfold ask in Hr. cbn [call] in Hr. unfold with_session, with_window in Hr. rewrite E, Ec, Hb, Ew in Hr. injection Hr as -> ->. auto. }
  set (Q := fun st' : state => exists w', lookup h (windows st') = Some w' /\ w_width w' = wd /\ w_height w' = ht). enough (Q st) as (w1 & Ew1 & <- & <-).
  { pose proof (inv_step _ e I) as I1. fold st in I1. destruct (get_handle _ _ _ Hh') as (s1 & E1 & Ec1). destruct (i_session _ I1 sid s1 E1) as (_ & Hin1 & _). apply has_in in Hin1. unfold ask. cbn [call]. unfold with_session, with_window. rewrite E1, Hin1, Ec1, Ew1. reflexivity. }
  unfold st. clear st Hh'. assert (Q (after l)) as Q0 by (exists w; auto).
  assert (forall s f, (forall x, lookup s (sessions (after l)) = Some x -> Q (fst (f x))) -> Q (fst (with_session (after l) s f))) as WS by (intros s0 f HH; unfold with_session; destruct (lookup s0 (sessions (after l))) eqn:E0; [now apply HH|exact Q0]).
  assert (forall x f, (In (s_current x) (s_windows x) -> forall v, lookup (s_current x) (windows (after l)) = Some v -> Q (fst (f v))) -> Q (fst (with_window (after l) x f))) as WW.
  { intros x f HH. unfold with_window. destruct (existsb (Nat.eqb (s_current x)) (s_windows x)) eqn:Ex; [|exact Q0]. apply has_in in Ex. destruct (lookup (s_current x) (windows (after l))) eqn:E0; [now apply HH|exact Q0]. }
  assert (forall a v, a <> h -> exists w', lookup h (put a v (windows (after l))) = Some w' /\ w_width w' = wd /\ w_height w' = ht) as Pu by (intros a v N; exists w; rewrite lookup_put_other by congruence; auto).
  assert (forall a v, exists w', lookup h (load (windows (after l)) a v) = Some w' /\ w_width w' = wd /\ w_height w' = ht) as Lo.
  { intros a v. destruct (Nat.eq_dec a h) as [->|N]; [rewrite (load_this _ h v w Ew); eexists; split; [reflexivity|cbn; auto]|exists w; rewrite load_other by congruence; auto]. }
  destruct e as [cm|t ok]; cbn [step].
  - destruct cm; cbn [call]; unfold delete_session; try (apply WS; intros x0 E0); try (apply WW; intros Hx v0 F0); try exact Q0; try (unfold wait; refine (Pu _ _ _); intros HC; lia).
    + destruct (w_doc v0); exact Q0.
    + destruct (existsb (Nat.eqb (s_current x0)) (s_windows x0)); [|exact Q0]. destruct (filter _ _); [unfold with_session; rewrite E0; exact Q0|exact Q0].
    + destruct (existsb (Nat.eqb h0) (s_windows x0)); exact Q0.
    + cbv zeta. destruct (_ && _); [exact Q0|]. destruct (_ =? 0)%Z; [exact Q0|]. apply Pu. intros HC. rewrite HC in Hx. pose proof (i_apart _ I s0 sid x0 s h E0 E Hx Hin). subst s0. exact (Ne x y w0 h0 eq_refl).
  - destruct (lookup t (tasks (after l))) as [k|] eqn:Et; [|exact Q0]. unfold resume. destruct ok; [|exact Q0]. unfold Q. destruct k as [s0 h0|s0 h0|h0 v]; cbn [sessions windows tasks next fst]; [apply Lo| |apply Lo]. destruct (lookup s0 (sessions (after l))); apply Lo.
Qed.
Print Assumptions C83_size.
Example C83_size_sample : let l := opened ++ [CALL (SET_RECT 0 None None (Some 320%Z) None); CALL (NAVIGATE 0 5)] in ask (after (l ++ [FETCHED 3 true])) (GET_RECT 0) = RECT 0 0 320 600.
Proof. reflexivity. Qed.
Theorem C83_rect_refuted : ask (after opened) (SET_RECT 0 (Some 10%Z) (Some 20%Z) None None) = RECT 10 20 800 600 /\
  ask (fst (step (after opened) (CALL (SET_RECT 0 (Some 10%Z) (Some 20%Z) None None)))) (GET_RECT 0) = RECT 0 0 800 600.
Proof. split; reflexivity. Qed.
Print Assumptions C83_rect_refuted.

(** ** Locations *)

Definition ends_load (st : state) (e : event) (h : nat) : Prop := exists t u, e = FETCHED t true /\ lookup t (tasks st) = Some (T_LOAD h u).
(** The location of the current window is that of the last fetch for it that ended well. *)
Theorem C84_location : forall l sid h u, ask (after l) (GET_HANDLE sid) = ID h -> ask (after l) (GET_URL sid) = URL u ->
  (forall t v, lookup t (tasks (after l)) = Some (T_LOAD h v) -> ask (fst (step (after l) (FETCHED t true))) (GET_URL sid) = URL v) /\
  (forall e, ~ ends_load (after l) e h -> let st := fst (step (after l) e) in ask st (GET_HANDLE sid) = ID h -> ask st (GET_URL sid) = URL u).
Proof.
  intros l sid h u Hh Hu. pose proof (reachable l) as I. fold (after l) in I. destruct (get_handle _ _ _ Hh) as (s & E & Ec). destruct (i_session _ I sid s E) as (_ & Hin & _). destruct (i_window _ I sid s _ E Hin) as (Lh & w & u' & Ew & Eu).
  apply has_in in Hin as Hb. unfold ask in Hu. cbn [call] in Hu. unfold with_session, with_window in Hu. rewrite E, Hb, Ew, Eu in Hu. injection Hu as ->. rewrite Ec in *. split.
  - intros t v Et. cbn [step]. rewrite Et. unfold resume. cbn [fst]. unfold ask. cbn [call]. unfold with_session, with_window. cbn [sessions windows]. rewrite E, Ec, Hb, (load_this _ h v w Ew). reflexivity.
  - intros e Ne st Hh'. pose proof (inv_step _ e I) as I1. fold st in I1. destruct (get_handle _ _ _ Hh') as (s1 & E1 & Ec1). destruct (i_session _ I1 sid s1 E1) as (_ & Hin1 & _). destruct (i_window _ I1 sid s1 _ E1 Hin1) as (_ & w1 & u1 & Ew1 & Eu1). rewrite Ec1 in *. apply has_in in Hin1 as Hb1.
    unfold ask. cbn [call]. unfold with_session, with_window. rewrite E1, Ec1, Hb1, Ew1, Eu1. cbn [snd]. f_equal. enough (exists w', lookup h (windows st) = Some w' /\ w_doc w' = w_doc w) as (w' & Ew' & Ed) by congruence.
    set (Q := fun st' : state => exists w', lookup h (windows st') = Some w' /\ w_doc w' = w_doc w). change (Q st). assert (Q (after l)) as Q0 by (exists w; auto).
    assert (forall X s f, (forall x, lookup s (sessions (after l)) = Some x -> Q (fst (f x))) -> X = with_session (after l) s f -> Q (fst X)) as WS by (intros X s0 f HH ->; unfold with_session; destruct (lookup s0 (sessions (after l))) eqn:E0; [now apply HH|exact Q0]).
    assert (forall x f, (forall v, lookup (s_current x) (windows (after l)) = Some v -> Q (fst (f v))) -> Q (fst (with_window (after l) x f))) as WW by (intros x f HH; unfold with_window; destruct (existsb (Nat.eqb (s_current x)) (s_windows x)); [|exact Q0]; destruct (lookup (s_current x) (windows (after l))) eqn:E0; [now apply HH|exact Q0]).
    assert (forall a v, (a = h -> w_doc v = w_doc w) -> exists w', lookup h (put a v (windows (after l))) = Some w' /\ w_doc w' = w_doc w) as Pu.
    { intros a v Hv. destruct (Nat.eq_dec h a) as [<-|N]; [exists v; rewrite lookup_put; auto|exists w; rewrite lookup_put_other by exact N; auto]. }
    assert (forall a v, a <> h -> exists w', lookup h (load (windows (after l)) a v) = Some w' /\ w_doc w' = w_doc w) as Lo by (intros a v N; exists w; rewrite load_other by congruence; auto).
    unfold st. clear Ew1 Eu1 w1 u1 Hb1 Hin1 Ec1 E1 s1 I1 Hh'. clear st. destruct e as [cm|t ok]; cbn [step].
    + destruct cm; cbn [call]; unfold delete_session; try (refine (WS _ _ _ _ eq_refl); intros x0 E0); try (apply WW; intros v0 F0); try exact Q0; try (unfold wait; refine (Pu _ _ _); intros HC; lia).
      * destruct (w_doc v0); exact Q0.
      * destruct (existsb (Nat.eqb (s_current x0)) (s_windows x0)); [|exact Q0]. destruct (filter _ _); [unfold with_session; rewrite E0; exact Q0|exact Q0].
      * destruct (existsb (Nat.eqb h0) (s_windows x0)); exact Q0.
      * cbv zeta. destruct (_ && _); [exact Q0|]. destruct (_ =? 0)%Z; [exact Q0|]. apply Pu. intros HC. cbn. congruence.
    + destruct (lookup t (tasks (after l))) as [k|] eqn:Et; [|exact Q0]. unfold resume. destruct ok; [|exact Q0]. unfold Q. destruct k as [s0 h0|s0 h0|h0 v]; cbn [sessions windows tasks next].
      * destruct (i_adds _ I t _ h0 Et eq_refl) as (_ & _ & Nh). apply Lo. intros ->. apply (Nh sid s E). exact Hin.
      * destruct (i_adds _ I t _ h0 Et eq_refl) as (_ & _ & Nh). destruct (lookup s0 (sessions (after l))); apply Lo; intros ->; apply (Nh sid s E); exact Hin.
      * apply Lo. intros ->. apply Ne. exists t, v. auto.
Qed.
Print Assumptions C84_location.
Example C84_sample : let l := opened ++ [CALL (NAVIGATE 0 7)] in lookup 3 (tasks (after l)) = Some (T_LOAD 1 7) /\ ask (after l) (GET_URL 0) = URL 0 /\ ask (after (l ++ [FETCHED 3 true])) (GET_URL 0) = URL 7 /\ ask (after (l ++ [FETCHED 3 false])) (GET_URL 0) = URL 0.
Proof. repeat split. Qed.
(** An earlier navigation whose fetch takes longer replaces the page of the later one. *)
Theorem C84_latest_refuted : let l := opened ++ [CALL (NAVIGATE 0 7); CALL (NAVIGATE 0 8); FETCHED 4 true; FETCHED 3 true] in
  snd (run initial l) = [WAITING 2; ID 0; WAITING 3; WAITING 4; DONE; DONE] /\ ask (after l) (GET_URL 0) = URL 7.
Proof. split; reflexivity. Qed.
Print Assumptions C84_latest_refuted.
