(** Proofs about batches. *)
From Coq Require Import String List ZArith QArith Bool Lia.
From Verif Require Import Batch.BatchModel Batch.BatchSpec.
Import ListNotations.
Local Open Scope list_scope.

Section Proofs.
  Context {doc bytes : Type}.
  Variable E : env doc bytes.
  Notation event := (event doc bytes).

  Lemma resolved_flow : forall o, o_flow (resolve_flow o) = if paged o then PAGINATE else CONTINUOUS.
  Proof. intros o. unfold resolve_flow, paged. destruct (o_flow o) eqn:F; cbn; auto. Qed.
  Lemma resolved_rest : forall o, o_header (resolve_flow o) = o_header o /\ o_footer (resolve_flow o) = o_footer o /\ o_batch (resolve_flow o) = o_batch o /\
    o_suffix (resolve_flow o) = o_suffix o.
  Proof. intros o. unfold resolve_flow. destruct (o_flow o); cbn; auto. Qed.

  Lemma load_opt_result : forall u h h' r, load_opt doc bytes E u h = (h', r) ->
    match r with
    | Some a => exists evs, h' = h ++ evs /\ fetched u evs a
    | None => exists v, u = Some v /\ h' = h ++ [LOAD doc bytes v None]
    end.
  Proof.
    intros [u|] h h' r H; unfold load_opt, bind, load, ret in H; cbn in H.
    - destruct (e_load _ _ E h u) eqn:L; inversion H; subst; eauto using fetched_some.
    - inversion H; subst. exists []. split; [now rewrite app_nil_r|constructor].
  Qed.

  Lemma single_result : forall o i h h' r, run_single doc bytes E (resolve_flow o) i h = (h', r) ->
    match r with
    | Some ps => exists evs, h' = h ++ evs /\ yields E o i evs ps
    | None => exists evs, h' = h ++ evs /\ stuck o i evs
    end.
  Proof.
    intros o i h h' r H. unfold run_single, bind at 1, load in H.
    destruct (e_load _ _ E h i) as [d|] eqn:L; [|inversion H; subst; eexists; split; [reflexivity|constructor]].
    rewrite resolved_flow in H. destruct (resolved_rest o) as (Hh & Hf & _ & _). rewrite Hh, Hf in H.
    destruct (paged o) eqn:P.
    - unfold bind at 1 in H. destruct (load_opt _ _ E (o_header o) _) as [h1 r1] eqn:L1. apply load_opt_result in L1.
      destruct r1 as [hd|].
      + destruct L1 as (eh & -> & Fh).
        unfold bind at 1 in H. destruct (load_opt _ _ E (o_footer o) _) as [h2 r2] eqn:L2. apply load_opt_result in L2.
        destruct r2 as [fd|].
        * destruct L2 as (ef & -> & Ff). unfold ret in H. inversion H; subst.
          exists (LOAD doc bytes i (Some d) :: eh ++ ef). split; [now rewrite <- !app_assoc|].
          exists d, hd, fd. split; [now constructor|reflexivity].
        * destruct L2 as (v & Ev & ->). inversion H; subst.
          exists (LOAD doc bytes i (Some d) :: eh ++ [LOAD doc bytes v None]). split; [now rewrite <- !app_assoc|].
          eapply stuck_footer; eauto.
      + destruct L1 as (v & Ev & ->). inversion H; subst.
        exists [LOAD doc bytes i (Some d); LOAD doc bytes v None]. split; [now rewrite <- !app_assoc|]. now apply stuck_header.
    - unfold ret in H. inversion H; subst. eexists. split; [reflexivity|]. exists d, None, None. split; [now constructor|reflexivity].
  Qed.

  Lemma flags_cons : forall {A} (i j : A) r, flags (length (i :: j :: r)) = false :: flags (length (j :: r)).
  Proof. intros. reflexivity. Qed.

  (** A list of inputs is served one after the other, up to the first that is spoilt *)
  Definition separately (o : options) (output : url) (inputs : list url) (added : list event) (r : option unit) : Prop :=
    exists done rest blocks tail,
      combine inputs (flags (length inputs)) = done ++ rest /\ Forall2 (served E o output) done blocks /\ added = concat blocks ++ tail /\
      match r with
      | Some _ => rest = [] /\ tail = []
      | None => exists ic rest', rest = ic :: rest' /\ spoilt E o output ic tail
      end.

  Lemma each_result : forall o output inputs h h' r, run_each doc bytes E (resolve_flow o) output inputs h = (h', r) ->
    exists added, h' = h ++ added /\ separately o output inputs added r.
  Proof.
    intros o output. induction inputs as [|i rst IH]; intros h h' r H.
    - cbn in H. unfold ret in H. inversion H; subst. exists []. split; [now rewrite app_nil_r|].
      exists [], [], [], []. repeat split. constructor.
    - set (fl := match rst with [] => true | _ => false end).
      assert (Ec : combine (i :: rst) (flags (length (i :: rst))) = (i, fl) :: combine rst (flags (length rst))).
      { destruct rst; [reflexivity|]. rewrite flags_cons. reflexivity. }
      assert (Stop : forall tail, spoilt E o output (i, fl) tail -> separately o output (i :: rst) tail None).
      { intros tail Sp. exists [], ((i, fl) :: combine rst (flags (length rst))), [], tail. rewrite Ec. repeat split; [constructor|]. eauto. }
      cbn [run_each] in H. fold fl in H. unfold bind at 1, create, try_opt in H.
      destruct (e_format _ _ E (resolve_flow o)) eqn:F.
      2:{ inversion H; subst. exists []. split; [now rewrite app_nil_r|]. apply Stop. now constructor. }
      unfold bind at 1 in H. destruct (run_single _ _ E _ i h) as [h1 r1] eqn:S1. apply single_result in S1.
      destruct r1 as [ps|].
      2:{ destruct S1 as (evs & -> & St). inversion H; subst. exists evs. split; [reflexivity|]. apply Stop. now constructor. }
      destruct S1 as (ld & -> & Y). unfold bind at 1 in H.
      destruct (e_encode _ _ E (resolve_flow o) ps) as [b|] eqn:En.
      2:{ inversion H; subst. exists ld. split; [reflexivity|]. apply Stop. eapply spoilt_encode; eauto. }
      unfold bind at 1, put in H. cbn -[run_each flags combine] in H.
      assert (Ef : file_url (resolve_flow o) output i = join output (stem i ++ "." ++ o_suffix o)%string).
      { unfold file_url. destruct (resolved_rest o) as (_ & _ & _ & ->). reflexivity. }
      rewrite Ef in H.
      destruct (e_put _ _ E (h ++ ld) _ b fl) eqn:Pu.
      + apply IH in H as (added & -> & done & rest & blocks & tail & Ed & F2 & -> & Hr).
        eexists. rewrite <- app_assoc, <- app_assoc. split; [reflexivity|].
        exists ((i, fl) :: done), rest, ((ld ++ [PUT doc bytes (join output (stem i ++ "." ++ o_suffix o)%string) b fl true]) :: blocks), tail.
        split; [now rewrite Ec, Ed|]. split; [|split; [now cbn; rewrite <- !app_assoc|exact Hr]].
        constructor; [|exact F2]. exists ld, ps, b. auto.
      + inversion H; subst. eexists. rewrite <- app_assoc. split; [reflexivity|]. apply Stop. eapply spoilt_put; eauto.
  Qed.

  Lemma all_result : forall o inputs printer h h' r, run_all doc bytes E (resolve_flow o) inputs printer h = (h', r) ->
    exists done rest lds pss, inputs = done ++ rest /\ length lds = length done /\ Forall2 (fun i x => yields E o i (fst x) (snd x)) done (combine lds pss) /\ length pss = length done /\
      match r with
      | Some ps => rest = [] /\ h' = h ++ concat lds /\ ps = printer ++ concat pss
      | None => exists i rest' tail, rest = i :: rest' /\ stuck o i tail /\ h' = h ++ concat lds ++ tail
      end.
  Proof.
    intros o. induction inputs as [|i rst IH]; intros printer h h' r H.
    - cbn in H. unfold ret in H. inversion H; subst. exists [], [], [], []. cbn. rewrite !app_nil_r. repeat split. constructor.
    - cbn [run_all] in H. unfold bind at 1 in H. destruct (run_single _ _ E _ i h) as [h1 r1] eqn:S1. apply single_result in S1.
      destruct r1 as [ps|].
      + destruct S1 as (ld & -> & Y). apply IH in H as (done & rest & lds & pss & -> & L1 & F2 & L2 & Hr).
        exists (i :: done), rest, (ld :: lds), (ps :: pss). split; [reflexivity|]. split; [cbn; congruence|]. split; [constructor; auto|]. split; [cbn; congruence|].
        destruct r as [ps'|].
        * destruct Hr as (-> & -> & ->). repeat split; cbn; now rewrite <- !app_assoc.
        * destruct Hr as (j & rest' & tail & -> & St & ->). exists j, rest', tail. repeat split; auto. cbn. now rewrite <- !app_assoc.
      + destruct S1 as (evs & -> & St). inversion H; subst. exists [], (i :: rst), [], []. cbn. repeat split; [constructor|].
        exists i, rst, evs. auto.
  Qed.

  Lemma reads_no_put : forall o i evs d h f, reads (doc:=doc) (bytes:=bytes) o i evs d h f -> forallb (fun e => negb (is_put e)) evs = true.
  Proof.
    assert (Fe : forall u evs a, fetched (doc:=doc) (bytes:=bytes) u evs a -> forallb (fun e => negb (is_put e)) evs = true) by (intros u evs a F; inversion F; reflexivity).
    intros o i evs d h f R. inversion R; subst; cbn; [reflexivity|]. rewrite forallb_app. now erewrite !Fe by eauto.
  Qed.
  Lemma stuck_no_put : forall o i evs, stuck (doc:=doc) (bytes:=bytes) o i evs -> forallb (fun e => negb (is_put e)) evs = true.
  Proof. intros o i evs St. inversion St; subst; auto. match goal with F : fetched _ _ _ |- _ => inversion F; reflexivity end. Qed.
End Proofs.
