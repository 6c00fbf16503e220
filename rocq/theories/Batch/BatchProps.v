(** C40: batches of inputs. C97: the options of the command line. *)
From Coq Require Import String List ZArith QArith Bool Lia.
From Verif Require Import Batch.BatchModel Batch.BatchSpec Batch.BatchProofs.
Import ListNotations.
Local Open Scope list_scope.

(** * C40 *)

(** Separate outputs: the inputs are taken in order; what happens for each of those that are done is that it
    is loaded, with its header and footer, and that its pages, and no others, are written to a file that has
    its name. If the batch succeeds all are done and there is no other event. If it fails, one is spoilt, and
    nothing is done for those after it. Only the last closes the connection. *)
Theorem C40_separate_partial : forall doc bytes (E : env doc bytes) inputs output o h h' r,
  o_batch o = SEPARATE -> run_batch doc bytes E inputs output o h = (h', r) ->
  exists done rest blocks tail,
    combine inputs (flags (length inputs)) = done ++ rest /\ Forall2 (served E o output) done blocks /\ h' = h ++ concat blocks ++ tail /\
    match r with
    | Some _ => rest = [] /\ tail = []
    | None => exists ic rest', rest = ic :: rest' /\ spoilt E o output ic tail
    end.
Proof.
  intros doc bytes E inputs output o h h' r B H. unfold run_batch in H. destruct (resolved_rest o) as (_ & _ & Hb & _). rewrite Hb, B in H.
  apply each_result in H as (added & -> & done & rest & blocks & tail & H1 & H2 & -> & H3). exists done, rest, blocks, tail. auto.
Qed.
Print Assumptions C40_separate_partial.

(** One output: all the inputs are loaded in order, then a single file is written with the pages of all of
    them in this order, and the connection is closed. If anything can not be loaded nothing is written, and
    the inputs after it are not touched. *)
Theorem C40_concat : forall doc bytes (E : env doc bytes) inputs output o h h' r,
  o_batch o = CONCAT -> run_batch doc bytes E inputs output o h = (h', r) ->
  exists done rest lds pss tail,
    inputs = done ++ rest /\ length lds = length done /\ length pss = length done /\
    Forall2 (fun i x => yields E o i (fst x) (snd x)) done (combine lds pss) /\ h' = h ++ concat lds ++ tail /\
    match r with
    | Some _ => rest = [] /\ exists b, e_encode _ _ E (resolve_flow o) (concat pss) = Some b /\ tail = [PUT doc bytes output b true true]
    | None =>
      (exists i rest', rest = i :: rest' /\ (stuck o i tail \/ (e_format _ _ E (resolve_flow o) = false /\ done = [] /\ tail = []))) \/
      (rest = [] /\
        ((tail = [] /\ (e_format _ _ E (resolve_flow o) = false \/ e_encode _ _ E (resolve_flow o) (concat pss) = None)) \/
         exists b, e_encode _ _ E (resolve_flow o) (concat pss) = Some b /\ tail = [PUT doc bytes output b true false]))
    end.
Proof.
  intros doc bytes E inputs output o h h' r B H. unfold run_batch in H. destruct (resolved_rest o) as (_ & _ & Hb & _). rewrite Hb, B in H.
  unfold bind at 1, create, try_opt in H. destruct (e_format _ _ E (resolve_flow o)) eqn:F.
  2:{ inversion H; subst. destruct inputs as [|i rst].
      - exists [], [], [], [], []. cbn. rewrite app_nil_r. repeat split; auto 6.
      - exists [], (i :: rst), [], [], []. cbn. rewrite app_nil_r. repeat split; auto. left. exists i, rst. auto. }
  unfold bind at 1 in H. destruct (run_all _ _ E _ inputs [] h) as [h1 r1] eqn:A. apply all_result in A as (done & rest & lds & pss & -> & L1 & F2 & L2 & Hr).
  destruct r1 as [ps|].
  - destruct Hr as (-> & -> & ->). unfold bind in H. cbn [app] in H.
    destruct (e_encode _ _ E (resolve_flow o) (concat pss)) as [b|] eqn:En.
    + unfold put in H. destruct (e_put _ _ E _ output b true) eqn:P; inversion H; subst.
      * exists done, [], lds, pss, [PUT doc bytes output b true true]. rewrite app_assoc. repeat split; eauto.
      * exists done, [], lds, pss, [PUT doc bytes output b true false]. rewrite app_assoc. repeat split; eauto 6.
    + inversion H; subst. exists done, [], lds, pss, []. rewrite !app_nil_r. repeat split; auto 6.
  - inversion H; subst. destruct Hr as (i & rest' & tail & -> & St & ->). exists done, (i :: rest'), lds, pss, tail. repeat split; auto. left. exists i, rest'. auto.
Qed.
Print Assumptions C40_concat.

(** The pages of an input show its document, whatever the inputs beside it are; in the paginated flow they
    carry the header and the footer that were loaded with it. *)
Theorem C40_own_pages : forall doc bytes (E : env doc bytes) o i evs ps,
  yields E o i evs ps ->
  exists d, In (LOAD doc bytes i (Some d)) evs /\ Forall (fun p => shown (pg_scene _ p) = d) ps /\
    (forall u, paged o = true -> o_header o = Some u -> exists x, In (LOAD doc bytes u (Some x)) evs /\
      forall p, In p ps -> exists s a f hs fs n k, pg_scene _ p = SCALE _ (PRINTED _ d s a (Some x) f hs fs n) k) /\
    (forall u, paged o = true -> o_footer o = Some u -> exists x, In (LOAD doc bytes u (Some x)) evs /\
      forall p, In p ps -> exists s a h hs fs n k, pg_scene _ p = SCALE _ (PRINTED _ d s a h (Some x) hs fs n) k).
Proof.
  intros doc bytes E o i evs ps (d & h & f & R & ->). exists d.
  assert (Fl := resolved_flow o).
  inversion R as [d0 P|d0 eh h0 ef f0 P Fh Ff]; subst; unfold pages; rewrite Fl, P.
  - split; [now left|]. split; [|split; congruence].
    constructor; [|constructor]. unfold continuous. cbn. destruct (o_background _); cbn; auto. destruct (e_html _ _ E d); cbn; auto.
  - split; [now left|]. split; [unfold printed; apply Forall_forall; intros p Hp; apply in_map_iff in Hp as (n & <- & _); reflexivity|].
    split; intros u _ Hu; rewrite Hu in *.
    + inversion Fh as [|u0 x]; subst. exists x. split; [right; now left|]. unfold printed. intros p Hp. apply in_map_iff in Hp as (n & <- & _). cbn. do 7 eexists. reflexivity.
    + inversion Ff as [|u0 x]; subst. exists x. split; [right; apply in_app_iff; right; now left|]. unfold printed. intros p Hp. apply in_map_iff in Hp as (n & <- & _). cbn. do 7 eexists. reflexivity.
Qed.
Print Assumptions C40_own_pages.

(** A batch of separate outputs that succeeds closes the connection once, with the last file; one that fails
    before its last input never does. *)
Definition closes {doc bytes} (h : list (event doc bytes)) : nat := length (filter closing h).
Lemma closes_app : forall doc bytes (a b : list (event doc bytes)), closes (a ++ b) = (closes a + closes b)%nat.
Proof. intros. unfold closes. now rewrite filter_app, app_length. Qed.
Lemma loads_close_not : forall doc bytes (l : list (event doc bytes)), forallb (fun e => negb (is_put e)) l = true -> closes l = 0%nat.
Proof. intros doc bytes. induction l as [|e l IH]; cbn; [reflexivity|]. intros H. apply andb_true_iff in H as [H1 H2]. destruct e; cbn in *; [apply IH, H2|discriminate]. Qed.
Lemma yields_loads : forall doc bytes (E : env doc bytes) o i evs ps, yields E o i evs ps -> forallb (fun e => negb (is_put e)) evs = true.
Proof. intros doc bytes E o i evs ps (d & h & f & R & _). eauto using reads_no_put. Qed.
Lemma served_closes : forall doc bytes (E : env doc bytes) o output done blocks, Forall2 (served E o output) done blocks ->
  closes (concat blocks) = length (filter snd done).
Proof.
  intros doc bytes E o output done blocks H. induction H as [|[i c] b done blocks (ld & ps & x & Y & _ & ->) _ IH]; [reflexivity|]. cbn [concat filter snd].
  rewrite !closes_app, (loads_close_not _ _ _ (yields_loads _ _ _ _ _ _ _ Y)), IH. cbn. destruct c; reflexivity.
Qed.
Lemma flags_one : forall (l : list url), l <> [] -> length (filter snd (combine l (flags (length l)))) = 1%nat.
Proof.
  induction l as [|i [|j r] IH]; intros H; [congruence|reflexivity|]. rewrite flags_cons. cbn [combine filter snd]. apply IH. discriminate.
Qed.
Lemma flags_last : forall (l : list url) i c r, combine l (flags (length l)) = i :: c :: r -> snd i = false.
Proof. intros [|a [|b l]] i c r H; try discriminate. rewrite flags_cons in H. cbn [combine] in H. inversion H. reflexivity. Qed.
Theorem C40_closed_once : forall doc bytes (E : env doc bytes) inputs output o h h' r,
  inputs <> [] -> run_batch doc bytes E inputs output o h = (h', Some r) -> closes h' = S (closes h) /\ exists u b, last h' (LOAD doc bytes u None) = PUT doc bytes u b true true.
Proof.
  intros doc bytes E inputs output o h h' r N H. destruct (o_batch o) eqn:B.
  - apply C40_concat in H as (done & rest & lds & pss & tail & -> & L1 & L2 & F2 & -> & -> & b & _ & ->); auto.
    split; [|exists output, b; now rewrite !app_assoc, last_last].
    rewrite !closes_app. assert (Z : closes (concat lds) = 0%nat).
    { rewrite app_nil_r in *. clear -F2 L1 L2. revert lds pss L1 L2 F2. induction done as [|i done IH]; intros [|l lds] [|p pss] L1 L2 F2; cbn [length concat combine] in *; try discriminate; [reflexivity|].
      inversion F2; subst. cbn [fst snd] in H2. rewrite closes_app, (loads_close_not _ _ _ (yields_loads _ _ _ _ _ _ _ H2)). apply (IH lds pss); auto. }
    rewrite Z. cbn. lia.
  - apply C40_separate_partial in H as (done & rest & blocks & tail & C & F2 & -> & -> & ->); auto. rewrite app_nil_r in C. subst done. rewrite app_nil_r.
    split; [rewrite closes_app, (served_closes _ _ _ _ _ _ _ F2), flags_one by auto; lia|].
    destruct (exists_last N) as (init & i & ->).
    assert (Cl : exists ini, combine (init ++ [i]) (flags (length (init ++ [i]))) = ini ++ [(i, true)]).
    { clear. induction init as [|a init IH]; [now exists []|]. destruct IH as (ini & Hi). exists ((a, false) :: ini).
      destruct init as [|b init]; cbn [app] in *; rewrite flags_cons; [exact (f_equal (cons (a, false)) Hi)|exact (f_equal (cons (a, false)) Hi)]. }
    destruct Cl as (ini & Hi). rewrite Hi in F2. apply Forall2_app_inv_l in F2 as (b1 & b2 & _ & F2 & ->).
    inversion F2 as [|? blk ? ? (ld & ps & x & _ & _ & ->) F3]; subst. inversion F3; subst.
    eexists _, x. rewrite concat_app. cbn [concat]. rewrite app_nil_r, !app_assoc, last_last. reflexivity.
Qed.
Print Assumptions C40_closed_once.

(** Two inputs and a header *)
Definition file (name : list string) : url := mkUrl "file" name.
Definition sample_opts (b : batch) : options :=
  mkOpts 1 1 None None None (mkStock 210 297) PORTRAIT (NAMED 0) true "pdf" b AUTO_FLOW CROP (Some (file ["head.html"%string])) None AUTO_SIZE AUTO_SIZE.
(** All can be loaded but [missing]; a file is the number of its pages; every document takes two pages. *)
Definition sample_env : env string nat :=
  mkEnv string nat (fun _ u => if String.eqb (last (u_path u) ""%string) "missing" then None else Some (last (u_path u) ""%string)) (fun _ _ _ _ => true) (fun _ => true)
    (fun _ ps => Some (length ps)) (fun _ _ _ _ _ _ => 2%nat) (fun _ => true) (fun _ v _ => v).
Definition a_html := file ["x"; "a.html"]%string.
Definition b_html := file ["y"; "b.html"]%string.
Definition out := file ["out"]%string.
Example C40_case_separate : run_batch _ _ sample_env [a_html; b_html] out (sample_opts SEPARATE) [] =
  ([LOAD _ _ a_html (Some "a.html"%string); LOAD _ _ (file ["head.html"%string]) (Some "head.html"%string); PUT _ _ (file ["out"; "a.pdf"]%string) 2%nat false true;
    LOAD _ _ b_html (Some "b.html"%string); LOAD _ _ (file ["head.html"%string]) (Some "head.html"%string); PUT _ _ (file ["out"; "b.pdf"]%string) 2%nat true true], Some tt).
Proof. reflexivity. Qed.
Example C40_case_concat : run_batch _ _ sample_env [a_html; b_html] out (sample_opts CONCAT) [] =
  ([LOAD _ _ a_html (Some "a.html"%string); LOAD _ _ (file ["head.html"%string]) (Some "head.html"%string);
    LOAD _ _ b_html (Some "b.html"%string); LOAD _ _ (file ["head.html"%string]) (Some "head.html"%string); PUT _ _ out 4%nat true true], Some tt).
Proof. reflexivity. Qed.

(** Two inputs that have the same name in different directories are written to the same file: of the first
    nothing is left. *)
Theorem C40_same_name_refuted : forall doc bytes (E : env doc bytes) output o h h',
  o_batch o = SEPARATE -> run_batch doc bytes E [file ["x"; "a.html"]; file ["y"; "a.html"]]%string output o h = (h', Some tt) ->
  exists e1 u b1 e2 b2 ok1 ok2, h' = h ++ e1 ++ [PUT doc bytes u b1 false ok1] ++ e2 ++ [PUT doc bytes u b2 true ok2].
Proof.
  intros doc bytes E output o h h' B H. apply C40_separate_partial in H as (done & rest & blocks & tail & C & F2 & -> & -> & ->); auto.
  rewrite app_nil_r in C. subst done. inversion F2 as [|? ? ? ? (l1 & p1 & b1 & _ & _ & ->) F3]; subst. inversion F3 as [|? ? ? ? (l2 & p2 & b2 & _ & _ & ->) F4]; subst. inversion F4; subst.
  exists l1. eexists _, b1, l2, b2, true, true. cbn. rewrite !app_nil_r, <- !app_assoc. reflexivity.
Qed.
Print Assumptions C40_same_name_refuted.
(** When an input that is not there comes first, nothing is written for those after it and the connection
    is not closed. *)
Theorem C40_failure_refuted : exists E : env string nat, exists h,
  run_batch _ _ E [a_html; file ["missing"%string]; b_html] out (sample_opts SEPARATE) [] = (h, None) /\
  run_batch _ _ E [b_html] out (sample_opts SEPARATE) h <> (h, None) /\ closes h = 0%nat /\ forall u x c k, In (PUT _ _ u x c k) h -> u = file ["out"; "a.pdf"]%string.
Proof.
  exists sample_env. eexists. split; [reflexivity|]. split; [discriminate|]. split; [reflexivity|].
  intros u x c k H. cbn in H. repeat (destruct H as [H|H]; [try discriminate; inversion H; reflexivity|]). contradiction.
Qed.
Print Assumptions C40_failure_refuted.

(** * C97 *)

Section C97.
  Context {doc bytes : Type}.
  Variable E : env doc bytes.
  Notation pages := (pages doc bytes E).

  (** Pages in portrait are as wide and as tall as is asked for, and else as the paper is. *)
  Theorem C97_page_size_partial : forall o d h f p, paged o = true -> o_orientation o = PORTRAIT -> In p (pages (resolve_flow o) d h f) ->
    pg_size _ p = (match o_width o with Some w => w | None => minor (o_stock o) end, match o_height o with Some x => x | None => major (o_stock o) end).
  Proof.
    intros o d h f p P O H. unfold BatchModel.pages in H. rewrite resolved_flow, P in H. unfold printed in H. apply in_map_iff in H as (n & <- & _).
    cbn [pg_size]. unfold page_size, print_settings, resolve_flow. destruct (o_flow o) eqn:F; cbn; rewrite O; destruct (o_width o), (o_height o); reflexivity.
  Qed.
  (** A single page of the size of the viewport, or of the content when it is asked to fit. *)
  Theorem C97_picture_size : forall o d h f, paged o = false ->
    let v := (match o_width o with Some w => w | None => px 800 end, match o_height o with Some x => x | None => px 600 end) in
    exists p, pages (resolve_flow o) d h f = [p] /\ pg_size _ p = match o_extend o with CROP => v | FIT => e_overflow _ _ E d v (o_scale o) end.
  Proof.
    intros o d h f P v. unfold BatchModel.pages. rewrite resolved_flow, P. eexists. split; [reflexivity|].
    unfold continuous, resolve_flow. destruct (o_flow o); cbn; reflexivity.
  Qed.
  (** The color behind the document, if there is one. *)
  Definition behind (s : scene doc) : option nat := match s with CLEAR _ _ c => Some c | _ => None end.
  Theorem C97_background_partial : forall o d h f p, paged o = false -> In p (pages (resolve_flow o) d h f) ->
    behind (pg_scene _ p) = match o_background o with Some c => Some c | None => if e_html _ _ E d then Some white else None end.
  Proof.
    intros o d h f p P H. unfold BatchModel.pages in H. rewrite resolved_flow, P in H. destruct H as [<-|[]].
    unfold continuous, resolve_flow. destruct (o_flow o); cbn; destruct (o_background o); cbn; auto; destruct (e_html _ _ E d); reflexivity.
  Qed.
  (** The scale at which the document is drawn *)
  Fixpoint drawn_at (s : scene doc) : Q := match s with SCALE _ s k => k * drawn_at s | CLEAR _ s _ => drawn_at s | _ => 1 end.
  Theorem C97_scale_partial : forall o d h f p, paged o = true -> In p (pages (resolve_flow o) d h f) -> (drawn_at (pg_scene _ p) == o_scale o)%Q.
  Proof.
    intros o d h f p P H. unfold BatchModel.pages in H. rewrite resolved_flow, P in H. unfold printed in H. apply in_map_iff in H as (n & <- & _).
    cbn. unfold resolve_flow. destruct (o_flow o); cbn; apply Qmult_1_r.
  Qed.
  (** With the flow left to the tool, a PDF is made of pages and any other output is one picture. *)
  Theorem C97_auto_flow : forall o d h f, o_flow o = AUTO_FLOW ->
    (o_pdf o = true -> forall p, In p (pages (resolve_flow o) d h f) -> exists s a hd ft hs fs n k, pg_scene _ p = SCALE _ (PRINTED _ d s a hd ft hs fs n) k) /\
    (o_pdf o = false -> length (pages (resolve_flow o) d h f) = 1%nat).
  Proof.
    intros o d h f F. assert (R := resolved_flow o). unfold paged in R. rewrite F in R. split; intros P; rewrite P in R; unfold BatchModel.pages; rewrite R; [|reflexivity].
    unfold printed. intros p Hp. apply in_map_iff in Hp as (n & <- & _). do 8 eexists. reflexivity.
  Qed.

  (** Pictures are not scaled: neither the size nor the drawing follows the option. *)
  Theorem C97_scale_refuted : forall o d h f p, paged o = false -> In p (pages (resolve_flow o) d h f) ->
    drawn_at (pg_scene _ p) = 1 /\ (o_extend o = CROP -> pg_size _ p = media_size o).
  Proof.
    intros o d h f p P H. unfold BatchModel.pages in H. rewrite resolved_flow, P in H. destruct H as [<-|[]].
    unfold continuous, resolve_flow. split.
    - destruct (o_flow o); cbn; destruct (o_background o); cbn; auto; destruct (e_html _ _ E d); reflexivity.
    - destruct (o_flow o); cbn; intros ->; reflexivity.
  Qed.
  (** The background is ignored on pages. *)
  Theorem C97_background_refuted : forall o d h f p, paged o = true -> In p (pages (resolve_flow o) d h f) ->
    forall s, pg_scene _ p = s -> behind s = None /\ forall t k, s = SCALE _ t k -> behind t = None.
  Proof.
    intros o d h f p P H s <-. unfold BatchModel.pages in H. rewrite resolved_flow, P in H. unfold printed in H. apply in_map_iff in H as (n & <- & _).
    cbn. split; [reflexivity|]. intros t k Hs. inversion Hs. reflexivity.
  Qed.
  (** In landscape the width that is asked for is the height of the page. *)
  Theorem C97_landscape_refuted : forall o d h f p w x, paged o = true -> o_orientation o = LANDSCAPE -> o_width o = Some w -> o_height o = Some x ->
    In p (pages (resolve_flow o) d h f) -> pg_size _ p = (x, w).
  Proof.
    intros o d h f p w x P O Hw Hx H. unfold BatchModel.pages in H. rewrite resolved_flow, P in H. unfold printed in H. apply in_map_iff in H as (n & <- & _).
    cbn [pg_size]. unfold page_size, print_settings, resolve_flow. destruct (o_flow o); cbn; rewrite O, Hw, Hx; reflexivity.
  Qed.
  (** The help says that in the continuous flow the viewport grows to fit all content; unless fitting is asked
      for as well, it does not. *)
  Theorem C97_grows_refuted : forall o d h f p, o_flow o = CONTINUOUS -> o_extend o = CROP -> o_width o = None -> o_height o = None ->
    In p (pages (resolve_flow o) d h f) -> pg_size _ p = (px 800, px 600).
  Proof.
    intros o d h f p F X W Hh H. destruct (C97_picture_size o d h f) as (q & Hq & Sq); [unfold paged; now rewrite F|].
    rewrite Hq in H. destruct H as [<-|[]]. rewrite Sq, X, W, Hh. reflexivity.
  Qed.
End C97.
Print Assumptions C97_page_size_partial.
Print Assumptions C97_picture_size.
Print Assumptions C97_background_partial.
Print Assumptions C97_scale_partial.
Print Assumptions C97_auto_flow.
Print Assumptions C97_scale_refuted.
Print Assumptions C97_background_refuted.
Print Assumptions C97_landscape_refuted.
Print Assumptions C97_grows_refuted.

Example C97_case : map (pg_size _) (pages _ _ sample_env (resolve_flow (sample_opts CONCAT)) "d"%string None None) = [(210, 297); (210, 297)]%Z.
Proof. reflexivity. Qed.
Definition picture_opts : options :=
  mkOpts 2 1 (Some 300%Z) None (Some 7%nat) (mkStock 210 297) PORTRAIT (NAMED 0) false "png" CONCAT AUTO_FLOW CROP None None AUTO_SIZE AUTO_SIZE.
Example C97_case_picture : pages _ _ sample_env (resolve_flow picture_opts) "d"%string None None = [mkPage _ (300, px 600)%Z (CLEAR _ (RENDER _ "d"%string (300, px 600)%Z 2) 7)].
Proof. reflexivity. Qed.
