(** Doctypes with public and system identifiers. *)
From Coq Require Import String List Arith Bool NArith Lia.
From Verif.Base Require Import Str.
From Verif.Html Require Import Entities LexerModel LexerInv LexerTac LexerFrame LexerProofs RefProofs SerialModel SerialSpec SerialProofs.
Import ListNotations.
Local Open Scope list_scope.
Local Open Scope N_scope.
Local Opaque has_partial is_entity expansion entities.

(** A character of a double-quoted identifier. *)
Definition id_char (c : N) : Prop := c <> 34 /\ c <> 62 /\ c <> 0 /\ c <> 13.
Definition full_doctype (name : str) (pub sys : option str) : token := mkToken T_DOCTYPE (Some name) 0 [] pub sys [] false false.

Section Sink.
Variable sink : list token -> option text_mode.

Lemma id_chars st la tok a o s :
  (st = DOCTYPE_PUBLIC_IDENTIFIER_DOUBLE_QUOTED \/ st = DOCTYPE_SYSTEM_IDENTIFIER_DOUBLE_QUOTED) ->
  Forall id_char s -> forall b l, tag_at st la tok a b o l ->
  exists l', feed sink s l = Ok l' /\ tag_at st la tok a (b ++ s) o l'.
Proof.
  intros Hst. induction 1 as [|c s (A1 & A2 & A3 & _) Hs IH]; intros b l Hl.
  - exists l. split; [reflexivity|]. now rewrite app_nil_r.
  - apply feed_cons_then with (P := tag_at st la tok a (b ++ [c]) o).
    + destruct Hl as (Hs' & Hb & Hp & Hl & Ho & Ht & Ha). destruct l as [st' re tok' la' ch bu te pe fo ma at_ ag out].
      cbn in Hs', Hb, Hp, Hl, Ho, Ht, Ha. subst. apply N.eqb_neq in A1, A2, A3. clear IH.
      destruct Hst as [-> | ->]; (eexists; split; [apply once; [unfold step, clear_again; cbn [l_state];
        unfold on_DOCTYPE_PUBLIC_IDENTIFIER_DOUBLE_QUOTED, on_DOCTYPE_SYSTEM_IDENTIFIER_DOUBLE_QUOTED; rewrite A1, A2, A3; acts; reflexivity|reflexivity]|]);
      unfold tag_at; cbn; repeat split; reflexivity.
    + intros l' Hl'. destruct (IH _ _ Hl') as (l'' & E & H). exists l''. split; [exact E|]. rewrite <- app_assoc in H. exact H.
Qed.

Lemma doctype_name_chars la tok a o s : Forall name_char s -> forall b l, tag_at DOCTYPE_NAME la tok a b o l ->
  exists l', feed sink s l = Ok l' /\ tag_at DOCTYPE_NAME la tok a (b ++ s) o l'.
Proof.
  induction 1 as [|c s (A5 & A6 & A3 & A4 & A7 & _) Hs IH]; intros b l Hl.
  - exists l. split; [reflexivity|]. now rewrite app_nil_r.
  - apply feed_cons_then with (P := tag_at DOCTYPE_NAME la tok a (b ++ [c]) o).
    + destruct Hl as (Hst & Hb & Hp & Hl & Ho & Ht & Ha). destruct l as [st' re tok' la' ch bu te pe fo ma at_ ag out].
      cbn in Hst, Hb, Hp, Hl, Ho, Ht, Ha. subst. apply N.eqb_neq in A3, A4, A7.
      eexists; split; [apply once; [unfold step, clear_again; cbn [l_state]; unfold on_DOCTYPE_NAME; rewrite A4, A5, A6, A7; acts; reflexivity|reflexivity]|].
      unfold tag_at. cbn. repeat split; reflexivity.
    + intros l' Hl'. destruct (IH _ _ Hl') as (l'' & E & H). exists l''. split; [exact E|]. rewrite <- app_assoc in H. exact H.
Qed.

Lemma full_doctype_run la o name pub sys l :
  doctype_ok name -> Forall id_char pub -> Forall id_char sys -> text_at DATA la o l ->
  exists l', feed sink (of_string "<!DOCTYPE " ++ name ++ of_string " PUBLIC " ++ [34] ++ pub ++ [34; 32; 34] ++ sys ++ [34; 62]) l = Ok l' /\
    text_at DATA la (full_doctype name (Some pub) (Some sys) :: o) l'.
Proof.
  intros [Hne Hs] Hpub Hsys Hl. destruct Hs as [|c s (A5 & A6 & A3 & A4 & A7 & _) Hs]; [contradiction Hne; reflexivity|]. clear Hne.
  eapply feed_then with (P := text_at BEFORE_DOCTYPE_NAME la o).
  { destruct Hl as (Hst & Hb & Hp & Hl & Ho). destruct l as [st' re tok la' ch bu te pe fo ma at_ ag out].
    cbn in Hst, Hb, Hp, Hl, Ho. subst. eexists. split; [vm_compute; reflexivity|]. unfold text_at. cbn. auto. }
  clear l Hl. intros l Hl. cbn [app].
  apply feed_cons_then with (P := fun l => exists a, tag_at DOCTYPE_NAME la (new_token T_DOCTYPE) a [c] o l).
  { destruct Hl as (Hst & Hb & Hp & Hl & Ho). destruct l as [st' re tok la' ch bu te pe fo ma at_ ag out].
    cbn in Hst, Hb, Hp, Hl, Ho. subst. apply N.eqb_neq in A3, A4, A7.
    destruct at_; (eexists; split; [apply once; [unfold step, clear_again; cbn [l_state]; unfold on_BEFORE_DOCTYPE_NAME; rewrite A4, A5, A6, A7; acts; reflexivity|reflexivity]|]);
    eexists; unfold tag_at; cbn; repeat split; reflexivity. }
  clear l Hl. intros l [a Hl].
  eapply feed_then; [eapply doctype_name_chars; [exact Hs|exact Hl]|]. clear l Hl. intros l Hl. change ([c] ++ s) with (c :: s) in Hl.
  change (34 :: pub ++ 34 :: 32 :: 34 :: sys ++ [34; 62]) with ([34] ++ pub ++ [34; 32; 34] ++ sys ++ [34; 62]).
  rewrite app_assoc.
  apply feed_then with (P := tag_at DOCTYPE_PUBLIC_IDENTIFIER_DOUBLE_QUOTED la (full_doctype (c :: s) None None) a [] o).
  { destruct Hl as (Hst & Hb & Hp & Hl & Ho & Ht & Ha). destruct l as [st' re tok' la' ch bu te pe fo ma at_ ag out].
    cbn in Hst, Hb, Hp, Hl, Ho, Ht, Ha. subst. eexists. split; [vm_compute; reflexivity|]. unfold tag_at. cbn. repeat split; reflexivity. }
  clear l Hl. intros l Hl.
  eapply feed_then; [apply id_chars; [left; reflexivity|exact Hpub|exact Hl]|]. clear l Hl. intros l Hl. change ([] ++ pub) with pub in Hl.
  apply feed_then with (P := tag_at DOCTYPE_SYSTEM_IDENTIFIER_DOUBLE_QUOTED la (full_doctype (c :: s) (Some pub) None) a [] o).
  { destruct Hl as (Hst & Hb & Hp & Hl & Ho & Ht & Ha). destruct l as [st' re tok' la' ch bu te pe fo ma at_ ag out].
    cbn in Hst, Hb, Hp, Hl, Ho, Ht, Ha. subst. eexists. split; [vm_compute; reflexivity|]. unfold tag_at. cbn. repeat split; reflexivity. }
  clear l Hl. intros l Hl.
  eapply feed_then; [apply id_chars; [right; reflexivity|exact Hsys|exact Hl]|]. clear l Hl. intros l Hl. change ([] ++ sys) with sys in Hl.
  destruct Hl as (Hst & Hb & Hp & Hl & Ho & Ht & Ha). destruct l as [st' re tok' la' ch bu te pe fo ma at_ ag out].
  cbn in Hst, Hb, Hp, Hl, Ho, Ht, Ha. subst. eexists. split; [vm_compute; reflexivity|]. unfold text_at. cbn. repeat split; reflexivity.
Qed.
End Sink.
