(* Laying out a tame box gives the fragments one would draw from the boxes. *)
From Coq Require Import List Arith ZArith Bool Permutation Lia.
From Verif Require Import Paint.PaintModel Paint.PaintSpec.
Import ListNotations.
Local Open Scope list_scope.

(* ---- Induction ------------------------------------------------------------ *)

Lemma box_ind' (P : box -> Prop) :
  (forall id k s p ks, Forall P ks -> P (Box id k s p ks)) -> forall b, P b.
Proof.
  intros H. fix IH 1. intros [id k s p ks]. apply H.
  induction ks as [|c ks IHk]; constructor; [apply IH | exact IHk].
Qed.

Lemma pend_ind' (P : pend -> Prop) :
  (forall id s f st fi c, Forall P st -> P (Pend id s f st fi c)) -> forall p, P p.
Proof.
  intros H. fix IH 1. intros [id s f st fi c]. apply H.
  induction st as [|q st IHs]; constructor; [apply IH | exact IHs].
Qed.

Lemma everywhere_at (P : box -> Prop) b : everywhere P b -> P b.
Proof. destruct b; simpl; tauto. Qed.

Lemma everywhere_kids (P : box -> Prop) b : everywhere P b -> Forall (everywhere P) (b_kids b).
Proof.
  destruct b as [i k s p ks]. simpl. intros [_ H].
  induction ks as [|c ks IH]; constructor; [apply H | apply IH, H].
Qed.

Lemma everywhere_intro (P : box -> Prop) b : P b -> Forall (everywhere P) (b_kids b) -> everywhere P b.
Proof.
  destruct b as [i k s p ks]. simpl. intros H1 H2. split; [exact H1|].
  clear H1. induction H2; [exact I | split; assumption].
Qed.

(* ---- What is left out of flow --------------------------------------------- *)

Definition is_frag (f : frag) : Prop := match f with Frag _ _ _ _ _ => True | _ => False end.
Definition straight (f : frag) : Prop := match f with Frag _ _ _ false _ => True | _ => False end.
Definition flagged (f : frag) : Prop := match f with Frag _ _ _ true _ => True | _ => False end.

Fixpoint owed (p : pend) : list nat :=
  match p with Pend id _ _ st fi _ => id :: map fst fi ++ flat_map owed st end.
Fixpoint loose (p : pend) : list style :=
  match p with Pend _ s _ st _ _ => s :: flat_map loose st end.
Fixpoint sound (p : pend) : Prop :=
  match p with
  | Pend _ s f st _ c =>
      f <> [] /\ Forall is_frag f /\ c = false /\ out_of_flow s = true
      /\ (forall n, In n (flat_map loose st) -> contains s n = false)
      /\ (fix all l := match l with [] => True | q :: l' => sound q /\ all l' end) st
  end.

Lemma sound_unfold id s f st fi c :
  sound (Pend id s f st fi c) <->
  f <> [] /\ Forall is_frag f /\ c = false /\ out_of_flow s = true
  /\ (forall n, In n (flat_map loose st) -> contains s n = false) /\ Forall sound st.
Proof.
  assert (E : (fix all l := match l with [] => True | q :: l' => sound q /\ all l' end) st <-> Forall sound st).
  { induction st as [|q st IH]; [split; constructor|].
    split; [intros [A B]; constructor; [exact A | apply IH, B]
           | intros A; inversion A; subst; split; [assumption | apply IH; assumption]]. }
  simpl. rewrite E. tauto.
Qed.

Lemma loose_out p : sound p -> forall n, In n (loose p) -> out_of_flow n = true.
Proof.
  induction p as [id s f st fi c IH] using pend_ind'. intros H n.
  apply sound_unfold in H. destruct H as (_ & _ & _ & H & _ & Hs).
  cbn [loose]. intros [<-|Hn]; [exact H|].
  apply in_flat_map in Hn. destruct Hn as (q & Hq & Hn).
  rewrite Forall_forall in IH, Hs. exact (IH q Hq (Hs q Hq) n Hn).
Qed.

Lemma flat_map_ext_in {A B} (f g : A -> list B) l :
  (forall x, In x l -> f x = g x) -> flat_map f l = flat_map g l.
Proof.
  induction l as [|x l IH]; intros H; [reflexivity|]. cbn.
  rewrite H by (left; reflexivity). rewrite IH; [reflexivity|]. intros; apply H; right; assumption.
Qed.

Lemma flat_map_map {A B C} (f : A -> B) (g : B -> list C) l :
  flat_map g (map f l) = flat_map (fun x => g (f x)) l.
Proof. induction l; [reflexivity|]. cbn. rewrite IHl. reflexivity. Qed.

Lemma existsb_map {A B} (f : A -> B) g l : existsb g (map f l) = existsb (fun x => g (f x)) l.
Proof. induction l; [reflexivity|]. cbn. rewrite IHl. reflexivity. Qed.

Lemma existsb_none {A} (f : A -> bool) l : (forall x, In x l -> f x = false) -> existsb f l = false.
Proof.
  induction l as [|x l IH]; intros H; [reflexivity|]. cbn.
  rewrite H by (left; reflexivity). apply IH. intros; apply H; right; assumption.
Qed.

Lemma Forall_flat_map {A B} (P : B -> Prop) (f : A -> list B) l :
  (forall x, In x l -> Forall P (f x)) -> Forall P (flat_map f l).
Proof.
  intros H. apply Forall_forall. intros y Hy. apply in_flat_map in Hy. destruct Hy as (x & Hx & Hy).
  specialize (H x Hx). rewrite Forall_forall in H. exact (H y Hy).
Qed.

Lemma map_fst_flat {A B C} (f : A -> list (B * C)) l :
  map fst (flat_map f l) = flat_map (fun x => map fst (f x)) l.
Proof. induction l as [|x l IH]; [reflexivity|]. cbn. rewrite map_app, IH. reflexivity. Qed.

Lemma settle_facts can h p : sound p ->
  let o := settle can h p in
  o_crash o = false /\ Forall sound (o_stash o) /\ Forall flagged (o_frags o)
  /\ (forall x, In x (owed p) -> In x (map fst (o_filled o)) \/ In x (flat_map owed (o_stash o)))
  /\ (forall x, In x (map fst (o_filled o)) -> In x (owed p))
  /\ (forall x, In x (flat_map owed (o_stash o)) -> In x (owed p)).
Proof.
  induction p as [id s f st fi c IH] using pend_ind'. intros Hp.
  pose proof Hp as H. apply sound_unfold in H. destruct H as (Hf & Hfr & Hc & Ho & Hl & Hs).
  cbn [settle]. destruct (can s); cbn [o_crash o_stash o_frags o_filled].
  - rewrite Forall_forall in IH, Hs.
    assert (K : forall q, In q st -> _) by (intros q Hq; exact (IH q Hq (Hs q Hq))).
    cbv zeta in K.
    cbn [map fst]. rewrite !map_app, map_fst_flat. repeat apply conj.
    + rewrite Hc, existsb_map, existsb_none; [destruct f; [congruence | reflexivity]|].
      intros q Hq. exact (proj1 (K q Hq)).
    + rewrite flat_map_map. apply Forall_flat_map. intros q Hq. exact (proj1 (proj2 (K q Hq))).
    + apply Forall_app. split.
      * clear -Hfr. induction Hfr as [|g l Hg]; [constructor|]. cbn. constructor; [|assumption].
        destruct g; [exact I | contradiction].
      * rewrite flat_map_map. apply Forall_flat_map. intros q Hq. exact (proj1 (proj2 (proj2 (K q Hq)))).
    + intros x Hx. cbn [owed] in Hx. destruct Hx as [<-|Hx]; [left; left; reflexivity|].
      apply in_app_or in Hx. destruct Hx as [Hx|Hx]; [left; right; apply in_or_app; left; exact Hx|].
      apply in_flat_map in Hx. destruct Hx as (q & Hq & Hx).
      destruct (proj1 (proj2 (proj2 (proj2 (K q Hq)))) x Hx) as [H|H].
      * left. right. apply in_or_app. right. rewrite flat_map_map. apply in_flat_map. exists q. split; assumption.
      * right. rewrite flat_map_map. apply in_flat_map in H. destruct H as (r & Hr & H).
        apply in_flat_map. exists r. split; [|exact H]. apply in_flat_map. exists q. split; assumption.
    + intros x [<-|Hx]; [left; reflexivity|]. apply in_app_or in Hx. cbn [owed]. right. apply in_or_app.
      destruct Hx as [Hx|Hx]; [left; exact Hx|]. right. rewrite flat_map_map in Hx.
      apply in_flat_map in Hx. destruct Hx as (q & Hq & Hx). apply in_flat_map. exists q. split; [exact Hq|].
      exact (proj1 (proj2 (proj2 (proj2 (proj2 (K q Hq))))) x Hx).
    + intros x Hx. cbn [owed]. right. apply in_or_app. right. rewrite flat_map_map in Hx.
      apply in_flat_map in Hx. destruct Hx as (r & Hr & Hx). apply in_flat_map in Hr. destruct Hr as (q & Hq & Hr).
      apply in_flat_map. exists q. split; [exact Hq|]. apply (proj2 (proj2 (proj2 (proj2 (proj2 (K q Hq)))))).
      apply in_flat_map. exists r. split; assumption.
  - repeat apply conj.
    + reflexivity.
    + constructor; [exact Hp | constructor].
    + constructor.
    + intros x Hx. right. cbn. rewrite app_nil_r. exact Hx.
    + intros x [].
    + intros x Hx. cbn in Hx. rewrite app_nil_r in Hx. exact Hx.
Qed.

Lemma contains_fixed s n :
  out_of_flow s = true -> out_of_flow n = true -> contains s n = false -> s_pos n = FIXED.
Proof.
  unfold out_of_flow, contains. destruct (s_pos s), (s_pos n); cbn; try discriminate; reflexivity.
Qed.

Lemma settle_loose X h p : sound p ->
  forall n, In n (flat_map loose (o_stash (settle (contains X) h p))) -> In n (loose p) /\ contains X n = false.
Proof.
  induction p as [id s f st fi c IH] using pend_ind'. intros Hp n.
  pose proof Hp as H. apply sound_unfold in H. destruct H as (Hf & Hfr & Hc & Ho & Hl & Hs).
  cbn [settle]. destruct (contains X s) eqn:E; cbn [o_stash].
  - rewrite flat_map_map. intros Hn. apply in_flat_map in Hn. destruct Hn as (r & Hr & Hn).
    apply in_flat_map in Hr. destruct Hr as (q & Hq & Hr).
    rewrite Forall_forall in IH, Hs.
    destruct (IH q Hq (Hs q Hq) n) as [A B].
    { apply in_flat_map. exists r. split; assumption. }
    split; [|exact B]. cbn [loose]. right. apply in_flat_map. exists q. split; assumption.
  - cbn. rewrite app_nil_r. intros Hn. split; [exact Hn|]. destruct Hn as [<-|Hn]; [exact E|].
    assert (On : out_of_flow n = true).
    { apply in_flat_map in Hn. destruct Hn as (q & Hq & Hn). rewrite Forall_forall in Hs.
      exact (loose_out q (Hs q Hq) n Hn). }
    pose proof (contains_fixed s n Ho On (Hl n Hn)) as F.
    unfold contains in *. rewrite F. unfold out_of_flow in Ho.
    destruct (s_pos s); try discriminate.
    + apply orb_false_iff in E. tauto.
    + exact E.
Qed.

(* ---- Fragments without placeholders --------------------------------------- *)

(* The fragments one would draw from a box. *)
Definition fkind_of (k : kind) (paints : bool) : fkind :=
  match k with
  | BLOCK | FLEX | TABLE => FBox paints false
  | LINES | REPLACED => FBox paints true
  | SVG => FSvg paints
  | SHAPE => FShape paints
  | GROUP | PART => FGroup
  end.

Fixpoint images (b : box) : list frag :=
  match b with
  | Box id k s paints kids =>
      let ks := flat_map (fun c => if running c then [] else images c) kids in
      match k with PART => ks | _ => [Frag id (fkind_of k paints) s false ks] end
  end.

Definition frag_pos (f : frag) : position :=
  match f with Frag _ _ s _ _ => s_pos s | Place _ s _ => s_pos s end.

Section Same.
Variable fil : nat -> bool.

Inductive same : frag -> frag -> Prop :=
  | same_frag i k s o ks gs :
      sames ks gs -> (match k with FBox _ _ => True | _ => Forall straight ks end) ->
      same (Frag i k s o ks) (Frag i k s false gs)
with sames : list frag -> list frag -> Prop :=
  | sames_nil : sames [] []
  | sames_oof f fs gs : flagged f -> sames fs gs -> sames (f :: fs) gs
  | sames_cons f g fs gs : straight f -> same f g -> sames fs gs -> sames (f :: fs) (g :: gs)
  | sames_place id s f g fs gs :
      fil id = true -> is_frag f -> same f g -> frag_pos g <> STATIC -> sames fs gs ->
      sames (Place id s [f] :: fs) (g :: gs).

Scheme same_mut := Induction for same Sort Prop
  with sames_mut := Induction for sames Sort Prop.

Definition unflag (f : frag) : frag :=
  match f with Frag i k s _ ks => Frag i k s false ks | _ => f end.

Lemma go_place i s id k s' o ks p :
  fil i = true -> s_pos s' <> STATIC ->
  go fil (Visit p) (Place i s [Frag id k s' o ks]) = go fil (Visit p) (Frag id k s' false ks).
Proof.
  intros H1 H2. cbn [go]. rewrite H1.
  assert (E : is_static s' = false) by (unfold is_static; destruct (s_pos s'); try reflexivity; congruence).
  rewrite E. cbn [negb]. reflexivity.
Qed.

Lemma same_go f g : same f g ->
  (forall m, match m with Visit _ => True | _ => go fil m f = go (fun _ => true) m g end)
  /\ (forall p, go fil (Visit p) (unflag f) = go (fun _ => true) (Visit p) g).
Proof.
  intros H. pattern f, g, H.
  apply same_mut with
    (P0 := fun fs gs _ =>
       (forall p, flat_map (go fil (Visit p)) fs = flat_map (go (fun _ => true) (Visit p)) gs)
       /\ (Forall straight fs -> flat_map (go fil InSvg) fs = flat_map (go (fun _ => true) InSvg) gs));
    clear f g H.
  - intros i k s o ks gs _ [H1 H2] HS.
    assert (HP : flat_map (fun p => flat_map (go fil (Visit p)) ks) passes
                 = flat_map (fun p => flat_map (go (fun _ => true) (Visit p)) gs) passes).
    { apply flat_map_ext_in. intros p _. apply H1. }
    assert (HK : match k with FBox _ _ => True | _ => flat_map (go fil InSvg) ks = flat_map (go (fun _ => true) InSvg) gs end).
    { destruct k; [exact I | | |]; apply H2; exact HS. }
    split.
    + intros [p| |]; [exact I| |].
      * cbn [go]. cbv zeta. destruct k; [rewrite HP | rewrite HK | reflexivity | rewrite HK]; reflexivity.
      * cbn [go]. cbv zeta. destruct k; [rewrite HP | rewrite HK | rewrite HP | rewrite HP]; reflexivity.
    + intros p. unfold unflag. cbn [go]. cbv zeta.
      destruct k; [rewrite HP, H1 | rewrite HK | rewrite HP, H1 | rewrite HP, H1]; reflexivity.
  - split; reflexivity.
  - intros f fs gs Hf _ [H1 H2]. destruct f as [i k s o ks|]; [|contradiction]. destruct o; [|contradiction].
    split.
    + intros p. cbn [flat_map]. rewrite <- H1. reflexivity.
    + intros HS. inversion HS; subst. contradiction.
  - intros f g fs gs Hf _ [A1 A2] _ [H1 H2]. destruct f as [i k s o ks|]; [|contradiction]. destruct o; [contradiction|].
    split.
    + intros p. cbn [flat_map]. rewrite <- H1. f_equal. exact (A2 p).
    + intros HS. inversion HS; subst. cbn [flat_map]. rewrite <- H2 by assumption. f_equal. exact (A1 InSvg).
  - intros id s f g fs gs Hi Hf HS [A1 A2] Hg _ [H1 H2]. split.
    + intros p. cbn [flat_map]. rewrite <- H1. f_equal. rewrite <- A2.
      destruct f as [i k s' o ks|]; [|contradiction]. unfold unflag. apply go_place; [exact Hi|].
      inversion HS; subst. exact Hg.
    + intros X. inversion X; subst. contradiction.
Qed.

Lemma sames_app a b c d : sames a c -> sames b d -> sames (a ++ b) (c ++ d).
Proof.
  intros H1 H2. induction H1; cbn; [exact H2 | | |].
  - apply sames_oof; assumption.
  - apply sames_cons; assumption.
  - apply sames_place; assumption.
Qed.

Lemma sames_flagged fs : Forall flagged fs -> sames fs [].
Proof. induction 1; [constructor | apply sames_oof; assumption]. Qed.
End Same.

(* ---- Layout of tame boxes ------------------------------------------------- *)

Definition well_laid (t : bool) (b : box) : Prop :=
  let o := lay t b in
  o_crash o = false
  /\ Forall sound (o_stash o)
  /\ (b_kind b <> PART -> exists f, o_frags o = [f])
  /\ Forall straight (o_frags o)
  /\ (forall n, In n (flat_map loose (o_stash o)) -> In n (escaping b))
  /\ (forall fil, (forall x, In x (map fst (o_filled o)) -> fil x = true) ->
                  (forall x, In x (flat_map owed (o_stash o)) -> fil x = true) ->
                  sames fil (o_frags o) (images b)).

(* What a kid adds to the box it is in. *)
Definition well_child (c : box) (o : out) : Prop :=
  o_crash o = false
  /\ Forall sound (o_stash o)
  /\ (forall n, In n (flat_map loose (o_stash o)) ->
        In n (if running c then [] else (if out_of_flow (b_style c) then [b_style c] else []) ++ escaping c))
  /\ (forall fil, (forall x, In x (map fst (o_filled o)) -> fil x = true) ->
                  (forall x, In x (flat_map owed (o_stash o)) -> fil x = true) ->
                  sames fil (o_frags o) (if running c then [] else images c)).

Lemma contains_self c n : well_laid false c -> b_kind c <> PART ->
  In n (flat_map loose (o_stash (lay false c))) -> contains (b_style c) n = false.
Proof.
  intros (_ & _ & _ & _ & H & _) Hk Hn. specialize (H n Hn).
  destruct c as [i k s p ks]. cbn [b_style b_kind] in *.
  destruct k; cbn [escaping] in H; try contradiction; try congruence;
    apply filter_In in H; destruct H as [_ H]; apply negb_true_iff in H; exact H.
Qed.

Lemma images_one c : b_kind c <> PART -> exists g, images c = [g] /\ frag_pos g = s_pos (b_style c).
Proof.
  destruct c as [i k s p ks]. cbn [b_kind images b_style]. intros H.
  destruct k; try congruence; eexists; split; reflexivity.
Qed.

Lemma pending_child c : well_laid false c -> b_kind c <> PART -> out_of_flow (b_style c) = true -> running c = false ->
  well_child c (mkOut [placeholder c (lay false c)] [pending c (lay false c)] [] false).
Proof.
  intros W Hk Ho Hr. pose proof (contains_self c) as CS.
  destruct W as (W1 & W2 & W3 & W4 & W5 & W6) eqn:EW. clear EW.
  destruct (W3 Hk) as [f Ef].
  unfold well_child. cbn [o_crash o_stash o_frags o_filled]. rewrite Hr, Ho.
  assert (Hfr : is_frag f).
  { rewrite Ef in W4. inversion W4; subst. destruct f; [exact I | contradiction]. }
  repeat apply conj.
  - reflexivity.
  - constructor; [|constructor]. unfold pending. apply sound_unfold. rewrite Ef. repeat apply conj.
    + discriminate.
    + constructor; [exact Hfr | constructor].
    + exact W1.
    + exact Ho.
    + intros n Hn. apply CS; [|exact Hk | exact Hn]. unfold well_laid. auto 10.
    + exact W2.
  - intros n Hn. cbn in Hn. rewrite app_nil_r in Hn. destruct Hn as [<-|Hn]; [left; reflexivity|].
    right. exact (W5 n Hn).
  - intros fil _ Hw. cbn [flat_map] in Hw. rewrite app_nil_r in Hw. unfold pending in Hw. cbn [owed] in Hw.
    unfold placeholder. rewrite Ef. destruct (images_one c Hk) as (g & Eg & Pg). rewrite Eg.
    assert (S : sames fil [f] [g]).
    { rewrite <- Ef, <- Eg. apply W6.
      - intros x Hx. apply Hw. right. apply in_or_app. left. exact Hx.
      - intros x Hx. apply Hw. right. apply in_or_app. right. exact Hx. }
    apply sames_place.
    + apply Hw. left. reflexivity.
    + exact Hfr.
    + inversion S; subst; try assumption.
      * rewrite Ef in W4. inversion W4; subst. destruct f; [|contradiction]. destruct oof; contradiction.
      * contradiction.
    + rewrite Pg. unfold out_of_flow in Ho. destruct (s_pos (b_style c)); congruence.
    + constructor.
Qed.

Lemma plain_child c : well_laid false c -> out_of_flow (b_style c) = false -> running c = false ->
  well_child c (lay false c).
Proof.
  intros (W1 & W2 & W3 & W4 & W5 & W6) Ho Hr. unfold well_child. rewrite Hr, Ho. cbn [app]. auto 10.
Qed.

Lemma block_child_well c : well_laid false c -> b_kind c <> PART -> well_child c (block_child c (lay false c)).
Proof.
  intros W Hk. unfold block_child.
  assert (P : s_pos (b_style c) <> RUNNING -> running c = false)
    by (unfold running; destruct (s_pos (b_style c)); try reflexivity; congruence).
  destruct (s_pos (b_style c)) eqn:E.
  - apply plain_child; [exact W | unfold out_of_flow; rewrite E; reflexivity | apply P; discriminate].
  - apply plain_child; [exact W | unfold out_of_flow; rewrite E; reflexivity | apply P; discriminate].
  - apply pending_child; [exact W | exact Hk | unfold out_of_flow; rewrite E; reflexivity | apply P; discriminate].
  - apply pending_child; [exact W | exact Hk | unfold out_of_flow; rewrite E; reflexivity | apply P; discriminate].
  - apply plain_child; [exact W | unfold out_of_flow; rewrite E; reflexivity | apply P; discriminate].
  - assert (R : running c = true) by (unfold running; rewrite E; reflexivity).
    unfold well_child, none. rewrite R. cbn. repeat apply conj; [reflexivity | constructor | intros n [] | intros; constructor].
Qed.

Lemma line_child_well c : well_laid false c -> b_kind c <> PART -> running c = false ->
  well_child c (line_child c (lay false c)).
Proof.
  intros W Hk Hr. unfold line_child. destruct (out_of_flow (b_style c)) eqn:E.
  - apply pending_child; assumption.
  - apply plain_child; assumption.
Qed.

Lemma gather_well (kids : list box) (h : box -> out) :
  (forall c, In c kids -> well_child c (h c)) ->
  let o := gather (map h kids) in
  o_crash o = false /\ Forall sound (o_stash o)
  /\ (forall n, In n (flat_map loose (o_stash o)) ->
        In n (flat_map (fun c => if running c then [] else (if out_of_flow (b_style c) then [b_style c] else []) ++ escaping c) kids))
  /\ (forall fil, (forall x, In x (map fst (o_filled o)) -> fil x = true) ->
                  (forall x, In x (flat_map owed (o_stash o)) -> fil x = true) ->
                  sames fil (o_frags o) (flat_map (fun c => if running c then [] else images c) kids)).
Proof.
  intros H. unfold gather. cbn [o_crash o_stash o_frags o_filled].
  rewrite existsb_map, !flat_map_map. repeat apply conj.
  - apply existsb_none. intros c Hc. exact (proj1 (H c Hc)).
  - apply Forall_flat_map. intros c Hc. exact (proj1 (proj2 (H c Hc))).
  - intros n Hn. apply in_flat_map in Hn. destruct Hn as (q & Hq & Hn). apply in_flat_map in Hq.
    destruct Hq as (c & Hc & Hq). apply in_flat_map. exists c. split; [exact Hc|].
    apply (proj1 (proj2 (proj2 (H c Hc)))). apply in_flat_map. exists q. split; assumption.
  - intros fil. induction kids as [|c kids IH]; intros F1 F2; [constructor|]. cbn [flat_map] in *.
    apply sames_app.
    + apply (proj2 (proj2 (proj2 (H c (or_introl eq_refl))))).
      * intros x Hx. apply F1. rewrite map_app. apply in_or_app. left. exact Hx.
      * intros x Hx. apply F2. rewrite flat_map_app. apply in_or_app. left. exact Hx.
    + apply IH.
      * intros d Hd. apply H. right. exact Hd.
      * intros x Hx. apply F1. rewrite map_app. apply in_or_app. right. exact Hx.
      * intros x Hx. apply F2. rewrite flat_map_app. apply in_or_app. right. exact Hx.
Qed.

(* The fragment of a box with its children, once the box has looked at what is
   out of flow in it. *)
Lemma settled_well id k s paints kids (o : out) :
  match k with TABLE | SVG | GROUP | SHAPE | REPLACED | PART => o_stash o = [] | _ => True end ->
  k <> SVG -> k <> SHAPE -> k <> GROUP -> k <> PART ->
  o_crash o = false -> Forall sound (o_stash o) ->
  (forall n, In n (flat_map loose (o_stash o)) ->
     In n (flat_map (fun c => if running c then [] else (if out_of_flow (b_style c) then [b_style c] else []) ++ escaping c) kids)) ->
  (forall fil, (forall x, In x (map fst (o_filled o)) -> fil x = true) ->
               (forall x, In x (flat_map owed (o_stash o)) -> fil x = true) ->
               sames fil (o_frags o) (flat_map (fun c => if running c then [] else images c) kids)) ->
  forall t, lay t (Box id k s paints kids)
            = settle_all (contains s) (Some id) (mkOut [Frag id (fkind_of k paints) s false (o_frags o)] (o_stash o) (o_filled o) (o_crash o)) ->
  well_laid t (Box id k s paints kids).
Proof.
  intros K0 K1 K2 K3 K4 Hc Hs Hl Hf t E. unfold well_laid. rewrite E. unfold settle_all.
  cbn [o_crash o_stash o_frags o_filled map].
  rewrite Forall_forall in Hs.
  assert (S : forall q, In q (o_stash o) -> _) by (intros q Hq; exact (settle_facts (contains s) (Some id) q (Hs q Hq))).
  cbv zeta in S. repeat apply conj.
  - rewrite Hc, existsb_map, existsb_none; [reflexivity|]. intros q Hq. exact (proj1 (S q Hq)).
  - rewrite flat_map_map. apply Forall_flat_map. intros q Hq. exact (proj1 (proj2 (S q Hq))).
  - intros _. eexists. reflexivity.
  - constructor; [exact I | constructor].
  - intros n Hn. rewrite flat_map_map in Hn. apply in_flat_map in Hn. destruct Hn as (r & Hr & Hn).
    apply in_flat_map in Hr. destruct Hr as (q & Hq & Hr).
    destruct (settle_loose s (Some id) q (Hs q Hq) n) as [A B].
    { apply in_flat_map. exists r. split; assumption. }
    assert (G : In n (flat_map (fun c => if running c then [] else (if out_of_flow (b_style c) then [b_style c] else []) ++ escaping c) kids)).
    { apply Hl. apply in_flat_map. exists q. split; assumption. }
    destruct k; try congruence; cbn [escaping]; try (rewrite K0 in Hq; contradiction);
      apply filter_In; (split; [exact G | rewrite B; reflexivity]).
  - intros fil F1 F2.
    assert (Q : sames fil (o_frags o) (flat_map (fun c => if running c then [] else images c) kids)).
    { apply Hf.
      - intros x Hx. apply F1. rewrite map_app. apply in_or_app. left. exact Hx.
      - intros x Hx. apply in_flat_map in Hx. destruct Hx as (q & Hq & Hx).
        destruct (proj1 (proj2 (proj2 (proj2 (S q Hq)))) x Hx) as [G|G].
        + apply F1. rewrite map_app. apply in_or_app. right. rewrite flat_map_map, map_fst_flat. apply in_flat_map. exists q. split; assumption.
        + apply F2. rewrite flat_map_map. apply in_flat_map in G. destruct G as (r & Hr & G).
          apply in_flat_map. exists r. split; [|exact G]. apply in_flat_map. exists q. split; assumption. }
    assert (R : sames fil (o_frags o ++ flat_map o_frags (map (settle (contains s) (Some id)) (o_stash o)))
                  (flat_map (fun c => if running c then [] else images c) kids)).
    { rewrite <- (app_nil_r (flat_map (fun c => if running c then [] else images c) kids)).
      apply sames_app; [exact Q|]. apply sames_flagged. rewrite flat_map_map. apply Forall_flat_map.
      intros q Hq. exact (proj1 (proj2 (proj2 (S q Hq)))). }
    cbn [images]. destruct k; try congruence;
      (apply sames_cons; [exact I | apply same_frag; [exact R | exact I] | constructor]).
Qed.

Lemma flex_plain kos :
  (forall ko, In ko kos -> out_of_flow (b_style (fst ko)) = false /\ s_float (b_style (fst ko)) = false) ->
  let o := flex_children kos in
  let i := gather (map (fun ko => if running (fst ko) then none else snd ko) kos) in
  o_frags o = o_frags i /\ o_stash o = o_stash i
  /\ ((o_filled o = o_filled i /\ o_crash o = o_crash i) ).
Proof.
  intros H. unfold flex_children.
  assert (E : filter (fun ko : box * out => out_of_flow (b_style (fst ko))) kos = []).
  { clear -H. induction kos as [|x l IH]; [reflexivity|]. cbn.
    rewrite (proj1 (H x (or_introl eq_refl))). apply IH. intros; apply H; right; assumption. }
  rewrite E. cbn [map].
  assert (G : gather (map (fun ko : box * out => if running (fst ko) then none else snd ko) kos)
              = gather (map snd (filter (fun ko : box * out => negb (removed (b_style (fst ko)))) kos))).
  { clear -H. unfold gather. induction kos as [|x l IH]; [reflexivity|].
    assert (IH' := IH (fun ko h => H ko (or_intror h))). clear IH.
    destruct (H x (or_introl eq_refl)) as [A B].
    cbn [map filter]. unfold removed. rewrite B. cbn [orb].
    replace (running (fst x)) with (pos_eqb (s_pos (b_style (fst x))) RUNNING) by reflexivity.
    unfold out_of_flow in A. destruct (s_pos (b_style (fst x))); cbn [pos_eqb negb]; try discriminate A;
      cbn [flat_map existsb map none o_frags o_stash o_filled o_crash app orb];
      injection IH' as I1 I2 I3 I4; rewrite ?I1, ?I2, ?I3, ?I4; reflexivity. }
  cbv zeta. rewrite G.
  destruct (map snd (filter (fun ko : box * out => negb (removed (b_style (fst ko)))) kos)) as [|x l] eqn:F.
  - cbn. auto.
  - cbn [o_frags o_stash o_filled o_crash]. rewrite app_nil_r. auto.
Qed.

Lemma escaping_nil_stash t c : well_laid t c -> escaping c = [] -> o_stash (lay t c) = [].
Proof.
  intros (_ & _ & _ & _ & H & _) E. rewrite E in H.
  destruct (o_stash (lay t c)) as [|q l]; [reflexivity|]. exfalso. destruct q as [i s f st fi cr].
  apply (H s). cbn. left. reflexivity.
Qed.

(* Boxes whose kids leave nothing out of flow: tables, parts of them, SVGs. *)
Lemma direct_kids (kids : list box) t :
  (forall c, In c kids -> well_laid t c /\ running c = false /\ escaping c = []) ->
  let o := gather (map snd (map (fun c => (c, lay t c)) kids)) in
  o_crash o = false /\ o_stash o = [] /\ Forall straight (o_frags o)
  /\ (forall fil, (forall x, In x (map fst (o_filled o)) -> fil x = true) ->
                  sames fil (o_frags o) (flat_map (fun c => if running c then [] else images c) kids)).
Proof.
  intros H. unfold gather. rewrite map_map. cbn [snd o_crash o_stash o_frags o_filled].
  rewrite existsb_map, !flat_map_map. repeat apply conj.
  - apply existsb_none. intros c Hc. exact (proj1 (proj1 (H c Hc))).
  - induction kids as [|c kids IH]; [reflexivity|]. cbn [flat_map].
    rewrite (escaping_nil_stash t c) by apply H, or_introl, eq_refl.
    apply IH. intros d Hd. apply H. right. exact Hd.
  - apply Forall_flat_map. intros c Hc. exact (proj1 (proj2 (proj2 (proj2 (proj1 (H c Hc)))))).
  - intros fil. induction kids as [|c kids IH]; intros F; [constructor|]. cbn [flat_map] in *.
    destruct (H c (or_introl eq_refl)) as (W & Hr & He). rewrite Hr. apply sames_app.
    + apply (proj2 (proj2 (proj2 (proj2 (proj2 W))))).
      * intros x Hx. apply F. rewrite map_app. apply in_or_app. left. exact Hx.
      * rewrite (escaping_nil_stash t c W He). intros x [].
    + apply IH; [intros d Hd; apply H; right; exact Hd|]. intros x Hx. apply F. rewrite map_app. apply in_or_app. right. exact Hx.
Qed.

Lemma tame_laid b : everywhere tame_box b -> forall t, (b_kind b = PART -> t = true) -> well_laid t b.
Proof.
  induction b as [id k s paints kids IH] using box_ind'. intros HT t Ht.
  pose proof (everywhere_at _ _ HT) as T. pose proof (everywhere_kids _ _ HT) as TK.
  cbn [b_kids] in TK. rewrite Forall_forall in IH, TK.
  assert (W : forall c, In c kids -> forall t, (b_kind c = PART -> t = true) -> well_laid t c)
    by (intros c Hc; exact (IH c Hc (TK c Hc))).
  destruct T as (Tf & Tz & T). cbn [b_kind b_style b_kids] in *. unfold each in T. cbn [b_kids] in T.
  assert (N : forall c l, ~ is_kind (PART :: l) c -> b_kind c <> PART).
  { intros c l H E. apply H. left. exact (eq_sym E). }
  destruct k.
  - (* BLOCK *)
    rewrite Forall_forall in T.
    pose proof (gather_well kids (fun c => block_child c (lay false c))) as G.
    assert (G0 : forall c, In c kids -> well_child c (block_child c (lay false c))).
    { intros c Hc. apply block_child_well.
      - apply W; [exact Hc|]. intros E. exfalso. exact (N c _ (T c Hc) E).
      - exact (N c _ (T c Hc)). }
    specialize (G G0). cbv zeta in G. destruct G as (G1 & G2 & G3 & G4).
    eapply settled_well; [exact I| | | | | exact G1 | exact G2 | exact G3 | exact G4 |]; try discriminate.
    cbn [lay]. cbv zeta. rewrite map_map. cbn [fst snd]. reflexivity.
  - (* LINES *)
    rewrite Forall_forall in T.
    pose proof (gather_well kids (fun c => line_child c (lay false c))) as G.
    assert (G0 : forall c, In c kids -> well_child c (line_child c (lay false c))).
    { intros c Hc. destruct (T c Hc) as [T1 T2]. apply line_child_well.
      - apply W; [exact Hc|]. intros E. exfalso. exact (N c _ T1 E).
      - exact (N c _ T1).
      - exact T2. }
    specialize (G G0). cbv zeta in G. destruct G as (G1 & G2 & G3 & G4).
    eapply settled_well; [exact I| | | | | exact G1 | exact G2 | exact G3 | exact G4 |]; try discriminate.
    cbn [lay]. cbv zeta. rewrite map_map. cbn [fst snd]. reflexivity.
  - (* FLEX *)
    rewrite Forall_forall in T.
    pose proof (gather_well kids (fun c => if running c then none else lay false c)) as G.
    assert (G0 : forall c, In c kids -> well_child c (if running c then none else lay false c)).
    { intros c Hc. destruct (T c Hc) as [T1 T2]. destruct (running c) eqn:R.
      - unfold well_child, none. rewrite R. cbn. repeat apply conj; [reflexivity | constructor | intros n [] | intros; constructor].
      - apply plain_child; [|exact T2 | exact R]. apply W; [exact Hc|]. intros E. exfalso. exact (N c _ T1 E). }
    specialize (G G0). cbv zeta in G. destruct G as (G1 & G2 & G3 & G4).
    assert (F0 : forall ko, In ko (map (fun c => (c, lay false c)) kids) ->
                 out_of_flow (b_style (fst ko)) = false /\ s_float (b_style (fst ko)) = false).
    { intros ko Hko. apply in_map_iff in Hko. destruct Hko as (c & <- & Hc). cbn [fst].
      split; [exact (proj2 (T c Hc)) | exact (proj1 (everywhere_at _ _ (TK c Hc)))]. }
    destruct (flex_plain _ F0) as (F1 & F2 & F3 & F4). rewrite map_map in F1, F2, F3, F4. cbn [fst snd] in F1, F2, F3, F4.
    eapply settled_well with (o := gather (map (fun c => if running c then none else lay false c) kids));
      [exact I| | | | | exact G1 | exact G2 | exact G3 | exact G4 |]; try discriminate.
    cbn [lay]. cbv zeta. rewrite F1, F2, F3, F4. reflexivity.
  - (* TABLE *)
    rewrite Forall_forall in T.
    destruct (direct_kids kids true) as (D1 & D2 & D3 & D4).
    { intros c Hc. destruct (T c Hc) as (T1 & T2 & T3). split; [apply W; [exact Hc | reflexivity] | split; assumption]. }
    apply settled_well with (o := dropped (gather (map snd (map (fun c => (c, lay true c)) kids)))); try discriminate.
    + reflexivity.
    + exact D1.
    + constructor.
    + intros n [].
    + intros fil F _. apply D4. exact F.
    + reflexivity.
  - (* PART *)
    destruct T as (T & (P1 & P2 & P3 & P4 & P5) & _ & _). rewrite Forall_forall in T. rewrite (Ht eq_refl).
    destruct (direct_kids kids true) as (D1 & D2 & D3 & D4).
    { intros c Hc. destruct (T c Hc) as (T1 & T2 & T3). split; [apply W; [exact Hc | reflexivity] | split; assumption]. }
    unfold well_laid. cbn [lay]. cbv zeta. repeat apply conj.
    + exact D1.
    + rewrite D2. constructor.
    + intros X. exfalso. apply X. reflexivity.
    + exact D3.
    + rewrite D2. intros n [].
    + intros fil F _. cbn [images]. apply D4. exact F.
  - (* REPLACED *)
    subst kids. unfold well_laid. cbn. repeat apply conj.
    + reflexivity.
    + constructor.
    + intros _. eexists. reflexivity.
    + constructor; [exact I | constructor].
    + intros n [].
    + intros fil _ _. apply sames_cons; [exact I | apply same_frag; [constructor | exact I] | constructor].
  - (* SVG *)
    destruct T as [T _]. rewrite Forall_forall in T.
    destruct (direct_kids kids false) as (D1 & D2 & D3 & D4).
    { intros c Hc. destruct (T c Hc) as (T1 & T2 & T3 & _). split; [|split; assumption].
      apply W; [exact Hc|]. intros E. exfalso. exact (N c _ T1 E). }
    unfold well_laid. cbn [lay]. cbv zeta. cbn [o_crash o_stash o_frags o_filled dropped]. repeat apply conj.
    + exact D1.
    + constructor.
    + intros _. eexists. reflexivity.
    + constructor; [exact I | constructor].
    + intros n [].
    + intros fil F _. cbn [images fkind_of]. apply sames_cons; [exact I | | constructor].
      apply same_frag; [apply D4; exact F | exact D3].
  - (* SHAPE *)
    destruct T as [T _]. subst kids. unfold well_laid. cbn. repeat apply conj.
    + reflexivity.
    + constructor.
    + intros _. eexists. reflexivity.
    + constructor; [exact I | constructor].
    + intros n [].
    + intros fil _ _. apply sames_cons; [exact I | apply same_frag; [constructor | constructor] | constructor].
  - (* GROUP *)
    rewrite Forall_forall in T.
    destruct (direct_kids kids false) as (D1 & D2 & D3 & D4).
    { intros c Hc. destruct (T c Hc) as (T1 & T2 & T3 & _). split; [|split; assumption].
      apply W; [exact Hc|]. intros E. exfalso. exact (N c _ T1 E). }
    unfold well_laid. cbn [lay]. cbv zeta. cbn [o_crash o_stash o_frags o_filled dropped]. repeat apply conj.
    + exact D1.
    + constructor.
    + intros _. eexists. reflexivity.
    + constructor; [exact I | constructor].
    + intros n [].
    + intros fil F _. cbn [images fkind_of]. apply sames_cons; [exact I | | constructor].
      apply same_frag; [apply D4; exact F | exact D3].
Qed.

(* At the root everything left is settled. *)
Lemma settle_true p : sound p -> o_stash (settle (fun _ => true) None p) = [].
Proof.
  induction p as [id s f st fi c IH] using pend_ind'. intros Hp.
  apply sound_unfold in Hp. destruct Hp as (_ & _ & _ & _ & _ & Hs).
  cbn [settle o_stash]. rewrite flat_map_map.
  rewrite Forall_forall in IH, Hs.
  induction st as [|q st IHs]; [reflexivity|]. cbn [flat_map].
  rewrite (IH q (or_introl eq_refl) (Hs q (or_introl eq_refl))). apply IHs.
  - intros x Hx. apply IH. right. exact Hx.
  - intros x Hx. apply Hs. right. exact Hx.
Qed.

(* What is painted of a tame box is what is painted of the fragments drawn from
   it. *)
Theorem render_images b : tame b -> exists g, images b = [g] /\
  render b = Some (painted [] (prepare (Stack (go (fun _ => true) Context g)))).
Proof.
  intros (HT & HK & HR).
  assert (K : b_kind b <> PART) by (intros E; apply HK; left; exact (eq_sym E)).
  destruct (tame_laid b HT false) as (W1 & W2 & W3 & W4 & W5 & W6); [intros E; congruence|].
  destruct (W3 K) as [f Ef]. destruct (images_one b K) as (g & Eg & _). exists g. split; [exact Eg|].
  rewrite Forall_forall in W2.
  assert (S : forall q, In q (o_stash (lay false b)) -> _) by (intros q Hq; exact (settle_facts (fun _ => true) None q (W2 q Hq))).
  cbv zeta in S.
  unfold render, layout_root, settle_all. cbn [o_crash o_frags o_filled].
  rewrite W1, existsb_map, existsb_none by (intros q Hq; exact (proj1 (S q Hq))). cbn [orb].
  rewrite Ef. cbn [map]. rewrite Ef in W4. inversion W4 as [|? ? Hf _]; subst. destruct f as [i k s o ks|]; [|contradiction].
  destruct o; [contradiction|].
  set (fil := fun i => existsb (Nat.eqb i) (map fst (o_filled (lay false b) ++ flat_map o_filled (map (settle (fun _ => true) None) (o_stash (lay false b)))))).
  assert (FI : forall x, In x (map fst (o_filled (lay false b) ++ flat_map o_filled (map (settle (fun _ => true) None) (o_stash (lay false b))))) -> fil x = true).
  { intros x Hx. unfold fil. apply existsb_exists. exists x. split; [exact Hx | apply Nat.eqb_refl]. }
  assert (SM : sames fil [Frag i k s false ks] [g]).
  { rewrite <- Ef, <- Eg. apply W6.
    - intros x Hx. apply FI. rewrite map_app. apply in_or_app. left. exact Hx.
    - intros x Hx. apply in_flat_map in Hx. destruct Hx as (q & Hq & Hx).
      destruct (proj1 (proj2 (proj2 (proj2 (S q Hq)))) x Hx) as [G|G].
      + apply FI. rewrite map_app. apply in_or_app. right. rewrite flat_map_map, map_fst_flat. apply in_flat_map. exists q. split; assumption.
      + rewrite (settle_true q (W2 q Hq)) in G. contradiction. }
  assert (SG : same fil (Frag i k s false ks) g).
  { inversion SM; subst; [contradiction | assumption]. }
  assert (SF : same fil (Frag i k s false (ks ++ flat_map o_frags (map (settle (fun _ => true) None) (o_stash (lay false b))))) g).
  { assert (FL : Forall flagged (flat_map o_frags (map (settle (fun _ => true) None) (o_stash (lay false b))))).
    { rewrite flat_map_map. apply Forall_flat_map. intros q Hq. exact (proj1 (proj2 (proj2 (S q Hq)))). }
    inversion SG as [i' k' s' o' ks' gs Hks HS]; subst. apply same_frag.
    - rewrite <- (app_nil_r gs). apply sames_app; [exact Hks | apply sames_flagged; exact FL].
    - destruct k; try exact HS; try exact I;
        (replace (o_stash (lay false b)) with (@nil pend); [cbn; rewrite app_nil_r; exact HS|]);
        clear -Ef; destruct b as [bi bk bs bp bks]; destruct bk; cbn in Ef |- *; try reflexivity; try discriminate. }
  rewrite (proj1 (same_go fil _ _ SF) Context). reflexivity.
Qed.
