(** C96: headers and footers repeat on every page, above and below the content. *)
From Coq Require Import List ZArith Bool Lia.
From Verif Require Import Batch.BatchModel Batch.DecoratorModel.
Import ListNotations.
Local Open Scope list_scope.
Local Open Scope Z_scope.

Section C96.
  Context {doc : Type}.
  Variable height : doc -> Z * Z -> Z.
  Notation decorator := (decorator doc).
  Notation painted := (painted doc).

  (** The height that is asked for, or that the document takes in the area of the page. *)
  Definition wanted (w : option doc) (s : size) (area : rect) : Z :=
    match s, w with LENGTH z, _ => z | AUTO_SIZE, None => 0 | AUTO_SIZE, Some d => height d (r_w area, r_h area) end.
  (** A page as it should be: the header along the top of the area within the margins, the footer along its
      bottom, the content in what is between. *)
  Record proper (D : decorator) (area : rect) (page : rect * list painted) : Prop := {
    content_x : r_x (fst page) = r_x area;
    content_w : r_w (fst page) = r_w area;
    content_top : r_y (fst page) = r_y area + wanted (d_header _ D) (d_header_size _ D) area;
    content_bottom : r_y (fst page) + r_h (fst page) = r_y area + r_h area - wanted (d_footer _ D) (d_footer_size _ D) area;
    decorations : snd page =
      match d_header _ D with
      | Some d => [mkPainted _ d (r_w area, wanted (d_header _ D) (d_header_size _ D) area) (r_x area, r_y area)]
      | None => []
      end ++
      match d_footer _ D with
      | Some d => [mkPainted _ d (r_w area, wanted (d_footer _ D) (d_footer_size _ D) area) (r_x area, r_y area + r_h area - wanted (d_footer _ D) (d_footer_size _ D) area)]
      | None => []
      end }.
  (** None of the viewports is empty. *)
  Definition sound (D : decorator) (area : rect) : Prop :=
    (d_header _ D <> None -> wanted (d_header _ D) (d_header_size _ D) area <> 0 /\ (d_header_size _ D = AUTO_SIZE -> r_h area <> 0)) /\
    (d_footer _ D <> None -> wanted (d_footer _ D) (d_footer_size _ D) area <> 0 /\ (d_footer_size _ D = AUTO_SIZE -> r_h area <> 0)).

  Lemma same_iff : forall a b, same a b = true <-> a = b.
  Proof. intros [a b] [c d]. unfold same. cbn. rewrite andb_true_iff, !Z.eqb_eq. split; [intros [-> ->]; reflexivity|intros H; inversion H; auto]. Qed.
  Lemma change_viewport_is : forall media v w, change_viewport media v = Some w -> w = v.
  Proof.
    unfold change_viewport. intros media v w H. destruct (same media v) eqn:S1; [apply same_iff in S1; congruence|].
    destruct (snd v =? 0); congruence.
  Qed.
  Lemma change_viewport_some : forall media v, snd v <> 0 -> change_viewport media v = Some v.
  Proof.
    unfold change_viewport. intros media v H. destruct (same media v) eqn:S1; [apply same_iff in S1; congruence|].
    apply Z.eqb_neq in H. now rewrite H.
  Qed.
  Lemma band_is : forall media area w s h, band doc height media (r_size area) w s = Some h -> h = wanted w s area.
  Proof.
    unfold band, wanted. intros media area w [|z] h H; [|congruence]. destruct w; [|congruence].
    destruct (change_viewport media (r_size area)) eqn:C; [|discriminate]. apply change_viewport_is in C. subst. unfold r_size in H. congruence.
  Qed.

  (** The memo holds nothing but the heights that are wanted. *)
  Definition faithful (D : decorator) (m : memo) : Prop :=
    forall area v, lookup m (r_size area) = Some v -> v = (wanted (d_header _ D) (d_header_size _ D) area, wanted (d_footer _ D) (d_footer_size _ D) area).
  Lemma lookup_app : forall m k k' v, lookup (m ++ [(k', v)]) k = match lookup m k with Some x => Some x | None => if same k' k then Some v else None end.
  Proof. induction m as [|[k1 v1] m IH]; intros k k' v; cbn; auto. destruct (same k1 k); auto. Qed.
  Lemma wanted_size : forall w s a b, r_size a = r_size b -> wanted w s a = wanted w s b.
  Proof. unfold r_size, wanted. intros w s [? ? aw ah] [? ? bw bh] H. cbn in *. inversion H. reflexivity. Qed.

  Lemma layout_spec : forall D media a m c m', layout doc height D media a m = Some (c, m') -> faithful D m ->
    faithful D m' /\ lookup m' (r_size a) <> None /\ (forall k, lookup m k <> None -> lookup m' k <> None) /\
    c = shrink a (wanted (d_header _ D) (d_header_size _ D) a) 0 (wanted (d_footer _ D) (d_footer_size _ D) a).
  Proof.
    unfold layout. intros D media a m c m' H F. destruct (lookup m (r_size a)) as [hf|] eqn:L.
    - inversion H; subst. repeat split; auto; [congruence|]. apply F in L. subst hf. reflexivity.
    - destruct (band _ _ _ _ (d_header _ D) _) as [h|] eqn:B1; [|discriminate]. destruct (band _ _ _ _ (d_footer _ D) _) as [f|] eqn:B2; [|discriminate].
      apply band_is in B1, B2. inversion H; subst. clear H. repeat split.
      + intros b v. rewrite lookup_app. destruct (lookup m (r_size b)) eqn:Lb; [intros [= <-]; now apply F|].
        destruct (same (r_size a) (r_size b)) eqn:S1; [|discriminate]. intros [= <-]. apply same_iff in S1. now rewrite !(wanted_size _ _ _ _ S1).
      + rewrite lookup_app, L. now rewrite (proj2 (same_iff _ _) eq_refl).
      + intros k Hk. rewrite lookup_app. destruct (lookup m k); congruence.
  Qed.
  Lemma collect_spec : forall D media areas m l m', collect doc height D media areas m = Some (l, m') -> faithful D m ->
    faithful D m' /\ (forall k, lookup m k <> None -> lookup m' k <> None) /\
    Forall2 (fun a ac => fst ac = a /\ lookup m' (r_size a) <> None /\ snd ac = shrink a (wanted (d_header _ D) (d_header_size _ D) a) 0 (wanted (d_footer _ D) (d_footer_size _ D) a)) areas l.
  Proof.
    intros D media. induction areas as [|a r IH]; intros m l m' H F; cbn in H.
    - inversion H; subst. auto.
    - destruct (layout _ _ _ _ _ _) as [[c m1]|] eqn:L1; [|discriminate]. destruct (collect _ _ _ _ r m1) as [[l1 m2]|] eqn:C1; [|discriminate].
      inversion H; subst. apply layout_spec in L1 as (F1 & K1 & M1 & E1); auto. apply IH in C1 as (F2 & M2 & A2); auto. repeat split; auto.
  Qed.
  Lemma paint_is : forall media w v at_ p, paint doc media w v at_ = Some p -> p = match w with Some d => [mkPainted _ d v at_] | None => [] end.
  Proof. unfold paint. intros media [d|] v at_ p H; [|congruence]. destruct (change_viewport media v) eqn:C; [|discriminate]. apply change_viewport_is in C. congruence. Qed.
  Lemma decorate_is : forall D media a m p, decorate doc D media a m = Some p -> faithful D m ->
    proper D a (shrink a (wanted (d_header _ D) (d_header_size _ D) a) 0 (wanted (d_footer _ D) (d_footer_size _ D) a), p).
  Proof.
    unfold decorate. intros D media a m p H F. destruct (lookup m (r_size a)) as [[h f]|] eqn:L; [|discriminate]. apply F in L. inversion L; subst. clear L.
    destruct (paint _ _ (d_header _ D) _ _) as [x|] eqn:P1; [|discriminate]. destruct (paint _ _ (d_footer _ D) _ _) as [y|] eqn:P2; [|discriminate].
    apply paint_is in P1, P2. inversion H; subst. constructor; cbn; try lia; reflexivity.
  Qed.
  Lemma emit_is : forall D media m l areas out, emit doc D media m l = Some out -> faithful D m ->
    Forall2 (fun a ac => fst ac = a /\ lookup m (r_size a) <> None /\ snd ac = shrink a (wanted (d_header _ D) (d_header_size _ D) a) 0 (wanted (d_footer _ D) (d_footer_size _ D) a)) areas l ->
    Forall2 (proper D) areas out.
  Proof.
    intros D media m. induction l as [|[a c] l IH]; intros areas out H F A; cbn in H; inversion A as [|a0 x0 areas' l' Hb A' E1 E2]; subst.
    - inversion H; subst. constructor.
    - destruct (decorate _ _ _ _ _) as [p|] eqn:P; [|discriminate]. destruct (emit _ _ _ _ l) as [o1|] eqn:Em; [|discriminate].
      inversion H; subst. cbn in Hb. destruct Hb as (-> & _ & ->). constructor; eauto using decorate_is.
  Qed.

  (** Every page gets the header and the footer, at its top and its bottom, and the content is between. *)
  Theorem C96_every_page_partial : forall D media areas out, print doc height D media areas = Some out -> Forall2 (proper D) areas out.
  Proof.
    unfold print. intros D media areas out H. destruct (collect _ _ _ _ _ _) as [[l m]|] eqn:C; [|discriminate].
    apply collect_spec in C as (F & _ & A); [|intros a v; cbn; discriminate]. eauto using emit_is.
  Qed.

  Lemma band_some : forall media a w s, (w <> None -> s = AUTO_SIZE -> r_h a <> 0) -> band doc height media (r_size a) w s <> None.
  Proof.
    unfold band. intros media a [d|] [|z] H; try discriminate. rewrite change_viewport_some; [discriminate|]. apply H; [discriminate|reflexivity].
  Qed.
  Lemma layout_some : forall D media a m, sound D a -> layout doc height D media a m <> None.
  Proof.
    unfold layout. intros D media a m [Hh Hf]. destruct (lookup m (r_size a)); [discriminate|].
    pose proof (band_some media a (d_header _ D) (d_header_size _ D) (fun H => proj2 (Hh H))) as B1.
    pose proof (band_some media a (d_footer _ D) (d_footer_size _ D) (fun H => proj2 (Hf H))) as B2.
    destruct (band _ _ _ _ (d_header _ D) _); [|congruence]. destruct (band _ _ _ _ (d_footer _ D) _); [discriminate|congruence].
  Qed.
  Lemma paint_some : forall media w v at_, (w <> None -> snd v <> 0) -> paint doc media w v at_ <> None.
  Proof. unfold paint. intros media [d|] v at_ H; [|discriminate]. rewrite change_viewport_some; [discriminate|]. apply H. discriminate. Qed.
  Lemma decorate_some : forall D media a m, sound D a -> faithful D m -> lookup m (r_size a) <> None -> decorate doc D media a m <> None.
  Proof.
    unfold decorate. intros D media a m [Hh Hf] F L. destruct (lookup m (r_size a)) as [[h f]|] eqn:Lk; [|congruence]. apply F in Lk. inversion Lk; subst.
    pose proof (paint_some media (d_header _ D) (r_w a, wanted (d_header doc D) (d_header_size doc D) a) (r_x a, r_y a) (fun H => proj1 (Hh H))) as P1.
    pose proof (paint_some media (d_footer _ D) (r_w a, wanted (d_footer doc D) (d_footer_size doc D) a) (r_x a, r_y a + r_h a - wanted (d_footer doc D) (d_footer_size doc D) a) (fun H => proj1 (Hf H))) as P2.
    destruct (paint _ _ (d_header _ D) _ _); [|congruence]. destruct (paint _ _ (d_footer _ D) _ _); [discriminate|congruence].
  Qed.
  Lemma collect_some : forall D media areas m, Forall (sound D) areas -> collect doc height D media areas m <> None.
  Proof.
    intros D media. induction areas as [|a r IH]; intros m A; cbn; [discriminate|]. inversion A; subst.
    pose proof (layout_some D media a m H1) as L. destruct (layout _ _ _ _ _ _) as [[c m1]|]; [|congruence].
    pose proof (IH m1 H2) as C. destruct (collect _ _ _ _ _ _) as [[l m2]|]; [discriminate|congruence].
  Qed.

  (** Nothing goes wrong when no viewport is empty: in particular the heights that the layout remembers are
      there when the page is decorated. *)
  Theorem C96_no_crash_partial : forall D media areas, Forall (sound D) areas -> exists out, print doc height D media areas = Some out.
  Proof.
    unfold print. intros D media areas A. pose proof (collect_some D media areas [] A) as C.
    destruct (collect _ _ _ _ _ _) as [[l m]|] eqn:Ec; [|congruence]. clear C.
    apply collect_spec in Ec as (F & _ & B); [|intros a v; cbn; discriminate].
    enough (emit doc D media m l <> None) by (destruct (emit doc D media m l); eauto; congruence).
    revert l B. induction A as [|a r Ha A IH]; intros l B; inversion B as [|? [a' c'] ? l' Hb B' E1 E2]; subst; cbn; [discriminate|].
    cbn in Hb. destruct Hb as (-> & Lk & ->). pose proof (decorate_some D media a m Ha F Lk) as P.
    destruct (decorate _ _ _ _ _); [|congruence]. pose proof (IH _ B') as Em. destruct (emit _ _ _ _ l'); [discriminate|congruence].
  Qed.

  (** A point is in a box. *)
  Definition inside (x y : Z) (at_ size : Z * Z) : Prop := fst at_ <= x < fst at_ + fst size /\ snd at_ <= y < snd at_ + snd size.
  (** When the heights are not negative and fit in the area, every point of the area is in exactly one of the
      header, the content and the footer, and they reach no other point. *)
  Theorem C96_tiles_partial : forall D media areas out, print doc height D media areas = Some out ->
    Forall2 (fun a page =>
      let h := wanted (d_header _ D) (d_header_size _ D) a in let f := wanted (d_footer _ D) (d_footer_size _ D) a in
      0 <= h -> 0 <= f -> h + f <= r_h a ->
      forall x y,
        let header := inside x y (r_x a, r_y a) (r_w a, h) in
        let content := inside x y (r_x (fst page), r_y (fst page)) (r_size (fst page)) in
        let footer := inside x y (r_x a, r_y a + r_h a - f) (r_w a, f) in
        (inside x y (r_x a, r_y a) (r_size a) <-> header \/ content \/ footer) /\ ~ (header /\ content) /\ ~ (header /\ footer) /\ ~ (content /\ footer)) areas out.
  Proof.
    intros D media areas out H. apply C96_every_page_partial in H. induction H as [|a page areas out [X W T B _] _ IH]; constructor; [|exact IH].
    cbn zeta. intros Hh Hf Hs x y. unfold inside, r_size. cbn [fst snd]. rewrite X, W, T.
    assert (Hc : r_h (fst page) = r_h a - wanted (d_header _ D) (d_header_size _ D) a - wanted (d_footer _ D) (d_footer_size _ D) a) by lia.
    rewrite Hc. repeat split; try lia.
  Qed.
End C96.
Print Assumptions C96_every_page_partial.
Print Assumptions C96_no_crash_partial.
Print Assumptions C96_tiles_partial.

(** Three pages, two of a size: the header takes a tenth of the height, the footer thirty. *)
Definition tenth (_ : nat) (v : Z * Z) : Z := snd v / 10.
Definition sample : decorator nat := mkDecorator nat (Some 1%nat) (Some 2%nat) AUTO_SIZE (LENGTH 30).
Definition sample_areas := [mkRect 10 20 500 700; mkRect 0 0 400 300; mkRect 10 20 500 700].
Example C96_case_sound : Forall (sound tenth sample) sample_areas.
Proof. repeat constructor; cbn; intros; repeat split; intros; try discriminate; lia. Qed.
Example C96_case : print nat tenth sample (800, 600) sample_areas =
  Some [(mkRect 10 90 500 600, [mkPainted nat 1%nat (500, 70) (10, 20); mkPainted nat 2%nat (500, 30) (10, 690)]);
    (mkRect 0 30 400 240, [mkPainted nat 1%nat (400, 30) (0, 0); mkPainted nat 2%nat (400, 30) (0, 270)]);
    (mkRect 10 90 500 600, [mkPainted nat 1%nat (500, 70) (10, 20); mkPainted nat 2%nat (500, 30) (10, 690)])].
Proof. reflexivity. Qed.

(** An empty header, or one whose size is zero, is a division by zero. *)
Theorem C96_empty_header_refuted : forall (w : nat) area media, r_size area <> (r_w area, 0) -> media <> (r_w area, 0) -> r_h area <> 0 ->
  print nat (fun _ _ => 0) (mkDecorator nat (Some w) None AUTO_SIZE AUTO_SIZE) media [area] = None /\
  print nat (fun _ _ => 17) (mkDecorator nat (Some w) None (LENGTH 0) AUTO_SIZE) media [area] = None.
Proof.
  intros w area media H1 H2 H3.
  assert (Rf : forall k, same k k = true) by (intros k; now apply same_iff).
  assert (Cz : change_viewport media (r_w area, 0) = None).
  { unfold change_viewport. cbn. destruct (same media (r_w area, 0)) eqn:S1; [|reflexivity]. apply same_iff in S1. contradiction. }
  assert (Ca : change_viewport media (r_size area) = Some (r_size area)) by (apply change_viewport_some; exact H3).
  split; unfold print, collect, layout, band; cbn; try rewrite Ca; cbn; unfold decorate; cbn; rewrite Rf; unfold paint; rewrite Cz; reflexivity.
Qed.
Print Assumptions C96_empty_header_refuted.
(** A header that is taller than the page leaves a content of negative height, and the footer is drawn over it. *)
Theorem C96_tall_header_refuted :
  exists page p1 p2, print nat (fun d _ => match d with 1%nat => 900 | _ => 100 end) (mkDecorator nat (Some 1%nat) (Some 2%nat) AUTO_SIZE AUTO_SIZE) (800, 600) [mkRect 0 0 500 700] = Some [(page, [p1; p2])] /\
    r_h page < 0 /\ exists x y, inside x y (p_at _ p1) (p_viewport _ p1) /\ inside x y (p_at _ p2) (p_viewport _ p2).
Proof. do 3 eexists. split; [reflexivity|]. split; [reflexivity|]. exists 5, 650. cbv. intuition discriminate. Qed.
Print Assumptions C96_tall_header_refuted.
