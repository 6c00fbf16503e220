(** The margin boxes and the content area tile the page (C25). *)
From Coq Require Import List QArith Bool Lqa Lia.
From Verif.Print Require Import MarginModel.
Import ListNotations.
Local Open Scope Q_scope.

(** The points of a rectangle, without its right and bottom edge. *)
Definition inside (r : rect) (p : point) : Prop :=
  rx r <= px p /\ px p < rx r + rw r /\ ry r <= py p /\ py p < ry r + rh r.
(** [p] belongs to one and only one of the rectangles. *)
Definition in_exactly_one (l : list rect) (p : point) : Prop :=
  exists i, (exists r, nth_error l i = Some r /\ inside r p) /\
    forall j r, nth_error l j = Some r -> inside r p -> j = i.
Definition same_rect (a b : rect) : Prop := rx a == rx b /\ ry a == ry b /\ rw a == rw b /\ rh a == rh b.

(** [content] lies in [page]. *)
Definition within (page content : rect) : Prop :=
  rx page <= rx content /\ rx content + rw content <= rx page + rw page /\ 0 <= rw content /\
  ry page <= ry content /\ ry content + rh content <= ry page + rh page /\ 0 <= rh content.

Lemma qmin_cases a b : (a <= b /\ qmin a b == a) \/ (b <= a /\ qmin a b == b).
Proof. unfold qmin. destruct (Qle_bool a b) eqn:E; [left|right]; (split; [|reflexivity]).
  - now apply Qle_bool_iff. - destruct (Qlt_le_dec b a) as [L|L]; [lra|]. apply Qle_bool_iff in L. congruence. Qed.
Lemma qmax_cases a b : (a <= b /\ qmax a b == b) \/ (b <= a /\ qmax a b == a).
Proof. unfold qmax. destruct (Qle_bool a b) eqn:E; [left|right]; (split; [|reflexivity]).
  - now apply Qle_bool_iff. - destruct (Qlt_le_dec b a) as [L|L]; [lra|]. apply Qle_bool_iff in L. congruence. Qed.

Lemma span a b x0 y0 x1 y1 : x0 <= x1 -> y0 <= y1 ->
  ((px a == x0 /\ px b == x1) \/ (px a == x1 /\ px b == x0)) ->
  ((py a == y0 /\ py b == y1) \/ (py a == y1 /\ py b == y0)) ->
  same_rect (from_two_point a b) (mkRect x0 y0 (x1 - x0) (y1 - y0)).
Proof.
  intros Lx Ly X Y. unfold same_rect, from_two_point. cbn.
  pose proof (qmin_cases (px a) (px b)). pose proof (qmax_cases (px a) (px b)).
  pose proof (qmin_cases (py a) (py b)). pose proof (qmax_cases (py a) (py b)).
  repeat split; lra.
Qed.

(** The shapes of the eight regions around the content area. *)
Theorem C25_margin_regions : forall page content, within page content ->
  let l := rx page in let r := rx page + rw page in let t := ry page in let b := ry page + rh page in
  let cl := rx content in let cr := rx content + rw content in let ct := ry content in let cb := ry content + rh content in
  Forall2 same_rect (regions page content)
    [ content;
      mkRect l t (cl - l) (ct - t); mkRect cr t (r - cr) (ct - t);
      mkRect l cb (cl - l) (b - cb); mkRect cr cb (r - cr) (b - cb);
      mkRect cl t (cr - cl) (ct - t); mkRect cl cb (cr - cl) (b - cb);
      mkRect l ct (cl - l) (cb - ct); mkRect cr ct (r - cr) (cb - ct) ].
Proof.
  intros page content (H1 & H2 & H3 & H4 & H5 & H6) l r t b cl cr ct cb.
  assert (TL : same_rect (top_left_corner page content) (mkRect l t (cl - l) (ct - t))) by (apply span; cbn; unfold l, r, t, b, cl, cr, ct, cb; lra).
  assert (TR : same_rect (top_right_corner page content) (mkRect cr t (r - cr) (ct - t))) by (apply span; cbn; unfold l, r, t, b, cl, cr, ct, cb; lra).
  assert (BL : same_rect (bottom_left_corner page content) (mkRect l cb (cl - l) (b - cb))) by (apply span; cbn; unfold l, r, t, b, cl, cr, ct, cb; lra).
  assert (BR : same_rect (bottom_right_corner page content) (mkRect cr cb (r - cr) (b - cb))) by (apply span; cbn; unfold l, r, t, b, cl, cr, ct, cb; lra).
  unfold regions. repeat (apply Forall2_cons; [first [exact TL|exact TR|exact BL|exact BR|idtac]|]).
  - repeat split; reflexivity.
  - destruct TL as (A1 & A2 & A3 & A4), TR as (B1 & B2 & B3 & B4). cbn in *. apply span; cbn; unfold l, r, t, b, cl, cr, ct, cb in *; lra.
  - destruct BL as (A1 & A2 & A3 & A4), BR as (B1 & B2 & B3 & B4). cbn in *. apply span; cbn; unfold l, r, t, b, cl, cr, ct, cb in *; lra.
  - destruct TL as (A1 & A2 & A3 & A4), BL as (B1 & B2 & B3 & B4). cbn in *. apply span; cbn; unfold l, r, t, b, cl, cr, ct, cb in *; lra.
  - destruct TR as (A1 & A2 & A3 & A4), BR as (B1 & B2 & B3 & B4). cbn in *. apply span; cbn; unfold l, r, t, b, cl, cr, ct, cb in *; lra.
  - constructor.
Qed.
Print Assumptions C25_margin_regions.

Lemma inside_same a b p : same_rect a b -> inside a p <-> inside b p.
Proof. intros (A & B & C & D). unfold inside. split; intros; repeat split; lra. Qed.

Lemma forall2_nth (l l' : list rect) i r : Forall2 same_rect l l' -> nth_error l i = Some r ->
  exists r', nth_error l' i = Some r' /\ same_rect r r'.
Proof.
  intros F. revert i. induction F as [|x y l l' S F IH]; intros [|i] E; cbn in E; try discriminate.
  - injection E as <-. now exists y.
  - apply IH, E.
Qed.
Lemma forall2_nth' (l l' : list rect) i r : Forall2 same_rect l l' -> nth_error l' i = Some r ->
  exists r', nth_error l i = Some r' /\ same_rect r' r.
Proof.
  intros F. revert i. induction F as [|x y l l' S F IH]; intros [|i] E; cbn in E; try discriminate.
  - injection E as <-. now exists x.
  - apply IH, E.
Qed.

(** For all pages and content areas inside them, every point of the page is in exactly one region
    and no region leaves the page. *)
Theorem C25_regions_tile_the_page : forall page content, within page content ->
  (forall p, inside page p -> in_exactly_one (regions page content) p) /\
  (forall r p, In r (regions page content) -> inside r p -> inside page p).
Proof.
  intros page content W. pose proof (C25_margin_regions page content W) as F. cbv zeta in F.
  destruct W as (H1 & H2 & H3 & H4 & H5 & H6).
  split.
  - intros p (P1 & P2 & P3 & P4).
    assert (X : px p < rx content \/ (rx content <= px p /\ px p < rx content + rw content) \/ rx content + rw content <= px p).
    { destruct (Qlt_le_dec (px p) (rx content)); [now left|]. destruct (Qlt_le_dec (px p) (rx content + rw content)); [right; now left|right; now right]. }
    assert (Y : py p < ry content \/ (ry content <= py p /\ py p < ry content + rh content) \/ ry content + rh content <= py p).
    { destruct (Qlt_le_dec (py p) (ry content)); [now left|]. destruct (Qlt_le_dec (py p) (ry content + rh content)); [right; now left|right; now right]. }
    assert (U : forall i, (exists r, nth_error (regions page content) i = Some r /\ inside r p) ->
       (forall j r, nth_error (regions page content) j = Some r -> inside r p -> j = i) -> in_exactly_one (regions page content) p)
      by (intros i A B; now exists i).
    remember (regions page content) as rs eqn:Ers. clear Ers.
    assert (G : forall i, (exists r, nth_error
       [ content;
         mkRect (rx page) (ry page) (rx content - rx page) (ry content - ry page);
         mkRect (rx content + rw content) (ry page) (rx page + rw page - (rx content + rw content)) (ry content - ry page);
         mkRect (rx page) (ry content + rh content) (rx content - rx page) (ry page + rh page - (ry content + rh content));
         mkRect (rx content + rw content) (ry content + rh content) (rx page + rw page - (rx content + rw content)) (ry page + rh page - (ry content + rh content));
         mkRect (rx content) (ry page) (rx content + rw content - rx content) (ry content - ry page);
         mkRect (rx content) (ry content + rh content) (rx content + rw content - rx content) (ry page + rh page - (ry content + rh content));
         mkRect (rx page) (ry content) (rx content - rx page) (ry content + rh content - ry content);
         mkRect (rx content + rw content) (ry content) (rx page + rw page - (rx content + rw content)) (ry content + rh content - ry content) ] i = Some r /\ inside r p) ->
       in_exactly_one rs p).
    { intros i (r & E & I). apply (U i).
      - destruct (forall2_nth' _ _ _ _ F E) as (r' & E' & S). exists r'. split; [exact E'|]. now apply (inside_same r' r).
      - intros j r' E' I'. destruct (forall2_nth _ _ _ _ F E') as (r2 & E2 & S2). apply (inside_same r' r2 p S2) in I'.
        clear - E I E2 I' H1 H2 H3 H4 H5 H6.
        do 9 (destruct i as [|i]; [cbn in E; injection E as <-;
          do 9 (destruct j as [|j]; [first [reflexivity|cbn in E2; injection E2 as <-; unfold inside in *; cbn in *; lra]|]); destruct j; discriminate|]).
        destruct i; discriminate. }
    destruct X as [X|[X|X]], Y as [Y|[Y|Y]];
      [apply (G 1%nat)|apply (G 7%nat)|apply (G 3%nat)|apply (G 5%nat)|apply (G 0%nat)|apply (G 6%nat)|apply (G 2%nat)|apply (G 8%nat)|apply (G 4%nat)];
      (eexists; split; [reflexivity|]; unfold inside; cbn; lra).
  - intros r p I C. apply In_nth_error in I as [i E]. destruct (forall2_nth _ _ _ _ F E) as (r2 & E2 & S2).
    apply (inside_same r r2 p S2) in C. clear E S2.
    do 9 (destruct i as [|i]; [cbn in E2; injection E2 as <-; unfold inside in *; cbn in *; lra|]). destruct i; discriminate.
Qed.
Print Assumptions C25_regions_tile_the_page.

(** Margins that are not negative and leave room give such a content area: it lies at the margins'
    distance from the edges of the page. *)
Theorem C25_content_area : forall s m page, let i := resolve_page_margin s m page in
  0 <= i_top i -> 0 <= i_end i -> 0 <= i_bottom i -> 0 <= i_start i ->
  i_start i + i_end i <= rw page -> i_top i + i_bottom i <= rh page ->
  within page (page_content s m page) /\
  rx (page_content s m page) == rx page + i_start i /\
  rx (page_content s m page) + rw (page_content s m page) == rx page + rw page - i_end i /\
  ry (page_content s m page) == ry page + i_top i /\
  ry (page_content s m page) + rh (page_content s m page) == ry page + rh page - i_bottom i.
Proof.
  intros s m page i A B C D E F. unfold within, page_content, shrink. fold i. cbn. repeat split; lra.
Qed.
Print Assumptions C25_content_area.

(** The distances between the edges of the page and those of the content area: those of the page
    style, horizontal ones with percentages of the width and vertical ones of the height, unless the
    settings ask for none, for the smallest ones or for given ones. *)
Definition distances (page c : rect) : Q * Q * Q * Q :=
  (ry c - ry page, (rx page + rw page) - (rx c + rw c), (ry page + rh page) - (ry c + rh c), rx c - rx page).
Definition same4 (a b : Q * Q * Q * Q) : Prop :=
  let '(a1, a2, a3, a4) := a in let '(b1, b2, b3, b4) := b in a1 == b1 /\ a2 == b2 /\ a3 == b3 /\ a4 == b4.
Theorem C25_page_margins : forall m page,
  same4 (distances page (page_content MARGIN_DEFAULT m page))
        (m_top m (rh page), m_end m (rw page), m_bottom m (rh page), m_start m (rw page)) /\
  same4 (distances page (page_content MARGIN_NONE m page)) (0, 0, 0, 0) /\
  same4 (distances page (page_content MARGIN_MINIMUM m page)) (0, 0, 0, 0) /\
  forall t e b s, same4 (distances page (page_content (MARGIN_CUSTOM (mkInsets t e b s)) m page)) (t, e, b, s).
Proof. intros m page. unfold same4, distances, page_content, shrink. cbn. repeat split; try ring; intros; ring. Qed.
Print Assumptions C25_page_margins.

(** A page of 800 by 600 with margins of 10%. *)
Example C25_sample : within (mkRect 0 0 800 600)
  (page_content MARGIN_DEFAULT (mkMargins (fun h => h / 10) (fun w => w / 10) (fun h => h / 10) (fun w => w / 10)) (mkRect 0 0 800 600)).
Proof. apply C25_content_area; vm_compute; discriminate. Qed.
