(** C29, C65, C68: widths and margins of blocks. C36, C66, C67: sizes of images. *)
From Coq Require Import List QArith Qminmax Bool Lia Lqa.
From Verif.Layout Require Import BlockModel DiscoverProofs SizingModel.
Import ListNotations.
Local Open Scope Q_scope.

(** ** C29: automatic margins *)

(** What the margin of a side is when it is not automatic. *)
Definition fixed (base : Q) (m : option size) (v : Q) : Prop :=
  match m with None => True | Some (LENGTH q) => v == q | Some (PERCENT p) => v == base * p / 100 end.
Definition wanted_width (base : Q) (b : horizontal) (w : Q) : Prop :=
  match h_width b with
  | None => True
  | Some s => exists q, fixed base (Some s) q /\ w == if h_content_box b then q + h_inner b else q
  end.

(** The width and the margins of a box that fits add up to the width of the block as soon as one of
    them is automatic; automatic margins are not negative; two automatic ones are equal; with an
    automatic width they are zero. A box that does not fit has no automatic margin. *)
Theorem C29_auto_margins : forall base cb b ms me w,
  used_margins base cb b = (ms, me) -> known_width base cb b = w ->
  fixed base (h_start b) ms /\ fixed base (h_end b) me /\ wanted_width base b w /\
  (h_width b = None -> ms + w + me == cb /\ (h_start b = None -> ms == 0) /\ (h_end b = None -> me == 0)) /\
  (h_width b <> None -> h_start b = None -> h_end b = None ->
     (w <= cb -> ms + w + me == cb /\ ms == me) /\ (cb <= w -> ms == 0 /\ me == 0)) /\
  (h_width b <> None -> h_start b = None -> h_end b <> None ->
     (w + me <= cb -> ms + w + me == cb /\ 0 <= ms) /\ (cb <= w + me -> ms == 0)) /\
  (h_width b <> None -> h_start b <> None -> h_end b = None ->
     (ms + w <= cb -> ms + w + me == cb /\ 0 <= me) /\ (cb <= ms + w -> me == 0)).
Proof.
  intros base cb [st en inn wi cbx mn mx] ms me w H W. unfold used_margins, known_width in H. unfold known_width in W. cbn [h_start h_end h_width h_inner h_content_box] in *.
  unfold fixed, wanted_width. cbn [h_start h_end h_width h_inner h_content_box].
  destruct st as [sv|], en as [ev|]; cbn [margin_of negb orb andb] in *.
  1: { injection H as <- <-. subst w. destruct wi as [wv|].
       - split; [destruct sv; reflexivity|]. split; [destruct ev; reflexivity|]. split; [exists (resolve base wv); split; [destruct wv; reflexivity|reflexivity]|].
         repeat split; intros; try congruence.
       - split; [destruct sv; reflexivity|]. split; [destruct ev; reflexivity|]. split; [exact I|]. repeat split; intros; try congruence; ring. }
  all: match type of H with (if Qle_bool ?f 0 then _ else _) = _ => destruct (qle_spec f 0) as [[L E]|[L E]]; rewrite E in H end;
    injection H as <- <-; subst w; destruct wi as [wv|];
    repeat match goal with |- _ /\ _ => split end; try exact I; try (destruct sv; reflexivity); try (destruct ev; reflexivity);
    try (exists (resolve base wv); split; [destruct wv; reflexivity|reflexivity]); intros; try congruence; repeat split; intros; try congruence; try lra; try field.
Qed.
Print Assumptions C29_auto_margins.

Definition sized (w : option size) (s e : option size) : horizontal := mkH s e 20 w true None None.
(** A box of 100 with a border of 20, centred in a block of 300; pushed to the right; too wide. *)
Example C29_sample :
  Qeq (fst (used_margins 300 300 (sized (Some (LENGTH 100)) None None))) 90 /\
  Qeq (fst (used_margins 300 300 (sized (Some (PERCENT 40)) None (Some (LENGTH 10))))) 150 /\
  Qeq (fst (used_margins 300 300 (sized (Some (LENGTH 400)) None None))) 0.
Proof. vm_compute. repeat split. Qed.

(** ** C65: the minimal and maximal width of a block.

    CSS 2.1, 10.4: the used width of a block is at least its min-width and, when that is not larger,
    at most its max-width. Block layout does not look at them. *)
Theorem C65_block_limits_refuted :
  (forall base cb st en inner w c mn mx mn' mx', known_width base cb (mkH st en inner w c mn mx) = known_width base cb (mkH st en inner w c mn' mx')) /\
  known_width 800 800 (mkH None None 0 None true None (Some (LENGTH 500))) == 800 /\
  known_width 800 800 (mkH (Some (LENGTH 0)) (Some (LENGTH 0)) 0 (Some (LENGTH 100)) true (Some (LENGTH 300)) None) == 100.
Proof. split; [reflexivity|]. split; vm_compute; reflexivity. Qed.
Print Assumptions C65_block_limits_refuted.

(** ** C68: percentages of the width of the block.

    Full statement: the width and the margins of a child in percent refer to the width of the block.
    Missing: it is so when the children before it are not wider than the block. *)
Lemma resolve_eq base base' s : base == base' -> resolve base s == resolve base' s.
Proof. intros E. destruct s; cbn; [reflexivity|]. now rewrite E. Qed.
Lemma margin_eq base base' s : base == base' -> margin_of base s == margin_of base' s.
Proof. intros E. destruct s; cbn; [|reflexivity]. now apply resolve_eq. Qed.
Lemma width_eq base base' cb b : base == base' -> known_width base cb b == known_width base' cb b.
Proof.
  intros E. unfold known_width. destruct (h_width b) as [s|].
  - destruct (h_content_box b); rewrite (resolve_eq _ _ s E); reflexivity.
  - rewrite (margin_eq _ _ (h_start b) E), (margin_eq _ _ (h_end b) E). reflexivity.
Qed.
Lemma used_eq base base' cb b : base == base' ->
  fst (used_margins base cb b) == fst (used_margins base' cb b) /\ snd (used_margins base cb b) == snd (used_margins base' cb b).
Proof.
  intros E. unfold used_margins. pose proof (margin_eq _ _ (h_start b) E) as E1. pose proof (margin_eq _ _ (h_end b) E) as E2. pose proof (width_eq _ _ cb b E) as E3.
  destruct (negb _); [split; assumption|].
  assert (Qle_bool (cb - known_width base cb b - (margin_of base (h_start b) + margin_of base (h_end b))) 0 =
          Qle_bool (cb - known_width base' cb b - (margin_of base' (h_start b) + margin_of base' (h_end b))) 0) as -> by (rewrite E1, E2, E3; reflexivity).
  destruct (Qle_bool _ 0); [split; assumption|]. destruct (h_start b), (h_end b); cbn [andb fst snd]; rewrite ?E1, ?E2, ?E3; split; try reflexivity; assumption.
Qed.
Theorem C68_percentages_partial : forall cb bs,
  (forall l b r, bs = l ++ b :: r -> r <> [] -> known_width cb cb b + (fst (used_margins cb cb b) + snd (used_margins cb cb b)) <= cb) ->
  Forall2 (fun b p => fst p == fst (used_margins cb cb b) /\ snd p == known_width cb cb b) bs (place_x cb cb bs).
Proof.
  intros cb bs.
  enough (forall base, base == cb -> (forall l b r, bs = l ++ b :: r -> r <> [] -> known_width cb cb b + (fst (used_margins cb cb b) + snd (used_margins cb cb b)) <= cb) ->
    Forall2 (fun b p => fst p == fst (used_margins cb cb b) /\ snd p == known_width cb cb b) bs (place_x base cb bs)) as K by (apply K; reflexivity).
  induction bs as [|b bs IH]; intros base E H; [constructor|]. cbn [place_x].
  pose proof (H [] b bs eq_refl) as Hb. pose proof (used_eq base cb cb b E) as [M1 M2]. pose proof (width_eq base cb cb b E) as W.
  destruct (used_margins base cb b) as [ms me] eqn:Eu. cbn [fst snd] in M1, M2. constructor; [split; [exact M1|exact W]|].
  destruct bs as [|b2 bs]; [constructor|]. apply IH.
  - specialize (Hb ltac:(discriminate)). destruct (qmax_spec base (known_width base cb b + (ms + me))) as [[L ->]|[L ->]]; lra.
  - intros l x r Er Hr. apply (H (b :: l) x r); [rewrite Er; reflexivity|exact Hr].
Qed.
Print Assumptions C68_percentages_partial.

(** After a box of 1000 in a block of 500, half of the width is 500 and not 250. *)
Theorem C68_percentages_refuted : exists w1 w2 x1 x2,
  place_x 500 500 [mkH (Some (LENGTH 0)) (Some (LENGTH 0)) 0 (Some (LENGTH 1000)) true None None;
                   mkH (Some (LENGTH 0)) (Some (LENGTH 0)) 0 (Some (PERCENT 50)) true None None] = [(x1, w1); (x2, w2)] /\ w2 == 500.
Proof. do 4 eexists. split; [reflexivity|]. vm_compute. reflexivity. Qed.
Print Assumptions C68_percentages_refuted.

(** ** C36: limits of the size of an image *)
Definition within (v lo : Q) (hi : option Q) : Prop := lo <= v /\ forall h, hi = Some h -> v <= h.
Definition limit (base : Q) (m : option size) : option Q :=
  match m with Some (LENGTH q) => Some q | Some (PERCENT p) => Some (base * p / 100) | None => None end.
(** Between the limits, the minimum taking precedence. *)
Definition limited (base : Q) (mn mx : option size) (v : Q) : Prop :=
  (forall m, limit base mn = Some m -> m <= v) /\
  (forall M, limit base mx = Some M -> (forall m, limit base mn = Some m -> m <= M) -> 0 <= M -> v <= M).

Lemma lt_spec a b : (a < b /\ lt a b = true) \/ (b <= a /\ lt a b = false).
Proof. unfold lt. destruct (qle_spec b a) as [[H ->]|[H ->]]; auto. Qed.
Lemma gt_spec v hi : (exists h, hi = Some h /\ h < v /\ gt_opt v hi = true) \/ ((forall h, hi = Some h -> v <= h) /\ gt_opt v hi = false).
Proof.
  unfold gt_opt. destruct hi as [h|]; [|right; split; [discriminate|reflexivity]].
  destruct (qle_spec v h) as [[H ->]|[H ->]]; [right|left; eauto]. split; [|reflexivity]. intros ? [= <-]. exact H.
Qed.
Lemma clamp_within v lo hi : (forall h, hi = Some h -> lo <= h) -> within (clamp v lo hi) lo hi.
Proof.
  intros H. unfold clamp, within. destruct hi as [h|]; [specialize (H h eq_refl)|];
    destruct (qmax_spec v lo) as [[? ->]|[? ->]]; try (match goal with |- context [qmin ?a ?b] => destruct (qmin_spec a b) as [[? ->]|[? ->]] end); split; try lra; intros ? [= <-]; lra.
Qed.

(** scaling [x] by the ratio of [w] to [h] *)
Lemma scale_le x y w h : 0 < w -> 0 < h -> x <= y -> x * (w / h) <= y * (w / h).
Proof. intros Hw Hh L. apply Qmult_le_compat_r; [exact L|]. apply Qle_shift_div_l; [exact Hh|]. lra. Qed.
Lemma scale_self w h : 0 < h -> h * (w / h) == w.
Proof. intros. field. lra. Qed.
Lemma div_lt_scale a b w h : 0 < w -> 0 < h -> a / h < b / w -> a <= b * (h / w).
Proof.
  intros Hw Hh L. assert (a == (a / h) * h) as -> by (field; lra). assert (b * (h / w) == (b / w) * h) as -> by (field; lra).
  apply Qmult_le_compat_r; lra.
Qed.
Lemma div_le_scale a b w h : 0 < w -> 0 < h -> b / w <= a / h -> b <= a * (w / h).
Proof.
  intros Hw Hh L. assert (b == (b / w) * w) as -> by (field; lra). assert (a * (w / h) == (a / h) * w) as -> by (field; lra).
  apply Qmult_le_compat_r; lra.
Qed.

(** The size is within the limits. *)
Lemma constrain_within minw maxw minh maxh w h wa ha : 0 <= w -> 0 <= h ->
  (forall M, maxw = Some M -> minw <= M) -> (forall M, maxh = Some M -> minh <= M) ->
  within (fst (constrain minw maxw minh maxh w h wa ha)) minw maxw /\ within (snd (constrain minw maxw minh maxh w h wa ha)) minh maxh.
Proof.
  intros Hw Hh Mw Mh. unfold constrain.
  destruct (negb wa && negb ha); [split; apply clamp_within; assumption|].
  destruct (negb wa && ha); [split; apply clamp_within; assumption|].
  destruct (Qeq_bool w 0 || Qeq_bool h 0) eqn:Z; [split; apply clamp_within; assumption|].
  apply orb_false_iff in Z as [Z1 Z2]. apply Qeq_bool_neq in Z1, Z2.
  assert (0 < w) as Pw by lra. assert (0 < h) as Ph by lra. clear Z1 Z2 Hw Hh.
  pose proof (scale_self w h Ph) as Sw. pose proof (scale_self h w Pw) as Sh.
  pose proof (fun x y => scale_le x y w h Pw Ph) as Cw. pose proof (fun x y => scale_le x y h w Ph Pw) as Ch.
  pose proof (fun a b => div_lt_scale a b w h Pw Ph) as D1. pose proof (fun a b => div_le_scale a b w h Pw Ph) as D2.
  assert (forall a b, b / w < a / h -> b <= a * (w / h)) as D3 by (intros a b L; apply D2; lra).
  assert (forall a b, b / w <= a / h -> b <= a * (w / h)) as D4 by exact D2.
  assert (forall a b, a / h <= b / w -> a <= b * (h / w)) as D5.
  { intros a b L. assert (a == (a / h) * h) as -> by (field; lra). assert (b * (h / w) == (b / w) * h) as -> by (field; lra). apply Qmult_le_compat_r; lra. }
  assert (forall a b, b / w <= a / h -> b * (h / w) <= a) as D6.
  { intros a b L. assert (a == (a / h) * h) as -> by (field; lra). assert (b * (h / w) == (b / w) * h) as -> by (field; lra). apply Qmult_le_compat_r; lra. }
  assert (forall a b, a / h < b / w -> a * (w / h) <= b) as D7.
  { intros a b L. assert (b == (b / w) * w) as -> by (field; lra). assert (a * (w / h) == (a / h) * w) as -> by (field; lra). apply Qmult_le_compat_r; lra. }
  clear D2 D3.
  destruct maxw as [mw|], maxh as [mh|]; try specialize (Mw _ eq_refl); try specialize (Mh _ eq_refl); cbn [gt_opt min_opt];
  repeat match goal with
  | |- context [Qle_bool ?a ?b] => destruct (qle_spec a b) as [[? ->]|[? ->]]; cbn [negb andb]
  | |- context [lt ?a ?b] => destruct (lt_spec a b) as [[? ->]|[? ->]]; cbn [negb andb]
  end; cbn [fst snd]; unfold within;
  repeat match goal with
  | |- context [qmax ?a ?b] => destruct (qmax_spec a b) as [[? ->]|[? ->]]
  | |- context [qmin ?a ?b] => destruct (qmin_spec a b) as [[? ->]|[? ->]]
  end;
  repeat match goal with
  | H : ?a / h < ?b / w |- _ => pose proof (D1 a b H); pose proof (D7 a b H); clear H
  | H : ?b / w <= ?a / h |- _ => pose proof (D4 a b H); pose proof (D6 a b H); clear H
  | H : ?a / h <= ?b / w |- _ => pose proof (D5 a b H); clear H
  end;
  repeat match goal with
  | |- _ /\ _ => split
  | |- forall h, Some _ = Some h -> _ => intros ? [= <-]
  | |- forall h, None = Some h -> _ => intros ? [=]
  end; try lra;
  repeat match goal with
  | H : h < minh |- _ => pose proof (Cw h minh ltac:(lra)); revert H
  | H : mh < h |- _ => pose proof (Cw mh h ltac:(lra)); revert H
  | H : w < minw |- _ => pose proof (Ch w minw ltac:(lra)); revert H
  | H : mw < w |- _ => pose proof (Ch mw w ltac:(lra)); revert H
  end; intros; try lra.
Qed.

(** The ratio is kept when some scaling of the size is within the limits. *)
Lemma constrain_ratio minw maxw minh maxh w h k : 0 < w -> 0 < h ->
  within (k * w) minw maxw -> within (k * h) minh maxh ->
  fst (constrain minw maxw minh maxh w h true true) * h == snd (constrain minw maxw minh maxh w h true true) * w.
Proof.
  intros Pw Ph [K1 K2] [K3 K4]. unfold constrain. cbn [negb andb].
  destruct (Qeq_bool w 0 || Qeq_bool h 0) eqn:Z.
  { exfalso. apply orb_true_iff in Z as [Z|Z]; apply Qeq_bool_eq in Z; lra. }
  clear Z.
  assert (forall x, x * (w / h) * h == x * w) as S1 by (intros; field; lra).
  assert (forall x, x * (h / w) * w == x * h) as S2 by (intros; field; lra).
  assert (forall a, a <= k * h -> a * (w / h) <= k * w) as E1.
  { intros a L. assert (k * w == (k * h) * (w / h)) as -> by (field; lra). now apply scale_le. }
  assert (forall a, k * h <= a -> k * w <= a * (w / h)) as E2.
  { intros a L. assert (k * w == (k * h) * (w / h)) as -> by (field; lra). now apply scale_le. }
  assert (forall a, a <= k * w -> a * (h / w) <= k * h) as E3.
  { intros a L. assert (k * h == (k * w) * (h / w)) as -> by (field; lra). now apply scale_le. }
  assert (forall a, k * w <= a -> k * h <= a * (h / w)) as E4.
  { intros a L. assert (k * h == (k * w) * (h / w)) as -> by (field; lra). now apply scale_le. }
  assert ((k * w <= w /\ k * h <= h) \/ (w <= k * w /\ h <= k * h)) as K5.
  { destruct (Qlt_le_dec k 1) as [L|L]; [left|right]; split.
    - setoid_replace w with (1 * w) at 2 by ring. apply Qmult_le_compat_r; lra.
    - setoid_replace h with (1 * h) at 2 by ring. apply Qmult_le_compat_r; lra.
    - setoid_replace w with (1 * w) at 1 by ring. apply Qmult_le_compat_r; lra.
    - setoid_replace h with (1 * h) at 1 by ring. apply Qmult_le_compat_r; lra. }
  destruct maxw as [mw|], maxh as [mh|]; try specialize (K2 _ eq_refl); try specialize (K4 _ eq_refl); cbn [gt_opt min_opt];
  repeat match goal with
  | |- context [Qle_bool ?a ?b] => destruct (qle_spec a b) as [[? ->]|[? ->]]; cbn [negb andb]
  | |- context [lt ?a ?b] => destruct (lt_spec a b) as [[? ->]|[? ->]]; cbn [negb andb]
  end; cbn [fst snd];
  pose proof (E1 minh ltac:(lra)); pose proof (E3 minw ltac:(lra)); try (pose proof (E2 mh ltac:(lra))); try (pose proof (E4 mw ltac:(lra)));
  repeat match goal with
  | |- context [qmax ?a ?b] => destruct (qmax_spec a b) as [[? ->]|[? ->]]
  | |- context [qmin ?a ?b] => destruct (qmin_spec a b) as [[? ->]|[? ->]]
  end; rewrite ?S1, ?S2; try ring; try lra; try (exfalso; destruct K5 as [[? ?]|[? ?]]; lra).
  all: try (setoid_replace minw with (mh * (w / h)) by lra; rewrite S1; reflexivity).
  all: setoid_replace minh with (mw * (h / w)) by lra; rewrite S2; reflexivity.
Qed.

Lemma high_low base mn mx : forall M, high base mn mx = Some M -> low base mn <= M.
Proof. unfold high. destruct mx as [s|]; intros M [= <-]. destruct (qmax_spec (resolve base s) (low base mn)) as [[? ->]|[? ->]]; lra. Qed.
Lemma low_limit base mn m : limit base mn = Some m -> low base mn == m.
Proof. destruct mn as [[q|q]|]; intros [= <-]; reflexivity. Qed.
Lemma within_limited base mn mx v : within v (low base mn) (high base mn mx) -> limited base mn mx v.
Proof.
  intros [A B]. split.
  - intros m Hm. rewrite <- (low_limit _ _ _ Hm). exact A.
  - intros M HM Hle H0. assert (low base mn <= M) as L.
    { destruct mn as [s|]; [|exact H0]. cbn in Hle |- *. destruct s as [q|q]; exact (Hle _ eq_refl). }
    destruct mx as [s|]; [|discriminate]. cbn [high] in B. specialize (B _ eq_refl).
    assert (resolve base s == M) as E by (destruct s as [q|q]; injection HM as <-; reflexivity).
    destruct (qmax_spec (resolve base s) (low base mn)) as [[? X]|[? X]]; rewrite X in B; lra.
Qed.

(** ** C36. The size of an image is within its limits, and keeps the ratio of the image when it has
    no specified size and some scaling of it is within the limits.

    Missing: for a specified width the ratio is lost, see the refutation. *)
Theorem C36_replaced_limits : forall nw nh sw sh l cw ch, 0 < nw -> 0 < nh -> 
  (forall s, sw = Some s -> 0 <= resolve cw s) -> (forall s, sh = Some s -> 0 <= resolve ch s) ->
  limited cw (min_w l) (max_w l) (fst (image_size nw nh sw sh l cw ch)) /\
  limited ch (min_h l) (max_h l) (snd (image_size nw nh sw sh l cw ch)).
Proof.
  intros nw nh sw sh l cw ch Pw Ph Hsw Hsh. unfold image_size.
  assert (0 < nw / nh) as Pr by (apply Qlt_shift_div_l; lra).
  destruct (default_size (Some nw) (Some nh) (Some (nw / nh)) (option_map (resolve cw) sw) (option_map (resolve ch) sh)) as [w h] eqn:E.
  assert (0 <= w /\ 0 <= h) as [Hw Hh].
  { destruct sw as [a|], sh as [b|]; cbn in E; injection E as <- <-; split; try lra; try (apply Hsw; reflexivity); try (apply Hsh; reflexivity).
    - apply Qle_shift_div_l; [exact Pr|]. rewrite Qmult_0_l. apply Hsw; reflexivity.
    - apply Qmult_le_0_compat; [apply Hsh; reflexivity|lra]. }
  destruct (constrain_within (low cw (min_w l)) (high cw (min_w l) (max_w l)) (low ch (min_h l)) (high ch (min_h l) (max_h l)) w h
    (match sw with None => true | _ => false end) (match sh with None => true | _ => false end) Hw Hh (high_low _ _ _) (high_low _ _ _)) as [A B].
  split; apply within_limited; assumption.
Qed.
Print Assumptions C36_replaced_limits.

Definition allowed (base : Q) (mn mx : option size) (v : Q) : Prop :=
  (forall m, limit base mn = Some m -> m <= v) /\ (forall M, limit base mx = Some M -> v <= M).
Lemma allowed_within base mn mx v : 0 <= v -> allowed base mn mx v -> within v (low base mn) (high base mn mx).
Proof.
  intros P [A B]. split.
  - destruct mn as [s|]; [|exact P]. destruct s as [q|q]; exact (A _ eq_refl).
  - destruct mx as [s|]; [|discriminate]. cbn [high]. intros M [= <-].
    assert (v <= resolve base s) by (destruct s as [q|q]; exact (B _ eq_refl)).
    destruct (qmax_spec (resolve base s) (low base mn)) as [[? ->]|[? ->]]; lra.
Qed.
Theorem C36_ratio_partial : forall nw nh l cw ch k, 0 < nw -> 0 < nh -> 0 <= k ->
  allowed cw (min_w l) (max_w l) (k * nw) -> allowed ch (min_h l) (max_h l) (k * nh) ->
  fst (image_size nw nh None None l cw ch) * nh == snd (image_size nw nh None None l cw ch) * nw.
Proof.
  intros nw nh l cw ch k Pw Ph Pk A B. unfold image_size. cbn [option_map default_size partial_size].
  refine (constrain_ratio _ _ _ _ nw nh k Pw Ph (allowed_within _ _ _ _ _ A) (allowed_within _ _ _ _ _ B)); apply Qmult_le_0_compat; lra.
Qed.
Print Assumptions C36_ratio_partial.

(** An image of 200 by 100 with a width of 400 and a maximal width of 200 is 200 by 200. *)
Theorem C36_ratio_refuted : exists w h,
  image_size 200 100 (Some (LENGTH 400)) None (mkLimits None (Some (LENGTH 200)) None None) 1000 1000 = (w, h) /\ w == 200 /\ h == 200.
Proof. do 2 eexists. split; [reflexivity|]. vm_compute. split; reflexivity. Qed.
Print Assumptions C36_ratio_refuted.
(** At most 50% of 1000 wide and at least 30 high: 500 by 250. *)
Example C36_sample : let l := mkLimits None (Some (PERCENT 50)) (Some (LENGTH 30)) None in
  allowed 1000 (min_w l) (max_w l) ((1#2) * 800) /\ allowed 1000 (min_h l) (max_h l) ((1#2) * 400) /\
  exists w h, image_size 800 400 None None l 1000 1000 = (w, h) /\ w == 500 /\ h == 250.
Proof.
  cbv zeta. split; [split; [intros h [=]|intros h [= <-]; vm_compute; discriminate]|].
  split; [split; [intros h [= <-]; vm_compute; discriminate|intros h [=]]|]. do 2 eexists. split; [reflexivity|]. vm_compute. split; reflexivity.
Qed.

(** ** C66: the size of an object by default (CSS images, 5.3) *)
Theorem C66_default_object_size : forall nw nh ratio sw sh, (forall r, ratio = Some r -> 0 < r) ->
  let '(w, h) := default_size nw nh ratio sw sh in
  (forall x, sw = Some x -> w = x) /\ (forall x, sh = Some x -> h = x) /\
  (forall r, ratio = Some r -> sw = None \/ sh = None -> sw <> None \/ sh <> None \/ nw = None \/ nh = None -> w == h * r) /\
  (sw = None -> sh = None -> (forall x, nw = Some x -> w = x) /\ (forall x, nh = Some x -> h = x)) /\
  (ratio = None -> sw <> None -> sh = None -> h = match nh with Some x => x | None => 150 end) /\
  (ratio = None -> sw = None -> sh <> None -> w = match nw with Some x => x | None => 300 end) /\
  (sw = None -> sh = None -> nw = None -> nh = None -> w <= 300 /\ h <= 150 /\ (w == 300 \/ h == 150)) /\
  (sw = None -> sh = None -> nw = None -> nh = None -> ratio = None -> w == 300 /\ h == 150).
Proof.
  intros nw nh ratio sw sh Hr. unfold default_size, partial_size.
  destruct sw as [a|], sh as [b|], ratio as [r|], nw as [c|], nh as [d|]; try specialize (Hr r eq_refl);
    try (match goal with |- context [lt r ?q] => destruct (lt_spec r q) as [[L ->]|[L ->]] end);
    repeat match goal with |- _ /\ _ => split end; intros;
    repeat match goal with
    | H : Some _ = Some _ |- _ => injection H as <-
    | H : Some _ = None |- _ => discriminate H
    | H : None = Some _ |- _ => discriminate H
    | H : _ \/ _ |- _ => destruct H
    | |- _ /\ _ => split
    end; try congruence; try lra; try (field; lra).
  all: try (assert (300 / 150 == 2) as E2 by reflexivity; rewrite E2 in L).
  all: try lra; try (left; reflexivity); try (right; reflexivity).
  all: try (apply Qle_shift_div_r; lra).
Qed.
Print Assumptions C66_default_object_size.

(** ** C67: percentages of an unknown height.

    CSS 2.1, 10.5 and 10.7: a height or a maximal height in percent of a block whose height depends
    on its content counts as automatic, or as none. It counts as zero: such an image is not visible. *)
Theorem C67_percent_height_refuted : forall nw nh w, 0 < nw -> 0 < nh -> 
  snd (image_size nw nh None None (mkLimits None None None (Some (PERCENT 100))) w (child_base None)) == 0 /\
  snd (image_size nw nh None (Some (PERCENT 50)) (mkLimits None None None None) w (child_base None)) == 0.
Proof.
  intros nw nh w Pw Ph. unfold image_size, constrain. cbn.
  assert (Qeq_bool nw 0 = false) as -> by (apply not_true_iff_false; intros E; apply Qeq_bool_eq in E; lra).
  assert (Qeq_bool nh 0 = false) as -> by (apply not_true_iff_false; intros E; apply Qeq_bool_eq in E; lra).
  cbn [orb]. split.
  - replace (qmax (0 * 100 / 100) 0) with 0 by reflexivity.
    repeat match goal with
    | |- context [Qle_bool ?a ?b] => destruct (qle_spec a b) as [[? ->]|[? ->]]; cbn [negb andb]
    | |- context [lt ?a ?b] => destruct (lt_spec a b) as [[? ->]|[? ->]]; cbn [negb andb]
    end; cbn [snd]; try reflexivity; lra.
  - reflexivity.
Qed.
Print Assumptions C67_percent_height_refuted.
