(** Clipping: the theorems. *)
From Coq Require Import String List NArith ZArith QArith Qminmax Qabs Bool Lia Lqa Setoid.
From Verif.Base Require Import Str.
From Verif.Css Require Import LexerModel ParserModel.
From Verif.Values Require Import Number LengthModel CalcModel ColorModel ColorSpec ColorProofs.
From Verif.Transform Require Import TransformModel TransformSpec TransformProofs TransformProofs2.
From Verif.Clip Require Import ClipModel ClipSpec ClipProofs ClipProofs2.
Import ListNotations.
Local Open Scope list_scope.
Local Open Scope Q_scope.

(** ** C171: positions *)

(** A position that is in order is read to its end, and stands for the point that CSS says. *)
Theorem C171_position_partial : forall h v ws l, position_words h v ws -> place_ok h -> place_ok v -> in_order h v ws -> spaced ws l ->
  exists p, read_position l = (Some p, []) /\
    forall box, exists c, resolve_position p box = Some c /\ c ≡ (coordinate h (r_w box), coordinate v (r_h box)).
Proof.
  intros h v ws l W Oh Ov Ord Sp. destruct (position_read h v ws l W Oh Ov Ord Sp) as (p & E & P). exists p. split; [exact E|].
  intros box. exact (placed_resolves p h v box P).
Qed.

(** [top left], like every vertical keyword before a horizontal one, is refused. *)
Theorem C171_vertical_first_refuted : forall s t l, spells "top" s \/ spells "bottom" s ->
  spells "left" t \/ spells "right" t \/ spells "center" t -> spaced [s; t] l ->
  (exists h v, position_words h v [s; t]) /\ fst (read_position l) = None.
Proof.
  intros s t l A B Sp. split.
  - assert (V : exists v, place_text "top" "bottom" v [s]) by (destruct A as [A|A]; eexists; constructor; exact A).
    assert (H : exists h, place_text "left" "right" h [t]) by (destruct B as [B|[B|B]]; eexists; constructor; exact B).
    destruct V as [v V], H as [h H]. exists h, v. exact (words_swapped h v [t] [s] H V).
  - assert (F : exists i j, reads_item s i /\ reads_item t j /\ of_items [i; j] = None).
    { destruct A as [A|A]; apply item_keyword in A; cbn in A; destruct B as [B|[B|B]]; apply item_keyword in B; cbn in B;
        eexists; eexists; (split; [exact A|]); (split; [exact B|]); reflexivity. }
    destruct F as (i & j & Fi & Fj & E). unfold read_position.
    rewrite (items_read [s; t] [i; j] 4 l); [exact E|constructor; [exact Fi|constructor; [exact Fj|constructor]]|exact Sp|cbn; lia].
Qed.

(** In [top 10px center], [center] is taken for the vertical position: the point is in the middle of the
    left side. *)
Theorem C171_vertical_center_refuted : forall s w t l, spells "top" s \/ spells "bottom" s -> wlen_ok w -> spells "center" t ->
  spaced [s; len_sst w; t] l ->
  (exists v, position_words Middle v [s; len_sst w; t]) /\
  exists p, read_position l = (Some p, []) /\ forall box, exists c, resolve_position p box = Some c /\ c ≡ (0, r_h box / 2).
Proof.
  intros s w t l A O B Sp. split.
  - assert (V : exists v, place_text "top" "bottom" v [s; len_sst w]) by (destruct A as [A|A]; eexists; constructor; exact A).
    destruct V as [v V]. exists v. exact (words_swapped Middle v [t] [s; len_sst w] (text_middle _ _ t B) V).
  - destruct (len_reads w O) as (y & Ry & _). apply item_length in Ry. apply item_keyword in B. cbn in B.
    assert (F : exists i p, reads_item s i /\ of_items [i; Off y; CENTER] = Some p /\ p_h p = H_LEFT /\ p_x p = zero_percent /\ p_v p = V_CENTER).
    { destruct A as [A|A]; apply item_keyword in A; cbn in A; eexists; eexists; (split; [exact A|]); (split; [reflexivity|]); repeat split. }
    destruct F as (i & p & Fi & E & E1 & E2 & E3). exists p. split.
    + unfold read_position. rewrite (items_read [s; len_sst w; t] [i; Off y; CENTER] 4 l); [now rewrite E| |exact Sp|cbn; lia].
      constructor; [exact Fi|constructor; [exact Ry|constructor; [exact B|constructor]]].
    + intros box. unfold resolve_position. rewrite E1, E2, E3. eexists. split; [reflexivity|]. split; cbn; [field|reflexivity].
Qed.

(** [top 10px bottom 20px] names the vertical axis twice, and is read. *)
Theorem C171_twice_refuted : forall s w t w' l, spells "top" s -> spells "bottom" t -> wlen_ok w -> wlen_ok w' ->
  spaced [s; len_sst w; t; len_sst w'] l -> exists p, read_position l = (Some p, []).
Proof.
  intros s w t w' l A B O O' Sp. apply item_keyword in A. cbn in A. apply item_keyword in B. cbn in B.
  destruct (len_reads w O) as (y & Ry & _). apply item_length in Ry. destruct (len_reads w' O') as (z & Rz & _). apply item_length in Rz.
  eexists. unfold read_position. rewrite (items_read [s; len_sst w; t; len_sst w'] [TOP; Off y; BOTTOM; Off z] 4 l); [reflexivity| |exact Sp|cbn; lia].
  constructor; [exact A|constructor; [exact Ry|constructor; [exact B|constructor; [exact Rz|constructor]]]].
Qed.

Section Shapes.
Context {Pa R C : Type} (read_path : list sst -> option Pa) (read_radii : reader R) (sharp : R)
        (resolve_radii : R -> rect -> C) (sharp_corners : C) (diagonal : Q -> Q -> Q).
Local Notation shape_of := (shape_of read_path read_radii sharp).
Local Notation region_of := (region_of resolve_radii diagonal).
Local Notation clip_region := (clip_region resolve_radii sharp_corners diagonal).

(** ** C172: circles *)

(** What the radius of a circle has to be, by how it was written: the circle is the largest one in the box;
    it reaches the farthest side; the radius is that length. *)
Definition circle_radius_is (r : wradius) (box : rect) (c : point) (q : Q) : Prop :=
  match r with
  | RDefault | RClosest => in_rect box c ->
    0 <= q /\ (forall p, in_disc c q p -> in_rect box p) /\
    forall q', 0 <= q' -> (forall p, in_disc c q' p -> in_rect box p) -> q' <= q
  | RFarthest => in_rect box c ->
    fst c - r_x box <= q /\ r_x box + r_w box - fst c <= q /\ snd c - r_y box <= q /\ r_y box + r_h box - snd c <= q /\
    (fst c - r_x box == q \/ r_x box + r_w box - fst c == q \/ snd c - r_y box == q \/ r_y box + r_h box - snd c == q)
  | RLength w => q == length_of w (diagonal (r_w box) (r_h box))
  end.
Lemma circle_radius_right r x box c : radius_for r x ->
  exists q, circle_radius diagonal x box c = Some q /\ circle_radius_is r box (fst c + r_x box, snd c + r_y box) q.
Proof.
  assert (Close : circle_radius_is RClosest box (fst c + r_x box, snd c + r_y box)
                    (min4 (Qabs (r_w box - fst c)) (fst c) (snd c) (Qabs (r_h box - snd c)))).
  { intros (A1 & A2 & A3 & A4). cbn [fst snd] in *. pose proof (min4_spec (Qabs (r_w box - fst c)) (fst c) (snd c) (Qabs (r_h box - snd c))) as M.
    cbn zeta in M. set (q := min4 _ _ _ _) in *. rewrite (Qabs_pos (r_w box - fst c)), (Qabs_pos (r_h box - snd c)) in M by lra.
    destruct M as (M1 & M2 & M3 & M4 & M5). assert (Q0 : 0 <= q) by (destruct M5 as [E|[E|[E|E]]]; lra). split; [exact Q0|]. split.
    - intros p D. apply disc_bound in D; [|exact Q0]. cbn [fst snd] in D. unfold in_rect. repeat split; lra.
    - intros q' Q' D.
      assert (D1 : in_rect box (fst c + r_x box + q', snd c + r_y box)) by (apply D; unfold in_disc; cbn [fst snd]; nra).
      assert (D2 : in_rect box (fst c + r_x box - q', snd c + r_y box)) by (apply D; unfold in_disc; cbn [fst snd]; nra).
      assert (D3 : in_rect box (fst c + r_x box, snd c + r_y box + q')) by (apply D; unfold in_disc; cbn [fst snd]; nra).
      assert (D4 : in_rect box (fst c + r_x box, snd c + r_y box - q')) by (apply D; unfold in_disc; cbn [fst snd]; nra).
      unfold in_rect in *. cbn [fst snd] in *. destruct M5 as [E|[E|[E|E]]]; lra. }
  intros F. destruct r as [| | |w]; cbn [radius_for] in F.
  - subst. eexists. split; [reflexivity|exact Close].
  - subst. eexists. split; [reflexivity|exact Close].
  - subst. eexists. split; [reflexivity|]. intros (A1 & A2 & A3 & A4). cbn [fst snd] in *.
    pose proof (max4_spec (Qabs (r_w box - fst c)) (fst c) (snd c) (Qabs (r_h box - snd c))) as M.
    cbn zeta in M. set (q := max4 _ _ _ _) in *. rewrite (Qabs_pos (r_w box - fst c)), (Qabs_pos (r_h box - snd c)) in M by lra.
    destruct M as (M1 & M2 & M3 & M4 & M5). split; [lra|]. split; [lra|]. split; [lra|]. split; [lra|].
    destruct M5 as [E|[E|[E|E]]]; [right; left|left|right; right; left|right; right; right]; lra.
  - destruct F as (v & -> & V). destruct (V (diagonal (r_w box) (r_h box))) as (q & E & Q). exists q. split; assumption.
Qed.

Theorem C172_circle_partial : forall name r h v l b a box, function_name "circle(" name ->
  radius_text r l -> wradius_ok r -> blank b -> at_text h v a ->
  exists s c q, shape_of name (l ++ b ++ a) = Some s /\ region_of box s = Some (REllipse c q q) /\
    c ≡ plus (r_x box, r_y box) (coordinate h (r_w box), coordinate v (r_h box)) /\ circle_radius_is r box c q.
Proof.
  intros name r h v l b a box [Ty N] T O B A. destruct (@circle_reads Pa R r h v l b a T O B A) as (x & p & E & F & P).
  destruct (placed_resolves p h v box P) as (c & Ec & [X Y]). destruct (circle_radius_right r x box c F) as (q & Eq & Q).
  exists (Circle x p), (fst c + r_x box, snd c + r_y box), q. split.
  - unfold ClipModel.shape_of. rewrite (is_func_name name _ "circle(" Ty N). change (eq_ci (of_string "circle(") (of_string "circle(")) with true. exact E.
  - split; [cbn [ClipModel.region_of]; rewrite Ec; cbn [bind]; rewrite Eq; reflexivity|]. split; [|exact Q].
    split; cbn [plus fst snd] in *; [rewrite X|rewrite Y]; ring.
Qed.

(** With its center outside of the box, the radius is negative. *)
Theorem C172_outside_refuted : forall name h v a box, function_name "circle(" name -> at_text h v a -> coordinate h (r_w box) < 0 ->
  exists s c q, shape_of name a = Some s /\ region_of box s = Some (REllipse c q q) /\ q < 0.
Proof.
  intros name h v a box [Ty N] A L. destruct (@circle_reads Pa R RDefault h v [] [] a radius_none I (Forall_nil _) A) as (x & p & E & F & P).
  cbn [radius_for] in F. subst x. destruct (placed_resolves p h v box P) as (c & Ec & [X Y]). cbn [fst snd app] in *.
  eexists. eexists. eexists. split; [|split].
  - unfold ClipModel.shape_of. rewrite (is_func_name name _ "circle(" Ty N). change (eq_ci (of_string "circle(") (of_string "circle(")) with true. exact E.
  - cbn [ClipModel.region_of]. rewrite Ec. cbn [bind circle_radius]. reflexivity.
  - pose proof (min4_spec (Qabs (r_w box - fst c)) (fst c) (snd c) (Qabs (r_h box - snd c))) as M. cbn zeta in M. destruct M as (_ & M & _). lra.
Qed.

(** A position that is refused (C171) counts for nothing: the circle is in the middle. *)
Theorem C172_position_refuted : forall s t at_ b l, spells "top" s \/ spells "bottom" s -> spells "left" t \/ spells "right" t ->
  spells "at" at_ -> blank b -> spaced [s; t] l ->
  @circle_of Pa R (at_ :: b ++ l) = Some (Circle CLOSEST middle) /\ @circle_of Pa R [] = Some (Circle CLOSEST middle).
Proof.
  intros s t at_ b l A B T Bl Sp. split; [|reflexivity].
  assert (F : exists i j, reads_item s i /\ reads_item t j /\ of_items [i; j] = None).
  { destruct A as [A|A]; apply item_keyword in A; cbn in A; destruct B as [B|B]; apply item_keyword in B; cbn in B;
      eexists; eexists; (split; [exact A|]); (split; [exact B|]); reflexivity. }
  destruct F as (i & j & Fi & Fj & E). unfold circle_of, read_radius.
  rewrite (spells_lengths "at" at_ _ T), (spells_keyword "at" at_ _ _ T). cbn [find fst]. cbn beta iota.
  change (eq_ci (of_string "at") (of_string "closest-side")) with false. change (eq_ci (of_string "at") (of_string "farthest-side")) with false. cbn beta iota.
  unfold at_position. rewrite (eat_solid at_ _ (spells_solid "at" at_ T)), (spells_skip "at" "at" at_ _ T).
  change (eq_ci (of_string "at") (of_string "at")) with true. cbn beta iota. rewrite (eat_blank b l Bl).
  rewrite (spaced_eat [s; t] l Sp) by (constructor; [apply Fi|constructor; [apply Fj|constructor]]).
  unfold read_position. rewrite (items_read [s; t] [i; j] 4 l); [now rewrite E|constructor; [exact Fi|constructor; [exact Fj|constructor]]|exact Sp|cbn; lia].
Qed.

(** With white space before its radius, a circle is refused. *)
Theorem C172_space_refuted : forall name d w r, function_name "circle(" name -> shape_of name (TOK (mkT WHITESPACE d) :: len_sst w :: r) = None.
Proof.
  intros name d w r [Ty N]. unfold ClipModel.shape_of. rewrite (is_func_name name _ "circle(" Ty N).
  change (eq_ci (of_string "circle(") (of_string "circle(")) with true. unfold circle_of.
  change (read_radius (TOK (mkT WHITESPACE d) :: len_sst w :: r)) with (@None (radius * list sst)). cbn beta iota. unfold at_position.
  change (eat_wss (TOK (mkT WHITESPACE d) :: len_sst w :: r)) with (eat_wss (len_sst w :: r)). rewrite (eat_solid _ r (len_solid w)), len_skip. reflexivity.
Qed.

(** Whatever comes before, a circle and an ellipse that end in something else are refused. *)
Theorem C172_rest : forall name c x, function_name "circle(" name \/ function_name "ellipse(" name -> foreign x -> shape_of name (c ++ [x]) = None.
Proof.
  intros name c x [[Ty N]|[Ty N]] F; unfold ClipModel.shape_of.
  - rewrite (is_func_name name _ "circle(" Ty N). change (eq_ci (of_string "circle(") (of_string "circle(")) with true. cbn beta iota. unfold circle_of.
    destruct (read_radius (c ++ [x])) as [[q r]|] eqn:E; [destruct (foreign_stays _ x c q r radius_one (foreign_radius x F) E) as [c' ->]|]; now rewrite foreign_at.
  - rewrite !(is_func_name name "ellipse(" _ Ty N). change (eq_ci (of_string "ellipse(") (of_string "circle(")) with false.
    change (eq_ci (of_string "ellipse(") (of_string "ellipse(")) with true. cbn beta iota. unfold ellipse_of.
    destruct (read_radius (c ++ [x])) as [[q r]|] eqn:E; [|now rewrite foreign_at]. destruct (foreign_stays _ x c q r radius_one (foreign_radius x F) E) as [c' ->].
    destruct (foreign_eat x F c') as [c2 E2]. rewrite E2. destruct (read_radius (c2 ++ [x])) as [[q' r']|] eqn:E'; [|reflexivity].
    destruct (foreign_stays _ x c2 q' r' radius_one (foreign_radius x F) E') as [c3 ->]. now rewrite foreign_at.
Qed.

(** ** C173: ellipses *)

(** A radius of an ellipse, on an axis from [lo] over [whole] *)
Definition ellipse_radius_is (r : wradius) (lo whole c q : Q) : Prop :=
  match r with
  | RDefault | RClosest => lo <= c <= lo + whole ->
    0 <= q /\ q <= c - lo /\ q <= lo + whole - c /\ (q == c - lo \/ q == lo + whole - c)
  | RFarthest => lo <= c <= lo + whole -> c - lo <= q /\ lo + whole - c <= q /\ (q == c - lo \/ q == lo + whole - c)
  | RLength w => q == length_of w whole
  end.
Lemma ellipse_radius_right r x lo whole c : radius_for r x -> exists q, ellipse_radius x whole c = Some q /\ ellipse_radius_is r lo whole (c + lo) q.
Proof.
  intros F. destruct r as [| | |w]; cbn [radius_for] in F.
  1-3: subst; eexists; (split; [reflexivity|]); intros [A1 A2]; rewrite (Qabs_pos (whole - c)) by lra.
  1-2: destruct (Q.min_spec (whole - c) c) as [[? E]|[? E]]; rewrite E; repeat split; try lra; (left; lra) || (right; lra).
  1: destruct (Q.max_spec (whole - c) c) as [[? E]|[? E]]; rewrite E; repeat split; try lra; (left; lra) || (right; lra).
  destruct F as (v & -> & V). destruct (V whole) as (q & E & Q). exists q. split; assumption.
Qed.
Theorem C173_ellipse_partial : forall name rx ry h v l l' b b' a box, function_name "ellipse(" name ->
  radius_text rx l -> radius_text ry l' -> (l = [] <-> l' = []) -> wradius_ok rx -> wradius_ok ry -> blank b -> blank b' -> at_text h v a ->
  exists s c x y, shape_of name (l ++ b ++ l' ++ b' ++ a) = Some s /\ region_of box s = Some (REllipse c x y) /\
    c ≡ plus (r_x box, r_y box) (coordinate h (r_w box), coordinate v (r_h box)) /\
    ellipse_radius_is rx (r_x box) (r_w box) (fst c) x /\ ellipse_radius_is ry (r_y box) (r_h box) (snd c) y.
Proof.
  intros name rx ry h v l l' b b' a box [Ty N] Tx Tv L Ox Oy B B' A.
  destruct (@ellipse_reads Pa R rx ry h v l l' b b' a Tx Tv L Ox Oy B B' A) as (x & y & p & E & Fx & Fy & P).
  destruct (placed_resolves p h v box P) as (c & Ec & [X Y]).
  destruct (ellipse_radius_right rx x (r_x box) (r_w box) (fst c) Fx) as (qx & Ex & Qx).
  destruct (ellipse_radius_right ry y (r_y box) (r_h box) (snd c) Fy) as (qy & Ey & Qy).
  exists (Ellipse x y p), (fst c + r_x box, snd c + r_y box), qx, qy. split.
  - unfold ClipModel.shape_of. rewrite !(is_func_name name "ellipse(" _ Ty N).
    change (eq_ci (of_string "ellipse(") (of_string "circle(")) with false. change (eq_ci (of_string "ellipse(") (of_string "ellipse(")) with true. exact E.
  - split; [cbn [ClipModel.region_of]; rewrite Ec; cbn [bind]; rewrite Ex; cbn [bind]; rewrite Ey; reflexivity|]. split; [|split; assumption].
    split; cbn [plus fst snd] in *; [rewrite X|rewrite Y]; ring.
Qed.
(** An ellipse to the closest sides stays in the box. *)
Theorem C173_inside : forall box c x y, in_rect box c -> 0 < x -> 0 < y ->
  ellipse_radius_is RClosest (r_x box) (r_w box) (fst c) x -> ellipse_radius_is RClosest (r_y box) (r_h box) (snd c) y ->
  forall p, in_ellipse c x y p -> in_rect box p.
Proof.
  intros box c x y (A1 & A2 & A3 & A4) X Y Rx Ry p I. destruct (ellipse_bound c x y p I X Y) as [[B1 B2] [B3 B4]].
  destruct (Rx (conj A1 A2)) as (_ & C1 & C2 & _). destruct (Ry (conj A3 A4)) as (_ & C3 & C4 & _). unfold in_rect. repeat split; lra.
Qed.

(** ** C174: rectangles *)

(** How the corners are written after the sides *)
Inductive corners_text : R -> list sst -> Prop :=
| corners_none b : blank b -> corners_text sharp b
| corners_round k b s b' l e : blank b -> spells "round" s -> blank b' -> eat_wss l = l -> read_radii l = Some (k, e) -> blank e ->
    corners_text k (b ++ s :: b' ++ l).
Lemma corners_read k e : corners_text k e -> rounded read_radii sharp e = Some k.
Proof.
  intros [b B|k' b s b' l e' B S B' L E B'']; [exact (rounded_blank read_radii sharp b B)|]. unfold rounded.
  rewrite (eat_blank b _ B), (eat_solid s _ (spells_solid "round" s S)), (spells_skip "round" "round" s _ S).
  change (eq_ci (of_string "round") (of_string "round")) with true. cbn beta iota. now rewrite (eat_blank b' l B'), L, E, (eat_blank_nil e' B'').
Qed.
Lemma corners_lengths k e : corners_text k e -> lengths e = None.
Proof.
  intros [b B|k' b s b' l e' B S _ _ _ _]; destruct B as [|? ? [d ->] _]; try reflexivity. cbn [app]. exact (spells_lengths "round" s _ S).
Qed.

(** [rect()]: four sides, each of them a distance from the top or the left of the box, or [auto]. *)
Theorem C174_rect : forall name t r b l st sr sb sl b0 b1 b2 b3 cs e box, function_name "rect(" name ->
  side_text t st -> side_text r sr -> side_text b sb -> side_text l sl -> side_ok t -> side_ok r -> side_ok b -> side_ok l ->
  blank b0 -> blank b1 -> blank b2 -> blank b3 -> corners_text cs e ->
  exists s k, shape_of name (b0 ++ st :: b1 ++ sr :: b2 ++ sb :: b3 ++ sl :: e) = Some s /\
    region_of box s = Some (RRect k (resolve_radii cs box)) /\
    (side_of 0 l (r_w box) <= side_of 100 r (r_w box) -> side_of 0 t (r_h box) <= side_of 100 b (r_h box) -> forall p,
       in_rect k p <->
       r_x box + side_of 0 l (r_w box) <= fst p <= r_x box + side_of 100 r (r_w box) /\
       r_y box + side_of 0 t (r_h box) <= snd p <= r_y box + side_of 100 b (r_h box)).
Proof.
  intros name t r b l st sr sb sl b0 b1 b2 b3 cs e box [Ty N] Tt Tr Tb Tl Ot Or Ob Ol B0 B1 B2 B3 B4.
  destruct (side_reads 0 t st Tt Ot) as (vt & Rt & Vt). destruct (side_reads 100 r sr Tr Or) as (vr & Rr & Vr).
  destruct (side_reads 100 b sb Tb Ob) as (vb & Rb & Vb). destruct (side_reads 0 l sl Tl Ol) as (vl & Rl & Vl).
  destruct (Vt (r_h box)) as (qt & Et & Qt). destruct (Vr (r_w box)) as (qr & Er & Qr). destruct (Vb (r_h box)) as (qb & Eb & Qb). destruct (Vl (r_w box)) as (ql & El & Ql).
  exists (Rect vt vr vb vl cs). eexists. split; [|split].
  - unfold ClipModel.shape_of. rewrite !(is_func_name name "rect(" _ Ty N).
    change (eq_ci (of_string "rect(") (of_string "circle(")) with false. change (eq_ci (of_string "rect(") (of_string "ellipse(")) with false.
    change (eq_ci (of_string "rect(") (of_string "inset(")) with false. change (eq_ci (of_string "rect(") (of_string "path(")) with false.
    change (eq_ci (of_string "rect(") (of_string "polygon(")) with false. change (eq_ci (of_string "rect(") (of_string "rect(")) with true. cbn beta iota.
    unfold rect_of, zero_percent, whole_percent. rewrite (Rt b0 _ B0), (Rr b1 _ B1), (Rb b2 _ B2), (Rl b3 _ B3), (corners_read cs e B4). reflexivity.
  - cbn [ClipModel.region_of]. rewrite Et. cbn [bind]. rewrite Er. cbn [bind]. rewrite Eb. cbn [bind]. rewrite El. reflexivity.
  - intros Hx Hy p. rewrite <- Qt, <- Qr, <- Qb, <- Ql in *. unfold in_rect. cbn [r_x r_y r_w r_h].
    rewrite (Q.max_l (qr - ql) 0), (Q.max_l (qb - qt) 0) by lra. split; intros H; repeat split; lra.
Qed.

(** [xywh()]: the position and the size of a rectangle. *)
Theorem C174_xywh : forall name x y w h b0 b1 b2 b3 cs e box, function_name "xywh(" name ->
  wlen_ok x -> wlen_ok y -> wlen_ok w -> wlen_ok h -> blank b0 -> blank b1 -> blank b2 -> blank b3 -> corners_text cs e ->
  exists s k, shape_of name (b0 ++ len_sst x :: b1 ++ len_sst y :: b2 ++ len_sst w :: b3 ++ len_sst h :: e) = Some s /\
    region_of box s = Some (RRect k (resolve_radii cs box)) /\
    forall p, in_rect k p <->
      0 <= fst p - (r_x box + length_of x (r_w box)) <= length_of w (r_w box) /\
      0 <= snd p - (r_y box + length_of y (r_h box)) <= length_of h (r_h box).
Proof.
  intros name x y w h b0 b1 b2 b3 cs e box [Ty N] Ox Oy Ow Oh B0 B1 B2 B3 B4.
  destruct (len_reads x Ox) as (vx & [_ Rx] & Vx). destruct (len_reads y Oy) as (vy & [_ Ry] & Vy).
  destruct (len_reads w Ow) as (vw & [_ Rw] & Vw). destruct (len_reads h Oh) as (vh & [_ Rh] & Vh).
  destruct (Vx (r_w box)) as (qx & Ex & Qx). destruct (Vy (r_h box)) as (qy & Ey & Qy). destruct (Vw (r_w box)) as (qw & Ew & Qw). destruct (Vh (r_h box)) as (qh & Eh & Qh).
  exists (Xywh vx vy vw vh cs). eexists. split; [|split].
  - unfold ClipModel.shape_of. rewrite !(is_func_name name "xywh(" _ Ty N).
    change (eq_ci (of_string "xywh(") (of_string "circle(")) with false. change (eq_ci (of_string "xywh(") (of_string "ellipse(")) with false.
    change (eq_ci (of_string "xywh(") (of_string "inset(")) with false. change (eq_ci (of_string "xywh(") (of_string "path(")) with false.
    change (eq_ci (of_string "xywh(") (of_string "polygon(")) with false. change (eq_ci (of_string "xywh(") (of_string "rect(")) with false.
    change (eq_ci (of_string "xywh(") (of_string "xywh(")) with true. cbn beta iota.
    unfold xywh_of. rewrite (eat_length b0 x _ B0), Rx, (eat_length b1 y _ B1), Ry, (eat_length b2 w _ B2), Rw, (eat_length b3 h _ B3), Rh, (corners_read cs e B4). reflexivity.
  - cbn [ClipModel.region_of]. rewrite Ex. cbn [bind]. rewrite Ey. cbn [bind]. rewrite Ew. cbn [bind]. rewrite Eh. reflexivity.
  - intros p. rewrite <- Qx, <- Qy, <- Qw, <- Qh. unfold in_rect. cbn [r_x r_y r_w r_h]. split; intros H; repeat split; lra.
Qed.

(** One to four insets, from the top clockwise; the ones left out are those of the opposite sides. *)
Inductive inset_words : wlen -> wlen -> wlen -> wlen -> list wlen -> Prop :=
| insets_one t : inset_words t t t t [t]
| insets_two t r : inset_words t r t r [t; r]
| insets_three t r b : inset_words t r b r [t; r; b]
| insets_four t r b l : inset_words t r b l [t; r; b; l].
(** [inset()] with values that touch, like [10%20%]: what is at least that far from each side. *)
Theorem C174_inset_partial : forall name t r b l ws cs e box, function_name "inset(" name -> inset_words t r b l ws -> Forall wlen_ok ws -> corners_text cs e ->
  exists s k, shape_of name (map len_sst ws ++ e) = Some s /\ region_of box s = Some (RRect k (resolve_radii cs box)) /\
    forall p, in_rect k p <->
      length_of l (r_w box) <= fst p - r_x box /\ length_of r (r_w box) <= r_x box + r_w box - fst p /\
      length_of t (r_h box) <= snd p - r_y box /\ length_of b (r_h box) <= r_y box + r_h box - snd p.
Proof.
  intros name t r b l ws cs e box [Ty N] I O B.
  pose proof (corners_lengths cs e B) as Ne.
  assert (Rd : exists vt vr vb vl, read_insets (map len_sst ws ++ e) = Some (vt, vr, vb, vl, e) /\
    (forall whole, exists q, len vt whole = Some q /\ q == length_of t whole) /\ (forall whole, exists q, len vr whole = Some q /\ q == length_of r whole) /\
    (forall whole, exists q, len vb whole = Some q /\ q == length_of b whole) /\ (forall whole, exists q, len vl whole = Some q /\ q == length_of l whole)).
  { destruct I as [t|t r|t r b|t r b l]; inversion O as [|? ? O1 O']; subst; destruct (len_reads t O1) as (v1 & [_ R1] & V1); cbn [map app]; unfold read_insets; rewrite R1.
    - exists v1, v1, v1, v1. rewrite Ne. repeat split; assumption.
    - inversion O' as [|? ? O2 _]; subst. destruct (len_reads r O2) as (v2 & [_ R2] & V2). rewrite R2, Ne. exists v1, v2, v1, v2. repeat split; assumption.
    - inversion O' as [|? ? O2 O'']; subst. destruct (len_reads r O2) as (v2 & [_ R2] & V2). inversion O'' as [|? ? O3 _]; subst. destruct (len_reads b O3) as (v3 & [_ R3] & V3).
      rewrite R2, R3, Ne. exists v1, v2, v3, v2. repeat split; assumption.
    - inversion O' as [|? ? O2 O'']; subst. destruct (len_reads r O2) as (v2 & [_ R2] & V2). inversion O'' as [|? ? O3 O4']; subst. destruct (len_reads b O3) as (v3 & [_ R3] & V3).
      inversion O4' as [|? ? O4 _]; subst. destruct (len_reads l O4) as (v4 & [_ R4] & V4). rewrite R2, R3, R4. exists v1, v2, v3, v4. repeat split; assumption. }
  destruct Rd as (vt & vr & vb & vl & Re & Vt & Vr & Vb & Vl).
  destruct (Vt (r_h box)) as (qt & Et & Qt). destruct (Vr (r_w box)) as (qr & Er & Qr). destruct (Vb (r_h box)) as (qb & Eb & Qb). destruct (Vl (r_w box)) as (ql & El & Ql).
  exists (Inset vt vr vb vl cs). eexists. split; [|split].
  - unfold ClipModel.shape_of. rewrite !(is_func_name name "inset(" _ Ty N).
    change (eq_ci (of_string "inset(") (of_string "circle(")) with false. change (eq_ci (of_string "inset(") (of_string "ellipse(")) with false.
    change (eq_ci (of_string "inset(") (of_string "inset(")) with true. cbn beta iota.
    unfold inset_of. rewrite Re, (corners_read cs e B). reflexivity.
  - cbn [ClipModel.region_of]. rewrite El, Er, Et, Eb. reflexivity.
  - intros p. rewrite <- Qt, <- Qr, <- Qb, <- Ql. unfold in_rect. cbn [r_x r_y r_w r_h]. split; intros H; repeat split; lra.
Qed.
(** Two values, with the white space between them that there has to be, are refused. *)
Theorem C174_inset_values_refuted : forall name w w' d r, function_name "inset(" name -> wlen_ok w ->
  shape_of name (len_sst w :: TOK (mkT WHITESPACE d) :: len_sst w' :: r) = None.
Proof.
  intros name w w' d r [Ty N] O. destruct (len_reads w O) as (v & [_ Re] & _). unfold ClipModel.shape_of. rewrite !(is_func_name name "inset(" _ Ty N).
  change (eq_ci (of_string "inset(") (of_string "circle(")) with false. change (eq_ci (of_string "inset(") (of_string "ellipse(")) with false.
  change (eq_ci (of_string "inset(") (of_string "inset(")) with true. cbn beta iota.
  unfold inset_of, read_insets. rewrite Re. change (lengths (TOK (mkT WHITESPACE d) :: len_sst w' :: r)) with (@None (length_value * list sst)). cbn beta iota.
  unfold rounded. change (eat_wss (TOK (mkT WHITESPACE d) :: len_sst w' :: r)) with (eat_wss (len_sst w' :: r)).
  rewrite (eat_solid _ r (len_solid w')), len_skip. reflexivity.
Qed.

(** Whatever comes before, these shapes are refused if they end in something that neither the lengths nor the radii take. *)
Lemma foreign_rounded x c : foreign x -> (forall l k r, read_radii (l ++ [x]) = Some (k, r) -> exists r', r = r' ++ [x]) -> rounded read_radii sharp (c ++ [x]) = None.
Proof.
  intros F K. unfold rounded. destruct (foreign_eat x F c) as [c1 E1]. rewrite E1.
  destruct (skip_tok (ident "round") (c1 ++ [x])) as [r|] eqn:Es; [|destruct c1; reflexivity].
  destruct (skip_one _ _ _ Es) as [s E]. destruct c1 as [|s' c1]; [cbn [app] in Es; rewrite (foreign_skip x "round" [] F) in Es; discriminate Es|].
  injection E as _ <-. destruct (foreign_eat x F c1) as [c2 E2]. rewrite E2. destruct (read_radii (c2 ++ [x])) as [[k r]|] eqn:Er.
  - destruct (K c2 k r Er) as [r' ->]. destruct (foreign_eat x F r') as [c3 E3]. rewrite E3. destruct c3; reflexivity.
  - destruct (foreign_eat x F c2) as [c3 E3]. rewrite E3. destruct c3; reflexivity.
Qed.
Lemma foreign_length x c v r : foreign x -> lengths (c ++ [x]) = Some (v, r) -> exists c', r = c' ++ [x].
Proof. intros F. exact (foreign_stays lengths x c v r lengths_one (foreign_lengths x [] F)). Qed.
Lemma foreign_length_eat x c v r : foreign x -> lengths (eat_wss (c ++ [x])) = Some (v, r) -> exists c', r = c' ++ [x].
Proof. intros F. destruct (foreign_eat x F c) as [c1 ->]. now apply foreign_length. Qed.
Lemma foreign_side x a c v r : foreign x -> read_side a (c ++ [x]) = Some (v, r) -> exists c', r = c' ++ [x].
Proof.
  intros F. unfold read_side. destruct (foreign_eat x F c) as [c1 ->]. destruct (read_keyword _ (c1 ++ [x])) as [[u r']|] eqn:E; [|now apply foreign_length].
  intros H. injection H as _ <-. exact (foreign_stays _ x c1 u r' (keyword_one _) (foreign_keyword x _ [] F) E).
Qed.
Theorem C174_rest : forall name c x, function_name "inset(" name \/ function_name "rect(" name \/ function_name "xywh(" name -> foreign x ->
  (forall l k r, read_radii (l ++ [x]) = Some (k, r) -> exists r', r = r' ++ [x]) -> shape_of name (c ++ [x]) = None.
Proof.
  intros name c x N F K. unfold ClipModel.shape_of. destruct N as [[Ty N]|[[Ty N]|[Ty N]]].
  - rewrite !(is_func_name name "inset(" _ Ty N). cbn -[inset_of lengths]. unfold inset_of, read_insets.
    destruct (lengths (c ++ [x])) as [[t r1]|] eqn:E1; [|reflexivity]. destruct (foreign_length x c t r1 F E1) as [c1 ->].
    destruct (lengths (c1 ++ [x])) as [[r r2]|] eqn:E2; [|now rewrite foreign_rounded]. destruct (foreign_length x c1 r r2 F E2) as [c2 ->].
    destruct (lengths (c2 ++ [x])) as [[b r3]|] eqn:E3; [|now rewrite foreign_rounded]. destruct (foreign_length x c2 b r3 F E3) as [c3 ->].
    destruct (lengths (c3 ++ [x])) as [[l r4]|] eqn:E4; [|now rewrite foreign_rounded]. destruct (foreign_length x c3 l r4 F E4) as [c4 ->].
    now rewrite foreign_rounded.
  - rewrite !(is_func_name name "rect(" _ Ty N). cbn -[rect_of read_side]. unfold rect_of.
    destruct (read_side zero_percent (c ++ [x])) as [[t r1]|] eqn:E1; [|reflexivity]. destruct (foreign_side x _ c t r1 F E1) as [c1 ->].
    destruct (read_side whole_percent (c1 ++ [x])) as [[r r2]|] eqn:E2; [|reflexivity]. destruct (foreign_side x _ c1 r r2 F E2) as [c2 ->].
    destruct (read_side whole_percent (c2 ++ [x])) as [[b r3]|] eqn:E3; [|reflexivity]. destruct (foreign_side x _ c2 b r3 F E3) as [c3 ->].
    destruct (read_side zero_percent (c3 ++ [x])) as [[l r4]|] eqn:E4; [|reflexivity]. destruct (foreign_side x _ c3 l r4 F E4) as [c4 ->].
    now rewrite foreign_rounded.
  - rewrite !(is_func_name name "xywh(" _ Ty N). cbn -[xywh_of lengths]. unfold xywh_of.
    destruct (lengths (eat_wss (c ++ [x]))) as [[t r1]|] eqn:E1; [|reflexivity]. destruct (foreign_length_eat x c t r1 F E1) as [c1 ->].
    destruct (lengths (eat_wss (c1 ++ [x]))) as [[r r2]|] eqn:E2; [|reflexivity]. destruct (foreign_length_eat x c1 r r2 F E2) as [c2 ->].
    destruct (lengths (eat_wss (c2 ++ [x]))) as [[b r3]|] eqn:E3; [|reflexivity]. destruct (foreign_length_eat x c2 b r3 F E3) as [c3 ->].
    destruct (lengths (eat_wss (c3 ++ [x]))) as [[l r4]|] eqn:E4; [|reflexivity]. destruct (foreign_length_eat x c3 l r4 F E4) as [c4 ->].
    now rewrite foreign_rounded.
Qed.

(** ** C175: polygons *)

(** Points, with commas between them *)
Inductive points_text : list (wlen * wlen) -> list sst -> Prop :=
| points_one x y b0 b1 b2 : blank b0 -> blank b1 -> blank b2 -> points_text [(x, y)] (b0 ++ len_sst x :: b1 ++ len_sst y :: b2)
| points_more x y ps b0 b1 b2 d l : blank b0 -> blank b1 -> blank b2 -> points_text ps l ->
    points_text ((x, y) :: ps) (b0 ++ len_sst x :: b1 ++ len_sst y :: b2 ++ TOK (mkT COMMA d) :: l).
Definition point_ok (p : wlen * wlen) : Prop := wlen_ok (fst p) /\ wlen_ok (snd p).
Definition vertex (box : rect) (p : wlen * wlen) : point := plus (r_x box, r_y box) (length_of (fst p) (r_w box), length_of (snd p) (r_h box)).
Lemma points_read : forall ps l, points_text ps l -> Forall point_ok ps -> forall fuel, (List.length l <= fuel)%nat ->
  exists vs, read_points fuel true l = Some vs /\ vs <> [] /\
    forall box, exists qs, resolve_points box vs = Some qs /\ Forall2 same qs (map (vertex box) ps).
Proof.
  assert (Step : forall x y b0 b1 rest fuel, wlen_ok x -> wlen_ok y -> blank b0 -> blank b1 -> exists vx vy,
    read_points (S fuel) true (b0 ++ len_sst x :: b1 ++ len_sst y :: rest) = option_map (cons (vx, vy)) (read_points fuel false (eat_wss rest)) /\
    forall box, exists q q', len vx (r_w box) = Some q /\ len vy (r_h box) = Some q' /\ (r_x box + q, r_y box + q') ≡ vertex box (x, y)).
  { intros x y b0 b1 rest fuel Ox Oy B0 B1. destruct (len_reads x Ox) as (vx & [_ Rx] & Vx). destruct (len_reads y Oy) as (vy & [_ Ry] & Vy).
    exists vx, vy. split.
    - cbn [read_points]. destruct (b0 ++ len_sst x :: b1 ++ len_sst y :: rest) as [|s0 l0] eqn:E; [destruct b0; discriminate E|]. rewrite <- E.
      now rewrite (eat_length b0 x _ B0), Rx, (eat_length b1 y _ B1), Ry.
    - intros box. destruct (Vx (r_w box)) as (q & E & Q). destruct (Vy (r_h box)) as (q' & E' & Q'). exists q, q'. split; [exact E|]. split; [exact E'|].
      split; cbn [vertex plus fst snd]; [now rewrite Q|now rewrite Q']. }
  induction 1 as [x y b0 b1 b2 B0 B1 B2|x y ps b0 b1 b2 d l B0 B1 B2 T IH]; intros F fuel L; inversion F as [|? ? [Ox Oy] F']; subst; cbn [fst snd] in *.
  - destruct fuel as [|fuel]; [rewrite app_length in L; cbn in L; lia|].
    destruct (Step x y b0 b1 b2 fuel Ox Oy B0 B1) as (vx & vy & E & V). rewrite E, (eat_blank_nil b2 B2). exists [(vx, vy)].
    split; [destruct fuel; reflexivity|]. split; [discriminate|]. intros box. destruct (V box) as (q & q' & Eq & Eq' & Sm). eexists.
    split; [cbn [resolve_points]; rewrite Eq; cbn [bind]; rewrite Eq'; reflexivity|]. constructor; [exact Sm|constructor].
  - rewrite app_length in L. cbn [List.length] in L. rewrite app_length in L. cbn [List.length] in L. rewrite app_length in L. cbn [List.length] in L.
    destruct fuel as [|fuel]; [lia|].
    destruct (Step x y b0 b1 (b2 ++ TOK (mkT COMMA d) :: l) fuel Ox Oy B0 B1) as (vx & vy & E & V). rewrite E, (eat_blank b2 _ B2).
    destruct (IH F' fuel) as (vs & Ev & Nv & Rv); [lia|]. exists ((vx, vy) :: vs).
    change (eat_wss (TOK (mkT COMMA d) :: l)) with (TOK (mkT COMMA d) :: l).
    assert (K : read_points fuel false (TOK (mkT COMMA d) :: l) = read_points fuel true l) by (destruct fuel; reflexivity).
    rewrite K, Ev. split; [reflexivity|]. split; [discriminate|]. intros box. destruct (V box) as (q & q' & Eq & Eq' & Sm).
    destruct (Rv box) as (qs & Er & Fr). eexists. split; [cbn [resolve_points]; rewrite Eq; cbn [bind]; rewrite Eq'; cbn [bind]; rewrite Er; reflexivity|].
    constructor; assumption.
Qed.
(** How the rule is written, before the points *)
Inductive rule_text : bool -> list sst -> Prop :=
| rule_none : rule_text false []
| rule_nonzero s d : spells "nonzero" s -> rule_text false [s; TOK (mkT COMMA d)]
| rule_evenodd s d : spells "evenodd" s -> rule_text true [s; TOK (mkT COMMA d)].
(** The corners are the points, in order, from the corner of the box. *)
Theorem C175_polygon_partial : forall name rule ps l l' box, function_name "polygon(" name -> rule_text rule l -> points_text ps l' -> Forall point_ok ps ->
  exists s qs, shape_of name (l ++ l') = Some s /\ region_of box s = Some (RPolygon rule qs) /\ Forall2 same qs (map (vertex box) ps).
Proof.
  intros name rule ps l l' box [Ty N] Rt T F.
  assert (E : exists vs, polygon_of (l ++ l') = Some (@Polygon Pa R rule vs) /\ forall box, exists qs, resolve_points box vs = Some qs /\ Forall2 same qs (map (vertex box) ps)).
  { unfold polygon_of. destruct Rt as [|s d Sp|s d Sp]; cbn [app].
    - destruct (points_read ps l' T F (S (List.length l'))) as (vs & Ev & Nv & Rv); [lia|]. exists vs. split; [|exact Rv].
      assert (K : read_keyword [("nonzero", false); ("evenodd", true)]%string l' = None).
      { destruct T as [? ? b0 ? ? B0|? ? ? b0 ? ? ? ? B0]; destruct B0 as [|? ? [e ->] _]; try reflexivity; apply keyword_not. }
      rewrite K, Ev. destruct vs; [congruence|reflexivity].
    - rewrite (spells_keyword "nonzero" s _ _ Sp). cbn [find fst snd].
      change (eq_ci (of_string "nonzero") (of_string "nonzero")) with true. cbn beta iota. cbn [snd].
      destruct (points_read ps l' T F (S (List.length (TOK (mkT COMMA d) :: l')))) as (vs & Ev & Nv & Rv); [cbn; lia|]. exists vs. split; [|exact Rv].
      assert (K : forall f, read_points f false (TOK (mkT COMMA d) :: l') = read_points f true l') by (intros []; reflexivity).
      rewrite K, Ev. destruct vs; [congruence|reflexivity].
    - rewrite (spells_keyword "evenodd" s _ _ Sp). cbn [find fst snd].
      change (eq_ci (of_string "evenodd") (of_string "nonzero")) with false. change (eq_ci (of_string "evenodd") (of_string "evenodd")) with true. cbn beta iota. cbn [snd].
      destruct (points_read ps l' T F (S (List.length (TOK (mkT COMMA d) :: l')))) as (vs & Ev & Nv & Rv); [cbn; lia|]. exists vs. split; [|exact Rv].
      assert (K : forall f, read_points f false (TOK (mkT COMMA d) :: l') = read_points f true l') by (intros []; reflexivity).
      rewrite K, Ev. destruct vs; [congruence|reflexivity]. }
  destruct E as (vs & Ep & Rv). destruct (Rv box) as (qs & Er & Fr). exists (Polygon rule vs), qs. split; [|split].
  - unfold ClipModel.shape_of. rewrite !(is_func_name name "polygon(" _ Ty N).
    change (eq_ci (of_string "polygon(") (of_string "circle(")) with false. change (eq_ci (of_string "polygon(") (of_string "ellipse(")) with false.
    change (eq_ci (of_string "polygon(") (of_string "inset(")) with false. change (eq_ci (of_string "polygon(") (of_string "path(")) with false.
    change (eq_ci (of_string "polygon(") (of_string "polygon(")) with true. exact Ep.
  - cbn [ClipModel.region_of]. rewrite Er. reflexivity.
  - exact Fr.
Qed.
(** A polygon always has a corner to start from. *)
Theorem C175_corner : forall name content rule vs, shape_of name content = Some (Polygon rule vs) -> vs <> [].
Proof.
  intros name content rule vs. unfold ClipModel.shape_of.
  destruct (is_func name "circle("); [unfold circle_of; destruct (match read_radius content with Some x => x | None => _ end) as [x c]; destruct (at_position c); discriminate|].
  destruct (is_func name "ellipse("); [unfold ellipse_of; destruct (read_radius content) as [[x c]|]; [destruct (read_radius (eat_wss c)) as [[y c']|]; [|discriminate]; destruct (at_position c'); discriminate|destruct (at_position content); discriminate]|].
  destruct (is_func name "inset("); [unfold inset_of; destruct (read_insets content) as [[[[[t r] b] l] c]|]; [|discriminate]; destruct (rounded read_radii sharp c); discriminate|].
  destruct (is_func name "path("); [destruct (read_path content); discriminate|].
  destruct (is_func name "polygon(").
  { unfold polygon_of. destruct (match read_keyword _ content with Some _ => _ | None => _ end) as [[rule' begin] c].
    destruct (read_points _ begin c) as [[|v l]|]; try discriminate. intros E. injection E as <- <-. discriminate. }
  destruct (is_func name "rect(").
  { unfold rect_of. destruct (read_side zero_percent content) as [[t c]|]; [|discriminate]. destruct (read_side whole_percent c) as [[r c1]|]; [|discriminate].
    destruct (read_side whole_percent c1) as [[b c2]|]; [|discriminate]. destruct (read_side zero_percent c2) as [[l c3]|]; [|discriminate]. destruct (rounded read_radii sharp c3); discriminate. }
  destruct (is_func name "xywh("); [|discriminate].
  unfold xywh_of. destruct (lengths (eat_wss content)) as [[t c]|]; [|discriminate]. destruct (lengths (eat_wss c)) as [[r c1]|]; [|discriminate].
  destruct (lengths (eat_wss c1)) as [[b c2]|]; [|discriminate]. destruct (lengths (eat_wss c2)) as [[l c3]|]; [|discriminate]. destruct (rounded read_radii sharp c3); discriminate.
Qed.
(** What follows a point without a comma is not looked at: any word makes no difference. *)
Theorem C175_rest_refuted : forall name x y d k r, function_name "polygon(" name -> wlen_ok x -> wlen_ok y ->
  exists s, shape_of name (len_sst x :: len_sst y :: TOK (mkT WHITESPACE d) :: word k :: r) = Some s /\ shape_of name [len_sst x; len_sst y] = Some s.
Proof.
  intros name x y d k r [Ty N] Ox Oy. destruct (len_reads x Ox) as (vx & [Sx Rx] & _). destruct (len_reads y Oy) as (vy & [Sy Ry] & _).
  exists (Polygon false [(vx, vy)]). unfold ClipModel.shape_of. rewrite !(is_func_name name "polygon(" _ Ty N).
  change (eq_ci (of_string "polygon(") (of_string "circle(")) with false. change (eq_ci (of_string "polygon(") (of_string "ellipse(")) with false.
  change (eq_ci (of_string "polygon(") (of_string "inset(")) with false. change (eq_ci (of_string "polygon(") (of_string "path(")) with false.
  change (eq_ci (of_string "polygon(") (of_string "polygon(")) with true. cbn beta iota. unfold polygon_of. rewrite !keyword_not.
  split; cbn [read_points List.length]; rewrite (eat_solid _ _ Sx), Rx, (eat_solid _ _ Sy), Ry; reflexivity.
Qed.

(** ** C176: reference boxes *)

Definition box_names : list (string * gbox) :=
  [("border-box", G_BORDER); ("padding-box", G_PADDING); ("content-box", G_CONTENT); ("margin-box", G_MARGIN);
   ("fill-box", G_FILL); ("stroke-box", G_STROKE); ("view-box", G_VIEW)]%string.
Lemma gbox_reads n g k r : In (n, g) box_names -> spells n k -> read_gbox (k :: r) = Some (g, r).
Proof.
  intros H K. unfold read_gbox. rewrite (spells_keyword n k _ r K). unfold box_names in H. cbn [In] in H.
  repeat (destruct H as [H|H]; [injection H as <- <-; vm_compute; reflexivity|]). destruct H.
Qed.
(** The rectangle of a box of CSS; the boxes of SVG stand for these *)
Definition box_rect (b : boxes (C := C)) (n : string) (r : rect) : Prop :=
  (In n ["border-box"; "stroke-box"; "view-box"]%string /\ r = b_border b) \/ (n = "padding-box"%string /\ r = b_padding b) \/
  (In n ["content-box"; "fill-box"]%string /\ r = b_content b) \/ (n = "margin-box"%string /\ r = b_margin b).
(** A shape, with a box before it or after it or without one: the shape is put in that box, or in the border box. *)
Theorem C176_shape : forall name content s b, shape_of name content = Some s ->
  (forall n k l r, spells n k -> box_rect b n r -> l = [k; FUNC name content] \/ l = [FUNC name content; k] ->
     exists c, read_clip_path read_path read_radii sharp l = Some (Some c, []) /\ clip_region b c = region_of r s) /\
  exists c, read_clip_path read_path read_radii sharp [FUNC name content] = Some (Some c, []) /\ clip_region b c = region_of (b_border b) s.
Proof.
  intros name content s b E.
  assert (Rd : forall r, read_shape read_path read_radii sharp (FUNC name content :: r) = Some (s, r)) by (intros r; unfold read_shape; now rewrite E).
  assert (Nf : forall r, read_gbox (FUNC name content :: r) = None) by reflexivity.
  split.
  - intros n k l r K B L.
    assert (G : exists g, In (n, g) box_names /\ fst (reference (sharp_corners) b g) = r).
    { unfold box_rect in B. cbn [In] in B. unfold box_names.
      destruct B as [[[<-|[<-|[<-|[]]]] ->]|[[-> ->]|[[[<-|[<-|[]]] ->]|[-> ->]]]].
      - exists G_BORDER. cbn; tauto.
      - exists G_STROKE. cbn; tauto.
      - exists G_VIEW. cbn; tauto.
      - exists G_PADDING. cbn; tauto.
      - exists G_CONTENT. cbn; tauto.
      - exists G_FILL. cbn; tauto.
      - exists G_MARGIN. cbn; tauto. }
    destruct G as (g & Hg & Hr). exists (mkClip (Some s) g). split.
    + unfold read_clip_path, read_clip, maybe. destruct L as [-> | ->].
      * rewrite (gbox_reads n g k _ Hg K), Rd. reflexivity.
      * rewrite Nf, Rd, (gbox_reads n g k _ Hg K). reflexivity.
    + unfold ClipModel.clip_region. cbn [c_box c_shape]. destruct (reference sharp_corners b g) as [box corners]. cbn [fst] in Hr. now rewrite Hr.
  - exists (mkClip (Some s) G_BORDER). split; [|reflexivity]. unfold read_clip_path, read_clip, maybe. now rewrite Nf, Rd.
Qed.
(** A box without a shape: the box itself, with the corners of the border if it is the border box. *)
Theorem C176_box : forall n k r b, spells n k -> box_rect b n r ->
  exists c corners, read_clip_path read_path read_radii sharp [k] = Some (Some c, []) /\ clip_region b c = Some (RRect r corners) /\
    (n = "border-box"%string -> corners = b_radii b) /\ (In n ["padding-box"; "content-box"; "margin-box"]%string -> corners = sharp_corners).
Proof.
  intros n k r b K B. unfold box_rect in B. cbn [In] in B.
  assert (G : exists g, In (n, g) box_names /\ fst (reference sharp_corners b g) = r /\ (n = "border-box"%string -> snd (reference sharp_corners b g) = b_radii b) /\
    (In n ["padding-box"; "content-box"; "margin-box"]%string -> snd (reference sharp_corners b g) = sharp_corners)).
  { unfold box_names. destruct B as [[[<-|[<-|[<-|[]]]] ->]|[[-> ->]|[[[<-|[<-|[]]] ->]|[-> ->]]]].
    - exists G_BORDER. cbn [In fst snd reference]. split; [tauto|]. split; [reflexivity|]. split; [reflexivity|]. intros [D|[D|[D|[]]]]; discriminate D.
    - exists G_STROKE. cbn [In fst snd reference]. split; [tauto|]. split; [reflexivity|]. split; [discriminate|]. intros [D|[D|[D|[]]]]; discriminate D.
    - exists G_VIEW. cbn [In fst snd reference]. split; [tauto|]. split; [reflexivity|]. split; [discriminate|]. intros [D|[D|[D|[]]]]; discriminate D.
    - exists G_PADDING. cbn [In fst snd reference]. split; [tauto|]. split; [reflexivity|]. split; [discriminate|reflexivity].
    - exists G_CONTENT. cbn [In fst snd reference]. split; [tauto|]. split; [reflexivity|]. split; [discriminate|reflexivity].
    - exists G_FILL. cbn [In fst snd reference]. split; [tauto|]. split; [reflexivity|]. split; [discriminate|reflexivity].
    - exists G_MARGIN. cbn [In fst snd reference]. split; [tauto|]. split; [reflexivity|]. split; [discriminate|reflexivity]. }
  destruct G as (g & Hg & Hr & Hb & Hs). exists (mkClip None g), (snd (reference sharp_corners b g)). split; [|split; [|split; assumption]].
  - unfold read_clip_path, read_clip, maybe. rewrite (gbox_reads n g k [] Hg K). reflexivity.
  - unfold ClipModel.clip_region. cbn [c_box c_shape]. destruct (reference sharp_corners b g) as [box corners]. cbn [fst snd] in *. now rewrite Hr.
Qed.
(** [none] does not clip. *)
Theorem C176_none : forall k, spells "none" k -> read_clip_path read_path read_radii sharp [k] = Some (None, []).
Proof.
  intros k K. unfold read_clip_path, read_clip, maybe, read_gbox. rewrite (spells_keyword "none" k _ [] K), (spells_skip "none" "none" k [] K).
  destruct K as (d & -> & _). vm_compute. reflexivity.
Qed.
(** All other words are refused. *)
Theorem C176_unknown : forall k r, ~ spells "none" (word k) -> (forall n, In n (map fst box_names) -> ~ spells n (word k)) ->
  read_clip_path read_path read_radii sharp (word k :: r) = None.
Proof.
  intros k r Nn Nb.
  assert (F : forall n, ~ spells n (word k) -> token_eqb (mkT IDENT k) (ident n) = false).
  { intros n H. unfold token_eqb. cbn [t_type ident t_data ttype_beq andb]. destruct (eq_ci k (of_string n)) eqn:E; [|reflexivity].
    exfalso. apply H. exists k. split; [reflexivity|exact E]. }
  assert (G : read_gbox (word k :: r) = None).
  { unfold read_gbox. cbn [read_keyword skip_tok word]. unfold box_names in Nb. cbn [map fst In] in Nb.
    rewrite !F by (apply Nb; tauto). reflexivity. }
  unfold read_clip_path, read_clip, maybe. rewrite G. cbn [read_shape word skip_tok]. rewrite F by exact Nn. reflexivity.
Qed.
End Shapes.
Print Assumptions C171_position_partial.
Print Assumptions C171_vertical_first_refuted.
Print Assumptions C171_vertical_center_refuted.
Print Assumptions C171_twice_refuted.
Print Assumptions C172_circle_partial.
Print Assumptions C172_outside_refuted.
Print Assumptions C172_position_refuted.
Print Assumptions C172_space_refuted.
Print Assumptions C172_rest.
Print Assumptions C173_ellipse_partial.
Print Assumptions C173_inside.
Print Assumptions C174_rect.
Print Assumptions C174_rest.
Print Assumptions C174_xywh.
Print Assumptions C174_inset_partial.
Print Assumptions C174_inset_values_refuted.
Print Assumptions C175_polygon_partial.
Print Assumptions C175_corner.
Print Assumptions C175_rest_refuted.
Print Assumptions C176_shape.
Print Assumptions C176_box.
Print Assumptions C176_none.
Print Assumptions C176_unknown.

(** ** Examples *)

Definition sp : sst := TOK (mkT WHITESPACE (of_string " ")).
Definition kw (k : string) : sst := word (of_string k).
Definition pct (ds : list Z) : wlen := W (WPct (Number.mkD false ds [])).
Lemma kw_spells k : spells k (kw k).
Proof. exists (of_string k). split; [reflexivity|].
  induction (of_string k) as [|c l IH]; [reflexivity|]. cbn [eq_ci]. rewrite N.eqb_refl. exact IH.
Qed.
Lemma sp_blank : blank [sp].
Proof. constructor; [eexists; reflexivity|constructor]. Qed.
Lemma pct_ok ds : ds <> [] -> Forall digit_ok ds -> wlen_ok (pct ds).
Proof. intros N F. split; [exact N|]. split; [exact F|constructor]. Qed.
Lemma nb : blank [].
Proof. constructor. Qed.

(** [bottom 20% right 10%] *)
Definition ex_h : place := Far (Some (pct [1; 0]%Z)).
Definition ex_v : place := Far (Some (pct [2; 0]%Z)).
Definition ex_words : list sst := [kw "bottom"; len_sst (pct [2; 0]%Z); kw "right"; len_sst (pct [1; 0]%Z)].
Definition ex_text : list sst := [kw "bottom"; sp; len_sst (pct [2; 0]%Z); sp; kw "right"; sp; len_sst (pct [1; 0]%Z)].
Lemma ex_ok ds : ds = [1; 0]%Z \/ ds = [2; 0]%Z -> wlen_ok (pct ds).
Proof. intros [-> | ->]; apply pct_ok; try discriminate; repeat constructor; unfold digit_ok; lia. Qed.
Example C171_ex : position_words ex_h ex_v ex_words /\ place_ok ex_h /\ place_ok ex_v /\ in_order ex_h ex_v ex_words /\ spaced ex_words ex_text /\
  coordinate ex_h 200 == 180 /\ coordinate ex_v 100 == 80.
Proof.
  split; [exact (words_swapped ex_h ex_v _ _ (text_far_off _ _ _ _ (kw_spells "right")) (text_far_off _ _ _ _ (kw_spells "bottom")))|].
  split; [apply ex_ok; now left|]. split; [apply ex_ok; now right|]. split; [|split; [|split; reflexivity]].
  - intros _ _. split; [discriminate|]. intros [B _]. inversion B.
  - apply (spaced_cons _ _ [sp] _ sp_blank). apply (spaced_cons _ _ [sp] _ sp_blank). apply (spaced_cons _ _ [sp] _ sp_blank). apply (spaced_cons _ _ [] _ nb). constructor.
Qed.
Example C171_ex_top_left : fst (read_position [kw "top"; sp; kw "left"]) = None.
Proof.
  apply (C171_vertical_first_refuted (kw "top") (kw "left")); [left; apply kw_spells|left; apply kw_spells|].
  apply (spaced_cons _ _ [sp] _ sp_blank). apply (spaced_cons _ _ [] _ nb). constructor.
Qed.
Example C172_ex : exists a, at_text ex_h ex_v a /\ radius_text RFarthest [kw "farthest-side"] /\ function_name "circle(" (mkT FUNCTION (of_string "Circle(")).
Proof.
  destruct C171_ex as (A & B & C & D & E & _). eexists. split; [exact (at_some ex_h ex_v (kw "at") [sp] ex_words ex_text (kw_spells "at") sp_blank A B C D E)|].
  split; [constructor; apply kw_spells|split; reflexivity].
Qed.
(** [circle()] in a box of 200 by 100 is the circle of radius 50 around (100, 50). *)
Example C172_ex_region : match region_of (C := unit) (R := unit) (Pa := unit) (fun _ _ => tt) Qmax (mkRect 0 0 200 100) (Circle CLOSEST middle) with
  | Some (REllipse c q q') => c ≡ (100, 50) /\ q == 50 /\ q' == 50
  | _ => False end.
Proof. vm_compute. repeat split. Qed.
(** [circle(at -10%)] *)
Example C172_ex_outside : coordinate (Near (Some (W (WPct (Number.mkD true [1; 0]%Z []))))) 200 < 0.
Proof. reflexivity. Qed.
(** [ellipse()] in that box *)
Example C173_ex : in_rect (mkRect 0 0 200 100) (100, 50) /\ ellipse_radius_is RClosest 0 200 100 100 /\ ellipse_radius_is RClosest 0 100 50 50 /\
  in_ellipse (100, 50) 100 50 (160, 90) /\ ~ in_ellipse (100, 50) 100 50 (180, 90).
Proof. unfold in_rect, in_ellipse, ellipse_radius_is. cbn. repeat split; try lra; intros; repeat split; try lra. Qed.
(** [rect(10% auto auto 20%)] *)
Example C174_ex : side_text None (kw "auto") /\ side_text (Some (pct [1; 0]%Z)) (len_sst (pct [1; 0]%Z)) /\ side_ok (Some (pct [1; 0]%Z)) /\
  side_of 0 (Some (pct [2; 0]%Z)) 200 <= side_of 100 None 200 /\ side_of 0 (Some (pct [1; 0]%Z)) 100 == 10 /\ side_of 100 None 200 == 200.
Proof. split; [constructor; apply kw_spells|]. split; [constructor|]. split; [apply ex_ok; now left|]. repeat split. vm_compute. discriminate. Qed.
Example C174_ex_inset : inset_words (pct [1; 0]%Z) (pct [2; 0]%Z) (pct [1; 0]%Z) (pct [2; 0]%Z) [pct [1; 0]%Z; pct [2; 0]%Z] /\
  Forall wlen_ok [pct [1; 0]%Z; pct [2; 0]%Z].
Proof. split; [constructor|]. constructor; [apply ex_ok; now left|constructor; [apply ex_ok; now right|constructor]]. Qed.
(** [polygon(evenodd, 10% 20%, 20% 10%)] *)
Example C175_ex : rule_text true [kw "evenodd"; TOK (mkT COMMA (of_string ","))] /\
  (exists l, points_text [(pct [1; 0]%Z, pct [2; 0]%Z); (pct [2; 0]%Z, pct [1; 0]%Z)] l) /\
  Forall point_ok [(pct [1; 0]%Z, pct [2; 0]%Z); (pct [2; 0]%Z, pct [1; 0]%Z)] /\
  vertex (mkRect 5 0 200 100) (pct [1; 0]%Z, pct [2; 0]%Z) ≡ (25, 20).
Proof.
  split; [constructor; apply kw_spells|]. split; [|split; [|split; reflexivity]].
  - eexists. refine (points_more _ _ _ [sp] [sp] [] (of_string ",") _ sp_blank sp_blank nb _). exact (points_one _ _ [sp] [sp] [] sp_blank sp_blank nb).
  - repeat apply Forall_cons; try apply Forall_nil; split; apply ex_ok; cbn; tauto.
Qed.
(** [padding-box circle()] and [circle() padding-box] *)
Example C176_ex : forall b : boxes (C := unit), box_rect b "padding-box" (b_padding b) /\ spells "padding-box" (kw "Padding-Box") /\
  shape_of (Pa := unit) (R := unit) (fun _ => None) (fun _ => None) tt (mkT FUNCTION (of_string "circle(")) [] = Some (Circle CLOSEST middle).
Proof.
  intros b. split; [right; left; split; reflexivity|]. split; [exists (of_string "Padding-Box"); split; reflexivity|reflexivity].
Qed.
Example C176_ex_unknown : ~ spells "none" (kw "auto") /\ forall n, In n (map fst box_names) -> ~ spells n (kw "auto").
Proof.
  assert (F : forall n, eq_ci (of_string "auto") (of_string n) = false -> ~ spells n (kw "auto")).
  { intros n E (d & H & K). assert (d = of_string "auto") as -> by (unfold kw, word in H; congruence). rewrite E in K. discriminate K. }
  split; [apply F; reflexivity|]. intros n H. cbn [map fst box_names In] in H. apply F. repeat (destruct H as [<-|H]; [reflexivity|]). contradiction.
Qed.
(** [round 20%], where corners are read as one length *)
Example C174_ex_round : corners_text (fun c => lengths c) (CPlain (OT (Percent 0)))
  (CPlain (OT (Percent 20))) [sp; kw "round"; sp; len_sst (pct [2; 0]%Z)].
Proof.
  apply (corners_round _ _ _ [sp] (kw "round") [sp] [len_sst (pct [2; 0]%Z)] []); [exact sp_blank|apply kw_spells|exact sp_blank|reflexivity|vm_compute; reflexivity|exact nb].
Qed.
(** [circle(at left,)] *)
Example C172_ex_rest : foreign (TOK (mkT COMMA (of_string ","))).
Proof. eexists. split; [reflexivity|]. cbn. intros [H|[H|[H|[H|[H|[]]]]]]; discriminate H. Qed.
(** [rect(auto auto auto auto round 1px,)], with a single length for the radii *)
Example C174_ex_rest : let x := TOK (mkT COMMA (of_string ",")) in
  foreign x /\ (forall l k r, lengths (l ++ [x]) = Some (k, r) -> exists r', r = r' ++ [x]).
Proof. split; [exact C172_ex_rest|]. intros l k r. apply foreign_length. exact C172_ex_rest. Qed.
