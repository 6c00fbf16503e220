(** C144 to C149: what [transform], [transform-origin], the attribute [transform] of SVG and the view box of SVG do
    to the points of the content. *)
From Coq Require Import String List NArith ZArith QArith Qminmax Qabs Qround Qfield Bool Lia Lqa Setoid Morphisms.
From Verif.Base Require Import Str.
From Verif.Css Require Import LexerModel ParserModel.
From Verif.Values Require Import Number LengthModel LengthSpec LengthProps CalcModel CalcProps ColorModel ColorSpec ColorProofs.
From Verif.Transform Require Import TransformModel TransformSpec TransformProofs TransformProofs2 TransformProofs3.
Import ListNotations.
Local Open Scope list_scope.
Local Open Scope Q_scope.

Section Effects.
(** The trigonometric functions are any that give equal results for equal numbers; the tangent of zero is zero. *)
Variables sine cosine tangent : Q -> Q.
Variable pi : Q.
Hypothesis sine_eq : forall x y, x == y -> sine x == sine y.
Hypothesis cosine_eq : forall x y, x == y -> cosine x == cosine y.
Hypothesis tangent_eq : forall x y, x == y -> tangent x == tangent y.
Hypothesis tangent_0 : tangent 0 == 0.
Local Notation painted := (painted sine cosine tangent pi).
Local Notation effects := (effects sine cosine tangent pi).
Local Notation effect := (effect sine cosine tangent pi).
Local Notation trans_of := (trans_of sine cosine tangent pi).

(** ** C144: a written list of functions *)

(** It is read to its end, and content painted with it has every point moved by the functions, the last one first,
    around the origin. *)
Theorem C144_written_functions_partial : forall fs l,
  fs <> [] -> Forall wfun_ok fs -> list_text fs l ->
  exists ts, read_transform l = Some (Some ts, []) /\
    forall box o c, resolve_origin box o = Some c ->
    exists m, painted box o ts = Some m /\ forall p, on m p ≡ around c (effects (r_w box) (r_h box) fs) p.
Proof.
  intros fs l NE O T.
  destruct (read_written sine cosine tangent pi sine_eq cosine_eq tangent_eq tangent_0 fs l NE O (text_loose fs l T)) as (ts & E & D).
  exists ts. split; [exact E|]. intros box o c R.
  apply (painted_effects sine cosine tangent pi box o c fs ts); [|exact R].
  clear - D. induction D; constructor; auto.
Qed.

(** ** C145: what else is taken for a list of functions *)

(** [none], in any capitalisation *)
Theorem C145_none : forall k r, eq_ci k (of_string "none") = true -> read_transform (word k :: r) = Some (None, r).
Proof.
  intros k r E. unfold read_transform, word. cbn [skip_tok]. unfold token_eqb. cbn [t_type t_data ident ttype_beq andb]. now rewrite E.
Qed.
(** An unknown function, or arguments that cannot be read, spoil the list. *)
Theorem C145_unknown_function : forall fs l name content r,
  Forall wfun_ok fs -> list_text fs l ->
  (forall n, In n ["matrix("; "translateX("; "translateY("; "translate("; "scaleX("; "scaleY("; "scale("; "rotate("; "skew("; "skewX("; "skewY("]%string ->
     eq_ci (t_data name) (of_string n) = false) ->
  read_transform (l ++ FUNC name content :: r) = None.
Proof.
  intros fs l name content r O T N.
  assert (F : function_of name content = None).
  { unfold function_of, is_func, token_eqb. cbn [t_data].
    rewrite !N by (repeat (first [left; reflexivity | right])). now rewrite !andb_false_r. }
  assert (R : read_functions (l ++ FUNC name content :: r) = None).
  { apply text_loose in T. induction T as [|f fs s b l L B T IH]; [now apply read_functions_stop|]. inversion O as [|? ? Of Os]; subst.
    destruct (ok_reads f s Of L) as (n & c & t & -> & E). cbn [app]. rewrite <- app_assoc. apply (read_functions_step n c t _ _ E B). now apply IH. }
  apply text_loose in T. unfold read_transform. destruct T as [|f fs s b l (n & b0 & l0 & -> & _) B T]; cbn [app skip_tok] in *; now rewrite R.
Qed.
(** A value that begins with neither a function nor [none] is taken for the list with no function. *)
Theorem C145_no_function_refuted : forall s r,
  (forall name content, s <> FUNC name content) -> (forall k, eq_ci k (of_string "none") = true -> s <> word k) ->
  read_transform (s :: r) = Some (Some [], s :: r).
Proof.
  intros s r H N. unfold read_transform. destruct s as [t|name content| | |]; [|now contradiction (H name content)|reflexivity..].
  cbn [skip_tok]. destruct (token_eqb t (ident "none")) eqn:E; [|reflexivity]. exfalso.
  unfold token_eqb in E. apply andb_true_iff in E as [E1 E2]. cbn [t_type t_data ident] in E1, E2. apply (N (t_data t) E2).
  unfold word. destruct t as [ty d]. cbn [t_type t_data] in *. now apply internal_ttype_dec_bl in E1 as ->.
Qed.
(** What follows the sixth number of a matrix is not looked at. *)
Theorem C145_long_matrix_refuted : forall ds extra r, Forall decimal_ok ds -> List.length ds = 6%nat ->
  exists t, read_transform (FUNC (mkT FUNCTION (of_string "matrix(")) (map num_sst ds ++ extra) :: r) =
            match read_functions (FUNC (mkT FUNCTION (of_string "matrix(")) (map num_sst ds) :: r) with Some (fs, r) => Some (Some fs, r) | None => None end
            /\ function_of (mkT FUNCTION (of_string "matrix(")) (map num_sst ds) = Some t.
Proof.
  intros ds extra r O L. do 6 (destruct ds as [|? ds]; [discriminate L|]). destruct ds; [|discriminate L].
  inversion O as [|? ? O1 P1]; inversion P1 as [|? ? O2 P2]; inversion P2 as [|? ? O3 P3]; inversion P3 as [|? ? O4 P4];
    inversion P4 as [|? ? O5 P5]; inversion P5 as [|? ? O6 _]; subst.
  destruct (num_reads _ O1) as (v1 & [_ R1] & _), (num_reads _ O2) as (v2 & [_ R2] & _), (num_reads _ O3) as (v3 & [_ R3] & _),
    (num_reads _ O4) as (v4 & [_ R4] & _), (num_reads _ O5) as (v5 & [_ R5] & _), (num_reads _ O6) as (v6 & [_ R6] & _).
  assert (K : forall x, function_of (mkT FUNCTION (of_string "matrix(")) (map num_sst [d; d0; d1; d2; d3; d4] ++ x) = Some (Matrix v1 v2 v3 v4 v5 v6)).
  { intros x. unfold function_of. change (is_func _ "matrix(") with true. cbn beta iota. unfold matrix_of. cbn [map app].
    rewrite (eat_solid (num_sst d) _ eq_refl). fold numbers. cbn [read_list].
    rewrite R1, (comma_solid (num_sst d0)) by reflexivity. rewrite R2, (comma_solid (num_sst d1)) by reflexivity.
    rewrite R3, (comma_solid (num_sst d2)) by reflexivity. rewrite R4, (comma_solid (num_sst d3)) by reflexivity.
    rewrite R5, (comma_solid (num_sst d4)) by reflexivity. now rewrite R6. }
  exists (Matrix v1 v2 v3 v4 v5 v6). rewrite <- (app_nil_r (map num_sst [d; d0; d1; d2; d3; d4])) at 2 3. split; [|apply K].
  unfold read_transform. cbn [skip_tok read_functions]. now rewrite !K.
Qed.
(** A comma after the only value of a translation, a scaling or a skewing is allowed. *)
Theorem C145_trailing_comma_refuted : forall x, wlen_ok x ->
  exists t, function_of (mkT FUNCTION (of_string "translate(")) [len_sst x; TOK (mkT COMMA (of_string ","))] = Some t /\
            function_of (mkT FUNCTION (of_string "translate(")) [len_sst x] = Some t.
Proof.
  intros x O. destruct (len_reads x O) as (v & [S R] & _). exists (Translate v zero_length).
  unfold function_of. change (is_func _ "matrix(") with false. change (is_func _ "translateX(") with false.
  change (is_func _ "translateY(") with false. change (is_func _ "translate(") with true. cbn beta iota. unfold two_values.
  now rewrite !(eat_solid _ _ S), !R.
Qed.
(** A length in a unit of the font or of the viewport counts as zero. *)
Theorem C145_relative_length_refuted : forall d u s, decimal_ok d -> unit_text runits u s ->
  exists t, function_of (mkT FUNCTION (of_string "translate(")) [TOK (mkT DIMENSION (show_decimal d ++ s))] = Some t /\
    forall box, exists m, trans_of box t = Some m /\ forall p, on m p ≡ p.
Proof.
  intros d u s O T. destruct (C16_parse_relative d u s [] O T) as (q & E & _). exists (Translate (CPlain (OT (Len (Rel q u)))) zero_length). split.
  - unfold function_of. change (is_func _ "matrix(") with false. change (is_func _ "translateX(") with false.
    change (is_func _ "translateY(") with false. change (is_func _ "translate(") with true. cbn beta iota.
    unfold two_values. cbn [eat_wss t_type ttype_beq]. unfold lengths, read_calc, parse_percent_or, parse_percent. cbn [t_type ttype_beq].
    change [TOK (mkT DIMENSION (show_decimal d ++ s))] with [dim d s]. now rewrite E.
  - intros box. eexists. split; [reflexivity|]. intros p.
    assert (Z : resolve_rel (fun q => q) q u no_ctx == 0) by (unfold resolve_rel; destruct u; cbn [no_ctx cx_font cx_rfont cx_xheight cx_rxheight cx_cap
      cx_rcap cx_zero cx_rzero cx_line cx_rline cx_lw cx_lh cx_sw cx_sh cx_dw cx_dh cx_horizontal negb]; try field;
      unfold Qmin, Qmax, GenericMinMax.gmin, GenericMinMax.gmax; match goal with |- context [match ?x with _ => _ end] => destruct x end; field).
    split; cbn [on translate fst snd xx xy yx yy ox oy resolve_operand resolve_percent_or resolve_length pixels]; rewrite ?Z; ring.
Qed.

(** ** C146: geometry *)

(** Two lists one after the other do what the second does, and then the first. *)
Theorem C146_concatenation : forall box o fs gs m,
  painted box o (fs ++ gs) = Some m ->
  exists a b, painted box o fs = Some a /\ painted box o gs = Some b /\ forall p, on m p ≡ on a (on b p).
Proof.
  intros box o fs gs m. unfold TransformModel.painted. destruct (resolve_origin box o) as [c|]; [|discriminate]. cbn [bind]. unfold resolve_transform.
  assert (K : forall fs gs r m, compose sine cosine tangent pi box r (fs ++ gs) = Some m ->
    exists a b, compose sine cosine tangent pi box r fs = Some a /\ compose sine cosine tangent pi box (translate c) gs = Some b /\
      forall p, on m p ≡ on a (on (translate (neg c)) (on b p))).
  { clear fs gs m. induction fs as [|f fs IH]; intros gs r m; cbn [app compose].
    - intros E. exists r.
      assert (G : forall gs r m, compose sine cosine tangent pi box r gs = Some m ->
        exists b, compose sine cosine tangent pi box (translate c) gs = Some b /\ forall p, on m p ≡ on r (on (translate (neg c)) (on b p))).
      { clear. assert (G1 : forall gs r r' m, compose sine cosine tangent pi box r gs = Some m -> exists b h,
            compose sine cosine tangent pi box r' gs = Some b /\ forall p, on m p ≡ on r (h p) /\ on b p ≡ on r' (h p)).
        { induction gs as [|g gs IH]; intros r r' m; cbn [compose].
          - intros E. injection E as <-. exists r', (fun p => p). split; [reflexivity|]. intros p. split; reflexivity.
          - destruct (trans_of box g) as [t|]; [|discriminate]. cbn [bind]. intros E. destruct (IH _ (multiply t r') _ E) as (b & h & Eb & H).
            exists b, (fun p => on t (h p)). split; [exact Eb|]. intros p. destruct (H p) as [H1 H2]. rewrite H1, H2, !on_multiply. split; reflexivity. }
        intros gs r m E. destruct (G1 gs r (translate c) m E) as (b & h & Eb & H). exists b. split; [exact Eb|]. intros p. destruct (H p) as [H1 H2].
        rewrite H1, H2, !on_translate. apply on_same. split; cbn [plus neg fst snd]; ring. }
      destruct (G gs r m E) as (b & Eb & H). exists b. auto.
    - destruct (trans_of box f) as [t|]; [|discriminate]. cbn [bind]. intros E. apply (IH gs _ m E). }
  destruct (compose sine cosine tangent pi box (translate c) (fs ++ gs)) as [k|] eqn:E; [|discriminate]. cbn [bind]. intros M. injection M as <-.
  destruct (K fs gs _ k E) as (a & b & -> & -> & H). cbn [bind]. eexists _, _. split; [reflexivity|]. split; [reflexivity|].
  intros p. now rewrite !on_multiply, H.
Qed.
(** An empty list leaves every point where it is. *)
Theorem C146_nothing : forall box o m, painted box o [] = Some m -> forall p, on m p ≡ p.
Proof.
  intros box o m. unfold TransformModel.painted, resolve_transform. destruct (resolve_origin box o) as [c|]; [|discriminate]. cbn [bind compose].
  intros E p. injection E as <-. rewrite on_multiply, !on_translate. split; cbn [plus neg fst snd]; ring.
Qed.

(** Scalings, rotations and skewings leave the origin where it is. *)
Definition fixes_origin (f : wfun) : bool :=
  match f with FScaleX _ | FScaleY _ | FScale _ | FScale2 _ _ | FRotate _ | FSkew _ | FSkew2 _ _ | FSkewX _ | FSkewY _ => true | _ => false end.
Theorem C146_origin_fixed : forall fs l ts box o c m,
  Forall wfun_ok fs -> list_text fs l -> forallb fixes_origin fs = true -> read_transform l = Some (Some ts, []) ->
  resolve_origin box o = Some c -> painted box o ts = Some m -> on m c ≡ c.
Proof.
  intros fs l ts box o c m O T F E R P.
  assert (NE : fs <> []) by (intros ->; inversion T; subst; discriminate E).
  destruct (C144_written_functions_partial fs l NE O T) as (ts' & E' & H). rewrite E in E'. injection E' as <-.
  destruct (H box o c R) as (m' & P' & M). rewrite P in P'. injection P' as <-. rewrite M. unfold around.
  assert (Z : forall p, p ≡ (0, 0) -> effects (r_w box) (r_h box) fs p ≡ (0, 0)).
  { clear - F. intros p Hp. induction fs as [|f fs IH]; [exact Hp|]. cbn [forallb] in F. apply andb_true_iff in F as [F1 F2]. specialize (IH F2).
    cbn [TransformSpec.effects fold_right].
    assert (K : fold_right (effect (r_w box) (r_h box)) p fs ≡ (0, 0)) by exact IH. destruct K as [K1 K2]. cbn [fst snd] in K1, K2.
    destruct f; try discriminate F1; split; cbn [TransformSpec.effect plus turn slant fst snd]; rewrite ?K1, ?K2; ring. }
  rewrite Z; [split; cbn [plus fst snd]; ring|]. split; cbn [minus fst snd]; ring.
Qed.
(** Translations are the same around any origin. *)
Definition translates (f : wfun) : bool := match f with FTranslateX _ | FTranslateY _ | FTranslate _ | FTranslate2 _ _ => true | _ => false end.
Theorem C146_translations_anywhere : forall fs l ts box o m,
  Forall wfun_ok fs -> list_text fs l -> forallb translates fs = true -> read_transform l = Some (Some ts, []) -> painted box o ts = Some m ->
  forall p, on m p ≡ effects (r_w box) (r_h box) fs p.
Proof.
  intros fs l ts box o m O T F E P p.
  assert (NE : fs <> []) by (intros ->; inversion T; subst; discriminate E).
  destruct (C144_written_functions_partial fs l NE O T) as (ts' & E' & H). rewrite E in E'. injection E' as <-.
  unfold TransformModel.painted in P. destruct (resolve_origin box o) as [c|] eqn:R; [|discriminate].
  destruct (H box o c R) as (m' & P' & M). unfold TransformModel.painted in P'. rewrite R in P'. rewrite P in P'. injection P' as <-.
  rewrite M. unfold around.
  assert (Z : forall q, plus c (effects (r_w box) (r_h box) fs q) ≡ effects (r_w box) (r_h box) fs (plus c q)).
  { clear - F. intros q. induction fs as [|f fs IH]; [reflexivity|]. cbn [forallb] in F. apply andb_true_iff in F as [F1 F2]. specialize (IH F2).
    cbn [TransformSpec.effects fold_right]. destruct IH as [K1 K2]. unfold TransformSpec.effects in K1, K2. cbn [plus fst snd] in K1, K2.
    destruct f; try discriminate F1; split; cbn [TransformSpec.effect plus fst snd]; rewrite <- ?K1, <- ?K2; ring. }
  rewrite Z. apply effects_same. split; cbn [plus minus fst snd]; ring.
Qed.
(** Rotations and translations keep distances. *)
Definition dist2 (p q : point) : Q := (fst p - fst q) * (fst p - fst q) + (snd p - snd q) * (snd p - snd q).
Theorem C146_rigid : forall fs l ts box o m,
  (forall a, sine a * sine a + cosine a * cosine a == 1) ->
  Forall wfun_ok fs -> list_text fs l -> forallb (fun f => translates f || match f with FRotate _ => true | _ => false end) fs = true ->
  read_transform l = Some (Some ts, []) -> painted box o ts = Some m ->
  forall p q, dist2 (on m p) (on m q) == dist2 p q.
Proof.
  intros fs l ts box o m U O T F E P p q.
  assert (NE : fs <> []) by (intros ->; inversion T; subst; discriminate E).
  destruct (C144_written_functions_partial fs l NE O T) as (ts' & E' & H). rewrite E in E'. injection E' as <-.
  unfold TransformModel.painted in P. destruct (resolve_origin box o) as [c|] eqn:R; [|discriminate].
  destruct (H box o c R) as (m' & P' & M). unfold TransformModel.painted in P'. rewrite R in P'. rewrite P in P'. injection P' as <-.
  assert (D : forall a b a' b', a ≡ a' -> b ≡ b' -> dist2 a b == dist2 a' b') by (intros a b a' b' [A1 A2] [B1 B2]; unfold dist2; now rewrite A1, A2, B1, B2).
  rewrite (D _ _ _ _ (M p) (M q)). unfold around.
  assert (Z : forall p q, dist2 (effects (r_w box) (r_h box) fs p) (effects (r_w box) (r_h box) fs q) == dist2 p q).
  { clear - F U. intros p q. induction fs as [|f fs IH]; [reflexivity|]. cbn [forallb] in F. apply andb_true_iff in F as [F1 F2]. specialize (IH F2).
    rewrite <- IH. cbn [TransformSpec.effects fold_right]. unfold TransformSpec.effects.
    set (p' := fold_right (effect (r_w box) (r_h box)) p fs). set (q' := fold_right (effect (r_w box) (r_h box)) q fs).
    destruct f as [| | | | | | | | |a| | | |]; try discriminate F1; unfold dist2; cbn [TransformSpec.effect plus turn fst snd]; try ring.
    transitivity ((sine (angle_of pi a) * sine (angle_of pi a) + cosine (angle_of pi a) * cosine (angle_of pi a)) *
      ((fst p' - fst q') * (fst p' - fst q') + (snd p' - snd q') * (snd p' - snd q'))); [ring|]. rewrite U. ring. }
  transitivity (dist2 (effects (r_w box) (r_h box) fs (minus p c)) (effects (r_w box) (r_h box) fs (minus q c))); [unfold dist2; cbn [plus fst snd]; ring|].
  rewrite Z. unfold dist2. cbn [minus fst snd]. ring.
Qed.

(** ** C147: the attribute [transform] of SVG *)

(** A number is printed with some digits; what it stands for then is [shown]. *)
Variable fmt : Q -> str.
Variable shown : Q -> Q.
Hypothesis shown_eq : forall x y, x == y -> shown x == shown y.
Hypothesis printed : forall q, exists d, decimal_ok d /\ fmt q = show_decimal d /\ decimal_value d == shown q.
Local Notation svg_attribute := (svg_attribute sine cosine pi fmt).
Local Notation printed_effect := (printed_effect sine cosine tangent pi shown).

Theorem C147_attribute_partial : forall fs l,
  fs <> [] -> svg_text fs l -> centers_first fs ->
  exists ts, svg_attribute l = Some (Some ts) /\
    forall box o c, resolve_origin box o = Some c ->
    exists m, painted box o ts = Some m /\ forall p, on m p ≡ around c (fun q => fold_right printed_effect q fs) p.
Proof.
  intros fs l NE T C.
  destruct (expanded_list sine cosine pi sine_eq cosine_eq fmt shown shown_eq printed fs l C T) as (gs & D & O & L).
  assert (NE' : gs <> []) by (intros ->; inversion D; subst; contradiction).
  destruct (read_written sine cosine tangent pi sine_eq cosine_eq tangent_eq tangent_0 gs _ NE' O L) as (ts & E & H).
  exists ts. split; [unfold TransformModel.svg_attribute; rewrite E; reflexivity|]. intros box o c R.
  destruct (painted_effects sine cosine tangent pi box o c gs ts) as (m & P & M); [clear - H; induction H; constructor; auto|exact R|].
  exists m. split; [exact P|]. intros p. rewrite M. unfold around.
  now rewrite (turned_effects sine cosine tangent pi sine_eq cosine_eq tangent_eq shown (r_w box) (r_h box) fs gs _ D).
Qed.
(** That is what SVG says, up to the precision that numbers are printed with. *)
Theorem C147_precision : forall eps f p, (forall q, Qabs (shown q - q) <= eps) ->
  let a := printed_effect f p in
  let b := sfun_effect sine cosine tangent pi f p in
  Qabs (fst a - fst b) <= eps * (Qabs (fst p) + Qabs (snd p) + 1) /\ Qabs (snd a - snd b) <= eps * (Qabs (fst p) + Qabs (snd p) + 1).
Proof.
  intros eps f p H. cbv zeta.
  assert (P0 : 0 <= eps) by (eapply Qle_trans; [apply Qabs_nonneg|apply (H 0)]).
  assert (Z : 0 <= eps * (Qabs (fst p) + Qabs (snd p) + 1)).
  { apply Qmult_le_0_compat; [exact P0|]. pose proof (Qabs_nonneg (fst p)). pose proof (Qabs_nonneg (snd p)). lra. }
  assert (K : forall u v w (u' v' w' : Q) , Qabs (u' - u) <= eps -> Qabs (v' - v) <= eps -> Qabs (w' - w) <= eps ->
    Qabs ((u' * fst p + v' * snd p + w') - (u * fst p + v * snd p + w)) <= eps * (Qabs (fst p) + Qabs (snd p) + 1)).
  { intros u v w u' v' w' Hu Hv Hw.
    assert (E : (u' * fst p + v' * snd p + w') - (u * fst p + v * snd p + w) == ((u' - u) * fst p + (v' - v) * snd p) + (w' - w)) by ring.
    rewrite E. eapply Qle_trans; [apply Qabs_triangle|]. eapply Qle_trans; [apply Qplus_le_compat; [apply Qabs_triangle|apply Qle_refl]|].
    rewrite !Qabs_Qmult.
    pose proof (Qmult_le_compat_r _ _ (Qabs (fst p)) Hu (Qabs_nonneg _)). pose proof (Qmult_le_compat_r _ _ (Qabs (snd p)) Hv (Qabs_nonneg _)). lra. }
  destruct f; try (split; cbn [TransformProofs3.printed_effect]; match goal with |- Qabs (?x - ?x) <= _ => assert (Q0 : x - x == 0) by ring; rewrite Q0; exact Z end).
  cbn [TransformProofs3.printed_effect sfun_effect around turn minus plus fst snd].
  set (c := cosine _). set (s := sine _). set (dx := decimal_value x). set (dy := decimal_value y). split.
  - assert (E : dx + ((fst p - dx) * c - (snd p - dy) * s) == c * fst p + (- s) * snd p + (dx - dx * c + dy * s)) by ring. rewrite E. apply K; apply H.
  - assert (E : dy + ((fst p - dx) * s + (snd p - dy) * c) == s * fst p + c * snd p + (dy - dx * s - dy * c)) by ring. rewrite E. apply K; apply H.
Qed.
(** A rotation with a center after one without spoils the attribute: no function in it has an effect. *)
Theorem C147_late_center_refuted : forall fs l, svg_text fs l -> ~ centers_first fs -> svg_attribute l = None.
Proof.
  intros fs l T C. unfold TransformModel.svg_attribute, read_transform.
  assert (P : forall q, exists d, decimal_ok d /\ fmt q = show_decimal d) by (intros q; destruct (printed q) as (d & O & F & _); eauto).
  rewrite (late_center_fails sine cosine pi fmt P fs l C T).
  destruct T as [|f fs s b l F B T]; [now contradiction C|].
  pose proof (late_center_fails sine cosine pi fmt P (f :: fs) (s :: b ++ l) C (svg_cons f fs s b l F B T)) as N.
  destruct (map fix_function (expand_rotate sine cosine pi fmt (s :: b ++ l))) as [|x k]; [reflexivity|].
  destruct x as [t| | | |]; try reflexivity; discriminate N.
Qed.
End Effects.
Print Assumptions C144_written_functions_partial.
Print Assumptions C145_none.
Print Assumptions C145_unknown_function.
Print Assumptions C145_no_function_refuted.
Print Assumptions C145_long_matrix_refuted.
Print Assumptions C145_trailing_comma_refuted.
Print Assumptions C145_relative_length_refuted.
Print Assumptions C146_concatenation.
Print Assumptions C146_nothing.
Print Assumptions C146_origin_fixed.
Print Assumptions C146_translations_anywhere.
Print Assumptions C146_rigid.
Print Assumptions C147_attribute_partial.
Print Assumptions C147_precision.
Print Assumptions C147_late_center_refuted.

(** ** C148: [transform-origin] *)

(** A horizontal and a vertical position *)
Theorem C148_two_values : forall x y sx sy r, wx_ok x -> wy_ok y -> wx_text x sx -> wy_text y sy ->
  exists o, read_origin (sx :: sy :: r) = Some (o, r) /\ forall box, exists c, resolve_origin box o = Some c /\ c ≡ (x_of x box, y_of y box).
Proof. exact origin_reads. Qed.
Print Assumptions C148_two_values.

(** One value on its own, which CSS allows, is never read. *)
Theorem C148_one_value_refuted : forall s, read_origin [s] = None.
Proof.
  assert (L : forall A (l : list (string * A)) s v r, read_keyword l [s] = Some (v, r) -> r = []).
  { induction l as [|[n a] l IH]; intros s v r; cbn [read_keyword]; [discriminate|]. destruct s as [t| | | |]; cbn [skip_tok]; try apply IH.
    destruct (token_eqb t (ident n)); [intros E; now injection E as _ <-|apply IH]. }
  assert (P : forall s v r, parse_percent_or [s] = Some (v, r) -> r = []).
  { intros s v r. unfold parse_percent_or, parse_percent. destruct s as [t| | | |]; try discriminate.
    destruct (ttype_beq (t_type t) PERCENTAGE); [destruct (atof (t_data t)) as [[q k]|]; intros E; now injection E as _ <-|].
    unfold parse_length. cbn [skip_tok]. destruct (token_eqb t number_zero); [intros E; now injection E as _ <-|].
    destruct (ttype_beq (t_type t) DIMENSION); [|discriminate]. destruct (dimension (t_data t)) as [q u].
    destruct (value_of_ci aunits u); [intros E; now injection E as _ <-|]. destruct (value_of_ci runits u); [intros E; now injection E as _ <-|discriminate]. }
  assert (C : forall s v r, lengths [s] = Some (v, r) -> r = []).
  { intros s v r. unfold lengths, read_calc. destruct s as [t|name content| | |]; try discriminate.
    - destruct (parse_percent_or [TOK t]) as [[w k]|] eqn:E; [|discriminate]. apply P in E. intros H. injection H as _ <-. exact E.
    - destruct (str_eqb (t_data name) (of_string "calc(")); [|discriminate]. destruct (read_operand parse_percent_or content) as [[x c1]|]; [|discriminate].
      destruct (parse_op c1) as [[o c2]|]; [|intros H; now injection H as _ <-]. destruct (read_operand parse_percent_or (eat_wss c2)) as [[y c3]|]; [|discriminate].
      intros H; now injection H as _ <-. }
  assert (X : forall s v r, read_x [s] = Some (v, r) -> r = []).
  { intros s v r. unfold read_x. destruct (read_keyword _ [s]) as [[a k]|] eqn:E; [apply L in E; intros H; injection H as _ <-; exact E|].
    destruct (lengths [s]) as [[w k]|] eqn:F; [|discriminate]. apply C in F. intros H. injection H as _ <-. exact F. }
  intros s. unfold read_origin, two_offsets. destruct (read_x [s]) as [[v r]|] eqn:E; [|reflexivity]. apply X in E as ->. reflexivity.
Qed.
Print Assumptions C148_one_value_refuted.
(** With the vertical position first, which CSS allows for keywords, nothing is read either. *)
Theorem C148_vertical_first_refuted : forall k r, eq_ci k (of_string "top") = true \/ eq_ci k (of_string "bottom") = true ->
  read_origin (word k :: r) = None.
Proof.
  intros k r [E|E]; unfold read_origin, two_offsets, read_x; rewrite (keyword_reads k _ _ r E); reflexivity.
Qed.
Print Assumptions C148_vertical_first_refuted.

(** ** C149: the view box of an SVG image *)

Section ViewBox.
Variables (vb : viewbox) (pos size : point) (t : trans).
Hypothesis vb_w : 0 < r_w vb.
Hypothesis vb_h : 0 < r_h vb.
Hypothesis size_w : 0 <= fst size.
Hypothesis size_h : 0 <= snd size.
Hypothesis Ht : viewport_transform vb pos size = Some t.
Let place : rect := mkRect (fst pos) (snd pos) (fst size) (snd size).

(** Everything is scaled by the same factor in both directions. *)
Theorem C149_uniform : exists s, 0 <= s /\ forall p q, minus (on t p) (on t q) ≡ ((fst p - fst q) * s, (snd p - snd q) * s).
Proof.
  destruct (viewport_on _ _ _ _ Ht) as (_ & _ & H). exists (Qmin (fst size / r_w vb) (snd size / r_h vb)). split; [|intros p q; destruct (H p) as [P1 P2], (H q) as [Q1 Q2]; cbn [fst snd] in *;
    split; cbn [minus fst snd]; rewrite ?P1, ?P2, ?Q1, ?Q2; ring].
  apply Q.min_glb; apply Qle_shift_div_l; try assumption; lra.
Qed.

Lemma scale_fits : let s := Qmin (fst size / r_w vb) (snd size / r_h vb) in
  0 <= s /\ r_w vb * s <= fst size /\ r_h vb * s <= snd size /\ (r_w vb * s == fst size \/ r_h vb * s == snd size).
Proof.
  cbv zeta.
  assert (A : r_w vb * (fst size / r_w vb) == fst size) by (field; intros E; rewrite E in vb_w; discriminate vb_w).
  assert (B : r_h vb * (snd size / r_h vb) == snd size) by (field; intros E; rewrite E in vb_h; discriminate vb_h).
  pose proof (Q.le_min_l (fst size / r_w vb) (snd size / r_h vb)) as L1. pose proof (Q.le_min_r (fst size / r_w vb) (snd size / r_h vb)) as L2.
  split; [apply Q.min_glb; apply Qle_shift_div_l; try assumption; lra|].
  assert (M : forall a x y, 0 < a -> x <= y -> a * x <= a * y) by (intros a x y Ha Hxy; apply Qmult_le_l; assumption).
  split; [rewrite <- A at 2; now apply M|]. split; [rewrite <- B at 2; now apply M|].
  destruct (Q.min_spec (fst size / r_w vb) (snd size / r_h vb)) as [[_ E]|[_ E]]; rewrite E; [left; exact A|right; exact B].
Qed.

(** The whole of the view box shows. *)
Theorem C149_inside : forall p, within vb p -> within place (on t p).
Proof.
  intros p [[X1 X2] [Y1 Y2]]. destruct (viewport_on _ _ _ _ Ht) as (_ & _ & H). destruct (H p) as [P1 P2]. cbn [fst snd] in P1, P2.
  destruct scale_fits as (S0 & W & Hh & _). set (s := Qmin (fst size / r_w vb) (snd size / r_h vb)) in *.
  assert (M : forall x y, x <= y -> x * s <= y * s) by (intros x y Hxy; now apply Qmult_le_compat_r).
  pose proof (M (r_x vb) (fst p) X1). pose proof (M (fst p) _ X2). pose proof (M (r_y vb) (snd p) Y1). pose proof (M (snd p) _ Y2).
  assert (D : forall x, x / 2 == x * (1 # 2)) by (intros; field).
  unfold within, place. cbn [r_x r_y r_w r_h]. rewrite P1, P2, !D. repeat split; lra.
Qed.
(** The middle of the view box is in the middle. *)
Theorem C149_centred : on t (r_x vb + r_w vb / 2, r_y vb + r_h vb / 2) ≡ (fst pos + fst size / 2, snd pos + snd size / 2).
Proof.
  destruct (viewport_on _ _ _ _ Ht) as (_ & _ & H). rewrite H. split; cbn [fst snd]; field.
Qed.
(** It is as large as can be: two opposite edges touch those of the place there is. *)
Theorem C149_touches :
  (fst (on t (r_x vb, r_y vb)) == fst pos /\ fst (on t (r_x vb + r_w vb, r_y vb)) == fst pos + fst size) \/
  (snd (on t (r_x vb, r_y vb)) == snd pos /\ snd (on t (r_x vb, r_y vb + r_h vb)) == snd pos + snd size).
Proof.
  destruct (viewport_on _ _ _ _ Ht) as (_ & _ & H). destruct scale_fits as (_ & _ & _ & [E|E]); [left|right].
  - destruct (H (r_x vb, r_y vb)) as [P1 _]. destruct (H (r_x vb + r_w vb, r_y vb)) as [P2 _]. cbn [fst snd] in *. rewrite P1, P2. split.
    + rewrite E. field.
    + transitivity (fst pos + (fst size - r_w vb * Qmin (fst size / r_w vb) (snd size / r_h vb)) / 2 + r_w vb * Qmin (fst size / r_w vb) (snd size / r_h vb)); [|rewrite E; field].
      generalize (Qmin (fst size / r_w vb) (snd size / r_h vb)). intros q. field.
  - destruct (H (r_x vb, r_y vb)) as [_ P1]. destruct (H (r_x vb, r_y vb + r_h vb)) as [_ P2]. cbn [fst snd] in *. rewrite P1, P2. split.
    + rewrite E. field.
    + transitivity (snd pos + (snd size - r_h vb * Qmin (fst size / r_w vb) (snd size / r_h vb)) / 2 + r_h vb * Qmin (fst size / r_w vb) (snd size / r_h vb)); [|rewrite E; field].
      generalize (Qmin (fst size / r_w vb) (snd size / r_h vb)). intros q. field.
Qed.
End ViewBox.
Print Assumptions C149_uniform.
Print Assumptions C149_inside.
Print Assumptions C149_centred.
Print Assumptions C149_touches.

(** With a view box of positive size there is a transform. *)
Theorem C149_exists : forall vb pos size, 0 < r_w vb -> 0 < r_h vb -> exists t, viewport_transform vb pos size = Some t.
Proof.
  intros vb pos size W H. unfold viewport_transform.
  destruct (Qeq_bool (r_w vb) 0) eqn:E1; [apply Qeq_bool_iff in E1; rewrite E1 in W; discriminate W|].
  destruct (Qeq_bool (r_h vb) 0) eqn:E2; [apply Qeq_bool_iff in E2; rewrite E2 in H; discriminate H|]. eexists. reflexivity.
Qed.
Print Assumptions C149_exists.

(** An image that is moved after its layout is not clipped to where it is now, and its content moves by the distance
    times the scale of the view box. *)
Theorem C149_moved_refuted : forall r d p,
  v_box (offset_root r d) = v_box r /\
  minus (on (v_trans (offset_root r d)) p) (on (v_trans r) p) ≡
    (fst d * xx (v_trans r) + snd d * yx (v_trans r), fst d * xy (v_trans r) + snd d * yy (v_trans r)).
Proof.
  intros r d p. split; [reflexivity|]. cbn [offset_root v_trans translated].
  pose proof (on_multiply (translate d) (v_trans r) p) as [M1 M2].
  split; cbn [minus fst snd]; rewrite ?M1, ?M2; cbn [on translate fst snd xx xy yx yy ox oy]; ring.
Qed.
Print Assumptions C149_moved_refuted.

(** ** C150: the size of an SVG image *)

(** A known width or height is kept. *)
Theorem C150_known_kept : forall w h ratio default,
  (forall x, w = Some x -> fst (default_sizing (w, h) ratio default) = x) /\
  (forall y, h = Some y -> snd (default_sizing (w, h) ratio default) = y).
Proof. intros [x|] [y|] ratio default; split; intros z E; try discriminate E; injection E as <-; reflexivity. Qed.
Print Assumptions C150_known_kept.
(** If one at least is not known, the image has its aspect ratio. *)
Theorem C150_ratio_kept : forall w h a default, ~ a == 0 -> (w = None \/ h = None) ->
  fst (default_sizing (w, h) (Some a) default) == snd (default_sizing (w, h) (Some a) default) * a.
Proof.
  intros [x|] [y|] a default NZ [E|E]; try discriminate E; cbn [default_sizing fst snd]; field; exact NZ.
Qed.
Print Assumptions C150_ratio_kept.
(** Without width, height and aspect ratio it is as large as the place that there is. *)
Theorem C150_default : forall default, default_sizing (None, None) None default = default.
Proof. intros [x y]. reflexivity. Qed.
Print Assumptions C150_default.
(** The aspect ratio is that of the size if it is all known, else that of the view box. *)
Theorem C150_ratio : forall w h x, 
  aspect_ratio x (Some w) (Some h) = Some (w / h) /\
  (forall vb wh, x = Some vb -> (fst wh = None \/ snd wh = None) -> aspect_ratio x (fst wh) (snd wh) = Some (r_w vb / r_h vb)).
Proof. intros w h x. split; [reflexivity|]. intros vb [[a|] [b|]] -> [E|E]; try discriminate E; reflexivity. Qed.
Print Assumptions C150_ratio.

(** ** Cases that meet the hypotheses *)
Definition dec (n : list Z) : decimal := mkD false n [].
Ltac digits := split; [discriminate|]; split; repeat constructor; unfold digit_ok; lia.
Definition sp : sst := TOK (mkT WHITESPACE (of_string " ")).
Definition cm : sst := TOK (mkT COMMA (of_string ",")).
Definition fn (n : string) (l : list sst) : sst := FUNC (mkT FUNCTION (of_string n)) l.
Definition dm (n u : string) : sst := TOK (mkT DIMENSION (of_string n ++ of_string u)).
Definition nm (n : string) : sst := TOK (mkT NUMBER (of_string n)).

(** [translate(10px, 50%) ROTATE( 90deg )scale(2)] *)
Definition sample : list wfun :=
  [FTranslate2 (W (WAbs (dec [1; 0]%Z) PX (of_string "px"))) (W (WPct (dec [5; 0]%Z))); FRotate (WAng (dec [9; 0]%Z) DEGREE (of_string "deg")); FScale (dec [2]%Z)].
Definition sample_text : list sst :=
  [fn "translate(" [dm "10" "px"; cm; sp; TOK (mkT PERCENTAGE (of_string "50%"))]; sp; fn "ROTATE(" [sp; dm "90" "deg"; sp]; fn "scale(" [nm "2"]].
Example C144_ex_text : Forall wfun_ok sample /\ list_text sample sample_text.
Proof.
  assert (B0 : blank []) by constructor. assert (B1 : blank [sp]) by (constructor; [eexists; reflexivity|constructor]).
  split.
  - repeat apply Forall_cons; [| | |apply Forall_nil].
    + split; [|digits]. split; [digits|].
      exists (of_string "PX"). split; [unfold aunits; repeat (first [left; reflexivity | right])|reflexivity].
    + split; [digits|reflexivity].
    + digits.
  - refine (text_cons _ _ _ [sp] _ _ B1 _).
    { exists (mkT FUNCTION (of_string "translate(")), [], [dm "10" "px"; cm; sp; TOK (mkT PERCENTAGE (of_string "50%"))]. repeat split; [exact B0|].
      refine (commas_more _ _ [] [sp] _ B0 B1 _). exact (commas_one _ [] B0). }
    refine (text_cons _ _ _ [] _ _ B0 _).
    { exists (mkT FUNCTION (of_string "ROTATE(")), [sp], [dm "90" "deg"; sp]. repeat split; [exact B1|]. exact (commas_one _ [sp] B1). }
    refine (text_cons _ _ _ [] _ _ B0 text_nil).
    exists (mkT FUNCTION (of_string "scale(")), [], [nm "2"]. repeat split; [exact B0|]. exact (commas_one _ [] B0).
Qed.
(** In a box of 100 by 100, around its middle, with a quarter turn: the point (60, 50) goes to (60, 120). *)
Definition at_point (p : point) (o : option trans) : option (Z * Z) :=
  match o with Some m => Some (Qround.Qfloor (fst (on m p)), Qround.Qfloor (snd (on m p))) | None => None end.
Example C144_ex_painted :
  match read_transform sample_text with
  | Some (Some ts, []) =>
    at_point (60, 50) (painted (fun _ => 1) (fun _ => 0) (fun _ => 0) 3 (mkRect 0 0 100 100) (mkO X_CENTER Y_CENTER) ts) = Some (60, 120)%Z
  | _ => False
  end.
Proof. vm_compute. reflexivity. Qed.

(** [translate(calc(50% - 10px))] *)
Example C144_ex_calc :
  let w := WMinus (WPct (dec [5; 0]%Z)) (WAbs (dec [1; 0]%Z) PX (of_string "px")) in
  wlen_ok w /\ length_of w 300 == 140.
Proof.
  split; [|reflexivity]. split; [digits|]. split; [digits|].
  exists (of_string "PX"). split; [unfold aunits; repeat (first [left; reflexivity | right])|reflexivity].
Qed.

Example C145_ex_no_function : read_transform [word (of_string "foo")] = Some (Some [], [word (of_string "foo")]).
Proof.
  apply C145_no_function_refuted; [discriminate|]. intros k E H. unfold word in H. injection H as <-. discriminate E.
Qed.
Example C145_ex_unknown : read_transform [fn "perspective(" [dm "10" "px"]] = None.
Proof.
  apply (C145_unknown_function [] [] (mkT FUNCTION (of_string "perspective(")) [dm "10" "px"] [] (Forall_nil _) text_nil).
  intros n H. cbn [In] in H. repeat (destruct H as [<-|H]; [reflexivity|]). contradiction.
Qed.
Example C145_ex_relative : unit_text runits EM (of_string "em").
Proof. exists (of_string "EM"). split; [unfold runits; left; reflexivity|reflexivity]. Qed.

(** A printer that knows three numbers *)
Definition coarse (q : Q) : decimal := if Qle_bool 1 q then dec [1]%Z else if Qle_bool q (-1) then mkD true [1]%Z [] else dec [0]%Z.
Definition coarse_fmt (q : Q) : str := show_decimal (coarse q).
Definition coarse_shown (q : Q) : Q := decimal_value (coarse q).
Example C147_ex_printer :
  (forall x y, x == y -> coarse_shown x == coarse_shown y) /\
  (forall q, exists d, decimal_ok d /\ coarse_fmt q = show_decimal d /\ decimal_value d == coarse_shown q).
Proof.
  split.
  - intros x y E. unfold coarse_shown, coarse.
    assert (Qle_bool 1 x = Qle_bool 1 y) as -> by (apply eq_true_iff_eq; rewrite !Qle_bool_iff; now rewrite E).
    assert (Qle_bool x (-1) = Qle_bool y (-1)) as -> by (apply eq_true_iff_eq; rewrite !Qle_bool_iff; now rewrite E). reflexivity.
  - intros q. exists (coarse q). split; [|split; reflexivity]. unfold coarse. destruct (Qle_bool 1 q); [|destruct (Qle_bool q (-1))]; digits.
Qed.
(** [translate(10 20) rotate(90, 1 0)] *)
Definition svg_sample : list sfun := [STranslate2 (dec [1; 0]%Z) (dec [2; 0]%Z); SRotateAt (dec [9; 0]%Z) (dec [1]%Z) (dec [0]%Z)].
Definition svg_sample_text : list sst := [fn "translate(" [nm "10"; sp; nm "20"]; sp; fn "rotate(" [nm "90"; cm; sp; nm "1"; sp; nm "0"]].
Example C147_ex_text : svg_text svg_sample svg_sample_text /\ centers_first svg_sample.
Proof.
  assert (B0 : blank []) by constructor. assert (B1 : blank [sp]) by (constructor; [eexists; reflexivity|constructor]).
  split; [|exact I]. refine (svg_cons _ _ _ [sp] _ _ B1 _).
  { exists (mkT FUNCTION (of_string "translate(")), [], [nm "10"; sp; nm "20"]. repeat split; [exact B0| |repeat (apply Forall_cons; [digits|]); apply Forall_nil].
    refine (nums_blank _ _ [sp] _ B1 _). exact (nums_one _ [] B0). }
  refine (svg_cons _ _ _ [] _ _ B0 svg_nil).
  exists (mkT FUNCTION (of_string "rotate(")), [], [nm "90"; cm; sp; nm "1"; sp; nm "0"]. repeat split; [exact B0| |repeat (apply Forall_cons; [digits|]); apply Forall_nil].
  refine (nums_comma _ _ [] [sp] _ B0 B1 _). refine (nums_blank _ _ [sp] _ B1 _). exact (nums_one _ [] B0).
Qed.
(** The point (3, 0) is turned around (1, 0) to (1, 2) and moved to (11, 22). *)
Example C147_ex_painted :
  match svg_attribute (fun _ => 1) (fun _ => 0) 3 coarse_fmt svg_sample_text with
  | Some (Some ts) => at_point (3, 0) (painted (fun _ => 1) (fun _ => 0) (fun _ => 0) 3 (mkRect 0 0 100 100) (mkO X_LEFT Y_TOP) ts) = Some (11, 22)%Z
  | _ => False
  end.
Proof. vm_compute. reflexivity. Qed.
(** [rotate(30) rotate(45 10 10)] *)
Example C147_ex_late : ~ centers_first [SRotate (dec [3; 0]%Z); SRotateAt (dec [4; 5]%Z) (dec [1; 0]%Z) (dec [1; 0]%Z)] /\
  svg_attribute (fun _ => 1) (fun _ => 0) 3 coarse_fmt [fn "rotate(" [nm "30"]; sp; fn "rotate(" [nm "45"; sp; nm "10"; sp; nm "10"]] = None.
Proof. split; [cbn; discriminate|reflexivity]. Qed.

(** [transform-origin: right 25%] *)
Example C148_ex : wx_text WRight (word (of_string "Right")) /\ wy_ok (WY (W (WPct (dec [2; 5]%Z)))) /\
  y_of (WY (W (WPct (dec [2; 5]%Z)))) (mkRect 10 20 100 200) == 70.
Proof. split; [exists (of_string "Right"); split; reflexivity|]. split; [digits|reflexivity]. Qed.

(** A view box of 10 by 20 in a place of 100 by 100 *)
Example C149_ex : exists t, viewport_transform (mkRect 0 0 10 20) (5, 5) (100, 100) = Some t /\ on t (0, 0) ≡ (30, 5) /\ on t (10, 20) ≡ (80, 105).
Proof. eexists. split; [reflexivity|]. split; split; reflexivity. Qed.
(** Moved by 10, its content moves by 50. *)
Example C149_ex_moved : exists r, commit_root (Some (mkRect 0 0 10 20)) (5, 5) (100, 100) = Some r /\
  minus (on (v_trans (offset_root r (10, 0))) (0, 0)) (on (v_trans r) (0, 0)) ≡ (50, 0).
Proof. eexists. split; [reflexivity|]. split; reflexivity. Qed.
Example C150_ex : default_sizing (Some 100, None) (Some 2) (300, 150) = (100, 100 / 2).
Proof. reflexivity. Qed.
