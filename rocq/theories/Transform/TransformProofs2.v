(** Lemmas for TransformProps.v: lists of functions and what they do *)
From Coq Require Import String List NArith ZArith QArith Qminmax Bool Lia Setoid Morphisms.
From Verif.Base Require Import Str.
From Verif.Css Require Import LexerModel ParserModel.
From Verif.Values Require Import Number LengthModel LengthSpec LengthProps CalcModel CalcProps ColorModel ColorSpec ColorProofs.
From Verif.Transform Require Import TransformModel TransformSpec TransformProofs.
Import ListNotations.
Local Open Scope list_scope.
Local Open Scope Q_scope.

Definition loose_text (f : wfun) (s : sst) : Prop :=
  exists name b l, s = FUNC name (b ++ l) /\ t_type name = FUNCTION /\ eq_ci (t_data name) (of_string (wfun_name f)) = true /\
    blank b /\ args_text (wfun_args f) l.
Inductive loose_list : list wfun -> list sst -> Prop :=
| loose_nil : loose_list [] []
| loose_cons f fs s b l : loose_text f s -> blank b -> loose_list fs l -> loose_list (f :: fs) (s :: b ++ l).
Lemma text_loose fs l : list_text fs l -> loose_list fs l.
Proof.
  induction 1 as [|f fs s b l (name & b0 & l0 & E & T & N & B0 & C) B _ IH]; [constructor|].
  constructor; [|exact B|exact IH]. exists name, b0, l0. repeat split; try assumption. now apply commas_args.
Qed.

Section Effects.
Variables sine cosine tangent : Q -> Q.
Variable pi : Q.
Hypothesis sine_eq : forall x y, x == y -> sine x == sine y.
Hypothesis cosine_eq : forall x y, x == y -> cosine x == cosine y.
Hypothesis tangent_eq : forall x y, x == y -> tangent x == tangent y.
Hypothesis tangent_0 : tangent 0 == 0.

Definition denotes (box : rect) (f : wfun) (t : tfun) : Prop :=
  exists m, trans_of sine cosine tangent pi box t = Some m /\
    forall p, on m p ≡ effect sine cosine tangent pi (r_w box) (r_h box) f p.

Ltac names := match goal with T : t_type ?n = FUNCTION, N : eq_ci (t_data ?n) _ = true |- _ =>
  unfold function_of; rewrite !(is_func_name n _ _ T N); cbn [wfun_name];
  repeat match goal with |- context [if eq_ci (of_string ?x) (of_string ?y) then _ else _] =>
    let b := eval vm_compute in (eq_ci (of_string x) (of_string y)) in
    change (eq_ci (of_string x) (of_string y)) with b; cbn beta iota end end.

Lemma function_read f s : wfun_ok f -> loose_text f s ->
  exists name content t, s = FUNC name content /\ function_of name content = Some t /\ forall box, denotes box f t.
Proof.
  intros O (name & b & l & -> & T & N & B & A). exists name, (b ++ l).
  destruct f as [a1 b1 c1 d1 e1 f1|x|y|x|x y|x|y|x|x y|a|x|x y|a|a]; cbn [wfun_ok wfun_args] in O, A.
  - (* matrix *)
    inversion O as [|? ? Oa O1]; inversion O1 as [|? ? Ob O2]; inversion O2 as [|? ? Oc O3]; inversion O3 as [|? ? Od O4];
      inversion O4 as [|? ? Oe O5]; inversion O5 as [|? ? Of O6]; subst.
    destruct (num_reads _ Oa) as (va & Ra & qa & Ea & Va), (num_reads _ Ob) as (vb & Rb & qb & Eb & Vb),
      (num_reads _ Oc) as (vc & Rc & qc & Ec & Vc), (num_reads _ Od) as (vd & Rd & qd & Ed & Vd),
      (num_reads _ Oe) as (ve & Re & qe & Ee & Ve), (num_reads _ Of) as (vf & Rf & qf & Ef & Vf).
    exists (Matrix va vb vc vd ve vf). split; [reflexivity|]. split.
    + names. unfold matrix_of. cbn [map] in A. destruct (args_head _ _ _ A) as [r El].
      rewrite (eat_blank b l B). rewrite El at 1. rewrite (eat_solid (num_sst a1) r eq_refl). rewrite <- El.
      change 6%nat with (List.length [num_sst a1; num_sst b1; num_sst c1; num_sst d1; num_sst e1; num_sst f1]).
      fold numbers. rewrite (read_list_reads numbers _ [va; vb; vc; vd; ve; vf] l); [reflexivity| |exact A].
      repeat (apply Forall2_cons; [assumption|]). apply Forall2_nil.
    + intros box. unfold denotes. cbn [trans_of bind]. rewrite Ea, Eb, Ec, Ed, Ee, Ef. cbn [bind]. eexists. split; [reflexivity|].
      intros [px py]. split; cbn [on xx xy yx yy ox oy fst snd effect]; rewrite ?Va, ?Vb, ?Vc, ?Vd, ?Ve, ?Vf; ring.
  - destruct (len_reads x O) as (v & R & V). exists (Translate v zero_length). split; [reflexivity|]. split.
    + names. now rewrite (one_value_reads lengths _ v b l B A R).
    + intros box. unfold denotes. destruct (V (r_w box)) as (q & E & Eq). cbn [trans_of]. rewrite E. cbn [bind]. eexists. split; [reflexivity|].
      intros [px py]. split; cbn [on translate plus xx xy yx yy ox oy fst snd effect resolve_operand resolve_percent_or resolve_length pixels]; rewrite ?Eq; ring.
  - destruct (len_reads y O) as (v & R & V). exists (Translate zero_length v). split; [reflexivity|]. split.
    + names. now rewrite (one_value_reads lengths _ v b l B A R).
    + intros box. unfold denotes. destruct (V (r_h box)) as (q & E & Eq). cbn [trans_of]. rewrite E. cbn [bind]. eexists. split; [reflexivity|].
      intros [px py]. split; cbn [on translate plus xx xy yx yy ox oy fst snd effect resolve_operand resolve_percent_or resolve_length pixels]; rewrite ?Eq; ring.
  - destruct (len_reads x O) as (v & R & V). exists (Translate v zero_length). split; [reflexivity|]. split.
    + names. now rewrite (two_values_one lengths _ _ v b l B A R).
    + intros box. unfold denotes. destruct (V (r_w box)) as (q & E & Eq). cbn [trans_of]. rewrite E. cbn [bind]. eexists. split; [reflexivity|].
      intros [px py]. split; cbn [on translate plus xx xy yx yy ox oy fst snd effect resolve_operand resolve_percent_or resolve_length pixels]; rewrite ?Eq; ring.
  - destruct O as [Ox Oy]. destruct (len_reads x Ox) as (v & R & V), (len_reads y Oy) as (v' & R' & V').
    exists (Translate v v'). split; [reflexivity|]. split.
    + names. now rewrite (two_values_two lengths _ _ _ v v' b l B A R R').
    + intros box. unfold denotes. destruct (V (r_w box)) as (q & E & Eq), (V' (r_h box)) as (q' & E' & Eq'). cbn [trans_of]. rewrite E. cbn [bind]. rewrite E'. cbn [bind].
      eexists. split; [reflexivity|]. intros [px py]. split; cbn [on translate plus xx xy yx yy ox oy fst snd effect]; rewrite ?Eq, ?Eq'; ring.
  - destruct (num_reads x O) as (v & R & q & E & Eq). exists (Scale v number_one). split; [reflexivity|]. split.
    + names. now rewrite (one_value_reads numbers _ v b l B A R).
    + intros box. unfold denotes. cbn [trans_of]. rewrite E. cbn [bind]. eexists. split; [reflexivity|].
      intros [px py]. split; cbn [on scale plus xx xy yx yy ox oy fst snd effect resolve_operand]; rewrite ?Eq; ring.
  - destruct (num_reads y O) as (v & R & q & E & Eq). exists (Scale number_one v). split; [reflexivity|]. split.
    + names. now rewrite (one_value_reads numbers _ v b l B A R).
    + intros box. unfold denotes. cbn [trans_of]. rewrite E. cbn [bind]. eexists. split; [reflexivity|].
      intros [px py]. split; cbn [on scale plus xx xy yx yy ox oy fst snd effect resolve_operand]; rewrite ?Eq; ring.
  - destruct (num_reads x O) as (v & R & q & E & Eq). exists (Scale v v). split; [reflexivity|]. split.
    + names. now rewrite (two_values_one numbers _ _ v b l B A R).
    + intros box. unfold denotes. cbn [trans_of]. rewrite E. cbn [bind]. eexists. split; [reflexivity|].
      intros [px py]. split; cbn [on scale plus xx xy yx yy ox oy fst snd effect]; rewrite ?Eq; ring.
  - destruct O as [Ox Oy]. destruct (num_reads x Ox) as (v & R & q & E & Eq), (num_reads y Oy) as (v' & R' & q' & E' & Eq').
    exists (Scale v v'). split; [reflexivity|]. split.
    + names. now rewrite (two_values_two numbers _ _ _ v v' b l B A R R').
    + intros box. unfold denotes. cbn [trans_of]. rewrite E. cbn [bind]. rewrite E'. cbn [bind]. eexists. split; [reflexivity|].
      intros [px py]. split; cbn [on scale plus xx xy yx yy ox oy fst snd effect]; rewrite ?Eq, ?Eq'; ring.
  - destruct (ang_reads pi a O) as (v & R & q & E & Eq). exists (Rotate v). split; [reflexivity|]. split.
    + names. now rewrite (one_value_reads angles _ v b l B A R).
    + intros box. unfold denotes. cbn [trans_of]. rewrite E. cbn [bind]. eexists. split; [reflexivity|].
      pose proof (sine_eq _ _ Eq) as Es. pose proof (cosine_eq _ _ Eq) as Ec.
      intros [px py]. split; cbn [on rotate turn xx xy yx yy ox oy fst snd effect]; rewrite ?Es, ?Ec; ring.
  - destruct (ang_reads pi x O) as (v & R & q & E & Eq). exists (Skew v zero_angle). split; [reflexivity|]. split.
    + names. now rewrite (two_values_one angles _ _ v b l B A R).
    + intros box. unfold denotes. cbn [trans_of]. rewrite E. cbn [bind zero_angle ang resolve_cvalue resolve_operand]. eexists. split; [reflexivity|].
      pose proof (tangent_eq _ _ Eq) as Et.
      assert (Z : tangent (to_radian pi (0, DEGREE)) == 0) by (etransitivity; [|exact tangent_0]; apply tangent_eq; unfold to_radian; cbn [fst snd]; field).
      intros [px py]. split; cbn [on skew xx xy yx yy ox oy fst snd effect]; rewrite ?Et, ?Z; ring.
  - destruct O as [Ox Oy]. destruct (ang_reads pi x Ox) as (v & R & q & E & Eq), (ang_reads pi y Oy) as (v' & R' & q' & E' & Eq').
    exists (Skew v v'). split; [reflexivity|]. split.
    + names. now rewrite (two_values_two angles _ _ _ v v' b l B A R R').
    + intros box. unfold denotes. cbn [trans_of]. rewrite E. cbn [bind]. rewrite E'. cbn [bind]. eexists. split; [reflexivity|].
      pose proof (tangent_eq _ _ Eq) as Et. pose proof (tangent_eq _ _ Eq') as Et'.
      intros [px py]. split; cbn [on skew slant xx xy yx yy ox oy fst snd effect]; rewrite ?Et, ?Et'; ring.
  - destruct (ang_reads pi a O) as (v & R & q & E & Eq). exists (SkewX v). split; [reflexivity|]. split.
    + names. now rewrite (one_value_reads angles _ v b l B A R).
    + intros box. unfold denotes. cbn [trans_of]. rewrite E. cbn [bind]. eexists. split; [reflexivity|].
      pose proof (tangent_eq _ _ Eq) as Et.
      intros [px py]. split; cbn [on skew xx xy yx yy ox oy fst snd effect]; rewrite ?Et; ring.
  - destruct (ang_reads pi a O) as (v & R & q & E & Eq). exists (SkewY v). split; [reflexivity|]. split.
    + names. now rewrite (one_value_reads angles _ v b l B A R).
    + intros box. unfold denotes. cbn [trans_of]. rewrite E. cbn [bind]. eexists. split; [reflexivity|].
      pose proof (tangent_eq _ _ Eq) as Et.
      intros [px py]. split; cbn [on skew xx xy yx yy ox oy fst snd effect]; rewrite ?Et; ring.
Qed.

Lemma skip_blank f b l : blank b -> loose_list [] l \/ (exists g gs, loose_list (g :: gs) l) ->
  (fix after (r : list sst) : option (list tfun * list sst) :=
     match r with
     | TOK t :: r' => if ttype_beq (t_type t) WHITESPACE then after r' else Some ([f], r)
     | _ => match read_functions r with Some (fs, r) => Some (f :: fs, r) | None => None end
     end) (b ++ l) = match read_functions l with Some (fs, r) => Some (f :: fs, r) | None => None end.
Proof.
  intros B H. induction B as [|s b [d ->] _ IH]; [|exact IH]. cbn [app].
  destruct H as [H|(g & gs & H)]; inversion H as [|? ? s0 ? ? (name & b0 & l0 & -> & _)]; subst; reflexivity.
Qed.

Lemma list_read fs l : Forall wfun_ok fs -> loose_list fs l ->
  exists ts, read_functions l = Some (ts, []) /\ Forall2 (fun f t => forall box, denotes box f t) fs ts.
Proof.
  intros O H. induction H as [|f fs s b l F B H IH]; [exists []; now split|].
  inversion O as [|? ? Of Os]; subst. destruct (IH Os) as (ts & E & D).
  destruct (function_read f s Of F) as (name & content & t & -> & Et & Dt).
  exists (t :: ts). split; [|now constructor]. cbn [read_functions]. rewrite Et.
  rewrite skip_blank; [now rewrite E|exact B|]. destruct fs; [left|right; eexists _, _]; exact H.
Qed.
Lemma read_written fs l : fs <> [] -> Forall wfun_ok fs -> loose_list fs l ->
  exists ts, read_transform l = Some (Some ts, []) /\ Forall2 (fun f t => forall box, denotes box f t) fs ts.
Proof.
  intros NE O H. destruct (list_read fs l O H) as (ts & E & D). exists ts. split; [|exact D].
  destruct H as [|f fs s b l (name & b0 & l0 & -> & _) B H]; [contradiction|]. unfold read_transform. cbn [skip_tok]. now rewrite E.
Qed.

Lemma compose_effects box fs ts : Forall2 (denotes box) fs ts -> forall r, exists m,
  compose sine cosine tangent pi box r ts = Some m /\
  forall p, on m p ≡ on r (effects sine cosine tangent pi (r_w box) (r_h box) fs p).
Proof.
  induction 1 as [|f t fs ts (m & E & D) _ IH]; intros r.
  - exists r. split; [reflexivity|]. intros p. reflexivity.
  - destruct (IH (multiply m r)) as (k & Ek & Dk). exists k. split; [cbn [compose]; rewrite E; exact Ek|].
    intros p. rewrite (Dk p), on_multiply, D. reflexivity.
Qed.
Lemma resolve_effects box o fs ts : Forall2 (denotes box) fs ts -> exists m,
  resolve_transform sine cosine tangent pi box o ts = Some m /\
  forall p, on m p ≡ plus o (effects sine cosine tangent pi (r_w box) (r_h box) fs (on (translate (neg o)) p)).
Proof.
  intros D. destruct (compose_effects box fs ts D (translate o)) as (k & E & Dk).
  eexists. split; [unfold resolve_transform; rewrite E; reflexivity|]. intros p. rewrite on_multiply, Dk, on_translate. reflexivity.
Qed.

(** The effects do not tell equal points apart. *)
Lemma effect_same w h f : Proper (same ==> same) (effect sine cosine tangent pi w h f).
Proof. intros p q [E1 E2]. destruct f; split; cbn [effect plus turn slant fst snd]; now rewrite ?E1, ?E2. Qed.
Lemma effects_same w h fs : Proper (same ==> same) (effects sine cosine tangent pi w h fs).
Proof. intros p q E. induction fs as [|f fs IH]; [exact E|]. now apply effect_same. Qed.
Lemma minus_neg o p : on (translate (neg o)) p ≡ minus p o.
Proof. split; cbn [on translate neg minus xx xy yx yy ox oy fst snd]; ring. Qed.

Lemma painted_effects box o c fs ts : Forall2 (denotes box) fs ts -> resolve_origin box o = Some c -> exists m,
  painted sine cosine tangent pi box o ts = Some m /\
  forall p, on m p ≡ around c (effects sine cosine tangent pi (r_w box) (r_h box) fs) p.
Proof.
  intros D R. destruct (resolve_effects box c fs ts D) as (m & E & Dm). exists m. split; [unfold painted; now rewrite R|].
  intros p. rewrite (Dm p). unfold around. now rewrite (effects_same _ _ fs _ _ (minus_neg c p)).
Qed.
End Effects.

(** ** Origins *)
Lemma keyword_reads {A} k s (l : list (string * A)) r : eq_ci k (of_string s) = true ->
  read_keyword l (word k :: r) = match find (fun e => eq_ci (of_string s) (of_string (fst e))) l with Some e => Some (snd e, r) | None => None end.
Proof.
  intros E. apply eq_ci_spec in E. induction l as [|[n a] l IH]; [reflexivity|]. cbn [read_keyword find fst snd skip_tok word].
  unfold token_eqb. cbn [t_type ident t_data ttype_beq andb]. rewrite (eq_ci_left _ _ _ E).
  destruct (eq_ci (of_string s) (of_string n)); [reflexivity|exact IH].
Qed.
Lemma keyword_not {A} w (l : list (string * A)) r : read_keyword l (len_sst w :: r) = None.
Proof. induction l as [|[n a] l IH]; [reflexivity|]. destruct w as [[]| |]; exact IH. Qed.
(** What the value stands for in a box *)
Lemma x_reads x s : wx_ok x -> wx_text x s ->
  exists v, (forall r, read_x (s :: r) = Some (v, r)) /\
    forall box y, exists q, q == x_of x box /\
      resolve_origin box (mkO v y) = match resolve_origin box (mkO X_LEFT y) with Some (_, z) => Some (q, z) | None => None end.
Proof.
  destruct x as [| | |w]; cbn [wx_ok wx_text].
  1-3: intros _ (k & -> & E); eexists; (split; [intros r; unfold read_x; rewrite (keyword_reads k _ _ r E); cbn [find]; reflexivity|]);
    intros box y; eexists; (split; [|unfold resolve_origin; cbn [o_x o_y bind]; destruct (match y with Y_TOP => _ | _ => _ end); reflexivity]); cbn [x_of]; try reflexivity; field.
  intros O ->. destruct (len_reads w O) as (v & [_ R] & V). exists (XOff v). split.
  - intros r. unfold read_x. now rewrite keyword_not, R.
  - intros box y. destruct (V (r_w box)) as (q & E & Eq). exists (r_x box + q). split; [cbn [x_of]; now rewrite Eq|].
    unfold resolve_origin. cbn [o_x o_y bind]. rewrite E. cbn [bind]. destruct (match y with Y_TOP => _ | _ => _ end); reflexivity.
Qed.
Lemma y_reads y s : wy_ok y -> wy_text y s ->
  exists v, (forall r, read_y (s :: r) = Some (v, r)) /\
    forall box x, exists q, q == y_of y box /\
      resolve_origin box (mkO x v) = match resolve_origin box (mkO x Y_TOP) with Some (z, _) => Some (z, q) | None => None end.
Proof.
  destruct y as [| | |w]; cbn [wy_ok wy_text].
  1-3: intros _ (k & -> & E); eexists; (split; [intros r; unfold read_y; rewrite (keyword_reads k _ _ r E); cbn [find]; reflexivity|]);
    intros box x; eexists; (split; [|unfold resolve_origin; cbn [o_x o_y]; destruct (match x with X_LEFT => _ | _ => _ end); cbn [bind]; reflexivity]); cbn [y_of]; try reflexivity; field.
  intros O ->. destruct (len_reads w O) as (v & [_ R] & V). exists (YOff v). split.
  - intros r. unfold read_y. now rewrite keyword_not, R.
  - intros box x. destruct (V (r_h box)) as (q & E & Eq). exists (r_y box + q). split; [cbn [y_of]; now rewrite Eq|].
    unfold resolve_origin. cbn [o_x o_y]. rewrite E. cbn [bind]. destruct (match x with X_LEFT => _ | _ => _ end); reflexivity.
Qed.
Lemma origin_reads x y sx sy r : wx_ok x -> wy_ok y -> wx_text x sx -> wy_text y sy ->
  exists o, read_origin (sx :: sy :: r) = Some (o, r) /\ forall box, exists c, resolve_origin box o = Some c /\ c ≡ (x_of x box, y_of y box).
Proof.
  intros Ox Oy Tx Ty. destruct (x_reads x sx Ox Tx) as (vx & Rx & Vx), (y_reads y sy Oy Ty) as (vy & Ry & Vy).
  exists (mkO vx vy). split; [unfold read_origin, two_offsets; rewrite Rx, Ry; reflexivity|].
  intros box. destruct (Vx box vy) as (qx & Ex & Hx), (Vy box X_LEFT) as (qy & Ey & Hy).
  rewrite Hx, Hy. exists (qx, qy). split; [reflexivity|now split].
Qed.
