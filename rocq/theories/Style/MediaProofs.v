(** Proofs about media queries. *)
From Coq Require Import String List NArith ZArith QArith Bool Lia Lqa.
From Verif.Base Require Import Str Outcome.
From Verif.Css Require Import LexerModel ParserModel.
From Verif.Values Require Import Number LengthModel LengthProps CalcModel CalcProps.
From Verif.Style Require Import MediaModel MediaSpec.
Import ListNotations.
Local Open Scope list_scope.

(** ** Feature tests *)

Definition not_ws (s : sst) : Prop := match s with TOK t => ttype_beq (t_type t) WHITESPACE = false | _ => True end.

Lemma eat_wss_wss n s r : not_ws s -> eat_wss (wss n ++ s :: r) = s :: r.
Proof.
  intros H. induction n as [|n IH]; cbn [wss repeat app]; [|exact IH].
  destruct s as [t| | | |]; cbn in *; try reflexivity. now rewrite H.
Qed.
Lemma eat_wss_nil n : eat_wss (wss n) = [].
Proof. induction n; cbn; [reflexivity|assumption]. Qed.
Lemma eat_wss_app n c : eat_wss (wss n ++ c) = eat_wss c.
Proof. induction n; cbn; [reflexivity|assumption]. Qed.

Lemma strip_app p s : strip p (p ++ s) = Some s.
Proof. induction p; cbn; [reflexivity|]. now rewrite N.eqb_refl. Qed.
Lemma explode_min s : explode (of_string "min-" ++ s) = (MIN, s).
Proof. reflexivity. Qed.
Lemma explode_max s : explode (of_string "max-" ++ s) = (MAX, s).
Proof. reflexivity. Qed.
Lemma explode_name f : explode (fname f) = (EXACT, fname f).
Proof. destruct f; reflexivity. Qed.
Lemma find_name f : f <> Fany_pointer -> f <> Fany_hover -> find_feat (fname f) = Some f.
Proof. destruct f; intros; try contradiction; reflexivity. Qed.

(** [v] is what the written value [w] denotes. *)
Definition denotes (f : feat) (v : mval) (w : wval) : Prop :=
  typed f v /\
  match w with
  | WKw k => forall i s', nth_error (css_keywords f) i = Some s' -> equal (VEnum i) v = eq_ci (of_string s') k
  | WInt n ds => if is_range f then d_number v = Some (inject_Z (integer_value n ds)) else d_grid v = Some (integer_value n ds)
  | _ => exists x y, d_number v = Some x /\ w_number w = Some y /\ x == y
  end.

Lemma keyword_subst ks s k r : eq_ci s k = true -> parse_keyword ks (id_tok k :: r) = parse_keyword ks (id_tok s :: r).
Proof.
  intros E. induction ks as [|[x n] ks IH]; cbn [parse_keyword]; [reflexivity|]. rewrite IH.
  unfold id_tok. cbn [skip_tok]. unfold token_eqb. cbn [t_type t_data]. rewrite (eq_ci_sym k x), (eq_ci_sym s x), (eq_ci_subst s x k E). reflexivity.
Qed.

Lemma keyword_ok f s r : In s (css_keywords f) -> (f = Fcontrast -> s <> "no-preference"%string) ->
  exists ks n, fkind f = TEnum ks /\ parse_keyword ks (id_tok (of_string s) :: r) = Some (n, r) /\
    (n < List.length (css_keywords f))%nat /\ f <> Ftype /\
    (forall i s', nth_error (css_keywords f) i = Some s' -> Nat.eqb i n = eq_ci (of_string s') (of_string s)).
Proof.
  destruct f; cbn [css_keywords In]; intros H C; try contradiction;
    repeat match goal with H : _ \/ _ |- _ => destruct H as [H|H] end; try contradiction; subst s;
    try (exfalso; now apply C);
    (eexists; eexists; split; [reflexivity|]; split; [reflexivity|]; split; [cbn; lia|]; split; [discriminate|];
     intros [|[|[|[|i]]]] s' E; cbn in E; try discriminate; injection E as <-; reflexivity).
Qed.

Lemma value_denotes f w r : value_ok f w -> f <> Ftype ->
  (f = Fcontrast -> forall k, w = WKw k -> eq_ci (of_string "no-preference") k = false) ->
  exists v r', parse_value f (show_value w :: r) = (Some v, r') /\ denotes f v w /\ (r' = r \/ r' = show_value w :: r).
Proof.
  intros O T C. unfold value_ok in O. unfold parse_value, denotes, typed.
  destruct (fkind f) eqn:K, w as [d u s|d|n ds|d u s|k]; try contradiction; cbn [show_value].
  - destruct O as [O U]. destruct (C16_parse_absolute d u s r O U) as (q & E & V). rewrite E.
    eexists; eexists; split; [reflexivity|]. split; [|now left]. split; [exact I|].
    eexists; eexists; split; [reflexivity|]. split; [reflexivity|]. now apply pixels_ext.
  - destruct (atof_show d [] O I) as (q & E & V). rewrite app_nil_r in E. cbn. rewrite E.
    eexists; eexists; split; [reflexivity|]. split; [|now left]. split; [exact I|].
    eexists; eexists; split; [reflexivity|]. split; [reflexivity|]. exact V.
  - pose proof (atoi_show n ds [] O I) as E. rewrite app_nil_r in E. unfold parse_integer. cbn [t_type t_data ttype_beq]. rewrite E.
    eexists; eexists; split; [reflexivity|]. split; [|now left]. split; [exact I|]. unfold is_range. rewrite K. reflexivity.
  - destruct O as [O U].
    assert (S : stops s) by (now apply (unit_stops res_units u)).
    destruct (dimension_show d s O S) as (q & E & V). unfold parse_resolution, dim. cbn [t_type t_data ttype_beq]. rewrite E.
    assert (L : value_of_ci res_units s = Some u).
    { apply unit_lookup with (us := res_units); [|exact U]. cbn [res_units In]. intros m Im. intuition; match goal with H : (_, _) = _ |- _ => injection H as <- <-; reflexivity end. }
    rewrite L. eexists; eexists; split; [reflexivity|]. split; [|now right]. split; [exact I|].
    eexists; eexists; split; [reflexivity|]. split; [reflexivity|]. unfold dots_per_inch. destruct u; rewrite V; reflexivity.
  - destruct O as [O Z]. pose proof (atoi_show n ds [] O I) as E. rewrite app_nil_r in E. unfold parse_integer. cbn [t_type t_data ttype_beq]. rewrite E.
    eexists; eexists; split; [reflexivity|]. split; [|now left]. cbn [option_map].
    assert (F : f = Fgrid) by (destruct f; try discriminate K; reflexivity). subst f.
    destruct Z as [-> | ->]; cbn; (split; [lia|reflexivity]).
  - destruct O as (s & I1 & E1). destruct (keyword_ok f s r I1) as (ks & n & K' & P & L & _ & Q).
    { intros -> ->. specialize (C eq_refl k eq_refl). congruence. }
    rewrite K in K'. injection K' as ->. unfold id_tok in *. change (TOK (mkT IDENT k)) with (id_tok k). rewrite (keyword_subst ks (of_string s) k r E1).
    unfold id_tok. rewrite P. eexists; eexists; split; [reflexivity|]. split; [|now left].
    split; [destruct f; try exact L; contradiction|].
    intros i s' Hi. cbn [equal]. rewrite (Q i s' Hi). now rewrite (eq_ci_subst _ (of_string s') k E1).
Qed.

(** Comparisons of values of one range feature are comparisons of their numbers. *)
Lemma compare_numbers f a b : is_range f = true -> typed f a -> typed f b ->
  exists x y, d_number a = Some x /\ d_number b = Some y /\ compare a b = Some (Qcompare x y).
Proof.
  unfold is_range, typed. destruct (fkind f); try discriminate; intros _ A B;
    destruct a as [[? ?|? ?]| | | |], b as [[? ?|? ?]| | | |]; try contradiction; cbn; eexists; eexists; split; try reflexivity; split; try reflexivity.
  f_equal. unfold Qcompare, inject_Z. cbn. now rewrite !Z.mul_1_r.
Qed.
Lemma le_numbers f a b x y : is_range f = true -> typed f a -> typed f b -> d_number a = Some x -> d_number b = Some y ->
  le a b = true <-> x <= y.
Proof.
  intros R A B X Y. destruct (compare_numbers f a b R A B) as (x' & y' & X' & Y' & C).
  rewrite X in X'. rewrite Y in Y'. injection X' as <-. injection Y' as <-. unfold le. rewrite C.
  destruct (Qcompare_spec x y); split; intros; try reflexivity; try discriminate; lra.
Qed.

Lemma number_of_typed f v : is_range f = true -> typed f v -> exists x, d_number v = Some x.
Proof. intros R T. destruct (compare_numbers f v v R T T) as (x & _ & X & _). eauto. Qed.

Lemma denotes_number f v w : is_range f = true -> value_ok f w -> denotes f v w ->
  typed f v /\ exists x y, d_number v = Some x /\ w_number w = Some y /\ x == y.
Proof.
  intros R O [T D]. split; [exact T|]. unfold is_range in R. unfold value_ok in O.
  destruct w; try exact D.
  - destruct (fkind f) eqn:K; try discriminate R; try contradiction. unfold is_range in D. rewrite K in D. eexists; eexists. split; [exact D|]. split; reflexivity.
  - destruct (fkind f) eqn:K; try discriminate R; contradiction.
Qed.

Definition sound (x : feature) (t : test) : Prop := forall m, typed_media m -> (match_feature x m = true <-> test_holds m t).

Lemma make_min f v w : is_range f = true -> value_ok f w -> denotes f v w -> sound (make f MIN v) (TMin f w).
Proof.
  intros R O D m [TM _]. destruct (denotes_number f v w R O D) as (T & x & y & X & Y & E).
  destruct (number_of_typed f (m f) R (TM f)) as (z & Z). unfold make. rewrite R. cbn. rewrite andb_true_r, (le_numbers f v (m f) x z) by auto.
  rewrite Z, Y. split.
  - intros L. exists z, y. repeat split. lra.
  - intros (z' & y' & Ez & Ey & L). injection Ez as <-. injection Ey as <-. lra.
Qed.
Lemma make_max f v w : is_range f = true -> value_ok f w -> denotes f v w -> sound (make f MAX v) (TMax f w).
Proof.
  intros R O D m [TM _]. destruct (denotes_number f v w R O D) as (T & x & y & X & Y & E).
  destruct (number_of_typed f (m f) R (TM f)) as (z & Z). unfold make. rewrite R. cbn. rewrite (le_numbers f (m f) v z x) by auto.
  rewrite Z, Y. split.
  - intros L. exists z, y. repeat split. lra.
  - intros (z' & y' & Ez & Ey & L). injection Ez as <-. injection Ey as <-. lra.
Qed.
Lemma make_eq f v w : f <> Ftype -> value_ok f w -> denotes f v w -> sound (make f EXACT v) (TEq f w).
Proof.
  intros FT O D m TM'. pose proof (proj1 TM') as TM. unfold make. destruct (is_range f) eqn:R.
  - destruct (denotes_number f v w R O D) as (T & x & y & X & Y & E).
    destruct (number_of_typed f (m f) R (TM f)) as (z & Z). cbn [match_feature].
    rewrite andb_true_iff, (le_numbers f v (m f) x z), (le_numbers f (m f) v z x) by auto.
    assert (G : test_holds m (TEq f w) <-> exists x0 y0, d_number (m f) = Some x0 /\ w_number w = Some y0 /\ x0 == y0).
    { destruct w; try reflexivity; try discriminate Y; destruct f; try reflexivity; discriminate R. }
    rewrite G, Z, Y. split.
    + intros [L1 L2]. exists z, y. repeat split. lra.
    + intros (z' & y' & Ez & Ey & L). injection Ez as <-. injection Ey as <-. split; lra.
  - cbn [match_feature]. destruct D as [T D]. unfold is_range in R. unfold value_ok in O. pose proof (TM f) as Tf. unfold typed in T, Tf.
    destruct (fkind f) eqn:K; try discriminate R.
    + assert (f = Fgrid) by (destruct f; try discriminate K; reflexivity). subst f.
      destruct w as [| |n ds| |]; try contradiction. cbn [test_holds]. cbn in D.
      destruct v as [| | | |n1]; try contradiction. destruct (m Fgrid) as [| | | |n2]; try contradiction.
      cbn [equal feat_beq w_number].
      assert (G : (exists z y, d_grid (VEnum n2) = Some z /\ Some (inject_Z (integer_value n ds)) = Some y /\ inject_Z z == y) <-> d_grid (VEnum n2) = Some (integer_value n ds)).
      { split.
        - intros (z & y & E1 & E2 & E3). injection E2 as <-. rewrite E1. f_equal. unfold Qeq in E3. cbn in E3. lia.
        - intros E. eexists; eexists. split; [exact E|]. split; reflexivity. }
      rewrite G. destruct n1 as [|[|n1]]; [| |lia]; (destruct n2 as [|[|n2]]; [| |lia]); cbn in *; split; intros; try congruence; try discriminate.
    + destruct w as [| | | |k]; try contradiction. cbn [test_holds]. 
      destruct (m f) as [| | | |i]; try contradiction.
      assert (L : (i < List.length (css_keywords f))%nat) by (destruct f; try exact Tf; contradiction).
      destruct (nth_error (css_keywords f) i) as [s'|] eqn:N; [|apply nth_error_None in N; lia].
      rewrite (D i s' N). unfold d_keyword. rewrite N. cbn [option_map]. split.
      * intros E. exists (of_string s'). split; [reflexivity|exact E].
      * intros (k' & E1 & E2). injection E1 as <-. exact E2.
Qed.
Lemma make_bool f : ~ In f [Ftype; Fany_pointer; Fany_hover; Forientation; Fscan; Fcolor_gamut; Fcolor_scheme] ->
  sound (make f BOOL (zero_of f)) (TBoolean f).
Proof.
  intros H m [TM RP]. pose proof (TM f) as Tf. cbn [test_holds].
  assert (P : match_feature (make f BOOL (zero_of f)) m = negb (equal (m f) (zero_of f))) by (unfold make; destruct (is_range f); reflexivity).
  rewrite P.
  assert (RP' : f = Fresolution -> match m f with VRes q _ => 0 < q | _ => True end) by (intros ->; exact RP).
  clear P TM RP. generalize dependent (m f). clear m. intros v Tf RP.
  destruct (is_range f) eqn:R.
  - destruct (number_of_typed f v R Tf) as (x & X).
    assert (G : equal v (zero_of f) = Qeq_bool x 0).
    { unfold is_range in R. unfold typed in Tf. unfold zero_of.
      destruct (fkind f) eqn:K; try discriminate R; destruct v as [[? ?|? ?]|?|?|? ?|n]; try contradiction; cbn in X; injection X as <-; cbn [equal]; try reflexivity.
      - rename z into y. destruct (Z.eqb_spec y 0) as [->|E]; [reflexivity|]. symmetry.
        destruct (Qeq_bool (inject_Z y) 0) eqn:QQ; [|reflexivity]. apply Qeq_bool_iff in QQ. exfalso. apply E. unfold Qeq in QQ. cbn in QQ. lia.
      - assert (f = Fresolution) by (destruct f; try discriminate K; reflexivity). specialize (RP H0).
        transitivity false; [|symmetry].
        + apply andb_false_iff. left. destruct (Qeq_bool q 0) eqn:QQ; [|reflexivity]. apply Qeq_bool_iff in QQ. rewrite QQ in RP. now apply Qlt_irrefl in RP.
        + destruct (Qeq_bool (dots_per_inch q u) 0) eqn:QQ; [|reflexivity]. apply Qeq_bool_iff in QQ. exfalso. destruct u; cbn [dots_per_inch] in QQ; lra. }
    rewrite G, negb_true_iff. unfold is_range in R.
    assert (S : Qeq_bool x 0 = false <-> exists x0, d_number v = Some x0 /\ ~ x0 == 0).
    { rewrite X. split.
      - intros E. exists x. split; [reflexivity|]. now apply Qeq_bool_neq.
      - intros (y & E1 & E2). injection E1 as <-. destruct (Qeq_bool x 0) eqn:QQ; [apply Qeq_bool_iff in QQ; contradiction|reflexivity]. }
    rewrite S. destruct (fkind f); try discriminate R; reflexivity.
  - unfold typed in Tf. destruct f; try discriminate R; try (exfalso; apply H; cbn; tauto); cbn [fkind css_keywords List.length keywords] in Tf;
      (destruct v as [[? ?|? ?]|?|?|? ?|n]; try contradiction);
      (destruct n as [|[|[|n]]]; try (cbn in Tf; lia); (cbn; split;
        [intros E; try discriminate E; try (eexists; split; [reflexivity|]; split; discriminate); try reflexivity
        |intros E; try reflexivity; try discriminate E; exfalso; destruct E as (k & E1 & E2 & E3); injection E1 as <-; first [now apply E2|now apply E3]])).
Qed.

(** The whole of a feature test is read as what it says. *)
Lemma show_value_not_ws w : not_ws (show_value w).
Proof. destruct w; reflexivity. Qed.

Lemma parse_test a b t : test_ok t -> exists x r, parse_feature (show_test a b t) = (x, r) /\ sound x t /\
  skip_tok (ident "and") (eat_wss r) = None /\ skip_tok (ident "or") (eat_wss r) = None.
Proof.
  assert (V : forall f p name w, explode name = (p, fname f) -> f <> Fany_pointer -> f <> Fany_hover -> f <> Ftype -> value_ok f w ->
    (f = Fcontrast -> forall k, w = WKw k -> eq_ci (of_string "no-preference") k = false) ->
    exists v r, parse_feature (id_tok name :: wss a ++ colon :: wss b ++ [show_value w]) = (make f p v, r) /\ denotes f v w /\
      skip_tok (ident "and") (eat_wss r) = None /\ skip_tok (ident "or") (eat_wss r) = None).
  { intros f p name w E A1 A2 A3 O C. unfold parse_feature, id_tok. cbn [t_type t_data ttype_beq]. rewrite E, eat_wss_wss by reflexivity.
    rewrite find_name by assumption. cbn [colon t_type ttype_beq]. rewrite eat_wss_wss by apply show_value_not_ws.
    destruct (value_denotes f w [] O A3 C) as (v & r & P & D & R). rewrite P. exists v, r. split; [reflexivity|]. split; [exact D|].
    destruct R as [-> | ->]; [split; reflexivity|].
    unfold value_ok in O. destruct w as [| | | |k]; try (split; reflexivity).
    exfalso. unfold parse_value in P. destruct (fkind f) eqn:K; try contradiction. destruct O as (s & I1 & E1).
    destruct (keyword_ok f s [] I1) as (ks & n & K' & P' & _).
    { intros -> ->. specialize (C eq_refl k eq_refl). congruence. }
    rewrite K in K'. injection K' as ->. cbn [show_value] in P. rewrite (keyword_subst ks _ k [] E1), P' in P. discriminate P. }
  destruct t as [f w|f w|f w|f]; cbn [test_ok show_test].
  - intros [R O]. destruct (V f MIN (of_string "min-" ++ fname f) w (explode_min _)) as (v & r & E & D & S); try assumption;
      try (intros ->; discriminate R).
    exists (make f MIN v), r. split; [exact E|]. split; [now apply make_min|exact S].
  - intros [R O]. destruct (V f MAX (of_string "max-" ++ fname f) w (explode_max _)) as (v & r & E & D & S); try assumption;
      try (intros ->; discriminate R).
    exists (make f MAX v), r. split; [exact E|]. split; [now apply make_max|exact S].
  - intros (A1 & A2 & A3 & O & C). destruct (V f EXACT (fname f) w (explode_name _)) as (v & r & E & D & S); try assumption.
    exists (make f EXACT v), r. split; [exact E|]. split; [now apply make_eq|exact S].
  - intros H. unfold parse_feature, id_tok. cbn [t_type t_data ttype_beq]. rewrite explode_name.
    rewrite find_name by (intros ->; apply H; cbn; tauto). rewrite eat_wss_nil.
    eexists; eexists. split; [reflexivity|]. split; [now apply make_bool|split; reflexivity].
Qed.

(** ** Queries *)

Definition sound_query (q : query) (P : media -> Prop) : Prop := forall m, typed_media m -> (match_query q m = true <-> P m).

(** What may follow a query: spaces, then nothing or a comma. *)
Definition follow (c : list sst) : Prop :=
  match eat_wss c with
  | [] => True
  | TOK t :: _ => t_type t = COMMA
  | _ => False
  end.

Lemma follow_skip c s : follow c -> skip_tok (ident s) c = None /\ skip_tok (ident s) (eat_wss c) = None.
Proof.
  intros F. assert (A : forall d, follow d -> skip_tok (ident s) d = None).
  { intros d Fd. destruct d as [|[t| | | |] d]; try reflexivity. unfold follow in Fd. cbn in *. unfold token_eqb.
    destruct (ttype_beq (t_type t) WHITESPACE) eqn:W.
    - apply internal_ttype_dec_bl in W. rewrite W. reflexivity.
    - now rewrite Fd. }
  split; [now apply A|]. apply A. unfold follow in *. clear A.
  assert (I : eat_wss (eat_wss c) = eat_wss c).
  { clear F. induction c as [|[t| | | |] c IH]; try reflexivity. cbn. destruct (ttype_beq (t_type t) WHITESPACE) eqn:W; [exact IH|]. cbn. now rewrite W. }
  now rewrite I.
Qed.

Definition leaf_good (l : leaf) : Prop := exists N q, (forall n r, (N <= n)%nat -> parse_leaf n (show_leaf l :: r) = Ok (q, r)) /\ sound_query q (fun m => leaf_holds m l).

Lemma show_leaf_not_ws l : not_ws (show_leaf l).
Proof. destruct l; reflexivity. Qed.

Definition op_query (c : conn) (a b : query) : query := match c with And => QAnd a b | Or => QOr a b end.
Definition conj (c : conn) (P Q : Prop) : Prop := match c with And => P /\ Q | Or => P \/ Q end.
Definition unit_ (c : conn) : Prop := match c with And => True | Or => False end.
Definition rest_holds (c : conn) (m : media) (r : list (nat * nat * leaf)) : Prop :=
  fold_right (fun p P => conj c (leaf_holds m (snd p)) P) (unit_ c) r.
Definition show_rest (c : conn) (r : list (nat * nat * leaf)) : list sst :=
  flat_map (fun p => wss (fst (fst p)) ++ conn_tok c :: wss (snd (fst p)) ++ [show_leaf (snd p)]) r.

Lemma loop_step n c lhs b l r :
  infix_loop (S n) lhs (conn_tok c :: wss b ++ show_leaf l :: r) =
  obind (parse_leaf n (show_leaf l :: r)) (fun p => infix_loop n (op_query c lhs (fst p)) (snd p)).
Proof.
  cbn [infix_loop]. destruct c; cbn [conn_tok id_tok]; cbn -[eat_wss wss parse_leaf infix_loop];
    rewrite eat_wss_wss by apply show_leaf_not_ws; reflexivity.
Qed.

Lemma op_sound c a b P Q : sound_query a P -> sound_query b Q -> sound_query (op_query c a b) (fun m => conj c (P m) (Q m)).
Proof.
  intros A B m T. destruct c; cbn; [rewrite andb_true_iff|rewrite orb_true_iff]; now rewrite (A m T), (B m T).
Qed.
Lemma conj_assoc c P Q R : conj c (conj c P Q) R <-> conj c P (conj c Q R).
Proof. destruct c; cbn; tauto. Qed.
Lemma conj_unit c P : conj c P (unit_ c) <-> P.
Proof. destruct c; cbn; tauto. Qed.

(** The loop over connectives that have no space before them. *)
Lemma loop_good c r : Forall (fun p => fst (fst p) = O) r -> Forall (fun p => leaf_good (snd p)) r ->
  exists N, forall lhs P, sound_query lhs P -> exists q, sound_query q (fun m => conj c (P m) (rest_holds c m r)) /\
    forall n tail, (N <= n)%nat -> skip_tok (ident "and") tail = None -> skip_tok (ident "or") tail = None ->
      infix_loop n lhs (show_rest c r ++ tail) = Ok (q, tail).
Proof.
  induction r as [|[[a b] l] r IH]; intros T G.
  - exists 1%nat. intros lhs P S. exists lhs. split.
    + intros m M. cbn. rewrite conj_unit. now apply S.
    + intros [|n] tail L A O; [lia|]. cbn. now rewrite A, O.
  - inversion T as [|? ? T1 T2]; subst. inversion G as [|? ? G1 G2]; subst. cbn in T1. subst a.
    destruct (IH T2 G2) as (N & H). destruct G1 as (N1 & q1 & P1 & S1). cbn in P1, S1.
    exists (S (N + N1)). intros lhs P S.
    destruct (H (op_query c lhs q1) _ (op_sound c lhs q1 _ _ S S1)) as (q & Sq & E).
    exists q. split.
    + intros m M. rewrite (Sq m M). cbn. now rewrite conj_assoc.
    + intros [|n] tail L A O; [lia|]. cbn [show_rest flat_map fst snd wss repeat app]. fold (show_rest c r).
      rewrite <- !app_assoc. cbn [app]. rewrite loop_step, P1 by lia. cbn [obind fst snd]. apply E; [lia|assumption|assumption].
Qed.

Lemma group_good c f r : tight r -> leaf_good f -> Forall (fun p => leaf_good (snd p)) r ->
  exists N q, sound_query q (fun m => leaf_holds m (LGroup c f r)) /\
    forall n tail, (N <= n)%nat -> follow tail -> exists tail', parse_infix n (show_group c f r ++ tail) = Ok (q, tail') /\ eat_wss tail' = eat_wss tail.
Proof.
  intros T F G. destruct F as (N1 & q1 & P1 & S1).
  assert (H : forall m, leaf_holds m (LGroup c f r) <-> conj c (leaf_holds m f) (rest_holds c m r)) by (intros m; destruct c; reflexivity).
  assert (Idem : forall d, eat_wss (eat_wss d) = eat_wss d).
  { intros d. induction d as [|[t| | | |] d IH]; try reflexivity. cbn. destruct (ttype_beq (t_type t) WHITESPACE) eqn:W; [exact IH|]. cbn. now rewrite W. }
  destruct r as [|[[a b] l] r].
  - exists (S (S N1)), q1. split; [intros m M; rewrite H; cbn; rewrite conj_unit; now apply S1|].
    intros [|n] tail L Fo; [lia|]. cbn [show_group flat_map app parse_infix]. rewrite P1 by lia. cbn [obind fst snd].
    destruct n as [|n]; [lia|]. cbn [infix_loop]. destruct (follow_skip tail "and" Fo) as [_ ->]. destruct (follow_skip tail "or" Fo) as [_ ->].
    exists (eat_wss tail). split; [reflexivity|apply Idem].
  - inversion G as [|? ? G1 G2]; subst. unfold tight in T. cbn in T.
    destruct (loop_good c ((O, b, l) :: r)) as (N & L); [constructor; [reflexivity|exact T]|constructor; [exact G1|exact G2]|].
    destruct (L q1 _ S1) as (q & Sq & E). exists (S (N + N1)), q. split.
    + intros m M. rewrite H. now apply Sq.
    + intros [|n] tail Ln Fo; [lia|]. cbn [show_group flat_map fst snd app parse_infix]. rewrite P1 by lia. cbn [obind fst snd].
      rewrite <- !app_assoc, eat_wss_app. cbn [app].
      assert (W : forall x, eat_wss (conn_tok c :: x) = conn_tok c :: x) by (intros x; destruct c; reflexivity). rewrite W.
      exists tail. split; [|reflexivity].
      specialize (E n tail ltac:(lia) (proj1 (follow_skip tail "and" Fo)) (proj1 (follow_skip tail "or" Fo))).
      cbn [show_rest flat_map fst snd wss repeat app] in E. rewrite <- !app_assoc in E. cbn [app] in E. rewrite <- !app_assoc. exact E.
Qed.

Lemma name_leaf f p r : p = [] \/ p = of_string "min-" \/ p = of_string "max-" ->
  skip_tok (ident "not") (id_tok (p ++ fname f) :: r) = None /\ skip_tok (ident "only") (id_tok (p ++ fname f) :: r) = None /\
  parse_keyword type_keywords (id_tok (p ++ fname f) :: r) = None.
Proof. intros [->|[->| ->]]; destruct f; repeat split; reflexivity. Qed.

Lemma test_good a b t : test_ok t -> leaf_good (LTest a b t).
Proof.
  intros O. destruct (parse_test a b t O) as (x & r & E & Sx & A1 & A2).
  exists 4%nat, (QFeat x). split; [|exact Sx]. intros n rest L.
  do 4 (destruct n as [|n]; [lia|]). cbn [show_leaf parse_leaf skip_tok].
  assert (H : parse_leaf (S (S n)) (show_test a b t) = Ok (QFeat x, r)).
  { assert (N : exists f p c, show_test a b t = id_tok (p ++ fname f) :: c /\ (p = [] \/ p = of_string "min-" \/ p = of_string "max-")).
    { destruct t as [f w|f w|f w|f]; cbn [show_test].
      - exists f, (of_string "min-"). eexists. split; [reflexivity|tauto].
      - exists f, (of_string "max-"). eexists. split; [reflexivity|tauto].
      - exists f, []. eexists. split; [reflexivity|tauto].
      - exists f, []. eexists. split; [reflexivity|tauto]. }
    destruct N as (f & p & c & N & Np). rewrite N in *. destruct (name_leaf f p c Np) as (K1 & K2 & K3).
    cbn [parse_leaf]. rewrite K1, K2, K3, E. reflexivity. }
  cbn [parse_infix]. rewrite H. cbn [obind fst snd infix_loop]. rewrite A1, A2. reflexivity.
Qed.

Lemma type_good k : known_type k -> leaf_good (LType k).
Proof.
  intros (s & I1 & E).
  assert (H : exists t, (forall r, parse_keyword type_keywords (id_tok (of_string s) :: r) = Some (t, r)) /\
    (forall r, skip_tok (ident "not") (id_tok (of_string s) :: r) = None) /\ (forall r, skip_tok (ident "only") (id_tok (of_string s) :: r) = None) /\
    (forall v, v = 1%nat \/ v = 2%nat -> (Nat.eqb v t = true <-> (eq_ci (of_string "all") (of_string s) = true \/ (eq_ci (of_string "print") (of_string s) = true /\ v = 1%nat) \/ (eq_ci (of_string "screen") (of_string s) = true /\ v = 2%nat))))).
  { cbn [In] in I1. repeat match goal with H : _ \/ _ |- _ => destruct H as [H|H] end; try contradiction; subst s;
      (eexists; split; [intros; reflexivity|]; split; [intros; reflexivity|]; split; [intros; reflexivity|]; intros v [-> | ->]; cbn; intuition (try discriminate; try lia)). }
  destruct H as (t & P & N1 & N2 & S). exists 1%nat, (QFeat (Discrete Ftype (Some (VEnum t)))).
  assert (Tk : forall x r, skip_tok (ident x) (id_tok k :: r) = skip_tok (ident x) (id_tok (of_string s) :: r)).
  { intros x r. cbn. unfold token_eqb. cbn [t_type t_data ttype_beq andb]. rewrite (eq_ci_sym k), (eq_ci_sym (of_string s)), (eq_ci_subst _ _ k E). reflexivity. }
  split.
  - intros [|n] r L; [lia|]. cbn [show_leaf parse_leaf]. rewrite !Tk, N1, N2. cbn [id_tok]. change (TOK (mkT IDENT k)) with (id_tok k).
    now rewrite (keyword_subst _ _ k r E), P.
  - intros m M. cbn [leaf_holds match_query match_feature]. unfold type_holds.
    rewrite !(eq_ci_subst (of_string s) _ k E).
    destruct M as [M _]. specialize (M Ftype). unfold typed in M. cbn [fkind] in M.
    destruct (m Ftype) as [| | | |v]; try contradiction. cbn [equal].
    specialize (S v M).
    assert (X : (eq_ci (of_string "all") (of_string s) = true \/
       eq_ci (of_string "print") (of_string s) = true /\ VEnum v = VEnum 1 \/ eq_ci (of_string "screen") (of_string s) = true /\ VEnum v = VEnum 2) <->
      (eq_ci (of_string "all") (of_string s) = true \/
       eq_ci (of_string "print") (of_string s) = true /\ v = 1%nat \/ eq_ci (of_string "screen") (of_string s) = true /\ v = 2%nat)).
    { assert (forall i j, VEnum i = VEnum j <-> i = j) by (intros i j; split; [intros X; now injection X|now intros ->]). rewrite !H. reflexivity. }
    rewrite X, <- S. reflexivity.
Qed.

Fixpoint leaf_size (l : leaf) : nat :=
  match l with
  | LGroup _ f r => S (leaf_size f + fold_right (fun p n => leaf_size (snd p) + n)%nat O r)
  | _ => 1%nat
  end.

Lemma leaf_ok_good l : leaf_ok l -> leaf_good l.
Proof.
  assert (H : forall k l, (leaf_size l < k)%nat -> leaf_ok l -> leaf_good l).
  { induction k as [|k IH]; intros l0 Sz O; [lia|]. destruct l0 as [t|a b t|c f r].
    - now apply type_good.
    - now apply test_good.
    - cbn in O, Sz. destruct O as (T & Of & Or).
      assert (G : Forall (fun p => leaf_good (snd p)) r).
      { clear T. assert (B : (fold_right (fun p n => leaf_size (snd p) + n)%nat 0%nat r < k)%nat) by lia. clear Sz.
        induction r as [|p r IHr]; [constructor|]. destruct Or as [O1 O2]. cbn in B. constructor.
        - apply IH; [lia|exact O1].
        - apply IHr; [exact O2|lia]. }
      destruct (group_good c f r T) as (N & q & Sq & P); [apply IH; [lia|exact Of]|exact G|].
      exists (S N), q. split; [|exact Sq]. intros [|n] rest L; [lia|].
      cbn [show_leaf parse_leaf skip_tok]. fold (show_group c f r).
      destruct (P n [] ltac:(lia) I) as (tl & E & _). rewrite app_nil_r in E. rewrite E. reflexivity. }
  exact (H (S (leaf_size l)) l (Nat.lt_succ_diag_r _)).
Qed.

Lemma mq_good q : mq_ok q -> exists N x, sound_query x (fun m => mq_holds m q) /\ forall n tail, (N <= n)%nat -> follow tail ->
    exists tail', parse_infix n (eat_wss (show_mq q ++ tail)) = Ok (x, tail') /\ eat_wss tail' = eat_wss tail.
Proof.
  intros (T & F & R). destruct (group_good (mq_conn q) (mq_first q) (mq_rest q) T) as (N & x & S & P).
  - now apply leaf_ok_good.
  - clear T. induction (mq_rest q) as [|p r IH]; [constructor|]. destruct R as [R1 R2]. constructor; [now apply leaf_ok_good|exact (IH R2)].
  - exists N, x. split; [exact S|]. intros n tail L Fo.
    destruct (P n (wss (mq_after q) ++ tail) L) as (tl & E & W); [unfold follow; now rewrite eat_wss_app|].
    exists tl. rewrite eat_wss_app in W. split; [|exact W]. unfold show_mq. rewrite <- !app_assoc, eat_wss_app.
    assert (Z : eat_wss (show_group (mq_conn q) (mq_first q) (mq_rest q) ++ wss (mq_after q) ++ tail) = show_group (mq_conn q) (mq_first q) (mq_rest q) ++ wss (mq_after q) ++ tail).
    { unfold show_group. cbn [app]. destruct (show_leaf (mq_first q)) as [t| | | |] eqn:K; try reflexivity. pose proof (show_leaf_not_ws (mq_first q)) as W2. rewrite K in W2. cbn in *. now rewrite W2. }
    rewrite Z. exact E.
Qed.

Lemma show_mq_head q r : exists s c, eat_wss (show_mq q ++ r) = s :: c.
Proof.
  unfold show_mq. rewrite <- !app_assoc, eat_wss_app. unfold show_group. cbn [app].
  pose proof (show_leaf_not_ws (mq_first q)) as W. destruct (show_leaf (mq_first q)) as [t| | | |]; cbn in *; try rewrite W; eauto.
Qed.

(** The loop over the queries after the first. *)
Fixpoint show_tail (qs : list mq) : list sst :=
  match qs with [] => [] | q :: r => comma :: show_mq q ++ show_tail r end.
Lemma show_list_tail q qs : show_list (q :: qs) = show_mq q ++ show_tail qs.
Proof.
  revert q. induction qs as [|p qs IH]; intros q; [cbn; now rewrite app_nil_r|].
  change (show_list (q :: p :: qs)) with (show_mq q ++ comma :: show_list (p :: qs)). now rewrite IH.
Qed.
Lemma follow_tail qs : follow (show_tail qs).
Proof. destruct qs; exact I || reflexivity. Qed.
Lemma eat_tail qs : eat_wss (show_tail qs) = show_tail qs.
Proof. destruct qs; reflexivity. Qed.

Lemma comma_good qs : Forall mq_ok qs -> exists N, forall lhs P, sound_query lhs P ->
  exists x, sound_query x (fun m => P m \/ Exists (mq_holds m) qs) /\ forall n, (N <= n)%nat -> comma_loop n lhs (show_tail qs) = Ok x.
Proof.
  induction qs as [|q qs IH]; intros F.
  - exists 1%nat. intros lhs P S. exists lhs. split.
    + intros m M. rewrite (S m M). rewrite Exists_nil. tauto.
    + intros [|n] L; [lia|reflexivity].
  - inversion F as [|? ? F1 F2]; subst. destruct (IH F2) as (N & H). destruct (mq_good q F1) as (N1 & x1 & S1 & P1).
    exists (S (N + N1)). intros lhs P S.
    destruct (H (QOr lhs x1) (fun m => P m \/ mq_holds m q)) as (x & Sx & E).
    { intros m M. cbn. rewrite orb_true_iff, (S m M), (S1 m M). reflexivity. }
    exists x. split.
    + intros m M. rewrite (Sx m M), Exists_cons. tauto.
    + intros [|n] L; [lia|]. cbn [show_tail comma_loop comma t_type ttype_beq].
      destruct (P1 n (show_tail qs) ltac:(lia) (follow_tail qs)) as (tl & E1 & E2). rewrite E1. cbn [obind fst snd].
      rewrite E2, eat_tail. apply E. lia.
Qed.

Lemma list_good qs : Forall mq_ok qs -> exists N x, forall n, (N <= n)%nat -> parse_media_query n (show_list qs) = Ok x /\ sound_query x (fun m => qs = [] \/ Exists (mq_holds m) qs).
Proof.
  destruct qs as [|q qs]; intros F.
  - exists O, QNone. intros n _. split; [reflexivity|]. intros m M. cbn. tauto.
  - inversion F as [|? ? F1 F2]; subst. destruct (mq_good q F1) as (N1 & x1 & S1 & P1). destruct (comma_good qs F2) as (N & H).
    destruct (H x1 _ S1) as (x & Sx & E). exists (N + N1)%nat, x. intros n L. split.
    + rewrite show_list_tail. unfold parse_media_query. destruct (show_mq_head q (show_tail qs)) as (s & c & Hd).
      destruct (P1 n (show_tail qs) ltac:(lia) (follow_tail qs)) as (tl & E1 & E2). rewrite Hd in *. rewrite E1. cbn [obind fst snd].
      rewrite E2, eat_tail. apply E. lia.
    + intros m M. rewrite (Sx m M), Exists_cons. split; [tauto|]. intros [X|X]; [discriminate|exact X].
Qed.

(** ** The parser always ends *)

Fixpoint sst_size (s : sst) : nat :=
  match s with
  | TOK _ => 1
  | FUNC _ c | BLOCK c | DECL _ c _ => S (fold_right (fun x n => sst_size x + n) O c)
  | RULE _ p c => S (fold_right (fun x n => sst_size x + n) O p + fold_right (fun x n => sst_size x + n) O c)
  end%nat.
Definition size (c : list sst) : nat := fold_right (fun x n => sst_size x + n)%nat O c.

Lemma sst_size_pos s : (1 <= sst_size s)%nat.
Proof. destruct s; cbn; lia. Qed.
Lemma size_cons s c : size (s :: c) = (sst_size s + size c)%nat.
Proof. reflexivity. Qed.
Lemma eat_size c : (size (eat_wss c) <= size c)%nat.
Proof.
  induction c as [|[t| | | |] c IH]; try (cbn; lia). cbn [eat_wss]. destruct (ttype_beq (t_type t) WHITESPACE); [|lia].
  rewrite size_cons. cbn. lia.
Qed.
Lemma skip_size t c r : skip_tok t c = Some r -> (size r < size c)%nat.
Proof.
  destruct c as [|[t'| | | |] c]; try discriminate. cbn [skip_tok]. destruct (token_eqb t' t); [|discriminate].
  intros E. injection E as <-. rewrite size_cons. cbn. lia.
Qed.
Lemma keyword_size ks c n r : parse_keyword ks c = Some (n, r) -> (size r < size c)%nat.
Proof.
  induction ks as [|[k x] ks IH]; cbn [parse_keyword]; [discriminate|].
  destruct (skip_tok (mkT IDENT k) c) eqn:E; [|exact IH]. intros H. injection H as _ <-. now apply skip_size in E.
Qed.
Lemma value_size f c : (size (snd (parse_value f c)) <= size c)%nat.
Proof.
  unfold parse_value. destruct (fkind f).
  - destruct (parse_length c) as [[l r]|] eqn:E; cbn [snd]; [|lia]. unfold parse_length in E. destruct c as [|s c]; [discriminate|].
    destruct (skip_tok number_zero (s :: c)) eqn:K; [apply skip_size in K; injection E as _ <-; lia|].
    destruct s; try discriminate. destruct (ttype_beq _ _); [|discriminate]. destruct (dimension _) as [q u].
    rewrite size_cons. cbn. destruct (value_of_ci aunits u); [injection E as _ <-; lia|]. destruct (value_of_ci LengthModel.runits u); [injection E as _ <-; lia|discriminate].
  - unfold parse_number. destruct c as [|[t| | | |] c]; cbn [snd]; try lia. destruct (ttype_beq _ _); cbn [snd]; rewrite ?size_cons; cbn; lia.
  - unfold parse_integer. destruct c as [|[t| | | |] c]; cbn [snd]; try lia. destruct (ttype_beq _ _); cbn [snd]; rewrite ?size_cons; cbn; lia.
  - apply le_n.
  - unfold parse_integer. destruct c as [|[t| | | |] c]; cbn [snd]; try lia. destruct (ttype_beq _ _); cbn [snd]; rewrite ?size_cons; cbn; lia.
  - destruct (parse_keyword parse c) as [[n r]|] eqn:E; cbn [snd]; [apply keyword_size in E; lia|lia].
Qed.
Lemma feature_size c : (size (snd (parse_feature c)) <= size c)%nat.
Proof.
  unfold parse_feature. destruct c as [|[t| | | |] c]; cbn [snd]; try lia.
  destruct (ttype_beq (t_type t) IDENT); cbn [snd]; [|lia]. destruct (explode (t_data t)) as [p name].
  pose proof (eat_size c) as E. rewrite size_cons. cbn [sst_size].
  destruct (find_feat name) as [f|]; cbn [snd]; [|lia].
  destruct (eat_wss c) as [|[t'| | | |] c'] eqn:W; cbn [snd]; try lia.
  destruct (ttype_beq (t_type t') COLON); cbn [snd]; [|lia].
  pose proof (value_size f (eat_wss c')) as V. destruct (parse_value f (eat_wss c')) as [[v|] r]; cbn [snd] in *;
    pose proof (eat_size c'); rewrite size_cons in E; cbn in E; lia.
Qed.

(** Enough fuel: three steps for each value. The result, when there is one, has not grown. *)
Lemma parse_total n :
  (forall c, (3 * size c + 1 <= n)%nat -> parse_leaf n c <> OutOfFuel /\ forall q r, parse_leaf n c = Ok (q, r) -> (size r <= size c)%nat) /\
  (forall c, (3 * size c + 2 <= n)%nat -> parse_infix n c <> OutOfFuel /\ forall q r, parse_infix n c = Ok (q, r) -> (size r <= size c)%nat) /\
  (forall lhs c, (3 * size c + 1 <= n)%nat -> infix_loop n lhs c <> OutOfFuel /\ forall q r, infix_loop n lhs c = Ok (q, r) -> (size r <= size c)%nat).
Proof.
  induction n as [|n (IHl & IHi & IHo)]; [repeat split; intros; lia|].
  assert (Ho : forall lhs c, (3 * size c + 1 <= S n)%nat -> infix_loop (S n) lhs c <> OutOfFuel /\ forall q r, infix_loop (S n) lhs c = Ok (q, r) -> (size r <= size c)%nat).
  { intros lhs c L. cbn [infix_loop].
    assert (Step : forall s r f, skip_tok (ident s) c = Some r ->
      obind (parse_leaf n (eat_wss r)) (fun p => infix_loop n (f (fst p)) (snd p)) <> OutOfFuel /\
      forall q x, obind (parse_leaf n (eat_wss r)) (fun p => infix_loop n (f (fst p)) (snd p)) = Ok (q, x) -> (size x <= size c)%nat).
    { intros s r f K. apply skip_size in K. pose proof (eat_size r) as Er.
      destruct (IHl (eat_wss r) ltac:(lia)) as [A B]. destruct (parse_leaf n (eat_wss r)) as [[q r']| |] eqn:E; cbn [obind fst snd];
        [|split; [discriminate|discriminate]|contradiction].
      specialize (B q r' eq_refl). destruct (IHo (f q) r' ltac:(lia)) as [C D]. split; [exact C|]. intros q' x X. specialize (D q' x X). lia. }
    destruct (skip_tok (ident "and") c) as [r|] eqn:K1; [exact (Step "and"%string r (QAnd lhs) K1)|].
    destruct (skip_tok (ident "or") c) as [r|] eqn:K2; [exact (Step "or"%string r (QOr lhs) K2)|].
    split; [discriminate|]. intros q r X. injection X as _ <-. lia. }
  split; [|split; [|exact Ho]].
  - intros c L. cbn [parse_leaf].
    destruct (skip_tok (ident "not") c) as [r|] eqn:K1.
    { apply skip_size in K1. destruct (IHi r ltac:(lia)) as [A B]. unfold omap. destruct (parse_infix n r) as [[q r']| |]; cbn [obind fst snd]; [|split; discriminate|contradiction].
      split; [discriminate|]. intros q' x X. injection X as _ <-. specialize (B q r' eq_refl). lia. }
    destruct (skip_tok (ident "only") c) as [r|] eqn:K2.
    { apply skip_size in K2. destruct (IHi r ltac:(lia)) as [A B]. split; [exact A|]. intros q x X. specialize (B q x X). lia. }
    destruct c as [|s c]; [split; discriminate|].
    assert (D : match parse_keyword type_keywords (s :: c) with
                | Some (t, r) => Ok (QFeat (Discrete Ftype (Some (VEnum t))), r)
                | None => let (x, r) := parse_feature (s :: c) in Ok (QFeat x, r)
                end <> OutOfFuel /\ forall q r, match parse_keyword type_keywords (s :: c) with
                | Some (t, r) => Ok (QFeat (Discrete Ftype (Some (VEnum t))), r)
                | None => let (x, r) := parse_feature (s :: c) in Ok (QFeat x, r)
                end = Ok (q, r) -> (size r <= size (s :: c))%nat).
    { destruct (parse_keyword type_keywords (s :: c)) as [[t r]|] eqn:K.
      - apply keyword_size in K. split; [discriminate|]. intros q x X. injection X as _ <-. lia.
      - pose proof (feature_size (s :: c)) as F. destruct (parse_feature (s :: c)) as [x r]. split; [discriminate|]. intros q y X. injection X as _ <-. exact F. }
    destruct s as [t| |content| |]; try exact D.
    rewrite size_cons in *. cbn [sst_size] in *. fold (size content) in *.
    destruct (IHi content ltac:(lia)) as [A B]. unfold omap. destruct (parse_infix n content) as [[q r']| |]; cbn [obind fst snd]; [|split; discriminate|contradiction].
    split; [discriminate|]. intros q' x X. injection X as _ <-. lia.
  - intros c L. cbn [parse_infix]. destruct (IHl c ltac:(lia)) as [A B].
    destruct (parse_leaf n c) as [[q r]| |]; cbn [obind fst snd]; [|split; discriminate|contradiction].
    specialize (B q r eq_refl). pose proof (eat_size r) as Er. destruct (IHo q (eat_wss r) ltac:(lia)) as [C D].
    split; [exact C|]. intros q' x X. specialize (D q' x X). lia.
Qed.

Lemma comma_total n : forall lhs c, (3 * size c + 3 <= n)%nat -> comma_loop n lhs c <> OutOfFuel.
Proof.
  induction n as [|n IH]; intros lhs c L; [lia|]. cbn [comma_loop].
  destruct c as [|[t| | | |] c]; try discriminate. destruct (ttype_beq (t_type t) COMMA); [|discriminate].
  rewrite size_cons in L. cbn [sst_size] in L. pose proof (eat_size c) as Ec.
  destruct (parse_total n) as (_ & T & _). destruct (T (eat_wss c) ltac:(lia)) as [A B].
  destruct (parse_infix n (eat_wss c)) as [[q r]| |]; cbn [obind fst snd]; [|discriminate|contradiction].
  specialize (B q r eq_refl). pose proof (eat_size r) as Er. apply IH. lia.
Qed.

Lemma media_total n c : (3 * size c + 3 <= n)%nat -> parse_media_query n c <> OutOfFuel.
Proof.
  intros L. unfold parse_media_query. pose proof (eat_size c) as Ec. destruct (eat_wss c) as [|s r] eqn:E; [discriminate|].
  destruct (parse_total n) as (_ & T & _). destruct (T (s :: r) ltac:(lia)) as [A B].
  destruct (parse_infix n (s :: r)) as [[q x]| |]; cbn [obind fst snd]; [|discriminate|contradiction].
  specialize (B q x eq_refl). pose proof (eat_size x) as Er. apply comma_total. lia.
Qed.
