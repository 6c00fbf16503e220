(** C15, C51, C52: media queries. *)
From Coq Require Import String List NArith ZArith QArith Bool Lia Lqa.
From Verif.Base Require Import Str Outcome.
From Verif.Css Require Import LexerModel ParserModel.
From Verif.Values Require Import Number LengthModel LengthProps CalcModel.
From Verif.Style Require Import MediaModel MediaSpec MediaProofs.
Import ListNotations.
Local Open Scope list_scope.

(** * C15 *)

(** Every query list of the supported language is read, and the result is true of exactly the
    devices of which the text is: an empty list of all, otherwise those of which one of the
    queries is true. Missing from the full claim: "not", "only" and "all", a space before a
    second connective, range syntax, and the feature tests [test_ok] leaves out; for most of
    these it is false (below). *)
Theorem C15_list_partial qs : Forall mq_ok qs -> exists N q, forall n, (N <= n)%nat ->
  parse_media_query n (show_list qs) = Ok q /\
  forall m, typed_media m -> (match_query q m = true <-> qs = [] \/ Exists (mq_holds m) qs).
Proof. intros F. destruct (list_good qs F) as (N & q & H). exists N, q. exact H. Qed.
Print Assumptions C15_list_partial.

Definition w_px (a b c : Z) : wval := WLen (mkD false [a; b; c] []) PX (of_string "px").
Definition q_ex : list mq :=
  [mkMq 1 And (LType (of_string "screen")) [(1, 1, LTest 0 1 (TMin Fwidth (w_px 4 0 0)))] 0;
   mkMq 1 Or (LGroup And (LTest 0 1 (TMax Fheight (w_px 9 0 0))) [(1, 1, LType (of_string "Print"))]) [(0, 1, LTest 0 0 (TBoolean Fcolor))] 1]%nat.
Example C15_list_ex : Forall mq_ok q_ex /\ typed_media (for_print 600 800 0 1) /\
  exists q, parse_media_query 100 (show_list q_ex) = Ok q /\ match_query q (for_print 600 800 0 1) = true
    /\ match_query q (for_view 300 1000) = true /\ match_query q (fun f => if feat_beq f Fcolor then VInt 0 else for_view 300 1000 f) = false.
Proof.
  assert (D : forall a b c, (0 <= a < 10)%Z -> (0 <= b < 10)%Z -> (0 <= c < 10)%Z -> decimal_ok (mkD false [a; b; c] [])).
  { intros. split; [discriminate|]. split; repeat constructor; unfold digit_ok; cbn; lia. }
  assert (U : unit_text aunits PX (of_string "px")) by (exists (of_string "PX"); split; [cbn; tauto|reflexivity]).
  split; [|split].
  - repeat constructor; cbn; try tauto; try (apply D; lia); try exact U; try (eexists; split; [left; reflexivity|reflexivity]).
    all: try lia; try (intuition discriminate); try (exists "screen"%string; split; [cbn; tauto|reflexivity]).
  - split; [|reflexivity]. intros f. destruct f; cbn; try exact I; try lia; try (now left).
  - eexists. split; [vm_compute; reflexivity|]. repeat split; vm_compute; reflexivity.
Qed.

(** Parsed or not, a query tree is the boolean combination of its features. *)
Fixpoint tree_holds (m : media) (q : query) : Prop :=
  match q with
  | QNone => True
  | QAnd a b => tree_holds m a /\ tree_holds m b
  | QOr a b => tree_holds m a \/ tree_holds m b
  | QNot a => ~ tree_holds m a
  | QOnly a => tree_holds m a
  | QFeat x => match_feature x m = true
  end.
Theorem C15_boolean q m : match_query q m = true <-> tree_holds m q.
Proof.
  induction q as [|a IHa b IHb|a IHa b IHb|a IHa|a IHa|x]; cbn; try tauto.
  - rewrite andb_true_iff. tauto.
  - rewrite orb_true_iff. tauto.
  - rewrite <- IHa. destruct (match_query a m); cbn; split; intros; try discriminate; try reflexivity. exfalso. now apply H.
Qed.
Print Assumptions C15_boolean.

(** Bounds: inclusive ones contain the bound, exclusive ones do not. *)
Definition within_lower (b : bound) (x : Q) : Prop :=
  match b with BNone => True | BIncl v => forall y, d_number v = Some y -> y <= x | BExcl v => forall y, d_number v = Some y -> y < x end.
Definition within_upper (b : bound) (x : Q) : Prop :=
  match b with BNone => True | BIncl v => forall y, d_number v = Some y -> x <= y | BExcl v => forall y, d_number v = Some y -> x < y end.
Definition bound_typed (f : feat) (b : bound) : Prop := match b with BNone => True | BIncl v | BExcl v => typed f v end.

Lemma lt_numbers f a b x y : is_range f = true -> typed f a -> typed f b -> d_number a = Some x -> d_number b = Some y ->
  lt a b = true <-> x < y.
Proof.
  intros R A B X Y. destruct (compare_numbers f a b R A B) as (x' & y' & X' & Y' & C).
  rewrite X in X'. rewrite Y in Y'. injection X' as <-. injection Y' as <-. unfold lt. rewrite C.
  destruct (Qcompare_spec x y); split; intros; try reflexivity; try discriminate; lra.
Qed.

Theorem C15_bounds f lo hi m x : is_range f = true -> typed f (m f) -> bound_typed f lo -> bound_typed f hi ->
  (lo <> BNone \/ hi <> BNone) -> d_number (m f) = Some x ->
  (match_feature (Range f lo hi) m = true <-> within_lower lo x /\ within_upper hi x).
Proof.
  intros R T Tl Th NN X.
  assert (L : match lo with BNone => true | BIncl v => le v (m f) | BExcl v => lt v (m f) end = true <-> within_lower lo x).
  { destruct lo as [|v|v]; cbn in *; [tauto| |].
    - destruct (number_of_typed f v R Tl) as (y & Y). rewrite (le_numbers f v (m f) y x) by assumption. rewrite Y. split; [intros H z E; injection E as <-; exact H|intros H; now apply H].
    - destruct (number_of_typed f v R Tl) as (y & Y). rewrite (lt_numbers f v (m f) y x) by assumption. rewrite Y. split; [intros H z E; injection E as <-; exact H|intros H; now apply H]. }
  assert (H : match hi with BNone => true | BIncl v => le (m f) v | BExcl v => lt (m f) v end = true <-> within_upper hi x).
  { destruct hi as [|v|v]; cbn in *; [tauto| |].
    - destruct (number_of_typed f v R Th) as (y & Y). rewrite (le_numbers f (m f) v x y) by assumption. rewrite Y. split; [intros G z E; injection E as <-; exact G|intros G; now apply G].
    - destruct (number_of_typed f v R Th) as (y & Y). rewrite (lt_numbers f (m f) v x y) by assumption. rewrite Y. split; [intros G z E; injection E as <-; exact G|intros G; now apply G]. }
  rewrite <- L, <- H, <- andb_true_iff. cbn [match_feature].
  destruct lo, hi; try reflexivity. exfalso. destruct NN; congruence.
Qed.
Print Assumptions C15_bounds.
Example C15_bounds_ex : match_feature (Range Fwidth (BExcl (VLen (Abs 1 IN))) BNone) (for_view 96 100) = false
  /\ match_feature (Range Fwidth (BIncl (VLen (Abs 1 IN))) (BExcl (VLen (Abs 97 PX)))) (for_view 96 100) = true.
Proof. split; vm_compute; reflexivity. Qed.

(** ** Where the full claim is false *)

Definition plain (s : sst) : Prop :=
  not_ws s /\ skip_tok (ident "and") [s] = None /\ skip_tok (ident "or") [s] = None /\
  match s with TOK t => t_type t <> COMMA | _ => True end.

Lemma skip_one t s r : skip_tok t [s] = None -> skip_tok t (s :: r) = None.
Proof. destruct s; cbn; try reflexivity. destruct (token_eqb t0 t); [discriminate|reflexivity]. Qed.

Lemma ws_infix n k s r : (2 <= n)%nat -> plain s -> parse_infix n (wss (S k) ++ s :: r) = Ok (QFeat type_other, s :: r).
Proof.
  intros L (W & A & O & _). destruct n as [|[|n]]; try lia. cbn [parse_infix].
  assert (E : parse_leaf (S n) (wss (S k) ++ s :: r) = Ok (QFeat type_other, wss (S k) ++ s :: r)) by reflexivity.
  rewrite E. cbn [obind fst snd]. rewrite eat_wss_wss by assumption. cbn [infix_loop].
  now rewrite (skip_one _ s r A), (skip_one _ s r O).
Qed.

(** After "not" and a space, everything that follows is ignored and the query is always true. *)
Theorem C15_not_refuted k s r n : (6 <= n)%nat -> plain s ->
  exists q, parse_media_query n (id_tok (of_string "not") :: wss (S k) ++ s :: r) = Ok q /\ forall m, typed_media m -> match_query q m = true.
Proof.
  intros L P. exists (QNot (QFeat type_other)). split.
  - unfold parse_media_query. cbn [eat_wss id_tok t_type ttype_beq].
    assert (E : parse_infix n (TOK (mkT IDENT (of_string "not")) :: wss (S k) ++ s :: r) = Ok (QNot (QFeat type_other), s :: r)).
    { destruct n as [|[|n]]; try lia. cbn [parse_infix parse_leaf].
      change (skip_tok (ident "not") (TOK (mkT IDENT (of_string "not")) :: wss (S k) ++ s :: r)) with (Some (wss (S k) ++ s :: r)). cbn iota.
      rewrite ws_infix by (lia || assumption). unfold omap. cbn [obind fst snd].
      destruct P as (W & A & O & _). change (s :: r) with (wss 0 ++ s :: r) at 1. rewrite eat_wss_wss by assumption.
      cbn [infix_loop]. now rewrite (skip_one _ s r A), (skip_one _ s r O). }
    unfold id_tok. rewrite E. cbn [obind fst snd]. destruct P as (W & _ & _ & C). change (s :: r) with (wss 0 ++ s :: r). rewrite eat_wss_wss by assumption.
    destruct n as [|n]; [lia|]. cbn [comma_loop]. destruct s as [t| | | |]; try reflexivity.
    destruct (ttype_beq (t_type t) COMMA) eqn:K; [|reflexivity]. apply internal_ttype_dec_bl in K. contradiction.
  - intros m [T _]. specialize (T Ftype). cbn. unfold typed in T. cbn in T. destruct (m Ftype) as [| | | |v]; try contradiction. destruct T as [-> | ->]; reflexivity.
Qed.
Print Assumptions C15_not_refuted.
(** In particular "not print" is true of a printer. *)
Example C15_not_ex : plain (id_tok (of_string "print")) /\
  exists q, parse_media_query 10 (id_tok (of_string "not") :: wss 1 ++ [id_tok (of_string "print")]) = Ok q /\ match_query q (for_print 600 800 0 1) = true.
Proof. split; [repeat split; try reflexivity; discriminate|]. eexists. split; vm_compute; reflexivity. Qed.

(** And after "only" and a space it is always false. *)
Theorem C15_only_refuted k s r n : (6 <= n)%nat -> plain s ->
  exists q, parse_media_query n (id_tok (of_string "only") :: wss (S k) ++ s :: r) = Ok q /\ forall m, typed_media m -> match_query q m = false.
Proof.
  intros L P. exists (QFeat type_other). split.
  - unfold parse_media_query. cbn [eat_wss id_tok t_type ttype_beq].
    assert (E : parse_infix n (TOK (mkT IDENT (of_string "only")) :: wss (S k) ++ s :: r) = Ok (QFeat type_other, s :: r)).
    { destruct n as [|[|n]]; try lia. cbn [parse_infix parse_leaf].
      change (skip_tok (ident "not") (TOK (mkT IDENT (of_string "only")) :: wss (S k) ++ s :: r)) with (@None (list sst)).
      change (skip_tok (ident "only") (TOK (mkT IDENT (of_string "only")) :: wss (S k) ++ s :: r)) with (Some (wss (S k) ++ s :: r)). cbn iota.
      rewrite ws_infix by (lia || assumption). cbn [obind fst snd].
      destruct P as (W & A & O & _). change (s :: r) with (wss 0 ++ s :: r) at 1. rewrite eat_wss_wss by assumption.
      cbn [infix_loop]. now rewrite (skip_one _ s r A), (skip_one _ s r O). }
    unfold id_tok. rewrite E. cbn [obind fst snd]. destruct P as (W & _ & _ & C). change (s :: r) with (wss 0 ++ s :: r). rewrite eat_wss_wss by assumption.
    destruct n as [|n]; [lia|]. cbn [comma_loop]. destruct s as [t| | | |]; try reflexivity.
    destruct (ttype_beq (t_type t) COMMA) eqn:K; [|reflexivity]. apply internal_ttype_dec_bl in K. contradiction.
  - intros m [T _]. specialize (T Ftype). cbn. unfold typed in T. cbn in T. destruct (m Ftype) as [| | | |v]; try contradiction. destruct T as [-> | ->]; reflexivity.
Qed.
Print Assumptions C15_only_refuted.

(** "all" is true of no device. *)
Theorem C15_all_refuted m : typed_media m ->
  exists q, parse_media_query 3 [id_tok (of_string "all")] = Ok q /\ match_query q m = false /\ type_holds m (of_string "all").
Proof.
  intros [T _]. eexists. split; [reflexivity|]. split; [|now left]. specialize (T Ftype). cbn. unfold typed in T. cbn in T.
  destruct (m Ftype) as [| | | |v]; try contradiction. destruct T as [-> | ->]; reflexivity.
Qed.
Print Assumptions C15_all_refuted.

(** In "A and B and X" with spaces around the connectives, X is ignored, whatever it is. *)
Theorem C15_third_operand_refuted a b i j k l x : leaf_ok a -> leaf_ok b -> exists N q, forall n, (N <= n)%nat ->
  parse_media_query n (show_leaf a :: wss i ++ conn_tok And :: wss j ++ show_leaf b :: wss (S k) ++ conn_tok And :: wss l ++ x) = Ok q /\
  forall m, typed_media m -> (match_query q m = true <-> leaf_holds m a /\ leaf_holds m b).
Proof.
  intros A B. destruct (leaf_ok_good a A) as (N1 & q1 & P1 & S1), (leaf_ok_good b B) as (N2 & q2 & P2 & S2).
  exists (4 + N1 + N2)%nat, (QAnd q1 q2). intros n L. split; [|intros m T; cbn; now rewrite andb_true_iff, (S1 m T), (S2 m T)].
  unfold parse_media_query.
  assert (W : forall r, eat_wss (show_leaf a :: r) = show_leaf a :: r).
  { intros r. pose proof (show_leaf_not_ws a) as H. destruct (show_leaf a) as [t| | | |]; cbn in *; try reflexivity. now rewrite H. }
  rewrite W. destruct n as [|[|[|n]]]; try lia. cbn [parse_infix]. rewrite P1 by lia. cbn [obind fst snd]. rewrite eat_wss_wss by reflexivity.
  rewrite loop_step, P2 by lia. cbn [obind fst snd op_query]. cbn [infix_loop wss repeat app].
  change (skip_tok (ident "and") (TOK _ :: _)) with (@None (list sst)). change (skip_tok (ident "or") (TOK _ :: _)) with (@None (list sst)). cbn iota. cbn [obind fst snd].
  change (TOK (mkT WHITESPACE (of_string " ")) :: repeat (TOK (mkT WHITESPACE (of_string " "))) k ++ conn_tok And :: wss l ++ x) with (wss (S k) ++ conn_tok And :: wss l ++ x).
  rewrite eat_wss_wss by reflexivity. reflexivity.
Qed.
Print Assumptions C15_third_operand_refuted.

(** [(width >= 600px)]: whatever follows the name of a feature and is not a colon is ignored, and
    the feature is tested as a boolean. *)
Theorem C15_range_syntax_refuted :
  exists q, parse_media_query 10 [BLOCK [id_tok (of_string "width"); TOK (mkT WHITESPACE (of_string " ")); TOK (mkT DELIM (of_string ">")); TOK (mkT DELIM (of_string "="));
      TOK (mkT WHITESPACE (of_string " ")); show_value (w_px 6 0 0)]] = Ok q /\ match_query q (for_view 300 300) = true.
Proof. eexists. split; vm_compute; reflexivity. Qed.
Print Assumptions C15_range_syntax_refuted.

(** [(aspect-ratio: 16/9)] compares with 16. *)
Theorem C15_aspect_ratio_refuted :
  exists q, parse_media_query 10 [BLOCK [id_tok (of_string "min-aspect-ratio"); colon; TOK (mkT NUMBER (of_string "1")); TOK (mkT DELIM (of_string "/")); TOK (mkT NUMBER (of_string "2"))]] = Ok q
    /\ match_query q (for_view 200 300) = false.
Proof. eexists. split; vm_compute; reflexivity. Qed.
Print Assumptions C15_aspect_ratio_refuted.

(** The boolean forms of features without a "none" keyword depend on the first enumerator:
    [(color-gamut)] is false of every device the program makes. *)
Theorem C15_color_gamut_refuted w h o s r u : exists q, parse_media_query 10 [BLOCK [id_tok (of_string "color-gamut")]] = Ok q /\
  match_query q (for_print w h o s) = false /\ match_query q (for_render w h r u) = false /\ match_query q (for_view w h) = false.
Proof. eexists. split; [vm_compute; reflexivity|]. repeat split; reflexivity. Qed.
Print Assumptions C15_color_gamut_refuted.

(** * C51: reading a media query ends and does not crash *)

(** The parser ends on every input. *)
Theorem C51_terminates c : exists N, forall n, (N <= n)%nat -> parse_media_query n c <> OutOfFuel.
Proof. exists (3 * size c + 3)%nat. intros n L. now apply media_total. Qed.
Print Assumptions C51_terminates.

(** It does not crash on the supported language. *)
Theorem C51_no_crash_partial qs : Forall mq_ok qs -> exists N, forall n, (N <= n)%nat -> exists q, parse_media_query n (show_list qs) = Ok q.
Proof. intros F. destruct (list_good qs F) as (N & q & H). exists N. intros n L. exists q. now apply H. Qed.
Print Assumptions C51_no_crash_partial.

(** But it does on [()], "print and", "print," and "not". *)
Theorem C51_crash_refuted n : (6 <= n)%nat ->
  parse_media_query n [BLOCK []] = Panic /\
  parse_media_query n (id_tok (of_string "print") :: wss 1 ++ [conn_tok And]) = Panic /\
  parse_media_query n [id_tok (of_string "print"); comma] = Panic /\
  parse_media_query n [id_tok (of_string "not")] = Panic.
Proof. intros L. do 6 (destruct n as [|n]; [lia|]). repeat split; reflexivity. Qed.
Print Assumptions C51_crash_refuted.

(** * C52: the medium describes the output *)

(** Printing is the medium "print", never "screen"; rendering and viewing are "screen". *)
Theorem C52_media_type w h o s r u : 
  (type_holds (for_print w h o s) (of_string "print") /\ ~ type_holds (for_print w h o s) (of_string "screen")) /\
  (type_holds (for_render w h r u) (of_string "screen") /\ ~ type_holds (for_render w h r u) (of_string "print")) /\
  (type_holds (for_view w h) (of_string "screen") /\ ~ type_holds (for_view w h) (of_string "print")).
Proof. unfold type_holds. cbn. intuition discriminate. Qed.
Print Assumptions C52_media_type.

(** Size tests are tests of the page or viewport size. *)
Theorem C52_size w h o s t : test_ok (TMin Fwidth t) -> 0 < s -> (o < 2)%nat ->
  exists N q, (forall n, (N <= n)%nat -> parse_media_query n (show_list [mkMq 0 And (LTest 0 1 (TMin Fwidth t)) [] 0]) = Ok q) /\
    forall x, w_number t = Some x -> (match_query q (for_print w h o s) = true <-> x <= w).
Proof.
  intros O S Ho. destruct (C15_list_partial [mkMq 0 And (LTest 0 1 (TMin Fwidth t)) [] 0]) as (N & q & H).
  { constructor; [|constructor]. cbn. split; [constructor|]. split; [exact O|exact I]. }
  exists N, q. split; [intros n L; now apply H|]. intros x X. destruct (H N (le_n _)) as [_ G].
  rewrite (G (for_print w h o s)).
  - rewrite Exists_cons, Exists_nil. cbn. rewrite X. split.
    + intros [Z|[[[x0 [y [E1 [E2 L]]]] _]|Z]]; [discriminate| |contradiction]. injection E1 as <-. injection E2 as <-. exact L.
    + intros L. right. left. split; [|exact I]. exists w, x. repeat split. exact L.
  - split; [|exact S]. intros f. destruct f; cbn; try exact I; try lia; try (now left).
Qed.
Print Assumptions C52_size.

(** The orientation is not that of the viewport: a 100 by 200 view is landscape, a 200 by 100 render
    portrait; and printed pages claim to be scrolled, not paged. *)
Theorem C52_orientation_refuted :
  ~ test_holds (for_view 100 200) (TEq Forientation (WKw (of_string "portrait"))) /\
  ~ test_holds (for_render 200 100 96 DPI) (TEq Forientation (WKw (of_string "landscape"))) /\
  ~ test_holds (for_print 600 800 0 1) (TEq Foverflow_block (WKw (of_string "paged"))).
Proof. cbn. repeat split; intros (k & E1 & E2); injection E1 as <-; discriminate E2. Qed.
Print Assumptions C52_orientation_refuted.
