(** Lemmas for ClipProps.v: shapes *)
From Coq Require Import String List NArith ZArith QArith Qminmax Qabs Bool Lia Lqa Setoid.
From Verif.Base Require Import Str.
From Verif.Css Require Import LexerModel ParserModel.
From Verif.Values Require Import Number LengthModel CalcModel ColorModel ColorSpec ColorProofs.
From Verif.Transform Require Import TransformModel TransformSpec TransformProofs TransformProofs2.
From Verif.Clip Require Import ClipModel ClipSpec ClipProofs.
Import ListNotations.
Local Open Scope list_scope.
Local Open Scope Q_scope.

(** ** Reading *)
Lemma middle_placed : placed middle Middle Middle.
Proof. split; reflexivity. Qed.
Lemma at_reads h v b a : at_text h v a -> blank b -> exists p, at_position (b ++ a) = Some p /\ placed p h v.
Proof.
  intros T B. unfold at_position. rewrite (eat_blank b a B). destruct T as [|h v s b' ws l A B' W Oh Ov Ord Sp].
  - exists middle. split; [reflexivity|exact middle_placed].
  - rewrite (eat_solid s _ (spells_solid "at" s A)), (spells_skip "at" "at" s _ A).
    change (eq_ci (of_string "at") (of_string "at")) with true. cbn beta iota. rewrite (eat_blank b' l B').
    rewrite (spaced_eat ws l Sp (words_solid h v ws W)). destruct (position_read h v ws l W Oh Ov Ord Sp) as (p & E & P).
    rewrite E. exists p. split; [reflexivity|exact P].
Qed.

Definition radius_for (r : wradius) (x : radius) : Prop :=
  match r with
  | RDefault | RClosest => x = CLOSEST
  | RFarthest => x = FARTHEST
  | RLength w => exists v, x = Radius v /\ forall whole, exists q, len v whole = Some q /\ q == length_of w whole
  end.
Lemma blank_lengths b s r : blank (s :: b) -> lengths (s :: r) = None.
Proof. inversion 1 as [|? ? [d ->] _]; subst. reflexivity. Qed.
Lemma at_no_radius h v b a : at_text h v a -> blank b -> read_radius (b ++ a) = None.
Proof.
  intros T B. destruct B as [|s b [d ->] B]; [|reflexivity]. destruct T as [|h v s b' ws l A B' W Oh Ov Ord Sp]; [reflexivity|].
  cbn [app]. unfold read_radius. rewrite (spells_lengths "at" s _ A), (spells_keyword "at" s _ _ A). reflexivity.
Qed.
Lemma radius_reads r l rest : radius_text r l -> wradius_ok r -> l <> [] -> exists x s, l = [s] /\ solid s = true /\ read_radius (s :: rest) = Some (x, rest) /\ radius_for r x.
Proof.
  intros T O N. destruct T as [|s S|s S|w]; [congruence| | |].
  - exists CLOSEST, s. split; [reflexivity|]. split; [now apply (spells_solid "closest-side")|]. split; [|reflexivity].
    unfold read_radius. now rewrite (spells_lengths _ s _ S), (spells_keyword _ s _ _ S).
  - exists FARTHEST, s. split; [reflexivity|]. split; [now apply (spells_solid "farthest-side")|]. split; [|reflexivity].
    unfold read_radius. now rewrite (spells_lengths _ s _ S), (spells_keyword _ s _ _ S).
  - destruct (len_reads w O) as (v & [So Re] & V). exists (Radius v), (len_sst w). split; [reflexivity|]. split; [exact So|].
    split; [unfold read_radius; now rewrite Re|]. exists v. split; [reflexivity|exact V].
Qed.
Lemma circle_reads {Pa R : Type} r h v l b a : radius_text r l -> wradius_ok r -> blank b -> at_text h v a ->
  exists x p, circle_of (l ++ b ++ a) = Some (@Circle Pa R x p) /\ radius_for r x /\ placed p h v.
Proof.
  intros T O B A. destruct (at_reads h v b a A B) as (p & E & P). destruct l as [|s0 l].
  - inversion T; subst. exists CLOSEST, p. split; [|split; [reflexivity|exact P]]. cbn [app]. unfold circle_of.
    rewrite (at_no_radius h v b a A B), E. reflexivity.
  - destruct (radius_reads r (s0 :: l) (b ++ a) T O) as (x & s & El & _ & Re & F); [discriminate|]. rewrite El. cbn [app].
    exists x, p. split; [|split; assumption]. unfold circle_of. rewrite Re, E. reflexivity.
Qed.
Lemma ellipse_reads {Pa R : Type} rx ry h v l l' b b' a : radius_text rx l -> radius_text ry l' -> (l = [] <-> l' = []) ->
  wradius_ok rx -> wradius_ok ry -> blank b -> blank b' -> at_text h v a ->
  exists x y p, ellipse_of (l ++ b ++ l' ++ b' ++ a) = Some (@Ellipse Pa R x y p) /\ radius_for rx x /\ radius_for ry y /\ placed p h v.
Proof.
  intros Tx Ty L Ox Oy B B' A. destruct (at_reads h v b' a A B') as (p & E & P). destruct l as [|s0 l].
  - destruct L as [L _]. rewrite (L eq_refl) in *. inversion Tx; inversion Ty; subst. exists CLOSEST, CLOSEST, p. split; [|repeat split; apply P].
    cbn [app]. unfold ellipse_of. assert (BB : blank (b ++ b')) by (apply Forall_app; split; assumption).
    rewrite app_assoc. rewrite (at_no_radius h v (b ++ b') a A BB).
    destruct (at_reads h v (b ++ b') a A BB) as (p' & E' & _). rewrite E'. unfold at_position in E, E'.
    rewrite <- app_assoc, (eat_blank b _ B) in E'. rewrite E in E'. injection E' as <-. reflexivity.
  - destruct l' as [|s1 l']; [destruct L as [_ L]; discriminate (L eq_refl)|].
    destruct (radius_reads rx (s0 :: l) (b ++ (s1 :: l') ++ b' ++ a) Tx Ox) as (x & s & El & _ & Re & F); [discriminate|].
    destruct (radius_reads ry (s1 :: l') (b' ++ a) Ty Oy) as (y & t & El' & So & Re' & F'); [discriminate|].
    exists x, y, p. split; [|repeat split; try assumption; apply P]. rewrite El in *. cbn [app]. unfold ellipse_of.
    change (s1 :: l' ++ b' ++ a) with ((s1 :: l') ++ b' ++ a). rewrite Re, (eat_blank b _ B), El'. cbn [app]. rewrite (eat_solid t _ So), Re', E. reflexivity.
Qed.

(** ** Distances *)
Lemma square_bound a b q : a * a + b * b <= q * q -> 0 <= q -> - q <= a /\ a <= q.
Proof. intros H Q. split; nra. Qed.
Lemma disc_bound c q p : in_disc c q p -> 0 <= q -> - q <= fst p - fst c <= q /\ - q <= snd p - snd c <= q.
Proof.
  unfold in_disc. intros H Q. split; [exact (square_bound _ _ _ H Q)|]. apply (square_bound _ (fst p - fst c)); [|exact Q].
  rewrite Qplus_comm. exact H.
Qed.
Lemma ellipse_bound c rx ry p : in_ellipse c rx ry p -> 0 < rx -> 0 < ry -> - rx <= fst p - fst c <= rx /\ - ry <= snd p - snd c <= ry.
Proof.
  unfold in_ellipse. set (dx := fst p - fst c). set (dy := snd p - snd c). intros H X Y.
  assert (XY : 0 < rx * ry) by nra.
  destruct (square_bound (dx * ry) (dy * rx) (rx * ry) H) as [A B]; [nra|].
  destruct (square_bound (dy * rx) (dx * ry) (rx * ry)) as [C D]; [rewrite Qplus_comm; exact H|nra|].
  repeat split; nra.
Qed.

Lemma min4_spec a b c d : let m := min4 a b c d in m <= a /\ m <= b /\ m <= c /\ m <= d /\ (m == a \/ m == b \/ m == c \/ m == d).
Proof.
  unfold min4. cbn zeta.
  destruct (Q.min_spec a b) as [[? E1]|[? E1]]; destruct (Q.min_spec c d) as [[? E2]|[? E2]];
    destruct (Q.min_spec (Qmin a b) (Qmin c d)) as [[? E]|[? E]]; rewrite E, ?E1, ?E2 in *;
    repeat split; try lra; (left; lra) || (right; left; lra) || (right; right; left; lra) || (right; right; right; lra).
Qed.
Lemma max4_spec a b c d : let m := max4 a b c d in a <= m /\ b <= m /\ c <= m /\ d <= m /\ (m == a \/ m == b \/ m == c \/ m == d).
Proof.
  unfold max4. cbn zeta.
  destruct (Q.max_spec a b) as [[? E1]|[? E1]]; destruct (Q.max_spec c d) as [[? E2]|[? E2]];
    destruct (Q.max_spec (Qmax a b) (Qmax c d)) as [[? E]|[? E]]; rewrite E, ?E1, ?E2 in *;
    repeat split; try lra; (left; lra) || (right; left; lra) || (right; right; left; lra) || (right; right; right; lra).
Qed.

(** ** Rectangles *)
Lemma rounded_blank {R : Type} (rr : reader R) (sharp : R) b : blank b -> rounded rr sharp b = Some sharp.
Proof. intros B. unfold rounded. rewrite (eat_blank_nil b B). reflexivity. Qed.

(** A side of [rect()]: [None] is [auto]. *)
Inductive side_text : option wlen -> sst -> Prop :=
| side_auto s : spells "auto" s -> side_text None s
| side_length w : side_text (Some w) (len_sst w).
Definition side_ok (w : option wlen) : Prop := match w with Some w => wlen_ok w | None => True end.
(** Its distance from the top or the left, where [auto] is at [auto] percent *)
Definition side_of (auto : Q) (w : option wlen) (whole : Q) : Q := match w with Some w => length_of w whole | None => auto * whole / 100 end.
Lemma side_reads a w s : side_text w s -> side_ok w -> exists v, (forall b r, blank b -> read_side (CPlain (OT (Percent a))) (b ++ s :: r) = Some (v, r)) /\
  forall whole, exists q, len v whole = Some q /\ q == side_of a w whole.
Proof.
  intros T O. destruct T as [s S|w].
  - exists (CPlain (OT (Percent a))). split.
    + intros b r B. unfold read_side. rewrite (eat_blank b _ B), (eat_solid s _ (spells_solid _ s S)), (spells_keyword "auto" s _ _ S). reflexivity.
    + intros whole. eexists. split; [reflexivity|]. cbn. field.
  - destruct (len_reads w O) as (v & [So Re] & V). exists v. split; [|exact V].
    intros b r B. unfold read_side. now rewrite (eat_blank b _ B), (eat_solid _ _ So), keyword_not, Re.
Qed.
Lemma eat_length b w r : blank b -> eat_wss (b ++ len_sst w :: r) = len_sst w :: r.
Proof. intros B. rewrite (eat_blank b _ B). apply eat_solid. apply len_solid. Qed.

(** ** What follows *)

(** A component that is no white space, no word and no length, such as a comma, a string or a delimiter *)
Definition foreign (x : sst) : Prop :=
  exists t, x = TOK t /\ ~ In (t_type t) [WHITESPACE; IDENT; NUMBER; PERCENTAGE; DIMENSION].
(** A reader that takes exactly one component *)
Definition takes_one {X} (p : reader X) : Prop := forall c v r, p c = Some (v, r) -> exists s, c = s :: r.
Lemma skip_one t c r : skip_tok t c = Some r -> exists s, c = s :: r.
Proof. destruct c as [|[t'|u v|u|u v w|u v w] c]; cbn [skip_tok]; try discriminate. destruct (token_eqb t' t); [|discriminate]. intros E. injection E as <-. eauto. Qed.
Lemma keyword_one {X} (l : list (string * X)) : takes_one (read_keyword l).
Proof.
  induction l as [|[k a] l IH]; intros c v r; cbn [read_keyword]; [discriminate|]. destruct (skip_tok (ident k) c) as [r'|] eqn:E; [|apply IH].
  intros H. injection H as _ <-. exact (skip_one _ _ _ E).
Qed.
Lemma percent_or_one : takes_one parse_percent_or.
Proof.
  intros c v r. unfold parse_percent_or. destruct c as [|s c]; [discriminate|]. destruct (parse_percent (s :: c)) as [[q r']|] eqn:E.
  - intros H. injection H as _ <-. unfold parse_percent in E. destruct s as [t|? ?|?|? ? ?|? ? ?]; try discriminate E. destruct (ttype_beq (t_type t) PERCENTAGE); [|discriminate E]. injection E as _ <-. eauto.
  - destruct (parse_length (s :: c)) as [[q r']|] eqn:E'; [|discriminate]. intros H. injection H as _ <-. unfold parse_length in E'.
    destruct (skip_tok number_zero (s :: c)) as [r2|] eqn:Es; [injection E' as _ <-; exact (skip_one _ _ _ Es)|].
    destruct s as [t|? ?|?|? ? ?|? ? ?]; try discriminate E'. destruct (ttype_beq (t_type t) DIMENSION); [|discriminate E']. destruct (dimension (t_data t)) as [q' u].
    destruct (value_of_ci aunits u); [injection E' as _ <-; eauto|]. destruct (value_of_ci runits u); [injection E' as _ <-; eauto|discriminate E'].
Qed.
Lemma lengths_one : takes_one lengths.
Proof.
  intros c v r. unfold lengths, read_calc. cbn zeta.
  assert (Pl : match parse_percent_or c with Some (a, r0) => Some (CPlain (OT a), r0) | None => None end = Some (v, r) -> exists s, c = s :: r).
  { destruct (parse_percent_or c) as [[a r0]|] eqn:E; [|discriminate]. intros H. injection H as _ <-. exact (percent_or_one c a r0 E). }
  destruct c as [|s c]; [exact Pl|]. destruct s as [t|name content|?|? ? ?|? ? ?]; try exact Pl. destruct (str_eqb (t_data name) (of_string "calc(")); [|exact Pl].
  destruct (read_operand parse_percent_or content) as [[l c1]|]; [|discriminate]. destruct (parse_op c1) as [[o c2]|].
  - destruct (read_operand parse_percent_or (eat_wss c2)) as [[x y]|]; [|discriminate]. intros H. injection H as _ <-. eauto.
  - intros H. injection H as _ <-. eauto.
Qed.
Lemma radius_one : takes_one read_radius.
Proof.
  intros c v r. unfold read_radius. destruct (lengths c) as [[x r']|] eqn:E; [intros H; injection H as _ <-; exact (lengths_one c x r' E)|]. apply keyword_one.
Qed.
Lemma item_one : takes_one read_item.
Proof.
  intros c v r. unfold read_item. destruct (read_keyword _ c) as [[x r']|] eqn:E; [intros H; injection H as _ <-; exact (keyword_one _ c x r' E)|].
  destruct (lengths c) as [[x r']|] eqn:E'; [|discriminate]. intros H. injection H as _ <-. exact (lengths_one c x r' E').
Qed.
Lemma foreign_skip x k r : foreign x -> skip_tok (ident k) (x :: r) = None.
Proof.
  intros (t & -> & N). cbn [skip_tok]. unfold token_eqb. cbn [ident t_type]. destruct (t_type t); try reflexivity. exfalso. apply N. cbn. tauto.
Qed.
Lemma foreign_keyword {X} x (l : list (string * X)) r : foreign x -> read_keyword l (x :: r) = None.
Proof. intros F. induction l as [|[k a] l IH]; cbn [read_keyword]; [reflexivity|]. now rewrite (foreign_skip x k r F). Qed.
Lemma foreign_lengths x r : foreign x -> lengths (x :: r) = None.
Proof.
  intros (t & -> & N). unfold lengths, read_calc, parse_percent_or, parse_percent, parse_length, skip_tok, token_eqb, number_zero. cbn [t_type].
  destruct (t_type t); try reflexivity; exfalso; apply N; cbn; tauto.
Qed.
Lemma foreign_eat x : foreign x -> forall c, exists c', eat_wss (c ++ [x]) = c' ++ [x].
Proof.
  intros (t & -> & N). induction c as [|s c [c' IH]]; cbn [app eat_wss].
  - exists []. destruct (t_type t); try reflexivity. exfalso. apply N. cbn. tauto.
  - destruct s as [u|? ?|?|? ? ?|? ? ?]; [destruct (ttype_beq (t_type u) WHITESPACE); [eauto|]| | | |]; eexists (_ :: c); reflexivity.
Qed.
(** Such a reader does not get past a last component that it does not take. *)
Lemma foreign_stays {X} (p : reader X) x c v r : takes_one p -> p [x] = None -> p (c ++ [x]) = Some (v, r) -> exists c', r = c' ++ [x].
Proof.
  intros O N H. destruct (O _ _ _ H) as [s E]. destruct c as [|s' c]; [cbn [app] in H; congruence|]. injection E as _ <-. eauto.
Qed.
Lemma foreign_items x : foreign x -> forall n c, exists l c', read_items n (c ++ [x]) = (l, c' ++ [x]).
Proof.
  intros F. induction n as [|n IH]; intros c; [exists [], c; destruct c; reflexivity|].
  assert (U : read_items (S n) (c ++ [x]) = match read_item (eat_wss (c ++ [x])) with Some (i, c1) => let '(l, c2) := read_items n (eat_wss c1) in (i :: l, c2) | None => ([], eat_wss (c ++ [x])) end)
    by (destruct c; reflexivity).
  rewrite U. destruct (foreign_eat x F c) as [c1 E1]. rewrite E1. destruct (read_item (c1 ++ [x])) as [[i r]|] eqn:Ei; [|exists [], c1; reflexivity].
  destruct (foreign_stays read_item x c1 i r item_one) as [c2 ->]; [unfold read_item; now rewrite (foreign_keyword x _ [] F), (foreign_lengths x [] F)|exact Ei|].
  destruct (foreign_eat x F c2) as [c3 E3]. rewrite E3. destruct (IH c3) as (l & c4 & E4). rewrite E4. eauto.
Qed.
Lemma foreign_at x c : foreign x -> at_position (c ++ [x]) = None.
Proof.
  intros F. unfold at_position. destruct (foreign_eat x F c) as [c1 E1]. rewrite E1.
  destruct (skip_tok (ident "at") (c1 ++ [x])) as [r|] eqn:Es; [|destruct c1; reflexivity].
  destruct (skip_one _ _ _ Es) as [s E]. destruct c1 as [|s' c1]; [cbn [app] in Es; rewrite (foreign_skip x "at" [] F) in Es; discriminate Es|].
  injection E as _ <-. destruct (foreign_eat x F c1) as [c2 E2]. rewrite E2. unfold read_position. destruct (foreign_items x F 4 c2) as (l & c3 & E3). rewrite E3.
  destruct (foreign_eat x F c3) as [c4 E4]. rewrite E4. destruct c4; reflexivity.
Qed.
Lemma foreign_radius x : foreign x -> read_radius [x] = None.
Proof. intros F. unfold read_radius. now rewrite (foreign_lengths x [] F), (foreign_keyword x _ [] F). Qed.
