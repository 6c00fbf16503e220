(** C17: calc(). *)
From Coq Require Import String List NArith ZArith QArith Bool Lia Lqa.
From Verif.Base Require Import Str.
From Verif.Css Require Import LexerModel ParserModel.
From Verif.Values Require Import Number LengthModel LengthSpec LengthProps CalcModel.
Import ListNotations.
Local Open Scope list_scope.
Local Open Scope Q_scope.

(** * What an author writes, and what it means *)

(** An operand as written: a number, a percentage, or a number with a unit. *)
Inductive operand := ONum (d : decimal) | OPct (d : decimal) | OAbs (d : decimal) (u : aunit) (s : str) | ORel (d : decimal) (u : runit) (s : str).
(** A calc() expression: CSS Values 10.1. *)
Inductive expr := Operand (o : operand) | Op (o : op) (a b : expr).

Definition operand_ok (o : operand) : Prop :=
  match o with
  | ONum d | OPct d => decimal_ok d
  | OAbs d u s => decimal_ok d /\ unit_text aunits u s
  | ORel d u s => decimal_ok d /\ unit_text runits u s
  end.
(** The pixels (or plain number) an operand stands for. Units: see C16. *)
Definition operand_value (o : operand) (c : ctx) (rel : Q) : Q :=
  match o with
  | ONum d => decimal_value d
  | OPct d => decimal_value d * rel / 100
  | OAbs d u _ => pixels (decimal_value d) u
  | ORel d u _ => resolve_rel (fun x => x) (decimal_value d) u c
  end.
(** The arithmetic value of the whole expression, when no division by zero occurs. *)
Inductive value_is (c : ctx) (rel : Q) : expr -> Q -> Prop :=
| vi_operand o q : q == operand_value o c rel -> value_is c rel (Operand o) q
| vi_add a b x y q : value_is c rel a x -> value_is c rel b y -> q == x + y -> value_is c rel (Op ADD a b) q
| vi_sub a b x y q : value_is c rel a x -> value_is c rel b y -> q == x - y -> value_is c rel (Op SUBTRACT a b) q
| vi_mul a b x y q : value_is c rel a x -> value_is c rel b y -> q == x * y -> value_is c rel (Op MULTIPLY a b) q
| vi_div a b x y q : value_is c rel a x -> value_is c rel b y -> ~ y == 0 -> q * y == x -> value_is c rel (Op DIVIDE a b) q.

Definition show_operand (o : operand) : sst :=
  match o with
  | ONum d => TOK (mkT NUMBER (show_decimal d))
  | OPct d => TOK (mkT PERCENTAGE (show_decimal d ++ of_string "%"))
  | OAbs d _ s | ORel d _ s => dim d s
  end.
Definition ws : sst := TOK (mkT WHITESPACE (of_string " ")).
Definition show_op (o : op) : sst :=
  TOK (mkT DELIM (of_string (match o with ADD => "+" | SUBTRACT => "-" | MULTIPLY => "*" | DIVIDE => "/" end))).
(** Left to right with a space around each operator, as an author writes a chain of operands. *)
Fixpoint show_chain (e : expr) : list sst :=
  match e with
  | Operand o => [show_operand o]
  | Op o a b => show_chain a ++ [ws; show_op o; ws] ++ show_chain b
  end.
Definition calc_of (content : list sst) : sst := FUNC (mkT FUNCTION (of_string "calc(")) content.

(** * Proofs *)

Definition value_denotes (v : value) (o : operand) : Prop :=
  forall c rel, exists q, resolve_value v c rel = Some q /\ q == operand_value o c rel.

Lemma resolve_rel_ext v w u c : v == w -> resolve_rel (fun x => x) v u c == resolve_rel (fun x => x) w u c.
Proof. intros E. destruct u; cbn [resolve_rel]; try destruct (cx_horizontal c); cbn [negb]; rewrite E; reflexivity. Qed.
Lemma pixels_ext v w u : v == w -> pixels v u == pixels w u.
Proof. intros E. destruct u; cbn [pixels]; rewrite E; reflexivity. Qed.

Lemma parse_val_show o r : operand_ok o -> exists v, parse_val (show_operand o :: r) = Some (v, r) /\ value_denotes v o.
Proof.
  destruct o as [d|d|d u s|d u s]; cbn [operand_ok show_operand].
  - intros O. destruct (atof_show d [] O I) as (q & E & V). rewrite app_nil_r in E.
    exists (VNum q). split; [|intros c rel; exists q; split; [reflexivity|exact V]].
    unfold parse_val. cbn. now rewrite E.
  - intros O. destruct (atof_show d (of_string "%") O) as (q & E & V); [split; [reflexivity|discriminate]|].
    exists (VT (Percent q)). split.
    + unfold parse_val, parse_percent_or, parse_percent. cbn [t_type t_data ttype_beq]. now rewrite E.
    + intros c rel. eexists. split; [reflexivity|]. cbn. rewrite V. field.
  - intros [O T]. destruct (C16_parse_absolute d u s r O T) as (q & E & V).
    exists (VT (Len (Abs q u))). split.
    + unfold parse_val, parse_percent_or, parse_percent. cbn [dim t_type ttype_beq].
      change (TOK (mkT DIMENSION (show_decimal d ++ s)) :: r) with (dim d s :: r). now rewrite E.
    + intros c rel. eexists. split; [reflexivity|]. cbn. now apply pixels_ext.
  - intros [O T]. destruct (C16_parse_relative d u s r O T) as (q & E & V).
    exists (VT (Len (Rel q u))). split.
    + unfold parse_val, parse_percent_or, parse_percent. cbn [dim t_type ttype_beq].
      change (TOK (mkT DIMENSION (show_decimal d ++ s)) :: r) with (dim d s :: r). now rewrite E.
    + intros c rel. eexists. split; [reflexivity|]. cbn. now apply resolve_rel_ext.
Qed.

Lemma parse_val_head x r r' v v' : parse_val (x :: r) = Some (v, r) -> parse_val (x :: r') = Some (v', r') -> v = v'.
Proof.
  unfold parse_val, parse_number, parse_percent_or, parse_percent, parse_length, skip_tok.
  destruct x as [t| | | |]; try discriminate.
  destruct (ttype_beq (t_type t) NUMBER); [destruct (atof (t_data t)) as [[q ?]|]; congruence|].
  destruct (ttype_beq (t_type t) PERCENTAGE); [congruence|].
  destruct (token_eqb t number_zero); [congruence|].
  destruct (ttype_beq (t_type t) DIMENSION); [|congruence].
  destruct (dimension (t_data t)) as [q u]. destruct (value_of_ci aunits u); [congruence|].
  destruct (value_of_ci runits u); congruence.
Qed.

Lemma parse_op_show o r : parse_op (ws :: show_op o :: r) = Some (o, r).
Proof. destruct o; reflexivity. Qed.

Lemma show_operand_not_ws o : eat_wss (show_operand o :: []) = [show_operand o].
Proof. destruct o; reflexivity. Qed.
Lemma eat_ws_operand o r : eat_wss (ws :: show_operand o :: r) = show_operand o :: r.
Proof. destruct o; reflexivity. Qed.

Lemma parse_two o a b rest tail : operand_ok a -> operand_ok b ->
  exists va vb, parse_calc (calc_of (show_operand a :: ws :: show_op o :: ws :: show_operand b :: tail) :: rest) = Some (Binary o va vb, rest)
    /\ value_denotes va a /\ value_denotes vb b.
Proof.
  intros A B.
  destruct (parse_val_show a (ws :: show_op o :: ws :: show_operand b :: tail) A) as (va & Ea & Da).
  destruct (parse_val_show b tail B) as (vb & Eb & Db).
  exists va, vb. split; [|split; assumption]. unfold parse_calc, calc_of. cbn [t_data]. rewrite str_eqb_refl, Ea, parse_op_show, eat_ws_operand, Eb. reflexivity.
Qed.

Lemma value_two o a b va vb c rel q : value_denotes va a -> value_denotes vb b ->
  (value_is c rel (Op o (Operand a) (Operand b)) q <-> exists q', resolve_calc (Binary o va vb) c rel = Some q' /\ q == q').
Proof.
  intros Da Db. destruct (Da c rel) as (x & Ex & Vx), (Db c rel) as (y & Ey & Vy).
  cbn [resolve_calc]. rewrite Ex, Ey. split.
  - intros H. inversion H as [|? ? x' y' ? Ha Hb E|? ? x' y' ? Ha Hb E|? ? x' y' ? Ha Hb E|? ? x' y' ? Ha Hb Z E]; subst;
      inversion Ha as [? ? Hx| | | |]; subst; inversion Hb as [? ? Hy| | | |]; subst; cbn [resolve_infix].
    1-3: eexists; split; [reflexivity|]; rewrite E, Hx, Hy, <- Vx, <- Vy; reflexivity.
    destruct (Qeq_bool y 0) eqn:Q0.
    + exfalso. apply Qeq_bool_iff in Q0. apply Z. now rewrite Hy, <- Vy.
    + eexists. split; [reflexivity|]. apply Qeq_bool_neq in Q0. rewrite Vx, <- Hx, <- E, Hy, <- Vy. field. assumption.
  - intros (q' & R & E). destruct o; cbn [resolve_infix] in R.
    1-3: injection R as <-; econstructor; [constructor; reflexivity|constructor; reflexivity|]; rewrite E, Vx, Vy; reflexivity.
    destruct (Qeq_bool y 0) eqn:Q0; [discriminate|]. apply Qeq_bool_neq in Q0. injection R as <-.
    apply (vi_div c rel (Operand a) (Operand b) x y); [now constructor|now constructor|assumption|]. rewrite E. field. assumption.
Qed.

(** * Theorems *)

(** calc() of one operand, or of two operands with an operator, is read completely and resolves
    to its arithmetic value in every context; it has no value exactly when it divides by
    zero. Missing: longer chains, parentheses and nested calc(), for which the claim is
    false (below). *)
Theorem C17_single_partial a c rel rest : operand_ok a ->
  exists k q, parse_calc (calc_of (show_chain (Operand a)) :: rest) = Some (k, rest)
    /\ resolve_calc k c rel = Some q /\ value_is c rel (Operand a) q.
Proof.
  intros A. destruct (parse_val_show a [] A) as (va & Ea & Da). destruct (Da c rel) as (q & E & V).
  exists (Val va), q. split; [|split; [exact E|now constructor]]. unfold parse_calc, calc_of. cbn [t_data show_chain]. rewrite str_eqb_refl, Ea. reflexivity.
Qed.
Print Assumptions C17_single_partial.

Theorem C17_binary_partial o a b c rel rest : operand_ok a -> operand_ok b ->
  exists k, parse_calc (calc_of (show_chain (Op o (Operand a) (Operand b))) :: rest) = Some (k, rest)
    /\ forall q, value_is c rel (Op o (Operand a) (Operand b)) q <-> exists q', resolve_calc k c rel = Some q' /\ q == q'.
Proof.
  intros A B. destruct (parse_two o a b rest [] A B) as (va & vb & E & Da & Db).
  exists (Binary o va vb). split; [exact E|]. intros q. now apply value_two.
Qed.
Print Assumptions C17_binary_partial.

Definition px (n : Z) : operand := OAbs (mkD false [n] []) PX (of_string "px").
Lemma px_ok n : (0 <= n < 10)%Z -> operand_ok (px n).
Proof.
  intros H. split.
  - split; [discriminate|]. split; repeat constructor; unfold digit_ok; lia.
  - exists (of_string "PX"). split; [cbn; tauto|reflexivity].
Qed.
Example C17_ex : operand_ok (px 6) /\ operand_ok (ONum (mkD false [2%Z] [])) /\
  exists k, parse_calc [calc_of (show_chain (Op MULTIPLY (Operand (px 6)) (Operand (ONum (mkD false [2%Z] [])))))] = Some (k, []) /\
    exists q, resolve_calc k ctx_ex 0 = Some q /\ q == 12.
Proof.
  split; [apply px_ok; lia|]. split; [split; [discriminate|]; split; repeat constructor; unfold digit_ok; lia|].
  eexists. split; [reflexivity|]. eexists. split; reflexivity.
Qed.

(** A dimension or percentage outside calc() is the same as inside. *)
Theorem C17_plain a c rel rest : operand_ok a -> (forall d, a <> ONum d) ->
  exists k q, parse_calc (show_operand a :: rest) = Some (k, rest) /\ resolve_calc k c rel = Some q /\ q == operand_value a c rel.
Proof.
  intros A N. destruct (parse_val_show a rest A) as (va & Ea & Da). destruct (Da c rel) as (q & E & V).
  destruct a as [d|d|d u s|d u s]; [now destruct (N d)| | |];
    (unfold parse_val in Ea; cbn [show_operand dim t_type ttype_beq] in Ea;
     unfold parse_calc; cbn [show_operand dim];
     destruct (parse_percent_or _) as [[t r]|]; [|discriminate]; injection Ea as <- <-;
     eexists; exists q; split; [reflexivity|]; split; [exact E|exact V]).
Qed.
Print Assumptions C17_plain.

(** Everything after the second operand is dropped, whatever it is. *)
Theorem C17_tail_ignored_refuted o a b tail rest : operand_ok a -> operand_ok b ->
  parse_calc (calc_of (show_chain (Op o (Operand a) (Operand b)) ++ tail) :: rest)
    = parse_calc (calc_of (show_chain (Op o (Operand a) (Operand b))) :: rest).
Proof.
  intros A B. unfold parse_calc, calc_of. cbn [t_data]. rewrite str_eqb_refl. cbn [show_chain app].
  destruct (parse_val_show a (ws :: show_op o :: ws :: show_operand b :: tail) A) as (va & Ea & Da).
  destruct (parse_val_show a [ws; show_op o; ws; show_operand b] A) as (va' & Ea' & Da').
  assert (V : va = va') by (pose proof (parse_val_head _ _ _ _ _ Ea Ea'); congruence).
  subst va'. rewrite Ea, Ea', !parse_op_show, !eat_ws_operand.
  destruct (parse_val_show b tail B) as (vb & Eb & Db), (parse_val_show b [] B) as (vb' & Eb' & Db').
  assert (V : vb = vb') by (pose proof (parse_val_head _ _ _ _ _ Eb Eb'); congruence).
  subst vb'. now rewrite Eb, Eb'.
Qed.
Print Assumptions C17_tail_ignored_refuted.

(** calc(1px + 2px + 3px) is 6px, and resolves to 3px. *)
Theorem C17_three_operands_refuted : exists e k q,
  value_is ctx_ex 0 e 6 /\ parse_calc [calc_of (show_chain e)] = Some (k, []) /\ resolve_calc k ctx_ex 0 = Some q /\ q == 3.
Proof.
  exists (Op ADD (Op ADD (Operand (px 1)) (Operand (px 2))) (Operand (px 3))). eexists. eexists.
  split; [|split; [reflexivity|split; reflexivity]].
  apply (vi_add _ _ _ _ 3 3); [apply (vi_add _ _ _ _ 1 2)| |]; try (constructor; reflexivity); reflexivity.
Qed.
Print Assumptions C17_three_operands_refuted.

(** A space after the parenthesis, parentheses and nested calc() make the value invalid. *)
Theorem C17_nesting_rejected_refuted content tail rest :
  parse_calc (calc_of (BLOCK content :: tail) :: rest) = None /\
  parse_calc (calc_of (calc_of content :: tail) :: rest) = None /\
  parse_calc (calc_of (ws :: tail) :: rest) = None.
Proof. repeat split; reflexivity. Qed.
Print Assumptions C17_nesting_rejected_refuted.
