(** Decimal numbers: Karm's [Io::atou]/[Io::atoi]/[Io::atof], which are library code and not in
    /repo. They are trusted to behave as written here: an optional sign, at least one
    digit, and for [atof] an optional fraction ("." followed by at least one digit).
    Exponents are left out, so the theorems only speak of literals without one. f64 is
    taken to be exact. *)
From Coq Require Import List NArith ZArith QArith Bool Lia.
From Verif.Base Require Import Str.
Import ListNotations.
Local Open Scope list_scope.

Definition is_digit (c : rune) : bool := ((48 <=? c) && (c <=? 57))%N.

(** The digits at the head of a string, and the rest. *)
Fixpoint digits (s : str) : list Z * str :=
  match s with
  | c :: s' => if is_digit c then let (d, r) := digits s' in ((Z.of_N c - 48)%Z :: d, r) else ([], s)
  | [] => ([], [])
  end.

Definition number_of (ds : list Z) : Z := fold_left (fun a d => a * 10 + d)%Z ds 0%Z.

Definition sign (s : str) : Z * str :=
  match s with
  | c :: s' => if (c =? 45)%N then ((-1)%Z, s') else if (c =? 43)%N then (1%Z, s') else (1%Z, s)
  | [] => (1%Z, s)
  end.

(** [Io::atoi] *)
Definition atoi (s : str) : option (Z * str) :=
  let (sg, s1) := sign s in
  match digits s1 with
  | ([], _) => None
  | (ds, r) => Some ((sg * number_of ds)%Z, r)
  end.

(** [Io::atof] *)
Definition atof (s : str) : option (Q * str) :=
  let (sg, s1) := sign s in
  match digits s1 with
  | ([], _) => None
  | (ds, r) =>
    match r with
    | c :: r' =>
      if (c =? 46)%N then
        match digits r' with
        | ([], _) => Some (inject_Z (sg * number_of ds), r)
        | (fs, r'') => Some (inject_Z sg * (inject_Z (number_of ds) + inject_Z (number_of fs) / inject_Z (10 ^ Z.of_nat (length fs))), r'')
        end
      else Some (inject_Z (sg * number_of ds), r)
    | [] => Some (inject_Z (sg * number_of ds), r)
    end
  end.

(** * Literals, independently of the scanner *)

(** A decimal literal: sign, digits of the integer part and of the fraction. *)
Record decimal := mkD { d_neg : bool; d_int : list Z; d_frac : list Z }.
Definition digit_ok (d : Z) : Prop := (0 <= d < 10)%Z.
Definition decimal_ok (d : decimal) : Prop :=
  d_int d <> [] /\ Forall digit_ok (d_int d) /\ Forall digit_ok (d_frac d).

(** The value of a digit sequence: the first digit counts ten to the number of digits after it. *)
Fixpoint dval (ds : list Z) : Z :=
  match ds with
  | [] => 0
  | d :: r => d * 10 ^ Z.of_nat (length r) + dval r
  end%Z.
Definition decimal_value (d : decimal) : Q :=
  let m := inject_Z (dval (d_int d)) + inject_Z (dval (d_frac d)) / inject_Z (10 ^ Z.of_nat (length (d_frac d))) in
  if d_neg d then - m else m.

Definition show_digit (d : Z) : rune := Z.to_N (d + 48).
Definition show_decimal (d : decimal) : str :=
  (if d_neg d then [45%N] else []) ++ map show_digit (d_int d)
    ++ match d_frac d with [] => [] | f => 46%N :: map show_digit f end.

Lemma number_of_acc ds a : fold_left (fun a d => a * 10 + d)%Z ds a = (a * 10 ^ Z.of_nat (length ds) + dval ds)%Z.
Proof.
  revert a. induction ds as [|d ds IH]; intros a; cbn [fold_left dval length].
  - rewrite Z.pow_0_r. lia.
  - rewrite IH, Nat2Z.inj_succ, Z.pow_succ_r by lia. ring.
Qed.
Lemma number_of_dval ds : number_of ds = dval ds.
Proof. unfold number_of. rewrite number_of_acc. lia. Qed.

Definition no_digit (s : str) : Prop := match s with c :: _ => is_digit c = false | [] => True end.

Lemma digits_show ds r : Forall digit_ok ds -> no_digit r -> digits (map show_digit ds ++ r) = (ds, r).
Proof.
  intros H N. induction H as [|d ds Hd H IH]; cbn [map app].
  - destruct r as [|c r]; cbn in *; [reflexivity|now rewrite N].
  - cbn [digits]. rewrite IH.
    assert (E : is_digit (show_digit d) = true).
    { unfold is_digit, show_digit, digit_ok in *. apply andb_true_iff. split; apply N.leb_le; lia. }
    rewrite E. unfold show_digit. unfold digit_ok in Hd. rewrite Z2N.id by lia. do 2 f_equal. lia.
Qed.

(** What may follow a literal so that the scanner stops at its end. *)
Definition stops (s : str) : Prop :=
  match s with c :: _ => is_digit c = false /\ c <> 46%N | [] => True end.

Lemma stops_no_digit s : stops s -> no_digit s.
Proof. destruct s; cbn; tauto. Qed.

Lemma show_digit_neq d c : digit_ok d -> (c < 48)%N -> show_digit d <> c.
Proof. unfold digit_ok, show_digit. lia. Qed.

Lemma sign_show d r : decimal_ok d ->
  sign (show_decimal d ++ r) = ((if d_neg d then -1 else 1)%Z,
    map show_digit (d_int d) ++ (match d_frac d with [] => [] | f => 46%N :: map show_digit f end) ++ r).
Proof.
  intros (N & I & _). unfold show_decimal. destruct (d_neg d); cbn [app].
  - cbn. now rewrite <- app_assoc.
  - rewrite <- app_assoc. destruct (d_int d) as [|x l]; [contradiction|]. inversion I; subst.
    cbn [map app sign].
    destruct (N.eqb_spec (show_digit x) 45); [exfalso; now apply (show_digit_neq x 45%N)|].
    destruct (N.eqb_spec (show_digit x) 43); [exfalso; now apply (show_digit_neq x 43%N)|]. reflexivity.
Qed.

(** The scanner reads back every literal and leaves what follows it. *)
Theorem atof_show d r : decimal_ok d -> stops r ->
  exists q, atof (show_decimal d ++ r) = Some (q, r) /\ q == decimal_value d.
Proof.
  intros O S. unfold atof. rewrite sign_show by assumption. destruct O as (N & I & F).
  assert (A : no_digit (match d_frac d with [] => [] | f => 46%N :: map show_digit f end ++ r)).
  { destruct (d_frac d); [now apply stops_no_digit|reflexivity]. }
  rewrite digits_show by assumption. unfold decimal_value.
  destruct (d_int d) as [|x l] eqn:Ei; [contradiction|].
  destruct (d_frac d) as [|f fs] eqn:Ef; cbn [app].
  - assert (E : inject_Z ((if d_neg d then -1 else 1) * number_of (x :: l)) ==
      (let m := inject_Z (dval (x :: l)) + inject_Z (dval []) / inject_Z (10 ^ Z.of_nat (length (@nil Z))) in
       if d_neg d then - m else m)).
    { rewrite number_of_dval. cbn [length Z.of_nat dval]. change (10 ^ 0)%Z with 1%Z.
      destruct (d_neg d); rewrite inject_Z_mult; unfold Qdiv; change (inject_Z 0) with 0; change (inject_Z 1) with 1; try change (inject_Z (-1)) with (-(1)); ring. }
    destruct r as [|c r].
    + eexists. split; [reflexivity|exact E].
    + destruct S as [_ S]. apply N.eqb_neq in S. rewrite S. eexists. split; [reflexivity|exact E].
  - rewrite N.eqb_refl.
    change (show_digit f :: map show_digit fs ++ r) with (map show_digit (f :: fs) ++ r).
    rewrite digits_show; [|assumption|now apply stops_no_digit].
    eexists. split; [reflexivity|]. rewrite !number_of_dval.
    destruct (d_neg d); [change (inject_Z (-1)) with (-(1))|change (inject_Z 1) with 1]; ring.
Qed.

Definition integer_ok (neg : bool) (ds : list Z) : Prop := ds <> [] /\ Forall digit_ok ds.
Definition show_integer (neg : bool) (ds : list Z) : str := show_decimal (mkD neg ds []).
Definition integer_value (neg : bool) (ds : list Z) : Z := if neg then (- dval ds)%Z else dval ds.

Theorem atoi_show neg ds r : integer_ok neg ds -> no_digit r ->
  atoi (show_integer neg ds ++ r) = Some (integer_value neg ds, r).
Proof.
  intros [N F] S. unfold atoi, show_integer. rewrite sign_show by (split; [assumption|split; [assumption|constructor]]).
  cbn [d_neg d_int d_frac app]. rewrite digits_show by assumption.
  destruct ds as [|d ds]; [contradiction|]. rewrite number_of_dval. unfold integer_value. destruct neg; do 2 f_equal; lia.
Qed.
