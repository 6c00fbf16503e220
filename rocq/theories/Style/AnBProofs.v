From Coq Require Import ZArith Bool Lia ZifyBool.
From Verif.Style Require Import AnBModel.
Local Open Scope Z_scope.

Lemma anb_match_iff a b i :
  anb_match (mkAnB a b) i = true <-> exists n, 0 <= n /\ i = a * n + b.
Proof.
  unfold anb_match; simpl.
  destruct (Z.eqb_spec a 0) as [->|Ha].
  - rewrite Z.eqb_eq. split.
    + intros H. exists 0. lia.
    + intros [n [Hn E]]. lia.
  - destruct (Z.eqb_spec (Z.rem (i - b) a) 0) as [Hr|Hr]; simpl.
    + pose proof (Z.quot_rem' (i - b) a) as E. rewrite Hr in E. split.
      * intros H. exists (Z.quot (i - b) a). split; lia.
      * intros [n [Hn En]].
        assert (Z.quot (i - b) a = n) as ->; [|lia].
        replace (i - b) with (n * a) by lia. now apply Z.quot_mul.
    + split; [discriminate|]. intros [n [Hn En]]. exfalso. apply Hr.
      replace (i - b) with (n * a) by lia. now apply Z.rem_mul.
Qed.

Lemma anb_checked_ok a b i :
  0 <= i < 2 ^ 62 -> - 2 ^ 62 <= b <= 2 ^ 62 ->
  anb_match_checked (mkAnB a b) i = Some (anb_match (mkAnB a b) i).
Proof.
  intros Hi Hb. unfold anb_match_checked, anb_match; cbn [anb_a anb_b].
  assert (in_isize (i - b) = true) as -> by (unfold in_isize, isize_min, isize_max; lia).
  cbn [negb]. destruct (a =? 0); [reflexivity|].
  assert (i - b =? isize_min = false) as -> by (unfold isize_min; lia).
  rewrite andb_false_r. destruct (negb _); reflexivity.
Qed.
