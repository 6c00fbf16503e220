(** C01: An+B selects exactly the arithmetic progression. *)
From Coq Require Import ZArith Bool Lia.
From Verif.Style Require Import AnBModel AnBProofs.
Local Open Scope Z_scope.

Theorem C01_anb_match_iff_progression : forall a b i : Z,
  anb_match (mkAnB a b) i = true <-> exists n, 0 <= n /\ i = a * n + b.
Proof. exact anb_match_iff. Qed.
Print Assumptions C01_anb_match_iff_progression.

(** On 64-bit machine integers no undefined behaviour occurs and the answer is the
    mathematical one for all positions below 2^62 and all |b| <= 2^62. *)
Theorem C01_anb_match_no_overflow : forall a b i : Z,
  0 <= i < 2 ^ 62 -> - 2 ^ 62 <= b <= 2 ^ 62 ->
  exists r, anb_match_checked (mkAnB a b) i = Some r /\
            (r = true <-> exists n, 0 <= n /\ i = a * n + b).
Proof.
  intros a b i Hi Hb. exists (anb_match (mkAnB a b) i).
  split; [exact (anb_checked_ok a b i Hi Hb) | exact (anb_match_iff a b i)].
Qed.
Print Assumptions C01_anb_match_no_overflow.

(** Outside that range undefined behaviour is reachable: [:nth-child(-9223372036854775808)]. *)
Theorem C01_anb_overflow_refuted : exists b i,
  in_isize b = true /\ 1 <= i /\ anb_match_checked (mkAnB 0 b) i = None.
Proof. exists isize_min, 1. vm_compute. repeat split; discriminate. Qed.
Print Assumptions C01_anb_overflow_refuted.

(* Concrete cases: 2n+1 selects 5 but not 6; -1n+3 selects 1,2,3 but not 4. *)
Example C01_ex1 : anb_match (mkAnB 2 1) 5 = true /\ anb_match (mkAnB 2 1) 6 = false.
Proof. split; reflexivity. Qed.
Example C01_ex2 : anb_match (mkAnB (-1) 3) 1 = true /\ anb_match (mkAnB (-1) 3) 4 = false.
Proof. split; reflexivity. Qed.
Example C01_ex3 : 0 <= 5 < 2 ^ 62 /\ - 2 ^ 62 <= 1 <= 2 ^ 62.
Proof. vm_compute; repeat split; discriminate. Qed.
