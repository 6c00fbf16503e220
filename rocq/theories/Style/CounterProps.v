(** C08-C14, C50: counter styles and counter scoping. *)
From Coq Require Import String List ZArith Bool Lia Permutation.
From Verif.Base Require Import Str Outcome.
From Verif.Style Require Import CounterModel CounterSpec CounterProofs CounterResolve.
Import ListNotations.
Local Open Scope list_scope.
Local Open Scope Z_scope.

(** Signs around a representation, in the order the code puts them. *)
Definition signed (s : cstyle) (v : Z) (body : list str) : list str :=
  (if v <? 0 then [st_neg_pre s] else []) ++ st_prefix s :: body
  ++ (if v <? 0 then match st_neg_app s with Some a => [a] | None => [] end else [])
  ++ [st_suffix s].

Lemma finish_signed glen s v r : finish_repr glen s v r = signed s v (pad_repr glen s r).
Proof.
  unfold finish_repr, signed. destruct (v <? 0); simpl; auto.
  now rewrite <- app_assoc.
Qed.

Lemma pad_none glen s r : st_pad_len s = 0 -> pad_repr glen s r = r.
Proof. intros H. unfold pad_repr. rewrite H. reflexivity. Qed.

Lemma construct_here glen fuel cs name s v r :
  lookup cs name = Some s -> in_range (st_range s) v ->
  dispatch_system s (Z.abs v) = Ok (Some r) ->
  construct_representation glen (S fuel) cs name v = Ok (signed s v (pad_repr glen s r)).
Proof.
  intros L R D. unfold construct_representation, lookup_or_decimal. rewrite L. cbn [obind].
  rewrite (dispatch_here glen fuel cs s v [name] r R D). now rewrite finish_signed.
Qed.

(** * C08 *)

(** The text is the base-n numeral of |v| (unique, without leading zeros), for every
    integer in the range, between the sign, the prefix and the suffix. *)
Theorem C08_numeric_numeral : forall glen fuel cs name s v,
  lookup cs name = Some s -> st_system s = Numeric -> 2 <= len (st_symbols s) ->
  in_range (st_range s) v -> st_pad_len s = 0 ->
  exists ds out,
    construct_representation glen (S fuel) cs name v = Ok (signed s v out) /\
    spells (st_symbols s) ds out /\ numeral (len (st_symbols s)) ds /\
    horner (len (st_symbols s)) 0 ds = Z.abs v.
Proof.
  intros glen fuel cs name s v L Y N R P.
  destruct (construct_numeric_ok s (Z.abs v) N ltac:(lia)) as (ds & out & D & H).
  exists ds, out. split; auto.
  rewrite (construct_here glen fuel cs name s v out L R).
  - now rewrite pad_none.
  - unfold dispatch_system. now rewrite Y.
Qed.
Print Assumptions C08_numeric_numeral.

(** Conversely every numeral is the text of its value. *)
Theorem C08_numeric_every_numeral : forall glen fuel cs name s ds out,
  lookup cs name = Some s -> st_system s = Numeric -> 2 <= len (st_symbols s) ->
  st_range s = Auto -> st_pad_len s = 0 ->
  numeral (len (st_symbols s)) ds -> spells (st_symbols s) ds out ->
  construct_representation glen (S fuel) cs name (horner (len (st_symbols s)) 0 ds)
    = Ok (st_prefix s :: out ++ [st_suffix s]).
Proof.
  intros glen fuel cs name s ds out L Y N R P D S.
  assert (V : 0 <= horner (len (st_symbols s)) 0 ds).
  { apply horner_nonneg; try lia. eapply Forall_impl; [|exact (proj1 D)]. simpl; lia. }
  destruct (C08_numeric_numeral glen fuel cs name s (horner (len (st_symbols s)) 0 ds)
              L Y N ltac:(rewrite R; exact I) P) as (ds' & out' & E & S' & D' & H).
  rewrite Z.abs_eq in H by lia.
  rewrite (numeral_unique _ _ _ N D' D H) in S'.
  rewrite E. unfold signed. destruct (_ <? 0) eqn:Q; [lia|]. cbn [app].
  now rewrite (spells_fun _ _ _ _ S' S).
Qed.
Print Assumptions C08_numeric_every_numeral.

Theorem C08_numeric_injective : forall glen fuel cs name s v w t,
  lookup cs name = Some s -> st_system s = Numeric -> 2 <= len (st_symbols s) ->
  NoDup (st_symbols s) ->
  in_range (st_range s) v -> in_range (st_range s) w -> st_pad_len s = 0 ->
  0 <= v -> 0 <= w ->
  construct_representation glen (S fuel) cs name v = Ok t ->
  construct_representation glen (S fuel) cs name w = Ok t -> v = w.
Proof.
  intros glen fuel cs name s v w t L Y N ND Rv Rw P Hv Hw Ev Ew.
  destruct (C08_numeric_numeral glen fuel cs name s v L Y N Rv P) as (d1 & o1 & E1 & S1 & [D1 _] & H1).
  destruct (C08_numeric_numeral glen fuel cs name s w L Y N Rw P) as (d2 & o2 & E2 & S2 & [D2 _] & H2).
  rewrite E1 in Ev. rewrite E2 in Ew. rewrite <- Ev in Ew. injection Ew as Ew.
  unfold signed in Ew. destruct (v <? 0) eqn:Q1; [lia|]. destruct (w <? 0) eqn:Q2; [lia|].
  cbn [app] in Ew. injection Ew as Ew. apply app_inv_tail in Ew. subst o2.
  assert (d1 = d2) as ->.
  { eapply spells_inj; eauto; eapply Forall_impl; try eassumption; simpl; lia. }
  lia.
Qed.
Print Assumptions C08_numeric_injective.

Definition digits10 : list str :=
  map of_string ["0"; "1"; "2"; "3"; "4"; "5"; "6"; "7"; "8"; "9"]%string.
Definition ua_decimal : cstyle :=
  mkStyle Numeric (of_string "-") None [] (of_string ". ") Auto 0 [] decimal_name digits10 [].
Definition ua_styles : list (str * cstyle) := [(decimal_name, ua_decimal)].
Definition glen0 (s : str) : Z := Z.of_nat (length s).

Example C08_ex : construct_representation glen0 1 ua_styles decimal_name (-407)
  = Ok (map of_string ["-"; ""; "4"; "0"; "7"; ". "]%string).
Proof. vm_compute. reflexivity. Qed.
Example C08_ex_hyps : lookup ua_styles decimal_name = Some ua_decimal /\
  st_system ua_decimal = Numeric /\ 2 <= len (st_symbols ua_decimal) /\
  NoDup (st_symbols ua_decimal) /\ in_range (st_range ua_decimal) (-407) /\
  st_pad_len ua_decimal = 0 /\ numeral 10 [4; 0; 7].
Proof.
  repeat split; try (vm_compute; congruence); try lia; try (repeat constructor; lia).
  vm_compute. repeat constructor; simpl; intuition discriminate.
Qed.

(** * C09 *)

Theorem C09_alphabetic_numeral : forall glen fuel cs name s v,
  lookup cs name = Some s -> st_system s = Alphabetic -> 2 <= len (st_symbols s) ->
  in_range (st_range s) v -> st_pad_len s = 0 -> v <> 0 ->
  exists ds out,
    construct_representation glen (S fuel) cs name v = Ok (signed s v out) /\
    spells (st_symbols s) (map (fun d => d - 1) ds) out /\
    bijective (len (st_symbols s)) ds /\ horner (len (st_symbols s)) 0 ds = Z.abs v.
Proof.
  intros glen fuel cs name s v L Y N R P V.
  destruct (construct_alphabetic_ok s (Z.abs v) N ltac:(lia)) as (ds & out & D & H).
  exists ds, out. split; auto.
  rewrite (construct_here glen fuel cs name s v out L R).
  - now rewrite pad_none.
  - unfold dispatch_system. now rewrite Y.
Qed.
Print Assumptions C09_alphabetic_numeral.

(** Every non-empty string of symbols is the text of exactly one positive integer. *)
Theorem C09_alphabetic_every_string : forall glen fuel cs name s ds out,
  lookup cs name = Some s -> st_system s = Alphabetic -> 2 <= len (st_symbols s) ->
  st_range s = Auto -> st_pad_len s = 0 ->
  bijective (len (st_symbols s)) ds -> spells (st_symbols s) (map (fun d => d - 1) ds) out ->
  0 < horner (len (st_symbols s)) 0 ds /\
  construct_representation glen (S fuel) cs name (horner (len (st_symbols s)) 0 ds)
    = Ok (st_prefix s :: out ++ [st_suffix s]).
Proof.
  intros glen fuel cs name s ds out L Y N R P [D0 D] S.
  assert (V : 0 < horner (len (st_symbols s)) 0 ds).
  { destruct ds as [|d ds]; [congruence|]. inversion D; subst.
    apply horner_pos; try lia. eapply Forall_impl; try eassumption. simpl; lia. }
  split; [exact V|].
  destruct (C09_alphabetic_numeral glen fuel cs name s (horner (len (st_symbols s)) 0 ds)
              L Y N ltac:(rewrite R; exact I) P ltac:(lia)) as (ds' & out' & E & S' & [_ D'] & H).
  rewrite Z.abs_eq in H by lia.
  rewrite (bijective_unique _ _ _ N D' D H) in S'.
  rewrite E. unfold signed. destruct (_ <? 0) eqn:Q; [lia|]. cbn [app].
  now rewrite (spells_fun _ _ _ _ S' S).
Qed.
Print Assumptions C09_alphabetic_every_string.

Theorem C09_alphabetic_injective : forall glen fuel cs name s v w t,
  lookup cs name = Some s -> st_system s = Alphabetic -> 2 <= len (st_symbols s) ->
  NoDup (st_symbols s) ->
  in_range (st_range s) v -> in_range (st_range s) w -> st_pad_len s = 0 ->
  0 < v -> 0 < w ->
  construct_representation glen (S fuel) cs name v = Ok t ->
  construct_representation glen (S fuel) cs name w = Ok t -> v = w.
Proof.
  intros glen fuel cs name s v w t L Y N ND Rv Rw P Hv Hw Ev Ew.
  destruct (C09_alphabetic_numeral glen fuel cs name s v L Y N Rv P ltac:(lia)) as (d1 & o1 & E1 & S1 & [_ D1] & H1).
  destruct (C09_alphabetic_numeral glen fuel cs name s w L Y N Rw P ltac:(lia)) as (d2 & o2 & E2 & S2 & [_ D2] & H2).
  rewrite E1 in Ev. rewrite E2 in Ew. rewrite <- Ev in Ew. injection Ew as Ew.
  unfold signed in Ew. destruct (v <? 0) eqn:Q1; [lia|]. destruct (w <? 0) eqn:Q2; [lia|].
  cbn [app] in Ew. injection Ew as Ew. apply app_inv_tail in Ew. subst o2.
  assert (E : map (fun d => d - 1) d1 = map (fun d => d - 1) d2).
  { eapply spells_inj; eauto; apply Forall_map; eapply Forall_impl; try eassumption; simpl; lia. }
  assert (d1 = d2) as ->; [|lia].
  clear - E. revert d2 E. induction d1; intros [|b d2] E; simpl in E; try discriminate; auto.
  injection E as E1 E. f_equal; [lia|auto].
Qed.
Print Assumptions C09_alphabetic_injective.

Definition abc : cstyle :=
  mkStyle Alphabetic (of_string "-") None [] (of_string ". ") Auto 0 [] decimal_name
    (map of_string ["a"; "b"; "c"]%string) [].
Definition abc_name : str := of_string "abc".
Definition abc_styles := (abc_name, abc) :: ua_styles.
Example C09_ex : construct_representation glen0 1 abc_styles abc_name 28
  = Ok (map of_string [""; "b"; "c"; "a"; ". "]%string).
Proof. vm_compute. reflexivity. Qed.
Example C09_ex_hyps : lookup abc_styles abc_name = Some abc /\ 2 <= len (st_symbols abc) /\
  bijective 3 [2; 3; 1] /\ horner 3 0 [2; 3; 1] = 28.
Proof. repeat split; try (vm_compute; congruence). repeat constructor; lia. Qed.

(** * C10 *)

Theorem C10_additive_greedy : forall glen fuel cs name s v t,
  lookup cs name = Some s -> st_system s = Additive ->
  Forall (fun t => 0 <= fst t) (st_additive s) ->
  in_range (st_range s) v -> st_pad_len s = 0 -> 0 < v ->
  (exists reps, greedy (st_additive s) v reps /\ weigh (st_additive s) reps = v /\
     construct_representation glen (S fuel) cs name v
       = Ok (st_prefix s :: spread (st_additive s) reps ++ [st_suffix s])) \/
  ((forall reps, ~ greedy (st_additive s) v reps) /\
   (st_fallback s <> name -> lookup cs (st_fallback s) = Some t ->
    construct_representation glen (S fuel) cs name v
      = dispatch_fallback glen fuel cs t v [st_fallback s; name])).
Proof.
  intros glen fuel cs name s v t L Y F R P V.
  assert (A : Z.abs v = v) by lia.
  destruct (construct_additive_ok s v F V) as [(reps & G & D)|[D N]].
  - left. exists reps. split; auto. split; [now apply greedy_weigh|].
    rewrite (construct_here glen fuel cs name s v _ L R ltac:(unfold dispatch_system; rewrite Y, A; exact D)).
    rewrite pad_none by auto. unfold signed. destruct (v <? 0) eqn:Q; [lia|]. reflexivity.
  - right. split; auto. intros NE LF.
    unfold construct_representation, lookup_or_decimal. rewrite L. cbn [obind].
    assert (SA : safe s v) by (unfold safe; rewrite Y; exact F).
    destruct (dispatch_step glen fuel cs s v [name] SA) as [(r & _ & D' & _)|[_ ->]].
    + unfold dispatch_system in D'. rewrite Y, A in D'. congruence.
    + rewrite (proj2 (mem_false (st_fallback s) [name])) by (simpl; intuition congruence).
      unfold lookup_or_decimal. rewrite LF. reflexivity.
Qed.
Print Assumptions C10_additive_greedy.

(** The greedy multiplicities are unique, so the text is determined by the specification. *)
Theorem C10_greedy_unique : forall t v r1 r2, greedy t v r1 -> greedy t v r2 -> r1 = r2.
Proof. exact greedy_unique. Qed.
Print Assumptions C10_greedy_unique.

Theorem C10_additive_zero : forall glen fuel cs name s,
  lookup cs name = Some s -> st_system s = Additive ->
  in_range (st_range s) 0 -> st_pad_len s = 0 ->
  (exists s0, In (0, s0) (st_additive s)) ->
  exists s0, In (0, s0) (st_additive s) /\
    construct_representation glen (S fuel) cs name 0
      = Ok [st_prefix s; s0; st_suffix s].
Proof.
  intros glen fuel cs name s L Y R P [s1 I1].
  destruct (construct_additive_zero s) as [(s0 & I & D)|[_ N]]; [|destruct (N _ I1)].
  exists s0. split; auto.
  rewrite (construct_here glen fuel cs name s 0 [s0] L R ltac:(unfold dispatch_system; rewrite Y; exact D)).
  now rewrite pad_none.
Qed.
Print Assumptions C10_additive_zero.

(** A negative weight, which the parser lets through, makes the repetition count wrap around. *)
Theorem C10_negative_weight_refuted : exists cs name s v,
  lookup cs name = Some s /\ st_system s = Additive /\ 0 < v /\
  forall glen fuel, construct_representation glen (S fuel) cs name v = Panic.
Proof.
  exists [(abc_name, mkStyle Additive [] None [] [] Auto 0 [] decimal_name [] [(-1, of_string "x")])],
    abc_name. eexists. exists 3. repeat split; reflexivity.
Qed.
Print Assumptions C10_negative_weight_refuted.

Definition roman : cstyle :=
  mkStyle Additive (of_string "-") None [] (of_string ". ") (Ranges [(Some 1, Some 3999)]) 0 [] decimal_name []
    [(10, of_string "x"); (9, of_string "ix"); (5, of_string "v"); (4, of_string "iv"); (1, of_string "i")].
Example C10_ex : construct_representation glen0 1 [(abc_name, roman)] abc_name 29
  = Ok (map of_string [""; "x"; "x"; "ix"; ". "]%string).
Proof. vm_compute. reflexivity. Qed.
Example C10_ex_hyps : Forall (fun t => 0 <= fst t) (st_additive roman) /\
  in_range (st_range roman) 29 /\ greedy (st_additive roman) 29 [2; 1; 0; 0; 0]%nat.
Proof.
  split; [repeat constructor; simpl; lia|]. split.
  - simpl. constructor. split; intros b [= <-]; lia.
  - change 29 with (10 * Z.of_nat 2 + (9 * Z.of_nat 1 + (5 * Z.of_nat 0 + (4 * Z.of_nat 0 + (1 * Z.of_nat 0 + 0))))).
    repeat (constructor; try lia).
Qed.

(** * C11 *)

Theorem C11_cyclic_partial : forall glen fuel cs name s v,
  lookup cs name = Some s -> st_system s = Cyclic -> st_symbols s <> [] ->
  in_range (st_range s) v -> st_pad_len s = 0 -> 0 <= v ->
  exists x, nth_error (st_symbols s) (Z.to_nat ((v - 1) mod len (st_symbols s))) = Some x /\
    construct_representation glen (S fuel) cs name v = Ok [st_prefix s; x; st_suffix s].
Proof.
  intros glen fuel cs name s v L Y N R P V.
  destruct (construct_cyclic_ok s v N) as (x & X & D). exists x. split; auto.
  rewrite (construct_here glen fuel cs name s v [x] L R).
  - rewrite pad_none by auto. unfold signed. destruct (v <? 0) eqn:Q; [lia|]. reflexivity.
  - unfold dispatch_system. rewrite Y, Z.abs_eq; auto.
Qed.
Print Assumptions C11_cyclic_partial.

(** CSS: a cyclic style does not use a negative sign; -1 is the symbol number (-1 - 1) mod N.
    The code formats the absolute value and prepends the sign. *)
Theorem C11_cyclic_negative_refuted : exists cs name s x,
  lookup cs name = Some s /\ st_system s = Cyclic /\
  nth_error (st_symbols s) (Z.to_nat ((-1 - 1) mod len (st_symbols s))) = Some x /\
  forall glen fuel, exists t,
    construct_representation glen (S fuel) cs name (-1) = Ok t /\
    concat t <> st_prefix s ++ x ++ st_suffix s.
Proof.
  exists [(abc_name, set_system abc Cyclic)], abc_name. do 2 eexists.
  split; [reflexivity|]. split; [reflexivity|]. split; [vm_compute; reflexivity|].
  intros glen fuel. eexists. split; [reflexivity|]. vm_compute. discriminate.
Qed.
Print Assumptions C11_cyclic_negative_refuted.

Theorem C11_symbolic_partial : forall glen fuel cs name s v,
  lookup cs name = Some s -> st_system s = Symbolic -> st_symbols s <> [] ->
  in_range (st_range s) v -> st_pad_len s = 0 -> 1 <= v <= 2 ^ 63 - 1 ->
  exists x k, nth_error (st_symbols s) (Z.to_nat ((v - 1) mod len (st_symbols s))) = Some x /\
    (Z.of_nat k - 1) * len (st_symbols s) < v <= Z.of_nat k * len (st_symbols s) /\
    construct_representation glen (S fuel) cs name v
      = Ok (st_prefix s :: repeat x k ++ [st_suffix s]).
Proof.
  intros glen fuel cs name s v L Y N R P V.
  assert (LP : 0 < len (st_symbols s)) by (unfold len; destruct (st_symbols s); [congruence|simpl; lia]).
  destruct (construct_symbolic_total s v N) as (x & X & D).
  rewrite (Z.mod_small (v - 1)) in X by lia.
  exists x, (Z.to_nat (- (- v / len (st_symbols s)))). split; auto.
  pose proof (Z.div_mod (- v) (len (st_symbols s)) ltac:(lia)) as DM.
  pose proof (Z.mod_pos_bound (- v) (len (st_symbols s)) LP) as MB.
  assert (0 <= - (- v / len (st_symbols s))).
  { assert (- v / len (st_symbols s) < 0) by (apply Z.div_lt_upper_bound; lia). lia. }
  rewrite Z2Nat.id by lia.
  split; [nia|].
  rewrite (construct_here glen fuel cs name s v _ L R ltac:(unfold dispatch_system; rewrite Y, Z.abs_eq by lia; exact D)).
  rewrite pad_none by auto. unfold signed. destruct (v <? 0) eqn:Q; [lia|]. reflexivity.
Qed.
Print Assumptions C11_symbolic_partial.

(** CSS: a symbolic style cannot represent 0 and falls back.  The code yields no symbol. *)
Theorem C11_symbolic_zero_refuted : exists cs name s,
  lookup cs name = Some s /\ st_system s = Symbolic /\ st_symbols s <> [] /\
  st_fallback s = decimal_name /\ lookup cs decimal_name = Some ua_decimal /\
  forall glen fuel,
    construct_representation glen (S fuel) cs name 0 = Ok [st_prefix s; st_suffix s].
Proof.
  exists ((abc_name, set_system abc Symbolic) :: ua_styles), abc_name. eexists.
  repeat split; try reflexivity. discriminate.
Qed.
Print Assumptions C11_symbolic_zero_refuted.

(** Without an explicit first value ([fixed], i.e. first value 1) and for 1 <= v <= N. *)
Theorem C11_fixed_partial : forall glen fuel cs name s v,
  lookup cs name = Some s -> st_system s = Fixed None ->
  in_range (st_range s) v -> st_pad_len s = 0 -> 1 <= v <= len (st_symbols s) ->
  exists x, nth_error (st_symbols s) (Z.to_nat (v - 1)) = Some x /\
    construct_representation glen (S fuel) cs name v = Ok [st_prefix s; x; st_suffix s].
Proof.
  intros glen fuel cs name s v L Y R P V.
  assert (N : st_symbols s <> []) by (intros E; rewrite E in V; cbn in V; lia).
  destruct (construct_fixed_ok s None v N ltac:(cbn; lia) ltac:(cbn; lia)) as (x & X & D).
  cbn [unwrap_or] in X. rewrite Z.sub_0_r in X.
  exists x. split; auto.
  rewrite (construct_here glen fuel cs name s v [x] L R).
  - rewrite pad_none by auto. unfold signed. destruct (v <? 0) eqn:Q; [lia|]. reflexivity.
  - unfold dispatch_system. rewrite Y, Z.abs_eq by lia. auto.
Qed.
Print Assumptions C11_fixed_partial.

Lemma neg1_geb {A} (l : list A) : (-1 >=? len l) = false.
Proof. rewrite Z.geb_leb. apply Z.leb_gt. unfold len. lia. Qed.

(** Out-of-bounds access for every non-empty [fixed] style at value 0. *)
Theorem C11_fixed_zero_panics_refuted : forall glen fuel cs name s,
  lookup cs name = Some s -> st_system s = Fixed None -> st_symbols s <> [] ->
  st_range s = Auto ->
  construct_representation glen (S fuel) cs name 0 = Panic.
Proof.
  intros glen fuel cs name s L Y N R.
  unfold construct_representation, lookup_or_decimal. rewrite L. cbn [obind dispatch_fallback].
  unfold defined_for. rewrite R. unfold dispatch_system. rewrite Y. unfold construct_fixed.
  destruct (st_symbols s) as [|a l] eqn:E; [congruence|].
  change (Z.abs 0 - 0 - 1) with (-1). rewrite neg1_geb. reflexivity.
Qed.
Print Assumptions C11_fixed_zero_panics_refuted.

(** With an explicit first value f, CSS gives the first symbol to f; the code crashes on f and
    gives the first symbol to f + 1. *)
Theorem C11_fixed_first_value_refuted : forall glen fuel cs name s f a l,
  lookup cs name = Some s -> st_system s = Fixed (Some f) -> st_symbols s = a :: l ->
  st_range s = Auto -> st_pad_len s = 0 -> 0 <= f ->
  construct_representation glen (S fuel) cs name f = Panic /\
  construct_representation glen (S fuel) cs name (f + 1) = Ok [st_prefix s; a; st_suffix s].
Proof.
  intros glen fuel cs name s f a l L Y E R P F. split.
  - unfold construct_representation, lookup_or_decimal. rewrite L. cbn [obind dispatch_fallback].
    unfold defined_for. rewrite R. unfold dispatch_system. rewrite Y, Z.abs_eq by lia.
    unfold construct_fixed. rewrite E. replace (f - f - 1) with (-1) by lia.
    rewrite neg1_geb. reflexivity.
  - rewrite (construct_here glen fuel cs name s (f + 1) [a] L).
    + rewrite pad_none by auto. unfold signed. destruct (f + 1 <? 0) eqn:Q; [lia|]. reflexivity.
    + rewrite R. exact I.
    + unfold dispatch_system. rewrite Y, Z.abs_eq by lia. unfold construct_fixed. rewrite E.
      replace (f + 1 - f - 1) with 0 by lia. reflexivity.
Qed.
Print Assumptions C11_fixed_first_value_refuted.

Example C11_ex1 : construct_representation glen0 1 [(abc_name, set_system abc Cyclic)] abc_name 5
  = Ok (map of_string [""; "b"; ". "]%string).
Proof. vm_compute. reflexivity. Qed.
Example C11_ex2 : construct_representation glen0 1 [(abc_name, set_system abc Symbolic)] abc_name 5
  = Ok (map of_string [""; "b"; "b"; ". "]%string).
Proof. vm_compute. reflexivity. Qed.
Example C11_ex3 : construct_representation glen0 1 [(abc_name, set_system abc (Fixed None))] abc_name 3
  = Ok (map of_string [""; "c"; ". "]%string).
Proof. vm_compute. reflexivity. Qed.

(** * C12 *)

(** Formatting terminates and yields text, following the fallbacks up to the first style that can
    represent the value, however the fallback names are wired, provided that [decimal] is
    the built-in style or an equivalent one and no style runs into the crashes of C10 and C11. *)
Theorem C12_terminates_partial : forall glen cs v d name,
  lookup cs decimal_name = Some d -> decimal_ok d ->
  (forall n s, In (n, s) cs -> safe s v) ->
  exists s t r,
    (lookup cs name = Some s \/ lookup cs name = None /\ s = d) /\
    picks cs v [name] s t /\ can_represent t v /\
    dispatch_system t (Z.abs v) = Ok (Some r) /\
    forall fuel, (length cs + 2 <= fuel)%nat ->
      construct_representation glen fuel cs name v = Ok (signed t v (pad_repr glen t r)).
Proof.
  intros glen cs v d name HD OK SA.
  destruct (construct_terminates glen cs v d name HD OK SA (length cs + 2) (le_n _))
    as (s & t & r & L & P & C & _ & D & E).
  exists s, t, r. repeat (split; [assumption|]).
  intros fuel F.
  destruct (construct_terminates glen cs v d name HD OK SA fuel F)
    as (s' & t' & r' & L' & P' & C' & _ & D' & E').
  assert (s' = s) as -> by (destruct L as [L|[L ->]], L' as [L'|[L' ->]]; congruence).
  assert (U : forall seen a b c, picks cs v seen a b -> picks cs v seen a c -> b = c).
  { intros seen a b c H1; revert c. induction H1; intros c H2'; inversion H2'; subst; auto; try contradiction.
    - apply IHpicks. replace s' with s'0; auto.
      destruct H1 as [?|[? ?]], H5 as [?|[? ?]]; congruence.
    - apply IHpicks. congruence. }
  rewrite (U _ _ _ _ P' P) in *. rewrite D in D'. injection D' as ->.
  rewrite E'. now rewrite finish_signed.
Qed.
Print Assumptions C12_terminates_partial.

(** A style sheet that redefines [decimal] so that it cannot represent a value sends the code
    into unbounded recursion: [@counter-style decimal { system: numeric; range: 1 5; ... }]. *)
Theorem C12_decimal_override_refuted : exists cs v,
  forall glen fuel name, construct_representation glen fuel cs name v = OutOfFuel.
Proof.
  pose (bad := mkStyle Numeric (of_string "-") None [] (of_string ". ") (Ranges [(Some 1, Some 5)])
                 0 [] decimal_name digits10 []).
  exists [(decimal_name, bad)], 6. intros glen fuel name.
  unfold construct_representation.
  assert (E : lookup_or_decimal [(decimal_name, bad)] name = Ok bad).
  { unfold lookup_or_decimal. cbn [lookup]. destruct (str_eqb decimal_name name); reflexivity. }
  rewrite E. cbn [obind]. clear E.
  generalize [name] as seen. induction fuel as [|f IH]; intros seen; [reflexivity|].
  cbn [dispatch_fallback]. change (defined_for bad 6) with (Some false). cbv iota.
  change (st_fallback bad) with decimal_name.
  change (fallback_to_decimal [(decimal_name, bad)]) with (Ok bad).
  change (lookup_or_decimal [(decimal_name, bad)] decimal_name) with (Ok bad).
  cbn [obind]. destruct (mem decimal_name seen); apply IH.
Qed.
Print Assumptions C12_decimal_override_refuted.

(** A fallback cycle between two styles that cannot represent the value. *)
Definition loopy (n : string) : cstyle :=
  mkStyle Alphabetic (of_string "-") None [] (of_string ") ") Auto 0 [] (of_string n)
    (map of_string ["a"; "b"]%string) [].
Definition loopy_styles :=
  (of_string "p", loopy "q") :: (of_string "q", loopy "p") :: ua_styles.
Example C12_ex : construct_representation glen0 5 loopy_styles (of_string "p") 0
  = Ok (map of_string [""; "0"; ". "]%string) /\
  lookup loopy_styles decimal_name = Some ua_decimal /\ decimal_ok ua_decimal /\
  (forall n s, In (n, s) loopy_styles -> safe s 0).
Proof.
  split; [vm_compute; reflexivity|]. split; [reflexivity|]. split.
  - repeat split. vm_compute. discriminate.
  - intros n s H. simpl in H. repeat destruct H as [H|H]; try contradiction; injection H as _ <-; exact I.
Qed.

(** * C13 *)

(** Resolution terminates for every map; the result has the same names, no style is left with
    system [extends]; a name whose chain ends gets, for each descriptor, the nearest one given
    along the chain; a name whose chain is cyclic gets the initial system. *)
Theorem C13_extends_resolved : forall cs fuel, (length cs < fuel)%nat ->
  exists res, resolve_extends fuel cs = Ok res /\
    (forall n, In n (map fst cs) <-> In n (map fst res)) /\
    forall n s, lookup res n = Some s ->
      (forall m, st_system s <> Extends m) /\
      (forall l, chain cs n l -> css_resolved l s) /\
      ((forall l, ~ chain cs n l) -> st_system s = Symbolic).
Proof.
  intros cs fuel F. destruct (resolve_extends_ok cs fuel F) as (res & E & K & R).
  exists res. split; [exact E|]. split; [exact K|].
  intros n s L. destruct (R n s L) as (R1 & R2 & R3). auto.
Qed.
Print Assumptions C13_extends_resolved.

Definition d0 : cdesc := mkDesc None None None None None None None None None.
Definition ext (n : string) : cdesc :=
  mkDesc (Some (Extends (of_string n))) None None (Some (of_string ")")) None None None None None.
Definition dec_desc : cdesc :=
  mkDesc (Some Numeric) None (Some (of_string "#")) None None None None (Some digits10) None.
Definition ext_map : list (str * cdesc) :=
  [(of_string "a", ext "b"); (of_string "b", ext "dec"); (of_string "dec", dec_desc);
   (of_string "x", ext "y"); (of_string "y", ext "x")].
Example C13_ex_chain : chain ext_map (of_string "a") [ext "b"; ext "dec"; dec_desc].
Proof.
  eapply chain_ext; [reflexivity..|]. eapply chain_ext; [reflexivity..|].
  eapply chain_base; [reflexivity|]. discriminate.
Qed.
Example C13_ex : exists res, resolve_extends 6 ext_map = Ok res /\
  option_map st_system (lookup res (of_string "a")) = Some Numeric /\
  option_map st_prefix (lookup res (of_string "a")) = Some (of_string "#") /\
  option_map st_suffix (lookup res (of_string "a")) = Some (of_string ")") /\
  option_map st_system (lookup res (of_string "x")) = Some Symbolic.
Proof. eexists. split; [vm_compute; reflexivity|]. repeat split; reflexivity. Qed.

(** * C14 *)

(** What does hold: at any depth of any tree, the value of every counter at a child is the
    result of the counter properties of the children of the same parent up to it, in order. *)
Theorem C14_sibling_scope_partial : forall root p pre c post name,
  NoDup (ids root) -> occurs p root -> ce_children p = pre ++ c :: post ->
  exists s, In (ce_id c, s) (style_counters root) /\
    (forall s', In (ce_id c, s') (style_counters root) -> s' = s) /\
    inner_most_value s name =
      state_value (fold_left (fun st e => ops_effect name (ce_ops e) st) (pre ++ [c]) None).
Proof.
  intros root p pre c post name ND O E.
  destruct (sibling_state p root pre c post O E) as (s & I & V).
  exists s. split; auto. split.
  - intros s' I'. unfold style_counters in *.
    pose proof (log_ids root [] []) as PL.
    set (log := snd (resolve_counters [] [] root)) in *.
    assert (N : NoDup (map fst log)).
    { eapply Permutation_NoDup; [apply Permutation_sym; exact PL|].
      destruct root. inversion ND; auto. }
    clear - N I I'. induction log as [|[i x] log IH]; [contradiction|].
    inversion N; subst. destruct I as [I|I], I' as [I'|I'].
    + congruence.
    + injection I as -> ->. exfalso. apply H1. apply in_map_iff. exists (ce_id c, s'). auto.
    + injection I' as -> ->. exfalso. apply H1. apply in_map_iff. exists (ce_id c, s). auto.
    + auto.
  - rewrite inner_most_value_view, V. reflexivity.
Qed.
Print Assumptions C14_sibling_scope_partial.

(** List items without counter properties of their own are numbered 1, 2, 3, ... in every list,
    nested or not. *)
Theorem C14_list_numbering_partial : forall root p pre c post,
  NoDup (ids root) -> occurs p root -> ce_children p = pre ++ c :: post ->
  Forall (fun e => ce_ops e = mkOps [] [] [] true) (pre ++ [c]) ->
  exists s, In (ce_id c, s) (style_counters root) /\
    inner_most_value s (of_string "list-item") = Z.of_nat (length pre) + 1.
Proof.
  intros root p pre c post ND O E F.
  destruct (C14_sibling_scope_partial root p pre c post (of_string "list-item") ND O E)
    as (s & I & _ & V).
  exists s. split; auto. rewrite V.
  assert (H : forall l st, Forall (fun e => ce_ops e = mkOps [] [] [] true) l -> l <> [] ->
    state_value (fold_left (fun st e => ops_effect (of_string "list-item") (ce_ops e) st) l st)
    = (let '(r, v) := unwrap_or st (false, 0) in
       if r : bool then v - Z.of_nat (length l) else v + Z.of_nat (length l))).
  { clear. induction l as [|e l IH]; intros st F NE; [congruence|].
    inversion F; subst. cbn [fold_left].
    rewrite H1.
    assert (X : ops_effect (of_string "list-item") (mkOps [] [] [] true) st
            = let '(r, v) := unwrap_or st (false, 0) in Some (r, if r : bool then v - 1 else v + 1)).
    { destruct st as [[r v]|]; reflexivity. }
    rewrite X. destruct (unwrap_or st (false, 0)) as [r v].
    destruct l as [|e' l].
    - cbn. destruct r; lia.
    - rewrite IH by (auto; discriminate). cbn [unwrap_or]. cbn [length]. destruct r; lia. }
  rewrite H by (auto; destruct pre; discriminate).
  cbn [unwrap_or]. rewrite app_length. cbn [length]. lia.
Qed.
Print Assumptions C14_list_numbering_partial.

(** Counters do not reach descendants: whatever the ancestors reset, increment or set, the
    first child of an element starts from nothing. *)
Theorem C14_parent_scope_refuted : forall root p c post name,
  NoDup (ids root) -> occurs p root -> ce_children p = c :: post ->
  ce_ops c = mkOps [] [] [] false ->
  exists s, In (ce_id c, s) (style_counters root) /\ inner_most_value s name = 0.
Proof.
  intros root p c post name ND O E H.
  destruct (C14_sibling_scope_partial root p [] c post name ND O E) as (s & I & _ & V).
  exists s. split; auto. rewrite V. cbn [app fold_left]. rewrite H. reflexivity.
Qed.
Print Assumptions C14_parent_scope_refuted.

(** A concrete document: [section { counter-reset: x 5 }] around a paragraph that shows [x]:
    the paragraph sees 0 instead of 5. *)
Definition no_ops : cops := mkOps [] [] [] false.
Definition xname : str := of_string "x".
Theorem C14_reset_not_inherited_refuted : exists s,
  style_counters (CElem 0 no_ops [CElem 1 (mkOps [mkReset xname false 5] [] [] false)
                                    [CElem 2 no_ops []]])
  = [(2%nat, s); (1%nat, [mkCounter xname 1 false 5])] /\
  inner_most_value s xname = 0.
Proof. eexists. split; reflexivity. Qed.
Print Assumptions C14_reset_not_inherited_refuted.

(** Increments inside a subtree do not reach the elements after it: two sections, each with a
    figure that increments the counter the body has reset: the second figure shows 1, not 2. *)
Theorem C14_increment_not_propagated_refuted :
  let fig i := CElem i (mkOps [] [(xname, None)] [] false) [] in
  map (fun e => (fst e, inner_most_value (snd e) xname))
    (style_counters (CElem 0 no_ops
       [CElem 1 (mkOps [mkReset xname false 0] [] [] false)
          [CElem 2 no_ops [fig 3%nat]; CElem 4 no_ops [fig 5%nat]]]))
  = [(3%nat, 1); (2%nat, 0); (5%nat, 1); (4%nat, 0); (1%nat, 0)].
Proof. reflexivity. Qed.
Print Assumptions C14_increment_not_propagated_refuted.

Example C14_ex :
  let li := mkOps [] [] [] true in
  map (fun e => (fst e, inner_most_value (snd e) (of_string "list-item")))
    (style_counters (CElem 0 no_ops
       [CElem 1 no_ops [CElem 2 li [CElem 3 no_ops [CElem 4 li []; CElem 5 li []]]; CElem 6 li []]]))
  = [(4%nat, 1); (5%nat, 2); (3%nat, 0); (2%nat, 1); (6%nat, 2); (1%nat, 0)].
Proof. reflexivity. Qed.

(** * C50 *)

Lemma measure_fold glen r : forall a, fold_left (fun n s => n + glen s) r a = a + measure_repr glen r.
Proof.
  unfold measure_repr. induction r as [|x r IH]; intros a; simpl; [lia|].
  rewrite IH, (IH (glen x)). lia.
Qed.

Lemma concat_pad glen s r :
  concat (pad_repr glen s r)
  = concat (repeat (st_pad_sym s) (Z.to_nat (st_pad_len s - measure_repr glen r))) ++ concat r \/
  st_pad_len s = 0 /\ concat (pad_repr glen s r) = concat r.
Proof.
  unfold pad_repr. destruct (st_pad_len s =? 0) eqn:Z0.
  { right. split; [now apply Z.eqb_eq|reflexivity]. }
  left. cbn [negb andb]. destruct (str_eqb (st_pad_sym s) []) eqn:P0.
  { apply str_eqb_spec in P0. rewrite P0. cbn [negb andb].
    assert (X : forall k, concat (repeat (@nil N) k) = []) by (induction k; auto).
    now rewrite X. }
  cbn [negb andb]. destruct (_ <? _) eqn:Q.
  - now rewrite concat_app.
  - replace (Z.to_nat _) with O by lia. reflexivity.
Qed.

(** For non-negative values the text is the one CSS prescribes, padding included. *)
Theorem C50_text_nonnegative_partial : forall glen fuel cs name s v r,
  (forall x, 0 <= glen x) ->
  lookup cs name = Some s -> in_range (st_range s) v -> 0 <= v ->
  dispatch_system s v = Ok (Some r) ->
  exists t, construct_representation glen (S fuel) cs name v = Ok t /\
            concat t = css_text glen s v r.
Proof.
  intros glen fuel cs name s v r G L R V D.
  eexists. split.
  { apply construct_here; eauto. rewrite Z.abs_eq by lia. exact D. }
  unfold signed, css_text. destruct (v <? 0) eqn:Q; [lia|].
  cbn [app concat]. rewrite concat_app. cbn [concat]. rewrite app_nil_r.
  rewrite Z.add_0_r. f_equal.
  assert (M : 0 <= measure_repr glen r).
  { enough (X : forall a, 0 <= a -> 0 <= fold_left (fun n s => n + glen s) r a) by (apply X; lia).
    clear - G. induction r as [|x r IH]; intros a A; simpl; auto. apply IH. specialize (G x). lia. }
  destruct (concat_pad glen s r) as [E|[P E]]; rewrite E.
  - now rewrite <- app_assoc.
  - rewrite P. replace (Z.to_nat _) with O by lia. reflexivity.
Qed.
Print Assumptions C50_text_nonnegative_partial.

(** For negative values it is when the style has no prefix and no padding. *)
Theorem C50_text_negative_partial : forall glen fuel cs name s v r,
  (forall x, 0 <= glen x) ->
  lookup cs name = Some s -> in_range (st_range s) v -> v < 0 ->
  st_prefix s = [] -> st_pad_len s = 0 ->
  dispatch_system s (- v) = Ok (Some r) ->
  exists t, construct_representation glen (S fuel) cs name v = Ok t /\
            concat t = css_text glen s v r.
Proof.
  intros glen fuel cs name s v r G L R V PF P D.
  eexists. split.
  { apply construct_here; eauto. rewrite Z.abs_neq by lia. exact D. }
  rewrite pad_none by auto.
  unfold signed, css_text. destruct (v <? 0) eqn:Q; [|lia].
  rewrite PF, P. cbn [app concat].
  assert (M : 0 <= measure_repr glen r).
  { enough (X : forall a, 0 <= a -> 0 <= fold_left (fun n s => n + glen s) r a) by (apply X; lia).
    clear - G. induction r as [|x r IH]; intros a A; simpl; auto. apply IH. specialize (G x). lia. }
  pose proof (G (st_neg_pre s)). pose proof (G (unwrap_or (st_neg_app s) [])).
  replace (Z.to_nat _) with O by lia. cbn [repeat concat app].
  rewrite !concat_app. cbn [concat]. rewrite app_nil_r.
  destruct (st_neg_app s); cbn; rewrite ?app_nil_r; reflexivity.
Qed.
Print Assumptions C50_text_negative_partial.

(** With a prefix the sign lands outside it, and padding ignores the sign. *)
Theorem C50_prefix_refuted : exists cs name s r,
  lookup cs name = Some s /\ dispatch_system s 1 = Ok (Some r) /\
  forall glen fuel, exists t, construct_representation glen (S fuel) cs name (-1) = Ok t /\
    concat t = of_string "-(1" /\ css_text glen s (-1) r = of_string "(-1".
Proof.
  exists [(abc_name, mkStyle Numeric (of_string "-") None (of_string "(") [] Auto 0 [] decimal_name digits10 [])],
    abc_name. do 2 eexists. split; [reflexivity|]. split; [reflexivity|].
  intros glen fuel. eexists. split; [reflexivity|]. split; [reflexivity|].
  unfold css_text. cbn [st_pad_len st_pad_sym].
  assert (X : forall k, concat (repeat (@nil N) k) = []) by (induction k; auto).
  rewrite X. reflexivity.
Qed.
Print Assumptions C50_prefix_refuted.

Theorem C50_pad_sign_refuted : exists cs name s r,
  lookup cs name = Some s /\ dispatch_system s 1 = Ok (Some r) /\
  exists t, construct_representation glen0 1 cs name (-1) = Ok t /\
    concat t = of_string "-001" /\ css_text glen0 s (-1) r = of_string "-01".
Proof.
  exists [(abc_name, mkStyle Numeric (of_string "-") None [] [] Auto 3 (of_string "0") decimal_name digits10 [])],
    abc_name. do 2 eexists. split; [reflexivity|]. split; [reflexivity|].
  eexists. repeat split; reflexivity.
Qed.
Print Assumptions C50_pad_sign_refuted.

Example C50_ex : construct_representation glen0 1
    [(abc_name, mkStyle Numeric (of_string "-") None [] [] Auto 3 (of_string "0") decimal_name digits10 [])]
    abc_name 7
  = Ok (map of_string [""; "0"; "0"; "7"; ""]%string).
Proof. vm_compute. reflexivity. Qed.
