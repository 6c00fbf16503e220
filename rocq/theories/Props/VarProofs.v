(** Proofs about the substitution of [var()]. *)
From Coq Require Import String List NArith Bool Lia PeanoNat.
From Verif.Base Require Import Str.
From Verif.Css Require Import LexerModel ParserModel.
From Verif.Values Require Import CalcModel.
From Verif.Style Require Import CascadeModel.
From Verif.Props Require Import VarModel VarSpec.
Import ListNotations.
Local Open Scope list_scope.

Lemma ttype_beq_refl t : ttype_beq t t = true.
Proof. now destruct t. Qed.

Lemma is_var_iff n : is_var n = true <-> var_fun n.
Proof.
  unfold is_var, token_eqb, var_fun, var_name. cbn [t_type t_data]. rewrite andb_true_iff. split.
  - intros [A B]. split; [|exact B]. destruct (t_type n); try discriminate A. reflexivity.
  - intros [A B]. rewrite A. split; [reflexivity|exact B].
Qed.
Lemma is_var_false n : ~ var_fun n -> is_var n = false.
Proof. intros H. destruct (is_var n) eqn:E; [|reflexivity]. apply is_var_iff in E. now elim H. Qed.

Lemma expand_one_func sub e n c :
  expand_one sub e (FUNC n c) =
  if is_var n then expand_variable sub e c
  else match expand_all sub e c with Some out => Some [FUNC n out] | None => None end.
Proof.
  cbn [expand_one]. destruct (is_var n); [reflexivity|].
  assert (E : forall l,
    (fix all (l : list sst) : option (list sst) :=
       match l with
       | [] => Some []
       | x :: r => match expand_one sub e x with
                   | None => None
                   | Some o => match all r with None => None | Some o' => Some (o ++ o') end
                   end
       end) l = expand_all sub e l).
  { induction l as [|x r IH]; [reflexivity|]. cbn [expand_all]. destruct (expand_one sub e x); [|reflexivity].
    now rewrite IH. }
  now rewrite E.
Qed.

Lemma expand_one_plain sub e s : (forall n c, s <> FUNC n c) -> expand_one sub e s = Some [s].
Proof. intros H. destruct s; try reflexivity. now elim (H name content). Qed.

Lemma expand_S left e l : expand (S left) e l = expand_all (expand left e) e l.
Proof. reflexivity. Qed.
Lemma expand_nil left e : expand left e [] = Some [].
Proof. now destruct left. Qed.

Lemma eat_blank w r : blank w -> eat_wss (w ++ r) = eat_wss r.
Proof. induction 1 as [|s w [d ->] _ IH]; [reflexivity|]. exact IH. Qed.

Lemma has_value_split e x v : has_value e x v ->
  exists s r, v = s :: r /\ lookup e x = Some (s :: r) /\ is_type GUARANTEED_INVALID s = false.
Proof.
  intros (L & s & r & -> & I). exists s, r. repeat split; [exact L|].
  destruct s as [t|? ?|?|? ? ?|? ? ?]; try reflexivity. cbn. destruct (ttype_beq (t_type t) GUARANTEED_INVALID) eqn:E; [|reflexivity].
  elim I. destruct t as [ty d]. cbn in E. destruct ty; try discriminate E. now exists d.
Qed.

Lemma no_value_fallback sub e w x rest : blank w -> has_no_value e x ->
  expand_variable sub e (w ++ TOK (mkT IDENT x) :: rest) = expand_fallback sub rest.
Proof.
  intros W N. unfold expand_variable. rewrite (eat_blank w _ W). cbn.
  destruct (lookup e x) as [[|v vs]|] eqn:L; try reflexivity.
  destruct (is_type GUARANTEED_INVALID v) eqn:I; [reflexivity|].
  elim (N (v :: vs)). split; [exact L|]. exists v, vs. split; [reflexivity|].
  intros (d & ->). discriminate I.
Qed.

Lemma value_used sub e w x rest v : blank w -> has_value e x v ->
  expand_variable sub e (w ++ TOK (mkT IDENT x) :: rest) = sub v.
Proof.
  intros W H. apply has_value_split in H as (s & r & -> & L & I).
  unfold expand_variable. rewrite (eat_blank w _ W). cbn. now rewrite L, I.
Qed.

Lemma fallback_used sub w' d f : blank w' -> expand_fallback sub (w' ++ TOK (mkT COMMA d) :: f) = sub f.
Proof. intros W. unfold expand_fallback. now rewrite (eat_blank w' _ W). Qed.

(** Any substitution that is not nested too deep is found. *)
Lemma expand_complete e k l o : substituted e k l o -> forall left, k < left -> expand left e l = Some o.
Proof.
  induction 1 as [k|k s r o P _ IH|k n c c' r o N _ IHc _ IHr|k n w x rest v o1 r o2 F W V _ IHv _ IHr
                 |k n w x w' d f o1 r o2 F W W' V _ IHf _ IHr]; intros left L.
  - apply expand_nil.
  - destruct left as [|left]; [lia|]. specialize (IH (S left) L). rewrite expand_S in *. cbn [expand_all].
    rewrite (expand_one_plain _ _ _ P), IH. reflexivity.
  - destruct left as [|left]; [lia|]. specialize (IHc (S left) L). specialize (IHr (S left) L).
    rewrite expand_S in *. cbn [expand_all].
    rewrite expand_one_func, (is_var_false n N), IHc, IHr. reflexivity.
  - destruct left as [|left]; [lia|]. specialize (IHr (S left) L). rewrite expand_S in *. cbn [expand_all].
    rewrite expand_one_func, (proj2 (is_var_iff n) F), (value_used _ _ _ _ _ _ W V), (IHv left) by lia.
    now rewrite IHr.
  - destruct left as [|left]; [lia|]. specialize (IHr (S left) L). rewrite expand_S in *. cbn [expand_all].
    rewrite expand_one_func, (proj2 (is_var_iff n) F), (no_value_fallback _ _ _ _ _ W V), (fallback_used _ _ _ _ W'), (IHf left) by lia.
    now rewrite IHr.
Qed.

(** What is found is the substitution. *)
Lemma expand_sound e : tidy_env e -> forall left l, tidy e l -> forall o, expand left e l = Some o -> substituted e left l o.
Proof.
  intros TE. induction left as [|left IH].
  - intros [|s r] _ o E; [|discriminate E]. injection E as <-. constructor.
  - intros l T. rewrite expand_S. induction T as [|s r P _ IHr|n c r N _ IHc _ IHr|n w x v rest r F W V _ IHr|n w x w' d f r F W W' V Tf _ _ IHr];
      intros o E; cbn [expand_all] in E.
    + injection E as <-. constructor.
    + rewrite (expand_one_plain _ _ _ P) in E. destruct (expand_all (expand left e) e r) as [o'|] eqn:Er; [|discriminate].
      injection E as <-. constructor; [exact P|]. now apply IHr.
    + rewrite expand_one_func, (is_var_false n N) in E.
      destruct (expand_all (expand left e) e c) as [c'|] eqn:Ec; [|discriminate].
      destruct (expand_all (expand left e) e r) as [o'|] eqn:Er; [|discriminate].
      injection E as <-. constructor; [exact N|now apply IHc|now apply IHr].
    + rewrite expand_one_func, (proj2 (is_var_iff n) F), (value_used _ _ _ _ _ _ W V) in E.
      destruct (expand left e v) as [o1|] eqn:Ev; [|discriminate].
      destruct (expand_all (expand left e) e r) as [o'|] eqn:Er; [|discriminate].
      injection E as <-. apply sub_value with (v := v); [exact F|exact W|exact V| |now apply IHr].
      apply IH; [|exact Ev]. exact (TE x v V).
    + rewrite expand_one_func, (proj2 (is_var_iff n) F), (no_value_fallback _ _ _ _ _ W V), (fallback_used _ _ _ _ W') in E.
      destruct (expand left e f) as [o1|] eqn:Ev; [|discriminate].
      destruct (expand_all (expand left e) e r) as [o'|] eqn:Er; [|discriminate].
      injection E as <-. apply sub_fallback; [exact F|exact W|exact W'|exact V| |now apply IHr].
      now apply IH.
Qed.

(** ** Cycles *)

Definition doomed e x := exists z, uses_plus e x z /\ cyclic e z.
Lemma doomed_step e x : doomed e x -> exists v y, has_value e x v /\ mentions e v y /\ doomed e y.
Proof.
  intros (z & U & C). destruct U as [x z (v & V & M)|x y z (v & V & M) U].
  - exists v, z. split; [exact V|]. split; [exact M|]. exists z. split; exact C.
  - exists v, y. split; [exact V|]. split; [exact M|]. exists z. now split.
Qed.

Lemma expand_all_cons_none sub e s r : expand_all sub e r = None -> expand_all sub e (s :: r) = None.
Proof. intros H. cbn [expand_all]. rewrite H. now destruct (expand_one sub e s). Qed.
Lemma expand_all_here_none sub e s r : expand_one sub e s = None -> expand_all sub e (s :: r) = None.
Proof. intros H. cbn [expand_all]. now rewrite H. Qed.

Lemma expand_doomed e : forall left l x, mentions e l x -> doomed e x -> expand left e l = None.
Proof.
  induction left as [|left IH]; intros l x M.
  - intros _. destruct M; reflexivity.
  - rewrite expand_S. induction M as [s r y _ IHr|n c r y N _ IHc|n w y rest r F W|n w x w' d f r y F W W' V M _]; intros D.
    + apply expand_all_cons_none. now apply IHr.
    + apply expand_all_here_none. rewrite expand_one_func, (is_var_false n N), (IHc D). reflexivity.
    + apply expand_all_here_none. rewrite expand_one_func, (proj2 (is_var_iff n) F).
      destruct (doomed_step e y D) as (v & z & V & M & D').
      rewrite (value_used _ _ _ _ _ _ W V). exact (IH v z M D').
    + apply expand_all_here_none. rewrite expand_one_func, (proj2 (is_var_iff n) F), (no_value_fallback _ _ _ _ _ W V), (fallback_used _ _ _ _ W').
      exact (IH f y M D).
Qed.

(** ** Nothing is left *)

Lemma has_var_app a b : has_var (a ++ b) -> has_var a \/ has_var b.
Proof.
  induction a as [|s a IH]; intros H; [now right|]. cbn in H. inversion H; subst.
  - destruct (IH H1) as [A|B]; [left; now constructor|now right].
  - left. now apply hv_here.
  - left. now apply hv_function.
  - left. now apply hv_block.
Qed.
Lemma no_blocks_app a b : no_blocks a -> no_blocks b -> no_blocks (a ++ b).
Proof. induction 1; cbn; intros; try constructor; auto. Qed.
Lemma no_blocks_eat l : no_blocks l -> no_blocks (eat_wss l).
Proof.
  induction 1; cbn; [constructor| |now constructor].
  destruct (ttype_beq (t_type t) WHITESPACE); [assumption|now constructor].
Qed.
Lemma no_blocks_tail s r : no_blocks (s :: r) -> no_blocks r.
Proof. inversion 1; assumption. Qed.

Definition clean_env (e : env) := forall x v, lookup e x = Some v -> no_blocks v.

Lemma expand_variable_clean sub e c o :
  clean_env e -> (forall l o, no_blocks l -> sub l = Some o -> ~ has_var o /\ no_blocks o) ->
  no_blocks c -> expand_variable sub e c = Some o -> ~ has_var o /\ no_blocks o.
Proof.
  intros CE SUB NB E. assert (NIL : ~ has_var [] /\ no_blocks []) by (split; [inversion 1|constructor]).
  apply no_blocks_eat in NB. unfold expand_variable in E.
  destruct (eat_wss c) as [|[t|? ?|?|? ? ?|? ? ?] rest]; try (injection E as <-; exact NIL).
  destruct (ttype_beq (t_type t) IDENT); [|injection E as <-; exact NIL].
  assert (FB : expand_fallback sub rest = Some o -> ~ has_var o /\ no_blocks o).
  { unfold expand_fallback. apply no_blocks_tail, no_blocks_eat in NB.
    destruct (eat_wss rest) as [|s r]; [intros H; injection H as <-; exact NIL|].
    destruct (is_type COMMA s); [|intros H; injection H as <-; exact NIL].
    apply SUB. exact (no_blocks_tail _ _ NB). }
  destruct (lookup e (t_data t)) as [[|v vs]|] eqn:L; try exact (FB E).
  destruct (is_type GUARANTEED_INVALID v); [exact (FB E)|]. exact (SUB _ _ (CE _ _ L) E).
Qed.

Lemma expand_clean e : clean_env e -> forall left l, no_blocks l -> forall o, expand left e l = Some o -> ~ has_var o /\ no_blocks o.
Proof.
  intros CE. induction left as [|left IH].
  - intros [|s r] _ o E; [|discriminate E]. injection E as <-. split; [inversion 1|constructor].
  - intros l NB. rewrite expand_S. induction NB as [|t r _ IHr|n c r NBc IHc _ IHr]; intros o E; cbn [expand_all] in E.
    + injection E as <-. split; [inversion 1|constructor].
    + cbn [expand_one] in E. destruct (expand_all (expand left e) e r) as [o'|] eqn:Er; [|discriminate].
      injection E as <-. destruct (IHr _ eq_refl) as [A B]. split; [|now constructor].
      intros H. apply A. inversion H; subst. assumption.
    + rewrite expand_one_func in E.
      destruct (is_var n) eqn:V.
      * destruct (expand_variable (expand left e) e c) as [o1|] eqn:E1; [|discriminate].
        destruct (expand_all (expand left e) e r) as [o'|] eqn:Er; [|discriminate].
        injection E as <-. destruct (IHr _ eq_refl) as [A B].
        destruct (expand_variable_clean (expand left e) e c o1 CE (fun l o nb => IH l nb o) NBc E1) as [A1 B1].
        split; [|now apply no_blocks_app]. intros H. apply has_var_app in H as [H|H]; [now apply A1|now apply A].
      * destruct (expand_all (expand left e) e c) as [o1|] eqn:E1; [|discriminate].
        destruct (expand_all (expand left e) e r) as [o'|] eqn:Er; [|discriminate].
        injection E as <-. destruct (IHr _ eq_refl) as [A B]. destruct (IHc _ eq_refl) as [A1 B1].
        split; [|now constructor]. intros H. inversion H; subst.
        -- now apply A.
        -- apply is_var_iff in H1. congruence.
        -- now apply A1.
Qed.

(** ** Chains of variables *)

(** The names [--], [--a], [--aa], ... *)
Definition nth_name (i : nat) : str := of_string "--" ++ repeat 97%N i.
Lemma nth_name_inj i j : nth_name i = nth_name j -> i = j.
Proof.
  intros H. apply app_inv_head in H. apply (f_equal (@List.length _)) in H. now rewrite !repeat_length in H.
Qed.

Definition var_of (x : str) : sst := FUNC var_name [TOK (mkT IDENT x)].
(** [--: f (--a)], [--a: f (--aa)], ..., and the last one has the value [last]. *)
Definition chain_env (f : sst -> list sst) (last : list sst) (n : nat) : env :=
  map (fun i => (nth_name i, f (var_of (nth_name (S i))))) (seq 0 n) ++ [(nth_name n, last)].

Lemma str_eqb_false a b : a <> b -> str_eqb a b = false.
Proof. apply str_eqb_neq. Qed.

Lemma lookup_map_seq (g : nat -> list sst) tail i : forall n s,
  lookup (map (fun j => (nth_name j, g j)) (seq s n) ++ tail) (nth_name i) =
  if (s <=? i) && (i <? s + n) then Some (g i) else lookup tail (nth_name i).
Proof.
  induction n as [|n IH]; intros s.
  - cbn [seq map app]. destruct (Nat.leb_spec s i), (Nat.ltb_spec i (s + 0)); try reflexivity; lia.
  - cbn [seq map app lookup]. rewrite IH. destruct (Nat.eq_dec s i) as [->|N].
    + rewrite str_eqb_refl. destruct (Nat.leb_spec i i), (Nat.ltb_spec i (i + S n)); try lia. reflexivity.
    + rewrite str_eqb_false by (intros H; apply nth_name_inj in H; now apply N).
      destruct (Nat.leb_spec (S s) i), (Nat.leb_spec s i), (Nat.ltb_spec i (S s + n)), (Nat.ltb_spec i (s + S n)); try lia; reflexivity.
Qed.

Lemma chain_lookup f last n i : i < n -> lookup (chain_env f last n) (nth_name i) = Some (f (var_of (nth_name (S i)))).
Proof.
  intros H. unfold chain_env. rewrite (lookup_map_seq (fun i => f (var_of (nth_name (S i))))).
  destruct (Nat.leb_spec 0 i), (Nat.ltb_spec i (0 + n)); try lia. reflexivity.
Qed.
Lemma chain_last f last n : lookup (chain_env f last n) (nth_name n) = Some last.
Proof.
  unfold chain_env. rewrite (lookup_map_seq (fun i => f (var_of (nth_name (S i))))).
  destruct (Nat.leb_spec 0 n), (Nat.ltb_spec n (0 + n)); try lia. cbn [andb lookup]. now rewrite str_eqb_refl.
Qed.

Lemma expand_var left e x v s r : lookup e x = Some v -> v = s :: r -> is_type GUARANTEED_INVALID s = false ->
  expand_one (expand left e) e (var_of x) = expand left e v.
Proof. intros L -> I. unfold var_of. rewrite expand_one_func. cbn. now rewrite L, I. Qed.

Definition once (s : sst) : list sst := [s].
Definition twice (s : sst) : list sst := [s; s].

Lemma chain_too_long n last : forall left i, left + i <= n -> expand left (chain_env once last n) [var_of (nth_name i)] = None.
Proof.
  induction left as [|left IH]; intros i H; [reflexivity|].
  rewrite expand_S. cbn [expand_all].
  rewrite (expand_var left _ _ _ _ _ (chain_lookup once last n i ltac:(lia)) eq_refl eq_refl).
  change (once (var_of (nth_name (S i)))) with [var_of (nth_name (S i))]. rewrite IH by lia. reflexivity.
Qed.

Lemma chain_substituted n t : t_type t <> GUARANTEED_INVALID -> forall j i, j + i = n ->
  substituted (chain_env once [TOK t] n) (S j) [var_of (nth_name i)] [TOK t].
Proof.
  intros NI. induction j as [|j IH]; intros i H.
  - cbn in H. subst i. change [TOK t] with ([TOK t] ++ []) at 2. unfold var_of.
    apply (sub_value _ 0 var_name [] (nth_name n) [] [TOK t]).
    + now apply is_var_iff.
    + constructor.
    + split; [apply chain_last|]. exists (TOK t), []. split; [reflexivity|]. intros (d & E). injection E as ->. now apply NI.
    + constructor; [discriminate|constructor].
    + constructor.
  - change [TOK t] with ([TOK t] ++ []) at 2. unfold var_of at 1.
    apply (sub_value _ (S j) var_name [] (nth_name i) [] [var_of (nth_name (S i))]).
    + now apply is_var_iff.
    + constructor.
    + split; [exact (chain_lookup once _ n i ltac:(lia))|]. exists (var_of (nth_name (S i))), []. split; [reflexivity|]. intros (d & E). discriminate E.
    + apply IH. lia.
    + constructor.
Qed.

Lemma tree_expand n t : t_type t <> GUARANTEED_INVALID -> forall j i left, j + i = n -> S j < left ->
  expand left (chain_env twice [TOK t] n) [var_of (nth_name i)] = Some (repeat (TOK t) (2 ^ j)).
Proof.
  intros NI. assert (G : is_type GUARANTEED_INVALID (TOK t) = false).
  { cbn. destruct t as [ty d]. cbn in *. destruct ty; try reflexivity. now elim NI. }
  induction j as [|j IH]; intros i left H L; (destruct left as [|left]; [lia|]); rewrite expand_S; cbn [expand_all].
  - cbn in H. subst i. rewrite (expand_var left _ _ _ _ _ (chain_last twice [TOK t] n) eq_refl G).
    destruct left as [|left]; [lia|]. reflexivity.
  - rewrite (expand_var left _ _ _ _ _ (chain_lookup twice [TOK t] n i ltac:(lia)) eq_refl eq_refl).
    destruct left as [|left]; [lia|].
    pose proof (IH (S i) (S left) ltac:(lia) ltac:(lia)) as E. rewrite expand_S in E. cbn [expand_all] in E.
    change (twice (var_of (nth_name (S i)))) with [var_of (nth_name (S i)); var_of (nth_name (S i))].
    rewrite expand_S. cbn [expand_all].
    destruct (expand_one (expand left (chain_env twice [TOK t] n)) (chain_env twice [TOK t] n) (var_of (nth_name (S i)))) as [o|]; [|discriminate E].
    injection E as E. rewrite app_nil_r in E |- *. subst o. rewrite app_nil_r, <- repeat_app. do 2 f_equal. cbn [Nat.pow]. lia.
Qed.
