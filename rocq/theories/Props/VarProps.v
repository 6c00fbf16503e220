(** C119, C120: [var()]. *)
From Coq Require Import String List NArith Bool Lia PeanoNat.
From Verif.Base Require Import Str.
From Verif.Css Require Import LexerModel ParserModel.
From Verif.Values Require Import CalcModel.
From Verif.Style Require Import CascadeModel.
From Verif.Props Require Import VarModel VarSpec VarProofs.
Import ListNotations.
Local Open Scope list_scope.

(** ** C119 *)

(** Whatever the custom properties are and whatever the value of the declaration is: if the
    variables are nested less than 32 deep the outcome is the substitution. *)
Theorem C119_variables_are_replaced_partial : forall e l o k,
  substituted e k l o -> k < 32 -> expand_content e l = Some o.
Proof. intros e l o k H L. exact (expand_complete e k l o H 32 L). Qed.
Print Assumptions C119_variables_are_replaced_partial.

(** If every [var()] has a value or a fallback, nothing but the substitution is ever used. *)
Theorem C119_nothing_else_is_used_partial : forall e l o,
  tidy_env e -> tidy e l -> expand_content e l = Some o -> exists k, substituted e k l o.
Proof. intros e l o TE T E. exists 32. exact (expand_sound e TE 32 l T o E). Qed.
Print Assumptions C119_nothing_else_is_used_partial.

(** No [var()] is left, if there are no brackets other than those of functions. *)
Theorem C119_no_variable_is_left_partial : forall e l o,
  (forall x v, lookup e x = Some v -> no_blocks v) -> no_blocks l ->
  expand_content e l = Some o -> ~ has_var o.
Proof. intros e l o CE NB E. exact (proj1 (expand_clean e CE 32 l NB o E)). Qed.
Print Assumptions C119_no_variable_is_left_partial.

(** [color: rgb(var(--r), var(--g, 0), 7)] with [--r: var(--s)] and [--s: 5]. *)
Definition sx := of_string.
Definition ident x := TOK (mkT IDENT (sx x)).
Definition number x := TOK (mkT NUMBER (sx x)).
Definition comma := TOK (mkT COMMA (sx ",")).
Definition ws := TOK (mkT WHITESPACE (sx " ")).
Definition var1 x := FUNC var_name [ident x].
Definition var2 x f := FUNC var_name ([ws; ident x; ws; comma] ++ f).
Definition rgb c := FUNC (mkT FUNCTION (sx "rgb(")) c.
Definition ex_env : env := [(sx "--r", [var1 "--s"]); (sx "--s", [number "5"])].
Definition ex_value := [rgb [var1 "--r"; comma; var2 "--g" [number "0"]; comma; number "7"]].
Definition ex_out := [rgb [number "5"; comma; number "0"; comma; number "7"]].

Lemma ex_no_value : has_no_value ex_env (sx "--g").
Proof. intros v (L & _). discriminate L. Qed.
Lemma ws_blank : blank [ws].
Proof. repeat constructor. now exists (sx " "). Qed.
Lemma rgb_not_var : ~ var_fun (mkT FUNCTION (sx "rgb(")).
Proof. intros (_ & H). discriminate H. Qed.
Lemma var_name_fun : var_fun var_name.
Proof. now apply is_var_iff. Qed.
Lemma plain_value e x t : lookup e x = Some [TOK t] -> t_type t <> GUARANTEED_INVALID -> has_value e x [TOK t].
Proof. intros L N. split; [exact L|]. exists (TOK t), []. split; [reflexivity|]. intros (d & E). injection E as ->. now apply N. Qed.

Example C119_case_substituted : substituted ex_env 2 ex_value ex_out.
Proof.
  constructor; [exact rgb_not_var| |constructor].
  apply (sub_value _ 1 var_name [] (sx "--r") [] [var1 "--s"] [number "5"]).
  - exact var_name_fun.
  - constructor.
  - split; [reflexivity|]. exists (var1 "--s"), []. split; [reflexivity|]. intros (d & E). discriminate E.
  - apply (sub_value _ 0 var_name [] (sx "--s") [] [number "5"] [number "5"]).
    + exact var_name_fun.
    + constructor.
    + now apply plain_value.
    + constructor; [discriminate|constructor].
    + constructor.
  - constructor; [discriminate|].
    apply (sub_fallback _ 1 var_name [ws] (sx "--g") [ws] (sx ",") [number "0"] [number "0"]).
    + exact var_name_fun.
    + exact ws_blank.
    + exact ws_blank.
    + exact ex_no_value.
    + constructor; [discriminate|constructor].
    + constructor; [discriminate|]. constructor; [discriminate|]. constructor.
Qed.
Example C119_case_run : expand_content ex_env ex_value = Some ex_out.
Proof. reflexivity. Qed.
Example C119_case_tidy : tidy_env ex_env /\ tidy ex_env ex_value.
Proof.
  assert (R : has_value ex_env (sx "--r") [var1 "--s"]).
  { split; [reflexivity|]. exists (var1 "--s"), []. split; [reflexivity|]. intros (d & E). discriminate E. }
  assert (T : has_value ex_env (sx "--s") [number "5"]) by now apply plain_value.
  split.
  - intros x v (L & _). unfold ex_env in L. cbn [lookup] in L.
    destruct (str_eqb (sx "--r") x).
    + injection L as <-. apply (tidy_value _ var_name [] (sx "--s") [number "5"] []); [exact var_name_fun|constructor|exact T|constructor].
    + destruct (str_eqb (sx "--s") x); [|discriminate L]. injection L as <-. constructor; [discriminate|constructor].
  - constructor; [exact rgb_not_var| |constructor].
    apply (tidy_value _ var_name [] (sx "--r") [var1 "--s"] []); [exact var_name_fun|constructor|exact R|].
    constructor; [discriminate|].
    apply (tidy_fallback _ var_name [ws] (sx "--g") [ws] (sx ",") [number "0"]).
    + exact var_name_fun.
    + exact ws_blank.
    + exact ws_blank.
    + exact ex_no_value.
    + constructor; [discriminate|constructor].
    + repeat (constructor; [discriminate|]). constructor.
Qed.
Example C119_case_no_blocks : no_blocks ex_value /\ forall x v, lookup ex_env x = Some v -> no_blocks v.
Proof.
  split; [repeat constructor|]. intros x v. unfold ex_env. cbn [lookup].
  destruct (str_eqb (sx "--r") x); [intros E; injection E as <-; repeat constructor|].
  destruct (str_eqb (sx "--s") x); [intros E; injection E as <-; repeat constructor|discriminate].
Qed.

(** What the full claim needs and does not hold. A chain of more than 31 variables is refused
    however harmless, for every length ... *)
Theorem C119_long_chain_refuted : forall n t, 32 <= n -> t_type t <> GUARANTEED_INVALID ->
  let e := chain_env once [TOK t] n in
  substituted e (S n) [var_of (nth_name 0)] [TOK t] /\ expand_content e [var_of (nth_name 0)] = None.
Proof.
  intros n t L NI. split.
  - exact (chain_substituted n t NI n 0 ltac:(lia)).
  - exact (chain_too_long n [TOK t] 32 0 ltac:(lia)).
Qed.
Print Assumptions C119_long_chain_refuted.

Example C119_long_chain_case : t_type (mkT IDENT (sx "red")) <> GUARANTEED_INVALID.
Proof. discriminate. Qed.

(** ... a [var()] without value and fallback makes a declaration invalid, but here it counts as
    nothing at all, between any values ... *)
Theorem C119_missing_variable_refuted : forall e x a b, has_no_value e x ->
  expand_content e [TOK a; var_of x; TOK b] = Some [TOK a; TOK b] /\
  forall k o, ~ substituted e k [TOK a; var_of x; TOK b] o.
Proof.
  intros e x a b N. split.
  - unfold expand_content, max_depth. rewrite expand_S. cbn [expand_all]. unfold var_of.
    rewrite expand_one_func. change (is_var var_name) with true. cbn [expand_one].
    rewrite (no_value_fallback _ e [] x [] (Forall_nil _) N). reflexivity.
  - intros k o H. inversion H; subst. match goal with [ K : substituted _ _ (var_of x :: _) _ |- _ ] => rename K into H1 end.
    unfold var_of in H1. inversion H1; subst.
    + match goal with [ K : forall n c, _ <> FUNC n c |- _ ] => now elim (K _ _ eq_refl) end.
    + match goal with [ K : ~ var_fun _ |- _ ] => now elim (K var_name_fun) end.
    + match goal with [ B : blank ?w, E : ?w ++ _ :: _ = [_] |- _ ] => destruct w as [|s [|s' w']]; cbn in E; try discriminate E end.
      match goal with [ E : [] ++ _ = _ |- _ ] => cbn in E; injection E as -> -> | [ E : _ :: _ = [_] |- _ ] => injection E as -> -> end.
      match goal with [ V : has_value _ _ _ |- _ ] => exact (N _ V) end.
    + match goal with [ E : ?w ++ _ :: _ = [_] |- _ ] => destruct w as [|s [|s' w0]]; cbn in E; try discriminate E; injection E as E1 E2; try discriminate E2; destruct w'; discriminate E2 end.
Qed.
Print Assumptions C119_missing_variable_refuted.

Example C119_missing_variable_case : has_no_value [] (sx "--x").
Proof. intros v (L & _). discriminate L. Qed.

(** ... and a [var()] in parentheses stays as it is. *)
Theorem C119_variable_in_brackets_refuted : forall e c,
  expand_content e [BLOCK c] = Some [BLOCK c] /\ (has_var c -> has_var [BLOCK c]).
Proof. intros e c. split; [reflexivity|]. intros H. now apply hv_block. Qed.
Print Assumptions C119_variable_in_brackets_refuted.

Example C119_variable_in_brackets_case : has_var [var1 "--x"].
Proof. apply hv_here. exact var_name_fun. Qed.

(** ** C120 *)

(** A declaration that needs the value of a variable whose own value is needed for it, through
    any number of others, is given up: whatever else there is in it, it has no value. *)
Theorem C120_cycles_have_no_value : forall e l x,
  cyclic e x -> mentions e l x -> expand_content e l = None.
Proof.
  intros e l x C M. apply (expand_doomed e 32 l x M). exists x. split; exact C.
Qed.
Print Assumptions C120_cycles_have_no_value.

(** Likewise a declaration that needs it only through other variables. *)
Theorem C120_users_of_cycles_have_no_value : forall e l y x,
  mentions e l y -> uses_plus e y x -> cyclic e x -> expand_content e l = None.
Proof.
  intros e l y x M U C. apply (expand_doomed e 32 l y M). exists x. split; assumption.
Qed.
Print Assumptions C120_users_of_cycles_have_no_value.

(** [--a: var(--b)], [--b: calc(1 + var(--a))] and [--c: var(--a)]. *)
Definition cycle_env : env :=
  [(sx "--a", [var1 "--b"]); (sx "--b", [FUNC (mkT FUNCTION (sx "calc(")) [number "1"; ws; var1 "--a"]]);
   (sx "--c", [var1 "--a"])].
Lemma function_value e x n c r : lookup e x = Some (FUNC n c :: r) -> has_value e x (FUNC n c :: r).
Proof. intros L. split; [exact L|]. exists (FUNC n c), r. split; [reflexivity|]. intros (d & E). discriminate E. Qed.
Example C120_case : cyclic cycle_env (sx "--a") /\ uses_plus cycle_env (sx "--c") (sx "--a") /\
  mentions cycle_env [number "3"; var1 "--c"] (sx "--c").
Proof.
  split; [|split].
  - apply up_more with (y := sx "--b").
    + exists [var1 "--b"]. split; [now apply function_value|].
      apply (men_var _ var_name [] (sx "--b") []); [exact var_name_fun|constructor].
    + apply up_one. eexists. split; [now apply function_value|].
      apply men_function; [intros (_ & H); discriminate H|]. do 2 apply men_next.
      apply (men_var _ var_name [] (sx "--a") []); [exact var_name_fun|constructor].
  - apply up_one. eexists. split; [now apply function_value|].
    apply (men_var _ var_name [] (sx "--a") []); [exact var_name_fun|constructor].
  - apply men_next. apply (men_var _ var_name [] (sx "--c") []); [exact var_name_fun|constructor].
Qed.

(** The work that is done is not in proportion to the document: [n] declarations of two values
    each make a value of [2 ^ n] components, for every [n] up to 30. *)
Theorem C120_small_input_small_value_refuted : forall n t, n <= 30 -> t_type t <> GUARANTEED_INVALID ->
  expand_content (chain_env twice [TOK t] n) [var_of (nth_name 0)] = Some (repeat (TOK t) (2 ^ n)) /\
  List.length (chain_env twice [TOK t] n) = S n.
Proof.
  intros n t L NI. split.
  - exact (tree_expand n t NI n 0 32 ltac:(lia) ltac:(lia)).
  - unfold chain_env. rewrite app_length, map_length, seq_length. cbn. lia.
Qed.
Print Assumptions C120_small_input_small_value_refuted.
