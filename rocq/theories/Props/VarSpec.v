(** What substituting [var()] means, after CSS Custom Properties for Cascading Variables. *)
From Coq Require Import String List NArith Bool Lia.
From Verif.Base Require Import Str.
From Verif.Css Require Import LexerModel ParserModel.
From Verif.Style Require Import CascadeModel.
From Verif.Props Require Import VarModel.
Import ListNotations.
Local Open Scope list_scope.

(** White space, and nothing else. *)
Definition blank (l : list sst) : Prop :=
  Forall (fun s => exists d, s = TOK (mkT WHITESPACE d)) l.

Definition invalid (s : sst) : Prop := exists d, s = TOK (mkT GUARANTEED_INVALID d).

(** The function [var()], in any case of letters. *)
Definition var_fun (n : token) : Prop :=
  t_type n = FUNCTION /\ eq_ci (t_data n) (of_string "var(") = true.

(** The variable [x] has the value [v] in [e]; it has none if it is not there, is empty or is
    the guaranteed-invalid value. *)
Definition has_value (e : env) (x : str) (v : list sst) : Prop :=
  lookup e x = Some v /\ exists s r, v = s :: r /\ ~ invalid s.
Definition has_no_value (e : env) (x : str) : Prop := forall v, ~ has_value e x v.

(** [substituted e k l o]: replacing every [var()] of [l] by the value of its variable, or else
    by its fallback, itself substituted, gives [o]; values are nested [k] deep at most. There is
    no rule for a variable with neither value nor fallback, nor for one that is not well formed:
    a declaration that has one is invalid. *)
Inductive substituted (e : env) : nat -> list sst -> list sst -> Prop :=
| sub_nil k : substituted e k [] []
| sub_plain k s r o :
    (forall n c, s <> FUNC n c) -> substituted e k r o -> substituted e k (s :: r) (s :: o)
| sub_function k n c c' r o :
    ~ var_fun n -> substituted e k c c' -> substituted e k r o ->
    substituted e k (FUNC n c :: r) (FUNC n c' :: o)
| sub_value k n w x rest v o1 r o2 :
    var_fun n -> blank w -> has_value e x v ->
    substituted e k v o1 -> substituted e (S k) r o2 ->
    substituted e (S k) (FUNC n (w ++ TOK (mkT IDENT x) :: rest) :: r) (o1 ++ o2)
| sub_fallback k n w x w' d f o1 r o2 :
    var_fun n -> blank w -> blank w' -> has_no_value e x ->
    substituted e k f o1 -> substituted e (S k) r o2 ->
    substituted e (S k) (FUNC n (w ++ TOK (mkT IDENT x) :: w' ++ TOK (mkT COMMA d) :: f) :: r) (o1 ++ o2).

(** [mentions e l y]: substituting in [l] needs the value of [y]: [l] has a [var(y)], or a
    function with one in it, or a [var()] without value whose fallback has one. *)
Inductive mentions (e : env) : list sst -> str -> Prop :=
| men_next s r y : mentions e r y -> mentions e (s :: r) y
| men_function n c r y : ~ var_fun n -> mentions e c y -> mentions e (FUNC n c :: r) y
| men_var n w y rest r : var_fun n -> blank w -> mentions e (FUNC n (w ++ TOK (mkT IDENT y) :: rest) :: r) y
| men_fallback n w x w' d f r y :
    var_fun n -> blank w -> blank w' -> has_no_value e x -> mentions e f y ->
    mentions e (FUNC n (w ++ TOK (mkT IDENT x) :: w' ++ TOK (mkT COMMA d) :: f) :: r) y.

(** The value of [x] is needed for that of ... *)
Definition uses (e : env) (x y : str) : Prop := exists v, has_value e x v /\ mentions e v y.

Inductive uses_plus (e : env) : str -> str -> Prop :=
| up_one x y : uses e x y -> uses_plus e x y
| up_more x y z : uses e x y -> uses_plus e y z -> uses_plus e x z.

(** Its own. *)
Definition cyclic (e : env) (x : str) : Prop := uses_plus e x x.

(** A [var()] anywhere in the content, blocks included. *)
Inductive has_var : list sst -> Prop :=
| hv_next s r : has_var r -> has_var (s :: r)
| hv_here n c r : var_fun n -> has_var (FUNC n c :: r)
| hv_function n c r : has_var c -> has_var (FUNC n c :: r)
| hv_block c r : has_var c -> has_var (BLOCK c :: r).

(** Contents without brackets of any kind but those of functions. *)
Inductive no_blocks : list sst -> Prop :=
| nb_nil : no_blocks []
| nb_token t r : no_blocks r -> no_blocks (TOK t :: r)
| nb_function n c r : no_blocks c -> no_blocks r -> no_blocks (FUNC n c :: r).

(** Every [var()] is well formed, and has a fallback unless its variable has a value. *)
Inductive tidy (e : env) : list sst -> Prop :=
| tidy_nil : tidy e []
| tidy_plain s r : (forall n c, s <> FUNC n c) -> tidy e r -> tidy e (s :: r)
| tidy_function n c r : ~ var_fun n -> tidy e c -> tidy e r -> tidy e (FUNC n c :: r)
| tidy_value n w x v rest r :
    var_fun n -> blank w -> has_value e x v -> tidy e r ->
    tidy e (FUNC n (w ++ TOK (mkT IDENT x) :: rest) :: r)
| tidy_fallback n w x w' d f r :
    var_fun n -> blank w -> blank w' -> has_no_value e x -> tidy e f -> tidy e r ->
    tidy e (FUNC n (w ++ TOK (mkT IDENT x) :: w' ++ TOK (mkT COMMA d) :: f) :: r).

Definition tidy_env (e : env) : Prop := forall x v, has_value e x v -> tidy e v.
