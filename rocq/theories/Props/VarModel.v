(** props/base.cpp: custom properties and the substitution of [var()]. *)
From Coq Require Import String List NArith Bool.
From Verif.Base Require Import Str.
From Verif.Css Require Import LexerModel ParserModel.
From Verif.Values Require Import CalcModel.
From Verif.Style Require Import CascadeModel.
Import ListNotations.
Local Open Scope list_scope.

(** style/computed.cpp:59 [Map<Symbol, Css::Content> customProps], the newest entry first. *)
Definition env := list (str * list sst).

(** props/base.cpp:377-378: the name of the function ([Token::operator==] ignores case,
    css/lexer.cpp:84-86). *)
Definition var_name : token := mkT FUNCTION (of_string "var(").
Definition is_var (n : token) : bool := token_eqb n var_name.

(** css/parser.cpp:94-97 [Sst::operator==(Token::Type)] *)
Definition is_type (ty : ttype) (s : sst) : bool :=
  match s with TOK t => ttype_beq (t_type t) ty | _ => false end.

(** The tail of [_expandVariable], props/base.cpp:402-410: the fallback after the comma. [sub]
    expands a content one level deeper. *)
Definition expand_fallback (sub : list sst -> option (list sst)) (rest : list sst) : option (list sst) :=
  match eat_wss rest with
  | c :: rest' => if is_type COMMA c then sub rest' else Some []
  | [] => Some []
  end.

(** props/base.cpp:374-411 [_expandVariable] for the content of a [var(...)]. *)
Definition expand_variable (sub : list sst -> option (list sst)) (e : env) (content : list sst)
  : option (list sst) :=
  match eat_wss content with
  | TOK t :: rest =>
    if ttype_beq (t_type t) IDENT then
      match lookup e (t_data t) with
      | Some (v :: vs) =>
        if is_type GUARANTEED_INVALID v then expand_fallback sub rest else sub (v :: vs)
      | _ => expand_fallback sub rest
      end
    else Some []
  | _ => Some []
  end.

(** props/base.cpp:413-423 [_expandFunction] and the body of the loop of [_expandContent]
    (430-435), for one component value: a variable, a function whose content is expanded, or a
    value that is copied. *)
Fixpoint expand_one (sub : list sst -> option (list sst)) (e : env) (s : sst) : option (list sst) :=
  match s with
  | FUNC n content =>
    if is_var n then expand_variable sub e content
    else
      match (fix all (l : list sst) : option (list sst) :=
               match l with
               | [] => Some []
               | x :: r =>
                 match expand_one sub e x with
                 | None => None
                 | Some o => match all r with None => None | Some o' => Some (o ++ o') end
                 end
               end) content with
      | Some out => Some [FUNC n out]
      | None => None
      end
  | _ => Some [s]
  end.

(** props/base.cpp:425-439: the loop of [_expandContent]. *)
Fixpoint expand_all (sub : list sst -> option (list sst)) (e : env) (l : list sst) : option (list sst) :=
  match l with
  | [] => Some []
  | x :: r =>
    match expand_one sub e x with
    | None => None
    | Some o => match expand_all sub e r with None => None | Some o' => Some (o ++ o') end
    end
  end.

(** props/base.cpp:425-439 [_expandContent] at depth [32 - left]. [_expandVariable] is called for
    every component value, with the depth increased by one, and fails when that is above 32
    (374-375), whether the value is a variable or not; it passes the increased depth on to the
    content of the variable (395) and to the fallback (409). [None] is an error. *)
Fixpoint expand (left : nat) (e : env) (l : list sst) : option (list sst) :=
  match left with
  | O => match l with [] => Some [] | _ => None end
  | S left' => expand_all (expand left' e) e l
  end.

(** props/base.cpp:441-445: the call from [_expandProperty]. *)
Definition max_depth : nat := 32.
Definition expand_content (e : env) (l : list sst) : option (list sst) := expand max_depth e l.

(** style/computed.cpp:84-86 [setCustomProp] *)
Definition set_custom (e : env) (n : str) (c : list sst) : env := (n, c) :: e.
