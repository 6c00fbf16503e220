(** values/calc.cpp, for [T = PercentOr<Length>] (the type used by sizes and margins).

    Simplifications: [Au] and f64 are exact rationals ([Au]'s rounding is [rnd] in
    LengthModel.v and the identity here); a division by zero is [None]. *)
From Coq Require Import String List NArith ZArith QArith Bool.
From Verif.Base Require Import Str.
From Verif.Css Require Import LexerModel ParserModel.
From Verif.Values Require Import Number LengthModel.
Import ListNotations.
Local Open Scope list_scope.

(** values/calc.cpp:18-30 [CalcOp], without NOP and the unary functions, which nothing builds *)
Inductive op := ADD | SUBTRACT | MULTIPLY | DIVIDE.
(** values/calc.cpp:34-79 [CalcValue] *)
Inductive calc := Val (v : value) | Binary (o : op) (l r : value)
with value := VT (t : percent_or) | VLeaf (c : calc) | VNum (q : Q).

(** values/calc.cpp:124-152 [_resolveInfix] *)
Definition resolve_infix (o : op) (l r : Q) : option Q :=
  match o with
  | ADD => Some (l + r)
  | SUBTRACT => Some (l - r)
  | MULTIPLY => Some (l * r)
  | DIVIDE => if Qeq_bool r 0 then None else Some (l / r)
  end.

(** values/calc.cpp:154-188 [resolve] *)
Fixpoint resolve_calc (c : calc) (cx : ctx) (rel : Q) : option Q :=
  match c with
  | Val v => resolve_value v cx rel
  | Binary o l r =>
    match resolve_value l cx rel, resolve_value r cx rel with
    | Some a, Some b => resolve_infix o a b
    | _, _ => None
    end
  end
with resolve_value (v : value) (cx : ctx) (rel : Q) : option Q :=
  match v with
  | VT t => Some (resolve_percent_or (fun x => x) t cx rel)
  | VLeaf c => resolve_calc c cx rel
  | VNum q => Some q
  end.

(** values/calc.cpp:220-243 [parseOp]. [Sst::token] of a function or block is the default
    token (css/parser.cpp:42), whose data is empty. [None]: an error, and the cursor is
    not used again. *)
Definition tok_data (s : sst) : str := match s with TOK t => t_data t | _ => [] end.
Fixpoint parse_op (c : list sst) : option (op * list sst) :=
  match c with
  | [] => None
  | s :: r =>
    if match s with TOK t => ttype_beq (t_type t) WHITESPACE | _ => false end then parse_op r
    else if str_eqb (tok_data s) (of_string "+") then Some (ADD, r)
    else if str_eqb (tok_data s) (of_string "-") then Some (SUBTRACT, r)
    else if str_eqb (tok_data s) (of_string "*") then Some (MULTIPLY, r)
    else if str_eqb (tok_data s) (of_string "/") then Some (DIVIDE, r)
    else None
  end.

(** values/calc.cpp:245-254 [parseVal] *)
Definition parse_val (c : list sst) : option (value * list sst) :=
  match c with
  | [] => None
  | s :: _ =>
    if match s with TOK t => ttype_beq (t_type t) NUMBER | _ => false end then
      match parse_number c with (Some q, r) => Some (VNum q, r) | (None, _) => None end
    else match parse_percent_or c with Some (t, r) => Some (VT t, r) | None => None end
  end.

(** values/base.cpp:10-13 [eatWhitespace] *)
Fixpoint eat_wss (c : list sst) : list sst :=
  match c with
  | TOK t :: r => if ttype_beq (t_type t) WHITESPACE then eat_wss r else c
  | _ => c
  end.

(** values/calc.cpp:192-218 [ValueParser<CalcValue<T>>::parse] *)
Definition parse_calc (c : list sst) : option (calc * list sst) :=
  let plain := match parse_percent_or c with Some (t, r) => Some (Val (VT t), r) | None => None end in
  match c with
  | [] => None
  | FUNC name content :: rest =>
    if str_eqb (t_data name) (of_string "calc(") then
      match parse_val content with
      | None => None
      | Some (lhs, c1) =>
        match parse_op c1 with
        | None => Some (Val lhs, rest)
        | Some (o, c2) =>
          match parse_val (eat_wss c2) with
          | None => None
          | Some (rhs, _) => Some (Binary o lhs rhs, rest)
          end
        end
      end
    else plain
  | _ => plain
  end.
