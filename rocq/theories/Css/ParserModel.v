(** css/parser.cpp: from tokens to the skeleton syntax tree.

    The lexer is a value that the parser copies and restores; its state is the list of
    tokens still to come (LexerModel.v), [[]] standing for END_OF_FILE, which [next] and
    [peek] return for ever. Diagnostics are left out. [None] means that the fuel ran out;
    functions that need none have none. *)
From Coq Require Import String List NArith Bool.
From Verif.Base Require Import Str.
From Verif.Css Require Import LexerModel.
Import ListNotations.
Local Open Scope list_scope.
Local Open Scope N_scope.

(** css/parser.cpp:34-59 [Sst]. [BLOCK] does not record which bracket opened it. A [LIST] only
    wraps a content. *)
Inductive sst :=
| TOK (t : token)
| FUNC (name : token) (content : list sst)
| BLOCK (content : list sst)
| RULE (name : option token) (prefix : list sst) (content : list sst)
| DECL (name : token) (content : list sst) (important : bool).

Definition eof_token : token := mkT END_OF_FILE [].
Definition peek (ts : list token) : token := match ts with t :: _ => t | [] => eof_token end.
Definition peek_type (ts : list token) : ttype := t_type (peek ts).

(** css/lexer.cpp:407-410 [eatWhitespace] *)
Fixpoint eat_ws (ts : list token) : list token :=
  match ts with
  | t :: ts' => if ttype_beq (t_type t) WHITESPACE then eat_ws ts' else ts
  | [] => []
  end.

(** css/parser.cpp:408-425 [consumeComponentValue], 428-453 [consumeBlock] (after the opening
    token), 376-406 [consumeFunc] (after the function token). *)
Fixpoint component (n : nat) (ts : list token) : option (sst * list token) :=
  match n with
  | O => None
  | S n =>
    match ts with
    | [] => Some (TOK eof_token, [])
    | t :: ts' =>
      let blk term := match block n term ts' with Some (c, r) => Some (BLOCK c, r) | None => None end in
      match t_type t with
      | LEFT_SQUARE_BRACKET => blk RIGHT_SQUARE_BRACKET
      | LEFT_CURLY_BRACKET => blk RIGHT_CURLY_BRACKET
      | LEFT_PARENTHESIS => blk RIGHT_PARENTHESIS
      | FUNCTION => match func n ts' with Some (c, r) => Some (FUNC t c, r) | None => None end
      | _ => Some (TOK t, ts')
      end
    end
  end
with block (n : nat) (term : ttype) (ts : list token) : option (list sst * list token) :=
  match n with
  | O => None
  | S n =>
    match ts with
    | [] => Some ([], [])
    | t :: ts' =>
      if ttype_beq (t_type t) term then Some ([], ts')
      else match component n ts with
           | Some (v, r) => match block n term r with Some (l, r') => Some (v :: l, r') | None => None end
           | None => None
           end
    end
  end
with func (n : nat) (ts : list token) : option (list sst * list token) :=
  match n with
  | O => None
  | S n =>
    match ts with
    | [] => Some ([], [])
    | t :: ts' =>
      match t_type t with
      | COMMENT => func n ts'
      | RIGHT_PARENTHESIS => Some ([], ts')
      | _ => match component n ts with
             | Some (v, r) => match func n r with Some (l, r') => Some (v :: l, r') | None => None end
             | None => None
             end
      end
    end
  end.

(** The loops of [consumeRule] (css/parser.cpp:123-144, [semi = false]) and [consumeAtRule]
    (193-220, [semi = true]): component values up to, and not including, a left curly
    bracket, the end of input or a semicolon. *)
Fixpoint prefix_loop (n : nat) (semi : bool) (ts : list token) : option (list sst * list token) :=
  match n with
  | O => None
  | S n =>
    match ts with
    | [] => Some ([], [])
    | t :: _ =>
      if ttype_beq (t_type t) LEFT_CURLY_BRACKET || (semi && ttype_beq (t_type t) SEMICOLON) then Some ([], ts)
      else match component n ts with
           | Some (v, r) => match prefix_loop n semi r with Some (l, r') => Some (v :: l, r') | None => None end
           | None => None
           end
    end
  end.

(** css/parser.cpp:223-234 [consumeImportant]: the flag, and the tokens left *)
Definition delim_bang : token := mkT DELIM (of_string "!").
Definition ident_important : token := mkT IDENT (of_string "important").
Definition consume_important (ts : list token) : bool * list token :=
  if token_eqb (peek ts) delim_bang then
    let ts1 := tl ts in
    let copy := eat_ws ts1 in
    if token_eqb (peek copy) ident_important then (true, tl copy) else (false, ts1)
  else (false, ts).

(** css/parser.cpp:236-240 [endedDeclarationValue] *)
Definition ended_value (ts : list token) : bool :=
  match peek_type ts with END_OF_FILE | SEMICOLON | RIGHT_CURLY_BRACKET => true | _ => false end.

(** css/parser.cpp:250-264, the loop of [consumeDeclarationValue] *)
Fixpoint value_loop (n : nat) (ts : list token) : option (list sst * bool * list token) :=
  match n with
  | O => None
  | S n =>
    if ended_value ts then Some ([], false, ts)
    else match consume_important ts with
         | (true, r) => Some ([], true, eat_ws r)
         | (false, r) =>
           match component n r with
           | Some (v, r') => match value_loop n (eat_ws r') with
                             | Some (l, i, r'') => Some (v :: l, i, r'')
                             | None => None
                             end
           | None => None
           end
         end
  end.
(** css/parser.cpp:242-265 [consumeDeclarationValue] *)
Definition declaration_value (n : nat) (ts : list token) := value_loop n (eat_ws ts).

(** css/parser.cpp:270-275 [declarationAhead] *)
Definition declaration_ahead (ts : list token) : bool :=
  ttype_beq (peek_type ts) IDENT && ttype_beq (peek_type (eat_ws (tl ts))) COLON.

(** css/parser.cpp:349-373 [consumeDeclaration] *)
Definition declaration (n : nat) (ts : list token) : option (option sst * list token) :=
  let name := peek ts in
  let ts1 := eat_ws (tl ts) in
  if ttype_beq (peek_type ts1) COLON then
    match declaration_value n (tl ts1) with
    | Some (c, i, r) => Some (Some (DECL name c i), r)
    | None => None
    end
  else Some (None, ts1).

(** css/parser.cpp:333-346 [consumeDeclarationBlock]; [dl] is [consumeDeclarationList]. *)
Definition decl_block (dl : list token -> option (list sst * list token)) (ts : list token) :=
  match dl (tl ts) with
  | Some (c, r) => Some (c, if ttype_beq (peek_type r) RIGHT_CURLY_BRACKET then tl r else r)
  | None => None
  end.

(** css/parser.cpp:119-145 [consumeRule] *)
Definition rule (dl : list token -> option (list sst * list token)) (n : nat) (ts : list token)
  : option (option sst * list token) :=
  match prefix_loop n false ts with
  | Some (p, r) =>
      match r with
      | [] => Some (None, [])
      | _ => match decl_block dl r with Some (c, r') => Some (Some (RULE None p c), r') | None => None end
      end
  | None => None
  end.

(** css/parser.cpp:188-221 [consumeAtRule] *)
Definition at_rule (dl : list token -> option (list sst * list token)) (n : nat) (ts : list token)
  : option (sst * list token) :=
  let name := peek ts in
  match prefix_loop n true (tl ts) with
  | Some (p, r) =>
      match peek_type r with
      | LEFT_CURLY_BRACKET =>
          match decl_block dl r with Some (c, r') => Some (RULE (Some name) p c, r') | None => None end
      | _ => Some (RULE (Some name) p [], tl r)
      end
  | None => None
  end.

Definition opt_cons (o : option sst) (l : list sst) : list sst :=
  match o with Some x => x :: l | None => l end.

(** css/parser.cpp:280-331 [consumeDeclarationList] ([topLevel] only affects diagnostics). *)
Fixpoint decl_list (n : nat) (ts : list token) : option (list sst * list token) :=
  match n with
  | O => None
  | S n =>
    match ts with
    | [] => Some ([], [])
    | t :: ts' =>
      let continue (o : option (option sst * list token)) :=
        match o with
        | Some (x, r) => match decl_list n r with Some (l, r') => Some (opt_cons x l, r') | None => None end
        | None => None
        end in
      match t_type t with
      | WHITESPACE | SEMICOLON | COMMENT => decl_list n ts'
      | AT_KEYWORD =>
          continue (match at_rule (decl_list n) n ts with Some (x, r) => Some (Some x, r) | None => None end)
      | IDENT =>
          if str_eqb (t_data t) (of_string "&") then continue (rule (decl_list n) n ts)
          else if declaration_ahead ts then continue (declaration n ts)
          else continue (rule (decl_list n) n ts)
      | RIGHT_CURLY_BRACKET => Some ([], ts)
      | _ => continue (rule (decl_list n) n ts)
      end
    end
  end.

(** css/parser.cpp:148-185 [consumeRuleList] *)
Fixpoint rule_list (top : bool) (n : nat) (ts : list token) : option (list sst) :=
  match n with
  | O => None
  | S n =>
    match ts with
    | [] => Some []
    | t :: ts' =>
      let continue (o : option (option sst * list token)) :=
        match o with
        | Some (x, r) => match rule_list top n r with Some l => Some (opt_cons x l) | None => None end
        | None => None
        end in
      match t_type t with
      | COMMENT | WHITESPACE => rule_list top n ts'
      | CDC | CDO => if top then rule_list top n ts else continue (rule (decl_list n) n ts)
      | AT_KEYWORD =>
          continue (match at_rule (decl_list n) n ts with Some (x, r) => Some (Some x, r) | None => None end)
      | _ => continue (rule (decl_list n) n ts)
      end
    end
  end.

(** Fuel that is enough for [ts] (proved in ParserProofs.v). *)
Definition enough (ts : list token) : nat := 2 * length ts + 3.

(** style/stylesheet.cpp:41-47 and props/base.cpp:833-837: parsing a whole text. *)
Definition parse_stylesheet (rb : bool) (s : str) : option (list sst) :=
  match tokens rb s with Some ts => rule_list true (enough ts) ts | None => None end.
Definition parse_style_attribute (rb : bool) (s : str) : option (list sst) :=
  match tokens rb s with Some ts => option_map fst (decl_list (enough ts) ts) | None => None end.

(** css/parser.cpp:457-466 [consumeSelector] *)
Fixpoint selector_loop (n : nat) (ts : list token) : option (list sst * list token) :=
  match n with
  | O => None
  | S n =>
    if ended_value ts then Some ([], ts)
    else match component n ts with
         | Some (v, r) => match selector_loop n r with Some (l, r') => Some (v :: l, r') | None => None end
         | None => None
         end
  end.
