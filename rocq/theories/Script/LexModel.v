(** The script lexer: vaev-script/lang/lexer.cpp.

    Source text is a list of code points. Types of tokens that the lexer never gives are left out
    (names, literals, templates and others of lang/lexer.cpp:22-144). *)
From Coq Require Import String Ascii List Arith NArith Bool.
Import ListNotations.
Local Open Scope string_scope.

(** lang/lexer.cpp:22-144 *)
Inductive token :=
| T_AMPERSAND
| T_AMPERSAND_EQUALS
| T_ARROW
| T_ASTERISK
| T_ASTERISK_EQUALS
| T_ASYNC
| T_AWAIT
| T_BOOL_LITERAL
| T_BRACKET_CLOSE
| T_BRACKET_OPEN
| T_BREAK
| T_CARET
| T_CARET_EQUALS
| T_CASE
| T_CATCH
| T_CLASS
| T_COLON
| T_COMMA
| T_CONST
| T_CONTINUE
| T_CURLY_CLOSE
| T_CURLY_OPEN
| T_DEBUGGER
| T_DEFAULT
| T_DELETE
| T_DO
| T_DOUBLE_AMPERSAND
| T_DOUBLE_AMPERSAND_EQUALS
| T_DOUBLE_ASTERISK
| T_DOUBLE_ASTERISK_EQUALS
| T_DOUBLE_PIPE
| T_DOUBLE_PIPE_EQUALS
| T_DOUBLE_QUESTION_MARK
| T_DOUBLE_QUESTION_MARK_EQUALS
| T_ELSE
| T_END_OF_FILE
| T_ENUM
| T_EQUALS
| T_EQUALS_EQUALS
| T_EQUALS_EQUALS_EQUALS
| T_EXCLAMATION_MARK
| T_EXCLAMATION_MARK_EQUALS
| T_EXCLAMATION_MARK_EQUALS_EQUALS
| T_EXPORT
| T_EXTENDS
| T_FINALLY
| T_FOR
| T_FUNCTION
| T_GREATER_THAN
| T_GREATER_THAN_EQUALS
| T_IF
| T_IMPORT
| T_IN
| T_INSTANCEOF
| T_INVALID
| T_LESS_THAN
| T_LESS_THAN_EQUALS
| T_LET
| T_MINUS
| T_MINUS_EQUALS
| T_MINUS_MINUS
| T_NEW
| T_NULL_LITERAL
| T_PAREN_CLOSE
| T_PAREN_OPEN
| T_PERCENT
| T_PERCENT_EQUALS
| T_PERIOD
| T_PIPE
| T_PIPE_EQUALS
| T_PLUS
| T_PLUS_EQUALS
| T_PLUS_PLUS
| T_QUESTION_MARK
| T_QUESTION_MARK_PERIOD
| T_RETURN
| T_SEMICOLON
| T_SHIFT_LEFT
| T_SHIFT_LEFT_EQUALS
| T_SHIFT_RIGHT
| T_SHIFT_RIGHT_EQUALS
| T_SLASH
| T_SLASH_EQUALS
| T_SUPER
| T_SWITCH
| T_THIS
| T_THROW
| T_TILDE
| T_TRIPLE_DOT
| T_TRY
| T_TYPEOF
| T_UNSIGNED_SHIFT_RIGHT
| T_UNSIGNED_SHIFT_RIGHT_EQUALS
| T_VAR
| T_VOID
| T_WHILE
| T_WITH
| T_YIELD.
(** lang/lexer.cpp:196-223 *)
Definition one : list (string * token) :=
  [("&", T_AMPERSAND); ("*", T_ASTERISK); ("[", T_BRACKET_OPEN); ("]", T_BRACKET_CLOSE); ("^", T_CARET); (":", T_COLON); (",", T_COMMA); ("{", T_CURLY_OPEN); ("}", T_CURLY_CLOSE); ("=", T_EQUALS); ("!", T_EXCLAMATION_MARK); ("-", T_MINUS); ("(", T_PAREN_OPEN); (")", T_PAREN_CLOSE); ("%", T_PERCENT); (".", T_PERIOD); ("|", T_PIPE); ("+", T_PLUS); ("?", T_QUESTION_MARK); (";", T_SEMICOLON); ("/", T_SLASH); ("~", T_TILDE); ("<", T_LESS_THAN); (">", T_GREATER_THAN)].
(** lang/lexer.cpp:225-248 *)
Definition two : list (string * token) :=
  [("=>", T_ARROW); ("+=", T_PLUS_EQUALS); ("-=", T_MINUS_EQUALS); ("*=", T_ASTERISK_EQUALS); ("/=", T_SLASH_EQUALS); ("%=", T_PERCENT_EQUALS); ("&=", T_AMPERSAND_EQUALS); ("|=", T_PIPE_EQUALS); ("^=", T_CARET_EQUALS); ("&&", T_DOUBLE_AMPERSAND); ("||", T_DOUBLE_PIPE); ("??", T_DOUBLE_QUESTION_MARK); ("**", T_DOUBLE_ASTERISK); ("==", T_EQUALS_EQUALS); ("<=", T_LESS_THAN_EQUALS); (">=", T_GREATER_THAN_EQUALS); ("!=", T_EXCLAMATION_MARK_EQUALS); ("--", T_MINUS_MINUS); ("++", T_PLUS_PLUS); ("<<", T_SHIFT_LEFT); (">>", T_SHIFT_RIGHT); ("?.", T_QUESTION_MARK_PERIOD)].
(** lang/lexer.cpp:250-261 *)
Definition three : list (string * token) :=
  [("===", T_EQUALS_EQUALS_EQUALS); ("!==", T_EXCLAMATION_MARK_EQUALS_EQUALS); ("**=", T_DOUBLE_ASTERISK_EQUALS); ("<<=", T_SHIFT_LEFT_EQUALS); (">>=", T_SHIFT_RIGHT_EQUALS); ("&&=", T_DOUBLE_AMPERSAND_EQUALS); ("||=", T_DOUBLE_PIPE_EQUALS); ("??=", T_DOUBLE_QUESTION_MARK_EQUALS); (">>>", T_UNSIGNED_SHIFT_RIGHT); ("...", T_TRIPLE_DOT)].
(** lang/lexer.cpp:263-265 *)
Definition four : list (string * token) :=
  [(">>>=", T_UNSIGNED_SHIFT_RIGHT_EQUALS)].
(** lang/lexer.cpp:267-308 *)
Definition keywords : list (string * token) :=
  [("async", T_ASYNC); ("await", T_AWAIT); ("break", T_BREAK); ("case", T_CASE); ("catch", T_CATCH); ("class", T_CLASS); ("const", T_CONST); ("continue", T_CONTINUE); ("debugger", T_DEBUGGER); ("default", T_DEFAULT); ("delete", T_DELETE); ("do", T_DO); ("else", T_ELSE); ("enum", T_ENUM); ("export", T_EXPORT); ("extends", T_EXTENDS); ("false", T_BOOL_LITERAL); ("finally", T_FINALLY); ("for", T_FOR); ("function", T_FUNCTION); ("if", T_IF); ("import", T_IMPORT); ("in", T_IN); ("instanceof", T_INSTANCEOF); ("let", T_LET); ("new", T_NEW); ("null", T_NULL_LITERAL); ("return", T_RETURN); ("super", T_SUPER); ("switch", T_SWITCH); ("this", T_THIS); ("throw", T_THROW); ("true", T_BOOL_LITERAL); ("try", T_TRY); ("typeof", T_TYPEOF); ("var", T_VAR); ("void", T_VOID); ("while", T_WHILE); ("with", T_WITH); ("yield", T_YIELD)].

Definition text (s : string) : list N := map N_of_ascii (list_ascii_of_string s).
Fixpoint starts (p s : list N) : bool :=
  match p, s with
  | [], _ => true
  | a :: p, b :: s => N.eqb a b && starts p s
  | _ :: _, [] => false
  end.
(** lang/lexer.cpp:324-329 and the loops after it: the first entry that the source starts with *)
Definition first (l : list (string * token)) (s : list N) : option (string * token) := find (fun x => starts (text (fst x)) s) l.
Record item := mkItem { i_type : token; i_data : list N; i_rest : list N }.
Definition take (x : string * token) (s : list N) : item := let n := length (text (fst x)) in mkItem (snd x) (firstn n s) (skipn n s).
(** lang/lexer.cpp:317-367 [_next] *)
Definition next (s : list N) : item :=
  match s with
  | [] => mkItem T_END_OF_FILE [] []
  | c :: r =>
    match first keywords s with
    | Some x => take x s
    | None =>
      match first four s with
      | Some x => take x s
      | None =>
        match first three s with
        | Some x => take x s
        | None =>
          match first two s with
          | Some x => take x s
          | None =>
            match first one s with
            | Some x => take x s
            | None => mkItem T_INVALID [c] r
            end
          end
        end
      end
    end
  end.
(** All tokens up to the end; [None] if the fuel does not suffice. *)
Fixpoint tokens (fuel : nat) (s : list N) : option (list (token * list N)) :=
  match s with
  | [] => Some []
  | _ :: _ =>
    match fuel with
    | O => None
    | S fuel => let x := next s in match tokens fuel (i_rest x) with Some l => Some ((i_type x, i_data x) :: l) | None => None end
    end
  end.
