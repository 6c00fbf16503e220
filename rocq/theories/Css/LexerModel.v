(** css/lexer.cpp. Code points are numbers, the scanner is the list of code points left.

    The regular-expression combinators (Karm [Re], not in /repo) are modelled as functions from the
    input to the input left after a match: a failed match consumes nothing, [either] is
    ordered, repetition is greedy and does not backtrack, and [negate] fails at the end
    of input. Source spans (diagnostics only) are left out. *)
From Coq Require Import String List NArith Bool.
From Verif.Base Require Import Str.
Import ListNotations.
Local Open Scope list_scope.
Local Open Scope N_scope.

(** css/lexer.cpp:11-39 [FOREACH_TOKEN] *)
Inductive ttype :=
| NIL | IDENT | FUNCTION | AT_KEYWORD | HASH | STRING | BAD_STRING | URL | BAD_URL | DELIM
| NUMBER | PERCENTAGE | DIMENSION | WHITESPACE | CDO | CDC | COLON | SEMICOLON | COMMA
| LEFT_CURLY_BRACKET | RIGHT_CURLY_BRACKET | LEFT_SQUARE_BRACKET | RIGHT_SQUARE_BRACKET
| LEFT_PARENTHESIS | RIGHT_PARENTHESIS | COMMENT | END_OF_FILE | GUARANTEED_INVALID.

Scheme Equality for ttype.

(** css/lexer.cpp:41-87 [Token] *)
Record token := mkT { t_type : ttype; t_data : str }.

(** Karm [eqCi]: ASCII case-insensitive equality. *)
Definition lower (c : rune) : rune := if (65 <=? c) && (c <=? 90) then c + 32 else c.
Fixpoint eq_ci (a b : str) : bool :=
  match a, b with
  | [], [] => true
  | x :: a', y :: b' => (lower x =? lower y) && eq_ci a' b'
  | _, _ => false
  end.

(** css/lexer.cpp:84-86 [Token::operator==] *)
Definition token_eqb (a b : token) : bool :=
  ttype_beq (t_type a) (t_type b) && eq_ci (t_data a) (t_data b).

(** ** Regular expressions *)

Definition re := str -> option str.

Definition re_if (f : rune -> bool) : re :=
  fun s => match s with c :: s' => if f c then Some s' else None | [] => None end.
Definition re_single (cs : list rune) : re := re_if (fun c => existsb (N.eqb c) cs).
Definition re_range (a b : N) : re := re_if (fun c => (a <=? c) && (c <=? b)).
Fixpoint re_word (w : str) : re :=
  fun s => match w with
           | [] => Some s
           | x :: w' => match s with
                        | c :: s' => if c =? x then re_word w' s' else None
                        | [] => None
                        end
           end.
Definition re_nothing : re := fun s => Some s.
Definition re_chain (a b : re) : re :=
  fun s => match a s with Some s' => b s' | None => None end.
Definition re_either (a b : re) : re :=
  fun s => match a s with Some s' => Some s' | None => b s end.
Definition re_opt (a : re) : re := fun s => match a s with Some s' => Some s' | None => Some s end.
(** [fuel] bounds the number of repetitions by the input length. *)
Fixpoint re_many (a : re) (fuel : nat) (s : str) : str :=
  match fuel with
  | O => s
  | S n => match a s with Some s' => re_many a n s' | None => s end
  end.
Definition re_star (a : re) : re := fun s => Some (re_many a (length s) s).
Definition re_plus (a : re) : re :=
  fun s => match a s with Some s' => Some (re_many a (length s') s') | None => None end.
(** At most [n] repetitions. *)
Definition re_atmost (n : nat) (a : re) : re := fun s => Some (re_many a n s).
Definition re_neg (a : re) : re :=
  fun s => match a s with
           | Some _ => None
           | None => match s with _ :: s' => Some s' | [] => None end
           end.

Definition is_digit (c : rune) : bool := (48 <=? c) && (c <=? 57).
Definition is_upper (c : rune) : bool := (65 <=? c) && (c <=? 90).
Definition is_lower (c : rune) : bool := (97 <=? c) && (c <=? 122).
Definition is_alpha (c : rune) : bool := is_upper c || is_lower c.
Definition is_alnum (c : rune) : bool := is_alpha c || is_digit c.
Definition is_xdigit (c : rune) : bool :=
  is_digit c || ((65 <=? c) && (c <=? 70)) || ((97 <=? c) && (c <=? 102)).
Definition is_space (c : rune) : bool := (c =? 32) || ((9 <=? c) && (c <=? 13)).

Definition re_digit := re_if is_digit.
Definition re_alpha := re_if is_alpha.
Definition re_alnum := re_if is_alnum.
Definition re_xdigit := re_if is_xdigit.
Definition re_space := re_if is_space.

(** css/lexer.cpp:98 *)
Definition RE_QUOTES := re_single [34; 39].
(** css/lexer.cpp:100 *)
Definition RE_NEWLINE := re_either (re_single [10; 13; 12]) (re_word [13; 10]).
(** css/lexer.cpp:101 *)
Definition RE_ASCII := re_range 0 127.
(** css/lexer.cpp:102-103 *)
Definition RE_WHITESPACE := re_either re_space (re_either (re_single [9]) RE_NEWLINE).
Definition RE_WHITESPACE_TOKEN := re_plus RE_WHITESPACE.

(** css/lexer.cpp:105-122 *)
Definition RE_ESCAPE :=
  re_chain (re_single [92])
    (re_either
       (re_plus (re_neg (re_either re_xdigit RE_NEWLINE)))
       (re_chain re_xdigit (re_chain (re_atmost 5 re_xdigit) (re_opt RE_WHITESPACE)))).

(** css/lexer.cpp:126-153 *)
Definition RE_NAME_START := re_either re_alpha (re_either (re_single [95]) (re_neg RE_ASCII)).
Definition RE_NAME_CHAR := re_either re_alnum (re_either (re_single [95; 45]) (re_neg RE_ASCII)).
Definition RE_IDENTIFIER :=
  re_chain
    (re_either (re_word [45; 45])
       (re_chain (re_opt (re_single [45])) (re_either RE_ESCAPE RE_NAME_START)))
    (re_opt (re_plus (re_either RE_ESCAPE RE_NAME_CHAR))).

(** css/lexer.cpp:155-157 *)
Definition RE_DIGIT := re_plus re_digit.
Definition RE_OPERATOR := re_either (re_single [45; 43]) re_nothing.
Definition RE_AT_KEYWORD := re_chain (re_single [64]) RE_IDENTIFIER.

(** css/lexer.cpp:160-174 *)
Definition RE_URL :=
  re_chain (re_opt RE_WHITESPACE_TOKEN)
    (re_chain
       (re_star (re_either RE_ESCAPE
                   (re_neg (re_either (re_single [34; 39; 40; 41; 92; 127; 11])
                              (re_either RE_WHITESPACE (re_either (re_range 0 8) (re_range 14 31)))))))
       (re_chain (re_opt RE_WHITESPACE_TOKEN) (re_single [41]))).

(** css/lexer.cpp:176-188 *)
Definition RE_HASH := re_chain (re_single [35]) (re_plus (re_either RE_ESCAPE RE_NAME_CHAR)).

(** css/lexer.cpp:191-209 *)
Definition RE_NUMBER :=
  re_chain RE_OPERATOR
    (re_chain
       (re_either
          (re_chain RE_DIGIT (re_opt (re_chain (re_single [46]) RE_DIGIT)))
          (re_chain (re_single [46]) RE_DIGIT))
       (re_opt (re_chain (re_either (re_single [101]) (re_single [69])) (re_chain RE_OPERATOR RE_DIGIT)))).

(** [s.end()]: the input consumed between [s] and [r]. *)
Definition consumed (s r : str) : str := firstn (length s - length r) s.

(** ** Strings *)

Definition replacement : rune := 65533.

Definition xdigit_val (c : rune) : N :=
  if is_digit c then c - 48 else if (97 <=? c) && (c <=? 102) then c - 87 else c - 55.
Definition hex_val (s : str) : N := fold_left (fun acc c => acc * 16 + xdigit_val c) s 0.

(** css/lexer.cpp:252-285 [_consumeEscapeCodepoint]; [Re::nOrN(1, 5, xdigit)] is read as one to
    five digits. *)
Definition consume_escape (s : str) : rune * str :=
  match re_xdigit s with
  | Some s1 =>
      let r := re_many re_xdigit 4 s1 in
      let num := hex_val (consumed s r) in
      let r' := match RE_WHITESPACE r with Some r' => r' | None => r end in
      (if (55296 <=? num) && (num <=? 57343) then replacement
       else if (num =? 0) || (1114111 <? num) then replacement
       else num, r')
  | None =>
      match s with
      | [] => (replacement, [])
      | c :: s' => (c, s')
      end
  end.

(** css/lexer.cpp:288-332 [_consumeStringToken], from after the opening quote [q]; [acc] is
    the string builder, reversed. [fuel] bounds the iterations; the caller gives the input
    length, and every iteration consumes a code point. *)
Fixpoint string_loop (fuel : nat) (q : rune) (s : str) (acc : str) : ttype * str * str :=
  match fuel with
  | O => (STRING, rev acc, s)
  | S n =>
    match s with
    | [] => (STRING, rev acc, [])
    | c :: s' =>
      if c =? q then (STRING, rev acc, s')
      else match RE_NEWLINE s with
      | Some _ => (BAD_STRING, rev acc, s)
      | None =>
        if c =? 92 then
          match s' with
          | [] => string_loop n q [] acc
          | _ :: _ =>
            match RE_NEWLINE s' with
            | Some s'' => string_loop n q s'' acc
            | None => let (r, s'') := consume_escape s' in string_loop n q s'' (r :: acc)
            end
          end
        else string_loop n q s' (c :: acc)
      end
    end
  end.

(** ** Tokens *)

Section Lexer.
  (** Whether an unterminated comment is rolled back to just after its opening
      ([Re::untilAndConsume] failing) or extends to the end of input: not determined by
      /repo, so everything below holds for both. *)
  Variable rollback_comment : bool.

  (** [Re::untilAndConsume(Re::word("*/"))] *)
  Fixpoint until_comment_end (s : str) : option str :=
    match re_word [42; 47] s with
    | Some r => Some r
    | None => match s with [] => None | _ :: s' => until_comment_end s' end
    end.

  Definition skip_comment (s : str) : str :=
    match until_comment_end s with
    | Some r => r
    | None => if rollback_comment then s else []
    end.

  Definition str_url : str := of_string "url(".

  (** css/lexer.cpp:222-235 [_nextIdent]; [s0] is the input at [begin()], [s] after the
      identifier. *)
  Definition next_ident (s0 s : str) : ttype * str :=
    match s with
    | 40 :: r =>
        if eq_ci (consumed s0 r) str_url then
          match re_chain (re_star RE_WHITESPACE) RE_QUOTES r with
          | Some _ => (FUNCTION, r)
          | None => match RE_URL r with
                    | Some r' => (URL, r')
                    | None => (URL, r)
                    end
          end
        else (FUNCTION, r)
    | _ => (IDENT, s)
    end.

  (** css/lexer.cpp:334-387 [_next]: type, data and remaining input. *)
  Definition next (s : str) : token * str :=
    let tk ty r := (mkT ty (consumed s r), r) in
    match s with
    | [] => (mkT END_OF_FILE [], [])
    | c :: s' =>
      match RE_WHITESPACE_TOKEN s with Some r => tk WHITESPACE r | None =>
      match re_single [123] s with Some r => tk LEFT_CURLY_BRACKET r | None =>
      match re_single [125] s with Some r => tk RIGHT_CURLY_BRACKET r | None =>
      match re_single [91] s with Some r => tk LEFT_SQUARE_BRACKET r | None =>
      match re_single [93] s with Some r => tk RIGHT_SQUARE_BRACKET r | None =>
      match re_single [40] s with Some r => tk LEFT_PARENTHESIS r | None =>
      match re_single [41] s with Some r => tk RIGHT_PARENTHESIS r | None =>
      match re_single [59] s with Some r => tk SEMICOLON r | None =>
      match re_single [58] s with Some r => tk COLON r | None =>
      match re_single [44] s with Some r => tk COMMA r | None =>
      match RE_HASH s with Some r => tk HASH r | None =>
      match re_word (of_string "<!--") s with Some r => tk CDO r | None =>
      match re_word (of_string "-->") s with Some r => tk CDC r | None =>
      match re_word (of_string "/*") s with Some r => tk COMMENT (skip_comment r) | None =>
      match RE_NUMBER s with
      | Some r =>
          match RE_IDENTIFIER r with
          | Some r' => tk DIMENSION r'
          | None => match re_single [37] r with
                    | Some r' => tk PERCENTAGE r'
                    | None => tk NUMBER r
                    end
          end
      | None =>
      match RE_IDENTIFIER s with
      | Some r => let (ty, r') := next_ident s r in tk ty r'
      | None =>
      match RE_AT_KEYWORD s with Some r => tk AT_KEYWORD r | None =>
      if (c =? 34) || (c =? 39) then
        let '(ty, d, r) := string_loop (length s') c s' [] in (mkT ty d, r)
      else tk DELIM s'
      end end end end end end end end end end end end end end end end end
    end.

  (** The sequence of tokens the parser sees: [next] until END_OF_FILE. Each token is
      paired with the source text it was made from. [None]: fuel exhausted. *)
  Fixpoint lex (fuel : nat) (s : str) : option (list (token * str)) :=
    match s with
    | [] => Some []
    | _ => match fuel with
           | O => None
           | S n => let (t, r) := next s in
                    match lex n r with
                    | Some l => Some ((t, consumed s r) :: l)
                    | None => None
                    end
           end
    end.

  Definition tokens (s : str) : option (list token) :=
    option_map (map fst) (lex (length s) s).
End Lexer.
