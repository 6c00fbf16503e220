(** What the CSS tokenizer should do, stated on source text. *)
From Coq Require Import String List NArith Bool.
From Verif.Base Require Import Str.
From Verif.Css Require Import LexerModel.
Import ListNotations.
Local Open Scope list_scope.
Local Open Scope N_scope.

(** ** Source text of a token (CSS Syntax 3, section 9, without escapes in names). *)

Definition name_start (c : rune) : bool := is_alpha c || (c =? 95) || (128 <=? c).
Definition name_char (c : rune) : bool := is_alnum c || (c =? 95) || (c =? 45) || (128 <=? c).

(** [foo], [-foo] or [--foo] *)
Definition plain_ident (s : str) : Prop :=
  Forall (fun c => name_char c = true) s /\
  ((exists c r, s = c :: r /\ name_start c = true) \/
   (exists c r, s = 45 :: c :: r /\ name_start c = true) \/
   (exists c r, s = 45 :: 45 :: c :: r)).

Definition digits (s : str) : Prop := s <> [] /\ Forall (fun c => is_digit c = true) s.

(** [[+-]? (digits | digits . digits | . digits) ([eE] [+-]? digits)?] *)
Definition number_text (s : str) : Prop :=
  exists sign mant expo, s = sign ++ mant ++ expo /\
    (sign = [] \/ sign = [43] \/ sign = [45]) /\
    (digits mant \/
     (exists a b, mant = a ++ 46 :: b /\ digits a /\ digits b) \/
     (exists b, mant = 46 :: b /\ digits b)) /\
    (expo = [] \/
     exists e s' d, (e = 101 \/ e = 69) /\ (s' = [] \/ s' = [43] \/ s' = [45]) /\ digits d /\
       expo = e :: s' ++ d).

(** CSSOM "serialize a string": quotes and backslashes are escaped with a backslash,
    control characters by their code in hexadecimal followed by a space. *)
Definition hex_digit (n : N) : rune := if n <? 10 then n + 48 else n + 87.
Definition escape_char (c : rune) : str :=
  if c <? 16 then [92; hex_digit c; 32]
  else if (c <? 32) || (c =? 127) then [92; hex_digit (c / 16); hex_digit (c mod 16); 32]
  else if (c =? 34) || (c =? 92) then [92; c]
  else [c].
Definition string_text (s : str) : str := 34 :: concat (map escape_char s) ++ [34].

(** ** Tokens that can be written down, and their text *)

Inductive written :=
| WIdent (s : str) | WFunc (s : str) | WAt (s : str) | WHash (s : str)
| WString (s : str)
| WNum (s : str) | WPct (s : str) | WDim (n u : str)
| WSpace (s : str)
| WPunct (t : ttype)
| WDelim (c : rune).

Definition punct_char (t : ttype) : option rune :=
  match t with
  | LEFT_CURLY_BRACKET => Some 123 | RIGHT_CURLY_BRACKET => Some 125
  | LEFT_SQUARE_BRACKET => Some 91 | RIGHT_SQUARE_BRACKET => Some 93
  | LEFT_PARENTHESIS => Some 40 | RIGHT_PARENTHESIS => Some 41
  | SEMICOLON => Some 59 | COLON => Some 58 | COMMA => Some 44
  | _ => None
  end.

Definition text (w : written) : str :=
  match w with
  | WIdent s => s
  | WFunc s => s ++ [40]
  | WAt s => 64 :: s
  | WHash s => 35 :: s
  | WString s => string_text s
  | WNum s => s
  | WPct s => s ++ [37]
  | WDim n u => n ++ u
  | WSpace s => s
  | WPunct t => match punct_char t with Some c => [c] | None => [] end
  | WDelim c => [c]
  end.

Definition token_of (w : written) : token :=
  match w with
  | WIdent s => mkT IDENT s
  | WFunc s => mkT FUNCTION (s ++ [40])
  | WAt s => mkT AT_KEYWORD (64 :: s)
  | WHash s => mkT HASH (35 :: s)
  | WString s => mkT STRING s
  | WNum s => mkT NUMBER s
  | WPct s => mkT PERCENTAGE (s ++ [37])
  | WDim n u => mkT DIMENSION (n ++ u)
  | WSpace s => mkT WHITESPACE s
  | WPunct t => mkT t (text w)
  | WDelim c => mkT DELIM [c]
  end.

(** A dimension's unit: [px], [em], ...; not readable as an exponent ([e], [e3], [e-3x]). *)
Definition exponent_like (u : str) : bool :=
  match u with
  | e :: r => ((e =? 101) || (e =? 69)) &&
              match r with
              | [] => true
              | c :: r' => is_digit c || ((c =? 45) && match r' with d :: _ => is_digit d | [] => true end)
              end
  | [] => false
  end.
Definition unit_ok (u : str) : Prop :=
  Forall (fun c => name_char c = true) u /\ (exists c r, u = c :: r /\ name_start c = true) /\
  exponent_like u = false.

(** Delimiters that are never the start of a longer token. *)
Definition plain_delim (c : rune) : bool := existsb (N.eqb c) [62; 126; 42; 33; 124; 61; 38; 36; 94; 63; 37].

Definition valid (w : written) : Prop :=
  match w with
  | WIdent s => plain_ident s
  | WFunc s => plain_ident s /\ eq_ci s (of_string "url") = false
  | WAt s => plain_ident s
  | WHash s => s <> [] /\ Forall (fun c => name_char c = true) s
  | WString s => Forall (fun c => (0 < c)) s
  | WNum s => number_text s
  | WPct s => number_text s
  | WDim n u => number_text n /\ unit_ok u
  | WSpace s => s <> [] /\ Forall (fun c => is_space c = true) s
  | WPunct t => punct_char t <> None
  | WDelim c => plain_delim c = true
  end.

(** The text that follows does not extend the token. *)
Definition head_not (f : rune -> bool) (r : str) : Prop :=
  match r with [] => True | c :: _ => f c = false end.
Definition ends_before (w : written) (r : str) : Prop :=
  match w with
  | WIdent _ => head_not (fun c => name_char c || (c =? 92) || (c =? 40)) r
  | WAt _ | WHash _ | WDim _ _ => head_not (fun c => name_char c || (c =? 92)) r
  | WNum _ => head_not (fun c => name_char c || (c =? 92) || (c =? 46) || (c =? 37)) r
  | WSpace _ => head_not is_space r
  | WPct _ | WFunc _ | WString _ | WPunct _ | WDelim _ => True
  end.

Fixpoint separated (l : list written) : Prop :=
  match l with
  | [] => True
  | w :: l' => ends_before w (concat (map text l')) /\ separated l'
  end.

Definition source (l : list written) : str := concat (map text l).

(** ** Inside of a string literal with quote [q] (CSS Syntax 3, section 4.3.5) *)
Inductive sitem :=
| SPlain (c : rune)          (** a character standing for itself *)
| SEsc (c : rune)            (** a backslash and a character that is not a hexadecimal digit *)
| SHex (d : str) (w : rune)  (** a backslash, hexadecimal digits and one white space *)
| SCont (c : rune).          (** a backslash and a line break: nothing *)

Definition newline (c : rune) : bool := (c =? 10) || (c =? 12) || (c =? 13).

Definition hex_number (d : str) : N := fold_left (fun n c => n * 16 + xdigit_val c) d 0.
Definition hex_rune (d : str) : rune :=
  let n := hex_number d in
  if (n =? 0) || (1114111 <? n) || ((55296 <=? n) && (n <=? 57343)) then 65533 else n.

(** Up to [k] hexadecimal digits are recognised. *)
Definition sitem_ok (k : nat) (q : rune) (i : sitem) : Prop :=
  match i with
  | SPlain c => c <> q /\ c <> 92 /\ newline c = false
  | SEsc c => is_xdigit c = false /\ newline c = false
  | SHex d w => (1 <= length d <= k)%nat /\ Forall (fun c => is_xdigit c = true) d /\
                (w = 32 \/ w = 9 \/ w = 10)
  | SCont c => newline c = true
  end.
Definition sitem_text (i : sitem) : str :=
  match i with
  | SPlain c => [c] | SEsc c => [92; c] | SHex d w => 92 :: d ++ [w] | SCont c => [92; c]
  end.
Definition sitem_value (i : sitem) : str :=
  match i with
  | SPlain c => [c] | SEsc c => [c] | SHex d _ => [hex_rune d] | SCont _ => []
  end.

(** Three ways to stop: the closing quote, the end of input, an unescaped line break (bad
    string, the line break is left). *)
Inductive sending (q : rune) : str -> ttype -> str -> Prop :=
| SClose r : sending q (q :: r) STRING r
| SEof : sending q [] STRING []
| SBad c r : newline c = true -> sending q (c :: r) BAD_STRING (c :: r).
