(** Model of the HTML tokenizer.
    Source: /repo/src/vaev-engine/html/lexer.cpp (all eighty states) and token.cpp.

    The definitions [on_STATE] are a statement-by-statement transcription of the [switch] of
    [HtmlLexer::consume]; each C++ statement is a function [lexer -> res lexer], and [;;] is
    sequencing.  Diagnostics ([_raise]), locations and debug logs are left out.
    [_reconsumeIn] is always the last statement of its branch: it sets the flag [l_again], and
    [consume] then runs the new state on the same character.  The sink is a function of the tokens
    emitted so far that may switch the tokenizer to one of the text states after a start tag
    (what parser.cpp:952, 959, 1304, 2109 and 2582 do). *)
From Coq Require Import String List Arith Bool NArith.
From Verif.Base Require Import Str.
From Verif.Html Require Import Entities.
Import ListNotations.
Local Open Scope list_scope.
Local Open Scope N_scope.

(** defs/states.inc *)
Inductive state :=
| DATA
| RCDATA
| RAWTEXT
| SCRIPT_DATA
| PLAINTEXT
| TAG_OPEN
| END_TAG_OPEN
| TAG_NAME
| RCDATA_LESS_THAN_SIGN
| RCDATA_END_TAG_OPEN
| RCDATA_END_TAG_NAME
| RAWTEXT_LESS_THAN_SIGN
| RAWTEXT_END_TAG_OPEN
| RAWTEXT_END_TAG_NAME
| SCRIPT_DATA_LESS_THAN_SIGN
| SCRIPT_DATA_END_TAG_OPEN
| SCRIPT_DATA_END_TAG_NAME
| SCRIPT_DATA_ESCAPE_START
| SCRIPT_DATA_ESCAPE_START_DASH
| SCRIPT_DATA_ESCAPED
| SCRIPT_DATA_ESCAPED_DASH
| SCRIPT_DATA_ESCAPED_DASH_DASH
| SCRIPT_DATA_ESCAPED_LESS_THAN_SIGN
| SCRIPT_DATA_ESCAPED_END_TAG_OPEN
| SCRIPT_DATA_ESCAPED_END_TAG_NAME
| SCRIPT_DATA_DOUBLE_ESCAPE_START
| SCRIPT_DATA_DOUBLE_ESCAPED
| SCRIPT_DATA_DOUBLE_ESCAPED_DASH
| SCRIPT_DATA_DOUBLE_ESCAPED_DASH_DASH
| SCRIPT_DATA_DOUBLE_ESCAPED_LESS_THAN_SIGN
| SCRIPT_DATA_DOUBLE_ESCAPE_END
| BEFORE_ATTRIBUTE_NAME
| ATTRIBUTE_NAME
| AFTER_ATTRIBUTE_NAME
| BEFORE_ATTRIBUTE_VALUE
| ATTRIBUTE_VALUE_DOUBLE_QUOTED
| ATTRIBUTE_VALUE_SINGLE_QUOTED
| ATTRIBUTE_VALUE_UNQUOTED
| AFTER_ATTRIBUTE_VALUE_QUOTED
| SELF_CLOSING_START_TAG
| BOGUS_COMMENT
| MARKUP_DECLARATION_OPEN
| COMMENT_START
| COMMENT_START_DASH
| COMMENT
| COMMENT_LESS_THAN_SIGN
| COMMENT_LESS_THAN_SIGN_BANG
| COMMENT_LESS_THAN_SIGN_BANG_DASH
| COMMENT_LESS_THAN_SIGN_BANG_DASH_DASH
| COMMENT_END_DASH
| COMMENT_END
| COMMENT_END_BANG
| DOCTYPE
| BEFORE_DOCTYPE_NAME
| DOCTYPE_NAME
| AFTER_DOCTYPE_NAME
| AFTER_DOCTYPE_PUBLIC_KEYWORD
| BEFORE_DOCTYPE_PUBLIC_IDENTIFIER
| DOCTYPE_PUBLIC_IDENTIFIER_DOUBLE_QUOTED
| DOCTYPE_PUBLIC_IDENTIFIER_SINGLE_QUOTED
| AFTER_DOCTYPE_PUBLIC_IDENTIFIER
| BETWEEN_DOCTYPE_PUBLIC_AND_SYSTEM_IDENTIFIERS
| AFTER_DOCTYPE_SYSTEM_KEYWORD
| BEFORE_DOCTYPE_SYSTEM_IDENTIFIER
| DOCTYPE_SYSTEM_IDENTIFIER_DOUBLE_QUOTED
| DOCTYPE_SYSTEM_IDENTIFIER_SINGLE_QUOTED
| AFTER_DOCTYPE_SYSTEM_IDENTIFIER
| BOGUS_DOCTYPE
| CDATA_SECTION
| CDATA_SECTION_BRACKET
| CDATA_SECTION_END
| CHARACTER_REFERENCE
| NAMED_CHARACTER_REFERENCE
| AMBIGUOUS_AMPERSAND
| NUMERIC_CHARACTER_REFERENCE
| HEXADECIMAL_CHARACTER_REFERENCE_START
| DECIMAL_CHARACTER_REFERENCE_START
| HEXADECIMAL_CHARACTER_REFERENCE
| DECIMAL_CHARACTER_REFERENCE
| NUMERIC_CHARACTER_REFERENCE_END.

(** token.cpp:12-27 *)
Inductive ttype := T_NIL | T_DOCTYPE | T_START_TAG | T_END_TAG | T_COMMENT | T_CHARACTER | T_END_OF_FILE.
Definition ttype_eqb (a b : ttype) : bool :=
  match a, b with
  | T_NIL, T_NIL | T_DOCTYPE, T_DOCTYPE | T_START_TAG, T_START_TAG | T_END_TAG, T_END_TAG
  | T_COMMENT, T_COMMENT | T_CHARACTER, T_CHARACTER | T_END_OF_FILE, T_END_OF_FILE => true
  | _, _ => false
  end.

(** token.cpp:29-43 *)
Record token := mkToken {
  t_type : ttype;
  t_name : option str;
  t_rune : N;
  t_data : str;
  t_public : option str;
  t_system : option str;
  t_attrs : list (str * str);
  t_quirks : bool;
  t_self_closing : bool;
}.
Definition new_token (ty : ttype) : token := mkToken ty None 0 [] None None [] false false.
Definition char_token (c : N) : token := mkToken T_CHARACTER None c [] None None [] false false.

(** How a run can go wrong. *)
Inductive why :=
| UnexpectedToken   (** the [panic] of [_ensure] *)
| NotSemicolon      (** the [panic] of lexer.cpp:3580 *)
| DanglingAttribute (** a use of [_currAttr] after its token is gone, or of [NONE] *)
| StaleOffset       (** lexer.cpp:3549: a slice longer than the buffer *)
| TooDeep.          (** [consume] called itself more often than the fuel *)
Inductive res (A : Type) := Ok (a : A) | Crash (w : why).
Arguments Ok {A} a.
Arguments Crash {A} w.
Definition bind {A B} (x : res A) (f : A -> res B) : res B :=
  match x with Ok a => f a | Crash w => Crash w end.

(** [_currAttr]: no attribute, the last attribute of the current token, or an attribute of a token
    that has been replaced. *)
Inductive attr_ref := NoAttr | Live | Dangling.

(** lexer.cpp:45-60 *)
Record lexer := mkLexer {
  l_state : state;
  l_return : state;
  l_token : option token;
  l_last : option token;
  l_char : N;
  l_builder : str;
  l_temp : str;
  l_peek : str;
  l_foreign : bool;
  l_matched : option nat;
  l_attr : attr_ref;
  l_again : bool;
  l_out : list token;  (** emitted tokens, newest first *)
}.
Definition init : lexer := mkLexer DATA DATA None None 0 [] [] [] false None NoAttr false [].

(** ** Characters *)
Definition is_upper (c : N) : bool := (65 <=? c) && (c <=? 90).
Definition is_lower (c : N) : bool := (97 <=? c) && (c <=? 122).
Definition is_alpha (c : N) : bool := is_upper c || is_lower c.
Definition is_digit (c : N) : bool := (48 <=? c) && (c <=? 57).
Definition is_alnum (c : N) : bool := is_alpha c || is_digit c.
Definition is_hex (c : N) : bool := is_digit c || ((65 <=? c) && (c <=? 70)) || ((97 <=? c) && (c <=? 102)).
Definition to_lower (c : N) : N := if is_upper c then c + 32 else c.
(** tab, line feed, form feed, space *)
Definition is_space (c : N) : bool := (c =? 9) || (c =? 10) || (c =? 12) || (c =? 32).
Definition eq_ci (a b : N) : bool := to_lower a =? to_lower b.
Definition is_unicode (c : N) : bool := c <=? 1114111.
Definition is_surrogate (c : N) : bool := (55296 <=? c) && (c <=? 57343).

(** Karm [startWith(slice, prefix)] (assumed from its uses here): [YES] when they are equal,
    [PARTIAL] when the slice goes on after the prefix. *)
Inductive match_ := NO | PARTIAL | YES.
Fixpoint start_with (eqb : N -> N -> bool) (s p : str) : match_ :=
  match p, s with
  | [], [] => YES
  | [], _ => PARTIAL
  | _, [] => NO
  | x :: p', y :: s' => if eqb y x then start_with eqb s' p' else NO
  end.

(** ** Statements *)

(** The states that parser.cpp:952, 959, 1304, 2109 and 2582 switch the tokenizer to. *)
Inductive text_mode := Rcdata | Rawtext | ScriptData | Plaintext.
Definition mode_state (m : text_mode) : state :=
  match m with Rcdata => RCDATA | Rawtext => RAWTEXT | ScriptData => SCRIPT_DATA | Plaintext => PLAINTEXT end.

Section Sink.
Variable sink : list token -> option text_mode.

Definition act := lexer -> res lexer.
Definition seq (f g : act) : act := fun l => bind (f l) g.
Local Infix ";;" := seq (at level 61, right associativity).

Definition switch (s : state) : act := fun l =>
  Ok (mkLexer s (l_return l) (l_token l) (l_last l) (l_char l) (l_builder l) (l_temp l) (l_peek l) (l_foreign l) (l_matched l) (l_attr l) (l_again l) (l_out l)).
Definition set_ret (s : state) : act := fun l =>
  Ok (mkLexer (l_state l) s (l_token l) (l_last l) (l_char l) (l_builder l) (l_temp l) (l_peek l) (l_foreign l) (l_matched l) (l_attr l) (l_again l) (l_out l)).
Definition set_token (t : option token) : act := fun l =>
  Ok (mkLexer (l_state l) (l_return l) t (l_last l) (l_char l) (l_builder l) (l_temp l) (l_peek l) (l_foreign l) (l_matched l) (l_attr l) (l_again l) (l_out l)).
Definition set_char (c : N) : act := fun l =>
  Ok (mkLexer (l_state l) (l_return l) (l_token l) (l_last l) c (l_builder l) (l_temp l) (l_peek l) (l_foreign l) (l_matched l) (l_attr l) (l_again l) (l_out l)).
Definition set_builder (b : str) : act := fun l =>
  Ok (mkLexer (l_state l) (l_return l) (l_token l) (l_last l) (l_char l) b (l_temp l) (l_peek l) (l_foreign l) (l_matched l) (l_attr l) (l_again l) (l_out l)).
Definition set_temp (b : str) : act := fun l =>
  Ok (mkLexer (l_state l) (l_return l) (l_token l) (l_last l) (l_char l) (l_builder l) b (l_peek l) (l_foreign l) (l_matched l) (l_attr l) (l_again l) (l_out l)).
Definition set_peek (b : str) : act := fun l =>
  Ok (mkLexer (l_state l) (l_return l) (l_token l) (l_last l) (l_char l) (l_builder l) (l_temp l) b (l_foreign l) (l_matched l) (l_attr l) (l_again l) (l_out l)).
Definition set_matched (m : option nat) : act := fun l =>
  Ok (mkLexer (l_state l) (l_return l) (l_token l) (l_last l) (l_char l) (l_builder l) (l_temp l) (l_peek l) (l_foreign l) m (l_attr l) (l_again l) (l_out l)).
Definition set_attr (a : attr_ref) : act := fun l =>
  Ok (mkLexer (l_state l) (l_return l) (l_token l) (l_last l) (l_char l) (l_builder l) (l_temp l) (l_peek l) (l_foreign l) (l_matched l) a (l_again l) (l_out l)).
Definition set_again (b : bool) : act := fun l =>
  Ok (mkLexer (l_state l) (l_return l) (l_token l) (l_last l) (l_char l) (l_builder l) (l_temp l) (l_peek l) (l_foreign l) (l_matched l) (l_attr l) b (l_out l)).

Definition switch_ret : act := fun l => switch (l_return l) l.
(** lexer.cpp:100-103 *)
Definition reconsume (s : state) : act := switch s ;; set_again true.
Definition reconsume_ret : act := fun l => reconsume (l_return l) l.

Definition b_append (c : N) : act := fun l => set_builder (l_builder l ++ [c]) l.
Definition b_append_all (s : str) : act := fun l => set_builder (l_builder l ++ s) l.
Definition b_clear : act := set_builder [].
Definition t_append (c : N) : act := fun l => set_temp (l_temp l ++ [c]) l.
Definition t_clear : act := set_temp [].
Definition p_append (c : N) : act := fun l => set_peek (l_peek l ++ [c]) l.
Definition p_clear : act := set_peek [].

(** The token that held the referenced attribute is replaced or moved. *)
Definition lose_attr : act := fun l =>
  match l_attr l with Live => set_attr Dangling l | _ => Ok l end.

(** lexer.cpp:62-68 *)
Definition begin (ty : ttype) : act := lose_attr ;; set_token (Some (new_token ty)).

(** lexer.cpp:70-74 *)
Definition with_token (f : token -> token) : act := fun l =>
  match l_token l with None => Crash UnexpectedToken | Some t => set_token (Some (f t)) l end.
(** lexer.cpp:76-81 *)
Definition ensure (ty : ttype) : act := fun l =>
  match l_token l with
  | None => Crash UnexpectedToken
  | Some t => if ttype_eqb (t_type t) ty then Ok l else Crash UnexpectedToken
  end.

(** lexer.cpp:83-91; after the move [_token] is taken to be empty. *)
Definition emit : act := fun l =>
  match l_token l with
  | None => Crash UnexpectedToken
  | Some t =>
      let out := t :: l_out l in
      let start := ttype_eqb (t_type t) T_START_TAG in
      Ok (mkLexer
            (if start then match sink out with Some m => mode_state m | None => l_state l end else l_state l)
            (l_return l)
            (if start then None else Some t)
            (if start then Some t else l_last l)
            (l_char l) (l_builder l) (l_temp l) (l_peek l) (l_foreign l) (l_matched l)
            (if start then match l_attr l with Live => Dangling | a => a end else l_attr l)
            (l_again l) out)
  end.

(** lexer.cpp:93-96 *)
Definition emit_char (c : N) : act :=
  begin T_CHARACTER ;; set_token (Some (char_token c)) ;; emit.

(** lexer.cpp:98-102 *)
Definition begin_attribute : act :=
  with_token (fun t => mkToken (t_type t) (t_name t) (t_rune t) (t_data t) (t_public t) (t_system t)
                         (t_attrs t ++ [([], [])]) (t_quirks t) (t_self_closing t)) ;;
  set_attr Live.

(** lexer.cpp:114-118 *)
Definition appropriate (l : lexer) : bool :=
  match l_last l with
  | Some t => match t_name t with Some n => str_eqb n (l_builder l) | None => false end
  | None => false
  end.

(** lexer.cpp:131-135 *)
Definition in_attribute (l : lexer) : bool :=
  match l_return l with
  | ATTRIBUTE_VALUE_DOUBLE_QUOTED | ATTRIBUTE_VALUE_SINGLE_QUOTED | ATTRIBUTE_VALUE_UNQUOTED => true
  | _ => false
  end.

Fixpoint emit_all (s : str) : act :=
  match s with [] => Ok | c :: s' => emit_char c ;; emit_all s' end.
Definition emit_temp : act := fun l => emit_all (l_temp l) l.

(** lexer.cpp:120-129 *)
Definition flush : act := fun l =>
  if in_attribute l then b_append_all (l_temp l) l else emit_all (l_temp l) l.

(** lexer.cpp:641-645 *)
Definition append_or_emit (c : N) : act := fun l =>
  if in_attribute l then b_append c l else emit_char c l.

(** [_ensure().name = _commitSymbol()] (lexer.cpp:137-141) *)
Definition commit_name : act := fun l =>
  (with_token (fun t => mkToken (t_type t) (Some (l_builder l)) (t_rune t) (t_data t) (t_public t) (t_system t)
                          (t_attrs t) (t_quirks t) (t_self_closing t)) ;; b_clear) l.
Definition take_data : act := fun l =>
  (with_token (fun t => mkToken (t_type t) (t_name t) (t_rune t) (l_builder l) (t_public t) (t_system t)
                          (t_attrs t) (t_quirks t) (t_self_closing t)) ;; b_clear) l.
Definition take_public : act := fun l =>
  (with_token (fun t => mkToken (t_type t) (t_name t) (t_rune t) (t_data t) (Some (l_builder l)) (t_system t)
                          (t_attrs t) (t_quirks t) (t_self_closing t)) ;; b_clear) l.
Definition take_system : act := fun l =>
  (with_token (fun t => mkToken (t_type t) (t_name t) (t_rune t) (t_data t) (t_public t) (Some (l_builder l))
                          (t_attrs t) (t_quirks t) (t_self_closing t)) ;; b_clear) l.
Definition force_quirks : act :=
  with_token (fun t => mkToken (t_type t) (t_name t) (t_rune t) (t_data t) (t_public t) (t_system t)
                         (t_attrs t) true (t_self_closing t)).
Definition self_closing : act :=
  with_token (fun t => mkToken (t_type t) (t_name t) (t_rune t) (t_data t) (t_public t) (t_system t)
                         (t_attrs t) (t_quirks t) true).

(** [if (_currAttr) _currAttr->f = ...; else _builder.clear();] (lexer.cpp:1556-1559, 1714-1717) *)
Definition with_attr (f : str * str -> str * str) : act := fun l =>
  match l_attr l with
  | NoAttr => Ok l
  | Dangling => Crash DanglingAttribute
  | Live =>
      match l_token l with
      | None => Crash DanglingAttribute
      | Some t =>
          match rev (t_attrs t) with
          | [] => Crash DanglingAttribute
          | a :: r =>
              set_token (Some (mkToken (t_type t) (t_name t) (t_rune t) (t_data t) (t_public t) (t_system t)
                                 (rev r ++ [f a]) (t_quirks t) (t_self_closing t))) l
          end
      end
  end.
Definition commit_attr_name : act := fun l => (with_attr (fun a => (l_builder l, snd a)) ;; b_clear) l.
Definition commit_attr_value : act := fun l => (with_attr (fun a => (fst a, l_builder l)) ;; b_clear) l.

(** lexer.cpp:1535-1544 *)
Definition leave_attribute_name : act := fun l =>
  match l_token l with
  | None => Crash UnexpectedToken
  | Some t =>
      let attrs := t_attrs t in
      match removelast attrs with
      | [] => Ok l
      | others =>
          match l_attr l with
          | Live =>
              let name := fst (List.last attrs ([], [])) in
              if existsb (fun a => match start_with eq_ci name (fst a) with YES => true | _ => false end) others
              then (set_attr NoAttr ;;
                    set_token (Some (mkToken (t_type t) (t_name t) (t_rune t) (t_data t) (t_public t) (t_system t)
                                       others (t_quirks t) (t_self_closing t)))) l
              else Ok l
          | _ => Crash DanglingAttribute
          end
      end
  end.

(** lexer.cpp:1215-1218, 1441-1445 *)
Definition if_script (a b : state) : act := fun l =>
  if str_eqb (l_temp l) (of_string "script") then switch a l else switch b l.

(** lexer.cpp:3733-3737 and the two branches after it, and 3797-3801 *)
Definition accumulate (base offset c : N) : act := fun l =>
  if is_unicode (l_char l) then set_char (l_char l * base + c - offset) l else Ok l.

(** lexer.cpp:3490-3508 [computeMatchState] *)
Definition has_partial (target : str) : bool :=
  existsb (fun e => match start_with N.eqb (fst e) target with PARTIAL => true | _ => false end) entities.
Definition is_entity (target : str) : bool :=
  existsb (fun e => match start_with N.eqb (fst e) target with YES => true | _ => false end) entities.
Definition expansion (name : str) : option str :=
  option_map snd (find (fun e => str_eqb name (fst e)) entities).

(** lexer.cpp:3548-3562, 3605-3611: the first [m] characters of the buffer are a name; they are
    replaced by what it stands for. *)
Definition t_expand (m : nat) : act := fun l =>
  match expansion (firstn m (l_temp l)) with
  | Some runes => set_temp (runes ++ skipn m (l_temp l)) l
  | None => Ok l
  end.

(** lexer.cpp:3886-3914 *)
Definition windows_1252 : list (N * N) :=
  [(128, 8364); (130, 8218); (131, 402); (132, 8222); (133, 8230); (134, 8224); (135, 8225); (136, 710);
   (137, 8240); (138, 352); (139, 8249); (140, 338); (142, 381); (145, 8216); (146, 8217); (147, 8220);
   (148, 8221); (149, 8226); (150, 8211); (151, 8212); (152, 732); (153, 8482); (154, 353); (155, 8250);
   (156, 339); (158, 382); (159, 376)].

(** lexer.cpp:3830-3921 *)
Definition decode_code (c : N) : N :=
  let c := if c =? 0 then 65533 else if negb (is_unicode c) then 65533 else if is_surrogate c then 65533 else c in
  match find (fun p => fst p =? c) windows_1252 with Some p => snd p | None => c end.

(** ** The states *)

(** lexer.cpp:155-195 *)
Definition on_DATA (c : N) (eof : bool) (l : lexer) : res lexer :=
  if (c =? 38) then (set_ret DATA ;; switch CHARACTER_REFERENCE) l
  else if (c =? 60) then (switch TAG_OPEN) l
  else if (c =? 0) then (emit_char c) l
  else if eof then (begin T_END_OF_FILE ;; emit) l
  else (emit_char c) l.

(** lexer.cpp:197-236 *)
Definition on_RCDATA (c : N) (eof : bool) (l : lexer) : res lexer :=
  if (c =? 38) then (set_ret RCDATA ;; switch CHARACTER_REFERENCE) l
  else if (c =? 60) then (switch RCDATA_LESS_THAN_SIGN) l
  else if (c =? 0) then (emit_char 65533) l
  else if eof then (begin T_END_OF_FILE ;; emit) l
  else (emit_char c) l.

(** lexer.cpp:238-270 *)
Definition on_RAWTEXT (c : N) (eof : bool) (l : lexer) : res lexer :=
  if (c =? 60) then (switch RAWTEXT_LESS_THAN_SIGN) l
  else if (c =? 0) then (emit_char 65533) l
  else if eof then (begin T_END_OF_FILE ;; emit) l
  else (emit_char c) l.

(** lexer.cpp:272-304 *)
Definition on_SCRIPT_DATA (c : N) (eof : bool) (l : lexer) : res lexer :=
  if (c =? 60) then (switch SCRIPT_DATA_LESS_THAN_SIGN) l
  else if (c =? 0) then (emit_char 65533) l
  else if eof then (begin T_END_OF_FILE ;; emit) l
  else (emit_char c) l.

(** lexer.cpp:306-332 *)
Definition on_PLAINTEXT (c : N) (eof : bool) (l : lexer) : res lexer :=
  if (c =? 0) then (emit_char 65533) l
  else if eof then (begin T_END_OF_FILE ;; emit) l
  else (emit_char c) l.

(** lexer.cpp:334-389 *)
Definition on_TAG_OPEN (c : N) (eof : bool) (l : lexer) : res lexer :=
  if (c =? 33) then (switch MARKUP_DECLARATION_OPEN) l
  else if (c =? 47) then (switch END_TAG_OPEN) l
  else if is_alpha c then (begin T_START_TAG ;; reconsume TAG_NAME) l
  else if (c =? 63) then (begin T_COMMENT ;; reconsume BOGUS_COMMENT) l
  else if eof then (emit_char 60 ;; begin T_END_OF_FILE ;; emit) l
  else (emit_char 60 ;; reconsume DATA) l.

(** lexer.cpp:391-434 *)
Definition on_END_TAG_OPEN (c : N) (eof : bool) (l : lexer) : res lexer :=
  if is_alpha c then (begin T_END_TAG ;; reconsume TAG_NAME) l
  else if (c =? 62) then (switch DATA) l
  else if eof then (emit_char 60 ;; emit_char 47 ;; begin T_END_OF_FILE ;; emit) l
  else (begin T_COMMENT ;; reconsume BOGUS_COMMENT) l.

(** lexer.cpp:436-498 *)
Definition on_TAG_NAME (c : N) (eof : bool) (l : lexer) : res lexer :=
  if is_space c then (commit_name ;; switch BEFORE_ATTRIBUTE_NAME) l
  else if (c =? 47) then (commit_name ;; switch SELF_CLOSING_START_TAG) l
  else if (c =? 62) then (commit_name ;; switch DATA ;; emit) l
  else if is_upper c then (b_append (to_lower c)) l
  else if (c =? 0) then (b_append 65533) l
  else if eof then (begin T_END_OF_FILE ;; emit) l
  else (b_append c) l.

(** lexer.cpp:500-521 *)
Definition on_RCDATA_LESS_THAN_SIGN (c : N) (eof : bool) (l : lexer) : res lexer :=
  if (c =? 47) then (t_clear ;; switch RCDATA_END_TAG_OPEN) l
  else (emit_char 60 ;; reconsume RCDATA) l.

(** lexer.cpp:523-545 *)
Definition on_RCDATA_END_TAG_OPEN (c : N) (eof : bool) (l : lexer) : res lexer :=
  if is_alpha c then (begin T_END_TAG ;; reconsume RCDATA_END_TAG_NAME) l
  else (emit_char 60 ;; emit_char 47 ;; reconsume RCDATA) l.

(** lexer.cpp:547-619 *)
Definition on_RCDATA_END_TAG_NAME (c : N) (eof : bool) (l : lexer) : res lexer :=
  if (is_space c) && appropriate l then (commit_name ;; switch BEFORE_ATTRIBUTE_NAME) l
  else if (c =? 47) && appropriate l then (commit_name ;; switch SELF_CLOSING_START_TAG) l
  else if (c =? 62) && appropriate l then (commit_name ;; switch DATA ;; emit) l
  else if is_upper c then (b_append (to_lower c) ;; t_append c) l
  else if is_lower c then (b_append c ;; t_append c) l
  else (b_clear ;; emit_char 60 ;; emit_char 47 ;; emit_temp ;; reconsume RCDATA) l.

(** lexer.cpp:620-641 *)
Definition on_RAWTEXT_LESS_THAN_SIGN (c : N) (eof : bool) (l : lexer) : res lexer :=
  if (c =? 47) then (t_clear ;; switch RAWTEXT_END_TAG_OPEN) l
  else (emit_char 60 ;; reconsume RAWTEXT) l.

(** lexer.cpp:643-665 *)
Definition on_RAWTEXT_END_TAG_OPEN (c : N) (eof : bool) (l : lexer) : res lexer :=
  if is_alpha c then (begin T_END_TAG ;; reconsume RAWTEXT_END_TAG_NAME) l
  else (emit_char 60 ;; emit_char 47 ;; reconsume RAWTEXT) l.

(** lexer.cpp:667-738 *)
Definition on_RAWTEXT_END_TAG_NAME (c : N) (eof : bool) (l : lexer) : res lexer :=
  if (is_space c) && appropriate l then (commit_name ;; switch BEFORE_ATTRIBUTE_NAME) l
  else if (c =? 47) && appropriate l then (commit_name ;; switch SELF_CLOSING_START_TAG) l
  else if (c =? 62) && appropriate l then (commit_name ;; switch DATA ;; emit) l
  else if is_upper c then (b_append (to_lower c) ;; t_append c) l
  else if is_lower c then (b_append c ;; t_append c) l
  else (b_clear ;; emit_char 60 ;; emit_char 47 ;; emit_temp ;; reconsume RAWTEXT) l.

(** lexer.cpp:740-770 *)
Definition on_SCRIPT_DATA_LESS_THAN_SIGN (c : N) (eof : bool) (l : lexer) : res lexer :=
  if (c =? 47) then (t_clear ;; switch SCRIPT_DATA_END_TAG_OPEN) l
  else if (c =? 33) then (switch SCRIPT_DATA_ESCAPE_START ;; emit_char 60 ;; emit_char 33) l
  else (emit_char 60 ;; reconsume SCRIPT_DATA) l.

(** lexer.cpp:772-794 *)
Definition on_SCRIPT_DATA_END_TAG_OPEN (c : N) (eof : bool) (l : lexer) : res lexer :=
  if is_alpha c then (begin T_END_TAG ;; reconsume SCRIPT_DATA_END_TAG_NAME) l
  else (emit_char 60 ;; emit_char 47 ;; reconsume SCRIPT_DATA) l.

(** lexer.cpp:796-869 *)
Definition on_SCRIPT_DATA_END_TAG_NAME (c : N) (eof : bool) (l : lexer) : res lexer :=
  if (is_space c) && appropriate l then (commit_name ;; switch BEFORE_ATTRIBUTE_NAME) l
  else if (c =? 47) && appropriate l then (commit_name ;; switch SELF_CLOSING_START_TAG) l
  else if (c =? 62) && appropriate l then (switch DATA ;; commit_name ;; emit) l
  else if is_upper c then (b_append (to_lower c) ;; t_append c) l
  else if is_lower c then (b_append c ;; t_append c) l
  else (b_clear ;; emit_char 60 ;; emit_char 47 ;; emit_temp ;; reconsume SCRIPT_DATA) l.

(** lexer.cpp:871-890 *)
Definition on_SCRIPT_DATA_ESCAPE_START (c : N) (eof : bool) (l : lexer) : res lexer :=
  if (c =? 45) then (switch SCRIPT_DATA_ESCAPE_START_DASH ;; emit_char 45) l
  else (reconsume SCRIPT_DATA) l.

(** lexer.cpp:892-911 *)
Definition on_SCRIPT_DATA_ESCAPE_START_DASH (c : N) (eof : bool) (l : lexer) : res lexer :=
  if (c =? 45) then (switch SCRIPT_DATA_ESCAPED_DASH_DASH ;; emit_char 45) l
  else (reconsume SCRIPT_DATA) l.

(** lexer.cpp:913-955 *)
Definition on_SCRIPT_DATA_ESCAPED (c : N) (eof : bool) (l : lexer) : res lexer :=
  if (c =? 45) then (switch SCRIPT_DATA_ESCAPED_DASH ;; emit_char 45) l
  else if (c =? 60) then (switch SCRIPT_DATA_ESCAPED_LESS_THAN_SIGN) l
  else if (c =? 0) then (emit_char 65533) l
  else if eof then (begin T_END_OF_FILE ;; emit) l
  else (emit_char c) l.

(** lexer.cpp:957-1027 *)
Definition on_SCRIPT_DATA_ESCAPED_DASH (c : N) (eof : bool) (l : lexer) : res lexer :=
  if (c =? 45) then (switch SCRIPT_DATA_ESCAPED_DASH_DASH ;; emit_char 45) l
  else if (c =? 60) then (switch SCRIPT_DATA_ESCAPED_LESS_THAN_SIGN) l
  else if (c =? 0) then (switch SCRIPT_DATA_ESCAPED ;; emit_char 65533) l
  else if eof then (begin T_END_OF_FILE ;; emit) l
  else if (c =? 62) then (switch SCRIPT_DATA ;; emit_char 62) l
  else if (c =? 0) then (switch SCRIPT_DATA_ESCAPED ;; emit_char 65533) l
  else if eof then (begin T_END_OF_FILE ;; emit) l
  else (switch SCRIPT_DATA_ESCAPED ;; emit_char c) l.

(** lexer.cpp:1029-1068 *)
Definition on_SCRIPT_DATA_ESCAPED_DASH_DASH (c : N) (eof : bool) (l : lexer) : res lexer :=
  if (c =? 45) then (emit_char 45) l
  else if (c =? 60) then (switch SCRIPT_DATA_ESCAPED_LESS_THAN_SIGN) l
  else if (c =? 62) then (switch SCRIPT_DATA ;; emit_char 62) l
  else if (c =? 0) then (switch SCRIPT_DATA_ESCAPED ;; emit_char 65533) l
  else if eof then (begin T_END_OF_FILE ;; emit) l
  else (switch SCRIPT_DATA_ESCAPED ;; emit_char c) l.

(** lexer.cpp:1070-1101 *)
Definition on_SCRIPT_DATA_ESCAPED_LESS_THAN_SIGN (c : N) (eof : bool) (l : lexer) : res lexer :=
  if (c =? 47) then (t_clear ;; switch SCRIPT_DATA_ESCAPED_END_TAG_OPEN) l
  else if is_alpha c then (t_clear ;; emit_char 60 ;; reconsume SCRIPT_DATA_DOUBLE_ESCAPE_START) l
  else (emit_char 60 ;; reconsume SCRIPT_DATA_ESCAPED) l.

(** lexer.cpp:1103-1125 *)
Definition on_SCRIPT_DATA_ESCAPED_END_TAG_OPEN (c : N) (eof : bool) (l : lexer) : res lexer :=
  if is_alpha c then (begin T_END_TAG ;; reconsume SCRIPT_DATA_ESCAPED_END_TAG_NAME) l
  else (emit_char 60 ;; emit_char 47 ;; reconsume SCRIPT_DATA_ESCAPED) l.

(** lexer.cpp:1127-1197 *)
Definition on_SCRIPT_DATA_ESCAPED_END_TAG_NAME (c : N) (eof : bool) (l : lexer) : res lexer :=
  if (is_space c) && appropriate l then (commit_name ;; switch BEFORE_ATTRIBUTE_NAME) l
  else if (c =? 47) && appropriate l then (commit_name ;; switch SELF_CLOSING_START_TAG) l
  else if (c =? 62) && appropriate l then (switch DATA ;; commit_name ;; emit) l
  else if is_upper c then (b_append (to_lower c) ;; t_append c) l
  else if is_lower c then (b_append c ;; t_append c) l
  else (b_clear ;; emit_char 60 ;; emit_char 47 ;; emit_temp ;; reconsume SCRIPT_DATA_ESCAPED) l.

(** lexer.cpp:1199-1247 *)
Definition on_SCRIPT_DATA_DOUBLE_ESCAPE_START (c : N) (eof : bool) (l : lexer) : res lexer :=
  if is_space c || (c =? 47) || (c =? 62) then (if_script SCRIPT_DATA_DOUBLE_ESCAPED SCRIPT_DATA_ESCAPED ;; emit_char c) l
  else if is_upper c then (t_append (to_lower c) ;; emit_char c) l
  else if is_lower c then (t_append c ;; emit_char c) l
  else (reconsume SCRIPT_DATA_ESCAPED) l.

(** lexer.cpp:1249-1293 *)
Definition on_SCRIPT_DATA_DOUBLE_ESCAPED (c : N) (eof : bool) (l : lexer) : res lexer :=
  if (c =? 45) then (switch SCRIPT_DATA_DOUBLE_ESCAPED_DASH ;; emit_char 45) l
  else if (c =? 60) then (switch SCRIPT_DATA_DOUBLE_ESCAPED_LESS_THAN_SIGN ;; emit_char 60) l
  else if (c =? 0) then (emit_char 65533) l
  else if eof then (begin T_END_OF_FILE ;; emit) l
  else (emit_char c) l.

(** lexer.cpp:1295-1343 *)
Definition on_SCRIPT_DATA_DOUBLE_ESCAPED_DASH (c : N) (eof : bool) (l : lexer) : res lexer :=
  if (c =? 45) then (switch SCRIPT_DATA_DOUBLE_ESCAPED_DASH_DASH ;; emit_char 45) l
  else if (c =? 60) then (switch SCRIPT_DATA_DOUBLE_ESCAPED_LESS_THAN_SIGN ;; emit_char 60) l
  else if (c =? 0) then (switch SCRIPT_DATA_DOUBLE_ESCAPED ;; emit_char 65533) l
  else if eof then (begin T_END_OF_FILE ;; emit) l
  else (switch SCRIPT_DATA_DOUBLE_ESCAPED ;; emit_char c) l.

(** lexer.cpp:1345-1399 *)
Definition on_SCRIPT_DATA_DOUBLE_ESCAPED_DASH_DASH (c : N) (eof : bool) (l : lexer) : res lexer :=
  if (c =? 45) then (emit_char 45) l
  else if (c =? 60) then (switch SCRIPT_DATA_DOUBLE_ESCAPED_LESS_THAN_SIGN ;; emit_char 60) l
  else if (c =? 62) then (switch SCRIPT_DATA ;; emit_char 62) l
  else if (c =? 0) then (switch SCRIPT_DATA_DOUBLE_ESCAPED ;; emit_char 65533) l
  else if eof then (begin T_END_OF_FILE ;; emit) l
  else (switch SCRIPT_DATA_DOUBLE_ESCAPED ;; emit_char c) l.

(** lexer.cpp:1401-1422 *)
Definition on_SCRIPT_DATA_DOUBLE_ESCAPED_LESS_THAN_SIGN (c : N) (eof : bool) (l : lexer) : res lexer :=
  if (c =? 47) then (t_clear ;; switch SCRIPT_DATA_DOUBLE_ESCAPE_END ;; emit_char 47) l
  else (reconsume SCRIPT_DATA_DOUBLE_ESCAPED) l.

(** lexer.cpp:1424-1473 *)
Definition on_SCRIPT_DATA_DOUBLE_ESCAPE_END (c : N) (eof : bool) (l : lexer) : res lexer :=
  if (is_space c || (c =? 47) || (c =? 62)) then (if_script SCRIPT_DATA_ESCAPED SCRIPT_DATA_DOUBLE_ESCAPED ;; emit_char c) l
  else if is_upper c then (t_append (to_lower c) ;; emit_char c) l
  else if is_lower c then (t_append c ;; emit_char c) l
  else (reconsume SCRIPT_DATA_DOUBLE_ESCAPED) l.

(** lexer.cpp:1475-1518 *)
Definition on_BEFORE_ATTRIBUTE_NAME (c : N) (eof : bool) (l : lexer) : res lexer :=
  if is_space c then Ok l
  else if (c =? 47) || (c =? 62) || eof then (reconsume AFTER_ATTRIBUTE_NAME) l
  else if (c =? 61) then (begin_attribute ;; b_append c ;; switch ATTRIBUTE_NAME) l
  else (begin_attribute ;; reconsume ATTRIBUTE_NAME) l.

(** lexer.cpp:1520-1610 *)
Definition on_ATTRIBUTE_NAME (c : N) (eof : bool) (l : lexer) : res lexer :=
  if is_space c || (c =? 47) || (c =? 62) || eof then (commit_attr_name ;; leave_attribute_name ;; reconsume AFTER_ATTRIBUTE_NAME) l
  else if (c =? 61) then (commit_attr_name ;; leave_attribute_name ;; switch BEFORE_ATTRIBUTE_VALUE) l
  else if is_upper c then (b_append (to_lower c)) l
  else if (c =? 0) then (b_append 65533) l
  else if (c =? 34) || (c =? 39) || (c =? 60) then (b_append c) l
  else (b_append c) l.

(** lexer.cpp:1612-1662 *)
Definition on_AFTER_ATTRIBUTE_NAME (c : N) (eof : bool) (l : lexer) : res lexer :=
  if is_space c then Ok l
  else if (c =? 47) then (switch SELF_CLOSING_START_TAG) l
  else if (c =? 61) then (switch BEFORE_ATTRIBUTE_VALUE) l
  else if (c =? 62) then (switch DATA ;; emit) l
  else if eof then (begin T_END_OF_FILE ;; emit) l
  else (begin_attribute ;; reconsume ATTRIBUTE_NAME) l.

(** lexer.cpp:1664-1705 *)
Definition on_BEFORE_ATTRIBUTE_VALUE (c : N) (eof : bool) (l : lexer) : res lexer :=
  if is_space c then Ok l
  else if (c =? 34) then (switch ATTRIBUTE_VALUE_DOUBLE_QUOTED) l
  else if (c =? 39) then (switch ATTRIBUTE_VALUE_SINGLE_QUOTED) l
  else if (c =? 62) then (switch DATA ;; emit) l
  else (reconsume ATTRIBUTE_VALUE_UNQUOTED) l.

(** lexer.cpp:1707-1754 *)
Definition on_ATTRIBUTE_VALUE_DOUBLE_QUOTED (c : N) (eof : bool) (l : lexer) : res lexer :=
  if (c =? 34) then (commit_attr_value ;; switch AFTER_ATTRIBUTE_VALUE_QUOTED) l
  else if (c =? 38) then (set_ret ATTRIBUTE_VALUE_DOUBLE_QUOTED ;; switch CHARACTER_REFERENCE) l
  else if (c =? 0) then (b_append 65533) l
  else if eof then (begin T_END_OF_FILE ;; emit) l
  else (b_append c) l.

(** lexer.cpp:1756-1803 *)
Definition on_ATTRIBUTE_VALUE_SINGLE_QUOTED (c : N) (eof : bool) (l : lexer) : res lexer :=
  if (c =? 39) then (commit_attr_value ;; switch AFTER_ATTRIBUTE_VALUE_QUOTED) l
  else if (c =? 38) then (set_ret ATTRIBUTE_VALUE_SINGLE_QUOTED ;; switch CHARACTER_REFERENCE) l
  else if (c =? 0) then (b_append 65533) l
  else if eof then (begin T_END_OF_FILE ;; emit) l
  else (b_append c) l.

(** lexer.cpp:1804-1878 *)
Definition on_ATTRIBUTE_VALUE_UNQUOTED (c : N) (eof : bool) (l : lexer) : res lexer :=
  if is_space c then (commit_attr_value ;; switch BEFORE_ATTRIBUTE_NAME) l
  else if (c =? 38) then (set_ret ATTRIBUTE_VALUE_UNQUOTED ;; switch CHARACTER_REFERENCE) l
  else if (c =? 62) then (commit_attr_value ;; switch DATA ;; emit) l
  else if (c =? 0) then (b_append 65533) l
  else if (c =? 34) || (c =? 39) || (c =? 60) || (c =? 61) || (c =? 96) then (b_append c) l
  else if eof then (begin T_END_OF_FILE ;; emit) l
  else (b_append c) l.

(** lexer.cpp:1880-1923 *)
Definition on_AFTER_ATTRIBUTE_VALUE_QUOTED (c : N) (eof : bool) (l : lexer) : res lexer :=
  if is_space c then (switch BEFORE_ATTRIBUTE_NAME) l
  else if (c =? 47) then (switch SELF_CLOSING_START_TAG) l
  else if (c =? 62) then (switch DATA ;; emit) l
  else if eof then (begin T_END_OF_FILE ;; emit) l
  else (reconsume BEFORE_ATTRIBUTE_NAME) l.

(** lexer.cpp:1925-1956 *)
Definition on_SELF_CLOSING_START_TAG (c : N) (eof : bool) (l : lexer) : res lexer :=
  if (c =? 62) then (self_closing ;; b_clear ;; switch DATA ;; emit) l
  else if eof then (begin T_END_OF_FILE ;; emit) l
  else (reconsume BEFORE_ATTRIBUTE_NAME) l.

(** lexer.cpp:1957-1993 *)
Definition on_BOGUS_COMMENT (c : N) (eof : bool) (l : lexer) : res lexer :=
  if (c =? 62) then (ensure T_COMMENT ;; take_data ;; switch DATA ;; emit) l
  else if eof then (ensure T_COMMENT ;; take_data ;; emit ;; begin T_END_OF_FILE ;; emit) l
  else if (c =? 0) then (b_append 65533) l
  else (b_append c) l.

(** lexer.cpp:1995-2057 *)
Definition on_MARKUP_DECLARATION_OPEN (c : N) (eof : bool) (l : lexer) : res lexer :=
  (p_append c ;; fun l' =>
   match start_with N.eqb (of_string "--") (l_peek l') with
   | PARTIAL => Ok l'
   | YES => (p_clear ;; begin T_COMMENT ;; switch COMMENT_START) l'
   | NO =>
     match start_with eq_ci (of_string "DOCTYPE") (l_peek l') with
     | PARTIAL => Ok l'
     | YES => (p_clear ;; switch DOCTYPE) l'
     | NO =>
       match start_with N.eqb (of_string "[CDATA[") (l_peek l') with
       | PARTIAL => Ok l'
       | YES => if l_foreign l' then (p_clear ;; switch CDATA_SECTION) l' else Ok l'
       | NO => (b_append_all (l_peek l) ;; p_clear ;; begin T_COMMENT ;; reconsume BOGUS_COMMENT) l'
       end
     end
   end) l.

(** lexer.cpp:2059-2085 *)
Definition on_COMMENT_START (c : N) (eof : bool) (l : lexer) : res lexer :=
  if (c =? 45) then (switch COMMENT_START_DASH) l
  else if (c =? 62) then (switch DATA ;; emit) l
  else (reconsume COMMENT) l.

(** lexer.cpp:2087-2126 *)
Definition on_COMMENT_START_DASH (c : N) (eof : bool) (l : lexer) : res lexer :=
  if (c =? 45) then (switch COMMENT_END) l
  else if (c =? 62) then (ensure T_COMMENT ;; take_data ;; switch DATA ;; emit) l
  else if eof then (emit ;; begin T_END_OF_FILE ;; emit) l
  else (b_append 45 ;; reconsume COMMENT) l.

(** lexer.cpp:2128-2173 *)
Definition on_COMMENT (c : N) (eof : bool) (l : lexer) : res lexer :=
  if (c =? 60) then (b_append c ;; switch COMMENT_LESS_THAN_SIGN) l
  else if (c =? 45) then (switch COMMENT_END_DASH) l
  else if (c =? 0) then (b_append 65533) l
  else if eof then (ensure T_COMMENT ;; take_data ;; emit ;; begin T_END_OF_FILE ;; emit) l
  else (b_append c) l.

(** lexer.cpp:2175-2200 *)
Definition on_COMMENT_LESS_THAN_SIGN (c : N) (eof : bool) (l : lexer) : res lexer :=
  if (c =? 33) then (b_append c ;; switch COMMENT_LESS_THAN_SIGN_BANG) l
  else if (c =? 60) then (b_append c) l
  else (reconsume COMMENT) l.

(** lexer.cpp:2202-2219 *)
Definition on_COMMENT_LESS_THAN_SIGN_BANG (c : N) (eof : bool) (l : lexer) : res lexer :=
  if (c =? 45) then (switch COMMENT_LESS_THAN_SIGN_BANG_DASH) l
  else (reconsume COMMENT) l.

(** lexer.cpp:2221-2238 *)
Definition on_COMMENT_LESS_THAN_SIGN_BANG_DASH (c : N) (eof : bool) (l : lexer) : res lexer :=
  if (c =? 45) then (switch COMMENT_LESS_THAN_SIGN_BANG_DASH_DASH) l
  else (reconsume COMMENT_END_DASH) l.

(** lexer.cpp:2240-2260 *)
Definition on_COMMENT_LESS_THAN_SIGN_BANG_DASH_DASH (c : N) (eof : bool) (l : lexer) : res lexer :=
  if (c =? 62) || eof then (reconsume COMMENT_END) l
  else (reconsume COMMENT_END) l.

(** lexer.cpp:2262-2292 *)
Definition on_COMMENT_END_DASH (c : N) (eof : bool) (l : lexer) : res lexer :=
  if (c =? 45) then (switch COMMENT_END) l
  else if eof then (ensure T_COMMENT ;; take_data ;; emit ;; begin T_END_OF_FILE ;; emit) l
  else (b_append 45 ;; reconsume COMMENT) l.

(** lexer.cpp:2294-2340 *)
Definition on_COMMENT_END (c : N) (eof : bool) (l : lexer) : res lexer :=
  if (c =? 62) then (ensure T_COMMENT ;; take_data ;; switch DATA ;; emit) l
  else if (c =? 33) then (switch COMMENT_END_BANG) l
  else if (c =? 45) then (b_append 45) l
  else if eof then (ensure T_COMMENT ;; take_data ;; emit ;; begin T_END_OF_FILE ;; emit) l
  else (b_append 45 ;; b_append 45 ;; reconsume COMMENT) l.

(** lexer.cpp:2342-2390 *)
Definition on_COMMENT_END_BANG (c : N) (eof : bool) (l : lexer) : res lexer :=
  if (c =? 45) then (b_append 45 ;; b_append 45 ;; b_append 33 ;; switch COMMENT_END_DASH) l
  else if (c =? 62) then (ensure T_COMMENT ;; take_data ;; switch DATA ;; emit) l
  else if eof then (ensure T_COMMENT ;; take_data ;; emit ;; begin T_END_OF_FILE ;; emit) l
  else (b_append 45 ;; b_append 45 ;; b_append 33 ;; reconsume COMMENT) l.

(** lexer.cpp:2392-2433 *)
Definition on_DOCTYPE (c : N) (eof : bool) (l : lexer) : res lexer :=
  if is_space c then (switch BEFORE_DOCTYPE_NAME) l
  else if (c =? 62) then (reconsume BEFORE_DOCTYPE_NAME) l
  else if eof then (begin T_DOCTYPE ;; ensure T_DOCTYPE ;; force_quirks ;; emit ;; begin T_END_OF_FILE ;; emit) l
  else (reconsume BEFORE_DOCTYPE_NAME) l.

(** lexer.cpp:2435-2504 *)
Definition on_BEFORE_DOCTYPE_NAME (c : N) (eof : bool) (l : lexer) : res lexer :=
  if is_space c then Ok l
  else if is_upper c then (begin T_DOCTYPE ;; b_append (to_lower c) ;; switch DOCTYPE_NAME) l
  else if (c =? 0) then (begin T_DOCTYPE ;; b_append 65533 ;; switch DOCTYPE_NAME) l
  else if (c =? 62) then (begin T_DOCTYPE ;; ensure T_DOCTYPE ;; force_quirks ;; switch DATA ;; emit) l
  else if eof then (begin T_DOCTYPE ;; ensure T_DOCTYPE ;; force_quirks ;; emit ;; begin T_END_OF_FILE ;; emit) l
  else (begin T_DOCTYPE ;; b_append c ;; switch DOCTYPE_NAME) l.

(** lexer.cpp:2506-2566 *)
Definition on_DOCTYPE_NAME (c : N) (eof : bool) (l : lexer) : res lexer :=
  if is_space c then (ensure T_DOCTYPE ;; commit_name ;; switch AFTER_DOCTYPE_NAME) l
  else if (c =? 62) then (ensure T_DOCTYPE ;; commit_name ;; switch DATA ;; emit) l
  else if is_upper c then (b_append (to_lower c)) l
  else if (c =? 0) then (b_append 65533) l
  else if eof then (ensure T_DOCTYPE ;; commit_name ;; ensure T_DOCTYPE ;; force_quirks ;; emit ;; begin T_END_OF_FILE ;; emit) l
  else (b_append c) l.

(** lexer.cpp:2568-2638 *)
Definition on_AFTER_DOCTYPE_NAME (c : N) (eof : bool) (l : lexer) : res lexer :=
  (p_append c ;; fun l =>
   if is_space c then Ok l
   else if (c =? 62) then (switch DATA ;; emit) l
   else if eof then (ensure T_DOCTYPE ;; force_quirks ;; emit ;; begin T_END_OF_FILE ;; emit) l
   else match start_with eq_ci (of_string "PUBLIC") (l_peek l) with
        | PARTIAL => Ok l
        | YES => (p_clear ;; switch AFTER_DOCTYPE_PUBLIC_KEYWORD) l
        | NO =>
          match start_with eq_ci (of_string "SYSTEM") (l_peek l) with
          | PARTIAL => Ok l
          | YES => (p_clear ;; switch AFTER_DOCTYPE_SYSTEM_KEYWORD) l
          | NO => (p_clear ;; ensure T_DOCTYPE ;; force_quirks ;; reconsume BOGUS_DOCTYPE) l
          end
        end) l.

(** lexer.cpp:2640-2707 *)
Definition on_AFTER_DOCTYPE_PUBLIC_KEYWORD (c : N) (eof : bool) (l : lexer) : res lexer :=
  if is_space c then (switch BEFORE_DOCTYPE_PUBLIC_IDENTIFIER) l
  else if (c =? 34) then (switch DOCTYPE_PUBLIC_IDENTIFIER_DOUBLE_QUOTED) l
  else if (c =? 39) then (switch DOCTYPE_PUBLIC_IDENTIFIER_SINGLE_QUOTED) l
  else if (c =? 62) then (ensure T_DOCTYPE ;; force_quirks ;; switch DATA ;; emit) l
  else if eof then (ensure T_DOCTYPE ;; force_quirks ;; emit ;; begin T_END_OF_FILE ;; emit) l
  else (ensure T_DOCTYPE ;; force_quirks ;; reconsume BOGUS_DOCTYPE) l.

(** lexer.cpp:2709-2772 *)
Definition on_BEFORE_DOCTYPE_PUBLIC_IDENTIFIER (c : N) (eof : bool) (l : lexer) : res lexer :=
  if is_space c then Ok l
  else if (c =? 34) then (switch DOCTYPE_PUBLIC_IDENTIFIER_DOUBLE_QUOTED) l
  else if (c =? 39) then (switch DOCTYPE_PUBLIC_IDENTIFIER_SINGLE_QUOTED) l
  else if (c =? 62) then (ensure T_DOCTYPE ;; force_quirks ;; switch DATA ;; emit) l
  else if eof then (ensure T_DOCTYPE ;; force_quirks ;; emit ;; begin T_END_OF_FILE ;; emit) l
  else (ensure T_DOCTYPE ;; force_quirks ;; reconsume BOGUS_DOCTYPE) l.

(** lexer.cpp:2774-2827 *)
Definition on_DOCTYPE_PUBLIC_IDENTIFIER_DOUBLE_QUOTED (c : N) (eof : bool) (l : lexer) : res lexer :=
  if (c =? 34) then (ensure T_DOCTYPE ;; take_public ;; switch AFTER_DOCTYPE_PUBLIC_IDENTIFIER) l
  else if (c =? 0) then (b_append 65533) l
  else if (c =? 62) then (ensure T_DOCTYPE ;; take_public ;; ensure T_DOCTYPE ;; force_quirks ;; switch DATA ;; emit) l
  else if eof then (ensure T_DOCTYPE ;; take_public ;; ensure T_DOCTYPE ;; force_quirks ;; emit ;; begin T_END_OF_FILE ;; emit) l
  else (b_append c) l.

(** lexer.cpp:2829-2881 *)
Definition on_DOCTYPE_PUBLIC_IDENTIFIER_SINGLE_QUOTED (c : N) (eof : bool) (l : lexer) : res lexer :=
  if (c =? 39) then (ensure T_DOCTYPE ;; take_public ;; switch AFTER_DOCTYPE_PUBLIC_IDENTIFIER) l
  else if (c =? 0) then (b_append 65533) l
  else if (c =? 62) then (ensure T_DOCTYPE ;; take_public ;; ensure T_DOCTYPE ;; force_quirks ;; switch DATA ;; emit) l
  else if eof then (ensure T_DOCTYPE ;; take_public ;; ensure T_DOCTYPE ;; force_quirks ;; emit ;; begin T_END_OF_FILE ;; emit) l
  else (b_append c) l.

(** lexer.cpp:2883-2949 *)
Definition on_AFTER_DOCTYPE_PUBLIC_IDENTIFIER (c : N) (eof : bool) (l : lexer) : res lexer :=
  if is_space c then (switch BETWEEN_DOCTYPE_PUBLIC_AND_SYSTEM_IDENTIFIERS) l
  else if (c =? 62) then (switch DATA ;; emit) l
  else if (c =? 34) then (switch DOCTYPE_SYSTEM_IDENTIFIER_DOUBLE_QUOTED) l
  else if (c =? 39) then (switch DOCTYPE_SYSTEM_IDENTIFIER_SINGLE_QUOTED) l
  else if eof then (ensure T_DOCTYPE ;; force_quirks ;; emit ;; begin T_END_OF_FILE ;; emit) l
  else (ensure T_DOCTYPE ;; force_quirks ;; reconsume BOGUS_DOCTYPE) l.

(** lexer.cpp:2951-3010 *)
Definition on_BETWEEN_DOCTYPE_PUBLIC_AND_SYSTEM_IDENTIFIERS (c : N) (eof : bool) (l : lexer) : res lexer :=
  if is_space c then Ok l
  else if (c =? 62) then (switch DATA ;; emit) l
  else if (c =? 34) then (switch DOCTYPE_SYSTEM_IDENTIFIER_DOUBLE_QUOTED) l
  else if (c =? 39) then (switch DOCTYPE_SYSTEM_IDENTIFIER_SINGLE_QUOTED) l
  else if eof then (ensure T_DOCTYPE ;; force_quirks ;; emit ;; begin T_END_OF_FILE ;; emit) l
  else (ensure T_DOCTYPE ;; force_quirks ;; reconsume BOGUS_DOCTYPE) l.

(** lexer.cpp:3012-3079 *)
Definition on_AFTER_DOCTYPE_SYSTEM_KEYWORD (c : N) (eof : bool) (l : lexer) : res lexer :=
  if is_space c then (switch BEFORE_DOCTYPE_SYSTEM_IDENTIFIER) l
  else if (c =? 34) then (switch DOCTYPE_SYSTEM_IDENTIFIER_DOUBLE_QUOTED) l
  else if (c =? 39) then (switch DOCTYPE_SYSTEM_IDENTIFIER_SINGLE_QUOTED) l
  else if (c =? 62) then (ensure T_DOCTYPE ;; force_quirks ;; switch DATA ;; emit) l
  else if eof then (ensure T_DOCTYPE ;; force_quirks ;; emit ;; begin T_END_OF_FILE ;; emit) l
  else (ensure T_DOCTYPE ;; force_quirks ;; reconsume BOGUS_DOCTYPE) l.

(** lexer.cpp:3081-3144 *)
Definition on_BEFORE_DOCTYPE_SYSTEM_IDENTIFIER (c : N) (eof : bool) (l : lexer) : res lexer :=
  if is_space c then Ok l
  else if (c =? 34) then (switch DOCTYPE_SYSTEM_IDENTIFIER_DOUBLE_QUOTED) l
  else if (c =? 39) then (switch DOCTYPE_SYSTEM_IDENTIFIER_SINGLE_QUOTED) l
  else if (c =? 62) then (ensure T_DOCTYPE ;; force_quirks ;; switch DATA ;; emit) l
  else if eof then (ensure T_DOCTYPE ;; force_quirks ;; emit ;; begin T_END_OF_FILE ;; emit) l
  else (ensure T_DOCTYPE ;; force_quirks ;; reconsume BOGUS_DOCTYPE) l.

(** lexer.cpp:3146-3199 *)
Definition on_DOCTYPE_SYSTEM_IDENTIFIER_DOUBLE_QUOTED (c : N) (eof : bool) (l : lexer) : res lexer :=
  if (c =? 34) then (ensure T_DOCTYPE ;; take_system ;; switch AFTER_DOCTYPE_SYSTEM_IDENTIFIER) l
  else if (c =? 0) then (b_append 65533) l
  else if (c =? 62) then (ensure T_DOCTYPE ;; take_system ;; ensure T_DOCTYPE ;; force_quirks ;; switch DATA ;; emit) l
  else if eof then (ensure T_DOCTYPE ;; take_system ;; ensure T_DOCTYPE ;; force_quirks ;; emit ;; begin T_END_OF_FILE ;; emit) l
  else (b_append c) l.

(** lexer.cpp:3201-3254 *)
Definition on_DOCTYPE_SYSTEM_IDENTIFIER_SINGLE_QUOTED (c : N) (eof : bool) (l : lexer) : res lexer :=
  if (c =? 39) then (ensure T_DOCTYPE ;; take_system ;; switch AFTER_DOCTYPE_SYSTEM_IDENTIFIER) l
  else if (c =? 0) then (b_append 65533) l
  else if (c =? 62) then (ensure T_DOCTYPE ;; take_system ;; ensure T_DOCTYPE ;; force_quirks ;; switch DATA ;; emit) l
  else if eof then (ensure T_DOCTYPE ;; take_system ;; ensure T_DOCTYPE ;; force_quirks ;; emit ;; begin T_END_OF_FILE ;; emit) l
  else if negb (c =? 0) then (b_append c) l
  else Ok l.

(** lexer.cpp:3256-3298 *)
Definition on_AFTER_DOCTYPE_SYSTEM_IDENTIFIER (c : N) (eof : bool) (l : lexer) : res lexer :=
  if is_space c then Ok l
  else if (c =? 62) then (switch DATA ;; emit) l
  else if eof then (ensure T_DOCTYPE ;; force_quirks ;; emit ;; begin T_END_OF_FILE ;; emit) l
  else (reconsume BOGUS_DOCTYPE) l.

(** lexer.cpp:3300-3334 *)
Definition on_BOGUS_DOCTYPE (c : N) (eof : bool) (l : lexer) : res lexer :=
  if (c =? 62) then (switch DATA ;; emit) l
  else if (c =? 0) then Ok l
  else if eof then (emit ;; begin T_END_OF_FILE ;; emit) l
  else Ok l.

(** lexer.cpp:3336-3364 *)
Definition on_CDATA_SECTION (c : N) (eof : bool) (l : lexer) : res lexer :=
  if (c =? 93) then (switch CDATA_SECTION_BRACKET) l
  else if eof then (begin T_END_OF_FILE ;; emit) l
  else (emit_char c) l.

(** lexer.cpp:3366-3385 *)
Definition on_CDATA_SECTION_BRACKET (c : N) (eof : bool) (l : lexer) : res lexer :=
  if (c =? 93) then (switch CDATA_SECTION_END) l
  else (emit_char 93 ;; reconsume CDATA_SECTION) l.

(** lexer.cpp:3387-3413 *)
Definition on_CDATA_SECTION_END (c : N) (eof : bool) (l : lexer) : res lexer :=
  if (c =? 93) then (emit_char 93) l
  else if (c =? 62) then (switch DATA) l
  else (emit_char 93 ;; emit_char 93 ;; reconsume CDATA_SECTION) l.

(** lexer.cpp:3415-3448 *)
Definition on_CHARACTER_REFERENCE (c : N) (eof : bool) (l : lexer) : res lexer :=
  (t_clear ;; t_append 38 ;; fun l =>
  if is_alnum c then (reconsume NAMED_CHARACTER_REFERENCE) l
  else if (c =? 35) then (t_append 35 ;; switch NUMERIC_CHARACTER_REFERENCE) l
  else (flush ;; reconsume_ret) l) l.

(** lexer.cpp:3450-3629 *)
Definition on_NAMED_CHARACTER_REFERENCE (c : N) (eof : bool) (l : lexer) : res lexer :=
  let target := l_temp l ++ [c] in
  if has_partial target then
    (t_append c ;; if is_entity target then set_matched (Some (length target)) else Ok) l
  else if is_entity target then
    if negb (c =? 59) then Crash NotSemicolon
    else (t_append c ;; t_expand (length target) ;; set_matched None ;; flush ;; switch_ret) l
  else
    match l_matched l with
    | Some m =>
        if (c =? 59) && in_attribute l then
          (t_append c ;; set_matched None ;; flush ;; switch_ret) l
        else if in_attribute l && ((c =? 61) || ((m <? length (l_temp l))%nat || is_alnum c)) then
          (flush ;; reconsume_ret) l
        else if (length (l_temp l) <? m)%nat then Crash StaleOffset
        else (t_expand m ;; set_matched None ;; flush ;; reconsume_ret) l
    | None => (flush ;; reconsume AMBIGUOUS_AMPERSAND) l
    end.

(** lexer.cpp:3631-3663 *)
Definition on_AMBIGUOUS_AMPERSAND (c : N) (eof : bool) (l : lexer) : res lexer :=
  if is_alnum c then (append_or_emit c) l
  else if (c =? 59) then (reconsume_ret) l
  else (reconsume_ret) l.

(** lexer.cpp:3665-3688 *)
Definition on_NUMERIC_CHARACTER_REFERENCE (c : N) (eof : bool) (l : lexer) : res lexer :=
  (set_char 0 ;; fun l =>
  if (c =? 120) || (c =? 88) then (t_append c ;; switch HEXADECIMAL_CHARACTER_REFERENCE_START) l
  else (reconsume DECIMAL_CHARACTER_REFERENCE_START) l) l.

(** lexer.cpp:3690-3711 *)
Definition on_HEXADECIMAL_CHARACTER_REFERENCE_START (c : N) (eof : bool) (l : lexer) : res lexer :=
  if is_hex c then (reconsume HEXADECIMAL_CHARACTER_REFERENCE) l
  else (flush ;; reconsume_ret) l.

(** lexer.cpp:3713-3734 *)
Definition on_DECIMAL_CHARACTER_REFERENCE_START (c : N) (eof : bool) (l : lexer) : res lexer :=
  if is_digit c then (reconsume DECIMAL_CHARACTER_REFERENCE) l
  else (flush ;; reconsume_ret) l.

(** lexer.cpp:3736-3790 *)
Definition on_HEXADECIMAL_CHARACTER_REFERENCE (c : N) (eof : bool) (l : lexer) : res lexer :=
  if is_digit c then (accumulate 16 48 c) l
  else if is_upper c then (accumulate 16 55 c) l
  else if is_lower c then (accumulate 16 87 c) l
  else if (c =? 59) then (switch NUMERIC_CHARACTER_REFERENCE_END) l
  else (reconsume NUMERIC_CHARACTER_REFERENCE_END) l.

(** lexer.cpp:3792-3822 *)
Definition on_DECIMAL_CHARACTER_REFERENCE (c : N) (eof : bool) (l : lexer) : res lexer :=
  if is_digit c then (accumulate 10 48 c) l
  else if (c =? 59) then (switch NUMERIC_CHARACTER_REFERENCE_END) l
  else (reconsume NUMERIC_CHARACTER_REFERENCE_END) l.

(** lexer.cpp:3824-3945 *)
Definition on_NUMERIC_CHARACTER_REFERENCE_END (c : N) (eof : bool) (l : lexer) : res lexer :=
  (set_char (decode_code (l_char l)) ;; t_clear ;; (fun l => t_append (l_char l) l) ;; flush ;; reconsume_ret) l.


(** lexer.cpp:149-3950 *)
Definition step (c : N) (eof : bool) (l : lexer) : res lexer :=
  match l_state l with
  | DATA => on_DATA c eof l
  | RCDATA => on_RCDATA c eof l
  | RAWTEXT => on_RAWTEXT c eof l
  | SCRIPT_DATA => on_SCRIPT_DATA c eof l
  | PLAINTEXT => on_PLAINTEXT c eof l
  | TAG_OPEN => on_TAG_OPEN c eof l
  | END_TAG_OPEN => on_END_TAG_OPEN c eof l
  | TAG_NAME => on_TAG_NAME c eof l
  | RCDATA_LESS_THAN_SIGN => on_RCDATA_LESS_THAN_SIGN c eof l
  | RCDATA_END_TAG_OPEN => on_RCDATA_END_TAG_OPEN c eof l
  | RCDATA_END_TAG_NAME => on_RCDATA_END_TAG_NAME c eof l
  | RAWTEXT_LESS_THAN_SIGN => on_RAWTEXT_LESS_THAN_SIGN c eof l
  | RAWTEXT_END_TAG_OPEN => on_RAWTEXT_END_TAG_OPEN c eof l
  | RAWTEXT_END_TAG_NAME => on_RAWTEXT_END_TAG_NAME c eof l
  | SCRIPT_DATA_LESS_THAN_SIGN => on_SCRIPT_DATA_LESS_THAN_SIGN c eof l
  | SCRIPT_DATA_END_TAG_OPEN => on_SCRIPT_DATA_END_TAG_OPEN c eof l
  | SCRIPT_DATA_END_TAG_NAME => on_SCRIPT_DATA_END_TAG_NAME c eof l
  | SCRIPT_DATA_ESCAPE_START => on_SCRIPT_DATA_ESCAPE_START c eof l
  | SCRIPT_DATA_ESCAPE_START_DASH => on_SCRIPT_DATA_ESCAPE_START_DASH c eof l
  | SCRIPT_DATA_ESCAPED => on_SCRIPT_DATA_ESCAPED c eof l
  | SCRIPT_DATA_ESCAPED_DASH => on_SCRIPT_DATA_ESCAPED_DASH c eof l
  | SCRIPT_DATA_ESCAPED_DASH_DASH => on_SCRIPT_DATA_ESCAPED_DASH_DASH c eof l
  | SCRIPT_DATA_ESCAPED_LESS_THAN_SIGN => on_SCRIPT_DATA_ESCAPED_LESS_THAN_SIGN c eof l
  | SCRIPT_DATA_ESCAPED_END_TAG_OPEN => on_SCRIPT_DATA_ESCAPED_END_TAG_OPEN c eof l
  | SCRIPT_DATA_ESCAPED_END_TAG_NAME => on_SCRIPT_DATA_ESCAPED_END_TAG_NAME c eof l
  | SCRIPT_DATA_DOUBLE_ESCAPE_START => on_SCRIPT_DATA_DOUBLE_ESCAPE_START c eof l
  | SCRIPT_DATA_DOUBLE_ESCAPED => on_SCRIPT_DATA_DOUBLE_ESCAPED c eof l
  | SCRIPT_DATA_DOUBLE_ESCAPED_DASH => on_SCRIPT_DATA_DOUBLE_ESCAPED_DASH c eof l
  | SCRIPT_DATA_DOUBLE_ESCAPED_DASH_DASH => on_SCRIPT_DATA_DOUBLE_ESCAPED_DASH_DASH c eof l
  | SCRIPT_DATA_DOUBLE_ESCAPED_LESS_THAN_SIGN => on_SCRIPT_DATA_DOUBLE_ESCAPED_LESS_THAN_SIGN c eof l
  | SCRIPT_DATA_DOUBLE_ESCAPE_END => on_SCRIPT_DATA_DOUBLE_ESCAPE_END c eof l
  | BEFORE_ATTRIBUTE_NAME => on_BEFORE_ATTRIBUTE_NAME c eof l
  | ATTRIBUTE_NAME => on_ATTRIBUTE_NAME c eof l
  | AFTER_ATTRIBUTE_NAME => on_AFTER_ATTRIBUTE_NAME c eof l
  | BEFORE_ATTRIBUTE_VALUE => on_BEFORE_ATTRIBUTE_VALUE c eof l
  | ATTRIBUTE_VALUE_DOUBLE_QUOTED => on_ATTRIBUTE_VALUE_DOUBLE_QUOTED c eof l
  | ATTRIBUTE_VALUE_SINGLE_QUOTED => on_ATTRIBUTE_VALUE_SINGLE_QUOTED c eof l
  | ATTRIBUTE_VALUE_UNQUOTED => on_ATTRIBUTE_VALUE_UNQUOTED c eof l
  | AFTER_ATTRIBUTE_VALUE_QUOTED => on_AFTER_ATTRIBUTE_VALUE_QUOTED c eof l
  | SELF_CLOSING_START_TAG => on_SELF_CLOSING_START_TAG c eof l
  | BOGUS_COMMENT => on_BOGUS_COMMENT c eof l
  | MARKUP_DECLARATION_OPEN => on_MARKUP_DECLARATION_OPEN c eof l
  | COMMENT_START => on_COMMENT_START c eof l
  | COMMENT_START_DASH => on_COMMENT_START_DASH c eof l
  | COMMENT => on_COMMENT c eof l
  | COMMENT_LESS_THAN_SIGN => on_COMMENT_LESS_THAN_SIGN c eof l
  | COMMENT_LESS_THAN_SIGN_BANG => on_COMMENT_LESS_THAN_SIGN_BANG c eof l
  | COMMENT_LESS_THAN_SIGN_BANG_DASH => on_COMMENT_LESS_THAN_SIGN_BANG_DASH c eof l
  | COMMENT_LESS_THAN_SIGN_BANG_DASH_DASH => on_COMMENT_LESS_THAN_SIGN_BANG_DASH_DASH c eof l
  | COMMENT_END_DASH => on_COMMENT_END_DASH c eof l
  | COMMENT_END => on_COMMENT_END c eof l
  | COMMENT_END_BANG => on_COMMENT_END_BANG c eof l
  | DOCTYPE => on_DOCTYPE c eof l
  | BEFORE_DOCTYPE_NAME => on_BEFORE_DOCTYPE_NAME c eof l
  | DOCTYPE_NAME => on_DOCTYPE_NAME c eof l
  | AFTER_DOCTYPE_NAME => on_AFTER_DOCTYPE_NAME c eof l
  | AFTER_DOCTYPE_PUBLIC_KEYWORD => on_AFTER_DOCTYPE_PUBLIC_KEYWORD c eof l
  | BEFORE_DOCTYPE_PUBLIC_IDENTIFIER => on_BEFORE_DOCTYPE_PUBLIC_IDENTIFIER c eof l
  | DOCTYPE_PUBLIC_IDENTIFIER_DOUBLE_QUOTED => on_DOCTYPE_PUBLIC_IDENTIFIER_DOUBLE_QUOTED c eof l
  | DOCTYPE_PUBLIC_IDENTIFIER_SINGLE_QUOTED => on_DOCTYPE_PUBLIC_IDENTIFIER_SINGLE_QUOTED c eof l
  | AFTER_DOCTYPE_PUBLIC_IDENTIFIER => on_AFTER_DOCTYPE_PUBLIC_IDENTIFIER c eof l
  | BETWEEN_DOCTYPE_PUBLIC_AND_SYSTEM_IDENTIFIERS => on_BETWEEN_DOCTYPE_PUBLIC_AND_SYSTEM_IDENTIFIERS c eof l
  | AFTER_DOCTYPE_SYSTEM_KEYWORD => on_AFTER_DOCTYPE_SYSTEM_KEYWORD c eof l
  | BEFORE_DOCTYPE_SYSTEM_IDENTIFIER => on_BEFORE_DOCTYPE_SYSTEM_IDENTIFIER c eof l
  | DOCTYPE_SYSTEM_IDENTIFIER_DOUBLE_QUOTED => on_DOCTYPE_SYSTEM_IDENTIFIER_DOUBLE_QUOTED c eof l
  | DOCTYPE_SYSTEM_IDENTIFIER_SINGLE_QUOTED => on_DOCTYPE_SYSTEM_IDENTIFIER_SINGLE_QUOTED c eof l
  | AFTER_DOCTYPE_SYSTEM_IDENTIFIER => on_AFTER_DOCTYPE_SYSTEM_IDENTIFIER c eof l
  | BOGUS_DOCTYPE => on_BOGUS_DOCTYPE c eof l
  | CDATA_SECTION => on_CDATA_SECTION c eof l
  | CDATA_SECTION_BRACKET => on_CDATA_SECTION_BRACKET c eof l
  | CDATA_SECTION_END => on_CDATA_SECTION_END c eof l
  | CHARACTER_REFERENCE => on_CHARACTER_REFERENCE c eof l
  | NAMED_CHARACTER_REFERENCE => on_NAMED_CHARACTER_REFERENCE c eof l
  | AMBIGUOUS_AMPERSAND => on_AMBIGUOUS_AMPERSAND c eof l
  | NUMERIC_CHARACTER_REFERENCE => on_NUMERIC_CHARACTER_REFERENCE c eof l
  | HEXADECIMAL_CHARACTER_REFERENCE_START => on_HEXADECIMAL_CHARACTER_REFERENCE_START c eof l
  | DECIMAL_CHARACTER_REFERENCE_START => on_DECIMAL_CHARACTER_REFERENCE_START c eof l
  | HEXADECIMAL_CHARACTER_REFERENCE => on_HEXADECIMAL_CHARACTER_REFERENCE c eof l
  | DECIMAL_CHARACTER_REFERENCE => on_DECIMAL_CHARACTER_REFERENCE c eof l
  | NUMERIC_CHARACTER_REFERENCE_END => on_NUMERIC_CHARACTER_REFERENCE_END c eof l
  end.

(** [consume], with [_reconsumeIn] bounded by the fuel. *)
Fixpoint consume (fuel : nat) (c : N) (eof : bool) (l : lexer) : res lexer :=
  match fuel with
  | O => Crash TooDeep
  | S f =>
      bind ((set_again false ;; step c eof) l) (fun l' =>
        if l_again l' then consume f c eof l' else Ok l')
  end.

Definition max_depth : nat := 8.

Fixpoint feed (s : str) (l : lexer) : res lexer :=
  match s with
  | [] => Ok l
  | c :: s' => bind (consume max_depth c false l) (feed s')
  end.

(** parser.cpp:4349: the end of file, as the character U+0003 with a flag. *)
Definition finish (l : lexer) : res lexer := consume max_depth 3 true l.

Definition run (s : str) (l : lexer) : res lexer := bind (feed s l) finish.

End Sink.

(** parser.cpp:4331-4347: newlines are normalized. *)
Fixpoint normalize (s : str) : str :=
  match s with
  | [] => []
  | x :: s' =>
      if x =? 13 then
        match s' with
        | y :: s'' => if y =? 10 then 10 :: normalize s'' else 10 :: normalize s'
        | [] => [10]
        end
      else x :: normalize s'
  end.

(** parser.cpp:4331-4350 [write] on a fresh tokenizer: the emitted tokens, in order. *)
Definition tokenize (sink : list token -> option text_mode) (s : str) : res (list token) :=
  bind (run sink (normalize s) init) (fun l => Ok (rev (l_out l))).
