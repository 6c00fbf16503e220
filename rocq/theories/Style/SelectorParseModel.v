(** Reading selectors: style/selector.cpp:284-445 [AnB::parse] and 653-1085 [Selector::parse].

    The cursor is the list of component values left. Results are [Ok (Some x)], [Ok None] for an
    [Error] (which every caller propagates), [Panic] for reading at or past the end of the
    cursor or of a string, and [OutOfFuel]. Every call to a function of the recursion
    takes one unit of fuel. *)
From Coq Require Import String List NArith ZArith Bool Arith.
From Verif.Base Require Import Str Outcome.
From Verif.Css Require Import LexerModel ParserModel.
From Verif.Values Require Import Number LengthModel CalcModel.
From Verif.Style Require Import AnBModel CascadeModel SelectorModel.
Import ListNotations.
Local Open Scope nat_scope.
Local Open Scope list_scope.

Definition res (A : Type) := outcome (option A).
Definition rret {A} (a : A) : res A := Ok (Some a).
Definition rerr {A} : res A := Ok None.
(** [try$] *)
Definition rbind {A B} (x : res A) (f : A -> res B) : res B :=
  obind x (fun o => match o with Some a => f a | None => rerr end).

(** ** An+B *)

Definition minus : rune := 45%N.
Definition plus : rune := 43%N.
Definition is_tok (ty : ttype) (s : sst) : bool := match s with TOK t => ttype_beq (t_type t) ty | _ => false end.
Definition is_ws (s : sst) : bool := is_tok WHITESPACE s.
(** [data[0]]; [None] when out of range *)
Definition first_rune (s : sst) : option rune := hd_error (tok_data s).
Definition is_sign (c : rune) : bool := ((c =? plus) || (c =? minus))%N.

(** [try$(parseValue<Integer>(cur))] *)
Definition read_integer (c : list sst) : res (Z * list sst) :=
  match parse_integer c with (Some z, r) => rret (z, r) | (None, _) => rerr end.

(** selector.cpp:284-311 [_parseAfterN] *)
Definition after_n (c : list sst) : res (Z * list sst) :=
  match eat_wss c with
  | [] => rret (0%Z, [])
  | s :: r =>
    if is_tok NUMBER s then
      match first_rune s with
      | None => Panic
      | Some ch => if is_sign ch then read_integer (s :: r) else rerr
      end
    else if is_tok DELIM s then
      if negb (str_eqb (tok_data s) [plus]) && negb (str_eqb (tok_data s) [minus]) then rerr
      else
        let neg := str_eqb (tok_data s) [minus] in
        match eat_wss r with
        | [] => rerr
        | s' :: r' =>
          match first_rune s' with
          | None => Panic
          | Some ch =>
            if is_sign ch then rerr
            else rbind (read_integer (s' :: r')) (fun p => rret ((if neg then (- fst p)%Z else fst p), snd p))
          end
        end
    else rerr
  end.

(** selector.cpp:313-322 [_parseAfterNDash] *)
Definition after_n_dash (c : list sst) : res (Z * list sst) :=
  match eat_wss c with
  | [] => rerr
  | s :: r =>
    if is_tok NUMBER s then
      match first_rune s with
      | None => Panic
      | Some ch => if Number.is_digit ch then read_integer (s :: r) else rerr
      end
    else rerr
  end.

(** The digits at the end of a string, and what is before them (selector.cpp:327-330, 377-380). *)
Definition split_digits (s : str) : str * str :=
  let fix go r acc := match r with
    | c :: r' => if Number.is_digit c then go r' (c :: acc) else (rev r, acc)
    | [] => ([], acc) end in
  go (rev s) [].
(** The last character and what is before it. *)
Definition split_last (s : str) : option (str * rune) :=
  match rev s with c :: r => Some (rev r, c) | [] => None end.
Definition read_atoi (s : str) : res Z := match atoi s with Some (z, _) => rret z | None => rerr end.

(** selector.cpp:324-366 [_parseIdent]; [s] is the identifier *)
Definition anb_ident (s : sst) (r : list sst) (preceded : bool) : res (anb * list sst) :=
  let ident := tok_data s in
  let (n_part, ds) := split_digits ident in
  let r := eat_wss r in
  match ident with
  | [] => Panic
  | c0 :: _ =>
    if ((c0 =? minus)%N && preceded)%bool then rerr
    else
      match ds with
      | [] =>
        if str_eqb ident (of_string "n") then rbind (after_n r) (fun p => rret (mkAnB 1 (fst p), snd p))
        else if str_eqb ident (of_string "-n") then rbind (after_n r) (fun p => rret (mkAnB (-1) (fst p), snd p))
        else if str_eqb ident (of_string "n-") then rbind (after_n_dash r) (fun p => rret (mkAnB 1 (- fst p), snd p))
        else if str_eqb ident (of_string "-n-") then rbind (after_n_dash r) (fun p => rret (mkAnB (-1) (- fst p), snd p))
        else rerr
      | _ =>
        match split_last n_part with
        | None => Panic
        | Some (before, ch) =>
          let (n_part, ds) := if (ch =? minus)%N then (before, ch :: ds) else (n_part, ds) in
          rbind (read_atoi ds) (fun b =>
          if str_eqb n_part (of_string "n") then rret (mkAnB 1 b, r)
          else if str_eqb n_part (of_string "-n") then rret (mkAnB (-1) b, r)
          else rerr)
        end
      end
  end.

(** selector.cpp:367-408 [_parseDimension] *)
Definition anb_dimension (s : sst) (r : list sst) (preceded : bool) : res (anb * list sst) :=
  match atoi (tok_data s) with
  | None => rerr
  | Some (a, unit_) =>
    if ((a <? 0)%Z && preceded)%bool then rerr
    else
      let (n_unit, ds) := split_digits unit_ in
      let n := str_eqb n_unit (of_string "n") in
      let nd := str_eqb n_unit (of_string "n-") in
      if negb n && negb nd then rerr
      else
        let r := eat_wss r in
        match ds with
        | [] =>
          if n then rbind (after_n r) (fun p => rret (mkAnB a (fst p), snd p))
          else rbind (after_n_dash r) (fun p => rret (mkAnB a (- fst p), snd p))
        | _ => rbind (read_atoi (if nd then minus :: ds else ds)) (fun b => rret (mkAnB a b, r))
        end
  end.

(** selector.cpp:415-443 [AnB::parse] *)
Definition parse_anb (c : list sst) : res (anb * list sst) :=
  match eat_wss c with
  | [] => Panic
  | s :: r =>
    if is_tok IDENT s && (str_eqb (tok_data s) (of_string "odd") || str_eqb (tok_data s) (of_string "even")) then
      rret (mkAnB 2 (if str_eqb (tok_data s) (of_string "odd") then 1 else 0), r)
    else if is_tok NUMBER s then rbind (read_integer (s :: r)) (fun p => rret (mkAnB 0 (fst p), snd p))
    else
      let go s r preceded :=
        if is_tok IDENT s then anb_ident s r preceded
        else if is_tok DIMENSION s then anb_dimension s r preceded
        else rerr in
      if is_tok DELIM s && str_eqb (tok_data s) [plus] then
        match r with
        | [] => rerr
        | s' :: r' => if is_ws s' then rerr else go s' r' true
        end
      else go s r false
  end.

(** ** Names *)

(** style/namespace.cpp:10-20 [Namespace] *)
Record namespaces := mkNs { ns_default : str; ns_prefixes : list (str * str) }.
Definition no_namespaces : namespaces := mkNs html_ns [].
Fixpoint ns_lookup (m : list (str * str)) (p : str) : option str :=
  match m with (k, v) :: m' => if str_eqb k p then Some v else ns_lookup m' p | [] => None end.

Definition delim (s : string) : token := mkT DELIM (of_string s).

(** selector.cpp:653-703 [_parseQualifiedNameSelector] *)
Inductive prefix := OMITTED | PIDENT (s : str) | STAR.
Definition name_of (o : option str) : name_pattern := match o with Some n => NameExact n | None => NameUniversal end.
Definition parse_qname (c : list sst) (ns : namespaces) (default_ : option str) : res (qsel * list sst) :=
  match c with
  | [] => rerr
  | s :: r =>
    let (p, c1) :=
      if is_tok IDENT s then (PIDENT (tok_data s), r)
      else match skip_tok (delim "*") c with Some r' => (STAR, r') | None => (OMITTED, c) end in
    match skip_tok (delim "|") c1 with
    | None =>
      rret (mkQS (match default_ with Some d => NsExact d | None => NsNull end)
                 (match p with PIDENT n => NameExact n | _ => NameUniversal end), c1)
    | Some c2 =>
      match c2 with
      | [] => Panic
      | s2 :: r2 =>
        let (second, c3) :=
          if is_tok IDENT s2 then (Some (tok_data s2), r2)
          else match skip_tok (delim "*") c2 with Some r' => (None, r') | None => (None, c2) end in
        match p with
        | PIDENT n => match ns_lookup (ns_prefixes ns) n with
                      | Some u => rret (mkQS (NsExact u) (name_of second), c3)
                      | None => rerr
                      end
        | STAR => rret (mkQS NsUniversal (name_of second), c3)
        | OMITTED => rret (mkQS NsNull (name_of second), c3)
        end
      end
    end
  end.

(** selector.cpp:705-790 [_parseAttributeSelector] *)
Definition attr_op (s : str) : option attr_match :=
  if str_eqb s (of_string "~") then Some CONTAINS
  else if str_eqb s (of_string "|") then Some HYPHENATED
  else if str_eqb s (of_string "^") then Some STR_START_WITH
  else if str_eqb s (of_string "$") then Some STR_END_WITH
  else if str_eqb s (of_string "*") then Some STR_CONTAIN
  else None.
Definition parse_attr (content : list sst) (ns : namespaces) : res selector :=
  match eat_wss content with
  | [] => rerr
  | c =>
    rbind (parse_qname c ns None) (fun p =>
    let q := fst p in
    match eat_wss (snd p) with
    | [] => rret (AttrSel (mkAttr q false PRESENT []))
    | s :: r =>
      let op :=
        match skip_tok (delim "=") (s :: r) with
        | Some r' => rret (EXACT, r')
        | None =>
          if is_tok DELIM s then
            match skip_tok (delim "=") r with
            | None => rerr
            | Some r' => match attr_op (tok_data s) with Some m => rret (m, r') | None => rerr end
            end
          else rerr
        end in
      rbind op (fun o =>
      match eat_wss (snd o) with
      | [] => Panic
      | v :: r2 =>
        if is_tok STRING v || is_tok IDENT v then
          match eat_wss r2 with
          | [] => rret (AttrSel (mkAttr q false (fst o) (tok_data v)))
          | m :: r3 =>
            if is_tok IDENT m then
              let fin ins := match eat_wss r3 with [] => rret (AttrSel (mkAttr q ins (fst o) (tok_data v))) | _ => rerr end in
              if str_eqb (tok_data m) (of_string "s") then fin false
              else if str_eqb (tok_data m) (of_string "i") then fin true
              else rerr
            else rerr
          end
        else rerr
      end)
    end)
  end.

(** ** Operators *)

(** selector.cpp:22-33 [OpCode], by position *)
Definition opcode := nat.
Definition oNOP : opcode := 0.
Definition oOR : opcode := 1.
Definition oDESC : opcode := 2.
Definition oCHILD : opcode := 3.
Definition oADJ : opcode := 4.
Definition oSUBSEQ : opcode := 5.
Definition oAND : opcode := 8.

(** selector.cpp:793-864 [_peekOpCode]: the operator and the cursor after the call *)
Fixpoint peek_op (c : list sst) : opcode * list sst :=
  match c with
  | [] => (oNOP, [])
  | TOK t :: r =>
    match t_type t with
    | COMMA => (oOR, r)
    | WHITESPACE =>
      match r with
      | [] => (oNOP, [])
      | s :: _ =>
        if is_tok IDENT s || is_tok HASH s || str_eqb (tok_data s) (of_string ".")
           || str_eqb (tok_data s) (of_string "*") || str_eqb (tok_data s) (of_string ":")
        then (oDESC, r)
        else
          let (op, c') := peek_op r in
          match c' with
          | _ :: s1 :: r1 => if is_ws s1 then (op, s1 :: r1) else (op, c')
          | _ => (op, c')
          end
      end
    | DELIM =>
      match r with
      | [] => (oNOP, c)
      | _ =>
        if str_eqb (t_data t) (of_string ">") then (oCHILD, r)
        else if str_eqb (t_data t) (of_string "~") then (oSUBSEQ, r)
        else if str_eqb (t_data t) (of_string "+") then (oADJ, r)
        else if str_eqb (t_data t) (of_string ".") || str_eqb (t_data t) (of_string "*") then (oAND, c)
        else (oNOP, c)
      end
    | _ => (oAND, c)
    end
  | _ => (oAND, c)
  end.

(** ** Pseudo-classes *)

(** defs/pseudo-class.inc, the names the matcher distinguishes *)
Definition pc_table : list (str * pc_ty) :=
  [(of_string "link", LINK); (of_string "root", ROOT); (of_string "empty", EMPTY);
   (of_string "nth-child", NTH_CHILD); (of_string "nth-last-child", NTH_LAST_CHILD);
   (of_string "first-child", FIRST_CHILD); (of_string "last-child", LAST_CHILD);
   (of_string "only-child", ONLY_CHILD); (of_string "nth-of-type", NTH_OF_TYPE);
   (of_string "nth-last-of-type", NTH_LAST_OF_TYPE); (of_string "first-of-type", FIRST_OF_TYPE);
   (of_string "last-of-type", LAST_OF_TYPE); (of_string "only-of-type", ONLY_OF_TYPE)].
(** defs/pseudo-class.inc, the others *)
Definition pc_others : list str := map (fun s => of_string s)
  ["any-link"; "visited"; "local-link"; "target"; "target-within"; "scope"; "hover"; "active"; "focus";
   "focus-visible"; "focus-within"; "current"; "past"; "future"; "playing"; "paused"; "seeking";
   "buffering"; "stalled"; "muted"; "volume-locked"; "open"; "closed"; "modal";
   "picture-in-picture"; "enabled"; "disabled"; "read-only"; "read-write"; "placeholder-shown";
   "autofill"; "default"; "checked"; "indeterminate"; "blank"; "valid"; "in-range"; "out-of-range";
   "required"; "optional"; "user-valid"; "user-invalid"; "lang"; "dir"]%string.
Fixpoint pc_lookup (tb : list (str * pc_ty)) (n : str) : option pc_ty :=
  match tb with (k, v) :: tb' => if str_eqb k n then Some v else pc_lookup tb' n | [] => None end.
(** selector.cpp:483-503 [_Type] and [make]; [mk] applies the extra argument. An unknown name is
    [Type{0}], ANY_LINK, without the argument. *)
Definition make_pc (name : str) (mk : pc_ty -> selector) : selector :=
  match pc_lookup pc_table name with
  | Some ty => mk ty
  | None => if existsb (str_eqb name) pc_others then mk PC_OTHER else PseudoClass PC_OTHER
  end.

(** selector.cpp:930-941: a pseudo-element or pseudo-class without argument *)
Definition pe_names : list str := [of_string "before"; of_string "after"; of_string "marker"].
Definition plain_pseudo (name : str) : selector :=
  if existsb (str_eqb name) pe_names then PseudoElemSel name else make_pc name PseudoClass.

(** ** Selectors *)

Definition infix_of (op : opcode) : infix_ty :=
  match op with 2 => DESCENDANT | 3 => CHILD | 4 => ADJACENT | 5 => SUBSEQUENT | _ => COLUMN end.
(** 1010-1024: the node an n-ary operator builds *)
Definition nfix_of (op : opcode) (l : list selector) : selector := if op =? oOR then Nfix OR l else Nfix AND l.

(** 1009-1011: drops a component value when exactly two are left and the second is a space *)
Definition drop_one (c : list sst) : list sst :=
  match c with [_; s1] => if is_ws s1 then [s1] else c | _ => c end.

Section Parse.
Variable ns : namespaces.

(** [read_simple]: selector.cpp:894-961, the part of [_parseSelectorElement] before the operator, which is
    897-901 and 963-974 in [pse]. [pc_function]: 866-885. [nfix]: 976-1025, its loop is
    [nfix_loop] with the operands in reverse. [infix]: 1027-1058. [parse]: 1060-1075, its
    loop is [parse_loop]. *)
Fixpoint pse (n : nat) (c : list sst) (op : opcode) : res (selector * list sst) :=
  match n with
  | O => OutOfFuel
  | S n =>
    match c with
    | [] => rerr
    | s :: r =>
      if is_ws s then pse n r op
      else
        rbind (read_simple n c) (fun p =>
        match snd p with
        | [] => rret p
        | c1 => let (o, c2) := peek_op c1 in
                if op <? o then infix n (fst p) c2 o else rret p
        end)
    end
  end
with read_simple (n : nat) (c : list sst) : res (selector * list sst) :=
  match n with
  | O => OutOfFuel
  | S n =>
    let type_ c := rbind (parse_qname c ns (Some (ns_default ns))) (fun p => rret (TypeSel (fst p), snd p)) in
    match c with
    | [] => rerr
    | TOK t :: r =>
      match t_type t with
      | HASH => rret (IdSel (tl (t_data t)), r)
      | IDENT => type_ c
      | DELIM =>
        if str_eqb (t_data t) (of_string ".") then
          match r with [] => Panic | s :: r' => rret (ClassSel (tok_data s), r') end
        else if str_eqb (t_data t) (of_string "*") then type_ c
        else rret (EmptySel, r)
      | COLON =>
        let item c :=
          match c with
          | [] => rerr
          | TOK t' :: r' => rret (plain_pseudo (t_data t'), r')
          | FUNC name content :: r' =>
            if token_eqb name (mkT FUNCTION (of_string "not(")) then
              rbind (parse n content) (fun s => rret (Nfix NOT [s], r'))
            else rbind (pc_function n name content) (fun s => rret (s, r'))
          | _ :: r' => rret (EmptySel, r')
          end in
        match r with
        | [] => Panic
        | s :: r' => if is_tok COLON s then item r' else item r
        end
      | _ => rerr
      end
    | BLOCK content :: r => rbind (parse_attr content ns) (fun s => rret (s, r))
    | _ => rerr
    end
  end
with pc_function (n : nat) (name : token) (content : list sst) : res selector :=
  match n with
  | O => OutOfFuel
  | S n =>
    let fname := removelast (t_data name) in
    rbind (parse_anb content) (fun p =>
    match eat_wss (snd p) with
    | [] => rret (make_pc fname (fun ty => PseudoClassAnB ty (fst p)))
    | c =>
      if str_eqb fname (of_string "nth-of-type") || str_eqb fname (of_string "nth-last-of-type") then rerr
      else match skip_tok (mkT IDENT (of_string "of")) c with
           | None => rerr
           | Some c' => rbind (parse n c') (fun s => rret (make_pc fname (fun ty => PseudoClassAnBof ty (fst p) s)))
           end
    end)
  end
with nfix (n : nat) (lhs : selector) (op : opcode) (c : list sst) : res (selector * list sst) :=
  match n with
  | O => OutOfFuel
  | S n => rbind (pse n c op) (fun p => nfix_loop n [fst p; lhs] op (snd p))
  end
with nfix_loop (n : nat) (acc : list selector) (op : opcode) (c : list sst) : res (selector * list sst) :=
  match n with
  | O => OutOfFuel
  | S n =>
    let stop c := rret (nfix_of op (rev acc), c) in
    match c with
    | [] => stop c
    | _ =>
      let (o, c') := peek_op c in
      let (last, front) := match acc with x :: l => (x, l) | [] => (EmptySel, []) end in
      if o =? oNOP then stop c'
      else if o =? op then rbind (pse n c' op) (fun p => nfix_loop n (fst p :: acc) op (snd p))
      else if o <? op then stop c
      else if (o =? oOR) || (o =? oAND) then
        rbind (nfix n last o c') (fun p => nfix_loop n (fst p :: front) op (snd p))
      else
        rbind (infix n last c' o) (fun p =>
        nfix_loop n (fst p :: front) op (drop_one (snd p)))
    end
  end
with infix (n : nat) (lhs : selector) (c : list sst) (op : opcode) : res (selector * list sst) :=
  match n with
  | O => OutOfFuel
  | S n =>
    let (op, c) := if op =? oNOP then peek_op c else (op, c) in
    if op =? oNOP then rret (lhs, c)
    else if (op =? oOR) || (op =? oAND) then nfix n lhs op c
    else rbind (pse n c op) (fun p => rret (Infix (infix_of op) lhs (fst p), snd p))
  end
with parse (n : nat) (c : list sst) : res selector :=
  match n with
  | O => OutOfFuel
  | S n =>
    match c with
    | [] => rerr
    | _ => rbind (pse n c oNOP) (fun p => parse_loop n (fst p) (snd p))
    end
  end
with parse_loop (n : nat) (acc : selector) (c : list sst) : res selector :=
  match n with
  | O => OutOfFuel
  | S n =>
    match c with
    | [] => rret acc
    | _ =>
      rbind (infix n acc c oNOP) (fun p =>
      if match snd p with [] => false | _ => List.length (snd p) =? List.length c end then rerr
      else parse_loop n (fst p) (snd p))
    end
  end.
End Parse.
