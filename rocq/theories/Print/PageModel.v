(** @page rules: style/page.cpp, style/rules.cpp:196-263 [PageRule] and
    style/computer.cpp:155-170, 399-413. *)
From Coq Require Import String List NArith Bool Arith.
From Verif.Base Require Import Str Outcome.
From Verif.Css Require Import LexerModel ParserModel.
From Verif.Values Require Import Number LengthModel CalcModel.
Import ListNotations.
Local Open Scope nat_scope.
Local Open Scope list_scope.

(** style/page.cpp:49-53 [Page]; [usize] is [nat] *)
Record page := mkPage { p_name : str; p_number : nat; p_blank : bool }.

(** style/page.cpp:74-84 [PagePseudo] *)
Inductive pseudo := FIRST | BLANK | LEFT | RIGHT.

(** style/page.cpp:86-88 [PageSelector] *)
Record page_selector := mkSel { s_name : str; s_pseudos : list pseudo }.

(** ** Reading

    The cursor is the list of component values left; peeking at the end is a [Panic]. *)

Definition is_ty (ty : ttype) (s : sst) : bool :=
  match s with TOK t => ttype_beq (t_type t) ty | _ => false end.
Definition sst_data (s : sst) : str := match s with TOK t => t_data t | _ => [] end.

(** style/page.cpp:102-114: the chain of comparisons *)
Definition pseudo_of_name (n : str) : option pseudo :=
  if str_eqb n (of_string "first") then Some FIRST
  else if str_eqb n (of_string "blank") then Some BLANK
  else if str_eqb n (of_string "left") then Some LEFT
  else if str_eqb n (of_string "right") then Some RIGHT
  else None.

(** style/page.cpp:90-115 [_parsePagePseudo]: [Ok None] is an [Error], after which the cursor is
    rolled back. *)
Definition parse_pseudo (c : list sst) : outcome (option (pseudo * list sst)) :=
  match c with
  | [] => Ok None
  | s :: r =>
    if is_ty COLON s then
      match eat_wss r with
      | [] => Panic
      | s' :: r' =>
        if is_ty IDENT s' then
          match pseudo_of_name (sst_data s') with
          | Some p => Ok (Some (p, r'))
          | None => Ok None
          end
        else Ok None
      end
    else Ok None
  end.

(** style/page.cpp:125-128, the loop of [parse] *)
Fixpoint parse_pseudos (n : nat) (c : list sst) : outcome (list pseudo * list sst) :=
  match n with
  | O => OutOfFuel
  | S n =>
    obind (parse_pseudo c) (fun o =>
      match o with
      | None => Ok ([], c)
      | Some (p, r) => obind (parse_pseudos n (eat_wss r)) (fun q => Ok (p :: fst q, snd q))
      end)
  end.

(** style/page.cpp:117-131 [parse] *)
Definition parse_selector (n : nat) (c : list sst) : outcome (page_selector * list sst) :=
  match c with
  | [] => Panic
  | s :: r =>
    let '(name, c1) := if is_ty IDENT s then (sst_data s, r) else ([], c) in
    obind (parse_pseudos n (eat_wss c1)) (fun q => Ok (mkSel name (fst q), snd q))
  end.

(** style/page.cpp:133-143 [parseList] after the first [eatWhitespace]: each unit of fuel is one
    turn of the loop *)
Fixpoint parse_list_loop (n : nat) (c : list sst) : outcome (list page_selector) :=
  match n with
  | O => OutOfFuel
  | S n =>
    match c with
    | [] => Ok []
    | _ =>
      obind (parse_selector (S (List.length c)) c) (fun q =>
      obind (parse_list_loop n (eat_wss (snd q))) (fun l => Ok (fst q :: l)))
    end
  end.
Definition parse_list (n : nat) (c : list sst) : outcome (list page_selector) :=
  parse_list_loop n (eat_wss c).

(** ** Matching *)

(** style/page.cpp:149-168, one turn of the loop *)
Definition pseudo_ok (p : page) (x : pseudo) : bool :=
  match x with
  | FIRST => negb (negb (p_number p =? 1))
  | BLANK => negb (p_blank p)
  | LEFT => negb (p_number p mod 2 =? 0)
  | RIGHT => negb (p_number p mod 2 =? 1)
  end.

(** style/page.cpp:145-171 [match]; [name and ...] is false on the empty string *)
Definition sel_match (s : page_selector) (p : page) : bool :=
  negb (negb (str_eqb (s_name s) []) && negb (str_eqb (p_name p) (s_name s)))
  && forallb (pseudo_ok p) (s_pseudos s).

(** style/rules.cpp:233-243 [PageRule::match] *)
Definition rule_match (sels : list page_selector) (p : page) : bool :=
  match sels with
  | [] => true
  | _ => existsb (fun s => sel_match s p) sels
  end.

(** ** Margin areas *)

(** style/page.cpp:18-47 [PageArea] *)
Inductive area :=
| FOOTNOTE | TOP | TOP_LEFT_CORNER | TOP_LEFT | TOP_CENTER | TOP_RIGHT | TOP_RIGHT_CORNER
| RIGHT_ | RIGHT_TOP | RIGHT_MIDDLE | RIGHT_BOTTOM | BOTTOM | BOTTOM_RIGHT_CORNER | BOTTOM_RIGHT
| BOTTOM_CENTER | BOTTOM_LEFT | BOTTOM_LEFT_CORNER | LEFT_ | LEFT_BOTTOM | LEFT_MIDDLE | LEFT_TOP.
Scheme Equality for area.

Definition area_table : list (area * str) :=
  [ (FOOTNOTE, of_string "footnote"); (TOP, of_string "-vaev-top");
    (TOP_LEFT_CORNER, of_string "top-left-corner"); (TOP_LEFT, of_string "top-left");
    (TOP_CENTER, of_string "top-center"); (TOP_RIGHT, of_string "top-right");
    (TOP_RIGHT_CORNER, of_string "top-right-corner"); (RIGHT_, of_string "-vaev-right");
    (RIGHT_TOP, of_string "right-top"); (RIGHT_MIDDLE, of_string "right-middle");
    (RIGHT_BOTTOM, of_string "right-bottom"); (BOTTOM, of_string "-vaev-bottom");
    (BOTTOM_RIGHT_CORNER, of_string "bottom-right-corner"); (BOTTOM_RIGHT, of_string "bottom-right");
    (BOTTOM_CENTER, of_string "bottom-center"); (BOTTOM_LEFT, of_string "bottom-left");
    (BOTTOM_LEFT_CORNER, of_string "bottom-left-corner"); (LEFT_, of_string "-vaev-left");
    (LEFT_BOTTOM, of_string "left-bottom"); (LEFT_MIDDLE, of_string "left-middle");
    (LEFT_TOP, of_string "left-top") ].

(** style/page.cpp:182-194 [_parsePageArea]: the name without its first character *)
Definition parse_area (data : str) : option area :=
  match find (fun e => str_eqb (tl data) (snd e)) area_table with
  | Some e => Some (fst e)
  | None => None
  end.

(** ** Applying

    Declarations are kept after shorthand expansion, as a name and either a value or [inherit];
    the importance that the parser records (props/base.cpp:809) is not looked at. A style maps
    property names to values. Bogus properties are left out. *)
Record decl := mkDecl { d_name : str; d_value : option str; d_important : bool }.
Definition style := str -> str.
Definition set (s : style) (n v : str) : style := fun m => if str_eqb m n then v else s m.

(** [Property::apply(parent, child)] *)
Definition apply_decl (parent child : style) (d : decl) : style :=
  set child (d_name d) (match d_value d with Some v => v | None => parent (d_name d) end).

(** style/page.cpp:55-70 [PageComputedValues] *)
Record values := mkValues { v_style : style; v_area : area -> style }.

(** style/page.cpp:178-180 [PageAreaRule] and style/rules.cpp:196-199 [PageRule]; a media rule is
    kept with whether it matches. *)
Inductive rule :=
| PageRule (sels : list page_selector) (props : list decl) (areas : list (area * list decl))
| MediaRule (matches : bool) (rules : list rule)
| OtherRule.

(** style/page.cpp:213-227 [PageAreaRule::apply] *)
Definition apply_area (c : values) (a : area * list decl) : values :=
  mkValues (v_style c)
    (fun x => if area_beq x (fst a)
              then fold_left (apply_decl (v_style c)) (snd a) (v_area c (fst a))
              else v_area c x).

(** style/rules.cpp:245-264 [PageRule::apply]: the page's style is its own parent *)
Definition apply_rule (props : list decl) (areas : list (area * list decl)) (c : values) : values :=
  let st := fold_left (fun s d => apply_decl s s d) props (v_style c) in
  fold_left apply_area areas (mkValues st (v_area c)).

(** style/computer.cpp:155-170 [_evalRule] *)
Fixpoint eval_rule (p : page) (c : values) (r : rule) : values :=
  match r with
  | PageRule sels props areas => if rule_match sels p then apply_rule props areas c else c
  | MediaRule m rules =>
    if m then (fix go c rs := match rs with [] => c | r :: rs' => go (eval_rule p c r) rs' end) c rules else c
  | OtherRule => c
  end.

(** style/computer.cpp:399-413 [computeValues]; the choice of font faces is left out *)
Definition compute_page (initial : style) (sheets : list (list rule)) (p : page) : values :=
  fold_left (fun c sheet => fold_left (eval_rule p) sheet c) sheets (mkValues initial (fun _ => initial)).

(** driver/print.cpp:156-160: the page the printing loop asks for *)
Definition printed_page (before : nat) : page := mkPage [] (before + 1) false.
