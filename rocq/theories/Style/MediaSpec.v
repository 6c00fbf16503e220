(** What Media Queries 4 says, independently of style/media.cpp: the text an author writes and
    when it is true of a device. *)
From Coq Require Import String List NArith ZArith QArith Bool.
From Verif.Base Require Import Str Outcome.
From Verif.Css Require Import LexerModel ParserModel.
From Verif.Values Require Import Number LengthModel LengthProps.
From Verif.Style Require Import MediaModel.
Import ListNotations.
Local Open Scope list_scope.

(** A value as written. *)
Inductive wval :=
| WLen (d : decimal) (u : aunit) (s : str)
| WNum (d : decimal)
| WInt (neg : bool) (ds : list Z)
| WRes (d : decimal) (u : runits) (s : str)
| WKw (k : str).

(** The number a written value denotes, in px, dots per inch, or as it is. *)
Definition dots_per_inch (q : Q) (u : runits) : Q :=
  match u with DPI => q | DPCM => q * (254 # 100) | DPPX => q * 96 end.
Definition w_number (w : wval) : option Q :=
  match w with
  | WLen d u _ => Some (pixels (decimal_value d) u)
  | WNum d => Some (decimal_value d)
  | WInt n ds => Some (inject_Z (integer_value n ds))
  | WRes d u _ => Some (dots_per_inch (decimal_value d) u)
  | WKw _ => None
  end.
(** The number a device has for a feature. *)
Definition d_number (v : mval) : option Q :=
  match v with
  | VLen (Abs q u) => Some (pixels q u)
  | VLen (Rel _ _) => None
  | VNum q => Some q
  | VInt z => Some (inject_Z z)
  | VRes q u => Some (dots_per_inch q u)
  | VEnum _ => None
  end.
(** The keyword a device has for a discrete feature. *)
Definition css_keywords (f : feat) : list string :=
  match f with
  | Forientation => ["portrait"; "landscape"]
  | Fscan => ["interlace"; "progressive"]
  | Fupdate => ["none"; "slow"; "fast"]
  | Foverflow_block => ["none"; "scroll"; "paged"]
  | Foverflow_inline => ["none"; "scroll"]
  | Fcolor_gamut => ["srgb"; "p3"; "rec2020"]
  | Fpointer | Fany_pointer => ["none"; "coarse"; "fine"]
  | Fhover | Fany_hover => ["none"; "hover"]
  | Freduced_motion | Freduced_transparency | Freduced_data => ["no-preference"; "reduce"]
  | Fcontrast => ["no-preference"; "more"; "less"]
  | Fforced_colors => ["none"; "active"]
  | Fcolor_scheme => ["light"; "dark"]
  | _ => []
  end%string.
Definition d_keyword (f : feat) (v : mval) : option str :=
  match v with
  | VEnum n => option_map (fun s => of_string s) (nth_error (css_keywords f) n)
  | _ => None
  end.
(** grid is 0 or 1 *)
Definition d_grid (v : mval) : option Z := match v with VEnum 0 => Some 0%Z | VEnum 1 => Some 1%Z | _ => None end.

(** The device value has the type of the feature; the media type is print or screen. *)
Definition typed (f : feat) (v : mval) : Prop :=
  match fkind f, v with
  | TLen, VLen (Abs _ _) | TNum, VNum _ | TInt, VInt _ | TRes, VRes _ _ => True
  | TBool, VEnum n => (n < 2)%nat
  | TEnum _, VEnum n => match f with Ftype => n = 1%nat \/ n = 2%nat | _ => (n < List.length (css_keywords f))%nat end
  | _, _ => False
  end.
(** A device: well-typed values and a positive resolution. *)
Definition typed_media (m : media) : Prop :=
  (forall f, typed f (m f)) /\ match m Fresolution with VRes q _ => 0 < q | _ => True end.

(** ** Feature tests *)

Inductive test := TMin (f : feat) (w : wval) | TMax (f : feat) (w : wval) | TEq (f : feat) (w : wval) | TBoolean (f : feat).

Definition test_holds (m : media) (t : test) : Prop :=
  match t with
  | TMin f w => exists x y, d_number (m f) = Some x /\ w_number w = Some y /\ y <= x
  | TMax f w => exists x y, d_number (m f) = Some x /\ w_number w = Some y /\ x <= y
  | TEq f w =>
    match w with
    | WKw k => exists k', d_keyword f (m f) = Some k' /\ eq_ci k' k = true
    | _ => if feat_beq f Fgrid then exists z y, d_grid (m f) = Some z /\ w_number w = Some y /\ inject_Z z == y
           else exists x y, d_number (m f) = Some x /\ w_number w = Some y /\ x == y
    end
  | TBoolean f =>
    match fkind f with
    | TBool => d_grid (m f) = Some 1%Z
    | TEnum _ => exists k, d_keyword f (m f) = Some k /\ k <> of_string "none" /\ k <> of_string "no-preference"
    | _ => exists x, d_number (m f) = Some x /\ ~ x == 0
    end
  end.

(** The values that a feature takes. *)
Definition value_ok (f : feat) (w : wval) : Prop :=
  match fkind f, w with
  | TLen, WLen d u s => decimal_ok d /\ unit_text aunits u s
  | TNum, WNum d => decimal_ok d
  | TInt, WInt n ds => integer_ok n ds
  | TRes, WRes d u s => decimal_ok d /\ unit_text res_units u s
  | TBool, WInt n ds => integer_ok n ds /\ (integer_value n ds = 0%Z \/ integer_value n ds = 1%Z)
  | TEnum _, WKw k => exists s, In s (css_keywords f) /\ eq_ci (of_string s) k = true
  | _, _ => False
  end.

(** ** Queries *)

Definition wss (n : nat) : list sst := repeat (TOK (mkT WHITESPACE (of_string " "))) n.
Definition id_tok (s : str) : sst := TOK (mkT IDENT s).
Definition colon : sst := TOK (mkT COLON (of_string ":")).
Definition comma : sst := TOK (mkT COMMA (of_string ",")).

Definition show_value (w : wval) : sst :=
  match w with
  | WLen d _ s | WRes d _ s => dim d s
  | WNum d => TOK (mkT NUMBER (show_decimal d))
  | WInt n ds => TOK (mkT NUMBER (show_integer n ds))
  | WKw k => id_tok k
  end.
(** [name: value], [min-name: value], [max-name: value] or [name], with some spaces *)
Definition show_test (a b : nat) (t : test) : list sst :=
  let pair name w := id_tok name :: wss a ++ colon :: wss b ++ [show_value w] in
  match t with
  | TMin f w => pair (of_string "min-" ++ fname f) w
  | TMax f w => pair (of_string "max-" ++ fname f) w
  | TEq f w => pair (fname f) w
  | TBoolean f => id_tok (fname f) :: wss a
  end.

Inductive conn := And | Or.
(** An operand: a media type, a feature test in parentheses, or a parenthesised group. A group is
    a first operand and, for each further one, the number of spaces before the connective,
    the number of spaces after it, and the operand. *)
Inductive leaf :=
| LType (k : str)
| LTest (a b : nat) (t : test)
| LGroup (c : conn) (first : leaf) (rest : list (nat * nat * leaf)).

Definition conn_tok (c : conn) : sst := id_tok (of_string (match c with And => "and" | Or => "or" end)).
Fixpoint show_leaf (l : leaf) : sst :=
  match l with
  | LType k => id_tok k
  | LTest a b t => BLOCK (show_test a b t)
  | LGroup c f r =>
    BLOCK (show_leaf f :: flat_map (fun p => wss (fst (fst p)) ++ conn_tok c :: wss (snd (fst p)) ++ [show_leaf (snd p)]) r)
  end.
Definition show_group (c : conn) (f : leaf) (r : list (nat * nat * leaf)) : list sst :=
  show_leaf f :: flat_map (fun p => wss (fst (fst p)) ++ conn_tok c :: wss (snd (fst p)) ++ [show_leaf (snd p)]) r.

(** The media types: a device is of the type "print" or "screen"; "all" is every device; the
    deprecated types match none. *)
Definition type_holds (m : media) (k : str) : Prop :=
  eq_ci (of_string "all") k = true \/
  (eq_ci (of_string "print") k = true /\ m Ftype = VEnum 1) \/
  (eq_ci (of_string "screen") k = true /\ m Ftype = VEnum 2).

Fixpoint leaf_holds (m : media) (l : leaf) : Prop :=
  match l with
  | LType k => type_holds m k
  | LTest _ _ t => test_holds m t
  | LGroup And f r => leaf_holds m f /\ fold_right (fun p P => leaf_holds m (snd p) /\ P) True r
  | LGroup Or f r => leaf_holds m f \/ fold_right (fun p P => leaf_holds m (snd p) \/ P) False r
  end.

(** A media query list: groups separated by commas, with the spaces before and after each. *)
Record mq := mkMq { mq_before : nat; mq_conn : conn; mq_first : leaf; mq_rest : list (nat * nat * leaf); mq_after : nat }.
Definition show_mq (q : mq) : list sst :=
  wss (mq_before q) ++ show_group (mq_conn q) (mq_first q) (mq_rest q) ++ wss (mq_after q).
Definition mq_holds (m : media) (q : mq) : Prop := leaf_holds m (LGroup (mq_conn q) (mq_first q) (mq_rest q)).
Fixpoint show_list (qs : list mq) : list sst :=
  match qs with
  | [] => []
  | [q] => show_mq q
  | q :: r => show_mq q ++ comma :: show_list r
  end.

(** ** The part of the language on which the parser agrees *)

(** Feature tests: no any-pointer and any-hover; no [prefers-contrast: no-preference]; in boolean
    form only features whose first keyword is the "none" one. *)
Definition test_ok (t : test) : Prop :=
  match t with
  | TMin f w | TMax f w => is_range f = true /\ value_ok f w
  | TEq f w => f <> Ftype /\ f <> Fany_pointer /\ f <> Fany_hover /\ value_ok f w /\
               (f = Fcontrast -> forall k, w = WKw k -> eq_ci (of_string "no-preference") k = false)
  | TBoolean f => ~ In f [Ftype; Fany_pointer; Fany_hover; Forientation; Fscan; Fcolor_gamut; Fcolor_scheme]
  end.
(** Types: not "all". Groups: no space before a connective other than the first. *)
Definition known_type (k : str) : Prop :=
  exists s, In s ["print"; "screen"; "tty"; "tv"; "projection"; "handheld"; "braille"; "embossed"; "speech"; "aural"]%string
    /\ eq_ci (of_string s) k = true.
Definition tight (r : list (nat * nat * leaf)) : Prop := Forall (fun p => fst (fst p) = O) (tl r).
Fixpoint leaf_ok (l : leaf) : Prop :=
  match l with
  | LType k => known_type k
  | LTest _ _ t => test_ok t
  | LGroup _ f r => tight r /\ leaf_ok f /\ fold_right (fun p P => leaf_ok (snd p) /\ P) True r
  end.
Definition mq_ok (q : mq) : Prop := leaf_ok (LGroup (mq_conn q) (mq_first q) (mq_rest q)).
