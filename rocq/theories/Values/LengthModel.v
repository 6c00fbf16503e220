(** values/length.cpp: CSS lengths.

    Simplifications: f32/f64 values are exact rationals; [Au::fromFloatNearest] (library
    code) is the parameter [rnd], so the theorems hold for every rounding. *)
From Coq Require Import String List NArith ZArith QArith Qminmax Bool.
From Verif.Base Require Import Str.
From Verif.Css Require Import LexerModel ParserModel.
From Verif.Values Require Import Number.
Import ListNotations.
Local Open Scope list_scope.

(** values/length.cpp:318-325, values/defs/absolute-lengths.inc *)
Inductive aunit := CM | MM | Qu | IN | PT | PC | PX.
(** values/length.cpp:34-41, values/defs/relative-lengths.inc *)
Inductive runit :=
| EM | REM | EX | REX | CAP | RCAP | CH | RCH | IC | RIC | LH | RLH
| VW | SVW | LVW | DVW | VH | SVH | LVH | DVH | VI | SVI | LVI | DVI
| VB | SVB | LVB | DVB | VMIN | SVMIN | LVMIN | DVMIN | VMAX | SVMAX | LVMAX | DVMAX.

(** values/length.cpp:424-436 [Length] *)
Inductive length := Abs (v : Q) (u : aunit) | Rel (v : Q) (u : runit).

(** values/length.cpp:349-374 [AbsoluteLength::pixels] *)
Definition pixels (v : Q) (u : aunit) : Q :=
  match u with
  | CM => v * 96 / (254 # 100)
  | MM => v * 96 / (254 # 10)
  | Qu => v * 96 / (1016 # 10)
  | IN => v * 96
  | PT => v * 96 / 72
  | PC => v * 96 / 6
  | PX => v
  end.

(** values/length.cpp:79-104 [RelativeLengthContextData]; [cx_horizontal]: boxAxis == HORIZONTAL *)
Record ctx := mkCtx {
  cx_font : Q; cx_xheight : Q; cx_cap : Q; cx_zero : Q; cx_line : Q;
  cx_rfont : Q; cx_rxheight : Q; cx_rcap : Q; cx_rzero : Q; cx_rline : Q;
  cx_sw : Q; cx_sh : Q; cx_lw : Q; cx_lh : Q; cx_dw : Q; cx_dh : Q;
  cx_horizontal : bool }.

Section Resolve.
Variable rnd : Q -> Q.

(** values/length.cpp:134-290 [resolve(RelativeLength)] *)
Definition resolve_rel (v : Q) (u : runit) (c : ctx) : Q :=
  let large_w := rnd (v * cx_lw c / 100) in
  let large_h := rnd (v * cx_lh c / 100) in
  let small_w := rnd (v * cx_sw c / 100) in
  let small_h := rnd (v * cx_sh c / 100) in
  let dyn_w := rnd (v * cx_dw c / 100) in
  let dyn_h := rnd (v * cx_dh c / 100) in
  match u with
  | EM => rnd (v * cx_font c)
  | REM => rnd (v * cx_rfont c)
  | EX => rnd (v * cx_xheight c)
  | REX => rnd (v * cx_rxheight c)
  | CAP => rnd (v * cx_cap c)
  | RCAP => rnd (v * cx_rcap c)
  | CH => rnd (v * cx_zero c)
  | RCH => rnd (v * cx_rzero c)
  | IC => rnd (v * cx_zero c)
  | RIC => rnd (v * cx_rzero c)
  | LH => rnd (v * cx_line c)
  | RLH => rnd (v * cx_rline c)
  | VW | LVW => large_w
  | SVW => small_w
  | DVW => dyn_w
  | VH | LVH => large_h
  | SVH => small_h
  | DVH => dyn_h
  | VI | LVI => if cx_horizontal c then large_w else large_h
  | SVI => if cx_horizontal c then small_w else small_h
  | DVI => if cx_horizontal c then dyn_w else dyn_h
  | VB | LVB => if negb (cx_horizontal c) then large_w else large_h
  | SVB => if negb (cx_horizontal c) then small_w else small_h
  | DVB => if negb (cx_horizontal c) then dyn_w else dyn_h
  | VMIN | LVMIN => Qmin large_w large_h
  | SVMIN => Qmin small_w small_h
  | DVMIN => Qmin dyn_w dyn_h
  | VMAX | LVMAX => Qmax large_w large_h
  | SVMAX => Qmax small_w small_h
  | DVMAX => Qmax dyn_w dyn_h
  end.

(** values/length.cpp:394-396, 446-455 [resolve(Length)] *)
Definition resolve_length (l : length) (c : ctx) : Q :=
  match l with
  | Rel v u => resolve_rel v u c
  | Abs v u => rnd (pixels v u)
  end.
End Resolve.

(** The enumerator names of the two units, in declaration order. *)
Definition aunits : list (str * aunit) :=
  [(of_string "CM", CM); (of_string "MM", MM); (of_string "Q", Qu); (of_string "IN", IN);
   (of_string "PT", PT); (of_string "PC", PC); (of_string "PX", PX)].
Definition runits : list (str * runit) :=
  [(of_string "EM", EM); (of_string "REM", REM); (of_string "EX", EX); (of_string "REX", REX);
   (of_string "CAP", CAP); (of_string "RCAP", RCAP); (of_string "CH", CH); (of_string "RCH", RCH);
   (of_string "IC", IC); (of_string "RIC", RIC); (of_string "LH", LH); (of_string "RLH", RLH);
   (of_string "VW", VW); (of_string "SVW", SVW); (of_string "LVW", LVW); (of_string "DVW", DVW);
   (of_string "VH", VH); (of_string "SVH", SVH); (of_string "LVH", LVH); (of_string "DVH", DVH);
   (of_string "VI", VI); (of_string "SVI", SVI); (of_string "LVI", LVI); (of_string "DVI", DVI);
   (of_string "VB", VB); (of_string "SVB", SVB); (of_string "LVB", LVB); (of_string "DVB", DVB);
   (of_string "VMIN", VMIN); (of_string "SVMIN", SVMIN); (of_string "LVMIN", LVMIN); (of_string "DVMIN", DVMIN);
   (of_string "VMAX", VMAX); (of_string "SVMAX", SVMAX); (of_string "LVMAX", LVMAX); (of_string "DVMAX", DVMAX)].

(** Karm [valueOfCi]: the enumerator whose name equals the text, ignoring case. *)
Fixpoint value_of_ci {U} (us : list (str * U)) (s : str) : option U :=
  match us with
  | (n, u) :: r => if eq_ci n s then Some u else value_of_ci r s
  | [] => None
  end.

(** Karm [Cursor::skip] with a token: [Some] rest when the next value is that token. *)
Definition skip_tok (t : token) (c : list sst) : option (list sst) :=
  match c with
  | TOK t' :: r => if token_eqb t' t then Some r else None
  | _ => None
  end.

(** values/length.cpp:299-312, 405-418: the number of a DIMENSION and its unit text *)
Definition dimension (d : str) : Q * str :=
  match atof d with Some (q, r) => (q, r) | None => (0, d) end.

(** values/length.cpp:459-476 [ValueParser<Length>::parse], with 405-418 and 299-312. A failed
    parse leaves the cursor where it was. *)
Definition number_zero : token := mkT NUMBER (of_string "0").
Definition parse_length (c : list sst) : option (length * list sst) :=
  match c with
  | [] => None
  | s :: r =>
    match skip_tok number_zero c with
    | Some r' => Some (Abs 0 PX, r')
    | None =>
      match s with
      | TOK t =>
        if ttype_beq (t_type t) DIMENSION then
          let (q, u) := dimension (t_data t) in
          match value_of_ci aunits u with
          | Some u => Some (Abs q u, r)
          | None => match value_of_ci runits u with
                    | Some u => Some (Rel q u, r)
                    | None => None
                    end
          end
        else None
      | _ => None
      end
    end
  end.

(** values/primitives.cpp:56-70 [ValueParser<Number>::parse]: the rest is the cursor after the
    call (consumed even when [atof] fails). *)
Definition parse_number (c : list sst) : option Q * list sst :=
  match c with
  | TOK t :: r =>
    if ttype_beq (t_type t) NUMBER then (match atof (t_data t) with Some (q, _) => Some q | None => None end, r)
    else (None, c)
  | _ => (None, c)
  end.

(** values/primitives.cpp:24-40 [ValueParser<Integer>::parse] *)
Definition parse_integer (c : list sst) : option Z * list sst :=
  match c with
  | TOK t :: r =>
    if ttype_beq (t_type t) NUMBER then
      (match atoi (t_data t) with Some (z, []) => Some z | _ => None end, r)
    else (None, c)
  | _ => (None, c)
  end.

(** values/percent.cpp:19-33 [ValueParser<Percent>::parse] *)
Definition parse_percent (c : list sst) : option (Q * list sst) :=
  match c with
  | TOK t :: r =>
    if ttype_beq (t_type t) PERCENTAGE then Some (match atof (t_data t) with Some (q, _) => q | None => 0 end, r)
    else None
  | _ => None
  end.

(** values/percent.cpp:43-48 [resolve(PercentOr<Length>)] *)
Inductive percent_or := Percent (q : Q) | Len (l : length).
Definition resolve_percent_or (rnd : Q -> Q) (v : percent_or) (c : ctx) (relative : Q) : Q :=
  match v with
  | Percent q => relative * (q / 100)
  | Len l => resolve_length rnd l c
  end.

(** values/primitives.cpp:175-185 for [Union<Percent, Length>]: the alternatives in order *)
Definition parse_percent_or (c : list sst) : option (percent_or * list sst) :=
  match c with
  | [] => None
  | _ =>
    match parse_percent c with
    | Some (q, r) => Some (Percent q, r)
    | None => match parse_length c with
              | Some (l, r) => Some (Len l, r)
              | None => None
              end
    end
  end.

(** layout/base/values.cpp:12-44 [Resolver::from]: the context used during layout. A font face is
    the function from a font size to its metrics. The viewport is the same for the
    small, large and dynamic sizes only if the caller says so. *)
Record metrics := mkMetrics { m_xheight : Q; m_cap : Q; m_zero : Q; m_line : Q }.
Record env := mkEnv {
  e_font_size : Q; e_face : Q -> metrics;
  e_root_font_size : Q; e_root_face : Q -> metrics;
  e_small : Q * Q; e_large : Q * Q; e_dynamic : Q * Q }.
Definition resolver (e : env) : ctx :=
  let m := e_face e (e_font_size e) in
  let rm := e_root_face e 16 in
  {| cx_font := e_font_size e; cx_xheight := m_xheight m; cx_cap := m_cap m; cx_zero := m_zero m; cx_line := m_line m;
     cx_rfont := 16; cx_rxheight := m_xheight rm; cx_rcap := m_cap rm; cx_rzero := m_zero rm; cx_rline := m_line rm;
     cx_sw := fst (e_small e); cx_sh := snd (e_small e); cx_lw := fst (e_large e); cx_lh := snd (e_large e);
     cx_dw := fst (e_dynamic e); cx_dh := snd (e_dynamic e); cx_horizontal := true |}.
