(** What CSS Values 4 says about lengths, independently of values/length.cpp. *)
From Coq Require Import List NArith ZArith QArith Qminmax Bool.
From Verif.Base Require Import Str.
From Verif.Values Require Import Number LengthModel.
Import ListNotations.
Local Open Scope list_scope.

(** How many of each unit make one inch (CSS Values 6.2). *)
Definition per_inch (u : aunit) : Q :=
  match u with
  | IN => 1 | CM => 254 # 100 | MM => 254 # 10 | Qu => 1016 # 10 | PT => 72 | PC => 6 | PX => 96
  end.
(** [x] px is the same distance as [v] of the unit [u]: both are the same number of inches. *)
Definition same_distance (x v : Q) (u : aunit) : Prop := x / per_inch PX == v / per_inch u.

(** Relative units, arranged the way CSS Values 6.1 describes them. *)
Inductive metric := Mem | Mex | Mcap | Mch | Mlh.
Inductive vclass := Small | Large | Dynamic.
Inductive vdir := Dw | Dh | Di | Db | Dmin | Dmax.
Inductive rkind := KFont (root : bool) (m : metric) | KView (s : vclass) (d : vdir) | KIdeo (root : bool).

Definition kind_of (u : runit) : rkind :=
  match u with
  | EM => KFont false Mem | REM => KFont true Mem | EX => KFont false Mex | REX => KFont true Mex
  | CAP => KFont false Mcap | RCAP => KFont true Mcap | CH => KFont false Mch | RCH => KFont true Mch
  | LH => KFont false Mlh | RLH => KFont true Mlh | IC => KIdeo false | RIC => KIdeo true
  | VW | LVW => KView Large Dw | SVW => KView Small Dw | DVW => KView Dynamic Dw
  | VH | LVH => KView Large Dh | SVH => KView Small Dh | DVH => KView Dynamic Dh
  | VI | LVI => KView Large Di | SVI => KView Small Di | DVI => KView Dynamic Di
  | VB | LVB => KView Large Db | SVB => KView Small Db | DVB => KView Dynamic Db
  | VMIN | LVMIN => KView Large Dmin | SVMIN => KView Small Dmin | DVMIN => KView Dynamic Dmin
  | VMAX | LVMAX => KView Large Dmax | SVMAX => KView Small Dmax | DVMAX => KView Dynamic Dmax
  end.

Definition font_metric (root : bool) (m : metric) (c : ctx) : Q :=
  match m with
  | Mem => if root then cx_rfont c else cx_font c
  | Mex => if root then cx_rxheight c else cx_xheight c
  | Mcap => if root then cx_rcap c else cx_cap c
  | Mch => if root then cx_rzero c else cx_zero c
  | Mlh => if root then cx_rline c else cx_line c
  end.
Definition viewport (s : vclass) (c : ctx) : Q * Q :=
  match s with
  | Small => (cx_sw c, cx_sh c) | Large => (cx_lw c, cx_lh c) | Dynamic => (cx_dw c, cx_dh c)
  end.
(** One hundredth of the width, the height, the inline or block axis, the smaller or the larger one. *)
Definition view_unit (s : vclass) (d : vdir) (c : ctx) : Q :=
  let (w, h) := viewport s c in
  match d with
  | Dw => w / 100 | Dh => h / 100
  | Di => (if cx_horizontal c then w else h) / 100
  | Db => (if cx_horizontal c then h else w) / 100
  | Dmin => Qmin (w / 100) (h / 100)
  | Dmax => Qmax (w / 100) (h / 100)
  end.
(** The pixels one unit is worth; [None] for the ideographic units, whose basis (the advance of
    U+6C34, else 1em) is not part of the context. *)
Definition unit_px (u : runit) (c : ctx) : option Q :=
  match kind_of u with
  | KFont r m => Some (font_metric r m c)
  | KView s d => Some (view_unit s d c)
  | KIdeo _ => None
  end.
Definition is_minmax (u : runit) : bool :=
  match kind_of u with KView _ (Dmin | Dmax) => true | _ => false end.

(** A rounding: any monotone function on rationals. *)
Definition rounding (rnd : Q -> Q) : Prop := forall x y, x <= y -> rnd x <= rnd y.
