(** What CSS says about positions and clip shapes, without the functions of ClipModel.v. *)
From Coq Require Import String List NArith ZArith QArith Bool.
From Verif.Base Require Import Str.
From Verif.Css Require Import LexerModel ParserModel.
From Verif.Transform Require Import TransformModel TransformSpec.
Import ListNotations.
Local Open Scope list_scope.
Local Open Scope Q_scope.

(** ** Positions as they are written *)

(** A place on an axis: at the left or top side or some way from it, in the middle, or at the right or
    bottom side or some way from it. *)
Inductive place := Near (off : option wlen) | Middle | Far (off : option wlen).
Definition place_ok (p : place) : Prop := match p with Near (Some w) | Far (Some w) => wlen_ok w | _ => True end.
Definition offset_of (off : option wlen) (whole : Q) : Q := match off with Some w => length_of w whole | None => 0 end.
(** The distance from the left or top side *)
Definition coordinate (p : place) (whole : Q) : Q :=
  match p with
  | Near off => offset_of off whole
  | Middle => whole / 2
  | Far off => whole - offset_of off whole
  end.

(** A component that spells a keyword, in any capitalisation *)
Definition spells (k : string) (s : sst) : Prop := exists d, s = TOK (mkT IDENT d) /\ eq_ci d (of_string k) = true.

(** The components of a place, on an axis that goes from [near] to [far] *)
Inductive place_text (near far : string) : place -> list sst -> Prop :=
| text_near s : spells near s -> place_text near far (Near None) [s]
| text_near_off s w : spells near s -> place_text near far (Near (Some w)) [s; len_sst w]
| text_middle s : spells "center" s -> place_text near far Middle [s]
| text_far s : spells far s -> place_text near far (Far None) [s]
| text_far_off s w : spells far s -> place_text near far (Far (Some w)) [s; len_sst w].

(** The position of CSS Values: one component; a horizontal and a vertical one; keywords with or without an
    offset for the two axes, in any order. *)
Inductive position_words : place -> place -> list sst -> Prop :=
| words_horizontal h l : bare h -> place_text "left" "right" h l -> position_words h Middle l
| words_vertical v l : bare v -> place_text "top" "bottom" v l -> position_words Middle v l
| words_length w : position_words (Near (Some w)) Middle [len_sst w]
| words_lengths w w' : position_words (Near (Some w)) (Near (Some w')) [len_sst w; len_sst w']
| words_length_keyword w v l : bare v -> place_text "top" "bottom" v l -> position_words (Near (Some w)) v (len_sst w :: l)
| words_keyword_length h w l : bare h -> place_text "left" "right" h l -> position_words h (Near (Some w)) (l ++ [len_sst w])
| words_both h v l l' : place_text "left" "right" h l -> place_text "top" "bottom" v l' -> position_words h v (l ++ l')
| words_swapped h v l l' : place_text "left" "right" h l -> place_text "top" "bottom" v l' -> position_words h v (l' ++ l)
with bare : place -> Prop :=
| bare_near : bare (Near None) | bare_middle : bare Middle | bare_far : bare (Far None).

(** The same components, with white space after them wherever one likes *)
Inductive spaced : list sst -> list sst -> Prop :=
| spaced_nil : spaced [] []
| spaced_cons s ws b l : blank b -> spaced ws l -> spaced (s :: ws) (s :: b ++ l).

(** The first component is a vertical keyword. *)
Definition vertical_first (ws : list sst) : Prop := exists s r, ws = s :: r /\ (spells "top" s \/ spells "bottom" s).
(** The positions that are read: when the vertical keyword comes first, the horizontal one is not [center],
    and one of them has an offset. *)
Definition in_order (h v : place) (ws : list sst) : Prop :=
  (1 < List.length ws)%nat -> vertical_first ws -> h <> Middle /\ ~ (bare h /\ bare v).


(** ** Shapes as they are written *)

(** The radius of a circle, or one of an ellipse *)
Inductive wradius := RDefault | RClosest | RFarthest | RLength (w : wlen).
Definition wradius_ok (r : wradius) : Prop := match r with RLength w => wlen_ok w | _ => True end.
Inductive radius_text : wradius -> list sst -> Prop :=
| radius_none : radius_text RDefault []
| radius_closest s : spells "closest-side" s -> radius_text RClosest [s]
| radius_farthest s : spells "farthest-side" s -> radius_text RFarthest [s]
| radius_length w : radius_text (RLength w) [len_sst w].
(** [at] and a position (of those in order); nothing stands for the middle. *)
Inductive at_text : place -> place -> list sst -> Prop :=
| at_none : at_text Middle Middle []
| at_some h v s b ws l : spells "at" s -> blank b -> position_words h v ws -> place_ok h -> place_ok v -> in_order h v ws ->
    spaced ws l -> at_text h v (s :: b ++ l).
(** The name of a function *)
Definition function_name (n : string) (name : token) : Prop := t_type name = FUNCTION /\ eq_ci (t_data name) (of_string n) = true.

(** ** Regions *)

(** A rectangle, an ellipse around a point *)
Definition in_rect (r : rect) (p : point) : Prop :=
  r_x r <= fst p /\ fst p <= r_x r + r_w r /\ r_y r <= snd p /\ snd p <= r_y r + r_h r.
Definition in_disc (c : point) (radius : Q) (p : point) : Prop :=
  (fst p - fst c) * (fst p - fst c) + (snd p - snd c) * (snd p - snd c) <= radius * radius.
Definition in_ellipse (c : point) (rx ry : Q) (p : point) : Prop :=
  ((fst p - fst c) * ry) * ((fst p - fst c) * ry) + ((snd p - snd c) * rx) * ((snd p - snd c) * rx) <= (rx * ry) * (rx * ry).
