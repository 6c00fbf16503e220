(** Where the content of a parsed document comes from.  Nothing here uses the model of the tree
    builder. *)
From Coq Require Import String List Arith Bool NArith.
From Verif.Base Require Import Str.
From Verif.Html Require Import LexerModel SerialModel SerialSpec SvgNames.
Import ListNotations.
Local Open Scope list_scope.
Local Open Scope N_scope.

(** The elements that HTML implies, also for stray end tags of br and p. *)
Definition implied_names : list string :=
  ["html"; "head"; "body"; "p"; "br"; "form"; "colgroup"; "tbody"; "tr"]%string.
Definition lower_of (c : N) : N := if (65 <=? c) && (c <=? 90) then c + 32 else c.
(** One of the mixed-case names of SVG, for a name that differs from it only in case. *)
Definition recased (l : list string) (n n' : str) : Prop :=
  n' = n \/ exists x, In x l /\ n' = of_string x /\ map lower_of n' = map lower_of n.

Section From.
Variable ts : list token.
Definition tag_name (n : str) : Prop :=
  in_names implied_names n = true \/
  exists t m, In t ts /\ t_type t = T_START_TAG /\ t_name t = Some m /\ (n = m \/ m = of_string "image" /\ n = of_string "img").
Definition element_name (n : str) : Prop := exists m, tag_name m /\ recased svg_tag_names m n.
Definition attr_from (n v : str) : Prop := exists t m, In t ts /\ In (m, v) (t_attrs t) /\ recased svg_attr_names m n.
(** A character of text: one of a character token; U+FFFD is also what a null character becomes. *)
Definition char_from (c : N) : Prop :=
  exists t, In t ts /\ t_type t = T_CHARACTER /\ (t_rune t = c \/ t_rune t = 0 /\ c = 65533).
Definition node_from (n : node) : Prop :=
  match n with
  | Element q a _ =>
      (q_ns q = Some html_ns \/ q_ns q = Some svg_ns \/ q_ns q = Some mathml_ns) /\ element_name (q_name q) /\
      Forall (fun x => attr_from (q_name (fst x)) (snd x)) a
  | Text s => s <> [] /\ Forall char_from s
  | Comment s => exists t, In t ts /\ t_type t = T_COMMENT /\ t_data t = s
  | Doctype s => exists t, In t ts /\ t_type t = T_DOCTYPE /\ s = match t_name t with Some n => n | None => [] end
  end.
End From.

(** All the nodes of a tree. *)
Fixpoint nodes_of (n : node) : list node :=
  n :: match n with Element _ _ ns => flat_map nodes_of ns | _ => [] end.

(** How often a character is in the text of a tree, and in the character tokens. *)
Definition text_count (c : N) (ns : list node) : nat :=
  list_sum (map (fun n => match n with Text s => count_occ N.eq_dec s c | _ => O end) (flat_map nodes_of ns)).
Definition token_count (c : N) (ts : list token) : nat :=
  length (filter (fun t => match t_type t with
                           | T_CHARACTER => (t_rune t =? c) || ((t_rune t =? 0) && (c =? 65533))
                           | _ => false
                           end) ts).
