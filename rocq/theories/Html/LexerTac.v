(** Tactics for the HTML tokenizer: symbolic execution of one step. *)
From Coq Require Import String List Arith Bool NArith Lia.
From Verif.Base Require Import Str.
From Verif.Html Require Import Entities LexerModel LexerInv.
Import ListNotations.
Local Open Scope list_scope.
Local Open Scope N_scope.

Ltac acts :=
  cbv beta iota zeta delta
    [seq bind switch set_ret set_token set_char set_builder set_temp set_peek set_matched set_attr set_again
     switch_ret reconsume reconsume_ret b_append b_append_all b_clear t_append t_clear p_append p_clear
     lose_attr begin with_token ensure emit emit_char begin_attribute append_or_emit commit_name take_data
     take_public take_system force_quirks self_closing if_script accumulate in_attribute new_token char_token
     l_state l_return l_token l_last l_char l_builder l_temp l_peek l_foreign l_matched l_attr l_again l_out
     t_type t_name t_rune t_data t_public t_system t_attrs t_quirks t_self_closing ttype_eqb].

Ltac conds :=
  repeat match goal with
         | |- context [if ?b then _ else _] =>
             match b with context [if _ then _ else _] => fail 1 | _ => destruct b eqn:? end
         | |- context [match ?snk ?o with Some _ => _ | None => _ end] => is_var snk; destruct (snk o) as [[]|] eqn:?
         | |- context [match ?a with NoAttr => _ | Live => _ | Dangling => _ end] => is_var a; destruct a
         end.



Ltac unpack :=
  repeat match goal with
         | H : has_tag _ |- _ => destruct H as (? & -> & ? & ?)
         | H : has_attr _ _ |- _ => destruct H as (? & -> & ? & ? & ?)
         | H : has_new_attr _ _ |- _ => destruct H as (? & ? & -> & ? & -> & ? & ?)
         | H : has_type _ _ |- _ => destruct H as (? & -> & ?)
         | t : token |- _ => destruct t
         | H : is_tag _ |- _ => destruct H as [H|H]
         | H : _ = _ \/ (_ = _ /\ _) |- _ => destruct H as [->|[-> ?]]
         end; unfold names in *; cbn [t_type t_attrs] in *; subst.
Ltac tok1 :=
  first [ apply token_ok_other; intros [?|?]; discriminate
        | intros _; unfold names; cbn [t_attrs map]; first [assumption | apply NoDup_nil] ].
Ltac toks := repeat (apply Forall_cons; [tok1|]); apply Forall_nil.
Ltac news :=
  first [ exists []; split; [reflexivity|]
        | eexists [_]; split; [reflexivity|]
        | eexists [_; _]; split; [reflexivity|]
        | eexists [_; _; _]; split; [reflexivity|]
        | idtac ];
  split; [toks|];
  first [reflexivity | eexists; eexists; split; [reflexivity|split; reflexivity]].
Ltac tag1 :=
  eexists; split; [reflexivity|]; split; [first [left; reflexivity | right; reflexivity]|];
  unfold names; cbn [t_attrs map]; first [assumption | apply NoDup_nil].
Ltac attr1 :=
  eexists; split; [reflexivity|]; split; [first [left; reflexivity | right; reflexivity]|];
  split; [unfold names; cbn [t_attrs map]; first [assumption | apply NoDup_nil]|];
  first [left; reflexivity | right; split; [reflexivity|assumption]].
Ltac new1 :=
  eexists; eexists; split; [reflexivity|]; split; [first [left; reflexivity | right; reflexivity]|];
  split; [reflexivity|]; split; [first [reflexivity|eassumption]|assumption].
Ltac good1 :=
  unfold good; cbn [kind_of expects l_state l_return l_token l_attr];
  first [ exact I | tag1 | attr1 | new1 | eexists; split; reflexivity ].
Ltac fin :=
  cbn [step_ok l_again l_state l_out l_return l_token l_attr negb andb];
  split;
  [ first [ intros [=]; fail
          | intros _; good1
          | split; [ left; good1 | cbn [rank]; lia ]
          | idtac ]
  | news ].
Ltac start f Hs Ha Hg Hc eof :=
  cbn in Hs, Ha; subst; unfold good in Hg; cbn in Hg; unfold step; cbn [l_state]; unpack; unfold f;
  (destruct eof;
  [ rewrite (Hc eq_refl) in *; clear Hc;
    cbn [N.eqb Pos.eqb is_alpha is_alnum is_digit is_space is_upper is_lower is_hex N.leb N.compare Pos.compare Pos.compare_cont andb orb negb]
  | clear Hc ]).

Ltac run_state f :=
  intros c eof [st re tok la ch bu te pe fo ma at_ ag out] Hc Hs Hg Ha;
  start f Hs Ha Hg Hc eof; conds; acts; conds; try fin.
