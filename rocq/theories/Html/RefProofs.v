(** Character references in text and attribute values. *)
From Coq Require Import String List Arith Bool NArith Lia.
From Verif.Base Require Import Str.
From Verif.Html Require Import Entities LexerModel LexerInv LexerTac LexerSteps2 LexerFrame LexerProofs.
Import ListNotations.
Local Open Scope list_scope.
Local Open Scope N_scope.

Lemma expansion_table :
  forallb (fun e => match expansion (fst e) with Some r => str_eqb r (snd e) | None => false end) entities = true.
Proof. vm_compute. reflexivity. Qed.
Lemma expansion_entity e : In e entities -> expansion (fst e) = Some (snd e).
Proof.
  intros Hi. pose proof expansion_table as H. rewrite forallb_forall in H. specialize (H e Hi). cbv beta in H.
  destruct (expansion (fst e)) as [r|]; [|discriminate H]. apply str_eqb_spec in H. rewrite H. reflexivity.
Qed.

Lemma entity_shape_table :
  forallb (fun e => match fst e with a :: b :: _ :: _ => (a =? 38) && is_alnum b | _ => false end) entities = true.
Proof. vm_compute. reflexivity. Qed.
Lemma entity_shape e : In e entities -> exists b x n, fst e = 38 :: b :: x :: n /\ is_alnum b = true.
Proof.
  intros Hi. pose proof entity_shape_table as H. rewrite forallb_forall in H. specialize (H e Hi). cbv beta in H.
  destruct (fst e) as [|a [|b [|x n]]]; try discriminate.
  apply andb_true_iff in H as [H1 H2]. apply N.eqb_eq in H1. subst. exists b, x, n. split; [reflexivity|exact H2].
Qed.
Local Opaque has_partial is_entity expansion entities.

Lemma feed_app sink s t l : feed sink (s ++ t) l = bind (feed sink s l) (feed sink t).
Proof.
  revert l; induction s as [|c s IH]; intros l; cbn [app feed]; [reflexivity|].
  destruct (consume sink max_depth c false l); cbn [bind]; auto.
Qed.

Section Sink.
Variable sink : list token -> option text_mode.

(** Inside a name: every character is kept. *)
Lemma named_prefix e l n c :
  In e entities -> is_prefix (l_temp l ++ n ++ [c]) (fst e) -> l_state l = NAMED_CHARACTER_REFERENCE ->
  exists ma,
    feed sink n l = Ok (mkLexer NAMED_CHARACTER_REFERENCE (l_return l) (l_token l) (l_last l) (l_char l) (l_builder l)
                          (l_temp l ++ n) (l_peek l) (l_foreign l) ma (l_attr l)
                          (match n with [] => l_again l | _ => false end) (l_out l)).
Proof.
  intros Hi. revert l. induction n as [|x n IH]; intros l Hpre Hs; cbn [feed].
  - exists (l_matched l). rewrite app_nil_r. destruct l; cbn in Hs; subst. reflexivity.
  - assert (has_partial (l_temp l ++ [x]) = true) as Hp.
    { apply has_partial_spec. destruct Hpre as [q Hq].
      destruct (n ++ [c]) as [|y m] eqn:En; [destruct n; discriminate|].
      exists e, y, (m ++ q). split; [exact Hi|]. rewrite Hq. cbn [app]. rewrite En.
      rewrite <- !app_assoc. cbn. reflexivity. }
    destruct l as [st re tok la ch bu te pe fo ma at_ ag out]. cbn in Hs, Hp. subst st.
    cbn [consume max_depth]. unfold seq at 1. cbn [bind set_again l_state]. unfold step. cbn [l_state].
    unfold on_NAMED_CHARACTER_REFERENCE. cbn [l_temp]. rewrite Hp.
    destruct (is_entity (te ++ [x]));
      unfold seq, t_append, set_temp, set_matched; cbn [bind l_again l_state l_return l_token l_last l_char l_builder l_temp l_peek l_foreign l_matched l_attr l_out];
      (match goal with |- context [feed sink n ?l0] => destruct (IH l0) as (ma' & E); [cbn [l_temp]; rewrite <- app_assoc; exact Hpre|reflexivity|] end);
      rewrite E; cbn [l_temp l_return l_token l_last l_char l_builder l_peek l_foreign l_attr l_again l_out];
      exists ma'; rewrite <- app_assoc; destruct n; reflexivity.
Qed.


Lemma enter_reference l : returnable (l_state l) ->
  consume sink max_depth 38 false l =
  Ok (mkLexer CHARACTER_REFERENCE (l_state l) (l_token l) (l_last l) (l_char l) (l_builder l) (l_temp l) (l_peek l)
        (l_foreign l) (l_matched l) (l_attr l) false (l_out l)).
Proof.
  destruct l as [st re tok la ch bu te pe fo ma at_ ag out]. cbn [l_state]. intros H.
  destruct st; try contradiction; reflexivity.
Qed.

Lemma reference_name b l f :
  l_state l = CHARACTER_REFERENCE -> is_alnum b = true -> has_partial [38; b] = true ->
  exists ma, consume sink (S (S f)) b false l =
  Ok (mkLexer NAMED_CHARACTER_REFERENCE (l_return l) (l_token l) (l_last l) (l_char l) (l_builder l) [38; b] (l_peek l)
        (l_foreign l) ma (l_attr l) false (l_out l)).
Proof.
  destruct l as [st re tok la ch bu te pe fo ma at_ ag out]. cbn [l_state]. intros -> Hb Hp.
  cbn [consume]. unfold seq at 1. cbn [bind set_again l_state]. unfold step at 1. cbn [l_state].
  unfold on_CHARACTER_REFERENCE. rewrite Hb. acts. unfold step. cbn [l_state app].
  unfold on_NAMED_CHARACTER_REFERENCE. cbn [l_temp app]. rewrite Hp.
  destruct (is_entity [38; b]); acts; eexists; reflexivity.
Qed.

(** The semicolon: the buffer becomes the characters of the reference, and is flushed. *)
Lemma reference_end e n l :
  In e entities -> fst e = n ++ [59] -> l_state l = NAMED_CHARACTER_REFERENCE -> l_temp l = n ->
  consume sink max_depth 59 false l =
  bind (flush sink (mkLexer NAMED_CHARACTER_REFERENCE (l_return l) (l_token l) (l_last l) (l_char l) (l_builder l) (snd e)
                      (l_peek l) (l_foreign l) None (l_attr l) false (l_out l)))
       (fun l' => bind (switch_ret l') (fun l'' => if l_again l'' then consume sink 7 59 false l'' else Ok l'')).
Proof.
  intros Hi He Hs Ht. destruct l as [st re tok la ch bu te pe fo ma at_ ag out]. cbn [l_state l_temp] in *. subst.
  cbn [consume max_depth]. unfold seq at 1. cbn [bind set_again l_state]. unfold step. cbn [l_state].
  unfold on_NAMED_CHARACTER_REFERENCE. cbn [l_temp]. rewrite <- He.
  assert (has_partial (fst e) = false) as Hp.
  { destruct (has_partial (fst e)) eqn:Ep; [|reflexivity]. apply has_partial_spec in Ep as (e' & x & q & Hi' & E').
    rewrite He, <- app_assoc in E'. apply (semicolon_last _ _ _ Hi') in E'. discriminate. }
  assert (is_entity (fst e) = true) as Hee.
  { apply is_entity_spec. exists e. split; [exact Hi|reflexivity]. }
  rewrite Hp, Hee. cbn [N.eqb Pos.eqb negb].
  unfold seq, t_append, set_temp, t_expand. cbn [bind l_temp]. rewrite firstn_all2 by (rewrite He; reflexivity || lia).
  rewrite <- He, (expansion_entity e Hi). unfold set_temp, set_matched. cbn [bind l_temp].
  rewrite skipn_all2 by lia. rewrite app_nil_r.
  cbn [l_again l_state l_return l_token l_last l_char l_builder l_temp l_peek l_foreign l_matched l_attr l_out].
  destruct (flush sink _); reflexivity.
Qed.

Lemma name_split e n : In e entities -> fst e = n ++ [59] -> exists b m, n = 38 :: b :: m /\ is_alnum b = true /\ has_partial [38; b] = true.
Proof.
  intros Hi He. destruct (entity_shape e Hi) as (b & x & q & Eq & Hb).
  assert (exists m y, fst e = 38 :: b :: m ++ [y]) as (m & y & Em).
  { destruct (exists_last (l := x :: q)) as (m & y & E); [discriminate|]. exists m, y. now rewrite Eq, E. }
  exists b, m. rewrite He in Em. change (38 :: b :: m ++ [y]) with ((38 :: b :: m) ++ [y]) in Em.
  apply app_inj_tail in Em as [-> _]. split; [reflexivity|]. split; [exact Hb|].
  apply has_partial_spec. exists e, x, q. split; [exact Hi|exact Eq].
Qed.

Lemma reference_run e n l :
  In e entities -> fst e = n ++ [59] -> returnable (l_state l) ->
  feed sink (fst e) l =
  bind (flush sink (mkLexer NAMED_CHARACTER_REFERENCE (l_state l) (l_token l) (l_last l) (l_char l) (l_builder l) (snd e)
                      (l_peek l) (l_foreign l) None (l_attr l) false (l_out l)))
       (fun l' => bind (switch_ret l') (fun l'' => if l_again l'' then consume sink 7 59 false l'' else Ok l'')).
Proof.
  intros Hi He Hr. destruct (name_split e n Hi He) as (b & m & En & Hb & Hp).
  rewrite He, En. change ((38 :: b :: m) ++ [59]) with (38 :: b :: (m ++ [59])). cbn [feed].
  rewrite (enter_reference l Hr). cbn [bind].
  match goal with |- context [consume sink max_depth b false ?l0] => destruct (reference_name b l0 6 eq_refl Hb Hp) as (ma & E) end.
  unfold max_depth at 1. rewrite E. cbn [bind l_return l_token l_last l_char l_builder l_peek l_foreign l_attr l_out].
  rewrite feed_app.
  match goal with |- context [feed sink m ?l0] => destruct (named_prefix e l0 m 59 Hi) as (ma' & E') end.
  { cbn [l_temp]. exists []. rewrite app_nil_r, He, En. reflexivity. }
  { reflexivity. }
  rewrite E'. cbn [bind feed l_return l_token l_last l_char l_builder l_peek l_foreign l_attr l_out l_temp].
  rewrite (reference_end e n) ; [|exact Hi|exact He|reflexivity|cbn [l_temp]; rewrite En; reflexivity].
  cbn [l_return l_token l_last l_char l_builder l_peek l_foreign l_attr l_out l_temp].
  destruct (flush sink _) as [l'|w]; cbn [bind]; [|reflexivity].
  destruct (switch_ret l') as [l''|w]; cbn [bind]; [|reflexivity].
  destruct (l_again l''); [|reflexivity]. destruct (consume sink 7 59 false l''); reflexivity.
Qed.

Lemma text_reference e n l :
  In e entities -> fst e = n ++ [59] -> (l_state l = DATA \/ l_state l = RCDATA) ->
  exists tok a te,
    feed sink (fst e) l =
    Ok (mkLexer (l_state l) (l_state l) tok (l_last l) (l_char l) (l_builder l) te (l_peek l) (l_foreign l) None a false
          (rev (map char_token (snd e)) ++ l_out l)).
Proof.
  intros Hi He Hs. rewrite (reference_run e n l Hi He) by (destruct Hs as [-> | ->]; exact I).
  unfold flush, in_attribute. cbn [l_return l_temp].
  destruct Hs as [Hs|Hs]; rewrite Hs.
  all: match goal with |- context [emit_all sink ?s ?l0] => destruct (emit_all_eq sink s l0) as (tok & a & o & E & ->); rewrite E end.
  all: exists tok, a, (snd e); reflexivity.
Qed.

Lemma attr_reference e n l :
  In e entities -> fst e = n ++ [59] ->
  (l_state l = ATTRIBUTE_VALUE_DOUBLE_QUOTED \/ l_state l = ATTRIBUTE_VALUE_SINGLE_QUOTED \/ l_state l = ATTRIBUTE_VALUE_UNQUOTED) ->
  exists te,
    feed sink (fst e) l =
    Ok (mkLexer (l_state l) (l_state l) (l_token l) (l_last l) (l_char l) (l_builder l ++ snd e) te (l_peek l) (l_foreign l) None (l_attr l) false
          (l_out l)).
Proof.
  intros Hi He Hs. rewrite (reference_run e n l Hi He) by (destruct Hs as [-> |[-> | ->]]; exact I).
  unfold flush, in_attribute. cbn [l_return l_temp].
  destruct Hs as [Hs|[Hs|Hs]]; rewrite Hs; exists (snd e); reflexivity.
Qed.
End Sink.
