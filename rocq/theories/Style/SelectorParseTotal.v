(** Reading a selector ends, and when it does not crash. *)
From Coq Require Import String List NArith ZArith Bool Arith Lia.
From Verif.Base Require Import Str Outcome.
From Verif.Css Require Import LexerModel ParserModel.
From Verif.Values Require Import Number LengthModel CalcModel.
From Verif.Style Require Import AnBModel CascadeModel SelectorModel SelectorParseModel SelectorParseProofs.
Import ListNotations.
Local Open Scope nat_scope.
Local Open Scope list_scope.

(** ** What is left is a suffix *)

Definition suf (r c : list sst) : Prop := exists p, c = p ++ r.
Definition psuf (r c : list sst) : Prop := exists x p, c = x :: p ++ r.
Lemma suf_refl c : suf c c. Proof. now exists []. Qed.
Lemma suf_nil c : suf [] c. Proof. exists c. now rewrite app_nil_r. Qed.
Lemma suf_cons x r c : suf r c -> suf r (x :: c). Proof. intros (p & ->). now exists (x :: p). Qed.
Lemma suf_trans a b c : suf a b -> suf b c -> suf a c.
Proof. intros (p & ->) (q & ->). exists (q ++ p). now rewrite app_assoc. Qed.
Lemma psuf_cons x r c : suf r c -> psuf r (x :: c). Proof. intros (p & ->). now exists x, p. Qed.
Lemma psuf_suf r c : psuf r c -> suf r c. Proof. intros (x & p & ->). now exists (x :: p). Qed.
Lemma psuf_l a b c : psuf a b -> suf b c -> psuf a c.
Proof. intros (x & p & ->) (q & ->). destruct q as [|y q]; [now exists x, p|]. exists y, (q ++ x :: p). now rewrite <- app_assoc. Qed.
Lemma psuf_r a b c : suf a b -> psuf b c -> psuf a c.
Proof. intros (p & ->) (x & q & ->). exists x, (q ++ p). now rewrite app_assoc. Qed.

Lemma eat_suf c : suf (eat_wss c) c.
Proof. induction c as [|[t| | | |] c IH]; cbn; try apply suf_refl. destruct (ttype_beq _ _); [now apply suf_cons|apply suf_refl]. Qed.
Lemma skip_suf t c r : skip_tok t c = Some r -> psuf r c.
Proof. destruct c as [|[x| | | |] c]; cbn; try discriminate. destruct (token_eqb x t); [|discriminate]. intros [= <-]. apply psuf_cons, suf_refl. Qed.
Lemma drop_suf c : suf (drop_one c) c.
Proof. destruct c as [|a [|b [|d c]]]; cbn; try apply suf_refl. destruct (is_ws b); [apply suf_cons|]; apply suf_refl. Qed.
Lemma peek_suf c : suf (snd (peek_op c)) c.
Proof.
  induction c as [|s c IH]; [apply suf_refl|]. destruct s as [t| | | |]; try apply suf_refl. cbn [peek_op].
  destruct (t_type t); try apply suf_refl; try (apply suf_cons, suf_refl).
  - destruct c as [|s c]; [apply suf_refl|]. repeat (match goal with |- context [if ?b then _ else _] => destruct b end); try apply suf_refl; apply suf_cons, suf_refl.
  - destruct c as [|s c]; [apply suf_nil|]. destruct (_ || _); [apply suf_cons, suf_refl|].
    destruct (peek_op (s :: c)) as [o c']. cbn [snd] in IH. apply suf_cons. destruct c' as [|x [|y c']]; cbn [snd]; auto.
    destruct (is_ws y); cbn [snd]; auto. eapply suf_trans; [|exact IH]. apply suf_cons, suf_refl.
Qed.

Lemma rbind_inv {A B} (x : res A) (f : A -> res B) b : rbind x f = rret b -> exists a, x = rret a /\ f a = rret b.
Proof. destruct x as [[a|]| |]; cbn; try discriminate. intros H. now exists a. Qed.
Lemma rret_inj {A} (a b : A) : rret a = rret b -> a = b. Proof. now intros [= ->]. Qed.


(** Follows the branches of a computation that returned. *)
Ltac branches H :=
  repeat match type of H with
  | rbind _ _ = rret _ => let a := fresh "a" in let E := fresh "E" in apply rbind_inv in H; destruct H as (a & E & H)
  | (match ?x with _ => _ end) = rret _ => let E := fresh "E" in destruct x eqn:E; try discriminate H
  | (if ?x then _ else _) = rret _ => let E := fresh "E" in destruct x eqn:E; try discriminate H
  | rret _ = rret _ => apply rret_inj in H
  end.

(** ** An+B *)
Lemma integer_suf c z r : read_integer c = rret (z, r) -> suf r c.
Proof.
  unfold read_integer, parse_integer. intros H. branches H. injection H as -> ->.
  repeat match type of E with (match ?x with _ => _ end) = _ => destruct x; try discriminate E end; injection E as _ ->; apply suf_cons, suf_refl.
Qed.
Lemma after_n_suf c p : after_n c = rret p -> suf (snd p) c.
Proof.
  unfold after_n. intros H. pose proof (eat_suf c) as S1. destruct (eat_wss c) as [|s r]; [branches H; subst p; apply suf_nil|].
  destruct (is_tok NUMBER s).
  - branches H. destruct p as [z r']. eapply suf_trans; [|exact S1]. now apply integer_suf in H.
  - destruct (is_tok DELIM s); [|discriminate]. destruct (_ && _) eqn:E; [discriminate|]. clear E. pose proof (eat_suf r) as S2.
    destruct (eat_wss r) as [|s' r']; [discriminate|]. branches H. subst p. cbn [snd]. destruct a as [z r2]. cbn [snd]. apply integer_suf in E1.
    eapply suf_trans; [exact E1|]. eapply suf_trans; [exact S2|]. eapply suf_trans; [|exact S1]. apply suf_cons, suf_refl.
Qed.
Lemma after_dash_suf c p : after_n_dash c = rret p -> suf (snd p) c.
Proof.
  unfold after_n_dash. intros H. pose proof (eat_suf c) as S1. destruct (eat_wss c) as [|s r]; [discriminate|].
  branches H. destruct p as [z r']. apply integer_suf in H. eapply suf_trans; [exact H|exact S1].
Qed.
Ltac anb_suf := match goal with
  | E : after_n (eat_wss ?r) = rret ?p |- _ => apply after_n_suf in E; eapply suf_trans; [exact E|apply eat_suf]
  | E : after_n_dash (eat_wss ?r) = rret ?p |- _ => apply after_dash_suf in E; eapply suf_trans; [exact E|apply eat_suf]
  | |- suf (eat_wss _) _ => apply eat_suf
  end.
Lemma ident_suf s r pre p : anb_ident s r pre = rret p -> suf (snd p) r.
Proof. unfold anb_ident. intros H. cbv zeta in H. branches H; subst p; cbn [snd]; anb_suf. Qed.
Lemma dimension_suf s r pre p : anb_dimension s r pre = rret p -> suf (snd p) r.
Proof. unfold anb_dimension. intros H. cbv zeta in H. branches H; subst p; cbn [snd]; anb_suf. Qed.
Lemma anb_suf c p : parse_anb c = rret p -> suf (snd p) c.
Proof.
  unfold parse_anb. intros H. pose proof (eat_suf c) as S1. destruct (eat_wss c) as [|s r]; [discriminate|].
  assert (S2 : suf r c) by (eapply suf_trans; [|exact S1]; apply suf_cons, suf_refl).
  assert (G : forall s r pre, (if is_tok IDENT s then anb_ident s r pre else if is_tok DIMENSION s then anb_dimension s r pre else rerr) = rret p -> suf (snd p) r).
  { intros s0 r0 pre G. destruct (is_tok IDENT s0); [now apply ident_suf in G|]. destruct (is_tok DIMENSION s0); [now apply dimension_suf in G|discriminate]. }
  destruct (_ && _); [branches H; now subst p|]. destruct (is_tok NUMBER s).
  - branches H. subst p. cbn [snd]. destruct a as [z r']. apply integer_suf in E. eapply suf_trans; eauto.
  - cbv zeta in H. destruct (_ && _).
    + destruct r as [|s' r']; [discriminate|]. destruct (is_ws s'); [discriminate|]. apply G in H. eapply suf_trans; [exact H|].
      eapply suf_trans; [|exact S2]. apply suf_cons, suf_refl.
    + apply G in H. eapply suf_trans; eauto.
Qed.

Lemma qname_suf c ns d p : parse_qname c ns d = rret p -> suf (snd p) c.
Proof.
  unfold parse_qname. destruct c as [|s r]; [discriminate|]. intros H.
  match type of H with (let (p, c1) := ?X in _) = _ => assert (S1 : suf (snd X) (s :: r)) end.
  { destruct (is_tok IDENT s); [apply suf_cons, suf_refl|]. destruct (skip_tok (delim "*") (s :: r)) eqn:E; [|apply suf_refl]. apply skip_suf in E. now apply psuf_suf. }
  match type of H with (let (p, c1) := ?X in _) = _ => destruct X as [p0 c1] end. cbn [snd] in S1.
  destruct (skip_tok (delim "|") c1) as [c2|] eqn:E; [|branches H; now subst p].
  apply skip_suf, psuf_suf in E. destruct c2 as [|s2 r2]; [discriminate|].
  match type of H with (let (p, c1) := ?X in _) = _ => assert (S2 : suf (snd X) (s2 :: r2)) end.
  { destruct (is_tok IDENT s2); [apply suf_cons, suf_refl|]. destruct (skip_tok (delim "*") (s2 :: r2)) eqn:E'; [|apply suf_refl]. apply skip_suf in E'. now apply psuf_suf. }
  match type of H with (let (p, c1) := ?X in _) = _ => destruct X as [p1 c3] end. cbn [snd] in S2.
  branches H; subst p; cbn [snd]; (eapply suf_trans; [exact S2|eapply suf_trans; eauto]).
Qed.
(** Called on an identifier or a star, it takes it. *)
Lemma qname_psuf s r ns d p : is_tok IDENT s || (match skip_tok (delim "*") (s :: r) with Some _ => true | None => false end) = true ->
  parse_qname (s :: r) ns d = rret p -> suf (snd p) r.
Proof.
  unfold parse_qname. intros T H.
  match type of H with (let (p, c1) := ?X in _) = _ => assert (S1 : snd X = r) end.
  { destruct (is_tok IDENT s); [reflexivity|]. cbn [orb] in T. destruct (skip_tok (delim "*") (s :: r)) eqn:E; [|discriminate].
    unfold skip_tok in E. destruct s; try discriminate. destruct (token_eqb _ _); [|discriminate]. now injection E as ->. }
  match type of H with (let (p, c1) := ?X in _) = _ => destruct X as [p0 c1] end. cbn [snd] in S1. subst c1.
  destruct (skip_tok (delim "|") r) as [c2|] eqn:E; [|branches H; subst p; apply suf_refl].
  apply skip_suf, psuf_suf in E. destruct c2 as [|s2 r2]; [discriminate|].
  match type of H with (let (p, c1) := ?X in _) = _ => assert (S2 : suf (snd X) (s2 :: r2)) end.
  { destruct (is_tok IDENT s2); [apply suf_cons, suf_refl|]. destruct (skip_tok (delim "*") (s2 :: r2)) eqn:E'; [|apply suf_refl]. apply skip_suf in E'. now apply psuf_suf. }
  match type of H with (let (p, c1) := ?X in _) = _ => destruct X as [p1 c3] end. cbn [snd] in S2.
  branches H; subst p; cbn [snd]; eapply suf_trans; eauto.
Qed.

(** ** Selectors *)

Section Total.
Variable ns : namespaces.

Definition item (n : nat) (c : list sst) : res (selector * list sst) :=
  match c with
          | [] => rerr
          | TOK t' :: r' => rret (plain_pseudo (t_data t'), r')
          | FUNC name content :: r' =>
            if token_eqb name (mkT FUNCTION (of_string "not(")) then
              rbind (parse ns n content) (fun s => rret (Nfix NOT [s], r'))
            else rbind (pc_function ns n name content) (fun s => rret (s, r'))
          | _ :: r' => rret (EmptySel, r')
          end.
Lemma read_simple_tok n t r : read_simple ns (S n) (TOK t :: r) =
  match t_type t with
  | HASH => rret (IdSel (tl (t_data t)), r)
  | IDENT => rbind (parse_qname (TOK t :: r) ns (Some (ns_default ns))) (fun p => rret (TypeSel (fst p), snd p))
  | DELIM =>
    if str_eqb (t_data t) (of_string ".") then
      match r with [] => Panic | s :: r' => rret (ClassSel (tok_data s), r') end
    else if str_eqb (t_data t) (of_string "*") then rbind (parse_qname (TOK t :: r) ns (Some (ns_default ns))) (fun p => rret (TypeSel (fst p), snd p))
    else rret (EmptySel, r)
  | COLON => match r with [] => Panic | s :: r' => if is_tok COLON s then item n r' else item n r end
  | _ => rerr
  end.
Proof. reflexivity. Qed.
Lemma nfix_loop_cons n acc op s c : nfix_loop ns (S n) acc op (s :: c) =
      let (o, c') := peek_op (s :: c) in
      let (last, front) := match acc with x :: l => (x, l) | [] => (EmptySel, []) end in
      if o =? oNOP then rret (nfix_of op (rev acc), c')
      else if o =? op then rbind (pse ns n c' op) (fun p => nfix_loop ns n (fst p :: acc) op (snd p))
      else if o <? op then rret (nfix_of op (rev acc), s :: c)
      else if (o =? oOR) || (o =? oAND) then
        rbind (nfix ns n last o c') (fun p => nfix_loop ns n (fst p :: front) op (snd p))
      else
        rbind (infix ns n last c' o) (fun p => nfix_loop ns n (fst p :: front) op (drop_one (snd p))).
Proof. reflexivity. Qed.

Lemma all_suf n :
  (forall c op p, pse ns n c op = rret p -> psuf (snd p) c) /\
  (forall c p, read_simple ns n c = rret p -> psuf (snd p) c) /\
  (forall l op c p, nfix ns n l op c = rret p -> psuf (snd p) c) /\
  (forall acc op c p, nfix_loop ns n acc op c = rret p -> suf (snd p) c) /\
  (forall l c op p, infix ns n l c op = rret p -> suf (snd p) c /\ (op <> oNOP -> psuf (snd p) c)).
Proof.
  induction n as [|n (IHp & IHs & IHn & IHl & IHi)]; [repeat split; discriminate|].
  split; [|split; [|split; [|split]]].
  - intros c op p H. destruct c as [|s r]; [discriminate|]. destruct (is_ws s) eqn:W.
    + change (pse ns (S n) (s :: r) op) with (if is_ws s then pse ns n r op else rbind (read_simple ns n (s :: r)) (fun p => match snd p with [] => rret p | c1 => let (o, c2) := peek_op c1 in if op <? o then infix ns n (fst p) c2 o else rret p end)) in H.
      rewrite W in H. apply IHp in H. apply psuf_suf in H. now apply psuf_cons.
    + rewrite pse_S in H by exact W. apply rbind_inv in H. destruct H as (a & E & H). apply IHs in E. destruct (snd a) as [|y c1] eqn:Ea; [branches H; subst p; now rewrite Ea|].
      pose proof (peek_suf (y :: c1)) as PS. destruct (peek_op (y :: c1)) as [o c2]. cbn [snd] in PS. destruct (op <? o).
      * apply IHi in H. destruct H as [H _]. eapply psuf_r; [|exact E]. eapply suf_trans; eauto.
      * branches H. subst p. now rewrite Ea.
  - intros c p H. destruct c as [|s r]; [discriminate|]. destruct s as [t|nm ct|ct|o1 l1 l2|t1 l1 b1]; try discriminate.
    + rewrite read_simple_tok in H. destruct (t_type t) eqn:Ty; try discriminate.
      * branches H. subst p. cbn [snd]. apply psuf_cons. eapply qname_psuf; [|exact E]. cbn [is_tok]. now rewrite Ty.
      * branches H. subst p. apply psuf_cons, suf_refl.
      * destruct (str_eqb (t_data t) (of_string ".")).
        { branches H. subst p. cbn [snd]. apply psuf_cons, suf_cons, suf_refl. }
        destruct (str_eqb (t_data t) (of_string "*")) eqn:St; [|branches H; subst p; apply psuf_cons, suf_refl].
        branches H. subst p. cbn [snd]. apply psuf_cons. eapply qname_psuf; [|exact E].
        apply str_eqb_spec in St. destruct t as [ty d]. cbn [t_type t_data] in *. subst. reflexivity.
      * assert (IT : forall c p, item n c = rret p -> suf (snd p) c).
        { unfold item. intros c p0 G. branches G; subst p0; apply suf_cons, suf_refl. }
        destruct r as [|s' r']; [discriminate|]. destruct (is_tok COLON s').
        { apply IT in H. apply psuf_cons. now apply suf_cons. }
        { apply IT in H. now apply psuf_cons. }
    + change (rbind (parse_attr ct ns) (fun s => rret (s, r)) = rret p) in H. branches H. subst p. apply psuf_cons, suf_refl.
  - intros l op c p H. rewrite nfix_S in H. apply rbind_inv in H. destruct H as (a & E & H). apply IHp in E. apply IHl in H. eapply psuf_r; eauto.
  - intros acc op c p H. destruct c as [|s c]; [cbn in H; branches H; subst p; apply suf_nil|].
    rewrite nfix_loop_cons in H. pose proof (peek_suf (s :: c)) as PS. destruct (peek_op (s :: c)) as [o c']. cbn [snd] in PS.
    destruct (match acc with x :: l => (x, l) | [] => (EmptySel, []) end) as [last front].
    destruct (o =? oNOP); [branches H; now subst p|]. destruct (o =? op).
    { branches H. apply IHp in E. apply IHl in H. apply psuf_suf in E. eauto using suf_trans. }
    destruct (o <? op); [branches H; subst p; apply suf_refl|]. destruct (_ || _).
    { branches H. apply IHn in E. apply IHl in H. apply psuf_suf in E. eauto using suf_trans. }
    branches H. apply IHi in E. apply IHl in H. destruct E as [E _]. pose proof (drop_suf (snd a)). eauto 6 using suf_trans.
  - intros l c op p H. rewrite infix_S in H. pose proof (peek_suf c) as PS. destruct (op =? oNOP) eqn:Eo.
    + apply Nat.eqb_eq in Eo. split; [|congruence]. destruct (peek_op c) as [o c']. cbn [snd] in PS. destruct (o =? oNOP); [branches H; now subst p|].
      destruct (_ || _); [apply IHn, psuf_suf in H; eauto using suf_trans|]. branches H. subst p. cbn [snd]. apply IHp, psuf_suf in E. eauto using suf_trans.
    + rewrite Eo in H. assert (P : psuf (snd p) c); [|split; [now apply psuf_suf|auto]].
      destruct (_ || _); [now apply IHn in H|]. branches H. subst p. now apply IHp in E.
Qed.

(** ** Enough fuel *)

Definition fuelless {A} (x : outcome A) : Prop := x <> OutOfFuel.
Lemma fuel_bind {A B} (x : res A) (f : A -> res B) : fuelless x -> (forall a, x = rret a -> fuelless (f a)) -> fuelless (rbind x f).
Proof. unfold fuelless. destruct x as [[a|]| |]; cbn; intros H G; try discriminate; auto. Qed.
Lemma fuel_ret {A} (a : A) : fuelless (rret a). Proof. discriminate. Qed.
Lemma fuel_err {A} : fuelless (@rerr A). Proof. discriminate. Qed.
Lemma fuel_panic {A} : fuelless (@Panic A). Proof. discriminate. Qed.
Ltac noloop := repeat first
  [ apply fuel_ret | apply fuel_err | apply fuel_panic
  | apply fuel_bind; [|intros ? _]
  | match goal with |- fuelless (match ?x with _ => _ end) => destruct x end ].
Lemma fuel_integer c : fuelless (read_integer c). Proof. unfold read_integer. noloop. Qed.
Lemma fuel_after_n c : fuelless (after_n c).
Proof. unfold after_n. cbv zeta. noloop; apply fuel_integer. Qed.
Lemma fuel_after_dash c : fuelless (after_n_dash c).
Proof. unfold after_n_dash. noloop; apply fuel_integer. Qed.
Lemma fuel_ident s r b : fuelless (anb_ident s r b).
Proof. unfold anb_ident, read_atoi. cbv zeta. noloop; first [apply fuel_after_n|apply fuel_after_dash]. Qed.
Lemma fuel_dim s r b : fuelless (anb_dimension s r b).
Proof. unfold anb_dimension, read_atoi. cbv zeta. noloop; first [apply fuel_after_n|apply fuel_after_dash]. Qed.
Lemma fuel_anb c : fuelless (parse_anb c).
Proof. unfold parse_anb. cbv zeta. noloop; first [apply fuel_integer|apply fuel_ident|apply fuel_dim]. Qed.
Lemma fuel_qname c d : fuelless (parse_qname c ns d).
Proof. unfold parse_qname. cbv zeta. noloop. Qed.
Lemma fuel_attr c : fuelless (parse_attr c ns).
Proof. unfold parse_attr. cbv zeta. destruct (eat_wss c) as [|s r]; [apply fuel_err|]. apply fuel_bind; [apply fuel_qname|]. intros a _. noloop. Qed.

Fixpoint weight (s : sst) : nat :=
  let sum := fix sum l := match l with [] => 0 | x :: l => weight x + sum l end in
  match s with TOK _ => 1 | FUNC _ l | BLOCK l => 1 + sum l | RULE _ _ l => 1 | DECL _ l _ => 1 end.
Fixpoint size (l : list sst) : nat := match l with [] => 0 | x :: l => weight x + size l end.
Lemma weight_func nm l : weight (FUNC nm l) = S (size l).
Proof. cbn. f_equal. Qed.
Lemma weight_pos s : 1 <= weight s. Proof. destruct s; cbn; lia. Qed.
Lemma size_app a b : size (a ++ b) = size a + size b.
Proof. induction a; cbn; lia. Qed.
Lemma suf_size r c : suf r c -> size r <= size c.
Proof. intros (p & ->). rewrite size_app. lia. Qed.
Lemma psuf_size r c : psuf r c -> size r < size c.
Proof. intros (x & p & ->). cbn. rewrite size_app. pose proof (weight_pos x). lia. Qed.
Lemma suf_length r c : suf r c -> List.length r <> List.length c -> size r < size c.
Proof. intros (p & ->) H. destruct p as [|x p]; [cbn in H; congruence|]. cbn. rewrite size_app. pose proof (weight_pos x). lia. Qed.

Lemma all_fuel n :
  (forall c op, 8 * size c + 2 <= n -> fuelless (pse ns n c op)) /\
  (forall c, 8 * size c + 1 <= n -> fuelless (read_simple ns n c)) /\
  (forall l op c, 8 * size c + 3 <= n -> fuelless (nfix ns n l op c)) /\
  (forall acc op c, 8 * size c + 5 <= n -> fuelless (nfix_loop ns n acc op c)) /\
  (forall l c op, 8 * size c + 4 <= n -> fuelless (infix ns n l c op)) /\
  (forall c, 8 * size c + 6 <= n -> fuelless (parse ns n c)) /\
  (forall l c, 8 * size c + 5 <= n -> fuelless (parse_loop ns n l c)) /\
  (forall nm c, 8 * size c + 7 <= n -> fuelless (pc_function ns n nm c)).
Proof.
  induction n as [|n (IHp & IHs & IHn & IHl & IHi & IHx & IHm & IHf)]; [repeat split; intros; lia|].
  pose proof (all_suf n) as (Sp & Ss & Sn & Sl & Si).
  split; [|split; [|split; [|split; [|split; [|split; [|split]]]]]].
  - intros c op L. destruct c as [|s r]; [apply fuel_err|]. destruct (is_ws s) eqn:W.
    + change (pse ns (S n) (s :: r) op) with (if is_ws s then pse ns n r op else rbind (read_simple ns n (s :: r)) (fun p => match snd p with [] => rret p | c1 => let (o, c2) := peek_op c1 in if op <? o then infix ns n (fst p) c2 o else rret p end)).
      rewrite W. apply IHp. cbn [size] in L. pose proof (weight_pos s). lia.
    + rewrite pse_S by exact W. apply fuel_bind; [apply IHs; lia|]. intros a E. apply Ss, psuf_size in E. destruct (snd a) as [|y c1]; [apply fuel_ret|].
      pose proof (suf_size _ _ (peek_suf (y :: c1))) as PS. destruct (peek_op (y :: c1)) as [o c2]. cbn [snd] in PS. destruct (op <? o); [|apply fuel_ret]. apply IHi. lia.
  - intros c L. destruct c as [|s r]; [apply fuel_err|]. cbn [size] in L. destruct s as [t|nm ct|ct|o1 l1 l2|t1 l1 b1]; try apply fuel_err.
    + rewrite read_simple_tok. destruct (t_type t); try apply fuel_err; try apply fuel_ret; try (apply fuel_bind; [apply fuel_qname|intros; apply fuel_ret]).
      * destruct (str_eqb (t_data t) (of_string ".")); [destruct r; [apply fuel_panic|apply fuel_ret]|].
        destruct (str_eqb (t_data t) (of_string "*")); [|apply fuel_ret]. apply fuel_bind; [apply fuel_qname|intros; apply fuel_ret].
      * assert (IT : forall c, size c <= size r -> fuelless (item n c)).
        { unfold item. intros c Lc. destruct c as [|[t'|nm ct| | |] r']; try apply fuel_ret; try apply fuel_err. cbn [size] in Lc. rewrite weight_func in Lc.
          destruct (token_eqb _ _); (apply fuel_bind; [|intros; apply fuel_ret]); [apply IHx|apply IHf]; cbn [weight] in L; lia. }
        destruct r as [|s' r']; [apply fuel_panic|]. destruct (is_tok COLON s'); apply IT; cbn [size]; pose proof (weight_pos s'); lia.
    + change (fuelless (rbind (parse_attr ct ns) (fun s => rret (s, r)))). apply fuel_bind; [apply fuel_attr|intros; apply fuel_ret].
  - intros l op c L. rewrite nfix_S. apply fuel_bind; [apply IHp; lia|]. intros a E. apply Sp, psuf_size in E. apply IHl. lia.
  - intros acc op c L. destruct c as [|s c]; [apply fuel_ret|]. rewrite nfix_loop_cons.
    pose proof (suf_size _ _ (peek_suf (s :: c))) as PS. destruct (peek_op (s :: c)) as [o c']. cbn [snd] in PS.
    destruct (match acc with x :: l => (x, l) | [] => (EmptySel, []) end) as [last front].
    destruct (o =? oNOP) eqn:E0; [apply fuel_ret|]. destruct (o =? op).
    { apply fuel_bind; [apply IHp; lia|]. intros a E. apply Sp, psuf_size in E. apply IHl. lia. }
    destruct (o <? op); [apply fuel_ret|]. destruct (_ || _).
    { apply fuel_bind; [apply IHn; lia|]. intros a E. apply Sn, psuf_size in E. apply IHl. lia. }
    apply fuel_bind; [apply IHi; lia|]. intros a E. apply Si in E. destruct E as [_ E]. apply Nat.eqb_neq in E0. specialize (E E0). apply psuf_size in E.
    apply IHl. pose proof (suf_size _ _ (drop_suf (snd a))). lia.
  - intros l c op L. rewrite infix_S. pose proof (suf_size _ _ (peek_suf c)) as PS.
    assert (G : forall o c', size c' <= size c -> fuelless (if o =? oNOP then rret (l, c') else if (o =? oOR) || (o =? oAND) then nfix ns n l o c' else rbind (pse ns n c' o) (fun p => rret (Infix (infix_of o) l (fst p), snd p)))).
    { intros o c' Lc. destruct (o =? oNOP); [apply fuel_ret|]. destruct (_ || _); [apply IHn; lia|]. apply fuel_bind; [apply IHp; lia|intros; apply fuel_ret]. }
    destruct (op =? oNOP); [destruct (peek_op c) as [o c']; cbn [snd] in PS; now apply G|now apply G].
  - intros c L. destruct c as [|s c]; [apply fuel_err|]. rewrite parse_S by discriminate. apply fuel_bind; [apply IHp; lia|].
    intros a E. apply Sp, psuf_size in E. apply IHm. lia.
  - intros l c L. destruct c as [|s c]; [apply fuel_ret|]. rewrite parse_loop_S by discriminate. apply fuel_bind; [apply IHi; lia|].
    intros a E. apply Si in E. destruct E as [E _]. destruct (match snd a with [] => false | _ => _ end) eqn:T; [apply fuel_err|].
    apply IHm. enough (size (snd a) < size (s :: c)) by lia. destruct (snd a) as [|y r]; [cbn; pose proof (weight_pos s); lia|].
    apply Nat.eqb_neq in T. now apply suf_length.
  - intros nm c L. rewrite pc_function_S. cbv zeta. apply fuel_bind; [apply fuel_anb|]. intros a E. apply anb_suf in E.
    pose proof (suf_size _ _ (eat_suf (snd a))) as S1. apply suf_size in E. destruct (eat_wss (snd a)) as [|s r]; [apply fuel_ret|].
    destruct (_ || _); [apply fuel_err|]. destruct (skip_tok _ (s :: r)) as [c'|] eqn:Sk; [|apply fuel_err].
    apply skip_suf, psuf_size in Sk. apply fuel_bind; [apply IHx; lia|intros; apply fuel_ret].
Qed.
End Total.

Theorem parse_ends ns c n : 8 * size c + 6 <= n -> parse ns n c <> OutOfFuel.
Proof. intros L. pose proof (all_fuel ns n) as (_ & _ & _ & _ & _ & H & _). now apply H. Qed.

(** ** When reading does not crash *)

(** Tokens as the lexer makes them: with text, and an identifier that is not only digits. *)
Definition lexed (t : token) : Prop := t_data t <> [] /\ (t_type t = IDENT -> fst (split_digits (t_data t)) <> []).
(** Something must follow ".", "|", "=" and ":". *)
Definition needs_more (t : token) : bool :=
  ttype_beq (t_type t) COLON || token_eqb t (delim ".") || token_eqb t (delim "|") || token_eqb t (delim "=").
Definition is_of (s : sst) : bool := is_tok IDENT s && str_eqb (tok_data s) (of_string "of").
(** In An+B (before "of"), what follows a sign is a token. *)
Definition sign_tok (s : sst) : bool := is_tok DELIM s && (str_eqb (tok_data s) [plus] || str_eqb (tok_data s) [minus]).
Fixpoint sign_safe (c : list sst) : Prop :=
  match c with
  | [] => True
  | s :: r => is_of s = true \/ ((sign_tok s = true -> match eat_wss r with s' :: _ => tok_data s' <> [] | [] => True end) /\ sign_safe r)
  end.
Definition is_not (nm : token) : bool := token_eqb nm (mkT FUNCTION (of_string "not(")).
Inductive safe : list sst -> Prop :=
| safe_nil : safe []
| safe_tok t c : safe c -> lexed t -> (needs_more t = true -> eat_wss c <> []) -> safe (TOK t :: c)
| safe_func nm l c : safe c -> safe l -> (is_not nm = false -> eat_wss l <> [] /\ sign_safe l) -> safe (FUNC nm l :: c)
| safe_block l c : safe c -> safe l -> safe (BLOCK l :: c)
| safe_rule a b l c : safe c -> safe (RULE a b l :: c)
| safe_decl a l b c : safe c -> safe (DECL a l b :: c).

Lemma safe_tail s c : safe (s :: c) -> safe c.
Proof. now inversion 1. Qed.
Lemma safe_suf r c : suf r c -> safe c -> safe r.
Proof. intros (p & ->). induction p as [|s p IH]; [auto|]. intros H. apply IH. now apply safe_tail in H. Qed.
Lemma sign_safe_eat c : sign_safe c -> sign_safe (eat_wss c).
Proof.
  induction c as [|[t| | | |] c IH]; cbn [eat_wss]; auto. intros H. destruct (ttype_beq (t_type t) WHITESPACE) eqn:E; [|exact H].
  apply IH. destruct H as [H|[_ H]]; [|exact H]. unfold is_of in H. cbn [is_tok] in H. apply internal_ttype_dec_bl in E. rewrite E in H. discriminate.
Qed.
Lemma safe_first s c : safe (s :: c) -> is_tok NUMBER s = true \/ is_tok IDENT s = true \/ is_tok DELIM s = true -> first_rune s <> None.
Proof.
  intros H. destruct s as [t| | | |]; cbn [is_tok]; intros G; try (intuition discriminate). inversion H; subst. destruct H3 as [D _].
  unfold first_rune. cbn [tok_data]. destruct (t_data t); [congruence|discriminate].
Qed.

Definition calm {A} (x : outcome A) : Prop := x <> Panic.
Lemma calm_bind {A B} (x : res A) (f : A -> res B) : calm x -> (forall a, x = rret a -> calm (f a)) -> calm (rbind x f).
Proof. unfold calm. destruct x as [[a|]| |]; cbn; intros H G; try discriminate; auto. Qed.
Lemma calm_ret {A} (a : A) : calm (rret a). Proof. discriminate. Qed.
Lemma calm_err {A} : calm (@rerr A). Proof. discriminate. Qed.
Lemma calm_integer c : calm (read_integer c).
Proof. unfold read_integer. destruct (parse_integer c) as [[|] ?]; discriminate. Qed.

Lemma calm_after_n c : safe c -> sign_safe c -> calm (after_n c).
Proof.
  intros S1 S2. unfold after_n. pose proof (safe_suf _ _ (eat_suf c) S1) as S3. apply sign_safe_eat in S2.
  destruct (eat_wss c) as [|s r]; [apply calm_ret|]. destruct (is_tok NUMBER s) eqn:N.
  - pose proof (safe_first s r S3 (or_introl N)) as F. destruct (first_rune s) as [ch|]; [|congruence]. destruct (is_sign ch); [apply calm_integer|apply calm_err].
  - destruct (is_tok DELIM s) eqn:D; [|apply calm_err]. destruct (negb (str_eqb (tok_data s) [plus]) && negb (str_eqb (tok_data s) [minus])) eqn:P; [apply calm_err|]. cbv zeta.
    assert (Sg : sign_tok s = true).
    { unfold sign_tok. rewrite D. destruct (str_eqb (tok_data s) [plus]); [reflexivity|]. destruct (str_eqb (tok_data s) [minus]); [reflexivity|discriminate]. }
    cbn [sign_safe] in S2. destruct S2 as [S2|[S2 _]].
    { unfold is_of in S2. destruct s as [t| | | |]; try discriminate. cbn [is_tok] in *. apply andb_true_iff in S2. destruct S2 as [S2 _].
      apply internal_ttype_dec_bl in D, S2. congruence. }
    specialize (S2 Sg). destruct (eat_wss r) as [|s' r']; [apply calm_err|]. unfold first_rune. destruct (tok_data s') as [|ch d]; [congruence|]. cbn [hd_error].
    destruct (is_sign ch); [apply calm_err|]. apply calm_bind; [apply calm_integer|intros; apply calm_ret].
Qed.
Lemma calm_after_dash c : safe c -> calm (after_n_dash c).
Proof.
  intros S1. unfold after_n_dash. pose proof (safe_suf _ _ (eat_suf c) S1) as S3. destruct (eat_wss c) as [|s r]; [apply calm_err|].
  destruct (is_tok NUMBER s) eqn:N; [|apply calm_err].
  pose proof (safe_first s r S3 (or_introl N)) as F. destruct (first_rune s) as [ch|]; [|congruence]. destruct (Number.is_digit ch); [apply calm_integer|apply calm_err].
Qed.
Lemma read_atoi_calm s : calm (read_atoi s).
Proof. unfold read_atoi. destruct (atoi s) as [[? ?]|]; discriminate. Qed.
Lemma calm_ident s r pre : safe (s :: r) -> is_tok IDENT s = true -> sign_safe (s :: r) -> calm (anb_ident s r pre).
Proof.
  intros S1 I SS. unfold anb_ident. destruct s as [t| | | |]; try discriminate. cbn [is_tok] in I. apply internal_ttype_dec_bl in I.
  inversion S1; subst. destruct H2 as [D1 D2]. specialize (D2 I). cbn [tok_data].
  assert (Sr : str_eqb (t_data t) (of_string "of") = false -> sign_safe r).
  { intros Q. destruct SS as [SS|[_ SS]]; [|exact SS]. unfold is_of in SS. cbn [tok_data] in SS. rewrite Q, andb_false_r in SS. discriminate. }
  destruct (split_digits (t_data t)) as [np ds]. cbn [fst] in D2. cbv zeta. destruct (t_data t) as [|c0 d] eqn:Et; [congruence|]. rewrite <- Et in *.
  destruct (_ && _); [apply calm_err|]. destruct ds as [|d0 ds].
  - assert (E : safe (eat_wss r)) by (eapply safe_suf; [apply eat_suf|exact H1]).
    assert (An : forall x, str_eqb (t_data t) x = true -> str_eqb x (of_string "of") = false -> calm (after_n (eat_wss r))).
    { intros x Q Q2. apply str_eqb_spec in Q. subst x. apply calm_after_n; [exact E|]. apply sign_safe_eat. auto. }
    repeat match goal with |- context [if str_eqb ?a ?b then _ else _] => destruct (str_eqb a b) eqn:?Q end; try apply calm_err.
    + apply calm_bind; [eapply An; eauto|intros; apply calm_ret].
    + apply calm_bind; [eapply An; eauto|intros; apply calm_ret].
    + apply calm_bind; [now apply calm_after_dash|intros; apply calm_ret].
    + apply calm_bind; [now apply calm_after_dash|intros; apply calm_ret].
  - unfold split_last. destruct (rev np) as [|y ys] eqn:Rv.
    { exfalso. apply D2. rewrite <- (rev_involutive np), Rv. reflexivity. }
    destruct (if (y =? minus)%N then (rev ys, y :: d0 :: ds) else (np, d0 :: ds)) as [n2 d2].
    apply calm_bind; [apply read_atoi_calm|]. intros b _. repeat match goal with |- context [if ?x then _ else _] => destruct x end; discriminate.
Qed.
Lemma calm_dim s r pre : safe (s :: r) -> is_tok DIMENSION s = true -> sign_safe (s :: r) -> calm (anb_dimension s r pre).
Proof.
  intros S1 I SS. unfold anb_dimension. destruct (atoi (tok_data s)) as [[a u]|]; [|apply calm_err]. destruct (_ && _); [apply calm_err|].
  destruct (split_digits u) as [nu ds]. cbv zeta. destruct (_ && _); [apply calm_err|].
  assert (E : safe (eat_wss r)) by (eapply safe_suf; [apply eat_suf|now apply safe_tail in S1]).
  assert (Sr : sign_safe (eat_wss r)).
  { apply sign_safe_eat. destruct SS as [SS|[_ SS]]; [|exact SS]. unfold is_of in SS. destruct s; try discriminate. cbn [is_tok] in *.
    apply andb_true_iff in SS. destruct SS as [SS _]. apply internal_ttype_dec_bl in SS, I. congruence. }
  destruct ds as [|d0 ds].
  - destruct (str_eqb nu (of_string "n")); (apply calm_bind; [|intros; apply calm_ret]); [now apply calm_after_n|now apply calm_after_dash].
  - apply calm_bind; [apply read_atoi_calm|intros; apply calm_ret].
Qed.
Lemma calm_anb c : safe c -> eat_wss c <> [] -> sign_safe c -> calm (parse_anb c).
Proof.
  intros S1 Ne SS. unfold parse_anb. assert (S3 : safe (eat_wss c)) by (eapply safe_suf; [apply eat_suf|exact S1]). apply sign_safe_eat in SS.
  destruct (eat_wss c) as [|s r]; [congruence|]. destruct (_ && _); [apply calm_ret|]. destruct (is_tok NUMBER s); [apply calm_bind; [apply calm_integer|intros; apply calm_ret]|].
  cbv zeta.
  assert (G : forall s r pre, safe (s :: r) -> sign_safe (s :: r) -> calm (if is_tok IDENT s then anb_ident s r pre else if is_tok DIMENSION s then anb_dimension s r pre else rerr)).
  { intros s0 r0 pre H1 H2. destruct (is_tok IDENT s0) eqn:I1; [now apply calm_ident|]. destruct (is_tok DIMENSION s0) eqn:I2; [now apply calm_dim|apply calm_err]. }
  destruct (is_tok DELIM s && str_eqb (tok_data s) [plus]) eqn:P; [|now apply G].
  destruct r as [|s' r']; [apply calm_err|]. destruct (is_ws s'); [apply calm_err|]. apply G; [now apply safe_tail in S3|].
  destruct SS as [SS|[_ SS]]; [|exact SS]. unfold is_of in SS. apply andb_true_iff in SS, P. destruct SS as [SS _], P as [P _].
  destruct s; try discriminate. cbn [is_tok] in *. apply internal_ttype_dec_bl in SS, P. congruence.
Qed.

Lemma skip_more x c r : x = "|"%string \/ x = "="%string -> skip_tok (delim x) c = Some r -> safe c -> safe r /\ eat_wss r <> [].
Proof.
  unfold skip_tok. destruct c as [|[t| | | |] c]; try discriminate. destruct (token_eqb t (delim x)) eqn:E; [|discriminate]. intros X [= <-] S1.
  inversion S1; subst. split; [assumption|]. apply H3. unfold needs_more. destruct X as [-> | ->]; rewrite E; now rewrite ?orb_true_r.
Qed.
Lemma eat_nonempty c : eat_wss c <> [] -> c <> []. Proof. now intros H ->. Qed.

Lemma calm_qname c ns d : safe c -> calm (parse_qname c ns d).
Proof.
  intros S1. unfold parse_qname. destruct c as [|s r]; [apply calm_err|].
  match goal with |- calm (let (p, c1) := ?X in _) => assert (S2 : suf (snd X) (s :: r)) end.
  { destruct (is_tok IDENT s); [apply suf_cons, suf_refl|]. destruct (skip_tok (delim "*") (s :: r)) eqn:E; [|apply suf_refl]. apply skip_suf in E. now apply psuf_suf. }
  match goal with |- calm (let (p, c1) := ?X in _) => destruct X as [p c1] end. cbn [snd] in S2. pose proof (safe_suf _ _ S2 S1) as S3.
  destruct (skip_tok (delim "|") c1) as [c2|] eqn:E; [|apply calm_ret]. destruct (skip_more _ _ _ (or_introl eq_refl) E S3) as [_ Ne]. apply eat_nonempty in Ne.
  destruct c2 as [|s2 r2]; [congruence|]. repeat match goal with |- calm (match ?x with _ => _ end) => destruct x end; discriminate.
Qed.
Lemma calm_attr c ns : safe c -> calm (parse_attr c ns).
Proof.
  intros S1. unfold parse_attr. pose proof (safe_suf _ _ (eat_suf c) S1) as S2. destruct (eat_wss c) as [|s0 r0]; [apply calm_err|].
  apply calm_bind; [now apply calm_qname|]. intros p E. apply qname_suf in E. cbv zeta.
  pose proof (safe_suf _ _ E S2) as S3. pose proof (safe_suf _ _ (eat_suf (snd p)) S3) as S4. destruct (eat_wss (snd p)) as [|s r]; [apply calm_ret|].
  apply calm_bind.
  - destruct (skip_tok (delim "=") (s :: r)); [apply calm_ret|]. repeat match goal with |- calm (match ?x with _ => _ end) => destruct x end; discriminate.
  - intros o H. assert (Ne : eat_wss (snd o) <> []).
    { destruct (skip_tok (delim "=") (s :: r)) as [r'|] eqn:E1.
      - apply rret_inj in H. subst o. eapply (skip_more "=" (s :: r)); eauto.
      - destruct (is_tok DELIM s); [|discriminate]. destruct (skip_tok (delim "=") r) as [r'|] eqn:E2; [|discriminate]. destruct (attr_op (tok_data s)); [|discriminate].
        apply rret_inj in H. subst o. eapply (skip_more "=" r); eauto. now apply safe_tail in S4. }
    destruct (eat_wss (snd o)) as [|v r2]; [congruence|].
    repeat match goal with |- calm (match ?x with _ => _ end) => destruct x end; cbv zeta; repeat match goal with |- calm (match ?x with _ => _ end) => destruct x end; discriminate.
Qed.

Section Calm.
Variable ns : namespaces.
Lemma all_calm n :
  (forall c op, safe c -> calm (pse ns n c op)) /\
  (forall c, safe c -> calm (read_simple ns n c)) /\
  (forall l op c, safe c -> calm (nfix ns n l op c)) /\
  (forall acc op c, safe c -> calm (nfix_loop ns n acc op c)) /\
  (forall l c op, safe c -> calm (infix ns n l c op)) /\
  (forall c, safe c -> calm (parse ns n c)) /\
  (forall l c, safe c -> calm (parse_loop ns n l c)) /\
  (forall nm c, safe c -> eat_wss c <> [] -> sign_safe c -> calm (pc_function ns n nm c)).
Proof.
  induction n as [|n (IHp & IHs & IHn & IHl & IHi & IHx & IHm & IHf)]; [repeat split; intros; discriminate|].
  pose proof (all_suf ns n) as (Sp & Ss & Sn & Sl & Si).
  split; [|split; [|split; [|split; [|split; [|split; [|split]]]]]].
  - intros c op S1. destruct c as [|s r]; [apply calm_err|]. destruct (is_ws s) eqn:W.
    + change (pse ns (S n) (s :: r) op) with (if is_ws s then pse ns n r op else rbind (read_simple ns n (s :: r)) (fun p => match snd p with [] => rret p | c1 => let (o, c2) := peek_op c1 in if op <? o then infix ns n (fst p) c2 o else rret p end)).
      rewrite W. apply IHp. now apply safe_tail in S1.
    + rewrite pse_S by exact W. apply calm_bind; [now apply IHs|]. intros a E. apply Ss, psuf_suf in E. pose proof (safe_suf _ _ E S1) as S2. destruct (snd a) as [|y c1]; [apply calm_ret|].
      pose proof (safe_suf _ _ (peek_suf (y :: c1)) S2) as PS. destruct (peek_op (y :: c1)) as [o c2]. cbn [snd] in PS. destruct (op <? o); [|apply calm_ret]. now apply IHi.
  - intros c S1. destruct c as [|s r]; [apply calm_err|]. destruct s as [t|nm ct|ct|o1 l1 l2|t1 l1 b1]; try apply calm_err.
    + rewrite read_simple_tok. inversion S1; subst. destruct (t_type t) eqn:Ty; try apply calm_err; try apply calm_ret; try (apply calm_bind; [now apply calm_qname|intros; apply calm_ret]).
      * destruct (str_eqb (t_data t) (of_string ".")) eqn:Dt.
        { destruct r; [|apply calm_ret]. exfalso. apply str_eqb_spec in Dt. destruct t as [ty d]. cbn [t_type t_data] in *. subst. now apply H3. }
        destruct (str_eqb (t_data t) (of_string "*")); [|apply calm_ret]. apply calm_bind; [now apply calm_qname|intros; apply calm_ret].
      * assert (IT : forall c, safe c -> calm (item ns n c)).
        { unfold item. intros c Sc. destruct c as [|[t'|nm ct| | |] r']; try apply calm_ret; try apply calm_err. inversion Sc as [| |? ? ? C1 C2 C3| | |]; subst.
          destruct (token_eqb nm (mkT FUNCTION (of_string "not("))) eqn:Nt; (apply calm_bind; [|intros; apply calm_ret]); [now apply IHx|]. specialize (C3 Nt). apply IHf; tauto. }
        destruct r as [|s' r']; [|destruct (is_tok COLON s'); apply IT; [now apply safe_tail in H1|exact H1]].
        exfalso. apply H3; [|reflexivity]. unfold needs_more. now rewrite Ty.
    + change (calm (rbind (parse_attr ct ns) (fun s => rret (s, r)))). inversion S1; subst. apply calm_bind; [now apply calm_attr|intros; apply calm_ret].
  - intros l op c L. rewrite nfix_S. apply calm_bind; [now apply IHp|]. intros a E. apply Sp, psuf_suf in E. apply IHl. eapply safe_suf; eauto.
  - intros acc op c L. destruct c as [|s c]; [apply calm_ret|]. rewrite nfix_loop_cons.
    pose proof (safe_suf _ _ (peek_suf (s :: c)) L) as PS. destruct (peek_op (s :: c)) as [o c']. cbn [snd] in PS.
    destruct (match acc with x :: l => (x, l) | [] => (EmptySel, []) end) as [last front].
    destruct (o =? oNOP) eqn:E0; [apply calm_ret|]. destruct (o =? op).
    { apply calm_bind; [now apply IHp|]. intros a E. apply Sp, psuf_suf in E. apply IHl. eapply safe_suf; eauto. }
    destruct (o <? op); [apply calm_ret|]. destruct (_ || _).
    { apply calm_bind; [now apply IHn|]. intros a E. apply Sn, psuf_suf in E. apply IHl. eapply safe_suf; eauto. }
    apply calm_bind; [now apply IHi|]. intros a E. apply Si in E. destruct E as [E _]. apply IHl.
    eapply safe_suf; [apply drop_suf|]. eapply safe_suf; eauto.
  - intros l c op L. rewrite infix_S. pose proof (safe_suf _ _ (peek_suf c) L) as PS.
    assert (G : forall o c', safe c' -> calm (if o =? oNOP then rret (l, c') else if (o =? oOR) || (o =? oAND) then nfix ns n l o c' else rbind (pse ns n c' o) (fun p => rret (Infix (infix_of o) l (fst p), snd p)))).
    { intros o c' Lc. destruct (o =? oNOP); [apply calm_ret|]. destruct (_ || _); [now apply IHn|]. apply calm_bind; [now apply IHp|intros; apply calm_ret]. }
    destruct (op =? oNOP); [destruct (peek_op c) as [o c']; cbn [snd] in PS; now apply G|now apply G].
  - intros c L. destruct c as [|s c]; [apply calm_err|]. rewrite parse_S by discriminate. apply calm_bind; [now apply IHp|].
    intros a E. apply Sp, psuf_suf in E. apply IHm. eapply safe_suf; eauto.
  - intros l c L. destruct c as [|s c]; [apply calm_ret|]. rewrite parse_loop_S by discriminate. apply calm_bind; [now apply IHi|].
    intros a E. apply Si in E. destruct E as [E _]. destruct (match snd a with [] => false | _ => _ end); [apply calm_err|]. apply IHm. eapply safe_suf; eauto.
  - intros nm c L Ne SS. rewrite pc_function_S. cbv zeta. apply calm_bind; [now apply calm_anb|]. intros a E. apply anb_suf in E.
    assert (S1 : safe (eat_wss (snd a))) by (eapply safe_suf; [apply eat_suf|]; eapply safe_suf; eauto). destruct (eat_wss (snd a)) as [|s r]; [apply calm_ret|].
    destruct (_ || _); [apply calm_err|]. destruct (skip_tok _ (s :: r)) as [c'|] eqn:Sk; [|apply calm_err].
    apply skip_suf, psuf_suf in Sk. apply calm_bind; [apply IHx; eapply safe_suf; eauto|intros; apply calm_ret].
Qed.
End Calm.

Theorem parse_calm ns n c : safe c -> parse ns n c <> Panic.
Proof. intros S1. pose proof (all_calm ns n) as (_ & _ & _ & _ & _ & H & _). now apply H. Qed.
