(** Rendering a style sheet and parsing it gives its tree. *)
From Coq Require Import String List NArith Bool Lia Arith.
From Verif.Base Require Import Str.
From Verif.Css Require Import LexerModel ParserModel ParserSpec ParserProofs.
Import ListNotations.
Local Open Scope list_scope.

Section CvInd.
  Variable P : cv -> Prop.
  Hypothesis Htok : forall t, P (CTok t).
  Hypothesis Hfunc : forall t l, Forall P l -> P (CFunc t l).
  Hypothesis Hblock : forall k l, Forall P l -> P (CBlock k l).
  Fixpoint cv_induction (v : cv) : P v :=
    let all := fix all (l : list cv) : Forall P l :=
      match l with [] => Forall_nil P | x :: l' => Forall_cons x (cv_induction x) (all l') end in
    match v with
    | CTok t => Htok t
    | CFunc t l => Hfunc t l (all l)
    | CBlock k l => Hblock k l (all l)
    end.
End CvInd.

Section ItemInd.
  Variable P : item -> Prop.
  Hypothesis Hdecl : forall n w v i, P (IDecl n w v i).
  Hypothesis Hrule : forall p b, Forall P b -> P (IRule p b).
  Hypothesis Hat : forall t p b, Forall P b -> P (IAt t p (Some b)).
  Hypothesis Hats : forall t p, P (IAt t p None).
  Hypothesis Hgap : forall t, P (IGap t).
  Fixpoint item_induction (i : item) : P i :=
    let all := fix all (l : list item) : Forall P l :=
      match l with [] => Forall_nil P | x :: l' => Forall_cons x (item_induction x) (all l') end in
    match i with
    | IDecl n w v i => Hdecl n w v i
    | IRule p b => Hrule p b (all b)
    | IAt t p (Some b) => Hat t p b (all b)
    | IAt t p None => Hats t p
    | IGap t => Hgap t
    end.
End ItemInd.

(** ** First tokens *)

Lemma render_head v r : exists t r', render v ++ r = t :: r' /\
  match v with
  | CTok t' => t = t'
  | CFunc t' _ => t = t'
  | CBlock k _ => t = opening k
  end.
Proof. destruct v; simpl; eauto. Qed.

Lemma plain_type t : plain t = true ->
  t_type t <> LEFT_CURLY_BRACKET /\ t_type t <> RIGHT_CURLY_BRACKET /\
  t_type t <> LEFT_SQUARE_BRACKET /\ t_type t <> RIGHT_SQUARE_BRACKET /\
  t_type t <> LEFT_PARENTHESIS /\ t_type t <> RIGHT_PARENTHESIS /\
  t_type t <> FUNCTION /\ t_type t <> COMMENT /\ t_type t <> END_OF_FILE.
Proof. unfold plain. destruct (t_type t); intros H; try discriminate; repeat split; discriminate. Qed.

(** The first token of a valid component value is not a closing bracket, a comment or EOF. *)
Lemma cv_head v r t r' : cv_ok v = true -> render v ++ r = t :: r' ->
  (forall k, t_type t <> t_type (closing k)) /\ t_type t <> COMMENT /\ t_type t <> END_OF_FILE.
Proof.
  intros Hv H. destruct v as [x|x l|k l]; simpl in *.
  - inv H. pose proof (plain_type _ Hv). split; [|tauto]. intros []; simpl; tauto.
  - inv H. apply andb_true_iff in Hv as [Hv _]. apply ttype_beq_eq in Hv. rewrite Hv.
    split; [|split; discriminate]. intros []; discriminate.
  - inv H. split; [|split; destruct k; discriminate]. destruct k; intros []; discriminate.
Qed.

(** ** Component values *)

Definition closing_type (k : bkind) : ttype := t_type (closing k).

Lemma block_list k : forall l r,
  Forall (fun v => forall r, cv_ok v = true -> exists n, component n (render v ++ r) = Some (tree v, r)) l ->
  forallb cv_ok l = true ->
  exists n, block n (closing_type k) (flat_map render l ++ closing k :: r) = Some (map tree l, r).
Proof.
  induction l as [|v l IH]; intros r Hl Hok.
  - exists 1%nat. simpl. destruct k; reflexivity.
  - simpl in Hok. apply andb_true_iff in Hok as [Hv Hok]. inv Hl.
    destruct (H1 (flat_map render l ++ closing k :: r) Hv) as [n1 Hn1].
    destruct (IH r H2 Hok) as [n2 Hn2].
    exists (S (max n1 n2)). cbn [flat_map]. rewrite <- app_assoc.
    destruct (render_head v (flat_map render l ++ closing k :: r)) as (t & r' & Heq & _).
    destruct (cv_head _ _ _ _ Hv Heq) as (Hc & _).
    cbn [block]. rewrite Heq. rewrite (proj2 (ttype_beq_neq _ _)) by apply Hc. rewrite <- Heq.
    rewrite (component_mono n1 _ _ _ (Nat.le_max_l _ _) Hn1).
    rewrite (block_mono n2 _ _ _ _ (Nat.le_max_r _ _) Hn2). reflexivity.
Qed.

Lemma func_list : forall l r,
  Forall (fun v => forall r, cv_ok v = true -> exists n, component n (render v ++ r) = Some (tree v, r)) l ->
  forallb cv_ok l = true ->
  exists n, func n (flat_map render l ++ closing Paren :: r) = Some (map tree l, r).
Proof.
  induction l as [|v l IH]; intros r Hl Hok.
  - exists 1%nat. reflexivity.
  - simpl in Hok. apply andb_true_iff in Hok as [Hv Hok]. inv Hl.
    destruct (H1 (flat_map render l ++ closing Paren :: r) Hv) as [n1 Hn1].
    destruct (IH r H2 Hok) as [n2 Hn2].
    exists (S (max n1 n2)). cbn [flat_map]. rewrite <- app_assoc.
    destruct (render_head v (flat_map render l ++ closing Paren :: r)) as (t & r' & Heq & _).
    destruct (cv_head _ _ _ _ Hv Heq) as (Hc & Hcom & _). specialize (Hc Paren). simpl in Hc.
    assert (Hgo : match component (max n1 n2) (t :: r') with
             | Some (v, r) => match func (max n1 n2) r with Some (l, r') => Some (v :: l, r') | None => None end
             | None => None end = Some (map tree (v :: l), r)).
    { rewrite <- Heq, (component_mono n1 _ _ _ (Nat.le_max_l _ _) Hn1).
      rewrite (func_mono n2 _ _ _ (Nat.le_max_r _ _) Hn2). reflexivity. }
    cbn [func]. rewrite Heq. destruct (t_type t); try exact Hgo; contradiction.
Qed.

Lemma component_render v : forall r, cv_ok v = true -> exists n, component n (render v ++ r) = Some (tree v, r).
Proof.
  induction v as [t|t l IH|k l IH] using cv_induction; intros r Hv.
  - exists 1%nat. simpl in *. destruct (plain_type t Hv) as (? & ? & ? & ? & ? & ? & ? & ? & ?).
    destruct (t_type t); try reflexivity; contradiction.
  - simpl in Hv. apply andb_true_iff in Hv as [Ht Hl]. apply ttype_beq_eq in Ht.
    destruct (func_list l r IH Hl) as [n Hn]. exists (S n). cbn [render app component].
    rewrite Ht, <- app_assoc. cbn [app]. now rewrite Hn.
  - simpl in Hv. destruct (block_list k l r IH Hv) as [n Hn]. exists (S n).
    cbn [render app component]. rewrite <- app_assoc. cbn [app].
    unfold closing_type in Hn. destruct k; cbn [opening closing t_type] in *; rewrite Hn; reflexivity.
Qed.

(** ** Preludes *)

Lemma prefix_render semi p rest :
  forallb (fun v => prefix_cv_ok v && negb (semi && is_type SEMICOLON v)) p = true ->
  (rest = [] \/ peek_type rest = LEFT_CURLY_BRACKET \/ (semi = true /\ peek_type rest = SEMICOLON)) ->
  exists n, prefix_loop n semi (flat_map render p ++ rest) = Some (map tree p, rest).
Proof.
  intros Hp Hr. induction p as [|v p IH].
  - exists 1%nat. cbn [flat_map app map prefix_loop]. destruct rest as [|t rest]; [reflexivity|].
    destruct Hr as [Hr|[Hr|[-> Hr]]]; [discriminate| |]; unfold peek_type in Hr; cbn in Hr; rewrite Hr; reflexivity.
  - cbn [forallb] in Hp. apply andb_true_iff in Hp as [Hv Hp]. destruct (IH Hp) as [n2 Hn2].
    apply andb_true_iff in Hv as [Hv Hsemi]. unfold prefix_cv_ok in Hv. apply andb_true_iff in Hv as [Hv Hcurly].
    destruct (component_render v (flat_map render p ++ rest) Hv) as [n1 Hn1].
    exists (S (max n1 n2)). cbn [flat_map]. rewrite <- app_assoc.
    destruct (render_head v (flat_map render p ++ rest)) as (t & r' & Heq & Hhd).
    cbn [prefix_loop]. rewrite Heq.
    assert (ttype_beq (t_type t) LEFT_CURLY_BRACKET || semi && ttype_beq (t_type t) SEMICOLON = false) as ->.
    { destruct v as [x|x l|k l]; subst t.
      - simpl in Hv, Hsemi. destruct (plain_type _ Hv) as (H1 & _).
        rewrite (proj2 (ttype_beq_neq _ _) H1). simpl. now apply negb_true_iff in Hsemi.
      - simpl in Hv. apply andb_true_iff in Hv as [Hv _]. apply ttype_beq_eq in Hv. rewrite Hv.
        simpl. apply andb_false_r.
      - destruct k; [discriminate| |]; simpl; apply andb_false_r. }
    rewrite <- Heq, (component_mono n1 _ _ _ (Nat.le_max_l _ _) Hn1).
    rewrite (prefix_mono _ n2 _ _ _ (Nat.le_max_r _ _) Hn2). reflexivity.
Qed.

(** ** Values *)

Lemma eat_ws_all l r : all_ws l = true -> eat_ws (l ++ r) = eat_ws r.
Proof.
  induction l as [|t l IH]; [reflexivity|]. simpl. intros H. apply andb_true_iff in H as [H1 H2].
  rewrite H1. auto.
Qed.
Lemma eat_ws_head r : peek_type r <> WHITESPACE -> eat_ws r = r.
Proof.
  destruct r as [|t r]; [reflexivity|]. unfold peek_type. simpl. intros H.
  now rewrite (proj2 (ttype_beq_neq _ _) H).
Qed.
Lemma ended_not_ws r : ended_value r = true -> eat_ws r = r.
Proof. unfold ended_value. intros H. apply eat_ws_head. destruct (peek_type r); discriminate. Qed.

Lemma token_eqb_bang : token_eqb bang delim_bang = true.
Proof. reflexivity. Qed.

Lemma lower_inj_bang c : LexerModel.lower c = LexerModel.lower 33 -> c = 33%N.
Proof.
  change (LexerModel.lower 33) with 33%N. unfold LexerModel.lower.
  destruct ((65 <=? c) && (c <=? 90))%N eqn:E; [|auto]. intros H. apply andb_true_iff in E as [E1 E2].
  apply N.leb_le in E1. lia.
Qed.
Lemma not_bang t : (ttype_beq (t_type t) DELIM && str_eqb (t_data t) [33%N]) = false ->
  token_eqb t delim_bang = false.
Proof.
  intros H. unfold token_eqb. cbn [delim_bang t_type t_data].
  destruct (ttype_beq (t_type t) DELIM); [|reflexivity]. simpl in H. cbn [andb].
  destruct (t_data t) as [|c [|d l]]; simpl; try reflexivity.
  - destruct (N.eqb _ _) eqn:E; [|reflexivity]. apply N.eqb_eq in E. apply lower_inj_bang in E. subst c. discriminate.
  - apply andb_false_r.
Qed.

Lemma value_render imp : imp_ok imp = true ->
  forall v r, forallb value_cv_ok v = true -> ended_value r = true ->
  exists n, value_loop n (eat_ws (flat_map render v ++ render_imp imp ++ r)) =
    Some (map tree (filter (fun v => negb (is_ws v)) v), match imp with Some _ => true | None => false end, r).
Proof.
  intros Himp v r Hv Hr. induction v as [|v l IH].
  - exists 1%nat. cbn [flat_map app filter map]. destruct imp as [i|].
    + cbn [render_imp imp_ok app] in *.
      apply andb_true_iff in Himp as [Himp Hword2]. apply andb_true_iff in Himp as [Himp Hword1].
      apply andb_true_iff in Himp as [Hw1 Hw2].
      rewrite <- app_assoc. cbn [app]. rewrite eat_ws_head by discriminate. cbn [value_loop].
      change (ended_value (bang :: _)) with false. cbv iota.
      unfold consume_important. cbn [peek tl]. rewrite token_eqb_bang.
      rewrite eat_ws_all by exact Hw1.
      assert (Hty : t_type (imp_word i) = IDENT) by now apply ttype_beq_eq.
      rewrite eat_ws_head by (unfold peek_type; cbn [peek]; rewrite Hty; discriminate).
      cbn [peek tl]. unfold token_eqb, ident_important. cbn [t_type t_data]. rewrite Hword1, Hword2. cbn [andb].
      rewrite eat_ws_all by exact Hw2. rewrite (ended_not_ws r Hr). reflexivity.
    + cbn [render_imp app]. rewrite (ended_not_ws r Hr). cbn [value_loop]. now rewrite Hr.
  - cbn [forallb] in Hv. apply andb_true_iff in Hv as [Hv Hl]. destruct (IH Hl) as [n2 Hn2].
    cbn [flat_map]. rewrite <- app_assoc.
    destruct (is_ws v) eqn:Ews.
    { destruct v as [t| |]; try discriminate. unfold is_ws, is_type in Ews.
      exists n2. cbn [render app filter eat_ws]. unfold is_ws at 1, is_type. rewrite Ews. exact Hn2. }
    unfold value_cv_ok in Hv. apply andb_true_iff in Hv as [Hv Hbang]. apply andb_true_iff in Hv as [Hv Hsemi].
    destruct (component_render v (flat_map render l ++ render_imp imp ++ r) Hv) as [n1 Hn1].
    exists (S (max n1 n2)).
    destruct (render_head v (flat_map render l ++ render_imp imp ++ r)) as (t & r' & Heq & Hhd).
    destruct (cv_head _ _ _ _ Hv Heq) as (Hc & _ & Heof). specialize (Hc Curly). simpl in Hc.
    assert (Hws : t_type t <> WHITESPACE).
    { destruct v as [x|x l'|k l']; subst t.
      - unfold is_ws, is_type in Ews. now apply ttype_beq_neq.
      - simpl in Hv. apply andb_true_iff in Hv as [Hv _]. apply ttype_beq_eq in Hv. rewrite Hv. discriminate.
      - destruct k; discriminate. }
    assert (Hsc : t_type t <> SEMICOLON).
    { destruct v as [x|x l'|k l']; subst t.
      - apply negb_true_iff in Hsemi. simpl in Hsemi. now apply ttype_beq_neq.
      - simpl in Hv. apply andb_true_iff in Hv as [Hv _]. apply ttype_beq_eq in Hv. rewrite Hv. discriminate.
      - destruct k; discriminate. }
    assert (Hnb : token_eqb t delim_bang = false).
    { destruct v as [x|x l'|k l']; subst t.
      - apply not_bang. now apply negb_true_iff in Hbang.
      - simpl in Hv. apply andb_true_iff in Hv as [Hv _]. apply ttype_beq_eq in Hv.
        unfold token_eqb. rewrite Hv. reflexivity.
      - destruct k; reflexivity. }
    rewrite eat_ws_head by (rewrite Heq; unfold peek_type; simpl; exact Hws).
    cbn [value_loop].
    assert (ended_value (render v ++ flat_map render l ++ render_imp imp ++ r) = false) as ->.
    { rewrite Heq. unfold ended_value, peek_type. cbn [peek]. destruct (t_type t); try reflexivity; contradiction. }
    assert (consume_important (render v ++ flat_map render l ++ render_imp imp ++ r) =
            (false, render v ++ flat_map render l ++ render_imp imp ++ r)) as ->.
    { unfold consume_important. rewrite Heq. cbn [peek]. now rewrite Hnb. }
    rewrite (component_mono n1 _ _ _ (Nat.le_max_l _ _) Hn1).
    rewrite (value_mono n2 _ _ _ (Nat.le_max_r _ _) Hn2).
    cbn [filter]. rewrite Ews. reflexivity.
Qed.

(** ** Items in a declaration list *)

Definition dl (ts : list token) (x : list sst * list token) : Prop := exists n, decl_list n ts = Some x.

Lemma forallb_weaken {A} (f g : A -> bool) l : (forall x, f x = true -> g x = true) -> forallb f l = true -> forallb g l = true.
Proof. intros H. rewrite !forallb_forall. auto. Qed.

Lemma rule_prefix_ok p : forallb prefix_cv_ok p = true ->
  forallb (fun v => prefix_cv_ok v && negb (false && is_type SEMICOLON v)) p = true.
Proof. apply forallb_weaken. intros x ->. reflexivity. Qed.

(** Preludes, as seen by the tests on the first tokens. *)
Lemma eat_ws_prefix p r : forallb prefix_cv_ok p = true -> peek_type r <> WHITESPACE ->
  eat_ws (flat_map render p ++ r) = flat_map render (skip_ws p) ++ r.
Proof.
  intros Hp Hr. induction p as [|v p IH].
  - simpl. now apply eat_ws_head.
  - cbn [forallb] in Hp. apply andb_true_iff in Hp as [Hv Hp]. cbn [flat_map skip_ws].
    rewrite <- app_assoc. destruct (is_ws v) eqn:E.
    + destruct v as [t| |]; try discriminate. unfold is_ws, is_type in E. cbn [render app eat_ws].
      rewrite E. auto.
    + cbn [flat_map]. rewrite <- app_assoc. apply eat_ws_head.
      destruct (render_head v (flat_map render p ++ r)) as (t & r' & -> & Hhd). unfold peek_type. cbn [peek].
      unfold prefix_cv_ok in Hv. apply andb_true_iff in Hv as [Hv _].
      destruct v as [x|x l'|k l']; subst t.
      * unfold is_ws, is_type in E. now apply ttype_beq_neq.
      * simpl in Hv. apply andb_true_iff in Hv as [Hv _]. apply ttype_beq_eq in Hv. rewrite Hv. discriminate.
      * destruct k; discriminate.
Qed.

Lemma not_declaration_ahead p r :
  forallb prefix_cv_ok p = true -> looks_like_declaration p = false ->
  declaration_ahead (flat_map render p ++ opening Curly :: r) = false.
Proof.
  intros Hp Hl. unfold declaration_ahead. destruct p as [|v p].
  - reflexivity.
  - cbn [forallb] in Hp. apply andb_true_iff in Hp as [Hv Hp]. cbn [flat_map]. rewrite <- app_assoc.
    destruct v as [x|x l'|k l'].
    + cbn [render app tl]. unfold peek_type at 1. cbn [peek].
      cbn [looks_like_declaration is_type] in Hl.
      destruct (ttype_beq (t_type x) IDENT); [|reflexivity]. cbn [andb] in *.
      rewrite eat_ws_prefix by (auto; discriminate).
      assert (Hsub : forallb prefix_cv_ok (skip_ws p) = true).
      { clear Hl Hv. induction p as [|y p IH]; [reflexivity|]. simpl in *. apply andb_true_iff in Hp as [H1 H2].
        destruct (is_ws y); [auto|]. simpl. now rewrite H1, H2. }
      destruct (skip_ws p) as [|y q]; [reflexivity|]. cbn [flat_map]. rewrite <- app_assoc.
      destruct (render_head y (flat_map render q ++ opening Curly :: r)) as (t & r' & -> & Hhd).
      unfold peek_type. cbn [peek]. cbn [forallb] in Hsub. apply andb_true_iff in Hsub as [Hy _].
      unfold prefix_cv_ok in Hy. apply andb_true_iff in Hy as [Hy _].
      destruct y as [z|z l''|k l'']; subst t.
      * exact Hl.
      * simpl in Hy. apply andb_true_iff in Hy as [Hy _]. apply ttype_beq_eq in Hy. rewrite Hy. reflexivity.
      * destruct k; reflexivity.
    + unfold prefix_cv_ok in Hv. apply andb_true_iff in Hv as [Hv _]. simpl in Hv. apply andb_true_iff in Hv as [Hv _].
      apply ttype_beq_eq in Hv. cbn [render app]. unfold peek_type at 1. cbn [peek]. rewrite Hv. reflexivity.
    + destruct k; reflexivity.
Qed.

Lemma rule_render n0 p b r :
  forallb prefix_cv_ok p = true ->
  decl_list n0 (flat_map render_item b ++ closing Curly :: r) = Some (flat_map tree_item b, closing Curly :: r) ->
  exists n1, forall n m, (n1 <= n)%nat -> (n0 <= m)%nat ->
    rule (decl_list m) n (render_item (IRule p b) ++ r) = Some (Some (RULE None (map tree p) (flat_map tree_item b)), r).
Proof.
  intros Hp Hb. cbn [render_item]. rewrite <- app_assoc. cbn [app]. rewrite <- app_assoc. cbn [app].
  destruct (prefix_render false p (opening Curly :: flat_map render_item b ++ closing Curly :: r))
    as [n1 Hn1]; [now apply rule_prefix_ok|right; left; reflexivity|].
  exists n1. intros n m Hn Hm. unfold rule. rewrite (prefix_mono _ n1 n _ _ Hn Hn1).
  unfold decl_block. cbn [tl]. rewrite (decl_list_mono n0 m _ _ Hm Hb). reflexivity.
Qed.

Lemma at_render n0 t p b r :
  forallb (fun v => prefix_cv_ok v && negb (is_type SEMICOLON v)) p = true ->
  decl_list n0 (flat_map render_item b ++ closing Curly :: r) = Some (flat_map tree_item b, closing Curly :: r) ->
  exists n1, forall n m, (n1 <= n)%nat -> (n0 <= m)%nat ->
    at_rule (decl_list m) n (render_item (IAt t p (Some b)) ++ r) = Some (RULE (Some t) (map tree p) (flat_map tree_item b), r).
Proof.
  intros Hp Hb. cbn [render_item app]. rewrite <- app_assoc. cbn [app]. rewrite <- app_assoc. cbn [app].
  destruct (prefix_render true p (opening Curly :: flat_map render_item b ++ closing Curly :: r))
    as [n1 Hn1]; [exact Hp|right; left; reflexivity|].
  exists n1. intros n m Hn Hm. unfold at_rule. cbn [tl peek]. rewrite (prefix_mono _ n1 n _ _ Hn Hn1).
  change (peek_type (opening Curly :: _)) with LEFT_CURLY_BRACKET. cbv iota.
  unfold decl_block. cbn [tl]. rewrite (decl_list_mono n0 m _ _ Hm Hb). reflexivity.
Qed.
Lemma at_stmt_render t p r :
  forallb (fun v => prefix_cv_ok v && negb (is_type SEMICOLON v)) p = true ->
  exists n1, forall n d, (n1 <= n)%nat ->
    at_rule d n (render_item (IAt t p None) ++ r) = Some (RULE (Some t) (map tree p) [], r).
Proof.
  intros Hp. cbn [render_item app]. rewrite <- app_assoc. cbn [app].
  destruct (prefix_render true p (semicolon :: r)) as [n1 Hn1]; [exact Hp|right; right; auto|].
  exists n1. intros n d Hn. unfold at_rule. cbn [tl peek]. rewrite (prefix_mono _ n1 n _ _ Hn Hn1). reflexivity.
Qed.

Lemma declaration_render name w v imp r :
  item_ok (IDecl name w v imp) = true -> ended_value r = true ->
  declaration_ahead (render_item (IDecl name w v imp) ++ r) = true /\
  exists n, declaration n (render_item (IDecl name w v imp) ++ r) =
    Some (Some (DECL name (map tree (filter (fun v => negb (is_ws v)) v))
                   (match imp with Some _ => true | None => false end)), r).
Proof.
  cbn [item_ok]. intros H Hr. repeat (apply andb_true_iff in H as [H ?]).
  cbn [render_item app]. rewrite <- !app_assoc. cbn [app]. rewrite <- !app_assoc.
  assert (Hws : eat_ws (w ++ colon :: flat_map render v ++ render_imp imp ++ r)
                = colon :: flat_map render v ++ render_imp imp ++ r).
  { rewrite eat_ws_all by assumption. apply eat_ws_head. discriminate. }
  split.
  - unfold declaration_ahead. cbn [tl]. rewrite Hws. unfold peek_type. cbn [peek]. rewrite H. reflexivity.
  - destruct (value_render imp ltac:(assumption) v r ltac:(assumption) Hr) as [n Hn].
    exists n. unfold declaration. cbn [tl peek]. rewrite Hws.
    change (peek_type (colon :: _)) with COLON. change (ttype_beq COLON COLON) with true. cbv iota. cbn [tl].
    unfold declaration_value. rewrite Hn. reflexivity.
Qed.

Lemma decl_list_rule n t ts x r l r' :
  (t_type t <> WHITESPACE /\ t_type t <> SEMICOLON /\ t_type t <> COMMENT /\ t_type t <> AT_KEYWORD /\
   t_type t <> RIGHT_CURLY_BRACKET) ->
  declaration_ahead (t :: ts) = false ->
  rule (decl_list n) n (t :: ts) = Some (Some x, r) -> decl_list n r = Some (l, r') ->
  decl_list (S n) (t :: ts) = Some (x :: l, r').
Proof.
  intros (H1 & H2 & H3 & H4 & H5) Ha Hr Hl. cbn [decl_list]. rewrite Hr, Hl, Ha.
  destruct (t_type t); try reflexivity; try contradiction. destruct (str_eqb _ _); reflexivity.
Qed.

Lemma prelude_head p b r : forallb prefix_cv_ok p = true -> prelude_start_ok p = true ->
  exists t ts, render_item (IRule p b) ++ r = t :: ts /\
   t_type t <> WHITESPACE /\ t_type t <> SEMICOLON /\ t_type t <> COMMENT /\ t_type t <> AT_KEYWORD /\
   t_type t <> RIGHT_CURLY_BRACKET /\ t_type t <> CDO /\ t_type t <> CDC /\ t_type t <> END_OF_FILE.
Proof.
  intros Hp Hs. cbn [render_item]. destruct p as [|v p].
  - eexists _, _. split; [reflexivity|]. repeat split; discriminate.
  - cbn [forallb] in Hp. apply andb_true_iff in Hp as [Hv _]. unfold prefix_cv_ok in Hv.
    apply andb_true_iff in Hv as [Hv Hc]. destruct v as [x|x l|k l]; cbn [flat_map render app].
    + eexists x, _. split; [reflexivity|]. cbn [prelude_start_ok] in Hs.
      simpl in Hv. destruct (plain_type _ Hv) as (? & ? & ? & ? & ? & ? & ? & ? & ?).
      destruct (t_type x); try discriminate; try contradiction; repeat split; discriminate.
    + simpl in Hv. apply andb_true_iff in Hv as [Hv _]. apply ttype_beq_eq in Hv.
      eexists x, _. split; [reflexivity|]. rewrite Hv. repeat split; discriminate.
    + eexists _, _. split; [reflexivity|]. destruct k; [discriminate| |]; repeat split; discriminate.
Qed.

Definition parses_item (i : item) : Prop := forall r l r',
  item_ok i = true -> (is_decl i = true -> ended_value r = true) ->
  dl r (l, r') -> dl (render_item i ++ r) (tree_item i ++ l, r').

Lemma ends_decl_spec i rest r : is_decl i = true -> ends_decl rest = true ->
  (ended_value r = true) -> ended_value (flat_map render_item rest ++ r) = true.
Proof.
  intros _ He Hr. destruct rest as [|[| | |t] rest]; try discriminate; [exact Hr|].
  simpl in He. apply ttype_beq_eq in He. cbn [flat_map render_item app]. unfold ended_value, peek_type. cbn [peek].
  now rewrite He.
Qed.

Lemma parses_items : forall b, Forall parses_item b ->
  forall r l r', forallb item_ok b = true -> decls_ended b = true -> ended_value r = true ->
  dl r (l, r') -> dl (flat_map render_item b ++ r) (flat_map tree_item b ++ l, r').
Proof.
  induction b as [|i b IH]; intros Hb r l r' Hok Hend Hr Hl; [exact Hl|]. inv Hb.
  cbn [forallb] in Hok. apply andb_true_iff in Hok as [Hi Hok].
  cbn [decls_ended] in Hend. apply andb_true_iff in Hend as [He Hend].
  cbn [flat_map]. rewrite <- !app_assoc. apply H1; [exact Hi| |now apply IH].
  intros Hd. eapply ends_decl_spec; eauto. rewrite Hd in He. exact He.
Qed.

Lemma body_parses b r : Forall parses_item b -> forallb item_ok b = true -> decls_ended b = true ->
  exists n, decl_list n (flat_map render_item b ++ closing Curly :: r) = Some (flat_map tree_item b, closing Curly :: r).
Proof.
  intros Hb Hok He.
  destruct (parses_items b Hb (closing Curly :: r) [] (closing Curly :: r) Hok He) as [n Hn]; [reflexivity|exists 1%nat; reflexivity|].
  exists n. now rewrite app_nil_r in Hn.
Qed.

Lemma item_parses i : parses_item i.
Proof.
  induction i as [name w v imp|p b IH|t p b IH|t p|t] using item_induction; intros r l r' Hok Hd Hl.
  - specialize (Hd eq_refl). destruct (declaration_render name w v imp r Hok Hd) as [Ha [n1 Hn1]].
    destruct Hl as [n2 Hn2]. exists (S (max n1 n2)).
    cbn [item_ok] in Hok. repeat (apply andb_true_iff in Hok as [Hok ?]). apply ttype_beq_eq in Hok.
    set (ts := render_item (IDecl name w v imp) ++ r) in *.
    assert (Hts : exists ts', ts = name :: ts') by (eexists; reflexivity). destruct Hts as [ts' Hts].
    rewrite Hts in *. cbn [decl_list]. rewrite Hok, Ha.
    rewrite (declaration_mono n1 _ _ _ (Nat.le_max_l _ _) Hn1).
    rewrite (decl_list_mono n2 _ _ _ (Nat.le_max_r _ _) Hn2).
    change (of_string "&") with [38%N].
    match goal with Hx : negb (str_eqb _ _) = true |- _ => apply negb_true_iff in Hx; rewrite Hx end.
    reflexivity.
  - cbn [item_ok] in Hok. repeat (apply andb_true_iff in Hok as [Hok ?]).
    destruct (body_parses b r IH) as [n0 Hn0]; try assumption.
    destruct (rule_render n0 p b r Hok Hn0) as [n1 Hn1]. destruct Hl as [n2 Hn2].
    set (n := max n0 (max n1 n2)). exists (S n).
    destruct (prelude_head p b r Hok) as (t & ts & Heq & Ht); [assumption|].
    specialize (Hn1 n n ltac:(lia) ltac:(lia)). cbn [tree_item app]. rewrite Heq in *.
    eapply decl_list_rule; [tauto| |exact Hn1|eapply decl_list_mono; [|exact Hn2]; lia].
    rewrite <- Heq. cbn [render_item]. rewrite <- app_assoc. cbn [app]. apply not_declaration_ahead; [exact Hok|].
    now apply negb_true_iff.
  - cbn [item_ok] in Hok. apply andb_true_iff in Hok as [Hok Hb]. apply andb_true_iff in Hok as [Ht Hp].
    apply andb_true_iff in Hb as [Hb1 Hb2]. apply ttype_beq_eq in Ht.
    destruct (body_parses b r IH Hb1 Hb2) as [n0 Hn0].
    destruct (at_render n0 t p b r Hp Hn0) as [n1 Hn1]. destruct Hl as [n2 Hn2].
    set (n := max n0 (max n1 n2)). exists (S n). specialize (Hn1 n n ltac:(lia) ltac:(lia)).
    cbn [tree_item app]. 
    set (ts := render_item (IAt t p (Some b)) ++ r) in *.
    assert (Hts : exists ts', ts = t :: ts') by (eexists; reflexivity). destruct Hts as [ts' Hts].
    rewrite Hts in *. cbn [decl_list]. rewrite Ht, Hn1. rewrite (decl_list_mono n2 n _ _ ltac:(lia) Hn2). reflexivity.
  - cbn [item_ok] in Hok. apply andb_true_iff in Hok as [Hok _]. apply andb_true_iff in Hok as [Ht Hp].
    apply ttype_beq_eq in Ht. destruct (at_stmt_render t p r Hp) as [n1 Hn1]. destruct Hl as [n2 Hn2].
    set (n := max n1 n2). exists (S n). specialize (Hn1 n (decl_list n) ltac:(lia)).
    cbn [tree_item app].
    set (ts := render_item (IAt t p None) ++ r) in *.
    assert (Hts : exists ts', ts = t :: ts') by (eexists; reflexivity). destruct Hts as [ts' Hts].
    rewrite Hts in *. cbn [decl_list]. rewrite Ht, Hn1. rewrite (decl_list_mono n2 n _ _ ltac:(lia) Hn2). reflexivity.
  - destruct Hl as [n Hn]. exists (S n). cbn [render_item app decl_list tree_item] in *.
    simpl in Hok. destruct (t_type t); try discriminate; exact Hn.
Qed.

(** ** At the top level *)

Definition rl (top : bool) (ts : list token) (x : list sst) : Prop := exists n, rule_list top n ts = Some x.

Lemma top_item_parses top i r l : top_ok i = true -> rl top r l ->
  rl top (render_item i ++ r) (tree_item i ++ l).
Proof.
  unfold top_ok. intros Hi [n2 Hn2]. apply andb_true_iff in Hi as [Hok Htop].
  destruct i as [name w v imp|p b|t p [b|]|t]; [discriminate| | | |].
  - cbn [item_ok] in Hok. repeat (apply andb_true_iff in Hok as [Hok ?]).
    destruct (body_parses b r) as [n0 Hn0]; try assumption.
    { apply Forall_forall. intros x _. apply item_parses. }
    destruct (rule_render n0 p b r Hok Hn0) as [n1 Hn1].
    set (n := max n0 (max n1 n2)). exists (S n).
    destruct (prelude_head p b r Hok) as (t & ts & Heq & H4 & H5 & H6 & H7 & H8 & H9 & H10 & H11); [assumption|].
    specialize (Hn1 n n ltac:(lia) ltac:(lia)). cbn [tree_item app]. rewrite Heq in *.
    cbn [rule_list]. rewrite Hn1, (rule_list_mono top n2 n _ _ ltac:(lia) Hn2).
    destruct (t_type t); try reflexivity; contradiction.
  - cbn [item_ok] in Hok. apply andb_true_iff in Hok as [Hok Hb]. apply andb_true_iff in Hok as [Ht Hp].
    apply andb_true_iff in Hb as [Hb1 Hb2]. apply ttype_beq_eq in Ht.
    destruct (body_parses b r) as [n0 Hn0]; try assumption.
    { apply Forall_forall. intros x _. apply item_parses. }
    destruct (at_render n0 t p b r Hp Hn0) as [n1 Hn1].
    set (n := max n0 (max n1 n2)). exists (S n). specialize (Hn1 n n ltac:(lia) ltac:(lia)).
    cbn [tree_item app]. 
    set (ts := render_item (IAt t p (Some b)) ++ r) in *.
    assert (Hts : exists ts', ts = t :: ts') by (eexists; reflexivity). destruct Hts as [ts' Hts].
    rewrite Hts in *. cbn [rule_list]. rewrite Ht, Hn1. rewrite (rule_list_mono top n2 n _ _ ltac:(lia) Hn2). reflexivity.
  - cbn [item_ok] in Hok. apply andb_true_iff in Hok as [Hok _]. apply andb_true_iff in Hok as [Ht Hp].
    apply ttype_beq_eq in Ht. destruct (at_stmt_render t p r Hp) as [n1 Hn1].
    set (n := max n1 n2). exists (S n). specialize (Hn1 n (decl_list n) ltac:(lia)).
    cbn [tree_item app].
    set (ts := render_item (IAt t p None) ++ r) in *.
    assert (Hts : exists ts', ts = t :: ts') by (eexists; reflexivity). destruct Hts as [ts' Hts].
    rewrite Hts in *. cbn [rule_list]. rewrite Ht, Hn1. rewrite (rule_list_mono top n2 n _ _ ltac:(lia) Hn2). reflexivity.
  - exists (S n2). cbn [render_item app rule_list tree_item] in *.
    simpl in Hok. apply negb_true_iff, ttype_beq_neq in Htop.
    destruct (t_type t); try discriminate; try contradiction; exact Hn2.
Qed.

Lemma top_parses top l r x : forallb top_ok l = true -> rl top r x ->
  rl top (flat_map render_item l ++ r) (flat_map tree_item l ++ x).
Proof.
  induction l as [|i l IH]; intros Hl Hr; [exact Hr|]. cbn [forallb] in Hl. apply andb_true_iff in Hl as [Hi Hl].
  cbn [flat_map]. rewrite <- !app_assoc. apply top_item_parses; auto.
Qed.

(** From "some fuel" to the fuel the entry points use. *)
Lemma dl_enough ts x : dl ts x -> decl_list (enough ts) ts = Some x.
Proof.
  intros [n Hn]. destruct (decl_list_total (enough ts) ts) as (l & r & H & _); [unfold enough; lia|].
  destruct (Nat.le_ge_cases n (enough ts)) as [Hle|Hle].
  - eapply decl_list_mono; eauto.
  - rewrite (decl_list_mono _ _ _ _ Hle H) in Hn. now rewrite H.
Qed.

Lemma rl_enough ts x : Forall (fun t => cd t = false) ts -> rl true ts x -> rule_list true (enough ts) ts = Some x.
Proof.
  intros Hcd [n Hn]. destruct (rule_list_total true (enough ts) ts) as (l & H); [unfold enough; lia|auto|].
  destruct (Nat.le_ge_cases n (enough ts)) as [Hle|Hle].
  - eapply rule_list_mono; eauto.
  - rewrite (rule_list_mono _ _ _ _ _ Hle H) in Hn. now rewrite H.
Qed.
