(** @page selectors (C24), the cascade of @page rules (C60), reading of page selectors (C61). *)
From Coq Require Import String List NArith Bool Arith Lia.
From Verif.Base Require Import Str Outcome.
From Verif.Css Require Import LexerModel ParserModel.
From Verif.Values Require Import CalcModel.
From Verif.Print Require Import PageModel.
Import ListNotations.
Local Open Scope nat_scope.
Local Open Scope list_scope.

(** ** C24

    css-page-3, 3: what a page must be like for a pseudo-class, in a left-to-right document, where
    the first page is a right page. *)
Definition pseudo_holds (p : page) (x : pseudo) : Prop :=
  match x with
  | FIRST => p_number p = 1
  | BLANK => p_blank p = true
  | LEFT => Nat.Even (p_number p)
  | RIGHT => Nat.Odd (p_number p)
  end.
Definition applies (s : page_selector) (p : page) : Prop :=
  (s_name s = [] \/ s_name s = p_name p) /\ forall x, In x (s_pseudos s) -> pseudo_holds p x.

Lemma mod2_0 n : (n mod 2 =? 0) = true <-> Nat.Even n.
Proof. rewrite Nat.eqb_eq, Nat.mod_divides, <- Nat.even_spec by lia. rewrite Nat.even_spec. split; intros [k E]; exists k; lia. Qed.
Lemma mod2_1 n : (n mod 2 =? 1) = true <-> Nat.Odd n.
Proof.
  rewrite Nat.eqb_eq. split.
  - intros E. exists (n / 2). pose proof (Nat.div_mod n 2). lia.
  - intros [k ->]. rewrite Nat.add_comm, Nat.mul_comm. now rewrite Nat.mod_add.
Qed.
Lemma not_odd n : ~ Nat.Odd n <-> Nat.Even n.
Proof. split; [|intros E O; exact (Nat.Even_Odd_False n E O)]. destruct (Nat.Even_or_Odd n); tauto. Qed.
Lemma not_even n : ~ Nat.Even n <-> Nat.Odd n.
Proof. split; [|intros E O; exact (Nat.Even_Odd_False n O E)]. destruct (Nat.Even_or_Odd n); tauto. Qed.

(** What the program does, in terms of what it should: [:left] and [:right] are exchanged, and
    [:blank] selects the pages that are not blank. *)
Definition exchange (x : pseudo) : pseudo := match x with LEFT => RIGHT | RIGHT => LEFT | _ => x end.
Definition unblank (p : page) : page := mkPage (p_name p) (p_number p) (negb (p_blank p)).

Lemma pseudo_ok_spec p x : pseudo_ok p x = true <-> pseudo_holds (unblank p) (exchange x).
Proof.
  destruct x; cbn [pseudo_ok pseudo_holds exchange unblank p_number p_blank].
  - rewrite negb_involutive. apply Nat.eqb_eq.
  - destruct (p_blank p); cbn; intuition congruence.
  - rewrite negb_true_iff, <- not_even, <- mod2_0. destruct (_ =? 0); intuition congruence.
  - rewrite negb_true_iff, <- not_odd, <- mod2_1. destruct (_ =? 1); intuition congruence.
Qed.

Theorem C24_page_selector_match_partial :
  (* what a selector selects, for every page and selector *)
  (forall s p, sel_match s p = true <->
     applies (mkSel (s_name s) (map exchange (s_pseudos s))) (unblank p)) /\
  (* so selectors made of a name and [:first] are right *)
  (forall s p, (forall x, In x (s_pseudos s) -> x = FIRST) -> (sel_match s p = true <-> applies s p)) /\
  (* a rule applies to the pages that one of its selectors matches, and to all without selector *)
  (forall sels p, rule_match sels p = true <-> sels = [] \/ exists s, In s sels /\ sel_match s p = true).
Proof.
  assert (A : forall s p, sel_match s p = true <->
     applies (mkSel (s_name s) (map exchange (s_pseudos s))) (unblank p)).
  { intros s p. unfold sel_match, applies. cbn [s_name s_pseudos p_name unblank].
    rewrite andb_true_iff, forallb_forall, negb_true_iff, andb_false_iff, !negb_false_iff, !str_eqb_spec.
    split; intros [N H]; (split; [intuition congruence|]).
    - intros x I. apply in_map_iff in I as (y & <- & I). apply pseudo_ok_spec, H, I.
    - intros x I. apply pseudo_ok_spec, H, in_map, I. }
  split; [exact A|]. split.
  - intros s p F. rewrite A. unfold applies. cbn [s_name s_pseudos p_name unblank].
    assert (E : map exchange (s_pseudos s) = s_pseudos s).
    { induction (s_pseudos s) as [|x l IH]; [reflexivity|]. cbn. rewrite (F x) by now left. cbn.
      f_equal. apply IH. intros y I. apply F. now right. }
    rewrite E. split; intros [N H]; (split; [exact N|]); intros x I; specialize (H x I); rewrite (F x I) in *; exact H.
  - intros sels p. destruct sels as [|s l]; [cbn; tauto|].
    unfold rule_match. rewrite existsb_exists. split; [intros H; now right|intros [E|H]; [discriminate|exact H]].
Qed.
Print Assumptions C24_page_selector_match_partial.

Example C24_first_selects :
  applies (mkSel [] [FIRST]) (printed_page 0) /\ ~ applies (mkSel [] [FIRST]) (printed_page 1).
Proof. split; [split; [now left|intros x [<-|[]]; reflexivity]|intros [_ H]; specialize (H FIRST (or_introl eq_refl)); discriminate]. Qed.

(** The first page of a document is taken for a left page, every page that is not blank for a
    blank one, and no named rule ever applies, because pages never get a name. *)
Theorem C24_page_selector_match_refuted :
  (exists s p, p = printed_page 0 /\ applies s p /\ sel_match s p = false) /\
  (exists s p, p = printed_page 0 /\ ~ applies s p /\ sel_match s p = true) /\
  (forall n, sel_match (mkSel [] [BLANK]) (printed_page n) = true /\ ~ applies (mkSel [] [BLANK]) (printed_page n)) /\
  (forall s n, s_name s <> [] -> sel_match s (printed_page n) = false).
Proof.
  split; [|split; [|split]].
  - exists (mkSel [] [RIGHT]), (printed_page 0). split; [reflexivity|]. split; [|reflexivity].
    split; [now left|]. intros x [<-|[]]. now exists 0.
  - exists (mkSel [] [LEFT]), (printed_page 0). split; [reflexivity|]. split; [|reflexivity].
    intros [_ H]. destruct (H LEFT (or_introl eq_refl)) as [k E]. cbn in E. lia.
  - intros n. split; [reflexivity|]. intros [_ H]. specialize (H BLANK (or_introl eq_refl)). discriminate.
  - intros s n N. unfold sel_match. apply str_eqb_neq in N. rewrite N.
    destruct (str_eqb (p_name (printed_page n)) (s_name s)) eqn:E; [|reflexivity].
    apply str_eqb_spec in E. cbn in E. rewrite <- E in N. discriminate.
Qed.
Print Assumptions C24_page_selector_match_refuted.

(** ** C60: which declaration a page gets

    css-page-3, 3.4: among the declarations of a property in the rules that apply to the page, the
    important ones win; then the most specific selector, (number of names, of [:first] and
    [:blank], of [:left] and [:right]); then the last one. *)
Definition weight : Type := (bool * (nat * (nat * nat)))%type.
Definition weight_le (a b : weight) : Prop :=
  let '(ia, (na, (fa, la))) := a in
  let '(ib, (nb, (fb, lb))) := b in
  (ia = false /\ ib = true) \/
  (ia = ib /\ (na < nb \/ (na = nb /\ (fa < fb \/ (fa = fb /\ la <= lb))))).

Definition count_first (l : list pseudo) : nat :=
  List.length (filter (fun x => match x with FIRST | BLANK => true | _ => false end) l).
Definition count_side (l : list pseudo) : nat :=
  List.length (filter (fun x => match x with LEFT | RIGHT => true | _ => false end) l).
Definition sel_weight (imp : bool) (s : page_selector) : weight :=
  (imp, (match s_name s with [] => 0 | _ => 1 end, (count_first (s_pseudos s), count_side (s_pseudos s)))).

(** The declarations for [n] that apply to page [p], in order of appearance: each with its weight. *)
Inductive applicable (p : page) (n : str) : list rule -> list (weight * option str) -> Prop :=
| ap_nil : applicable p n [] []
| ap_page_no sels props areas rs l :
    rule_match sels p = false -> applicable p n rs l -> applicable p n (PageRule sels props areas :: rs) l
| ap_page_all props areas rs l :
    applicable p n rs l ->
    applicable p n (PageRule [] props areas :: rs)
      (map (fun d => (sel_weight (d_important d) (mkSel [] []), d_value d)) (filter (fun d => str_eqb n (d_name d)) props) ++ l)
| ap_page_yes sels s props areas rs l :
    In s sels -> sel_match s p = true ->
    (* the most specific of the selectors that match *)
    (forall s' , In s' sels -> sel_match s' p = true -> weight_le (sel_weight true s') (sel_weight true s)) ->
    applicable p n rs l ->
    applicable p n (PageRule sels props areas :: rs)
      (map (fun d => (sel_weight (d_important d) s, d_value d)) (filter (fun d => str_eqb n (d_name d)) props) ++ l)
| ap_media_no inner rs l : applicable p n rs l -> applicable p n (MediaRule false inner :: rs) l
| ap_media_yes inner rs l1 l2 :
    applicable p n inner l1 -> applicable p n rs l2 -> applicable p n (MediaRule true inner :: rs) (l1 ++ l2)
| ap_other rs l : applicable p n rs l -> applicable p n (OtherRule :: rs) l.

(** [v] is the value of the winner of [l]. *)
Definition winner (l : list (weight * option str)) (v : option str) : Prop :=
  exists l1 w l2, l = l1 ++ (w, v) :: l2 /\
    (forall w' v', In (w', v') l1 -> weight_le w' w) /\
    (forall w' v', In (w', v') l2 -> ~ weight_le w w').

(** The value of the page's property: the last declaration, whatever its weight. *)
Definition last_value (l : list (weight * option str)) (init : str) : str :=
  fold_left (fun v e => match snd e with Some x => x | None => v end) l init.

Lemma area_style l c : v_style (fold_left apply_area l c) = v_style c.
Proof. revert c. induction l as [|a l IH]; intros c; [reflexivity|]. cbn. now rewrite IH. Qed.

Lemma apply_props f n props s :
  fold_left (fun s d => apply_decl s s d) props s n =
  last_value (map (fun d => (f d, d_value d)) (filter (fun d => str_eqb n (d_name d)) props)) (s n).
Proof.
  unfold last_value. revert s. induction props as [|d l IH]; intros s; [reflexivity|]. cbn [fold_left filter].
  rewrite IH. unfold apply_decl, set. destruct (str_eqb n (d_name d)) eqn:E; [|reflexivity].
  cbn [map fold_left snd]. apply str_eqb_spec in E. rewrite <- E. now destruct (d_value d).
Qed.

Lemma last_value_app a b i : last_value (a ++ b) i = last_value b (last_value a i).
Proof. unfold last_value. apply fold_left_app. Qed.

Lemma media_fold p rs c :
  (fix go c rs := match rs with [] => c | r :: rs' => go (eval_rule p c r) rs' end) c rs = fold_left (eval_rule p) rs c.
Proof. revert c. induction rs as [|r rs IH]; intros c; [reflexivity|]. cbn. apply IH. Qed.

Lemma eval_rules p n rs l : applicable p n rs l ->
  forall c, v_style (fold_left (eval_rule p) rs c) n = last_value l (v_style c n).
Proof.
  induction 1 as [|sels props areas rs l M A IH|props areas rs l A IH|sels s props areas rs l I M W A IH|inner rs l A IH|inner rs l1 l2 A1 IH1 A2 IH2|rs l A IH];
    intros c.
  - reflexivity.
  - cbn [fold_left eval_rule]. rewrite M. apply IH.
  - cbn [fold_left eval_rule rule_match]. rewrite IH. unfold apply_rule.
    rewrite area_style, last_value_app. cbn [v_style]. f_equal. apply apply_props.
  - cbn [fold_left eval_rule]. assert (R : rule_match sels p = true).
    { destruct sels; [reflexivity|]. unfold rule_match. apply existsb_exists. now exists s. }
    rewrite R, IH. unfold apply_rule.
    rewrite area_style, last_value_app. cbn [v_style]. f_equal. apply apply_props.
  - cbn [fold_left eval_rule]. apply IH.
  - cbn [fold_left eval_rule]. rewrite media_fold, IH2, IH1. symmetry. apply last_value_app.
  - cbn [fold_left eval_rule]. apply IH.
Qed.

Lemma eval_sheets p sheets c :
  fold_left (fun c sheet => fold_left (eval_rule p) sheet c) sheets c = fold_left (eval_rule p) (concat sheets) c.
Proof. revert c. induction sheets as [|s l IH]; intros c; [reflexivity|]. cbn. rewrite fold_left_app. apply IH. Qed.

(** When declarations come in the order of their weights the page gets the winner. *)
Theorem C60_page_declarations_partial : forall initial sheets p n l v,
  applicable p n (concat sheets) l ->
  (forall l1 w1 v1 l2 w2 v2 l3, l = l1 ++ (w1, v1) :: l2 ++ (w2, v2) :: l3 -> weight_le w1 w2) ->
  winner l (Some v) ->
  v_style (compute_page initial sheets p) n = v.
Proof.
  intros initial sheets p n l v A S (l1 & w & l2 & E & _ & H2). unfold compute_page.
  rewrite eval_sheets, (eval_rules p n _ _ A). cbn [v_style].
  destruct l2 as [|[w2 v2] l2].
  - rewrite E, last_value_app. reflexivity.
  - exfalso. apply (H2 w2 v2); [now left|]. apply (S l1 w (Some v) [] w2 v2 l2). exact E.
Qed.
Print Assumptions C60_page_declarations_partial.

(** A page with no declaration of a property keeps the initial value. *)
Theorem C60_page_initial : forall initial sheets p n,
  applicable p n (concat sheets) [] -> v_style (compute_page initial sheets p) n = initial n.
Proof.
  intros initial sheets p n A. unfold compute_page. now rewrite eval_sheets, (eval_rules p n _ _ A).
Qed.
Print Assumptions C60_page_initial.

(** Otherwise it gets the last one: a rule for all pages overrides the rule for the first page that
    stands before it, and an important declaration is overridden. *)
Definition sz : str := of_string "size".
Definition a4 : str := of_string "a4".
Definition a5 : str := of_string "a5".
Theorem C60_page_declarations_refuted : forall initial,
  (exists rs l, applicable (printed_page 0) sz rs l /\ winner l (Some a5) /\
     v_style (compute_page initial [rs] (printed_page 0)) sz = a4 /\ a4 <> a5) /\
  (exists rs l, applicable (printed_page 0) sz rs l /\ winner l (Some a5) /\
     v_style (compute_page initial [rs] (printed_page 0)) sz = a4).
Proof.
  intros initial. split.
  - exists [PageRule [mkSel [] [FIRST]] [mkDecl sz (Some a5) false] []; PageRule [] [mkDecl sz (Some a4) false] []].
    eexists. split; [|split; [|split; [reflexivity|discriminate]]].
    + apply ap_page_yes with (s := mkSel [] [FIRST]); [now left|reflexivity| |apply ap_page_all, ap_nil].
      intros s' [<-|[]] _. right. split; [reflexivity|]. right. split; [reflexivity|]. right. split; reflexivity.
    + eexists [], _, _. split; [reflexivity|]. split; [intros w' v' []|].
      intros w' v' [E|[]] L. injection E as <- <-. cbn in L. intuition (discriminate || lia).
  - exists [PageRule [] [mkDecl sz (Some a5) true; mkDecl sz (Some a4) false] []].
    eexists. split; [|split; [|reflexivity]].
    + apply ap_page_all, ap_nil.
    + eexists [], _, _. split; [reflexivity|]. split; [intros w' v' []|].
      intros w' v' [E|[]] L. injection E as <- <-. cbn in L. intuition (discriminate || lia).
Qed.
Print Assumptions C60_page_declarations_refuted.

(** The general rule first and the special one after it is such an order. *)
Example C60_general_then_first : exists l,
  applicable (printed_page 0) sz (concat [[PageRule [] [mkDecl sz (Some a4) false] []];
                                          [MediaRule true [PageRule [mkSel [] [FIRST]] [mkDecl sz (Some a5) false] []]]]) l /\
  (forall l1 w1 v1 l2 w2 v2 l3, l = l1 ++ (w1, v1) :: l2 ++ (w2, v2) :: l3 -> weight_le w1 w2) /\
  winner l (Some a5).
Proof.
  eexists. split; [|split].
  - cbn [concat app]. apply ap_page_all. apply ap_media_yes; [|apply ap_nil].
    apply ap_page_yes with (s := mkSel [] [FIRST]); [now left|reflexivity| |apply ap_nil].
    intros s' [<-|[]] _. right. split; [reflexivity|]. right. split; [reflexivity|]. right. split; reflexivity.
  - cbn. intros l1 w1 v1 l2 w2 v2 l3 E. destruct l1 as [|x [|y l1]]; cbn in E.
    + injection E as <- <- E. destruct l2 as [|z l2]; cbn in E.
      * injection E as <- _ _. right. split; [reflexivity|]. right. split; [reflexivity|]. left. cbn. lia.
      * apply (f_equal (@List.length _)) in E. cbn in E. rewrite app_length in E. cbn in E. lia.
    + apply (f_equal (@List.length _)) in E. cbn in E. rewrite app_length in E. cbn in E. lia.
    + apply (f_equal (@List.length _)) in E. cbn in E. rewrite !app_length in E. cbn in E. rewrite app_length in E. cbn in E. lia.
  - eexists [_], _, []. split; [reflexivity|]. split; [|intros w' v' []].
    intros w' v' [E|[]]. injection E as <- _. right. split; [reflexivity|]. right. split; [reflexivity|]. left. cbn. lia.
Qed.

(** Margin boxes: the name of each is read as that box, and a margin box in a rule of a page that
    applies only changes that box. *)
Theorem C60_margin_boxes : 
  (forall a n, In (a, n) area_table <-> (forall c, parse_area (c :: n) = Some a)) /\
  (forall a, exists n, In (a, n) area_table) /\
  (forall c (a x : area) d, x <> a -> v_area (apply_area c (a, d)) x = v_area c x) /\
  (forall c a d n v imp e, (forall x, In x e -> d_name x <> n) ->
     v_area (apply_area c (a, d ++ mkDecl n (Some v) imp :: e)) a n = v) /\
  (forall c a d n imp e, (forall x, In x e -> d_name x <> n) ->
     v_area (apply_area c (a, d ++ mkDecl n None imp :: e)) a n = v_style c n) /\
  (forall c a d n, (forall x, In x d -> d_name x <> n) -> v_area (apply_area c (a, d)) a n = v_area c a n).
Proof.
  assert (forall st d n s0, (forall x, In x d -> d_name x <> n) -> fold_left (apply_decl st) d s0 n = s0 n) as K.
  { intros st d n. induction d as [|x d IH]; intros s0 H; [reflexivity|]. cbn [fold_left]. rewrite IH; [|intros y I; apply H; now right].
    unfold apply_decl, set. destruct (str_eqb n (d_name x)) eqn:E; [|reflexivity]. apply str_eqb_spec in E. destruct (H x (or_introl eq_refl)). now symmetry. }
  split; [|split; [|split; [|split; [|split]]]].
  - intros a n. split.
    + intros I c. cbn in I. repeat (destruct I as [E|I]; [injection E as <- <-; reflexivity|]). destruct I.
    + intros H. specialize (H 64%N). unfold parse_area in H. cbn [tl] in H.
      destruct (find _ area_table) as [[a' n']|] eqn:F; [|discriminate]. injection H as <-.
      apply find_some in F as [I E]. apply str_eqb_spec in E. cbn in E. now subst n'.
  - intros a. destruct a; eexists; cbn; intuition reflexivity.
  - intros c a x d N. unfold apply_area. cbn. destruct (area_beq x a) eqn:E; [|reflexivity].
    apply internal_area_dec_bl in E. contradiction.
  - intros c a d n v imp e H. unfold apply_area. cbn [v_area fst snd]. rewrite (internal_area_dec_lb a a eq_refl).
    rewrite fold_left_app. cbn [fold_left]. rewrite K by exact H. unfold apply_decl, set. cbn. now rewrite str_eqb_refl.
  - intros c a d n imp e H. unfold apply_area. cbn [v_area fst snd]. rewrite (internal_area_dec_lb a a eq_refl).
    rewrite fold_left_app. cbn [fold_left]. rewrite K by exact H. unfold apply_decl, set. cbn. now rewrite str_eqb_refl.
  - intros c a d n H. unfold apply_area. cbn [v_area fst snd]. rewrite (internal_area_dec_lb a a eq_refl). now apply K.
Qed.
Print Assumptions C60_margin_boxes.

(** ** C61: reading the selectors of a rule ends *)

Definition ws_sst (s : sst) : Prop := exists d, s = TOK (mkT WHITESPACE d).
(** Preludes that are a sequence of names, pseudo-classes and white space. *)
Inductive plain : list sst -> Prop :=
| pl_nil : plain []
| pl_ws s r : ws_sst s -> plain r -> plain (s :: r)
| pl_name d r : plain r -> plain (TOK (mkT IDENT d) :: r)
| pl_pseudo d w e r : Forall ws_sst w ->
    In e [of_string "first"; of_string "blank"; of_string "left"; of_string "right"] ->
    plain r -> plain (TOK (mkT COLON d) :: w ++ TOK (mkT IDENT e) :: r).

Lemma ws_beq s : is_ty WHITESPACE s = true <-> ws_sst s.
Proof.
  split.
  - destruct s as [[ty d]| | | |]; try discriminate. cbn. intros E. apply internal_ttype_dec_bl in E. subst. now exists d.
  - intros [d ->]. reflexivity.
Qed.
Lemma is_ty_tok ty s : is_ty ty s = true -> s = TOK (mkT ty (sst_data s)).
Proof. destruct s as [[t d]| | | |]; try discriminate. cbn. intros E. apply internal_ttype_dec_bl in E. now subst. Qed.
Lemma eat_wss_cons s r : eat_wss (s :: r) = if is_ty WHITESPACE s then eat_wss r else s :: r.
Proof. now destruct s. Qed.
Lemma eat_wss_split c : exists w, c = w ++ eat_wss c /\ Forall ws_sst w.
Proof.
  induction c as [|s r (w & E & F)]; [now exists []|]. rewrite eat_wss_cons. destruct (is_ty WHITESPACE s) eqn:W.
  - exists (s :: w). split; [cbn; now rewrite <- E|]. constructor; [now apply ws_beq|exact F].
  - now exists [].
Qed.
Lemma eat_wss_head c s r : eat_wss c = s :: r -> is_ty WHITESPACE s = false.
Proof.
  induction c as [|s' c IH]; [discriminate|]. rewrite eat_wss_cons. destruct (is_ty WHITESPACE s') eqn:W; [exact IH|].
  intros E. injection E as <- <-. exact W.
Qed.
Lemma eat_wss_len c : List.length (eat_wss c) <= List.length c.
Proof. destruct (eat_wss_split c) as (w & E & _). rewrite E at 2. rewrite app_length. lia. Qed.
Lemma eat_wss_app w c : Forall ws_sst w -> eat_wss (w ++ c) = eat_wss c.
Proof. induction 1 as [|s w W F IH]; [reflexivity|]. cbn [app]. rewrite eat_wss_cons. apply ws_beq in W. now rewrite W. Qed.
Lemma plain_ws w c : Forall ws_sst w -> (plain (w ++ c) <-> plain c).
Proof.
  induction 1 as [|s w [d ->] F IH]; [reflexivity|]. cbn [app]. rewrite <- IH. split.
  - intros P. inversion P; subst; assumption.
  - intros P. apply pl_ws; [now exists d|exact P].
Qed.
Lemma plain_eat c : plain (eat_wss c) <-> plain c.
Proof. destruct (eat_wss_split c) as (w & E & F). rewrite E at 2. symmetry. now apply plain_ws. Qed.

Lemma pseudo_names e p : pseudo_of_name e = Some p -> In e [of_string "first"; of_string "blank"; of_string "left"; of_string "right"].
Proof.
  unfold pseudo_of_name. repeat (let E := fresh in match goal with |- context [str_eqb e ?x] => destruct (str_eqb e x) eqn:E end;
    [apply str_eqb_spec in E; subst; intros _; cbn; tauto|]). discriminate.
Qed.
Lemma names_pseudo e : In e [of_string "first"; of_string "blank"; of_string "left"; of_string "right"] -> exists p, pseudo_of_name e = Some p.
Proof. intros I. cbn in I. repeat (destruct I as [<-|I]; [eexists; reflexivity|]). destruct I. Qed.

(** one pseudo-class *)
Lemma parse_pseudo_some c p r : parse_pseudo c = Ok (Some (p, r)) ->
  (plain c <-> plain r) /\ List.length r < List.length c.
Proof.
  destruct c as [|s c]; [discriminate|]. cbn [parse_pseudo]. destruct (is_ty COLON s) eqn:C; [|discriminate].
  destruct (eat_wss c) as [|s' r'] eqn:E; [discriminate|]. destruct (is_ty IDENT s') eqn:I; [|discriminate].
  destruct (pseudo_of_name (sst_data s')) as [p'|] eqn:N; [|discriminate]. intros H. injection H as -> ->.
  apply is_ty_tok in C, I. destruct (eat_wss_split c) as (w & Ec & F). rewrite E in Ec.
  split.
  - rewrite C, Ec. split.
    + remember (TOK (mkT COLON (sst_data s)) :: w ++ s' :: r) as x eqn:X. intros P.
      destruct P as [|y y2 [d W] P|d y2 P|d w' e r2 F' I' P']; [discriminate|subst; discriminate|discriminate|].
      injection X as _ Ew.
      assert (Q : eat_wss (w' ++ TOK (mkT IDENT e) :: r2) = eat_wss (w ++ s' :: r)) by now rewrite Ew.
      rewrite !eat_wss_app in Q by assumption. rewrite I in Q. cbn in Q. now injection Q as _ <-.
    + intros P. rewrite I. apply pl_pseudo; [exact F|eapply pseudo_names; exact N|exact P].
  - cbn [List.length]. pose proof (eat_wss_len c) as L. rewrite E in L. cbn in L. lia.
Qed.
Lemma parse_pseudo_plain c s : plain (s :: c) -> is_ty COLON s = true -> exists p r, parse_pseudo (s :: c) = Ok (Some (p, r)).
Proof.
  intros P C. inversion P as [|? ? [d W]| |d w e r F I P']; subst; try discriminate.
  destruct (names_pseudo e I) as [p N]. cbn [parse_pseudo is_ty t_type ttype_beq].
  rewrite eat_wss_app by exact F. rewrite eat_wss_cons. cbn [is_ty t_type ttype_beq sst_data t_data]. rewrite N. eauto.
Qed.

Lemma parse_pseudos_ok n c : List.length c < n -> plain c ->
  exists l r, parse_pseudos n c = Ok (l, r) /\ plain r /\ List.length r <= List.length c /\ (l <> [] -> List.length r < List.length c).
Proof.
  revert c. induction n as [|n IH]; intros c L P; [lia|]. cbn [parse_pseudos].
  destruct c as [|s c']; [exists [], []; cbn; repeat split; auto; try constructor; congruence|].
  destruct (is_ty COLON s) eqn:C.
  - destruct (parse_pseudo_plain c' s P C) as (p & r & E). rewrite E. cbn [obind].
    apply parse_pseudo_some in E as [Pr Lr].
    destruct (IH (eat_wss r)) as (l & r' & E' & P' & L' & _).
    { pose proof (eat_wss_len r). lia. } { apply plain_eat, Pr, P. }
    rewrite E'. cbn [obind fst snd]. exists (p :: l), r'. pose proof (eat_wss_len r). repeat split; auto; lia.
  - cbn [parse_pseudo]. rewrite C. cbn [obind]. exists [], (s :: c'). repeat split; auto; congruence.
Qed.

Lemma loop_ends c : forall k, List.length c <= k -> plain c -> (forall s r, c = s :: r -> is_ty WHITESPACE s = false) ->
  forall n, List.length c < n -> exists l, parse_list_loop n c = Ok l.
Proof.
  intros k. revert c. induction k as [|k IH]; intros c Lk P H n Ln.
  - destruct c; [|cbn in Lk; lia]. destruct n; [lia|]. eexists. reflexivity.
  - destruct n as [|n]; [lia|]. destruct c as [|s c]; [eexists; reflexivity|]. cbn [parse_list_loop].
    assert (Q : exists q, parse_selector (S (List.length (s :: c))) (s :: c) = Ok q /\ plain (snd q) /\ List.length (snd q) < List.length (s :: c)).
    { unfold parse_selector. destruct (is_ty IDENT s) eqn:I.
      - assert (Pc : plain c).
        { apply is_ty_tok in I. rewrite I in P. inversion P as [|? ? [d W]| |]; subst; try discriminate. assumption. }
        destruct (parse_pseudos_ok (S (List.length (s :: c))) (eat_wss c)) as (l & r & E & Pr & Lr & _).
        { pose proof (eat_wss_len c). cbn. lia. } { now apply plain_eat. }
        rewrite E. eexists. split; [reflexivity|]. cbn. split; [exact Pr|]. pose proof (eat_wss_len c). lia.
      - assert (W := H s c eq_refl). rewrite eat_wss_cons, W.
        assert (C : is_ty COLON s = true).
        { inversion P as [|? ? W'| |]; subst; try (cbn in I; discriminate I); try reflexivity. apply ws_beq in W'. congruence. }
        destruct (parse_pseudos_ok (S (List.length (s :: c))) (s :: c)) as (l & r & E & Pr & Lr & Lt).
        { lia. } { exact P. }
        rewrite E. eexists. split; [reflexivity|]. cbn [snd]. split; [exact Pr|]. apply Lt.
        cbn [parse_pseudos] in E. destruct (parse_pseudo_plain c s P C) as (p & r' & E'). rewrite E' in E. cbn [obind] in E.
        destruct (parse_pseudos _ _) as [[l' r2]| |]; try discriminate. cbn in E. injection E as <- <-. discriminate. }
    destruct Q as (q & -> & Pq & Lq). cbn [obind].
    destruct (IH (eat_wss (snd q))) with (n := n) as [l ->].
    { pose proof (eat_wss_len (snd q)). lia. } { now apply plain_eat. } { intros s0 r0 E0. eapply eat_wss_head, E0. }
    { pose proof (eat_wss_len (snd q)). lia. }
    eexists. reflexivity.
Qed.

Lemma parse_pseudos_plain n c l r : parse_pseudos n c = Ok (l, r) -> plain r -> plain c.
Proof.
  revert c l r. induction n as [|n IH]; intros c l r E P; [discriminate|]. cbn [parse_pseudos] in E.
  destruct (parse_pseudo c) as [[[p r']|]| |] eqn:Q; try discriminate; cbn [obind] in E.
  - destruct (parse_pseudos n (eat_wss r')) as [[l' r2]| |] eqn:E'; try discriminate. cbn in E. injection E as <- <-.
    apply (parse_pseudo_some _ _ _ Q), plain_eat, (IH _ _ _ E' P).
  - now injection E as <- <-.
Qed.
Lemma loop_plain n c l : parse_list_loop n c = Ok l -> plain c.
Proof.
  revert c l. induction n as [|n IH]; intros c l E; [discriminate|]. cbn [parse_list_loop] in E.
  destruct c as [|s c]; [constructor|]. unfold parse_selector in E.
  assert (Q : forall x y, parse_pseudos (S (List.length (s :: c))) (eat_wss x) = Ok y -> plain (snd y) -> plain x).
  { intros x [a b] H P. apply plain_eat. eapply parse_pseudos_plain; [exact H|exact P]. }
  destruct (is_ty IDENT s) eqn:I.
  - destruct (parse_pseudos _ (eat_wss c)) as [q| |] eqn:E1; try discriminate. cbn [obind snd] in E.
    destruct (parse_list_loop n (eat_wss (snd q))) as [l'| |] eqn:E2; try discriminate.
    apply IH in E2. apply (proj1 (plain_eat _)) in E2. apply is_ty_tok in I. rewrite I. apply pl_name. exact (Q _ _ E1 E2).
  - destruct (parse_pseudos _ (eat_wss (s :: c))) as [q| |] eqn:E1; try discriminate. cbn [obind snd] in E.
    destruct (parse_list_loop n (eat_wss (snd q))) as [l'| |] eqn:E2; try discriminate.
    apply IH in E2. apply (proj1 (plain_eat _)) in E2. exact (Q _ _ E1 E2).
Qed.

(** Reading ends normally exactly on the preludes that are a sequence of names, pseudo-classes and
    white space. *)
Theorem C61_reading_page_selectors_ends_partial : forall c,
  (exists n l, parse_list n c = Ok l) <-> plain c.
Proof.
  intros c. split.
  - intros (n & l & E). apply plain_eat, (loop_plain _ _ _ E).
  - intros P. destruct (loop_ends (eat_wss c) _ (le_n _)) with (n := S (List.length (eat_wss c))) as [l E].
    + now apply plain_eat. + intros s r. apply eat_wss_head. + lia.
    + now exists (S (List.length (eat_wss c))), l.
Qed.
Print Assumptions C61_reading_page_selectors_ends_partial.

(** One selector, written without space, is read as itself. *)
Definition pseudo_name (x : pseudo) : str :=
  match x with FIRST => of_string "first" | BLANK => of_string "blank" | LEFT => of_string "left" | RIGHT => of_string "right" end.
Definition write_pseudo (x : pseudo) : list sst := [TOK (mkT COLON (of_string ":")); TOK (mkT IDENT (pseudo_name x))].
Definition write (s : page_selector) : list sst :=
  match s_name s with [] => [] | n => [TOK (mkT IDENT n)] end ++ flat_map write_pseudo (s_pseudos s).

Lemma parse_written n l : List.length l < n -> parse_pseudos n (flat_map write_pseudo l) = Ok (l, []).
Proof.
  revert l. induction n as [|n IH]; intros l L; [lia|]. destruct l as [|x l]; [reflexivity|].
  cbn in L. destruct x; cbn [flat_map write_pseudo app parse_pseudos parse_pseudo is_ty t_type ttype_beq eat_wss sst_data t_data pseudo_name obind];
    match goal with |- context [pseudo_of_name ?x] => let v := eval vm_compute in (pseudo_of_name x) in change (pseudo_of_name x) with v end;
    cbn [obind];
    (assert (E : eat_wss (flat_map write_pseudo l) = flat_map write_pseudo l) by (now destruct l as [|y l']));
    rewrite E, IH by lia; reflexivity.
Qed.
Theorem C61_one_page_selector : forall s, (s_name s <> [] \/ s_pseudos s <> []) ->
  exists n, parse_list n (write s) = Ok [s].
Proof.
  intros [nm l] H. cbn in H. exists 2. unfold parse_list, write. cbn [s_name s_pseudos].
  assert (E : eat_wss (flat_map write_pseudo l) = flat_map write_pseudo l) by (now destruct l as [|y l']).
  assert (L : forall k, List.length l < S (k + List.length (flat_map write_pseudo l))).
  { intros k. induction l as [|x l IH]; [cbn; lia|]. cbn [flat_map List.length]. rewrite app_length.
    assert (List.length (write_pseudo x) = 2) by reflexivity.
    assert (eat_wss (flat_map write_pseudo l) = flat_map write_pseudo l) by (now destruct l as [|y l']).
    destruct l as [|y l']; [cbn in *; lia|].
    assert (List.length (y :: l') < S (k + List.length (flat_map write_pseudo (y :: l')))).
    { apply IH; [right; discriminate|assumption]. } lia. }
  destruct nm as [|c nm].
  - cbn [app]. rewrite E. destruct l as [|x l]; [tauto|].
    cbn [parse_list_loop flat_map write_pseudo app].
    unfold parse_selector. cbn [is_ty t_type ttype_beq eat_wss].
    pose proof (parse_written (S (List.length (flat_map write_pseudo (x :: l)))) (x :: l) (L 0)) as P.
    cbn [flat_map write_pseudo app] in P. rewrite P. reflexivity.
  - cbn [app eat_wss t_type ttype_beq parse_list_loop]. unfold parse_selector. cbn [is_ty t_type ttype_beq sst_data t_data].
    rewrite E, parse_written; [reflexivity|]. cbn [List.length]. exact (L 1).
Qed.
Print Assumptions C61_one_page_selector.
Example C61_selector_sample : exists n, parse_list n (write (mkSel (of_string "toc") [FIRST; LEFT])) = Ok [mkSel (of_string "toc") [FIRST; LEFT]].
Proof. apply C61_one_page_selector. left. discriminate. Qed.

(** A list of two selectors, [a, b] (css-page-3 separates them with commas), is read for ever; so is
    an unknown pseudo-class; and a colon at the end reads past the end. *)
Theorem C61_reading_page_selectors_ends_refuted :
  (forall n, parse_list n [TOK (mkT IDENT (of_string "a")); TOK (mkT COMMA (of_string ",")); TOK (mkT IDENT (of_string "b"))] = OutOfFuel) /\
  (forall n, parse_list n [TOK (mkT COLON (of_string ":")); TOK (mkT IDENT (of_string "nth"))] = OutOfFuel) /\
  (exists n, parse_list n [TOK (mkT COLON (of_string ":"))] = Panic).
Proof.
  split; [|split].
  - assert (S : forall n, parse_list_loop n [TOK (mkT COMMA (of_string ",")); TOK (mkT IDENT (of_string "b"))] = OutOfFuel).
    { induction n as [|n IH]; [reflexivity|]. cbn - [of_string]. cbn - [of_string] in IH. now rewrite IH. }
    intros [|n]; [reflexivity|]. unfold parse_list. cbn - [of_string]. specialize (S n). cbn - [of_string] in S. now rewrite S.
  - intros n. unfold parse_list. cbn [eat_wss t_type ttype_beq].
    induction n as [|n IH]; [reflexivity|]. cbn - [of_string pseudo_of_name].
    change (pseudo_of_name (of_string "nth")) with (@None pseudo). cbn - [of_string]. cbn - [of_string] in IH. now rewrite IH.
  - exists 1. reflexivity.
Qed.
Print Assumptions C61_reading_page_selectors_ends_refuted.
