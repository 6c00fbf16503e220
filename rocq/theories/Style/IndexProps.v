(** C07: looking rules up in the index. *)
From Coq Require Import String List NArith ZArith Bool Arith Lia.
From Verif.Base Require Import Str.
From Verif.Style Require Import AnBModel CascadeModel CascadeSpec CascadeProofs
  SelectorModel SelectorSpec SelectorProofs SelectorProps IndexModel IndexSpec IndexProofs.
Import ListNotations.
Local Open Scope list_scope.

(** Full statement: [index_match (build rules) t p pe = Some (linear t p pe rules)] for all
    rules and elements.

    What holds (elements with different attribute names, no [[*|x="v" i]], rules whose matching
    does not panic): the index returns exactly the matching rules, in order; each with the
    specificity of its match unless it is a selector list; each once unless it contains a
    combinator. *)
Theorem C07_lookup_partial : forall t p pe d rules,
  elem_at t p = Some d -> plain_element d ->
  (forall s, In s rules -> has_args s = true /\ indexable s = true) ->
  exists out, index_match (build rules) t p pe = Some out /\
    listing t p pe index_ok (number 1 rules) out.
Proof. exact index_listing. Qed.
Print Assumptions C07_lookup_partial.

Lemma listing_linear t p pe l out :
  (forall e, In e l -> is_list (ie_rule e) = false /\ is_complex (ie_rule e) = false) ->
  listing t p pe index_ok l out ->
  out = flat_map (fun e => match match_selector t (ie_rule e) p pe with
                           | Some (Some sp) => [(e, sp)] | _ => [] end) l.
Proof.
  intros Hl H. induction H as [|e l out Hm _ IH|e l out sp sp' n Hm Hn [Hs Hc] _ IH]; simpl.
  - reflexivity.
  - rewrite Hm. apply IH. intros x Hx. apply Hl. now right.
  - rewrite Hm. destruct (Hl e (or_introl eq_refl)) as [H1 H2].
    rewrite (Hs H1), (Hc H2). simpl. f_equal. apply IH. intros x Hx. apply Hl. now right.
Qed.

(** For compound selectors the index is exact. *)
Theorem C07_compounds_exact_partial : forall t p pe d rules,
  elem_at t p = Some d -> plain_element d ->
  (forall s, In s rules -> has_args s = true /\ indexable s = true /\ is_list s = false /\ is_complex s = false) ->
  index_match (build rules) t p pe = Some (linear t p pe rules).
Proof.
  intros t p pe d rules Hd Hp Hr.
  destruct (index_listing t p pe d rules Hd Hp) as (out & H1 & H2).
  { intros s Hs. destruct (Hr s Hs) as (? & ? & ? & ?). auto. }
  rewrite H1. f_equal. apply listing_linear; [|exact H2].
  assert (Hin : forall i e, In e (number i rules) -> In (ie_rule e) rules).
  { clear. induction rules as [|s l IH]; simpl; [tauto|]. intros i e [<-|H]; [now left|right; eauto]. }
  intros e He. apply Hin in He. apply Hr in He. tauto.
Qed.
Print Assumptions C07_compounds_exact_partial.

(** ** Through the cascade: repeating a rule does not change which declaration wins *)

(** style/computer.cpp:362-365: the declarations of the matched rules. [body] gives the
    declarations and origin of the rule at a position of the sheet. *)
Definition declared {V} (body : nat -> list (property V) * origin) (out : matching_rules)
  : list (property V * origin * specificity) :=
  flat_map (fun es => map (fun pr => (pr, snd (body (ie_order (fst es))), snd es))
                        (fst (body (ie_order (fst es))))) out.

Lemma wins_dup {V} (a D b : list (str * (weight * V))) n v :
  wins (a ++ D ++ D ++ b) n v <-> wins (a ++ D ++ b) n v.
Proof.
  pose proof weaker_irrefl as Hirr.
  split; intros (l1 & w & l2 & H & Hb & Ha).
  - (* locate the winner *)
    assert (Hcase : (exists a2, a = l1 ++ (n, (w, v)) :: a2 /\ l2 = a2 ++ D ++ D ++ b) \/
      (exists D1 D2, D = D1 ++ (n, (w, v)) :: D2 /\ l1 = a ++ D1 /\ l2 = D2 ++ D ++ b) \/
      (exists D1 D2, D = D1 ++ (n, (w, v)) :: D2 /\ l1 = a ++ D ++ D1 /\ l2 = D2 ++ b) \/
      (exists b1, b = b1 ++ (n, (w, v)) :: l2 /\ l1 = a ++ D ++ D ++ b1)).
    { assert (Hsplit : forall (x y u z : list (str * (weight * V))) e, x ++ y = u ++ e :: z ->
        (exists x2, x = u ++ e :: x2 /\ z = x2 ++ y) \/ (exists y1, y = y1 ++ e :: z /\ u = x ++ y1)).
      { clear. induction x as [|h x IH]; intros y u z e E; simpl in E.
        - right. exists u. auto.
        - destruct u as [|h' u]; simpl in E; injection E as -> E.
          + left. exists x. auto.
          + apply IH in E as [(x2 & -> & ->)|(y1 & -> & ->)]; [left; exists x2; auto|right; exists y1; auto]. }
      apply Hsplit in H as [(x2 & -> & ->)|(y1 & H & ->)]; [left; exists x2; auto|right].
      apply Hsplit in H as [(x2 & H & ->)|(y2 & H & ->)]; [left; exists y1, x2; rewrite H; auto|right].
      apply Hsplit in H as [(x2 & H & ->)|(y3 & H & ->)]; [left; exists y2, x2; rewrite H; auto|right].
      exists y3. auto. }
    destruct Hcase as [(a2 & -> & ->)|[(D1 & D2 & HD & -> & ->)|[(D1 & D2 & HD & -> & ->)|(b1 & -> & ->)]]].
    + exists l1, w, (a2 ++ D ++ b). split; [now rewrite <- app_assoc|]. split; [exact Hb|].
      intros w' v' Hin. apply (Ha w' v'). rewrite !in_app_iff in *. tauto.
    + exfalso. apply (Hirr w). apply (Ha w v). rewrite !in_app_iff. right. left. rewrite HD, in_app_iff. right. now left.
    + exists (a ++ D1), w, (D2 ++ b). split; [rewrite HD, <- !app_assoc; reflexivity|]. split; [|exact Ha].
      intros w' v' Hin. apply (Hb w' v'). rewrite !in_app_iff in *. tauto.
    + exists (a ++ D ++ b1), w, l2. split; [rewrite <- !app_assoc; reflexivity|]. split; [|exact Ha].
      intros w' v' Hin. apply (Hb w' v'). rewrite !in_app_iff in *. tauto.
  - assert (Hcase : (exists a2, a = l1 ++ (n, (w, v)) :: a2 /\ l2 = a2 ++ D ++ b) \/
      (exists D1 D2, D = D1 ++ (n, (w, v)) :: D2 /\ l1 = a ++ D1 /\ l2 = D2 ++ b) \/
      (exists b1, b = b1 ++ (n, (w, v)) :: l2 /\ l1 = a ++ D ++ b1)).
    { assert (Hsplit : forall (x y u z : list (str * (weight * V))) e, x ++ y = u ++ e :: z ->
        (exists x2, x = u ++ e :: x2 /\ z = x2 ++ y) \/ (exists y1, y = y1 ++ e :: z /\ u = x ++ y1)).
      { clear. induction x as [|h x IH]; intros y u z e E; simpl in E.
        - right. exists u. auto.
        - destruct u as [|h' u]; simpl in E; injection E as -> E.
          + left. exists x. auto.
          + apply IH in E as [(x2 & -> & ->)|(y1 & -> & ->)]; [left; exists x2; auto|right; exists y1; auto]. }
      apply Hsplit in H as [(x2 & -> & ->)|(y1 & H & ->)]; [left; exists x2; auto|right].
      apply Hsplit in H as [(x2 & H & ->)|(y2 & H & ->)]; [left; exists y1, x2; rewrite H; auto|right].
      exists y2. auto. }
    destruct Hcase as [(a2 & -> & ->)|[(D1 & D2 & HD & -> & ->)|(b1 & -> & ->)]].
    + exists l1, w, (a2 ++ D ++ D ++ b). split; [now rewrite <- app_assoc|]. split; [exact Hb|].
      intros w' v' Hin. apply (Ha w' v'). rewrite !in_app_iff in *. tauto.
    + exists (a ++ D ++ D1), w, (D2 ++ b). split; [rewrite HD at 2; rewrite <- !app_assoc; reflexivity|].
      split; [|exact Ha].
      intros w' v' Hin. rewrite !in_app_iff in Hin. destruct Hin as [Hin|[Hin|Hin]].
      * apply (Hb w' v'). rewrite in_app_iff. tauto.
      * rewrite HD in Hin. apply in_app_or in Hin as [Hin|[Hin|Hin]].
        -- apply (Hb w' v'). rewrite in_app_iff. tauto.
        -- injection Hin as <- <-. apply Hirr.
        -- intros Hw. assert (Hw' : weaker w' w) by (apply (Ha w' v'); rewrite in_app_iff; tauto).
           eapply weaker_irrefl, weaker_trans; eassumption.
      * apply (Hb w' v'). rewrite in_app_iff. tauto.
    + exists (a ++ D ++ D ++ b1), w, l2. split; [rewrite <- !app_assoc; reflexivity|]. split; [|exact Ha].
      intros w' v' Hin. apply (Hb w' v'). rewrite !in_app_iff in *. tauto.
Qed.

Lemma all_longhands_app {V} (a b : list (property V * origin * specificity)) :
  all_longhands (a ++ b) = all_longhands a ++ all_longhands b.
Proof. apply flat_map_app. Qed.

Lemma declared_repeat {V} (body : nat -> list (property V) * origin) es n :
  declared body (repeat es n) = concat (repeat (declared body [es]) n).
Proof. induction n as [|n IH]; [reflexivity|]. cbn [repeat concat]. rewrite <- IH. unfold declared. cbn [flat_map]. now rewrite app_nil_r. Qed.

Lemma wins_repeat {V} (D : list (str * (weight * V))) n : n <> 0 -> forall a b k v,
  wins (a ++ concat (repeat D n) ++ b) k v <-> wins (a ++ D ++ b) k v.
Proof.
  intros Hn. destruct n as [|n]; [congruence|]. clear Hn.
  induction n as [|n IH]; intros a b k v.
  - simpl. rewrite app_nil_r. reflexivity.
  - specialize (IH a (D ++ b) k v). cbn [repeat concat] in *.
    assert (Hc : forall m, concat (repeat D m) ++ D = D ++ concat (repeat D m)).
    { clear. induction m as [|m IH]; simpl; [now rewrite app_nil_r|]. rewrite <- app_assoc, IH. reflexivity. }
    rewrite <- !app_assoc in *. rewrite (app_assoc (concat _) D b), Hc, <- app_assoc in IH.
    rewrite IH. apply wins_dup.
Qed.

Lemma all_longhands_concat {V} (D : list (property V * origin * specificity)) n :
  all_longhands (concat (repeat D n)) = concat (repeat (all_longhands D) n).
Proof. induction n as [|n IH]; simpl; [reflexivity|]. now rewrite all_longhands_app, IH. Qed.

Lemma listing_wins {V} (body : nat -> list (property V) * origin) t p pe l out :
  (forall e, In e l -> is_list (ie_rule e) = false) ->
  listing t p pe index_ok l out ->
  forall a k v,
  wins (a ++ all_longhands (declared body out)) k v <->
  wins (a ++ all_longhands (declared body
     (flat_map (fun e => match match_selector t (ie_rule e) p pe with
                         | Some (Some sp) => [(e, sp)] | _ => [] end) l))) k v.
Proof.
  intros Hl H. induction H as [|e l out Hm _ IH|e l out sp sp' n Hm Hn [Hs Hc] _ IH]; intros a k v; simpl.
  - reflexivity.
  - rewrite Hm. apply IH. intros x Hx. apply Hl. now right.
  - rewrite Hm. rewrite (Hs (Hl e (or_introl eq_refl))).
    unfold declared at 1 2. rewrite !flat_map_app. fold (declared body (repeat (e, sp) n)).
    fold (declared body [(e, sp)]). fold (declared body out).
    rewrite declared_repeat, !all_longhands_app, all_longhands_concat.
    rewrite wins_repeat by exact Hn. rewrite !app_assoc. apply IH. intros x Hx. apply Hl. now right.
Qed.

Lemma well_formed_incl {V} (ds ds' : list (property V * origin * specificity)) :
  well_formed ds -> (forall pr o s, In (pr, o, s) ds' -> exists o' s', In (pr, o', s') ds) -> well_formed ds'.
Proof.
  intros (lh & H1 & H2) Hin. exists lh. split; [|exact H2].
  intros pr o s Hi. destruct (Hin _ _ _ Hi) as (o' & s' & H). eapply H1, H.
Qed.

(** The declarations of all the rules of the sheet. *)
Definition sheet_declarations {V} (body : nat -> list (property V) * origin) (rules : list selector) :=
  declared body (map (fun e => (e, spec_zero)) (number 1 rules)).

(** The cascaded value computed from the rules the index returns is the one CSS prescribes for
    the rules that match, for every style sheet without selector lists. *)
Theorem C07_cascade_partial : forall V (body : nat -> list (property V) * origin) t p pe d rules,
  elem_at t p = Some d -> plain_element d ->
  (forall s, In s rules -> has_args s = true /\ indexable s = true /\ is_list s = false) ->
  well_formed (sheet_declarations body rules) ->
  exists out, index_match (build rules) t p pe = Some out /\
  forall n v,
  (exists e, lookup (c_entries (cascade (declared body out))) n = Some e /\ e_value e = v) <->
  wins (all_longhands (declared body (linear t p pe rules))) n v.
Proof.
  intros V body t p pe d rules Hd Hp Hr Hw.
  destruct (index_listing t p pe d rules Hd Hp) as (out & H1 & H2).
  { intros s Hs. destruct (Hr s Hs) as (? & ? & ?). auto. }
  exists out. split; [exact H1|]. intros n v.
  assert (Hin : forall i e, In e (number i rules) -> In (ie_rule e) rules).
  { clear. induction rules as [|s l IH]; simpl; [tauto|]. intros i e [<-|H]; [now left|right; eauto]. }
  assert (Hl : forall e, In e (number 1 rules) -> is_list (ie_rule e) = false).
  { intros e He. apply Hin in He. apply Hr in He. tauto. }
  assert (Hsub : forall e sp, In (e, sp) out -> In e (number 1 rules)).
  { clear -H2. induction H2 as [|e l out _ _ IH|e l out sp sp' n _ Hn _ _ IH]; intros e' s'; simpl; [tauto| |].
    - intros H. right. eauto.
    - intros H. apply in_app_or in H as [H|H]; [left|right; eauto].
      apply repeat_spec in H. congruence. }
  rewrite cascade_winner.
  - apply (listing_wins body t p pe (number 1 rules) out Hl H2 [] n v).
  - eapply well_formed_incl; [exact Hw|]. intros pr o s Hi.
    unfold declared in Hi. apply in_flat_map in Hi as ([e sp] & He & Hi). simpl in Hi.
    apply in_map_iff in Hi as (pr' & [= <- <- <-] & Hpr).
    exists (snd (body (ie_order e))), spec_zero. unfold sheet_declarations, declared.
    apply in_flat_map. exists (e, spec_zero). split; [apply in_map_iff; eauto|].
    apply in_map_iff. exists pr'. auto.
Qed.
Print Assumptions C07_cascade_partial.

(** ** Example: a sheet with compounds, combinators and a list *)

Definition nm (s : string) : selector := TypeSel (mkQS NsUniversal (NameExact (of_string s))).
Definition cl (s : string) : selector := ClassSel (of_string s).
Definition ex_sheet : list selector :=
  [nm "p"; Nfix AND [nm "p"; cl "x"]; Infix DESCENDANT (nm "div") (Nfix AND [nm "p"; cl "x"]);
   Nfix AND [cl "x"; PseudoClass LAST_CHILD]; Nfix OR [nm "h1"; cl "x"]; cl "y"].

Example C07_ex_hyps :
  (exists d, elem_at ex_tree [0; 0] = Some d /\ plain_element d) /\
  (forall s, In s ex_sheet -> has_args s = true /\ indexable s = true).
Proof.
  split.
  - eexists. split; [reflexivity|]. split; repeat constructor; simpl; tauto.
  - intros s Hs. simpl in Hs.
    repeat (destruct Hs as [<-|Hs]; [split; reflexivity|]). destruct Hs.
Qed.

Example C07_ex :
  option_map (map (fun x => (ie_order (fst x), snd x)))
    (index_match (build ex_sheet) ex_tree [0; 0] None) =
  Some [(1, mkSpec 0 0 1); (2, mkSpec 0 1 1); (3, mkSpec 0 1 2); (3, mkSpec 0 1 2); (5, mkSpec 0 1 0)].
Proof. vm_compute. reflexivity. Qed.

(** ** Where the index and the matcher disagree *)

(** [p, .x] on [<p class="x">] gets the sum of the two specificities... *)
Theorem C07_list_specificity_refuted : exists t p rules,
  is_elem t p /\
  index_match (build rules) t p None <> Some (linear t p None rules) /\
  (* ... so that it beats the equally specific, later [.x] *)
  exists out, index_match (build rules) t p None = Some out /\
  let body (i : nat) := ([mkProp (of_string "color") i false false None], AUTHOR) in
  (exists e, lookup (c_entries (cascade (declared body out))) (of_string "color") = Some e /\ e_value e = 1) /\
  wins (all_longhands (declared body (linear t p None rules))) (of_string "color") 2.
Proof.
  exists (elc "p" "x" []), [], [Nfix OR [nm "p"; cl "x"]; cl "x"].
  split; [eexists; reflexivity|]. split; [discriminate|].
  eexists. split; [reflexivity|]. cbv zeta. split.
  - eexists. split; reflexivity.
  - exists [(of_string "color", (mkWeight false AUTHOR (mkSpec 0 1 0), 1))], (mkWeight false AUTHOR (mkSpec 0 1 0)), [].
    split; [reflexivity|]. split; [|intros ? ? []].
    intros w' v' [[= <- _]|[]]. apply weaker_irrefl.
Qed.
Print Assumptions C07_list_specificity_refuted.

(** A complex rule whose subject is a compound is reported several times. *)
Theorem C07_once_refuted : exists t p rules out e,
  is_elem t p /\ index_match (build rules) t p None = Some out /\ out = [e; e].
Proof.
  exists ex_tree, [0; 0], [Infix DESCENDANT (nm "div") (Nfix AND [nm "p"; cl "x"])].
  do 2 eexists. split; [eexists; reflexivity|]. split; reflexivity.
Qed.
Print Assumptions C07_once_refuted.

(** [[*|lang="EN" i]] matches [lang="en"] but is not found. *)
Theorem C07_insensitive_refuted : exists t p s sp,
  is_elem t p /\ match_selector t s p None = Some (Some sp) /\ index_match (build [s]) t p None = Some [].
Proof.
  exists (Elem (mkE (tag "p") [(mkQ None (of_string "lang"), of_string "en")] []) []), [],
    (AttrSel (mkAttr (mkQS NsUniversal (NameExact (of_string "lang"))) true EXACT (of_string "EN"))).
  eexists. split; [eexists; reflexivity|]. split; reflexivity.
Qed.
Print Assumptions C07_insensitive_refuted.

(** [[*|href].x] is reported for an element without the class [x] that has two attributes with
    local name [href]. *)
Theorem C07_attribute_names_refuted : exists t p s,
  is_elem t p /\ match_selector t s p None = Some None /\ index_match (build [s]) t p None <> Some [].
Proof.
  exists (Elem (mkE (tag "a") [(mkQ None (of_string "href"), of_string "#"); (mkQ (Some (of_string "xlink")) (of_string "href"), of_string "#")] []) []),
    [], (Nfix AND [AttrSel (mkAttr (mkQS NsUniversal (NameExact (of_string "href"))) false PRESENT []); cl "x"]).
  split; [eexists; reflexivity|]. split; [reflexivity|]. discriminate.
Qed.
Print Assumptions C07_attribute_names_refuted.
