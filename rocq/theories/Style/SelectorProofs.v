From Coq Require Import String List NArith ZArith Bool Arith Lia.
From Verif.Base Require Import Str.
From Verif.Style Require Import AnBModel AnBProofs CascadeModel CascadeSpec CascadeProofs SelectorModel SelectorSpec.
Import ListNotations.
Local Open Scope list_scope.

(** * Induction on selectors *)

Section SelInd.
  Variable P : selector -> Prop.
  Hypothesis HNfix : forall ty l, Forall P l -> P (Nfix ty l).
  Hypothesis HInfix : forall ty l r, P l -> P r -> P (Infix ty l r).
  Hypothesis HType : forall q, P (TypeSel q).
  Hypothesis HEmpty : P EmptySel.
  Hypothesis HId : forall i, P (IdSel i).
  Hypothesis HClass : forall c, P (ClassSel c).
  Hypothesis HPE : forall ty, P (PseudoElemSel ty).
  Hypothesis HPC : forall ty, P (PseudoClass ty).
  Hypothesis HPCA : forall ty ab, P (PseudoClassAnB ty ab).
  Hypothesis HPCAo : forall ty ab s, P s -> P (PseudoClassAnBof ty ab s).
  Hypothesis HAttr : forall a, P (AttrSel a).

  Fixpoint selector_ind' (s : selector) : P s :=
    match s with
    | Nfix ty l => HNfix ty l
        ((fix go l : Forall P l :=
            match l with
            | [] => Forall_nil P
            | x :: l' => Forall_cons x (selector_ind' x) (go l')
            end) l)
    | Infix ty l r => HInfix ty l r (selector_ind' l) (selector_ind' r)
    | TypeSel q => HType q
    | EmptySel => HEmpty
    | IdSel i => HId i
    | ClassSel c => HClass c
    | PseudoElemSel ty => HPE ty
    | PseudoClass ty => HPC ty
    | PseudoClassAnB ty ab => HPCA ty ab
    | PseudoClassAnBof ty ab s => HPCAo ty ab s (selector_ind' s)
    | AttrSel a => HAttr a
    end.
End SelInd.

(** * Small reflections *)

Definition reflects (o : option bool) (P : Prop) : Prop :=
  exists b, o = Some b /\ (b = true <-> P).

Lemma reflects_some b P : (b = true <-> P) -> reflects (Some b) P.
Proof. intros H. exists b. auto. Qed.

Lemma reflects_iff o P Q : (P <-> Q) -> reflects o P -> reflects o Q.
Proof. intros H (b & -> & Hb). exists b. split; [reflexivity|]. now rewrite Hb. Qed.

Lemma oex_reflects {A} (f : A -> option bool) (P : A -> Prop) l :
  (forall x, In x l -> reflects (f x) (P x)) ->
  reflects (oex f l) (exists x, In x l /\ P x).
Proof.
  induction l as [|x l IH]; intros H.
  - exists false. split; [reflexivity|]. split; [discriminate|]. intros (x & [] & _).
  - destruct (H x (or_introl eq_refl)) as (b & Hb & Hbp). simpl. rewrite Hb. destruct b.
    + exists true. split; [reflexivity|]. split; [|reflexivity]. intros _. exists x.
      split; [now left|]. now apply Hbp.
    + destruct IH as (b' & Hb' & Hbp'); [intros y Hy; apply H; now right|].
      exists b'. split; [exact Hb'|]. rewrite Hbp'. split.
      * intros (y & Hy & Hp). exists y. split; [now right|exact Hp].
      * intros (y & [<-|Hy] & Hp); [apply Hbp in Hp; discriminate|]. eauto.
Qed.

Lemma oall_reflects {A} (f : A -> option bool) (P : A -> Prop) l :
  (forall x, In x l -> reflects (f x) (P x)) ->
  reflects (oall f l) (forall x, In x l -> P x).
Proof.
  induction l as [|x l IH]; intros H.
  - exists true. split; [reflexivity|]. split; [|reflexivity]. intros _ x [].
  - destruct (H x (or_introl eq_refl)) as (b & Hb & Hbp). simpl. rewrite Hb. destruct b.
    + destruct IH as (b' & Hb' & Hbp'); [intros y Hy; apply H; now right|].
      exists b'. split; [exact Hb'|]. rewrite Hbp'. split.
      * intros Hy y [<-|Hin]; [now apply Hbp|auto].
      * intros Hy y Hin. auto.
    + exists false. split; [reflexivity|]. split; [discriminate|]. intros Hy.
      assert (P x) as Hx by auto. apply Hbp in Hx. discriminate.
Qed.

Lemma ocount_reflects {A} (f : A -> option bool) (P : A -> Prop) l :
  NoDup l ->
  (forall x, In x l -> reflects (f x) (P x)) ->
  exists k, ocount f l = Some (length k) /\ NoDup k /\ (forall x, In x k <-> In x l /\ P x).
Proof.
  induction l as [|x l IH]; intros Hnd H.
  - exists []. simpl. split; [reflexivity|]. split; [constructor|]. intros y. tauto.
  - inversion Hnd as [|? ? Hni Hnd']; subst.
    destruct (H x (or_introl eq_refl)) as (b & Hb & Hbp).
    destruct IH as (k & Hk & Hkn & Hki); [exact Hnd'|intros y Hy; apply H; now right|].
    simpl. rewrite Hb, Hk. destruct b.
    + exists (x :: k). split; [reflexivity|]. split.
      * constructor; [|exact Hkn]. rewrite Hki. tauto.
      * intros y. simpl. rewrite Hki. split.
        -- intros [<-|[H1 H2]]; [|tauto]. split; [now left|]. now apply Hbp.
        -- intros [[<-|H1] H2]; tauto.
    + exists k. split; [reflexivity|]. split; [exact Hkn|]. intros y. simpl. rewrite Hki.
      split; [tauto|]. intros [[<-|H1] H2]; [apply Hbp in H2; discriminate|tauto].
Qed.

Lemma any_of_ex {A} (P : A -> Prop) l : any_of P l <-> exists x, In x l /\ P x.
Proof.
  induction l as [|x l IH]; simpl.
  - split; [intros []|intros (x & [] & _)].
  - rewrite IH. split.
    + intros [H|(y & H1 & H2)]; eauto.
    + intros (y & [<-|H1] & H2); eauto.
Qed.

Lemma all_of_all {A} (P : A -> Prop) l : all_of P l <-> forall x, In x l -> P x.
Proof.
  induction l as [|x l IH]; simpl.
  - split; [intros _ x []|auto].
  - rewrite IH. split.
    + intros [H1 H2] y [<-|Hy]; auto.
    + intros H. split; auto.
Qed.

(** * Names and attributes *)

Lemma opt_str_eqb a b : opt_eqb str_eqb a b = true <-> a = b.
Proof.
  destruct a, b; simpl; try (split; [discriminate|discriminate]); try tauto.
  rewrite str_eqb_spec. split; congruence.
Qed.

Lemma qname_eqb_spec a b : qname_eqb a b = true <-> a = b.
Proof.
  unfold qname_eqb. rewrite andb_true_iff, opt_str_eqb, str_eqb_spec.
  destruct a, b; simpl. split; [intros [-> ->]; reflexivity|intros H; injection H; auto].
Qed.

Lemma qsel_match_spec q n : qsel_match q n = true <-> name_sem q n.
Proof.
  unfold qsel_match, name_sem. rewrite andb_true_iff.
  assert (match qs_ns q with
          | NsNull => match q_ns n with None => true | Some _ => false end
          | NsUniversal => true
          | NsExact s => opt_eqb str_eqb (q_ns n) (Some s) end = true <->
          match qs_ns q with NsNull => q_ns n = None | NsUniversal => True | NsExact s => q_ns n = Some s end) as ->.
  { destruct (qs_ns q).
    - destruct (q_ns n); split; try discriminate; tauto.
    - tauto.
    - apply opt_str_eqb. }
  assert (match qs_name q with NameUniversal => true | NameExact s => str_eqb (q_name n) s end = true <->
          match qs_name q with NameUniversal => True | NameExact s => q_name n = s end) as ->.
  { destruct (qs_name q); [tauto|]. apply str_eqb_spec. }
  tauto.
Qed.

Lemma get_attribute_In m q v :
  NoDup (map fst m) -> get_attribute m q = Some v <-> In (q, v) m.
Proof.
  induction m as [|[k w] m IH]; simpl; intros Hnd.
  - split; [discriminate|tauto].
  - inversion Hnd as [|? ? Hni Hnd']; subst. destruct (qname_eqb k q) eqn:E.
    + apply qname_eqb_spec in E as ->. split.
      * intros H. injection H as ->. now left.
      * intros [H|H]; [congruence|]. exfalso. apply Hni. apply in_map_iff. exists (q, v). auto.
    + rewrite IH by exact Hnd'. split; [auto|]. intros [H|H]; [|exact H].
      injection H as -> ->. assert (qname_eqb q q = true) by now apply qname_eqb_spec. congruence.
Qed.

Definition cfold (ins : bool) (c : rune) : rune := if ins then to_ascii_lower c else c.

Lemma eqv_map ins x y : eqv ins x y <-> map (cfold ins) x = map (cfold ins) y.
Proof.
  unfold eqv, cfold. destruct ins; [tauto|]. now rewrite !map_id.
Qed.

Lemma attr_cmp_fold ins a b : attr_cmp ins a b = true <-> cfold ins a = cfold ins b.
Proof. unfold attr_cmp, cfold. destruct ins; apply N.eqb_eq. Qed.

Section Cmp.
  Variable f : rune -> rune.
  Variable cmp : rune -> rune -> bool.
  Hypothesis Hcmp : forall a b, cmp a b = true <-> f a = f b.

  Lemma start_with_yes s p : start_with cmp s p = YES <-> map f s = map f p.
  Proof.
    revert s; induction p as [|x p IH]; destruct s as [|y s]; simpl; try (split; congruence).
    destruct (cmp y x) eqn:E.
    - apply Hcmp in E. rewrite IH. split; [congruence|intros H; injection H; auto].
    - split; [discriminate|]. intros H. injection H as H _. apply Hcmp in H. congruence.
  Qed.

  Lemma start_with_prefix s p :
    start_with cmp s p <> NO <-> exists a r, s = a ++ r /\ map f a = map f p.
  Proof.
    revert s; induction p as [|x p IH]; intros s.
    - split; [|destruct s; discriminate]. intros _. exists [], s. auto.
    - destruct s as [|y s]; simpl.
      + split; [tauto|]. intros (a & r & H1 & H2). symmetry in H1. apply app_eq_nil in H1 as [-> ->].
        discriminate.
      + destruct (cmp y x) eqn:E.
        * apply Hcmp in E. rewrite IH. split.
          -- intros (a & r & -> & H). exists (y :: a), r. simpl. split; congruence.
          -- intros ([|z a] & r & H1 & H2); [discriminate|]. simpl in *. injection H1 as <- ->.
             injection H2 as _ H2. eauto.
        * split; [tauto|]. intros ([|z a] & r & H1 & H2); [discriminate|]. simpl in *.
          injection H1 as <- ->. injection H2 as H2 _. apply Hcmp in H2. congruence.
  Qed.

  Lemma start_with_partial s p :
    start_with cmp s p = PARTIAL <-> exists a c r, s = a ++ c :: r /\ map f a = map f p.
  Proof.
    destruct (start_with cmp s p) eqn:E.
    - split; [discriminate|]. intros (a & c & r & -> & H). exfalso.
      apply (proj2 (start_with_prefix (a ++ c :: r) p)); eauto.
    - split; [|reflexivity]. intros _.
      assert (start_with cmp s p <> NO) as H by congruence.
      apply start_with_prefix in H as (a & [|c r] & -> & H).
      + exfalso. rewrite app_nil_r in E. apply start_with_yes in H. congruence.
      + eauto.
    - split; [discriminate|]. intros (a & c & r & -> & H). exfalso.
      apply start_with_yes in E. rewrite map_app, H in E.
      rewrite <- (app_nil_r (map f p)) in E at 2. apply app_inv_head in E. discriminate.
  Qed.

  Lemma end_with_suffix s p :
    end_with cmp s p <> NO <-> exists r a, s = r ++ a /\ map f a = map f p.
  Proof.
    unfold end_with. rewrite start_with_prefix. split.
    - intros (a & r & H1 & H2). exists (rev r), (rev a). split.
      + rewrite <- rev_app_distr, <- H1. now rewrite rev_involutive.
      + rewrite map_rev, H2, map_rev, rev_involutive. reflexivity.
    - intros (r & a & -> & H). exists (rev a), (rev r). split; [apply rev_app_distr|].
      now rewrite !map_rev, H.
  Qed.

  Lemma contains_str_spec s p :
    contains_str cmp s p = true <-> exists r a r', s = r ++ a ++ r' /\ map f a = map f p.
  Proof.
    induction s as [|y s IH].
    - cbn [contains_str]. destruct (start_with cmp [] p) eqn:E.
      + split; [discriminate|]. intros (r & a & r' & H1 & H2). exfalso.
        symmetry in H1. apply app_eq_nil in H1 as [_ H1]. apply app_eq_nil in H1 as [-> _].
        simpl in H2. destruct p; discriminate.
      + split; [|reflexivity]. intros _. destruct p; [|discriminate]. exists [], [], []. auto.
      + split; [|reflexivity]. intros _. destruct p; [|discriminate]. exists [], [], []. auto.
    - assert (contains_str cmp (y :: s) p = true <->
              start_with cmp (y :: s) p <> NO \/ contains_str cmp s p = true) as ->.
      { cbn [contains_str]. destruct (start_with cmp (y :: s) p); split; auto; try (intros [H|H]; congruence).
        - intros _. left. discriminate.
        - intros _. left. discriminate. }
      rewrite start_with_prefix, IH. split.
      + intros [(a & r & -> & H)|(r & a & r' & -> & H)].
        * exists [], a, r. auto.
        * exists (y :: r), a, r'. auto.
      + intros ([|z r] & a & r' & H1 & H2).
        * left. exists a, r'. auto.
        * right. simpl in H1. injection H1 as <- ->. eauto.
  Qed.
End Cmp.

(** * Words *)

Definition nonspace (c : rune) : Prop := is_ascii_space c = false.

Lemma in_words_aux s cur w :
  Forall nonspace cur -> (In w (words_aux s cur) <-> is_word w (rev cur ++ s)).
Proof.
  revert cur; induction s as [|c s IH]; intros cur Hc; simpl.
  - rewrite app_nil_r. split.
    + destruct cur as [|x cur]; [intros []|]. intros [<-|[]]. split; [|split].
      * simpl. intros H. symmetry in H. apply app_cons_not_nil in H. exact H.
      * now apply Forall_rev.
      * exists [], []. rewrite app_nil_r. auto.
    + intros (Hne & Hns & a & b & Heq & Ha & Hb).
      assert (Hall : Forall nonspace (a ++ w ++ b)) by (rewrite <- Heq; now apply Forall_rev).
      apply Forall_app in Hall as [Ha' Hwb]. apply Forall_app in Hwb as [_ Hb'].
      destruct Ha as [->|(a' & x & -> & Hx)];
        [|apply Forall_app in Ha' as [_ Hx']; inversion Hx'; unfold nonspace in *; congruence].
      destruct Hb as [->|(x & b' & -> & Hx)];
        [|inversion Hb'; unfold nonspace in *; congruence].
      simpl in Heq. rewrite app_nil_r in Heq. subst w.
      destruct cur as [|x cur]; [contradiction|]. now left.
  - destruct (is_ascii_space c) eqn:Ec.
    + assert (Hw : In w (match cur with [] => words_aux s [] | _ :: _ => rev cur :: words_aux s [] end)
                <-> (cur <> [] /\ w = rev cur) \/ In w (words_aux s [])).
      { destruct cur; simpl; split; try tauto.
        - intros [H|H]; [left; split; [discriminate|auto]|auto].
        - intros [[_ H]|H]; auto. }
      rewrite Hw, IH by constructor. simpl. clear Hw. split.
      * intros [[Hne ->]|(Hne & Hns & a & b & -> & Ha & Hb)].
        -- split; [|split].
           ++ intros H. apply Hne. apply (f_equal (@rev rune)) in H. now rewrite rev_involutive in H.
           ++ now apply Forall_rev.
           ++ exists [], (c :: s). split; [reflexivity|]. split; [now left|]. right. eauto.
        -- split; [exact Hne|]. split; [exact Hns|]. exists (rev cur ++ c :: a), b.
           split; [now rewrite <- app_assoc|]. split; [|exact Hb]. right.
           destruct Ha as [->|(a' & x & -> & Hx)].
           ++ exists (rev cur), c. auto.
           ++ exists (rev cur ++ c :: a'), x. rewrite <- app_assoc. auto.
      * intros (Hne & Hns & a & b & Heq & Ha & Hb).
        apply app_eq_app in Heq as [l [[H1 H2]|[H1 H2]]].
        -- (* rev cur = a ++ l, w ++ b = l ++ c :: s *)
           assert (Ha0 : a = []).
           { destruct Ha as [Ha|(a' & x & -> & Hx)]; [exact Ha|].
             assert (Hall : Forall nonspace (rev cur)) by now apply Forall_rev.
             rewrite H1 in Hall. apply Forall_app in Hall as [Hall _].
             apply Forall_app in Hall as [_ Hall]. inversion Hall; unfold nonspace in *; congruence. }
           subst a. simpl in H1. symmetry in H1. subst l.
           apply app_eq_app in H2 as [l [[H3 H4]|[H3 H4]]].
           ++ (* w = rev cur ++ l, c :: s = l ++ b *)
              destruct l as [|x l].
              ** rewrite app_nil_r in H3. left. split; [|exact H3]. intros ->. now subst w.
              ** simpl in H4. injection H4 as <- ->. rewrite H3 in Hns.
                 apply Forall_app in Hns as [_ Hns]. inversion Hns; congruence.
           ++ (* rev cur = w ++ l, b = l ++ c :: s *)
              destruct Hb as [->|(x & b' & -> & Hx)].
              ** symmetry in H4. apply app_eq_nil in H4 as [_ H4]. discriminate.
              ** destruct l as [|y l].
                 --- rewrite app_nil_r in H3. left. split; [|now symmetry]. intros ->.
                     simpl in H3. now subst w.
                 --- simpl in H4. injection H4 as <- _.
                     assert (Hall : Forall nonspace (rev cur)) by now apply Forall_rev.
                     rewrite H3 in Hall. apply Forall_app in Hall as [_ Hall].
                     inversion Hall; unfold nonspace in *; congruence.
        -- (* a = rev cur ++ l, c :: s = l ++ w ++ b *)
           destruct l as [|x l].
           ++ rewrite app_nil_r in H1. subst a. simpl in H2.
              destruct w as [|y w]; [contradiction|]. simpl in H2. injection H2 as <- _.
              inversion Hns; congruence.
           ++ simpl in H2. injection H2 as <- ->. right.
              split; [exact Hne|]. split; [exact Hns|]. exists l, b. split; [reflexivity|].
              split; [|exact Hb].
              destruct l as [|y l]; [now left|]. right.
              destruct Ha as [->|(a' & x & Heq & Hx)].
              { symmetry in H1. apply app_eq_nil in H1 as [_ H1]. discriminate. }
              assert (exists l', y :: l = l' ++ [x]) as [l' Hl'].
              { destruct (exists_last (l := y :: l)) as (l' & z & Hz); [discriminate|].
                rewrite Hz in H1. rewrite H1 in Heq.
                change (c :: l' ++ [z]) with ((c :: l') ++ [z]) in Heq.
                rewrite app_assoc in Heq. apply app_inj_tail in Heq as [_ ->]. eauto. }
              exists l', x. auto.
    + rewrite IH by (constructor; assumption). simpl. now rewrite <- app_assoc.
Qed.

Lemma in_words s w : In w (words s) <-> is_word w s.
Proof. unfold words. rewrite in_words_aux by constructor. reflexivity. Qed.

Lemma is_no_false m : negb (is_no m) = true <-> m <> NO.
Proof. destruct m; simpl; split; congruence. Qed.

Lemma is_yes_true m : is_yes m = true <-> m = YES.
Proof. destruct m; simpl; split; congruence. Qed.

Lemma lower_space c : to_ascii_lower c = 32%N -> c = 32%N.
Proof.
  unfold to_ascii_lower. destruct ((65 <=? c)%N && (c <=? 90)%N) eqn:E; [|auto].
  apply andb_true_iff in E as [E1 E2]. apply N.leb_le in E1. lia.
Qed.

Lemma attr_value_sem mt ins av val :
  mt <> PRESENT ->
  (match mt with
      | PRESENT => true
      | EXACT => is_yes (start_with (attr_cmp ins) av val)
      | CONTAINS =>
          if existsb (N.eqb 32) val then false
          else match val with [] => false | _ => contains_word (attr_cmp ins) av val end
      | HYPHENATED =>
          match start_with (attr_cmp ins) av val with
          | YES => true
          | NO => false
          | PARTIAL => match nth_error av (length val) with
                       | Some c => N.eqb c 45
                       | None => false
                       end
          end
      | STR_START_WITH =>
          match val with [] => false | _ => negb (is_no (start_with (attr_cmp ins) av val)) end
      | STR_END_WITH =>
          match val with [] => false | _ => negb (is_no (end_with (attr_cmp ins) av val)) end
      | STR_CONTAIN =>
          match val with [] => false | _ => contains_str (attr_cmp ins) av val end
      end = true) <-> value_sem mt ins av val.
Proof.
  pose proof (attr_cmp_fold ins) as Hc. intros Hmt.
  assert (Hval : forall b, match val with [] => false | _ => b end = true <-> val <> [] /\ b = true).
  { intros b. destruct val; split; try discriminate.
    - intros [H _]; contradiction.
    - intros H; split; [discriminate|exact H].
    - tauto. }
  destruct mt; try contradiction; simpl.
  - rewrite is_yes_true, (start_with_yes _ _ Hc), eqv_map. reflexivity.
  - (* CONTAINS *)
    assert (Hcw : contains_word (attr_cmp ins) av val = true <-> exists w, is_word w av /\ eqv ins w val).
    { unfold contains_word. rewrite existsb_exists. split; intros (w & H1 & H2); exists w.
      - apply in_words in H1. apply is_yes_true, (start_with_yes _ _ Hc) in H2.
        rewrite eqv_map. auto.
      - rewrite eqv_map in H2. apply in_words in H1. split; [exact H1|].
        now apply is_yes_true, (start_with_yes _ _ Hc). }
    destruct (existsb (N.eqb 32) val) eqn:E.
    + split; [discriminate|]. intros (w & (Hne & Hns & _) & H2).
      apply existsb_exists in E as (x & Hx & Hx'). apply N.eqb_eq in Hx'. subst x.
      rewrite eqv_map in H2. apply (in_map (cfold ins)) in Hx. rewrite <- H2 in Hx.
      apply in_map_iff in Hx as (y & Hy & Hy').
      assert (y = 32%N).
      { destruct ins; simpl in Hy; [|congruence]. change (to_ascii_lower 32%N) with 32%N in Hy.
        now apply lower_space. }
      subst y. rewrite Forall_forall in Hns. apply Hns in Hy'. discriminate.
    + rewrite Hval, Hcw. split; [tauto|]. intros H. split; [|exact H].
      intros ->. destruct H as (w & (Hne & _) & H2). rewrite eqv_map in H2.
      simpl in H2. destruct w; [contradiction|discriminate].
  - (* HYPHENATED *)
    destruct (start_with (attr_cmp ins) av val) eqn:E.
    + split; [discriminate|]. intros H. exfalso.
      apply (proj2 (start_with_prefix _ _ Hc av val)); [|exact E].
      destruct H as [H|(a & r & -> & H)]; rewrite eqv_map in H.
      * exists av, []. rewrite app_nil_r. auto.
      * exists a, (hyphen :: r). auto.
    + pose proof E as E'. apply (start_with_partial _ _ Hc) in E as (a & c & r & -> & H).
      assert (Hlen : length a = length val)
        by (rewrite <- (map_length (cfold ins) a), H; apply map_length).
      rewrite <- Hlen, nth_error_app2, Nat.sub_diag by lia. simpl. rewrite N.eqb_eq. split.
      * intros ->. right. exists a, r. rewrite eqv_map. auto.
      * intros [H'|(a' & r' & Heq & H')]; rewrite eqv_map in H'.
        -- exfalso. apply (start_with_yes _ _ Hc) in H'. congruence.
        -- assert (Hlen' : length a' = length a).
           { rewrite Hlen, <- (map_length (cfold ins) a'), H'. apply map_length. }
           apply (f_equal (fun l => nth_error l (length a))) in Heq.
           rewrite nth_error_app2, Nat.sub_diag in Heq by lia.
           rewrite nth_error_app2, Hlen', Nat.sub_diag in Heq by lia.
           simpl in Heq. injection Heq as ->. reflexivity.
    + split; [|reflexivity]. intros _. left. rewrite eqv_map. now apply (start_with_yes _ _ Hc).
  - rewrite Hval, is_no_false, (start_with_prefix _ _ Hc).
    split; intros [H1 (a & r & H2 & H3)]; (split; [exact H1|]); exists a, r; rewrite eqv_map in *; auto.
  - rewrite Hval, is_no_false, (end_with_suffix _ _ Hc).
    split; intros [H1 (a & r & H2 & H3)]; (split; [exact H1|]); exists a, r; rewrite eqv_map in *; auto.
  - rewrite Hval, (contains_str_spec _ _ Hc).
    split; intros [H1 (a & r & r' & H2 & H3)]; (split; [exact H1|]); exists a, r, r'; rewrite eqv_map in *; auto.
Qed.

(** The attribute the selector names, when the namespace is not universal. *)
Lemma get_attribute_value_sem q m v :
  NoDup (map fst m) -> qs_ns q <> NsUniversal -> qs_name q <> NameUniversal ->
  get_attribute_value q m = Some v <-> exists n, In (n, v) m /\ name_sem q n.
Proof.
  intros Hnd Hns Hname. unfold get_attribute_value, name_sem, exact_name.
  destruct (qs_name q) as [|nm]; [contradiction|].
  destruct (qs_ns q) as [| |ns]; try contradiction.
  - rewrite get_attribute_In by exact Hnd. split.
    + intros H. exists (mkQ None nm). auto.
    + intros ([ns' nm'] & H1 & H2 & H3). simpl in *. subst. exact H1.
  - rewrite get_attribute_In by exact Hnd. split.
    + intros H. exists (mkQ (Some ns) nm). auto.
    + intros ([ns' nm'] & H1 & H2 & H3). simpl in *. subst. exact H1.
Qed.

Lemma attr_matches_sem a m :
  NoDup (map fst m) -> qs_ns (as_name a) <> NsUniversal -> qs_name (as_name a) <> NameUniversal ->
  attr_matches a m = true <-> attr_sem a m.
Proof.
  intros Hnd Hns Hname. unfold attr_matches, attr_sem.
  pose proof (fun v => get_attribute_value_sem (as_name a) m v Hnd Hns Hname) as Hv.
  assert (Huniq : forall v v' n n', In (n, v) m -> name_sem (as_name a) n ->
                  In (n', v') m -> name_sem (as_name a) n' -> v = v').
  { intros v v' n n' H1 H2 H3 H4.
    assert (E1 : get_attribute_value (as_name a) m = Some v) by (apply Hv; eauto).
    assert (E2 : get_attribute_value (as_name a) m = Some v') by (apply Hv; eauto).
    congruence. }
  destruct (get_attribute_value (as_name a) m) as [v|] eqn:E.
  - destruct (proj1 (Hv v) eq_refl) as (n & Hin & Hn).
    assert (Hsem : (exists n0 v0, In (n0, v0) m /\ name_sem (as_name a) n0 /\
               value_sem (as_match a) (as_insensitive a) v0 (as_value a)) <->
            value_sem (as_match a) (as_insensitive a) v (as_value a)).
    { split; [|eauto]. intros (n0 & v0 & H1 & H2 & H3). now rewrite (Huniq v v0 n n0). }
    rewrite Hsem.
    destruct (as_match a) eqn:Em; try (rewrite <- attr_value_sem by discriminate; reflexivity).
    simpl. tauto.
  - assert (Hno : ~ exists n0 v0, In (n0, v0) m /\ name_sem (as_name a) n0 /\
               value_sem (as_match a) (as_insensitive a) v0 (as_value a)).
    { intros (n0 & v0 & H1 & H2 & _). assert (None = Some v0) by (apply Hv; eauto). discriminate. }
    destruct (as_match a); (split; [discriminate|intros H; contradiction (Hno H)]).
Qed.

(** * Tree navigation *)

Section Nav.
  Variable t : node.

  Lemma in_ancestors q p : In q (ancestors p) <-> is_ancestor q p.
  Proof.
    induction p as [|i up IH]; simpl.
    - split; [intros []|]. intros (r & H1 & H2). symmetry in H2. apply app_eq_nil in H2 as [H2 _]. contradiction.
    - rewrite IH. unfold is_ancestor. split.
      + intros [<-|(r & H1 & ->)].
        * exists [i]. split; [discriminate|reflexivity].
        * exists (i :: r). split; [discriminate|reflexivity].
      + intros ([|j r] & H1 & H2); [contradiction|]. simpl in H2. injection H2 as <- ->.
        destruct r as [|k r]; [now left|]. right. exists (k :: r). split; [discriminate|reflexivity].
  Qed.

  Lemma in_prev_siblings q p : In q (prev_siblings p) <-> sibling_before q p.
  Proof.
    unfold prev_siblings, sibling_before. destruct p as [|i up].
    - split; [intros []|]. intros (i & j & up & _ & H & _). discriminate.
    - rewrite in_map_iff. split.
      + intros (j & <- & Hj). apply in_rev, in_seq in Hj. exists j, i, up. repeat split; lia.
      + intros (j & i' & up' & -> & H & Hlt). injection H as -> ->. exists j. split; [reflexivity|].
        apply -> in_rev. apply in_seq. lia.
  Qed.

  Lemma in_next_siblings q p :
    In q (next_siblings t p) -> sibling_after q p.
  Proof.
    unfold next_siblings, sibling_after, sibling_before. destruct p as [|i up]; [intros []|].
    destruct (node_at t up) as [n|]; [|intros []]. rewrite in_map_iff.
    intros (j & <- & Hj). apply in_seq in Hj. exists i, j, up. repeat split; lia.
  Qed.

  Lemma next_siblings_in q p : is_elem t q -> sibling_after q p -> In q (next_siblings t p).
  Proof.
    intros [d Hd] (i & j & up & -> & -> & Hlt). unfold next_siblings.
    unfold elem_at in Hd. simpl in Hd. destruct (node_at t up) as [n|]; [|discriminate].
    apply in_map_iff. exists j. split; [reflexivity|]. apply in_seq.
    destruct (nth_error (kids_of n) j) eqn:E; [|discriminate].
    assert (j < length (kids_of n)) by (apply nth_error_Some; congruence). lia.
  Qed.

  Lemma NoDup_rev_ {A} (l : list A) : NoDup l -> NoDup (rev l).
  Proof. apply NoDup_rev. Qed.

  Lemma siblings_NoDup rv p : NoDup (siblings t rv p).
  Proof.
    assert (Hm : forall up l, NoDup l -> NoDup (map (fun j : nat => j :: up) l)).
    { intros up l Hl. induction Hl as [|x l Hx Hl IH]; simpl; constructor; [|exact IH].
      rewrite in_map_iff. intros (y & H1 & H2). injection H1 as ->. contradiction. }
    destruct rv; simpl.
    - unfold next_siblings. destruct p as [|i up]; [constructor|].
      destruct (node_at t up); [|constructor]. apply Hm, seq_NoDup.
    - unfold prev_siblings. destruct p as [|i up]; [constructor|]. apply Hm.
      apply NoDup_rev, seq_NoDup.
  Qed.

  Definition sib (rv : bool) : path -> path -> Prop :=
    if rv then sibling_after else sibling_before.

  Lemma in_siblings rv q p : is_elem t q -> (In q (siblings t rv p) <-> sib rv q p).
  Proof.
    intros He. destruct rv; simpl.
    - split; [apply in_next_siblings|now apply next_siblings_in].
    - apply in_prev_siblings.
  Qed.

  Lemma if_elem_reflects f (P : path -> Prop) q :
    (is_elem t q -> reflects (f q) (P q)) ->
    reflects (if_elem t f q) (is_elem t q /\ P q).
  Proof.
    intros H. unfold if_elem. destruct (elem_at t q) as [d|] eqn:E.
    - eapply reflects_iff; [|apply H; exists d; exact E]. split; [|tauto].
      intros HP. split; [exists d; exact E|exact HP].
    - apply reflects_some. split; [discriminate|]. intros [[d Hd] _]. congruence.
  Qed.

  Lemma anb_index_reflects ab (l : list path) (P : path -> Prop) p rv :
    NoDup l -> (forall q, In q l <-> In q (siblings t rv p) /\ P q) ->
    (forall q, P q -> is_elem t q) ->
    reflects (anb_index ab (Some (length l))) (nth_sem (sib rv) P ab p).
  Proof.
    intros Hnd Hl HP. unfold anb_index. apply reflects_some.
    destruct ab as [a b]. rewrite anb_match_iff. simpl.
    assert (Hl' : forall q, In q l <-> sib rv q p /\ P q).
    { intros q. rewrite Hl. split; intros [H1 H2]; (split; [|exact H2]); now apply (in_siblings rv q p (HP q H2)). }
    split.
    - intros (n & Hn & Heq). exists (S (length l)). split.
      + exists l. auto.
      + exists n. simpl. split; [exact Hn|]. lia.
    - intros (k & (l' & Hnd' & Hl'' & ->) & (n & Hn & Heq)). simpl in Heq.
      assert (length l = length l').
      { apply Nat.le_antisymm; apply NoDup_incl_length; try assumption.
        - intros q Hq. apply Hl''. now apply Hl'.
        - intros q Hq. apply Hl'. now apply Hl''. }
      exists n. split; [exact Hn|]. lia.
  Qed.

  Lemma nth_child_reflects ab rv f (P : path -> Prop) p :
    is_elem t p ->
    (forall q, is_elem t q -> reflects (f q) (P q)) ->
    reflects (match_nth_child t ab (Some f) p rv)
             (P p /\ nth_sem (sib rv) (fun q => is_elem t q /\ P q) ab p).
  Proof.
    intros Hp Hf. unfold match_nth_child.
    destruct (Hf p Hp) as ([|] & -> & Hb).
    - destruct (ocount_reflects (if_elem t f) (fun q => is_elem t q /\ P q) (siblings t rv p))
        as (k & Hk & Hnd & Hin).
      + apply siblings_NoDup.
      + intros q _. apply if_elem_reflects. apply Hf.
      + rewrite Hk. eapply reflects_iff; [|eapply anb_index_reflects; [exact Hnd|exact Hin|tauto]].
        split; [|tauto]. intros H. split; [now apply Hb|exact H].
    - apply reflects_some. split; [discriminate|]. intros [H _]. apply Hb in H. discriminate.
  Qed.

  Lemma nth_child_none_reflects ab rv p :
    reflects (match_nth_child t ab None p rv) (nth_sem (sib rv) (is_elem t) ab p).
  Proof.
    unfold match_nth_child.
    destruct (ocount_reflects (if_elem t (fun _ => Some true)) (is_elem t) (siblings t rv p))
      as (k & Hk & Hnd & Hin).
    - apply siblings_NoDup.
    - intros q _. eapply reflects_iff; [|apply if_elem_reflects with (P := fun _ => True)].
      + tauto.
      + intros _. apply reflects_some. tauto.
    - rewrite Hk. eapply anb_index_reflects; [exact Hnd|exact Hin|tauto].
  Qed.

  Lemma nth_of_type_reflects ab rv p d :
    elem_at t p = Some d ->
    reflects (match_nth_of_type t ab p d rv) (nth_sem (sib rv) (same_type t p) ab p).
  Proof.
    intros Hd. unfold match_nth_of_type.
    match goal with |- context [ocount ?f _] =>
      destruct (ocount_reflects f (same_type t p) (siblings t rv p)) as (k & Hk & Hnd & Hin) end.
    - apply siblings_NoDup.
    - intros q _. unfold same_type. destruct (elem_at t q) as [d'|] eqn:E; apply reflects_some.
      + rewrite qname_eqb_spec. split.
        * intros H. exists d, d'. auto.
        * intros (e & e' & H1 & H2 & H3). congruence.
      + split; [discriminate|]. intros (e & e' & H1 & H2 & H3). discriminate.
    - rewrite Hk. eapply anb_index_reflects; [exact Hnd|exact Hin|].
      intros q (e & e' & H1 & H2 & H3). exists e'. exact H2.
  Qed.

  (** [0n+1]: no sibling of the kind before. *)
  Lemma nth_sem_first R (P : path -> Prop) p :
    nth_sem R P (mkAnB 0 1) p <-> first_of R P p.
  Proof.
    unfold nth_sem, first_of, progression, position; simpl. split.
    - intros (k & (l & Hnd & Hl & ->) & n & Hn & Heq) q Hr HP.
      assert (In q l) by (apply Hl; auto). destruct l; [contradiction|]. simpl in Heq. lia.
    - intros H. exists 1. split.
      + exists []. split; [constructor|]. split; [|reflexivity]. intros q. split; [intros []|].
        intros [H1 H2]. exact (H q H1 H2).
      + exists 0%Z. lia.
  Qed.

  Lemma adjacent_reflects f (P : path -> Prop) p :
    no_gaps t -> is_elem t p ->
    (forall q, is_elem t q -> reflects (f q) (P q)) ->
    reflects (match_adjacent t f p) (exists q, related t ADJACENT q p /\ P q).
  Proof.
    intros Hg Hp Hf. unfold match_adjacent.
    destruct p as [|j up].
    - simpl. apply reflects_some. split; [discriminate|].
      intros (q & (_ & (i & k & u & _ & H & _) & _) & _). discriminate.
    - destruct j as [|j].
      + simpl. apply reflects_some. split; [discriminate|].
        intros (q & (_ & (i & k & u & _ & H & Hlt) & _) & _). injection H as <- <-. lia.
      + assert (prev_siblings (S j :: up) = (j :: up) :: prev_siblings (j :: up)) as ->.
        { unfold prev_siblings. rewrite seq_S, rev_app_distr. reflexivity. }
        eapply reflects_iff; [|apply if_elem_reflects; apply Hf]. split.
        * intros [He HP]. exists (j :: up). split; [|exact HP]. split; [exact He|].
          split; [|split; [exact He|]].
          -- exists j, (S j), up. repeat split; lia.
          -- intros r (i & k & u & -> & H & Hlt) _. injection H as <- <-.
             destruct (Nat.eq_dec i j) as [->|Hn]; [now left|]. right. exists i, j, up. repeat split; lia.
        * intros (q & (He & (Hb & _ & Hmax)) & HP). destruct Hb as (i & k & u & -> & H & Hlt).
          injection H as <- <-.
          assert (Hj : is_elem t (j :: up)).
          { replace j with (S j - 1) by lia. apply (Hg i); auto. }
          destruct (Nat.eq_dec i j) as [->|Hn]; [auto|].
          destruct (Hmax (j :: up)) as [H|H]; [|exact Hj| |].
          -- exists j, (S j), up. repeat split; lia.
          -- congruence.
          -- destruct H as (a & b & u & H1 & H2 & Hab). injection H1 as <- <-. injection H2 as <-. lia.
  Qed.
End Nav.

(** * Matching is sound and complete for the meaning of selectors *)

Theorem msel_sem t :
  attrs_unique t -> forall s,
  supported s = true -> (no_adjacent s = true \/ no_gaps t) ->
  forall p pe, is_elem t p -> reflects (msel t s p pe) (sem t s p pe).
Proof.
  intros Hattrs s.
  induction s as [ty l IH|ty l r IHl IHr|q| |i|c|ty|ty|ty ab|ty ab s IH|a] using selector_ind';
    intros Hs Hadj p pe [d Hd]; simpl; rewrite Hd.
  - (* Nfix *)
    assert (Hin : forall ss, (forall x, In x ss -> In x l) -> forallb supported ss = true ->
              forall x, In x ss -> reflects (msel t x p pe) (sem t x p pe)).
    { intros ss Hsub Hf x Hx. rewrite Forall_forall in IH. apply IH.
      - auto.
      - rewrite forallb_forall in Hf. auto.
      - destruct Hadj as [H|H]; [left|now right]. simpl in H. rewrite forallb_forall in H. auto.
      - exists d. exact Hd. }
    destruct ty; simpl in Hs.
    + eapply reflects_iff; [symmetry; apply all_of_all|].
      apply oall_reflects. apply Hin; auto.
    + eapply reflects_iff; [symmetry; apply any_of_ex|].
      apply oex_reflects. apply Hin; auto.
    + destruct l as [|i [|? ?]]; try discriminate.
      destruct (Hin [i]) with (x := i) as (b & Hb & Hbp); simpl; auto.
      { now rewrite Hs. }
      rewrite Hb. apply reflects_some. rewrite negb_true_iff. rewrite <- not_true_iff_false, Hbp. tauto.
    + discriminate.
  - (* Infix *)
    assert (Hlr : supported l = true /\ supported r = true /\ ty <> COLUMN).
    { destruct ty; simpl in Hs; try (apply andb_true_iff in Hs as [? ?]; repeat split; auto; discriminate).
      discriminate. }
    destruct Hlr as (Hl & Hr & Hty).
    assert (Hadjl : no_adjacent l = true \/ no_gaps t).
    { destruct Hadj as [H|H]; [left|now right]. simpl in H.
      destruct ty; try discriminate; apply andb_true_iff in H as [? ?]; auto. }
    assert (Hadjr : no_adjacent r = true \/ no_gaps t).
    { destruct Hadj as [H|H]; [left|now right]. simpl in H.
      destruct ty; try discriminate; apply andb_true_iff in H as [? ?]; auto. }
    destruct (IHr Hr Hadjr p pe (ex_intro _ d Hd)) as (b & Hb & Hbp). rewrite Hb. destruct b.
    2:{ apply reflects_some. split; [discriminate|]. intros [H _]. apply Hbp in H. discriminate. }
    assert (Hsr : sem t r p pe) by now apply Hbp.
    specialize (IHl Hl Hadjl).
    assert (Hf : forall q, is_elem t q -> reflects (msel t l q None) (sem t l q None)) by auto.
    eapply reflects_iff with (P := exists q, related t ty q p /\ sem t l q None); [tauto|].
    destruct ty.
    + unfold match_descendant. eapply reflects_iff; [|apply oex_reflects with (P := fun q => is_elem t q /\ sem t l q None); intros q _; apply if_elem_reflects with (P := fun q => sem t l q None); apply Hf].
      unfold related. split.
      * intros (q & H1 & H2 & H3). apply in_ancestors in H1. eauto.
      * intros (q & [H1 H2] & H3). apply in_ancestors in H2. eauto.
    + unfold match_child. destruct p as [|i up].
      * apply reflects_some. split; [discriminate|]. intros (q & [_ [i H]] & _). discriminate.
      * eapply reflects_iff; [|apply if_elem_reflects with (P := fun q => sem t l q None); apply Hf]. unfold related, is_parent. split.
        -- intros [H1 H2]. exists up. eauto.
        -- intros (q & [H1 [j H2]] & H3). injection H2 as _ <-. auto.
    + apply adjacent_reflects; [|exists d; exact Hd|exact Hf].
      destruct Hadj as [H|H]; [discriminate|exact H].
    + unfold match_subsequent. eapply reflects_iff; [|apply oex_reflects with (P := fun q => is_elem t q /\ sem t l q None); intros q _; apply if_elem_reflects with (P := fun q => sem t l q None); apply Hf].
      unfold related. split.
      * intros (q & H1 & H2 & H3). apply in_prev_siblings in H1. eauto.
      * intros (q & [H1 H2] & H3). apply in_prev_siblings in H2. eauto.
    + contradiction.
  - apply reflects_some. rewrite qsel_match_spec. split.
    + intros H. eauto.
    + intros (d' & H1 & H2). congruence.
  - apply reflects_some. split; [discriminate|tauto].
  - apply reflects_some. rewrite opt_str_eqb. split.
    + intros H. eauto.
    + intros (d' & H1 & H2). congruence.
  - apply reflects_some. rewrite existsb_exists. split.
    + intros (x & H1 & H2). apply str_eqb_spec in H2 as ->. eauto.
    + intros (d' & H1 & H2). exists c. split; [congruence|apply str_eqb_refl].
  - apply reflects_some. apply opt_str_eqb.
  - (* PseudoClass *)
    simpl in Hs. destruct ty; try discriminate Hs; simpl.
    + apply reflects_some. rewrite andb_true_iff, qname_eqb_spec.
      pose proof (fun v => get_attribute_In (d_attrs d) href_attr v (Hattrs p d Hd)) as Ha. split.
      * intros [H1 H2]. destruct (get_attribute (d_attrs d) href_attr) as [v|] eqn:E; [|discriminate].
        exists d, v. repeat split; auto. now apply Ha.
      * intros (d' & v & H1 & H2 & H3). rewrite Hd in H1. injection H1 as <-. split; [exact H2|].
        apply Ha in H3. now rewrite H3.
    + eapply reflects_iff; [apply nth_sem_first|]. apply (nth_child_none_reflects t (mkAnB 0 1) false).
    + eapply reflects_iff; [apply nth_sem_first|]. apply (nth_child_none_reflects t (mkAnB 0 1) true).
    + eapply reflects_iff; [apply nth_sem_first|]. now apply (nth_of_type_reflects t (mkAnB 0 1) false).
    + eapply reflects_iff; [apply nth_sem_first|]. now apply (nth_of_type_reflects t (mkAnB 0 1) true).
    + apply reflects_some. split; [discriminate|tauto].
  - (* AnB *)
    simpl in Hs. unfold pc_anb_sem, match_pseudo_class_anb.
    assert (Hext : forall rv, nth_sem (sib rv) (is_elem t) ab p <->
                   True /\ nth_sem (sib rv) (fun q => is_elem t q /\ True) ab p).
    { intros rv. unfold nth_sem, position. split.
      - intros (k & (l & H1 & H2 & H3) & H4). split; [exact I|]. exists k. split; [|exact H4].
        exists l. split; [exact H1|]. split; [|exact H3]. intros q. rewrite H2. tauto.
      - intros (_ & k & (l & H1 & H2 & H3) & H4). exists k. split; [|exact H4].
        exists l. split; [exact H1|]. split; [|exact H3]. intros q. rewrite H2. tauto. }
    destruct ty; try discriminate Hs; simpl.
    + eapply reflects_iff; [apply (Hext false)|]. apply (nth_child_none_reflects t ab false).
    + eapply reflects_iff; [apply (Hext true)|]. apply (nth_child_none_reflects t ab true).
    + now apply (nth_of_type_reflects t ab false).
    + now apply (nth_of_type_reflects t ab true).
  - (* AnBof *)
    simpl in Hs. apply andb_true_iff in Hs as [Hty Hs].
    assert (Hf : forall q, is_elem t q -> reflects (msel t s q None) (sem t s q None)).
    { intros q Hq. apply IH; auto. }
    assert (Hp : is_elem t p) by (exists d; exact Hd).
    unfold pc_anb_sem, match_pseudo_class_anb. destruct ty; try discriminate Hty; simpl.
    + now apply (nth_child_reflects t ab false (fun q => msel t s q None) (fun q => sem t s q None)).
    + now apply (nth_child_reflects t ab true (fun q => msel t s q None) (fun q => sem t s q None)).
    + now apply (nth_of_type_reflects t ab false).
    + now apply (nth_of_type_reflects t ab true).
  - (* Attr *)
    simpl in Hs. apply reflects_some. rewrite attr_matches_sem.
    + split; [eauto|]. intros (d' & H1 & H2). congruence.
    + exact (Hattrs p d Hd).
    + intros H. rewrite H in Hs. discriminate.
    + intros H. rewrite H in Hs. destruct (qs_ns (as_name a)); discriminate.
Qed.

(** * Left-associated trees and chains *)

Lemma left_assoc_app s l c x :
  left_assoc (s, l ++ [(c, x)]) = Infix c (left_assoc (s, l)) x.
Proof. unfold left_assoc. simpl. now rewrite fold_left_app. Qed.

Lemma chain_snoc_inv t pe e0 rest c s e :
  chain t pe e0 (rest ++ [(c, s)]) e <->
  exists e1, chain t None e0 rest e1 /\ related t c e1 e /\ sem t s e pe.
Proof.
  revert e0; induction rest as [|[c' s'] rest IH]; intros e0; simpl.
  - split.
    + intros H. inversion H as [|? ? ? ? Hr Hsem|? ? ? ? ? ? Hne]; subst.
      * exists e0. split; [constructor|]. auto.
      * contradiction.
    + intros (e1 & H1 & H2 & H3). inversion H1; subst. now constructor.
  - split.
    + intros H. inversion H as [|? ? ? ? Hr Hsem Heq Heq2|? ? ? ? e1 ? Hne Hr Hel Hsem Hch]; subst.
      * destruct rest; discriminate.
      * apply IH in Hch as (e2 & H1 & H2 & H3). exists e2. split; [|auto].
        destruct rest as [|x rest].
        -- inversion H1; subst. now constructor.
        -- apply chain_cons with e1; auto. discriminate.
    + intros (e2 & H1 & H2 & H3).
      assert (Hne : rest ++ [(c, s)] <> []) by (destruct rest; discriminate).
      inversion H1 as [|? ? ? ? Hr Hsem|? ? ? ? e1 ? Hne' Hr Hel Hsem Hch]; subst.
      * apply chain_cons with e2; auto; [destruct H2; assumption|]. apply IH. exists e2.
        split; [constructor|auto].
      * apply chain_cons with e1; auto. apply IH. eauto.
Qed.

Lemma left_assoc_sem t x pe e :
  is_elem t e -> (sem t (left_assoc x) e pe <-> matches_complex t x e pe).
Proof.
  destruct x as [s0 rest]. unfold matches_complex. simpl.
  revert pe e. induction rest as [|[c s] rest IH] using rev_ind; intros pe e He.
  - unfold left_assoc. simpl. split.
    + intros H. exists e. split; [exact He|]. split; [exact H|constructor].
    + intros (e0 & _ & H & Hc). inversion Hc; subst. exact H.
  - rewrite left_assoc_app. simpl. split.
    + intros (Hs & q & Hr & Hq). destruct (proj1 (IH None q (proj1 Hr)) Hq) as (e0 & H1 & H2 & H3).
      exists e0. split; [exact H1|]. split.
      * destruct (rest ++ [(c, s)]) eqn:E; [destruct rest; discriminate|].
        destruct rest; exact H2.
      * apply chain_snoc_inv. eauto.
    + intros (e0 & H1 & H2 & H3). apply chain_snoc_inv in H3 as (e1 & H4 & H5 & H6).
      split; [exact H6|]. exists e1. split; [exact H5|].
      apply IH; [exact (proj1 H5)|]. exists e0. split; [exact H1|]. split; [|exact H4].
      destruct (rest ++ [(c, s)]) eqn:E; [destruct rest; discriminate|].
      destruct rest; exact H2.
Qed.

(** * matchSelector *)

Lemma spec_max_cases (a b : specificity) :
  (match spec_cmp a b with Lt => b | _ => a end = a \/ match spec_cmp a b with Lt => b | _ => a end = b) /\
  ~ spec_lt (match spec_cmp a b with Lt => b | _ => a end) a /\
  ~ spec_lt (match spec_cmp a b with Lt => b | _ => a end) b.
Proof.
  destruct (spec_cmp a b) eqn:E.
  - apply spec_cmp_eq in E. subst. split; [auto|]. split; apply spec_lt_irrefl.
  - apply spec_cmp_lt in E. split; [auto|]. split; [|apply spec_lt_irrefl].
    intros H. eapply spec_lt_irrefl, spec_lt_trans; eassumption.
  - apply spec_cmp_gt in E. split; [auto|]. split; [apply spec_lt_irrefl|].
    intros H. eapply spec_lt_irrefl, spec_lt_trans; eassumption.
Qed.

(** The alternatives of a selector list. *)
Definition alternatives (s : selector) : list selector :=
  match s with Nfix OR l => l | _ => [s] end.

Lemma match_selector_spec t s p pe r :
  match_selector t s p pe = Some r ->
  match r with
  | None => forall i, In i (alternatives s) -> msel t i p pe = Some false
  | Some sp =>
      (exists i, In i (alternatives s) /\ msel t i p pe = Some true /\ sp = spec i) /\
      (forall i, In i (alternatives s) -> msel t i p pe = Some true -> ~ spec_lt sp (spec i))
  end.
Proof.
  assert (Hgen : forall l acc r',
    fold_left (fun acc i =>
        match acc with
        | None => None
        | Some sp =>
            match msel t i p pe with
            | None => None
            | Some true => Some (opt_spec_max sp (spec i))
            | Some false => Some sp
            end
        end) l (Some acc) = Some r' ->
    match r' with
    | None => acc = None /\ forall i, In i l -> msel t i p pe = Some false
    | Some sp => (acc = Some sp \/ exists i, In i l /\ msel t i p pe = Some true /\ sp = spec i) /\
        (forall a, acc = Some a -> ~ spec_lt sp a) /\
        (forall i, In i l -> msel t i p pe = Some true -> ~ spec_lt sp (spec i))
    end).
  { assert (Hnone : forall l, fold_left (fun acc i =>
        match acc with
        | None => None
        | Some sp =>
            match msel t i p pe with
            | None => None
            | Some true => Some (opt_spec_max sp (spec i))
            | Some false => Some sp
            end
        end) l None = None) by (induction l; auto).
    induction l as [|i l IH]; intros acc r' H; simpl in H.
    - injection H as <-. destruct acc as [a|].
      + split; [auto|]. split; [|intros i []]. intros a' Ha. injection Ha as <-. apply spec_lt_irrefl.
      + split; [reflexivity|]. intros i [].
    - destruct (msel t i p pe) as [[|]|] eqn:E.
      + apply IH in H. destruct r' as [sp|].
        * destruct H as (H1 & H2 & H3).
          assert (Hm : exists m, opt_spec_max acc (spec i) = Some m /\ ~ spec_lt m (spec i) /\
                       (forall a, acc = Some a -> ~ spec_lt m a) /\ (acc = Some m \/ m = spec i)).
          { destruct acc as [a|]; simpl.
            - eexists. split; [reflexivity|]. destruct (spec_max_cases a (spec i)) as (A & B & C).
              split; [exact C|]. split.
              + intros a' Ha. injection Ha as <-. exact B.
              + destruct A as [A|A]; [left; now rewrite A|right; exact A].
            - eexists. split; [reflexivity|]. split; [apply spec_lt_irrefl|]. split; [discriminate|auto]. }
          destruct Hm as (m & Hm & Hm1 & Hm2 & Hm3). rewrite Hm in *.
          assert (Hspm : ~ spec_lt sp m) by auto.
          assert (Htr : forall x, ~ spec_lt m x -> ~ spec_lt sp x).
          { intros x Hx Hlt. destruct (spec_trichotomy m x) as [T|[->|T]]; [contradiction|contradiction|].
            apply Hspm. eapply spec_lt_trans; eassumption. }
          split; [|split].
          -- destruct H1 as [H1|(j & J1 & J2 & J3)].
             ++ injection H1 as ->. destruct Hm3 as [Hm3|Hm3]; [now left|]. right. exists i. simpl. auto.
             ++ right. exists j. simpl. auto.
          -- intros a Ha. apply Htr. auto.
          -- intros j [<-|Hj] Hj'; [now apply Htr|auto].
        * destruct H as [H _]. destruct acc; discriminate.
      + apply IH in H. destruct r' as [sp|].
        * destruct H as (H1 & H2 & H3). split; [|split].
          -- destruct H1 as [H1|(j & J1 & J2 & J3)]; [now left|]. right. exists j. simpl. auto.
          -- exact H2.
          -- intros j [<-|Hj] Hj'; [congruence|auto].
        * destruct H as [H1 H2]. split; [exact H1|]. intros j [<-|Hj]; auto.
      + rewrite Hnone in H. discriminate. }
  assert (Hone : match msel t s p pe with
         | None => None
         | Some true => Some (Some (spec s))
         | Some false => Some None
         end = Some r ->
    match r with
  | None => forall i, In i [s] -> msel t i p pe = Some false
  | Some sp =>
      (exists i, In i [s] /\ msel t i p pe = Some true /\ sp = spec i) /\
      (forall i, In i [s] -> msel t i p pe = Some true -> ~ spec_lt sp (spec i))
  end).
  { destruct (msel t s p pe) as [[|]|] eqn:E; intros H; try discriminate; injection H as <-.
    - split.
      + exists s. simpl. auto.
      + intros i [<-|[]] _. apply spec_lt_irrefl.
    - intros i [<-|[]]. exact E. }
  unfold match_selector, alternatives. destruct s; try exact Hone.
  destruct ty; try exact Hone.
  intros H. apply Hgen in H. destruct r as [sp|].
  - destruct H as ([H1|H1] & _ & H3); [discriminate|]. auto.
  - tauto.
Qed.

(** [matchSelector] accepts exactly when [_matchSelector] does. *)
Lemma match_selector_some t s p pe :
  supported s = true -> attrs_unique t -> (no_adjacent s = true \/ no_gaps t) -> is_elem t p ->
  exists r, match_selector t s p pe = Some r /\ (r <> None <-> msel t s p pe = Some true).
Proof.
  intros Hs Ha Hg Hp.
  assert (Hone : forall s', msel t s' p pe <> None -> exists r, match msel t s' p pe with
         | None => None
         | Some true => Some (Some (spec s'))
         | Some false => Some None
         end = Some r /\ (r <> None <-> msel t s' p pe = Some true)).
  { intros s' Hn. destruct (msel t s' p pe) as [[|]|]; [| |contradiction]; eexists; (split; [reflexivity|]);
      split; congruence. }
  destruct (msel_sem t Ha s Hs Hg p pe Hp) as (b & Hb & _).
  unfold match_selector. destruct s; try (apply Hone; congruence).
  destruct ty; try (apply Hone; congruence).
  (* OR *)
  destruct Hp as [d Hd]. simpl in Hb. rewrite Hd in Hb. simpl. rewrite Hd.
  assert (Hin : forall i, In i inners -> exists bi, msel t i p pe = Some bi).
  { intros i Hi. simpl in Hs. rewrite forallb_forall in Hs.
    destruct (msel_sem t Ha i (Hs i Hi)) with (p := p) (pe := pe) as (bi & Hbi & _).
    - destruct Hg as [Hg|Hg]; [left|now right]. simpl in Hg. rewrite forallb_forall in Hg. auto.
    - exists d. exact Hd.
    - eauto. }
  clear Hs Hg Hb.
  assert (Hgen : forall acc : option specificity, exists r,
    fold_left (fun acc i =>
        match acc with
        | None => None
        | Some sp =>
            match msel t i p pe with
            | None => None
            | Some true => Some (opt_spec_max sp (spec i))
            | Some false => Some sp
            end
        end) inners (Some acc) = Some r /\
    (r <> None <-> acc <> None \/ oex (fun i => msel t i p pe) inners = Some true)).
  { induction inners as [|i l IH]; intros acc; simpl.
    - exists acc. split; [reflexivity|]. split; [auto|]. intros [H|H]; [exact H|discriminate].
    - destruct (Hin i (or_introl eq_refl)) as [bi Hbi]. rewrite Hbi.
      assert (Hin' : forall j, In j l -> exists bj, msel t j p pe = Some bj) by (intros; apply Hin; now right).
      destruct bi.
      + destruct (IH Hin' (opt_spec_max acc (spec i))) as (r & H1 & H2). exists r. split; [exact H1|].
        rewrite H2. split; [auto|]. intros _. left. destruct acc; discriminate.
      + destruct (IH Hin' acc) as (r & H1 & H2). exists r. split; [exact H1|exact H2]. }
  destruct (Hgen None) as (r & H1 & H2). exists r. split; [exact H1|]. rewrite H2.
  split; [intros [H|H]; [contradiction|exact H]|auto].
Qed.

(** * Specificity *)

Lemma spec_add_0_r x : spec_add x spec_zero = x.
Proof. destruct x. unfold spec_add, spec_zero; simpl. now rewrite !Z.add_0_r. Qed.
Lemma spec_add_0_l x : spec_add spec_zero x = x.
Proof. destruct x; reflexivity. Qed.
Lemma spec_add_assoc x y z : spec_add x (spec_add y z) = spec_add (spec_add x y) z.
Proof. unfold spec_add; simpl. now rewrite !Z.add_assoc. Qed.

Lemma spec_fold l : forall acc,
  (forall i, In i l -> spec i = css_spec i) ->
  fold_left (fun acc i => spec_add acc (spec i)) l acc =
  spec_add acc (fold_right (fun i acc => spec_add (css_spec i) acc) spec_zero l).
Proof.
  induction l as [|i l IH]; intros acc H; simpl.
  - now rewrite spec_add_0_r.
  - rewrite IH by (intros; apply H; now right). rewrite (H i) by now left.
    now rewrite spec_add_assoc.
Qed.

Lemma css_spec_nonneg s : ~ spec_lt (css_spec s) spec_zero.
Proof.
  assert (forall s, (0 <= sp_a (css_spec s) /\ 0 <= sp_b (css_spec s) /\ 0 <= sp_c (css_spec s))%Z) as H.
  { clear s. induction s as [ty l IH|ty l r IHl IHr|q| |i|c|ty|ty|ty ab|ty ab s IH|a] using selector_ind';
      simpl; try lia.
    - assert (Hadd : forall l, Forall (fun s => (0 <= sp_a (css_spec s) /\ 0 <= sp_b (css_spec s) /\ 0 <= sp_c (css_spec s))%Z) l ->
        let x := fold_right (fun i acc => spec_add (css_spec i) acc) spec_zero l in
        (0 <= sp_a x /\ 0 <= sp_b x /\ 0 <= sp_c x)%Z).
      { clear. induction 1; simpl in *; lia. }
      assert (Hmax : forall l, Forall (fun s => (0 <= sp_a (css_spec s) /\ 0 <= sp_b (css_spec s) /\ 0 <= sp_c (css_spec s))%Z) l ->
        let x := fold_right (fun i acc => spec_max (css_spec i) acc) spec_zero l in
        (0 <= sp_a x /\ 0 <= sp_b x /\ 0 <= sp_c x)%Z).
      { clear. induction 1; simpl in *; [lia|]. unfold spec_max at 1 3 5. destruct (spec_cmp _ _); lia. }
      destruct ty; try apply Hadd; try apply Hmax; auto. simpl. lia.
    - destruct (qs_name q); simpl; lia.
    - clear -IH. destruct (css_spec s) as [a b c]; cbn [sp_a sp_b sp_c] in *. destruct b; lia. }
  specialize (H s). unfold spec_lt, spec_zero; simpl. lia.
Qed.

Lemma spec_max_zero s : spec_max (css_spec s) spec_zero = css_spec s.
Proof.
  unfold spec_max. destruct (spec_cmp (css_spec s) spec_zero) eqn:E; try reflexivity.
  apply spec_cmp_lt in E. contradiction (css_spec_nonneg s E).
Qed.

Lemma spec_plain s : plain s = true -> spec s = css_spec s.
Proof.
  induction s as [ty l IH|ty l r IHl IHr|q| |i|c|ty|ty|ty ab|ty ab s IH|a] using selector_ind';
    intros Hp; try reflexivity; try discriminate.
  - rewrite Forall_forall in IH. destruct ty; simpl in Hp.
    + simpl. rewrite forallb_forall in Hp. rewrite spec_fold by auto. apply spec_add_0_l.
    + destruct l as [|i [|? ?]]; try discriminate. cbn [spec css_spec fold_left fold_right].
      rewrite spec_add_0_l, spec_max_zero. apply IH; [now left|exact Hp].
    + destruct l as [|i [|? ?]]; try discriminate. cbn [spec css_spec fold_left fold_right].
      rewrite spec_add_0_l, spec_max_zero. apply IH; [now left|exact Hp].
    + reflexivity.
  - simpl in *. apply andb_true_iff in Hp as [H1 H2]. now rewrite IHl, IHr.
  - simpl. unfold exact_name. destruct (qs_name q); reflexivity.
Qed.

(** * Pseudo-elements *)

Lemma oall_ext {A} (f g : A -> option bool) l : (forall x, In x l -> f x = g x) -> oall f l = oall g l.
Proof.
  induction l as [|x l IH]; intros H; [reflexivity|]. simpl. rewrite (H x) by now left.
  destruct (g x) as [[|]|]; auto. apply IH. intros; apply H; now right.
Qed.
Lemma oex_ext {A} (f g : A -> option bool) l : (forall x, In x l -> f x = g x) -> oex f l = oex g l.
Proof.
  induction l as [|x l IH]; intros H; [reflexivity|]. simpl. rewrite (H x) by now left.
  destruct (g x) as [[|]|]; auto. apply IH. intros; apply H; now right.
Qed.

Lemma msel_pe_irrelevant t s :
  mentions_pe s = false -> forall p pe pe', msel t s p pe = msel t s p pe'.
Proof.
  induction s as [ty l IH|ty l r IHl IHr|q| |i|c|ty|ty|ty ab|ty ab s IH|a] using selector_ind';
    intros Hm p pe pe'; simpl in *; try reflexivity.
  - rewrite Forall_forall in IH.
    assert (Hl : forall x, In x l -> mentions_pe x = false).
    { intros x Hx. destruct (mentions_pe x) eqn:E; [|reflexivity].
      assert (existsb mentions_pe l = true) by (apply existsb_exists; eauto). congruence. }
    assert (Hx : forall x, In x l -> msel t x p pe = msel t x p pe').
    { intros x Hx. apply IH; auto. }
    destruct (elem_at t p); [|reflexivity]. destruct ty.
    + now apply oall_ext.
    + now apply oex_ext.
    + destruct l as [|x l]; [reflexivity|]. rewrite (Hx x) by now left. reflexivity.
    + destruct l as [|x l]; [reflexivity|]. rewrite (Hx x) by now left. reflexivity.
  - destruct (elem_at t p); [|reflexivity]. now rewrite (IHr Hm p pe pe').
  - discriminate.
Qed.

(** * Matching does not panic *)

Lemma oex_total {A} (f : A -> option bool) l : (forall x, In x l -> f x <> None) -> oex f l <> None.
Proof.
  induction l as [|x l IH]; intros H; [discriminate|]. simpl.
  assert (f x <> None) by (apply H; now left). destruct (f x) as [[|]|]; try congruence.
  apply IH. intros; apply H; now right.
Qed.
Lemma oall_total {A} (f : A -> option bool) l : (forall x, In x l -> f x <> None) -> oall f l <> None.
Proof.
  induction l as [|x l IH]; intros H; [discriminate|]. simpl.
  assert (f x <> None) by (apply H; now left). destruct (f x) as [[|]|]; try congruence.
  apply IH. intros; apply H; now right.
Qed.
Lemma ocount_total {A} (f : A -> option bool) l : (forall x, In x l -> f x <> None) -> ocount f l <> None.
Proof.
  induction l as [|x l IH]; intros H; [discriminate|]. simpl.
  assert (f x <> None) by (apply H; now left).
  assert (ocount f l <> None) by (apply IH; intros; apply H; now right).
  destruct (f x), (ocount f l); congruence.
Qed.
Lemma if_elem_total t f q : f q <> None -> if_elem t f q <> None.
Proof. unfold if_elem. destruct (elem_at t q); congruence. Qed.
Lemma anb_index_total ab n : n <> None -> anb_index ab n <> None.
Proof. destruct n; simpl; congruence. Qed.
Lemma nth_child_total t ab f p rv :
  (forall g, f = Some g -> forall q, g q <> None) -> match_nth_child t ab f p rv <> None.
Proof.
  intros H. unfold match_nth_child. destruct f as [g|].
  - specialize (H g eq_refl). pose proof (H p) as Hp. destruct (g p) as [[|]|]; try congruence.
    apply anb_index_total, ocount_total. intros x _. apply if_elem_total, H.
  - apply anb_index_total, ocount_total. intros x _. apply if_elem_total. discriminate.
Qed.
Lemma nth_of_type_total t ab p d rv : match_nth_of_type t ab p d rv <> None.
Proof.
  unfold match_nth_of_type. apply anb_index_total, ocount_total. intros x _.
  destruct (elem_at t x); discriminate.
Qed.
Lemma pc_total t ty p d : pc_anb_ok ty = false -> match_pseudo_class t ty p d <> None.
Proof.
  destruct ty; cbn [match_pseudo_class pc_anb_ok]; try discriminate; intros _;
    try (apply (nth_child_total t (mkAnB 0 1) None); discriminate); apply nth_of_type_total.
Qed.
Lemma pc_anb_total t ty ab f p d :
  (forall g, f = Some g -> forall q, g q <> None) -> match_pseudo_class_anb t ty ab f p d <> None.
Proof.
  intros H. destruct ty; try (apply nth_child_total; exact H); try apply nth_of_type_total;
    cbn [match_pseudo_class_anb]; apply pc_total; reflexivity.
Qed.

Lemma msel_total t s : has_args s = true -> forall p pe, msel t s p pe <> None.
Proof.
  induction s as [ty l IH|ty l r IHl IHr|q| |i|c|ty|ty|ty ab|ty ab s IH|a] using selector_ind';
    intros Hs p pe; simpl; destruct (elem_at t p) as [d|]; try discriminate.
  - rewrite Forall_forall in IH.
    assert (Hl : forallb has_args l = true).
    { destruct ty; simpl in Hs; try exact Hs; now apply andb_true_iff in Hs as [_ Hs]. }
    rewrite forallb_forall in Hl.
    assert (Hx : forall x, In x l -> msel t x p pe <> None) by (intros; apply IH; auto).
    destruct ty; [now apply oall_total|now apply oex_total| |];
      (destruct l as [|x l]; [discriminate|]; specialize (Hx x (or_introl eq_refl));
       destruct (msel t x p pe); simpl; congruence).
  - simpl in Hs. apply andb_true_iff in Hs as [Hl Hr].
    specialize (IHr Hr p pe). destruct (msel t r p pe) as [[|]|]; try congruence.
    assert (Hq : forall q, if_elem t (fun q => msel t l q None) q <> None)
      by (intros; apply if_elem_total; auto).
    destruct ty; try discriminate.
    + apply oex_total. auto.
    + unfold match_child. destruct p; [discriminate|auto].
    + unfold match_adjacent. destruct (prev_siblings p); [discriminate|auto].
    + apply oex_total. auto.
  - simpl in Hs. apply negb_true_iff in Hs. now apply pc_total.
  - apply pc_anb_total. discriminate.
  - apply pc_anb_total. intros g Hg. injection Hg as <-. auto.
Qed.

Lemma match_selector_total t s : has_args s = true -> forall p pe, match_selector t s p pe <> None.
Proof.
  intros Hs p pe.
  assert (Hone : match msel t s p pe with
         | None => None
         | Some true => Some (Some (spec s))
         | Some false => Some None
         end <> None).
  { pose proof (msel_total t s Hs p pe). destruct (msel t s p pe) as [[|]|]; congruence. }
  unfold match_selector. destruct s; try exact Hone. destruct ty; try exact Hone.
  clear Hone. simpl in Hs. rewrite forallb_forall in Hs. generalize (@None specificity) as acc.
  induction inners as [|i l IH]; intros acc; simpl; [discriminate|].
  pose proof (msel_total t i (Hs i (or_introl eq_refl)) p pe).
  destruct (msel t i p pe) as [[|]|]; [| |contradiction]; apply IH; intros; apply Hs; now right.
Qed.
