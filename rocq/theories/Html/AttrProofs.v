(** Tags with repeated attributes, and carriage returns. *)
From Coq Require Import String List Arith Bool NArith Lia.
From Verif.Base Require Import Str.
From Verif.Html Require Import Entities LexerModel LexerInv LexerTac LexerSteps2 LexerFrame LexerProofs RefProofs SerialModel SerialSpec SerialProofs NumProofs.
Import ListNotations.
Local Open Scope list_scope.
Local Open Scope N_scope.
Local Opaque has_partial is_entity expansion entities.

(** A list of attributes without those whose name came before. *)
Fixpoint keep_first (xs : list (str * str)) : list (str * str) :=
  match xs with
  | [] => []
  | x :: r => x :: filter (fun y => negb (str_eqb (fst y) (fst x))) (keep_first r)
  end.

Definition has_attr_name (n : str) (attrs : list (str * str)) : bool := existsb (fun a => str_eqb (fst a) n) attrs.
Lemma has_attr_name_spec n attrs : has_attr_name n attrs = true <-> In n (map fst attrs).
Proof.
  unfold has_attr_name. rewrite existsb_exists, in_map_iff. split; intros (x & H1 & H2).
  - apply str_eqb_spec in H2. exists x. auto.
  - exists x. split; [exact H2|]. subst. apply str_eqb_refl.
Qed.
Definition add_attr (attrs : list (str * str)) (x : str * str) : list (str * str) :=
  if has_attr_name (fst x) attrs then attrs else attrs ++ [x].

Lemma filter_comm {A} (f g : A -> bool) l : filter f (filter g l) = filter g (filter f l).
Proof. induction l as [|x l IH]; [reflexivity|]. cbn. destruct (f x) eqn:Ef, (g x) eqn:Eg; cbn; rewrite ?Ef, ?Eg, IH; reflexivity. Qed.
Lemma filter_filter {A} (f g : A -> bool) l : filter f (filter g l) = filter (fun x => g x && f x) l.
Proof. induction l as [|x l IH]; [reflexivity|]. cbn. destruct (g x); cbn; [destruct (f x); now rewrite IH|exact IH]. Qed.

Lemma add_attrs xs : forall acc, fold_left add_attr xs acc = acc ++ filter (fun y => negb (has_attr_name (fst y) acc)) (keep_first xs).
Proof.
  induction xs as [|x xs IH]; intros acc; cbn [fold_left keep_first filter]; [now rewrite app_nil_r|].
  rewrite IH. unfold add_attr. destruct (has_attr_name (fst x) acc) eqn:E; cbn [negb].
  - f_equal. rewrite filter_filter. apply filter_ext. intros y. destruct (has_attr_name (fst y) acc) eqn:Ey; cbn [negb]; [now rewrite andb_false_r|].
    destruct (str_eqb (fst y) (fst x)) eqn:E2; [|reflexivity]. apply str_eqb_spec in E2. congruence.
  - rewrite <- app_assoc. f_equal. cbn [app]. f_equal. rewrite filter_filter. apply filter_ext. intros y.
    unfold has_attr_name. rewrite existsb_app. cbn [existsb]. rewrite orb_false_r, negb_orb, andb_comm. f_equal. f_equal.
    destruct (str_eqb (fst x) (fst y)) eqn:E1, (str_eqb (fst y) (fst x)) eqn:E2; try reflexivity.
    + apply str_eqb_spec in E1. rewrite E1, str_eqb_refl in E2. discriminate.
    + apply str_eqb_spec in E2. rewrite E2, str_eqb_refl in E1. discriminate.
Qed.
Lemma keep_first_fold xs : fold_left add_attr xs [] = keep_first xs.
Proof.
  rewrite add_attrs. cbn [app]. assert (forall l : list (str * str), filter (fun y => negb (has_attr_name (fst y) [])) l = l) as H.
  { induction l as [|y l IH]; [reflexivity|]. cbn [filter has_attr_name existsb negb]. f_equal. exact IH. }
  apply H.
Qed.

Lemma start_with_refl n : start_with eq_ci n n = YES.
Proof. induction n as [|c n IH]; [reflexivity|]. cbn [start_with]. unfold eq_ci. now rewrite N.eqb_refl. Qed.

Section Sink.
Variable sink : list token -> option text_mode.

Lemma leave_repeated ty name attrs x st re la ch b te pe fo ma ag o :
  attrs <> [] ->
  existsb (fun a => match start_with eq_ci (fst x) (fst a) with YES => true | _ => false end) attrs = true ->
  leave_attribute_name (mkLexer st re (Some (tag_token ty name (attrs ++ [x]))) la ch b te pe fo ma Live ag o) =
  Ok (mkLexer st re (Some (tag_token ty name attrs)) la ch b te pe fo ma NoAttr ag o).
Proof.
  intros Hn H. unfold leave_attribute_name. cbn [l_attr l_token t_attrs tag_token]. rewrite removelast_snoc, last_last.
  destruct attrs; [congruence|]. rewrite H. reflexivity.
Qed.

Lemma attr_equals_repeated ty name attrs la o n l :
  In n (map fst attrs) ->
  tag_at ATTRIBUTE_NAME la (tag_token ty name (attrs ++ [([], [])])) Live n o l ->
  exists l', consume sink max_depth 61 false l = Ok l' /\ tag_at BEFORE_ATTRIBUTE_VALUE la (tag_token ty name attrs) NoAttr [] o l'.
Proof.
  intros Hd (Hst & Hb & Hp & Hl & Ho & Ht & Ha). destruct l as [st' re tok' la' ch bu te pe fo ma at_ ag out].
  cbn in Hst, Hb, Hp, Hl, Ho, Ht, Ha. subst.
  assert (existsb (fun a => match start_with eq_ci n (fst a) with YES => true | _ => false end) attrs = true) as He.
  { apply existsb_exists. apply in_map_iff in Hd as (x & <- & Hx). exists x. split; [exact Hx|]. now rewrite start_with_refl. }
  assert (attrs <> []) as Hne by (intros ->; discriminate).
  eexists; split; [apply once; [unfold step, clear_again; cbn [l_state]; unfold on_ATTRIBUTE_NAME; cbn [is_space N.eqb Pos.eqb orb];
    unfold commit_attr_name, seq; cbn [l_state l_return l_token l_last l_char l_builder l_temp l_peek l_foreign l_matched l_attr l_again l_out];
    rewrite with_attr_last; cbn [snd bind];
    unfold b_clear, set_builder; cbn [bind l_state l_return l_token l_last l_char l_builder l_temp l_peek l_foreign l_matched l_attr l_again l_out];
    rewrite leave_repeated by first [exact Hne|exact He]; acts; reflexivity|reflexivity]|].
  unfold tag_at; cbn [l_state l_builder l_peek l_last l_out l_token l_attr]; repeat split; reflexivity.
Qed.
Lemma attr_unquote_none tok v la o l :
  tag_at ATTRIBUTE_VALUE_DOUBLE_QUOTED la tok NoAttr v o l ->
  exists l', consume sink max_depth 34 false l = Ok l' /\ tag_at AFTER_ATTRIBUTE_VALUE_QUOTED la tok NoAttr [] o l'.
Proof.
  intros (Hst & Hb & Hp & Hl & Ho & Ht & Ha). destruct l as [st' re tok' la' ch bu te pe fo ma at_ ag out].
  cbn in Hst, Hb, Hp, Hl, Ho, Ht, Ha. subst.
  eexists; split; [apply once; [unfold step, clear_again; cbn [l_state]; unfold on_ATTRIBUTE_VALUE_DOUBLE_QUOTED; cbn [N.eqb Pos.eqb];
    unfold commit_attr_value, with_attr; acts; reflexivity|reflexivity]|].
  unfold tag_at; cbn [l_state l_builder l_peek l_last l_out l_token l_attr]; repeat split; reflexivity.
Qed.

Definition written (x : str * str) : str := serialize_attr (mkQName None (fst x), snd x).

Lemma tag_attr_any ty name attrs la o x l :
  attr_name_ok (fst x) -> text_ok (snd x) -> Forall (fun a => attr_name_ok (fst a)) attrs ->
  tag_mid ty name attrs la o l ->
  exists l', feed sink (written x) l = Ok l' /\ tag_mid ty name (add_attr attrs x) la o l'.
Proof.
  intros Hn Hv Hattrs Hl. unfold add_attr. destruct (has_attr_name (fst x) attrs) eqn:E.
  - apply has_attr_name_spec in E. unfold written, serialize_attr. cbn [app fst snd q_name].
    apply feed_cons_then with (P := fun l => exists a, tag_at BEFORE_ATTRIBUTE_NAME la (tag_token ty name attrs) a [] o l); [apply tag_space, Hl|].
    clear l Hl. intros l [a Hl]. destruct (fst x) as [|c n] eqn:En; [destruct Hn as [Hn _]; contradiction Hn; reflexivity|].
    destruct Hn as [_ Hf]. inversion Hf as [|? ? [Hc H61] Hf']. subst. destruct Hv as [H0 _].
    cbn [app]. eapply feed_cons_then; [eapply attr_first; eassumption|]. clear l Hl. intros l Hl.
    eapply feed_then; [apply attr_name_chars; eassumption|]. clear l Hl. intros l Hl. change ([c] ++ n) with (c :: n) in Hl.
    eapply feed_cons_then; [eapply attr_equals_repeated; eassumption|]. clear l Hl. intros l Hl.
    eapply feed_cons_then; [eapply attr_quote; eassumption|]. clear l Hl. intros l Hl.
    eapply feed_then; [eapply attr_value; eassumption|]. clear l Hl. intros l Hl. cbn [app] in Hl.
    rewrite feed1. destruct (attr_unquote_none _ _ _ _ _ Hl) as (l' & E' & H). exists l'. split; [exact E'|].
    right. exists NoAttr. exact H.
  - destruct (tag_attr sink ty name attrs la o (mkQName None (fst x), snd x) l) as (l' & E' & H).
    + split; [reflexivity|]. split; [exact Hn|exact Hv].
    + exact Hattrs.
    + cbn [fst q_name]. rewrite <- has_attr_name_spec. congruence.
    + exact Hl.
    + exists l'. split; [exact E'|]. destruct x. exact H.
Qed.

Lemma tag_attrs_any ty name la o xs : Forall (fun x => attr_name_ok (fst x) /\ text_ok (snd x)) xs -> forall attrs l,
  Forall (fun a => attr_name_ok (fst a)) attrs -> tag_mid ty name attrs la o l ->
  exists l', feed sink (flat_map written xs) l = Ok l' /\ tag_mid ty name (fold_left add_attr xs attrs) la o l'.
Proof.
  induction 1 as [|x xs [Hn Hv] Hxs IH]; intros attrs l Hattrs Hl.
  - exists l. split; [reflexivity|exact Hl].
  - cbn [flat_map fold_left]. eapply feed_then; [apply tag_attr_any; eassumption|]. clear l Hl. intros l Hl.
    apply IH; [|exact Hl]. unfold add_attr. destruct (has_attr_name (fst x) attrs); [exact Hattrs|].
    apply Forall_app. split; [exact Hattrs|]. constructor; [exact Hn|constructor].
Qed.
End Sink.

(** ** Carriage returns *)
Definition no_newline (p : str) : Prop := ~ In 13 p /\ ~ In 10 p.
Lemma normalize_cons_other c s : c <> 13 -> normalize (c :: s) = c :: normalize s.
Proof. intros H. cbn [normalize]. apply N.eqb_neq in H. now rewrite H. Qed.
Lemma normalize_head s : exists r, normalize (13 :: s) = 10 :: r.
Proof. cbn [normalize]. cbn [N.eqb Pos.eqb]. destruct s as [|y s]; [exists []; reflexivity|]. destruct (y =? 10); eexists; reflexivity. Qed.

Lemma prefix_normalize p : no_newline p -> forall x, is_prefix p x <-> is_prefix p (normalize x).
Proof.
  induction p as [|c p IH]; intros [H13 H10] x.
  - split; intros _; eexists; reflexivity.
  - assert (c <> 13) as N13 by (intros ->; apply H13; left; reflexivity).
    assert (c <> 10) as N10 by (intros ->; apply H10; left; reflexivity).
    assert (no_newline p) as Hp by (split; intros h; [apply H13|apply H10]; right; exact h).
    destruct x as [|y x].
    + split; intros [q E]; discriminate.
    + destruct (N.eq_dec y 13) as [->|Ny].
      * destruct (normalize_head x) as [r ->]. split; intros [q E]; injection E as E _; congruence.
      * rewrite (normalize_cons_other y x Ny). specialize (IH Hp x). destruct IH as [IH1 IH2]. split; intros [q E]; injection E as -> E.
        -- destruct IH1 as [q' E']; [exists q; exact E|]. exists q'. rewrite E'. reflexivity.
        -- destruct IH2 as [q' E']; [exists q; exact E|]. exists q'. rewrite E'. reflexivity.
Qed.

Lemma normalize_split s : forall p q, normalize s = p ++ 38 :: q -> exists p' q', s = p' ++ 38 :: q' /\ normalize q' = q.
Proof.
  induction s as [s IH] using (induction_ltof1 _ (@length N)). unfold ltof in IH. intros p q E.
  destruct s as [|x s]; [destruct p; discriminate|].
  destruct (N.eq_dec x 13) as [->|Hx].
  - cbn [normalize N.eqb Pos.eqb] in E.
    destruct s as [|y s]; [destruct p as [|? [|? ?]]; discriminate|].
    destruct (y =? 10) eqn:Ey.
    + destruct p as [|z p]; [discriminate|]. injection E as _ E.
      destruct (IH s) with (p := p) (q := q) as (p' & q' & -> & H); [cbn; lia|exact E|].
      exists (13 :: y :: p'), q'. split; [reflexivity|exact H].
    + destruct p as [|z p]; [discriminate|]. injection E as _ E.
      destruct (IH (y :: s)) with (p := p) (q := q) as (p' & q' & Es & H); [cbn; lia|exact E|].
      exists (13 :: p'), q'. rewrite Es. split; [reflexivity|exact H].
  - rewrite (normalize_cons_other x s Hx) in E. destruct p as [|z p].
    + injection E as -> E. exists [], s. split; [reflexivity|exact E].
    + injection E as _ E. destruct (IH s) with (p := p) (q := q) as (p' & q' & -> & H); [cbn; lia|exact E|].
      exists (x :: p'), q'. split; [reflexivity|exact H].
Qed.

Lemma entity_no_newline e : In e entities -> no_newline (fst e).
Proof. intros Hi. split; intros H; pose proof (entity_char e _ Hi H) as E; discriminate E. Qed.

Lemma refs_normalize s : refs_ok s -> refs_ok (normalize s).
Proof.
  intros H p q E. destruct (normalize_split s p q E) as (p' & q' & Es & Eq). specialize (H p' q' Es).
  assert (normalize (38 :: q') = 38 :: q) as En by (rewrite normalize_cons_other by discriminate; now rewrite Eq).
  destruct H as [(e & n & Hi & He & Hp)|Hno].
  - left. exists e, n. split; [exact Hi|]. split; [exact He|]. rewrite <- En. exact (proj1 (prefix_normalize _ (entity_no_newline e Hi) _) Hp).
  - right. intros e Hi Hp. apply (Hno e Hi). rewrite <- En in Hp. exact (proj2 (prefix_normalize _ (entity_no_newline e Hi) _) Hp).
Qed.

(** ** A serialised tree has no carriage return *)
Lemma escape_no_cr a s : ~ In 13 s -> ~ In 13 (escape a s).
Proof.
  intros H Hi. apply in_flat_map in Hi as (c & Hc & Hi). apply H.
  unfold escape_char in Hi.
  destruct (c =? 38); [apply (in_map N.to_nat) in Hi; vm_compute in Hi; repeat (destruct Hi as [Hi|Hi]; [discriminate|]); contradiction|].
  destruct (c =? 160); [apply (in_map N.to_nat) in Hi; vm_compute in Hi; repeat (destruct Hi as [Hi|Hi]; [discriminate|]); contradiction|].
  destruct (c =? 60); [apply (in_map N.to_nat) in Hi; vm_compute in Hi; repeat (destruct Hi as [Hi|Hi]; [discriminate|]); contradiction|].
  destruct (c =? 62); [apply (in_map N.to_nat) in Hi; vm_compute in Hi; repeat (destruct Hi as [Hi|Hi]; [discriminate|]); contradiction|].
  destruct (a && (c =? 34)); [apply (in_map N.to_nat) in Hi; vm_compute in Hi; repeat (destruct Hi as [Hi|Hi]; [discriminate|]); contradiction|].
  destruct Hi as [->|[]]. exact Hc.
Qed.

Lemma name_chars_no_cr s : Forall name_char s -> ~ In 13 s.
Proof. intros H Hi. rewrite Forall_forall in H. destruct (H _ Hi) as (_ & _ & _ & _ & _ & E). apply E. reflexivity. Qed.
Lemma tag_name_no_cr s : tag_name_ok s -> ~ In 13 s.
Proof.
  destruct s as [|c s]; [contradiction|]. intros [Hc Hs] [->|Hi]; [discriminate|]. exact (name_chars_no_cr s Hs Hi).
Qed.
Lemma attr_no_cr x : attr_good x -> ~ In 13 (serialize_attr x).
Proof.
  intros (_ & [_ Hn] & [_ H13]) Hi. unfold serialize_attr in Hi. rewrite !in_app_iff in Hi.
  destruct Hi as [[E|[]]|[Hi|[[E|[E|[]]]|[Hi|[E|[]]]]]]; try discriminate.
  - rewrite Forall_forall in Hn. destruct (Hn _ Hi) as [(_ & _ & _ & _ & _ & E) _]. apply E. reflexivity.
  - apply (escape_no_cr _ _ H13 Hi).
Qed.
Lemma tag_name_html q : name_ok q -> tag_name q = q_name q.
Proof. intros [_ Hns]. unfold tag_name. destruct Hns as [-> |[[-> | ->] _]]; reflexivity. Qed.

Lemma node_no_cr n : expressible n -> forall parent, ~ In 13 (serialize_node parent n).
Proof.
  induction n as [s|s|s|q attrs children IH] using node_induct; intros Hx parent.
  - destruct Hx as [_ H13]. cbn [serialize_node]. destruct parent as [q|]; [destruct (is_raw q)|]; try exact H13; apply escape_no_cr, H13.
  - destruct Hx as [[_ H13] _]. cbn [serialize_node]. rewrite !in_app_iff. intros [Hi|[Hi|Hi]]; [|exact (H13 Hi)|]; vm_compute in Hi; repeat (destruct Hi as [Hi|Hi]; [discriminate|]); contradiction.
  - destruct Hx as [_ H]. cbn [serialize_node]. rewrite !in_app_iff. intros [Hi|[Hi|Hi]]; [|exact (name_chars_no_cr _ H Hi)|]; vm_compute in Hi; repeat (destruct Hi as [Hi|Hi]; [discriminate|]); contradiction.
  - cbn [expressible] in Hx. destruct Hx as (Hq & Ha & Hc).
    assert (~ In 13 (start_tag q attrs)) as Hst.
    { unfold start_tag. rewrite !in_app_iff, (tag_name_html q Hq). intros [[E|[]]|[Hi|[Hi|[E|[]]]]]; try discriminate.
      - apply (tag_name_no_cr _ (proj1 Hq) Hi).
      - apply in_flat_map in Hi as (x & Hx & Hi). destruct Ha as [Ha Hd].
        pose proof (nodup_no_is attrs Hd Ha) as Hp. apply (attr_no_cr x); [|exact Hi].
        rewrite Forall_forall in Ha. apply Ha. eapply Permutation.Permutation_in; [symmetry; exact Hp|exact Hx]. }
    assert (~ In 13 (end_tag q)) as Het.
    { unfold end_tag. rewrite !in_app_iff, (tag_name_html q Hq). intros [[E|[E|[]]]|[Hi|[E|[]]]]; try discriminate.
      apply (tag_name_no_cr _ (proj1 Hq) Hi). }
    cbn [serialize_node]. rewrite in_app_iff. intros [Hi|Hi]; [exact (Hst Hi)|]. rewrite is_void_spec in Hi. destruct (void_element q) eqn:Ev; [exact Hi|].
    rewrite in_app_iff in Hi. destruct Hi as [Hi|Hi]; [|exact (Het Hi)].
    apply in_flat_map in Hi as (x & Hxi & Hi).
    assert (expressible x) as Hxx.
    { destruct (mode_of (q_name q)) as [[]|]; try contradiction.
      1-3: destruct children as [|[ | s | | ] [|]]; try discriminate Hc; try contradiction; destruct Hxi as [<-|[]]; cbn [expressible]; first [exact Hc|exact (proj1 Hc)].
      destruct Hc as [_ Hc]. revert Hc Hxi. clear. induction children as [|y ys IH]; [intros _ []|]. cbn [fold_right]. intros [H1 H2] [->|Hi]; auto. }
    rewrite Forall_forall in IH. apply (IH x Hxi Hxx (Some q) Hi).
Qed.
Lemma serialize_no_cr ns : Forall expressible ns -> ~ In 13 (serialize ns).
Proof.
  intros H Hi. apply in_flat_map in Hi as (n & Hn & Hi). rewrite Forall_forall in H. apply (node_no_cr n (H n Hn) None Hi).
Qed.
