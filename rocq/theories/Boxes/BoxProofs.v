(** The box tree shows what the document says, in order: induction over the document. *)
From Coq Require Import List NArith Bool Arith Lia.
From Verif.Base Require Import Str.
From Verif.Boxes Require Import BoxModel BoxSpec.
Import ListNotations.
Local Open Scope N_scope.

Section NodeInd.
  Variable P : node -> Prop.
  Hypothesis H1 : forall e kids, Forall P kids -> P (Elem e kids).
  Hypothesis H2 : forall s, P (Txt s).
  Hypothesis H3 : P Other.
  Fixpoint node_ind' (n : node) : P n :=
    match n with
    | Elem e kids => H1 e kids ((fix go l : Forall P l := match l with [] => Forall_nil _ | x :: l' => Forall_cons _ (node_ind' x) (go l') end) kids)
    | Txt s => H2 s
    | Other => H3
    end.
End NodeInd.

(** ** Reading a state *)
Definition read_inline (i : option (prose * list box)) : list sign :=
  match i with Some (p, k) => read_items (map read k) (p_items p) | None => [] end.
Definition read_st (t : st) : list sign := concat (map read (t_kids t)) ++ read_inline (t_inline t).
Definition sound (i : option (prose * list box)) : Prop :=
  match i with Some (p, k) => forall j sp, In (Strut j sp) (p_items p) -> (j < length k)%nat | None => True end.
Definition tidy (t : st) : Prop := t_content t = CNone /\ sound (t_inline t).
Definition idle (t : st) : Prop := match t_inline t with Some (p, _) => active p = false | None => True end.
Definition spans (t : st) : list N := match t_inline t with Some (p, _) => p_spans p | None => [] end.

Lemma ink_app a b : ink (a ++ b) = ink a ++ ink b. Proof. apply filter_app. Qed.
Lemma read_items_app k a b : read_items k (a ++ b) = read_items k a ++ read_items k b.
Proof. apply flat_map_app. Qed.
Lemma read_items_more k more l : (forall j sp, In (Strut j sp) l -> (j < length k)%nat) -> read_items (k ++ more) l = read_items k l.
Proof.
  induction l as [|i l IH]; intros H; [reflexivity|]. unfold read_items in *. cbn [flat_map]. rewrite IH by (intros j sp Hi; apply (H j sp); now right).
  f_equal. destruct i as [c sp|j sp]; [reflexivity|]. apply app_nth1. apply (H j sp). now left.
Qed.
Lemma idle_items t p k : idle t -> t_inline t = Some (p, k) -> p_items p = [].
Proof. unfold idle, active. intros H E. rewrite E in H. destruct (p_items p); [reflexivity|discriminate]. Qed.
Lemma idle_read t : idle t -> read_inline (t_inline t) = [].
Proof. intros H. destruct (t_inline t) as [[p k]|] eqn:E; [|reflexivity]. cbn. now rewrite (idle_items t p k H E). Qed.

Lemma read_box sty t o : tidy t -> idle t -> read (box_of sty t o) = of_origin o ++ read_st t.
Proof. intros [Hc _] Hi. unfold box_of. cbn [read]. rewrite Hc. unfold read_st. rewrite idle_read, app_nil_r by exact Hi. reflexivity. Qed.

Lemma add_reads b t : tidy t -> idle t -> let t' := add_to_parent b t in
  tidy t' /\ idle t' /\ t_inline t' = t_inline t /\ read_st t' = read_st t ++ read b.
Proof.
  intros [Hc Hs] Hi. cbn zeta. unfold add_to_parent. rewrite Hc. repeat split; try assumption.
  unfold read_st. cbn [t_kids t_inline]. pose proof (idle_read t Hi) as ->. rewrite map_app, concat_app. cbn. now rewrite !app_nil_r.
Qed.
Lemma flush_reads ps t : tidy t -> let t' := flush ps t in
  tidy t' /\ idle t' /\ (t_inline t <> None -> t_inline t' <> None) /\ spans t' = spans t /\ read_st t' = read_st t.
Proof.
  intros [Hc Hs]. cbn zeta. unfold flush. destruct (t_inline t) as [[p k]|] eqn:Ei.
  - destruct (active p) eqn:Ea.
    + unfold add_to_parent. cbn [t_content t_kids t_inline]. rewrite Hc. unfold tidy, idle, spans, read_st. cbn [t_content t_kids t_inline add_content].
      repeat split; try discriminate; try (now rewrite Ei).
      * cbn. intros j sp [].
      * rewrite map_app, concat_app, Ei. cbn. rewrite !app_nil_r. reflexivity.
    + unfold tidy, idle. rewrite Ei. repeat split; try assumption; try discriminate.
  - unfold tidy, idle. rewrite Ei. split; [split; [exact Hc|exact I]|]. split; [exact I|]. split; [congruence|]. split; reflexivity.
Qed.
Lemma finalize_reads ps sty t o : tidy t -> read (box_of sty (finalize ps t) o) = of_origin o ++ read_st t.
Proof.
  intros Ht. unfold finalize. destruct (t_inline t) as [[p k]|] eqn:Ei.
  - destruct (active p) eqn:Ea.
    + destruct (t_kids t) as [|b l] eqn:Ek.
      * unfold box_of. cbn [read t_content t_kids]. f_equal. unfold read_st. rewrite Ek, Ei. reflexivity.
      * destruct (flush_reads ps t Ht) as (H1 & H2 & _ & _ & H3). rewrite (read_box _ _ _ H1 H2), H3. reflexivity.
    + apply read_box; [exact Ht|]. unfold idle. now rewrite Ei.
  - apply read_box; [exact Ht|]. unfold idle. now rewrite Ei.
Qed.

(** ** Text *)
Lemma transformed_space t c : is_space (transformed t c) = is_space c.
Proof.
  unfold transformed, is_space. destruct t; [reflexivity| |].
  - destruct ((97 <=? c) && (c <=? 122)) eqn:E; [|reflexivity]. apply andb_true_iff in E as [E1 E2]. apply N.leb_le in E1, E2.
    destruct (N.eqb_spec (c - 32) 32), (N.leb_spec 9 (c - 32)), (N.leb_spec (c - 32) 13), (N.eqb_spec c 32), (N.leb_spec 9 c), (N.leb_spec c 13); cbn; try reflexivity; lia.
  - destruct ((65 <=? c) && (c <=? 90)) eqn:E; [|reflexivity]. apply andb_true_iff in E as [E1 E2]. apply N.leb_le in E1, E2.
    destruct (N.eqb_spec (c + 32) 32), (N.leb_spec 9 (c + 32)), (N.leb_spec (c + 32) 13), (N.eqb_spec c 32), (N.leb_spec 9 c), (N.leb_spec c 13); cbn; try reflexivity; lia.
Qed.
(** Runes appended to a prose. *)
Definition appended (p p' : prose) (l : list sign) : Prop :=
  p_spans p' = p_spans p /\ exists n, p_items p' = p_items p ++ n /\ (forall j sp, ~ In (Strut j sp) n) /\ forall k, ink (read_items k n) = l.
Lemma appended_refl p : appended p p [].
Proof. split; [reflexivity|]. exists []. rewrite app_nil_r. repeat split. intros j sp []. Qed.
Lemma appended_trans p q r a b : appended p q a -> appended q r b -> appended p r (a ++ b).
Proof.
  intros (H1 & n & E1 & N1 & R1) (H2 & m & E2 & N2 & R2). split; [congruence|]. exists (n ++ m). rewrite E2, E1, app_assoc. repeat split.
  - intros j sp Hi. apply in_app_or in Hi as [Hi|Hi]; [exact (N1 j sp Hi)|exact (N2 j sp Hi)].
  - intros k. rewrite read_items_app, ink_app, R1, R2. reflexivity.
Qed.
Lemma appended_rune c p : appended p (put_rune c p) (ink [Ch c (p_spans p)]).
Proof.
  split; [reflexivity|]. exists [Rune c (p_spans p)]. repeat split. intros j sp [H|[]]. discriminate.
Qed.
Lemma appended_run w r p : appended p (end_run w r p) [].
Proof.
  destruct r as [b|]; [|apply appended_refl]. unfold end_run.
  pose proof (appended_rune (match w with PRE_LINE => if b then 10 else 32 | _ => 32 end) p) as H.
  assert (ink [Ch (match w with PRE_LINE => if b then 10 else 32 | _ => 32 end) (p_spans p)] = []) as E by (destruct w; try destruct b; reflexivity).
  now rewrite E in H.
Qed.
Lemma appended_loop w sty : forall s r p, s_case sty = s_case sty ->
  appended p (append_loop w (s_case sty) s r p) (ink (letters sty (p_spans p) s)).
Proof.
  induction s as [|c s IH]; intros r p Hc; cbn [append_loop letters map].
  - apply appended_run.
  - unfold ink. cbn [filter inked]. rewrite transformed_space. destruct (is_space c) eqn:E; cbn [negb].
    + destruct (collapsible w); [exact (IH _ p Hc)|].
      pose proof (appended_trans _ _ _ _ _ (appended_rune c p) (IH None (put_rune c p) Hc)) as H.
      unfold ink in H at 1. cbn [filter inked] in H. rewrite E in H. exact H.
    + pose proof (appended_run w r p) as H0.
      pose proof (appended_trans _ _ _ _ _ H0 (appended_rune (transformed (s_case sty) c) (end_run w r p))) as H1.
      pose proof (appended_trans _ _ _ _ _ H1 (IH None (put_rune (transformed (s_case sty) c) (end_run w r p)) Hc)) as H2.
      unfold ink in H2 at 1. cbn [filter inked] in H2. rewrite transformed_space, E in H2. cbn [negb app] in H2.
      assert (p_spans (end_run w r p) = p_spans p) as Es by (destruct r; reflexivity). cbn [put_rune put_item p_spans] in H2. rewrite Es in H2. exact H2.
Qed.
Lemma skip_letters sty sp s : ink (letters sty sp (skip_spaces s)) = ink (letters sty sp s).
Proof.
  induction s as [|c s IH]; [reflexivity|]. cbn [skip_spaces]. destruct (is_space c) eqn:E; [|reflexivity]. rewrite IH. unfold ink, letters. cbn [map filter inked].
  now rewrite transformed_space, E.
Qed.
Lemma appended_text sty s p : appended p (append_text sty s p) (ink (letters sty (p_spans p) s)).
Proof.
  unfold append_text. destruct (active p); [now apply appended_loop|]. rewrite <- skip_letters. now apply appended_loop.
Qed.
Lemma letters_case a b sp s : s_case a = s_case b -> letters a sp s = letters b sp s.
Proof. intros H. unfold letters. now rewrite H. Qed.

(** ** Steps of the builder *)
Definition good (f : from) (t : st) : Prop := tidy t /\ t_inline t <> None /\ (f = FROM_FLEX -> idle t).
Definition adds (f : from) (x : res) (t : st) (w : list sign) : Prop :=
  exists t', x = Ok t' /\ good f t' /\ spans t' = spans t /\ ink (read_st t') = ink (read_st t) ++ ink w.
(** A step that only adds boxes to a parent with nothing in line. *)
Definition puts (x : res) (t : st) (w : list sign) : Prop :=
  exists t', x = Ok t' /\ tidy t' /\ idle t' /\ t_inline t' = t_inline t /\ ink (read_st t') = ink (read_st t) ++ ink w.

Lemma adds_nop f t : good f t -> adds f (Ok t) t [].
Proof. intros H. exists t. cbn. rewrite app_nil_r. auto. Qed.
Lemma adds_seq f x g t a b : adds f x t a -> (forall t', good f t' -> spans t' = spans t -> adds f (g t') t' b) -> adds f (andthen x g) t (a ++ b).
Proof.
  intros (t1 & -> & G1 & S1 & R1) H. destruct (H t1 G1 S1) as (t2 & E2 & G2 & S2 & R2). exists t2. cbn. split; [exact E2|]. split; [exact G2|]. split; [congruence|].
  rewrite R2, R1, ink_app, app_assoc. reflexivity.
Qed.
Lemma puts_nop t : tidy t -> idle t -> puts (Ok t) t [].
Proof. intros H1 H2. exists t. cbn. rewrite app_nil_r. auto. Qed.
Lemma puts_seq x g t a b : puts x t a -> (forall t', tidy t' -> idle t' -> t_inline t' = t_inline t -> puts (g t') t' b) -> puts (andthen x g) t (a ++ b).
Proof.
  intros (t1 & -> & T1 & I1 & S1 & R1) H. destruct (H t1 T1 I1 S1) as (t2 & E2 & T2 & I2 & S2 & R2). exists t2. cbn. split; [exact E2|]. split; [exact T2|]. split; [exact I2|]. split; [congruence|].
  rewrite R2, R1, ink_app, app_assoc. reflexivity.
Qed.
Lemma puts_box b t w : tidy t -> idle t -> ink (read b) = ink w -> puts (Ok (add_to_parent b t)) t w.
Proof.
  intros Ht Hi Hb. destruct (add_reads b t Ht Hi) as (H1 & H2 & H3 & H4). eexists. split; [reflexivity|]. split; [exact H1|]. split; [exact H2|]. split; [exact H3|].
  rewrite H4, ink_app, Hb. reflexivity.
Qed.
Lemma puts_adds f x t w : good f t -> idle t -> puts x t w -> adds f x t w.
Proof.
  intros (G1 & G2 & G3) Hi (t' & E & T' & I' & S' & R'). exists t'. split; [exact E|]. split.
  - split; [exact T'|]. split; [now rewrite S'|now intros _].
  - split; [|exact R']. unfold spans. now rewrite S'.
Qed.
Lemma good_idle_flush f ps t : good f t -> good f (flush ps t) /\ idle (flush ps t) /\ spans (flush ps t) = spans t /\ read_st (flush ps t) = read_st t.
Proof.
  intros (G1 & G2 & G3). destruct (flush_reads ps t G1) as (H1 & H2 & H3 & H4 & H5). split; [|auto]. split; [exact H1|]. split; [exact (H3 G2)|]. now intros _.
Qed.
(** Flushing first. *)
Lemma adds_flush f x ps t w : good f t -> adds f x (flush ps t) w -> adds f x t w.
Proof.
  intros G (t' & E & G' & S' & R'). destruct (good_idle_flush f ps t G) as (_ & _ & H1 & H2). exists t'. split; [exact E|]. split; [exact G'|]. split; [congruence|].
  rewrite R', H2. reflexivity.
Qed.

Lemma adds_text f ps sty s t : good f t -> adds f (build_text f ps sty s t) t (letters sty (spans t) s).
Proof.
  intros ((Hc & Hs) & Hn & Hf). unfold build_text. destruct (t_inline t) as [[p k]|] eqn:Ei; [|contradiction].
  assert (spans t = p_spans p) as Esp by (unfold spans; now rewrite Ei). rewrite Esp.
  destruct (appended_text sty s p) as (A1 & n & A2 & A3 & A4).
  set (skip := match f with FROM_INLINE => false | _ => true end). destruct (skip && match skip_spaces s with [] => true | _ => false end) eqn:Ek.
  - exists t. split; [reflexivity|]. split; [split; [split; [exact Hc|now rewrite Ei]|split; [now rewrite Ei|exact Hf]]|]. split; [reflexivity|].
    apply andb_true_iff in Ek as [_ Ek]. rewrite <- (skip_letters sty (p_spans p) s). destruct (skip_spaces s); [|discriminate]. cbn. now rewrite app_nil_r.
  - set (t1 := mkSt (t_content t) (t_kids t) (Some (append_text sty s p, k))).
    assert (tidy t1) as T1.
    { split; [exact Hc|]. cbn. intros j sp Hi. rewrite A2 in Hi. apply in_app_or in Hi as [Hi|Hi]; [exact (Hs j sp Hi)|destruct (A3 j sp Hi)]. }
    assert (ink (read_st t1) = ink (read_st t) ++ ink (letters sty (p_spans p) s)) as R1.
    { unfold read_st. cbn [t1 t_kids t_inline read_inline]. rewrite Ei. cbn [read_inline]. rewrite A2, read_items_app, !ink_app, A4. now rewrite app_assoc. }
    assert (spans t1 = p_spans p) as S1 by exact A1.
    assert (good FROM_INLINE t1) as G1 by (split; [exact T1|split; [cbn; discriminate|discriminate]]).
    destruct f; try (exists t1; split; [reflexivity|]; split; [split; [exact T1|split; [cbn; discriminate|discriminate]]|]; split; [congruence|exact R1]).
    destruct (good_idle_flush _ ps t1 G1) as ((T2 & N2 & _) & I2 & S2 & R2). exists (flush ps t1). split; [reflexivity|]. split; [split; [exact T2|split; [exact N2|now intros _]]|].
    split; [congruence|]. rewrite R2. exact R1.
Qed.

(** A span is pushed and popped around a step. *)
Lemma prose_push f x t : good f t -> exists t', on_prose (push_span x) t = Ok t' /\ good f t' /\ spans t' = x :: spans t /\ read_st t' = read_st t.
Proof.
  intros ((Hc & Hs) & Hn & Hf). unfold on_prose. destruct (t_inline t) as [[p k]|] eqn:Ei; [|contradiction]. eexists. split; [reflexivity|].
  split; [split; [split; [exact Hc|exact Hs]|split; [cbn; discriminate|]]|].
  - intros E. specialize (Hf E). unfold idle in *. rewrite Ei in Hf. exact Hf.
  - unfold spans, read_st. cbn. rewrite Ei. auto.
Qed.
Lemma prose_pop f t : good f t -> exists t', on_prose pop_span t = Ok t' /\ good f t' /\ spans t' = tl (spans t) /\ read_st t' = read_st t.
Proof.
  intros ((Hc & Hs) & Hn & Hf). unfold on_prose. destruct (t_inline t) as [[p k]|] eqn:Ei; [|contradiction]. eexists. split; [reflexivity|].
  split; [split; [split; [exact Hc|exact Hs]|split; [cbn; discriminate|]]|].
  - intros E. specialize (Hf E). unfold idle in *. rewrite Ei in Hf. exact Hf.
  - unfold spans, read_st. cbn. rewrite Ei. auto.
Qed.
Lemma good_weaken f f' t : good f t -> f' <> FROM_FLEX -> good f' t.
Proof. intros (H1 & H2 & H3) H. split; [exact H1|]. split; [exact H2|]. congruence. Qed.
Lemma adds_spanned f f' x (g : st -> res) t w : good f t -> f' = f \/ f' <> FROM_FLEX /\ f <> FROM_FLEX ->
  (forall u, good f' u -> spans u = x :: spans t -> adds f' (g u) u w) ->
  adds f (andthen (on_prose (push_span x) t) (fun u => andthen (g u) (on_prose pop_span))) t w.
Proof.
  intros G Hf H. assert (forall u, good f u -> good f' u) as Hto by (intros u Hu; destruct Hf as [->|[Ha Hb]]; [exact Hu|exact (good_weaken f f' u Hu Ha)]).
  assert (forall u, good f' u -> good f u) as Hback by (intros u Hu; destruct Hf as [->|[Ha Hb]]; [exact Hu|exact (good_weaken f' f u Hu Hb)]).
  destruct (prose_push f x t G) as (u & -> & Gu & Su & Ru). cbn [andthen]. destruct (H u (Hto u Gu) Su) as (v & -> & Gv & Sv & Rv). cbn [andthen].
  destruct (prose_pop f v (Hback v Gv)) as (z & -> & Gz & Sz & Rz). exists z. split; [reflexivity|]. split; [exact Gz|]. split; [rewrite Sz, Sv, Su; reflexivity|].
  rewrite Rz, Rv, Ru. reflexivity.
Qed.

(** ** Generated content *)
Lemma good_new f sty : good f (new_box sty).
Proof. split; [split; [reflexivity|]|split; [discriminate|reflexivity]]. intros j sp []. Qed.
Lemma generates_text e w x : generates e w x = match pseudo_text e w x with Some _ => true | None => false end.
Proof. unfold generates, pseudo_text. destruct (s_display (ps_style x)), w, (ps_content x), (s_list (e_style e)); reflexivity. Qed.
Lemma adds_inner e w x f ps t s : good f t -> pseudo_text e w x = Some s -> adds f (inner_content e w x f ps t) t (letters (ps_style x) (spans t) s).
Proof.
  intros G E. unfold inner_content, pseudo_text in *.
  assert (forall l : list N, Some l = Some s -> adds f (build_text f ps (ps_style x) l t) t (letters (ps_style x) (spans t) s)) as HT by (intros l [= ->]; now apply adds_text).
  assert (Some [] = Some s -> adds f (Ok t) t (letters (ps_style x) (spans t) s)) as HE by (intros [= <-]; now apply adds_nop).
  destruct (s_display (ps_style x)) as [i o it|i| |]; try discriminate; destruct w; destruct (ps_content x) as [| |c|]; try discriminate; auto;
    destruct (s_list (e_style e)); try discriminate; auto.
Qed.
Lemma adds_pseudo e w x f ps t : good f t -> adds f (build_pseudo_opt e w x f ps t) t (shown_pseudo e w x (spans t)).
Proof.
  intros G. destruct x as [x|]; [|now apply adds_nop]. cbn [build_pseudo_opt shown_pseudo]. unfold build_pseudo. rewrite generates_text.
  destruct (pseudo_text e w x) as [s|] eqn:Es; [|now apply adds_nop]. destruct (in_line (s_display (ps_style x))) eqn:El.
  - assert (match s_display (ps_style x) with Default _ INLINE _ | CONTENTS => s_span (ps_style x) :: spans t | _ => [s_span (ps_style x); s_span (ps_style x)] end = s_span (ps_style x) :: spans t) as ->.
    { unfold in_line in El. destruct (s_display (ps_style x)) as [i [| |] it|i| |]; try discriminate; reflexivity. }
    apply (adds_spanned f f); [exact G|now left|]. intros u Gu Su. rewrite <- Su. now apply adds_inner.
  - assert (match s_display (ps_style x) with Default _ INLINE _ | CONTENTS => s_span (ps_style x) :: spans t | _ => [s_span (ps_style x); s_span (ps_style x)] end = [s_span (ps_style x); s_span (ps_style x)]) as ->.
    { unfold in_line in El. destruct (s_display (ps_style x)) as [i [| |] it|i| |]; try discriminate; reflexivity. }
    set (f' := if is_inside FLEX (s_display (ps_style x)) then FROM_FLEX else FROM_BLOCK).
    destruct (adds_spanned f' f' (s_span (ps_style x)) (fun u => inner_content e w x f' (ps_style x) u) (new_box (ps_style x)) (letters (ps_style x) [s_span (ps_style x); s_span (ps_style x)] s)) as (u & Eu & Gu & Su & Ru).
    { apply good_new. } { now left. }
    { intros u Gu Su. replace [s_span (ps_style x); s_span (ps_style x)] with (spans u) by (rewrite Su; reflexivity). now apply adds_inner. }
    cbv zeta. destruct (on_prose (push_span (s_span (ps_style x))) (new_box (ps_style x))) as [u1|] eqn:E1; [|discriminate]. cbn [andthen] in Eu |- *.
    destruct (inner_content e w x f' (ps_style x) u1) as [u2|] eqn:E2; [|discriminate]. cbn [andthen] in Eu |- *. rewrite Eu. cbn [andthen].
    apply (adds_flush f _ ps t _ G). destruct (good_idle_flush f ps t G) as (Gf & If & _ & _).
    apply puts_adds; [exact Gf|exact If|]. apply puts_box; [apply Gf|exact If|].
    rewrite finalize_reads by apply Gu. cbn [of_origin app]. rewrite Ru. reflexivity.
Qed.
Lemma puts_pseudo e w x f ps t sp : tidy t -> idle t -> not_in_line e w x = true -> puts (build_pseudo_opt e w x f ps t) t (shown_pseudo e w x sp).
Proof.
  intros Ht Hi Hn. destruct x as [x|]; [|now apply puts_nop]. cbn [build_pseudo_opt shown_pseudo not_in_line] in *. unfold build_pseudo. rewrite generates_text.
  destruct (pseudo_text e w x) as [s|] eqn:Es; [|now apply puts_nop].
  assert (in_line (s_display (ps_style x)) = false) as -> by (unfold in_line; destruct (s_display (ps_style x)) as [i [| |] it|i| |]; try discriminate; reflexivity).
  assert (match s_display (ps_style x) with Default _ INLINE _ | CONTENTS => s_span (ps_style x) :: sp | _ => [s_span (ps_style x); s_span (ps_style x)] end = [s_span (ps_style x); s_span (ps_style x)]) as ->.
  { destruct (s_display (ps_style x)) as [i [| |] it|i| |]; try discriminate; reflexivity. }
  set (f' := if is_inside FLEX (s_display (ps_style x)) then FROM_FLEX else FROM_BLOCK).
  destruct (adds_spanned f' f' (s_span (ps_style x)) (fun u => inner_content e w x f' (ps_style x) u) (new_box (ps_style x)) (letters (ps_style x) [s_span (ps_style x); s_span (ps_style x)] s)) as (u & Eu & Gu & Su & Ru).
  { apply good_new. } { now left. }
  { intros u Gu Su. replace [s_span (ps_style x); s_span (ps_style x)] with (spans u) by (rewrite Su; reflexivity). now apply adds_inner. }
  cbv zeta. destruct (on_prose (push_span (s_span (ps_style x))) (new_box (ps_style x))) as [u1|] eqn:E1; [|discriminate]. cbn [andthen] in Eu |- *.
  destruct (inner_content e w x f' (ps_style x) u1) as [u2|] eqn:E2; [|discriminate]. cbn [andthen] in Eu |- *. rewrite Eu. cbn [andthen].
  assert (flush ps t = t) as ->. { unfold flush. destruct (t_inline t) as [[p k]|] eqn:Et; [|reflexivity]. unfold idle in Hi. rewrite Et in Hi. now rewrite Hi. }
  apply puts_box; [exact Ht|exact Hi|]. rewrite finalize_reads by apply Gu. cbn [of_origin app]. rewrite Ru. reflexivity.
Qed.

(** ** Elements *)
Definition isflex (f : from) : bool := match f with FROM_FLEX => true | _ => false end.
Definition flow_ok (n : node) : Prop := forall f ps sty t, s_case ps = s_case sty -> good f t -> fine PFlow (isflex f) sty n = true ->
  adds f (m_node (make n) f ps t) t (shown (Flow (isflex f)) n sty (spans t)).
Definition cell_ok (n : node) : Prop := forall f p ps sty t sp e kids, n = Elem e kids ->
  s_display (e_style e) = Internal TABLE_CELL \/ s_display (e_style e) = Internal TABLE_CAPTION -> p <> PGraphics -> fine p false sty n = true ->
  tidy t -> idle t -> puts (m_node (make n) f ps t) t (shown (Flow false) n sty sp).
Definition part_ok (n : node) : Prop := forall p sty t sp e kids d, n = Elem e kids -> s_display (e_style e) = d ->
  proper_table_child d = true -> d <> Internal TABLE_CAPTION -> p <> PGraphics -> fine p false sty n = true ->
  tidy t -> idle t -> puts (m_internal (make n) d t) t (shown (Flow false) n sty sp).
Definition svg_ok (n : node) : Prop := forall sty t sp e kids, n = Elem e kids -> fine PGraphics false sty n = true ->
  tidy t -> idle t -> puts (m_svg (make n) t) t (shown Graphics n sty sp).
Definition node_ok (n : node) : Prop := flow_ok n /\ cell_ok n /\ part_ok n /\ svg_ok n.

Definition inner (e : elem) (kids : list node) (fl : bool) (sty : style) (sp : list N) : list sign :=
  (if list_item (s_display (e_style e)) then shown_pseudo e MARKER (e_marker e) sp else []) ++
  shown_pseudo e BEFORE (e_before e) sp ++
  flat_map (fun k => shown (Flow fl) k sty sp) kids ++
  shown_pseudo e AFTER (e_after e) sp.

Lemma adds_each f ps sty : forall kids t, Forall node_ok kids -> s_case ps = s_case sty -> good f t -> forallb (fine PFlow (isflex f) sty) kids = true ->
  adds f (each (fun k => m_node (snd k) f ps) (map kid_of kids) t) t (flat_map (fun k => shown (Flow (isflex f)) k sty (spans t)) kids).
Proof.
  induction kids as [|n kids IH]; intros t HF Hc G H; [now apply adds_nop|]. cbn [map each flat_map forallb kid_of snd] in *. apply andb_true_iff in H as [H1 H2].
  inversion_clear HF as [|? ? Hn HF']. apply adds_seq.
  - apply Hn; assumption.
  - intros t' G' S'. rewrite <- S'. apply IH; assumption.
Qed.
Lemma adds_children e kids f ps sty t : Forall node_ok kids -> s_case ps = s_case sty -> good f t -> forallb (fine PFlow (isflex f) sty) kids = true ->
  adds f (build_children e (map kid_of kids) f ps t) t (inner e kids (isflex f) sty (spans t)).
Proof.
  intros HF Hc G H. unfold build_children, inner. apply adds_seq.
  - unfold is_item, list_item. destruct (s_display (e_style e)) as [i o it|i| |]; try (now apply adds_nop). destruct it; [now apply adds_pseudo|now apply adds_nop].
  - intros t1 G1 S1. rewrite <- S1. apply adds_seq; [now apply adds_pseudo|]. intros t2 G2 S2. rewrite <- S2. apply adds_seq.
    + now apply adds_each.
    + intros t3 G3 S3. rewrite <- S3. now apply adds_pseudo.
Qed.
Lemma puts_svg_kids sty sp : forall kids t, Forall node_ok kids -> tidy t -> idle t -> forallb (fine PGraphics false sty) kids = true ->
  puts (build_svg_kids (map kid_of kids) t) t (flat_map (fun k => shown Graphics k sty sp) kids).
Proof.
  unfold build_svg_kids. induction kids as [|n kids IH]; intros t HF Ht Hi H; [now apply puts_nop|]. cbn [map each flat_map forallb kid_of snd fst] in *. apply andb_true_iff in H as [H1 H2].
  inversion_clear HF as [|? ? Hn HF']. apply puts_seq.
  - destruct n as [e ks|s|]; [|now apply puts_nop|now apply puts_nop]. destruct Hn as (_ & _ & _ & Hn). exact (Hn sty t sp e ks eq_refl H1 Ht Hi).
  - intros t' Ht' Hi' _. now apply IH.
Qed.

Definition body (e : elem) (kids : list node) (fl : bool) (sty : style) (sp : list N) : list sign :=
  match e_tag e with
  | BR | IMG | INPUT_HIDDEN | INPUT_BUTTON | VOID => []
  | INPUT_TEXT v => map (fun c => Ch c [s_span (e_style e)]) v
  | SVG => flat_map (fun k => shown Graphics k sty sp) kids
  | _ => inner e kids fl (e_style e) [s_span (e_style e)]
  end.
Definition body_fine (e : elem) (kids : list node) (fl : bool) : bool :=
  match e_tag e with
  | INPUT_BUTTON | INPUT_TEXT _ | IMG | BR | INPUT_HIDDEN | VOID => true
  | SVG => forallb (fine PGraphics false (e_style e)) kids
  | _ => forallb (fine PFlow fl (e_style e)) kids
  end.
Lemma fine_graphics n : forall f g sty sty', fine PGraphics f sty n = fine PGraphics g sty' n.
Proof.
  induction n as [e kids IH|s|] using node_ind'; intros f g sty sty'; try reflexivity. cbn [fine]. destruct (s_display (e_style e)); try reflexivity;
  destruct (e_tag e); try reflexivity; clear -IH; induction IH as [|n l H HF IH]; try reflexivity; cbn [forallb]; rewrite (H false false sty sty'); now f_equal.
Qed.
Lemma fine_graphics_all sty sty' l : forallb (fine PGraphics false sty) l = forallb (fine PGraphics false sty') l.
Proof. induction l as [|n l IH]; [reflexivity|]. cbn. now rewrite (fine_graphics n false false sty sty'), IH. Qed.

Lemma block_reads e kids f ps o sty sp : Forall node_ok kids -> s_case ps = s_case (e_style e) -> s_span ps = s_span (e_style e) -> body_fine e kids (isflex f) = true ->
  exists u, block_flow e (map kid_of kids) f ps (new_box ps) = Ok u /\ ink (read (box_of ps u o)) = ink (of_origin o ++ body e kids (isflex f) sty sp).
Proof.
  intros HF Hc Hs H. unfold block_flow, body.
  assert (forall c, idle (put_content c (new_box ps))) as Hid by reflexivity.
  assert (forall c, finalize ps (put_content c (new_box ps)) = put_content c (new_box ps)) as Hfin by reflexivity.
  assert (body_fine e kids (isflex f) = forallb (fine PFlow (isflex f) (e_style e)) kids ->
    exists u, andthen (build_children e (map kid_of kids) f ps (new_box ps)) (fun t => Ok (finalize ps t)) = Ok u /\
    ink (read (box_of ps u o)) = ink (of_origin o ++ inner e kids (isflex f) (e_style e) [s_span (e_style e)])) as HC.
  { intros Hb. rewrite Hb in H. destruct (adds_children e kids f ps (e_style e) (new_box ps) HF Hc (good_new f ps) H) as (u & -> & Gu & Su & Ru).
    cbn [andthen]. eexists. split; [reflexivity|]. rewrite finalize_reads by apply Gu. rewrite !ink_app, Ru. rewrite <- Hs. reflexivity. }
  unfold body_fine in H, HC. destruct (e_tag e) eqn:Et; cbn [is_void]; unfold build_void; rewrite ?Et; try (apply HC; reflexivity);
    try (eexists; split; [reflexivity|]; cbn; rewrite ?app_nil_r; reflexivity).
  - destruct (puts_svg_kids sty sp kids (new_box ps) HF) as (u & -> & Tu & Iu & Su & Ru).
    { apply (good_new FROM_BLOCK). } { now apply (good_new FROM_FLEX). } { rewrite (fine_graphics_all sty (e_style e)). exact H. }
    cbn [andthen]. eexists. split; [reflexivity|]. rewrite finalize_reads by exact Tu. rewrite !ink_app, Ru. reflexivity.
  - assert (forall k v, read_items k (map (fun c => Rune c [s_span (e_style e)]) v) = map (fun c => Ch c [s_span (e_style e)]) v) as E
      by (intros k v; induction v as [|c v IH]; [reflexivity|cbn; now f_equal]).
    eexists. split; [reflexivity|]. unfold box_of. cbn [put_content finalize t_inline new_box root_inline active p_items t_content t_kids read map]. now rewrite E.
Qed.
Lemma box_reads e kids fl ps k sty sp : Forall node_ok kids -> s_case ps = s_case (e_style e) -> s_span ps = s_span (e_style e) ->
  is_inside FLEX (s_display ps) = fl -> body_fine e kids fl = true ->
  exists b, box_from e (map kid_of kids) ps k = k b /\ ink (read b) = ink (Mark (e_id e) :: body e kids fl sty sp).
Proof.
  intros HF Hc Hs Hf H. unfold box_from. cbv zeta. rewrite Hf.
  assert (isflex (if fl then FROM_FLEX else FROM_BLOCK) = fl) as E by (destruct fl; reflexivity).
  rewrite <- E in H. destruct (block_reads e kids _ ps (OElem (e_id e)) sty sp HF Hc Hs H) as (u & -> & R). cbn [andthen]. eexists. split; [reflexivity|].
  rewrite R, E. reflexivity.
Qed.

(** ** Tables *)
Definition reads_opt (o : option st) : list sign := match o with Some t => read_st t | None => [] end.
Definition wreads (w : wrap) : list sign := read_st (w_bc w) ++ reads_opt (w_row w) ++ reads_opt (w_cell w).
Definition plain (t : st) : Prop := tidy t /\ idle t.
Definition wgood (sty : style) (w : wrap) : Prop :=
  plain (w_bc w) /\ (forall r, w_row w = Some r -> plain r) /\
  (forall c, w_cell w = Some c -> good FROM_TABLE c /\ spans c = [s_span sty]).
Definition wadds (sty : style) (x : wres) (w : wrap) (l : list sign) : Prop :=
  exists w', x = WOk w' /\ wgood sty w' /\ ink (wreads w') = ink (wreads w) ++ ink l.

Lemma plain_part : plain part_box. Proof. split; [split; [reflexivity|exact I]|exact I]. Qed.
Lemma row_good sty w : wgood sty w -> wgood sty (row_if_none w) /\ wreads (row_if_none w) = wreads w /\ w_row (row_if_none w) <> None /\ w_cell (row_if_none w) = w_cell w.
Proof.
  intros (H1 & H2 & H3). unfold row_if_none. destruct (w_row w) as [r|] eqn:E.
  - split; [split; [exact H1|split; [now rewrite E|exact H3]]|]. split; [reflexivity|]. split; [now rewrite E|reflexivity].
  - split; [|split; [|split]]; cbn; try discriminate; try reflexivity.
    + split; [exact H1|]. split; [|exact H3]. cbn. intros r [= <-]. exact plain_part.
    + unfold wreads. cbn. now rewrite E.
Qed.
Lemma cell_good sty w : wgood sty w -> wgood sty (cell_if_none sty w) /\ wreads (cell_if_none sty w) = wreads w /\ w_cell (cell_if_none sty w) <> None.
Proof.
  intros (H1 & H2 & H3). unfold cell_if_none. destruct (w_cell w) as [c|] eqn:E.
  - split; [split; [exact H1|split; [exact H2|now rewrite E]]|]. split; [reflexivity|now rewrite E].
  - split; [|split]; cbn; try discriminate.
    + split; [exact H1|]. split; [exact H2|]. cbn. intros c [= <-]. split; [apply good_new|reflexivity].
    + unfold wreads. cbn. now rewrite E.
Qed.
Lemma nothing_reads sty t o : has_something t = false -> read (box_of sty t o) = of_origin o.
Proof. unfold has_something, box_of. destruct (t_content t); try discriminate. destruct (t_kids t); [|discriminate]. intros _. cbn. now rewrite app_nil_r. Qed.
Lemma end_cell_good sty w : wgood sty w -> wgood sty (end_cell sty w) /\ wreads (end_cell sty w) = wreads w /\ w_cell (end_cell sty w) = None.
Proof.
  intros (H1 & H2 & H3). unfold end_cell. destruct (w_cell w) as [c|] eqn:E.
  - destruct (H3 c eq_refl) as [Gc _]. cbv zeta.
    pose proof (finalize_reads (anon_style TABLE_CELL sty) (anon_style TABLE_CELL sty) c OAnon (proj1 Gc)) as R. cbn [of_origin app] in R.
    destruct (has_something (finalize (anon_style TABLE_CELL sty) c)) eqn:Eh.
    + destruct (w_row w) as [r|] eqn:Er.
      * destruct (H2 r eq_refl) as [Tr Ir]. destruct (add_reads (box_of (anon_style TABLE_CELL sty) (finalize (anon_style TABLE_CELL sty) c) OAnon) r Tr Ir) as (A1 & A2 & A3 & A4).
        split; [|split; [|reflexivity]].
        -- split; [exact H1|]. split; cbn; [intros r' [= <-]; split; assumption|discriminate].
        -- unfold wreads. cbn [w_bc w_row w_cell reads_opt]. rewrite A4, Er, E. cbn [reads_opt]. rewrite R, app_nil_r. reflexivity.
      * destruct H1 as [Tr Ir]. destruct (add_reads (box_of (anon_style TABLE_CELL sty) (finalize (anon_style TABLE_CELL sty) c) OAnon) (w_bc w) Tr Ir) as (A1 & A2 & A3 & A4).
        split; [|split; [|reflexivity]].
        -- split; [split; assumption|]. split; cbn; discriminate.
        -- unfold wreads. cbn [w_bc w_row w_cell reads_opt]. rewrite A4, Er, E. cbn [reads_opt]. rewrite R, !app_nil_r. reflexivity.
    + rewrite (nothing_reads _ _ _ Eh) in R. split; [|split; [|reflexivity]].
      * split; [exact H1|]. split; [exact H2|]. cbn. discriminate.
      * unfold wreads. cbn [w_bc w_row w_cell reads_opt]. rewrite E. cbn [reads_opt]. now rewrite <- R.
  - split; [split; [exact H1|split; [exact H2|now rewrite E]]|]. split; [reflexivity|exact E].
Qed.
Lemma end_row_good sty w : wgood sty w -> w_cell w = None -> wgood sty (end_row sty w) /\ wreads (end_row sty w) = wreads w /\ w_cell (end_row sty w) = None /\ w_row (end_row sty w) = None.
Proof.
  intros (H1 & H2 & H3) E. unfold end_row. destruct (w_row w) as [r|] eqn:Er.
  - destruct (H2 r eq_refl) as [Tr Ir]. pose proof (read_box (anon_style TABLE_ROW sty) r OAnon Tr Ir) as R. cbn [of_origin app] in R.
    destruct (has_something r) eqn:Eh.
    + destruct H1 as [Tb Ib]. destruct (add_reads (box_of (anon_style TABLE_ROW sty) r OAnon) (w_bc w) Tb Ib) as (A1 & A2 & A3 & A4).
      split; [|split; [|split; [exact E|reflexivity]]].
      * split; [split; assumption|]. split; cbn; [discriminate|exact H3].
      * unfold wreads. cbn [w_bc w_row w_cell reads_opt]. rewrite A4, Er, E, R. cbn [reads_opt]. now rewrite !app_nil_r.
    + rewrite (nothing_reads _ _ _ Eh) in R. split; [|split; [|split; [exact E|reflexivity]]].
      * split; [exact H1|]. split; cbn; [discriminate|exact H3].
      * unfold wreads. cbn [w_bc w_row w_cell reads_opt]. rewrite Er, E. cbn [reads_opt]. now rewrite <- R.
  - split; [split; [exact H1|split; [now rewrite Er|exact H3]]|]. split; [reflexivity|]. split; [exact E|exact Er].
Qed.

Lemma in_bc_adds sty f w l : wgood sty w -> w_row w = None -> w_cell w = None -> puts (f (w_bc w)) (w_bc w) l -> wadds sty (in_bc f w) w l.
Proof.
  intros (H1 & H2 & H3) Er Ec (t & E & Tt & It & _ & R). unfold in_bc. rewrite E. eexists. split; [reflexivity|]. split.
  - split; [split; assumption|]. split; [exact H2|exact H3].
  - unfold wreads. cbn [w_bc w_row w_cell]. rewrite Er, Ec. cbn [reads_opt]. rewrite !app_nil_r. exact R.
Qed.
Lemma in_row_adds sty f w l : wgood sty w -> w_row w <> None -> w_cell w = None -> (forall r, plain r -> puts (f r) r l) -> wadds sty (in_row f w) w l.
Proof.
  intros (H1 & H2 & H3) Er Ec Hf. unfold in_row. destruct (w_row w) as [r|] eqn:E; [|contradiction]. destruct (Hf r (H2 r eq_refl)) as (t & -> & Tt & It & _ & R).
  eexists. split; [reflexivity|]. split.
  - split; [exact H1|]. split; cbn; [intros r' [= <-]; split; assumption|exact H3].
  - unfold wreads. cbn [w_bc w_row w_cell]. rewrite Ec, E. cbn [reads_opt]. rewrite !app_nil_r, !ink_app, R. now rewrite app_assoc.
Qed.
Lemma in_cell_adds sty f w l : wgood sty w -> w_cell w <> None -> (forall c, good FROM_TABLE c -> spans c = [s_span sty] -> adds FROM_TABLE (f c) c l) -> wadds sty (in_cell f w) w l.
Proof.
  intros (H1 & H2 & H3) Ec Hf. unfold in_cell. destruct (w_cell w) as [c|] eqn:E; [|contradiction]. destruct (H3 c eq_refl) as [Gc Sc].
  destruct (Hf c Gc Sc) as (t & -> & Gt & St & R). eexists. split; [reflexivity|]. split.
  - split; [exact H1|]. split; cbn; [exact H2|]. intros c' [= <-]. split; [exact Gt|congruence].
  - unfold wreads. cbn [w_bc w_row w_cell]. rewrite E. cbn [reads_opt]. rewrite !ink_app, R. now rewrite !app_assoc.
Qed.
Lemma wadds_eq sty x w w' l : wreads w' = wreads w -> wadds sty x w' l -> wadds sty x w l.
Proof. intros E (w2 & H1 & H2 & H3). exists w2. rewrite <- E. auto. Qed.

(** What a table box, a row group and a row accept as they are. *)
Definition accepts (p : place) (accepted : display -> bool) : Prop :=
  match p with
  | PTable => accepted = proper_table_child
  | PGroup => accepted = is_internal TABLE_ROW
  | PRow => accepted = is_internal TABLE_CELL
  | _ => False
  end.
Lemma fine_place p sty e kids : p <> PGraphics -> (forall i, s_display (e_style e) <> Internal i) -> fine p false sty (Elem e kids) = fine PFlow false sty (Elem e kids).
Proof. intros Hp Hd. destruct p; try contradiction; cbn [fine]; destruct (s_display (e_style e)) as [a b c|a| |]; try reflexivity; now destruct (Hd a). Qed.
Lemma shown_internal f g e kids sty sp i : s_display (e_style e) = Internal i -> shown (Flow f) (Elem e kids) sty sp = shown (Flow g) (Elem e kids) sty sp.
Proof. intros E. cbn [shown]. rewrite E. destruct i; reflexivity. Qed.

Lemma kid_adds p sty src skip accepted n w : node_ok n -> accepts p accepted -> p = PRow <-> is_internal TABLE_ROW (s_display sty) = true ->
  skip = match p with PTable => true | _ => false end -> s_case sty = s_case src ->
  fine p false src n = true -> wgood sty w ->
  wadds sty (table_kid sty skip accepted (kid_of n) w) w (if skip && has_display TABLE_CAPTION n then [] else shown (Flow false) n src [s_span sty]).
Proof.
  intros Hn Ha Hp Hk Hc Hf Hw. unfold table_kid. cbn [kid_of fst snd].
  assert (p <> PGraphics) as Hg by (destruct p; try discriminate; contradiction).
  destruct n as [e kids|s|].
  2:{ assert (has_display TABLE_CAPTION (Txt s) = false) as -> by reflexivity. rewrite andb_false_r.
      set (w1 := if is_internal TABLE_ROW (s_display sty) then w else row_if_none w).
      assert (wgood sty w1 /\ wreads w1 = wreads w) as [Hw1 R1] by (unfold w1; destruct (is_internal TABLE_ROW (s_display sty)); [auto|split; apply (row_good sty w Hw)]).
      destruct (cell_good sty w1 Hw1) as (Hw2 & R2 & N2). apply (wadds_eq sty _ w (cell_if_none sty w1)); [congruence|].
      apply in_cell_adds; [exact Hw2|exact N2|]. intros c Gc Sc. rewrite <- Sc. cbn [shown]. rewrite <- (letters_case sty src _ s Hc). now apply adds_text. }
  2:{ exists w. cbn [has_display shown]. rewrite andb_false_r. cbn. rewrite app_nil_r. auto. }
  set (d := s_display (e_style e)) in *.
  assert (skip && is_internal TABLE_CAPTION d = skip && has_display TABLE_CAPTION (Elem e kids)) as Ecap.
  { unfold d. cbn [has_display]. destruct (s_display (e_style e)) as [a b c|[]| |]; reflexivity. }
  rewrite Ecap. destruct (skip && has_display TABLE_CAPTION (Elem e kids)) eqn:Es.
  { exists w. cbn. rewrite app_nil_r. auto. }
  destruct Hn as (HN1 & HN2 & HN3 & _).
  assert (forall w0, wgood sty w0 -> wreads w0 = wreads w -> w_cell w0 <> None -> (forall i, d <> Internal i) ->
     wadds sty (in_cell (m_node (make (Elem e kids)) FROM_TABLE (anon_style TABLE_CELL sty)) w0) w (shown (Flow false) (Elem e kids) src [s_span sty])) as Hcell.
  { intros w0 Hw0 R0 N0 Hd. apply (wadds_eq sty _ w w0 _ R0). apply in_cell_adds; [exact Hw0|exact N0|]. intros c Gc Sc. rewrite <- Sc.
    apply (HN1 FROM_TABLE (anon_style TABLE_CELL sty) src c Hc Gc). cbn [isflex]. rewrite <- (fine_place p src e kids Hg Hd). exact Hf. }
  destruct (end_cell_good sty w Hw) as (He & Re & Ne).
  destruct (accepted d) eqn:Eacc.
  - destruct (end_row_good sty _ He Ne) as (Hr & Rr & Nr & Nr'). apply (wadds_eq sty _ w (end_row sty (end_cell sty w))); [congruence|].
    destruct (is_internal TABLE_CELL d) eqn:Ec.
    + apply in_bc_adds; [exact Hr|exact Nr'|exact Nr|].
      destruct Hr as ((Tb & Ib) & _). refine (HN2 FROM_TABLE p sty src _ [s_span sty] e kids eq_refl _ Hg Hf Tb Ib). left. fold d. destruct d as [a b c|[]| |]; try discriminate; reflexivity.
    + apply in_bc_adds; [exact Hr|exact Nr'|exact Nr|]. destruct Hr as ((Tb & Ib) & _).
      refine (HN3 p src _ [s_span sty] e kids d eq_refl eq_refl _ _ Hg Hf Tb Ib).
      * destruct p; try contradiction; cbn [accepts] in Ha; subst accepted; [exact Eacc| |congruence]. destruct d as [a b c|[]| |]; try discriminate; reflexivity.
      * intros Ed. rewrite Ed in *. destruct p; try contradiction; cbn [accepts] in Ha; subst accepted; try discriminate. subst skip. cbn in Ecap. congruence.
  - destruct (is_internal TABLE_ROW (s_display sty)) eqn:Er.
    + destruct (cell_good sty w Hw) as (H1 & H2 & H3). apply Hcell; try assumption. pose proof (proj2 Hp eq_refl) as Ep. subst p. cbn [accepts] in Ha. subst accepted.
      intros i Hi. rewrite Hi in Eacc. cbn [fine] in Hf. fold d in Hf. rewrite Hi in Hf. destruct i; try discriminate.
    + assert (p <> PRow) as Hnr by (intros E; destruct Hp as [Hp _]; specialize (Hp E); discriminate).
      destruct (is_internal TABLE_CELL d) eqn:Ec.
      * destruct (row_good sty _ He) as (H1 & H2 & H3 & H4). apply (wadds_eq sty _ w (row_if_none (end_cell sty w))); [congruence|].
        apply in_row_adds; [exact H1|exact H3|congruence|]. intros r [Tr Ir]. refine (HN2 FROM_TABLE p _ src _ [s_span sty] e kids eq_refl _ Hg Hf Tr Ir).
        left. fold d. destruct d as [a b c|[]| |]; try discriminate; reflexivity.
      * destruct (row_good sty w Hw) as (H1 & H2 & H3 & H4). destruct (cell_good sty _ H1) as (H5 & H6 & H7). apply Hcell; [exact H5|congruence|exact H7|].
        intros i Hi. rewrite Hi in *. cbn [fine] in Hf. fold d in Hf. rewrite Hi in Hf. destruct p; try contradiction; cbn [accepts] in Ha; subst accepted; destruct i; try discriminate.
Qed.
Lemma loop_adds p sty src skip accepted : forall kids w, Forall node_ok kids -> accepts p accepted -> p = PRow <-> is_internal TABLE_ROW (s_display sty) = true ->
  skip = match p with PTable => true | _ => false end -> s_case sty = s_case src ->
  forallb (fine p false src) kids = true -> wgood sty w ->
  wadds sty (table_loop sty skip accepted (map kid_of kids) w) w
    (flat_map (fun n => if skip && has_display TABLE_CAPTION n then [] else shown (Flow false) n src [s_span sty]) kids).
Proof.
  induction kids as [|n kids IH]; intros w HF Ha Hp Hk Hc Hf Hw; cbn [map table_loop flat_map].
  - exists w. cbn. rewrite app_nil_r. auto.
  - cbn [forallb] in Hf. apply andb_true_iff in Hf as [Hf1 Hf2]. inversion_clear HF as [|? ? Hn HF'].
    destruct (kid_adds p sty src skip accepted n w Hn Ha Hp Hk Hc Hf1 Hw) as (w1 & -> & G1 & R1). cbn [wthen].
    destruct (IH w1 HF' Ha Hp Hk Hc Hf2 G1) as (w2 & -> & G2 & R2). exists w2. split; [reflexivity|]. split; [exact G2|]. rewrite R2, R1, ink_app, app_assoc. reflexivity.
Qed.
Lemma table_kids_puts p sty src skip accepted kids : Forall node_ok kids -> accepts p accepted -> p = PRow <-> is_internal TABLE_ROW (s_display sty) = true ->
  skip = match p with PTable => true | _ => false end -> s_case sty = s_case src -> forallb (fine p false src) kids = true ->
  exists u, table_kids sty skip accepted (map kid_of kids) part_box = Ok u /\ plain u /\
    ink (read_st u) = ink (flat_map (fun n => if skip && has_display TABLE_CAPTION n then [] else shown (Flow false) n src [s_span sty]) kids).
Proof.
  intros HF Ha Hp Hk Hc Hf. unfold table_kids.
  assert (wgood sty (mkWrap part_box None None)) as Hw by (split; [exact plain_part|split; cbn; discriminate]).
  destruct (loop_adds p sty src skip accepted kids _ HF Ha Hp Hk Hc Hf Hw) as (w & -> & Gw & R).
  destruct (end_cell_good sty w Gw) as (He & Re & Ne). destruct (end_row_good sty _ He Ne) as (Hr & Rr & Nr & Nr'). exists (w_bc (end_row sty (end_cell sty w))). split; [reflexivity|]. split; [exact (proj1 Hr)|].
  assert (wreads (end_row sty (end_cell sty w)) = wreads w) as E by congruence. rewrite <- E in R. unfold wreads in R at 1. rewrite Nr, Nr' in R. cbn [reads_opt] in R. rewrite !app_nil_r in R.
  rewrite R. reflexivity.
Qed.

Lemma puts_captions ws src sp : forall kids t, Forall node_ok kids -> tidy t -> idle t -> forallb (fine PTable false src) kids = true ->
  puts (build_captions (map kid_of kids) ws t) t (flat_map (fun k => if has_display TABLE_CAPTION k then shown (Flow false) k src sp else []) kids).
Proof.
  unfold build_captions. induction kids as [|n kids IH]; intros t HF Ht Hi H; [now apply puts_nop|]. cbn [map each flat_map forallb kid_of snd fst] in *. apply andb_true_iff in H as [H1 H2].
  inversion_clear HF as [|? ? Hn HF']. apply puts_seq.
  - destruct n as [e ks|s|]; [|now apply puts_nop|now apply puts_nop]. destruct Hn as (_ & Hn & _ & _).
    assert (is_internal TABLE_CAPTION (s_display (e_style e)) = has_display TABLE_CAPTION (Elem e ks)) as E
      by (cbn [has_display]; destruct (s_display (e_style e)) as [a b c|[]| |]; reflexivity).
    rewrite E. destruct (has_display TABLE_CAPTION (Elem e ks)) eqn:Ec; [|now apply puts_nop].
    refine (Hn FROM_BLOCK PTable ws src t sp e ks eq_refl _ _ H1 Ht Hi); [right|discriminate].
    destruct (s_display (e_style e)) as [a b c|[]| |]; try discriminate; reflexivity.
  - intros t' Ht' Hi' _. now apply IH.
Qed.
Definition table_body (e : elem) (kids : list node) : list sign :=
  let here := [s_span (e_style e)] in
  let part := fun (p : node -> bool) => flat_map (fun k => if p k then shown (Flow false) k (e_style e) here else []) kids in
  (if s_top (e_style e) then part (has_display TABLE_CAPTION) else []) ++
  shown_pseudo e BEFORE (e_before e) here ++
  Mark (e_id e) :: part (fun k => negb (has_display TABLE_CAPTION k)) ++
  (if s_top (e_style e) then [] else part (has_display TABLE_CAPTION)) ++
  shown_pseudo e AFTER (e_after e) here.
Lemma wrapper_reads e kids sty k : Forall node_ok kids -> s_case sty = s_case (e_style e) -> s_span sty = s_span (e_style e) -> s_top sty = s_top (e_style e) ->
  not_in_line e BEFORE (e_before e) = true -> not_in_line e AFTER (e_after e) = true -> forallb (fine PTable false (e_style e)) kids = true ->
  exists b, table_wrapper e (map kid_of kids) sty k = k b /\ ink (read b) = ink (Mark (e_id e) :: table_body e kids).
Proof.
  intros HF Hc Hs Ht Hb Ha Hf. unfold table_wrapper, table_body. cbv zeta. rewrite Ht.
  set (here := [s_span (e_style e)]). set (caps := flat_map (fun k0 => if has_display TABLE_CAPTION k0 then shown (Flow false) k0 (e_style e) here else []) kids).
  destruct plain_part as [Tp Ip].
  assert (forall b t, tidy t -> idle t -> puts (if b : bool then build_captions (map kid_of kids) (wrapper_style sty) t else Ok t) t (if b then caps else [])) as Hcap.
  { intros [|] t Tt It; [now apply puts_captions|now apply puts_nop]. }
  destruct (Hcap (s_top (e_style e)) part_box Tp Ip) as (t1 & -> & T1 & I1 & _ & R1). cbn [andthen].
  destruct (puts_pseudo e BEFORE (e_before e) FROM_BLOCK (wrapper_style sty) t1 here T1 I1 Hb) as (t2 & -> & T2 & I2 & _ & R2). cbn [andthen].
  destruct (table_kids_puts PTable (with_display (Internal TABLE_BOX) sty) (e_style e) true proper_table_child kids HF eq_refl) as (u & -> & (Tu & Iu) & Ru);
    [split; discriminate|reflexivity|exact Hc|exact Hf|]. cbn [andthen].
  pose proof (read_box (with_display (Internal TABLE_BOX) sty) u (OElem (e_id e)) Tu Iu) as Rb.
  destruct (add_reads (box_of (with_display (Internal TABLE_BOX) sty) u (OElem (e_id e))) t2 T2 I2) as (T3 & I3 & _ & R3).
  set (t3 := add_to_parent (box_of (with_display (Internal TABLE_BOX) sty) u (OElem (e_id e))) t2) in *.
  pose proof (Hcap (negb (s_top (e_style e))) t3 T3 I3) as (t4 & E4 & T4 & I4 & _ & R4).
  replace (if s_top (e_style e) then Ok t3 else build_captions (map kid_of kids) (wrapper_style sty) t3) with (Ok t4) by (rewrite <- E4; destruct (s_top (e_style e)); reflexivity).
  cbn [andthen]. destruct (puts_pseudo e AFTER (e_after e) FROM_BLOCK (wrapper_style sty) t4 here T4 I4 Ha) as (t5 & -> & T5 & I5 & _ & R5). cbn [andthen].
  eexists. split; [reflexivity|]. rewrite (read_box _ t5 _ T5 I5). cbn [of_origin app].
  change (Mark (e_id e) :: read_st t5) with ([Mark (e_id e)] ++ read_st t5). rewrite ink_app, R5, R4, R3, !ink_app, R2, R1, Rb, ink_app, Ru.
  change (Mark (e_id e) :: (if s_top (e_style e) then caps else []) ++ ?x) with ([Mark (e_id e)] ++ (if s_top (e_style e) then caps else []) ++ x).
  cbn [s_span with_display]. rewrite Hs. fold here.
  assert (flat_map (fun n => if true && has_display TABLE_CAPTION n then [] else shown (Flow false) n (e_style e) here) kids =
    flat_map (fun k0 => if negb (has_display TABLE_CAPTION k0) then shown (Flow false) k0 (e_style e) here else []) kids) as ->.
  { apply flat_map_ext. intros n. cbn [andb]. destruct (has_display TABLE_CAPTION n); reflexivity. }
  change (ink (read_st part_box)) with (@nil sign). cbn [app of_origin].
  assert ((if negb (s_top (e_style e)) then caps else []) = (if s_top (e_style e) then [] else caps)) as -> by (destruct (s_top (e_style e)); reflexivity).
  rewrite <- !ink_app. apply f_equal. cbn [app]. rewrite <- !app_assoc. cbn [app]. reflexivity.
Qed.

(** ** The main induction *)
Lemma inline_adds e kids f ps t : f <> FROM_FLEX -> Forall node_ok kids -> good f t -> is_void (e_tag e) = false -> forallb (fine PFlow false (e_style e)) kids = true ->
  adds f (inline_flow e (map kid_of kids) f ps t) t (inner e kids false (e_style e) (s_span (e_style e) :: spans t)).
Proof.
  intros Hf HF G Hv H. unfold inline_flow. rewrite Hv.
  assert (adds f (andthen (on_prose (push_span (s_span (e_style e))) t) (fun u => andthen (build_children e (map kid_of kids) FROM_INLINE (e_style e) u) (on_prose pop_span))) t
    (inner e kids false (e_style e) (s_span (e_style e) :: spans t))) as HA.
  { apply (adds_spanned f FROM_INLINE); [exact G|right; split; [discriminate|exact Hf]|]. intros u Gu Su. rewrite <- Su. apply (adds_children e kids FROM_INLINE); auto. }
  destruct (e_tag e); try exact HA; discriminate.
Qed.
Lemma adds_in_line f b t w : f <> FROM_FLEX -> good f t -> ink (read b) = ink w -> adds f (add_to_inline b t) t w.
Proof.
  intros Hf ((Hc & Hs) & Hn & _) Hb. unfold add_to_inline. destruct (t_inline t) as [[p k]|] eqn:Ei; [|contradiction].
  eexists. split; [reflexivity|]. split; [split; [split; [exact Hc|]|split; [cbn; discriminate|contradiction]]|].
  - cbn. intros j sp Hi. rewrite app_length. cbn. apply in_app_or in Hi as [Hi|[Hi|[]]]; [specialize (Hs j sp Hi); lia|injection Hi as <- _; lia].
  - split; [unfold spans; cbn; now rewrite Ei|]. unfold read_st. cbn [t_kids t_inline]. rewrite Ei. cbn [read_inline put_item p_items].
    rewrite map_app, read_items_app. rewrite read_items_more by (intros j sp Hi; rewrite map_length; exact (Hs j sp Hi)).
    assert (read_items (map read k ++ map read [b]) [Strut (length k) (p_spans p)] = read b) as ->.
    { cbn [read_items flat_map]. rewrite app_nil_r, app_nth2 by (rewrite map_length; lia). rewrite map_length, Nat.sub_diag. reflexivity. }
    rewrite !ink_app, Hb. now rewrite app_assoc.
Qed.
(** What an element that has a box shows. *)
Definition boxed_body (e : elem) (kids : list node) (sty : style) (sp : list N) : list sign :=
  match e_tag e with
  | BR | IMG | INPUT_HIDDEN | INPUT_BUTTON | VOID => []
  | INPUT_TEXT v => map (fun c => Ch c [s_span (e_style e)]) v
  | SVG => flat_map (fun k => shown Graphics k sty sp) kids
  | _ => if is_table (s_display (e_style e)) then table_body e kids
         else inner e kids (is_flex (s_display (e_style e))) (e_style e) [s_span (e_style e)]
  end.
Definition box_fine (e : elem) (kids : list node) : bool :=
  if is_table (s_display (e_style e)) then
    is_other (e_tag e) && not_in_line e BEFORE (e_before e) && not_in_line e AFTER (e_after e) && forallb (fine PTable false (e_style e)) kids
  else body_fine e kids (is_flex (s_display (e_style e))).
Lemma inner_box_reads e kids ps k sty sp : Forall node_ok kids -> s_case ps = s_case (e_style e) -> s_span ps = s_span (e_style e) -> s_top ps = s_top (e_style e) ->
  is_inside TABLE (s_display ps) = is_table (s_display (e_style e)) -> is_inside FLEX (s_display ps) = is_flex (s_display (e_style e)) -> box_fine e kids = true ->
  exists b, inner_box e (map kid_of kids) ps k = k b /\ ink (read b) = ink (Mark (e_id e) :: boxed_body e kids sty sp).
Proof.
  intros HF Hc Hs Ht Ht' Hf' H. unfold inner_box, boxed_body, box_fine in *. rewrite Ht'. destruct (is_table (s_display (e_style e))) eqn:Et.
  - apply andb_true_iff in H as [H H4]. apply andb_true_iff in H as [H H3]. apply andb_true_iff in H as [H1 H2].
    destruct (e_tag e); try discriminate. now apply wrapper_reads.
  - now apply box_reads.
Qed.

Lemma shown_boxed flex e kids sty sp : boxed flex (e_tag e) (s_display (e_style e)) = true ->
  match s_display (e_style e) with NOBOX | CONTENTS | Internal TABLE_COLUMN | Internal TABLE_COLUMN_GROUP => False | _ => True end ->
  shown (Flow flex) (Elem e kids) sty sp = Mark (e_id e) :: boxed_body e kids sty sp.
Proof.
  intros Hb Hd. cbn [shown]. unfold boxed_body. destruct (s_display (e_style e)) as [i o it|i| |] eqn:Ed; try contradiction.
  - rewrite Hb. f_equal. unfold inner, table_body. rewrite Ed. destruct (e_tag e); reflexivity.
  - unfold inner, table_body. rewrite Ed. destruct i; try contradiction; cbn [boxed is_table is_flex]; f_equal; destruct (e_tag e); reflexivity.
Qed.

Theorem node_reads : forall n, node_ok n.
Proof.
  induction n as [e kids HF|s|] using node_ind'.
  2:{ split; [|split; [|split]].
      - intros f ps sty t Hc G _. cbn [make m_node shown]. rewrite <- (letters_case ps sty _ s Hc). now apply adds_text.
      - intros f p ps sty t sp e kids [=]. - intros p sty t sp e kids d [=]. - intros sty t sp e kids [=]. }
  2:{ split; [|split; [|split]].
      - intros f ps sty t Hc G _. now apply adds_nop.
      - intros f p ps sty t sp e kids [=]. - intros p sty t sp e kids d [=]. - intros sty t sp e kids [=]. }
  assert (m_node (make (Elem e kids)) = build_elem e (map kid_of kids)) as Mn by reflexivity.
  assert (forall d, m_internal (make (Elem e kids)) d = build_part d e (map kid_of kids)) as Mi by reflexivity.
  assert (m_svg (make (Elem e kids)) = build_svg e (map kid_of kids)) as Ms by reflexivity.
  split; [|split; [|split]].
  - (* in the flow *)
    intros f ps sty t Hc G H. rewrite Mn. unfold build_elem. cbv zeta. destruct (s_display (e_style e)) as [i o it|i| |] eqn:Ed.
    + (* a default display *)
      assert (forall b, ink (read b) = ink (Mark (e_id e) :: boxed_body e kids sty (spans t)) -> boxed (isflex f) (e_tag e) (Default i o it) = true ->
         ink (read b) = ink (shown (Flow (isflex f)) (Elem e kids) sty (spans t))) as Hsh.
      { intros b Hb Hx. rewrite Hb, shown_boxed; [reflexivity|now rewrite Ed|now rewrite Ed]. }
      assert (boxed (isflex f) (e_tag e) (Default i o it) = true -> box_fine e kids = true) as Hfine.
      { intros Hb. cbn [fine] in H. rewrite Ed in H. unfold box_fine. rewrite Ed. destruct (is_table (Default i o it)); [exact H|].
        unfold body_fine. destruct (e_tag e) eqn:Et; try reflexivity; rewrite ?Hb in H; exact H. }
      assert (forall k ps', s_case ps' = s_case (e_style e) -> s_span ps' = s_span (e_style e) -> s_top ps' = s_top (e_style e) ->
        is_inside TABLE (s_display ps') = is_table (Default i o it) -> is_inside FLEX (s_display ps') = is_flex (Default i o it) ->
        boxed (isflex f) (e_tag e) (Default i o it) = true ->
        exists b, inner_box e (map kid_of kids) ps' k = k b /\ ink (read b) = ink (shown (Flow (isflex f)) (Elem e kids) sty (spans t))) as Hbox.
      { intros k ps' A1 A2 A3 A4 A5 Hb. destruct (inner_box_reads e kids ps' k sty (spans t) HF A1 A2 A3) as (b & Eb & Rb); [now rewrite Ed|now rewrite Ed|exact (Hfine Hb)|].
        exists b. split; [exact Eb|]. exact (Hsh b Rb Hb). }
      assert (is_inside TABLE (s_display (e_style e)) = is_table (Default i o it) /\ is_inside FLEX (s_display (e_style e)) = is_flex (Default i o it)) as [Es1 Es2]
        by (rewrite Ed; destruct i; split; reflexivity).
      assert (f <> FROM_FLEX -> adds f match o with BLOCK => inner_box e (map kid_of kids) (e_style e) (fun b => Ok (add_to_parent b (flush ps t)))
         | _ => if always_inline_block (e_tag e) || negb (is_inside FLOW (Default i o it)) then inner_box e (map kid_of kids) (e_style e) (fun b => add_to_inline b t)
                else inline_flow e (map kid_of kids) f ps t end t (shown (Flow (isflex f)) (Elem e kids) sty (spans t))) as Hnf.
      { intros Hf. assert (isflex f = false) as Eflex by (destruct f; try reflexivity; contradiction).
        assert (forall o', o' <> BLOCK -> o = o' -> adds f (if always_inline_block (e_tag e) || negb (is_inside FLOW (Default i o it)) then inner_box e (map kid_of kids) (e_style e) (fun b => add_to_inline b t)
                else inline_flow e (map kid_of kids) f ps t) t (shown (Flow (isflex f)) (Elem e kids) sty (spans t))) as Hin.
        { intros o' Ho Eo. destruct (always_inline_block (e_tag e) || negb (is_inside FLOW (Default i o it))) eqn:Eb.
          - assert (boxed (isflex f) (e_tag e) (Default i o it) = true) as Hb.
            { cbn [boxed]. rewrite Eflex. destruct o; [now subst o'| |]; cbn [orb]; destruct (e_tag e); try reflexivity; destruct i; try reflexivity; discriminate. }
            destruct (Hbox (fun b => add_to_inline b t) (e_style e) eq_refl eq_refl eq_refl Es1 Es2 Hb) as (b & -> & Rb). now apply adds_in_line.
          - apply orb_false_iff in Eb as [Eb1 Eb2]. assert (i = FLOW) as -> by (destruct i; try discriminate; reflexivity).
            assert (boxed (isflex f) (e_tag e) (Default FLOW o it) = false) as Hb.
            { cbn [boxed]. rewrite Eflex. destruct o; [now subst o'| |]; destruct (e_tag e); try reflexivity; discriminate. }
            cbn [fine] in H. rewrite Ed in H. cbn [is_table is_flex] in H. rewrite Hb in H. cbn [shown]. rewrite Ed, Hb.
            assert (is_void (e_tag e) = false -> forallb (fine PFlow false (e_style e)) kids = true ->
              adds f (inline_flow e (map kid_of kids) f ps t) t (inner e kids false (e_style e) (s_span (e_style e) :: spans t))) as HI
              by (intros HI1 HI2; now apply inline_adds).
            unfold inner in HI. rewrite Ed in HI. unfold inline_flow in *. destruct (e_tag e) eqn:Et; cbn [is_void] in *; unfold build_void; rewrite ?Et; try discriminate; try (now apply HI); try (now apply adds_nop).
            apply (adds_flush f _ ps t _ G). apply adds_nop. now apply good_idle_flush. }
        destruct o; [|now apply (Hin INLINE)|now apply (Hin RUN_IN)].
        assert (boxed (isflex f) (e_tag e) (Default i BLOCK it) = true) as Hb by (cbn; now rewrite orb_true_r).
        destruct (Hbox (fun b => Ok (add_to_parent b (flush ps t))) (e_style e) eq_refl eq_refl eq_refl Es1 Es2 Hb) as (b & -> & Rb).
        destruct (good_idle_flush f ps t G) as (Gf & If & Sf & _). apply (adds_flush f _ ps t _ G). apply puts_adds; [exact Gf|exact If|]. apply puts_box; [apply Gf|exact If|exact Rb]. }
      destruct f; try (apply Hnf; discriminate).
      assert (boxed (isflex FROM_FLEX) (e_tag e) (Default i o it) = true) as Hb by reflexivity.
      destruct (Hbox (fun b => Ok (add_to_parent b t)) (with_display (blockify (Default i o it)) (e_style e)) eq_refl eq_refl eq_refl) as (b & -> & Rb);
        [destruct i, o; reflexivity|destruct i, o; reflexivity|exact Hb|].
      assert (idle t) as It by now apply G. apply puts_adds; [exact G|exact It|]. apply puts_box; [apply G|exact It|exact Rb].
    + cbn [fine] in H. rewrite Ed in H. destruct i; discriminate.
    + (* contents *)
      cbn [fine] in H. rewrite Ed in H. apply andb_true_iff in H as [H1 H2]. cbn [shown]. rewrite Ed.
      pose proof (adds_children e kids f ps (e_style e) t HF) as HA. unfold inner in HA. rewrite Ed in HA. apply HA; try assumption.
      rewrite Hc. unfold same_text in H1. destruct (s_case (e_style e)), (s_case sty); try discriminate; reflexivity.
    + cbn [shown]. rewrite Ed. now apply adds_nop.
  - (* cells and captions *)
    intros f p ps sty t sp e' kids' [= <- <-] Hd Hp H Ht Hi. rewrite Mn. unfold build_elem. cbv zeta.
    assert (is_other (e_tag e) && forallb (fine PFlow false (e_style e)) kids = true) as Hf.
    { destruct Hd as [Hd|Hd]; cbn [fine] in H; rewrite Hd in H; destruct p; try contradiction; try discriminate; exact H. }
    apply andb_true_iff in Hf as [Ho Hf].
    assert (box_fine e kids = true) as Hb.
    { unfold box_fine, body_fine. destruct Hd as [Hd|Hd]; rewrite Hd; cbn [is_table is_flex]; destruct (e_tag e); try discriminate; exact Hf. }
    destruct (inner_box_reads e kids (e_style e) (fun b => Ok (add_to_parent b t)) sty sp HF eq_refl eq_refl eq_refl) as (b & Eb & Rb);
      [destruct Hd as [Hd|Hd]; now rewrite Hd|destruct Hd as [Hd|Hd]; now rewrite Hd|exact Hb|].
    rewrite <- (shown_boxed false) in Rb; [|destruct Hd as [Hd|Hd]; now rewrite Hd|destruct Hd as [Hd|Hd]; now rewrite Hd].
    destruct Hd as [Hd|Hd]; rewrite Hd, Eb; now apply puts_box.
  - (* other parts of tables *)
    intros p sty t sp e' kids' d [= <- <-] Hd Hpr Hnc Hp H Ht Hi. rewrite Mi. unfold build_part. cbv zeta.
    assert (forall q accepted, accepts q accepted -> q = PGroup \/ q = PRow -> q = PRow <-> is_internal TABLE_ROW (s_display (e_style e)) = true ->
      not_generated e BEFORE (e_before e) && not_generated e AFTER (e_after e) && is_other (e_tag e) && forallb (fine q false (e_style e)) kids = true ->
      match d with Default _ _ _ | CONTENTS | NOBOX | Internal TABLE_COLUMN | Internal TABLE_COLUMN_GROUP => False | _ => True end ->
      puts (andthen (table_kids (e_style e) false accepted (map kid_of kids) part_box) (fun u => Ok (add_to_parent (box_of (e_style e) u (OElem (e_id e))) t))) t
           (shown (Flow false) (Elem e kids) sty sp)) as Hq.
    { intros q acc Ha Hq Hq' Hfine Hd'. apply andb_true_iff in Hfine as [Hfine Hk]. apply andb_true_iff in Hfine as [Hfine Ho]. apply andb_true_iff in Hfine as [Hg1 Hg2].
      destruct (table_kids_puts q (e_style e) (e_style e) false acc kids HF Ha Hq') as (u & -> & (Tu & Iu) & Ru); [destruct Hq as [-> | ->]; reflexivity|reflexivity|exact Hk|].
      cbn [andthen]. apply puts_box; [exact Ht|exact Hi|]. rewrite (read_box _ u _ Tu Iu). rewrite ink_app, Ru.
      rewrite shown_boxed; [|rewrite Hd; destruct d; reflexivity || contradiction|rewrite Hd; destruct d as [|[]| |]; try exact I; try contradiction; exact Hd'].
      unfold boxed_body. destruct (e_tag e); try discriminate.
      assert (forall w x, not_generated e w x = true -> shown_pseudo e w x [s_span (e_style e)] = []) as Hng.
      { intros w [x|] Hx; [|reflexivity]. cbn in *. destruct (pseudo_text e w x); [discriminate|reflexivity]. }
      assert (is_table (s_display (e_style e)) = false /\ is_flex (s_display (e_style e)) = false /\ list_item (s_display (e_style e)) = false) as (E1 & E2 & E3)
        by (rewrite Hd; destruct d; try contradiction; repeat split; reflexivity).
      unfold inner. rewrite E1, E2, E3, !Hng by assumption. cbn [app]. rewrite app_nil_r. reflexivity. }
    cbn [fine] in H. rewrite Hd in H. destruct d as [i o it|i| |]; try discriminate. destruct i; try discriminate; try contradiction.
    1,2,3: apply (Hq PGroup); [reflexivity|now left|rewrite Hd; split; discriminate|destruct p; try contradiction; try discriminate; exact H|exact I].
    + apply (Hq PRow); [reflexivity|now right|rewrite Hd; split; reflexivity|destruct p; try contradiction; try discriminate; exact H|exact I].
    + (* a column group *)
      assert (forallb (fun k => match k with Elem _ kids' => negb (existsb (has_display TABLE_COLUMN) kids') | _ => true end) kids = true) as Hk
        by (destruct p; try contradiction; try discriminate; exact H).
      clear H Hq. cbn [shown]. rewrite Hd.
      assert (forall l u, forallb (fun k => match k with Elem _ kids' => negb (existsb (has_display TABLE_COLUMN) kids') | _ => true end) l = true -> tidy u -> idle u ->
        puts (each (fun k => match fst k with
                             | Elem e' _ => if is_internal TABLE_COLUMN (s_display (e_style e')) then m_internal (snd k) (Internal TABLE_COLUMN_GROUP) else Ok
                             | _ => Ok end) (map kid_of l) u) u (flat_map (fun k => if has_display TABLE_COLUMN k then shown (Flow false) k sty sp else []) l)) as HL.
      { induction l as [|n l IHl]; intros u Hl Tu Iu; [now apply puts_nop|]. cbn [map each flat_map forallb kid_of fst snd] in *. apply andb_true_iff in Hl as [Hl1 Hl2].
        apply puts_seq; [|intros u' Tu' Iu' _; now apply IHl]. destruct n as [e' ks'|s|]; [|now apply puts_nop|now apply puts_nop].
        assert (is_internal TABLE_COLUMN (s_display (e_style e')) = has_display TABLE_COLUMN (Elem e' ks')) as Ei
          by (cbn [has_display]; destruct (s_display (e_style e')) as [a b c|[]| |]; reflexivity).
        rewrite Ei. destruct (has_display TABLE_COLUMN (Elem e' ks')) eqn:Eh; [|now apply puts_nop].
        assert (s_display (e_style e') = Internal TABLE_COLUMN) as Ed' by (destruct (s_display (e_style e')) as [a b c|[]| |]; try discriminate; reflexivity).
        change (m_internal (make (Elem e' ks')) (Internal TABLE_COLUMN_GROUP)) with (build_part (Internal TABLE_COLUMN_GROUP) e' (map kid_of ks')).
        unfold build_part. cbv zeta.
        assert (forall l' v, existsb (has_display TABLE_COLUMN) l' = false ->
          each (fun k => match fst k with
                         | Elem e' _ => if is_internal TABLE_COLUMN (s_display (e_style e')) then m_internal (snd k) (Internal TABLE_COLUMN_GROUP) else Ok
                         | _ => Ok end) (map kid_of l') v = Ok v) as HN.
        { induction l' as [|n' l' IHl']; intros v Hv; [reflexivity|]. cbn [map each existsb kid_of fst snd] in *. apply orb_false_iff in Hv as [Hv1 Hv2].
          destruct n' as [e2 ks2|s|]; cbn [andthen]; [|exact (IHl' v Hv2)|exact (IHl' v Hv2)].
          assert (is_internal TABLE_COLUMN (s_display (e_style e2)) = has_display TABLE_COLUMN (Elem e2 ks2)) as Ei2
            by (cbn [has_display]; destruct (s_display (e_style e2)) as [a b c|[]| |]; reflexivity).
          rewrite Ei2, Hv1. exact (IHl' v Hv2). }
        rewrite HN by (apply negb_true_iff; exact Hl1). cbn [andthen]. apply puts_box; [exact Tu|exact Iu|]. cbn [shown]. rewrite Ed'. reflexivity. }
      destruct plain_part as [Tp Ip]. destruct (HL kids part_box Hk Tp Ip) as (u & -> & Tu & Iu & _ & Ru). cbn [andthen]. apply puts_box; [exact Ht|exact Hi|].
      rewrite (read_box _ u _ Tu Iu). cbn [of_origin app]. change (Mark (e_id e) :: ?x) with ([Mark (e_id e)] ++ x). rewrite !ink_app, Ru. reflexivity.
    + (* a column *)
      apply puts_box; [exact Ht|exact Hi|]. cbn [shown]. rewrite Hd. reflexivity.
  - (* graphics *)
    intros sty t sp e' kids' [= <- <-] H Ht Hi. rewrite Ms. unfold build_svg. cbv zeta. cbn [fine] in H. cbn [shown].
    destruct plain_part as [Tp Ip].
    assert (forallb (fine PGraphics false sty) kids = true ->
      puts (andthen (build_svg_kids (map kid_of kids) part_box) (fun u => Ok (add_to_parent (box_of (e_style e) u (OElem (e_id e))) t))) t
        (Mark (e_id e) :: flat_map (fun k => shown Graphics k sty sp) kids)) as Hgr.
    { intros Hk. destruct (puts_svg_kids sty sp kids part_box HF Tp Ip Hk) as (u & -> & Tu & Iu & _ & Ru). cbn [andthen]. apply puts_box; [exact Ht|exact Hi|].
      rewrite (read_box _ u _ Tu Iu). cbn [of_origin app]. change (Mark (e_id e) :: ?x) with ([Mark (e_id e)] ++ x). rewrite !ink_app, Ru. reflexivity. }
    assert (e_tag e = FOREIGN -> forallb (fine PFlow false (e_style e)) kids = true ->
      puts (andthen (block_flow e (map kid_of kids) FROM_BLOCK (e_style e) (new_box (e_style e))) (fun u => Ok (add_to_parent (box_of (e_style e) u (OElem (e_id e))) t))) t
        (Mark (e_id e) :: inner e kids false (e_style e) [s_span (e_style e)])) as Hfo.
    { intros Et Hk. destruct (block_reads e kids FROM_BLOCK (e_style e) (OElem (e_id e)) sty sp HF eq_refl eq_refl) as (u & -> & Ru); [unfold body_fine; rewrite Et; exact Hk|].
      cbn [andthen]. apply puts_box; [exact Ht|exact Hi|]. rewrite Ru. unfold body. rewrite Et. reflexivity. }
    unfold inner in Hfo.
    destruct (s_display (e_style e)) as [i o it|i| |] eqn:Ed; try discriminate; destruct (e_tag e) eqn:Et; try discriminate;
      solve [now apply Hgr|now apply Hfo|apply puts_box; [exact Ht|exact Hi|reflexivity]].
Qed.

Theorem document_reads e kids : fine_document e kids = true ->
  exists b, build_document e kids = Tree b /\ ink (read b) = ink (shown_document e kids).
Proof.
  intros H. apply andb_true_iff in H as [Ho H]. unfold build_document. cbv zeta.
  assert (Forall node_ok kids) as HF by (apply Forall_forall; intros n _; apply node_reads).
  destruct (block_reads e kids FROM_BLOCK (e_style e) (OElem (e_id e)) (e_style e) [] HF eq_refl eq_refl) as (u & -> & R).
  { unfold body_fine. destruct (e_tag e); try discriminate. exact H. }
  eexists. split; [reflexivity|]. rewrite R. unfold body, shown_document. destruct (e_tag e); try discriminate. reflexivity.
Qed.
