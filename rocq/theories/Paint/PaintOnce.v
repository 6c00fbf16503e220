(* Everything in a tame box is painted once, under the effects around it. *)
From Coq Require Import List Arith ZArith Bool Permutation Lia.
From Verif Require Import Paint.PaintModel Paint.PaintSpec Paint.PaintProofs.
Import ListNotations.
Local Open Scope list_scope.

Notation any := (fun _ : nat => true).

(* ---- Sorting -------------------------------------------------------------- *)

Lemma insert_perm {A} (le : A -> A -> bool) x l : Permutation (insert le x l) (x :: l).
Proof.
  induction l as [|y l IH]; [reflexivity|]. cbn. destruct (le x y); [reflexivity|].
  rewrite IH. apply perm_swap.
Qed.

Lemma sort_perm {A} (le : A -> A -> bool) l : Permutation (sort le l) l.
Proof.
  induction l as [|x l IH]; [reflexivity|]. cbn. rewrite insert_perm. constructor. exact IH.
Qed.

(* ---- Painting a list of entries ------------------------------------------- *)

Definition pnt (fx : list (effect * nat)) (l : list (option Z * scene)) : list mark :=
  flat_map (fun zc => painted fx (prepare (snd zc))) l.

Lemma pnt_app fx a b : pnt fx (a ++ b) = pnt fx a ++ pnt fx b.
Proof. apply flat_map_app. Qed.

Lemma pnt_flat_map {X} fx (h : X -> list (option Z * scene)) l :
  pnt fx (flat_map h l) = flat_map (fun x => pnt fx (h x)) l.
Proof. induction l; [reflexivity|]. cbn [flat_map]. rewrite pnt_app, IHl. reflexivity. Qed.

Lemma Permutation_flat_map_r {A B} (f : A -> list B) l l' :
  Permutation l l' -> Permutation (flat_map f l) (flat_map f l').
Proof. intros H. induction H; cbn; [reflexivity | apply Permutation_app_head; assumption | | etransitivity; eassumption].
  rewrite !app_assoc. apply Permutation_app_tail, Permutation_app_comm.
Qed.

Lemma stack_pnt fx l : Permutation (painted fx (prepare (Stack l))) (pnt fx l).
Proof.
  cbn [prepare painted].
  rewrite (Permutation_flat_map_r _ _ _ (sort_perm (fun a b => lez (fst a) (fst b)) (map (fun zc => (fst zc, prepare (snd zc))) l))).
  rewrite flat_map_map. reflexivity.
Qed.

Lemma establish_pnt fx id s l :
  pnt fx [establish id s l] = painted (fx ++ effects id s) (prepare (Stack l)).
Proof.
  unfold pnt, establish, effects. cbn [flat_map snd]. rewrite app_nil_r.
  destruct (s_clip s), (s_transform s), (s_opacity s); cbn [prepare painted app]; rewrite ?app_nil_r, <- ?app_assoc; reflexivity.
Qed.

Lemma one_pass {A} s (X : list A) : s_float s = false -> (s_pos s = STATIC -> s_z s <> Some 0%Z) ->
  flat_map (fun p => if chosen p s then X else []) passes = X.
Proof.
  intros Hf Hz. unfold passes, chosen, has_auto_z, z_or_0, is_static. rewrite Hf. cbn [flat_map].
  destruct (s_z s) as [z|].
  - assert (D : (z < 0 \/ z = 0 \/ 0 < z)%Z) by lia. destruct D as [D|[D|D]].
    + rewrite (proj2 (Z.ltb_lt z 0) D), (proj2 (Z.eqb_neq z 0)), (proj2 (Z.ltb_ge 0 z)) by lia.
      destruct (s_pos s), (s_inline s); cbn; rewrite ?app_nil_r; reflexivity.
    + subst z. destruct (s_pos s) eqn:P, (s_inline s); cbn; rewrite ?app_nil_r; try reflexivity;
        exfalso; exact (Hz eq_refl eq_refl).
    + rewrite (proj2 (Z.ltb_ge z 0)), (proj2 (Z.eqb_neq z 0)), (proj2 (Z.ltb_lt 0 z) D) by lia.
      destruct (s_pos s), (s_inline s); cbn; rewrite ?app_nil_r; reflexivity.
  - destruct (s_pos s), (s_inline s); cbn; rewrite ?app_nil_r; reflexivity.
Qed.

(* ---- Equality up to order and up to what [pr] forgets ---------------------- *)

Section Once.
Context {Y : Type}.
Variable pr : mark -> Y.
Definition insensitive : Prop := forall w fx fx', pr (w, fx) = pr (w, fx').

Definition eqv (a b : list mark) : Prop := Permutation (map pr a) (map pr b).

Lemma eqv_refl a : eqv a a. Proof. apply Permutation_refl. Qed.
Lemma eqv_trans a b c : eqv a b -> eqv b c -> eqv a c. Proof. apply Permutation_trans. Qed.
Lemma eqv_app a b c d : eqv a c -> eqv b d -> eqv (a ++ b) (c ++ d).
Proof. unfold eqv. rewrite !map_app. apply Permutation_app. Qed.
Lemma eqv_perm a b : Permutation a b -> eqv a b.
Proof. apply Permutation_map. Qed.
Lemma eqv_flat {X} (f g : X -> list mark) l :
  (forall x, In x l -> eqv (f x) (g x)) -> eqv (flat_map f l) (flat_map g l).
Proof.
  induction l as [|x l IH]; intros H; [apply eqv_refl|]. cbn. apply eqv_app.
  - apply H. left. reflexivity.
  - apply IH. intros y Hy. apply H. right. exact Hy.
Qed.

Lemma perm_split {X} (f g : X -> list mark) l :
  Permutation (flat_map (fun x => f x ++ g x) l) (flat_map f l ++ flat_map g l).
Proof.
  induction l as [|x l IH]; [reflexivity|]. cbn. rewrite IH. rewrite <- !app_assoc.
  apply Permutation_app_head. rewrite !app_assoc. apply Permutation_app_tail, Permutation_app_comm.
Qed.

Lemma perm_exchange {X W} (f : X -> W -> list mark) lx ly :
  Permutation (flat_map (fun x => flat_map (f x) ly) lx) (flat_map (fun y => flat_map (fun x => f x y) lx) ly).
Proof.
  induction ly as [|y ly IH].
  - cbn. induction lx; [reflexivity | exact IHlx].
  - cbn [flat_map]. rewrite perm_split, IH. reflexivity.
Qed.

Lemma expected_fst i fx fx' b : map fst (expected i fx b) = map fst (expected i fx' b).
Proof.
  revert i fx fx'. induction b as [id k s p ks IH] using box_ind'. intros i fx fx'.
  assert (K : forall j f f', map fst (flat_map (expected j f) ks) = map fst (flat_map (expected j f') ks)).
  { intros j f f'. induction IH as [|c l Hc Hl IHl]; [reflexivity|]. cbn [flat_map]. rewrite !map_app.
    f_equal; [exact (Hc j f f') | exact IHl]. }
  assert (M : forall (f f' : list (effect * nat)) (l : list what), map fst (map (fun w => (w, f)) l) = map fst (map (fun w => (w, f')) l)).
  { intros f f' l. rewrite !map_map. reflexivity. }
  cbn [expected]. cbv zeta. destruct (running (Box id k s p ks)); [reflexivity|].
  destruct k; rewrite ?map_app;
    try (f_equal; [apply M | apply K]).
  - destruct p; [apply K | reflexivity].
  - apply M.
  - apply K.
Qed.

Lemma insensitive_map (Hi : insensitive) a b : map fst a = map fst b -> map pr a = map pr b.
Proof.
  revert b. induction a as [|[w f] a IH]; intros [|[w' f'] b] H; try discriminate; [reflexivity|].
  cbn in *. injection H as H1 H2. subst w'. rewrite (Hi w f f'), (IH b H2). reflexivity.
Qed.

Definition body (b : box) (fx : list (effect * nat)) : list mark :=
  match b_kind b with
  | SVG => if b_paints b then flat_map (expected true (fx ++ [(VIEW, b_id b)])) (b_kids b) else []
  | SHAPE => map (fun w => (w, fx)) (shows b)
  | GROUP => flat_map (expected true fx) (b_kids b)
  | _ => map (fun w => (w, fx)) (shows b) ++ flat_map (expected false fx) (b_kids b)
  end.

Definition svgish (k : kind) : bool := match k with SVG | SHAPE | GROUP => true | _ => false end.

Lemma expected_body i fx b : running b = false ->
  expected i fx b = body b (fx ++ effects (b_id b) (b_style b)
                            ++ if i then if svgish (b_kind b) then [] else [(VIEW, b_id b)] else []).
Proof.
  destruct b as [id k s p ks]. intros H. cbn [expected]. rewrite H. unfold body. cbn [b_kind b_style b_id b_paints b_kids].
  destruct k, i; cbn [svgish]; cbv zeta; rewrite ?app_nil_r, <- ?app_assoc; reflexivity.
Qed.

Lemma body_fst b fx fx' : map fst (body b fx) = map fst (body b fx').
Proof.
  destruct b as [id k s p ks]. unfold body. cbn [b_kind b_style b_id b_paints b_kids].
  assert (K : forall j f f', map fst (flat_map (expected j f) ks) = map fst (flat_map (expected j f') ks)).
  { intros j f f'. induction ks as [|c l IHl]; [reflexivity|]. cbn [flat_map]. rewrite !map_app.
    f_equal; [exact (expected_fst j f f' c) | exact IHl]. }
  assert (M : forall (f f' : list (effect * nat)) (l : list what), map fst (map (fun w => (w, f)) l) = map fst (map (fun w => (w, f')) l)).
  { intros f f' l. rewrite !map_map. reflexivity. }
  destruct k; rewrite ?map_app; try (f_equal; [apply M | apply K]).
  - destruct p; [apply K | reflexivity].
  - apply M.
  - apply K.
Qed.

Lemma body_insensitive b fx fx' : insensitive -> eqv (body b fx) (body b fx').
Proof. intros Hi. unfold eqv. rewrite (insensitive_map Hi _ _ (body_fst b fx fx')). apply Permutation_refl. Qed.

(* How an element of an SVG may be styled. *)
Definition clear_kid (c : box) : Prop :=
  s_clip (b_style c) = false /\ s_opacity (b_style c) = false
  /\ (~ is_kind [SVG; GROUP; SHAPE] c -> s_transform (b_style c) = false).

Definition own_of (g : frag) : list (option Z * scene) :=
  match g with
  | Frag i k s' _ ks =>
      match k with
      | FBox d c => own_box i s' d c
      | FSvg area =>
          if s_hidden s' || negb area then []
          else [(Some 0%Z, Fx VIEW i (Stack (flat_map (go any InSvg) ks)))]
      | _ => []
      end
  | _ => []
  end.
Definition kids_of (g : frag) : list frag := match g with Frag _ _ _ _ ks => ks | _ => [] end.
Definition no_kids (k : kind) : bool := match k with SVG => true | _ => false end.
Definition visit_all (fx : list (effect * nat)) (ks : list frag) : list mark :=
  flat_map (fun p => pnt fx (flat_map (go any (Visit p)) ks)) passes.

Definition once (b : box) : Prop :=
  running b = false ->
  (forall fx, ~ is_kind [SHAPE; GROUP] b -> eqv (visit_all fx (images b)) (expected false fx b))
  /\ (forall fx, ~ is_kind [PART; SHAPE; GROUP] b -> eqv (pnt fx (flat_map (go any Context) (images b))) (expected false fx b))
  /\ (forall fx, ~ is_kind [PART] b -> (b_kind b = SVG -> b_paints b = true) -> (insensitive \/ clear_kid b) ->
        eqv (pnt fx (flat_map (go any InSvg) (images b))) (expected true fx b)).

Lemma effects_none s id : implies_new s = false -> effects id s = [].
Proof.
  unfold implies_new, effects. destruct (s_z s), (s_clip s), (s_transform s), (s_opacity s); try discriminate. reflexivity.
Qed.

Lemma visit_kids fx kids :
  (forall c, In c kids -> running c = false -> eqv (visit_all fx (images c)) (expected false fx c)) ->
  eqv (visit_all fx (flat_map (fun c => if running c then [] else images c) kids)) (flat_map (expected false fx) kids).
Proof.
  intros H. apply eqv_trans with (flat_map (fun c => if running c then [] else visit_all fx (images c)) kids).
  - apply eqv_perm. unfold visit_all.
    apply Permutation_trans with
      (flat_map (fun p => flat_map (fun c => pnt fx (flat_map (go any (Visit p)) (if running c then [] else images c))) kids) passes).
    + match goal with |- Permutation ?a ?b => replace a with b; [reflexivity|] end.
      apply flat_map_ext_in. intros p _. induction kids as [|c l IHl]; [reflexivity|]. cbn [flat_map].
      rewrite flat_map_app, pnt_app, <- IHl; [reflexivity|]. intros; apply H; [right|]; assumption.
    + rewrite perm_exchange. match goal with |- Permutation ?a ?b => replace a with b; [reflexivity|] end.
      apply flat_map_ext_in. intros c _. destruct (running c); [|reflexivity].
      symmetry. cbn. reflexivity.
  - apply eqv_flat. intros c Hc. destruct (running c) eqn:R.
    + destruct c. cbn [expected]. rewrite R. apply eqv_refl.
    + exact (H c Hc R).
Qed.

Lemma svg_kids fx kids :
  (forall c, In c kids -> running c = false /\ eqv (pnt fx (flat_map (go any InSvg) (images c))) (expected true fx c)) ->
  eqv (pnt fx (flat_map (go any InSvg) (flat_map (fun c => if running c then [] else images c) kids)))
      (flat_map (expected true fx) kids).
Proof.
  induction kids as [|c l IHl]; intros H; [apply eqv_refl|]. cbn [flat_map]. rewrite flat_map_app, pnt_app.
  destruct (H c (or_introl eq_refl)) as [R E]. rewrite R. apply eqv_app; [exact E|].
  apply IHl. intros d Hd. apply H. right. exact Hd.
Qed.

Lemma own_box_pnt fx id k s p ks :
  match k with BLOCK | LINES | FLEX | TABLE | REPLACED => True | _ => False end ->
  pnt fx (own_of (Frag id (fkind_of k p) s false ks)) = map (fun w => (w, fx)) (shows (Box id k s p [])).
Proof.
  unfold shows, own_of, own_box. cbn [b_style b_kind b_paints b_id].
  destruct k; intros H; try contradiction; cbn [fkind_of]; destruct (s_hidden s), p; reflexivity.
Qed.

Lemma shows_kids id k s p ks ks' : shows (Box id k s p ks) = shows (Box id k s p ks').
Proof. reflexivity. Qed.

Lemma go_visit id k s ks p :
  go any (Visit p) (Frag id k s false ks)
  = if implies_new s then if chosen p s then go any Context (Frag id k s false ks) else []
    else if negb (is_static s)
    then if chosen p s then own_of (Frag id k s false ks)
                            ++ match k with FSvg _ => [] | _ => flat_map (fun p => flat_map (go any (Visit p)) ks) passes end else []
    else (if chosen p s then own_of (Frag id k s false ks) else [])
         ++ match k with FSvg _ => [] | _ => flat_map (go any (Visit p)) ks end.
Proof. reflexivity. Qed.

Lemma go_context id k s ks :
  go any Context (Frag id k s false ks)
  = [establish id s (own_of (Frag id k s false ks)
                     ++ match k with FSvg _ => [] | _ => flat_map (fun p => flat_map (go any (Visit p)) ks) passes end)].
Proof. reflexivity. Qed.

Lemma visit_all_pnt fx ks : pnt fx (flat_map (fun p => flat_map (go any (Visit p)) ks) passes) = visit_all fx ks.
Proof. unfold visit_all. apply pnt_flat_map. Qed.

Lemma visit_one (id : nat) (k : fkind) (s : style) (ks : list frag) (B : list (effect * nat) -> list mark) :
  s_float s = false -> (s_pos s = STATIC -> s_z s <> Some 0%Z) ->
  (forall fx, eqv (pnt fx (own_of (Frag id k s false ks)) ++ match k with FSvg _ => [] | _ => visit_all fx ks end) (B fx)) ->
  forall fx, eqv (visit_all fx [Frag id k s false ks]) (B (fx ++ effects id s))
             /\ eqv (pnt fx (go any Context (Frag id k s false ks))) (B (fx ++ effects id s)).
Proof.
  intros Hf Hz HB.
  assert (HC : forall fx, eqv (pnt fx (go any Context (Frag id k s false ks))) (B (fx ++ effects id s))).
  { intros fx. rewrite go_context, establish_pnt. eapply eqv_trans; [apply eqv_perm, stack_pnt|].
    rewrite pnt_app. replace (pnt (fx ++ effects id s) match k with FSvg _ => [] | _ => flat_map (fun p => flat_map (go any (Visit p)) ks) passes end)
      with (match k with FSvg _ => [] | _ => visit_all (fx ++ effects id s) ks end)
      by (destruct k; rewrite ?visit_all_pnt; reflexivity).
    apply HB. }
  intros fx. split; [|exact (HC fx)].
  unfold visit_all at 1. 
  rewrite (flat_map_ext_in _ (fun p => pnt fx (go any (Visit p) (Frag id k s false ks))))
    by (intros p _; cbn [flat_map]; rewrite app_nil_r; reflexivity).
  destruct (implies_new s) eqn:EI.
  - rewrite (flat_map_ext_in _ (fun p => if chosen p s then pnt fx (go any Context (Frag id k s false ks)) else [])).
    2:{ intros p _. rewrite go_visit, EI. destruct (chosen p s); reflexivity. }
    rewrite one_pass by assumption. apply HC.
  - rewrite (effects_none s id EI), app_nil_r. destruct (is_static s) eqn:ES; cbn [negb].
    + eapply eqv_trans; [|apply HB].
      rewrite (flat_map_ext_in _ (fun p => (if chosen p s then pnt fx (own_of (Frag id k s false ks)) else [])
                                          ++ match k with FSvg _ => [] | _ => pnt fx (flat_map (go any (Visit p)) ks) end)).
      2:{ intros p _. rewrite go_visit, EI, ES. cbn [negb]. rewrite pnt_app. destruct (chosen p s), k; reflexivity. }
      eapply eqv_trans; [apply eqv_perm, perm_split|]. rewrite one_pass by assumption.
      apply eqv_app; [apply eqv_refl|]. destruct k; apply eqv_refl.
    + rewrite (flat_map_ext_in _ (fun p => if chosen p s then
                 pnt fx (own_of (Frag id k s false ks)) ++ match k with FSvg _ => [] | _ => visit_all fx ks end else [])).
      2:{ intros p _. rewrite go_visit, EI, ES. cbn [negb]. destruct (chosen p s); [|reflexivity].
          rewrite pnt_app. f_equal. destruct k; rewrite ?visit_all_pnt; reflexivity. }
      rewrite one_pass by assumption. apply HB.
Qed.

Lemma once_all b : everywhere tame_box b -> (insensitive \/ clear b) -> once b.
Proof.
  induction b as [id k s paints kids IH] using box_ind'. intros HT HC HR.
  pose proof (everywhere_at _ _ HT) as T. pose proof (everywhere_kids _ _ HT) as TK.
  cbn [b_kids] in TK. rewrite Forall_forall in IH, TK.
  destruct T as (Tf & Tz & T). cbn [b_style b_kind b_kids] in Tf, Tz, T. unfold each in T. cbn [b_kids] in T.
  assert (CK : forall c, In c kids -> insensitive \/ clear c).
  { intros c Hc. destruct HC as [HC|HC]; [left; exact HC | right].
    apply everywhere_kids in HC. rewrite Forall_forall in HC. exact (HC c Hc). }
  assert (CS : k = SVG \/ k = GROUP -> forall c, In c kids -> insensitive \/ clear_kid c).
  { intros Hk c Hc. destruct HC as [HC|HC]; [left; exact HC | right].
    apply everywhere_at in HC. unfold clear_box, each in HC. cbn [b_kind b_kids] in HC.
    destruct Hk; subst k; rewrite Forall_forall in HC; exact (HC c Hc). }
  assert (O : forall c, In c kids -> once c) by (intros c Hc; exact (IH c Hc (TK c Hc) (CK c Hc))).
  (* the kids of a box that is not in an SVG *)
  assert (V : (forall c, In c kids -> running c = false -> ~ is_kind [SHAPE; GROUP] c) -> forall fx,
              eqv (visit_all fx (flat_map (fun c => if running c then [] else images c) kids)) (flat_map (expected false fx) kids)).
  { intros HK fx. apply visit_kids. intros c Hc R. destruct (O c Hc R) as (O1 & _). apply O1, HK; assumption. }
  assert (S : (forall c, In c kids -> ~ is_kind [PART] c /\ running c = false /\ escaping c = [] /\ (b_kind c = SVG -> b_paints c = true)) ->
              k = SVG \/ k = GROUP -> forall fx,
              eqv (pnt fx (flat_map (go any InSvg) (flat_map (fun c => if running c then [] else images c) kids)))
                  (flat_map (expected true fx) kids)).
  { intros HK Hk fx. apply svg_kids. intros c Hc. destruct (HK c Hc) as (K1 & K2 & _ & K4). split; [exact K2|].
    destruct (O c Hc K2) as (_ & _ & O3). apply O3; [exact K1 | exact K4 | apply CS; assumption]. }
  set (g := Frag id (fkind_of k paints) s false (flat_map (fun c => if running c then [] else images c) kids)).
  set (b := Box id k s paints kids) in *.
  (* boxes *)
  assert (BX : match k with BLOCK | LINES | FLEX | TABLE | REPLACED => True | _ => False end ->
               (forall c, In c kids -> running c = false -> ~ is_kind [SHAPE; GROUP] c) -> once b).
  { intros Hk HK _.
    assert (EI : images b = [g]) by (subst b g; cbn [images]; destruct k; try contradiction; reflexivity).
    assert (HB : forall fx, eqv (pnt fx (own_of g) ++ match fkind_of k paints with FSvg _ => [] | _ => visit_all fx (kids_of g) end) (body b fx)).
    { intros fx. subst g. rewrite own_box_pnt by exact Hk. unfold body. subst b. cbn [b_kind b_kids].
      rewrite (shows_kids id k s paints kids []).
      destruct k; try contradiction; cbn [fkind_of kids_of]; (apply eqv_app; [apply eqv_refl | apply V; exact HK]). }
    pose proof (visit_one id (fkind_of k paints) s _ (body b) Tf Tz HB) as VO.
    rewrite EI. split; [|split].
    - intros fx _. rewrite expected_body by exact HR. rewrite app_nil_r. exact (proj1 (VO fx)).
    - intros fx _. rewrite expected_body by exact HR. rewrite app_nil_r. cbn [flat_map]. rewrite app_nil_r. exact (proj2 (VO fx)).
    - intros fx _ _ HCb. rewrite expected_body by exact HR. cbn [flat_map]. rewrite app_nil_r.
      assert (EG : go any InSvg g = [(Some 0%Z, Fx VIEW id (Stack (go any Context g)))])
        by (subst g; destruct k; try contradiction; reflexivity).
      rewrite EG. unfold pnt. cbn [flat_map snd prepare]. rewrite app_nil_r. cbn [painted].
      change (eqv (painted (fx ++ [(VIEW, id)]) (prepare (Stack (go any Context g))))
               (body b (fx ++ effects (b_id b) (b_style b) ++ (if svgish (b_kind b) then [] else [(VIEW, b_id b)])))).
      eapply eqv_trans; [apply eqv_perm, stack_pnt|]. eapply eqv_trans; [exact (proj2 (VO _))|].
      destruct HCb as [Hi|(C1 & C2 & C3)].
      + apply body_insensitive, Hi.
      + subst b. cbn [b_id b_style b_kind] in *.
        assert (EN : effects id s = []).
        { unfold effects. rewrite C1, C2, C3; [reflexivity|]. intros Q. destruct k; try contradiction;
          destruct Q as [Q|[Q|[Q|[]]]]; discriminate Q. }
        rewrite EN. cbn [app]. rewrite app_nil_r. destruct k; try contradiction; apply eqv_refl. }
  clearbody g || idtac.
  destruct k.
  - (* BLOCK *) rewrite Forall_forall in T. apply BX; [exact I | | exact HR].
    intros c Hc _ Q. apply (T c Hc). destruct Q as [Q|[Q|[]]]; [right; left; exact Q | right; right; left; exact Q].
  - (* LINES *) rewrite Forall_forall in T. apply BX; [exact I | | exact HR].
    intros c Hc _ Q. apply (proj1 (T c Hc)). destruct Q as [Q|[Q|[]]]; [right; left; exact Q | right; right; left; exact Q].
  - (* FLEX *) rewrite Forall_forall in T. apply BX; [exact I | | exact HR].
    intros c Hc _ Q. apply (proj1 (T c Hc)). destruct Q as [Q|[Q|[]]]; [right; left; exact Q | right; right; left; exact Q].
  - (* TABLE *) rewrite Forall_forall in T. apply BX; [exact I | | exact HR].
    intros c Hc _ Q. exact (proj1 (T c Hc) Q).
  - (* PART *)
    destruct T as (T & (P1 & P2 & P3 & P4 & P5) & _ & P6). rewrite Forall_forall in T.
    change (paints = false) in P6. subst paints.
    split; [|split].
    + intros fx _. rewrite expected_body by exact HR. cbn [images].
      replace (body b (fx ++ effects (b_id b) (b_style b) ++ [])) with (flat_map (expected false fx) kids).
      * subst b. cbn [images]. apply V. intros c Hc _ Q. exact (proj1 (T c Hc) Q).
      * subst b. unfold body, effects, shows. cbn [b_kind b_id b_style b_paints b_kids]. rewrite P3, P4, P5. cbn [app].
        rewrite app_nil_r. destruct (s_hidden s); reflexivity.
    + intros fx Q. exfalso. apply Q. left. reflexivity.
    + intros fx Q. exfalso. apply Q. left. reflexivity.
  - (* REPLACED *) subst kids. apply BX; [exact I | | exact HR]. intros c [].
  - (* SVG *)
    destruct T as [T Th]. rewrite Forall_forall in T. cbn [b_style] in Th.
    assert (HB : forall fx, eqv (pnt fx (own_of (Frag id (FSvg paints) s false (flat_map (fun c => if running c then [] else images c) kids))) ++ []) (body b fx)).
    { intros fx. rewrite app_nil_r. unfold own_of, body. subst b. cbn [b_kind b_kids b_paints b_id]. rewrite Th.
      destruct paints; cbn [orb negb]; [|apply eqv_refl].
      unfold pnt. cbn [flat_map snd]. rewrite app_nil_r.
      change (eqv (painted (fx ++ [(VIEW, id)]) (prepare (Stack (flat_map (go any InSvg) (flat_map (fun c => if running c then [] else images c) kids)))))
               (flat_map (expected true (fx ++ [(VIEW, id)])) kids)).
      eapply eqv_trans; [apply eqv_perm, stack_pnt|]. apply S; [exact T | left; reflexivity]. }
    pose proof (visit_one id (FSvg paints) s _ (body b) Tf Tz HB) as VO.
    split; [|split].
    + intros fx _. rewrite expected_body by exact HR. rewrite app_nil_r. exact (proj1 (VO fx)).
    + intros fx _. rewrite expected_body by exact HR. rewrite app_nil_r. subst b. cbn [images flat_map]. rewrite app_nil_r. exact (proj2 (VO fx)).
    + intros fx _ Hp HCb. specialize (Hp eq_refl). subst b. cbn [b_paints] in Hp. subst paints.
      rewrite expected_body by exact HR. cbn [images flat_map fkind_of b_id b_style b_kind svgish]. rewrite !app_nil_r.
      apply eqv_trans with (body (Box id SVG s true kids) (fx ++ (if s_transform s then [(TRANSFORM, id)] else []))).
      * cbn [go]. unfold pnt. cbn [flat_map snd]. rewrite app_nil_r. unfold body. cbn [b_kind b_kids b_paints b_id].
        match goal with |- eqv ?x _ => replace x with (painted ((fx ++ (if s_transform s then [(TRANSFORM, id)] else [])) ++ [(VIEW, id)])
           (prepare (Stack (flat_map (go any InSvg) (flat_map (fun c => if running c then [] else images c) kids)))))
           by (unfold transformed; destruct (s_transform s); cbn [prepare painted]; rewrite ?app_nil_r; reflexivity) end.
        eapply eqv_trans; [apply eqv_perm, stack_pnt|]. apply S; [exact T | left; reflexivity].
      * destruct HCb as [Hi|(C1 & C2 & _)]; [apply body_insensitive, Hi|].
        cbn [b_style] in C1, C2. unfold effects. rewrite C1, C2. cbn [app]. rewrite app_nil_r. apply eqv_refl.
  - (* SHAPE *)
    destruct T as [-> Th]. cbn [b_style] in Th. split; [|split].
    + intros fx Q. exfalso. apply Q. left. reflexivity.
    + intros fx Q. exfalso. apply Q. right. left. reflexivity.
    + intros fx _ _ HCb. rewrite expected_body by exact HR. subst b. cbn [images flat_map fkind_of b_id b_style b_kind svgish]. rewrite !app_nil_r.
      apply eqv_trans with (body (Box id SHAPE s paints []) (fx ++ (if s_transform s then [(TRANSFORM, id)] else []))).
      * unfold body, shows. cbn [b_kind b_style b_paints b_id go]. rewrite Th.
        unfold transformed. destruct paints; [|apply eqv_refl].
        destruct (s_transform s); cbn; rewrite ?app_nil_r; apply eqv_refl.
      * destruct HCb as [Hi|(C1 & C2 & _)]; [apply body_insensitive, Hi|].
        cbn [b_style] in C1, C2. unfold effects. rewrite C1, C2. cbn [app]. rewrite app_nil_r. apply eqv_refl.
  - (* GROUP *)
    rewrite Forall_forall in T. split; [|split].
    + intros fx Q. exfalso. apply Q. right. left. reflexivity.
    + intros fx Q. exfalso. apply Q. right. right. left. reflexivity.
    + intros fx _ _ HCb. rewrite expected_body by exact HR. subst b. cbn [images flat_map fkind_of b_id b_style b_kind svgish]. rewrite !app_nil_r.
      apply eqv_trans with (body (Box id GROUP s paints kids) (fx ++ (if s_transform s then [(TRANSFORM, id)] else []))).
      * cbn [go]. unfold pnt. cbn [flat_map snd]. rewrite app_nil_r. unfold body. cbn [b_kind b_kids b_paints b_id].
        match goal with |- eqv ?x _ => replace x with (painted (fx ++ (if s_transform s then [(TRANSFORM, id)] else []))
           (prepare (Stack (flat_map (go any InSvg) (flat_map (fun c => if running c then [] else images c) kids)))))
           by (unfold transformed; destruct (s_transform s); cbn [prepare painted]; rewrite ?app_nil_r; reflexivity) end.
        eapply eqv_trans; [apply eqv_perm, stack_pnt|]. apply S; [exact T | right; reflexivity].
      * destruct HCb as [Hi|(C1 & C2 & _)]; [apply body_insensitive, Hi|].
        cbn [b_style] in C1, C2. unfold effects. rewrite C1, C2. cbn [app]. rewrite app_nil_r. apply eqv_refl.
Qed.

Theorem render_once b : tame b -> (insensitive \/ clear b) ->
  exists l, render b = Some l /\ eqv l (expected false [] b).
Proof.
  intros HT HC. destruct (render_images b HT) as (g & Eg & Er).
  destruct HT as (HT & HK & HR). eexists. split; [exact Er|].
  eapply eqv_trans; [apply eqv_perm, stack_pnt|].
  destruct (once_all b HT HC HR) as (_ & O & _). specialize (O [] HK). rewrite Eg in O. cbn [flat_map] in O.
  rewrite app_nil_r in O. exact O.
Qed.
End Once.
