(** The declarations of box properties: which of them counts, and what it gives. *)
From Coq Require Import String List NArith Bool Lia PeanoNat.
From Verif.Base Require Import Str Outcome.
From Verif.Css Require Import LexerModel ParserModel.
From Verif.Values Require Import CalcModel.
From Verif.Style Require Import CascadeModel CascadeSpec CascadeProofs.
From Verif.Props Require Import VarModel EngineModel EngineSpec EngineProofs EngineProofs2 EngineProofs3 BoxPropModel BoxPropProofs BoxPropSpec.
Import ListNotations.
Local Open Scope list_scope.

Section Gather.
Context {V field : Type}.

Lemma gather_keys_in (l1 l2 : list (registration V field * val V)) :
  (forall x, In x l1 -> In (r_name (fst x)) (map (fun y => r_name (fst y)) (gather l2))) ->
  map (fun y => r_name (fst y)) (gather (l1 ++ l2)) = map (fun y => r_name (fst y)) (gather l2).
Proof.
  induction l1 as [|[r v] l1 IH]; intros H; [reflexivity|]. cbn [app gather].
  assert (IH' : map (fun y => r_name (fst y)) (gather (l1 ++ l2)) = map (fun y => r_name (fst y)) (gather l2)).
  { apply IH. intros x Hx. apply H. now right. }
  assert (Hk : existsb (fun x => str_eqb (r_name (fst x)) (r_name r)) (gather (l1 ++ l2)) = true).
  { specialize (H (r, v) (or_introl eq_refl)). rewrite <- IH' in H. apply in_map_iff in H as (y & Ey & Hy).
    apply existsb_exists. exists y. split; [exact Hy|]. cbn [fst] in Ey. rewrite Ey. apply str_eqb_refl. }
  rewrite Hk, map_map, <- IH'. apply map_ext. intros y. now destruct (str_eqb _ _).
Qed.

Lemma gather_keys_new (l : list (registration V field * val V)) :
  NoDup (map (fun x => r_name (fst x)) l) -> map (fun y => r_name (fst y)) (gather l) = map (fun x => r_name (fst x)) l.
Proof.
  induction l as [|[r v] l IH]; intros H; [reflexivity|]. cbn [map fst] in H. inversion H as [|? ? Hn Hnd]; subst.
  cbn [gather]. destruct (existsb (fun x => str_eqb (r_name (fst x)) (r_name r)) (gather l)) eqn:E.
  - exfalso. apply existsb_exists in E as (x & Hx & E). apply str_eqb_spec in E. apply Hn.
    rewrite <- (IH Hnd), <- E. apply (in_map (fun y => r_name (fst y))). exact Hx.
  - cbn [map fst]. now rewrite (IH Hnd).
Qed.

(** Values that all set the same names. *)
Lemma gather_same (ks : list str) (ls : list (list (registration V field * val V))) : NoDup ks ->
  (forall l, In l ls -> map (fun x => r_name (fst x)) l = ks) -> ls <> [] ->
  map (fun y => r_name (fst y)) (gather (concat ls)) = ks.
Proof.
  intros Hk. induction ls as [|l ls IH]; intros H Hne; [contradiction|]. cbn [concat].
  pose proof (H l (or_introl eq_refl)) as Hl. destruct ls as [|l' ls].
  - cbn [concat]. rewrite app_nil_r, gather_keys_new; [exact Hl|]. now rewrite Hl.
  - assert (IH' : map (fun y => r_name (fst y)) (gather (concat (l' :: ls))) = ks).
    { apply IH; [intros x Hx; apply H; now right|discriminate]. }
    rewrite gather_keys_in; [exact IH'|]. intros x Hx. rewrite IH', <- Hl.
    apply (in_map (fun x => r_name (fst x))). exact Hx.
Qed.
End Gather.

Section Box.
Context {W C L K : Type}
        (pW : list sst -> option W * list sst) (pC : list sst -> option C * list sst)
        (pL : list sst -> option L * list sst) (pK : list sst -> option K * list sst)
        (zeroW : W) (zeroC : C) (black current : K) (resolve_color : K -> K -> K).
Variable V_eqb : @V W C L K -> @V W C L K -> bool.

Local Notation V := (@V W C L K).
Local Notation G := (@box_registry W C L K pW pC pL pK zeroW zeroC black current resolve_color).
Local Notation matched := (matched V field).
Local Notation computed := (computed V field).
Local Notation prop := (prop V field).
Local Notation compute_values := (compute_values V_eqb).
Local Notation Good := (box_good pW pC pL pK zeroW zeroC black current resolve_color).

(** ** The names that shorthands set *)

Definition sides (a b : string) : list string := [(a ++ "-top" ++ b); (a ++ "-right" ++ b); (a ++ "-bottom" ++ b); (a ++ "-left" ++ b)]%string.
Definition three_names (a : string) : list string := [a ++ "-width"; a ++ "-style"; a ++ "-color"]%string.
Definition stable : list (string * list string) :=
  [("border-color", sides "border" "-color"); ("border-style", sides "border" "-style"); ("border-width", sides "border" "-width");
   ("border-top", three_names "border-top"); ("border-right", three_names "border-right");
   ("border-bottom", three_names "border-bottom"); ("border-left", three_names "border-left");
   ("border", three_names "border-top" ++ three_names "border-right" ++ three_names "border-bottom" ++ three_names "border-left");
   ("margin", ["margin-top"; "margin-bottom"; "margin-left"; "margin-right"]);
   ("padding", sides "padding" "")]%list%string.
Fixpoint longs_in (t : list (string * list string)) (n : str) : list str :=
  match t with
  | [] => []
  | (k, l) :: t' => if str_eqb (of_string k) n then map of_string l else longs_in t' n
  end.
Definition longs (n : str) : list str := longs_in stable n.

Lemma insets_parsed {A} (f : insets A -> V) (p : list sst -> option A * list sst) c v c' :
  reads f (parse_insets p) c = (Some v, c') -> exists i, v = Value (f i).
Proof.
  unfold reads, map_fst. destruct (fst (parse_insets p c)) as [i|]; [|discriminate].
  intros H. injection H as <- _. exists i. reflexivity.
Qed.
Lemma border_parsed p c v c' : reads (@VB W C L K) p c = (Some v, c') -> exists i, v = Value (VB i).
Proof. unfold reads, map_fst. destruct (fst (p c)) as [i|]; [|discriminate]. intros H. injection H as <- _. exists i. reflexivity. Qed.

Lemma box_shapes : Forall (fun q => forall fn, r_short q = Some fn ->
  (forall c v c', r_parse q c = (Some v, c') -> map fst (fn v) = longs (r_name q)) /\
  (forall c, map fst (fn (r_load q c)) = longs (r_name q)) /\
  map fst (fn (r_initial q)) = longs (r_name q)) (g_props G).
Proof.
  all_regs; intros fn Hs; try discriminate Hs; injection Hs as <-; (split; [|split; reflexivity]);
    intros c v c' Hp; cbn [shorthand r_parse] in Hp;
    first [apply insets_parsed in Hp as (i & ->)|apply border_parsed in Hp as (i & ->)]; reflexivity.
Qed.

Lemma toggle_parsed (r : registration V field) fuel c vs : toggle_loop fuel r c = Ok (Some vs) ->
  Forall (fun v => exists c c', r_parse r c = (Some v, c')) vs.
Proof.
  revert c vs. induction fuel as [|fuel IH]; intros c vs; destruct c as [|s c]; cbn [toggle_loop]; intros H; try discriminate.
  - injection H as <-. constructor.
  - injection H as <-. constructor.
  - destruct (r_parse r (s :: c)) as [[v|] c'] eqn:E; [|discriminate].
    destruct (toggle_loop fuel r (skip_comma c')) as [[vs'|]| |] eqn:E2; try discriminate. injection H as <-.
    constructor; [exists (s :: c), c'; exact E|]. eapply IH; eassumption.
Qed.

(** What a property that was read can be. *)
Lemma read_cases p : read G p ->
  (exists n, p = Bogus n) \/
  exists r, resolve G (r_name r) = Some r /\ prop_reg p = Some r /\
    match p with
    | Parsed _ v => exists c c', r_parse r c = (Some v, c')
    | Toggle _ vs => Forall (fun v => exists c c', r_parse r c = (Some v, c')) vs
    | _ => True
    end.
Proof.
  intros (fuel & n & content & H). unfold parse_value in H. destruct (resolve G n) as [r|] eqn:Er.
  2:{ injection H as <-. left. exists n. reflexivity. }
  right. exists r. split; [exact (resolve_self _ Good _ _ Er)|].
  destruct (parse_defaulted (eat_wss content)) as [d|]; [injection H as <-; split; [reflexivity|exact I]|].
  destruct (parse_toggle fuel r (eat_wss content)) as [[vs|]| |] eqn:Et; try discriminate.
  - injection H as <-. split; [reflexivity|]. unfold parse_toggle in Et.
    destruct (eat_wss content) as [|[]]; try discriminate. destruct (token_eqb _ _); [|discriminate].
    eapply toggle_parsed; eassumption.
  - destruct (r_parse r (eat_wss content)) as [[v|] c'] eqn:Ep; [|injection H as <-; split; [reflexivity|exact I]].
    destruct (eat_wss c'); injection H as <-; (split; [reflexivity|]); [|exact I].
    eexists. eexists. exact Ep.
Qed.

Lemma read_made p : read G p -> made_by G p.
Proof.
  intros H. destruct (read_cases p H) as [(n & ->)|(r & Hr & Hp & _)]; intros q Hq; [discriminate|].
  rewrite Hp in Hq. injection Hq as <-. exact Hr.
Qed.

Lemma read_all_made ms : Forall (fun m : matched => read G (m_prop m)) ms -> Forall (fun m => made_by G (m_prop m)) ms.
Proof. apply Forall_impl. intros m. apply read_made. Qed.

Lemma resolve_name n r : resolve G n = Some r -> r_name r = n.
Proof.
  unfold resolve. cbn [box_registry g_alias lookup]. destruct (find_reg (g_props G) n) as [q|] eqn:E.
  - intros H. injection H as <-. now apply find_reg_in in E.
  - destruct (starts_with _ n); [|discriminate]. intros H. injection H as <-. reflexivity.
Qed.

Lemma resolve_all_names l ps : resolve_all G l = Ok ps -> map prop_name ps = map fst l.
Proof.
  intros H. apply resolve_all_made in H. induction H as [|nv p l ps (r & Hr & ->) _ IH]; [reflexivity|].
  cbn [map prop_name]. now rewrite (resolve_name _ _ Hr), IH.
Qed.
Lemma resolve_all_pairs l ps : resolve_all G l = Ok ps -> map (fun x => r_name (fst x)) (parsed_pairs ps) = map fst l.
Proof.
  intros H. apply resolve_all_made in H. induction H as [|nv p l ps (r & Hr & ->) _ IH]; [reflexivity|].
  unfold parsed_pairs in *. cbn [map flat_map app fst]. now rewrite (resolve_name _ _ Hr), IH.
Qed.

Lemma chunks {A} (key : A -> str) (ks : list str) {B} (vs : list B) l :
  map key l = flat_map (fun _ => ks) vs ->
  exists ls, concat ls = l /\ (forall x, In x ls -> map key x = ks) /\ List.length ls = List.length vs.
Proof.
  revert l. induction vs as [|v vs IH]; cbn [flat_map]; intros l H.
  - destruct l; [|discriminate]. exists []. split; [reflexivity|]. split; [intros x []|reflexivity].
  - apply map_eq_app in H as (l1 & l2 & -> & H1 & H2). destruct (IH _ H2) as (ls & <- & Hl & Hn).
    exists (l1 :: ls). split; [reflexivity|]. split; [|cbn [List.length]; now rewrite Hn].
    intros x [<-|Hx]; [exact H1|now apply Hl].
Qed.

Lemma longs_nodup : Forall (fun q => NoDup (longs (r_name q))) (g_props G).
Proof. apply (proj1 (Forall_map r_name (fun n => NoDup (longs n)) _)). rewrite box_names. unfold wtable. cbn [map fst].
  repeat (apply Forall_cons; [apply nodupb_NoDup; reflexivity|]). apply Forall_nil. Qed.

Lemma short_in q : resolve G (r_name q) = Some q -> r_short q <> None -> In q (g_props G).
Proof. intros H Hs. destruct (resolve_cases _ _ _ H) as [Hq|(m & ->)]; [exact Hq|]. now contradiction Hs. Qed.

Lemma ex_names p parent child x : read G p -> ex G parent child p = Some x ->
  x = [] \/ map fst x = longs (prop_name p).
Proof.
  intros Hread Hx. unfold ex in Hx. destruct (is_short p) eqn:Es; [|discriminate].
  destruct (expansion G p parent child) as [ps| |] eqn:Ee; try discriminate. injection Hx as <-.
  destruct (read_cases p Hread) as [(n & ->)|(r & Hr & Hp & Hv)]; [discriminate|].
  unfold is_short in Es. rewrite Hp in Es. destruct (r_short r) as [fn|] eqn:Ef; [|discriminate].
  assert (Hin : In r (g_props G)) by (apply short_in; [exact Hr|congruence]).
  pose proof box_shapes as HS. rewrite Forall_forall in HS. destruct (HS r Hin fn Ef) as (S1 & S2 & S3).
  assert (Hm : map fst (map (fun p : prop => (prop_name p, p)) ps) = map prop_name ps) by (rewrite map_map; reflexivity).
  rewrite Hm. clear Hm.
  destruct p as [q v|q k|q d|q vs|n]; cbn [prop_reg] in Hp; try discriminate; injection Hp as ->; cbn [expansion prop_name] in *.
  - rewrite Ef in Ee. right. rewrite (resolve_all_names _ _ Ee). destruct Hv as (c & c' & Hv). exact (S1 _ _ _ Hv).
  - destruct (expand_property r k child) as [v|] eqn:Ex; [|injection Ee as <-; now left].
    rewrite Ef in Ee. right. rewrite (resolve_all_names _ _ Ee). unfold expand_property in Ex.
    destruct (expand_content (c_custom child) k) as [out|]; [|discriminate].
    destruct (r_parse r (eat_wss out)) as [v' c'] eqn:Ep. cbn [fst] in Ex. subst v'. exact (S1 _ _ _ Ep).
  - right. destruct d; cbn [default_value obind] in Ee; try discriminate; rewrite Ef in Ee; rewrite (resolve_all_names _ _ Ee).
    + exact S3.
    + apply S2.
    + destruct (r_inherited r); [apply S2|exact S3].
  - rewrite Ef in Ee. destruct (resolve_all G (flat_map fn vs)) as [qs| |] eqn:Eq; cbn [obind] in Ee; try discriminate.
    injection Ee as <-. destruct vs as [|v0 vs]; [left|right].
    { cbn [flat_map resolve_all] in Eq. injection Eq as <-. reflexivity. }
    rewrite map_map. cbn [prop_name]. apply resolve_all_pairs in Eq.
    assert (Hf : map fst (flat_map fn (v0 :: vs)) = flat_map (fun _ => longs (r_name r)) (v0 :: vs)).
    { clear - Hv S1. induction Hv as [|v l (c & c' & H) _ IH]; [reflexivity|]. cbn [flat_map]. rewrite map_app, IH. f_equal.
      exact (S1 _ _ _ H). }
    rewrite Hf in Eq. destruct (chunks _ _ _ _ Eq) as (ls & <- & Hl & Hn).
    apply gather_same; [|exact Hl|intros ->; discriminate].
    pose proof longs_nodup as HN. rewrite Forall_forall in HN. now apply HN.
Qed.

Definition short_longs (n : str) : option (list str) :=
  match resolve G n with Some r => match r_short r with Some _ => Some (longs n) | None => None end | None => None end.

Lemma longs_long : Forall (fun q => forallb long_name (longs (r_name q)) = true) (g_props G).
Proof. apply (proj1 (Forall_map r_name (fun n => forallb long_name (longs n) = true) _)). rewrite box_names. unfold wtable. cbn [map fst].
  repeat (apply Forall_cons; [vm_compute; reflexivity|]). apply Forall_nil. Qed.

(** ** Sensible declarations are well-formed for the cascade *)

Lemma sensible_well_formed parent child ms : sensible pW pC pL pK zeroW zeroC black current resolve_color parent child ms ->
  well_formed (map (declared G parent child) ms).
Proof.
  intros Hs. exists short_longs. split; [|split].
  - intros p o s Hin Hb. apply in_map_iff in Hin as (m & E & Hm). unfold declared in E. injection E as <- <- <-.
    cbn [p_bogus p_expansion p_name] in *.
    unfold sensible in Hs. rewrite Forall_forall in Hs. destruct (Hs m Hm) as (Hread & Hnr & Hne).
    destruct (read_cases _ Hread) as [(n & E)|(r & Hr & Hp & _)]; [rewrite E in Hb; discriminate|].
    assert (Hname : prop_name (m_prop m) = r_name r) by (destruct (m_prop m); cbn [prop_reg prop_name] in *; congruence).
    assert (Hsh : is_short (m_prop m) = match r_short r with Some _ => true | None => false end)
      by (unfold is_short; now rewrite Hp).
    unfold short_longs. rewrite Hname, Hr. destruct (r_short r) as [fn|] eqn:Ef.
    + destruct (expansion_ok _ (box_closed pW pC pL pK zeroW zeroC black current resolve_color) _ parent child (read_made _ Hread) Hnr Hsh) as (ps & Hps & _).
      assert (Hex : ex G parent child (m_prop m) = Some (map (fun p => (prop_name p, p)) ps)) by (unfold ex; now rewrite Hsh, Hps).
      rewrite Hex. cbn [option_map]. f_equal. destruct (ex_names _ _ _ _ Hread Hex) as [E|E].
      * exfalso. exact (Hne Hsh _ Hex E).
      * now rewrite E, Hname.
    + unfold ex. now rewrite Hsh.
  - intros n l m Hl Hm. unfold short_longs in Hl. destruct (resolve G n) as [r|] eqn:Er; [|discriminate].
    destruct (r_short r) as [fn|] eqn:Ef; [|discriminate]. injection Hl as <-.
    pose proof (resolve_name _ _ Er) as <-.
    assert (Hin : In r (g_props G)) by (apply short_in; [exact Er|congruence]).
    pose proof longs_long as HL. rewrite Forall_forall in HL. specialize (HL r Hin). rewrite forallb_forall in HL.
    destruct (resolve_long pW pC pL pK zeroW zeroC black current resolve_color m (HL m Hm)) as (r' & Hr' & Hs').
    unfold short_longs. now rewrite Hr', Hs'.
  - intros n l Hl. unfold short_longs in Hl. destruct (resolve G n) as [r|] eqn:Er; [|discriminate].
    destruct (r_short r) as [fn|] eqn:Ef; [|discriminate]. injection Hl as <-.
    pose proof (resolve_name _ _ Er) as <-.
    assert (Hin : In r (g_props G)) by (apply short_in; [exact Er|congruence]).
    pose proof longs_nodup as HN. rewrite Forall_forall in HN. now apply HN.
Qed.

End Box.
