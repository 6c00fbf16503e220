(** The characters that one text node adds to a line. *)
From Coq Require Import List NArith Bool Arith Lia.
From Verif.Base Require Import Str.
From Verif.Boxes Require Import BoxModel BoxSpec BoxProofs.
Import ListNotations.
Local Open Scope N_scope.

Definition space_of (w : white_space) (brk : bool) : N := match w with PRE_LINE => if brk then 10 else 32 | _ => 32 end.
Fixpoint out (w : white_space) (t : transform) (s : str) (run : option bool) : str :=
  match s with
  | [] => match run with Some b => [space_of w b] | None => [] end
  | c :: s' =>
      if is_space c then
        if collapsible w then out w t s' (Some (is_break c || match run with Some b => b | None => false end)) else c :: out w t s' None
      else match run with Some b => [space_of w b] | None => [] end ++ transformed t c :: out w t s' None
  end.
Lemma runes_app a b : runes (a ++ b) = runes a ++ runes b. Proof. apply flat_map_app. Qed.
Lemma loop_runes w t : forall s run p, runes (p_items (append_loop w t s run p)) = runes (p_items p) ++ out w t s run.
Proof.
  assert (forall run p, runes (p_items (end_run w run p)) = runes (p_items p) ++ match run with Some b => [space_of w b] | None => [] end) as HE.
  { intros [b|] p; [|now rewrite app_nil_r]. cbn [end_run put_rune put_item p_items]. rewrite runes_app. destruct w; reflexivity. }
  induction s as [|c s IH]; intros run p; cbn [append_loop out].
  - apply HE.
  - destruct (is_space c).
    + destruct (collapsible w); rewrite IH; [reflexivity|]. cbn [put_rune put_item p_items]. rewrite runes_app. now rewrite <- app_assoc.
    + rewrite IH. cbn [put_rune put_item p_items]. rewrite runes_app, HE, <- !app_assoc. reflexivity.
Qed.
Lemma space_is_space w b : is_space (space_of w b) = true. Proof. destruct w, b; reflexivity. Qed.
Definition tr_words (t : transform) (l : list str) : list str := map (map (transformed t)) l.
Lemma word_tr t w : word (map (transformed t) w) = tr_words t (word w). Proof. destruct w; reflexivity. Qed.
Lemma out_words w t : forall s run cur, (run <> None -> cur = []) -> words_from (map (transformed t) cur) (out w t s run) = tr_words t (words_from cur s).
Proof.
  induction s as [|c s IH]; intros run cur Hr; cbn [out words_from].
  - destruct run as [b|]; [|apply word_tr]. rewrite Hr by discriminate. cbn. now rewrite space_is_space.
  - destruct (is_space c) eqn:E.
    + unfold tr_words. rewrite map_app. destruct (collapsible w).
      * destruct run as [b|].
        -- rewrite Hr by discriminate. cbn [word map app]. apply (IH _ []). reflexivity.
        -- assert (forall b, words_from (map (transformed t) cur) (out w t s (Some b)) = word (map (transformed t) cur) ++ words_from [] (out w t s (Some b))) as H.
           { clear IH E Hr c. induction s as [|c s IH]; intros b; cbn [out].
             - cbn. rewrite space_is_space. now rewrite app_nil_r.
             - destruct (is_space c) eqn:E; [destruct (collapsible w); [apply IH|]|].
               + cbn [words_from]. rewrite E. reflexivity.
               + cbn [app words_from]. rewrite space_is_space. cbn [word app]. reflexivity. }
           rewrite H, word_tr. f_equal. apply (IH _ []). reflexivity.
      * cbn [words_from]. rewrite E, word_tr. f_equal. apply (IH None []). congruence.
    + destruct run as [b|].
      * rewrite Hr by discriminate. cbn [map app words_from]. rewrite space_is_space. cbn [word app words_from]. rewrite transformed_space, E. cbn [app].
        change [transformed t c] with (map (transformed t) [c]). apply (IH None [c]). congruence.
      * cbn [app words_from]. rewrite transformed_space, E. replace (map (transformed t) cur ++ [transformed t c]) with (map (transformed t) (cur ++ [c])) by (now rewrite map_app). apply (IH None (cur ++ [c])). congruence.
Qed.
Lemma skip_words s : words (skip_spaces s) = words s.
Proof. unfold words. induction s as [|c s IH]; [reflexivity|]. cbn [skip_spaces words_from]. destruct (is_space c) eqn:E; [exact IH|]. cbn. now rewrite E. Qed.

Definition added (sty : style) (s : str) (p : prose) : str := out (s_space sty) (s_case sty) (if active p then s else skip_spaces s) None.
Theorem text_added sty s p : runes (p_items (append_text sty s p)) = runes (p_items p) ++ added sty s p.
Proof. apply loop_runes. Qed.
Theorem added_words sty s p : words (added sty s p) = map (map (transformed (s_case sty))) (words s).
Proof. unfold added, words. rewrite (out_words _ _ _ None []) by congruence. destruct (active p); [reflexivity|]. unfold tr_words. change (words_from [] ?x) with (words x). now rewrite skip_words. Qed.
Lemma out_single w t : collapsible w = true -> forall s run, no_double_space (out w t s run) = true.
Proof.
  intros Hc. induction s as [|c s IH]; intros run; cbn [out].
  - destruct run; reflexivity.
  - rewrite Hc. destruct (is_space c) eqn:E; [apply IH|].
    assert (no_double_space (transformed t c :: out w t s None) = true) as H3.
    { specialize (IH None). cbn [no_double_space]. destruct (out w t s None) eqn:Eo; [reflexivity|]. now rewrite transformed_space, E. }
    destruct run as [b|]; [|exact H3]. cbn [app]. change (no_double_space (space_of w b :: transformed t c :: out w t s None))
      with (negb (is_space (space_of w b) && is_space (transformed t c)) && no_double_space (transformed t c :: out w t s None)).
    now rewrite transformed_space, E, andb_false_r.
Qed.
Theorem added_single sty s p : collapsible (s_space sty) = true -> no_double_space (added sty s p) = true.
Proof. intros H. now apply out_single. Qed.
Lemma space_kept t c : is_space c = true -> transformed t c = c.
Proof.
  unfold is_space, transformed. intros H. destruct t; [reflexivity| |]; match goal with |- (if ?b then _ else _) = _ => destruct b eqn:E end; try reflexivity; exfalso; apply andb_true_iff in E as [E1 E2]; apply N.leb_le in E1, E2;
  apply orb_true_iff in H as [H|H]; [apply N.eqb_eq in H; lia|apply andb_true_iff in H as [H1 H2]; apply N.leb_le in H1, H2; lia|apply N.eqb_eq in H; lia|apply andb_true_iff in H as [H1 H2]; apply N.leb_le in H1, H2; lia].
Qed.
Lemma out_kept w t : collapsible w = false -> forall s, out w t s None = map (transformed t) s.
Proof. intros Hc. induction s as [|c s IH]; [reflexivity|]. cbn [out map]. rewrite Hc, IH. destruct (is_space c) eqn:E; [now rewrite space_kept|reflexivity]. Qed.
Theorem added_kept sty s p : collapsible (s_space sty) = false -> (active p = true \/ match s with c :: _ => is_space c = false | [] => True end) ->
  added sty s p = map (transformed (s_case sty)) s.
Proof.
  intros Hc H. unfold added. rewrite out_kept by exact Hc. f_equal. destruct (active p); [reflexivity|]. destruct H as [H|H]; [discriminate|]. destruct s as [|c s]; [reflexivity|]. cbn. now rewrite H.
Qed.

(** ** Words across inline elements *)
Fixpoint nrm (prev : bool) (s : str) : str :=
  match s with
  | [] => []
  | c :: s' => if is_space c then (if prev then nrm true s' else 32 :: nrm true s') else c :: nrm false s'
  end.
Fixpoint ends (prev : bool) (s : str) : bool := match s with [] => prev | c :: s' => ends (is_space c) s' end.
Lemma nrm_app p a b : nrm p (a ++ b) = nrm p a ++ nrm (ends p a) b.
Proof. revert p. induction a as [|c a IH]; intros p; [reflexivity|]. cbn. destruct (is_space c); [destruct p|]; rewrite IH; reflexivity. Qed.
Lemma ends_app p a b : ends p (a ++ b) = ends (ends p a) b.
Proof. revert p. induction a as [|c a IH]; intros p; [reflexivity|]. cbn. apply IH. Qed.
Lemma nrm_words : forall s p cur, (p = true -> cur = []) -> words_from cur (nrm p s) = words_from cur s.
Proof.
  induction s as [|c s IH]; intros p cur Hp; [reflexivity|]. cbn [nrm words_from]. destruct (is_space c) eqn:E.
  - destruct p; [rewrite Hp by reflexivity; cbn; now apply IH|]. cbn. f_equal. now apply IH.
  - cbn [words_from]. rewrite E. now apply IH.
Qed.
(** What is shown of a text, up to runs of spaces. *)
Definition like (a b : str) : Prop := forall p, nrm p a = nrm p b /\ ends p a = ends p b.
Lemma out_like w t : forall s run, (run <> None -> collapsible w = true) -> like (out w t s run) (match run with Some _ => [32] | None => [] end ++ map (transformed t) s).
Proof.
  induction s as [|c s IH]; intros run Hr p; cbn [out map].
  - destruct run as [b|]; [|auto]. cbn. rewrite space_is_space. destruct p; auto.
  - destruct (is_space c) eqn:E.
    + rewrite (space_kept t c E). destruct (collapsible w) eqn:Ec.
      * match goal with |- context [out w t s (Some ?b)] => destruct (IH (Some b) (fun _ => eq_refl) p) as [H1 H2] end. rewrite H1, H2.
        destruct run as [b|]; cbn; rewrite E; destruct p; auto.
      * destruct run as [b|]; [now specialize (Hr ltac:(discriminate))|]. destruct (IH None ltac:(congruence) true) as [H1 H2]. cbn in *. rewrite E, H1, H2. auto.
    + destruct (IH None ltac:(congruence) false) as [H1 H2]. destruct run as [b|]; cbn in *; rewrite ?space_is_space, transformed_space, E, H1, H2; destruct p; auto.
Qed.
(** The line so far shows [x]: nothing, or up to runs of spaces, without those at the start. *)
Definition sim (a x : str) : Prop :=
  a = [] /\ all_space x = true \/ exists y, a <> [] /\ like a y /\ y = skip_spaces x.
Lemma skip_all x : all_space x = true -> skip_spaces x = [].
Proof. induction x as [|c x IH]; [reflexivity|]. cbn. intros H. apply andb_true_iff in H as [-> H]. now apply IH. Qed.
Lemma skip_app x z : skip_spaces (x ++ z) = if all_space x then skip_spaces z else skip_spaces x ++ z.
Proof. induction x as [|c x IH]; [reflexivity|]. cbn. destruct (is_space c); [exact IH|reflexivity]. Qed.
Lemma skip_nil x : skip_spaces x = [] -> all_space x = true.
Proof. induction x as [|c x IH]; [reflexivity|]. cbn. destruct (is_space c); [exact IH|discriminate]. Qed.
Lemma like_nil a : like a [] -> a = [].
Proof. intros H. destruct (H false) as [H1 _]. destruct a as [|c a]; [reflexivity|]. cbn in H1. destruct (is_space c); discriminate. Qed.
Lemma like_app a b c d : like a b -> like c d -> like (a ++ c) (b ++ d).
Proof. intros H1 H2 p. rewrite !nrm_app, !ends_app. destruct (H1 p) as [-> ->]. destruct (H2 (ends p b)) as [-> ->]. auto. Qed.
Lemma skip_map t s : skip_spaces (map (transformed t) s) = map (transformed t) (skip_spaces s).
Proof. induction s as [|c s IH]; [reflexivity|]. cbn. rewrite transformed_space. destruct (is_space c); [exact IH|reflexivity]. Qed.
Lemma sim_text sty s p x : (forall j sp, ~ In (Strut j sp) (p_items p)) -> sim (runes (p_items p)) x -> sim (runes (p_items (append_text sty s p))) (x ++ map (transformed (s_case sty)) s).
Proof.
  intros Hno Hs. rewrite text_added. unfold added.
  assert (active p = match runes (p_items p) with [] => false | _ => true end) as Ea.
  { unfold active. destruct (p_items p) as [|[c sp|j sp] l]; try reflexivity. destruct (Hno j sp). now left. }
  destruct Hs as [[E Hx]|(y & Hn & Hl & Hy)].
  - rewrite E in *. rewrite Ea. cbn [app]. unfold sim. pose proof (out_like (s_space sty) (s_case sty) (skip_spaces s) None ltac:(congruence)) as HL. cbn [app] in HL.
    destruct (out (s_space sty) (s_case sty) (skip_spaces s) None) as [|o l] eqn:Eo.
    + left. split; [reflexivity|]. unfold all_space. rewrite forallb_app. fold (all_space x). rewrite Hx. cbn [andb]. apply skip_nil. rewrite skip_map.
      destruct (HL false) as [H _]. destruct (skip_spaces s) as [|c s'] eqn:Es; [reflexivity|]. cbn in H. destruct (is_space (transformed (s_case sty) c)); discriminate.
    + right. exists (map (transformed (s_case sty)) (skip_spaces s)). split; [discriminate|]. split; [exact HL|]. rewrite skip_app, Hx, skip_map. reflexivity.
  - rewrite Ea. destruct (runes (p_items p)) as [|r l] eqn:Er; [contradiction|]. right. exists (y ++ map (transformed (s_case sty)) s). split; [discriminate|]. split.
    + apply like_app; [exact Hl|]. exact (out_like (s_space sty) (s_case sty) s None ltac:(congruence)).
    + rewrite skip_app. destruct (all_space x) eqn:Ex; [|now subst y]. exfalso. rewrite (skip_all x Ex) in Hy. subst y. apply like_nil in Hl. discriminate.
Qed.
Lemma sim_words a x : sim a x -> words a = words x.
Proof.
  intros [[-> H]|(y & _ & H & ->)].
  - unfold words. rewrite <- (nrm_words x true []) by reflexivity. clear -H. induction x as [|c x IH]; [reflexivity|]. cbn in *. apply andb_true_iff in H as [-> H]. now apply IH.
  - rewrite <- (skip_words x). unfold words. rewrite <- (nrm_words a true []), <- (nrm_words (skip_spaces x) true []) by reflexivity. now destruct (H true) as [-> _].
Qed.

Definition line (t : st) (p : prose) : Prop := t = mkSt CNone [] (Some (p, [])) /\ forall j sp, ~ In (Strut j sp) (p_items p).
Lemma text_app a b : text (a ++ b) = text a ++ text b. Proof. apply flat_map_app. Qed.
Lemma text_letters sty sp s : text (letters sty sp s) = map (transformed (s_case sty)) s.
Proof. unfold letters. induction s as [|c s IH]; [reflexivity|]. cbn in *. now f_equal. Qed.
Lemma append_no_struts sty s p : (forall j sp, ~ In (Strut j sp) (p_items p)) -> forall j sp, ~ In (Strut j sp) (p_items (append_text sty s p)).
Proof. intros H j sp. destruct (appended_text sty s p) as (_ & n & -> & A3 & _). intros Hi. apply in_app_or in Hi as [Hi|Hi]; [exact (H j sp Hi)|exact (A3 j sp Hi)]. Qed.

Definition phrase_ok (n : node) : Prop := forall direct f ps t p x sp, f = (if direct : bool then FROM_BLOCK else FROM_INLINE) -> phrasing direct n = true -> line t p -> sim (runes (p_items p)) x ->
  exists t' p', m_node (make n) f ps t = Ok t' /\ line t' p' /\ sim (runes (p_items p')) (x ++ text (shown (Flow false) n ps sp)).
Lemma phrases direct f ps sp : f = (if direct : bool then FROM_BLOCK else FROM_INLINE) -> forall kids t p x, Forall phrase_ok kids -> forallb (phrasing direct) kids = true -> line t p -> sim (runes (p_items p)) x ->
  exists t' p', each (fun k => m_node (snd k) f ps) (map kid_of kids) t = Ok t' /\ line t' p' /\ sim (runes (p_items p')) (x ++ text (flat_map (fun k => shown (Flow false) k ps sp) kids)).
Proof.
  intros Hf. induction kids as [|n kids IH]; intros t p x HF Hp Hl Hs.
  - exists t, p. cbn. rewrite app_nil_r. auto.
  - cbn [map each forallb flat_map kid_of snd] in *. apply andb_true_iff in Hp as [P1 P2]. inversion_clear HF as [|? ? Hn HF'].
    destruct (Hn direct f ps t p x sp Hf P1 Hl Hs) as (t1 & p1 & E1 & L1 & S1). rewrite E1. cbn [andthen].
    destruct (IH t1 p1 _ HF' P2 L1 S1) as (t2 & p2 & E2 & L2 & S2). exists t2, p2. split; [exact E2|]. split; [exact L2|]. rewrite text_app, app_assoc. exact S2.
Qed.
Theorem phrase_nodes : forall n, phrase_ok n.
Proof.
  induction n as [e kids HF|s|] using node_ind'; intros direct f ps t p x sp Hf Hp [-> Hl] Hs.
  - cbn [phrasing] in Hp. apply andb_true_iff in Hp as [P1 P2]. unfold plain_inline in P1.
    destruct (s_display (e_style e)) as [[] [] []|i| |] eqn:Ed; try discriminate. destruct (e_tag e) eqn:Et; try discriminate. destruct (e_before e) eqn:Eb; try discriminate. destruct (e_after e) eqn:Ea; try discriminate.
    change (m_node (make (Elem e kids))) with (build_elem e (map kid_of kids)). unfold build_elem. cbv zeta. rewrite Ed, Et.
    assert (match f with FROM_FLEX => False | _ => True end) as Hff by (subst f; destruct direct; exact I).
    assert (exists t' p', inline_flow e (map kid_of kids) f ps {| t_content := CNone; t_kids := []; t_inline := Some (p, []) |} = Ok t' /\ line t' p' /\ sim (runes (p_items p')) (x ++ text (shown (Flow false) (Elem e kids) ps sp))) as HH.
    { unfold inline_flow. rewrite Et. cbn [is_void on_prose t_inline t_content t_kids andthen]. unfold build_children. rewrite Ed, Eb, Ea. cbn [is_item build_pseudo_opt andthen].
      destruct (phrases false FROM_INLINE (e_style e) (s_span (e_style e) :: sp) eq_refl kids (mkSt CNone [] (Some (push_span (s_span (e_style e)) p, []))) (push_span (s_span (e_style e)) p) x HF P2) as (t1 & p1 & E1 & [-> L1] & S1).
      { split; [reflexivity|exact Hl]. } { exact Hs. }
      rewrite E1. cbn [andthen on_prose t_inline t_content t_kids]. exists (mkSt CNone [] (Some (pop_span p1, []))), (pop_span p1). split; [reflexivity|]. split; [split; [reflexivity|exact L1]|].
      cbn [shown]. rewrite Ed, Et, Eb, Ea. cbn [boxed orb shown_pseudo list_item app]. rewrite app_nil_r. exact S1. }
    destruct f; try contradiction; cbn [always_inline_block is_inside negb orb]; exact HH.
  - cbn [make m_node shown]. rewrite text_letters. unfold build_text. cbn [t_inline t_content t_kids].
    assert (exists t' p', Ok (mkSt CNone [] (Some (append_text ps s p, []))) = Ok t' /\ line t' p' /\ sim (runes (p_items p')) (x ++ map (transformed (s_case ps)) s)) as HH.
    { eexists. exists (append_text ps s p). split; [reflexivity|]. split; [split; [reflexivity|now apply append_no_struts]|]. now apply sim_text. }
    subst f. destruct direct; [|exact HH]. cbn [phrasing andb] in Hp. apply negb_true_iff in Hp. destruct (skip_spaces s) as [|c l] eqn:Es; [|exact HH].
    apply skip_nil in Es. congruence.
  - exists (mkSt CNone [] (Some (p, []))), p. cbn. rewrite app_nil_r. split; [reflexivity|]. split; [split; [reflexivity|exact Hl]|exact Hs].
Qed.
Theorem paragraph_words e kids : e_tag e = OTHER -> list_item (s_display (e_style e)) = false -> e_before e = None -> e_after e = None -> forallb (phrasing true) kids = true ->
  exists b, build_document e kids = Tree b /\ words (text (read b)) = words (text (shown_document e kids)).
Proof.
  intros Et Ei Eb Ea Hp. unfold build_document, block_flow. cbv zeta. rewrite Et. cbn [is_void]. unfold build_children. rewrite Eb, Ea.
  assert (is_item (s_display (e_style e)) = false) as -> by exact Ei. cbn [build_pseudo_opt andthen].
  assert (Forall phrase_ok kids) as HF by (apply Forall_forall; intros n _; apply phrase_nodes).
  destruct (phrases true FROM_BLOCK (e_style e) [s_span (e_style e)] eq_refl kids (new_box (e_style e)) (mkProse [] [s_span (e_style e)]) [] HF Hp) as (t1 & p1 & -> & [-> L1] & S1).
  { split; [reflexivity|]. intros j sp []. } { left. split; reflexivity. }
  cbn [andthen]. eexists. split; [reflexivity|]. apply sim_words in S1. cbn [app] in S1. unfold shown_document. rewrite Et, Ei, Eb, Ea. cbn [shown_pseudo app]. rewrite app_nil_r.
  cbn [text flat_map app]. fold (text (flat_map (fun k => shown (Flow false) k (e_style e) [s_span (e_style e)]) kids)). rewrite <- S1.
  unfold finalize. cbn [t_inline t_kids]. assert (text (read_items [] (p_items p1)) = runes (p_items p1)) as ER.
  { clear -L1. induction (p_items p1) as [|[c sp|j sp] l IH]; [reflexivity| |destruct (L1 j sp); now left]. assert (forall j sp', ~ In (Strut j sp') l) as L2 by (intros j sp' Hi; apply (L1 j sp'); now right). change (c :: text (read_items [] l) = c :: runes l). now rewrite (IH L2). }
  destruct (active p1) eqn:Ea1.
  - unfold box_of. cbn [t_content t_kids read of_origin map app]. f_equal. exact ER.
  - unfold active in Ea1. destruct (p_items p1); [reflexivity|discriminate].
Qed.
