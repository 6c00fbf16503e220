(** Reading what was written with tags left out. *)
From Coq Require Import String List Arith Bool NArith Lia Permutation.
From Verif.Base Require Import Str.
From Verif.Html Require Import LexerModel RefProofs NumProofs SerialModel SerialSpec SerialProofs AttrProofs BuildModel BuildSpec BuildDom BuildSteps BuildTags BuildStart BuildEnd BuildMono BuildRun BuildTable BuildTree LexerSink BuildDoc BuildFrag OmitSpec OmitSteps OmitTree OmitDoc.
Import ListNotations.
Local Open Scope list_scope.
Local Open Scope N_scope.

Section Sink.
Variable sink : list token -> option text_mode.
Hypothesis Hsink : by_name sink.

(** The tokenizer, between two pieces of content, reads [w] as tokens with [P]. *)
Definition reads (w : str) (P : list token -> Prop) : Prop :=
  ~ In 13 w /\ forall la o l, SerialProofs.text_at DATA la o l -> exists ts, P ts /\ exists l' la', feed sink w l = Ok l' /\ SerialProofs.text_at DATA la' (rev ts ++ o) l'.
Lemma reads_le w (P Q : list token -> Prop) : (forall ts, P ts -> Q ts) -> reads w P -> reads w Q.
Proof. intros H [H13 R]. split; [exact H13|]. intros la o l Hl. destruct (R _ _ _ Hl) as (ts & Hp & Hr). exists ts. auto. Qed.
Lemma reads_nil : reads [] (fun ts => ts = []).
Proof. split; [intros []|]. intros la o l Hl. exists []. split; [reflexivity|]. exists l, la. split; [reflexivity|exact Hl]. Qed.
Lemma reads_app w v P Q : reads w P -> reads v Q -> reads (w ++ v) (fun ts => exists a b, ts = a ++ b /\ P a /\ Q b).
Proof.
  intros [H1 R1] [H2 R2]. split; [rewrite in_app_iff; tauto|]. intros la o l Hl. destruct (R1 _ _ _ Hl) as (a & Ha & l1 & la1 & E1 & L1).
  destruct (R2 _ _ _ L1) as (b & Hb & l2 & la2 & E2 & L2). exists (a ++ b). split; [eauto|]. exists l2, la2. split; [rewrite feed_app, E1; exact E2|].
  rewrite rev_app_distr, <- app_assoc. exact L2.
Qed.
Lemma reads_node x parent : expressible x -> raw_parent parent = false -> reads (serialize_node parent x) (fun ts => exists x', same_tree x x' /\ ts = toks x').
Proof.
  intros He Hp. split; [now apply node_no_cr|]. intros la o l Hl. destruct (node_run sink Hsink x He parent Hp la o l Hl) as (ts & Hts & l' & E & la' & L).
  exists ts. split; [exact (tokens_tree _ _ Hts)|]. eauto.
Qed.
Lemma reads_nodes ns parent : Forall expressible ns -> raw_parent parent = false -> reads (flat_map (serialize_node parent) ns) (fun ts => exists ns', Forall2 same_tree ns ns' /\ ts = flat_map toks ns').
Proof.
  intros He Hp. induction He as [|x ns Hx _ IH]; cbn [flat_map].
  - eapply reads_le; [|exact reads_nil]. intros ts ->. exists []. split; [constructor|reflexivity].
  - eapply reads_le; [|exact (reads_app _ _ _ _ (reads_node x parent Hx Hp) IH)]. cbn. intros ts (a & b & -> & (x' & S1 & ->) & (ns' & S2 & ->)).
    exists (x' :: ns'). split; [now constructor|reflexivity].
Qed.
Lemma start_no_cr q attrs : name_ok q -> attrs_ok attrs -> ~ In 13 (start_tag q attrs).
Proof.
  intros Hq Ha. unfold start_tag. rewrite !in_app_iff, (tag_name_html q Hq). intros [[E|[]]|[Hi|[Hi|[E|[]]]]]; try discriminate.
  - apply (tag_name_no_cr _ (proj1 Hq) Hi).
  - apply in_flat_map in Hi as (x & Hx & Hi). destruct Ha as [Ha Hd].
    pose proof (nodup_no_is attrs Hd Ha) as Hp. apply (attr_no_cr x); [|exact Hi].
    rewrite Forall_forall in Ha. apply Ha. eapply Permutation.Permutation_in; [symmetry; exact Hp|exact Hx].
Qed.
Lemma end_no_cr q : name_ok q -> ~ In 13 (end_tag q).
Proof.
  intros Hq. unfold end_tag. rewrite !in_app_iff, (tag_name_html q Hq). intros [[E|[E|[]]]|[Hi|[E|[]]]]; try discriminate.
  apply (tag_name_no_cr _ (proj1 Hq) Hi).
Qed.
Lemma attrs_perm_order attrs : attrs_ok attrs -> Permutation attrs (attr_order attrs).
Proof. intros [Ha Hd]. exact (nodup_no_is attrs Hd Ha). Qed.
Lemma reads_start q attrs : name_ok q -> attrs_ok attrs -> mode_of (q_name q) = None -> reads (start_tag q attrs) (fun ts => ts = [stag (q_name q) (attr_order attrs)]).
Proof.
  intros Hq Ha Hm. split; [now apply start_no_cr|]. intros la o l Hl. destruct (start_tag_run sink q attrs la o l Hsink Hq Ha Hl) as (l' & E & L). rewrite Hm in L.
  eexists. split; [reflexivity|]. eexists _, _. split; [exact E|exact L].
Qed.
Lemma reads_end q : name_ok q -> reads (end_tag q) (fun ts => ts = [etag (q_name q)]).
Proof.
  intros Hq. split; [now apply end_no_cr|]. intros la o l Hl. destruct (end_tag_run sink q la o l Hq Hl) as (l' & E & L).
  eexists. split; [reflexivity|]. eexists _, _. split; [exact E|exact L].
Qed.

(** ** What may be left out does not depend on the order of attributes *)
Definition same_next (x y : option node) : Prop := match x, y with Some n, Some n' => same_tree n n' | None, None => True | _, _ => False end.
Lemma omit_same parent n next next' : same_next next next' -> omit parent n next' = omit parent n next.
Proof.
  intros H. destruct next as [x|], next' as [y|]; try contradiction; [|reflexivity].
  destruct H; reflexivity.
Qed.
Lemma start_same cut n ns ns' : Forall2 same_tree ns ns' -> start_is_optional cut n ns' = start_is_optional cut n ns.
Proof. intros H. destruct H as [|x x' r r' S1 _]; [reflexivity|]. destruct S1; reflexivity. Qed.
Lemma reads_if (b : bool) w (P : list token -> Prop) t : (b = true -> reads w (fun ts => ts = [t])) -> reads (if b then w else []) (fun ts => ts = if b then [t] else []).
Proof. intros H. destruct b; [apply H; reflexivity|exact reads_nil]. Qed.

Definition read_node parent cut (next : option node) x w cut' : Prop := raw_parent (Some (hq parent)) = false -> expressible x -> (exists c path, fits c path x) ->
  reads w (fun ts => exists x', same_tree x x' /\ forall next', same_next next next' -> brief parent cut next' x' ts cut').
Definition read_nodes parent cut ns w : Prop := raw_parent (Some (hq parent)) = false -> Forall expressible ns -> (exists c path, Forall (fits c path) ns) ->
  reads w (fun ts => exists ns', Forall2 same_tree ns ns' /\ briefs parent cut ns' ts).
Lemma same_hd ns ns' : Forall2 same_tree ns ns' -> same_next (hd_error ns) (hd_error ns').
Proof. intros []; cbn; auto. Qed.
Lemma read_element parent cut next q attrs ns w (opened closed : bool) : void_element q = false -> mode_of (q_name q) = None ->
  (opened = false -> attrs = [] /\ start_is_optional cut (q_name q) ns = true) -> (closed = false -> omit parent (q_name q) next = true) ->
  read_nodes (q_name q) [] ns w ->
  read_node parent cut next (Element q attrs ns) ((if opened then start_tag q attrs else []) ++ w ++ (if closed then end_tag q else [])) (if closed then [] else q_name q).
Proof.
  intros Hv Hm Ho Hc IH Hp He (c & path & Hf). destruct (fits_child _ _ _ _ _ Hf Hv Hm) as (Eq & c' & _ & _ & Hfc & _).
  cbn [expressible] in He. destruct He as (Hn & Ha & He). rewrite Hv, Hm in He. destruct He as [Hns He]. apply fold_conj in He.
  assert (raw_parent (Some (hq (q_name q))) = false) as Hr by (cbn [raw_parent]; rewrite <- Eq; now apply not_raw).
  eapply reads_le; [|eapply reads_app; [apply (reads_if opened _ (fun _ => True)); intros _; apply (reads_start q attrs Hn Ha Hm)|
    eapply reads_app; [apply (IH Hr He); eauto|apply (reads_if closed _ (fun _ => True)); intros _; apply (reads_end q Hn)]]].
  cbn beta. intros ts (t1 & t23 & -> & -> & t2 & t3 & -> & (ns' & S2 & B) & ->).
  exists (Element q (attr_order attrs) ns'). split; [constructor; [now apply attrs_perm_order|exact S2]|]. intros next' Hnext.
  apply b_element; [exact Hv|exact Hm| | |exact B].
  - intros E. destruct (Ho E) as [-> Hs]. split; [reflexivity|]. rewrite (start_same _ _ _ _ S2). exact Hs.
  - intros E. rewrite (omit_same _ _ _ _ Hnext). auto.
Qed.
Lemma read_cons parent cut x xs w w' cut' : read_node parent cut (hd_error xs) x w cut' -> read_nodes parent cut' xs w' -> read_nodes parent cut (x :: xs) (w ++ w').
Proof.
  intros H1 H2 Hp He (c & path & Hf). inversion He; inversion Hf; subst.
  eapply reads_le; [|eapply reads_app; [apply H1|apply H2]; eauto]. cbn beta. intros ts (a & b & -> & (x' & S1 & B1) & (ns' & S2 & B2)).
  exists (x' :: ns'). split; [now constructor|]. econstructor; [apply B1, same_hd, S2|exact B2].
Qed.
Lemma written_reads parent cut ns w : writtens omit parent cut ns w -> read_nodes parent cut ns w.
Proof.
  intros H. induction H as [parent cut next x|parent cut next q attrs ns w opened closed Hv Hm Ho Hc Hb IH|parent cut|parent cut x xs w w' cut' H1 IH1 H2 IH2]
    using writtens_mind with (P := fun parent cut next x w cut' _ => read_node parent cut next x w cut').
  - intros Hp He _. eapply reads_le; [|exact (reads_node x (Some (hq parent)) He Hp)]. cbn beta. intros ts (x' & S1 & ->). exists x'. split; [exact S1|]. intros next' _. constructor.
  - now apply read_element.
  - intros _ _ _. eapply reads_le; [|exact reads_nil]. intros ts ->. exists []. split; constructor.
  - eapply read_cons; eassumption.
Qed.

Lemma reads_tokens w P : reads w P -> exists ts, P ts /\ tokenize sink w = Ok (ts ++ [new_token T_END_OF_FILE]).
Proof.
  intros [H13 R]. destruct (R _ _ _ init_text) as (ts & Hp & l & la & E & L). exists ts. split; [exact Hp|]. unfold tokenize. rewrite normalize_id by exact H13.
  unfold run. rewrite E. cbn [bind]. destruct (finish_data sink _ _ _ L) as (l' & E' & L'). rewrite E'. cbn [bind].
  rewrite L'. cbn [rev]. rewrite app_nil_r, rev_involutive. reflexivity.
Qed.
End Sink.

(** ** A whole document *)
Lemma briefs_named parent cut ns ts : briefs parent cut ns ts -> Forall named_start ts.
Proof.
  intros H. induction H as [parent cut next x|parent cut next q attrs ns ts opened closed Hv Hm Ho Hc Hb IH|parent cut|parent cut x xs ts ts' cut' H1 IH1 H2 IH2]
    using briefs_mind with (P := fun parent cut next x ts cut' _ => Forall named_start ts).
  - apply toks_named.
  - apply Forall_app. split; [destruct opened; repeat constructor; intros _; eexists; reflexivity|]. apply Forall_app. split; [exact IH|].
    destruct closed; repeat constructor; discriminate.
  - constructor.
  - apply Forall_app. auto.
Qed.
Lemma nodes_named ns : Forall named_start (flat_map toks ns).
Proof. apply Forall_flat_map, Forall_forall. intros n _. apply toks_named. Qed.
Lemma tok_if_named b t : named_start t -> Forall named_start (tok_if b t).
Proof. destruct b; repeat constructor; assumption. Qed.
Lemma stag_named n a : named_start (stag n a).
Proof. intros _. eexists. reflexivity. Qed.
Lemma etag_named n : named_start (etag n).
Proof. intros E. discriminate E. Qed.
Lemma root_named a1 a2 a3 before between head bts o1 o2 o3 e1 e2 e3 : Forall named_start bts ->
  Forall named_start (from_root a1 a2 a3 before between head bts o1 o2 o3 e1 e2 e3).
Proof.
  intros H. unfold from_root, from_html, from_head, from_after, from_body, closing.
  repeat (apply Forall_app; split); try apply nodes_named; try apply tok_if_named; try apply stag_named; try apply etag_named; try exact H.
  repeat constructor. discriminate.
Qed.
Lemma parse_text sink w ts s' : by_name sink -> tokenize sink w = Ok ts -> Forall named_start ts -> bruns ts st_init s' -> parse w = Tree (document s').
Proof.
  intros Hb Et Hn R. unfold parse. rewrite (tokenize_sink sink builder_sink _ _ Et).
  - rewrite (runs_build _ _ _ R). reflexivity.
  - eapply runs_agree; [exact Hb|exact Hn|exact R].
Qed.
Lemma root_closing a1 a2 a3 before between head bts o1 o2 o3 e1 e2 e3 : from_root a1 a2 a3 before between head bts o1 o2 o3 e1 e2 e3 =
  (tok_if o1 (stag html_n a1) ++ flat_map toks before ++ tok_if o2 (stag head_n a2) ++ flat_map toks head ++ tok_if e2 (etag head_n) ++ flat_map toks between ++
   tok_if o3 (stag body_n a3) ++ bts ++ tok_if e3 (etag body_n) ++ tok_if e1 (etag html_n)) ++ [new_token T_END_OF_FILE].
Proof. unfold from_root, from_html, from_head, from_after, from_body, closing. rewrite <- !app_assoc. reflexivity. Qed.
Lemma same_opening ns ns' : Forall2 same_tree ns ns' -> (forall x r, ns = x :: r -> opens_body x) -> forall x r, ns' = x :: r -> opens_body x.
Proof. intros F H x r ->. inversion F as [|y ? ys ? S1 _]; subst. eapply same_opens; [exact S1|eauto]. Qed.
Lemma same_starting ns ns' : Forall2 same_tree ns ns' -> (forall x r, ns = x :: r -> exists q a l, x = Element q a l) -> forall x r, ns' = x :: r -> exists q a l, x = Element q a l.
Proof. intros F H x r ->. inversion F as [|y ? ys ? S1 _]; subst. destruct (H _ _ eq_refl) as (q & a & l & ->). inversion S1; subst. eauto. Qed.

Definition is_elem (x : node) : bool := match x with Element _ _ _ => true | _ => false end.
Lemma split_first l l' x x' r r' : filter is_elem l = [] -> filter is_elem l' = [] -> is_elem x = true -> is_elem x' = true -> l ++ x :: r = l' ++ x' :: r' -> l = l' /\ x = x' /\ r = r'.
Proof.
  revert l'. induction l as [|y l IH]; intros [|y' l'] H H' Hx Hx' E; cbn [app filter] in *.
  - injection E as -> ->. auto.
  - injection E as -> _. rewrite Hx in H'. discriminate H'.
  - injection E as -> _. rewrite Hx' in H. discriminate H.
  - injection E as -> E. destruct (is_elem y'); [discriminate H|]. destruct (IH l' H H' Hx Hx' E) as (-> & -> & ->). auto.
Qed.
Lemma comments_elem ns : Forall blank_or_comment ns -> filter is_elem ns = [].
Proof. induction 1 as [|x ns [(w & ->)|(w & -> & _)] _ IH]; [reflexivity|exact IH|exact IH]. Qed.
Lemma split_html (l l' m m' : list node) x x' y y' : Forall is_comment_node l -> Forall blank_or_comment m -> is_elem x = true -> is_elem x' = true -> is_elem y = true -> is_elem y' = true ->
  l ++ [x] ++ m ++ [y] = l' ++ [x'] ++ m' ++ [y'] -> l = l' /\ x = x' /\ m = m' /\ y = y'.
Proof.
  intros Hl Hm Hx Hx' Hy Hy' E. assert (filter is_elem l = []) as Fl by (apply comments_elem; eapply Forall_impl; [|exact Hl]; intros n Hn; now left).
  pose proof (comments_elem _ Hm) as Fm. assert (filter is_elem (l ++ [x] ++ m ++ [y]) = [x; y]) as F.
  { rewrite !filter_app, Fl, Fm. cbn [filter app]. rewrite Hx, Hy. reflexivity. }
  rewrite E, !filter_app in F. cbn [filter] in F. rewrite Hx', Hy' in F.
  assert (filter is_elem l' = [] /\ filter is_elem m' = []) as [Fl' Fm'].
  { apply (f_equal (@length node)) in F. rewrite !app_length in F. cbn [length] in F. split; apply length_zero_iff_nil; lia. }
  destruct (split_first l l' x x' _ _ Fl Fl' Hx Hx' E) as (-> & -> & E').
  destruct (split_first m m' y y' _ _ Fm Fm' Hy Hy' E') as (-> & -> & _). auto.
Qed.
Lemma html_parent n : in_names ["html"; "head"; "body"]%string (of_string n) = true -> raw_parent (Some (hq (of_string n))) = false.
Proof. generalize (of_string n). intros m H. name_cases H; reflexivity. Qed.
Lemma same_top a b (c : list node) c' q at1 at2 : Forall2 same_tree a b -> Forall2 same_tree c c' -> Permutation at1 at2 -> Forall2 same_tree (a ++ [Element q at1 c]) (b ++ [Element q at2 c']).
Proof. intros H1 H2 H3. apply Forall2_app; [exact H1|]. constructor; [now constructor|constructor]. Qed.

Theorem omitted_rebuilt sink doc w : by_name sink -> conforming doc -> Forall expressible doc -> written_document omit doc w ->
  exists doc', parse w = Tree doc' /\ Forall2 same_tree doc doc'.
Proof.
  intros Hsink Hc He Hw. destruct Hw as [comments1 doctype1 before between a1 a2 a3 head body w o1 o2 o3 e1 e2 e3 O1 O2 E2 O3 Hw].
  inversion Hc as [comments doctype before0 between0 b1 b2 b3 head0 body0 Hco Hdt Hbe Hbt Hbd Hhd Hhf Hbod Hbf E].
  rewrite !app_assoc in E. apply app_inj_tail in E as [Ect E]. injection E as -> E.
  destruct (split_html before0 before between0 between (html_node "head" b2 head0) (html_node "head" a2 head) (html_node "body" b3 body0) (html_node "body" a3 body) Hbe Hbt eq_refl eq_refl eq_refl eq_refl E) as (-> & Eh & -> & Eb).
  injection Eh as -> ->. injection Eb as -> ->. clear Hc E.
  apply Forall_app in He as [He1 He]. apply Forall_app in He as [He2 He]. pose proof (proj2 (Forall_app _ _ _) (conj He1 He2)) as Hct. rewrite <- Ect in Hct. apply Forall_app in Hct as [He3 He4]. inversion He as [|? ? Hx _]; subst. clear He He1 He2. unfold html_node in Hx.
  cbn [expressible] in Hx. destruct Hx as (Hn1 & Ha1 & Hx). change (void_element _) with false in Hx. change (mode_of (q_name _)) with (@None text_mode) in Hx. cbn iota in Hx.
  destruct Hx as [_ Hx]. apply fold_conj in Hx. apply Forall_app in Hx as [Hbee Hx]. inversion Hx as [|? ? Hhe Hx']; subst. clear Hx. apply Forall_app in Hx' as [Hbte Hx2].
  inversion Hx2 as [|? ? Hbo _]; subst. clear Hx2.
  cbn [expressible] in Hhe, Hbo. destruct Hhe as (Hn2 & Ha2 & Hhe). destruct Hbo as (Hn3 & Ha3 & Hbo).
  change (void_element _) with false in Hhe, Hbo. change (mode_of (q_name _)) with (@None text_mode) in Hhe, Hbo. cbn iota in Hhe, Hbo.
  destruct Hhe as [_ Hhe]. destruct Hbo as [_ Hbo]. apply fold_conj in Hhe, Hbo.
  assert (serialize comments1 ++ serialize doctype1 = serialize comments ++ serialize doctype) as Es by (unfold serialize; rewrite <- !flat_map_app, Ect; reflexivity).
  rewrite app_assoc, Es, <- app_assoc. rewrite !app_assoc, <- Ect, <- !app_assoc. clear Es Ect.
  assert (reads sink (serialize comments ++ serialize doctype ++
       tag_if o1 (start_tag (tag_of "html") a1) ++ content "html" before ++
       tag_if o2 (start_tag (tag_of "head") a2) ++ content "head" head ++ tag_if e2 (end_tag (tag_of "head")) ++ content "html" between ++
       tag_if o3 (start_tag (tag_of "body") a3) ++ w ++ tag_if e3 (end_tag (tag_of "body")) ++ tag_if e1 (end_tag (tag_of "html")))
    (fun ts => exists comments' doctype' before' head' between' body' bts,
       Forall2 same_tree comments comments' /\ Forall2 same_tree doctype doctype' /\ Forall2 same_tree before before' /\ Forall2 same_tree head head' /\ Forall2 same_tree between between' /\
       Forall2 same_tree body body' /\ briefs body_n [] body' bts /\
       ts = flat_map toks comments' ++ flat_map toks doctype' ++ tok_if o1 (stag html_n (attr_order a1)) ++ flat_map toks before' ++ tok_if o2 (stag head_n (attr_order a2)) ++ flat_map toks head' ++
            tok_if e2 (etag head_n) ++ flat_map toks between' ++ tok_if o3 (stag body_n (attr_order a3)) ++ bts ++ tok_if e3 (etag body_n) ++ tok_if e1 (etag html_n))) as R.
  { eapply reads_le; [|
      eapply reads_app; [apply (reads_nodes sink Hsink comments None He3 eq_refl)|
      eapply reads_app; [apply (reads_nodes sink Hsink doctype None He4 eq_refl)|
      eapply reads_app; [apply (reads_if sink o1 _ (fun _ => True)); intros _; apply (reads_start sink Hsink _ a1 Hn1 Ha1 eq_refl)|
      eapply reads_app; [apply (reads_nodes sink Hsink before _ Hbee (html_parent "html" eq_refl))|
      eapply reads_app; [apply (reads_if sink o2 _ (fun _ => True)); intros _; apply (reads_start sink Hsink _ a2 Hn2 Ha2 eq_refl)|
      eapply reads_app; [apply (reads_nodes sink Hsink head _ Hhe (html_parent "head" eq_refl))|
      eapply reads_app; [apply (reads_if sink e2 _ (fun _ => True)); intros _; apply (reads_end sink _ Hn2)|
      eapply reads_app; [apply (reads_nodes sink Hsink between _ Hbte (html_parent "html" eq_refl))|
      eapply reads_app; [apply (reads_if sink o3 _ (fun _ => True)); intros _; apply (reads_start sink Hsink _ a3 Hn3 Ha3 eq_refl)|
      eapply reads_app; [apply (written_reads sink Hsink _ _ _ _ Hw (html_parent "body" eq_refl) Hbo); eauto|
      eapply reads_app; [apply (reads_if sink e3 _ (fun _ => True)); intros _; apply (reads_end sink _ Hn3)|
      apply (reads_if sink e1 _ (fun _ => True)); intros _; apply (reads_end sink _ Hn1)]]]]]]]]]]]].
    cbn beta. intros ts (t1 & u1 & -> & (comments' & S1 & ->) & t2 & u2 & -> & (doctype' & S2 & ->) & t3 & u3 & -> & -> & t4 & u4 & -> & (before' & S3 & ->) & t5 & u5 & -> & -> &
      t6 & u6 & -> & (head' & S4 & ->) & t7 & u7 & -> & -> & t8 & u8 & -> & (between' & S5 & ->) & t9 & u9 & -> & -> & t10 & u10 & -> & (body' & S6 & B) & t11 & u11 & -> & -> & ->).
    exists comments', doctype', before', head', between', body', t10. repeat (split; [assumption|]). reflexivity. }
  destruct (reads_tokens sink _ _ R) as (ts & (comments' & doctype' & before' & head' & between' & body' & bts & S1 & S2 & S3 & S4 & S5 & S6 & B & ->) & Et).
  assert (a1 = [] -> attr_order a1 = []) as P1 by (intros ->; reflexivity). assert (a2 = [] -> attr_order a2 = []) as P2 by (intros ->; reflexivity). assert (a3 = [] -> attr_order a3 = []) as P3 by (intros ->; reflexivity).
  destruct (omitted_run comments' doctype' before' between' (attr_order a1) (attr_order a2) (attr_order a3) head' body' bts o1 o2 o3 e1 e2 e3) as (s' & Rn & Ed); try assumption.
  - exact (same_all _ same_comment_node _ _ S1 Hco).
  - destruct Hdt as [->|(v & ->)]; [left; inversion S2; reflexivity|]. right. inversion S2 as [|? ? ? ? Sx Sy]; subst. inversion Sx; inversion Sy; subst. eauto.
  - exact (same_all _ same_comment_node _ _ S3 Hbe).
  - exact (same_all _ same_blank _ _ S5 Hbt).
  - now rewrite (same_double _ _ S5).
  - now rewrite (same_double _ _ S4).
  - refine (same_all _ _ _ _ S4 Hhf). intros x x' Hx. apply same_fits, Hx.
  - now rewrite (same_double _ _ S6).
  - refine (same_all _ _ _ _ S6 Hbf). intros x x' Hx. apply same_fits, Hx.
  - intros Eo. destruct (O1 Eo) as [Ea ->]. split; [auto|]. inversion S3; reflexivity.
  - intros Eo. destruct (O2 Eo) as [Ea Hh]. split; [auto|]. eapply same_starting; [exact S4|exact Hh].
  - intros Eo. rewrite (E2 Eo) in S5. inversion S5; reflexivity.
  - intros Eo. destruct (O3 Eo) as [Ea Hh]. split; [auto|]. eapply same_opening; [exact S6|exact Hh].
  - eapply attrs_perm; [apply attrs_perm_order|]; assumption.
  - eapply attrs_perm; [apply attrs_perm_order|]; assumption.
  - eapply attrs_perm; [apply attrs_perm_order|]; assumption.
  - exact (same_all _ same_expressible _ _ S4 Hhe).
  - exact (same_all _ same_expressible _ _ S6 Hbo).
  - exists (document s'). split.
    + eapply parse_text; [exact Hsink|exact Et| |].
      * rewrite root_closing in Rn. repeat (apply Forall_app; split); try apply nodes_named; try apply tok_if_named; try apply stag_named; try apply etag_named; [eapply briefs_named; exact B|].
        repeat constructor. discriminate.
      * rewrite root_closing in Rn. rewrite <- !app_assoc in Rn. rewrite <- !app_assoc. exact Rn.
    + rewrite Ed. apply Forall2_app; [exact S1|]. apply same_top; [exact S2| |now apply attrs_perm_order].
      apply Forall2_app; [exact S3|]. apply Forall2_app; [|apply same_top; [exact S5|exact S6|now apply attrs_perm_order]].
      constructor; [|constructor]. constructor; [now apply attrs_perm_order|exact S4].
Qed.
