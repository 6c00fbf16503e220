(** What is written is read: text, elements and documents. *)
From Coq Require Import String List Arith NArith ZArith Bool Lia.
From Verif.Xml Require Import XmlModel XmlSpec XmlProofs.
Import ListNotations.
Local Open Scope list_scope.
Local Arguments is_name_start : simpl never.
Local Arguments is_name_char : simpl never.
Local Arguments is_space : simpl never.
Local Arguments is_char : simpl never.
Local Arguments text : simpl never.
Local Arguments name_start : simpl never.
Local Arguments name_char : simpl never.

Ltac nonnil := let X := fresh in intros X; vm_compute in X; discriminate X.
Lemma prefix_app (p a r s : str) : length p <= length a -> a ++ r = p ++ s -> exists b, a = p ++ b.
Proof.
  revert a. induction p as [|c p IH]; intros a L E; [now exists a|].
  destruct a as [|d a]; cbn in L; [lia|]. injection E as <- E. destruct (IH a) as [b ->]; auto; [lia|]. now exists b.
Qed.
Lemma until_read stop ok v r : stop <> [] -> ends stop v -> Forall (fun c => ok c = true) v -> until stop ok (v ++ stop ++ r) = Some (v, stop ++ r).
Proof.
  intros NE. induction v as [|c v IH]; intros E F.
  - destruct stop as [|x stop]; [congruence|]. cbn [app until].
    replace (ahead (x :: stop) (x :: stop ++ r)) with true; auto. symmetry. apply ahead_iff. now exists r.
  - inversion F; subst. cbn [app until].
    replace (ahead stop (c :: v ++ stop ++ r)) with false.
    + rewrite H1. rewrite IH; auto. intros a b G. apply (E (c :: a) b). cbn. now f_equal.
    + symmetry. destruct (ahead stop _) eqn:A; auto. apply ahead_iff in A as [s A].
      change (c :: v ++ stop ++ r) with ((c :: v) ++ stop ++ r) in A. rewrite app_assoc in A.
      destruct (prefix_app stop ((c :: v) ++ stop) r s) as [b B]; auto. { rewrite app_length. lia. }
      specialize (E [] b B). subst b. apply (f_equal (@length N)) in B. rewrite !app_length in B. cbn in B. lia.
Qed.
Lemma comment_read v s r : writes_comment v s -> parse_comment (s ++ r) = Good v r.
Proof.
  intros W. inversion W; subst. unfold parse_comment. rewrite <- !app_assoc, expect_app. cbn [bind].
  rewrite until_read; [|nonnil|assumption|eapply Forall_impl; [|exact H]; intros c; apply is_char_iff]. cbn iota. now rewrite expect_app.
Qed.
Lemma lower_xml n : ~ is_xml n -> str_eqb (map lower n) (text "xml") = false.
Proof.
  intros H. apply str_eqb_neq. change (text "xml") with [120%N; 109%N; 108%N]. intros E. apply H.
  destruct n as [|a [|b [|c [|]]]]; try discriminate. injection E as E1 E2 E3. exists a, b, c. split; auto.
  assert (L : forall x y, lower x = y -> (97 <= y <= 122)%N -> x = y \/ x = (y - 32)%N).
  { intros x y. unfold lower. destruct (_ && _) eqn:Q; intros <- R; [|now left]. apply andb_prop in Q as [Q1 Q2]. apply N.leb_le in Q1. apply N.leb_le in Q2. right. lia. }
  pose proof (L a _ E1). pose proof (L b _ E2). pose proof (L c _ E3). lia.
Qed.
Lemma pi_read s r : writes_pi s -> parse_pi (s ++ r) = Good tt r.
Proof.
  intros W. inversion W; subst. unfold parse_pi. rewrite <- !app_assoc, expect_app. cbn [bind].
  rewrite parse_name_app; auto.
  2:{ destruct H1 as [-> | (c & d' & -> & S)]; [reflexivity|]. cbn. now apply space_not_name. }
  cbn [bind]. rewrite lower_xml by auto.
  rewrite until_read; [|nonnil|assumption|eapply Forall_impl; [|exact H2]; intros c; apply is_char_iff]. cbn iota. now rewrite expect_app.
Qed.

(** ** Text *)
Definition markup (e : str) : Prop := (exists x, e = 60%N :: x) /\ skip (text "<![CDATA[") e = None.
Lemma not_cdata_end c s x : (forall r, c :: s <> text "]]>" ++ r) -> ahead (text "]]>") (c :: s ++ 60%N :: x) = false.
Proof.
  intros H. unfold ahead. change (text "]]>") with [93%N; 93%N; 62%N] in *. cbn [skip]. destruct (N.eqb_spec 93 c); auto. subst.
  destruct s as [|d s]; cbn [app]; [reflexivity|]. destruct (N.eqb_spec 93 d); auto. subst.
  destruct s as [|f s]; cbn [app]; [reflexivity|]. destruct (N.eqb_spec 62 f); auto. subst. now destruct (H s).
Qed.
Lemma char_data_run e : markup e -> forall v s, writes_text v s ->
  exists a v' s', v = a ++ v' /\ char_data (s ++ e) = (a, s' ++ e) /\ writes_text v' s' /\ char_data (s' ++ e) = ([], s' ++ e) /\ length s = length a + length s'.
Proof.
  intros [[x ->] M]. induction 1 as [|c v s A B C W IH|c t v s R W IH|d v s D W IH].
  - exists [], [], []. repeat split; auto. constructor.
  - destruct IH as (a & v' & s' & -> & E & W' & E' & L). exists (c :: a), v', s'. repeat split; auto.
    + cbn [app char_data]. apply N.eqb_neq in A. apply N.eqb_neq in B. rewrite A, B. cbn [orb]. rewrite not_cdata_end by auto. now rewrite E.
    + cbn. lia.
  - exists [], (c :: v), (t ++ s). destruct (ref_head c t R) as [t' ->]. repeat split; auto. now apply text_ref.
  - exists [], (d ++ v), (text "<![CDATA[" ++ d ++ text "]]>" ++ s). repeat split; auto. now apply text_cdata.
Qed.
Lemma char_data_split s : forall a b, char_data s = (a, b) -> s = a ++ b.
Proof.
  induction s as [|c s IH]; cbn; intros a b E; [now injection E as <- <-|]. destruct (_ || _); [now injection E as <- <-|].
  destruct (char_data s) as [x y]. injection E as <- <-. cbn. f_equal. auto.
Qed.
Lemma text_loop_read e : markup e -> forall n v s, length s <= n -> writes_text v s -> forall fuel, length s < fuel -> text_loop fuel (s ++ e) = Good v e.
Proof.
  intros M. induction n as [n IHn] using lt_wf_ind. intros v s Ln W fuel L. destruct fuel as [|fuel]; [lia|].
  destruct (char_data_run e M v s W) as (a & v' & s' & -> & E & W' & E' & Len). cbn [text_loop]. unfold text_item.
  destruct a as [|c a].
  - cbn in Len, E. assert (Es : s' ++ e = s ++ e) by (apply char_data_split in E; cbn in E; congruence). apply app_inv_tail in Es. subst s'. rewrite E. cbn [app].
    inversion W' as [|c v s0 A B C W0|c t v s0 R W0|d v s0 D W0]; subst.
    + cbn [app]. destruct M as [[x ->] M]. unfold cd_sect. rewrite M. cbn iota. rewrite reference_bad by discriminate. reflexivity.
    + exfalso. destruct (char_data_run e M _ _ W0) as (a2 & v2 & s2 & _ & E2 & _). destruct M as [[x ->] M].
      cbn [app char_data] in E'. apply N.eqb_neq in A. apply N.eqb_neq in B. rewrite A, B in E'. cbn [orb] in E'.
      rewrite not_cdata_end in E' by auto. rewrite E2 in E'. discriminate.
    + rewrite <- app_assoc. rewrite (reference_read c t (s0 ++ e) R).
      assert (Cd : cd_sect (t ++ s0 ++ e) = ([], None)) by (destruct (ref_head c t R) as [t' ->]; reflexivity). rewrite Cd. cbn [app].
      assert (Lt : 0 < length t) by (destruct (ref_head c t R) as [t' ->]; cbn; lia). rewrite app_length in *.
      rewrite (IHn (length s0)) with (v := v) (s := s0); auto; lia.
    + rewrite <- !app_assoc. unfold cd_sect. rewrite skip_app. rewrite until_read; [|nonnil|assumption|apply Forall_forall; auto].
      cbn iota. rewrite skip_app. rewrite !app_length in *. change (length (text "<![CDATA[")) with 9 in *. change (length (text "]]>")) with 3 in *.
      rewrite (IHn (length s0)) with (v := v) (s := s0); auto; lia.
  - rewrite E. cbn in Len. rewrite (IHn (length s')) with (v := v') (s := s'); auto; cbn [bind]; auto; lia.
Qed.
Definition text_nodes (v : str) : list node := match v with [] => [] | _ => [TEXT v] end.
Lemma text_read e v s : markup e -> writes_text v s -> parse_text (s ++ e) = Good (text_nodes v) e.
Proof.
  intros M W. unfold parse_text. rewrite (text_loop_read e M (length s) v s); auto. rewrite app_length. lia.
Qed.

(** ** Elements *)
Lemma item_head x t r : writes_item x t -> markup (t ++ r).
Proof.
  intros W. inversion W; subst.
  - inversion H; subst. split; [eexists; reflexivity|reflexivity].
  - inversion H; subst. split; [eexists; reflexivity|reflexivity].
  - split; [eexists; reflexivity|]. rewrite <- !app_assoc. destruct (name_head n (s ++ text "/>" ++ r) H) as (c & u & E & NS). rewrite E.
    change (text "<![CDATA[") with ([60%N] ++ 33%N :: text "[CDATA["). change (text "<") with [60%N]. cbn [app skip]. rewrite N.eqb_refl.
    assert (c <> 33%N) by (unfold name_start in NS; lia). destruct (N.eqb_spec 33 c); congruence.
  - split; [eexists; reflexivity|]. rewrite <- !app_assoc. match goal with |- context [name_text n ++ ?z] => destruct (name_head n z H) as (c & u & E & NS) end. rewrite E.
    change (text "<![CDATA[") with ([60%N] ++ 33%N :: text "[CDATA["). change (text "<") with [60%N]. cbn [app skip]. rewrite N.eqb_refl.
    assert (c <> 33%N) by (unfold name_start in NS; lia). destruct (N.eqb_spec 33 c); congruence.
Qed.
Lemma not_element c x s fuel : is_name_start x = false -> parse_element (S fuel) c (60%N :: x :: s) = Bad.
Proof.
  intros H. assert (T : forall stop, parse_tag stop c (60%N :: x :: s) = Bad).
  { intros stop. unfold parse_tag. change (60%N :: x :: s) with (text "<" ++ x :: s). rewrite expect_app. cbn [bind].
    unfold parse_qname, parse_name. now rewrite H. }
  cbn [parse_element]. now rewrite !T.
Qed.
Lemma end_read ns sc c n q b r : agrees ns sc c -> declared sc N_default <> Some [] -> element_name ns sc n q -> valid_qname n -> blanks b ->
  parse_end_tag c q (text "</" ++ name_text n ++ b ++ text ">" ++ r) = Good tt r.
Proof.
  intros A K E V B. unfold parse_end_tag. rewrite expect_app. cbn [bind].
  rewrite parse_qname_app; auto.
  2:{ destruct b as [|x b]; [reflexivity|]. inversion B; subst. cbn. now apply space_not_name. }
  cbn [bind]. rewrite (element_read ns sc c n q) by auto. replace (q_eqb q q) with true by (symmetry; now apply q_eqb_eq).
  rewrite spaces_app by (auto; reflexivity). apply expect_app.
Qed.
Lemma text_of_means ns sc v l b : mean_all ns sc (text_of v ++ l) b -> exists b', b = text_nodes v ++ b' /\ mean_all ns sc l b'.
Proof.
  destruct v as [|c v]; cbn [text_of app text_nodes]; intros H; [eauto|]. inversion H as [|x l' a b0 H1 H2]; subst. inversion H1; subst. exists b0. auto.
Qed.
Lemma text_of_keeps v l : Forall keeps_default (text_of v ++ l) -> Forall keeps_default l.
Proof. intros H. apply Forall_app in H as [_ H]. exact H. Qed.
Lemma keeps_declared (l : list (name * str)) sc : ~ In (N_default, []) l -> declared sc N_default <> Some [] -> declared (l :: sc) N_default <> Some [].
Proof.
  intros NI K. rewrite declared_cons. unfold found. destruct (find (fun a => same_name (fst a) N_default) l) as [[n v]|] eqn:E; cbn [option_map snd]; auto.
  apply find_some in E as [I E]. apply same_name_eq in E. cbn in E. subst n. intros F. injection F as ->. contradiction.
Qed.
Lemma item_len x t : writes_item x t -> 0 < length t.
Proof. intros W. destruct (item_head x t [] W) as [[y E] _]. rewrite app_nil_r in E. subst. cbn. lia. Qed.

Scheme writes_item_mut := Induction for writes_item Sort Prop
  with writes_content_mut := Induction for writes_content Sort Prop.

Definition item_ok (x : src) (t : str) : Prop := forall ns sc c nodes e fuel,
  agrees ns sc c -> declared sc N_default <> Some [] -> keeps_default x -> means ns sc x nodes -> 2 * length t <= fuel ->
  match x with
  | S_ELEMENT _ _ _ => exists q l k, nodes = [ELEMENT q l k] /\ parse_element fuel c (t ++ e) = Good (ELEMENT q l k) e
  | S_COMMENT v => nodes = [COMMENT v] /\ parse_element fuel c (t ++ e) = Bad /\ parse_pi (t ++ e) = Bad /\ parse_comment (t ++ e) = Good v e
  | S_PI => nodes = [] /\ parse_element fuel c (t ++ e) = Bad /\ parse_pi (t ++ e) = Good tt e
  | S_TEXT _ => False
  end.
Definition content_ok (k : list src) (t : str) : Prop := forall ns sc c nodes e fuel,
  agrees ns sc c -> declared sc N_default <> Some [] -> Forall keeps_default k -> mean_all ns sc k nodes -> 2 * length t + 2 <= fuel ->
  exists a s b, parse_text (t ++ text "</" ++ e) = Good a s /\ parse_items fuel c s = Good b (text "</" ++ e) /\ nodes = a ++ b.
Lemma items_end c e fuel : 2 <= fuel -> parse_items fuel c (text "</" ++ e) = Good [] (text "</" ++ e).
Proof.
  intros H. destruct fuel as [|[|fuel]]; [lia|lia|]. cbn [parse_items].
  change (text "</" ++ e) with (60%N :: 47%N :: e). rewrite not_element by reflexivity. reflexivity.
Qed.
Lemma items_ok : forall x t, writes_item x t -> item_ok x t.
Proof.
  apply (writes_item_mut (fun x t _ => item_ok x t) (fun k t _ => content_ok k t)).
  - intros v s W ns sc c nodes e fuel A K KD M L. inversion M; subst. split; auto. pose proof (comment_read v s e W) as R. inversion W; subst.
    rewrite <- !app_assoc in *. rewrite !app_length in L. change (length (text "<!--")) with 4 in L. destruct fuel as [|fuel]; [lia|].
    change (text "<!--") with (60%N :: 33%N :: text "--") in *. cbn [app] in *. rewrite not_element by reflexivity. auto.
  - intros s W ns sc c nodes e fuel A K KD M L. inversion M; subst. split; auto. pose proof (pi_read s e W) as R. inversion W; subst.
    rewrite <- !app_assoc in *. rewrite !app_length in L. change (length (text "<?")) with 2 in L. destruct fuel as [|fuel]; [lia|].
    change (text "<?") with (60%N :: 63%N :: []) in *. cbn [app] in *. rewrite not_element by reflexivity. auto.
  - intros n l s V W ns sc c nodes e fuel A K KD M L. inversion M as [| | |n' l' k' q a cs En Fa ND Mk]; subst. inversion Mk; subst.
    inversion KD; subst. rewrite !app_length in L. change (length (text "<")) with 1 in L. destruct fuel as [|fuel]; [lia|].
    exists q, a, []. split; auto. cbn [parse_element]. rewrite <- !app_assoc.
    rewrite (tag_read ns sc c n l s e (text "/>") q a) by (auto using keeps_declared). reflexivity.
  - intros n l s k t b V W C IH B ns sc c nodes e fuel A K KD M L. inversion M as [| | |n' l' k' q a cs En Fa ND Mk]; subst.
    inversion KD as [| | |n0 l0 k0 NI KK]; subst.
    assert (K2 : declared (l :: sc) N_default <> Some []) by auto using keeps_declared.
    assert (A2 : agrees ns (l :: sc) (fold_left declare l c)) by eauto using agrees_step, distinct_names.
    rewrite !app_length in L. change (length (text "<")) with 1 in L. change (length (text "</")) with 2 in L. destruct fuel as [|fuel]; [lia|].
    destruct (IH ns (l :: sc) (fold_left declare l c) cs (name_text n ++ b ++ text ">" ++ e) fuel A2 K2 KK Mk) as (a1 & s1 & b1 & T1 & T2 & ->); [lia|].
    exists q, a, (a1 ++ b1). split; auto. cbn [parse_element]. rewrite <- !app_assoc.
    rewrite tag_other with (l := l) by auto.
    rewrite (tag_read ns sc c n l s _ (text ">") q a) by auto. cbn [bind]. rewrite T1. cbn [bind]. rewrite T2. cbn [bind].
    rewrite (end_read ns (l :: sc)); auto.
  - intros v s W ns sc c nodes e fuel A K KD M L.
    rewrite <- (app_nil_r (text_of v)) in M. apply text_of_means in M as (b' & -> & M). inversion M; subst.
    exists (text_nodes v), (text "</" ++ e), []. split; [|split; auto].
    + apply text_read; auto. split; [eexists; reflexivity|reflexivity].
    + apply items_end. lia.
  - intros v s i t l r W Wi IHi Wl IHl ns sc c nodes e fuel A K KD M L.
    apply text_of_keeps in KD. inversion KD as [|i0 l0 Ki Kl]; subst.
    apply text_of_means in M as (b' & -> & M). inversion M as [|i1 l1 na nb Mi Ml]; subst.
    pose proof (item_len i t Wi) as Lt. rewrite !app_length in L. destruct fuel as [|fuel]; [lia|].
    destruct (IHl ns sc c nb e fuel A K Kl Ml) as (a1 & s1 & b1 & T1 & T2 & ->); [lia|].
    assert (Li : 2 * length t <= fuel) by lia. specialize (IHi ns sc c na (r ++ text "</" ++ e) fuel A K Ki Mi Li).
    exists (text_nodes v), (t ++ r ++ text "</" ++ e), (na ++ a1 ++ b1).
    split; [|split; auto].
    + rewrite <- !app_assoc. apply text_read; auto. eapply item_head; eauto.
    + cbn [parse_items]. destruct i as [v0|v0| |n0 l0 k0].
      * contradiction.
      * destruct IHi as (-> & -> & -> & ->). cbn [bind or_else]. rewrite T1. cbn [bind]. rewrite T2. reflexivity.
      * destruct IHi as (-> & -> & ->). cbn [bind or_else]. rewrite T1. cbn [bind]. rewrite T2. reflexivity.
      * destruct IHi as (q & l2 & k2 & -> & ->). cbn [bind or_else]. rewrite T1. cbn [bind]. rewrite T2. reflexivity.
Qed.

(** ** The prolog *)
Lemma misc_spaces l s : writes_misc l s -> forall e, stops is_space e -> exists s', spaces (s ++ e) = s' ++ e /\ writes_misc l s' /\ length s' <= length s.
Proof.
  intros W. induction W as [|v s l r C W IH|s l r P W IH|c l r S W IH]; intros e St.
  - exists []. cbn [app]. rewrite spaces_stop by auto. repeat split; auto. constructor.
  - exists (s ++ r). rewrite spaces_stop; [|inversion C; reflexivity]. repeat split; auto. now constructor.
  - exists (s ++ r). rewrite spaces_stop; [|inversion P; reflexivity]. repeat split; auto. now constructor.
  - destruct (IH e St) as (s' & E & W' & L). exists s'. split; [|split; auto; cbn; lia].
    unfold spaces in *. cbn [app take_while]. apply is_space_iff in S. rewrite S. destruct (take_while is_space (r ++ e)). exact E.
Qed.
Lemma misc_read e : misc e = Bad -> forall n l s, length s <= n -> writes_misc l s -> forall fuel, length s < fuel -> miscs fuel (s ++ e) = Good l e.
Proof.
  intros Me.
  assert (St : stops is_space e).
  { destruct e as [|c e]; cbn; auto. destruct (is_space c) eqn:S; auto. exfalso. unfold misc in Me.
    assert (E1 : ahead (text "<!--") (c :: e) = false /\ ahead (text "<?") (c :: e) = false).
    { unfold ahead. change (text "<!--") with (60%N :: text "!--"). change (text "<?") with (60%N :: text "?"). cbn [skip].
      destruct (N.eqb_spec 60 c); [|auto]. subst. discriminate. }
    destruct E1 as [E1 E2]. rewrite E1, E2, S in Me. discriminate. }
  induction n as [n IHn] using lt_wf_ind. intros l s Ln W fuel L. destruct fuel as [|fuel]; [lia|]. cbn [miscs].
  destruct W as [|v s l r C W|s l r P W|c l r S W].
  - cbn [app]. now rewrite Me.
  - rewrite <- app_assoc. assert (M : misc (s ++ r ++ e) = Good [COMMENT v] (r ++ e)).
    { unfold misc. replace (ahead (text "<!--") (s ++ r ++ e)) with true.
      - now rewrite (comment_read v s (r ++ e) C).
      - symmetry. apply ahead_iff. inversion C. eexists. rewrite <- !app_assoc. reflexivity. }
    rewrite M. assert (0 < length s) by (inversion C; apply Nat.lt_0_succ). rewrite app_length in *.
    rewrite (IHn (length r)) with (l := l); auto; lia.
  - rewrite <- app_assoc. assert (M : misc (s ++ r ++ e) = Good [] (r ++ e)).
    { unfold misc. replace (ahead (text "<!--") (s ++ r ++ e)) with false by (inversion P; reflexivity).
      replace (ahead (text "<?") (s ++ r ++ e)) with true.
      - now rewrite (pi_read s (r ++ e) P).
      - symmetry. apply ahead_iff. inversion P. eexists. rewrite <- !app_assoc. reflexivity. }
    rewrite M. assert (0 < length s) by (inversion P; apply Nat.lt_0_succ). rewrite app_length in *.
    rewrite (IHn (length r)) with (l := l); auto; lia.
  - destruct (misc_spaces l r W e St) as (s' & E & W' & L').
    assert (M : misc ((c :: r) ++ e) = Good [] (s' ++ e)).
    { unfold misc. cbn [app].
      assert (E1 : ahead (text "<!--") (c :: r ++ e) = false /\ ahead (text "<?") (c :: r ++ e) = false).
      { unfold ahead. change (text "<!--") with (60%N :: text "!--"). change (text "<?") with (60%N :: text "?"). cbn [skip].
        destruct (N.eqb_spec 60 c); [|auto]. subst. unfold space in S. lia. }
      destruct E1 as [-> ->]. apply is_space_iff in S. rewrite S. f_equal. rewrite <- E. unfold spaces. cbn [take_while]. rewrite S.
      now destruct (take_while is_space (r ++ e)). }
    rewrite M. cbn [length] in *. rewrite (IHn (length s')) with (l := l); auto; lia.
Qed.
Lemma miscs_read e l s : misc e = Bad -> writes_misc l s -> miscs (S (length (s ++ e))) (s ++ e) = Good l e.
Proof. intros M W. apply (misc_read e M (length s)); auto. rewrite app_length. lia. Qed.
Lemma misc_blocked c x r : c = 60%N -> x <> 33%N -> x <> 63%N -> misc (c :: x :: r) = Bad.
Proof.
  intros -> A B. unfold misc, ahead. change (text "<!--") with (60%N :: 33%N :: text "--"). change (text "<?") with [60%N; 63%N]. cbn [skip].
  change (60 =? 60)%N with true. cbn iota. destruct (N.eqb_spec 33 x); [congruence|]. destruct (N.eqb_spec 63 x); [congruence|]. reflexivity.
Qed.
Lemma element_head x t r q l k ns sc : writes_item x t -> means ns sc x [ELEMENT q l k] -> exists c u, t ++ r = 60%N :: c :: u /\ name_start c /\ exists n l k, x = S_ELEMENT n l k.
Proof.
  intros W M. inversion W; subst; inversion M; subst; rewrite <- !app_assoc;
  match goal with H : valid_qname ?n |- context [name_text ?n ++ ?z] => destruct (name_head n z H) as (c & u & E & NS); exists c, u; rewrite E; repeat split; eauto end.
Qed.
Lemma eq_read e r : eq_sign e -> stops is_space r -> exists e', e ++ r = e' /\ forall z, z = e' -> expect (text "=") (spaces z) = Good tt (skipn (S (length (fst (take_while is_space e)))) e') /\ spaces (skipn (S (length (fst (take_while is_space e)))) e') = r.
Proof.
  intros (a & b & A & B & ->) St. eexists. split; [reflexivity|]. intros z ->.
  assert (FA : Forall (fun c => is_space c = true) a) by (eapply Forall_impl; [|exact A]; intros c; apply is_space_iff).
  assert (T : take_while is_space (a ++ text "=" ++ b) = (a, text "=" ++ b)) by (apply take_while_app; auto; reflexivity).
  rewrite T. cbn [fst]. rewrite <- !app_assoc.
  assert (SK : skipn (S (length a)) (a ++ text "=" ++ b ++ r) = b ++ r).
  { change (text "=" ++ b ++ r) with ([61%N] ++ b ++ r). rewrite app_assoc. replace (S (length a)) with (length (a ++ [61%N])) by (rewrite app_length; cbn; lia).
    rewrite skipn_app, Nat.sub_diag, skipn_all. reflexivity. }
  rewrite SK. split.
  - rewrite spaces_app by (auto; reflexivity). apply expect_app.
  - now apply spaces_app.
Qed.
Lemma pseudo_read n v s (value : str -> str * str) r : writes_pseudo n v s -> v <> [] -> (forall q z, q = 34%N \/ q = 39%N -> value (v ++ q :: z) = (v, q :: z)) ->
  (match text n with c :: _ => is_space c = false | [] => False end) -> decl_attr (text n) value (s ++ r) = Good v r.
Proof.
  intros W NE Val Hn. inversion W as [b e q B NB E Q]; subst. unfold decl_attr. rewrite <- !app_assoc.
  rewrite spaces_app; auto. 2:{ destruct (text n); cbn in *; auto. contradiction. }
  rewrite expect_app. cbn [bind].
  destruct (eq_read e ((q :: v ++ [q]) ++ r) E) as (e' & E1 & E2). { destruct Q as [-> | ->]; reflexivity. }
  destruct (E2 _ E1) as [X Y]. rewrite X. cbn [bind]. rewrite Y. cbn [app].
  replace (N.eqb q 34 || N.eqb q 39) with true by (destruct Q as [-> | ->]; reflexivity).
  rewrite <- app_assoc. cbn [app]. rewrite Val by auto. destruct v as [|c v]; [congruence|].
  change (q :: r) with ([q] ++ r). now rewrite expect_app.
Qed.
Lemma pseudo_other n m v s value r : writes_pseudo m v s -> (forall z, skip (text n) (text m ++ z) = None) -> (match text m with c :: _ => is_space c = false | [] => False end) ->
  decl_attr (text n) value (s ++ r) = Bad.
Proof.
  intros W S Hn. inversion W as [b e q B NB E Q]; subst. unfold decl_attr. rewrite <- !app_assoc.
  rewrite spaces_app; auto. 2:{ destruct (text m); cbn in *; auto. contradiction. }
  unfold expect. now rewrite S.
Qed.
Lemma decl_end n b value r : blanks b -> skip (text n) (text "?>" ++ r) = None -> decl_attr (text n) value (b ++ text "?>" ++ r) = Bad.
Proof. intros B S. unfold decl_attr. rewrite spaces_app by (auto; reflexivity). unfold expect. now rewrite S. Qed.
Lemma digit_iff c : is_digit c = true <-> (48 <= c <= 57)%N.
Proof. unfold is_digit. rewrite andb_true_iff, !N.leb_le. tauto. Qed.
Lemma alpha_iff c : is_alpha c = true <-> letter c.
Proof. unfold is_alpha, letter. rewrite orb_true_iff, !andb_true_iff, !N.leb_le. tauto. Qed.
Lemma version_read v q z : version_number v -> q = 34%N \/ q = 39%N -> re_version (v ++ q :: z) = (v, q :: z).
Proof.
  intros (d & -> & NE & F) Q. unfold re_version. rewrite <- app_assoc, skip_app. rewrite take_while_app.
  - destruct d; [congruence|]. reflexivity.
  - eapply Forall_impl; [|exact F]. intros c. apply digit_iff.
  - destruct Q as [-> | ->]; reflexivity.
Qed.
Lemma encoding_read v q z : encoding_name v -> q = 34%N \/ q = 39%N -> re_encoding (v ++ q :: z) = (v, q :: z).
Proof.
  destruct v as [|c r]; [intros []|]. intros [A F] Q. cbn [app re_encoding]. apply alpha_iff in A. rewrite A. rewrite take_while_app; auto.
  - eapply Forall_impl; [|exact F]. intros x H; cbn beta in H |- *. rewrite !orb_true_iff, !N.eqb_eq, digit_iff, alpha_iff. tauto.
  - destruct Q as [-> | ->]; reflexivity.
Qed.
Lemma standalone_read v q z : v = text "yes" \/ v = text "no" -> q = 34%N \/ q = 39%N -> re_standalone (v ++ q :: z) = (v, q :: z).
Proof. intros [-> | ->] Q; reflexivity. Qed.
Lemma decl_read d s r : writes_decl d s -> xml_decl (s ++ r) = Good d r.
Proof.
  intros W. inversion W as [v e a s1 t u b V W1 We Wa B]; subst. unfold xml_decl. rewrite <- !app_assoc. rewrite expect_app. cbn [bind].
  rewrite (pseudo_read "version" v s1); [|exact W1| | |reflexivity].
  2:{ destruct V as (dd & -> & _). nonnil. }
  2:{ intros q z Q. now apply version_read. }
  cbn [bind].
  assert (SA : optional (decl_attr (text "standalone") re_standalone (u ++ b ++ text "?>" ++ r)) (u ++ b ++ text "?>" ++ r) = (a, b ++ text "?>" ++ r)).
  { destruct Wa as [[-> ->]|[Va Wa]].
    - cbn [app]. rewrite decl_end by (auto || reflexivity). reflexivity.
    - rewrite (pseudo_read "standalone" a u); [reflexivity|exact Wa| | |reflexivity].
      + destruct Va as [-> | ->]; nonnil.
      + intros q z Q. now apply standalone_read. }
  assert (EN : optional (decl_attr (text "encoding") re_encoding (t ++ u ++ b ++ text "?>" ++ r)) (t ++ u ++ b ++ text "?>" ++ r) = (e, u ++ b ++ text "?>" ++ r)).
  { destruct We as [[-> ->]|[Ve We]].
    - cbn [app]. destruct Wa as [[-> ->]|[Va Wa]].
      + cbn [app]. rewrite decl_end by (auto || reflexivity). reflexivity.
      + rewrite (pseudo_other "encoding" "standalone" a u) by (auto || reflexivity). reflexivity.
    - rewrite (pseudo_read "encoding" e t); [reflexivity|exact We| | |reflexivity].
      + destruct e; [contradiction|discriminate].
      + intros q z Q. now apply encoding_read. }
  rewrite EN, SA. rewrite spaces_app by (auto; reflexivity). rewrite expect_app. reflexivity.
Qed.
Lemma literal_value q v : ~ In q v -> ~ In 38%N v -> q <> 38%N -> forall fuel r, length v < fuel -> value_loop fuel q (v ++ q :: r) = Good v (q :: r).
Proof.
  intros A B Q. induction v as [|c v IH]; intros fuel r L; (destruct fuel as [|fuel]; [cbn in L; lia|]).
  - cbn. now rewrite N.eqb_refl.
  - cbn [app value_loop]. destruct (N.eqb_spec c q); [subst; now destruct A; left|]. rewrite reference_bad by (intros ->; apply B; now left).
    rewrite IH; auto; [intros I; apply A; now right|intros I; apply B; now right|cbn in L; lia].
Qed.
Lemma literal_read v s r : writes_literal v s -> att_value (s ++ r) = Good v r /\ stops is_space (s ++ r).
Proof.
  intros W. inversion W as [v0 q Q A B]; subst. split; [|destruct Q as [-> | ->]; reflexivity]. cbn [app att_value]. rewrite <- app_assoc. cbn [app].
  replace (N.eqb q 34 || N.eqb q 39) with true by (destruct Q as [-> | ->]; reflexivity).
  rewrite literal_value; auto.
  - cbn [bind]. change (q :: r) with ([q] ++ r). now rewrite expect_app.
  - destruct Q as [-> | ->]; discriminate.
  - rewrite app_length. cbn. lia.
Qed.
Lemma doctype_read x s r : writes_doctype x s -> parse_doctype (s ++ r) = Good x r.
Proof.
  intros W. inversion W as [b n p v s1 c B NB V E C]; subst. unfold parse_doctype. rewrite <- !app_assoc, expect_app. cbn [bind].
  assert (Hn : stops is_space (n ++ s1 ++ c ++ text ">" ++ r)).
  { destruct n as [|h n]; [contradiction|]. destruct V as [V _]. cbn. now apply name_not_space. }
  rewrite spaces_app by auto.
  assert (Ex : stops is_name_char (s1 ++ c ++ text ">" ++ r) /\ exists o, external_id (spaces (s1 ++ c ++ text ">" ++ r)) = ((p, v), o) /\
    spaces (match o with Some s => s | None => spaces (s1 ++ c ++ text ">" ++ r) end) = text ">" ++ r).
  { inversion E as [|b1 c1 v1 s2 B1 NB1 C1 NC1 L1|b1 c1 d1 p1 v1 s2 t2 B1 NB1 C1 NC1 D1 ND1 L1 L2]; subst.
    - cbn [app]. split. { destruct c as [|h c]; [reflexivity|]. inversion C; subst. cbn. now apply space_not_name. }
      rewrite spaces_app by (auto; reflexivity). exists None. split; reflexivity.
    - split. { destruct b1 as [|h b1]; [congruence|]. inversion B1; subst. cbn. now apply space_not_name. }
      rewrite <- !app_assoc. rewrite spaces_app by (auto; reflexivity). unfold external_id. rewrite skip_app.
      destruct (literal_read v s2 (c ++ text ">" ++ r) L1) as [X Y]. rewrite spaces_app by auto. rewrite X. eexists. split; [reflexivity|].
      apply spaces_app; auto. reflexivity.
    - split. { destruct b1 as [|h b1]; [congruence|]. inversion B1; subst. cbn. now apply space_not_name. }
      rewrite <- !app_assoc. rewrite spaces_app by (auto; reflexivity). unfold external_id.
      change (skip (text "SYSTEM") (text "PUBLIC" ++ c1 ++ s2 ++ d1 ++ t2 ++ c ++ text ">" ++ r)) with (@None str). cbn iota. rewrite skip_app.
      destruct (literal_read p s2 (d1 ++ t2 ++ c ++ text ">" ++ r) L1) as [X Y]. rewrite spaces_app by auto. rewrite X.
      destruct (literal_read v t2 (c ++ text ">" ++ r) L2) as [X2 Y2]. rewrite spaces_app by auto. rewrite X2. eexists. split; [reflexivity|].
      apply spaces_app; auto. reflexivity. }
  destruct Ex as (Sn & o & Eo & So). rewrite parse_name_app by auto. cbn [bind]. rewrite Eo, So. now rewrite expect_app.
Qed.
Theorem document_read ns x doc s : writes_document ns x doc s -> keeps_default x -> (d_version doc = [] -> forall r, s <> text "<?xml" ++ r) -> parse ns s = Good doc [].
Proof.
  intros W K NX. inversion W as [v e a m s0 x0 t n k u Wp Wi M (q & l & c & ->) Wm]; subst. cbn [d_version] in NX.
  destruct (element_head x t u q l c ns [] Wi M) as (h & z & Eh & NS & n0 & l0 & k0 & ->).
  assert (BL : misc (t ++ u) = Bad).
  { rewrite Eh. unfold name_start in NS. apply misc_blocked; auto; lia. }
  assert (ND : parse_doctype (t ++ u) = Bad).
  { rewrite Eh. unfold parse_doctype, expect. change (text "<!DOCTYPE") with (60%N :: 33%N :: text "DOCTYPE"). cbn [skip]. rewrite N.eqb_refl.
    assert (h <> 33%N) by (unfold name_start in NS; lia). destruct (N.eqb_spec 33 h); [congruence|]. reflexivity. }
  assert (D : forall d sd rest, writes_decl d sd \/ d = ([], [], []) /\ sd = [] -> (d = ([], [], []) -> ahead (text "<?xml") (sd ++ rest) = false) ->
    (if ahead (text "<?xml") (sd ++ rest) then xml_decl (sd ++ rest) else Good ([], [], []) (sd ++ rest)) = Good d rest).
  { intros d sd rest [Wd|[-> ->]] Hd.
    - replace (ahead (text "<?xml") (sd ++ rest)) with true; [now apply decl_read|]. symmetry. apply ahead_iff. inversion Wd. eexists. rewrite <- !app_assoc. reflexivity.
    - rewrite Hd; auto. }
  assert (PR : prolog (s0 ++ t ++ u) = Good ((v, e, a), m) (t ++ u)).
  { unfold prolog. inversion Wp as [d1 s1 m1 t1 Wd W1|d1 s1 m1 t1 x1 u1 k1 w1 Wd W1 W2 W3]; subst.
    - rewrite <- !app_assoc in *. rewrite (D (v, e, a) s1 (t1 ++ t ++ u)); auto.
      2:{ intros Ed. injection Ed as -> -> ->. destruct (ahead _ _) eqn:AH; auto. apply ahead_iff in AH as [y AH]. now destruct (NX eq_refl y). }
      cbn [bind]. rewrite miscs_read with (l := m) by auto. cbn [bind]. now rewrite ND.
    - rewrite <- !app_assoc in *. rewrite (D (v, e, a) s1 (t1 ++ u1 ++ w1 ++ t ++ u)); auto.
      2:{ intros Ed. injection Ed as -> -> ->. destruct (ahead _ _) eqn:AH; auto. apply ahead_iff in AH as [y AH]. now destruct (NX eq_refl y). }
      cbn [bind]. rewrite miscs_read with (l := m1); auto. 2:{ inversion W2; reflexivity. }
      cbn [bind]. rewrite (doctype_read x1 u1) by auto. rewrite miscs_read with (l := k1) by auto. reflexivity. }
  unfold parse. rewrite PR. cbn [bind].
  assert (K0 : declared [] N_default <> Some []) by discriminate.
  assert (LT : 2 * length t <= 2 * length (t ++ u) + 2) by (rewrite app_length; lia).
  destruct (items_ok _ t Wi ns [] (make_context ns) [ELEMENT q l c] u (2 * length (t ++ u) + 2) (agrees_start ns) K0 K M LT) as (q1 & l1 & c1 & Eq & PE).
  rewrite PE. injection Eq as <- <- <-. cbn [bind].
  rewrite <- (app_nil_r u). rewrite miscs_read with (l := k) by auto. reflexivity.
Qed.
