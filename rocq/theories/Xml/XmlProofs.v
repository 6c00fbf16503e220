(** What is written is read. *)
From Coq Require Import String List Arith NArith ZArith Bool Lia.
From Verif.Xml Require Import XmlModel XmlSpec.
Import ListNotations.
Local Open Scope list_scope.

(** ** Characters *)
Local Arguments is_name_start : simpl never.
Local Arguments is_name_char : simpl never.
Local Arguments is_space : simpl never.
Local Arguments is_char : simpl never.
Local Arguments text : simpl never.
Local Arguments name_start : simpl never.
Local Arguments name_char : simpl never.
Lemma str_eqb_eq a : forall b, str_eqb a b = true <-> a = b.
Proof.
  induction a as [|x a IH]; intros [|y b]; cbn [str_eqb]; split; intros H; try discriminate; auto.
  - apply andb_prop in H as [E H]. apply N.eqb_eq in E. apply IH in H. congruence.
  - injection H as -> ->. rewrite N.eqb_refl. now apply IH.
Qed.
Lemma str_eqb_refl a : str_eqb a a = true. Proof. now apply str_eqb_eq. Qed.
Lemma str_eqb_neq a b : str_eqb a b = false <-> a <> b.
Proof. rewrite <- str_eqb_eq. destruct (str_eqb a b); split; congruence. Qed.
Lemma opt_eqb_eq a b : opt_eqb a b = true <-> a = b.
Proof. destruct a, b; cbn; try (split; congruence). rewrite str_eqb_eq. split; congruence. Qed.
Lemma q_eqb_eq a b : q_eqb a b = true <-> a = b.
Proof. destruct a, b; unfold q_eqb; cbn. rewrite andb_true_iff, opt_eqb_eq, str_eqb_eq. split; [intros [-> ->]; auto | intros E; now injection E]. Qed.
Lemma same_name_eq a b : same_name a b = true <-> a = b.
Proof. destruct a, b; unfold same_name; cbn. rewrite andb_true_iff, opt_eqb_eq, str_eqb_eq. split; [intros [-> ->]; auto | intros E; now injection E]. Qed.

Lemma in_ranges_iff l c : in_ranges l c = true <-> exists r, In r l /\ (fst r <= c <= snd r)%N.
Proof.
  unfold in_ranges. rewrite existsb_exists. split; intros (r & I & H); exists r; (split; [exact I|]).
  - apply andb_prop in H as [A B]. apply N.leb_le in A. apply N.leb_le in B. lia.
  - apply andb_true_intro. split; apply N.leb_le; lia.
Qed.
Ltac ranges := unfold in_ranges; cbn [existsb fst snd]; rewrite ?orb_true_iff, ?orb_false_iff, ?andb_true_iff, ?N.leb_le.
Lemma is_name_start_iff c : is_name_start c = true <-> name_start c.
Proof. unfold is_name_start, name_start. ranges. lia. Qed.
Lemma is_name_char_iff c : is_name_char c = true <-> name_char c.
Proof. unfold is_name_char, name_char. rewrite orb_true_iff, is_name_start_iff. unfold name_start; ranges. lia. Qed.
Lemma is_char_iff c : is_char c = true <-> xml_char c.
Proof. unfold is_char, xml_char. ranges. lia. Qed.
Lemma is_space_iff c : is_space c = true <-> space c.
Proof. unfold is_space, space. rewrite !orb_true_iff, !N.eqb_eq. lia. Qed.
Lemma space_not_name c : space c -> is_name_char c = false.
Proof. intros H. destruct (is_name_char c) eqn:E; auto. apply is_name_char_iff in E. unfold space, name_char, name_start in *. lia. Qed.
Lemma name_not_space c : name_start c -> is_space c = false.
Proof. intros H. destruct (is_space c) eqn:E; auto. apply is_space_iff in E. unfold space, name_char, name_start in *. lia. Qed.

(** ** Scanning *)
Lemma skip_app p s : skip p (p ++ s) = Some s.
Proof. induction p; cbn; auto. now rewrite N.eqb_refl. Qed.
Lemma skip_some p : forall s r, skip p s = Some r -> s = p ++ r.
Proof.
  induction p as [|c p IH]; intros [|d s] r; cbn; try congruence.
  destruct (N.eqb_spec c d); try discriminate. intros H. apply IH in H. congruence.
Qed.
Lemma ahead_iff p s : ahead p s = true <-> exists r, s = p ++ r.
Proof.
  unfold ahead. destruct (skip p s) eqn:E; split; intros H; try discriminate; auto.
  - apply skip_some in E. eauto.
  - destruct H as [r ->]. now rewrite skip_app in E.
Qed.
Lemma expect_app p s : expect p (p ++ s) = Good tt s.
Proof. unfold expect. now rewrite skip_app. Qed.
Definition stops (f : N -> bool) (s : str) : Prop := match s with c :: _ => f c = false | [] => True end.
Lemma take_while_app f a s : Forall (fun c => f c = true) a -> stops f s -> take_while f (a ++ s) = (a, s).
Proof.
  intros F S. induction F; cbn.
  - destruct s; cbn in *; auto. now rewrite S.
  - now rewrite H, IHF.
Qed.
Lemma spaces_app b s : blanks b -> stops is_space s -> spaces (b ++ s) = s.
Proof.
  intros B S. unfold spaces. rewrite take_while_app; auto.
  eapply Forall_impl; [|exact B]. intros c. apply is_space_iff.
Qed.
Lemma spaces_stop s : stops is_space s -> spaces s = s.
Proof. intros S. exact (spaces_app [] s (Forall_nil _) S). Qed.
Lemma parse_name_app n s : valid_name n -> stops is_name_char s -> parse_name (n ++ s) = Good n s.
Proof.
  destruct n as [|c r]; cbn; [tauto|]. intros [A B] S. apply is_name_start_iff in A. rewrite A.
  rewrite take_while_app; auto. eapply Forall_impl; [|exact B]. intros x. apply is_name_char_iff.
Qed.
Lemma colons_none s : ~ In 58%N s -> forall i, colons i s = [].
Proof.
  induction s as [|c s IH]; intros H i; cbn; auto. destruct (N.eqb_spec c 58).
  - subst. now destruct H; left.
  - apply IH. intros I. apply H. now right.
Qed.
Lemma colons_one p l : ~ In 58%N p -> ~ In 58%N l -> forall i, colons i (p ++ 58%N :: l) = [i + length p].
Proof.
  induction p as [|c p IH]; intros P L i; cbn.
  - rewrite (colons_none l) by auto. f_equal. lia.
  - destruct (N.eqb_spec c 58).
    + subst. now destruct P; left.
    + rewrite IH; auto; [f_equal; lia|]. intros I. apply P. now right.
Qed.
Lemma split_name_text n : valid_qname n -> split_name (name_text n) = Some n.
Proof.
  intros [L P]. destruct n as [[p|] l]; unfold split_name, name_text; cbn [n_prefix n_local] in *.
  - destruct P as [P P'], L as [L L']. rewrite colons_one by auto. rewrite Nat.add_0_l.
    assert (E1 : Nat.eqb (length p) 0 = false) by (destruct p; cbn in *; [tauto|reflexivity]).
    assert (E2 : Nat.eqb (S (length p)) (length (p ++ 58%N :: l)) = false).
    { apply Nat.eqb_neq. rewrite app_length. cbn. destruct l; cbn in *; [tauto|lia]. }
    rewrite E1, E2. cbn [orb]. f_equal. f_equal.
    + f_equal. rewrite firstn_app, Nat.sub_diag, firstn_all. cbn. apply app_nil_r.
    + replace (S (length p)) with (length (p ++ [58%N])) by (rewrite app_length; cbn; lia).
      change (p ++ 58%N :: l) with (p ++ [58%N] ++ l). rewrite app_assoc, skipn_app, Nat.sub_diag, skipn_all. reflexivity.
  - destruct L as [L L']. now rewrite colons_none.
Qed.
Lemma name_text_valid n : valid_qname n -> valid_name (name_text n).
Proof.
  intros [[L _] P]. destruct n as [[p|] l]; unfold name_text; cbn in *; auto. destruct P as [P _].
  destruct p as [|c p]; cbn in *; [tauto|]. destruct P as [A B]. split; auto. apply Forall_app. split; auto.
  constructor; [now left; left|]. destruct l as [|d l]; [constructor|]. destruct L as [L1 L2]. constructor; auto. now left.
Qed.
Lemma parse_qname_app n s : valid_qname n -> stops is_name_char s -> parse_qname (name_text n ++ s) = Good n s.
Proof.
  intros V S. unfold parse_qname. rewrite parse_name_app; auto using name_text_valid. cbn [bind]. now rewrite split_name_text.
Qed.

(** ** References *)
Lemma digit_read base d c : (base = 10 \/ base = 16)%N -> digit_char base d c -> digit base c = Some d.
Proof.
  intros B H. unfold digit. inversion H; subst.
  - replace ((48 <=? 48 + d)%N && (48 + d <=? 57)%N) with true by (symmetry; apply andb_true_intro; split; apply N.leb_le; lia).
    replace (48 + d - 48)%N with d by lia. apply N.ltb_lt in H1. now rewrite H1.
  - replace ((48 <=? 55 + d)%N && (55 + d <=? 57)%N) with false by (symmetry; apply andb_false_intro2; apply N.leb_gt; lia).
    replace ((65 <=? 55 + d)%N && (55 + d <=? 70)%N) with true by (symmetry; apply andb_true_intro; split; apply N.leb_le; lia).
    replace (55 + d - 55)%N with d by lia. apply N.ltb_lt in H1. now rewrite H1.
  - replace ((48 <=? 87 + d)%N && (87 + d <=? 57)%N) with false by (symmetry; apply andb_false_intro2; apply N.leb_gt; lia).
    replace ((65 <=? 87 + d)%N && (87 + d <=? 70)%N) with false by (symmetry; apply andb_false_intro2; apply N.leb_gt; lia).
    replace ((97 <=? 87 + d)%N && (87 + d <=? 102)%N) with true by (symmetry; apply andb_true_intro; split; apply N.leb_le; lia).
    replace (87 + d - 87)%N with d by lia. apply N.ltb_lt in H1. now rewrite H1.
Qed.
Lemma digits_read base ds s r : (base = 10 \/ base = 16)%N -> Forall2 (digit_char base) ds s -> (match r with c :: _ => digit base c = None | [] => True end) ->
  forall acc, digits base acc (s ++ r) = ((acc * base ^ N.of_nat (length ds) + number base ds)%N, r).
Proof.
  intros B F R. induction F as [|d c ds s H F IH]; intros acc; cbn [app digits length number].
  - destruct r as [|x r]; cbn [digits]; [|rewrite R]; f_equal; cbn; lia.
  - rewrite (digit_read base d c) by auto. rewrite IH. f_equal. rewrite Nat2N.inj_succ, N.pow_succ_r'. lia.
Qed.
Lemma atoi_read base ds s r : (base = 10 \/ base = 16)%N -> Forall2 (digit_char base) ds s -> s <> [] -> (match r with c :: _ => digit base c = None | [] => True end) ->
  atoi base (s ++ r) = Some (Z.of_N (number base ds), r).
Proof.
  intros B F NE R. pose proof (digits_read base ds s r B F R 0%N) as D. destruct F as [|d c ds s H F]; [congruence|]. clear NE.
  pose proof (digit_read base d c B H) as E.
  assert (A : natural base ((c :: s) ++ r) = Some (number base (d :: ds), r)).
  { cbn [app natural]. rewrite E. cbn [app] in D. rewrite D. f_equal. }
  cbn [app] in *. unfold atoi.
  assert (C : (48 <= c)%N) by (inversion H; lia).
  destruct c as [|p]; [lia|].
  do 6 (try (destruct p as [p|p|])); try lia; now rewrite A.
Qed.
Lemma to_rune_N c : (c < 2 ^ 32)%N -> to_rune (Z.of_N c) = c.
Proof. intros H. unfold to_rune. change (2 ^ 32)%N with 4294967296%N in H. rewrite Z.mod_small by lia. apply N2Z.id. Qed.
Lemma reference_read c t r : writes_ref c t -> reference (t ++ r) = Good c r.
Proof.
  intros H. inversion H; subst; unfold reference.
  - replace (char_ref _) with (Good (number 10 ds) r); auto. unfold char_ref. rewrite <- !app_assoc, skip_app.
    replace (skip (text "x") (s ++ text ";" ++ r)) with (@None str).
    2:{ destruct H0 as [|d c ds s D F]; [congruence|]. cbn [app]. change (text "x") with [120%N]. cbn [skip].
        destruct (N.eqb_spec 120 c); auto. inversion D; lia. }
    rewrite (atoi_read 10 ds s (text ";" ++ r)) by (auto || reflexivity). rewrite expect_app. cbn [bind]. now rewrite to_rune_N.
  - replace (char_ref _) with (Good (number 16 ds) r); auto. unfold char_ref. change (text "&#x") with (text "&#" ++ text "x").
    rewrite <- !app_assoc, skip_app, skip_app.
    rewrite (atoi_read 16 ds s (text ";" ++ r)) by (auto || reflexivity). rewrite expect_app. cbn [bind]. now rewrite to_rune_N.
  - assert (B : char_ref ((text "&" ++ text n ++ text ";") ++ r) = Bad /\ valid_name (text n) /\ entity (text n) = Some c).
    { assert (VN : forall x, match x with y :: z => is_name_start y && forallb is_name_char z | [] => false end = true -> valid_name x).
      { intros [|y z] Hx; [discriminate|]. apply andb_prop in Hx as [H1 H2]. split; [now apply is_name_start_iff|].
        apply Forall_forall. intros w I. apply is_name_char_iff. rewrite forallb_forall in H2. auto. }
      cbn [In entities] in H0. destruct H0 as [H0|[H0|[H0|[H0|[H0|[]]]]]]; injection H0 as <- <-; (split; [reflexivity|]); (split; [|reflexivity]);
        apply VN; reflexivity. }
    destruct B as (B & V & E). rewrite B. cbn [or_else]. unfold entity_ref. rewrite <- !app_assoc, expect_app. cbn [bind].
    rewrite parse_name_app by (auto || reflexivity). cbn [bind]. rewrite expect_app. cbn [bind]. now rewrite E.
Qed.
Lemma reference_bad c s : c <> 38%N -> reference (c :: s) = Bad.
Proof.
  intros H. unfold reference, char_ref, entity_ref, expect. change (text "&#") with [38%N; 35%N]. change (text "&") with [38%N]. cbn [skip].
  destruct (N.eqb_spec 38 c); [congruence|]. reflexivity.
Qed.

(** ** Attributes *)
Lemma ref_head c t : writes_ref c t -> exists t', t = 38%N :: t'.
Proof. intros H. inversion H; eexists; reflexivity. Qed.
Lemma value_read q v s r : q <> 38%N -> writes_value q v s -> forall fuel, length s < fuel -> value_loop fuel q (s ++ q :: r) = Good v (q :: r).
Proof.
  intros Q W. induction W as [|c v s A B C W IH|c t v s R W IH]; intros fuel L; (destruct fuel as [|fuel]; [cbn in L; lia|]).
  - cbn. now rewrite N.eqb_refl.
  - cbn [app value_loop]. apply N.eqb_neq in A. rewrite A. rewrite reference_bad by auto. rewrite IH by (cbn in L; lia). reflexivity.
  - pose proof (reference_read c t (s ++ q :: r) R) as E. destruct (ref_head c t R) as [t' ->].
    rewrite <- app_assoc. cbn [app] in *. cbn [value_loop]. apply not_eq_sym, N.eqb_neq in Q. rewrite Q, E. rewrite IH; auto.
    cbn in L. rewrite app_length in L. lia.
Qed.
Lemma att_value_read q v s r : q = 34%N \/ q = 39%N -> writes_value q v s -> att_value (q :: s ++ q :: r) = Good v r.
Proof.
  intros Q W. unfold att_value. replace (N.eqb q 34 || N.eqb q 39) with true by (destruct Q as [-> | ->]; reflexivity).
  rewrite (value_read q v s r); auto.
  - cbn [bind]. change (q :: r) with ([q] ++ r). now rewrite expect_app.
  - destruct Q as [-> | ->]; discriminate.
  - rewrite app_length. lia.
Qed.
Lemma attr_read a s r : writes_attr a s -> parse_attr (s ++ r) = Good a r.
Proof.
  intros W. inversion W; subst. unfold parse_attr. rewrite <- !app_assoc. rewrite parse_qname_app by (auto || reflexivity). cbn [bind].
  rewrite expect_app. cbn [bind]. cbn [app]. rewrite <- app_assoc. cbn [app]. now rewrite (att_value_read q v).
Qed.
Lemma name_head n s : valid_qname n -> exists c r, name_text n ++ s = c :: r /\ name_start c.
Proof. intros V. apply name_text_valid in V. destruct (name_text n) as [|c r]; cbn in *; [tauto|]. destruct V. eauto. Qed.
Lemma attr_head a s r : writes_attr a s -> exists c t, s ++ r = c :: t /\ name_start c.
Proof. intros W. inversion W; subst. rewrite <- app_assoc. now apply name_head. Qed.
Lemma text_app_len a b : length (a ++ b : str) = length a + length b. Proof. apply app_length. Qed.
Lemma attr_len a s : writes_attr a s -> 0 < length s.
Proof. intros W. destruct (attr_head a s [] W) as (c & t & E & _). rewrite app_nil_r in E. subst. cbn. lia. Qed.

(** After the attributes comes the end of a tag. *)
Definition tag_end (e : str) : Prop := exists r, e = text ">" ++ r \/ e = text "/>" ++ r.
Lemma tag_end_head e : tag_end e -> exists c r, e = c :: r /\ is_space c = false /\ is_name_char c = false.
Proof. intros (r & [-> | ->]); cbn; eexists; eexists; (split; [reflexivity|]); split; reflexivity. Qed.
Lemma name_start_not_end c t : name_start c -> ahead (text ">") (c :: t) = false /\ ahead (text "/>") (c :: t) = false.
Proof.
  intros H. assert (c <> 62 /\ c <> 47)%N as [A B] by (unfold name_start in H; lia).
  unfold ahead. change (text ">") with [62%N]. change (text "/>") with [47%N; 62%N]. cbn [skip].
  destruct (N.eqb_spec 62 c); [congruence|]. destruct (N.eqb_spec 47 c); [congruence|]. auto.
Qed.
Lemma context_read l s e : writes_attrs l s -> tag_end e -> forall fuel c, length (s ++ e) < fuel ->
  exists s', context_loop fuel c (spaces (s ++ e)) = Good (fold_left declare l c) s'.
Proof.
  intros W E. induction W as [b B|a l b s r B NB A W IH]; intros fuel c L; (destruct fuel as [|fuel]; [lia|]).
  - destruct (tag_end_head e E) as (x & y & -> & S & _). rewrite spaces_app by auto. cbn [context_loop fold_left].
    exists (x :: y). replace (ahead (text ">") (x :: y) || ahead (text "/>") (x :: y)) with true; auto.
    destruct E as (z & [-> | ->]); symmetry; apply orb_true_iff; [left|right]; apply ahead_iff; eauto.
  - rewrite <- !app_assoc. destruct (attr_head a s (r ++ e) A) as (x & t & Ex & NS).
    rewrite spaces_app; auto. 2:{ rewrite Ex. cbn. now apply name_not_space. }
    pose proof (attr_read a s (r ++ e) A) as P. cbn [context_loop fold_left].
    rewrite Ex in *. destruct (name_start_not_end x t NS) as [-> ->]. cbn [orb]. rewrite P. cbn [bind].
    apply IH. pose proof (attr_len a s A). rewrite !app_length in L. rewrite app_length. lia.
Qed.

(** ** Scopes and contexts *)
Lemma lookup_put_same {B} k (v : B) m : lookup str_eqb k (put str_eqb k v m) = Some v.
Proof.
  induction m as [|[k' v'] m IH]; cbn; [now rewrite str_eqb_refl|].
  destruct (str_eqb k k') eqn:E; cbn; rewrite E; auto.
Qed.
Lemma lookup_put_other {B} k k' (v : B) m : k <> k' -> lookup str_eqb k' (put str_eqb k v m) = lookup str_eqb k' m.
Proof.
  intros N. induction m as [|[k2 v2] m IH]; cbn.
  - apply not_eq_sym, str_eqb_neq in N. now rewrite N.
  - destruct (str_eqb k k2) eqn:E; cbn.
    + apply str_eqb_eq in E. subst. apply not_eq_sym, str_eqb_neq in N. now rewrite N.
    + destruct (str_eqb k' k2); auto.
Qed.
Definition N_default : name := mkName None (text "xmlns").
Definition N_prefix (p : str) : name := mkName (Some (text "xmlns")) p.
Record agrees (ns : option str) (sc : scope) (c : context) : Prop := mkAgrees {
  ag_default : c_default c = match declared sc N_default with Some v => Some v | None => ns end;
  ag_xml : lookup str_eqb (text "xml") (c_prefixes c) = Some XML_NS;
  ag_xmlns : lookup str_eqb (text "xmlns") (c_prefixes c) = Some XMLNS_NS;
  ag_prefix : forall p, p <> text "xml" -> p <> text "xmlns" -> lookup str_eqb p (c_prefixes c) = declared sc (N_prefix p) }.
Lemma agrees_start ns : agrees ns [] (make_context ns).
Proof.
  split; auto. intros p A B. cbn [declared]. unfold make_context. cbn [c_prefixes].
  rewrite !lookup_put_other by (now apply not_eq_sym). reflexivity.
Qed.
(** Declarations that are read one after the other. *)
Definition found (l : list (name * str)) (n : name) : option str := option_map snd (find (fun a => same_name (fst a) n) l).
Lemma found_none l n : ~ In n (map fst l) -> found l n = None.
Proof.
  unfold found. intros H. destruct (find _ l) as [a|] eqn:E; auto. apply find_some in E as [I E]. apply same_name_eq in E. subst.
  destruct H. now apply in_map.
Qed.
Lemma found_cons a l n : found (a :: l) n = if same_name (fst a) n then Some (snd a) else found l n.
Proof. unfold found. cbn. now destruct (same_name (fst a) n). Qed.
Lemma declare_all l : NoDup (map fst l) -> forall c,
  c_default (fold_left declare l c) = match found l N_default with Some v => Some v | None => c_default c end /\
  forall p, lookup str_eqb p (c_prefixes (fold_left declare l c)) =
    if str_eqb p (text "xml") || str_eqb p (text "xmlns") then lookup str_eqb p (c_prefixes c)
    else match found l (N_prefix p) with Some v => Some v | None => lookup str_eqb p (c_prefixes c) end.
Proof.
  induction l as [|[n v] l IH]; intros ND c.
  - cbn. split; auto. intros p. now destruct (_ || _).
  - cbn [map fst] in ND. apply NoDup_cons_iff in ND as [NI ND]. cbn [fold_left]. destruct (IH ND (declare c (n, v))) as [D P].
    split.
    + rewrite D, found_cons. cbn [fst snd]. destruct (same_name n N_default) eqn:E.
      * apply same_name_eq in E. subst. rewrite found_none by auto. reflexivity.
      * destruct (found l N_default); auto. unfold declare. destruct n as [[p|] k]; cbn [fst snd n_prefix n_local].
        -- destruct (str_eqb p xmlns); auto. unfold declare_prefix. now destruct (_ || _).
        -- destruct (str_eqb k xmlns) eqn:K; auto. apply str_eqb_eq in K. subst. vm_compute in E. discriminate.
    + intros p. rewrite P, found_cons. cbn [fst snd]. clear D P IH.
      destruct (str_eqb p (text "xml") || str_eqb p (text "xmlns")) eqn:X.
      * unfold declare. destruct n as [[q|] k]; cbn [fst snd n_prefix n_local].
        -- destruct (str_eqb q xmlns); auto. unfold declare_prefix. destruct (str_eqb k (text "xml") || str_eqb k (text "xmlns")) eqn:Y; auto.
           cbn [c_prefixes]. apply lookup_put_other. intros ->. congruence.
        -- now destruct (str_eqb k xmlns).
      * destruct (same_name n (N_prefix p)) eqn:E.
        -- apply same_name_eq in E. subst. rewrite found_none by auto. unfold declare. cbn [fst snd n_prefix n_local N_prefix].
           change (str_eqb (text "xmlns") xmlns) with true. cbv iota. unfold declare_prefix. rewrite X. cbn [c_prefixes]. apply lookup_put_same.
        -- destruct (found l (N_prefix p)); auto. unfold declare. destruct n as [[q|] k]; cbn [fst snd n_prefix n_local].
           ++ destruct (str_eqb q xmlns) eqn:Q; auto. unfold declare_prefix. destruct (str_eqb k (text "xml") || str_eqb k (text "xmlns")); auto.
              cbn [c_prefixes]. apply lookup_put_other. intros ->. apply str_eqb_eq in Q. subst.
              assert (same_name (mkName (Some xmlns) p) (N_prefix p) = true) by now apply same_name_eq. congruence.
           ++ now destruct (str_eqb k xmlns).
Qed.
Lemma declared_cons l sc n : declared (l :: sc) n = match found l n with Some v => Some v | None => declared sc n end.
Proof. unfold found. cbn. now destruct (find _ l). Qed.
Lemma agrees_step ns sc c l : agrees ns sc c -> NoDup (map fst l) -> agrees ns (l :: sc) (fold_left declare l c).
Proof.
  intros [A B C D] ND. destruct (declare_all l ND c) as [E F]. split.
  - rewrite E, declared_cons. destruct (found l N_default); auto.
  - rewrite F. exact B.
  - rewrite F. exact C.
  - intros p X Y. rewrite F, declared_cons. pose proof X as X'. pose proof Y as Y'. apply str_eqb_neq in X'. apply str_eqb_neq in Y'. rewrite X', Y'.
    cbn [orb]. destruct (found l (N_prefix p)); auto.
Qed.
Lemma prefix_read ns sc c p v : agrees ns sc c -> prefix_ns sc p v -> lookup str_eqb p (c_prefixes c) = Some v.
Proof.
  intros A P. inversion P; subst.
  - apply (ag_xml _ _ _ A).
  - apply (ag_xmlns _ _ _ A).
  - rewrite (ag_prefix _ _ _ A) by auto. unfold nonempty, N_prefix in *. destruct (declared sc _) as [[|]|]; congruence.
Qed.
Lemma attribute_read ns sc c n q : agrees ns sc c -> attribute_name sc n q -> resolve_attribute c n = Some q.
Proof.
  intros A H. inversion H; subst; unfold resolve_attribute; cbn; auto. now rewrite (prefix_read ns sc c p v A).
Qed.
Lemma element_read ns sc c n q : agrees ns sc c -> declared sc N_default <> Some [] -> element_name ns sc n q -> resolve_element c n = Some q.
Proof.
  intros A K H. inversion H; subst; unfold resolve_element; cbn [n_prefix n_local].
  - rewrite (ag_default _ _ _ A). unfold default_ns. change (mkName None (text "xmlns")) with N_default. destruct (declared sc N_default) as [[|x y]|]; cbn [nonempty]; auto. now destruct K.
  - now rewrite (prefix_read ns sc c p v A).
Qed.
(** Different meanings have different names. *)
Lemma prefix_unique sc p v w : prefix_ns sc p v -> prefix_ns sc p w -> v = w.
Proof. intros A B. inversion A; subst; inversion B; subst; try congruence; try discriminate. Qed.
Lemma attribute_unique sc n q r : attribute_name sc n q -> attribute_name sc n r -> q = r.
Proof. intros A B. inversion A; subst; inversion B; subst; auto. f_equal. f_equal. eauto using prefix_unique. Qed.
Lemma distinct_names sc l a : Forall2 (attribute_means sc) l a -> NoDup (map fst a) -> NoDup (map fst l).
Proof.
  intros F. induction F as [|x y l a H F IH]; cbn; intros ND; [constructor|].
  apply NoDup_cons_iff in ND as [NI ND]. constructor; auto. intros I. apply NI. inversion H; subst. cbn [fst] in *.
  apply in_map_iff in I as ((n' & v') & E & I). cbn in E. subst.
  clear - F I H0. induction F as [|x y l a H F IH]; [easy|]. destruct I as [->|I].
  - inversion H; subst. left. cbn. eauto using attribute_unique.
  - right. auto.
Qed.
Lemma put_new q (v : str) (l : list (qname * str)) : ~ In q (map fst l) -> put q_eqb q v l = l ++ [(q, v)].
Proof.
  induction l as [|[q' v'] l IH]; cbn; intros H; auto. destruct (q_eqb q q') eqn:E.
  - apply q_eqb_eq in E. subst. tauto.
  - rewrite IH; auto.
Qed.
Lemma attributes_read ns sc c stop e l s a : writes_attrs l s -> stop = text ">" \/ stop = text "/>" -> agrees ns sc c -> Forall2 (attribute_means sc) l a -> 
  forall fuel acc, length (s ++ stop ++ e) < fuel -> NoDup (map fst (acc ++ a)) ->
  attributes fuel stop c acc (spaces (s ++ stop ++ e)) = Good (acc ++ a) e.
Proof.
  intros W S A. revert a. induction W as [b B|x l b s r B NB X W IH]; intros a F fuel acc L ND; (destruct fuel as [|fuel]; [lia|]).
  - inversion F; subst. rewrite app_nil_r. rewrite spaces_app; auto.
    2:{ destruct S as [-> | ->]; reflexivity. }
    cbn [attributes]. now rewrite skip_app.
  - inversion F as [|n [q v] l' a' M F' E1 E2]; subst. rewrite <- !app_assoc. destruct (attr_head x s (r ++ stop ++ e) X) as (h & t & Ex & NS).
    rewrite spaces_app; auto. 2:{ rewrite Ex. cbn. now apply name_not_space. }
    pose proof (attr_read x s (r ++ stop ++ e) X) as P. rewrite Ex in *. cbn [attributes].
    replace (skip stop (h :: t)) with (@None str).
    2:{ destruct (name_start_not_end h t NS) as [P1 P2]. unfold ahead in P1, P2. destruct S as [-> | ->]; [destruct (skip (text ">") (h :: t))|destruct (skip (text "/>") (h :: t))]; congruence. }
    unfold parse_attribute. rewrite P. cbn [bind]. inversion M; subst. cbn [fst snd].
    rewrite (attribute_read ns sc c n q) by auto. cbn [bind].
    rewrite map_app in ND. rewrite put_new. 2:{ apply NoDup_remove_2 in ND. intros I. apply ND. apply in_or_app. now left. }
    rewrite IH with (a := a'); auto.
    + now rewrite <- app_assoc.
    + pose proof (attr_len _ s X). rewrite !app_length in *. lia.
    + rewrite <- app_assoc. rewrite map_app. exact ND.
Qed.
(** The start tag is not an empty tag. *)
Lemma attributes_other c e l s : writes_attrs l s -> forall fuel acc, length (s ++ text ">" ++ e) < fuel ->
  attributes fuel (text "/>") c acc (spaces (s ++ text ">" ++ e)) = Bad.
Proof.
  intros W. induction W as [b B|x l b s r B NB X W IH]; intros fuel acc L; (destruct fuel as [|fuel]; [lia|]).
  - rewrite spaces_app; auto. reflexivity.
  - rewrite <- !app_assoc. destruct (attr_head x s (r ++ text ">" ++ e) X) as (h & t & Ex & NS).
    rewrite spaces_app; auto. 2:{ rewrite Ex. cbn. now apply name_not_space. }
    pose proof (attr_read x s (r ++ text ">" ++ e) X) as P. rewrite Ex in *. cbn [attributes].
    replace (skip (text "/>") (h :: t)) with (@None str).
    2:{ destruct (name_start_not_end h t NS) as [_ P2]. unfold ahead in P2. destruct (skip (text "/>") (h :: t)); congruence. }
    unfold parse_attribute. rewrite P. cbn [bind]. destruct (resolve_attribute c (fst x)); auto. cbn [bind]. apply IH.
    pose proof (attr_len _ s X). rewrite !app_length in *. lia.
Qed.
Lemma attrs_stop l s e : writes_attrs l s -> tag_end e -> stops is_name_char (s ++ e).
Proof.
  intros W E. inversion W; subst.
  - destruct s as [|c s]; cbn. + destruct (tag_end_head e E) as (x & y & -> & _ & N). exact N. + inversion H; subst. now apply space_not_name.
  - destruct b as [|c b]; [congruence|]. cbn. inversion H; subst. now apply space_not_name.
Qed.
Lemma tag_read ns sc c n l s e stop q a : agrees ns sc c -> valid_qname n -> writes_attrs l s -> stop = text ">" \/ stop = text "/>" ->
  declared (l :: sc) N_default <> Some [] -> element_name ns (l :: sc) n q -> Forall2 (attribute_means (l :: sc)) l a -> NoDup (map fst a) ->
  parse_tag stop c (text "<" ++ name_text n ++ s ++ stop ++ e) = Good (q, a, fold_left declare l c) e.
Proof.
  intros A V W St K E F ND. assert (T : tag_end (stop ++ e)) by (exists e; destruct St as [-> | ->]; auto).
  unfold parse_tag. rewrite expect_app. cbn [bind]. rewrite parse_qname_app by eauto using attrs_stop. cbn [bind].
  set (t := spaces (s ++ stop ++ e)).
  assert (LT : length t <= length (s ++ stop ++ e)).
  { unfold t, spaces. generalize (s ++ stop ++ e). intros z. induction z as [|x z IH]; cbn; auto.
    destruct (is_space x); cbn; auto. destruct (take_while is_space z); cbn in *; lia. }
  assert (AG : agrees ns (l :: sc) (fold_left declare l c)) by eauto using agrees_step, distinct_names.
  assert (Len : forall (u : str), length (spaces u) <= length u).
  { intros u. unfold spaces. induction u as [|x z IH]; cbn; auto. destruct (is_space x); cbn; auto. destruct (take_while is_space z); cbn in *; lia. }
  assert (ID : spaces t = t).
  { unfold t, spaces. generalize (s ++ stop ++ e). intros z. induction z as [|x z IH]; cbn; auto.
    destruct (is_space x) eqn:X; cbn; [destruct (take_while is_space z); cbn in *; auto|now rewrite X]. }
  unfold parse_context.
  assert (CX : exists s', context_loop (S (length t)) c t = Good (fold_left declare l c) s').
  { destruct W as [b B|x l b s r B NB X W].
    - exists (stop ++ e). assert (Et : t = stop ++ e). { unfold t. rewrite spaces_app; auto. destruct St as [-> | ->]; reflexivity. }
      rewrite Et. destruct St as [-> | ->]; reflexivity.
    - assert (Et : t = s ++ r ++ stop ++ e).
      { unfold t. rewrite <- !app_assoc. destruct (attr_head x s (r ++ stop ++ e) X) as (h & u & Ex & NS). rewrite spaces_app; auto. rewrite Ex. cbn. now apply name_not_space. }
      destruct (attr_head x s (r ++ stop ++ e) X) as (h & u & Ex & NS). pose proof (attr_read x s (r ++ stop ++ e) X) as P.
      rewrite Et. cbn [context_loop]. rewrite Ex in *. destruct (name_start_not_end h u NS) as [-> ->]. cbn [orb]. rewrite P. cbn [bind fold_left].
      apply context_read; auto. pose proof (attr_len _ s X). rewrite <- Ex, !app_length. lia. }
  destruct CX as [s' CX]. rewrite CX. cbn [bind]. rewrite (element_read ns (l :: sc) _ n q) by auto.
  assert (AR : attributes (S (length t)) stop (fold_left declare l c) [] t = Good a e).
  { destruct W as [b B|x l b s r B NB X W].
    - inversion F; subst. assert (Et : t = stop ++ e). { unfold t. rewrite spaces_app; auto. destruct St as [-> | ->]; reflexivity. }
      rewrite Et. cbn [attributes]. now rewrite skip_app.
    - assert (Et : t = s ++ r ++ stop ++ e).
      { unfold t. rewrite <- !app_assoc. destruct (attr_head x s (r ++ stop ++ e) X) as (h & u & Ex & NS). rewrite spaces_app; auto. rewrite Ex. cbn. now apply name_not_space. }
      inversion F as [|n0 [q0 v0] l' a' M F' E1 E2]; subst.
      destruct (attr_head x s (r ++ stop ++ e) X) as (h & u & Ex & NS). pose proof (attr_read x s (r ++ stop ++ e) X) as P.
      rewrite Et. cbn [attributes]. rewrite Ex in *.
      replace (skip stop (h :: u)) with (@None str).
      2:{ destruct (name_start_not_end h u NS) as [P1 P2]. unfold ahead in P1, P2. destruct St as [-> | ->]; [destruct (skip (text ">") (h :: u))|destruct (skip (text "/>") (h :: u))]; congruence. }
      unfold parse_attribute. rewrite P. cbn [bind]. inversion M; subst. cbn [fst snd].
      rewrite (attribute_read ns _ _ n0 q0 AG) by auto. cbn [bind put].
      rewrite (attributes_read ns (((n0, v0) :: l) :: sc) _ stop e l r a' W St AG F'); auto.
      pose proof (attr_len _ s X). rewrite <- Ex, !app_length. lia. }
  rewrite AR. reflexivity.
Qed.
Lemma tag_other c n l s e : valid_qname n -> writes_attrs l s -> parse_tag (text "/>") c (text "<" ++ name_text n ++ s ++ text ">" ++ e) = Bad.
Proof.
  intros V W. unfold parse_tag. rewrite expect_app. cbn [bind].
  rewrite parse_qname_app; [|exact V|apply (attrs_stop l); [exact W|exists e; auto]]. cbn [bind].
  set (t := spaces (s ++ text ">" ++ e)).
  unfold parse_context. destruct (context_loop _ c t) as [c' s'| |] eqn:CL; auto.
  - cbn [bind]. destruct (resolve_element c' n); auto.
    assert (AR : attributes (S (length t)) (text "/>") c' [] t = Bad).
    { destruct W as [b B|x l b s r B NB X W].
      - assert (Et : t = text ">" ++ e). { unfold t. rewrite spaces_app; auto. reflexivity. } rewrite Et. reflexivity.
      - assert (Et : t = s ++ r ++ text ">" ++ e).
        { unfold t. rewrite <- !app_assoc. destruct (attr_head x s (r ++ text ">" ++ e) X) as (h & u & Ex & NS). rewrite spaces_app; auto. rewrite Ex. cbn. now apply name_not_space. }
        destruct (attr_head x s (r ++ text ">" ++ e) X) as (h & u & Ex & NS). pose proof (attr_read x s (r ++ text ">" ++ e) X) as P.
        rewrite Et. cbn [attributes]. rewrite Ex in *.
        replace (skip (text "/>") (h :: u)) with (@None str).
        2:{ destruct (name_start_not_end h u NS) as [_ P2]. unfold ahead in P2. destruct (skip (text "/>") (h :: u)); congruence. }
        unfold parse_attribute. rewrite P. cbn [bind]. destruct (resolve_attribute c' (fst x)); auto. cbn [bind]. apply attributes_other with (l := l); auto.
        pose proof (attr_len _ s X). rewrite <- Ex, !app_length. lia. }
    now rewrite AR.
  - exfalso. assert (CX : exists c' s', context_loop (S (length t)) c t = Good c' s').
    { destruct W as [b B|x l b s r B NB X W].
      - exists c, (text ">" ++ e). assert (Et : t = text ">" ++ e). { unfold t. rewrite spaces_app; auto. reflexivity. }
        rewrite Et. reflexivity.
      - assert (Et : t = s ++ r ++ text ">" ++ e).
        { unfold t. rewrite <- !app_assoc. destruct (attr_head x s (r ++ text ">" ++ e) X) as (h & u & Ex & NS). rewrite spaces_app; auto. rewrite Ex. cbn. now apply name_not_space. }
        destruct (attr_head x s (r ++ text ">" ++ e) X) as (h & u & Ex & NS). pose proof (attr_read x s (r ++ text ">" ++ e) X) as P.
        rewrite Et. cbn [context_loop]. rewrite Ex in *. destruct (name_start_not_end h u NS) as [-> ->]. cbn [orb]. rewrite P. cbn [bind].
        eexists. apply context_read with (l := l); auto. exists e; auto. pose proof (attr_len _ s X). rewrite <- Ex, !app_length. lia. }
    destruct CX as (? & ? & CX). congruence.
Qed.
