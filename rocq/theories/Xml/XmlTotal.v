(** Parsing ends. *)
From Coq Require Import String List Arith NArith ZArith Bool Lia.
From Verif.Xml Require Import XmlModel XmlProofs.
Import ListNotations.
Local Open Scope list_scope.
Local Arguments text : simpl never.

(** It ends, and [n] characters or fewer are left. *)
Definition fine {A} (n : nat) (r : res A) : Prop := match r with Good _ s => length s <= n | Bad => True | Fuel => False end.
Lemma fine_le {A} n m (r : res A) : n <= m -> fine n r -> fine m r.
Proof. destruct r; cbn; auto. lia. Qed.
Lemma fine_bind {A B} n m (r : res A) (f : A -> str -> res B) : fine n r -> (forall a s, length s <= n -> fine m (f a s)) -> fine m (bind r f).
Proof. destruct r; cbn; auto. Qed.
Lemma fine_or {A} n (r k : res A) : fine n r -> fine n k -> fine n (or_else r k).
Proof. destruct r; cbn; auto. Qed.
Lemma fine_expect p s : fine (length s - length p) (expect p s).
Proof. unfold expect. destruct (skip p s) eqn:E; cbn; auto. apply skip_some in E. subst. rewrite app_length. lia. Qed.
Lemma take_while_len f s : length (snd (take_while f s)) <= length s.
Proof. induction s; cbn; auto. destruct (f a); cbn; auto. destruct (take_while f s); cbn in *; lia. Qed.
Lemma spaces_len s : length (spaces s) <= length s. Proof. apply take_while_len. Qed.
Lemma fine_name s : fine (length s - 1) (parse_name s).
Proof.
  destruct s as [|c r]; cbn [parse_name]; [exact I|]. destruct (is_name_start c); [|exact I].
  pose proof (take_while_len is_name_char r). destruct (take_while is_name_char r). cbn in *. lia.
Qed.
Lemma fine_qname s : fine (length s - 1) (parse_qname s).
Proof. unfold parse_qname. eapply fine_bind; [apply fine_name|]. intros n r L. now destruct (split_name n). Qed.
(** A name that is read is there. *)
Lemma digits_len b s : forall a, length (snd (digits b a s)) <= length s.
Proof. induction s as [|c s IH]; intros a; cbn; auto. destruct (digit b c); cbn; auto. Qed.
Lemma natural_len b s n r : natural b s = Some (n, r) -> length r <= length s.
Proof.
  destruct s as [|c s]; [discriminate|]. unfold natural. destruct (digit b c); [|discriminate]. intros E.
  pose proof (digits_len b (c :: s) 0%N) as L. assert (E' : digits b 0%N (c :: s) = (n, r)) by congruence. now rewrite E' in L.
Qed.
Lemma atoi_len b s z r : atoi b s = Some (z, r) -> length r <= length s.
Proof.
  assert (P : forall u, (match natural b u with Some (n, r) => Some (Z.of_N n, r) | None => None end) = Some (z, r) -> length r <= length u).
  { intros u. destruct (natural b u) as [[n r']|] eqn:E; [|discriminate]. intros F. injection F as _ <-. eauto using natural_len. }
  assert (M : forall u, (match natural b u with Some (n, r) => Some ((- Z.of_N n)%Z, r) | None => None end) = Some (z, r) -> length r <= length u).
  { intros u. destruct (natural b u) as [[n r']|] eqn:E; [|discriminate]. intros F. injection F as _ <-. eauto using natural_len. }
  destruct s as [|c s]; [discriminate|].
  destruct (N.eq_dec c 45) as [->|N1]; [intros E; apply M in E; cbn in *; lia|].
  destruct (N.eq_dec c 43) as [->|N2]; [intros E; apply P in E; cbn in *; lia|].
  intros E. apply P. rewrite <- E. destruct c as [|p]; [reflexivity|].
  do 6 (try (destruct p as [p|p|])); try reflexivity; congruence.
Qed.
Lemma fine_char_ref s : fine (length s - 1) (char_ref s).
Proof.
  unfold char_ref. destruct (skip (text "&#") s) as [r|] eqn:E; [|exact I]. apply skip_some in E. subst.
  assert (L : forall z u, (match skip (text "x") r with Some s => atoi 16 s | None => atoi 10 r end) = Some (z, u) -> length u <= length r).
  { intros z u. destruct (skip (text "x") r) as [w|] eqn:X.
    - apply skip_some in X. subst. intros F. apply atoi_len in F. rewrite app_length. lia.
    - apply atoi_len. }
  destruct (match skip (text "x") r with Some s => atoi 16 s | None => atoi 10 r end) as [[z u]|]; [|exact I].
  specialize (L z u eq_refl). eapply fine_bind; [apply fine_expect|]. intros _ w Lw. cbn. rewrite app_length. change (length (text "&#")) with 2. lia.
Qed.
Lemma fine_entity_ref s : fine (length s - 1) (entity_ref s).
Proof.
  unfold entity_ref. eapply fine_bind; [apply fine_expect|]. intros _ a La. change (length (text "&")) with 1 in La.
  eapply fine_bind; [apply fine_name|]. intros n b Lb. eapply fine_bind; [apply fine_expect|]. intros _ c Lc. destruct (entity n); cbn; auto. lia.
Qed.
Lemma fine_reference s : fine (length s - 1) (reference s).
Proof. apply fine_or; [apply fine_char_ref|apply fine_entity_ref]. Qed.
Lemma fine_value q : forall fuel s, length s < fuel -> fine (length s) (value_loop fuel q s).
Proof.
  induction fuel as [|fuel IH]; intros s L; [lia|]. cbn [value_loop]. destruct s as [|c r]; [exact (le_n 0)|].
  destruct (N.eqb c q); [cbn; auto|]. pose proof (fine_reference (c :: r)) as R. cbn [length] in R, L.
  assert (P : fine (length (c :: r)) (bind (value_loop fuel q r) (fun l s => Good (c :: l) s))).
  { eapply fine_bind; [apply (IH r); lia|]. intros a s Ls. cbn. lia. }
  destruct (reference (c :: r)) as [x s| |]; auto.
  eapply fine_bind; [apply (IH s); cbn in R; lia|]. intros a t Lt. cbn in *. lia.
Qed.
Lemma fine_att_value s : fine (length s - 1) (att_value s).
Proof.
  destruct s as [|q r]; [exact I|]. cbn [att_value]. destruct (_ || _); [|exact I].
  eapply fine_bind; [apply fine_value; lia|]. intros v s L. eapply fine_bind; [apply fine_expect|]. intros _ t Lt. cbn. lia.
Qed.
Lemma fine_attr s : s <> [] -> fine (length s - 1) (parse_attr s).
Proof.
  intros _. unfold parse_attr. eapply fine_bind; [apply fine_qname|]. intros n a La. eapply fine_bind; [apply fine_expect|]. intros _ b Lb.
  eapply fine_bind; [apply fine_att_value|]. intros v c Lc. cbn. lia.
Qed.
Lemma fine_context : forall fuel c s, length s < fuel -> fine (length s) (context_loop fuel c s).
Proof.
  induction fuel as [|fuel IH]; intros c s L; [lia|]. cbn [context_loop]. destruct (_ || _) eqn:E; [cbn; auto|].
  assert (N : s <> []) by (intros ->; rewrite orb_true_r in E; discriminate).
  eapply fine_bind; [apply fine_attr; auto|]. intros a t Lt. pose proof (spaces_len t).
  assert (0 < length s) by (destruct s; [congruence|cbn; lia]). eapply fine_le; [|apply IH; lia]. lia.
Qed.
Lemma fine_attributes stop c : forall fuel l s, length s < fuel -> fine (length s) (attributes fuel stop c l s).
Proof.
  induction fuel as [|fuel IH]; intros l s L; [lia|]. cbn [attributes]. destruct (skip stop s) as [r|] eqn:E.
  - apply skip_some in E. subst. cbn. rewrite app_length. lia.
  - destruct s as [|x s]; [cbn; auto|]. eapply fine_bind.
    + unfold parse_attribute. eapply fine_bind; [apply fine_attr; discriminate|]. intros a t Lt. destruct (resolve_attribute c (fst a)); [exact Lt|exact I].
    + intros l' t Lt. pose proof (spaces_len t). cbn in Lt, L. eapply fine_le; [|apply IH; lia]. cbn. lia.
Qed.
Lemma fine_tag stop c s : fine (length s - 1) (parse_tag stop c s).
Proof.
  unfold parse_tag. eapply fine_bind; [apply fine_expect|]. intros _ a La. change (length (text "<")) with 1 in La.
  eapply fine_bind; [apply fine_qname|]. intros n b Lb. eapply (fine_bind (length (spaces b))).
  - unfold parse_context. eapply fine_bind; [apply fine_context; lia|]. intros; cbn; auto.
  - intros c' t Lt. destruct (resolve_element c' n); [|exact I]. eapply fine_bind; [apply fine_attributes; lia|]. intros l u Lu. cbn.
    pose proof (spaces_len b). lia.
Qed.
Lemma char_data_len s : length (fst (char_data s)) + length (snd (char_data s)) = length s.
Proof. induction s as [|c s IH]; cbn; auto. destruct (_ || _); cbn; auto. destruct (char_data s); cbn in *. lia. Qed.
Lemma until_len stop ok s a b : until stop ok s = Some (a, b) -> length b <= length s.
Proof.
  revert a b. induction s as [|c s IH]; cbn; intros a b E; [injection E as <- <-; auto|]. destruct (ahead stop (c :: s)); [injection E as <- <-; auto|].
  destruct (ok c); [|discriminate]. destruct (until stop ok s) as [[x y]|]; [|discriminate]. cbn in E. injection E as <- <-. specialize (IH x y eq_refl). lia.
Qed.
Lemma cd_sect_len s v r : cd_sect s = (v, Some r) -> length r < length s.
Proof.
  unfold cd_sect. destruct (skip (text "<![CDATA[") s) as [t|] eqn:E; [|discriminate]. apply skip_some in E. subst.
  destruct (until (text "]]>") (fun _ => true) t) as [[x y]|] eqn:U; [|discriminate]. apply until_len in U. intros F. assert (F' : skip (text "]]>") y = Some r) by congruence.
  apply skip_some in F'. subst. rewrite app_length in *. change (length (text "<![CDATA[")) with 9. lia.
Qed.
Lemma text_item_len s v r : text_item s = (v, Some r) -> length r < length s.
Proof.
  unfold text_item. pose proof (char_data_len s) as L. destruct (char_data s) as [[|c a] b]; cbn in L.
  - destruct (cd_sect s) as [x [y|]] eqn:E.
    + intros F. injection F as <- <-. eauto using cd_sect_len.
    + pose proof (fine_reference s) as R. destruct s as [|c s]; [discriminate|]. destruct (reference (c :: s)); try discriminate.
      intros F. injection F as <- <-. cbn in R |- *. lia.
  - intros F. injection F as <- <-. lia.
Qed.
Lemma fine_text_loop : forall fuel s, length s < fuel -> fine (length s) (text_loop fuel s).
Proof.
  induction fuel as [|fuel IH]; intros s L; [lia|]. cbn [text_loop]. destruct (text_item s) as [v [r|]] eqn:E; [|cbn; auto].
  apply text_item_len in E. eapply fine_bind; [apply IH; lia|]. intros a t Lt. cbn. lia.
Qed.
Lemma fine_text s : fine (length s) (parse_text s).
Proof. unfold parse_text. eapply fine_bind; [apply fine_text_loop; lia|]. intros; cbn; auto. Qed.
Lemma fine_comment s : fine (length s - 1) (parse_comment s).
Proof.
  unfold parse_comment. eapply fine_bind; [apply fine_expect|]. intros _ a La. change (length (text "<!--")) with 4 in La.
  destruct (until (text "-->") is_char a) as [[x y]|] eqn:U; [|exact I]. apply until_len in U.
  eapply fine_bind; [apply fine_expect|]. intros _ t Lt. cbn. lia.
Qed.
Lemma fine_pi s : fine (length s - 1) (parse_pi s).
Proof.
  unfold parse_pi. eapply fine_bind; [apply fine_expect|]. intros _ a La. change (length (text "<?")) with 2 in La.
  eapply fine_bind; [apply fine_name|]. intros n b Lb. destruct (str_eqb _ _); [exact I|].
  destruct (until (text "?>") is_char b) as [[x y]|] eqn:U; [|exact I]. apply until_len in U. eapply fine_le; [|apply fine_expect]. lia.
Qed.
Lemma fine_end_tag c q s : fine (length s) (parse_end_tag c q s).
Proof.
  unfold parse_end_tag. eapply fine_bind; [apply fine_expect|]. intros _ a La. eapply fine_bind; [apply fine_qname|]. intros n b Lb.
  destruct (resolve_element c n) as [q'|]; [|exact I]. destruct (q_eqb q' q); [|exact I]. pose proof (spaces_len b). eapply fine_le; [|apply fine_expect]. lia.
Qed.
Lemma fine_elements : forall fuel,
  (forall c s, 2 * length s + 2 <= fuel -> fine (length s - 1) (parse_element fuel c s)) /\
  (forall c s, 2 * length s + 3 <= fuel -> fine (length s) (parse_items fuel c s)).
Proof.
  induction fuel as [|fuel [IE II]]; (split; intros c s L; [|]); try lia.
  - cbn [parse_element]. pose proof (fine_tag (text "/>") c s) as T. destruct (parse_tag (text "/>") c s) as [[[q l] c'] r| |]; [exact T| |contradiction].
    destruct s as [|x s0] eqn:Es; [exact I|]. rewrite <- Es in *. assert (P : 0 < length s) by (subst; cbn; lia). clear Es.
    eapply fine_bind; [apply fine_tag|]. intros [[q l] c'] r Lr. eapply fine_bind; [apply fine_text|]. intros t r1 L1.
    eapply (fine_bind (length s - 1)); [eapply fine_le; [|apply II; lia]; lia|]. intros k r2 L2. eapply fine_bind; [apply fine_end_tag|]. intros _ r3 L3. cbn. lia.
  - cbn [parse_items].
    assert (F : fine (length s - 1) (or_else (bind (parse_element fuel c s) (fun e s => Good [e] s))
          (or_else (bind (parse_pi s) (fun _ s => Good [] s)) (bind (parse_comment s) (fun v s => Good [COMMENT v] s))))).
    { repeat apply fine_or; (eapply fine_bind; [|intros; cbn; eassumption]).
      - apply IE. lia. - apply fine_pi. - apply fine_comment. }
    assert (Z : s = [] -> or_else (bind (parse_element fuel c s) (fun e s => Good [e] s))
          (or_else (bind (parse_pi s) (fun _ s => Good [] s)) (bind (parse_comment s) (fun v s => Good [COMMENT v] s))) = Bad).
    { intros ->. destruct fuel as [|fuel]; [cbn in L; lia|]. reflexivity. }
    destruct (or_else _ _) as [k r| |]; [|cbn; auto|contradiction].
    destruct s as [|x s]; [now specialize (Z eq_refl)|]. cbn [fine length] in F, L.
    eapply fine_bind; [apply fine_text|]. intros t r1 L1. eapply fine_bind; [apply II; lia|]. intros k2 r2 L2. cbn. lia.
Qed.
Lemma fine_misc s : fine (length s - 1) (misc s).
Proof.
  unfold misc. destruct (ahead (text "<!--") s).
  - eapply fine_bind; [apply fine_comment|]. intros; cbn; auto.
  - destruct (ahead (text "<?") s).
    + eapply fine_bind; [apply fine_pi|]. intros; cbn; auto.
    + destruct s as [|c s]; [exact I|]. destruct (is_space c) eqn:E; [|exact I]. cbn [fine]. unfold spaces. cbn [take_while]. rewrite E.
      pose proof (take_while_len is_space s). destruct (take_while is_space s); cbn in *. lia.
Qed.
Lemma fine_miscs : forall fuel s, length s < fuel -> fine (length s) (miscs fuel s).
Proof.
  induction fuel as [|fuel IH]; intros s L; [lia|]. cbn [miscs]. pose proof (fine_misc s) as F. destruct s as [|c s]; [exact (le_n 0)|].
  destruct (misc (c :: s)) as [k r| |]; [|cbn; auto|contradiction]. cbn [fine length] in F, L.
  eapply fine_bind; [apply IH; lia|]. intros a t Lt. cbn. lia.
Qed.
Lemma fine_decl_attr n value s : (forall s, length (snd (value s)) <= length s) -> fine (length s) (decl_attr n value s).
Proof.
  intros V. unfold decl_attr. pose proof (spaces_len s). eapply fine_bind; [apply fine_expect|]. intros _ a La. pose proof (spaces_len a).
  eapply fine_bind; [apply fine_expect|]. intros _ b Lb. pose proof (spaces_len b). destruct (spaces b) as [|q t]; [exact I|].
  destruct (_ || _); [|exact I]. pose proof (V t) as Lv. destruct (value t) as [[|x v] u]; [exact I|].
  eapply fine_bind; [apply fine_expect|]. intros _ w Lw. cbn in *. lia.
Qed.
Lemma version_len s : length (snd (re_version s)) <= length s.
Proof.
  unfold re_version. destruct (skip (text "1.") s) as [r|] eqn:E; [|auto]. apply skip_some in E. subst.
  pose proof (take_while_len is_digit r). destruct (take_while is_digit r) as [[|d l] u]; cbn in *; auto. rewrite ?app_length. lia.
Qed.
Lemma encoding_len s : length (snd (re_encoding s)) <= length s.
Proof.
  destruct s as [|c r]; cbn [re_encoding]; auto. destruct (is_alpha c); auto.
  match goal with |- context [take_while ?f r] => pose proof (take_while_len f r); destruct (take_while f r) end. cbn in *. lia.
Qed.
Lemma standalone_len s : length (snd (re_standalone s)) <= length s.
Proof.
  unfold re_standalone. destruct (skip (text "yes") s) as [r|] eqn:E; [apply skip_some in E; subst; cbn [snd]; rewrite app_length; lia|].
  destruct (skip (text "no") s) as [r|] eqn:F; [apply skip_some in F; subst; cbn [snd]; rewrite app_length; lia|]. auto.
Qed.
Lemma optional_len r s : fine (length s) r -> length (snd (optional r s)) <= length s.
Proof. destruct r; cbn; auto. Qed.
Lemma fine_decl s : fine (length s) (xml_decl s).
Proof.
  unfold xml_decl. eapply fine_bind; [apply fine_expect|]. intros _ a La. eapply fine_bind; [apply fine_decl_attr, version_len|]. intros v b Lb.
  pose proof (optional_len _ b (fine_decl_attr (text "encoding") re_encoding b encoding_len)) as Le.
  destruct (optional (decl_attr (text "encoding") re_encoding b) b) as [e c]. cbn [snd] in Le.
  pose proof (optional_len _ c (fine_decl_attr (text "standalone") re_standalone c standalone_len)) as Ls.
  destruct (optional (decl_attr (text "standalone") re_standalone c) c) as [d f]. cbn [snd] in Ls. pose proof (spaces_len f).
  eapply fine_bind; [apply fine_expect|]. intros _ w Lw. cbn. lia.
Qed.
Lemma external_len s : match snd (external_id s) with Some r => length r <= length s | None => True end.
Proof.
  unfold external_id. destruct (skip (text "SYSTEM") s) as [r|] eqn:E.
  - apply skip_some in E. subst. pose proof (fine_att_value (spaces r)) as F. pose proof (spaces_len r). destruct (att_value (spaces r)); cbn in *; auto. rewrite app_length. lia.
  - destruct (skip (text "PUBLIC") s) as [r|] eqn:G; [|exact I]. apply skip_some in G. subst.
    pose proof (fine_att_value (spaces r)) as F. pose proof (spaces_len r). destruct (att_value (spaces r)) as [p u| |]; cbn in F; try exact I.
    pose proof (fine_att_value (spaces u)) as F2. pose proof (spaces_len u). destruct (att_value (spaces u)) as [p2 u2| |]; cbn in F2; try exact I. cbn. rewrite app_length. lia.
Qed.
Lemma fine_doctype s : fine (length s) (parse_doctype s).
Proof.
  unfold parse_doctype. eapply fine_bind; [apply fine_expect|]. intros _ a La. pose proof (spaces_len a). eapply fine_bind; [apply fine_name|]. intros n b Lb.
  pose proof (external_len (spaces b)) as Le. pose proof (spaces_len b). destruct (external_id (spaces b)) as [[p v] o]. cbn [snd] in Le.
  destruct o as [o|].
  - pose proof (spaces_len o). eapply fine_bind; [apply fine_expect|]. intros _ w Lw. cbn. lia.
  - pose proof (spaces_len (spaces b)). eapply fine_bind; [apply fine_expect|]. intros _ w Lw. cbn. lia.
Qed.
Lemma fine_prolog s : fine (length s) (prolog s).
Proof.
  unfold prolog. eapply (fine_bind (length s)).
  - destruct (ahead (text "<?xml") s); [apply fine_decl|cbn; auto].
  - intros d a La. eapply fine_bind; [apply fine_miscs; lia|]. intros m b Lb. pose proof (fine_doctype b) as D.
    destruct (parse_doctype b) as [t c| |]; [|cbn; lia|contradiction]. eapply fine_bind; [apply fine_miscs; lia|]. intros k e Le. cbn in *. lia.
Qed.
Theorem fine_parse ns s : fine (length s) (parse ns s).
Proof.
  unfold parse. eapply fine_bind; [apply fine_prolog|]. intros [[[v e] a] m] b Lb.
  eapply fine_bind; [apply (proj1 (fine_elements (2 * length b + 2))); lia|]. intros x c Lc.
  eapply fine_bind; [apply fine_miscs; lia|]. intros k d Ld. cbn. lia.
Qed.
