(** Properties of the HTML tokenizer and of serialisation. *)
From Coq Require Import String List Arith Bool NArith Lia Permutation.
From Verif.Base Require Import Str.
From Verif.Html Require Import Entities LexerModel LexerInv LexerProofs RefProofs SerialModel SerialSpec SerialProofs NumProofs AttrProofs DoctypeProofs.
Import ListNotations.
Local Open Scope list_scope.
Local Open Scope N_scope.

(** A tree builder that never changes the tokenizer's mode. *)
Definition no_switch : list token -> option text_mode := fun _ => None.
(** A tree builder that picks the mode by the name of the last start tag. *)
Definition switch_by_name (out : list token) : option text_mode :=
  match out with t :: _ => match t_name t with Some n => mode_of n | None => None end | [] => None end.
Lemma switch_by_name_ok : by_name switch_by_name.
Proof. intros t out n _ Hn. unfold switch_by_name. now rewrite Hn. Qed.

(** ** C23: tokenizing *)

(** Full claim: [forall sink s, exists ts, tokenize sink s = Ok (ts ++ [eof])], with no other end of
    file. It fails (below) for inputs with a reference that lacks its semicolon; whatever the input,
    the only failure is that one, and a run that ends has its end of file exactly once and last. *)
Theorem C23_tokenizing_ends_partial : forall sink s,
  match tokenize sink s with
  | Ok ts => exists body last, ts = body ++ [last] /\ t_type last = T_END_OF_FILE /\ Forall (fun t => t_type t <> T_END_OF_FILE) body
  | Crash w => w = StaleOffset
  end.
Proof.
  intros sink s. unfold tokenize. pose proof (run_ok sink (normalize s) init init_good) as H.
  destruct (run sink (normalize s) init) as [l|w]; [|exact H]. cbn [bind].
  destruct H as (new & Eo & _ & t & r & -> & He & Hr). rewrite Eo. change (l_out init) with (@nil token). rewrite app_nil_r.
  exists (rev r), t. split; [reflexivity|]. split.
  - unfold is_eof in He. destruct (t_type t); try discriminate He; reflexivity.
  - apply Forall_rev. rewrite forallb_forall in Hr. apply Forall_forall. intros x Hx E. specialize (Hr x Hx).
    unfold is_eof in Hr. rewrite E in Hr. discriminate.
Qed.
Print Assumptions C23_tokenizing_ends_partial.
Example C23_tokenizing_ends_case :
  tokenize switch_by_name (of_string "<p>a&amp;b</p") =
  Ok [tag_token T_START_TAG (of_string "p") []; char_token 97; char_token 38; char_token 98; new_token T_END_OF_FILE].
Proof. vm_compute. reflexivity. Qed.

(** Every reference written with its semicolon: tokenizing ends. *)
Theorem C23_tokenizing_total_partial : forall sink s,
  (forall p q, s = p ++ 38 :: q ->
     (exists e n, In e entities /\ fst e = n ++ [59] /\ (exists r, 38 :: q = fst e ++ r)) \/
     (forall e, In e entities -> ~ exists r, 38 :: q = fst e ++ r)) ->
  exists ts, tokenize sink s = Ok ts.
Proof.
  intros sink s H. assert (refs_ok s) as Hok by exact H. apply refs_normalize in Hok.
  destruct (run_refs sink (normalize s) init init_good Hok (init_refs _)) as (l & E).
  unfold tokenize. rewrite E. exists (rev (l_out l)). reflexivity.
Qed.
Print Assumptions C23_tokenizing_total_partial.
Example C23_tokenizing_total_case : exists ts, tokenize no_switch (of_string "a < b") = Ok ts.
Proof.
  apply C23_tokenizing_total_partial. intros p q E.
  assert (In 38 (of_string "a < b")) as Hi by (rewrite E; apply in_elt).
  vm_compute in Hi. repeat (destruct Hi as [Hi|Hi]; [discriminate|]). contradiction.
Qed.

(** A reference without its semicolon before an equals sign in an attribute leaves a length behind,
    and the next ampersand cuts its buffer there. *)
Theorem C23_tokenizing_crash_refuted :
  ~ (forall sink s, exists ts, tokenize sink s = Ok ts).
Proof.
  intros H. destruct (H no_switch (of_string "<a href='&not=2'>&x ")) as (ts & E). vm_compute in E. discriminate.
Qed.
Print Assumptions C23_tokenizing_crash_refuted.

(** ** C56: attributes of a tag *)
Theorem C56_attribute_names_distinct : forall sink s ts t,
  tokenize sink s = Ok ts -> In t ts -> t_type t = T_START_TAG \/ t_type t = T_END_TAG -> NoDup (map fst (t_attrs t)).
Proof.
  intros sink s ts t E Hi Ht. unfold tokenize in E. pose proof (run_ok sink (normalize s) init init_good) as H.
  destruct (run sink (normalize s) init) as [l|w]; [|discriminate]. cbn [bind] in E. injection E as <-.
  destruct H as (new & Eo & Hok & _). rewrite Eo in Hi. change (l_out init) with (@nil token) in Hi. rewrite app_nil_r in Hi. apply in_rev in Hi.
  rewrite Forall_forall in Hok. apply (Hok t Hi). exact Ht.
Qed.
Print Assumptions C56_attribute_names_distinct.

Lemma tag_attrs_run sink name xs : tag_name_ok name -> Forall (fun x => attr_name_ok (fst x) /\ text_ok (snd x)) xs ->
  exists l', feed sink ([60] ++ name ++ flat_map written xs) init = Ok l' /\ tag_mid T_START_TAG name (keep_first xs) None [] l'.
Proof.
  intros Hn Hxs. rewrite app_assoc. eapply feed_then; [apply (tag_name_start sink T_START_TAG); [exact Hn|left; reflexivity|exact init_text]|].
  intros l Hl. rewrite <- keep_first_fold. apply tag_attrs_any; [exact Hxs|constructor|exact Hl].
Qed.

Lemma written_no_cr xs : Forall (fun x => attr_name_ok (fst x) /\ text_ok (snd x)) xs -> ~ In 13 (flat_map written xs).
Proof.
  intros H Hi. apply in_flat_map in Hi as (x & Hx & Hi). rewrite Forall_forall in H. destruct (H x Hx) as [Hn Hv].
  apply (attr_no_cr (mkQName None (fst x), snd x)); [|exact Hi]. split; [reflexivity|]. split; [exact Hn|exact Hv].
Qed.

(** Of two attributes with one name the first is kept, and the others are all kept, in order. *)
Theorem C56_first_attribute_wins : forall sink name xs,
  by_name sink -> mode_of name = None -> tag_name_ok name ->
  Forall (fun x => attr_name_ok (fst x) /\ text_ok (snd x)) xs ->
  tokenize sink ([60] ++ name ++ flat_map (fun x => [32] ++ fst x ++ [61; 34] ++ escape true (snd x) ++ [34]) xs ++ [62]) =
  Ok [tag_token T_START_TAG name (keep_first xs); new_token T_END_OF_FILE].
Proof.
  intros sink name xs Hb Hm Hn Hxs.
  change (flat_map (fun x => [32] ++ fst x ++ [61; 34] ++ escape true (snd x) ++ [34]) xs) with (flat_map written xs).
  unfold tokenize. rewrite normalize_id.
  2:{ rewrite !in_app_iff. intros [[E|[]]|[Hi|[Hi|[E|[]]]]]; try discriminate; [exact (tag_name_no_cr _ Hn Hi)|exact (written_no_cr _ Hxs Hi)]. }
  destruct (tag_attrs_run sink name xs Hn Hxs) as (l1 & E1 & H1). unfold run.
  replace ([60] ++ name ++ flat_map written xs ++ [62]) with (([60] ++ name ++ flat_map written xs) ++ [62]) by (rewrite <- !app_assoc; reflexivity).
  rewrite feed_app, E1. cbn [bind]. rewrite feed1. destruct (tag_close sink _ _ _ _ _ _ H1) as (l2 & E2 & H2). rewrite E2. cbn [bind].
  unfold after_tag in H2. cbn [t_type tag_token ttype_eqb] in H2.
  rewrite (Hb (tag_token T_START_TAG name (keep_first xs)) [] name eq_refl eq_refl), Hm in H2.
  destruct (finish_data sink _ _ _ H2) as (l3 & E3 & H3). rewrite E3. cbn [bind]. rewrite H3. reflexivity.
Qed.
Print Assumptions C56_first_attribute_wins.
Example C56_first_attribute_wins_case :
  tokenize switch_by_name (of_string "<p class=""a&amp;b"" id=""c"" class=""d"">") =
  Ok [tag_token T_START_TAG (of_string "p") [(of_string "class", of_string "a&b"); (of_string "id", of_string "c")]; new_token T_END_OF_FILE].
Proof. vm_compute. reflexivity. Qed.

(** ** C57: named references *)
Theorem C57_named_reference_in_text : forall sink e n s t,
  In e entities -> fst e = n ++ [59] ->
  Forall plain s -> Forall plain t ->
  tokenize sink (s ++ fst e ++ t) = Ok (map char_token (s ++ snd e ++ t) ++ [new_token T_END_OF_FILE]).
Proof.
  intros sink e n s t Hi He Hs Ht. unfold tokenize. rewrite normalize_id.
  2:{ rewrite !in_app_iff. intros [H|[H|H]]; [exact (plain_no_cr _ Hs H)|exact (proj1 (entity_no_newline e Hi) H)|exact (plain_no_cr _ Ht H)]. }
  destruct (plain_text sink DATA None s (or_introl eq_refl) Hs _ _ init_text) as (l1 & E1 & H1).
  destruct (text_ref sink DATA None _ e n l1 (or_introl eq_refl) Hi He H1) as (l2 & E2 & H2).
  destruct (plain_text sink DATA None t (or_introl eq_refl) Ht _ _ H2) as (l3 & E3 & H3).
  destruct (finish_data sink _ _ _ H3) as (l4 & E4 & H4).
  unfold run. rewrite feed_app, E1. cbn [bind]. rewrite feed_app, E2. cbn [bind]. rewrite E3. cbn [bind]. rewrite E4. cbn [bind].
  rewrite H4. cbn [rev]. rewrite !rev_app_distr, !rev_involutive. cbn [rev app]. rewrite !map_app, <- !app_assoc. reflexivity.
Qed.
Print Assumptions C57_named_reference_in_text.
Example C57_named_reference_in_text_case :
  tokenize no_switch (of_string "a&NotEqualTilde;b") =
  Ok (map char_token [97; 8770; 824; 98] ++ [new_token T_END_OF_FILE]).
Proof. vm_compute. reflexivity. Qed.

Theorem C57_named_reference_in_attribute : forall sink e n name attr s t,
  by_name sink -> mode_of name = None -> tag_name_ok name -> attr_name_ok attr ->
  In e entities -> fst e = n ++ [59] -> text_ok s -> text_ok t ->
  tokenize sink ([60] ++ name ++ [32] ++ attr ++ [61; 34] ++ escape true s ++ fst e ++ escape true t ++ [34; 62]) =
  Ok [tag_token T_START_TAG name [(attr, s ++ snd e ++ t)]; new_token T_END_OF_FILE].
Proof.
  intros sink e n name attr s t Hb Hm Hn Ha Hi He [Hs Hs'] [Ht Ht']. unfold tokenize. rewrite normalize_id.
  2:{ rewrite !in_app_iff. intros [[E|[]]|[H|[[E|[]]|[H|[[E|[E|[]]]|[H|[H|[H|[E|[E|[]]]]]]]]]]]; try discriminate.
      - exact (tag_name_no_cr _ Hn H).
      - destruct Ha as [_ Ha]. rewrite Forall_forall in Ha. destruct (Ha _ H) as [(_ & _ & _ & _ & _ & E) _]. apply E. reflexivity.
      - exact (escape_no_cr _ _ Hs' H).
      - exact (proj1 (entity_no_newline e Hi) H).
      - exact (escape_no_cr _ _ Ht' H). }
  assert (exists l', feed sink ([60] ++ name ++ [32] ++ attr ++ [61; 34] ++ escape true s ++ fst e ++ escape true t ++ [34; 62]) init = Ok l' /\
    text_at DATA (Some (tag_token T_START_TAG name [(attr, s ++ snd e ++ t)])) [tag_token T_START_TAG name [(attr, s ++ snd e ++ t)]] l') as (l & E & H).
  { rewrite app_assoc. eapply feed_then; [apply (tag_name_start sink T_START_TAG); [exact Hn|left; reflexivity|exact init_text]|]. intros l Hl.
    cbn [app]. eapply feed_cons_then; [eapply tag_space; exact Hl|]. clear l Hl. intros l [a Hl].
    destruct attr as [|c attr]; [destruct Ha as [Ha _]; contradiction Ha; reflexivity|]. pose proof Ha as Ha'. destruct Ha' as [_ Hf].
    inversion Hf as [|? ? [Hc H61] Hf']. subst.
    cbn [app]. eapply feed_cons_then; [eapply attr_first; eassumption|]. clear l Hl. intros l Hl.
    eapply feed_then; [apply attr_name_chars; eassumption|]. clear l Hl. intros l Hl. change ([c] ++ attr) with (c :: attr) in Hl.
    eapply feed_cons_then; [eapply attr_equals; [exact Ha|constructor|intros []|exact Hl]|]. clear l Hl. intros l Hl.
    eapply feed_cons_then; [eapply attr_quote; eassumption|]. clear l Hl. intros l Hl.
    eapply feed_then; [apply attr_value; eassumption|]. clear l Hl. intros l Hl. cbn [app] in Hl.
    apply feed_then with (P := tag_at ATTRIBUTE_VALUE_DOUBLE_QUOTED None (tag_token T_START_TAG name [(c :: attr, [])]) Live (s ++ snd e) []).
    { destruct Hl as (Hst & Hbu & Hp & Hla & Ho & Htk & Hat). destruct (attr_reference sink e n l Hi He) as (te & Er); [left; exact Hst|].
      eexists. split; [exact Er|]. unfold tag_at. cbn [l_state l_builder l_peek l_last l_out l_token l_attr]. rewrite Hbu. auto 10. }
    clear l Hl. intros l Hl.
    eapply feed_then; [apply attr_value; eassumption|]. clear l Hl. intros l Hl. rewrite <- app_assoc in Hl.
    apply feed_cons_then with (P := tag_at AFTER_ATTRIBUTE_VALUE_QUOTED None (tag_token T_START_TAG name ([] ++ [(c :: attr, s ++ snd e ++ t)])) Live [] []).
    { apply attr_unquote. exact Hl. }
    clear l Hl. intros l Hl. rewrite feed1.
    destruct (tag_close sink T_START_TAG name ([] ++ [(c :: attr, s ++ snd e ++ t)]) None [] l) as (l2 & E2 & H2); [right; exists Live; exact Hl|].
    exists l2. split; [exact E2|]. unfold after_tag in H2. cbn [t_type tag_token ttype_eqb] in H2.
    rewrite (Hb (tag_token T_START_TAG name ([] ++ [(c :: attr, s ++ snd e ++ t)])) [] name eq_refl eq_refl), Hm in H2. exact H2. }
  unfold run. rewrite E. cbn [bind]. destruct (finish_data sink _ _ _ H) as (l3 & E3 & H3). rewrite E3. cbn [bind]. rewrite H3. reflexivity.
Qed.
Print Assumptions C57_named_reference_in_attribute.
Example C57_named_reference_in_attribute_case :
  tokenize switch_by_name (of_string "<p title=""a&euro;b"">") =
  Ok [tag_token T_START_TAG (of_string "p") [(of_string "title", [97; 8364; 98])]; new_token T_END_OF_FILE].
Proof. vm_compute. reflexivity. Qed.

(** ** C58: numeric references *)
(** The character for a number: the standard's replacement for what is no character, the
    windows-1252 meaning of the control codes 128-159, and else the number itself. *)
Definition latin_controls : list N :=
  [8364; 129; 8218; 402; 8222; 8230; 8224; 8225; 710; 8240; 352; 8249; 338; 141; 381; 143;
   144; 8216; 8217; 8220; 8221; 8226; 8211; 8212; 732; 8482; 353; 8250; 339; 157; 382; 376].
Definition referenced (v : N) : N :=
  if (v =? 0) || (1114111 <? v) || ((55296 <=? v) && (v <=? 57343)) then 65533
  else if (128 <=? v) && (v <=? 159) then nth (N.to_nat (v - 128)) latin_controls 0
  else v.

Lemma find_none v : (v < 128 \/ 159 < v) -> find (fun p => fst p =? v) windows_1252 = None.
Proof.
  intros H. unfold windows_1252. cbn [find fst].
  repeat match goal with |- context [?n =? v] => assert (n =? v = false) as -> by (apply N.eqb_neq; lia) end. reflexivity.
Qed.
Lemma referenced_decode v : decode_code v = referenced v.
Proof.
  unfold decode_code, referenced, is_unicode, is_surrogate.
  destruct (v =? 0) eqn:E0; [reflexivity|]. destruct (v <=? 1114111) eqn:E1.
  - apply N.leb_le in E1. assert (1114111 <? v = false) as -> by (apply N.ltb_ge; lia). cbn [negb orb].
    destruct ((55296 <=? v) && (v <=? 57343)) eqn:E2; [reflexivity|].
    destruct ((128 <=? v) && (v <=? 159)) eqn:E3.
    + apply andb_true_iff in E3 as [H1 H2]. apply N.leb_le in H1, H2.
      assert (exists k, v = 128 + N.of_nat k /\ (k < 32)%nat) as (k & -> & Hk).
      { exists (N.to_nat (v - 128)). split; [lia|]. lia. }
      do 32 (destruct k as [|k]; [reflexivity|]). lia.
    + rewrite find_none; [reflexivity|]. apply andb_false_iff in E3 as [E3|E3]; apply N.leb_gt in E3; lia.
  - apply N.leb_gt in E1. assert (1114111 <? v = true) as -> by (apply N.ltb_lt; lia). reflexivity.
Qed.

Lemma digits_no_cr hex ds : Forall (fun c => base_digit hex c = true) ds -> ~ In 13 ds.
Proof. intros H Hi. rewrite Forall_forall in H. specialize (H _ Hi). destruct hex; discriminate. Qed.

Lemma numeric_reference sink hex ds s t : ds <> [] -> Forall (fun c => base_digit hex c = true) ds -> Forall plain s -> Forall plain t ->
  tokenize sink (s ++ (base_prefix hex ++ ds ++ [59]) ++ t) =
  Ok (map char_token (s ++ [referenced (number (base_of hex) ds)] ++ t) ++ [new_token T_END_OF_FILE]).
Proof.
  intros Hne Hds Hs Ht. unfold tokenize. rewrite normalize_id.
  2:{ rewrite !in_app_iff. intros [H|[[H|[H|[E|[]]]]|H]]; try discriminate; [exact (plain_no_cr _ Hs H)| |exact (digits_no_cr _ _ Hds H)|exact (plain_no_cr _ Ht H)].
      destruct hex; cbn in H; repeat (destruct H as [H|H]; [discriminate|]); contradiction. }
  destruct (plain_text sink DATA None s (or_introl eq_refl) Hs _ _ init_text) as (l1 & E1 & H1).
  destruct (num_run sink hex DATA None _ ds l1 (or_introl eq_refl) Hne Hds H1) as (l2 & E2 & ch & H2 & Ec).
  destruct (run_after sink None _ ch l2 t Ht H2) as (l3 & E3 & H3).
  unfold run. rewrite feed_app, E1. cbn [bind]. rewrite feed_app, E2. cbn [bind]. unfold run in E3. rewrite E3. cbn [bind].
  rewrite H3, Ec, referenced_decode. rewrite app_nil_r. cbn [rev]. rewrite rev_app_distr. cbn [rev]. rewrite !rev_involutive.
  rewrite !map_app, <- !app_assoc. reflexivity.
Qed.

Lemma decimal_number ds : Forall (fun c => base_digit false c = true) ds -> forall v,
  fold_left (fun v c => v * 10 + digit_value c) ds v = fold_left (fun v c => v * 10 + (c - 48)) ds v.
Proof.
  induction 1 as [|c ds Hc Hd IH]; intros v; [reflexivity|]. cbn [fold_left].
  rewrite IH. f_equal. unfold digit_value. cbn [base_digit] in Hc. now rewrite Hc.
Qed.
Theorem C58_decimal_reference : forall sink ds s t,
  ds <> [] -> Forall (fun c => 48 <= c <= 57) ds -> Forall plain s -> Forall plain t ->
  tokenize sink (s ++ [38; 35] ++ ds ++ [59] ++ t) =
  Ok (map char_token (s ++ [referenced (fold_left (fun v c => v * 10 + (c - 48)) ds 0)] ++ t) ++ [new_token T_END_OF_FILE]).
Proof.
  intros sink ds s t Hne Hds Hs Ht.
  assert (Forall (fun c => base_digit false c = true) ds) as Hd.
  { eapply Forall_impl; [|exact Hds]. intros c [H1 H2]. cbn [base_digit]. unfold is_digit. apply andb_true_iff. split; apply N.leb_le; lia. }
  pose proof (numeric_reference sink false ds s t Hne Hd Hs Ht) as H. cbn [base_prefix] in H.
  rewrite <- !app_assoc in H. rewrite H. unfold number. cbn [base_of]. rewrite (decimal_number ds Hd). reflexivity.
Qed.
Print Assumptions C58_decimal_reference.
Theorem C58_hexadecimal_reference_partial : forall sink ds s t,
  ds <> [] -> Forall (fun c => is_hex c = true) ds -> Forall plain s -> Forall plain t ->
  tokenize sink (s ++ [38; 35; 120] ++ ds ++ [59] ++ t) =
  Ok (map char_token (s ++ [referenced (number 16 ds)] ++ t) ++ [new_token T_END_OF_FILE]).
Proof.
  intros sink ds s t Hne Hd Hs Ht.
  pose proof (numeric_reference sink true ds s t Hne Hd Hs Ht) as H. cbn [base_prefix] in H.
  rewrite <- !app_assoc in H. exact H.
Qed.
Print Assumptions C58_hexadecimal_reference_partial.
Example C58_numeric_reference_case :
  tokenize no_switch (of_string "a&#8364;&#x1F600;&#128;&#xD800;b") =
  Ok (map char_token [97; 8364; 128512; 8364; 65533; 98] ++ [new_token T_END_OF_FILE]).
Proof. vm_compute. reflexivity. Qed.

(** Full claim: the digits of a hexadecimal reference are 0-9, A-F and a-f; any other letter ends it. *)
Theorem C58_hexadecimal_digits_refuted :
  ~ (forall sink ds c, ds <> [] -> Forall (fun x => is_hex x = true) ds -> is_hex c = false -> plain c -> c <> 59 ->
     tokenize sink ([38; 35; 120] ++ ds ++ [c]) =
     Ok (map char_token [referenced (number 16 ds); c] ++ [new_token T_END_OF_FILE])).
Proof.
  intros H. specialize (H no_switch [52; 49] 103). vm_compute in H.
  assert (Ok [mkToken T_CHARACTER None 1056 [] None None [] false false; mkToken T_END_OF_FILE None 0 [] None None [] false false] =
          Ok [mkToken T_CHARACTER None 65 [] None None [] false false; mkToken T_CHARACTER None 103 [] None None [] false false; mkToken T_END_OF_FILE None 0 [] None None [] false false]) as E.
  { apply H; try discriminate; [repeat constructor|reflexivity|repeat split; discriminate]. }
  discriminate.
Qed.
Print Assumptions C58_hexadecimal_digits_refuted.

(** ** C59: doctypes *)
Theorem C59_doctype_identifiers_partial : forall sink name pub sys t,
  doctype_ok name -> Forall id_char pub -> Forall id_char sys -> Forall plain t ->
  tokenize sink (of_string "<!DOCTYPE " ++ name ++ of_string " PUBLIC " ++ [34] ++ pub ++ [34; 32; 34] ++ sys ++ [34; 62] ++ t) =
  Ok ([mkToken T_DOCTYPE (Some name) 0 [] (Some pub) (Some sys) [] false false] ++ map char_token t ++ [new_token T_END_OF_FILE]).
Proof.
  intros sink name pub sys t Hn Hp Hs Ht. unfold tokenize. rewrite normalize_id.
  2:{ rewrite !in_app_iff. intros [H|[H|[H|[[E|[]]|[H|[[E|[E|[E|[]]]]|[H|[[E|[E|[]]]|H]]]]]]]]; try discriminate.
      - vm_compute in H. repeat (destruct H as [H|H]; [discriminate|]). contradiction.
      - exact (name_chars_no_cr _ (proj2 Hn) H).
      - vm_compute in H. repeat (destruct H as [H|H]; [discriminate|]). contradiction.
      - rewrite Forall_forall in Hp. destruct (Hp _ H) as (_ & _ & _ & E). apply E. reflexivity.
      - rewrite Forall_forall in Hs. destruct (Hs _ H) as (_ & _ & _ & E). apply E. reflexivity.
      - exact (plain_no_cr _ Ht H). }
  destruct (full_doctype_run sink None [] name pub sys init Hn Hp Hs init_text) as (l1 & E1 & H1).
  destruct (plain_text sink DATA None t (or_introl eq_refl) Ht _ _ H1) as (l2 & E2 & H2).
  destruct (finish_data sink _ _ _ H2) as (l3 & E3 & H3).
  unfold run.
  replace (of_string "<!DOCTYPE " ++ name ++ of_string " PUBLIC " ++ [34] ++ pub ++ [34; 32; 34] ++ sys ++ [34; 62] ++ t)
    with ((of_string "<!DOCTYPE " ++ name ++ of_string " PUBLIC " ++ [34] ++ pub ++ [34; 32; 34] ++ sys ++ [34; 62]) ++ t)
    by (rewrite <- !app_assoc; reflexivity).
  rewrite feed_app, E1. cbn [bind]. rewrite E2. cbn [bind]. rewrite E3. cbn [bind]. rewrite H3. cbn [rev].
  rewrite rev_app_distr, rev_involutive. reflexivity.
Qed.
Print Assumptions C59_doctype_identifiers_partial.
Example C59_doctype_identifiers_case :
  tokenize no_switch (of_string "<!DOCTYPE html PUBLIC ""-//W3C//DTD"" ""http://w3.org"">") =
  Ok [mkToken T_DOCTYPE (Some (of_string "html")) 0 [] (Some (of_string "-//W3C//DTD")) (Some (of_string "http://w3.org")) [] false false; new_token T_END_OF_FILE].
Proof. vm_compute. reflexivity. Qed.

(** Full claim: the amount of white space after the name does not matter. Two spaces before
    [PUBLIC] lose both identifiers and turn quirks on. *)
Theorem C59_doctype_white_space_refuted :
  ~ (forall sink name pub sys, doctype_ok name -> Forall id_char pub -> Forall id_char sys ->
     tokenize sink (of_string "<!DOCTYPE " ++ name ++ of_string "  PUBLIC " ++ [34] ++ pub ++ [34; 32; 34] ++ sys ++ [34; 62]) =
     Ok [mkToken T_DOCTYPE (Some name) 0 [] (Some pub) (Some sys) [] false false; new_token T_END_OF_FILE]).
Proof.
  intros H. assert (doctype_ok (of_string "html")) as Hn by (split; [discriminate|repeat constructor; discriminate]).
  specialize (H no_switch (of_string "html") [] [] Hn (Forall_nil _) (Forall_nil _)). vm_compute in H. discriminate.
Qed.
Print Assumptions C59_doctype_white_space_refuted.

(** A space before the [>] of a doctype spoils the next comment. *)
Theorem C59_doctype_leaks_refuted :
  ~ (forall sink s, comment_ok s ->
     tokenize sink (of_string "<!DOCTYPE html ><!--" ++ s ++ of_string "-->") =
     Ok [doctype_token (of_string "html"); comment_token s; new_token T_END_OF_FILE]).
Proof.
  intros H. assert (comment_ok (of_string "c")) as Hc.
  { repeat split; try (intros [H1|[]]; discriminate); try (intros r; discriminate).
    - intros [|x [|y z]] b; discriminate.
    - intros [|x [|y z]]; discriminate. }
  specialize (H no_switch (of_string "c") Hc). vm_compute in H. discriminate.
Qed.
Print Assumptions C59_doctype_leaks_refuted.

(** ** C22: serialisation *)

(** Full claim: for every tree, the tokens of its serialisation are those of the tree. It holds for
    the trees that [expressible] describes; the theorems below show where it fails. *)
Theorem C22_serialisation_roundtrip_partial : forall sink ns,
  by_name sink -> Forall expressible ns ->
  exists ts, token_lists ns ts /\ tokenize sink (serialize ns) = Ok (ts ++ [new_token T_END_OF_FILE]).
Proof.
  intros sink ns Hb Hx. destruct (serialize_run sink Hb ns Hx _ _ _ init_text) as (ts & Hts & l & E & la & H).
  exists ts. split; [exact Hts|]. unfold tokenize. rewrite normalize_id by exact (serialize_no_cr ns Hx).
  unfold run. rewrite E. cbn [bind]. destruct (finish_data sink _ _ _ H) as (l' & E' & H'). rewrite E'. cbn [bind].
  rewrite H'. cbn [rev]. rewrite app_nil_r, rev_involutive. reflexivity.
Qed.
Print Assumptions C22_serialisation_roundtrip_partial.

Definition sample_tree : list node :=
  [Doctype (of_string "html");
   Element (html_tag "div") [(mkQName None (of_string "title"), of_string "a""<&b"); (mkQName None (of_string "is"), of_string "x")]
     [Text (of_string "1 < 2 & 3 &amp; 4"); Comment (of_string " <!note "); Element (html_tag "br") [] [];
      Element (mkQName (Some svg_ns) (of_string "g")) [] [Text [160; 62]];
      Element (html_tag "style") [] [Text (of_string "a > b { c: '&amp;' } <")];
      Element (html_tag "textarea") [] [Text (of_string "<b>&")]]].
Ltac expr1 := repeat split; try discriminate; try (intros H; vm_compute in H; repeat (destruct H as [H|H]; [discriminate|]); contradiction).
Example C22_sample_expressible : Forall expressible sample_tree.
Proof.
  assert (comment_ok (of_string " <!note ")) as Hc.
  { split; [expr1|]. split; [intros r; discriminate|]. split; [intros r; discriminate|]. split.
    - intros a b E. assert (In 45 (of_string " <!note ")) as Hi by (rewrite E; apply in_elt). vm_compute in Hi.
      repeat (destruct Hi as [Hi|Hi]; [discriminate|]). contradiction.
    - intros a E. assert (In 45 (of_string " <!note ")) as Hi by (rewrite E; apply in_elt). vm_compute in Hi.
      repeat (destruct Hi as [Hi|Hi]; [discriminate|]). contradiction. }
  assert (raw_ok (of_string "a > b { c: '&amp;' } <")) as Hr.
  { split; [expr1|]. split; intros a b E.
    - assert (In 47 (of_string "a > b { c: '&amp;' } <")) as Hi by (rewrite E; apply in_or_app; right; right; left; reflexivity). vm_compute in Hi.
      repeat (destruct Hi as [Hi|Hi]; [discriminate|]). contradiction.
    - assert (In 33 (of_string "a > b { c: '&amp;' } <")) as Hi by (rewrite E; apply in_or_app; right; right; left; reflexivity). vm_compute in Hi.
      repeat (destruct Hi as [Hi|Hi]; [discriminate|]). contradiction. }
  assert (name_ok (mkQName (Some svg_ns) (of_string "g"))) as Hg.
  { split; [split; [reflexivity|constructor]|]. right. split; [left; reflexivity|reflexivity]. }
  repeat (first [exact Hc|exact Hr|exact Hg|constructor]).
  all: try discriminate.
  all: try (intros H; vm_compute in H; repeat (destruct H as [H|H]; [discriminate|]); contradiction).
Qed.
Example C22_sample_tokens :
  tokenize switch_by_name (of_string "<p is=""x"">&lt;</p>") =
  Ok [tag_token T_START_TAG (of_string "p") [(of_string "is", of_string "x")]; char_token 60; tag_token T_END_TAG (of_string "p") []; new_token T_END_OF_FILE].
Proof. vm_compute. reflexivity. Qed.

(** Attributes are written by local name: two that differ in their namespace become one. *)
Theorem C22_namespaced_attributes_refuted : exists ns,
  serialize ns = serialize [Element (html_tag "p") [(mkQName None (of_string "href"), of_string "a"); (mkQName None (of_string "href"), of_string "b")] []] /\
  ns = [Element (html_tag "p") [(mkQName None (of_string "href"), of_string "a"); (mkQName (Some xml_ns) (of_string "href"), of_string "b")] []] /\
  tokenize switch_by_name (serialize ns) =
  Ok [tag_token T_START_TAG (of_string "p") [(of_string "href", of_string "a")]; tag_token T_END_TAG (of_string "p") []; new_token T_END_OF_FILE].
Proof. eexists. split; [|split; [reflexivity|]]; vm_compute; reflexivity. Qed.
Print Assumptions C22_namespaced_attributes_refuted.

(** The text of a noscript element is written as it is, and read as markup when scripting is off. *)
Theorem C22_noscript_refuted :
  tokenize switch_by_name (serialize [Element (html_tag "noscript") [] [Text (of_string "<b>")]]) =
  Ok [tag_token T_START_TAG (of_string "noscript") []; tag_token T_START_TAG (of_string "b") []; tag_token T_END_TAG (of_string "noscript") []; new_token T_END_OF_FILE].
Proof. vm_compute. reflexivity. Qed.
Print Assumptions C22_noscript_refuted.

(** An element of another namespace gets a colon in its name: it is not the name of the element. *)
Theorem C22_other_namespace_refuted :
  tokenize switch_by_name (serialize [Element (mkQName (Some (of_string "urn:x")) (of_string "a")) [] []]) =
  Ok [tag_token T_START_TAG (of_string "urn:x:a") []; tag_token T_END_TAG (of_string "urn:x:a") []; new_token T_END_OF_FILE].
Proof. vm_compute. reflexivity. Qed.
Print Assumptions C22_other_namespace_refuted.
