(** What tree construction never breaks: the links of the document, and where its content comes from. *)
From Coq Require Import String List Arith Bool NArith Lia.
From Verif.Base Require Import Str.
From Verif.Html Require Import LexerModel SerialModel SerialSpec SvgNames FromSpec BuildModel BuildDom.
Import ListNotations.
Local Open Scope list_scope.
Local Infix ";;" := seq (at level 61, right associativity).

(** ** Links *)
Record links (d : dom) : Prop := {
  k_up : forall p i, In i (kids d p) -> parent_of d i = Some p;
  k_once : forall p, NoDup (kids d p);
  k_root : parent_of d 0 = None;
}.
Definition kinds (d : dom) : list kind := map d_kind d.
Lemma kinds_update d i f : (forall x, d_kind (f x) = d_kind x) -> kinds (update d i f) = kinds d.
Proof. intros H. unfold kinds. revert i. induction d as [|x d IH]; intros [|i]; cbn; [reflexivity|reflexivity|now rewrite H|now rewrite IH]. Qed.
Lemma kids_update d i f p : kids (update d i f) p = if Nat.eqb p i then match nth_error d p with Some x => d_kids (f x) | None => [] end else kids d p.
Proof. unfold kids. rewrite nth_update. destruct (Nat.eqb p i); [|reflexivity]. destruct (nth_error d p); reflexivity. Qed.
Lemma parent_update d i f p : parent_of (update d i f) p = if Nat.eqb p i then match nth_error d p with Some x => d_parent (f x) | None => None end else parent_of d p.
Proof. unfold parent_of. rewrite nth_update. destruct (Nat.eqb p i); [|reflexivity]. destruct (nth_error d p); reflexivity. Qed.

Lemma kinds_remove d n : kinds (remove_node d n) = kinds d.
Proof. unfold remove_node. destruct (parent_of d n); [|reflexivity]. rewrite !kinds_update by reflexivity. reflexivity. Qed.
Lemma kinds_append d p n : kinds (append_child d p n) = kinds d.
Proof. unfold append_child. rewrite !kinds_update by reflexivity. apply kinds_remove. Qed.
Lemma kinds_insert d p n c : kinds (insert_before d p n c) = kinds d.
Proof. unfold insert_before. rewrite !kinds_update by reflexivity. apply kinds_remove. Qed.
Lemma kinds_length d : length (kinds d) = length d.
Proof. apply map_length. Qed.
Lemma length_remove d n : length (remove_node d n) = length d.
Proof. now rewrite <- !kinds_length, kinds_remove. Qed.

Lemma in_remove_iff (n i : nat) l : In i (remove Nat.eq_dec n l) <-> In i l /\ i <> n.
Proof. split; [apply in_remove|intros [H1 H2]; now apply in_in_remove]. Qed.
Lemma NoDup_remove_all (n : nat) l : NoDup l -> NoDup (remove Nat.eq_dec n l).
Proof.
  induction 1 as [|x l Hx Hl IH]; [constructor|]. cbn [remove]. destruct (Nat.eq_dec n x); [exact IH|]. constructor; [|exact IH].
  intros H. apply Hx. now apply in_remove in H.
Qed.
Lemma remove_links d n : links d -> links (remove_node d n) /\ (forall p, ~ In n (kids (remove_node d n) p)) /\ parent_of (remove_node d n) n = None.
Proof.
  intros L. unfold remove_node. destruct (parent_of d n) as [p0|] eqn:E.
  - assert (forall p, kids (update (update d p0 (fun x => set_kids (remove Nat.eq_dec n (d_kids x)) x)) n (set_parent None)) p = if Nat.eqb p p0 then remove Nat.eq_dec n (kids d p) else kids d p) as K.
    { intros p. rewrite kids_update. destruct (Nat.eqb p n) eqn:En.
      - rewrite nth_update. destruct (Nat.eqb p p0) eqn:E0; unfold kids; destruct (nth_error d p); reflexivity.
      - rewrite kids_update. destruct (Nat.eqb p p0); [|reflexivity]. unfold kids. destruct (nth_error d p); reflexivity. }
    assert (forall i, parent_of (update (update d p0 (fun x => set_kids (remove Nat.eq_dec n (d_kids x)) x)) n (set_parent None)) i = if Nat.eqb i n then None else parent_of d i) as Q.
    { intros i. rewrite parent_update. destruct (Nat.eqb i n) eqn:En; [destruct (nth_error _ i); reflexivity|]. rewrite parent_update. destruct (Nat.eqb i p0); [|reflexivity].
      unfold parent_of. destruct (nth_error d i); reflexivity. }
    assert (forall p, ~ In n (kids (update (update d p0 (fun x => set_kids (remove Nat.eq_dec n (d_kids x)) x)) n (set_parent None)) p)) as F.
    { intros p. rewrite K. destruct (Nat.eqb p p0) eqn:E0; [apply remove_In|]. intros H. apply (k_up d L) in H. apply Nat.eqb_neq in E0. congruence. }
    split; [|split; [exact F|rewrite Q, Nat.eqb_refl; reflexivity]]. constructor.
    + intros p i Hi. rewrite Q. destruct (Nat.eqb i n) eqn:En; [apply Nat.eqb_eq in En; subst; exfalso; exact (F p Hi)|].
      rewrite K in Hi. destruct (Nat.eqb p p0); [apply in_remove in Hi as [Hi _]|]; exact (k_up d L p i Hi).
    + intros p. rewrite K. destruct (Nat.eqb p p0); [apply NoDup_remove_all|]; apply (k_once d L).
    + rewrite Q. destruct (Nat.eqb 0 n); [reflexivity|apply (k_root d L)].
  - split; [exact L|]. split; [|exact E]. intros p H. apply (k_up d L) in H. congruence.
Qed.
(** Any list of children in which the new child appears once, and nothing else is new. *)
Lemma attach_links d p n (g : list nat -> list nat) : links d -> (forall q, ~ In n (kids d q)) -> 0 < n < length d ->
  (forall i l, In i (g l) -> i = n \/ In i l) -> (forall l, NoDup l -> ~ In n l -> NoDup (g l)) ->
  links (update (update d p (fun x => set_kids (g (d_kids x)) x)) n (set_parent (Some p))).
Proof.
  intros L F Hn G1 G2.
  assert (forall q, kids (update (update d p (fun x => set_kids (g (d_kids x)) x)) n (set_parent (Some p))) q = if Nat.eqb q p then (if Nat.ltb q (length d) then g (kids d q) else []) else kids d q) as K.
  { assert (forall q, (if Nat.ltb q (length d) then g (kids d q) else []) = match nth_error d q with Some x => g (d_kids x) | None => [] end) as KK.
    { intros q. unfold kids. destruct (Nat.ltb_spec q (length d)); [destruct (nth_error d q) eqn:E; [reflexivity|apply nth_error_None in E; lia]|].
      now rewrite (proj2 (nth_error_None d q)). }
    intros q. rewrite kids_update. destruct (Nat.eqb q n) eqn:En.
    - rewrite nth_update. destruct (Nat.eqb q p) eqn:E0; [rewrite KK|unfold kids]; destruct (nth_error d q); reflexivity.
    - rewrite kids_update. destruct (Nat.eqb q p); [rewrite KK|reflexivity]. destruct (nth_error d q); reflexivity. }
  assert (forall i, parent_of (update (update d p (fun x => set_kids (g (d_kids x)) x)) n (set_parent (Some p))) i = if Nat.eqb i n then Some p else parent_of d i) as Q.
  { intros i. rewrite parent_update. destruct (Nat.eqb i n) eqn:En.
    - apply Nat.eqb_eq in En. subst. rewrite nth_update. destruct (nth_error d n) eqn:E; [|apply nth_error_None in E; lia]. destruct (Nat.eqb n p); reflexivity.
    - rewrite parent_update. destruct (Nat.eqb i p); [|reflexivity]. unfold parent_of. destruct (nth_error d i); reflexivity. }
  constructor.
  - intros q i Hi. rewrite Q. rewrite K in Hi. destruct (Nat.eqb q p) eqn:E0.
    + apply Nat.eqb_eq in E0. subst q. destruct (Nat.ltb p (length d)); [|destruct Hi]. apply G1 in Hi. destruct (Nat.eqb i n) eqn:En; [reflexivity|].
      destruct Hi as [->|Hi]; [rewrite Nat.eqb_refl in En; discriminate|]. exact (k_up d L _ _ Hi).
    + destruct (Nat.eqb i n) eqn:En; [apply Nat.eqb_eq in En; subst; exfalso; exact (F q Hi)|]. exact (k_up d L _ _ Hi).
  - intros q. rewrite K. destruct (Nat.eqb q p); [|apply (k_once d L)]. destruct (Nat.ltb q (length d)); [|constructor]. apply G2; [apply (k_once d L)|apply F].
  - rewrite Q. destruct (Nat.eqb_spec 0 n); [lia|]. apply (k_root d L).
Qed.
Lemma append_links d p n : links d -> 0 < n < length d -> links (append_child d p n).
Proof.
  intros L Hn. destruct (remove_links d n L) as (L' & F & _). unfold append_child. apply (attach_links (remove_node d n) p n (fun l => l ++ [n])); auto.
  - rewrite length_remove. exact Hn.
  - intros i l H. apply in_app_or in H as [H|[H|[]]]; auto.
  - intros l Hl Hx. clear -Hl Hx. induction Hl as [|x l Hx' _ IH]; cbn; [repeat constructor; intros []|].
    constructor; [|apply IH; intros H; apply Hx; now right]. intros H. apply in_app_or in H as [H|[H|[]]]; [now apply Hx'|]. apply Hx. now left.
Qed.
Lemma before_in_in n c l i : In i (before_in n c l) -> i = n \/ In i l.
Proof. induction l as [|x l IH]; cbn; [tauto|]. destruct (Nat.eqb x c); cbn; intuition auto. Qed.
Lemma before_in_nodup n c l : NoDup l -> ~ In n l -> NoDup (before_in n c l).
Proof.
  induction 1 as [|x l Hx Hl IH]; cbn; intros Hn; [constructor|]. destruct (Nat.eqb x c).
  - constructor; [exact Hn|]. constructor; assumption.
  - constructor; [|apply IH; tauto]. intros H. apply before_in_in in H as [->|H]; tauto.
Qed.
Lemma insert_links d p n c : links d -> 0 < n < length d -> links (insert_before d p n c).
Proof.
  intros L Hn. destruct (remove_links d n L) as (L' & F & _). unfold insert_before. apply (attach_links (remove_node d n) p n (before_in n c)); auto.
  - rewrite length_remove. exact Hn.
  - intros i l. apply before_in_in.
  - intros l. apply before_in_nodup.
Qed.
Lemma loc_links l d n : links d -> 0 < n < length d -> links (loc_insert l n d).
Proof. intros L Hn. unfold loc_insert. destruct (l_before l); [apply insert_links|apply append_links]; assumption. Qed.
Lemma loc_kinds l d n : kinds (loc_insert l n d) = kinds d.
Proof. unfold loc_insert. destruct (l_before l); [apply kinds_insert|apply kinds_append]. Qed.
Lemma alloc_links k d : links d -> links (alloc k d).
Proof.
  intros L. unfold alloc.
  assert (forall p, kids (d ++ [mkNode k None []]) p = kids d p) as K.
  { intros p. unfold kids. destruct (Nat.lt_trichotomy p (length d)) as [H|[->|H]].
    - rewrite nth_error_app1 by exact H. reflexivity.
    - rewrite nth_last by reflexivity. now rewrite (proj2 (nth_error_None d (length d))) by lia.
    - rewrite (proj2 (nth_error_None d p)) by lia. rewrite (proj2 (nth_error_None _ p)); [reflexivity|]. rewrite app_length. cbn. lia. }
  assert (forall p, parent_of (d ++ [mkNode k None []]) p = parent_of d p) as Q.
  { intros p. unfold parent_of. destruct (Nat.lt_trichotomy p (length d)) as [H|[->|H]].
    - rewrite nth_error_app1 by exact H. reflexivity.
    - rewrite nth_last by reflexivity. now rewrite (proj2 (nth_error_None d (length d))) by lia.
    - rewrite (proj2 (nth_error_None d p)) by lia. rewrite (proj2 (nth_error_None _ p)); [reflexivity|]. rewrite app_length. cbn. lia. }
  constructor; intros; rewrite ?K, ?Q in *; destruct L; eauto.
Qed.
Lemma alloc_kinds k d : kinds (alloc k d) = kinds d ++ [k].
Proof. unfold kinds, alloc. rewrite map_app. reflexivity. Qed.
(** Changing what a node is. *)
Lemma update_kind_links d i f : (forall x, d_kids (f x) = d_kids x) -> (forall x, d_parent (f x) = d_parent x) -> links d -> links (update d i f).
Proof.
  intros H1 H2 L.
  assert (forall p, kids (update d i f) p = kids d p) as K by (intros p; rewrite kids_update; destruct (Nat.eqb p i); [|reflexivity]; unfold kids; destruct (nth_error d p); [now rewrite H1|reflexivity]).
  assert (forall p, parent_of (update d i f) p = parent_of d p) as Q by (intros p; rewrite parent_update; destruct (Nat.eqb p i); [|reflexivity]; unfold parent_of; destruct (nth_error d p); [now rewrite H2|reflexivity]).
  constructor; intros; rewrite ?K, ?Q in *; destruct L; eauto.
Qed.
Lemma move_kids_inv a b d : links d -> 0 < b < length d -> links (move_kids a b d) /\ kinds (move_kids a b d) = kinds d.
Proof.
  intros L Hb. unfold move_kids. assert (Forall (fun c => 0 < c < length d) (kids d a)) as Hk.
  { apply Forall_forall. intros c Hc. apply (k_up d L) in Hc. assert (c <> 0) by (intros ->; rewrite (k_root d L) in Hc; discriminate).
    unfold parent_of in Hc. assert (c < length d); [|lia]. apply nth_error_Some. destruct (nth_error d c); [discriminate|discriminate]. }
  assert (forall d', links d' -> kinds d' = kinds d -> links (fold_left (fun d c => append_child d b c) (kids d a) d') /\ kinds (fold_left (fun d c => append_child d b c) (kids d a) d') = kinds d) as H.
  { induction Hk as [|c l Hc _ IH]; intros d' L' K'; [split; assumption|]. cbn [fold_left]. apply IH.
    - apply append_links; [exact L'|]. rewrite <- (kinds_length d'), K', kinds_length. exact Hc.
    - now rewrite kinds_append. }
  apply H; auto.
Qed.

(** ** The invariant *)
Section Inv.
Variable ts : list token.
(** What a character counts for. *)
Variable g : N -> nat.

Definition ns_ok (q : qname) : Prop := q_ns q = Some html_ns \/ q_ns q = Some svg_ns \/ q_ns q = Some mathml_ns.
Definition kind_ok (k : kind) : Prop :=
  match k with
  | KDocument => True
  | KDoctype n _ _ => node_from ts (Doctype n)
  | KElement q a => node_from ts (Element q a [])
  | KText s => node_from ts (Text s)
  | KComment s => node_from ts (Comment s)
  end.
Definition weight (k : kind) : nat := match k with KText s => list_sum (map g s) | _ => 0 end.
Definition text_sum (d : dom) : nat := list_sum (map weight (kinds d)).
Definition tag_ok (t : token) : Prop :=
  (forall n, t_name t = Some n -> element_name ts n) /\ Forall (fun x => attr_from ts (fst x) (snd x)) (t_attrs t).
Definition from (t : token) : Prop :=
  (is_start t = true -> forall n, t_name t = Some n -> tag_name ts n) /\
  Forall (fun x => exists t', In t' ts /\ In x (t_attrs t')) (t_attrs t) /\
  (is_char t = true -> char_from ts (t_rune t) /\ (t_rune t = 0%N -> char_from ts 65533)) /\
  (is_comment t = true -> node_from ts (Comment (t_data t))) /\
  (is_doctype t = true -> node_from ts (Doctype (match t_name t with Some n => n | None => [] end))).
Definition w (t : token) : nat := if is_char t then g (t_rune t) + (if (t_rune t =? 0)%N then g 65533 else 0) else 0.

Definition inside (d : dom) (e : elem) : Prop := 0 < e_id e < length d /\ ns_ok (e_name e).
Definition entry_ok (d : dom) (x : entry) : Prop := match x with Marker => True | Formatting e t => inside d e /\ tag_ok t end.
Definition is_itt (m : mode) : bool := match m with IN_TABLE_TEXT => true | _ => false end.
Definition held_sum (s : st) : nat := if is_itt (s_mode s) then list_sum (map w (s_pending s)) else 0.
Record inv (b : nat) (s : st) : Prop := {
  i_links : links (s_dom s);
  i_len : kind_of (s_dom s) 0 = Some KDocument;
  i_kinds : Forall kind_ok (kinds (s_dom s));
  i_stack : Forall (inside (s_dom s)) (s_stack s);
  i_head : forall e, s_head s = Some e -> inside (s_dom s) e;
  i_form : forall e, s_form s = Some e -> inside (s_dom s) e;
  i_active : Forall (entry_ok (s_dom s)) (s_active s);
  i_pending : Forall (fun t => is_char t = true /\ from t) (s_pending s);
  i_orig : is_itt (s_orig s) = false;
  i_count : text_sum (s_dom s) + held_sum s <= b;
}.

Lemma inv_more b b' s : b <= b' -> inv b s -> inv b' s.
Proof. intros H []. constructor; auto. lia. Qed.

(** A change of the document. *)
Lemma inside_more d d' e : length d <= length d' -> inside d e -> inside d' e.
Proof. intros H [H1 H2]. split; [lia|exact H2]. Qed.
Lemma entry_more d d' x : length d <= length d' -> entry_ok d x -> entry_ok d' x.
Proof. intros H. destruct x; cbn; [auto|]. intros [H1 H2]. split; [eapply inside_more; eauto|exact H2]. Qed.
Lemma inv_dom b n s d : inv b s -> links d -> kind_of d 0 = Some KDocument -> length (s_dom s) <= length d -> Forall kind_ok (kinds d) ->
  text_sum d <= text_sum (s_dom s) + n -> inv (b + n) (set_dom d s).
Proof.
  intros I L Z Hl Hk Ht. destruct I. constructor; auto.
  - eapply Forall_impl; [|exact i_stack0]. intros e. apply inside_more, Hl.
  - intros e He. eapply inside_more; eauto.
  - intros e He. eapply inside_more; eauto.
  - eapply Forall_impl; [|exact i_active0]. intros e. apply entry_more, Hl.
  - change (held_sum (set_dom d s)) with (held_sum s). change (s_dom (set_dom d s)) with d. lia.
Qed.
Lemma kind_of_kinds d i : kind_of d i = nth_error (kinds d) i.
Proof. unfold kind_of, kinds. rewrite nth_error_map. destruct (nth_error d i); reflexivity. Qed.
(** The same nodes, linked in another way. *)
Lemma inv_relink b s d : inv b s -> links d -> kinds d = kinds (s_dom s) -> inv b (set_dom d s).
Proof.
  intros I L K. replace b with (b + 0) by lia. apply inv_dom; auto.
  - rewrite kind_of_kinds, K, <- kind_of_kinds. apply (i_len _ _ I).
  - rewrite <- !kinds_length, K. lia.
  - rewrite K. apply (i_kinds _ _ I).
  - unfold text_sum. rewrite K. lia.
Qed.
(** A new node. *)
Lemma inv_new b n s d k : inv b s -> links d -> kinds d = kinds (s_dom s) ++ [k] -> kind_ok k -> weight k <= n -> inv (b + n) (set_dom d s).
Proof.
  intros I L K Hk Hn. pose proof (i_len _ _ I) as Z. rewrite kind_of_kinds in Z. apply inv_dom; auto.
  - rewrite kind_of_kinds, K, nth_error_app1; [exact Z|]. apply nth_error_Some. congruence.
  - rewrite <- !kinds_length, K, app_length. lia.
  - rewrite K. apply Forall_app. split; [apply (i_kinds _ _ I)|repeat constructor; exact Hk].
  - unfold text_sum. rewrite K, map_app, list_sum_app. cbn. lia.
Qed.
Lemma dom_pos b s : inv b s -> 0 < length (s_dom s).
Proof. intros I. pose proof (i_len _ _ I) as H. unfold kind_of in H. destruct (s_dom s); [discriminate|cbn; lia]. Qed.

(** The rest of the state. *)
Lemma inv_stack b s k : inv b s -> Forall (inside (s_dom s)) k -> inv b (set_stack k s).
Proof. intros [] H. constructor; auto. Qed.
Lemma inv_sub b s k : inv b s -> incl k (s_stack s) -> inv b (set_stack k s).
Proof. intros I H. apply inv_stack; [exact I|]. eapply incl_Forall; [exact H|apply (i_stack _ _ I)]. Qed.
Lemma inv_active b s a i : inv b s -> Forall (entry_ok (s_dom s)) a -> inv b (set_active a i s).
Proof. intros [] H. constructor; auto. Qed.
Lemma inv_mode b s m : inv b s -> is_itt m = false -> inv b (set_mode m s).
Proof. intros [] H. constructor; auto. unfold held_sum at 1. cbn [set_mode s_mode s_dom]. rewrite H. lia. Qed.
Lemma inv_orig b s m : inv b s -> is_itt m = false -> inv b (set_orig m s).
Proof. intros [] H. constructor; auto. Qed.
Lemma inv_frameset b s x : inv b s -> inv b (set_frameset x s).
Proof. intros []. constructor; auto. Qed.
Lemma inv_foster b s x : inv b s -> inv b (set_foster x s).
Proof. intros []. constructor; auto. Qed.
Lemma inv_skip b s x : inv b s -> inv b (set_skip x s).
Proof. intros []. constructor; auto. Qed.
Lemma inv_switch b s x : inv b s -> inv b (set_switch x s).
Proof. intros []. constructor; auto. Qed.
Lemma inv_set_form b s e : inv b s -> (forall x, e = Some x -> inside (s_dom s) x) -> inv b (set_form e s).
Proof. intros [] H. constructor; auto. Qed.
Lemma inv_set_head b s e : inv b s -> (forall x, e = Some x -> inside (s_dom s) x) -> inv b (set_head e s).
Proof. intros [] H. constructor; auto. Qed.

(** *** Statements *)
(** The mode and the text held back. *)
Definition mp (s : st) : mode * list token := (s_mode s, s_pending s).
(** In a state in which no text is held back, and leaving it so. *)
Definition keeps (n : nat) (a : act) : Prop :=
  forall b s s', inv b s -> a s = Done s' -> inv (b + n) s' /\ mp s' = mp s.
(** Also changing the mode, but not to the one in which text is held back. *)
Definition moves (n : nat) (a : act) : Prop :=
  forall b s s', inv b s -> is_itt (s_mode s) = false -> a s = Done s' -> inv (b + n) s' /\ is_itt (s_mode s') = false.
(** Whatever the mode is after it. *)
Definition ends_ok (n : nat) (a : act) : Prop :=
  forall b s s', inv b s -> is_itt (s_mode s) = false -> a s = Done s' -> inv (b + n) s'.
(** Whatever the mode is before it. *)
Definition any_ok (n : nat) (a : act) : Prop := forall b s s', inv b s -> a s = Done s' -> inv (b + n) s'.

Lemma keeps_moves n a : keeps n a -> moves n a.
Proof. intros H b s s' I M E. destruct (H b s s' I E) as [H1 H2]. split; [exact H1|]. injection H2 as H2 _. congruence. Qed.
Lemma moves_ends n a : moves n a -> ends_ok n a.
Proof. intros H b s s' I M E. apply (H b s s' I M E). Qed.
Lemma any_ends n a : any_ok n a -> ends_ok n a.
Proof. intros H b s s' I M E. exact (H b s s' I E). Qed.
Lemma keeps_any n a : keeps n a -> any_ok n a.
Proof. intros H b s s' I E. apply (H b s s' I E). Qed.
Lemma more_keeps n m a : n <= m -> keeps n a -> keeps m a.
Proof. intros Hn H b s s' I E. destruct (H b s s' I E). split; [eapply inv_more; [|eassumption]; lia|assumption]. Qed.
Lemma more_moves n m a : n <= m -> moves n a -> moves m a.
Proof. intros Hn H b s s' I M E. destruct (H b s s' I M E). split; [eapply inv_more; [|eassumption]; lia|assumption]. Qed.
Lemma more_ends n m a : n <= m -> ends_ok n a -> ends_ok m a.
Proof. intros Hn H b s s' I M E. eapply inv_more; [|apply (H b s s' I M E)]. lia. Qed.

Lemma seq_inv f g' s s' : seq f g' s = Done s' -> exists s1, f s = Done s1 /\ g' s1 = Done s'.
Proof. unfold seq. destruct (f s); [|discriminate]. cbn. eauto. Qed.
Lemma seq_keeps n m f g' : keeps n f -> keeps m g' -> keeps (n + m) (seq f g').
Proof.
  intros Hf Hg b s s' I E. apply seq_inv in E as (s1 & E1 & E2). destruct (Hf _ _ _ I E1) as [I1 M1]. destruct (Hg _ _ _ I1 E2) as [I2 M2].
  split; [|congruence]. eapply inv_more; [|exact I2]. lia.
Qed.
Lemma seq_moves n m f g' : moves n f -> moves m g' -> moves (n + m) (seq f g').
Proof.
  intros Hf Hg b s s' I M E. apply seq_inv in E as (s1 & E1 & E2). destruct (Hf _ _ _ I M E1) as [I1 M1]. destruct (Hg _ _ _ I1 M1 E2) as [I2 M2].
  split; [|exact M2]. eapply inv_more; [|exact I2]. lia.
Qed.
Lemma seq_ends n m f g' : moves n f -> ends_ok m g' -> ends_ok (n + m) (seq f g').
Proof.
  intros Hf Hg b s s' I M E. apply seq_inv in E as (s1 & E1 & E2). destruct (Hf _ _ _ I M E1) as [I1 M1]. eapply inv_more; [|exact (Hg _ _ _ I1 M1 E2)]. lia.
Qed.
Lemma seq_any n m f g' : ends_ok n f -> any_ok m g' -> ends_ok (n + m) (seq f g').
Proof.
  intros Hf Hg b s s' I M E. apply seq_inv in E as (s1 & E1 & E2). eapply inv_more; [|exact (Hg _ _ _ (Hf _ _ _ I M E1) E2)]. lia.
Qed.
Lemma branch_inv c x y s s' : branch c x y s = Done s' -> x s = Done s' \/ y s = Done s'.
Proof. unfold branch. destruct (c s) as [v|]; [|discriminate]. cbn. destruct v; auto. Qed.
Lemma branch_keeps n c x y : keeps n x -> keeps n y -> keeps n (branch c x y).
Proof. intros Hx Hy b s s' I E. apply branch_inv in E as [E|E]; eauto. Qed.
Lemma branch_moves n c x y : moves n x -> moves n y -> moves n (branch c x y).
Proof. intros Hx Hy b s s' I M E. apply branch_inv in E as [E|E]; eauto. Qed.
Lemma branch_ends n c x y : ends_ok n x -> ends_ok n y -> ends_ok n (branch c x y).
Proof. intros Hx Hy b s s' I M E. apply branch_inv in E as [E|E]; eauto. Qed.
Lemma nop_keeps n : keeps n nop.
Proof. intros b s s' I E. injection E as <-. split; [eapply inv_more; [|exact I]; lia|reflexivity]. Qed.
Lemma when_keeps n c x : keeps n x -> keeps n (whenever c x).
Proof. intros H. apply branch_keeps; [exact H|apply nop_keeps]. Qed.

(** *** The stack *)
Lemma keep0 (a : act) : (forall b s s', inv b s -> a s = Done s' -> inv b s' /\ mp s' = mp s) -> keeps 0 a.
Proof. intros H b s s' I E. rewrite Nat.add_0_r. exact (H b s s' I E). Qed.
Lemma sub_keeps (a : act) : (forall s s', a s = Done s' -> exists k, s' = set_stack k s /\ incl k (s_stack s)) -> keeps 0 a.
Proof. intros H. apply keep0. intros b s s' I E. destruct (H _ _ E) as (k & -> & Hk). split; [apply inv_sub; assumption|reflexivity]. Qed.
Lemma pop_keeps : keeps 0 pop.
Proof. apply sub_keeps. intros s s' E. unfold pop in E. destruct (s_stack s) as [|e k] eqn:Es; [discriminate|]. injection E as <-. exists k. split; [reflexivity|]. now apply incl_tl. Qed.
Lemma drop_incl f k : incl (drop_through f k) k.
Proof. induction k as [|e k IH]; cbn; [easy|]. destruct (f e); [now apply incl_tl|]. now apply incl_tl. Qed.
Lemma pop_until_keeps e : keeps 0 (pop_until e).
Proof. apply sub_keeps. intros s s' E. injection E as <-. eexists. split; [reflexivity|]. apply drop_incl. Qed.
Lemma pop_name_keeps l : keeps 0 (pop_until_name l).
Proof. apply sub_keeps. intros s s' E. injection E as <-. eexists. split; [reflexivity|]. apply drop_incl. Qed.
Lemma take_off_incl e k : incl (take_off e k) k.
Proof. intros x H. apply filter_In in H. tauto. Qed.
Lemma unstack_keeps e : keeps 0 (unstack e).
Proof. apply sub_keeps. intros s s' E. injection E as <-. eexists. split; [reflexivity|]. apply take_off_incl. Qed.
Lemma implied_incl x k k' : implied_loop x k = Done k' -> incl k' k.
Proof.
  induction k as [|e k IH]; cbn; [discriminate|]. destruct (_ && _)%bool; [intros H; apply incl_tl, IH, H|]. intros H. injection H as <-. apply incl_refl.
Qed.
Lemma implied_keeps x : keeps 0 (implied x).
Proof.
  apply sub_keeps. intros s s' E. unfold implied in E. destruct (implied_loop x (s_stack s)) as [k|] eqn:Ek; [|discriminate]. injection E as <-.
  exists k. split; [reflexivity|]. eapply implied_incl, Ek.
Qed.
Lemma clear_incl l k k' : clear_loop l k = Done k' -> incl k' k.
Proof.
  induction k as [|e k IH]; cbn; [discriminate|]. destruct (qone_of l (e_name e)); [|intros H; apply incl_tl, IH, H]. intros H. injection H as <-. apply incl_refl.
Qed.
Lemma clear_back_keeps l : keeps 0 (clear_back l).
Proof.
  apply sub_keeps. intros s s' E. unfold clear_back in E. destruct (clear_loop _ (s_stack s)) as [k|] eqn:Ek; [|discriminate]. injection E as <-.
  exists k. split; [reflexivity|]. eapply clear_incl, Ek.
Qed.
Lemma look_keeps {A} (f : st -> bres A) : keeps 0 (fun s => andthen (f s) (fun _ => Done s)).
Proof. apply keep0. intros b s s' I E. destruct (f s); [|discriminate]. injection E as <-. auto. Qed.
Lemma close_p_keeps : keeps 0 close_p.
Proof. apply (seq_keeps 0 0); [apply implied_keeps|apply pop_name_keeps]. Qed.
Lemma close_p_in_keeps : keeps 0 close_p_in_button_scope.
Proof. apply when_keeps, close_p_keeps. Qed.

(** *** New nodes *)
Lemma put_attr_in q v l x : In x (put_attr q v l) -> In x l \/ snd x = v /\ (fst x = q \/ exists v', In (fst x, v') l /\ qname_eqb (fst x) q = true).
Proof.
  induction l as [|[q' v'] l IH]; cbn; [intros [<-|[]]; auto|]. destruct (qname_eqb q' q) eqn:E; cbn.
  - intros [<-|H]; [|auto]. right. split; [reflexivity|]. right. exists v'. auto.
  - intros [<-|H]; [auto|]. destruct (IH H) as [H'|(H1 & [H2|(v2 & H2 & H3)])]; [auto|right; auto|]. right. split; [exact H1|]. right. eauto.
Qed.
Lemma qname_eq a b : qname_eqb a b = true -> a = b.
Proof.
  destruct a as [na la], b as [nb lb]. unfold qname_eqb. cbn [q_ns q_name]. intros H. apply andb_true_iff in H as [H1 H2]. apply str_eqb_spec in H2. subst.
  f_equal. destruct na, nb; cbn in H1; try discriminate; [|reflexivity]. apply str_eqb_spec in H1. now subst.
Qed.
Lemma put_attr_ok P q v l : Forall (fun x => P (q_name (fst x)) (snd x)) l -> P (q_name q) v -> Forall (fun x => P (q_name (fst x)) (snd x)) (put_attr q v l).
Proof.
  intros Hl Hq. apply Forall_forall. intros x Hx. apply put_attr_in in Hx as [Hx|(-> & [->|(v' & _ & H)])]; [exact (proj1 (Forall_forall _ _) Hl x Hx)|exact Hq|].
  apply qname_eq in H. rewrite H. exact Hq.
Qed.
Lemma create_ok t ns d r : tag_ok t -> (ns = html_ns \/ ns = svg_ns \/ ns = mathml_ns) -> create_for t ns d = Done r ->
  exists q a, r = (mkElem (length d) q, alloc (KElement q a) d) /\ kind_ok (KElement q a) /\ ns_ok q.
Proof.
  intros [H1 H2] Hns E. unfold create_for in E. destruct (t_name t) as [n|] eqn:En; [|discriminate]. injection E as <-. eexists. eexists. split; [reflexivity|].
  assert (ns_ok (mkQName (Some ns) n)) as Hq by (unfold ns_ok; cbn; destruct Hns as [->|[->| ->]]; auto).
  split; [|exact Hq]. split; [exact Hq|]. split; [cbn; apply H1; reflexivity|].
  assert (forall l a, Forall (fun x => attr_from ts (fst x) (snd x)) l -> Forall (fun x : qname * str => attr_from ts (q_name (fst x)) (snd x)) a ->
            Forall (fun x => attr_from ts (q_name (fst x)) (snd x)) (fold_left (fun a x => put_attr (mkQName None (fst x)) (snd x) a) l a)) as HH.
  { induction l as [|x l IH]; intros a Hl Ha; [exact Ha|]. inversion Hl; subst. cbn [fold_left]. apply IH; [assumption|]. apply put_attr_ok; assumption. }
  apply HH; [exact H2|constructor].
Qed.
Lemma insert_foreign_ok t ns b s r : tag_ok t -> (ns = html_ns \/ ns = svg_ns \/ ns = mathml_ns) -> inv b s -> insert_foreign t ns s = Done r ->
  inv b (snd r) /\ mp (snd r) = mp s /\ inside (s_dom (snd r)) (fst r) /\ s_stack (snd r) = fst r :: s_stack s /\ s_active (snd r) = s_active s /\ s_after (snd r) = s_after s.
Proof.
  intros Ht Hns I E. unfold insert_foreign in E. destruct (place None s) as [l|]; [|discriminate]. cbn [andthen] in E.
  destruct (create_for t ns (s_dom s)) as [c|] eqn:Ec; [|discriminate]. cbn [andthen] in E. injection E as <-.
  destruct (create_ok _ _ _ _ Ht Hns Ec) as (q & a & -> & Hk & Hq). cbn [fst snd e_id].
  assert (0 < length (s_dom s) < length (alloc (KElement q a) (s_dom s))) as Hr.
  { pose proof (dom_pos _ _ I). rewrite <- (kinds_length (alloc _ _)), alloc_kinds, app_length, kinds_length. cbn. lia. }
  set (d := loc_insert l (length (s_dom s)) (alloc (KElement q a) (s_dom s))).
  assert (kinds d = kinds (s_dom s) ++ [KElement q a]) as Kd by (unfold d; now rewrite loc_kinds, alloc_kinds).
  assert (inv b (set_dom d s)) as I1.
  { replace b with (b + 0) by lia. eapply inv_new; [exact I| |exact Kd|exact Hk|reflexivity].
    apply loc_links; [apply alloc_links, (i_links _ _ I)|exact Hr]. }
  assert (inside d (mkElem (length (s_dom s)) q)) as Hi.
  { split; [|exact Hq]. cbn. rewrite <- (kinds_length d), Kd, app_length, kinds_length. cbn. pose proof (dom_pos _ _ I). lia. }
  split; [|repeat split; auto; cbn; apply Hi]. apply inv_stack; [exact I1|]. constructor; [exact Hi|]. apply (i_stack _ _ I1).
Qed.
Lemma insert_keeps t : tag_ok t -> keeps 0 (insert_ t).
Proof.
  intros Ht. apply keep0. intros b s s' I E. unfold insert_, insert_html in E. destruct (insert_foreign t html_ns s) as [r|] eqn:Er; [|discriminate]. injection E as <-.
  destruct (insert_foreign_ok _ _ _ _ _ Ht (or_introl eq_refl) I Er) as (H1 & H2 & _). auto.
Qed.
Lemma insert_foreign_keeps t ns : tag_ok t -> (ns = html_ns \/ ns = svg_ns \/ ns = mathml_ns) -> keeps 0 (insert_foreign_ t ns).
Proof.
  intros Ht Hns. apply keep0. intros b s s' I E. unfold insert_foreign_ in E. destruct (insert_foreign t ns s) as [r|] eqn:Er; [|discriminate]. injection E as <-.
  destruct (insert_foreign_ok _ _ _ _ _ Ht Hns I Er) as (H1 & H2 & _). auto.
Qed.
Lemma new_at b s l k n : inv b s -> kind_ok k -> weight k <= n -> inv (b + n) (set_dom (loc_insert l (length (s_dom s)) (alloc k (s_dom s))) s).
Proof.
  intros I Hk Hn. eapply inv_new; [exact I| |rewrite loc_kinds, alloc_kinds; reflexivity|exact Hk|exact Hn].
  apply loc_links; [apply alloc_links, (i_links _ _ I)|]. pose proof (dom_pos _ _ I). rewrite <- (kinds_length (alloc _ _)), alloc_kinds, app_length, kinds_length. cbn. lia.
Qed.
Lemma kinds_at d i f k : nth_error (kinds d) i = Some k -> kinds (update d i f) = firstn i (kinds d) ++ [d_kind (f (nth i d (mkNode KDocument None [])))] ++ skipn (S i) (kinds d).
Proof.
  unfold kinds. revert i. induction d as [|x d IH]; intros [|i] H; cbn in *; try discriminate; [reflexivity|]. rewrite (IH i H). reflexivity.
Qed.
Lemma append_data_inv b s p c x : inv b s -> kind_of (s_dom s) p = Some (KText x) -> char_from ts c -> inv (b + g c) (set_dom (update (s_dom s) p (append_data c)) s).
Proof.
  intros I K Hc. rewrite kind_of_kinds in K.
  assert (kinds (update (s_dom s) p (append_data c)) = firstn p (kinds (s_dom s)) ++ [KText (x ++ [c])] ++ skipn (S p) (kinds (s_dom s))) as Kd.
  { rewrite (kinds_at _ _ _ _ K). f_equal. f_equal. f_equal. unfold kinds in K. rewrite nth_error_map in K. destruct (nth_error (s_dom s) p) as [y|] eqn:Ey; [|discriminate].
    injection K as K. rewrite (nth_error_nth _ _ _ Ey). unfold append_data. rewrite K. reflexivity. }
  assert (kinds (s_dom s) = firstn p (kinds (s_dom s)) ++ [KText x] ++ skipn (S p) (kinds (s_dom s))) as Ks.
  { clear -K. revert p K. induction (kinds (s_dom s)) as [|y l IH]; intros [|p] K; cbn in *; try discriminate; [injection K as ->; reflexivity|]. f_equal. apply IH, K. }
  pose proof (i_kinds _ _ I) as Hk. rewrite Ks in Hk. apply Forall_app in Hk as [Hk1 Hk2]. apply Forall_app in Hk2 as [Hk2 Hk3]. inversion Hk2 as [|? ? Hx _]; subst.
  apply inv_dom; [exact I| | | | |].
  - apply update_kind_links; [intros y; unfold append_data; destruct (d_kind y); reflexivity|intros y; unfold append_data; destruct (d_kind y); reflexivity|apply (i_links _ _ I)].
  - rewrite kind_of_kinds, Kd. pose proof (i_len _ _ I) as Z. rewrite kind_of_kinds in Z. destruct p as [|p]; [rewrite Z in K; discriminate|].
    destruct (kinds (s_dom s)) as [|y l]; [discriminate|]. exact Z.
  - rewrite length_update. lia.
  - rewrite Kd. apply Forall_app. split; [exact Hk1|]. apply Forall_app. split; [|exact Hk3]. repeat constructor; [destruct x; discriminate|]. apply Forall_app. split; [apply Hx|repeat constructor; exact Hc].
  - unfold text_sum. rewrite Kd. revert Ks. generalize (firstn p (kinds (s_dom s))) (skipn (S p) (kinds (s_dom s))). intros l1 l2 ->.
    assert (weight (KText (x ++ [c])) = weight (KText x) + g c) as Hw by (cbn [weight]; rewrite map_app, list_sum_app; cbn; lia).
    rewrite !map_app, !list_sum_app. cbn [map]. rewrite Hw. cbn [list_sum fold_right]. lia.
Qed.
Lemma char_keeps c : char_from ts c -> keeps (g c) (insert_char c).
Proof.
  intros Hc b s s' I E. unfold insert_char in E. destruct (place None s) as [l|]; [|discriminate]. cbn [andthen] in E.
  assert (inv (b + g c) (set_dom (loc_insert l (length (s_dom s)) (alloc (KText [c]) (s_dom s))) s)) as IN.
  { apply new_at; [exact I| |cbn; lia]. split; [discriminate|repeat constructor; exact Hc]. }
  assert (forall x, kind_of (s_dom s) (l_parent l) = x -> match x with Some KDocument => Done s = Done s' -> inv (b + g c) s' /\ mp s' = mp s | _ => True end) as _ by (intros; destruct x as [[]|]; auto; intros H'; injection H' as <-; split; [eapply inv_more; [|exact I]; lia|reflexivity]).
  assert (match loc_previous l (s_dom s) with
      | Some p => match kind_of (s_dom s) p with
          | Some (KText _) => Done (set_dom (update (s_dom s) p (append_data c)) s)
          | _ => Done (set_dom (loc_insert l (length (s_dom s)) (alloc (KText [c]) (s_dom s))) s) end
      | None => Done (set_dom (loc_insert l (length (s_dom s)) (alloc (KText [c]) (s_dom s))) s) end = Done s' -> inv (b + g c) s' /\ mp s' = mp s) as HH.
  { clear E. destruct (loc_previous l (s_dom s)) as [p|].
    - destruct (kind_of (s_dom s) p) as [[| | |x|]|] eqn:Ep; intros E; injection E as <-; try (split; [exact IN|reflexivity]).
      split; [|reflexivity]. eapply append_data_inv; eauto.
    - intros E. injection E as <-. split; [exact IN|reflexivity]. }
  destruct (kind_of (s_dom s) (l_parent l)) as [[]|]; auto. injection E as <-. split; [eapply inv_more; [|exact I]; lia|reflexivity].
Qed.
Lemma comment_inv b s l t : inv b s -> node_from ts (Comment (t_data t)) -> inv b (insert_comment_at l t s).
Proof. intros I H. unfold insert_comment_at. replace b with (b + 0) by lia. apply new_at; [exact I|exact H|cbn; lia]. Qed.
Lemma comment_keeps t : node_from ts (Comment (t_data t)) -> keeps 0 (insert_comment t).
Proof.
  intros H. apply keep0. intros b s s' I E. unfold insert_comment in E. destruct (place None s) as [l|]; [|discriminate]. injection E as <-. split; [|reflexivity]. now apply comment_inv.
Qed.
Lemma append_doc_inv b s k : inv b s -> kind_ok k -> weight k = 0 -> inv b (append_to_document k s).
Proof.
  intros I Hk H0. unfold append_to_document. change (append_child (alloc k (s_dom s)) 0 (length (s_dom s))) with (loc_insert (mkLoc 0 None) (length (s_dom s)) (alloc k (s_dom s))).
  replace b with (b + 0) by lia. apply new_at; [exact I|exact Hk|lia].
Qed.
Lemma pure_keeps f : (forall b s, inv b s -> inv b (f s)) -> (forall s, mp (f s) = mp s) -> keeps 0 (pure f).
Proof. intros H1 H2. apply keep0. intros b s s' I E. injection E as <-. auto. Qed.
Lemma frameset_keeps : keeps 0 frameset_not_ok.
Proof. apply pure_keeps; [intros; now apply inv_frameset|reflexivity]. Qed.
Lemma lexer_keeps m : keeps 0 (lexer_to m).
Proof. apply pure_keeps; [intros; now apply inv_switch|reflexivity]. Qed.
Lemma switch_moves m : is_itt m = false -> moves 0 (switch_to m).
Proof. intros H b s s' I M E. injection E as <-. rewrite Nat.add_0_r. split; [now apply inv_mode|exact H]. Qed.
Lemma keep_mode_moves : moves 0 keep_mode.
Proof. intros b s s' I M E. injection E as <-. rewrite Nat.add_0_r. split; [now apply inv_orig|exact M]. Qed.
Lemma raw_moves m t : tag_ok t -> moves 0 (raw_text m t).
Proof.
  intros Ht. unfold raw_text. apply (seq_moves 0 0); [now apply keeps_moves, insert_keeps|]. apply (seq_moves 0 0); [apply keeps_moves, lexer_keeps|].
  apply (seq_moves 0 0); [apply keep_mode_moves|now apply switch_moves].
Qed.
Lemma reset_no_itt hd k m : reset_loop hd k = Done m -> is_itt m = false.
Proof.
  induction k as [|e k IH]; cbn [reset_loop]; [discriminate|]. cbv zeta.
  repeat match goal with |- (if ?x then _ else _) = _ -> _ => destruct x; [intros H; injection H as <-; try reflexivity|] end.
  - destruct hd; reflexivity.
  - exact IH.
Qed.
Lemma reset_moves : moves 0 reset_mode.
Proof.
  intros b s s' I M E. unfold reset_mode in E. destruct (reset_loop (s_head s) (s_stack s)) as [m|] eqn:Em; [|discriminate]. injection E as <-. rewrite Nat.add_0_r.
  apply reset_no_itt in Em. split; [now apply inv_mode|exact Em].
Qed.

(** *** Active formatting elements *)
Lemma remove_at_incl {A} i (l : list A) : incl (remove_at i l) l.
Proof. revert i. induction l as [|x l IH]; intros [|i]; cbn; try easy; [now apply incl_tl|]. intros y [<-|H]; [now left|right; now apply (IH i)]. Qed.
Lemma remove_active_inv b s e : inv b s -> inv b (remove_active e s) /\ mp (remove_active e s) = mp s /\ s_dom (remove_active e s) = s_dom s /\ s_stack (remove_active e s) = s_stack s.
Proof.
  intros I. unfold remove_active. destruct (index_of e (s_active s)); [|auto]. split; [|auto]. apply inv_active; [exact I|]. eapply incl_Forall; [apply remove_at_incl|apply (i_active _ _ I)].
Qed.
Lemma push_active_keeps e t : tag_ok t -> forall b s s', inv b s -> inside (s_dom s) e -> push_active e t s = Done s' -> inv b s' /\ mp s' = mp s.
Proof.
  intros Ht b s s' I He E. unfold push_active in E. destruct (similars _ _ _) as [l|]; [|discriminate]. cbn [andthen] in E. injection E as <-.
  set (s1 := match l with [] => s | f :: _ => _ end). assert (inv b s1 /\ mp s1 = mp s /\ s_dom s1 = s_dom s) as (I1 & M1 & D1).
  { unfold s1. destruct l as [|f l]; [auto|]. match goal with |- context [if ?c then _ else _] => destruct c end; [|auto]. destruct (remove_active_inv b s f I) as (H1 & H2 & H3 & _). auto. }
  split; [|exact M1]. apply inv_active; [exact I1|]. apply Forall_app. split; [apply (i_active _ _ I1)|]. constructor; [split; [rewrite D1; exact He|exact Ht]|constructor].
Qed.
Lemma insert_active_keeps t : tag_ok t -> keeps 0 (insert_active_html t).
Proof.
  intros Ht. apply keep0. intros b s s' I E. unfold insert_active_html, insert_html in E. destruct (insert_foreign t html_ns s) as [r|] eqn:Er; [|discriminate]. cbn [andthen] in E.
  destruct (insert_foreign_ok _ _ _ _ _ Ht (or_introl eq_refl) I Er) as (H1 & H2 & H3 & _). destruct (push_active_keeps _ _ Ht _ _ _ H1 H3 E) as [H5 H6]. split; [exact H5|congruence].
Qed.
Lemma push_marker_keeps : keeps 0 push_marker.
Proof. apply keep0. intros b s s' I E. injection E as <-. split; [|reflexivity]. apply inv_active; [exact I|]. apply Forall_app. split; [apply (i_active _ _ I)|repeat constructor]. Qed.
Lemma pop_marker_incl l l' : pop_marker l = Done l' -> incl l' l.
Proof. induction l as [|[|e t] l IH]; cbn; [discriminate| |]; intros H; [injection H as <-; now apply incl_tl|apply incl_tl, IH, H]. Qed.
Lemma clear_marker_keeps : keeps 0 clear_to_marker.
Proof.
  apply keep0. intros b s s' I E. unfold clear_to_marker in E. destruct (s_active s) as [|x l] eqn:Ea; [injection E as <-; auto|]. rewrite <- Ea in E.
  destruct (pop_marker (rev (s_active s))) as [l'|] eqn:Ep; [|discriminate]. injection E as <-. split; [|reflexivity]. apply inv_active; [exact I|].
  eapply incl_Forall; [|apply (i_active _ _ I)]. intros y Hy. apply in_rev in Hy. apply (pop_marker_incl _ _ Ep) in Hy. now apply in_rev.
Qed.
Lemma replace_at_ok {A} (P : A -> Prop) i x l : Forall P l -> P x -> Forall P (replace_at i x l).
Proof. intros H. revert i. induction H as [|y l Hy Hl IH]; intros [|i] Hx; cbn; constructor; auto. Qed.
Lemma create_entries_keeps n : forall i, keeps 0 (create_entries n i).
Proof.
  induction n as [|n IH]; intros i; apply keep0; intros b s s' I E; [injection E as <-; auto|]. cbn [create_entries] in E.
  destruct (nth_error (s_active s) i) as [[|e t]|] eqn:Ei; try discriminate.
  assert (inside (s_dom s) e /\ tag_ok t) as [_ Ht].
  { apply nth_error_In in Ei. exact (proj1 (Forall_forall _ _) (i_active _ _ I) _ Ei). }
  unfold insert_html in E. destruct (insert_foreign t html_ns s) as [r|] eqn:Er; [|discriminate]. cbn [andthen] in E.
  destruct (insert_foreign_ok _ _ _ _ _ Ht (or_introl eq_refl) I Er) as (H1 & H2 & H3 & _).
  destruct (IH (S i) b _ s' (inv_active b (snd r) (replace_at i (Formatting (fst r) t) (s_active (snd r))) (s_after (snd r)) H1 (replace_at_ok _ i (Formatting (fst r) t) _ (i_active _ _ H1) (conj H3 Ht))) E) as [H5 H6].
  rewrite Nat.add_0_r in H5. split; [exact H5|]. rewrite H6. exact H2.
Qed.
Lemma reconstruct_keeps : keeps 0 reconstruct.
Proof.
  apply keep0. intros b s s' I E. unfold reconstruct in E. destruct (rev (s_active s)) as [|x l]; [injection E as <-; auto|]. destruct (closed_entry _ x); [|injection E as <-; auto].
  destruct (create_entries_keeps _ _ b s s' I E) as [H1 H2]. rewrite Nat.add_0_r in H1. auto.
Qed.

(** *** The adoption agency *)
Lemma token_of_ok b s e t : inv b s -> token_of e s = Done t -> tag_ok t.
Proof.
  intros I E. unfold token_of in E. destruct (find (is_entry e) (s_active s)) as [[|e' t']|] eqn:Ef; try discriminate. injection E as <-.
  apply find_some in Ef as [H _]. apply (proj1 (Forall_forall _ _) (i_active _ _ I) _ H).
Qed.
Lemma replace_on_in o e k k' : replace_on o e k = Done k' -> forall x, In x k' -> x = e \/ In x k.
Proof.
  revert k'. induction k as [|y k IH]; intros k'; cbn; [discriminate|]. destruct (same y o).
  - intros H. injection H as <-. intros x [<-|H]; auto.
  - destruct (replace_on o e k) as [k2|]; [|discriminate]. cbn. intros H. injection H as <-. intros x [<-|H]; [auto|]. destruct (IH _ eq_refl x H); auto.
Qed.
Lemma insert_below_in o e k k' : insert_below o e k = Done k' -> forall x, In x k' -> x = e \/ In x k.
Proof.
  revert k'. induction k as [|y k IH]; intros k'; cbn; [discriminate|]. destruct (same y o).
  - intros H. injection H as <-. intros x [<-|[<-|H]]; auto.
  - destruct (insert_below o e k) as [k2|]; [|discriminate]. cbn. intros H. injection H as <-. intros x [<-|H]; [auto|]. destruct (IH _ eq_refl x H); auto.
Qed.
Lemma above_in e k y : above e k = Done y -> In y k.
Proof.
  induction k as [|x k IH]; cbn; [discriminate|]. destruct (same x e); [|intros H; right; auto]. destruct k as [|z k]; [discriminate|]. intros H. injection H as <-. right. now left.
Qed.
Lemma insert_at_ok {A} (P : A -> Prop) i x l l' : insert_at i x l = Done l' -> Forall P l -> P x -> Forall P l'.
Proof.
  revert i l'. induction l as [|y l IH]; intros [|i] l' E Hl Hx; cbn in E; try discriminate; try (injection E as <-; constructor; auto; fail).
  destruct (insert_at i x l) as [l2|] eqn:E2; [|discriminate]. injection E as <-. inversion Hl; subst. constructor; [assumption|]. eapply IH; eauto.
Qed.
Lemma created b s t r : inv b s -> tag_ok t -> create_for t html_ns (s_dom s) = Done r ->
  inv b (set_dom (snd r) s) /\ inside (snd r) (fst r) /\ length (s_dom s) <= length (snd r).
Proof.
  intros I Ht E. destruct (create_ok _ _ _ _ Ht (or_introl eq_refl) E) as (q & a & -> & Hk & Hq). cbn [fst snd].
  assert (length (alloc (KElement q a) (s_dom s)) = S (length (s_dom s))) as El by (rewrite <- kinds_length, alloc_kinds, app_length, kinds_length; cbn; lia).
  split; [|split; [|lia]].
  - replace b with (b + 0) by lia. eapply inv_new; [exact I|apply alloc_links, (i_links _ _ I)|apply alloc_kinds|exact Hk|reflexivity].
  - split; [|exact Hq]. cbn. pose proof (dom_pos _ _ I). lia.
Qed.
Lemma inner_ok n : forall i fmt furthest node last bookmark b s r, inv b s -> inside (s_dom s) last -> agency_inner n i fmt furthest node last bookmark s = Done r ->
  inv b (snd r) /\ mp (snd r) = mp s /\ inside (s_dom (snd r)) (fst (fst r)) /\ length (s_dom s) <= length (s_dom (snd r)).
Proof.
  induction n as [|n IH]; intros i fmt furthest node last bookmark b s r I Hl E; [discriminate|]. cbn [agency_inner] in E.
  destruct (above node (s_stack s)) as [next|]; [|discriminate]. cbn [andthen] in E. destruct (same node fmt); [injection E as <-; cbn; auto|].
  set (s1 := if (Nat.ltb 3 (S i) && is_active node s)%bool then remove_active node s else s) in *.
  assert (inv b s1 /\ mp s1 = mp s /\ s_dom s1 = s_dom s) as (I1 & M1 & D1).
  { unfold s1. destruct (_ && _)%bool; [|auto]. destruct (remove_active_inv b s node I) as (H1 & H2 & H3 & _). auto. }
  clearbody s1. cbv zeta in E. destruct (negb (is_active node s1)).
  - apply IH with (b := b) in E as (H1 & H2 & H3 & H4).
    + cbn in H2, H4. rewrite D1 in H4. rewrite <- M1. auto.
    + apply inv_sub; [exact I1|apply take_off_incl].
    + cbn. rewrite D1. exact Hl.
  - destruct (token_of node s1) as [t|] eqn:Et; [|discriminate]. cbn [andthen] in E. pose proof (token_of_ok _ _ _ _ I1 Et) as Ht.
    destruct (create_for t html_ns (s_dom s1)) as [c|] eqn:Ec; [|discriminate]. cbn [andthen] in E. destruct (created _ _ _ _ I1 Ht Ec) as (I2 & He & Hlen).
    destruct (replace_active node (fst c) t (set_dom (snd c) s1)) as [s3|] eqn:E3; [|discriminate]. cbn [andthen] in E.
    unfold replace_active in E3. destruct (index_of node _) as [j|]; [|discriminate]. injection E3 as <-.
    destruct (replace_on node (fst c) _) as [k|] eqn:Ek; [|discriminate]. cbn [andthen] in E. destruct (above (fst c) _) as [next'|]; [|discriminate]. cbn [andthen] in E.
    destruct (if same last furthest then _ else _) as [bm|]; [|discriminate]. cbn [andthen] in E.
    match type of E with agency_inner _ _ _ _ _ _ _ ?x = _ => set (s4 := x) in * end.
    assert (inv b s4 /\ mp s4 = mp s /\ length (s_dom s4) = length (snd c)) as (I4 & M4 & L4).
    { unfold s4. split; [|split; [exact M1|]].
      - apply inv_relink; [|apply append_links|apply kinds_append].
        + apply inv_stack.
          * apply inv_active; [exact I2|]. apply replace_at_ok; [apply (i_active _ _ I2)|]. split; [exact He|exact Ht].
          * apply Forall_forall. intros x Hx. apply (replace_on_in _ _ _ _ Ek) in Hx as [->|Hx]; [exact He|]. exact (proj1 (Forall_forall _ _) (i_stack _ _ I2) _ Hx).
        + apply (i_links _ _ I2).
        + cbn. destruct Hl as [Hl _]. rewrite <- D1 in Hl. lia.
      - cbn. now rewrite <- kinds_length, kinds_append, kinds_length. }
    clearbody s4. apply IH with (b := b) in E as (H1 & H2 & H3 & H4).
    + rewrite <- M4. split; [exact H1|]. split; [exact H2|]. split; [exact H3|]. rewrite <- D1. lia.
    + exact I4.
    + eapply inside_more; [|exact He]. lia.
Qed.
Lemma outer_ok n sub : keeps 0 (agency_outer n sub).
Proof.
  induction n as [|n IH]; apply keep0; intros b s s' I E; [injection E as <-; auto|]. cbn [agency_outer] in E.
  destruct (find_active _ s) as [[fmt|]|]; [|injection E as <-; auto|discriminate]. cbn [andthen] in E.
  destruct (negb (on_stack fmt (s_stack s))).
  { injection E as <-. destruct (remove_active_inv b s fmt I) as (H1 & H2 & _). auto. }
  destruct (in_scope (e_name fmt) s) as [v|]; [|discriminate]. cbn [andthen] in E. destruct (negb v); [injection E as <-; auto|].
  destruct (furthest_block fmt (s_stack s)) as [furthest|] eqn:Ef.
  2: { injection E as <-. destruct (remove_active_inv b (set_stack (drop_through (same fmt) (s_stack s)) s) fmt) as (H1 & H2 & _); [apply inv_sub; [exact I|apply drop_incl]|]. auto. }
  destruct (index_above fmt (s_stack s)) as [anc|]; [|discriminate]. cbn [andthen] in E. destruct (match index_of fmt (s_active s) with Some j => Done j | None => Fail NotFound end) as [bm|]; [|discriminate]. cbn [andthen] in E.
  destruct (above furthest (s_stack s)) as [node|]; [|discriminate]. cbn [andthen] in E.
  assert (inside (s_dom s) furthest) as Hfu.
  { unfold furthest_block in Ef. apply find_some in Ef as [H _]. apply in_rev in H. assert (forall k, In furthest (stack_over fmt k) -> In furthest k) as HH.
    { induction k as [|x k IHk]; cbn; [auto|]. destruct (same x fmt); [intros []|]. intros [<-|H']; [now left|right; auto]. }
    apply HH in H. exact (proj1 (Forall_forall _ _) (i_stack _ _ I) _ H). }
  destruct (agency_inner _ _ _ _ _ _ _ _) as [[[last bm'] s1]|] eqn:Ei; [|discriminate]. cbn [andthen] in E.
  destruct (inner_ok _ _ _ _ _ _ _ _ _ _ I Hfu Ei) as (I1 & M1 & Hla & Hle). cbn [fst snd] in I1, M1, Hla, Hle.
  destruct (place (Some anc) s1) as [l|]; [|discriminate]. cbn [andthen] in E.
  assert (inv b (set_dom (loc_insert l (e_id last) (s_dom s1)) s1)) as I2.
  { apply inv_relink; [exact I1|apply loc_links; [apply (i_links _ _ I1)|apply Hla]|apply loc_kinds]. }
  set (s2 := set_dom (loc_insert l (e_id last) (s_dom s1)) s1) in *.
  assert (length (s_dom s2) = length (s_dom s1)) as L2 by (unfold s2; cbn; now rewrite <- kinds_length, loc_kinds, kinds_length).
  assert (mp s2 = mp s) as M2 by exact M1. clearbody s2.
  destruct (token_of fmt s2) as [t|] eqn:Et; [|discriminate]. cbn [andthen] in E. pose proof (token_of_ok _ _ _ _ I2 Et) as Ht.
  destruct (create_for t html_ns (s_dom s2)) as [c|] eqn:Ec; [|discriminate]. cbn [andthen] in E. destruct (created _ _ _ _ I2 Ht Ec) as (I3 & He & Hlen).
  destruct (move_kids_inv (e_id furthest) (e_id (fst c)) (snd c) (i_links _ _ I3) (proj1 He)) as [L3 K3].
  set (d := append_child (move_kids (e_id furthest) (e_id (fst c)) (snd c)) (e_id furthest) (e_id (fst c))) in *.
  assert (links d) as L4 by (apply append_links; [exact L3|rewrite <- kinds_length, K3, kinds_length; apply He]).
  assert (kinds d = kinds (snd c)) as K4 by (unfold d; now rewrite kinds_append).
  assert (inv b (set_dom d s2)) as I4.
  { assert (set_dom d s2 = set_dom d (set_dom (snd c) s2)) as -> by reflexivity. apply inv_relink; assumption. }
  destruct (remove_active_inv b (set_dom d s2) fmt I4) as (I5 & M5 & D5 & S5). set (s5 := remove_active fmt (set_dom d s2)) in *. clearbody s5.
  destruct (insert_active (Nat.pred bm') (fst c) t s5) as [s6|] eqn:E6; [|discriminate]. cbn [andthen] in E.
  unfold insert_active in E6. destruct (insert_at _ _ _) as [al|] eqn:Ea; [|discriminate]. injection E6 as <-.
  assert (inside (s_dom s5) (fst c)) as He5.
  { rewrite D5. cbn. eapply inside_more; [|exact He]. rewrite <- (kinds_length d), K4, kinds_length. lia. }
  destruct (insert_below furthest (fst c) _) as [k|] eqn:Ek; [|discriminate]. cbn [andthen] in E.
  match type of E with agency_outer _ _ ?x = _ => assert (inv b x) as I6 end.
  { apply inv_stack.
    + apply inv_active; [exact I5|]. eapply insert_at_ok; [exact Ea|apply (i_active _ _ I5)|]. split; [exact He5|exact Ht].
    + apply Forall_forall. intros x Hx. apply (insert_below_in _ _ _ _ Ek) in Hx as [->|Hx]; [exact He5|]. apply take_off_incl in Hx. exact (proj1 (Forall_forall _ _) (i_stack _ _ I5) _ Hx). }
  destruct (IH b _ _ I6 E) as [H1 H2]. rewrite Nat.add_0_r in H1. split; [exact H1|]. rewrite H2. change (mp s5 = mp s). rewrite M5. exact M2.
Qed.
Lemma agency_keeps t : keeps 0 (agency t).
Proof.
  apply keep0. intros b s s' I E. unfold agency in E. destruct (t_name t) as [sub|]; [|discriminate]. destruct (current s) as [cur|]; [|discriminate]. cbn [andthen] in E.
  destruct (_ && _)%bool.
  - injection E as <-. split; [|reflexivity]. apply inv_sub; [exact I|apply take_off_incl].
  - destruct (outer_ok _ _ _ _ _ I E) as [H1 H2]. rewrite Nat.add_0_r in H1. auto.
Qed.

(** *** Tokens *)
Lemma from_tag t : from t -> is_start t = true -> tag_ok t.
Proof.
  intros (H1 & H2 & _) Hs. split.
  - intros n Hn. exists n. split; [exact (H1 Hs n Hn)|now left].
  - eapply Forall_impl; [|exact H2]. intros [n v] (t' & Ht & Hi). exists t', n. cbn. split; [exact Ht|]. split; [exact Hi|now left].
Qed.
Lemma implied_tag n : in_names implied_names (of_string n) = true -> tag_ok (tag_named n).
Proof. intros H. split; [|constructor]. intros m Hm. injection Hm as <-. exists (of_string n). split; [now left|now left]. Qed.
Lemma br_tag t : from t -> named ["br"]%string t = true -> tag_ok t.
Proof.
  intros (_ & H2 & _) Hs. split.
  - unfold named in Hs. destruct (t_name t) as [m|]; [|discriminate]. intros n Hn. injection Hn as <-. exists m. split; [|now left]. left.
    unfold one_of in Hs. cbn [existsb] in Hs. rewrite orb_false_r in Hs. apply str_eqb_spec in Hs. subst m. reflexivity.
  - eapply Forall_impl; [|exact H2]. intros [n v] (t' & Ht & Hi). exists t', n. cbn. split; [exact Ht|]. split; [exact Hi|now left].
Qed.
Lemma starts_start l t : starts l t = true -> is_start t = true.
Proof. unfold starts. intros H. apply andb_true_iff in H. tauto. Qed.
Lemma br_or_tag l t : from t -> (named ["br"]%string t || starts l t)%bool = true -> tag_ok t.
Proof. intros F H. apply orb_true_iff in H as [H|H]; [now apply br_tag|]. apply from_tag; [exact F|eapply starts_start, H]. Qed.
Lemma ci_lower a b : eq_ci_str a b = true -> map lower_of a = map lower_of b.
Proof.
  revert b. induction a as [|x a IH]; intros [|y b]; cbn; try discriminate; [reflexivity|]. intros H. apply andb_true_iff in H as [H1 H2]. f_equal; [|auto].
  unfold eq_ci in H1. apply N.eqb_eq in H1. exact H1.
Qed.
Lemma cased_recased l n : recased l n (cased l n).
Proof.
  unfold cased. destruct (find _ l) as [x|] eqn:E; [|now left]. apply find_some in E as [H1 H2]. right. exists x. split; [exact H1|]. split; [reflexivity|]. now apply ci_lower.
Qed.
Lemma recased_attrs t : Forall (fun x => exists t', In t' ts /\ In x (t_attrs t')) (t_attrs t) -> Forall (fun x => attr_from ts (fst x) (snd x)) (t_attrs (case_attrs t)).
Proof.
  intros H. cbn. apply Forall_forall. intros x Hx. apply in_map_iff in Hx as ([n v] & <- & Hx). destruct (proj1 (Forall_forall _ _) H _ Hx) as (t' & Ht & Hi).
  exists t', n. cbn. split; [exact Ht|]. split; [exact Hi|apply cased_recased].
Qed.
Lemma case_attrs_tag t : from t -> is_start t = true -> tag_ok (case_attrs t).
Proof. intros F Hs. split; [apply (proj1 (from_tag t F Hs))|]. apply recased_attrs, F. Qed.
Lemma svg_tag_ok t : from t -> is_start t = true ->
  tag_ok (case_attrs (match t_name t with Some n => set_name (cased svg_tag_names n) t | None => t end)).
Proof.
  intros F Hs. destruct (t_name t) as [n|] eqn:En; [|now apply case_attrs_tag]. split.
  - intros m Hm. injection Hm as <-. exists n. split; [apply F; assumption|apply cased_recased].
  - apply recased_attrs. apply F.
Qed.
Lemma image_from t : from t -> starts ["image"]%string t = true -> from (set_name (of_string "img") t) /\ w (set_name (of_string "img") t) = w t.
Proof.
  intros (H1 & H2 & H3 & H4 & H5) Hs. split; [|reflexivity]. unfold starts in Hs. apply andb_true_iff in Hs as [Hs Hn].
  split; [|split; [exact H2|split; [exact H3|split; [exact H4|]]]].
  - intros _ n Hn'. injection Hn' as <-. unfold named in Hn. destruct (t_name t) as [m|] eqn:Em; [|discriminate]. unfold one_of in Hn. cbn [existsb] in Hn. rewrite orb_false_r in Hn.
    apply str_eqb_spec in Hn. subst m. destruct (H1 Hs _ eq_refl) as [H|(t' & m & Ht & Hty & Hm & [<-|[_ H]])]; [discriminate H| |discriminate H].
    right. exists t', (of_string "image"). repeat (split; [assumption|]). right. split; reflexivity.
  - intros Hd. unfold is_doctype, is_start in *. cbn in Hd. destruct (t_type t); discriminate.
Qed.
Lemma char_w t : from t -> is_char t = true -> keeps (w t) (insert_char (t_rune t)).
Proof. intros (_ & _ & H & _) Hc. eapply more_keeps; [|apply char_keeps, H, Hc]. unfold w. rewrite Hc. lia. Qed.
Lemma null_w t : from t -> is_char t = true -> t_rune t = 0%N -> keeps (w t) (insert_char 65533).
Proof. intros (_ & _ & H & _) Hc H0. eapply more_keeps; [|apply char_keeps, (H Hc), H0]. unfold w. rewrite Hc, H0. cbn. lia. Qed.
Lemma blank_char t : is_blank t = true -> is_char t = true.
Proof. unfold is_blank. intros H. apply andb_true_iff in H. tauto. Qed.
Lemma blank4_char t : is_blank4 t = true -> is_char t = true.
Proof. unfold is_blank4. intros H. apply andb_true_iff in H. tauto. Qed.

(** *** Sequences *)
Lemma seq_keeps0 n f g' : keeps 0 f -> keeps n g' -> keeps n (seq f g').
Proof. apply (seq_keeps 0 n). Qed.
Lemma seq_keeps1 n f g' : keeps n f -> keeps 0 g' -> keeps n (seq f g').
Proof. intros Hf Hg. rewrite <- (Nat.add_0_r n). now apply seq_keeps. Qed.
Lemma seq_moves0 f g' : moves 0 f -> moves 0 g' -> moves 0 (seq f g').
Proof. apply (seq_moves 0 0). Qed.
Lemma seq_ends0 n f g' : moves 0 f -> ends_ok n g' -> ends_ok n (seq f g').
Proof. apply (seq_ends 0 n). Qed.
Lemma seq_any0 n f g' : ends_ok n f -> any_ok 0 g' -> ends_ok n (seq f g').
Proof. intros Hf Hg. rewrite <- (Nat.add_0_r n). now apply seq_any. Qed.
Lemma when_moves n c x : moves n x -> moves n (whenever c x).
Proof. intros H. apply branch_moves; [exact H|apply keeps_moves, nop_keeps]. Qed.
Lemma when_ends n c x : ends_ok n x -> ends_ok n (whenever c x).
Proof. intros H. apply branch_ends; [exact H|apply moves_ends, keeps_moves, nop_keeps]. Qed.
Lemma keeps0_ends n a : keeps 0 a -> ends_ok n a.
Proof. intros H. apply moves_ends, keeps_moves. eapply more_keeps; [|exact H]. lia. Qed.
Lemma moves0_ends n a : moves 0 a -> ends_ok n a.
Proof. intros H. apply moves_ends. eapply more_moves; [|exact H]. lia. Qed.
Lemma keeps_ends n a : keeps n a -> ends_ok n a.
Proof. intros H. apply moves_ends, keeps_moves, H. Qed.
Lemma do_keeps {A} n (f : st -> bres A) (k : A -> act) : (forall a, keeps n (k a)) -> keeps n (fun s => andthen (f s) (fun a => k a s)).
Proof. intros H b s s' I E. destruct (f s) as [a|]; [|discriminate]. exact (H a b s s' I E). Qed.
Lemma do_ends {A} n (f : st -> bres A) (k : A -> act) : (forall a, ends_ok n (k a)) -> ends_ok n (fun s => andthen (f s) (fun a => k a s)).
Proof. intros H b s s' I M E. destruct (f s) as [a|]; [|discriminate]. exact (H a b s s' I M E). Qed.

Lemma item_keeps l t k : tag_ok t -> keeps 0 (item_loop l t k).
Proof.
  intros Ht. assert (keeps 0 (close_p_in_button_scope ;; insert_ t)) as Hd by (apply seq_keeps0; [apply close_p_in_keeps|now apply insert_keeps]).
  induction k as [|e k IH]; cbn [item_loop]; [apply nop_keeps|]. destruct (qone_of _ _).
  - apply seq_keeps0; [apply implied_keeps|]. apply seq_keeps0; [apply pop_name_keeps|exact Hd].
  - destruct (_ && _)%bool; [exact Hd|exact IH].
Qed.
Lemma any_end_keeps n k : keeps 0 (any_end_loop n k).
Proof.
  induction k as [|e k IH]; cbn [any_end_loop]; [apply nop_keeps|]. destruct (str_eqb _ _); [|exact IH]. apply seq_keeps0; [apply implied_keeps|].
  apply sub_keeps. intros s s' E. destruct (on_stack e (s_stack s)); [|discriminate]. injection E as <-. eexists. split; [reflexivity|apply drop_incl].
Qed.
Lemma add_missing_inv b s i l : inv b s -> Forall (fun x => attr_from ts (fst x) (snd x)) l ->
  inv b (set_dom (fold_left (fun d a => update d i (add_missing (Some []) (fst a) (snd a))) l (s_dom s)) s).
Proof.
  intros I Hl. revert b s I. induction Hl as [|a l Ha Hl IH]; intros b s I; cbn [fold_left]; [destruct s; exact I|].
  set (d := update (s_dom s) i (add_missing (Some []) (fst a) (snd a))). specialize (IH b (set_dom d s)). cbn [set_dom s_dom] in IH.
  assert (inv b (set_dom d s)) as I1; [|exact (IH I1)]. clear IH. replace b with (b + 0) by lia.
  assert (forall x, d_kids (add_missing (Some []) (fst a) (snd a) x) = d_kids x) as Hk by (intros x; unfold add_missing; destruct (d_kind x); try reflexivity; destruct (get_attr _ _); reflexivity).
  assert (forall x, d_parent (add_missing (Some []) (fst a) (snd a) x) = d_parent x) as Hp by (intros x; unfold add_missing; destruct (d_kind x); try reflexivity; destruct (get_attr _ _); reflexivity).
  assert (forall x, kind_ok (d_kind x) -> kind_ok (d_kind (add_missing (Some []) (fst a) (snd a) x)) /\ weight (d_kind (add_missing (Some []) (fst a) (snd a) x)) = weight (d_kind x)) as Hkk.
  { intros x Hx. unfold add_missing. destruct (d_kind x) as [| |q at_| |] eqn:Ex; try (rewrite Ex; auto; fail). destruct (get_attr _ at_); [rewrite Ex; auto|]. split; [|reflexivity].
    destruct Hx as (H1 & H2 & H3). cbn. split; [exact H1|]. split; [exact H2|]. apply put_attr_ok; [exact H3|exact Ha]. }
  assert (Forall kind_ok (kinds d) /\ text_sum d = text_sum (s_dom s)) as [Hf Ht].
  { unfold d, text_sum, kinds. pose proof (i_kinds _ _ I) as Hks. unfold kinds in Hks. revert Hks. clear d. revert i. generalize (s_dom s). induction d as [|x d IHd]; intros [|i] Hks; cbn in *; inversion Hks; subst; auto.
    - destruct (Hkk x H1) as [H3 H4]. rewrite H4. auto.
    - destruct (IHd i H2) as [H3 H4]. unfold list_sum in H4. rewrite H4. auto. }
  apply inv_dom; [exact I| | | |exact Hf|rewrite Ht; lia].
  - apply update_kind_links; [exact Hk|exact Hp|apply (i_links _ _ I)].
  - pose proof (i_len _ _ I) as Z. unfold d, kind_of in *. rewrite nth_update. destruct (Nat.eqb 0 i); [|exact Z]. destruct (nth_error (s_dom s) 0) as [x|]; [|discriminate].
    injection Z as Z. cbn. f_equal. unfold add_missing. rewrite Z. exact Z.
  - unfold d. rewrite length_update. lia.
Qed.
Lemma leave_incl d k : incl (leave_foreign d k) k.
Proof. induction k as [|e k IH]; cbn [leave_foreign]; [easy|]. destruct (_ || _)%bool; [apply incl_refl|now apply incl_tl]. Qed.
Lemma insert_pop_form_keeps t : tag_ok t -> keeps 0 (fun s => andthen (insert_html t s) (fun r => Done (if has_template (snd r) then snd r else set_form (Some (fst r)) (snd r)))).
Proof.
  intros Ht. apply keep0. intros b s s' I E. unfold insert_html in E. destruct (insert_foreign t html_ns s) as [r|] eqn:Er; [|discriminate]. injection E as <-.
  destruct (insert_foreign_ok _ _ _ _ _ Ht (or_introl eq_refl) I Er) as (H1 & H2 & H3 & _). destruct (has_template (snd r)); [auto|]. split; [|exact H2].
  apply inv_set_form; [exact H1|]. intros x Hx. injection Hx as <-. exact H3.
Qed.
Lemma insert_head_moves t : tag_ok t -> moves 0 (insert_head t).
Proof.
  intros Ht b s s' I M E. unfold insert_head, insert_html in E. destruct (insert_foreign t html_ns s) as [r|] eqn:Er; [|discriminate]. injection E as <-. rewrite Nat.add_0_r.
  destruct (insert_foreign_ok _ _ _ _ _ Ht (or_introl eq_refl) I Er) as (H1 & H2 & H3 & _). split; [|reflexivity]. apply inv_mode; [|reflexivity].
  apply inv_set_head; [exact H1|]. intros x Hx. injection Hx as <-. exact H3.
Qed.
Lemma orig_moves : moves 0 (fun s => Done (set_mode (s_orig s) s)).
Proof. intros b s s' I M E. injection E as <-. rewrite Nat.add_0_r. pose proof (i_orig _ _ I) as H. split; [now apply inv_mode|exact H]. Qed.
Lemma in_second b s e : inv b s -> second s = Done e -> inside (s_dom s) e.
Proof.
  intros I E. unfold second in E. destruct (nth_error (rev (s_stack s)) 1) as [x|] eqn:Ex; [|discriminate]. injection E as <-. apply nth_error_In, in_rev in Ex.
  exact (proj1 (Forall_forall _ _) (i_stack _ _ I) _ Ex).
Qed.
Lemma in_current b s e : inv b s -> current s = Done e -> inside (s_dom s) e.
Proof.
  intros I E. unfold current in E. destruct (s_stack s) as [|x k] eqn:Ex; [discriminate|]. injection E as <-.
  apply (proj1 (Forall_forall _ _) (i_stack _ _ I)). rewrite Ex. now left.
Qed.
Lemma skipn_incl {A} n (l : list A) : incl (skipn n l) l.
Proof. revert l. induction n as [|n IH]; intros [|x l]; cbn; try apply incl_refl. apply incl_tl, IH. Qed.

Section Keep.
Variable acc : token -> act.
Variable accin : mode -> token -> act.
Hypothesis HA : forall t, from t -> any_ok (w t) (acc t).
Hypothesis HI : forall m t, from t -> is_itt m = false -> ends_ok (w t) (accin m t).
Hypothesis HT : forall t, from t -> forall b s s', inv b s -> s_mode s = IN_TABLE_TEXT -> accin IN_TABLE_TEXT t s = Done s' -> inv (b + w t) s'.
Hypothesis HB : forall t, from t -> is_char t = true -> keeps (w t) (accin IN_BODY t).

Ltac tg :=
  first [ assumption | apply implied_tag; reflexivity
        | match goal with H : starts _ ?t = true |- tag_ok ?t => apply from_tag; [assumption|exact (starts_start _ _ H)] end
        | match goal with H : is_start ?t = true |- tag_ok ?t => apply from_tag; [assumption|exact H] end
        | match goal with H : starts _ ?t = true |- tag_ok (case_attrs ?t) => apply case_attrs_tag; [assumption|exact (starts_start _ _ H)] end
        | match goal with H : (named ["br"]%string ?t || starts _ ?t)%bool = true |- tag_ok ?t => eapply br_or_tag; [assumption|exact H] end ].
Ltac kp :=
  lazymatch goal with
  | |- keeps _ (if ?b then _ else _) => destruct b eqn:?; kp
  | |- keeps _ (seq _ _) => apply seq_keeps0; kp
  | |- keeps _ (whenever _ _) => apply when_keeps; kp
  | |- keeps _ (branch _ _ _) => apply branch_keeps; kp
  | |- keeps _ nop => apply nop_keeps
  | |- keeps _ pop => apply pop_keeps
  | |- keeps _ (pop_until _) => apply pop_until_keeps
  | |- keeps _ (pop_until_name _) => apply pop_name_keeps
  | |- keeps _ (pop_until_tags _) => apply pop_name_keeps
  | |- keeps _ (unstack _) => apply unstack_keeps
  | |- keeps _ (implied _) => apply implied_keeps
  | |- keeps _ (clear_back _) => apply clear_back_keeps
  | |- keeps _ close_p => apply close_p_keeps
  | |- keeps _ close_p_in_button_scope => apply close_p_in_keeps
  | |- keeps _ (insert_ _) => apply insert_keeps; tg
  | |- keeps _ (insert_foreign_ _ _) => apply insert_foreign_keeps; [tg|tauto]
  | |- keeps _ (insert_active_html _) => apply insert_active_keeps; tg
  | |- keeps _ (insert_comment _) => apply comment_keeps; match goal with F : from ?t, H : is_comment ?t = true |- _ => apply F, H end
  | |- keeps _ frameset_not_ok => apply frameset_keeps
  | |- keeps _ (lexer_to _) => apply lexer_keeps
  | |- keeps _ push_marker => apply push_marker_keeps
  | |- keeps _ clear_to_marker => apply clear_marker_keeps
  | |- keeps _ reconstruct => apply reconstruct_keeps
  | |- keeps _ (agency _) => apply agency_keeps
  | |- keeps _ (pure (set_skip _)) => apply pure_keeps; [intros; now apply inv_skip|reflexivity]
  | |- keeps _ (pure (set_foster _)) => apply pure_keeps; [intros; now apply inv_foster|reflexivity]
  | |- keeps _ (pure (remove_active _)) => apply pure_keeps; [intros ? ? I; apply (remove_active_inv _ _ _ I)|idtac]
  | |- keeps _ (fun s => andthen _ (fun _ => Done s)) => apply look_keeps
  | |- keeps _ (fun s => andthen (token_tag _) _) => apply (do_keeps 0 (fun s => token_tag _)); intros ?; kp
  | |- _ => idtac
  end.
Ltac mv :=
  lazymatch goal with
  | |- moves _ (if ?b then _ else _) => destruct b eqn:?; mv
  | |- moves _ (seq _ _) => apply seq_moves0; mv
  | |- moves _ (whenever _ _) => apply when_moves; mv
  | |- moves _ (branch _ _ _) => apply branch_moves; mv
  | |- moves _ (switch_to _) => apply switch_moves; reflexivity
  | |- moves _ keep_mode => apply keep_mode_moves
  | |- moves _ (raw_text _ _) => apply raw_moves; tg
  | |- moves _ reset_mode => apply reset_moves
  | |- moves _ (insert_head _) => apply insert_head_moves; tg
  | |- moves _ (fun s => Done (set_mode (s_orig s) s)) => apply orig_moves
  | |- moves _ (fun s => andthen _ (fun _ => Done s)) => apply keeps_moves, look_keeps
  | |- moves _ (fun s => _) => idtac
  | |- moves _ _ => apply keeps_moves; kp
  end.
Ltac en :=
  lazymatch goal with
  | |- ends_ok _ (if ?b then _ else _) => destruct b eqn:?; en
  | |- ends_ok _ (seq (accin _ _) _) => apply seq_any0; [en|apply keeps_any; kp]
  | |- ends_ok _ (seq (insert_char (t_rune _)) _) => apply keeps_ends, seq_keeps1; [apply char_w; assumption|kp]
  | |- ends_ok _ (seq _ _) => apply seq_ends0; [mv|en]
  | |- ends_ok _ (whenever _ _) => apply when_ends; en
  | |- ends_ok _ (branch _ _ _) => apply branch_ends; en
  | |- ends_ok (w ?t) (acc ?t) => apply any_ends, HA; assumption
  | |- ends_ok _ (acc _) => idtac
  | |- ends_ok _ (table_else _ _) => idtac
  | |- ends_ok _ (accin _ _) => apply HI; [assumption|reflexivity]
  | |- ends_ok _ (insert_char (t_rune _)) => apply keeps_ends, char_w; [assumption|first [assumption | apply blank_char; assumption | apply blank4_char; assumption]]
  | |- ends_ok _ (fun s => andthen (token_tag ?t) _) => apply (do_ends _ (fun s => token_tag t)); intros ?; en
  | |- ends_ok _ (fun s => Done (set_mode (s_orig s) s)) => apply moves0_ends, orig_moves
  | |- ends_ok ?n (fun s => whenever ?c ?x s) => change (ends_ok n (whenever c x)); en
  | |- ends_ok _ (fun s => _) => idtac
  | |- ends_ok _ _ => apply moves0_ends; mv
  end.

Lemma eta_ends n (f : act) : ends_ok n f -> ends_ok n (fun s => f s).
Proof. intros H. exact H. Qed.
Lemma doc_keeps k : kind_ok k -> weight k = 0 -> keeps 0 (pure (append_to_document k)).
Proof. intros Hk H0. apply pure_keeps; [|reflexivity]. intros. now apply append_doc_inv. Qed.
Lemma initial_ok t : from t -> ends_ok (w t) (on_initial acc t).
Proof. intros F. unfold on_initial. en; (apply doc_keeps; [|reflexivity]); cbn; apply F; assumption. Qed.
Lemma before_html_ok t : from t -> ends_ok (w t) (on_before_html acc t).
Proof.
  intros F. unfold on_before_html. en.
  - apply doc_keeps; [|reflexivity]. cbn. apply F. assumption.
  - intros b s s' I M E. destruct (create_for t html_ns (s_dom s)) as [r|] eqn:Er; [|discriminate]. injection E as <-. rewrite Nat.add_0_r. split; [|exact M].
    assert (tag_ok t) as Ht by tg. destruct (created _ _ _ _ I Ht Er) as (I1 & Hi & Hle).
    assert (inv b (set_dom (append_child (snd r) 0 (e_id (fst r))) s)) as I2.
    { change (inv b (set_dom (append_child (snd r) 0 (e_id (fst r))) (set_dom (snd r) s))). apply inv_relink; [exact I1|apply append_links; [apply (i_links _ _ I1)|apply Hi]|apply kinds_append]. }
    apply inv_stack; [exact I2|]. constructor; [|apply (i_stack _ _ I2)]. eapply inside_more; [|exact Hi]. cbn. rewrite <- (kinds_length (append_child _ _ _)), kinds_append, kinds_length. lia.
  - apply pure_keeps; [|reflexivity]. intros b s I. assert (inv b (append_to_document (KElement (h "html") []) s)) as I1.
    { apply append_doc_inv; [exact I| |reflexivity]. split; [left; reflexivity|]. split; [|constructor]. exists (of_string "html"). split; [left; reflexivity|now left]. }
    apply inv_stack; [exact I1|]. constructor; [|apply (i_stack _ _ I1)]. split; [|left; reflexivity]. cbn. pose proof (dom_pos _ _ I).
    rewrite <- (kinds_length (append_child _ _ _)), kinds_append, alloc_kinds, app_length, kinds_length. cbn. lia.
Qed.
Lemma before_head_ok t : from t -> ends_ok (w t) (on_before_head acc accin t).
Proof. intros F. unfold on_before_head. en. Qed.
Lemma in_head_ok t : from t -> ends_ok (w t) (on_in_head acc accin t).
Proof. intros F. unfold on_in_head. cbv zeta. en. Qed.
Lemma noscript_ok t : from t -> ends_ok (w t) (on_in_head_noscript acc accin t).
Proof. intros F. unfold on_in_head_noscript. cbv zeta. en. Qed.
Lemma after_head_ok t : from t -> ends_ok (w t) (on_after_head acc accin t).
Proof.
  intros F. unfold on_after_head. cbv zeta. en.
  intros b s s' I M E. destruct (s_head s) as [hd|] eqn:Eh; [|discriminate]. apply seq_inv in E as (s1 & E1 & E2). injection E1 as <-.
  assert (ends_ok (w t) (accin IN_HEAD t ;; unstack hd)) as H by en. refine (H b _ s' _ _ E2); [|exact M]. apply inv_stack; [exact I|]. constructor; [apply (i_head _ _ I); exact Eh|apply (i_stack _ _ I)].
Qed.
Lemma done_more n b s s' : inv b s -> Done s = Done s' -> inv (b + n) s'.
Proof. intros I E. injection E as <-. eapply inv_more; [|exact I]. lia. Qed.
Lemma from_attrs t : from t -> Forall (fun x => attr_from ts (fst x) (snd x)) (t_attrs t).
Proof. intros F. eapply Forall_impl; [|apply F]. intros [n v] (t' & Ht & Hi). exists t', n. cbn. split; [exact Ht|]. split; [exact Hi|now left]. Qed.
Lemma in_body_ok t : from t -> ends_ok (w t) (on_in_body acc accin t).
Proof.
  intros F. unfold on_in_body. en.
  - (* html *)
    intros b s s' I M E. destruct (has_template s); [exact (done_more _ _ _ _ I E)|]. destruct (t_attrs t) as [|x l] eqn:El; [exact (done_more _ _ _ _ I E)|].
    destruct (current s) as [e|]; [|discriminate]. cbn [andthen] in E. rewrite <- El in E. eapply done_more; [|exact E]. apply add_missing_inv; [exact I|now apply from_attrs].
  - (* body *)
    intros b s s' I M E. match type of E with (if ?c then _ else _) = _ => destruct c end; [exact (done_more _ _ _ _ I E)|]. destruct (second s) as [e|]; [|discriminate]. cbn [andthen] in E.
    match type of E with (if ?c then _ else _) = _ => destruct c end; [exact (done_more _ _ _ _ I E)|]. eapply done_more; [|exact E]. apply (add_missing_inv b (set_frameset false s)); [now apply inv_frameset|now apply from_attrs].
  - (* frameset *)
    intros b s s' I M E. match type of E with (if ?c then _ else _) = _ => destruct c end; [exact (done_more _ _ _ _ I E)|]. destruct (second s) as [e|]; [|discriminate]. cbn [andthen] in E.
    match type of E with (if ?c then _ else _) = _ => destruct c end; [exact (done_more _ _ _ _ I E)|].
    assert (ends_ok (w t) (insert_ t ;; switch_to IN_FRAMESET)) as H by en. refine (H b _ s' _ _ E); [|exact M].
    assert (inv b (set_dom (remove_node (s_dom s) (e_id e)) s)) as I1.
    { apply inv_relink; [exact I|apply (remove_links _ _ (i_links _ _ I))|apply kinds_remove]. }
    apply inv_sub; [exact I1|apply skipn_incl].
  - (* form *)
    intros b s s' I M E. destruct (s_form s).
    + destruct (has_template s); [|exact (done_more _ _ _ _ I E)]. assert (ends_ok (w t) (close_p_in_button_scope ;; insert_ t)) as H by en. exact (H b s s' I M E).
    + match type of E with ?f s = _ => assert (ends_ok (w t) f) as H end; [|exact (H b s s' I M E)]. apply keeps0_ends, seq_keeps0; [kp|]. apply insert_pop_form_keeps. tg.
  - intros b s s' I M E. assert (tag_ok t) as Ht by tg. exact (keeps0_ends (w t) _ (item_keeps _ _ (s_stack s) Ht) b s s' I M E).
  - intros b s s' I M E. assert (tag_ok t) as Ht by tg. exact (keeps0_ends (w t) _ (item_keeps _ _ (s_stack s) Ht) b s s' I M E).
  - (* /form *)
    intros b s s' I M E. destruct (has_template s).
    + match type of E with whenever ?c ?f s = _ => assert (ends_ok (w t) (whenever c f)) as H by en end. exact (H b s s' I M E).
    + assert (inv b (set_form None s)) as I1 by (apply inv_set_form; [exact I|discriminate]). cbv zeta in E. destruct (s_form s) as [e|]; [|exact (done_more _ _ _ _ I1 E)].
      match type of E with whenever ?c ?f _ = _ => assert (ends_ok (w t) (whenever c f)) as H by en end. exact (H b _ s' I1 M E).
  - (* a *)
    apply keeps_moves. match goal with |- keeps 0 (fun s => andthen (find_active ?f s) _) => apply (do_keeps 0 (find_active f)) end. intros [e|]; [|apply nop_keeps].
    change (keeps 0 (agency t ;; pure (remove_active e) ;; unstack e)). kp. intros s. unfold remove_active. destruct (index_of e (s_active s)); reflexivity.
  - destruct (image_from t F Heqb35) as [F' W']. rewrite <- W'. apply any_ends, HA, F'.
  - destruct (t_name t) as [n|]; [|apply keeps0_ends, (nop_keeps 0)]. intros b s s' I M E. exact (keeps0_ends (w t) _ (any_end_keeps n (s_stack s)) b s s' I M E).
Qed.
Lemma text_ok t : from t -> ends_ok (w t) (on_text t).
Proof.
  intros F. unfold on_text. destruct (is_char t) eqn:Ec; [|en]. apply keeps_ends. destruct (t_rune t =? 0)%N eqn:E0; [|now apply char_w]. apply null_w; auto. now apply N.eqb_eq.
Qed.
Lemma table_else_ok t : from t -> ends_ok (w t) (table_else accin t).
Proof. intros F. unfold table_else. en. Qed.
Lemma in_table_ok t : from t -> ends_ok (w t) (on_in_table acc accin t).
Proof.
  intros F. unfold on_in_table. cbv zeta. apply branch_ends.
  - intros b s s' I M E. apply seq_inv in E as (s1 & E1 & E2). injection E1 as <-. apply seq_inv in E2 as (s1 & E1 & E2). injection E1 as <-. apply seq_inv in E2 as (s1 & E1 & E2). injection E1 as <-.
    refine (HA t F b _ s' _ E2). destruct I. constructor; auto; try (cbn; exact M).
    + constructor.
    + change (text_sum (s_dom s) + 0 <= b). lia.
  - en; try (apply table_else_ok; assumption).
    apply keeps0_ends, keep0. intros b s s' I E. destruct (has_template s); [injection E as <-; auto|]. destruct (s_form s); [injection E as <-; auto|].
    unfold insert_html in E. destruct (insert_foreign (tag_named "form") html_ns s) as [r|] eqn:Er; [|discriminate]. cbn [andthen] in E.
    assert (tag_ok (tag_named "form")) as Ht by tg. destruct (insert_foreign_ok _ _ _ _ _ Ht (or_introl eq_refl) I Er) as (H1 & H2 & H3 & _).
    assert (inv b (set_form (Some (fst r)) (snd r))) as I2 by (apply inv_set_form; [exact H1|]; intros x Hx; injection Hx as <-; exact H3).
    destruct (pop_keeps b _ s' I2 E) as [H5 H6]. rewrite Nat.add_0_r in H5. split; [exact H5|]. rewrite H6. exact H2.
Qed.
Lemma caption_ok t : from t -> ends_ok (w t) (on_in_caption acc accin t).
Proof. intros F. unfold on_in_caption, close_caption. en. Qed.
Lemma column_ok t : from t -> ends_ok (w t) (on_in_column_group acc accin t).
Proof. intros F. unfold on_in_column_group. en. Qed.
Lemma tbody_ok t : from t -> ends_ok (w t) (on_in_table_body acc accin t).
Proof. intros F. unfold on_in_table_body. cbv zeta. en. Qed.
Lemma row_ok t : from t -> ends_ok (w t) (on_in_row acc accin t).
Proof. intros F. unfold on_in_row. cbv zeta. en. Qed.
Lemma close_cell_moves : moves 0 close_cell.
Proof. unfold close_cell. mv. Qed.
Lemma cell_ok t : from t -> ends_ok (w t) (on_in_cell acc accin t).
Proof. intros F. unfold on_in_cell, close_cell. en. Qed.
Lemma template_ok t : from t -> ends_ok (w t) (on_in_template acc accin t).
Proof.
  intros F. unfold on_in_template. en. intros b s s' I M E. destruct (has_template s); [|exact (done_more _ _ _ _ I E)].
  match type of E with ?f s = _ => assert (ends_ok (w t) f) as H by en end. exact (H b s s' I M E).
Qed.
Lemma after_body_ok t : from t -> ends_ok (w t) (on_after_body acc accin t).
Proof.
  intros F. unfold on_after_body. en. intros b s s' I M E. destruct (bottom s) as [e|]; [|discriminate]. cbn [andthen] in E. eapply done_more; [|exact E]. apply comment_inv; [exact I|]. apply F. assumption.
Qed.
Lemma frameset_ok t : from t -> ends_ok (w t) (on_in_frameset accin t).
Proof.
  intros F. unfold on_in_frameset. en. intros b s s' I M E. match type of E with (if ?c then _ else _) = _ => destruct c end; [exact (done_more _ _ _ _ I E)|]. exact (keeps0_ends (w t) _ pop_keeps b s s' I M E).
Qed.
Lemma after_frameset_ok t : from t -> ends_ok (w t) (on_after_frameset accin t).
Proof. intros F. unfold on_after_frameset. en. Qed.
Lemma after_after_body_ok t : from t -> ends_ok (w t) (on_after_after_body acc accin t).
Proof. intros F. unfold on_after_after_body. en. Qed.
Lemma after_after_frameset_ok t : from t -> ends_ok (w t) (on_after_after_frameset accin t).
Proof. intros F. unfold on_after_after_frameset. en. Qed.

(** Text held back. *)
Lemma each_keeps (f : token -> act) l : Forall (fun t => keeps (w t) (f t)) l -> keeps (list_sum (map w l)) (each f l).
Proof.
  induction 1 as [|t l Ht _ IH]; cbn [each map]; [apply nop_keeps|]. change (list_sum (w t :: map w l)) with (w t + list_sum (map w l)). now apply seq_keeps.
Qed.
Lemma else_keeps t : from t -> is_char t = true -> keeps (w t) (table_else accin t).
Proof. intros F Hc. unfold table_else. apply seq_keeps0; [kp|]. apply seq_keeps1; [now apply HB|kp]. Qed.
Lemma table_text_ok t b s s' : from t -> inv b s -> s_mode s = IN_TABLE_TEXT -> on_in_table_text acc accin t s = Done s' -> inv (b + w t) s'.
Proof.
  intros F I M E. unfold on_in_table_text in E. destruct (is_nul t); [exact (done_more _ _ _ _ I E)|]. destruct (is_char t) eqn:Ec.
  - injection E as <-. destruct I. constructor; auto.
    + apply Forall_app. split; [exact i_pending0|constructor; [split; assumption|constructor]].
    + unfold held_sum in *. cbn [set_pending s_mode s_pending s_dom] in *. rewrite M in *. cbn [is_itt] in *. rewrite map_app, list_sum_app. cbn [map list_sum fold_right]. lia.
  - apply seq_inv in E as (s1 & E1 & E2).
    assert (inv (text_sum (s_dom s) + held_sum s + list_sum (map w (s_pending s))) s1 /\ mp s1 = mp s) as [I1 M1].
    { assert (inv (text_sum (s_dom s) + held_sum s) s) as I0 by (destruct I; constructor; auto). pose proof (i_pending _ _ I) as Hp.
      assert (keeps (list_sum (map w (s_pending s))) (each (table_else accin) (s_pending s))) as K1.
      { apply each_keeps. eapply Forall_impl; [|exact Hp]. intros x [Hx Fx]. now apply else_keeps. }
      assert (keeps (list_sum (map w (s_pending s))) (each (fun x => insert_char (t_rune x)) (s_pending s))) as K2.
      { apply each_keeps. eapply Forall_impl; [|exact Hp]. intros x [Hx Fx]. now apply char_w. }
      destruct (existsb _ _); [apply (K1 _ _ _ I0 E1)|apply (K2 _ _ _ I0 E1)]. }
    refine (HA t F b _ s' _ E2). injection M1 as M1 P1. pose proof (i_count _ _ I) as Hc. pose proof (i_count _ _ I1) as Hc1.
    assert (held_sum s = list_sum (map w (s_pending s))) as H1 by (unfold held_sum; now rewrite M).
    assert (held_sum s1 = list_sum (map w (s_pending s))) as H2 by (unfold held_sum; now rewrite M1, M, P1).
    pose proof (i_orig _ _ I1) as Ho. assert (inv (text_sum (s_dom s1)) (set_mode (s_orig s1) s1)) as I2.
    { destruct I1. constructor; auto. unfold held_sum. cbn [set_mode s_mode s_dom]. rewrite Ho. lia. }
    eapply inv_more; [|exact I2]. lia.
Qed.

(** Foreign content. *)
Lemma foreign_end_ok t n k : from t -> any_ok (w t) (foreign_end accin t n k).
Proof.
  intros F. induction k as [|e k IH]; cbn [foreign_end]; [apply keeps_any, nop_keeps|]. destruct (eq_ci_str _ _).
  - apply keeps_any. eapply more_keeps; [|apply pop_until_keeps]. lia.
  - destruct (is_html (e_name e)); [|exact IH]. intros b s s' I E. destruct (is_itt (s_mode s)) eqn:M.
    + destruct (s_mode s) eqn:Ms; try discriminate. eapply HT; eauto.
    + exact (HI (s_mode s) t F M b s s' I M E).
Qed.
Lemma foreign_ok t : from t -> any_ok (w t) (on_foreign acc accin t).
Proof.
  intros F. unfold on_foreign.
  destruct (is_nul t) eqn:En; [unfold is_nul in En; apply andb_true_iff in En as [Hc H0]; apply keeps_any, null_w; auto; now apply N.eqb_eq|].
  destruct (is_blank t) eqn:Eb; [apply keeps_any, char_w; auto; now apply blank_char|].
  destruct (is_char t) eqn:Ec; [apply keeps_any, seq_keeps1; [now apply char_w|kp]|].
  destruct (is_comment t) eqn:Em; [apply keeps_any; eapply more_keeps; [|apply comment_keeps, F, Em]; lia|].
  destruct (is_doctype t); [apply keeps_any, nop_keeps|].
  destruct (_ || _ || _)%bool.
  { intros b s s' I E. apply seq_inv in E as (s1 & E1 & E2). injection E1 as <-. refine (HA t F b _ s' _ E2). apply inv_sub; [exact I|apply leave_incl]. }
  destruct (is_start t) eqn:Es.
  { apply keeps_any. eapply more_keeps; [|apply keep0]; [lia|]. intros b s s' I E. destruct (current s) as [cur|] eqn:Ecur; [|discriminate]. cbn [andthen] in E. cbv zeta in E.
    set (t2 := if opt_eqb str_eqb _ _ then _ else t) in *. assert (tag_ok t2) as Ht by (unfold t2; destruct (opt_eqb _ _ _); [now apply svg_tag_ok|now apply from_tag]).
    pose proof (in_current _ _ _ I Ecur) as [_ Hn]. unfold ns_ok in Hn. destruct (q_ns (e_name cur)) as [ns|]; [|discriminate].
    assert (keeps 0 (insert_foreign_ t2 ns ;; if t_self_closing t2 then pop else nop)) as K.
    { apply seq_keeps0; [apply insert_foreign_keeps; [exact Ht|]; destruct Hn as [Hn|[Hn|Hn]]; injection Hn; auto|]. kp. }
    destruct (K b s s' I E) as [H1 H2]. rewrite Nat.add_0_r in H1. auto. }
  destruct (is_end t); [|apply keeps_any, nop_keeps]. intros b s s' I E. apply branch_inv in E as [E|E].
  - destruct (pop_keeps b s s' I E) as [H1 _]. eapply inv_more; [|exact H1]. lia.
  - destruct (t_name t) as [n|]; [|discriminate]. destruct (current s); [|discriminate]. exact (foreign_end_ok t n (s_stack s) F b s s' I E).
Qed.
Lemma rules_ok m t : from t -> is_itt m = false -> ends_ok (w t) (rules acc accin m t).
Proof.
  intros F M. destruct m; cbn [rules]; try discriminate;
    [apply initial_ok|apply before_html_ok|apply before_head_ok|apply in_head_ok|apply noscript_ok|apply after_head_ok|apply in_body_ok|apply text_ok|apply in_table_ok
    |apply caption_ok|apply column_ok|apply tbody_ok|apply row_ok|apply cell_ok|apply template_ok|apply after_body_ok|apply frameset_ok|apply after_frameset_ok|apply after_after_body_ok|apply after_after_frameset_ok]; exact F.
Qed.
End Keep.
Lemma body_char acc accin t : from t -> is_char t = true -> keeps (w t) (on_in_body acc accin t).
Proof.
  intros F Hc. unfold on_in_body. destruct (is_nul t); [apply nop_keeps|]. destruct (is_blank t).
  - apply seq_keeps0; [apply reconstruct_keeps|now apply char_w].
  - rewrite Hc. apply seq_keeps0; [apply reconstruct_keeps|]. apply seq_keeps1; [now apply char_w|apply frameset_keeps].
Qed.
Lemma dispatch_ok f :
  (forall t, from t -> any_ok (w t) (dispatch f None t)) /\
  (forall m t, from t -> is_itt m = false -> ends_ok (w t) (dispatch f (Some m) t)) /\
  (forall t, from t -> forall b s s', inv b s -> s_mode s = IN_TABLE_TEXT -> dispatch f (Some IN_TABLE_TEXT) t s = Done s' -> inv (b + w t) s') /\
  (forall t, from t -> is_char t = true -> keeps (w t) (dispatch f (Some IN_BODY) t)).
Proof.
  induction f as [|f (HA & HI & HT & HB)].
  - repeat split; intros; discriminate.
  - split; [|split; [|split]].
    + intros t F b s s' I E. cbn [dispatch] in E. destruct (s_skip_lf s && _)%bool; [eapply done_more; [|exact E]; now apply inv_skip|]. cbv zeta in E.
      assert (inv b (set_skip false s)) as I1 by now apply inv_skip. set (s1 := set_skip false s) in *. clearbody s1. destruct (in_html_content t s1).
      * destruct (is_itt (s_mode s1)) eqn:M.
        -- destruct (s_mode s1) eqn:Ms; try discriminate. exact (table_text_ok (dispatch f None) (fun m => dispatch f (Some m)) HA HB t b s1 s' F I1 Ms E).
        -- exact (rules_ok (dispatch f None) (fun m => dispatch f (Some m)) HA HI _ t F M b s1 s' I1 M E).
      * exact (foreign_ok (dispatch f None) (fun m => dispatch f (Some m)) HA HI HT t F b s1 s' I1 E).
    + intros m t F M. cbn [dispatch]. exact (rules_ok (dispatch f None) (fun m => dispatch f (Some m)) HA HI m t F M).
    + intros t F b s s' I M E. cbn [dispatch] in E. exact (table_text_ok (dispatch f None) (fun m => dispatch f (Some m)) HA HB t b s s' F I M E).
    + intros t F Hc. cbn [dispatch rules]. now apply body_char.
Qed.
Lemma build1_ok t b s s' : from t -> inv b s -> build1 t s = Done s' -> inv (b + w t) s'.
Proof. intros F I E. unfold build1 in E. eapply (proj1 (dispatch_ok _)); [exact F|apply inv_switch, I|exact E]. Qed.
Lemma build_ok l : forall b s s', Forall from l -> inv b s -> build l s = Done s' -> inv (b + list_sum (map w l)) s'.
Proof.
  induction l as [|t l IH]; intros b s s' F I E; cbn [build] in E; [injection E as <-; cbn; now rewrite Nat.add_0_r|].
  inversion F; subst. destruct (build1 t s) as [s1|] eqn:E1; [|discriminate]. cbn [andthen] in E. pose proof (IH _ _ _ H2 (build1_ok _ _ _ _ H1 I E1) E) as I2.
  change (list_sum (map w (t :: l))) with (w t + list_sum (map w l)). now rewrite Nat.add_assoc.
Qed.
End Inv.
