(** Single steps of the tree builder inside a document that needs no repair. *)
From Coq Require Import String List Arith Bool NArith Lia Permutation.
From Verif.Base Require Import Str.
From Verif.Html Require Import LexerModel SerialModel SerialSpec SerialProofs BuildModel BuildSpec BuildDom.
Import ListNotations.
Local Open Scope list_scope.
Local Infix ";;" := seq (at level 61, right associativity).

(** ** Names *)
Definition hq (n : str) : qname := mkQName (Some html_ns) n.

Lemma hq_eqb n m : qname_eqb (hq n) (hq m) = str_eqb n m.
Proof. reflexivity. Qed.
Lemma h_eqb n x : qname_eqb (hq n) (h x) = str_eqb n (of_string x).
Proof. reflexivity. Qed.
Lemma qone_h l n : qone_of (map h l) (hq n) = in_names l n.
Proof. induction l as [|x l IH]; [reflexivity|]. cbn [map qone_of existsb in_names]. rewrite h_eqb. f_equal. exact IH. Qed.
Lemma one_of_in l n : one_of l n = in_names l n.
Proof. reflexivity. Qed.
Lemma in_names_app l l' n : in_names (l ++ l') n = in_names l n || in_names l' n.
Proof. apply existsb_app. Qed.
Lemma in_names_In l n : in_names l n = true <-> exists x, In x l /\ n = of_string x.
Proof.
  unfold in_names. rewrite existsb_exists. split; intros (x & H & E); exists x; (split; [exact H|]).
  - apply str_eqb_spec, E.
  - subst. apply str_eqb_refl.
Qed.
Lemma in_names_out l l' n : forallb (fun x => in_names l' (of_string x)) l = true -> in_names l' n = false -> in_names l n = false.
Proof.
  intros H Hn. destruct (in_names l n) eqn:E; [|reflexivity]. apply in_names_In in E as (x & Hx & ->).
  rewrite forallb_forall in H. rewrite (H x Hx) in Hn. discriminate.
Qed.

(** ** Where we are *)
Definition stack_path (k : list elem) (path : list str) : Prop := map e_name k = map hq path.

Inductive path_at : place_in -> list str -> Prop :=
| at_head : path_at Head [of_string "head"; of_string "html"]
| at_body : path_at Flow [of_string "body"; of_string "html"]
| at_flow n p : in_names ("table"%string :: not_flow) n = false -> path_at Flow p -> path_at Flow (n :: p)
| at_cell n p : in_names ["td"; "th"]%string n = true -> path_at InRow p -> path_at Flow (n :: p)
| at_caption p : path_at InTable p -> path_at Flow (of_string "caption" :: p)
| at_table p : path_at Flow p -> path_at InTable (of_string "table" :: p)
| at_columns p : path_at InTable p -> path_at InColumns (of_string "colgroup" :: p)
| at_section n p : in_names ["tbody"; "thead"; "tfoot"]%string n = true -> path_at InTable p -> path_at InSection (n :: p)
| at_row p : path_at InSection p -> path_at InRow (of_string "tr" :: p).

Fixpoint ctx_mode (path : list str) : mode :=
  match path with
  | [] => IN_BODY
  | n :: p => if in_names ["td"; "th"]%string n then IN_CELL
              else if in_names ["caption"]%string n then IN_CAPTION
              else if in_names ["body"]%string n then IN_BODY else ctx_mode p
  end.

Lemma path_html c p : path_at c p -> In (of_string "html") p.
Proof. induction 1; cbn [In]; auto. Qed.
Lemma path_no_template c p : path_at c p -> ~ In (of_string "template_") p.
Proof.
  induction 1 as [| |n p H _ IH|n p H _ IH|p _ IH|p _ IH|p _ IH|n p H _ IH|p _ IH]; cbn [In]; intros Hi;
    repeat (destruct Hi as [Hi|Hi]; [try discriminate Hi|]); try contradiction.
  - subst. discriminate H.
  - apply in_names_In in H as (x & Hx & ->). repeat destruct Hx as [<-|Hx]; try contradiction; discriminate Hi.
  - apply in_names_In in H as (x & Hx & ->). repeat destruct Hx as [<-|Hx]; try contradiction; discriminate Hi.
Qed.

Lemma scope_spec c k path delim q wanted ws : path_at c path -> stack_path k path ->
  (forall x, x <> of_string "template_" -> qname_eqb (hq x) q = wanted x) ->
  (forall x, x <> of_string "template_" -> delim (hq x) = in_names ws x) ->
  in_names ws (of_string "html") = true ->
  scope_loop delim q k = Done (inside wanted ws path).
Proof.
  intros Hp Hk Hw Hd Hh. pose proof (path_html _ _ Hp) as Hi. pose proof (path_no_template _ _ Hp) as Ht. clear Hp.
  revert k Hk Hi Ht. induction path as [|n path IH]; intros k Hk Hi Ht; [destruct Hi|].
  destruct k as [|[i q'] k]; [discriminate|]. unfold stack_path in Hk. cbn [map e_name] in Hk.
  injection Hk as -> Hk. cbn [scope_loop e_name inside]. rewrite Hw, Hd by (intros ->; apply Ht; left; reflexivity).
  destruct (wanted n) eqn:E1; [reflexivity|]. destruct (in_names ws n) eqn:E2; [reflexivity|].
  apply IH; [exact Hk| |intros H; apply Ht; right; exact H].
  destruct Hi as [Hi|Hi]; [rewrite Hi in E2; rewrite Hh in E2; discriminate|exact Hi].
Qed.

Lemma eqb_h x : forall n, n <> of_string "template_" -> qname_eqb (hq n) (h x) = eq_name x n.
Proof. reflexivity. Qed.
Lemma eqb_hq m : forall n, n <> of_string "template_" -> qname_eqb (hq n) (hq m) = str_eqb m n.
Proof.
  intros n _. rewrite hq_eqb. destruct (str_eqb m n) eqn:E.
  - apply str_eqb_spec in E. subst. apply str_eqb_refl.
  - apply str_eqb_neq. apply str_eqb_neq in E. congruence.
Qed.
Lemma basic_walls n : n <> of_string "template_" -> basic_scope (hq n) = in_names walls n.
Proof.
  intros H. unfold basic_scope, scope_delimiters. rewrite qone_h. apply str_eqb_neq in H.
  cbn [in_names existsb walls]. rewrite H. now rewrite !orb_false_r.
Qed.
Lemma button_walls n : n <> of_string "template_" -> (qname_eqb (hq n) (h "button") || basic_scope (hq n)) = in_names ("button"%string :: walls) n.
Proof. intros H. rewrite basic_walls by exact H. reflexivity. Qed.
Lemma list_walls n : n <> of_string "template_" ->
  (qname_eqb (hq n) (h "ol") || qname_eqb (hq n) (h "ul") || basic_scope (hq n)) = in_names ("ol" :: "ul" :: walls)%string n.
Proof. intros H. rewrite basic_walls by exact H. rewrite <- orb_assoc. reflexivity. Qed.
Lemma table_walls n : n <> of_string "template_" ->
  (qname_eqb (hq n) (h "html") || qname_eqb (hq n) (h "table") || qname_eqb (hq n) (h "template_")) = in_names ["html"; "table"]%string n.
Proof. intros H. rewrite !h_eqb. apply str_eqb_neq in H. rewrite H. cbn [in_names existsb]. now rewrite !orb_false_r. Qed.

(** ** The list of active formatting elements follows the stack *)
Definition ename (e : elem) : str := q_name (e_name e).
Inductive act_ok : list elem -> list entry -> Prop :=
| act_nil : act_ok [] []
| act_plain e k a : in_names formatting (ename e) = false -> in_names boxes (ename e) = false -> act_ok k a -> act_ok (e :: k) a
| act_format e k a t : in_names formatting (ename e) = true -> act_ok k a -> act_ok (e :: k) (a ++ [Formatting e t])
| act_box e k a : in_names boxes (ename e) = true -> act_ok k a -> act_ok (e :: k) (a ++ [Marker]).

Lemma same_refl e : same e e = true.
Proof. apply Nat.eqb_refl. Qed.

Lemma act_last k a : act_ok k a -> match rev a with [] => True | x :: _ => closed_entry k x = false end.
Proof.
  induction 1 as [|e k a _ _ _ IH|e k a t _ _ IH|e k a _ _ IH]; [exact I| | |].
  - destruct (rev a) as [|x r]; [exact I|]. destruct x as [|f t]; [reflexivity|]. cbn [closed_entry on_stack existsb] in *.
    destruct (same f e); [reflexivity|]. exact IH.
  - rewrite rev_unit. cbn [closed_entry on_stack existsb]. rewrite same_refl. reflexivity.
  - rewrite rev_unit. reflexivity.
Qed.
Lemma act_entries k a : act_ok k a -> forall e t, In (Formatting e t) a -> In e k.
Proof.
  induction 1 as [|e k a _ _ _ IH|e k a t _ _ IH|e k a _ _ IH]; intros e' t' Hi; [destruct Hi|right; eauto| |].
  - apply in_app_iff in Hi as [Hi|[Hi|[]]]; [right; eauto|left; congruence].
  - apply in_app_iff in Hi as [Hi|[Hi|[]]]; [right; eauto|discriminate].
Qed.
Lemma alm_le l : after_last_marker l <= length l.
Proof. induction l as [|[|e t] l IH]; cbn; lia. Qed.
Lemma formatting_not_box n : in_names formatting n = true -> in_names boxes n = false.
Proof.
  intros H. apply in_names_In in H as (x & Hx & ->). repeat destruct Hx as [<-|Hx]; try contradiction; reflexivity.
Qed.

Lemma act_since k a path : act_ok k a -> stack_path k path ->
  Forall (fun x => exists e t, x = Formatting e t /\ exists n, e_name e = hq n /\ inside (str_eqb n) boxes path = true) (skipn (after_last_marker (rev a)) a).
Proof.
  intros H. revert path. induction H as [|e k a Hf Hb _ IH|e k a t Hf _ IH|e k a Hb _ IH]; intros path Hk; [constructor| | |];
    (destruct path as [|n path]; [discriminate Hk|]; unfold stack_path in Hk; cbn [map] in Hk; injection Hk as En Hk;
     unfold ename in *; rewrite En in *; cbn [q_name hq] in *).
  - eapply Forall_impl; [|apply IH, Hk]. intros x (e' & t' & -> & n' & En' & Hn). exists e', t'. split; [reflexivity|]. exists n'. split; [exact En'|].
    cbn [inside]. destruct (str_eqb n' n); [reflexivity|]. rewrite Hb. exact Hn.
  - rewrite rev_unit. cbn [after_last_marker]. pose proof (alm_le (rev a)) as Hl. rewrite rev_length in Hl.
    rewrite skipn_app. replace (after_last_marker (rev a) - length a) with 0 by lia. cbn [skipn]. apply Forall_app. split.
    + eapply Forall_impl; [|apply IH, Hk]. intros x (e' & t' & -> & n' & En' & Hn). exists e', t'. split; [reflexivity|]. exists n'. split; [exact En'|].
      cbn [inside]. destruct (str_eqb n' n); [reflexivity|]. rewrite (formatting_not_box _ Hf). exact Hn.
    + constructor; [|constructor]. exists e, t. split; [reflexivity|]. exists n. split; [exact En|]. cbn [inside]. now rewrite str_eqb_refl.
  - rewrite rev_unit. cbn [after_last_marker]. rewrite rev_length. rewrite skipn_all2 by (rewrite app_length; cbn; lia). constructor.
Qed.

Lemma act_new k a : act_ok k a -> forall e, ~ In (e_id e) (map e_id k) -> index_of e a = None.
Proof.
  intros H e He. pose proof (act_entries _ _ H) as Hin. clear H. induction a as [|x a IH]; [reflexivity|]. cbn [index_of].
  destruct x as [|f t]; cbn [is_entry].
  - rewrite IH; [reflexivity|]. intros e' t' Hi. eapply Hin. right. exact Hi.
  - destruct (same f e) eqn:E.
    + exfalso. apply He. apply Nat.eqb_eq in E. rewrite <- E. apply in_map. eapply Hin. left. reflexivity.
    + rewrite IH; [reflexivity|]. intros e' t' Hi. eapply Hin. right. exact Hi.
Qed.

(** ** The state inside such a document *)
Definition is_form (e : elem) : bool := str_eqb (ename e) (of_string "form").
Record good (d : dom) (k : list elem) (m : mode) (hd : option elem) (sk : bool) (sw : option text_mode) (s : st) : Prop := {
  g_dom : s_dom s = d;
  g_stack : s_stack s = k;
  g_act : act_ok k (s_active s);
  g_after : s_after s = after_last_marker (rev (s_active s));
  g_mode : s_mode s = m;
  g_head : s_head s = hd;
  g_form : s_form s = find is_form k;
  g_foster : s_foster s = false;
  g_skip : s_skip_lf s = sk;
  g_switch : s_switch s = sw }.

Definition ids_ok (d : dom) (k : list elem) : Prop := NoDup (map e_id k) /\ Forall (fun e => e_id e < length d) k.
Definition top (k : list elem) : nat := match k with e :: _ => e_id e | [] => 0 end.

Lemma reconstruct_nop d k m hd sk sw s : good d k m hd sk sw s -> reconstruct s = Done s.
Proof.
  intros G. unfold reconstruct. pose proof (act_last _ _ (g_act _ _ _ _ _ _ _ G)) as H.
  destruct (rev (s_active s)) as [|x l]; [reflexivity|]. rewrite (g_stack _ _ _ _ _ _ _ G), H. reflexivity.
Qed.

Lemma in_scope_spec c k path q wanted s : path_at c path -> stack_path k path -> s_stack s = k ->
  (forall x, x <> of_string "template_" -> qname_eqb (hq x) q = wanted x) ->
  in_scope q s = Done (inside wanted walls path).
Proof. intros Hp Hk Hs Hw. unfold in_scope, has_in. rewrite Hs. exact (scope_spec c k path _ q wanted _ Hp Hk Hw basic_walls eq_refl). Qed.
Lemma in_button_scope_spec c k path q wanted s : path_at c path -> stack_path k path -> s_stack s = k ->
  (forall x, x <> of_string "template_" -> qname_eqb (hq x) q = wanted x) ->
  in_button_scope q s = Done (inside wanted ("button"%string :: walls) path).
Proof. intros Hp Hk Hs Hw. unfold in_button_scope, has_in. rewrite Hs. exact (scope_spec c k path _ q wanted _ Hp Hk Hw button_walls eq_refl). Qed.
Lemma in_list_scope_spec c k path q wanted s : path_at c path -> stack_path k path -> s_stack s = k ->
  (forall x, x <> of_string "template_" -> qname_eqb (hq x) q = wanted x) ->
  in_list_scope q s = Done (inside wanted ("ol" :: "ul" :: walls)%string path).
Proof. intros Hp Hk Hs Hw. unfold in_list_scope, has_in. rewrite Hs. exact (scope_spec c k path _ q wanted _ Hp Hk Hw list_walls eq_refl). Qed.
Lemma in_table_scope_spec c k path q wanted s : path_at c path -> stack_path k path -> s_stack s = k ->
  (forall x, x <> of_string "template_" -> qname_eqb (hq x) q = wanted x) ->
  in_table_scope q s = Done (inside wanted ["html"; "table"]%string path).
Proof. intros Hp Hk Hs Hw. unfold in_table_scope, has_in. rewrite Hs. exact (scope_spec c k path _ q wanted _ Hp Hk Hw table_walls eq_refl). Qed.

Lemma close_p_nop c k path s : path_at c path -> stack_path k path -> s_stack s = k ->
  inside (eq_name "p") ("button"%string :: walls) path = false -> close_p_in_button_scope s = Done s.
Proof.
  intros Hp Hk Hs Hi. unfold close_p_in_button_scope, whenever, branch.
  rewrite (in_button_scope_spec _ _ _ _ _ _ Hp Hk Hs (eqb_h "p")), Hi. reflexivity.
Qed.

(** ** Inserting *)
Definition attrs_of_token (t : token) : list (qname * str) :=
  fold_left (fun a x => put_attr (mkQName None (fst x)) (snd x) a) (t_attrs t) [].

Lemma insert_eq s e k n t : s_stack s = e :: k -> s_foster s = false -> t_name t = Some n -> e_id e < length (s_dom s) ->
  insert_html t s = Done (mkElem (length (s_dom s)) (hq n),
    set_stack (mkElem (length (s_dom s)) (hq n) :: s_stack s)
      (set_dom (put_under (s_dom s) (e_id e) (KElement (hq n) (attrs_of_token t))) s)).
Proof.
  intros Hs Hf Ht Hl. unfold insert_html, insert_foreign, place, current. rewrite Hs, Hf. cbn [andthen andb].
  unfold create_for. rewrite Ht. cbn [andthen fst snd loc_insert l_before l_parent e_id].
  fold (attrs_of_token t). fold (hq n). rewrite append_new by exact Hl. reflexivity.
Qed.

Lemma put_attr_new q v l : ~ In q (map fst l) -> put_attr q v l = l ++ [(q, v)].
Proof.
  induction l as [|[q' v'] l IH]; intros H; [reflexivity|]. cbn [put_attr map fst In app] in *.
  destruct (qname_eqb q' q) eqn:E.
  - exfalso. apply H. left. destruct q' as [a b], q as [a' b']. unfold qname_eqb in E. cbn in E. apply andb_true_iff in E as [E1 E2].
    apply str_eqb_spec in E2. subst. destruct a as [a|], a' as [a'|]; try discriminate E1; [|reflexivity]. cbn in E1. apply str_eqb_spec in E1. now subst.
  - rewrite IH; [reflexivity|]. intros Hi. apply H. right. exact Hi.
Qed.
Lemma attrs_token ty n a : attrs_ok a -> attrs_of_token (tag_token ty n (map local_attr a)) = a.
Proof.
  intros [Ha Hn]. unfold attrs_of_token. cbn [t_attrs tag_token].
  assert (forall l, Forall (fun x => q_ns (fst x) = None) l -> NoDup (map (fun x => q_name (fst x)) (l ++ a)) ->
    fold_left (fun acc x => put_attr (mkQName None (fst x)) (snd x) acc) (map local_attr a) l = l ++ a) as H.
  { clear Hn. induction a as [|[q v] a IH]; intros l Hl Hn; [cbn; now rewrite app_nil_r|].
    inversion Ha as [|? ? (H1 & _) Ha']; subst. cbn [map local_attr fold_left fst snd] in *.
    destruct q as [ns n']. cbn [q_ns q_name] in *. subst ns. rewrite put_attr_new.
    - rewrite IH; [now rewrite <- app_assoc|exact Ha'| |now rewrite <- app_assoc]. apply Forall_app. split; [exact Hl|]. repeat constructor.
    - rewrite map_app in Hn. cbn [map q_name fst] in Hn. apply NoDup_remove_2 in Hn. intros Hi. apply Hn. apply in_app_iff. left.
      apply in_map_iff in Hi as ((q' & v') & E & Hi). apply in_map_iff. exists (q', v'). cbn [fst] in E. subst q'. split; [reflexivity|exact Hi]. }
  apply (H []); [constructor|exact Hn].
Qed.

Definition stag (n : str) (a : list (qname * str)) : token := tag_token T_START_TAG n (map local_attr a).
Definition etag (n : str) : token := tag_token T_END_TAG n [].
Definition opened (d : dom) (k : list elem) (n : str) (a : list (qname * str)) : dom := put_under d (top k) (KElement (hq n) a).
Definition opening (d : dom) (n : str) : elem := mkElem (length d) (hq n).

Lemma insert_stag d k m hd sk sw s n a : good d k m hd sk sw s -> k <> [] -> ids_ok d k -> attrs_ok a ->
  insert_html (stag n a) s = Done (opening d n, set_stack (opening d n :: k) (set_dom (opened d k n a) s)).
Proof.
  intros G Hk [_ Hi] Ha. destruct k as [|e k]; [congruence|]. inversion Hi as [|? ? Hl _]; subst.
  rewrite (insert_eq s e k n); [| apply (g_stack _ _ _ _ _ _ _ G)|apply (g_foster _ _ _ _ _ _ _ G)|reflexivity|rewrite (g_dom _ _ _ _ _ _ _ G); exact Hl].
  unfold stag. rewrite attrs_token by exact Ha. rewrite (g_dom _ _ _ _ _ _ _ G), (g_stack _ _ _ _ _ _ _ G). reflexivity.
Qed.

Lemma ids_opened d k n a : ids_ok d k -> ids_ok (opened d k n a) (opening d n :: k).
Proof.
  intros [Hn Hl]. unfold ids_ok, opened. rewrite length_put. split.
  - cbn [map opening e_id]. constructor; [|exact Hn]. intros Hi. apply in_map_iff in Hi as (e & E & Hi). rewrite Forall_forall in Hl. specialize (Hl e Hi). lia.
  - constructor; [cbn; lia|]. eapply Forall_impl; [|exact Hl]. cbn. intros. lia.
Qed.

Ltac flds := cbn [s_dom s_stack s_active s_after s_mode s_orig s_head s_form s_frameset_ok s_foster s_pending s_skip_lf s_switch
  set_dom set_stack set_active set_mode set_orig set_head set_form set_frameset set_foster set_pending set_skip set_switch].
Lemma form_other e k : in_names ["form"]%string (ename e) = false -> find is_form (e :: k) = find is_form k.
Proof. intros H. cbn [find]. unfold is_form at 1. cbn [in_names existsb] in H. rewrite orb_false_r in H. rewrite H. reflexivity. Qed.

(** A new element that is neither formatting, nor a box, nor a form. *)
Definition plain (n : str) : Prop := in_names formatting n = false /\ in_names boxes n = false /\ in_names ["form"]%string n = false.
Lemma insert_plain d k m hd sk sw s n a : good d k m hd sk sw s -> k <> [] -> ids_ok d k -> attrs_ok a -> plain n ->
  exists s', insert_ (stag n a) s = Done s' /\ good (opened d k n a) (opening d n :: k) m hd sk sw s'.
Proof.
  intros G Hk Hi Ha (P1 & P2 & P3). unfold insert_. rewrite (insert_stag _ _ _ _ _ _ _ _ _ G Hk Hi Ha). cbn [andthen snd].
  eexists. split; [reflexivity|]. destruct G as [G1 G2 G3 G4 G5 G6 G7 G8 G9 G10].
  constructor; flds; auto; [apply act_plain; assumption|]. rewrite form_other by exact P3. exact G7.
Qed.

Lemma good_frameset d k m hd sk sw s b : good d k m hd sk sw s -> good d k m hd sk sw (set_frameset b s).
Proof. intros []; constructor; auto. Qed.
Lemma good_mode d k m hd sk sw s m' : good d k m hd sk sw s -> good d k m' hd sk sw (set_mode m' s).
Proof. intros []; constructor; auto. Qed.
Lemma good_skip d k m hd sk sw s b : good d k m hd sk sw s -> good d k m hd b sw (set_skip b s).
Proof. intros []; constructor; auto. Qed.
Lemma good_switch d k m hd sk sw s b : good d k m hd sk sw s -> good d k m hd sk b (set_switch b s).
Proof. intros []; constructor; auto. Qed.
Lemma good_orig d k m hd sk sw s b : good d k m hd sk sw s -> good d k m hd sk sw (set_orig b s).
Proof. intros []; constructor; auto. Qed.
Lemma good_pending d k m hd sk sw s b : good d k m hd sk sw s -> good d k m hd sk sw (set_pending b s).
Proof. intros []; constructor; auto. Qed.

Lemma pop_plain d e k m hd sk sw s : good d (e :: k) m hd sk sw s -> plain (ename e) ->
  exists s', pop s = Done s' /\ good d k m hd sk sw s'.
Proof.
  intros G (P1 & P2 & P3). destruct G as [G1 G2 G3 G4 G5 G6 G7 G8 G9 G10]. unfold pop. rewrite G2. eexists. split; [reflexivity|].
  constructor; flds; auto.
  - inversion G3; subst; [assumption|congruence|congruence].
  - rewrite form_other in G7 by exact P3. exact G7.
Qed.

(** ** Entering the rules for running content *)
Definition table_tag (t : token) : bool :=
  named ["caption"; "col"; "colgroup"; "tbody"; "td"; "tfoot"; "th"; "thead"; "tr"; "body"; "html"]%string t || (is_end t && named ["table"]%string t).
Lemma named_out l l' t : forallb (fun x => in_names l' (of_string x)) l = true -> named l' t = false -> named l t = false.
Proof. unfold named. destruct (t_name t) as [n|]; [|reflexivity]. apply in_names_out. Qed.

Ltac not_named H t := repeat match goal with |- context [named ?l t] =>
  let X := fresh in assert (X : named l t = false) by (apply (named_out _ _ t) with (2 := H); reflexivity); rewrite X; clear X end.

Definition is_lf (t : token) : bool := is_char t && (t_rune t =? 10)%N.
Lemma enter f t s e k : s_stack s = e :: k -> is_html (e_name e) = true -> (s_skip_lf s = true -> is_lf t = false) ->
  dispatch (S f) None t s = rules (dispatch f None) (fun m => dispatch f (Some m)) (s_mode s) t (set_skip false s).
Proof.
  intros Hs Hh Hk. cbn [dispatch]. assert (s_skip_lf s && (is_char t && (t_rune t =? 10)%N) = false) as ->.
  { destruct (s_skip_lf s); [|reflexivity]. exact (Hk eq_refl). }
  unfold in_html_content. cbn [set_skip s_stack]. rewrite Hs, Hh. reflexivity.
Qed.

Lemma enter_body f t s e k path : 2 <= f -> s_stack s = e :: k -> is_html (e_name e) = true -> (s_skip_lf s = true -> is_lf t = false) ->
  s_mode s = ctx_mode path -> table_tag t = false ->
  exists f', f - 2 <= f' /\ dispatch f None t s = on_in_body (dispatch f' None) (fun m => dispatch f' (Some m)) t (set_skip false s).
Proof.
  intros Hf Hs Hh Hk Hm Ht. destruct f as [|[|f]]; try lia. rewrite (enter _ _ _ _ _ Hs Hh Hk), Hm.
  apply orb_false_iff in Ht as [Ht1 Ht2].
  assert (ctx_mode path = IN_BODY \/ ctx_mode path = IN_CELL \/ ctx_mode path = IN_CAPTION) as [E|[E|E]].
  { clear. induction path as [|n p IH]; [left; reflexivity|]. cbn [ctx_mode]. destruct (in_names _ n); [auto|]. destruct (in_names _ n); [auto|]. destruct (in_names _ n); auto. }
  - rewrite E. exists (S f). split; [lia|reflexivity].
  - rewrite E. exists f. split; [lia|]. cbn [rules]. unfold on_in_cell, starts, ends.
    not_named Ht1 t. rewrite !andb_false_r.
    replace (is_end t && named ["table"; "tbody"; "tfoot"; "thead"; "tr"]%string t) with false; [reflexivity|].
    symmetry. apply andb_false_iff in Ht2 as [Ht2|Ht2]; [rewrite Ht2; reflexivity|]. apply andb_false_iff. right.
    assert (named ["tbody"; "tfoot"; "thead"; "tr"]%string t = false) as Ht3 by (apply (named_out _ _ t) with (2 := Ht1); reflexivity). unfold named in *. destruct (t_name t) as [n|]; [|reflexivity].
    cbn [one_of existsb] in *. rewrite orb_false_r in Ht2. rewrite Ht2. exact Ht3.
  - rewrite E. exists f. split; [lia|]. cbn [rules]. unfold on_in_caption, starts, ends.
    not_named Ht1 t. rewrite !andb_false_r, Ht2. reflexivity.
Qed.
