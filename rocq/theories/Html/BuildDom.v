(** Lemmas on the document of the tree builder: nodes that are appended stay as they are, and the
    tree can be read back from them. *)
From Coq Require Import String List Arith Bool NArith Lia.
From Verif.Base Require Import Str.
From Verif.Html Require Import LexerModel SerialModel SerialSpec SerialProofs BuildModel BuildSpec.
Import ListNotations.
Local Open Scope list_scope.

Lemma nth_update d i f j : nth_error (update d i f) j = if Nat.eqb j i then option_map f (nth_error d j) else nth_error d j.
Proof.
  revert i j; induction d as [|x d IH]; intros [|i] [|j]; try reflexivity; cbn [update nth_error Nat.eqb].
  - now destruct (Nat.eqb j i).
  - apply IH.
Qed.
Lemma length_update d i f : length (update d i f) = length d.
Proof. revert i; induction d as [|x d IH]; intros [|i]; cbn; congruence. Qed.

(** A new node as the last child of [p]. *)
Definition put_under (d : dom) (p : nat) (k : kind) : dom :=
  update d p (fun x => set_kids (d_kids x ++ [length d]) x) ++ [mkNode k (Some p) []].

Lemma nth_last {A} n (l : list A) x : n = length l -> nth_error (l ++ [x]) n = Some x.
Proof. intros ->. rewrite nth_error_app2 by lia. now rewrite Nat.sub_diag. Qed.
Lemma update_app1 d e i f : i < length d -> update (d ++ e) i f = update d i f ++ e.
Proof. revert i; induction d as [|x d IH]; intros [|i] H; cbn in *; try lia; [reflexivity|]. rewrite IH by lia. reflexivity. Qed.
Lemma update_last n d x f : n = length d -> update (d ++ [x]) n f = d ++ [f x].
Proof. intros ->. induction d as [|y d IH]; cbn; congruence. Qed.

Lemma append_new d p k : p < length d -> append_child (alloc k d) p (length d) = put_under d p k.
Proof.
  intros H. unfold append_child, remove_node, alloc, parent_of. rewrite nth_last by reflexivity. cbn [d_parent].
  rewrite update_app1 by exact H. unfold put_under.
  rewrite update_last by (symmetry; apply length_update). reflexivity.
Qed.

Lemma length_put d p k : length (put_under d p k) = S (length d).
Proof. unfold put_under. rewrite app_length, length_update. cbn. lia. Qed.
Lemma nth_put_new d p k : nth_error (put_under d p k) (length d) = Some (mkNode k (Some p) []).
Proof.
  unfold put_under. apply nth_last. symmetry. apply length_update.
Qed.
Lemma nth_put_old d p k i : i < length d -> i <> p -> nth_error (put_under d p k) i = nth_error d i.
Proof.
  intros H Hn. unfold put_under. rewrite nth_error_app1 by (rewrite length_update; exact H).
  rewrite nth_update. apply Nat.eqb_neq in Hn. now rewrite Hn.
Qed.
Lemma nth_put_parent d p k : p < length d ->
  nth_error (put_under d p k) p = option_map (fun x => set_kids (d_kids x ++ [length d]) x) (nth_error d p).
Proof.
  intros H. unfold put_under. rewrite nth_error_app1 by (rewrite length_update; exact H).
  rewrite nth_update, Nat.eqb_refl. reflexivity.
Qed.

(** Text grows in place. *)
Lemma put_append d p s c : p < length d ->
  update (put_under d p (KText s)) (length d) (append_data c) = put_under d p (KText (s ++ [c])).
Proof.
  intros H. unfold put_under. rewrite update_last by (symmetry; apply length_update). reflexivity.
Qed.

Fixpoint add_node (d : dom) (p : nat) (n : node) {struct n} : dom :=
  match n with
  | Text s => put_under d p (KText s)
  | Comment s => put_under d p (KComment s)
  | Doctype s => put_under d p (KDoctype s [] [])
  | Element q a ns => fold_left (fun d' n' => add_node d' (length d) n') ns (put_under d p (KElement q a))
  end.
Definition add_nodes (d : dom) (p : nat) (ns : list node) : dom := fold_left (fun d' n => add_node d' p n) ns d.

Lemma add_element d p q a ns : add_node d p (Element q a ns) = add_nodes (put_under d p (KElement q a)) (length d) ns.
Proof. reflexivity. Qed.

(** The tree at a node. *)
Inductive reads (d : dom) : nat -> node -> Prop :=
| reads_text i s pa ks : nth_error d i = Some (mkNode (KText s) pa ks) -> reads d i (Text s)
| reads_comment i s pa ks : nth_error d i = Some (mkNode (KComment s) pa ks) -> reads d i (Comment s)
| reads_doctype i s p y pa ks : nth_error d i = Some (mkNode (KDoctype s p y) pa ks) -> reads d i (Doctype s)
| reads_element i q a pa ks ns : nth_error d i = Some (mkNode (KElement q a) pa ks) ->
    Forall (fun j => i < j) ks -> Forall2 (reads d) ks ns -> reads d i (Element q a ns).

(** What appending does to the nodes there were. *)
Definition grows (p : nat) (d d' : dom) (new : list nat) : Prop :=
  length d <= length d' /\
  nth_error d' p = option_map (fun x => set_kids (d_kids x ++ new) x) (nth_error d p) /\
  (forall i, i < length d -> i <> p -> nth_error d' i = nth_error d i) /\
  Forall (fun j => length d <= j < length d') new.

Lemma grows_put d p k : p < length d -> grows p d (put_under d p k) [length d].
Proof.
  intros H. split; [rewrite length_put; lia|]. split; [apply nth_put_parent, H|].
  split; [intros; apply nth_put_old; assumption|]. constructor; [rewrite length_put; lia|constructor].
Qed.

Section ReadsInd.
Variable d : dom.
Variable P : nat -> node -> Prop.
Hypothesis Ht : forall i s pa ks, nth_error d i = Some (mkNode (KText s) pa ks) -> P i (Text s).
Hypothesis Hc : forall i s pa ks, nth_error d i = Some (mkNode (KComment s) pa ks) -> P i (Comment s).
Hypothesis Hd : forall i s p y pa ks, nth_error d i = Some (mkNode (KDoctype s p y) pa ks) -> P i (Doctype s).
Hypothesis He : forall i q a pa ks ns, nth_error d i = Some (mkNode (KElement q a) pa ks) ->
  Forall (fun j => i < j) ks -> Forall2 (reads d) ks ns -> Forall2 P ks ns -> P i (Element q a ns).
Fixpoint reads_induct i n (r : reads d i n) : P i n :=
  match r in reads _ i n return P i n with
  | reads_text _ i s pa ks E => Ht i s pa ks E
  | reads_comment _ i s pa ks E => Hc i s pa ks E
  | reads_doctype _ i s p y pa ks E => Hd i s p y pa ks E
  | reads_element _ i q a pa ks ns E L F =>
      He i q a pa ks ns E L F
        ((fix go ks ns (F : Forall2 (reads d) ks ns) : Forall2 P ks ns :=
            match F in Forall2 _ ks ns return Forall2 P ks ns with
            | Forall2_nil _ => Forall2_nil P
            | Forall2_cons j n R F' => Forall2_cons j n (reads_induct j n R) (go _ _ F')
            end) ks ns F)
  end.
End ReadsInd.

Lemma reads_bound d i n : reads d i n -> i < length d.
Proof. intros H. apply nth_error_Some. inversion H; congruence. Qed.

(** A tree whose nodes are all beyond [p] is read as before. *)
Lemma reads_grows p d d' new : grows p d d' new -> forall i n, reads d i n -> p < i -> reads d' i n.
Proof.
  intros (Hl & Hp & Ho & _) i n H. induction H as [i s pa ks E|i s pa ks E|i s p' y pa ks E|i q a pa ks ns E L F IH] using reads_induct; intros Hi.
  - apply reads_text with pa ks. rewrite Ho; [exact E|apply nth_error_Some; congruence|lia].
  - apply reads_comment with pa ks. rewrite Ho; [exact E|apply nth_error_Some; congruence|lia].
  - apply reads_doctype with p' y pa ks. rewrite Ho; [exact E|apply nth_error_Some; congruence|lia].
  - apply reads_element with pa ks; [rewrite Ho; [exact E|apply nth_error_Some; congruence|lia]|exact L|].
    clear -IH L Hi. induction IH as [|j n ks ns H IH' IH]; [constructor|].
    inversion L as [|? ? Hj L']; subst. constructor; [apply H; lia|apply IH; exact L'].
Qed.

Lemma add_nodes_grows ns : Forall (fun n => forall d p, p < length d -> grows p d (add_node d p n) [length d] /\ reads (add_node d p n) (length d) n) ns ->
  forall d p, p < length d -> exists new, grows p d (add_nodes d p ns) new /\ Forall2 (reads (add_nodes d p ns)) new ns.
Proof.
  induction 1 as [|n ns Hn Hns IH]; intros d p H.
  - exists []. split; [|constructor]. split; [cbn; lia|]. split; [|split; [intros; reflexivity|constructor]].
    cbn [add_nodes fold_left]. destruct (nth_error d p) as [[k q ks]|]; [|reflexivity]. cbn. unfold set_kids. cbn. now rewrite app_nil_r.
  - destruct (Hn d p H) as [(G1 & G2 & G3 & G4) R].
    assert (p < length (add_node d p n)) as Hp by lia.
    destruct (IH _ _ Hp) as (new & (K1 & K2 & K3 & K4) & F).
    exists (length d :: new). cbn [add_nodes fold_left] in *. fold (add_nodes (add_node d p n) p ns) in *. split.
    + split; [lia|]. split; [|split].
      * rewrite K2, G2. destruct (nth_error d p) as [[k q ks]|]; [|reflexivity]. cbn. unfold set_kids. cbn. now rewrite <- app_assoc.
      * intros i Hi Hn'. rewrite K3, G3 by lia. reflexivity.
      * inversion G4 as [|? ? B _]; subst. constructor; [lia|]. eapply Forall_impl; [|exact K4]. cbn. intros. lia.
    + constructor; [|exact F]. eapply reads_grows; [split; [exact K1|split; [exact K2|split; [exact K3|exact K4]]]|exact R|lia].
Qed.

Lemma add_node_grows n : forall d p, p < length d -> grows p d (add_node d p n) [length d] /\ reads (add_node d p n) (length d) n.
Proof.
  induction n as [s|s|s|q a ns IH] using node_induct; intros d p H.
  - split; [apply grows_put, H|]. eapply reads_text, nth_put_new.
  - split; [apply grows_put, H|]. eapply reads_comment, nth_put_new.
  - split; [apply grows_put, H|]. eapply reads_doctype, nth_put_new.
  - rewrite add_element. pose proof (grows_put d p (KElement q a) H) as (G1 & G2 & G3 & G4).
    destruct (add_nodes_grows ns IH (put_under d p (KElement q a)) (length d)) as (new & (K1 & K2 & K3 & K4) & F); [rewrite length_put; lia|].
    rewrite length_put in *. split.
    + split; [lia|]. split; [rewrite K3 by lia; exact G2|]. split; [intros i Hi Hn; rewrite K3 by lia; apply G3; assumption|].
      constructor; [lia|constructor].
    + rewrite nth_put_new in K2. cbn in K2. eapply reads_element; [exact K2| |exact F].
      eapply Forall_impl; [|exact K4]. cbn. intros. lia.
Qed.

Lemma add_nodes_reads ns d p : p < length d -> exists new, grows p d (add_nodes d p ns) new /\ Forall2 (reads (add_nodes d p ns)) new ns.
Proof. apply add_nodes_grows. apply Forall_forall. intros n _. apply add_node_grows. Qed.

(** Enough fuel reads the whole tree. *)
Lemma reads_subtree d i n : reads d i n -> forall f, length d <= i + f -> subtree f d i = [n].
Proof.
  intros H. induction H as [i s pa ks E|i s pa ks E|i s p y pa ks E|i q a pa ks ns E L F IH] using reads_induct; intros f Hf;
    (destruct f as [|f]; [assert (i < length d) by (apply nth_error_Some; congruence); lia|]); cbn [subtree]; rewrite E; cbn [d_kind d_kids]; try reflexivity.
  do 2 f_equal. clear -IH L Hf. induction IH as [|j n ks ns H IH' IH]; [reflexivity|].
  inversion L as [|? ? Hj L']; subst. cbn [flat_map]. rewrite H by lia. cbn [app]. f_equal. apply IH, L'.
Qed.

Lemma reads_document d i ks pa : nth_error d i = Some (mkNode KDocument pa ks) -> forall ns,
  Forall (fun j => i < j) ks -> Forall2 (reads d) ks ns -> forall f, length d <= i + f -> subtree f d i = ns.
Proof.
  intros E ns L F f Hf. destruct f as [|f]; [assert (i < length d) by (apply nth_error_Some; congruence); lia|].
  cbn [subtree]. rewrite E. cbn [d_kind d_kids]. clear E. induction F as [|j n ks ns R F IH]; [reflexivity|].
  inversion L as [|? ? Hj L']; subst. cbn [flat_map]. rewrite (reads_subtree _ _ _ R) by lia. cbn [app]. f_equal. apply IH, L'.
Qed.

(** Whether the last child of a node is a text. *)
Definition ends_in_text (d : dom) (p : nat) : bool :=
  match hd_error (rev (kids d p)) with
  | Some j => match kind_of d j with Some (KText _) => true | _ => false end
  | None => false
  end.

Lemma ends_new d p k : ends_in_text (put_under d p k) (length d) = false.
Proof. unfold ends_in_text, kids. rewrite nth_put_new. reflexivity. Qed.
Lemma ends_add d p n : p < length d -> ends_in_text (add_node d p n) p = is_text n.
Proof.
  intros H. destruct (add_node_grows n d p H) as [(G1 & G2 & G3 & G4) R]. unfold ends_in_text, kids. rewrite G2.
  destruct (nth_error d p) as [[k q ks]|] eqn:E; [|apply nth_error_None in E; lia]. cbn [option_map set_kids d_kids].
  rewrite rev_unit. cbn [hd_error]. unfold kind_of. inversion R; subst; rewrite H0; reflexivity.
Qed.
