(** Pseudo-elements, styling again, and the background of the body: the theorems. *)
From Coq Require Import List Bool Lia.
From Verif.Style Require Import RestyleModel.
Import ListNotations.

Section Restyle.
Context {A V B : Type} (content_of : V -> content) (is_item : V -> bool).
Local Notation node := (@node A V).
Local Notation style := (style content_of is_item).

(** ** What the theorems are about *)

(** The node that is reached by these numbers of children *)
Fixpoint node_at (path : list nat) (n : node) : option node :=
  match path with
  | [] => Some n
  | i :: path =>
    match n with
    | Elem _ _ _ kids => match nth_error kids i with Some k => node_at path k | None => None end
    | Other => None
    end
  end.
Definition pseudo_of (ps : pseudos) (p : pseudo) : option V :=
  match p with MARKER => p_marker ps | AFTER => p_after ps | BEFORE => p_before ps end.
(** css-content-3 and css-lists-3: the pseudo-element [p] of an element with the values [v] is there, with the values
    [x], which inherit from those of the element. *)
Definition due (compute : V -> A -> option pseudo -> V) (v : V) (a : A) (p : pseudo) (x : V) : Prop :=
  x = compute v a (Some p) /\ content_of x <> C_NONE /\
  match p with MARKER => is_item v = true | AFTER | BEFORE => content_of x <> C_NORMAL end.
(** A document that has not been styled *)
Inductive unstyled : node -> Prop :=
| unstyled_other : unstyled Other
| unstyled_elem a kids : Forall unstyled kids -> unstyled (Elem a None (mkP None None None) kids).

Lemma generate_other (c : V -> A -> option pseudo -> V) v a p ps q : p <> q -> pseudo_of (generate content_of c v a p ps) q = pseudo_of ps q.
Proof. unfold generate. intros N. destruct (content_of (c v a (Some p))), p, q; try reflexivity; congruence. Qed.
Lemma generate_same (c : V -> A -> option pseudo -> V) v a p ps : p <> MARKER ->
  (forall x, due c v a p x -> pseudo_of (generate content_of c v a p ps) p = Some x) /\
  ((forall x, ~ due c v a p x) -> pseudo_of (generate content_of c v a p ps) p = pseudo_of ps p).
Proof.
  intros N. unfold generate. split.
  - intros x (-> & H & H'). destruct (content_of (c v a (Some p))) eqn:E, p; try congruence; reflexivity.
  - intros H. destruct (content_of (c v a (Some p))) eqn:E; [reflexivity|destruct p; try reflexivity; congruence|].
    exfalso. apply (H (c v a (Some p))). split; [reflexivity|]. rewrite E. split; [discriminate|]. destruct p; congruence.
Qed.
Lemma generate_marker (c : V -> A -> option pseudo -> V) v a ps : let ps' := if is_item v then generate content_of c v a MARKER ps else ps in
  (forall x, due c v a MARKER x -> p_marker ps' = Some x) /\ ((forall x, ~ due c v a MARKER x) -> p_marker ps' = p_marker ps) /\
  p_after ps' = p_after ps /\ p_before ps' = p_before ps.
Proof.
  cbn zeta. unfold generate. destruct (is_item v) eqn:I.
  - repeat split.
    + intros x (-> & H & _). destruct (content_of (c v a (Some MARKER))); congruence || reflexivity.
    + intros H. destruct (content_of (c v a (Some MARKER))) eqn:E; [reflexivity| |];
        exfalso; apply (H (c v a (Some MARKER))); (split; [reflexivity|]); rewrite E; (split; [discriminate|exact I]).
    + destruct (content_of (c v a (Some MARKER))); reflexivity.
    + destruct (content_of (c v a (Some MARKER))); reflexivity.
  - repeat split. intros x (_ & _ & H). congruence.
Qed.
(** The pseudo-elements of an element after it has been styled, from those it had *)
Lemma style_pseudos (c : V -> A -> option pseudo -> V) parent a v0 ps0 kids0 : exists ps, style c parent (Elem a v0 ps0 kids0) =
    Elem a (Some (c parent a None)) ps (map (style c (c parent a None)) kids0) /\
  forall p, (forall x, due c (c parent a None) a p x -> pseudo_of ps p = Some x) /\
            ((forall x, ~ due c (c parent a None) a p x) -> pseudo_of ps p = pseudo_of ps0 p).
Proof.
  eexists. split; [reflexivity|]. cbn zeta. set (v := c parent a None).
  destruct (generate_marker c v a ps0) as (M1 & M2 & M3 & M4). cbn zeta in M1, M2, M3, M4.
  set (ps1 := if is_item v then _ else _) in *. intros p. destruct p.
  - rewrite !(generate_other c v a) by discriminate. split; assumption.
  - rewrite (generate_other c v a BEFORE _ AFTER) by discriminate. destruct (generate_same c v a AFTER ps1) as [G1 G2]; [discriminate|].
    split; [exact G1|]. intros H. rewrite (G2 H). exact M3.
  - destruct (generate_same c v a BEFORE (generate content_of c v a AFTER ps1)) as [G1 G2]; [discriminate|]. split; [exact G1|].
    intros H. rewrite (G2 H), (generate_other c v a AFTER _ BEFORE) by discriminate. exact M4.
Qed.
(** The node at a place, after styling, is the node there before, styled below some parent values. *)
Lemma style_at (c : V -> A -> option pseudo -> V) : forall path parent n m, node_at path (style c parent n) = Some m ->
  exists n' parent', node_at path n = Some n' /\ m = style c parent' n'.
Proof.
  induction path as [|i path IH]; intros parent n m H.
  - exists n, parent. split; [reflexivity|]. now injection H.
  - destruct n as [a v ps kids|]; [|discriminate H]. cbn [node_at RestyleModel.style] in H |- *. rewrite nth_error_map in H.
    destruct (nth_error kids i) as [k|]; [|discriminate H]. cbn [option_map] in H. exact (IH _ k m H).
Qed.

(** ** C177: pseudo-elements *)

(** In a document that has not been styled before, the pseudo-elements of every element, at any depth, are
    those that are due, and the values of the element are those below its parent's. *)
Theorem C177_pseudo : forall (c : V -> A -> option pseudo -> V) parent n path a v ps kids, unstyled n -> node_at path (style c parent n) = Some (Elem a v ps kids) ->
  exists w, v = Some w /\ forall p x, pseudo_of ps p = Some x <-> due c w a p x.
Proof.
  intros c parent n path a v ps kids U H. destruct (style_at c path parent n _ H) as (n' & parent' & Hn & E).
  assert (U' : unstyled n').
  { clear - U Hn. revert n U Hn. induction path as [|i path IH]; intros n U Hn; [now injection Hn as <-|].
    cbn [node_at] in Hn. destruct U as [|a kids F]; [discriminate Hn|]. destruct (nth_error kids i) as [k|] eqn:Ek; [|discriminate Hn].
    apply (IH k); [|exact Hn]. rewrite Forall_forall in F. apply F. exact (nth_error_In _ _ Ek). }
  destruct U' as [|a' kids' F]; [discriminate E|]. destruct (style_pseudos c parent' a' None (mkP None None None) kids') as (ps' & E' & P).
  rewrite E' in E. injection E as -> -> -> ->. exists (c parent' a' None). split; [reflexivity|]. intros p x. destruct (P p) as [P1 P2]. split; [|apply P1].
  intros Q.
  assert (D : due c (c parent' a' None) a' p (c (c parent' a' None) a' (Some p)) \/ forall y, ~ due c (c parent' a' None) a' p y).
  { unfold due. destruct (content_of (c (c parent' a' None) a' (Some p))) eqn:Ec; [right; intros y (-> & N & _); congruence| |].
    - destruct p; [|right; intros y (-> & _ & N); congruence|right; intros y (-> & _ & N); congruence].
      destruct (is_item (c parent' a' None)) eqn:I; [left|right; intros y (_ & _ & N); congruence]. split; [reflexivity|]. split; [discriminate|reflexivity].
    - destruct p; [destruct (is_item (c parent' a' None)) eqn:I; [left|right; intros y (_ & _ & N); congruence]|left|left];
        (split; [reflexivity|]); split; congruence || discriminate. }
  destruct D as [D|D].
  - rewrite (P1 _ D) in Q. injection Q as <-. exact D.
  - rewrite (P2 D) in Q. destruct p; discriminate Q.
Qed.
Theorem C177_inherit : forall (c : V -> A -> option pseudo -> V) parent n path i a v ps kids, node_at (path ++ [i]) (style c parent n) = Some (Elem a v ps kids) ->
  exists a' w ps' kids', node_at path (style c parent n) = Some (Elem a' (Some w) ps' kids') /\ v = Some (c w a None).
Proof.
  intros c parent n path i. revert parent n. induction path as [|j path IH]; intros parent n a v ps kids H.
  - destruct n as [a' v' ps0 kids'|]; [|discriminate H]. cbn [app node_at RestyleModel.style] in H |- *. rewrite nth_error_map in H.
    destruct (nth_error kids' i) as [k|]; [|discriminate H]. cbn [option_map] in H. injection H as H.
    destruct k as [ak vk pk kk|]; [|discriminate H]. cbn [RestyleModel.style] in H. injection H as -> <- _ _. repeat eexists.
  - destruct n as [a' v' ps0 kids'|]; [|discriminate H]. cbn [app node_at RestyleModel.style] in H |- *. rewrite nth_error_map in H |- *.
    destruct (nth_error kids' j) as [k|]; [|discriminate H]. cbn [option_map] in H |- *. exact (IH _ k a v ps kids H).
Qed.

(** ** C178: styling again *)

(** One after the other; each time with its own media, and so its own values *)
Definition restyle (h : list ((V -> A -> option pseudo -> V) * V)) (n : node) : node := fold_left (fun n m => style (fst m) (snd m) n) h n.
(** Without the pseudo-elements *)
Fixpoint bare (n : node) : node := match n with Elem a v _ kids => Elem a v (mkP None None None) (map bare kids) | Other => Other end.
(** Without anything that styling gave *)
Fixpoint fresh (n : node) : node := match n with Elem a _ _ kids => Elem a None (mkP None None None) (map fresh kids) | Other => Other end.

Lemma node_ind' (P : node -> Prop) : P Other -> (forall a v ps kids, Forall P kids -> P (Elem a v ps kids)) -> forall n, P n.
Proof.
  intros P0 P1. fix IH 1. intros [a v ps kids|]; [|exact P0]. apply P1. induction kids as [|k kids IHk]; constructor; [apply IH|exact IHk].
Qed.
Lemma bare_style (c : V -> A -> option pseudo -> V) : forall n parent, bare (style c parent n) = bare (style c parent (fresh n)).
Proof.
  induction n as [|a v ps kids F] using node_ind'; intros parent; [reflexivity|]. cbn [RestyleModel.style fresh bare]. f_equal. rewrite !map_map.
  apply map_ext_in. rewrite Forall_forall in F. intros k Hk. exact (F k Hk _).
Qed.
Lemma fresh_style (c : V -> A -> option pseudo -> V) : forall n parent, fresh (style c parent n) = fresh n.
Proof.
  induction n as [|a v ps kids F] using node_ind'; intros parent; [reflexivity|]. cbn [RestyleModel.style fresh]. f_equal. rewrite map_map.
  apply map_ext_in. rewrite Forall_forall in F. intros k Hk. exact (F k Hk _).
Qed.
Lemma fresh_restyle : forall h n, fresh (restyle h n) = fresh n.
Proof. induction h as [|m h IH]; intros n; [reflexivity|]. unfold restyle in *. cbn [fold_left]. now rewrite IH, fresh_style. Qed.
Lemma restyle_last h m n : restyle (h ++ [m]) n = style (fst m) (snd m) (restyle h n).
Proof. unfold restyle. now rewrite fold_left_app. Qed.

(** The values of all elements are those of the last styling, as if there had been no other. *)
Theorem C178_values : forall h m n, bare (restyle (h ++ [m]) n) = bare (style (fst m) (snd m) (fresh n)).
Proof. intros h m n. now rewrite restyle_last, bare_style, fresh_restyle. Qed.
(** A pseudo-element that is due is there, with its values. *)
Theorem C178_pseudo_partial : forall h m n path a v ps kids, node_at path (restyle (h ++ [m]) n) = Some (Elem a v ps kids) ->
  exists w, v = Some w /\ forall p x, due (fst m) w a p x -> pseudo_of ps p = Some x.
Proof.
  intros h m n path a v ps kids H. rewrite restyle_last in H. destruct (style_at _ _ _ _ _ H) as (n' & parent' & _ & E).
  destruct n' as [a' v' ps0 kids0|]; [|discriminate E]. destruct (style_pseudos (fst m) parent' a' v' ps0 kids0) as (ps' & E' & P).
  rewrite E' in E. injection E as -> -> -> ->. exists (fst m parent' a' None). split; [reflexivity|]. intros p. exact (proj1 (P p)).
Qed.
(** One that was due earlier, and is not now, is still there. *)
Theorem C178_stale_refuted : forall h m n path a v ps kids a' v' ps' kids' p, node_at path (restyle h n) = Some (Elem a v ps kids) ->
  node_at path (restyle (h ++ [m]) n) = Some (Elem a' (Some v') ps' kids') -> (forall x, ~ due (fst m) v' a' p x) ->
  pseudo_of ps' p = pseudo_of ps p.
Proof.
  intros h m n path a v ps kids a' v' ps' kids' p H H' D. rewrite restyle_last in H'. destruct (style_at _ _ _ _ _ H') as (n' & parent' & Hn & E).
  rewrite H in Hn. injection Hn as <-. destruct (style_pseudos (fst m) parent' a v ps kids) as (q & E' & P).
  rewrite E' in E. injection E as -> -> -> _. exact (proj2 (P p) D).
Qed.

(** ** C179: the background of the body *)

Context (bg : V -> B) (with_bg : V -> B -> V) (nothing : B -> bool) (initial_bg : B)
        (in_html : A -> bool) (html_tag : A -> bool) (body_tag : A -> bool).
Local Notation propagate := (propagate bg with_bg nothing initial_bg in_html html_tag body_tag).
Local Notation style_document := (style_document content_of is_item bg with_bg nothing initial_bg in_html html_tag body_tag).
(** No element of this kind is among the nodes. *)
Definition without (is : A -> bool) (l : list node) : Prop := forall a v ps kids, In (Elem a v ps kids) l -> is a = false.
Lemma split_at is x a v ps kids y : without is x -> is a = true -> split_element is (x ++ Elem a v ps kids :: y) = Some (x, (a, v, ps, kids), y).
Proof.
  intros W I. induction x as [|n x IH]; [cbn [app split_element]; now rewrite I|]. assert (W' : without is x) by (intros ? ? ? ? H; eapply W; right; exact H).
  specialize (IH W'). cbn [app split_element]. destruct n as [a' v' ps' kids'|]; [rewrite (W a' v' ps' kids' (or_introl eq_refl))|]; now rewrite IH.
Qed.
Lemma split_none is l : without is l -> split_element (V := V) is l = None.
Proof.
  induction l as [|n l IH]; intros W; [reflexivity|]. assert (W' : without is l) by (intros ? ? ? ? H; eapply W; right; exact H).
  cbn [split_element]. destruct n as [a' v' ps' kids'|]; [rewrite (W a' v' ps' kids' (or_introl eq_refl))|]; now rewrite (IH W').
Qed.

(** When the root element has no background, it takes over that of its first [body], which loses it; when it
    has one, or is no [html] element, or there is no [body], all is as it was styled. *)
Theorem C179_body : forall (c : V -> A -> option pseudo -> V) initial x a v ps kx ba bv bps bkids ky y,
  without (fun _ => true) x -> html_tag a = true -> in_html a = true -> without body_tag kx -> body_tag ba = true ->
  exists ps' bps', let w := c initial a None in let bw := c w ba None in
  style_document c initial (x ++ Elem a v ps (kx ++ Elem ba bv bps bkids :: ky) :: y) =
  Some (x ++ (if nothing (bg w)
              then Elem a (Some (with_bg w (bg bw))) ps' (map (style c w) kx ++ Elem ba (Some (with_bg bw initial_bg)) bps' (map (style c bw) bkids) :: map (style c w) ky)
              else Elem a (Some w) ps' (map (style c w) kx ++ Elem ba (Some bw) bps' (map (style c bw) bkids) :: map (style c w) ky)) :: y).
Proof.
  intros c initial x a v ps kx ba bv bps bkids ky y Wx Ht Hh Wk Hb.
  destruct (style_pseudos c initial a v ps (kx ++ Elem ba bv bps bkids :: ky)) as (ps' & E & _).
  destruct (style_pseudos c (c initial a None) ba bv bps bkids) as (bps' & Eb & _). exists ps', bps'. cbn zeta.
  unfold RestyleModel.style_document, document_element. rewrite (split_at _ x a v ps _ y Wx eq_refl), E, map_app. cbn [map]. rewrite Eb.
  unfold RestyleModel.propagate, document_element. rewrite (split_at _ x a _ ps' _ y Wx eq_refl), Hh. unfold body. rewrite Ht.
  rewrite (split_at body_tag _ ba _ bps' _ _); [destruct (nothing (bg (c initial a None))); reflexivity| |exact Hb].
  intros a' v' q k' H. apply in_map_iff in H. destruct H as ([a2 v2 p2 k2|] & E2 & H2); [|discriminate E2].
  cbn [RestyleModel.style] in E2. injection E2 as <- _ _ _. exact (Wk a2 v2 p2 k2 H2).
Qed.
Theorem C179_no_body : forall (c : V -> A -> option pseudo -> V) initial x a v ps kids y, without (fun _ => true) x -> in_html a = false \/ html_tag a = false \/ without body_tag kids ->
  style_document c initial (x ++ Elem a v ps kids :: y) = Some (x ++ style c initial (Elem a v ps kids) :: y).
Proof.
  intros c initial x a v ps kids y Wx H. destruct (style_pseudos c initial a v ps kids) as (ps' & E & _).
  unfold RestyleModel.style_document, document_element. rewrite (split_at _ x a v ps _ y Wx eq_refl), E.
  unfold RestyleModel.propagate, document_element. rewrite (split_at _ x a _ ps' _ y Wx eq_refl).
  destruct (in_html a) eqn:Ih; [|reflexivity]. unfold body. destruct (html_tag a) eqn:Ht; [|reflexivity].
  destruct H as [H|[H|H]]; [discriminate H|discriminate H|]. rewrite split_none; [reflexivity|].
  intros a' v' q k' K. apply in_map_iff in K. destruct K as ([a2 v2 p2 k2|] & E2 & H2); [|discriminate E2].
  cbn [RestyleModel.style] in E2. injection E2 as <- _ _ _. exact (H a2 v2 p2 k2 H2).
Qed.
(** A document without elements is not styled but crashes: the missing root element is used. *)
Theorem C179_empty_refuted : forall (c : V -> A -> option pseudo -> V) initial doc, without (fun _ => true) doc -> style_document c initial doc = None.
Proof.
  intros c initial doc W. unfold RestyleModel.style_document, document_element. rewrite (split_none _ doc W).
  unfold RestyleModel.propagate, document_element. now rewrite (split_none _ doc W).
Qed.
End Restyle.
Print Assumptions C177_pseudo.
Print Assumptions C177_inherit.
Print Assumptions C178_values.
Print Assumptions C178_pseudo_partial.
Print Assumptions C178_stale_refuted.
Print Assumptions C179_body.
Print Assumptions C179_no_body.
Print Assumptions C179_empty_refuted.

(** ** Examples: values are a content and a background *)
Definition ex_values : Type := content * nat.
(** On the screen the element 1 has text before it; on paper there is none. *)
Definition ex_screen (parent : ex_values) (a : nat) (p : option pseudo) : ex_values :=
  match p with Some BEFORE => (if Nat.eqb a 1 then C_ITEMS else C_NORMAL, 0) | _ => (C_NORMAL, if Nat.eqb a 1 then 7 else 0) end.
Definition ex_print (parent : ex_values) (a : nat) (p : option pseudo) : ex_values := (C_NORMAL, if Nat.eqb a 1 then 7 else 0).
Definition ex_doc : @node nat ex_values := Elem 0 None (mkP None None None) [Other; Elem 1 None (mkP None None None) []].
Definition ex_style (c : ex_values -> nat -> option pseudo -> ex_values) n := style fst (fun _ => false) c (C_NORMAL, 0) n.
Example C177_ex : unstyled ex_doc /\
  match node_at [1] (ex_style ex_screen ex_doc) with Some (Elem 1 _ (mkP None None (Some (C_ITEMS, 0))) []) => True | _ => False end.
Proof. split; [|exact I]. constructor. constructor; [constructor|]. constructor; [constructor; constructor|constructor]. Qed.
(** Rendered and then printed, the text is still there; printed at once, it is not. *)
Example C178_ex :
  match node_at [1] (restyle fst (fun _ => false) [(ex_screen, (C_NORMAL, 0)); (ex_print, (C_NORMAL, 0))] ex_doc),
        node_at [1] (restyle fst (fun _ => false) [(ex_print, (C_NORMAL, 0))] ex_doc) with
  | Some (Elem _ _ (mkP None None (Some _)) _), Some (Elem _ _ (mkP None None None) _) => True
  | _, _ => False
  end.
Proof. exact I. Qed.
Example C178_ex_due : forall x, ~ due (A := nat) fst (fun _ => false) ex_print (C_NORMAL, 7) 1 BEFORE x.
Proof. intros x (-> & _ & N). apply N. reflexivity. Qed.
(** The body's background 7 moves to the root. *)
Example C179_ex :
  match style_document fst (fun _ => false) snd (fun v b => (fst v, b)) (Nat.eqb 0) 0 (fun _ => true) (Nat.eqb 0) (Nat.eqb 1) ex_print (C_NORMAL, 0) [Other; ex_doc] with
  | Some [Other; Elem 0 (Some (_, 7)) _ [Other; Elem 1 (Some (_, 0)) _ []]] => True
  | _ => False
  end.
Proof. exact I. Qed.
Example C179_ex_without : without (fun _ => true) [@Other nat ex_values] /\ without (Nat.eqb 1) [@Other nat ex_values].
Proof. split; intros a v ps kids [H|[]]; discriminate H. Qed.
