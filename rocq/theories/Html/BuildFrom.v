(** Where the nodes of a parsed document come from, and that each is in it once. *)
From Coq Require Import String List Arith Bool NArith Lia.
From Verif.Base Require Import Str.
From Verif.Html Require Import LexerModel SerialModel SerialSpec SvgNames FromSpec BuildModel BuildDom BuildInv.
Import ListNotations.
Local Open Scope list_scope.

(** ** The start *)
Lemma type_is t ty : ttype_eqb (t_type t) ty = true -> t_type t = ty.
Proof. destruct (t_type t), ty; intros H; try reflexivity; discriminate H. Qed.
Lemma from_self ts t : In t ts -> from ts t.
Proof.
  intros H. split; [|split; [|split; [|split]]].
  - intros Hs n Hn. right. exists t, n. split; [exact H|]. split; [now apply type_is|]. split; [exact Hn|now left].
  - apply Forall_forall. intros x Hx. exists t. auto.
  - intros Hc. apply type_is in Hc. split; [exists t; auto|]. intros H0. exists t. auto.
  - intros Hc. apply type_is in Hc. exists t. auto.
  - intros Hc. apply type_is in Hc. exists t. auto.
Qed.
Lemma inv_start ts g : inv ts g 0 st_init.
Proof.
  constructor; cbn; auto; try discriminate.
  - constructor.
    + intros [|[|p]] i []. 
    + intros [|[|p]]; constructor.
    + reflexivity.
  - repeat constructor.
Qed.
Lemma build_inv ts g s : build ts st_init = Done s -> inv ts g (list_sum (map (w g) ts)) s.
Proof. intros E. apply (build_ok ts g ts 0 st_init s); [|apply inv_start|exact E]. apply Forall_forall. apply from_self. Qed.

(** ** Provenance *)
Lemma nodes_flat {A B C} (f : B -> list C) (g : A -> list B) l : flat_map f (flat_map g l) = flat_map (fun x => flat_map f (g x)) l.
Proof. induction l as [|x l IH]; cbn; [reflexivity|]. now rewrite flat_map_app, IH. Qed.
Lemma subtree_from ts d : Forall (kind_ok ts) (kinds d) -> forall f i, Forall (node_from ts) (flat_map nodes_of (subtree f d i)).
Proof.
  intros K. induction f as [|f IH]; intros i; cbn [subtree]; [constructor|]. destruct (nth_error d i) as [x|] eqn:E; [|constructor].
  assert (kind_ok ts (d_kind x)) as Hx.
  { apply (proj1 (Forall_forall _ _) K). apply nth_error_In in E. now apply in_map. }
  assert (Forall (node_from ts) (flat_map nodes_of (flat_map (subtree f d) (d_kids x)))) as Hb.
  { rewrite nodes_flat. induction (d_kids x) as [|j l IHl]; cbn; [constructor|]. apply Forall_app. auto. }
  destruct (d_kind x); cbn [flat_map nodes_of]; rewrite ?app_nil_r; try (constructor; [exact Hx|constructor]); [exact Hb|].
  constructor; [exact Hx|exact Hb].
Qed.

(** ** Each node once *)
Lemma nodup_map_in {A B} (f : A -> B) l : (forall a b, In a l -> In b l -> f a = f b -> a = b) -> NoDup l -> NoDup (map f l).
Proof.
  intros H N. induction N as [|x l Hx _ IH]; cbn; constructor.
  - intros Hi. apply in_map_iff in Hi as (y & Hy & Hi). apply H in Hy; [subst; contradiction|now right|now left].
  - apply IH. intros a b Ha Hb. apply H; now right.
Qed.
Section Once.
Variable d : dom.
Hypothesis L : links d.
Fixpoint up (n i : nat) : option nat :=
  match n with O => Some i | S m => match parent_of d i with Some p => up m p | None => None end end.
Lemma up_add a : forall b i j, up a i = Some j -> up (a + b) i = up b j.
Proof. induction a as [|a IH]; intros b i j H; cbn in *; [injection H as <-; reflexivity|]. destruct (parent_of d i); [auto|discriminate]. Qed.
Definition rooted (m i : nat) : Prop := up m i = Some 0.
Lemma no_cycle n m i : rooted m i -> up (S n) i = Some i -> False.
Proof.
  intros R C. revert n C. revert i R. induction m as [|m IH]; intros i R n C.
  - injection R as ->. cbn in C. rewrite (k_root d L) in C. discriminate.
  - unfold rooted in R. cbn in R, C. destruct (parent_of d i) as [p|] eqn:Ep; [|discriminate]. apply (IH p R n).
    assert (up (n + 1) p = up 1 i) as H by now apply up_add. rewrite Nat.add_comm in H. cbn [Nat.add] in H. rewrite H. cbn. now rewrite Ep.
Qed.
Fixpoint visit (f i : nat) : list nat :=
  match f with
  | O => []
  | S f => match nth_error d i with
           | None => []
           | Some x => i :: match d_kind x with KDocument | KElement _ _ => flat_map (visit f) (d_kids x) | _ => [] end
           end
  end.
Lemma kids_of x i : nth_error d i = Some x -> kids d i = d_kids x.
Proof. intros H. unfold kids. now rewrite H. Qed.
Lemma visit_up f : forall i j, In j (visit f i) -> exists n, n < f /\ up n j = Some i.
Proof.
  induction f as [|f IH]; intros i j; cbn [visit]; [intros []|]. destruct (nth_error d i) as [x|] eqn:E; [|intros []].
  intros [<-|H]; [exists 0; split; [lia|reflexivity]|].
  assert (In j (flat_map (visit f) (d_kids x))) as H' by (destruct (d_kind x); try destruct H; assumption). clear H.
  apply in_flat_map in H' as (c & Hc & Hj). destruct (IH c j Hj) as (n & Hn & Hu). rewrite <- (kids_of x i E) in Hc. apply (k_up d L) in Hc.
  exists (n + 1). split; [lia|]. rewrite (up_add n 1 j c Hu). cbn. now rewrite Hc.
Qed.
Lemma visit_in f i j : In j (visit f i) -> j < length d.
Proof.
  revert i. induction f as [|f IH]; intros i; cbn [visit]; [intros []|]. destruct (nth_error d i) as [x|] eqn:E; [|intros []].
  intros [<-|H]; [apply nth_error_Some; congruence|]. assert (In j (flat_map (visit f) (d_kids x))) as H' by (destruct (d_kind x); try destruct H; assumption).
  apply in_flat_map in H' as (c & _ & Hj). eauto.
Qed.
Lemma nodup_app {A} (a b : list A) : NoDup a -> NoDup b -> (forall x, In x a -> In x b -> False) -> NoDup (a ++ b).
Proof.
  induction a as [|x a IH]; intros Ha Hb H; cbn; [exact Hb|]. inversion Ha; subst. constructor.
  - intros Hi. apply in_app_iff in Hi as [Hi|Hi]; [contradiction|]. exact (H x (or_introl eq_refl) Hi).
  - apply IH; auto. intros y Hy. apply H. now right.
Qed.
Lemma parent_rooted m i c : rooted m i -> parent_of d c = Some i -> rooted (S m) c.
Proof. intros R H. unfold rooted. cbn. rewrite H. exact R. Qed.
Lemma visit_once f : forall m i, rooted m i -> NoDup (visit f i).
Proof.
  induction f as [|f IH]; intros m i R; cbn [visit]; [constructor|]. destruct (nth_error d i) as [x|] eqn:E; [|constructor].
  assert (NoDup (i :: flat_map (visit f) (d_kids x))) as H.
  2: { destruct (d_kind x); try exact H; repeat constructor; intros []. }
  rewrite <- (kids_of x i E). constructor.
  - intros H. apply in_flat_map in H as (c & Hc & Hj). apply visit_up in Hj as (n & _ & Hu). apply (k_up d L) in Hc.
    apply (no_cycle n m i R). replace (S n) with (n + 1) by lia. rewrite (up_add n 1 i c Hu). cbn. now rewrite Hc.
  - assert (forall l, NoDup l -> (forall c, In c l -> parent_of d c = Some i) -> NoDup (flat_map (visit f) l)) as HH.
    2: { apply HH; [apply (k_once d L)|]. intros c. apply (k_up d L). }
    induction l as [|c l IHl]; intros Hn Hp; cbn [flat_map]; [constructor|]. inversion Hn; subst. apply nodup_app.
    + apply (IH (S m)). apply parent_rooted with (i := i); [exact R|]. apply Hp. now left.
    + apply IHl; [assumption|]. intros c' Hc'. apply Hp. now right.
    + intros j Hj1 Hj2. apply in_flat_map in Hj2 as (c' & Hc' & Hj2). apply visit_up in Hj1 as (n1 & _ & U1). apply visit_up in Hj2 as (n2 & _ & U2).
      assert (parent_of d c = Some i) as P1 by (apply Hp; now left). assert (parent_of d c' = Some i) as P2 by (apply Hp; now right).
      assert (forall a b n1 n2, up n1 j = Some a -> up n2 j = Some b -> parent_of d a = Some i -> parent_of d b = Some i -> n1 < n2 -> False) as HC.
      { intros a b k1 k2 V1 V2 Q1 Q2 Hlt. apply (no_cycle (k2 - k1 - 1) m i R). replace k2 with (k1 + S (k2 - k1 - 1)) in V2 by lia. rewrite (up_add _ _ _ _ V1) in V2. cbn in V2. rewrite Q1 in V2.
        replace (S (k2 - k1 - 1)) with ((k2 - k1 - 1) + 1) by lia. rewrite (up_add _ 1 _ _ V2). cbn. now rewrite Q2. }
      destruct (Nat.lt_trichotomy n1 n2) as [H|[H|H]]; [exact (HC _ _ _ _ U1 U2 P1 P2 H)| |exact (HC _ _ _ _ U2 U1 P2 P1 H)].
      subst n2. rewrite U1 in U2. injection U2 as ->. contradiction.
Qed.

(** The depth of the tree is below the number of nodes, so that all of it is read. *)
Lemma up_some n : forall m i, n <= m -> rooted m i -> exists j, up n i = Some j /\ rooted (m - n) j.
Proof.
  induction n as [|n IH]; intros m i Hn R; [exists i; rewrite Nat.sub_0_r; auto|]. destruct m as [|m]; [lia|]. unfold rooted in R. cbn in R. cbn [up].
  destruct (parent_of d i) as [p|]; [|discriminate]. cbn [Nat.sub]. apply IH; [lia|exact R].
Qed.
Lemma rooted_once m1 m2 i : rooted m1 i -> rooted m2 i -> m1 = m2.
Proof.
  assert (forall a b i, rooted a i -> rooted b i -> a < b -> False) as H.
  { intros a b j Ra Rb Hlt. unfold rooted in *. replace b with (a + S (b - a - 1)) in Rb by lia. rewrite (up_add _ _ _ _ Ra) in Rb. cbn in Rb. rewrite (k_root d L) in Rb. discriminate. }
  intros R1 R2. destruct (Nat.lt_trichotomy m1 m2) as [Hl|[Hl|Hl]]; [destruct (H _ _ _ R1 R2 Hl)|exact Hl|destruct (H _ _ _ R2 R1 Hl)].
Qed.
Lemma deep m i : rooted m i -> i < length d -> m < length d.
Proof.
  intros R Hi.
  assert (NoDup (map (fun n => match up n i with Some j => j | None => 0 end) (List.seq 0 (S m)))) as N.
  { apply nodup_map_in; [|apply seq_NoDup]. intros a b Ha Hb Hab. apply in_seq in Ha, Hb.
    destruct (up_some a m i ltac:(lia) R) as (x & Hx & Rx). destruct (up_some b m i ltac:(lia) R) as (y & Hy & Ry). rewrite Hx, Hy in Hab. subst y.
    pose proof (rooted_once _ _ _ Rx Ry). lia. }
  assert (incl (map (fun n => match up n i with Some j => j | None => 0 end) (List.seq 0 (S m))) (List.seq 0 (length d))) as C.
  { intros j Hj. apply in_map_iff in Hj as (n & <- & Hn). apply in_seq in Hn. apply in_seq. destruct (up_some n m i ltac:(lia) R) as (x & Hx & Rx). rewrite Hx. split; [lia|]. cbn.
    destruct (m - n) as [|k] eqn:Ek; [injection Rx as ->; lia|]. unfold rooted in Rx. cbn in Rx. apply nth_error_Some. unfold parent_of in Rx. destruct (nth_error d x); discriminate. }
  pose proof (NoDup_incl_length N C) as H. rewrite map_length, !seq_length in H. lia.
Qed.
Lemma subtree_all f : forall f' m i, rooted m i -> i < length d -> length d <= f + m -> length d <= f' + m -> subtree f d i = subtree f' d i.
Proof.
  induction f as [|f IH]; intros f' m i R Hi H1 H2; [pose proof (deep m i R Hi); lia|]. destruct f' as [|f']; [pose proof (deep m i R Hi); lia|].
  cbn [subtree]. destruct (nth_error d i) as [x|] eqn:E; [|reflexivity]. assert (flat_map (subtree f d) (d_kids x) = flat_map (subtree f' d) (d_kids x)) as ->; [|reflexivity].
  rewrite <- (kids_of x i E). assert (forall c, In c (kids d i) -> parent_of d c = Some i) as Hp by (intros c; apply (k_up d L)). revert Hp. generalize (kids d i).
  induction l as [|c l IHl]; intros Hp; cbn [flat_map]; [reflexivity|]. f_equal; [|apply IHl; intros c' Hc'; apply Hp; now right].
  assert (parent_of d c = Some i) as P by (apply Hp; now left). apply (IH f' (S m)).
  - now apply parent_rooted with (i := i).
  - apply nth_error_Some. unfold parent_of in P. destruct (nth_error d c); discriminate.
  - lia.
  - lia.
Qed.

(** The text of the tree is the text of the nodes visited. *)
Variable c : N.
Definition one (x : N) : nat := if N.eq_dec x c then 1 else 0.
Lemma count_one s : count_occ N.eq_dec s c = list_sum (map one s).
Proof.
  induction s as [|x s IH]; [reflexivity|]. change (list_sum (map one (x :: s))) with (one x + list_sum (map one s)). rewrite <- IH. cbn. unfold one. destruct (N.eq_dec x c); reflexivity.
Qed.
Definition of_node (n : node) : nat := match n with Text s => count_occ N.eq_dec s c | _ => 0 end.
Definition at_ (i : nat) : nat := match nth_error d i with Some x => weight one (d_kind x) | None => 0 end.
Lemma sum_flat {A B} (f : B -> nat) (g : A -> list B) l : list_sum (map f (flat_map g l)) = list_sum (map (fun x => list_sum (map f (g x))) l).
Proof.
  induction l as [|x l IH]; [reflexivity|]. cbn [flat_map map]. rewrite map_app, list_sum_app, IH. reflexivity.
Qed.
Lemma subtree_count f : forall i, list_sum (map of_node (flat_map nodes_of (subtree f d i))) = list_sum (map at_ (visit f i)).
Proof.
  induction f as [|f IH]; intros i; cbn [subtree visit]; [reflexivity|]. destruct (nth_error d i) as [x|] eqn:E; [|reflexivity].
  assert (list_sum (map of_node (flat_map nodes_of (flat_map (subtree f d) (d_kids x)))) = list_sum (map at_ (flat_map (visit f) (d_kids x)))) as H.
  { rewrite nodes_flat, !sum_flat. f_equal. apply map_ext. exact IH. }
  assert (at_ i = weight one (d_kind x)) as Ha by (unfold at_; now rewrite E).
  change (list_sum (map at_ (?a :: ?b))) with (at_ a + list_sum (map at_ b)). rewrite Ha.
  destruct (d_kind x); cbn [flat_map nodes_of weight]; rewrite ?app_nil_r; try reflexivity.
  - rewrite H. reflexivity.
  - rewrite map_cons. change (list_sum (of_node ?b :: ?l)) with (of_node b + list_sum l). rewrite H. reflexivity.
  - cbn. rewrite count_one. reflexivity.
Qed.
End Once.

Lemma sum_incl (v : list nat) : forall l, NoDup l -> (forall i, In i l -> i < length v) -> list_sum (map (fun i => nth i v 0) l) <= list_sum v.
Proof.
  induction v as [|x v IH] using rev_ind; intros l N H.
  - destruct l as [|i l]; [cbn; lia|]. specialize (H i (or_introl eq_refl)). cbn in H. lia.
  - rewrite list_sum_app. set (n := length v).
    assert (forall k, NoDup k -> (forall i, In i k -> i < length v) -> list_sum (map (fun i => nth i (v ++ [x]) 0) k) <= list_sum v) as HB.
    { intros k Nk Hk. rewrite (map_ext_in _ (fun i => nth i v 0)); [now apply IH|]. intros i Hi. apply app_nth1, Hk, Hi. }
    destruct (in_dec Nat.eq_dec n l) as [Hi|Hi].
    + apply in_split in Hi as (l1 & l2 & ->). pose proof (NoDup_remove_1 _ _ _ N) as N1. pose proof (NoDup_remove_2 _ _ _ N) as N2.
      assert (forall i, In i (l1 ++ l2) -> i < length v) as H1.
      { intros i Hi. assert (i < length (v ++ [x])) as Hl by (apply H; apply in_app_iff in Hi as [Hi|Hi]; apply in_app_iff; [now left|right; now right]).
        rewrite app_length in Hl. cbn in Hl. assert (i <> n) by (intros ->; contradiction). unfold n in *. lia. }
      specialize (HB _ N1 H1). rewrite map_app, list_sum_app in HB |- *. rewrite map_cons. change (list_sum (?a :: ?b)) with (a + list_sum b).
      assert (nth n (v ++ [x]) 0 = x) as -> by (unfold n; rewrite app_nth2, Nat.sub_diag by lia; reflexivity). change (list_sum [x]) with (x + 0). lia.
    + assert (list_sum (map (fun i => nth i (v ++ [x]) 0) l) <= list_sum v); [|lia]. apply HB; [exact N|]. intros i Hi'. specialize (H i Hi'). rewrite app_length in H. cbn in H.
      assert (i <> n) by (intros ->; contradiction). unfold n in *. lia.
Qed.

Theorem build_provenance ts s : build ts st_init = Done s -> Forall (node_from ts) (flat_map nodes_of (document s)).
Proof. intros E. apply subtree_from. apply (i_kinds _ _ _ _ (build_inv ts (fun _ => 0) s E)). Qed.
Theorem build_text ts s c : build ts st_init = Done s -> text_count c (document s) <= token_count c ts.
Proof.
  intros E. pose proof (build_inv ts (one c) s E) as I. unfold text_count, document.
  change (list_sum (map (of_node c) (flat_map nodes_of (subtree (length (s_dom s)) (s_dom s) 0))) <= token_count c ts). rewrite subtree_count.
  transitivity (text_sum (one c) (s_dom s)).
  - unfold text_sum, kinds. rewrite map_map. rewrite (map_ext _ (fun i => nth i (map (fun x => weight (one c) (d_kind x)) (s_dom s)) 0)).
    + apply sum_incl; [apply (visit_once _ (i_links _ _ _ _ I) _ 0 0); reflexivity|]. intros i Hi. rewrite map_length. eapply visit_in, Hi.
    + intros i. unfold at_. destruct (nth_error (s_dom s) i) as [x|] eqn:Ex.
      * symmetry. apply nth_error_nth. rewrite nth_error_map, Ex. reflexivity.
      * symmetry. apply nth_overflow. rewrite map_length. now apply nth_error_None.
  - pose proof (i_count _ _ _ _ I) as H. transitivity (list_sum (map (w (one c)) ts)); [lia|]. clear. unfold token_count.
    induction ts as [|t ts IH]; [cbn; lia|]. change (list_sum (map (w (one c)) (t :: ts))) with (w (one c) t + list_sum (map (w (one c)) ts)). cbn [filter].
    assert (w (one c) t <= if match t_type t with T_CHARACTER => (t_rune t =? c)%N || ((t_rune t =? 0)%N && (c =? 65533)%N) | _ => false end then 1 else 0) as Hw.
    { unfold w, is_char, one. destruct (t_type t); cbn [ttype_eqb]; try lia. destruct (N.eqb_spec (t_rune t) c); destruct (N.eq_dec (t_rune t) c); try congruence; cbn [orb].
      - destruct (N.eqb_spec (t_rune t) 0) as [H0|]; [|lia]. destruct (N.eq_dec 65533 c); [|lia]. congruence.
      - destruct (N.eqb_spec (t_rune t) 0); cbn [andb]; [|lia]. destruct (N.eq_dec 65533 c); destruct (N.eqb_spec c 65533); try congruence; lia. }
    destruct (match t_type t with T_CHARACTER => _ | _ => false end); cbn [length]; lia.
Qed.
(** The whole tree is read. *)
Theorem document_whole ts s f : build ts st_init = Done s -> length (s_dom s) <= f -> subtree f (s_dom s) 0 = document s.
Proof.
  intros E Hf. pose proof (build_inv ts (fun _ => 0) s E) as I. apply (subtree_all _ (i_links _ _ _ _ I) f _ 0 0); [reflexivity|apply (dom_pos _ _ _ _ I)|lia|lia].
Qed.
