(** What is read was written: the tags of every text that the parser takes nest. *)
From Coq Require Import String List Arith NArith ZArith Bool Lia.
From Verif.Xml Require Import XmlModel XmlSpec XmlLoose XmlProofs.
Import ListNotations.
Local Open Scope list_scope.
Local Arguments is_name_start : simpl never.
Local Arguments is_name_char : simpl never.
Local Arguments is_space : simpl never.
Local Arguments is_char : simpl never.
Local Arguments text : simpl never.
Local Arguments skip : simpl never.
Local Arguments ahead : simpl never.

Lemma bind_good {A B} (r : res A) (f : A -> str -> res B) b s : bind r f = Good b s -> exists a t, r = Good a t /\ f a t = Good b s.
Proof. destruct r; cbn; try discriminate. eauto. Qed.
Lemma expect_good p s u r : expect p s = Good u r -> s = p ++ r.
Proof. unfold expect. destruct (skip p s) eqn:E; [|discriminate]. intros F. injection F as _ <-. now apply skip_some. Qed.
Lemma take_good f s a b : take_while f s = (a, b) -> s = a ++ b /\ Forall (fun c => f c = true) a.
Proof.
  revert a b. induction s as [|c s IH]; cbn; intros a b E; [injection E as <- <-; auto|].
  destruct (f c) eqn:F; [|injection E as <- <-; auto]. destruct (take_while f s) as [x y]. injection E as <- <-.
  destruct (IH x y eq_refl) as [-> G]. split; auto.
Qed.
Lemma spaces_good s : exists b, blanks b /\ s = b ++ spaces s.
Proof.
  unfold spaces. destruct (take_while is_space s) as [b r] eqn:E. apply take_good in E as [-> F]. exists b. split; auto.
  eapply Forall_impl; [|exact F]. intros c. apply is_space_iff.
Qed.
Lemma name_good s n r : parse_name s = Good n r -> s = n ++ r /\ valid_name n.
Proof.
  destruct s as [|c s]; [discriminate|]. cbn [parse_name]. destruct (is_name_start c) eqn:C; [|discriminate].
  destruct (take_while is_name_char s) as [a b] eqn:E. intros F. injection F as <- <-. apply take_good in E as [-> G]. repeat split; auto.
  - now apply is_name_start_iff. - eapply Forall_impl; [|exact G]. intros x. apply is_name_char_iff.
Qed.
Lemma colons_none s : forall i, colons i s = [] -> ~ In 58%N s.
Proof. induction s as [|c s IH]; intros i; cbn; auto. destruct (N.eqb_spec c 58); [discriminate|]. intros E [F|F]; [congruence|]. eapply IH; eauto. Qed.
Lemma colons_one s : forall i j, colons i s = [j] -> exists a b, s = a ++ 58%N :: b /\ ~ In 58%N a /\ ~ In 58%N b /\ j = i + length a.
Proof.
  induction s as [|c s IH]; intros i j; cbn; [discriminate|]. destruct (N.eqb_spec c 58).
  - intros E. injection E as <- E. subst. exists [], s. cbn. repeat split; auto; try lia. eapply colons_none; eauto.
  - intros E. apply IH in E as (a & b & -> & A & B & ->). exists (c :: a), b. repeat split; auto; [|cbn; lia]. intros [F|F]; auto.
Qed.
Lemma split_good s n : valid_name s -> split_name s = Some n -> name_text n = s /\ loose_name n.
Proof.
  intros V. unfold split_name. destruct (colons 0 s) as [|i [|j l]] eqn:E; [| |discriminate].
  - intros F. injection F as <-. apply colons_none in E. unfold loose_name, name_text. cbn. repeat split; auto. now destruct s.
  - apply colons_one in E as (a & b & -> & A & B & ->). cbn [plus]. destruct (Nat.eqb_spec (length a) 0); [discriminate|].
    rewrite app_length. destruct (Nat.eqb_spec (S (length a)) (length a + length (58%N :: b))); [discriminate|]. cbn [orb]. intros F. injection F as <-.
    assert (F1 : firstn (length a) (a ++ 58%N :: b) = a) by (rewrite firstn_app, Nat.sub_diag, firstn_all, app_nil_r; auto).
    assert (F2 : skipn (S (length a)) (a ++ 58%N :: b) = b).
    { clear. induction a as [|c a IH]; [reflexivity|]. cbn [length app skipn]. exact IH. }
    unfold loose_name, name_text. cbn [n_prefix n_local]. rewrite F1. change (match a ++ 58%N :: b with [] => [] | _ :: l => skipn (length a) l end) with (skipn (S (length a)) (a ++ 58%N :: b)). rewrite ?F2.
    repeat split; auto; [intros ->; cbn in *; lia|intros ->; cbn in *; lia].
Qed.
Lemma qname_good s n r : parse_qname s = Good n r -> s = name_text n ++ r /\ loose_name n.
Proof.
  intros E. apply bind_good in E as (m & t & E & F). apply name_good in E as [-> V]. destruct (split_name m) as [k|] eqn:S; [|discriminate].
  injection F as <- <-. apply split_good in S as [<- L]; auto.
Qed.

(** ** References *)
Definition plain (t : str) : Prop := ~ In 38%N t /\ ~ In 59%N t /\ ~ In 60%N t.
Lemma plain_app a b : plain a -> plain b -> plain (a ++ b).
Proof. unfold plain. rewrite !in_app_iff. tauto. Qed.
Lemma plain_cons c a : c <> 38%N -> c <> 59%N -> c <> 60%N -> plain a -> plain (c :: a).
Proof. unfold plain. cbn. intuition. Qed.
Lemma digit_plain b c d : digit b c = Some d -> c <> 38%N /\ c <> 59%N /\ c <> 60%N.
Proof. unfold digit. intros H. repeat split; intros ->; cbn in H; discriminate. Qed.
Lemma digits_good b s : forall acc n r, digits b acc s = (n, r) -> exists t, s = t ++ r /\ plain t.
Proof.
  induction s as [|c s IH]; cbn; intros acc n r E; [injection E as <- <-; exists []; split; auto; now repeat split|].
  destruct (digit b c) as [d|] eqn:D; [|injection E as <- <-; exists []; split; auto; now repeat split].
  apply IH in E as (t & -> & P). exists (c :: t). split; auto. apply digit_plain in D as (A & B & C). now apply plain_cons.
Qed.
Lemma natural_good b s n r : natural b s = Some (n, r) -> exists t, s = t ++ r /\ plain t /\ t <> [].
Proof.
  destruct s as [|c s]; [discriminate|]. unfold natural. destruct (digit b c) as [d|] eqn:D; [|discriminate]. intros E.
  cbn [digits] in E. rewrite D in E. assert (E' : digits b (0 * b + d)%N s = (n, r)) by congruence. apply digits_good in E' as (t & -> & P).
  exists (c :: t). apply digit_plain in D as (A & B & C). repeat split; auto; try discriminate; apply (plain_cons c t); auto.
Qed.
Lemma atoi_good b s z r : atoi b s = Some (z, r) -> exists t, s = t ++ r /\ plain t /\ t <> [].
Proof.
  destruct s as [|c s]; [discriminate|].
  assert (G : forall (f : N -> Z) u, (match natural b u with Some (n, r) => Some (f n, r) | None => None end) = Some (z, r) -> exists t, u = t ++ r /\ plain t /\ t <> []).
  { intros f u. destruct (natural b u) as [[n r']|] eqn:E; [|discriminate]. intros F. injection F as _ <-. eauto using natural_good. }
  destruct (N.eq_dec c 45) as [->|N1].
  { intros E. apply (G (fun n => (- Z.of_N n)%Z)) in E as (t & -> & P & _). exists (45%N :: t). repeat split; auto; try discriminate; apply (plain_cons 45%N t); auto; discriminate. }
  destruct (N.eq_dec c 43) as [->|N2].
  { intros E. apply (G Z.of_N) in E as (t & -> & P & _). exists (43%N :: t). repeat split; auto; try discriminate; apply (plain_cons 43%N t); auto; discriminate. }
  intros E. apply (G Z.of_N). rewrite <- E. destruct c as [|p]; [reflexivity|].
  do 6 (try (destruct p as [p|p|])); try reflexivity; congruence.
Qed.
Lemma name_plain n : valid_name n -> plain n /\ n <> [].
Proof.
  destruct n as [|c r]; cbn; [tauto|]. intros [A B]. split; [|discriminate].
  assert (X : forall x, name_char x -> x <> 38%N /\ x <> 59%N /\ x <> 60%N).
  { intros x Hx. repeat split; intros ->; unfold name_char, name_start in Hx; lia. }
  assert (Y : name_char c) by (now left). apply X in Y as (Y1 & Y2 & Y3). apply plain_cons; auto.
  clear A. induction B as [|x l Hx B IH]; [now repeat split|]. apply X in Hx as (Z1 & Z2 & Z3). now apply plain_cons.
Qed.
Lemma reference_good s c r : reference s = Good c r -> exists t, s = t ++ r /\ loose_ref t.
Proof.
  unfold reference. destruct (char_ref s) as [x y| |] eqn:E; cbn [or_else]; try discriminate.
  - intros F. injection F as <- <-. unfold char_ref in E. destruct (skip (text "&#") s) as [u|] eqn:K; [|discriminate]. apply skip_some in K. subst.
    assert (Q : exists z w t, (match skip (text "x") u with Some s => atoi 16 s | None => atoi 10 u end) = Some (z, w) /\ u = t ++ w /\ plain t /\ t <> []).
    { destruct (skip (text "x") u) as [v|] eqn:X.
      - apply skip_some in X. destruct (atoi 16 v) as [[z w]|] eqn:A; [|discriminate]. apply atoi_good in A as (t & -> & P & _).
        exists z, w, (text "x" ++ t). repeat split; try discriminate; [now rewrite <- app_assoc|..]; apply (plain_cons 120%N t); auto; discriminate.
      - destruct (atoi 10 u) as [[z w]|] eqn:A; [|discriminate]. apply atoi_good in A as (t & -> & P & NE). exists z, w, t. auto. }
    destruct Q as (z & w & t & Ez & -> & P & NE). rewrite Ez in E. apply bind_good in E as (? & ? & E & F). apply expect_good in E. subst. injection F as _ ->.
    exists (text "&" ++ (35%N :: t) ++ text ";"). split.
    + change (text "&#") with (text "&" ++ [35%N]). now rewrite <- !app_assoc.
    + destruct (plain_cons 35%N t) as (A & B & C); auto; try discriminate. constructor; auto. discriminate.
  - unfold entity_ref. intros F. apply bind_good in F as (? & ? & F1 & F). apply expect_good in F1. subst. apply bind_good in F as (n & ? & F1 & F). apply name_good in F1 as [-> V].
    apply bind_good in F as (? & ? & F1 & F). apply expect_good in F1. subst. destruct (entity n); [|discriminate]. injection F as _ ->.
    apply name_plain in V as [(A & B & C) D]. exists (text "&" ++ n ++ text ";"). split; [now rewrite <- !app_assoc|]. now constructor.
Qed.

(** ** Attributes *)
Lemma value_good q : forall fuel s v r, value_loop fuel q s = Good v r -> exists u, s = u ++ r /\ loose_value q v u.
Proof.
  induction fuel as [|fuel IH]; intros s v r; cbn [value_loop]; [discriminate|].
  destruct s as [|c s]; [intros E; injection E as <- <-; exists []; split; auto; constructor|].
  destruct (N.eqb_spec c q); [intros E; injection E as <- <-; exists []; split; auto; constructor|].
  assert (P : bind (value_loop fuel q s) (fun l s => Good (c :: l) s) = Good v r -> exists u, c :: s = u ++ r /\ loose_value q v u).
  { intros E. apply bind_good in E as (l & t & E & F). injection F as <- ->. apply IH in E as (u & -> & L). exists (c :: u). split; auto. now constructor. }
  destruct (reference (c :: s)) as [x t| |] eqn:R; auto. clear P. apply reference_good in R as (w & -> & Lw).
  intros E. apply bind_good in E as (l & t' & E & F). injection F as <- ->. apply IH in E as (u & -> & L).
  exists (w ++ u). split; [now rewrite <- app_assoc|]. now apply lvalue_ref.
Qed.
Lemma att_value_good s v r : att_value s = Good v r -> exists q u, s = (q :: u ++ [q]) ++ r /\ (q = 34%N \/ q = 39%N) /\ loose_value q v u.
Proof.
  destruct s as [|q s]; [discriminate|]. cbn [att_value]. destruct (_ || _) eqn:Q; [|discriminate]. intros E.
  apply bind_good in E as (w & t & E & F). apply value_good in E as (u & -> & L). apply bind_good in F as (? & ? & F & G). apply expect_good in F. subst. injection G as -> ->.
  exists q, u. split; [cbn; now rewrite <- app_assoc|]. split; auto. apply orb_prop in Q as [Q|Q]; apply N.eqb_eq in Q; auto.
Qed.
Lemma attr_good s n v r : parse_attr s = Good (n, v) r -> exists q u, s = name_text n ++ text "=" ++ (q :: u ++ [q]) ++ r /\ loose_name n /\ (q = 34%N \/ q = 39%N) /\ loose_value q v u.
Proof.
  unfold parse_attr. intros E. apply bind_good in E as (m & t & E & F). apply qname_good in E as [-> L]. apply bind_good in F as (? & ? & G & F). apply expect_good in G. subst.
  apply bind_good in F as (w & ? & G & F). apply att_value_good in G as (q & u & -> & Q & V). injection F as <- <- ->. exists q, u. repeat split; auto; apply L.
Qed.
Lemma name_first n r : loose_name n -> exists c u, name_text n ++ r = c :: u /\ name_start c.
Proof. intros [V _]. unfold valid_name in V. destruct (name_text n) as [|c u]; [contradiction|]. exists c, (u ++ r). split; [auto|apply V]. Qed.
Lemma not_tag_end c u : name_start c -> ahead (text ">") (c :: u) = false /\ ahead (text "/>") (c :: u) = false.
Proof.
  intros H. split; apply Bool.not_true_iff_false; intros A; apply ahead_iff in A as [r A]; injection A as -> _; unfold name_start in H; lia.
Qed.

Lemma put_keys {B} q (v : B) m : forall k, In k (map fst (put q_eqb q v m)) <-> k = q \/ In k (map fst m).
Proof.
  induction m as [|[k' v'] m IH]; cbn; intros k; [intuition|]. destruct (q_eqb q k') eqn:E; cbn.
  - apply q_eqb_eq in E. subst. intuition.
  - rewrite IH. intuition.
Qed.
Lemma put_nodup {B} q (v : B) m : NoDup (map fst m) -> NoDup (map fst (put q_eqb q v m)).
Proof.
  induction m as [|[k w] m IH]; cbn; intros H; [constructor; auto|]. inversion H as [|? ? A B0]; subst. destruct (q_eqb q k) eqn:E; cbn; [now constructor|].
  constructor; auto. rewrite put_keys. intros [->|F]; auto. now rewrite (proj2 (q_eqb_eq q q) eq_refl) in E.
Qed.
Lemma put_in {B} q (v : B) m k w : In (k, w) (put q_eqb q v m) -> (k = q /\ w = v) \/ In (k, w) m.
Proof.
  induction m as [|[k' v'] m IH]; cbn; [intros [E|[]]; injection E as <- <-; auto|].
  destruct (q_eqb q k') eqn:E.
  - apply q_eqb_eq in E. subst k'. intros [F|F]; [injection F as <- <-; auto|auto].
  - intros [F|F]; auto. apply IH in F. tauto.
Qed.
Definition collected (c : context) (l : list (name * str)) (acc a : list (qname * str)) : Prop :=
  (NoDup (map fst acc) -> NoDup (map fst a)) /\
  (forall q v, In (q, v) a -> In (q, v) acc \/ exists n, In (n, v) l /\ resolve_attribute c n = Some q) /\
  (forall n v, In (n, v) l -> exists q, resolve_attribute c n = Some q /\ In q (map fst a)) /\ incl (map fst acc) (map fst a).
Lemma attributes_good stop c : stop = text ">" \/ stop = text "/>" -> forall fuel acc s a r, attributes fuel stop c acc s = Good a r ->
  exists l u, (s = u ++ stop ++ r \/ s = u /\ r = []) /\ loose_attrs l u /\ collected c l acc a /\
    (forall f d d' w, context_loop f d s = Good d' w -> d' = fold_left declare l d).
Proof.
  intros St. induction fuel as [|fuel IH]; intros acc s a r; cbn [attributes]; [discriminate|].
  destruct (skip stop s) as [t|] eqn:K.
  { intros E. injection E as <- <-. exists [], []. cbn [app]. split; [left; now apply skip_some|]. split; [constructor|]. split.
    - repeat split; auto; [intros; contradiction|apply incl_refl].
    - intros f d d' w. destruct f as [|f]; cbn [context_loop]; [discriminate|].
      assert (O : ahead (text ">") s || ahead (text "/>") s = true) by (unfold ahead; destruct St; subst stop; rewrite K; auto; now destruct (skip (text ">") s)).
      rewrite O. cbn. congruence. }
  destruct s as [|x s].
  { intros E. injection E as <- <-. exists [], []. split; auto. split; [constructor|]. split.
    - repeat split; auto; [intros; contradiction|apply incl_refl].
    - intros f d d' w. destruct f as [|f]; cbn [context_loop]; [discriminate|]. rewrite orb_true_r. cbn. congruence. }
  intros E. apply bind_good in E as (acc' & t & E & F). unfold parse_attribute in E. apply bind_good in E as ([n v] & t' & E & G).
  destruct (resolve_attribute c (fst (n, v))) as [q|] eqn:R; [|discriminate]. cbn in R. injection G as <- ->.
  pose proof E as PA. apply attr_good in E as (qt & u & E & L & Q & V). destruct (spaces_good t) as (b & B & Sb). apply IH in F as (l & u' & S' & LA & (C0 & C1 & C2 & C3) & CL).
  exists ((n, v) :: l), (name_text n ++ text "=" ++ (qt :: u ++ [qt]) ++ b ++ u'). split.
  - rewrite E, Sb. destruct S' as [-> | [-> ->]]; [left|right]; [now rewrite <- !app_assoc|split; auto].
  - split; [constructor; auto|]. split.
    + split; [intros ND; apply C0, put_nodup, ND|]. split; [|split].
      * intros k w I. apply C1 in I as [I|(m & I & M)]; [|right; exists m; split; [now right|auto]]. apply put_in in I as [[-> ->]|I]; [|auto]. right. exists n. split; [now left|auto].
      * intros m w [I|I]; [injection I as <- <-; exists q; split; auto; apply C3, put_keys; now left|now apply (C2 m w)].
      * intros k I. apply C3, put_keys. now right.
    + intros f d d' w. destruct f as [|f]; cbn [context_loop]; [discriminate|].
      destruct (name_first n (text "=" ++ (qt :: u ++ [qt]) ++ t) L) as (c0 & u0 & Ec & NS). rewrite <- E in Ec. injection Ec as -> <-.
      destruct (not_tag_end c0 s NS) as [-> ->]. cbn [orb]. rewrite PA. cbn [bind]. intros H. apply CL in H. exact H.
Qed.

(** ** Namespaces *)
Definition agree_ns (ns : option str) (sc : scope) (c : context) : Prop :=
  default_to ns sc (c_default c) /\ (forall p v, lookup str_eqb p (c_prefixes c) = Some v -> bound_to sc p v).
Lemma lookup_put_s p p' v (m : list (str * str)) : lookup str_eqb p (put str_eqb p' v m) = if str_eqb p p' then Some v else lookup str_eqb p m.
Proof.
  induction m as [|[k w] m IH]; cbn; [destruct (str_eqb p p'); auto|]. destruct (str_eqb p' k) eqn:E; cbn.
  - apply str_eqb_eq in E. subst. destruct (str_eqb p k) eqn:F; auto.
  - destruct (str_eqb p k) eqn:F; auto. apply str_eqb_eq in F. subst. destruct (str_eqb k p') eqn:G; auto. apply str_eqb_eq in G. subst. now rewrite str_eqb_refl in E.
Qed.
Definition N_ns p := mkName (Some (text "xmlns")) p.
Lemma declare_lookup l : forall c p v, lookup str_eqb p (c_prefixes (fold_left declare l c)) = Some v ->
  (p <> text "xml" /\ p <> text "xmlns" /\ In (N_ns p, v) l) \/ ((p = text "xml" \/ p = text "xmlns" \/ forall w, ~ In (N_ns p, w) l) /\ lookup str_eqb p (c_prefixes c) = Some v).
Proof.
  induction l as [|[n w] l IH]; cbn [fold_left]; intros c p v H; [right; split; auto|].
  apply IH in H as [(A & B & I)|(A & H)]; [left; repeat split; auto; now right|].
  unfold declare in H. cbn [fst snd] in H. destruct n as [[x|] y]; cbn [n_prefix n_local] in H.
  - destruct (str_eqb x xmlns) eqn:E.
    + apply str_eqb_eq in E. subst x. unfold declare_prefix in H. destruct (str_eqb y (text "xml") || str_eqb y (text "xmlns")) eqn:R.
      * right. split; auto. destruct A as [A|[A|A]]; auto. destruct (str_eqb p (text "xml")) eqn:P1; [apply str_eqb_eq in P1; auto|]. destruct (str_eqb p (text "xmlns")) eqn:P2; [apply str_eqb_eq in P2; auto|].
        right; right. intros z [I|I]; [|now apply (A z)]. injection I as -> _. rewrite P1, P2 in R. discriminate.
      * cbn [c_prefixes] in H. rewrite lookup_put_s in H. apply orb_false_iff in R as [R1 R2]. apply str_eqb_neq in R1. apply str_eqb_neq in R2. destruct (str_eqb p y) eqn:P.
        -- apply str_eqb_eq in P. subst y. injection H as ->. left. repeat split; auto. now left.
        -- apply str_eqb_neq in P. right. split; auto. destruct A as [A|[A|A]]; auto. right; right. intros z [I|I]; [|now apply (A z)]. injection I as -> _. congruence.
    + right. split; auto. destruct A as [A|[A|A]]; auto. right; right. intros z [I|I]; [|now apply (A z)]. injection I as -> _ _. now rewrite str_eqb_refl in E.
  - right. assert (H' : lookup str_eqb p (c_prefixes c) = Some v) by (now destruct (str_eqb y xmlns)). split; auto. destruct A as [A|[A|A]]; auto. right; right. intros z [I|I]; [discriminate|now apply (A z)].
Qed.
Lemma declare_default l : forall c, (exists v, c_default (fold_left declare l c) = Some v /\ In (mkName None (text "xmlns"), v) l) \/
  (c_default (fold_left declare l c) = c_default c /\ forall w, ~ In (mkName None (text "xmlns"), w) l).
Proof.
  induction l as [|[n w] l IH]; cbn [fold_left]; intros c; [right; split; auto|].
  destruct (IH (declare c (n, w))) as [(v & E & I)|(E & I)]; [left; exists v; split; auto; now right|]. rewrite E. unfold declare. cbn [fst snd].
  destruct n as [[x|] y]; cbn [n_prefix n_local].
  - right. split; [|intros z [F|F]; [discriminate|now apply (I z)]]. destruct (str_eqb x xmlns); auto. unfold declare_prefix. now destruct (_ || _).
  - destruct (str_eqb y xmlns) eqn:Y; cbn.
    + apply str_eqb_eq in Y. subst y. left. exists w. auto.
    + right. split; auto. intros z [F|F]; [|now apply (I z)]. injection F as -> _. now rewrite str_eqb_refl in Y.
Qed.
Lemma agree_step ns sc c l : agree_ns ns sc c -> agree_ns ns (l :: sc) (fold_left declare l c).
Proof.
  intros [A B]. split.
  - destruct (declare_default l c) as [(v & -> & I)|(-> & I)]; [now apply default_here|now apply default_there].
  - intros p v H. apply declare_lookup in H as [(P & Q & I)|(P & H)]; [now apply bound_here|].
    destruct (str_eqb p (text "xml")) eqn:P1; [|destruct (str_eqb p (text "xmlns")) eqn:P2].
    + apply str_eqb_eq in P1. apply B in H. subst p. inversion H; subst; try constructor; congruence.
    + apply str_eqb_eq in P2. apply B in H. subst p. inversion H; subst; try constructor; congruence.
    + apply str_eqb_neq in P1. apply str_eqb_neq in P2. destruct P as [P|[P|P]]; try congruence. apply bound_there; auto.
Qed.
Lemma agree_start ns : agree_ns ns [] (make_context ns).
Proof.
  split; [constructor|]. intros p v. unfold make_context. cbn [c_prefixes]. rewrite !lookup_put_s. cbn [lookup].
  destruct (str_eqb p (text "xmlns")) eqn:E; [apply str_eqb_eq in E; subst; intros F; injection F as <-; constructor|].
  destruct (str_eqb p (text "xml")) eqn:G; [apply str_eqb_eq in G; subst; intros F; injection F as <-; constructor|]. discriminate.
Qed.
Lemma resolve_good ns sc c n q : agree_ns ns sc c -> resolve_element c n = Some q -> loose_element_name ns sc n q.
Proof.
  intros [A B]. destruct n as [[p|] l]; unfold resolve_element; cbn [n_prefix n_local]; [|intros E; injection E as <-; now constructor].
  destruct (lookup str_eqb p (c_prefixes c)) as [v|] eqn:L; [|discriminate]. intros E. injection E as <-. constructor. auto.
Qed.
Lemma resolve_attr_good ns sc c n q : agree_ns ns sc c -> resolve_attribute c n = Some q -> loose_attribute_name sc n q.
Proof.
  intros [A B]. destruct n as [[p|] l]; unfold resolve_attribute; cbn [n_prefix n_local]; [|intros E; injection E as <-; now constructor].
  destruct (lookup str_eqb p (c_prefixes c)) as [v|] eqn:L; [|discriminate]. intros E. injection E as <-. constructor. auto.
Qed.
Lemma tag_good ns sc c stop s q a c' r : agree_ns ns sc c -> stop = text ">" \/ stop = text "/>" -> parse_tag stop c s = Good (q, a, c') r ->
  exists n b l u, (s = text "<" ++ name_text n ++ b ++ u ++ stop ++ r \/ s = text "<" ++ name_text n ++ b ++ u /\ r = []) /\
    loose_name n /\ blanks b /\ loose_attrs l u /\ loose_element_name ns (l :: sc) n q /\ same_attrs (l :: sc) l a /\ agree_ns ns (l :: sc) c'.
Proof.
  intros A St. unfold parse_tag. intros E. apply bind_good in E as (? & ? & E1 & E). apply expect_good in E1. subst. apply bind_good in E as (n & t & E1 & E). apply qname_good in E1 as [-> L].
  cbn zeta in E. destruct (spaces_good t) as (b & B & Sb). apply bind_good in E as (d & t' & E1 & E). unfold parse_context in E1. apply bind_good in E1 as (d0 & w & EC & E1). injection E1 as -> <-.
  destruct (resolve_element d n) as [q'|] eqn:R; [|discriminate]. apply bind_good in E as (l' & t' & EA & E). injection E as <- <- <- <-.
  apply (attributes_good stop d St) in EA as (l & u & S' & LA & (C0 & C1 & C2 & C3) & CL). apply CL in EC. subst d.
  assert (AG : agree_ns ns (l :: sc) (fold_left declare l c)) by (now apply agree_step).
  exists n, b, l, u. split; [|split; [exact L|split; [exact B|split; [exact LA|split; [|split; [|exact AG]]]]]].
  - rewrite Sb. destruct S' as [-> | [-> ->]]; [left|right]; auto.
  - eapply resolve_good; eauto.
  - split; [apply C0; constructor|]. split.
    + intros k v I. apply C1 in I as [[]|(m & I & M)]. exists m. split; auto. eapply resolve_attr_good; eauto.
    + intros m v I. apply C2 in I as (k & M & K). exists k. split; auto. eapply resolve_attr_good; eauto.
Qed.

(** ** Text, comments and instructions *)
Lemma until_good stop ok s v r : stop <> [] -> until stop ok s = Some (v, r) -> s = v ++ r /\ Forall (fun c => ok c = true) v /\ (forall t, r = stop ++ t -> ends stop v).
Proof.
  intros NE. revert v r. induction s as [|c s IH]; cbn [until]; intros v r E.
  - injection E as <- <-. repeat split; auto. intros t F. destruct stop; [congruence|discriminate].
  - destruct (ahead stop (c :: s)) eqn:A.
    + injection E as <- <-. repeat split; auto. intros t F a b G. cbn in G.
      assert (L : length stop = length (a ++ stop ++ b)) by (now rewrite <- G). rewrite !app_length in L. destruct b; auto. cbn in L. lia.
    + destruct (ok c) eqn:O; [|discriminate]. destruct (until stop ok s) as [[x y]|]; [|discriminate]. cbn in E. injection E as <- <-.
      destruct (IH x y eq_refl) as (-> & F & G). repeat split; auto. intros t -> a b H. destruct a as [|d a].
      * exfalso. assert (P : exists w, stop ++ b = stop ++ w) by eauto. cbn in H. apply Bool.not_true_iff_false in A. apply A. apply ahead_iff.
        destruct b as [|z b']; [rewrite app_nil_r in H; assert (L : length (c :: x ++ stop) = length stop) by (now rewrite H); cbn in L; rewrite app_length in L; lia|].
        exists ((z :: b') ++ t). rewrite app_comm_cons, app_assoc. change (c :: x ++ stop) with ((c :: x) ++ stop) in H. rewrite H. now rewrite <- !app_assoc.
      * cbn in H. injection H as -> H. eapply (G t); eauto.
Qed.
Lemma comment_good s v r : parse_comment s = Good v r -> exists t, s = t ++ r /\ writes_comment v t.
Proof.
  unfold parse_comment. intros E. apply bind_good in E as (? & u & E1 & E). apply expect_good in E1. subst.
  destruct (until (text "-->") is_char u) as [[cv cr]|] eqn:U; [|discriminate]. apply until_good in U as (-> & F & G); [|discriminate].
  apply bind_good in E as (? & ? & E1 & E). apply expect_good in E1. subst. injection E as -> ->. exists (text "<!--" ++ v ++ text "-->").
  split; [now rewrite <- !app_assoc|]. constructor; eauto. eapply Forall_impl; [|exact F]. intros c. apply is_char_iff.
Qed.
Lemma lower_is n : is_xml n -> str_eqb (map lower n) (text "xml") = true.
Proof. intros (a & b & c & -> & [->| ->] & [->| ->] & [->| ->]); reflexivity. Qed.
Lemma pi_good s u r : parse_pi s = Good u r -> exists t, s = t ++ r /\ loose_pi t.
Proof.
  unfold parse_pi. intros E. apply bind_good in E as (? & ? & E1 & E). apply expect_good in E1. subst. apply bind_good in E as (n & w & E1 & E). apply name_good in E1 as [-> V].
  destruct (str_eqb (map lower n) (text "xml")) eqn:X; [discriminate|]. destruct (until (text "?>") is_char w) as [[cv cr]|] eqn:U; [|discriminate].
  apply until_good in U as (-> & F & G); [|discriminate]. apply expect_good in E. subst. exists (text "<?" ++ n ++ cv ++ text "?>").
  split; [now rewrite <- !app_assoc|]. constructor; eauto.
  - intros I. apply lower_is in I. congruence.
  - eapply Forall_impl; [|exact F]. intros c. apply is_char_iff.
Qed.
Lemma char_data_good s : forall a b, char_data s = (a, b) -> s = a ++ b /\ forall v t, loose_text v t -> loose_text (a ++ v) (a ++ t).
Proof.
  induction s as [|c s IH]; cbn [char_data]; intros a b E; [injection E as <- <-; auto|].
  destruct (N.eqb_spec c 60); [injection E as <- <-; auto|]. destruct (N.eqb_spec c 38); [injection E as <- <-; auto|]. cbn [orb] in E.
  destruct (ahead (text "]]>") (c :: s)); [injection E as <- <-; auto|]. destruct (char_data s) as [x y]. injection E as <- <-. destruct (IH x y eq_refl) as [-> G].
  split; auto. intros v t L. cbn. constructor; auto.
Qed.
(** After this no end tag comes. *)
Definition dead (s : str) : Prop := s = [] \/ ahead (text "<![CDATA[") s = true.
Lemma text_item_good s v o : text_item s = (v, o) ->
  match o with Some r => exists u, s = u ++ r /\ forall w t, loose_text w t -> loose_text (v ++ w) (u ++ t) | None => v = [] \/ dead s end.
Proof.
  unfold text_item. destruct (char_data s) as [[|c a] b] eqn:C.
  - destruct (cd_sect s) as [x y] eqn:D. unfold cd_sect in D. destruct (skip (text "<![CDATA[") s) as [t|] eqn:K.
    + assert (X : y = None -> dead s) by (intros _; right; unfold ahead; now rewrite K).
      apply skip_some in K. subst s. destruct y as [r|].
      * intros E. injection E as <- <-. destruct (until (text "]]>") (fun _ => true) t) as [[x' y']|] eqn:U; [|discriminate]. injection D as -> D.
        apply skip_some in D. subst y'. apply until_good in U as (-> & _ & G); [|discriminate]. exists (text "<![CDATA[" ++ x ++ text "]]>").
        split; [now rewrite <- !app_assoc|]. intros w t L. rewrite <- !app_assoc. constructor; eauto.
      * specialize (X eq_refl). destruct (reference _) as [z w| |] eqn:R; intros E; injection E as <- <-; auto.
        apply reference_good in R as (u & E & L). inversion L; subst. discriminate.
    + injection D as <- <-. destruct (reference s) as [z w| |] eqn:R; intros E; injection E as <- <-; auto.
      apply reference_good in R as (u & -> & L). exists u. split; auto. intros w' t Lt. cbn. now constructor.
  - intros E. injection E as <- <-. apply char_data_good in C as [-> G]. eauto.
Qed.
Lemma text_loop_good : forall fuel s v r, text_loop fuel s = Good v r -> dead r \/ exists u, s = u ++ r /\ loose_text v u.
Proof.
  induction fuel as [|fuel IH]; intros s v r; cbn [text_loop]; [discriminate|]. destruct (text_item s) as [x [t|]] eqn:T; apply text_item_good in T.
  - destruct T as (u & -> & G). intros E. apply bind_good in E as (l & t' & E & F). injection F as <- ->. apply IH in E as [D|(u' & -> & L)]; auto.
    right. exists (u ++ u'). split; [now rewrite <- app_assoc|auto].
  - intros E. injection E as <- <-. destruct T as [->|T]; auto. right. exists []. split; auto. constructor.
Qed.
Lemma text_good s k r : parse_text s = Good k r -> dead r \/ exists v u, s = u ++ r /\ loose_text v u /\ k = nodes_of v.
Proof.
  unfold parse_text. intros E. apply bind_good in E as (v & t & E & F). injection F as <- ->. apply text_loop_good in E as [D|(u & -> & L)]; auto. right. exists v, u. auto.
Qed.
Lemma dead_end c q s u r : dead s -> parse_end_tag c q s = Good u r -> False.
Proof.
  intros D E. unfold parse_end_tag in E. apply bind_good in E as (? & ? & E & _). apply expect_good in E. subst. destruct D as [D|D]; [discriminate|].
  unfold ahead in D. destruct (skip (text "<![CDATA[") _) eqn:K; [|discriminate]. apply skip_some in K. discriminate.
Qed.
Lemma dead_bad s : dead s -> (forall stop c, parse_tag stop c s = Bad) /\ parse_pi s = Bad /\ parse_comment s = Bad.
Proof.
  intros [->|D]; [repeat split; reflexivity|]. unfold ahead in D. destruct (skip (text "<![CDATA[") s) as [t|] eqn:K; [|discriminate]. apply skip_some in K. subst. clear D.
  repeat split; reflexivity.
Qed.
Lemma dead_items fuel c s k r : dead s -> parse_items fuel c s = Good k r -> dead r.
Proof.
  intros D. destruct fuel as [|fuel]; [discriminate|]. cbn [parse_items]. destruct (dead_bad s D) as (A & B & C). rewrite B, C. cbn [bind or_else].
  destruct fuel as [|fuel]; [discriminate|]. cbn [parse_element]. rewrite !A. cbn. intros E. now injection E as <- <-.
Qed.

(** ** Elements *)
Lemma elements_good ns : forall fuel,
  (forall sc c s x r, agree_ns ns sc c -> parse_element fuel c s = Good x r ->
    (exists t, s = t ++ r /\ loose_element ns sc t x) \/
    (r = [] /\ exists n l b u q a, s = text "<" ++ name_text n ++ b ++ u /\ x = ELEMENT q a [] /\
      loose_name n /\ blanks b /\ loose_attrs l u /\ loose_element_name ns (l :: sc) n q /\ same_attrs (l :: sc) l a)) /\
  (forall sc c s k r, agree_ns ns sc c -> parse_items fuel c s = Good k r ->
    dead r \/ exists u, s = u ++ r /\ forall v t, loose_text v t -> loose_content ns sc (t ++ u) (nodes_of v ++ k)).
Proof.
  induction fuel as [|fuel [IE II]]; (split; intros sc c s x r A; [cbn [parse_element]|cbn [parse_items]]); try discriminate.
  - destruct (parse_tag (text "/>") c s) as [[[q l] c'] t| |] eqn:T; [|clear T|discriminate].
    + intros E. injection E as <- <-. apply (tag_good ns sc) in T as (n & b & l' & u & S' & H); auto. destruct H as (H1 & H2 & H3 & H4 & H5 & H6). destruct S' as [-> | [-> ->]].
      * left. exists (text "<" ++ name_text n ++ b ++ u ++ text "/>"). split; [now rewrite <- !app_assoc|]. econstructor; eauto.
      * right. split; auto. exists n, l', b, u, q, l. repeat split; auto; try apply H1; apply H5.
    + intros E. apply bind_good in E as ([[q l] c'] & t & T & E). apply (tag_good ns sc) in T as (n & b & l' & u & S' & H1 & H2 & H3 & H4 & H5 & H6); auto.
      apply bind_good in E as (k1 & s1 & E1 & E). apply bind_good in E as (k2 & s2 & E2 & E). apply bind_good in E as (w & s3 & E3 & E). injection E as <- ->.
      assert (ND : ~ dead s2) by (intros D; eapply dead_end; eauto).
      apply text_good in E1 as [D|(v & tu & -> & TL & ->)]; [destruct ND; eapply dead_items; eauto|].
      apply (II (l' :: sc)) in E2 as [D|(iu & -> & C)]; auto; [contradiction|].
      unfold parse_end_tag in E3. apply bind_good in E3 as (? & ? & X & E3). apply expect_good in X. subst s2. apply bind_good in E3 as (m & ? & X & E3). apply qname_good in X as [-> M].
      destruct (resolve_element c' m) as [q'|] eqn:R; [|discriminate]. destruct (q_eqb q' q) eqn:Q; [|discriminate]. apply q_eqb_eq in Q. subst q'.
      match goal with H : expect _ (spaces ?z) = _ |- _ => destruct (spaces_good z) as (e & Be & Se); apply expect_good in H; rewrite H in Se; rewrite Se in S' end.
      left. destruct S' as [-> | [-> Z]]; [|destruct tu, iu; discriminate].
      exists (text "<" ++ name_text n ++ b ++ u ++ text ">" ++ (tu ++ iu) ++ text "</" ++ name_text m ++ e ++ text ">"). split; [now rewrite <- !app_assoc|].
      econstructor; eauto. eapply resolve_good; eauto.
  - assert (TX : forall sc' c' y k' t' i, agree_ns ns sc' c' -> bind (parse_text y) (fun t s => bind (parse_items fuel c' s) (fun r s => Good (i ++ t ++ r) s)) = Good k' t' ->
      dead t' \/ exists u k0, y = u ++ t' /\ k' = i ++ k0 /\ loose_content ns sc' u k0).
    { intros sc' c' y k' t' i AG E. apply bind_good in E as (k1 & s1 & E1 & E). apply bind_good in E as (k2 & s2 & E2 & E). injection E as <- ->.
      apply text_good in E1 as [D|(v & tu & -> & TL & ->)]; [left; eapply dead_items; eauto|]. apply (II sc') in E2 as [D|(iu & -> & C)]; auto.
      right. exists (tu ++ iu), (nodes_of v ++ k2). split; [now rewrite <- app_assoc|]. split; auto. }
    destruct (parse_element fuel c s) as [e t| |] eqn:PE; cbn [bind or_else]; [| |discriminate].
    + intros E. apply (TX sc c _ _ _ _ A) in E as [D|(u & k0 & -> & -> & C)]; auto.
      apply (IE sc) in PE as [(t & -> & L)|(Z & _)]; auto.
      * right. exists (t ++ u). split; [now rewrite <- app_assoc|]. intros v t' Lt. cbn. now constructor.
      * left. left. now destruct u.
    + destruct (parse_pi s) as [e t| |] eqn:PP; cbn [bind or_else]; [| |discriminate].
      * intros E. apply (TX sc c _ _ _ _ A) in E as [D|(u & k0 & -> & -> & C)]; auto. apply pi_good in PP as (t & -> & L).
        right. exists (t ++ u). split; [now rewrite <- app_assoc|]. intros v t' Lt. cbn. now constructor.
      * destruct (parse_comment s) as [e t| |] eqn:PC; cbn [bind or_else]; [| |discriminate].
        -- intros E. apply (TX sc c _ _ _ _ A) in E as [D|(u & k0 & -> & -> & C)]; auto. apply comment_good in PC as (t & -> & L).
           right. exists (t ++ u). split; [now rewrite <- app_assoc|]. intros v t' Lt. cbn. now constructor.
        -- intros E. injection E as <- <-. right. exists []. split; auto. intros v t Lt. rewrite !app_nil_r. now constructor.
Qed.

(** ** Documents *)
Lemma misc_good s k r : misc s = Good k r -> exists t, s = t ++ r /\ forall u l, loose_misc u l -> loose_misc (t ++ u) (k ++ l).
Proof.
  unfold misc. destruct (ahead (text "<!--") s).
  - intros E. apply bind_good in E as (v & t & E & F). injection F as <- ->. apply comment_good in E as (t & -> & W). exists t. split; auto. intros u l L. cbn. now constructor.
  - destruct (ahead (text "<?") s).
    + intros E. apply bind_good in E as (v & t & E & F). injection F as <- ->. apply pi_good in E as (t & -> & W). exists t. split; auto. intros u l L. cbn. now constructor.
    + destruct s as [|c s]; [discriminate|]. destruct (is_space c); [|discriminate]. intros E. injection E as <- <-. destruct (spaces_good (c :: s)) as (b & B & Sb).
      exists b. split; auto. intros u l L. cbn. clear Sb. induction B; cbn; auto. now constructor.
Qed.
Lemma miscs_good : forall fuel s k r, miscs fuel s = Good k r -> exists t, s = t ++ r /\ loose_misc t k.
Proof.
  induction fuel as [|fuel IH]; intros s k r; cbn [miscs]; [discriminate|]. destruct (misc s) as [a t| |] eqn:M; [| |discriminate].
  - intros E. apply bind_good in E as (l & t' & E & F). injection F as <- ->. apply IH in E as (u & -> & L). apply misc_good in M as (w & -> & G). exists (w ++ u). split; [now rewrite <- app_assoc|auto].
  - intros E. injection E as <- <-. exists []. split; auto. constructor.
Qed.
Lemma decl_attr_good n value s v r : (forall s a b, value s = (a, b) -> exists u, s = u ++ b) -> decl_attr n value s = Good v r -> exists u, s = u ++ r.
Proof.
  intros V. unfold decl_attr. intros E. destruct (spaces_good s) as (b & _ & Sb). apply bind_good in E as (? & t & E1 & E). apply expect_good in E1. rewrite E1 in Sb.
  destruct (spaces_good t) as (b' & _ & Sb'). apply bind_good in E as (? & t' & E2 & E). apply expect_good in E2. rewrite E2 in Sb'.
  destruct (spaces_good t') as (b3 & _ & Sb3). destruct (spaces t') as [|q w]; [discriminate|]. destruct (_ || _); [|discriminate].
  destruct (value w) as [[|vx vy] z] eqn:Vw; [discriminate|]. apply V in Vw as (u & ->). apply bind_good in E as (? & ? & E3 & E). apply expect_good in E3. injection E as _ ->. subst z.
  exists (b ++ n ++ b' ++ text "=" ++ b3 ++ q :: u ++ [q]). rewrite Sb, Sb', Sb3. rewrite <- !app_assoc. cbn. now rewrite <- !app_assoc.
Qed.
Lemma version_good s a b : re_version s = (a, b) -> exists u, s = u ++ b.
Proof.
  unfold re_version. destruct (skip (text "1.") s) as [t|] eqn:K; [|intros E; injection E as <- <-; now exists []]. apply skip_some in K. subst.
  destruct (take_while is_digit t) as [[|d l] w] eqn:T; [intros E; injection E as <- <-; now exists []|]. apply take_good in T as [-> _]. intros E. injection E as <- <-. exists (text "1." ++ d :: l). now rewrite <- app_assoc.
Qed.
Lemma encoding_good s a b : re_encoding s = (a, b) -> exists u, s = u ++ b.
Proof.
  destruct s as [|c s]; cbn [re_encoding]; [intros E; injection E as <- <-; now exists []|]. destruct (is_alpha c); [|intros E; injection E as <- <-; now exists []].
  match goal with |- context [take_while ?f s] => destruct (take_while f s) as [x y] eqn:T end. apply take_good in T as [-> _]. intros E. injection E as <- <-. now exists (c :: x).
Qed.
Lemma standalone_good s a b : re_standalone s = (a, b) -> exists u, s = u ++ b.
Proof.
  unfold re_standalone. destruct (skip (text "yes") s) as [t|] eqn:K; [apply skip_some in K; subst; intros E; injection E as <- <-; eauto|].
  destruct (skip (text "no") s) as [t|] eqn:K'; [apply skip_some in K'; subst; intros E; injection E as <- <-; eauto|]. intros E. injection E as <- <-. now exists [].
Qed.
Lemma optional_good r s v t : (forall a b, r = Good a b -> exists u, s = u ++ b) -> optional r s = (v, t) -> exists u, s = u ++ t.
Proof. intros H. destruct r as [a b| |]; cbn; intros E; injection E as <- <-; [eauto|now exists []|now exists []]. Qed.
Lemma decl_good s d r : xml_decl s = Good d r -> exists u, s = (text "<?xml" ++ u ++ text "?>") ++ r.
Proof.
  unfold xml_decl. intros E. apply bind_good in E as (? & ? & E1 & E). apply expect_good in E1. subst. apply bind_good in E as (v & t & E1 & E). apply decl_attr_good in E1 as (u1 & ->); [|exact version_good].
  destruct (optional (decl_attr (text "encoding") re_encoding t) t) as [e t2] eqn:O1. apply optional_good in O1 as (u2 & ->); [|intros a b; apply decl_attr_good, encoding_good].
  destruct (optional (decl_attr (text "standalone") re_standalone t2) t2) as [e2 t3] eqn:O2. apply optional_good in O2 as (u3 & ->); [|intros a b; apply decl_attr_good, standalone_good].
  destruct (spaces_good t3) as (b & _ & Sb). apply bind_good in E as (? & ? & E3 & E). apply expect_good in E3. injection E as _ ->. rewrite E3 in Sb. subst t3.
  exists (u1 ++ u2 ++ u3 ++ b). now rewrite <- !app_assoc.
Qed.
Lemma external_good s p r : external_id s = (p, Some r) -> exists u, s = u ++ r.
Proof.
  unfold external_id. destruct (skip (text "SYSTEM") s) as [t|] eqn:K.
  - apply skip_some in K. subst. destruct (spaces_good t) as (b & _ & Sb). destruct (att_value (spaces t)) as [v w| |] eqn:A; [|discriminate|discriminate]. apply att_value_good in A as (q & u & A & _).
    intros E. injection E as <- <-. rewrite A in Sb. exists (text "SYSTEM" ++ b ++ q :: u ++ [q]). rewrite Sb. now rewrite <- !app_assoc.
  - destruct (skip (text "PUBLIC") s) as [t|] eqn:K'; [|discriminate]. apply skip_some in K'. subst. destruct (spaces_good t) as (b & _ & Sb).
    destruct (att_value (spaces t)) as [v w| |] eqn:A; [|discriminate|discriminate]. apply att_value_good in A as (q & u & A & _). rewrite A in Sb. destruct (spaces_good w) as (b2 & _ & Sb2).
    destruct (att_value (spaces w)) as [v2 w2| |] eqn:A2; [|discriminate|discriminate]. apply att_value_good in A2 as (q2 & u2 & A2 & _). rewrite A2 in Sb2.
    intros E. injection E as <- <-. exists (text "PUBLIC" ++ b ++ (q :: u ++ [q]) ++ b2 ++ (q2 :: u2 ++ [q2])). rewrite Sb, Sb2. now rewrite <- !app_assoc.
Qed.
Lemma doctype_good s x r : parse_doctype s = Good x r -> exists u n p v, s = (text "<!DOCTYPE" ++ u ++ text ">") ++ r /\ x = DOCTYPE n p v.
Proof.
  unfold parse_doctype. intros E. apply bind_good in E as (? & t & E1 & E). apply expect_good in E1. subst. destruct (spaces_good t) as (b & _ & Sb).
  apply bind_good in E as (n & t2 & E1 & E). apply name_good in E1 as [E1 _]. rewrite E1 in Sb. destruct (spaces_good t2) as (b2 & _ & Sb2).
  destruct (external_id (spaces t2)) as [[p v] o] eqn:X.
  assert (O : exists u w, t2 = u ++ w /\ (match o with Some s => s | None => spaces t2 end) = w).
  { destruct o as [w|]; [apply external_good in X as (u & X); rewrite X in Sb2; exists (b2 ++ u), w; split; auto; rewrite Sb2; now rewrite <- app_assoc|eauto]. }
  destruct O as (u & w & -> & O). rewrite O in E. destruct (spaces_good w) as (b3 & _ & Sb3). apply bind_good in E as (? & ? & E3 & E). apply expect_good in E3. rewrite E3 in Sb3. injection E as <- ->.
  exists (b ++ n ++ u ++ b3), n, p, v. split; auto. rewrite Sb, Sb3. now rewrite <- !app_assoc.
Qed.
Lemma prolog_good s d m r : prolog s = Good (d, m) r -> exists t, s = t ++ r /\ loose_prolog t m.
Proof.
  unfold prolog. intros E. apply bind_good in E as (d' & t & E1 & E).
  assert (D : exists w, s = w ++ t /\ (w = [] \/ exists u, w = text "<?xml" ++ u ++ text "?>")).
  { destruct (ahead (text "<?xml") s); [apply decl_good in E1 as (u & ->); eauto|]. injection E1 as _ ->. exists []. auto. }
  destruct D as (w & -> & D). apply bind_good in E as (k & t2 & E2 & E). apply miscs_good in E2 as (u & -> & L).
  destruct (parse_doctype t2) as [x t3| |] eqn:PD; [| |discriminate].
  - apply doctype_good in PD as (y & n & p & v & -> & ->). apply bind_good in E as (k' & t4 & E3 & E). apply miscs_good in E3 as (z & -> & L'). injection E as <- <- <-.
    exists (w ++ u ++ (text "<!DOCTYPE" ++ y ++ text ">") ++ z). split; [now rewrite <- !app_assoc|]. now constructor.
  - injection E as <- <- <-. exists (w ++ u). split; [now rewrite <- app_assoc|]. now constructor.
Qed.
Theorem parse_good ns s doc r : parse ns s = Good doc r ->
  exists pro t post x k k', s = pro ++ t ++ post ++ r /\ d_children doc = k ++ x :: k' /\ loose_prolog pro k /\ loose_misc post k' /\
    (loose_element ns [] t x \/ cut_tag ns t x /\ post ++ r = []).
Proof.
  unfold parse. intros E. apply bind_good in E as ([[[v e] a] m] & t & E1 & E). apply prolog_good in E1 as (pro & -> & LP).
  apply bind_good in E as (x & t2 & E2 & E). apply (elements_good ns) with (sc := []) in E2; [|apply agree_start].
  apply bind_good in E as (k & t3 & E3 & E). apply miscs_good in E3 as (post & -> & LM). injection E as <- ->.
  destruct E2 as [(u & -> & L)|(Z & n & l & b & u & q & a' & -> & -> & H1 & H2 & H3 & H4 & H5)].
  - exists pro, u, post, x, m, k. repeat split; auto.
  - exists pro, (text "<" ++ name_text n ++ b ++ u), post, (ELEMENT q a' []), m, k. rewrite Z, app_nil_r. repeat split; auto. right. split; auto. now apply (cut ns n l).
Qed.
