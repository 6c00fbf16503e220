(** The registry of LonghandModel.v meets what EngineSpec.v asks for; which declarations concern a property. *)
From Coq Require Import String List NArith ZArith QArith Bool.
From Verif.Base Require Import Str Outcome.
From Verif.Css Require Import LexerModel ParserModel.
From Verif.Values Require Import CalcModel LengthModel ColorProofs.
From Verif.Style Require Import CascadeModel CascadeSpec CascadeProofs.
From Verif.Props Require Import VarModel VarProofs EngineModel EngineSpec EngineProofs EngineProofs2 EngineProofs3 EngineProofs4
  BoxPropModel BoxPropSpec BoxPropProofs LonghandModel LonghandSpec.
Import ListNotations.
Local Open Scope list_scope.
Local Open Scope string_scope.

(** ** Keywords *)

Fixpoint pick {A} (l : list (string * A)) (k : string) : option A :=
  match l with
  | [] => None
  | (k', a) :: r => if str_eqb (of_string k) (map lower (of_string k')) then Some a else pick r k
  end.

Lemma ident_spells k k' s : spells k s -> is_ident k' s = str_eqb (of_string k) (map lower (of_string k')).
Proof.
  intros (d & -> & Hd). cbn [is_ident]. unfold token_eqb. cbn [t_type t_data ttype_beq andb].
  destruct (eq_ci d (of_string k')) eqn:E.
  - apply eq_ci_spec in E. symmetry. apply str_eqb_spec. unfold ColorSpec.same_letters in E. congruence.
  - destruct (str_eqb (of_string k) (map lower (of_string k'))) eqn:E2; [|reflexivity].
    apply str_eqb_spec in E2. assert (X : eq_ci d (of_string k') = true); [|congruence].
    apply eq_ci_spec. unfold ColorSpec.same_letters. congruence.
Qed.

Lemma kw_spells {A} (l : list (string * A)) k s r : spells k s ->
  parse_keyword l (s :: r) = match pick l k with Some a => (Some a, r) | None => (None, s :: r) end.
Proof.
  intros H. induction l as [|[k' a] l IH]; [reflexivity|]. cbn [parse_keyword pick]. rewrite (ident_spells _ k' _ H).
  destruct (str_eqb _ _); [reflexivity|exact IH].
Qed.

Lemma kw_end {A} (l : list (string * A)) : parse_keyword l [] = (None, []).
Proof. destruct l; reflexivity. Qed.

Lemma expand_spells k s e : spells k s -> expand_content e [s] = Some [s].
Proof. intros (d & -> & _). reflexivity. Qed.

Definition defaulting := ["initial"; "inherit"; "unset"; "revert"].
Lemma spells_plain k s r : spells k s -> existsb (fun x => str_eqb (of_string k) (map lower (of_string x))) defaulting = false -> starts_plain (s :: r).
Proof.
  intros H Hd. cbn [starts_plain]. split; [|split].
  - rewrite Forall_forall. intros x Hx. rewrite (ident_spells _ _ _ H). destruct (str_eqb _ _) eqn:E; [|reflexivity].
    assert (X : existsb (fun x => str_eqb (of_string k) (map lower (of_string x))) defaulting = true) by (apply existsb_exists; eauto). congruence.
  - intros n c E. destruct H as (d & -> & _). discriminate.
  - intros t E. destruct H as (d & -> & _). injection E as <-. discriminate.
Qed.

Lemma plain_start {V field} content : starts_plain content ->
  eat_wss content = content /\ parse_defaulted content = None /\ forall fuel (r : registration V field), parse_toggle fuel r content = Ok None.
Proof.
  destruct content as [|s content]; [contradiction|]. cbn [starts_plain]. intros (Hk & Hf & Hw).
  inversion Hk as [|? ? E1 Hk1]; subst. inversion Hk1 as [|? ? E2 Hk2]; subst. inversion Hk2 as [|? ? E3 Hk3]; subst. inversion Hk3 as [|? ? E4 _]; subst.
  split; [|split].
  - destruct s as [t| | | |]; try reflexivity. cbn [eat_wss]. destruct (ttype_beq (t_type t) WHITESPACE) eqn:E; [|reflexivity].
    exfalso. apply (Hw t eq_refl). now apply internal_ttype_dec_bl in E.
  - cbn [parse_defaulted]. now rewrite E1, E2, E3, E4.
  - intros fuel r. unfold parse_toggle. destruct s as [|n c| | |]; try reflexivity. now rewrite (Hf n c eq_refl).
Qed.

(** ** What shorthands set *)

Section Names.
Context {V field : Type}.
Lemma gather_in (l : list (registration V field * val V)) x : In x (gather l) -> exists v, In (fst x, v) l.
Proof.
  revert x. induction l as [|[r v] l IH]; cbn [gather]; intros x H; [contradiction|].
  destruct (existsb _ (gather l)).
  - apply in_map_iff in H as (y & <- & H). destruct (IH _ H) as (w & Hw).
    destruct (str_eqb _ _); cbn [fst]; exists w; now right.
  - destruct H as [<-|H]; [exists v; now left|]. destruct (IH _ H) as (w & Hw). exists w. now right.
Qed.

Lemma resolve_all_from (g : registry V field) l ps p : resolve_all g l = Ok ps -> In p ps ->
  exists r v n, p = Parsed r v /\ In (n, v) l /\ resolve g n = Some r.
Proof.
  revert ps. induction l as [|[n v] l IH]; cbn [resolve_all]; intros ps H Hin; [injection H as <-; contradiction|].
  destruct (resolve g n) as [r|] eqn:E; [|discriminate]. destruct (resolve_all g l) as [ps'| |]; try discriminate.
  cbn [obind] in H. injection H as <-. destruct Hin as [<-|Hin].
  - exists r, v, n. split; [reflexivity|]. split; [now left|exact E].
  - destruct (IH _ eq_refl Hin) as (r' & v' & n' & A & B & C). exists r', v', n'. split; [exact A|]. split; [now right|exact C].
Qed.

(** Every longhand of an expansion comes from a value of the shorthand. *)
Lemma ex_from (g : registry V field) parent child p x n q : ex g parent child p = Some x -> In (n, q) x ->
  exists r fn v k w reg, prop_reg p = Some r /\ r_short r = Some fn /\ In (k, w) (fn v) /\ resolve g k = Some reg /\ n = r_name reg.
Proof.
  unfold ex. destruct (is_short p) eqn:Es; [|discriminate]. destruct (expansion g p parent child) as [ps| |] eqn:Ee; try discriminate.
  intros H Hin. injection H as <-. apply in_map_iff in Hin as (y & E & Hin). injection E as <- <-.
  unfold is_short in Es. destruct (prop_reg p) as [r|] eqn:Er; [|discriminate]. destruct (r_short r) as [fn|] eqn:Ef; [|discriminate].
  assert (Hgo : forall v, resolve_all g (fn v) = Ok ps ->
     exists r0 fn0 v0 k w reg, Some r = Some r0 /\ r_short r0 = Some fn0 /\ In (k, w) (fn0 v0) /\ resolve g k = Some reg /\ prop_name y = r_name reg).
  { intros v H. destruct (resolve_all_from _ _ _ _ H Hin) as (r' & v' & k & -> & A & B).
    exists r, fn, v, k, v', r'. auto. }
  destruct p as [r1 v|r1 c|r1 d|r1 vs|n]; cbn [prop_reg] in Er; try discriminate; injection Er as ->; cbn [expansion] in Ee; rewrite ?Ef in Ee.
  - exact (Hgo _ Ee).
  - destruct (expand_property r c child) as [v|]; [exact (Hgo _ Ee)|]. injection Ee as <-. contradiction.
  - destruct (default_value r d parent) as [v| |]; cbn [obind] in Ee; try discriminate. exact (Hgo _ Ee).
  - destruct (resolve_all g (flat_map fn vs)) as [ps'| |] eqn:E; cbn [obind] in Ee; try discriminate. injection Ee as <-.
    apply in_map_iff in Hin as (z & <- & Hin). apply gather_in in Hin as (v & Hin). unfold parsed_pairs in Hin.
    apply in_flat_map in Hin as (p & Hp & Hin). destruct (resolve_all_from _ _ _ _ E Hp) as (r' & v' & k & -> & A & B).
    destruct Hin as [Hin|[]]. injection Hin as Hin _. apply in_flat_map in A as (u & _ & A).
    exists r, fn, u, k, v', r'. cbn [prop_name]. repeat split; auto. congruence.
Qed.

Lemma read_reg (g : registry V field) p : good g -> read g p -> made_by g p.
Proof.
  intros Hg (fuel & n & content & H) q Hq. unfold parse_value in H. destruct (resolve g n) as [r|] eqn:Er.
  2:{ injection H as <-. discriminate. }
  enough (E : q = r) by (subst; exact (resolve_self _ Hg _ _ Er)).
  destruct (parse_defaulted _); [injection H as <-; cbn in Hq; congruence|].
  destruct (parse_toggle _ _ _) as [[vs|]| |]; try discriminate; [injection H as <-; cbn in Hq; congruence|].
  destruct (r_parse r _) as [[v|] c']; [destruct (eat_wss c')|]; injection H as <-; cbn in Hq; congruence.
Qed.
End Names.

(** For facts about every registration. *)
Ltac to_forall := match goal with |- forall q, In q ?l -> @?Q q => apply (proj1 (Forall_forall Q l)); cbv beta end.
Ltac all_longs := cbv [g_props long_registry longhands alignments baselines flows sizes tables texts flexes lists app];
  repeat (apply Forall_cons; [|]); [..|apply Forall_nil].

Section Longhand.
Context {P F I : Type}
        (pP : list sst -> option P * list sst) (pF : list sst -> option F * list sst)
        (pI : list sst -> option I * list sst) (zero : P).
Variable V_eqb : @V P F I -> @V P F I -> bool.
Local Notation V := (@V P F I).
Local Notation G := (@long_registry P F I pP pF pI zero).
Local Notation matched := (matched V field).
Local Notation computed := (computed V field).
Local Notation registration := (registration V field).
Local Notation prop := (prop V field).
Local Notation compute_values := (compute_values V_eqb).
Local Notation longhands := (@longhands P F I pP pF pI zero).

Lemma of_string_inj a b : of_string a = of_string b -> a = b.
Proof.
  revert b. induction a as [|x a IH]; destruct b as [|y b]; cbn [of_string]; intros H; try discriminate; [reflexivity|].
  injection H as H1 H2. f_equal; [|auto]. apply (f_equal Ascii.ascii_of_N) in H1. now rewrite !Ascii.ascii_N_embedding in H1.
Qed.

Lemma long_names_ok : nodupb (map r_name (g_props G)) = true.
Proof. vm_compute. reflexivity. Qed.

(** What a registration looks like. *)
Inductive shape : registration -> Prop :=
| ShapeLong n inh i p : shape (longhand n inh i p)
| ShapeShort n i l p t : shape (short n i l p t).
Lemma long_shapes : Forall shape (g_props G).
Proof. all_longs; constructor. Qed.

Lemma long_good : good G.
Proof.
  split.
  - apply nodupb_NoDup. exact long_names_ok.
  - apply Forall_forall. all_longs; reflexivity.
  - intros n m H. cbn [g_alias long_registry lookup] in H.
    destruct (str_eqb _ n); [injection H as <-; reflexivity|]. destruct (str_eqb _ n); [injection H as <-; reflexivity|discriminate].
  - intros q Hq. pose proof long_shapes as Hs. rewrite Forall_forall in Hs. destruct (Hs q Hq); discriminate.
  - intros q v p c Hq. pose proof long_shapes as Hs. rewrite Forall_forall in Hs. destruct (Hs q Hq); reflexivity.
  - intros q p c Hq. pose proof long_shapes as Hs. rewrite Forall_forall in Hs. destruct (Hs q Hq); reflexivity.
Qed.

Lemma long_closed : closed G.
Proof.
  intros q fn v n w Hq. revert fn v n w. revert q Hq. to_forall.
  all_longs; intros fn v n w Hf Hin; try discriminate Hf; injection Hf as <-;
    (destruct v as [c|v]; [contradiction|]; apply in_map_iff in Hin as ([k u] & E & Hin); cbn [fst snd] in E; injection E as <- <-).
  - destruct v; try contradiction. destruct Hin as [E|[E|[]]]; injection E as <- <-; eexists; split; reflexivity.
  - destruct v; try contradiction. destruct Hin as [E|[E|[]]]; injection E as <- <-; eexists; split; reflexivity.
  - destruct v; try contradiction. destruct Hin as [E|[E|[E|[]]]]; injection E as <- <-; eexists; split; reflexivity.
  - destruct v; try contradiction. destruct Hin as [E|[E|[E|[]]]]; injection E as <- <-; eexists; split; reflexivity.
  - destruct v as [| | | | | | | | | | | | |a b c]; try contradiction. repeat apply in_app_or in Hin as [Hin|Hin];
      (destruct a as [a|], b as [b|], c as [c|]; cbn [given] in Hin; try contradiction; destruct Hin as [E|[]]; injection E as <- <-; eexists; split; reflexivity).
Qed.

Lemma set_same (c : computed) n v : c_get (set_field field_eqb c n v) n = v.
Proof. cbn [set_field c_get]. unfold field_eqb. now rewrite String.eqb_refl. Qed.
Lemma set_other (c : computed) n n' v : n' <> n -> c_get (set_field field_eqb c n v) n' = c_get c n'.
Proof. intros H. cbn [set_field c_get]. unfold field_eqb. now rewrite (proj2 (String.eqb_neq n' n) H). Qed.

Definition keep (v : val V) (_ : computed) : val V := v.

Lemma long_in q : In q longhands -> In q (g_props G).
Proof. intros H. cbn [g_props long_registry]. apply in_or_app. now left. Qed.

Lemma long_owns n inh i p : In (longhand n inh i p) longhands -> owns G [] (longhand n inh i p) n keep.
Proof.
  intros H. pose proof long_shapes as Hs. rewrite Forall_forall in Hs. split.
  - now apply long_in.
  - intros [].
  - reflexivity.
  - reflexivity.
  - intros v pa c. apply set_same.
  - intros _ pa c. apply set_same.
  - reflexivity.
  - intros q v pa c Hq Hn _. destruct (Hs q Hq) as [n' ? ? ?|]; [|reflexivity]. cbn [longhand r_apply]. apply set_other.
    intros <-. apply Hn. reflexivity.
  - intros q pa c _ [].
  - intros q pa c Hq Hi Hn. destruct (Hs q Hq) as [n' ? ? ?|]; [|reflexivity]. cbn [longhand r_inherit]. apply set_other.
    intros <-. apply Hn. reflexivity.
Qed.

Lemma long_resolve q : In q longhands -> resolve G (r_name q) = Some q.
Proof. intros H. apply (resolve_registered _ long_good). now apply long_in. Qed.

(** ** Which declarations concern a property *)

Lemma short_sets q fn v k w : In q (g_props G) -> r_short q = Some fn -> In (k, w) (fn v) ->
  exists n, k = of_string n /\ among (r_name q) (shorthands_of n).
Proof.
  intros Hq. revert fn v k w. revert q Hq. to_forall.
  all_longs; intros fn v n w Hf Hin; try discriminate Hf; injection Hf as <-;
    (destruct v as [c|v]; [contradiction|]; apply in_map_iff in Hin as ([k u] & E & Hin); cbn [fst snd] in E; injection E as <- <-; exists k; split; [reflexivity|]).
  - destruct v; try contradiction. destruct Hin as [E|[E|[]]]; injection E as <- <-; now left.
  - destruct v; try contradiction. destruct Hin as [E|[E|[]]]; injection E as <- <-; now left.
  - destruct v; try contradiction. destruct Hin as [E|[E|[E|[]]]]; injection E as <- <-; now left.
  - destruct v; try contradiction. destruct Hin as [E|[E|[E|[]]]]; injection E as <- <-; now left.
  - destruct v as [| | | | | | | | | | | | |a b c]; try contradiction. repeat apply in_app_or in Hin as [Hin|Hin];
      (destruct a as [a|], b as [b|], c as [c|]; cbn [given] in Hin; try contradiction; destruct Hin as [E|[]]; injection E as <- <-; now left).
Qed.

Lemma short_reg q : resolve G (r_name q) = Some q -> r_short q <> None -> In q (g_props G).
Proof. intros H Hs. destruct (resolve_cases _ _ _ H) as [Hi|(m & ->)]; [exact Hi|]. now contradiction Hs. Qed.

Lemma alias_free n : In n (map r_name longhands) -> forall r, resolve G n = Some r -> r_name r = n.
Proof.
  intros Hn r Hr. apply in_map_iff in Hn as (q & <- & Hq). rewrite (long_resolve _ Hq) in Hr. now injection Hr as <-.
Qed.

Lemma short_names q fn v k w : In q (g_props G) -> r_short q = Some fn -> In (k, w) (fn v) -> In k (map r_name longhands).
Proof.
  intros Hq. revert fn v k w. revert q Hq. to_forall.
  assert (B : forall k, existsb (str_eqb (of_string k)) (map r_name longhands) = true -> In (of_string k) (map r_name longhands)).
  { intros k H. apply existsb_exists in H as (x & Hx & E). apply str_eqb_spec in E. now subst. }
  all_longs; intros fn v n w Hf Hin; try discriminate Hf; injection Hf as <-;
    (destruct v as [c|v]; [contradiction|]; apply in_map_iff in Hin as ([k u] & E & Hin); cbn [fst snd] in E; injection E as <- <-; apply B).
  - destruct v; try contradiction. destruct Hin as [E|[E|[]]]; injection E as <- <-; vm_compute; reflexivity.
  - destruct v; try contradiction. destruct Hin as [E|[E|[]]]; injection E as <- <-; vm_compute; reflexivity.
  - destruct v; try contradiction. destruct Hin as [E|[E|[E|[]]]]; injection E as <- <-; vm_compute; reflexivity.
  - destruct v; try contradiction. destruct Hin as [E|[E|[E|[]]]]; injection E as <- <-; vm_compute; reflexivity.
  - destruct v as [| | | | | | | | | | | | |a b c]; try contradiction. repeat apply in_app_or in Hin as [Hin|Hin];
      (destruct a as [a|], b as [b|], c as [c|]; cbn [given] in Hin; try contradiction; destruct Hin as [E|[]]; injection E as <- <-; vm_compute; reflexivity).
Qed.

Lemma concerns_name parent child n (m : matched) : made_by G (m_prop m) ->
  concerns G parent child (of_string n) m -> among (name m) (n :: shorthands_of n).
Proof.
  intros Hm [Hb [H|(x & Hx & Hin)]]; [now left|]. right.
  apply in_map_iff in Hin as ([k q] & E & Hin). cbn [fst] in E. subst k.
  destruct (ex_from _ _ _ _ _ _ _ Hx Hin) as (r & fn & v & k & w & reg & Hr & Hf & Hk & Hreg & Hn).
  assert (Hq : In r (g_props G)) by (apply short_reg; [exact (Hm r Hr)|congruence]).
  destruct (short_sets _ _ _ _ _ Hq Hf Hk) as (n' & -> & Ha).
  pose proof (alias_free _ (short_names _ _ _ _ _ Hq Hf Hk) _ Hreg) as E. rewrite E in Hn. apply of_string_inj in Hn. subst n'.
  unfold name. destruct (m_prop m); cbn [prop_reg prop_name] in *; try discriminate; injection Hr as ->; exact Ha.
Qed.

Lemma sheet_made ms : from_sheet pP pF pI zero ms -> Forall (fun m : matched => made_by G (m_prop m)) ms.
Proof. apply Forall_impl. intros m. apply read_reg. exact long_good. Qed.

(** ** The declaration that counts *)

Lemma long_counts blank parent c l1 m l2 n inh i p : In (longhand n inh i p) longhands ->
  from_sheet pP pF pI zero (l1 ++ m :: l2) -> compute_values G blank parent (l1 ++ m :: l2) = Ok c ->
  is_bogus (m_prop m) = false -> name m = of_string n -> counts n l1 m l2 ->
  Some (c_get c n) = used V_eqb (longhand n inh i p) n keep (m_prop m) parent c.
Proof.
  intros Hin Hs Hc Hb Hn [H1 H2]. pose proof (sheet_made _ Hs) as Hms.
  assert (Hr : forall m', In m' (l1 ++ m :: l2) -> rival G (longhand n inh i p) parent c m m' -> among (name m') (n :: shorthands_of n)).
  { intros m' Hm' [Hx|[_ Hx]].
    - rewrite Forall_forall in Hms. exact (concerns_name _ _ _ _ (Hms m' Hm') Hx).
    - rewrite Hx, Hn. now left. }
  rewrite Forall_forall in H1, H2.
  eapply (compute_decisive V_eqb G long_good _ n keep (long_owns n inh i p Hin) blank parent c l1 m l2).
  - exact Hms.
  - exact Hc.
  - exact Hb.
  - left. split; [exact Hn|reflexivity].
  - intros m' Hm' Hx. apply H1; [exact Hm'|]. apply Hr; [apply in_or_app; now left|exact Hx].
  - intros m' Hm' Hx. apply H2; [exact Hm'|]. apply Hr; [apply in_or_app; right; now right|exact Hx].
Qed.

Lemma short_counts blank parent c l1 m l2 n inh i p x q : In (longhand n inh i p) longhands ->
  from_sheet pP pF pI zero (l1 ++ m :: l2) -> compute_values G blank parent (l1 ++ m :: l2) = Ok c ->
  is_bogus (m_prop m) = false -> among (name m) (shorthands_of n) -> counts n l1 m l2 ->
  ex G parent c (m_prop m) = Some x -> In (of_string n, q) x -> (forall q', In (of_string n, q') x -> q' = q) ->
  Some (c_get c n) = used V_eqb (longhand n inh i p) n keep q parent c.
Proof.
  intros Hin Hs Hc Hb Hn [H1 H2] Hx Hq Hu. pose proof (sheet_made _ Hs) as Hms.
  assert (Hr : forall m', In m' (l1 ++ m :: l2) -> rival G (longhand n inh i p) parent c m m' -> among (name m') (n :: shorthands_of n)).
  { intros m' Hm' [Hy|[_ Hy]].
    - rewrite Forall_forall in Hms. exact (concerns_name _ _ _ _ (Hms m' Hm') Hy).
    - rewrite Hy. now right. }
  rewrite Forall_forall in H1, H2.
  eapply (compute_decisive V_eqb G long_good _ n keep (long_owns n inh i p Hin) blank parent c l1 m l2).
  - exact Hms.
  - exact Hc.
  - exact Hb.
  - right. exists x. auto.
  - intros m' Hm' Hy. apply H1; [exact Hm'|]. apply Hr; [apply in_or_app; now left|exact Hy].
  - intros m' Hm' Hy. apply H2; [exact Hm'|]. apply Hr; [apply in_or_app; right; now right|exact Hy].
Qed.

Lemma long_silent blank parent c ms n inh i p : In (longhand n inh i p) longhands ->
  from_sheet pP pF pI zero ms -> compute_values G blank parent ms = Ok c -> silent n ms ->
  c_get c n = if inh then c_get parent n else Value i.
Proof.
  intros Hin Hs Hc Hn. pose proof (sheet_made _ Hs) as Hms.
  pose proof (compute_undeclared V_eqb G long_good [] (longhand n inh i p) n keep (long_owns n inh i p Hin) blank parent ms c Hms Hc) as H.
  rewrite H; [reflexivity|]. unfold silent in Hn. rewrite Forall_forall in *. intros m Hm. split; [|intros k []].
  intros Hx. apply (Hn m Hm). exact (concerns_name _ _ _ _ (Hms m Hm) Hx).
Qed.

(** ** Reading *)

Lemma read_plain fuel n r content v : resolve G n = Some r -> starts_plain content -> r_parse r content = (Some v, []) ->
  parse_value fuel G n content = Ok (Parsed r v).
Proof.
  intros Hr Hp Hv. destruct (@plain_start V field _ Hp) as (E1 & E2 & E3). unfold parse_value. now rewrite Hr, E1, E2, E3, Hv.
Qed.

Lemma read_deferred fuel n r content : resolve G n = Some r -> starts_plain content ->
  (forall v, r_parse r content <> (Some v, [])) ->
  (forall v c', r_parse r content = (Some v, c') -> eat_wss c' <> []) ->
  parse_value fuel G n content = Ok (Deferred r content).
Proof.
  intros Hr Hp Hv Hl. destruct (@plain_start V field _ Hp) as (E1 & E2 & E3). unfold parse_value. rewrite Hr, E1, E2, E3.
  destruct (r_parse r content) as [[v|] c'] eqn:E; [|reflexivity].
  specialize (Hl v c' eq_refl). destruct (eat_wss c'); [contradiction|reflexivity].
Qed.

(** A longhand whose value is read as a whole. *)
Lemma long_value blank parent c l1 m l2 n inh i p content v : In (longhand n inh i p) longhands ->
  from_sheet pP pF pI zero (l1 ++ m :: l2) -> compute_values G blank parent (l1 ++ m :: l2) = Ok c ->
  declares pP pF pI zero n content m -> counts n l1 m l2 ->
  starts_plain content -> p content = (Some v, []) -> c_get c n = Value v.
Proof.
  intros Hin Hs Hc (fuel & Hd) Hn Hp Hv.
  pose proof (long_resolve _ Hin) as Hr. cbn [longhand r_name] in Hr.
  rewrite (read_plain fuel _ _ content (Value v) Hr Hp) in Hd; [|cbn [longhand r_parse]; unfold as_, map_fst; now rewrite Hv].
  injection Hd as Hd.
  pose proof (long_counts blank parent c l1 m l2 n inh i p Hin Hs Hc) as H. unfold name in H. rewrite <- Hd in H.
  specialize (H eq_refl eq_refl Hn). cbn [used keep] in H. now injection H.
Qed.

(** One whose value cannot be read, or only in part. *)
Lemma long_deferred blank parent c l1 m l2 n inh i p content : In (longhand n inh i p) longhands ->
  from_sheet pP pF pI zero (l1 ++ m :: l2) -> compute_values G blank parent (l1 ++ m :: l2) = Ok c ->
  declares pP pF pI zero n content m -> counts n l1 m l2 ->
  starts_plain content -> (forall e, expand_content e content = Some content) ->
  (forall v c', p content = (Some v, c') -> eat_wss c' <> []) ->
  c_get c n = match fst (p content) with Some v => Value v | None => if inh then c_get parent n else Value i end.
Proof.
  intros Hin Hs Hc (fuel & Hd) Hn Hp He Hv.
  pose proof (long_resolve _ Hin) as Hr. cbn [longhand r_name] in Hr.
  rewrite (read_deferred fuel _ _ content Hr Hp) in Hd.
  - injection Hd as Hd.
    pose proof (long_counts blank parent c l1 m l2 n inh i p Hin Hs Hc) as H. unfold name in H. rewrite <- Hd in H.
    specialize (H eq_refl eq_refl Hn). cbn [used keep] in H. rewrite He in H. destruct (@plain_start V field _ Hp) as (E1 & _). rewrite E1 in H.
    cbn [longhand r_parse] in H. unfold as_, map_fst in H. cbn [fst] in H. destruct (fst (p content)); cbn [option_map] in H; now injection H.
  - intros v. cbn [longhand r_parse]. unfold as_, map_fst. destruct (p content) as [[u|] c'] eqn:E; [|discriminate].
    cbn [fst snd option_map]. intros X. injection X as _ ->. exact (Hv u [] eq_refl eq_refl).
  - intros v c'. cbn [longhand r_parse]. unfold as_, map_fst. destruct (p content) as [[u|] c1] eqn:E; [|discriminate].
    cbn [fst snd option_map]. intros X. injection X as _ <-. exact (Hv u c1 eq_refl).
Qed.

End Longhand.
