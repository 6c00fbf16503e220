(** The registry of the font properties, and which declarations set them. *)
From Coq Require Import String List NArith ZArith QArith Bool Lia.
From Verif.Base Require Import Str Outcome.
From Verif.Css Require Import LexerModel ParserModel.
From Verif.Values Require Import CalcModel Number LengthModel LengthSpec LengthProps ColorModel ColorProofs.
From Verif.Style Require Import CascadeModel CascadeSpec CascadeProofs.
From Verif.Props Require Import VarModel VarProofs EngineModel EngineSpec EngineProofs EngineProofs2 EngineProofs3 EngineProofs4
  BoxPropModel BoxPropSpec BoxPropProofs LonghandModel LonghandSpec LonghandProofs.
From Verif.Font Require Import FontModel FontSpec.
Import ListNotations.
Local Open Scope list_scope.
Local Open Scope string_scope.

Section Fonts.
Context {Face : Type}
        (lighter bolder : Z -> Z) (rnd : Q -> Q)
        (query : str -> Z * Z * string -> option Face) (system : option Face) (fallback : Face)
        (stretch : Q -> Z) (metrics_of : Face -> Q -> metrics) (base : ctx) (V_eqb : V -> V -> bool).
Local Notation G := (font_registry lighter bolder rnd query system fallback stretch metrics_of base).
Local Notation longs := (font_longs lighter bolder rnd query system fallback stretch metrics_of base).
Local Notation font_long := (font_long lighter bolder rnd query system fallback stretch metrics_of base).
Local Notation compute := (compute lighter bolder rnd query system fallback stretch metrics_of base).
Local Notation compute_val := (compute_val lighter bolder rnd query system fallback stretch metrics_of base).
Local Notation matched := (matched V field).
Local Notation prop := (prop V field).
Local Notation compute_values := (compute_values V_eqb).
Local Notation declares := (declares lighter bolder rnd query system fallback stretch metrics_of base).
Local Notation from_sheet := (from_sheet lighter bolder rnd query system fallback stretch metrics_of base).
Local Notation counted := (counted lighter bolder rnd query system fallback stretch metrics_of base V_eqb).

Lemma names_ok : nodupb (map r_name (g_props G)) = true.
Proof. vm_compute. reflexivity. Qed.

Inductive shape : registration -> Prop :=
| ShapeLong n i p : shape (font_long n i p)
| ShapeShort : shape font_short
| ShapeLine : shape line_height.
Lemma shapes : Forall shape (g_props G).
Proof. repeat (apply Forall_cons; [constructor|]). apply Forall_nil. Qed.

Lemma font_good : good G.
Proof.
  pose proof shapes as Hs. rewrite Forall_forall in Hs. split.
  - apply nodupb_NoDup. exact names_ok.
  - apply Forall_forall. repeat (apply Forall_cons; [reflexivity|]). apply Forall_nil.
  - intros n m H. cbn [g_alias font_registry lookup] in H. destruct (str_eqb _ n); [injection H as <-; reflexivity|discriminate].
  - intros q Hq. destruct (Hs q Hq); discriminate.
  - intros q v p c Hq. destruct (Hs q Hq); reflexivity.
  - intros q p c Hq. destruct (Hs q Hq); reflexivity.
Qed.

Lemma fset_same (c : computed) n v : c_get (set_field field_eqb c n v) n = v.
Proof. cbn [set_field c_get]. unfold field_eqb. now rewrite String.eqb_refl. Qed.
Lemma fset_other (c : computed) n n' v : n' <> n -> c_get (set_field field_eqb c n v) n' = c_get c n'.
Proof. intros H. cbn [set_field c_get]. unfold field_eqb. now rewrite (proj2 (String.eqb_neq n' n) H). Qed.

Lemma font_in q : In q longs -> In q (g_props G).
Proof. intros H. cbn [g_props font_registry]. apply in_or_app. now left. Qed.

Lemma initial_fixed q : In q longs -> forall p p', compute_val (r_initial q) p = compute_val (r_initial q) p'.
Proof.
  revert q. to_forall. repeat (apply Forall_cons; [reflexivity|]). apply Forall_nil.
Qed.

Lemma font_owns n i p : In (font_long n i p) longs -> owns G [] (font_long n i p) n compute_val.
Proof.
  intros H. pose proof shapes as Hs. rewrite Forall_forall in Hs. split.
  - now apply font_in.
  - intros [].
  - reflexivity.
  - reflexivity.
  - intros v pa c. apply fset_same.
  - intros _ pa c. apply fset_same.
  - exact (initial_fixed _ H).
  - intros q v pa c Hq Hn _. destruct (Hs q Hq) as [n' ? ?| |]; [|reflexivity|reflexivity]. cbn [FontModel.font_long r_apply]. apply fset_other.
    intros <-. apply Hn. reflexivity.
  - intros q pa c _ [].
  - intros q pa c Hq Hi Hn. destruct (Hs q Hq) as [n' ? ?| |]; [|reflexivity|reflexivity]. cbn [FontModel.font_long r_inherit]. apply fset_other.
    intros <-. apply Hn. reflexivity.
Qed.

Lemma font_resolve q : In q (g_props G) -> resolve G (r_name q) = Some q.
Proof. apply (resolve_registered _ font_good). Qed.

Lemma parts_in v k w : In (k, w) (font_parts v) -> exists n, k = of_string n /\ In n font_names.
Proof.
  destruct v as [c|v]; [contradiction|]. destruct v; try contradiction. cbn [font_parts]. intros H. apply in_app_or in H as [H|H].
  - destruct H as [E|[E|[E|[E|[]]]]]; injection E as <- <-;
      [exists "font-style"|exists "font-width"|exists "font-size"|exists "font-family"]; (split; [reflexivity|]); cbn; tauto.
  - destruct weight as [w'|]; [|contradiction]. destruct H as [E|[]]; injection E as <- <-. exists "font-weight"; split; [reflexivity|]. cbn; tauto.
Qed.

Lemma long_named n : In n font_names -> exists i p, In (font_long n i p) longs.
Proof.
  intros H. cbn in H. destruct H as [<-|[<-|[<-|[<-|[<-|[]]]]]]; do 2 eexists; cbn [font_longs In]; tauto.
Qed.

Lemma short_is q fn : In q (g_props G) -> r_short q = Some fn -> q = font_short.
Proof.
  intros Hq. pose proof shapes as Hs. rewrite Forall_forall in Hs. destruct (Hs q Hq); [discriminate|reflexivity|discriminate].
Qed.

Lemma concerns_name parent child n (m : matched) : made_by G (m_prop m) ->
  concerns G parent child (of_string n) m -> among (name m) (related n).
Proof.
  intros Hm [Hb [H|(x & Hx & Hin)]]; [now left|].
  apply in_map_iff in Hin as ([k q] & E & Hin). cbn [fst] in E. subst k.
  destruct (ex_from _ _ _ _ _ _ _ Hx Hin) as (r & fn & v & k & w & reg & Hr & Hf & Hk & Hreg & Hn).
  assert (Hq : In r (g_props G)).
  { destruct (resolve_cases _ _ _ (Hm r Hr)) as [Hi|(m' & ->)]; [exact Hi|discriminate]. }
  pose proof (short_is _ _ Hq Hf) as ->. injection Hf as <-. destruct (parts_in _ _ _ Hk) as (n' & -> & Hn').
  destruct (long_named _ Hn') as (i & p & Hl). pose proof (font_resolve _ (font_in _ Hl)) as E. cbn [FontModel.font_long r_name] in E.
  rewrite E in Hreg. injection Hreg as <-. cbn [FontModel.font_long r_name] in Hn. apply of_string_inj in Hn. subst n'.
  unfold related. assert (existsb (String.eqb n) font_names = true) as -> by (apply existsb_exists; exists n; split; [exact Hn'|apply String.eqb_refl]).
  right. left. unfold name. destruct (m_prop m); cbn [prop_reg prop_name] in *; try discriminate; injection Hr as ->; reflexivity.
Qed.

Lemma sheet_made ms : from_sheet ms -> Forall (fun m : matched => made_by G (m_prop m)) ms.
Proof. apply Forall_impl. intros m. apply read_reg. exact font_good. Qed.

Lemma font_counts blank parent c l1 m l2 n i p : In (font_long n i p) longs ->
  from_sheet (l1 ++ m :: l2) -> compute_values G blank parent (l1 ++ m :: l2) = Ok c ->
  is_bogus (m_prop m) = false -> name m = of_string n -> counts n l1 m l2 ->
  Some (c_get c n) = used V_eqb (font_long n i p) n compute_val (m_prop m) parent c.
Proof.
  intros Hin Hs Hc Hb Hn [H1 H2]. pose proof (sheet_made _ Hs) as Hms.
  assert (Hr : forall m', In m' (l1 ++ m :: l2) -> rival G (font_long n i p) parent c m m' -> among (name m') (related n)).
  { intros m' Hm' [Hx|[_ Hx]].
    - rewrite Forall_forall in Hms. exact (concerns_name _ _ _ _ (Hms m' Hm') Hx).
    - rewrite Hx, Hn. now left. }
  rewrite Forall_forall in H1, H2.
  eapply (compute_decisive V_eqb G font_good _ n compute_val (font_owns n i p Hin) blank parent c l1 m l2).
  - exact Hms.
  - exact Hc.
  - exact Hb.
  - left. split; [exact Hn|reflexivity].
  - intros m' Hm' Hx. apply H1; [exact Hm'|]. apply Hr; [apply in_or_app; now left|exact Hx].
  - intros m' Hm' Hx. apply H2; [exact Hm'|]. apply Hr; [apply in_or_app; right; now right|exact Hx].
Qed.

Lemma font_short_counts blank parent c l1 m l2 n i p x q : In (font_long n i p) longs ->
  from_sheet (l1 ++ m :: l2) -> compute_values G blank parent (l1 ++ m :: l2) = Ok c ->
  is_bogus (m_prop m) = false -> name m = of_string "font" -> In n font_names -> counts n l1 m l2 ->
  ex G parent c (m_prop m) = Some x -> In (of_string n, q) x -> (forall q', In (of_string n, q') x -> q' = q) ->
  Some (c_get c n) = used V_eqb (font_long n i p) n compute_val q parent c.
Proof.
  intros Hin Hs Hc Hb Hn Hf [H1 H2] Hx Hq Hu. pose proof (sheet_made _ Hs) as Hms.
  assert (Hrel : among (of_string "font") (related n)).
  { unfold related. assert (existsb (String.eqb n) font_names = true) as -> by (apply existsb_exists; exists n; split; [exact Hf|apply String.eqb_refl]).
    right. now left. }
  assert (Hr : forall m', In m' (l1 ++ m :: l2) -> rival G (font_long n i p) parent c m m' -> among (name m') (related n)).
  { intros m' Hm' [Hy|[_ Hy]].
    - rewrite Forall_forall in Hms. exact (concerns_name _ _ _ _ (Hms m' Hm') Hy).
    - rewrite Hy, Hn. exact Hrel. }
  rewrite Forall_forall in H1, H2.
  eapply (compute_decisive V_eqb G font_good _ n compute_val (font_owns n i p Hin) blank parent c l1 m l2).
  - exact Hms.
  - exact Hc.
  - exact Hb.
  - right. exists x. auto.
  - intros m' Hm' Hy. apply H1; [exact Hm'|]. apply Hr; [apply in_or_app; now left|exact Hy].
  - intros m' Hm' Hy. apply H2; [exact Hm'|]. apply Hr; [apply in_or_app; right; now right|exact Hy].
Qed.

Lemma font_silent blank parent c ms n : In n font_names ->
  from_sheet ms -> compute_values G blank parent ms = Ok c -> silent n ms -> c_get c n = c_get parent n.
Proof.
  intros Hf Hs Hc Hn. destruct (long_named _ Hf) as (i & p & Hin). pose proof (sheet_made _ Hs) as Hms.
  pose proof (compute_undeclared V_eqb G font_good [] (font_long n i p) n compute_val (font_owns n i p Hin) blank parent ms c Hms Hc) as H.
  rewrite H; [reflexivity|]. unfold silent in Hn. rewrite Forall_forall in *. intros m Hm. split; [|intros k []].
  intros Hx. apply (Hn m Hm). exact (concerns_name _ _ _ _ (Hms m Hm) Hx).
Qed.

Lemma read_plain fuel n r content v : resolve G n = Some r -> starts_plain content -> r_parse r content = (Some v, []) ->
  parse_value fuel G n content = Ok (Parsed r v).
Proof.
  intros Hr Hp Hv. destruct (@plain_start V field _ Hp) as (E1 & E2 & E3). unfold parse_value. now rewrite Hr, E1, E2, E3, Hv.
Qed.

Lemma read_deferred fuel n r content : resolve G n = Some r -> starts_plain content ->
  (forall v c', r_parse r content = (Some v, c') -> eat_wss c' <> []) ->
  parse_value fuel G n content = Ok (Deferred r content).
Proof.
  intros Hr Hp Hl. destruct (@plain_start V field _ Hp) as (E1 & E2 & E3). unfold parse_value. rewrite Hr, E1, E2, E3.
  destruct (r_parse r content) as [[v|] c'] eqn:E; [|reflexivity].
  specialize (Hl v c' eq_refl). destruct (eat_wss c'); [contradiction|reflexivity].
Qed.

Lemma as_parse {A} (f : A -> val V) (p : list sst -> option A * list sst) c v r : p c = (Some v, r) -> as_ f p c = (Some (f v), r).
Proof. intros H. unfold as_, map_fst. now rewrite H. Qed.

(** A longhand whose value is read as a whole; [n'] is its name or its alias. *)
Lemma font_value n n' i p content v parent c : In (font_long n i p) longs ->
  resolve G (of_string n') = Some (font_long n i p) -> counted n n' content parent c ->
  starts_plain content -> p content = (Some v, []) -> c_get c n = Value (compute v parent).
Proof.
  intros Hin Hr (blank & l1 & m & l2 & Hs & Hc & (fuel & Hd) & Hn) Hp Hv.
  rewrite (read_plain fuel _ _ content (Value v) Hr Hp) in Hd; [|cbn [FontModel.font_long r_parse]; now apply as_parse].
  injection Hd as Hd.
  pose proof (font_counts blank parent c l1 m l2 n i p Hin Hs Hc) as H. unfold name in H. rewrite <- Hd in H.
  specialize (H eq_refl eq_refl Hn). cbn [used FontModel.compute_val] in H. now injection H.
Qed.

(** One whose value cannot be read, or only in part. *)
Lemma font_deferred n i p content parent c : In (font_long n i p) longs -> counted n n content parent c ->
  starts_plain content -> (forall e, expand_content e content = Some content) ->
  (forall v c', p content = (Some v, c') -> eat_wss c' <> []) ->
  c_get c n = match fst (p content) with Some v => Value (compute v parent) | None => c_get parent n end.
Proof.
  intros Hin (blank & l1 & m & l2 & Hs & Hc & (fuel & Hd) & Hn) Hp He Hv.
  pose proof (font_resolve _ (font_in _ Hin)) as Hr. cbn [FontModel.font_long r_name] in Hr.
  rewrite (read_deferred fuel _ _ content Hr Hp) in Hd.
  - injection Hd as Hd.
    pose proof (font_counts blank parent c l1 m l2 n i p Hin Hs Hc) as H. unfold name in H. rewrite <- Hd in H.
    specialize (H eq_refl eq_refl Hn). cbn [used] in H. rewrite He in H. destruct (@plain_start V field _ Hp) as (E1 & _). rewrite E1 in H.
    cbn [FontModel.font_long r_parse] in H. unfold as_, map_fst in H. cbn [fst] in H. destruct (fst (p content)); cbn [option_map] in H; now injection H.
  - intros v c'. cbn [FontModel.font_long r_parse]. unfold as_, map_fst. destruct (p content) as [[u|] c1] eqn:E; [|discriminate].
    cbn [fst snd option_map]. intros X. injection X as _ <-. exact (Hv u c1 eq_refl).
Qed.

(** The shorthand, when its value is read as a whole. *)
Lemma font_expands v parent c : exists x, ex G parent c (Parsed font_short (Value v)) = Some x /\
  (forall k u, In (of_string k, Value u) (font_parts (Value v)) -> forall i p, In (font_long k i p) longs ->
     In (of_string k, Parsed (font_long k i p) (Value u)) x) /\
  (forall k q, In (of_string k, q) x -> exists u i p, In (of_string k, Value u) (font_parts (Value v)) /\
     In (font_long k i p) longs /\ q = Parsed (font_long k i p) (Value u)).
Proof.
  assert (H : forall l, (forall k w, In (k, w) l -> exists n u, k = of_string n /\ w = Value u /\ In n font_names) ->
    exists ps, resolve_all G l = Ok ps /\
    (forall k u i p, In (of_string k, Value u) l -> In (font_long k i p) longs -> In (Parsed (font_long k i p) (Value u)) ps) /\
    (forall q, In q ps -> exists k u i p, In (of_string k, Value u) l /\ In (font_long k i p) longs /\ q = Parsed (font_long k i p) (Value u))).
  { induction l as [|[k w] l IH]; intros Hl.
    - exists []. split; [reflexivity|]. split; [intros ? ? ? ? []|intros q []].
    - destruct (Hl k w) as (n & u & -> & -> & Hn); [now left|]. destruct (long_named _ Hn) as (i & p & Hin).
      destruct IH as (ps & E & A & B); [intros k' w' X; apply Hl; now right|].
      pose proof (font_resolve _ (font_in _ Hin)) as Hr. cbn [FontModel.font_long r_name] in Hr.
      exists (Parsed (font_long n i p) (Value u) :: ps). cbn [resolve_all]. rewrite Hr, E. cbn [obind]. split; [reflexivity|]. split.
      + intros k' u' i' p' [X|Hk] Hin'.
        * injection X as X <-. apply of_string_inj in X. subst k'. left.
          pose proof (font_resolve _ (font_in _ Hin')) as Hr'. cbn [FontModel.font_long r_name] in Hr'. rewrite Hr in Hr'. injection Hr' as X1. unfold FontModel.font_long. congruence.
        * right. now apply A.
      + intros q [<-|Hq]; [exists n, u, i, p; split; [now left|auto]|]. destruct (B q Hq) as (k' & u' & i' & p' & X & Y & Z).
        exists k', u', i', p'. split; [now right|auto]. }
  destruct (H (font_parts (Value v))) as (ps & E & A & B).
  { intros k w Hk. destruct (parts_in _ _ _ Hk) as (n & -> & Hn). exists n.
    destruct v; try contradiction. cbn [font_parts] in Hk. apply in_app_or in Hk as [Hk|Hk].
    - destruct Hk as [X|[X|[X|[X|[]]]]]; injection X as _ <-; eauto.
    - destruct weight; [|contradiction]. destruct Hk as [X|[]]. injection X as _ <-. eauto. }
  exists (map (fun p => (prop_name p, p)) ps). split; [|split].
  - unfold ex. cbn [is_short prop_reg font_short r_short expansion]. now rewrite E.
  - intros k u Hk i p Hin. specialize (A _ _ _ _ Hk Hin). apply in_map_iff. eexists. split; [|exact A]. reflexivity.
  - intros k q Hq. apply in_map_iff in Hq as (q' & X & Hq). destruct (B _ Hq) as (k' & u' & i' & p' & Y & Z & ->).
    injection X as X <-. apply of_string_inj in X. subst k'. exists u', i', p'. auto.
Qed.

Lemma parts_once v k u u' : In (of_string k, u) (font_parts v) -> In (of_string k, u') (font_parts v) -> u = u'.
Proof.
  destruct v as [c|v]; [contradiction|]. destruct v as [| | | | | | | | | |f w d s z]; try contradiction. cbn [font_parts].
  intros H H'. apply in_app_or in H, H'.
  destruct w as [w|]; (destruct H as [[E|[E|[E|[E|[]]]]]|H], H' as [[E'|[E'|[E'|[E'|[]]]]]|H'];
    try contradiction; try (destruct H as [E|[]]); try (destruct H' as [E'|[]]);
    try (injection E as E1 <-); try (injection E' as E2 <-); try reflexivity; rewrite <- E1 in E2; discriminate).
Qed.

Lemma same_long k i p i' p' : In (font_long k i p) longs -> In (font_long k i' p') longs -> font_long k i p = font_long k i' p'.
Proof.
  intros H H'. pose proof (font_resolve _ (font_in _ H)) as E. pose proof (font_resolve _ (font_in _ H')) as E'.
  cbn [FontModel.font_long r_name] in E, E'. unfold FontModel.font_long in *. congruence.
Qed.

Lemma font_short_resolve : resolve G (of_string "font") = Some font_short.
Proof. apply (font_resolve font_short). cbn [g_props font_registry]. apply in_or_app. right. now left. Qed.

Lemma short_value content v k u parent c : counted k "font" content parent c -> starts_plain content ->
  parse_font content = (Some v, []) -> In (of_string k, Value u) (font_parts (Value v)) -> c_get c k = Value (compute u parent).
Proof.
  intros (blank & l1 & m & l2 & Hs & Hc & (fuel & Hd) & Hn) Hp Hv Hk.
  rewrite (read_plain fuel _ _ content (Value v) font_short_resolve Hp) in Hd; [|cbn [font_short r_parse]; now apply as_parse].
  injection Hd as Hd. destruct (font_expands v parent c) as (x & Hx & A & B).
  destruct (parts_in _ _ _ Hk) as (n & E & Hf). apply of_string_inj in E. subst n.
  destruct (long_named _ Hf) as (i & p & Hin).
  pose proof (font_short_counts blank parent c l1 m l2 k i p x (Parsed (font_long k i p) (Value u)) Hin Hs Hc) as H.
  unfold name in H. rewrite <- Hd in H. specialize (H eq_refl eq_refl Hf Hn Hx (A _ _ Hk _ _ Hin)).
  cbn [used FontModel.compute_val] in H. injection H; [auto|].
  intros q' Hq'. destruct (B _ _ Hq') as (u' & i' & p' & X & Y & ->).
  rewrite (same_long _ _ _ _ _ Y Hin). pose proof (parts_once _ _ _ _ Hk X) as E. injection E as <-. reflexivity.
Qed.
End Fonts.
