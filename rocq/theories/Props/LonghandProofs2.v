(** What the parsers of LonghandModel.v make of keywords, and what shorthands set. *)
From Coq Require Import String List NArith ZArith QArith Bool Lia.
From Verif.Base Require Import Str Outcome.
From Verif.Css Require Import LexerModel ParserModel.
From Verif.Values Require Import CalcModel LengthModel ColorProofs.
From Verif.Style Require Import CascadeModel CascadeSpec CascadeProofs.
From Verif.Props Require Import VarModel VarProofs EngineModel EngineSpec EngineProofs EngineProofs2 EngineProofs3 EngineProofs4
  BoxPropModel BoxPropSpec BoxPropProofs LonghandModel LonghandSpec LonghandProofs.
Import ListNotations.
Local Open Scope list_scope.
Local Open Scope string_scope.

(** Reads the keyword [k], which is what [H] says. *)
Ltac kw k H :=
  repeat match goal with
  | |- context [parse_keyword ?l (?s :: ?r)] =>
    let e := eval vm_compute in (pick l k) in
    rewrite (kw_spells l k s r H); change (pick l k) with e; cbn beta iota
  end.

Definition pair_eqb (a b : string * string) : bool := String.eqb (fst a) (fst b) && String.eqb (snd a) (snd b).
Lemma pair_eqb_in a l : existsb (pair_eqb a) l = true -> In a l.
Proof.
  intros H. apply existsb_exists in H as ([x y] & Hin & E). apply andb_prop in E as [E1 E2]. apply String.eqb_eq in E1, E2.
  destruct a as [u v]. cbn [fst snd] in E1, E2. now subst.
Qed.

Section Longhand.
Context {P F I : Type}
        (pP : list sst -> option P * list sst) (pF : list sst -> option F * list sst)
        (pI : list sst -> option I * list sst) (zero : P).
Variable V_eqb : @V P F I -> @V P F I -> bool.
Hypothesis HP : spares_idents pP.
Hypothesis HI : spares_idents pI.
Local Notation V := (@V P F I).
Local Notation G := (@long_registry P F I pP pF pI zero).
Local Notation matched := (matched V field).
Local Notation computed := (computed V field).
Local Notation registration := (registration V field).
Local Notation prop := (prop V field).
Local Notation compute_values := (compute_values V_eqb).
Local Notation longhands := (@longhands P F I pP pF pI zero).

Lemma spare_spells {A} (p : list sst -> option A * list sst) k s r : spares_idents p -> spells k s -> p (s :: r) = (None, s :: r).
Proof. intros H (d & -> & _). apply H. Qed.
Lemma fit_spells k s r : spells k s -> parse_fit pF (s :: r) = (None, s :: r) :> option V * _.
Proof. intros (d & -> & _). reflexivity. Qed.
Lemma integer_spells k s r : spells k s -> parse_integer (s :: r) = (None, s :: r).
Proof. intros (d & -> & _). reflexivity. Qed.
Lemma number_spells k s r : spells k s -> parse_number (s :: r) = (None, s :: r).
Proof. intros (d & -> & _). reflexivity. Qed.

(** ** Keywords *)

Ltac open := unfold parse_align, word_of, align_prefixes, align_keywords, parse_or_len, parse_dominant, parse_source, parse_alignment,
  parse_shift, parse_break, parse_break_inside, parse_position, parse_size, parse_basis, parse_direction, parse_wrap, parse_overflow,
  parse_list_image, parse_list_type, parse_list_position, parse_text_align, parse_text_transform, parse_white_space, orelse, keys, named, as_, map_fst.
Ltac skip_plain k H :=
  rewrite ?(spare_spells pP k _ _ HP H), ?(spare_spells pI k _ _ HI H), ?(fit_spells k _ _ H), ?(integer_spells k _ _ H); cbn beta iota.
Ltac read_kw :=
  match goal with
  | H : spells ?k ?s |- _ => repeat progress (open; cbn [map app]; kw k H; cbn [fst snd option_map]; skip_plain k H; rewrite ?kw_end)
  end.
Ltac find_long :=
  match goal with |- exists inh i p, In (longhand ?n inh i p) _ /\ _ => 
    let rec go k := 
      let x := eval cbv [nth_error longhands alignments baselines flows sizes tables texts flexes lists app] in (nth_error longhands k) in
      lazymatch x with
      | Some (longhand n ?inh ?i ?p) => exists inh, i, p; split; [exact (nth_error_In longhands k eq_refl)|]
      | Some _ => go (S k)
      end in go O
  end.

Lemma keyword_table : Forall (fun nk => exists inh i p, In (longhand (fst nk) inh i p) longhands /\
  Forall (fun k => existsb (pair_eqb (fst nk, k)) unsupported = false -> forall s, spells k s -> exists v, p [s] = (Some v, []) /\ words v = [k]) (snd nk)) standard.
Proof.
  unfold standard. repeat (apply Forall_cons; [cbn [fst snd]|]); [..|apply Forall_nil];
    (find_long; cbv [align_positions self_positions distributions breaks preferred limits overflows app];
     repeat (apply Forall_cons; [|]); [..|apply Forall_nil]; (discriminate 1 || (intros _ s H; read_kw; eexists; split; reflexivity))).
Qed.

Lemma unsupported_table : Forall (fun nk => exists inh i p, In (longhand (fst nk) inh i p) longhands /\
  forall s, spells (snd nk) s -> p [s] = (None, [s])) unsupported.
Proof.
  cbv [unsupported map app]. repeat (apply Forall_cons; [cbn [fst snd]|]); [..|apply Forall_nil];
    (find_long; intros s H; read_kw; reflexivity).
Qed.

(** ** Initial values *)

Definition initial_list := filter (fun x => negb (existsb (String.eqb (fst x)) (map fst (@otherwise P F I)))) (initials (F := F) (I := I) zero).
Lemma initials_table : Forall (fun x => exists p, In (longhand (fst x) (fst (snd x)) (snd (snd x)) p) longhands) (initial_list ++ otherwise).
Proof.
  assert (E : forall n inh i, (exists inh' i' p, In (longhand n inh' i' p) longhands /\ inh' = inh /\ i' = i) -> exists p, In (longhand n inh i p) longhands).
  { intros n inh i (inh' & i' & p & H & <- & <-). now exists p. }
  let e := eval vm_compute in (initial_list ++ @otherwise P F I)%list in change (initial_list ++ otherwise)%list with e.
  repeat (apply Forall_cons; [cbn [fst snd]|]); [..|apply Forall_nil]; (apply E; find_long; split; reflexivity).
Qed.

(** ** Shorthands *)

Definition parts :=
  ["overflow-x"; "overflow-y"; "flex-direction"; "flex-wrap"; "flex-basis"; "flex-grow"; "flex-shrink";
   "list-style-image"; "list-style-type"; "list-style-position"; "baseline-source"; "alignment-baseline"; "baseline-shift"].
Lemma parts_known (l : list (string * V)) : forallb (fun x => existsb (String.eqb (fst x)) parts) l = true ->
  Forall (fun x => exists inh i p, In (longhand (fst x) inh i p) longhands) l.
Proof.
  intros Hl. rewrite forallb_forall in Hl. apply Forall_forall. intros x Hx. specialize (Hl x Hx).
  apply existsb_exists in Hl as (k' & Hl & E). apply String.eqb_eq in E. subst k'. revert Hl. generalize (fst x). clear x Hx.
  assert (H : Forall (fun k => exists inh i p, In (longhand k inh i p) longhands /\ True) parts).
  { unfold parts. repeat (apply Forall_cons; [find_long; exact Logic.I|]). apply Forall_nil. }
  rewrite Forall_forall in H. intros k Hk. destruct (H k Hk) as (inh & i & p & A & _). now exists inh, i, p.
Qed.

Lemma resolve_longs (l : list (string * V)) : Forall (fun x => exists inh i p, In (longhand (fst x) inh i p) longhands) l ->
  exists ps, resolve_all G (map (fun x => (of_string (fst x), Value (snd x))) l) = Ok ps /\
    (forall k u inh i p, In (k, u) l -> In (longhand k inh i p) longhands -> In (Parsed (longhand k inh i p) (Value u)) ps) /\
    (forall q, In q ps -> exists k u inh i p, In (k, u) l /\ In (longhand k inh i p) longhands /\ q = Parsed (longhand k inh i p) (Value u)).
Proof.
  induction 1 as [|[k u] l (inh & i & p & Hin) Hl (ps & E & A & B)].
  - exists []. split; [reflexivity|]. split; [intros ? ? ? ? ? []|intros q []].
  - cbn [fst] in Hin. pose proof (long_resolve pP pF pI zero _ Hin) as Hr. cbn [longhand r_name] in Hr.
    exists (Parsed (longhand k inh i p) (Value u) :: ps). cbn [map resolve_all fst snd]. rewrite Hr, E. cbn [obind]. split; [reflexivity|]. split.
    + intros k' u' inh' i' p' [X|Hk] Hin'.
      * injection X as <- <-. left. pose proof (long_resolve pP pF pI zero _ Hin') as Hr'. cbn [longhand r_name] in Hr'. rewrite Hr in Hr'.
        injection Hr' as X. unfold longhand. congruence.
      * right. eauto.
    + intros q [<-|Hq]; [exists k, u, inh, i, p; cbn; auto|]. destruct (B q Hq) as (k' & u' & inh' & i' & p' & X & Y & Z).
      exists k', u', inh', i', p'. cbn; auto.
Qed.

Lemma same_long k inh i p inh' i' p' : In (longhand k inh i p) longhands -> In (longhand k inh' i' p') longhands ->
  longhand k inh i p = longhand k inh' i' p'.
Proof.
  intros H H'. apply (long_resolve pP pF pI zero) in H. apply (long_resolve pP pF pI zero) in H'.
  cbn [longhand r_name] in H, H'. unfold longhand in *. congruence.
Qed.

(** The longhands of a value of a shorthand. *)
Lemma ex_value n i l p to v parent child :
  Forall (fun x => exists inh i p, In (longhand (fst x) inh i p) longhands) (to v) ->
  exists x, ex G parent child (Parsed (short n i l p to) (Value v)) = Some x /\
    (forall k u inh i p, In (k, u) (to v) -> In (longhand k inh i p) longhands -> In (of_string k, Parsed (longhand k inh i p) (Value u)) x) /\
    (forall k q, In (of_string k, q) x -> exists u inh i p, In (k, u) (to v) /\ In (longhand k inh i p) longhands /\ q = Parsed (longhand k inh i p) (Value u)).
Proof.
  intros H. destruct (resolve_longs _ H) as (ps & E & A & B). exists (map (fun p => (prop_name p, p)) ps). split; [|split].
  - unfold ex. cbn [is_short prop_reg short r_short expansion]. now rewrite E.
  - intros k u inh i' p' Hk Hin. specialize (A _ _ _ _ _ Hk Hin). apply in_map_iff. eexists. split; [|exact A]. reflexivity.
  - intros k q Hq. apply in_map_iff in Hq as (q' & X & Hq). destruct (B _ Hq) as (k' & u' & inh' & i' & p' & Y & Z & ->).
    injection X as X <-. apply of_string_inj in X. subst k'. exists u', inh', i', p'. auto.
Qed.

Lemma short_value blank parent c l1 m l2 n i l p to content v k u : In (short n i l p to) (g_props G) ->
  from_sheet pP pF pI zero (l1 ++ m :: l2) -> compute_values G blank parent (l1 ++ m :: l2) = Ok c ->
  declares pP pF pI zero n content m -> counts k l1 m l2 -> In n (shorthands_of k) ->
  starts_plain content -> p content = (Some v, []) ->
  Forall (fun x => exists inh i p, In (longhand (fst x) inh i p) longhands) (to v) ->
  NoDup (map fst (to v)) -> In (k, u) (to v) -> c_get c k = Value u.
Proof.
  intros Hin Hs Hc (fuel & Hd) Hn Hsh Hp Hv Hl Hnd Hk.
  pose proof (resolve_registered _ (long_good pP pF pI zero) _ Hin) as Hr. cbn [short r_name] in Hr.
  rewrite (read_plain pP pF pI zero fuel _ _ content (Value v) Hr Hp) in Hd; [|cbn [short r_parse]; unfold as_, map_fst; now rewrite Hv].
  injection Hd as Hd.
  destruct (ex_value n i l p to v parent c Hl) as (x & Hx & A & B).
  pose proof Hl as Hl'. rewrite Forall_forall in Hl'. destruct (Hl' _ Hk) as (inh & i' & p' & Hlong). cbn [fst] in Hlong.
  pose proof (short_counts pP pF pI zero V_eqb blank parent c l1 m l2 k inh i' p' x (Parsed (longhand k inh i' p') (Value u)) Hlong Hs Hc) as H.
  unfold name in H. rewrite <- Hd in H. specialize (H eq_refl).
  assert (Ha : among (prop_name (Parsed (short n i l p to) (Value v))) (shorthands_of k)).
  { unfold among. cbn [prop_name short r_name]. now apply in_map. }
  specialize (H Ha Hn Hx (A _ _ _ _ _ Hk Hlong)).
  cbn [used keep] in H. unfold keep in H. injection H; [auto|].
  intros q' Hq'. destruct (B _ _ Hq') as (u' & inh'' & i'' & p'' & X & Y & ->).
  rewrite (same_long _ _ _ _ _ _ _ Y Hlong). do 2 f_equal.
  clear - Hnd Hk X. induction (to v) as [|[k1 u1] t IH]; [contradiction|]. cbn [map fst] in Hnd. inversion Hnd as [|? ? Hno Hnd']; subst.
  destruct Hk as [E|Hk], X as [E'|X].
  - congruence.
  - exfalso. apply Hno. injection E as -> _. apply in_map_iff. now exists (k, u').
  - exfalso. apply Hno. injection E' as -> _. apply in_map_iff. now exists (k, u).
  - auto.
Qed.

End Longhand.
