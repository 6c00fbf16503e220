(** C151 to C160: the properties that keep what is declared, from declarations to computed values.
    The parsers of lengths and images are arbitrary, except that identifiers and the end of the text
    are neither. *)
From Coq Require Import String List NArith ZArith QArith Bool Lia PeanoNat.
From Verif.Base Require Import Str Outcome.
From Verif.Css Require Import LexerModel ParserModel.
From Verif.Values Require Import Number CalcModel LengthModel ColorProofs.
From Verif.Style Require Import CascadeModel CascadeSpec CascadeProofs.
From Verif.Props Require Import VarModel VarProofs EngineModel EngineSpec EngineProofs EngineProofs2 EngineProofs3 EngineProofs4
  BoxPropModel BoxPropSpec BoxPropProofs LonghandModel LonghandSpec LonghandProofs LonghandProofs2.
Import ListNotations.
Local Open Scope list_scope.
Local Open Scope string_scope.

Lemma by_value {A} (o : outcome A) (P : A -> Prop) : match o with Ok c => P c | _ => False end -> exists c, o = Ok c /\ P c.
Proof. destruct o as [c| |]; try contradiction. eauto. Qed.

Lemma kw_other {A} (l : list (string * A)) w : match w with TOK t :: _ => t_type t <> IDENT | _ => True end -> parse_keyword l w = (None, w).
Proof.
  intros H. destruct w as [|s w]; [apply kw_end|]. induction l as [|[k a] l IH]; [reflexivity|]. cbn [parse_keyword].
  destruct (is_ident k s) eqn:E; [|exact IH]. exfalso. destruct s as [t| | | |]; cbn [is_ident] in E; try discriminate.
  unfold token_eqb in E. cbn [t_type t_data] in E. apply andb_prop in E as [E _]. apply internal_ttype_dec_bl in E. now apply H.
Qed.

Lemma among_in n l : In n l -> among (of_string n) l.
Proof. apply in_map. Qed.

(** ** C158: properties that are not known *)

Section Unknown.
Context {V field : Type} (V_eqb : V -> V -> bool).
(** A registry with the names of props/registry.cpp, or some of them. *)
Definition within (g : registry V field) : Prop :=
  (forall q, In q (g_props g) -> among (r_name q) registered) /\
  (forall a b, lookup (g_alias g) a = Some b -> among a also).

(** A declaration with an unknown name has no effect. *)
Theorem C158_unknown_partial : forall g fuel n content m blank parent l1 l2,
  within g -> ~ among n registered -> ~ among n also -> starts_with (of_string "--") n = false ->
  parse_value fuel g n content = Ok (m_prop m) ->
  compute_values V_eqb g blank parent (l1 ++ m :: l2) = compute_values V_eqb g blank parent (l1 ++ l2).
Proof.
  intros g fuel n content m blank parent l1 l2 [H1 H2] Hn Ha Hd Hm. apply bogus_ignored.
  rewrite (unknown_bogus g) in Hm; [injection Hm as <-; reflexivity|..].
  - destruct (lookup (g_alias g) n) as [b|] eqn:E; [|reflexivity]. exfalso. exact (Ha (H2 _ _ E)).
  - intros q Hq <-. exact (Hn (H1 q Hq)).
  - exact Hd.
Qed.

(** These are properties of CSS: the first two are written but not registered, the third is
    registered under the name [marker-size]. *)
Definition missing : list string :=
  ["gap"; "order"; "marker-side"; "inset"; "padding-inline"; "padding-block"; "padding-block-start"; "padding-block-end";
   "text-decoration"; "text-indent"; "letter-spacing"; "word-spacing"; "orphans"; "widows"; "background-size"; "box-shadow"; "page"; "quotes"].
Theorem C158_missing_refuted : forall g fuel n content m blank parent l1 l2,
  within g -> In n missing -> parse_value fuel g (of_string n) content = Ok (m_prop m) ->
  compute_values V_eqb g blank parent (l1 ++ m :: l2) = compute_values V_eqb g blank parent (l1 ++ l2).
Proof.
  intros g fuel n content m blank parent l1 l2 Hw Hn. 
  assert (H : forallb (fun n => negb (existsb (str_eqb (of_string n)) (map of_string (registered ++ also)%list)) && negb (starts_with (of_string "--") (of_string n))) missing = true) by (vm_compute; reflexivity).
  rewrite forallb_forall in H. specialize (H n Hn). apply andb_prop in H as [H1 H2]. apply negb_true_iff in H1, H2.
  assert (X : ~ among (of_string n) (registered ++ also)%list).
  { intros Hx. assert (existsb (str_eqb (of_string n)) (map of_string (registered ++ also)%list) = true); [|congruence].
    apply existsb_exists. exists (of_string n). split; [exact Hx|]. now apply str_eqb_spec. }
  apply C158_unknown_partial; [exact Hw| | |exact H2]; intros Hx; apply X; unfold among in *; rewrite map_app; apply in_or_app; auto.
Qed.
End Unknown.
Print Assumptions C158_unknown_partial.
Print Assumptions C158_missing_refuted.

Section Longhand.
Context {P F I : Type}
        (pP : list sst -> option P * list sst) (pF : list sst -> option F * list sst)
        (pI : list sst -> option I * list sst) (zero : P).
Variable V_eqb : @V P F I -> @V P F I -> bool.
Local Notation V := (@V P F I).
Local Notation G := (@long_registry P F I pP pF pI zero).
Local Notation matched := (matched V field).
Local Notation computed := (computed V field).
Local Notation prop := (prop V field).
Local Notation compute_values := (compute_values V_eqb).
Local Notation longhands := (@longhands P F I pP pF pI zero).
Local Notation declares := (declares pP pF pI zero).
Local Notation from_sheet := (from_sheet pP pF pI zero).
Local Notation initials := (@initials P F I zero).
Local Notation flex_is := (@flex_is P F I pP zero).
Local Notation list_is := (@list_is P F I pI).
Local Notation basis_is := (@basis_is P F I pP).
Local Notation vertical_part := (@vertical_part P F I pP).

(** The declarations [l1 ++ m :: l2] are computed to [c], and among them [m], which is
    [n: content], counts for [k]. *)
Definition counted (k n : string) (content : list sst) (blank parent : computed) (l1 : list matched) (m : matched) (l2 : list matched) (c : computed) : Prop :=
  from_sheet (l1 ++ m :: l2) /\ compute_values G blank parent (l1 ++ m :: l2) = Ok c /\ declares n content m /\ counts k l1 m l2.

(** ** C151: keywords *)

(** Every keyword that CSS has for one of these properties, but those of [unsupported], in any case
    of letters, is what the property is computed to. *)
Theorem C151_keyword_partial : forall n ks k s blank parent l1 m l2 c,
  spares_idents pP ->
  In (n, ks) standard -> In k ks -> ~ In (n, k) unsupported -> spells k s ->
  counted n n [s] blank parent l1 m l2 c ->
  exists v, c_get c n = Value v /\ words v = [k].
Proof.
  intros n ks k s blank parent l1 m l2 c HP Hn Hk Hu Hs (Hsh & Hc & Hd & Hco).
  pose proof (keyword_table pP pF pI zero HP) as T. rewrite Forall_forall in T. destruct (T _ Hn) as (inh & i & p & Hin & Hks).
  cbn [fst snd] in *. rewrite Forall_forall in Hks.
  destruct (Hks k Hk) with (s := s) as (v & Hv & Hw); [|exact Hs|].
  { destruct (existsb _ _) eqn:E; [|reflexivity]. apply pair_eqb_in in E. contradiction. }
  exists v. split; [|exact Hw]. apply (long_value pP pF pI zero V_eqb blank parent c l1 m l2 n inh i p [s] v Hin Hsh Hc Hd Hco); [|exact Hv].
  assert (B : forallb (fun x => forallb (fun k => negb (existsb (fun x => str_eqb (of_string k) (map lower (of_string x))) defaulting)) (snd x)) standard = true)
    by (vm_compute; reflexivity).
  rewrite forallb_forall in B. specialize (B _ Hn). cbn [snd] in B. rewrite forallb_forall in B. specialize (B _ Hk). apply negb_true_iff in B.
  exact (spells_plain _ _ _ Hs B).
Qed.

(** The properties for alignment tell a position from what comes before it: [safe], [unsafe] or [legacy]. *)
Definition aligning := ["align-content"; "justify-content"; "justify-self"; "align-self"; "justify-items"; "align-items"].
Definition positions := ["center"; "start"; "end"; "self-start"; "self-end"; "flex-start"; "flex-end"; "left"; "right"].
Lemma aligning_in n : In n aligning -> exists i, In (longhand n false i parse_align) longhands.
Proof.
  intros H. cbn [aligning In] in H.
  destruct H as [<-|[<-|[<-|[<-|[<-|[<-|[]]]]]]]; eexists; unfold LonghandModel.longhands, alignments; cbn [app In]; repeat first [left; reflexivity|right].
Qed.
Theorem C151_alignment : forall n k s blank parent l1 m l2 c, In n aligning -> In k positions -> spells k s ->
  (counted n n [s] blank parent l1 m l2 c -> c_get c n = Value (Align None (Some k))) /\
  (forall p s', In p ["safe"; "unsafe"; "legacy"] -> spells p s' -> counted n n [s'; s] blank parent l1 m l2 c ->
     c_get c n = Value (Align (Some p) (Some k))).
Proof.
  intros n k s blank parent l1 m l2 c Hn Hk Hs. destruct (aligning_in n Hn) as (i & Hin). split.
  - intros (Hsh & Hc & Hd & Hco).
    apply (long_value pP pF pI zero V_eqb blank parent c l1 m l2 n false i parse_align [s] _ Hin Hsh Hc Hd Hco).
    + apply (spells_plain _ _ _ Hs). cbn [positions In] in Hk. repeat destruct Hk as [Hk|Hk]; try contradiction; subst k; vm_compute; reflexivity.
    + unfold parse_align, word_of, align_prefixes, align_keywords. cbn [map]. cbn [positions In] in Hk.
      repeat destruct Hk as [Hk|Hk]; try contradiction; subst k; match goal with H : spells ?k s |- _ => kw k H end; reflexivity.
  - intros p s' Hp Hs' (Hsh & Hc & Hd & Hco).
    apply (long_value pP pF pI zero V_eqb blank parent c l1 m l2 n false i parse_align [s'; s] _ Hin Hsh Hc Hd Hco).
    + apply (spells_plain _ _ _ Hs'). cbn [In] in Hp. destruct Hp as [<-|[<-|[<-|[]]]]; vm_compute; reflexivity.
    + unfold parse_align, word_of, align_prefixes, align_keywords. cbn [map]. cbn [In] in Hp. cbn [positions In] in Hk.
      destruct Hp as [<-|[<-|[<-|[]]]]; match goal with H : spells ?k s' |- _ => kw k H end;
      repeat destruct Hk as [Hk|Hk]; try contradiction; subst k; match goal with H : spells ?k s |- _ => kw k H end; reflexivity.
Qed.

(** The others of CSS are like [unset], even when a declaration that is understood comes before. *)
Theorem C151_unsupported_refuted : forall n k s blank parent l1 m l2 c,
  spares_idents pP -> In (n, k) unsupported -> spells k s ->
  counted n n [s] blank parent l1 m l2 c ->
  (exists ks, In (n, ks) standard /\ In k ks) /\
  forall c0, compute_values G blank parent [] = Ok c0 -> c_get c n = c_get c0 n.
Proof.
  intros n k s blank parent l1 m l2 c HP Hn Hs (Hsh & Hc & Hd & Hco). split.
  - assert (B : forallb (fun nk => existsb (fun x => String.eqb (fst x) (fst nk) && existsb (String.eqb (snd nk)) (snd x)) standard) unsupported = true)
      by (vm_compute; reflexivity).
    rewrite forallb_forall in B. specialize (B _ Hn). apply existsb_exists in B as ([n' ks] & Hin & E). apply andb_prop in E as [E1 E2].
    cbn [fst snd] in *. apply String.eqb_eq in E1. subst n'. exists ks. split; [exact Hin|].
    apply existsb_exists in E2 as (k' & Hk & E2). apply String.eqb_eq in E2. now subst.
  - intros c0 Hc0. pose proof (unsupported_table pP pF pI zero HP) as T. rewrite Forall_forall in T. destruct (T _ Hn) as (inh & i & p & Hin & Hp).
    cbn [fst snd] in *.
    rewrite (long_silent pP pF pI zero V_eqb blank parent c0 [] n inh i p Hin ltac:(constructor) Hc0 ltac:(constructor)).
    rewrite (long_deferred pP pF pI zero V_eqb blank parent c l1 m l2 n inh i p [s] Hin Hsh Hc Hd Hco).
    + now rewrite (Hp s Hs).
    + assert (B : forallb (fun x => negb (existsb (fun y => str_eqb (of_string (snd x)) (map lower (of_string y))) defaulting)) unsupported = true)
        by (vm_compute; reflexivity).
      rewrite forallb_forall in B. specialize (B _ Hn). apply negb_true_iff in B. exact (spells_plain _ _ _ Hs B).
    + intros e. exact (expand_spells _ _ e Hs).
    + intros v c'. rewrite (Hp s Hs). discriminate.
Qed.

(** ** C152: initial values and inheritance *)

Definition defaults (d : string) (inh : bool) (i inherited : val V) : val V :=
  if String.eqb d "inherit" then inherited
  else if String.eqb d "initial" then i
  else if inh then inherited else i.

Lemma default_read blank parent c l1 m l2 n inh i p d s : In (longhand n inh i p) longhands ->
  In d ["initial"; "inherit"; "unset"] -> spells d s -> counted n n [s] blank parent l1 m l2 c ->
  c_get c n = defaults d inh (Value i) (c_get parent n).
Proof.
  intros Hin Hd Hs (Hsh & Hc & (fuel & Hm) & Hco).
  pose proof (long_resolve pP pF pI zero _ Hin) as Hr. cbn [longhand r_name] in Hr.
  assert (E : parse_value fuel G (of_string n) [s] = Ok (Defaulted (longhand n inh i p)
     (if String.eqb d "inherit" then D_INHERIT else if String.eqb d "initial" then D_INITIAL else D_UNSET))).
  { unfold parse_value. rewrite Hr.
    assert (eat_wss [s] = [s]) as -> by (destruct Hs as (x & -> & _); reflexivity).
    cbn [parse_defaulted]. rewrite !(ident_spells _ _ _ Hs).
    destruct Hd as [<-|[<-|[<-|[]]]]; vm_compute; reflexivity. }
  rewrite E in Hm. injection Hm as Hm.
  pose proof (long_counts pP pF pI zero V_eqb blank parent c l1 m l2 n inh i p Hin Hsh Hc) as H. unfold name in H. rewrite <- Hm in H.
  specialize (H eq_refl eq_refl Hco). unfold defaults.
  destruct Hd as [<-|[<-|[<-|[]]]]; cbn -[of_string] in H |- *; unfold keep in H; injection H; intros ->; destruct inh; reflexivity.
Qed.

(** A property that nothing is said about, and one that is declared [initial], [inherit] or [unset],
    have the value that CSS says, but for those of [otherwise]. *)
Theorem C152_initial_partial : forall n inh i, In (n, (inh, i)) initials -> ~ In n (map fst (@otherwise P F I)) ->
  (forall blank parent ms c, from_sheet ms -> compute_values G blank parent ms = Ok c -> silent n ms ->
     c_get c n = if inh then c_get parent n else Value i) /\
  (forall d s blank parent l1 m l2 c, In d ["initial"; "inherit"; "unset"] -> spells d s -> counted n n [s] blank parent l1 m l2 c ->
     c_get c n = defaults d inh (Value i) (c_get parent n)).
Proof.
  intros n inh i Hin Hno. pose proof (initials_table pP pF pI zero) as T. rewrite Forall_forall in T.
  destruct (T (n, (inh, i))) as (p & Hp).
  { apply in_or_app. left. apply filter_In. split; [exact Hin|]. apply negb_true_iff. cbn [fst].
    destruct (existsb _ _) eqn:E; [|reflexivity]. apply existsb_exists in E as (x & Hx & E). apply String.eqb_eq in E. subst x. contradiction. }
  cbn [fst snd] in Hp. split.
  - intros blank parent ms c Hs Hc Hsi. exact (long_silent pP pF pI zero V_eqb blank parent c ms n inh i p Hp Hs Hc Hsi).
  - intros d s blank parent l1 m l2 c. exact (default_read blank parent c l1 m l2 n inh i p d s Hp).
Qed.

Theorem C152_initial_refuted : forall n inh i, In (n, (inh, i)) (@otherwise P F I) ->
  (exists x, In (n, x) initials /\ x <> (inh, i)) /\
  (forall blank parent ms c, from_sheet ms -> compute_values G blank parent ms = Ok c -> silent n ms ->
     c_get c n = if inh then c_get parent n else Value i) /\
  (forall d s blank parent l1 m l2 c, In d ["initial"; "inherit"; "unset"] -> spells d s -> counted n n [s] blank parent l1 m l2 c ->
     c_get c n = defaults d inh (Value i) (c_get parent n)).
Proof.
  intros n inh i Hin. pose proof (initials_table pP pF pI zero) as T. rewrite Forall_forall in T.
  destruct (T (n, (inh, i))) as (p & Hp); [apply in_or_app; now right|]. cbn [fst snd] in Hp. split; [|split].
  - assert (B : forall a b c, In (a, (b, c)) initials -> b <> inh \/ c <> i -> a = n -> exists x, In (n, x) initials /\ x <> (inh, i)).
    { intros a b c H Hne <-. exists (b, c). split; [exact H|]. intros X. injection X as -> ->. tauto. }
    repeat (destruct Hin as [Hin|Hin]; [injection Hin as <- <- <-|]); [..|contradiction].
    1: apply (B "align-content" false (Align None (Some "normal"))).
    4: apply (B "justify-content" false (Align None (Some "normal"))).
    7: apply (B "align-items" false (Align None (Some "normal"))).
    10: apply (B "dominant-baseline" true (Key "auto")).
    13: apply (B "text-align" true (Key "start")).
    all: try reflexivity; try (right; discriminate); try (left; discriminate).
    all: unfold LonghandSpec.initials; cbn [map app]; repeat first [left; reflexivity|right].
  - intros blank parent ms c Hs Hc Hsi. exact (long_silent pP pF pI zero V_eqb blank parent c ms n inh i p Hp Hs Hc Hsi).
  - intros d s blank parent l1 m l2 c. exact (default_read blank parent c l1 m l2 n inh i p d s Hp).
Qed.

(** ** C153: display *)

Lemma display_in : In (longhand "display" false (Disp "flow" "inline" false) parse_display) longhands.
Proof. exact (nth_error_In longhands 17 eq_refl). Qed.

(** The words with one meaning mean that, and the others are an inner type, an outer type and
    [list-item], each of which may be left out. *)
Theorem C153_display_partial : forall blank parent l1 m l2 c,
  (forall k s, In k display_single -> spells k s -> counted "display" "display" [s] blank parent l1 m l2 c -> c_get c "display" = Value (Key k)) /\
  (forall k i s, In (k, i) display_legacy -> spells k s -> counted "display" "display" [s] blank parent l1 m l2 c ->
     c_get c "display" = Value (Disp i "inline" false)) /\
  (forall i o b wi wo wb, one_of i display_inner -> one_of o display_outer -> (i, o, b) <> (None, None, false) -> (i, o) <> (Some "ruby", None) ->
     maybe i wi -> maybe o wo -> maybe (if b then Some "list-item" else None) wb ->
     counted "display" "display" (wi ++ wo ++ wb)%list blank parent l1 m l2 c ->
     c_get c "display" = Value (Disp (or_else i "flow") (or_else o "block") b)).
Proof.
  intros blank parent l1 m l2 c. split; [|split].
  - intros k s Hk Hs (Hsh & Hc & Hd & Hco).
    apply (long_value pP pF pI zero V_eqb blank parent c l1 m l2 _ _ _ _ [s] (Key k) display_in Hsh Hc Hd Hco).
    + apply (spells_plain k); [exact Hs|]. clear - Hk. unfold display_single in Hk. repeat (destruct Hk as [<-|Hk]; [vm_compute; reflexivity|]). contradiction.
    + clear - Hk Hs. unfold display_single in Hk. unfold parse_display, orelse, keys, map_fst, boxes, internals. cbn [map].
      repeat (destruct Hk as [<-|Hk]; [match goal with H : spells ?k _ |- _ => kw k H end; cbn [fst snd option_map]; try reflexivity|]); [..|contradiction].
      all: match goal with H : spells ?k _ |- _ => kw k H end; cbn [fst snd option_map]; try reflexivity.
      all: match goal with H : spells ?k _ |- _ => kw k H end; cbn [fst snd option_map]; reflexivity.
  - intros k i s Hk Hs (Hsh & Hc & Hd & Hco).
    apply (long_value pP pF pI zero V_eqb blank parent c l1 m l2 _ _ _ _ [s] (Disp i "inline" false) display_in Hsh Hc Hd Hco).
    + apply (spells_plain k); [exact Hs|]. clear - Hk. unfold display_legacy in Hk. repeat (destruct Hk as [Hk|Hk]; [injection Hk as <- <-; vm_compute; reflexivity|]). contradiction.
    + clear - Hk Hs. unfold display_legacy in Hk. unfold parse_display, orelse, legacies.
      repeat (destruct Hk as [Hk|Hk]; [injection Hk as <- <-; match goal with H : spells ?k _ |- _ => kw k H end; reflexivity|]). contradiction.
  - intros i o b wi wo wb Hi Ho Hne Hr Wi Wo Wb (Hsh & Hc & Hd & Hco).
    apply (long_value pP pF pI zero V_eqb blank parent c l1 m l2 _ _ _ _ (wi ++ wo ++ wb)%list _ display_in Hsh Hc Hd Hco).
    + assert (Hplain : forall k s r, In k ("list-item" :: display_inner ++ display_outer)%list -> spells k s -> starts_plain (s :: r)).
      { intros k s r Hk Hs. apply (spells_plain k); [exact Hs|]. clear - Hk. cbn [display_inner display_outer app] in Hk.
        repeat (destruct Hk as [<-|Hk]; [vm_compute; reflexivity|]). contradiction. }
      destruct i as [i|]; cbn [maybe one_of] in *.
      { destruct Wi as (s & -> & Hs). apply (Hplain i); [|exact Hs]. right. apply in_or_app. now left. }
      subst wi. destruct o as [o|]; cbn [maybe] in *.
      { destruct Wo as (s & -> & Hs). apply (Hplain o); [|exact Hs]. right. apply in_or_app. now right. }
      subst wo. destruct b; [|now contradiction Hne]. destruct Wb as (s & -> & Hs). apply (Hplain "list-item"); [now left|exact Hs].
    + clear - Hi Ho Hne Wi Wo Wb. unfold parse_display, orelse, keys, map_fst, boxes, internals, legacies, word_of, insides, outsides. cbn [map].
      assert (Ib : forall (T : Type) (l : list (string * T)), pick l "list-item" = None ->
         parse_keyword l wb = (None, wb)).
      { intros T l Hl. destruct b; cbn [maybe] in Wb; [destruct Wb as (s & -> & Hs); rewrite (kw_spells l _ _ [] Hs), Hl; reflexivity|subst; apply kw_end]. }
      assert (Last : parse_keyword [("list-item", "list-item")] wb = (if b then Some "list-item" else None, [])).
      { destruct b; cbn [maybe] in Wb; [destruct Wb as (s & -> & Hs); rewrite (kw_spells _ _ _ [] Hs); reflexivity|subst; reflexivity]. }
      destruct i as [i|]; cbn [maybe one_of or_else] in *.
      * destruct Wi as (s & -> & Hs). cbn [app]. unfold display_inner in Hi.
        destruct o as [o|]; cbn [maybe one_of or_else] in *.
        { destruct Wo as (s' & -> & Hs'). cbn [app]. unfold display_outer in Ho.
          repeat (destruct Hi as [<-|Hi]; [match type of Hs with spells ?k _ => kw k Hs; cbn [fst snd option_map]; kw k Hs; cbn [fst snd option_map]; kw k Hs; cbn [fst snd option_map]; kw k Hs end;
            repeat (destruct Ho as [<-|Ho]; [match type of Hs' with spells ?k _ => kw k Hs' end; rewrite Last; destruct b; reflexivity|]); contradiction|]); contradiction. }
        { subst wo. cbn [app].
          repeat (destruct Hi as [<-|Hi]; [match type of Hs with spells ?k _ => kw k Hs; cbn [fst snd option_map]; kw k Hs; cbn [fst snd option_map]; kw k Hs; cbn [fst snd option_map]; kw k Hs end;
            rewrite Ib by reflexivity; rewrite Last; destruct b; reflexivity|]); contradiction. }
      * subst wi. cbn [app]. destruct o as [o|]; cbn [maybe one_of or_else] in *.
        { destruct Wo as (s' & -> & Hs'). cbn [app]. unfold display_outer in Ho.
          repeat (destruct Ho as [<-|Ho]; [match type of Hs' with spells ?k _ => kw k Hs'; cbn [fst snd option_map]; kw k Hs'; cbn [fst snd option_map]; kw k Hs'; cbn [fst snd option_map]; kw k Hs' end;
            rewrite Last; destruct b; reflexivity|]); contradiction. }
        { subst wo. destruct b; [|now contradiction Hne]. cbn [app]. destruct Wb as (s & -> & Hs).
          kw "list-item" Hs; cbn [fst snd option_map]; kw "list-item" Hs; cbn [fst snd option_map]; kw "list-item" Hs; cbn [fst snd option_map]; kw "list-item" Hs. reflexivity. }
Qed.

(** The order in which it is usually written, outer type first, loses the inner type. *)
Theorem C153_order_refuted : forall o i s s' blank parent l1 m l2 c,
  In o display_outer -> In i display_inner -> spells o s -> spells i s' ->
  counted "display" "display" [s; s'] blank parent l1 m l2 c ->
  c_get c "display" = Value (Disp "flow" o false).
Proof.
  intros o i s s' blank parent l1 m l2 c Ho Hi Hs Hs' (Hsh & Hc & Hd & Hco).
  assert (E : parse_display [s; s'] = (Some (Disp "flow" o false), [s']) :> option V * _).
  { clear - Ho Hi Hs Hs'. unfold parse_display, orelse, keys, map_fst, boxes, internals, legacies, word_of, insides, outsides. cbn [map].
    unfold display_outer in Ho. unfold display_inner in Hi.
    repeat (destruct Ho as [<-|Ho]; [match type of Hs with spells ?k _ => kw k Hs; cbn [fst snd option_map]; kw k Hs; cbn [fst snd option_map]; kw k Hs; cbn [fst snd option_map]; kw k Hs end;
      repeat (destruct Hi as [<-|Hi]; [match type of Hs' with spells ?k _ => kw k Hs' end; reflexivity|]); contradiction|]); contradiction. }
  rewrite (long_deferred pP pF pI zero V_eqb blank parent c l1 m l2 _ _ _ _ [s; s'] display_in Hsh Hc Hd Hco).
  - now rewrite E.
  - apply (spells_plain o); [exact Hs|]. clear - Ho. unfold display_outer in Ho. repeat (destruct Ho as [<-|Ho]; [vm_compute; reflexivity|]). contradiction.
  - intros e. destruct Hs as (d & -> & _), Hs' as (d' & -> & _). reflexivity.
  - intros v c'. rewrite E. intros X. injection X as _ <-. destruct Hs' as (d' & -> & _). discriminate.
Qed.

(** A box with [display: ruby] is a block; CSS makes it inline. *)
Theorem C153_ruby_refuted : forall s blank parent l1 m l2 c, spells "ruby" s ->
  counted "display" "display" [s] blank parent l1 m l2 c -> c_get c "display" = Value (Disp "ruby" "block" false).
Proof.
  intros s blank parent l1 m l2 c Hs (Hsh & Hc & Hd & Hco).
  apply (long_value pP pF pI zero V_eqb blank parent c l1 m l2 _ _ _ _ [s] _ display_in Hsh Hc Hd Hco).
  - apply (spells_plain "ruby"); [exact Hs|vm_compute; reflexivity].
  - unfold parse_display, orelse, keys, map_fst, boxes, internals, legacies, word_of, insides, outsides. cbn [map].
    kw "ruby" Hs; cbn [fst snd option_map]; kw "ruby" Hs; cbn [fst snd option_map]; kw "ruby" Hs; cbn [fst snd option_map]; kw "ruby" Hs. reflexivity.
Qed.

(** ** Shorthands *)

Lemma shorts_in : In overflow_short (g_props G) /\ In flow_short (g_props G) /\ In (flex_short pP pF zero) (g_props G) /\
  In (list_short pI) (g_props G) /\ In (vertical_short pP) (g_props G).
Proof.
  exact (conj (nth_error_In (g_props G) 51 eq_refl) (conj (nth_error_In (g_props G) 52 eq_refl) (conj (nth_error_In (g_props G) 53 eq_refl)
    (conj (nth_error_In (g_props G) 54 eq_refl) (nth_error_In (g_props G) 55 eq_refl))))).
Qed.

(** ** C154: overflow *)

(** One keyword is for both directions, two are for the horizontal and the vertical one. *)
Theorem C154_overflow_partial : forall x y sx w blank parent l1 m l2 c,
  let ks := ["visible"; "hidden"; "scroll"; "auto"] in
  In x ks -> In y ks -> spells x sx -> (w = [] /\ y = x \/ exists sy, w = [sy] /\ spells y sy) ->
  (counted "overflow-x" "overflow" (sx :: w) blank parent l1 m l2 c -> c_get c "overflow-x" = Value (Key x)) /\
  (counted "overflow-y" "overflow" (sx :: w) blank parent l1 m l2 c -> c_get c "overflow-y" = Value (Key y)).
Proof.
  intros x y sx w blank parent l1 m l2 c ks Hx Hy Hsx Hw.
  assert (E : parse_overflows (sx :: w) = (Some (Pair (Key x) (Key y)), []) :> option V * _).
  { assert (K : forall k s r, In k ks -> spells k s -> eat_wss (s :: r) = s :: r /\ parse_overflow (s :: r) = (Some (Key k), r) :> option V * _).
    { clear. intros k s r Hk Hs. split; [destruct Hs as (d & -> & _); reflexivity|].
      unfold parse_overflow, named, map_fst. unfold ks in Hk.
      repeat (destruct Hk as [<-|Hk]; [match type of Hs with spells ?k _ => kw k Hs end; reflexivity|]). contradiction. }
    unfold parse_overflows. destruct (K x sx w Hx Hsx) as [-> ->]. destruct Hw as [[-> ->]|(sy & -> & Hsy)]; [reflexivity|].
    destruct (K y sy [] Hy Hsy) as [-> ->]. reflexivity. }
  assert (Hp : starts_plain (sx :: w)).
  { apply (spells_plain x); [exact Hsx|]. clear - Hx. unfold ks in Hx. repeat (destruct Hx as [<-|Hx]; [vm_compute; reflexivity|]). contradiction. }
  split; intros (Hsh & Hc & Hd & Hco).
  - apply (short_value pP pF pI zero V_eqb blank parent c l1 m l2 _ _ _ _ _ _ _ "overflow-x" (Key x) (proj1 shorts_in) Hsh Hc Hd Hco (or_introl eq_refl) Hp E).
    + apply parts_known. reflexivity.
    + cbn [map fst]. repeat constructor; cbn; intuition discriminate.
    + now left.
  - apply (short_value pP pF pI zero V_eqb blank parent c l1 m l2 _ _ _ _ _ _ _ "overflow-y" (Key y) (proj1 shorts_in) Hsh Hc Hd Hco (or_introl eq_refl) Hp E).
    + apply parts_known. reflexivity.
    + cbn [map fst]. repeat constructor; cbn; intuition discriminate.
    + right. now left.
Qed.

(** [visible] next to another value should become [auto] (css-overflow-3 3.1); it stays. *)
Theorem C154_visible_refuted : forall x sx sy blank parent l1 m l2 c,
  In x ["hidden"; "scroll"; "auto"] -> spells x sx -> spells "visible" sy ->
  counted "overflow-y" "overflow" [sx; sy] blank parent l1 m l2 c -> c_get c "overflow-y" = Value (Key "visible").
Proof.
  intros x sx sy blank parent l1 m l2 c Hx Hsx Hsy. refine (proj2 (C154_overflow_partial x "visible" sx [sy] blank parent l1 m l2 c _ _ Hsx _)).
  - now right.
  - now left.
  - right. now exists sy.
Qed.

(** [overflow: clip] says nothing, and what was said before stays. *)
Theorem C154_clip_refuted : forall s blank parent m c, spells "clip" s -> 
  declares "overflow" [s] m -> compute_values G blank parent [m] = Ok c ->
  c_get c "overflow-x" = Value (Key "visible") /\ c_get c "overflow-y" = Value (Key "visible").
Proof.
  intros s blank parent m c Hs (fuel & Hd) Hc.
  assert (K : parse_overflows [s] = (None, [s]) :> option V * _).
  { unfold parse_overflows. assert (eat_wss [s] = [s]) as -> by (destruct Hs as (d & -> & _); reflexivity).
    unfold parse_overflow, named, map_fst. kw "clip" Hs. reflexivity. }
  pose proof (resolve_registered _ (long_good pP pF pI zero) _ (proj1 shorts_in)) as Hr. cbn [overflow_short short r_name] in Hr.
  assert (Hp : starts_plain [s]) by (apply (spells_plain "clip"); [exact Hs|vm_compute; reflexivity]).
  pose proof Hd as Hd'.
  rewrite (read_deferred pP pF pI zero fuel _ _ [s] Hr Hp) in Hd.
  2:{ intros v. cbn [overflow_short short r_parse]. unfold as_, map_fst. rewrite K. discriminate. }
  2:{ intros v c'. cbn [overflow_short short r_parse]. unfold as_, map_fst. rewrite K. discriminate. }
  injection Hd as Hd.
  assert (Hmade : Forall (fun m : matched => made_by G (m_prop m)) [m]).
  { constructor; [|constructor]. apply read_reg; [apply long_good|]. exists fuel. eexists. eexists. exact Hd'. }
  assert (Hno : forall k, In k ["overflow-x"; "overflow-y"] -> c_get c k = Value (Key "visible")).
  { intros k Hk.
    assert (Hin : In (longhand k false (Key "visible") parse_overflow) longhands).
    { destruct Hk as [<-|[<-|[]]]; [exact (nth_error_In longhands 32 eq_refl)|exact (nth_error_In longhands 33 eq_refl)]. }
    rewrite (compute_undeclared V_eqb G (long_good pP pF pI zero) [] _ k keep (long_owns pP pF pI zero k _ _ _ Hin) blank parent [m] c Hmade Hc); [reflexivity|].
    constructor; [|constructor]. split; [|intros n []]. intros [_ [X|(x & X & Hx)]].
    - rewrite <- Hd in X. cbn in X. destruct Hk as [<-|[<-|[]]]; discriminate.
    - rewrite <- Hd in X. unfold ex in X. cbn [overflow_short short is_short prop_reg r_short expansion] in X. unfold expand_property in X.
      rewrite (expand_spells _ _ (c_custom c) Hs) in X. destruct (@plain_start V field _ Hp) as (E1 & _). rewrite E1 in X.
      cbn [overflow_short short r_parse r_short] in X. unfold as_, map_fst in X. rewrite K in X. cbn [fst option_map map] in X. injection X as <-. contradiction. }
  split; apply Hno; cbn; auto.
Qed.

(** ** C155: flex-flow and flex *)

Theorem C155_flex_flow : forall d w wd ww content blank parent l1 m l2 c,
  one_of d ["row"; "row-reverse"; "column"; "column-reverse"] -> one_of w ["nowrap"; "wrap"; "wrap-reverse"] -> (d, w) <> (None, None) ->
  maybe d wd -> maybe w ww -> content = (wd ++ ww)%list \/ content = (ww ++ wd)%list ->
  (counted "flex-direction" "flex-flow" content blank parent l1 m l2 c -> c_get c "flex-direction" = Value (Key (or_else d "row"))) /\
  (counted "flex-wrap" "flex-flow" content blank parent l1 m l2 c -> c_get c "flex-wrap" = Value (Key (or_else w "nowrap"))).
Proof.
  intros d w wd ww content blank parent l1 m l2 c Hd Hw Hne Wd Ww Hcont.
  assert (E : parse_flow content = (Some (Pair (Key (or_else d "row")) (Key (or_else w "nowrap"))), []) :> option V * _).
  { clear - Hd Hw Hne Wd Ww Hcont.
    assert (Dd : forall k s r, In k ["row"; "row-reverse"; "column"; "column-reverse"] -> spells k s ->
       parse_direction (s :: r) = (Some (Key k), r) :> option V * _ /\ parse_wrap (s :: r) = (None, s :: r) :> option V * _).
    { intros k s r Hk Hs. unfold parse_direction, parse_wrap, keys, map_fst. cbn [map].
      repeat (destruct Hk as [<-|Hk]; [match type of Hs with spells ?k _ => kw k Hs; split; [reflexivity|]; kw k Hs end; reflexivity|]). contradiction. }
    assert (Dw : forall k s r, In k ["nowrap"; "wrap"; "wrap-reverse"] -> spells k s ->
       parse_wrap (s :: r) = (Some (Key k), r) :> option V * _ /\ parse_direction (s :: r) = (None, s :: r) :> option V * _).
    { intros k s r Hk Hs. unfold parse_direction, parse_wrap, keys, map_fst. cbn [map].
      repeat (destruct Hk as [<-|Hk]; [match type of Hs with spells ?k _ => kw k Hs; split; [reflexivity|]; kw k Hs end; reflexivity|]). contradiction. }
    unfold parse_flow. destruct d as [d|], w as [w|]; cbn [maybe one_of or_else] in *; try (now contradiction Hne).
    - destruct Wd as (s & -> & Hs), Ww as (s' & -> & Hs'). destruct Hcont as [->| ->]; cbn [app].
      + destruct (Dd d s [s'] Hd Hs) as [-> _]. destruct (Dw w s' [] Hw Hs') as [-> _]. reflexivity.
      + destruct (Dw w s' [s] Hw Hs') as [A B]. rewrite B, A. destruct (Dd d s [] Hd Hs) as [-> _]. reflexivity.
    - destruct Wd as (s & -> & Hs). subst ww. destruct (Dd d s [] Hd Hs) as [A _]. destruct Hcont as [->| ->]; cbn [app]; rewrite A; reflexivity.
    - destruct Ww as (s & -> & Hs). subst wd. destruct (Dw w s [] Hw Hs) as [A B]. destruct Hcont as [->| ->]; cbn [app]; rewrite B, A; reflexivity. }
  assert (Hp : starts_plain content).
  { assert (K : forall k s r, In k ["row"; "row-reverse"; "column"; "column-reverse"; "nowrap"; "wrap"; "wrap-reverse"] -> spells k s -> starts_plain (s :: r)).
    { clear. intros k s r Hk Hs. apply (spells_plain k); [exact Hs|]. repeat (destruct Hk as [<-|Hk]; [vm_compute; reflexivity|]). contradiction. }
    clear - K Hd Hw Hne Wd Ww Hcont.
    destruct d as [d|], w as [w|]; cbn [maybe one_of or_else] in *; try (now contradiction Hne).
    - destruct Wd as (s & -> & Hs), Ww as (s' & -> & Hs'). destruct Hcont as [->| ->]; cbn [app]; [apply (K d)|apply (K w)]; auto; cbn in Hd, Hw |- *; tauto.
    - destruct Wd as (s & -> & Hs). subst ww. destruct Hcont as [->| ->]; cbn [app]; apply (K d); auto; cbn in Hd |- *; tauto.
    - destruct Ww as (s & -> & Hs). subst wd. destruct Hcont as [->| ->]; cbn [app]; apply (K w); auto; cbn in Hw |- *; tauto. }
  split; intros (Hsh & Hc & Hde & Hco).
  - apply (short_value pP pF pI zero V_eqb blank parent c l1 m l2 _ _ _ _ _ _ _ "flex-direction" _ (proj1 (proj2 shorts_in)) Hsh Hc Hde Hco (or_introl eq_refl) Hp E).
    + apply parts_known. reflexivity.
    + cbn [map fst]. repeat constructor; cbn; intuition discriminate.
    + now left.
  - apply (short_value pP pF pI zero V_eqb blank parent c l1 m l2 _ _ _ _ _ _ _ "flex-wrap" _ (proj1 (proj2 shorts_in)) Hsh Hc Hde Hco (or_introl eq_refl) Hp E).
    + apply parts_known. reflexivity.
    + cbn [map fst]. repeat constructor; cbn; intuition discriminate.
    + right. now left.
Qed.

Lemma number_reads w q : number_is w q -> exists s q', w = [s] /\ q' == q /\ starts_plain w /\ (forall k, is_ident k s = false) /\
  forall r, parse_number (w ++ r) = (Some q', r).
Proof.
  intros (d & -> & O & Hq). destruct (atof_show d [] O Logic.I) as (q' & E & Hv). rewrite app_nil_r in E.
  exists (TOK (mkT NUMBER (show_decimal d))), q'. split; [reflexivity|]. split; [now rewrite Hq|]. split; [|split].
  - split; [repeat constructor|]. split; [discriminate|]. intros t Ht. injection Ht as <-. discriminate.
  - reflexivity.
  - intros r. cbn [app parse_number t_type t_data ttype_beq]. now rewrite E.
Qed.

Lemma basis_reads w b : spares_idents pP -> basis_is w b -> starts_plain w /\ (forall r, parse_number (w ++ r)%list = (None, (w ++ r)%list)) /\
  (exists s w', w = s :: w' /\ is_ident "none" s = false /\ is_ident "initial" s = false) /\ forall r, parse_basis pP pF (w ++ r)%list = (Some b, r).
Proof.
  intros HP [(k & s & Hk & -> & Hs & ->)|(p & (Hpl & Hh & Hr) & ->)].
  - assert (Hk' : existsb (fun x => str_eqb (of_string k) (map lower (of_string x))) defaulting = false)
      by (clear - Hk; repeat (destruct Hk as [<-|Hk]; [vm_compute; reflexivity|]); contradiction).
    split; [exact (spells_plain _ _ _ Hs Hk')|]. split; [|split].
    + intros r. cbn [app]. exact (number_spells _ _ _ Hs).
    + exists s, []. split; [reflexivity|]. rewrite !(ident_spells _ _ _ Hs). clear - Hk. repeat (destruct Hk as [<-|Hk]; [vm_compute; split; reflexivity|]). contradiction.
    + intros r. cbn [app]. unfold parse_basis, parse_size, orelse, keys, as_, map_fst. cbn [map].
      repeat (destruct Hk as [<-|Hk]; [match type of Hs with spells ?k _ => kw k Hs; cbn [fst snd option_map]; kw k Hs; cbn [fst snd option_map] end; try reflexivity|]); [..|contradiction].
      all: rewrite (spare_spells pP _ _ _ HP Hs); cbn [fst snd option_map]; match type of Hs with spells ?k _ => kw k Hs end; reflexivity.
  - split; [exact Hpl|]. destruct w as [|s w]; [contradiction|]. 
    assert (Hid : match s with TOK t => t_type t <> IDENT | _ => True end) by (destruct s; tauto).
    split; [|split].
    + intros r. cbn [app]. destruct s as [t| | | |]; try reflexivity. cbn [parse_number].
      destruct (ttype_beq (t_type t) NUMBER) eqn:E; [|reflexivity]. apply internal_ttype_dec_bl in E. now destruct Hh.
    + exists s, w. split; [reflexivity|].
      assert (K : forall k, is_ident k s = false); [|split; apply K].
      { intros k. destruct (is_ident k s) eqn:E; [|reflexivity]. destruct s as [t| | | |]; cbn [is_ident] in E; try discriminate.
        unfold token_eqb in E. cbn [t_type] in E. apply andb_prop in E as [E _]. apply internal_ttype_dec_bl in E. contradiction. }
    + intros r. unfold parse_basis, parse_size, orelse, keys, as_, map_fst. 
      rewrite kw_other by (cbn [app]; destruct s; exact Hid). cbn [fst snd option_map].
      rewrite kw_other by (cbn [app]; destruct s; exact Hid). cbn [fst snd option_map]. rewrite Hr. reflexivity.
Qed.

(** Every form of [flex]. *)
Theorem C155_flex : forall content b g s blank parent l1 m l2 c,
  spares_idents pP -> spares_end pP -> flex_is content b g s ->
  (counted "flex-basis" "flex" content blank parent l1 m l2 c -> c_get c "flex-basis" = Value b) /\
  (counted "flex-grow" "flex" content blank parent l1 m l2 c -> exists q, c_get c "flex-grow" = Value (Num q) /\ q == g) /\
  (counted "flex-shrink" "flex" content blank parent l1 m l2 c -> exists q, c_get c "flex-shrink" = Value (Num q) /\ q == s).
Proof.
  intros content b g s blank parent l1 m l2 c HP HE Hf.
  assert (Hb0 : parse_basis pP pF [] = (None, []) :> option V * _).
  { unfold parse_basis, parse_size, orelse, keys, as_, map_fst. repeat (rewrite ?kw_end, ?HE; cbn [fst snd option_map]). reflexivity. }
  assert (E : starts_plain content /\ exists g' s', g' == g /\ s' == s /\ parse_flex pP pF zero content = (Some (Triple b (Num g') (Num s')), [])).
  { assert (N0 : parse_number [] = (None, [])) by reflexivity.
    destruct Hf as [x Hx|w g Hg|w1 g w2 s Hg Hs|w1 g w b Hg Hb|w1 g w2 s w b Hg Hs Hb|w b Hb|w b w1 g Hb Hg|w b w1 g w2 s Hb Hg Hs];
      try (destruct (number_reads _ _ Hg) as (x & g' & -> & Eg & Pg & Ig & Rg); cbn [app] in Rg);
      try (destruct (number_reads _ _ Hs) as (y & s' & -> & Es & Ps & Is & Rs); cbn [app] in Rs);
      try (destruct (basis_reads _ _ HP Hb) as (Pb & Nb & (z & w' & -> & Iz1 & Iz2) & Rb); cbn [app] in Nb, Rb).
    - split; [apply (spells_plain "none"); [exact Hx|vm_compute; reflexivity]|]. exists 0, 0. split; [reflexivity|]. split; [reflexivity|].
      cbn [parse_flex]. rewrite (ident_spells _ _ _ Hx). vm_compute. reflexivity.
    - split; [exact Pg|]. exists g', 1. split; [exact Eg|]. split; [reflexivity|]. cbn [parse_flex]. rewrite !Ig. unfold parse_grow_shrink. rewrite Rg, N0, Hb0. reflexivity.
    - split; [exact Pg|]. exists g', s'. split; [exact Eg|]. split; [exact Es|]. cbn [app parse_flex]. rewrite !Ig. unfold parse_grow_shrink. rewrite Rg, Rs, Hb0. reflexivity.
    - split; [exact Pg|]. exists g', 1. split; [exact Eg|]. split; [reflexivity|]. cbn [app parse_flex]. rewrite !Ig. unfold parse_grow_shrink. rewrite Rg.
      specialize (Nb []). specialize (Rb []). rewrite app_nil_r in Nb, Rb. now rewrite Nb, Rb.
    - split; [exact Pg|]. exists g', s'. split; [exact Eg|]. split; [exact Es|]. cbn [app parse_flex]. rewrite !Ig. unfold parse_grow_shrink. rewrite Rg, Rs.
      specialize (Rb []). rewrite app_nil_r in Rb. now rewrite Rb.
    - split; [exact Pb|]. exists 1, 1. split; [reflexivity|]. split; [reflexivity|]. cbn [parse_flex]. rewrite Iz1, Iz2. unfold parse_grow_shrink at 1.
      specialize (Nb []). specialize (Rb []). rewrite app_nil_r in Nb, Rb. now rewrite Nb, Rb.
    - split; [exact Pb|]. exists g', 1. split; [exact Eg|]. split; [reflexivity|]. cbn [app parse_flex]. rewrite Iz1, Iz2. unfold parse_grow_shrink at 1.
      rewrite Nb, Rb. unfold parse_grow_shrink. rewrite Rg. reflexivity.
    - split; [exact Pb|]. exists g', s'. split; [exact Eg|]. split; [exact Es|]. cbn [app parse_flex]. rewrite Iz1, Iz2. unfold parse_grow_shrink at 1.
      rewrite Nb, Rb. unfold parse_grow_shrink. rewrite Rg, Rs. reflexivity. }
  destruct E as (Hp & g' & s' & Eg & Es & E).
  split; [|split]; intros (Hsh & Hc & Hde & Hco).
  - apply (short_value pP pF pI zero V_eqb blank parent c l1 m l2 _ _ _ _ _ _ _ "flex-basis" _ (proj1 (proj2 (proj2 shorts_in))) Hsh Hc Hde Hco (or_introl eq_refl) Hp E).
    + apply parts_known. reflexivity.
    + cbn [map fst]. repeat constructor; cbn; intuition discriminate.
    + now left.
  - exists g'. split; [|exact Eg].
    apply (short_value pP pF pI zero V_eqb blank parent c l1 m l2 _ _ _ _ _ _ _ "flex-grow" _ (proj1 (proj2 (proj2 shorts_in))) Hsh Hc Hde Hco (or_introl eq_refl) Hp E).
    + apply parts_known. reflexivity.
    + cbn [map fst]. repeat constructor; cbn; intuition discriminate.
    + right. now left.
  - exists s'. split; [|exact Es].
    apply (short_value pP pF pI zero V_eqb blank parent c l1 m l2 _ _ _ _ _ _ _ "flex-shrink" _ (proj1 (proj2 (proj2 shorts_in))) Hsh Hc Hde Hco (or_introl eq_refl) Hp E).
    + apply parts_known. reflexivity.
    + cbn [map fst]. repeat constructor; cbn; intuition discriminate.
    + right. right. now left.
Qed.

End Longhand.
