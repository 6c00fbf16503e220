(** C156 to C160: lists, [vertical-align], numbers and lengths, from declarations to computed values. *)
From Coq Require Import String List NArith ZArith QArith Bool Lia PeanoNat.
From Verif.Base Require Import Str Outcome.
From Verif.Css Require Import LexerModel ParserModel.
From Verif.Values Require Import Number CalcModel LengthModel ColorProofs.
From Verif.Style Require Import CascadeModel CascadeSpec CascadeProofs.
From Verif.Props Require Import VarModel VarProofs EngineModel EngineSpec EngineProofs EngineProofs2 EngineProofs3 EngineProofs4
  BoxPropModel BoxPropSpec BoxPropProofs LonghandModel LonghandSpec LonghandProofs LonghandProofs2 LonghandProps.
Import ListNotations.
Local Open Scope list_scope.
Local Open Scope string_scope.

Section Longhand.
Context {P F I : Type}
        (pP : list sst -> option P * list sst) (pF : list sst -> option F * list sst)
        (pI : list sst -> option I * list sst) (zero : P).
Variable V_eqb : @V P F I -> @V P F I -> bool.
Local Notation V := (@V P F I).
Local Notation G := (@long_registry P F I pP pF pI zero).
Local Notation matched := (matched V field).
Local Notation computed := (computed V field).
Local Notation prop := (prop V field).
Local Notation compute_values := (compute_values V_eqb).
Local Notation longhands := (@longhands P F I pP pF pI zero).
Local Notation declares := (declares pP pF pI zero).
Local Notation from_sheet := (from_sheet pP pF pI zero).
Local Notation initials := (@initials P F I zero).
Local Notation flex_is := (@flex_is P F I pP zero).
Local Notation list_is := (@list_is P F I pI).
Local Notation basis_is := (@basis_is P F I pP).
Local Notation vertical_part := (@vertical_part P F I pP).

Local Notation counted := (counted pP pF pI zero V_eqb).
Local Notation shorts_in := (shorts_in pP pF pI zero).

(** ** C156: list-style *)

Lemma counter_reads w t : spares_idents pI -> @counter P F I w t -> exists s, w = [s] /\ starts_plain w /\
  forall r, keys ["none"] (s :: r) = (None, s :: r) :> option V * _ /\ parse_list_image pI (s :: r) = (None, s :: r) :> option V * _ /\ parse_list_type (s :: r) = (Some t, r).
Proof.
  intros HI (d & -> & -> & Hd). 
  assert (K : forall k, In k ["none"; "inside"; "outside"; "initial"; "inherit"; "unset"; "revert"] -> is_ident k (TOK (mkT IDENT d)) = false).
  { intros k Hk. destruct (is_ident k (TOK (mkT IDENT d))) eqn:E; [|reflexivity]. exfalso. apply Hd.
    cbn [is_ident] in E. unfold token_eqb in E. cbn [t_type t_data ttype_beq andb] in E. apply eq_ci_spec in E. unfold ColorSpec.same_letters in E. rewrite E.
    apply in_map_iff. exists k. split; [|exact Hk]. clear - Hk. repeat (destruct Hk as [<-|Hk]; [reflexivity|]). contradiction. }
  exists (TOK (mkT IDENT d)). split; [reflexivity|]. split; [|intros r; split; [|split]].
  - split; [repeat (apply Forall_cons; [apply K; cbn; tauto|]); apply Forall_nil|]. split; [discriminate|]. intros t Ht. injection Ht as <-. discriminate.
  - unfold keys, map_fst. cbn [map parse_keyword]. rewrite K by (cbn; tauto). reflexivity.
  - unfold parse_list_image, orelse, keys, as_, map_fst. cbn [map parse_keyword]. rewrite K by (cbn; tauto). cbn [fst snd option_map]. rewrite HI. reflexivity.
  - unfold parse_list_type, orelse, keys, as_, map_fst. cbn [map parse_keyword]. rewrite K by (cbn; tauto). reflexivity.
Qed.
Lemma picture_reads w i : @picture P F I pI w i -> exists s w', w = s :: w' /\ starts_plain w /\
  forall r, keys ["none"] (w ++ r) = (None, w ++ r)%list :> option V * _ /\ parse_list_image pI (w ++ r) = (Some i, r).
Proof.
  intros (x & (Hp & Hh & Hr) & ->). destruct w as [|s w]; [contradiction|]. exists s, w. split; [reflexivity|]. split; [exact Hp|].
  assert (Hid : match s with TOK t => t_type t <> IDENT | _ => True end) by (destruct s; tauto).
  intros r. split; unfold parse_list_image, orelse, keys, as_, map_fst; rewrite kw_other by (cbn [app]; destruct s; exact Hid); [reflexivity|].
  cbn [fst snd option_map]. rewrite Hr. reflexivity.
Qed.

(** The image and the type that are given are set, and what is not given is reset. *)
Theorem C156_list_style_partial : forall content i t blank parent l1 m l2 c,
  spares_idents pI -> list_is content i t ->
  (counted "list-style-image" "list-style" content blank parent l1 m l2 c -> c_get c "list-style-image" = Value i) /\
  (counted "list-style-type" "list-style" content blank parent l1 m l2 c -> c_get c "list-style-type" = Value t) /\
  (counted "list-style-position" "list-style" content blank parent l1 m l2 c -> c_get c "list-style-position" = Value (Key "outside")).
Proof.
  intros content i t blank parent l1 m l2 c HI Hl.
  assert (KN : forall s r, spells "none" s -> keys ["none"] (s :: r) = (Some (Key "none"), r) :> option V * _).
  { intros s r Hs. unfold keys, map_fst. cbn [map]. kw "none" Hs. reflexivity. }
  assert (SN : forall s r, spells "none" s -> starts_plain (s :: r)).
  { intros s r Hs. apply (spells_plain "none"); [exact Hs|vm_compute; reflexivity]. }
  assert (E : starts_plain content /\ parse_list_style pI content = (Some (Triple i t (Key "outside")), [])).
  { assert (Tstep : forall n a ty p w v r, @counter P F I w v -> list_loop pI (S n) a ty p (w ++ r)%list = list_loop pI n a v p r).
    { intros n a ty p w v r Hw. destruct (counter_reads _ _ HI Hw) as (s & -> & _ & R). destruct (R r) as (R1 & R2 & R3). cbn [app list_loop]. now rewrite R1, R2, R3. }
    assert (Istep : forall n a ty p w v r, @picture P F I pI w v -> list_loop pI (S n) a ty p (w ++ r)%list = list_loop pI n v ty p r).
    { intros n a ty p w v r Hw. destruct (picture_reads _ _ Hw) as (s & w' & -> & _ & R). destruct (R r) as (R1 & R2). cbn [app list_loop] in *. now rewrite R1, R2. }
    assert (Nstep : forall n (a ty p : V) s r, spells "none" s -> list_loop pI (S n) a ty p (s :: r) = list_loop pI n (Key "none") (Key "none") p r).
    { intros n a ty p s r Hs. cbn [list_loop]. now rewrite KN. }
    assert (End : forall n (a ty p : V), list_loop pI n a ty p [] = (Some (Triple a ty p), [])) by (intros [|n]; reflexivity).
    unfold parse_list_style.
    destruct Hl as [s Hs|w t Ht|w i Hi|w t w' i Ht Hi|w t w' i Ht Hi|s w t Hs Ht|s w i Hs Hi];
      try (pose proof (counter_reads _ _ HI Ht) as (x & Ew & Px & _)); try (pose proof (picture_reads _ _ Hi) as (y & w0 & Ey & Py & _)).
    - split; [now apply SN|]. cbn [List.length]. now rewrite Nstep, End.
    - split; [exact Px|]. assert (List.length w = S (pred (List.length w))) as -> by (subst w; reflexivity).
      rewrite <- (app_nil_r w) at 2. now rewrite (Tstep _ _ _ _ w t), End.
    - split; [exact Py|]. assert (List.length w = S (pred (List.length w))) as -> by (subst w; reflexivity).
      rewrite <- (app_nil_r w) at 2. now rewrite (Istep _ _ _ _ w i), End.
    - split; [subst w; exact Px|]. assert (List.length (w ++ w') = S (S (pred (List.length w')))) as -> by (subst w w'; reflexivity).
      rewrite (Tstep _ _ _ _ w t) by exact Ht. rewrite <- (app_nil_r w') at 2. now rewrite (Istep _ _ _ _ w' i), End.
    - split; [subst w'; exact Py|]. assert (List.length (w' ++ w) = S (S (pred (pred (List.length (w' ++ w)))))) as -> by (subst w w'; cbn [app List.length]; rewrite app_length; cbn; lia).
      rewrite (Istep _ _ _ _ w' i) by exact Hi. rewrite <- (app_nil_r w) at 2. now rewrite (Tstep _ _ _ _ w t), End.
    - split; [now apply SN|]. cbn [List.length]. rewrite Nstep by exact Hs. assert (List.length w = S (pred (List.length w))) as -> by (subst w; reflexivity).
      rewrite <- (app_nil_r w) at 2. now rewrite (Tstep _ _ _ _ w t), End.
    - split; [now apply SN|]. cbn [List.length]. rewrite Nstep by exact Hs. assert (List.length w = S (pred (List.length w))) as -> by (subst w; reflexivity).
      rewrite <- (app_nil_r w) at 2. now rewrite (Istep _ _ _ _ w i), End. }
  destruct E as [Hp E]. pose proof (proj1 (proj2 (proj2 (proj2 shorts_in)))) as Hin.
  split; [|split]; intros (Hsh & Hc & Hde & Hco).
  - apply (short_value pP pF pI zero V_eqb blank parent c l1 m l2 _ _ _ _ _ _ _ "list-style-image" _ Hin Hsh Hc Hde Hco (or_introl eq_refl) Hp E).
    + apply parts_known. reflexivity.
    + cbn [map fst]. repeat constructor; cbn; intuition discriminate.
    + now left.
  - apply (short_value pP pF pI zero V_eqb blank parent c l1 m l2 _ _ _ _ _ _ _ "list-style-type" _ Hin Hsh Hc Hde Hco (or_introl eq_refl) Hp E).
    + apply parts_known. reflexivity.
    + cbn [map fst]. repeat constructor; cbn; intuition discriminate.
    + right. now left.
  - apply (short_value pP pF pI zero V_eqb blank parent c l1 m l2 _ _ _ _ _ _ _ "list-style-position" _ Hin Hsh Hc Hde Hco (or_introl eq_refl) Hp E).
    + apply parts_known. reflexivity.
    + cbn [map fst]. repeat constructor; cbn; intuition discriminate.
    + right. right. now left.
Qed.

(** The position cannot be given: [inside] and [outside] are read as the name of a counter style. *)
Theorem C156_position_refuted : forall k s blank parent l1 m l2 c,
  spares_idents pI -> In k ["inside"; "outside"] -> spells k s ->
  (counted "list-style-position" "list-style" [s] blank parent l1 m l2 c -> c_get c "list-style-position" = Value (Key "outside")) /\
  (counted "list-style-type" "list-style" [s] blank parent l1 m l2 c -> exists d, map lower d = of_string k /\ c_get c "list-style-type" = Value (Ident d)).
Proof.
  intros k s blank parent l1 m l2 c HI Hk Hs.
  assert (Hp : starts_plain [s]) by (apply (spells_plain k); [exact Hs|]; clear - Hk; repeat (destruct Hk as [<-|Hk]; [vm_compute; reflexivity|]); contradiction).
  assert (E : exists d, map lower d = of_string k /\ parse_list_style pI [s] = (Some (Triple (Key "none") (Ident d) (Key "outside")), []) :> option V * _).
  { assert (K : keys ["none"] [s] = (None, [s]) :> option V * _).
    { unfold keys, map_fst. cbn [map]. destruct Hk as [<-|[<-|[]]]; [kw "inside" Hs|kw "outside" Hs]; reflexivity. }
    pose proof (spare_spells pI _ _ [] HI Hs) as HS. destruct Hs as (d & -> & Hd). exists d. split; [exact Hd|].
    unfold parse_list_style. cbn [List.length list_loop]. rewrite K. unfold parse_list_image, orelse. rewrite K. unfold as_ at 1, map_fst at 1. rewrite HS.
    cbn [fst snd option_map]. unfold parse_list_type, orelse. rewrite K. reflexivity. }
  destruct E as (d & Hd & E). pose proof (proj1 (proj2 (proj2 (proj2 shorts_in)))) as Hin.
  split; intros (Hsh & Hc & Hde & Hco).
  - apply (short_value pP pF pI zero V_eqb blank parent c l1 m l2 _ _ _ _ _ _ _ "list-style-position" _ Hin Hsh Hc Hde Hco (or_introl eq_refl) Hp E).
    + apply parts_known. reflexivity.
    + cbn [map fst]. repeat constructor; cbn; intuition discriminate.
    + right. right. now left.
  - exists d. split; [exact Hd|].
    apply (short_value pP pF pI zero V_eqb blank parent c l1 m l2 _ _ _ _ _ _ _ "list-style-type" _ Hin Hsh Hc Hde Hco (or_introl eq_refl) Hp E).
    + apply parts_known. reflexivity.
    + cbn [map fst]. repeat constructor; cbn; intuition discriminate.
    + right. now left.
Qed.

(** [none] after a type is about the image only; here it takes the type away. *)
Theorem C156_none_refuted : forall w t s blank parent l1 m l2 c,
  spares_idents pI -> @counter P F I w t -> spells "none" s ->
  counted "list-style-type" "list-style" (w ++ [s])%list blank parent l1 m l2 c -> c_get c "list-style-type" = Value (Key "none").
Proof.
  intros w t s blank parent l1 m l2 c HI Ht Hs (Hsh & Hc & Hde & Hco).
  destruct (counter_reads _ _ HI Ht) as (x & -> & Hp & R). destruct (R [s]) as (R1 & R2 & R3).
  assert (E : parse_list_style pI [x; s] = (Some (Triple (Key "none") (Key "none") (Key "outside")), []) :> option V * _).
  { unfold parse_list_style. cbn [List.length list_loop]. rewrite R1, R2, R3. unfold keys, map_fst. cbn [map]. kw "none" Hs. reflexivity. }
  apply (short_value pP pF pI zero V_eqb blank parent c l1 m l2 _ _ _ _ _ _ _ "list-style-type" _ (proj1 (proj2 (proj2 (proj2 shorts_in)))) Hsh Hc Hde Hco (or_introl eq_refl) Hp E).
  - apply parts_known. reflexivity.
  - cbn [map fst]. repeat constructor; cbn; intuition discriminate.
  - right. now left.
Qed.

(** ** C157: vertical-align *)

Fixpoint slot (n : string) (items : list (string * V)) (d : option V) : option V :=
  match items with
  | [] => d
  | (k, v) :: r => if String.eqb k n then Some v else slot n r d
  end.
Lemma slot_none n items d : ~ In n (map fst items) -> slot n items d = d.
Proof.
  induction items as [|[k v] r IH]; [reflexivity|]. cbn [map fst slot]. intros H. destruct (String.eqb k n) eqn:E.
  - apply String.eqb_eq in E. exfalso. apply H. now left.
  - apply IH. intros X. apply H. now right.
Qed.
Lemma slot_in n v items d : NoDup (map fst items) -> In (n, v) items -> slot n items d = Some v.
Proof.
  induction items as [|[k u] r IH]; [contradiction|]. cbn [map fst slot]. intros Hn [E|H].
  - injection E as -> ->. now rewrite String.eqb_refl.
  - inversion Hn as [|? ? Hno Hn']; subst. destruct (String.eqb k n) eqn:E; [|auto]. apply String.eqb_eq in E. subst k. exfalso. apply Hno.
    apply in_map_iff. now exists (n, v).
Qed.

Lemma part_step n w v : spares_idents pP -> vertical_part n w v ->
  (exists s w', w = s :: w' /\ starts_plain w) /\
  forall fuel a b c r,
    (n = "baseline-source" -> a = None -> vertical_loop pP (S fuel) a b c (w ++ r)%list = vertical_loop pP fuel (Some v) b c r) /\
    (n = "alignment-baseline" -> b = None -> vertical_loop pP (S fuel) a b c (w ++ r)%list = vertical_loop pP fuel a (Some v) c r) /\
    (n = "baseline-shift" -> c = None -> vertical_loop pP (S fuel) a b c (w ++ r)%list = vertical_loop pP fuel a b (Some v) r).
Proof.
  intros HP [(k & s & -> & Hs & -> & Hk)|(-> & p & (Hpl & Hh & Hr) & ->)].
  - split.
    { exists s, []. split; [reflexivity|]. apply (spells_plain k); [exact Hs|]. clear - Hk.
      destruct Hk as [[_ Hk]|[[_ Hk]|[_ Hk]]]; repeat (destruct Hk as [<-|Hk]; [vm_compute; reflexivity|]); contradiction. }
    intros fuel a b c r. cbn [app].
    assert (D : forall x, In k x -> n = "baseline-source" \/ n = "alignment-baseline" \/ n = "baseline-shift") by (intros; tauto).
    split; [|split]; intros -> ->; destruct Hk as [[En Hk]|[[En Hk]|[En Hk]]]; try discriminate En; cbn [vertical_loop];
      unfold parse_alignment, parse_shift, orelse, keys, as_, map_fst; cbn [map];
      repeat (destruct Hk as [<-|Hk]; [match type of Hs with spells ?k _ =>
        kw k Hs; cbn [fst snd option_map]; try reflexivity; kw k Hs; cbn [fst snd option_map]; try reflexivity; rewrite (spare_spells pP _ _ _ HP Hs); cbn [fst snd option_map]; kw k Hs; reflexivity end|]); contradiction.
  - destruct w as [|s w]; [contradiction|].
    assert (Hid : match s with TOK t => t_type t <> IDENT | _ => True end) by (destruct s; tauto).
    split; [exists s, w; split; [reflexivity|exact Hpl]|].
    intros fuel a b c r. split; [discriminate|]. split; [discriminate|]. intros _ ->.
    specialize (Hr r). cbn [app] in *. cbn [vertical_loop]. unfold parse_alignment, parse_shift, orelse, keys, as_, map_fst.
    rewrite kw_other by (destruct s; exact Hid). cbn [fst snd option_map]. rewrite kw_other by (destruct s; exact Hid). cbn [fst snd option_map]. rewrite Hr. reflexivity.
Qed.

(** The parts that are given, in any order, are set. *)
Theorem C157_vertical_align_partial : forall items ws n v blank parent l1 m l2 c,
  spares_idents pP -> items <> [] -> NoDup (map fst items) ->
  Forall2 (fun x w => vertical_part (fst x) w (snd x)) items ws -> In (n, v) items ->
  counted n "vertical-align" (concat ws) blank parent l1 m l2 c -> c_get c n = Value v.
Proof.
  intros items ws n v blank parent l1 m l2 c HP Hne Hnd Hws Hin (Hsh & Hc & Hde & Hco).
  assert (Hnames : forall k u, In (k, u) items -> k = "baseline-source" \/ k = "alignment-baseline" \/ k = "baseline-shift").
  { clear - Hws. induction Hws as [|[k u] w items ws Hw Hws IH]; [intros ? ? []|]. intros k' u' [E|H]; [|eauto]. injection E as <- <-.
    cbn [fst snd] in Hw. destruct Hw as [(x & s & _ & _ & _ & H)|(-> & _)]; tauto. }
  assert (Loop : forall fuel a b d, (List.length (concat ws) <= fuel)%nat ->
    (In "baseline-source" (map fst items) -> a = None) -> (In "alignment-baseline" (map fst items) -> b = None) -> (In "baseline-shift" (map fst items) -> d = None) ->
    items <> [] \/ (a, b, d) <> (None, None, None) ->
    vertical_loop pP fuel a b d (concat ws) =
      (Some (Opts (slot "baseline-source" items a) (slot "alignment-baseline" items b) (slot "baseline-shift" items d)), [])).
  { clear Hsh Hc Hde Hco Hin Hne. induction Hws as [|[k u] w items ws Hw Hws IH]; intros fuel a b d Hf Ha Hb Hd Hor.
    - cbn [concat slot]. destruct Hor as [X|X]; [now contradiction X|]. destruct fuel; cbn [vertical_loop]; destruct a, b, d; try reflexivity; now contradiction X.
    - cbn [map fst] in *. inversion Hnd as [|? ? Hno Hnd']; subst.
      destruct (part_step _ _ _ HP Hw) as ((s & w' & -> & _) & Hstep). cbn [concat] in *.
      destruct fuel as [|fuel]; [cbn [app List.length] in Hf; lia|].
      assert (Hf' : (List.length (concat ws) <= fuel)%nat) by (cbn [app List.length] in Hf; rewrite app_length in Hf; lia).
      destruct (Hstep fuel a b d (concat ws)) as (S1 & S2 & S3). clear Hstep. cbn [fst snd] in *.
      assert (Hn' : forall k u, In (k, u) items -> k = "baseline-source" \/ k = "alignment-baseline" \/ k = "baseline-shift") by (intros; eapply Hnames; right; eauto).
      destruct (Hnames k u (or_introl eq_refl)) as [->|[-> | ->]].
      + rewrite S1 by (try reflexivity; apply Ha; now left). rewrite (IH Hnd' Hn' fuel (Some u) b d Hf'); [|now intros X|intros X; apply Hb; now right|intros X; apply Hd; now right|right; discriminate].
        cbn [slot]. rewrite slot_none by exact Hno. reflexivity.
      + rewrite S2 by (try reflexivity; apply Hb; now left). rewrite (IH Hnd' Hn' fuel a (Some u) d Hf'); [|intros X; apply Ha; now right|now intros X|intros X; apply Hd; now right|right; destruct a; discriminate].
        cbn [slot]. rewrite slot_none with (d := Some u) by exact Hno. reflexivity.
      + rewrite S3 by (try reflexivity; apply Hd; now left). rewrite (IH Hnd' Hn' fuel a b (Some u) Hf'); [|intros X; apply Ha; now right|intros X; apply Hb; now right|now intros X|right; destruct a, b; discriminate].
        cbn [slot]. rewrite slot_none with (d := Some u) by exact Hno. reflexivity. }
  specialize (Loop (List.length (concat ws)) None None None (le_n _) (fun _ => eq_refl) (fun _ => eq_refl) (fun _ => eq_refl) (or_introl Hne)).
  assert (Hp : starts_plain (concat ws)).
  { destruct Hws as [|[k u] w items ws Hw Hws]; [now contradiction Hne|]. destruct (part_step _ _ _ HP Hw) as ((s & w' & -> & Hp) & _). exact Hp. }
  apply (short_value pP pF pI zero V_eqb blank parent c l1 m l2 "vertical-align" _ _ _ _ (concat ws) _ n v (proj2 (proj2 (proj2 (proj2 shorts_in)))) Hsh Hc Hde Hco) with (2 := Hp) (3 := Loop).
  - destruct (Hnames _ _ Hin) as [->|[-> | ->]]; now left.
  - apply parts_known. rewrite !forallb_app. now destruct (slot "baseline-source" items None), (slot "alignment-baseline" items None), (slot "baseline-shift" items None).
  - destruct (slot "baseline-source" items None), (slot "alignment-baseline" items None), (slot "baseline-shift" items None);
      cbn [given app map fst]; repeat constructor; cbn; intuition discriminate.
  - pose proof (slot_in n v items None Hnd Hin) as Hs. destruct (Hnames _ _ Hin) as [->|[-> | ->]]; rewrite Hs; cbn [given].
    + now left.
    + apply in_or_app. right. now left.
    + apply in_or_app. right. apply in_or_app. right. now left.
Qed.

(** ** C159: numbers *)

Lemma number_word d : starts_plain [TOK (mkT NUMBER d)].
Proof. split; [repeat constructor|]. split; [discriminate|]. intros t Ht. injection Ht as <-. discriminate. Qed.

(** [flex-grow], [flex-shrink] and [opacity] are the number that is written; a percentage of
    [opacity] is a hundredth of it; [z-index] is the integer. *)
Theorem C159_numbers_partial : forall blank parent l1 m l2 c,
  (forall n w q, In n ["flex-grow"; "flex-shrink"; "opacity"] -> number_is w q -> counted n n w blank parent l1 m l2 c ->
     exists q', c_get c n = Value (Num q') /\ q' == q) /\
  (forall d, decimal_ok d -> counted "opacity" "opacity" [TOK (mkT PERCENTAGE (show_decimal d))] blank parent l1 m l2 c ->
     exists q', c_get c "opacity" = Value (Num q') /\ q' * 100 == decimal_value d) /\
  (forall neg ds, integer_ok neg ds -> counted "z-index" "z-index" [TOK (mkT NUMBER (show_integer neg ds))] blank parent l1 m l2 c ->
     c_get c "z-index" = Value (Int (integer_value neg ds))).
Proof.
  intros blank parent l1 m l2 c. split; [|split].
  - intros n w q Hn (d & -> & O & Hq) (Hsh & Hc & Hde & Hco). destruct (atof_show d [] O Logic.I) as (q' & E & Hv). rewrite app_nil_r in E.
    exists q'. split; [|now rewrite Hq].
    destruct Hn as [<-|[<-|[<-|[]]]].
    + apply (long_value pP pF pI zero V_eqb blank parent c l1 m l2 "flex-grow" _ _ _ _ _ (nth_error_In longhands 45 eq_refl) Hsh Hc Hde Hco (number_word _)).
      unfold as_, map_fst. cbn [parse_number t_type t_data ttype_beq]. rewrite E. reflexivity.
    + apply (long_value pP pF pI zero V_eqb blank parent c l1 m l2 "flex-shrink" _ _ _ _ _ (nth_error_In longhands 46 eq_refl) Hsh Hc Hde Hco (number_word _)).
      unfold as_, map_fst. cbn [parse_number t_type t_data ttype_beq]. rewrite E. reflexivity.
    + apply (long_value pP pF pI zero V_eqb blank parent c l1 m l2 "opacity" _ _ _ _ _ (nth_error_In longhands 36 eq_refl) Hsh Hc Hde Hco (number_word _)).
      unfold parse_opacity, as_, map_fst. cbn [parse_percent parse_number t_type t_data ttype_beq]. rewrite E. reflexivity.
  - intros d O (Hsh & Hc & Hde & Hco). destruct (atof_show d [] O Logic.I) as (q' & E & Hv). rewrite app_nil_r in E.
    exists (q' / 100). split; [|rewrite <- Hv; field].
    apply (long_value pP pF pI zero V_eqb blank parent c l1 m l2 "opacity" _ _ _ _ _ (nth_error_In longhands 36 eq_refl) Hsh Hc Hde Hco).
    + split; [repeat constructor|]. split; [discriminate|]. intros t Ht. injection Ht as <-. discriminate.
    + unfold parse_opacity. cbn [parse_percent t_type t_data ttype_beq]. rewrite E. reflexivity.
  - intros neg ds O (Hsh & Hc & Hde & Hco). pose proof (atoi_show neg ds [] O Logic.I) as E. rewrite app_nil_r in E.
    apply (long_value pP pF pI zero V_eqb blank parent c l1 m l2 "z-index" _ _ _ _ _ (nth_error_In longhands 24 eq_refl) Hsh Hc Hde Hco (number_word _)).
    unfold orelse, keys, as_, map_fst. rewrite kw_other by discriminate. cbn [fst snd option_map parse_integer t_type t_data ttype_beq]. rewrite E. reflexivity.
Qed.

(** Numbers that CSS clamps ([opacity] to 0 and 1, css-color-4 3.2) or rejects (a negative
    [flex-grow], css-flexbox-1 7.1) are computed as they are. *)
Theorem C159_range_refuted : forall n w q blank parent l1 m l2 c,
  (n = "opacity" /\ (q < 0 \/ 1 < q)) \/ (In n ["flex-grow"; "flex-shrink"] /\ q < 0) -> number_is w q ->
  counted n n w blank parent l1 m l2 c -> exists q', c_get c n = Value (Num q') /\ q' == q.
Proof.
  intros n w q blank parent l1 m l2 c Hn Hw. apply (proj1 (C159_numbers_partial blank parent l1 m l2 c)); [|exact Hw]. destruct Hn as [[-> _]|[[<-|[<-|[]]] _]]; cbn; tauto.
Qed.

(** ** C160: lengths *)

Definition sized : list string :=
  ["row-gap"; "column-gap"; "baseline-shift"; "top"; "right"; "bottom"; "left"; "width"; "height"; "min-width"; "min-height";
   "max-width"; "max-height"; "flex-basis"].

Lemma sized_table : Forall (fun n => exists inh i p, In (longhand n inh i p) longhands /\
  forall w v, sound pP w v -> p w = (Some (Len v), [])) sized.
Proof.
  assert (W : forall w v, sound pP w v -> pP w = (Some v, []) /\ match w with TOK t :: _ => t_type t <> IDENT | _ => True end).
  { intros w v (_ & H & R). specialize (R []). rewrite app_nil_r in R. split; [exact R|]. destruct w as [|[]]; tauto. }
  assert (O : forall k w v, sound pP w v -> parse_or_len pP k w = (Some (Len v), []) :> option V * _).
  { intros k w v H. destruct (W _ _ H) as [A B]. unfold parse_or_len, orelse, keys, as_, map_fst. rewrite kw_other by exact B. cbn [fst snd option_map]. now rewrite A. }
  assert (Z : forall k w v, sound pP w v -> parse_size pP pF k w = (Some (Len v), []) :> option V * _).
  { intros k w v H. destruct (W _ _ H) as [A B]. unfold parse_size, orelse, keys, as_, map_fst. rewrite kw_other by exact B. cbn [fst snd option_map]. now rewrite A. }
  unfold sized. repeat (apply Forall_cons; [eexists; eexists; eexists; split|]); [..|apply Forall_nil].
  1: exact (nth_error_In longhands 6 eq_refl). 2: exact (nth_error_In longhands 7 eq_refl). 
  3: exact (nth_error_In longhands 11 eq_refl).
  4: exact (nth_error_In longhands 20 eq_refl). 5: exact (nth_error_In longhands 21 eq_refl).
  6: exact (nth_error_In longhands 22 eq_refl). 7: exact (nth_error_In longhands 23 eq_refl).
  8: exact (nth_error_In longhands 26 eq_refl). 9: exact (nth_error_In longhands 27 eq_refl).
  10: exact (nth_error_In longhands 28 eq_refl). 11: exact (nth_error_In longhands 29 eq_refl).
  12: exact (nth_error_In longhands 30 eq_refl). 13: exact (nth_error_In longhands 31 eq_refl).
  14: exact (nth_error_In longhands 43 eq_refl).
  all: try exact (O _); try exact (Z _).
  - intros w v H. destruct (W _ _ H) as [A B]. unfold parse_shift, orelse, as_, map_fst. now rewrite A.
  - intros w v H. destruct (W _ _ H) as [A B]. unfold parse_basis, orelse at 1, keys at 1, map_fst. rewrite kw_other by exact B. cbn [fst snd option_map]. now apply Z.
Qed.

(** A length or percentage is kept as it is. *)
Theorem C160_lengths_partial : forall n w v blank parent l1 m l2 c,
  In n sized -> sound pP w v -> counted n n w blank parent l1 m l2 c -> c_get c n = Value (Len v).
Proof.
  intros n w v blank parent l1 m l2 c Hn Hw (Hsh & Hc & Hde & Hco). pose proof sized_table as T. rewrite Forall_forall in T.
  destruct (T n Hn) as (inh & i & p & Hin & Hp).
  exact (long_value pP pF pI zero V_eqb blank parent c l1 m l2 n inh i p w (Len v) Hin Hsh Hc Hde Hco (proj1 Hw) (Hp w v Hw)).
Qed.

(** The old names of the gaps are as good as the new ones. *)
Theorem C160_old_names : forall o n content m, In (o, n) [("grid-row-gap", "row-gap"); ("grid-column-gap", "column-gap")] ->
  declares o content m <-> declares n content m.
Proof.
  intros o n content m H.
  assert (E : exists r, resolve G (of_string o) = Some r /\ resolve G (of_string n) = Some r).
  { destruct H as [H|[H|[]]]; injection H as <- <-; eexists; split; reflexivity. }
  destruct E as (r & E1 & E2). unfold LonghandSpec.declares, parse_value. now rewrite E1, E2.
Qed.

(** [position: running(x)] takes the element out of the flow, to be used on pages. *)
Theorem C160_running : forall f d rest r blank parent l1 m l2 c,
  map lower f = of_string "running(" ->
  r = [FUNC (mkT FUNCTION f) (TOK (mkT IDENT d) :: rest)] ->
  counted "position" "position" r blank parent l1 m l2 c -> c_get c "position" = Value (Running d).
Proof.
  intros f d rest r blank parent l1 m l2 c Hf -> (Hsh & Hc & Hde & Hco).
  apply (long_value pP pF pI zero V_eqb blank parent c l1 m l2 "position" _ _ _ _ _ (nth_error_In longhands 19 eq_refl) Hsh Hc Hde Hco).
  - split; [repeat constructor|]. split; [|discriminate]. intros n k E. injection E as <- _.
    destruct (token_eqb _ _) eqn:X; [|reflexivity]. unfold token_eqb in X. cbn [t_type t_data toggle_name ttype_beq andb] in X.
    apply eq_ci_spec in X. unfold ColorSpec.same_letters in X. rewrite Hf in X. discriminate.
  - unfold parse_position, orelse, keys, map_fst. rewrite kw_other by exact Logic.I. cbn [fst snd option_map].
    assert (token_eqb (mkT FUNCTION f) running_name = true) as ->; [|reflexivity].
    unfold token_eqb. cbn [t_type t_data running_name ttype_beq andb]. apply eq_ci_spec. unfold ColorSpec.same_letters. rewrite Hf. reflexivity.
Qed.

End Longhand.

Print Assumptions C151_keyword_partial.
Print Assumptions C151_alignment.
Print Assumptions C151_unsupported_refuted.
Print Assumptions C152_initial_partial.
Print Assumptions C152_initial_refuted.
Print Assumptions C153_display_partial.
Print Assumptions C153_order_refuted.
Print Assumptions C153_ruby_refuted.
Print Assumptions C154_overflow_partial.
Print Assumptions C154_visible_refuted.
Print Assumptions C154_clip_refuted.
Print Assumptions C155_flex_flow.
Print Assumptions C155_flex.
Print Assumptions C156_list_style_partial.
Print Assumptions C156_position_refuted.
Print Assumptions C156_none_refuted.
Print Assumptions C157_vertical_align_partial.
Print Assumptions C159_numbers_partial.
Print Assumptions C159_range_refuted.
Print Assumptions C160_lengths_partial.
Print Assumptions C160_old_names.
Print Assumptions C160_running.

(** ** With the lengths of values/calc.cpp, and addresses as images *)

Definition x_len (c : list sst) : option calc * list sst := match parse_calc c with Some (v, r) => (Some v, r) | None => (None, c) end.
Definition x_fit (c : list sst) : option percent_or * list sst := match parse_percent_or c with Some (v, r) => (Some v, r) | None => (None, c) end.
Definition x_img (c : list sst) : option str * list sst :=
  match c with
  | TOK t :: r => if ttype_beq (t_type t) URL then (Some (t_data t), r) else (None, c)
  | _ => (None, c)
  end.
Definition x_zero : calc := Val (VT (LengthModel.Len (Abs 0 PX))).
Local Notation XV := (@V calc percent_or str).
Definition X : registry XV field := long_registry x_len x_fit x_img x_zero.
Definition x_eqb (a b : XV) : bool := false.
Definition x_decl (i : bool) (d : string * list sst) : matched XV field :=
  match parse_value 9 X (of_string (fst d)) (snd d) with
  | Ok p => mkM p i AUTHOR (mkSpec 0 0 1)%Z
  | _ => mkM (Bogus []) i AUTHOR (mkSpec 0 0 1)%Z
  end.
Definition x_blank : computed XV field := mkC (fun _ => Content []) [].
Definition x_parent : computed XV field :=
  match compute_values x_eqb X x_blank (initial_values X x_blank) [x_decl false ("text-align", [keyword "center"])] with Ok c => c | _ => x_blank end.
Definition x_compute (ms : list (matched XV field)) : outcome (computed XV field) := compute_values x_eqb X x_blank x_parent ms.

Lemma x_spares : spares_idents x_len /\ spares_end x_len /\ spares_idents x_img.
Proof. split; [|split]; [intros d r; reflexivity|reflexivity|intros d r; reflexivity]. Qed.
Lemma x_spells k : map lower (of_string k) = of_string k -> spells k (keyword k).
Proof. intros H. exists (of_string k). auto. Qed.
Lemma x_within : within X.
Proof.
  split.
  - assert (B : forallb (fun q => existsb (str_eqb (r_name q)) (map of_string registered)) (g_props X) = true) by (vm_compute; reflexivity).
    rewrite forallb_forall in B. intros q Hq. specialize (B q Hq). apply existsb_exists in B as (n & Hn & E). apply str_eqb_spec in E. unfold among. now rewrite E.
  - intros a b H. cbn [X long_registry g_alias lookup] in H. destruct (str_eqb _ a) eqn:E; [apply str_eqb_spec in E; subst; cbn; tauto|].
    destruct (str_eqb (of_string "grid-column-gap") a) eqn:E2; [apply str_eqb_spec in E2; subst; cbn; tauto|discriminate].
Qed.

Definition x_reads (d : string * list sst) : bool := match parse_value 9 X (of_string (fst d)) (snd d) with Ok _ => true | _ => false end.
(** An important declaration counts, whatever the others are. *)
Lemma x_counted k n content l1 l2 : forallb x_reads (l1 ++ (n, content) :: l2) = true ->
  let ms := (map (x_decl false) l1 ++ x_decl true (n, content) :: map (x_decl false) l2)%list in
  match x_compute ms with Ok _ => True | _ => False end ->
  exists c, counted x_len x_fit x_img x_zero x_eqb k n content x_blank x_parent (map (x_decl false) l1) (x_decl true (n, content)) (map (x_decl false) l2) c.
Proof.
  intros Hr ms Hc. rewrite forallb_forall in Hr.
  destruct (x_compute ms) as [c| |] eqn:E; try contradiction. exists c. split; [|split; [exact E|split]].
  - assert (R : forall i d, In d (l1 ++ (n, content) :: l2)%list -> read X (m_prop (x_decl i d))).
    { intros i d Hd. specialize (Hr d Hd). unfold x_reads in Hr. unfold x_decl. exists 9%nat, (of_string (fst d)), (snd d).
      destruct (parse_value 9 X (of_string (fst d)) (snd d)); [reflexivity|discriminate|discriminate]. }
    apply Forall_forall. intros m Hm. apply in_app_or in Hm as [Hm|[<-|Hm]].
    + apply in_map_iff in Hm as (d & <- & Hd). apply R. apply in_or_app. now left.
    + apply R. apply in_or_app. right. now left.
    + apply in_map_iff in Hm as (d & <- & Hd). apply R. apply in_or_app. right. now right.
  - specialize (Hr (n, content) ltac:(apply in_or_app; right; now left)). unfold x_reads in Hr. exists 9%nat. unfold x_decl. cbn [fst snd] in *.
    change (long_registry x_len x_fit x_img x_zero) with X.
    destruct (parse_value 9 X (of_string n) content) as [p| |]; [reflexivity|discriminate Hr|discriminate Hr].
  - assert (W : forall d, weight_of (x_decl false d) = mkWeight false AUTHOR (mkSpec 0 0 1)%Z).
    { intros d. unfold x_decl. destruct (parse_value _ _ _ _); reflexivity. }
    assert (W' : weight_of (x_decl true (n, content)) = mkWeight true AUTHOR (mkSpec 0 0 1)%Z).
    { unfold x_decl. destruct (parse_value _ _ _ _); reflexivity. }
    split; apply Forall_forall; intros m Hm _; apply in_map_iff in Hm as (d & <- & _); rewrite W, W'.
    + unfold weaker. cbn. intuition discriminate.
    + unfold weaker. cbn. auto.
Qed.

Definition num (x : string) : sst := TOK (mkT NUMBER (of_string x)).
Definition px (x : string) : sst := TOK (mkT DIMENSION (of_string x)).
Definition address (x : string) : sst := TOK (mkT URL (of_string x)).
Ltac shown l1 l2 :=
  match goal with |- exists c, counted _ _ _ _ _ ?k ?n ?content _ _ _ _ _ c =>
    refine (x_counted k n content l1 l2 _ _); [vm_compute; reflexivity|vm_compute; exact Logic.I]
  end.

(** [float: left; float: RIGHT !important; clear: none] *)
Definition x_others : list (string * list sst) := [("float", [keyword "left"]); ("clear", [keyword "none"])].
Example C151_example : exists c, counted x_len x_fit x_img x_zero x_eqb "float" "float" [keyword "right"] x_blank x_parent
  (map (x_decl false) x_others) (x_decl true ("float", [keyword "right"])) (map (x_decl false) []) c.
Proof. shown x_others (@nil (string * list sst)). Qed.
Example C151_example_value : exists c, x_compute [x_decl false ("float", [TOK (mkT IDENT (of_string "RIGHT"))]); x_decl false ("text-align", [keyword "justify"])] = Ok c /\
  c_get c "float" = Value (Key "right") /\ c_get c "text-align" = Value (Key "justify").
Proof. apply by_value. vm_compute. auto. Qed.
Example C151_example_alignment : exists c, counted x_len x_fit x_img x_zero x_eqb "align-self" "align-self" [keyword "safe"; keyword "center"] x_blank x_parent
  (map (x_decl false) x_others) (x_decl true ("align-self", [keyword "safe"; keyword "center"])) (map (x_decl false) []) c.
Proof. shown x_others (@nil (string * list sst)). Qed.
(** [text-transform: uppercase; text-transform: lowercase] is [none], not [uppercase]. *)
Example C151_example_unsupported : exists c, x_compute [x_decl false ("text-transform", [keyword "uppercase"]); x_decl false ("text-transform", [keyword "lowercase"])] = Ok c /\
  c_get c "text-transform" = Value (Key "none").
Proof. apply by_value. vm_compute. auto. Qed.
Example C152_example : exists c, from_sheet x_len x_fit x_img x_zero [x_decl false ("float", [keyword "left"])] /\
  x_compute [x_decl false ("float", [keyword "left"])] = Ok c /\ silent "text-align" [x_decl false ("float", [keyword "left"])] /\
  c_get c "text-align" = Value (Key "center") /\ c_get c "white-space" = Value (Key "normal") /\ c_get c "display" = Value (Disp "flow" "inline" false).
Proof.
  assert (H : exists c, x_compute [x_decl false ("float", [keyword "left"])] = Ok c /\
    c_get c "text-align" = Value (Key "center") /\ c_get c "white-space" = Value (Key "normal") /\ c_get c "display" = Value (Disp "flow" "inline" false)).
  { apply by_value. vm_compute. auto. }
  destruct H as (c & Hc & A & B & C). exists c. split; [|split; [exact Hc|split; [|auto]]].
  - repeat constructor. exists 9%nat, (of_string "float"), [keyword "left"]. reflexivity.
  - repeat constructor. vm_compute. intuition discriminate.
Qed.
Example C152_example_inherit : exists c, counted x_len x_fit x_img x_zero x_eqb "text-align" "text-align" [keyword "unset"] x_blank x_parent
  (map (x_decl false) x_others) (x_decl true ("text-align", [keyword "unset"])) (map (x_decl false) [("text-align", [keyword "left"])]) c.
Proof. shown x_others [("text-align", [keyword "left"])]. Qed.
Example C153_example : exists c, counted x_len x_fit x_img x_zero x_eqb "display" "display" [keyword "flow-root"; keyword "inline"; keyword "list-item"] x_blank x_parent
  (map (x_decl false) x_others) (x_decl true ("display", [keyword "flow-root"; keyword "inline"; keyword "list-item"])) (map (x_decl false) [("display", [keyword "none"])]) c.
Proof. shown x_others [("display", [keyword "none"])]. Qed.
(** [display: inline flex] *)
Example C153_example_order : exists c, counted x_len x_fit x_img x_zero x_eqb "display" "display" [keyword "inline"; keyword "flex"] x_blank x_parent
  (map (x_decl false) x_others) (x_decl true ("display", [keyword "inline"; keyword "flex"])) (map (x_decl false) []) c.
Proof. shown x_others (@nil (string * list sst)). Qed.
Example C154_example : exists c, counted x_len x_fit x_img x_zero x_eqb "overflow-y" "overflow" [keyword "hidden"; keyword "visible"] x_blank x_parent
  (map (x_decl false) x_others) (x_decl true ("overflow", [keyword "hidden"; keyword "visible"])) (map (x_decl false) [("overflow-y", [keyword "auto"])]) c.
Proof. shown x_others [("overflow-y", [keyword "auto"])]. Qed.
Example C154_example_clip : exists c, x_compute [x_decl false ("overflow", [keyword "clip"])] = Ok c.
Proof. eexists. vm_compute. reflexivity. Qed.
Example C155_example : exists c, counted x_len x_fit x_img x_zero x_eqb "flex-wrap" "flex-flow" [keyword "wrap"; keyword "column"] x_blank x_parent
  (map (x_decl false) x_others) (x_decl true ("flex-flow", [keyword "wrap"; keyword "column"])) (map (x_decl false) []) c.
Proof. shown x_others (@nil (string * list sst)). Qed.

Lemma px_sound n : starts_plain [px n] -> match parse_calc [px n] with Some (v, []) => True | _ => False end ->
  (forall r, parse_calc (px n :: r) = match parse_calc [px n] with Some (v, _) => Some (v, r) | None => None end) ->
  exists v, sound x_len [px n] v.
Proof.
  intros Hp Hv Hr. destruct (parse_calc [px n]) as [[v [|? ?]]|] eqn:E; try contradiction. exists v.
  split; [exact Hp|]. split; [split; discriminate|]. intros r. unfold x_len. cbn [app]. now rewrite Hr.
Qed.
Lemma px_plain n : starts_plain [px n].
Proof. split; [repeat constructor|]. split; [discriminate|]. intros t Ht. injection Ht as <-. discriminate. Qed.
(** [flex: 2 30px] *)
Example C155_example_flex : (exists v, @flex_is calc percent_or str x_len x_zero [num "2"; px "30px"] (Len v) (decimal_value (Number.mkD false [2%Z] [])) 1) /\
  exists c, counted x_len x_fit x_img x_zero x_eqb "flex-basis" "flex" [num "2"; px "30px"] x_blank x_parent
    (map (x_decl false) x_others) (x_decl true ("flex", [num "2"; px "30px"])) (map (x_decl false) [("flex-basis", [keyword "auto"])]) c.
Proof.
  split; [|shown x_others [("flex-basis", [keyword "auto"])]].
  destruct (px_sound "30px") as (v & Hv); [apply px_plain|vm_compute; exact Logic.I|intros r; vm_compute; reflexivity|].
  exists v. change [num "2"; px "30px"] with ([num "2"] ++ [px "30px"])%list. apply flex_grow_basis.
  - exists (Number.mkD false [2%Z] []). split; [reflexivity|]. split; [|reflexivity]. split; [discriminate|]. split; repeat constructor; unfold digit_ok; lia.
  - right. now exists v.
Qed.
(** [list-style: square url(a.png)] *)
Example C156_example : @list_is calc percent_or str x_img [keyword "square"; address "a.png"] (Img (of_string "a.png")) (Ident (of_string "square")) /\
  exists c, counted x_len x_fit x_img x_zero x_eqb "list-style-image" "list-style" [keyword "square"; address "a.png"] x_blank x_parent
    (map (x_decl false) x_others) (x_decl true ("list-style", [keyword "square"; address "a.png"])) (map (x_decl false) [("list-style-type", [keyword "none"])]) c.
Proof.
  split; [|shown x_others [("list-style-type", [keyword "none"])]].
  apply (list_type_image _ [keyword "square"] _ [address "a.png"]).
  - exists (of_string "square"). split; [reflexivity|]. split; [reflexivity|]. vm_compute. intuition discriminate.
  - exists (of_string "a.png"). split; [|reflexivity]. split; [|split; [split; discriminate|reflexivity]].
    split; [repeat constructor|]. split; [discriminate|]. intros t Ht. injection Ht as <-. discriminate.
Qed.
Example C156_example_inside : exists c, counted x_len x_fit x_img x_zero x_eqb "list-style-position" "list-style" [keyword "inside"] x_blank x_parent
  (map (x_decl false) x_others) (x_decl true ("list-style", [keyword "inside"])) (map (x_decl false) []) c.
Proof. shown x_others (@nil (string * list sst)). Qed.
(** [vertical-align: super middle] *)
Example C157_example : Forall2 (fun x w => @vertical_part calc percent_or str x_len (fst x) w (snd x))
    [("baseline-shift", Key "super"); ("alignment-baseline", Key "middle")] [[keyword "super"]; [keyword "middle"]] /\
  exists c, counted x_len x_fit x_img x_zero x_eqb "alignment-baseline" "vertical-align" (concat [[keyword "super"]; [keyword "middle"]]) x_blank x_parent
    (map (x_decl false) x_others) (x_decl true ("vertical-align", concat [[keyword "super"]; [keyword "middle"]])) (map (x_decl false) []) c.
Proof.
  split; [|shown x_others (@nil (string * list sst))].
  constructor; [|constructor; [|constructor]]; left; eexists; eexists; (split; [reflexivity|]); (split; [apply x_spells; reflexivity|]);
    (split; [reflexivity|]); cbn; tauto.
Qed.

(** What [vertical-align] does not give should be reset: [vertical-align: top] leaves the alignment
    that an earlier declaration gave. *)
Theorem C157_reset_refuted : exists c,
  compute_values x_eqb X x_blank x_parent [x_decl false ("alignment-baseline", [keyword "middle"]); x_decl false ("vertical-align", [keyword "top"])] = Ok c /\
  c_get c "baseline-shift" = Value (Key "top") /\ c_get c "alignment-baseline" = Value (Key "middle").
Proof. apply by_value. vm_compute. auto. Qed.
Print Assumptions C157_reset_refuted.

Example C158_example : within X /\ ~ among (of_string "gap") registered /\ parse_value 9 X (of_string "gap") [px "1px"] = Ok (Bogus (of_string "gap")).
Proof. split; [exact x_within|]. split; [vm_compute; intuition discriminate|vm_compute; reflexivity]. Qed.
(** [opacity: 1.5] *)
Example C159_example : number_is [num "1.5"] (3 # 2) /\
  exists c, counted x_len x_fit x_img x_zero x_eqb "opacity" "opacity" [num "1.5"] x_blank x_parent
    (map (x_decl false) x_others) (x_decl true ("opacity", [num "1.5"])) (map (x_decl false) []) c.
Proof.
  split; [|shown x_others (@nil (string * list sst))].
  exists (Number.mkD false [1%Z] [5%Z]). split; [reflexivity|]. split; [|reflexivity]. split; [discriminate|]. split; repeat constructor; unfold digit_ok; lia.
Qed.
Example C160_example : (exists v, sound x_len [px "30px"] v) /\
  exists c, counted x_len x_fit x_img x_zero x_eqb "max-width" "max-width" [px "30px"] x_blank x_parent
    (map (x_decl false) x_others) (x_decl true ("max-width", [px "30px"])) (map (x_decl false) []) c.
Proof.
  split; [|shown x_others (@nil (string * list sst))].
  apply px_sound; [apply px_plain|vm_compute; exact Logic.I|intros r; vm_compute; reflexivity].
Qed.
Example C160_example_running : exists c, x_compute [x_decl false ("position", [FUNC (mkT FUNCTION (of_string "running(")) [keyword "header"]])] = Ok c /\
  c_get c "position" = Value (Running (of_string "header")).
Proof. apply by_value. vm_compute. auto. Qed.
