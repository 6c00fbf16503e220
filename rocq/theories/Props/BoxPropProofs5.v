(** Box properties: reading declarations, borders, keywords. *)
From Coq Require Import String List NArith Bool Lia PeanoNat.
From Verif.Base Require Import Str Outcome.
From Verif.Css Require Import LexerModel ParserModel.
From Verif.Values Require Import CalcModel.
From Verif.Style Require Import CascadeModel CascadeSpec CascadeProofs.
From Verif.Props Require Import VarModel EngineModel EngineSpec EngineProofs EngineProofs2 EngineProofs3
  BoxPropModel BoxPropProofs BoxPropSpec BoxPropProofs2 BoxPropProofs3 BoxPropProofs4.
Import ListNotations.
Local Open Scope list_scope.

Section Box.
Context {W C L K : Type}
        (pW : list sst -> option W * list sst) (pC : list sst -> option C * list sst)
        (pL : list sst -> option L * list sst) (pK : list sst -> option K * list sst)
        (zeroW : W) (zeroC : C) (black current : K) (resolve_color : K -> K -> K).
Variable V_eqb : @V W C L K -> @V W C L K -> bool.
Hypothesis Hblack : forall k, resolve_color black k = black.

Local Notation V := (@V W C L K).
Local Notation G := (@box_registry W C L K pW pC pL pK zeroW zeroC black current resolve_color).
Local Notation matched := (matched V field).
Local Notation computed := (computed V field).
Local Notation prop := (prop V field).
Local Notation compute_values := (compute_values V_eqb).
Local Notation Good := (box_good pW pC pL pK zeroW zeroC black current resolve_color).
Local Notation Closed := (box_closed pW pC pL pK zeroW zeroC black current resolve_color).
Local Notation sensible := (sensible pW pC pL pK zeroW zeroC black current resolve_color).
Local Notation initial_of := (@initial_of W C L K zeroW zeroC black).
Local Notation value_of := (@value_of W C L K black resolve_color).
Local Notation reg := (reg pW pC pL pK zeroW zeroC black resolve_color).
Local Notation side_word := (@side_word W C K pW pC pK).
Local Notation stops := (@stops W C K pW pC pK).

(** ** Reading ends *)

Lemma reads_consumes {A} (f : A -> V) (p : list sst -> option A * list sst) : consumes p -> consumes (reads f p).
Proof.
  intros (H1 & H2). split; [|intros c; apply H2]. intros c v c' Hc Hp. unfold reads, map_fst in Hp.
  destruct (p c) as [[a|] c1] eqn:E; cbn [fst snd option_map] in Hp; [|discriminate]. injection Hp as _ <-. now apply (H1 c a).
Qed.

Lemma keyword_consumes {A} (l : list (string * A)) : consumes (parse_keyword l).
Proof.
  split.
  - intros c v c' Hc. destruct c as [|s r]; [contradiction|]. clear Hc. induction l as [|[k a] l IH]; cbn [parse_keyword]; [discriminate|].
    destruct (is_ident k s); [|exact IH]. intros H. injection H as _ <-. cbn [List.length]. lia.
  - intros c. destruct c as [|s r]; [destruct l as [|[? ?] ?]; cbn; lia|]. induction l as [|[k a] l IH]; cbn [parse_keyword]; [cbn; lia|].
    destruct (is_ident k s); [cbn [snd List.length]; lia|exact IH].
Qed.

Lemma insets_consumes {A} (p : list sst -> option A * list sst) : consumes p -> consumes (parse_insets p).
Proof.
  intros (H1 & H2).
  assert (Rest : forall c1 t, List.length (snd (match p c1 with
      | (None, c2) => (Some (insets1 t), c2)
      | (Some r, c2) => match p c2 with
        | (None, c3) => (Some (insets2 t r), c3)
        | (Some b, c3) => match p c3 with
          | (None, c4) => (Some (insets3 t r b), c4)
          | (Some l, c4) => (Some (mkI t r b l), c4) end end end)) <= List.length c1).
  { intros c1 t. pose proof (H2 c1) as L1. destruct (p c1) as [[r|] c2]; cbn [snd] in *; [|exact L1].
    pose proof (H2 c2) as L2. destruct (p c2) as [[b|] c3]; cbn [snd] in *; [|lia].
    pose proof (H2 c3) as L3. destruct (p c3) as [[l|] c4]; cbn [snd] in *; lia. }
  split.
  - intros c v c' Hc Hp. destruct c as [|s c]; [contradiction|]. unfold parse_insets in Hp.
    destruct (p (s :: c)) as [[t|] c1] eqn:E; [|discriminate]. apply H1 in E; [|exact Hc].
    pose proof (Rest c1 t) as Hl. rewrite Hp in Hl. cbn [snd] in Hl. lia.
  - intros c. destruct c as [|s c]; [cbn; lia|]. unfold parse_insets. pose proof (H2 (s :: c)) as Hl.
    destruct (p (s :: c)) as [[t|] c1]; cbn [snd] in *; [|exact Hl]. pose proof (Rest c1 t). lia.
Qed.

Lemma map_fst_consumes {A B} (f : A -> B) (p : list sst -> option A * list sst) : consumes p -> consumes (fun c => map_fst f (p c)).
Proof.
  intros (H1 & H2). split; [|intros c; apply H2]. intros c v c' Hc Hp. unfold map_fst in Hp.
  destruct (p c) as [[a|] c1] eqn:E; cbn [fst snd option_map] in Hp; [|discriminate]. injection Hp as _ <-. now apply (H1 c a).
Qed.

Lemma line_width_consumes : consumes pL -> consumes (parse_line_width pL).
Proof.
  intros H. pose proof (map_fst_consumes (@Line L) pL H) as (A1 & A2).
  destruct (keyword_consumes [("thin", @THIN L); ("medium", MEDIUM); ("thick", THICK)]%string) as (B1 & B2).
  split.
  - intros c v c' Hc Hp. unfold parse_line_width in Hp.
    destruct (parse_keyword _ c) as [[w|] r] eqn:E.
    + injection Hp as <- <-. now apply B1 in E.
    + destruct c as [|s c]; [contradiction|]. exact (A1 _ _ _ Hc Hp).
  - intros c. unfold parse_line_width. pose proof (B2 c) as L1. destruct (parse_keyword _ c) as [[w|] r]; [exact L1|].
    destruct c as [|s c]; [cbn; lia|apply A2].
Qed.

Definition endless : list string := ["border"; "border-top"; "border-right"; "border-bottom"; "border-left"]%string.

Lemma box_consumes : consumes pW -> consumes pC -> consumes pL -> consumes pK ->
  Forall (fun r => ~ among (r_name r) endless -> consumes (r_parse r)) (g_props G).
Proof.
  intros HW HC HL HK.
  all_regs; intros Hn; cbn [color_registration stores shorthand pair_of r_parse];
    first [ apply reads_consumes;
            first [ assumption | apply keyword_consumes | apply line_width_consumes; assumption
                  | apply map_fst_consumes; assumption
                  | apply insets_consumes; first [assumption|apply keyword_consumes|apply line_width_consumes; assumption] ]
          | exfalso; apply Hn; cbn [shorthand r_name]; unfold among, endless; cbn [map In]; tauto ].
Qed.

Lemma box_cases n r : resolve G n = Some r ->
  (In r (g_props G) /\ r_name r = n) \/ (r = custom_registration n /\ starts_with (of_string "--") n = true).
Proof.
  unfold resolve. cbn [g_alias box_registry lookup]. destruct (find_reg (g_props G) n) as [q|] eqn:E.
  - intros H. injection H as <-. left. exact (find_reg_in _ _ _ E).
  - destruct (starts_with (of_string "--") n); [|discriminate].
    intros H. injection H as <-. right. auto.
Qed.

Lemma box_reading_ends n content : consumes pW -> consumes pC -> consumes pL -> consumes pK ->
  ~ among n endless -> exists p fuel0, forall fuel, fuel0 <= fuel -> parse_value fuel G n content = Ok p.
Proof.
  intros HW HC HL HK Hn.
  assert (Main : exists fuel0 p, parse_value fuel0 G n content = Ok p /\ forall fuel, fuel0 <= fuel -> parse_value fuel G n content = Ok p).
  2:{ destruct Main as (fuel0 & p & _ & H). now exists p, fuel0. }
  unfold parse_value. destruct (resolve G n) as [r|] eqn:Er; [|exists 0; eexists; split; [reflexivity|intros; reflexivity]].
  destruct (parse_defaulted (eat_wss content)) as [d|]; [exists 0; eexists; split; [reflexivity|intros; reflexivity]|].
  assert (Ht : takes_some (r_parse r)).
  { destruct (box_cases _ _ Er) as [Hin|Hc].
    - pose proof (box_consumes HW HC HL HK) as HF. rewrite Forall_forall in HF. refine (proj1 (HF r (proj1 Hin) _)).
      intros Hb. apply Hn. destruct Hin as (_ & E). now rewrite <- E.
    - destruct Hc as (-> & _). intros c v c' Hc Hp. injection Hp as _ <-. destruct c; [contradiction|cbn; lia]. }
  assert (Mono : forall c fuel fuel' x, toggle_loop fuel r c = Ok x -> fuel <= fuel' -> toggle_loop fuel' r c = Ok x).
  { intros c fuel. revert c. induction fuel as [|fuel IH]; intros c fuel' x H Hle.
    - destruct c; [destruct fuel'; exact H|discriminate].
    - destruct fuel' as [|fuel']; [lia|]. destruct c as [|s c]; [exact H|]. cbn [toggle_loop] in *.
      destruct (r_parse r (s :: c)) as [[v|] c']; [|exact H].
      destruct (toggle_loop fuel r (skip_comma c')) as [o| |] eqn:E; try discriminate.
      rewrite (IH _ fuel' _ E) by lia. exact H. }
  assert (Tog : exists fuel0 x, forall fuel, fuel0 <= fuel -> parse_toggle fuel r (eat_wss content) = Ok x).
  { unfold parse_toggle. destruct (eat_wss content) as [|[| nm inner| | |] rest]; try (exists 0, None; reflexivity).
    destruct (token_eqb nm toggle_name); [|exists 0, None; reflexivity].
    pose proof (toggle_loop_ends r (List.length inner) inner Ht (le_n _)) as He.
    destruct (toggle_loop (List.length inner) r inner) as [x| |] eqn:E; [|exfalso|contradiction].
    - exists (List.length inner), x. intros fuel Hle. exact (Mono _ _ _ _ E Hle).
    - clear He. revert E. generalize (List.length inner) as k. intros k. revert inner. induction k as [|k IH]; intros inner E; destruct inner as [|s inner]; try discriminate.
      cbn [toggle_loop] in E. destruct (r_parse r (s :: inner)) as [[v|] c']; [|discriminate].
      destruct (toggle_loop k r (skip_comma c')) as [[?|]| |] eqn:E2; try discriminate. exact (IH _ E2). }
  destruct Tog as (fuel0 & x & Hx). exists fuel0.
  destruct x as [vs|].
  - eexists. split; [rewrite (Hx fuel0 (le_n _)); reflexivity|]. intros fuel Hle. now rewrite (Hx fuel Hle).
  - destruct (r_parse r (eat_wss content)) as [[v|] c'].
    + destruct (eat_wss c'); eexists; (split; [rewrite (Hx fuel0 (le_n _)); reflexivity|]); intros fuel Hle; now rewrite (Hx fuel Hle).
    + eexists; (split; [rewrite (Hx fuel0 (le_n _)); reflexivity|]); intros fuel Hle; now rewrite (Hx fuel Hle).
Qed.

(** A value that nothing can be read from. *)
Definition nonsense (s : sst) : Prop :=
  pL [s] = (None, [s]) /\ pK [s] = (None, [s]) /\ parse_bstyle [s] = (None, [s]) /\ starts_plain [s] /\ is_type COMMA s = false /\
  parse_line_width pL [s] = (None, [s]).

Lemma border_nonsense s : nonsense s -> parse_border pL pK current [s] = (Some (border0 current), [s]) /\
  parse_border_top pL pK current [s] = (Some (border0 current), [s]).
Proof.
  intros (N1 & N2 & N3 & N4 & N5 & N6). destruct (plain_start (C := C) (W := W) (L := L) (K := K) _ N4) as (E & _ & _).
  split.
  - unfold parse_border. cbn [List.length border_loop]. now rewrite E, N6, N2, N3.
  - unfold parse_border_top. cbn [List.length border_loop]. unfold map_fst. rewrite N1. cbn [fst snd option_map]. now rewrite N2, N3.
Qed.

Lemma toggle_endless (r : registration V field) s v : starts_plain [s] -> is_type COMMA s = false -> r_parse r [s] = (Some v, [s]) ->
  forall fuel, toggle_loop fuel r [s] = OutOfFuel.
Proof.
  intros Hp Hc Hr fuel. induction fuel as [|fuel IH]; [reflexivity|]. cbn [toggle_loop]. rewrite Hr.
  assert (skip_comma [s] = [s]) as ->.
  { unfold skip_comma. destruct (plain_start (C := C) (W := W) (L := L) (K := K) _ Hp) as (E & _ & _). rewrite E. now rewrite Hc. }
  now rewrite IH.
Qed.

Definition border_at (n : string) : nat :=
  if String.eqb n "border" then 21 else if String.eqb n "border-top" then 17 else if String.eqb n "border-right" then 18
  else if String.eqb n "border-bottom" then 19 else 20.
Definition border_reg (n : string) : registration V field := nth (border_at n) (g_props G) (custom_registration []).
Lemma border_resolve n : In n endless -> resolve G (of_string n) = Some (border_reg n).
Proof.
  intros H. unfold endless in H. cbn [In] in H.
  destruct H as [<-|[<-|[<-|[<-|[<-|[]]]]]].
  - apply (resolve_registered _ Good (border_reg "border")). apply (nth_error_In (g_props G) 21). reflexivity.
  - apply (resolve_registered _ Good (border_reg "border-top")). apply (nth_error_In (g_props G) 17). reflexivity.
  - apply (resolve_registered _ Good (border_reg "border-right")). apply (nth_error_In (g_props G) 18). reflexivity.
  - apply (resolve_registered _ Good (border_reg "border-bottom")). apply (nth_error_In (g_props G) 19). reflexivity.
  - apply (resolve_registered _ Good (border_reg "border-left")). apply (nth_error_In (g_props G) 20). reflexivity.
Qed.

Lemma box_endless n s : In n endless -> nonsense s ->
  forall fuel, parse_value fuel G (of_string n) [FUNC toggle_name [s]] = OutOfFuel.
Proof.
  intros Hn Hs fuel. destruct (border_nonsense s Hs) as (E1 & E2). destruct Hs as (_ & _ & _ & H4 & H5 & _).
  unfold parse_value. rewrite (border_resolve n Hn). cbn [eat_wss parse_defaulted is_ident].
  assert (parse_toggle fuel (border_reg n) [FUNC toggle_name [s]] = OutOfFuel) as ->; [|reflexivity].
  unfold parse_toggle. assert (token_eqb toggle_name toggle_name = true) as -> by reflexivity.
  apply toggle_endless with (v := Value (VB (border0 current))); [exact H4|exact H5|].
  unfold endless in Hn. cbn [In] in Hn. destruct Hn as [<-|[<-|[<-|[<-|[<-|[]]]]]];
    cbn [border_reg border_at String.eqb Ascii.eqb Bool.eqb nth]; cbv [border_reg border_at String.eqb Ascii.eqb Bool.eqb nth g_props box_registry border_longhands border_sides border_shorthands app visibility_registration];
    cbn [shorthand r_parse]; unfold reads, map_fst; first [rewrite E1|rewrite E2]; reflexivity.
Qed.

(** ** Words and custom properties *)

Lemma not_custom p : made_by G p -> starts_with (of_string "--") (prop_name p) = false -> is_custom G p = false.
Proof.
  intros _ Hn. unfold is_custom. destruct (resolve G (prop_name p)) as [r|] eqn:E; [|reflexivity].
  destruct (box_cases _ _ E) as [(Hin & _)|(-> & Hs)].
  - destruct (phase_beq (r_phase r) CUSTOM_PROPERTY) eqn:E2; [|reflexivity]. apply internal_phase_dec_bl in E2.
    destruct (good_phase _ Good r Hin E2).
  - congruence.
Qed.

(** ** Borders *)

Definition set_sides (n : string) : list side :=
  if String.eqb n "border" then [TOP; END; BOTTOM; START] else if String.eqb n "border-top" then [TOP]
  else if String.eqb n "border-right" then [END] else if String.eqb n "border-bottom" then [BOTTOM] else [START].
Definition border_fields (n : string) (b : border (L := L) (K := K)) : list (field * V) :=
  flat_map (fun s => [(F_WIDTH s, VL (b_width b)); (F_STYLE s, VS (b_style b)); (F_COLOR s, VK (b_color b))]) (set_sides n).

Lemma border_short n : In n endless -> exists fn, r_short (border_reg n) = Some fn /\
  (forall b, fn (Value (VB b)) = map (fun x => (of_string (name_of (fst x)), Value (snd x))) (border_fields n b)).
Proof.
  intros H. unfold endless in H. cbn [In] in H.
  destruct H as [<-|[<-|[<-|[<-|[<-|[]]]]]]; eexists; (split; [reflexivity|intros b; reflexivity]).
Qed.

Lemma resolve_all_fields (l : list (field * V)) :
  resolve_all G (map (fun x => (of_string (name_of (fst x)), Value (snd x))) l) = Ok (map (fun x => Parsed (reg (fst x)) (Value (snd x))) l).
Proof. induction l as [|x l IH]; [reflexivity|]. cbn [map resolve_all]. rewrite reg_resolve, IH. reflexivity. Qed.

Lemma border_ex n b parent child p : In n endless -> prop_reg p = Some (border_reg n) ->
  (p = Parsed (border_reg n) (Value (VB b)) \/
   exists d, p = Defaulted (border_reg n) d /\ default_value (border_reg n) d parent = Ok (Value (VB b))) ->
  ex G parent child p = Some (map (fun x => (of_string (name_of (fst x)), Parsed (reg (fst x)) (Value (snd x)))) (border_fields n b)).
Proof.
  intros Hn Hp Hv. destruct (border_short n Hn) as (fn & Hs & Hf). unfold ex, is_short. rewrite Hp, Hs.
  assert (expansion G p parent child = Ok (map (fun x => Parsed (reg (fst x)) (Value (snd x))) (border_fields n b))) as ->.
  { destruct Hv as [->|(d & -> & Hd)]; cbn [expansion]; [|rewrite Hd; cbn [obind]]; rewrite Hs, Hf; apply resolve_all_fields. }
  rewrite map_map. f_equal. apply map_ext. intros x. cbn [prop_name]. now rewrite reg_name.
Qed.

Lemma border_value blank parent c n b f v l1 m l2 : In n endless ->
  prop_reg (m_prop m) = Some (border_reg n) ->
  (m_prop m = Parsed (border_reg n) (Value (VB b)) \/
   exists d, m_prop m = Defaulted (border_reg n) d /\ default_value (border_reg n) d parent = Ok (Value (VB b))) ->
  sensible parent c (l1 ++ m :: l2) -> compute_values G blank parent (l1 ++ m :: l2) = Ok c ->
  decisive_short f l1 m l2 -> In (f, v) (border_fields n b) -> c_get c f = Value v.
Proof.
  intros Hn Hp Hv Hs Hc Hd Hin.
  assert (E : Some (c_get c f) = used V_eqb (reg f) f (value_of f) (Parsed (reg f) (Value v)) parent c).
  { eapply decisive_short_used; try eassumption; [exact (border_ex n b parent c _ Hn Hp Hv)|].
    apply in_map_iff. exists (f, v). auto. }
  cbn [used] in E. injection E as ->. unfold border_fields in Hin. apply in_flat_map in Hin as (s & _ & Hin). cbn [In] in Hin.
  destruct Hin as [H|[H|[H|[]]]]; injection H as <- <-; reflexivity.
Qed.

Lemma border_in n s b : In s (set_sides n) ->
  In (F_WIDTH s, VL (b_width b)) (border_fields n b) /\ In (F_STYLE s, VS (b_style b)) (border_fields n b) /\
  In (F_COLOR s, VK (b_color b)) (border_fields n b).
Proof.
  intros H. unfold border_fields. repeat split; apply in_flat_map; exists s; (split; [exact H|cbn [In]; tauto]).
Qed.

Lemma border_parse n : In n endless -> n <> "border-top"%string ->
  r_parse (border_reg n) = reads VB (parse_border pL pK current).
Proof.
  intros H Hn. unfold endless in H. cbn [In] in H.
  destruct H as [<-|[<-|[<-|[<-|[<-|[]]]]]]; try reflexivity. contradiction.
Qed.

(** ** Keywords *)

Lemma keyword_read fuel n r k d : resolve G n = Some r -> parse_defaulted [keyword k] = Some d ->
  parse_value fuel G n [keyword k] = Ok (Defaulted r d).
Proof. intros Hr Hd. unfold parse_value. rewrite Hr. cbn [eat_wss keyword t_type ttype_beq]. now rewrite Hd. Qed.

Lemma declares_name n content m : declares pW pC pL pK zeroW zeroC black current resolve_color n content m ->
  (forall r, resolve G (of_string n) = Some r -> name m = r_name r /\ prop_reg (m_prop m) = Some r).
Proof.
  intros (fuel & H) r Hr. unfold parse_value in H. rewrite Hr in H. unfold name.
  destruct (parse_defaulted (eat_wss content)); [injection H as <-; auto|].
  destruct (parse_toggle fuel r (eat_wss content)) as [[vs|]| |]; try discriminate; [injection H as <-; auto|].
  destruct (r_parse r (eat_wss content)) as [[v|] c']; [|injection H as <-; auto].
  destruct (eat_wss c'); injection H as <-; auto.
Qed.

(** ** Custom properties *)

Lemma custom_resolve n : starts_with (of_string "--") n = true -> resolve G n = Some (custom_registration n).
Proof.
  intros H. destruct (resolve G n) as [r|] eqn:E.
  - destruct (box_cases n r E) as [(Hin & Hr)|(-> & _)]; [|reflexivity]. exfalso.
    assert (Hb : forallb (fun x => negb (starts_with (of_string "--") x)) (map r_name (g_props G)) = true) by (vm_compute; reflexivity).
    rewrite forallb_forall in Hb. specialize (Hb n). rewrite H in Hb. cbn [negb] in Hb. rewrite <- Hr in Hb at 1.
    apply (in_map r_name) in Hin. specialize (Hb Hin). discriminate.
  - exfalso. unfold resolve in E. cbn [g_alias box_registry lookup] in E. destruct (find_reg _ n); [discriminate|]. rewrite H in E. discriminate.
Qed.

Lemma in_plain (ms : list matched) n w p : In (n, (w, p)) (all_longhands (map plain ms)) ->
  exists m, In m ms /\ prop_name (m_prop m) = n /\ w = weight_of m.
Proof.
  unfold all_longhands. rewrite flat_map_concat_map, map_map, <- flat_map_concat_map. intros H. apply in_flat_map in H as (m & Hm & H).
  unfold plain, to_property, longhands_of in H. cbn [p_bogus p_expansion p_name p_value p_important] in H.
  destruct (is_bogus (m_prop m)); [contradiction|]. destruct H as [H|[]]. injection H as <- <- <-. exists m. auto.
Qed.

Lemma custom_declared blank parent c l1 m l2 n content :
  Forall (fun m : matched => read G (m_prop m)) (l1 ++ m :: l2) -> compute_values G blank parent (l1 ++ m :: l2) = Ok c ->
  starts_with (of_string "--") n = true -> m_prop m = Parsed (custom_registration n) (Content content) ->
  Forall (fun m' => name m' = n -> ~ weaker (weight_of m) (weight_of m')) l1 ->
  Forall (fun m' => name m' = n -> weaker (weight_of m') (weight_of m)) l2 ->
  lookup (c_custom c) n = Some content.
Proof.
  intros Hr Hc Hn Hm H1 H2.
  destruct (custom_value V_eqb G Good blank parent (l1 ++ m :: l2) c n) as [HW _].
  - eapply read_all_made. exact Hr.
  - exact Hc.
  - now apply custom_resolve.
  - apply (HW (custom_registration n) content). unfold all_longhands. rewrite map_app, flat_map_app. cbn [map flat_map].
    assert (longhands_of (plain m) = [(n, (weight_of m, m_prop m))]) as ->.
    { unfold plain, to_property, longhands_of. cbn [p_bogus p_expansion p_name p_value p_important]. rewrite Hm. reflexivity. }
    exists (flat_map longhands_of (map plain l1)), (weight_of m), (flat_map longhands_of (map plain l2)).
    split; [now rewrite Hm|]. rewrite Forall_forall in *. split.
    + intros w' v' Hin. apply (in_plain l1) in Hin as (m' & Hm' & Hn' & ->). exact (H1 m' Hm' Hn').
    + intros w' v' Hin. apply (in_plain l2) in Hin as (m' & Hm' & Hn' & ->). exact (H2 m' Hm' Hn').
Qed.

Lemma custom_inherited blank parent c ms n :
  Forall (fun m : matched => read G (m_prop m)) ms -> compute_values G blank parent ms = Ok c ->
  starts_with (of_string "--") n = true -> Forall (fun m => name m <> n) ms ->
  lookup (c_custom c) n = lookup (c_custom parent) n.
Proof.
  intros Hr Hc Hn Ho.
  destruct (custom_value V_eqb G Good blank parent ms c n) as [_ HW].
  - eapply read_all_made. exact Hr.
  - exact Hc.
  - now apply custom_resolve.
  - apply HW. intros w p Hin. apply in_plain in Hin as (m & Hm & Hn' & _). rewrite Forall_forall in Ho. exact (Ho m Hm Hn').
Qed.

End Box.
