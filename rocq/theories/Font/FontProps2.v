(** C161-C170: cases that meet the hypotheses, and where the shorthand differs from CSS. *)
From Coq Require Import String List NArith ZArith QArith Qround Bool Lia.
From Verif.Base Require Import Str Outcome.
From Verif.Css Require Import LexerModel ParserModel.
From Verif.Values Require Import CalcModel Number LengthModel LengthSpec LengthProps ColorModel.
From Verif.Style Require Import CascadeModel CascadeSpec.
From Verif.Props Require Import VarModel EngineModel EngineSpec BoxPropModel BoxPropSpec LonghandModel LonghandSpec.
From Verif.Font Require Import FontModel FontSpec FontProps.
Import ListNotations.
Local Open Scope list_scope.
Local Open Scope string_scope.

(** A database with the family [Known], in which bold faces are the face 2. *)
Definition x_lighter (z : Z) : Z := if (z <? 600)%Z then 100%Z else 400%Z.
Definition x_bolder (z : Z) : Z := if (z <? 400)%Z then 400%Z else 700%Z.
Definition x_rnd (q : Q) : Q := q.
Definition x_query (n : str) (k : Z * Z * string) : option nat :=
  if str_eqb n (of_string "Known") then Some (if (600 <=? fst (fst k))%Z then 2 else 1)%nat else None.
Definition x_stretch (q : Q) : Z := Qfloor q.
Definition x_metrics (_ : nat) (q : Q) : metrics := mkMetrics (q / 2) (q * (7 # 10)) (q / 2) (q * (12 # 10)).
Definition x_eqb (_ _ : V) : bool := false.
Definition X := font_registry x_lighter x_bolder x_rnd x_query (Some 3%nat) 4%nat x_stretch x_metrics ctx_ex.
Definition x_blank : computed := mkC (fun _ => Value (Families [])) [].
Definition x_parent : computed :=
  mkC (fun n => if String.eqb n "font-size" then Value (Size (SLen (Abs 20 PX)))
                    else if String.eqb n "font-weight" then Value (Weight 400)
                    else if String.eqb n "font-width" then Value (Width 100)
                    else if String.eqb n "font-style" then Value (Slant "italic")
                    else Value (Families [of_string "Parent"])) [].
Definition x_decl (i : bool) (d : string * list sst) : matched V field :=
  match parse_value 9 X (of_string (fst d)) (snd d) with
  | Ok p => mkM p i AUTHOR (mkSpec 0 0 1)%Z
  | _ => mkM (Bogus []) i AUTHOR (mkSpec 0 0 1)%Z
  end.
Definition x_compute (ms : list (matched V field)) : outcome computed := compute_values x_eqb X x_blank x_parent ms.
(** The value of [k] of an element with the declarations [l]. *)
Definition x_value (l : list (string * list sst)) (k : string) : option (val V) :=
  match x_compute (map (x_decl false) l) with Ok c => Some (c_get c k) | _ => None end.
Local Notation x_counted := (counted x_lighter x_bolder x_rnd x_query (Some 3%nat) 4%nat x_stretch x_metrics ctx_ex x_eqb).

Definition ident (k : string) : sst := TOK (mkT IDENT (of_string k)).
Definition quote (k : string) : sst := TOK (mkT STRING (of_string k)).
Definition numb (k : string) : sst := TOK (mkT NUMBER (of_string k)).
Definition unit (k : string) : sst := TOK (mkT DIMENSION (of_string k)).
Definition perc (k : string) : sst := TOK (mkT PERCENTAGE (of_string k)).

Definition x_reads (d : string * list sst) : bool := match parse_value 9 X (of_string (fst d)) (snd d) with Ok _ => true | _ => false end.
(** An important declaration counts, whatever the others are. *)
Lemma x_shown k n content l1 l2 v : forallb x_reads (l1 ++ (n, content) :: l2) = true ->
  match x_compute (map (x_decl false) l1 ++ x_decl true (n, content) :: map (x_decl false) l2)%list with Ok c => c_get c k = v | _ => False end ->
  exists c, x_counted k n content x_parent c /\ c_get c k = v.
Proof.
  intros Hr Hc. rewrite forallb_forall in Hr.
  destruct (x_compute _) as [c| |] eqn:E; try contradiction. exists c. split; [|exact Hc].
  exists x_blank, (map (x_decl false) l1), (x_decl true (n, content)), (map (x_decl false) l2). split; [|split; [exact E|split]].
  - assert (R : forall i d, In d (l1 ++ (n, content) :: l2)%list -> read X (m_prop (x_decl i d))).
    { intros i d Hd. specialize (Hr d Hd). unfold x_reads in Hr. unfold x_decl. exists 9%nat, (of_string (fst d)), (snd d).
      destruct (parse_value 9 X (of_string (fst d)) (snd d)); [reflexivity|discriminate|discriminate]. }
    apply Forall_forall. intros m Hm. apply in_app_or in Hm as [Hm|[<-|Hm]].
    + apply in_map_iff in Hm as (d & <- & Hd). apply R. apply in_or_app. now left.
    + apply R. apply in_or_app. right. now left.
    + apply in_map_iff in Hm as (d & <- & Hd). apply R. apply in_or_app. right. now right.
  - specialize (Hr (n, content) ltac:(apply in_or_app; right; now left)). unfold x_reads in Hr. exists 9%nat. unfold x_decl. cbn [fst snd] in *.
    match goal with |- parse_value 9 ?g _ _ = _ => change g with X end.
    destruct (parse_value 9 X (of_string n) content) as [p| |]; [reflexivity|discriminate Hr|discriminate Hr].
  - assert (W : forall d, weight_of (x_decl false d) = mkWeight false AUTHOR (mkSpec 0 0 1)%Z).
    { intros d. unfold x_decl. destruct (parse_value _ _ _ _); reflexivity. }
    assert (W' : weight_of (x_decl true (n, content)) = mkWeight true AUTHOR (mkSpec 0 0 1)%Z).
    { unfold x_decl. destruct (parse_value _ _ _ _); reflexivity. }
    split; apply Forall_forall; intros m Hm _; apply in_map_iff in Hm as (d & <- & _); rewrite W, W'.
    + unfold weaker. cbn. intuition discriminate.
    + unfold weaker. cbn. auto.
Qed.
Ltac shown l1 l2 := apply (x_shown _ _ _ l1 l2); vm_compute; reflexivity.
Definition x_others : list (string * list sst) := [("font-weight", [ident "bold"]); ("font", [unit "9px"; ident "other"])].

(** [font-family: "A B", Times New] *)
Example C161_example : let w := [quote "A B"; comma; ident "Times"; ident "New"] in
  families_are w [of_string "A B"; of_string "Times New"] /\ starts_plain w /\
  exists c, x_counted "font-family" "font-family" w x_parent c /\ c_get c "font-family" = Value (Families [of_string "A B"; of_string "Times New"]).
Proof.
  split; [|split].
  - apply (families_more [quote "A B"] _ [ident "Times"; ident "New"]); [constructor|]. constructor. exact (unquoted (of_string "Times") _ _ (more_words [] (of_string "New") [] [] (Forall_nil _) (no_words [] (Forall_nil _)))).
  - split; [repeat constructor|]. split; [discriminate|]. intros t E. injection E as <-. discriminate.
  - shown x_others (@nil (string * list sst)).
Qed.
Example C161_example_no_comma : exists c, x_counted "font-family" "font-family" [quote "A"; quote "B"] x_parent c /\
  c_get c "font-family" = Value (Families [of_string "A"; of_string "B"]).
Proof. shown x_others (@nil (string * list sst)). Qed.
(** An empty value, which CSS ignores, takes all families away. *)
Theorem C161_empty_refuted : x_value [("font-family", [ident "serif"]); ("font-family", [])] "font-family" = Some (Value (Families [])).
Proof. vm_compute. reflexivity. Qed.

Example C162_example : (integer_is [numb "350"] 350 /\ exists c, x_counted "font-weight" "font-weight" [numb "350"] x_parent c /\ c_get c "font-weight" = Value (Weight 350)) /\
  (exists c, x_counted "font-weight" "font-weight" [ident "Bolder"] x_parent c /\ c_get c "font-weight" = Value (Weight 700)) /\
  (exists c, x_counted "font-weight" "font-weight" [ident "lighter"] x_parent c /\ c_get c "font-weight" = Value (Weight 100)).
Proof.
  split; [split|split].
  - exists false, [3; 5; 0]%Z. split; [reflexivity|]. split; [|reflexivity]. split; [discriminate|]. repeat constructor; unfold digit_ok; lia.
  - shown x_others (@nil (string * list sst)).
  - shown x_others (@nil (string * list sst)).
  - shown x_others (@nil (string * list sst)).
Qed.
Example C162_example_range : (exists c, x_counted "font-weight" "font-weight" [numb "0"] x_parent c /\ c_get c "font-weight" = Value (Weight 0)) /\
  decimal_ok (Number.mkD false [3; 5; 0] [5])%Z /\
  [TOK (mkT NUMBER (show_decimal (Number.mkD false [3; 5; 0] [5])%Z))] = [numb "350.5"] /\
  exists c, x_counted "font-weight" "font-weight" [numb "350.5"] x_parent c /\ c_get c "font-weight" = Value (Weight 400).
Proof.
  split; [shown x_others (@nil (string * list sst))|]. split; [|split; [reflexivity|shown x_others (@nil (string * list sst))]].
  split; [discriminate|]; split; repeat constructor; unfold digit_ok; lia.
Qed.

Example C163_example : (exists c, x_counted "font-width" "font-stretch" [ident "condensed"] x_parent c /\ c_get c "font-width" = Value (Width 75)) /\
  width_is [perc "80%"] (decimal_value (Number.mkD false [8; 0] [])%Z) /\
  exists c, x_counted "font-width" "font-width" [perc "80%"] x_parent c /\ c_get c "font-width" = Value (Width 80).
Proof.
  split; [shown x_others (@nil (string * list sst))|]. split; [|shown x_others (@nil (string * list sst))].
  apply (width_percent (Number.mkD false [8; 0] [])%Z). split; [discriminate|]; split; repeat constructor; unfold digit_ok; lia.
Qed.

Example C164_example : (exists c, x_counted "font-style" "font-style" [ident "oblique"] x_parent c /\ c_get c "font-style" = Value (Oblique 14 DEGREE)) /\
  unit_text angle_units GRAD (of_string "grad") /\
  exists c, x_counted "font-style" "font-style" [ident "oblique"; unit "20grad"] x_parent c /\ c_get c "font-style" = Value (Oblique 20 GRAD).
Proof.
  split; [shown x_others (@nil (string * list sst))|]. split; [|shown x_others (@nil (string * list sst))].
  exists (of_string "grad"). split; [cbn; tauto|reflexivity].
Qed.

Example C165_example : rounding x_rnd /\ (forall z, x_rnd (inject_Z z) == inject_Z z) /\ has_size x_parent 20 /\
  (exists c, x_counted "font-size" "font-size" [unit "1.5em"] x_parent c /\ has_size c 30) /\
  (exists c, x_counted "font-size" "font-size" [perc "50%"] x_parent c /\ has_size c 10) /\
  (exists c, x_counted "font-size" "font-size" [unit "12pt"] x_parent c /\ has_size c 16) /\
  (exists c, x_counted "font-size" "font-size" [ident "x-large"] x_parent c /\ has_size c 20) /\
  (exists c, x_counted "font-size" "font-size" [ident "larger"] x_parent c /\ has_size c 25) /\
  (exists c, x_counted "font-size" "font-size" [ident "xxx-large"] x_parent c /\ has_size c 20).
Proof.
  assert (H : forall w q q', x_reads ("font-size", w) = true ->
    match x_compute [x_decl true ("font-size", w)] with Ok c => c_get c "font-size" = Value (Size (SLen (Abs q PX))) | _ => False end -> q == q' ->
    exists c, x_counted "font-size" "font-size" w x_parent c /\ has_size c q').
  { intros w q q' Hr Hc Hq. destruct (x_shown "font-size" "font-size" w [] [] (Value (Size (SLen (Abs q PX))))) as (c & A & B).
    - cbn [app forallb]. now rewrite Hr.
    - exact Hc.
    - exists c. split; [exact A|]. exists q. auto. }
  split; [intros x y Hxy; exact Hxy|]. split; [reflexivity|]. split; [exists 20; split; reflexivity|].
  split; [|split; [|split; [|split; [|split]]]]; (eapply H; [vm_compute; reflexivity|vm_compute; reflexivity|vm_compute; reflexivity]).
Qed.

(** Three elements below the one with 20 pixels: 150 percent, nothing, 2em. *)
Definition x_tree : styled V field :=
  Styled [x_decl false ("font-size", [unit "20px"])]
    [Styled [x_decl false ("font-size", [perc "150%"])] [Styled [x_decl false ("font-weight", [ident "bold"])] [Styled [x_decl false ("font-size", [unit "2em"])] []]]].
Example C166_example : match style_element x_eqb X x_blank x_parent x_tree with
  | Ok r => match along x_tree r [0; 0; 0]%nat with
            | Some l => map (fun e => c_get (snd e) "font-size") l = map (fun q => Value (Size (SLen (Abs q PX)))) [20; 20 * (150 / 100); 20 * (150 / 100); 2 * (20 * (150 / 100))]
            | None => False
            end
  | _ => False
  end.
Proof. vm_compute. reflexivity. Qed.
Example C166_example_scales : exists fs, Forall2 (fun ms f => scales x_lighter x_bolder x_rnd x_query (Some 3%nat) 4%nat x_stretch x_metrics ctx_ex ms f)
  [[x_decl false ("font-size", [perc "150%"])]; [x_decl false ("font-weight", [ident "bold"])]; [x_decl false ("font-size", [unit "2em"])]] fs /\
  fold_left (fun q f => f q) fs 20 == 60.
Proof.
  eexists. split; [constructor; [|constructor; [|constructor; [|constructor]]]|].
  - apply (scale_percent _ _ _ _ _ _ _ _ _ [] (x_decl false ("font-size", [perc "150%"])) [] (Number.mkD false [1; 5; 0] [])%Z).
    + split; [discriminate|]; split; repeat constructor; unfold digit_ok; lia.
    + exists 9%nat. vm_compute. reflexivity.
    + split; constructor.
  - apply scale_silent. repeat constructor. vm_compute. intuition discriminate.
  - apply (scale_em _ _ _ _ _ _ _ _ _ [] (x_decl false ("font-size", [unit "2em"])) [] (Number.mkD false [2] [])%Z (of_string "em")).
    + split; [discriminate|]; split; repeat constructor; unfold digit_ok; lia.
    + exists (of_string "EM"). split; [cbn; tauto|reflexivity].
    + exists 9%nat. vm_compute. reflexivity.
    + split; constructor.
  - vm_compute. reflexivity.
Qed.

(** [font: italic bold condensed 12px/1.5 "A B"] *)
Definition x_parts : list (string * list sst) := [("font-style", [ident "italic"]); ("font-weight", [ident "bold"]); ("font-width", [ident "condensed"])].
Definition x_font : list sst := (concat (map snd x_parts) ++ [unit "12px"] ++ [TOK (mkT DELIM (of_string "/")); numb "1.5"] ++ [quote "A B"])%list.
Example C167_example : Forall (fun x => part_is (fst x) (snd x)) x_parts /\ proper x_parts /\ size_part [unit "12px"] /\
  line_part [TOK (mkT DELIM (of_string "/")); numb "1.5"] /\ family_is [quote "A B"] (of_string "A B") /\
  (exists c, x_counted "font-style" "font" x_font x_parent c /\ c_get c "font-style" = Value (Slant "italic")) /\
  (exists c, x_counted "font-weight" "font" x_font x_parent c /\ c_get c "font-weight" = Value (Weight 700)) /\
  (exists c, x_counted "font-width" "font" x_font x_parent c /\ c_get c "font-width" = Value (Width 75)) /\
  (exists c, x_counted "font-size" "font" x_font x_parent c /\ c_get c "font-size" = Value (Size (SLen (Abs 12 PX)))) /\
  (exists c, x_counted "font-family" "font" x_font x_parent c /\ c_get c "font-family" = Value (Families [of_string "A B"])) /\
  (exists c, x_counted "font-style" "font" [unit "12px"; ident "serif"] x_parent c /\ c_get c "font-style" = Value (Slant "normal")).
Proof.
  split; [|split; [|split; [|split; [|split]]]].
  - constructor; [|constructor; [|constructor; [|constructor]]]; cbn [fst snd].
    + apply (part_style "italic"); [cbn; tauto|]. eexists. split; [reflexivity|]. eexists. split; reflexivity.
    + apply (part_weight "bold"); [cbn; tauto|]. eexists. split; [reflexivity|]. eexists. split; reflexivity.
    + apply (part_width "condensed" 75); [cbn; tauto|discriminate|]. eexists. split; [reflexivity|]. eexists. split; reflexivity.
  - split.
    + intros k _. cbn [x_parts filter fst].
      destruct (String.eqb_spec "font-style" k) as [<-|]; [cbn; lia|]. destruct (String.eqb_spec "font-weight" k) as [<-|]; [cbn; lia|].
      destruct (String.eqb_spec "font-width" k) as [<-|]; cbn; lia.
    + intros a b w E. exfalso. assert (H : In ("normal", w) x_parts) by (rewrite E; apply in_or_app; right; now left).
      cbn in H. intuition discriminate.
  - apply size_length. apply (text_absolute (Number.mkD false [1; 2] [])%Z PX (of_string "px")).
    + split; [discriminate|]; split; repeat constructor; unfold digit_ok; lia.
    + exists (of_string "PX"). split; [cbn; tauto|reflexivity].
  - apply (line_number (Number.mkD false [1] [5])%Z). split; [discriminate|]; split; repeat constructor; unfold digit_ok; lia.
  - constructor.
  - split; [|split; [|split; [|split; [|split]]]]; shown x_others [("font-size", [ident "small"])].
Qed.

(** [font] resets the weight, says CSS. Here it stays bold, after [font: initial] as well. *)
Theorem C167_weight_refuted :
  x_value [("font-weight", [ident "bold"]); ("font", [unit "12px"; ident "serif"])] "font-weight" = Some (Value (Weight 700)) /\
  x_value [("font-weight", [ident "bold"]); ("font", [ident "initial"])] "font-weight" = Some (Value (Weight 700)).
Proof. split; vm_compute; reflexivity. Qed.
(** With a percentage as its size, [font] sets nothing: it is taken for a width. The size should
    be 40 pixels. An earlier [font] does not count either. *)
Theorem C167_percent_refuted :
  x_value [("font", [unit "12px"; ident "serif"]); ("font", [perc "200%"; ident "other"])] "font-size" = Some (Value (Size (SLen (Abs 20 PX)))) /\
  x_value [("font", [unit "12px"; ident "serif"]); ("font", [perc "200%"; ident "other"])] "font-family" = Some (Value (Families [of_string "Parent"])).
Proof. split; vm_compute; reflexivity. Qed.
(** Of several families the first one is taken. *)
Theorem C167_families_refuted :
  x_value [("font", [unit "12px"; quote "A"; comma; quote "B"])] "font-family" = Some (Value (Families [of_string "A"])).
Proof. vm_compute. reflexivity. Qed.
(** A word [normal] takes the style back; and a size of 0 is taken for a weight. *)
Theorem C167_normal_refuted :
  x_value [("font", [ident "italic"; ident "normal"; unit "12px"; ident "serif"])] "font-style" = Some (Value (Slant "normal")) /\
  x_value [("font", [numb "0"; ident "serif"])] "font-size" = Some (Value (Size (SLen (Abs 20 PX)))).
Proof. split; vm_compute; reflexivity. Qed.

(** The element is bold, its child is not; both have a family that there is, and [Other] does not exist. *)
Definition x_faces : option (list (option nat)) :=
  let t := Styled [x_decl false ("font-family", [ident "Other"; comma; ident "Known"]); x_decl false ("font-weight", [ident "bold"])]
             [Styled [] []; Styled [x_decl false ("font-weight", [numb "300"])] []; Styled [x_decl false ("font-family", [ident "Other"])] []] in
  match style_element x_eqb X x_blank x_parent t with
  | Ok r => let f := style_faces x_query (Some 3%nat) 4%nat x_stretch (fun _ _ => false) x_parent (lookup_face x_query (Some 3%nat) 4%nat x_stretch x_parent) r in
            Some (map (face_at f) [[]; [0]; [1]; [2]]%nat)
  | _ => None
  end.
Example C168_example : (forall q q', q == q' -> x_stretch q = x_stretch q') /\ x_faces = Some [Some 2; Some 2; Some 1; Some 3]%nat.
Proof. split; [exact Qfloor_comp|vm_compute; reflexivity]. Qed.

Example C169_example : (exists c, unsaid x_lighter x_bolder x_rnd x_query (Some 3%nat) 4%nat x_stretch x_metrics ctx_ex x_eqb "font-style" x_parent c) /\
  settled x_rnd (c_get x_parent "font-size") /\
  (exists c, x_counted "font-size" "font-size" [ident "initial"] x_parent c /\ c_get c "font-size" = Value (Size (SLen (Abs (16 * 1) PX)))) /\
  (exists c, x_counted "font-size" "font-size" [ident "inherit"] x_parent c /\ c_get c "font-size" = Value (Size (SLen (Abs 20 PX)))).
Proof.
  split; [|split; [|split]].
  - assert (H : exists c, x_compute [x_decl false ("font-weight", [ident "bold"])] = Ok c).
    { assert (B : match x_compute [x_decl false ("font-weight", [ident "bold"])] with Ok _ => True | _ => False end) by (vm_compute; exact Logic.I).
      destruct (x_compute _) as [c| |]; [eauto|contradiction|contradiction]. }
    destruct H as (c & Hc). exists c, x_blank, [x_decl false ("font-weight", [ident "bold"])]. split; [|split; [exact Hc|]].
    + repeat constructor. exists 9%nat, (of_string "font-weight"), [ident "bold"]. vm_compute. reflexivity.
    + repeat constructor. vm_compute. intuition discriminate.
  - exists 20. split; reflexivity.
  - shown x_others (@nil (string * list sst)).
  - shown x_others (@nil (string * list sst)).
Qed.
Example C170_example : map (x_value [("line-height", [numb "3"]); ("line-height", [perc "200%"])]) font_names = map (fun k => Some (c_get x_parent k)) font_names.
Proof. vm_compute. reflexivity. Qed.
Print Assumptions C161_empty_refuted.
Print Assumptions C167_weight_refuted.
Print Assumptions C167_percent_refuted.
Print Assumptions C167_families_refuted.
Print Assumptions C167_normal_refuted.
