(** Lemmas for ClipProps.v *)
From Coq Require Import String List NArith ZArith QArith Qminmax Qabs Bool Lia Lqa Setoid.
From Verif.Base Require Import Str.
From Verif.Css Require Import LexerModel ParserModel.
From Verif.Values Require Import Number LengthModel CalcModel ColorModel ColorSpec ColorProofs.
From Verif.Transform Require Import TransformModel TransformSpec TransformProofs TransformProofs2.
From Verif.Clip Require Import ClipModel ClipSpec.
Import ListNotations.
Local Open Scope list_scope.
Local Open Scope Q_scope.

(** ** Components *)
Lemma spells_keyword {A} k s (l : list (string * A)) r : spells k s ->
  read_keyword l (s :: r) = match find (fun e => eq_ci (of_string k) (of_string (fst e))) l with Some e => Some (snd e, r) | None => None end.
Proof. intros (d & -> & E). exact (keyword_reads d k l r E). Qed.
Lemma spells_skip k n s r : spells k s -> skip_tok (ident n) (s :: r) = if eq_ci (of_string k) (of_string n) then Some r else None.
Proof. intros (d & -> & E). cbn [skip_tok]. unfold token_eqb. cbn [t_type ident t_data ttype_beq andb]. apply eq_ci_spec in E. now rewrite (eq_ci_left _ _ _ E). Qed.
Lemma spells_solid k s : spells k s -> solid s = true.
Proof. now intros (d & -> & _). Qed.
Lemma spells_lengths k s r : spells k s -> lengths (s :: r) = None.
Proof. now intros (d & -> & _). Qed.
Lemma len_skip n w r : skip_tok (ident n) (len_sst w :: r) = None.
Proof. destruct w as [[]| |]; reflexivity. Qed.

Notation reads_item := (reads read_item).
Lemma item_length w v : reads lengths (len_sst w) v -> reads_item (len_sst w) (Off v).
Proof. intros [S E]. split; [exact S|]. intros r. unfold read_item. now rewrite keyword_not, E. Qed.
Lemma item_keyword k s : spells k s ->
  match find (fun e => eq_ci (of_string k) (of_string (fst e)))
             [("left", LEFT); ("center", CENTER); ("right", RIGHT); ("top", TOP); ("bottom", BOTTOM)]%string with
  | Some e => reads_item s (snd e) | None => True end.
Proof.
  intros H. destruct (find _ _) as [e|] eqn:F; [|exact I]. split; [now apply (spells_solid k)|]. intros r. unfold read_item.
  now rewrite (spells_keyword k s _ r H), F.
Qed.

Lemma spaced_eat ws l : spaced ws l -> Forall (fun s => solid s = true) ws -> eat_wss l = l.
Proof. intros [|s ws' b l' B Sp] F; [reflexivity|]. inversion F; subst. now apply eat_solid. Qed.
Lemma items_read : forall ws is n l, Forall2 reads_item ws is -> spaced ws l -> (List.length ws <= n)%nat -> read_items n l = (is, []).
Proof.
  induction ws as [|s ws IH]; intros is n l F Sp L.
  - inversion F; inversion Sp; subst. destruct n; reflexivity.
  - inversion F as [|? i ? is' [So Re] F']; inversion Sp as [|? ? b l' B Sp']; subst. destruct n as [|n]; [cbn in L; lia|].
    cbn [read_items]. rewrite (eat_solid s _ So), Re, (eat_blank b l' B).
    rewrite (spaced_eat ws l' Sp'), (IH is' n l' F' Sp'); [reflexivity|cbn in L; lia|].
    clear - F'. induction F' as [|? ? ? ? [So _]]; constructor; assumption.
Qed.

(** ** Places *)
Definition dflt (o : option length_value) : length_value := match o with Some v => v | None => zero_percent end.
Definition after (k : item) (o : option length_value) : list item := k :: match o with Some v => [Off v] | None => [] end.
Local Notation "'get' x <- e ; f" := (bind e (fun x => f)) (at level 200, x name, right associativity).
(** [q] is the coordinate in an axis of length [whole]. *)
Definition near_at (x : length_value) (p : place) : Prop := forall whole, exists q, len x whole = Some q /\ q == coordinate p whole.
Definition far_at (x : length_value) (p : place) : Prop := forall whole, exists q, len x whole = Some q /\ whole - q == coordinate p whole.
Definition at_axis (near far : item) (p : place) (k : item) (o : option length_value) : Prop :=
  (k = near /\ near_at (dflt o) p) \/ (k = far /\ far_at (dflt o) p) \/ (k = CENTER /\ o = None /\ p = Middle).

Lemma zero_near : near_at zero_percent (Near None).
Proof. intros whole. eexists. split; [reflexivity|]. cbn. field. Qed.
Lemma zero_far : far_at zero_percent (Far None).
Proof. intros whole. eexists. split; [reflexivity|]. cbn. field. Qed.

Lemma place_items near far n f p l :
  (forall s, spells near s -> reads_item s n) -> (forall s, spells far s -> reads_item s f) ->
  place_text near far p l -> place_ok p ->
  exists k o, Forall2 reads_item l (after k o) /\ at_axis n f p k o /\ (bare p <-> o = None).
Proof.
  intros N F T O. destruct T as [s H|s w H|s H|s H|s w H].
  - exists n, None. split; [constructor; [now apply N|constructor]|]. split; [left; split; [reflexivity|exact zero_near]|]. split; intros _; constructor.
  - destruct (len_reads w O) as (v & Rv & V). exists n, (Some v). split; [constructor; [now apply N|constructor; [now apply item_length|constructor]]|].
    split; [left; split; [reflexivity|exact V]|]. split; [intros K; inversion K|discriminate].
  - exists CENTER, None. split; [constructor; [exact (item_keyword "center" s H)|constructor]|].
    split; [right; right; repeat split|]. split; intros _; constructor.
  - exists f, None. split; [constructor; [now apply F|constructor]|]. split; [right; left; split; [reflexivity|exact zero_far]|]. split; intros _; constructor.
  - destruct (len_reads w O) as (v & Rv & V). exists f, (Some v). split; [constructor; [now apply F|constructor; [now apply item_length|constructor]]|].
    split; [right; left; split; [reflexivity|]|split; [intros K; inversion K|discriminate]].
    intros whole. destruct (V whole) as (q & E & Q). exists q. split; [exact E|]. cbn [dflt coordinate offset_of]. now rewrite Q.
Qed.
Lemma horizontal_items h l : place_text "left" "right" h l -> place_ok h ->
  exists k o, Forall2 reads_item l (after k o) /\ at_axis LEFT RIGHT h k o /\ (bare h <-> o = None).
Proof. apply place_items; intros s H; [exact (item_keyword "left" s H)|exact (item_keyword "right" s H)]. Qed.
Lemma vertical_items v l : place_text "top" "bottom" v l -> place_ok v ->
  exists k o, Forall2 reads_item l (after k o) /\ at_axis TOP BOTTOM v k o /\ (bare v <-> o = None).
Proof. apply place_items; intros s H; [exact (item_keyword "top" s H)|exact (item_keyword "bottom" s H)]. Qed.

(** ** Positions *)
Definition h_at (s : hside) (x : length_value) (h : place) : Prop :=
  match s with H_LEFT => near_at x h | H_RIGHT => far_at x h | H_CENTER => h = Middle end.
Definition v_at (s : vside) (y : length_value) (v : place) : Prop :=
  match s with V_TOP => near_at y v | V_BOTTOM => far_at y v | V_CENTER => v = Middle end.
Definition placed (p : position) (h v : place) : Prop := h_at (p_h p) (p_x p) h /\ v_at (p_v p) (p_y p) v.

Lemma placed_resolves p h v box : placed p h v ->
  exists c, resolve_position p box = Some c /\ c ≡ (coordinate h (r_w box), coordinate v (r_h box)).
Proof.
  intros [Hh Hv]. unfold resolve_position.
  assert (X : exists x, match p_h p with
           | H_LEFT => len (p_x p) (r_w box) | H_RIGHT => get q <- len (p_x p) (r_w box); Some (r_w box - q)
           | H_CENTER => Some (r_w box / 2) end = Some x /\ x == coordinate h (r_w box)).
  { destruct (p_h p); cbn [h_at] in Hh.
    - exact (Hh _).
    - subst. eexists. split; [reflexivity|]. reflexivity.
    - destruct (Hh (r_w box)) as (q & E & Q). exists (r_w box - q). split; [now rewrite E|exact Q]. }
  assert (Y : exists y, match p_v p with
           | V_TOP => len (p_y p) (r_h box) | V_BOTTOM => get q <- len (p_y p) (r_h box); Some (r_h box - q)
           | V_CENTER => Some (r_h box / 2) end = Some y /\ y == coordinate v (r_h box)).
  { destruct (p_v p); cbn [v_at] in Hv.
    - exact (Hv _).
    - subst. eexists. split; [reflexivity|]. reflexivity.
    - destruct (Hv (r_h box)) as (q & E & Q). exists (r_h box - q). split; [now rewrite E|exact Q]. }
  destruct X as (x & -> & X). destruct Y as (y & -> & Y). exists (x, y). split; [reflexivity|]. split; assumption.
Qed.

Lemma place_vertical v l : place_text "top" "bottom" v l -> v <> Middle -> forall l', vertical_first (l ++ l').
Proof. intros T N l'. destruct T as [s H|s w H|s H|s H|s w H]; try congruence; eexists; eexists; (split; [reflexivity|]); tauto. Qed.

Lemma both_items h v k o k' o' : at_axis LEFT RIGHT h k o -> at_axis TOP BOTTOM v k' o' ->
  exists p, of_items (after k o ++ after k' o') = Some p /\ placed p h v.
Proof.
  intros [[-> H]|[[-> H]|(-> & -> & ->)]] [[-> K]|[[-> K]|(-> & -> & ->)]];
    try destruct o as [x|]; try destruct o' as [y|]; eexists; (split; [reflexivity|]); split; try assumption; reflexivity.
Qed.
Lemma swapped_items h v k o k' o' : at_axis LEFT RIGHT h k o -> at_axis TOP BOTTOM v k' o' ->
  (k' = CENTER \/ (k <> CENTER /\ ~ (o = None /\ o' = None))) ->
  exists p, of_items (after k' o' ++ after k o) = Some p /\ placed p h v.
Proof.
  intros [[-> H]|[[-> H]|(-> & -> & ->)]] [[-> K]|[[-> K]|(-> & -> & ->)]] [C|[C N]]; try congruence;
    try destruct o as [x|]; try destruct o' as [y|]; try (exfalso; apply N; split; reflexivity);
    eexists; (split; [reflexivity|]); split; try assumption; reflexivity.
Qed.

Lemma axis_middle near far p k o : at_axis near far p k o -> near <> CENTER -> far <> CENTER -> k = CENTER -> p = Middle.
Proof. intros [[-> _]|[[-> _]|(-> & -> & E)]] N F C; congruence. Qed.
Lemma words_items h v ws : position_words h v ws -> place_ok h -> place_ok v -> in_order h v ws ->
  exists is p, Forall2 reads_item ws is /\ (List.length ws <= 4)%nat /\ of_items is = Some p /\ placed p h v.
Proof.
  assert (Len : forall l k o, Forall2 reads_item l (after k o) -> (List.length l <= 2)%nat)
    by (intros l k o F; assert (E : List.length l = List.length (after k o)) by (clear - F; induction F; cbn; congruence);
        rewrite E; destruct o; cbn; lia).
  intros W Oh Ov Ord. destruct W as [h l B T|v l B T|w|w w'|w v l B T|h w l B T|h v l l' T T'|h v l l' T T'].
  - destruct (horizontal_items h l T Oh) as (k & o & F & A & Bo). apply Bo in B as ->. exists [k].
    pose proof (Len l k None F). destruct A as [[-> A]|[[-> A]|(-> & _ & ->)]]; eexists; (split; [exact F|split; [lia|split; [reflexivity|]]]); split; try assumption; reflexivity.
  - destruct (vertical_items v l T Ov) as (k & o & F & A & Bo). apply Bo in B as ->. exists [k].
    pose proof (Len l k None F). destruct A as [[-> A]|[[-> A]|(-> & _ & ->)]]; eexists; (split; [exact F|split; [lia|split; [reflexivity|]]]); split; try assumption; reflexivity.
  - destruct (len_reads w Oh) as (x & Rx & X). exists [Off x]. eexists. split; [constructor; [now apply item_length|constructor]|].
    split; [cbn; lia|]. split; [reflexivity|]. split; [exact X|reflexivity].
  - destruct (len_reads w Oh) as (x & Rx & X). destruct (len_reads w' Ov) as (y & Ry & Y). exists [Off x; Off y]. eexists.
    split; [constructor; [now apply item_length|constructor; [now apply item_length|constructor]]|]. split; [cbn; lia|]. split; [reflexivity|]. split; [exact X|exact Y].
  - destruct (len_reads w Oh) as (x & Rx & X). destruct (vertical_items v l T Ov) as (k & o & F & A & Bo). apply Bo in B as ->. exists [Off x; k].
    pose proof (Len l k None F). destruct A as [[-> A]|[[-> A]|(-> & _ & ->)]]; eexists;
      (split; [constructor; [now apply item_length|exact F]|split; [cbn; lia|split; [reflexivity|]]]); split; try assumption; reflexivity.
  - destruct (len_reads w Ov) as (x & Rx & X). destruct (horizontal_items h l T Oh) as (k & o & F & A & Bo). apply Bo in B as ->. exists [k; Off x].
    pose proof (Len l k None F). destruct A as [[-> A]|[[-> A]|(-> & _ & ->)]]; eexists;
      (split; [apply (Forall2_app F); constructor; [now apply item_length|constructor]|split; [rewrite app_length; cbn; lia|split; [reflexivity|]]]); split; try assumption; reflexivity.
  - destruct (horizontal_items h l T Oh) as (k & o & F & A & _). destruct (vertical_items v l' T' Ov) as (k' & o' & F' & A' & _).
    destruct (both_items h v k o k' o' A A') as (p & E & P). exists (after k o ++ after k' o'), p. split; [now apply Forall2_app|].
    split; [rewrite app_length; pose proof (Len _ _ _ F); pose proof (Len _ _ _ F'); lia|]. split; assumption.
  - destruct (horizontal_items h l T Oh) as (k & o & F & A & Bo). destruct (vertical_items v l' T' Ov) as (k' & o' & F' & A' & Bo').
    destruct (swapped_items h v k o k' o' A A') as (p & E & P).
    { destruct A' as [[-> K]|[[-> K]|(-> & -> & ->)]]; [right|right|left; reflexivity].
      all: assert (V : v <> Middle) by (intros ->; destruct (K 1) as (q & E & Q); inversion T'; subst; inversion F' as [|? ? ? ? [_ R] _]; subst; specialize (R []);
             unfold read_item in R; rewrite (spells_keyword "center" _ _ [] H) in R; discriminate R).
      all: destruct Ord as [N1 N2]; [rewrite app_length; inversion T; inversion T'; cbn; lia|exact (place_vertical v l' T' V l)|].
      all: split; [intros ->; apply N1; eapply axis_middle; [exact A|discriminate|discriminate|reflexivity]|].
      all: intros [-> ->]; apply N2; split; [now apply Bo|now apply Bo']. }
    exists (after k' o' ++ after k o), p. split; [now apply Forall2_app|].
    split; [rewrite app_length; pose proof (Len _ _ _ F); pose proof (Len _ _ _ F'); lia|]. split; assumption.
Qed.

Lemma position_read h v ws l : position_words h v ws -> place_ok h -> place_ok v -> in_order h v ws -> spaced ws l ->
  exists p, read_position l = (Some p, []) /\ placed p h v.
Proof.
  intros W Oh Ov Ord Sp. destruct (words_items h v ws W Oh Ov Ord) as (is & p & F & L & E & P). exists p. split; [|exact P].
  unfold read_position. rewrite (items_read ws is 4 l F Sp L). now rewrite E.
Qed.
Lemma words_solid h v ws : position_words h v ws -> Forall (fun s => solid s = true) ws.
Proof.
  assert (P : forall n f p l, place_text n f p l -> Forall (fun s => solid s = true) l)
    by (intros n f p l []; repeat constructor; try (eapply spells_solid; eassumption); apply len_solid).
  intros [h' l _ T|v' l _ T|w|w w'|w v' l _ T|h' w l _ T|h' v' l l' T T'|h' v' l l' T T'].
  - exact (P _ _ _ _ T).
  - exact (P _ _ _ _ T).
  - constructor; [apply len_solid|constructor].
  - constructor; [apply len_solid|constructor; [apply len_solid|constructor]].
  - constructor; [apply len_solid|exact (P _ _ _ _ T)].
  - apply Forall_app. split; [exact (P _ _ _ _ T)|constructor; [apply len_solid|constructor]].
  - apply Forall_app. split; [exact (P _ _ _ _ T)|exact (P _ _ _ _ T')].
  - apply Forall_app. split; [exact (P _ _ _ _ T')|exact (P _ _ _ _ T)].
Qed.
