(** The tokens of a serialised tree. *)
From Coq Require Import String List Arith Bool NArith Lia Permutation.
From Verif.Base Require Import Str.
From Verif.Html Require Import Entities LexerModel LexerInv LexerTac LexerFrame LexerProofs RefProofs SerialModel SerialSpec.
Import ListNotations.
Local Open Scope list_scope.
Local Open Scope N_scope.

Local Opaque has_partial is_entity expansion.

Definition text_at (st : state) (la : option token) (o : list token) (l : lexer) : Prop :=
  l_state l = st /\ l_builder l = [] /\ l_peek l = [] /\ l_last l = la /\ l_out l = o.
Definition tag_at (st : state) (la : option token) (tok : token) (a : attr_ref) (b : str) (o : list token) (l : lexer) : Prop :=
  l_state l = st /\ l_builder l = b /\ l_peek l = [] /\ l_last l = la /\ l_out l = o /\ l_token l = Some tok /\ l_attr l = a.

Definition decodes (st : state) : Prop := st = DATA \/ st = RCDATA.


(** ** Character references of [escape] *)
Definition in_table (e : str * str) : bool := existsb (fun x => str_eqb (fst x) (fst e) && str_eqb (snd x) (snd e)) entities.
Lemma in_table_in e : in_table e = true -> In e entities.
Proof.
  unfold in_table. rewrite existsb_exists. intros (x & Hi & H). apply andb_true_iff in H as [H1 H2].
  apply str_eqb_spec in H1. apply str_eqb_spec in H2. destruct x as [x1 x2], e as [e1 e2]; cbn [fst snd] in H1, H2; subst. exact Hi.
Qed.
Lemma amp_in : In (of_string "&amp;", [38]) entities.
Proof. apply in_table_in. vm_compute. reflexivity. Qed.
Lemma nbsp_in : In (of_string "&nbsp;", [160]) entities.
Proof. apply in_table_in. vm_compute. reflexivity. Qed.
Lemma lt_in : In (of_string "&lt;", [60]) entities.
Proof. apply in_table_in. vm_compute. reflexivity. Qed.
Lemma gt_in : In (of_string "&gt;", [62]) entities.
Proof. apply in_table_in. vm_compute. reflexivity. Qed.
Lemma quot_in : In (of_string "&quot;", [34]) entities.
Proof. apply in_table_in. vm_compute. reflexivity. Qed.
Local Opaque entities.

(** How [escape] writes a character: as a reference of the table that stands for it, or itself. *)
Lemma escape_char_cases attribute c :
  (exists e n, In e entities /\ fst e = n ++ [59] /\ snd e = [c] /\ escape_char attribute c = fst e) \/
  (escape_char attribute c = [c] /\ c <> 38 /\ c <> 60 /\ (attribute = true -> c <> 34)).
Proof.
  unfold escape_char.
  destruct (c =? 38) eqn:E1; [apply N.eqb_eq in E1; subst; left; exists (of_string "&amp;", [38]), (of_string "&amp"); split; [exact amp_in|split; [reflexivity|split; reflexivity]]|].
  destruct (c =? 160) eqn:E2; [apply N.eqb_eq in E2; subst; left; exists (of_string "&nbsp;", [160]), (of_string "&nbsp"); split; [exact nbsp_in|split; [reflexivity|split; reflexivity]]|].
  destruct (c =? 60) eqn:E3; [apply N.eqb_eq in E3; subst; left; exists (of_string "&lt;", [60]), (of_string "&lt"); split; [exact lt_in|split; [reflexivity|split; reflexivity]]|].
  destruct (c =? 62) eqn:E4; [apply N.eqb_eq in E4; subst; left; exists (of_string "&gt;", [62]), (of_string "&gt"); split; [exact gt_in|split; [reflexivity|split; reflexivity]]|].
  destruct (attribute && (c =? 34)) eqn:E5.
  - apply andb_true_iff in E5 as [_ E5]. apply N.eqb_eq in E5; subst; left; exists (of_string "&quot;", [34]), (of_string "&quot"); split; [exact quot_in|split; [reflexivity|split; reflexivity]].
  - right. apply N.eqb_neq in E1, E3. split; [reflexivity|]. split; [exact E1|]. split; [exact E3|].
    intros ->. cbn in E5. now apply N.eqb_neq in E5.
Qed.

Section NodeInd.
Variable P : node -> Prop.
Hypothesis Htext : forall s, P (Text s).
Hypothesis Hcomment : forall s, P (Comment s).
Hypothesis Hdoctype : forall s, P (Doctype s).
Hypothesis Helement : forall q attrs children, Forall P children -> P (Element q attrs children).
Fixpoint node_induct (n : node) : P n :=
  match n with
  | Text s => Htext s
  | Comment s => Hcomment s
  | Doctype s => Hdoctype s
  | Element q attrs children =>
      Helement q attrs children ((fix go ns := match ns return Forall P ns with [] => Forall_nil P | x :: r => Forall_cons x (node_induct x) (go r) end) children)
  end.
End NodeInd.

Section Sink.
Variable sink : list token -> option text_mode.

Lemma once c l l' f : step sink c false (clear_again l) = Ok l' -> l_again l' = false -> consume sink (S f) c false l = Ok l'.
Proof.
  intros H Ha. cbn [consume]. unfold seq. cbn [bind set_again]. fold (clear_again l). rewrite H. cbn [bind]. now rewrite Ha.
Qed.
Lemma twice c l l' f : step sink c false (clear_again l) = Ok l' -> l_again l' = true -> consume sink (S f) c false l = consume sink f c false l'.
Proof.
  intros H Ha. cbn [consume]. unfold seq. cbn [bind set_again]. fold (clear_again l). rewrite H. cbn [bind]. now rewrite Ha.
Qed.
Lemma feed1 c l : feed sink [c] l = consume sink max_depth c false l.
Proof. cbn [feed]. now destruct (consume sink max_depth c false l). Qed.
Lemma feed_then s t l (P Q : lexer -> Prop) :
  (exists l', feed sink s l = Ok l' /\ P l') -> (forall l', P l' -> exists l'', feed sink t l' = Ok l'' /\ Q l'') ->
  exists l'', feed sink (s ++ t) l = Ok l'' /\ Q l''.
Proof.
  intros (l' & E & HP) H. destruct (H l' HP) as (l'' & E' & HQ). exists l''. split; [|exact HQ].
  rewrite feed_app, E. exact E'.
Qed.
Lemma feed_cons_then c t l (P Q : lexer -> Prop) :
  (exists l', consume sink max_depth c false l = Ok l' /\ P l') -> (forall l', P l' -> exists l'', feed sink t l' = Ok l'' /\ Q l'') ->
  exists l'', feed sink (c :: t) l = Ok l'' /\ Q l''.
Proof.
  intros (l' & E & HP) H. destruct (H l' HP) as (l'' & E' & HQ). exists l''. split; [|exact HQ].
  cbn [feed]. now rewrite E.
Qed.

(** ** Text *)
Lemma text_char st la o c l :
  decodes st -> c <> 38 -> c <> 60 -> c <> 0 -> text_at st la o l ->
  exists l', consume sink max_depth c false l = Ok l' /\ text_at st la (char_token c :: o) l'.
Proof.
  intros Hd H1 H2 H3 (Hs & Hb & Hp & Hl & Ho). destruct l as [st' re tok la' ch bu te pe fo ma at_ ag out].
  cbn in Hs, Hb, Hp, Hl, Ho. subst.
  apply N.eqb_neq in H1, H2, H3.
  destruct Hd as [-> | ->], at_; eexists; (split; [apply once; [unfold step, clear_again; cbn [l_state]; unfold on_DATA, on_RCDATA; rewrite H1, H2, H3; acts; reflexivity|reflexivity]|]);
    unfold text_at; cbn; auto.
Qed.

Lemma text_ref st la o e n l :
  decodes st -> In e entities -> fst e = n ++ [59] -> text_at st la o l ->
  exists l', feed sink (fst e) l = Ok l' /\ text_at st la (rev (map char_token (snd e)) ++ o) l'.
Proof.
  intros Hd Hi He (Hs & Hb & Hp & Hl & Ho).
  destruct (text_reference sink e n l Hi He) as (tok & a & te & E); [rewrite Hs; exact Hd|].
  eexists; split; [exact E|]. unfold text_at. cbn [l_state l_builder l_peek l_last l_out]. rewrite Ho. auto.
Qed.

Lemma text_escape st la s : decodes st -> ~ In 0 s -> forall o l, text_at st la o l ->
  exists l', feed sink (escape false s) l = Ok l' /\ text_at st la (rev (map char_token s) ++ o) l'.
Proof.
  intros Hd. induction s as [|c s IH]; intros H0 o l Hl.
  - exists l. split; [reflexivity|exact Hl].
  - unfold escape. cbn [flat_map]. apply feed_then with (P := text_at st la (char_token c :: o)).
    + destruct (escape_char_cases false c) as [(e & n & Hi & He & Hs & E)|(E & H1 & H2 & _)]; rewrite E.
      * destruct (text_ref st la o e n l Hd Hi He Hl) as (l' & El & H). rewrite Hs in H. exists l'. split; [exact El|exact H].
      * rewrite feed1. apply text_char; auto. intros ->. apply H0. left; reflexivity.
    + intros l' Hl'. destruct (IH (fun h => H0 (or_intror h)) _ _ Hl') as (l'' & E & H).
      exists l''. split; [exact E|]. cbn [map rev]. rewrite <- app_assoc. exact H.
Qed.

(** ** Raw text *)
Definition raw_state (st : state) : Prop := st = RAWTEXT \/ st = SCRIPT_DATA.
Definition raw_lt (st : state) : state := match st with RAWTEXT => RAWTEXT_LESS_THAN_SIGN | RCDATA => RCDATA_LESS_THAN_SIGN | _ => SCRIPT_DATA_LESS_THAN_SIGN end.
(** After a prefix of the text: a last [<] is still held back. *)
Definition raw_at (st : state) (la : option token) (o : list token) (l : lexer) : Prop :=
  text_at st la o l \/ exists o', o = char_token 60 :: o' /\ text_at (raw_lt st) la o' l.

Lemma raw_char st la o c l :
  raw_state st -> c <> 0 -> (text_at st la o l \/ (c <> 47 /\ c <> 33)) -> raw_at st la o l ->
  exists l', consume sink max_depth c false l = Ok l' /\
    (c = 60 -> text_at (raw_lt st) la o l') /\ (c <> 60 -> text_at st la (char_token c :: o) l').
Proof.
  intros Hr H0 Hc Hat. apply N.eqb_neq in H0.
  destruct l as [st' re tok la' ch bu te pe fo ma at_ ag out].
  assert (exists l', (text_at st la o (mkLexer st' re tok la' ch bu te pe fo ma at_ ag out) /\ l' = mkLexer st' re tok la' ch bu te pe fo ma at_ ag out \/
                      text_at st la o l') /\ exists f, consume sink max_depth c false (mkLexer st' re tok la' ch bu te pe fo ma at_ ag out) = consume sink (S f) c false l') as (l1 & Hl1 & f & Ef).
  { destruct Hat as [Hat|(o' & -> & Hat)].
    - exists (mkLexer st' re tok la' ch bu te pe fo ma at_ ag out). split; [left; auto|]. exists 7%nat. reflexivity.
    - assert (c <> 47 /\ c <> 33) as [H1 H2].
      { destruct Hc as [Hc|Hc]; [|exact Hc]. exfalso. destruct Hat as (E & _), Hc as (E' & _). cbn in E, E'. subst.
        destruct Hr as [-> | ->]; discriminate. }
      apply N.eqb_neq in H1, H2. destruct Hat as (Hs & Hb & Hp & Hl & Ho). cbn in Hs, Hb, Hp, Hl, Ho. subst.
      destruct Hr as [-> | ->], at_; eexists; (split; [|exists 6%nat; (apply twice; [unfold step, clear_again; cbn [l_state raw_lt];
        unfold on_RAWTEXT_LESS_THAN_SIGN, on_SCRIPT_DATA_LESS_THAN_SIGN; rewrite ?H1, ?H2; acts; reflexivity|reflexivity])]); right; unfold text_at; cbn; auto. }
  assert (text_at st la o l1) as Ht by (destruct Hl1 as [[H ->]|H]; exact H).
  clear Hl1 Hat Hc. rewrite Ef. clear Ef. destruct l1 as [st1 re1 tok1 la1 ch1 bu1 te1 pe1 fo1 ma1 at1 ag1 out1].
  destruct Ht as (Hs & Hb & Hp & Hl & Ho). cbn in Hs, Hb, Hp, Hl, Ho. subst.
  destruct (c =? 60) eqn:E60.
  - apply N.eqb_eq in E60. subst c.
    destruct Hr as [-> | ->]; (eexists; split; [apply once; [reflexivity|reflexivity]|]); (split; [intros _; unfold text_at; cbn; auto|congruence]).
  - destruct Hr as [-> | ->], at1; (eexists; split; [apply once; [unfold step, clear_again; cbn [l_state]; unfold on_RAWTEXT, on_SCRIPT_DATA; rewrite E60, H0; acts; reflexivity|reflexivity]|]);
    (split; [intros ->; discriminate|intros _; unfold text_at; cbn; auto]).
Qed.

(** The text before a character can be [<] only if the character does not make it a tag. *)
Lemma raw_text st la s : raw_state st -> forall p o l, raw_ok (p ++ s) ->
  raw_at st la o l -> (text_at st la o l \/ exists p', p = p' ++ [60]) ->
  exists l', feed sink s l = Ok l' /\ raw_at st la (rev (map char_token s) ++ o) l'.
Proof.
  intros Hr. induction s as [|c s IH]; intros p o l Hok Hat Hp.
  - exists l. split; [reflexivity|exact Hat].
  - destruct Hok as ([H0 H13] & H47 & H33).
    destruct (raw_char st la o c l Hr) as (l' & E & Hat' & Hc').
    + intros ->. apply H0. apply in_or_app. right. left. reflexivity.
    + destruct Hp as [Hp|(p' & ->)]; [left; exact Hp|right].
      split; intros ->; [apply (H47 p' s)|apply (H33 p' s)]; rewrite <- app_assoc; reflexivity.
    + exact Hat.
    + destruct (IH (p ++ [c]) (char_token c :: o) l') as (l'' & E'' & H'').
      * rewrite <- app_assoc. split; [split; assumption|split; assumption].
      * destruct (N.eq_dec c 60) as [->|Hn]; [right; exists o; split; [reflexivity|apply Hat'; reflexivity]|left; apply Hc', Hn].
      * destruct (N.eq_dec c 60) as [->|Hn]; [right; exists p; reflexivity|left; apply Hc', Hn].
      * exists l''. cbn [feed]. rewrite E. cbn [bind]. split; [exact E''|]. cbn [map rev]. rewrite <- app_assoc. exact H''.
Qed.

(** ** Tags *)

Lemma lower_facts c : is_lower c = true ->
  is_alpha c = true /\ (c =? 33) = false /\ (c =? 47) = false /\ (c =? 62) = false /\ is_space c = false /\ is_upper c = false /\ (c =? 0) = false.
Proof.
  unfold is_alpha, is_lower, is_upper, is_space. intros Hc. apply andb_true_iff in Hc as [H1 H2]. apply N.leb_le in H1, H2.
  repeat split; rewrite ?orb_true_iff, ?orb_false_iff, ?andb_false_iff, ?andb_true_iff, ?N.eqb_neq, ?N.leb_le, ?N.leb_gt; lia.
Qed.

Lemma tag_lt la o l : text_at DATA la o l -> exists l', consume sink max_depth 60 false l = Ok l' /\ text_at TAG_OPEN la o l'.
Proof.
  intros (Hs & Hb & Hp & Hl & Ho). destruct l as [st' re tok la' ch bu te pe fo ma at_ ag out].
  cbn in Hs, Hb, Hp, Hl, Ho. subst. eexists. split; [apply once; reflexivity|]. unfold text_at. cbn. auto.
Qed.
Lemma tag_slash la o l : text_at TAG_OPEN la o l -> exists l', consume sink max_depth 47 false l = Ok l' /\ text_at END_TAG_OPEN la o l'.
Proof.
  intros (Hs & Hb & Hp & Hl & Ho). destruct l as [st' re tok la' ch bu te pe fo ma at_ ag out].
  cbn in Hs, Hb, Hp, Hl, Ho. subst. eexists. split; [apply once; reflexivity|]. unfold text_at. cbn. auto.
Qed.
Lemma tag_first ty st la o c l : is_lower c = true -> (ty = T_START_TAG /\ st = TAG_OPEN \/ ty = T_END_TAG /\ st = END_TAG_OPEN) -> text_at st la o l ->
  exists l', consume sink max_depth c false l = Ok l' /\ exists a, tag_at TAG_NAME la (new_token ty) a [c] o l'.
Proof.
  intros Hc Hst (Hs & Hb & Hp & Hl & Ho). destruct l as [st' re tok la' ch bu te pe fo ma at_ ag out].
  cbn in Hs, Hb, Hp, Hl, Ho. subst. destruct (lower_facts c Hc) as (A1 & A2 & A3 & A4 & A5 & A6 & A7).
  destruct Hst as [[-> ->]|[-> ->]], at_.
  all: eexists; split; [
    etransitivity; [apply twice; [unfold step, clear_again; cbn [l_state]; unfold on_TAG_OPEN, on_END_TAG_OPEN; rewrite ?A1, ?A2, ?A3; acts; reflexivity|reflexivity]|];
    apply once; [unfold step, clear_again; cbn [l_state]; unfold on_TAG_NAME; rewrite A3, A4, A5, A6, A7; acts; reflexivity|reflexivity]|].
  all: eexists; unfold tag_at; cbn; repeat split; reflexivity.
Qed.

Lemma tag_name_chars la tok a o s : Forall name_char s -> forall b l, tag_at TAG_NAME la tok a b o l ->
  exists l', feed sink s l = Ok l' /\ tag_at TAG_NAME la tok a (b ++ s) o l'.
Proof.
  induction 1 as [|c s (A5 & A6 & A3 & A4 & A7 & _) Hs IH]; intros b l Hl.
  - exists l. split; [reflexivity|]. now rewrite app_nil_r.
  - apply feed_cons_then with (P := tag_at TAG_NAME la tok a (b ++ [c]) o).
    + destruct Hl as (Hst & Hb & Hp & Hl & Ho & Ht & Ha). destruct l as [st' re tok' la' ch bu te pe fo ma at_ ag out].
      cbn in Hst, Hb, Hp, Hl, Ho, Ht, Ha. subst. apply N.eqb_neq in A3, A4, A7.
      eexists; split; [apply once; [unfold step, clear_again; cbn [l_state]; unfold on_TAG_NAME; rewrite A3, A4, A5, A6, A7; acts; reflexivity|reflexivity]|].
      unfold tag_at. cbn. repeat split; reflexivity.
    + intros l' Hl'. destruct (IH _ _ Hl') as (l'' & E & H). exists l''. split; [exact E|]. rewrite <- app_assoc in H. exact H.
Qed.

(** After the name or an attribute of a tag. *)
Definition tag_mid (ty : ttype) (name : str) (attrs : list (str * str)) (la : option token) (o : list token) (l : lexer) : Prop :=
  (attrs = [] /\ exists a, tag_at TAG_NAME la (new_token ty) a name o l) \/
  (exists a, tag_at AFTER_ATTRIBUTE_VALUE_QUOTED la (tag_token ty name attrs) a [] o l).

Lemma tag_space ty name attrs la o l : tag_mid ty name attrs la o l ->
  exists l', consume sink max_depth 32 false l = Ok l' /\ exists a, tag_at BEFORE_ATTRIBUTE_NAME la (tag_token ty name attrs) a [] o l'.
Proof.
  intros [[-> [a Hl]]|[a Hl]]; destruct Hl as (Hst & Hb & Hp & Hl & Ho & Ht & Ha); destruct l as [st' re tok' la' ch bu te pe fo ma at_ ag out];
    cbn in Hst, Hb, Hp, Hl, Ho, Ht, Ha; subst;
    (eexists; split; [apply once; [unfold step, clear_again; cbn [l_state]; unfold on_TAG_NAME, on_AFTER_ATTRIBUTE_VALUE_QUOTED; cbn [is_space N.eqb Pos.eqb orb]; acts; reflexivity|reflexivity]|]);
    exists a; unfold tag_at; cbn; repeat split; reflexivity.
Qed.

Definition after_tag (tok : token) (o : list token) : state :=
  if ttype_eqb (t_type tok) T_START_TAG then match sink (tok :: o) with Some m => mode_state m | None => DATA end else DATA.

Lemma tag_close ty name attrs la o l : tag_mid ty name attrs la o l ->
  exists l', consume sink max_depth 62 false l = Ok l' /\
    text_at (after_tag (tag_token ty name attrs) o) (if ttype_eqb ty T_START_TAG then Some (tag_token ty name attrs) else la)
            (tag_token ty name attrs :: o) l'.
Proof.
  intros [[-> [a Hl]]|[a Hl]]; destruct Hl as (Hst & Hb & Hp & Hl & Ho & Ht & Ha); destruct l as [st' re tok' la' ch bu te pe fo ma at_ ag out];
    cbn in Hst, Hb, Hp, Hl, Ho, Ht, Ha; subst;
    (eexists; split; [apply once; [unfold step, clear_again; cbn [l_state]; unfold on_TAG_NAME, on_AFTER_ATTRIBUTE_VALUE_QUOTED; cbn [is_space N.eqb Pos.eqb orb]; acts; reflexivity|reflexivity]|]);
    unfold text_at, after_tag; cbn; destruct ty; cbn; repeat split; reflexivity.
Qed.

(** ** Attributes *)
Lemma eq_ci_lower x y : is_upper x = false -> is_upper y = false -> eq_ci x y = (x =? y).
Proof. intros H1 H2. unfold eq_ci, to_lower. now rewrite H1, H2. Qed.
Lemma start_with_lower a b : Forall (fun c => is_upper c = false) a -> Forall (fun c => is_upper c = false) b ->
  start_with eq_ci a b = YES -> a = b.
Proof.
  intros Ha. revert b. induction Ha as [|x a Hx Ha IH]; intros b Hb H.
  - destruct b; [reflexivity|discriminate].
  - destruct Hb as [|y b Hy Hb]; [discriminate|]. cbn [start_with] in H. rewrite (eq_ci_lower x y Hx Hy) in H.
    destruct (x =? y) eqn:E; [|discriminate]. apply N.eqb_eq in E. subst. f_equal. auto.
Qed.
Lemma attr_name_lower n : attr_name_ok n -> Forall (fun c => is_upper c = false) n.
Proof. intros [_ H]. eapply Forall_impl; [|exact H]. intros c ((_ & A & _) & _). exact A. Qed.

Definition has_name (ty : ttype) (name : str) (attrs : list (str * str)) : token := tag_token ty name attrs.

(** The first character opens an attribute, the others go on with its name. *)
Lemma attr_first ty name attrs la a o c l : name_char c -> c <> 61 -> tag_at BEFORE_ATTRIBUTE_NAME la (tag_token ty name attrs) a [] o l ->
  exists l', consume sink max_depth c false l = Ok l' /\ tag_at ATTRIBUTE_NAME la (tag_token ty name (attrs ++ [([], [])])) Live [c] o l'.
Proof.
  intros (A5 & A6 & A3 & A4 & A7 & _) A8 (Hst & Hb & Hp & Hl & Ho & Ht & Ha). destruct l as [st' re tok' la' ch bu te pe fo ma at_ ag out].
  cbn in Hst, Hb, Hp, Hl, Ho, Ht, Ha. subst. apply N.eqb_neq in A3, A4, A7, A8.
  eexists; split; [
    etransitivity; [apply twice; [unfold step, clear_again; cbn [l_state]; unfold on_BEFORE_ATTRIBUTE_NAME; rewrite A3, A4, A5, A8; cbn [orb]; unfold tag_token; acts; reflexivity|reflexivity]|];
    apply once; [unfold step, clear_again; cbn [l_state]; unfold on_ATTRIBUTE_NAME; rewrite A3, A4, A5, A6, A7, A8; cbn [orb]; destruct ((c =? 34) || (c =? 39) || (c =? 60)); acts; reflexivity|reflexivity]|].
  unfold tag_at. cbn. repeat split; reflexivity.
Qed.
Lemma attr_name_chars la tok a o s : Forall (fun c => name_char c /\ c <> 61) s -> forall b l, tag_at ATTRIBUTE_NAME la tok a b o l ->
  exists l', feed sink s l = Ok l' /\ tag_at ATTRIBUTE_NAME la tok a (b ++ s) o l'.
Proof.
  induction 1 as [|c s ((A5 & A6 & A3 & A4 & A7 & _) & A8) Hs IH]; intros b l Hl.
  - exists l. split; [reflexivity|]. now rewrite app_nil_r.
  - apply feed_cons_then with (P := tag_at ATTRIBUTE_NAME la tok a (b ++ [c]) o).
    + destruct Hl as (Hst & Hb & Hp & Hl & Ho & Ht & Ha). destruct l as [st' re tok' la' ch bu te pe fo ma at_ ag out].
      cbn in Hst, Hb, Hp, Hl, Ho, Ht, Ha. subst. apply N.eqb_neq in A3, A4, A7, A8.
      eexists; split; [apply once; [unfold step, clear_again; cbn [l_state]; unfold on_ATTRIBUTE_NAME; rewrite A3, A4, A5, A6, A7, A8; cbn [orb]; destruct ((c =? 34) || (c =? 39) || (c =? 60)); acts; reflexivity|reflexivity]|].
      unfold tag_at. cbn. repeat split; reflexivity.
    + intros l' Hl'. destruct (IH _ _ Hl') as (l'' & E & H). exists l''. split; [exact E|]. rewrite <- app_assoc in H. exact H.
Qed.

Lemma with_attr_last f ty name attrs x st re la ch b te pe fo ma ag o :
  with_attr f (mkLexer st re (Some (tag_token ty name (attrs ++ [x]))) la ch b te pe fo ma Live ag o) =
  Ok (mkLexer st re (Some (tag_token ty name (attrs ++ [f x]))) la ch b te pe fo ma Live ag o).
Proof. unfold with_attr, tag_token. cbn [l_attr l_token t_attrs]. rewrite rev_unit, rev_involutive. reflexivity. Qed.
Lemma leave_distinct ty name attrs x st re la ch b te pe fo ma ag o :
  existsb (fun a => match start_with eq_ci (fst x) (fst a) with YES => true | _ => false end) attrs = false ->
  leave_attribute_name (mkLexer st re (Some (tag_token ty name (attrs ++ [x]))) la ch b te pe fo ma Live ag o) =
  Ok (mkLexer st re (Some (tag_token ty name (attrs ++ [x]))) la ch b te pe fo ma Live ag o).
Proof.
  intros H. unfold leave_attribute_name. cbn [l_attr l_token t_attrs tag_token]. rewrite removelast_snoc, last_last.
  destruct attrs; [reflexivity|]. now rewrite H.
Qed.

Lemma attr_equals ty name attrs la o n l :
  attr_name_ok n -> Forall (fun a => attr_name_ok (fst a)) attrs -> ~ In n (map fst attrs) ->
  tag_at ATTRIBUTE_NAME la (tag_token ty name (attrs ++ [([], [])])) Live n o l ->
  exists l', consume sink max_depth 61 false l = Ok l' /\ tag_at BEFORE_ATTRIBUTE_VALUE la (tag_token ty name (attrs ++ [(n, [])])) Live [] o l'.
Proof.
  intros Hn Hattrs Hd (Hst & Hb & Hp & Hl & Ho & Ht & Ha). destruct l as [st' re tok' la' ch bu te pe fo ma at_ ag out].
  cbn in Hst, Hb, Hp, Hl, Ho, Ht, Ha. subst.
  assert (existsb (fun a => match start_with eq_ci n (fst a) with YES => true | _ => false end) attrs = false) as He.
  { apply Bool.not_true_iff_false. rewrite existsb_exists. intros (x & Hx & E). apply Hd.
    destruct (start_with eq_ci n (fst x)) eqn:Es; try discriminate.
    rewrite Forall_forall in Hattrs. apply start_with_lower in Es; [|apply attr_name_lower, Hn|apply attr_name_lower, Hattrs, Hx].
    subst. apply in_map, Hx. }
  eexists; split; [apply once; [unfold step, clear_again; cbn [l_state]; unfold on_ATTRIBUTE_NAME; cbn [is_space N.eqb Pos.eqb orb];
    unfold commit_attr_name, seq; cbn [l_state l_return l_token l_last l_char l_builder l_temp l_peek l_foreign l_matched l_attr l_again l_out];
    rewrite with_attr_last; cbn [snd bind];
    unfold b_clear, set_builder; cbn [bind l_state l_return l_token l_last l_char l_builder l_temp l_peek l_foreign l_matched l_attr l_again l_out];
    rewrite leave_distinct by exact He; acts; reflexivity|reflexivity]|].
  unfold tag_at; cbn [l_state l_builder l_peek l_last l_out l_token l_attr]; repeat split; reflexivity.
Qed.

Lemma attr_quote la tok a o l : tag_at BEFORE_ATTRIBUTE_VALUE la tok a [] o l ->
  exists l', consume sink max_depth 34 false l = Ok l' /\ tag_at ATTRIBUTE_VALUE_DOUBLE_QUOTED la tok a [] o l'.
Proof.
  intros (Hst & Hb & Hp & Hl & Ho & Ht & Ha). destruct l as [st' re tok' la' ch bu te pe fo ma at_ ag out].
  cbn in Hst, Hb, Hp, Hl, Ho, Ht, Ha. subst.
  eexists; split; [apply once; [unfold step, clear_again; cbn [l_state]; unfold on_BEFORE_ATTRIBUTE_VALUE; cbn [is_space N.eqb Pos.eqb orb]; acts; reflexivity|reflexivity]|].
  unfold tag_at; cbn; repeat split; reflexivity.
Qed.

Lemma attr_value la tok a o v : ~ In 0 v -> forall b l, tag_at ATTRIBUTE_VALUE_DOUBLE_QUOTED la tok a b o l ->
  exists l', feed sink (escape true v) l = Ok l' /\ tag_at ATTRIBUTE_VALUE_DOUBLE_QUOTED la tok a (b ++ v) o l'.
Proof.
  induction v as [|c v IH]; intros H0 b l Hl.
  - exists l. split; [reflexivity|]. now rewrite app_nil_r.
  - unfold escape. cbn [flat_map]. apply feed_then with (P := tag_at ATTRIBUTE_VALUE_DOUBLE_QUOTED la tok a (b ++ [c]) o).
    + destruct (escape_char_cases true c) as [(e & n & Hi & He & Hs & E)|(E & H1 & H2 & H3)]; rewrite E.
      * destruct Hl as (Hst & Hb & Hp & Hl & Ho & Ht & Ha).
        destruct (attr_reference sink e n l Hi He) as (te & Er); [left; exact Hst|].
        eexists. split; [exact Er|]. unfold tag_at. cbn [l_state l_builder l_peek l_last l_out l_token l_attr]. rewrite Hb, Hs. auto 10.
      * rewrite feed1. specialize (H3 eq_refl). assert (c <> 0) as H4 by (intros ->; apply H0; left; reflexivity).
        apply N.eqb_neq in H1, H3, H4. clear E.
        destruct Hl as (Hst & Hb & Hp & Hl & Ho & Ht & Ha). destruct l as [st' re tok' la' ch bu te pe fo ma at_ ag out].
        cbn in Hst, Hb, Hp, Hl, Ho, Ht, Ha. subst.
        eexists; split; [apply once; [unfold step, clear_again; cbn [l_state]; unfold on_ATTRIBUTE_VALUE_DOUBLE_QUOTED; rewrite H1, H3, H4; acts; reflexivity|reflexivity]|].
        unfold tag_at; cbn; repeat split; reflexivity.
    + intros l' Hl'. destruct (IH (fun h => H0 (or_intror h)) _ _ Hl') as (l'' & E & H). exists l''. split; [exact E|].
      rewrite <- app_assoc in H. exact H.
Qed.

Lemma attr_unquote ty name attrs n v la o l :
  tag_at ATTRIBUTE_VALUE_DOUBLE_QUOTED la (tag_token ty name (attrs ++ [(n, [])])) Live v o l ->
  exists l', consume sink max_depth 34 false l = Ok l' /\ tag_at AFTER_ATTRIBUTE_VALUE_QUOTED la (tag_token ty name (attrs ++ [(n, v)])) Live [] o l'.
Proof.
  intros (Hst & Hb & Hp & Hl & Ho & Ht & Ha). destruct l as [st' re tok' la' ch bu te pe fo ma at_ ag out].
  cbn in Hst, Hb, Hp, Hl, Ho, Ht, Ha. subst.
  eexists; split; [apply once; [unfold step, clear_again; cbn [l_state]; unfold on_ATTRIBUTE_VALUE_DOUBLE_QUOTED; cbn [N.eqb Pos.eqb];
    unfold commit_attr_value, seq; cbn [l_state l_return l_token l_last l_char l_builder l_temp l_peek l_foreign l_matched l_attr l_again l_out];
    rewrite with_attr_last; acts; reflexivity|reflexivity]|].
  unfold tag_at; cbn [l_state l_builder l_peek l_last l_out l_token l_attr]; repeat split; reflexivity.
Qed.

Definition attr_good (a : qname * str) : Prop := q_ns (fst a) = None /\ attr_name_ok (q_name (fst a)) /\ text_ok (snd a).

Lemma tag_attr ty name attrs la o x l :
  attr_good x -> Forall (fun a => attr_name_ok (fst a)) attrs -> ~ In (q_name (fst x)) (map fst attrs) ->
  tag_mid ty name attrs la o l ->
  exists l', feed sink (serialize_attr x) l = Ok l' /\ tag_mid ty name (attrs ++ [local_attr x]) la o l'.
Proof.
  intros (_ & Hn & [H0 _]) Hattrs Hd Hl. unfold serialize_attr. cbn [app].
  apply feed_cons_then with (P := fun l => exists a, tag_at BEFORE_ATTRIBUTE_NAME la (tag_token ty name attrs) a [] o l); [apply tag_space, Hl|].
  clear l Hl. intros l [a Hl]. destruct (q_name (fst x)) as [|c n] eqn:En; [destruct Hn as [Hn _]; contradiction Hn; reflexivity|].
  pose proof Hn as Hn'. destruct Hn' as [_ Hf]. inversion Hf as [|? ? [Hc H61] Hf']. subst.
  cbn [app]. eapply feed_cons_then; [eapply attr_first; eassumption|]. clear l Hl. intros l Hl.
  eapply feed_then; [apply attr_name_chars; eassumption|]. clear l Hl. intros l Hl. change ([c] ++ n) with (c :: n) in Hl.
  eapply feed_cons_then; [eapply attr_equals; eassumption|]. clear l Hl. intros l Hl.
  eapply feed_cons_then; [eapply attr_quote; eassumption|]. clear l Hl. intros l Hl.
  eapply feed_then; [eapply attr_value; eassumption|]. clear l Hl. intros l Hl. cbn [app] in Hl.
  rewrite feed1. destruct (attr_unquote _ _ _ _ _ _ _ _ Hl) as (l' & E & H). exists l'. split; [exact E|].
  right. exists Live. unfold local_attr. rewrite En. exact H.
Qed.

Lemma tag_attrs ty name la o xs : Forall attr_good xs -> forall attrs l,
  Forall (fun a => attr_name_ok (fst a)) attrs -> NoDup (map fst attrs ++ map (fun x => q_name (fst x)) xs) ->
  tag_mid ty name attrs la o l ->
  exists l', feed sink (flat_map serialize_attr xs) l = Ok l' /\ tag_mid ty name (attrs ++ map local_attr xs) la o l'.
Proof.
  induction 1 as [|x xs Hx Hxs IH]; intros attrs l Hattrs Hd Hl.
  - exists l. split; [reflexivity|]. now rewrite app_nil_r.
  - cbn [flat_map map] in *. eapply feed_then.
    + apply tag_attr; try eassumption. intros Hi. apply NoDup_remove_2 in Hd. apply Hd. apply in_or_app. left. exact Hi.
    + clear l Hl. intros l Hl. destruct (IH (attrs ++ [local_attr x]) l) as (l' & E & H).
      * apply Forall_app. split; [exact Hattrs|]. constructor; [|constructor]. apply Hx.
      * rewrite map_app, <- app_assoc. exact Hd.
      * exact Hl.
      * exists l'. split; [exact E|]. rewrite <- app_assoc in H. exact H.
Qed.

Lemma tag_name_start ty name la o l : tag_name_ok name -> (ty = T_START_TAG \/ ty = T_END_TAG) -> text_at DATA la o l ->
  exists l', feed sink ((if ttype_eqb ty T_START_TAG then [60] else [60; 47]) ++ name) l = Ok l' /\ tag_mid ty name [] la o l'.
Proof.
  intros Hn Hty Hl. destruct name as [|c name]; [contradiction|]. destruct Hn as [Hc Hn].
  assert (exists st, (ty = T_START_TAG /\ st = TAG_OPEN \/ ty = T_END_TAG /\ st = END_TAG_OPEN) /\
    exists l', feed sink (if ttype_eqb ty T_START_TAG then [60] else [60; 47]) l = Ok l' /\ text_at st la o l') as (st & Hst & Hf).
  { destruct Hty as [-> | ->]; cbn [ttype_eqb]; [exists TAG_OPEN|exists END_TAG_OPEN]; (split; [auto|]).
    - rewrite feed1. apply tag_lt, Hl.
    - eapply feed_cons_then; [apply tag_lt, Hl|]. intros l' Hl'. rewrite feed1. apply tag_slash, Hl'. }
  eapply feed_then; [exact Hf|]. clear l Hl Hf. intros l Hl.
  eapply feed_cons_then; [eapply tag_first; eassumption|]. clear l Hl. intros l [a Hl].
  destruct (tag_name_chars la (new_token ty) a o name Hn [c] l Hl) as (l' & E & H).
  exists l'. split; [exact E|]. left. split; [reflexivity|]. exists a. exact H.
Qed.

Lemma nodup_no_is attrs : NoDup (map (fun a => q_name (fst a)) attrs) -> Forall attr_good attrs ->
  Permutation attrs (attr_order attrs).
Proof.
  intros Hd Hg. unfold attr_order.
  induction attrs as [|x xs IH]; [reflexivity|]. inversion Hd as [|? ? Hx Hd']. inversion Hg as [|? ? Hgx Hg']. subst. clear Hd Hg.
  cbn [find filter]. destruct (qname_eqb (fst x) is_attr) eqn:E; cbn [negb].
  - cbn [app]. apply perm_skip.
    assert (forall ys : list (qname * str), ~ In (q_name (fst x)) (map (fun a => q_name (fst a)) ys) -> filter (fun a => negb (qname_eqb (fst a) is_attr)) ys = ys) as H.
    { clear - E. induction ys as [|y ys IH]; intros Hy; [reflexivity|]. cbn [filter].
      destruct (qname_eqb (fst y) is_attr) eqn:Ey; cbn [negb].
      - exfalso. apply Hy. left. unfold qname_eqb in E, Ey. apply andb_true_iff in E as [_ E], Ey as [_ Ey].
        apply str_eqb_spec in E, Ey. now rewrite E, Ey.
      - f_equal. apply IH. intros h. apply Hy. right. exact h. }
    rewrite H by exact Hx. reflexivity.
  - specialize (IH Hd' Hg'). destruct (find (fun a => qname_eqb (fst a) is_attr) xs) as [y|].
    + cbn [app] in *. etransitivity; [apply perm_skip, IH|]. apply perm_swap.
    + cbn [app] in *. apply perm_skip, IH.
Qed.

Lemma start_tag_run q attrs la o l : by_name sink -> name_ok q -> attrs_ok attrs -> text_at DATA la o l ->
  let tok := tag_token T_START_TAG (q_name q) (map local_attr (attr_order attrs)) in
  exists l', feed sink (start_tag q attrs) l = Ok l' /\
    text_at (match mode_of (q_name q) with Some m => mode_state m | None => DATA end) (Some tok) (tok :: o) l'.
Proof.
  intros Hb [Hn Hns] [Ha Hd] Hl tok. unfold start_tag.
  assert (tag_name q = q_name q) as Eq.
  { unfold tag_name. destruct Hns as [-> |[[-> | ->] _]]; reflexivity. }
  rewrite Eq, app_assoc. eapply feed_then; [apply (tag_name_start T_START_TAG); eauto|]. clear l Hl. intros l Hl.
  pose proof (nodup_no_is attrs Hd Ha) as Hp.
  eapply feed_then.
  - eapply tag_attrs; [eapply Permutation_Forall; [exact Hp|exact Ha]|constructor| |exact Hl].
    cbn [map app]. eapply Permutation_NoDup; [apply Permutation_map, Hp|exact Hd].
  - clear l Hl. intros l Hl. cbn [app] in Hl. rewrite feed1. destruct (tag_close _ _ _ _ _ _ Hl) as (l' & E & H).
    exists l'. split; [exact E|]. cbn [ttype_eqb] in H. unfold after_tag in H. cbn [t_type tag_token ttype_eqb] in H.
    rewrite (Hb (tag_token T_START_TAG (q_name q) (map local_attr (attr_order attrs))) o (q_name q) eq_refl eq_refl) in H. exact H.
Qed.

Lemma end_tag_run q la o l : name_ok q -> text_at DATA la o l ->
  exists l', feed sink (end_tag q) l = Ok l' /\ text_at DATA la (tag_token T_END_TAG (q_name q) [] :: o) l'.
Proof.
  intros [Hn Hns] Hl. unfold end_tag.
  assert (tag_name q = q_name q) as Eq.
  { unfold tag_name. destruct Hns as [-> |[[-> | ->] _]]; reflexivity. }
  rewrite Eq, app_assoc. eapply feed_then; [apply (tag_name_start T_END_TAG); eauto|]. clear l Hl. intros l Hl.
  rewrite feed1. destruct (tag_close _ _ _ _ _ _ Hl) as (l' & E & H). exists l'. split; [exact E|exact H].
Qed.

(** ** The end tag of raw text *)
Definition mode_st (st : state) : Prop := st = RCDATA \/ st = RAWTEXT \/ st = SCRIPT_DATA.
Definition raw_open (st : state) : state :=
  match st with RAWTEXT => RAWTEXT_END_TAG_OPEN | RCDATA => RCDATA_END_TAG_OPEN | _ => SCRIPT_DATA_END_TAG_OPEN end.
Definition raw_name (st : state) : state :=
  match st with RAWTEXT => RAWTEXT_END_TAG_NAME | RCDATA => RCDATA_END_TAG_NAME | _ => SCRIPT_DATA_END_TAG_NAME end.

Lemma raw_end_lt st la o l : mode_st st -> (st = RCDATA /\ text_at st la o l \/ raw_state st /\ raw_at st la o l) ->
  exists l', consume sink max_depth 60 false l = Ok l' /\ text_at (raw_lt st) la o l'.
Proof.
  intros Hm [[-> Hl]|[Hr Hl]].
  - destruct Hl as (Hs & Hb & Hp & Hl & Ho). destruct l as [st' re tok la' ch bu te pe fo ma at_ ag out].
    cbn in Hs, Hb, Hp, Hl, Ho. subst. eexists. split; [apply once; reflexivity|]. unfold text_at. cbn. auto.
  - destruct (raw_char st la o 60 l Hr) as (l' & E & H & _); [discriminate|right; split; discriminate|exact Hl|].
    exists l'. split; [exact E|]. apply H. reflexivity.
Qed.
Lemma raw_end_slash st la o l : mode_st st -> text_at (raw_lt st) la o l ->
  exists l', consume sink max_depth 47 false l = Ok l' /\ text_at (raw_open st) la o l'.
Proof.
  intros Hm (Hs & Hb & Hp & Hl & Ho). destruct l as [st' re tok la' ch bu te pe fo ma at_ ag out].
  cbn in Hs, Hb, Hp, Hl, Ho. subst. destruct Hm as [-> |[-> | ->]]; (eexists; split; [apply once; [unfold step, clear_again; cbn [l_state raw_lt];
    unfold on_RCDATA_LESS_THAN_SIGN, on_RAWTEXT_LESS_THAN_SIGN, on_SCRIPT_DATA_LESS_THAN_SIGN; cbn [N.eqb Pos.eqb]; acts; reflexivity|reflexivity]|]);
  unfold text_at; cbn; auto.
Qed.
Lemma raw_end_first st la o c l : mode_st st -> is_lower c = true -> text_at (raw_open st) la o l ->
  exists l', consume sink max_depth c false l = Ok l' /\ exists a, tag_at (raw_name st) la (new_token T_END_TAG) a [c] o l'.
Proof.
  intros Hm Hc (Hs & Hb & Hp & Hl & Ho). destruct l as [st' re tok la' ch bu te pe fo ma at_ ag out].
  cbn in Hs, Hb, Hp, Hl, Ho. subst. destruct (lower_facts c Hc) as (A1 & A2 & A3 & A4 & A5 & A6 & A7).
  destruct Hm as [-> |[-> | ->]], at_.
  all: eexists; split; [
    etransitivity; [apply twice; [unfold step, clear_again; cbn [l_state raw_open]; unfold on_RCDATA_END_TAG_OPEN, on_RAWTEXT_END_TAG_OPEN, on_SCRIPT_DATA_END_TAG_OPEN; rewrite ?A1; acts; reflexivity|reflexivity]|];
    apply once; [unfold step, clear_again; cbn [l_state]; unfold on_RCDATA_END_TAG_NAME, on_RAWTEXT_END_TAG_NAME, on_SCRIPT_DATA_END_TAG_NAME; rewrite A3, A4, A5, A6, Hc; cbn [andb]; acts; reflexivity|reflexivity]|].
  all: eexists; unfold tag_at; cbn; repeat split; reflexivity.
Qed.
Lemma raw_end_chars st la tok a o s : mode_st st -> Forall (fun c => is_lower c = true) s -> forall b l, tag_at (raw_name st) la tok a b o l ->
  exists l', feed sink s l = Ok l' /\ tag_at (raw_name st) la tok a (b ++ s) o l'.
Proof.
  intros Hm. induction 1 as [|c s Hc Hs IH]; intros b l Hl.
  - exists l. split; [reflexivity|]. now rewrite app_nil_r.
  - destruct (lower_facts c Hc) as (A1 & A2 & A3 & A4 & A5 & A6 & A7).
    apply feed_cons_then with (P := tag_at (raw_name st) la tok a (b ++ [c]) o).
    + destruct Hl as (Hst & Hb & Hp & Hl & Ho & Ht & Ha). destruct l as [st' re tok' la' ch bu te pe fo ma at_ ag out].
      cbn in Hst, Hb, Hp, Hl, Ho, Ht, Ha. subst. clear IH.
      destruct Hm as [-> |[-> | ->]]; (eexists; split; [apply once; [unfold step, clear_again; cbn [l_state raw_name]; unfold on_RCDATA_END_TAG_NAME, on_RAWTEXT_END_TAG_NAME, on_SCRIPT_DATA_END_TAG_NAME; rewrite A3, A4, A5, A6, Hc; cbn [andb]; acts; reflexivity|reflexivity]|]);
      unfold tag_at; cbn; repeat split; reflexivity.
    + intros l' Hl'. destruct (IH _ _ Hl') as (l'' & E & H). exists l''. split; [exact E|]. rewrite <- app_assoc in H. exact H.
Qed.
Lemma raw_end_close st la start a o n l : mode_st st -> la = Some start -> t_name start = Some n ->
  tag_at (raw_name st) la (new_token T_END_TAG) a n o l ->
  exists l', consume sink max_depth 62 false l = Ok l' /\ text_at DATA la (tag_token T_END_TAG n [] :: o) l'.
Proof.
  intros Hm Hla Hn (Hst & Hb & Hp & Hl & Ho & Ht & Ha). destruct l as [st' re tok' la' ch bu te pe fo ma at_ ag out].
  cbn in Hst, Hb, Hp, Hl, Ho, Ht, Ha. subst.
  destruct Hm as [-> |[-> | ->]]; (eexists; split; [apply once; [unfold step, clear_again; cbn [l_state raw_name]; unfold on_RCDATA_END_TAG_NAME, on_RAWTEXT_END_TAG_NAME, on_SCRIPT_DATA_END_TAG_NAME, appropriate;
    cbn [is_space N.eqb Pos.eqb orb andb l_last l_builder]; rewrite Hn, str_eqb_refl; acts; reflexivity|reflexivity]|]);
  unfold text_at; cbn; repeat split; reflexivity.
Qed.

Lemma raw_end_run st start o n l : mode_st st -> t_name start = Some n -> Forall (fun c => is_lower c = true) n -> n <> [] ->
  (st = RCDATA /\ text_at st (Some start) o l \/ raw_state st /\ raw_at st (Some start) o l) ->
  exists l', feed sink ([60; 47] ++ n ++ [62]) l = Ok l' /\ text_at DATA (Some start) (tag_token T_END_TAG n [] :: o) l'.
Proof.
  intros Hm Hn Hlow Hne Hl. destruct Hlow as [|c n Hc Hlow]; [contradiction Hne; reflexivity|].
  cbn [app]. eapply feed_cons_then; [apply raw_end_lt; eassumption|]. clear l Hl. intros l Hl.
  eapply feed_cons_then; [apply raw_end_slash; eassumption|]. clear l Hl. intros l Hl.
  eapply feed_cons_then; [apply raw_end_first; eassumption|]. clear l Hl. intros l [a Hl].
  eapply feed_then; [apply raw_end_chars; eassumption|]. clear l Hl. intros l Hl. cbn [app] in Hl. rewrite feed1.
  eapply raw_end_close; [exact Hm|reflexivity|exact Hn|exact Hl].
Qed.

Lemma in_names_spec xs n : in_names xs n = true -> In n (map of_string xs).
Proof.
  unfold in_names. rewrite existsb_exists. intros (x & Hi & E). apply str_eqb_spec in E. subst. apply in_map, Hi.
Qed.
Lemma mode_lower n m : mode_of n = Some m -> Forall (fun c => is_lower c = true) n /\ n <> [].
Proof.
  intros H. assert (In n (map of_string ["title"; "textarea"; "style"; "xmp"; "iframe"; "noembed"; "noframes"; "script"; "plaintext"]%string)) as Hi.
  { unfold mode_of in H.
    destruct (in_names ["title"; "textarea"]%string n) eqn:E1; [apply in_names_spec in E1; cbn [map In] in *; tauto|].
    destruct (in_names ["style"; "xmp"; "iframe"; "noembed"; "noframes"]%string n) eqn:E2; [apply in_names_spec in E2; cbn [map In] in *; tauto|].
    destruct (in_names ["script"]%string n) eqn:E3; [apply in_names_spec in E3; cbn [map In] in *; tauto|].
    destruct (in_names ["plaintext"]%string n) eqn:E4; [apply in_names_spec in E4; cbn [map In] in *; tauto|]. discriminate. }
  clear H. cbn [map In] in Hi.
  repeat match goal with H : _ \/ _ |- _ => destruct H as [<-|H] end; try contradiction; (split; [repeat constructor|discriminate]).
Qed.

(** ** Comments *)
Definition com_at (la : option token) (o : list token) (p : str) (l : lexer) : Prop :=
  exists st b, tag_at st la (new_token T_COMMENT) (l_attr l) b o l /\
    ((st = COMMENT_START /\ p = [] /\ b = []) \/
     ((st = COMMENT \/ st = COMMENT_LESS_THAN_SIGN \/ st = COMMENT_LESS_THAN_SIGN_BANG) /\ b = p) \/
     ((st = COMMENT_END_DASH \/ st = COMMENT_LESS_THAN_SIGN_BANG_DASH) /\ p = b ++ [45]) \/
     (st = COMMENT_START_DASH /\ p = [45] /\ b = [])).

Lemma com_start la o l : text_at TAG_OPEN la o l ->
  exists l', feed sink [33; 45; 45] l = Ok l' /\ com_at la o [] l'.
Proof.
  intros (Hs & Hb & Hp & Hl & Ho). destruct l as [st' re tok la' ch bu te pe fo ma at_ ag out].
  cbn in Hs, Hb, Hp, Hl, Ho. subst.
  destruct at_; (eexists; split; [vm_compute; reflexivity|]); exists COMMENT_START, []; (split; [unfold tag_at; cbn; repeat split; reflexivity|left; auto]).
Qed.

Lemma com_body la o p c l f : c <> 0 -> tag_at COMMENT la (new_token T_COMMENT) (l_attr l) p o l ->
  exists l', consume sink (S f) c false l = Ok l' /\ com_at la o (p ++ [c]) l'.
Proof.
  intros H0 (Hst & Hb & Hp & Hl & Ho & Ht & Ha). destruct l as [st' re tok' la' ch bu te pe fo ma at_ ag out].
  cbn in Hst, Hb, Hp, Hl, Ho, Ht, Ha. subst. clear Ha. apply N.eqb_neq in H0.
  destruct (c =? 60) eqn:E60; [|destruct (c =? 45) eqn:E45];
    (eexists; split; [apply once; [unfold step, clear_again; cbn [l_state]; unfold on_COMMENT; rewrite ?E60, ?E45, ?H0; acts; reflexivity|reflexivity]|]).
  - exists COMMENT_LESS_THAN_SIGN, (p ++ [c]). split; [unfold tag_at; cbn; repeat split; reflexivity|]. right. left. auto.
  - apply N.eqb_eq in E45. subst. exists COMMENT_END_DASH, p. split; [unfold tag_at; cbn; repeat split; reflexivity|]. right. right. left. auto.
  - exists COMMENT, (p ++ [c]). split; [unfold tag_at; cbn; repeat split; reflexivity|]. right. left. auto.
Qed.

Lemma com_char la o p c l : c <> 0 -> ~ (p = [] /\ c = 62) -> ~ (p = [45] /\ c = 62) -> ~ (c = 45 /\ exists p', p = p' ++ [45]) ->
  com_at la o p l -> exists l', consume sink max_depth c false l = Ok l' /\ com_at la o (p ++ [c]) l'.
Proof.
  intros H0 H1 H2 H3 (st & b & (Hst & Hb & Hp & Hl & Ho & Ht & Ha) & H). destruct l as [st' re tok' la' ch bu te pe fo ma at_ ag out].
  cbn in Hst, Hb, Hp, Hl, Ho, Ht, Ha. subst. clear Ha. unfold max_depth.
  destruct H as [(-> & -> & ->)|[[Hst ->]|[[Hst ->]|(-> & -> & ->)]]].
  - destruct (c =? 45) eqn:E45.
    + apply N.eqb_eq in E45. subst. eexists; split; [apply once; [unfold step, clear_again; cbn [l_state]; unfold on_COMMENT_START; cbn [N.eqb Pos.eqb]; acts; reflexivity|reflexivity]|].
      exists COMMENT_START_DASH, []. split; [unfold tag_at; cbn; repeat split; reflexivity|]. right. right. right. auto.
    + assert ((c =? 62) = false) as E62 by (apply N.eqb_neq; auto).
      erewrite twice; [apply com_body; [exact H0|]|unfold step, clear_again; cbn [l_state]; unfold on_COMMENT_START; rewrite E45, E62; acts; reflexivity|reflexivity].
      unfold tag_at; cbn; repeat split; reflexivity.
  - destruct Hst as [-> |[-> | ->]].
    + apply com_body; [exact H0|]. unfold tag_at; cbn; repeat split; reflexivity.
    + destruct (c =? 33) eqn:E33; [|destruct (c =? 60) eqn:E60].
      * eexists; split; [apply once; [unfold step, clear_again; cbn [l_state]; unfold on_COMMENT_LESS_THAN_SIGN; rewrite E33; acts; reflexivity|reflexivity]|].
        exists COMMENT_LESS_THAN_SIGN_BANG, (p ++ [c]). split; [unfold tag_at; cbn; repeat split; reflexivity|]. right. left. auto.
      * eexists; split; [apply once; [unfold step, clear_again; cbn [l_state]; unfold on_COMMENT_LESS_THAN_SIGN; rewrite E33, E60; acts; reflexivity|reflexivity]|].
        exists COMMENT_LESS_THAN_SIGN, (p ++ [c]). split; [unfold tag_at; cbn; repeat split; reflexivity|]. right. left. auto.
      * erewrite twice; [apply com_body; [exact H0|]|unfold step, clear_again; cbn [l_state]; unfold on_COMMENT_LESS_THAN_SIGN; rewrite E33, E60; acts; reflexivity|reflexivity].
        unfold tag_at; cbn; repeat split; reflexivity.
    + destruct (c =? 45) eqn:E45.
      * apply N.eqb_eq in E45. subst. eexists; split; [apply once; [unfold step, clear_again; cbn [l_state]; unfold on_COMMENT_LESS_THAN_SIGN_BANG; cbn [N.eqb Pos.eqb]; acts; reflexivity|reflexivity]|].
        exists COMMENT_LESS_THAN_SIGN_BANG_DASH, p. split; [unfold tag_at; cbn; repeat split; reflexivity|]. right. right. left. auto.
      * erewrite twice; [apply com_body; [exact H0|]|unfold step, clear_again; cbn [l_state]; unfold on_COMMENT_LESS_THAN_SIGN_BANG; rewrite E45; acts; reflexivity|reflexivity].
        unfold tag_at; cbn; repeat split; reflexivity.
  - assert ((c =? 45) = false) as E45 by (apply N.eqb_neq; intros ->; apply H3; split; [reflexivity|exists b; reflexivity]).
    destruct Hst as [-> | ->].
    + erewrite twice; [apply com_body; [exact H0|]|unfold step, clear_again; cbn [l_state]; unfold on_COMMENT_END_DASH; rewrite E45; acts; reflexivity|reflexivity].
      unfold tag_at; cbn; repeat split; reflexivity.
    + erewrite twice; [|unfold step, clear_again; cbn [l_state]; unfold on_COMMENT_LESS_THAN_SIGN_BANG_DASH; rewrite E45; acts; reflexivity|reflexivity].
      erewrite twice; [apply com_body; [exact H0|]|unfold step, clear_again; cbn [l_state]; unfold on_COMMENT_END_DASH; rewrite E45; acts; reflexivity|reflexivity].
      unfold tag_at; cbn; repeat split; reflexivity.
  - assert ((c =? 45) = false) as E45 by (apply N.eqb_neq; intros ->; apply H3; split; [reflexivity|exists []; reflexivity]).
    assert ((c =? 62) = false) as E62 by (apply N.eqb_neq; auto).
    erewrite twice; [apply com_body; [exact H0|]|unfold step, clear_again; cbn [l_state]; unfold on_COMMENT_START_DASH; rewrite E45, E62; acts; reflexivity|reflexivity].
    unfold tag_at; cbn; repeat split; reflexivity.
Qed.

Lemma com_chars la o s : forall p l,
  ~ In 0 s -> (forall r, p ++ s <> 62 :: r) -> (forall r, p ++ s <> 45 :: 62 :: r) -> (forall a b, p ++ s <> a ++ 45 :: 45 :: b) ->
  com_at la o p l -> exists l', feed sink s l = Ok l' /\ com_at la o (p ++ s) l'.
Proof.
  induction s as [|c s IH]; intros p l H0 H1 H2 H3 Hl.
  - exists l. split; [reflexivity|]. now rewrite app_nil_r.
  - eapply feed_cons_then.
    + apply com_char; [..|exact Hl].
      * intros ->. apply H0. left. reflexivity.
      * intros [-> ->]. apply (H1 s). reflexivity.
      * intros [-> ->]. apply (H2 s). reflexivity.
      * intros [-> (p' & ->)]. apply (H3 p' s). rewrite <- app_assoc. reflexivity.
    + clear l Hl. intros l Hl. destruct (IH (p ++ [c]) l) as (l' & E & H); rewrite <- ?app_assoc; try assumption.
      { intros h. apply H0. right. exact h. }
      exists l'. split; [exact E|]. rewrite <- app_assoc in H. exact H.
Qed.

Lemma com_end la o s l : (forall a, s <> a ++ [45]) -> com_at la o s l ->
  exists l', feed sink [45; 45; 62] l = Ok l' /\ text_at DATA la (comment_token s :: o) l'.
Proof.
  intros He (st & b & (Hst & Hb & Hp & Hl & Ho & Ht & Ha) & H). destruct l as [st' re tok' la' ch bu te pe fo ma at_ ag out].
  cbn in Hst, Hb, Hp, Hl, Ho, Ht, Ha. subst. clear Ha.
  destruct H as [(-> & -> & ->)|[[Hst ->]|[[Hst ->]|(-> & -> & ->)]]].
  - eexists. split; [vm_compute; reflexivity|]. unfold text_at. cbn. repeat split; reflexivity.
  - destruct Hst as [-> |[-> | ->]]; (eexists; split; [vm_compute; reflexivity|]); unfold text_at; cbn; repeat split; reflexivity.
  - exfalso. apply (He b). reflexivity.
  - exfalso. apply (He []). reflexivity.
Qed.

Lemma comment_run la o s l : comment_ok s -> text_at DATA la o l ->
  exists l', feed sink (of_string "<!--" ++ s ++ of_string "-->") l = Ok l' /\ text_at DATA la (comment_token s :: o) l'.
Proof.
  intros ([H0 _] & H1 & H2 & H3 & H4) Hl.
  change (of_string "<!--") with (60 :: [33; 45; 45]). change (of_string "-->") with [45; 45; 62].
  cbn [app]. eapply feed_cons_then; [apply tag_lt, Hl|]. clear l Hl. intros l Hl.
  change (33 :: 45 :: 45 :: s ++ [45; 45; 62]) with ([33; 45; 45] ++ s ++ [45; 45; 62]).
  eapply feed_then; [apply com_start, Hl|]. clear l Hl. intros l Hl.
  eapply feed_then; [apply (com_chars la o s []); assumption|]. clear l Hl. intros l Hl.
  apply com_end; [exact H4|exact Hl].
Qed.

(** ** Doctypes *)
Lemma doctype_run la o s l : doctype_ok s -> text_at DATA la o l ->
  exists l', feed sink (of_string "<!DOCTYPE " ++ s ++ of_string ">") l = Ok l' /\ text_at DATA la (doctype_token s :: o) l'.
Proof.
  intros [Hne Hs] Hl. destruct Hs as [|c s (A5 & A6 & A3 & A4 & A7 & _) Hs]; [contradiction Hne; reflexivity|]. clear Hne.
  change (of_string ">") with [62].
  eapply feed_then with (P := text_at BEFORE_DOCTYPE_NAME la o).
  { destruct Hl as (Hst & Hb & Hp & Hl & Ho). destruct l as [st' re tok la' ch bu te pe fo ma at_ ag out].
    cbn in Hst, Hb, Hp, Hl, Ho. subst. eexists. split; [vm_compute; reflexivity|]. unfold text_at. cbn. auto. }
  clear l Hl. intros l Hl. cbn [app].
  apply feed_cons_then with (P := fun l => exists a, tag_at DOCTYPE_NAME la (new_token T_DOCTYPE) a [c] o l).
  { destruct Hl as (Hst & Hb & Hp & Hl & Ho). destruct l as [st' re tok la' ch bu te pe fo ma at_ ag out].
    cbn in Hst, Hb, Hp, Hl, Ho. subst. apply N.eqb_neq in A3, A4, A7.
    destruct at_; (eexists; split; [apply once; [unfold step, clear_again; cbn [l_state]; unfold on_BEFORE_DOCTYPE_NAME; rewrite A4, A5, A6, A7; acts; reflexivity|reflexivity]|]);
    eexists; unfold tag_at; cbn; repeat split; reflexivity. }
  clear l Hl. intros l [a Hl].
  apply feed_then with (P := tag_at DOCTYPE_NAME la (new_token T_DOCTYPE) a (c :: s) o).
  { clear A3 A4 A5 A6 A7. change (c :: s) with ([c] ++ s). revert Hl. generalize [c]. revert l. induction Hs as [|x s (A5 & A6 & A3 & A4 & A7 & _) Hs IH]; intros l b Hl.
    - exists l. split; [reflexivity|]. now rewrite app_nil_r.
    - apply feed_cons_then with (P := tag_at DOCTYPE_NAME la (new_token T_DOCTYPE) a (b ++ [x]) o).
      + destruct Hl as (Hst & Hb & Hp & Hl & Ho & Ht & Ha). destruct l as [st' re tok' la' ch bu te pe fo ma at_ ag out].
        cbn in Hst, Hb, Hp, Hl, Ho, Ht, Ha. subst. apply N.eqb_neq in A3, A4, A7.
        eexists; split; [apply once; [unfold step, clear_again; cbn [l_state]; unfold on_DOCTYPE_NAME; rewrite A4, A5, A6, A7; acts; reflexivity|reflexivity]|].
        unfold tag_at. cbn. repeat split; reflexivity.
      + intros l' Hl'. destruct (IH _ _ Hl') as (l'' & E & H). exists l''. split; [exact E|]. rewrite <- app_assoc in H. exact H. }
  clear l Hl. intros l (Hst & Hb & Hp & Hl & Ho & Ht & Ha). destruct l as [st' re tok' la' ch bu te pe fo ma at_ ag out].
  cbn in Hst, Hb, Hp, Hl, Ho, Ht, Ha. subst. rewrite feed1.
  eexists; split; [apply once; [unfold step, clear_again; cbn [l_state]; unfold on_DOCTYPE_NAME; cbn [is_space N.eqb Pos.eqb orb]; acts; reflexivity|reflexivity]|].
  unfold text_at. cbn. repeat split; reflexivity.
Qed.

(** ** Trees *)
Lemma mode_names n m : mode_of n = Some m ->
  In (n, m) [(of_string "title", Rcdata); (of_string "textarea", Rcdata); (of_string "style", Rawtext); (of_string "xmp", Rawtext);
             (of_string "iframe", Rawtext); (of_string "noembed", Rawtext); (of_string "noframes", Rawtext);
             (of_string "script", ScriptData); (of_string "plaintext", Plaintext)].
Proof.
  unfold mode_of. intros H.
  destruct (in_names ["title"; "textarea"]%string n) eqn:E1; [apply in_names_spec in E1; injection H as <-; cbn [map In] in E1; destruct E1 as [<-|[<-|[]]]; cbn [In]; tauto|].
  destruct (in_names ["style"; "xmp"; "iframe"; "noembed"; "noframes"]%string n) eqn:E2;
    [apply in_names_spec in E2; injection H as <-; cbn [map In] in E2; destruct E2 as [<-|[<-|[<-|[<-|[<-|[]]]]]]; cbn [In]; tauto|].
  destruct (in_names ["script"]%string n) eqn:E3; [apply in_names_spec in E3; injection H as <-; cbn [map In] in E3; destruct E3 as [<-|[]]; cbn [In]; tauto|].
  destruct (in_names ["plaintext"]%string n) eqn:E4; [apply in_names_spec in E4; injection H as <-; cbn [map In] in E4; destruct E4 as [<-|[]]; cbn [In]; tauto|]. discriminate.
Qed.
Lemma mode_raw q m : q_ns q = Some html_ns -> mode_of (q_name q) = Some m -> is_raw q = match m with Rcdata => false | _ => true end.
Proof.
  destruct q as [ns n]. cbn [q_ns q_name]. intros -> H. apply mode_names in H. cbn [In] in H.
  repeat match goal with H : _ \/ _ |- _ => destruct H as [[= <- <-]|H] end; try contradiction; vm_compute; reflexivity.
Qed.

Lemma existsb_html l q : existsb (qname_eqb q) (map html_tag l) = html_named l q.
Proof.
  unfold html_named, in_names. induction l as [|x l IH]; [now rewrite andb_false_r|].
  cbn [map existsb]. rewrite IH. unfold qname_eqb, html_tag. cbn [q_ns q_name]. fold html_ns.
  destruct (opt_eqb str_eqb (q_ns q) (Some html_ns)); reflexivity.
Qed.
Lemma is_void_spec q : is_void q = void_element q.
Proof.
  unfold is_void, void_names, void_element. rewrite existsb_html. unfold html_named. f_equal.
  unfold in_names. cbn [existsb].
  repeat match goal with |- context [str_eqb (q_name q) ?x] => destruct (str_eqb (q_name q) x); [rewrite ?orb_true_r; reflexivity|] end.
  reflexivity.
Qed.
Lemma not_raw q : mode_of (q_name q) = None -> html_named ["noscript"]%string q = false -> is_raw q = false.
Proof.
  unfold is_raw, raw_names, mode_of. rewrite existsb_html. unfold html_named.
  destruct (opt_eqb str_eqb (q_ns q) _); [|reflexivity]. cbn [andb]. unfold in_names. cbn [existsb].
  repeat match goal with |- context [str_eqb (q_name q) ?x] => destruct (str_eqb (q_name q) x); [rewrite ?orb_true_r; cbn; try discriminate|]; cbn [orb] end.
  all: try reflexivity; try discriminate.
Qed.

Definition raw_parent (parent : option qname) : bool := match parent with Some q => is_raw q | None => false end.

Lemma node_run : by_name sink -> forall n, expressible n -> forall parent, raw_parent parent = false ->
  forall la o l, text_at DATA la o l ->
  exists ts, token_list n ts /\ exists l', feed sink (serialize_node parent n) l = Ok l' /\ exists la', text_at DATA la' (rev ts ++ o) l'.
Proof.
  intros Hb. induction n as [s|s|s|q attrs children IH] using node_induct; intros Hx parent Hp la o l Hl.
  - exists (map char_token s). split; [constructor|].
    assert (serialize_node parent (Text s) = escape false s) as ->.
    { cbn [serialize_node]. destruct parent as [q|]; [|reflexivity]. unfold raw_parent in Hp. now rewrite Hp. }
    destruct (text_escape DATA la s (or_introl eq_refl) (proj1 Hx) o l Hl) as (l' & E & H). exists l'. split; [exact E|]. exists la. exact H.
  - exists [comment_token s]. split; [constructor|].
    destruct (comment_run la o s l Hx Hl) as (l' & E & H). exists l'. split; [exact E|]. exists la. exact H.
  - exists [doctype_token s]. split; [constructor|].
    destruct (doctype_run la o s l Hx Hl) as (l' & E & H). exists l'. split; [exact E|]. exists la. exact H.
  - cbn [expressible] in Hx. destruct Hx as (Hq & Ha & Hc).
    destruct (start_tag_run q attrs la o l Hb Hq Ha Hl) as (l1 & E1 & H1).
    set (attrs' := map local_attr (attr_order attrs)) in *.
    assert (Permutation (map local_attr attrs) attrs') as Hperm.
    { apply Permutation_map, nodup_no_is; [apply Ha|apply Ha]. }
    set (tok := tag_token T_START_TAG (q_name q) attrs') in *.
    cbn [serialize_node]. rewrite is_void_spec. destruct (void_element q) eqn:Ev.
    + subst children. exists [tok]. split; [apply tl_void; assumption|].
      exists l1. rewrite app_nil_r. split; [exact E1|]. exists (Some tok).
      assert (mode_of (q_name q) = None) as Em.
      { destruct (mode_of (q_name q)) as [m|] eqn:Em; [|reflexivity]. exfalso.
        destruct Hq as [_ [Hns|[_ Hm]]]; [|congruence]. destruct q as [ns n]. cbn [q_ns q_name] in *. subst.
        apply mode_names in Em. cbn [In] in Em. clear - Em Ev.
        repeat match goal with H : _ \/ _ |- _ => destruct H as [[= <- <-]|H] end; try contradiction; vm_compute in Ev; discriminate. }
      rewrite Em in H1. exact H1.
    + rewrite feed_app, E1. cbn [bind].
      assert (exists ts, token_lists children ts /\
        exists l', feed sink (flat_map (serialize_node (Some q)) children ++ end_tag q) l1 = Ok l' /\
          exists la', text_at DATA la' (tag_token T_END_TAG (q_name q) [] :: rev ts ++ tok :: o) l') as (ts & Hts & l' & E & la' & H').
      { destruct (mode_of (q_name q)) as [m|] eqn:Em.
        - assert (q_ns q = Some html_ns) as Hns by (destruct Hq as [_ [Hns|[_ Hm]]]; [exact Hns|congruence]).
          pose proof (mode_raw q m Hns Em) as Hraw. destruct (mode_lower _ _ Em) as [Hlow Hne].
          assert (end_tag q = [60; 47] ++ q_name q ++ [62]) as Ee.
          { unfold end_tag, tag_name. rewrite Hns. reflexivity. }
          assert (exists s, (m = Rcdata -> text_ok s) /\ (m <> Rcdata -> raw_ok s) /\ m <> Plaintext /\
                   flat_map (serialize_node (Some q)) children = (if is_raw q then s else escape false s) /\ token_lists children (map char_token s)) as (s & Hs1 & Hs2 & Hs3 & Ef & Hts).
          { assert (m <> Plaintext) as Hm3 by (intros ->; contradiction).
            assert ((children = [] \/ exists s, children = [Text s] /\ (m = Rcdata -> text_ok s) /\ (m <> Rcdata -> raw_ok s))) as [-> |(s & -> & Hs1 & Hs2)].
            { destruct m; try contradiction; destruct children as [|[ | s | | ] [|]]; auto; try discriminate Hc; right; exists s; (split; [reflexivity|split; [intros; first [exact Hc|discriminate]|intros; first [exact Hc|congruence]]]). }
            - exists []. split; [intros _; split; intros []|]. split; [|split; [exact Hm3|split; [destruct (is_raw q); reflexivity|constructor]]].
              intros _. split; [split; intros []|]. split; intros [|] ? ; discriminate.
            - exists s. split; [exact Hs1|]. split; [exact Hs2|]. split; [exact Hm3|]. split.
              + cbn [flat_map serialize_node]. destruct (is_raw q); rewrite app_nil_r; reflexivity.
              + replace (map char_token s) with (map char_token s ++ []) by apply app_nil_r. constructor; constructor. }
          exists (map char_token s). split; [exact Hts|]. rewrite Ef, Ee.
          destruct m; try congruence; rewrite Hraw; cbn [mode_state] in H1.
          + destruct (text_escape RCDATA (Some tok) s (or_intror eq_refl) (proj1 (Hs1 eq_refl)) _ _ H1) as (l2 & E2 & H2).
            rewrite feed_app, E2. cbn [bind].
            destruct (raw_end_run RCDATA tok (rev (map char_token s) ++ tok :: o) (q_name q) l2) as (l3 & E3 & H3); auto; [left; reflexivity|].
            exists l3. split; [exact E3|]. exists (Some tok). exact H3.
          + destruct (raw_text RAWTEXT (Some tok) s (or_introl eq_refl) [] (tok :: o) l1) as (l2 & E2 & H2); [apply Hs2; discriminate|left; exact H1|left; exact H1|].
            rewrite feed_app, E2. cbn [bind].
            destruct (raw_end_run RAWTEXT tok (rev (map char_token s) ++ tok :: o) (q_name q) l2) as (l3 & E3 & H3); auto; [right; left; reflexivity|right; split; [left; reflexivity|exact H2]|].
            exists l3. split; [exact E3|]. exists (Some tok). exact H3.
          + destruct (raw_text SCRIPT_DATA (Some tok) s (or_intror eq_refl) [] (tok :: o) l1) as (l2 & E2 & H2); [apply Hs2; discriminate|left; exact H1|left; exact H1|].
            rewrite feed_app, E2. cbn [bind].
            destruct (raw_end_run SCRIPT_DATA tok (rev (map char_token s) ++ tok :: o) (q_name q) l2) as (l3 & E3 & H3); auto; [right; right; reflexivity|right; split; [right; reflexivity|exact H2]|].
            exists l3. split; [exact E3|]. exists (Some tok). exact H3.
        - destruct Hc as [Hns' Hall]. pose proof (not_raw q Em Hns') as Hraw.
          assert (exists ts, token_lists children ts /\ exists l2, feed sink (flat_map (serialize_node (Some q)) children) l1 = Ok l2 /\
                    exists la2, text_at DATA la2 (rev ts ++ tok :: o) l2) as (ts & Hts & l2 & E2 & la2 & H2).
          { clear E1. revert H1. generalize (Some tok) as la1. generalize (tok :: o) as o1. revert l1 Hall.
            induction IH as [|x xs IHx IHxs IH]; intros l1 Hall o1 la1 H1.
            - exists []. split; [constructor|]. exists l1. split; [reflexivity|]. exists la1. exact H1.
            - cbn [fold_right] in Hall. destruct Hall as [Hxx Hall].
              destruct (IHx Hxx (Some q) Hraw _ _ _ H1) as (ts & Hts & l2 & E2 & la2 & H2).
              destruct (IH l2 Hall _ _ H2) as (us & Hus & l3 & E3 & la3 & H3).
              exists (ts ++ us). split; [constructor; assumption|]. exists l3. cbn [flat_map]. rewrite feed_app, E2. cbn [bind].
              split; [exact E3|]. exists la3. rewrite rev_app_distr, <- app_assoc. exact H3. }
          exists ts. split; [exact Hts|]. rewrite feed_app, E2. cbn [bind].
          destruct (end_tag_run q _ _ _ Hq H2) as (l3 & E3 & H3). exists l3. split; [exact E3|]. exists la2. exact H3. }
      exists (tok :: ts ++ [tag_token T_END_TAG (q_name q) []]). split; [apply tl_element; assumption|].
      exists l'. split; [exact E|]. exists la'. cbn [rev]. rewrite rev_unit, <- !app_assoc. cbn [app] in *. exact H'.
Qed.

Lemma serialize_run : by_name sink -> forall ns, Forall expressible ns -> forall la o l, text_at DATA la o l ->
  exists ts, token_lists ns ts /\ exists l', feed sink (serialize ns) l = Ok l' /\ exists la', text_at DATA la' (rev ts ++ o) l'.
Proof.
  intros Hb. unfold serialize. induction 1 as [|x xs Hx Hxs IH]; intros la o l Hl.
  - exists []. split; [constructor|]. exists l. split; [reflexivity|]. exists la. exact Hl.
  - destruct (node_run Hb x Hx None eq_refl _ _ _ Hl) as (ts & Hts & l2 & E2 & la2 & H2).
    destruct (IH _ _ _ H2) as (us & Hus & l3 & E3 & la3 & H3).
    exists (ts ++ us). split; [constructor; assumption|]. exists l3. cbn [flat_map]. rewrite feed_app, E2. cbn [bind].
    split; [exact E3|]. exists la3. rewrite rev_app_distr, <- app_assoc. exact H3.
Qed.

Lemma finish_data la o l : text_at DATA la o l -> exists l', finish sink l = Ok l' /\ l_out l' = new_token T_END_OF_FILE :: o.
Proof.
  intros (Hs & Hb & Hp & Hl & Ho). destruct l as [st' re tok la' ch bu te pe fo ma at_ ag out].
  cbn in Hs, Hb, Hp, Hl, Ho. subst. destruct at_; eexists; (split; [vm_compute; reflexivity|]); reflexivity.
Qed.
End Sink.
