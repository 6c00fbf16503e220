(** C19, C20, C49: parsing CSS. *)
From Coq Require Import String List NArith Bool Lia Arith.
From Verif.Base Require Import Str.
From Verif.Css Require Import LexerModel LexerSpec LexerProofs LexerProps ParserModel ParserSpec ParserProofs ParserRoundTrip.
Import ListNotations.
Local Open Scope list_scope.

(** ** C19: parsing terminates *)

Lemma string_loop_type : forall n q s acc ty d r, string_loop n q s acc = (ty, d, r) -> ty <> CDO /\ ty <> CDC.
Proof.
  induction n as [|n IH]; intros q s acc ty d r H; cbn [string_loop] in H; [inv H; split; discriminate|].
  destruct s as [|c s']; [inv H; split; discriminate|].
  destruct (c =? q)%N; [inv H; split; discriminate|].
  destruct (RE_NEWLINE (c :: s')); [inv H; split; discriminate|].
  destruct (c =? 92)%N; [|exact (IH _ _ _ _ _ _ H)].
  destruct s' as [|c' s'']; [exact (IH _ _ _ _ _ _ H)|].
  destruct (RE_NEWLINE (c' :: s'')); [exact (IH _ _ _ _ _ _ H)|].
  destruct (consume_escape (c' :: s'')). exact (IH _ _ _ _ _ _ H).
Qed.

(** A token of type CDO or CDC is exactly the text [<!--] or [-->]. *)
Lemma next_cd rb s t r : next rb s = (t, r) ->
  (t_type t = CDO -> t_data t = of_string "<!--" ) /\ (t_type t = CDC -> t_data t = of_string "-->").
Proof.
  destruct s as [|c s']; [intros [= <- <-]; split; discriminate|].
  unfold next.
  assert (Hw : forall w r0, re_word w (c :: s') = Some r0 -> consumed (c :: s') r0 = w).
  { intros w. assert (H : forall s r0, re_word w s = Some r0 -> s = w ++ r0).
    { induction w as [|x w IH]; intros s r0; simpl; [intros [= ->]; reflexivity|].
      destruct s as [|y s]; [discriminate|]. destruct (y =? x)%N eqn:E; [|discriminate].
      apply N.eqb_eq in E. subst y. intros H. f_equal. now apply IH. }
    intros r0 H0. rewrite (H _ _ H0). apply consumed_app. }
  repeat match goal with
  | |- context [match ?x with _ => _ end] =>
      lazymatch x with
      | re_word (of_string ?w) _ =>
          let E := fresh "E" in destruct x eqn:E; [intros [= <- <-]; cbn [t_type t_data]; split; intros H; try discriminate; exact (Hw _ _ E)|]
      | next_ident _ _ => unfold next_ident
      | string_loop _ _ _ _ => destruct x as [[ty d] r0] eqn:Es; apply string_loop_type in Es
      | context [match _ with _ => _ end] => fail
      | _ => destruct x; try (intros [= <- <-]; split; discriminate)
      end
  end.
  intros [= <- <-]. cbn [t_type t_data]. split; intros H; destruct Es; contradiction.
Qed.

(** [w] occurs in [s]. *)
Definition occurs (w s : str) : Prop := exists a b, s = a ++ w ++ b.

Lemma lex_cd rb : forall n s l, lex rb n s = Some l ->
  Forall (fun x => cd (fst x) = true -> occurs (of_string "<!--") s \/ occurs (of_string "-->") s) l.
Proof.
  induction n as [|n IH]; intros s l H.
  - destruct s; [|discriminate]. inv H. constructor.
  - destruct s as [|c s']; [inv H; constructor|]. cbn [lex] in H.
    destruct (next rb (c :: s')) as [t r] eqn:E.
    destruct (lex rb n r) as [l'|] eqn:El; [|discriminate]. inv H.
    destruct (next_progress rb (c :: s') t r ltac:(discriminate) E) as (p & _ & Hs & Hd & _).
    destruct (next_cd _ _ _ _ E) as [H1 H2].
    constructor.
    + cbn [fst]. unfold cd. destruct (t_type t) eqn:Et; try discriminate; intros _; [left|right]; exists [], r;
        rewrite Hs; cbn [app]; f_equal; rewrite <- (Hd eq_refl); auto.
    + eapply Forall_impl; [|exact (IH _ _ El)]. intros [t' p'] Hx Hcd. specialize (Hx Hcd).
      rewrite Hs. destruct Hx as [(a & b & ->)|(a & b & ->)]; [left|right]; exists (p ++ a), b; now rewrite <- app_assoc.
Qed.

Lemma tokens_no_cd rb s ts : tokens rb s = Some ts ->
  ~ occurs (of_string "<!--") s -> ~ occurs (of_string "-->") s -> Forall (fun t => cd t = false) ts.
Proof.
  unfold tokens. destruct (lex rb (length s) s) as [l|] eqn:E; [|discriminate]. simpl. intros [= <-] H1 H2.
  apply Forall_map. eapply Forall_impl; [|exact (lex_cd _ _ _ _ E)]. intros [t p] Hx. cbn [fst] in *.
  destruct (cd t); [|reflexivity]. destruct (Hx eq_refl); contradiction.
Qed.

Lemma tokens_total rb s : exists ts, tokens rb s = Some ts.
Proof.
  unfold tokens. destruct (lex_total rb s (length s) (le_n _)) as (l & -> & _). simpl. eauto.
Qed.

(** Parsing a style sheet terminates with a tree for every text in which neither [<!--] nor
    [-->] occurs: the steps are bounded by twice the number of tokens plus three. Missing:
    texts with those (refuted below). *)
Theorem C19_style_sheet_terminates_partial : forall rb s,
  ~ occurs (of_string "<!--") s -> ~ occurs (of_string "-->") s ->
  exists l, parse_stylesheet rb s = Some l.
Proof.
  intros rb s H1 H2. unfold parse_stylesheet. destruct (tokens_total rb s) as [ts E]. rewrite E.
  apply rule_list_total; [unfold enough; lia|]. right. eapply tokens_no_cd; eauto.
Qed.
Print Assumptions C19_style_sheet_terminates_partial.

(** Parsing a style attribute terminates for every text. *)
Theorem C19_style_attribute_terminates : forall rb s, exists l, parse_style_attribute rb s = Some l.
Proof.
  intros rb s. unfold parse_style_attribute. destruct (tokens_total rb s) as [ts E]. rewrite E.
  destruct (decl_list_total (enough ts) ts) as (l & r & -> & _); [unfold enough; lia|]. simpl. eauto.
Qed.
Print Assumptions C19_style_attribute_terminates.

Example C19_example : exists l, parse_stylesheet true (of_string "p { color } } @x [ (") = Some l /\ length l = 1%nat.
Proof. eexists. split; [vm_compute; reflexivity|reflexivity]. Qed.

(** The classic [<!-- ... -->] around a style sheet makes the parser loop for ever: no number of
    steps is enough. *)
Theorem C19_html_comment_markers_refuted : forall rb n,
  exists ts, tokens rb (of_string "<!-- p { color: red } -->") = Some ts /\ rule_list true n ts = None.
Proof.
  intros rb n. destruct (tokens_total rb (of_string "<!-- p { color: red } -->")) as [ts E].
  exists ts. split; [exact E|].
  assert (exists t ts', ts = t :: ts' /\ t_type t = CDO) as (t & ts' & -> & Ht).
  { destruct rb; vm_compute in E; injection E as <-; do 2 eexists; split; reflexivity. }
  clear E. induction n as [|n IH]; [reflexivity|]. cbn [rule_list]. rewrite Ht. exact IH.
Qed.
Print Assumptions C19_html_comment_markers_refuted.

(** ** C20: declarations and rules are separated as written *)

(** One declaration, rule or at-rule in a declaration list, followed by anything at all (for
    a declaration: by a semicolon, a closing brace or the end): it is read as itself, and
    what follows is read as if it stood alone. *)
Theorem C20_item_then_rest_partial : forall i rest l r,
  item_ok i = true -> (is_decl i = true -> ended_value rest = true) ->
  decl_list (enough rest) rest = Some (l, r) ->
  decl_list (enough (render_item i ++ rest)) (render_item i ++ rest) = Some (tree_item i ++ l, r).
Proof.
  intros i rest l r Hi Hd H. apply dl_enough. apply item_parses; auto. now exists (enough rest).
Qed.
Print Assumptions C20_item_then_rest_partial.

(** A whole style sheet comes back as written: any list of rules and at-rules (nested to any
    depth), white space and comments between them, followed by anything. *)
Theorem C20_style_sheet_then_rest_partial : forall items rest l,
  forallb top_ok items = true ->
  Forall (fun t => cd t = false) (flat_map render_item items ++ rest) ->
  rule_list true (enough rest) rest = Some l ->
  let ts := flat_map render_item items ++ rest in
  rule_list true (enough ts) ts = Some (flat_map tree_item items ++ l).
Proof.
  intros items rest l Hi Hcd H ts. apply rl_enough; [exact Hcd|]. apply top_parses; [exact Hi|].
  now exists (enough rest).
Qed.
Print Assumptions C20_style_sheet_then_rest_partial.

(** The same from the text: every text made of tokens that are separated in the sense of
    C47 and spell a style sheet parses to the tree of that style sheet. *)
Theorem C20_text_round_trip_partial : forall rb items l,
  Forall valid l -> separated l -> map token_of l = flat_map render_item items ->
  forallb top_ok items = true -> parse_stylesheet rb (source l) = Some (flat_map tree_item items).
Proof.
  intros rb items l Hv Hs Hl Hi. unfold parse_stylesheet.
  rewrite (C47_tokens_as_written_partial rb l Hv Hs).
  assert (Hcd : Forall (fun t => cd t = false) (map token_of l)).
  { apply Forall_map. eapply Forall_impl; [|exact Hv]. intros w Hw. destruct w; try reflexivity.
    unfold cd. simpl. destruct t; try reflexivity; exfalso; apply Hw; reflexivity. }
  rewrite Hl in *. rewrite <- (app_nil_r (flat_map render_item items)) in *.
  rewrite <- (app_nil_r (flat_map tree_item items)).
  apply rl_enough; [exact Hcd|]. apply top_parses; [exact Hi|]. exists 1%nat. reflexivity.
Qed.
Print Assumptions C20_text_round_trip_partial.

Definition tk (ty : ttype) (s : string) : token := mkT ty (of_string s).
(** [@media print { p > a { color: rgb(1,{;}) !important; margin : 0 } }] *)
Definition ex_sheet : list item :=
  [ IGap (tk WHITESPACE " ");
    IAt (tk AT_KEYWORD "@media") [CTok (tk WHITESPACE " "); CTok (tk IDENT "print")]
      (Some [ IRule [CTok (tk IDENT "p"); CTok (tk DELIM ">"); CTok (tk IDENT "a")]
                [ IDecl (tk IDENT "color") [] [CTok (tk WHITESPACE " "); CFunc (tk FUNCTION "rgb(")
                     [CTok (tk NUMBER "1"); CTok (tk COMMA ","); CBlock Curly [CTok (tk SEMICOLON ";")]];
                     CTok (tk WHITESPACE " ")]
                    (Some (mkImp [] (tk IDENT "IMPORTANT") [])); IGap (tk SEMICOLON ";");
                  IDecl (tk IDENT "margin") [tk WHITESPACE " "] [CTok (tk NUMBER "0")] None ] ]) ].
Example C20_example : forallb top_ok ex_sheet = true.
Proof. vm_compute. reflexivity. Qed.
Example C20_item_example :
  item_ok (IDecl (tk IDENT "color") [] [CTok (tk IDENT "red")] None) = true /\
  ended_value [tk SEMICOLON ";"; tk LEFT_CURLY_BRACKET "{"] = true.
Proof. split; vm_compute; reflexivity. Qed.

(** Error recovery. The text [before] is a malformed declaration without brackets, ended by
    its semicolon; nevertheless the declaration after it is lost. *)
Definition has_decl (name : string) (l : list sst) : Prop :=
  exists t c i, In (DECL t c i) l /\ t_data t = of_string name.

Theorem C20_error_recovery_refuted :
  (* a missing colon *)
  (exists l, parse_style_attribute true (of_string "color red; margin: 0") = Some l /\ l = []) /\
  (* a lone [!] *)
  (exists l, parse_style_attribute true (of_string "color: red !; margin: 0") = Some l /\ ~ has_decl "margin" l) /\
  (* in a rule, the missing colon takes the next rule too *)
  (exists p q c, parse_stylesheet true (of_string "p { color } b { margin: 0 }") =
                 Some [RULE None p [RULE None q c]]).
Proof.
  split; [|split].
  - eexists. split; vm_compute; reflexivity.
  - eexists. split; [vm_compute; reflexivity|]. intros (t & c & i & Hin & Hd).
    destruct Hin as [H|[]]. injection H as <- _ _. discriminate.
  - do 3 eexists. vm_compute. reflexivity.
Qed.
Print Assumptions C20_error_recovery_refuted.

(** ** C49: comments *)

(** Comments between rules and between declarations are ignored. *)
Theorem C49_comments_between_items_partial : forall t rest,
  t_type t = COMMENT ->
  decl_list (enough (t :: rest)) (t :: rest) = decl_list (enough rest) rest /\
  (Forall (fun t => cd t = false) rest ->
   rule_list true (enough (t :: rest)) (t :: rest) = rule_list true (enough rest) rest).
Proof.
  intros t rest Ht. split.
  - destruct (decl_list_total (enough rest) rest) as (l & r & H & _); [unfold enough; lia|].
    rewrite H. change (t :: rest) with (render_item (IGap t) ++ rest).
    change (l, r) with (tree_item (IGap t) ++ l, r).
    apply C20_item_then_rest_partial; [|discriminate|exact H]. cbn [item_ok]. now rewrite Ht.
  - intros Hcd. destruct (rule_list_total true (enough rest) rest) as (l & H); [unfold enough; lia|auto|].
    rewrite H. change (t :: rest) with (flat_map render_item [IGap t] ++ rest).
    change l with (flat_map tree_item [IGap t] ++ l).
    apply C20_style_sheet_then_rest_partial; [|constructor; [|exact Hcd]|exact H].
    + cbn [forallb]. unfold top_ok. cbn [item_ok]. now rewrite Ht.
    + unfold cd. now rewrite Ht.
Qed.
Print Assumptions C49_comments_between_items_partial.

Example C49_example : t_type (tk COMMENT "/* x */") = COMMENT.
Proof. reflexivity. Qed.

(** Inside a selector or a value, a comment becomes a token of its own: the tree is not that
    of the text without it. *)
Theorem C49_comments_ignored_refuted :
  exists a b, parse_style_attribute true (of_string "color: red/* x */") = Some [a] /\
              parse_style_attribute true (of_string "color: red") = Some [b] /\ a <> b /\
  exists c d, parse_stylesheet true (of_string "p/* x */{}") = Some [c] /\
              parse_stylesheet true (of_string "p{}") = Some [d] /\ c <> d.
Proof.
  do 2 eexists. split; [vm_compute; reflexivity|]. split; [vm_compute; reflexivity|]. split; [discriminate|].
  do 2 eexists. split; [vm_compute; reflexivity|]. split; [vm_compute; reflexivity|]. discriminate.
Qed.
Print Assumptions C49_comments_ignored_refuted.
