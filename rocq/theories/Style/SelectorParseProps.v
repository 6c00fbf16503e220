(** C06 reading selectors, C53 reading An+B, C54 reading a selector ends and does not crash. *)
From Coq Require Import String List NArith ZArith Bool Arith Lia.
From Verif.Base Require Import Str Outcome.
From Verif.Css Require Import LexerModel ParserModel.
From Verif.Values Require Import Number LengthModel CalcModel.
From Verif.Style Require Import AnBModel CascadeModel SelectorModel SelectorSpec SelectorProofs SelectorProps.
From Verif.Style Require Import SelectorParseModel SelectorParseSpec AnBParseProofs SelectorTree SelectorParseProofs SelectorParseTotal.
Import ListNotations.
Local Open Scope nat_scope.
Local Open Scope list_scope.

(** A selector text as the style sheet parser hands it over. *)
Definition values_of (s : string) : option (list sst) :=
  match tokens true (of_string s) with
  | Some ts => option_map fst (selector_loop (S (List.length ts)) ts)
  | None => None
  end.
Definition read_with (ns : namespaces) (s : string) : res selector :=
  match values_of s with Some c => parse ns (8 * size c + 6) c | None => OutOfFuel end.
Definition read_text : string -> res selector := read_with no_namespaces.

(** ** C06 *)

Lemma meaning_list ns l t e pe : is_elem t e ->
  (sem t (meaning ns l) e pe <-> exists x, In x (slist_cplx l) /\ matches_complex t (m_cplx ns left_assoc x) e pe).
Proof.
  intros He. unfold meaning. destruct l as [lead x r trail]. rewrite m_slist_eq. cbn [slist_cplx].
  assert (Q : forall r, any_of (fun i => sem t i e pe) (m_lrest ns left_assoc r) <-> exists x, In x (lrest_cplx r) /\ matches_complex t (m_cplx ns left_assoc x) e pe).
  { clear r. induction r as [|l y r IH]; cbn [lrest_cplx].
    - split; [intros []|intros (x0 & [] & _)].
    - rewrite m_lrest_cons. cbn [any_of]. rewrite IH, left_assoc_sem by exact He. split.
      + intros [H|(z & I & H)]; [exists y; split; [now left|exact H]|exists z; split; [now right|exact H]].
      + intros (z & [<-|I] & H); [now left|right; now exists z]. }
  assert (E : sem t (disj (left_assoc (m_cplx ns left_assoc x) :: m_lrest ns left_assoc r)) e pe <->
              sem t (left_assoc (m_cplx ns left_assoc x)) e pe \/ any_of (fun i => sem t i e pe) (m_lrest ns left_assoc r)).
  { unfold disj. destruct (m_lrest ns left_assoc r) as [|y k] eqn:Em; [cbn [any_of]; tauto|]. reflexivity. }
  rewrite E, left_assoc_sem, Q by exact He. split.
  - intros [H|(z & I & H)]; [exists x; split; [now left|exact H]|exists z; split; [now right|exact H]].
  - intros (z & [<-|I] & H); [now left|right; now exists z].
Qed.

(** Full statement: for every selector list [l], reading its text gives a selector that matches
    an element iff one of the complex selectors of [l] does, with its combinators taken from
    left to right. Proved for the lists of [slist_ok]: any number of complex selectors, compounds
    and simple selectors, nested to any depth in [:not()] and [:nth-child(... of ...)], any
    spacing of [layout], and any combinators but a descendant followed by a child combinator,
    or a next- followed by a later-sibling one, around a lone simple selector. *)
Theorem C06_parse_partial : forall ns l, slist_ok ns l ->
  exists N s, (forall n, N <= n -> parse ns n (show_slist l) = Ok (Some s)) /\
    forall t e pe, is_elem t e ->
      (sem t s e pe <-> exists x, In x (slist_cplx l) /\ matches_complex t (m_cplx ns left_assoc x) e pe).
Proof.
  intros ns l O. destruct (parse_meaning ns l O) as (N & P & E). exists N, (m_slist ns tree l). split; [exact P|].
  intros t e pe He. rewrite (E t e pe). now apply meaning_list.
Qed.
Print Assumptions C06_parse_partial.

(** From text to matching: the matcher run on what was read. *)
Theorem C06_match_partial : forall ns l t, slist_ok ns l ->
  supported (meaning ns l) = true -> (no_adjacent (meaning ns l) = true \/ no_gaps t) -> attrs_unique t ->
  exists N s, (forall n, N <= n -> parse ns n (show_slist l) = Ok (Some s)) /\
    forall e pe, is_elem t e -> exists r, match_selector t s e pe = Some r /\
      (r <> None <-> exists x, In x (slist_cplx l) /\ matches_complex t (m_cplx ns left_assoc x) e pe).
Proof.
  intros ns l t O Su Ga At. destruct (parse_meaning ns l O) as (N & P & E). exists N, (m_slist ns tree l). split; [exact P|].
  rewrite <- supported_same in Su. rewrite <- no_adjacent_same in Ga.
  intros e pe He. destruct (match_selector_some t _ e pe Su At Ga He) as (r & H1 & H2). exists r. split; [exact H1|].
  rewrite H2, <- meaning_list, <- (E t e pe) by exact He. destruct (msel_sem t At _ Su Ga e pe He) as (b & Hb & Hbp). rewrite Hb, <- Hbp.
  split; [congruence|intros ->; reflexivity].
Qed.
Print Assumptions C06_match_partial.

(** The grouping never changes the specificity. *)
Theorem C06_specificity : forall ns l, slist_ok ns l ->
  exists N s, (forall n, N <= n -> parse ns n (show_slist l) = Ok (Some s)) /\ css_spec s = css_spec (meaning ns l).
Proof.
  intros ns l O. destruct (parse_meaning ns l O) as (N & P & E). exists N, (m_slist ns tree l). split; [exact P|]. apply css_spec_same.
Qed.
Print Assumptions C06_specificity.

(** [ #a > p.x:not(b, c d) + i ~ b , *|q [..]] *)
Definition one (s : simple) : compound := KOne s.
Definition st (s : string) : simple := SType QOmitted (Some (of_string s)).
Definition sp : str := of_string " ".
Definition ex_list : slist :=
  Sl [sp] (Cx (one (SId (of_string "a")))
    (RCons (Child (Both sp sp)) (KCons (st "p") (KCons (SClass (of_string "x")) (one (SNot (Sl [] (Cx (one (st "b")) RNil) (LCons (After sp) (Cx (one (st "c")) (RCons (Desc sp) (one (st "d")) RNil)) LNil) None)))))
    (RCons (Next Tight) (one (st "i")) RNil)))
    (LCons (Both sp sp) (Cx (one (SType QAny (Some (of_string "q"))))
        (RCons (Desc sp) (KCons (SNthOf (of_string "nth-child") [] (Lin (ADim SgNone [2%Z]) (BSigned [] false [1%Z])) [sp] (Sl [sp] (Cx (one (st "u")) RNil) LNil (Some sp))) (one (SAttr (mkAt [] QOmitted (of_string "k") [] (Some (mkTest [] CONTAINS [] true (of_string "v") [sp] (Some true) [])))))) RNil)) LNil)
    (Some sp).
Example C06_ex : slist_ok no_namespaces ex_list /\
  values_of " #a > p.x:not(b, c d)+i , *|q :nth-child(2n+1 of u )[k~=""v"" i] " <> None /\
  (exists s, parse no_namespaces 200 (show_slist ex_list) = Ok (Some s)) /\
  supported (meaning no_namespaces ex_list) = true.
Proof.
  split; [|split; [discriminate|split; [eexists; vm_compute; reflexivity|reflexivity]]].
  cbn. repeat split; auto; try discriminate; try (repeat constructor; discriminate); try (now left).
Qed.
(** The parser is given what the lexer makes of the text. *)
Example C06_text_ex : match values_of "ul > li.x:first-child + li , a:not(b, c d)" with
  | Some c => exists s, parse no_namespaces (8 * size c + 6) c = Ok (Some s) /\
      s = Nfix OR [Infix ADJACENT (Infix CHILD (ty "ul") (Nfix AND [ty "li"; ClassSel (of_string "x"); PseudoClass FIRST_CHILD])) (ty "li");
                   Nfix AND [ty "a"; Nfix NOT [Nfix OR [ty "b"; Infix DESCENDANT (ty "c") (ty "d")]]]]
  | None => False end.
Proof. vm_compute. eexists. split; reflexivity. Qed.

(** [div div > p] selects a paragraph with a single [div] around it: it is read as
    "a [div > p] that has a [div] ancestor". *)
Theorem C06_grouping_refuted : exists l s t e,
  (forall n, 20 <= n -> parse no_namespaces n (show_slist l) = Ok (Some s)) /\ values_of "div div > p" = Some (show_slist l) /\
  is_elem t e /\ match_selector t s e None <> Some None /\
  ~ exists x, In x (slist_cplx l) /\ matches_complex t (m_cplx no_namespaces left_assoc x) e None.
Proof.
  set (l := Sl [] (Cx (one (st "div")) (RCons (Desc sp) (one (st "div")) (RCons (Child (Both sp sp)) (one (st "p")) RNil))) LNil None).
  exists l, (Infix DESCENDANT (ty "div") (Infix CHILD (ty "div") (ty "p"))), (el "div" [el "p" []]), [0].
  split.
  { assert (F : forall k, parse no_namespaces (k + 20) (show_slist l) = Ok (Some (Infix DESCENDANT (ty "div") (Infix CHILD (ty "div") (ty "p"))))).
    { intros k. rewrite Nat.add_comm. reflexivity. }
    intros n L. replace n with ((n - 20) + 20) by lia. apply F. }
  split; [vm_compute; reflexivity|]. split; [eexists; reflexivity|]. split; [vm_compute; discriminate|].
  intros (x & [<-|[]] & M). apply left_assoc_sem in M; [|eexists; reflexivity].
  assert (M' : sem (el "div" [el "p" []]) (Infix CHILD (Infix DESCENDANT (ty "div") (ty "div")) (ty "p")) [0] None) by exact M.
  cbn [sem] in M'. destruct M' as (_ & q & (_ & i & Hq) & _ & q' & (_ & r & Nr & Hq') & _). injection Hq as <- <-. destruct r; [congruence|discriminate].
Qed.
Print Assumptions C06_grouping_refuted.

(** Selectors that are read as others, or rejected: *)
Theorem C06_misread_refuted :
  (* the second compound disappears *)
  read_text "a >b c" = read_text "a > c" /\ read_text "a ,b c" = read_text "a, c" /\
  (* an attribute selector after a space disappears, and the rest is one compound *)
  read_text "a [x] b" = Ok (Some (Nfix AND [ty "a"; ty "b"])) /\
  (* later-sibling binds tighter than next-sibling *)
  read_text "a + b ~ c" = Ok (Some (Infix ADJACENT (ty "a") (Infix SUBSEQUENT (ty "b") (ty "c")))) /\
  (* rejected *)
  read_text "[lang|=en]" = Ok None /\ read_text "a/**/b" = Ok None /\
  (* no namespace: nothing is matched *)
  read_text "|a" = Ok (Some (Nfix AND [EmptySel; ty "a"])) /\
  (* a pseudo-class that does not exist is kept and never matches, instead of invalidating the list *)
  read_text "a, b:bogus" = Ok (Some (Nfix OR [ty "a"; Nfix AND [ty "b"; PseudoClass PC_OTHER]])).
Proof. repeat split; vm_compute; reflexivity. Qed.
Print Assumptions C06_misread_refuted.

(** Without an @namespace rule, a type selector only selects HTML elements. *)
Theorem C06_default_namespace_refuted : forall t e d pe,
  elem_at t e = Some d -> q_ns (d_name d) = Some (of_string "http://www.w3.org/2000/svg") ->
  forall s, read_text "*" = Ok (Some s) -> match_selector t s e pe = Some None.
Proof.
  intros t e d pe He Hn s Hs. assert (E : s = TypeSel (mkQS (NsExact html_ns) NameUniversal)) by (vm_compute in Hs; now injection Hs).
  subst s. unfold match_selector. cbn [msel]. rewrite He. destruct (d_name d) as [q nm] eqn:Eq. cbn in Hn. subst q. vm_compute. reflexivity.
Qed.
Print Assumptions C06_default_namespace_refuted.

(** ** C53 *)

(** Full statement: every An+B of CSS Syntax is read as its value. Proved for lower case, any
    digits, signs and spacing, at the end of what is read or with a constant. *)
Theorem C53_anb_partial : forall w a tail, anb_ok a -> (bare_n a = true -> eat_wss tail = []) ->
  exists r, eat_wss r = eat_wss tail /\ parse_anb (sps w ++ show_anb a ++ tail) = Ok (Some (anb_value a, r)).
Proof. intros w a tail A B. destruct (anb_read w a tail A B) as (r & R & E). exists r. split; assumption. Qed.
Print Assumptions C53_anb_partial.

Definition ex_anb : anb_text := Lin (ADim SgMinus [3%Z]) (BDelim [sp] true [sp; sp] [1%Z; 2%Z]).
Example C53_ex : anb_ok ex_anb /\ bare_n ex_anb = false /\ anb_value ex_anb = mkAnB (-3) (-12) /\
  (exists r, parse_anb (show_anb ex_anb ++ [comma]) = Ok (Some (mkAnB (-3) (-12), r))) /\
  values_of "-3n -  12" <> None.
Proof. repeat split; try (repeat constructor; discriminate); try (now vm_compute); try (repeat constructor; cbv; intros; discriminate). now eexists. Qed.

(** The notation is case-insensitive in CSS; "2n of S" is not read. *)
Theorem C53_case_refuted :
  read_text ":nth-child(2N+1)" = Ok None /\ read_text ":nth-child(ODD)" = Ok None /\
  read_text ":nth-child(2n of .x)" = Ok None /\ (exists s, read_text ":nth-child(2n+0 of .x)" = Ok (Some s)).
Proof. repeat split; try (vm_compute; reflexivity). eexists. vm_compute. reflexivity. Qed.
Print Assumptions C53_case_refuted.

(** ** C54 *)

Theorem C54_ends : forall ns c n, 8 * size c + 6 <= n -> parse ns n c <> OutOfFuel.
Proof. exact parse_ends. Qed.
Print Assumptions C54_ends.

(** Full statement: no component values crash the reader. Proved when something follows each ".",
    "|", "=" and ":", and functions other than [:not()] are not empty nor have a block after
    a sign; nothing is asked of the rest, which may be no selector at all. *)
Theorem C54_no_crash_partial : forall ns c n, safe c -> parse ns n c <> Panic.
Proof. intros ns c n. apply parse_calm. Qed.
Print Assumptions C54_no_crash_partial.

Example C54_ex : match values_of "a > , :nth-child(2n+ of [b = ]c) > > .x[]((" with
  | Some c => exists r, parse no_namespaces (8 * size c + 6) c = r /\ r <> Panic
  | None => False end.
Proof. vm_compute. eexists. split; [reflexivity|discriminate]. Qed.
Example C54_safe_ex : match values_of ":nth-child(+ of a) > > .x[](b)" with Some c => safe c | None => False end.
Proof.
  vm_compute. repeat match goal with
  | |- safe _ => constructor
  | |- lexed _ => split; vm_compute; intros; discriminate
  | |- _ = true -> _ => vm_compute; intros; discriminate
  | |- _ = false -> _ => intros _; split; [vm_compute; discriminate|vm_compute; repeat (first [left; reflexivity|right; split; [intros; first [discriminate|exact I]|]])]
  end.
Qed.

Theorem C54_crash_refuted : Forall (fun s => read_text s = Panic)
  ["."; "a:"; "a|"; "[a=]"; ":nth-child()"; ":nth-child(n + (2))"]%string.
Proof. repeat constructor; vm_compute; reflexivity. Qed.
Print Assumptions C54_crash_refuted.
