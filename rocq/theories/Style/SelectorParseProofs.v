(** Reading back the selectors of SelectorParseSpec.v. *)
From Coq Require Import String List NArith ZArith Bool Arith Lia.
From Verif.Base Require Import Str Outcome.
From Verif.Css Require Import LexerModel ParserModel.
From Verif.Values Require Import Number LengthModel CalcModel.
From Verif.Style Require Import AnBModel CascadeModel SelectorModel SelectorSpec SelectorProofs SelectorParseModel SelectorParseSpec AnBParseProofs SelectorTree.
Import ListNotations.
Local Open Scope nat_scope.
Local Open Scope list_scope.

Lemma rbind_ret {A B} (a : A) (f : A -> res B) : rbind (rret a) f = f a.
Proof. reflexivity. Qed.

(** ** Names and attributes *)

Definition no_bar (c : list sst) : Prop := skip_tok (delim "|") c = None.

Lemma token_eqb_refl t : token_eqb t t = true.
Proof. unfold token_eqb. assert (E : forall l, eq_ci l l = true) by (induction l as [|x l IH]; [reflexivity|]; cbn; now rewrite N.eqb_refl, IH). rewrite E. now destruct (t_type t). Qed.
Lemma skip_is s c : skip_tok (delim s) (dl s :: c) = Some c.
Proof. unfold skip_tok, dl. now rewrite token_eqb_refl. Qed.
Lemma skip_not t ty s c : ttype_beq ty (t_type t) = false -> skip_tok t (tok ty s :: c) = None.
Proof. intros H. unfold skip_tok, tok. unfold token_eqb. cbn [t_type]. now rewrite H. Qed.

Lemma qname_read ns q n d tail : prefix_ok ns q -> no_bar tail ->
  parse_qname (show_nsq q ++ show_name n :: tail) ns d =
  rret (mkQS (nsq_pattern ns (match d with Some d => NsExact d | None => NsNull end) q) (name_of n), tail).
Proof.
  intros P B. unfold no_bar in B. destruct q as [| |p]; cbn [show_nsq app nsq_pattern].
  - destruct n as [n|]; cbn [show_name name_of].
    + unfold parse_qname, tok. cbn [is_tok t_type ttype_beq tok_data t_data]. cbv zeta beta iota. now rewrite B.
    + unfold parse_qname. change (is_tok IDENT (dl "*")) with false. cbv beta iota. rewrite skip_is, B. reflexivity.
  - unfold parse_qname. change (is_tok IDENT (dl "*")) with false. cbv beta iota. rewrite skip_is. cbv beta iota. rewrite skip_is.
    destruct n as [n|]; cbn [show_name name_of].
    + unfold tok; cbn [is_tok t_type ttype_beq tok_data t_data]. reflexivity.
    + change (is_tok IDENT (dl "*")) with false. cbv beta iota. rewrite skip_is. reflexivity.
  - cbn in P. destruct P as (u & P). unfold parse_qname, tok. cbn [is_tok t_type ttype_beq tok_data t_data]. cbv beta iota zeta. rewrite skip_is.
    rewrite P. destruct n as [n|]; cbn [show_name name_of].
    + unfold tok; cbn [is_tok t_type ttype_beq tok_data t_data]. reflexivity.
    + change (is_tok IDENT (dl "*")) with false. cbv beta iota. rewrite skip_is. reflexivity.
Qed.

Lemma eat_head s r : is_ws s = false -> eat_wss (s :: r) = s :: r.
Proof. destruct s as [t| | | |]; try reflexivity. unfold is_ws. cbn [is_tok eat_wss]. now intros ->. Qed.
Lemma eat_tail w : eat_wss (sps w) = [].
Proof. rewrite <- (app_nil_r (sps w)), eat_sps. reflexivity. Qed.

Definition show_op_value (v : attr_test) : list sst :=
  show_op (av_op v) ++ sps (av_w2 v) ++ tok (if av_string v then STRING else IDENT) (av_value v) :: sps (av_w3 v)
  ++ match av_mod v with
     | None => []
     | Some i => tok IDENT (of_string (if i then "i" else "s")) :: sps (av_w4 v)
     end.

Lemma value_read q m v :
  match eat_wss (sps (av_w2 v) ++ tok (if av_string v then STRING else IDENT) (av_value v) :: sps (av_w3 v)
     ++ match av_mod v with None => [] | Some i => tok IDENT (of_string (if i then "i" else "s")) :: sps (av_w4 v) end) with
  | [] => Panic
  | v :: r2 =>
    if is_tok STRING v || is_tok IDENT v then
      match eat_wss r2 with
      | [] => rret (AttrSel (mkAttr q false m (tok_data v)))
      | m' :: r3 =>
        if is_tok IDENT m' then
          let fin ins := match eat_wss r3 with [] => rret (AttrSel (mkAttr q ins m (tok_data v))) | _ => rerr end in
          if str_eqb (tok_data m') (of_string "s") then fin false
          else if str_eqb (tok_data m') (of_string "i") then fin true
          else rerr
        else rerr
      end
    else rerr
  end = rret (AttrSel (mkAttr q (match av_mod v with Some i => i | None => false end) m (av_value v))).
Proof.
  destruct v as [w1 o w2 st va w3 mo w4]. cbn [av_w1 av_op av_w2 av_string av_value av_w3 av_mod av_w4].
  rewrite eat_sps, eat_tok by (destruct st; discriminate).
  replace (is_tok STRING (tok (if st then STRING else IDENT) va) || is_tok IDENT (tok (if st then STRING else IDENT) va)) with true by (destruct st; reflexivity).
  cbv iota. rewrite eat_sps. destruct mo as [i|].
  - rewrite eat_tok by discriminate. change (is_tok IDENT (tok IDENT _)) with true. cbv beta iota zeta. rewrite eat_tail.
    destruct i; destruct st; reflexivity.
  - cbn [eat_wss]. destruct st; reflexivity.
Qed.

Lemma op_head v : av_op v <> PRESENT -> exists s r, show_op_value v = s :: r /\ is_ws s = false /\
  match skip_tok (delim "=") (s :: r) with
  | Some r' => rret (EXACT, r')
  | None => if is_tok DELIM s then match skip_tok (delim "=") r with
       | None => rerr | Some r' => match attr_op (tok_data s) with Some m => rret (m, r') | None => rerr end end else rerr
  end = rret (av_op v, sps (av_w2 v) ++ tok (if av_string v then STRING else IDENT) (av_value v) :: sps (av_w3 v)
  ++ match av_mod v with None => [] | Some i => tok IDENT (of_string (if i then "i" else "s")) :: sps (av_w4 v) end).
Proof.
  intros H. unfold show_op_value. destruct (av_op v); [contradiction|..]; cbn [show_op app]; eexists; eexists; (split; [reflexivity|]); (split; [reflexivity|]).
  1: rewrite skip_is; reflexivity.
  all: match goal with |- context [skip_tok (delim "=") (dl ?x :: _)] => change (skip_tok (delim "=") (dl x :: ?r)) with (@None (list sst)) end;
    cbv iota; change (is_tok DELIM (dl _)) with true; cbv iota; rewrite skip_is; reflexivity.
Qed.

Lemma attr_read ns a : attr_ok ns a -> parse_attr (show_attr a) ns = rret (AttrSel (attr_of ns a)).
Proof.
  intros (P & T). destruct a as [w q nm w' te]. cbn [at_w at_ns at_name at_w' at_test] in *.
  unfold parse_attr, show_attr, attr_of. cbn [at_w at_ns at_name at_w' at_test]. rewrite eat_sps.
  set (tl := sps w' ++ match te with None => [] | Some v => show_attr_test v end).
  assert (H : exists s r, show_nsq q ++ tok IDENT nm :: tl = s :: r /\ is_ws s = false).
  { destruct q; cbn; eexists; eexists; split; reflexivity. }
  destruct H as (s & r & E & Ws). rewrite E, (eat_head _ _ Ws). rewrite <- E. clear s r E Ws.
  assert (B : q = QOmitted -> no_bar tl).
  { intros ->. unfold no_bar, tl. destruct w' as [|x w']; [|reflexivity]. destruct te as [v|]; [|reflexivity].
    unfold show_attr_test. cbn [sps map app]. destruct T as [T1 T2]. destruct (av_w1 v) as [|x w1]; [|reflexivity].
    destruct (av_op v); try reflexivity; [contradiction|]. exfalso. now apply T2. }
  assert (R : parse_qname (show_nsq q ++ tok IDENT nm :: tl) ns None = rret (mkQS (nsq_pattern ns NsNull q) (NameExact nm), tl)).
  { destruct q as [| |p].
    - apply (qname_read ns QOmitted (Some nm) None tl P). auto.
    - reflexivity.
    - cbn in P. destruct P as (u & P). cbn [show_nsq app nsq_pattern]. unfold parse_qname, tok. cbn [is_tok t_type ttype_beq tok_data t_data].
      cbv beta iota zeta. rewrite skip_is, P. reflexivity. }
  rewrite R, rbind_ret. cbn [fst snd]. cbv zeta. unfold tl. rewrite eat_sps. destruct te as [v|]; [|reflexivity].
  unfold show_attr_test. rewrite eat_sps. destruct T as [T _]. destruct (op_head v T) as (s & r & E & Ws & O).
  fold (show_op_value v). rewrite E, (eat_head _ _ Ws), O, rbind_ret. cbn [fst snd]. apply value_read.
Qed.

(** ** One step of each function *)

Section Steps.
Variable ns : namespaces.
Lemma pse_S n s r op : is_ws s = false -> pse ns (S n) (s :: r) op =
  rbind (read_simple ns n (s :: r)) (fun p => match snd p with [] => rret p | c1 => let (o, c2) := peek_op c1 in if op <? o then infix ns n (fst p) c2 o else rret p end).
Proof. intros H. change (pse ns (S n) (s :: r) op) with (if is_ws s then pse ns n r op else rbind (read_simple ns n (s :: r)) (fun p => match snd p with [] => rret p | c1 => let (o, c2) := peek_op c1 in if op <? o then infix ns n (fst p) c2 o else rret p end)). now rewrite H. Qed.
Lemma pse_ws n w r op : pse ns (S n) (ws w :: r) op = pse ns n r op.
Proof. reflexivity. Qed.
Lemma nfix_S n lhs op c : nfix ns (S n) lhs op c = rbind (pse ns n c op) (fun p => nfix_loop ns n [fst p; lhs] op (snd p)).
Proof. reflexivity. Qed.
Lemma nfix_loop_nil n acc op : nfix_loop ns (S n) acc op [] = rret (nfix_of op (rev acc), []).
Proof. reflexivity. Qed.
Lemma nfix_loop_S n last front op c : c <> [] -> nfix_loop ns (S n) (last :: front) op c =
      let (o, c') := peek_op c in
      if o =? oNOP then rret (nfix_of op (rev (last :: front)), c')
      else if o =? op then rbind (pse ns n c' op) (fun p => nfix_loop ns n (fst p :: last :: front) op (snd p))
      else if o <? op then rret (nfix_of op (rev (last :: front)), c)
      else if (o =? oOR) || (o =? oAND) then
        rbind (nfix ns n last o c') (fun p => nfix_loop ns n (fst p :: front) op (snd p))
      else
        rbind (infix ns n last c' o) (fun p =>
        nfix_loop ns n (fst p :: front) op (drop_one (snd p))).
Proof. destruct c; [congruence|reflexivity]. Qed.
Lemma infix_S n lhs c op : infix ns (S n) lhs c op =
    let (op, c) := if op =? oNOP then peek_op c else (op, c) in
    if op =? oNOP then rret (lhs, c)
    else if (op =? oOR) || (op =? oAND) then nfix ns n lhs op c
    else rbind (pse ns n c op) (fun p => rret (Infix (infix_of op) lhs (fst p), snd p)).
Proof. reflexivity. Qed.
Lemma parse_S n c : c <> [] -> parse ns (S n) c = rbind (pse ns n c oNOP) (fun p => parse_loop ns n (fst p) (snd p)).
Proof. destruct c; [congruence|reflexivity]. Qed.
Lemma parse_loop_nil n acc : parse_loop ns (S n) acc [] = rret acc.
Proof. reflexivity. Qed.
Lemma parse_loop_S n acc c : c <> [] -> parse_loop ns (S n) acc c =
      rbind (infix ns n acc c oNOP) (fun p =>
      if match snd p with [] => false | _ => List.length (snd p) =? List.length c end then rerr
      else parse_loop ns n (fst p) (snd p)).
Proof. destruct c; [congruence|reflexivity]. Qed.
Lemma pc_function_S n name content : pc_function ns (S n) name content =
    let fname := removelast (t_data name) in
    rbind (parse_anb content) (fun p =>
    match eat_wss (snd p) with
    | [] => rret (make_pc fname (fun ty => PseudoClassAnB ty (fst p)))
    | c =>
      if str_eqb fname (of_string "nth-of-type") || str_eqb fname (of_string "nth-last-of-type") then rerr
      else match skip_tok (mkT IDENT (of_string "of")) c with
           | None => rerr
           | Some c' => rbind (parse ns n c') (fun s => rret (make_pc fname (fun ty => PseudoClassAnBof ty (fst p) s)))
           end
    end).
Proof. reflexivity. Qed.
Lemma simple_func n name content r : read_simple ns (S n) (colon :: FUNC name content :: r) =
            if token_eqb name (mkT FUNCTION (of_string "not(")) then
              rbind (parse ns n content) (fun s => rret (Nfix NOT [s], r))
            else rbind (pc_function ns n name content) (fun s => rret (s, r)).
Proof. reflexivity. Qed.
End Steps.

(** ** Simple selectors *)

Lemma pc_lookup_in tb n : In n (map fst tb) -> exists ty, pc_lookup tb n = Some ty.
Proof.
  induction tb as [|[k v] tb IH]; cbn; [tauto|]. intros H. destruct (str_eqb k n) eqn:E; [now exists v|].
  apply IH. destruct H as [->|H]; [|exact H]. now rewrite str_eqb_refl in E.
Qed.
Lemma make_pc_known n mk : make_pc n mk = match pc_lookup pc_table n with Some ty => mk ty | None => if existsb (str_eqb n) pc_others then mk PC_OTHER else PseudoClass PC_OTHER end.
Proof. reflexivity. Qed.
Lemma make_plain n : make_pc n PseudoClass = PseudoClass (pc_type n).
Proof. unfold make_pc, pc_type. destruct (pc_lookup pc_table n); [reflexivity|]. now destruct (existsb _ _). Qed.
Lemma pe_name n : In n pe_names <-> existsb (str_eqb n) pe_names = true.
Proof.
  rewrite existsb_exists. split.
  - intros H. exists n. split; [exact H|apply str_eqb_refl].
  - intros (x & I & E). apply str_eqb_spec in E. now subst.
Qed.
Lemma make_nth n mk : In n (map fst nth_table) -> make_pc n mk = mk (nth_type n) /\ str_eqb n (of_string "not") = false.
Proof. intros H. cbn in H. destruct H as [<-|[<-|[<-|[<-|[]]]]]; split; reflexivity. Qed.
Lemma not_not n : In n (map fst nth_table) -> token_eqb (mkT FUNCTION (n ++ of_string "(")) (mkT FUNCTION (of_string "not(")) = false.
Proof. intros H. cbn in H. destruct H as [<-|[<-|[<-|[<-|[]]]]]; reflexivity. Qed.

Definition reads ns (l : slist) : Prop := exists N, forall n, N <= n -> parse ns n (show_slist l) = rret (m_slist ns tree l).
Definition simple_good ns (s : simple) : Prop :=
  exists N, forall n tail, N <= n -> no_bar tail -> read_simple ns n (show_simple s ++ tail) = rret (m_simple ns tree s, tail).

Lemma simple_read_type ns q n : prefix_ok ns q -> simple_good ns (SType q n).
Proof.
  intros P. exists 1. intros k tail L B. destruct k as [|k]; [lia|].
  assert (Q := qname_read ns q n (Some (ns_default ns)) tail P B).
  change (show_simple (SType q n) ++ tail) with ((show_nsq q ++ [show_name n]) ++ tail). rewrite <- app_assoc. cbn [app].
  assert (E : read_simple ns (S k) (show_nsq q ++ show_name n :: tail) =
              rbind (parse_qname (show_nsq q ++ show_name n :: tail) ns (Some (ns_default ns))) (fun p => rret (TypeSel (fst p), snd p))).
  { destruct q; [destruct n|..]; reflexivity. }
  now rewrite E, Q.
Qed.
Lemma simple_read_attr ns a : attr_ok ns a -> simple_good ns (SAttr a).
Proof.
  intros P. exists 1. intros k tail L B. destruct k as [|k]; [lia|].
  change (read_simple ns (S k) (show_simple (SAttr a) ++ tail)) with (rbind (parse_attr (show_attr a) ns) (fun s => rret (s, tail))).
  now rewrite (attr_read ns a P).
Qed.
Lemma simple_read_pseudo ns n : ~ In n pe_names -> simple_good ns (SPseudo n).
Proof.
  intros P. exists 1. intros k tail L B. destruct k as [|k]; [lia|].
  change (read_simple ns (S k) (show_simple (SPseudo n) ++ tail)) with (rret (plain_pseudo n, tail)).
  rewrite pe_name in P. apply not_true_is_false in P. unfold plain_pseudo. now rewrite P, make_plain.
Qed.
Lemma simple_read_element ns d n : In n pe_names -> simple_good ns (SElement d n).
Proof.
  intros P. exists 1. intros k tail L B. destruct k as [|k]; [lia|].
  assert (E : read_simple ns (S k) (show_simple (SElement d n) ++ tail) = rret (plain_pseudo n, tail)) by (destruct d; reflexivity).
  rewrite E. apply pe_name in P. unfold plain_pseudo. now rewrite P.
Qed.
Lemma removelast_fname (n : str) : removelast (n ++ of_string "(") = n.
Proof. apply removelast_last. Qed.
Lemma simple_read_nth ns n w a w' : In n (map fst nth_table) -> anb_ok a -> simple_good ns (SNth n w a w').
Proof.
  intros I A. exists 2. intros k tail L B. destruct k as [|[|k]]; [lia|lia|].
  change (show_simple (SNth n w a w') ++ tail) with (colon :: FUNC (mkT FUNCTION (n ++ of_string "(")) (sps w ++ show_anb a ++ sps w') :: tail).
  rewrite simple_func, (not_not n I), pc_function_S. cbn [t_data]. cbv zeta. rewrite removelast_fname.
  destruct (anb_read w a (sps w') A (fun _ => eat_tail w')) as (r & R & E). unfold rest_of in R. rewrite eat_tail in R.
  rewrite E, rbind_ret. cbn [fst snd]. rewrite R, rbind_ret. destruct (make_nth n (fun ty => PseudoClassAnB ty (anb_value a)) I) as [-> _]. reflexivity.
Qed.
Lemma simple_read_nth_of ns n w a w' l : n = of_string "nth-child" \/ n = of_string "nth-last-child" -> anb_ok a -> bare_n a = false -> reads ns l ->
  simple_good ns (SNthOf n w a w' l).
Proof.
  intros I A Bn (N & H). exists (2 + N). intros k tail L B. destruct k as [|[|k]]; [lia|lia|].
  assert (I' : In n (map fst nth_table)) by (destruct I as [-> | ->]; cbn; tauto).
  change (show_simple (SNthOf n w a w' l) ++ tail) with (colon :: FUNC (mkT FUNCTION (n ++ of_string "(")) (sps w ++ show_anb a ++ sps w' ++ tok IDENT (of_string "of") :: show_slist l) :: tail).
  rewrite simple_func, (not_not n I'), pc_function_S. cbn [t_data]. cbv zeta. rewrite removelast_fname.
  destruct (anb_read w a (sps w' ++ tok IDENT (of_string "of") :: show_slist l) A) as (r & R & E); [rewrite Bn; discriminate|].
  unfold rest_of in R. rewrite eat_sps, eat_tok in R by discriminate.
  rewrite E, rbind_ret. cbn [fst snd]. rewrite R.
  replace (str_eqb n (of_string "nth-of-type") || str_eqb n (of_string "nth-last-of-type")) with false by (destruct I as [-> | ->]; reflexivity).
  cbv iota. replace (skip_tok (mkT IDENT (of_string "of")) (tok IDENT (of_string "of") :: show_slist l)) with (Some (show_slist l)).
  2:{ unfold skip_tok, tok. now rewrite token_eqb_refl. }
  rewrite H, !rbind_ret by lia. destruct (make_nth n (fun ty => PseudoClassAnBof ty (anb_value a) (m_slist ns tree l)) I') as [-> _]. reflexivity.
Qed.
Lemma simple_read_not ns l : reads ns l -> simple_good ns (SNot l).
Proof.
  intros (N & H). exists (1 + N). intros k tail L B. destruct k as [|k]; [lia|].
  change (show_simple (SNot l) ++ tail) with (colon :: FUNC (mkT FUNCTION (of_string "not(")) (show_slist l) :: tail).
  rewrite simple_func, token_eqb_refl, H, rbind_ret by lia. reflexivity.
Qed.

(** ** Peeking at the next operator *)

Lemma show_compound_more s k : show_compound (KCons s k) = show_simple s ++ show_compound k.
Proof. reflexivity. Qed.
Lemma show_rest_cons c k r : show_rest (RCons c k r) = show_comb c ++ show_compound k ++ show_rest r.
Proof. reflexivity. Qed.
Lemma show_lrest_cons l x r : show_lrest (LCons l x r) = lay comma l ++ show_cplx x ++ show_lrest r.
Proof. reflexivity. Qed.
Lemma show_cplx_eq k r : show_cplx (Cx k r) = show_compound k ++ show_rest r.
Proof. reflexivity. Qed.

Definition startable (s : sst) : bool :=
  is_tok IDENT s || is_tok HASH s || str_eqb (tok_data s) (of_string ".")
  || str_eqb (tok_data s) (of_string "*") || str_eqb (tok_data s) (of_string ":").
Definition head_ok (s : simple) (h : sst) (r : list sst) : Prop :=
  is_ws h = false /\ no_bar (h :: r) /\ (is_type s = false -> peek_op (h :: r) = (oAND, h :: r)) /\
  (is_attr s = false -> startable h = true).

Lemma simple_head s tail : exists h r, show_simple s ++ tail = h :: r /\ head_ok s h r.
Proof.
  destruct s as [q n|i|c|a|n|d n|n w a w'|n w a w' l|l]; unfold head_ok.
  - destruct q; [destruct n|..]; eexists; eexists; (split; [reflexivity|]); repeat split; try reflexivity; discriminate.
  - eexists; eexists; (split; [reflexivity|]); repeat split; reflexivity.
  - eexists; eexists; (split; [reflexivity|]); repeat split; reflexivity.
  - eexists; eexists; (split; [reflexivity|]); repeat split; try reflexivity; discriminate.
  - eexists; eexists; (split; [reflexivity|]); repeat split; reflexivity.
  - destruct d; eexists; eexists; (split; [reflexivity|]); repeat split; reflexivity.
  - eexists; eexists; (split; [reflexivity|]); repeat split; reflexivity.
  - eexists; eexists; (split; [reflexivity|]); repeat split; reflexivity.
  - eexists; eexists; (split; [reflexivity|]); repeat split; reflexivity.
Qed.
Lemma compound_head k tail : exists h r, show_compound k ++ tail = h :: r /\ head_ok (first_simple k) h r.
Proof. destruct k as [s|s k]; [apply simple_head|]. rewrite show_compound_more, <- app_assoc. apply simple_head. Qed.

Lemma peek_le c : fst (peek_op c) <= oAND.
Proof.
  unfold oAND. induction c as [|s c IH]; [cbn; unfold oNOP; lia|]. destruct s as [t| | | |]; try (cbn; unfold oAND; lia).
  cbn [peek_op]. destruct (t_type t); try (cbn; unfold oAND, oOR; lia).
  - destruct c as [|s c]; [cbn; unfold oNOP; lia|]. 
    repeat (match goal with |- context [if ?b then _ else _] => destruct b end); cbn [fst]; unfold oCHILD, oSUBSEQ, oADJ, oAND, oNOP; lia.
  - destruct c as [|s c]; [cbn; unfold oNOP; lia|]. destruct (_ || _); [cbn; unfold oDESC; lia|].
    destruct (peek_op (s :: c)) as [o c']. cbn [fst] in IH. destruct c' as [|x [|y c']]; cbn [fst]; auto. destruct (is_ws y); cbn [fst]; auto.
Qed.

(** [X] is [Y], maybe with a space before. *)
Definition lead (X Y : list sst) : Prop := X = Y \/ exists w, X = ws w :: Y.

Lemma peek_lay t o l h Y : (forall r, r <> [] -> peek_op (TOK t :: r) = (o, r)) -> startable (TOK t) = false -> ttype_beq (t_type t) WHITESPACE = false ->
  is_ws h = false -> exists X, peek_op (lay (TOK t) l ++ h :: Y) = (o, X) /\ lead X (h :: Y).
Proof.
  intros P St W H. destruct l as [|w|w w']; cbn [lay app].
  - exists (h :: Y). split; [apply P; discriminate|now left].
  - exists (ws w :: h :: Y). split; [apply P; discriminate|right; now exists w].
  - exists (ws w' :: h :: Y). split; [|right; now exists w'].
    assert (E : peek_op (ws w :: TOK t :: ws w' :: h :: Y) = if startable (TOK t) then (oDESC, TOK t :: ws w' :: h :: Y) else
          let (op, c') := peek_op (TOK t :: ws w' :: h :: Y) in
          match c' with
          | _ :: s1 :: r1 => if is_ws s1 then (op, s1 :: r1) else (op, c')
          | _ => (op, c')
          end) by reflexivity.
    rewrite E, St, P by discriminate. cbv beta iota. now rewrite H.
Qed.

Lemma peek_comb c k T : match c with Desc _ => is_attr (first_simple k) = false | _ => True end ->
  exists X, peek_op (show_comb c ++ show_compound k ++ T) = (rank (comb_ty c), X) /\ lead X (show_compound k ++ T).
Proof.
  intros A. destruct (compound_head k T) as (h & r & E & (W & B & _ & St)). rewrite E.
  destruct c as [w|l|l|l]; cbn [show_comb comb_ty rank].
  - exists (h :: r). split; [|now left]. cbn [app].
    assert (Q : peek_op (ws w :: h :: r) = if startable h then (oDESC, h :: r) else
          let (op, c') := peek_op (h :: r) in
          match c' with
          | _ :: s1 :: r1 => if is_ws s1 then (op, s1 :: r1) else (op, c')
          | _ => (op, c')
          end) by reflexivity.
    now rewrite Q, (St A).
  - apply peek_lay; try reflexivity; auto. intros x X. destruct x; [congruence|reflexivity].
  - apply peek_lay; try reflexivity; auto. intros x X. destruct x; [congruence|reflexivity].
  - apply peek_lay; try reflexivity; auto. intros x X. destruct x; [congruence|reflexivity].
Qed.
Lemma peek_comma l k T : exists X, peek_op (lay comma l ++ show_compound k ++ T) = (oOR, X) /\ lead X (show_compound k ++ T).
Proof. destruct (compound_head k T) as (h & r & E & (W & _)). rewrite E. apply peek_lay; auto. Qed.

Lemma lead_pse ns n X Y op v : (forall n', n <= n' -> pse ns n' Y op = v) -> lead X Y -> forall n', S n <= n' -> pse ns n' X op = v.
Proof.
  intros H [-> |(w & ->)] n' L; [apply H; lia|]. destruct n' as [|n']; [lia|]. rewrite pse_ws. apply H; lia.
Qed.

(** ** Compound selectors *)

Definition follow (T : list sst) : Prop := no_bar T /\ (T = [] \/ fst (peek_op T) < oAND).
Definition strip (T : list sst) : list sst :=
  match T with [] => [] | _ => if fst (peek_op T) =? oNOP then snd (peek_op T) else T end.

Fixpoint cgood ns (k : compound) : Prop :=
  match k with
  | KOne s => simple_good ns s
  | KCons s k => simple_good ns s /\ is_type (first_simple k) = false /\ cgood ns k
  end.

Lemma and_stop ns n last front T : follow T -> nfix_loop ns (S n) (last :: front) oAND T = rret (Nfix AND (rev (last :: front)), strip T).
Proof.
  intros [_ F]. destruct T as [|s T]; [apply nfix_loop_nil|]. destruct F as [F|F]; [discriminate|].
  rewrite nfix_loop_S by discriminate. unfold strip. destruct (peek_op (s :: T)) as [o c']. cbn [fst snd] in *. unfold oAND in *.
  destruct (o =? oNOP); [reflexivity|]. replace (o =? 8) with false by (symmetry; apply Nat.eqb_neq; lia).
  replace (o <? 8) with true by (symmetry; apply Nat.ltb_lt; lia). reflexivity.
Qed.

Lemma and_one ns s : simple_good ns s -> exists N, forall n Z, N <= n -> no_bar Z -> pse ns n (show_simple s ++ Z) oAND = rret (m_simple ns tree s, Z).
Proof.
  intros (N & H). exists (S N). intros n Z L B. destruct n as [|n]; [lia|].
  destruct (simple_head s Z) as (h & r & E & (W & _)). rewrite E, pse_S, <- E, H, rbind_ret by (auto; lia). cbn [fst snd].
  destruct Z as [|z Z]; [reflexivity|]. pose proof (peek_le (z :: Z)) as P. destruct (peek_op (z :: Z)) as [o c2]. cbn [fst] in P.
  replace (oAND <? o) with false by (symmetry; apply Nat.ltb_ge; lia). reflexivity.
Qed.

Lemma no_bar_compound k T : no_bar (show_compound k ++ T).
Proof. destruct (compound_head k T) as (h & r & E & (_ & B & _)). now rewrite E. Qed.

Lemma and_loop ns k : cgood ns k -> is_type (first_simple k) = false ->
  exists N, forall n last front T, N <= n -> follow T ->
    nfix_loop ns n (last :: front) oAND (show_compound k ++ T) = rret (Nfix AND (rev (last :: front) ++ m_compound ns tree k), strip T).
Proof.
  assert (ST : forall s Z n last front, is_type s = false -> nfix_loop ns (S n) (last :: front) oAND (show_simple s ++ Z) =
            rbind (pse ns n (show_simple s ++ Z) oAND) (fun p => nfix_loop ns n (fst p :: last :: front) oAND (snd p))).
  { intros s Z n last front Ty. destruct (simple_head s Z) as (h & r & E & (W & _ & P & _)). rewrite E, nfix_loop_S by discriminate.
    rewrite (P Ty). reflexivity. }
  induction k as [s|s k IH]; cbn [cgood first_simple].
  - intros G Ty. destruct (and_one ns s G) as (N & H). exists (S (S N)). intros n last front T L F. destruct n as [|[|n]]; [lia|lia|].
    change (show_compound (KOne s)) with (show_simple s). rewrite ST, H, rbind_ret by (auto; try lia; apply F). cbn [fst snd].
    rewrite and_stop by exact F. cbn [rev]. now rewrite m_compound_one.
  - intros (G & Ty' & Gk) Ty. destruct (and_one ns s G) as (N & H). destruct (IH Gk Ty') as (N2 & H2). exists (S (N + N2)).
    intros n last front T L F. destruct n as [|n]; [lia|]. rewrite show_compound_more, <- app_assoc.
    rewrite ST, H, rbind_ret by (auto; try lia; apply no_bar_compound). cbn [fst snd].
    rewrite H2 by (auto; lia). rewrite m_compound_more. cbn [rev]. now rewrite <- !app_assoc.
Qed.

Definition K ns k := conj (m_compound ns tree k).

Lemma comp_read ns k : cgood ns k -> exists N, forall n op T, N <= n -> op < oAND -> follow T ->
  pse ns (S n) (show_compound k ++ T) op =
  if single k then match T with [] => rret (K ns k, []) | _ => let (o, c2) := peek_op T in if op <? o then infix ns n (K ns k) c2 o else rret (K ns k, T) end
  else rret (K ns k, strip T).
Proof.
  destruct k as [s|s k]; cbn [cgood single].
  - intros (N & H). exists N. intros n op T L O F. change (show_compound (KOne s)) with (show_simple s).
    destruct (simple_head s T) as (h & r & E & (W & _)). rewrite E, pse_S, <- E, H, rbind_ret by (auto; try lia; apply F). cbn [fst snd].
    destruct T; reflexivity.
  - intros ((N & H) & Ty & G). 
    assert (A : exists N2, forall n last T, N2 <= n -> follow T -> nfix ns n last oAND (show_compound k ++ T) = rret (Nfix AND (last :: m_compound ns tree k), strip T)).
    { destruct k as [s2|s2 k2]; cbn [cgood first_simple] in *.
      - destruct (and_one ns s2 G) as (N2 & H2). exists (S (S N2)). intros n last T L F. destruct n as [|[|n]]; [lia|lia|].
        change (show_compound (KOne s2)) with (show_simple s2). rewrite nfix_S, H2, rbind_ret by (try lia; apply F). cbn [fst snd].
        rewrite and_stop by exact F. reflexivity.
      - destruct G as (G & Ty2 & Gk). destruct (and_one ns s2 G) as (N2 & H2). destruct (and_loop ns k2 Gk Ty2) as (N3 & H3).
        exists (S (N2 + N3)). intros n last T L F. destruct n as [|n]; [lia|]. rewrite show_compound_more, <- app_assoc.
        rewrite nfix_S, H2, rbind_ret by (try lia; apply no_bar_compound). cbn [fst snd]. rewrite H3 by (auto; lia). reflexivity. }
    destruct A as (N2 & A). exists (S (N + N2)). intros n op T L O F. rewrite show_compound_more, <- app_assoc.
    destruct (simple_head s (show_compound k ++ T)) as (h & r & E & (W & _)).
    rewrite E, pse_S, <- E, H, rbind_ret by (auto; try lia; apply no_bar_compound). cbn [fst snd].
    destruct (compound_head k T) as (h2 & r2 & E2 & (W2 & _ & P2 & _)). rewrite E2, (P2 Ty). cbv beta iota.
    replace (op <? oAND) with true by (symmetry; now apply Nat.ltb_lt). destruct n as [|n]; [lia|].
    rewrite infix_S. change (oAND =? oNOP) with false. cbv beta iota. change ((oAND =? oOR) || (oAND =? oAND)) with true. cbv iota.
    rewrite <- E2, A by (auto; lia). unfold K. rewrite m_compound_more.
    destruct (m_compound_cons ns tree k) as (x & l & -> & _). reflexivity.
Qed.

(** ** Complex selectors *)

Section Complex.
Variable ns : namespaces.

Fixpoint rgood (r : rest) : Prop :=
  match r with
  | RNil => True
  | RCons c k r => cgood ns k /\ rgood r /\ match c with Desc _ => is_attr (first_simple k) = false | _ => True end
  end.
Definition xgood (x : cplx) : Prop := match x with Cx k r => cgood ns k /\ rgood r end.
Fixpoint lrgood (r : lrest) : Prop := match r with LNil => True | LCons _ x r => xgood x /\ lrgood r end.

Fixpoint ptreeA (op : nat) (k : compound) (r : rest) : selector * rest :=
  match r with
  | RNil => (K ns k, RNil)
  | RCons c k' r' =>
    if negb (single k) then (K ns k, r)
    else if op <? rank (comb_ty c) then let (s, r'') := ptreeA (rank (comb_ty c)) k' r' in (Infix (comb_ty c) (K ns k) s, r'')
    else (K ns k, r)
  end.
Lemma ptreeA_ptree r : forall op k, ptree op (K ns k) (m_rest ns tree r) = (fst (ptreeA op k r), m_rest ns tree (snd (ptreeA op k r))).
Proof.
  induction r as [|c k' r IH]; intros op k; [reflexivity|]. rewrite m_rest_cons. cbn [ptree ptreeA]. unfold K at 1. rewrite multi_conj.
  destruct (negb (single k)); [reflexivity|]. destruct (op <? rank (comb_ty c)); [|reflexivity].
  specialize (IH (rank (comb_ty c)) k'). change (conj (m_compound ns tree k')) with (K ns k'). rewrite IH.
  destruct (ptreeA (rank (comb_ty c)) k' r) as [s r'']. reflexivity.
Qed.
Lemma ptreeA_short r : forall op k, rgood r -> rgood (snd (ptreeA op k r)) /\
  List.length (m_rest ns tree (snd (ptreeA op k r))) <= List.length (m_rest ns tree r) /\
  List.length (show_rest (snd (ptreeA op k r))) <= List.length (show_rest r).
Proof.
  induction r as [|c k' r IH]; intros op k G; [cbn; auto|]. cbn [ptreeA].
  destruct (negb (single k)); [cbn [snd]; auto|]. destruct (op <? rank (comb_ty c)); [|cbn [snd]; auto].
  destruct G as (_ & G & _). specialize (IH (rank (comb_ty c)) k' G). destruct (ptreeA (rank (comb_ty c)) k' r) as [s r'']. cbn [fst snd] in *.
  rewrite m_rest_cons, show_rest_cons, !app_length. cbn [List.length]. destruct IH as (A & B & C). split; [exact A|lia].
Qed.

(** ** What follows *)

Definition otrail (b : option str) : list sst := match b with Some w => [ws w] | None => [] end.
Definition etail (lr : lrest) (b : option str) : list sst := show_lrest lr ++ otrail b.
Definition tail (r : rest) (lr : lrest) (b : option str) : list sst := show_rest r ++ etail lr b.

Lemma tail_cons c k r lr b : tail (RCons c k r) lr b = show_comb c ++ show_compound k ++ tail r lr b.
Proof. unfold tail. rewrite show_rest_cons. now rewrite <- !app_assoc. Qed.
Lemma tail_comma l k r lr b : tail RNil (LCons l (Cx k r) lr) b = lay comma l ++ show_compound k ++ tail r lr b.
Proof. unfold tail, etail. rewrite show_lrest_cons, show_cplx_eq. cbn [show_rest app]. now rewrite <- !app_assoc. Qed.

Lemma rank_bounds c : oDESC <= rank (comb_ty c) /\ rank (comb_ty c) <= oSUBSEQ.
Proof. destruct c; cbn; unfold oDESC, oCHILD, oADJ, oSUBSEQ; lia. Qed.

Lemma no_bar_comb c Z : no_bar (show_comb c ++ Z).
Proof. destruct c as [w|l|l|l]; [reflexivity|destruct l; reflexivity..]. Qed.
Lemma tail_follow r lr b : rgood r -> lrgood lr -> follow (tail r lr b).
Proof.
  intros G GL. destruct r as [|c k r].
  - destruct lr as [|l [k r] lr].
    + destruct b; cbn; unfold follow; (split; [reflexivity|]); [right; cbn; unfold oNOP, oAND; lia|now left].
    + rewrite tail_comma. split; [destruct l; reflexivity|]. right. destruct (peek_comma l k (tail r lr b)) as (X & -> & _). cbn. unfold oOR, oAND. lia.
  - rewrite tail_cons. destruct G as (Gk & Gr & A). split; [apply no_bar_comb|]. right.
    destruct (peek_comb c k (tail r lr b) A) as (X & -> & _). pose proof (rank_bounds c). cbn [fst]. unfold oAND, oSUBSEQ in *. lia.
Qed.

(** What a call leaves: the tail, or nothing when the tail is one space. *)
Definition teq (rem Z : list sst) : Prop := rem = Z \/ (rem = [] /\ exists w, Z = [ws w]).
Lemma strip_teq r lr b : rgood r -> teq (strip (tail r lr b)) (tail r lr b).
Proof.
  intros G. destruct r as [|c k r].
  - destruct lr as [|l [k r] lr].
    + destruct b as [w|]; [right; split; [reflexivity|now exists w]|now left].
    + left. rewrite tail_comma. unfold strip. destruct (peek_comma l k (tail r lr b)) as (X & -> & _). cbn [fst]. destruct l; reflexivity.
  - left. rewrite tail_cons. destruct G as (_ & _ & A). unfold strip. destruct (peek_comb c k (tail r lr b) A) as (X & -> & _). cbn [fst].
    pose proof (rank_bounds c). replace (rank (comb_ty c) =? oNOP) with false by (symmetry; apply Nat.eqb_neq; unfold oDESC, oNOP in *; lia).
    destruct (show_comb c ++ _); reflexivity.
Qed.

Lemma teq_comb rem c k r lr b : teq rem (tail (RCons c k r) lr b) -> rem = show_comb c ++ show_compound k ++ tail r lr b.
Proof.
  rewrite tail_cons. intros [H|(_ & w & H)]; [exact H|]. exfalso. destruct (compound_head k (tail r lr b)) as (h & y & E & (W & _)). rewrite E in H.
  destruct c as [x|l|l|l]; [|destruct l; discriminate..]. discriminate.
Qed.
Lemma teq_comma rem l k r lr b : teq rem (tail RNil (LCons l (Cx k r) lr) b) -> rem = lay comma l ++ show_compound k ++ tail r lr b.
Proof.
  rewrite tail_comma. intros [H|(_ & w & H)]; [exact H|]. exfalso. destruct (compound_head k (tail r lr b)) as (h & y & E & (W & _)). rewrite E in H.
  destruct l; discriminate.
Qed.
Lemma comb_nonempty c Z : show_comb c ++ Z <> [].
Proof. destruct c as [w|l|l|l]; [discriminate|destruct l; discriminate..]. Qed.
Lemma comma_nonempty l Z : lay comma l ++ Z <> [].
Proof. destruct l; discriminate. Qed.

Lemma infix_of_rank c : infix_of (rank (comb_ty c)) = comb_ty c.
Proof. destruct c; reflexivity. Qed.
Lemma rank_tests c : (rank (comb_ty c) =? oNOP) = false /\ (rank (comb_ty c) =? oOR) = false /\ (rank (comb_ty c) <? oOR) = false /\
  (rank (comb_ty c) =? oAND) = false.
Proof. destruct c; repeat split; reflexivity. Qed.

Lemma infix_step n acc X c : infix ns (S n) acc X (rank (comb_ty c)) =
  rbind (pse ns n X (rank (comb_ty c))) (fun p => rret (Infix (comb_ty c) acc (fst p), snd p)).
Proof. destruct (rank_tests c) as (A & B & C & D). rewrite infix_S, A. cbv beta iota. now rewrite A, B, D, infix_of_rank. Qed.

(** ** One call of [pse] *)

Lemma tree_read r : forall k, cgood ns k -> rgood r -> exists N, forall n op lr b, N <= n -> oOR <= op < oAND -> lrgood lr ->
  exists rem, pse ns n (show_compound k ++ tail r lr b) op = rret (fst (ptreeA op k r), rem) /\ teq rem (tail (snd (ptreeA op k r)) lr b).
Proof.
  induction r as [|c k' r IH]; intros k G GR; destruct (comp_read ns k G) as (N & H).
  - exists (S N). intros n op lr b L O GL. destruct n as [|n]; [lia|]. rewrite H by (try lia; now apply tail_follow). cbn [ptreeA fst snd].
    destruct (single k).
    + exists (tail RNil lr b). split; [|now left]. destruct lr as [|l [k2 r2] lr].
      * destruct b as [w|]; reflexivity.
      * rewrite tail_comma. destruct (peek_comma l k2 (tail r2 lr b)) as (X & -> & _).
        pose proof (comma_nonempty l (show_compound k2 ++ tail r2 lr b)) as Ne. destruct (lay comma l ++ _); [congruence|].
        replace (op <? oOR) with false by (symmetry; apply Nat.ltb_ge; lia). reflexivity.
    + exists (strip (tail RNil lr b)). split; [reflexivity|now apply strip_teq].
  - destruct GR as (Gk & GR & A). destruct (IH k' Gk GR) as (N2 & H2). exists (S (S (S (N + N2)))). intros n op lr b L O GL. destruct n as [|[|n]]; [lia|lia|].
    assert (F : follow (tail (RCons c k' r) lr b)) by (apply tail_follow; [split; [exact Gk|split; [exact GR|exact A]]|exact GL]).
    rewrite H by (try lia; exact F). cbn [ptreeA]. destruct (single k); cbn [negb].
    + rewrite tail_cons. destruct (peek_comb c k' (tail r lr b) A) as (X & -> & LX).
      pose proof (comb_nonempty c (show_compound k' ++ tail r lr b)) as Ne.
      replace (match show_comb c ++ show_compound k' ++ tail r lr b with [] => rret (K ns k, []) | _ => if op <? rank (comb_ty c) then infix ns (S n) (K ns k) X (rank (comb_ty c)) else rret (K ns k, show_comb c ++ show_compound k' ++ tail r lr b) end)
        with (if op <? rank (comb_ty c) then infix ns (S n) (K ns k) X (rank (comb_ty c)) else rret (K ns k, show_comb c ++ show_compound k' ++ tail r lr b))
        by (destruct (show_comb c ++ _); [congruence|reflexivity]).
      destruct (op <? rank (comb_ty c)).
      * rewrite infix_step. pose proof (rank_bounds c) as RB.
        assert (PX : exists rem, pse ns n X (rank (comb_ty c)) = rret (fst (ptreeA (rank (comb_ty c)) k' r), rem) /\ teq rem (tail (snd (ptreeA (rank (comb_ty c)) k' r)) lr b)).
        { destruct LX as [-> |(w & ->)]; [|destruct n as [|n]; [lia|]; rewrite pse_ws]; (apply H2; [lia|unfold oDESC, oSUBSEQ, oOR, oAND in *; lia|exact GL]). }
        destruct PX as (rem & -> & TQ). rewrite rbind_ret. destruct (ptreeA (rank (comb_ty c)) k' r) as [s r'']. cbn [fst snd] in *. now exists rem.
      * cbn [fst snd]. exists (tail (RCons c k' r) lr b). rewrite tail_cons. split; [reflexivity|now left].
    + cbn [fst snd]. exists (strip (tail (RCons c k' r) lr b)). split; [reflexivity|]. apply strip_teq. split; [exact Gk|split; [exact GR|exact A]].
Qed.

Lemma comb_step c k r : rgood (RCons c k r) -> exists N, forall n lr b, N <= n -> lrgood lr -> exists X rem,
  peek_op (tail (RCons c k r) lr b) = (rank (comb_ty c), X) /\
  pse ns n X (rank (comb_ty c)) = rret (fst (ptreeA (rank (comb_ty c)) k r), rem) /\ teq rem (tail (snd (ptreeA (rank (comb_ty c)) k r)) lr b).
Proof.
  intros (Gk & GR & A). destruct (tree_read r k Gk GR) as (N & H). exists (S N). intros n lr b L GL. pose proof (rank_bounds c) as RB.
  destruct (peek_comb c k (tail r lr b) A) as (X & P & LX). exists X. rewrite tail_cons.
  destruct n as [|n]; [lia|].
  destruct LX as [-> |(w & ->)]; [|rewrite pse_ws].
  - destruct (H (S n) (rank (comb_ty c)) lr b) as (rem & E & T); [lia|unfold oDESC, oSUBSEQ, oOR, oAND in *; lia|exact GL|]. exists rem. auto.
  - destruct (H n (rank (comb_ty c)) lr b) as (rem & E & T); [lia|unfold oDESC, oSUBSEQ, oOR, oAND in *; lia|exact GL|]. exists rem. auto.
Qed.
Lemma comma_step l k r : cgood ns k -> rgood r -> exists N, forall n lr b, N <= n -> lrgood lr -> exists X rem,
  peek_op (tail RNil (LCons l (Cx k r) lr) b) = (oOR, X) /\
  pse ns n X oOR = rret (fst (ptreeA oOR k r), rem) /\ teq rem (tail (snd (ptreeA oOR k r)) lr b).
Proof.
  intros Gk GR. destruct (tree_read r k Gk GR) as (N & H). exists (S N). intros n lr b L GL.
  destruct (peek_comma l k (tail r lr b)) as (X & P & LX). exists X. rewrite tail_comma.
  destruct n as [|n]; [lia|].
  destruct LX as [-> |(w & ->)]; [|rewrite pse_ws].
  - destruct (H (S n) oOR lr b) as (rem & E & T); [lia|unfold oOR, oAND; lia|exact GL|]. exists rem. auto.
  - destruct (H n oOR lr b) as (rem & E & T); [lia|unfold oOR, oAND; lia|exact GL|]. exists rem. auto.
Qed.

Lemma tree_eq k r : tree (k, r) = tloop (List.length r) k r.
Proof. reflexivity. Qed.
Lemma tree_start op k r : op < oDESC -> rgood r ->
  tloop (List.length (m_rest ns tree (snd (ptreeA op k r)))) (fst (ptreeA op k r)) (m_rest ns tree (snd (ptreeA op k r))) = tree (K ns k, m_rest ns tree r).
Proof.
  intros O G. rewrite tree_eq. destruct r as [|c k' r]; [reflexivity|].
  pose proof (ptreeA_ptree (RCons c k' r) op k) as E. pose proof (ptreeA_short (RCons c k' r) op k G) as (_ & L & _).
  rewrite m_rest_cons in *. cbn [ptree] in E. cbn [List.length tloop] in *.
  destruct (multi (K ns k)).
  - pose proof (f_equal fst E) as E1. pose proof (f_equal snd E) as E2. cbn [fst snd] in E1, E2. rewrite <- E1, <- E2. reflexivity.
  - replace (op <? rank (comb_ty c)) with true in E by (symmetry; apply Nat.ltb_lt; pose proof (rank_bounds c); lia).
    pose proof (ptree_length (m_rest ns tree r) (rank (comb_ty c)) (conj (m_compound ns tree k'))) as L2.
    destruct (ptree (rank (comb_ty c)) (conj (m_compound ns tree k')) (m_rest ns tree r)) as [s r'']. cbn [snd] in L2. pose proof (f_equal fst E) as E1. pose proof (f_equal snd E) as E2. cbn [fst snd] in E1, E2. rewrite <- E1, <- E2 in *.
    apply tloop_fuel; lia.
Qed.
Lemma tree_next acc c k r : rgood (RCons c k r) ->
  let p := ptreeA (rank (comb_ty c)) k r in
  tloop (List.length (m_rest ns tree (snd p))) (Infix (comb_ty c) acc (fst p)) (m_rest ns tree (snd p)) =
  tloop (List.length (m_rest ns tree (RCons c k r))) acc (m_rest ns tree (RCons c k r)).
Proof.
  intros (Gk & GR & A) p. rewrite m_rest_cons. cbn [List.length tloop]. change (conj (m_compound ns tree k)) with (K ns k).
  rewrite ptreeA_ptree. fold p. apply tloop_fuel; [lia|]. now apply ptreeA_short.
Qed.

Lemma no_drop rem r lr b : teq rem (tail r lr b) -> drop_one rem = rem.
Proof.
  intros T. destruct r as [|c k r].
  - destruct lr as [|l [k r] lr].
    + destruct T as [-> |(-> & _)]; [destruct b; reflexivity|reflexivity].
    + apply teq_comma in T. subst rem. destruct (compound_head k (tail r lr b)) as (h & y & E & (W & _)). rewrite E.
      destruct l; cbn [lay app]; try reflexivity. destruct y; [cbn; now rewrite W|reflexivity].
  - apply teq_comb in T. subst rem. destruct (compound_head k (tail r lr b)) as (h & y & E & (W & _)). rewrite E.
    destruct c as [w|l|l|l]; [|destruct l..]; cbn [show_comb lay app]; try reflexivity; (destruct y; [cbn; now rewrite W|reflexivity]).
Qed.

Lemma or_loop b lr : lrgood lr -> forall m r, List.length (m_rest ns tree r) <= m -> rgood r ->
  exists N, forall n a acc rem, N <= n -> teq rem (tail r lr b) ->
    nfix_loop ns n (a :: acc) oOR rem =
    rret (Nfix OR (rev acc ++ tloop (List.length (m_rest ns tree r)) a (m_rest ns tree r) :: m_lrest ns tree lr), []).
Proof.
  induction lr as [|l x lr IHl]; intros GL.
  - (* last complex selector *)
    assert (RN : exists N, forall n a acc rem, N <= n -> teq rem (tail RNil LNil b) ->
       nfix_loop ns n (a :: acc) oOR rem = rret (Nfix OR (rev acc ++ [a]), [])).
    { exists 1. intros n a acc rem L T. destruct n as [|n]; [lia|]. destruct T as [-> |(-> & _)]; [|reflexivity]. destruct b; reflexivity. }
    induction m as [|m IHm]; intros r L G.
    + destruct r as [|c k r]; [|rewrite m_rest_cons in L; cbn in L; lia]. exact RN.
    + destruct r as [|c k r]; [exact RN|]. destruct (comb_step c k r G) as (N & H).
      destruct (ptreeA_short r (rank (comb_ty c)) k) as (G' & L' & _); [apply G|].
      destruct (IHm (snd (ptreeA (rank (comb_ty c)) k r))) as (N2 & H2); [rewrite m_rest_cons in L; cbn in L; lia|exact G'|].
      exists (S (S (N + N2))). intros n a acc rem Ln T. destruct n as [|[|n]]; [lia|lia|].
      assert (Ne : rem <> []) by (apply teq_comb in T; subst rem; apply comb_nonempty).
      assert (T' : rem = tail (RCons c k r) LNil b) by (rewrite tail_cons; now apply teq_comb). subst rem.
      rewrite nfix_loop_S by exact Ne. destruct (H n LNil b) as (X & rem & -> & P & TQ); [lia|exact GL|].
      destruct (rank_tests c) as (Q1 & Q2 & Q3 & Q4). rewrite Q1, Q2, Q3, Q4. cbn [orb]. rewrite infix_step, P, !rbind_ret. cbn [fst snd].
      rewrite (no_drop rem _ _ _ TQ), H2 by (auto; lia). now rewrite tree_next.
  - destruct x as [k0 r0]. destruct GL as ((Gk0 & Gr0) & GL).
    assert (RN : exists N, forall n a acc rem, N <= n -> teq rem (tail RNil (LCons l (Cx k0 r0) lr) b) ->
       nfix_loop ns n (a :: acc) oOR rem = rret (Nfix OR (rev acc ++ a :: m_lrest ns tree (LCons l (Cx k0 r0) lr)), [])).
    { destruct (comma_step l k0 r0 Gk0 Gr0) as (N & H). destruct (ptreeA_short r0 oOR k0 Gr0) as (G' & _).
      destruct (IHl GL _ (snd (ptreeA oOR k0 r0)) (le_n _) G') as (N2 & H2).
      exists (S (N + N2)). intros n a acc rem Ln T. destruct n as [|n]; [lia|].
      assert (Ne : rem <> []) by (apply teq_comma in T; subst rem; apply comma_nonempty).
      assert (T' : rem = tail RNil (LCons l (Cx k0 r0) lr) b) by (rewrite tail_comma; now apply teq_comma). subst rem.
      rewrite nfix_loop_S by exact Ne. destruct (H n lr b) as (X & rem & -> & P & TQ); [lia|exact GL|].
      change (oOR =? oNOP) with false. change (oOR =? oOR) with true. cbv beta iota. rewrite P, rbind_ret. cbn [fst snd].
      rewrite H2 by (auto; lia). cbn [rev]. rewrite <- app_assoc. cbn [app]. rewrite tree_start by (auto; unfold oOR, oDESC; lia). reflexivity. }
    induction m as [|m IHm]; intros r L G.
    + destruct r as [|c k r]; [|rewrite m_rest_cons in L; cbn in L; lia]. exact RN.
    + destruct r as [|c k r]; [exact RN|]. destruct (comb_step c k r G) as (N & H).
      destruct (ptreeA_short r (rank (comb_ty c)) k) as (G' & L' & _); [apply G|].
      destruct (IHm (snd (ptreeA (rank (comb_ty c)) k r))) as (N2 & H2); [rewrite m_rest_cons in L; cbn in L; lia|exact G'|].
      exists (S (S (N + N2))). intros n a acc rem Ln T. destruct n as [|[|n]]; [lia|lia|].
      assert (Ne : rem <> []) by (apply teq_comb in T; subst rem; apply comb_nonempty).
      assert (T' : rem = tail (RCons c k r) (LCons l (Cx k0 r0) lr) b) by (rewrite tail_cons; now apply teq_comb). subst rem.
      rewrite nfix_loop_S by exact Ne. destruct (H n (LCons l (Cx k0 r0) lr) b) as (X & rem & -> & P & TQ); [lia|split; [split|]; auto|].
      destruct (rank_tests c) as (Q1 & Q2 & Q3 & Q4). rewrite Q1, Q2, Q3, Q4. cbn [orb]. rewrite infix_step, P, !rbind_ret. cbn [fst snd].
      rewrite (no_drop rem _ _ _ TQ), H2 by (auto; lia). now rewrite tree_next.
Qed.

(** What follows the first complex selector *)
Lemma or_read a k r lr b l : cgood ns k -> rgood r -> lrgood lr -> exists N, forall n, N <= n -> exists X,
  peek_op (tail RNil (LCons l (Cx k r) lr) b) = (oOR, X) /\
  nfix ns n a oOR X = rret (Nfix OR (a :: m_lrest ns tree (LCons l (Cx k r) lr)), []).
Proof.
  intros Gk Gr GL. destruct (comma_step l k r Gk Gr) as (N & H). destruct (ptreeA_short r oOR k Gr) as (G' & _).
  destruct (or_loop b lr GL _ (snd (ptreeA oOR k r)) (le_n _) G') as (N2 & H2).
  exists (S (N + N2)). intros n L. destruct n as [|n]; [lia|]. destruct (H n lr b) as (X & rem & -> & P & TQ); [lia|exact GL|].
  exists X. split; [reflexivity|]. rewrite nfix_S, P, rbind_ret. cbn [fst snd]. rewrite H2 by (auto; lia).
  cbn [rev app]. rewrite tree_start by (auto; unfold oOR, oDESC; lia). reflexivity.
Qed.

Lemma main_loop b lr : lrgood lr -> forall m r, List.length (m_rest ns tree r) <= m -> rgood r ->
  forall a, exists N, forall n rem, N <= n -> teq rem (tail r lr b) ->
    parse_loop ns n a rem = rret (disj (tloop (List.length (m_rest ns tree r)) a (m_rest ns tree r) :: m_lrest ns tree lr)).
Proof.
  intros GL.
  assert (RN : forall a, exists N, forall n rem, N <= n -> teq rem (tail RNil lr b) -> parse_loop ns n a rem = rret (disj (a :: m_lrest ns tree lr))).
  { intros a. destruct lr as [|l [k r] lr].
    - exists 3. intros n rem L T. destruct n as [|[|[|n]]]; [lia..|]. destruct T as [-> |(-> & _)]; [|reflexivity]. destruct b; reflexivity.
    - destruct GL as ((Gk & Gr) & GL). destruct (or_read a k r lr b l Gk Gr GL) as (N & H). exists (S (S (S N))). intros n rem L T.
      destruct n as [|[|[|n]]]; [lia..|].
      assert (Ne : rem <> []) by (apply teq_comma in T; subst rem; apply comma_nonempty).
      assert (T' : rem = tail RNil (LCons l (Cx k r) lr) b) by (rewrite tail_comma; now apply teq_comma). subst rem.
      rewrite parse_loop_S by exact Ne. rewrite infix_S. change (oNOP =? oNOP) with true. cbv beta iota.
      destruct (H (S n)) as (X & -> & P); [lia|]. change (oOR =? oNOP) with false. change ((oOR =? oOR) || (oOR =? oAND)) with true. cbv beta iota.
      rewrite P, rbind_ret. cbn [fst snd]. rewrite parse_loop_nil. reflexivity. }
  induction m as [|m IHm]; intros r L G a.
  - destruct r as [|c k r]; [|rewrite m_rest_cons in L; cbn in L; lia]. apply RN.
  - destruct r as [|c k r]; [apply RN|]. destruct (comb_step c k r G) as (N & H).
    destruct (ptreeA_short r (rank (comb_ty c)) k) as (G' & L' & Ls); [apply G|].
    destruct (IHm (snd (ptreeA (rank (comb_ty c)) k r)) ltac:(rewrite m_rest_cons in L; cbn in L; lia) G'
              (Infix (comb_ty c) a (fst (ptreeA (rank (comb_ty c)) k r)))) as (N2 & H2).
    exists (S (S (N + N2))). intros n rem Ln T. destruct n as [|[|n]]; [lia|lia|].
    assert (Ne : rem <> []) by (apply teq_comb in T; subst rem; apply comb_nonempty).
    assert (T' : rem = tail (RCons c k r) lr b) by (rewrite tail_cons; now apply teq_comb). subst rem.
    rewrite parse_loop_S by exact Ne. rewrite infix_S. change (oNOP =? oNOP) with true. cbv beta iota.
    destruct (H n lr b) as (X & rem & -> & P & TQ); [lia|exact GL|].
    destruct (rank_tests c) as (Q1 & Q2 & Q3 & Q4). rewrite Q1, Q2, Q4. cbn [orb]. rewrite P, !rbind_ret, infix_of_rank. cbn [fst snd].
    assert (D : List.length rem < List.length (tail (RCons c k r) lr b)).
    { apply Nat.le_lt_trans with (List.length (tail (snd (ptreeA (rank (comb_ty c)) k r)) lr b)).
      - destruct TQ as [-> |(-> & _)]; cbn; lia.
      - rewrite tail_cons. unfold tail. rewrite !app_length. destruct (compound_head k []) as (h & y & E & _). rewrite app_nil_r in E. rewrite E. cbn [List.length]. lia. }
    replace (match rem with [] => false | _ => List.length rem =? List.length (tail (RCons c k r) lr b) end) with false
      by (symmetry; destruct rem; [reflexivity|apply Nat.eqb_neq; lia]).
    rewrite H2 by (auto; lia). now rewrite tree_next.
Qed.

Lemma list_read lead x r trail : xgood x -> lrgood r -> reads ns (Sl lead x r trail).
Proof.
  destruct x as [k r0]. intros (Gk & Gr) GL. unfold reads.
  change (show_slist (Sl lead (Cx k r0) r trail)) with (sps lead ++ (show_compound k ++ show_rest r0) ++ show_lrest r ++ otrail trail).
  rewrite <- (app_assoc (show_compound k)). fold (etail r trail). fold (tail r0 r trail). rewrite m_slist_eq, m_cplx_eq.
  assert (M : exists N, forall n m, N <= n -> N <= m -> rbind (pse ns n (show_compound k ++ tail r0 r trail) oNOP) (fun p => parse_loop ns m (fst p) (snd p)) =
                rret (disj (tree (K ns k, m_rest ns tree r0) :: m_lrest ns tree r))).
  { destruct (comp_read ns k Gk) as (N & H). pose proof (tail_follow r0 r trail Gr GL) as F.
    destruct (main_loop trail r GL _ r0 (le_n _) Gr (K ns k)) as (N2 & H2).
    assert (End : forall n rem, S (N + N2) <= n -> teq rem (tail r0 r trail) -> rbind (rret (K ns k, rem)) (fun p => parse_loop ns n (fst p) (snd p)) = rret (disj (tree (K ns k, m_rest ns tree r0) :: m_lrest ns tree r))).
    { intros n rem L T. rewrite rbind_ret. cbn [fst snd]. rewrite H2 by (auto; lia). reflexivity. }
    destruct (single k) eqn:Sk.
    - destruct r0 as [|c k' r'].
      + destruct r as [|l [k2 r2] lr].
        * exists (S (S (N + N2))). intros n m L Lm. destruct n as [|n]; [lia|]. rewrite H by (try lia; unfold oNOP, oAND; auto; lia). destruct trail as [w|]; cbv beta iota; (apply End; [lia|now left]).
        * destruct GL as ((Gk2 & Gr2) & GL). destruct (or_read (K ns k) k2 r2 lr trail l Gk2 Gr2 GL) as (N3 & H3).
          exists (S (S (S (N + N3)))). intros n m L Lm. destruct n as [|[|n]]; [lia|lia|]. destruct m as [|m]; [lia|]. rewrite H by (try lia; unfold oNOP, oAND; auto; lia).
          destruct (H3 n) as (X & P & Q); [lia|].
          assert (Ne : tail RNil (LCons l (Cx k2 r2) lr) trail <> []) by (rewrite tail_comma; apply comma_nonempty).
          destruct (tail RNil (LCons l (Cx k2 r2) lr) trail); [congruence|]. rewrite P. change (oNOP <? oOR) with true. cbv beta iota.
          rewrite infix_S. change (oOR =? oNOP) with false. cbv beta iota. change (oOR =? oNOP) with false. change ((oOR =? oOR) || (oOR =? oAND)) with true. cbv beta iota.
          rewrite Q, rbind_ret. reflexivity.
      + destruct (comb_step c k' r' Gr) as (N3 & H3). destruct (ptreeA_short r' (rank (comb_ty c)) k') as (G' & L' & _); [apply Gr|].
        destruct (main_loop trail r GL _ (snd (ptreeA (rank (comb_ty c)) k' r')) (le_n _) G' (Infix (comb_ty c) (K ns k) (fst (ptreeA (rank (comb_ty c)) k' r')))) as (N4 & H4).
        exists (S (S (N + N3 + N4))). intros n m L Lm. destruct n as [|[|n]]; [lia|lia|]. destruct m as [|m]; [lia|]. rewrite H by (try lia; unfold oNOP, oAND; auto; lia).
        destruct (H3 n r trail) as (X & rem & P & Q & TQ); [lia|exact GL|].
        assert (Ne : tail (RCons c k' r') r trail <> []) by (rewrite tail_cons; apply comb_nonempty).
        destruct (tail (RCons c k' r') r trail); [congruence|]. rewrite P.
        replace (oNOP <? rank (comb_ty c)) with true by (destruct c; reflexivity). rewrite infix_step, Q, !rbind_ret. cbn [fst snd].
        rewrite H4 by (auto; lia). rewrite tree_eq. now rewrite tree_next.
    - exists (S (S (N + N2))). intros n m L Lm. destruct n as [|n]; [lia|]. rewrite H by (try lia; unfold oNOP, oAND; auto; lia). apply End; [lia|]. now apply strip_teq. }
  destruct M as (N & M).
  assert (Q : forall lead, exists N', forall n, N' <= n -> exists n', N <= n' <= n /\ pse ns n (sps lead ++ show_compound k ++ tail r0 r trail) oNOP = pse ns n' (show_compound k ++ tail r0 r trail) oNOP).
  { clear lead. intros lead. exists (N + List.length lead). induction lead as [|w lead IH]; intros n L; cbn [List.length] in L.
    - exists n. split; [lia|reflexivity].
    - destruct n as [|n]; [lia|]. cbn [sps map app]. rewrite pse_ws. destruct (IH n) as (n' & B & E); [lia|]. exists n'. split; [lia|exact E]. }
  destruct (Q lead) as (N' & Q'). exists (S (N + N')). intros n L. destruct n as [|n]; [lia|].
  assert (Ne : sps lead ++ show_compound k ++ tail r0 r trail <> []).
  { destruct (compound_head k (tail r0 r trail)) as (h & y & E & _). rewrite E. now destruct lead. }
  rewrite parse_S by exact Ne. destruct (Q' n) as (n' & B & E); [lia|]. rewrite E. apply M; lia.
Qed.
End Complex.

Theorem parse_tree ns :
  (forall s, simple_ok ns s -> simple_good ns s) /\
  (forall k, compound_ok ns k -> cgood ns k) /\
  (forall r, rest_ok ns r -> rgood ns r) /\
  (forall x, cplx_ok ns x -> xgood ns x) /\
  (forall l, slist_ok ns l -> reads ns l) /\
  (forall r, lrest_ok ns r -> lrgood ns r).
Proof.
  apply selector_mut.
  - intros q n O. now apply simple_read_type.
  - intros i _. exists 1. intros [|n] tail L B; [lia|reflexivity].
  - intros c _. exists 1. intros [|n] tail L B; [lia|reflexivity].
  - intros a O. now apply simple_read_attr.
  - intros n O. apply simple_read_pseudo, O.
  - intros d n O. now apply simple_read_element.
  - intros n w a w' O. apply simple_read_nth; apply O.
  - intros n w a w' l IH O. apply simple_read_nth_of; try apply O. apply IH, O.
  - intros l IH O. apply simple_read_not. now apply IH.
  - intros s IH O. now apply IH.
  - intros s IH k IHk O. split; [apply IH, O|]. split; [apply O|apply IHk, O].
  - intros _. exact I.
  - intros c k IHk r IHr O. split; [apply IHk, O|]. split; [apply IHr, O|apply O].
  - intros k IHk r IHr O. split; [apply IHk, O|apply IHr, O].
  - intros lead x IHx r IHr trail O. apply list_read; [apply IHx, O|apply IHr, O].
  - intros _. exact I.
  - intros l x IHx r IHr O. split; [apply IHx, O|apply IHr, O].
Qed.

Theorem parse_meaning ns l : slist_ok ns l -> exists N, (forall n, N <= n -> parse ns n (show_slist l) = rret (m_slist ns tree l)) /\ equiv (m_slist ns tree l) (meaning ns l).
Proof.
  intros O. destruct (parse_tree ns) as (_ & _ & _ & _ & H & _). destruct (H l O) as (N & P). exists N. split; [exact P|].
  apply (meaning_equiv ns), O.
Qed.
