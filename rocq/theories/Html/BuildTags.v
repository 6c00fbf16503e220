(** The start and end tags of running content, one kind of element after the other. *)
From Coq Require Import String List Arith Bool NArith Lia Permutation.
From Verif.Base Require Import Str.
From Verif.Html Require Import LexerModel SerialModel SerialSpec SerialProofs BuildModel BuildSpec BuildDom BuildSteps.
Import ListNotations.
Local Open Scope list_scope.
Local Infix ";;" := seq (at level 61, right associativity).

Lemma implies_true a b : implies a b = true -> a = true -> b = true.
Proof. unfold implies. now intros H ->. Qed.

Record fit_facts (path : list str) (n : str) : Prop := {
  ff_flow : in_names not_flow n = false;
  ff_p : in_names closes_p n = true -> inside (eq_name "p") ("button"%string :: walls) path = false;
  ff_heading : in_names headings n = true -> directly (in_names headings) path = false;
  ff_li : in_names ["li"]%string n = true -> inside (eq_name "li") item_walls path = false;
  ff_dd : in_names ["dd"; "dt"]%string n = true -> inside (in_names ["dd"; "dt"]%string) item_walls path = false;
  ff_formatting : in_names formatting n = true -> inside (str_eqb n) boxes path = false;
  ff_nest : in_names ["button"; "applet"; "marquee"; "object"; "select"]%string n = true -> inside (str_eqb n) walls path = false;
  ff_input : in_names ["input"]%string n = true -> inside (eq_name "select") walls path = false;
  ff_form : in_names ["form"]%string n = true -> existsb (eq_name "form") path = false;
  ff_option : in_names ["option"]%string n = true ->
    (if inside (eq_name "select") walls path then negb (directly (in_names optional_end) path) else negb (directly (eq_name "option") path)) = true;
  ff_optgroup : in_names ["optgroup"]%string n = true ->
    inside (eq_name "select") walls path = true /\ directly (in_names optional_end) path = false;
  ff_ruby : in_names ["rb"; "rtc"; "rp"; "rt"]%string n = true ->
    inside (eq_name "ruby") walls path && directly (in_names ("optgroup" :: optional_end)%string) path = false }.

Lemma fits_facts path n : fits_here path n = true -> fit_facts path n.
Proof.
  unfold fits_here. intros H. rewrite !andb_true_iff in H.
  destruct H as [[[[[[[[[[[H1 H2] H3] H4] H5] H6] H7] H8] H9] H10] H11] H12].
  constructor; intros.
  - now apply negb_true_iff in H1.
  - now apply negb_true_iff, (implies_true _ _ H2).
  - now apply negb_true_iff, (implies_true _ _ H3).
  - now apply negb_true_iff, (implies_true _ _ H4).
  - now apply negb_true_iff, (implies_true _ _ H5).
  - now apply negb_true_iff, (implies_true _ _ H6).
  - now apply negb_true_iff, (implies_true _ _ H7).
  - now apply negb_true_iff, (implies_true _ _ H8).
  - now apply negb_true_iff, (implies_true _ _ H9).
  - now apply (implies_true _ _ H10).
  - pose proof (implies_true _ _ H11 H) as E. apply andb_true_iff in E as [E1 E2]. split; [exact E1|]. now apply negb_true_iff.
  - now apply negb_true_iff, (implies_true _ _ H12).
Qed.

(** Splitting a name of a list into its cases. *)
Ltac name_cases H :=
  apply in_names_In in H; let x := fresh "x" in let Hx := fresh "Hx" in destruct H as (x & Hx & ->);
  repeat (destruct Hx as [<-|Hx]; [|]); [..|destruct Hx].

(** ** Which rule applies *)
Section Which.
Variable acc : token -> act.
Variable ai : mode -> token -> act.
Variable a : list (qname * str).
Local Notation "'rule' n" := (on_in_body acc ai (stag n a)) (at level 10).
Local Notation "'rend' n" := (on_in_body acc ai (etag n)) (at level 10).

Lemma rule_block n : in_names blocks n = true -> rule n = (close_p_in_button_scope ;; insert_ (stag n a)).
Proof. intros H. name_cases H; reflexivity. Qed.
Lemma rule_heading n : in_names headings n = true ->
  rule n = (close_p_in_button_scope ;; whenever (cur_one heading_names) pop ;; insert_ (stag n a)).
Proof. intros H. name_cases H; reflexivity. Qed.
Lemma rule_pre n : in_names ["pre"; "listing"]%string n = true ->
  rule n = (close_p_in_button_scope ;; insert_ (stag n a) ;; pure (set_skip true) ;; frameset_not_ok).
Proof. intros H. name_cases H; reflexivity. Qed.
Lemma rule_form n s : in_names ["form"]%string n = true -> s_form s = None ->
  rule n s = (close_p_in_button_scope ;;
              (fun s => andthen (insert_html (stag n a) s) (fun r =>
                        Done (if has_template (snd r) then snd r else set_form (Some (fst r)) (snd r))))) s.
Proof.
  intros H Hs. name_cases H.
  change (rule (of_string "form") s) with
    (match s_form s with
     | Some _ => if has_template s then (close_p_in_button_scope ;; insert_ (stag (of_string "form") a)) s else Done s
     | None => (close_p_in_button_scope ;;
              (fun s => andthen (insert_html (stag (of_string "form") a) s) (fun r =>
                        Done (if has_template (snd r) then snd r else set_form (Some (fst r)) (snd r))))) s
     end).
  rewrite Hs. reflexivity.
Qed.
Lemma rule_li n : in_names ["li"]%string n = true ->
  rule n = (frameset_not_ok ;; (fun s => item_loop ["li"]%string (stag n a) (s_stack s) s)).
Proof. intros H. name_cases H; reflexivity. Qed.
Lemma rule_dd n : in_names ["dd"; "dt"]%string n = true ->
  rule n = (frameset_not_ok ;; (fun s => item_loop ["dd"; "dt"]%string (stag n a) (s_stack s) s)).
Proof. intros H. name_cases H; reflexivity. Qed.
Lemma rule_button n : in_names ["button"]%string n = true ->
  rule n = (whenever (in_scope (h "button")) (implied None ;; pop_until_tags ["button"]%string) ;;
            reconstruct ;; insert_ (stag n a) ;; frameset_not_ok).
Proof. intros H. name_cases H; reflexivity. Qed.
Lemma rule_a n : in_names ["a"]%string n = true ->
  rule n = ((fun s => andthen (find_active (fun e => qname_eqb (e_name e) (h "a")) s) (fun x =>
              match x with
              | Some e => (agency (stag n a) ;; pure (remove_active e) ;; unstack e) s
              | None => Done s
              end)) ;;
            reconstruct ;; insert_active_html (stag n a)).
Proof. intros H. name_cases H; reflexivity. Qed.
Lemma rule_formatting n : in_names formatting_names n = true -> rule n = (reconstruct ;; insert_active_html (stag n a)).
Proof. intros H. name_cases H; reflexivity. Qed.
Lemma rule_nobr n : in_names ["nobr"]%string n = true ->
  rule n = (reconstruct ;; whenever (in_scope (h "nobr")) (agency (stag n a) ;; reconstruct) ;; insert_active_html (stag n a)).
Proof. intros H. name_cases H; reflexivity. Qed.
Lemma rule_applet n : in_names ["applet"; "marquee"; "object"]%string n = true ->
  rule n = whenever (negate (in_scope (hq n))) (reconstruct ;; insert_ (stag n a) ;; push_marker ;; frameset_not_ok).
Proof. intros H. name_cases H; reflexivity. Qed.
Lemma rule_table n : in_names ["table"]%string n = true ->
  rule n = (insert_ (stag n a) ;; frameset_not_ok ;; switch_to IN_TABLE).
Proof. intros H. name_cases H; reflexivity. Qed.
Lemma rule_br n : in_names ["area"; "br"; "embed"; "img"; "keygen"; "wbr"]%string n = true ->
  rule n = (reconstruct ;; insert_ (stag n a) ;; pop ;; frameset_not_ok).
Proof. intros H. name_cases H; reflexivity. Qed.
Lemma rule_input n : in_names ["input"]%string n = true ->
  rule n = (whenever (in_scope (h "select")) (pop_until_tags ["select"]%string) ;;
            reconstruct ;; insert_ (stag n a) ;; pop ;; (if is_hidden (stag n a) then nop else frameset_not_ok)).
Proof. intros H. name_cases H; reflexivity. Qed.
Lemma rule_param n : in_names ["param"; "source"; "track"]%string n = true -> rule n = (insert_ (stag n a) ;; pop).
Proof. intros H. name_cases H; reflexivity. Qed.
Lemma rule_hr n : in_names ["hr"]%string n = true ->
  rule n = (close_p_in_button_scope ;; insert_ (stag n a) ;; pop ;; frameset_not_ok).
Proof. intros H. name_cases H; reflexivity. Qed.
Lemma rule_head n : in_names ["base"; "basefont"; "bgsound"; "link"; "meta"; "noframes"; "script"; "style"; "title"]%string n = true ->
  rule n = ai IN_HEAD (stag n a).
Proof. intros H. name_cases H; reflexivity. Qed.
Lemma rule_textarea n : in_names ["textarea"]%string n = true ->
  rule n = (insert_ (stag n a) ;; pure (set_skip true) ;; lexer_to Rcdata ;; keep_mode ;; frameset_not_ok ;; switch_to TEXT).
Proof. intros H. name_cases H; reflexivity. Qed.
Lemma rule_xmp n : in_names ["xmp"]%string n = true ->
  rule n = (close_p_in_button_scope ;; reconstruct ;; frameset_not_ok ;; raw_text Rawtext (stag n a)).
Proof. intros H. name_cases H; reflexivity. Qed.
Lemma rule_iframe n : in_names ["iframe"]%string n = true -> rule n = (frameset_not_ok ;; raw_text Rawtext (stag n a)).
Proof. intros H. name_cases H; reflexivity. Qed.
Lemma rule_noembed n : in_names ["noembed"]%string n = true -> rule n = raw_text Rawtext (stag n a).
Proof. intros H. name_cases H; reflexivity. Qed.
Lemma rule_select n : in_names ["select"]%string n = true ->
  rule n = branch (in_scope (h "select")) (pop_until_tags ["select"]%string) (reconstruct ;; insert_ (stag n a) ;; frameset_not_ok).
Proof. intros H. name_cases H; reflexivity. Qed.
Lemma rule_option n : in_names ["option"]%string n = true ->
  rule n = (branch (in_scope (h "select"))
      (implied (Some (h "optgroup")) ;; (fun s => andthen (in_scope (h "option") s) (fun _ => Done s)))
      (whenever (cur_one ["option"]%string) pop) ;;
    reconstruct ;; insert_ (stag n a)).
Proof. intros H. name_cases H; reflexivity. Qed.
Lemma rule_optgroup n : in_names ["optgroup"]%string n = true ->
  rule n = whenever (in_scope (h "select"))
      (implied (Some (h "optgroup")) ;;
       branch (either (in_scope (h "option")) (in_scope (h "optgroup"))) nop
         (whenever (cur_one ["option"]%string) pop) ;;
       reconstruct ;; insert_ (stag n a)).
Proof. intros H. name_cases H; reflexivity. Qed.
Lemma rule_rb n : in_names ["rb"; "rtc"]%string n = true ->
  rule n = (whenever (in_scope (h "ruby")) (implied None ;; (fun s => andthen (current s) (fun _ => Done s))) ;; insert_ (stag n a)).
Proof. intros H. name_cases H; reflexivity. Qed.
Lemma rule_rt n : in_names ["rp"; "rt"]%string n = true ->
  rule n = (whenever (in_scope (h "ruby")) (implied (Some (h "rtc")) ;; (fun s => andthen (current s) (fun _ => Done s))) ;; insert_ (stag n a)).
Proof. intros H. name_cases H; reflexivity. Qed.

(** The names with rules of their own. *)
Definition known : list string :=
  not_flow ++ blocks ++ headings ++ formatting ++
  ["pre"; "listing"; "form"; "li"; "dd"; "dt"; "button"; "applet"; "marquee"; "object"; "table"; "area"; "br"; "embed";
   "img"; "keygen"; "wbr"; "input"; "param"; "source"; "track"; "hr"; "base"; "basefont"; "bgsound"; "link"; "meta";
   "noframes"; "script"; "style"; "title"; "textarea"; "xmp"; "iframe"; "noembed"; "select"; "option"; "optgroup";
   "rb"; "rtc"; "rp"; "rt"]%string.
Lemma rule_other n : in_names known n = false -> rule n = (reconstruct ;; insert_ (stag n a)).
Proof.
  intros H. assert (named known (stag n a) = false) as Hn by exact H. unfold on_in_body, starts, ends.
  change (is_nul (stag n a)) with false. change (is_blank (stag n a)) with false. change (is_char (stag n a)) with false.
  change (is_comment (stag n a)) with false. change (is_doctype (stag n a)) with false. change (is_eof (stag n a)) with false.
  change (is_end (stag n a)) with false. change (is_start (stag n a)) with true. cbn [andb orb].
  not_named Hn (stag n a). reflexivity.
Qed.

Lemma rend_block n : in_names block_end_names n = true ->
  rend n = whenever (in_scope (hq n)) (implied None ;; pop_until_name [hq n]).
Proof. intros H. name_cases H; reflexivity. Qed.
Lemma rend_form n s : in_names ["form"]%string n = true -> has_template s = false ->
  rend n s = match s_form s with
             | None => Done (set_form None s)
             | Some e => whenever (in_scope (e_name e)) (implied None ;; (fun s => andthen (current s) (fun _ => Done s)) ;; unstack e) (set_form None s)
             end.
Proof.
  intros H Hs. name_cases H.
  change (rend (of_string "form") s) with
    (if has_template s then whenever (in_scope (h "form")) (implied None ;; pop_until_tags ["form"]%string) s
     else match s_form s with
          | None => Done (set_form None s)
          | Some e => whenever (in_scope (e_name e)) (implied None ;; (fun s => andthen (current s) (fun _ => Done s)) ;; unstack e) (set_form None s)
          end).
  rewrite Hs. reflexivity.
Qed.
Lemma rend_p n : in_names ["p"]%string n = true ->
  rend n = (whenever (negate (in_button_scope (h "p"))) (insert_ (tag_named "p")) ;; close_p).
Proof. intros H. name_cases H; reflexivity. Qed.
Lemma rend_li n : in_names ["li"]%string n = true ->
  rend n = whenever (in_list_scope (h "li")) (implied (Some (h "li")) ;; pop_until_tags ["li"]%string).
Proof. intros H. name_cases H; reflexivity. Qed.
Lemma rend_dd n : in_names ["dd"; "dt"]%string n = true ->
  rend n = whenever (in_scope (hq n)) (implied (Some (hq n)) ;; pop_until_name [hq n]).
Proof. intros H. name_cases H; reflexivity. Qed.
Lemma rend_heading n : in_names headings n = true ->
  rend n = whenever (either (in_scope (h "h1")) (either (in_scope (h "h2")) (either (in_scope (h "h3"))
               (either (in_scope (h "h4")) (either (in_scope (h "h5")) (in_scope (h "h6")))))))
      (implied None ;; pop_until_tags heading_names).
Proof. intros H. name_cases H; reflexivity. Qed.
Lemma rend_formatting n : in_names formatting n = true -> rend n = agency (etag n).
Proof. intros H. name_cases H; reflexivity. Qed.
Lemma rend_applet n : in_names ["applet"; "marquee"; "object"]%string n = true ->
  rend n = whenever (in_scope (hq n)) (implied None ;; pop_until_name [hq n] ;; clear_to_marker).
Proof. intros H. name_cases H; reflexivity. Qed.
Definition end_known : list string :=
  ["body"; "html"; "template"; "br"; "form"; "p"; "li"; "dd"; "dt"; "applet"; "marquee"; "object"]%string ++ headings ++ formatting ++ block_end_names.
Lemma rend_other n : in_names end_known n = false -> rend n = (fun s => any_end_loop n (s_stack s) s).
Proof.
  intros H. assert (named end_known (etag n) = false) as Hn by exact H. unfold on_in_body, starts, ends.
  change (is_nul (etag n)) with false. change (is_blank (etag n)) with false. change (is_char (etag n)) with false.
  change (is_comment (etag n)) with false. change (is_doctype (etag n)) with false. change (is_eof (etag n)) with false.
  change (is_end (etag n)) with true. change (is_start (etag n)) with false. cbn [andb orb].
  not_named Hn (etag n). reflexivity.
Qed.
End Which.
