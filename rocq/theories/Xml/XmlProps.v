(** C41, C92-C95: XML documents. *)
From Coq Require Import String List Arith NArith ZArith Bool Lia.
From Verif.Xml Require Import XmlModel XmlSpec XmlLoose XmlProofs XmlRead XmlTotal XmlSound.
Import ListNotations.
Local Open Scope list_scope.
Local Open Scope string_scope.
Local Open Scope list_scope.
Local Arguments text : simpl never.

(** The documents of all examples. *)
Definition sample : str :=
  text "<?xml version='1.0' encoding=""UTF-8""?><!--top--><!DOCTYPE a SYSTEM ""u""> <a xmlns=""urn:d"" xmlns:p='urn:p'><p:b p:x=""&lt;1&#x41;"" y='2'/>t&amp;<![CDATA[<&]]><c xmlns:p='urn:q'><p:d/></c><?pi x?></a ><!--end-->".
Definition U (s : string) : str := text s.
Definition sample_src : src :=
  S_ELEMENT (mkName None (U "a")) [(mkName None (U "xmlns"), U "urn:d"); (mkName (Some (U "xmlns")) (U "p"), U "urn:p")]
    [S_ELEMENT (mkName (Some (U "p")) (U "b")) [(mkName (Some (U "p")) (U "x"), U "<1A"); (mkName None (U "y"), U "2")] [];
     S_TEXT (U "t&<&");
     S_ELEMENT (mkName None (U "c")) [(mkName (Some (U "xmlns")) (U "p"), U "urn:q")] [S_ELEMENT (mkName (Some (U "p")) (U "d")) [] []];
     S_PI].
Definition sample_doc : document :=
  mkDoc (U "1.0") (U "UTF-8") []
    ([COMMENT (U "top"); DOCTYPE (U "a") [] (U "u")] ++
     ELEMENT (mkQ (Some (U "urn:d")) (U "a")) [(mkQ None (U "xmlns"), U "urn:d"); (mkQ (Some XMLNS_NS) (U "p"), U "urn:p")]
       [ELEMENT (mkQ (Some (U "urn:p")) (U "b")) [(mkQ (Some (U "urn:p")) (U "x"), U "<1A"); (mkQ None (U "y"), U "2")] [];
        TEXT (U "t&<&");
        ELEMENT (mkQ (Some (U "urn:d")) (U "c")) [(mkQ (Some XMLNS_NS) (U "p"), U "urn:q")] [ELEMENT (mkQ (Some (U "urn:q")) (U "d")) [] []]]
     :: [COMMENT (U "end")]).

(** Ltac for the sample: names, blanks and the like are decided on literals. *)
Lemma nc s : (match s with c :: r => is_name_start c && forallb is_name_char r | [] => false end) && negb (existsb (N.eqb 58) s) = true -> ncname s.
Proof.
  intros H. apply andb_prop in H as [A B]. split.
  - destruct s as [|c r]; [discriminate|]. apply andb_prop in A as [A C]. split; [now apply is_name_start_iff|]. apply Forall_forall. intros x I.
    rewrite forallb_forall in C. apply is_name_char_iff. auto.
  - intros I. apply negb_true_iff in B. assert (E : existsb (N.eqb 58) s = true) by (apply existsb_exists; exists 58%N; split; auto; apply N.eqb_refl). congruence.
Qed.
Lemma bl s : forallb is_space s = true -> blanks s.
Proof. intros H. apply Forall_forall. intros c I. apply is_space_iff. rewrite forallb_forall in H. auto. Qed.
Lemma chars s : forallb is_char s = true -> Forall xml_char s.
Proof. intros H. apply Forall_forall. intros c I. apply is_char_iff. rewrite forallb_forall in H. auto. Qed.
(** The end mark is not found before. *)
Fixpoint ends_b (stop v : str) : bool := match v with [] => true | c :: r => negb (ahead stop (v ++ stop)) && ends_b stop r end.
Lemma ends_ok stop v : ends_b stop v = true -> ends stop v.
Proof.
  induction v as [|c v IH]; cbn; intros H a b E.
  - assert (L : length stop = length (a ++ stop ++ b)) by (now rewrite <- E). rewrite !app_length in L. destruct b; auto. cbn in L. lia.
  - apply andb_prop in H as [A B]. destruct a as [|d a].
    + apply negb_true_iff in A. apply Bool.not_true_iff_false in A. destruct A. apply ahead_iff. exists b. exact E.
    + injection E as -> E. eapply (IH B a b). exact E.
Qed.
Ltac literal := match goal with
  | |- ncname _ => apply nc; vm_compute; reflexivity
  | |- valid_qname _ => split; [apply nc; vm_compute; reflexivity|first [exact I | apply nc; vm_compute; reflexivity]]
  | |- valid_name _ => apply nc; vm_compute; reflexivity
  | |- blanks _ => apply bl; vm_compute; reflexivity
  | |- Forall xml_char _ => apply chars; vm_compute; reflexivity
  | |- ends _ _ => apply ends_ok; vm_compute; reflexivity
  end.
Lemma plain_value q v : existsb (fun c => N.eqb c q || N.eqb c 38 || N.eqb c 60)%bool v = false -> writes_value q v v.
Proof.
  induction v as [|c v IH]; cbn; intros H; [constructor|]. apply orb_false_iff in H as [A B]. apply orb_false_iff in A as [A D]. apply orb_false_iff in A as [A C].
  apply N.eqb_neq in A. apply N.eqb_neq in C. apply N.eqb_neq in D. constructor; auto.
Qed.
Lemma default_is ns sc l o : default_ns ns sc = o -> element_name ns sc (mkName None l) (mkQ o l). Proof. intros <-. constructor. Qed.
Lemma sample_written : writes_document None sample_src sample_doc sample.
Proof.
  assert (E : sample =
    (text "<?xml" ++ (text " " ++ text "version" ++ text "=" ++ 39%N :: text "1.0" ++ [39%N]) ++ (text " " ++ text "encoding" ++ text "=" ++ 34%N :: text "UTF-8" ++ [34%N]) ++ [] ++ [] ++ text "?>") ++
    ((text "<!--" ++ text "top" ++ text "-->") ++ []) ++ (text "<!DOCTYPE" ++ text " " ++ text "a" ++ (text " " ++ text "SYSTEM" ++ text " " ++ 34%N :: text "u" ++ [34%N]) ++ [] ++ text ">") ++ (32%N :: []) ++
    (text "<" ++ name_text (mkName None (U "a")) ++
       (text " " ++ (name_text (mkName None (U "xmlns")) ++ text "=" ++ 34%N :: text "urn:d" ++ [34%N]) ++
        text " " ++ (name_text (mkName (Some (U "xmlns")) (U "p")) ++ text "=" ++ 39%N :: text "urn:p" ++ [39%N]) ++ []) ++ text ">" ++
     ([] ++
      (text "<" ++ name_text (mkName (Some (U "p")) (U "b")) ++
        (text " " ++ (name_text (mkName (Some (U "p")) (U "x")) ++ text "=" ++ 34%N :: ((text "&" ++ text "lt" ++ text ";") ++ 49%N :: (text "&#x" ++ text "41" ++ text ";") ++ []) ++ [34%N]) ++
         text " " ++ (name_text (mkName None (U "y")) ++ text "=" ++ 39%N :: text "2" ++ [39%N]) ++ []) ++ text "/>") ++
      (116%N :: (text "&" ++ text "amp" ++ text ";") ++ text "<![CDATA[" ++ text "<&" ++ text "]]>" ++ []) ++
      (text "<" ++ name_text (mkName None (U "c")) ++ (text " " ++ (name_text (mkName (Some (U "xmlns")) (U "p")) ++ text "=" ++ 39%N :: text "urn:q" ++ [39%N]) ++ []) ++ text ">" ++
        ([] ++ (text "<" ++ name_text (mkName (Some (U "p")) (U "d")) ++ [] ++ text "/>") ++ []) ++ text "</" ++ name_text (mkName None (U "c")) ++ [] ++ text ">") ++
      [] ++ (text "<?" ++ text "pi" ++ text " x" ++ text "?>") ++ []) ++
     text "</" ++ name_text (mkName None (U "a")) ++ text " " ++ text ">") ++
    ((text "<!--" ++ text "end" ++ text "-->") ++ [])) by (vm_compute; reflexivity).
  rewrite E. unfold sample_doc.
  match goal with |- writes_document _ _ _ (?d ++ ?m ++ ?t ++ ?w ++ ?r ++ ?z) => replace (d ++ m ++ t ++ w ++ r ++ z) with ((d ++ m ++ t ++ w) ++ r ++ z) by (now rewrite <- !app_assoc) end.
  constructor.
  - change [COMMENT (U "top"); DOCTYPE (U "a") [] (U "u")] with ([COMMENT (U "top")] ++ DOCTYPE (U "a") [] (U "u") :: []). apply prolog_doctype.
    + left. apply decl_written.
      * exists (text "0"). repeat split; try discriminate. repeat constructor; discriminate.
      * apply pseudo_written; auto; try literal; try discriminate. exists [], []. repeat split; constructor.
      * right. split; [split; [vm_compute; auto|]|]. { left. split; discriminate. } { repeat (apply Forall_cons; [vm_compute; intuition discriminate|]); try constructor. }
        apply pseudo_written; auto; try literal; try discriminate. exists [], []. repeat split; constructor.
      * left. auto.
      * constructor.
    + apply misc_comment; [constructor; literal|constructor].
    + apply doctype_written; try literal; try discriminate. apply external_system; try literal; try discriminate. constructor; auto; intros [F|[]]; discriminate.
    + apply misc_space; [now left|constructor].
  - apply (item_element (mkName None (U "a"))).
    + literal.
    + apply attrs_next; [literal|discriminate|apply attr_written; [literal|auto|apply plain_value; reflexivity]|].
      apply attrs_next; [literal|discriminate|apply attr_written; [literal|auto|apply plain_value; reflexivity]|]. constructor. constructor.
    + apply (content_next [] []); [constructor| |].
      { apply item_empty; [literal|]. apply attrs_next; [literal|discriminate| |].
        - apply attr_written; [literal|auto|]. change (U "<1A") with (60%N :: 49%N :: 65%N :: []). apply value_ref; [apply (ref_entity 60 "lt"); now left|].
          apply value_char; try discriminate. apply value_ref; [|constructor]. apply (ref_hex 65 [4%N; 1%N]); try reflexivity; try discriminate. repeat constructor.
        - apply attrs_next; [literal|discriminate|apply attr_written; [literal|auto|apply plain_value; reflexivity]|]. constructor. constructor. }
      apply (content_next (U "t&<&")).
      * change (U "t&<&") with (116%N :: 38%N :: text "<&" ++ []). apply text_char; try discriminate. apply text_ref; [apply (ref_entity 38 "amp"); right; right; now left|].
        apply text_cdata; [literal|constructor].
      * apply (item_element (mkName None (U "c"))).
        -- literal.
        -- apply attrs_next; [literal|discriminate|apply attr_written; [literal|auto|apply plain_value; reflexivity]|]. constructor. constructor.
        -- apply (content_next [] []); [constructor| |apply (content_end [] []); constructor]. apply item_empty; [literal|]. constructor. constructor.
        -- constructor.
      * apply (content_next [] []); [constructor| |apply (content_end [] []); constructor]. constructor. constructor; try literal.
        -- intros (a & b & c & X & _). discriminate.
        -- right. exists 32%N, (text "x"). split; [reflexivity|now left].
    + literal.
  - assert (ND : forall (l : list qname), (forall i j, nth_error l i <> None -> nth_error l i = nth_error l j -> i = j) -> NoDup l) by (intros l H; apply NoDup_nth_error; intros i j Hi; apply H; now apply nth_error_Some).
    assert (D2 : forall a b : qname, q_eqb a b = false -> NoDup [a; b]).
    { intros a b H. constructor; [|constructor; [intros []|constructor]]. intros [F|[]]. symmetry in F. apply q_eqb_eq in F. congruence. }
    assert (D1 : forall a : qname, NoDup [a]) by (intros; constructor; [intros []|constructor]).
    unfold sample_src. eapply mean_element.
    + apply default_is. vm_compute. reflexivity.
    + constructor; [constructor; apply (attribute_plain _ (U "xmlns"))|]. constructor; [constructor; apply (attribute_prefixed _ (U "xmlns") (U "p")); constructor|constructor].
    + apply D2. reflexivity.
    + match goal with |- mean_all _ _ _ (?b :: ?t :: ?c :: []) => change (b :: t :: c :: []) with ([b] ++ [t] ++ [c] ++ [] ++ []) end.
      apply mean_more; [|apply mean_more; [apply mean_text|apply mean_more; [|apply mean_more; [apply mean_pi|apply mean_none]]]].
      * eapply mean_element.
        -- apply (element_prefixed None _ (U "p") (U "b")). apply prefix_declared; [discriminate|discriminate|reflexivity].
        -- constructor; [constructor; apply (attribute_prefixed _ (U "p") (U "x")); apply prefix_declared; [discriminate|discriminate|reflexivity]|].
           constructor; [constructor; apply (attribute_plain _ (U "y"))|constructor].
        -- apply D2. reflexivity.
        -- constructor.
      * eapply mean_element.
        -- apply default_is. vm_compute. reflexivity.
        -- constructor; [constructor; apply (attribute_prefixed _ (U "xmlns") (U "p")); constructor|constructor].
        -- apply D1.
        -- match goal with |- mean_all _ _ _ [?b] => change [b] with ([b] ++ []) end. apply mean_more; [|apply mean_none]. eapply mean_element.
           ++ apply (element_prefixed None _ (U "p") (U "d")). apply prefix_declared; [discriminate|discriminate|reflexivity].
           ++ constructor.
           ++ constructor.
           ++ constructor.
  - eauto.
  - apply misc_comment; [constructor; literal|constructor].
Qed.
Lemma sample_keeps : keeps_default sample_src.
Proof. repeat (constructor; try (cbn; intuition discriminate)). Qed.
Example sample_reads : parse None sample = Good sample_doc [].
Proof. vm_compute. reflexivity. Qed.

(** ** C41: names have the namespaces that the declarations in scope give them *)

(** Full statement: without [keeps_default]; see the refutation. *)
Theorem C41_names_partial ns x doc s :
  writes_document ns x doc s -> keeps_default x -> (d_version doc = [] -> forall r, s <> text "<?xml" ++ r) -> parse ns s = Good doc [].
Proof. apply document_read. Qed.
Example C41_sample : writes_document None sample_src sample_doc sample /\ keeps_default sample_src /\ (d_version sample_doc = [] -> forall r, sample <> text "<?xml" ++ r).
Proof. split; [apply sample_written|]. split; [apply sample_keeps|]. discriminate. Qed.
(** A declaration is not seen outside of its element. *)
Theorem C41_siblings ns x y s t a b :
  writes_item x s -> writes_item y t -> means ns [[]] x a -> means ns [[]] y b -> keeps_default x -> keeps_default y ->
  parse ns (text "<r>" ++ s ++ t ++ text "</r>") = Good (mkDoc [] [] [] [ELEMENT (mkQ ns (text "r")) [] (a ++ b)]) [].
Proof.
  intros Wx Wy Mx My Kx Ky. apply (document_read ns (S_ELEMENT (mkName None (text "r")) [] [x; y])).
  - replace (text "<r>" ++ s ++ t ++ text "</r>") with (([] ++ []) ++ (text "<" ++ name_text (mkName None (text "r")) ++ [] ++ text ">" ++ ([] ++ s ++ [] ++ t ++ []) ++ text "</" ++ name_text (mkName None (text "r")) ++ [] ++ text ">") ++ []).
    2:{ cbn [app name_text n_prefix n_local]. rewrite !app_nil_r. change (text "<r>") with (text "<" ++ text "r" ++ text ">"). rewrite <- !app_assoc. reflexivity. }
    apply (document_written ns [] [] [] [] ([] ++ []) _ _ (ELEMENT (mkQ ns (text "r")) [] (a ++ b)) []).
    + apply prolog_written; [now right|constructor].
    + apply item_element; [literal|constructor; constructor| |constructor]. apply (content_next [] []); [constructor|exact Wx|]. apply (content_next [] []); [constructor|exact Wy|]. apply (content_end [] []). constructor.
    + eapply mean_element; [apply (element_default ns [[]] (text "r"))|constructor|constructor|]. rewrite <- (app_nil_r b). constructor; auto. constructor; auto. constructor.
    + eauto.
    + constructor.
  - constructor; auto.
  - intros _ r E. discriminate.
Qed.
(** [xmlns=""] takes the default namespace back, but the parser gives the element the namespace "". *)
Theorem C41_names_refuted : exists ns x doc s, writes_document ns x doc s /\ (d_version doc = [] -> forall r, s <> text "<?xml" ++ r) /\ parse ns s <> Good doc [].
Proof.
  exists (Some (text "u")), (S_ELEMENT (mkName None (text "a")) [(mkName None (text "xmlns"), [])] []), (mkDoc [] [] [] [ELEMENT (mkQ None (text "a")) [(mkQ None (text "xmlns"), [])] []]), (text "<a xmlns=''/>").
  split; [|split].
  - assert (E : text "<a xmlns=''/>" = ([] ++ []) ++ (text "<" ++ name_text (mkName None (text "a")) ++ (text " " ++ (name_text (mkName None (text "xmlns")) ++ text "=" ++ 39%N :: [] ++ [39%N]) ++ []) ++ text "/>") ++ []) by reflexivity.
    rewrite E. apply (document_written _ [] [] [] []).
    + apply prolog_written; [now right|constructor].
    + apply item_empty; [literal|]. apply attrs_next; [literal|discriminate|apply attr_written; [literal|auto|constructor]|]. constructor. constructor.
    + eapply mean_element; [apply (element_default (Some (text "u")) [[(mkName None (text "xmlns"), [])]] (text "a"))|constructor; [constructor; constructor|constructor]| |constructor].
      constructor; [intros []|constructor].
    + eauto.
    + constructor.
  - intros _ r E. discriminate.
  - vm_compute. discriminate.
Qed.

(** ** C92: every text is read to an end *)
Theorem C92_parsing_ends ns s : (exists doc r, parse ns s = Good doc r /\ length r <= length s) \/ parse ns s = Bad.
Proof. pose proof (fine_parse ns s) as F. destruct (parse ns s) as [d r| |]; cbn in F; [left; eauto|auto|contradiction]. Qed.
Example C92_both : (exists d, parse None sample = Good d []) /\ parse None (text "<a><b></a>") = Bad.
Proof. split; [eexists; vm_compute; reflexivity|reflexivity]. Qed.

(** ** C93: characters reach the document however they are written *)
Theorem C93_text ns v s : writes_text v s -> parse ns (text "<a>" ++ s ++ text "</a>") = Good (mkDoc [] [] [] [ELEMENT (mkQ ns (text "a")) [] (nodes_of v)]) [].
Proof.
  intros W. apply (document_read ns (S_ELEMENT (mkName None (text "a")) [] (text_of v))).
  - replace (text "<a>" ++ s ++ text "</a>") with (([] ++ []) ++ (text "<" ++ name_text (mkName None (text "a")) ++ [] ++ text ">" ++ s ++ text "</" ++ name_text (mkName None (text "a")) ++ [] ++ text ">") ++ []).
    2:{ cbn [app name_text n_prefix n_local]. rewrite !app_nil_r. change (text "<a>") with (text "<" ++ text "a" ++ text ">"). rewrite <- !app_assoc. reflexivity. }
    apply (document_written ns [] [] [] [] ([] ++ []) _ _ (ELEMENT (mkQ ns (text "a")) [] (nodes_of v)) []).
    + apply prolog_written; [now right|constructor].
    + apply item_element; [literal|constructor; constructor|now constructor|constructor].
    + eapply mean_element; [apply (element_default ns [[]] (text "a"))|constructor|constructor|]. destruct v as [|c v]; cbn [text_of nodes_of]; [constructor|].
      change [TEXT (c :: v)] with ([TEXT (c :: v)] ++ []). constructor; constructor.
    + eauto.
    + constructor.
  - constructor; auto. destruct v; repeat constructor.
  - intros _ r E. discriminate.
Qed.
Theorem C93_attribute ns v q s : q = 34%N \/ q = 39%N -> writes_value q v s ->
  parse ns (text "<a b=" ++ (q :: s ++ [q]) ++ text "/>") = Good (mkDoc [] [] [] [ELEMENT (mkQ ns (text "a")) [(mkQ None (text "b"), v)] []]) [].
Proof.
  intros Q W. apply (document_read ns (S_ELEMENT (mkName None (text "a")) [(mkName None (text "b"), v)] [])).
  - replace (text "<a b=" ++ (q :: s ++ [q]) ++ text "/>") with (([] ++ []) ++ (text "<" ++ name_text (mkName None (text "a")) ++ (text " " ++ (name_text (mkName None (text "b")) ++ text "=" ++ q :: s ++ [q]) ++ []) ++ text "/>") ++ []).
    2:{ cbn [app name_text n_prefix n_local]. rewrite !app_nil_r. change (text "<a b=") with (text "<" ++ text "a" ++ text " " ++ text "b" ++ text "="). rewrite <- !app_assoc. cbn [app]. rewrite <- !app_assoc. reflexivity. }
    apply (document_written ns [] [] [] [] ([] ++ []) _ _ (ELEMENT (mkQ ns (text "a")) [(mkQ None (text "b"), v)] []) []).
    + apply prolog_written; [now right|constructor].
    + apply item_empty; [literal|]. apply attrs_next; [literal|discriminate|apply attr_written; [literal|exact Q|exact W]|]. constructor. constructor.
    + eapply mean_element; [apply (element_default ns [[(mkName None (text "b"), v)]] (text "a"))|constructor; [constructor; constructor|constructor]| |constructor]. constructor; [intros []|constructor].
    + eauto.
    + constructor.
  - constructor; auto. intros [F|[]]. discriminate.
  - intros _ r E. discriminate.
Qed.
(** Every text can be written: with these five characters escaped, it reads back. *)
Definition escape (v : str) : str :=
  flat_map (fun c => if N.eqb c 38 then text "&amp;" else if N.eqb c 60 then text "&lt;" else if N.eqb c 62 then text "&gt;" else if N.eqb c 34 then text "&quot;" else if N.eqb c 39 then text "&apos;" else [c]) v.
Lemma escape_char c v s (P : str -> str -> Prop) :
  (forall t, writes_ref c t -> P (c :: v) (t ++ s)) -> (c <> 38%N -> c <> 60%N -> c <> 62%N -> c <> 34%N -> c <> 39%N -> P (c :: v) (c :: s)) -> P (c :: v) (escape [c] ++ s).
Proof.
  intros R N. unfold escape. cbn [flat_map]. rewrite app_nil_r.
  destruct (N.eqb_spec c 38); [subst; apply R, (ref_entity 38 "amp"); cbn; auto|]. destruct (N.eqb_spec c 60); [subst; apply R, (ref_entity 60 "lt"); cbn; auto|].
  destruct (N.eqb_spec c 62); [subst; apply R, (ref_entity 62 "gt"); cbn; auto|]. destruct (N.eqb_spec c 34); [subst; apply R, (ref_entity 34 "quot"); cbn; auto 8|].
  destruct (N.eqb_spec c 39); [subst; apply R, (ref_entity 39 "apos"); cbn; auto 8|]. auto.
Qed.
Lemma escape_cons c v : escape (c :: v) = escape [c] ++ escape v. Proof. unfold escape. cbn [flat_map]. now rewrite app_nil_r. Qed.
Lemma escape_no_gt v : ~ In 62%N (escape v).
Proof.
  induction v as [|c v IH]; [intros []|]. rewrite escape_cons, in_app_iff. intros [I|I]; auto. revert I. unfold escape. cbn [flat_map]. rewrite app_nil_r.
  repeat match goal with |- context [N.eqb c ?k] => destruct (N.eqb_spec c k); [vm_compute; intuition discriminate|] end. intros [F|[]]. congruence.
Qed.
Lemma escape_text v : writes_text v (escape v).
Proof.
  induction v as [|c v IH]; [constructor|]. rewrite escape_cons. apply (escape_char c v (escape v) writes_text).
  - intros t R. now constructor.
  - intros A B C _ _. constructor; auto. intros r E. apply (escape_no_gt v). change (text "]]>") with [93%N; 93%N; 62%N] in E. injection E as _ E. rewrite E. cbn. auto.
Qed.
Lemma escape_value q v : q = 34%N \/ q = 39%N -> writes_value q v (escape v).
Proof.
  intros Q. induction v as [|c v IH]; [constructor|]. rewrite escape_cons. apply (escape_char c v (escape v) (writes_value q)).
  - intros t R. now constructor.
  - intros A B _ C D. constructor; auto. destruct Q; subst; auto.
Qed.
Theorem C93_escaped ns v :
  parse ns (text "<a>" ++ escape v ++ text "</a>") = Good (mkDoc [] [] [] [ELEMENT (mkQ ns (text "a")) [] (nodes_of v)]) [] /\
  parse ns (text "<a b=" ++ (34%N :: escape v ++ [34%N]) ++ text "/>") = Good (mkDoc [] [] [] [ELEMENT (mkQ ns (text "a")) [(mkQ None (text "b"), v)] []]) [].
Proof. split; [apply C93_text, escape_text|apply C93_attribute; auto; apply escape_value; auto]. Qed.
Example C93_sample : escape (text "a<b>&'c""") = text "a&lt;b&gt;&amp;&apos;c&quot;" /\ writes_text (text "<<") (text "&lt;" ++ text "<![CDATA[<]]>").
Proof.
  split; [reflexivity|]. apply (text_ref 60 (text "&lt;")); [apply (ref_entity 60 "lt"); now left|]. apply (text_cdata (text "<") [] []); [|constructor]. literal.
Qed.
(** Line ends are not normalised, https://www.w3.org/TR/xml/#sec-line-ends; nor are white spaces of
    attributes, https://www.w3.org/TR/xml/#AVNormalize *)
Theorem C93_line_ends_refuted :
  parse None (text "<a>" ++ [120; 13; 10; 121]%N ++ text "</a>") <> parse None (text "<a>" ++ [120; 10; 121]%N ++ text "</a>") /\
  parse None (text "<a b='" ++ [120; 10; 121]%N ++ text "'/>") <> parse None (text "<a b='x y'/>").
Proof. split; vm_compute; discriminate. Qed.

(** ** C94: what is taken is well-formed *)

(** Full statement: the whole text is a well-formed document. This much is so: there is one root, start
    and end tags nest and have the same names, prefixes are declared, and the nodes are those that are
    written. *)
Theorem C94_tags_nest_partial ns s doc r : parse ns s = Good doc r ->
  exists pro t post x k k', s = pro ++ t ++ post ++ r /\ d_children doc = k ++ x :: k' /\ loose_prolog pro k /\ loose_misc post k' /\
    (loose_element ns [] t x \/ cut_tag ns t x /\ post ++ r = []).
Proof. apply parse_good. Qed.
Example C94_sample : parse None sample = Good sample_doc []. Proof. exact sample_reads. Qed.
Example C94_refused :
  parse None (text "<a><b></a></b>") = Bad /\ parse None (text "<p:a/>") = Bad /\ parse None (text "<a>") = Bad /\ parse None (text "text") = Bad /\
  parse None (text "<a>&unknown;</a>") = Bad /\ parse None (text "<a b=c/>") = Bad /\ parse None (text "<a><![CDATA[x</a>") = Bad.
Proof. repeat split; reflexivity. Qed.
(** What follows the root is not looked at, a tag may be cut off, an attribute may be given twice, values
    may have [<], a reference may be unknown, and an end tag may have another prefix. *)
Theorem C94_well_formed_refuted :
  (exists d, parse None (text "<a/><b/>") = Good d (text "<b/>")) /\
  (exists d, parse None (text "<a b='1'") = Good d []) /\
  (exists d, parse None (text "<a b='1' b='2'/>") = Good d [] /\ d_children d = [ELEMENT (mkQ None (text "a")) [(mkQ None (text "b"), text "2")] []]) /\
  (exists d, parse None (text "<a b='<'/>") = Good d []) /\ (exists d, parse None (text "<a b='&unknown;'/>") = Good d []) /\
  (exists d, parse None (text "<p:a xmlns:p='u' xmlns:q='u'></q:a>") = Good d []).
Proof. repeat split; eexists; try split; vm_compute; reflexivity. Qed.

(** ** C95: well-formed documents are taken *)
Theorem C95_documents_partial ns x doc s :
  writes_document ns x doc s -> keeps_default x -> (d_version doc = [] -> forall r, s <> text "<?xml" ++ r) -> exists d, parse ns s = Good d [].
Proof. intros. exists doc. now apply document_read with (x := x). Qed.
(** White space beside [=], a style sheet instruction before anything else, and an internal subset are
    refused. *)
Theorem C95_documents_refuted :
  parse None (text "<a b = '1'/>") = Bad /\ parse None (text "<?xml-stylesheet href='s.css'?><a/>") = Bad /\ parse None (text "<!DOCTYPE a [<!ENTITY e 'x'>]><a/>") = Bad /\
  (exists d, parse None (text "<a b='1'/>") = Good d []) /\ (exists d, parse None (text " <?xml-stylesheet href='s.css'?><a/>") = Good d []) /\ (exists d, parse None (text "<!DOCTYPE a><a/>") = Good d []).
Proof. repeat split; try reflexivity; eexists; vm_compute; reflexivity. Qed.

Print Assumptions C41_names_partial. Print Assumptions C41_siblings. Print Assumptions C41_names_refuted.
Print Assumptions C92_parsing_ends. Print Assumptions C93_text. Print Assumptions C93_attribute. Print Assumptions C93_escaped. Print Assumptions C93_line_ends_refuted.
Print Assumptions C94_tags_nest_partial. Print Assumptions C94_well_formed_refuted. Print Assumptions C95_documents_partial. Print Assumptions C95_documents_refuted.
