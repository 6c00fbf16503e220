(** C90: tokens cover the source. C91: which token is taken. *)
From Coq Require Import String Ascii List Arith NArith Bool Lia.
From Verif.Script Require Import LexModel.
Import ListNotations.

Definition punctuators : list (string * token) := one ++ two ++ three ++ four.
Definition entries : list (string * token) := keywords ++ punctuators.
(** The source begins with this text. *)
Definition prefix (p s : list N) : Prop := exists r, s = p ++ r.
Lemma starts_spec p s : starts p s = true <-> prefix p s.
Proof.
  revert s. induction p as [|a p IH]; intros s; cbn.
  - split; [exists s; reflexivity|reflexivity].
  - destruct s as [|b s].
    + split; [discriminate|intros [r C]; discriminate].
    + rewrite andb_true_iff, N.eqb_eq, IH. split.
      * intros [-> [r ->]]. exists r. reflexivity.
      * intros [r C]. injection C as -> ->. split; [reflexivity|exists r; reflexivity].
Qed.
Lemma first_some l s x : first l s = Some x -> In x l /\ prefix (text (fst x)) s.
Proof. intros H. apply find_some in H as [H1 H2]. split; [exact H1|now apply starts_spec]. Qed.
Lemma first_none l s : first l s = None -> forall x, In x l -> ~ prefix (text (fst x)) s.
Proof. intros H x Hx Hp. apply starts_spec in Hp. unfold first in H. pose proof (find_none _ _ H x Hx) as C. cbn in C. congruence. Qed.
Lemma take_prefix x s : prefix (text (fst x)) s -> i_type (take x s) = snd x /\ i_data (take x s) = text (fst x) /\ s = i_data (take x s) ++ i_rest (take x s).
Proof. intros [r ->]. unfold take. cbn [i_type i_data i_rest]. rewrite firstn_app, firstn_all, Nat.sub_diag, skipn_app, skipn_all, Nat.sub_diag. cbn [firstn skipn app]. rewrite app_nil_r. auto. Qed.
Definition unfit (l : list (string * token)) (s : list N) : Prop := forall y, In y l -> ~ prefix (text (fst y)) s.
Definition fits (l : list (string * token)) (s : list N) : Prop := exists x, In x l /\ prefix (text (fst x)) s /\ next s = take x s.
Lemma next_cases c r : let s := c :: r in
  fits keywords s \/ unfit keywords s /\ (fits four s \/ unfit four s /\ (fits three s \/ unfit three s /\ (fits two s \/ unfit two s /\ (fits one s \/ unfit one s /\ next s = mkItem T_INVALID [c] r)))).
Proof.
  intros s. pose proof (eq_refl (next s)) as E. unfold next at 2 in E. unfold s at 2 in E. fold s in E.
  destruct (first keywords s) as [x|] eqn:E1; [left; exists x; destruct (first_some _ _ _ E1); auto|right; split; [exact (first_none _ _ E1)|]].
  destruct (first four s) as [x|] eqn:E2; [left; exists x; destruct (first_some _ _ _ E2); auto|right; split; [exact (first_none _ _ E2)|]].
  destruct (first three s) as [x|] eqn:E3; [left; exists x; destruct (first_some _ _ _ E3); auto|right; split; [exact (first_none _ _ E3)|]].
  destruct (first two s) as [x|] eqn:E4; [left; exists x; destruct (first_some _ _ _ E4); auto|right; split; [exact (first_none _ _ E4)|]].
  destruct (first one s) as [x|] eqn:E5; [left; exists x; destruct (first_some _ _ _ E5); auto|right; split; [exact (first_none _ _ E5)|]]. exact E.
Qed.
Definition sizes (l : list (string * token)) (n : nat) : Prop := forall x, In x l -> length (text (fst x)) = n.
Lemma sizes_all : sizes one 1 /\ sizes two 2 /\ sizes three 3 /\ sizes four 4.
Proof.
  assert (forall l n, forallb (fun x => length (text (fst x)) =? n) l = true -> sizes l n) as K by (intros l n H x Hx; rewrite forallb_forall in H; apply Nat.eqb_eq, (H x Hx)).
  repeat split; apply K; vm_compute; reflexivity.
Qed.
Lemma entry_nonempty x : In x entries -> text (fst x) <> [].
Proof.
  intros H. assert (forallb (fun x => negb (length (text (fst x)) =? 0)) entries = true) as F by (vm_compute; reflexivity). rewrite forallb_forall in F. specialize (F x H). intros C. rewrite C in F. discriminate.
Qed.
Lemma entry_type x : In x entries -> snd x <> T_END_OF_FILE /\ snd x <> T_INVALID.
Proof.
  intros H. assert (forallb (fun x => match snd x with T_END_OF_FILE | T_INVALID => false | _ => true end) entries = true) as F by (vm_compute; reflexivity). rewrite forallb_forall in F. specialize (F x H). split; intros C; rewrite C in F; discriminate.
Qed.
Lemma in_entries : forall x, (In x keywords -> In x entries) /\ (In x four -> In x entries) /\ (In x three -> In x entries) /\ (In x two -> In x entries) /\ (In x one -> In x entries).
Proof. intros x. unfold entries, punctuators. rewrite !in_app_iff. tauto. Qed.
(** A token, with the text it stands for. *)
Definition well_typed (t : token) (d : list N) : Prop := (exists x, In x entries /\ text (fst x) = d /\ snd x = t) \/ t = T_INVALID /\ length d = 1.
Lemma next_spec c r : let x := next (c :: r) in c :: r = i_data x ++ i_rest x /\ i_data x <> [] /\ well_typed (i_type x) (i_data x) /\ (i_type x = T_INVALID <-> unfit entries (c :: r)).
Proof.
  cbv zeta. assert (forall l, (forall x, In x l -> In x entries) -> fits l (c :: r) -> c :: r = i_data (next (c :: r)) ++ i_rest (next (c :: r)) /\ i_data (next (c :: r)) <> [] /\ well_typed (i_type (next (c :: r))) (i_data (next (c :: r))) /\ (i_type (next (c :: r)) = T_INVALID <-> unfit entries (c :: r))) as K.
  { intros l Hl (x & Hx & Hp & ->). destruct (take_prefix x _ Hp) as (E1 & E2 & E3). specialize (Hl x Hx). split; [exact E3|]. rewrite E1, E2. split; [now apply entry_nonempty|]. split; [left; exists x; auto|]. split; [intros C; destruct (entry_type x Hl); contradiction|intros U; destruct (U x Hl Hp)]. }
  destruct (next_cases c r) as [H|[U1 [H|[U2 [H|[U3 [H|[U4 [H|[U5 E]]]]]]]]]]; try (refine (K _ _ H); intros x; destruct (in_entries x) as (? & ? & ? & ? & ?); assumption).
  rewrite E. cbn [i_data i_rest i_type]. split; [reflexivity|]. split; [discriminate|]. split; [right; auto|]. split; [intros _|reflexivity]. intros y Hy. unfold entries, punctuators in Hy. rewrite !in_app_iff in Hy. destruct Hy as [Hy|[Hy|[Hy|[Hy|Hy]]]]; [now apply U1|now apply U5|now apply U4|now apply U3|now apply U2].
Qed.

(** Reading tokens ends; put together they are the source, nothing is lost or made up, and each token has
    the type of its text. *)
Theorem C90_cover : forall s, exists l, tokens (length s) s = Some l /\ concat (map snd l) = s /\ Forall (fun x => snd x <> [] /\ well_typed (fst x) (snd x)) l.
Proof.
  intros s. assert (forall n s, length s <= n -> exists l, tokens n s = Some l /\ concat (map snd l) = s /\ Forall (fun x => snd x <> [] /\ well_typed (fst x) (snd x)) l) as K; [|now apply K].
  induction n as [|n IH]; intros u L.
  - destruct u; [exists []; repeat split; constructor|cbn in L; lia].
  - destruct u as [|c r]; [exists []; repeat split; constructor|]. cbn [tokens]. destruct (next_spec c r) as (E & Ne & T & _). destruct (IH (i_rest (next (c :: r)))) as (l & El & Cl & Fl).
    + apply (f_equal (@length N)) in E. rewrite app_length in E. cbn [length] in *. destruct (i_data (next (c :: r))); [congruence|cbn [length] in E; lia].
    + rewrite El. eexists. split; [reflexivity|]. cbn [map concat snd]. split; [now rewrite Cl|]. constructor; [cbn; auto|exact Fl].
Qed.
Print Assumptions C90_cover.
Local Open Scope string_scope.
Example C90_sample : tokens 12 (text "a>>>=b??=if(") = Some [(T_INVALID, text "a"); (T_UNSIGNED_SHIFT_RIGHT_EQUALS, text ">>>="); (T_INVALID, text "b"); (T_DOUBLE_QUESTION_MARK_EQUALS, text "??="); (T_IF, text "if"); (T_PAREN_OPEN, text "(")].
Proof. vm_compute. reflexivity. Qed.

(** Where no keyword begins, the longest punctuator is taken; a token is invalid only if none fits. *)
Theorem C91_longest : forall s p, s <> [] -> unfit keywords s -> In p punctuators -> prefix (text (fst p)) s ->
  let x := next s in length (text (fst p)) <= length (i_data x) /\ i_type x <> T_INVALID.
Proof.
  intros [|c r] p Ns U1 Hp Pp; [congruence|]. cbv zeta. split.
  - destruct sizes_all as (S1 & S2 & S3 & S4). unfold punctuators in Hp. rewrite !in_app_iff in Hp.
    assert (forall l n, sizes l n -> fits l (c :: r) -> length (i_data (next (c :: r))) = n) as K by (intros l n Sl (x & Hx & Px & ->); destruct (take_prefix x _ Px) as (_ & -> & _); now apply Sl).
    destruct (next_cases c r) as [(x & Hx & Px & _)|[_ [H|[U2 [H|[U3 [H|[U4 [H|[U5 E]]]]]]]]]]; [destruct (U1 x Hx Px)|rewrite (K _ _ S4 H)|rewrite (K _ _ S3 H)|rewrite (K _ _ S2 H)|rewrite (K _ _ S1 H)|];
      destruct Hp as [Hp|[Hp|[Hp|Hp]]]; rewrite ?(S1 p Hp), ?(S2 p Hp), ?(S3 p Hp), ?(S4 p Hp); try lia; exfalso; try (now apply (U2 p)); try (now apply (U3 p)); try (now apply (U4 p)); now apply (U5 p).
  - destruct (next_spec c r) as (_ & _ & _ & H). rewrite H. intros U. apply (U p); [|exact Pp]. unfold entries. apply in_app_iff. now right.
Qed.
Print Assumptions C91_longest.
Example C91_sample : unfit keywords (text ">>>=x") /\ i_type (next (text ">>>=x")) = T_UNSIGNED_SHIFT_RIGHT_EQUALS.
Proof.
  split; [|vm_compute; reflexivity]. intros y Hy Hp. apply starts_spec in Hp. assert (forallb (fun y => negb (starts (text (fst y)) (text ">>>=x"))) keywords = true) as F by (vm_compute; reflexivity). rewrite forallb_forall in F. specialize (F y Hy). rewrite Hp in F. discriminate.
Qed.
(** A keyword is taken as one, whatever comes after it; but for [instanceof]. *)
Theorem C91_keyword_partial : forall k r, In k keywords -> fst k <> "instanceof" -> let x := next (text (fst k) ++ r)%list in i_type x = snd k /\ i_data x = text (fst k) /\ i_rest x = r.
Proof.
  intros k r H N. repeat (destruct H as [<-|H]; [first [exact (False_ind _ (N eq_refl)) | (vm_compute; auto)]|]). destruct H.
Qed.
Print Assumptions C91_keyword_partial.
(** [instanceof] is never read as one token, and the beginnings of names are read as keywords. *)
Theorem C91_keyword_refuted : i_type (next (text "instanceof")) = T_IN /\ (forall s, i_type (next s) <> T_INSTANCEOF) /\ i_type (next (text "index")) = T_IN /\ i_type (next (text "format")) = T_FOR.
Proof.
  split; [vm_compute; reflexivity|]. split; [|split; vm_compute; reflexivity].
  intros [|c r] E; [discriminate|]. destruct (next_spec c r) as (Es & _ & [(x & Hx & Ex & Et)|[Et _]] & _); [|congruence]. rewrite E in Et.
  assert (forallb (fun x => match snd x with T_INSTANCEOF => String.eqb (fst x) "instanceof" | _ => true end) entries = true) as F by (vm_compute; reflexivity). rewrite forallb_forall in F. specialize (F x Hx). rewrite Et in F. apply String.eqb_eq in F. rewrite F in Ex. rewrite <- Ex in Es.
  assert (next (text "instanceof" ++ i_rest (next (c :: r)))%list = mkItem T_IN (text "in") (text "stanceof" ++ i_rest (next (c :: r)))%list) as C by reflexivity. rewrite <- Es in C. rewrite C in E. discriminate.
Qed.
Print Assumptions C91_keyword_refuted.

(** ** The words, written again: what each type of token stands for *)
Definition spelling (t : token) : list string :=
  match t with
  | T_AMPERSAND => ["&"]
  | T_ASTERISK => ["*"]
  | T_BRACKET_OPEN => ["["]
  | T_BRACKET_CLOSE => ["]"]
  | T_CARET => ["^"]
  | T_COLON => [":"]
  | T_COMMA => [","]
  | T_CURLY_OPEN => ["{"]
  | T_CURLY_CLOSE => ["}"]
  | T_EQUALS => ["="]
  | T_EXCLAMATION_MARK => ["!"]
  | T_MINUS => ["-"]
  | T_PAREN_OPEN => ["("]
  | T_PAREN_CLOSE => [")"]
  | T_PERCENT => ["%"]
  | T_PERIOD => ["."]
  | T_PIPE => ["|"]
  | T_PLUS => ["+"]
  | T_QUESTION_MARK => ["?"]
  | T_SEMICOLON => [";"]
  | T_SLASH => ["/"]
  | T_TILDE => ["~"]
  | T_LESS_THAN => ["<"]
  | T_GREATER_THAN => [">"]
  | T_ARROW => ["=>"]
  | T_PLUS_EQUALS => ["+="]
  | T_MINUS_EQUALS => ["-="]
  | T_ASTERISK_EQUALS => ["*="]
  | T_SLASH_EQUALS => ["/="]
  | T_PERCENT_EQUALS => ["%="]
  | T_AMPERSAND_EQUALS => ["&="]
  | T_PIPE_EQUALS => ["|="]
  | T_CARET_EQUALS => ["^="]
  | T_DOUBLE_AMPERSAND => ["&&"]
  | T_DOUBLE_PIPE => ["||"]
  | T_DOUBLE_QUESTION_MARK => ["??"]
  | T_DOUBLE_ASTERISK => ["**"]
  | T_EQUALS_EQUALS => ["=="]
  | T_LESS_THAN_EQUALS => ["<="]
  | T_GREATER_THAN_EQUALS => [">="]
  | T_EXCLAMATION_MARK_EQUALS => ["!="]
  | T_MINUS_MINUS => ["--"]
  | T_PLUS_PLUS => ["++"]
  | T_SHIFT_LEFT => ["<<"]
  | T_SHIFT_RIGHT => [">>"]
  | T_QUESTION_MARK_PERIOD => ["?."]
  | T_EQUALS_EQUALS_EQUALS => ["==="]
  | T_EXCLAMATION_MARK_EQUALS_EQUALS => ["!=="]
  | T_DOUBLE_ASTERISK_EQUALS => ["**="]
  | T_SHIFT_LEFT_EQUALS => ["<<="]
  | T_SHIFT_RIGHT_EQUALS => [">>="]
  | T_DOUBLE_AMPERSAND_EQUALS => ["&&="]
  | T_DOUBLE_PIPE_EQUALS => ["||="]
  | T_DOUBLE_QUESTION_MARK_EQUALS => ["??="]
  | T_UNSIGNED_SHIFT_RIGHT => [">>>"]
  | T_TRIPLE_DOT => ["..."]
  | T_UNSIGNED_SHIFT_RIGHT_EQUALS => [">>>="]
  | T_ASYNC => ["async"]
  | T_AWAIT => ["await"]
  | T_BREAK => ["break"]
  | T_CASE => ["case"]
  | T_CATCH => ["catch"]
  | T_CLASS => ["class"]
  | T_CONST => ["const"]
  | T_CONTINUE => ["continue"]
  | T_DEBUGGER => ["debugger"]
  | T_DEFAULT => ["default"]
  | T_DELETE => ["delete"]
  | T_DO => ["do"]
  | T_ELSE => ["else"]
  | T_ENUM => ["enum"]
  | T_EXPORT => ["export"]
  | T_EXTENDS => ["extends"]
  | T_BOOL_LITERAL => ["false"; "true"]
  | T_FINALLY => ["finally"]
  | T_FOR => ["for"]
  | T_FUNCTION => ["function"]
  | T_IF => ["if"]
  | T_IMPORT => ["import"]
  | T_IN => ["in"]
  | T_INSTANCEOF => ["instanceof"]
  | T_LET => ["let"]
  | T_NEW => ["new"]
  | T_NULL_LITERAL => ["null"]
  | T_RETURN => ["return"]
  | T_SUPER => ["super"]
  | T_SWITCH => ["switch"]
  | T_THIS => ["this"]
  | T_THROW => ["throw"]
  | T_TRY => ["try"]
  | T_TYPEOF => ["typeof"]
  | T_VAR => ["var"]
  | T_VOID => ["void"]
  | T_WHILE => ["while"]
  | T_WITH => ["with"]
  | T_YIELD => ["yield"]
  | _ => []
  end.
(** https://tc39.es/ecma262/#prod-Punctuator, #prod-DivPunctuator, #prod-RightBracePunctuator *)
Definition es_punctuators : list string := ["{"; "}"; "("; ")"; "["; "]"; "."; "..."; ";"; ","; "<"; ">"; "<="; ">="; "=="; "!="; "==="; "!=="; "+"; "-"; "*"; "/"; "%"; "**"; "++"; "--"; "<<"; ">>"; ">>>"; "&"; "|"; "^"; "!"; "~"; "&&"; "||"; "??"; "?"; "?."; ":"; "="; "+="; "-="; "*="; "/="; "%="; "**="; "<<="; ">>="; ">>>="; "&="; "|="; "^="; "&&="; "||="; "??="; "=>"].
(** https://tc39.es/ecma262/#prod-ReservedWord *)
Definition es_reserved : list string := ["await"; "break"; "case"; "catch"; "class"; "const"; "continue"; "debugger"; "default"; "delete"; "do"; "else"; "enum"; "export"; "extends"; "false"; "finally"; "for"; "function"; "if"; "import"; "in"; "instanceof"; "new"; "null"; "return"; "super"; "switch"; "this"; "throw"; "true"; "try"; "typeof"; "var"; "void"; "while"; "with"; "yield"].
(** A token has a type that stands for its text. *)
Theorem C91_types : forall s, i_type (next s) = T_INVALID \/ i_type (next s) = T_END_OF_FILE \/ exists w, In w (spelling (i_type (next s))) /\ i_data (next s) = text w.
Proof.
  intros [|c r]; [auto|]. destruct (next_spec c r) as (_ & _ & [(x & Hx & Ex & Et)|[Et _]] & _); [|auto]. right. right. exists (fst x). split; [|auto]. rewrite <- Et.
  assert (F : forallb (fun x => existsb (String.eqb (fst x)) (spelling (snd x))) entries = true) by (vm_compute; reflexivity). rewrite forallb_forall in F. specialize (F x Hx).
  apply existsb_exists in F as (w & Iw & Ew). apply String.eqb_eq in Ew. now rewrite Ew.
Qed.
Print Assumptions C91_types.
(** Types stand for different texts, so that the type tells which; [true] and [false] have one type. *)
Theorem C91_types_differ : forall t u w, In w (spelling t) -> In w (spelling u) -> t = u.
Proof.
  assert (F : forall t w, In w (spelling t) -> option_map snd (find (fun x => String.eqb w (fst x)) entries) = Some t).
  { intros t w. destruct t; cbn [spelling]; intros H; repeat (destruct H as [<-|H]; [vm_compute; reflexivity|]); destruct H. }
  intros t u w A B. apply F in A. apply F in B. congruence.
Qed.
Print Assumptions C91_types_differ.
(** All punctuators and reserved words are tokens, but for [instanceof]. *)
Theorem C91_all_words_partial : forall w, In w (es_punctuators ++ es_reserved)%list -> w <> "instanceof" -> i_data (next (text w)) = text w /\ In w (spelling (i_type (next (text w)))).
Proof.
  assert (F : forallb (fun w => String.eqb w "instanceof" || (if list_eq_dec N.eq_dec (i_data (next (text w))) (text w) then true else false) && existsb (String.eqb w) (spelling (i_type (next (text w)))))%bool (es_punctuators ++ es_reserved)%list = true) by (vm_compute; reflexivity).
  intros w H N. rewrite forallb_forall in F. specialize (F w H). apply orb_prop in F as [F|F]; [apply String.eqb_eq in F; contradiction|]. apply andb_prop in F as [A B].
  destruct (list_eq_dec N.eq_dec (i_data (next (text w))) (text w)); [|discriminate]. split; auto. apply existsb_exists in B as (x & Ix & Ex). apply String.eqb_eq in Ex. now subst.
Qed.
Print Assumptions C91_all_words_partial.
Example C91_words : In ">>>=" es_punctuators /\ In "typeof" es_reserved /\ spelling T_TYPEOF = ["typeof"]. Proof. split; [|split]; [cbn; tauto|cbn; tauto|reflexivity]. Qed.
