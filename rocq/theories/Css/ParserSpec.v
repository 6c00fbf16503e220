(** Style sheets as authors mean them, the tokens they are written with, and the tree the
    parser should build. *)
From Coq Require Import String List NArith Bool.
From Verif.Base Require Import Str.
From Verif.Css Require Import LexerModel ParserModel.
Import ListNotations.
Local Open Scope list_scope.
Local Open Scope N_scope.

(** ** Component values *)
Inductive bkind := Curly | Square | Paren.
Inductive cv :=
| CTok (t : token)
| CFunc (name : token) (l : list cv)
| CBlock (k : bkind) (l : list cv).

Definition opening (k : bkind) : token :=
  match k with
  | Curly => mkT LEFT_CURLY_BRACKET [123] | Square => mkT LEFT_SQUARE_BRACKET [91]
  | Paren => mkT LEFT_PARENTHESIS [40]
  end.
Definition closing (k : bkind) : token :=
  match k with
  | Curly => mkT RIGHT_CURLY_BRACKET [125] | Square => mkT RIGHT_SQUARE_BRACKET [93]
  | Paren => mkT RIGHT_PARENTHESIS [41]
  end.

Fixpoint render (v : cv) : list token :=
  match v with
  | CTok t => [t]
  | CFunc t l => t :: flat_map render l ++ [closing Paren]
  | CBlock k l => opening k :: flat_map render l ++ [closing k]
  end.
Fixpoint tree (v : cv) : sst :=
  match v with
  | CTok t => TOK t
  | CFunc t l => FUNC t (map tree l)
  | CBlock _ l => BLOCK (map tree l)
  end.

(** A token that stands for itself: no bracket, no function, no comment. *)
Definition plain (t : token) : bool :=
  match t_type t with
  | LEFT_CURLY_BRACKET | RIGHT_CURLY_BRACKET | LEFT_SQUARE_BRACKET | RIGHT_SQUARE_BRACKET
  | LEFT_PARENTHESIS | RIGHT_PARENTHESIS | FUNCTION | COMMENT | END_OF_FILE => false
  | _ => true
  end.
Fixpoint cv_ok (v : cv) : bool :=
  match v with
  | CTok t => plain t
  | CFunc t l => ttype_beq (t_type t) FUNCTION && forallb cv_ok l
  | CBlock _ l => forallb cv_ok l
  end.

Definition is_type (ty : ttype) (v : cv) : bool :=
  match v with CTok t => ttype_beq (t_type t) ty | _ => false end.
Definition is_ws (v : cv) : bool := is_type WHITESPACE v.

(** ** Declarations, rules and what may stand between them *)
Record importance := mkImp { imp_ws : list token; imp_word : token; imp_after : list token }.

Inductive item :=
| IDecl (name : token) (w : list token) (value : list cv) (imp : option importance)
| IRule (prefix : list cv) (body : list item)
| IAt (name : token) (prefix : list cv) (body : option (list item))  (** [None]: ended by [;] *)
| IGap (t : token).

Definition bang : token := mkT DELIM [33].
Definition render_imp (i : option importance) : list token :=
  match i with
  | None => []
  | Some i => bang :: imp_ws i ++ imp_word i :: imp_after i
  end.
Definition colon : token := mkT COLON [58].
Definition semicolon : token := mkT SEMICOLON [59].

Fixpoint render_item (i : item) : list token :=
  match i with
  | IDecl name w v imp => name :: w ++ colon :: flat_map render v ++ render_imp imp
  | IRule p b => flat_map render p ++ opening Curly :: flat_map render_item b ++ [closing Curly]
  | IAt t p (Some b) => t :: flat_map render p ++ opening Curly :: flat_map render_item b ++ [closing Curly]
  | IAt t p None => t :: flat_map render p ++ [semicolon]
  | IGap t => [t]
  end.

(** The trees of a list of items: white space around the components of a value is dropped,
    gaps have none. *)
Fixpoint tree_item (i : item) : list sst :=
  match i with
  | IDecl name _ v imp =>
      [DECL name (map tree (filter (fun v => negb (is_ws v)) v)) (match imp with Some _ => true | None => false end)]
  | IRule p b => [RULE None (map tree p) (flat_map tree_item b)]
  | IAt t p (Some b) => [RULE (Some t) (map tree p) (flat_map tree_item b)]
  | IAt t p None => [RULE (Some t) (map tree p) []]
  | IGap _ => []
  end.

Definition all_ws (l : list token) : bool := forallb (fun t => ttype_beq (t_type t) WHITESPACE) l.

(** A component of a value: no top-level semicolon, no top-level [!]. *)
Definition value_cv_ok (v : cv) : bool :=
  cv_ok v && negb (is_type SEMICOLON v) &&
  match v with CTok t => negb (ttype_beq (t_type t) DELIM && str_eqb (t_data t) [33]) | _ => true end.
Definition imp_ok (i : option importance) : bool :=
  match i with
  | None => true
  | Some i => all_ws (imp_ws i) && all_ws (imp_after i) &&
              ttype_beq (t_type (imp_word i)) IDENT && eq_ci (t_data (imp_word i)) (of_string "important")
  end.
Definition prefix_cv_ok (v : cv) : bool :=
  cv_ok v && match v with CBlock Curly _ => false | _ => true end.

(** A nested rule whose prelude reads [ident :] would be a declaration. *)
Fixpoint skip_ws (l : list cv) : list cv :=
  match l with v :: l' => if is_ws v then skip_ws l' else l | [] => [] end.
Definition looks_like_declaration (p : list cv) : bool :=
  match p with
  | v :: p' => is_type IDENT v && match skip_ws p' with v' :: _ => is_type COLON v' | [] => false end
  | [] => false
  end.
(** The prelude starts with something that cannot be skipped or taken for an at-rule. *)
Definition prelude_start_ok (p : list cv) : bool :=
  match p with
  | CTok t :: _ => match t_type t with
                   | WHITESPACE | SEMICOLON | AT_KEYWORD | CDO | CDC => false
                   | _ => true
                   end
  | _ => true
  end.

Definition ends_decl (rest : list item) : bool :=
  match rest with
  | [] => true
  | IGap t :: _ => ttype_beq (t_type t) SEMICOLON
  | _ => false
  end.
Definition is_decl (i : item) : bool := match i with IDecl _ _ _ _ => true | _ => false end.

(** Every declaration is followed by a semicolon or ends the list. *)
Fixpoint decls_ended (l : list item) : bool :=
  match l with
  | [] => true
  | i :: l' => (negb (is_decl i) || ends_decl l') && decls_ended l'
  end.

Fixpoint item_ok (i : item) : bool :=
  match i with
  | IDecl name w v imp =>
      ttype_beq (t_type name) IDENT && negb (str_eqb (t_data name) [38]) &&
      all_ws w && forallb value_cv_ok v && imp_ok imp
  | IRule p b =>
      forallb prefix_cv_ok p && prelude_start_ok p && negb (looks_like_declaration p) &&
      forallb item_ok b && decls_ended b
  | IAt t p body =>
      ttype_beq (t_type t) AT_KEYWORD && forallb (fun v => prefix_cv_ok v && negb (is_type SEMICOLON v)) p &&
      match body with Some b => forallb item_ok b && decls_ended b | None => true end
  | IGap t => match t_type t with WHITESPACE | SEMICOLON | COMMENT => true | _ => false end
  end.

(** At the top level there are no declarations, and no semicolons between rules. *)
Definition top_ok (i : item) : bool :=
  item_ok i && match i with
               | IDecl _ _ _ _ => false
               | IGap t => negb (ttype_beq (t_type t) SEMICOLON)
               | _ => true
               end.
