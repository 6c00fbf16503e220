(** What is expected of a batch: which events there are, and in which order. *)
From Coq Require Import String List ZArith QArith Bool.
From Verif Require Import Batch.BatchModel.
Import ListNotations.
Local Open Scope list_scope.

(** The pages are those of the paginated flow *)
Definition paged (o : options) : bool := match o_flow o with PAGINATE => true | CONTINUOUS => false | AUTO_FLOW => o_pdf o end.

Section Spec.
  Context {doc bytes : Type}.
  Notation event := (event doc bytes).
  Notation page := (page doc).
  (** The document that is shown *)
  Fixpoint shown (s : scene doc) : doc :=
    match s with RENDER _ d _ _ => d | PRINTED _ d _ _ _ _ _ _ _ => d | CLEAR _ s _ => shown s | SCALE _ s _ => shown s end.

  (** A document that may be absent is loaded *)
  Inductive fetched : option url -> list event -> option doc -> Prop :=
  | fetched_none : fetched None [] None
  | fetched_some : forall u d, fetched (Some u) [LOAD doc bytes u (Some d)] (Some d).
  (** All that an input needs is loaded: the input, then the header, then the footer *)
  Inductive reads (o : options) (i : url) : list event -> doc -> option doc -> option doc -> Prop :=
  | reads_continuous : forall d, paged o = false -> reads o i [LOAD doc bytes i (Some d)] d None None
  | reads_paged : forall d eh h ef f, paged o = true -> fetched (o_header o) eh h -> fetched (o_footer o) ef f ->
    reads o i (LOAD doc bytes i (Some d) :: eh ++ ef) d h f.
  (** One of them can not be loaded, and the rest is not tried *)
  Inductive stuck (o : options) (i : url) : list event -> Prop :=
  | stuck_input : stuck o i [LOAD doc bytes i None]
  | stuck_header : forall d u, paged o = true -> o_header o = Some u -> stuck o i [LOAD doc bytes i (Some d); LOAD doc bytes u None]
  | stuck_footer : forall d eh h u, paged o = true -> fetched (o_header o) eh h -> o_footer o = Some u ->
    stuck o i (LOAD doc bytes i (Some d) :: eh ++ [LOAD doc bytes u None]).

  Definition is_put (e : event) : bool := match e with PUT _ _ _ _ _ _ => true | _ => false end.
  Definition closing (e : event) : bool := match e with PUT _ _ _ _ c _ => c | _ => false end.
  Definition put_url (e : event) : option url := match e with PUT _ _ u _ _ _ => Some u | _ => None end.

  Variable E : env doc bytes.
  (** What an input comes to, when it is alone: the events and the pages *)
  Definition yields (o : options) (i : url) (evs : list event) (ps : list page) : Prop :=
    exists d h f, reads o i evs d h f /\ ps = pages doc bytes E (resolve_flow o) d h f.
  (** An input is written to a file of its own *)
  Definition served (o : options) (output : url) (ic : url * bool) (evs : list event) : Prop :=
    exists ld ps b, yields o (fst ic) ld ps /\ e_encode _ _ E (resolve_flow o) ps = Some b /\
      evs = ld ++ [PUT doc bytes (join output (stem (fst ic) ++ "." ++ o_suffix o)%string) b (snd ic) true].
  (** An input is not written: something is not loaded, or the pages can not be made a file, or the file
      is refused *)
  Inductive spoilt (o : options) (output : url) (ic : url * bool) : list event -> Prop :=
  | spoilt_load : forall evs, stuck o (fst ic) evs -> spoilt o output ic evs
  | spoilt_format : e_format _ _ E (resolve_flow o) = false -> spoilt o output ic []
  | spoilt_encode : forall ld ps, yields o (fst ic) ld ps -> e_encode _ _ E (resolve_flow o) ps = None -> spoilt o output ic ld
  | spoilt_put : forall ld ps b, yields o (fst ic) ld ps -> e_encode _ _ E (resolve_flow o) ps = Some b ->
    spoilt o output ic (ld ++ [PUT doc bytes (join output (stem (fst ic) ++ "." ++ o_suffix o)%string) b (snd ic) false]).
  (** Only the last of the inputs closes the connection *)
  Definition flags (n : nat) : list bool := repeat false (pred n) ++ [true].
End Spec.
