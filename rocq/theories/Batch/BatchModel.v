(** The command line tool: src/mod.cpp [runSingleAsync], [runBatchAsync] and [Option].

    What the tool does to the world is a list of events. Loading and writing may fail at any time and the
    answers may depend on all that happened before: the environment is a record of arbitrary functions.
    Cancelling is one of the ways to fail. The engine is left abstract: what it draws is written as a
    scene that names the document and the settings. Lengths are integers (Karm [Au] counts in fractions of
    a pixel), scales are ratios. *)
From Coq Require Import Ascii String List ZArith QArith Bool.
Import ListNotations.
Local Open Scope list_scope.

(** Karm [Ref::Url]: the scheme and the segments of the path. A name without a slash is appended by [/]. *)
Record url := mkUrl { u_scheme : string; u_path : list string }.
Definition join (u : url) (s : string) : url := mkUrl (u_scheme u) (u_path u ++ [s]).
(** Karm [Path::stem]: the last segment without its last suffix *)
Fixpoint before_dot (s : string) : option string :=
  match s with
  | EmptyString => None
  | String c r =>
    match before_dot r with
    | Some b => Some (String c b)
    | None => if Ascii.eqb c "."%char then Some EmptyString else None
    end
  end.
Definition stem_of (s : string) : string := match before_dot s with Some b => b | None => s end.
Definition stem (u : url) : string := stem_of (last (u_path u) EmptyString).

(** src/mod.cpp:30-35, 37-43, 45-50 *)
Inductive batch := CONCAT | SEPARATE.
Inductive flow := AUTO_FLOW | PAGINATE | CONTINUOUS.
Inductive extend := CROP | FIT.
Inductive orientation := PORTRAIT | LANDSCAPE.
(** Karm [Print::PaperStock] *)
Record stock := mkStock { minor : Z; major : Z }.
(** Margins of the settings: a named choice, or lengths. *)
Inductive margins := NAMED (n : nat) | LENGTHS (top right bottom left : Z).
(** A size that is not given is [AUTO_SIZE]. *)
Inductive size := AUTO_SIZE | LENGTH (z : Z).
(** src/mod.cpp:77-92 [Option]; the output format is its name and the suffix of its files; lengths are
    resolved *)
Record options := mkOpts {
  o_scale : Q; o_density : Q; o_width : option Z; o_height : option Z; o_background : option nat; o_stock : stock; o_orientation : orientation;
  o_margins : margins; o_pdf : bool; o_suffix : string; o_batch : batch; o_flow : flow; o_extend : extend;
  o_header : option url; o_footer : option url; o_header_size : size; o_footer_size : size }.

(** Karm [Print::Settings] as far as it is set *)
Record settings := mkSettings { s_stock : stock; s_orientation : orientation; s_margins : margins; s_scale : Q }.
(** src/mod.cpp:94-121 [derivePrintSettings]; Karm [PaperStock::custom] takes the minor and the major axis *)
Definition print_settings (o : options) : settings :=
  let st :=
    match o_width o, o_height o with
    | None, None => o_stock o
    | w, h => mkStock (match w with Some w => w | None => minor (o_stock o) end) (match h with Some h => h | None => major (o_stock o) end)
    end in
  mkSettings st (o_orientation o) (o_margins o) (o_scale o).
(** Karm [Print::Settings::pageSize]: landscape swaps the axes *)
Definition page_size (s : settings) : Z * Z :=
  match s_orientation s with PORTRAIT => (minor (s_stock s), major (s_stock s)) | LANDSCAPE => (major (s_stock s), minor (s_stock s)) end.
(** src/mod.cpp:123-131 [deriveMedia]; how many units Karm's [Au] has in a pixel is
    immaterial, 64 stands for it *)
Definition px (n : Z) : Z := (64 * n)%Z.
Definition media_size (o : options) : Z * Z :=
  (match o_width o with Some w => w | None => px 800 end, match o_height o with Some h => h | None => px 600 end).

Section Tool.
  (** Documents as they are loaded, and the bytes of an output. *)
  Variables doc bytes : Type.

  (** What is drawn: a document in a viewport with a resolution; a page of a printed document, with the
      header and the footer; a background behind a scene; a scaled scene. *)
  Inductive scene :=
  | RENDER (d : doc) (viewport : Z * Z) (resolution : Q)
  | PRINTED (d : doc) (s : settings) (area : Z * Z * Q) (header footer : option doc) (header_size footer_size : size) (page : nat)
  | CLEAR (s : scene) (color : nat)
  | SCALE (s : scene) (factor : Q).
  Record page := mkPage { pg_size : Z * Z; pg_scene : scene }.

  Inductive event :=
  | LOAD (u : url) (answer : option doc)
  | PUT (u : url) (body : bytes) (close : bool) (ok : bool).
  (** The environment and the engine. *)
  Record env := mkEnv {
    e_load : list event -> url -> option doc;
    e_put : list event -> url -> bytes -> bool -> bool;
    e_format : options -> bool; (* Karm [FilePrinter::create] knows the format *)
    e_encode : options -> list page -> option bytes; (* Karm [FilePrinter::write] *)
    e_pages : settings -> option doc -> option doc -> size -> size -> doc -> nat; (* how many pages it takes *)
    e_html : doc -> bool; (* the root is an element of HTML *)
    e_overflow : doc -> Z * Z -> Q -> Z * Z (* Fragment::scrollableOverflow *) }.
  Variable E : env.

  (** An action takes what happened and adds to it; it may fail. *)
  Definition act (A : Type) := list event -> list event * option A.
  Definition ret {A} (a : A) : act A := fun h => (h, Some a).
  Definition bind {A B} (m : act A) (f : A -> act B) : act B := fun h => match m h with (h, Some a) => f a h | (h, None) => (h, None) end.
  (** dom/window.cpp:49-66 [loadLocationAsync] *)
  Definition load (u : url) : act doc := fun h => let a := e_load E h u in (h ++ [LOAD u a], a).
  Definition load_opt (u : option url) : act (option doc) := match u with None => ret None | Some u => bind (load u) (fun d => ret (Some d)) end.
  Definition put (u : url) (b : bytes) (close : bool) : act unit := fun h => let ok := e_put E h u b close in (h ++ [PUT u b close ok], if ok then Some tt else None).
  Definition try_opt {A} (o : option A) : act A := fun h => (h, o).

  Definition white : nat := 0.
  (** driver/print.cpp:280-287: every page has the size of the settings and is scaled. The area that is
      divided into pages is that of driver/print.cpp:163. *)
  Definition printed (s : settings) (header footer : option doc) (hs fs : size) (d : doc) : list page :=
    map (fun n => mkPage (page_size s) (SCALE (PRINTED d s (page_size s, s_scale s) header footer hs fs n) (s_scale s))) (seq 1 (e_pages E s header footer hs fs d)).
  (** src/mod.cpp:232-264 *)
  Definition continuous (o : options) (d : doc) : page :=
    let v := media_size o in
    let s := RENDER d v (o_scale o) in
    let s := match o_background o with Some c => CLEAR s c | None => if e_html E d then CLEAR s white else s end in
    mkPage (match o_extend o with FIT => e_overflow E d v (o_scale o) | CROP => v end) s.
  (** src/mod.cpp:205-265, once everything is loaded *)
  Definition pages (o : options) (d : doc) (header footer : option doc) : list page :=
    match o_flow o with
    | PAGINATE => printed (print_settings o) header footer (o_header_size o) (o_footer_size o) d
    | _ => [continuous o d]
    end.
  (** src/mod.cpp:191-268 [runSingleAsync]: the pages that are printed *)
  Definition run_single (o : options) (input : url) : act (list page) :=
    bind (load input) (fun d =>
      match o_flow o with
      | PAGINATE =>
        bind (load_opt (o_header o)) (fun h =>
        bind (load_opt (o_footer o)) (fun f =>
          ret (pages o d h f)))
      | _ => ret (pages o d None None)
      end).
  (** src/mod.cpp:277-281 *)
  Definition set_flow (o : options) (f : flow) : options :=
    mkOpts (o_scale o) (o_density o) (o_width o) (o_height o) (o_background o) (o_stock o) (o_orientation o) (o_margins o) (o_pdf o) (o_suffix o) (o_batch o) f (o_extend o)
      (o_header o) (o_footer o) (o_header_size o) (o_footer_size o).
  Definition resolve_flow (o : options) : options :=
    match o_flow o with AUTO_FLOW => set_flow o (if o_pdf o then PAGINATE else CONTINUOUS) | _ => o end.
  Definition create (o : options) : act unit := try_opt (if e_format E o then Some tt else None).
  (** src/mod.cpp:292-299; the printer collects the pages *)
  Fixpoint run_all (o : options) (inputs : list url) (printer : list page) : act (list page) :=
    match inputs with
    | [] => ret printer
    | i :: r => bind (run_single o i) (fun p => run_all o r (printer ++ p))
    end.
  (** src/mod.cpp:312 *)
  Definition file_url (o : options) (output input : url) : url := join output (stem input ++ "." ++ o_suffix o)%string.
  (** src/mod.cpp:311-336 *)
  Fixpoint run_each (o : options) (output : url) (inputs : list url) : act unit :=
    match inputs with
    | [] => ret tt
    | i :: r =>
      bind (create o) (fun _ =>
      bind (run_single o i) (fun p =>
      bind (try_opt (e_encode E o p)) (fun b =>
      bind (put (file_url o output i) b (match r with [] => true | _ => false end)) (fun _ =>
        run_each o output r))))
    end.
  (** src/mod.cpp:270-340 [runBatchAsync] *)
  Definition run_batch (inputs : list url) (output : url) (o : options) : act unit :=
    let o := resolve_flow o in
    match o_batch o with
    | CONCAT =>
      bind (create o) (fun _ =>
      bind (run_all o inputs []) (fun p =>
      bind (try_opt (e_encode E o p)) (fun b =>
        put output b true)))
    | SEPARATE => run_each o output inputs
    end.
End Tool.
