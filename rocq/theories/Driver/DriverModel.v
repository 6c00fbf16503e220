(** WebDriver sessions: vaev-webdriver/driver.cpp, the handlers of vaev-webdriver/service.cpp that give
    them their arguments, and vaev-engine/dom/window.cpp:24-77.

    Requests are handled concurrently. A command runs without interruption up to where it waits for a
    document to be fetched; there other commands run, and what follows happens later. A schedule is a
    list of events: a command that begins, or a fetch that ends well or not (errors and cancellation).

    Identifiers of sessions, windows and tasks are numbers that were not used before; [Uuid::v4] is
    assumed never to give the same value twice. URLs are numbers, 0 is about:blank; the document that a
    fetch gives is named by its URL. A session that is not registered any more cannot be seen from
    outside, so windows that are added to it are dropped. *)
From Coq Require Import List Arith ZArith Bool.
Import ListNotations.

(** protocol.cpp:61-65, in milliseconds *)
Record timeouts := mkT { t_script : Z; t_load : Z; t_implicit : Z }.
Definition default_timeouts : timeouts := mkT 30000 300000 0.
(** window.cpp:24-30: the document, if there is one, and the size of the viewport *)
Record window := mkW { w_doc : option nat; w_width : Z; w_height : Z }.
(** window.cpp:35-37, style/media.cpp:196-198 *)
Definition new_window : window := mkW None 800 600.
(** driver.cpp:23-27; windows are held by their handle *)
Record session := mkS { s_windows : list nat; s_current : nat; s_timeouts : timeouts }.
(** What is left to do when a fetch ends. *)
Inductive task :=
| T_SESSION (sid h : nat)
| T_WINDOW (sid h : nat)
| T_LOAD (h url : nat).
(** driver.cpp:38-39 with the windows that exist, the tasks that wait and the next identifier *)
Record state := mkState { sessions : list (nat * session); windows : list (nat * window); tasks : list (nat * task); next : nat }.
Definition initial : state := mkState [] [] [] 0.

Inductive command :=
| NEW_SESSION | DELETE_SESSION (s : nat) | GET_TIMEOUTS (s : nat) | SET_TIMEOUTS (s : nat) (script load implicit : option Z)
| NAVIGATE (s url : nat) | GET_URL (s : nat) | REFRESH (s : nat)
| GET_HANDLE (s : nat) | CLOSE (s : nat) | SWITCH (s h : nat) | GET_HANDLES (s : nat) | NEW_WINDOW (s : nat)
| GET_RECT (s : nat) | SET_RECT (s : nat) (x y w h : option Z).
Inductive event := CALL (c : command) | FETCHED (t : nat) (ok : bool).
Inductive answer :=
| ERROR | DONE | ID (n : nat) | IDS (l : list nat) | TIMEOUTS (t : timeouts) | URL (u : nat) | RECT (x y w h : Z)
(** the process is gone *)
| CRASH
(** no answer yet; the fetch has this number *)
| WAITING (t : nat).

Section Map.
Context {A : Type}.
Definition lookup (k : nat) (m : list (nat * A)) : option A := match find (fun x => fst x =? k) m with Some x => Some (snd x) | None => None end.
Definition remove (k : nat) (m : list (nat * A)) : list (nat * A) := filter (fun x => negb (fst x =? k)) m.
(** [Map::put]: a new key goes to the end *)
Definition put (k : nat) (v : A) (m : list (nat * A)) : list (nat * A) :=
  if existsb (fun x => fst x =? k) m then map (fun x => if fst x =? k then (k, v) else x) m else m ++ [(k, v)].
End Map.

Definition set_session (st : state) (sid : nat) (s : session) : state := mkState (put sid s (sessions st)) (windows st) (tasks st) (next st).
(** The state with one more window and one more task. *)
Definition wait (st : state) (ws : list (nat * window)) (t : task) (used : nat) : state * answer :=
  (mkState (sessions st) ws (tasks st ++ [(next st + used, t)]) (next st + used + 1), WAITING (next st + used)).

(** driver.cpp:46-50 [getSession] *)
Definition with_session (st : state) (sid : nat) (f : session -> state * answer) : state * answer :=
  match lookup sid (sessions st) with Some s => f s | None => (st, ERROR) end.
(** driver.cpp:30-34 [currentBrowsingContext] *)
Definition with_window (st : state) (s : session) (f : window -> state * answer) : state * answer :=
  if existsb (Nat.eqb (s_current s)) (s_windows s) then
    match lookup (s_current s) (windows st) with Some w => f w | None => (st, ERROR) end
  else (st, ERROR).
(** driver.cpp:68-71 [deleteSession] *)
Definition delete_session (st : state) (sid : nat) : state * answer :=
  with_session st sid (fun _ => (mkState (remove sid (sessions st)) (windows st) (tasks st) (next st), DONE)).
Definition or (o : option Z) (d : Z) : Z := match o with Some z => z | None => d end.

(** What a command does until it answers or waits. *)
Definition call (st : state) (c : command) : state * answer :=
  match c with
  | NEW_SESSION => (* driver.cpp:53-59 *)
    wait st (put (S (next st)) new_window (windows st)) (T_SESSION (next st) (S (next st))) 2
  | DELETE_SESSION s => delete_session st s
  | GET_TIMEOUTS s => (* driver.cpp:92-95 *)
    with_session st s (fun x => (st, TIMEOUTS (s_timeouts x)))
  | SET_TIMEOUTS s a b c => (* driver.cpp:85-89, service.cpp:110-122 *)
    with_session st s (fun x => (set_session st s (mkS (s_windows x) (s_current x)
      (mkT (or a (t_script default_timeouts)) (or b (t_load default_timeouts)) (or c (t_implicit default_timeouts)))), DONE))
  | NAVIGATE s u => (* driver.cpp:101-105 *)
    with_session st s (fun x => with_window st x (fun _ => wait st (windows st) (T_LOAD (s_current x) u) 0))
  | GET_URL s => (* driver.cpp:108-112; window.cpp:71-73 *)
    with_session st s (fun x => with_window st x (fun w => (st, match w_doc w with Some u => URL u | None => CRASH end)))
  | REFRESH s => (* driver.cpp:115-119; window.cpp:67-69 *)
    with_session st s (fun x => with_window st x (fun w => match w_doc w with Some u => wait st (windows st) (T_LOAD (s_current x) u) 0 | None => (st, CRASH) end))
  | GET_HANDLE s => (* driver.cpp:134-137 *)
    with_session st s (fun x => (st, ID (s_current x)))
  | CLOSE s => (* driver.cpp:140-159 *)
    with_session st s (fun x =>
      if existsb (Nat.eqb (s_current x)) (s_windows x) then
        match filter (fun h => negb (h =? s_current x)) (s_windows x) with
        | [] => let '(st, a) := delete_session st s in (st, match a with DONE => IDS [] | _ => ERROR end)
        | h :: r => (set_session st s (mkS (h :: r) h (s_timeouts x)), IDS (h :: r))
        end
      else (st, ERROR))
  | SWITCH s h => (* driver.cpp:162-167 *)
    with_session st s (fun x => if existsb (Nat.eqb h) (s_windows x) then (set_session st s (mkS (s_windows x) h (s_timeouts x)), DONE) else (st, ERROR))
  | GET_HANDLES s => (* driver.cpp:170-173 *)
    with_session st s (fun x => (st, IDS (s_windows x)))
  | NEW_WINDOW s => (* driver.cpp:176-180 *)
    with_session st s (fun _ => wait st (put (next st) new_window (windows st)) (T_WINDOW s (next st)) 1)
  | GET_RECT s => (* driver.cpp:190-194 *)
    with_session st s (fun x => with_window st x (fun w => (st, RECT 0 0 (w_width w) (w_height w))))
  | SET_RECT s x y wd ht => (* driver.cpp:197-202, service.cpp:316-332; style/media.cpp:140-154: a height of 0 is divided by *)
    with_session st s (fun se => with_window st se (fun w =>
      let wd := or wd (w_width w) in let ht := or ht (w_height w) in
      if (wd =? w_width w)%Z && (ht =? w_height w)%Z then (st, RECT (or x 0) (or y 0) wd ht)
      else if (ht =? 0)%Z then (st, CRASH)
      else (mkState (sessions st) (put (s_current se) (mkW (w_doc w) wd ht) (windows st)) (tasks st) (next st), RECT (or x 0) (or y 0) wd ht)))
  end.

(** window.cpp:49-64: a window gets the document *)
Definition load (ws : list (nat * window)) (h url : nat) : list (nat * window) :=
  match lookup h ws with Some w => put h (mkW (Some url) (w_width w) (w_height w)) ws | None => ws end.
(** What a command does when its fetch ends. *)
Definition resume (st : state) (t : task) (ok : bool) : state * answer :=
  if ok then
    match t with
    | T_SESSION sid h => (* driver.cpp:61-64 *)
      (mkState (put sid (mkS [h] h default_timeouts) (sessions st)) (load (windows st) h 0) (tasks st) (next st), ID sid)
    | T_WINDOW sid h => (* driver.cpp:181-183 *)
      let ws := load (windows st) h 0 in
      match lookup sid (sessions st) with
      | Some x => (mkState (put sid (mkS (s_windows x ++ [h]) h (s_timeouts x)) (sessions st)) ws (tasks st) (next st), ID h)
      | None => (mkState (sessions st) ws (tasks st) (next st), ID h)
      end
    | T_LOAD h u => (mkState (sessions st) (load (windows st) h u) (tasks st) (next st), DONE)
    end
  else (st, ERROR).

Definition step (st : state) (e : event) : state * answer :=
  match e with
  | CALL c => call st c
  | FETCHED t ok =>
    match lookup t (tasks st) with
    | Some k => resume (mkState (sessions st) (windows st) (remove t (tasks st)) (next st)) k ok
    | None => (st, ERROR)
    end
  end.
Fixpoint run (st : state) (l : list event) : state * list answer :=
  match l with
  | [] => (st, [])
  | e :: r => let '(st, a) := step st e in let '(st, b) := run st r in (st, a :: b)
  end.
