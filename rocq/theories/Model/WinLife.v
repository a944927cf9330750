(** A process on Windows: threads that log, fail and raise exceptions, the background thread of the logger, its sinks.
    Source: src/crashhandler_windows.cpp, src/g3log.cpp, src/logworker.cpp, src/logcapture.cpp, together with the handlers
    of Model/Windows.v.

    Structured exceptions, as Windows delivers them: the vectored handlers in their order, those that were removed meanwhile
    left out; then the program's own frames (__try, catch); then the filter for unhandled exceptions.  Every handler and
    filter of the client lets the search go on.

    Simplifications: entries are numbers; what was sent to a sink is one list, whether the sink's thread has received it or
    not; the default fatal exit handler and the hook that does nothing; the test isLoggingInitialized() and the use of the
    pointer are one step (the race between them is C94); the model starts after the first initializeLogging (before it, C19
    and C25); there is one worker. *)
From Coq Require Import Ascii String List ZArith NArith Bool.
From Verif.Base Require Import Bytes.
From Verif.Model Require Import Levels Signals Windows.
Import ListNotations.
Local Open Scope list_scope.
Local Open Scope Z_scope.

(** the queue of the background thread: logworker.cpp:101-115 *)
Inductive wtask :=
| WSave (m : nat)                              (* logworker.cpp:102 *)
| WFatal (lv : LEVELS) (id : Z) (m : nat)      (* logworker.cpp:106 *)
| WAdd (thread : nat).                         (* logworker.cpp:110-112; the sink with that thread *)

(** what a thread does once it has left the loop of g3log.cpp:227-229 *)
Inductive after :=
| AReturn                                               (* goes back to where LOG(FATAL) or the signal happened *)
| ASearch (code : Z) (handled : bool) (rest : list nat) (* crashhandler_windows.cpp:80, of a vectored handler *)
| AFilter (code : Z).                                   (* crashhandler_windows.cpp:80, of the filter *)

(** a thread: running; in the loop of g3log.cpp:227-229; the background thread clearing the sinks, logworker.cpp:61-63 *)
Inductive tstate := TRun | TWait (k : after) | TClear (lv : LEVELS) (id : Z).

(** how the process ended: by a signal, by an unhandled exception, or undefined (the null pointer of g3log.cpp:226) *)
Inductive pending := PSignal (s : Z) | PException (code : Z) | PUndefined.

(** the background thread is thread 0; [p_init]: g_logger_instance is not null; a sink: its thread and what was sent to it;
    [p_gone]: the sinks that were destroyed; [p_dropped]: entries nobody gets, g3log.cpp:195-204; [p_past]: the threads
    that a fatal call let go on, in this order (history).  g3log.cpp:36-47, logworker.hpp:33-34 *)
Record proc := mkProc {
  p_win : win;
  p_init : bool;
  p_queue : list wtask;
  p_sinks : list (nat * list nat);
  p_gone : list (nat * list nat);
  p_threads : nat -> tstate;
  p_dropped : list nat;
  p_past : list nat;
  p_end : option pending
}.
(** helpers of this model, no source of their own *)
Definition set_win (p : proc) (w : win) : proc :=
  mkProc w (p_init p) (p_queue p) (p_sinks p) (p_gone p) (p_threads p) (p_dropped p) (p_past p) (p_end p).
Definition set_thread (p : proc) (t : nat) (x : tstate) : proc :=
  mkProc (p_win p) (p_init p) (p_queue p) (p_sinks p) (p_gone p) (updn (p_threads p) t x) (p_dropped p) (p_past p) (p_end p).
Definition set_queue (p : proc) (q : list wtask) : proc :=
  mkProc (p_win p) (p_init p) q (p_sinks p) (p_gone p) (p_threads p) (p_dropped p) (p_past p) (p_end p).
Definition set_end (p : proc) (e : pending) : proc :=
  mkProc (p_win p) (p_init p) (p_queue p) (p_sinks p) (p_gone p) (p_threads p) (p_dropped p) (p_past p) (Some e).
Definition set_past (p : proc) (t : nat) : proc :=
  mkProc (p_win p) (p_init p) (p_queue p) (p_sinks p) (p_gone p) (p_threads p) (p_dropped p) (p_past p ++ [t]) (p_end p).
Definition set_init (p : proc) (b : bool) : proc :=
  mkProc (p_win p) b (p_queue p) (p_sinks p) (p_gone p) (p_threads p) (p_dropped p) (p_past p) (p_end p).
Definition set_sinks (p : proc) (l g : list (nat * list nat)) : proc :=
  mkProc (p_win p) (p_init p) (p_queue p) l g (p_threads p) (p_dropped p) (p_past p) (p_end p).
Definition set_dropped (p : proc) (m : nat) : proc :=
  mkProc (p_win p) (p_init p) (p_queue p) (p_sinks p) (p_gone p) (p_threads p) (p_dropped p ++ [m]) (p_past p) (p_end p).

(** the end of a LogCapture with a fatal level in thread t, logcapture.cpp:43-47, and with it g3log.cpp:143-185 and 216-230:
    the handlers of the thread are verified; without a logger the process is to end at once, and if it does not,
    g_logger_instance is used though it is null (g3log.cpp:217-226) *)
Definition push_fatal (p : proc) (t : nat) (lv : LEVELS) (id : Z) (m : nat) (k : after) : proc :=
  let p1 := set_win p (installSignalHandlerForThread t (p_win p)) in
  if p_init p1 then set_thread (set_queue p1 (p_queue p1 ++ [WFatal lv id m])) t (TWait k)
  else
    let (w, e) := exitWithDefaultSignalHandler_win t lv id (p_win p1) in
    match e with
    | WKilled s => set_end (set_win p1 w) (PSignal s)
    | _ => set_end (set_win p1 w) PUndefined
    end.

(** is the vectored handler with handle h still there, and is it g3log's; Windows API *)
Definition vectored_is_g3 (w : win) (h : nat) : bool :=
  existsb (fun e => Nat.eqb (fst e) h && snd e) (v_vectored w).

(** nobody's frame handles the exception: the filter, crashhandler_windows.cpp:84-87, 63-81 *)
Definition unhandled (p : proc) (t : nat) (code : Z) (m : nat) : proc :=
  match v_filter (p_win p) with
  | FG3log =>
      let (w, _) := unexpectedExceptionHandling t code (p_win p) in
      push_fatal (set_win p w) t FATAL_EXCEPTION code m (AFilter code)
  | _ => set_end p (PException code)
  end.

(** the search: the vectored handlers hs, crashhandler_windows.cpp:92-104, 63-81, then the frames, then the filter;
    m: the entry that will be logged *)
Fixpoint search (p : proc) (t : nat) (code : Z) (handled : bool) (m : nat) (hs : list nat) : proc :=
  match hs with
  | [] => if handled then set_thread p t TRun else unhandled p t code m
  | h :: r =>
      if vectored_is_g3 (p_win p) h then
        match vectorExceptionHandling t code (p_win p) with
        | (w, true) => push_fatal (set_win p w) t FATAL_EXCEPTION code m (ASearch code handled r)
        | (w, false) => search (set_win p w) t code handled m r
        end
      else search p t code handled m r
  end.

(** what can happen.  Calls of the client are steps of a thread that runs. *)
Inductive pev :=
| ELog (t m : nat)                                  (* a LOG below FATAL *)
| EFatal (t m : nat)                                (* LOG(FATAL) or a CHECK that fails *)
| EException (t : nat) (code : Z) (handled : bool) (m : nat)  (* [handled]: a frame of the program will handle it *)
| ESig (t : nat) (s : Z) (m : nat)                  (* raise(s) *)
| EPoll (t m : nat)                                 (* one more turn of the loop g3log.cpp:227-229; m: the next entry *)
| EWork                                             (* the background thread runs its next task *)
| EClear                                            (* the background thread goes on after a fatal message *)
| EAdd (t k : nat)                                  (* addSink; k: the thread of the sink *)
| EInit (t : nat)                                   (* a later initializeLogging *)
| EShut (t : nat)                                   (* shutDownLogging *)
| EOwn (t : nat) (o : vop).                         (* the client's own handlers; g3::installCrashHandler() *)

(** helper of this model, no source of its own *)
Definition running (p : proc) (t : nat) : bool := match p_threads p t with TRun => true | _ => false end.
(** logworker.cpp:26-29, 56-59: one more entry for every sink *)
Definition send_all (m : nat) (l : list (nat * list nat)) : list (nat * list nat) := map (fun s => (fst s, snd s ++ [m])) l.

(** logworker.cpp:23-36, 38-59, 110-112: the next task of the background thread.  A fatal one ends with the sinks to be
    cleared. *)
Definition work (p : proc) : option proc :=
  if running p 0 then
    match p_queue p with
    | [] => None
    | WSave m :: q => Some (set_sinks (set_queue p q) (send_all m (p_sinks p)) (p_gone p))
    | WAdd k :: q => Some (set_sinks (set_queue p q) (p_sinks p ++ [(k, [])]) (p_gone p))
    | WFatal lv id m :: q =>
        Some (set_thread (set_init (set_sinks (set_queue p q) (send_all m (p_sinks p)) (p_gone p)) false) 0 (TClear lv id))
    end
  else None.
(** logworker.cpp:61-68: every sink is destroyed, which waits for its thread; then exitWithDefaultSignalHandler *)
Definition clear (p : proc) : option proc :=
  match p_threads p 0%nat with
  | TClear lv id =>
      if forallb (fun s => running p (fst s)) (p_sinks p) then
        let p1 := set_sinks p [] (p_gone p ++ p_sinks p) in
        let (w, e) := exitWithDefaultSignalHandler_win 0 lv id (p_win p1) in
        match e with
        | WKilled s => Some (set_end (set_win p1 w) (PSignal s))
        | _ => Some (set_thread (set_win p1 w) 0 TRun)
        end
      else None
  | _ => None
  end.
(** g3log.cpp:227-229, and what follows; None: the thread sleeps on *)
Definition poll (p : proc) (t m : nat) : option proc :=
  match p_threads p t with
  | TWait k =>
      if g_block (p_win p) then None
      else match k with
           | AReturn => Some (set_past (set_thread p t TRun) t)
           | ASearch code handled rest => Some (search p t code handled m rest)
           | AFilter code => Some (set_end p (PException code))
           end
  | _ => None
  end.
(** crashhandler_windows.cpp:39-60: before it calls a handler, the C library sets the signal back to SIG_DFL *)
Definition fatal_signal (p : proc) (t : nat) (s : Z) (m : nat) : proc :=
  match handler_of (p_win p) t s with
  | Dfl => set_end p (PSignal s)
  | G3log => push_fatal (set_win p (set_signal t Dfl (p_win p) s)) t FATAL_SIGNAL s m AReturn
  | User _ => set_win p (set_signal t Dfl (p_win p) s)
  | Ign => p
  end.
(** one step; None: not possible now.  g3log.cpp:55-81 (EInit: only the first call installs handlers, 56-58), 118-121
    (EShut), 193-208 (ELog), logcapture.cpp:45 *)
Definition pstep (p : proc) (e : pev) : option proc :=
  match p_end p with
  | Some _ => None
  | None =>
      match e with
      | ELog t m =>
          if running p t then
            let p1 := set_win p (installSignalHandlerForThread t (p_win p)) in
            Some (if p_init p1 then set_queue p1 (p_queue p1 ++ [WSave m]) else set_dropped p1 m)
          else None
      | EFatal t m => if running p t then Some (push_fatal p t FATAL WIN_SIGABRT m AReturn) else None
      | EException t code handled m =>
          if running p t then Some (search p t code handled m (map fst (v_vectored (p_win p)))) else None
      | ESig t s m => if running p t && existsb (Z.eqb s) five_signals then Some (fatal_signal p t s m) else None
      | EPoll t m => poll p t m
      | EWork => work p
      | EClear => clear p
      | EAdd t k => if running p t then Some (set_queue p (p_queue p ++ [WAdd k])) else None
      | EInit t =>
          if running p t && negb (p_init p) then Some (set_init p true) else None
      | EShut t => if running p t then Some (set_init p false) else None
      | EOwn t o =>
          if running p t then
            match o with
            | VSignal _ s d => Some (set_win p (vstep (p_win p) (VSignal t s d)))
            | VInstall _ => Some (set_win p (vstep (p_win p) (VInstall t)))
            | VFilter _ | VVectored => Some (set_win p (vstep (p_win p) o))
            | _ => None
            end
          else None
      end
  end.
(** helper of this model, no source of its own *)
Fixpoint prun (p : proc) (l : list pev) : option proc :=
  match l with [] => Some p | e :: r => match pstep p e with Some p' => prun p' r | None => None end end.
(** after the first initializeLogging, in thread t0, g3log.cpp:55-81; [own]: handlers the program had set before *)
Definition p_start (own : list vop) (t0 : nat) : proc :=
  mkProc (installCrashHandler_win t0 (vrun v_start own)) true [] [] [] (fun _ => TRun) [] [] None.
