(** Windows, and the two build options that take handlers out of the library.
    Source: Options.cmake:113-125, 144-157 (ENABLE_FATAL_SIGNALHANDLING, ENABLE_VECTORED_EXCEPTIONHANDLING), which put DISABLE_FATAL_SIGNALHANDLING and
    DISABLE_VECTORED_EXCEPTIONHANDLING into generated_definitions.hpp; src/crashhandler_windows.cpp with its #if lines 30-36, 91-105, 184-206,
    219-233, 240-246.

    Model/Windows.v and Model/WinLife.v are the library with both options on (the default); here every function has the options as an argument, with
    the simplifications of those files.  That both on gives the same as there is proved (C142_default). *)
From Coq Require Import Ascii String List ZArith NArith Bool.
From Verif.Base Require Import Bytes.
From Verif.Model Require Import Levels Signals Windows WinLife.
Import ListNotations.
Local Open Scope list_scope.
Local Open Scope Z_scope.

(** the options, on or off; Options.cmake:116, 149 *)
Record opts := mkOpts { o_signals : bool; o_vectored : bool }.
(** the defaults: Options.cmake:117, 150 *)
Definition o_default : opts := mkOpts true true.

(** crashhandler_windows.cpp:218-234 *)
Definition install_thread_o (o : opts) (t : nat) (w : win) : win := if o_signals o then installSignalHandlerForThread t w else w.
(** crashhandler_windows.cpp:236-247 *)
Definition install_crash_o (o : opts) (t : nat) (w0 : win) : win :=
  let w := install_thread_o o t w0 in
  if o_vectored o then
    mkWin (v_thread w) (v_process w) FG3log (v_vectored w ++ [(v_next w, true)]) (S (v_next w)) (g_installed_thread_signal_handler w)
          (v_filter w) (Some (v_next w)) (g_block w)
  else
    mkWin (v_thread w) (v_process w) FG3log (v_vectored w) (v_next w) (g_installed_thread_signal_handler w)
          (v_filter w) (g_vector_exception_handler w) (g_block w).
(** crashhandler_windows.cpp:183-206: all of it is inside the #if of signal handling, the filter and the vectored handler too *)
Definition restore_o (o : opts) (t : nat) (w : win) : win :=
  if o_signals o then
    if o_vectored o then restoreFatalHandlingToDefault_win t w
    else fold_left (set_signal t Dfl) [WIN_SIGABRT; WIN_SIGFPE; WIN_SIGSEGV; WIN_SIGILL; WIN_SIGTERM]
           (mkWin (v_thread w) (v_process w) (g_previous_unexpected_exception_handler w) (v_vectored w) (v_next w)
                  (g_installed_thread_signal_handler w) (g_previous_unexpected_exception_handler w) (g_vector_exception_handler w) (g_block w))
  else w.
(** the client's calls; crashhandler_windows.cpp:183-247 *)
Definition vstep_o (o : opts) (w : win) (op : vop) : win :=
  match op with
  | VLog t => install_thread_o o t w
  | VInstall t => install_crash_o o t w
  | VRestore t => restore_o o t w
  | _ => vstep w op
  end.
(** helper of this model, no source of its own *)
Definition vrun_o (o : opts) (w : win) (l : list vop) : win := fold_left (vstep_o o) l w.

(** crashhandler_windows.cpp:158-173; the C library sets a handler of the program back to SIG_DFL before it calls it *)
Definition exit_o (o : opts) (t : nat) (level : LEVELS) (fatal_signal_id : Z) (w0 : win) : win * wending :=
  let w := restore_o o t w0 in
  if levelEq FATAL_EXCEPTION level then
    (mkWin (v_thread w) (v_process w) (v_filter w) (v_vectored w) (v_next w) (g_installed_thread_signal_handler w)
           (g_previous_unexpected_exception_handler w) (g_vector_exception_handler w) false, WReturns)
  else if existsb (Z.eqb fatal_signal_id) five_signals then
    match handler_of w t fatal_signal_id with
    | Dfl => (w, WKilled fatal_signal_id)
    | User n => (set_signal t Dfl w fatal_signal_id, WHandled (User n))
    | d => (w, WHandled d)
    end
  else (w, WReturns).
(** crashhandler_windows.cpp:92-103 *)
Definition vector_o (o : opts) (t : nat) (code : Z) (w : win) : win * bool :=
  if isKnownException code then (restore_o o t w, true) else (w, false).

(** logcapture.cpp:43-47, g3log.cpp:143-185, 216-230; as push_fatal in Model/WinLife.v *)
Definition push_fatal_o (o : opts) (p : proc) (t : nat) (lv : LEVELS) (id : Z) (m : nat) (k : after) : proc :=
  let p1 := set_win p (install_thread_o o t (p_win p)) in
  if p_init p1 then set_thread (set_queue p1 (p_queue p1 ++ [WFatal lv id m])) t (TWait k)
  else
    let (w, e) := exit_o o t lv id (p_win p1) in
    match e with
    | WKilled s => set_end (set_win p1 w) (PSignal s)
    | _ => set_end (set_win p1 w) PUndefined
    end.
(** crashhandler_windows.cpp:84-87, 63-81 *)
Definition unhandled_o (o : opts) (p : proc) (t : nat) (code : Z) (m : nat) : proc :=
  match v_filter (p_win p) with
  | FG3log => push_fatal_o o (set_win p (restore_o o t (p_win p))) t FATAL_EXCEPTION code m (AFilter code)
  | _ => set_end p (PException code)
  end.
(** crashhandler_windows.cpp:91-105, 63-81; as search in Model/WinLife.v *)
Fixpoint search_o (o : opts) (p : proc) (t : nat) (code : Z) (handled : bool) (m : nat) (hs : list nat) : proc :=
  match hs with
  | [] => if handled then set_thread p t TRun else unhandled_o o p t code m
  | h :: r =>
      if vectored_is_g3 (p_win p) h then
        match vector_o o t code (p_win p) with
        | (w, true) => push_fatal_o o (set_win p w) t FATAL_EXCEPTION code m (ASearch code handled r)
        | (w, false) => search_o o (set_win p w) t code handled m r
        end
      else search_o o p t code handled m r
  end.
(** logworker.cpp:61-68; as clear in Model/WinLife.v *)
Definition clear_o (o : opts) (p : proc) : option proc :=
  match p_threads p 0%nat with
  | TClear lv id =>
      if forallb (fun s => running p (fst s)) (p_sinks p) then
        let p1 := set_sinks p [] (p_gone p ++ p_sinks p) in
        let (w, e) := exit_o o 0 lv id (p_win p1) in
        match e with
        | WKilled s => Some (set_end (set_win p1 w) (PSignal s))
        | _ => Some (set_thread (set_win p1 w) 0 TRun)
        end
      else None
  | _ => None
  end.
(** g3log.cpp:227-229; as poll in Model/WinLife.v *)
Definition poll_o (o : opts) (p : proc) (t m : nat) : option proc :=
  match p_threads p t with
  | TWait k =>
      if g_block (p_win p) then None
      else match k with
           | AReturn => Some (set_past (set_thread p t TRun) t)
           | ASearch code handled rest => Some (search_o o p t code handled m rest)
           | AFilter code => Some (set_end p (PException code))
           end
  | _ => None
  end.
(** crashhandler_windows.cpp:39-60; as fatal_signal in Model/WinLife.v *)
Definition fatal_signal_o (o : opts) (p : proc) (t : nat) (s : Z) (m : nat) : proc :=
  match handler_of (p_win p) t s with
  | Dfl => set_end p (PSignal s)
  | G3log => push_fatal_o o (set_win p (set_signal t Dfl (p_win p) s)) t FATAL_SIGNAL s m AReturn
  | User _ => set_win p (set_signal t Dfl (p_win p) s)
  | Ign => p
  end.
(** one step; as pstep in Model/WinLife.v: g3log.cpp:55-81, 118-121, 193-208, logcapture.cpp:45 *)
Definition pstep_o (o : opts) (p : proc) (e : pev) : option proc :=
  match p_end p with
  | Some _ => None
  | None =>
      match e with
      | ELog t m =>
          if running p t then
            let p1 := set_win p (install_thread_o o t (p_win p)) in
            Some (if p_init p1 then set_queue p1 (p_queue p1 ++ [WSave m]) else set_dropped p1 m)
          else None
      | EFatal t m => if running p t then Some (push_fatal_o o p t FATAL WIN_SIGABRT m AReturn) else None
      | EException t code handled m =>
          if running p t then Some (search_o o p t code handled m (map fst (v_vectored (p_win p)))) else None
      | ESig t s m => if running p t && existsb (Z.eqb s) five_signals then Some (fatal_signal_o o p t s m) else None
      | EPoll t m => poll_o o p t m
      | EWork => work p
      | EClear => clear_o o p
      | EAdd t k => if running p t then Some (set_queue p (p_queue p ++ [WAdd k])) else None
      | EInit t => if running p t && negb (p_init p) then Some (set_init p true) else None
      | EShut t => if running p t then Some (set_init p false) else None
      | EOwn t op =>
          if running p t then
            match op with
            | VSignal _ s d => Some (set_win p (vstep_o o (p_win p) (VSignal t s d)))
            | VInstall _ => Some (set_win p (vstep_o o (p_win p) (VInstall t)))
            | VFilter _ | VVectored => Some (set_win p (vstep_o o (p_win p) op))
            | _ => None
            end
          else None
      end
  end.
(** helper of this model, no source of its own *)
Fixpoint prun_o (o : opts) (p : proc) (l : list pev) : option proc :=
  match l with [] => Some p | e :: r => match pstep_o o p e with Some p' => prun_o o p' r | None => None end end.
(** after the first initializeLogging, in thread t0; g3log.cpp:55-81 *)
Definition p_start_o (o : opts) (own : list vop) (t0 : nat) : proc :=
  mkProc (install_crash_o o t0 (vrun_o o v_start own)) true [] [] [] (fun _ => TRun) [] [] None.
