(** After main: the destruction of the library's and the program's static objects.
    Source: the objects of Model/StaticInit.v; src/g3log.cpp:40-44, 98, 129-139, 143-230, src/logworker.cpp:43-68, 70-99,
    src/loglevels.cpp:119-127, src/filesink.cpp:44-54, src/g3log/logmessage.hpp:50, src/g3log/time.hpp:38-43, src/time.cpp:24, 82-100,
    src/crashhandler_unix.cpp:222-243.

    C++17 [basic.start.term]: static objects are destroyed in the reverse of the order in which they were initialized; objects that
    are initialized statically count as if initialized dynamically (so g_first_uninitialized_msg and g_fatal_pre_logging_hook have
    their places).  std::once_flag, std::mutex, std::atomic and the pointer g_logger_instance have trivial destructors and may be
    used to the end; the standard streams are never destroyed.

    One step = the destruction of one object.  Simplifications: one thread leaves main and destroys; a worker's threads do their
    remaining work at the last moment (when the worker is destroyed, or at a fatal message), with a file sink; the level table is
    given with its content at the end of main; function-local statics are not modelled; a worker that is never destroyed
    takes messages, what its threads do with them is not followed. *)
From Coq Require Import List ZArith Bool.
From Verif.Model Require Import Levels Global StaticInit.
Import ListNotations.
Local Open Scope list_scope.
Local Open Scope Z_scope.

(** what destructors of the program do: LOG (g3log.hpp:147), the two setters (g3log.cpp:91-106) *)
Inductive xact := XLog (l : lref) | XSetHook (h : option hook) | XSetExit (h : option handler).

(** static objects; the sources are named with each *)
Inductive xdef :=
| XLevel (k : lname) (v : Z)        (* loglevels.hpp:96-99, 136-138, or the program's; with the value it has got *)
| XMap                              (* g_log_levels: loglevels.cpp:27 *)
| XFirst                            (* g_first_uninitialized_msg: g3log.cpp:40 *)
| XNoHook                           (* g_pre_fatal_hook_that_does_nothing: g3log.cpp:43 *)
| XHook                             (* g_fatal_pre_logging_hook: g3log.cpp:44 *)
| XExit                             (* g_fatal_to_g3logworker_function_ptr: g3log.cpp:98 *)
| XSignals                          (* gSignals, gSavedSigActions: crashhandler_unix.cpp:50-51 *)
| XFormats                          (* date_formatted, time_formatted: time.hpp:38, 43, those of logmessage.cpp *)
| XFraction                         (* kFractionalIdentier: time.cpp:24 *)
| XFileFormats                      (* time.hpp:38, 43, those of filesink.cpp *)
| XObj (dtor : list xact)           (* an object of the program *)
| XWorker (w : nat).                (* an object of the program that owns LogWorker w *)

(** what loglevels.hpp defines in every unit: lines 96-99, 136-138 *)
Definition x_header : list xdef :=
  [XLevel NDebug kDebugValue; XLevel NInfo kInfoValue; XLevel NWarning kWarningValue; XLevel NFatal kFatalValue;
   XLevel NContract kInternalFatalValue; XLevel NSignal (kInternalFatalValue + 1); XLevel NException (kInternalFatalValue + 2)].

(** the objects of a unit in order: loglevels.cpp:9-27, g3log.cpp:21-98, crashhandler_unix.cpp:9-51, logmessage.cpp, time.cpp:24,
    filesink.cpp *)
Definition x_defs (dynamic : bool) (user : nat -> list xdef) (u : tunit) : list xdef :=
  match u with
  | ULoglevels => x_header ++ (if dynamic then [XMap] else [])
  | UG3log => x_header ++ [XFirst; XNoHook; XHook; XExit]
  | UCrashhandler => x_header ++ [XSignals]
  | ULogmessage => x_header ++ [XFormats]
  | UTime => [XFraction]
  | UFilesink => x_header ++ [XFileFormats]
  | UUser n => x_header ++ user n
  end.

(** initialization in the given order of units: the objects, the latest first.  C++17 [basic.start.dynamic], as s_run in
    Model/StaticInit.v *)
Fixpoint x_build (left : tunit -> list xdef) (done : list (tunit * xdef)) (order : list tunit) : option (list (tunit * xdef)) :=
  match order with
  | [] => Some done
  | u :: r =>
      match left u with
      | [] => None
      | d :: l => x_build (fun x => if tunit_eqb x u then l else left x) ((u, d) :: done) r
      end
  end.

(** objects as far as they can be used too late; helper of this model, no source of its own *)
Inductive xobj := XOLevel (l : lref) | XOMap | XOFirst | XONoHook | XOHook | XOExit | XOSignals | XOFormats | XOFraction | XOFileFormats.
(** helper of this model, no source of its own *)
Definition is_obj (o : xobj) (p : tunit * xdef) : bool :=
  match o, snd p with
  | XOLevel l, XLevel k _ => lref_eqb l (fst p, k)
  | XOMap, XMap | XOFirst, XFirst | XONoHook, XNoHook | XOHook, XHook | XOExit, XExit | XOSignals, XSignals | XOFormats, XFormats
  | XOFraction, XFraction | XOFileFormats, XFileFormats => true
  | _, _ => false
  end.

(** what can be observed: an object is used after its destruction; a message goes to a worker, is kept as the first one and shown
    on stderr, is dropped; the hook runs; a fatal message goes to a handler, to a worker, to stderr; a worker has written
    everything *)
Inductive xev :=
| XLate (o : xobj) | XSaved (w : nat) (v : Z) | XKept (v : Z) | XDropped (v : Z) | XRan (n : nat) | XHandled (n : nat) (v : Z)
| XFatalTo (w : nat) (v : Z) | XFatalShown (v : Z) | XFlushed (w : nat).

(** the process: running; std::terminate (an exception leaves a destructor); killed by exitWithDefaultSignalHandler; undefined
    behaviour: a string, map, pointer or function is used after its destruction *)
Inductive xstatus := XRunning | XTerminate | XDied | XUndefined.

Record xstate := mkX {
  x_live : list (tunit * xdef);       (* not yet destroyed, the next one first *)
  x_all : list (tunit * xdef);        (* all there were *)
  x_active : option nat;              (* g_logger_instance *)
  x_map : list (Z * bool);            (* g_log_levels *)
  x_first : bool;                     (* g_set_first_uninitialized_flag *)
  x_hook : option hook;
  x_exit : option handler;
  x_status : xstatus;
  x_events : list xev
}.

(** the end of main *)
Definition x_start (objs : list (tunit * xdef)) (active : option nat) (m : list (Z * bool)) (first : bool) (h : option hook) (f : option handler) : xstate :=
  mkX objs objs active m first h f XRunning [].

(** helper of this model, no source of its own *)
Definition x_emit (st : xstate) (es : list xev) : xstate :=
  mkX (x_live st) (x_all st) (x_active st) (x_map st) (x_first st) (x_hook st) (x_exit st) (x_status st) (x_events st ++ es).
(** helper of this model, no source of its own *)
Definition x_end (st : xstate) (s : xstatus) : xstate :=
  mkX (x_live st) (x_all st) (x_active st) (x_map st) (x_first st) (x_hook st) (x_exit st) s (x_events st).
(** helper of this model, no source of its own *)
Definition x_setactive (st : xstate) (a : option nat) : xstate :=
  mkX (x_live st) (x_all st) a (x_map st) (x_first st) (x_hook st) (x_exit st) (x_status st) (x_events st).
(** helper of this model, no source of its own *)
Definition x_setmap (st : xstate) (m : list (Z * bool)) : xstate :=
  mkX (x_live st) (x_all st) (x_active st) m (x_first st) (x_hook st) (x_exit st) (x_status st) (x_events st).
(** g3log.cpp:94 *)
Definition x_sethook (st : xstate) (h : option hook) : xstate :=
  mkX (x_live st) (x_all st) (x_active st) (x_map st) (x_first st) h (x_exit st) (x_status st) (x_events st).
(** g3log.cpp:105 *)
Definition x_setexit (st : xstate) (f : option handler) : xstate :=
  mkX (x_live st) (x_all st) (x_active st) (x_map st) (x_first st) (x_hook st) f (x_status st) (x_events st).
(** helper of this model, no source of its own *)
Definition x_alive (st : xstate) (o : xobj) : bool := existsb (is_obj o) (x_live st).

(** objects of class type are used: the first one that is gone makes the behaviour undefined; helper of this model, no source of its own *)
Fixpoint x_need (st : xstate) (os : list xobj) (go : xstate -> xstate) : xstate :=
  match os with
  | [] => go st
  | o :: r => if x_alive st o then x_need st r go else x_end (x_emit st [XLate o]) XUndefined
  end.
(** an int member is read: after the destructor the bytes are still there, so this is only recorded; loglevels.cpp:17 *)
Definition x_read (st : xstate) (l : lref) : xstate := if x_alive st (XOLevel l) then st else x_emit st [XLate (XOLevel l)].

(** the value of a level object; helper of this model, no source of its own *)
Fixpoint x_value (objs : list (tunit * xdef)) (l : lref) : Z :=
  match objs with
  | [] => 0
  | (u, XLevel k v) :: r => if lref_eqb l (u, k) then v else x_value r l
  | _ :: r => x_value r l
  end.

(** g3log.cpp:216-230.  No logger: the message is rendered and shown, the process killed.  With a logger its thread hands the message
    to the sinks, which render it, destroys the sinks and kills the process: logworker.cpp:43-68 *)
Definition x_pushFatal (st : xstate) (v : Z) : xstate :=
  match x_active st with
  | None => x_need st [XOFormats; XOFraction] (fun st1 => x_need (x_emit st1 [XFatalShown v]) [XOSignals] (fun st2 => x_end st2 XDied))
  | Some w => x_need st [XOFormats; XOFraction; XOFileFormats]
                (fun st1 => x_need (x_emit st1 [XFatalTo w v]) [XOSignals] (fun st2 => x_end st2 XDied))
  end.
(** g3log.cpp:237-239 *)
Definition x_fatalCall (st : xstate) (v : Z) : xstate :=
  x_need st [XOExit] (fun st1 =>
    match x_exit st1 with
    | None => x_end st1 XTerminate
    | Some HandlerDefault => x_pushFatal st1 v
    | Some (Handler n) => x_emit st1 [XHandled n v]
    end).
(** g3log.cpp:157-184 *)
Definition x_saveFatal (st : xstate) (v : Z) : xstate :=
  x_need st [XOHook; XONoHook] (fun st1 =>
    let st2 := x_sethook st1 (Some HookNop) in
    match x_hook st1 with
    | None => x_end st2 XTerminate
    | Some HookNop => x_fatalCall st2 v
    | Some (Hook n) => x_fatalCall (x_emit st2 [XRan n]) v
    end).
(** g3log.cpp:193-209 *)
Definition x_pushMessage (st : xstate) (v : Z) : xstate :=
  match x_active st with
  | Some w => x_emit st [XSaved w v]
  | None =>
      if x_first st then x_emit st [XDropped v]
      else x_need st [XOFirst] (fun st1 =>
        mkX (x_live st1) (x_all st1) (x_active st1) (x_map st1) true (x_hook st1) (x_exit st1) (x_status st1) (x_events st1 ++ [XKept v]))
  end.
(** an enabled LOG statement: logcapture.cpp:74, g3log.cpp:145-154 *)
Definition x_capture (st : xstate) (l : lref) : xstate :=
  let st1 := x_read (x_read st l) (ULoglevels, NFatal) in
  x_need st1 [XOLevel l] (fun st2 =>
    if x_value (x_all st2) (ULoglevels, NFatal) <=? x_value (x_all st2) l then x_saveFatal st2 (x_value (x_all st2) l)
    else x_pushMessage st2 (x_value (x_all st2) l)).
(** LOG(level): g3log.hpp:147, loglevels.cpp:119-127 *)
Definition x_log (dynamic : bool) (st : xstate) (l : lref) : xstate :=
  if dynamic then
    x_need (x_read st l) [XOMap] (fun st1 =>
      match status_of (x_map st1) (x_value (x_all st1) l) with
      | Some true => x_capture st1 l
      | Some false => st1
      | None => x_setmap st1 ((x_value (x_all st1) l, false) :: x_map st1)
      end)
  else x_capture st l.

(** one thing a destructor of the program does; g3log.cpp:91-106 *)
Definition x_act (dynamic : bool) (st : xstate) (a : xact) : xstate :=
  match a with
  | XLog l => x_log dynamic st l
  | XSetHook h => x_need st [XOHook] (fun st1 => x_sethook st1 h)
  | XSetExit f => x_need st [XOExit] (fun st1 => x_setexit st1 f)
  end.
(** several, as long as the process runs; helper of this model, no source of its own *)
Fixpoint x_acts (dynamic : bool) (st : xstate) (l : list xact) : xstate :=
  match l with
  | [] => st
  | a :: r => let st1 := x_act dynamic st a in match x_status st1 with XRunning => x_acts dynamic st1 r | _ => st1 end
  end.

(** g3log.cpp:129-139: another worker is active: LOG(WARNING) of g3log.cpp; otherwise no logger is active from now on *)
Definition x_shutDown (dynamic : bool) (st : xstate) (w : nat) : xstate :=
  match x_active st with
  | Some a => if Nat.eqb a w then x_setactive st None else x_log dynamic st (UG3log, NWarning)
  | None => x_setactive st None
  end.
(** ~LogWorker: logworker.cpp:70-99; its threads render what is left, and the file sinks end: filesink.cpp:44-54 *)
Definition x_worker (dynamic : bool) (st : xstate) (w : nat) : xstate :=
  let st1 := x_shutDown dynamic st w in
  match x_status st1 with
  | XRunning => x_need st1 [XOFormats; XOFraction; XOFileFormats] (fun st2 => x_emit st2 [XFlushed w])
  | _ => st1
  end.

(** the next object is destroyed; None: the process has ended, or nothing is left.  C++17 [basic.start.term] *)
Definition x_step (dynamic : bool) (st : xstate) : option xstate :=
  match x_status st, x_live st with
  | XRunning, (u, d) :: r =>
      let st1 := mkX r (x_all st) (x_active st) (x_map st) (x_first st) (x_hook st) (x_exit st) (x_status st) (x_events st) in
      Some (match d with
            | XObj dtor => x_acts dynamic st1 dtor
            | XWorker w => x_worker dynamic st1 w
            | _ => st1
            end)
  | _, _ => None
  end.
(** n steps *)
Fixpoint x_run (dynamic : bool) (st : xstate) (n : nat) : option xstate :=
  match n with
  | O => Some st
  | S m => match x_step dynamic st with Some st1 => x_run dynamic st1 m | None => None end
  end.
