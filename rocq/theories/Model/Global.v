(** The life cycle of logging: the global variables and functions of src/g3log.cpp, and the text bgFatal adds
    (src/logworker.cpp:38-68).

    Any number of threads; each has a stack of activities.  One step of a thread is one call of the API, done
    at once, except for saveFatalMessage, which is cut where other threads or client code can come between.
    (Races inside single calls are the subject of Model/Worker.v.)  Hooks and overriding fatal handlers are
    client code: scripts given by the parameters [hook_body] and [handler_body], which may call
    everything again. *)
From Coq Require Import Ascii String List ZArith NArith Bool.
From Verif.Base Require Import Bytes.
From Verif.Model Require Import Levels TimeFmt Message.
Import ListNotations.
Local Open Scope list_scope.

(** g3log.cpp:43-44: what g_fatal_pre_logging_hook can hold, besides nothing *)
Inductive hook := HookNop | Hook (n : nat).
(** g3log.cpp:98: what g_fatal_to_g3logworker_function_ptr can hold, besides nothing *)
Inductive handler := HandlerDefault | Handler (n : nat).

(** What client code does.  Workers are numbered; None is the null pointer or an empty std::function.
    [OLog m] and [OFatal stack_trace m signal] are what saveMessage makes of the end of a LOG or CHECK
    statement (Model/Capture.v).  [OShutdownFor w warning]: [warning] is the message made by the
    LOG(WARNING) in shutDownLoggingForActiveOnly, None if that level is switched off.  Calls of g3log.cpp:55-106, 118-155 *)
Inductive op :=
| OInit (w : option nat)
| OShutdown
| OShutdownFor (w : option nat) (warning : option LogMessage)
| OLog (m : LogMessage)
| OFatal (stack_trace : str) (m : LogMessage) (signal : Z)
| OSetHook (h : option hook)
| OSetExit (h : option handler)
| OThrow                       (* throw an exception *)
| OTry (l : list op).          (* try { l } catch (...) {} *)

(** What can be observed.  [EOp] marks the calls themselves.  Ghost, for stating properties *)
Inductive event :=
| EOp (o : op)
| ESave (w : nat) (m : LogMessage)           (* w->save(m) from a LOG call *)
| ESaveFirst (w : nat) (m : LogMessage)      (* w->save(m) from initializeLogging *)
| EReturn (b : bool)                         (* result of shutDownLoggingForActiveOnly *)
| EStderr (text : str)
| EStart (stack_trace : str)                 (* a fatal event is counted *)
| EHook (n : nat)
| EHandler (n : nat) (f : FatalMessage)
| EFatal (w : nat) (f : FatalMessage)        (* w->fatal(f) *)
| EStderrFatal (f : FatalMessage)            (* reason and text of f on stderr *)
| EThrow.

(** an activity: a script; a try block to return to; saveFatalMessage with the hook copied, with the hook
    reset, with the hook finished; waiting for ever at the end of pushFatalMessageToLogger; g3log.cpp:157-184, 216-230 *)
Inductive frame :=
| FOps (l : list op)
| FCatch
| FCopied (h : option hook) (stack_trace : str) (m : LogMessage) (signal : Z)
| FReset (h : option hook) (stack_trace : str) (m : LogMessage) (signal : Z)
| FHooked (stack_trace : str) (m : LogMessage) (signal : Z)
| FWaiting.

(** the process: running; std::exit(c); ended through exitWithDefaultSignalHandler; hanging in
    std::exit; std::terminate; g3log.cpp:67, 224, logworker.cpp:64 *)
Inductive status := Running | Exited (c : Z) | DefaultSignal (lv : LEVELS) (s : Z) | HangsAtExit | Terminate.

(** g3log.cpp:36-46, 98, 166 *)
Record global := mkG {
  g_initialized_once : bool;                       (* g_initialize_flag: installCrashHandler was called *)
  g_logger_instance : option nat;
  g_first_uninitialized_msg : option LogMessage;
  g_set_first : bool;                              (* g_set_first_uninitialized_flag *)
  g_save_first : bool;                             (* g_save_first_uninitialized_flag *)
  g_fatal_pre_logging_hook : option hook;
  g_fatal_function : option handler;
  g_counter : N;                                   (* g_fatal_hook_recursive_counter *)
  g_first_stack_trace : option str;                (* the static of line 166 *)
  g_status : status;
  g_threads : nat -> list frame;
  g_trace : list (nat * event)
}.

(** program start: static initialization; the threads have their scripts; g3log.cpp:36-46, 98 *)
Definition g_start (main : nat -> list op) : global :=
  mkG false None None false false None (Some HandlerDefault) 0 None Running (fun t => [FOps (main t)]) [].

(** ** updates *)
(** helper of this model, no source of its own *)
Definition emit (g : global) (t : nat) (es : list event) : global :=
  mkG (g_initialized_once g) (g_logger_instance g) (g_first_uninitialized_msg g) (g_set_first g) (g_save_first g)
      (g_fatal_pre_logging_hook g) (g_fatal_function g) (g_counter g) (g_first_stack_trace g) (g_status g)
      (g_threads g) (g_trace g ++ map (pair t) es).
(** helper of this model, no source of its own *)
Definition set_stack (g : global) (t : nat) (s : list frame) : global :=
  mkG (g_initialized_once g) (g_logger_instance g) (g_first_uninitialized_msg g) (g_set_first g) (g_save_first g)
      (g_fatal_pre_logging_hook g) (g_fatal_function g) (g_counter g) (g_first_stack_trace g) (g_status g)
      (fun x => if Nat.eqb x t then s else g_threads g x) (g_trace g).
(** helper of this model, no source of its own *)
Definition set_status (g : global) (s : status) : global :=
  mkG (g_initialized_once g) (g_logger_instance g) (g_first_uninitialized_msg g) (g_set_first g) (g_save_first g)
      (g_fatal_pre_logging_hook g) (g_fatal_function g) (g_counter g) (g_first_stack_trace g) s
      (g_threads g) (g_trace g).
(** g3log.cpp:77, 120 *)
Definition set_instance (g : global) (w : option nat) : global :=
  mkG (g_initialized_once g) w (g_first_uninitialized_msg g) (g_set_first g) (g_save_first g)
      (g_fatal_pre_logging_hook g) (g_fatal_function g) (g_counter g) (g_first_stack_trace g) (g_status g)
      (g_threads g) (g_trace g).
(** setFatalPreLoggingHook, g3log.cpp:91-95 *)
Definition setFatalPreLoggingHook (g : global) (h : option hook) : global :=
  mkG (g_initialized_once g) (g_logger_instance g) (g_first_uninitialized_msg g) (g_set_first g) (g_save_first g)
      h (g_fatal_function g) (g_counter g) (g_first_stack_trace g) (g_status g) (g_threads g) (g_trace g).
(** setFatalExitHandler, g3log.cpp:104-106 *)
Definition setFatalExitHandler (g : global) (h : option handler) : global :=
  mkG (g_initialized_once g) (g_logger_instance g) (g_first_uninitialized_msg g) (g_set_first g) (g_save_first g)
      (g_fatal_pre_logging_hook g) h (g_counter g) (g_first_stack_trace g) (g_status g) (g_threads g) (g_trace g).

(** an exception: to the innermost try block of the thread, or terminate; C++ language, no source in /repo *)
Fixpoint unwind (s : list frame) : option (list frame) :=
  match s with
  | [] => None
  | FCatch :: r => Some r
  | _ :: r => unwind r
  end.
(** throwing; g3log.cpp:167, 238 for empty std::function objects *)
Definition throw (g : global) (t : nat) (s : list frame) : global :=
  match unwind s with
  | Some r => set_stack (emit g t [EThrow]) t r
  | None => set_status (set_stack (emit g t [EThrow]) t []) Terminate
  end.

(** g3log.cpp:110-112 *)
Definition isLoggingInitialized (g : global) : bool := match g_logger_instance g with Some _ => true | None => false end.

(** std::exit runs the destructors of static objects.  [statics] are the workers owned by static objects;
    ~LogWorker (logworker.cpp:70-71) starts with shutDownLoggingForActiveOnly(this).
    Here the mutex of initializeLogging is held by the calling thread, so the first of them that gets
    to shutDownLogging (line 119) locks it a second time. *)
Definition exit_locked (g : global) (statics : list nat) : status :=
  if existsb (fun w => match g_logger_instance g with Some a => Nat.eqb a w | None => true end) statics
  then HangsAtExit else Exited 1.

(** g3log.cpp:55-83 *)
Definition initializeLogging (statics : list nat) (g0 : global) (t : nat) (bgworker : option nat) : global :=
  let g := mkG true (g_logger_instance g0) (g_first_uninitialized_msg g0) (g_set_first g0) (g_save_first g0)
      (g_fatal_pre_logging_hook g0) (g_fatal_function g0) (g_counter g0) (g_first_stack_trace g0) (g_status g0)
      (g_threads g0) (g_trace g0) in
  match isLoggingInitialized g, bgworker with
  | false, Some w =>
      let g1 :=
        if g_save_first g then g
        else
          let g' := mkG (g_initialized_once g) (g_logger_instance g) None (g_set_first g) true
                        (g_fatal_pre_logging_hook g) (g_fatal_function g) (g_counter g) (g_first_stack_trace g)
                        (g_status g) (g_threads g) (g_trace g) in
          match g_first_uninitialized_msg g with
          | Some m => emit g' t [ESaveFirst w m]
          | None => g'
          end in
      let g2 := setFatalPreLoggingHook (set_instance g1 (Some w)) (Some HookNop) in
      mkG (g_initialized_once g2) (g_logger_instance g2) (g_first_uninitialized_msg g2) (g_set_first g2) (g_save_first g2)
          (g_fatal_pre_logging_hook g2) (g_fatal_function g2) 0 (g_first_stack_trace g2) (g_status g2)
          (g_threads g2) (g_trace g2)
  | _, _ => set_status g (exit_locked g statics)
  end.

(** g3log.cpp:118-121 *)
Definition shutDownLogging (g : global) : global := set_instance g None.

(** g3log.cpp:193-209 *)
Definition not_initialized_text : str := lit "LOGGER NOT INITIALIZED:" ++ [NL; TAB; TAB].
(** g3log.cpp:200-202 *)
Definition replace_text (m : LogMessage) (s : str) : LogMessage :=
  mkMsg (_logDetailsToStringFunc m) (_timestamp m) (_call_thread_id m) (Message._file m) (_file_path m) (_line m)
        (_function m) (_level m) (_expression m) s.
(** g3log.cpp:193-209 *)
Definition pushMessageToLogger (g : global) (t : nat) (incoming : LogMessage) : global :=
  match g_logger_instance g with
  | Some w => emit g t [ESave w incoming]
  | None =>
      if g_set_first g then g
      else
        let err := not_initialized_text ++ msg_message incoming in
        emit (mkG (g_initialized_once g) (g_logger_instance g) (Some (replace_text incoming err)) true (g_save_first g)
                  (g_fatal_pre_logging_hook g) (g_fatal_function g) (g_counter g) (g_first_stack_trace g)
                  (g_status g) (g_threads g) (g_trace g)) t [EStderr (err ++ nl)]
  end.

(** g3log.cpp:129-139 *)
Definition shutDownLoggingForActiveOnly (g : global) (t : nat) (active : option nat) (warning : option LogMessage) : global :=
  match g_logger_instance g, active with
  | Some a, Some w =>
      if negb (Nat.eqb w a) then
        emit (match warning with Some m => pushMessageToLogger g t m | None => g end) t [EReturn false]
      else emit (shutDownLogging g) t [EReturn true]
  | _, _ => emit (shutDownLogging g) t [EReturn true]
  end.

(** g3log.cpp:168-178 *)
Definition recursive_warning (first : str) : str :=
  [NL; NL; NL] ++ lit "WARNING" ++ nl ++
  lit "A recursive crash detected. It is likely the hook set with 'setFatalPreLoggingHook(...)' is responsible" ++
  [NL; NL] ++ lit "---First crash stacktrace: " ++ first ++ nl ++ lit "---End of first stacktrace" ++ nl.
(** g3log.cpp:168-178 *)
Definition finish_message (g : global) (stack_trace : str) (m : LogMessage) (signal : Z) : FatalMessage :=
  let m1 := write_append m stack_trace in
  let m2 := if (1 <? g_counter g)%N
            then write_append m1 (recursive_warning (match g_first_stack_trace g with Some f => f | None => [] end))
            else m1 in
  new_FatalMessage m2 signal.

(** g3log.cpp:216-239: the rest of saveFatalMessage, fatalCall and pushFatalMessageToLogger.  [r]: the rest of
    the stack *)
Definition fatalCall (handler_body : nat -> list op) (g : global) (t : nat) (r : list frame) (f : FatalMessage) : global :=
  match g_fatal_function g with
  | None => throw g t r
  | Some (Handler n) => set_stack (emit g t [EHandler n f]) t (FOps (handler_body n) :: r)
  | Some HandlerDefault =>
      match g_logger_instance g with
      | None => set_status (set_stack (emit g t [EStderrFatal f]) t []) (DefaultSignal (_level (f_msg f)) (_signal_id f))
      | Some w => set_stack (emit g t [EFatal w f]) t (FWaiting :: r)
      end
  end.

Section Steps.
Variable hook_body handler_body : nat -> list op.
Variable statics : list nat.

(** one call; the rest of the stack is already in place; g3log.cpp:55-106, 118-158 *)
Definition do_op (g0 : global) (t : nat) (r : list frame) (o : op) : global :=
  let g := emit (set_stack g0 t r) t [EOp o] in
  match o with
  | OInit w => initializeLogging statics g t w
  | OShutdown => shutDownLogging g
  | OShutdownFor w warning => shutDownLoggingForActiveOnly g t w warning
  | OLog m => pushMessageToLogger g t m
  | OFatal stack_trace m signal => set_stack g t (FCopied (g_fatal_pre_logging_hook g) stack_trace m signal :: r)
  | OSetHook h => setFatalPreLoggingHook g h
  | OSetExit h => setFatalExitHandler g h
  | OThrow => throw g t r
  | OTry l => set_stack g t (FOps l :: FCatch :: r)
  end.

(** g3log.cpp:161: setFatalPreLoggingHook(g_pre_fatal_hook_that_does_nothing) *)
Definition do_reset (g : global) (t : nat) (r : list frame) (h : option hook) (stack_trace : str) (m : LogMessage) (signal : Z) : global :=
  setFatalPreLoggingHook (set_stack g t (FReset h stack_trace m signal :: r)) (Some HookNop).

(** g3log.cpp:162-167 *)
Definition do_count (g0 : global) (t : nat) (r : list frame) (h : option hook) (stack_trace : str) (m : LogMessage) (signal : Z) : global :=
  let g := emit (mkG (g_initialized_once g0) (g_logger_instance g0) (g_first_uninitialized_msg g0) (g_set_first g0)
      (g_save_first g0) (g_fatal_pre_logging_hook g0) (g_fatal_function g0) (sz (g_counter g0 + 1))
      (Some (match g_first_stack_trace g0 with Some f => f | None => stack_trace end)) (g_status g0)
      (g_threads g0) (g_trace g0)) t [EStart stack_trace] in
  match h with
  | None => throw g t r                                                    (* std::bad_function_call *)
  | Some HookNop => set_stack g t (FHooked stack_trace m signal :: r)
  | Some (Hook n) => set_stack (emit g t [EHook n]) t (FOps (hook_body n) :: FHooked stack_trace m signal :: r)
  end.

(** the next step of thread t; g3log.cpp:55-239 in the steps described at the top *)
Definition gstep (g : global) (t : nat) : global :=
  match g_status g with
  | Running =>
      match g_threads g t with
      | [] => g
      | FOps [] :: r => set_stack g t r
      | FOps (o :: l) :: r => do_op g t (FOps l :: r) o
      | FCatch :: r => set_stack g t r
      | FCopied h st m s :: r => do_reset g t r h st m s
      | FReset h st m s :: r => do_count g t r h st m s
      | FHooked st m s :: r => fatalCall handler_body (set_stack g t r) t r (finish_message g st m s)
      | FWaiting :: _ => g
      end
  | _ => g
  end.

(** a schedule; helper of this model, no source of its own *)
Definition grun (g : global) (sched : list nat) : global := fold_left gstep sched g.
End Steps.

(** logworker.cpp:38-61: the message bgFatal sends to the sinks *)
Definition bgFatal_message (f : FatalMessage) : LogMessage :=
  let reason := reason f in
  let m1 := write_append (f_msg f) ([NL] ++ lit "Exiting after fatal event  (" ++ msg_level (f_msg f)) in
  copyMsg (write_append m1 (lit "). " ++ lit "Fatal type: " ++ lit " " ++ reason ++ nl ++
                            lit "Log content flushed successfully to sink" ++ [NL; NL])).

(** g3log.cpp:218-223: what is written to stderr for a fatal event without a logger *)
Definition uninitialized_fatal_text (e : env) (f : FatalMessage) : fres :=
  fbind (snd (toString e (f_msg f))) (fun s =>
  FOk (lit "FATAL CALL but logger is NOT initialized" ++ nl ++ lit "CAUSE: " ++ reason f ++ nl ++ lit "Message: " ++ nl ++ s)).
