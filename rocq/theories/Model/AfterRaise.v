(** A fatal event on Unix whose signal, when it is raised again, does not end the process: it is ignored, or the program's own handler for
    it returns, or the process is number 1 (the case the comment at crashhandler_unix.cpp:237-239 is about).
    Source: src/crashhandler_unix.cpp:53-84, 222-243, src/g3log.cpp:143-184, 193-230, src/logworker.cpp:23-36, 38-68, 70-99,
    src/g3log/logworker.hpp:125-131.

    Thread 0 is the background thread of the worker, the others are the program's.  Simplifications: entries are numbers; the hook does
    nothing and the exit handler is g3log's; isLoggingInitialized() and the use of the pointer are one step (C94); a thread in a fatal
    call gets no further signal (C73); no fatal event happens on a sink's or the background thread (C89); the 64 bits of firstExit do
    not run over; static objects are only those whose destructor matters here, and entries that are logged while they are destroyed are
    C112; calling exit a second time is undefined (C11 7.22.4.4). *)
From Coq Require Import List ZArith Bool PeanoNat.
From Verif.Model Require Import Signals.
Import ListNotations.
Local Open Scope list_scope.

(** the queue of the background thread: logworker.cpp:102, 106 *)
Inductive atask := QSave (m : nat) | QFatal (s : Z) (m : nat).

(** what a thread does when it has left the loop of g3log.cpp:227-229: it goes on behind LOG(FATAL) or CHECK; or it returns from
    signalHandler (crashhandler_unix.cpp:84), and [again]: the faulting instruction is repeated and now ends the process *)
Inductive akind := KMacro | KSignal (s : Z) (again : bool).

(** a thread: running; in the loop crashhandler_unix.cpp:68-70; in the loop g3log.cpp:227-229; logworker.cpp:63; before
    crashhandler_unix.cpp:235; in exit(s), crashhandler_unix.cpp:242; waiting for ever *)
Inductive athread :=
| ARun | AFirst (s : Z) (again : bool) (m : nat) | AWait (k : akind) | AClear (s : Z) | ARaise (s : Z) | AExit (s : Z) | AStuck.

(** how the process ended; helper of this model, no source of its own *)
Inductive aend := BySignal (s : Z) | ByCode (s : Z) | Undefined.

(** [a_init]: g_logger_instance is not null; a sink: what it has received and what is in its queue; [a_block]: gBlockForFatal;
    [a_first]: firstExit is not 0; [a_restored]: the original signal handlers are back; [a_exiting]: exit was called; [a_statics]: the
    static objects that are still there, true: it owns the worker; [a_past]: threads that a fatal call let go on (history).
    g3log.cpp:36-47, crashhandler_unix.cpp:40, 51, 54, logworker.hpp:33-34 *)
Record aproc := mkA {
  a_init : bool;
  a_queue : list atask;
  a_sinks : list (list nat * list nat);
  a_block : bool;
  a_first : bool;
  a_restored : bool;
  a_exiting : bool;
  a_statics : list bool;
  a_threads : nat -> athread;
  a_past : list nat;
  a_end : option aend
}.
(** helpers of this model, no source of their own *)
Definition a_thread (p : aproc) (t : nat) (x : athread) : aproc :=
  mkA (a_init p) (a_queue p) (a_sinks p) (a_block p) (a_first p) (a_restored p) (a_exiting p) (a_statics p) (updn (a_threads p) t x) (a_past p) (a_end p).
Definition a_push (p : aproc) (q : atask) : aproc :=
  mkA (a_init p) (a_queue p ++ [q]) (a_sinks p) (a_block p) (a_first p) (a_restored p) (a_exiting p) (a_statics p) (a_threads p) (a_past p) (a_end p).
Definition a_finish (p : aproc) (e : aend) : aproc :=
  mkA (a_init p) (a_queue p) (a_sinks p) (a_block p) (a_first p) (a_restored p) (a_exiting p) (a_statics p) (a_threads p) (a_past p) (Some e).
Definition a_goes_on (p : aproc) (t : nat) : aproc :=
  mkA (a_init p) (a_queue p) (a_sinks p) (a_block p) (a_first p) (a_restored p) (a_exiting p) (a_statics p) (updn (a_threads p) t ARun) (a_past p ++ [t]) (a_end p).
Definition a_destroyed (p : aproc) (l : list bool) : aproc :=
  mkA (a_init p) (a_queue p) (a_sinks p) (a_block p) (a_first p) (a_restored p) (a_exiting p) l (a_threads p) (a_past p) (a_end p).
(** a process with n sinks after initializeLogging; helper of this model, no source of its own *)
Definition a_start (n : nat) (statics : list bool) : aproc :=
  mkA true [] (repeat ([], []) n) true false false false statics (fun _ => ARun) [] None.

(** exitWithDefaultSignalHandler in thread t: the handlers are restored, the signal is raised; if that returns, everybody who waits is let
    go and exit is called.  crashhandler_unix.cpp:222-243.  [kills s]: the original handling of s ends the process *)
Definition leave (kills : Z -> bool) (p : aproc) (t : nat) (s : Z) : aproc :=
  let p1 := mkA (a_init p) (a_queue p) (a_sinks p) (a_block p) (a_first p) true (a_exiting p) (a_statics p) (a_threads p) (a_past p) (a_end p) in
  if kills s then a_finish p1 (BySignal s)
  else if a_exiting p then a_finish p1 Undefined
  else mkA (a_init p) (a_queue p) (a_sinks p) false (a_first p) true true (a_statics p) (updn (a_threads p) t (AExit s)) (a_past p) (a_end p).

(** the end of a fatal LogCapture: g3log.cpp:157-184, 216-230 *)
Definition a_fatal (kills : Z -> bool) (p : aproc) (t : nat) (s : Z) (m : nat) (k : akind) : aproc :=
  if a_init p then a_thread (a_push p (QFatal s m)) t (AWait k) else leave kills p t s.

(** what can happen; VBg: logworker.cpp:23-68, VSink: active.hpp:37-42, VWake: g3log.cpp:227-229, crashhandler_unix.cpp:68-70 *)
Inductive aev :=
| VLog (t m : nat)                                   (* a LOG below FATAL *)
| VFatal (t m : nat)                                 (* LOG(FATAL) or a CHECK that fails *)
| VSignal (t : nat) (s : Z) (again : bool) (m : nat) (* a signal that g3log has taken over; m: the entry signalHandler makes *)
| VWake (t : nat)                                    (* the end of the sleep in one of the two loops *)
| VBg                                                (* the background thread takes a step *)
| VSink (i : nat)                                    (* sink i gets its next entry *)
| VExit (t : nat).                                   (* thread t, in exit, destroys the next static object *)

(** the signal that LOG(FATAL) and CHECK stand for; logcapture.cpp:57, 62 *)
Definition ABORT : Z := 6%Z.

(** one sink, active.hpp:37-42 *)
Fixpoint sink_step (i : nat) (l : list (list nat * list nat)) : option (list (list nat * list nat)) :=
  match l, i with
  | [], _ => None
  | (got, m :: q) :: r, 0 => Some ((got ++ [m], q) :: r)
  | (_, []) :: _, 0 => None
  | x :: r, S j => match sink_step j r with Some r' => Some (x :: r') | None => None end
  end.
(** logworker.cpp:26-29, 56-59 *)
Definition a_send (m : nat) (l : list (list nat * list nat)) : list (list nat * list nat) := map (fun x => (fst x, snd x ++ [m])) l.

(** the background thread; logworker.cpp:23-36, 38-64.  Clearing the sinks waits until each has received everything (C04) *)
Definition bg_step (kills : Z -> bool) (p : aproc) : option aproc :=
  match a_threads p 0 with
  | ARun =>
      match a_queue p with
      | [] => None
      | QSave m :: q =>
          Some (mkA (a_init p) q (a_send m (a_sinks p)) (a_block p) (a_first p) (a_restored p) (a_exiting p) (a_statics p) (a_threads p) (a_past p) (a_end p))
      | QFatal s m :: q =>
          Some (mkA false q (a_send m (a_sinks p)) (a_block p) (a_first p) (a_restored p) (a_exiting p) (a_statics p) (updn (a_threads p) 0 (AClear s))
                    (a_past p) (a_end p))
      end
  | AClear s => if forallb (fun x => match snd x with [] => true | _ => false end) (a_sinks p) then Some (a_thread p 0 (ARaise s)) else None
  | ARaise s => Some (leave kills p 0 s)
  | _ => None
  end.

(** the destructor of a static object, or the end of exit.  ~LogWorker waits in removeAllSinks for the background thread
    (logworker.cpp:83, logworker.hpp:125-131), which is itself in exit or in bgFatal and takes nothing from its queue any more *)
Definition exit_step (p : aproc) (t : nat) : option aproc :=
  match a_threads p t with
  | AExit s =>
      match a_statics p with
      | [] => Some (a_finish p (ByCode s))
      | false :: r => Some (a_destroyed p r)
      | true :: r => Some (a_thread (a_destroyed p r) t AStuck)
      end
  | _ => None
  end.

(** a signal at a running thread.  With the original handling back it ends the process or is ignored (handled by the program); else
    signalHandler, crashhandler_unix.cpp:62-84 *)
Definition signal_step (kills : Z -> bool) (p : aproc) (t : nat) (s : Z) (again : bool) (m : nat) : aproc :=
  if a_restored p then (if kills s || again then a_finish p (BySignal s) else p)
  else if a_first p then a_thread p t (AFirst s again m)
  else a_fatal kills (mkA (a_init p) (a_queue p) (a_sinks p) (a_block p) true (a_restored p) (a_exiting p) (a_statics p) (a_threads p) (a_past p) (a_end p))
               t s m (KSignal s again).

(** the loops crashhandler_unix.cpp:68-70 and g3log.cpp:227-229 and what follows; None: the thread sleeps on *)
Definition wake_step (kills : Z -> bool) (p : aproc) (t : nat) : option aproc :=
  if a_block p then None
  else match a_threads p t with
       | AFirst s again m => Some (a_fatal kills p t s m (KSignal s again))
       | AWait KMacro => Some (a_goes_on p t)
       | AWait (KSignal s again) => Some (if again then a_finish p (BySignal s) else a_goes_on p t)
       | _ => None
       end.

(** a thread of the program that runs; helper of this model, no source of its own *)
Definition a_running (p : aproc) (t : nat) : bool :=
  negb (Nat.eqb t 0) && match a_threads p t with ARun => true | _ => false end.

(** one step; None: not possible now.  VLog: g3log.cpp:193-208 *)
Definition astep (kills : Z -> bool) (p : aproc) (e : aev) : option aproc :=
  match a_end p with
  | Some _ => None
  | None =>
      match e with
      | VLog t m => if a_running p t then Some (if a_init p then a_push p (QSave m) else p) else None
      | VFatal t m => if a_running p t then Some (a_fatal kills p t ABORT m KMacro) else None
      | VSignal t s again m => if a_running p t then Some (signal_step kills p t s again m) else None
      | VWake t => wake_step kills p t
      | VBg => bg_step kills p
      | VSink i => match sink_step i (a_sinks p) with
                   | Some l => Some (mkA (a_init p) (a_queue p) l (a_block p) (a_first p) (a_restored p) (a_exiting p) (a_statics p) (a_threads p)
                                         (a_past p) (a_end p))
                   | None => None
                   end
      | VExit t => exit_step p t
      end
  end.
(** helper of this model, no source of its own *)
Fixpoint arun (kills : Z -> bool) (p : aproc) (l : list aev) : option aproc :=
  match l with
  | [] => Some p
  | e :: r => match astep kills p e with Some p' => arun kills p' r | None => None end
  end.
