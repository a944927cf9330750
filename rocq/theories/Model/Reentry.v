(** Calls of the library from its own threads: src/g3log/active.hpp, src/g3log/sink.hpp, src/logworker.cpp, src/g3log.cpp.
    In Model/Worker.v every client has a thread of its own.  Here a client may be code that runs on the thread of a sink (its receive
    function, a function called through a handle, a signal handler that interrupts the thread) or on the thread of the worker
    (the destructor of a client's sink object, a signal handler).  The thread goes on only when the call has returned.

    Simplifications, besides those of Model/Worker.v:
    - a signal interrupts a thread between the steps of the model, not in the middle of a library call;
    - std::thread::join of the own thread throws std::system_error, as the C++ standard demands; ~Active is noexcept, so the program is terminated. *)
From Coq Require Import List Arith Bool.
From Verif.Base Require Import Threads.
From Verif.Model Require Import Worker.
Import ListNotations.

(** the thread on which a client's calls run; active.hpp:60-64 starts the threads of sinks and worker *)
Inductive thread := OwnThread | OnSink (k : nat) | OnWorker.
(** helper of this model, no source of its own *)
Definition same_thread (a b : thread) : bool :=
  match a, b with OnSink j, OnSink k => Nat.eqb j k | OnWorker, OnWorker => true | _, _ => false end.

(** no client call is in progress on thread t; helper of this model, no source of its own *)
Definition free (host : nat -> thread) (s : wstate) (t : thread) : bool :=
  forallb (fun i => negb (same_thread (host i) t) || idle s i) (seq 0 (length (w_cl s))).

(** client code runs on sink k: in the receive function or in a function called through a handle; sink.hpp:64-73, active.hpp:41 *)
Definition in_callback (s : wstate) (k : nat) : bool := match k_run (sk s k) with Some (JMsg _) | Some (JCall _) => true | _ => false end.
(** client code runs on the worker: the destructor of the client's object, after the join of the sink's thread; sink.hpp:38, 60-62 *)
Definition in_destructor (s : wstate) : bool := match w_pc s with WJoin k _ _ => k_exit (sk s k) | _ => false end.
(** can client i begin a call? *)
Definition may_call (host : nat -> thread) (s : wstate) (i : nat) : bool :=
  match host i with
  | OwnThread => true
  | OnSink k => free host s (OnSink k) && in_callback s k
  | OnWorker => free host s OnWorker && in_destructor s
  end.
(** can a fatal event happen on the thread of client i?  A signal such as SIGTERM (crashhandler_unix.cpp:42-48) may be delivered to any thread that has not ended *)
Definition may_fail (host : nat -> thread) (s : wstate) (i : nat) : bool :=
  match host i with
  | OwnThread => true
  | OnSink k => free host s (OnSink k) && negb (k_exit (sk s k))
  | OnWorker => free host s OnWorker && match w_pc s with WExit => false | _ => true end
  end.

(** is the action possible for the thread that does it? *)
Definition allowed (host : nat -> thread) (s : wstate) (a : waction) : bool :=
  match a with
  | AWork => free host s OnWorker
  | ASinkPop k | ASinkEnd k _ | ASinkExit k => free host s (OnSink k)
  | ALog i | AAdd i | ARemove i _ | ARemoveAll i | ACall i _ | ALock i _ | ARelease i _ | ADestroy i => may_call host s i
  | AFatal i => may_fail host s i
  | AGo _ | AShutDown | AInit => true
  end.
(** does the action join the thread that it runs on?  active.hpp:52 *)
Definition self_join (host : nat -> thread) (s : wstate) (a : waction) : bool :=
  match a with AGo i => match c_pc (cl s i) with CJoin k _ => same_thread (host i) (OnSink k) | DJoin _ => same_thread (host i) OnWorker | _ => false end | _ => false end.
(** one step *)
Definition rstep (host : nat -> thread) (s : wstate) (a : waction) : option wstate :=
  if allowed host s a then
    if self_join host s a then match w_proc s with PRun => Some (set_proc s PTerm) | _ => None end
    else wstep s a
  else None.

(** helper of this model, no source of its own *)
Inductive rsteps (host : nat -> thread) : wstate -> wstate -> Prop :=
| rs_refl : forall s, rsteps host s s
| rs_step : forall s s1 a s2, rsteps host s s1 -> rstep host s1 a = Some s2 -> rsteps host s s2.
(** executions; helper of this model, no source of its own *)
Definition rreach (host : nat -> thread) (n : nat) (s : wstate) : Prop := rsteps host (w_init n) s.
(** a schedule, step by step; helper of this model, no source of its own *)
Fixpoint rrun (host : nat -> thread) (s : wstate) (l : list waction) : option wstate :=
  match l with [] => Some s | a :: r => match rstep host s a with Some s' => rrun host s' r | None => None end end.
