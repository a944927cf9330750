(** The life of a process: the calls of Model/Global.v together with the signal table of Model/Signals.v.
    Source: src/g3log.cpp:55-83, 216-230, src/crashhandler_unix.cpp:53-110, 222-243, src/logworker.cpp:43-68.

    One step = one step of Model/Global.v, one call of Model/Signals.v, a signal, or the end of the worker's work on a fatal message.
    Simplifications: signals come between the steps of Model/Global.v (inside them: Model/Interrupt.v); a signal that is blocked in its thread is lost;
    what the worker still writes before it ends the process is the subject of Model/Worker.v; an activation of
    signalHandler that is not the first one waits for ever (crashhandler_unix.cpp:240 only happens just before exit). *)
From Coq Require Import List ZArith NArith Bool.
From Verif.Base Require Import Bytes.
From Verif.Model Require Import Levels Message Signals Global.
Import ListNotations.
Local Open Scope list_scope.
Local Open Scope Z_scope.

(** [l_in]: activations of signalHandler by thread and signal, with the number of activities of the thread below; [l_abort]: threads
    that are in abort(), as [l_in].  g3log.cpp:36-46, crashhandler_unix.cpp:42-57 *)
Record life := mkL {
  l_g : global;
  l_s : sigs;
  l_count : N;                        (* firstExit, crashhandler_unix.cpp:54 *)
  l_in : list (nat * Z * nat);
  l_abort : list (nat * nat);
  l_fin : option ending               (* how the process has ended *)
}.

(** what can happen: a thread does its next step; a client calls something of Model/Signals.v; a signal comes to a thread; worker w has
    written everything up to the fatal message and ends the process: logworker.cpp:43-68 *)
Inductive lact := LCall (t : nat) | LSig (o : sop) | LSignal (t : nat) (s : Z) | LWorker (w : nat).

(** the start of the process; g3log.cpp:36-46, crashhandler_unix.cpp:42-57 *)
Definition l_start (main : nat -> list op) (base : Z -> disp) : life := mkL (g_start main) (start base) 0 [] [] None.

(** the fatal message that is the first in worker w's queue; logworker.cpp:43, 128 *)
Fixpoint first_fatal (w : nat) (tr : list (nat * event)) : option FatalMessage :=
  match tr with
  | [] => None
  | (_, EFatal v f) :: r => if Nat.eqb v w then Some f else first_fatal w r
  | _ :: r => first_fatal w r
  end.

(** is thread t inside signalHandler for s? crashhandler_unix.cpp:89-96: the mask is empty and SA_NODEFER is not set, so s itself is blocked *)
Definition in_handler (L : life) (t : nat) (s : Z) : bool :=
  existsb (fun x => match x with (u, n, _) => Nat.eqb u t && (n =? s) end) (l_in L).

Section Life.
Variable hook_body handler_body : nat -> list op.
Variable statics : list nat.
Variable disabled : bool.
Variable catchable : Z -> bool.
Variable kills : Z -> bool.           (* signals whose default action ends the process *)
Variable ends : nat -> bool.          (* the client's handlers that do not return *)
Variable pid1 : bool.
(** the stack dump and the message of signalHandler: crashhandler_unix.cpp:74-82, see Model/CrashText.v *)
Variable dump : nat -> Z -> str.
Variable message : nat -> Z -> LogMessage.

(** helper of this model, no source of its own *)
Definition l_world (L : life) (inside : bool) : world := mkWorld kills ends pid1 (0 <? l_count L)%N inside.
(** crashhandler_unix.cpp:222-243 *)
Definition l_exit (L : life) (inside : bool) (s : Z) : life :=
  let r := exitWithDefaultSignalHandler disabled catchable (l_world L inside) (l_s L) s in
  mkL (l_g L) (fst r) (l_count L) (l_in L) (l_abort L) (Some (snd r)).
(** helper of this model, no source of its own *)
Definition l_end (L : life) (e : ending) : life := mkL (l_g L) (l_s L) (l_count L) (l_in L) (l_abort L) (Some e).

(** signalHandler starts in thread t: crashhandler_unix.cpp:62-84; the first one of the process reports, the others wait *)
Definition l_handle (L : life) (t : nat) (s : Z) : life :=
  let g := l_g L in
  let below := g_threads g t in
  mkL (set_stack g t ((if (l_count L =? 0)%N then FOps [OFatal (dump t s) (message t s) s] else FWaiting) :: below))
      (l_s L) (sz (l_count L + 1)) ((t, s, length below) :: l_in L) (l_abort L) (l_fin L).

(** the system takes the action for signal s in thread t; POSIX *)
Definition l_deliver (L : life) (t : nat) (s : Z) : life :=
  match table (l_s L) s with
  | Dfl => if kills s && negb pid1 then l_end L (Killed s) else L
  | Ign => L
  | User n => if ends n then l_end L (EndedByHandler n) else L
  | G3log => l_handle L t s
  end.
(** a signal comes to thread t; POSIX *)
Definition l_signal (L : life) (t : nat) (s : Z) : life := if in_handler L t s then L else l_deliver L t s.

(** std::terminate calls abort(), which unblocks and raises SIGABRT, and if that comes back takes the default action and raises it again; POSIX.
    [t] has no activities any more *)
Definition l_terminate (L : life) (t : nat) : life :=
  let L1 := mkL (set_status (l_g L) Running) (l_s L) (l_count L) (l_in L) ((t, length (g_threads (l_g L) t)) :: l_abort L) (l_fin L) in
  l_deliver L1 t SIGABRT.

(** activations that are over are forgotten; helper of this model, no source of its own *)
Definition l_return (L : life) (t : nat) : life :=
  let n := length (g_threads (l_g L) t) in
  mkL (l_g L) (l_s L) (l_count L) (filter (fun x => match x with (u, _, d) => negb (Nat.eqb u t) || (d <? n)%nat end) (l_in L)) (l_abort L) (l_fin L).
(** is thread t back in abort()? *)
Definition back_in_abort (L : life) (t : nat) : bool :=
  existsb (fun x => Nat.eqb (fst x) t && (length (g_threads (l_g L) t) <=? snd x)%nat) (l_abort L).

(** a step of thread t.  The first initializeLogging of the process installs the crash handler: g3log.cpp:56-58 *)
Definition l_call (L : life) (t : nat) : life :=
  if back_in_abort L t then l_end L (Killed SIGABRT)
  else
    let g := gstep hook_body handler_body statics (l_g L) t in
    let s := if negb (g_initialized_once (l_g L)) && g_initialized_once g then installCrashHandler disabled catchable (l_s L) else l_s L in
    let L1 := l_return (mkL g s (l_count L) (l_in L) (l_abort L) (l_fin L)) t in
    match g_status g with
    | Running => L1
    | DefaultSignal _ n => l_exit L1 (in_handler L t n) n
    | Exited c => l_end L1 (ExitCode c)
    | HangsAtExit => l_end L1 Stuck
    | Terminate => l_terminate L1 t
    end.

(** one step; g3log.cpp:55-239, crashhandler_unix.cpp:53-327, logworker.cpp:43-68 *)
Definition lstep (L : life) (a : lact) : life :=
  match l_fin L with
  | Some _ => L
  | None =>
      match a with
      | LCall t => l_call L t
      | LSig o => mkL (l_g L) (sstep disabled catchable (l_s L) o) (l_count L) (l_in L) (l_abort L) None
      | LSignal t s => l_signal L t s
      | LWorker w => match first_fatal w (g_trace (l_g L)) with Some f => l_exit L false (_signal_id f) | None => L end
      end
  end.
(** helper of this model, no source of its own *)
Definition lrun (L : life) (l : list lact) : life := fold_left lstep l L.
End Life.
