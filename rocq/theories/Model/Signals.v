(** The signal handling.  Source: src/crashhandler_unix.cpp:38-110, 193-327.

    The kernel's part is modelled by the table of signal dispositions of the process and by
    [catchable]: the signals for which sigaction succeeds (it fails for SIGKILL, SIGSTOP and numbers
    that are no signals).  Of a struct sigaction only the handler is kept; masks and flags travel with
    it.  [disabled] = DISABLE_FATAL_SIGNALHANDLING is defined. *)
From Coq Require Import Ascii String List ZArith NArith Bool.
From Verif.Base Require Import Bytes.
From Verif.Model Require Import Levels Message.
Import ListNotations.
Local Open Scope Z_scope.
Local Open Scope list_scope.

(** default action, ignored, a handler of the client, g3log's signalHandler *)
Inductive disp := Dfl | Ign | User (n : nat) | G3log.

(** std::map<int, std::string> as the list of its pairs in iteration order; [ins] is insert(); crashhandler_unix.cpp:42, 50 *)
Definition smap := list (Z * str).
(** std::map::insert, which keeps an entry that exists *)
Fixpoint ins (m : smap) (k : Z) (v : str) : smap :=
  match m with
  | [] => [(k, v)]
  | (k', v') :: r =>
      if k <? k' then (k, v) :: m
      else if k =? k' then m
      else (k', v') :: ins r k v
  end.
(** the map made from an initializer list; C++ standard library, no source in /repo *)
Definition smap_of (l : list (Z * str)) : smap := fold_left (fun m kv => ins m (fst kv) (snd kv)) l [].

(** crashhandler_unix.cpp:42-48 *)
Definition kSignals : smap :=
  smap_of [(SIGABRT, lit "SIGABRT"); (SIGFPE, lit "SIGFPE"); (SIGILL, lit "SIGILL"); (SIGSEGV, lit "SIGSEGV");
           (SIGTERM, lit "SIGTERM")].

(** the kernel's table and the globals of lines 50-51; [gSavedSigActions] by key *)
Record sigs := mkSigs { table : Z -> disp; gSignals : smap; gSavedSigActions : Z -> option disp }.

(** helper of this model, no source of its own *)
Definition upd {A : Type} (f : Z -> A) (k : Z) (v : A) : Z -> A := fun x => if x =? k then v else f x.

(** sigaction(s, &a, &old): None = failure; POSIX; called at crashhandler_unix.cpp:101 and 299 *)
Definition sigaction (catchable : Z -> bool) (t : Z -> disp) (s : Z) (a : disp) : option ((Z -> disp) * disp) :=
  if catchable s then Some (upd t s a, t s) else None.

(** crashhandler_unix.cpp:98-108, one round of the loop *)
Definition install_one (catchable : Z -> bool) (st : sigs) (sig_pair : Z * str) : sigs :=
  match sigaction catchable (table st) (fst sig_pair) G3log with
  | None => st
  | Some (t, old) => mkSigs t (gSignals st) (upd (gSavedSigActions st) (fst sig_pair) (Some old))
  end.

(** crashhandler_unix.cpp:89-110, and installCrashHandler, 325-327 *)
Definition installSignalHandler (disabled : bool) (catchable : Z -> bool) (st : sigs) : sigs :=
  if disabled then st else fold_left (install_one catchable) (gSignals st) st.
(** crashhandler_unix.cpp:325-327 *)
Definition installCrashHandler := installSignalHandler.

(** crashhandler_unix.cpp:292-307 *)
Definition restoreSignalHandler (disabled : bool) (catchable : Z -> bool) (st : sigs) (signal_number : Z) : sigs :=
  if disabled then st
  else match gSavedSigActions st signal_number with
       | None => st
       | Some old =>
           let t := match sigaction catchable (table st) signal_number old with Some (t, _) => t | None => table st end in
           mkSigs t (gSignals st) (upd (gSavedSigActions st) signal_number None)
       end.

(** the loop of lines 227-229 and 314-316 *)
Definition restore_all (disabled : bool) (catchable : Z -> bool) (st : sigs) : sigs :=
  fold_left (fun st sig => restoreSignalHandler disabled catchable st (fst sig)) (gSignals st) st.

(** crashhandler_unix.cpp:311-320 (the lock is not needed here: one call after the other) *)
Definition overrideSetupSignals (disabled : bool) (catchable : Z -> bool) (st : sigs) (overrideSignals : smap) : sigs :=
  let st1 := restore_all disabled catchable st in
  installCrashHandler disabled catchable (mkSigs (table st1) overrideSignals (gSavedSigActions st1)).

(** crashhandler_unix.cpp:270-274 *)
Definition restoreFatalHandlingToDefault (disabled : bool) (catchable : Z -> bool) (st : sigs) : sigs :=
  if disabled then st else overrideSetupSignals disabled catchable st kSignals.

(** What clients do: the calls above (a map is given by the list it is made from) and sigaction calls of
    their own.  crashhandler_unix.cpp:270-327 *)
Inductive sop :=
| SInstall
| SOverride (l : list (Z * str))
| SRestore (s : Z)
| SDefault
| SClient (s : Z) (d : disp).

(** crashhandler_unix.cpp:270-327: the effect of one call *)
Definition sstep (disabled : bool) (catchable : Z -> bool) (st : sigs) (o : sop) : sigs :=
  match o with
  | SInstall => installCrashHandler disabled catchable st
  | SOverride l => overrideSetupSignals disabled catchable st (smap_of l)
  | SRestore s => restoreSignalHandler disabled catchable st s
  | SDefault => restoreFatalHandlingToDefault disabled catchable st
  | SClient s d =>
      match sigaction catchable (table st) s d with
      | None => st
      | Some (t, _) => mkSigs t (gSignals st) (gSavedSigActions st)
      end
  end.
(** helper of this model, no source of its own *)
Definition srun (disabled : bool) (catchable : Z -> bool) (st : sigs) (os : list sop) : sigs :=
  fold_left (sstep disabled catchable) os st.

(** the state at program start, with the signal table the program inherited or set up; crashhandler_unix.cpp:42-51 *)
Definition start (base : Z -> disp) : sigs := mkSigs base kSignals (fun _ => None).

(** ** the end of the process *)
(** How a process ends, or [Stuck]: it never does.  Outcomes of crashhandler_unix.cpp:222-243 *)
Inductive ending := Killed (s : Z) | EndedByHandler (n : nat) | ExitCode (c : Z) | Stuck.

(** what raise() depends on: the signals whose default action ends the process, the client handlers that
    do not return, whether the process is PID 1 (default actions then have no effect), whether
    a fatal signal came in before ([first_taken]: the counter of shouldDoExit is not 0), and whether the
    call happens inside signalHandler for that very signal, where the signal is blocked (no SA_NODEFER):
    g3log.cpp:217-225, a signal while logging is not initialized *)
Record world := mkWorld { w_kills : Z -> bool; w_ends : nat -> bool; w_pid1 : bool; w_first_taken : bool; w_in_handler : bool }.

(** crashhandler_unix.cpp:235-242: raise, then exit.  With g3log's own handler still in place the raise
    comes back to signalHandler: it blocks for ever (gBlockForFatal is still true) if a fatal
    signal was handled before; otherwise it is reported (logging is shut down, so at once), the
    second raise of the then blocked signal has no effect and exit follows. *)
Definition raise_and_exit (w : world) (d : disp) (s : Z) : ending :=
  if w_in_handler w then ExitCode s
  else match d with
  | Dfl => if w_kills w s && negb (w_pid1 w) then Killed s else ExitCode s
  | Ign => ExitCode s
  | User n => if w_ends w n then EndedByHandler n else ExitCode s
  | G3log => if w_first_taken w then Stuck else ExitCode s
  end.

(** crashhandler_unix.cpp:222-243 (without the text on stderr) *)
Definition exitWithDefaultSignalHandler (disabled : bool) (catchable : Z -> bool) (w : world) (st : sigs)
    (fatal_signal_id : Z) : sigs * ending :=
  let st' := restore_all disabled catchable st in
  (st', raise_and_exit w (table st' fatal_signal_id) fatal_signal_id).

(** ** small functions *)
(** crashhandler_unix.cpp:251-267.  [written] is what write() returns for the message up to its NUL (-1 on
    failure, as ssize_t); None = null pointer. *)
Definition writeErrorMessage (message : option str) (written : str -> Z) : N :=
  match message with
  | None => 0%N
  | Some m => Z.to_N (written (c_str m) mod 18446744073709551616)
  end.

(** crashhandler_unix.cpp:278-290; None = strsignal returns null *)
Definition signalToStr (strsignal : Z -> option str) (signal_number : Z) : str :=
  match strsignal signal_number with
  | None => lit "Unknown signal " ++ to_string signal_number
  | Some n => n
  end.

(** ** several fatal signals: signalHandler, crashhandler_unix.cpp:53-84, and the loop at the end of
    pushFatalMessageToLogger, g3log.cpp:226-229, in which the handler waits afterwards *)
(** where an activation of the handler is: at its start; in the loop of line 68; past it; waiting to die *)
Inductive hpc := HStart | HWait | HGo | HPushed.

(** Each thread has a stack of activations (a signal can interrupt a handler); only the top one runs.
    [fatals]: the fatal messages handed over so far, by thread and signal.  crashhandler_unix.cpp:40, 53-68 *)
Record hstate := mkH { count : N; gBlockForFatal : bool; stacks : nat -> list (hpc * Z); fatals : list (nat * Z) }.

(** what can happen next *)
Inductive hact :=
| HSignal (t : nat) (s : Z)   (* a signal with g3log's handler arrives at thread t *)
| HStep (t : nat)             (* thread t goes on *)
| HUnblock.                   (* line 240, after raise() came back *)

Definition updn {A : Type} (f : nat -> A) (k : nat) (v : A) : nat -> A := fun x => if Nat.eqb x k then v else f x.
(** helper of this model, no source of its own *)
Definition set_top (st : hstate) (t : nat) (p : hpc) (s : Z) (r : list (hpc * Z)) : nat -> list (hpc * Z) :=
  updn (stacks st) t ((p, s) :: r).

(** crashhandler_unix.cpp:53-84, 240, g3log.cpp:226-229 *)
Definition hstep (st : hstate) (a : hact) : hstate :=
  match a with
  | HSignal t s => mkH (count st) (gBlockForFatal st) (updn (stacks st) t ((HStart, s) :: stacks st t)) (fatals st)
  | HUnblock => mkH (count st) false (stacks st) (fatals st)
  | HStep t =>
      match stacks st t with
      | [] => st
      | (HStart, s) :: r =>      (* fetch_add on a uint64_t *)
          mkH (sz (count st + 1)) (gBlockForFatal st)
              (set_top st t (if (count st =? 0)%N then HGo else HWait) s r) (fatals st)
      | (HWait, s) :: r =>
          if gBlockForFatal st then st
          else mkH (count st) (gBlockForFatal st) (set_top st t HGo s r) (fatals st)
      | (HGo, s) :: r =>
          mkH (count st) (gBlockForFatal st) (set_top st t HPushed s r) (fatals st ++ [(t, s)])
      | (HPushed, s) :: r =>
          if gBlockForFatal st then st
          else mkH (count st) (gBlockForFatal st) (updn (stacks st) t r) (fatals st)
      end
  end.
(** helper of this model, no source of its own *)
Definition hrun (st : hstate) (l : list hact) : hstate := fold_left hstep l st.
(** no signal yet; crashhandler_unix.cpp:53-57 *)
Definition hstart : hstate := mkH 0 true (fun _ => []) [].
