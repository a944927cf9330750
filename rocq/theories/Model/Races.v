(** Accesses to shared memory: which function of the library reads or writes which
    shared object, under which lock, in which order.

    A program is the sequence of shared accesses of one thread.  Reads hand the value
    to the rest of the program, so branches follow the code.  Executions interleave the
    threads one access at a time.  This is the usual view for deciding whether a C++
    program has a data race: it has one exactly when some interleaving reaches a point
    where two threads are about to make conflicting accesses.

    Simplified throughout: accesses to objects no other thread can see are left out,
    values are lists of integers, and a library object (queue, vector, function object,
    map) counts as one location except for the level table, which is split into the set
    of its keys and, per key, the atomic status and the level object. *)
From Coq Require Import List ZArith Bool.
From Verif Require Import Base.Threads.
Import ListNotations.
Open Scope Z_scope.

(** the values kept at a location; a pointer or a flag is the empty list when null or unset;
    helper of this model, no source of its own *)
Definition val := list Z.

(** the shared objects: shared_queue.hpp:28 queue_, active.hpp:47 done_,
    logworker.hpp:33-34 _sinks and _bg, g3log.cpp:37 g_logger_instance, g3log.cpp:40
    g_first_uninitialized_msg, g3log.cpp:44 g_fatal_pre_logging_hook, g3log.cpp:98
    g_fatal_to_g3logworker_function_ptr, g3log.cpp:46 g_fatal_hook_recursive_counter,
    g3log.cpp:166 first_stack_trace, loglevels.cpp:27 g_log_levels (its keys, and per key
    status and level), crashhandler_unix.cpp:50-51 gSignals and gSavedSigActions, and the
    state of the once flags (g3log.cpp:36, 41, 42, and the guard of the static at 166) *)
Inductive loc :=
| LQueue | LDone | LSinks | LBg
| LLogger | LFirst | LHook | LFatalFn | LCounter | LStack
| LKeys | LStatus (k : Z) | LLevel (k : Z)
| LSignals | LSaved
| LOnce (i : nat).

(** what threads wait for: the mutexes shared_queue.hpp:29 m_, g3log.cpp:38, 92,
    crashhandler_unix.cpp:312, the once flags, and the start and the end of a thread
    (std::thread's constructor and join, active.hpp:52, 62).  A mutex is a count that is 1
    while the mutex is free. *)
Inductive sem :=
| MQueue | MInit | MHook | MSignal
| MOnce (i : nat)
| Start (t : nat) | End (t : nat).

(** equality of locations; helper of this model, no source of its own *)
Definition loc_eq_dec : forall x y : loc, {x = y} + {x <> y}.
Proof. decide equality; (apply Z.eq_dec || apply Nat.eq_dec). Defined.
(** equality of what threads wait for; helper of this model, no source of its own *)
Definition sem_eq_dec : forall x y : sem, {x = y} + {x <> y}.
Proof. decide equality; apply Nat.eq_dec. Defined.

(** a thread: lock or wait, unlock or notify, read, write, atomic read-modify-write; the flag says
    whether the access is atomic; helper of this model, no source of its own *)
Inductive prog :=
| Stop
| Acq (s : sem) (k : prog)
| Rel (s : sem) (k : prog)
| Rd (atomic : bool) (x : loc) (k : val -> prog)
| Wr (atomic : bool) (x : loc) (v : val) (k : prog)
| Rmw (x : loc) (f : val -> val) (k : prog).

(** memory, counts and threads; helper of this model, no source of its own *)
Record state := mkState { mem : loc -> val; sems : sem -> nat; ths : list prog }.

(** change one location; helper of this model, no source of its own *)
Definition set_mem (m : loc -> val) (x : loc) (v : val) : loc -> val :=
  fun y => if loc_eq_dec y x then v else m y.
(** change one count; helper of this model, no source of its own *)
Definition set_sem (m : sem -> nat) (s : sem) (n : nat) : sem -> nat :=
  fun y => if sem_eq_dec y s then n else m y.

(** the next access of thread t; None when it has finished, does not exist or has to wait;
    helper of this model, no source of its own *)
Definition step (st : state) (t : nat) : option state :=
  match get Stop (ths st) t with
  | Stop => None
  | Acq s k =>
      match sems st s with
      | O => None
      | S n => Some (mkState (mem st) (set_sem (sems st) s n) (upd (ths st) t k))
      end
  | Rel s k => Some (mkState (mem st) (set_sem (sems st) s (S (sems st s))) (upd (ths st) t k))
  | Rd _ x k => Some (mkState (mem st) (sems st) (upd (ths st) t (k (mem st x))))
  | Wr _ x v k => Some (mkState (set_mem (mem st) x v) (sems st) (upd (ths st) t k))
  | Rmw x f k => Some (mkState (set_mem (mem st) x (f (mem st x))) (sems st) (upd (ths st) t k))
  end.

(** is the value non-null; helper of this model, no source of its own *)
Definition is_set (v : val) : bool := match v with [] => false | _ => true end.

(* ------------------------------------------------------------------ *)
(** ** Constructs of the language *)

(** std::lock_guard around a body (for example g3log.cpp:93, 119) *)
Definition locked (s : sem) (body : prog -> prog) (k : prog) : prog := Acq s (body (Rel s k)).

(** std::call_once (g3log.cpp:56, 71, 196) and the guard of a static in a function (g3log.cpp:166): the
    first caller runs the body, callers meanwhile wait, later callers see that it has run *)
Definition once (i : nat) (body : prog -> prog) (k : prog) : prog :=
  Acq (MOnce i) (Rd true (LOnce i) (fun f =>
    if is_set f then Rel (MOnce i) k
    else body (Wr true (LOnce i) [1] (Rel (MOnce i) k)))).

(** a sequence of calls, then k; helper of this model, no source of its own *)
Definition calls (l : list (prog -> prog)) (k : prog) : prog := fold_right (fun c r => c r) k l.

(* ------------------------------------------------------------------ *)
(** ** shared_queue.hpp *)

(** push (shared_queue.hpp:38-44); the notification touches no shared data of ours *)
Definition q_push (job : Z) (k : prog) : prog :=
  locked MQueue (fun k => Rd false LQueue (fun q => Wr false LQueue (q ++ [job]) k)) k.
(** try_and_pop (shared_queue.hpp:47-55) *)
Definition q_try (k : prog) : prog :=
  locked MQueue (fun k => Rd false LQueue (fun q =>
    match q with
    | [] => k
    | _ :: r => Wr false LQueue r k
    end)) k.
(** wait_and_pop (shared_queue.hpp:58-67), woken up at most n times in vain; a thread that is not
    woken up again stays there, released from the mutex *)
Fixpoint q_wait (n : nat) (k : Z -> prog) : prog :=
  Acq MQueue (Rd false LQueue (fun q =>
    match q with
    | [] => Rel MQueue (match n with O => Stop | S m => q_wait m k end)
    | j :: r => Wr false LQueue r (Rel MQueue (k j))
    end)).
(** empty and size (shared_queue.hpp:69-77) *)
Definition q_look (k : prog) : prog := locked MQueue (fun k => Rd false LQueue (fun _ => k)) k.

(** the calls of the queue's interface; helper of this model, no source of its own *)
Inductive qcall := QPush (job : Z) | QTry | QWait (wakeups : nat) | QEmpty | QSize.
(** helper of this model, no source of its own *)
Definition qcall_prog (c : qcall) : prog -> prog :=
  match c with
  | QPush j => q_push j
  | QTry => q_try
  | QWait n => fun k => q_wait n (fun _ => k)
  | QEmpty | QSize => q_look
  end.

(* ------------------------------------------------------------------ *)
(** ** active.hpp, logworker.cpp *)

(** the jobs of the worker's queue: bgSave (logworker.cpp:23-36), the lambda of addWrappedSink (110-112),
    of removeSink (logworker.hpp:108-113), of removeAllSinks (126-128), bgFatal (logworker.cpp:38-68) and the one of
    ~Active (active.hpp:51), as numbers; other numbers are jobs without shared accesses *)
Definition j_save : Z := 1.
(** logworker.cpp:110-112 *)
Definition j_add : Z := 2.
(** logworker.hpp:108-113 *)
Definition j_remove : Z := 3.
(** logworker.hpp:126-128 *)
Definition j_clear : Z := 4.
(** logworker.cpp:38-68 *)
Definition j_fatal : Z := 5.
(** active.hpp:51 *)
Definition j_done : Z := 0.

(** shutDownLogging (g3log.cpp:118-121) *)
Definition shut_down (k : prog) : prog := locked MInit (Wr false LLogger []) k.

(** restoreSignalHandler for every signal of gSignals (crashhandler_unix.cpp:292-307 called from 227-229
    and 314-316): looks the signal up in gSavedSigActions and erases it if it was found *)
Fixpoint restore_all (sigs : list Z) (k : prog) : prog :=
  match sigs with
  | [] => k
  | s :: r => Rd false LSaved (fun sv =>
      if existsb (Z.eqb s) sv
      then Wr false LSaved (filter (fun x => negb (Z.eqb s x)) sv) (restore_all r k)
      else restore_all r k)
  end.
(** the loop over gSignals (crashhandler_unix.cpp:227-229, 314-316) *)
Definition restore_loop (k : prog) : prog := Rd false LSignals (fun sigs => restore_all sigs k).

(** what the worker's thread does for a job; in bgFatal the process ends with raise
    (crashhandler_unix.cpp:235), here the thread stops *)
Definition job_prog (j : Z) (k : prog) : prog :=
  if j =? j_save then Rd false LSinks (fun _ => k)
  else if j =? j_add then Rd false LSinks (fun s => Wr false LSinks (1 :: s) k)
  else if j =? j_remove then Rd false LSinks (fun s => Wr false LSinks (tl s) k)
  else if j =? j_clear then Wr false LSinks [] k
  else if j =? j_fatal then
    shut_down (Rd false LSinks (fun _ => Wr false LSinks [] (restore_loop Stop)))
  else if j =? j_done then Wr false LDone [1] k
  else k.

(** Active::run (active.hpp:37-43), for at most n rounds with at most m vain wake-ups each; then the end
    of the thread, which join waits for *)
Fixpoint run (m n : nat) : prog :=
  match n with
  | O => Stop
  | S n' => Rd false LDone (fun d =>
      if is_set d then Rel (End 0) Stop
      else q_wait m (fun j => job_prog j (run m n')))
  end.
(** the worker's thread, created at active.hpp:62 *)
Definition worker (m n : nat) : prog := Acq (Start 0) (run m n).

(** createLogWorker (logworker.cpp:117-119, 20-21; active.hpp:60-64): the members are constructed, then the thread
    is started, then _bg is set; constructing the queue also makes its mutex *)
Definition create_worker (k : prog) : prog :=
  Wr false LSinks [] (Wr false LQueue [] (Wr false LDone [] (Rel MQueue (Rel (Start 0) (Wr false LBg [1] k))))).

(** save and fatal of LogWorker, spawn_task of the three sink calls (logworker.cpp:101-115, logworker.hpp:114,
    129): read _bg, push; the waiting for the result is left out, which only allows more
    interleavings *)
Definition ask_worker (job : Z) (k : prog) : prog := Rd false LBg (fun _ => q_push job k).

(** ~LogWorker (logworker.cpp:70-99) with ~Active (active.hpp:50-53): shutDownLoggingForActiveOnly
    (g3log.cpp:129-139) reads the pointer, removeAllSinks asks the worker, _bg is reset, the thread is joined, done_ and
    the sinks are destroyed.  The end of the queue's lifetime is not an access here. *)
Definition destroy_worker (k : prog) : prog :=
  Rd false LLogger (fun _ => shut_down (ask_worker j_clear
    (Wr false LBg [] (q_push j_done (Acq (End 0) (Wr false LDone [] (Wr false LSinks [] k))))))).

(* ------------------------------------------------------------------ *)
(** ** g3log.cpp *)

(** setFatalPreLoggingHook (g3log.cpp:91-95) *)
Definition set_hook (h : Z) (k : prog) : prog := locked MHook (Wr false LHook [h]) k.
(** setFatalExitHandler (g3log.cpp:104-106) *)
Definition set_exit_handler (h : Z) (k : prog) : prog := Wr false LFatalFn [h] k.

(** installSignalHandler (crashhandler_unix.cpp:89-110): for every signal of gSignals stores the old
    action; sigaction is taken to succeed *)
Fixpoint install_all (sigs : list Z) (k : prog) : prog :=
  match sigs with
  | [] => k
  | s :: r => Rd false LSaved (fun sv => Wr false LSaved (s :: sv) (install_all r k))
  end.
(** the loop (crashhandler_unix.cpp:98) *)
Definition install (k : prog) : prog := Rd false LSignals (fun sigs => install_all sigs k).
(** overrideSetupSignals (crashhandler_unix.cpp:311-320) *)
Definition override_signals (sigs : list Z) (k : prog) : prog :=
  locked MSignal (fun k => restore_loop (Wr false LSignals sigs (install k))) k.

(** initializeLogging with a worker (g3log.cpp:55-83); called when logging is already on it exits the
    process (60-68), here the thread stops *)
Definition initialize (k : prog) : prog :=
  once 0 install (Acq MInit (Rd false LLogger (fun lg =>
    if is_set lg then Stop
    else once 2 (fun k => Rd false LFirst (fun m =>
           if is_set m then Wr false LFirst [] (ask_worker j_save k) else k))
         (Wr false LLogger [1] (set_hook 0 (Wr true LCounter [] (Rel MInit k))))))).

(** pushMessageToLogger (g3log.cpp:193-209) *)
Definition push_message (k : prog) : prog :=
  Rd false LLogger (fun lg =>
    if is_set lg then Rd false LLogger (fun _ => ask_worker j_save k)
    else once 1 (fun k => Wr false LFirst [1] (Rd false LFirst (fun _ => k))) k).

(** pushFatalMessageToLogger (g3log.cpp:216-230): without a worker the signal handlers are restored and the
    process ends, with one the job is queued and the thread waits for ever *)
Definition push_fatal : prog :=
  Rd false LLogger (fun lg =>
    if is_set lg then Rd false LLogger (fun _ => ask_worker j_fatal Stop)
    else restore_loop Stop).

(** saveFatalMessage (g3log.cpp:157-184) and fatalCall (237-239): handler 0 is the library's own, others
    are functions of the client *)
Definition fatal_message : prog :=
  Rd false LHook (fun _ => set_hook 0 (Rmw LCounter (cons 1)
    (once 3 (Wr false LStack [1])
      (Rd true LCounter (fun n =>
         let finish := Rd false LFatalFn (fun f => match f with [] => push_fatal | _ => Stop end) in
         if (1 <? Z.of_nat (length n)) then Rd false LStack (fun _ => finish) else finish))))).

(** the calls on the global variables that return; helper of this model, no source of its own *)
Inductive gcall :=
| GLog | GInit | GShutDown | GDestroy | GHook (h : Z) | GExitHandler (h : Z) | GOverride (sigs : list Z) | GAsk (job : Z).
(** helper of this model, no source of its own *)
Definition gcall_prog (c : gcall) : prog -> prog :=
  match c with
  | GLog => push_message
  | GInit => initialize
  | GShutDown => shut_down
  | GDestroy => destroy_worker
  | GHook h => set_hook h
  | GExitHandler h => set_exit_handler h
  | GOverride sigs => override_signals sigs
  | GAsk j => ask_worker j
  end.
(** a thread: some calls, and then nothing more, a fatal message, or the loop of the worker; helper of this model, no
    source of its own *)
Inductive ending := Returns | Fatal | Worker (m n : nat).
(** helper of this model, no source of its own *)
Definition gthread (cs : list gcall) (e : ending) : prog :=
  calls (map gcall_prog cs) (match e with Returns => Stop | Fatal => fatal_message | Worker m n => run m n end).

(* ------------------------------------------------------------------ *)
(** ** loglevels.cpp, with G3_DYNAMIC_LOGGING *)

(** is the level in the table; helper of this model, no source of its own *)
Definition has_key (l : Z) (keys : val) : bool := existsb (Z.eqb l) keys.

(** g_log_levels[l] (loglevels.cpp:36, 66, 122): inserts a node when there is none *)
Definition at_key (l : Z) (k : prog) : prog :=
  Rd false LKeys (fun keys =>
    if has_key l keys then k
    else Wr false LKeys (l :: keys) (Wr false (LStatus l) [] (Wr false (LLevel l) [0] k))).
(** LoggingLevel's assignment (loglevels.hpp:122-126, atomicbool.hpp:29-32, loglevels.hpp:58-61) *)
Definition assign (l : Z) (on : bool) (k : prog) : prog :=
  Wr true (LStatus l) (if on then [1] else []) (Wr false (LLevel l) [1] k).

(** logLevel (loglevels.cpp:119-127) *)
Definition log_level (l : Z) (k : prog) : prog := at_key l (Rd true (LStatus l) (fun _ => k)).
(** addLogLevel (loglevels.cpp:34-41) *)
Definition add_level (l : Z) (on : bool) (k : prog) : prog := at_key l (assign l on k).
(** set, enable, disable (loglevels.cpp:63-76) *)
Definition set_level (l : Z) (on : bool) (k : prog) : prog :=
  Rd false LKeys (fun keys => if has_key l keys then at_key l (assign l on k) else k).
(** the loop of setHighest (loglevels.cpp:53-59): the level object of every node is copied for the call *)
Fixpoint highest_loop (l : Z) (keys : list Z) (k : prog) : prog :=
  match keys with
  | [] => k
  | v :: r => Rd false (LLevel v) (fun _ => set_level v (negb (v <? l)) (highest_loop l r k))
  end.
(** setHighest (loglevels.cpp:50-61) *)
Definition set_highest (l : Z) (k : prog) : prog :=
  Rd false LKeys (fun keys => if has_key l keys then highest_loop l keys k else k).
(** the loops of enableAll and disableAll (loglevels.cpp:78-88) *)
Fixpoint all_loop (on : bool) (keys : list Z) (k : prog) : prog :=
  match keys with
  | [] => k
  | v :: r => Wr true (LStatus v) (if on then [1] else []) (all_loop on r k)
  end.
(** enableAll and disableAll (loglevels.cpp:78-88) *)
Definition set_all (on : bool) (k : prog) : prog := Rd false LKeys (fun keys => all_loop on keys k).
(** copying the nodes of the table (loglevels.hpp:111-113) *)
Fixpoint copy_loop (keys : list Z) (k : prog) : prog :=
  match keys with
  | [] => k
  | v :: r => Rd true (LStatus v) (fun _ => Rd false (LLevel v) (fun _ => copy_loop r k))
  end.
(** getAll and to_string (loglevels.cpp:90-104): both copy the table *)
Definition get_all (k : prog) : prog := Rd false LKeys (fun keys => copy_loop keys k).
(** getStatus (loglevels.cpp:107-114) *)
Definition get_status (l : Z) (k : prog) : prog :=
  Rd false LKeys (fun keys => if has_key l keys then Rd true (LStatus l) (fun _ => k) else k).
(** writing the nodes of the new table (loglevels.cpp:44) *)
Fixpoint reset_loop (keys : list Z) (k : prog) : prog :=
  match keys with
  | [] => k
  | v :: r => Wr false (LStatus v) [1] (Wr false (LLevel v) [1] (reset_loop r k))
  end.
(** the levels of g_log_level_defaults (loglevels.cpp:21-25, loglevels.hpp:89-92) *)
Definition default_keys : list Z := [100; 300; 500; 1000].
(** reset (loglevels.cpp:43-45) *)
Definition reset_levels (k : prog) : prog := Wr false LKeys default_keys (reset_loop default_keys k).

(** the calls on the level table; LOG's check is TLog; helper of this model, no source of its own *)
Inductive tcall :=
| TLog (l : Z) | TSet (l : Z) (on : bool) | THighest (l : Z) | TAll (on : bool)
| TGetAll | TStatus (l : Z) | TAdd (l : Z) (on : bool) | TReset.
(** helper of this model, no source of its own *)
Definition tcall_prog (c : tcall) : prog -> prog :=
  match c with
  | TLog l => log_level l
  | TSet l on => set_level l on
  | THighest l => set_highest l
  | TAll on => set_all on
  | TGetAll => get_all
  | TStatus l => get_status l
  | TAdd l on => add_level l on
  | TReset => reset_levels
  end.
