(** Logging when memory runs out: every allocation on the way of a message can throw std::bad_alloc.
    Source: logcapture.cpp:43-73, g3log.cpp:55-83, 91-95, 143-239, logmessage.cpp:121-169, logworker.cpp:20-68, 101-115,
    active.hpp:37-63, shared_queue.hpp:38-44, 58-67, logworker.hpp:89-96, future.hpp:42-61, sink.hpp:64-68.

    [mem n = None]: the n-th allocation succeeds.  [mem n = Some k]: it fails; k is only used for text that is streamed into
    the std::ostringstream, it is the number of characters that fitted in before.  Every place that may allocate is a call of
    [alloc]; whether it does depends on the library (short strings are stored without), so an [alloc] that succeeds may also be none.
    An exception leaves the variables as they are at that moment: [Thrown] comes with a state.

    Simplifications: one worker; each action of a client thread, and each turn of the worker, is done at once (interleavings are the
    subject of Model/Worker.v); a sink is the list of messages it was sent; a hook is client code that does
    not touch the logging; the exit handler is the default one; operands that log are the subject of Model/Statement.v;
    exitWithDefaultSignalHandler is taken not to fail; the allocations of call_once(installCrashHandler) are left out;
    a std::function of a lambda without captures (g3log.cpp:43) is copied without allocation, as the usual libraries do. *)
From Coq Require Import Ascii String List ZArith NArith Bool.
From Verif.Base Require Import Bytes.
From Verif.Model Require Import Levels TimeFmt Message Capture Global.
Import ListNotations.
Local Open Scope list_scope.

(** how the process ends: terminate for an exception nobody may catch, through exitWithDefaultSignalHandler (logworker.cpp:64,
    g3log.cpp:224), std::exit (g3log.cpp:67); [XDeadlock]: a thread locks a mutex that is never released *)
Inductive xend := XTerminate | XSignal (lv : LEVELS) (s : Z) | XExit | XDeadlock.

(** what the worker has in its queue; logworker.cpp:102, 106, 110-113 *)
Inductive xjob := XSave (m : LogMessage) | XFatal (f : FatalMessage) | XAdd (k : nat).

(** ghost, for stating properties: a hook was called, a text was written to stderr *)
Inductive xev := XHook (n : nat) | XStderr (t : str).

(** g3log.cpp:36-46, 166, logworker.hpp:28-29, shared_queue.hpp:25-27.  [x_tasks]: the futures of addWrappedSink that are ready;
    [x_got]: ghost, the messages each sink was sent; [x_taken]: ghost, the messages bgSave was called with *)
Record xst := mkX {
  x_logger : bool;                              (* g_logger_instance *)
  x_first : option LogMessage;                  (* g_first_uninitialized_msg *)
  x_set_first : bool;
  x_save_first : bool;
  x_hook : option hook;                         (* g_fatal_pre_logging_hook *)
  x_counter : N;
  x_first_trace : option str;
  x_locked : bool;                              (* the mutex of the queue *)
  x_queue : list xjob;
  x_sinks : list nat;
  x_tasks : list nat;
  x_taken : list LogMessage;
  x_got : list (nat * LogMessage);
  x_out : list xev;
  x_end : option xend
}.

(** program start with a worker; g3log.cpp:36-46 *)
Definition x_start : xst := mkX false None false false None 0 None false [] [] [] [] [] [] None.

(** result of a piece of code; C++ language, no source in /repo *)
Inductive xres (A : Type) := Val (a : A) | Thrown | Over (e : xend).
Arguments Val {A}. Arguments Thrown {A}. Arguments Over {A}.
(** code that counts allocations and changes variables; helper of this model, no source of its own *)
Definition X (A : Type) : Type := nat -> xst -> xres A * nat * xst.

(** helper of this model, no source of its own *)
Definition ret {A} (a : A) : X A := fun n s => (Val a, n, s).
(** sequencing; C++ language, no source in /repo *)
Definition bind {A B} (m : X A) (f : A -> X B) : X B := fun n s =>
  match m n s with
  | (Val a, n', s') => f a n' s'
  | (Thrown, n', s') => (Thrown, n', s')
  | (Over e, n', s') => (Over e, n', s')
  end.
(** reading and writing variables; helper of this model, no source of its own *)
Definition getv {A} (f : xst -> A) : X A := fun n s => (Val (f s), n, s).
(** helper of this model, no source of its own *)
Definition setv (f : xst -> xst) : X unit := fun n s => (Val tt, n, f s).
Notation "m ;; k" := (bind m (fun _ => k)) (at level 61, right associativity).
Notation "'let*' x := m 'in' k" := (bind m (fun x => k)) (at level 61, x name, right associativity).

(** ** updates *)
(** helper of this model, no source of its own *)
Definition w_logger (b : bool) (s : xst) : xst :=
  mkX b (x_first s) (x_set_first s) (x_save_first s) (x_hook s) (x_counter s) (x_first_trace s) (x_locked s) (x_queue s) (x_sinks s) (x_tasks s) (x_taken s) (x_got s) (x_out s) (x_end s).
(** helper of this model, no source of its own *)
Definition w_first (m : option LogMessage) (s : xst) : xst :=
  mkX (x_logger s) m (x_set_first s) (x_save_first s) (x_hook s) (x_counter s) (x_first_trace s) (x_locked s) (x_queue s) (x_sinks s) (x_tasks s) (x_taken s) (x_got s) (x_out s) (x_end s).
(** helper of this model, no source of its own *)
Definition w_set_first (b : bool) (s : xst) : xst :=
  mkX (x_logger s) (x_first s) b (x_save_first s) (x_hook s) (x_counter s) (x_first_trace s) (x_locked s) (x_queue s) (x_sinks s) (x_tasks s) (x_taken s) (x_got s) (x_out s) (x_end s).
(** helper of this model, no source of its own *)
Definition w_save_first (b : bool) (s : xst) : xst :=
  mkX (x_logger s) (x_first s) (x_set_first s) b (x_hook s) (x_counter s) (x_first_trace s) (x_locked s) (x_queue s) (x_sinks s) (x_tasks s) (x_taken s) (x_got s) (x_out s) (x_end s).
(** helper of this model, no source of its own *)
Definition w_hook (h : option hook) (s : xst) : xst :=
  mkX (x_logger s) (x_first s) (x_set_first s) (x_save_first s) h (x_counter s) (x_first_trace s) (x_locked s) (x_queue s) (x_sinks s) (x_tasks s) (x_taken s) (x_got s) (x_out s) (x_end s).
(** helper of this model, no source of its own *)
Definition w_counter (c : N) (s : xst) : xst :=
  mkX (x_logger s) (x_first s) (x_set_first s) (x_save_first s) (x_hook s) c (x_first_trace s) (x_locked s) (x_queue s) (x_sinks s) (x_tasks s) (x_taken s) (x_got s) (x_out s) (x_end s).
(** helper of this model, no source of its own *)
Definition w_first_trace (t : str) (s : xst) : xst :=
  mkX (x_logger s) (x_first s) (x_set_first s) (x_save_first s) (x_hook s) (x_counter s) (Some t) (x_locked s) (x_queue s) (x_sinks s) (x_tasks s) (x_taken s) (x_got s) (x_out s) (x_end s).
(** helper of this model, no source of its own *)
Definition w_locked (b : bool) (s : xst) : xst :=
  mkX (x_logger s) (x_first s) (x_set_first s) (x_save_first s) (x_hook s) (x_counter s) (x_first_trace s) b (x_queue s) (x_sinks s) (x_tasks s) (x_taken s) (x_got s) (x_out s) (x_end s).
(** helper of this model, no source of its own *)
Definition w_queue (q : list xjob) (s : xst) : xst :=
  mkX (x_logger s) (x_first s) (x_set_first s) (x_save_first s) (x_hook s) (x_counter s) (x_first_trace s) (x_locked s) q (x_sinks s) (x_tasks s) (x_taken s) (x_got s) (x_out s) (x_end s).
(** helper of this model, no source of its own *)
Definition w_sinks (l : list nat) (s : xst) : xst :=
  mkX (x_logger s) (x_first s) (x_set_first s) (x_save_first s) (x_hook s) (x_counter s) (x_first_trace s) (x_locked s) (x_queue s) l (x_tasks s) (x_taken s) (x_got s) (x_out s) (x_end s).
(** helper of this model, no source of its own *)
Definition w_task (k : nat) (s : xst) : xst :=
  mkX (x_logger s) (x_first s) (x_set_first s) (x_save_first s) (x_hook s) (x_counter s) (x_first_trace s) (x_locked s) (x_queue s) (x_sinks s) (x_tasks s ++ [k]) (x_taken s) (x_got s) (x_out s) (x_end s).
(** helper of this model, no source of its own *)
Definition w_taken (m : LogMessage) (s : xst) : xst :=
  mkX (x_logger s) (x_first s) (x_set_first s) (x_save_first s) (x_hook s) (x_counter s) (x_first_trace s) (x_locked s) (x_queue s) (x_sinks s) (x_tasks s) (x_taken s ++ [m]) (x_got s) (x_out s) (x_end s).
(** helper of this model, no source of its own *)
Definition w_got (k : nat) (m : LogMessage) (s : xst) : xst :=
  mkX (x_logger s) (x_first s) (x_set_first s) (x_save_first s) (x_hook s) (x_counter s) (x_first_trace s) (x_locked s) (x_queue s) (x_sinks s) (x_tasks s) (x_taken s) (x_got s ++ [(k, m)]) (x_out s) (x_end s).
(** helper of this model, no source of its own *)
Definition w_out (e : xev) (s : xst) : xst :=
  mkX (x_logger s) (x_first s) (x_set_first s) (x_save_first s) (x_hook s) (x_counter s) (x_first_trace s) (x_locked s) (x_queue s) (x_sinks s) (x_tasks s) (x_taken s) (x_got s) (x_out s ++ [e]) (x_end s).
(** helper of this model, no source of its own *)
Definition w_end (e : xend) (s : xst) : xst :=
  mkX (x_logger s) (x_first s) (x_set_first s) (x_save_first s) (x_hook s) (x_counter s) (x_first_trace s) (x_locked s) (x_queue s) (x_sinks s) (x_tasks s) (x_taken s) (x_got s) (x_out s) (Some e).

(** a logging statement that fires: what the macro gives to LogCapture (g3log.hpp:140-143), the texts its operands print, whether
    the evaluation of one more operand throws, clock, thread and stack dump *)
Record xstmt := mkStmt {
  t_capture : LogCapture;
  t_pieces : list str;
  t_throws : bool;
  t_full : bool;
  t_now : Z;
  t_tid : Z
}.

(** what the client sees of a statement or a call *)
Inductive xoutcome := Returned | Threw | Waits.

Section Memory.
Variable mem : nat -> option nat.

(** operator new; C++ language, no source in /repo *)
Definition alloc : X unit := fun n s =>
  match mem n with None => (Val tt, S n, s) | Some _ => (Thrown, S n, s) end.

(** std::lock_guard: released also when an exception passes; shared_queue.hpp:40 *)
Definition locked {A} (m : X A) : X A := fun n s =>
  if x_locked s then (Over XDeadlock, n, s)
  else let '(r, n', s') := m n (w_locked true s) in (r, n', w_locked false s').

(** Active::send: a std::function is made from the lambda, copied into the parameter of push, and moved into the deque;
    active.hpp:55-57, shared_queue.hpp:38-44 *)
Definition xsend (j : xjob) : X unit :=
  alloc ;; alloc ;; locked (alloc ;; setv (fun s => w_queue (x_queue s ++ [j]) s)).

(** streaming: an exception of the buffer is caught by operator<<, which sets badbit, and then nothing is inserted any more;
    C++ standard [ostream.formatted.reqmts], logcapture.hpp:62-64, g3log.hpp:147 *)
Fixpoint insert (pieces : list str) (text : str) (good : bool) (n : nat) : str * nat :=
  match pieces with
  | [] => (text, n)
  | p :: r =>
      if good then
        match mem n with
        | None => insert r (text ++ p) true (S n)
        | Some k => insert r (text ++ firstn k p) false (S n)
        end
      else insert r text false n
  end.

(** g3log.cpp:193-209.  The body of call_once: the flag is set only when it comes to its end *)
Definition xpushMessageToLogger (m : LogMessage) : X xoutcome :=
  let* on := getv x_logger in
  if on : bool then xsend (XSave m) ;; ret Returned
  else
    let* done := getv x_set_first in
    if done : bool then ret Returned
    else
      setv (w_first (Some m)) ;;                                          (* 197 *)
      alloc ;; alloc ;; alloc ;;                                          (* 198, 199: err, message(), append *)
      let err := not_initialized_text ++ msg_message m in
      setv (w_first (Some (replace_text m []))) ;;                        (* 201 *)
      alloc ;;
      setv (w_first (Some (replace_text m err))) ;;                       (* 202 *)
      setv (w_out (XStderr (err ++ nl))) ;; setv (w_set_first true) ;; ret Returned.

(** g3log.cpp:216-230 *)
Definition xpushFatalMessageToLogger (f : FatalMessage) : X xoutcome :=
  let* on := getv x_logger in
  if on : bool then xsend (XFatal f) ;; ret Waits
  else
    alloc ;; alloc ;; alloc ;;                                            (* 220, 222, 223: reason(), toString(), str() *)
    (fun n s => (Over (XSignal (_level (f_msg f)) (_signal_id f)), n, s)).

(** g3log.cpp:157-184, 237-239 *)
Definition xsaveFatalMessage (stack_trace : str) (m : LogMessage) (signal : Z) : X xoutcome :=
  let* h := getv x_hook in
  alloc ;;                                                                (* 158: copy of the std::function *)
  setv (w_hook (Some HookNop)) ;;
  setv (fun s => w_counter (sz (x_counter s + 1)) s) ;;                   (* 162 *)
  let* ft := getv x_first_trace in
  match ft with Some _ => ret tt | None => alloc ;; setv (w_first_trace stack_trace) end ;;   (* 166 *)
  match h with
  | None => fun n s => (Thrown, n, s)                                     (* std::bad_function_call *)
  | Some HookNop => ret tt
  | Some (Hook i) => setv (w_out (XHook i))
  end ;;
  alloc ;;                                                                (* 168 *)
  let* c := getv x_counter in
  let* first := getv x_first_trace in
  let m1 := write_append m stack_trace in
  (if (1 <? c)%N then alloc else ret tt) ;;                               (* 170-176 *)
  let m2 := if (1 <? c)%N then write_append m1 (recursive_warning (match first with Some t => t | None => [] end)) else m1 in
  alloc ;; alloc ;;                                                       (* 178: make_unique, copy of the message *)
  xpushFatalMessageToLogger (new_FatalMessage m2 signal).

(** ~LogCapture and saveMessage: logcapture.cpp:43-47, g3log.cpp:143-155 *)
Definition xhand_over (full : bool) (now tid : Z) (c : LogCapture) : X xoutcome :=
  alloc ;;                                                                (* _stream.str() *)
  alloc ;;                                                                (* 145: the text of the level *)
  alloc ;; alloc ;;                                                       (* 146: file and function as std::string *)
  alloc ;; alloc ;; alloc ;;                                              (* 146: make_unique, the members of LogMessage *)
  alloc ;;                                                                (* 147: append *)
  alloc ;;                                                                (* 148: expression *)
  match end_LogCapture full now tid c with
  | None => fun n s => (Thrown, n, s)
  | Some (ToLogger m) => xpushMessageToLogger m
  | Some (ToFatal st m sg) => xsaveFatalMessage st m sg
  end.

(** a logging statement: the constructor (logcapture.cpp:60-73; it allocates only for a fatal level), the operands, the destructor.
    An exception out of the destructor during unwinding ends in std::terminate (C++ standard [except.terminate]) *)
Definition xstatement (t : xstmt) : X xoutcome :=
  (if wasFatal (c_level (t_capture t)) then alloc ;; alloc ;; alloc else ret tt) ;;   (* 69-71 *)
  (fun n s =>
     let (text, n') := insert (t_pieces t) [] true n in
     match xhand_over (t_full t) (t_now t) (t_tid t) (stream (t_capture t) text) n' s with
     | (Val Returned, n2, s2) => (if t_throws t then Thrown else Val Returned, n2, s2)
     | (Thrown, n2, s2) => (if t_throws t then Over XTerminate else Thrown, n2, s2)
     | r => r
     end).

(** initializeLogging of the worker; g3log.cpp:55-83 *)
Definition xinitialize : X xoutcome :=
  let* on := getv x_logger in
  if on : bool then fun n s => (Over XExit, n, s)
  else
    let* saved := getv x_save_first in
    (if saved : bool then ret tt
     else
       let* first := getv x_first in
       match first with
       | Some m => setv (w_first None) ;; xsend (XSave m)                 (* 73: moved out, then saved *)
       | None => ret tt
       end ;; setv (w_save_first true)) ;;
    setv (w_logger true) ;;
    setv (w_hook (Some HookNop)) ;; setv (w_counter 0) ;; ret Returned.

(** setFatalPreLoggingHook; g3log.cpp:91-95 *)
Definition xset_hook (h : option hook) : X xoutcome := alloc ;; setv (w_hook h) ;; ret Returned.

(** a destructor, and other code that must not throw: an exception ends in std::terminate; C++ standard [except.terminate] *)
Definition must {A} (m : X A) : X A := fun n s =>
  match m n s with (Thrown, n', s') => (Over XTerminate, n', s') | r => r end.

(** ~Sink: its active object sends itself a last job (which allocates), and its thread is joined; sink.hpp:60-62, active.hpp:50-53 *)
Definition xdestroy_sink : X unit := must (alloc ;; alloc ;; alloc).

(** an exception leaves a scope that owns a sink, which is destroyed on the way; C++ language, no source in /repo *)
Definition owning_sink {A} (m : X A) : X A := fun n s =>
  match m n s with
  | (Thrown, n', s') => (xdestroy_sink ;; (fun n s => (Thrown, n, s))) n' s'
  | r => r
  end.

(** _sinks.clear(); logworker.cpp:63 *)
Fixpoint xclear (l : list nat) : X unit :=
  match l with
  | [] => ret tt
  | _ :: r => xdestroy_sink ;; xclear r
  end.

(** addSink up to token_done.wait(): make_shared; the active object; its thread, whose failure ends the process (C120; that the thread itself
    can be started is taken for granted here); the std::function of the sink; the packaged_task; send.
    logworker.hpp:92-93, sink.hpp:41-59, active.hpp:60-63, future.hpp:57-60, logworker.cpp:109-114 *)
Definition xadd_sink (k : nat) : X xoutcome :=
  alloc ;; alloc ;; must alloc ;; owning_sink (alloc ;; alloc ;; xsend (XAdd k)) ;; ret Waits.

(** addSink after the wait: the handle; wait() does not look at the exception in the future.  A sink that was not registered has no other
    owner than the call and is destroyed at its end; logworker.cpp:114, logworker.hpp:95 *)
Definition xadd_return (k : nat) : X xoutcome :=
  let* ready := getv x_tasks in
  if existsb (Nat.eqb k) ready then
    let* l := getv x_sinks in
    if existsb (Nat.eqb k) l then alloc ;; ret Returned
    else owning_sink alloc ;; xdestroy_sink ;; ret Returned
  else ret Waits.

(** the loop over the sinks: copy, move and sending of one message; logworker.cpp:26-29, 56-59, logmessage.cpp:145-169, sink.hpp:64-68 *)
Fixpoint xto_sinks (l : list nat) (m : LogMessage) : X unit :=
  match l with
  | [] => ret tt
  | k :: r => alloc ;; alloc ;; alloc ;; alloc ;; alloc ;; setv (w_got k m) ;; xto_sinks r m
  end.

(** one turn of Active::run on the worker; active.hpp:37-43, shared_queue.hpp:58-67, logworker.cpp:23-68, 110-112.
    An exception out of a job leaves the thread function; the one out of a packaged_task stays in its future *)
Definition xwork : X unit :=
  let* q := getv x_queue in
  match q with
  | [] => ret tt
  | j :: r =>
      locked (setv (w_queue r)) ;;
      (fun n s =>
         match
           (match j with
            | XSave m =>
                setv (w_taken m) ;;
                let* l := getv x_sinks in
                xto_sinks l m ;;
                match l with [] => alloc ;; alloc | _ => ret tt end       (* 31-35 *)
            | XFatal f =>
                setv (w_logger false) ;;                                  (* 41 *)
                alloc ;; alloc ;; alloc ;; alloc ;;                       (* 43, 44, 48, 51-53 *)
                alloc ;;                                                  (* 55 *)
                let* l := getv x_sinks in
                xto_sinks l (bgFatal_message f) ;;
                xclear l ;;                                               (* 63 *)
                (fun n s => (Over (XSignal (_level (f_msg f)) (_signal_id f)), n, s))
            | XAdd k =>
                (fun n s =>
                   match (alloc ;; setv (fun s => w_sinks (x_sinks s ++ [k]) s)) n s with     (* push_back *)
                   | (Over e, n', s') => (Over e, n', s')
                   | (_, n', s') => (Val tt, n', w_task k s')
                   end)
            end) n s
         with
         | (Thrown, n', s') => (Over XTerminate, n', s')
         | r => r
         end)
  end.

(** what a client thread or the worker does next *)
Inductive xact :=
| ALog (t : xstmt)
| AInit
| ASetHook (h : option hook)
| AAddSink (k : nat)
| AAddReturn (k : nat)
| AWork.

(** g3log.cpp, logworker.cpp, as above *)
Definition xdo (a : xact) : X xoutcome :=
  match a with
  | ALog t => xstatement t
  | AInit => xinitialize
  | ASetHook h => xset_hook h
  | AAddSink k => xadd_sink k
  | AAddReturn k => xadd_return k
  | AWork => xwork ;; ret Returned
  end.

(** one action, unless the process has ended; helper of this model, no source of its own *)
Definition xstep (n : nat) (s : xst) (a : xact) : nat * xst * option xoutcome :=
  match x_end s with
  | Some _ => (n, s, None)
  | None =>
      match xdo a n s with
      | (Val o, n', s') => (n', s', Some o)
      | (Thrown, n', s') => (n', s', Some Threw)
      | (Over e, n', s') => (n', w_end e s', None)
      end
  end.

(** a run: the actions in the order in which they happen, with what each of them came to; None: not done, or the process ended in it *)
Fixpoint xrun (n : nat) (s : xst) (acts : list xact) : nat * xst * list (xact * option xoutcome) :=
  match acts with
  | [] => (n, s, [])
  | a :: r =>
      let '(n1, s1, o) := xstep n s a in
      let '(n2, s2, l) := xrun n1 s1 r in
      (n2, s2, (a, o) :: l)
  end.
End Memory.

(** ** starting an active object *)

(** how createActive can end: an object with a running thread, an exception for the caller, terminate *)
Inductive started := SRunning | SThrew | STerminate.

(** ~Active: [send] may throw, and so does join of a std::thread that is not joinable (C++ standard [thread.thread.member]);
    the destructor is noexcept, an exception ends in terminate.  A joinable thread runs what is queued and stops; active.hpp:50-53 *)
Definition xdestroyActive (mem : nat -> option nat) (joinable : bool) (n : nat) : option xend :=
  match xsend mem (XAdd 0) n x_start with
  | (Val _, _, _) => if joinable then None else Some XTerminate
  | _ => Some XTerminate
  end.

(** createActive; [thread]: pthread_create succeeds.  An exception after line 61 destroys the object; active.hpp:60-63 *)
Definition xcreateActive (mem : nat -> option nat) (thread : bool) (n : nat) : started :=
  let destroyed n := match xdestroyActive mem false n with Some _ => STerminate | None => SThrew end in
  match alloc mem n x_start with
  | (Val _, n', _) =>
      match alloc mem n' x_start with                 (* the state of the std::thread *)
      | (Val _, n2, _) => if thread then SRunning else destroyed n2
      | (_, n2, _) => destroyed n2
      end
  | _ => SThrew
  end.
