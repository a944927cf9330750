(** Removing sinks and destroying the worker when memory runs out.
    Source: logworker.hpp:88-131, logworker.cpp:23-115, future.hpp:42-61, active.hpp:37-63, sink.hpp:41-68.

    [mem n = false]: the n-th allocation fails.  Every place that may allocate is a call of [alloc]; whether it does depends on the library, so an
    [alloc] that succeeds may also be none.

    Simplifications: one worker; an entry is a number (what a LOG statement does when memory runs out is the subject of Model/Exhaustion.v, here it hands
    over its entry or throws); each action of a client thread, and each turn of the worker, is done at once (interleavings are the subject of
    Model/Worker.v); a call that waits for the worker is two actions, or three for the destructor; a sink is the list of entries it was sent,
    its own thread runs them all before it is joined; the client keeps no shared_ptr of a sink (it could get one with SinkHandle::sink().lock());
    no call on the worker is made once the destructor has passed its wait, which logworker.cpp:73-82 asks for; threads can be started (C120). *)
From Coq Require Import List Arith Bool.
Import ListNotations.

(** how the process ends: an exception that nobody may catch, or the signal of a fatal event (logworker.cpp:64, g3log.cpp:224) *)
Inductive dend := DTerminate | DSignal.

(** what is in the worker's queue; c is the call that waits for it; logworker.cpp:98, 102, 106, 110-113, logworker.hpp:108-114, 125-130, active.hpp:51 *)
Inductive djob := JSave (m : nat) | JFatal (m : nat) | JAdd (k c : nat) | JRemove (k c : nat) | JClear (c : nat) | JStop.

(** a call that waits: addSink, removeSink and removeAllSinks for their future, the destructor for that of removeAllSinks or for the thread;
    logworker.cpp:72-98, 114, logworker.hpp:115, 130, active.hpp:52 *)
Inductive dcall := KAdd (k : nat) | KRemove (k : nat) | KAll | KDestroy | KJoin.

(** logworker.hpp:28-29, 58-60, future.hpp:57-60.  [d_calls]: the calls that wait; [d_next]: ghost, numbers calls and sinks;
    [d_ready]: the futures that are ready; [d_taken]: ghost, the entries bgSave was called with; [d_got]: ghost, what was sent to the sinks;
    [d_gone]: ghost, the sinks that were destroyed, having done all that was sent to them *)
Record dst := mkD {
  d_active : bool;               (* g_logger_instance is this worker *)
  d_bg : bool;                   (* _impl._bg is not null *)
  d_running : bool;              (* its thread has not ended *)
  d_queue : list djob;
  d_sinks : list nat;
  d_handles : list nat;          (* the sink handles the client has *)
  d_next : nat;
  d_calls : list (nat * dcall);
  d_ready : list nat;
  d_taken : list nat;
  d_got : list (nat * nat);
  d_gone : list nat;
  d_end : option dend
}.

(** a worker that logging was initialized with; logworker.cpp:117-119, g3log.cpp:55-83 *)
Definition d_start : dst := mkD true true true [] [] [] 0 [] [] [] [] [] None.

(** ** updates *)
(** helper of this model, no source of its own *)
Definition u_active (b : bool) (s : dst) : dst := mkD b (d_bg s) (d_running s) (d_queue s) (d_sinks s) (d_handles s) (d_next s) (d_calls s) (d_ready s) (d_taken s) (d_got s) (d_gone s) (d_end s).
(** helper of this model, no source of its own *)
Definition u_bg (b : bool) (s : dst) : dst := mkD (d_active s) b (d_running s) (d_queue s) (d_sinks s) (d_handles s) (d_next s) (d_calls s) (d_ready s) (d_taken s) (d_got s) (d_gone s) (d_end s).
(** helper of this model, no source of its own *)
Definition u_running (b : bool) (s : dst) : dst := mkD (d_active s) (d_bg s) b (d_queue s) (d_sinks s) (d_handles s) (d_next s) (d_calls s) (d_ready s) (d_taken s) (d_got s) (d_gone s) (d_end s).
(** helper of this model, no source of its own *)
Definition u_queue (q : list djob) (s : dst) : dst := mkD (d_active s) (d_bg s) (d_running s) q (d_sinks s) (d_handles s) (d_next s) (d_calls s) (d_ready s) (d_taken s) (d_got s) (d_gone s) (d_end s).
(** helper of this model, no source of its own *)
Definition u_sinks (l : list nat) (s : dst) : dst := mkD (d_active s) (d_bg s) (d_running s) (d_queue s) l (d_handles s) (d_next s) (d_calls s) (d_ready s) (d_taken s) (d_got s) (d_gone s) (d_end s).
(** helper of this model, no source of its own *)
Definition u_handles (l : list nat) (s : dst) : dst := mkD (d_active s) (d_bg s) (d_running s) (d_queue s) (d_sinks s) l (d_next s) (d_calls s) (d_ready s) (d_taken s) (d_got s) (d_gone s) (d_end s).
(** helper of this model, no source of its own *)
Definition u_next (n : nat) (s : dst) : dst := mkD (d_active s) (d_bg s) (d_running s) (d_queue s) (d_sinks s) (d_handles s) n (d_calls s) (d_ready s) (d_taken s) (d_got s) (d_gone s) (d_end s).
(** helper of this model, no source of its own *)
Definition u_calls (l : list (nat * dcall)) (s : dst) : dst := mkD (d_active s) (d_bg s) (d_running s) (d_queue s) (d_sinks s) (d_handles s) (d_next s) l (d_ready s) (d_taken s) (d_got s) (d_gone s) (d_end s).
(** helper of this model, no source of its own *)
Definition u_ready (c : nat) (s : dst) : dst := mkD (d_active s) (d_bg s) (d_running s) (d_queue s) (d_sinks s) (d_handles s) (d_next s) (d_calls s) (d_ready s ++ [c]) (d_taken s) (d_got s) (d_gone s) (d_end s).
(** helper of this model, no source of its own *)
Definition u_taken (m : nat) (s : dst) : dst := mkD (d_active s) (d_bg s) (d_running s) (d_queue s) (d_sinks s) (d_handles s) (d_next s) (d_calls s) (d_ready s) (d_taken s ++ [m]) (d_got s) (d_gone s) (d_end s).
(** helper of this model, no source of its own *)
Definition u_got (k m : nat) (s : dst) : dst := mkD (d_active s) (d_bg s) (d_running s) (d_queue s) (d_sinks s) (d_handles s) (d_next s) (d_calls s) (d_ready s) (d_taken s) (d_got s ++ [(k, m)]) (d_gone s) (d_end s).
(** helper of this model, no source of its own *)
Definition u_gone (k : nat) (s : dst) : dst := mkD (d_active s) (d_bg s) (d_running s) (d_queue s) (d_sinks s) (d_handles s) (d_next s) (d_calls s) (d_ready s) (d_taken s) (d_got s) (d_gone s ++ [k]) (d_end s).
(** helper of this model, no source of its own *)
Definition u_end (e : dend) (s : dst) : dst := mkD (d_active s) (d_bg s) (d_running s) (d_queue s) (d_sinks s) (d_handles s) (d_next s) (d_calls s) (d_ready s) (d_taken s) (d_got s) (d_gone s) (Some e).

(** result of a piece of code; C++ language, no source in /repo *)
Inductive dres := Done | Threw | Ends (e : dend).
(** code that counts allocations and changes variables; helper of this model, no source of its own *)
Definition D : Type := nat -> dst -> dres * nat * dst.
(** sequencing; C++ language, no source in /repo *)
Definition andthen (a b : D) : D := fun n s =>
  match a n s with
  | (Done, n', s') => b n' s'
  | r => r
  end.
(** helpers of this model, no source of their own *)
Definition skip : D := fun n s => (Done, n, s).
(** helper of this model, no source of its own *)
Definition upd (f : dst -> dst) : D := fun n s => (Done, n, f s).
Notation "a ;; b" := (andthen a b) (at level 61, right associativity).

Section Memory.
Variable mem : nat -> bool.

(** operator new; C++ language, no source in /repo *)
Definition alloc : D := fun n s => (if mem n then Done else Threw, S n, s).
(** a destructor, or code declared noexcept: an exception ends in std::terminate; C++ standard [except.terminate] *)
Definition must (a : D) : D := fun n s =>
  match a n s with (Threw, n', s') => (Ends DTerminate, n', s') | r => r end.

(** Active::send: a std::function, its copy for the parameter of push, the room in the deque; active.hpp:55-57, shared_queue.hpp:38-44 *)
Definition dsend (j : djob) : D := alloc ;; alloc ;; alloc ;; upd (fun s => u_queue (d_queue s ++ [j]) s).
(** spawn_task with a worker: the packaged_task, then send; future.hpp:57-60 *)
Definition dspawn (j : djob) : D := alloc ;; dsend j.

(** ~Sink: _bg.reset(), that is ~Active of the sink: send and join; sink.hpp:60-62, active.hpp:50-53 *)
Definition destroy_sink (k : nat) : D := must (alloc ;; alloc ;; alloc) ;; upd (u_gone k).
(** an exception leaves a scope that owns the sink; C++ language, no source in /repo *)
Definition owning (k : nat) (a : D) : D := fun n s =>
  match a n s with
  | (Threw, n', s') => (destroy_sink k ;; (fun n s => (Threw, n, s))) n' s'
  | r => r
  end.
(** destruction of a list of sinks; logworker.cpp:63, logworker.hpp:127 *)
Fixpoint destroy_all (l : list nat) : D :=
  match l with
  | [] => skip
  | k :: r => destroy_sink k ;; destroy_all r
  end.

(** an addSink that has not returned holds a shared_ptr of its sink; logworker.hpp:92 *)
Definition held (s : dst) (k : nat) : bool := existsb (fun p => match snd p with KAdd i => Nat.eqb i k | _ => false end) (d_calls s).
(** the sinks with no other owner than the list; std::shared_ptr, C++ standard library *)
Definition only_owned (s : dst) : list nat := filter (fun k => negb (held s k)) (d_sinks s).

(** the call with this number waits; helper of this model, no source of its own *)
Definition waits (c : nat) (x : dcall) (s : dst) : dst := u_calls (d_calls s ++ [(c, x)]) s.

(** what an action comes to for the client: it returned, threw, or waits.  helper of this model, no source of its own *)
Inductive dout := OReturned | OThrew | OWaits.

(** LOG: makes its entry and hands it over; when logging is not active the entry is kept or dropped (C115); g3log.cpp:143-209, logworker.cpp:101-103 *)
Definition dlog (m : nat) : D := fun n s =>
  if d_active s then (alloc ;; dsend (JSave m)) n s else (alloc ;; skip) n s.
(** LOG(FATAL) or a signal; g3log.cpp:157-230, logworker.cpp:105-107 *)
Definition dfatal (m : nat) : D := fun n s =>
  if d_active s then (alloc ;; dsend (JFatal m)) n s else (alloc ;; (fun n s => (Ends DSignal, n, s))) n s.
(** addSink up to the wait; logworker.hpp:92-93, sink.hpp:41-59, active.hpp:60-63, logworker.cpp:109-114.
    No memory for the thread of the sink ends the process (C120) *)
Definition dadd (k : nat) : D :=
  alloc ;; alloc ;; must alloc ;; owning k (alloc ;; dspawn (JAdd k k)) ;; upd (waits k (KAdd k)).
(** addSink after the wait: the handle; a sink that was not registered is destroyed; logworker.cpp:114-115, logworker.hpp:94-95 *)
Definition dadd_end (k : nat) : D := fun n s =>
  if existsb (Nat.eqb k) (d_sinks s) then (alloc ;; upd (fun s => u_handles (d_handles s ++ [k]) s)) n s
  else (owning k alloc ;; destroy_sink k ;; upd (fun s => u_handles (d_handles s ++ [k]) s)) n s.
(** removeSink up to the wait: the handle is the parameter's and gone in any case; a handle the client does not have is a null one;
    logworker.hpp:102-115 *)
Definition dremove (k c : nat) : D :=
  upd (fun s => u_handles (remove Nat.eq_dec k (d_handles s)) s) ;; dspawn (JRemove k c) ;; upd (waits c (KRemove k)).
(** removeAllSinks up to the wait; logworker.hpp:124-130 *)
Definition dall (c : nat) : D := dspawn (JClear c) ;; upd (waits c KAll).
(** ~LogWorker up to the wait of removeAllSinks; logworker.cpp:70-84 *)
Definition ddestroy (c : nat) : D := upd (u_active false) ;; must (dspawn (JClear c)) ;; upd (waits c KDestroy).
(** _bg.reset(nullptr): ~Active up to join; logworker.cpp:98, active.hpp:51 *)
Definition ddestroy_bg (c : nat) : D := upd (u_bg false) ;; must (dsend JStop) ;; upd (waits c KJoin).
(** the end of ~LogWorker: what is still in _sinks is destroyed with it; logworker.cpp:99, logworker.hpp:28-29 *)
Definition ddestroy_end : D := fun n s => (destroy_all (only_owned s) ;; upd (u_sinks [])) n s.

(** the loop over the sinks; logworker.cpp:26-29, 56-59, sink.hpp:64-68 *)
Fixpoint to_sinks (l : list nat) (m : nat) : D :=
  match l with
  | [] => skip
  | k :: r => alloc ;; alloc ;; alloc ;; alloc ;; alloc ;; upd (u_got k m) ;; to_sinks r m
  end.

(** a job on the worker's thread; logworker.cpp:23-68, 110-112, logworker.hpp:108-113, 125-128.
    An exception out of push_back stays in the packaged_task; JRemove and JClear throw nothing, ~Sink does not return *)
Definition djob_run (j : djob) : D := fun n s =>
  match j with
  | JSave m => (upd (u_taken m) ;; to_sinks (d_sinks s) m ;; match d_sinks s with [] => alloc ;; alloc | _ => skip end) n s
  | JFatal m => (upd (u_active false) ;; alloc ;; alloc ;; alloc ;; alloc ;; alloc ;; to_sinks (d_sinks s) m ;; destroy_all (only_owned s) ;; (fun n s => (Ends DSignal, n, s))) n s
  | JAdd k c => match (alloc ;; upd (fun s => u_sinks (d_sinks s ++ [k]) s)) n s with (_, n', s') => (Done, n', u_ready c s') end
  | JRemove k c =>
      (if existsb (Nat.eqb k) (d_sinks s)
       then (upd (u_sinks (remove Nat.eq_dec k (d_sinks s))) ;; (if held s k then skip else destroy_sink k) ;; upd (u_ready c)) n s
       else upd (u_ready c) n s)
  | JClear c => (upd (u_sinks []) ;; destroy_all (only_owned s) ;; upd (u_ready c)) n s
  | JStop => upd (u_running false) n s
  end.

(** one turn of Active::run: an exception out of a job leaves the thread function; active.hpp:37-43 *)
Definition dwork : D := fun n s =>
  if d_running s then
    match d_queue s with
    | [] => skip n s
    | j :: r => (upd (u_queue r) ;; must (djob_run j)) n s
    end
  else skip n s.

(** what a client thread or the worker does next; [ARemove k]: removeSink with the handle of sink k; [AReturn c]: call c goes on after its wait;
    logworker.hpp:88-131, logworker.cpp:70-115, g3log.cpp:143-230, active.hpp:37-43 *)
Inductive dact := ALog (m : nat) | AFatal (m : nat) | AAdd | ARemove (k : nat) | AAll | ADestroy | AReturn (c : nat) | AWork.

(** helper of this model, no source of its own *)
Fixpoint find_call (c : nat) (l : list (nat * dcall)) : option dcall :=
  match l with
  | [] => None
  | (i, x) :: r => if Nat.eqb i c then Some x else find_call c r
  end.
(** helper of this model, no source of its own *)
Definition drop_call (c : nat) (l : list (nat * dcall)) : list (nat * dcall) := filter (fun p => negb (Nat.eqb (fst p) c)) l.

(** the destructor runs, or has run; logworker.cpp:70-99 *)
Definition dying (s : dst) : bool := negb (d_bg s) || existsb (fun p => match snd p with KDestroy | KJoin => true | _ => false end) (d_calls s).

(** the outcome of a piece of code that ends with [o]; helper of this model, no source of its own *)
Definition result (o : dout) (r : dres * nat * dst) : nat * dst * option dout :=
  match r with
  | (Done, n, s) => (n, s, Some o)
  | (Threw, n, s) => (n, s, Some OThrew)
  | (Ends e, n, s) => (n, u_end e s, None)
  end.

(** one action, unless the process has ended.  None: the process ended in it, or the action is not possible.
    removeSink of a null handle does nothing (logworker.hpp:102); the waits: logworker.hpp:115, 130, logworker.cpp:114, active.hpp:52 *)
Definition dstep (n : nat) (s : dst) (a : dact) : nat * dst * option dout :=
  match d_end s with
  | Some _ => (n, s, None)
  | None =>
      let c := d_next s in
      let s1 := u_next (S c) s in
      match a with
      | ALog m => result OReturned (dlog m n s)
      | AFatal m => result OWaits (dfatal m n s)
      | AAdd => if d_bg s then result OWaits (dadd c n s1) else (n, s, None)
      | ARemove k =>
          if d_bg s then
            if existsb (Nat.eqb k) (d_handles s) then result OWaits (dremove k c n s1) else (n, s, Some OReturned)
          else (n, s, None)
      | AAll => if d_bg s then result OWaits (dall c n s1) else (n, s, None)
      | ADestroy => if dying s then (n, s, None) else result OWaits (ddestroy c n s1)
      | AReturn c =>
          match find_call c (d_calls s) with
          | None => (n, s, None)
          | Some x =>
              let s2 := u_calls (drop_call c (d_calls s)) s in
              match x with
              | KJoin => if d_running s then (n, s, Some OWaits) else result OReturned (ddestroy_end n s2)
              | _ =>
                  if existsb (Nat.eqb c) (d_ready s) then
                    match x with
                    | KAdd k => result OReturned (dadd_end k n s2)
                    | KDestroy => result OWaits (ddestroy_bg c n s2)
                    | _ => (n, s2, Some OReturned)
                    end
                  else (n, s, Some OWaits)
              end
          end
      | AWork => result OReturned (dwork n s)
      end
  end.

(** a run: the actions in the order in which they happen, with what each of them came to; helper of this model, no source of its own *)
Fixpoint drun (n : nat) (s : dst) (acts : list dact) : nat * dst * list (dact * option dout) :=
  match acts with
  | [] => (n, s, [])
  | a :: r =>
      let '(n1, s1, o) := dstep n s a in
      let '(n2, s2, l) := drun n1 s1 r in
      (n2, s2, (a, o) :: l)
  end.
End Memory.
