(** Any program that uses a shared_queue (src/g3log/shared_queue.hpp).

    A program is a number of threads with local variables, and memory that they share.  A thread that is not inside
    an operation of the queue either calls one, which its local variables decide, or does a step of its
    own, which may change its local variables and the shared memory in any way (other queues may live in
    the shared memory, in the middle of their operations).  When an operation returns, its result goes into
    the local variables of the caller.  While a thread is inside an operation it does nothing else.
    Model of the callers of the queue: active.hpp:37-57 and everything above it; the queue itself is that of
    Model/SharedQueue.v. *)
From Coq Require Import List Arith NArith Bool.
From Verif.Base Require Import Threads.
From Verif.Model Require Import SharedQueue.
Import ListNotations.

Section Client.
Context {A L M : Type}.

(** callers of shared_queue.hpp:38-77; any *)
Record program := mkProg {
  p_wants : nat -> L -> option (qop A);             (* the operation that thread t calls next *)
  p_takes : nat -> L -> qres A -> L;                (* what it does with the result: popped_item, the returned value *)
  p_inner : nat -> L -> M -> L -> M -> Prop         (* a step outside the queue *)
}.

(** local variables of the threads, shared memory, the queue of shared_queue.hpp:28-30 *)
Record fstate := mkF { f_locals : list L; f_mem : M; f_queue : qstate A }.

(** what happens; the steps of shared_queue.hpp:38-77 and those outside *)
Inductive flabel := FInner (t : nat) | FCall (t : nat) | FQueue (a : qaction A).

(** not inside an operation; helper of this model, no source of its own *)
Definition outside (p : qpc A) : Prop := exists l, p = Idle l.
(** a step inside shared_queue.hpp:38-77, not the call *)
Definition goes_on (a : qaction A) : Prop := match a with Start _ _ => False | _ => True end.

(** one step of the program with the queue of shared_queue.hpp:38-77 *)
Inductive fstep (P : program) : flabel -> fstate -> fstate -> Prop :=
| fs_inner : forall ls m q t x x' m',
    nth_error ls t = Some x -> outside (pc q t) -> p_wants P t x = None -> p_inner P t x m x' m' ->
    fstep P (FInner t) (mkF ls m q) (mkF (upd ls t x') m' q)
| fs_call : forall ls m q q' t x o,
    nth_error ls t = Some x -> p_wants P t x = Some o -> qstep q (Start t o) = Some q' ->
    fstep P (FCall t) (mkF ls m q) (mkF ls m q')
| fs_work : forall ls m q q' a,                     (* nobody returns *)
    goes_on a -> qstep q a = Some q' -> (forall t, outside (pc q' t) -> outside (pc q t)) ->
    fstep P (FQueue a) (mkF ls m q) (mkF ls m q')
| fs_return : forall ls m q q' a t x r,             (* thread t returns with r *)
    goes_on a -> qstep q a = Some q' -> ~ outside (pc q t) -> pc q' t = Idle (Some r) -> nth_error ls t = Some x ->
    fstep P (FQueue a) (mkF ls m q) (mkF (upd ls t (p_takes P t x r)) m q').

(** executions; the queue begins as shared_queue.hpp:36 leaves it *)
Inductive freach (P : program) (ls : list L) (m : M) : fstate -> Prop :=
| fr_init : freach P ls m (mkF ls m (q_init (length ls)))
| fr_step : forall s lab s', freach P ls m s -> fstep P lab s s' -> freach P ls m s'.
End Client.
Arguments program : clear implicits.
Arguments fstate : clear implicits.
Arguments flabel : clear implicits.
