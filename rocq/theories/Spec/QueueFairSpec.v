(** Infinite executions of the threads that use a shared_queue; fair schedulers, mutexes that starve nobody. *)
From Coq Require Import List Arith Bool.
From Verif.Model Require Import SharedQueue.
Import ListNotations.

Section Spec.
Context {A : Type}.

(** an execution that does not end: the states, and what happens in between (None: nothing does) *)
Record q_execution (n : nat) (ex : nat -> qstate A) (ac : nat -> option (qaction A)) : Prop := mkQEx {
  qex_start : ex 0 = q_init n;
  qex_next : forall i, match ac i with Some a => qstep (ex i) a = Some (ex (S i)) | None => ex (S i) = ex i end
}.
(** a step of thread t in the middle of an operation; calling one is not among them: nobody is obliged to *)
Definition q_step_of (t : nat) (a : qaction A) : bool :=
  match a with Step u | Wake u _ | NoWake u => Nat.eqb u t | Start _ _ | Spurious _ => false end.
(** the scheduler does not leave a thread alone for ever while it could go on (weak fairness) *)
Definition q_fair_to (ex : nat -> qstate A) (ac : nat -> option (qaction A)) (t : nat) : Prop :=
  forall i, exists m, i <= m /\
    ((exists a, ac m = Some a /\ q_step_of t a = true) \/ (forall a, q_step_of t a = true -> qstep (ex m) a = None)).
(** waits for the mutex *)
Definition wants (p : qpc A) : bool := match p with Lock _ | Relock => true | _ => false end.
(** the mutex starves nobody: when it is free again and again, no thread waits for it for ever *)
Definition mutex_fair (ex : nat -> qstate A) : Prop :=
  (forall j, exists m, j <= m /\ q_owner (ex m) = None) ->
  forall t i, exists m, i <= m /\ wants (pc (ex m) t) = false.
(** is in wait_and_pop and has not taken an item *)
Definition popping (p : qpc A) : bool := match p with Lock OPop | Body OPop | Sleep | Relock | Take false => true | _ => false end.
(** whenever it is outside, this thread calls wait_and_pop sooner or later *)
Definition keeps_popping (ex : nat -> qstate A) (ac : nat -> option (qaction A)) (c : nat) : Prop :=
  forall i, exists m, i <= m /\ (ac m = Some (Start c OPop) \/ popping (pc (ex m) c) = true).
(** nobody but c calls functions that take items out *)
Definition only_consumer (ac : nat -> option (qaction A)) (c : nat) : Prop :=
  forall i t o, ac i = Some (Start t o) -> o = OPop \/ o = OTryPop -> t = c.
End Spec.
