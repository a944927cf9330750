(** Infinite executions of the log worker, its sinks and its clients, and what it means that a scheduler is fair to a thread. *)
From Coq Require Import List Arith Bool.
From Verif.Model Require Import Worker.
Import ListNotations.

(** the threads of Model/Worker.v *)
Inductive thread := Worker | SinkOf (k : nat) | Client (i : nat).
(** a step of this thread in the middle of something; a new call by an idle client is not one of them, so that fairness never obliges a client to call *)
Definition step_of (th : thread) (a : waction) : bool :=
  match th, a with
  | Worker, AWork => true
  | SinkOf k, ASinkPop u => Nat.eqb u k
  | SinkOf k, ASinkEnd u _ => Nat.eqb u k
  | SinkOf k, ASinkExit u => Nat.eqb u k
  | Client i, AGo j => Nat.eqb j i
  | _, _ => false
  end.
(** an execution that does not end: the states, and what happens in between (None: nothing does).
    Clients may log and make other calls at any time and for ever. *)
Record execution (n : nat) (ex : nat -> wstate) (ac : nat -> option waction) : Prop := mkEx {
  ex_start : wreach n (ex 0);
  ex_next : forall t, match ac t with Some a => wstep (ex t) a = Some (ex (S t)) | None => ex (S t) = ex t end
}.
(** weak fairness: at no time is the thread left alone for ever while it could go on.
    For a sink this includes that its receive function, and a function called through a handle, come to an end. *)
Definition fair_to (ex : nat -> wstate) (ac : nat -> option waction) (th : thread) : Prop :=
  forall t, exists m, t <= m /\
    ((exists a, ac m = Some a /\ step_of th a = true) \/ (forall a, step_of th a = true -> wstep (ex m) a = None)).
(** now or later this is so, or the process has ended *)
Definition eventually (ex : nat -> wstate) (t : nat) (Q : wstate -> Prop) : Prop :=
  exists m, t <= m /\ (w_proc (ex m) <> PRun \/ Q (ex m)).
