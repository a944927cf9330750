(** The same program with a queue whose operations happen at once. *)
From Coq Require Import List Arith NArith.
From Verif.Base Require Import Threads.
From Verif.Model Require Import SharedQueue QueueClient.
From Verif.Spec Require Import QueueSpec.
Import ListNotations.

Section Spec.
Context {A L M : Type}.

(** local variables, shared memory, and the items *)
Definition astate : Type := list L * M * list A.

Inductive astep (P : program A L M) : astate -> astate -> Prop :=
| as_inner : forall ls m l t x x' m',
    nth_error ls t = Some x -> p_wants P t x = None -> p_inner P t x m x' m' ->
    astep P (ls, m, l) (upd ls t x', m', l)
| as_op : forall ls m l t x o r l',
    nth_error ls t = Some x -> p_wants P t x = Some o -> atomic l o r l' ->
    astep P (ls, m, l) (upd ls t (p_takes P t x r), m, l').

Inductive areach (P : program A L M) (ls : list L) (m : M) : astate -> Prop :=
| ar_init : areach P ls m (ls, m, [])
| ar_step : forall s s', areach P ls m s -> astep P s s' -> areach P ls m s'.

(** nobody is inside an operation *)
Definition quiet (q : qstate A) : Prop := forall t, outside (pc q t).

(** the operation of the thread has happened, and r is on its way to the caller *)
Definition on_its_way (q : qstate A) (t : nat) (r : qres A) : Prop :=
  exists tr o, filter (by_thread t) (q_trace q) = tr ++ [Commit t o r].

(** [ls'] is [ls] once the results that are on their way have arrived *)
Definition arrived (P : program A L M) (q : qstate A) (ls ls' : list L) : Prop :=
  length ls' = length ls /\
  forall t x x', nth_error ls t = Some x -> nth_error ls' t = Some x' ->
    (forall r, on_its_way q t r -> x' = p_takes P t x r) /\ ((forall r, ~ on_its_way q t r) -> x' = x).
End Spec.
