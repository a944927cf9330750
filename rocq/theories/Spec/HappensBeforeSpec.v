(** Happens-before, as the C++ standard defines it ([intro.races]), for executions of Model/Races.v.  *)
From Coq Require Import List ZArith Bool.
From Coq Require Import Relations.Relation_Operators.
From Verif Require Import Base.Threads Model.Races.
Import ListNotations.
Open Scope Z_scope.

(** what a thread did: locked or waited for s, unlocked or notified s, accessed x (did it read, did it write, was it
    atomic) *)
Inductive event :=
| Locks (s : sem)
| Unlocks (s : sem)
| Accesses (x : loc) (reads writes atomic : bool).

(** the event that comes next in a thread *)
Definition next_event (p : prog) : option event :=
  match p with
  | Stop => None
  | Acq s _ => Some (Locks s)
  | Rel s _ => Some (Unlocks s)
  | Rd a x _ => Some (Accesses x true false a)
  | Wr a x _ _ => Some (Accesses x false true a)
  | Rmw x _ _ => Some (Accesses x true true true)
  end.

(** the events of an execution in their order, with their threads *)
Definition events := list (nat * event).
Fixpoint trace (sched : list nat) (st : state) : option events :=
  match sched with
  | [] => Some []
  | t :: r =>
      match next_event (get Stop (ths st) t), step st t with
      | Some e, Some st' => option_map (cons (t, e)) (trace r st')
      | _, _ => None
      end
  end.

(** event number i belongs to thread t and is e *)
Definition is_event (tr : events) (i : nat) (t : nat) (e : event) : Prop := nth_error tr i = Some (t, e).
(** event number i writes x *)
Definition writes_to (tr : events) (x : loc) (i : nat) : Prop := exists t r a, is_event tr i t (Accesses x r true a).
(** the read j takes its value from the write i: no write to x lies between them *)
Definition reads_from (tr : events) (x : loc) (i j : nat) : Prop :=
  (i < j)%nat /\ writes_to tr x i /\ (forall k, (i < k < j)%nat -> ~ writes_to tr x k).

(** sequenced before, or synchronizes with: an unlock with every later lock of the same mutex, the start of a thread with its first
    step, its last step with the join; an atomic write with an atomic read that takes its value from it *)
Inductive before (tr : events) (i j : nat) : Prop :=
| same_thread t e f : (i < j)%nat -> is_event tr i t e -> is_event tr j t f -> before tr i j
| unlock_lock t u s : (i < j)%nat -> is_event tr i t (Unlocks s) -> is_event tr j u (Locks s) -> before tr i j
| write_read t u x r w : is_event tr i t (Accesses x r true true) -> is_event tr j u (Accesses x true w true) ->
    reads_from tr x i j -> before tr i j.
(** happens before *)
Definition happens_before (tr : events) : nat -> nat -> Prop := clos_trans nat (before tr).

(** events i and j are of different threads, both access x, at least one writes, not both are atomic *)
Definition conflicting (tr : events) (x : loc) (i j : nat) : Prop :=
  exists t u r r' w w' a a', t <> u /\ is_event tr i t (Accesses x r w a) /\ is_event tr j u (Accesses x r' w' a') /\
    w || w' = true /\ a && a' = false.
(** a data race of the execution: two conflicting events of which none happens before the other *)
Definition data_race (tr : events) (x : loc) : Prop :=
  exists i j, conflicting tr x i j /\ ~ happens_before tr i j /\ ~ happens_before tr j i.
