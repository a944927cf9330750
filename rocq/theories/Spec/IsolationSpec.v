(** Sinks that are slow or that throw, told from outside. *)
From Coq Require Import List Arith Bool.
From Verif.Model Require Import Worker SharedQueue.
Import ListNotations.

(** a step of the worker, or of a sink that is not held up *)
Definition others (slow : nat -> bool) (a : waction) : bool :=
  match a with AWork => true | ASinkPop k | ASinkEnd k _ | ASinkExit k => negb (slow k) | _ => false end.
(** n such steps *)
Inductive osteps (slow : nat -> bool) : nat -> wstate -> wstate -> Prop :=
| os_refl : forall s, osteps slow 0 s s
| os_step : forall n s s1 a s2, osteps slow n s s1 -> others slow a = true -> wstep s1 a = Some s2 -> osteps slow (S n) s s2.
(** no such step is possible *)
Definition oquiet (slow : nat -> bool) (s : wstate) : Prop := forall a, others slow a = true -> wstep s a = None.

(** requests to log or to add a sink *)
Definition plain (t : task) : bool := match t with TSave _ | TAdd _ _ => true | _ => false end.
(** the worker waits for work, or hands a message to the sinks *)
Definition serving (p : wpc) : bool := match p with WLoop => true | WSend _ _ [] KLoop => true | _ => false end.

(** how many steps of client i *)
Definition steps_of (i : nat) (l : list waction) : nat := length (filter (fun a => match a with AGo j => Nat.eqb j i | _ => false end) l).
(** client i calls something *)
Definition calls (i : nat) (a : waction) : bool :=
  match a with
  | ALog j | AAdd j | ARemove j _ | ARemoveAll j | ACall j _ | ALock j _ | ARelease j _ | ADestroy j | AFatal j => Nat.eqb j i
  | _ => false
  end.

(** what a thread that holds the mutex has still to do before it lets go of it *)
Definition todo {A} (p : qpc A) : nat := match p with Body _ => 3 | Take _ => 2 | Leave _ _ => 1 | _ => 0 end.
(** the steps of one thread *)
Definition of_thread {A} (t : nat) (a : qaction A) : bool :=
  match a with Start u _ | Step u | Wake u _ | NoWake u => Nat.eqb u t | Spurious _ => false end.
