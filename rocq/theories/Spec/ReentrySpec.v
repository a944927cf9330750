(** Vocabulary for calls from the library's own threads. *)
From Coq Require Import List Arith Bool.
From Verif.Model Require Import Worker Reentry.
Import ListNotations.

(** the call waits for the worker's thread *)
Definition asks_worker (p : cpc) : bool := match p with CAddW _ | CRmW _ _ | CAllW | DClrW _ | CFatBlock => true | _ => false end.
(** the call waits for another thread, or is the destruction of the worker, which has ended *)
Definition waits (p : cpc) : bool := asks_worker p || match p with CJoin _ _ | DJoin _ | DDone _ => true | _ => false end.

(** no step of a thread that is in the middle of something is possible *)
Definition in_progress (a : waction) : bool := match a with AWork | ASinkPop _ | ASinkEnd _ _ | ASinkExit _ | AGo _ => true | _ => false end.
Definition rstuck (h : nat -> thread) (s : wstate) : Prop := forall a, in_progress a = true -> rstep h s a = None.
(** n such steps *)
Inductive rbsteps (h : nat -> thread) : nat -> wstate -> wstate -> Prop :=
| rb_refl : forall s, rbsteps h 0 s s
| rb_step : forall n s s1 a s2, rbsteps h n s s1 -> in_progress a = true -> rstep h s1 a = Some s2 -> rbsteps h (S n) s s2.

(** code on the thread of a sink does not lock a handle to that sink *)
Definition own_handle_unused (h : nat -> thread) (a : waction) : Prop :=
  match a with ACall i k | ALock i k | ARemove i k => h i <> OnSink k | _ => True end.
