(** Infinite executions of an active object and its clients; fair schedulers. *)
From Coq Require Import List Arith Bool.
From Verif.Model Require Import SharedQueue ActiveObj.
From Verif.Spec Require Import QueueFairSpec.
Import ListNotations.

(** an execution that does not end: the states, and what happens in between (None: nothing does) *)
Record a_execution (n : nat) (ex : nat -> astate) (ac : nat -> option aaction) : Prop := mkAEx {
  aex_start : ex 0 = a_init n;
  aex_next : forall i, match ac i with Some a => astep (ex i) a = Some (ex (S i)) | None => ex (S i) = ex i end
}.
(** a step of a thread (0 is the background thread, S i is client i) in the middle of something of active.hpp; new calls and what callbacks do are not among them *)
Definition a_step_of (t : nat) (a : aaction) : bool :=
  match a with
  | AQueue qa => q_step_of t qa
  | ATest | ABegin | ABgSent => Nat.eqb t 0
  | ASent i | ADtorSent i | ADtorRet i => Nat.eqb t (S i)
  | AEnd _ | ABgSend _ | ASend _ _ | ASpawn _ | ASpawnNull _ | ADtor _ => false
  end.
(** the scheduler does not leave a thread alone for ever while it could go on *)
Definition a_fair_to (ex : nat -> astate) (ac : nat -> option aaction) (t : nat) : Prop :=
  forall i, exists m, i <= m /\
    ((exists a, ac m = Some a /\ a_step_of t a = true) \/ (forall a, a_step_of t a = true -> astep (ex m) a = None)).
(** apart: every callback comes to an end, though it may send others meanwhile *)
Definition callbacks_end (ex : nat -> astate) (ac : nat -> option aaction) : Prop :=
  forall i c, a_bg (ex i) = BRun c \/ a_bg (ex i) = BSend c -> exists m o, i <= m /\ ac m = Some (AEnd o).
(** no callback that was given to send throws *)
Definition none_throws (ex : nat -> astate) : Prop := forall i, a_terminated (ex i) = false.
Record well_run (n : nat) (ex : nat -> astate) (ac : nat -> option aaction) : Prop := mkRun {
  wr_ex : a_execution n ex ac;
  wr_fair : forall t, a_fair_to ex ac t;
  wr_mutex : mutex_fair (fun i => a_q (ex i));
  wr_throw : none_throws ex
}.
