(** The life of a process, as its clients see it. *)
From Coq Require Import List ZArith NArith Bool.
From Verif.Base Require Import Bytes.
From Verif.Model Require Import Levels Message Signals Global Lifecycle.
From Verif.Spec Require Import SignalsSpec GlobalSpec.
Import ListNotations.
Local Open Scope list_scope.
Local Open Scope Z_scope.

(** the calls of clients that concern signals *)
Definition client_ops (l : list lact) : list sop := flat_map (fun a => match a with LSig o => [o] | _ => [] end) l.
(** has logging been initialized (or has somebody tried to)? *)
Definition initialized (tr : list (nat * event)) : bool := existsb (fun o => match o with OInit _ => true | _ => false end) (calls tr).

(** the set of signals the client has chosen last; at first the five *)
Definition chosen_by (os : list sop) : Z -> bool :=
  fold_left (fun c o => match o with SOverride l => named l | SDefault => five | _ => c end) os five.
(** a client that chooses signals and installs, but does not take single signals away from g3log *)
Definition leaves_alone (o : sop) : Prop := match o with SInstall | SOverride _ | SDefault => True | SRestore _ | SClient _ _ => False end.

(** the rest of a thread's work is just logging, in and out of try blocks, or waiting for the end *)
Definition logs_only (l : list op) : Prop := forall o, In o l -> exists m, o = OLog m.
Definition peaceful (f : frame) : Prop := match f with FOps l => logs_only l | FCatch | FWaiting => True | _ => False end.

(** what may happen after a crash of thread t: threads go on, the worker works, and signals handled by g3log come to other threads *)
Definition aftermath (handled : Z -> bool) (t : nat) (a : lact) : Prop :=
  match a with
  | LCall _ | LWorker _ => True
  | LSignal u s => u <> t /\ handled s = true
  | LSig _ => False
  end.
(** how often thread t gets a turn *)
Definition turns (t : nat) (l : list lact) : nat := length (filter (fun a => match a with LCall u => Nat.eqb u t | _ => false end) l).
