(** What a sink should receive, told from the order in which requests entered the worker's queue. *)
From Coq Require Import List Arith Bool.
From Verif.Model Require Import Worker.
Import ListNotations.

(** the messages for sink k among the requests l; [on]: k is registered at the start.
    A fatal message is received and ends every registration. *)
Fixpoint window (k : nat) (on : bool) (l : list task) : list msg :=
  match l with
  | [] => []
  | TSave m :: r => (if on then [m] else []) ++ window k on r
  | TFatal m :: r => (if on then [m] else []) ++ window k false r
  | TAdd _ k' :: r => window k (if Nat.eqb k' k then true else on) r
  | TRemove _ k' :: r => window k (if Nat.eqb k' k then false else on) r
  | TClear _ :: r => window k false r
  | TDone :: r => window k on r
  end.
(** is k registered after the requests l? *)
Fixpoint registered (k : nat) (on : bool) (l : list task) : bool :=
  match l with
  | [] => on
  | TSave _ :: r | TDone :: r => registered k on r
  | TFatal _ :: r | TClear _ :: r => registered k false r
  | TAdd _ k' :: r => registered k (if Nat.eqb k' k then true else on) r
  | TRemove _ k' :: r => registered k (if Nat.eqb k' k then false else on) r
  end.

(** messages among the callbacks of a sink *)
Definition msgs (l : list sjob) : list msg := flat_map (fun j => match j with JMsg m => [m] | _ => [] end) l.
(** what the sink has received: its receive function has returned *)
Definition received (x : sink) : list msg := msgs (k_got x).
(** everything sent to the sink *)
Definition all (x : sink) : list sjob := k_got x ++ match k_run x with Some j => [j] | None => [] end ++ k_q x.

(** how often handle call c is among these callbacks *)
Definition isc (c : nat) (j : sjob) : bool := match j with JCall u => Nat.eqb u c | _ => false end.
Definition ncall (c : nat) (l : list sjob) : nat := length (filter (isc c) l).

(** all messages that entered *)
Definition logged (l : list task) : list msg := flat_map (fun t => match t with TSave m | TFatal m => [m] | _ => [] end) l.

Definition prefix {A} (a b : list A) : Prop := exists r, b = a ++ r.
(** some elements of l2, in the order of l2 *)
Inductive sublist {A} : list A -> list A -> Prop :=
| sub_nil : sublist [] []
| sub_skip : forall x l1 l2, sublist l1 l2 -> sublist l1 (x :: l2)
| sub_take : forall x l1 l2, sublist l1 l2 -> sublist (x :: l1) (x :: l2).

(** a comes before b in l *)
Definition before {A} (a b : A) (l : list A) : Prop := exists l1 l2 l3, l = l1 ++ a :: l2 ++ b :: l3.

(** ** Executions *)
(** a schedule, step by step *)
Fixpoint wrun (s : wstate) (l : list waction) : option wstate :=
  match l with [] => Some s | a :: r => match wstep s a with Some s' => wrun s' r | None => None end end.
(** steps of threads that are in the middle of something *)
Definition bg (a : waction) : bool := match a with AWork | ASinkPop _ | ASinkEnd _ _ | ASinkExit _ | AGo _ => true | _ => false end.
(** n such steps *)
Inductive bsteps : nat -> wstate -> wstate -> Prop :=
| bs_refl : forall s, bsteps 0 s s
| bs_step : forall n s s1 a s2, bsteps n s s1 -> bg a = true -> wstep s1 a = Some s2 -> bsteps (S n) s s2.
(** no such step is possible *)
Definition stuck (s : wstate) : Prop := forall a, bg a = true -> wstep s a = None.
(** whose step is it? *)
Definition own (k : nat) (a : waction) : bool := match a with ASinkPop u | ASinkEnd u _ | ASinkExit u => Nat.eqb u k | _ => false end.

(** nobody shuts the logger down or destroys the worker *)
Definition no_shutdown (a : waction) : Prop := match a with AShutDown | ADestroy _ => False | _ => True end.
(** nor is there a fatal event *)
Definition calm_action (a : waction) : Prop := match a with AFatal _ => False | _ => no_shutdown a end.
