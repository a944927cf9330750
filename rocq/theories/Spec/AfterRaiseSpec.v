(** What is said about fatal events whose signal may not end the process, in terms of what happens only. *)
From Coq Require Import List ZArith Bool.
From Verif.Model Require Import AfterRaise.
Import ListNotations.
Local Open Scope list_scope.

(** fatal events, and the signals among them *)
Definition is_fatal (e : aev) : bool := match e with VFatal _ _ | VSignal _ _ _ _ => true | _ => false end.
Definition is_signal (e : aev) : bool := match e with VSignal _ _ _ _ => true | _ => false end.

(** the entries up to the first fatal one, this one included: what the sinks have to have *)
Fixpoint up_to_fatal (l : list aev) : list nat :=
  match l with
  | [] => []
  | VLog _ m :: r => m :: up_to_fatal r
  | VFatal _ m :: _ => [m]
  | VSignal _ _ _ m :: _ => [m]
  | _ :: r => up_to_fatal r
  end.
(** the signal of the first fatal event; SIGABRT for LOG(FATAL) and CHECK *)
Fixpoint first_fatal (l : list aev) : option Z :=
  match l with
  | [] => None
  | VFatal _ _ :: _ => Some 6%Z
  | VSignal _ s _ _ :: _ => Some s
  | _ :: r => first_fatal r
  end.

(** at most one fatal event, or nothing but signals *)
Definition calm (l : list aev) : Prop :=
  length (filter is_fatal l) <= 1 \/ forallb is_signal (filter is_fatal l) = true.

(** sinks that have received these entries and have nothing left *)
Definition flushed (l : list nat) (p : aproc) : Prop := forall got pend, In (got, pend) (a_sinks p) -> got = l /\ pend = [].

(** steps of the background thread (also in exit) and of sinks *)
Definition by_logger (e : aev) : bool := match e with VBg | VSink _ | VExit 0 => true | _ => false end.
