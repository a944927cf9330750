(** When a fatal signal comes at a bad moment. *)
From Coq Require Import List ZArith Bool.
From Verif Require Import Base.Threads Model.Races Model.Interrupt.
Import ListNotations.

(** run the events in the given order *)
Fixpoint iruns (es : list ievent) (st : istate) : option istate :=
  match es with
  | [] => Some st
  | e :: r => match istep st e with Some st' => iruns r st' | None => None end
  end.

(** the mutexes that the handling of a fatal message takes: the queue's, the hook's, the guard of the first
    stack trace *)
Definition critical : list sem := [MQueue; MHook; MOnce 3].
(** the thread holds none of them *)
Definition harmless (st : istate) (t : nat) : Prop := forall s, In s critical -> owner st s <> Some t.
(** every signal of the execution comes at such a moment *)
Fixpoint all_harmless (es : list ievent) (st : istate) : Prop :=
  match es with
  | [] => True
  | e :: r =>
      match e with Signal t => harmless st t | Step _ => True end /\
      match istep st e with Some st' => all_harmless r st' | None => True end
  end.

(** the events are steps, no signals *)
Definition steps_only (es : list ievent) : Prop := Forall (fun e => match e with Step _ => True | Signal _ => False end) es.
(** no signal to t *)
Definition spares (t : nat) (es : list ievent) : Prop := Forall (fun e => e <> Signal t) es.
