(** Time stamps and the order of the queue: LOG statements of several threads.
    Source: g3log.cpp:143-155 (saveMessage), logmessage.cpp:121-138 (the constructor reads the clock), logworker.cpp:101-103
    (save), shared_queue.hpp:38-44 (push).

    A statement reads the clock when its LogMessage is made, and puts the message in the worker's queue later; what other
    threads do in between is arbitrary.  Simplification: the message is its thread, its number and its time stamp. *)
From Coq Require Import List ZArith Bool.
Import ListNotations.

(** where a thread is: outside any statement, in statement n before the LogMessage is made, or after with its time stamp *)
Inductive phase := Outside | Before (n : nat) | Stamped (n : nat) (t : Z).

(** thread, number of the statement in its thread, time stamp: logmessage.hpp:106-115 *)
Record entry := mkEntry { e_thread : nat; e_number : nat; e_time : Z }.

(** clock; per thread: phase and statements begun so far; the queue *)
Record state := mkState { clock : Z; phases : nat -> phase; begun : nat -> nat; queue : list entry }.

(** time passes (or the clock is set); a thread begins a statement; reads the clock (logmessage.cpp:124); pushes (shared_queue.hpp:38-44) *)
Inductive step := Tick (t : Z) | Begin (i : nat) | Stamp (i : nat) | Push (i : nat).

(** helper of this model, no source of its own *)
Definition upd {A : Type} (f : nat -> A) (i : nat) (x : A) : nat -> A := fun j => if Nat.eqb j i then x else f j.

(** one step; None: not possible now.  g3log.cpp:143-155 *)
Definition do_step (st : state) (e : step) : option state :=
  match e with
  | Tick t => Some (mkState t (phases st) (begun st) (queue st))
  | Begin i =>
      match phases st i with
      | Outside => Some (mkState (clock st) (upd (phases st) i (Before (begun st i))) (upd (begun st) i (S (begun st i))) (queue st))
      | _ => None
      end
  | Stamp i =>
      match phases st i with
      | Before n => Some (mkState (clock st) (upd (phases st) i (Stamped n (clock st))) (begun st) (queue st))
      | _ => None
      end
  | Push i =>
      match phases st i with
      | Stamped n t => Some (mkState (clock st) (upd (phases st) i Outside) (begun st) (queue st ++ [mkEntry i n t]))
      | _ => None
      end
  end.

(** a run *)
Fixpoint runs (st : state) (es : list step) : option state :=
  match es with
  | [] => Some st
  | e :: r => match do_step st e with Some st' => runs st' r | None => None end
  end.

(** nothing has happened yet *)
Definition start (t : Z) : state := mkState t (fun _ => Outside) (fun _ => 0) [].
