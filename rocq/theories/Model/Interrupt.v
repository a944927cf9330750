(** Model of fatal signals that interrupt a thread anywhere, also while it holds a mutex of the library.

    Built on the access model (Model/Races.v).  Modelled: signalHandler (crashhandler_unix.cpp:63-84) with the
    flag of shouldDoExit (53-57) and the path of the fatal message behind it; the mutexes of the queue and of
    the hook and the guard of the static in saveFatalMessage.  The handler never returns, so what the thread
    was about to do is lost, but the mutexes that it holds stay held.
    Not modelled: locks inside the C++ runtime (malloc, streams), which a handler can find taken as well. *)
From Coq Require Import List ZArith Bool.
From Verif Require Import Base.Threads Model.Races.
Import ListNotations.

(** a step of a thread, or a fatal signal delivered to it; helper of this model, no source of its own *)
Inductive ievent := Step (t : nat) | Signal (t : nat).

(** the threads, who has taken which mutex last (and not given it back), has a signal been caught before
    (firstExit in shouldDoExit, crashhandler_unix.cpp:53-57) *)
Record istate := mkI { core : state; owner : sem -> option nat; caught : bool }.

(** change one owner; helper of this model, no source of its own *)
Definition set_owner (o : sem -> option nat) (s : sem) (t : option nat) : sem -> option nat :=
  fun y => if sem_eq_dec y s then t else o y.
(** helper of this model, no source of its own *)
Definition new_owner (p : prog) (t : nat) (o : sem -> option nat) : sem -> option nat :=
  match p with
  | Acq s _ => set_owner o s (Some t)
  | Rel s _ => set_owner o s None
  | _ => o
  end.

(** signalHandler (crashhandler_unix.cpp:63-84): the first signal of the process becomes a fatal message, a
    thread with a later one sleeps until the process dies (68-72; here the thread stops) *)
Definition on_signal (caught_before : bool) : prog := if caught_before then Stop else fatal_message.

(** one event; helper of this model, no source of its own *)
Definition istep (st : istate) (e : ievent) : option istate :=
  match e with
  | Step t =>
      match step (core st) t with
      | None => None
      | Some c => Some (mkI c (new_owner (get Stop (ths (core st)) t) t (owner st)) (caught st))
      end
  | Signal t =>
      if (t <? length (ths (core st)))%nat
      then Some (mkI (mkState (mem (core st)) (sems (core st)) (upd (ths (core st)) t (on_signal (caught st)))) (owner st) true)
      else None
  end.

(** threads that run calls of the library, every mutex free; helper of this model, no source of its own *)
Definition istart (memory : loc -> val) (free : sem -> nat) (threads : list (list gcall * ending)) : istate :=
  mkI (mkState memory free (map (fun t => gthread (fst t) (snd t)) threads)) (fun _ => None) false.
