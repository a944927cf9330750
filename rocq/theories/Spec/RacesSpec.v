(** What a data race is, and when calls on the level table may run at the same time. *)
From Coq Require Import List ZArith Bool.
From Verif Require Import Base.Threads Model.Races.
Import ListNotations.
Open Scope Z_scope.

(** the access a thread is about to make: location, is it a write, is it atomic *)
Definition next_access (p : prog) : option (loc * bool * bool) :=
  match p with
  | Rd a x _ => Some (x, false, a)
  | Wr a x _ _ => Some (x, true, a)
  | Rmw x _ _ => Some (x, true, true)
  | _ => None
  end.

(** two different threads are about to access x, at least one writes, at least one access is not atomic
    (C++ standard, [intro.races]) *)
Definition race_at (st : state) (x : loc) : Prop :=
  exists u v wu wv au av, u <> v /\
    next_access (get Stop (ths st) u) = Some (x, wu, au) /\
    next_access (get Stop (ths st) v) = Some (x, wv, av) /\
    wu || wv = true /\ au && av = false.

(** run the threads in the given order *)
Fixpoint runs (sched : list nat) (st : state) : option state :=
  match sched with
  | [] => Some st
  | t :: r => match step st t with Some st' => runs r st' | None => None end
  end.

(** some execution has a data race on x *)
Definition races (st : state) (x : loc) : Prop :=
  exists sched st', runs sched st = Some st' /\ race_at st' x.
(** no execution has a data race on x *)
Definition race_free (st : state) (x : loc) : Prop :=
  forall sched st', runs sched st = Some st' -> ~ race_at st' x.

(** every mutex free, no thread started or ended *)
Definition mutexes_free (s : sem) : nat := match s with Start _ | End _ => 0 | _ => 1 end.

(* ------------------------------------------------------------------ *)
(** ** The level table *)

(** the call changes the set of known levels *)
Definition restructures (keys : list Z) (c : tcall) : bool :=
  match c with
  | TLog l | TAdd l _ => negb (existsb (Z.eqb l) keys)
  | TReset => true
  | _ => false
  end.
(** the known levels whose stored level object the call overwrites *)
Definition overwrites (keys : list Z) (c : tcall) : list Z :=
  match c with
  | TSet l _ | TAdd l _ => if existsb (Z.eqb l) keys then [l] else []
  | THighest l => if existsb (Z.eqb l) keys then keys else []
  | _ => []
  end.
(** the known levels whose stored level object the call copies *)
Definition copies (keys : list Z) (c : tcall) : list Z :=
  match c with
  | TGetAll => keys
  | THighest l => if existsb (Z.eqb l) keys then keys else []
  | _ => []
  end.
(** c overwrites what d overwrites or copies *)
Definition tramples (keys : list Z) (c d : tcall) : bool :=
  existsb (fun l => existsb (Z.eqb l) (overwrites keys d ++ copies keys d)) (overwrites keys c).
(** c and d must not run at the same time *)
Definition conflict (keys : list Z) (c d : tcall) : bool :=
  restructures keys c || restructures keys d || tramples keys c d || tramples keys d c.

(** threads that each make a list of calls on a table with these levels *)
Definition table_threads (keys : list Z) (ts : list (list tcall)) : state :=
  mkState (fun x => match x with LKeys => keys | LLevel _ => [1] | _ => [] end) mutexes_free
    (map (fun cs => calls (map tcall_prog cs) Stop) ts).

(* ------------------------------------------------------------------ *)
(** ** The documented use *)

(** what the threads of a program do while logging is on: log below FATAL, query a level, add and remove sinks, set
    the hook *)
Inductive ucall := ULog (l : Z) | UStatus (l : Z) | UAddSink | URemoveSink | URemoveAllSinks | UHook (h : Z).
Definition ucall_prog (c : ucall) : prog -> prog :=
  match c with
  | ULog l => fun k => log_level l (push_message k)
  | UStatus l => get_status l
  | UAddSink => ask_worker j_add
  | URemoveSink => ask_worker j_remove
  | URemoveAllSinks => ask_worker j_clear
  | UHook h => set_hook h
  end.
(** only levels of the table are logged *)
Definition registered (keys : list Z) (c : ucall) : Prop := match c with ULog l => In l keys | _ => True end.

(** start threads 1 .. n *)
Fixpoint start_threads (n : nat) (k : prog) : prog :=
  match n with O => k | S m => start_threads m (Rel (Start n) k) end.
(** join threads 1 .. n *)
Fixpoint join_threads (n : nat) (k : prog) : prog :=
  match n with O => k | S m => join_threads m (Acq (End n) k) end.

(** main: create the worker, add a sink, initialize, start the threads, log, join them, destroy the worker *)
Definition main_thread (n : nat) (cs : list ucall) : prog :=
  create_worker (ask_worker j_add (initialize (start_threads n
    (calls (map ucall_prog cs) (join_threads n (destroy_worker Stop)))))).
(** thread number i *)
Definition user_thread (i : nat) (cs : list ucall) : prog :=
  Acq (Start i) (calls (map ucall_prog cs) (Rel (End i) Stop)).
(** numbered from i on *)
Fixpoint user_threads (i : nat) (l : list (list ucall)) : list prog :=
  match l with [] => [] | cs :: r => user_thread i cs :: user_threads (S i) r end.

(** the queue's mutex does not exist before the worker does *)
Definition before_main (s : sem) : nat := match s with MQueue => 0 | _ => mutexes_free s end.
(** the documented program: main, the worker's thread, and one thread for every list of calls *)
Definition documented (keys sigs : list Z) (m n : nat) (main_calls : list ucall) (users : list (list ucall)) : state :=
  mkState (fun x => match x with LKeys => keys | LSignals => sigs | LLevel _ => [1] | _ => [] end) before_main
    (main_thread (length users) main_calls :: worker m n :: user_threads 1 users).
