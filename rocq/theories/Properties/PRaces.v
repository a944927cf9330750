(** C91-C95: data races.  Model: Model/Races.v, specification: Spec/RacesSpec.v. *)
From Coq Require Import List ZArith Bool Lia.
From Verif Require Import Base.Threads Model.Races Spec.RacesSpec Proofs.RacesFacts Proofs.RacesUse Proofs.RacesTable Proofs.RacesGlobal.
Import ListNotations.
Open Scope Z_scope.

(** ** C91 *)
(** Any number of threads, any calls of the queue: no data race, on the queue or anything else. *)
Theorem C91_queue_race_free : forall contents (threads : list (list qcall)) x,
  race_free (mkState (fun _ => contents) mutexes_free (map (fun cs => calls (map qcall_prog cs) Stop) threads)) x.
Proof. intros. apply queue_race_free. Qed.
Print Assumptions C91_queue_race_free.

(** the calls do touch the queue, and without the mutex they would race *)
Example C91_ex :
  (exists st, runs [0; 0; 0; 0; 1]%nat (mkState (fun _ => []) mutexes_free (map (fun cs => calls (map qcall_prog cs) Stop) [[QPush 7]; [QWait 2]])) = Some st /\
     mem st LQueue = [7] /\ next_access (get Stop (ths st) 1) = Some (LQueue, false, false)) /\
  races (mkState (fun _ => []) mutexes_free [Wr false LQueue [7] Stop; q_push 8 Stop]) LQueue.
Proof.
  split.
  - eexists. split; [reflexivity|]. split; reflexivity.
  - exists [1]%nat. eexists. split; [reflexivity|]. exists 0%nat, 1%nat, true, false, false, false. repeat split. discriminate.
Qed.

(** ** C92 *)
(** The documented use: create the worker, add a sink, initialize, start threads that log (below FATAL, with
    levels of the table) and manage sinks, join them, destroy the worker.  No data race anywhere. *)
Theorem C92_documented_use_race_free : forall keys sigs wakeups rounds main_calls users x,
  Forall (registered keys) main_calls -> Forall (Forall (registered keys)) users ->
  race_free (documented keys sigs wakeups rounds main_calls users) x.
Proof. intros. now apply documented_race_free. Qed.
Print Assumptions C92_documented_use_race_free.

(** such a program runs to its end: the users' messages are taken from the queue, everything is destroyed *)
Definition C92_prog : state :=
  documented [100; 300] [11] 1 6 [UStatus 300] [[ULog 300; UHook 4]; [UAddSink]].
(** the threads in turn, each as far as it gets; a small scheduler for examples *)
Fixpoint drive (n : nat) (order : list nat) (st : state) : state :=
  match order with
  | [] => st
  | t :: r =>
      (fix go (k : nat) (st : state) : state :=
         match k with
         | O => st
         | S k' => match step st t with Some st' => go k' st' | None => drive n r st end
         end) n st
  end.
Example C92_ex :
  Forall (registered [100; 300]) [UStatus 300] /\ Forall (Forall (registered [100; 300])) [[ULog 300; UHook 4]; [UAddSink]] /\
  ths (drive 100 [0; 2; 3; 0; 1; 0]%nat C92_prog) = [Stop; Stop; Stop; Stop].
Proof.
  split; [repeat (apply Forall_cons || apply Forall_nil); cbn; auto|].
  split; [repeat (apply Forall_cons || apply Forall_nil); cbn; auto|]. vm_compute. reflexivity.
Qed.

(** ** C93 *)
(** Threads that call the level table at the same time race if and only if two of them make calls that
    conflict: one of the calls changes the set of levels, or one overwrites the stored level that the other
    overwrites or copies. *)
Theorem C93_races_iff_conflict : forall keys threads,
  (exists x, races (table_threads keys threads) x) <->
  exists u v c d, u <> v /\ In c (nth u threads []) /\ In d (nth v threads []) /\ conflict keys c d = true.
Proof.
  intros keys threads. split.
  - intros (x & sched & st & R & A).
    assert (E : existsb (fun u => existsb (fun v => negb (Nat.eqb u v) && existsb (fun c => existsb (conflict keys c) (nth v threads [])) (nth u threads []))
                (seq 0 (length threads))) (seq 0 (length threads)) = true \/ ~ race_at st x).
    { destruct (existsb _ (seq 0 (length threads))) eqn:E; [auto|]. right.
      apply (no_conflict_free keys threads) with (sched := sched); auto.
      intros u v c d N I J. destruct (conflict keys c d) eqn:C; auto. exfalso. apply not_true_iff_false in E. apply E.
      apply existsb_exists. exists u. split; [apply in_seq; pose proof (nth_in_length threads u c I); lia|].
      apply existsb_exists. exists v. split; [apply in_seq; pose proof (nth_in_length threads v d J); lia|].
      apply andb_true_iff. split; [apply negb_true_iff; now apply Nat.eqb_neq|].
      apply existsb_exists. exists c. split; auto. apply existsb_exists. eauto. }
    destruct E as [E|E]; [|contradiction].
    apply existsb_exists in E. destruct E as (u & _ & E). apply existsb_exists in E. destruct E as (v & _ & E).
    apply andb_true_iff in E. destruct E as (N & E). apply negb_true_iff, Nat.eqb_neq in N.
    apply existsb_exists in E. destruct E as (c & I & E). apply existsb_exists in E. destruct E as (d & J & E).
    exists u, v, c, d. auto.
  - intros (u & v & c & d & N & I & J & C). exact (conflict_races keys threads u v c d N I J C).
Qed.
Print Assumptions C93_races_iff_conflict.

(** Logging with known levels while one thread switches levels on and off is free of races ... *)
Theorem C93_log_while_switching : forall keys switcher loggers x,
  (forall c, In c switcher -> match c with TReset | TAdd _ _ => False | TLog l => In l keys | _ => True end) ->
  (forall cs c, In cs loggers -> In c cs -> exists l, In l keys /\ (c = TLog l \/ c = TStatus l)) ->
  race_free (table_threads keys (switcher :: loggers)) x.
Proof.
  intros keys sw lg x S L sched st R A.
  assert (E : exists x, races (table_threads keys (sw :: lg)) x) by (exists x, sched, st; auto).
  apply C93_races_iff_conflict in E. destruct E as (u & v & c & d & N & I & J & C).
  assert (K : forall l, In l keys -> existsb (Z.eqb l) keys = true).
  { intros l H. apply existsb_exists. exists l. split; auto. apply Z.eqb_refl. }
  assert (RS : forall t e, In e (nth t (sw :: lg) []) -> restructures keys e = false).
  { intros [|t] e H; cbn in H.
    - specialize (S e H). destruct e; cbn; try easy. now rewrite (K l S).
    - destruct (nth_in_or_default t lg []) as [G|G]; [|rewrite G in H; easy].
      destruct (L _ e G H) as (l & Il & [->| ->]); cbn; auto. now rewrite (K l Il). }
  assert (NW : forall t e, In e (nth (Datatypes.S t) (sw :: lg) []) -> overwrites keys e = [] /\ copies keys e = []).
  { intros t e H. cbn in H. destruct (nth_in_or_default t lg []) as [G|G]; [|rewrite G in H; easy].
    destruct (L _ e G H) as (l & Il & [->| ->]); cbn; auto. }
  unfold conflict in C. rewrite (RS u c I), (RS v d J) in C. cbn [orb] in C. unfold tramples in C.
  assert (Z : forall l, existsb (fun l0 => existsb (Z.eqb l0) []) l = false) by (induction l; auto).
  destruct u as [|u], v as [|v]; try congruence.
  - destruct (NW v d J) as (A1 & A2). rewrite A1, A2 in C. cbn [app existsb orb] in C. now rewrite Z in C.
  - destruct (NW u c I) as (A1 & A2). rewrite A1, A2 in C. cbn [app existsb orb] in C. now rewrite Z in C.
  - destruct (NW u c I) as (A1 & A2). destruct (NW v d J) as (B1 & B2). rewrite A1, B1 in C. discriminate.
Qed.
Print Assumptions C93_log_while_switching.

(** ... but two threads that switch the same level race, and so does a LOG with a level that is not in the table
    with any LOG. *)
Theorem C93_refuted :
  (exists x, races (table_threads [100; 300] [[TSet 300 true]; [TSet 300 true]]) x) /\
  (exists x, races (table_threads [100; 300] [[TSet 300 true]; [TGetAll]]) x) /\
  (exists x, races (table_threads [100; 300] [[TLog 301]; [TLog 300]]) x).
Proof.
  split; [|split]; apply C93_races_iff_conflict; exists 0%nat, 1%nat; do 2 eexists; (split; [discriminate|]);
    cbn [nth]; (split; [left; reflexivity|]); (split; [left; reflexivity|]); reflexivity.
Qed.
Print Assumptions C93_refuted.
Example C93_ex : race_free (table_threads [100; 300; 500; 1000] [[TSet 300 false; THighest 500; TGetAll]; [TLog 300]; [TLog 300; TStatus 100]]) (LStatus 300).
Proof.
  apply C93_log_while_switching.
  - intros c [<-|[<-|[<-|[]]]]; exact I.
  - intros cs c [<-|[<-|[]]] J; cbn in J; [destruct J as [<-|[]]|destruct J as [<-|[<-|[]]]]; eexists; (split; [|eauto]); cbn; auto.
Qed.

(** ** C94 *)
(** The library's global variables: a message logged while another thread initializes, shuts down or handles a
    fatal message races. *)
Theorem C94_refuted :
  (* LOG and initializeLogging: the pointer to the worker *)
  races (mkState (fun _ => []) mutexes_free [push_message Stop; initialize Stop]) LLogger /\
  (* LOG before and during initializeLogging: the saved first message *)
  races (mkState (fun _ => []) mutexes_free [push_message Stop; initialize Stop]) LFirst /\
  (* LOG and ~LogWorker or shutDownLogging: the pointer to the worker *)
  races (mkState (fun x => match x with LLogger | LBg => [1] | _ => [] end) mutexes_free [push_message Stop; destroy_worker Stop]) LLogger /\
  (* LOG that has passed the check, and ~LogWorker: the pointer to the worker's thread *)
  races (mkState (fun x => match x with LLogger | LBg => [1] | _ => [] end) mutexes_free [push_message Stop; destroy_worker Stop]) LBg /\
  (* LOG and the worker's thread handling a fatal message of a third thread *)
  races (mkState (fun x => match x with LLogger | LBg => [1] | LQueue => [j_fatal] | _ => [] end) mutexes_free [push_message Stop; run 0 1]) LLogger /\
  (* two fatal messages: the hook *)
  races (mkState (fun x => match x with LLogger | LBg => [1] | _ => [] end) mutexes_free [fatal_message; fatal_message]) LHook /\
  (* a fatal message and setFatalPreLoggingHook: the hook *)
  races (mkState (fun x => match x with LLogger | LBg => [1] | _ => [] end) mutexes_free [fatal_message; set_hook 1 Stop]) LHook /\
  (* a fatal message and setFatalExitHandler: the handler *)
  races (mkState (fun x => match x with LLogger | LBg => [1] | _ => [] end) mutexes_free [fatal_message; set_exit_handler 1 Stop]) LFatalFn /\
  (* two threads call setFatalExitHandler *)
  races (mkState (fun _ => []) mutexes_free [set_exit_handler 1 Stop; set_exit_handler 2 Stop]) LFatalFn /\
  (* a fatal message and ~LogWorker or shutDownLogging: the pointer to the worker *)
  races (mkState (fun x => match x with LLogger | LBg => [1] | _ => [] end) mutexes_free [fatal_message; destroy_worker Stop]) LLogger.
Proof.
  repeat match goal with |- _ /\ _ => split end.
  - apply (race_by [1; 1; 1; 1; 1; 1; 1; 1; 1; 1; 1; 1]%nat 0 1); reflexivity.
  - apply (race_by [0; 0; 0; 1; 1; 1; 1; 1; 1; 1; 1; 1]%nat 0 1); reflexivity.
  - apply (race_by [1; 1]%nat 0 1); reflexivity.
  - apply (race_by [0; 0; 1; 1; 1; 1; 1; 1; 1; 1; 1]%nat 0 1); reflexivity.
  - apply (race_by [1; 1; 1; 1; 1; 1]%nat 0 1); reflexivity.
  - apply (race_by [1; 1]%nat 0 1); reflexivity.
  - apply (race_by [1]%nat 0 1); reflexivity.
  - apply (race_by [0; 0; 0; 0; 0; 0; 0; 0; 0; 0; 0]%nat 0 1); reflexivity.
  - apply (race_by []%nat 0 1); reflexivity.
  - apply (race_by [0; 0; 0; 0; 0; 0; 0; 0; 0; 0; 0; 0; 1; 1]%nat 0 1); reflexivity.
Qed.
Print Assumptions C94_refuted.

(** What holds of them, for any number of threads that log, initialize, shut down, destroy the worker, set hooks and
    handlers, override the signals, log fatal messages or run the worker's loop in any order: the stack trace of the
    first crash and the counter of crashes are free of races. *)
Theorem C94_partial : forall memory (threads : list (list gcall * ending)),
  race_free (mkState memory mutexes_free (map (fun t => gthread (fst t) (snd t)) threads)) LStack /\
  race_free (mkState memory mutexes_free (map (fun t => gthread (fst t) (snd t)) threads)) LCounter.
Proof. intros. split; [apply stack_race_free|apply counter_race_free]. Qed.
Print Assumptions C94_partial.
(** two crashing threads do read and write them *)
Example C94_ex :
  option_map (fun st => (mem st LCounter, mem st LStack, next_access (get Stop (ths st) 1)))
    (runs (repeat 0%nat 11 ++ repeat 1%nat 12)
       (mkState (fun _ => []) mutexes_free (map (fun t => gthread (fst t) (snd t)) [([], Fatal); ([GHook 3], Fatal)])))
  = Some ([1; 1], [1], Some (LStack, false, false)).
Proof. vm_compute. reflexivity. Qed.

(** ** C95 *)
(** overrideSetupSignals may be called from any number of threads at the same time. *)
Theorem C95_override_race_free : forall memory (threads : list (list (list Z))) x,
  race_free (mkState memory mutexes_free (map (fun cs => calls (map override_signals cs) Stop) threads)) x.
Proof. intros. apply override_race_free. Qed.
Print Assumptions C95_override_race_free.

(** But its mutex is not taken by the others that use the tables: initializeLogging, and the handling of a fatal
    message by the worker's thread or, without a worker, by the caller. *)
Theorem C95_refuted :
  races (mkState (fun x => match x with LSignals => [11] | _ => [] end) mutexes_free [initialize Stop; override_signals [15] Stop]) LSaved /\
  races (mkState (fun x => match x with LSignals => [11] | LQueue => [j_fatal] | _ => [] end) mutexes_free [run 0 1; override_signals [15] Stop]) LSignals /\
  races (mkState (fun x => match x with LSignals => [11] | _ => [] end) mutexes_free [fatal_message; override_signals [15] Stop]) LSignals.
Proof.
  repeat match goal with |- _ /\ _ => split end.
  - apply (race_by [0; 0; 0; 0; 1; 1]%nat 0 1); reflexivity.
  - apply (race_by ([0; 0; 0; 0; 0; 0; 0; 0; 0; 0; 1; 1; 1])%nat 0 1); reflexivity.
  - apply (race_by ([0; 0; 0; 0; 0; 0; 0; 0; 0; 0; 0; 0; 0; 1; 1; 1])%nat 0 1); reflexivity.
Qed.
Print Assumptions C95_refuted.
Example C95_ex :
  option_map (fun st => (mem st LSignals, mem st LSaved, ths st))
    (runs (repeat 0%nat 8 ++ repeat 1%nat 9) (mkState (fun x => match x with LSignals => [11] | _ => [] end) mutexes_free
       (map (fun cs => calls (map override_signals cs) Stop) [[[6]]; [[15]]])))
  = Some ([15], [15], [Stop; Stop]).
Proof. vm_compute. reflexivity. Qed.
