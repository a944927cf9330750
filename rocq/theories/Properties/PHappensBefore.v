(** C134, C135: happens-before, and executions of the C++ memory model that are not interleavings.  Model: Model/Races.v, specification:
    Spec/RacesSpec.v, Spec/HappensBeforeSpec.v, Spec/WeakMemorySpec.v. *)
From Coq Require Import List ZArith Bool Lia Arith.
From Coq Require Import Relations.Relation_Operators.
From Verif Require Import Base.Threads Model.Races Spec.RacesSpec Spec.HappensBeforeSpec Spec.WeakMemorySpec
  Proofs.RacesFacts Proofs.RacesUse Proofs.RacesTable Proofs.RacesGlobal Proofs.HappensBeforeFacts Proofs.WeakMemoryFacts Proofs.WeakMemoryUse
  Properties.PRaces.
Import ListNotations.
Open Scope Z_scope.

(** ** C134 *)
(** Some interleaving of the threads brings two conflicting accesses next to each other if and only if some execution has two conflicting
    accesses that happens-before does not order. *)
Theorem C134_race_iff_unordered : forall st,
  (exists x, races st x) <-> exists sched tr x, trace sched st = Some tr /\ data_race tr x.
Proof.
  intro st. split.
  - intros (x & sched & st' & R & A). apply krace_sync in A.
    destruct (adjacent_unordered all_sync st sched st' x R A) as (sc & tr & i & j & T & L & C & N).
    exists sc, tr, x. split; auto. exists i, j. split; [now apply kconf_sync|]. split; intro H; apply khb_sync in H; auto.
    apply khb_lt in H. lia.
  - intros (sched & tr & x & T & i & j & C & N1 & N2).
    assert (Q : forall i j, (i < j)%nat -> conflicting tr x i j -> ~ happens_before tr i j -> exists x, races st x).
    { intros i' j' L C' N. destruct (unordered_races all_sync st sched tr (sync_blind st) T j' i' x) as (y & sc & R & Run & K); auto.
      - now apply kconf_sync.
      - intro H. apply khb_sync in H. auto.
      - exists y, sc, R. split; auto. now apply krace_sync. }
    destruct (lt_eq_lt_dec i j) as [[L| ->]|L].
    + exact (Q i j L C N1).
    + destruct C as (t & u & r & r' & w & w' & a & a' & N & Ei & Ej & _). destruct (is_event_eq _ _ _ _ _ _ Ei Ej). congruence.
    + apply (Q j i L); auto. destruct C as (t & u & r & r' & w & w' & a & a' & N & Ei & Ej & W & A).
      exists u, t, r', r, w', w, a', a. rewrite orb_comm, andb_comm. auto.
Qed.
Print Assumptions C134_race_iff_unordered.

(** a race on x in the one sense is one on x in the other *)
Theorem C134_same_location : forall st x, races st x -> exists sched tr, trace sched st = Some tr /\ data_race tr x.
Proof.
  intros st x (sched & st' & R & A). apply krace_sync in A.
  destruct (adjacent_unordered all_sync st sched st' x R A) as (sc & tr & i & j & T & L & C & N).
  exists sc, tr. split; auto. exists i, j. split; [now apply kconf_sync|]. split; intro H; apply khb_sync in H; auto.
  apply khb_lt in H. lia.
Qed.
Print Assumptions C134_same_location.

Lemma free_ordered : forall st, (forall x, race_free st x) -> forall sched tr x, trace sched st = Some tr -> ~ data_race tr x.
Proof.
  intros st F sched tr x T D. destruct (proj2 (C134_race_iff_unordered st)) as (y & sc & st' & R & A).
  - exists sched, tr, x. auto.
  - exact (F y sc st' R A).
Qed.

(** The calls of the queue, the documented use, logging while one thread switches levels, and overrideSetupSignals have no data race in
    the sense of the C++ standard. *)
Theorem C134_no_data_race :
  (forall contents (threads : list (list qcall)) sched tr x,
     trace sched (mkState (fun _ => contents) mutexes_free (map (fun cs => calls (map qcall_prog cs) Stop) threads)) = Some tr ->
     ~ data_race tr x) /\
  (forall keys sigs wakeups rounds main_calls users sched tr x,
     Forall (registered keys) main_calls -> Forall (Forall (registered keys)) users ->
     trace sched (documented keys sigs wakeups rounds main_calls users) = Some tr -> ~ data_race tr x) /\
  (forall keys switcher loggers sched tr x,
     (forall c, In c switcher -> match c with TReset | TAdd _ _ => False | TLog l => In l keys | _ => True end) ->
     (forall cs c, In cs loggers -> In c cs -> exists l, In l keys /\ (c = TLog l \/ c = TStatus l)) ->
     trace sched (table_threads keys (switcher :: loggers)) = Some tr -> ~ data_race tr x) /\
  (forall m (threads : list (list (list Z))) sched tr x,
     trace sched (mkState m mutexes_free (map (fun cs => calls (map override_signals cs) Stop) threads)) = Some tr -> ~ data_race tr x).
Proof.
  split; [|split; [|split]].
  - intros contents threads sched tr x. apply free_ordered. intro. apply queue_race_free.
  - intros keys sigs wk rs mc us sched tr x RM RU. apply free_ordered. intro. now apply documented_race_free.
  - intros keys sw lg sched tr x A B. apply free_ordered. intro. now apply C93_log_while_switching.
  - intros m threads sched tr x. apply free_ordered. intro. apply override_race_free.
Qed.
Print Assumptions C134_no_data_race.

(** a push and a pop of another thread: the write of the one and the read of the other are ordered by the mutex; without the mutex there
    is a data race *)
Definition C134_prog : state := mkState (fun _ => []) mutexes_free (map (fun cs => calls (map qcall_prog cs) Stop) [[QPush 7]; [QTry]]).
Definition C134_trace : events :=
  [(0%nat, Locks MQueue); (0%nat, Accesses LQueue true false false); (0%nat, Accesses LQueue false true false); (0%nat, Unlocks MQueue);
   (1%nat, Locks MQueue); (1%nat, Accesses LQueue true false false)].
Example C134_ex :
  trace [0; 0; 0; 0; 1; 1]%nat C134_prog = Some C134_trace /\
  conflicting C134_trace LQueue 2 5 /\ happens_before C134_trace 2 5 /\
  (exists sched tr, trace sched (mkState (fun _ => []) mutexes_free [Wr false LQueue [7] Stop; q_push 8 Stop]) = Some tr /\ data_race tr LQueue).
Proof.
  split; [reflexivity|]. split.
  { exists 0%nat, 1%nat, false, true, true, false, false, false. repeat split. discriminate. }
  split.
  - eapply t_trans; [apply t_step; eapply same_thread with (j := 3%nat); [lia|reflexivity|reflexivity]|].
    eapply t_trans; [apply t_step; eapply unlock_lock with (j := 4%nat); [lia|reflexivity|reflexivity]|].
    apply t_step; eapply same_thread; [lia|reflexivity|reflexivity].
  - apply C134_same_location. apply C91_ex.
Qed.

(** ** C135 *)
(** If in the interleavings two threads never meet at a location of which one of them writes - except at the locations in [loose], whose
    values nobody looks at - then every execution that the C++ memory model allows is an interleaving, and it has no data race. *)
Theorem C135_weak_is_sequential : forall loose st,
  (forall x u, loose x = true -> blind x (get Stop (ths st) u)) ->
  (forall x, loose x = false -> never_meet st x) -> (forall x, race_free st x) ->
  forall g sm ps, weak st g sm ps -> sequential loose st g sm ps /\ no_data_race g.
Proof.
  intros loose st NB NM NR g sm ps W. pose proof (weak_sequential loose st NB NM NR g sm ps W) as S. split; auto.
  destruct S as (st' & _ & T & _). exact (sequential_no_race loose st NB NM NR g T).
Qed.
Print Assumptions C135_weak_is_sequential.

(** The other way round, the memory model allows every interleaving of a program without races. *)
Theorem C135_interleavings_allowed : forall st, (forall x, race_free st x) -> forall sched st', runs sched st = Some st' ->
  exists g, map by_thread g = sched /\ weak st g (sems st') (ths st') /\ forall x, value_after (mem st) g x = mem st' x.
Proof. exact interleaving_weak. Qed.
Print Assumptions C135_interleavings_allowed.

(** the switches of the level table *)
Definition switches (x : loc) : bool := match x with LStatus _ => true | _ => false end.

Lemma calls_ind : forall (P : prog -> Prop) {A} (f : A -> prog -> prog) l, P Stop -> (forall a k, P k -> P (f a k)) -> P (calls (map f l) Stop).
Proof. intros P A f l S C. induction l as [|a l IH]; cbn; auto. Qed.
Lemma threads_ind : forall (P : prog -> Prop) {A} (f : A -> prog -> prog) (ts : list (list A)) u,
  P Stop -> (forall a k, P k -> P (f a k)) -> P (get Stop (map (fun cs => calls (map f cs) Stop) ts) u).
Proof. intros P A f ts u S C. rewrite (get_map _ ts u []) by reflexivity. now apply calls_ind. Qed.

(** any number of threads with any calls of the queue *)
Theorem C135_queue : forall contents (threads : list (list qcall)) g sm ps,
  let st := mkState (fun _ => contents) mutexes_free (map (fun cs => calls (map qcall_prog cs) Stop) threads) in
  weak st g sm ps -> sequential (fun _ => false) st g sm ps /\ no_data_race g.
Proof.
  intros contents threads g sm ps st. apply C135_weak_is_sequential.
  - discriminate.
  - intros x _. apply queue_never_meet.
  - intro x. apply queue_race_free.
Qed.
Print Assumptions C135_queue.

(** the documented use; the values of the switches are not looked at: LOG is taken to go on whatever it finds, a LOG that finds its level
    off is a query of the level *)
Theorem C135_documented : forall keys sigs wakeups rounds main_calls users g sm ps,
  Forall (registered keys) main_calls -> Forall (Forall (registered keys)) users ->
  let st := documented keys sigs wakeups rounds main_calls users in
  weak st g sm ps -> sequential switches st g sm ps /\ no_data_race g.
Proof.
  intros keys sigs wk rs mc us g sm ps RM RU st. apply C135_weak_is_sequential.
  - intros [| | | | | | | | | | |l| | | |] u S; try discriminate. apply blind_documented.
  - intros x A. apply documented_never_meet; auto.
  - intro x. now apply documented_race_free.
Qed.
Print Assumptions C135_documented.

(** threads that log and query levels while one switches them *)
Theorem C135_log_while_switching : forall keys switcher loggers g sm ps,
  (forall c, In c switcher -> match c with TReset | TAdd _ _ => False | TLog l => In l keys | _ => True end) ->
  (forall cs c, In cs loggers -> In c cs -> exists l, In l keys /\ (c = TLog l \/ c = TStatus l)) ->
  let st := table_threads keys (switcher :: loggers) in
  weak st g sm ps -> sequential switches st g sm ps /\ no_data_race g.
Proof.
  intros keys sw lg g sm ps A B st. apply C135_weak_is_sequential.
  - intros [| | | | | | | | | | |l| | | |] u S; try discriminate.
    apply (threads_ind (blind (LStatus l)) tcall_prog); [exact I|]. intros c k. apply blind_tcall.
  - intros x S. apply plain_never_meet; auto; [|now apply C93_log_while_switching].
    intro u. apply (threads_ind plain_but_switches tcall_prog); [exact I|]. intros c k. apply plain_tcall.
  - intro x. now apply C93_log_while_switching.
Qed.
Print Assumptions C135_log_while_switching.

(** overrideSetupSignals in any number of threads *)
Theorem C135_override : forall m (threads : list (list (list Z))) g sm ps,
  let st := mkState m mutexes_free (map (fun cs => calls (map override_signals cs) Stop) threads) in
  weak st g sm ps -> sequential (fun _ => false) st g sm ps /\ no_data_race g.
Proof.
  intros m threads g sm ps st. apply C135_weak_is_sequential.
  - discriminate.
  - intros x _. apply override_never_meet.
  - intro x. apply override_race_free.
Qed.
Print Assumptions C135_override.

(** the last step of happens-before *)
Lemma whb_last : forall g i j, whappens_before g i j -> wbefore g i j \/ exists k, whappens_before g i k /\ wbefore g k j.
Proof.
  intros g i j H. apply Operators_Properties.clos_trans_tn1 in H. destruct H as [j H|k j H T]; auto. right. exists k. split; auto.
  now apply Operators_Properties.clos_tn1_trans.
Qed.

(** Where threads race it need not be so: in this order of actions shutDownLogging is over before the LOG of the other thread begins, and
    the LOG still finds the worker. *)
Definition C135_late : state :=
  mkState (fun x => match x with LLogger | LBg => [1] | _ => [] end) mutexes_free [shut_down Stop; push_message Stop].
Definition C135_late_actions : list action :=
  [mkAction 0 (Locks MInit) [] None; mkAction 0 (Accesses LLogger false true false) [] None; mkAction 0 (Unlocks MInit) [] None;
   mkAction 1 (Accesses LLogger true false false) [] None].
Theorem C135_racing_differs : exists sm ps,
  weak C135_late C135_late_actions sm ps /\ get Stop ps 1 = Rd false LLogger (fun _ => ask_worker j_save Stop) /\
  ~ sequential switches C135_late C135_late_actions sm ps.
Proof.
  pose proof (weak_acq C135_late [] _ _ 0%nat MInit _ 0%nat (weak_start _) eq_refl eq_refl) as W1. cbn [app] in W1.
  pose proof (weak_wr C135_late _ _ _ 0%nat false LLogger [] _ W1 eq_refl) as W2. cbn [app] in W2.
  pose proof (weak_rel C135_late _ _ _ 0%nat MInit _ W2 eq_refl) as W3. cbn [app] in W3.
  assert (F : may_find (mem C135_late) C135_late_actions 3 LLogger false None [1]).
  { cbn. split; [reflexivity|]. intros k _ H.
    assert (N : forall i, ~ wbefore C135_late_actions i 3).
    { intros i [t e f L A B|t u s L A B|t u x r w a L A B _ _]; [|discriminate B|discriminate B].
      injection B as <- <-. destruct i as [|[|[|i]]]; [discriminate A|discriminate A|discriminate A|lia]. }
    apply whb_last in H. destruct H as [H|(i & _ & H)]; exact (N _ H). }
  pose proof (weak_rd C135_late _ _ _ 1%nat false LLogger _ None [1] W3 eq_refl F) as W4. cbn [app] in W4.
  do 2 eexists. split; [exact W4|]. split; [reflexivity|].
  intros (st' & R & _ & E & _). cbn in R. injection R as <-. cbn [ths] in E. discriminate E.
Qed.
Print Assumptions C135_racing_differs.

(** the memory model without races in the code: two threads that write one switch each and then look at the other's may both find the
    old value, which no interleaving shows *)
Definition C135_buffers : state :=
  mkState (fun _ => []) mutexes_free
    [Wr true (LStatus 1) [1] (Rd true (LStatus 2) (fun v => if is_set v then Stop else Rel (End 0) Stop));
     Wr true (LStatus 2) [1] (Rd true (LStatus 1) (fun v => if is_set v then Stop else Rel (End 1) Stop))].
Definition C135_buffers_actions : list action :=
  [mkAction 0 (Accesses (LStatus 1) false true true) [1] None; mkAction 1 (Accesses (LStatus 2) false true true) [1] None;
   mkAction 0 (Accesses (LStatus 2) true false true) [] None; mkAction 1 (Accesses (LStatus 1) true false true) [] None].
(** an order in which the program of C92 runs to its end *)
Definition C135_order : list nat := repeat 0%nat 35 ++ repeat 2%nat 14 ++ repeat 3%nat 7 ++ repeat 0%nat 16 ++ repeat 1%nat 35 ++ repeat 0%nat 3.
Example C135_ex :
  (forall x, race_free C135_buffers x) /\
  (exists sm ps, weak C135_buffers C135_buffers_actions sm ps /\ ps = [Rel (End 0) Stop; Rel (End 1) Stop]) /\
  (forall sched st', runs sched C135_buffers = Some st' -> ths st' <> [Rel (End 0) Stop; Rel (End 1) Stop]) /\
  (* the documented use has executions, for example the one of C92 to its end *)
  (exists g sm, weak C92_prog g sm [Stop; Stop; Stop; Stop]).
Proof.
  split; [|split; [|split]].
  - intros x. apply permissions_sound with (total := fun _ => 1%nat) (carry := fun _ _ => 0%nat) (assert := qassert) (at_loc := atomics) (carriers := []).
    + constructor.
    + intros; lia.
    + exists (fun _ _ => 0%nat), (fun _ => qknow). cbn [ths sems mem C135_buffers]. split; [|split; [|split]].
      * intros [|[|t]]; [| |destruct t; exact I]; cbn; repeat split; auto; intro v; destruct (is_set v); cbn; repeat split; auto; lia.
      * intro y. rewrite held_zero. cbn. lia.
      * intros; exact I.
      * intros; exact I.
  - pose proof (weak_wr C135_buffers [] _ _ 0%nat true (LStatus 1) [1] _ (weak_start _) eq_refl) as W1. cbn [app] in W1.
    pose proof (weak_wr C135_buffers _ _ _ 1%nat true (LStatus 2) [1] _ W1 eq_refl) as W2. cbn [app] in W2.
    assert (F : may_find (mem C135_buffers) (firstn 3 C135_buffers_actions) 2 (LStatus 2) true None []).
    { cbn. split; [reflexivity|]. intros k (t & r & b & W) H.
      assert (k = 1%nat). { destruct k as [|[|[|k]]]; auto; try discriminate W. destruct k; discriminate W. } subst k.
      apply whb_last in H. destruct H as [H|(k & H1 & H2)].
      - destruct H as [t' e f L A B|t' u s L A B|t' u x r' w a L A B C D]; [| |]; cbn in *; try discriminate B.
        + injection A as <- <-. discriminate B.
        + injection C as <-. discriminate D.
      - apply whb_lt in H1. assert (k < 2)%nat by (destruct H2; auto). lia. }
    pose proof (weak_rd C135_buffers _ _ _ 0%nat true (LStatus 2) _ None [] W2 eq_refl F) as W3. cbn [app] in W3.
    assert (F' : may_find (mem C135_buffers) C135_buffers_actions 3 (LStatus 1) true None []).
    { cbn. split; [reflexivity|]. intros k (t & r & b & W) H.
      assert (k = 0%nat). { destruct k as [|[|[|[|k]]]]; auto; try discriminate W. destruct k; discriminate W. } subst k.
      assert (E : forall i, wbefore C135_buffers_actions i 3 -> i = 1%nat).
      { intros i [t' e f L A B|t' u s L A B|t' u x r' w a L A B C D]; cbn in *; try discriminate B.
        - injection B as <- <-. destruct i as [|[|[|i]]]; [discriminate A|reflexivity|discriminate A|lia].
        - injection C as <-. discriminate D. }
      apply whb_last in H. destruct H as [H|(k & H1 & H2)]; [apply E in H; discriminate|]. apply E in H2. subst k.
      apply whb_last in H1. destruct H1 as [H|(k & H1 & H2)].
      - destruct H as [t' e f L A B|t' u s L A B|t' u x r' w a L A B C D]; cbn in *; try discriminate B.
        injection A as <- <-. discriminate B.
      - apply whb_lt in H1. assert (k < 1)%nat by (destruct H2; auto). lia. }
    pose proof (weak_rd C135_buffers _ _ _ 1%nat true (LStatus 1) _ None [] W3 eq_refl F') as W4. cbn [app] in W4.
    do 2 eexists. split; [exact W4|reflexivity].
  - intros sched st' R E. unfold C135_buffers in R.
    do 7 (try destruct sched as [|[|[|[|?]]] sched]; cbn in R; try discriminate R; try (injection R as <-; discriminate E)).
  - assert (Q : match runs C135_order C92_prog with Some s => ths s = [Stop; Stop; Stop; Stop] | None => False end) by (vm_compute; reflexivity).
    destruct (runs C135_order C92_prog) as [st'|] eqn:R; [|contradiction].
    destruct (C135_interleavings_allowed C92_prog) with (sched := C135_order) (st' := st') as (g & _ & W & _); auto.
    + intro x. apply C92_documented_use_race_free; apply C92_ex.
    + exists g, (sems st'). rewrite <- Q. exact W.
Qed.
