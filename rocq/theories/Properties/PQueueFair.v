(** C136: with a fair scheduler and a mutex that starves nobody, every call of a queue function returns and every item comes out. *)
From Coq Require Import List Arith NArith Bool Lia.
From Verif.Base Require Import Threads.
From Verif.Model Require Import SharedQueue.
From Verif.Spec Require Import QueueSpec QueueFairSpec.
From Verif.Proofs Require Import QueueFacts QueueFairFacts QueueCycle.
Import ListNotations.

(** ** C136 *)
(** A call of push, try_and_pop, empty or size returns. *)
Theorem C136_returns : forall A n ex ac, q_execution n ex ac -> (forall t, q_fair_to ex ac t) -> mutex_fair ex ->
  forall i t (o : qop A), ac i = Some (Start t o) -> o <> OPop -> exists m r, i < m /\ pc (ex m) t = Idle (Some r).
Proof.
  intros A n ex ac EX F M i t o E NO. assert (P : pc (ex (S i)) t = Lock o).
  { pose proof (qex_next _ _ _ EX i) as N. rewrite E in N. pose proof (step_moves _ _ _ (ex_inv n ex ac EX i) N) as X. cbn [doer] in X. inversion X; subst. assumption. }
  destruct (returns n ex ac EX F M _ t (S i) (le_n _)) as (m & r & L & H).
  - intro l. rewrite P. discriminate.
  - rewrite P. destruct o; cbn; intro; congruence.
  - exists m, r. split; [lia|exact H].
Qed.
Print Assumptions C136_returns.
(** While somebody is in wait_and_pop and the queue is not empty, an item is taken sooner or later. *)
Theorem C136_taken : forall (A : Type) n (ex : nat -> qstate A) ac, q_execution n ex ac -> (forall t, q_fair_to ex ac t) -> mutex_fair ex ->
  forall i c, popping (pc (ex i) c) = true -> q_content (ex i) <> [] ->
  exists m, i <= m /\ length (popped (q_trace (ex i))) < length (popped (q_trace (ex m))).
Proof. intros A n ex ac EX F M i c P NE. exact (an_item_is_taken n ex ac EX F M c i P NE). Qed.
Print Assumptions C136_taken.
(** The call of the only consumer returns, with the item at the front. *)
Theorem C136_pop_returns : forall (A : Type) n (ex : nat -> qstate A) ac c, q_execution n ex ac -> (forall t, q_fair_to ex ac t) -> mutex_fair ex -> only_consumer ac c ->
  forall i x l, popping (pc (ex i) c) = true -> q_content (ex i) = x :: l -> exists m, i <= m /\ pc (ex m) c = Idle (Some (RItem x)).
Proof. intros A n ex ac c EX F M OC i x l P C. exact (consumer_returns n ex ac EX F M c OC i x l P C). Qed.
Print Assumptions C136_pop_returns.
(** When some consumer calls wait_and_pop again and again, everything that was put in comes out, in this order. *)
Theorem C136_delivered : forall (A : Type) n (ex : nat -> qstate A) ac c, q_execution n ex ac -> (forall t, q_fair_to ex ac t) -> mutex_fair ex -> keeps_popping ex ac c ->
  forall i, exists m rest, i <= m /\ popped (q_trace (ex m)) = pushed (q_trace (ex i)) ++ rest.
Proof.
  intros A n ex ac c EX F M KP i. destruct (comes_out n ex ac EX F M c KP (length (pushed (q_trace (ex i)))) i ltac:(lia) i (le_n _)) as (m & L & H).
  pose proof (sequential_fifo _ _ (i_seq _ (ex_inv n ex ac EX m))) as S. destruct (trace_grows n ex ac EX i m L) as (tr & T).
  rewrite T in S at 1. unfold pushed in S at 1. rewrite flat_map_app in S. fold (pushed (q_trace (ex i))) in S. unfold out in H. exists m.
  revert S H. generalize (popped (q_trace (ex m))). generalize (pushed (q_trace (ex i))). generalize (q_content (ex m)). intros l. generalize (flat_map (fun e : qevent A => match e with Commit _ (OPush x) _ => [x] | _ => [] end) tr).
  clear - L. intros k p. induction p as [|y p IH]; intros q S H; [exists q; auto|]. destruct q as [|z q]; cbn in *; [lia|]. injection S as -> S. destruct (IH q S ltac:(lia)) as (rest & LL & E). exists rest. split; auto. now rewrite E.
Qed.
Print Assumptions C136_delivered.

(** A producer and a consumer for ever: the consumer goes to sleep, the producer puts an item in and wakes it, the consumer takes the item. *)
Definition cycle (c : nat) : list (qaction nat) :=
  [Start c OPop; Step c; Step c; Start 0 (OPush 7); Step 0; Step 0; Step 0; Wake 0 c; Step c; Step c; Step c; Step c].
Ltac check_cycle :=
  match goal with
  | |- _ <> [] => discriminate
  | |- ?x <> None => let v := eval vm_compute in x in let H := fresh in assert (H : x = v) by (vm_compute; reflexivity); rewrite H; discriminate
  | |- _ < _ => cbn; lia
  | |- at_place ?n ?f ?a ?p = Some ?y => vm_compute; reflexivity
  | |- at_place ?n ?f ?a ?p = _ => let v := eval vm_compute in (at_place n f a p) in transitivity v; vm_compute; reflexivity
  | |- _ => vm_compute; reflexivity
  end.
Example C136_ex : exists (ex : nat -> qstate nat) ac, q_execution 2 ex ac /\ (forall t, q_fair_to ex ac t) /\ mutex_fair ex /\ only_consumer ac 1 /\ keeps_popping ex ac 1 /\
  (forall i, exists m, i <= m /\ ac m = Some (Start 0 (OPush 7))) /\ (forall i, exists m x l, i <= m /\ popping (pc (ex m) 1) = true /\ q_content (ex m) = x :: l).
Proof.
  exists (cyc_ex 2 (cycle 1) (cycle 1)), (cyc_ac (cycle 1) (cycle 1)). repeat split.
  - apply cyc_execution; check_cycle.
  - intros [|[|t]]; [eapply cyc_fair_act with (p := 4)|eapply cyc_fair_act with (p := 8)|apply cyc_fair_out; lia]; check_cycle.
  - intros _ [|[|t]] i; [eapply cyc_wants with (p := 0)|eapply cyc_wants with (p := 0)|exists i; split; auto; rewrite cyc_out by lia; reflexivity]; check_cycle.
  - intros i t o E T. unfold cyc_ac in E. revert E. generalize (place (cycle 1) (cycle 1) i). intros p E.
    do 24 (destruct p as [|p]; [cbn in E; try discriminate; injection E as <- <-; destruct T; congruence|]). destruct p; discriminate.
  - intro i. destruct (cyc_does (cycle 1) (cycle 1) 0 (Start 1 OPop) i) as (m & L & P); [cbn; lia|reflexivity|]. exists m. auto.
  - intro i. apply cyc_does with (p := 3); check_cycle.
  - intro i. assert (X : exists s, at_place 2 (cycle 1) (cycle 1) (length (cycle 1) + 8) = Some s /\ q_content s = [7] /\ popping (pc s 1) = true) by (eexists; split; [check_cycle|split; reflexivity]).
    destruct X as (s & X & C & P). destruct (cyc_look 2 (cycle 1) (cycle 1) ltac:(check_cycle) ltac:(check_cycle) ltac:(check_cycle) 8 s i ltac:(cbn; lia) X) as (m & L & _ & C' & P'). exists m, 7, []. rewrite C', P'. auto.
Qed.

(** Of several consumers one may sleep for ever, though items come all the time: notify_one may always wake another one. *)
Definition sleeper : list (qaction nat) := [Start 1 OPop; Step 1; Step 1] ++ cycle 2.
Theorem C136_consumer_starved : exists (ex : nat -> qstate nat) ac, q_execution 3 ex ac /\ (forall t, q_fair_to ex ac t) /\ mutex_fair ex /\
  (forall i, exists m, i <= m /\ ac m = Some (Start 0 (OPush 7))) /\ (forall i, 3 <= i -> pc (ex i) 1 = Sleep).
Proof.
  exists (cyc_ex 3 sleeper (cycle 2)), (cyc_ac sleeper (cycle 2)). repeat split.
  - apply cyc_execution; check_cycle.
  - intros [|[|[|t]]]; [eapply cyc_fair_act with (p := 4)|eapply cyc_fair_not with (p := 0)|eapply cyc_fair_act with (p := 8)|apply cyc_fair_out; lia]; try check_cycle.
    intros a O. destruct a as [u o|u|u w|u|w]; cbn in O; try discriminate; apply Nat.eqb_eq in O; subst u; reflexivity.
  - intros _ [|[|[|t]]] i; [eapply cyc_wants with (p := 0)|eapply cyc_wants with (p := 0)|eapply cyc_wants with (p := 0)|exists i; split; auto; rewrite cyc_out by lia; reflexivity]; check_cycle.
  - intro i. apply cyc_does with (p := 3); check_cycle.
  - intros i L. pose proof (cyc_all 3 sleeper (cycle 2) ltac:(check_cycle) ltac:(check_cycle) ltac:(check_cycle) (fun s => match pc s 1 with Sleep => true | _ => false end) 3 ltac:(check_cycle) ltac:(cbn; lia) i L) as H.
    cbv beta in H. change (pc (strip (cyc_ex 3 sleeper (cycle 2) i)) 1) with (pc (cyc_ex 3 sleeper (cycle 2) i) 1) in H. destruct (pc (cyc_ex 3 sleeper (cycle 2) i) 1); congruence.
Qed.
Print Assumptions C136_consumer_starved.

(** Without such a mutex a call of push need not return, however fair the scheduler is: another thread may get the mutex every time. *)
Definition overtaking : list (qaction nat) := [Start 0 OEmpty; Step 0; Step 0; Step 0].
Definition overtaken : list (qaction nat) := Start 1 (OPush 9) :: overtaking.
Theorem C136_unfair_mutex : exists (ex : nat -> qstate nat) ac, q_execution 2 ex ac /\ (forall t, q_fair_to ex ac t) /\ ac 0 = Some (Start 1 (OPush 9)) /\
  (forall i, exists m, i <= m /\ q_owner (ex m) = None) /\ forall i, 1 <= i -> pc (ex i) 1 = Lock (OPush 9).
Proof.
  exists (cyc_ex 2 overtaken overtaking), (cyc_ac overtaken overtaking). repeat split.
  - apply cyc_execution; check_cycle.
  - intros [|[|t]]; [eapply cyc_fair_act with (p := 1)|eapply cyc_fair_not with (p := 2)|apply cyc_fair_out; lia]; try check_cycle.
    intros a O. destruct a as [u o|u|u w|u|w]; cbn in O; try discriminate; apply Nat.eqb_eq in O; subst u; reflexivity.
  - intro i. assert (X : exists s, at_place 2 overtaken overtaking (length overtaken + 0) = Some s /\ q_owner s = None) by (eexists; split; [check_cycle|reflexivity]).
    destruct X as (s & X & O). destruct (cyc_look 2 overtaken overtaking ltac:(check_cycle) ltac:(check_cycle) ltac:(check_cycle) 0 s i ltac:(cbn; lia) X) as (m & L & O' & _). exists m. rewrite O'. auto.
  - intros i L. pose proof (cyc_all 2 overtaken overtaking ltac:(check_cycle) ltac:(check_cycle) ltac:(check_cycle) (fun s => match pc s 1 with Lock (OPush 9) => true | _ => false end) 1 ltac:(check_cycle) ltac:(cbn; lia) i L) as H.
    cbv beta in H. change (pc (strip (cyc_ex 2 overtaken overtaking i)) 1) with (pc (cyc_ex 2 overtaken overtaking i) 1) in H. destruct (pc (cyc_ex 2 overtaken overtaking i) 1) as [l|[x| | | |]|o| | |b|r b|]; try discriminate.
    do 9 (destruct x as [|x]; try discriminate). destruct x as [|x]; [reflexivity|discriminate].
Qed.
Print Assumptions C136_unfair_mutex.
