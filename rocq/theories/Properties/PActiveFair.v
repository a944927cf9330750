(** C137: with a fair scheduler and a fair mutex an active object executes all it is sent, and its calls return. *)
From Coq Require Import List Arith NArith Bool Lia.
From Verif.Base Require Import Threads.
From Verif.Model Require Import SharedQueue ActiveObj.
From Verif.Spec Require Import QueueSpec QueueFairSpec ActiveSpec ActiveFairSpec.
From Verif.Proofs Require Import QueueFacts QueueFairFacts ActiveFacts ActiveFairFacts ActiveCycle.
Import ListNotations.

(** ** C137 *)
(** A call of send or spawn_task returns, even when the callbacks run for ever. *)
Theorem C137_send_returns : forall n ex ac, well_run n ex ac -> forall i k, cl (ex i) k = CSend -> exists m, i <= m /\ cl (ex m) k = CIdle.
Proof. intros n ex ac W i k C. exact (call_over n ex ac W k CSend _ (or_introl eq_refl) eq_refl i C). Qed.
Print Assumptions C137_send_returns.
(** All that was put in the queue before the shutdown is executed to its end, in that order. *)
Theorem C137_executed : forall n ex ac, well_run n ex ac -> callbacks_end ex ac ->
  forall i, ~ In Shutdown (pushed (q_trace (a_q (ex i)))) -> exists m, i <= m /\ prefix (pushed (q_trace (a_q (ex i)))) (map fst (ended (a_tr (ex m)))).
Proof. intros n ex ac W E i NS. exact (all_executed n ex ac W E i NS). Qed.
Print Assumptions C137_executed.
(** What a client sent with calls that returned before the destructor was called is executed to its end. *)
Theorem C137_sent_executed : forall n ex ac, well_run n ex ac -> callbacks_end ex ac ->
  forall i k c, dtor_begun (ex i) = false -> cl (ex i) k = CIdle -> In c (sent k (a_tr (ex i))) -> exists m o, i <= m /\ In (c, o) (ended (a_tr (ex m))).
Proof.
  intros n ex ac W E i k c D C IN. pose proof (a_inv n ex ac W i) as I.
  assert (NS : ~ In Shutdown (pushed (q_trace (a_q (ex i))))).
  { pose proof (v_shut n _ I) as VS. rewrite (dtor_begun_count _ D) in VS. unfold seen in VS. apply times_0. lia. }
  destruct (all_executed n ex ac W E i NS) as (m & L & (r & P)). rewrite <- (sent_reach n _ (a_reach n ex ac W i) k) in IN.
  assert (PE : pend (pc (a_q (ex i)) (S k)) = []).
  { destruct (Nat.lt_ge_cases k n) as [K|K]; [|rewrite pc_out by (rewrite (v_lq n _ I); lia); reflexivity]. pose proof (v_cl n _ I k K) as VC. rewrite C in VC. destruct (ok_idle _ VC) as (l & ->). reflexivity. }
  rewrite PE, app_nil_r in IN. assert (IP : In c (pushed (q_trace (a_q (ex i))))).
  { unfold pushed_by in IN. apply in_flat_map in IN as (e & IE & H). unfold pushed. apply in_flat_map. exists e. split; auto. destruct e as [|u [x| | | |] r'|]; auto. destruct (Nat.eqb u (S k)); [exact H|destruct H]. }
  assert (X : In c (map fst (ended (a_tr (ex m))))) by (rewrite P; apply in_or_app; auto). apply in_map_iff in X as ((c' & o) & F & X). cbn in F. subst c'. exists m, o. auto.
Qed.
Print Assumptions C137_sent_executed.
(** The future of a task that was spawned so becomes ready, with the outcome of the task. *)
Theorem C137_future : forall n ex ac, well_run n ex ac -> callbacks_end ex ac ->
  forall i k p, dtor_begun (ex i) = false -> cl (ex i) k = CIdle -> In (Task p) (sent k (a_tr (ex i))) ->
  exists m o, i <= m /\ nth_error (a_prom (ex m)) p = Some (Ready o) /\ In (Task p, o) (ended (a_tr (ex m))).
Proof.
  intros n ex ac W E i k p D C IN. destruct (C137_sent_executed n ex ac W E i k (Task p) D C IN) as (m & o & L & X). exists m.
  assert (Y : In (Task p, o) (ends p (a_tr (ex m)))) by (unfold ends; apply filter_In; split; [exact X|cbn [fst]; destruct (cb_eq_dec (Task p) (Task p)); [reflexivity|congruence]]).
  pose proof (v_prom n _ (a_inv n ex ac W m) p) as V. destruct (nth_error (a_prom (ex m)) p) as [[|o'| |]|]; try (rewrite V in Y; contradiction).
  - exists o'. rewrite V in Y. destruct Y as [Y|[]]. injection Y as ->. auto.
  - destruct V as [V _]. rewrite V in Y. destruct Y.
Qed.
Print Assumptions C137_future.
(** A call of the destructor returns. *)
Theorem C137_destructor_returns : forall n ex ac, well_run n ex ac -> callbacks_end ex ac ->
  forall i k, cl (ex i) k = DSend \/ cl (ex i) k = DJoin -> exists m, i <= m /\ cl (ex m) k = DDone.
Proof. intros n ex ac W E i k C. exact (destructor_returns n ex ac W E k i C). Qed.
Print Assumptions C137_destructor_returns.

Ltac check_cycle :=
  match goal with
  | |- _ <> [] => discriminate
  | |- ?x <> None => let v := eval vm_compute in x in let H := fresh in assert (H : x = v) by (vm_compute; reflexivity); rewrite H; discriminate
  | |- _ < _ => cbn; lia
  | |- _ <= _ => cbn; lia
  | |- aplace ?n ?f ?a ?p = Some ?y => vm_compute; reflexivity
  | |- aplace ?n ?f ?a ?p = _ => let v := eval vm_compute in (aplace n f a p) in transitivity v; vm_compute; reflexivity
  | |- _ => vm_compute; reflexivity
  end.
Definition qs (t : nat) : option aaction := Some (AQueue (Step t)).
(** the background thread goes to sleep; client 0 sends a callback and wakes it; it is executed *)
Definition to_sleep : list (option aaction) := [Some ATest; qs 0; qs 0].
Definition a_send (k x : nat) : list (option aaction) := [Some (ASend k x); qs (S k); qs (S k); qs (S k); Some (AQueue (Wake (S k) 0)); Some (ASent k)].
Definition takes : list (option aaction) := [qs 0; qs 0; qs 0; qs 0; Some ABegin].
Definition round_ : list (option aaction) := to_sleep ++ a_send 0 7 ++ takes ++ [Some (AEnd (Val 0))].
(** callbacks are sent and executed for ever *)
Example C137_ex : exists ex ac, well_run 1 ex ac /\ callbacks_end ex ac /\ (forall i, exists m, i <= m /\ ac m = Some (ASend 0 7)) /\ (forall i, dtor_begun (ex i) = false) /\
  (forall i, exists m, i <= m /\ cl (ex m) 0 = CSend) /\ exists i, cl (ex i) 0 = CIdle /\ In (User 7) (sent 0 (a_tr (ex i))) /\ ended (a_tr (ex i)) = [].
Proof.
  exists (acyc_ex 1 round_ round_), (acyc_ac round_ round_). split; [apply mkRun|split; [|split; [|split; [|split]]]].
  - apply (acyc_execution 1); check_cycle.
  - intros [|[|t]]; [eapply acyc_fair_act with (p := 0)|eapply acyc_fair_act with (p := 5)|apply acyc_fair_out; try lia]; check_cycle.
  - intros _ [|[|t]] i; [eapply acyc_wants with (p := 0)|eapply acyc_wants with (p := 0)|exists i; split; auto; rewrite acyc_out by (check_cycle || lia); reflexivity]; check_cycle.
  - intro i. pose proof (acyc_all 1 round_ round_ ltac:(check_cycle) ltac:(check_cycle) ltac:(check_cycle) (fun s => negb (a_terminated s)) 0 ltac:(check_cycle) ltac:(check_cycle) i ltac:(lia)) as H.
    cbv beta in H. change (a_terminated (astrip (acyc_ex 1 round_ round_ i))) with (a_terminated (acyc_ex 1 round_ round_ i)) in H. now destruct (a_terminated _).
  - intros i c _. destruct (acyc_does round_ round_ 14 (AEnd (Val 0)) i) as (m & L & P); [check_cycle|reflexivity|]. eauto.
  - intro i. apply acyc_does with (p := 3); check_cycle.
  - intro i. pose proof (acyc_all 1 round_ round_ ltac:(check_cycle) ltac:(check_cycle) ltac:(check_cycle) (fun s => negb (dtor_begun s)) 0 ltac:(check_cycle) ltac:(check_cycle) i ltac:(lia)) as H.
    cbv beta in H. change (dtor_begun (astrip (acyc_ex 1 round_ round_ i))) with (dtor_begun (acyc_ex 1 round_ round_ i)) in H. now destruct (dtor_begun _).
  - intro i. assert (X : exists s, aplace 1 round_ round_ (length round_ + 4) = Some s /\ cl s 0 = CSend) by (eexists; split; [check_cycle|reflexivity]).
    destruct X as (s & X & C). destruct (acyc_look 1 round_ round_ ltac:(check_cycle) ltac:(check_cycle) ltac:(check_cycle) 4 s i ltac:(check_cycle) X) as (m & L & P). exists m. split; auto. now subst s.
  - exists 9. split; [vm_compute; reflexivity|split; [vm_compute; auto|vm_compute; reflexivity]].
Qed.

(** a task is spawned and the object destroyed; then nothing happens any more *)
Definition with_dtor : list (option aaction) :=
  [Some (ASpawn 0); qs 1; qs 1; qs 1; Some (AQueue (NoWake 1)); Some (ASent 0); Some (ADtor 0); qs 1; qs 1; qs 1; Some (AQueue (NoWake 1)); Some (ADtorSent 0);
   Some ATest; qs 0; qs 0; qs 0; qs 0; Some ABegin; Some (AEnd (Exc 3));
   Some ATest; qs 0; qs 0; qs 0; qs 0; Some ABegin; Some (AEnd (Val 0)); Some ATest; Some (ADtorRet 0)].
Example C137_ex_destructor : exists ex ac, well_run 1 ex ac /\ callbacks_end ex ac /\ (exists i, cl (ex i) 0 = DSend) /\ (exists i, cl (ex i) 0 = DJoin /\ a_bg (ex i) = BTest) /\
  exists i, dtor_begun (ex i) = false /\ cl (ex i) 0 = CIdle /\ In (Task 0) (sent 0 (a_tr (ex i))) /\ ended (a_tr (ex i)) = [].
Proof.
  set (ex := acyc_ex 1 with_dtor [None]). exists ex, (acyc_ac with_dtor [None]). split; [apply mkRun|split; [|split; [|split]]].
  - apply (acyc_execution 1); check_cycle.
  - intros [|[|t]]; [eapply acyc_fair_not with (p := 0)|eapply acyc_fair_not with (p := 0)|apply acyc_fair_out; try lia]; try check_cycle.
    all: intros a O; destruct a as [[u o|u|u w|u|w]| | |o|c| |j x|j|j|j|j|j|j]; cbn in O; try discriminate; try reflexivity; try (destruct j; discriminate); try (apply Nat.eqb_eq in O; subst; reflexivity).
    all: destruct j; [reflexivity|discriminate].
  - intros _ [|[|t]] i; [eapply acyc_wants with (p := 0)|eapply acyc_wants with (p := 0)|exists i; split; auto; unfold ex; rewrite acyc_out by (check_cycle || lia); reflexivity]; check_cycle.
  - intro i. pose proof (acyc_all 1 with_dtor [None] ltac:(check_cycle) ltac:(check_cycle) ltac:(check_cycle) (fun s => negb (a_terminated s)) 0 ltac:(check_cycle) ltac:(check_cycle) i ltac:(lia)) as H.
    cbv beta in H. change (a_terminated (astrip (acyc_ex 1 with_dtor [None] i))) with (a_terminated (ex i)) in H. now destruct (a_terminated _).
  - intros i c R. destruct (le_lt_dec i 25) as [L|L].
    + exists 25, (Val 0). split; [exact L|vm_compute; reflexivity].
    + exfalso. pose proof (acyc_all 1 with_dtor [None] ltac:(check_cycle) ltac:(check_cycle) ltac:(check_cycle) (fun s => match a_bg s with BRun _ | BSend _ => false | _ => true end) 26 ltac:(check_cycle) ltac:(check_cycle) i L) as H.
      cbv beta in H. change (a_bg (astrip (acyc_ex 1 with_dtor [None] i))) with (a_bg (ex i)) in H. destruct R as [R|R]; rewrite R in H; discriminate.
  - exists 7. vm_compute. reflexivity.
  - exists 12. split; vm_compute; reflexivity.
  - exists 6. split; [vm_compute; reflexivity|split; [vm_compute; reflexivity|split; [vm_compute; auto|vm_compute; reflexivity]]].
Qed.

(** When a callback does not end, what comes after it is not executed and the destructor does not return, however fair the scheduler and the mutex are. *)
Definition hanging : list (option aaction) :=
  to_sleep ++ a_send 0 7 ++ takes ++ [Some (ASend 0 8); qs 1; qs 1; qs 1; Some (AQueue (NoWake 1)); Some (ASent 0); Some (ADtor 1); qs 2; qs 2; qs 2; Some (AQueue (NoWake 2)); Some (ADtorSent 1)].
Theorem C137_hangs : exists ex ac i, well_run 2 ex ac /\ In (User 8) (sent 0 (a_tr (ex i))) /\
  forall m, i <= m -> a_bg (ex m) = BRun (User 7) /\ q_content (a_q (ex m)) = [User 8; Shutdown] /\ cl (ex m) 1 = DJoin.
Proof.
  set (ex := acyc_ex 2 hanging [None]).
  assert (STAY : forall m, length hanging <= m -> ex (length hanging) = ex m).
  { intros m L. induction L as [|m L IH]; auto. rewrite IH. pose proof (aex_next _ _ _ (acyc_execution 2 hanging [None] ltac:(check_cycle) ltac:(check_cycle) ltac:(check_cycle)) m) as N.
    assert (Z : acyc_ac hanging [None] m = None); [|rewrite Z in N; now symmetry].
    unfold acyc_ac, Cycle.cyc_ac, Cycle.place. destruct (Nat.ltb_spec m (length hanging)); [lia|]. change (length [@None aaction]) with 1. rewrite Nat.mod_1_r, Nat.add_0_r. reflexivity. }
  exists ex, (acyc_ac hanging [None]), (length hanging). split; [apply mkRun|split; [|intros m L; split; [|split]]].
  - apply (acyc_execution 2); check_cycle.
  - intros [|[|[|t]]]; [eapply acyc_fair_not with (p := 0)|eapply acyc_fair_not with (p := 0)|eapply acyc_fair_not with (p := 0)|apply acyc_fair_out; try lia]; try check_cycle.
    all: intros a O; destruct a as [[u o|u|u w|u|w]| | |o|c| |j x|j|j|j|j|j|j]; cbn in O; try discriminate; try reflexivity; try (apply Nat.eqb_eq in O; subst; reflexivity).
    all: destruct j as [|[|j]]; try discriminate; reflexivity.
  - intros _ [|[|[|t]]] i; [eapply acyc_wants with (p := 0)|eapply acyc_wants with (p := 0)|eapply acyc_wants with (p := 0)|exists i; split; auto; unfold ex; rewrite acyc_out by (check_cycle || lia); reflexivity]; check_cycle.
  - intro i. pose proof (acyc_all 2 hanging [None] ltac:(check_cycle) ltac:(check_cycle) ltac:(check_cycle) (fun s => negb (a_terminated s)) 0 ltac:(check_cycle) ltac:(check_cycle) i ltac:(lia)) as H.
    cbv beta in H. change (a_terminated (astrip (acyc_ex 2 hanging [None] i))) with (a_terminated (ex i)) in H. now destruct (a_terminated _).
  - vm_compute. auto.
  - rewrite <- (STAY m) by assumption. vm_compute. reflexivity.
  - rewrite <- (STAY m) by assumption. vm_compute. reflexivity.
  - rewrite <- (STAY m) by assumption. vm_compute. reflexivity.
Qed.
Print Assumptions C137_hangs.
