(** C03, C04, C16: the active object and spawn_task.  Model: Model/ActiveObj.v; specification: Spec/ActiveSpec.v. *)
From Coq Require Import List Arith NArith Bool Lia.
From Verif.Base Require Import Threads.
From Verif.Model Require Import SharedQueue ActiveObj.
From Verif.Spec Require Import QueueSpec ActiveSpec.
From Verif.Proofs Require Import QueueFacts ActiveFacts.
Import ListNotations.

Fixpoint asched (s : astate) (l : list aaction) : option astate :=
  match l with
  | [] => Some s
  | a :: r => match astep s a with Some s' => asched s' r | None => None end
  end.

(** ** C03 *)
(** What began to run is the first part of what entered the queue: in this order, nothing twice. *)
Theorem C03_in_order : forall n s, areach n s -> prefix (executed (a_tr s)) (pushed (q_trace (a_q s))).
Proof. intros n s R. eexists. apply (pushed_split n s), AInv_reach, R. Qed.
Print Assumptions C03_in_order.
(** ... and it runs one after the other *)
Theorem C03_one_at_a_time : forall n s, areach n s -> exists r, one_at_a_time (a_tr s) r.
Proof. intros n s R. eexists. apply (v_one n s), AInv_reach, R. Qed.
Print Assumptions C03_one_at_a_time.
(** A client's callbacks enter the queue in the order in which it sent them; all of them, unless it is in the middle of a send. *)
Theorem C03_client_order : forall n s i, areach n s ->
  prefix (pushed_by (S i) (q_trace (a_q s))) (sent i (a_tr s)) /\
  (cl s i <> CSend -> cl s i <> DSend -> pushed_by (S i) (q_trace (a_q s)) = sent i (a_tr s)).
Proof.
  intros n s i R. pose proof (sent_reach n s R i) as H. pose proof (AInv_reach n s R) as I. split; [eexists; symmetry; exact H|]. intros N1 N2.
  destruct (Nat.lt_ge_cases i n) as [L|L].
  - pose proof (v_cl n s I i L) as V. destruct (pc (a_q s) (S i)) as [l| | | | | | |]; [now rewrite app_nil_r in H|..]; exfalso; destruct (cl s i); cbn in V; tauto || congruence.
  - rewrite pc_out in H by (rewrite (v_lq n s I); lia). now rewrite app_nil_r in H.
Qed.
Print Assumptions C03_client_order.

(** An exception that leaves a callback ends everything: exactly then std::terminate has been called, and nothing happens any more. *)
Lemma ended_note : forall tr e, ended (tr ++ [e]) = ended tr ++ match e with EvEnd c o => [(c, o)] | _ => [] end.
Proof. intros tr e. unfold ended. rewrite flat_map_app. cbn. now rewrite app_nil_r. Qed.
Theorem C03_throwing : forall n s, areach n s ->
  (a_terminated s = true <-> exists u e, In (User u, Exc e) (ended (a_tr s))) /\ (a_terminated s = true -> forall a, astep s a = None).
Proof.
  intros n s R. split; [|intros T a; unfold astep; now rewrite T].
  unfold areach in R. remember (a_init n) as s0 eqn:I0. induction R as [s0|s0 s a s' R IH E]; subst s0.
  - cbn. split; [discriminate|]. intros (u & e & []).
  - specialize (IH eq_refl). unfold astep in E. destruct (a_terminated s) eqn:T; [discriminate|].
    assert (NO : ~ exists u e, In (User u, Exc e) (ended (a_tr s))) by (intro X; apply IH in X; discriminate).
    assert (SAME : forall t, a_terminated t = false -> ended (a_tr t) = ended (a_tr s) -> (a_terminated t = true <-> exists u e, In (User u, Exc e) (ended (a_tr t)))).
    { intros t A B. rewrite A, B. split; [discriminate|]. intro X. now destruct (NO X). }
    assert (ST : forall t o t', start s t o = Some t' -> a_terminated t' = false /\ a_tr t' = a_tr s).
    { intros t o t' X. unfold start in X. destruct (qstep _ _); [|discriminate]. injection X as <-. auto. }
    destruct a as [qa| | |o|c'| |i u|i|i|i|i|i|i].
    + destruct (is_internal qa); [|discriminate]. destruct (qstep _ _); [|discriminate]. injection E as <-. now apply SAME.
    + destruct (a_bg s); try discriminate. destruct (a_done s); [injection E as <-; now apply SAME|].
      destruct (start s 0 OPop) as [t|] eqn:X; [|discriminate]. injection E as <-. destruct (ST _ _ _ X) as [A B]. apply SAME; [exact A|]. cbn. now rewrite B.
    + destruct (a_bg s); try discriminate. destruct (pc (a_q s) 0) as [[[| | | |]|]| | | | | | |]; try discriminate. injection E as <-. apply SAME; [exact T|]. cbn. now rewrite ended_note, app_nil_r.
    + destruct (a_bg s) as [| |c|c|]; try discriminate. injection E as <-. destruct c as [u|q|].
      * destruct o as [v|e].
        -- cbn. rewrite ended_note. split; [congruence|]. intros (u' & e' & I). apply in_app_iff in I as [I|[I|[]]]; [|discriminate]. destruct NO; eauto.
        -- cbn. rewrite ended_note. split; [|reflexivity]. intros _. exists u, e. apply in_or_app. right. now left.
      * cbn. rewrite ended_note. split; [congruence|]. intros (u' & e' & I). apply in_app_iff in I as [I|[I|[]]]; [|discriminate]. destruct NO; eauto.
      * cbn. rewrite ended_note. split; [congruence|]. intros (u' & e' & I). apply in_app_iff in I as [I|[I|[]]]; [|discriminate]. destruct NO; eauto.
    + destruct (a_bg s) as [| |[u|q|]|c|]; try discriminate. destruct c' as [u'|q|]; try discriminate. destruct (start s 0 (OPush (User u'))) as [t|] eqn:X; [|discriminate]. injection E as <-. destruct (ST _ _ _ X) as [A B]. apply SAME; [exact A|]. cbn. now rewrite B.
    + destruct (a_bg s); try discriminate. destruct (returned s 0); [|discriminate]. injection E as <-. now apply SAME.
    + destruct (cl s i); try discriminate. destruct (existsb _ _); [discriminate|]. destruct (start s (S i) (OPush (User u))) as [t|] eqn:X; [|discriminate]. injection E as <-. destruct (ST _ _ _ X) as [A B]. apply SAME; [exact A|]. cbn. now rewrite ended_note, app_nil_r, B.
    + destruct (cl s i); try discriminate. destruct (existsb _ _); [discriminate|]. destruct (start s (S i) _) as [t|] eqn:X; [|discriminate]. injection E as <-. destruct (ST _ _ _ X) as [A B]. apply SAME; [exact A|]. cbn. now rewrite ended_note, app_nil_r, B.
    + destruct (cl s i); try discriminate. injection E as <-. now apply SAME.
    + destruct (cl s i); try discriminate. destruct (returned s (S i)); [|discriminate]. injection E as <-. apply SAME; [exact T|]. cbn. now rewrite ended_note, app_nil_r.
    + destruct (cl s i); try discriminate. destruct (dtor_begun s); [discriminate|]. destruct (start s (S i) _) as [t|] eqn:X; [|discriminate]. injection E as <-. destruct (ST _ _ _ X) as [A B]. apply SAME; [exact A|]. cbn. now rewrite ended_note, app_nil_r, B.
    + destruct (cl s i); try discriminate. destruct (returned s (S i)); [|discriminate]. injection E as <-. now apply SAME.
    + destruct (cl s i); try discriminate. destruct (a_bg s); try discriminate. injection E as <-. apply SAME; [exact T|]. cbn. now rewrite ended_note, app_nil_r.
Qed.
Print Assumptions C03_throwing.

(** Left alone, the threads come to rest after a bounded number of steps (the callbacks' own steps not counted) ... *)
Theorem C03_bounded : forall n s l s', areach n s -> (forall a, In a l -> ainternal a = true) -> asched s l = Some s' ->
  length l + ameasure s' <= ameasure s.
Proof.
  intros n s l s' R. pose proof (AInv_reach n s R) as I. clear R. revert s I. induction l as [|a l IH]; intros s I IN E; cbn in *.
  - injection E as <-. lia.
  - destruct (astep s a) as [s1|] eqn:X; [|discriminate].
    pose proof (ainternal_decreases n s a s1 I X (IN a (or_introl eq_refl))).
    pose proof (IH s1 (AInv_step n s a s1 I X) (fun b B => IN b (or_intror B)) E). lia.
Qed.
Print Assumptions C03_bounded.
(** ... and then, unless a callback threw, everything sent has been executed to its end (or the destructor has been called, see C04). *)
Theorem C03_all_executed : forall n s, areach n s -> a_terminated s = false ->
  (forall a s', astep s a = Some s' -> ainternal a = false) -> dtor_begun s = false ->
  map fst (ended (a_tr s)) = pushed (q_trace (a_q s)) /\ forall i, pushed_by (S i) (q_trace (a_q s)) = sent i (a_tr s).
Proof.
  intros n s R T ST ND. pose proof (AInv_reach n s R) as I. destruct (quiescent n s I T ST) as (SP & CL & [B|(B & P & C & F & _)]).
  - exfalso. destruct (v_done n s I (v_exit n s I B)) as [H _]. apply (count_occ_In cb_eq_dec) in H. fold (times Shutdown (executed (a_tr s))) in H.
    pose proof (seen_executed n s Shutdown I) as SE. rewrite (v_shut n s I), (dtor_begun_count s ND) in SE. lia.
  - pose proof (one_executed _ _ (v_one n s I)) as OE. rewrite B in OE. cbn [running] in OE. rewrite app_nil_r in OE. split.
    + rewrite <- OE, (pushed_split n s I), C, F, !app_nil_r. reflexivity.
    + intro i. pose proof (sent_reach n s R i) as H. destruct (SP (S i)) as [X|[l X]]; rewrite X in H; now rewrite app_nil_r in H.
Qed.
Print Assumptions C03_all_executed.

(** two clients; pushes interleave; the background thread sleeps first *)
Definition C03_sched : list aaction :=
  [ATest; AQueue (Step 0); AQueue (Step 0);
   ASend 0 7; ASend 1 8; AQueue (Step 2); AQueue (Step 2); AQueue (Step 2); AQueue (Wake 2 0); ASent 1;
   AQueue (Step 1); AQueue (Step 1); AQueue (Step 1); AQueue (NoWake 1); ASent 0;
   AQueue (Step 0); AQueue (Step 0); AQueue (Step 0); AQueue (Step 0); ABegin; AEnd (Val 1); ATest;
   AQueue (Step 0); AQueue (Step 0); AQueue (Step 0); AQueue (Step 0); ABegin].
Example C03_ex1 : option_map (fun s => (executed (a_tr s), ended (a_tr s), pushed (q_trace (a_q s)))) (asched (a_init 2) C03_sched) =
  Some ([User 8; User 7], [(User 8, Val 1)], [User 8; User 7]).
Proof. vm_compute. reflexivity. Qed.

(** ** C04 *)
Lemma prefix_cut : forall (a l r : list cb) c, ~ In c a -> prefix a (l ++ c :: r) -> prefix a l.
Proof.
  induction a as [|x a IH]; intros l r c N [q E]; [exists l; reflexivity|]. destruct l as [|y l]; cbn in E.
  - injection E as E1 E2. exfalso. apply N. now left.
  - injection E as -> E. destruct (IH l r c) as [w ->]; [intro; apply N; now right|now exists q|]. now exists w.
Qed.
Lemma prefix_shut : forall l1 l2 e, ~ In Shutdown l1 -> prefix e (l1 ++ Shutdown :: l2) ->
  (In Shutdown e -> exists l, e = l ++ [Shutdown] /\ ~ In Shutdown l) -> prefix e (l1 ++ [Shutdown]) /\ (In Shutdown e -> e = l1 ++ [Shutdown]).
Proof.
  intros l1 l2 e N P H. destruct (in_dec cb_eq_dec Shutdown e) as [i|ni].
  - destruct (H i) as (l & -> & NL). destruct P as [q E]. rewrite <- app_assoc in E. cbn [app] in E.
    assert (X : l1 = l).
    { clear -N NL E. revert l NL E. induction l1 as [|x l1 IH]; intros [|y l] NL E; cbn in E; auto.
      - injection E as E1 E2. subst. exfalso. apply NL. now left.
      - injection E as E1 E2. subst. exfalso. apply N. now left.
      - injection E as -> E. f_equal. apply IH; auto; [intro; apply N; now right|intro; apply NL; now right]. }
    subst. split; [exists []; now rewrite app_nil_r|auto].
  - split; [|contradiction]. destruct (prefix_cut e l1 l2 Shutdown ni P) as [w ->]. exists (w ++ [Shutdown]). now rewrite <- app_assoc.
Qed.

(** When the destructor has returned: everything in the queue before it began has been executed to its end, and the thread is gone. *)
Theorem C04_drains : forall n s1 s2 i, areach n s1 -> dtor_begun s1 = false -> asteps s1 s2 -> cl s2 i = DDone ->
  prefix (pushed (q_trace (a_q s1))) (map fst (ended (a_tr s2))) /\ a_bg s2 = BExit.
Proof.
  intros n s1 s2 i R1 ND R12 D. pose proof (AInv_reach n s1 R1) as I1. pose proof (AInv_steps n s1 s2 I1 R12) as I2.
  pose proof (v_ret n s2 I2 i D) as B. split; [|exact B].
  destruct (v_done n s2 I2 (v_exit n s2 I2 B)) as [IN _]. destruct (v_last n s2 I2 IN) as [(l & E & NL) _].
  pose proof (one_executed _ _ (v_one n s2 I2)) as OE. rewrite B in OE. cbn [running] in OE. rewrite app_nil_r in OE. rewrite <- OE, E.
  destruct (pushed_grows n s1 s2 I1 R12) as [r P]. rewrite (pushed_split n s2 I2), E, <- app_assoc in P. cbn [app] in P.
  assert (N1 : ~ In Shutdown (pushed (q_trace (a_q s1)))).
  { apply times_0. pose proof (v_shut n s1 I1) as V. rewrite (dtor_begun_count s1 ND) in V. unfold seen in V. lia. }
  destruct (prefix_cut _ l _ Shutdown N1 (ex_intro _ r P)) as [w ->]. exists (w ++ [Shutdown]). now rewrite <- app_assoc.
Qed.
Print Assumptions C04_drains.
(** in particular everything a client had sent, if it was not in the middle of a send *)
Theorem C04_drains_clients : forall n s1 s2 i j c, areach n s1 -> dtor_begun s1 = false -> asteps s1 s2 -> cl s2 i = DDone ->
  cl s1 j = CIdle -> In c (sent j (a_tr s1)) -> In c (map fst (ended (a_tr s2))).
Proof.
  intros n s1 s2 i j c R1 ND R12 D C IN. destruct (C04_drains n s1 s2 i R1 ND R12 D) as [[w ->] _]. apply in_or_app. left.
  pose proof (sent_reach n s1 R1 j) as H. pose proof (AInv_reach n s1 R1) as I1.
  assert (P : pend (pc (a_q s1) (S j)) = []).
  { destruct (Nat.lt_ge_cases j n) as [L|L]; [|now rewrite pc_out by (rewrite (v_lq n s1 I1); lia)].
    pose proof (v_cl n s1 I1 j L) as V. rewrite C in V. cbn [ok_cl is_idle] in V. destruct (pc (a_q s1) (S j)); try contradiction. reflexivity. }
  rewrite P, app_nil_r in H. rewrite <- H in IN. clear -IN. unfold pushed, pushed_by in *. apply in_flat_map in IN. destruct IN as (e & H1 & H2).
  apply in_flat_map. exists e. split; auto. destruct e as [|t o r|]; auto. destruct o; auto. destruct (Nat.eqb t (S j)); [exact H2|destruct H2].
Qed.
Print Assumptions C04_drains_clients.

(** Nothing behind the shutdown request is executed; once the thread has ended, exactly what was before it has been. *)
Theorem C04_nothing_after : forall n s l1 l2, areach n s -> pushed (q_trace (a_q s)) = l1 ++ Shutdown :: l2 ->
  prefix (executed (a_tr s)) (l1 ++ [Shutdown]) /\ (a_bg s = BExit -> executed (a_tr s) = l1 ++ [Shutdown]).
Proof.
  intros n s l1 l2 R E. pose proof (AInv_reach n s R) as I.
  assert (N1 : ~ In Shutdown l1).
  { apply times_0. pose proof (v_shut n s I) as V. pose proof (v_dtor1 n s I) as V1. unfold seen in V. rewrite E, times_app in V.
    unfold times in *. cbn [count_occ] in V. destruct (cb_eq_dec Shutdown Shutdown); [|congruence]. lia. }
  destruct (C03_in_order n s R) as [w P]. rewrite E in P.
  destruct (prefix_shut l1 l2 (executed (a_tr s)) N1 (ex_intro _ w P)) as [Q1 Q2]; [intro H; now destruct (v_last n s I H)|].
  split; [exact Q1|]. intro B. apply Q2. now destruct (v_done n s I (v_exit n s I B)).
Qed.
Print Assumptions C04_nothing_after.
(** The thread never comes back: no callback begins after the destructor has returned. *)
Theorem C04_ended : forall n s1 s2 i, areach n s1 -> cl s1 i = DDone -> asteps s1 s2 -> executed (a_tr s2) = executed (a_tr s1) /\ cl s2 i = DDone.
Proof.
  intros n s1 s2 i R D R12. pose proof (AInv_reach n s1 R) as I1. induction R12 as [s|s s1 a s2 R12 IH E]; [auto|].
  destruct (IH R D I1) as [EX D1]. pose proof (AInv_steps n s s1 I1 R12) as I. pose proof (v_ret n s1 I i D1) as B. rewrite <- EX. clear IH EX R D I1 R12 s.
  assert (L : i < n) by (eapply cl_lt; eauto; discriminate).
  assert (UPD : forall j c, cl s1 j <> DDone -> get CIdle (upd (a_cl s1) j c) i = DDone).
  { intros j c N. destruct (Nat.lt_ge_cases j n) as [Lj|Lj].
    - rewrite get_upd by (now rewrite (v_lc n s1 I)). destruct (Nat.eqb_spec i j) as [->|]; [congruence|exact D1].
    - rewrite get_upd_other by lia. exact D1. }
  assert (NX : existsb (fun c => match c with DDone => true | _ => false end) (a_cl s1) = true).
  { apply existsb_exists. exists DDone. split; auto. rewrite <- D1. apply nth_In. now rewrite (v_lc n s1 I). }
  unfold astep in E. destruct (a_terminated s1); [discriminate|]. rewrite B, NX in E. destruct a as [qa| | |o|c| |j m|j|j|j|j|j|j]; try discriminate.
  - destruct (is_internal qa); [|discriminate]. destruct (qstep (a_q s1) qa); [|discriminate]. injection E as <-. auto.
  - destruct (cl s1 j); discriminate.
  - destruct (cl s1 j); discriminate.
  - destruct (cl s1 j); try discriminate. injection E as <-. auto.
  - destruct (cl s1 j) eqn:C; try discriminate. destruct (returned s1 (S j)); [|discriminate]. injection E as <-. split; [now apply executed_quiet|apply UPD; congruence].
  - destruct (cl s1 j) eqn:C; try discriminate. destruct (dtor_begun s1); [discriminate|]. destruct (start s1 (S j) (OPush Shutdown)) as [x|] eqn:S; [|discriminate]. injection E as <-.
    destruct (start_inv _ _ _ _ S) as (q' & -> & Q). split; [now apply executed_quiet|apply UPD; congruence].
  - destruct (cl s1 j) eqn:C; try discriminate. destruct (returned s1 (S j)); [|discriminate]. injection E as <-. split; [reflexivity|apply UPD; congruence].
  - destruct (cl s1 j) eqn:C; try discriminate. injection E as <-. split; [now apply executed_quiet|apply UPD; congruence].
Qed.
Print Assumptions C04_ended.
(** The destructor returns: when the threads have come to rest (C03_bounded: they do), nobody is left inside it. *)
Theorem C04_returns : forall n s, areach n s -> a_terminated s = false -> (forall a s', astep s a = Some s' -> ainternal a = false) ->
  forall i, cl s i = CIdle \/ cl s i = DDone.
Proof. intros n s R T ST. apply (quiescent n s (AInv_reach n s R) T ST). Qed.
Print Assumptions C04_returns.

(** client 0 sends; client 1 destroys; client 0 sends again, behind the shutdown request *)
Definition push_all (t : nat) := [AQueue (Step t); AQueue (Step t); AQueue (Step t); AQueue (NoWake t)].
Definition pop_all := [ATest; AQueue (Step 0); AQueue (Step 0); AQueue (Step 0); AQueue (Step 0); ABegin].
Definition C04_sched : list aaction :=
  [ASend 0 7] ++ push_all 1 ++ [ASent 0; ADtor 1] ++ push_all 2 ++ [ADtorSent 1; ASpawn 0] ++ push_all 1 ++
  pop_all ++ [AEnd (Val 0)] ++ pop_all ++ [AEnd (Val 0); ATest; ADtorRet 1; ASent 0].
Example C04_ex1 : option_map (fun s => (executed (a_tr s), pushed (q_trace (a_q s)), cl s 1, a_bg s, a_prom s)) (asched (a_init 2) C04_sched) =
  Some ([User 7; Shutdown], [User 7; Shutdown; Task 0], DDone, BExit, [Broken]).
Proof. vm_compute. reflexivity. Qed.

(** ** C16 *)
Theorem C16_at_most_once : forall n s p, areach n s -> times (Task p) (executed (a_tr s)) <= 1.
Proof.
  intros n s p R. pose proof (AInv_reach n s R) as I. pose proof (seen_executed n s (Task p) I) as SE. rewrite (v_task n s I p) in SE.
  destruct (nth_error (a_prom s) p) as [[]|]; lia.
Qed.
Print Assumptions C16_at_most_once.

(** The future holds an outcome exactly if the one execution of the task ended with it. *)
Theorem C16_one_outcome : forall n s p o, areach n s ->
  (nth_error (a_prom s) p = Some (Ready o) <-> In (Task p, o) (ended (a_tr s))) /\
  (forall o', In (Task p, o) (ended (a_tr s)) -> In (Task p, o') (ended (a_tr s)) -> o = o').
Proof.
  intros n s p o R. pose proof (AInv_reach n s R) as I. pose proof (v_prom n s I p) as V.
  assert (IN : forall x, In (Task p, x) (ended (a_tr s)) <-> In (Task p, x) (ends p (a_tr s))).
  { intro x. unfold ends. rewrite filter_In. cbn [fst]. destruct (cb_eq_dec (Task p) (Task p)); tauto. }
  assert (E : forall x, In (Task p, x) (ended (a_tr s)) -> nth_error (a_prom s) p = Some (Ready x)).
  { intros x H. apply IN in H. destruct (nth_error (a_prom s) p) as [[|y| |]|]; try (rewrite V in H; destruct H; fail).
    - rewrite V in H. destruct H as [H|[]]. now injection H as ->.
    - destruct V as [V _]. rewrite V in H. destruct H. }
  split; [split; [|apply E]|].
  - intro H. rewrite H in V. apply IN. rewrite V. now left.
  - intros o' H1 H2. apply E in H1, H2. congruence.
Qed.
Print Assumptions C16_one_outcome.

(** On a null active object: an error at once, and no execution ever. *)
Theorem C16_null : forall n s1 s2 p, areach n s1 -> nth_error (a_prom s1) p = Some NullWorker -> asteps s1 s2 ->
  nth_error (a_prom s2) p = Some NullWorker /\ ~ In (Task p) (executed (a_tr s2)).
Proof.
  intros n s1 s2 p R H R12. pose proof (AInv_reach n s1 R) as I1.
  assert (P : nth_error (a_prom s2) p = Some NullWorker).
  { induction R12 as [|s s1 a s2 R12 IH E]; auto. specialize (IH R H I1). pose proof (AInv_steps n s s1 I1 R12) as I.
    unfold astep in E; destruct (a_terminated s1); [discriminate|].
    assert (APP : forall l, nth_error (a_prom s1 ++ l) p = Some NullWorker) by (intro l; rewrite nth_error_app1; [exact IH|apply nth_error_Some; congruence]).
    destruct a as [qa| | |o|c| |j m|j|j|j|j|j|j].
    - destruct (is_internal qa); [|discriminate]. destruct (qstep (a_q s1) qa); [|discriminate]. injection E as <-. exact IH.
    - destruct (a_bg s1); try discriminate. destruct (a_done s1); [injection E as <-; exact IH|].
      destruct (start s1 0 OPop) as [x|] eqn:S; [|discriminate]. injection E as <-. destruct (start_inv _ _ _ _ S) as (q' & -> & Q). exact IH.
    - destruct (a_bg s1); try discriminate. destruct (pc (a_q s1) 0) as [[[]|]| | | | | | |]; try discriminate. injection E as <-. exact IH.
    - destruct (a_bg s1) as [| |c|c|] eqn:B; try discriminate. injection E as <-. destruct c as [|q|]; [destruct o; exact IH| |exact IH].
      cbn [with_prom a_note with_bg a_prom]. rewrite (nth_error_upd _ Pending). destruct (Nat.eqb_spec q p) as [->|]; [|exact IH]. exfalso.
      pose proof (one_executed _ _ (v_one n s1 I)) as OE. rewrite B in OE. cbn [running] in OE. pose proof (seen_executed n s1 (Task p) I) as SE.
      rewrite (v_task n s1 I p), IH in SE. assert (X : times (Task p) (executed (a_tr s1)) = 0) by lia. apply times_0 in X. apply X. rewrite OE. apply in_or_app. right. now left.
    - destruct (a_bg s1) as [| |[]|d|]; try discriminate. destruct c; try discriminate. destruct (start s1 0 (OPush (User n1))) as [x|] eqn:S; [|discriminate].
      injection E as <-. destruct (start_inv _ _ _ _ S) as (q' & -> & Q). exact IH.
    - destruct (a_bg s1); try discriminate. destruct (returned s1 0); [|discriminate]. injection E as <-. exact IH.
    - destruct (cl s1 j); try discriminate. destruct (existsb _ _); [discriminate|]. destruct (start s1 (S j) (OPush (User m))) as [x|] eqn:S; [|discriminate].
      injection E as <-. destruct (start_inv _ _ _ _ S) as (q' & -> & Q). exact IH.
    - destruct (cl s1 j); try discriminate. destruct (existsb _ _); [discriminate|]. destruct (start s1 (S j) _) as [x|] eqn:S; [|discriminate].
      injection E as <-. destruct (start_inv _ _ _ _ S) as (q' & -> & Q). apply APP.
    - destruct (cl s1 j); try discriminate. injection E as <-. apply APP.
    - destruct (cl s1 j); try discriminate. destruct (returned s1 (S j)); [|discriminate]. injection E as <-. exact IH.
    - destruct (cl s1 j); try discriminate. destruct (dtor_begun s1); [discriminate|]. destruct (start s1 (S j) _) as [x|] eqn:S; [|discriminate].
      injection E as <-. destruct (start_inv _ _ _ _ S) as (q' & -> & Q). exact IH.
    - destruct (cl s1 j); try discriminate. destruct (returned s1 (S j)); [|discriminate]. injection E as <-. exact IH.
    - destruct (cl s1 j); try discriminate. destruct (a_bg s1); try discriminate. injection E as <-. cbn [a_note with_prom with_cl a_prom]. unfold break_promises. rewrite nth_error_map, IH. reflexivity. }
  split; [exact P|]. pose proof (AInv_steps n s1 s2 I1 R12) as I2. apply times_0. pose proof (seen_executed n s2 (Task p) I2) as SE. rewrite (v_task n s2 I2 p), P in SE. lia.
Qed.
Print Assumptions C16_null.

(** The future gets its outcome: if no destructor runs, when the threads have come to rest (C03_bounded) ... *)
Theorem C16_completes : forall n s p, areach n s -> a_terminated s = false -> (forall a s', astep s a = Some s' -> ainternal a = false) ->
  dtor_begun s = false -> p < length (a_prom s) -> nth_error (a_prom s) p = Some NullWorker \/ exists o, nth_error (a_prom s) p = Some (Ready o).
Proof.
  intros n s p R T ST ND L. pose proof (AInv_reach n s R) as I. destruct (C03_all_executed n s R T ST ND) as [E _].
  destruct (quiescent n s I T ST) as (SP & _). pose proof (v_task n s I p) as V. unfold seen in V. rewrite (no_pushing _ _ SP), <- E, Nat.add_0_r, times_map in V.
  pose proof (v_prom n s I p) as W. destruct (nth_error (a_prom s) p) as [[|o| |]|] eqn:X; eauto.
  - rewrite W in V. discriminate.
  - destruct W as [W _]. rewrite W in V. discriminate.
  - apply nth_error_None in X. lia.
Qed.
Print Assumptions C16_completes.
(** ... and with a destructor, when it has returned: every task sent before it began has its outcome; later ones have it, or std::future_error. *)
Theorem C16_completes_dtor : forall n s1 s2 i p, areach n s1 -> asteps s1 s2 -> cl s2 i = DDone ->
  (dtor_begun s1 = false -> In (Task p) (pushed (q_trace (a_q s1))) -> exists o, nth_error (a_prom s2) p = Some (Ready o)) /\
  nth_error (a_prom s2) p <> Some Pending.
Proof.
  intros n s1 s2 i p R1 R12 D. pose proof (AInv_reach n s1 R1) as I1. pose proof (AInv_steps n s1 s2 I1 R12) as I2. split.
  - intros ND IN. destruct (C04_drains n s1 s2 i R1 ND R12 D) as [[w E] B].
    pose proof (one_executed _ _ (v_one n s2 I2)) as OE. rewrite B in OE. cbn [running] in OE. rewrite app_nil_r in OE.
    destruct (executed_ready n s2 p I2) as (o & H & _); eauto; [|rewrite B; discriminate]. rewrite OE, E. apply in_or_app. now left.
  - apply (done_no_pending n s2) with (i := i); [|exact D]. clear -R1 R12. unfold areach in *. induction R12; auto. eapply as_step; [now apply IHR12|eauto].
Qed.
Print Assumptions C16_completes_dtor.

(** a value, an exception, a null worker *)
Definition C16_sched : list aaction :=
  [ASpawn 0] ++ push_all 1 ++ [ASent 0; ASpawnNull 0; ASpawn 0] ++ push_all 1 ++ [ASent 0] ++ pop_all ++ [AEnd (Val 3)] ++ pop_all ++ [AEnd (Exc 4)].
Example C16_ex1 : option_map (fun s => (a_prom s, ended (a_tr s))) (asched (a_init 1) C16_sched) =
  Some ([Ready (Val 3); NullWorker; Ready (Exc 4)], [(Task 0, Val 3); (Task 2, Exc 4)]).
Proof. vm_compute. reflexivity. Qed.
