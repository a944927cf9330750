(** C05-C15: the log worker, its sinks and handles. *)
From Coq Require Import List Arith ZArith Bool Lia Sorted.
From Verif.Base Require Import Threads.
From Verif.Model Require Import Worker.
From Verif.Spec Require Import WorkerSpec.
From Verif.Proofs Require Import WorkerLife WorkerHist WorkerBusy WorkerTok WorkerNum WorkerProm WorkerMeasure WorkerWait WorkerEnd WorkerTrace.
Import ListNotations.

(** ** schedules for the examples *)
(** client i adds a sink *)
Definition x_add (i : nat) : list waction := [AAdd i; AWork; AWork; AWork; AWork; AGo i].
(** client i logs *)
Definition x_log (i : nat) : list waction := [ALog i; AGo i; AGo i].
(** the worker hands a message to one sink *)
Definition x_one : list waction := [AWork; AWork; AWork; AWork].
(** sink k runs a callback *)
Definition x_sink (k : nat) : list waction := [ASinkPop k; ASinkEnd k (Val 0)].
(** client i has requested the removal of sink k, and the worker waits for the sink *)
Definition x_remove (i k : nat) : list waction := [ARemove i k; AGo i; AGo i; AWork; AWork; AWork].
(** the sink ends, the worker makes the token ready *)
Definition x_end (k : nat) : list waction := [ASinkPop k; ASinkEnd k (Val 0); ASinkExit k; AWork; AWork; AWork].

(** ** C05 *)
Theorem C05_received : forall n s k, wreach n s -> prefix (received (sk s k)) (window k false (entered s)).
Proof. intros n s k R. apply received_window. now apply (reach_B n). Qed.
Print Assumptions C05_received.
Theorem C05_once : forall n s k, wreach n s -> NoDup (received (sk s k)) /\ sublist (received (sk s k)) (logged (entered s)).
Proof.
  intros n s k R. assert (S : sublist (received (sk s k)) (logged (entered s))).
  { eapply sublist_trans; [apply sublist_prefix, (C05_received n s k R)|apply window_sub]. }
  split; [|exact S]. eapply sublist_NoDup; [exact S|]. apply logged_NoDup. now apply (reach_N n).
Qed.
Print Assumptions C05_once.
Theorem C05_all : forall n s k, wreach n s -> w_q s = [] -> (forall m todo drop q, w_pc s <> WSend m todo drop q) -> k_q (sk s k) = [] -> k_run (sk s k) = None ->
  received (sk s k) = window k false (entered s).
Proof.
  intros n s k R Q W KQ KR. pose proof (reach_B n s R) as IB. unfold entered. rewrite Q, app_nil_r, <- (b_win s IB k). unfold sent, all, received. rewrite KQ, KR. cbn [app]. rewrite app_nil_r.
  assert (P : pending k (w_pc s) = []) by (unfold pending; destruct (w_pc s); auto; exfalso; eapply W; reflexivity). now rewrite P, app_nil_r.
Qed.
Print Assumptions C05_all.
Theorem C05_grows : forall s s' k, wsteps s s' -> prefix (received (sk s k)) (received (sk s' k)).
Proof. intros s s' k W. destruct (steps_got s s' k W) as [l E]. unfold received. rewrite E, msgs_app. now exists (msgs l). Qed.
Print Assumptions C05_grows.
Theorem C05_registered : forall n s k, wreach n s -> (In k (w_sinks s) <-> registered k false (w_old s) = true).
Proof. intros n s k R. now apply (b_on s (reach_B n s R)). Qed.
Print Assumptions C05_registered.
(** two sinks, the second added after the first message; the first removed before the third *)
Example C05_ex :
  option_map (fun s => (received (sk s 0), received (sk s 1), window 0 false (entered s), window 1 false (entered s), logged (entered s)))
    (wrun (w_init 2) (x_log 1 ++ [AWork; AWork; AWork] ++ x_add 0 ++ x_log 0 ++ x_one ++ x_add 1 ++ x_log 1 ++ x_one ++ [AWork]
       ++ x_sink 0 ++ x_sink 0 ++ x_remove 0 0 ++ x_end 0 ++ [AGo 0; AWork] ++ x_log 0 ++ x_one ++ x_sink 1))
  = Some ([(0, 0); (1, 1)], [(1, 1)], [(0, 0); (1, 1)], [(1, 1); (0, 1)], [(1, 0); (0, 0); (1, 1); (0, 1)]).
Proof. vm_compute. reflexivity. Qed.

(** ** C06 *)
Theorem C06_program_order : forall n s k i a b, wreach n s -> before (i, a) (i, b) (received (sk s k)) -> a < b.
Proof.
  intros n s k i a b R B. assert (B' : before (i, a) (i, b) (logged (entered s))) by (eapply before_sub; [apply (C05_once n s k R)|exact B]).
  pose proof (n_sort s (reach_N n s R) i) as S. destruct B' as (l1 & l2 & l3 & E). rewrite E in S. rewrite nums_app in S. unfold nums at 2 in S. cbn [filter fst] in S. rewrite Nat.eqb_refl in S. cbn [map snd] in S.
  rewrite filter_app, map_app in S. cbn [filter fst] in S. rewrite Nat.eqb_refl in S. cbn [map snd] in S.
  assert (S2 : StronglySorted lt (a :: map snd (filter (fun m => Nat.eqb (fst m) i) l2) ++ b :: map snd (filter (fun m => Nat.eqb (fst m) i) l3))).
  { clear -S. induction (nums i l1) as [|x l IH]; [exact S|]. cbn [app] in S. inversion S; auto. }
  inversion S2 as [|? ? _ F]; subst. rewrite Forall_forall in F. apply F. apply in_or_app. right. now left.
Qed.
Print Assumptions C06_program_order.
Example C06_ex :
  option_map (fun s => received (sk s 0)) (wrun (w_init 2) (x_add 0 ++ x_log 0 ++ x_log 1 ++ x_log 0 ++ x_one ++ x_one ++ x_one ++ x_sink 0 ++ x_sink 0 ++ x_sink 0)) = Some [(0, 0); (1, 0); (0, 1)].
Proof. vm_compute. reflexivity. Qed.

(** ** C07 *)
Theorem C07_common_order : forall n s k1 k2 a b, wreach n s -> before a b (received (sk s k1)) -> before b a (received (sk s k2)) -> False.
Proof.
  intros n s k1 k2 a b R A B. apply (before_anti _ a b (logged (entered s))); [apply logged_NoDup; now apply (reach_N n)|apply (before_sub _ _ _ _ _ (proj2 (C05_once n s k1 R)) A)|apply (before_sub _ _ _ _ _ (proj2 (C05_once n s k2 R)) B)].
Qed.
Print Assumptions C07_common_order.
(** ** C103, from the queue to the sinks: what the order of the time stamps is in the queue (C103_per_thread_partial, C103_bounded_partial), it is in every sink *)
Theorem C103_sinks_partial : forall n s (stamp : msg -> Z), wreach n s ->
  ((forall i a b, a < b -> (stamp (i, a) <= stamp (i, b))%Z) -> forall k i a b, before (i, a) (i, b) (received (sk s k)) -> (stamp (i, a) <= stamp (i, b))%Z) /\
  (forall d, (forall a b, before a b (logged (entered s)) -> (stamp a <= stamp b + d)%Z) -> forall k a b, before a b (received (sk s k)) -> (stamp a <= stamp b + d)%Z).
Proof.
  intros n s stamp R. split.
  - intros M k i a b B. apply M. exact (C06_program_order n s k i a b R B).
  - intros d M k a b B. apply M. eapply before_sub; [apply (C05_once n s k R)|exact B].
Qed.
Print Assumptions C103_sinks_partial.
(** two threads, stamps 5 and 3 in the order of the queue: the sink is 2 away from the order too *)
Example C103_sinks_ex :
  let stamp := fun m : msg => match m with (0, _) => 5%Z | _ => 3%Z end in
  option_map (fun s => (map stamp (logged (entered s)), map stamp (received (sk s 0))))
    (wrun (w_init 2) (x_add 0 ++ x_log 0 ++ x_log 1 ++ x_one ++ x_one ++ x_sink 0 ++ x_sink 0)) = Some ([5; 3]%Z, [5; 3]%Z).
Proof. vm_compute. reflexivity. Qed.
Example C07_ex :
  option_map (fun s => (received (sk s 0), received (sk s 1)))
    (wrun (w_init 2) (x_add 0 ++ x_add 1 ++ x_log 0 ++ x_log 1 ++ x_one ++ [AWork] ++ x_one ++ [AWork] ++ x_sink 1 ++ x_sink 1 ++ x_sink 0 ++ x_sink 0)) = Some ([(0, 0); (1, 0)], [(0, 0); (1, 0)]).
Proof. vm_compute. reflexivity. Qed.

(** ** C08: at CRmR k h the call of removeSink returns; h is what had entered the worker when the removal was requested *)
Theorem C08_unregistered : forall n s i k h, wreach n s -> c_pc (cl s i) = CRmR k h ->
  ~ In k (w_sinks s) /\ (forall s', wsteps s s' -> ~ In k (w_sinks s')) /\ registered k false (entered s) = false.
Proof.
  intros n s i k h R P. destruct (reach_G n s R) as [[IA IB IP IT ID] IG].
  assert (PF : prefix (h ++ [TRemove i k]) (w_old s)) by (pose proof (t_pc s IT i) as TP; rewrite P in TP; apply TP).
  assert (AD : nadd k h <> 0) by (pose proof (g_add s IG i) as AD; rewrite P in AD; exact AD).
  assert (U : forall s', wsteps s s' -> registered k false (w_old s') = false /\ registered k false (entered s') = false).
  { intros s' W. pose proof (reach_B n s' (reach_steps n s s' R W)) as IB'. pose proof (b_add s' IB' k) as BA. pose proof (b2n_le (k <? length (w_sk s'))) as LE. unfold entered in *. rewrite nadd_app in BA.
    assert (PF' : prefix (h ++ [TRemove i k]) (w_old s')) by (eapply prefix_trans; [exact PF|now apply steps_old]).
    split; apply (removed_unreg k i h); auto; [lia|rewrite nadd_app; lia|now apply prefix_app]. }
  repeat split.
  - intro H. apply (b_on s IB) in H. destruct (U s (ws_refl s)). congruence.
  - intros s' W H. apply (b_on s' (reach_B n s' (reach_steps n s s' R W))) in H. destruct (U s' W). congruence.
  - apply (U s (ws_refl s)).
Qed.
Print Assumptions C08_unregistered.
(** if no client owns the sink, or is destroying it, or is in another call that removes it *)
Theorem C08_destroyed_partial : forall n s i k h, wreach n s -> c_pc (cl s i) = CRmR k h ->
  (forall j, ~ In k (c_hold (cl s j))) -> (forall j next, c_pc (cl s j) <> CJoin k next) -> (forall j h', j <> i -> c_pc (cl s j) <> CRmW k h') ->
  k_dead (sk s k) = true /\ k_exit (sk s k) = true /\ prefix (window k false h) (received (sk s k)) /\ (forall s', wsteps s s' -> sk s' k = sk s k).
Proof.
  intros n s i k h R P H1 H2 H3. destruct (reach_G n s R) as [I IG]. destruct (removed_flushed s i k h I IG P H1 H2 H3) as [Z J]. destruct I as [IA IB IP IT ID].
  destruct (unowned s k IA IB Z J) as [D E]. destruct (dead_facts s k IA D) as (X & _). repeat split; auto.
  - rewrite E. apply prefix_window. pose proof (t_pc s IT i) as TP. rewrite P in TP. destruct TP as [_ [r ->]]. exists ([TRemove i k] ++ r). now rewrite app_assoc.
  - intros s' W. apply (steps_dead n s s' k R W); auto. pose proof (b_add s IB k) as BA. pose proof (t_pc s IT i) as TP. rewrite P in TP. destruct TP as [HK _]. pose proof (t_h s IT k HK) as NZ. unfold entered in BA. rewrite nadd_app in BA.
    destruct (Nat.ltb_spec k (length (w_sk s))); [auto|]. cbn [b2n] in BA. lia.
Qed.
Print Assumptions C08_destroyed_partial.
Example C08_ex :
  option_map (fun s => (c_pc (cl s 0), w_sinks s, k_dead (sk s 0), received (sk s 0)))
    (wrun (w_init 2) (x_add 0 ++ x_log 1 ++ x_one ++ x_log 0 ++ [ARemove 0 0; AGo 0; AGo 0] ++ x_log 1 ++ x_one ++ [AWork; AWork; AWork] ++ x_sink 0 ++ x_sink 0 ++ x_end 0))
  = Some (CRmR 0 [TAdd 0 0; TSave (1, 0); TSave (0, 0)], [], true, [(1, 0); (0, 0)]).
Proof. vm_compute. reflexivity. Qed.
(** a client that holds the sink keeps it alive: removeSink returns before the sink has received its message *)
Example C08_held :
  option_map (fun s => (c_pc (cl s 0), w_sinks s, k_dead (sk s 0), received (sk s 0)))
    (wrun (w_init 2) (x_add 0 ++ [ALock 1 0] ++ x_log 1 ++ x_one ++ x_remove 0 0 ++ [AWork; AWork]))
  = Some (CRmR 0 [TAdd 0 0; TSave (1, 0)], [], false, []).
Proof. vm_compute. reflexivity. Qed.

(** the third hypothesis is needed: client 2 gives its pointer up while the worker, for the removal by client 1, has locked the sink *)
Definition C08_schedule : list waction := x_add 0 ++ [ALock 2 0] ++ x_log 1 ++ x_one ++ [ARemove 0 0; AGo 0; AGo 0; ARemove 1 0; AGo 1; AGo 1] ++ [AWork; AWork; AWork; AWork; AWork; AWork; AWork; ARelease 2 0].
Theorem C08_destroyed_refuted : exists s k h, wreach 3 s /\ c_pc (cl s 0) = CRmR k h /\ (forall j, ~ In k (c_hold (cl s j))) /\ (forall j next, c_pc (cl s j) <> CJoin k next) /\
  k_dead (sk s k) = false /\ ~ prefix (window k false h) (received (sk s k)).
Proof.
  assert (E : option_map (fun s => (w_cl s, k_dead (sk s 0), received (sk s 0))) (wrun (w_init 3) C08_schedule)
    = Some ([mkClient (CRmR 0 [TAdd 0 0; TSave (1, 0)]) [] 0; mkClient (CRmW 0 [TAdd 0 0; TSave (1, 0); TRemove 0 0]) [] 1; mkClient CIdle [] 0], false, [])) by (vm_compute; reflexivity).
  destruct (wrun (w_init 3) C08_schedule) as [s|] eqn:R; [|discriminate]. cbn [option_map] in E. injection E as E1 E2 E3.
  exists s, 0, [TAdd 0 0; TSave (1, 0)]. split; [eapply wrun_reach; eauto|]. unfold cl. rewrite E1. split; [reflexivity|]. split; [|split; [|split; [exact E2|]]].
  - intros [|[|[|[|j]]]] H; cbn in H; destruct H.
  - intros [|[|[|[|j]]]] next H; cbn in H; discriminate.
  - rewrite E3. cbn. intros [r H]. discriminate.
Qed.
Print Assumptions C08_destroyed_refuted.

(** ** C09: at DDone h the destructor of the worker has returned; h is what had entered when it began *)
Theorem C09_worker_ended : forall n s i h, wreach n s -> c_pc (cl s i) = DDone h -> w_pc s = WExit /\ w_q s = [] /\ w_sinks s = [].
Proof.
  intros n s i h R P. pose proof (reach_inv n s R) as I. assert (W : w_pc s = WExit) by (apply (d_done s (i_D s I) i h P)). destruct (exit_empty s I W) as [Q _]. repeat split; auto.
  apply (d_clr s (i_D s I) i). left. now rewrite P.
Qed.
Print Assumptions C09_worker_ended.
(** sinks that no client owns or destroys are flushed and destroyed; the messages for the other sinks are in the sink's queue *)
Theorem C09_flush_partial : forall n s i h k, wreach n s -> c_pc (cl s i) = DDone h ->
  prefix (window k false h) (msgs (all (sk s k))) /\
  ((forall j, ~ In k (c_hold (cl s j))) -> (forall j next, c_pc (cl s j) <> CJoin k next) -> k_dead (sk s k) = true /\ prefix (window k false h) (received (sk s k))).
Proof.
  intros n s i h k R P. destruct (C09_worker_ended n s i h R P) as (W & Q & S). destruct (reach_inv n s R) as [IA IB IP IT ID].
  assert (PH : prefix h (w_old s)).
  { pose proof (t_pc s IT i) as TP. rewrite P in TP. cbn [tokok] in TP. destruct TP as (h' & A & B). eapply prefix_trans; [exact A|]. eapply prefix_trans; [|exact B]. apply prefix_app, prefix_refl. }
  split.
  - pose proof (b_win s IB k) as B. rewrite W in B. cbn [pending] in B. rewrite app_nil_r in B. unfold sent in B. rewrite B. now apply prefix_window.
  - intros NH NJ. assert (Z : refs s k = 0) by (unfold refs; rewrite S, Q, W, (no_hold s k NH); reflexivity). assert (J : jn s k = 0) by (unfold jn; rewrite W, (no_cjoin s k NJ); reflexivity).
    destruct (unowned s k IA IB Z J) as [D E]. split; [exact D|]. rewrite E. now apply prefix_window.
Qed.
Print Assumptions C09_flush_partial.
(** the destructor, with one sink that it must destroy *)
Definition x_dtor (i k : nat) : list waction := [ADestroy i; AGo i; AWork; AWork].
Example C09_ex :
  option_map (fun s => (c_pc (cl s 0), w_pc s, k_dead (sk s 0), received (sk s 0)))
    (wrun (w_init 1) (x_add 0 ++ x_log 0 ++ x_log 0 ++ [ADestroy 0; AGo 0] ++ x_one ++ x_one ++ [AWork; AWork] ++ x_sink 0 ++ x_sink 0 ++ x_end 0 ++ [AWork; AGo 0; AWork; AGo 0]))
  = Some (DDone [TAdd 0 0; TSave (0, 0); TSave (0, 1)], WExit, true, [(0, 0); (0, 1)]).
Proof. vm_compute. reflexivity. Qed.
(** as claimed, without exception for sinks that clients hold, it is false: the client that destroys the worker holds the sink *)
Definition C09_schedule : list waction := x_add 0 ++ [ALock 0 0] ++ x_log 0 ++ [ADestroy 0; AGo 0] ++ x_one ++ [AWork; AWork; AWork; AWork; AWork; AGo 0; AWork; AGo 0].
Theorem C09_flush_refuted : exists s h k, wreach 1 s /\ c_pc (cl s 0) = DDone h /\ ~ prefix (window k false h) (received (sk s k)).
Proof.
  assert (E : option_map (fun s => (c_pc (cl s 0), received (sk s 0))) (wrun (w_init 1) C09_schedule) = Some (DDone [TAdd 0 0; TSave (0, 0)], [])) by (vm_compute; reflexivity).
  destruct (wrun (w_init 1) C09_schedule) as [s|] eqn:R; [|discriminate]. cbn [option_map] in E. injection E as E1 E2.
  exists s, [TAdd 0 0; TSave (0, 0)], 0. split; [eapply wrun_reach; eauto|]. split; [exact E1|]. rewrite E2. cbn. intros [r H]. discriminate.
Qed.
Print Assumptions C09_flush_refuted.

(** ** C10 *)
(** no step uses a destroyed sink; the destructor has waited for the end of the thread, which has emptied the queue *)
Theorem C10_no_use_after_destruction : forall n s, wreach n s ->
  w_sinkub s = false /\ forall k, k_dead (sk s k) = true -> k_exit (sk s k) = true /\ k_q (sk s k) = [] /\ k_run (sk s k) = None.
Proof.
  intros n s R. pose proof (reach_A n s R) as IA. split; [apply (a_ub s IA)|]. intros k D. destruct (dead_facts s k IA D) as (A & B & C & E & _). auto.
Qed.
Print Assumptions C10_no_use_after_destruction.
(** a thread that has ended has run everything that was sent to it, and nothing is sent afterwards *)
Theorem C10_ended : forall n s k, wreach n s -> k < length (w_sk s) -> k_exit (sk s k) = true -> k_q (sk s k) = [] /\ k_run (sk s k) = None /\ refs s k = 0.
Proof.
  intros n s k R L X. pose proof (reach_A n s R) as IA. destruct (k_of s k IA L) as [a b c d e f]. destruct (exit_flushed s k IA (e X)) as [Q RN]. repeat split; auto.
  apply a. unfold all. rewrite has_done_app, <- d, (e X). reflexivity.
Qed.
Print Assumptions C10_ended.
Theorem C10_destroyed_once : forall n s s' k, wreach n s -> wsteps s s' -> k < length (w_sk s) -> k_dead (sk s k) = true -> sk s' k = sk s k.
Proof. intros n s s' k R W L D. now apply (steps_dead n). Qed.
Print Assumptions C10_destroyed_once.
(** only the sink's own thread runs its callbacks, one at a time, in the order of its queue *)
Theorem C10_own_thread : forall s a s' k, wstep s a = Some s' -> own k a = false -> k < length (w_sk s) ->
  k_run (sk s' k) = k_run (sk s k) /\ k_got (sk s' k) = k_got (sk s k) /\ prefix (k_q (sk s k)) (k_q (sk s' k)).
Proof. intros s a s' k E O L. destruct (other_step s a s' k E O L) as (A & B & _ & _ & C & _). auto. Qed.
Print Assumptions C10_own_thread.
Theorem C10_one_at_a_time : forall s k s', wstep s (ASinkPop k) = Some s' -> k_run (sk s k) = None /\ exists j q, k_q (sk s k) = j :: q /\ k_run (sk s' k) = Some j /\ k_q (sk s' k) = q.
Proof.
  intros s k s' E. unfold wstep in E. destruct (w_proc s); try discriminate. unfold sink_pop in E. destruct (k_run (sk s k)); [discriminate|]. destruct (k_q (sk s k)) as [|j q] eqn:Q; [discriminate|]. destruct (k_done (sk s k)); [discriminate|].
  injection E as <-. split; [reflexivity|]. exists j, q. pose proof (sink_q_lt _ _ _ _ Q) as L. apply Nat.ltb_lt in L. rewrite sk_upd, Nat.eqb_refl, L. auto.
Qed.
Print Assumptions C10_one_at_a_time.
Example C10_ex :
  option_map (fun s => (k_dead (sk s 0), k_got (sk s 0), w_sinkub s)) (wrun (w_init 1) (x_add 0 ++ x_log 0 ++ x_one ++ [ALock 0 0] ++ x_remove 0 0 ++ [AWork; AWork] ++ x_sink 0 ++ [AGo 0; ARelease 0 0; ASinkPop 0; ASinkEnd 0 (Val 0); ASinkExit 0; AGo 0]))
  = Some (true, [JMsg (0, 0); JDone], false).
Proof. vm_compute. reflexivity. Qed.

(** ** C11 *)
Theorem C11_gone : forall n s i k s', wreach n s -> refs s k = 0 -> wstep s (ACall i k) = Some s' ->
  forall s'', wsteps s' s'' -> nth_error (w_prom s'') (length (w_prom s)) = Some (k, BadWeak) /\ forall u, ~ In (JCall (length (w_prom s))) (all (sk s'' u)).
Proof.
  intros n s i k s' R Z E s'' W. assert (R' : wreach n s') by (eapply reach_steps; [exact R|]; eapply ws_step; [constructor|exact E]).
  assert (P : nth_error (w_prom s') (length (w_prom s)) = Some (k, BadWeak)).
  { unfold wstep in E. destruct (w_proc s); try discriminate. destruct (idle s i && has k (w_handles s)); [|discriminate]. rewrite Z in E. cbn [Nat.eqb] in E. injection E as <-. cbn [set_prom w_prom]. now rewrite nth_error_snoc, Nat.eqb_refl. }
  assert (P' : nth_error (w_prom s'') (length (w_prom s)) = Some (k, BadWeak)) by (eapply steps_prom; eauto; discriminate). split; [exact P'|].
  intros u H. apply ncall_In in H. pose proof (e_cnt s'' (reach_E n s'' (reach_steps n s' s'' R' W)) u (length (w_prom s))) as C. unfold owed in C. rewrite P' in C. cbn [b2n] in C. lia.
Qed.
Print Assumptions C11_gone.
(** a destroyed sink has no owner *)
Theorem C11_destroyed_is_gone : forall n s k, wreach n s -> k < length (w_sk s) -> k_dead (sk s k) = true -> refs s k = 0.
Proof. intros n s k R L D. apply (C10_ended n s k R L). now apply (C10_no_use_after_destruction n s R). Qed.
Print Assumptions C11_destroyed_is_gone.
(** otherwise the caller becomes an owner, and its next step queues the call behind everything *)
Theorem C11_accepted : forall n s i k s', wreach n s -> refs s k <> 0 -> wstep s (ACall i k) = Some s' ->
  c_pc (cl s' i) = CCall k (length (w_prom s)) /\ In k (c_hold (cl s' i)) /\ nth_error (w_prom s') (length (w_prom s)) = Some (k, Pending).
Proof.
  intros n s i k s' R Z E. unfold wstep in E. destruct (w_proc s); try discriminate. destruct (idle s i) eqn:ID; [|discriminate]. destruct (idle_spec _ _ ID) as [L P]. destruct (has k (w_handles s)); [|discriminate].
  destruct (Nat.eqb_spec (refs s k) 0) as [C|_]; [contradiction|]. cbn [andb] in E. injection E as <-. set (s1 := set_prom s (w_prom s ++ [(k, Pending)])). set (s0 := acquire s1 i k).
  assert (L0 : i < length (w_cl s0)) by (cbn [s0 acquire set_hold set_cl w_cl s1 set_prom]; now rewrite upd_length). unfold set_cpc. rewrite cl_set, Nat.eqb_refl by exact L0. cbn [c_pc c_hold set_cl w_prom s0 acquire set_hold s1 set_prom].
  split; [reflexivity|]. split; [|now rewrite nth_error_snoc, Nat.eqb_refl]. change (In k (c_hold (cl s0 i))). unfold s0, acquire, set_hold. rewrite cl_set, Nat.eqb_refl by exact L. now left.
Qed.
Print Assumptions C11_accepted.
Theorem C11_queued : forall n s i k c s', wreach n s -> c_pc (cl s i) = CCall k c -> wstep s (AGo i) = Some s' -> all (sk s' k) = all (sk s k) ++ [JCall c].
Proof.
  intros n s i k c s' R P E. pose proof (reach_A n s R) as IA. pose proof (cl_lt s i ltac:(rewrite P; discriminate)) as L. pose proof (a_cl s IA i) as PC. unfold pcok in PC. rewrite P in PC. pose proof (refs_hold _ _ _ L PC) as RF. pose proof (life_lt _ _ _ _ (a_life s IA) RF) as LT.
  unfold wstep in E. destruct (w_proc s); try discriminate. unfold go in E. rewrite P in E. injection E as <-. destruct (invA_push_sink s k (JCall c) IA RF ltac:(discriminate)) as [_ E2]. rewrite E2.
  set (s2 := set_sk s (upd (w_sk s) k (with_kq (sk s k) (k_q (sk s k) ++ [JCall c])))). change (sk (set_cpc s2 i (CCallR k)) k) with (sk s2 k). unfold s2. rewrite sk_upd, Nat.eqb_refl. apply Nat.ltb_lt in LT. rewrite LT. apply all_push.
Qed.
Print Assumptions C11_queued.
(** the future becomes ready when the sink's thread has executed the call, with the outcome of the execution *)
Theorem C11_outcome : forall n s a s' k c o, wreach n s -> wstep s a = Some s' -> nth_error (w_prom s') c = Some (k, Ready o) -> nth_error (w_prom s) c <> Some (k, Ready o) ->
  a = ASinkEnd k o /\ k_run (sk s k) = Some (JCall c).
Proof. intros n s a s' k c o R E H N. eapply prom_ready; eauto. now apply (reach_E n). Qed.
Print Assumptions C11_outcome.
(** exactly one execution, on that sink, and the outcome stays *)
Theorem C11_once : forall n s k c o, wreach n s -> nth_error (w_prom s) c = Some (k, Ready o) ->
  ncall c (k_got (sk s k)) = 1 /\ (forall u, u <> k -> ~ In (JCall c) (all (sk s u))) /\ forall s', wsteps s s' -> nth_error (w_prom s') c = Some (k, Ready o) /\ ncall c (k_got (sk s' k)) = 1.
Proof.
  intros n s k c o R H.
  assert (X : forall s', wreach n s' -> nth_error (w_prom s') c = Some (k, Ready o) -> ncall c (k_got (sk s' k)) = 1 /\ (forall u, u <> k -> ~ In (JCall c) (all (sk s' u)))).
  { intros s' R' H'. pose proof (reach_E n s' R') as [A B]. split.
    - assert (G : In (JCall c) (k_got (sk s' k))) by (apply B; eauto). apply ncall_In in G. specialize (A k c). unfold owed in A. rewrite H', Nat.eqb_refl in A. unfold all in A. rewrite ncall_app in A. cbn [b2n] in A. lia.
    - intros u N I. apply ncall_In in I. specialize (A u c). unfold owed in A. rewrite H' in A. assert (E : Nat.eqb k u = false) by (apply Nat.eqb_neq; congruence). rewrite E in A. cbn [b2n] in A. lia. }
  destruct (X s R H) as [X1 X2]. repeat split; auto.
  - eapply steps_prom; eauto. discriminate.
  - apply X; [eapply reach_steps; eauto|]. eapply steps_prom; eauto. discriminate.
Qed.
Print Assumptions C11_once.
(** a call that has been accepted is queued, running or done, also after the sink has been removed *)
Theorem C11_not_lost : forall n s k c, wreach n s -> nth_error (w_prom s) c = Some (k, Pending) ->
  (exists i, c_pc (cl s i) = CCall k c) \/ k_run (sk s k) = Some (JCall c) \/ In (JCall c) (k_q (sk s k)).
Proof.
  intros n s k c R H. pose proof (reach_E n s R) as [A B]. pose proof (A k c) as C. unfold owed in C. rewrite H, Nat.eqb_refl in C. cbn [b2n] in C.
  destruct (Nat.eq_dec (count (cc k c) (w_cl s)) 0) as [Z|Z].
  - right. assert (I : ncall c (all (sk s k)) <> 0) by lia. apply ncall_In in I. unfold all in I. apply in_app_iff in I as [I|I].
    + apply B in I as [o I]. congruence.
    + apply in_app_iff in I as [I|I]; auto. left. destruct (k_run (sk s k)) as [j|]; [destruct I as [->|[]]; reflexivity|destruct I].
  - left. destruct (count_pos new_client (cc k c) (w_cl s) ltac:(lia)) as (i & L & G). change (get new_client (w_cl s) i) with (cl s i) in G. exists i. unfold cc in G. destruct (c_pc (cl s i)); try discriminate. apply andb_prop in G as [G1 G2]. apply Nat.eqb_eq in G1 as ->. apply Nat.eqb_eq in G2 as ->. reflexivity.
Qed.
Print Assumptions C11_not_lost.
Theorem C11_throws : forall n s k c e s', wreach n s -> k_run (sk s k) = Some (JCall c) -> wstep s (ASinkEnd k (Exc e)) = Some s' ->
  w_proc s' = PRun /\ nth_error (w_prom s') c = Some (k, Ready (Exc e)) /\ k_q (sk s' k) = k_q (sk s k) /\ k_run (sk s' k) = None /\ k_done (sk s' k) = k_done (sk s k) /\ k_exit (sk s' k) = k_exit (sk s k).
Proof.
  intros n s k c e s' R RN E. pose proof (running_pending s k c (reach_E n s R) RN) as PD. unfold wstep in E. destruct (w_proc s) eqn:P; try discriminate. unfold sink_end in E. rewrite RN in E. injection E as <-. pose proof (sink_run_lt _ _ _ RN) as L. apply Nat.ltb_lt in L.
  set (x := mkSink (k_q (sk s k)) None (k_done (sk s k)) (k_exit (sk s k)) (k_got (sk s k) ++ [JCall c]) (k_dead (sk s k))). set (v := upd _ c _). change (sk (set_prom (set_sk s (upd (w_sk s) k x)) v) k) with (sk (set_sk s (upd (w_sk s) k x)) k). rewrite sk_upd, Nat.eqb_refl, L. cbn [andb x k_q k_run k_done k_exit].
  repeat split; auto. unfold v. cbn [set_prom set_sk w_prom]. rewrite nth_error_upd, Nat.eqb_refl. assert (LC : c < length (w_prom s)) by (apply nth_error_Some; congruence). apply Nat.ltb_lt in LC. rewrite LC. cbn [andb]. rewrite (nth_error_get _ (0, BadWeak) _ _ _ PD). reflexivity.
Qed.
Print Assumptions C11_throws.
(** when the threads have stopped, no future is pending; that they stop is C12 *)
Theorem C11_eventually : forall n s c k p, wreach n s -> w_proc s = PRun -> stuck s -> nth_error (w_prom s) c = Some (k, p) -> p <> Pending.
Proof. intros n s c k p R P ST H. eapply stuck_prom; eauto; [now apply (reach_inv n)|now apply (reach_E n)]. Qed.
Print Assumptions C11_eventually.
(** a call is queued, then the sink is removed; the call is still executed, and throws; a call after that finds no sink *)
Example C11_ex :
  option_map (fun s => (w_prom s, k_got (sk s 0), k_dead (sk s 0)))
    (wrun (w_init 2) (x_add 0 ++ [ACall 1 0; AGo 1; AGo 1] ++ x_remove 0 0 ++ [ASinkPop 0; ASinkEnd 0 (Exc 7)] ++ x_end 0 ++ [AGo 0; ACall 1 0]))
  = Some ([(0, Ready (Exc 7)); (0, BadWeak)], [JCall 0; JDone], true).
Proof. vm_compute. reflexivity. Qed.

(** ** C12 *)
Theorem C12_bounded : forall n s, wreach n s -> exists N, forall m s', bsteps m s s' -> m <= N.
Proof.
  intros n s R. exists (phi s). intros m s' B. assert (H : wreach n s' /\ m + phi s' <= phi s); [|lia].
  induction B as [s|m s s1 a s2 B IH G E]; [split; [exact R|lia]|]. destruct (IH R) as [R1 LE]. destruct (reach_inv n s1 R1) as [IA IB IP IT ID]. pose proof (bg_phi s1 a s2 IA IB IT G E) as LT. split; [|lia].
  eapply reach_steps; [exact R1|]. eapply ws_step; [constructor|exact E].
Qed.
Print Assumptions C12_bounded.
Theorem C12_released : forall n s, wreach n s -> w_proc s = PRun -> stuck s ->
  (forall i, c_pc (cl s i) = CIdle \/ exists h, c_pc (cl s i) = DDone h) /\ w_q s = [] /\ (forall k, k_q (sk s k) = [] /\ k_run (sk s k) = None).
Proof.
  intros n s R P ST. pose proof (reach_inv n s R) as I. split; [intro i; now apply stuck_client|]. split; [now apply stuck_worker|].
  intro k. destruct (Nat.lt_ge_cases k (length (w_sk s))) as [L|L]; [|rewrite sk_out by exact L; auto]. destruct (stuck_sink s k P (i_A s I) ST L) as (A & B & _). auto.
Qed.
Print Assumptions C12_released.
(** from every state the threads get there *)
Theorem C12_drains : forall n s, wreach n s -> exists m s', bsteps m s s' /\ stuck s'.
Proof.
  intros n s R. remember (phi s) as p eqn:E. revert s R E. induction p as [p IH] using lt_wf_ind. intros s R ->.
  destruct (next_bg s) as [a|] eqn:N.
  - destruct (next_bg_some s a N) as (G & s1 & E). destruct (reach_inv n s R) as [IA IB IP IT ID]. pose proof (bg_phi s a s1 IA IB IT G E) as LT.
    assert (R1 : wreach n s1) by (eapply reach_steps; [exact R|]; eapply ws_step; [constructor|exact E]). destruct (IH (phi s1) LT s1 R1 eq_refl) as (m & s' & B & ST). exists (S m), s'. split; [|exact ST]. eapply bsteps_cons; eauto.
  - exists 0, s. split; [constructor|]. now apply next_bg_none.
Qed.
Print Assumptions C12_drains.
(** three clients wait: two in removeSink for the same sink, one in removeAllSinks; at the end all have returned *)
Example C12_ex :
  option_map (fun s => (map c_pc (w_cl s), w_sinks s, k_dead (sk s 0)))
    (wrun (w_init 3) (x_add 0 ++ x_log 1 ++ [ARemove 0 0; AGo 0; ARemove 1 0; AGo 1; AGo 1; AGo 0; ARemoveAll 2] ++ x_one ++ [AWork; AWork; AWork] ++ x_sink 0 ++ x_end 0 ++ [AWork] ++ [AWork; AWork; AWork; AWork; AWork; AWork; AWork; AGo 0; AGo 1; AGo 2]))
  = Some ([CIdle; CIdle; CIdle], [], true).
Proof. vm_compute. reflexivity. Qed.

(** ** C13 *)
Theorem C13_flush_partial : forall n s, wreach n s -> w_proc s = PKilled ->
  exists pre m, w_old s = pre ++ [TFatal m] /\ (forall m', ~ In (TFatal m') pre) /\
    forall k, nadd k pre <> 0 -> (forall j, ~ In k (c_hold (cl s j))) -> (forall j next, c_pc (cl s j) <> CJoin k next) ->
      k_dead (sk s k) = true /\ received (sk s k) = window k false pre ++ (if registered k false pre then [m] else []).
Proof.
  intros n s R K. destruct (killed n s R K) as (s0 & R0 & P0 & W0 & ->). destruct (reach_inv n s0 R0) as [IA IB IP IT ID]. destruct IP as [[C _]|(pre & t & O & QU & B)]; [congruence|].
  assert (T : exists m, t = TFatal m).
  { rewrite W0 in B. destruct t as [m|m|u v|u v|u|]; cbn [busy] in B; [|eauto|..]; exfalso; repeat (match goal with H : _ \/ _ |- _ => destruct H | H : exists _, _ |- _ => destruct H | H : _ /\ _ |- _ => destruct H end); discriminate. }
  destruct T as [m ->]. exists pre, m. split; [exact O|]. split; [intros m' H; exact (QU _ H)|]. intros k NA NH NJ. change (sk (set_proc s0 PKilled) k) with (sk s0 k).
  assert (SN : cnt k (w_sinks s0) = 0).
  { destruct (Nat.eq_dec (cnt k (w_sinks s0)) 0) as [Z|Z]; [exact Z|]. apply cnt_In, (b_on s0 IB) in Z. rewrite O, registered_app in Z. cbn [registered] in Z. discriminate. }
  assert (NO : nadd k (w_old s0) <> 0) by (rewrite O, nadd_app; lia). destruct (old_no_queue s0 k IB NO) as [CQ _].
  assert (Z : refs s0 k = 0) by (unfold refs; rewrite SN, CQ, W0, (no_hold s0 k NH); reflexivity). assert (J : jn s0 k = 0) by (unfold jn; rewrite W0, (no_cjoin s0 k NJ); reflexivity).
  destruct (unowned s0 k IA IB Z J) as [D E]. split; [exact D|]. rewrite E, O, window_app. f_equal. cbn [window]. now destruct (registered k false pre).
Qed.
Print Assumptions C13_flush_partial.
(** sinks that a client also holds: everything is in the sink's queue or received, in the same order and with nothing else *)
Theorem C13_sent_partial : forall n s, wreach n s -> w_proc s = PKilled ->
  exists pre m, w_old s = pre ++ [TFatal m] /\ (forall m', ~ In (TFatal m') pre) /\
    forall k, msgs (all (sk s k)) = window k false pre ++ (if registered k false pre then [m] else []).
Proof.
  intros n s R K. destruct (killed n s R K) as (s0 & R0 & P0 & W0 & ->). destruct (reach_inv n s0 R0) as [IA IB IP IT ID]. destruct IP as [[C _]|(pre & t & O & QU & B)]; [congruence|].
  assert (T : exists m, t = TFatal m).
  { rewrite W0 in B. destruct t as [m|m|u v|u v|u|]; cbn [busy] in B; [|eauto|..]; exfalso; repeat (match goal with H : _ \/ _ |- _ => destruct H | H : exists _, _ |- _ => destruct H | H : _ /\ _ |- _ => destruct H end); discriminate. }
  destruct T as [m ->]. exists pre, m. split; [exact O|]. split; [intros m' H; exact (QU _ H)|]. intros k. change (sk (set_proc s0 PKilled) k) with (sk s0 k).
  pose proof (b_win s0 IB k) as W. unfold sent, pending in W. rewrite W0, app_nil_r in W. rewrite O, window_app in W. rewrite W. f_equal. cbn [window]. now destruct (registered k false pre).
Qed.
Print Assumptions C13_sent_partial.
Example C13_ex :
  option_map (fun s => (w_proc s, k_dead (sk s 0), received (sk s 0), logged (entered s)))
    (wrun (w_init 2) (x_add 0 ++ x_log 0 ++ [AFatal 1; AGo 1; AGo 1] ++ x_log 0 ++ x_one ++ [AWork; AWork; AWork; AWork] ++ x_sink 0 ++ x_sink 0 ++ [ASinkPop 0; ASinkEnd 0 (Val 0); ASinkExit 0; AWork; AWork]))
  = Some (PKilled, true, [(0, 0); (1, 0)], [(0, 0); (1, 0); (0, 1)]).
Proof. vm_compute. reflexivity. Qed.
(** without exception for sinks that clients hold it is false *)
Definition C13_schedule : list waction := x_add 0 ++ [ALock 0 0] ++ x_log 0 ++ [AFatal 1; AGo 1; AGo 1] ++ x_one ++ [AWork; AWork; AWork; AWork; AWork].
Example C13_sent_ex : option_map (fun s => (w_proc s, received (sk s 0), msgs (all (sk s 0)))) (wrun (w_init 2) C13_schedule) = Some (PKilled, [], [(0, 0); (1, 0)]).
Proof. vm_compute. reflexivity. Qed.
Theorem C13_flush_refuted : exists s pre m k, wreach 2 s /\ w_proc s = PKilled /\ w_old s = pre ++ [TFatal m] /\ registered k false pre = true /\ ~ prefix (window k false pre) (received (sk s k)).
Proof.
  assert (E : option_map (fun s => (w_proc s, w_old s, received (sk s 0))) (wrun (w_init 2) C13_schedule) = Some (PKilled, [TAdd 0 0; TSave (0, 0)] ++ [TFatal (1, 0)], [])) by (vm_compute; reflexivity).
  destruct (wrun (w_init 2) C13_schedule) as [s|] eqn:R; [|discriminate]. cbn [option_map] in E. injection E as E1 E2 E3.
  exists s, [TAdd 0 0; TSave (0, 0)], (1, 0), 0. split; [eapply wrun_reach; eauto|]. split; [exact E1|]. split; [exact E2|]. split; [reflexivity|]. rewrite E3. cbn. intros [r H]. discriminate.
Qed.
Print Assumptions C13_flush_refuted.

(** ** C14 *)
(** two threads fail; the second finds no active logger and ends the process while the sink has not received anything *)
Definition C14_schedule : list waction := x_add 0 ++ x_log 0 ++ [AFatal 0; AGo 0; AGo 0] ++ x_one ++ [AWork; AFatal 1].
Theorem C14_flush_refuted : exists s pre m k, wrun (w_init 2) C14_schedule = Some s /\ w_proc s = PExit /\ w_old s = pre ++ [TFatal m] /\ registered k false pre = true /\ ~ prefix (window k false pre) (received (sk s k)).
Proof.
  assert (E : option_map (fun s => (w_proc s, w_old s, received (sk s 0))) (wrun (w_init 2) C14_schedule) = Some (PExit, [TAdd 0 0; TSave (0, 0)] ++ [TFatal (0, 1)], [])) by (vm_compute; reflexivity).
  destruct (wrun (w_init 2) C14_schedule) as [s|] eqn:R; [|discriminate]. cbn [option_map] in E. injection E as E1 E2 E3.
  exists s, [TAdd 0 0; TSave (0, 0)], (0, 1), 0. split; [reflexivity|]. split; [exact E1|]. split; [exact E2|]. split; [reflexivity|]. rewrite E3. cbn. intros [r H]. discriminate.
Qed.
Print Assumptions C14_flush_refuted.
(** what remains true, unless the logger is shut down or destroyed by somebody: everything logged before the first fatal message has been sent to the sinks' queues *)
Theorem C14_sent_partial : forall n l s, wrun (w_init n) l = Some s -> Forall no_shutdown l -> w_proc s = PExit ->
  exists pre m, w_old s = pre ++ [TFatal m] /\ (forall m', ~ In (TFatal m') pre) /\ forall k, prefix (window k false pre) (msgs (all (sk s k))).
Proof.
  intros n l s E F P. pose proof (wrun_reach n l s E) as R. pose proof (exit_fatal n l s E F P) as [m H]. destruct (reach_inv n s R) as [IA IB IP IT ID].
  destruct IP as [[_ QU]|(pre & t & O & QU & B)]; [destruct (QU _ H)|]. rewrite O in H. apply in_app_iff in H as [H|[->|[]]]; [destruct (QU _ H)|].
  exists pre, m. split; [exact O|]. split; [intros m' H; exact (QU _ H)|]. intro k. pose proof (b_win s IB k) as W. rewrite O, window_app in W. cbn [window] in W. rewrite app_nil_r in W. unfold sent in W.
  pose proof (a_send s IA) as SO. unfold sendok in SO. unfold pending in W.
  destruct B as [(todo & drop & Z & RG)|[(d & Z & RG)|(u & d & Z & RG)]]; rewrite Z in W, SO; [|rewrite app_nil_r in W; rewrite W; eexists; reflexivity..].
  destruct (has k todo) eqn:HK; [|rewrite app_nil_r in W; rewrite W; eexists; reflexivity].
  assert (RP : registered k false pre = true).
  { apply has_In, SO, in_app_iff in HK as [HK|HK]; [|now apply RG]. apply (b_on s IB) in HK. rewrite O, registered_app in HK. cbn [registered] in HK. discriminate. }
  rewrite RP in W. apply app_inj_tail in W as [-> _]. apply prefix_refl.
Qed.
Print Assumptions C14_sent_partial.
(** two failing threads whose messages both enter: only the first is handled, by C13_flush_partial everything before it is flushed *)
Example C14_ex :
  option_map (fun s => (w_proc s, received (sk s 0), logged (entered s)))
    (wrun (w_init 2) (x_add 0 ++ x_log 0 ++ [AFatal 0; AFatal 1; AGo 0; AGo 1; AGo 1; AGo 0] ++ x_one ++ [AWork; AWork; AWork; AWork] ++ x_sink 0 ++ x_sink 0 ++ [ASinkPop 0; ASinkEnd 0 (Val 0); ASinkExit 0; AWork; AWork]))
  = Some (PKilled, [(0, 0); (1, 0)], [(0, 0); (1, 0); (0, 1)]).
Proof. vm_compute. reflexivity. Qed.

(** ** C15 *)
(** client 0 has seen that logging is active; the fatal message of client 1 is handled; client 0 dereferences null *)
Definition C15_schedule : list waction := [ALog 0; AFatal 1; AGo 1; AGo 1; AWork; AGo 0].
Theorem C15_safe_refuted : exists s0 s, wreach 2 s0 /\ c_pc (cl s0 0) = CLog1 (0, 0) /\ w_active s0 = false /\ wstep s0 (AGo 0) = Some s /\ w_proc s = PUb.
Proof.
  assert (E : option_map (fun s => (c_pc (cl s 0), w_active s, option_map w_proc (wstep s (AGo 0)))) (wrun (w_init 2) [ALog 0; AFatal 1; AGo 1; AGo 1; AWork]) = Some (CLog1 (0, 0), false, Some PUb)) by (vm_compute; reflexivity).
  destruct (wrun (w_init 2) [ALog 0; AFatal 1; AGo 1; AGo 1; AWork]) as [s0|] eqn:R; [|discriminate]. cbn [option_map] in E. injection E as E1 E2 E3. destruct (wstep s0 (AGo 0)) as [s|] eqn:W; [|discriminate]. injection E3 as E3.
  exists s0, s. split; [eapply wrun_reach; eauto|]. auto.
Qed.
Print Assumptions C15_safe_refuted.
(** it happens only between the check and the use, when the logger has been deactivated, or destroyed, in between *)
Theorem C15_only_then_partial : forall s a s', wstep s a = Some s' -> w_proc s' = PUb ->
  exists i m, a = AGo i /\ ((w_active s = false /\ (c_pc (cl s i) = CLog1 m \/ c_pc (cl s i) = CFat1 m)) \/ (w_bg s = false /\ (c_pc (cl s i) = CLog2 m \/ c_pc (cl s i) = CFat2 m))).
Proof. exact ub_only. Qed.
Print Assumptions C15_only_then_partial.
(** without fatal events, shut down and destruction it cannot happen *)
Theorem C15_calm_partial : forall n l s, wrun (w_init n) l = Some s -> Forall calm_action l -> w_proc s = PRun \/ w_proc s = PTerm.
Proof. exact calm_run. Qed.
Print Assumptions C15_calm_partial.
Example C15_ex :
  option_map (fun s => (w_proc s, received (sk s 0))) (wrun (w_init 2) (x_add 0 ++ [ALog 0; ALog 1; AGo 1; AGo 0; AGo 0; AGo 1] ++ x_one ++ x_one ++ x_sink 0 ++ x_sink 0)) = Some (PRun, [(0, 0); (1, 0)]).
Proof. vm_compute. reflexivity. Qed.

(** C10 is not vacuous: sending to a destroyed sink, or destroying it again, is recorded *)
Theorem C10_detected : forall s k j, k_dead (sk s k) = true -> w_sinkub (push_sink s k j) = true /\ w_sinkub (destroy s k) = true.
Proof. intros s k j D. unfold push_sink, destroy. rewrite D. split; reflexivity. Qed.
Print Assumptions C10_detected.
Example C10_ex_detected :
  let s := set_sk (w_init 1) [with_dead new_sink] in
  w_sinkub (push_sink s 0 JDone) = true /\ w_sinkub (destroy s 0) = true /\ w_sinkub s = false.
Proof. repeat split; reflexivity. Qed.
