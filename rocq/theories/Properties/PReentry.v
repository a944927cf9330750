(** C87-C90: calls of the library from its own threads. *)
From Coq Require Import List Arith Bool Lia.
From Verif.Base Require Import Threads.
From Verif.Model Require Import Worker Reentry.
From Verif.Spec Require Import WorkerSpec ReentrySpec.
From Verif.Proofs Require Import WorkerLife WorkerHist WorkerBusy WorkerTok WorkerNum WorkerProm WorkerMeasure WorkerWait WorkerEnd WorkerTrace ReentryFacts.
From Verif.Properties Require Import PWorker.
Import ListNotations.

(** client 0 has a thread of its own, client 1 is code that runs on sink 0, client 2 is code that runs on the worker, client 3 has a thread of its own *)
Definition x_host (i : nat) : thread := match i with 1 => OnSink 0 | 2 => OnWorker | _ => OwnThread end.

(** ** C87 *)
(** what C05-C07 say of the sinks *)
Theorem C87_received : forall h n s k, rreach h n s ->
  prefix (received (sk s k)) (window k false (entered s)) /\ NoDup (received (sk s k)) /\ (forall k' a b, before a b (received (sk s k)) -> before b a (received (sk s k')) -> False).
Proof.
  intros h n s k R. destruct (rreach_view h n s R) as (s0 & W & [->| ->]).
  - split; [now apply (C05_received n)|]. split; [now apply (C05_once n)|]. intros k' a b. now apply (C07_common_order n).
  - change (sk (set_proc s0 PTerm) k) with (sk s0 k). change (entered (set_proc s0 PTerm)) with (entered s0). split; [now apply (C05_received n)|]. split; [now apply (C05_once n)|]. intros k' a b. exact (C07_common_order n s0 k k' a b W).
Qed.
Print Assumptions C87_received.
(** a log call, on whatever thread, returns after two steps of its own; the message has entered the worker's queue *)
Theorem C87_log_returns : forall h s i m, w_proc s = PRun -> w_active s = true -> w_bg s = true -> c_pc (cl s i) = CLog1 m ->
  exists s1 s2, rstep h s (AGo i) = Some s1 /\ rstep h s1 (AGo i) = Some s2 /\ c_pc (cl s2 i) = CIdle /\ w_q s2 = w_q s ++ [TSave m] /\ w_proc s2 = PRun.
Proof.
  intros h s i m P A B C. pose proof (cl_lt s i ltac:(rewrite C; discriminate)) as L. set (s1 := set_cpc s i (CLog2 m)).
  assert (C1 : c_pc (cl s1 i) = CLog2 m) by (unfold s1, set_cpc; now rewrite cl_set, Nat.eqb_refl).
  assert (L1 : i < length (w_cl s1)) by (unfold s1; cbn; now rewrite upd_length).
  exists s1, (set_cpc (push s1 (TSave m)) i CIdle). split; [|split; [|split; [|split]]].
  - unfold rstep, wstep, go. cbn [allowed self_join]. now rewrite C, P, A.
  - unfold rstep, wstep, go. cbn [allowed self_join]. rewrite C1. change (w_proc s1) with (w_proc s). change (w_bg s1) with (w_bg s). now rewrite P, B.
  - unfold set_cpc. rewrite cl_set, Nat.eqb_refl by exact L1. reflexivity.
  - reflexivity.
  - exact P.
Qed.
Print Assumptions C87_log_returns.
(** if no call on a library thread waits, the threads stop only when all calls have returned and all messages have been received *)
Theorem C87_released : forall h n s, rreach h n s -> w_proc s = PRun -> rstuck h s -> (forall i, h i <> OwnThread -> waits (c_pc (cl s i)) = false) ->
  (forall i, c_pc (cl s i) = CIdle \/ exists k, c_pc (cl s i) = DDone k) /\ w_q s = [] /\ (forall k, k_q (sk s k) = [] /\ k_run (sk s k) = None).
Proof.
  intros h n s R P ST NW. pose proof (rreach_run h n s R P) as W.
  assert (FR : forall i, h i <> OwnThread -> c_pc (cl s i) = CIdle).
  { intros i H. specialize (NW i H). specialize (ST (AGo i) eq_refl). unfold rstep in ST. cbn [allowed] in ST. destruct (c_pc (cl s i)) eqn:C; try discriminate NW; auto; exfalso;
      unfold self_join, wstep, go in ST; rewrite C, P in ST; cbn in ST; discriminate. }
  assert (FT : forall t, t <> OwnThread -> free h s t = true).
  { intros t T. unfold free. apply forallb_forall. intros i I. apply in_seq in I. destruct (same_thread (h i) t) eqn:S; [|reflexivity]. cbn [negb orb].
    unfold idle. rewrite (FR i) by (intro C; rewrite C in S; destruct t; discriminate). rewrite andb_true_r. apply Nat.ltb_lt. lia. }
  apply (C12_released n s W P). intros a G. specialize (ST a G). unfold rstep in ST.
  assert (AL : allowed h s a = true) by (destruct a; try discriminate G; cbn [allowed]; auto; apply FT; discriminate). rewrite AL in ST.
  destruct (self_join h s a) eqn:SJ; [|exact ST]. exfalso. unfold self_join in SJ. destruct a; try discriminate SJ.
  assert (H : h i <> OwnThread) by (intro C; rewrite C in SJ; destruct (c_pc (cl s i)); discriminate). rewrite (FR i H) in SJ. discriminate.
Qed.
Print Assumptions C87_released.
(** and they stop *)
Theorem C87_bounded : forall h n s, rreach h n s -> exists N, forall m s', rbsteps h m s s' -> m <= N.
Proof.
  intros h n s R. destruct (w_proc s) eqn:P; [|exists 0; intros m s' B; destruct (rb_done h m s s' B ltac:(congruence)); lia..].
  destruct (C12_bounded n s (rreach_run h n s R P)) as [N B]. exists (S N). intros m s' H. destruct (rb_b h m s s' H) as (m' & s1 & B1 & LE & _). specialize (B m' s1 B1). lia.
Qed.
Print Assumptions C87_bounded.
(** A client with a thread of its own is not held up: it may call whenever Model/Worker.v lets it, and a fatal event may happen to it at any moment.
    When all clients have threads of their own, this model is Model/Worker.v. *)
Theorem C87_own_thread : forall h s i, h i = OwnThread ->
  (forall a, a = ALog i \/ a = AFatal i \/ a = AAdd i \/ (exists k, a = ARemove i k) \/ a = ARemoveAll i \/ (exists k, a = ACall i k) \/ a = ADestroy i \/ a = AGo i ->
     rstep h s a = wstep s a) /\
  ((forall j, h j = OwnThread) -> forall a, rstep h s a = wstep s a).
Proof.
  intros h s i H.
  assert (O : forall t, (forall j, h j = OwnThread) -> free h s t = true).
  { intros t A. unfold free. apply forallb_forall. intros j _. now rewrite A. }
  split.
  - intros a [-> | [-> | [-> | [(k & ->) | [-> | [(k & ->) | [-> | ->]]]]]]]; unfold rstep; cbn [allowed self_join]; unfold may_call, may_fail; rewrite H; try reflexivity.
    destruct (c_pc (cl s i)); reflexivity.
  - intros A a. unfold rstep. destruct a; cbn [allowed self_join]; unfold may_call, may_fail; rewrite ?A, ?O by assumption; try reflexivity.
    destruct (c_pc (cl s _)); reflexivity.
Qed.
Print Assumptions C87_own_thread.
(** the receive function of sink 0 logs; the sink receives that message too *)
Example C87_ex :
  option_map (fun s => (received (sk s 0), w_proc s))
    (rrun x_host (w_init 4) (x_add 0 ++ x_log 0 ++ x_one ++ [ASinkPop 0; ALog 1; AGo 1; AGo 1; ASinkEnd 0 (Val 0)] ++ x_one ++ x_sink 0)) = Some ([(0, 0); (1, 0)], PRun).
Proof. vm_compute. reflexivity. Qed.
(** a log call on a sink's thread is possible only while the sink runs client code, and the sink waits for it *)
Example C87_ex_waits :
  (rrun x_host (w_init 4) (x_add 0 ++ [ALog 1]) = None) /\ (rrun x_host (w_init 4) (x_add 0 ++ x_log 0 ++ x_one ++ [ASinkPop 0; ALog 1; AGo 1; ASinkEnd 0 (Val 0)]) = None).
Proof. vm_compute. auto. Qed.

(** ** C88: management calls on library threads *)
(** the general shape of the deadlock: the worker joins the sink on whose thread a client waits for the worker *)
Theorem C88_deadlock : forall h n s i k l q, rreach h n s -> w_proc s = PRun -> h i = OnSink k -> asks_worker (c_pc (cl s i)) = true -> w_pc s = WJoin k l q ->
  forall s', rsteps h s s' -> w_pc s' = WJoin k l q /\ c_pc (cl s' i) = c_pc (cl s i) /\ w_old s' = w_old s /\ k_got (sk s' k) = k_got (sk s k) /\ w_proc s' <> PKilled.
Proof. exact deadlock_sink. Qed.
Print Assumptions C88_deadlock.
(** removeSink of the own sink, called by its receive function, does not return, unless somebody else owns or destroys the sink *)
Theorem C88_self_removal : forall h n s i k hist, rreach h n s -> w_proc s = PRun -> h i = OnSink k -> c_pc (cl s i) = CRmR k hist ->
  (exists j, In k (c_hold (cl s j))) \/ (exists j next, c_pc (cl s j) = CJoin k next) \/ (exists j h', j <> i /\ c_pc (cl s j) = CRmW k h').
Proof.
  intros h n s i k hist R P H C. pose proof (rreach_run h n s R P) as W. pose proof (reach_hosted h n s R i) as HO. unfold hosted1 in HO. rewrite H, C in HO. cbn [cls] in HO. destruct HO as [X _].
  destruct (hold_dec s k) as [E|NE]; [now left|]. destruct (join_dec s k) as [E|NJ]; [now right; left|]. destruct (rmw_dec s i k) as [E|NR]; [now right; right|]. exfalso.
  destruct (C08_destroyed_partial n s i k hist W C NE NJ NR) as (_ & X' & _). congruence.
Qed.
Print Assumptions C88_self_removal.
Definition C88_schedule : list waction := x_add 0 ++ x_log 0 ++ x_one ++ [ASinkPop 0; ARemove 1 0; AGo 1; AGo 1; AWork; AWork; AWork].
Theorem C88_remove_refuted : exists s, rrun x_host (w_init 4) C88_schedule = Some s /\ w_proc s = PRun /\
  forall s', rsteps x_host s s' -> (exists hist, c_pc (cl s' 1) = CRmW 0 hist) /\ w_pc s' = WJoin 0 [] (KTok 1) /\ w_old s' = w_old s.
Proof.
  assert (E : option_map (fun s => (w_proc s, c_pc (cl s 1), w_pc s)) (rrun x_host (w_init 4) C88_schedule) = Some (PRun, CRmW 0 [TAdd 0 0; TSave (0, 0)], WJoin 0 [] (KTok 1))) by (vm_compute; reflexivity).
  destruct (rrun x_host (w_init 4) C88_schedule) as [s|] eqn:R; [|discriminate]. cbn [option_map] in E. injection E as E1 E2 E3. exists s. split; [reflexivity|]. split; [exact E1|].
  intros s' S. destruct (C88_deadlock x_host 4 s 1 0 [] (KTok 1) (rrun_steps _ _ _ _ R) E1 eq_refl ltac:(now rewrite E2) E3 s' S) as (A & B & C & _). split; [|auto]. rewrite B, E2. eauto.
Qed.
Print Assumptions C88_remove_refuted.
(** on the thread of the worker no management call returns, and nothing that is logged is handed to a sink any more *)
Theorem C88_worker : forall h s i, h i = OnWorker -> asks_worker (c_pc (cl s i)) = true ->
  forall s', rsteps h s s' -> c_pc (cl s' i) = c_pc (cl s i) /\ w_pc s' = w_pc s /\ w_old s' = w_old s /\ (w_proc s <> PKilled -> w_proc s' <> PKilled).
Proof. exact deadlock_worker. Qed.
Print Assumptions C88_worker.
(** the destructor of the client's sink object removes all sinks *)
Example C88_worker_ex :
  option_map (fun s => (c_pc (cl s 2), w_q s, rstep x_host s AWork))
    (rrun x_host (w_init 4) (x_add 0 ++ [ARemove 0 0; AGo 0; AGo 0; AWork; AWork; AWork; ASinkPop 0; ASinkEnd 0 (Val 0); ASinkExit 0; ARemoveAll 2] ++ x_log 3)) = Some (CAllW, [TClear 2; TSave (3, 0)], None).
Proof. vm_compute. reflexivity. Qed.
(** addSink in a receive function does return, if nobody removes the sink meanwhile *)
Example C88_add_ex :
  option_map (fun s => (map c_pc (w_cl s), w_sinks s)) (rrun x_host (w_init 4) (x_add 0 ++ x_log 0 ++ x_one ++ [ASinkPop 0] ++ x_add 1 ++ [ASinkEnd 0 (Val 0)])) = Some ([CIdle; CIdle; CIdle; CIdle], [0; 1]).
Proof. vm_compute. reflexivity. Qed.

(** ** C89: fatal events on library threads *)
(** while a sink's thread waits in the fatal event, the process is killed only if somebody else keeps the sink from being destroyed *)
Theorem C89_sink : forall h n s i k pre m, rreach h n s -> h i = OnSink k -> c_pc (cl s i) = CFatBlock -> w_proc s = PKilled -> w_old s = pre ++ [TFatal m] ->
  nadd k pre = 0 \/ (exists j, In k (c_hold (cl s j))) \/ (exists j next, c_pc (cl s j) = CJoin k next).
Proof.
  intros h n s i k pre m R H C K O. assert (W : wreach n s) by (apply (rreach_wreach h n s R); congruence). pose proof (reach_hosted h n s R i) as HO. unfold hosted1 in HO. rewrite H, C in HO. cbn [cls] in HO.
  destruct (Nat.eq_dec (nadd k pre) 0) as [Z|Z]; [now left|]. destruct (hold_dec s k) as [E|NE]; [now right; left|]. destruct (join_dec s k) as [E|NJ]; [now right; right|]. exfalso.
  destruct (C13_flush_partial n s W K) as (pre' & m' & O' & _ & F). rewrite O in O'. apply app_inj_tail in O' as [<- _]. destruct (F k Z NE NJ) as [D _].
  pose proof (proj2 (C10_no_use_after_destruction n s W) k D) as (X & _). congruence.
Qed.
Print Assumptions C89_sink.
Definition C89_schedule : list waction := x_add 0 ++ x_log 0 ++ x_one ++ [ASinkPop 0; AFatal 1; AGo 1; AGo 1; AWork; AWork; AWork; AWork].
Theorem C89_sink_refuted : exists s, rrun x_host (w_init 4) C89_schedule = Some s /\ w_proc s = PRun /\ In (TFatal (1, 0)) (w_old s) /\
  forall s', rsteps x_host s s' -> w_proc s' <> PKilled /\ c_pc (cl s' 1) = CFatBlock /\ w_pc s' = WJoin 0 [] KKill /\ received (sk s' 0) = [].
Proof.
  assert (E : option_map (fun s => (w_proc s, c_pc (cl s 1), w_pc s, w_old s, k_got (sk s 0), k_exit (sk s 0))) (rrun x_host (w_init 4) C89_schedule) = Some (PRun, CFatBlock, WJoin 0 [] KKill, [TAdd 0 0; TSave (0, 0); TFatal (1, 0)], [], false)) by (vm_compute; reflexivity).
  destruct (rrun x_host (w_init 4) C89_schedule) as [s|] eqn:R; [|discriminate]. cbn [option_map] in E. injection E as E1 E2 E3 E4 E5 E6. exists s. split; [reflexivity|]. split; [exact E1|]. split; [rewrite E4; cbn; auto|].
  intros s' S. pose proof (rrun_steps _ _ _ _ R) as RR. destruct (C88_deadlock x_host 4 s 1 0 [] KKill RR E1 eq_refl ltac:(now rewrite E2) E3 s' S) as (A & B & C & G & D). split; [exact D|]. split; [congruence|]. split; [exact A|]. unfold received. now rewrite G, E5.
Qed.
Print Assumptions C89_sink_refuted.
(** a fatal event on the thread of the worker: nothing is flushed, the process is never killed, in all executions *)
Theorem C89_worker : forall h s i, h i = OnWorker -> c_pc (cl s i) = CFatBlock -> w_proc s = PRun ->
  forall s', rsteps h s s' -> w_proc s' <> PKilled /\ c_pc (cl s' i) = CFatBlock /\ w_old s' = w_old s.
Proof. intros h s i H C P s' S. destruct (C88_worker h s i H ltac:(now rewrite C) s' S) as (A & _ & B & D). split; [apply D; congruence|]. split; congruence. Qed.
Print Assumptions C89_worker.
Theorem C89_worker_refuted : exists s, rrun x_host (w_init 4) (x_add 0 ++ x_log 0 ++ [AFatal 2; AGo 2; AGo 2]) = Some s /\ In (TFatal (2, 0)) (entered s) /\
  forall s', rsteps x_host s s' -> w_proc s' <> PKilled /\ received (sk s' 0) = [].
Proof.
  assert (E : option_map (fun s => (w_proc s, c_pc (cl s 2), w_pc s, entered s, w_old s)) (rrun x_host (w_init 4) (x_add 0 ++ x_log 0 ++ [AFatal 2; AGo 2; AGo 2])) = Some (PRun, CFatBlock, WLoop, [TAdd 0 0; TSave (0, 0); TFatal (2, 0)], [TAdd 0 0])) by (vm_compute; reflexivity).
  destruct (rrun x_host (w_init 4) (x_add 0 ++ x_log 0 ++ [AFatal 2; AGo 2; AGo 2])) as [s|] eqn:R; [|discriminate]. cbn [option_map] in E. injection E as E1 E2 E3 E4 E5. exists s. split; [reflexivity|]. split; [rewrite E4; cbn; auto|].
  intros s' S. destruct (C89_worker x_host s 2 eq_refl E2 E1 s' S) as (A & _ & B). split; [exact A|].
  pose proof (rsteps_app _ _ _ _ (rrun_steps _ _ _ _ R) S) as RS. destruct (rreach_view x_host 4 s' RS) as (s0 & W & V).
  assert (PF : prefix (received (sk s' 0)) (window 0 false (w_old s'))).
  { assert (EQ : sk s' 0 = sk s0 0 /\ w_old s' = w_old s0) by (destruct V as [->| ->]; auto). destruct EQ as [-> ->]. pose proof (b_win s0 (reach_B 4 s0 W) 0) as BW. rewrite <- BW. unfold sent, all. rewrite !msgs_app. unfold received. eexists. rewrite <- !app_assoc. reflexivity. }
  rewrite B, E5 in PF. change (window 0 false [TAdd 0 0]) with (@nil msg) in PF. destruct PF as [r PF]. symmetry in PF. apply app_eq_nil in PF. apply PF.
Qed.
Print Assumptions C89_worker_refuted.
(** a fatal event on a client's thread, with the same sinks *)
Example C89_ex :
  option_map (fun s => (w_proc s, received (sk s 0))) (rrun x_host (w_init 4) (x_add 0 ++ x_log 0 ++ [AFatal 3; AGo 3; AGo 3] ++ x_one ++ [AWork; AWork; AWork; AWork] ++ x_sink 0 ++ x_sink 0 ++ [ASinkPop 0; ASinkEnd 0 (Val 0); ASinkExit 0; AWork; AWork]))
  = Some (PKilled, [(0, 0); (3, 0)]).
Proof. vm_compute. reflexivity. Qed.

(** ** C90: a sink that uses its own handle *)
(** the receive function of sink 0 calls a function of its own object through the handle, while client 0 removes the sink: the temporary shared_ptr is the last *)
Definition C90_schedule : list waction := x_add 0 ++ x_log 0 ++ x_one ++ [ASinkPop 0; ACall 1 0; AGo 1; ARemove 0 0; AGo 0; AGo 0; AWork; AWork; AWork; AWork; AGo 1].
Theorem C90_refuted : exists s s', rrun x_host (w_init 4) C90_schedule = Some s /\ w_proc s = PRun /\ c_pc (cl s 1) = CJoin 0 CIdle /\ rstep x_host s (AGo 1) = Some s' /\ w_proc s' = PTerm.
Proof.
  assert (E : option_map (fun s => (w_proc s, c_pc (cl s 1), option_map w_proc (rstep x_host s (AGo 1)))) (rrun x_host (w_init 4) C90_schedule) = Some (PRun, CJoin 0 CIdle, Some PTerm)) by (vm_compute; reflexivity).
  destruct (rrun x_host (w_init 4) C90_schedule) as [s|] eqn:R; [|discriminate]. cbn [option_map] in E. injection E as E1 E2 E3. destruct (rstep x_host s (AGo 1)) as [s'|] eqn:S; [|discriminate]. injection E3 as E3. exists s, s'. auto.
Qed.
Print Assumptions C90_refuted.
(** a thread that never owns its own sink does not join itself *)
Theorem C90_partial : forall h n l s, rrun h (w_init n) l = Some s -> Forall (own_handle_unused h) l -> forall i k next, h i = OnSink k -> c_pc (cl s i) <> CJoin k next.
Proof. exact no_self_join. Qed.
Print Assumptions C90_partial.
Example C90_ex :
  option_map (fun s => (w_proc s, c_pc (cl s 1), w_prom s)) (rrun x_host (w_init 4) (x_add 0 ++ x_add 0 ++ x_log 0 ++ x_one ++ [ASinkPop 0; ACall 1 1; AGo 1; AGo 1; ASinkEnd 0 (Val 0); ASinkPop 1])) = Some (PRun, CIdle, [(1, Pending)])
  /\ Forall (own_handle_unused x_host) [ASinkPop 0; ACall 1 1; AGo 1; AGo 1; ASinkEnd 0 (Val 0)].
Proof. split; [vm_compute; reflexivity|]. repeat constructor; cbn; congruence. Qed.
