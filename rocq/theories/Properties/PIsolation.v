(** C105-C107: sinks that throw or are slow, and what a LOG call waits for. *)
From Coq Require Import List Arith Bool Lia.
From Verif.Base Require Import Threads.
From Verif.Model Require Import Worker SharedQueue.
From Verif.Spec Require Import WorkerSpec QueueSpec IsolationSpec.
From Verif.Proofs Require Import QueueFacts WorkerLife WorkerHist WorkerBusy WorkerTok WorkerNum WorkerProm WorkerMeasure WorkerWait WorkerEnd WorkerTrace ReentryFacts.
From Verif.Properties Require Import PQueue PWorker.
Import ListNotations.

(** ** C105 *)
Lemma push_sink_proc : forall s k j, w_proc (push_sink s k j) = w_proc s.
Proof. intros. unfold push_sink. now destruct (k_dead (sk s k)). Qed.
Lemma term_only : forall s a s', wstep s a = Some s' -> w_proc s' = PTerm -> exists k e m, a = ASinkEnd k (Exc e) /\ k_run (sk s k) = Some (JMsg m).
Proof. intros s a s' E. scase E; try (sunf; cbn; intro; congruence). intros _. eauto. Qed.
(** std::terminate is called only when a receive function throws *)
Theorem C105_only_receive_partial : forall n s, wreach n s -> w_proc s = PTerm ->
  exists s0 k m e, wreach n s0 /\ w_proc s0 = PRun /\ k_run (sk s0 k) = Some (JMsg m) /\ wstep s0 (ASinkEnd k (Exc e)) = Some s.
Proof.
  intros n s R T. unfold wreach in R. remember (w_init n) as s0 eqn:E0. destruct R as [s0|s0 s1 a s2 R E]; subst s0.
  - discriminate.
  - destruct (term_only s1 a s2 E T) as (k & e & m & -> & K). exists s1, k, m, e. split; [exact R|]. split; [|auto]. apply (wstep_move _ _ _ E).
Qed.
Print Assumptions C105_only_receive_partial.
(** the message is lost for the other sink, and nothing more can happen *)
Theorem C105_refuted : exists s0 s k, wreach 1 s0 /\ w_proc s0 = PRun /\ wstep s0 (ASinkEnd 0 (Exc 7)) = Some s /\ k <> 0 /\
  received (sk s k) <> window k false (entered s) /\ forall a, wstep s a = None.
Proof.
  pose (l := x_add 0 ++ x_add 0 ++ x_log 0 ++ x_one ++ [AWork; ASinkPop 0]).
  destruct (wrun (w_init 1) l) as [s0|] eqn:E0; [|vm_compute in E0; discriminate].
  assert (X : option_map (fun s => (w_proc s, option_map (fun s' => (w_proc s', received (sk s' 1), window 1 false (entered s'))) (wstep s (ASinkEnd 0 (Exc 7))))) (wrun (w_init 1) l)
    = Some (PRun, Some (PTerm, [], [(0, 0)]))) by (vm_compute; reflexivity).
  rewrite E0 in X. cbn [option_map] in X. destruct (wstep s0 (ASinkEnd 0 (Exc 7))) as [s|] eqn:E1; [|discriminate]. cbn [option_map] in X.
  injection X as P0 P1 RC WD. exists s0, s, 1. split; [eapply wrun_reach; exact E0|]. rewrite RC, WD.
  split; [exact P0|]. split; [exact E1|]. split; [discriminate|]. split; [discriminate|].
  intro a. unfold wstep. now rewrite P1.
Qed.
Print Assumptions C105_refuted.

(** ** C106 *)
Lemma osteps_steps : forall slow n s s', osteps slow n s s' -> wsteps s s'.
Proof. intros slow n s s' O. induction O as [s|n s s1 a s2 O IH _ E]; [constructor|]. eapply ws_step; eauto. Qed.
Lemma others_bg : forall slow a, others slow a = true -> bg a = true.
Proof. intros slow [| | | | | | | | | | | | | | | ] H; try discriminate; reflexivity. Qed.
Lemma osteps_bsteps : forall slow n s s', osteps slow n s s' -> bsteps n s s'.
Proof. intros slow n s s' O. induction O as [s|n s s1 a s2 O IH G E]; [constructor|]. eapply bs_step; eauto. eapply others_bg; eauto. Qed.
Lemma osteps_cons : forall slow n s a s1 s2, others slow a = true -> wstep s a = Some s1 -> osteps slow n s1 s2 -> osteps slow (S n) s s2.
Proof.
  intros slow n s a s1 s2 G E O. revert s G E. induction O as [s1|n s1 s3 b s2 O IH H F]; intros s G E.
  - eapply os_step; [constructor|exact G|exact E].
  - eapply os_step; [apply IH; eauto|exact H|exact F].
Qed.

(** nobody is being removed *)
Definition smooth (s : wstate) : Prop :=
  forallb plain (w_q s) = true /\
  match w_pc s with
  | WLoop => True
  | WSend _ _ [] KLoop => True
  | WDrop l KLoop => incl l (w_sinks s)
  | WTok _ l => incl l (w_sinks s)
  | _ => False
  end.
Lemma refs_in : forall s k, In k (w_sinks s) -> refs s k <> 0.
Proof. intros s k I. unfold refs. apply cnt_In in I. lia. Qed.
Lemma smooth_step : forall slow s a s', others slow a = true -> smooth s -> wstep s a = Some s' -> smooth s' /\ entered s' = entered s.
Proof.
  intros slow s a s' G [Q W] E. unfold wstep in E. destruct (w_proc s); try discriminate.
  destruct a as [|k|k o|k| | | | | | | | | | | |]; try discriminate; clear G.
  - unfold work in E. destruct (w_pc s) as [|m todo drop q|l q|k l q|i f|]; try contradiction.
    + unfold entered. destruct (w_q s) as [|t r]; [discriminate|]. cbn [forallb] in Q. apply andb_prop in Q as [T Q]. injection E as <-.
      assert (EN : (w_old s ++ [t]) ++ r = w_old s ++ t :: r) by now rewrite <- app_assoc.
      destruct t as [m|m|i k|i k|i|]; try discriminate T; (split; [split; [exact Q|]|exact EN]).
      * exact I.
      * cbn. intros x [<-|[]]. apply in_or_app. right. now left.
    + destruct drop as [|]; [|destruct q; contradiction]. destruct q; try contradiction. destruct todo as [|k todo]; injection E as <-.
      * split; [|reflexivity]. split; [exact Q|]. cbn. intros x [].
      * unfold push_sink. destruct (k_dead (sk s k)); (split; [split; [exact Q|exact I]|reflexivity]).
    + destruct q as [| |]; try contradiction. destruct l as [|k l]; injection E as <-.
      * split; [split; [exact Q|exact I]|reflexivity].
      * assert (Z : Nat.eqb (refs (set_pc s (WDrop l KLoop)) k) 0 = false).
        { apply Nat.eqb_neq. apply refs_in. cbn [set_pc w_sinks]. apply W. now left. }
        rewrite Z. split; [|reflexivity]. split; [exact Q|]. cbn. intros x J. apply W. now right.
    + injection E as <-. split; [|reflexivity]. split; [exact Q|]. cbn. exact W.
  - unfold sink_pop in E. destruct (k_run (sk s k)); [discriminate|]; destruct (k_q (sk s k)); [discriminate|]; destruct (k_done (sk s k)); [discriminate|]. injection E as <-. split; [split; assumption|reflexivity].
  - unfold sink_end in E. destruct (k_run (sk s k)) as [[m|c|]|]; try discriminate; injection E as <-; try destruct o; (split; [split; assumption|reflexivity]).
  - unfold sink_exit in E. destruct (_ && _); [|discriminate]. injection E as <-. split; [split; assumption|reflexivity].
Qed.
Lemma smooth_steps : forall slow n s s', osteps slow n s s' -> smooth s -> smooth s' /\ entered s' = entered s.
Proof.
  intros slow n s s' O. induction O as [s|n s s1 a s2 O IH G E]; intro H; [auto|]. destruct (IH H) as [H1 E1]. destruct (smooth_step slow s1 a s2 G H1 E) as [H2 E2]. split; [exact H2|congruence].
Qed.
Lemma serving_smooth : forall s, forallb plain (w_q s) = true -> serving (w_pc s) = true -> smooth s.
Proof. intros s Q W. split; [exact Q|]. destruct (w_pc s) as [|m t [|x d] [| |]| | | |]; try discriminate; exact I. Qed.
Lemma quiet_received : forall n slow s, wreach n s -> w_proc s = PRun -> smooth s -> oquiet slow s ->
  forall k, slow k = false -> received (sk s k) = window k false (entered s).
Proof.
  intros n slow s R P [_ W] QT k SL. pose proof (QT AWork eq_refl) as E. unfold wstep in E. rewrite P in E. unfold work in E.
  assert (WP : w_pc s = WLoop /\ w_q s = []).
  { destruct (w_pc s) as [|m [|k1 todo] drop q|[|k1 l] q|k1 l q|i f|]; try contradiction; try discriminate.
    - destruct (w_q s); [auto|discriminate].
    - destruct q; discriminate. }
  destruct WP as [WP WQ]. apply (C05_all n); auto.
  - rewrite WP. discriminate.
  - assert (E1 : wstep s (ASinkEnd k (Val 0)) = None) by (apply QT; cbn; now rewrite SL). assert (E2 : wstep s (ASinkPop k) = None) by (apply QT; cbn; now rewrite SL).
    unfold wstep in E1, E2. rewrite P in E1, E2. unfold sink_end in E1. unfold sink_pop in E2. destruct (k_run (sk s k)) eqn:K; [discriminate|]. destruct (k_q (sk s k)) as [|j q] eqn:KQ; [reflexivity|].
    destruct (k_done (sk s k)) eqn:D; [|discriminate]. exfalso. pose proof (reach_A n s R) as IA. destruct (Nat.lt_ge_cases k (length (w_sk s))) as [L|L]; [|rewrite sk_out in KQ by exact L; discriminate].
    destruct (k_of s k IA L) as [a b c d e f]. unfold all in b. rewrite K, KQ in b. cbn [app] in b. rewrite has_done_app, <- d in b. rewrite D in b. destruct (b eq_refl) as (l & EL & N).
    destruct (exists_last (l := j :: q) ltac:(discriminate)) as (q' & x & E'). rewrite E', app_assoc in EL. apply app_inj_tail in EL as [EL _].
    rewrite <- EL, has_done_app, <- d, D in N. discriminate.
  - assert (E1 : wstep s (ASinkEnd k (Val 0)) = None) by (apply QT; cbn; now rewrite SL). unfold wstep in E1. rewrite P in E1. unfold sink_end in E1. now destruct (k_run (sk s k)).
Qed.

(** the steps that the others can take *)
Definition onext (slow : nat -> bool) (s : wstate) : option waction :=
  find (fun a => match wstep s a with Some _ => others slow a | None => false end) (candidates s).
Lemma onext_some : forall slow s a, onext slow s = Some a -> others slow a = true /\ exists s', wstep s a = Some s'.
Proof. intros slow s a H. apply find_some in H as [_ H]. destruct (wstep s a) as [s'|]; [eauto|discriminate]. Qed.
Lemma onext_none : forall slow s, onext slow s = None -> oquiet slow s.
Proof.
  intros slow s H a G. assert (F : forall b, In b (candidates s) -> others slow b = true -> wstep s b = None).
  { intros b I O. pose proof (find_none _ _ H b I) as N. cbn beta in N. destruct (wstep s b); [congruence|reflexivity]. }
  assert (SKI : forall k b, k < length (w_sk s) -> In b [ASinkPop k; ASinkEnd k (Val 0); ASinkExit k] -> others slow b = true -> wstep s b = None).
  { intros k b L I O. apply F; [|exact O]. right. apply in_or_app. left. apply in_flat_map. exists k. split; [apply in_seq; lia|exact I]. }
  destruct a as [|k|k o|k|i|i|i|i|i k|i|i k|i k|i k|i| |]; try discriminate.
  - apply F; [now left|reflexivity].
  - destruct (Nat.lt_ge_cases k (length (w_sk s))) as [L|L]; [apply (SKI k); cbn; auto|]. unfold wstep. destruct (w_proc s); auto. unfold sink_pop. rewrite sk_out by exact L. reflexivity.
  - destruct (Nat.lt_ge_cases k (length (w_sk s))) as [L|L].
    + assert (E : wstep s (ASinkEnd k (Val 0)) = None) by (apply (SKI k); cbn; auto). unfold wstep in *. destruct (w_proc s); auto. unfold sink_end in *. destruct (k_run (sk s k)); [discriminate|reflexivity].
    + unfold wstep. destruct (w_proc s); auto. unfold sink_end. rewrite sk_out by exact L. reflexivity.
  - destruct (Nat.lt_ge_cases k (length (w_sk s))) as [L|L]; [apply (SKI k); cbn; auto|]. unfold wstep. destruct (w_proc s); auto. unfold sink_exit. rewrite sk_out by exact L. reflexivity.
Qed.
Lemma candidate_run : forall slow s a s', onext slow s = Some a -> smooth s -> wstep s a = Some s' -> w_proc s' = PRun.
Proof.
  intros slow s a s' H [_ SM] E. apply find_some in H as [I H]. rewrite E in H. unfold wstep in E. destruct (w_proc s) eqn:P; try discriminate.
  destruct I as [<-|I]; [|apply in_app_iff in I as [I|I]].
  - unfold work in E. destruct (w_pc s) as [|m [|k l] drop q|[|k l] q|k l q|i f|]; try contradiction.
    + destruct (w_q s) as [|[m|m|i k|i k|i|] r]; try discriminate; injection E as <-; try exact P. destruct (Nat.eqb _ _); exact P.
    + injection E as <-. exact P.
    + injection E as <-. cbn [set_pc w_proc]. now rewrite push_sink_proc.
    + destruct q; try contradiction; injection E as <-; exact P.
    + injection E as <-. destruct (Nat.eqb _ 0); cbn [set_pc w_proc]; [rewrite push_sink_proc|]; exact P.
    + injection E as <-. exact P.
  - apply in_flat_map in I as (k & _ & [<-|[<-|[<-|[]]]]).
    + unfold sink_pop in E. destruct (k_run (sk s k)); [discriminate|]; destruct (k_q (sk s k)); [discriminate|]; destruct (k_done (sk s k)); [discriminate|]; injection E as <-; exact P.
    + unfold sink_end in E. destruct (k_run (sk s k)) as [[m|c|]|]; try discriminate; injection E as <-; exact P.
    + unfold sink_exit in E. destruct (_ && _); [|discriminate]. injection E as <-. exact P.
  - apply in_map_iff in I as (i & <- & _). discriminate.
Qed.
(** Some sinks do not go on.  As long as nobody is being removed, the worker and the other sinks reach, in a bounded number of steps, a state in which
    those sinks have received everything that was logged. *)
Theorem C106_others_partial : forall n s slow, wreach n s -> w_proc s = PRun -> forallb plain (w_q s) = true -> serving (w_pc s) = true ->
  (exists N, forall m s', osteps slow m s s' -> m <= N) /\
  (exists m s', osteps slow m s s' /\ w_proc s' = PRun /\ oquiet slow s') /\
  forall m s', osteps slow m s s' -> w_proc s' = PRun -> oquiet slow s' ->
    forall k, slow k = false -> received (sk s' k) = window k false (entered s).
Proof.
  intros n s slow R P Q W. pose proof (serving_smooth s Q W) as SM. split; [|split].
  - destruct (C12_bounded n s R) as [N B]. exists N. intros m s' O. apply (B m s'). eapply osteps_bsteps; eauto.
  - clear Q W. remember (phi s) as p eqn:E. revert s R P SM E. induction p as [p IH] using lt_wf_ind. intros s R P SM ->.
    destruct (onext slow s) as [a|] eqn:NX.
    + destruct (onext_some slow s a NX) as (G & s1 & E). destruct (reach_inv n s R) as [IA IB IP IT ID]. pose proof (bg_phi s a s1 IA IB IT (others_bg _ _ G) E) as LT.
      assert (R1 : wreach n s1) by (eapply reach_steps; [exact R|]; eapply ws_step; [constructor|exact E]).
      destruct (smooth_step slow s a s1 G SM E) as [SM1 _]. pose proof (candidate_run slow s a s1 NX SM E) as P1.
      destruct (IH (phi s1) LT s1 R1 P1 SM1 eq_refl) as (m & s' & B & ST). exists (S m), s'. split; [|exact ST]. eapply osteps_cons; eauto.
    + exists 0, s. split; [constructor|]. split; [exact P|]. now apply onext_none.
  - intros m s' O P' QT k SL. destruct (smooth_steps slow m s s' O SM) as [SM' EN]. rewrite <- EN.
    apply (quiet_received n slow); auto. eapply reach_steps; [exact R|]. eapply osteps_steps; eauto.
Qed.
Print Assumptions C106_others_partial.
(** sink 0 is in its receive function for good; sink 1 gets the three messages *)
Example C106_ex :
  option_map (fun s => (k_run (sk s 0), k_q (sk s 0), received (sk s 1), serving (w_pc s), w_q s))
    (wrun (w_init 1) (x_add 0 ++ x_add 0 ++ x_log 0 ++ x_one ++ [AWork; ASinkPop 0] ++ x_log 0 ++ x_log 0 ++ x_one ++ [AWork] ++ x_one ++ [AWork] ++ x_sink 1 ++ x_sink 1 ++ x_sink 1))
  = Some (Some (JMsg (0, 0)), [JMsg (0, 1); JMsg (0, 2)], [(0, 0); (0, 1); (0, 2)], true, []).
Proof. vm_compute. reflexivity. Qed.
(** sink 0 does not return from its receive function while it is being removed: nothing reaches sink 1 any more *)
Theorem C106_refuted : exists s, wreach 2 s /\ w_proc s = PRun /\ k_run (sk s 0) <> None /\
  (forall a, bg a = true -> own 0 a = false -> wstep s a = None) /\
  registered 1 false (entered s) = true /\ received (sk s 1) = [] /\ window 1 false (entered s) = [(1, 0)].
Proof.
  pose (l := x_add 0 ++ x_log 0 ++ x_one ++ [ASinkPop 0] ++ x_add 0 ++ x_remove 0 0 ++ x_log 1).
  destruct (wrun (w_init 2) l) as [s|] eqn:E0; [|vm_compute in E0; discriminate].
  assert (X : option_map (fun s => (w_proc s, k_run (sk s 0), registered 1 false (entered s), received (sk s 1), window 1 false (entered s), w_pc s, map c_pc (w_cl s), map k_exit (w_sk s), sk s 1)) (wrun (w_init 2) l)
    = Some (PRun, Some (JMsg (0, 0)), true, [], [(1, 0)], WJoin 0 [] (KTok 0), [CRmW 0 [TAdd 0 0; TSave (0, 0); TAdd 0 1]; CIdle], [false; false], new_sink)) by (vm_compute; reflexivity).
  rewrite E0 in X. cbn [option_map] in X. injection X as P KR RG RC WD WP CL KX S1.
  exists s. split; [eapply wrun_reach; exact E0|]. rewrite KR.
  split; [exact P|]. split; [discriminate|]. split; [|split; [exact RG|split; [exact RC|exact WD]]].
  assert (X0 : k_exit (sk s 0) = false). { unfold sk, get. destruct (w_sk s) as [|x r]; cbn [map] in KX; [discriminate|]. cbn [nth]. now injection KX. }
  assert (LN : length (w_sk s) = 2) by (rewrite <- (map_length k_exit), KX; reflexivity).
  clear E0 l. intros a G O. unfold wstep. rewrite P. destruct a as [|k|k o|k|i| | | | | | | | | | |]; try discriminate.
  - unfold work. now rewrite WP, X0.
  - destruct k as [|[|k]]; [discriminate|unfold sink_pop; now rewrite S1|unfold sink_pop; rewrite sk_out by lia; reflexivity].
  - destruct k as [|[|k]]; [discriminate|unfold sink_end; now rewrite S1|unfold sink_end; rewrite sk_out by lia; reflexivity].
  - destruct k as [|[|k]]; [discriminate|unfold sink_exit; now rewrite S1|unfold sink_exit; rewrite sk_out by lia; reflexivity].
  - assert (C : c_pc (cl s i) = nth i (map c_pc (w_cl s)) CIdle) by (unfold cl, get; change CIdle with (c_pc new_client); now rewrite map_nth).
    unfold go. rewrite C, CL. destruct i as [|[|i]]; try reflexivity. cbn. now destruct i.
Qed.
Print Assumptions C106_refuted.
(** In general: while the worker waits for a sink that it is removing and whose thread does not go on, nothing of what is still in the worker's queue or
    is logged later reaches any sink, whatever all the others do, and the worker takes nothing more out of its queue. *)
Lemma held_up : forall k l q acts s s', w_pc s = WJoin k l q -> k_exit (sk s k) = false ->
  (forall a, In a acts -> own k a = false) -> wrun s acts = Some s' ->
  w_pc s' = WJoin k l q /\ k_exit (sk s' k) = false /\ w_old s' = w_old s.
Proof.
  intros k l q acts. induction acts as [|a acts IH]; intros s s' P X O E.
  - injection E as <-. auto.
  - cbn [wrun] in E. destruct (wstep s a) as [s1|] eqn:E1; [|discriminate].
    assert (N : a <> AWork). { intros ->. unfold wstep in E1. destruct (w_proc s); try discriminate. unfold work in E1. rewrite P, X in E1. discriminate. }
    destruct (keep_sink s a s1 k E1 (O a (or_introl eq_refl)) X) as [X1 _]. pose proof (step_pc s a s1 E1 N) as P1. destruct (step_oldq s a s1 E1 N) as [O1 _].
    rewrite <- O1. apply (IH s1 s'); auto; [congruence|]. intros b I. apply O. now right.
Qed.
Theorem C106_held_up_partial : forall n s k l q acts s', wreach n s -> w_pc s = WJoin k l q -> k_exit (sk s k) = false ->
  (forall a, In a acts -> own k a = false) -> wrun s acts = Some s' ->
  w_pc s' = WJoin k l q /\ w_old s' = w_old s /\
  forall j, prefix (received (sk s' j)) (window j false (w_old s)) /\ prefix (window j false (w_old s)) (window j false (entered s')).
Proof.
  intros n s k l q acts s' R P X O E. destruct (held_up k l q acts s s' P X O E) as (P' & _ & O'). split; [exact P'|]. split; [exact O'|].
  assert (R' : wreach n s') by (eapply reach_steps; [exact R|]; eapply wrun_steps; exact E).
  destruct (reach_inv n s' R') as [_ IB _ _ _]. intro j. split.
  - rewrite <- O', <- (b_win s' IB j). unfold sent, all. rewrite msgs_app. unfold received. eexists. rewrite <- !app_assoc. reflexivity.
  - unfold entered. rewrite window_app, O'. eexists. reflexivity.
Qed.
Print Assumptions C106_held_up_partial.
(** two messages are logged while the worker waits for sink 0: they stay in the queue *)
Example C106_held_up_ex :
  option_map (fun s => (w_pc s, k_exit (sk s 0), received (sk s 1), window 1 false (w_old s), window 1 false (entered s)))
    (wrun (w_init 2) ((x_add 0 ++ x_log 0 ++ x_one ++ [ASinkPop 0] ++ x_add 0 ++ x_remove 0 0) ++ x_log 1 ++ x_log 1))
  = Some (WJoin 0 [] (KTok 0), false, [], [], [(1, 0); (1, 1)]).
Proof. vm_compute. reflexivity. Qed.

(** ** C107 *)
(** nothing that other threads do changes where a logging client is *)
Lemma log_pc_stays : forall s a s' i m, wstep s a = Some s' -> a <> AGo i -> (c_pc (cl s i) = CLog1 m \/ c_pc (cl s i) = CLog2 m) -> c_pc (cl s' i) = c_pc (cl s i).
Proof.
  intros s a s' i m E N P. assert (SG : signal (c_pc (cl s i)) = c_pc (cl s i)) by (destruct P as [-> | ->]; reflexivity).
  assert (NI : idle s i = false) by (unfold idle; destruct P as [-> | ->]; apply andb_false_r).
  destruct a as [|k|k o|k|j|j|j|j|j k|j|j k|j k|j k|j| |]; try (now rewrite (step_cl s _ s' i E) by (discriminate)).
  - destruct (work_hold s s' i E) as [_ [W|W]]; congruence.
  - rewrite (step_cl s _ s' i E); auto; try discriminate. cbn. congruence.
  - destruct (Nat.eq_dec j i) as [->|NE]; [unfold wstep in E; rewrite NI in E; destruct (w_proc s); discriminate|]. rewrite (step_cl s _ s' i E); auto; try discriminate. cbn. congruence.
  - destruct (Nat.eq_dec j i) as [->|NE]; [unfold wstep in E; rewrite NI in E; destruct (w_proc s); discriminate|]. rewrite (step_cl s _ s' i E); auto; try discriminate. cbn. congruence.
  - destruct (Nat.eq_dec j i) as [->|NE]; [unfold wstep in E; rewrite NI in E; destruct (w_proc s); discriminate|]. rewrite (step_cl s _ s' i E); auto; try discriminate. cbn. congruence.
  - destruct (Nat.eq_dec j i) as [->|NE]; [unfold wstep in E; rewrite NI in E; destruct (w_proc s); discriminate|]. rewrite (step_cl s _ s' i E); auto; try discriminate. cbn. congruence.
  - destruct (Nat.eq_dec j i) as [->|NE]; [unfold wstep in E; rewrite NI in E; destruct (w_proc s); discriminate|]. rewrite (step_cl s _ s' i E); auto; try discriminate. cbn. congruence.
  - destruct (Nat.eq_dec j i) as [->|NE]; [unfold wstep in E; rewrite NI in E; destruct (w_proc s); discriminate|]. rewrite (step_cl s _ s' i E); auto; try discriminate. cbn. congruence.
  - destruct (Nat.eq_dec j i) as [->|NE]; [unfold wstep in E; rewrite NI in E; destruct (w_proc s); discriminate|]. rewrite (step_cl s _ s' i E); auto; try discriminate. cbn. congruence.
  - destruct (Nat.eq_dec j i) as [->|NE]; [unfold wstep in E; rewrite NI in E; destruct (w_proc s); discriminate|]. rewrite (step_cl s _ s' i E); auto; try discriminate. cbn. congruence.
  - destruct (Nat.eq_dec j i) as [->|NE]; [unfold wstep in E; rewrite NI in E; destruct (w_proc s); discriminate|]. rewrite (step_cl s _ s' i E); auto; try discriminate. cbn. congruence.
Qed.

(** A LOG call is over after exactly two steps of its own thread (reading g_logger_instance, queueing); each of them is possible at once,
    whatever the worker, the sinks and the other threads do or do not do in between. *)
Theorem C107_log_own_steps : forall n s i s1 l s2, wreach n s -> w_active s = true -> wstep s (ALog i) = Some s1 -> wrun s1 l = Some s2 -> w_proc s2 = PRun ->
  (forall a, In a l -> calls i a = false) ->
  steps_of i l <= 2 /\ (steps_of i l = 2 <-> c_pc (cl s2 i) = CIdle) /\ (steps_of i l < 2 -> exists s3, wstep s2 (AGo i) = Some s3).
Proof.
  intros n s i s1 l s2 R A E0 W P2 NC.
  set (m := (i, c_n (cl s i))).
  assert (P1 : c_pc (cl s1 i) = CLog1 m).
  { unfold wstep in E0. destruct (w_proc s); try discriminate. destruct (idle s i) eqn:ID; [|discriminate]. rewrite A in E0. injection E0 as <-.
    apply idle_spec in ID as [L _]. unfold count_log, cl. cbn [set_cl w_cl]. rewrite (get_upd_same new_client) by exact L. reflexivity. }
  clear E0 A R n.
  assert (G : forall l s1, wrun s1 l = Some s2 -> (forall a, In a l -> calls i a = false) ->
    (c_pc (cl s1 i) = CIdle -> steps_of i l = 0 /\ c_pc (cl s2 i) = CIdle) /\
    (c_pc (cl s1 i) = CLog2 m -> steps_of i l = 0 /\ c_pc (cl s2 i) = CLog2 m \/ steps_of i l = 1 /\ c_pc (cl s2 i) = CIdle) /\
    (c_pc (cl s1 i) = CLog1 m -> steps_of i l = 0 /\ c_pc (cl s2 i) = CLog1 m \/ steps_of i l = 1 /\ c_pc (cl s2 i) = CLog2 m \/ steps_of i l = 2 /\ c_pc (cl s2 i) = CIdle)).
  { clear l W NC s1 P1. induction l as [|a l IH]; intros s1 W NC; cbn [wrun] in W; [injection W as ->; tauto|].
    destruct (wstep s1 a) as [s'|] eqn:E; [|discriminate]. specialize (IH s' W (fun b I => NC b (or_intror I))). pose proof (NC a (or_introl eq_refl)) as N.
    destruct IH as (IH0 & IH2 & IH1).
    destruct (match a with AGo j => Nat.eqb j i | _ => false end) eqn:AG.
    - destruct a as [| | | |j| | | | | | | | | | |]; try discriminate. apply Nat.eqb_eq in AG as ->.
      assert (ST : steps_of i (AGo i :: l) = S (steps_of i l)) by (unfold steps_of; cbn [filter]; now rewrite Nat.eqb_refl). rewrite ST.
      pose proof E as E'. unfold wstep in E. destruct (w_proc s1) eqn:P; try discriminate. unfold go in E.
      assert (NB : forall t, s' <> set_proc t PUb).
      { intros t ->. destruct l as [|b l]; cbn [wrun] in W; [injection W as <-; discriminate|]. unfold wstep in W. cbn [set_proc w_proc] in W. discriminate. }
      assert (L : c_pc (cl s1 i) <> CIdle -> i < length (w_cl s1)).
      { intro H. destruct (Nat.lt_ge_cases i (length (w_cl s1))) as [L|L]; [exact L|]. exfalso. apply H. unfold cl. now rewrite get_out. }
      split; [|split]; intro C; rewrite C in E.
      + discriminate.
      + destruct (w_bg s1); injection E as <-; [|now destruct (NB s1)]. right.
        destruct (IH0) as [Z1 Z2]; [|rewrite Z1; auto]. unfold cl. cbn [set_cpc set_cl push w_cl]. rewrite (get_upd_same new_client) by (apply L; congruence). reflexivity.
      + destruct (w_active s1); injection E as <-; [|now destruct (NB s1)]. right.
        destruct IH2 as [[Z1 Z2]|[Z1 Z2]]; [|rewrite Z1; auto..]. unfold cl. cbn [set_cpc set_cl w_cl]. rewrite (get_upd_same new_client) by (apply L; congruence). reflexivity.
    - assert (ST : steps_of i (a :: l) = steps_of i l) by (unfold steps_of; cbn [filter]; now rewrite AG). rewrite ST.
      assert (NA : a <> AGo i) by (intros ->; rewrite Nat.eqb_refl in AG; discriminate).
      split; [|split]; intro C.
      + apply IH0. destruct (Nat.eq_dec 0 0) as [_|]; [|contradiction].
        assert (X : c_pc (cl s' i) = c_pc (cl s1 i) \/ c_pc (cl s' i) = signal (c_pc (cl s1 i))).
        { destruct a as [|k|k o|k|j|j|j|j|j k|j|j k|j k|j k|j| |]; cbn [calls] in N; try (apply Nat.eqb_neq in N); try (left; rewrite (step_cl s1 _ s' i E); [reflexivity|discriminate|cbn; congruence]).
          now apply (work_hold s1 s' i E). }
        destruct X as [X|X]; rewrite X, C; reflexivity.
      + apply IH2. rewrite <- C. apply (log_pc_stays s1 a s' i m E NA). auto.
      + apply IH1. rewrite <- C. apply (log_pc_stays s1 a s' i m E NA). auto. }
  destruct (G l s1 W NC) as (_ & _ & G1). destruct (G1 P1) as [[Z1 Z2]|[[Z1 Z2]|[Z1 Z2]]]; rewrite Z1, Z2.
  - split; [lia|]. split; [split; [lia|discriminate]|]. intros _. unfold wstep. rewrite P2. unfold go. rewrite Z2. eauto.
  - split; [lia|]. split; [split; [lia|discriminate]|]. intros _. unfold wstep. rewrite P2. unfold go. rewrite Z2. eauto.
  - split; [lia|]. split; [tauto|lia].
Qed.
Print Assumptions C107_log_own_steps.
(** sink 0 hangs, the worker hangs in its removal; the LOG call still returns *)
Example C107_ex :
  option_map (fun s => (w_pc s, map c_pc (w_cl s), w_q s))
    (wrun (w_init 2) (x_add 0 ++ x_log 0 ++ x_one ++ [ASinkPop 0] ++ x_remove 0 0 ++ x_log 1))
  = Some (WJoin 0 [] (KTok 0), [CRmW 0 [TAdd 0 0; TSave (0, 0)]; CIdle], [TSave (1, 0)]).
Proof. vm_compute. reflexivity. Qed.

(** queueing waits for the mutex only, and the thread that has the mutex never waits: it lets go of it after at most three steps of its own *)
Theorem C107_mutex : forall A n (s : qstate A) u, qreach n s -> q_owner s = Some u ->
  0 < todo (pc s u) /\ exists s', qstep s (Step u) = Some s' /\ (q_owner s' = None \/ q_owner s' = Some u /\ todo (pc s' u) < todo (pc s u)).
Proof.
  intros A n s u R O. pose proof (QInv_reach n s R) as I. pose proof (proj2 (i_owner s I u) O) as H.
  assert (L : u < length (q_pcs s)). { destruct (Nat.lt_ge_cases u (length (q_pcs s))) as [L|L]; [exact L|]. unfold pc in H. rewrite get_out in H by exact L. discriminate. }
  assert (PG : forall (t : qstate A) p, length (q_pcs t) = length (q_pcs s) -> pc (goto t u p) u = p) by (intros t p E; unfold pc, goto; cbn [q_pcs]; apply (get_upd_same (SharedQueue.Idle None)); now rewrite E).
  destruct (pc s u) as [r|o|o| | |b|r b|] eqn:P; cbn [holds] in H; try discriminate H; (split; [cbn; lia|]); unfold qstep; rewrite P.
  - exists (body s u o). split; [reflexivity|]. unfold body. destruct o as [x| | | |].
    + right. split; [exact O|]. rewrite PG by reflexivity. cbn; lia.
    + destruct (q_content s) as [|x c].
      * left. unfold unlock. rewrite O, Nat.eqb_refl. reflexivity.
      * right. split; [exact O|]. rewrite PG by reflexivity. cbn; lia.
    + destruct (q_content s) as [|x c]; right; (split; [exact O|]); rewrite PG by reflexivity; cbn; lia.
    + right. split; [exact O|]. rewrite PG by reflexivity. cbn; lia.
    + right. split; [exact O|]. rewrite PG by reflexivity. cbn; lia.
  - pose proof (i_take s I u b P) as NE. destruct (q_content s) as [|x c]; [congruence|]. eexists. split; [reflexivity|]. right. split; [exact O|]. rewrite PG by reflexivity. cbn; lia.
  - eexists. split; [reflexivity|]. left. unfold unlock. rewrite O, Nat.eqb_refl. destruct b; reflexivity.
Qed.
Print Assumptions C107_mutex.
(** a thread in push can go on at once unless another thread has the mutex *)
Theorem C107_push : forall A n (s : qstate A) t, qreach n s ->
  match pc s t with
  | Lock (OPush x) => q_owner s = None -> exists s', qstep s (Step t) = Some s' /\ pc s' t = Body (OPush x)
  | Body (OPush x) => exists s', qstep s (Step t) = Some s' /\ q_content s' = q_content s ++ [x]
  | Leave _ _ => exists s', qstep s (Step t) = Some s' /\ q_owner s' = None
  | Notify => exists a s', of_thread t a = true /\ qstep s a = Some s' /\ exists r, pc s' t = SharedQueue.Idle (Some r)
  | _ => True
  end.
Proof.
  intros A n s t R. pose proof (QInv_reach n s R) as I.
  assert (LT : forall p, pc s t = p -> (forall r, p <> SharedQueue.Idle r) -> t < length (q_pcs s)).
  { intros p P NI. destruct (Nat.lt_ge_cases t (length (q_pcs s))) as [L|L]; [exact L|]. unfold pc in P. rewrite get_out in P by exact L. now destruct (NI None). }
  destruct (pc s t) as [r|o|o| | |b|r b|] eqn:P; auto.
  - destruct o as [x| | | |]; auto. intro O. unfold qstep. rewrite P, O. eexists. split; [reflexivity|]. unfold pc, goto. cbn [set_owner q_pcs]. apply (get_upd_same (SharedQueue.Idle None)). now apply (LT (Lock (OPush x))).
  - destruct o as [x| | | |]; auto. unfold qstep. rewrite P. eexists. split; reflexivity.
  - unfold qstep. rewrite P. eexists. split; [reflexivity|]. assert (O : q_owner s = Some t) by (apply (i_owner s I); now rewrite P). unfold unlock. rewrite O, Nat.eqb_refl. destruct b; reflexivity.
  - assert (L : t < length (q_pcs s)) by (apply (LT Notify); auto; discriminate). destruct (q_waiters s) as [|w ws] eqn:QW.
    + exists (NoWake t). unfold qstep. rewrite P, QW. eexists. split; [apply Nat.eqb_refl|]. split; [reflexivity|]. exists RUnit. unfold ret, pc, goto. cbn [note q_pcs]. now apply (get_upd_same (SharedQueue.Idle None)).
    + exists (Wake t w). unfold qstep. rewrite P, QW. cbn [existsb]. rewrite Nat.eqb_refl. cbn [orb]. eexists. split; [apply Nat.eqb_refl|]. split; [reflexivity|]. exists RUnit. unfold ret, pc, goto. cbn [note set_waiters q_pcs]. apply (get_upd_same (SharedQueue.Idle None)). now rewrite upd_length.
Qed.
Print Assumptions C107_push.
(** thread 1 waits in push while thread 0 has the mutex; a few steps later it has queued *)
Example C107_ex_mutex :
  option_map (fun s => (q_owner s, pc s 0, pc s 1, q_content s)) (qsched (q_init 2) [Start 0 (OPush 5); Start 1 (OPush 6); Step 0]) = Some (Some 0, Body (OPush 5), Lock (OPush 6), []) /\
  option_map (fun s => (q_owner s, pc s 1, q_content s)) (qsched (q_init 2) [Start 0 (OPush 5); Start 1 (OPush 6); Step 0; Step 0; Step 0; Step 1; Step 1; Step 1; NoWake 1]) = Some (None, SharedQueue.Idle (Some RUnit), [5; 6]).
Proof. split; vm_compute; reflexivity. Qed.
