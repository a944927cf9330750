(** Facts about the life of a process. *)
From Coq Require Import List ZArith NArith Bool Lia.
From Verif.Base Require Import Bytes.
From Verif.Model Require Import Levels Message Signals Global Lifecycle.
From Verif.Spec Require Import SignalsSpec GlobalSpec LifecycleSpec.
From Verif.Proofs Require Import GlobalFacts SignalsFacts.
Import ListNotations.
Local Open Scope list_scope.
Local Open Scope Z_scope.

(** ** the flag of the first initialization *)
Lemma initialized_app : forall a b, initialized (a ++ b) = initialized a || initialized b.
Proof. intros a b. unfold initialized. rewrite calls_app, existsb_app. reflexivity. Qed.
Lemma initialized_map : forall t es, (forall o, In (EOp o) es -> match o with OInit _ => False | _ => True end) -> initialized (map (pair t) es) = false.
Proof.
  intros t es H. unfold initialized. induction es as [|e es IH]; [reflexivity|].
  cbn [map calls flat_map]. unfold calls in IH. rewrite existsb_app, IH by (intros o I; apply H; now right).
  rewrite orb_false_r. destruct e; try reflexivity. cbn [snd existsb]. specialize (H o (or_introl eq_refl)). destruct o; [destruct H | reflexivity ..].
Qed.

Definition flag (g : global) : Prop := g_initialized_once g = initialized (g_trace g).
Lemma flag_stack : forall g t s, flag g -> flag (set_stack g t s).
Proof. intros g t s F. exact F. Qed.
Lemma flag_status : forall g s, flag g -> flag (set_status g s).
Proof. intros g s F. exact F. Qed.
Lemma flag_emit : forall g t es, flag g -> (forall o, In (EOp o) es -> match o with OInit _ => False | _ => True end) -> flag (emit g t es).
Proof. intros g t es F H. unfold flag. cbn [emit g_initialized_once g_trace]. rewrite initialized_app, initialized_map, orb_false_r by exact H. exact F. Qed.
Ltac noop := let o := fresh in let I := fresh in intros o I; cbn [In] in I; intuition discriminate.
Lemma flag_throw : forall g t s, flag g -> flag (throw g t s).
Proof. intros g t s F. unfold throw. destruct (unwind s); [apply flag_stack | apply flag_status, flag_stack]; apply flag_emit; auto; noop. Qed.
Lemma flag_push : forall g t m, flag g -> flag (pushMessageToLogger g t m).
Proof.
  intros g t m F. unfold pushMessageToLogger. destruct (g_logger_instance g); [apply flag_emit; auto; noop|].
  destruct (g_set_first g); [exact F|]. apply flag_emit; [exact F | noop].
Qed.
Lemma flag_init : forall statics g0 t w, initialized (g_trace g0) = true -> flag (initializeLogging statics g0 t w).
Proof.
  intros statics g0 t w F. unfold initializeLogging. cbn zeta. set (g := mkG true (g_logger_instance g0) (g_first_uninitialized_msg g0) (g_set_first g0) (g_save_first g0) (g_fatal_pre_logging_hook g0) (g_fatal_function g0) (g_counter g0) (g_first_stack_trace g0) (g_status g0) (g_threads g0) (g_trace g0)).
  assert (G : flag g) by (unfold flag; symmetry; exact F).
  destruct (isLoggingInitialized g); [exact G|]. destruct w as [w|]; [|exact G].
  destruct (g_save_first g); [exact G|]. destruct (g_first_uninitialized_msg g) as [m|]; [|exact G].
  assert (H : flag (emit g t [ESaveFirst w m])) by (apply flag_emit; [exact G | noop]). exact H.
Qed.

Section Life.
Variable hook_body handler_body : nat -> list op.
Variable statics : list nat.

Lemma flag_step : forall g t, flag g -> flag (gstep hook_body handler_body statics g t).
Proof.
  intros g t F. unfold gstep. destruct (g_status g); try exact F. destruct (g_threads g t) as [|[l| |h st m s|h st m s|st m s|] r]; try exact F.
  - destruct l as [|o l]; [exact F|]. unfold do_op. cbn zeta.
    assert (E : initialized (g_trace (emit (set_stack g t (FOps l :: r)) t [EOp o])) = initialized (g_trace g) || match o with OInit _ => true | _ => false end).
    { cbn [emit g_trace set_stack]. rewrite initialized_app. f_equal. destruct o; reflexivity. }
    assert (NF : (forall w, o <> OInit w) -> flag (emit (set_stack g t (FOps l :: r)) t [EOp o])).
    { intro N. unfold flag. rewrite E. cbn. rewrite F. destruct o; try (rewrite orb_false_r; reflexivity). exfalso. now apply (N w). }
    destruct o; try (apply NF; discriminate).
    + apply flag_init. rewrite E. apply orb_true_r.
    + unfold shutDownLoggingForActiveOnly, shutDownLogging. specialize (NF ltac:(discriminate)).
      destruct (g_logger_instance _) as [a|]; [destruct w as [w|]; [destruct (negb (Nat.eqb w a))|]|]; (apply flag_emit; [|noop]); try exact NF.
      destruct warning; [apply flag_push|]; exact NF.
    + apply flag_push. apply NF. discriminate.
    + apply flag_throw. apply NF. discriminate.
  - unfold do_count. cbn zeta.
    assert (G : flag (mkG (g_initialized_once g) (g_logger_instance g) (g_first_uninitialized_msg g) (g_set_first g) (g_save_first g) (g_fatal_pre_logging_hook g) (g_fatal_function g) (sz (g_counter g + 1)) (Some (match g_first_stack_trace g with Some f => f | None => st end)) (g_status g) (g_threads g) (g_trace g))) by exact F.
    apply (flag_emit _ t [EStart st]) in G; [|noop]. destruct h as [[|n]|]; [apply flag_stack; exact G | apply flag_stack, flag_emit; [exact G | noop] | apply flag_throw; exact G].
  - unfold fatalCall. cbn [set_stack g_fatal_function g_logger_instance]. destruct (g_fatal_function g) as [[|n]|].
    + destruct (g_logger_instance g); [apply flag_stack | apply flag_status, flag_stack]; apply flag_emit; try exact F; noop.
    + apply flag_stack, flag_emit; [exact F | noop].
    + apply flag_throw. exact F.
Qed.
Lemma once_stays : forall g t, g_initialized_once g = true -> g_initialized_once (gstep hook_body handler_body statics g t) = true.
Proof.
  intros g t F. unfold gstep. destruct (g_status g); try exact F. destruct (g_threads g t) as [|[l| |h st m s|h st m s|st m s|] r]; try exact F.
  - destruct l as [|o l]; [exact F|]. unfold do_op. cbn zeta. destruct o; try exact F.
    + unfold initializeLogging. cbn zeta. destruct (isLoggingInitialized _); [reflexivity|]. destruct w as [w|]; [|reflexivity].
      cbn [emit set_stack g_save_first g_first_uninitialized_msg]. destruct (g_save_first g); [reflexivity|]. destruct (g_first_uninitialized_msg g); reflexivity.
    + unfold shutDownLoggingForActiveOnly. destruct (g_logger_instance _) as [a|]; [destruct w as [w|]; [destruct (negb (Nat.eqb w a))|]|]; try exact F.
      destruct warning; [|exact F]. unfold pushMessageToLogger. destruct (g_logger_instance _); [exact F|]. destruct (g_set_first _); exact F.
    + unfold pushMessageToLogger. destruct (g_logger_instance _); [exact F|]. destruct (g_set_first _); exact F.
    + unfold throw. destruct (unwind _); exact F.
  - unfold do_count. cbn zeta. destruct h as [[|n]|]; try exact F. unfold throw. destruct (unwind r); exact F.
  - unfold fatalCall. cbn [set_stack g_fatal_function g_logger_instance]. destruct (g_fatal_function g) as [[|n]|]; [destruct (g_logger_instance g); exact F | exact F |].
    unfold throw. destruct (unwind r); exact F.
Qed.

Variable disabled : bool.
Variable catchable kills : Z -> bool.
Variable ends : nat -> bool.
Variable pid1 : bool.
Variable dump : nat -> Z -> str.
Variable message : nat -> Z -> LogMessage.
Notation step := (lstep hook_body handler_body statics disabled catchable kills ends pid1 dump message).
Notation run := (lrun hook_body handler_body statics disabled catchable kills ends pid1 dump message).

(** signals do not touch the table *)
Lemma deliver_same : forall L t s, l_s (l_deliver kills ends pid1 dump message L t s) = l_s L /\
  g_initialized_once (l_g (l_deliver kills ends pid1 dump message L t s)) = g_initialized_once (l_g L) /\
  g_trace (l_g (l_deliver kills ends pid1 dump message L t s)) = g_trace (l_g L).
Proof.
  intros L t s. unfold l_deliver. destruct (table (l_s L) s); [destruct (kills s && negb pid1) | | destruct (ends n) |]; auto.
Qed.

Lemma client_snoc : forall l a, client_ops (l ++ [a]) = client_ops l ++ match a with LSig o => [o] | _ => [] end.
Proof. intros l a. unfold client_ops. rewrite flat_map_app. cbn [flat_map]. rewrite app_nil_r. reflexivity. Qed.

(** while the process runs, the signal table is what the client's calls and one installation have made it *)
Lemma once_run : forall main base acts, let M := run (l_start main base) acts in
  flag (l_g M) /\
  (l_fin M = None -> exists a b, client_ops acts = a ++ b /\
     l_s M = srun disabled catchable (start base) (a ++ (if g_initialized_once (l_g M) then [SInstall] else []) ++ b)).
Proof.
  intros main base acts. cbn zeta. induction acts as [|x acts IH] using rev_ind.
  - split; [reflexivity|]. intros _. exists [], []. split; reflexivity.
  - unfold lrun in *. rewrite fold_left_app. cbn [fold_left]. set (M := fold_left step acts (l_start main base)) in *.
    destruct IH as [F S]. rewrite client_snoc. unfold lstep. destruct (l_fin M) as [e|] eqn:FI; [split; [exact F|]; intro X; congruence|].
    destruct (S eq_refl) as (a & b & E & T). clear S. destruct x as [t|o|t s|w].
    + unfold l_call. destruct (back_in_abort M t); [split; [exact F | discriminate]|]. cbn zeta.
      set (g := gstep hook_body handler_body statics (l_g M) t).
      assert (FG : flag g) by (apply flag_step; exact F).
      set (s := if negb (g_initialized_once (l_g M)) && g_initialized_once g then installCrashHandler disabled catchable (l_s M) else l_s M).
      assert (SG : exists a b, client_ops acts ++ [] = a ++ b /\ s = srun disabled catchable (start base) (a ++ (if g_initialized_once g then [SInstall] else []) ++ b)).
      { rewrite app_nil_r. subst s. destruct (g_initialized_once (l_g M)) eqn:O1.
        - cbn [negb andb]. assert (O2 : g_initialized_once g = true) by (apply once_stays; exact O1). rewrite O2. exists a, b. split; [exact E | exact T].
        - cbn [negb andb]. destruct (g_initialized_once g).
          + exists (a ++ b), []. split; [rewrite app_nil_r; exact E|]. cbn [app] in T. rewrite T.
            unfold srun. rewrite (fold_left_app _ (a ++ b) ([SInstall] ++ [])). reflexivity.
          + exists a, b. split; [exact E | exact T]. }
      destruct (g_status g).
      * split; [exact FG|]. intros _. exact SG.
      * split; [exact FG | discriminate].
      * split; [exact FG | discriminate].
      * split; [exact FG | discriminate].
      * unfold l_terminate. cbn zeta. set (L1 := mkL (set_status _ _) _ _ _ _ _).
        destruct (deliver_same L1 t SIGABRT) as (D1 & D2 & D3). split.
        -- unfold flag. rewrite D2, D3. exact FG.
        -- intros _. rewrite D1, D2. exact SG.
    + split; [exact F|]. intros _. exists a, (b ++ [o]). split; [rewrite E, app_assoc; reflexivity|]. cbn [l_s l_g]. rewrite T. unfold srun.
      rewrite !app_assoc. rewrite (fold_left_app _ _ [o]). reflexivity.
    + unfold l_signal. destruct (in_handler M t s); [split; [exact F|]; intros _; exists a, b; rewrite app_nil_r; auto|].
      destruct (deliver_same M t s) as (D1 & D2 & D3). split; [unfold flag; rewrite D2, D3; exact F|]. intros _. exists a, b. rewrite app_nil_r, D1, D2. auto.
    + destruct (first_fatal w (g_trace (l_g M))); [split; [exact F | discriminate]|]. split; [exact F|]. intros _. exists a, b. rewrite app_nil_r. auto.
Qed.
End Life.

(** ** choosing signals *)
Definition armed (cat : Z -> bool) (st : sigs) : Prop := forall s, named (gSignals st) s = true -> cat s = true -> table st s = G3log.
Lemma install_armed : forall cat st, NoDup (keys (gSignals st)) -> armed cat (installCrashHandler false cat st) /\ gSignals (installCrashHandler false cat st) = gSignals st.
Proof.
  intros cat st N. unfold installCrashHandler, installSignalHandler. destruct (install_fold cat (gSignals st) st N) as (G & T & _).
  split; [|exact G]. intros s C K. rewrite G in C. rewrite T, C, K. reflexivity.
Qed.
(** what the calls do to the chosen set, whatever else they do *)
Definition sane (c : Z -> bool) (st : sigs) : Prop := NoDup (keys (gSignals st)) /\ forall s, named (gSignals st) s = c s.
Lemma sane_step : forall cat st c o, sane c st -> sane (match o with SOverride l => named l | SDefault => five | _ => c end) (sstep false cat st o).
Proof.
  intros cat st c o [N C]. destruct o; cbn [sstep].
  - destruct (install_armed cat st N) as [_ G]. unfold sane. rewrite G. auto.
  - unfold overrideSetupSignals. cbn zeta. set (x := mkSigs _ _ _). destruct (install_armed cat x (smap_of_nodup l)) as [_ G]. unfold sane. rewrite G.
    split; [apply smap_of_nodup | apply smap_of_named].
  - unfold restoreSignalHandler. destruct (gSavedSigActions st s); split; auto.
  - unfold restoreFatalHandlingToDefault, overrideSetupSignals. cbn zeta. set (x := mkSigs _ _ _). destruct (install_armed cat x kSignals_nodup) as [_ G].
    unfold sane. rewrite G. split; [apply kSignals_nodup | apply five_named].
  - destruct (sigaction cat (table st) s d) as [[? ?]|]; split; auto.
Qed.
Lemma armed_step : forall cat st c o, sane c st -> armed cat st -> leaves_alone o -> armed cat (sstep false cat st o).
Proof.
  intros cat st c o [N C] A L. destruct o; try destruct L; cbn [sstep].
  - apply install_armed. exact N.
  - unfold overrideSetupSignals. cbn zeta. apply install_armed. apply smap_of_nodup.
  - unfold restoreFatalHandlingToDefault, overrideSetupSignals. cbn zeta. apply install_armed. apply kSignals_nodup.
Qed.
Lemma sane_run : forall cat os st c, sane c st ->
  sane (fold_left (fun c o => match o with SOverride l => named l | SDefault => five | _ => c end) os c) (srun false cat st os).
Proof. intros cat. unfold srun. induction os as [|o os IH]; intros st c S; [exact S|]. cbn [fold_left]. apply IH. apply sane_step. exact S. Qed.
Lemma armed_run : forall cat os st c, sane c st -> armed cat st -> (forall o, In o os -> leaves_alone o) -> armed cat (srun false cat st os).
Proof.
  intros cat. unfold srun. induction os as [|o os IH]; intros st c S A H; [exact A|]. cbn [fold_left]. eapply IH.
  - apply (sane_step cat st c o S).
  - eapply armed_step; [exact S | exact A | apply H; now left].
  - intros x I. apply H. now right.
Qed.

(** ** runs in pieces *)
Section Pieces.
Variable hook_body handler_body : nat -> list op.
Variable statics : list nat.
Variable disabled : bool.
Variable catchable kills : Z -> bool.
Variable ends : nat -> bool.
Variable pid1 : bool.
Variable dump : nat -> Z -> str.
Variable message : nat -> Z -> LogMessage.
Notation step := (lstep hook_body handler_body statics disabled catchable kills ends pid1 dump message).
Notation run := (lrun hook_body handler_body statics disabled catchable kills ends pid1 dump message).

Lemma fin_stays : forall l L e, l_fin L = Some e -> run L l = L.
Proof. unfold lrun. induction l as [|a l IH]; intros L e F; [reflexivity|]. cbn [fold_left]. unfold lstep at 2. rewrite F. eapply IH. exact F. Qed.
Lemma fin_before : forall l L, l_fin (run L l) = None -> l_fin L = None.
Proof. intros l L F. destruct (l_fin L) as [e|] eqn:E; [|reflexivity]. rewrite (fin_stays l L e E) in F. congruence. Qed.
Lemma run_cons : forall L a l, run L (a :: l) = run (step L a) l.
Proof. reflexivity. Qed.
Lemma run_app : forall L a b, run L (a ++ b) = run (run L a) b.
Proof. intros L a b. unfold lrun. apply fold_left_app. Qed.

(** after the first initialization *)
Lemma later_step : forall L a, g_initialized_once (l_g L) = true -> l_fin (step L a) = None ->
  g_initialized_once (l_g (step L a)) = true /\ l_s (step L a) = srun disabled catchable (l_s L) (client_ops [a]).
Proof.
  intros L a O F. unfold lstep in *. destruct (l_fin L) eqn:FI; [congruence|]. destruct a as [t|o|t s|w].
  - unfold l_call in *. destruct (back_in_abort L t); [discriminate|]. cbn zeta in *. rewrite O in *. cbn [negb andb] in *.
    pose proof (once_stays hook_body handler_body statics (l_g L) t O) as O'.
    destruct (g_status (gstep hook_body handler_body statics (l_g L) t)); try discriminate; [split; [exact O' | reflexivity]|].
    unfold l_terminate in *. cbn zeta in *.
    match goal with |- context [l_deliver _ _ _ _ _ ?x t SIGABRT] => destruct (deliver_same kills ends pid1 dump message x t SIGABRT) as (D1 & D2 & _) end.
    rewrite D1, D2. split; [exact O' | reflexivity].
  - split; [exact O | reflexivity].
  - unfold l_signal. destruct (in_handler L t s); [split; [exact O | reflexivity]|].
    destruct (deliver_same kills ends pid1 dump message L t s) as (D1 & D2 & _). rewrite D1, D2. split; [exact O | reflexivity].
  - destruct (first_fatal w (g_trace (l_g L))); [discriminate|]. split; [exact O | reflexivity].
Qed.
Lemma later_run : forall l L, g_initialized_once (l_g L) = true -> l_fin (run L l) = None ->
  g_initialized_once (l_g (run L l)) = true /\ l_s (run L l) = srun disabled catchable (l_s L) (client_ops l).
Proof.
  induction l as [|a l IH]; intros L O F; [split; [exact O | reflexivity]|].
  rewrite run_cons in *. destruct (later_step L a O (fin_before _ _ F)) as [O1 S1]. destruct (IH _ O1 F) as [O2 S2]. split; [exact O2|].
  rewrite S2, S1. change (a :: l) with ([a] ++ l). unfold client_ops. rewrite flat_map_app. unfold srun. rewrite fold_left_app. reflexivity.
Qed.

(** as long as the process has not ended it runs *)
Lemma deliver_status : forall L t s, g_status (l_g (l_deliver kills ends pid1 dump message L t s)) = g_status (l_g L).
Proof. intros L t s. unfold l_deliver. destruct (table (l_s L) s); [destruct (kills s && negb pid1) | | destruct (ends n) |]; reflexivity. Qed.
Lemma running : forall l L, g_status (l_g L) = Running -> l_fin (run L l) = None -> g_status (l_g (run L l)) = Running.
Proof.
  induction l as [|a l IH]; intros L S F; [exact S|]. rewrite run_cons in *. apply IH; [|exact F]. pose proof (fin_before _ _ F) as F1. clear F IH.
  unfold lstep in *. destruct (l_fin L) eqn:FI; [exact S|]. destruct a as [t|o|t s|w].
  - unfold l_call in *. destruct (back_in_abort L t); [discriminate|]. cbn zeta in *.
    destruct (g_status (gstep hook_body handler_body statics (l_g L) t)) eqn:GS; try discriminate; [exact GS|].
    unfold l_terminate in *. cbn zeta in *. rewrite deliver_status. reflexivity.
  - exact S.
  - unfold l_signal. destruct (in_handler L t s); [exact S|]. rewrite deliver_status. exact S.
  - destruct (first_fatal w (g_trace (l_g L))); [discriminate | exact S].
Qed.
End Pieces.
