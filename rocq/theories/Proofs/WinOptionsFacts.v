(** Facts about Model/WinOptions.v. *)
From Coq Require Import Ascii String List ZArith NArith Bool Lia.
From Verif.Base Require Import Bytes.
From Verif.Model Require Import Levels Signals Windows WinLife WinOptions.
From Verif.Spec Require Import WindowsSpec.
From Verif.Proofs Require Import BytesFacts WindowsFacts WinLifeFacts.
Import ListNotations.
Local Open Scope list_scope.
Local Open Scope Z_scope.

(** ** both options on *)
Lemma exit_default : forall t lv id w, exit_o o_default t lv id w = exitWithDefaultSignalHandler_win t lv id w.
Proof.
  intros t lv id w. unfold exit_o, exitWithDefaultSignalHandler_win. cbn [restore_o o_default o_signals o_vectored].
  destruct (levelEq FATAL_EXCEPTION lv); [reflexivity|]. destruct (existsb (Z.eqb id) five_signals) eqn:F; [|reflexivity].
  apply existsb_five in F. change (restore_o o_default t w) with (restoreFatalHandlingToDefault_win t w). rewrite (restored w t id F). reflexivity.
Qed.
Lemma push_default : forall p t lv id m k, push_fatal_o o_default p t lv id m k = push_fatal p t lv id m k.
Proof.
  intros. unfold push_fatal_o, push_fatal. change (install_thread_o o_default t (p_win p)) with (installSignalHandlerForThread t (p_win p)).
  rewrite exit_default. reflexivity.
Qed.
Lemma unhandled_default : forall p t code m, unhandled_o o_default p t code m = unhandled p t code m.
Proof. intros. unfold unhandled_o, unhandled, unexpectedExceptionHandling. destruct (v_filter (p_win p)); [reflexivity|reflexivity|apply push_default]. Qed.
Lemma search_default : forall t code handled m hs p, search_o o_default p t code handled m hs = search p t code handled m hs.
Proof.
  intros t code handled m. induction hs as [|h r IH]; intro p; cbn [search_o search].
  - destruct handled; [reflexivity|apply unhandled_default].
  - destruct (vectored_is_g3 (p_win p) h); [|apply IH].
    change (vector_o o_default t code (p_win p)) with (vectorExceptionHandling t code (p_win p)).
    destruct (vectorExceptionHandling t code (p_win p)) as [w [|]]; [apply push_default|apply IH].
Qed.
Lemma pstep_default : forall p e, pstep_o o_default p e = pstep p e.
Proof.
  intros p e. unfold pstep_o, pstep. destruct (p_end p); [reflexivity|].
  destruct e as [t m|t m|t code handled m|t s m|t m| | |t k|t|t|t op].
  - reflexivity.
  - rewrite push_default. reflexivity.
  - rewrite search_default. reflexivity.
  - unfold fatal_signal_o, fatal_signal. destruct (running p t && existsb (Z.eqb s) five_signals); [|reflexivity].
    destruct (handler_of (p_win p) t s); [reflexivity|reflexivity|reflexivity|]. rewrite push_default. reflexivity.
  - unfold poll_o, poll. destruct (p_threads p t) as [|k|]; [reflexivity| |reflexivity]. destruct (g_block (p_win p)); [reflexivity|].
    destruct k; [reflexivity| |reflexivity]. rewrite search_default. reflexivity.
  - reflexivity.
  - unfold clear_o, clear. destruct (p_threads p 0%nat); [reflexivity|reflexivity|]. destruct (forallb _ _); [|reflexivity]. rewrite exit_default. reflexivity.
  - reflexivity.
  - reflexivity.
  - reflexivity.
  - destruct op; reflexivity.
Qed.
Lemma vrun_default : forall l w, vrun_o o_default w l = vrun w l.
Proof. unfold vrun_o, vrun. induction l as [|op l IH]; intro w; [reflexivity|]. cbn [fold_left]. rewrite IH. f_equal. destruct op; reflexivity. Qed.
Lemma prun_default : forall l p, prun_o o_default p l = prun p l.
Proof. induction l as [|e l IH]; intro p; [reflexivity|]. cbn [prun_o prun]. rewrite pstep_default. destruct (pstep p e); [apply IH|reflexivity]. Qed.

(** ** the flag, the vectored handlers and the filter *)
Lemma install_o_block : forall o t w, g_block (install_thread_o o t w) = g_block w.
Proof. intros o t w. unfold install_thread_o. destruct (o_signals o); [apply install_thread_block|reflexivity]. Qed.
Lemma install_crash_block : forall o t w, g_block (install_crash_o o t w) = g_block w.
Proof. intros o t w. unfold install_crash_o. destruct (o_vectored o); cbn; apply install_o_block. Qed.
Lemma restore_o_block : forall o t w, g_block (restore_o o t w) = g_block w.
Proof.
  intros o t w. unfold restore_o. destruct (o_signals o); [|reflexivity]. destruct (o_vectored o); [apply restore_block|].
  rewrite fold_set_signal_block. reflexivity.
Qed.
Lemma vstep_o_block : forall o w op, g_block (vstep_o o w op) = g_block w.
Proof. intros o w [t|t|t|t s d|f|]; cbn [vstep_o]; [apply install_o_block|apply install_crash_block|apply restore_o_block|reflexivity..]. Qed.
Lemma vrun_o_block : forall o l w, g_block (vrun_o o w l) = g_block w.
Proof. unfold vrun_o. induction l as [|op l IH]; intro w; [reflexivity|]. cbn [fold_left]. rewrite IH. apply vstep_o_block. Qed.
Lemma exit_o_block : forall o t lv id w, levelEq FATAL_EXCEPTION lv = false -> g_block (fst (exit_o o t lv id w)) = g_block w.
Proof.
  intros o t lv id w L. unfold exit_o. rewrite L. destruct (existsb (Z.eqb id) five_signals); [|apply restore_o_block].
  destruct (handler_of (restore_o o t w) t id); apply restore_o_block.
Qed.
Lemma exit_o_exception : forall o t id w, exists w', exit_o o t FATAL_EXCEPTION id w = (w', WReturns) /\ g_block w' = false.
Proof. intros. unfold exit_o. replace (levelEq FATAL_EXCEPTION FATAL_EXCEPTION) with true by (vm_compute; reflexivity). eexists. split; reflexivity. Qed.
Lemma vector_o_block : forall o t code w, g_block (fst (vector_o o t code w)) = g_block w.
Proof. intros. unfold vector_o. destruct (isKnownException code); [apply restore_o_block|reflexivity]. Qed.

(** ** what a fatal call and the search for a handler leave alone *)
Lemma keeps_push_o : forall o t p lv id m k, keeps t p (push_fatal_o o p t lv id m k).
Proof.
  intros o t p lv id m k. unfold push_fatal_o. cbn [p_init set_win p_win p_queue].
  destruct (p_init p) eqn:I.
  - constructor; cbn; auto.
    + intros u U. unfold updn. apply Nat.eqb_neq in U. rewrite U. reflexivity.
    + exists [WFatal lv id m]. reflexivity.
    + left. apply install_o_block.
  - destruct (exit_o o t lv id (install_thread_o o t (p_win p))) as [w e].
    destruct e; constructor; cbn; auto; try (exists []; rewrite app_nil_r; reflexivity); right; discriminate.
Qed.
Lemma keeps_unhandled_o : forall o t p code m, p_end p = None -> keeps t p (unhandled_o o p t code m).
Proof.
  intros o t p code m N. unfold unhandled_o. destruct (v_filter (p_win p)).
  - constructor; cbn; auto; exists []; rewrite app_nil_r; reflexivity.
  - constructor; cbn; auto; exists []; rewrite app_nil_r; reflexivity.
  - eapply keeps_trans; [|apply keeps_win, restore_o_block|apply keeps_push_o]. exact N.
Qed.
Lemma keeps_search_o : forall o t code handled m hs p, p_end p = None -> keeps t p (search_o o p t code handled m hs).
Proof.
  intros o t code handled m. induction hs as [|h r IH]; intros p N; cbn [search_o].
  - destruct handled; [|apply keeps_unhandled_o; exact N].
    constructor; cbn; auto.
    + intros u U. unfold updn. apply Nat.eqb_neq in U. rewrite U. reflexivity.
    + exists []. rewrite app_nil_r. reflexivity.
  - destruct (vectored_is_g3 (p_win p) h); [|apply IH; exact N].
    assert (B := vector_o_block o t code (p_win p)).
    destruct (vector_o o t code (p_win p)) as [w [|]]; cbn [fst] in B.
    + eapply keeps_trans; [|apply keeps_win; exact B|apply keeps_push_o]. exact N.
    + eapply keeps_trans; [|apply keeps_win; exact B|apply IH; exact N]. exact N.
Qed.

(** ** runs *)
Lemma prun_o_app : forall o l1 l2 p, prun_o o p (l1 ++ l2) = match prun_o o p l1 with Some q => prun_o o q l2 | None => None end.
Proof. intro o. induction l1 as [|e l1 IH]; intros l2 p; [reflexivity|]. cbn [app prun_o]. destruct (pstep_o o p e); [apply IH|reflexivity]. Qed.
Lemma prun_o_ind : forall o (P : proc -> list pev -> Prop) p0, P p0 [] ->
  (forall l p e p', P p l -> pstep_o o p e = Some p' -> P p' (l ++ [e])) -> forall l p, prun_o o p0 l = Some p -> P p l.
Proof.
  intros o P p0 B S l. induction l as [|e l IH] using rev_ind; intros p R; [cbn in R; injection R as <-; exact B|].
  rewrite prun_o_app in R. destruct (prun_o o p0 l) as [q|]; [|discriminate]. cbn in R.
  destruct (pstep_o o q e) as [q'|] eqn:E; [|discriminate]. injection R as <-. exact (S l q e q' (IH q eq_refl) E).
Qed.
Lemma pstep_o_alive : forall o p e p', pstep_o o p e = Some p' -> p_end p = None.
Proof. intros o p e p' S. unfold pstep_o in S. destruct (p_end p); [discriminate|reflexivity]. Qed.

(** ** the handlers of signals, with signal handling off *)
(** the handlers of w' are those of w, but for handlers of the program that the C library has set back *)
Definition reset_only (w w' : win) : Prop :=
  forall t s, handler_of w' t s = handler_of w t s \/ exists n, handler_of w t s = User n /\ handler_of w' t s = Dfl.
Lemma reset_refl : forall w, reset_only w w.
Proof. intros w t s. auto. Qed.
Lemma reset_set : forall w t s n, handler_of w t s = User n -> reset_only w (set_signal t Dfl w s).
Proof.
  intros w t s n H u x. unfold handler_of, set_signal in *. cbn.
  destruct (per_thread s) eqn:P; destruct (per_thread x) eqn:P'; auto; unfold updn, upd.
  - destruct (Nat.eqb_spec u t) as [->|_]; [|auto]. destruct (Z.eqb_spec x s) as [->|_]; [right; eauto|auto].
  - destruct (Z.eqb_spec x s) as [->|_]; [right; eauto|auto].
Qed.
Lemma exit_reset : forall v t lv id w, reset_only w (fst (exit_o (mkOpts false v) t lv id w)).
Proof.
  intros v t lv id w. unfold exit_o. cbn [restore_o o_signals].
  destruct (levelEq FATAL_EXCEPTION lv); [exact (reset_refl w)|].
  destruct (existsb (Z.eqb id) five_signals); [|exact (reset_refl w)].
  change (restore_o (mkOpts false v) t w) with w.
  destruct (handler_of w t id) as [| |n|] eqn:H; [exact (reset_refl w)|exact (reset_refl w)|exact (reset_set w t id n H)|exact (reset_refl w)].
Qed.
