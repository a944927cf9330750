(** Facts about Model/WinLife.v. *)
From Coq Require Import Ascii String List ZArith NArith Bool Lia.
From Verif.Base Require Import Bytes.
From Verif.Model Require Import Levels Signals Windows WinLife.
From Verif.Spec Require Import WindowsSpec.
From Verif.Proofs Require Import BytesFacts WindowsFacts.
Import ListNotations.
Local Open Scope list_scope.
Local Open Scope Z_scope.

(** ** the handlers *)
Lemma fold_set_signal_block : forall t d l w, g_block (fold_left (set_signal t d) l w) = g_block w.
Proof. induction l as [|s l IH]; intro w; [reflexivity|]. cbn [fold_left]. rewrite IH. reflexivity. Qed.
Lemma install_thread_block : forall t w, g_block (installSignalHandlerForThread t w) = g_block w.
Proof.
  intros t w. unfold installSignalHandlerForThread. destruct (g_installed_thread_signal_handler w t); [reflexivity|].
  rewrite fold_set_signal_block. reflexivity.
Qed.
Lemma restore_block : forall t w, g_block (restoreFatalHandlingToDefault_win t w) = g_block w.
Proof. intros. unfold restoreFatalHandlingToDefault_win. rewrite fold_set_signal_block. reflexivity. Qed.
Lemma vstep_block : forall w o, g_block (vstep w o) = g_block w.
Proof.
  intros w [t|t|t|t s d|f|]; cbn [vstep].
  - apply install_thread_block.
  - exact (install_thread_block t w).
  - apply restore_block.
  - reflexivity.
  - reflexivity.
  - reflexivity.
Qed.
Lemma vrun_block : forall l w, g_block (vrun w l) = g_block w.
Proof. unfold vrun. induction l as [|o l IH]; intro w; [reflexivity|]. cbn [fold_left]. rewrite IH. apply vstep_block. Qed.

Lemma fold_set_signal_vectored : forall t d l w, v_vectored (fold_left (set_signal t d) l w) = v_vectored w /\ v_filter (fold_left (set_signal t d) l w) = v_filter w.
Proof. induction l as [|s l IH]; intro w; [auto|]. cbn [fold_left]. destruct (IH (set_signal t d w s)) as [-> ->]. auto. Qed.
Lemma install_thread_vectored : forall t w, v_vectored (installSignalHandlerForThread t w) = v_vectored w /\ v_filter (installSignalHandlerForThread t w) = v_filter w.
Proof.
  intros t w. unfold installSignalHandlerForThread. destruct (g_installed_thread_signal_handler w t); [auto|].
  destruct (fold_set_signal_vectored t G3log five_signals (mkWin (v_thread w) (v_process w) (v_filter w) (v_vectored w) (v_next w) (updn (g_installed_thread_signal_handler w) t true)
             (g_previous_unexpected_exception_handler w) (g_vector_exception_handler w) (g_block w))) as [-> ->]. auto.
Qed.
Lemma restore_vectored : forall t w,
  v_vectored (restoreFatalHandlingToDefault_win t w) = remove_vectored (v_vectored w) (g_vector_exception_handler w) /\
  v_filter (restoreFatalHandlingToDefault_win t w) = g_previous_unexpected_exception_handler w.
Proof.
  intros. unfold restoreFatalHandlingToDefault_win.
  match goal with |- context [fold_left ?f ?l ?x] => destruct (fold_set_signal_vectored t Dfl l x) as [-> ->] end. auto.
Qed.

(** after a restore, the five signals have their default action in that thread *)
Lemma handler_set : forall w t d s s', handler_of (set_signal t d w s) t s' = if Z.eqb s' s then d else handler_of w t s'.
Proof.
  intros w t d s s'. unfold handler_of, set_signal. cbn.
  destruct (Z.eqb_spec s' s) as [E|N].
  - subst s'. destruct (per_thread s) eqn:P; unfold updn, upd; rewrite ?Nat.eqb_refl, ?Z.eqb_refl; reflexivity.
  - destruct (per_thread s) eqn:P; destruct (per_thread s') eqn:P'; unfold updn, upd; rewrite ?Nat.eqb_refl;
      apply Z.eqb_neq in N; rewrite ?N; reflexivity.
Qed.
Lemma existsb_five : forall s, existsb (Z.eqb s) five_signals = true <-> In s (map fst win_signals).
Proof.
  intro s. rewrite existsb_exists. split.
  - intros [x [I E]]. apply Z.eqb_eq in E. subst x.
    unfold five_signals, WIN_SIGTERM, WIN_SIGABRT, WIN_SIGFPE, WIN_SIGSEGV, WIN_SIGILL in I. cbn [map fst win_signals].
    cbn [In] in *. intuition.
  - intro I. exists s. split; [|apply Z.eqb_refl].
    unfold five_signals, WIN_SIGTERM, WIN_SIGABRT, WIN_SIGFPE, WIN_SIGSEGV, WIN_SIGILL. cbn [map fst win_signals] in I.
    cbn [In] in *. intuition.
Qed.
Lemma restored : forall w t s, In s (map fst win_signals) -> handler_of (restoreFatalHandlingToDefault_win t w) t s = Dfl.
Proof.
  intros w t s I. unfold restoreFatalHandlingToDefault_win. cbn [fold_left]. rewrite !handler_set.
  unfold WIN_SIGTERM, WIN_SIGABRT, WIN_SIGFPE, WIN_SIGSEGV, WIN_SIGILL. cbn [map fst win_signals In] in I.
  destruct I as [<-|[<-|[<-|[<-|[<-|[]]]]]]; reflexivity.
Qed.
Lemma exit_kills : forall w t lv s, levelEq FATAL_EXCEPTION lv = false -> In s (map fst win_signals) ->
  snd (exitWithDefaultSignalHandler_win t lv s w) = WKilled s.
Proof.
  intros w t lv s L I. unfold exitWithDefaultSignalHandler_win. rewrite L. apply existsb_five in I as I'. rewrite I'.
  rewrite (restored w t s I). reflexivity.
Qed.
Lemma exit_exception : forall w t id, snd (exitWithDefaultSignalHandler_win t FATAL_EXCEPTION id w) = WReturns /\
  g_block (fst (exitWithDefaultSignalHandler_win t FATAL_EXCEPTION id w)) = false.
Proof.
  intros. unfold exitWithDefaultSignalHandler_win. replace (levelEq FATAL_EXCEPTION FATAL_EXCEPTION) with true by (vm_compute; reflexivity).
  auto.
Qed.

(** ** what a fatal call and the search for a handler leave alone *)
Record keeps (t : nat) (p p' : proc) : Prop := mkKeeps {
  ke_dropped : p_dropped p' = p_dropped p;
  ke_init : p_init p' = p_init p;
  ke_past : p_past p' = p_past p;
  ke_sinks : p_sinks p' = p_sinks p;
  ke_gone : p_gone p' = p_gone p;
  ke_others : forall u, u <> t -> p_threads p' u = p_threads p u;
  ke_queue : exists q, p_queue p' = p_queue p ++ q;
  ke_block : g_block (p_win p') = g_block (p_win p) \/ p_end p' <> None
}.
Lemma keeps_trans : forall t p q r, p_end q = None -> keeps t p q -> keeps t q r -> keeps t p r.
Proof.
  intros t p q r N [A1 A2 A3 A4 A5 A6 [x A7] A8] [B1 B2 B3 B4 B5 B6 [y B7] B8]. constructor; try congruence.
  - intros u U. rewrite B6, A6 by assumption. reflexivity.
  - exists (x ++ y). rewrite B7, A7, app_assoc. reflexivity.
  - destruct B8 as [B8|B8]; [|auto]. destruct A8 as [A8|A8]; [left; congruence|contradiction].
Qed.
Lemma keeps_win : forall t p w, g_block w = g_block (p_win p) -> keeps t p (set_win p w).
Proof. intros t p w E. constructor; auto. exists []. cbn. rewrite app_nil_r. reflexivity. Qed.
Lemma keeps_push : forall t p lv id m k, keeps t p (push_fatal p t lv id m k).
Proof.
  intros t p lv id m k. unfold push_fatal. cbn [p_init set_win p_win p_queue].
  destruct (p_init p) eqn:I.
  - constructor; cbn; auto.
    + intros u U. unfold updn. apply Nat.eqb_neq in U. rewrite U. reflexivity.
    + exists [WFatal lv id m]. reflexivity.
    + left. apply install_thread_block.
  - destruct (exitWithDefaultSignalHandler_win t lv id (installSignalHandlerForThread t (p_win p))) as [w e].
    destruct e; constructor; cbn; auto; try (exists []; rewrite app_nil_r; reflexivity); right; discriminate.
Qed.
Lemma push_init : forall p t lv id m k, p_init p = true -> push_fatal p t lv id m k =
  set_thread (set_queue (set_win p (installSignalHandlerForThread t (p_win p))) (p_queue p ++ [WFatal lv id m])) t (TWait k).
Proof. intros p t lv id m k I. unfold push_fatal. cbn [p_init set_win p_win p_queue]. rewrite I. reflexivity. Qed.
Lemma vectored_block : forall t code w, g_block (fst (vectorExceptionHandling t code w)) = g_block w.
Proof. intros. unfold vectorExceptionHandling. destruct (isKnownException code); [apply restore_block|reflexivity]. Qed.
Lemma keeps_unhandled : forall t p code m, p_end p = None -> keeps t p (unhandled p t code m).
Proof.
  intros t p code m N. unfold unhandled. destruct (v_filter (p_win p)).
  - constructor; cbn; auto; exists []; rewrite app_nil_r; reflexivity.
  - constructor; cbn; auto; exists []; rewrite app_nil_r; reflexivity.
  - unfold unexpectedExceptionHandling. eapply keeps_trans; [|apply keeps_win, restore_block|apply keeps_push]. exact N.
Qed.
Lemma keeps_search : forall t code handled m hs p, p_end p = None -> keeps t p (search p t code handled m hs).
Proof.
  intros t code handled m. induction hs as [|h r IH]; intros p N; cbn [search].
  - destruct handled; [|apply keeps_unhandled; exact N].
    constructor; cbn; auto.
    + intros u U. unfold updn. apply Nat.eqb_neq in U. rewrite U. reflexivity.
    + exists []. rewrite app_nil_r. reflexivity.
  - destruct (vectored_is_g3 (p_win p) h); [|apply IH; exact N].
    assert (B := vectored_block t code (p_win p)).
    destruct (vectorExceptionHandling t code (p_win p)) as [w [|]]; cbn [fst] in B.
    + eapply keeps_trans; [|apply keeps_win; exact B|apply keeps_push]. exact N.
    + eapply keeps_trans; [|apply keeps_win; exact B|apply IH; exact N]. exact N.
Qed.

(** ** runs *)
Lemma prun_app : forall l1 l2 p, prun p (l1 ++ l2) = match prun p l1 with Some q => prun q l2 | None => None end.
Proof. induction l1 as [|e l1 IH]; intros l2 p; [reflexivity|]. cbn [app prun]. destruct (pstep p e); [apply IH|reflexivity]. Qed.
Lemma prun_ind : forall (P : proc -> list pev -> Prop) p0, P p0 [] ->
  (forall l p e p', P p l -> pstep p e = Some p' -> P p' (l ++ [e])) -> forall l p, prun p0 l = Some p -> P p l.
Proof.
  intros P p0 B S l. induction l as [|e l IH] using rev_ind; intros p R; [cbn in R; injection R as <-; exact B|].
  rewrite prun_app in R. destruct (prun p0 l) as [q|]; [|discriminate]. cbn in R.
  destruct (pstep q e) as [q'|] eqn:E; [|discriminate]. injection R as <-. exact (S l q e q' (IH q eq_refl) E).
Qed.
Lemma pstep_alive : forall p e p', pstep p e = Some p' -> p_end p = None.
Proof. intros p e p' S. unfold pstep in S. destruct (p_end p); [discriminate|reflexivity]. Qed.
