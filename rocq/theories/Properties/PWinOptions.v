(** C142, C143: the build options of the Windows library.  Model: Model/WinOptions.v. *)
From Coq Require Import Ascii String List ZArith NArith Bool Lia.
From Verif.Base Require Import Bytes.
From Verif.Model Require Import Levels Signals Windows WinLife WinOptions.
From Verif.Spec Require Import WindowsSpec.
From Verif.Proofs Require Import BytesFacts WindowsFacts WinLifeFacts WinOptionsFacts.
From Verif.Properties Require Import PWinLife.
Import ListNotations.
Local Open Scope list_scope.
Local Open Scope Z_scope.

(** ** specification *)
(** built with ENABLE_FATAL_SIGNALHANDLING=OFF, with or without vectored exception handling *)
Definition no_signals (o : opts) : Prop := o_signals o = false.
(** built with ENABLE_VECTORED_EXCEPTIONHANDLING=OFF *)
Definition no_vectored (o : opts) : Prop := o_vectored o = false.
(** the program sets no handler of a signal; no handler that is g3log's *)
Definition sets_none (op : vop) : Prop := match op with VSignal _ _ _ => False | _ => True end.
Definition sets_own (op : vop) : Prop := match op with VSignal _ _ G3log => False | _ => True end.
Definition client (P : vop -> Prop) (e : pev) : Prop := match e with EOwn _ op => P op | _ => True end.
(** an event that makes no fatal message and no new logger *)
Definition harmless (e : pev) : Prop := match e with EFatal _ _ | EException _ _ _ _ | ESig _ _ _ | EInit _ => False | _ => True end.

(** ** the model with both options on is Model/WinLife.v *)
Theorem C142_default : forall own t0 l, prun_o o_default (p_start_o o_default own t0) l = prun (p_start own t0) l.
Proof.
  intros own t0 l. rewrite prun_default. f_equal. unfold p_start_o, p_start. rewrite vrun_default. reflexivity.
Qed.
Print Assumptions C142_default.

(** ** C142: signal handling switched off *)
Lemma push_reset : forall v p t lv id m k, reset_only (p_win p) (p_win (push_fatal_o (mkOpts false v) p t lv id m k)).
Proof.
  intros v p t lv id m k. unfold push_fatal_o. cbn [install_thread_o o_signals p_init set_win p_win].
  destruct (p_init p); [exact (reset_refl (p_win p))|].
  change (install_thread_o (mkOpts false v) t (p_win p)) with (p_win p).
  assert (E := exit_reset v t lv id (p_win p)). destruct (exit_o (mkOpts false v) t lv id (p_win p)) as [w e]. destruct e; exact E.
Qed.
Lemma push_filter : forall v p t lv id m k, v_filter (p_win (push_fatal_o (mkOpts false v) p t lv id m k)) = v_filter (p_win p).
Proof.
  intros v p t lv id m k. unfold push_fatal_o. cbn [install_thread_o o_signals p_init set_win p_win].
  destruct (p_init p); [reflexivity|].
  change (install_thread_o (mkOpts false v) t (p_win p)) with (p_win p). unfold exit_o. cbn [restore_o o_signals].
  destruct (levelEq FATAL_EXCEPTION lv); [reflexivity|]. destruct (existsb (Z.eqb id) five_signals); [|reflexivity].
  change (restore_o (mkOpts false v) t (p_win p)) with (p_win p). destruct (handler_of (p_win p) t id); reflexivity.
Qed.
Lemma search_off : forall v t code handled m hs p,
  reset_only (p_win p) (p_win (search_o (mkOpts false v) p t code handled m hs)) /\
  v_filter (p_win (search_o (mkOpts false v) p t code handled m hs)) = v_filter (p_win p).
Proof.
  intros v t code handled m. induction hs as [|h r IH]; intro p; cbn [search_o].
  - destruct handled; [split; [exact (reset_refl (p_win p))|reflexivity]|]. unfold unhandled_o.
    destruct (v_filter (p_win p)) eqn:F; [split; [exact (reset_refl (p_win p))|exact F]..|].
    rewrite push_filter. split; [|exact F]. exact (push_reset v (set_win p (p_win p)) t FATAL_EXCEPTION code m (AFilter code)).
  - destruct (vectored_is_g3 (p_win p) h); [|apply IH]. unfold vector_o. cbn [restore_o o_signals].
    destruct (isKnownException code); [|apply (IH (set_win p (p_win p)))].
    rewrite push_filter. split; [|reflexivity]. exact (push_reset v (set_win p (p_win p)) t FATAL_EXCEPTION code m (ASearch code handled r)).
Qed.
(** The library changes the handler of no signal.  What changes a handler is the program's call of signal(), and the C library, which sets a
    handler of the program back to the default action before it runs it: at a signal, and when the library raises one at the end. *)
Theorem C142_alone : forall o p e p', no_signals o -> pstep_o o p e = Some p' ->
  (forall t u s d, e <> EOwn t (VSignal u s d)) -> (forall t s m, e <> ESig t s m) ->
  forall t s, handler_of (p_win p') t s = handler_of (p_win p) t s \/
    (exists n, handler_of (p_win p) t s = User n /\ handler_of (p_win p') t s = Dfl) /\ (e = EClear \/ p_init p = false).
Proof.
  intros [sg v] p e p' O S NV NS. unfold no_signals in O. cbn in O. subst sg. unfold pstep_o in S. destruct (p_end p); [discriminate|].
  assert (W : forall P : Prop, P -> reset_only (p_win p) (p_win p') -> forall t s, handler_of (p_win p') t s = handler_of (p_win p) t s \/
    (exists n, handler_of (p_win p) t s = User n /\ handler_of (p_win p') t s = Dfl) /\ P).
  { intros P H R t s. destruct (R t s) as [E|E]; [left; exact E|right; split; assumption]. }
  assert (X : p_win p' = p_win p -> forall t s, handler_of (p_win p') t s = handler_of (p_win p) t s \/
    (exists n, handler_of (p_win p) t s = User n /\ handler_of (p_win p') t s = Dfl) /\ (e = EClear \/ p_init p = false)).
  { intros -> t s. left. reflexivity. }
  destruct e as [t m|t m|t code handled m|t s m|t m| | |t k|t|t|t op].
  - destruct (running p t); [|discriminate]. injection S as <-. apply X. cbn [p_init set_win]. destruct (p_init p); reflexivity.
  - destruct (running p t); [|discriminate]. injection S as <-. destruct (p_init p) eqn:I.
    + apply X. unfold push_fatal_o. cbn [p_init set_win]. rewrite I. reflexivity.
    + apply W; [auto|apply push_reset].
  - destruct (running p t); [|discriminate]. injection S as <-. destruct (p_init p) eqn:I; [|apply W; [auto|apply search_off]].
    apply X. generalize (map fst (v_vectored (p_win p))). intro hs. revert p I X W. clear. intros p I _ _. revert p I. induction hs as [|h r IH]; intros p I; cbn [search_o].
    + destruct handled; [reflexivity|]. unfold unhandled_o. destruct (v_filter (p_win p)); try reflexivity.
      unfold push_fatal_o. cbn [p_init set_win]. rewrite I. reflexivity.
    + destruct (vectored_is_g3 (p_win p) h); [|apply IH; exact I]. unfold vector_o. destruct (isKnownException code).
      * unfold push_fatal_o. cbn [p_init set_win]. rewrite I. reflexivity.
      * rewrite IH; [reflexivity|exact I].
  - exfalso. exact (NS t s m eq_refl).
  - unfold poll_o in S. destruct (p_threads p t) as [|k|]; try discriminate. destruct (g_block (p_win p)); [discriminate|].
    destruct k as [|code handled rest|code]; injection S as <-; [apply X; reflexivity| |apply X; reflexivity].
    destruct (p_init p) eqn:I; [|apply W; [auto|apply search_off]].
    apply X. revert p I X W. clear. intros p I _ _. revert p I. induction rest as [|h r IH]; intros p I; cbn [search_o].
    + destruct handled; [reflexivity|]. unfold unhandled_o. destruct (v_filter (p_win p)); try reflexivity.
      unfold push_fatal_o. cbn [p_init set_win]. rewrite I. reflexivity.
    + destruct (vectored_is_g3 (p_win p) h); [|apply IH; exact I]. unfold vector_o. destruct (isKnownException code).
      * unfold push_fatal_o. cbn [p_init set_win]. rewrite I. reflexivity.
      * rewrite IH; [reflexivity|exact I].
  - apply X. unfold work in S. destruct (running p 0); [|discriminate]. destruct (p_queue p) as [|[x|lv id x|x] q]; [discriminate| | |]; injection S as <-; reflexivity.
  - unfold clear_o in S. destruct (p_threads p 0%nat) as [| |lv id]; try discriminate. destruct (forallb _ _); [|discriminate].
    cbn [p_win set_sinks] in S. assert (E := exit_reset v 0 lv id (p_win p)).
    destruct (exit_o (mkOpts false v) 0 lv id (p_win p)) as [w x]. destruct x; injection S as <-; (apply W; [auto|exact E]).
  - destruct (running p t); [|discriminate]. injection S as <-. apply X. reflexivity.
  - destruct (running p t && negb (p_init p)); [|discriminate]. injection S as <-. apply X. reflexivity.
  - destruct (running p t); [|discriminate]. injection S as <-. apply X. reflexivity.
  - destruct (running p t); [|discriminate]. destruct op as [u|u|u|u s d|f|]; try discriminate; injection S as <-.
    + intros t' s'. left. cbn [p_win set_win vstep_o]. unfold install_crash_o. cbn [o_vectored install_thread_o o_signals]. destruct v; reflexivity.
    + exfalso. exact (NV t u s d eq_refl).
    + intros t' s'. left. reflexivity.
    + intros t' s'. left. reflexivity.
Qed.
Print Assumptions C142_alone.

(** In no run does a signal get to g3log, unless the program hands it g3log's handler; in a program that sets no handler, every signal has its default action. *)
Definition all_handlers (P : disp -> Prop) (w : win) : Prop := forall t s, P (handler_of w t s).
Lemma handlers_set : forall (P : disp -> Prop) w t s d, P d -> all_handlers P w -> all_handlers P (set_signal t d w s).
Proof.
  intros P w t s d D H u x. specialize (H u x). unfold handler_of, set_signal in *. cbn.
  destruct (per_thread s) eqn:A; destruct (per_thread x) eqn:B; auto; unfold updn, upd.
  - destruct (Nat.eqb_spec u t) as [->|_]; [|exact H]. destruct (Z.eqb x s); [exact D|exact H].
  - destruct (Z.eqb x s); [exact D|exact H].
Qed.
Lemma handlers_vrun : forall o (P : disp -> Prop) (Q : vop -> Prop), no_signals o -> (forall t s d, Q (VSignal t s d) -> P d) ->
  forall own w, Forall Q own -> all_handlers P w -> all_handlers P (vrun_o o w own).
Proof.
  intros [sg v] P Q O D. unfold no_signals in O. cbn in O. subst sg. unfold vrun_o.
  induction own as [|op own IH]; intros w F H; [exact H|]. cbn [fold_left]. inversion F as [|x l F1 F2]; subst. apply IH; [exact F2|].
  destruct op as [t|t|t|t s d|f|]; try exact H.
  - cbn [vstep_o]. unfold install_crash_o. cbn [o_vectored install_thread_o o_signals]. destruct v; exact H.
  - cbn [vstep_o vstep]. apply handlers_set; [exact (D t s d F1)|exact H].
Qed.
Lemma handlers_run : forall o (P : disp -> Prop) (Q : vop -> Prop), no_signals o -> P Dfl -> (forall t u s d, Q (VSignal t s d) -> Q (VSignal u s d)) ->
  (forall t s d, Q (VSignal t s d) -> P d) -> ~ P G3log ->
  forall own t0 l p, Forall Q own -> Forall (client Q) l -> prun_o o (p_start_o o own t0) l = Some p -> all_handlers P (p_win p).
Proof.
  intros o P Q O D U QP NG own t0 l p FO FL R. revert l p R FL.
  refine (prun_o_ind o (fun p l => Forall (client Q) l -> all_handlers P (p_win p)) (p_start_o o own t0) _ _).
  - intros _. cbn [p_win p_start_o].
    assert (H0 : all_handlers P v_start) by (intros t s; unfold handler_of; destruct (per_thread s); exact D).
    assert (H := handlers_vrun o P Q O QP own v_start FO H0).
    destruct o as [sg v]. unfold no_signals in O. cbn in O. subst sg. unfold install_crash_o. cbn [o_vectored install_thread_o o_signals]. destruct v; exact H.
  - intros l p e p' IH S F. apply Forall_app in F. destruct F as [F G]. specialize (IH F). inversion G as [|x y G1 _]; subst.
    destruct e as [t m|t m|t code handled m|t s m|t m| | |t k|t|t|t op].
    4:{ unfold pstep_o in S. destruct (p_end p); [discriminate|]. destruct (running p t && existsb (Z.eqb s) five_signals); [|discriminate].
        injection S as <-. unfold fatal_signal_o. destruct (handler_of (p_win p) t s) eqn:H.
        - exact IH.
        - exact IH.
        - apply handlers_set; assumption.
        - exfalso. apply NG. rewrite <- H. apply IH. }
    10:{ destruct op as [u|u|u|u s d|f|].
         4:{ unfold pstep_o in S. destruct (p_end p); [discriminate|]. destruct (running p t); [|discriminate]. injection S as <-.
             apply handlers_set; [exact (QP u s d G1)|exact IH]. }
         all: intros t' s'; destruct (C142_alone o p _ p' O S ltac:(discriminate) ltac:(discriminate) t' s') as [->|[[n [_ ->]] _]]; auto. }
    all: intros t' s'; destruct (C142_alone o p _ p' O S ltac:(discriminate) ltac:(discriminate) t' s') as [->|[[n [_ ->]] _]]; auto.
Qed.
Theorem C142_not_ours : forall o own t0 l p, no_signals o -> Forall sets_own own -> Forall (client sets_own) l ->
  prun_o o (p_start_o o own t0) l = Some p -> forall t s, handler_of (p_win p) t s <> G3log.
Proof.
  intros o own t0 l p O FO FL R. refine (handlers_run o (fun d => d <> G3log) sets_own O _ _ _ _ own t0 l p FO FL R).
  - discriminate.
  - intros t u s d H. exact H.
  - intros t s d H ->. exact H.
  - intro H. exact (H eq_refl).
Qed.
Print Assumptions C142_not_ours.
Theorem C142_all_default : forall o own t0 l p, no_signals o -> Forall sets_none own -> Forall (client sets_none) l ->
  prun_o o (p_start_o o own t0) l = Some p -> forall t s, handler_of (p_win p) t s = Dfl.
Proof.
  intros o own t0 l p O FO FL R. refine (handlers_run o (fun d => d = Dfl) sets_none O _ _ _ _ own t0 l p FO FL R).
  - reflexivity.
  - intros t u s d H. exact H.
  - intros t s d H. destruct H.
  - discriminate.
Qed.
Print Assumptions C142_all_default.

(** *** fatal calls, whatever the options *)
Lemma search_quiet_o : forall o t code m hs p, isKnownException code = false -> search_o o p t code true m hs = set_thread p t TRun.
Proof.
  intros o t code m. induction hs as [|h r IH]; intros p K; [reflexivity|].
  cbn [search_o]. destruct (vectored_is_g3 (p_win p) h); [|apply IH; exact K].
  unfold vector_o. rewrite K. rewrite IH by exact K. reflexivity.
Qed.
Lemma exit_o_ends : forall o t lv id w, kills lv id -> snd (exit_o o t lv id w) =
  match handler_of (restore_o o t w) t id with Dfl => WKilled id | d => WHandled d end.
Proof.
  intros o t lv id w [L I]. unfold exit_o. rewrite L. apply existsb_five in I. rewrite I. destruct (handler_of (restore_o o t w) t id); reflexivity.
Qed.
Lemma held_push_o : forall o p t lv id m k, kills lv id -> held p -> held (push_fatal_o o p t lv id m k).
Proof.
  intros o p t lv id m k K [HP HB HQ HC]. unfold push_fatal_o. cbn [p_init set_win p_win p_queue].
  destruct (p_init p).
  - constructor; cbn; auto.
    + intro E. rewrite install_o_block. exact (HB E).
    + intros lv' id' m' I. apply in_app_iff in I. destruct I as [I|[I|[]]]; [exact (HQ _ _ _ I)|]. injection I as <- <- _. exact K.
    + intros lv' id'. unfold updn. destruct (Nat.eqb 0 t); [discriminate|apply HC].
  - destruct (exit_o o t lv id (install_thread_o o t (p_win p))) as [w e].
    destruct e; constructor; cbn; auto; discriminate.
Qed.
Lemma held_step_o : forall o p e p', pstep_o o p e = Some p' -> quiet e -> held p -> held p'.
Proof.
  intros o p e p' S Q H. assert (N := pstep_o_alive _ _ _ _ S). assert (H' := H). destruct H' as [HP HB HQ HC].
  unfold pstep_o in S. rewrite N in S.
  destruct e as [t m|t m|t code handled m|t s m|t m| | |t k|t|t|t op]; cbn [quiet] in Q.
  - destruct (running p t); [|discriminate]. cbn [p_init set_win p_win p_queue] in S. injection S as <-.
    destruct (p_init p); constructor; cbn; auto; try (intro E; rewrite install_o_block; exact (HB E)).
    intros lv id m' I. apply in_app_iff in I. destruct I as [I|[I|[]]]; [exact (HQ _ _ _ I)|discriminate].
  - destruct (running p t); [|discriminate]. injection S as <-. apply held_push_o; [exact kills_fatal|exact H].
  - destruct (running p t) eqn:T; [|discriminate]. destruct Q as [-> Q]. apply undocumented_known in Q.
    injection S as <-. rewrite search_quiet_o by exact Q. constructor; cbn; auto.
    intros lv id. unfold updn. destruct (Nat.eqb 0 t); [discriminate|apply HC].
  - destruct (running p t); [|discriminate]. cbn [andb] in S.
    destruct (existsb (Z.eqb s) five_signals) eqn:F; [|discriminate]. apply existsb_five in F. injection S as <-. unfold fatal_signal_o.
    destruct (handler_of (p_win p) t s).
    + constructor; cbn; auto; discriminate.
    + exact H.
    + apply held_win; [reflexivity|exact H].
    + apply held_push_o; [apply kills_signal; exact F|apply held_win; [reflexivity|exact H]].
  - unfold poll_o in S. destruct (p_threads p t); try discriminate. rewrite (HB N) in S. discriminate.
  - unfold work in S. destruct (running p 0); [|discriminate]. destruct (p_queue p) as [|[x|lv id x|x] q] eqn:U; [discriminate| | |];
      injection S as <-; constructor; cbn; auto; try (intros lv' id' m' I; exact (HQ lv' id' m' (or_intror I))).
    intros lv' id' E. injection E as <- <-. exact (HQ lv id x (or_introl eq_refl)).
  - unfold clear_o in S. destruct (p_threads p 0%nat) as [| |lv id] eqn:T; try discriminate. destruct (forallb _ _); [|discriminate].
    cbn [p_win set_sinks] in S. destruct (HC lv id eq_refl) as [L I].
    assert (B := exit_o_block o 0 lv id (p_win p) L). destruct (exit_o o 0 lv id (p_win p)) as [w x]. cbn [fst] in B.
    destruct x; injection S as <-; constructor; cbn; auto; try discriminate.
    + intro E. rewrite B. exact (HB E).
    + intros lv' id' E. rewrite T in E. injection E as <- <-. split; assumption.
    + intro E. rewrite B. exact (HB E).
  - destruct (running p t); [|discriminate]. injection S as <-. constructor; cbn; auto.
    intros lv id m' I. apply in_app_iff in I. destruct I as [I|[I|[]]]; [exact (HQ _ _ _ I)|discriminate].
  - destruct (running p t && negb (p_init p)); [|discriminate]. injection S as <-. constructor; cbn; auto.
  - destruct (running p t); [|discriminate]. injection S as <-. constructor; cbn; auto.
  - destruct (running p t); [|discriminate]. destruct op as [u|u|u|u s d|f|]; try discriminate; injection S as <-;
      (apply held_win; [first [exact (install_crash_block o t (p_win p))|reflexivity]|exact H]).
Qed.
Lemma held_start_o : forall o own t0, held (p_start_o o own t0).
Proof.
  intros o own t0. constructor; cbn; auto.
  - intros _. rewrite install_crash_block, vrun_o_block. reflexivity.
  - intros lv id m [].
  - discriminate.
Qed.
Lemma held_run_o : forall o own t0 l p, prun_o o (p_start_o o own t0) l = Some p -> Forall quiet l -> held p.
Proof.
  intros o own t0 l p R. revert l p R.
  refine (prun_o_ind o (fun p l => Forall quiet l -> held p) (p_start_o o own t0) (fun _ => held_start_o o own t0) _).
  intros l p e p' IH S F. apply Forall_app in F. destruct F as [F G]. inversion G; subst. eapply held_step_o; eauto.
Qed.
(** Whatever the options, as long as no exception gets to g3log: no fatal call returns to its caller. *)
Theorem C142_held : forall o own t0 l p, prun_o o (p_start_o o own t0) l = Some p -> Forall quiet l -> p_past p = [].
Proof. intros o own t0 l p R Q. apply h_past. eapply held_run_o; eassumption. Qed.
Print Assumptions C142_held.
(** A thread that waits, waits on. *)
Lemma waits_step_o : forall o p e p' t k, pstep_o o p e = Some p' -> p_threads p t = TWait k -> g_block (p_win p) = true -> p_threads p' t = TWait k.
Proof.
  intros o p e p' t k S T B. assert (N := pstep_o_alive _ _ _ _ S). unfold pstep_o in S. rewrite N in S.
  assert (K : forall u q, running p u = true -> keeps u p q -> p_threads q t = TWait k).
  { intros u q U [_ _ _ _ _ X _ Y]. rewrite X; [exact T|]. intros ->. unfold running in U. rewrite T in U. discriminate. }
  destruct e as [u m|u m|u code handled m|u s m|u m| | |u j|u|u|u op].
  - destruct (running p u); [|discriminate]. injection S as <-. cbn [p_init set_win]. destruct (p_init p); exact T.
  - destruct (running p u) eqn:U; [|discriminate]. injection S as <-. apply (K u); [exact U|apply keeps_push_o].
  - destruct (running p u) eqn:U; [|discriminate]. injection S as <-. apply (K u); [exact U|apply keeps_search_o; exact N].
  - destruct (running p u) eqn:U; [|discriminate]. cbn [andb] in S. destruct (existsb (Z.eqb s) five_signals); [|discriminate]. injection S as <-. unfold fatal_signal_o.
    destruct (handler_of (p_win p) u s); try exact T.
    apply (K u); [exact U|]. eapply keeps_trans; [|apply keeps_win|apply keeps_push_o]; [exact N|reflexivity].
  - unfold poll_o in S. destruct (p_threads p u) as [|x|lv id] eqn:U; try discriminate. rewrite B in S. discriminate.
  - unfold work in S. destruct (running p 0) eqn:U; [|discriminate].
    assert (Z : t <> 0%nat). { intros ->. unfold running in U. rewrite T in U. discriminate. }
    apply Nat.eqb_neq in Z.
    destruct (p_queue p) as [|[x|lv id x|x] q]; [discriminate| | |]; injection S as <-; cbn; unfold updn; rewrite ?Z; auto.
  - unfold clear_o in S. destruct (p_threads p 0%nat) as [| |lv id] eqn:U; try discriminate. destruct (forallb _ _); [|discriminate].
    assert (Z : t <> 0%nat). { intros ->. rewrite T in U. discriminate. }
    apply Nat.eqb_neq in Z.
    destruct (exit_o o 0 lv id (p_win (set_sinks p [] (p_gone p ++ p_sinks p)))) as [w x].
    destruct x; injection S as <-; cbn; unfold updn; rewrite ?Z; auto.
  - destruct (running p u); [|discriminate]. injection S as <-. auto.
  - destruct (running p u && negb (p_init p)); [|discriminate]. injection S as <-. auto.
  - destruct (running p u); [|discriminate]. injection S as <-. auto.
  - destruct (running p u); [|discriminate]. destruct op; try discriminate; injection S as <-; exact T.
Qed.
Lemma waits_run_o : forall o l p p' t k, held p -> Forall quiet l -> prun_o o p l = Some p' -> p_threads p t = TWait k -> p_threads p' t = TWait k.
Proof.
  intros o. induction l as [|e l IH]; intros p p' t k H Q R T; [cbn in R; injection R as <-; exact T|].
  cbn [prun_o] in R. destruct (pstep_o o p e) as [q|] eqn:S; [|discriminate]. inversion Q as [|x y Q1 Q2]; subst.
  apply (IH q p'); [eapply held_step_o; eassumption|exact Q2|exact R|].
  eapply waits_step_o; [exact S|exact T|]. apply (h_block p H). eapply pstep_o_alive. exact S.
Qed.

(** What the end of the background thread's work on a fatal message does: the sinks are destroyed; if the signal has its default action in the
    background thread, the process ends by it.  Otherwise nothing ends it: the background thread goes on. *)
Theorem C142_clear : forall o own t0 l p p', no_signals o -> prun_o o (p_start_o o own t0) l = Some p -> Forall quiet l -> pstep_o o p EClear = Some p' ->
  exists lv s, p_threads p 0%nat = TClear lv s /\ In s (map fst win_signals) /\ p_sinks p' = [] /\ p_gone p' = p_gone p ++ p_sinks p /\
    (handler_of (p_win p) 0 s = Dfl -> p_end p' = Some (PSignal s)) /\
    (handler_of (p_win p) 0 s <> Dfl -> p_end p' = None /\ p_threads p' 0%nat = TRun).
Proof.
  intros [sg v] own t0 l p p' O R Q S. unfold no_signals in O. cbn in O. subst sg. assert (H := held_run_o _ _ _ _ _ R Q).
  assert (N := pstep_o_alive _ _ _ _ S).
  unfold pstep_o in S. rewrite N in S. unfold clear_o in S.
  destruct (p_threads p 0%nat) as [| |lv id] eqn:T; try discriminate. destruct (forallb _ _); [|discriminate].
  assert (K := h_clear p H lv id T). cbn [p_win set_sinks] in S. exists lv, id. split; [reflexivity|]. split; [exact (proj2 K)|].
  assert (E := exit_o_ends (mkOpts false v) 0 lv id (p_win p) K). change (restore_o (mkOpts false v) 0 (p_win p)) with (p_win p) in E.
  destruct (exit_o (mkOpts false v) 0 lv id (p_win p)) as [w x]. cbn [snd] in E. subst x.
  destruct (handler_of (p_win p) 0 id); injection S as <-; (split; [reflexivity|]); (split; [reflexivity|]); (split; intro D); try discriminate D;
    try (contradiction D; reflexivity); try reflexivity; (split; [exact N|reflexivity]).
Qed.
Print Assumptions C142_clear.
(** So LOG(FATAL) and CHECK end the process, after the sinks were flushed, in a program that sets no handlers. *)
Theorem C142_ends_partial : forall o own t0 l p p', no_signals o -> Forall sets_none own -> Forall (client sets_none) l ->
  prun_o o (p_start_o o own t0) l = Some p -> Forall quiet l -> pstep_o o p EClear = Some p' ->
  exists lv s, p_threads p 0%nat = TClear lv s /\ In s (map fst win_signals) /\ p_gone p' = p_gone p ++ p_sinks p /\ p_end p' = Some (PSignal s).
Proof.
  intros o own t0 l p p' O FO FL R Q S. destruct (C142_clear o own t0 l p p' O R Q S) as [lv [s [T [I [_ [G [D _]]]]]]].
  exists lv, s. split; [exact T|]. split; [exact I|]. split; [exact G|]. apply D. eapply C142_all_default; eassumption.
Qed.
Print Assumptions C142_ends_partial.

(** Refuted for a program with a handler of its own for SIGABRT, which returns: LOG(FATAL) neither ends the process nor returns.  The sinks are
    gone, and whatever happens (as long as no exception gets to g3log), the thread waits. *)
Definition c142_fatal : list pev := [EAdd 1 9; EWork; ELog 1 5; EFatal 1 6; EWork; EWork; EClear]%nat.
Theorem C142_hang_refuted : forall o, no_signals o -> exists p, prun_o o (p_start_o o [VSignal 1 WIN_SIGABRT (User 1)] 1) c142_fatal = Some p /\
  p_end p = None /\ p_queue p = [] /\ p_gone p = [(9, [5; 6])]%nat /\ p_init p = false /\ p_threads p 0%nat = TRun /\
  (forall l p', Forall quiet l -> prun_o o p l = Some p' -> p_threads p' 1%nat = TWait AReturn).
Proof.
  intros [sg v] O. unfold no_signals in O. cbn in O. subst sg.
  destruct (prun_o (mkOpts false v) (p_start_o (mkOpts false v) [VSignal 1 WIN_SIGABRT (User 1)] 1) c142_fatal) as [p|] eqn:R; [|destruct v; vm_compute in R; discriminate].
  exists p. split; [reflexivity|].
  assert (H : held p). { eapply held_run_o; [exact R|]. unfold c142_fatal. repeat (constructor; [exact I|]). constructor. }
  assert (F : p_end p = None /\ p_queue p = [] /\ p_gone p = [(9, [5; 6])]%nat /\ p_init p = false /\ p_threads p 0%nat = TRun /\ p_threads p 1%nat = TWait AReturn).
  { destruct v; vm_compute in R; injection R as <-; vm_compute; auto 10. }
  destruct F as [F1 [F2 [F3 [F4 [F5 F6]]]]]. repeat (split; [assumption|]).
  intros l p' Q R'. eapply waits_run_o; eassumption.
Qed.
Print Assumptions C142_hang_refuted.

(** *** exceptions, with signal handling off *)
(** Nobody but the program takes g3log's filter away: the function that would do it is empty. *)
Definition no_filter (e : pev) : Prop := match e with EOwn _ (VFilter _) => False | _ => True end.
(** what is known of a run in which nobody initializes logging again *)
Record spent (p : proc) : Prop := mkSpent {
  sp_filter : p_end p = None -> v_filter (p_win p) = FG3log;
  sp_clear : forall lv id, p_threads p 0%nat = TClear lv id -> p_init p = false;
  sp_block : p_end p = None -> g_block (p_win p) = false -> p_init p = false;
  sp_search : forall t code handled rest, p_threads p t = TWait (ASearch code handled rest) -> isKnownException code = true
}.
Lemma spent_push : forall v p t lv id m k, (forall code handled rest, k = ASearch code handled rest -> isKnownException code = true) ->
  spent p -> p_end p = None -> spent (push_fatal_o (mkOpts false v) p t lv id m k).
Proof.
  intros v p t lv id m k K [F C B S] N. unfold push_fatal_o. cbn [p_init set_win p_win p_queue]. destruct (p_init p) eqn:I.
  - constructor; cbn; rewrite ?I; auto.
    + intros lv' id'. unfold updn. destruct (Nat.eqb 0 t); [discriminate|exact (C lv' id')].
    + intros u code handled rest. unfold updn. destruct (Nat.eqb u t); [intro E; injection E as E; eapply K; exact E|apply S].
  - destruct (exit_o (mkOpts false v) t lv id (install_thread_o (mkOpts false v) t (p_win p))) as [w e].
    destruct e; constructor; cbn; auto; try discriminate.
Qed.
Lemma spent_same : forall p, spent p -> spent (set_win p (p_win p)).
Proof. intros p [F C B S]. constructor; cbn; auto. Qed.
Lemma spent_search : forall v t code handled m hs p, spent p -> p_end p = None -> spent (search_o (mkOpts false v) p t code handled m hs).
Proof.
  intros v t code handled m. induction hs as [|h r IH]; intros p H N; cbn [search_o].
  - destruct handled.
    + destruct H as [F C B S]. constructor; cbn; auto.
      * intros lv id. unfold updn. destruct (Nat.eqb 0 t); [discriminate|apply C].
      * intros u code' handled' rest. unfold updn. destruct (Nat.eqb u t); [discriminate|apply S].
    + unfold unhandled_o. destruct (v_filter (p_win p)) eqn:E;
        [destruct H as [F C B S]; constructor; cbn; auto; discriminate|destruct H as [F C B S]; constructor; cbn; auto; discriminate|].
      apply spent_push; [discriminate|apply spent_same; exact H|exact N].
  - destruct (vectored_is_g3 (p_win p) h); [|apply IH; assumption]. unfold vector_o. destruct (isKnownException code) eqn:K.
    + apply spent_push; [intros c d e E; injection E as <- _ _; exact K|apply spent_same; exact H|exact N].
    + apply IH; [apply spent_same; exact H|exact N].
Qed.
Lemma exit_off_filter : forall v t lv id w, v_filter (fst (exit_o (mkOpts false v) t lv id w)) = v_filter w.
Proof.
  intros v t lv id w. unfold exit_o. destruct (levelEq FATAL_EXCEPTION lv); [reflexivity|]. destruct (existsb (Z.eqb id) five_signals); [|reflexivity].
  change (restore_o (mkOpts false v) t w) with w. destruct (handler_of w t id); reflexivity.
Qed.
Lemma spent_step : forall v p e p', pstep_o (mkOpts false v) p e = Some p' -> no_filter e -> (forall t, e <> EInit t) -> spent p -> spent p'.
Proof.
  intros v p e p' S NF NI H. assert (N := pstep_o_alive _ _ _ _ S). unfold pstep_o in S. rewrite N in S.
  assert (H' := H). destruct H' as [F C B SE].
  destruct e as [t m|t m|t code handled m|t s m|t m| | |t k|t|t|t op].
  - destruct (running p t); [|discriminate]. injection S as <-. cbn [p_init set_win p_win p_queue]. destruct (p_init p) eqn:I; constructor; cbn; rewrite ?I; auto.
  - destruct (running p t); [|discriminate]. injection S as <-. apply spent_push; [discriminate|exact H|exact N].
  - destruct (running p t); [|discriminate]. injection S as <-. apply spent_search; assumption.
  - destruct (running p t && existsb (Z.eqb s) five_signals); [|discriminate]. injection S as <-. unfold fatal_signal_o.
    destruct (handler_of (p_win p) t s); [constructor; cbn; auto; discriminate|exact H|constructor; cbn; auto|].
    apply spent_push; [discriminate| |exact N]. constructor; cbn; auto.
  - unfold poll_o in S. destruct (p_threads p t) as [|k|] eqn:T; try discriminate. destruct (g_block (p_win p)) eqn:G; [discriminate|].
    destruct k as [|code handled rest|code]; injection S as <-.
    + constructor; cbn; auto.
      * intros u code handled rest. unfold updn. destruct (Nat.eqb u t); [discriminate|apply SE].
    + apply spent_search; assumption.
    + constructor; cbn; auto; discriminate.
  - unfold work in S. destruct (running p 0); [|discriminate]. destruct (p_queue p) as [|[x|lv id x|x] q]; [discriminate| | |]; injection S as <-; constructor; cbn; auto.
    intros t code handled rest. unfold updn. destruct (Nat.eqb t 0); [discriminate|apply SE].
  - unfold clear_o in S. destruct (p_threads p 0%nat) as [| |lv id] eqn:T; try discriminate. destruct (forallb _ _); [|discriminate].
    cbn [p_win set_sinks] in S. assert (FF := exit_off_filter v 0 lv id (p_win p)). destruct (exit_o (mkOpts false v) 0 lv id (p_win p)) as [w x]. cbn [fst] in FF.
    assert (I := C lv id eq_refl).
    destruct x; injection S as <-; constructor; cbn; auto; try discriminate; try (intro E; rewrite FF; auto; fail);
      intros t code handled rest; unfold updn; (destruct (Nat.eqb t 0); [discriminate|apply SE]).
  - destruct (running p t); [|discriminate]. injection S as <-. constructor; cbn; auto.
  - exfalso. exact (NI t eq_refl).
  - destruct (running p t); [|discriminate]. injection S as <-. constructor; cbn; auto.
  - destruct (running p t); [|discriminate]. destruct op as [u|u|u|u s d|f|]; try discriminate; injection S as <-.
    + constructor; cbn; auto.
      * intros _. unfold install_crash_o. destruct (o_vectored _); reflexivity.
      * intros E G. rewrite install_crash_block in G. auto.
    + constructor; cbn; auto.
    + destruct NF.
    + constructor; cbn; auto.
Qed.
Lemma spent_run : forall v own t0 l p, prun_o (mkOpts false v) (p_start_o (mkOpts false v) own t0) l = Some p -> Forall no_filter l -> no_init l -> spent p.
Proof.
  intros v own t0 l p R. revert l p R.
  refine (prun_o_ind (mkOpts false v) (fun p l => Forall no_filter l -> no_init l -> spent p) _ _ _).
  - intros _ _. constructor; cbn; auto.
    + intros _. unfold install_crash_o. destruct (o_vectored _); reflexivity.
    + discriminate.
    + intros _ G. rewrite install_crash_block, vrun_o_block in G. discriminate.
    + discriminate.
  - intros l p e p' IH S F NI. apply Forall_app in F. destruct F as [F G]. inversion G as [|x y G1 _]; subst.
    eapply spent_step; [exact S|exact G1|intros t ->; apply (NI t), in_app_iff; right; left; reflexivity|].
    apply IH; [exact F|]. intros t X. apply (NI t), in_app_iff. auto.
Qed.
(** A documented exception that the program does not handle: g3log logs it and flushes the sinks, but its filter is still there, and so the thread
    uses the logger that is gone.  This is so in every run, when nobody takes the filter away and nobody initializes logging again. *)
Theorem C142_exception : forall o own t0 l p t code rest m p', no_signals o -> prun_o o (p_start_o o own t0) l = Some p -> Forall no_filter l -> no_init l ->
  p_threads p t = TWait (ASearch code false rest) -> pstep_o o p (EPoll t m) = Some p' -> p_end p' = Some PUndefined.
Proof.
  intros [sg v] own t0 l p t code rest m p' O R NF NI T S. unfold no_signals in O. cbn in O. subst sg.
  assert (H := spent_run v own t0 l p R NF NI). assert (N := pstep_o_alive _ _ _ _ S). destruct H as [F _ B SE].
  specialize (F N). assert (K := SE _ _ _ _ T). unfold pstep_o in S. rewrite N in S. unfold poll_o in S. rewrite T in S.
  destruct (g_block (p_win p)) eqn:G; [discriminate|]. assert (I := B N eq_refl). injection S as <-.
  assert (U : forall q k, p_init q = false -> p_end (push_fatal_o (mkOpts false v) q t FATAL_EXCEPTION code m k) = Some PUndefined).
  { intros q k J. unfold push_fatal_o. cbn [p_init set_win]. rewrite J. destruct (exit_o_exception (mkOpts false v) t code (p_win (set_win q (install_thread_o (mkOpts false v) t (p_win q))))) as [w [-> _]]. reflexivity. }
  clear T B SE G N R. induction rest as [|h r IH]; cbn [search_o].
  - unfold unhandled_o. rewrite F. apply U. exact I.
  - destruct (vectored_is_g3 (p_win p) h); [|exact IH]. unfold vector_o. rewrite K. apply U. exact I.
Qed.
Print Assumptions C142_exception.
Definition c142_exception : list pev := [EAdd 1 9; EWork; ELog 1 5; EException 1 access_violation false 6; EWork; EWork; EClear; EPoll 1 7]%nat.
Theorem C142_exception_refuted : exists p, prun_o (mkOpts false true) (p_start_o (mkOpts false true) [] 1) c142_exception = Some p /\
  p_end p = Some PUndefined /\ p_gone p = [(9, [5; 6])]%nat.
Proof.
  destruct (prun_o (mkOpts false true) (p_start_o (mkOpts false true) [] 1) c142_exception) as [p|] eqn:R; [|vm_compute in R; discriminate].
  exists p. split; [reflexivity|]. vm_compute in R. injection R as <-. auto.
Qed.
Print Assumptions C142_exception_refuted.

(** ** C143: vectored exception handling switched off *)
(** none of g3log's vectored handlers is ever there *)
Definition no_g3 (w : win) : Prop := forall h, ~ In (h, true) (v_vectored w).
Lemma install_o_vectored : forall o t w, v_vectored (install_thread_o o t w) = v_vectored w.
Proof. intros o t w. unfold install_thread_o. destruct (o_signals o); [apply install_thread_vectored|reflexivity]. Qed.
Lemma restore_o_vectored : forall s t w, v_vectored (restore_o (mkOpts s false) t w) = v_vectored w.
Proof.
  intros s t w. unfold restore_o. cbn [o_signals o_vectored]. destruct s; [|reflexivity].
  match goal with |- context [fold_left ?f ?l ?x] => destruct (fold_set_signal_vectored t Dfl l x) as [-> _] end. reflexivity.
Qed.
Lemma no_g3_vstep : forall s w op, no_g3 w -> no_g3 (vstep_o (mkOpts s false) w op).
Proof.
  intros s w [t|t|t|t x d|f|] H h; cbn [vstep_o vstep].
  - rewrite install_o_vectored. apply H.
  - unfold install_crash_o. cbn [o_vectored v_vectored]. rewrite install_o_vectored. apply H.
  - rewrite restore_o_vectored. apply H.
  - apply H.
  - apply H.
  - cbn. intro I. apply in_app_iff in I. destruct I as [I|[I|[]]]; [exact (H h I)|discriminate].
Qed.
Lemma no_g3_vrun : forall s l w, no_g3 w -> no_g3 (vrun_o (mkOpts s false) w l).
Proof. unfold vrun_o. induction l as [|op l IH]; intros w H; [exact H|]. cbn [fold_left]. apply IH, no_g3_vstep, H. Qed.
Lemma no_g3_exit : forall s t lv id w, no_g3 w -> no_g3 (fst (exit_o (mkOpts s false) t lv id w)).
Proof.
  intros s t lv id w H h. unfold exit_o. destruct (levelEq FATAL_EXCEPTION lv); [cbn; rewrite restore_o_vectored; apply H|].
  destruct (existsb (Z.eqb id) five_signals); [|cbn; rewrite restore_o_vectored; apply H].
  destruct (handler_of (restore_o (mkOpts s false) t w) t id); cbn; rewrite restore_o_vectored; apply H.
Qed.
Lemma no_g3_push : forall s p t lv id m k, no_g3 (p_win p) -> no_g3 (p_win (push_fatal_o (mkOpts s false) p t lv id m k)).
Proof.
  intros s p t lv id m k H. unfold push_fatal_o. cbn [p_init set_win p_win].
  assert (H1 : no_g3 (install_thread_o (mkOpts s false) t (p_win p))) by (intro h; rewrite install_o_vectored; apply H).
  destruct (p_init p); [exact H1|]. assert (E := no_g3_exit s t lv id _ H1).
  destruct (exit_o (mkOpts s false) t lv id (install_thread_o (mkOpts s false) t (p_win p))) as [w e]. destruct e; exact E.
Qed.
Lemma no_g3_search : forall o t code handled m hs p, no_g3 (p_win p) -> search_o o p t code handled m hs = if handled then set_thread p t TRun else unhandled_o o p t code m.
Proof.
  intros o t code handled m. induction hs as [|h r IH]; intros p H; [reflexivity|]. cbn [search_o].
  replace (vectored_is_g3 (p_win p) h) with false; [apply IH; exact H|]. symmetry. apply not_true_iff_false. intro X.
  unfold vectored_is_g3 in X. apply existsb_exists in X. destruct X as [[x b] [J E]]. cbn in E. apply andb_true_iff in E. destruct E as [_ ->]. exact (H x J).
Qed.
Lemma no_g3_step : forall s p e p', pstep_o (mkOpts s false) p e = Some p' -> no_g3 (p_win p) -> no_g3 (p_win p').
Proof.
  intros s p e p' S H. unfold pstep_o in S. destruct (p_end p); [discriminate|].
  assert (U : forall t code handled m hs, no_g3 (p_win (search_o (mkOpts s false) p t code handled m hs))).
  { intros t code handled m hs. rewrite no_g3_search by exact H. destruct handled; [exact H|]. unfold unhandled_o.
    destruct (v_filter (p_win p)); try exact H. apply no_g3_push. intro h. cbn. rewrite restore_o_vectored. apply H. }
  destruct e as [t m|t m|t code handled m|t x m|t m| | |t k|t|t|t op].
  - destruct (running p t); [|discriminate]. injection S as <-. cbn [p_init set_win p_win].
    destruct (p_init p); intro h; cbn; rewrite install_o_vectored; apply H.
  - destruct (running p t); [|discriminate]. injection S as <-. apply no_g3_push. exact H.
  - destruct (running p t); [|discriminate]. injection S as <-. apply U.
  - destruct (running p t && existsb (Z.eqb x) five_signals); [|discriminate]. injection S as <-. unfold fatal_signal_o.
    destruct (handler_of (p_win p) t x); try exact H. apply no_g3_push. exact H.
  - unfold poll_o in S. destruct (p_threads p t) as [|k|]; try discriminate. destruct (g_block (p_win p)); [discriminate|].
    destruct k; injection S as <-; [exact H|apply U|exact H].
  - unfold work in S. destruct (running p 0); [|discriminate]. destruct (p_queue p) as [|[y|lv id y|y] q]; [discriminate| | |]; injection S as <-; exact H.
  - unfold clear_o in S. destruct (p_threads p 0%nat) as [| |lv id]; try discriminate. destruct (forallb _ _); [|discriminate].
    cbn [p_win set_sinks] in S. assert (E := no_g3_exit s 0 lv id (p_win p) H).
    destruct (exit_o (mkOpts s false) 0 lv id (p_win p)) as [w y]. destruct y; injection S as <-; exact E.
  - destruct (running p t); [|discriminate]. injection S as <-. exact H.
  - destruct (running p t && negb (p_init p)); [|discriminate]. injection S as <-. exact H.
  - destruct (running p t); [|discriminate]. injection S as <-. exact H.
  - destruct (running p t); [|discriminate]. destruct op as [u|u|u|u x d|f|]; try discriminate; injection S as <-.
    + exact (no_g3_vstep s (p_win p) (VInstall t) H).
    + exact H.
    + exact H.
    + exact (no_g3_vstep s (p_win p) VVectored H).
Qed.
Lemma no_g3_run : forall s own t0 l p, prun_o (mkOpts s false) (p_start_o (mkOpts s false) own t0) l = Some p -> no_g3 (p_win p).
Proof.
  intros s own t0. refine (prun_o_ind (mkOpts s false) (fun p _ => no_g3 (p_win p)) _ _ _).
  - cbn [p_win p_start_o]. apply (no_g3_vstep s _ (VInstall t0)). apply no_g3_vrun. intros h [].
  - intros l p e p' IH S. eapply no_g3_step; eassumption.
Qed.
(** An exception that the program handles changes nothing, whatever its code. *)
Theorem C143_handled : forall o own t0 l p t code m, no_vectored o -> prun_o o (p_start_o o own t0) l = Some p ->
  p_end p = None -> p_threads p t = TRun ->
  exists p', pstep_o o p (EException t code true m) = Some p' /\
  p_win p' = p_win p /\ p_init p' = p_init p /\ p_queue p' = p_queue p /\ p_sinks p' = p_sinks p /\ p_gone p' = p_gone p /\
  p_dropped p' = p_dropped p /\ p_past p' = p_past p /\ p_end p' = None /\ forall u, p_threads p' u = p_threads p u.
Proof.
  intros [s v] own t0 l p t code m O R N T. unfold no_vectored in O. cbn in O. subst v. assert (G := no_g3_run s own t0 l p R).
  unfold pstep_o. rewrite N. unfold running. rewrite T, no_g3_search by exact G. eexists. split; [reflexivity|]. cbn. repeat (split; [auto|]).
  intro u. unfold updn. destruct (Nat.eqb_spec u t) as [->|_]; [symmetry; exact T|reflexivity].
Qed.
Print Assumptions C143_handled.
(** One that the program does not handle, whatever its code: if g3log's filter is there, its message is queued and the thread waits; with signal
    handling, the filter that was there before g3log's is back. *)
Theorem C143_unhandled : forall o own t0 l p t code m, no_vectored o -> prun_o o (p_start_o o own t0) l = Some p ->
  p_end p = None -> p_threads p t = TRun -> p_init p = true -> v_filter (p_win p) = FG3log ->
  exists p', pstep_o o p (EException t code false m) = Some p' /\ p_end p' = None /\
  p_queue p' = p_queue p ++ [WFatal FATAL_EXCEPTION code m] /\ p_threads p' t = TWait (AFilter code) /\ p_sinks p' = p_sinks p /\ p_gone p' = p_gone p /\
  g_block (p_win p') = g_block (p_win p) /\
  v_filter (p_win p') = (if o_signals o then g_previous_unexpected_exception_handler (p_win p) else FG3log).
Proof.
  intros [s v] own t0 l p t code m O R N T I F. unfold no_vectored in O. cbn in O. subst v. assert (G := no_g3_run s own t0 l p R).
  unfold pstep_o. rewrite N. unfold running. rewrite T, no_g3_search by exact G. unfold unhandled_o. rewrite F. unfold push_fatal_o.
  cbn [p_init set_win p_win p_queue]. rewrite I. eexists. split; [reflexivity|]. cbn. split; [exact N|]. split; [reflexivity|].
  unfold updn. rewrite Nat.eqb_refl. repeat (split; [reflexivity|]). split; [rewrite install_o_block, restore_o_block; reflexivity|].
  unfold install_thread_o, restore_o. cbn [o_signals o_vectored]. destruct s; [|exact F].
  destruct (install_thread_vectored t (fold_left (set_signal t Dfl) [WIN_SIGABRT; WIN_SIGFPE; WIN_SIGSEGV; WIN_SIGILL; WIN_SIGTERM]
     (mkWin (v_thread (p_win p)) (v_process (p_win p)) (g_previous_unexpected_exception_handler (p_win p)) (v_vectored (p_win p)) (v_next (p_win p))
        (g_installed_thread_signal_handler (p_win p)) (g_previous_unexpected_exception_handler (p_win p)) (g_vector_exception_handler (p_win p)) (g_block (p_win p))))) as [_ ->].
  match goal with |- context [fold_left ?f ?l ?x] => destruct (fold_set_signal_vectored t Dfl l x) as [_ ->] end. reflexivity.
Qed.
Print Assumptions C143_unhandled.
(** The program's own filter of exceptions: initializing logging replaces it, and giving up g3log's handlers puts it back, whatever the program does to
    signals and vectored handlers in between; built without signal handling it is never put back. *)
Definition leaves_filter (op : vop) : Prop := match op with VLog _ | VSignal _ _ _ | VVectored => True | _ => False end.
Definition filters (w : win) : filter * filter := (v_filter w, g_previous_unexpected_exception_handler w).
Lemma fold_filters : forall t d l w, filters (fold_left (set_signal t d) l w) = filters w.
Proof. intros t d l. induction l as [|s l IH]; intros w; [reflexivity|]. cbn [fold_left]. rewrite IH. reflexivity. Qed.
Lemma install_thread_filters : forall o t w, filters (install_thread_o o t w) = filters w.
Proof.
  intros o t w. unfold install_thread_o. destruct (o_signals o); [|reflexivity]. unfold installSignalHandlerForThread.
  destruct (g_installed_thread_signal_handler w t); [reflexivity|]. rewrite fold_filters. reflexivity.
Qed.
Lemma install_crash_filters : forall o t w, filters (install_crash_o o t w) = (FG3log, v_filter w).
Proof.
  intros o t w. pose proof (install_thread_filters o t w) as E. unfold filters in E. injection E as E _. unfold install_crash_o.
  destruct (o_vectored o); unfold filters; cbn; rewrite E; reflexivity.
Qed.
Lemma vrun_filters : forall o l w, Forall leaves_filter l -> filters (vrun_o o w l) = filters w.
Proof.
  intros o l. induction l as [|op l IH]; intros w F; [reflexivity|]. inversion F as [|? ? L F']; subst. unfold vrun_o in *. cbn [fold_left]. rewrite IH by exact F'.
  destruct op; try (destruct L); [apply install_thread_filters|reflexivity|reflexivity].
Qed.
Theorem C143_filter_back : forall o t u w l, Forall leaves_filter l ->
  v_filter (vrun_o o (install_crash_o o t w) l) = FG3log /\
  v_filter (restore_o o u (vrun_o o (install_crash_o o t w) l)) = (if o_signals o then v_filter w else FG3log).
Proof.
  intros o t u w l F. pose proof (vrun_filters o l (install_crash_o o t w) F) as E. rewrite install_crash_filters in E.
  set (w1 := vrun_o o (install_crash_o o t w) l) in *. unfold filters in E. injection E as E1 E2. split; [exact E1|].
  unfold restore_o. destruct (o_signals o); [|exact E1]. destruct (o_vectored o); exact E2.
Qed.
Print Assumptions C143_filter_back.
Example C143_ex_filter : v_filter (restore_o (mkOpts true false) 1 (vrun_o (mkOpts true false) (install_crash_o (mkOpts true false) 1 (vstep_o (mkOpts true false) v_start (VFilter (FUser 4)))) [VLog 2; VVectored])) = FUser 4.
Proof. reflexivity. Qed.
(** When the thread is let go, the exception ends the process. *)
Theorem C143_ends : forall o p t code m p', p_threads p t = TWait (AFilter code) -> pstep_o o p (EPoll t m) = Some p' -> p_end p' = Some (PException code).
Proof.
  intros o p t code m p' T S. unfold pstep_o in S. destruct (p_end p); [discriminate|]. unfold poll_o in S. rewrite T in S.
  destruct (g_block (p_win p)); [discriminate|]. injection S as <-. reflexivity.
Qed.
Print Assumptions C143_ends.

(** *** before the process ends, the sinks have everything *)
(** With one fatal message in the queue and no further one made, whatever the options and the schedule: when the process has ended, every sink has
    got what was before the message, and the message. *)
Inductive phase (p0 : proc) (Q : list wtask) (m : nat) (p : proc) : Prop :=
| PhWork (q1 q2 : list wtask) (lv : LEVELS) (id : Z) : p_end p = None -> p_queue p = q1 ++ WFatal lv id m :: q2 ->
    (forall a b c, ~ In (WFatal a b c) q1) -> (forall a b c, ~ In (WFatal a b c) q2) -> sinks_after (p_sinks p) q1 = sinks_after (p_sinks p0) Q ->
    p_gone p = p_gone p0 -> g_block (p_win p) = true -> (forall a b, p_threads p 0%nat <> TClear a b) -> phase p0 Q m p
| PhClear : p_end p = None -> (forall a b c, ~ In (WFatal a b c) (p_queue p)) -> p_sinks p = send_all m (sinks_after (p_sinks p0) Q) ->
    p_gone p = p_gone p0 -> g_block (p_win p) = true -> (exists a b, p_threads p 0%nat = TClear a b) -> p_init p = false -> phase p0 Q m p
| PhDone : p_gone p = p_gone p0 ++ send_all m (sinks_after (p_sinks p0) Q) -> (p_end p <> None \/ (forall a b c, ~ In (WFatal a b c) (p_queue p)) /\
    (forall a b, p_threads p 0%nat <> TClear a b) /\ p_init p = false) -> phase p0 Q m p.
Lemma sinks_after_cons : forall l x q, sinks_after l (x :: q) = sinks_after (match x with WSave m => send_all m l | WAdd k => l ++ [(k, [])] | WFatal _ _ m => send_all m l end) q.
Proof. reflexivity. Qed.
Lemma not_in_snoc : forall (q : list wtask) x, (forall a b c, ~ In (WFatal a b c) q) -> (forall a b c, x <> WFatal a b c) -> forall a b c, ~ In (WFatal a b c) (q ++ [x]).
Proof. intros q x H X a b c I. apply in_app_iff in I. destruct I as [I|[I|[]]]; [exact (H a b c I)|exact (X a b c I)]. Qed.
(** a step of another thread that only adds a task, no fatal one, or changes the handlers *)
Lemma phase_add : forall p0 Q m p p' x, (forall q, In q x -> forall a b c, q <> WFatal a b c) -> p_end p = None ->
  p_queue p' = p_queue p ++ x -> p_sinks p' = p_sinks p -> p_gone p' = p_gone p -> g_block (p_win p') = g_block (p_win p) ->
  p_threads p' 0%nat = p_threads p 0%nat -> (p_init p = false -> p_init p' = false) -> p_end p' = None -> phase p0 Q m p -> phase p0 Q m p'.
Proof.
  intros p0 Q m p p' x X N EQ ES EG EB ET EI N' [q1 q2 lv id _ Hq H1 H2 Hs Hg Hb Ht|_ Hq Hs Hg Hb [a [b Ht]] Hi|Hg Hd].
  - apply (PhWork p0 Q m p' q1 (q2 ++ x) lv id); [exact N'| |exact H1| |congruence|congruence|congruence|].
    + rewrite EQ, Hq, <- app_assoc. reflexivity.
    + intros a b c I. apply in_app_iff in I. destruct I as [I|I]; [exact (H2 a b c I)|exact (X _ I a b c eq_refl)].
    + intros a b. rewrite ET. apply Ht.
  - apply PhClear; [exact N'| |congruence|congruence|congruence| |auto].
    + intros a' b' c' I. rewrite EQ in I. apply in_app_iff in I. destruct I as [I|I]; [exact (Hq a' b' c' I)|exact (X _ I a' b' c' eq_refl)].
    + exists a, b. congruence.
  - apply PhDone; [congruence|]. destruct Hd as [Hd|[Hq [Ht Hi]]]; [contradiction|]. right. split; [|split; [intros a b; rewrite ET; apply Ht|auto]].
    intros a b c I. rewrite EQ in I. apply in_app_iff in I. destruct I as [I|I]; [exact (Hq a b c I)|exact (X _ I a b c eq_refl)].
Qed.
(** without a logger, the search for a handler queues nothing *)
Lemma search_nolog : forall o t code handled m hs p, p_init p = false -> p_end p = None ->
  p_end (search_o o p t code handled m hs) <> None \/ handled = true /\ p_queue (search_o o p t code handled m hs) = p_queue p /\ p_threads (search_o o p t code handled m hs) t = TRun.
Proof.
  intros o t code handled m.
  assert (U : forall p k, p_init p = false -> p_end (push_fatal_o o p t FATAL_EXCEPTION code m k) <> None).
  { intros p k I. unfold push_fatal_o. cbn [p_init set_win]. rewrite I. destruct (exit_o _ _ _ _ _) as [w e]. destruct e; discriminate. }
  induction hs as [|h r IH]; intros p I N; cbn [search_o].
  - destruct handled; [right; cbn; unfold updn; rewrite Nat.eqb_refl; auto|]. left. unfold unhandled_o.
    destruct (v_filter (p_win p)); [discriminate|discriminate|]. apply U. exact I.
  - destruct (vectored_is_g3 (p_win p) h); [|apply IH; assumption]. unfold vector_o. destruct (isKnownException code).
    + left. apply U. exact I.
    + apply (IH (set_win p (p_win p))); assumption.
Qed.
Lemma phase_step : forall o p0 Q m p e p', pstep_o o p e = Some p' -> harmless e -> phase p0 Q m p -> phase p0 Q m p'.
Proof.
  intros o p0 Q m p e p' S L H. assert (N := pstep_o_alive _ _ _ _ S). unfold pstep_o in S. rewrite N in S.
  destruct e as [t x|t x|t code handled x|t s x|t x| | |t k|t|t|t op]; try destruct L.
  - destruct (running p t); [|discriminate]. injection S as <-. cbn [p_init set_win p_win p_queue]. destruct (p_init p) eqn:I.
    + eapply (phase_add _ _ _ p _ [WSave x]); [intros q [<-|[]]; discriminate|exact N| | | | | | | |exact H]; auto. cbn. apply install_o_block.
    + eapply (phase_add _ _ _ p _ []); [intros q []|exact N| | | | | | | |exact H]; auto; cbn; [rewrite app_nil_r; reflexivity|apply install_o_block].
  - unfold poll_o in S. destruct (p_threads p t) as [|k|] eqn:T; try discriminate. destruct (g_block (p_win p)) eqn:G; [discriminate|].
    destruct H as [q1 q2 lv id _ Hq H1 H2 Hs Hg Hb Ht|_ Hq Hs Hg Hb [a [b Ht]] Hi|Hg Hd]; [congruence|congruence|].
    destruct Hd as [Hd|[Hq [Ht Hi]]]; [contradiction|].
    destruct k as [|code handled rest|code]; injection S as <-.
    + apply PhDone; [exact Hg|]. right. cbn. split; [exact Hq|]. split; [|exact Hi]. intros a b. unfold updn. destruct (Nat.eqb 0 t); [discriminate|apply Ht].
    + destruct (keeps_search_o o t code handled x rest p N) as [_ K2 _ _ K5 K6 _ _]. apply PhDone; [rewrite K5; exact Hg|].
      destruct (search_nolog o t code handled x rest p Hi N) as [E|[_ [E1 E2]]]; [left; exact E|right].
      rewrite E1, K2. split; [exact Hq|]. split; [|exact Hi]. intros a b. destruct (Nat.eq_dec 0 t) as [<-|Z]; [rewrite E2; discriminate|rewrite K6 by exact Z; apply Ht].
    + apply PhDone; [exact Hg|]. left. discriminate.
  - unfold work in S. destruct (running p 0) eqn:W; [|discriminate]. unfold running in W.
    destruct H as [q1 q2 lv id _ Hq H1 H2 Hs Hg Hb Ht|_ Hq Hs Hg Hb [a [b Ht]] Hi|Hg Hd].
    + rewrite Hq in S. destruct q1 as [|y q1]; cbn [app] in S.
      * injection S as <-. apply PhClear; cbn; auto; [|exists lv, id; reflexivity]. rewrite <- Hs. reflexivity.
      * assert (H1' : forall a b c, ~ In (WFatal a b c) q1) by (intros a b c I; exact (H1 a b c (or_intror I))).
        rewrite sinks_after_cons in Hs.
        destruct y as [y|lv' id' y|y]; [|exfalso; exact (H1 lv' id' y (or_introl eq_refl))|]; injection S as <-;
          (apply (PhWork p0 Q m _ q1 q2 lv id); cbn; auto).
    + rewrite Ht in W. discriminate.
    + destruct Hd as [Hd|[Hq [Ht Hi]]]; [contradiction|].
      destruct (p_queue p) as [|y q] eqn:E; [discriminate|].
      assert (Hq' : forall a b c, ~ In (WFatal a b c) q) by (intros a b c I; exact (Hq a b c (or_intror I))).
      destruct y as [y|lv' id' y|y]; [|exfalso; exact (Hq lv' id' y (or_introl eq_refl))|]; injection S as <-;
        (apply PhDone; [exact Hg|right; cbn; auto]).
  - unfold clear_o in S. destruct (p_threads p 0%nat) as [| |lv id] eqn:T; try discriminate. destruct (forallb _ _); [|discriminate].
    destruct H as [q1 q2 lv' id' _ Hq H1 H2 Hs Hg Hb Ht|_ Hq Hs Hg Hb [a [b Ht]] Hi|Hg Hd].
    + exfalso. exact (Ht lv id T).
    + destruct (exit_o o 0 lv id (p_win (set_sinks p [] (p_gone p ++ p_sinks p)))) as [w y].
      assert (E : p_gone p ++ p_sinks p = p_gone p0 ++ send_all m (sinks_after (p_sinks p0) Q)) by (rewrite Hg, Hs; reflexivity).
      destruct y; injection S as <-; (apply PhDone; [exact E|]).
      * right. cbn. split; [exact Hq|]. split; [discriminate|exact Hi].
      * left. discriminate.
      * right. cbn. split; [exact Hq|]. split; [discriminate|exact Hi].
    + destruct Hd as [Hd|[_ [Ht _]]]; [contradiction|]. exfalso. exact (Ht lv id T).
  - destruct (running p t); [|discriminate]. injection S as <-.
    eapply (phase_add _ _ _ p _ [WAdd k]); [intros q [<-|[]]; discriminate|exact N| | | | | | | |exact H]; auto.
  - destruct (running p t); [|discriminate]. injection S as <-.
    eapply (phase_add _ _ _ p _ []); [intros q []|exact N| | | | | | | |exact H]; auto. cbn. rewrite app_nil_r. reflexivity.
  - destruct (running p t); [|discriminate]. destruct op as [u|u|u|u s d|f|]; try discriminate; injection S as <-;
      (eapply (phase_add _ _ _ p _ []); [intros q []|exact N|cbn; rewrite app_nil_r; reflexivity|reflexivity|reflexivity|
        cbn; first [reflexivity|apply install_crash_block]|reflexivity|auto|exact N|exact H]).
Qed.
Theorem C143_flushed_partial : forall o p Q lv id m l p',
  p_end p = None -> p_queue p = Q ++ [WFatal lv id m] -> (forall a b c, ~ In (WFatal a b c) Q) -> g_block (p_win p) = true ->
  (forall a b, p_threads p 0%nat <> TClear a b) -> Forall harmless l -> prun_o o p l = Some p' -> p_end p' <> None ->
  p_gone p' = p_gone p ++ send_all m (sinks_after (p_sinks p) Q).
Proof.
  intros o p Q lv id m l p' N HQ NF B T L R E.
  assert (P : phase p Q m p). { apply (PhWork p Q m p Q [] lv id); auto. }
  assert (P' : phase p Q m p').
  { clear N HQ NF B T E. set (p0 := p) in P at 1. change (phase p0 Q m p'). clearbody p0. revert p P R.
    induction l as [|e l IH]; intros p P R; [cbn in R; injection R as <-; exact P|].
    cbn [prun_o] in R. destruct (pstep_o o p e) as [q|] eqn:S; [|discriminate]. inversion L as [|x y L1 L2]; subst.
    apply (IH L2 q); [eapply phase_step; eassumption|exact R]. }
  destruct P' as [q1 q2 lv' id' N' _ _ _ _ _ _ _|N' _ _ _ _ _ _|Hg _]; [contradiction|contradiction|exact Hg].
Qed.
Print Assumptions C143_flushed_partial.

(** Refuted for two threads with an exception each, with signal handling, with or without vectored exception handling: the first takes g3log's
    handlers away, so the second ends the process at once.  The entry before it and the first message are still in the queue. *)
Definition c143_two : list pev := [EAdd 1 9; EWork; ELog 1 5; EException 1 access_violation false 6; EException 2 access_violation false 7]%nat.
Theorem C143_two_refuted : forall o, o_signals o = true -> exists p, prun_o o (p_start_o o [] 1) c143_two = Some p /\
  p_end p = Some (PException access_violation) /\ p_queue p = [WSave 5; WFatal FATAL_EXCEPTION access_violation 6] /\ p_sinks p = [(9, [])]%nat /\ p_gone p = [].
Proof.
  intros [sg v] O. cbn in O. subst sg. destruct (prun_o (mkOpts true v) (p_start_o (mkOpts true v) [] 1) c143_two) as [p|] eqn:R; [|destruct v; vm_compute in R; discriminate].
  exists p. split; [reflexivity|]. destruct v; vm_compute in R; injection R as <-; auto.
Qed.
Print Assumptions C143_two_refuted.
(** With neither option the filter stays, and both messages are queued. *)
Example C143_ex_two : exists p, prun_o (mkOpts false false) (p_start_o (mkOpts false false) [] 1) c143_two = Some p /\
  p_end p = None /\ p_queue p = [WSave 5; WFatal FATAL_EXCEPTION access_violation 6; WFatal FATAL_EXCEPTION access_violation 7].
Proof.
  destruct (prun_o (mkOpts false false) (p_start_o (mkOpts false false) [] 1) c143_two) as [p|] eqn:R; [|vm_compute in R; discriminate].
  exists p. split; [reflexivity|]. vm_compute in R. injection R as <-. auto.
Qed.

(** ** the hypotheses are met *)
(** C142_alone, C142_not_ours, C142_clear: the program's handler of SIGTERM is still there after logging, and after LOG(FATAL), which ends the process by SIGABRT *)
Example C142_ex : exists p, prun_o (mkOpts false true) (p_start_o (mkOpts false true) [VSignal 1 WIN_SIGTERM (User 3)] 1) c142_fatal = Some p /\
  p_end p = Some (PSignal WIN_SIGABRT) /\ p_gone p = [(9, [5; 6])]%nat /\ handler_of (p_win p) 1 WIN_SIGTERM = User 3 /\ handler_of (p_win p) 1 WIN_SIGSEGV = Dfl.
Proof.
  destruct (prun_o (mkOpts false true) (p_start_o (mkOpts false true) [VSignal 1 WIN_SIGTERM (User 3)] 1) c142_fatal) as [p|] eqn:R; [|vm_compute in R; discriminate].
  exists p. split; [reflexivity|]. vm_compute in R. injection R as <-. auto.
Qed.
(** with the options on it is g3log's *)
Example C142_ex_on : exists p, prun_o o_default (p_start_o o_default [VSignal 1 WIN_SIGTERM (User 3)] 1) [ELog 1 5] = Some p /\ handler_of (p_win p) 1 WIN_SIGTERM = G3log.
Proof.
  destruct (prun_o o_default (p_start_o o_default [VSignal 1 WIN_SIGTERM (User 3)] 1) [ELog 1 5]) as [p|] eqn:R; [|vm_compute in R; discriminate].
  exists p. split; [reflexivity|]. vm_compute in R. injection R as <-. auto.
Qed.
(** C143_handled, C143_unhandled, C143_ends, C143_flushed_partial: an access violation that the program handles, then logging, then an exception
    of the program's own that nobody handles *)
Definition c143_one : list pev := [EAdd 1 9; EWork; EException 1 access_violation true 4; ELog 1 5; EException 1 77 false 6; EWork; EWork; EClear; EPoll 1 7]%nat.
Example C143_ex : forall s, exists p, prun_o (mkOpts s false) (p_start_o (mkOpts s false) [VVectored] 1) c143_one = Some p /\
  p_end p = Some (PException 77) /\ p_gone p = [(9, [5; 6])]%nat.
Proof.
  intro s. destruct (prun_o (mkOpts s false) (p_start_o (mkOpts s false) [VVectored] 1) c143_one) as [p|] eqn:R; [|destruct s; vm_compute in R; discriminate].
  exists p. split; [reflexivity|]. destruct s; vm_compute in R; injection R as <-; auto.
Qed.
