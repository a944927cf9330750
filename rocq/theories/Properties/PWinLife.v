(** C127-C130: a process on Windows.  Model: Model/WinLife.v. *)
From Coq Require Import Ascii String List ZArith NArith Bool Lia.
From Verif.Base Require Import Bytes.
From Verif.Model Require Import Levels Signals Windows WinLife.
From Verif.Spec Require Import WindowsSpec.
From Verif.Proofs Require Import BytesFacts WindowsFacts WinLifeFacts.
Import ListNotations.
Local Open Scope list_scope.
Local Open Scope Z_scope.

(** ** specification *)
(** the entries below FATAL that a run logs, in order *)
Definition logs (l : list pev) : list nat := flat_map (fun e => match e with ELog _ m => [m] | _ => [] end) l.
(** nobody initializes logging again *)
Definition no_init (l : list pev) : Prop := forall t, ~ In (EInit t) l.
(** g3log's vectored handler is there *)
Definition armed (w : win) : Prop := exists h, In (h, true) (v_vectored w).
(** an exception that g3log has no reason to look at: the program handles it and it is none of the documented ones *)
Definition quiet (e : pev) : Prop :=
  match e with EException _ code handled _ => handled = true /\ ~ In code (map fst documented) | _ => True end.

Definition access_violation : Z := status 3 5.

(** ** C127: exceptions that the program handles *)
Lemma armed_is_g3 : forall w, armed w -> exists h, In h (map fst (v_vectored w)) /\ vectored_is_g3 w h = true.
Proof.
  intros w [h I]. exists h. split; [change h with (fst (h, true)); apply in_map; exact I|].
  unfold vectored_is_g3. apply existsb_exists. exists (h, true). split; [exact I|]. cbn. rewrite Nat.eqb_refl. reflexivity.
Qed.
Lemma documented_known : forall code, In code (map fst documented) -> isKnownException code = true.
Proof. intros code I. destruct (exception_cases code) as [[v [_ [_ K]]]|[N _]]; [exact K|contradiction]. Qed.
Lemma undocumented_known : forall code, ~ In code (map fst documented) -> isKnownException code = false.
Proof.
  intros code N. destruct (exception_cases code) as [[v [I _]]|[_ [_ K]]]; [|exact K].
  exfalso. apply N. change code with (fst (code, v)). apply in_map. exact I.
Qed.
(** the first of g3log's handlers takes a documented exception *)
Lemma search_takes : forall t code handled m hs p, isKnownException code = true ->
  (exists h, In h hs /\ vectored_is_g3 (p_win p) h = true) ->
  exists r, search p t code handled m hs =
    push_fatal (set_win p (restoreFatalHandlingToDefault_win t (p_win p))) t FATAL_EXCEPTION code m (ASearch code handled r).
Proof.
  intros t code handled m. induction hs as [|h r IH]; intros p K [x [I V]]; [destruct I|].
  cbn [search]. destruct (vectored_is_g3 (p_win p) h) eqn:G.
  - unfold vectorExceptionHandling. rewrite K. exists r. reflexivity.
  - apply IH; [exact K|]. exists x. split; [|exact V]. destruct I as [->|I]; [congruence|exact I].
Qed.
(** Every documented exception is taken as a fatal event, also one that the program would handle. *)
Theorem C127_documented : forall p t code handled m,
  p_end p = None -> p_threads p t = TRun -> p_init p = true -> armed (p_win p) -> In code (map fst documented) ->
  exists p' k, pstep p (EException t code handled m) = Some p' /\
    p_queue p' = p_queue p ++ [WFatal FATAL_EXCEPTION code m] /\ p_threads p' t = TWait k.
Proof.
  intros p t code handled m N R I A D. apply armed_is_g3 in A. apply documented_known in D.
  destruct (search_takes t code handled m _ p D A) as [r E].
  unfold pstep. rewrite N. unfold running. rewrite R, E. unfold push_fatal. cbn [p_init set_win p_win p_queue]. rewrite I.
  eexists. exists (ASearch code handled r). split; [reflexivity|]. cbn. unfold updn. rewrite Nat.eqb_refl. auto.
Qed.
Print Assumptions C127_documented.

(** When the background thread has taken a fatal message, whatever it is about, everything logged from then on is
    dropped, until logging is initialized again. *)
Lemma dropped_step : forall p e p', pstep p e = Some p' -> (forall t, e <> EInit t) -> p_init p = false ->
  p_init p' = false /\ p_dropped p' = p_dropped p ++ logs [e].
Proof.
  intros p e p' S NI I. assert (N := pstep_alive _ _ _ S). unfold pstep in S. rewrite N in S.
  destruct e as [t m|t m|t code handled m|t s m|t m| | |t k|t|t|t o]; cbn [logs flat_map app]; rewrite ?app_nil_r.
  - destruct (running p t); [|discriminate]. cbn [p_init set_win] in S. rewrite I in S. injection S as <-. cbn. auto.
  - destruct (running p t); [|discriminate]. injection S as <-.
    destruct (keeps_push t p FATAL WIN_SIGABRT m AReturn) as [D J _ _ _ _ _ _]. rewrite D, J. auto.
  - destruct (running p t); [|discriminate]. injection S as <-.
    destruct (keeps_search t code handled m (map fst (v_vectored (p_win p))) p N) as [D J _ _ _ _ _ _]. rewrite D, J. auto.
  - destruct (running p t && existsb (Z.eqb s) five_signals); [|discriminate]. injection S as <-. unfold fatal_signal.
    destruct (handler_of (p_win p) t s); try (cbn; auto; fail).
    match goal with |- context [push_fatal ?q ?t ?lv ?id ?m ?k] => destruct (keeps_push t q lv id m k) as [D J _ _ _ _ _ _] end.
    rewrite D, J. cbn. auto.
  - unfold poll in S. destruct (p_threads p t) as [|k|lv id] eqn:T; try discriminate.
    destruct (g_block (p_win p)); [discriminate|]. destruct k as [|code handled rest|code].
    + injection S as <-. cbn. auto.
    + injection S as <-. destruct (keeps_search t code handled m rest p N) as [D J _ _ _ _ _ _]. rewrite D, J. auto.
    + injection S as <-. cbn. auto.
  - unfold work in S. destruct (running p 0); [|discriminate]. destruct (p_queue p) as [|[x|lv id x|x] q]; [discriminate| | |];
      injection S as <-; cbn; auto.
  - unfold clear in S. destruct (p_threads p 0%nat); try discriminate. destruct (forallb _ _); [|discriminate].
    destruct (exitWithDefaultSignalHandler_win 0 lv id (p_win (set_sinks p [] (p_gone p ++ p_sinks p)))) as [w x].
    destruct x; injection S as <-; cbn; auto.
  - destruct (running p t); [|discriminate]. injection S as <-. cbn. auto.
  - exfalso. exact (NI t eq_refl).
  - destruct (running p t); [|discriminate]. injection S as <-. cbn. auto.
  - destruct (running p t); [|discriminate]. destruct o; try discriminate; injection S as <-; cbn; auto.
Qed.
Lemma dropped_run : forall l p p', prun p l = Some p' -> no_init l -> p_init p = false ->
  p_init p' = false /\ p_dropped p' = p_dropped p ++ logs l.
Proof.
  induction l as [|e l IH]; intros p p' R NI I.
  - cbn in R. injection R as <-. rewrite app_nil_r. auto.
  - cbn [prun] in R. destruct (pstep p e) as [q|] eqn:S; [|discriminate].
    destruct (dropped_step p e q S) as [J D]; [intros t ->; exact (NI t (or_introl eq_refl))|exact I|].
    destruct (IH q p' R) as [J' D']; [intros t X; exact (NI t (or_intror X))|exact J|].
    split; [exact J'|]. rewrite D', D, <- app_assoc. f_equal. unfold logs. cbn [flat_map]. rewrite app_nil_r. reflexivity.
Qed.
Theorem C127_dropped : forall p lv id m q l p',
  p_queue p = WFatal lv id m :: q -> prun p (EWork :: l) = Some p' -> no_init l -> p_dropped p' = p_dropped p ++ logs l.
Proof.
  intros p lv id m q l p' Q R NI. cbn [prun] in R. destruct (pstep p EWork) as [p1|] eqn:S; [|discriminate].
  assert (J : p_init p1 = false /\ p_dropped p1 = p_dropped p).
  { unfold pstep in S. destruct (p_end p); [discriminate|]. unfold work in S. destruct (running p 0); [|discriminate].
    rewrite Q in S. injection S as <-. cbn. auto. }
  destruct J as [J D]. destruct (dropped_run l p1 p' R NI J) as [_ E]. rewrite E, D. reflexivity.
Qed.
Print Assumptions C127_dropped.
(** ... and the sinks are gone. *)
Theorem C127_sinks : forall p p', pstep p EClear = Some p' -> p_sinks p' = [] /\ p_gone p' = p_gone p ++ p_sinks p.
Proof.
  intros p p' S. unfold pstep in S. destruct (p_end p); [discriminate|]. unfold clear in S.
  destruct (p_threads p 0%nat); try discriminate. destruct (forallb _ _); [|discriminate].
  destruct (exitWithDefaultSignalHandler_win 0 lv id (p_win (set_sinks p [] (p_gone p ++ p_sinks p)))) as [w x].
  destruct x; injection S as <-; cbn; auto.
Qed.
Print Assumptions C127_sinks.

(** An exception that is not documented and that the program handles changes nothing. *)
Lemma search_quiet : forall t code m hs p, isKnownException code = false ->
  search p t code true m hs = set_thread p t TRun \/ exists w, w = p_win p /\ search p t code true m hs = set_thread (set_win p w) t TRun.
Proof.
  intros t code m. induction hs as [|h r IH]; intros p K; [left; reflexivity|].
  cbn [search]. destruct (vectored_is_g3 (p_win p) h); [|apply IH; exact K].
  unfold vectorExceptionHandling. rewrite K. right. exists (p_win p). split; [reflexivity|].
  destruct (IH (set_win p (p_win p)) K) as [E|[w [-> E]]]; rewrite E; reflexivity.
Qed.
Theorem C127_other_partial : forall p t code m,
  p_end p = None -> p_threads p t = TRun -> ~ In code (map fst documented) ->
  exists p', pstep p (EException t code true m) = Some p' /\
    p_win p' = p_win p /\ p_init p' = p_init p /\ p_queue p' = p_queue p /\ p_sinks p' = p_sinks p /\ p_gone p' = p_gone p /\
    p_dropped p' = p_dropped p /\ p_past p' = p_past p /\ p_end p' = p_end p /\ forall u, p_threads p' u = p_threads p u.
Proof.
  intros p t code m N R D. apply undocumented_known in D. unfold pstep. rewrite N. unfold running. rewrite R.
  assert (T : forall u, updn (p_threads p) t TRun u = p_threads p u).
  { intro u. unfold updn. destruct (Nat.eqb_spec u t) as [->|_]; [symmetry; exact R|reflexivity]. }
  destruct (search_quiet t code m (map fst (v_vectored (p_win p))) p D) as [E|[w [-> E]]]; rewrite E; eexists; (split; [reflexivity|]); cbn; auto 20.
Qed.
Print Assumptions C127_other_partial.

(** Refuted: an access violation that the program handles; the entry after it reaches no sink, though everything has come
    to rest and the process is alive. *)
Definition c127_run : list pev :=
  [EAdd 1 9; EWork; ELog 1 5; EException 1 access_violation true 6; EWork; EWork; EClear; EPoll 1 0; ELog 1 7]%nat.
Theorem C127_refuted : exists p, prun (p_start [] 1) c127_run = Some p /\ p_end p = None /\ p_queue p = [] /\
  (forall t, p_threads p t = TRun) /\ p_sinks p = [] /\ p_gone p = [(9, [5; 6])]%nat /\ In (ELog 1 7) c127_run /\ p_dropped p = [7%nat].
Proof.
  destruct (prun (p_start [] 1) c127_run) as [p|] eqn:R; [|vm_compute in R; discriminate]. exists p. split; [reflexivity|].
  vm_compute in R. injection R as <-. cbn.
  repeat (split; [reflexivity|]). split; [|repeat (split; [reflexivity|]); split; [auto 20|reflexivity]].
  intro t. unfold updn. destruct t as [|[|t]]; reflexivity.
Qed.
Print Assumptions C127_refuted.

(** ** C128: fatal calls do not return *)
(** as long as there are only fatal calls and signals: the threads are held, and every fatal message is one that kills *)
Definition kills (lv : LEVELS) (id : Z) : Prop := levelEq FATAL_EXCEPTION lv = false /\ In id (map fst win_signals).
Record held (p : proc) : Prop := mkHeld {
  h_past : p_past p = [];
  h_block : p_end p = None -> g_block (p_win p) = true;
  h_queue : forall lv id m, In (WFatal lv id m) (p_queue p) -> kills lv id;
  h_clear : forall lv id, p_threads p 0%nat = TClear lv id -> kills lv id
}.
Lemma kills_fatal : kills FATAL WIN_SIGABRT.
Proof. split; [vm_compute; reflexivity|]. cbn. auto 10. Qed.
Lemma kills_signal : forall s, In s (map fst win_signals) -> kills FATAL_SIGNAL s.
Proof. intros s I. split; [vm_compute; reflexivity|exact I]. Qed.
Lemma held_push : forall p t lv id m k, p_threads p t = TRun -> p_end p = None -> kills lv id -> held p -> held (push_fatal p t lv id m k).
Proof.
  intros p t lv id m k T N K [HP HB HQ HC]. unfold push_fatal. cbn [p_init set_win p_win p_queue].
  destruct (p_init p).
  - constructor; cbn; auto.
    + intro E. rewrite install_thread_block. exact (HB E).
    + intros lv' id' m' I. apply in_app_iff in I. destruct I as [I|[I|[]]]; [exact (HQ _ _ _ I)|]. injection I as <- <- _. exact K.
    + intros lv' id'. unfold updn. destruct (Nat.eqb 0 t); [discriminate|apply HC].
  - assert (E := exit_kills (installSignalHandlerForThread t (p_win p)) t lv id (proj1 K) (proj2 K)).
    destruct (exitWithDefaultSignalHandler_win t lv id (installSignalHandlerForThread t (p_win p))) as [w e]. cbn [snd] in E. subst e.
    constructor; cbn; auto. discriminate.
Qed.
Lemma held_win : forall p w, g_block w = g_block (p_win p) -> held p -> held (set_win p w).
Proof. intros p w E [HP HB HQ HC]. constructor; cbn; auto. intro N. rewrite E. exact (HB N). Qed.
Lemma held_step : forall p e p', pstep p e = Some p' -> quiet e -> held p -> held p'.
Proof.
  intros p e p' S Q H. assert (N := pstep_alive _ _ _ S). assert (H' := H). destruct H' as [HP HB HQ HC].
  unfold pstep in S. rewrite N in S.
  destruct e as [t m|t m|t code handled m|t s m|t m| | |t k|t|t|t o]; cbn [quiet] in Q.
  - destruct (running p t); [|discriminate]. cbn [p_init set_win p_win p_queue] in S. injection S as <-.
    destruct (p_init p); constructor; cbn; auto; try (intro E; rewrite install_thread_block; exact (HB E)).
    intros lv id m' I. apply in_app_iff in I. destruct I as [I|[I|[]]]; [exact (HQ _ _ _ I)|discriminate].
  - unfold running in S. destruct (p_threads p t) eqn:T; try discriminate. injection S as <-.
    apply held_push; [exact T|exact N|exact kills_fatal|exact H].
  - unfold running in S. destruct (p_threads p t) eqn:T; try discriminate. destruct Q as [-> Q]. apply undocumented_known in Q.
    injection S as <-.
    assert (Z : forall w, g_block w = g_block (p_win p) -> held (set_thread (set_win p w) t TRun)).
    { intros w E. constructor; cbn; auto; [intro E'; rewrite E; exact (HB E')|]. intros lv id. unfold updn. destruct (Nat.eqb 0 t); [discriminate|apply HC]. }
    destruct (search_quiet t code m (map fst (v_vectored (p_win p))) p Q) as [E|[w [-> E]]]; rewrite E; apply (Z (p_win p)); reflexivity.
  - unfold running in S. destruct (p_threads p t) eqn:T; try discriminate. cbn [andb] in S.
    destruct (existsb (Z.eqb s) five_signals) eqn:F; [|discriminate]. apply existsb_five in F. injection S as <-. unfold fatal_signal.
    destruct (handler_of (p_win p) t s); try exact H.
    + constructor; cbn; auto; try discriminate.
    + apply held_win; [reflexivity|exact H].
    + apply held_push; [exact T|exact N|apply kills_signal; exact F|apply held_win; [reflexivity|exact H]].
  - unfold poll in S. destruct (p_threads p t) as [|k|lv id] eqn:T; try discriminate. rewrite (HB N) in S. discriminate.
  - unfold work in S. destruct (running p 0); [|discriminate]. destruct (p_queue p) as [|[x|lv id x|x] q] eqn:U; [discriminate| | |];
      injection S as <-; constructor; cbn; auto; try (intros lv' id' m' I; exact (HQ lv' id' m' (or_intror I))).
    intros lv' id' E. injection E as <- <-. exact (HQ lv id x (or_introl eq_refl)).
  - unfold clear in S. destruct (p_threads p 0%nat) as [| |lv id] eqn:T; try discriminate. destruct (forallb _ _); [|discriminate].
    destruct (HC lv id eq_refl) as [L I].
    assert (E := exit_kills (p_win (set_sinks p [] (p_gone p ++ p_sinks p))) 0 lv id L I).
    destruct (exitWithDefaultSignalHandler_win 0 lv id (p_win (set_sinks p [] (p_gone p ++ p_sinks p)))) as [w x]. cbn [snd] in E. subst x.
    injection S as <-. constructor; cbn; auto; [discriminate|]. intros lv' id' E. rewrite T in E. injection E as <- <-. split; assumption.
  - destruct (running p t); [|discriminate]. injection S as <-. constructor; cbn; auto.
    intros lv id m' I. apply in_app_iff in I. destruct I as [I|[I|[]]]; [exact (HQ _ _ _ I)|discriminate].
  - destruct (running p t && negb (p_init p)); [|discriminate]. injection S as <-. constructor; cbn; auto.
  - destruct (running p t); [|discriminate]. injection S as <-. constructor; cbn; auto.
  - destruct (running p t); [|discriminate]. destruct o as [u|u|u|u s d|f|]; try discriminate; injection S as <-.
    + apply held_win; [exact (vstep_block (p_win p) (VInstall t))|exact H].
    + apply held_win; [reflexivity|exact H].
    + apply held_win; [reflexivity|exact H].
    + apply held_win; [reflexivity|exact H].
Qed.
Lemma held_start : forall own t0, held (p_start own t0).
Proof.
  intros own t0. constructor; cbn; auto.
  - intros _. change (g_block (installSignalHandlerForThread t0 (vrun v_start own)) = true). rewrite install_thread_block, vrun_block. reflexivity.
  - intros lv id m [].
  - discriminate.
Qed.
Lemma held_run : forall own t0 l p, prun (p_start own t0) l = Some p -> Forall quiet l -> held p.
Proof.
  intros own t0 l p R. revert l p R.
  refine (prun_ind (fun p l => Forall quiet l -> held p) (p_start own t0) (fun _ => held_start own t0) _).
  intros l p e p' IH S F. apply Forall_app in F. destruct F as [F G]. inversion G; subst. eapply held_step; eauto.
Qed.
(** As long as no exception gets to g3log, no fatal call ever returns to its caller, whatever else the threads do. *)
Theorem C128_held_partial : forall own t0 l p,
  prun (p_start own t0) l = Some p -> (forall e, In e l -> quiet e) -> p_past p = [].
Proof. intros own t0 l p R Q. apply h_past. eapply held_run; [exact R|]. apply Forall_forall. exact Q. Qed.
Print Assumptions C128_held_partial.
(** ... and the background thread ends the process by the signal the message is about (SIGABRT for LOG(FATAL) and CHECK),
    as soon as the sinks have been destroyed. *)
Theorem C128_ends_partial : forall own t0 l p p',
  prun (p_start own t0) l = Some p -> (forall e, In e l -> quiet e) -> pstep p EClear = Some p' ->
  exists lv s, p_threads p 0%nat = TClear lv s /\ In s (map fst win_signals) /\ p_end p' = Some (PSignal s).
Proof.
  intros own t0 l p p' R Q S. assert (H : held p). { eapply held_run; [exact R|]. apply Forall_forall. exact Q. }
  unfold pstep in S. destruct (p_end p); [discriminate|]. unfold clear in S.
  destruct (p_threads p 0%nat) as [| |lv id] eqn:T; try discriminate. destruct (forallb _ _); [|discriminate].
  destruct (h_clear p H lv id T) as [L I].
  assert (E := exit_kills (p_win (set_sinks p [] (p_gone p ++ p_sinks p))) 0 lv id L I).
  destruct (exitWithDefaultSignalHandler_win 0 lv id (p_win (set_sinks p [] (p_gone p ++ p_sinks p)))) as [w x]. cbn [snd] in E. subst x.
  injection S as <-. exists lv, id. cbn. auto.
Qed.
Print Assumptions C128_ends_partial.
(** What a fatal call leaves in the queue and in its thread *)
Theorem C128_call : forall p t m, p_end p = None -> p_threads p t = TRun -> p_init p = true ->
  exists p', pstep p (EFatal t m) = Some p' /\ p_queue p' = p_queue p ++ [WFatal FATAL WIN_SIGABRT m] /\ p_threads p' t = TWait AReturn.
Proof.
  intros p t m N R I. unfold pstep. rewrite N. unfold running. rewrite R. unfold push_fatal. cbn [p_init set_win p_win p_queue]. rewrite I.
  eexists. split; [reflexivity|]. cbn. unfold updn. rewrite Nat.eqb_refl. auto.
Qed.
Print Assumptions C128_call.
(** Refuted when another thread has an exception: its message releases everybody.  Here the program goes on after
    LOG(FATAL) while the message is still waiting in the queue. *)
Definition c128_run : list pev :=
  [EException 1 access_violation true 6; EFatal 2 7; EWork; EClear; EPoll 2 0; ELog 2 8]%nat.
Theorem C128_refuted : exists p, prun (p_start [] 1) c128_run = Some p /\ p_end p = None /\ p_past p = [2%nat] /\
  p_queue p = [WFatal FATAL WIN_SIGABRT 7] /\ p_threads p 2%nat = TRun.
Proof.
  destruct (prun (p_start [] 1) c128_run) as [p|] eqn:R; [|vm_compute in R; discriminate]. exists p. split; [reflexivity|].
  vm_compute in R. injection R as <-. auto.
Qed.
Print Assumptions C128_refuted.
(** also long after an exception that was handled, when logging has been initialized again: no fatal call waits any more *)
Definition c128_run2 : list pev :=
  [EException 1 access_violation true 6; EWork; EClear; EPoll 1 0; EInit 1; EFatal 2 7; EPoll 2 0; ELog 2 8]%nat.
Theorem C128_again_refuted : exists p, prun (p_start [] 1) c128_run2 = Some p /\ p_end p = None /\ p_past p = [2%nat] /\
  p_queue p = [WFatal FATAL WIN_SIGABRT 7; WSave 8].
Proof.
  destruct (prun (p_start [] 1) c128_run2) as [p|] eqn:R; [|vm_compute in R; discriminate]. exists p. split; [reflexivity|].
  vm_compute in R. injection R as <-. auto.
Qed.
Print Assumptions C128_again_refuted.

(** What a fatal signal leaves: its message in the queue, its thread waiting, and the default action for the signal, which the C library has set,
    unless this is the first time that the thread comes to the library, which then installs its handlers anew. *)
Theorem C128_signal : forall p t s m, p_end p = None -> p_threads p t = TRun -> p_init p = true -> In s five_signals -> handler_of (p_win p) t s = G3log ->
  exists p', pstep p (ESig t s m) = Some p' /\ p_end p' = None /\ p_queue p' = p_queue p ++ [WFatal FATAL_SIGNAL s m] /\ p_threads p' t = TWait AReturn /\
    handler_of (p_win p') t s = (if g_installed_thread_signal_handler (p_win p) t then Dfl else G3log) /\
    (per_thread s = false -> forall u, handler_of (p_win p') u s = handler_of (p_win p') t s).
Proof.
  intros p t s m N R I F H. unfold pstep. rewrite N. unfold running. rewrite R.
  assert (X : existsb (Z.eqb s) five_signals = true) by (apply existsb_exists; exists s; split; [exact F|apply Z.eqb_refl]). rewrite X. cbn [andb].
  unfold fatal_signal. rewrite H. unfold push_fatal. cbn [p_init set_win p_win p_queue]. rewrite I.
  eexists. split; [reflexivity|]. cbn [p_end p_queue p_threads p_win set_thread set_queue set_win].
  split; [exact N|]. split; [reflexivity|]. split; [unfold updn; rewrite Nat.eqb_refl; reflexivity|].
  unfold installSignalHandlerForThread. cbn [g_installed_thread_signal_handler set_signal]. split.
  - destruct (g_installed_thread_signal_handler (p_win p) t).
    + rewrite handler_set, Z.eqb_refl. reflexivity.
    + cbn in F. repeat (destruct F as [<-|F]; [vm_compute; rewrite ?Nat.eqb_refl; reflexivity|]). destruct F.
  - intros P u. unfold handler_of. rewrite P. reflexivity.
Qed.
Print Assumptions C128_signal.
(** Refuted for two threads that abort: the handler of SIGABRT is one for the whole process and is gone once it was called, so the second thread
    ends the process at once.  The message of the first is still in the queue, and so is the entry before it. *)
Definition c128_abort : list pev := [EAdd 1 9; EWork; ELog 1 5; ESig 1 WIN_SIGABRT 6; ESig 2 WIN_SIGABRT 7]%nat.
Theorem C128_abort_refuted : exists p, prun (p_start [] 1) c128_abort = Some p /\ Forall quiet c128_abort /\ p_end p = Some (PSignal WIN_SIGABRT) /\
  p_queue p = [WSave 5; WFatal FATAL_SIGNAL WIN_SIGABRT 6] /\ p_sinks p = [(9, [])]%nat /\ p_gone p = [].
Proof.
  destruct (prun (p_start [] 1) c128_abort) as [p|] eqn:R; [|vm_compute in R; discriminate]. exists p. split; [reflexivity|].
  split; [unfold c128_abort; repeat (constructor; [exact I|]); constructor|].
  vm_compute in R. injection R as <-. auto.
Qed.
Print Assumptions C128_abort_refuted.

(** ** C129: after logging was shut down *)
(** A documented exception uses the null pointer, whatever the program would have done about it. *)
Theorem C129_undefined : forall p t code handled m,
  p_end p = None -> p_threads p t = TRun -> p_init p = false -> armed (p_win p) -> In code (map fst documented) ->
  exists p', pstep p (EException t code handled m) = Some p' /\ p_end p' = Some PUndefined.
Proof.
  intros p t code handled m N R I A D. apply armed_is_g3 in A. apply documented_known in D.
  destruct (search_takes t code handled m _ p D A) as [r E].
  unfold pstep. rewrite N. unfold running. rewrite R, E. unfold push_fatal. cbn [p_init set_win p_win p_queue]. rewrite I.
  match goal with |- context [exitWithDefaultSignalHandler_win t FATAL_EXCEPTION code ?w] =>
    assert (X := proj1 (exit_exception w t code)); destruct (exitWithDefaultSignalHandler_win t FATAL_EXCEPTION code w) as [w' x] end.
  cbn [snd] in X. subst x. eexists. split; reflexivity.
Qed.
Print Assumptions C129_undefined.
(** Any exception that nobody handles does so too, when g3log's filter is in place and no vectored handler takes it. *)
Lemma search_unhandled : forall t code m hs p, isKnownException code = false ->
  exists w, w = p_win p /\ search p t code false m hs = unhandled (set_win p w) t code m \/ search p t code false m hs = unhandled p t code m.
Proof.
  intros t code m. induction hs as [|h r IH]; intros p K; [exists (p_win p); right; reflexivity|].
  cbn [search]. destruct (vectored_is_g3 (p_win p) h); [|apply IH; exact K].
  unfold vectorExceptionHandling. rewrite K. destruct (IH (set_win p (p_win p)) K) as [w [[-> E]|E]]; exists (p_win p); left; rewrite E; auto.
Qed.
Theorem C129_filter : forall p t code m,
  p_end p = None -> p_threads p t = TRun -> p_init p = false -> v_filter (p_win p) = FG3log -> ~ In code (map fst documented) ->
  exists p', pstep p (EException t code false m) = Some p' /\ p_end p' = Some PUndefined.
Proof.
  intros p t code m N R I F D. apply undocumented_known in D. unfold pstep. rewrite N. unfold running. rewrite R.
  assert (U : forall w, w = p_win p -> p_end (unhandled (set_win p w) t code m) = Some PUndefined).
  { intros w ->. unfold unhandled. cbn [set_win p_win]. rewrite F. unfold unexpectedExceptionHandling, push_fatal. cbn [p_init set_win p_win p_queue].
    rewrite I.
    match goal with |- context [exitWithDefaultSignalHandler_win t FATAL_EXCEPTION code ?w] =>
      assert (X := proj1 (exit_exception w t code)); destruct (exitWithDefaultSignalHandler_win t FATAL_EXCEPTION code w) as [w' x] end.
    cbn [snd] in X. subst x. reflexivity. }
  assert (V : p_end (unhandled p t code m) = Some PUndefined). { specialize (U (p_win p) eq_refl). unfold unhandled in *. cbn [set_win p_win] in U. destruct (v_filter (p_win p)); exact U. }
  destruct (search_unhandled t code m (map fst (v_vectored (p_win p))) p D) as [w [[-> E]|E]]; rewrite E; eexists; (split; [reflexivity|]); auto.
Qed.
Print Assumptions C129_filter.
(** LOG(FATAL), CHECK and the signals that g3log handles end the process as they should. *)
Theorem C129_fatal_partial : forall p t m, p_end p = None -> p_threads p t = TRun -> p_init p = false ->
  exists p', pstep p (EFatal t m) = Some p' /\ p_end p' = Some (PSignal 22).
Proof.
  intros p t m N R I. unfold pstep. rewrite N. unfold running. rewrite R. unfold push_fatal. cbn [p_init set_win p_win p_queue]. rewrite I.
  assert (X := exit_kills (installSignalHandlerForThread t (p_win p)) t FATAL WIN_SIGABRT (proj1 kills_fatal) (proj2 kills_fatal)).
  destruct (exitWithDefaultSignalHandler_win t FATAL WIN_SIGABRT (installSignalHandlerForThread t (p_win p))) as [w x].
  cbn [snd] in X. subst x. eexists. split; reflexivity.
Qed.
Print Assumptions C129_fatal_partial.
Theorem C129_signal_partial : forall p t s m, p_end p = None -> p_threads p t = TRun -> p_init p = false ->
  In s (map fst win_signals) -> handler_of (p_win p) t s = G3log ->
  exists p', pstep p (ESig t s m) = Some p' /\ p_end p' = Some (PSignal s).
Proof.
  intros p t s m N R I J H. unfold pstep. rewrite N. unfold running. rewrite R. cbn [andb].
  rewrite (proj2 (existsb_five s) J). unfold fatal_signal. rewrite H. unfold push_fatal. cbn [p_init set_win p_win p_queue]. rewrite I.
  match goal with |- context [exitWithDefaultSignalHandler_win t FATAL_SIGNAL s ?w] =>
    assert (X := exit_kills w t FATAL_SIGNAL s (proj1 (kills_signal s J)) J); destruct (exitWithDefaultSignalHandler_win t FATAL_SIGNAL s w) as [w' x] end.
  cbn [snd] in X. subst x. eexists. split; reflexivity.
Qed.
Print Assumptions C129_signal_partial.
Theorem C129_refuted : exists p, prun (p_start [] 1) [EShut 1; EException 1 access_violation true 6]%nat = Some p /\ p_end p = Some PUndefined.
Proof.
  destruct (prun (p_start [] 1) [EShut 1; EException 1 access_violation true 6]%nat) as [p|] eqn:R; [|vm_compute in R; discriminate].
  exists p. split; [reflexivity|]. vm_compute in R. injection R as <-. reflexivity.
Qed.
Print Assumptions C129_refuted.

(** ** C130: exceptions in the threads of the library *)
(** A waiting thread waits on as long as g3log's flag is set, and only the background thread unsets it. *)
Lemma waits_step : forall p e p' t k, pstep p e = Some p' -> p_threads p t = TWait k -> g_block (p_win p) = true ->
  p_threads p' t = TWait k /\ (g_block (p_win p') = true \/ p_end p' <> None \/ e = EClear).
Proof.
  intros p e p' t k S T B. assert (N := pstep_alive _ _ _ S). unfold pstep in S. rewrite N in S.
  assert (K : forall u q, running p u = true -> keeps u p q -> p_threads q t = TWait k /\ (g_block (p_win q) = true \/ p_end q <> None \/ e = EClear)).
  { intros u q U [_ _ _ _ _ X _ Y]. split.
    - rewrite X; [exact T|]. intros ->. unfold running in U. rewrite T in U. discriminate.
    - destruct Y as [Y|Y]; [left; congruence|auto]. }
  destruct e as [u m|u m|u code handled m|u s m|u m| | |u j|u|u|u o].
  - destruct (running p u); [|discriminate]. injection S as <-. cbn [p_init set_win p_win p_queue].
    destruct (p_init p); cbn; rewrite install_thread_block; auto.
  - destruct (running p u) eqn:U; [|discriminate]. injection S as <-. apply (K u); [exact U|apply keeps_push].
  - destruct (running p u) eqn:U; [|discriminate]. injection S as <-. apply (K u); [exact U|apply keeps_search; exact N].
  - destruct (running p u) eqn:U; [|discriminate]. cbn [andb] in S. destruct (existsb (Z.eqb s) five_signals); [|discriminate]. injection S as <-. unfold fatal_signal.
    destruct (handler_of (p_win p) u s); try (split; [exact T|left; exact B]).
    apply (K u); [exact U|]. eapply keeps_trans; [|apply keeps_win|apply keeps_push]; [exact N|reflexivity].
  - unfold poll in S. destruct (p_threads p u) as [|x|lv id] eqn:U; try discriminate. rewrite B in S. discriminate.
  - unfold work in S. destruct (running p 0) eqn:U; [|discriminate].
    assert (Z : t <> 0%nat). { intros ->. unfold running in U. rewrite T in U. discriminate. }
    apply Nat.eqb_neq in Z.
    destruct (p_queue p) as [|[x|lv id x|x] q]; [discriminate| | |]; injection S as <-; cbn; unfold updn; rewrite ?Z; auto.
  - unfold clear in S. destruct (p_threads p 0%nat) as [| |lv id] eqn:U; try discriminate. destruct (forallb _ _); [|discriminate].
    assert (Z : t <> 0%nat). { intros ->. rewrite T in U. discriminate. }
    apply Nat.eqb_neq in Z.
    destruct (exitWithDefaultSignalHandler_win 0 lv id (p_win (set_sinks p [] (p_gone p ++ p_sinks p)))) as [w x].
    destruct x; injection S as <-; cbn; unfold updn; rewrite ?Z; auto.
  - destruct (running p u); [|discriminate]. injection S as <-. auto.
  - destruct (running p u && negb (p_init p)); [|discriminate]. injection S as <-. auto.
  - destruct (running p u); [|discriminate]. injection S as <-. auto.
  - destruct (running p u); [|discriminate]. destruct o as [v|v|v|v s d|f|]; try discriminate; injection S as <-; cbn [p_threads set_win p_win]; (split; [exact T|left]).
    + exact (eq_trans (vstep_block (p_win p) (VInstall u)) B).
    + exact B.
    + exact B.
    + exact B.
Qed.
(** Nobody but the background thread takes from its queue or touches the sinks *)
Lemma idle_step : forall p e p', pstep p e = Some p' -> e <> EWork -> e <> EClear ->
  p_sinks p' = p_sinks p /\ p_gone p' = p_gone p /\ exists q, p_queue p' = p_queue p ++ q.
Proof.
  intros p e p' S Z NC. assert (N := pstep_alive _ _ _ S). unfold pstep in S. rewrite N in S.
  assert (K : forall u q, keeps u p q -> p_sinks q = p_sinks p /\ p_gone q = p_gone p /\ exists x, p_queue q = p_queue p ++ x).
  { intros u q [_ _ _ A B _ C _]. auto. }
  assert (E : exists q, p_queue p = p_queue p ++ q) by (exists []; rewrite app_nil_r; reflexivity).
  destruct e as [u m|u m|u code handled m|u s m|u m| | |u j|u|u|u o].
  - destruct (running p u); [|discriminate]. injection S as <-. cbn [p_init set_win p_win p_queue]. destruct (p_init p); cbn; eauto.
  - destruct (running p u) eqn:U; [|discriminate]. injection S as <-. apply (K u), keeps_push.
  - destruct (running p u) eqn:U; [|discriminate]. injection S as <-. apply (K u), keeps_search. exact N.
  - destruct (running p u && existsb (Z.eqb s) five_signals); [|discriminate]. injection S as <-. unfold fatal_signal.
    destruct (handler_of (p_win p) u s); cbn; auto.
    apply (K u). eapply keeps_trans; [|apply keeps_win|apply keeps_push]; [exact N|reflexivity].
  - unfold poll in S. destruct (p_threads p u) as [|x|lv id]; try discriminate. destruct (g_block (p_win p)); [discriminate|].
    destruct x; injection S as <-; cbn; auto. apply (K u), keeps_search. exact N.
  - contradiction Z. reflexivity.
  - contradiction NC. reflexivity.
  - destruct (running p u); [|discriminate]. injection S as <-. cbn. eauto.
  - destruct (running p u && negb (p_init p)); [|discriminate]. injection S as <-. cbn. auto.
  - destruct (running p u); [|discriminate]. injection S as <-. cbn. auto.
  - destruct (running p u); [|discriminate]. destruct o; try discriminate; injection S as <-; cbn; auto.
Qed.
(** An exception in the background thread that g3log takes: the thread waits for itself.  Nothing in its queue is ever
    dealt with, no sink gets anything any more, and the thread never gets to the handlers of the program. *)
Theorem C130_background : forall p code handled m p1 l p2,
  p_threads p 0%nat = TRun -> p_init p = true -> g_block (p_win p) = true -> armed (p_win p) -> In code (map fst documented) ->
  pstep p (EException 0 code handled m) = Some p1 -> prun p1 l = Some p2 ->
  (exists k, p_threads p2 0%nat = TWait k) /\ p_sinks p2 = p_sinks p /\ p_gone p2 = p_gone p /\
  exists q, p_queue p2 = p_queue p ++ WFatal FATAL_EXCEPTION code m :: q.
Proof.
  intros p code handled m p1 l p2 T I B A D S R.
  assert (G : exists k, p_threads p1 0%nat = TWait k /\ g_block (p_win p1) = true /\ p_sinks p1 = p_sinks p /\ p_gone p1 = p_gone p /\
              p_queue p1 = p_queue p ++ [WFatal FATAL_EXCEPTION code m]).
  { assert (N := pstep_alive _ _ _ S).
    destruct (C127_documented p 0 code handled m N T I A D) as [p' [k [S' [Q W]]]]. rewrite S in S'. injection S' as <-.
    exists k. split; [exact W|]. unfold pstep in S. rewrite N in S. unfold running in S. rewrite T in S.
    assert (E := search_takes 0 code handled m _ p (documented_known code D) (armed_is_g3 _ A)). destruct E as [r E].
    rewrite E, push_init in S by exact I. injection S as <-. split; [|auto].
    cbn [p_win set_thread set_queue set_win]. rewrite install_thread_block, restore_block. exact B. }
  destruct G as [k [W [B1 [SK [GO Q]]]]]. clear S T.
  enough (H : p_threads p2 0%nat = TWait k /\ p_sinks p2 = p_sinks p /\ p_gone p2 = p_gone p /\ exists q, p_queue p2 = p_queue p1 ++ q).
  { destruct H as [H1 [H2 [H3 [q H4]]]]. split; [exists k; exact H1|]. split; [exact H2|]. split; [exact H3|].
    exists q. rewrite H4, Q, <- app_assoc. reflexivity. }
  assert (H0 : p_threads p1 0%nat = TWait k /\ p_sinks p1 = p_sinks p /\ p_gone p1 = p_gone p /\ (g_block (p_win p1) = true \/ p_end p1 <> None) /\
    exists q, p_queue p1 = p_queue p1 ++ q). { repeat split; auto. exists []. rewrite app_nil_r. reflexivity. }
  assert (H : p_threads p2 0%nat = TWait k /\ p_sinks p2 = p_sinks p /\ p_gone p2 = p_gone p /\ (g_block (p_win p2) = true \/ p_end p2 <> None) /\
    exists q, p_queue p2 = p_queue p1 ++ q).
  { revert l p2 R. refine (prun_ind (fun p2 _ => p_threads p2 0%nat = TWait k /\ p_sinks p2 = p_sinks p /\ p_gone p2 = p_gone p /\
      (g_block (p_win p2) = true \/ p_end p2 <> None) /\ exists q, p_queue p2 = p_queue p1 ++ q) p1 H0 _).
    intros l p2 e p3 [H1 [H2 [H3 [H4 [q H5]]]]] S. assert (N := pstep_alive _ _ _ S). destruct H4 as [H4|H4]; [|contradiction].
    destruct (waits_step p2 e p3 0%nat k S H1 H4) as [X Y].
    assert (NC : e <> EClear). { intros ->. unfold pstep in S. rewrite N in S. unfold clear in S. rewrite H1 in S. discriminate. }
    assert (NW : e <> EWork). { intros ->. unfold pstep in S. rewrite N in S. unfold work, running in S. rewrite H1 in S. discriminate. }
    destruct (idle_step p2 e p3 S NW NC) as [Z1 [Z2 [q' Z3]]].
    split; [exact X|]. split; [congruence|]. split; [congruence|]. split; [tauto|].
    exists (q ++ q'). rewrite Z3, H5, app_assoc. reflexivity. }
  tauto.
Qed.
Print Assumptions C130_background.
(** The same for the thread of a sink: destroying the sink waits for that thread, which waits for the background thread.
    No fatal message ever ends the process, and no other sink is ever flushed. *)
Theorem C130_sink : forall p t k l p2,
  t <> 0%nat -> In t (map fst (p_sinks p)) -> p_threads p t = TWait k -> g_block (p_win p) = true -> prun p l = Some p2 ->
  p_threads p2 t = TWait k /\ In t (map fst (p_sinks p2)) /\ p_gone p2 = p_gone p /\ pstep p2 EClear = None.
Proof.
  intros p t k l p2 Z I T B R.
  assert (C : forall q, In t (map fst (p_sinks q)) -> p_threads q t = TWait k -> pstep q EClear = None).
  { intros q J U. unfold pstep. destruct (p_end q); [reflexivity|]. unfold clear. destruct (p_threads q 0%nat); try reflexivity.
    replace (forallb (fun s => running q (fst s)) (p_sinks q)) with false; [reflexivity|]. symmetry.
    apply not_true_iff_false. intro X. rewrite forallb_forall in X. apply in_map_iff in J. destruct J as [s [E J]].
    specialize (X s J). rewrite E in X. unfold running in X. rewrite U in X. discriminate. }
  assert (H : p_threads p2 t = TWait k /\ In t (map fst (p_sinks p2)) /\ p_gone p2 = p_gone p /\ (g_block (p_win p2) = true \/ p_end p2 <> None)).
  { revert l p2 R. refine (prun_ind (fun p2 _ => p_threads p2 t = TWait k /\ In t (map fst (p_sinks p2)) /\ p_gone p2 = p_gone p /\
      (g_block (p_win p2) = true \/ p_end p2 <> None)) p _ _); [auto|].
    intros l p2 e p3 [H1 [H2 [H3 H4]]] S. assert (N := pstep_alive _ _ _ S). destruct H4 as [H4|H4]; [|contradiction].
    assert (NC : e <> EClear). { intros ->. rewrite (C p2 H2 H1) in S. discriminate. }
    destruct (waits_step p2 e p3 t k S H1 H4) as [X Y]. split; [exact X|].
    assert (W : In t (map fst (p_sinks p3)) /\ p_gone p3 = p_gone p2).
    { assert (D : {e = EWork} + {e <> EWork}) by (destruct e; (left; reflexivity) || (right; discriminate)).
      destruct D as [->|NW]; [|destruct (idle_step p2 e p3 S NW NC) as [Y1 [Y2 _]]; rewrite Y1; auto].
      unfold pstep in S. rewrite N in S. unfold work in S. destruct (running p2 0); [|discriminate].
      destruct (p_queue p2) as [|[x|lv id x|x] q]; [discriminate| | |]; injection S as <-; cbn; (split; [|reflexivity]);
        unfold send_all; rewrite ?map_map; try exact H2.
      rewrite map_app. apply in_app_iff. left. exact H2. }
    destruct W as [W1 W2]. split; [exact W1|]. split; [congruence|tauto]. }
  destruct H as [H1 [H2 [H3 _]]]. auto.
Qed.
Print Assumptions C130_sink.
(** Both happen: an access violation in the background thread, and one in the thread of a sink. *)
Theorem C130_refuted : exists p, prun (p_start [] 1) [EAdd 1 9; EWork; EException 0 access_violation true 6]%nat = Some p /\ p_end p = None /\
  forall l p2, prun p l = Some p2 -> exists k, p_threads p2 0%nat = TWait k.
Proof.
  destruct (prun (p_start [] 1) [EAdd 1 9; EWork]%nat) as [p0|] eqn:R0; [|vm_compute in R0; discriminate].
  assert (F : p_threads p0 0%nat = TRun /\ p_init p0 = true /\ g_block (p_win p0) = true /\ armed (p_win p0)).
  { vm_compute in R0. injection R0 as <-. repeat split. exists 0%nat. left. reflexivity. }
  destruct F as [F1 [F2 [F3 F4]]].
  destruct (pstep p0 (EException 0 access_violation true 6)) as [p|] eqn:S; [|vm_compute in R0; injection R0 as <-; vm_compute in S; discriminate].
  exists p. split; [change [EAdd 1 9; EWork; EException 0 access_violation true 6]%nat with ([EAdd 1 9; EWork] ++ [EException 0 access_violation true 6])%nat;
    rewrite prun_app, R0; cbn [prun]; rewrite S; reflexivity|].
  split; [vm_compute in R0; injection R0 as <-; vm_compute in S; injection S as <-; reflexivity|].
  intros l p2 R. eapply (C130_background p0 access_violation true 6 p l p2); eauto. vm_compute. auto 10.
Qed.
Print Assumptions C130_refuted.
Theorem C130_sink_refuted : exists p, prun (p_start [] 1) [EAdd 1 9; EWork; EException 9 access_violation true 6; EWork]%nat = Some p /\ p_end p = None /\
  p_threads p 0%nat = TClear FATAL_EXCEPTION access_violation /\
  forall l p2, prun p l = Some p2 -> pstep p2 EClear = None /\ exists k, p_threads p2 9%nat = TWait k.
Proof.
  destruct (prun (p_start [] 1) [EAdd 1 9; EWork; EException 9 access_violation true 6; EWork]%nat) as [p|] eqn:R0; [|vm_compute in R0; discriminate].
  assert (F : p_end p = None /\ p_threads p 0%nat = TClear FATAL_EXCEPTION access_violation /\ p_threads p 9%nat = TWait (ASearch access_violation true []) /\
              In 9%nat (map fst (p_sinks p)) /\ g_block (p_win p) = true).
  { vm_compute in R0. injection R0 as <-. vm_compute. repeat split. auto. }
  destruct F as [F1 [F2 [F3 [F4 F5]]]]. exists p. split; [reflexivity|]. split; [exact F1|]. split; [exact F2|].
  intros l p2 R. destruct (C130_sink p 9 _ l p2 (Nat.neq_succ_0 8) F4 F3 F5 R) as [A [_ [_ B]]]. eauto.
Qed.
Print Assumptions C130_sink_refuted.

(** *** an exception in a thread of the client *)
(** the sinks after the tasks q: every one has got the entries that were logged after it was added *)
Definition sinks_after (l : list (nat * list nat)) (q : list wtask) : list (nat * list nat) :=
  fold_left (fun l x => match x with WSave m => send_all m l | WAdd k => l ++ [(k, [])] | WFatal _ _ m => send_all m l end) q l.
(** the threads of the sinks that there are and that are about to be added *)
Definition sink_threads (p : proc) : list nat :=
  map fst (p_sinks p) ++ flat_map (fun x => match x with WAdd k => [k] | _ => [] end) (p_queue p).
(** g3log was installed once: the latest of its vectored handlers is the only one, and the filter before it is not g3log's *)
Definition installed_once (w : win) : Prop :=
  (forall h, In (h, true) (v_vectored w) -> g_vector_exception_handler w = Some h) /\ g_previous_unexpected_exception_handler w <> FG3log.

Lemma sinks_after_threads : forall q l, map fst (sinks_after l q) = map fst l ++ flat_map (fun x => match x with WAdd k => [k] | _ => [] end) q.
Proof.
  unfold sinks_after. induction q as [|x q IH]; intro l; [cbn; rewrite app_nil_r; reflexivity|].
  cbn [fold_left flat_map]. rewrite IH. destruct x; cbn [app].
  - unfold send_all. rewrite map_map. reflexivity.
  - unfold send_all. rewrite map_map. reflexivity.
  - rewrite map_app, <- app_assoc. reflexivity.
Qed.
(** the background thread works off q *)
Lemma drain : forall q r p, p_end p = None -> p_threads p 0%nat = TRun -> p_queue p = q ++ r -> (forall lv id m, ~ In (WFatal lv id m) q) ->
  prun p (repeat EWork (length q)) = Some (set_sinks (set_queue p r) (sinks_after (p_sinks p) q) (p_gone p)).
Proof.
  induction q as [|x q IH]; intros r p N T Q F.
  - cbn in *. f_equal. unfold set_sinks, set_queue. cbn. rewrite <- Q. destruct p; reflexivity.
  - cbn [length repeat prun]. unfold pstep. rewrite N. unfold work, running. rewrite T, Q. cbn [app].
    assert (F' : forall lv id m, ~ In (WFatal lv id m) q) by (intros lv id m X; exact (F lv id m (or_intror X))).
    destruct x as [m|lv id m|k].
    + rewrite (IH r); try assumption; try reflexivity.
    + exfalso. exact (F lv id m (or_introl eq_refl)).
    + rewrite (IH r); try assumption; try reflexivity.
Qed.
Lemma not_g3_after : forall w t h, installed_once w -> vectored_is_g3 (restoreFatalHandlingToDefault_win t w) h = false.
Proof.
  intros w t h [A _]. apply not_true_iff_false. intro X. unfold vectored_is_g3 in X. apply existsb_exists in X.
  destruct X as [[x b] [I E]]. cbn [fst snd] in E. apply andb_true_iff in E. destruct E as [E ->]. apply Nat.eqb_eq in E. subst x.
  rewrite (proj1 (restore_vectored t w)) in I. unfold remove_vectored in I.
  destruct (g_vector_exception_handler w) as [k|] eqn:G.
  - apply filter_In in I. destruct I as [I E]. specialize (A h I). injection A as ->. cbn in E. rewrite Nat.eqb_refl in E. discriminate.
  - specialize (A h I). discriminate.
Qed.
Lemma search_none : forall t code handled m hs p, (forall h, vectored_is_g3 (p_win p) h = false) ->
  search p t code handled m hs = if handled then set_thread p t TRun else unhandled p t code m.
Proof. intros t code handled m. induction hs as [|h r IH]; intros p V; [reflexivity|]. cbn [search]. rewrite V. apply IH. exact V. Qed.
Lemma remove_twice : forall l h, remove_vectored (remove_vectored l h) h = remove_vectored l h.
Proof.
  intros l [k|]; [|reflexivity]. cbn. induction l as [|e l IH]; [reflexivity|]. cbn.
  destruct (Nat.eqb (fst e) k) eqn:E; cbn; [exact IH|]. rewrite E. cbn. rewrite IH. reflexivity.
Qed.
Lemma fold_set_signal_handle : forall t d l w, g_vector_exception_handler (fold_left (set_signal t d) l w) = g_vector_exception_handler w /\
  g_previous_unexpected_exception_handler (fold_left (set_signal t d) l w) = g_previous_unexpected_exception_handler w.
Proof. induction l as [|s l IH]; intro w; [auto|]. cbn [fold_left]. destruct (IH (set_signal t d w s)) as [-> ->]. auto. Qed.
Lemma restore_handle : forall t w, g_vector_exception_handler (restoreFatalHandlingToDefault_win t w) = g_vector_exception_handler w /\
  g_previous_unexpected_exception_handler (restoreFatalHandlingToDefault_win t w) = g_previous_unexpected_exception_handler w.
Proof. intros. unfold restoreFatalHandlingToDefault_win. match goal with |- context [fold_left _ ?l ?x] => destruct (fold_set_signal_handle t Dfl l x) as [-> ->] end. auto. Qed.
Lemma install_handle : forall t w, g_vector_exception_handler (installSignalHandlerForThread t w) = g_vector_exception_handler w /\
  g_previous_unexpected_exception_handler (installSignalHandlerForThread t w) = g_previous_unexpected_exception_handler w.
Proof.
  intros t w. unfold installSignalHandlerForThread. destruct (g_installed_thread_signal_handler w t); [auto|].
  match goal with |- context [fold_left _ ?l ?x] => destruct (fold_set_signal_handle t G3log l x) as [-> ->] end. auto.
Qed.
(** In a thread of the client, with g3log installed once and the threads of the sinks at work: the background thread and
    the failing thread alone get to the end.  Every sink has then got everything logged before, and the exception's
    message, and the exception has gone on to the program: to the frame that handles it, or it ends the process. *)
Theorem C130_client_partial : forall p t code handled m,
  p_end p = None -> p_init p = true -> p_threads p 0%nat = TRun -> p_threads p t = TRun -> t <> 0%nat ->
  armed (p_win p) -> installed_once (p_win p) -> In code (map fst documented) ->
  (forall lv id m', ~ In (WFatal lv id m') (p_queue p)) ->
  (forall k, In k (sink_threads p) -> k <> t /\ k <> 0%nat /\ p_threads p k = TRun) ->
  exists l p', prun p (EException t code handled m :: l) = Some p' /\
    Forall (fun e => e = EWork \/ e = EClear \/ e = EPoll t m) l /\
    p_sinks p' = [] /\ p_gone p' = p_gone p ++ send_all m (sinks_after (p_sinks p) (p_queue p)) /\
    (if handled then p_threads p' t = TRun /\ p_end p' = None else p_end p' = Some (PException code)).
Proof.
  intros p t code handled m N I T0 T Z A O D NF ST.
  destruct (search_takes t code handled m _ p (documented_known code D) (armed_is_g3 _ A)) as [r E].
  exists (repeat EWork (length (p_queue p)) ++ [EWork; EClear; EPoll t m]).
  destruct (ex_intro (fun w => w = installSignalHandlerForThread t (restoreFatalHandlingToDefault_win t (p_win p))) _ eq_refl) as [w1 W1].
  set (p1 := set_thread (set_queue (set_win p w1) (p_queue p ++ [WFatal FATAL_EXCEPTION code m])) t (TWait (ASearch code handled r))).
  assert (S : pstep p (EException t code handled m) = Some p1).
  { unfold pstep. rewrite N. unfold running. rewrite T, E, push_init by exact I. cbn [set_win p_win]. subst p1. rewrite W1. reflexivity. }
  assert (T0' : Nat.eqb 0 t = false) by (apply Nat.eqb_neq; auto).
  assert (D1 : prun p1 (repeat EWork (length (p_queue p))) =
    Some (set_sinks (set_queue p1 [WFatal FATAL_EXCEPTION code m]) (sinks_after (p_sinks p) (p_queue p)) (p_gone p))).
  { rewrite (drain (p_queue p) [WFatal FATAL_EXCEPTION code m] p1); [reflexivity|exact N| |reflexivity|exact NF].
    cbn. unfold updn. rewrite T0'. exact T0. }
  set (p2 := set_sinks (set_queue p1 [WFatal FATAL_EXCEPTION code m]) (sinks_after (p_sinks p) (p_queue p)) (p_gone p)) in *.
  set (p3 := set_thread (set_init (set_sinks (set_queue p2 []) (send_all m (p_sinks p2)) (p_gone p2)) false) 0 (TClear FATAL_EXCEPTION code)).
  assert (S2 : pstep p2 EWork = Some p3).
  { unfold pstep. replace (p_end p2) with (@None pending) by (symmetry; exact N). unfold work, running.
    replace (p_threads p2 0%nat) with TRun; [reflexivity|]. cbn. unfold updn. rewrite T0'. symmetry. exact T0. }
  assert (FB : forallb (fun s => running p3 (fst s)) (p_sinks p3) = true).
  { apply forallb_forall. intros s J. assert (K : In (fst s) (sink_threads p)).
    { unfold sink_threads. rewrite <- sinks_after_threads. cbn in J. unfold send_all in J. apply in_map_iff in J.
      destruct J as [s' [<- J]]. cbn. apply in_map. exact J. }
    destruct (ST _ K) as [K1 [K2 K3]]. unfold running. cbn. unfold updn.
    apply Nat.eqb_neq in K1, K2. rewrite K1, K2, K3. reflexivity. }
  destruct (ex_intro (fun w => w = fst (exitWithDefaultSignalHandler_win 0 FATAL_EXCEPTION code w1)) _ eq_refl) as [w4 W4].
  set (p4 := set_thread (set_win (set_sinks p3 [] (p_gone p3 ++ p_sinks p3)) w4) 0 TRun).
  assert (X := exit_exception w1 0 code). destruct X as [X1 X2]. rewrite <- W4 in X2.
  assert (S3 : pstep p3 EClear = Some p4).
  { unfold pstep. replace (p_end p3) with (@None pending) by (symmetry; exact N). unfold clear.
    replace (p_threads p3 0%nat) with (TClear FATAL_EXCEPTION code) by reflexivity. rewrite FB.
    change (p_win (set_sinks p3 [] (p_gone p3 ++ p_sinks p3))) with w1. subst p4.
    destruct (exitWithDefaultSignalHandler_win 0 FATAL_EXCEPTION code w1) as [w x]. cbn [fst snd] in *. subst x w4. reflexivity. }
  assert (W5 : v_vectored w4 = remove_vectored (v_vectored (p_win p)) (g_vector_exception_handler (p_win p)) /\
               v_filter w4 = g_previous_unexpected_exception_handler (p_win p)).
  { rewrite W4. unfold exitWithDefaultSignalHandler_win. replace (levelEq FATAL_EXCEPTION FATAL_EXCEPTION) with true by (vm_compute; reflexivity).
    cbn [fst v_vectored v_filter]. destruct (restore_vectored 0 w1) as [-> ->]. rewrite W1.
    destruct (install_handle t (restoreFatalHandlingToDefault_win t (p_win p))) as [-> ->].
    destruct (install_thread_vectored t (restoreFatalHandlingToDefault_win t (p_win p))) as [-> _].
    destruct (restore_handle t (p_win p)) as [-> ->]. destruct (restore_vectored t (p_win p)) as [-> _].
    split; [apply remove_twice|reflexivity]. }
  destruct W5 as [V4 F4].
  assert (G4 : forall h, vectored_is_g3 (p_win p4) h = false).
  { intro h. change (p_win p4) with w4. unfold vectored_is_g3. rewrite V4, <- (proj1 (restore_vectored t (p_win p))). apply not_g3_after. exact O. }
  assert (S4 : pstep p4 (EPoll t m) = Some (if handled then set_thread p4 t TRun else unhandled p4 t code m)).
  { unfold pstep. replace (p_end p4) with (@None pending) by (symmetry; exact N). unfold poll.
    replace (p_threads p4 t) with (TWait (ASearch code handled r)).
    2:{ cbn. unfold updn. apply Nat.eqb_neq in Z. rewrite Z, Nat.eqb_refl. reflexivity. }
    change (g_block (p_win p4)) with (g_block w4). rewrite X2. rewrite (search_none t code handled m r p4 G4). reflexivity. }
  exists (if handled then set_thread p4 t TRun else unhandled p4 t code m).
  split; [|split; [|split; [|split]]].
  - cbn [prun]. rewrite S, prun_app, D1. cbn [prun]. rewrite S2, S3, S4. reflexivity.
  - apply Forall_app. split; [|repeat (apply Forall_cons; [auto|]); apply Forall_nil]. apply Forall_forall. intros e J. apply repeat_spec in J. auto.
  - destruct handled; [reflexivity|]. rewrite (ke_sinks _ _ _ (keeps_unhandled t p4 code m N)). reflexivity.
  - destruct handled; [reflexivity|]. rewrite (ke_gone _ _ _ (keeps_unhandled t p4 code m N)). reflexivity.
  - destruct handled.
    + split; [cbn; unfold updn; rewrite Nat.eqb_refl; reflexivity|exact N].
    + unfold unhandled. change (p_win p4) with w4. rewrite F4. destruct O as [_ O].
      destruct (g_previous_unexpected_exception_handler (p_win p)); [reflexivity|reflexivity|contradiction O; reflexivity].
Qed.
Print Assumptions C130_client_partial.

(** ** g3log is installed once *)
(** ... unless the program calls installCrashHandler itself or sets a filter to g3log's own function *)
Definition no_install (o : vop) : Prop := match o with VInstall _ => False | VFilter FG3log => False | _ => True end.
Definition plain (e : pev) : Prop := match e with EOwn _ o => no_install o | _ => True end.
Lemma once_set_signal : forall t d s w, installed_once w -> installed_once (set_signal t d w s).
Proof. intros t d s w O. exact O. Qed.
Lemma once_fold : forall t d l w, installed_once w -> installed_once (fold_left (set_signal t d) l w).
Proof. induction l as [|s l IH]; intros w O; [exact O|]. cbn [fold_left]. apply IH, once_set_signal, O. Qed.
Lemma once_install_thread : forall t w, installed_once w -> installed_once (installSignalHandlerForThread t w).
Proof. intros t w O. unfold installSignalHandlerForThread. destruct (g_installed_thread_signal_handler w t); [exact O|]. apply once_fold. exact O. Qed.
Lemma once_restore : forall t w, installed_once w -> installed_once (restoreFatalHandlingToDefault_win t w).
Proof.
  intros t w [A B]. unfold restoreFatalHandlingToDefault_win. apply once_fold. split; cbn; [|exact B].
  intros h I. apply A. unfold remove_vectored in I. destruct (g_vector_exception_handler w); [|exact I]. apply filter_In in I. tauto.
Qed.
Lemma once_exit : forall t lv id w, installed_once w -> installed_once (fst (exitWithDefaultSignalHandler_win t lv id w)).
Proof.
  intros t lv id w O. unfold exitWithDefaultSignalHandler_win. apply (once_restore t) in O.
  destruct (levelEq FATAL_EXCEPTION lv); [exact O|]. destruct (existsb (Z.eqb id) five_signals); [|exact O].
  destruct (handler_of (restoreFatalHandlingToDefault_win t w) t id); exact O.
Qed.
Lemma once_push : forall p t lv id m k, installed_once (p_win p) -> installed_once (p_win (push_fatal p t lv id m k)).
Proof.
  intros p t lv id m k O. unfold push_fatal. cbn [p_init set_win p_win p_queue]. apply (once_install_thread t) in O.
  destruct (p_init p); [exact O|]. apply (once_exit t lv id) in O.
  destruct (exitWithDefaultSignalHandler_win t lv id (installSignalHandlerForThread t (p_win p))) as [w x]. destruct x; exact O.
Qed.
Lemma once_search : forall t code handled m hs p, installed_once (p_win p) -> installed_once (p_win (search p t code handled m hs)).
Proof.
  intros t code handled m. induction hs as [|h r IH]; intros p O; cbn [search].
  - destruct handled; [exact O|]. unfold unhandled. destruct (v_filter (p_win p)); try exact O.
    unfold unexpectedExceptionHandling. apply once_push. apply once_restore. exact O.
  - destruct (vectored_is_g3 (p_win p) h); [|apply IH; exact O]. unfold vectorExceptionHandling.
    destruct (isKnownException code); [apply once_push; apply once_restore; exact O|apply IH; exact O].
Qed.
Lemma once_step : forall p e p', pstep p e = Some p' -> plain e -> installed_once (p_win p) -> installed_once (p_win p').
Proof.
  intros p e p' S P O. assert (N := pstep_alive _ _ _ S). unfold pstep in S. rewrite N in S.
  destruct e as [u m|u m|u code handled m|u s m|u m| | |u j|u|u|u o].
  - destruct (running p u); [|discriminate]. injection S as <-. cbn [p_init set_win p_win p_queue]. apply (once_install_thread u) in O.
    destruct (p_init p); exact O.
  - destruct (running p u); [|discriminate]. injection S as <-. apply once_push. exact O.
  - destruct (running p u); [|discriminate]. injection S as <-. apply once_search. exact O.
  - destruct (running p u && existsb (Z.eqb s) five_signals); [|discriminate]. injection S as <-. unfold fatal_signal.
    destruct (handler_of (p_win p) u s); try exact O. apply once_push. exact O.
  - unfold poll in S. destruct (p_threads p u) as [|x|lv id]; try discriminate. destruct (g_block (p_win p)); [discriminate|].
    destruct x; injection S as <-; try exact O. apply once_search. exact O.
  - unfold work in S. destruct (running p 0); [|discriminate]. destruct (p_queue p) as [|[x|lv id x|x] q]; [discriminate| | |]; injection S as <-; exact O.
  - unfold clear in S. destruct (p_threads p 0%nat) as [| |lv id]; try discriminate. destruct (forallb _ _); [|discriminate].
    apply (once_exit 0 lv id) in O. change (p_win p) with (p_win (set_sinks p [] (p_gone p ++ p_sinks p))) in O.
    destruct (exitWithDefaultSignalHandler_win 0 lv id (p_win (set_sinks p [] (p_gone p ++ p_sinks p)))) as [w x]. destruct x; injection S as <-; exact O.
  - destruct (running p u); [|discriminate]. injection S as <-. exact O.
  - destruct (running p u && negb (p_init p)); [|discriminate]. injection S as <-. exact O.
  - destruct (running p u); [|discriminate]. injection S as <-. exact O.
  - destruct (running p u); [|discriminate]. destruct o as [v|v|v|v s d|f|]; try discriminate; [destruct P| | |]; injection S as <-.
    + exact O.
    + exact O.
    + destruct O as [A B]. split; [|exact B]. intros h I. apply A. cbn in I. apply in_app_iff in I. destruct I as [I|[I|[]]]; [exact I|discriminate].
Qed.
Theorem C130_once : forall own t0 l p, Forall no_install own -> Forall plain l -> prun (p_start own t0) l = Some p -> installed_once (p_win p).
Proof.
  intros own t0 l p FO FP R. revert l p R FP.
  refine (prun_ind (fun p l => Forall plain l -> installed_once (p_win p)) (p_start own t0) _ _).
  - intros _. assert (V : (forall h, ~ In (h, true) (v_vectored (vrun v_start own))) /\ v_filter (vrun v_start own) <> FG3log /\
                        g_previous_unexpected_exception_handler (vrun v_start own) <> FG3log).
    { assert (V0 : (forall h, ~ In (h, true) (v_vectored v_start)) /\ v_filter v_start <> FG3log /\ g_previous_unexpected_exception_handler v_start <> FG3log)
        by (cbn; repeat split; try discriminate; auto).
      revert V0. generalize v_start. induction FO as [|o own F FO IH]; intros w [V1 [V2 V3]]; [auto|].
      unfold vrun. cbn [fold_left]. apply IH. destruct o as [v|v|v|v s d|f|]; cbn [no_install] in F; try contradiction; cbn [vstep].
      - destruct (install_thread_vectored v w) as [-> ->]. destruct (install_handle v w) as [_ ->]. auto.
      - destruct (restore_vectored v w) as [-> ->]. destruct (restore_handle v w) as [_ ->]. split; [|auto]. intros h I. apply (V1 h).
        unfold remove_vectored in I. destruct (g_vector_exception_handler w); [|exact I]. apply filter_In in I. tauto.
      - auto.
      - cbn. split; [exact V1|]. split; [destruct f; [discriminate|discriminate|contradiction]|exact V3].
      - cbn. split; [|auto]. intros h I. apply in_app_iff in I. destruct I as [I|[I|[]]]; [exact (V1 h I)|discriminate]. }
    destruct V as [V1 [V2 _]]. destruct (install_thread_vectored t0 (vrun v_start own)) as [E1 E2].
    split; cbn [p_start p_win installCrashHandler_win v_vectored g_vector_exception_handler g_previous_unexpected_exception_handler].
    + rewrite E1. intros h I. apply in_app_iff in I. destruct I as [I|[I|[]]]; [exfalso; exact (V1 h I)|]. injection I as ->. reflexivity.
    + rewrite E2. exact V2.
  - intros l p e p' IH S F. apply Forall_app in F. destruct F as [F G]. inversion G; subst. eapply once_step; eauto.
Qed.
Print Assumptions C130_once.

(** ** concrete cases *)
(** two threads fail, one by LOG(FATAL), one by a signal; the program handles exceptions g3log does not know, and sets
    handlers of its own; the process dies of the first *)
Definition c128_ok : list pev :=
  [EAdd 1 9; EWork; ELog 2 5; EException 2 77 true 0; EOwn 3 (VSignal 3 8 (User 4)); ESig 3 8 0; EFatal 2 6; ESig 1 11 7; EWork; EWork]%nat.
Example C128_ex : Forall quiet c128_ok /\
  exists p p', prun (p_start [VVectored; VFilter (FUser 1)] 1) c128_ok = Some p /\ pstep p EClear = Some p' /\ p_past p' = [] /\
    p_gone p' = [(9, [5; 6])]%nat /\ p_end p' = Some (PSignal 22) /\ p_queue p' = [WFatal FATAL_SIGNAL 11 7].
Proof.
  split; [repeat (apply Forall_cons; [exact I || (split; [reflexivity|vm_compute; intuition discriminate])|]); apply Forall_nil|].
  destruct (prun (p_start [VVectored; VFilter (FUser 1)] 1) c128_ok) as [p|] eqn:R; [|vm_compute in R; discriminate].
  exists p. destruct (pstep p EClear) as [p'|] eqn:S.
  - exists p'. split; [reflexivity|]. split; [reflexivity|]. vm_compute in R. injection R as <-. vm_compute in S. injection S as <-. auto.
  - exfalso. vm_compute in R. injection R as <-. vm_compute in S. discriminate.
Qed.
(** the hypotheses of C127_documented, C129_undefined and C130_client_partial *)
Example C127_ex : exists p, prun (p_start [VVectored; VFilter (FUser 1)] 1) [EAdd 1 9; EWork; ELog 2 5; EAdd 2 8; ELog 3 6]%nat = Some p /\
  p_end p = None /\ p_init p = true /\ p_threads p 0%nat = TRun /\ p_threads p 2%nat = TRun /\ armed (p_win p) /\ installed_once (p_win p) /\
  p_queue p = [WSave 5; WAdd 8; WSave 6]%nat /\ (forall k, In k (sink_threads p) -> k <> 2%nat /\ k <> 0%nat /\ p_threads p k = TRun) /\
  In access_violation (map fst documented) /\ g_block (p_win p) = true.
Proof.
  destruct (prun (p_start [VVectored; VFilter (FUser 1)] 1) [EAdd 1 9; EWork; ELog 2 5; EAdd 2 8; ELog 3 6]%nat) as [p|] eqn:R; [|vm_compute in R; discriminate].
  exists p. split; [reflexivity|].
  assert (O : installed_once (p_win p)).
  { eapply C130_once; [| |exact R]; repeat constructor. }
  vm_compute in R. injection R as <-. repeat (split; [reflexivity|]). split; [exists 1%nat; right; left; reflexivity|]. split; [exact O|].
  split; [reflexivity|]. split; [|split; [vm_compute; auto 10|reflexivity]].
  intros k J. vm_compute in J. destruct J as [<-|[<-|[]]]; repeat split; discriminate.
Qed.
(** what C130_client_partial says of it: two sinks, one added late; the program does not handle the exception *)
Example C130_ex : exists p l p', prun (p_start [VVectored; VFilter (FUser 1)] 1) [EAdd 1 9; EWork; ELog 2 5; EAdd 2 8; ELog 3 6]%nat = Some p /\
  prun p (EException 2 access_violation false 7 :: l)%nat = Some p' /\ p_gone p' = [(9, [5; 6; 7]); (8, [6; 7])]%nat /\ p_end p' = Some (PException access_violation).
Proof.
  destruct C127_ex as [p [R [H1 [H2 [H3 [H4 [H5 [H6 [H7 [H8 [H9 _]]]]]]]]]]].
  destruct (C130_client_partial p 2 access_violation false 7 H1 H2 H3 H4) as [l [p' [R' [_ [_ [G E]]]]]]; auto.
  - rewrite H7. intros lv id m X. cbn in X. intuition discriminate.
  - exists p, l, p'. split; [exact R|]. split; [exact R'|]. split; [|exact E]. rewrite G, H7.
    vm_compute in R. injection R as <-. reflexivity.
Qed.
(** C129: after shutDownLogging g3log is still installed *)
Example C129_ex : exists p, prun (p_start [] 1) [ELog 2 5; EShut 1]%nat = Some p /\ p_end p = None /\ p_init p = false /\ p_threads p 2%nat = TRun /\
  armed (p_win p) /\ v_filter (p_win p) = FG3log /\ handler_of (p_win p) 2 11 = G3log /\ ~ In 77 (map fst documented) /\ In 11 (map fst win_signals).
Proof.
  destruct (prun (p_start [] 1) [ELog 2 5; EShut 1]%nat) as [p|] eqn:R; [|vm_compute in R; discriminate].
  exists p. split; [reflexivity|]. vm_compute in R. injection R as <-. repeat (split; [reflexivity|]).
  split; [exists 0%nat; left; reflexivity|]. repeat (split; [reflexivity|]). split; [vm_compute; intuition discriminate|cbn; auto 10].
Qed.
(** C127_dropped: a run after the background thread has taken an exception's message *)
Example C127_ex2 : exists p p', prun (p_start [] 1) [EAdd 1 9; EWork; EException 1 access_violation true 6]%nat = Some p /\
  p_queue p = [WFatal FATAL_EXCEPTION access_violation 6] /\
  prun p [EWork; ELog 2 5; EClear; EPoll 1 0; ELog 1 7; EAdd 1 8; EWork; ELog 1 10]%nat = Some p' /\ p_dropped p' = [5; 7; 10]%nat /\ p_sinks p' = [(8, [])]%nat.
Proof.
  destruct (prun (p_start [] 1) [EAdd 1 9; EWork; EException 1 access_violation true 6]%nat) as [p|] eqn:R; [|vm_compute in R; discriminate].
  destruct (prun p [EWork; ELog 2 5; EClear; EPoll 1 0; ELog 1 7; EAdd 1 8; EWork; ELog 1 10]%nat) as [p'|] eqn:R'; [|vm_compute in R; injection R as <-; vm_compute in R'; discriminate].
  exists p, p'. split; [reflexivity|]. vm_compute in R. injection R as <-. split; [reflexivity|]. split; [exact R'|].
  vm_compute in R'. injection R' as <-. auto.
Qed.
