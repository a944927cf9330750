(** C19-C26, C68, C75, C76: the life cycle of logging and fatal events.
    Model: Model/Global.v; specification: Spec/GlobalSpec.v. *)
From Coq Require Import Ascii String List ZArith NArith Bool Lia.
From Verif.Base Require Import Bytes.
From Verif.Model Require Import Levels TimeFmt Message Capture Global.
From Verif.Spec Require Import GlobalSpec.
From Verif.Proofs Require Import BytesFacts CaptureFacts GlobalFacts HookFacts.
Import ListNotations.
Local Open Scope list_scope.

(** Every state reached from program start: any scripts of the threads, hooks and handlers, any schedule. *)
Definition reached (hb fb : nat -> list op) (statics : list nat) (g : global) : Prop :=
  exists main sched, g = grun hb fb statics (g_start main) sched.

Lemma reached_inv : forall hb fb statics g, reached hb fb statics g -> GInv g.
Proof. intros hb fb statics g (main & sched & ->). apply GInv_run, GInv_start. Qed.

(** a message to play with *)
Definition msg (text : str) : LogMessage :=
  mkMsg DefaultDetails 0 0 (lit "a.cpp") (lit "a.cpp") 1 (lit "f") (mkLevel 300 (lit "INFO")) [] text.
Definition fmsg (text : str) : LogMessage :=
  mkMsg DefaultDetails 0 0 (lit "a.cpp") (lit "a.cpp") 1 (lit "f") (mkLevel 1000 (lit "FATAL")) [] text.
Definition nothing (n : nat) : list op := [].
Definition one (l : list op) (t : nat) : list op := match t with O => l | _ => [] end.

(** ** C19 *)
(** Of the messages logged before the first initialization, exactly the first is delivered, marked, to the worker
    of that initialization; nothing else ever is. *)
Theorem C19_first_message_partial : forall hb fb statics g, reached hb fb statics g ->
  firsts (g_trace g) = first_delivered (calls (g_trace g)).
Proof. intros. now apply i_firsts, (reached_inv hb fb statics). Qed.
Print Assumptions C19_first_message_partial.

Theorem C19_at_most_once : forall hb fb statics g, reached hb fb statics g -> length (firsts (g_trace g)) <= 1.
Proof.
  intros hb fb statics g R. rewrite (C19_first_message_partial _ _ _ _ R). unfold first_delivered.
  destruct (first_init _) as [[w b]|]; auto. destruct (first_log b); auto.
Qed.
Print Assumptions C19_at_most_once.

Lemma wanted_before : forall l lost, first_init l = None -> wanted None lost l = [].
Proof.
  induction l as [|o l IH]; intros lost H; cbn [wanted]; auto.
  destruct o as [[w|]| | | | | | | |]; cbn [first_init] in H; try discriminate;
    (destruct (first_init l) as [[? ?]|]; [discriminate|]); destruct lost; cbn; auto.
Qed.
Lemma wanted_first : forall l lost w b m, first_init l = Some (w, b) ->
  (match lost with Some x => Some x | None => first_log b end) = Some m -> wanted None lost l = [(w, marked m)].
Proof.
  induction l as [|o l IH]; intros lost w b m F L; [discriminate|]. cbn [wanted].
  destruct o as [[w'|]| | |x| | | | |]; cbn [first_init] in F;
    try (destruct (first_init l) as [[w' b']|] eqn:E; [|discriminate]; injection F as -> <-; cbn [first_log] in L;
         destruct lost as [y|]; cbn [active_after]; eapply IH; eauto; fail).
  - injection F as -> <-. destruct lost as [y|]; [injection L as ->; reflexivity|discriminate].
Qed.

(** If a message was lost before the first initialization, or there was none, this is what is documented. *)
Theorem C19_as_documented_partial : forall hb fb statics g, reached hb fb statics g ->
  (forall w before, first_init (calls (g_trace g)) = Some (w, before) -> exists m, first_log before = Some m) ->
  firsts (g_trace g) = wanted None None (calls (g_trace g)).
Proof.
  intros hb fb statics g R H. rewrite (C19_first_message_partial _ _ _ _ R). unfold first_delivered.
  destruct (first_init (calls (g_trace g))) as [[w b]|] eqn:E.
  - destruct (H w b eq_refl) as [m M]. rewrite M. symmetry. eapply wanted_first; eauto.
  - symmetry. now apply wanted_before.
Qed.
Print Assumptions C19_as_documented_partial.

(** A message logged after a shut-down, the first one without a logger, is not delivered at the next
    initialization. *)
Theorem C19_refuted : exists hb fb statics g, reached hb fb statics g /\ g_status g = Running /\
  wanted None None (calls (g_trace g)) <> [] /\ firsts (g_trace g) = [] /\ saves (g_trace g) = [].
Proof.
  exists nothing, nothing, [], (grun nothing nothing [] (g_start (one [OInit (Some 0); OShutdown; OLog (msg (lit "x")); OInit (Some 1)])) [0;0;0;0]).
  split; [eexists _, _; reflexivity|]. split; [reflexivity|]. split; [discriminate|]. split; reflexivity.
Qed.
Print Assumptions C19_refuted.

Example C19_ex1 :
  let g := grun nothing nothing [] (g_start (one [OLog (msg (lit "x")); OLog (msg (lit "y")); OInit (Some 0); OLog (msg (lit "z")); OShutdown; OInit (Some 1)])) [0;0;0;0;0;0] in
  firsts (g_trace g) = [(0, marked (msg (lit "x")))] /\ saves (g_trace g) = [(0, msg (lit "z"))].
Proof. split; reflexivity. Qed.

(** ** C20 *)
Definition legal (l : list op) : Prop :=
  forall before x after, l = before ++ OInit x :: after -> active before = None /\ x <> None.

Lemma legal_snoc : forall l o, legal l -> (forall x, o = OInit x -> active l = None /\ x <> None) -> legal (l ++ [o]).
Proof.
  intros l o L H before x after E. destruct after as [|a after _] using rev_ind.
  - apply app_inj_tail in E as [-> ->]. now apply H.
  - rewrite app_comm_cons, app_assoc in E. apply app_inj_tail in E as [E _]. apply (L before x after E).
Qed.

(** While the process runs, there is an active logger exactly if one was put into service and not taken out since, and
    it is that one. *)
Lemma active_service : forall l, legal l -> forall w, active l = Some w <-> in_service w l.
Proof.
  induction l as [|o l IH] using rev_ind; intros L w.
  - split; [discriminate|]. intros (b & a & E & _). destruct b; discriminate.
  - assert (L' : legal l).
    { intros b x a E. apply (L b x (a ++ [o])). rewrite E, <- app_assoc. reflexivity. }
    specialize (IH L'). rewrite active_snoc. split.
    + intro H. destruct (active l) as [a|] eqn:A; cbn [active_after] in H.
      * destruct (deactivates a o) eqn:D; [discriminate|]. injection H as ->.
        destruct (proj1 (IH w) eq_refl) as (b & r & -> & F & N). exists b, (r ++ [o]).
        split; [rewrite <- app_assoc; reflexivity|]. split.
        -- rewrite forallb_app, F. cbn. now rewrite D.
        -- intros x I. apply in_app_or in I as [I|[->|[]]]; [now apply (N x)|].
           assert (X : active (b ++ OInit (Some w) :: r) = None /\ x <> None) by (apply (L _ x []); reflexivity).
           destruct X as [X _]. congruence.
      * destruct o as [x| | | | | | | |]; try discriminate. subst x. exists l, []. split; auto.
    + intros (b & a & E & F & N). destruct a as [|y a _] using rev_ind.
      * apply app_inj_tail in E as [-> ->]. destruct (L b (Some w) [] eq_refl) as [-> _]. reflexivity.
      * rewrite app_comm_cons, app_assoc in E. apply app_inj_tail in E as [-> ->].
        rewrite forallb_app in F. apply andb_prop in F as [F1 F2]. cbn in F2. rewrite andb_true_r in F2.
        rewrite (proj2 (IH w)); [cbn [active_after]; destruct (deactivates w y); [discriminate|reflexivity]|].
        exists b, a. split; auto. split; auto. intros x I. apply (N x). apply in_or_app. auto.
Qed.

Lemma calls_throw : forall g t s, calls (g_trace (throw g t s)) = calls (g_trace g).
Proof. intros. unfold throw. destruct (unwind s); cbn; rewrite calls_app; cbn; apply app_nil_r. Qed.

Lemma step_calls : forall hb fb statics g t, exists l, calls (g_trace (gstep hb fb statics g t)) = calls (g_trace g) ++ l /\
  (l = [] \/ exists o r, l = [o] /\ g_threads g t = FOps (o :: r) :: tl (g_threads g t) /\ g_status g = Running).
Proof.
  intros hb fb statics g t. unfold gstep. destruct (g_status g) eqn:R; try (exists []; rewrite app_nil_r; auto; fail).
  destruct (g_threads g t) as [|[[|o l]| |h st m s|h st m s|st m s|] r]; try (exists []; rewrite app_nil_r; auto; fail).
  - exists [o]. split; [|right; eauto]. unfold do_op. destruct o as [w| |w wm|m|st m s|h|h| |l'].
    + unfold initializeLogging. gcbn. destruct (g_logger_instance g); [|destruct w as [w|]; [destruct (g_save_first g); [|destruct (g_first_uninitialized_msg g)]|]];
        gcbn; rewrite ?calls_app; cbn; rewrite ?app_nil_r; reflexivity.
    + gcbn. now rewrite calls_app.
    + unfold shutDownLoggingForActiveOnly. gcbn. destruct (g_logger_instance g) as [a|] eqn:EI; [destruct w as [w|]; [destruct (negb (Nat.eqb w a)); [destruct wm; [unfold pushMessageToLogger; gcbn; rewrite EI|]|]|]|];
        gcbn; rewrite ?calls_app; cbn; rewrite ?app_nil_r; reflexivity.
    + unfold pushMessageToLogger. gcbn. destruct (g_logger_instance g); [|destruct (g_set_first g)]; gcbn; rewrite ?calls_app; cbn; rewrite ?app_nil_r; reflexivity.
    + gcbn. now rewrite calls_app.
    + gcbn. now rewrite calls_app.
    + cbn. now rewrite calls_app.
    + rewrite calls_throw. gcbn. now rewrite calls_app.
    + gcbn. now rewrite calls_app.
  - exists []. rewrite app_nil_r. split; auto. unfold do_count. destruct h as [[|n]|]; gcbn; rewrite ?calls_throw; gcbn; rewrite ?calls_app; cbn; rewrite ?app_nil_r; auto.
  - exists []. rewrite app_nil_r. split; auto. unfold fatalCall. gcbn. destruct (g_fatal_function g) as [[|n]|]; [destruct (g_logger_instance g)|..];
      gcbn; rewrite ?calls_throw; gcbn; rewrite ?calls_app; cbn; rewrite ?app_nil_r; auto.
Qed.

Lemma init_status : forall statics g t r w, GInv g -> g_status g = Running -> g_status (do_op statics g t r (OInit w)) = Running ->
  active (calls (g_trace g)) = None /\ w <> None.
Proof.
  intros statics g t r w H R S. rewrite <- (i_active g H). unfold do_op, initializeLogging in S. unfold isLoggingInitialized in S. cbn in S.
  destruct (g_logger_instance g) as [a|] eqn:EI.
  - exfalso. cbn in S. exact (exit_locked_ends _ _ S).
  - split; auto. destruct w as [w|]; [discriminate|]. exfalso. cbn in S. exact (exit_locked_ends _ _ S).
Qed.

Lemma running_before : forall hb fb statics g t, g_status (gstep hb fb statics g t) = Running -> g_status g = Running.
Proof. intros hb fb statics g t. unfold gstep. destruct (g_status g) eqn:R; auto; congruence. Qed.

Lemma running_legal : forall hb fb statics main sched, g_status (grun hb fb statics (g_start main) sched) = Running ->
  legal (calls (g_trace (grun hb fb statics (g_start main) sched))).
Proof.
  intros hb fb statics main sched. induction sched as [|t sched IH] using rev_ind; intro R.
  - intros b x a E. destruct b; discriminate.
  - unfold grun in *. rewrite fold_left_app in *. cbn [fold_left] in *.
    set (g := fold_left (gstep hb fb statics) sched (g_start main)) in *.
    pose proof (running_before _ _ _ _ _ R) as R'. specialize (IH R').
    assert (GI : GInv g) by (apply (GInv_run hb fb statics), GInv_start).
    destruct (step_calls hb fb statics g t) as (l & -> & [->|(o & r & -> & S & _)]); [now rewrite app_nil_r|].
    apply legal_snoc; auto. intros x ->. unfold gstep in R. rewrite R', S in R. eapply init_status; eauto.
Qed.

Theorem C20_active_is_the_one_in_service : forall hb fb statics g, reached hb fb statics g -> g_status g = Running ->
  forall w, g_logger_instance g = Some w <-> in_service w (calls (g_trace g)).
Proof.
  intros hb fb statics g R S w. rewrite (i_active g (reached_inv _ _ _ _ R)). destruct R as (main & sched & ->).
  apply active_service. now apply running_legal.
Qed.
Print Assumptions C20_active_is_the_one_in_service.

(** An initialization: legal exactly with a worker while none is active.  Otherwise nothing is replaced and the process is told
    to exit with failure; the exit hangs exactly when a static object owns the active worker, or any worker while none is active. *)
Theorem C20_initialize_partial : forall hb fb statics g t x l r, reached hb fb statics g -> g_status g = Running ->
  g_threads g t = FOps (OInit x :: l) :: r ->
  let g' := gstep hb fb statics g t in
  (forall w, x = Some w -> (forall v, ~ in_service v (calls (g_trace g))) ->
     g_status g' = Running /\ g_logger_instance g' = Some w) /\
  (x = None \/ (exists v, in_service v (calls (g_trace g))) ->
     g_logger_instance g' = g_logger_instance g /\
     let hangs := exists w, In w statics /\ forall v, in_service v (calls (g_trace g)) -> v = w in
     (hangs -> g_status g' = HangsAtExit) /\ (~ hangs -> g_status g' = Exited 1)).
Proof.
  intros hb fb statics g t x l r R S T g'. pose proof (C20_active_is_the_one_in_service _ _ _ _ R S) as A.
  unfold g', gstep. rewrite S, T. unfold do_op, initializeLogging. gcbn. split.
  - intros w -> N. destruct (g_logger_instance g) as [v|] eqn:E; [exfalso; apply (N v); now apply A|].
    destruct (g_save_first g); [|destruct (g_first_uninitialized_msg g)]; gcbn; auto.
  - intro X. set (hangs := exists w, In w statics /\ forall v, in_service v (calls (g_trace g)) -> v = w).
    assert (H : hangs <-> existsb (fun w => match g_logger_instance g with Some a => Nat.eqb a w | None => true end) statics = true).
    { rewrite existsb_exists. unfold hangs. split; intros (w & I & V); exists w; (split; [exact I|]).
      - destruct (g_logger_instance g) as [a|] eqn:E; [|reflexivity]. apply Nat.eqb_eq. apply V. now apply A.
      - intros v J. apply A in J. rewrite J in V. now apply Nat.eqb_eq in V. }
    assert (Y : (hangs -> exit_locked g statics = HangsAtExit) /\ (~ hangs -> exit_locked g statics = Exited 1)).
    { unfold exit_locked. destruct (existsb _ statics); split; intro K; auto; [destruct K; now apply H|]. apply H in K. discriminate. }
    destruct X as [->|[v V]].
    + destruct (g_logger_instance g) eqn:E; gcbn; (split; [auto|]); unfold exit_locked in *; gcbn; rewrite ?E in *; exact Y.
    + apply A in V. rewrite V in *. gcbn. split; [auto|]. unfold exit_locked in *. gcbn. rewrite ?V in *. exact Y.
Qed.
Print Assumptions C20_initialize_partial.

(** With a worker owned by a static object the exit itself hangs: its destructor takes the mutex that
    initializeLogging still holds. *)
Theorem C20_refuted : exists hb fb statics g, reached hb fb statics g /\ g_status g = HangsAtExit.
Proof.
  exists nothing, nothing, [0], (grun nothing nothing [0] (g_start (one [OInit (Some 0); OInit (Some 0)])) [0;0]).
  split; [eexists _, _; reflexivity|reflexivity].
Qed.
Print Assumptions C20_refuted.

Example C20_ex1 :
  let g := grun nothing nothing [] (g_start (one [OInit (Some 3); OShutdownFor (Some 5) None; OShutdownFor (Some 3) None; OInit (Some 5)])) [0;0;0;0] in
  g_status g = Running /\ g_logger_instance g = Some 5.
Proof. split; reflexivity. Qed.
Example C20_ex2 :
  let g := grun nothing nothing [] (g_start (fun t => [OInit (Some t)])) [3;4] in
  g_status g = Exited 1 /\ g_logger_instance g = Some 3.
Proof. split; reflexivity. Qed.

(** no worker is active and none is given, but a static object owns one *)
Example C20_ex3 : g_status (grun nothing nothing [4] (g_start (one [OInit None])) [0]) = HangsAtExit /\
  g_status (grun nothing nothing [4] (g_start (one [OInit (Some 3); OInit (Some 4)])) [0; 0]) = Exited 1.
Proof. split; reflexivity. Qed.

(** ** C21 *)
Theorem C21_destroying_inactive : forall hb fb statics g t w wm l r, reached hb fb statics g -> g_status g = Running ->
  g_threads g t = FOps (OShutdownFor w wm :: l) :: r ->
  let g' := gstep hb fb statics g t in
  (forall a v, in_service a (calls (g_trace g)) -> w = Some v -> a <> v ->
     g_logger_instance g' = Some a /\ exists es, g_trace g' = g_trace g ++ es ++ [(t, EReturn false)]) /\
  ((forall a v, in_service a (calls (g_trace g)) -> w = Some v -> a = v) ->
     g_logger_instance g' = None /\ exists es, g_trace g' = g_trace g ++ es ++ [(t, EReturn true)]).
Proof.
  intros hb fb statics g t w wm l r R S T g'. pose proof (C20_active_is_the_one_in_service _ _ _ _ R S) as A.
  unfold g', gstep. rewrite S, T. unfold do_op, shutDownLoggingForActiveOnly. gcbn. split.
  - intros a v V -> N. apply A in V. rewrite V. replace (Nat.eqb v a) with false by (symmetry; apply Nat.eqb_neq; congruence).
    cbn [negb]. destruct wm as [m|].
    + unfold pushMessageToLogger. gcbn. rewrite V. gcbn. split; auto. exists [(t, EOp (OShutdownFor (Some v) (Some m))); (t, ESave a m)].
      rewrite <- !app_assoc. reflexivity.
    + gcbn. split; auto. exists [(t, EOp (OShutdownFor (Some v) None))]. rewrite <- !app_assoc. reflexivity.
  - intro H. destruct (g_logger_instance g) as [a|] eqn:E; [destruct w as [v|]|].
    + assert (V : in_service a (calls (g_trace g))) by (apply A; reflexivity). rewrite (H a v V eq_refl), Nat.eqb_refl. cbn [negb].
      gcbn. split; auto. eexists [_]. rewrite <- app_assoc. reflexivity.
    + gcbn. split; auto. eexists [_]. rewrite <- app_assoc. reflexivity.
    + gcbn. split; auto. eexists [_]. rewrite <- app_assoc. reflexivity.
Qed.
Print Assumptions C21_destroying_inactive.

Example C21_ex1 :
  let g := grun nothing nothing [] (g_start (one [OInit (Some 3); OShutdownFor (Some 5) (Some (msg (lit "w")))])) [0;0] in
  g_logger_instance g = Some 3 /\ saves (g_trace g) = [(3, msg (lit "w"))] /\ last (g_trace g) (0, EThrow) = (0, EReturn false).
Proof. repeat split; reflexivity. Qed.

(** ** C22 *)
Theorem C22_deliveries : forall hb fb statics g, reached hb fb statics g ->
  saves (g_trace g) = deliveries None (calls (g_trace g)).
Proof. intros. now apply i_saves, (reached_inv hb fb statics). Qed.
Print Assumptions C22_deliveries.

(** in particular nothing goes to a worker that is not in service *)
Theorem C22_only_in_service : forall hb fb statics g, reached hb fb statics g -> g_status g = Running ->
  forall w m, In (w, m) (saves (g_trace g)) ->
  exists before o after, calls (g_trace g) = before ++ o :: after /\ in_service w before /\
    (o = OLog m \/ exists x, o = OShutdownFor (Some x) (Some m)).
Proof.
  intros hb fb statics g R S w m I. rewrite (C22_deliveries _ _ _ _ R) in I. destruct R as (main & sched & ->).
  pose proof (running_legal _ _ _ _ _ S) as L. revert I. set (l := calls _) in *. clearbody l.
  assert (G : forall l2 l1, l1 ++ l2 = l -> In (w, m) (deliveries (active l1) l2) ->
    exists before o after, l = before ++ o :: after /\ in_service w before /\ (o = OLog m \/ exists x, o = OShutdownFor (Some x) (Some m))).
  { induction l2 as [|o l2 IH]; intros l1 E I; [destruct I|]. cbn [deliveries] in I. apply in_app_or in I as [I|I].
    - exists l1, o, l2. split; auto.
      assert (L1 : legal l1) by (intros b x a X; apply (L b x (a ++ o :: l2)); rewrite <- E, X, <- app_assoc; reflexivity).
      destruct (active l1) as [v|] eqn:A; [|destruct I].
      assert (V : in_service v l1) by (now apply active_service).
      destruct o; cbn [delivery] in I; try destruct I.
      + destruct w0 as [x|]; [|destruct I]. destruct warning as [y|]; [|destruct I]. destruct (Nat.eqb x v); [destruct I|].
        destruct I as [I|[]]. injection I as -> ->. split; auto. right. eauto.
      + injection H as -> ->. auto.
      + destruct H.
    - apply (IH (l1 ++ [o])); [rewrite <- app_assoc; exact E|]. rewrite active_snoc. exact I. }
  intro I. apply (G l []); auto.
Qed.
Print Assumptions C22_only_in_service.

Example C22_ex1 :
  let g := grun nothing nothing [] (g_start (one [OInit (Some 3); OLog (msg (lit "a")); OShutdown; OLog (msg (lit "b")); OInit (Some 4); OLog (msg (lit "c"))])) [0;0;0;0;0;0] in
  saves (g_trace g) = [(3, msg (lit "a")); (4, msg (lit "c"))].
Proof. reflexivity. Qed.

(** ** C23 *)
(** One thread at work (any depth of nesting): hook n runs at most as often as it was set. *)
Theorem C23_at_most_once : forall hb fb statics main t sched n, (forall x, In x sched -> x = t) ->
  let g := grun hb fb statics (g_start main) sched in runs n (g_trace g) <= sets n (calls (g_trace g)).
Proof.
  intros hb fb statics main t sched n O g.
  assert (H : HookInv t n (g_start main)) by (constructor; cbn; auto; intros f []).
  pose proof (k_count _ _ _ (HookInv_run hb fb statics t n sched _ O H)) as K. fold g in K. lia.
Qed.
Print Assumptions C23_at_most_once.

(** the steps of a fatal event, one by one *)
Lemma step_fatal : forall hb fb statics g t st m s l r, g_status g = Running -> g_threads g t = FOps (OFatal st m s :: l) :: r ->
  gstep hb fb statics g t = set_stack (emit (set_stack g t (FOps l :: r)) t [EOp (OFatal st m s)]) t (FCopied (g_fatal_pre_logging_hook g) st m s :: FOps l :: r).
Proof. intros hb fb statics g t st m s l r S T. unfold gstep. rewrite S, T. reflexivity. Qed.
Lemma step_copied : forall hb fb statics g t h st m s r, g_status g = Running -> g_threads g t = FCopied h st m s :: r ->
  gstep hb fb statics g t = do_reset g t r h st m s.
Proof. intros hb fb statics g t h st m s r S T. unfold gstep. rewrite S, T. reflexivity. Qed.
Lemma step_reset : forall hb fb statics g t h st m s r, g_status g = Running -> g_threads g t = FReset h st m s :: r ->
  gstep hb fb statics g t = do_count hb g t r h st m s.
Proof. intros hb fb statics g t h st m s r S T. unfold gstep. rewrite S, T. reflexivity. Qed.
Lemma step_hooked : forall hb fb statics g t st m s r, g_status g = Running -> g_threads g t = FHooked st m s :: r ->
  gstep hb fb statics g t = fatalCall fb (set_stack g t r) t r (finish_message g st m s).
Proof. intros hb fb statics g t st m s r S T. unfold gstep. rewrite S, T. reflexivity. Qed.
Ltac inner lem S := match goal with |- context [gstep ?hb ?fb ?st ?G ?t] =>
  lazymatch G with context [gstep _ _ _ _ _] => fail | _ => erewrite (lem hb fb st G t) by (first [exact S | gcbn; rewrite ?Nat.eqb_refl; reflexivity]) end end.

(** At the next fatal event the hook comes first; the message is handed over only when the hook, and all that it
    causes, is over ([FHooked] lies under it). *)
Theorem C23_hook_before_message : forall hb fb statics g t n st m s l r, g_status g = Running ->
  g_threads g t = FOps (OFatal st m s :: l) :: r -> g_fatal_pre_logging_hook g = Some (Hook n) ->
  let g' := grun hb fb statics g [t; t; t] in
  g_threads g' t = FOps (hb n) :: FHooked st m s :: FOps l :: r /\
  g_fatal_pre_logging_hook g' = Some HookNop /\
  g_trace g' = g_trace g ++ [(t, EOp (OFatal st m s)); (t, EStart st); (t, EHook n)].
Proof.
  intros hb fb statics g t n st m s l r S T H. unfold grun. cbn [fold_left].
  rewrite (step_fatal hb fb statics g t st m s l r S T), H.
  inner step_copied S. unfold do_reset.
  inner step_reset S. unfold do_count. gcbn. rewrite Nat.eqb_refl.
  split; auto. split; auto. rewrite <- !app_assoc. reflexivity.
Qed.
Print Assumptions C23_hook_before_message.

(** a hook that crashes itself: runs once, and both events are logged, the inner one first *)
Definition crash_hook (n : nat) : list op := match n with O => [OFatal (lit "inner trace") (fmsg (lit "inner")) 6] | _ => [] end.
Definition crash_main : list op :=
  [OInit (Some 0); OSetExit (Some (Handler 0)); OSetHook (Some (Hook 0)); OFatal (lit "outer trace") (fmsg (lit "outer")) 6].
Definition texts (g : global) : list (receiver * str) :=
  map (fun x => (fst x, _message (f_msg (snd x)))) (hand_overs (g_trace g)).
Example C23_ex1 :
  let g := grun crash_hook nothing [] (g_start (one crash_main)) (repeat 0 13) in
  runs 0 (g_trace g) = 1 /\ texts g =
    [(ToHandler 0, lit "innerinner trace" ++ warning_text (lit "outer trace"));
     (ToHandler 0, lit "outerouter trace" ++ warning_text (lit "outer trace"))].
Proof. split; vm_compute; reflexivity. Qed.

(** ** C75 *)
(** Two threads failing at the same time: both copy the hook before either resets it, and it runs twice. *)
Theorem C75_refuted : exists hb fb statics g, reached hb fb statics g /\
  sets 0 (calls (g_trace g)) = 1 /\ runs 0 (g_trace g) = 2.
Proof.
  exists nothing, nothing, [], (grun nothing nothing [] (g_start (fun t => match t with
      | 0 => [OInit (Some 0); OSetHook (Some (Hook 0)); OFatal [] (fmsg []) 6] | _ => [OFatal [] (fmsg []) 6] end)) [0;0;0;1;0;1;0;1]).
  split; [eexists _, _; reflexivity|]. split; reflexivity.
Qed.
Print Assumptions C75_refuted.

(** the thread has copied the hook of the fatal event it is in, and not reset it yet *)
Definition between (g : global) (t : nat) : Prop := exists h st m s r, g_threads g t = FCopied h st m s :: r.

(** But no more often, for each time it was set, than the number of threads that are between copying and resetting at the same moment, at the most. *)
Theorem C75_bound_partial : forall hb fb statics main sched n K,
  (forall a b ts, sched = a ++ b -> NoDup ts -> (forall t, In t ts -> between (grun hb fb statics (g_start main) a) t) -> length ts <= K) ->
  let g := grun hb fb statics (g_start main) sched in runs n (g_trace g) <= K * sets n (calls (g_trace g)).
Proof.
  intros hb fb statics main sched n K H g. set (ts := nodup Nat.eq_dec sched).
  assert (T0 : TInv n K ts (g_start main)).
  { constructor; [|intros t f []]. cbn [g_start g_trace runs g_fatal_pre_logging_hook hold filter length]. 
    assert (Z : total (mine n) (g_start main) ts = 0) by (clear; unfold total; induction ts as [|t l IH]; [reflexivity|exact IH]).
    rewrite Z. cbn. lia. }
  assert (T : TInv n K ts g).
  { apply TInv_run; [exact T0|apply NoDup_nodup|intros x X; now apply nodup_In|].
    intros a b E. rewrite total_filter. apply (H a b _ E); [apply NoDup_filter, NoDup_nodup|].
    intros t I. apply filter_In in I as (_ & I). unfold between. destruct (g_threads _ t) as [|[| | | | |] r]; try discriminate I. now eauto 8. }
  pose proof (t_count _ _ _ _ T) as C. generalize dependent (hold n (g_fatal_pre_logging_hook g) * (K - total copied g ts)). intros. lia.
Qed.
Print Assumptions C75_bound_partial.

(** At most once for each setting if fatal events keep out of each other's way there. *)
Theorem C75_apart_partial : forall hb fb statics main sched n,
  (forall a b t u, sched = a ++ b -> between (grun hb fb statics (g_start main) a) t -> between (grun hb fb statics (g_start main) a) u -> t = u) ->
  let g := grun hb fb statics (g_start main) sched in runs n (g_trace g) <= sets n (calls (g_trace g)).
Proof.
  intros hb fb statics main sched n H g. replace (sets n (calls (g_trace g))) with (1 * sets n (calls (g_trace g))) by lia.
  apply C75_bound_partial. intros a b ts E ND I. destruct ts as [|t [|u ts]]; cbn; auto.
  assert (t = u) by (apply (H a b); auto; apply I; cbn; auto). subst u. inversion ND as [|x l NI]. elim NI. now left.
Qed.
Print Assumptions C75_apart_partial.

(** In any case no more often than there are threads, for each setting. *)
Theorem C75_threads_partial : forall hb fb statics main sched n threads, (forall t, In t sched -> In t threads) ->
  let g := grun hb fb statics (g_start main) sched in runs n (g_trace g) <= length threads * sets n (calls (g_trace g)).
Proof.
  intros hb fb statics main sched n threads I g. apply C75_bound_partial. intros a b ts E ND B. apply NoDup_incl_length; [exact ND|].
  intros t T. destruct (in_dec Nat.eq_dec t sched) as [J|J]; [now apply I|exfalso].
  assert (S : g_threads (grun hb fb statics (g_start main) a) t = [FOps (main t)]).
  { assert (N : ~ In t a) by (intro; apply J; rewrite E; apply in_or_app; auto). clear - N.
    assert (G : forall l g, ~ In t l -> g_threads (grun hb fb statics g l) t = g_threads g t).
    { induction l as [|x l IH]; intros g N'; [reflexivity|]. cbn [grun fold_left].
      change (g_threads (grun hb fb statics (gstep hb fb statics g x) l) t = g_threads g t). rewrite IH by (intro; apply N'; now right).
      apply others. intro. subst. apply N'. now left. }
    now rewrite G. }
  destruct (B t T) as (h & st & m & s & r & X). rewrite S in X. discriminate.
Qed.
Print Assumptions C75_threads_partial.

(** two threads whose fatal events follow each other; and the two of C75_refuted *)
Example C75_ex :
  let two := fun t => match t with 0 => [OInit (Some 0); OSetHook (Some (Hook 0)); OFatal [] (fmsg []) 6] | _ => [OFatal [] (fmsg []) 6] end in
  let g := grun nothing nothing [] (g_start two) [0;0;0;0;1;1;0;1] in
  (forall a b t u, [0;0;0;0;1;1;0;1] = a ++ b -> between (grun nothing nothing [] (g_start two) a) t -> between (grun nothing nothing [] (g_start two) a) u -> t = u) /\
  runs 0 (g_trace g) = 1 /\ sets 0 (calls (g_trace g)) = 1 /\ length (starts (g_trace g)) = 2.
Proof.
  cbv zeta. split; [|repeat split]. intros a b t u E.
  repeat (destruct a as [|x a]; [intros (h & st & m & s & r & X) (h' & st' & m' & s' & r' & X'); cbn in X, X';
    destruct t as [|[|t]]; cbn in X; try discriminate X; destruct u as [|[|u]]; cbn in X'; try discriminate X'; reflexivity
    | cbn [app] in E; try discriminate E; injection E as <- E]).
Qed.

(** ** C24 *)
(** The warning is attached exactly if at least two fatal events, nested or not, happened since logging was last
    initialized; the stack trace it quotes is that of the first fatal event of the process. *)
Theorem C24_warning_exactly_partial : forall hb fb statics g st m s, reached hb fb statics g -> g_status g = Running ->
  (N.of_nat (since_init (g_trace g)) < size_max)%N ->
  _message (f_msg (finish_message g st m s)) = _message m ++ st ++
    (if Nat.leb 2 (since_init (g_trace g)) then warning_text (hd [] (starts (g_trace g))) else []).
Proof.
  intros hb fb statics g st m s R S B. pose proof (reached_inv _ _ _ _ R) as H.
  unfold finish_message. rewrite (i_counter g H S), (i_first_trace g H), N.mod_small by assumption.
  destruct (Nat.leb_spec 2 (since_init (g_trace g))) as [L|L]; destruct (N.ltb_spec 1 (N.of_nat (since_init (g_trace g)))) as [L'|L']; try lia.
  - unfold new_FatalMessage, write_append, copyMsg. cbn [f_msg _message]. rewrite <- app_assoc. do 2 f_equal.
    unfold warning_text, recursive_warning. destruct (starts (g_trace g)); reflexivity.
  - unfold new_FatalMessage, write_append, copyMsg. cbn [f_msg _message]. now rewrite app_nil_r.
Qed.
Print Assumptions C24_warning_exactly_partial.

(** A further fatal event within the hook of an earlier one (or anywhere after it) is covered, as long as nobody
    initializes in between. *)
Theorem C24_nested_partial : forall tr1 t1 s1 tr2 t2 s2 tr3,
  (forall x, ~ In (OInit x) (calls tr2)) -> (forall x, ~ In (OInit x) (calls tr3)) ->
  2 <= since_init (tr1 ++ (t1, EStart s1) :: tr2 ++ (t2, EStart s2) :: tr3).
Proof.
  assert (G : forall tr s, (forall x, ~ In (OInit x) (calls tr)) -> snd s <= snd (fold_left since_step tr s)).
  { induction tr as [|[t e] tr IH]; intros s N; cbn [fold_left]; auto.
    transitivity (snd (since_step s (t, e))); [|apply IH; intros x I; apply (N x); change ((t, e) :: tr) with ([(t, e)] ++ tr); rewrite calls_app; apply in_or_app; auto].
    unfold since_step. cbn [snd]. destruct e; cbn [snd]; auto. destruct (fst s); auto. destruct o; auto.
    exfalso. apply (N w). cbn. now left. }
  intros tr1 t1 s1 tr2 t2 s2 tr3 N2 N3. unfold since_init. rewrite fold_left_app. cbn [fold_left]. rewrite fold_left_app. cbn [fold_left].
  set (a := fold_left since_step tr1 (None, 0)).
  pose proof (G tr2 (since_step a (t1, EStart s1)) N2) as G2. set (b := fold_left since_step tr2 _) in *.
  pose proof (G tr3 (since_step b (t2, EStart s2)) N3) as G3. cbn in G2, G3. unfold since_step at 2. cbn [snd fst]. lia.
Qed.
Print Assumptions C24_nested_partial.

(** No hook in sight, yet the second of two successive fatal events is called recursive. *)
Theorem C24_refuted : exists hb fb statics g f, reached hb fb statics g /\
  (forall n, runs n (g_trace g) = 0) /\ In (ToHandler 0, f) (hand_overs (g_trace g)) /\
  _message (f_msg f) = lit "two" ++ lit "trace2" ++ warning_text (lit "trace1").
Proof.
  pose (g := grun nothing nothing [] (g_start (one [OInit (Some 0); OSetExit (Some (Handler 0));
    OFatal (lit "trace1") (fmsg (lit "one")) 6; OFatal (lit "trace2") (fmsg (lit "two")) 6])) (repeat 0 11)).
  exists nothing, nothing, [], g, (snd (nth 1 (hand_overs (g_trace g)) (ToStderr, mkFatal (fmsg []) 0))).
  split; [eexists _, _; reflexivity|]. split; [intro n; reflexivity|]. split; [vm_compute; auto|vm_compute; reflexivity].
Qed.
Print Assumptions C24_refuted.

(** The stack trace quoted as the first of a recursive crash may be that of an old, handled event. *)
Theorem C24_refuted_stale_trace : exists hb fb statics g f, reached hb fb statics g /\
  In (ToHandler 0, f) (hand_overs (g_trace g)) /\
  calls (g_trace g) = [OInit (Some 0); OSetExit (Some (Handler 0)); OFatal (lit "old") (fmsg (lit "handled")) 6; OShutdown; OInit (Some 0);
    OSetHook (Some (Hook 0)); OFatal (lit "outer trace") (fmsg (lit "outer")) 6; OFatal (lit "inner trace") (fmsg (lit "inner")) 6] /\
  _message (f_msg f) = lit "inner" ++ lit "inner trace" ++ warning_text (lit "old").
Proof.
  pose (g := grun crash_hook nothing [] (g_start (one [OInit (Some 0); OSetExit (Some (Handler 0)); OFatal (lit "old") (fmsg (lit "handled")) 6;
    OShutdown; OInit (Some 0); OSetHook (Some (Hook 0)); OFatal (lit "outer trace") (fmsg (lit "outer")) 6])) (repeat 0 17)).
  exists crash_hook, nothing, [], g, (snd (nth 1 (hand_overs (g_trace g)) (ToStderr, mkFatal (fmsg []) 0))).
  split; [eexists _, _; reflexivity|]. split; [vm_compute; auto|]. split; vm_compute; reflexivity.
Qed.
Print Assumptions C24_refuted_stale_trace.

(** ** C25 *)
(** The hook is an empty function until it is set for the first time: the fatal message is lost in an exception. *)
Theorem C25_refuted : forall st m s, exists hb fb statics g, reached hb fb statics g /\
  calls (g_trace g) = [OFatal st m s] /\ hand_overs (g_trace g) = [] /\ g_status g = Terminate.
Proof.
  intros st m s. exists nothing, nothing, [], (grun nothing nothing [] (g_start (one [OFatal st m s])) [0;0;0]).
  split; [eexists _, _; reflexivity|]. repeat split; reflexivity.
Qed.
Print Assumptions C25_refuted.

(** With a hook that does nothing in place (a fatal event caught before leaves one behind; or set
    by the client) and the default handler: message and reason on stderr, and the default signal handling. *)
Theorem C25_with_hook_partial : forall hb fb statics g t st m s l r, g_status g = Running ->
  g_logger_instance g = None -> g_fatal_function g = Some HandlerDefault -> g_fatal_pre_logging_hook g = Some HookNop ->
  g_threads g t = FOps (OFatal st m s :: l) :: r ->
  let g' := grun hb fb statics g [t; t; t; t] in
  exists f, hand_overs (g_trace g') = hand_overs (g_trace g) ++ [(ToStderr, f)] /\
    g_status g' = DefaultSignal (_level (f_msg f)) s /\ (exists w, _message (f_msg f) = _message m ++ st ++ w).
Proof.
  intros hb fb statics g t st m s l r S I F H T. unfold grun. cbn [fold_left].
  rewrite (step_fatal hb fb statics g t st m s l r S T), H.
  inner step_copied S. unfold do_reset.
  inner step_reset S. unfold do_count.
  inner step_hooked S. unfold fatalCall. gcbn. rewrite F, I. gcbn.
  match goal with |- context [EStderrFatal ?x] => exists x end.
  split; [|split].
  - rewrite <- !app_assoc. unfold hand_overs. rewrite flat_map_app. reflexivity.
  - reflexivity.
  - unfold finish_message. gcbn. destruct (1 <? sz (g_counter g + 1))%N.
    + eexists. unfold new_FatalMessage, write_append, copyMsg. cbn [f_msg _message]. rewrite <- app_assoc. reflexivity.
    + exists []. unfold new_FatalMessage, write_append, copyMsg. cbn [f_msg _message]. now rewrite app_nil_r.
Qed.
Print Assumptions C25_with_hook_partial.

(** a hook that logs and returns *)
Lemma hook_logs : forall hb fb statics ms g t r, g_status g = Running -> g_logger_instance g = None -> g_threads g t = FOps (map OLog ms) :: r ->
  let g' := grun hb fb statics g (repeat t (S (length ms))) in
  g_status g' = Running /\ g_logger_instance g' = None /\ g_threads g' t = r /\ g_fatal_function g' = g_fatal_function g /\
  g_fatal_pre_logging_hook g' = g_fatal_pre_logging_hook g /\ hand_overs (g_trace g') = hand_overs (g_trace g).
Proof.
  intros hb fb statics. induction ms as [|m ms IH]; intros g t r S I T; cbn [length repeat]; unfold grun; cbn [fold_left].
  - unfold gstep. rewrite S, T. cbn [map]. gcbn. rewrite Nat.eqb_refl. auto 10.
  - cbn [map] in T.
    assert (E : exists e, g_trace (gstep hb fb statics g t) = g_trace g ++ e /\ flat_map handed e = [] /\
        g_status (gstep hb fb statics g t) = Running /\ g_logger_instance (gstep hb fb statics g t) = None /\
        g_threads (gstep hb fb statics g t) t = FOps (map OLog ms) :: r /\ g_fatal_function (gstep hb fb statics g t) = g_fatal_function g /\
        g_fatal_pre_logging_hook (gstep hb fb statics g t) = g_fatal_pre_logging_hook g).
    { unfold gstep. rewrite S, T. unfold do_op, pushMessageToLogger. gcbn. rewrite I. destruct (g_set_first g); gcbn; rewrite Nat.eqb_refl; eexists; rewrite <- ?app_assoc;
        (split; [reflexivity|]); (split; [reflexivity|]); auto 10. }
    destruct E as (e & TR & E & S1 & I1 & T1 & F1 & H1). specialize (IH _ t r S1 I1 T1). cbn zeta in IH. unfold grun in IH. cbn [repeat fold_left] in IH.
    destruct IH as (A & B & C & D & H & G). unfold grun. cbn [repeat fold_left]. rewrite A, B, C, D, H, G, F1, H1, TR.
    unfold hand_overs. rewrite flat_map_app, E, app_nil_r. auto 10.
Qed.

(** With a hook of the client that logs (whatever it logs) and returns: the same, when the hook is over. *)
Theorem C25_client_hook_partial : forall hb fb statics g t st m s l r n ms, g_status g = Running ->
  g_logger_instance g = None -> g_fatal_function g = Some HandlerDefault -> g_fatal_pre_logging_hook g = Some (Hook n) -> hb n = map OLog ms ->
  g_threads g t = FOps (OFatal st m s :: l) :: r ->
  let g' := grun hb fb statics g (repeat t (3 + S (length ms) + 1)) in
  exists f, hand_overs (g_trace g') = hand_overs (g_trace g) ++ [(ToStderr, f)] /\
    g_status g' = DefaultSignal (_level (f_msg f)) s /\ (exists w, _message (f_msg f) = _message m ++ st ++ w).
Proof.
  intros hb fb statics g t st m s l r n ms S I F H B T. cbn zeta.
  rewrite !repeat_app. unfold grun. rewrite !fold_left_app.
  pose (g1 := grun hb fb statics g (repeat t 3)).
  assert (G1 : g_status g1 = Running /\ g_logger_instance g1 = None /\ g_fatal_function g1 = Some HandlerDefault /\
      g_threads g1 t = FOps (map OLog ms) :: FHooked st m s :: FOps l :: r /\ hand_overs (g_trace g1) = hand_overs (g_trace g)).
  { unfold g1, grun. cbn [repeat fold_left]. rewrite (step_fatal hb fb statics g t st m s l r S T), H.
    inner step_copied S. unfold do_reset. inner step_reset S. unfold do_count. gcbn. rewrite Nat.eqb_refl, B. repeat split; auto.
    unfold hand_overs. rewrite <- !app_assoc, flat_map_app. apply app_nil_r. }
  destruct G1 as (S1 & I1 & F1 & T1 & O1). destruct (hook_logs hb fb statics ms g1 t _ S1 I1 T1) as (S2 & I2 & T2 & F2 & _ & O2).
  fold (grun hb fb statics g (repeat t 3)). fold g1. fold (grun hb fb statics g1 (repeat t (Datatypes.S (length ms)))). set (g2 := grun hb fb statics g1 _) in *. cbn [repeat fold_left].
  rewrite (step_hooked hb fb statics g2 t st m s (FOps l :: r) S2 T2). unfold fatalCall. gcbn. rewrite F2, F1, I2. gcbn.
  exists (finish_message g2 st m s). split; [|split].
  - unfold hand_overs. rewrite flat_map_app. fold (hand_overs (g_trace g2)). rewrite O2, O1. reflexivity.
  - reflexivity.
  - unfold finish_message. destruct (1 <? g_counter g2)%N.
    + eexists. unfold new_FatalMessage, write_append, copyMsg. cbn [f_msg _message]. rewrite <- app_assoc. reflexivity.
    + exists []. unfold new_FatalMessage, write_append, copyMsg. cbn [f_msg _message]. now rewrite app_nil_r.
Qed.
Print Assumptions C25_client_hook_partial.
Example C25_ex2 : (* a hook that logs, before initialization *)
  let hb := fun _ => map OLog [fmsg (lit "from the hook")] in
  let g := grun hb nothing [] (g_start (one [OSetHook (Some (Hook 0)); OFatal (lit "u") (fmsg (lit "b")) 6])) (repeat 0 7) in
  map fst (texts g) = [ToStderr] /\ g_status g = DefaultSignal (mkLevel 1000 (lit "FATAL")) 6.
Proof. split; vm_compute; reflexivity. Qed.

(** what stderr gets contains the reason and the rendered message *)
Theorem C25_stderr_text_partial : forall e f s, snd (toString e (f_msg f)) = FOk s ->
  uninitialized_fatal_text e f = FOk (lit "FATAL CALL but logger is NOT initialized" ++ [NL] ++ lit "CAUSE: " ++ reason f ++ [NL] ++ lit "Message: " ++ [NL] ++ s).
Proof. intros e f s H. unfold uninitialized_fatal_text. rewrite H. reflexivity. Qed.
Print Assumptions C25_stderr_text_partial.

Example C25_ex1 : (* caught the first time, logged the second time *)
  let g := grun nothing nothing [] (g_start (one [OTry [OFatal (lit "t") (fmsg (lit "a")) 6]; OFatal (lit "u") (fmsg (lit "b")) 6])) (repeat 0 8) in
  map fst (texts g) = [ToStderr] /\ g_status g = DefaultSignal (mkLevel 1000 (lit "FATAL")) 6.
Proof. split; vm_compute; reflexivity. Qed.

(** ** C26 *)
(** A fatal event whose hook is over is handed over exactly once, to the handler set last, or by default to the active
    logger, or to stderr if there is none; an empty handler gets nothing. *)
Theorem C26_hand_over : forall hb fb statics g t st m s r, reached hb fb statics g -> g_status g = Running ->
  g_threads g t = FHooked st m s :: r ->
  hand_overs (g_trace (gstep hb fb statics g t)) = hand_overs (g_trace g) ++
    match handler_of (calls (g_trace g)), active (calls (g_trace g)) with
    | Some (Handler n), _ => [(ToHandler n, finish_message g st m s)]
    | Some HandlerDefault, Some w => [(ToWorker w, finish_message g st m s)]
    | Some HandlerDefault, None => [(ToStderr, finish_message g st m s)]
    | None, _ => []
    end.
Proof.
  intros hb fb statics g t st m s r R S T. pose proof (reached_inv _ _ _ _ R) as H.
  rewrite <- (i_handler g H), <- (i_active g H). unfold gstep. rewrite S, T. unfold fatalCall. gcbn.
  destruct (g_fatal_function g) as [[|n]|]; [destruct (g_logger_instance g) as [w|]|..]; gcbn; unfold hand_overs; rewrite ?flat_map_app; auto.
  unfold throw. destruct (unwind r); gcbn; rewrite flat_map_app; auto.
Qed.
Print Assumptions C26_hand_over.

(** and in no other step *)
Theorem C26_not_otherwise : forall hb fb statics g t,
  (forall st m s r, g_threads g t <> FHooked st m s :: r) ->
  hand_overs (g_trace (gstep hb fb statics g t)) = hand_overs (g_trace g).
Proof.
  intros hb fb statics g t N. unfold gstep. destruct (g_status g) eqn:R; auto.
  assert (TH : forall g t s, hand_overs (g_trace (throw g t s)) = hand_overs (g_trace g)).
  { intros. unfold throw. destruct (unwind s); gcbn; unfold hand_overs; rewrite flat_map_app; cbn; apply app_nil_r. }
  destruct (g_threads g t) as [|[[|o l]| |h st m s|h st m s|st m s|] r] eqn:T; auto.
  - unfold do_op. destruct o as [w| |w wm|m|st m s|h|h| |l'].
    + unfold initializeLogging. gcbn. destruct (g_logger_instance g); [|destruct w as [w|]; [destruct (g_save_first g); [|destruct (g_first_uninitialized_msg g)]|]];
        gcbn; unfold hand_overs; rewrite ?flat_map_app; cbn; rewrite ?app_nil_r; reflexivity.
    + gcbn. unfold hand_overs; rewrite ?flat_map_app; cbn; rewrite ?app_nil_r; reflexivity.
    + unfold shutDownLoggingForActiveOnly. gcbn. destruct (g_logger_instance g) as [a|] eqn:EI; [destruct w as [w|]; [destruct (negb (Nat.eqb w a)); [destruct wm; [unfold pushMessageToLogger; gcbn; rewrite EI|]|]|]|];
        gcbn; unfold hand_overs; rewrite ?flat_map_app; cbn; rewrite ?app_nil_r; reflexivity.
    + unfold pushMessageToLogger. gcbn. destruct (g_logger_instance g); [|destruct (g_set_first g)]; gcbn; unfold hand_overs; rewrite ?flat_map_app; cbn; rewrite ?app_nil_r; reflexivity.
    + gcbn. unfold hand_overs; rewrite ?flat_map_app; cbn; rewrite ?app_nil_r; reflexivity.
    + gcbn. unfold hand_overs; rewrite ?flat_map_app; cbn; rewrite ?app_nil_r; reflexivity.
    + cbn. unfold hand_overs; rewrite ?flat_map_app; cbn; rewrite ?app_nil_r; reflexivity.
    + rewrite TH. gcbn. unfold hand_overs; rewrite ?flat_map_app; cbn; rewrite ?app_nil_r; reflexivity.
    + gcbn. unfold hand_overs; rewrite ?flat_map_app; cbn; rewrite ?app_nil_r; reflexivity.
  - unfold do_count. destruct h as [[|n]|]; rewrite ?TH; gcbn; unfold hand_overs; rewrite ?flat_map_app; cbn; rewrite ?app_nil_r; reflexivity.
  - exfalso. eapply N. reflexivity.
Qed.
Print Assumptions C26_not_otherwise.

Example C26_ex1 :
  let g := grun nothing nothing [] (g_start (one [OInit (Some 2); OSetExit (Some (Handler 7)); OFatal (lit "t") (fmsg (lit "a")) 6; OSetExit (Some HandlerDefault); OFatal (lit "u") (fmsg (lit "b")) 6])) (repeat 0 12) in
  map fst (texts g) = [ToHandler 7; ToWorker 2] /\ g_threads g 0 = [FWaiting; FOps []].
Proof. split; vm_compute; reflexivity. Qed.

(** ** C68 *)
(** From the statement to the sinks: LOG or CHECK with the text [txt] at a fatal level, the stack dump [dump], then
    saveFatalMessage in any state in which the hook is over, then bgFatal. *)
Theorem C68_fatal_message : forall full now tid file line function lv expression signal dump txt hb fb statics g st m s,
  wasFatal lv = true -> ~ In NUL txt -> ~ In NUL dump -> ~ In NUL (text lv) ->
  end_LogCapture full now tid (stream (new_LogCapture file line function lv expression signal dump) txt) = Some (ToFatal st m s) ->
  reached hb fb statics g -> g_status g = Running -> (N.of_nat (since_init (g_trace g)) < size_max)%N ->
  _message (bgFatal_message (finish_message g st m s)) =
    txt ++ ([NL] ++ lit "*******" ++ [TAB] ++ lit "STACKDUMP *******" ++ [NL] ++ dump) ++
    (if Nat.leb 2 (since_init (g_trace g)) then warning_text (hd [] (starts (g_trace g))) else []) ++
    ([NL] ++ lit "Exiting after fatal event  (" ++ text lv ++ lit "). Fatal type:  " ++ exitReasonName lv signal ++ [NL] ++
     lit "Log content flushed successfully to sink" ++ [NL; NL]).
Proof.
  intros full now tid file line function lv expression signal dump txt hb fb statics g st m s F N1 N2 N3 E R S B.
  pose proof (C24_warning_exactly_partial hb fb statics g st m s R S B) as W.
  apply saveMessage_fields in E. cbv zeta iota beta in E.
  cbn [stream new_LogCapture c_stream c_stack_trace c_file c_line c_function c_level c_expression c_fatal_signal] in E. rewrite F in E.
  destruct E as (M & _ & _ & _ & _ & LV & _ & _ & _ & E). rewrite app_nil_l in M.
  set (trace := [NL] ++ lit "*******" ++ [TAB] ++ lit "STACKDUMP *******" ++ [NL] ++ dump).
  assert (NT : ~ In NUL trace).
  { unfold trace. intro I. rewrite !in_app_iff in I. destruct I as [I|[I|[I|[I|[I|I]]]]]; try (apply N2; exact I);
      cbn in I; repeat (destruct I as [I|I]; [discriminate I|]); exact I. }
  assert (C1 : copyLevel lv = lv) by (destruct lv as [v tx]; unfold copyLevel; cbn in *; now rewrite (proj1 (c_str_id tx) N3)).
  rewrite C1 in LV.
  unfold tab, nl in E. fold trace in E. rewrite !(proj1 (c_str_id trace) NT) in E.
  assert (E1 : st = trace) by congruence. assert (E2 : s = signal) by congruence. subst st s. clear E.
  rewrite !(proj1 (c_str_id txt) N1) in M.
  assert (LF : _level (f_msg (finish_message g trace m signal)) = lv).
  { unfold finish_message. destruct (1 <? g_counter g)%N; unfold new_FatalMessage, copyMsg, write_append; cbn [f_msg _level]; rewrite LV; exact C1. }
  assert (SF : _signal_id (finish_message g trace m signal) = signal) by (unfold finish_message; destruct (1 <? g_counter g)%N; reflexivity).
  unfold bgFatal_message, reason, write_append, copyMsg, msg_level. cbn [_message _level].
  rewrite W, M, LF, SF. rewrite <- !app_assoc. reflexivity.
Qed.
Print Assumptions C68_fatal_message.

Example C68_ex1 :
  exists st m s, end_LogCapture false 0 0 (stream (new_LogCapture (lit "a.cpp") 1 (lit "f") (mkLevel 1000 (lit "FATAL")) [] 6 (lit "#0")) (lit "boom")) = Some (ToFatal st m s) /\
  let g := grun nothing nothing [] (g_start (one [OInit (Some 0); OFatal st m s])) [0;0;0;0] in
  g_status g = Running /\ since_init (g_trace g) = 1 /\ g_threads g 0 = [FHooked st m s; FOps []].
Proof. eexists _, _, _. split; [reflexivity|]. repeat split; reflexivity. Qed.

(** ** C76 *)
(** Setting an empty hook, or an empty handler, loses the next fatal message. *)
Theorem C76_refuted : forall st m s, exists hb fb statics g, reached hb fb statics g /\
  calls (g_trace g) = [OInit (Some 0); OSetHook None; OFatal st m s] /\ hand_overs (g_trace g) = [] /\ g_status g = Terminate.
Proof.
  intros st m s. exists nothing, nothing, [], (grun nothing nothing [] (g_start (one [OInit (Some 0); OSetHook None; OFatal st m s])) [0;0;0;0;0]).
  split; [eexists _, _; reflexivity|]. repeat split; reflexivity.
Qed.
Print Assumptions C76_refuted.
Theorem C76_refuted_handler : forall st m s, exists hb fb statics g, reached hb fb statics g /\
  calls (g_trace g) = [OInit (Some 0); OSetExit None; OFatal st m s] /\ hand_overs (g_trace g) = [] /\ g_status g = Terminate.
Proof.
  intros st m s. exists nothing, nothing, [], (grun nothing nothing [] (g_start (one [OInit (Some 0); OSetExit None; OFatal st m s])) [0;0;0;0;0;0]).
  split; [eexists _, _; reflexivity|]. repeat split; try reflexivity.
Qed.
Print Assumptions C76_refuted_handler.

(** Otherwise: while neither of them is empty the thread gets to the hand-over, with the hook on top ... *)
Theorem C76_hook_runs_partial : forall hb fb statics g t st m s l r h, g_status g = Running ->
  g_threads g t = FOps (OFatal st m s :: l) :: r -> g_fatal_pre_logging_hook g = Some h ->
  g_threads (grun hb fb statics g [t; t; t]) t =
    match h with HookNop => [] | Hook n => [FOps (hb n)] end ++ FHooked st m s :: FOps l :: r.
Proof.
  intros hb fb statics g t st m s l r h S T H. unfold grun. cbn [fold_left].
  rewrite (step_fatal hb fb statics g t st m s l r S T), H.
  inner step_copied S. unfold do_reset. inner step_reset S. unfold do_count.
  destruct h as [|n]; gcbn; rewrite Nat.eqb_refl; reflexivity.
Qed.
Print Assumptions C76_hook_runs_partial.

(** ... and hands over to exactly one receiver. *)
Theorem C76_handed_over_partial : forall hb fb statics g t st m s r, reached hb fb statics g -> g_status g = Running ->
  g_threads g t = FHooked st m s :: r -> handler_of (calls (g_trace g)) <> None ->
  exists who, hand_overs (g_trace (gstep hb fb statics g t)) = hand_overs (g_trace g) ++ [(who, finish_message g st m s)].
Proof.
  intros hb fb statics g t st m s r R S T H. rewrite (C26_hand_over _ _ _ _ _ _ _ _ _ R S T).
  destruct (handler_of (calls (g_trace g))) as [[|n]|]; [destruct (active (calls (g_trace g)))|..]; eauto; congruence.
Qed.
Print Assumptions C76_handed_over_partial.

Example C76_ex1 :
  let g := grun nothing nothing [] (g_start (one [OInit (Some 0); OSetHook (Some (Hook 4)); OFatal (lit "t") (fmsg (lit "x")) 11])) (repeat 0 6) in
  g_threads g 0 = [FHooked (lit "t") (fmsg (lit "x")) 11; FOps []] /\
  map fst (hand_overs (g_trace (gstep nothing nothing [] g 0))) = [ToWorker 0].
Proof. split; vm_compute; reflexivity. Qed.
