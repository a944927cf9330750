(** The life of a process: C113, C114. *)
From Coq Require Import Ascii String List ZArith NArith Bool Lia.
From Verif.Base Require Import Bytes.
From Verif.Model Require Import Levels Message Signals Global Lifecycle.
From Verif.Spec Require Import SignalsSpec GlobalSpec LifecycleSpec.
From Verif.Proofs Require Import GlobalFacts SignalsFacts LifecycleFacts CrashFacts.
From Verif.Properties Require Import PSignals.
Import ListNotations.
Local Open Scope list_scope.
Local Open Scope Z_scope.

Section Life.
Variable hook_body handler_body : nat -> list op.
Variable statics : list nat.
Variable disabled : bool.
Variable catchable kills : Z -> bool.
Variable ends : nat -> bool.
Variable pid1 : bool.
Variable dump : nat -> Z -> str.
Variable message : nat -> Z -> LogMessage.
Notation run := (lrun hook_body handler_body statics disabled catchable kills ends pid1 dump message).

Lemma before_init : forall main base acts, let M := run (l_start main base) acts in
  l_fin M = None -> initialized (g_trace (l_g M)) = false -> l_s M = srun disabled catchable (start base) (client_ops acts).
Proof.
  intros main base acts M F I. destruct (once_run hook_body handler_body statics disabled catchable kills ends pid1 dump message main base acts) as [FL S].
  destruct (S F) as (a & b & E & T). fold M in FL, T. unfold flag in FL. rewrite FL, I in T. rewrite E. exact T.
Qed.
Lemma at_init : forall main base pre t, let L := run (l_start main base) pre in let M := run L [LCall t] in
  l_fin M = None -> initialized (g_trace (l_g L)) = false -> initialized (g_trace (l_g M)) = true ->
  g_initialized_once (l_g M) = true /\ l_s M = srun disabled catchable (start base) (client_ops pre ++ [SInstall]).
Proof.
  intros main base pre t L M F I1 I2.
  destruct (once_run hook_body handler_body statics disabled catchable kills ends pid1 dump message main base pre) as [FL _]. fold L in FL.
  destruct (once_run hook_body handler_body statics disabled catchable kills ends pid1 dump message main base (pre ++ [LCall t])) as [FM _].
  rewrite run_app in FM. fold L M in FM. unfold flag in FL, FM. rewrite I1 in FL. rewrite I2 in FM. split; [exact FM|].
  pose proof (fin_before _ _ _ _ _ _ _ _ _ _ _ _ F) as FF.
  pose proof (before_init main base pre FF I1) as S. fold L in S.
  unfold srun. rewrite fold_left_app. cbn [fold_left sstep]. unfold srun in S. rewrite <- S.
  assert (M = lstep hook_body handler_body statics disabled catchable kills ends pid1 dump message L (LCall t)) as EM by reflexivity.
  clearbody M. subst M. clear S. unfold lstep in *. rewrite FF in *. unfold l_call in *. destruct (back_in_abort L t); [discriminate|]. cbn zeta in *.
  rewrite FL in *. cbn [negb andb] in *.
  destruct (g_status (gstep hook_body handler_body statics (l_g L) t)) eqn:GS; try discriminate.
  - cbn [l_return l_g l_s] in *. rewrite FM. reflexivity.
  - unfold l_terminate in *. cbn zeta in *.
    match goal with |- context [l_deliver _ _ _ _ _ ?x t SIGABRT] => destruct (deliver_same kills ends pid1 dump message x t SIGABRT) as (D1 & D2 & _) end.
    rewrite D1. rewrite D2 in FM. cbn [l_return l_g l_s set_status g_initialized_once] in *. rewrite FM. reflexivity.
Qed.
End Life.

(** ** C113 *)
(** In every run: before the first initialization the signal table is the one the client's own calls have made; the first
    initialization adds one installation, at its place; nothing else ever touches it, whatever is initialized, shut down or logged. *)
Theorem C113_once : forall hook_body handler_body statics disabled catchable kills ends pid1 dump message main base pre t post,
  let run := lrun hook_body handler_body statics disabled catchable kills ends pid1 dump message in
  let L := run (l_start main base) pre in
  let M := run (l_start main base) (pre ++ LCall t :: post) in
  (l_fin L = None -> initialized (g_trace (l_g L)) = false -> l_s L = srun disabled catchable (start base) (client_ops pre)) /\
  (l_fin M = None -> initialized (g_trace (l_g L)) = false -> initialized (g_trace (l_g (run L [LCall t]))) = true ->
   l_s M = srun disabled catchable (start base) (client_ops pre ++ [SInstall] ++ client_ops post)).
Proof.
  intros hook_body handler_body statics disabled catchable kills ends pid1 dump message main base pre t post run L M. split.
  - intros F I. exact (before_init hook_body handler_body statics disabled catchable kills ends pid1 dump message main base pre F I).
  - intros F I1 I2.
    assert (EM : M = run (run L [LCall t]) post).
    { unfold M, L, run. change (LCall t :: post) with ([LCall t] ++ post). rewrite !run_app. reflexivity. }
    rewrite EM in F |- *. pose proof (fin_before _ _ _ _ _ _ _ _ _ _ _ _ F) as F1.
    destruct (at_init hook_body handler_body statics disabled catchable kills ends pid1 dump message main base pre t F1 I1 I2) as [O S].
    destruct (later_run _ _ _ _ _ _ _ _ _ _ _ _ O F) as [_ T]. etransitivity; [exact T|]. rewrite S.
    unfold srun. rewrite !fold_left_app. reflexivity.
Qed.
Print Assumptions C113_once.

(** Once logging has been initialized, g3log handles the chosen signals at any time, unless the client takes single signals away. *)
Theorem C113_armed : forall hook_body handler_body statics catchable kills ends pid1 dump message main base acts,
  let M := lrun hook_body handler_body statics false catchable kills ends pid1 dump message (l_start main base) acts in
  (forall o, In o (client_ops acts) -> leaves_alone o) ->
  l_fin M = None -> initialized (g_trace (l_g M)) = true ->
  forall s, chosen_by (client_ops acts) s = true -> catchable s = true -> table (l_s M) s = G3log.
Proof.
  intros hook_body handler_body statics catchable kills ends pid1 dump message main base acts M LA F I s C K.
  destruct (once_run hook_body handler_body statics false catchable kills ends pid1 dump message main base acts) as [FL S]. fold M in FL, S.
  destruct (S F) as (a & b & E & T). unfold flag in FL. rewrite FL, I in T. rewrite E in *.
  assert (S0 : sane five (start base)) by (split; [apply kSignals_nodup | apply five_named]).
  assert (AR : armed catchable (l_s M)).
  { rewrite T. unfold srun. rewrite fold_left_app. cbn [app fold_left]. pose proof (sane_run catchable a _ _ S0) as SA. unfold srun in SA.
    pose proof (sane_step catchable _ _ SInstall SA) as SB.
    apply (armed_run catchable b _ _ SB); [|intros o IN; apply LA; apply in_or_app; right; exact IN].
    cbn [sstep]. apply install_armed. apply SA. }
  apply AR; [|exact K].
  pose proof (sane_run catchable (a ++ [SInstall] ++ b) _ _ S0) as [_ SN]. rewrite <- T in SN. rewrite SN.
  unfold chosen_by in C. rewrite fold_left_app in *. exact C.
Qed.
Print Assumptions C113_armed.

(** ** C114 *)
(** The state in which a crash is promised to be reported: the process runs, worker w is in service and no fatal event has occurred
    since; the exit handler is g3log's; the hook does nothing but log; all the others threads just log (or wait). *)
Definition in_order (hook_body : nat -> list op) (L : life) (t w : nat) : Prop :=
  l_fin L = None /\ g_logger_instance (l_g L) = Some w /\ g_fatal_function (l_g L) = Some HandlerDefault /\ l_count L = 0%N /\
  g_counter (l_g L) = 0%N /\ safe_hook hook_body (g_fatal_pre_logging_hook (l_g L)) /\ (forall v, first_fatal v (g_trace (l_g L)) = None) /\
  l_abort L = [] /\ forall u, u <> t -> Forall peaceful (g_threads (l_g L) u).

(** how a process ends that is hit by s, had g3log not been there; if it would survive s, it exits with code s *)
Definition natural_end (kills : Z -> bool) (ends : nat -> bool) (pid1 : bool) (d : disp) (s : Z) : ending :=
  expected_ending (mkWorld kills ends pid1 true false) d s.

Section Crash.
Variable hook_body handler_body : nat -> list op.
Variable statics : list nat.
Variable catchable kills : Z -> bool.
Variable ends : nat -> bool.
Variable pid1 : bool.
Variable dump : nat -> Z -> str.
Variable message : nat -> Z -> LogMessage.
Notation run := (lrun hook_body handler_body statics false catchable kills ends pid1 dump message).

(** what is known about a state after an initialization *)
Lemma history : forall main base pre1 t0 pre2, let L := run (l_start main base) (pre1 ++ LCall t0 :: pre2) in
  initialized (g_trace (l_g (run (l_start main base) pre1))) = false ->
  initialized (g_trace (l_g (run (l_start main base) (pre1 ++ [LCall t0])))) = true ->
  l_fin L = None ->
  l_s L = srun false catchable (start base) (client_ops pre1 ++ [SInstall] ++ client_ops pre2) /\ g_initialized_once (l_g L) = true /\ g_status (l_g L) = Running.
Proof.
  intros main base pre1 t0 pre2 L I1 I2 FL. split; [|split].
  - destruct (C113_once hook_body handler_body statics false catchable kills ends pid1 dump message main base pre1 t0 pre2) as [_ C].
    apply C; [exact FL | exact I1|]. rewrite run_app in I2. exact I2.
  - destruct (once_run hook_body handler_body statics false catchable kills ends pid1 dump message main base (pre1 ++ [LCall t0])) as [F1 _].
    unfold flag in F1. rewrite I2 in F1.
    assert (EL : L = run (run (l_start main base) (pre1 ++ [LCall t0])) pre2).
    { unfold L. rewrite <- run_app, <- app_assoc. reflexivity. }
    rewrite EL in FL |- *. apply (later_run _ _ _ _ _ _ _ _ _ _ pre2 _ F1 FL).
  - apply running; [reflexivity | exact FL].
Qed.

(** from the crash to the end *)
Lemma to_the_end : forall base os t s w below rest taken dmp msg post n L, (forall x, base x <> G3log) -> all_proper catchable (view0 base) os ->
  crash hook_body t s w (srun false catchable (start base) os) below rest taken dmp msg L (signals_of post) n ->
  (forall a, In a post -> aftermath (handled (view_of catchable base os)) t a) ->
  let M := run L post in
  let e := natural_end kills ends pid1 (outside (view_of catchable base os) s) s in
  (l_fin M = None \/ l_fin M = Some e) /\
  (l_fin M = Some e \/ (n <= turns t post)%nat -> first_fatal w (g_trace (l_g M)) = Some (new_FatalMessage (write_append msg dmp) s)) /\
  ((n <= turns t post)%nat -> l_fin (run M [LWorker w]) = Some e).
Proof.
  intros base os t s w below rest taken dmp msg post n L B P C0 AF M e.
  set (S0 := srun false catchable (start base) os) in *.
  pose proof (C61_table catchable base os B P) as TB. fold S0 in TB.
  assert (HG : forall x, handled (view_of catchable base os) x = match table S0 x with G3log => true | _ => false end).
  { intro x. rewrite TB. destruct (handled (view_of catchable base os) x); [reflexivity|].
    pose proof (y_outside _ _ _ (Sync_run catchable os _ _ (Sync_start catchable base B) P) x) as O.
    change (fold_left (view_step catchable) os (view0 base)) with (view_of catchable base os) in O.
    destruct (outside (view_of catchable base os) x); try reflexivity. exfalso. apply O. reflexivity. }
  assert (E : dies false catchable kills ends pid1 s S0 taken = e).
  { unfold dies. exact (proj2 (C63_ending_partial catchable base os (mkWorld kills ends pid1 taken false) s B P eq_refl)). }
  assert (AF' : forall a, In a post -> aftermath (fun x => match table S0 x with G3log => true | _ => false end) t a).
  { intros a IA. specialize (AF a IA). destruct a; auto. unfold aftermath in *. rewrite <- HG. exact AF. }
  pose proof (crash_run hook_body handler_body statics false catchable kills ends pid1 dump message t s w S0 below rest taken dmp msg post _ _ C0 AF') as CR.
  cbn zeta in CR. fold M in CR. clearbody M. destruct CR as [C1|(N & F & R)].
  - destruct C1 as [F _ _ _ KS _ K _ _ (o & PH & FA)]. split; [now left|].
    assert (RP : (n <= turns t post)%nat -> first_fatal w (g_trace (l_g M)) = Some (report s dmp msg)).
    { intro N. replace (n - _)%nat with 0%nat in PH by lia. rewrite (FA w), Nat.eqb_refl. inversion PH. reflexivity. }
    split; [intros [X|N]; [congruence | exact (RP N)]|]. intro N. specialize (RP N).
    rewrite run_cons. unfold lrun. cbn [fold_left]. unfold lstep. rewrite F, RP. cbn [l_exit l_fin]. rewrite <- E. unfold dies.
    rewrite KS. unfold l_world.
    replace (0 <? l_count M)%N with taken; [reflexivity|]. destruct taken; destruct K as [K _]; symmetry; [apply N.ltb_lt; exact K | rewrite K; reflexivity].
  - rewrite E in F. split; [now right|]. split; [intros _; exact R|]. intros _. rewrite (fin_stays _ _ _ _ _ _ _ _ _ _ _ M e F). exact F.
Qed.
End Crash.

(** Signal s hits thread t.  Whatever the other threads and further signals do then: the worker gets the report of this crash and no
    other fatal message first; the process ends when the worker is through with it, and not earlier; and it ends as it would
    have ended had s come without g3log being there. *)
Theorem C114_signal : forall hook_body handler_body statics catchable kills ends pid1 dump message main base pre1 t0 pre2 t s w post,
  let run := lrun hook_body handler_body statics false catchable kills ends pid1 dump message in
  let L := run (l_start main base) (pre1 ++ LCall t0 :: pre2) in
  let view := view_of catchable base (client_ops pre1 ++ [SInstall] ++ client_ops pre2) in
  initialized (g_trace (l_g (run (l_start main base) pre1))) = false ->
  initialized (g_trace (l_g (run (l_start main base) (pre1 ++ [LCall t0])))) = true ->
  (forall x, base x <> G3log) -> all_proper catchable (view0 base) (client_ops pre1 ++ [SInstall] ++ client_ops pre2) ->
  in_order hook_body L t w -> in_handler L t s = false -> handled view s = true ->
  (forall a, In a post -> aftermath (handled view) t a) -> (N.of_nat (signals_of post) + 1 < size_max)%N ->
  let M := run L (LSignal t s :: post) in
  let needed := (4 + extra hook_body (g_fatal_pre_logging_hook (l_g L)))%nat in
  let e := natural_end kills ends pid1 (outside view s) s in
  (l_fin M = None \/ l_fin M = Some e) /\
  (l_fin M = Some e \/ (needed <= turns t post)%nat -> first_fatal w (g_trace (l_g M)) = Some (new_FatalMessage (write_append (message t s) (dump t s)) s)) /\
  ((needed <= turns t post)%nat -> l_fin (run M [LWorker w]) = Some e).
Proof.
  intros hook_body handler_body statics catchable kills ends pid1 dump message main base pre1 t0 pre2 t s w post run L view I1 I2 B P OD IH HS AF BD M needed e.
  destruct OD as (FL & LO & FN & CN & CO & SH & NF & AB & OT).
  destruct (history hook_body handler_body statics catchable kills ends pid1 dump message main base pre1 t0 pre2 I1 I2 FL) as (SS & ON & ST). fold run L in SS, ON, ST.
  pose proof (C61_table catchable base _ B P s) as TB. rewrite <- SS in TB. fold view in TB. rewrite HS in TB.
  assert (EM : M = run (l_deliver kills ends pid1 dump message L t s) post).
  { unfold M, run. rewrite run_cons. unfold lstep. rewrite FL. unfold l_signal. rewrite IH. reflexivity. }
  rewrite EM. unfold run. apply to_the_end with (below := g_threads (l_g L) t) (rest := []) (taken := true); [exact B | exact P | | exact AF].
  unfold l_deliver. rewrite TB. unfold l_handle. cbn zeta. rewrite CN. change (0 =? 0)%N with true.
  apply crash_start; cbn [l_fin l_g l_s l_count l_in l_abort set_stack g_status g_logger_instance g_fatal_function g_initialized_once g_threads g_fatal_pre_logging_hook g_counter g_trace]; auto.
  - change (sz (0 + 1)) with 1%N. split; lia.
  - intros u U. apply Nat.eqb_neq in U as E. rewrite E. apply OT. exact U.
  - rewrite AB. intros u x [].
  - rewrite Nat.eqb_refl. reflexivity.
Qed.
Print Assumptions C114_signal.

(** The same for an exception that nobody catches: it is reported as SIGABRT. *)
Theorem C114_exception : forall hook_body handler_body statics catchable kills ends pid1 dump message main base pre1 t0 pre2 t w l r post,
  let run := lrun hook_body handler_body statics false catchable kills ends pid1 dump message in
  let L := run (l_start main base) (pre1 ++ LCall t0 :: pre2) in
  let view := view_of catchable base (client_ops pre1 ++ [SInstall] ++ client_ops pre2) in
  initialized (g_trace (l_g (run (l_start main base) pre1))) = false ->
  initialized (g_trace (l_g (run (l_start main base) (pre1 ++ [LCall t0])))) = true ->
  (forall x, base x <> G3log) -> all_proper catchable (view0 base) (client_ops pre1 ++ [SInstall] ++ client_ops pre2) ->
  in_order hook_body L t w -> g_threads (l_g L) t = FOps (OThrow :: l) :: r -> unwind r = None -> handled view SIGABRT = true ->
  (forall a, In a post -> aftermath (handled view) t a) -> (N.of_nat (signals_of post) + 1 < size_max)%N ->
  let M := run L (LCall t :: post) in
  let needed := (4 + extra hook_body (g_fatal_pre_logging_hook (l_g L)))%nat in
  let e := natural_end kills ends pid1 (outside view SIGABRT) SIGABRT in
  (l_fin M = None \/ l_fin M = Some e) /\
  (l_fin M = Some e \/ (needed <= turns t post)%nat ->
   first_fatal w (g_trace (l_g M)) = Some (new_FatalMessage (write_append (message t SIGABRT) (dump t SIGABRT)) SIGABRT)) /\
  ((needed <= turns t post)%nat -> l_fin (run M [LWorker w]) = Some e).
Proof.
  intros hook_body handler_body statics catchable kills ends pid1 dump message main base pre1 t0 pre2 t w l r post run L view I1 I2 B P OD TH UW HS AF BD M needed e.
  destruct OD as (FL & LO & FN & CN & CO & SH & NF & AB & OT).
  destruct (history hook_body handler_body statics catchable kills ends pid1 dump message main base pre1 t0 pre2 I1 I2 FL) as (SS & ON & ST). fold run L in SS, ON, ST.
  pose proof (C61_table catchable base _ B P SIGABRT) as TB. rewrite <- SS in TB. fold view in TB. rewrite HS in TB.
  set (L1 := lstep hook_body handler_body statics false catchable kills ends pid1 dump message L (LCall t)).
  assert (EM : M = run L1 post) by reflexivity. rewrite EM. unfold run.
  apply to_the_end with (below := []) (rest := []) (taken := true); [exact B | exact P | | exact AF].
  unfold L1, lstep. rewrite FL. unfold l_call. replace (back_in_abort L t) with false by (unfold back_in_abort; rewrite AB; reflexivity). cbn zeta.
  unfold gstep. rewrite ST, TH. unfold do_op, throw. cbn zeta. cbn [unwind]. rewrite UW.
  cbn [set_status g_status]. unfold l_terminate. cbn zeta. unfold l_deliver. cbn [l_s l_return]. rewrite ON. cbn [negb andb]. rewrite TB.
  unfold l_handle. cbn zeta.
  cbn [l_return l_fin l_g l_s l_count l_in l_abort set_stack set_status emit g_status g_logger_instance g_fatal_function g_initialized_once g_threads g_fatal_pre_logging_hook g_counter g_trace].
  rewrite CN. change (0 =? 0)%N with true. rewrite Nat.eqb_refl.
  apply crash_start; cbn [l_fin l_g l_s l_count l_in l_abort set_stack set_status emit g_status g_logger_instance g_fatal_function g_initialized_once g_threads g_fatal_pre_logging_hook g_counter g_trace]; auto.
  - change (sz (0 + 1)) with 1%N. split; lia.
  - intros u U. apply Nat.eqb_neq in U as E. rewrite E. apply OT. exact U.
  - rewrite AB. intros u x [X|[]]. injection X as <- <-. split; [reflexivity | cbn; lia].
  - rewrite Nat.eqb_refl. reflexivity.
  - intro v. rewrite !first_fatal_app, NF. reflexivity.
Qed.
Print Assumptions C114_exception.

(** The same for LOG(FATAL) and failed CHECKs (here s is SIGABRT); then without further signals. *)
Theorem C114_fatal : forall hook_body handler_body statics catchable kills ends pid1 dump message main base pre1 t0 pre2 t w st m s l r post,
  let run := lrun hook_body handler_body statics false catchable kills ends pid1 dump message in
  let L := run (l_start main base) (pre1 ++ LCall t0 :: pre2) in
  let view := view_of catchable base (client_ops pre1 ++ [SInstall] ++ client_ops pre2) in
  initialized (g_trace (l_g (run (l_start main base) pre1))) = false ->
  initialized (g_trace (l_g (run (l_start main base) (pre1 ++ [LCall t0])))) = true ->
  (forall x, base x <> G3log) -> all_proper catchable (view0 base) (client_ops pre1 ++ [SInstall] ++ client_ops pre2) ->
  in_order hook_body L t w -> g_threads (l_g L) t = FOps (OFatal st m s :: l) :: r ->
  (forall a, In a post -> aftermath (fun _ => false) t a) ->
  let M := run L post in
  let needed := (4 + extra hook_body (g_fatal_pre_logging_hook (l_g L)))%nat in
  let e := natural_end kills ends pid1 (outside view s) s in
  (l_fin M = None \/ l_fin M = Some e) /\
  (l_fin M = Some e \/ (needed <= turns t post)%nat -> first_fatal w (g_trace (l_g M)) = Some (new_FatalMessage (write_append m st) s)) /\
  ((needed <= turns t post)%nat -> l_fin (run M [LWorker w]) = Some e).
Proof.
  intros hook_body handler_body statics catchable kills ends pid1 dump message main base pre1 t0 pre2 t w st m s l r post run L view I1 I2 B P OD TH AF M needed e.
  destruct OD as (FL & LO & FN & CN & CO & SH & NF & AB & OT).
  destruct (history hook_body handler_body statics catchable kills ends pid1 dump message main base pre1 t0 pre2 I1 I2 FL) as (SS & ON & ST). fold run L in SS, ON, ST.
  assert (NS : signals_of post = 0%nat).
  { unfold signals_of. clear -AF. induction post as [|a post IH]; [reflexivity|]. cbn [filter]. pose proof (AF a (or_introl eq_refl)) as A.
    destruct a; try (apply IH; intros x I; apply AF; now right). destruct A as [_ A]. discriminate. }
  unfold M, run. apply to_the_end with (below := r) (rest := l) (taken := false); [exact B | exact P | |].
  - rewrite NS. apply crash_start; auto. rewrite AB. intros u x [].
  - intros a I. specialize (AF a I). destruct a; auto. destruct AF as [_ A]. discriminate.
Qed.
Print Assumptions C114_fatal.

(** A signal that g3log does not handle acts as if g3log were not there, and leaves everything else as it is. *)
Theorem C114_others : forall hook_body handler_body statics catchable kills ends pid1 dump message main base pre1 t0 pre2 t s,
  let run := lrun hook_body handler_body statics false catchable kills ends pid1 dump message in
  let L := run (l_start main base) (pre1 ++ LCall t0 :: pre2) in
  let view := view_of catchable base (client_ops pre1 ++ [SInstall] ++ client_ops pre2) in
  initialized (g_trace (l_g (run (l_start main base) pre1))) = false ->
  initialized (g_trace (l_g (run (l_start main base) (pre1 ++ [LCall t0])))) = true ->
  (forall x, base x <> G3log) -> all_proper catchable (view0 base) (client_ops pre1 ++ [SInstall] ++ client_ops pre2) ->
  l_fin L = None -> in_handler L t s = false -> handled view s = false ->
  let M := run L [LSignal t s] in
  l_fin M = match outside view s with
            | Dfl => if kills s && negb pid1 then Some (Killed s) else None
            | User n => if ends n then Some (EndedByHandler n) else None
            | _ => None
            end /\
  l_g M = l_g L /\ l_s M = l_s L /\ l_in M = l_in L.
Proof.
  intros hook_body handler_body statics catchable kills ends pid1 dump message main base pre1 t0 pre2 t s run L view I1 I2 B P FL IH HS M.
  destruct (history hook_body handler_body statics catchable kills ends pid1 dump message main base pre1 t0 pre2 I1 I2 FL) as (SS & _). fold run L in SS.
  pose proof (C61_table catchable base _ B P s) as TB. rewrite <- SS in TB. fold view in TB. rewrite HS in TB.
  pose proof (y_outside _ _ _ (Sync_run catchable (client_ops pre1 ++ [SInstall] ++ client_ops pre2) _ _ (Sync_start catchable base B) P) s) as O.
  change (fold_left (view_step catchable) (client_ops pre1 ++ [SInstall] ++ client_ops pre2) (view0 base)) with view in O.
  assert (EM : M = l_deliver kills ends pid1 dump message L t s).
  { unfold M, run, lrun. cbn [fold_left]. unfold lstep. rewrite FL. unfold l_signal. rewrite IH. reflexivity. }
  rewrite EM. unfold l_deliver. rewrite TB. destruct (outside view s) as [| |n|].
  - destruct (kills s && negb pid1); cbn; auto.
  - auto.
  - destruct (ends n); cbn; auto.
  - exfalso. now apply O.
Qed.
Print Assumptions C114_others.

(** A thread that is in g3log's handler for a signal does not get that signal again; the turns of other threads change nothing
    about that, and all other threads and signals are as before. *)
Theorem C114_blocked : forall hook_body handler_body statics disabled catchable kills ends pid1 dump message L t s,
  let step := lstep hook_body handler_body statics disabled catchable kills ends pid1 dump message in
  l_fin L = None ->
  (in_handler L t s = true -> step L (LSignal t s) = L) /\
  (in_handler L t s = false -> table (l_s L) s = G3log ->
     forall u x, in_handler (step L (LSignal t s)) u x = (Nat.eqb t u && (s =? x)) || in_handler L u x) /\
  (forall u, u <> t -> in_handler (step L (LCall u)) t s = in_handler L t s).
Proof.
  intros hook_body handler_body statics disabled catchable kills ends pid1 dump message L t s step F. unfold step, lstep. rewrite F. split; [|split].
  - intro H. unfold l_signal. rewrite H. reflexivity.
  - intros H T u x. unfold l_signal. rewrite H. unfold l_deliver. rewrite T. reflexivity.
  - intros u U. unfold l_call. destruct (back_in_abort L u); [reflexivity|]. cbv zeta.
    assert (K : forall l n, existsb (fun y => match y with (v, m, _) => Nat.eqb v t && (m =? s) end)
              (filter (fun y => match y with (v, _, d) => negb (Nat.eqb v u) || (d <? n)%nat end) l) =
            existsb (fun y => match y with (v, m, _) => Nat.eqb v t && (m =? s) end) l).
    { intros l n. induction l as [|[[v m] d] l IH]; [reflexivity|]. cbn [filter existsb]. destruct (Nat.eqb_spec v u) as [->|N]; cbn [negb orb].
      - assert (E : Nat.eqb u t = false) by (apply Nat.eqb_neq; exact U). rewrite E. cbn [andb orb].
        destruct (d <? n)%nat; cbn [existsb]; [rewrite E; cbn [andb orb]|]; exact IH.
      - cbn [existsb]. rewrite IH. reflexivity. }
    destruct (g_status (gstep hook_body handler_body statics (l_g L) u)); try (unfold in_handler, l_exit, l_end, l_return; cbn [l_in]; apply K).
    unfold l_terminate. cbv zeta. unfold l_deliver. cbn [l_s l_return].
    destruct (table _ SIGABRT) as [| |n|];
      [destruct (kills SIGABRT && negb pid1)| |destruct (ends n)|unfold l_handle; cbv zeta];
      unfold in_handler, l_end, l_return; cbn [l_in existsb]; try (apply K).
    assert (E : Nat.eqb u t = false) by (apply Nat.eqb_neq; exact U). rewrite E. cbn [andb orb]. apply K.
Qed.
Print Assumptions C114_blocked.

(** As long as no signal has come and no thread is in abort(), nobody is in the handler and the next activation is the first. *)
Theorem C114_quiet : forall hook_body handler_body statics disabled catchable kills ends pid1 dump message main base acts,
  let L := lrun hook_body handler_body statics disabled catchable kills ends pid1 dump message (l_start main base) acts in
  (forall t s, ~ In (LSignal t s) acts) -> l_abort L = [] -> l_count L = 0%N /\ forall t s, in_handler L t s = false.
Proof.
  intros hook_body handler_body statics disabled catchable kills ends pid1 dump message main base acts L NS AB.
  enough (G : l_count L = 0%N /\ l_in L = []) by (destruct G as [G1 G2]; split; [exact G1|]; intros t s; unfold in_handler; rewrite G2; reflexivity).
  revert NS AB. unfold L, lrun. clear L. rewrite <- (rev_involutive acts). set (l := rev acts). clearbody l. clear acts.
  induction l as [|a l IH]; intros NS AB; [split; reflexivity|]. cbn [rev] in *. rewrite fold_left_app in *. cbn [fold_left] in *.
  set (K := fold_left _ (rev l) (l_start main base)) in *. clearbody K.
  assert (NS' : forall t s, ~ In (LSignal t s) (rev l)) by (intros t s I; apply (NS t s); apply in_or_app; now left).
  assert (NA : forall t s, a <> LSignal t s) by (intros t s ->; apply (NS t s); apply in_or_app; right; now left).
  specialize (IH NS'). unfold lstep in *. destruct (l_fin K) eqn:F; [apply IH; exact AB|]. destruct a as [t|o|t s|w].
  - unfold l_call in *. destruct (back_in_abort K t); [apply IH; exact AB|]. cbv zeta in *.
    destruct (g_status (gstep hook_body handler_body statics (l_g K) t));
      try (unfold l_exit, l_end, l_return in *; cbn [l_abort l_count l_in] in *; destruct (IH AB) as [C I]; rewrite I; split; [exact C|reflexivity]).
    exfalso. unfold l_terminate, l_deliver in AB. cbv zeta in AB. cbn [l_s l_return] in AB.
    destruct (table _ SIGABRT) as [| |n|]; [destruct (kills SIGABRT && negb pid1)| |destruct (ends n)|]; discriminate AB.
  - apply IH. exact AB.
  - exfalso. exact (NA t s eq_refl).
  - destruct (first_fatal w (g_trace (l_g K))); apply IH; exact AB.
Qed.
Print Assumptions C114_quiet.

(** abort() does not come back.  An exception that nobody catches: whatever happens then, in whatever order, once the thread has no
    activities any more (the signal was ignored, its handler has returned, also g3log's, or nothing had to be done) its next turn ends the
    process with SIGABRT, if nothing else has.  When SIGABRT is not g3log's, it is over at the second turn at the latest. *)
Theorem C114_abort : forall hook_body handler_body statics disabled catchable kills ends pid1 dump message L t l r post,
  let run := lrun hook_body handler_body statics disabled catchable kills ends pid1 dump message in
  l_fin L = None -> g_status (l_g L) = Running -> g_threads (l_g L) t = FOps (OThrow :: l) :: r -> unwind r = None -> (forall d, ~ In (t, d) (l_abort L)) ->
  let M := run L (LCall t :: post) in
  (l_fin M = None -> g_threads (l_g M) t = [] -> l_fin (run M [LCall t]) = Some (Killed SIGABRT)) /\
  (table (l_s L) SIGABRT <> G3log ->
   l_fin (run L [LCall t; LCall t]) = Some (match table (l_s L) SIGABRT with User n => if ends n then EndedByHandler n else Killed SIGABRT | _ => Killed SIGABRT end)).
Proof.
  intros hook_body handler_body statics disabled catchable kills ends pid1 dump message L t l r post run F ST TH UW NA. intro M.
  set (step := lstep hook_body handler_body statics disabled catchable kills ends pid1 dump message).
  assert (MONO : forall a K x, In x (l_abort K) -> In x (l_abort (step K a))).
  { intros a K x I. unfold step, lstep. destruct (l_fin K); [exact I|]. destruct a as [u|o|u z|w].
    - unfold l_call. destruct (back_in_abort K u); [exact I|]. cbv zeta. destruct (g_status (gstep hook_body handler_body statics (l_g K) u)); try exact I.
      unfold l_terminate, l_deliver. cbv zeta. cbn [l_s l_return]. destruct (table _ SIGABRT) as [| |n|]; [destruct (kills SIGABRT && negb pid1)| |destruct (ends n)|];
        cbn [l_handle l_end l_abort l_return]; now right.
    - exact I.
    - unfold l_signal. destruct (in_handler K u z); [exact I|]. unfold l_deliver. destruct (table (l_s K) z) as [| |n|]; [destruct (kills z && negb pid1)| |destruct (ends n)|]; exact I.
    - destruct (first_fatal w (g_trace (l_g K))); exact I. }
  assert (BA : back_in_abort L t = false).
  { unfold back_in_abort. destruct (existsb _ (l_abort L)) eqn:E; [|reflexivity]. exfalso. apply existsb_exists in E as ((u & d) & I & E).
    cbn [fst snd] in E. apply andb_prop in E as [E _]. apply Nat.eqb_eq in E. subst u. exact (NA d I). }
  assert (ONE : exists K, step L (LCall t) = l_deliver kills ends pid1 dump message K t SIGABRT /\ l_fin K = None /\ l_abort K = (t, 0%nat) :: l_abort L /\
    g_threads (l_g K) t = [] /\ l_s K = l_s L).
  { unfold step, lstep. rewrite F. unfold l_call. rewrite BA.
    assert (G : exists g', gstep hook_body handler_body statics (l_g L) t = g' /\ g_status g' = Terminate /\ g_threads g' t = [] /\ g_initialized_once g' = g_initialized_once (l_g L)).
    { eexists. split; [reflexivity|]. unfold gstep. rewrite ST, TH. unfold do_op, throw. cbv zeta. cbn [unwind]. rewrite UW. cbn. rewrite Nat.eqb_refl. auto. }
    destruct G as (g' & -> & S1 & S2 & S3). cbv zeta. rewrite S1, S3. rewrite andb_comm, andb_negb_r. unfold l_terminate. cbv zeta. eexists. split; [reflexivity|].
    cbn [l_fin l_abort l_g l_s l_return set_status g_threads]. rewrite S2. auto. }
  destruct ONE as (K & E1 & FK & AK & TK & SK).
  assert (IN1 : In (t, 0%nat) (l_abort (step L (LCall t)))).
  { rewrite E1. unfold l_deliver. destruct (table (l_s K) SIGABRT) as [| |n|]; [destruct (kills SIGABRT && negb pid1)| |destruct (ends n)|]; cbn [l_handle l_end l_abort]; rewrite AK; now left. }
  assert (LAST : forall M, In (t, 0%nat) (l_abort M) -> l_fin M = None -> g_threads (l_g M) t = [] -> l_fin (step M (LCall t)) = Some (Killed SIGABRT)).
  { intros M' I FM TM. unfold step, lstep. rewrite FM. unfold l_call. replace (back_in_abort M' t) with true; [reflexivity|]. symmetry. unfold back_in_abort.
    apply existsb_exists. exists (t, 0%nat). split; [exact I|]. cbn [fst snd]. rewrite TM, Nat.eqb_refl. reflexivity. }
  split.
  - intros FM TM. apply LAST; [|exact FM|exact TM]. subst M. change (run L (LCall t :: post)) with (fold_left step post (step L (LCall t))). revert IN1. generalize (step L (LCall t)). clear -MONO.
    induction post as [|a post IH]; intros K I; cbn [fold_left]; [exact I|]. apply IH. apply MONO. exact I.
  - intro NG. change (run L [LCall t; LCall t]) with (step (step L (LCall t)) (LCall t)). rewrite E1. unfold l_deliver. rewrite SK.
    assert (FIN : forall K' e, l_fin K' = Some e -> step K' (LCall t) = K') by (intros K' e X; unfold step, lstep; now rewrite X).
    destruct (table (l_s L) SIGABRT) as [| |n|] eqn:T; [destruct (kills SIGABRT && negb pid1)| |destruct (ends n)|congruence];
      try (erewrite FIN by reflexivity; reflexivity); apply LAST; rewrite ?AK; auto; now left.
Qed.
Print Assumptions C114_abort.

(** ** a process *)
Definition a_message (text : str) : LogMessage := mkMsg DefaultDetails 0 1 (lit "main.cpp") (lit "/src/main.cpp") 3 (lit "main") INFO [] text.
Definition the_hook (n : nat) : list op := [OLog (a_message (lit "hook"))].
Definition no_ops (n : nat) : list op := [].
(** thread 0 initializes, sets the hook, logs; thread 1 logs *)
Definition two_threads (n : nat) : list op :=
  match n with
  | O => [OInit (Some 7%nat); OSetHook (Some (Hook 4)); OLog (a_message (lit "one")); OThrow]
  | 1%nat => [OLog (a_message (lit "two")); OLog (a_message (lit "three"))]
  | _ => []
  end.
Definition crash_dump (t : nat) (s : Z) : str := lit "dump".
Definition crash_text (t : nat) (s : Z) : LogMessage := a_message (lit "crash").
Definition ex_run := lrun the_hook no_ops [] false catch_all (fun _ => true) (fun _ => false) false crash_dump crash_text.
Definition ex_pre2 : list lact := [LSig (SOverride [(11, lit "SIGSEGV"); (6, lit "SIGABRT")]); LCall 0; LCall 0].

(** SIGABRT ignored by the client: an uncaught exception ends the process all the same, at the second turn *)
Example C114_ex_abort :
  let main (n : nat) := match n with O => [OThrow] | _ => [] end in
  let L := l_start main (fun _ => Ign) in
  l_fin (ex_run L [LCall 0]) = None /\ l_fin (ex_run L [LCall 0; LCall 0]) = Some (Killed SIGABRT).
Proof. vm_compute. auto. Qed.

(** C113: a second initialization, after a shut-down, installs nothing: the client's choice stays *)
Example C113_ex :
  let main (n : nat) := match n with O => [OInit (Some 7%nat); OShutdown; OInit (Some 8%nat)] | _ => [] end in
  let M := ex_run (l_start main all_dfl) ([LCall 0] ++ [LSig (SOverride [(11, lit "SIGSEGV")]); LCall 0; LCall 0]) in
  l_fin M = None /\ g_logger_instance (l_g M) = Some 8%nat /\ map (table (l_s M)) [11; 15] = [G3log; Dfl] /\
  l_s M = srun false catch_all (start all_dfl) [SInstall; SOverride [(11, lit "SIGSEGV")]].
Proof. vm_compute. auto. Qed.
(** C113: a client that takes a signal away and initializes again does not get it back *)
Example C113_ex_restored :
  let main (n : nat) := match n with O => [OInit (Some 7%nat); OShutdown; OInit (Some 8%nat)] | _ => [] end in
  table (l_s (ex_run (l_start main all_dfl) [LCall 0; LSig (SRestore 11); LCall 0; LCall 0])) 11 = Dfl.
Proof. vm_compute. reflexivity. Qed.

(** C114: the hypotheses hold in a run with a client's choice of signals, a hook and two threads *)
Example C114_ex_hypotheses :
  let L := ex_run (l_start two_threads all_dfl) ([] ++ LCall 0 :: ex_pre2) in
  let view := view_of catch_all all_dfl (client_ops [] ++ [SInstall] ++ client_ops ex_pre2) in
  initialized (g_trace (l_g (ex_run (l_start two_threads all_dfl) []))) = false /\
  initialized (g_trace (l_g (ex_run (l_start two_threads all_dfl) ([] ++ [LCall 0])))) = true /\
  all_proper catch_all (view0 all_dfl) (client_ops [] ++ [SInstall] ++ client_ops ex_pre2) /\
  in_order the_hook L 0 7 /\ in_handler L 0 11 = false /\ handled view 11 = true.
Proof.
  cbn zeta. split; [vm_compute; reflexivity|]. split; [vm_compute; reflexivity|]. split; [cbn; auto|]. split; [|split; vm_compute; reflexivity].
  split; [vm_compute; reflexivity|]. split; [vm_compute; reflexivity|]. split; [vm_compute; reflexivity|]. split; [vm_compute; reflexivity|]. split; [vm_compute; reflexivity|].
  split; [intros o [<-|[]]; eexists; reflexivity|]. split; [intro v; vm_compute; reflexivity|]. split; [vm_compute; reflexivity|].
  intros [|[|u]] U; [congruence | |];
    match goal with |- Forall peaceful ?l => let x := eval vm_compute in l in change l with x end; (constructor; [|constructor]).
  - intros o [<-|[<-|[]]]; eexists; reflexivity.
  - intros o [].
Qed.
(** the signal, the other thread and another signal in between *)
Example C114_ex_signal :
  let L := ex_run (l_start two_threads all_dfl) ([] ++ LCall 0 :: ex_pre2) in
  let M := ex_run L [LSignal 0 11; LCall 0; LCall 1; LCall 0; LSignal 1 6; LCall 0; LCall 1; LCall 0; LWorker 7; LCall 0; LCall 0] in
  (l_fin M, l_fin (ex_run M [LWorker 7]), saves (g_trace (l_g M))) =
  (None, Some (Killed 11), [(7%nat, a_message (lit "one")); (7%nat, a_message (lit "two")); (7%nat, a_message (lit "hook"))]).
Proof. vm_compute. reflexivity. Qed.
(** the exception *)
Example C114_ex_exception :
  let L := ex_run (l_start two_threads all_dfl) ([] ++ LCall 0 :: ex_pre2) in
  let M := ex_run L [LCall 0; LCall 1; LCall 0; LCall 0; LCall 0; LCall 0; LCall 0; LCall 0] in
  (l_fin (ex_run L [LCall 0; LWorker 7]), l_fin (ex_run M [LWorker 7]), option_map _signal_id (first_fatal 7 (g_trace (l_g M)))) = (None, Some (Killed 6), Some 6).
Proof. vm_compute. reflexivity. Qed.
(** not in order: the logger is gone when the signal comes; then the process exits, with the number as its code *)
Example C114_ex_gone :
  let main (n : nat) := match n with O => [OInit (Some 7%nat); OShutdown] | _ => [] end in
  l_fin (ex_run (l_start main all_dfl) [LCall 0; LCall 0; LSignal 0 11; LCall 0; LCall 0; LCall 0; LCall 0]) = Some (ExitCode 11).
Proof. vm_compute. reflexivity. Qed.
