(** What happens after a crash: the thread that crashed works its way to the hand-over, whatever the others do. *)
From Coq Require Import List ZArith NArith Bool Lia.
From Verif.Base Require Import Bytes.
From Verif.Model Require Import Levels Message Signals Global Lifecycle.
From Verif.Spec Require Import SignalsSpec GlobalSpec LifecycleSpec.
From Verif.Proofs Require Import GlobalFacts SignalsFacts LifecycleFacts.
Import ListNotations.
Local Open Scope list_scope.
Local Open Scope Z_scope.

Lemma first_fatal_app : forall w a b, first_fatal w (a ++ b) = match first_fatal w a with Some f => Some f | None => first_fatal w b end.
Proof.
  intros w a b. induction a as [|[u e] a IH]; [reflexivity|]. cbn [app first_fatal]. destruct e; auto. destruct (Nat.eqb w0 w); auto.
Qed.

Definition signals_of (l : list lact) : nat := length (filter (fun a => match a with LSignal _ _ => true | _ => false end) l).

Section Crash.
Variable hook_body handler_body : nat -> list op.
Variable statics : list nat.
Variable disabled : bool.
Variable catchable kills : Z -> bool.
Variable ends : nat -> bool.
Variable pid1 : bool.
Variable dump : nat -> Z -> str.
Variable message : nat -> Z -> LogMessage.
Notation step := (lstep hook_body handler_body statics disabled catchable kills ends pid1 dump message).
Notation run := (lrun hook_body handler_body statics disabled catchable kills ends pid1 dump message).

Variable t : nat.
Variable s : Z.
Variable w : nat.
Variable S0 : sigs.
Variable below : list frame.
Variable rest : list op.
Variable taken : bool.
Variable dmp : str.
Variable msg : LogMessage.

Definition report : FatalMessage := new_FatalMessage (write_append msg dmp) s.
Definition safe_hook (h : option hook) : Prop :=
  match h with Some HookNop => True | Some (Hook k) => logs_only (hook_body k) | None => False end.
Definition extra (h : option hook) : nat := match h with Some (Hook k) => S (length (hook_body k)) | _ => 0 end.

Inductive phase : list frame -> option hook -> N -> option FatalMessage -> nat -> Prop :=
| ph0 : forall h, safe_hook h -> phase (FOps (OFatal dmp msg s :: rest) :: below) h 0 None (4 + extra h)
| ph1 : forall h hk, safe_hook h -> phase (FCopied h dmp msg s :: FOps rest :: below) hk 0 None (3 + extra h)
| ph2 : forall h hk, safe_hook h -> phase (FReset h dmp msg s :: FOps rest :: below) hk 0 None (2 + extra h)
| ph3 : forall l hk, logs_only l -> phase (FOps l :: FHooked dmp msg s :: FOps rest :: below) hk 1 None (2 + length l)
| ph4 : forall hk, phase (FHooked dmp msg s :: FOps rest :: below) hk 1 None 1
| ph5 : forall hk c, phase (FWaiting :: FOps rest :: below) hk c (Some report) 0.

Definition fatals_of (tr : list (nat * event)) (o : option FatalMessage) : Prop := forall v, first_fatal v tr = if Nat.eqb v w then o else None.

Record crash (L : life) (k n : nat) : Prop := mkCrash {
  k_fin : l_fin L = None;
  k_status : g_status (l_g L) = Running;
  k_logger : g_logger_instance (l_g L) = Some w;
  k_function : g_fatal_function (l_g L) = Some HandlerDefault;
  k_sigs : l_s L = S0;
  k_once : g_initialized_once (l_g L) = true;
  k_count : if taken then (0 < l_count L)%N /\ (l_count L + N.of_nat k < size_max)%N else l_count L = 0%N /\ k = 0%nat;
  k_others : forall u, u <> t -> Forall peaceful (g_threads (l_g L) u);
  k_abort : forall u x, In (u, x) (l_abort L) -> u = t /\ (x <= length below)%nat;
  k_phase : exists o, phase (g_threads (l_g L) t) (g_fatal_pre_logging_hook (l_g L)) (g_counter (l_g L)) o n /\ fatals_of (g_trace (l_g L)) o
}.

Lemma phase_length : forall st h c o n, phase st h c o n -> (length below < length st)%nat.
Proof. intros st h c o n P. destruct P; cbn [length]; lia. Qed.

Lemma not_in_abort : forall L k n u, crash L k n -> back_in_abort L u = false.
Proof.
  intros L k n u C. unfold back_in_abort. apply not_true_is_false. intro H. apply existsb_exists in H as [[v x] [I E]]. apply andb_prop in E as [E1 E2].
  cbn [fst snd] in *. apply Nat.eqb_eq in E1. subst v. apply Nat.leb_le in E2. destruct (k_abort _ _ _ C u x I) as [-> B].
  destruct (k_phase _ _ _ C) as (o & P & _). apply phase_length in P. lia.
Qed.

Lemma one_log : forall (g : global) u (r : list frame) (m : LogMessage), g_logger_instance g = Some w ->
  do_op statics g u r (OLog m) = emit (emit (set_stack g u r) u [EOp (OLog m)]) u [ESave w m].
Proof. intros g u r m E. unfold do_op, pushMessageToLogger. cbn zeta. cbn [emit set_stack g_logger_instance]. rewrite E. reflexivity. Qed.

Lemma fatals_more : forall tr o es u, fatals_of tr o -> (forall v f, ~ In (EFatal v f) es) -> fatals_of (tr ++ map (pair u) es) o.
Proof.
  intros tr o es u F N v. rewrite first_fatal_app, F.
  assert (Z : first_fatal v (map (pair u) es) = None).
  { clear F. induction es as [|e es IH]; [reflexivity|]. cbn [map first_fatal]. rewrite IH by (intros x f I; apply (N x f); now right).
    destruct e; auto. exfalso. apply (N w0 f). now left. }
  rewrite Z. destruct (if Nat.eqb v w then o else None); reflexivity.
Qed.

(** a step of another thread *)
Lemma other_step : forall g u o n, u <> t -> g_status g = Running -> g_logger_instance g = Some w -> g_fatal_function g = Some HandlerDefault ->
  g_initialized_once g = true -> (forall x, x <> t -> Forall peaceful (g_threads g x)) ->
  phase (g_threads g t) (g_fatal_pre_logging_hook g) (g_counter g) o n -> fatals_of (g_trace g) o ->
  let g' := gstep hook_body handler_body statics g u in
  g_status g' = Running /\ g_logger_instance g' = Some w /\ g_fatal_function g' = Some HandlerDefault /\ g_initialized_once g' = true /\
  (forall x, x <> t -> Forall peaceful (g_threads g' x)) /\
  phase (g_threads g' t) (g_fatal_pre_logging_hook g') (g_counter g') o n /\ fatals_of (g_trace g') o.
Proof.
  intros g u o n U ST LO FN ON OT PH FA. cbn zeta. unfold gstep. rewrite ST. pose proof (OT u U) as PU.
  assert (UT : Nat.eqb t u = false) by (apply Nat.eqb_neq; auto).
  assert (POP : forall r, Forall peaceful r -> forall x, x <> t -> Forall peaceful (g_threads (set_stack g u r) x)).
  { intros r R x X. cbn [set_stack g_threads]. destruct (Nat.eqb x u) eqn:E; [exact R | apply OT; exact X]. }
  destruct (g_threads g u) as [|f r] eqn:TH; [do 6 (split; [assumption|]); assumption|].
  inversion PU as [|f' r' PF PR]; subst f' r'.
  destruct f as [l| |h st m s'|h st m s'|st m s'|]; try destruct PF; try (do 6 (split; [assumption|]); assumption).
  - destruct l as [|op l].
    + cbn [set_stack g_status g_logger_instance g_fatal_function g_initialized_once g_threads g_fatal_pre_logging_hook g_counter g_trace].
      do 4 (split; [assumption|]). split; [apply (POP r PR)|]. rewrite UT. split; assumption.
    + destruct (PF op (or_introl eq_refl)) as [m ->]. rewrite one_log by exact LO.
      cbn [emit set_stack g_status g_logger_instance g_fatal_function g_initialized_once g_threads g_fatal_pre_logging_hook g_counter g_trace].
      do 4 (split; [assumption|]). split; [apply (POP (FOps l :: r)); constructor; [|exact PR]; intros x I; apply PF; now right|]. rewrite UT. split; [exact PH|].
      apply fatals_more; [apply fatals_more; [exact FA|] |]; intros v f [E|[]]; discriminate.
  - cbn [set_stack g_status g_logger_instance g_fatal_function g_initialized_once g_threads g_fatal_pre_logging_hook g_counter g_trace].
    do 4 (split; [assumption|]). split; [apply (POP r PR)|]. rewrite UT. split; assumption.
Qed.

(** a step of the thread that crashed *)
Lemma own_step : forall g o n, g_status g = Running -> g_logger_instance g = Some w -> g_fatal_function g = Some HandlerDefault ->
  g_initialized_once g = true ->
  phase (g_threads g t) (g_fatal_pre_logging_hook g) (g_counter g) o n -> fatals_of (g_trace g) o ->
  let g' := gstep hook_body handler_body statics g t in
  g_status g' = Running /\ g_logger_instance g' = Some w /\ g_fatal_function g' = Some HandlerDefault /\ g_initialized_once g' = true /\
  (forall x, x <> t -> g_threads g' x = g_threads g x) /\
  exists o', phase (g_threads g' t) (g_fatal_pre_logging_hook g') (g_counter g') o' (pred n) /\ fatals_of (g_trace g') o'.
Proof.
  intros g o n ST LO FN ON PH FA. cbn zeta. unfold gstep. rewrite ST.
  assert (OT : forall r x, x <> t -> g_threads (set_stack g t r) x = g_threads g x).
  { intros r x X. cbn [set_stack g_threads]. apply Nat.eqb_neq in X. rewrite X. reflexivity. }
  remember (g_threads g t) as stk eqn:TH. remember (g_fatal_pre_logging_hook g) as hk0 eqn:HK. remember (g_counter g) as c0 eqn:CO.
  destruct PH as [h SH|h hk SH|h hk SH|l hk LL|hk|hk c].
  - unfold do_op. cbn zeta. cbn [emit set_stack g_status g_logger_instance g_fatal_function g_initialized_once g_threads g_fatal_pre_logging_hook g_counter g_trace].
    rewrite Nat.eqb_refl. do 4 (split; [assumption|]). split; [intros x X; apply Nat.eqb_neq in X; rewrite X; reflexivity|].
    exists None. split; [rewrite <- HK, <- CO; apply (ph1 h h SH) | apply fatals_more; [exact FA | intros v f [E|[]]; discriminate]].
  - unfold do_reset. cbn [setFatalPreLoggingHook set_stack g_status g_logger_instance g_fatal_function g_initialized_once g_threads g_fatal_pre_logging_hook g_counter g_trace].
    rewrite Nat.eqb_refl. do 4 (split; [assumption|]). split; [apply OT|]. exists None. split; [rewrite <- CO; apply (ph2 h _ SH) | exact FA].
  - unfold do_count. cbn zeta. rewrite <- CO.
    destruct h as [[|k]|]; [| |destruct SH].
    + cbn [emit set_stack g_status g_logger_instance g_fatal_function g_initialized_once g_threads g_fatal_pre_logging_hook g_counter g_trace].
      rewrite Nat.eqb_refl. do 4 (split; [assumption|]). split; [apply OT|]. exists None.
      split; [apply ph4 | apply fatals_more; [exact FA | intros v f [E|[]]; discriminate]].
    + cbn [emit set_stack g_status g_logger_instance g_fatal_function g_initialized_once g_threads g_fatal_pre_logging_hook g_counter g_trace].
      rewrite Nat.eqb_refl. do 4 (split; [assumption|]). split; [apply OT|]. exists None.
      split; [apply (ph3 (hook_body k) _ SH) |]. apply fatals_more; [apply fatals_more; [exact FA|]|]; intros v f [E|[]]; discriminate.
  - destruct l as [|op l].
    + cbn [set_stack g_status g_logger_instance g_fatal_function g_initialized_once g_threads g_fatal_pre_logging_hook g_counter g_trace].
      rewrite Nat.eqb_refl. do 4 (split; [assumption|]). split; [apply OT|]. exists None. split; [rewrite <- CO; apply ph4 | exact FA].
    + destruct (LL op (or_introl eq_refl)) as [m ->]. rewrite one_log by exact LO.
      cbn [emit set_stack g_status g_logger_instance g_fatal_function g_initialized_once g_threads g_fatal_pre_logging_hook g_counter g_trace].
      rewrite Nat.eqb_refl. do 4 (split; [assumption|]). split; [apply OT|]. exists None. split.
      * rewrite <- CO. apply (ph3 l). intros x I. apply LL. now right.
      * apply fatals_more; [apply fatals_more; [exact FA|]|]; intros v f [E|[]]; discriminate.
  - unfold fatalCall. cbn [set_stack g_fatal_function g_logger_instance]. rewrite FN, LO.
    cbn [emit set_stack g_status g_logger_instance g_fatal_function g_initialized_once g_threads g_fatal_pre_logging_hook g_counter g_trace].
    rewrite Nat.eqb_refl. do 4 (split; [assumption|]). split; [intros x X; apply Nat.eqb_neq in X; rewrite X; reflexivity|]. exists (Some report). split; [apply ph5|].
    intro v. rewrite first_fatal_app, FA. cbn [map first_fatal].
    unfold finish_message. rewrite <- CO. change (1 <? 1)%N with false. rewrite (Nat.eqb_sym v w). destruct (Nat.eqb w v); reflexivity.
  - do 4 (split; [assumption|]). split; [reflexivity|]. exists (Some report). split; [rewrite <- TH; apply ph5 | exact FA].
Qed.

Definition dies : ending := snd (exitWithDefaultSignalHandler disabled catchable (mkWorld kills ends pid1 taken false) S0 s).

Lemma crash_step : forall L k n a, crash L (signals_of [a] + k) n -> aftermath (fun x => match table S0 x with G3log => true | _ => false end) t a ->
  let M := step L a in
  crash M k (n - turns t [a]) \/ (n = 0%nat /\ (exists v, a = LWorker v) /\ l_fin M = Some dies /\ first_fatal w (g_trace (l_g M)) = Some report).
Proof.
  intros L k n a C A. cbn zeta. unfold lstep. rewrite (k_fin _ _ _ C). destruct a as [u|o|u x|v]; [| destruct A | |].
  - left. unfold l_call. rewrite (not_in_abort _ _ _ u C). cbn zeta. destruct C as [c1 c2 c3 c4 c5 c6 c7 c8 c9 (o & PH & FA)].
    rewrite c6. cbn [negb andb]. unfold signals_of in c7. cbn [filter length Nat.add] in c7.
    destruct (Nat.eq_dec u t) as [->|NE].
    + destruct (own_step (l_g L) o n c2 c3 c4 c6 PH FA) as (d1 & d2 & d3 & d4 & d5 & o' & d6 & d7). rewrite d1.
      unfold turns. cbn [filter]. rewrite Nat.eqb_refl. cbn [length]. replace (n - 1)%nat with (pred n) by lia.
      constructor; cbn [l_return l_fin l_g l_s l_count l_in l_abort]; auto.
      * intros x X. rewrite (d5 x X). apply c8. exact X.
      * exists o'. split; assumption.
    + destruct (other_step (l_g L) u o n NE c2 c3 c4 c6 c8 PH FA) as (d1 & d2 & d3 & d4 & d5 & d6 & d7). rewrite d1.
      unfold turns. cbn [filter]. apply Nat.eqb_neq in NE. rewrite NE. cbn [length]. rewrite Nat.sub_0_r.
      constructor; cbn [l_return l_fin l_g l_s l_count l_in l_abort]; auto. exists o. split; assumption.
  - left. destruct A as [U H]. unfold turns. cbn [filter length]. rewrite Nat.sub_0_r. destruct C as [c1 c2 c3 c4 c5 c6 c7 c8 c9 (o & PH & FA)].
    unfold signals_of in c7. cbn [filter length Nat.add] in c7.
    destruct taken eqn:TK; [destruct c7 as [c7 c7'] | destruct c7; discriminate].
    unfold l_signal. destruct (in_handler L u x).
    + constructor; auto; [|exists o; split; assumption]. rewrite TK. split; [exact c7 | lia].
    + unfold l_deliver. rewrite c5. destruct (table S0 x); try discriminate.
      unfold l_handle. cbn zeta. assert (CN : (l_count L =? 0)%N = false) by (apply N.eqb_neq; lia). rewrite CN.
      constructor; cbn [l_fin l_g l_s l_count l_in l_abort set_stack g_status g_logger_instance g_fatal_function g_initialized_once g_threads g_fatal_pre_logging_hook g_counter g_trace]; auto.
      * rewrite TK. unfold sz. rewrite N.mod_small by lia. lia.
      * intros y Y. destruct (Nat.eqb y u) eqn:E; [apply Nat.eqb_eq in E; subst y; constructor; [exact I | apply c8; exact Y] | apply c8; exact Y].
      * assert (UT : Nat.eqb t u = false) by (apply Nat.eqb_neq; auto). rewrite UT. exists o. split; assumption.
  - unfold turns. cbn [filter length]. rewrite Nat.sub_0_r. unfold signals_of in C. cbn [filter length Nat.add] in C. destruct C as [c1 c2 c3 c4 c5 c6 c7 c8 c9 (o & PH & FA)].
    rewrite (FA v). destruct (Nat.eqb v w) eqn:E; [|left; constructor; auto; exists o; split; assumption].
    destruct o as [f|]; [|left; constructor; auto; exists None; split; assumption]. right.
    assert (N : n = 0%nat /\ f = report) by (inversion PH; auto). destruct N as [-> ->].
    split; [reflexivity|]. split; [exists v; reflexivity|]. split.
    + cbn [l_exit l_fin]. unfold dies, l_world. rewrite c5. replace (0 <? l_count L)%N with taken; [reflexivity|]. destruct taken; destruct c7 as [c7 _]; symmetry; [apply N.ltb_lt; exact c7 | rewrite c7; reflexivity].
    + cbn [l_exit l_g]. rewrite FA, Nat.eqb_refl. reflexivity.
Qed.

Lemma crash_run : forall post L n, crash L (signals_of post) n -> (forall a, In a post -> aftermath (fun x => match table S0 x with G3log => true | _ => false end) t a) ->
  let M := run L post in
  crash M 0 (n - turns t post) \/ ((n <= turns t post)%nat /\ l_fin M = Some dies /\ first_fatal w (g_trace (l_g M)) = Some report).
Proof.
  unfold lrun. induction post as [|a post IH]; intros L n C A; cbn zeta.
  - left. unfold turns. cbn [filter length fold_left]. rewrite Nat.sub_0_r. exact C.
  - assert (TA : turns t (a :: post) = (turns t [a] + turns t post)%nat).
    { unfold turns. change (a :: post) with ([a] ++ post). rewrite filter_app, app_length. reflexivity. }
    assert (SA : signals_of (a :: post) = (signals_of [a] + signals_of post)%nat).
    { unfold signals_of. change (a :: post) with ([a] ++ post). rewrite filter_app, app_length. reflexivity. }
    rewrite SA in C. rewrite TA. cbn [fold_left].
    destruct (crash_step L (signals_of post) n a C (A a (or_introl eq_refl))) as [C1|(N & _ & F & R)].
    + specialize (IH (step L a) _ C1 (fun x I => A x (or_intror I))). cbn zeta in IH. rewrite Nat.sub_add_distr. destruct IH as [C2|(L2 & F & R)].
      * left. exact C2.
      * right. split; [lia|]. split; assumption.
    + right. split; [lia|]. pose proof (fin_stays hook_body handler_body statics disabled catchable kills ends pid1 dump message post (step L a) _ F) as RF. unfold lrun in RF. rewrite RF. split; assumption.
Qed.

(** the start: a fatal message is about to be made *)
Lemma crash_start : forall L k h, l_fin L = None -> g_status (l_g L) = Running -> g_logger_instance (l_g L) = Some w ->
  g_fatal_function (l_g L) = Some HandlerDefault -> l_s L = S0 -> g_initialized_once (l_g L) = true ->
  (if taken then (0 < l_count L)%N /\ (l_count L + N.of_nat k < size_max)%N else l_count L = 0%N /\ k = 0%nat) ->
  (forall u, u <> t -> Forall peaceful (g_threads (l_g L) u)) -> (forall u x, In (u, x) (l_abort L) -> u = t /\ (x <= length below)%nat) ->
  g_threads (l_g L) t = FOps (OFatal dmp msg s :: rest) :: below -> g_fatal_pre_logging_hook (l_g L) = h -> safe_hook h -> g_counter (l_g L) = 0%N ->
  (forall v, first_fatal v (g_trace (l_g L)) = None) ->
  crash L k (4 + extra h).
Proof.
  intros L k h F ST LO FN SS ON CO OT AB TH HK SH CN NF. constructor; auto.
  rewrite TH, HK, CN. exists None. split; [apply ph0; exact SH|]. intro v. rewrite NF. destruct (Nat.eqb v w); reflexivity.
Qed.
End Crash.
