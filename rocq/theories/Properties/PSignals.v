(** C61-C65, C73, C74: signal handling.  Model: Model/Signals.v; specification: Spec/SignalsSpec.v. *)
From Coq Require Import Ascii String List ZArith NArith Bool Lia.
From Verif.Base Require Import Bytes.
From Verif.Model Require Import Levels Message Signals.
From Verif.Spec Require Import SignalsSpec.
From Verif.Proofs Require Import BytesFacts SignalsFacts.
Import ListNotations.
Local Open Scope Z_scope.
Local Open Scope list_scope.

(** ** C61 *)
(** After every proper sequence of calls: the handled signals have g3log's handler, all others what they
    would have without g3log. *)
Theorem C61_table : forall cat base os, (forall s, base s <> G3log) -> all_proper cat (view0 base) os ->
  forall s, table (srun false cat (start base) os) s =
    if handled (view_of cat base os) s then G3log else outside (view_of cat base os) s.
Proof. intros cat base os B P s. apply (y_table _ _ _ (Sync_run cat os _ _ (Sync_start cat base B) P)). Qed.
Print Assumptions C61_table.

Lemma view_snoc : forall cat base os o, view_of cat base (os ++ [o]) = view_step cat (view_of cat base os) o.
Proof. intros. unfold view_of. rewrite fold_left_app. reflexivity. Qed.
Lemma proper_snoc : forall cat os o v, all_proper cat v (os ++ [o]) <-> all_proper cat v os /\ proper (fold_left (view_step cat) os v) o.
Proof.
  intros cat. induction os as [|a os IH]; intros o v; cbn [app all_proper fold_left]; [tauto|]. rewrite IH. tauto.
Qed.

(** An override: exactly the given signals that can be caught. *)
Theorem C61_override : forall cat base os l, (forall s, base s <> G3log) -> all_proper cat (view0 base) os ->
  forall s, (table (srun false cat (start base) (os ++ [SOverride l])) s = G3log <-> named l s = true /\ cat s = true) /\
    (~ (named l s = true /\ cat s = true) -> table (srun false cat (start base) (os ++ [SOverride l])) s = outside (view_of cat base os) s).
Proof.
  intros cat base os l B P s.
  assert (P' : all_proper cat (view0 base) (os ++ [SOverride l])) by (apply proper_snoc; split; auto; exact I).
  pose proof (C61_table cat base _ B P' s) as T. rewrite view_snoc in T. cbn [view_step handled outside] in T. rewrite T.
  pose proof (y_outside _ _ _ (Sync_run cat os _ _ (Sync_start cat base B) P)) as O.
  destruct (named l s), (cat s); cbn [andb]; split; try split; try tauto; try discriminate;
    try (intro X; exfalso; apply (O s); exact X); intros [? ?]; discriminate.
Qed.
Print Assumptions C61_override.

(** A restore: that signal back as it was, the others not touched. *)
Theorem C61_restore : forall cat base os s, (forall s, base s <> G3log) -> all_proper cat (view0 base) os ->
  table (srun false cat (start base) (os ++ [SRestore s])) s = outside (view_of cat base os) s /\
  forall x, x <> s -> table (srun false cat (start base) (os ++ [SRestore s])) x = table (srun false cat (start base) os) x.
Proof.
  intros cat base os s B P.
  assert (P' : all_proper cat (view0 base) (os ++ [SRestore s])) by (apply proper_snoc; split; auto; exact I).
  assert (T := C61_table cat base _ B P'). rewrite view_snoc in T. cbn [view_step handled outside] in T.
  split.
  - rewrite T. rewrite Z.eqb_refl, andb_false_r. reflexivity.
  - intros x X. rewrite T, (C61_table cat base os B P). apply Z.eqb_neq in X. rewrite X. now rewrite andb_true_r.
Qed.
Print Assumptions C61_restore.

(** As long as no client sets handlers of its own, "as it was" is the handling at program start. *)
Theorem C61_originals : forall cat base os, (forall o, In o os -> forall s d, o <> SClient s d) ->
  outside (view_of cat base os) = base.
Proof.
  intros cat base os. induction os as [|o os IH] using rev_ind; intro N; [reflexivity|].
  rewrite view_snoc. specialize (IH (fun o I => N o (in_or_app _ _ _ (or_introl I)))).
  destruct o; cbn [view_step outside]; auto. exfalso. apply (N (SClient s d)) with (s := s) (d := d); auto.
  apply in_or_app. right. now left.
Qed.
Print Assumptions C61_originals.

(** With fatal signal handling switched off at compile time g3log changes nothing. *)
Theorem C61_disabled : forall cat os o st, (forall s d, o <> SClient s d) ->
  table (srun true cat st (os ++ [o])) = table (srun true cat st os).
Proof.
  intros cat os o st N. unfold srun. rewrite fold_left_app. cbn [fold_left].
  set (st' := fold_left (sstep true cat) os st).
  assert (R : forall (L : smap) x, fold_left (fun y (sig : Z * str) => restoreSignalHandler true cat y (fst sig)) L x = x)
    by (intro L; induction L as [|kv L IH]; intro x; cbn; auto).
  destruct o; cbn; auto; [|exfalso; now apply (N s d)].
  unfold restore_all. rewrite R. reflexivity.
Qed.
Print Assumptions C61_disabled.

Definition catch_all (s : Z) : bool := (1 <=? s) && (s <=? 64) && negb (s =? 9) && negb (s =? 19).
Definition all_dfl (s : Z) : disp := Dfl.
Definition hup_own (s : Z) : disp := if s =? 1 then User 7 else Dfl.

Example C61_ex1 :
  let os := [SInstall; SClient 2 Ign; SOverride [(1, lit "SIGHUP"); (9, lit "SIGKILL"); (11, lit "SIGSEGV")]; SRestore 11] in
  all_proper catch_all (view0 hup_own) os /\
  map (table (srun false catch_all (start hup_own) os)) [1; 2; 6; 9; 11] = [G3log; Ign; Dfl; Dfl; Dfl] /\
  table (srun false catch_all (start hup_own) (os ++ [SDefault])) 1 = User 7.
Proof.
  split; [|vm_compute; auto]. repeat split; cbn; auto; discriminate.
Qed.

(** ** C62 *)
(** Installing while installed makes g3log's own handler "the original". *)
Theorem C62_refuted : exists cat base s,
  let st := srun false cat (start base) [SInstall] in
  table (srun false cat st [SRestore s]) s = Dfl /\ table (srun false cat st [SInstall; SRestore s]) s = G3log.
Proof. exists catch_all, all_dfl, 11. vm_compute. auto. Qed.
Print Assumptions C62_refuted.

(** The public calls alone do it: overrideSetupSignals before initializeLogging (which installs). *)
Theorem C62_refuted_by_early_override : exists cat base l w,
  let st := srun false cat (start base) [SOverride l; SInstall] in
  w_in_handler w = false /\ snd (exitWithDefaultSignalHandler false cat w st 11) = Stuck /\
  expected_ending w (base 11) 11 = Killed 11.
Proof.
  exists catch_all, all_dfl, [(11, lit "SIGSEGV")], (mkWorld (fun _ => true) (fun _ => false) false true false).
  vm_compute. auto.
Qed.
Print Assumptions C62_refuted_by_early_override.

(** Exactly which signals it does harm to: those handled by g3log already. *)
Theorem C62_harm_partial : forall cat base os s, (forall s, base s <> G3log) -> all_proper cat (view0 base) os ->
  let v := view_of cat base os in
  let st := srun false cat (start base) os in
  table (srun false cat st [SInstall; SRestore s]) s =
    if handled v s then G3log else outside v s.
Proof.
  intros cat base os s B P v st. pose proof (Sync_run cat os _ _ (Sync_start cat base B) P) as Y.
  fold st in Y. change (fold_left (view_step cat) os (view0 base)) with v in Y. destruct Y as [T S C N M O].
  cbn [srun fold_left sstep]. unfold installCrashHandler, installSignalHandler.
  destruct (install_fold cat (gSignals st) st N) as (G & T' & S').
  unfold restoreSignalHandler. rewrite S', M. rewrite T.
  destruct (handled v s) eqn:H.
  - destruct (C s H) as [EC CS]. rewrite EC, CS. unfold sigaction. rewrite CS. cbn [andb table]. now rewrite upd_same.
  - destruct (chosen v s && cat s) eqn:E.
    + apply andb_prop in E as [EC CS]. unfold sigaction. rewrite CS. cbn [table]. now rewrite upd_same.
    + rewrite S, H. rewrite T', M, E, T, H. reflexivity.
Qed.
Print Assumptions C62_harm_partial.

Example C62_ex : (* harmless if every chosen signal was restored before *)
  let os := [SInstall; SRestore 4; SRestore 6; SRestore 8; SRestore 11; SRestore 15] in
  all_proper catch_all (view0 all_dfl) (os ++ [SInstall]) /\
  table (srun false catch_all (start all_dfl) (os ++ [SInstall; SRestore 11])) 11 = Dfl.
Proof.
  split; [|vm_compute; auto]. cbn [app all_proper proper]. repeat split; auto.
  intros s H. cbn [view_step handled chosen view0] in *.
  unfold five in *. cbn [existsb] in *.
  destruct (s =? 4), (s =? 6), (s =? 8), (s =? 11), (s =? 15); cbn in *; rewrite ?andb_false_r; auto; discriminate.
Qed.

(** ** C63 *)
(** Unless it happens inside the handler of that signal: every signal has the handling it would have without
    g3log, and the process ends by it. *)
Theorem C63_ending_partial : forall cat base os w sig, (forall s, base s <> G3log) -> all_proper cat (view0 base) os ->
  w_in_handler w = false ->
  let r := exitWithDefaultSignalHandler false cat w (srun false cat (start base) os) sig in
  let v := view_of cat base os in
  (forall s, table (fst r) s = outside v s) /\ snd r = expected_ending w (outside v sig) sig.
Proof.
  intros cat base os w sig B P W r v. pose proof (Sync_run cat os _ _ (Sync_start cat base B) P) as Y.
  change (fold_left (view_step cat) os (view0 base)) with v in Y.
  apply Sync_restore_all in Y. destruct Y as [T _ _ _ _ O]. cbn [handled outside] in T, O.
  split; [exact T|]. unfold r, exitWithDefaultSignalHandler. cbn [snd]. rewrite T. unfold raise_and_exit, expected_ending.
  rewrite W. destruct (outside v sig) eqn:E; auto. exfalso. now apply (O sig).
Qed.
Print Assumptions C63_ending_partial.

(** Inside the handler the raised signal is blocked: the process exits normally, with the number as code. *)
Theorem C63_refuted : exists cat base os w sig, all_proper cat (view0 base) os /\ base sig = Dfl /\
  expected_ending w (base sig) sig = Killed sig /\
  snd (exitWithDefaultSignalHandler false cat w (srun false cat (start base) os) sig) = ExitCode sig.
Proof.
  exists catch_all, all_dfl, [SInstall], (mkWorld (fun _ => true) (fun _ => false) false false true), 11.
  split; [cbn; auto|]. vm_compute. auto.
Qed.
Print Assumptions C63_refuted.

Definition plain_world := mkWorld (fun s => s =? 11) (fun n => Nat.eqb n 7) false true false.
Example C63_ex1 :
  let os := [SInstall; SOverride [(1, lit "SIGHUP"); (11, lit "SIGSEGV")]] in
  all_proper catch_all (view0 hup_own) os /\
  snd (exitWithDefaultSignalHandler false catch_all plain_world (srun false catch_all (start hup_own) os) 11) = Killed 11 /\
  snd (exitWithDefaultSignalHandler false catch_all plain_world (srun false catch_all (start hup_own) os) 1) = EndedByHandler 7 /\
  snd (exitWithDefaultSignalHandler false catch_all plain_world (srun false catch_all (start hup_own) os) 17) = ExitCode 17.
Proof. split; [repeat split; cbn; auto|vm_compute; auto]. Qed.

(** ** C64 *)
(** While fatal handling blocks: at most one fatal message; everything else has not gone past the counter
    or waits. *)
Theorem C64_one_fatal : forall l, blocking l -> (N.of_nat (signals_in l) + 1 < size_max)%N ->
  let st := hrun hstart l in
  (length (fatals st) <= 1)%nat /\
  exists t0 k0, forall t k a, nth_error (stacks st t) k = Some a ->
    (fst a = HStart \/ fst a = HWait) \/ (t = t0 /\ k = k0 /\ (fst a = HPushed -> fatals st = [(t, snd a)])).
Proof.
  intros l B L st. pose proof (HInv_run l B L) as H0. fold st in H0.
  destruct H0 as [_ [[_ [N F]]|(_ & t & s & up & down & p & E & U & D & O & F)]].
  - rewrite F. split; [cbn; lia|]. exists O, O. intros t k a H. left. left. apply (N t). eapply nth_error_In; eauto.
  - split; [destruct F as [[_ ->]|[_ ->]]; cbn; lia|]. exists t, (length up). intros t' k a H.
    destruct (Nat.eq_dec t' t) as [->|n].
    + rewrite E in H. destruct (lt_eq_lt_dec k (length up)) as [[K|K]|K].
      * left. rewrite nth_error_app1 in H by assumption. apply nth_error_In in H. rewrite Forall_forall in U. now apply U.
      * right. subst k. rewrite nth_error_app2, Nat.sub_diag in H by lia. injection H as <-. split; auto. split; auto.
        cbn [fst snd]. intros ->. destruct F as [[X _]|[_ X]]; [discriminate|exact X].
      * left. rewrite nth_error_app2 in H by lia. destruct (k - length up)%nat as [|j] eqn:J; [lia|]. cbn in H.
        apply nth_error_In in H. rewrite Forall_forall in D. now apply D.
    + left. specialize (O t' n). rewrite Forall_forall in O. apply O. eapply nth_error_In; eauto.
Qed.
Print Assumptions C64_one_fatal.

Example C64_ex1 : (* two threads, three signals, one of them on top of another *)
  let l := [HSignal 1 11; HSignal 2 6; HStep 2; HStep 1; HStep 2; HSignal 2 8; HStep 2; HStep 1; HStep 2] in
  blocking l /\ fatals (hrun hstart l) = [(2%nat, 6)] /\ stacks (hrun hstart l) 2%nat = [(HWait, 8); (HPushed, 6)].
Proof. split; [intros I; repeat (destruct I as [I|I]; [discriminate|]); exact I|vm_compute; auto]. Qed.
(** once the worker unblocked, the waiting ones go on as well *)
Example C64_ex2 : fatals (hrun hstart [HSignal 1 11; HSignal 2 6; HStep 2; HStep 1; HStep 2; HUnblock; HStep 1; HStep 1])
  = [(2%nat, 6); (1%nat, 11)].
Proof. reflexivity. Qed.

(** Once the worker has unblocked them, the threads in handlers do not wait any longer: each one's handlers
    have ended after at most four turns of the thread per handler. *)
Definition turns_left (l : list (hpc * Z)) : nat :=
  fold_right (fun a n => (match fst a with HStart => 4 | HWait => 3 | HGo => 2 | HPushed => 1 end + n)%nat) O l.
Lemma turns_bound : forall l, (turns_left l <= 4 * length l)%nat.
Proof. induction l as [|[p s] l IH]; [cbn; lia|]. cbn [turns_left fold_right length fst]. fold (turns_left l). destruct p; lia. Qed.
Lemma unblocked_stays : forall l st, gBlockForFatal st = false -> gBlockForFatal (hrun st l) = false.
Proof.
  induction l as [|a l IH]; intros st H; [exact H|]. apply IH. destruct a as [t s|t|]; cbn [hstep]; [exact H| |reflexivity].
  destruct (stacks st t) as [|[[] s] r]; rewrite ?H; auto.
Qed.
Lemma unblocked_turn : forall st t, gBlockForFatal st = false ->
  (turns_left (stacks (hstep st (HStep t)) t) <= turns_left (stacks st t) - 1)%nat /\
  forall x, x <> t -> stacks (hstep st (HStep t)) x = stacks st x.
Proof.
  intros st t H. cbn [hstep].
  assert (O : forall (A : Type) (f : nat -> A) v x, x <> t -> updn f t v x = f x).
  { intros A f v x N. unfold updn. destruct (Nat.eqb_spec x t); [contradiction|reflexivity]. }
  assert (S : forall (A : Type) (f : nat -> A) v, updn f t v t = v) by (intros; unfold updn; now rewrite Nat.eqb_refl).
  destruct (stacks st t) as [|[[] s] r] eqn:E; [rewrite E; split; [cbn; lia|auto]| | | |]; rewrite ?H; cbn [stacks]; unfold set_top; rewrite S;
    (split; [|intros; now rewrite O]); cbn [turns_left fold_right fst]; fold (turns_left r); try lia.
  destruct (count st =? 0)%N; lia.
Qed.
Lemma unblocked_drains : forall l st t, gBlockForFatal st = false -> signals_in l = O -> (turns_left (stacks st t) <= steps_of t l)%nat ->
  stacks (hrun st l) t = [].
Proof.
  induction l as [|a l IH]; intros st t H S L.
  - cbn in *. destruct (stacks st t) as [|[[] s] r]; [reflexivity|cbn in L; lia..].
  - cbn [hrun fold_left]. change (stacks (hrun (hstep st a) l) t = []).
    assert (H' : gBlockForFatal (hstep st a) = false) by (apply (unblocked_stays [a]); exact H).
    destruct a as [x s|x|]; [cbn in S; discriminate| |].
    + apply IH; auto. destruct (unblocked_turn st x H) as [A B]. cbn [steps_of] in L. unfold steps_of in *. cbn [filter] in L.
      destruct (Nat.eqb_spec x t) as [->|N]; [cbn [length] in L; lia|]. rewrite B by auto. exact L.
    + apply IH; auto.
Qed.
Theorem C64_released : forall l1 l2 t, In HUnblock l1 -> signals_in l2 = O ->
  (4 * length (stacks (hrun hstart l1) t) <= steps_of t l2)%nat -> stacks (hrun hstart (l1 ++ l2)) t = [].
Proof.
  intros l1 l2 t I S L. unfold hrun. rewrite fold_left_app. apply unblocked_drains; auto.
  - apply in_split in I as (a & b & ->). rewrite fold_left_app. apply (unblocked_stays b). reflexivity.
  - eapply Nat.le_trans; [apply turns_bound|exact L].
Qed.
Print Assumptions C64_released.
Example C64_ex3 : let l1 := [HSignal 1 11; HSignal 2 6; HStep 2; HStep 1; HStep 2; HUnblock] in
  stacks (hrun hstart l1) 1%nat = [(HWait, 11)] /\ stacks (hrun hstart (l1 ++ repeat (HStep 1) 4)) 1%nat = [].
Proof. vm_compute. auto. Qed.

(** ** C73 *)
(** A second signal in the same thread, between the counter and the hand-over (while the stack is dumped,
    the hook runs, the message is built), waits for the first, which it interrupts: nothing is logged and the process
    does not end. *)
Theorem C73_refuted : exists l0, fatals (hrun hstart l0) = [] /\ stacks (hrun hstart l0) 0%nat <> [] /\
  forall l, blocking l -> (N.of_nat (signals_in (l0 ++ l)) + 1 < size_max)%N -> fatals (hrun hstart (l0 ++ l)) = [].
Proof.
  exists [HSignal 0 11; HStep 0; HSignal 0 8]. split; [reflexivity|]. split; [discriminate|]. intros l B L.
  assert (C : Covered (hrun hstart [HSignal 0 11; HStep 0; HSignal 0 8])).
  { split; [reflexivity|]. split; [discriminate|]. exists 0%nat, 11, [(HStart, 8)], []. split; [|discriminate].
    split; [reflexivity|]. split; [constructor; [now left|constructor]|]. split; [constructor|]. split.
    - intros t T. destruct t; [congruence|]. cbn. constructor.
    - left. split; reflexivity. }
  destruct (Covered_run _ l C B L) as (_ & _ & t & s & up & down & (_ & _ & _ & _ & [[_ E]|[E _]]) & _); [exact E|discriminate].
Qed.
Print Assumptions C73_refuted.

(** Missing: the nested case above.  Without nesting: once every thread with a signal has had two more turns,
    the message is handed over. *)
Theorem C73_gets_through_partial : forall l0 l t, blocking l0 -> blocking l -> (N.of_nat (signals_in l0) + 1 < size_max)%N ->
  (forall x, (length (stacks (hrun hstart l0) x) <= 1)%nat) -> stacks (hrun hstart l0) t <> [] ->
  signals_in l = O -> (forall x, stacks (hrun hstart l0) x <> [] -> (2 <= steps_of x l)%nat) ->
  exists x s, fatals (hrun hstart (l0 ++ l)) = [(x, s)].
Proof.
  intros l0 l t B0 B L ONE T SG ST.
  assert (NE : fatals (hrun hstart (l0 ++ l)) <> []).
  { destruct (HInv_run l0 B0 L) as [BL [[C NB]|(C & x & s & up & down & p & W)]].
    - now apply (first_gets_through l l0 t).
    - assert (X : stacks (hrun hstart l0) x = up ++ (p, s) :: down) by apply W.
      pose proof (ONE x) as O. rewrite X, app_length in O. cbn [length] in O. destruct up; [|cbn [length] in O; lia].
      apply (winner_gets_through l l0 x s down p); auto. specialize (ST x). rewrite X in ST.
      assert (2 <= steps_of x l)%nat; [|lia]. apply ST. discriminate. }
  assert (BB : blocking (l0 ++ l)) by (intro I; apply in_app_or in I as [I|I]; [now apply B0|now apply B]).
  destruct (C64_one_fatal (l0 ++ l) BB) as [K _].
  - rewrite signals_in_app, SG. lia.
  - destruct (fatals (hrun hstart (l0 ++ l))) as [|[x s] [|? ?]]; [congruence|eauto|cbn in K; lia].
Qed.
Print Assumptions C73_gets_through_partial.

Example C73_ex :
  let l0 := [HSignal 1 11; HSignal 2 6; HStep 2] in let l := [HStep 1; HStep 1; HStep 2; HStep 2] in
  blocking l0 /\ blocking l /\ signals_in l = O /\ steps_of 1 l = 2%nat /\ steps_of 2 l = 2%nat /\ fatals (hrun hstart (l0 ++ l)) = [(2%nat, 6)].
Proof.
  split; [intros I; repeat (destruct I as [I|I]; [discriminate|]); exact I|].
  split; [intros I; repeat (destruct I as [I|I]; [discriminate|]); exact I|vm_compute; auto].
Qed.

(** ** C65 *)
Definition five_names : list (Z * str) :=
  [(4, lit "SIGILL"); (6, lit "SIGABRT"); (8, lit "SIGFPE"); (11, lit "SIGSEGV"); (15, lit "SIGTERM")].

Theorem C65_five : forall lv s n, In (s, n) five_names -> exitReasonName lv s = n.
Proof. intros lv s n I. repeat (destruct I as [I|I]; [injection I as <- <-; reflexivity|]). destruct I. Qed.
Print Assumptions C65_five.

Theorem C65_others : forall lv s, five s = false ->
  exitReasonName lv s = lit "UNKNOWN SIGNAL(" ++ to_string s ++ lit ") for " ++ text lv.
Proof.
  intros lv s F.
  unfold five in F. cbn [existsb] in F. repeat (apply orb_false_iff in F as [? F]).
  unfold exitReasonName, SIGABRT, SIGFPE, SIGSEGV, SIGILL, SIGTERM.
  repeat match goal with E : (s =? _) = false |- _ => rewrite E; clear E end. reflexivity.
Qed.
Print Assumptions C65_others.

Lemma to_string_no_bracket : forall z, ~ In ")"%char (to_string z).
Proof.
  assert (D : forall n, ~ In ")"%char (dec n)) by (intros n I; apply dec_digits in I; discriminate).
  intros [|p|p]; cbn [to_string]; auto. intros [I|I]; [discriminate|]. now apply (D (N.pos p)).
Qed.

Lemma bracket_split : forall (c : ascii) a b x y, a ++ c :: x = b ++ c :: y -> ~ In c a -> ~ In c b -> a = b.
Proof.
  intros c. induction a as [|u a IH]; intros [|v b] x y E A B; cbn in E; auto.
  - injection E as -> _. exfalso. apply B. now left.
  - injection E as -> _. exfalso. apply A. now left.
  - injection E as -> E. f_equal. apply (IH b x y E); intro; [apply A|apply B]; now right.
Qed.

(** Different numbers, different reasons, whatever the levels. *)
Theorem C65_injective : forall lv lv' s s', exitReasonName lv s = exitReasonName lv' s' -> s = s'.
Proof.
  intros lv lv' s s'. unfold exitReasonName, SIGABRT, SIGFPE, SIGSEGV, SIGILL, SIGTERM.
  repeat match goal with |- context [if ?a =? ?b then _ else _] => destruct (Z.eqb_spec a b) end;
    intro H; try congruence; try discriminate H.
  apply app_inv_head in H. change (lit ") for ") with (")"%char :: lit " for ") in H. cbn [app] in H.
  apply to_string_inj. eapply bracket_split; eauto using to_string_no_bracket.
Qed.
Print Assumptions C65_injective.

Example C65_ex1 : exitReasonName (mkLevel 2000 (lit "SIGNAL")) 7 = lit "UNKNOWN SIGNAL(7) for SIGNAL".
Proof. reflexivity. Qed.
(** LOG(FATAL), CHECK and an abort() all give SIGABRT *)
Example C65_ex2 : exitReasonName (mkLevel 1000 (lit "FATAL")) 6 = exitReasonName (mkLevel 2000 (lit "CONTRACT")) 6.
Proof. reflexivity. Qed.

(** ** C74 *)
(** What is written is the message up to its end, and if write() succeeds the result is what it says,
    which is at most the length. *)
Theorem C74_count_partial : forall m written, (size m < size_max)%N ->
  (forall s, 0 <= written s <= Z.of_N (size s)) ->
  writeErrorMessage (Some m) written = Z.to_N (written (c_str m)) /\
  (writeErrorMessage (Some m) written <= size m)%N.
Proof.
  intros m written B W.
  assert (CL : (size (c_str m) <= size m)%N).
  { clear. induction m as [|c m IH]; cbn [c_str]; [lia|]. destruct (Ascii.eqb c NUL); unfold size in *; cbn [length] in *; lia. }
  specialize (W (c_str m)). unfold writeErrorMessage. rewrite Z.mod_small.
  - split; auto. lia.
  - unfold size_max in *. lia.
Qed.
Print Assumptions C74_count_partial.

Theorem C74_null : forall written, writeErrorMessage None written = 0%N.
Proof. reflexivity. Qed.
Print Assumptions C74_null.

(** If it fails (-1), the "number of bytes written" is 2^64 - 1. *)
Theorem C74_refuted : exists m written, (forall s, -1 <= written s <= Z.of_N (size s)) /\
  writeErrorMessage (Some m) written = 18446744073709551615%N.
Proof. exists (lit "sigaction - Segmentation fault"), (fun _ => -1). split; [intro s; lia|reflexivity]. Qed.
Print Assumptions C74_refuted.
(** and that always and only then, so that a client can tell *)
Theorem C74_failed_partial : forall m written, (size m + 1 < size_max)%N -> (forall s, -1 <= written s <= Z.of_N (size s)) ->
  (written (c_str m) = -1 <-> writeErrorMessage (Some m) written = 18446744073709551615%N).
Proof.
  intros m written B W.
  assert (CL : (size (c_str m) <= size m)%N).
  { clear. induction m as [|c m IH]; cbn [c_str]; [lia|]. destruct (Ascii.eqb c NUL); unfold size in *; cbn [length] in *; lia. }
  specialize (W (c_str m)). unfold writeErrorMessage. split; intro H; [now rewrite H|].
  destruct (Z.eq_dec (written (c_str m)) (-1)) as [E|E]; [exact E|]. exfalso. unfold size_max in B. rewrite Z.mod_small in H by lia. lia.
Qed.
Print Assumptions C74_failed_partial.

Example C74_ex1 : writeErrorMessage (Some (lit "abc")) (fun s => Z.of_N (size s)) = 3%N /\ writeErrorMessage None (fun s => Z.of_N (size s)) = 0%N.
Proof. split; reflexivity. Qed.
