(** C96: fatal signals that interrupt a call of the library.  Model: Model/Interrupt.v, specification:
    Spec/InterruptSpec.v. *)
From Coq Require Import List ZArith Bool Lia.
From Verif Require Import Base.Threads Model.Races Spec.RacesSpec Model.Interrupt Spec.InterruptSpec Proofs.InterruptFacts.
Import ListNotations.

(** ** C96 *)
(** If no thread that gets a signal holds one of the three mutexes at that moment, the signal of the first one can always
    be reported: whatever has happened since, there is a way to go on in which its handler comes to its end. *)
Theorem C96_partial : forall memory threads before st t st1 after st2,
  all_harmless before (istart memory mutexes_free threads) -> iruns before (istart memory mutexes_free threads) = Some st ->
  caught st = false -> harmless st t -> istep st (Signal t) = Some st1 ->
  all_harmless after st1 -> spares t after -> iruns after st1 = Some st2 ->
  exists es st3, steps_only es /\ iruns es st2 = Some st3 /\ get Stop (ths (core st3)) t = Stop.
Proof.
  intros memory threads before st t st1 after st2 HB RB Ca Ht E HA Sp RA.
  destruct (start_inv memory threads) as (I0 & D0).
  destruct (clean_runs before _ _ _ I0 D0 HB RB) as (H & I & D).
  pose proof (inv_step H st _ st1 I E) as I1. pose proof (clean_step H st (Signal t) st1 I D Ht E) as D1.
  assert (L : (t < length (ths (core st)))%nat).
  { cbn [istep] in E. destruct (t <? length (ths (core st)))%nat eqn:L; [now apply Nat.ltb_lt|discriminate]. }
  assert (O1 : only_critical (get Stop (ths (core st1)) t)).
  { cbn [istep] in E. destruct (t <? length (ths (core st)))%nat; [|discriminate]. injection E as <-. cbn [core ths]. rewrite get_upd_same by auto.
    rewrite Ca. apply oc_fatal. }
  destruct (clean_runs after _ _ _ I1 D1 HA RA) as (H2 & I2 & D2).
  assert (O2 : only_critical (get Stop (ths (core st2)) t)) by (eapply oc_runs; eauto).
  destruct (reach_end _ t st2 H2 I2 D2 eq_refl O2) as (es & st3 & SO & R & F & _). exists es, st3. auto.
Qed.
Print Assumptions C96_partial.

(** Then the fatal message lies in the worker's queue, if there is a worker and no other exit handler. *)
Theorem C96_reported_partial : forall memory threads before st t st1,
  all_harmless before (istart memory mutexes_free threads) -> iruns before (istart memory mutexes_free threads) = Some st ->
  caught st = false -> harmless st t -> istep st (Signal t) = Some st1 ->
  mem (core st) LLogger <> [] -> mem (core st) LFatalFn = [] ->
  exists es st2, steps_only es /\ iruns es st1 = Some st2 /\ last (mem (core st2) LQueue) 0%Z = j_fatal /\ get Stop (ths (core st2)) t = Stop.
Proof.
  intros memory threads before st t st1 HB RB Ca Ht E LL LF.
  destruct (start_inv memory threads) as (I0 & D0).
  destruct (clean_runs before _ _ _ I0 D0 HB RB) as (H & I & D).
  pose proof (inv_step H st _ st1 I E) as I1. pose proof (clean_step H st (Signal t) st1 I D Ht E) as D1.
  cbn [istep] in E. destruct (t <? length (ths (core st)))%nat eqn:L; [|discriminate]. apply Nat.ltb_lt in L. injection E as <-. rewrite Ca in *.
  destruct (reach_end fatal_message t _ _ I1 D1) as (es & st2 & SO & R & F & Q).
  { cbn [core ths]. now rewrite get_upd_same. } { apply oc_fatal. }
  exists es, st2. split; [exact SO|]. split; [exact R|]. split; [|exact F]. apply Q; [apply ep_fatal| |exact LF].
  cbn [core mem]. destruct (mem (core st) LLogger); [contradiction|reflexivity].
Qed.
Print Assumptions C96_reported_partial.

Lemma caught_stays : forall es a b, caught a = true -> iruns es a = Some b -> caught b = true.
Proof.
  induction es as [|e es IE]; intros a b Ca Ra; cbn [iruns] in Ra; [injection Ra as <-; exact Ca|].
  destruct (istep a e) as [c|] eqn:S2; [|discriminate]. apply (IE c); [|assumption].
  destruct e as [v|v]; cbn [istep] in S2.
  - destruct (step (core a) v); [injection S2 as <-; exact Ca|discriminate].
  - destruct (v <? length (ths (core a)))%nat; [injection S2 as <-; reflexivity|discriminate].
Qed.
(** A signal that comes later, to whatever thread, is not reported: its thread stays where it is, for good. *)
Theorem C96_later_signal : forall st t st1 after st2 u st3, istep st (Signal t) = Some st1 -> iruns after st1 = Some st2 ->
  istep st2 (Signal u) = Some st3 -> get Stop (ths (core st3)) u = Stop /\ mem (core st3) = mem (core st2) /\ istep st3 (Step u) = None.
Proof.
  intros st t st1 after st2 u st3 E R E2.
  assert (C1 : caught st1 = true) by (cbn [istep] in E; destruct (t <? length (ths (core st)))%nat; [injection E as <-; reflexivity|discriminate]).
  pose proof (caught_stays _ _ _ C1 R) as C2.
  cbn [istep] in E2. destruct (u <? length (ths (core st2)))%nat eqn:L; [|discriminate]. injection E2 as <-. apply Nat.ltb_lt in L.
  assert (G : get Stop (upd (ths (core st2)) u (on_signal (caught st2))) u = Stop) by (rewrite get_upd_same by assumption; rewrite C2; reflexivity).
  split; [exact G|]. split; [reflexivity|]. cbn [istep core]. unfold step. cbn [ths]. rewrite G. reflexivity.
Qed.
Print Assumptions C96_later_signal.

(** A signal to a thread that holds the queue's mutex stops all logging for good: in every continuation nothing is put
    into the queue and nothing taken from it, so the fatal message is never reported and the process is not killed. *)
Theorem C96_queue_stuck : forall memory threads before st t st1 after st2,
  iruns before (istart memory mutexes_free threads) = Some st -> owner st MQueue = Some t ->
  istep st (Signal t) = Some st1 -> iruns after st1 = Some st2 ->
  mem (core st2) LQueue = mem (core st) LQueue.
Proof.
  intros memory threads before st t st1 after st2 RB O E RA. destruct (start_inv memory threads) as (I0 & _).
  destruct (inv_runs before _ _ _ I0 RB) as (H & I). pose proof (signal_sticks H st MQueue t st1 I O E) as S.
  destruct (stuck_runs after _ st1 st2 MQueue t (inv_step H st _ st1 I E) (or_introl eq_refl) S RA) as (_ & M). rewrite M by reflexivity.
  cbn [istep] in E. destruct (t <? length (ths (core st)))%nat; [|discriminate]. now injection E as <-.
Qed.
Print Assumptions C96_queue_stuck.

(** A signal to a thread that is setting the hook, or is storing the first stack trace: its handler waits for itself for
    ever. *)
Theorem C96_self_deadlock : forall memory threads before st t s st1 after st2,
  iruns before (istart memory mutexes_free threads) = Some st -> s = MHook \/ s = MOnce 3 -> owner st s = Some t -> caught st = false ->
  istep st (Signal t) = Some st1 -> spares t after -> iruns after st1 = Some st2 ->
  get Stop (ths (core st2)) t <> Stop.
Proof.
  intros memory threads before st t s st1 after st2 RB Hs O Ca E Sp RA. destruct (start_inv memory threads) as (I0 & _).
  destruct (inv_runs before _ _ _ I0 RB) as (H & I). pose proof (signal_sticks H st s t st1 I O E) as S.
  assert (C : In s critical) by (destruct Hs as [-> | ->]; cbn; auto).
  pose proof (inv_step H st _ st1 I E) as I1.
  assert (L : (t < length (ths (core st)))%nat).
  { cbn [istep] in E. destruct (t <? length (ths (core st)))%nat eqn:L; [now apply Nat.ltb_lt|discriminate]. }
  assert (M : must s (get Stop (ths (core st2)) t)).
  { apply (must_runs after _ st1 st2 s t I1 C S Sp); auto; cbn [istep] in E; destruct (t <? length (ths (core st)))%nat; try discriminate; injection E as <-; cbn [core ths].
    - now rewrite upd_length.
    - rewrite get_upd_same by auto. rewrite Ca. now apply must_fatal. }
  intro G. rewrite G in M. exact M.
Qed.
Print Assumptions C96_self_deadlock.

(** Such moments exist: a LOG call interrupted inside the queue, the worker's thread fetching a job, a thread
    setting the hook; the first two with the logger on and nothing but these threads. *)
Definition on : loc -> val := fun x => match x with LLogger | LBg => [1%Z] | _ => [] end.
Theorem C96_refuted :
  (exists st st1, iruns [Step 0; Step 0; Step 0; Step 0]%nat (istart on mutexes_free [([GLog], Returns)]) = Some st /\ owner st MQueue = Some 0%nat /\
     istep st (Signal 0) = Some st1 /\
     forall after st2, iruns after st1 = Some st2 -> mem (core st2) LQueue = []) /\
  (exists st st1, iruns [Step 0; Step 0; Step 0]%nat (istart on mutexes_free [([], Worker 1 9); ([GLog], Returns)]) = Some st /\ owner st MQueue = Some 0%nat /\
     istep st (Signal 1) <> None /\ istep st (Signal 0) = Some st1 /\
     forall after st2, iruns after st1 = Some st2 -> mem (core st2) LQueue = []) /\
  (exists st st1, iruns [Step 0]%nat (istart on mutexes_free [([GHook 1], Returns)]) = Some st /\ istep st (Signal 0) = Some st1 /\
     forall after st2, spares 0 after -> iruns after st1 = Some st2 -> get Stop (ths (core st2)) 0 <> Stop).
Proof.
  split; [|split].
  - eexists. eexists. split; [reflexivity|]. split; [reflexivity|]. split; [reflexivity|]. intros after st2 R.
    rewrite (C96_queue_stuck on [([GLog], Returns)] [Step 0; Step 0; Step 0; Step 0]%nat _ 0 _ after st2 eq_refl eq_refl eq_refl R). reflexivity.
  - eexists. eexists. split; [reflexivity|]. split; [reflexivity|]. split; [discriminate|]. split; [reflexivity|]. intros after st2 R.
    rewrite (C96_queue_stuck on [([], Worker 1 9); ([GLog], Returns)] [Step 0; Step 0; Step 0]%nat _ 0 _ after st2 eq_refl eq_refl eq_refl R). reflexivity.
  - eexists. eexists. split; [reflexivity|]. split; [reflexivity|]. intros after st2 S R.
    apply (C96_self_deadlock on [([GHook 1], Returns)] [Step 0]%nat _ 0 MHook _ after st2 eq_refl (or_introl eq_refl) eq_refl eq_refl eq_refl S R).
Qed.
Print Assumptions C96_refuted.

(** a harmless moment: before the queue's mutex is taken, while another thread is inside the queue *)
Example C96_ex :
  option_map (fun st => (map (owner st) critical, caught st, mem (core st) LLogger, mem (core st) LFatalFn))
    (iruns [Step 0; Step 0; Step 1; Step 1; Step 1; Step 1]%nat (istart on mutexes_free [([GLog], Returns); ([GLog], Returns)]))
  = Some ([Some 1%nat; None; None], false, [1%Z], []).
Proof. vm_compute. reflexivity. Qed.
