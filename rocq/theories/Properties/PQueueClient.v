(** C124: programs cannot tell shared_queue from a queue whose operations happen at once.
    Model: Model/QueueClient.v, Model/SharedQueue.v; specification: Spec/QueueClientSpec.v, Spec/QueueSpec.v. *)
From Coq Require Import List Arith NArith Bool Lia.
From Verif.Base Require Import Threads.
From Verif.Model Require Import SharedQueue QueueClient.
From Verif.Spec Require Import QueueSpec QueueClientSpec.
From Verif.Proofs Require Import QueueFacts QueueClientFacts.
Import ListNotations.

(** Whatever the program can reach with the real queue it can reach with the atomic one: the same shared
    memory, the same items, and the same local variables up to the results that are on their way. *)
Theorem C124_refines : forall A L M (P : program A L M) ls m s, freach P ls m s ->
  exists ls', arrived P (f_queue s) (f_locals s) ls' /\ areach P ls m (ls', f_mem s, q_content (f_queue s)).
Proof.
  intros A L M P ls m s R. destruct (FInv_reach P ls m s R) as (I & LN & _ & ls' & [VL V] & RA). exists ls'. split; [|exact RA].
  split; [exact VL|]. intros t x x' X X'. rewrite (V t x X) in X'. injection X' as <-. unfold view. split.
  - intros r W. apply (way_phase _ t r I) in W. now rewrite W.
  - intro N. destruct (phase_of (pc (f_queue s) t)) as [| |r] eqn:F; auto. exfalso. apply (N r). now apply way_phase.
Qed.
Print Assumptions C124_refines.

(** While nobody is inside an operation the two systems can be in exactly the same states. *)
Theorem C124_same_states : forall A L M (P : program A L M) ls m ls' m' l,
  areach P ls m (ls', m', l) <-> exists q, freach P ls m (mkF ls' m' q) /\ quiet q /\ q_content q = l.
Proof.
  intros A L M P ls m ls' m' l. split; [apply atomic_possible|]. intros (q & R & Q & <-).
  destruct (FInv_reach P ls m _ R) as (I & LN & _ & ls2 & V & RA). cbn [f_queue f_locals f_mem] in *.
  rewrite <- (views_quiet P q ls' ls2 Q V). exact RA.
Qed.
Print Assumptions C124_same_states.

(** The real queue adds no deadlock: when nothing but spurious wake-ups is left to happen, nobody has a result on its way,
    and the program with the atomic queue can be in that state and cannot go on either. *)
Theorem C124_no_new_deadlock : forall A L M (P : program A L M) ls m s, freach P ls m s ->
  (forall lab s', fstep P lab s s' -> exists w, lab = FQueue (Spurious w)) ->
  let a := (f_locals s, f_mem s, q_content (f_queue s)) in areach P ls m a /\ forall a', ~ astep P a a'.
Proof.
  intros A L M P ls m [ls1 m1 q] R ST. destruct (FInv_reach P ls m _ R) as (I & LN & AK & ls2 & V & RA). cbn [f_queue f_locals f_mem] in *.
  assert (QS : forall a q', qstep q a = Some q' -> internal a = false).
  { intros a q' E. destruct (internal a) eqn:N; [|reflexivity]. assert (G : goes_on a) by (destruct a; try discriminate N; exact Logic.I).
    destruct (queue_goes P ls1 m1 q a q' I LN G E) as (s' & F). destruct (ST _ _ F) as (w & W). injection W as ->. discriminate N. }
  pose proof (stuck_pcs q I QS) as SP.
  assert (NW : forall t r, phase_of (pc q t) <> Committed r) by (intros t r; destruct (SP t) as [->|[x ->]]; discriminate).
  split.
  - rewrite <- (views_none P q ls1 ls2 NW V). exact RA.
  - intros a' AS. inversion AS as [ls3 m3 l3 t x x' m' NX W IN E1 E2|ls3 m3 l3 t x o r l' NX W AT E1 E2]; subst.
    + destruct (SP t) as [SL|OUT]; cycle 1.
      * destruct (ST (FInner t) (mkF (upd ls1 t x') m' q)) as (w & X); [|discriminate X]. now apply (fs_inner P ls1 m1 q t x).
      * destruct (AK t OPop) as (y & Y & WY); [now rewrite SL|]. congruence.
    + destruct (SP t) as [SL|[y Y]]; cycle 1.
      * assert (E : qstep q (Start t o) = Some (goto (note q (Call t o)) t (Lock o))).
        { cbn [qstep]. rewrite Y. assert (LT : t < length (q_pcs q)) by (rewrite LN; apply nth_error_Some; congruence). now apply Nat.ltb_lt in LT as ->. }
        destruct (ST (FCall t) (mkF ls1 m1 (goto (note q (Call t o)) t (Lock o)))) as (w & X); [|discriminate X]. now apply (fs_call P ls1 m1 q _ t x o).
      * destruct (AK t OPop) as (y & Y & WY); [now rewrite SL|]. assert (o = OPop) as -> by congruence.
        rewrite (stuck_empty q I QS t SL) in AT. inversion AT.
Qed.
Print Assumptions C124_no_new_deadlock.

(** a script of operations, and the results so far; at the end of the script the first result goes to the shared memory *)
Definition scripted : program nat (list (qop nat) * list (qres nat)) (list (qres nat)) :=
  mkProg (fun _ x => match fst x with o :: _ => Some o | [] => None end)
         (fun _ x r => (tl (fst x), snd x ++ [r]))
         (fun _ x m x' m' => match x with ([], r :: rs) => x' = ([], rs) /\ m' = m ++ [r] | _ => False end).


Section Steps.
Context {A L M : Type} {P : program A L M} {ls0 : list L} {m0 : M}.
Lemma go_inner : forall ls m q, freach P ls0 m0 (mkF ls m q) -> forall t x x' m', nth_error ls t = Some x -> outside (pc q t) ->
  p_wants P t x = None -> p_inner P t x m x' m' -> freach P ls0 m0 (mkF (upd ls t x') m' q).
Proof. intros. eapply fr_step; [eassumption|]. eapply fs_inner; eassumption. Qed.
Lemma go_call : forall ls m q, freach P ls0 m0 (mkF ls m q) -> forall t x o q', nth_error ls t = Some x -> p_wants P t x = Some o ->
  qstep q (Start t o) = Some q' -> freach P ls0 m0 (mkF ls m q').
Proof. intros. eapply fr_step; [eassumption|]. eapply fs_call; eassumption. Qed.
Lemma go_work : forall ls m q, freach P ls0 m0 (mkF ls m q) -> forall a q', goes_on a -> qstep q a = Some q' ->
  (forall t, outside (pc q' t) -> outside (pc q t)) -> freach P ls0 m0 (mkF ls m q').
Proof. intros. eapply fr_step; [eassumption|]. eapply fs_work; eassumption. Qed.
Lemma go_return : forall ls m q, freach P ls0 m0 (mkF ls m q) -> forall a t x r q', goes_on a -> qstep q a = Some q' -> ~ outside (pc q t) ->
  pc q' t = Idle (Some r) -> nth_error ls t = Some x -> freach P ls0 m0 (mkF (upd ls t (p_takes P t x r)) m q').
Proof. intros. eapply fr_step; [eassumption|]. eapply fs_return; eassumption. Qed.
End Steps.
Ltac nobody := intros [|[|t]] [y Y]; try discriminate Y; eexists; exact Y.
Ltac norm R := match type of R with freach ?P ?a ?b ?s => let s' := eval vm_compute in s in change (freach P a b s') in R end.
Ltac inside := intros [y Y]; discriminate Y.

(** Thread 0 waits in an empty queue, thread 1 pushes 7 and has unlocked the mutex, but not notified: its result is on
    its way.  Thread 0 wakes up spuriously, gets the item and publishes it before the push has returned. *)
Example C124_ex : exists q, freach scripted [([OPop], []); ([OPush 7], [])] [] (mkF [([], []); ([OPush 7], [])] [RItem 7] q) /\
  on_its_way q 1 RUnit /\ q_content q = [] /\ ~ outside (pc q 1) /\
  areach scripted [([OPop], []); ([OPush 7], [])] [] ([([], []); ([], [RUnit])], [RItem 7], []).
Proof.
  pose proof (fr_init scripted [([OPop], []); ([OPush 7], [])] []) as R. norm R.
  pose proof (go_call _ _ _ R 0 _ _ _ eq_refl eq_refl eq_refl) as R1. clear R. norm R1.
  pose proof (go_work _ _ _ R1 (Step 0) _ I eq_refl ltac:(nobody)) as R. clear R1. norm R.
  pose proof (go_work _ _ _ R (Step 0) _ I eq_refl ltac:(nobody)) as R1. clear R. norm R1.
  pose proof (go_call _ _ _ R1 1 _ _ _ eq_refl eq_refl eq_refl) as R. clear R1. norm R.
  pose proof (go_work _ _ _ R (Step 1) _ I eq_refl ltac:(nobody)) as R1. clear R. norm R1.
  pose proof (go_work _ _ _ R1 (Step 1) _ I eq_refl ltac:(nobody)) as R. clear R1. norm R.
  pose proof (go_work _ _ _ R (Step 1) _ I eq_refl ltac:(nobody)) as R1. clear R. norm R1.
  pose proof (go_work _ _ _ R1 (Spurious 0) _ I eq_refl ltac:(nobody)) as R. clear R1. norm R.
  pose proof (go_work _ _ _ R (Step 0) _ I eq_refl ltac:(nobody)) as R1. clear R. norm R1.
  pose proof (go_work _ _ _ R1 (Step 0) _ I eq_refl ltac:(nobody)) as R. clear R1. norm R.
  pose proof (go_work _ _ _ R (Step 0) _ I eq_refl ltac:(nobody)) as R1. clear R. norm R1.
  pose proof (go_return _ _ _ R1 (Step 0) 0 _ _ _ I eq_refl ltac:(inside) eq_refl eq_refl) as R. clear R1. norm R.
  pose proof (go_inner _ _ _ R 0 _ _ _ eq_refl (ex_intro _ _ eq_refl) eq_refl (conj eq_refl eq_refl)) as R1. clear R. norm R1.
  eexists. split; [exact R1|]. split; [exists [Call 1 (OPush 7)], (OPush 7); reflexivity|]. split; [reflexivity|]. split; [inside|].
  eapply ar_step; [eapply ar_step; [eapply ar_step; [apply ar_init|]|]|].
  - eapply (as_op scripted _ _ _ 1); [reflexivity|reflexivity|apply at_push].
  - eapply (as_op scripted _ _ _ 0); [reflexivity|reflexivity|apply at_pop].
  - apply (as_inner scripted [([], [RItem 7]); ([], [RUnit])] [] [] 0 ([], [RItem 7]) ([], [])); try reflexivity. now split.
Qed.

(** Two threads wait for items that never come: stuck in both systems. *)
Example C124_ex_deadlock : exists q, freach scripted [([OPop], []); ([OPop], [])] [] (mkF [([OPop], []); ([OPop], [])] [] q) /\
  (forall lab s', fstep scripted lab (mkF [([OPop], []); ([OPop], [])] [] q) s' -> exists w, lab = FQueue (Spurious w)).
Proof.
  pose proof (fr_init scripted [([OPop], []); ([OPop], [])] []) as R. norm R.
  pose proof (go_call _ _ _ R 0 _ _ _ eq_refl eq_refl eq_refl) as R1. clear R. norm R1.
  pose proof (go_work _ _ _ R1 (Step 0) _ I eq_refl ltac:(nobody)) as R. clear R1. norm R.
  pose proof (go_work _ _ _ R (Step 0) _ I eq_refl ltac:(nobody)) as R1. clear R. norm R1.
  pose proof (go_call _ _ _ R1 1 _ _ _ eq_refl eq_refl eq_refl) as R. clear R1. norm R.
  pose proof (go_work _ _ _ R (Step 1) _ I eq_refl ltac:(nobody)) as R1. clear R. norm R1.
  pose proof (go_work _ _ _ R1 (Step 1) _ I eq_refl ltac:(nobody)) as R. clear R1. norm R.
  match type of R with freach _ _ _ (mkF _ _ ?q) => exists q end. split; [exact R|]. clear R. intros lab s' ST.
  assert (Q : forall a q', goes_on a -> qstep (@mkQ nat [] None [1; 0] [Sleep; Sleep] false [Call 0 OPop; Call 1 OPop]) a = Some q' -> exists w, a = Spurious w).
  2:{ inversion ST as [ls m q t x x' m' NX OUT W IN|ls m q q' t x o NX W E|ls m q q' a G E OUT|ls m q q' a t x r G E NO PR NX]; subst.
    - exfalso. destruct t as [|[|t]]; cbn in NX; try (injection NX as <-; discriminate W). destruct t; discriminate NX.
    - exfalso. destruct t as [|[|t]]; cbn in NX, E; try discriminate E. destruct t; discriminate NX.
    - destruct (Q a q' G E) as (w & ->). now exists w.
    - destruct (Q a q' G E) as (w & ->). now exists w. }
  intros a q' G E. destruct a as [t o|t|t w|t|w]; [destruct G|..|now exists w]; exfalso; destruct t as [|[|[|t]]]; discriminate E.
Qed.
