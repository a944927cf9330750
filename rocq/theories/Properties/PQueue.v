(** C01, C02, C77: the blocking queue.  Model: Model/SharedQueue.v; specification: Spec/QueueSpec.v. *)
From Coq Require Import List Arith NArith Bool Lia.
From Verif.Base Require Import Threads.
From Verif.Model Require Import SharedQueue.
From Verif.Spec Require Import QueueSpec.
From Verif.Proofs Require Import QueueFacts.
Import ListNotations.

(** a schedule that has to work *)
Fixpoint qsched {A} (s : qstate A) (l : list (qaction A)) : option (qstate A) :=
  match l with
  | [] => Some s
  | a :: r => match qstep s a with Some s' => qsched s' r | None => None end
  end.
Lemma qsched_reach : forall A n l (s s' : qstate A), qreach n s -> qsched s l = Some s' -> qreach n s'.
Proof.
  induction l as [|a l IH]; intros s s' R E; cbn in E; [now injection E as <-|].
  destruct (qstep s a) as [s1|] eqn:X; [|discriminate]. eapply IH; [|exact E]. eapply qr_step; eauto.
Qed.

(** ** C01 *)
(** Every history is one of a queue: each operation takes effect at one moment between its call and its return. *)
Theorem C01_linearizable : forall A n (s : qstate A), qreach n s -> linearized (q_trace s) (q_content s).
Proof.
  intros A n s R. pose proof (QInv_reach n s R) as I. split; [apply I|]. intro t. eexists. apply (i_proto s I).
Qed.
Print Assumptions C01_linearizable.

(** What came out, followed by what is inside, is what went in. *)
Theorem C01_fifo : forall A n (s : qstate A), qreach n s -> pushed (q_trace s) = popped (q_trace s) ++ q_content s.
Proof. intros A n s R. apply sequential_fifo, (QInv_reach n s R). Qed.
Print Assumptions C01_fifo.

(** A thread gets from wait_and_pop the item that it took out. *)
Theorem C01_result : forall A n (s : qstate A) t r, qreach n s -> pc s t = Idle (Some r) ->
  exists tr o, filter (by_thread t) (q_trace s) = tr ++ [Commit t o r; Ret t r].
Proof.
  intros A n s t r R. revert r.
  induction R as [|s a s' R IH E]; intros r P.
  - unfold pc in P. cbn [q_init q_pcs] in P. rewrite pc_repeat in P. discriminate.
  - pose proof (QInv_reach n s R) as I. pose proof (QInv_step s a s' I E) as I'.
    assert (G' : forall u e, In e (filter (by_thread u) (q_trace s)) -> actor e = u)
      by (intros u e X; apply filter_In in X as [_ X]; rewrite by_actor in X; now apply Nat.eqb_eq).
    (* the step that returned, or an earlier one *)
    assert (H : (pc s t = Idle (Some r) /\ filter (by_thread t) (q_trace s') = filter (by_thread t) (q_trace s)) \/
      (q_trace s' = q_trace s ++ [Ret t r] /\ phase_of (pc s t) = Committed r)).
    { destruct a as [u o|u|u w|u|w]; cbn [qstep] in E.
      - destruct (pc s u) as [l| | | | | | |] eqn:PU; try discriminate. destruct (Nat.ltb_spec u (length (q_pcs s))) as [L|L]; [|discriminate]. injection E as <-.
        rewrite pc_goto in P by exact L. destruct (Nat.eqb_spec t u) as [->|N]; [discriminate|]. left. split; [exact P|].
        cbn [goto note q_trace]. rewrite by_thread_snoc. cbn [by_thread]. destruct (Nat.eqb_spec u t); [congruence|]. apply app_nil_r.
      - assert (L : match pc s u with Idle _ => True | _ => u < length (q_pcs s) end).
        { destruct (pc s u) eqn:PU; auto; apply pc_lt; rewrite PU; discriminate. }
        destruct (pc s u) as [l|o|o| | |b|r' nf|] eqn:PU; try discriminate.
        + destruct (q_owner s); [discriminate|]. injection E as <-. rewrite pc_goto in P by exact L.
          destruct (Nat.eqb_spec t u); [discriminate|]. left. split; [exact P|reflexivity].
        + injection E as <-. assert (O : q_owner s = Some u) by (apply (i_owner s I); now rewrite PU).
          assert (K : forall s0 p es, q_pcs s0 = q_pcs s -> q_trace s0 = q_trace s ++ es -> (forall e, In e es -> actor e = u) ->
            pc (goto s0 u p) t = Idle (Some r) -> (forall l, p <> Idle l) ->
            pc s t = Idle (Some r) /\ filter (by_thread t) (q_trace (goto s0 u p)) = filter (by_thread t) (q_trace s)).
          { intros s0 p es E1 E2 E3 P' NI. rewrite pc_goto in P' by now rewrite E1. destruct (Nat.eqb_spec t u); [exfalso; eapply NI; eauto|].
            split; [unfold pc in *; now rewrite E1 in P'|]. cbn [goto q_trace]. rewrite E2, filter_app.
            replace (filter (by_thread t) es) with (@nil (qevent A)); [apply app_nil_r|].
            clear -E3 n0. induction es as [|e es IH]; cbn; auto. rewrite by_actor, (E3 e) by now left. destruct (Nat.eqb_spec u t); [congruence|].
            apply IH. intros; apply E3; now right. }
          left. destruct o as [x| | | |]; cbn [body] in *.
          * eapply (K (note (set_content s (q_content s ++ [x])) (Commit u (OPush x) RUnit)) _ [_]); try exact P; try reflexivity; [intros e [<-|[]]; reflexivity|discriminate].
          * destruct (q_content s).
            -- rewrite (unlock_own s u O) in *. eapply (K (set_owner s None) Sleep []); try exact P; try discriminate; [reflexivity|cbn; now rewrite app_nil_r|intros e []].
            -- eapply (K s _ []); try exact P; try discriminate; [reflexivity|now rewrite app_nil_r|intros e []].
          * destruct (q_content s).
            -- eapply (K (note s (Commit u OTryPop RNone)) _ [_]); try exact P; try reflexivity; [intros e [<-|[]]; reflexivity|discriminate].
            -- eapply (K s _ []); try exact P; try discriminate; [reflexivity|now rewrite app_nil_r|intros e []].
          * eapply (K (note s _) _ [_]); try exact P; try reflexivity; [intros e [<-|[]]; reflexivity|discriminate].
          * eapply (K (note s _) _ [_]); try exact P; try reflexivity; [intros e [<-|[]]; reflexivity|discriminate].
        + destruct (q_owner s); [discriminate|]. injection E as <-. rewrite pc_goto in P by exact L.
          destruct (Nat.eqb_spec t u); [discriminate|]. left. split; [exact P|reflexivity].
        + destruct (q_content s) as [|x l] eqn:CO; [exfalso; exact (i_take s I u b PU CO)|]. injection E as <-.
          rewrite pc_goto in P by exact L. destruct (Nat.eqb_spec t u); [discriminate|]. left. split; [exact P|].
          cbn [goto note set_content q_trace]. rewrite by_thread_snoc. cbn [by_thread]. destruct (Nat.eqb_spec u t); [congruence|]. apply app_nil_r.
        + assert (O : q_owner s = Some u) by (apply (i_owner s I); now rewrite PU). rewrite (unlock_own s u O) in E. destruct nf; injection E as <-.
          * rewrite pc_goto in P by exact L. destruct (Nat.eqb_spec t u); [discriminate|]. left. split; [exact P|reflexivity].
          * unfold ret in P. rewrite pc_goto in P by exact L. destruct (Nat.eqb_spec t u) as [->|N].
            -- injection P as ->. right. split; [reflexivity|now rewrite PU].
            -- left. split; [exact P|]. cbn [ret goto note set_owner q_trace]. rewrite by_thread_snoc. cbn [by_thread]. destruct (Nat.eqb_spec u t); [congruence|]. apply app_nil_r.
      - destruct (pc s u) eqn:PU; try discriminate. destruct (existsb (Nat.eqb w) (q_waiters s)) eqn:X; [|discriminate]. injection E as <-.
        destruct (existsb_waiter s w I X) as [WI PW].
        assert (L : u < length (q_pcs s)) by (apply pc_lt; rewrite PU; discriminate).
        assert (LW : w < length (q_pcs s)) by (apply pc_lt; rewrite PW; discriminate).
        unfold ret in P. rewrite pc_goto in P by (cbn; rewrite upd_length; exact L). destruct (Nat.eqb_spec t u) as [->|N].
        + injection P as <-. right. split; [reflexivity|now rewrite PU].
        + left. match type of P with pc (note ?s0 _) t = _ => change (pc s0 t = Idle (Some r)) in P end.
          rewrite pc_goto in P by exact LW. destruct (Nat.eqb_spec t w); [discriminate|]. split; [exact P|].
          cbn [ret goto note set_waiters q_trace]. rewrite by_thread_snoc. cbn [by_thread]. destruct (Nat.eqb_spec u t); [congruence|]. apply app_nil_r.
      - destruct (pc s u) eqn:PU; try discriminate. destruct (q_waiters s); [|discriminate]. injection E as <-.
        assert (L : u < length (q_pcs s)) by (apply pc_lt; rewrite PU; discriminate).
        unfold ret in P. rewrite pc_goto in P by exact L. destruct (Nat.eqb_spec t u) as [->|N].
        + injection P as <-. right. split; [reflexivity|now rewrite PU].
        + left. split; [exact P|]. cbn [ret goto note q_trace]. rewrite by_thread_snoc. cbn [by_thread]. destruct (Nat.eqb_spec u t); [congruence|]. apply app_nil_r.
      - destruct (existsb (Nat.eqb w) (q_waiters s)) eqn:X; [|discriminate]. injection E as <-.
        destruct (existsb_waiter s w I X) as [WI PW]. assert (LW : w < length (q_pcs s)) by (apply pc_lt; rewrite PW; discriminate).
        rewrite pc_goto in P by exact LW. destruct (Nat.eqb_spec t w); [discriminate|]. left. split; [exact P|reflexivity]. }
    destruct H as [[P0 EQ]|[EQ PH]].
    + rewrite EQ. now apply IH.
    + rewrite EQ, by_thread_snoc. cbn [by_thread]. rewrite Nat.eqb_refl. pose proof (i_proto s I t) as Q. rewrite PH in Q.
      inversion Q as [| |tr u o r' Q' E1 E2|]; subst. assert (u = t).
      { apply (G' t (Commit u o r)). rewrite <- E1. apply in_or_app. right. now left. } subst u.
      exists tr, o. rewrite <- app_assoc. reflexivity.
Qed.
Print Assumptions C01_result.

(** Two producers, two consumers; the second consumer sleeps and is woken. *)
Definition C01_sched : list (qaction nat) :=
  [Start 2 OPop; Step 2; Step 2;                            (* thread 2 sleeps *)
   Start 0 (OPush 10); Start 1 (OPush 11); Step 1; Step 1; Step 1;
   Step 0; Step 0; Step 0; Wake 1 2; NoWake 0;
   Start 3 OTryPop; Step 3; Step 3; Step 3; Step 3;
   Step 2; Step 2; Step 2; Step 2].
Example C01_ex1 :
  option_map (fun s => (pc s 3, pc s 2, pushed (q_trace s), popped (q_trace s))) (qsched (q_init 4) C01_sched) =
  Some (Idle (Some (RItem 11)), Idle (Some (RItem 10)), [11; 10], [11; 10]).
Proof. vm_compute. reflexivity. Qed.

(** ** C02 *)
(** front() and pop() are never called on an empty queue, nobody unlocks a mutex of somebody else. *)
Theorem C02_no_undefined_behaviour : forall A n (s : qstate A), qreach n s -> q_ub s = false.
Proof. intros A n s R. apply (QInv_reach n s R). Qed.
Print Assumptions C02_no_undefined_behaviour.

(** queue_ is accessed by one thread at a time *)
Theorem C02_mutual_exclusion : forall A n (s : qstate A) t u, qreach n s ->
  holds (pc s t) = true -> holds (pc s u) = true -> u = t.
Proof. intros A n s t u R. apply sole_holder, (QInv_reach n s R). Qed.
Print Assumptions C02_mutual_exclusion.

(** A consumer sleeps while items are there: then as many threads as there are items owe a notification or are consumers on their way. *)
Theorem C02_no_lost_wakeup : forall A n (s : qstate A) t, qreach n s -> pc s t = Sleep ->
  length (q_content s) <= count owes (q_pcs s) + count coming (q_pcs s).
Proof.
  intros A n s t R P. pose proof (QInv_reach n s R) as I. apply (i_wake s I). apply (i_wait s I) in P. intro E. rewrite E in P. destruct P.
Qed.
Print Assumptions C02_no_lost_wakeup.

(** Left alone (no new operations, no spurious wake-ups) the threads stop after a bounded number of steps ... *)
Theorem C02_bounded : forall A n (s : qstate A) l s', qreach n s -> (forall a, In a l -> internal a = true) ->
  qsched s l = Some s' -> length l + measure s' <= measure s.
Proof.
  intros A n s l s' R. revert s R. induction l as [|a l IH]; intros s R IN E; cbn in *.
  - injection E as <-. lia.
  - destruct (qstep s a) as [s1|] eqn:X; [|discriminate].
    pose proof (internal_decreases s a s1 (QInv_reach n s R) X (IN a (or_introl eq_refl))).
    pose proof (IH s1 (qr_step n s a s1 R X) (fun b B => IN b (or_intror B)) E). lia.
Qed.
Print Assumptions C02_bounded.

(** ... and then every operation is finished, but for consumers asleep at an empty queue. *)
Theorem C02_quiescent : forall A n (s : qstate A), qreach n s -> (forall a s', qstep s a = Some s' -> internal a = false) ->
  forall t, (exists r, pc s t = Idle r) \/ (pc s t = Sleep /\ q_content s = []).
Proof.
  intros A n s R ST t. pose proof (QInv_reach n s R) as I. destruct (stuck_pcs s I ST t) as [P|P]; auto.
  right. split; auto. now apply (stuck_empty s I ST t).
Qed.
Print Assumptions C02_quiescent.

(** spurious wake-up, an item stolen by a newcomer, the woken consumer sleeps again *)
Example C02_ex1 :
  option_map (fun s => (pc s 2, pc s 0, q_content s)) (qsched (@q_init nat 3)
  [Start 0 OPop; Step 0; Step 0; Start 1 (OPush 5); Step 1; Step 1; Step 1; Wake 1 0;
   Start 2 OPop; Step 2; Step 2; Step 2; Step 2; Step 0; Step 0; Spurious 0; Step 0; Step 0]) =
  Some (Idle (Some (RItem 5)), Sleep, []).
Proof. vm_compute. reflexivity. Qed.

(** ** C77 *)
Lemma commit_split : forall A tr (l : list A), sequential tr l -> forall a b t o r, tr = a ++ Commit t o r :: b ->
  exists l0 l1, sequential a l0 /\ atomic l0 o r l1.
Proof.
  intros A tr l S. induction S as [|tr l t o r l' S IH AT|tr l t o S IH|tr l t r S IH]; intros a b u o' r' E.
  - destruct a; discriminate.
  - destruct b as [|x b _] using rev_ind; [|rewrite app_comm_cons, app_assoc in E; apply app_inj_tail in E as [E _]; eauto].
    apply app_inj_tail in E as [-> E]. injection E as -> -> ->. eauto.
  - destruct b as [|x b _] using rev_ind; [|rewrite app_comm_cons, app_assoc in E; apply app_inj_tail in E as [E _]; eauto].
    apply app_inj_tail in E as [_ E]. discriminate.
  - destruct b as [|x b _] using rev_ind; [|rewrite app_comm_cons, app_assoc in E; apply app_inj_tail in E as [E _]; eauto].
    apply app_inj_tail in E as [_ E]. discriminate.
Qed.

(** empty() and size() tell the truth at one moment of the call: [l] is the content at that moment *)
Theorem C77_empty : forall A n (s : qstate A) t b tr1 tr2, qreach n s -> q_trace s = tr1 ++ Commit t OEmpty (RBool b) :: tr2 ->
  exists l, pushed tr1 = popped tr1 ++ l /\ (b = true <-> l = []).
Proof.
  intros A n s t b tr1 tr2 R E. destruct (C01_linearizable A n s R) as [S _].
  destruct (commit_split A _ _ S _ _ _ _ _ E) as (l & l1 & S0 & AT). exists l. split; [now apply sequential_fifo|]. inversion AT; subst; auto.
Qed.
Print Assumptions C77_empty.
Theorem C77_size_partial : forall A n (s : qstate A) t k tr1 tr2, qreach n s -> q_trace s = tr1 ++ Commit t OSize (RNum k) :: tr2 ->
  exists l, pushed tr1 = popped tr1 ++ l /\ k = (N.of_nat (length l) mod 2 ^ 32)%N /\ (N.of_nat (length l) < 2 ^ 32 -> k = N.of_nat (length l))%N.
Proof.
  intros A n s t k tr1 tr2 R E. destruct (C01_linearizable A n s R) as [S _].
  destruct (commit_split A _ _ S _ _ _ _ _ E) as (l & l1 & S0 & AT). exists l. split; [now apply sequential_fifo|].
  inversion AT; subst. split; [reflexivity|]. intro H. now apply N.mod_small.
Qed.
Print Assumptions C77_size_partial.

(** any content can be reached *)
Lemma reach_content : forall A (l : list A), exists s, qreach 1 s /\ q_content s = l /\ q_owner s = None /\ q_waiters s = [] /\
  (exists r, q_pcs s = [Idle r]).
Proof.
  intros A l. induction l as [|x l IH] using rev_ind.
  - exists (q_init 1). split; [constructor|]. repeat split; eauto. now exists None.
  - destruct IH as (s & R & C & O & W & r & P).
    assert (X : exists s', qsched s [Start 0 (OPush x); Step 0; Step 0; Step 0; NoWake 0] = Some s' /\
      q_content s' = l ++ [x] /\ q_owner s' = None /\ q_waiters s' = [] /\ exists r, q_pcs s' = [Idle r]).
    { destruct s as [c o w pcs ub tr]. cbn in *. subst. eexists. split; [reflexivity|]. cbn. repeat split; eauto. }
    destruct X as (s' & E & X). exists s'. split; [eapply qsched_reach; eauto|exact X].
Qed.
Lemma size_at : forall k, k <> 0 -> to_unsigned k = 0%N -> exists (s : qstate bool) tr, qreach 1 s /\ q_content s <> [] /\
  q_trace s = tr ++ [Commit 0 OSize (RNum 0); Ret 0 (RNum 0)].
Proof.
  intros k K Z. destruct (reach_content bool (repeat true k)) as (s & R & C & O & W & r & P).
  assert (LEN : length (q_content s) = k) by (rewrite C; apply repeat_length). clear C. rewrite <- LEN in Z.
  assert (NE : q_content s <> []) by (intro E; rewrite E in LEN; cbn [length] in LEN; congruence).
  clear LEN. destruct s as [c o w pcs ub tr]. cbn in *. subst o w pcs.
  eexists _, (tr ++ [Call 0 OSize]). split.
  - eapply (qsched_reach _ 1 [Start 0 OSize; Step 0; Step 0; Step 0]); [exact R|]. cbn. rewrite Z. reflexivity.
  - cbn. split; [exact NE|]. rewrite <- !app_assoc. reflexivity.
Qed.
(** With 2^32 items size() is 0. *)
Theorem C77_refuted : exists (s : qstate bool) tr, qreach 1 s /\ q_content s <> [] /\
  q_trace s = tr ++ [Commit 0 OSize (RNum 0); Ret 0 (RNum 0)].
Proof.
  assert (X : exists k, k <> 0 /\ to_unsigned k = 0%N).
  { exists (N.to_nat 4294967296). split.
    - intro E. apply (f_equal N.of_nat) in E. rewrite N2Nat.id in E. discriminate.
    - unfold to_unsigned. rewrite N2Nat.id. reflexivity. }
  destruct X as (k & K & Z). exact (size_at k K Z).
Qed.
Print Assumptions C77_refuted.

(** The flag of C02 is set by exactly the accesses that are undefined behaviour: an unlock by a thread that does not own the
    mutex, and taking from an empty queue. *)
Theorem C02_detected : forall (A : Type) (s : @qstate A) t,
  (q_ub (unlock s t) = true <-> q_ub s = true \/ q_owner s <> Some t) /\
  (forall try s', pc s t = Take try -> qstep s (Step t) = Some s' -> (q_ub s' = true <-> q_ub s = true \/ q_content s = [])).
Proof.
  intros A s t. split.
  - unfold unlock. destruct (q_owner s) as [u|].
    + destruct (Nat.eqb_spec u t) as [->|N]; cbn; [tauto|]. split; [|reflexivity]. intros _. right. congruence.
    + cbn. split; [|reflexivity]. intros _. right. discriminate.
  - intros try s' P E. cbn [qstep] in E. rewrite P in E. destruct (q_content s) as [|x l]; injection E as <-; cbn; [tauto|].
    split; [auto|]. intros [H|H]; [exact H|discriminate].
Qed.
Print Assumptions C02_detected.

(** C02 is not vacuous: the flag is set by the accesses that would be undefined behaviour *)
Example C02_ex_detected :
  q_ub (unlock (@q_init bool 1) 0) = true /\
  q_ub (unlock (set_owner (@q_init bool 2) (Some 1)) 0) = true /\
  option_map q_ub (qstep (goto (@q_init bool 1) 0 (Take false)) (Step 0)) = Some true.
Proof. repeat split; reflexivity. Qed.
