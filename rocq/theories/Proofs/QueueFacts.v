From Coq Require Import List Arith NArith Bool Lia.
From Verif.Base Require Import Threads.
From Verif.Model Require Import SharedQueue.
From Verif.Spec Require Import QueueSpec.
Import ListNotations.

Section Facts.
Context {A : Type}.
Implicit Types (s : qstate A) (p : qpc A) (tr : list (qevent A)).

(** has the mutex *)
Definition holds p : bool := match p with Body _ | Take _ | Leave _ _ => true | _ => false end.
(** will notify *)
Definition owes p : bool := match p with Leave _ true | Notify => true | _ => false end.
(** an awake consumer that has not taken an item yet *)
Definition coming p : bool := match p with Lock OPop | Body OPop | Take false | Relock => true | _ => false end.
Definition phase_of p : @phase A :=
  match p with
  | Idle _ => Free
  | Lock o | Body o => Called o
  | Sleep | Relock => Called OPop
  | Take try => Called (if try then OTryPop else OPop)
  | Leave r _ => Committed r
  | Notify => Committed RUnit
  end.

Record QInv s : Prop := mkQI {
  i_ub : q_ub s = false;
  i_owner : forall t, holds (pc s t) = true <-> q_owner s = Some t;
  i_wait : forall t, In t (q_waiters s) <-> pc s t = Sleep;
  i_nodup : NoDup (q_waiters s);
  i_take : forall t b, pc s t = Take b -> q_content s <> [];
  i_leave : forall t r, pc s t = Leave r true -> r = RUnit;
  i_seq : sequential (q_trace s) (q_content s);
  i_proto : forall t, protocol (filter (by_thread t) (q_trace s)) (phase_of (pc s t));
  i_wake : q_waiters s <> [] -> length (q_content s) <= count owes (q_pcs s) + count coming (q_pcs s)
}.

Lemma pc_repeat : forall n t, get (Idle None) (repeat (@Idle A None) n) t = Idle None.
Proof.
  intros n t. unfold get. destruct (Nat.lt_ge_cases t n) as [L|L].
  - apply nth_repeat.
  - apply nth_overflow. now rewrite repeat_length.
Qed.

Lemma QInv_init : forall n, QInv (q_init n).
Proof.
  intro n. assert (PC : forall t, pc (q_init n) t = @Idle A None) by (intro t; apply pc_repeat).
  constructor; cbn [q_init q_ub q_owner q_waiters q_content q_trace]; auto; try (intro t; rewrite PC; cbn).
  - split; discriminate.
  - split; [intros []|discriminate].
  - constructor.
  - intros; congruence.
  - intros; congruence.
  - constructor.
  - constructor.
  - congruence.
Qed.

Lemma pc_lt : forall s t, (forall l, pc s t <> Idle l) -> t < length (q_pcs s).
Proof. intros s t H. apply (get_in (Idle None)). apply H. Qed.

(** changing the state of thread t only *)
Lemma pc_goto : forall s t p u, t < length (q_pcs s) -> pc (goto s t p) u = if Nat.eqb u t then p else pc s u.
Proof. intros. unfold pc, goto. cbn [q_pcs]. now apply get_upd. Qed.

Lemma by_thread_snoc : forall tr e t, filter (by_thread t) (tr ++ [e]) = filter (by_thread t) tr ++ (if by_thread t e then [e] else []).
Proof. intros. rewrite filter_app. cbn. now destruct (by_thread t e). Qed.

Definition actor (e : qevent A) : nat := match e with Call t _ => t | Commit t _ _ => t | Ret t _ => t end.
Lemma by_actor : forall t e, by_thread t e = Nat.eqb (actor e) t.
Proof. intros t [u o|u o r|u r]; reflexivity. Qed.

(** [s'] is [s] with thread t at p, and what is given *)
Definition change s s' (t : nat) p (es : list (qevent A)) : Prop :=
  (forall u, pc s' u = if Nat.eqb u t then p else pc s u) /\
  q_trace s' = q_trace s ++ es /\
  forall c : qpc A -> bool, count c (q_pcs s') + b2n (c (pc s t)) = count c (q_pcs s) + b2n (c p).

Lemma change_goto : forall s t p, t < length (q_pcs s) -> change s (goto s t p) t p [].
Proof.
  intros s t p L. split; [intro u; now apply pc_goto|]. split; [cbn; now rewrite app_nil_r|].
  intro c. cbn [goto q_pcs]. unfold pc. now apply count_upd.
Qed.

(** the protocol part *)
Lemma proto_change : forall s s' t p es, change s s' t p es -> (forall e, In e es -> actor e = t) ->
  (forall u, protocol (filter (by_thread u) (q_trace s)) (phase_of (pc s u))) ->
  protocol (filter (by_thread t) (q_trace s) ++ es) (phase_of p) ->
  forall u, protocol (filter (by_thread u) (q_trace s')) (phase_of (pc s' u)).
Proof.
  intros s s' t p es (PC & TR & _) ACT H HP u. rewrite PC, TR, filter_app.
  destruct (Nat.eqb_spec u t) as [->|n].
  - replace (filter (by_thread t) es) with es; auto. clear -ACT. induction es as [|e es IH]; cbn; auto.
    rewrite by_actor, (ACT e) by now left. rewrite Nat.eqb_refl. f_equal. apply IH. intros; apply ACT; now right.
  - replace (filter (by_thread u) es) with (@nil (qevent A)); [rewrite app_nil_r; apply H|].
    clear -ACT n. induction es as [|e es IH]; cbn; auto. rewrite by_actor, (ACT e) by now left.
    destruct (Nat.eqb_spec t u); [congruence|]. apply IH. intros; apply ACT; now right.
Qed.

Ltac qcbn := cbn [goto note set_content set_owner set_waiters set_ub q_content q_owner q_waiters q_pcs q_ub q_trace] in *.

(** mutex: thread t keeps what it has *)
Lemma owner_keep : forall s s' t p es, change s s' t p es -> q_owner s' = q_owner s -> holds p = holds (pc s t) ->
  (forall u, holds (pc s u) = true <-> q_owner s = Some u) -> forall u, holds (pc s' u) = true <-> q_owner s' = Some u.
Proof.
  intros s s' t p es (PC & _ & _) O K H u. rewrite PC, O, <- H. destruct (Nat.eqb_spec u t) as [->|n]; [rewrite K|]; tauto.
Qed.
Lemma owner_take : forall s s' t p es, change s s' t p es -> q_owner s' = Some t -> holds p = true -> q_owner s = None ->
  (forall u, holds (pc s u) = true <-> q_owner s = Some u) -> forall u, holds (pc s' u) = true <-> q_owner s' = Some u.
Proof.
  intros s s' t p es (PC & _ & _) O K N H u. rewrite PC, O. destruct (Nat.eqb_spec u t) as [->|n]; [tauto|].
  rewrite H, N. split; congruence.
Qed.
Lemma owner_give : forall s s' t p es, change s s' t p es -> q_owner s' = None -> holds p = false -> q_owner s = Some t ->
  (forall u, holds (pc s u) = true <-> q_owner s = Some u) -> forall u, holds (pc s' u) = true <-> q_owner s' = Some u.
Proof.
  intros s s' t p es (PC & _ & _) O K N H u. rewrite PC, O. destruct (Nat.eqb_spec u t) as [->|n]; [rewrite K; split; discriminate|].
  rewrite H, N. split; congruence.
Qed.

Lemma wait_keep : forall s s' t p es, change s s' t p es -> q_waiters s' = q_waiters s -> p <> Sleep -> pc s t <> Sleep ->
  (forall u, In u (q_waiters s) <-> pc s u = Sleep) -> forall u, In u (q_waiters s') <-> pc s' u = Sleep.
Proof.
  intros s s' t p es (PC & _ & _) W P1 P2 H u. rewrite PC, W, H. destruct (Nat.eqb_spec u t) as [->|n]; tauto.
Qed.
Lemma take_keep : forall s s' t p es, change s s' t p es -> (q_content s <> [] -> q_content s' <> []) ->
  (forall b, p = Take b -> q_content s' <> []) ->
  (forall u b, pc s u = Take b -> q_content s <> []) -> forall u b, pc s' u = Take b -> q_content s' <> [].
Proof.
  intros s s' t p es (PC & _ & _) C P H u b. rewrite PC. destruct (Nat.eqb_spec u t) as [->|n]; [apply P|]. intro E. apply C. eapply H; eauto.
Qed.
Lemma leave_keep : forall s s' t p es, change s s' t p es -> (forall r, p = Leave r true -> r = RUnit) ->
  (forall u r, pc s u = Leave r true -> r = RUnit) -> forall u r, pc s' u = Leave r true -> r = RUnit.
Proof. intros s s' t p es (PC & _ & _) P H u r. rewrite PC. destruct (Nat.eqb_spec u t) as [->|n]; [apply P|apply H]. Qed.

Lemma unlock_own : forall s t, q_owner s = Some t -> unlock s t = set_owner s None.
Proof. intros s t H. unfold unlock. now rewrite H, Nat.eqb_refl. Qed.

Lemma sole_holder : forall s t u, QInv s -> holds (pc s t) = true -> holds (pc s u) = true -> u = t.
Proof. intros s t u I H1 H2. apply (i_owner s I) in H1. apply (i_owner s I) in H2. congruence. Qed.

Lemma existsb_waiter : forall s w, QInv s -> existsb (Nat.eqb w) (q_waiters s) = true -> In w (q_waiters s) /\ pc s w = Sleep.
Proof.
  intros s w I H. apply existsb_exists in H as (x & X & E). apply Nat.eqb_eq in E. subst x. split; auto. now apply (i_wait s I).
Qed.

Lemma NoDup_rm : forall w (l : list nat), NoDup l -> NoDup (remove Nat.eq_dec w l).
Proof.
  induction l as [|x l IH]; cbn; intro H; auto. inversion H; subst. destruct (Nat.eq_dec w x); auto. constructor; auto.
  intro X. apply in_remove in X. tauto.
Qed.

(** a sleeper wakes up *)
Lemma QInv_wake : forall s w, QInv s -> In w (q_waiters s) ->
  QInv (goto (set_waiters s (remove Nat.eq_dec w (q_waiters s))) w Relock).
Proof.
  intros s w I W. pose proof (proj1 (i_wait s I w) W) as PW.
  assert (L : w < length (q_pcs s)) by (apply pc_lt; rewrite PW; discriminate).
  pose (s0 := set_waiters s (remove Nat.eq_dec w (q_waiters s))).
  pose proof (change_goto s0 w Relock L) as C.
  assert (CH : change s (goto s0 w Relock) w Relock []) by exact C. clear C. fold s0.
  constructor.
  - apply I.
  - eapply owner_keep; eauto; [now rewrite PW|apply I].
  - intro u. destruct CH as (PC & _ & _). rewrite PC. cbn [goto set_waiters q_waiters s0]. destruct (Nat.eqb_spec u w) as [->|n].
    + split; [intro X; apply remove_In in X; tauto|discriminate].
    + rewrite <- (i_wait s I u). split; [intro X; apply in_remove in X; tauto|intro X; now apply in_in_remove].
  - cbn. apply NoDup_rm, I.
  - eapply take_keep; eauto; [discriminate|apply I].
  - eapply leave_keep; eauto; [discriminate|apply I].
  - cbn. apply I.
  - eapply proto_change; eauto; [intros e []|apply I|]. rewrite app_nil_r. cbn. specialize (i_proto s I w). rewrite PW. auto.
  - intros _. destruct CH as (_ & _ & CN). pose proof (CN owes) as C1. pose proof (CN coming) as C2. rewrite PW in C1, C2. cbn [owes coming b2n] in C1, C2.
    change (q_content (goto s0 w Relock)) with (q_content s).
    assert (N : q_waiters s <> []) by (intro E; rewrite E in W; destruct W). pose proof (i_wake s I N). lia.
Qed.

Lemma QInv_step : forall s a s', QInv s -> qstep s a = Some s' -> QInv s'.
Proof.
  intros s a s' I E. destruct a as [t o|t|t w|t|w]; cbn [qstep] in E.
  - (* Start *)
    destruct (pc s t) as [l| | | | | | |] eqn:P; try discriminate. destruct (Nat.ltb_spec t (length (q_pcs s))) as [L|L]; [|discriminate].
    injection E as <-.
    assert (CH : change s (goto (note s (Call t o)) t (Lock o)) t (Lock o) [Call t o]).
    { destruct (change_goto (note s (Call t o)) t (Lock o) L) as (C1 & C2 & C3). split; [exact C1|]. split; [reflexivity|exact C3]. }
    constructor.
    + apply I.
    + eapply owner_keep; eauto; [now rewrite P|apply I].
    + eapply wait_keep; eauto; [discriminate|rewrite P; discriminate|apply I].
    + apply I.
    + eapply take_keep; eauto; [discriminate|apply I].
    + eapply leave_keep; eauto; [discriminate|apply I].
    + cbn. constructor. apply I.
    + eapply proto_change; eauto; [intros e [<-|[]]; reflexivity|apply I|]. pose proof (i_proto s I t) as Q. rewrite P in Q. now constructor.
    + intro W. cbn in W. pose proof (i_wake s I W). destruct CH as (_ & _ & CN). pose proof (CN owes) as C1. pose proof (CN coming) as C2. rewrite P in C1, C2. cbn [owes coming b2n] in C1, C2.
      change (q_content _) with (q_content s). lia.
  - (* Step *)
    assert (L : match pc s t with Idle _ => True | _ => t < length (q_pcs s) end).
    { destruct (pc s t) eqn:P; auto; apply pc_lt; rewrite P; discriminate. }
    destruct (pc s t) as [l|o|o| | |b|r nf|] eqn:P; try discriminate.
    + (* Lock *)
      destruct (q_owner s) as [u|] eqn:O; [discriminate|]. injection E as <-.
      assert (CH : change s (goto (set_owner s (Some t)) t (Body o)) t (Body o) []) by exact (change_goto (set_owner s (Some t)) t (Body o) L).
      constructor.
      * apply I.
      * eapply owner_take; eauto; apply I.
      * eapply wait_keep; eauto; [discriminate|rewrite P; discriminate|apply I].
      * apply I.
      * eapply take_keep; eauto; [discriminate|apply I].
      * eapply leave_keep; eauto; [discriminate|apply I].
      * cbn. apply I.
      * eapply proto_change; eauto; [intros e []|apply I|]. pose proof (i_proto s I t) as Q. rewrite P in Q. rewrite app_nil_r. exact Q.
      * intro W. cbn in W. pose proof (i_wake s I W). destruct CH as (_ & _ & CN). pose proof (CN owes) as C1. pose proof (CN coming) as C2. rewrite P in C1, C2. cbn [owes coming b2n] in C1, C2.
        change (q_content _) with (q_content s). destruct o; cbn [b2n] in *; lia.
    + (* Body *)
      injection E as <-. assert (O : q_owner s = Some t) by (apply (i_owner s I); now rewrite P).
      destruct o as [x| | | |]; cbn [body].
      * (* push *)
        set (s' := goto _ _ _).
        assert (CH : change s s' t (Leave RUnit true) [Commit t (OPush x) RUnit]).
        { destruct (change_goto (note (set_content s (q_content s ++ [x])) (Commit t (OPush x) RUnit)) t (Leave RUnit true) L) as (C1 & C2 & C3). split; [exact C1|]. split; [reflexivity|exact C3]. }
        constructor.
        -- apply I.
        -- eapply owner_keep; eauto; [now rewrite P|apply I].
        -- eapply wait_keep; eauto; [discriminate|rewrite P; discriminate|apply I].
        -- apply I.
        -- eapply take_keep; eauto; [|discriminate|apply I]. cbn. intros N X. apply app_eq_nil in X as [X _]. auto.
        -- eapply leave_keep; eauto; [intros r X; congruence|apply I].
        -- cbn. econstructor; [apply I|constructor].
        -- eapply proto_change; eauto; [intros e [<-|[]]; reflexivity|apply I|]. pose proof (i_proto s I t) as Q. rewrite P in Q. now apply pr_commit.
        -- intro W. cbn in W. pose proof (i_wake s I W). destruct CH as (_ & _ & CN). pose proof (CN owes) as C1. pose proof (CN coming) as C2. rewrite P in C1, C2. cbn [owes coming b2n] in C1, C2.
           cbn [q_content s' goto note set_content]. rewrite app_length. cbn [length]. lia.
      * (* wait_and_pop *)
        destruct (q_content s) as [|x l] eqn:CO.
        -- rewrite (unlock_own s t O). set (s' := set_waiters _ _).
           assert (CH : change s s' t Sleep []) by exact (change_goto (set_owner s None) t Sleep L).
           constructor.
           ++ apply I.
           ++ eapply owner_give; eauto; apply I.
           ++ intro u. destruct CH as (PC & _ & _). rewrite PC. cbn [s' set_waiters q_waiters]. destruct (Nat.eqb_spec u t) as [->|n].
              ** split; auto. left. reflexivity.
              ** rewrite <- (i_wait s I u). cbn. split; [intros [X|X]; [congruence|auto]|auto].
           ++ cbn. constructor; [|apply I]. rewrite (i_wait s I), P. discriminate.
           ++ eapply take_keep; eauto; [discriminate|]. intros u b U. exact (i_take s I u b U).
           ++ eapply leave_keep; eauto; [discriminate|apply I].
           ++ cbn. rewrite CO. rewrite <- CO. apply I.
           ++ eapply proto_change; eauto; [intros e []|apply I|]. pose proof (i_proto s I t) as Q. rewrite P in Q. rewrite app_nil_r. exact Q.
           ++ intros _. cbn. rewrite CO. cbn. lia.
        -- assert (CH : change s (goto s t (Take false)) t (Take false) []) by exact (change_goto s t (Take false) L).
           constructor.
           ++ apply I.
           ++ eapply owner_keep; eauto; [now rewrite P|apply I].
           ++ eapply wait_keep; eauto; [discriminate|rewrite P; discriminate|apply I].
           ++ apply I.
           ++ eapply take_keep; eauto; [|apply I]. intros b _. cbn. rewrite CO. discriminate.
           ++ eapply leave_keep; eauto; [discriminate|apply I].
           ++ cbn. apply I.
           ++ eapply proto_change; eauto; [intros e []|apply I|]. pose proof (i_proto s I t) as Q. rewrite P in Q. rewrite app_nil_r. exact Q.
           ++ intro W. cbn in W. pose proof (i_wake s I W). destruct CH as (_ & _ & CN). pose proof (CN owes) as C1. pose proof (CN coming) as C2. rewrite P in C1, C2. cbn [owes coming b2n] in C1, C2.
              change (q_content (goto s t (Take false))) with (q_content s). lia.
      * (* try_and_pop *)
        destruct (q_content s) as [|x l] eqn:CO.
        -- set (s' := goto _ _ _).
           assert (CH : change s s' t (Leave RNone false) [Commit t OTryPop RNone]).
           { destruct (change_goto (note s (Commit t OTryPop RNone)) t (Leave RNone false) L) as (C1 & C2 & C3). split; [exact C1|]. split; [reflexivity|exact C3]. }
           constructor.
           ++ apply I.
           ++ eapply owner_keep; eauto; [now rewrite P|apply I].
           ++ eapply wait_keep; eauto; [discriminate|rewrite P; discriminate|apply I].
           ++ apply I.
           ++ eapply take_keep; eauto; [discriminate|apply I].
           ++ eapply leave_keep; eauto; [discriminate|apply I].
           ++ cbn. econstructor; [apply I|]. rewrite CO. constructor.
           ++ eapply proto_change; eauto; [intros e [<-|[]]; reflexivity|apply I|]. pose proof (i_proto s I t) as Q. rewrite P in Q. now apply pr_commit.
           ++ intro W. cbn. rewrite CO. cbn. lia.
        -- assert (CH : change s (goto s t (Take true)) t (Take true) []) by exact (change_goto s t (Take true) L).
           constructor.
           ++ apply I.
           ++ eapply owner_keep; eauto; [now rewrite P|apply I].
           ++ eapply wait_keep; eauto; [discriminate|rewrite P; discriminate|apply I].
           ++ apply I.
           ++ eapply take_keep; eauto; [|apply I]. intros b _. cbn. rewrite CO. discriminate.
           ++ eapply leave_keep; eauto; [discriminate|apply I].
           ++ cbn. apply I.
           ++ eapply proto_change; eauto; [intros e []|apply I|]. pose proof (i_proto s I t) as Q. rewrite P in Q. rewrite app_nil_r. exact Q.
           ++ intro W. cbn in W. pose proof (i_wake s I W). destruct CH as (_ & _ & CN). pose proof (CN owes) as C1. pose proof (CN coming) as C2. rewrite P in C1, C2. cbn [owes coming b2n] in C1, C2.
              change (q_content (goto s t (Take true))) with (q_content s). lia.
      * (* empty *)
        set (r := RBool _). set (s' := goto _ _ _).
        assert (CH : change s s' t (Leave r false) [Commit t OEmpty r]).
        { destruct (change_goto (note s (Commit t OEmpty r)) t (Leave r false) L) as (C1 & C2 & C3). split; [exact C1|]. split; [reflexivity|exact C3]. }
        constructor.
        -- apply I.
        -- eapply owner_keep; eauto; [now rewrite P|apply I].
        -- eapply wait_keep; eauto; [discriminate|rewrite P; discriminate|apply I].
        -- apply I.
        -- eapply take_keep; eauto; [discriminate|apply I].
        -- eapply leave_keep; eauto; [discriminate|apply I].
        -- cbn. econstructor; [apply I|]. constructor. destruct (q_content s); split; congruence.
        -- eapply proto_change; eauto; [intros e [<-|[]]; reflexivity|apply I|]. pose proof (i_proto s I t) as Q. rewrite P in Q. now apply pr_commit.
        -- intro W. cbn in W. pose proof (i_wake s I W). destruct CH as (_ & _ & CN). pose proof (CN owes) as C1. pose proof (CN coming) as C2. rewrite P in C1, C2. cbn [owes coming b2n] in C1, C2.
           change (q_content s') with (q_content s). lia.
      * (* size *)
        set (r := RNum _). set (s' := goto _ _ _).
        assert (CH : change s s' t (Leave r false) [Commit t OSize r]).
        { destruct (change_goto (note s (Commit t OSize r)) t (Leave r false) L) as (C1 & C2 & C3). split; [exact C1|]. split; [reflexivity|exact C3]. }
        constructor.
        -- apply I.
        -- eapply owner_keep; eauto; [now rewrite P|apply I].
        -- eapply wait_keep; eauto; [discriminate|rewrite P; discriminate|apply I].
        -- apply I.
        -- eapply take_keep; eauto; [discriminate|apply I].
        -- eapply leave_keep; eauto; [discriminate|apply I].
        -- cbn [s' goto note q_trace q_content]. econstructor; [apply I|]. constructor. reflexivity.
        -- eapply proto_change; eauto; [intros e [<-|[]]; reflexivity|apply I|]. pose proof (i_proto s I t) as Q. rewrite P in Q. now apply pr_commit.
        -- intro W. cbn in W. pose proof (i_wake s I W). destruct CH as (_ & _ & CN). pose proof (CN owes) as C1. pose proof (CN coming) as C2. rewrite P in C1, C2. cbn [owes coming b2n] in C1, C2.
           change (q_content s') with (q_content s). lia.
    + (* Relock *)
      destruct (q_owner s) as [u|] eqn:O; [discriminate|]. injection E as <-.
      assert (CH : change s (goto (set_owner s (Some t)) t (Body OPop)) t (Body OPop) []) by exact (change_goto (set_owner s (Some t)) t (Body OPop) L).
      constructor.
      * apply I.
      * eapply owner_take; eauto; apply I.
      * eapply wait_keep; eauto; [discriminate|rewrite P; discriminate|apply I].
      * apply I.
      * eapply take_keep; eauto; [discriminate|apply I].
      * eapply leave_keep; eauto; [discriminate|apply I].
      * cbn. apply I.
      * eapply proto_change; eauto; [intros e []|apply I|]. pose proof (i_proto s I t) as Q. rewrite P in Q. rewrite app_nil_r. exact Q.
      * intro W. cbn in W. pose proof (i_wake s I W). destruct CH as (_ & _ & CN). pose proof (CN owes) as C1. pose proof (CN coming) as C2. rewrite P in C1, C2. cbn [owes coming b2n] in C1, C2.
        change (q_content _) with (q_content s). lia.
    + (* Take *)
      assert (O : q_owner s = Some t) by (apply (i_owner s I); now rewrite P).
      destruct (q_content s) as [|x l] eqn:CO; [exfalso; exact (i_take s I t b P CO)|]. injection E as <-.
      set (o := if b then OTryPop else OPop). set (s' := goto _ _ _).
      assert (CH : change s s' t (Leave (RItem x) false) [Commit t o (RItem x)]).
      { destruct (change_goto (note (set_content s l) (Commit t o (RItem x))) t (Leave (RItem x) false) L) as (C1 & C2 & C3). split; [exact C1|]. split; [reflexivity|exact C3]. }
      constructor.
      * apply I.
      * eapply owner_keep; eauto; [now rewrite P|apply I].
      * eapply wait_keep; eauto; [discriminate|rewrite P; discriminate|apply I].
      * apply I.
      * intros u b' U. exfalso. destruct CH as (PC & _ & _). rewrite PC in U. destruct (Nat.eqb_spec u t) as [->|n]; [discriminate|].
        apply n. apply (sole_holder s); auto; [now rewrite P|now rewrite U].
      * eapply leave_keep; eauto; [discriminate|apply I].
      * cbn. econstructor; [apply I|]. rewrite CO. unfold o. destruct b; constructor.
      * eapply proto_change; eauto; [intros e [<-|[]]; reflexivity|apply I|]. pose proof (i_proto s I t) as Q. rewrite P in Q. cbn [phase_of] in *. now apply (pr_commit _ _ o).
      * intro W. cbn in W. pose proof (i_wake s I W) as K. rewrite CO in K. destruct CH as (_ & _ & CN). pose proof (CN owes) as C1. pose proof (CN coming) as C2. rewrite P in C1, C2. cbn [owes coming b2n] in C1, C2.
        change (q_content s') with l. cbn [length] in K. destruct b; cbn [b2n] in C2; lia.
    + (* Leave *)
      assert (O : q_owner s = Some t) by (apply (i_owner s I); now rewrite P).
      rewrite (unlock_own s t O) in E. destruct nf.
      * injection E as <-. pose proof (i_leave s I t r P) as ->.
        assert (CH : change s (goto (set_owner s None) t Notify) t Notify []) by exact (change_goto (set_owner s None) t Notify L).
        constructor.
        -- apply I.
        -- eapply owner_give; eauto; apply I.
        -- eapply wait_keep; eauto; [discriminate|rewrite P; discriminate|apply I].
        -- apply I.
        -- eapply take_keep; eauto; [discriminate|apply I].
        -- eapply leave_keep; eauto; [discriminate|apply I].
        -- cbn. apply I.
        -- eapply proto_change; eauto; [intros e []|apply I|]. pose proof (i_proto s I t) as Q. rewrite P in Q. rewrite app_nil_r. exact Q.
        -- intro W. cbn in W. pose proof (i_wake s I W). destruct CH as (_ & _ & CN). pose proof (CN owes) as C1. pose proof (CN coming) as C2. rewrite P in C1, C2. cbn [owes coming b2n] in C1, C2.
           change (q_content (goto (set_owner s None) t Notify)) with (q_content s). lia.
      * injection E as <-.
        assert (CH : change s (ret (set_owner s None) t r) t (Idle (Some r)) [Ret t r]).
        { destruct (change_goto (note (set_owner s None) (Ret t r)) t (Idle (Some r)) L) as (C1 & C2 & C3). split; [exact C1|]. split; [reflexivity|exact C3]. }
        constructor.
        -- apply I.
        -- eapply owner_give; eauto; apply I.
        -- eapply wait_keep; eauto; [discriminate|rewrite P; discriminate|apply I].
        -- apply I.
        -- eapply take_keep; eauto; [discriminate|apply I].
        -- eapply leave_keep; eauto; [discriminate|apply I].
        -- cbn. constructor. apply I.
        -- eapply proto_change; eauto; [intros e [<-|[]]; reflexivity|apply I|]. pose proof (i_proto s I t) as Q. rewrite P in Q. now apply pr_ret.
        -- intro W. cbn in W. pose proof (i_wake s I W). destruct CH as (_ & _ & CN). pose proof (CN owes) as C1. pose proof (CN coming) as C2. rewrite P in C1, C2. cbn [owes coming b2n] in C1, C2.
           change (q_content (ret (set_owner s None) t r)) with (q_content s). lia.
  - (* Wake *)
    destruct (pc s t) eqn:P; try discriminate. destruct (existsb (Nat.eqb w) (q_waiters s)) eqn:X; [|discriminate]. injection E as <-.
    destruct (existsb_waiter s w I X) as [WI PW]. assert (NE : w <> t) by congruence.
    assert (L : t < length (q_pcs s)) by (apply pc_lt; rewrite P; discriminate).
    assert (LW : w < length (q_pcs s)) by (apply pc_lt; rewrite PW; discriminate).
    pose proof (QInv_wake s w I WI) as J.
    destruct (change_goto (set_waiters s (remove Nat.eq_dec w (q_waiters s))) w Relock LW) as (_ & _ & CW0).
    set (s1 := goto (set_waiters s (remove Nat.eq_dec w (q_waiters s))) w Relock) in *.
    assert (P1 : pc s1 t = Notify).
    { unfold s1. rewrite pc_goto by exact LW. destruct (Nat.eqb_spec t w); [congruence|exact P]. }
    assert (L1 : t < length (q_pcs s1)) by (unfold s1; cbn; rewrite upd_length; exact L).
    assert (CH : change s1 (ret s1 t RUnit) t (Idle (Some RUnit)) [Ret t RUnit]).
    { destruct (change_goto (note s1 (Ret t RUnit)) t (Idle (Some RUnit)) L1) as (C1 & C2 & C3). split; [exact C1|]. split; [reflexivity|exact C3]. }
    constructor.
    + apply J.
    + eapply owner_keep; eauto; [now rewrite P1|apply J].
    + eapply wait_keep; eauto; [discriminate|rewrite P1; discriminate|apply J].
    + apply J.
    + eapply take_keep; eauto; [discriminate|apply J].
    + eapply leave_keep; eauto; [discriminate|apply J].
    + cbn [ret goto note q_trace q_content]. constructor. apply J.
    + eapply proto_change; eauto; [intros e [<-|[]]; reflexivity|apply J|]. pose proof (i_proto s1 J t) as Q. rewrite P1 in Q. now apply pr_ret.
    + intros _. assert (N : q_waiters s <> []) by (intro Z; rewrite Z in WI; destruct WI). pose proof (i_wake s I N).
      destruct CH as (_ & _ & CN). pose proof (CN owes) as C1. pose proof (CN coming) as C2. rewrite P1 in C1, C2.
      pose proof (CW0 owes) as D1. pose proof (CW0 coming) as D2. change (pc (set_waiters s (remove Nat.eq_dec w (q_waiters s))) w) with (pc s w) in D1, D2. rewrite PW in D1, D2.
      cbn [owes coming b2n] in C1, C2, D1, D2. change (q_content (ret s1 t RUnit)) with (q_content s). cbn [set_waiters q_pcs] in D1, D2. lia.
  - (* NoWake *)
    destruct (pc s t) eqn:P; try discriminate. destruct (q_waiters s) eqn:W; [|discriminate]. injection E as <-.
    assert (L : t < length (q_pcs s)) by (apply pc_lt; rewrite P; discriminate).
    assert (CH : change s (ret s t RUnit) t (Idle (Some RUnit)) [Ret t RUnit]).
    { destruct (change_goto (note s (Ret t RUnit)) t (Idle (Some RUnit)) L) as (C1 & C2 & C3). split; [exact C1|]. split; [reflexivity|exact C3]. }
    constructor.
    + apply I.
    + eapply owner_keep; eauto; [now rewrite P|apply I].
    + eapply wait_keep; eauto; [discriminate|rewrite P; discriminate|apply I].
    + apply I.
    + eapply take_keep; eauto; [discriminate|apply I].
    + eapply leave_keep; eauto; [discriminate|apply I].
    + cbn. constructor. apply I.
    + eapply proto_change; eauto; [intros e [<-|[]]; reflexivity|apply I|]. pose proof (i_proto s I t) as Q. rewrite P in Q. now apply pr_ret.
    + intro N. exfalso. cbn in N. auto.
  - (* Spurious *)
    destruct (existsb (Nat.eqb w) (q_waiters s)) eqn:X; [|discriminate]. injection E as <-.
    destruct (existsb_waiter s w I X) as [WI PW]. now apply QInv_wake.
Qed.

Lemma QInv_reach : forall n s, qreach n s -> QInv s.
Proof. intros n s R. induction R as [|s a s' R IH E]; [apply QInv_init|eapply QInv_step; eauto]. Qed.

(** ** progress *)
Definition weight p : nat :=
  match p with
  | Idle _ => 0 | Sleep => 0
  | Lock _ => 9 | Body _ => 8 | Relock => 9 | Take _ => 7
  | Leave _ true => 11 | Leave _ false => 1 | Notify => 10
  end.
(** Body (OPush _) needs more *)
Definition weight' p : nat :=
  match p with
  | Lock (OPush _) => 13 | Body (OPush _) => 12 | _ => weight p
  end.
Definition measure s : nat := weigh weight' (q_pcs s).

(** what the threads do by themselves *)
Definition internal (a : qaction A) : bool := match a with Step _ | Wake _ _ | NoWake _ => true | _ => false end.

Lemma measure_goto : forall s t p, t < length (q_pcs s) -> measure (goto s t p) + weight' (pc s t) = measure s + weight' p.
Proof. intros. unfold measure, pc. cbn [goto q_pcs]. now apply weigh_upd. Qed.

Lemma internal_decreases : forall s a s', QInv s -> qstep s a = Some s' -> internal a = true -> measure s' < measure s.
Proof.
  intros s a s' I E IN. destruct a as [t o|t|t w|t|w]; try discriminate; cbn [qstep] in E.
  - assert (L : match pc s t with Idle _ => True | _ => t < length (q_pcs s) end).
    { destruct (pc s t) eqn:P; auto; apply pc_lt; rewrite P; discriminate. }
    destruct (pc s t) as [l|o|o| | |b|r nf|] eqn:P; try discriminate.
    + destruct (q_owner s) as [u|] eqn:O; [discriminate|]. injection E as <-.
      pose proof (measure_goto (set_owner s (Some t)) t (Body o) L) as M. change (pc (set_owner s (Some t)) t) with (pc s t) in M. rewrite P in M.
      change (measure (set_owner s (Some t))) with (measure s) in M. destruct o; cbn [weight' weight] in M; lia.
    + injection E as <-. assert (O : q_owner s = Some t) by (apply (i_owner s I); now rewrite P).
      assert (G : forall s0 p, q_pcs s0 = q_pcs s -> weight' p < weight' (Body o) -> measure (goto s0 t p) < measure s).
      { intros s0 p E W. pose proof (measure_goto s0 t p ltac:(now rewrite E)) as M. unfold pc in M. rewrite E in M. fold (pc s t) in M. rewrite P in M.
        unfold measure in *. rewrite E in M. lia. }
      destruct o as [x| | | |]; cbn [body]; try (apply G; [reflexivity|cbn; lia]).
      * destruct (q_content s); [rewrite (unlock_own s t O); apply (G (set_owner s None) Sleep)|apply G]; try reflexivity; cbn; lia.
      * destruct (q_content s); apply G; try reflexivity; cbn; lia.
    + destruct (q_owner s) as [u|] eqn:O; [discriminate|]. injection E as <-.
      pose proof (measure_goto (set_owner s (Some t)) t (Body OPop) L) as M. change (pc (set_owner s (Some t)) t) with (pc s t) in M. rewrite P in M.
      change (measure (set_owner s (Some t))) with (measure s) in M. cbn [weight' weight] in M; lia.
    + destruct (q_content s) as [|x l] eqn:CO; [exfalso; exact (i_take s I t b P CO)|]. injection E as <-.
      match goal with |- measure (goto ?s0 t ?p) < _ => pose proof (measure_goto s0 t p L) as M; change (pc s0 t) with (pc s t) in M; change (measure s0) with (measure s) in M end.
      rewrite P in M. cbn [weight' weight] in M. lia.
    + assert (O : q_owner s = Some t) by (apply (i_owner s I); now rewrite P). rewrite (unlock_own s t O) in E.
      destruct nf; injection E as <-; [|unfold ret];
      match goal with |- measure (goto ?s0 t ?p) < _ => pose proof (measure_goto s0 t p L) as M; change (pc s0 t) with (pc s t) in M; change (measure s0) with (measure s) in M end;
      rewrite P in M; cbn [weight' weight] in M; lia.
  - destruct (pc s t) eqn:P; try discriminate. destruct (existsb (Nat.eqb w) (q_waiters s)) eqn:X; [|discriminate]. injection E as <-.
    destruct (existsb_waiter s w I X) as [WI PW].
    assert (L : t < length (q_pcs s)) by (apply pc_lt; rewrite P; discriminate).
    assert (LW : w < length (q_pcs s)) by (apply pc_lt; rewrite PW; discriminate).
    pose proof (measure_goto (set_waiters s (remove Nat.eq_dec w (q_waiters s))) w Relock LW) as M1.
    change (pc (set_waiters s (remove Nat.eq_dec w (q_waiters s))) w) with (pc s w) in M1. change (measure (set_waiters s (remove Nat.eq_dec w (q_waiters s)))) with (measure s) in M1. rewrite PW in M1.
    set (s1 := goto (set_waiters s (remove Nat.eq_dec w (q_waiters s))) w Relock) in *.
    assert (P1 : pc s1 t = Notify).
    { unfold s1. rewrite pc_goto by exact LW. destruct (Nat.eqb_spec t w); [congruence|exact P]. }
    assert (L1 : t < length (q_pcs s1)) by (unfold s1; cbn; rewrite upd_length; exact L).
    pose proof (measure_goto (note s1 (Ret t RUnit)) t (Idle (Some RUnit)) L1) as M2. change (pc (note s1 (Ret t RUnit)) t) with (pc s1 t) in M2. change (measure (note s1 (Ret t RUnit))) with (measure s1) in M2.
    rewrite P1 in M2. cbn [weight' weight] in M1, M2. unfold ret. lia.
  - destruct (pc s t) eqn:P; try discriminate. destruct (q_waiters s) eqn:W; [|discriminate]. injection E as <-.
    assert (L : t < length (q_pcs s)) by (apply pc_lt; rewrite P; discriminate).
    pose proof (measure_goto (note s (Ret t RUnit)) t (Idle (Some RUnit)) L) as M. change (pc (note s (Ret t RUnit)) t) with (pc s t) in M. change (measure (note s (Ret t RUnit))) with (measure s) in M.
    rewrite P in M. cbn [weight' weight] in M. unfold ret. lia.
Qed.

(** when nothing can move by itself, nobody is in the middle of anything *)
Lemma stuck_pcs : forall s, QInv s -> (forall a s', qstep s a = Some s' -> internal a = false) ->
  forall t, pc s t = Sleep \/ exists l, pc s t = Idle l.
Proof.
  intros s I ST.
  assert (NH : q_owner s = None).
  { destruct (q_owner s) as [u|] eqn:O; auto. exfalso. apply (i_owner s I) in O as H. destruct (pc s u) as [l|o|o| | |b|r nf|] eqn:P; try discriminate.
    - assert (X : qstep s (Step u) = Some (body s u o)) by (cbn; now rewrite P). apply ST in X. discriminate.
    - destruct (q_content s) as [|x l] eqn:C; [exact (i_take s I u b P C)|].
      assert (X : exists s', qstep s (Step u) = Some s') by (cbn; rewrite P, C; eauto). destruct X as [s' X]. apply ST in X. discriminate.
    - assert (X : exists s', qstep s (Step u) = Some s') by (cbn; rewrite P; eauto). destruct X as [s' X]. apply ST in X. discriminate. }
  intro t. destruct (pc s t) as [l|o|o| | |b|r nf|] eqn:P; eauto; exfalso.
  - assert (X : exists s', qstep s (Step t) = Some s') by (cbn; rewrite P, NH; eauto). destruct X as [s' X]. apply ST in X. discriminate.
  - assert (H : holds (pc s t) = true) by now rewrite P. apply (i_owner s I) in H. congruence.
  - assert (X : exists s', qstep s (Step t) = Some s') by (cbn; rewrite P, NH; eauto). destruct X as [s' X]. apply ST in X. discriminate.
  - assert (H : holds (pc s t) = true) by now rewrite P. apply (i_owner s I) in H. congruence.
  - assert (H : holds (pc s t) = true) by now rewrite P. apply (i_owner s I) in H. congruence.
  - destruct (q_waiters s) as [|w l] eqn:W.
    + assert (X : exists s', qstep s (NoWake t) = Some s') by (cbn; rewrite P, W; eauto). destruct X as [s' X]. apply ST in X. discriminate.
    + assert (X : exists s', qstep s (Wake t w) = Some s') by (cbn; rewrite P, W; cbn; rewrite Nat.eqb_refl; cbn; eauto). destruct X as [s' X]. apply ST in X. discriminate.
Qed.

Lemma stuck_empty : forall s, QInv s -> (forall a s', qstep s a = Some s' -> internal a = false) ->
  forall t, pc s t = Sleep -> q_content s = [].
Proof.
  intros s I ST t P. pose proof (stuck_pcs s I ST) as Q. apply (i_wait s I) in P as W.
  assert (N : q_waiters s <> []) by (intro E; rewrite E in W; destruct W). pose proof (i_wake s I N) as K.
  assert (Z : forall c : qpc A -> bool, (forall l, c (Idle l) = false) -> c Sleep = false -> count c (q_pcs s) = 0).
  { intros c C1 C2. destruct (count c (q_pcs s)) eqn:E; auto. destruct (count_pos (Idle None) c (q_pcs s)) as (u & _ & U); [lia|].
    fold (pc s u) in U. destruct (Q u) as [X|[l X]]; rewrite X in U; congruence. }
  rewrite !Z in K by reflexivity. destruct (q_content s); auto. cbn in K. lia.
Qed.

(** FIFO *)
Lemma sequential_fifo : forall tr (l : list A), sequential tr l -> pushed tr = popped tr ++ l.
Proof.
  intros tr l H. unfold pushed, popped. induction H as [|tr l t o r l' H IH AT|tr l t o H IH|tr l t r H IH]; auto;
    rewrite !flat_map_app, IH; cbn [flat_map]; rewrite ?app_nil_r; auto.
  destruct AT; cbn; rewrite ?app_nil_r, <- ?app_assoc; auto.
Qed.
End Facts.
