(** Progress of the operations of a shared_queue. *)
From Coq Require Import List Arith NArith Bool Lia.
From Verif.Base Require Import Threads.
From Verif.Model Require Import SharedQueue.
From Verif.Spec Require Import QueueSpec QueueFairSpec.
From Verif.Proofs Require Import QueueFacts.
Import ListNotations.

Section Facts.
Context {A : Type}.
Implicit Types (s : qstate A) (p : qpc A) (o : qop A).

(** the steps, thread by thread *)
Lemma pcs_len : forall s a s', qstep s a = Some s' -> length (q_pcs s') = length (q_pcs s).
Proof.
  intros s a s' E. destruct a as [t o|t|t w|t|w]; cbn [qstep] in E.
  - destruct (pc s t); try discriminate. destruct (Nat.ltb _ _); [|discriminate]. injection E as <-. cbn. apply upd_length.
  - destruct (pc s t) as [l|o|o| | |b|r b|] eqn:P; try discriminate.
    + destruct (q_owner s); [discriminate|]. injection E as <-. cbn. apply upd_length.
    + injection E as <-. unfold body, unlock. destruct o; try destruct (q_content s); cbn; try apply upd_length.
      destruct (match q_owner s with Some u => _ | None => _ end); cbn; apply upd_length.
    + destruct (q_owner s); [discriminate|]. injection E as <-. cbn. apply upd_length.
    + destruct (q_content s); injection E as <-; cbn; auto. apply upd_length.
    + injection E as <-. unfold unlock. destruct b, (match q_owner s with Some u => _ | None => _ end); cbn; apply upd_length.
  - destruct (pc s t); try discriminate. destruct (existsb _ _); [|discriminate]. injection E as <-. cbn. now rewrite !upd_length.
  - destruct (pc s t); try discriminate. destruct (q_waiters s); [|discriminate]. injection E as <-. cbn. apply upd_length.
  - destruct (existsb _ _); [|discriminate]. injection E as <-. cbn. apply upd_length.
Qed.

(** where thread t can be after a step, and what the step did *)
Inductive moves s (t : nat) : qaction A -> qstate A -> Prop :=
| mv_start : forall o s' (r : option (qres A)), pc s t = Idle r -> pc s' t = Lock o -> q_content s' = q_content s -> q_owner s' = q_owner s -> popped (q_trace s') = popped (q_trace s) -> moves s t (Start t o) s'
| mv_lock : forall o s', pc s t = Lock o -> pc s' t = Body o -> q_content s' = q_content s -> popped (q_trace s') = popped (q_trace s) -> moves s t (Step t) s'
| mv_relock : forall s', pc s t = Relock -> pc s' t = Body OPop -> q_content s' = q_content s -> popped (q_trace s') = popped (q_trace s) -> moves s t (Step t) s'
| mv_sleep : forall s', pc s t = Body OPop -> q_content s = [] -> pc s' t = Sleep -> q_owner s' = None -> q_content s' = [] -> popped (q_trace s') = popped (q_trace s) -> moves s t (Step t) s'
| mv_take : forall (b : bool) s', pc s t = Body (if b then OTryPop else OPop) -> q_content s <> [] -> pc s' t = Take b -> q_content s' = q_content s -> popped (q_trace s') = popped (q_trace s) -> moves s t (Step t) s'
| mv_body : forall o r b l s', pc s t = Body o -> o <> OPop -> pc s' t = Leave r b -> q_content s' = q_content s ++ l -> popped (q_trace s') = popped (q_trace s) -> moves s t (Step t) s'
| mv_taken : forall b x s', pc s t = Take b -> q_content s = x :: q_content s' -> pc s' t = Leave (RItem x) false -> popped (q_trace s') = popped (q_trace s) ++ [x] -> moves s t (Step t) s'
| mv_leave : forall r s', pc s t = Leave r false -> pc s' t = Idle (Some r) -> q_owner s' = None -> q_content s' = q_content s -> popped (q_trace s') = popped (q_trace s) -> moves s t (Step t) s'
| mv_leave' : forall r s', pc s t = Leave r true -> pc s' t = Notify -> q_owner s' = None -> q_content s' = q_content s -> popped (q_trace s') = popped (q_trace s) -> moves s t (Step t) s'
| mv_wake : forall w s', pc s t = Notify -> pc s w = Sleep -> pc s' t = Idle (Some RUnit) -> pc s' w = Relock -> q_content s' = q_content s -> popped (q_trace s') = popped (q_trace s) -> moves s t (Wake t w) s'
| mv_nowake : forall s', pc s t = Notify -> q_waiters s = [] -> pc s' t = Idle (Some RUnit) -> q_content s' = q_content s -> popped (q_trace s') = popped (q_trace s) -> moves s t (NoWake t) s'
| mv_spurious : forall s', pc s t = Sleep -> pc s' t = Relock -> q_content s' = q_content s -> popped (q_trace s') = popped (q_trace s) -> moves s t (Spurious t) s'.
(** the thread that acts *)
Definition doer (a : qaction A) : nat := match a with Start t _ | Step t | Wake t _ | NoWake t => t | Spurious w => w end.
(** the threads whose state an action changes *)
Definition touched (t : nat) (a : qaction A) : bool := Nat.eqb t (doer a) || match a with Wake _ w => Nat.eqb t w | _ => false end.

Lemma popped_snoc : forall (tr : list (qevent A)) e, popped (tr ++ [e]) = popped tr ++ popped [e].
Proof. intros. unfold popped. now rewrite flat_map_app. Qed.

Ltac here L := unfold pc, ret; cbn [goto note set_content set_owner set_waiters q_pcs]; apply get_upd_same; rewrite ?upd_length; exact L.
Ltac flds := cbn [goto note set_content set_owner set_waiters ret q_content q_owner q_trace q_pcs].
Ltac nopop := unfold ret; flds; rewrite popped_snoc; cbn; rewrite ?app_nil_r; reflexivity.
Lemma step_moves : forall s a s', QInv s -> qstep s a = Some s' -> moves s (doer a) a s'.
Proof.
  intros s a s' I E. destruct a as [t o|t|t w|t|w]; cbn [qstep doer] in *.
  - destruct (pc s t) as [l|o'|o'| | |b|r b|] eqn:P; try discriminate. destruct (Nat.ltb_spec t (length (q_pcs s))) as [L|L]; [|discriminate]. injection E as <-.
    eapply mv_start; [exact P|..]; flds; auto.
    + here L.
    + nopop.
  - destruct (pc s t) as [l|o|o| | |b|r b|] eqn:P; try discriminate.
    all: assert (L : t < length (q_pcs s)) by (apply pc_lt; intro; rewrite P; discriminate).
    + destruct (q_owner s); [discriminate|]. injection E as <-. eapply mv_lock; [exact P|..]; auto. here L.
    + assert (O : q_owner s = Some t) by (apply (i_owner s I); rewrite P; reflexivity). injection E as <-. unfold body. destruct o.
      * eapply mv_body with (l := [x]); [exact P|discriminate|..]; flds; auto; [here L|]. nopop.
      * destruct (q_content s) as [|x l] eqn:C.
        -- apply mv_sleep; auto; rewrite (unlock_own s t O); flds; auto. unfold pc; cbn [set_waiters goto set_owner q_pcs]. now apply get_upd_same.
        -- apply mv_take with (b := false); auto; [congruence|]. here L.
      * destruct (q_content s) as [|x l] eqn:C.
        -- eapply mv_body with (l := []); [exact P|discriminate|..]; flds; auto; [here L|now rewrite C|]. nopop.
        -- apply mv_take with (b := true); auto; [congruence|]. here L.
      * eapply mv_body with (l := []); [exact P|discriminate|..]; flds; auto; [here L|now rewrite app_nil_r|]. nopop.
      * eapply mv_body with (l := []); [exact P|discriminate|..]; flds; auto; [here L|now rewrite app_nil_r|]. nopop.
    + destruct (q_owner s); [discriminate|]. injection E as <-. eapply mv_relock; auto. here L.
    + destruct (q_content s) as [|x l] eqn:C; [exfalso; eapply (i_take s I); eauto|]. injection E as <-. eapply mv_taken; [exact P|..]; flds; [exact C|..].
      * here L.
      * nopop.
    + assert (O : q_owner s = Some t) by (apply (i_owner s I); rewrite P; reflexivity). injection E as <-. rewrite (unlock_own s t O). destruct b.
      * eapply mv_leave'; [exact P|..]; auto. here L.
      * eapply mv_leave; [exact P|..]; flds; auto. { here L. }
        nopop.
  - destruct (pc s t) eqn:P; try discriminate. assert (L : t < length (q_pcs s)) by (apply pc_lt; intro; rewrite P; discriminate).
    destruct (existsb _ _) eqn:X; [|discriminate]. destruct (existsb_waiter s w I X) as [_ W]. assert (LW : w < length (q_pcs s)) by (apply pc_lt; intro; rewrite W; discriminate).
    assert (N : t <> w) by congruence. injection E as <-. apply mv_wake; auto; unfold ret, pc; cbn [goto note set_waiters q_pcs q_trace].
    + apply get_upd_same. now rewrite upd_length.
    + rewrite get_upd_other by auto. now apply get_upd_same.
    + nopop.
  - destruct (pc s t) eqn:P; try discriminate. assert (L : t < length (q_pcs s)) by (apply pc_lt; intro; rewrite P; discriminate).
    destruct (q_waiters s) eqn:W; [|discriminate]. injection E as <-. apply mv_nowake; auto; flds.
    + here L.
    + nopop.
  - destruct (existsb _ _) eqn:X; [|discriminate]. destruct (existsb_waiter s w I X) as [_ W]. assert (LW : w < length (q_pcs s)) by (apply pc_lt; intro; rewrite W; discriminate).
    injection E as <-. apply mv_spurious; auto. unfold pc; cbn [goto set_waiters q_pcs]. now apply get_upd_same.
Qed.
Lemma untouched : forall s a s' u, qstep s a = Some s' -> touched u a = false -> pc s' u = pc s u.
Proof.
  intros s a s' u E T. unfold touched in T. apply orb_false_iff in T as [T T']. apply Nat.eqb_neq in T.
  assert (G : forall s0 t p, u <> t -> pc (goto s0 t p) u = pc s0 u) by (intros; unfold pc; cbn [goto q_pcs]; now apply get_upd_other).
  assert (N : forall s0 e, pc (note s0 e) u = pc s0 u) by reflexivity.
  destruct a as [t o|t|t w|t|w]; cbn [qstep doer] in *.
  - destruct (pc s t); try discriminate. destruct (Nat.ltb _ _); [|discriminate]. injection E as <-. now rewrite G.
  - destruct (pc s t) as [l|o|o| | |b|r b|] eqn:P; try discriminate.
    + destruct (q_owner s); [discriminate|]. injection E as <-. now rewrite G.
    + injection E as <-. unfold body, unlock. destruct o; try destruct (q_content s); try (now rewrite G).
      destruct (match q_owner s with Some _ => _ | None => _ end); unfold pc; cbn [set_waiters goto set_owner set_ub q_pcs]; now rewrite get_upd_other.
    + destruct (q_owner s); [discriminate|]. injection E as <-. now rewrite G.
    + destruct (q_content s); injection E as <-; auto. now rewrite G.
    + injection E as <-. unfold unlock, ret. destruct b, (match q_owner s with Some _ => _ | None => _ end); rewrite G; auto.
  - destruct (pc s t); try discriminate. destruct (existsb _ _); [|discriminate]. injection E as <-. apply Nat.eqb_neq in T'. unfold ret. rewrite G by auto. rewrite N, G by auto. reflexivity.
  - destruct (pc s t); try discriminate. destruct (q_waiters s); [|discriminate]. injection E as <-. unfold ret. now rewrite G.
  - destruct (existsb _ _); [|discriminate]. injection E as <-. now rewrite G.
Qed.

Variables (n : nat) (ex : nat -> qstate A) (ac : nat -> option (qaction A)).
Hypothesis EX : q_execution n ex ac.

Lemma ex_reach : forall i, qreach n (ex i).
Proof.
  induction i as [|i IH].
  - rewrite (qex_start _ _ _ EX). constructor.
  - pose proof (qex_next _ _ _ EX i) as N. destruct (ac i) as [a|]; [econstructor; eauto|now rewrite N].
Qed.
Lemma ex_inv : forall i, QInv (ex i).
Proof. intro i. eapply QInv_reach, ex_reach. Qed.

(** a thread that is not asleep and does not act stays where it is *)
Definition acts (t i : nat) : bool := match ac i with Some a => Nat.eqb (doer a) t | None => false end.
Lemma stays : forall t i, acts t i = false -> pc (ex i) t <> Sleep -> pc (ex (S i)) t = pc (ex i) t.
Proof.
  intros t i H S. pose proof (qex_next _ _ _ EX i) as N. unfold acts in H. destruct (ac i) as [a|] eqn:E; [|now rewrite N].
  destruct (touched t a) eqn:T; [|eapply untouched; eauto]. exfalso. unfold touched in T. rewrite Nat.eqb_sym, H in T. cbn in T.
  destruct a as [| |u w| |]; try discriminate. apply Nat.eqb_eq in T as <-. pose proof (step_moves _ _ _ (ex_inv i) N) as M. inversion M; subst; congruence.
Qed.
(** it stays there until it acts *)
Lemma until : forall (D : qpc A -> bool) t d i, D (pc (ex i) t) = true -> D Sleep = false -> D (pc (ex (i + d)) t) = false ->
  exists m, i <= m < i + d /\ pc (ex m) t = pc (ex i) t /\ acts t m = true.
Proof.
  intros D t. induction d as [|d IH]; intros i HD HS HE; [rewrite Nat.add_0_r in HE; congruence|].
  destruct (acts t i) eqn:X; [exists i; repeat split; auto; lia|].
  assert (E : pc (ex (S i)) t = pc (ex i) t) by (apply stays; auto; intro Z; rewrite Z in HD; congruence).
  destruct (IH (S i)) as (m & L & P & Y); [now rewrite E|exact HS|now replace (S i + d) with (i + S d) by lia|]. exists m. rewrite <- E. repeat split; auto; lia.
Qed.
(** what the thread does then *)
Lemma acts_moves : forall t i, acts t i = true -> exists a, ac i = Some a /\ moves (ex i) t a (ex (S i)).
Proof.
  intros t i H. unfold acts in H. pose proof (qex_next _ _ _ EX i) as N. destruct (ac i) as [a|]; [|discriminate]. apply Nat.eqb_eq in H as <-.
  exists a. split; auto. apply step_moves; auto. apply ex_inv.
Qed.

Hypothesis FAIR : forall t, q_fair_to ex ac t.
(** a thread that holds the mutex, or is to notify, goes on *)
Definition going p : bool := match p with Body _ | Take _ | Leave _ _ | Notify => true | _ => false end.
Lemma going_enabled : forall s t, going (pc s t) = true -> exists a s', q_step_of t a = true /\ qstep s a = Some s'.
Proof.
  intros s t G. destruct (pc s t) as [l|o|o| | |b|r b|] eqn:P; try discriminate.
  - exists (Step t). cbn. rewrite P, Nat.eqb_refl. eauto.
  - exists (Step t). cbn. rewrite P, Nat.eqb_refl. destruct (q_content s); eauto.
  - exists (Step t). cbn. rewrite P, Nat.eqb_refl. eauto.
  - destruct (q_waiters s) as [|w l] eqn:W.
    + exists (NoWake t). cbn. rewrite P, W, Nat.eqb_refl. eauto.
    + exists (Wake t w). cbn. rewrite P, W. cbn. rewrite !Nat.eqb_refl. cbn. eauto.
Qed.
Lemma goes_on : forall t i, going (pc (ex i) t) = true -> exists m, i <= m /\ pc (ex m) t = pc (ex i) t /\ acts t m = true.
Proof.
  intros t i G. destruct (FAIR t i) as (m & LE & F).
  assert (W : forall d j, going (pc (ex j) t) = true -> (exists m', j <= m' < j + d /\ pc (ex m') t = pc (ex j) t /\ acts t m' = true) \/ pc (ex (j + d)) t = pc (ex j) t).
  { induction d as [|d IH]; intros j H; [right; now rewrite Nat.add_0_r|]. destruct (acts t j) eqn:X; [left; exists j; repeat split; auto; lia|].
    assert (E : pc (ex (S j)) t = pc (ex j) t) by (apply stays; auto; intro Z; rewrite Z in H; discriminate).
    destruct (IH (S j)) as [(m' & L & P & Y)|P]; [now rewrite E|left|right].
    - exists m'. rewrite <- E. repeat split; auto; lia.
    - now replace (j + S d) with (S j + d) by lia; rewrite P. }
  destruct (W (m - i) i G) as [(m' & L & P & Y)|P]; [exists m'; repeat split; auto; lia|]. replace (i + (m - i)) with m in P by lia.
  exists m. repeat split; auto. destruct F as [(a & E & O)|F].
  - unfold acts. rewrite E. destruct a; cbn in *; auto; discriminate.
  - exfalso. rewrite <- P in G. destruct (going_enabled _ _ G) as (a & s' & O & X). rewrite (F a O) in X. discriminate.
Qed.

(** the mutex becomes free *)
Definition toend p : nat := match p with Body _ => 3 | Take _ => 2 | Leave _ _ => 1 | _ => 0 end.
Lemma releases : forall k t i, q_owner (ex i) = Some t -> toend (pc (ex i) t) <= k -> exists m, i <= m /\ q_owner (ex m) = None.
Proof.
  induction k as [|k IH]; intros t i O K; pose proof (proj2 (i_owner _ (ex_inv i) t) O) as H.
  - destruct (pc (ex i) t); cbn in *; try discriminate; lia.
  - destruct (goes_on t i) as (m & LE & P & Y); [destruct (pc (ex i) t); auto; discriminate|]. destruct (acts_moves t m Y) as (a & E & M).
    assert (R : toend (pc (ex (S m)) t) <= k -> holds (pc (ex (S m)) t) = true -> exists m', i <= m' /\ q_owner (ex m') = None).
    { intros H1 H2. destruct (IH t (S m)) as (m' & L & N); [now apply (i_owner _ (ex_inv (S m)))|exact H1|]. exists m'. split; auto. lia. }
    inversion M as [o s' r P0|o s' P0|s' P0|s' P0 C0 P1 O1|b s' P0 C0 P1|o r b l s' P0 NO P1|b x s' P0 C0 P1|r s' P0 P1 O1|r s' P0 P1 O1|w s' P0|s' P0|s' P0]; subst; rewrite P in P0; rewrite P0 in H, K; try discriminate.
    all: try (exists (S m); split; [lia|assumption]).
    all: apply R; rewrite P1; cbn in *; auto; lia.
Qed.
Lemma free_again : forall j, exists m, j <= m /\ q_owner (ex m) = None.
Proof.
  intro j. destruct (q_owner (ex j)) as [t|] eqn:O; [|exists j; auto]. now apply (releases _ t j O (le_n _)).
Qed.

Hypothesis MUTEX : mutex_fair ex.
(** a thread that wants the mutex gets it *)
Lemma gets_mutex : forall t i, wants (pc (ex i) t) = true -> exists m, i <= m /\ pc (ex m) t = pc (ex i) t /\ acts t m = true.
Proof.
  intros t i W. destruct (MUTEX free_again t i) as (m & LE & F). destruct (until wants t (m - i) i W eq_refl) as (m' & L & P & Y).
  - now replace (i + (m - i)) with m by lia.
  - exists m'. repeat split; auto; lia.
Qed.
(** any thread in the middle of an operation goes on, unless it sleeps *)
Lemma proceeds : forall t i, (forall r, pc (ex i) t <> Idle r) -> pc (ex i) t <> Sleep -> exists m, i <= m /\ pc (ex m) t = pc (ex i) t /\ acts t m = true.
Proof.
  intros t i NI NS. destruct (pc (ex i) t) eqn:P; try congruence; rewrite <- P; try (apply gets_mutex; rewrite P; reflexivity); try (apply goes_on; rewrite P; reflexivity).
Qed.

(** ** operations other than wait_and_pop return *)
Definition left_ p : nat := match p with Idle _ => 0 | Notify => 1 | Leave _ _ => 2 | Take _ => 3 | Body _ => 4 | Lock _ => 5 | Sleep | Relock => 6 end.
Lemma returns : forall k t i, left_ (pc (ex i) t) <= k -> (forall l, pc (ex i) t <> Idle l) -> (popping (pc (ex i) t) = true -> pc (ex i) t = Take false) -> exists m r, i <= m /\ pc (ex m) t = Idle (Some r).
Proof.
  induction k as [|k IH]; intros t i K NI NP.
  - destruct (pc (ex i) t) eqn:P; cbn in K; try lia. exfalso. now apply (NI last).
  - destruct (pc (ex i) t) as [l|o|o| | |b|r b|] eqn:P; try (specialize (NP eq_refl); discriminate); [exfalso; now apply (NI l)|..]; rewrite <- P in K.
    all: destruct (proceeds t i) as (m & LE & P' & Y); [intro; rewrite P; discriminate|rewrite P; discriminate|]; destruct (acts_moves t m Y) as (a & E & M); rewrite P in P', K.
    all: assert (R : left_ (pc (ex (S m)) t) <= k -> (forall l, pc (ex (S m)) t <> Idle l) -> (popping (pc (ex (S m)) t) = true -> pc (ex (S m)) t = Take false) -> exists m' r, i <= m' /\ pc (ex m') t = Idle (Some r))
      by (intros H1 H3 H2; destruct (IH t (S m) H1 H3 H2) as (m' & r' & L & N); exists m', r'; split; auto; lia).
    all: inversion M as [o' s' r' P0 P1|o' s' P0 P1|s' P0 P1|s' P0 C0 P1 O1|b' s' P0 C0 P1|o' r' b' l' s' P0 NO P1|b' x s' P0 C0 P1|r' s' P0 P1 O1|r' s' P0 P1 O1|w s' P0 PW P1|s' P0 WW P1|s' P0 P1]; subst; rewrite P' in P0; try discriminate; inversion P0; subst.
    all: try (exists (S m), r'; split; [lia|assumption]).
    all: try (exists (S m), RUnit; split; [lia|assumption]).
    all: try (apply R; rewrite P1; cbn in *; try lia; try discriminate; congruence).
    + apply R; rewrite P1; cbn in *; [lia|discriminate|]. destruct o'; try discriminate; intro; specialize (NP eq_refl); discriminate.
    + specialize (NP eq_refl). discriminate.
    + apply R; rewrite P1; cbn in *; [lia|discriminate|]. destruct b'; auto; discriminate.
Qed.

(** ** an item is taken while a consumer is in wait_and_pop *)
Definition out (i : nat) : nat := length (popped (q_trace (ex i))).
Lemma out_step : forall i, out i <= out (S i) /\ (q_content (ex i) <> [] -> q_content (ex (S i)) <> [] \/ out i < out (S i)).
Proof.
  intro i. unfold out. pose proof (qex_next _ _ _ EX i) as N. destruct (ac i) as [a|]; [|rewrite N; auto].
  pose proof (step_moves _ _ _ (ex_inv i) N) as M. inversion M; subst.
  all: try (match goal with H : popped _ = popped _ |- _ => rewrite H end; split; [lia|]; intro C; left; match goal with H : q_content (ex (S _)) = _ |- _ => rewrite H end; auto; intro Z; congruence).
  - match goal with H : popped _ = popped _ |- _ => rewrite H end; split; [lia|]. intro C; left; match goal with H : q_content (ex (S _)) = _ |- _ => rewrite H end. destruct (q_content (ex i)); [congruence|discriminate].
  - match goal with H : popped _ = popped _ ++ _ |- _ => rewrite H end. rewrite app_length. cbn. split; [lia|]. right. lia.
Qed.
Lemma out_later : forall i d, out i <= out (i + d) /\ (q_content (ex i) <> [] -> q_content (ex (i + d)) <> [] \/ out i < out (i + d)).
Proof.
  intros i. induction d as [|d [IH IC]]; [rewrite Nat.add_0_r; auto|]. rewrite Nat.add_succ_r. destruct (out_step (i + d)) as [L C]. split; [lia|].
  intro H. destruct (IC H) as [X|X]; [destruct (C X); [auto|right; lia]|right; lia].
Qed.
Lemma out_mono : forall i m, i <= m -> out i <= out m.
Proof. intros i m L. replace m with (i + (m - i)) by lia. apply out_later. Qed.
Definition taken_after (i : nat) : Prop := exists m, i <= m /\ out i < out m.
Lemma taken_earlier : forall i m, i <= m -> taken_after m -> taken_after i.
Proof. intros i m L (m' & L' & H). exists m'. split; [lia|]. pose proof (out_mono i m L). lia. Qed.
(** an awake consumer takes an item, or finds that somebody else has *)
Lemma taker : forall k t i, left_ (pc (ex i) t) <= k -> coming (pc (ex i) t) = true -> q_content (ex i) <> [] -> taken_after i.
Proof.
  induction k as [|k IH]; intros t i K CO NE; [destruct (pc (ex i) t); cbn in *; try discriminate; lia|].
  destruct (proceeds t i) as (m & LE & P' & Y); [intros r Z; rewrite Z in CO; discriminate|intro Z; rewrite Z in CO; discriminate|]. destruct (acts_moves t m Y) as (a & E & M).
  assert (C : q_content (ex m) <> [] \/ out i < out m) by (replace m with (i + (m - i)) by lia; now apply out_later).
  destruct C as [C|C]; [|exists m; auto]. pose proof (out_mono i (S m) ltac:(lia)) as OM.
  assert (R : left_ (pc (ex (S m)) t) <= k -> coming (pc (ex (S m)) t) = true -> taken_after i).
  { intros H1 H2. destruct (out_step m) as [L X]. destruct (X C) as [X'|X']; [|exists (S m); split; [lia|]; pose proof (out_mono i m LE); lia]. apply (taken_earlier i (S m)); [lia|]. eapply IH; eauto. }
  inversion M as [o' s' r' P0 P1|o' s' P0 P1|s' P0 P1|s' P0 C0 P1 O1|b' s' P0 C0 P1|o' r' b' l' s' P0 NO P1|b' x s' P0 C0 P1 PP|r' s' P0 P1 O1|r' s' P0 P1 O1|w s' P0 PW P1|s' P0 WW P1|s' P0 P1]; subst; rewrite P' in P0; rewrite P0 in CO, K; try discriminate.
  - apply R; rewrite P1; cbn in *; [lia|destruct o'; auto].
  - apply R; rewrite P1; cbn in *; auto. lia.
  - congruence.
  - apply R; rewrite P1; cbn in *; [lia|destruct b'; auto].
  - destruct o'; cbn in *; congruence.
  - exists (S m). split; [lia|]. unfold out. rewrite PP, app_length. cbn. pose proof (out_mono i m LE). unfold out in *. lia.
Qed.
(** a thread that owes a notification wakes somebody *)
Lemma ower : forall k t c i, left_ (pc (ex i) t) <= k -> owes (pc (ex i) t) = true -> popping (pc (ex i) c) = true -> q_content (ex i) <> [] -> taken_after i.
Proof.
  assert (WO : forall c i d, popping (pc (ex i) c) = true -> q_content (ex i) <> [] -> (exists m, i <= m <= i + d /\ (out i < out m \/ coming (pc (ex m) c) = true /\ q_content (ex m) <> [])) \/ pc (ex (i + d)) c = Sleep /\ q_content (ex (i + d)) <> []).
  { intros c i d PO NE. induction d as [|d IH].
    - rewrite Nat.add_0_r. destruct (pc (ex i) c) eqn:P; try discriminate; auto; left; exists i; split; try lia; right; rewrite P; cbn in *; auto.
    - destruct IH as [(m & L & H)|[P C]]; [left; exists m; split; auto; lia|]. rewrite Nat.add_succ_r. destruct (out_step (i + d)) as [OL OC]. destruct (OC C) as [C'|C'].
      2:{ left. exists (S (i + d)). split; [lia|]. left. pose proof (out_mono i (i + d) ltac:(lia)). lia. }
      pose proof (qex_next _ _ _ EX (i + d)) as N. destruct (ac (i + d)) as [a|]; [|rewrite N; auto].
      destruct (touched c a) eqn:T; [|right; split; auto; now rewrite (untouched _ _ _ _ N T)].
      left. exists (S (i + d)). split; [lia|]. right. split; auto. unfold touched in T. pose proof (step_moves _ _ _ (ex_inv _) N) as M. apply orb_prop in T as [T|T].
      + apply Nat.eqb_eq in T as ->. inversion M; subst; try congruence; match goal with H : pc (ex (S _)) _ = _ |- _ => now rewrite H end.
      + destruct a; try discriminate. apply Nat.eqb_eq in T as ->. inversion M; subst. match goal with H : pc (ex (S _)) w = _ |- _ => now rewrite H end. }
  induction k as [|k IH]; intros t c i K OW PO NE; [destruct (pc (ex i) t); cbn in *; try discriminate; lia|].
  destruct (proceeds t i) as (m & LE & P' & Y); [intros r Z; rewrite Z in OW; discriminate|intro Z; rewrite Z in OW; discriminate|]. destruct (acts_moves t m Y) as (a & E & M).
  destruct (WO c i (m - i) PO NE) as [(m' & L & [H|[H1 H2]])|[P C]].
  - exists m'. split; [lia|auto].
  - apply (taken_earlier i m'); [lia|]. eapply taker; eauto.
  - replace (i + (m - i)) with m in * by lia.
    assert (C' : q_content (ex (S m)) = q_content (ex m) -> q_content (ex (S m)) <> []) by congruence.
    inversion M as [o' s' r' P0 P1|o' s' P0 P1|s' P0 P1|s' P0 C0 P1 O1|b' s' P0 C0 P1|o' r' b' l' s' P0 NO P1|b' x s' P0 C0 P1 PP|r' s' P0 P1 O1|r' s' P0 P1 O1 C1|w s' P0 PW P1 P2 C1|s' P0 WW P1|s' P0 P1]; subst; rewrite P' in P0; rewrite P0 in OW, K; try discriminate.
    + apply (taken_earlier i (S m)); [lia|]. eapply (IH t c); [rewrite P1; cbn in *; lia|now rewrite P1| |auto].
      pose proof (qex_next _ _ _ EX m) as N. rewrite E in N. rewrite (untouched _ _ _ c N); [now rewrite P|].
      unfold touched. cbn. rewrite orb_false_r. apply Nat.eqb_neq. intros ->. rewrite P' in P. congruence.
    + apply (taken_earlier i (S m)); [lia|]. eapply (taker _ w); [apply le_n|now rewrite P2|auto].
    + exfalso. apply (i_wait _ (ex_inv m)) in P. now rewrite WW in P.
Qed.
Lemma an_item_is_taken : forall c i, popping (pc (ex i) c) = true -> q_content (ex i) <> [] -> taken_after i.
Proof.
  intros c i PO NE. destruct (coming (pc (ex i) c)) eqn:CO; [eapply taker; eauto|].
  assert (P : pc (ex i) c = Sleep) by (destruct (pc (ex i) c) as [l|[]|[]| | |[]|r b|]; cbn in *; try discriminate; auto).
  pose proof (i_wake _ (ex_inv i)) as W. assert (NW : q_waiters (ex i) <> []) by (intro Z; apply (i_wait _ (ex_inv i)) in P; now rewrite Z in P). specialize (W NW).
  assert (G : 0 < count owes (q_pcs (ex i)) \/ 0 < count coming (q_pcs (ex i))) by (destruct (q_content (ex i)); [congruence|]; cbn in W; lia).
  destruct G as [G|G]; apply (count_pos (Idle None)) in G as (u & L & H); fold (pc (ex i) u) in H; [eapply ower; eauto|eapply taker; eauto].
Qed.

(** ** one consumer *)
Definition taking p : bool := match p with Lock OPop | Body OPop | Lock OTryPop | Body OTryPop | Sleep | Relock | Take _ => true | _ => false end.
Lemma only_c : forall c, only_consumer ac c -> forall i t, taking (pc (ex i) t) = true -> t = c.
Proof.
  intros c OC. induction i as [|i IH]; intros t T.
  - rewrite (qex_start _ _ _ EX) in T. unfold pc in T. cbn [q_init q_pcs] in T. rewrite pc_repeat in T. discriminate.
  - destruct (acts t i) eqn:Y.
    + destruct (acts_moves t i Y) as (a & E & M). inversion M as [o' s' r' P0 P1|o' s' P0 P1|s' P0 P1|s' P0 C0 P1 O1|b' s' P0 C0 P1|o' r' b' l' s' P0 NO P1|b' x s' P0 C0 P1 PP|r' s' P0 P1 O1|r' s' P0 P1 O1|w s' P0 PW P1|s' P0 WW P1|s' P0 P1]; subst; rewrite P1 in T; try discriminate.
      * apply (OC _ _ _ E). destruct o'; auto; discriminate.
      * apply (IH t). rewrite P0. destruct o'; auto.
      * apply (IH t). now rewrite P0.
      * apply (IH t). now rewrite P0.
      * apply (IH t). rewrite P0. now destruct b'.
      * apply (IH t). now rewrite P0.
    + destruct (taking (pc (ex i) t)) eqn:Z; [now apply IH|]. assert (S : pc (ex i) t <> Sleep) by (intro W; rewrite W in Z; discriminate). rewrite (stays t i Y S), Z in T. discriminate.
Qed.
Lemma popping_step : forall c, only_consumer ac c -> forall i x l, popping (pc (ex i) c) = true -> q_content (ex i) = x :: l ->
  (popping (pc (ex (S i)) c) = true /\ out (S i) = out i /\ exists l', q_content (ex (S i)) = x :: l') \/ pc (ex (S i)) c = Leave (RItem x) false.
Proof.
  intros c OC i x l PO C. pose proof (qex_next _ _ _ EX i) as N. destruct (ac i) as [a|] eqn:E; [|left; unfold out; rewrite N; eauto].
  pose proof (step_moves _ _ _ (ex_inv i) N) as M.
  assert (KEEP : popping (pc (ex (S i)) c) = true \/ touched c a = true) by (destruct (touched c a) eqn:T; [auto|left; now rewrite (untouched _ _ _ _ N T)]).
  remember (doer a) as u eqn:D. clear D.
  inversion M as [o' s' r' P0 P1 C1 O1 PP|o' s' P0 P1 C1 PP|s' P0 P1 C1 PP|s' P0 C0 P1 O1 C1 PP|b' s' P0 C0 P1 C1 PP|o' r' b' l' s' P0 NO P1 C1 PP|b' y s' P0 C0 P1 PP|r' s' P0 P1 O1 C1 PP|r' s' P0 P1 O1 C1 PP|w s' P0 PW P1 P2 C1 PP|s' P0 WW P1 C1 PP|s' P0 P1 C1 PP]; subst; unfold touched in KEEP; cbn [doer] in *.
  7:{ right. assert (u = c) by (apply (only_c c OC i); now rewrite P0). subst c. rewrite P1. congruence. }
  4: congruence.
  all: left; unfold out; rewrite PP; split; [|split; [reflexivity|rewrite C1, C; cbn; eauto]].
  all: destruct KEEP as [KEEP|KEEP]; [exact KEEP|]; apply orb_prop in KEEP as [KEEP|KEEP]; try discriminate; apply Nat.eqb_eq in KEEP; subst c; rewrite ?P0 in PO; try discriminate; rewrite ?P1, ?P2; auto.
  all: try (destruct o'; cbn in *; congruence). destruct b'; auto.
Qed.
Lemma consumer_returns : forall c, only_consumer ac c -> forall i x l, popping (pc (ex i) c) = true -> q_content (ex i) = x :: l ->
  exists m, i <= m /\ pc (ex m) c = Idle (Some (RItem x)).
Proof.
  intros c OC i x l PO C. destruct (an_item_is_taken c i PO ltac:(congruence)) as (m & LE & O).
  assert (F : forall d j l', popping (pc (ex j) c) = true -> q_content (ex j) = x :: l' -> (exists m', j <= m' /\ pc (ex m') c = Leave (RItem x) false) \/ out (j + d) = out j).
  { induction d as [|d IH]; intros j l' PO' C'; [right; now rewrite Nat.add_0_r|]. destruct (popping_step c OC j x l' PO' C') as [(P1 & O1 & l1 & C1)|P1].
    - destruct (IH (S j) l1 P1 C1) as [(m' & L' & P2)|X]; [left; exists m'; split; auto; lia|right]. replace (j + S d) with (S j + d) by lia. lia.
    - left. exists (S j). split; [lia|exact P1]. }
  destruct (F (m - i) i l PO C) as [(m' & L' & P)|X]; [|replace (i + (m - i)) with m in X by lia; lia].
  destruct (goes_on c m') as (k & LK & PK & Y); [now rewrite P|]. destruct (acts_moves c k Y) as (a & E & M). rewrite P in PK. exists (S k). split; [lia|].
  inversion M as [o' s' r' P0 P1|o' s' P0 P1|s' P0 P1|s' P0 C0 P1 O1|b' s' P0 C0 P1|o' r' b' l' s' P0 NO P1|b' y s' P0 C0 P1 PP|r' s' P0 P1 O1|r' s' P0 P1 O1|w s' P0 PW P1|s' P0 WW P1|s' P0 P1]; subst; rewrite PK in P0; try discriminate. congruence.
Qed.

(** ** everything that was put in comes out *)
Lemma fifo_len : forall i, length (pushed (q_trace (ex i))) = out i + length (q_content (ex i)).
Proof. intro i. rewrite (sequential_fifo _ _ (i_seq _ (ex_inv i))), app_length. reflexivity. Qed.
Lemma trace_grows : forall i m, i <= m -> exists tr, q_trace (ex m) = q_trace (ex i) ++ tr.
Proof.
  intros i m L. induction L as [|m L (tr & IH)]; [exists []; now rewrite app_nil_r|].
  pose proof (qex_next _ _ _ EX m) as N. destruct (ac m) as [a|]; [|rewrite N; eauto].
  assert (G : exists tr', q_trace (ex (S m)) = q_trace (ex m) ++ tr').
  { clear IH. revert N. generalize (ex (S m)). intros s' E. pose proof (step_moves _ _ _ (ex_inv m) E) as M. clear M. revert E. generalize (ex m). intros s E.
    destruct a as [t o|t|t w|t|w]; cbn [qstep] in E.
    - destruct (pc s t); try discriminate. destruct (Nat.ltb _ _); [|discriminate]. injection E as <-. cbn. eauto.
    - destruct (pc s t) as [l|o|o| | |b|r b|] eqn:P; try discriminate.
      + destruct (q_owner s); [discriminate|]. injection E as <-. exists []. cbn. now rewrite app_nil_r.
      + injection E as <-. unfold body, unlock. destruct o; try destruct (q_content s); cbn; eauto; try (exists []; now rewrite app_nil_r).
        destruct (match q_owner s with Some u => _ | None => _ end); exists []; cbn; now rewrite app_nil_r.
      + destruct (q_owner s); [discriminate|]. injection E as <-. exists []. cbn. now rewrite app_nil_r.
      + destruct (q_content s); injection E as <-; cbn; eauto. exists []. now rewrite app_nil_r.
      + injection E as <-. unfold unlock, ret. destruct b, (match q_owner s with Some u => _ | None => _ end); cbn; eauto; exists []; now rewrite app_nil_r.
    - destruct (pc s t); try discriminate. destruct (existsb _ _); [|discriminate]. injection E as <-. cbn. eauto.
    - destruct (pc s t); try discriminate. destruct (q_waiters s); [|discriminate]. injection E as <-. cbn. eauto.
    - destruct (existsb _ _); [|discriminate]. injection E as <-. exists []. cbn. now rewrite app_nil_r. }
  destruct G as (tr' & ->). exists (tr ++ tr'). now rewrite IH, app_assoc.
Qed.
Lemma comes_out : forall c, keeps_popping ex ac c -> forall k i, length (pushed (q_trace (ex i))) <= out i + k ->
  forall j, i <= j -> exists m, j <= m /\ length (pushed (q_trace (ex i))) <= out m.
Proof.
  intros c KP. assert (ONE : forall i, q_content (ex i) <> [] -> taken_after i).
  { intros i NE. destruct (KP i) as (m & LE & H).
    assert (X : exists m', m <= m' /\ popping (pc (ex m') c) = true).
    { destruct H as [H|H]; [|eauto]. exists (S m). split; [lia|]. pose proof (qex_next _ _ _ EX m) as N. rewrite H in N. pose proof (step_moves _ _ _ (ex_inv m) N) as M. cbn [doer] in M. inversion M as [o' s' r' P0 P1| | | | | | | | | | |]; subst. rewrite P1. reflexivity. }
    destruct X as (m' & LE' & P). destruct (out_later i (m' - i)) as [_ C]. replace (i + (m' - i)) with m' in C by lia. destruct (C NE) as [C'|C']; [|exists m'; split; auto; lia].
    apply (taken_earlier i m'); [lia|]. now apply (an_item_is_taken c). }
  intros k i K j L. assert (Z : length (pushed (q_trace (ex i))) <= out j + k) by (pose proof (out_mono i j L); lia). clear K. revert j L Z.
  induction k as [|k IH]; intros j L Z; [exists j; split; auto; lia|].
  destruct (le_lt_dec (length (pushed (q_trace (ex i)))) (out j)) as [D|D]; [exists j; auto|].
  assert (NE : q_content (ex j) <> []).
  { intro C. pose proof (fifo_len j) as F. rewrite C in F. cbn in F. destruct (trace_grows i j L) as (tr & T). assert (length (pushed (q_trace (ex i))) <= length (pushed (q_trace (ex j)))); [|lia].
    rewrite T. unfold pushed. rewrite flat_map_app, app_length. lia. }
  destruct (ONE j NE) as (m & LM & O). destruct (IH m) as (m' & L' & H); [lia|lia|]. exists m'. split; auto. lia.
Qed.
End Facts.
