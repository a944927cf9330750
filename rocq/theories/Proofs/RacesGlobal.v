(** Races found by running a schedule. *)
From Coq Require Import List ZArith Bool Lia Arith.
From Verif Require Import Base.Threads Model.Races Spec.RacesSpec Proofs.RacesFacts Proofs.RacesUse.
Import ListNotations.

(** after the schedule, threads u and v are about to race on x *)
Definition racing (o : option state) (u v : nat) (x : loc) : bool :=
  match o with
  | Some st =>
      match next_access (get Stop (ths st) u), next_access (get Stop (ths st) v) with
      | Some (y, wu, au), Some (z, wv, av) =>
          negb (Nat.eqb u v) && (if loc_eq_dec y x then true else false) && (if loc_eq_dec z x then true else false) &&
          (wu || wv) && negb (au && av)
      | _, _ => false
      end
  | None => false
  end.
Lemma race_by : forall sched u v st x, racing (runs sched st) u v x = true -> races st x.
Proof.
  intros sched u v st x E. unfold racing in E. destruct (runs sched st) as [st'|] eqn:R; [|discriminate].
  exists sched, st'. split; auto.
  destruct (next_access (get Stop (ths st') u)) as [((y & wu) & au)|] eqn:A; [|discriminate].
  destruct (next_access (get Stop (ths st') v)) as [((z & wv) & av)|] eqn:B; [|discriminate].
  destruct (loc_eq_dec y x) as [->|]; [|now rewrite !andb_false_r in E].
  destruct (loc_eq_dec z x) as [->|]; [|now rewrite !andb_false_r in E].
  rewrite !andb_true_r in E. apply andb_true_iff in E. destruct E as (E & D). apply andb_true_iff in E. destruct E as (E & C).
  apply negb_true_iff, Nat.eqb_neq in E. apply negb_true_iff in D.
  exists u, v, wu, wv, au, av. auto.
Qed.

(* ------------------------------------------------------------------ *)
(** ** Locations with atomic accesses only *)
Fixpoint atomically (x : loc) (p : prog) : Prop :=
  match p with
  | Stop => True
  | Acq _ k | Rel _ k | Rmw _ _ k => atomically x k
  | Rd a y k => (y = x -> a = true) /\ forall v, atomically x (k v)
  | Wr a y _ k => (y = x -> a = true) /\ atomically x k
  end.
Lemma step_inv : forall (P : prog -> Prop), P Stop ->
  (forall s k, P (Acq s k) -> P k) -> (forall s k, P (Rel s k) -> P k) -> (forall a x k v, P (Rd a x k) -> P (k v)) ->
  (forall a x v k, P (Wr a x v k) -> P k) -> (forall x f k, P (Rmw x f k) -> P k) ->
  forall sched st st', Forall P (ths st) -> runs sched st = Some st' -> forall t, P (get Stop (ths st') t).
Proof.
  intros P PS PA PR PD PW PM. 
  assert (G : forall st t, Forall P (ths st) -> P (get Stop (ths st) t)).
  { intros st t F. destruct (Nat.lt_ge_cases t (length (ths st))) as [L|L]; [|now rewrite (get_out Stop)].
    rewrite Forall_forall in F. apply F, nth_In, L. }
  assert (U : forall l t q, Forall P l -> P q -> Forall P (upd l t q)).
  { induction l as [|y l IH]; intros [|t] q F Q; cbn; auto; inversion F; subst; constructor; auto. }
  induction sched as [|t r IH]; cbn; intros st st' F E; [injection E as <-; auto|].
  destruct (step st t) as [st1|] eqn:S; [|discriminate]. apply (IH st1 st'); auto. clear IH E.
  pose proof (G st t F) as Q. unfold step in S. destruct (get Stop (ths st) t); try discriminate.
  - destruct (sems st s); [discriminate|]. injection S as <-. cbn. eauto.
  - injection S as <-. cbn. eauto.
  - injection S as <-. cbn. eauto.
  - injection S as <-. cbn. eauto.
  - injection S as <-. cbn. eauto.
Qed.
Lemma atomic_race_free : forall x st, Forall (atomically x) (ths st) -> race_free st x.
Proof.
  intros x st F sched st' R (u & v & wu & wv & au & av & N & A & B & W & D).
  assert (Q : forall t w a, next_access (get Stop (ths st') t) = Some (x, w, a) -> a = true).
  { intros t w a E. assert (P : atomically x (get Stop (ths st') t)).
    { apply (step_inv (atomically x)) with (sched := sched) (st := st); cbn; auto; try tauto. intros. apply H. }
    destruct (get Stop (ths st') t); try discriminate; cbn in *; injection E; intros; subst; auto; tauto. }
  rewrite (Q _ _ _ A), (Q _ _ _ B) in D. discriminate.
Qed.

(* ------------------------------------------------------------------ *)
(** ** A location written once under a once flag and read afterwards *)
Section Once.
Variable i : nat.
Variable x : loc.
Hypothesis x_other : x <> LOnce i.

(** outside (having passed the flag or not), or inside before and after looking at the flag *)
Inductive mode := MOut (passed : bool) | MIn | MUnset | MSet.
Definition inside (m : mode) : bool := match m with MOut _ => false | _ => true end.
Definition sees_set (m : mode) : bool := match m with MOut true | MSet => true | _ => false end.

Fixpoint oncep (m : mode) (p : prog) : Prop :=
  match p with
  | Stop => True
  | Acq s k => if sem_eq_dec s (MOnce i) then inside m = false /\ oncep MIn k else oncep m k
  | Rel s k => if sem_eq_dec s (MOnce i) then m = MSet /\ oncep (MOut true) k else oncep m k
  | Rd a y k =>
      if loc_eq_dec y (LOnce i) then a = true /\ m = MIn /\ forall v, oncep (if is_set v then MSet else MUnset) (k v)
      else (y = x -> sees_set m = true) /\ forall v, oncep m (k v)
  | Wr a y v k =>
      if loc_eq_dec y (LOnce i) then m = MUnset /\ is_set v = true /\ oncep MSet k
      else (y = x -> m = MUnset) /\ oncep m k
  | Rmw y _ k => y <> LOnce i /\ y <> x /\ oncep m k
  end.

Definition oinv (st : state) : Prop := exists M : nat -> mode,
  (forall t, oncep (M t) (get Stop (ths st) t)) /\
  (sems st (MOnce i) <= 1)%nat /\
  (forall t, inside (M t) = true -> sems st (MOnce i) = 0%nat) /\
  (forall t u, inside (M t) = true -> inside (M u) = true -> t = u) /\
  (forall t, sees_set (M t) = true -> is_set (mem st (LOnce i)) = true) /\
  (forall t, M t = MUnset -> is_set (mem st (LOnce i)) = false).

Definition mset (M : nat -> mode) (t : nat) (m : mode) : nat -> mode := fun u => if Nat.eqb u t then m else M u.
Lemma mset_same : forall M t m, mset M t m t = m.
Proof. intros. unfold mset. now rewrite Nat.eqb_refl. Qed.
Lemma mset_other : forall M t m u, u <> t -> mset M t m u = M u.
Proof. intros M t m u N. unfold mset. apply Nat.eqb_neq in N. now rewrite N. Qed.

Lemma oinv_step : forall st t st', oinv st -> step st t = Some st' -> oinv st'.
Proof.
  intros st t st' (M & O & C & Z & X & F & U) E. unfold step in E. pose proof (O t) as Ot.
  assert (L : (t < length (ths st))%nat).
  { destruct (Nat.lt_ge_cases t (length (ths st))) as [|G]; auto. rewrite (get_out Stop _ _ G) in E. discriminate. }
  assert (K : forall m q, oncep m q -> forall u, oncep (mset M t m u) (get Stop (upd (ths st) t q) u)).
  { intros m q Q u. rewrite get_upd by auto. unfold mset. destruct (Nat.eqb_spec u t) as [->|]; auto. }
  assert (K0 : forall q, oncep (M t) q -> forall u, oncep (M u) (get Stop (upd (ths st) t q) u)).
  { intros q Q u. rewrite get_upd by auto. destruct (Nat.eqb_spec u t) as [->|]; auto. }
  destruct (get Stop (ths st) t) as [|s k|s k|a y k|a y v k|y f k] eqn:P; [discriminate| | | | |]; cbn [oncep] in Ot.
  - destruct (sems st s) as [|n] eqn:Sn; [discriminate|]. injection E as <-. destruct (sem_eq_dec s (MOnce i)) as [->|ne].
    + destruct Ot as (I & Ot). exists (mset M t MIn). cbn [ths sems mem].
      assert (NI : forall u, inside (M u) = false). { intro u. destruct (inside (M u)) eqn:Iu; auto. apply Z in Iu. lia. }
      split; [auto|]. split. { unfold set_sem. destruct (sem_eq_dec (MOnce i) (MOnce i)); [lia|congruence]. }
      split. { intros u _. unfold set_sem. destruct (sem_eq_dec (MOnce i) (MOnce i)); [lia|congruence]. }
      split.
      { intros u w Iu Iw. destruct (Nat.eq_dec u t) as [->|nu]; destruct (Nat.eq_dec w t) as [->|nw]; auto.
        - rewrite mset_other, NI in Iw by auto. discriminate.
        - rewrite mset_other, NI in Iu by auto. discriminate.
        - rewrite mset_other, NI in Iu by auto. discriminate. }
      split; intros u Q; destruct (Nat.eq_dec u t) as [->|nu]; rewrite ?mset_same, ?mset_other in Q by auto; try discriminate; eauto.
    + exists M. cbn [ths sems mem]. split; [auto|]. unfold set_sem. destruct (sem_eq_dec (MOnce i) s); [congruence|]. auto.
  - injection E as <-. destruct (sem_eq_dec s (MOnce i)) as [->|ne].
    + destruct Ot as (I & Ot). exists (mset M t (MOut true)). cbn [ths sems mem].
      assert (S0 : sems st (MOnce i) = 0%nat) by (apply (Z t); rewrite I; reflexivity).
      assert (NI : forall u, u <> t -> inside (M u) = false).
      { intros u Nu. destruct (inside (M u)) eqn:Iu; auto. exfalso. apply Nu. apply X; auto. rewrite I. reflexivity. }
      split; [auto|]. split. { unfold set_sem. destruct (sem_eq_dec (MOnce i) (MOnce i)); [lia|congruence]. }
      split. { intros u Iu. exfalso. destruct (Nat.eq_dec u t) as [->|nu]; [rewrite mset_same in Iu; discriminate|].
               rewrite mset_other, NI in Iu by auto. discriminate. }
      split. { intros u w Iu. exfalso. destruct (Nat.eq_dec u t) as [->|nu]; [rewrite mset_same in Iu; discriminate|].
               rewrite mset_other, NI in Iu by auto. discriminate. }
      split; intros u Q; destruct (Nat.eq_dec u t) as [->|nu]; rewrite ?mset_same, ?mset_other in Q by auto; try discriminate; eauto.
      apply (F t). rewrite I. reflexivity.
    + exists M. cbn [ths sems mem]. split; [auto|]. unfold set_sem. destruct (sem_eq_dec (MOnce i) s); [congruence|]. auto.
  - injection E as <-. destruct (loc_eq_dec y (LOnce i)) as [->|ne].
    + destruct Ot as (_ & I & Ot). specialize (Ot (mem st (LOnce i))).
      set (m := if is_set (mem st (LOnce i)) then MSet else MUnset) in *.
      exists (mset M t m). cbn [ths sems mem]. split; [auto|]. split; [auto|].
      assert (IM : forall u, inside (mset M t m u) = true -> inside (M u) = true).
      { intros u Q. destruct (Nat.eq_dec u t) as [->|nu]; [rewrite I; reflexivity|]. now rewrite mset_other in Q by auto. }
      split; [eauto|]. split; [eauto|].
      split; intros u Q; destruct (Nat.eq_dec u t) as [->|nu]; rewrite ?mset_same, ?mset_other in Q by auto; eauto;
        unfold m in Q; destruct (is_set (mem st (LOnce i))); auto; discriminate.
    + destruct Ot as (_ & Ot). exists M. cbn [ths sems mem]. split; [auto|]. auto.
  - injection E as <-. destruct (loc_eq_dec y (LOnce i)) as [->|ne].
    + destruct Ot as (I & V & Ot). exists (mset M t MSet). cbn [ths sems mem].
      assert (IM : forall u, inside (mset M t MSet u) = true -> inside (M u) = true).
      { intros u Q. destruct (Nat.eq_dec u t) as [->|nu]; [rewrite I; reflexivity|]. now rewrite mset_other in Q by auto. }
      split; [auto|]. split; [auto|]. split; [eauto|]. split; [eauto|]. rewrite set_mem_same. split; [auto|].
      intros u Q. exfalso. destruct (Nat.eq_dec u t) as [->|nu]; rewrite ?mset_same, ?mset_other in Q by auto; [discriminate|].
      apply nu. apply X; [rewrite Q|rewrite I]; reflexivity.
    + destruct Ot as (_ & Ot). exists M. cbn [ths sems mem]. split; [auto|]. rewrite set_mem_other by auto. auto.
  - injection E as <-. destruct Ot as (N1 & N2 & Ot). exists M. cbn [ths sems mem]. split; [auto|]. rewrite set_mem_other by auto. auto.
Qed.
Lemma oinv_runs : forall sched st st', oinv st -> runs sched st = Some st' -> oinv st'.
Proof.
  induction sched as [|t r IH]; cbn; intros st st' I E; [now injection E as <-|].
  destruct (step st t) as [st1|] eqn:S; [|discriminate]. eauto using oinv_step.
Qed.
Lemma oinv_race_free : forall st, oinv st -> race_free st x.
Proof.
  intros st I sched st' R (u & v & wu & wv & au & av & N & A & B & W & D).
  destruct (oinv_runs sched st st' I R) as (M & O & _ & _ & X & F & U).
  assert (Q : forall t w a, next_access (get Stop (ths st') t) = Some (x, w, a) -> if w then M t = MUnset else sees_set (M t) = true).
  { intros t w a E. pose proof (O t) as Ot. destruct (get Stop (ths st') t) as [|s k|s k|b y k|b y z k|y f k]; try discriminate; cbn in *;
      injection E; intros; subst; try (destruct (loc_eq_dec x (LOnce i)); [congruence|]); tauto. }
  apply Q in A. apply Q in B. destruct wu, wv; try discriminate.
  - apply N. apply X; [rewrite A|rewrite B]; reflexivity.
  - apply U in A. apply F in B. congruence.
  - apply F in A. apply U in B. congruence.
Qed.
End Once.

(* ------------------------------------------------------------------ *)
(** ** The stack trace of the first crash *)
Notation once_stack := (oncep 3 LStack).

(** P holds of a call followed by k if it holds of k and is kept by every access but those to the trace and its guard
    and non-atomic ones to the counter *)
Section Prefix.
Variable P : prog -> Prop.
Hypothesis PStop : P Stop.
Hypothesis PAcq : forall s k, s <> MOnce 3 -> P k -> P (Acq s k).
Hypothesis PRel : forall s k, s <> MOnce 3 -> P k -> P (Rel s k).
Hypothesis PRd : forall a y k, y <> LOnce 3 -> y <> LStack -> (a = false -> y <> LCounter) -> (forall v, P (k v)) -> P (Rd a y k).
Hypothesis PWr : forall a y v k, y <> LOnce 3 -> y <> LStack -> (a = false -> y <> LCounter) -> P k -> P (Wr a y v k).

Ltac go1 := match goal with
  | |- P Stop => exact PStop
  | |- P (Acq _ _) => apply PAcq; [discriminate|]
  | |- P (Rel _ _) => apply PRel; [discriminate|]
  | |- P (Rd _ _ _) => apply PRd; [discriminate|discriminate|discriminate|intro]
  | |- P (Wr _ _ _ _) => apply PWr; [discriminate|discriminate|discriminate|]
  | |- P (if ?b then _ else _) => destruct b
  | |- P (match ?l with [] => _ | _ => _ end) => destruct l
  | |- P _ => assumption
  end.
Lemma pre_push : forall j k, P k -> P (q_push j k).
Proof. intros. unfold q_push, locked. repeat go1. Qed.
Lemma pre_ask : forall j k, P k -> P (ask_worker j k).
Proof. intros. unfold ask_worker. go1. now apply pre_push. Qed.
Lemma pre_shut : forall k, P k -> P (shut_down k).
Proof. intros. unfold shut_down, locked. repeat go1. Qed.
Lemma pre_restore : forall l k, P k -> P (restore_all l k).
Proof. intros l k H. induction l as [|s l IH]; cbn; [assumption|]. repeat go1. Qed.
Lemma pre_restore_loop : forall k, P k -> P (restore_loop k).
Proof. intros. unfold restore_loop. go1. now apply pre_restore. Qed.
Lemma pre_install_all : forall l k, P k -> P (install_all l k).
Proof. intros l k H. induction l as [|s l IH]; cbn; [assumption|]. repeat go1. Qed.
Lemma pre_install : forall k, P k -> P (install k).
Proof. intros. unfold install. go1. now apply pre_install_all. Qed.
Lemma pre_hook : forall h k, P k -> P (set_hook h k).
Proof. intros. unfold set_hook, locked. repeat go1. Qed.
Lemma pre_once : forall i body k, i <> 3%nat -> (forall k', P k' -> P (body k')) -> P k -> P (once i body k).
Proof.
  intros i body k N B H. unfold once. apply PAcq; [congruence|]. apply PRd; [congruence|discriminate|discriminate|]. intro v.
  assert (P (Rel (MOnce i) k)) by (apply PRel; [congruence|assumption]). destruct (is_set v); auto.
  apply B. apply PWr; [congruence|discriminate|discriminate|assumption].
Qed.
Lemma pre_gcall : forall c k, P k -> P (gcall_prog c k).
Proof.
  intros [| | | |h|h|sigs|j] k H; cbn [gcall_prog].
  - unfold push_message. repeat go1.
    + now apply pre_ask.
    + apply pre_once; auto. intros k' H'. repeat go1.
  - unfold initialize. apply pre_once; [discriminate|apply pre_install|]. repeat go1.
    apply pre_once; [discriminate| |].
    + intros k' H'. repeat go1. now apply pre_ask.
    + go1. apply pre_hook. repeat go1.
  - now apply pre_shut.
  - unfold destroy_worker. go1. apply pre_shut, pre_ask. go1. apply pre_push. repeat go1.
  - now apply pre_hook.
  - unfold set_exit_handler. repeat go1.
  - unfold override_signals, locked. go1. apply pre_restore_loop. go1. apply pre_install. repeat go1.
  - now apply pre_ask.
Qed.
Lemma pre_wait : forall m k, (forall j, P (k j)) -> P (q_wait m k).
Proof.
  intros m k H. induction m as [|m IH]; cbn [q_wait].
  - repeat go1; apply H.
  - repeat go1; apply H.
Qed.
Lemma pre_job : forall j k, P k -> P (job_prog j k).
Proof.
  intros j k H. unfold job_prog. repeat match goal with |- P (if ?c then _ else _) => destruct c end; repeat go1.
  apply pre_shut. repeat go1. now apply pre_restore_loop.
Qed.
Lemma pre_run : forall m n, P (run m n).
Proof.
  intros m. induction n as [|n IH]; cbn [run]; [exact PStop|]. go1. destruct (is_set v).
  - repeat go1.
  - apply pre_wait. intro j. now apply pre_job.
Qed.
Lemma pre_fatal_end : P push_fatal.
Proof. unfold push_fatal. repeat go1; [now apply pre_ask|now apply pre_restore_loop]. Qed.
Lemma pre_calls : forall cs k, P k -> P (calls (map gcall_prog cs) k).
Proof. intros cs k H. induction cs as [|c cs IH]; cbn; auto. now apply pre_gcall. Qed.
End Prefix.

Lemma gthread_once : forall cs e, once_stack (MOut false) (gthread cs e).
Proof.
  intros cs e.
  assert (H : forall m, let P := fun p => once_stack m p in
     (forall k, P k -> P (calls (map gcall_prog cs) k)) /\ (forall a b, P (run a b)) /\ P push_fatal /\ (forall h k, P k -> P (set_hook h k))).
  { intros m P. assert (PA : forall s k, s <> MOnce 3 -> P k -> P (Acq s k)).
    { intros s k N H. unfold P. cbn. destruct (sem_eq_dec s (MOnce 3)); [contradiction|auto]. }
    assert (PR : forall s k, s <> MOnce 3 -> P k -> P (Rel s k)).
    { intros s k N H. unfold P. cbn. destruct (sem_eq_dec s (MOnce 3)); [contradiction|auto]. }
    assert (PD : forall a y k, y <> LOnce 3 -> y <> LStack -> (a = false -> y <> LCounter) -> (forall v, P (k v)) -> P (Rd a y k)).
    { intros a y k N1 N2 _ H. unfold P. cbn. destruct (loc_eq_dec y (LOnce 3)); [contradiction|]. split; [contradiction|auto]. }
    assert (PW : forall a y v k, y <> LOnce 3 -> y <> LStack -> (a = false -> y <> LCounter) -> P k -> P (Wr a y v k)).
    { intros a y v k N1 N2 _ H. unfold P. cbn. destruct (loc_eq_dec y (LOnce 3)); [contradiction|]. split; [contradiction|auto]. }
    assert (PS : P Stop) by exact I.
    split; [intros; apply pre_calls; auto|]. split; [intros; apply pre_run; auto|]. split; [apply pre_fatal_end; auto|intros; apply pre_hook; auto]. }
  destruct (H (MOut false)) as (H1 & H2 & _ & H4). destruct (H (MOut true)) as (_ & _ & H3 & _). clear H.
  unfold gthread. apply H1. destruct e as [| |a b]; [exact I| |apply H2].
  unfold fatal_message. cbn [oncep]. destruct (loc_eq_dec LHook (LOnce 3)); [discriminate|]. split; [discriminate|]. intro v.
  apply H4. cbn [oncep once]. split; [discriminate|]. split; [discriminate|].
  destruct (sem_eq_dec (MOnce 3) (MOnce 3)) as [_|]; [|congruence]. split; [reflexivity|].
  destruct (loc_eq_dec (LOnce 3) (LOnce 3)) as [_|]; [|congruence]. split; [reflexivity|]. split; [reflexivity|]. intro f.
  assert (T : once_stack (MOut true) (Rd true LCounter (fun n =>
     if (1 <? Z.of_nat (length n))%Z then Rd false LStack (fun _ => Rd false LFatalFn (fun f => match f with [] => push_fatal | _ => Stop end))
     else Rd false LFatalFn (fun f => match f with [] => push_fatal | _ => Stop end)))).
  { cbn [oncep]. destruct (loc_eq_dec LCounter (LOnce 3)); [discriminate|]. split; [discriminate|]. intro c.
    assert (E : once_stack (MOut true) (Rd false LFatalFn (fun f => match f with [] => push_fatal | _ => Stop end))).
    { cbn [oncep]. destruct (loc_eq_dec LFatalFn (LOnce 3)); [discriminate|]. split; [discriminate|]. intros [|z r]; [exact H3|exact I]. }
    destruct (1 <? Z.of_nat (length c))%Z; [|exact E]. cbn [oncep]. destruct (loc_eq_dec LStack (LOnce 3)); [discriminate|].
    split; [reflexivity|]. intros _. exact E. }
  destruct (is_set f) eqn:Ef; cbn [oncep].
  - destruct (sem_eq_dec (MOnce 3) (MOnce 3)) as [_|]; [|congruence]. split; [reflexivity|]. exact T.
  - destruct (loc_eq_dec LStack (LOnce 3)); [discriminate|]. split; [reflexivity|].
    destruct (loc_eq_dec (LOnce 3) (LOnce 3)) as [_|]; [|congruence]. split; [reflexivity|]. split; [reflexivity|].
    destruct (sem_eq_dec (MOnce 3) (MOnce 3)) as [_|]; [|congruence]. split; [reflexivity|]. exact T.
Qed.

Lemma stack_race_free : forall m (ts : list (list gcall * ending)),
  race_free (mkState m mutexes_free (map (fun t => gthread (fst t) (snd t)) ts)) LStack.
Proof.
  intros m ts. apply (oinv_race_free 3); [discriminate|]. exists (fun _ => MOut false). cbn [ths sems mem]. split; [|repeat split; intros; try discriminate; auto].
  intro t. rewrite (get_map _ ts t ([], Returns)) by reflexivity. apply gthread_once.
Qed.

Lemma gthread_counter : forall cs e, atomically LCounter (gthread cs e).
Proof.
  intros cs e. set (P := atomically LCounter).
  assert (PA : forall s k, s <> MOnce 3 -> P k -> P (Acq s k)) by (intros; assumption).
  assert (PR : forall s k, s <> MOnce 3 -> P k -> P (Rel s k)) by (intros; assumption).
  assert (PD : forall a y k, y <> LOnce 3 -> y <> LStack -> (a = false -> y <> LCounter) -> (forall v, P (k v)) -> P (Rd a y k)).
  { intros a y k _ _ A H. split; [|exact H]. intros ->. destruct a; auto. exfalso. now apply A. }
  assert (PW : forall a y v k, y <> LOnce 3 -> y <> LStack -> (a = false -> y <> LCounter) -> P k -> P (Wr a y v k)).
  { intros a y v k _ _ A H. split; [|exact H]. intros ->. destruct a; auto. exfalso. now apply A. }
  assert (PS : P Stop) by exact I.
  unfold gthread. apply pre_calls; auto. destruct e as [| |a b]; [exact I| |apply pre_run; auto].
  unfold fatal_message. apply PD; try discriminate. intros _. apply pre_hook; auto.
  assert (F : P (Rd false LFatalFn (fun f => match f with [] => push_fatal | _ => Stop end))).
  { apply PD; try discriminate. intros [|z r]; [apply pre_fatal_end; auto|exact I]. }
  assert (T : P (Rd true LCounter (fun n =>
     if (1 <? Z.of_nat (length n))%Z then Rd false LStack (fun _ => Rd false LFatalFn (fun f => match f with [] => push_fatal | _ => Stop end))
     else Rd false LFatalFn (fun f => match f with [] => push_fatal | _ => Stop end)))).
  { apply PD; try discriminate. intro n. destruct (1 <? Z.of_nat (length n))%Z; [|exact F]. split; [discriminate|]. intros _. exact F. }
  unfold P, once. cbn [atomically]. split; [discriminate|]. intro f. destruct (is_set f); cbn [atomically]; [exact T|].
  split; [discriminate|]. split; [discriminate|]. exact T.
Qed.
Lemma counter_race_free : forall m (ts : list (list gcall * ending)),
  race_free (mkState m mutexes_free (map (fun t => gthread (fst t) (snd t)) ts)) LCounter.
Proof.
  intros m ts. apply atomic_race_free. cbn [ths]. apply Forall_forall. intros p J. apply in_map_iff in J. destruct J as (t & <- & _).
  apply gthread_counter.
Qed.

(* ------------------------------------------------------------------ *)
(** ** The tables of signals *)
Definition scarry (s : sem) (x : loc) : nat := match s, x with MSignal, (LSignals | LSaved) => 1 | _, _ => 0 end.
Definition oks := ok (fun _ => 1%nat) scarry qassert none_atomic.

Lemma oks_drop : forall p has kn, oks (fun _ => 0%nat) qknow p -> oks has kn p.
Proof. intros. unfold oks in *. wk; [intro; cbn; lia|intros; exact I]. Qed.
Lemma oks_know : forall p has kn, oks has qknow p -> oks has kn p.
Proof. intros. unfold oks in *. wk; [intro; cbn; lia|intros; exact I]. Qed.
Lemma oks_restore : forall l has k, has LSaved = 1%nat -> oks has qknow k -> oks has qknow (restore_all l k).
Proof.
  intros l has k S O. induction l as [|s l IH]; cbn; auto. split; auto. split; [lia|]. intros v _.
  destruct (existsb (Z.eqb s) v); [|now apply oks_know]. cbn. split; auto. split; [lia|]. split; [lia|]. now apply oks_know.
Qed.
Lemma oks_install : forall l has k, has LSaved = 1%nat -> oks has qknow k -> oks has qknow (install_all l k).
Proof.
  intros l has k S O. induction l as [|s l IH]; cbn; auto. split; auto. split; [lia|]. intros v _. split; auto. split; [lia|]. split; [lia|].
  now apply oks_know.
Qed.
Lemma oks_override : forall sigs k, oks (fun _ => 0%nat) qknow k -> oks (fun _ => 0%nat) qknow (override_signals sigs k).
Proof.
  intros sigs k O. unfold override_signals, locked, restore_loop, install. unfold oks. cbn [ok none_atomic]. split; auto. split; [cbn; lia|]. intros v _.
  apply oks_know, oks_restore; [reflexivity|]. unfold oks. cbn [ok none_atomic]. split; auto. split; [cbn; lia|]. split; [cbn; lia|]. split; auto. split; [cbn; lia|].
  intros w _. apply oks_know, oks_install; [reflexivity|]. unfold oks. cbn [ok none_atomic]. split; [intros; lia|]. split; [intros; exact I|].
  now apply oks_drop.
Qed.
Lemma scarriers_nodup : NoDup [MSignal].
Proof. repeat constructor. easy. Qed.
Lemma scarriers_all : forall s x, (1 <= scarry s x)%nat -> In s [MSignal].
Proof. intros s y G. destruct s; cbn in *; auto; lia. Qed.
Lemma override_inv : forall m (ts : list (list (list Z))),
  inv (fun _ => 1%nat) scarry qassert none_atomic [MSignal] (mkState m mutexes_free (map (fun cs => calls (map override_signals cs) Stop) ts)).
Proof.
  intros m ts. exists (fun _ _ => 0%nat), (fun _ => qknow). cbn [ths sems mem]. split; [|split; [|split]].
  - intro t. rewrite (get_map _ ts t []) by reflexivity. induction (nth t ts []) as [|c cs IH]; cbn [map calls fold_right]; [exact I|].
    apply oks_override. exact IH.
  - intro y. rewrite held_zero. unfold lying. cbn. destruct y; cbn; lia.
  - intros. exact I.
  - intros. exact I.
Qed.
Lemma override_race_free : forall m (ts : list (list (list Z))) x,
  race_free (mkState m mutexes_free (map (fun cs => calls (map override_signals cs) Stop) ts)) x.
Proof. intros m ts x. exact (permissions_sound _ _ _ _ _ scarriers_nodup scarriers_all _ x (override_inv m ts)). Qed.
