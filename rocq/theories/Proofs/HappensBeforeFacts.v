(** An execution with unordered conflicting accesses has a reordering in which they come next to each other.  *)
From Coq Require Import List ZArith Bool Lia Arith.
From Coq Require Import Relations.Relation_Operators.
From Verif Require Import Base.Threads Model.Races Spec.RacesSpec Spec.HappensBeforeSpec Spec.WeakMemorySpec.
Import ListNotations.
Local Open Scope nat_scope.

(** three ways to treat a location: all its conflicting accesses count, atomic or not, and it orders nothing; as the standard
    does; its values are not looked at, and it orders nothing *)
Inductive kind := Plain | Sync | Blind.

Lemma is_event_eq : forall tr i t e u f, is_event tr i t e -> is_event tr i u f -> t = u /\ e = f.
Proof. unfold is_event. intros. rewrite H in H0. injection H0 as -> ->. auto. Qed.

Lemma writes_to_dec : forall tr x i, {writes_to tr x i} + {~ writes_to tr x i}.
Proof.
  intros tr x i. unfold writes_to, is_event. destruct (nth_error tr i) as [(t, [s|s|y r w a])|].
  1,2,4: right; intros (? & ? & ? & E); discriminate.
  destruct (loc_eq_dec y x) as [->|ne]; [|right; intros (? & ? & ? & E); congruence].
  destruct w; [left; eauto|right; intros (? & ? & ? & E); discriminate].
Qed.
Lemma reads_from_dec : forall tr x i j, {reads_from tr x i j} + {~ reads_from tr x i j}.
Proof.
  intros tr x i j. unfold reads_from. destruct (lt_dec i j) as [L|L]; [|right; tauto].
  destruct (writes_to_dec tr x i) as [W|W]; [|right; tauto].
  assert (B : forall n, {forall k, i < k < n -> ~ writes_to tr x k} + {~ forall k, i < k < n -> ~ writes_to tr x k}).
  { induction n as [|n [IH|IH]].
    - left. intros k G. lia.
    - destruct (lt_dec i n) as [G|G].
      + destruct (writes_to_dec tr x n) as [Wn|Wn].
        * right. intro F. apply (F n); [lia|auto].
        * left. intros k Gk. destruct (Nat.eq_dec k n) as [->|]; auto. apply IH. lia.
      + left. intros k Gk. lia.
    - right. intro F. apply IH. intros k Gk. apply F. lia. }
  destruct (B j); [left|right]; tauto.
Qed.

(** the events of an execution and the states between them *)
Lemma trace_states : forall sched st tr, trace sched st = Some tr -> exists S : nat -> state, S 0 = st /\
  forall n t e, is_event tr n t e -> step (S n) t = Some (S (Datatypes.S n)) /\ next_event (get Stop (ths (S n)) t) = Some e /\
    runs (firstn n sched) st = Some (S n).
Proof.
  induction sched as [|t r IH]; intros st tr E; cbn in E.
  - injection E as <-. exists (fun _ => st). split; auto. intros [|n] t e F; discriminate.
  - destruct (next_event (get Stop (ths st) t)) as [e|] eqn:Ne; [|discriminate].
    destruct (step st t) as [st1|] eqn:St; [|discriminate]. destruct (trace r st1) as [tr1|] eqn:T; [|discriminate].
    injection E as <-. destruct (IH _ _ T) as (S & S0 & SS).
    exists (fun n => match n with 0 => st | Datatypes.S m => S m end). split; auto. intros [|n] u f F.
    + injection F as <- <-. rewrite S0. auto.
    + cbn in F. destruct (SS n u f F) as (A & B & C). cbn [firstn runs]. rewrite St. auto.
Qed.

Section Kinds.
Variable kd : loc -> kind.

(** happens-before with the locations treated so *)
Inductive kbefore (tr : events) (i j : nat) : Prop :=
| k_same_thread t e f : i < j -> is_event tr i t e -> is_event tr j t f -> kbefore tr i j
| k_unlock_lock t u s : i < j -> is_event tr i t (Unlocks s) -> is_event tr j u (Locks s) -> kbefore tr i j
| k_write_read t u x r w : kd x = Sync -> is_event tr i t (Accesses x r true true) -> is_event tr j u (Accesses x true w true) ->
    reads_from tr x i j -> kbefore tr i j.
Definition khb (tr : events) : nat -> nat -> Prop := clos_trans nat (kbefore tr).

Definition kconf (tr : events) (x : loc) (i j : nat) : Prop :=
  exists t u r r' w w' a a', t <> u /\ is_event tr i t (Accesses x r w a) /\ is_event tr j u (Accesses x r' w' a') /\
    w || w' = true /\ (kd x <> Plain -> a && a' = false).

Definition krace (st : state) (x : loc) : Prop :=
  exists u v wu wv au av, u <> v /\
    next_access (get Stop (ths st) u) = Some (x, wu, au) /\
    next_access (get Stop (ths st) v) = Some (x, wv, av) /\
    wu || wv = true /\ (kd x <> Plain -> au && av = false).

Lemma kbefore_lt : forall tr i j, kbefore tr i j -> i < j.
Proof. intros tr i j [t e f L _ _|t u s L _ _|t u x r w _ _ _ (L & _)]; auto. Qed.
Lemma khb_lt : forall tr i j, khb tr i j -> i < j.
Proof. intros tr i j H. induction H; [eauto using kbefore_lt|lia]. Qed.

Lemma kbefore_dec : forall tr i j, {kbefore tr i j} + {~ kbefore tr i j}.
Proof.
  intros tr i j. destruct (lt_dec i j) as [L|L]; [|right; intro B; apply kbefore_lt in B; lia].
  destruct (nth_error tr i) as [(t, e)|] eqn:Ei.
  2:{ right. intros [t e f _ A _|t u s _ A _|t u x r w _ A _ _]; unfold is_event in A; congruence. }
  destruct (nth_error tr j) as [(u, f)|] eqn:Ej.
  2:{ right. intros [t' e' f' _ _ A|t' u' s _ _ A|t' u' x r w _ _ A _]; unfold is_event in A; congruence. }
  destruct (Nat.eq_dec t u) as [->|N]. { left. eapply k_same_thread; eauto. }
  assert (U : forall s, {e = Unlocks s /\ f = Locks s} + {~ (e = Unlocks s /\ f = Locks s)}).
  { intro s. destruct e as [s1|s1|]; destruct f as [s2|s2|]; try (right; intros (A & B); discriminate).
    destruct (sem_eq_dec s1 s), (sem_eq_dec s2 s); subst; auto; right; intros (A & B); congruence. }
  destruct e as [s|s|x r w a].
  - right. intros [t' e' f' _ A B|t' u' s' _ A B|t' u' x r w _ A B _]; unfold is_event in *; congruence.
  - destruct (U s) as [(_ & ->)|NU].
    + left. eapply k_unlock_lock; eauto.
    + right. intros [t' e' f' _ A B|t' u' s' _ A B|t' u' x r w _ A B _]; unfold is_event in *; try congruence.
      apply NU. split; congruence.
  - destruct f as [s|s|y r' w' a'].
    1,2: right; intros [t' e' f' _ A B|t' u' s' _ A B|t' u' y r' w' _ A B _]; unfold is_event in *; congruence.
    destruct (loc_eq_dec y x) as [->|ne].
    2:{ right. intros [t' e' f' _ A B|t' u' s' _ A B|t' u' z r'' w'' _ A B _]; unfold is_event in *; congruence. }
    destruct (kd x) eqn:K.
    1,3: right; intros [t' e' f' _ A B|t' u' s' _ A B|t' u' z r'' w'' K' A B _]; unfold is_event in *; congruence.
    destruct (reads_from_dec tr x i j) as [RF|RF].
    2:{ right. intros [t' e' f' _ A B|t' u' s' _ A B|t' u' z r'' w'' K' A B RF']; unfold is_event in *; congruence. }
    destruct w, a, r', a'.
    all: try (right; intros [t' e' f' _ A B|t' u' s' _ A B|t' u' z r'' w'' K' A B RF']; unfold is_event in *; congruence).
    left. eapply k_write_read; eauto.
Qed.

Lemma khb_last : forall tr i j, khb tr i j -> kbefore tr i j \/ exists k, khb tr i k /\ kbefore tr k j.
Proof.
  intros tr i j H. apply Operators_Properties.clos_trans_tn1 in H. destruct H as [H|k j H T]; auto. right.
  exists k. split; auto. now apply Operators_Properties.clos_tn1_trans.
Qed.
Lemma khb_dec : forall tr i j, {khb tr i j} + {~ khb tr i j}.
Proof.
  intros tr i j. induction j as [j IH] using lt_wf_rec. destruct (kbefore_dec tr i j) as [B|B]; [left; now apply t_step|].
  assert (F : forall n, n <= j -> {exists k, k < n /\ khb tr i k /\ kbefore tr k j} + {~ exists k, k < n /\ khb tr i k /\ kbefore tr k j}).
  { induction n as [|n IHn]; intro L.
    - right. intros (k & Lk & _). lia.
    - destruct (IHn ltac:(lia)) as [Y|N]; [left; destruct Y as (k & Lk & Q); exists k; split; [lia|auto]|].
      destruct (IH n L) as [A|A].
      + destruct (kbefore_dec tr n j) as [C|C]; [left; exists n; auto|].
        right. intros (k & Lk & H & T). destruct (Nat.eq_dec k n) as [->|]; [auto|]. apply N. exists k. split; [lia|auto].
      + right. intros (k & Lk & H & T). destruct (Nat.eq_dec k n) as [->|]; [auto|]. apply N. exists k. split; [lia|auto]. }
  destruct (F j (le_n j)) as [Y|N].
  - left. destruct Y as (k & _ & H & T). eapply t_trans; [exact H|]. now apply t_step.
  - right. intro H. apply khb_last in H. destruct H as [H|(k & H & T)]; auto. apply N. exists k. split; [eauto using kbefore_lt|auto].
Qed.

(** steps, seen from outside *)
Lemma step_other : forall st t st' u, step st t = Some st' -> u <> t -> get Stop (ths st') u = get Stop (ths st) u.
Proof.
  intros st t st' u E N. unfold step in E.
  destruct (get Stop (ths st) t) as [|s k|s k|a x k|a x v k|x f k]; try discriminate; [destruct (sems st s); [discriminate|]|..];
    injection E as <-; cbn [ths]; now apply get_upd_other.
Qed.
Lemma step_mem_other : forall st t st' e x, step st t = Some st' -> next_event (get Stop (ths st) t) = Some e ->
  (forall r a, e <> Accesses x r true a) -> mem st' x = mem st x.
Proof.
  intros st t st' e x E Ne NW. unfold step in E.
  destruct (get Stop (ths st) t) as [|s k|s k|a y k|a y v k|y f k]; try discriminate; [destruct (sems st s); [discriminate|]|..];
    injection E as <-; cbn [mem]; auto; cbn in Ne; injection Ne as <-; unfold set_mem; destruct (loc_eq_dec x y) as [->|]; auto; exfalso; eapply NW; eauto.
Qed.
Lemma step_blind : forall st t st' x, step st t = Some st' -> (forall u, blind x (get Stop (ths st) u)) -> forall u, blind x (get Stop (ths st') u).
Proof.
  intros st t st' x E B u. destruct (Nat.eq_dec u t) as [->|N]; [|now rewrite (step_other st t st' u E N)].
  specialize (B t). unfold step in E.
  assert (L : t < length (ths st)).
  { apply (get_in Stop). intro Z. rewrite Z in E. discriminate. }
  destruct (get Stop (ths st) t) as [|s k|s k|a y k|a y v k|y f k]; try discriminate; [destruct (sems st s); [discriminate|]|..];
    injection E as <-; cbn [ths]; rewrite get_upd_same by auto; cbn in B; auto; apply B.
Qed.

Section Simulation.
Variables (st : state) (tr : events) (S : nat -> state).
Hypothesis S0 : S 0 = st.
Hypothesis SS : forall n t e, is_event tr n t e -> step (S n) t = Some (S (Datatypes.S n)) /\ next_event (get Stop (ths (S n)) t) = Some e.
Hypothesis SB : forall x u, kd x = Blind -> blind x (get Stop (ths st) u).
Variables (d : nat -> bool) (j : nat).
Hypothesis Lj : j <= length tr.
Hypothesis down : forall k k', k < j -> d k = true -> kbefore tr k' k -> d k' = true.
Hypothesis conf : forall x i n, n < j -> i < n -> kconf tr x i n -> d n = true -> d i = true.

Lemma states_blind : forall n x u, n <= j -> kd x = Blind -> blind x (get Stop (ths (S n)) u).
Proof.
  induction n as [|n IH]; intros x u L K; [rewrite S0; auto|].
  destruct (nth_error tr n) as [(t, e)|] eqn:E; [|apply nth_error_None in E; lia].
  destruct (SS n t e E) as (St & _). apply (step_blind _ _ _ x St). intro v. apply IH; auto. lia.
Qed.

(** all events of thread u before m are kept *)
Definition clean (u m : nat) : Prop := forall k e, k < m -> is_event tr k u e -> d k = true.

Definition sim (n : nat) (R : state) : Prop :=
  (forall u m, m <= n -> clean u m -> m = n \/ (exists e, is_event tr m u e /\ d m = false) ->
     get Stop (ths R) u = get Stop (ths (S m)) u) /\
  (forall x, kd x <> Blind -> (forall m, m < n -> writes_to tr x m -> (forall k, m < k < n -> ~ writes_to tr x k) -> d m = true) ->
     mem R x = mem (S n) x) /\
  (forall s, (forall m t, m < n -> is_event tr m t (Unlocks s) -> d m = true) -> sems (S n) s <= sems R s).

Lemma set_sem_same : forall m s n, set_sem m s n s = n.
Proof. intros. unfold set_sem. now destruct (sem_eq_dec s s). Qed.
Lemma set_sem_other : forall m s n s', s' <> s -> set_sem m s n s' = m s'.
Proof. intros. unfold set_sem. now destruct (sem_eq_dec s' s). Qed.

(** an event that is left out *)
Lemma sim_skip : forall n R t e, n < j -> is_event tr n t e -> d n = false -> sim n R -> sim (Datatypes.S n) R.
Proof.
  intros n R t e L E D (P & M & C). destruct (SS n t e E) as (St & Ne). split; [|split].
  - intros u m Lm Cl Q. destruct (Nat.eq_dec m (Datatypes.S n)) as [->|Nm].
    + assert (u <> t). { intros ->. rewrite (Cl n e) in D; [discriminate|lia|auto]. }
      rewrite (step_other _ _ _ u St) by auto. apply P; auto. intros k f Lk. apply Cl. lia.
    + destruct Q as [Q|Q]; [lia|]. apply P; auto. lia.
  - intros x K W. rewrite (step_mem_other _ _ _ e x St Ne).
    + apply M; auto. intros m Lm Wm Last. apply W; auto. intros k Gk. destruct (Nat.eq_dec k n) as [->|]; [|apply Last; lia].
      intro Wn. rewrite (W n) in D; auto; [discriminate|]. intros; lia.
    + intros r a ->. rewrite (W n) in D; [discriminate|lia|do 3 eexists; exact E|]. intros; lia.
  - intros s Q. specialize (C s (fun m u Lm => Q m u (Nat.lt_lt_succ_r _ _ Lm))). unfold step in St.
    destruct (get Stop (ths (S n)) t) as [|s' k|s' k|a y k|a y v k|y f k]; try discriminate.
    + destruct (sems (S n) s') as [|c] eqn:Sc; [discriminate|]. injection St as <-. cbn [sems].
      destruct (sem_eq_dec s s') as [->|ne]; [rewrite set_sem_same; lia|now rewrite set_sem_other].
    + injection St as <-. cbn [sems]. destruct (sem_eq_dec s s') as [->|ne]; [|now rewrite set_sem_other].
      cbn in Ne. injection Ne as <-. rewrite (Q n t) in D; [discriminate|lia|auto].
    + injection St as <-. auto.
    + injection St as <-. auto.
    + injection St as <-. auto.
Qed.

(** a read that is kept finds the same value *)
Lemma sim_read : forall n R t x w a, n < j -> is_event tr n t (Accesses x true w a) -> d n = true -> sim n R -> kd x <> Blind ->
  mem R x = mem (S n) x.
Proof.
  intros n R t x w a L E D (_ & M & _) K. apply M; auto. intros m Lm (u & r & b & W) Last.
  destruct (Nat.eq_dec u t) as [->|N]. { apply (down n m); auto. eapply k_same_thread; eauto. }
  assert (G : (kd x <> Plain -> b && a = false) \/ kd x = Sync /\ b = true /\ a = true).
  { destruct (kd x); [left; congruence| |congruence]. destruct b, a; auto. }
  destruct G as [G|(KS & -> & ->)].
  - apply (conf x m n); auto. exists u, t, r, true, true, w, b, a. repeat split; auto.
  - apply (down n m); auto. eapply k_write_read; eauto. split; [auto|]. split; [do 3 eexists; exact W|auto].
Qed.

Lemma sim_keep : forall n R t e, n < j -> is_event tr n t e -> d n = true -> sim n R ->
  exists R', step R t = Some R' /\ sim (Datatypes.S n) R'.
Proof.
  intros n R t e L E D Sm. pose proof Sm as (P & M & C). destruct (SS n t e E) as (St & Ne).
  assert (Cl : clean t n). { intros k f Lk F. apply (down n k); auto. eapply k_same_thread; eauto. }
  pose proof (P t n (le_n n) Cl (or_introl eq_refl)) as Pt.
  assert (LR : t < length (ths R)). { apply (get_in Stop). rewrite Pt. intro Z. rewrite Z in Ne. discriminate. }
  assert (LS : t < length (ths (S n))). { apply (get_in Stop). intro Z. rewrite Z in Ne. discriminate. }
  (* the part about programs, once the thread's own is known *)
  assert (PP : forall R', step R t = Some R' -> get Stop (ths R') t = get Stop (ths (S (Datatypes.S n))) t ->
    forall u m, m <= Datatypes.S n -> clean u m -> m = Datatypes.S n \/ (exists e, is_event tr m u e /\ d m = false) ->
    get Stop (ths R') u = get Stop (ths (S m)) u).
  { intros R' SR Own u m Lm Clm Q. destruct (Nat.eq_dec m (Datatypes.S n)) as [->|Nm].
    - destruct (Nat.eq_dec u t) as [->|N]; auto. rewrite (step_other _ _ _ u SR N), (step_other _ _ _ u St N). apply P; auto.
      intros k g Lk. apply Clm. lia.
    - destruct Q as [Q|(f & F & Z)]; [lia|]. destruct (Nat.eq_dec m n) as [->|Nm']; [congruence|].
      destruct (Nat.eq_dec u t) as [->|N]; [rewrite (Cl m f) in Z; [discriminate|lia|auto]|].
      rewrite (step_other _ _ _ u SR N). apply P; eauto. lia. }
  (* the part about memory, when the event does not write x *)
  assert (MM : forall x, kd x <> Blind -> (forall r a, e <> Accesses x r true a) ->
    (forall m, m < Datatypes.S n -> writes_to tr x m -> (forall k, m < k < Datatypes.S n -> ~ writes_to tr x k) -> d m = true) ->
    mem R x = mem (S (Datatypes.S n)) x).
  { intros x K NW Q. rewrite (step_mem_other _ _ _ e x St Ne NW). apply M; auto. intros m Lm W Last. apply Q; auto.
    intros k Gk. destruct (Nat.eq_dec k n) as [->|]; [|apply Last; lia]. intros (u & r & a & F).
    destruct (is_event_eq _ _ _ _ _ _ E F) as (_ & ->). eapply NW; eauto. }
  assert (CC : forall s, (forall m u, m < Datatypes.S n -> is_event tr m u (Unlocks s) -> d m = true) -> sems (S n) s <= sems R s).
  { intros s Q. apply C. intros m u Lm. apply Q. lia. }
  pose proof (fun x => states_blind n x t (Nat.lt_le_incl _ _ L)) as Bl.
  unfold step in *. rewrite Pt in *.
  destruct (get Stop (ths (S n)) t) as [|s k|s k|a x k|a x v k|x f k] eqn:G; cbn in Ne; try discriminate; injection Ne as <-.
  - destruct (sems (S n) s) as [|c] eqn:Sc; [discriminate|].
    assert (Q : forall m u, m < n -> is_event tr m u (Unlocks s) -> d m = true).
    { intros m u Lm F. apply (down n m); auto. eapply k_unlock_lock; eauto. }
    pose proof (C s Q) as G1. rewrite Sc in G1. destruct (sems R s) as [|c'] eqn:Sc'; [lia|]. eexists. split; [reflexivity|].
    injection St as St. split; [|split].
    + apply PP; [reflexivity|]. rewrite <- St. cbn [ths]. now rewrite !get_upd_same.
    + intros x K. cbn [mem]. apply MM; auto. discriminate.
    + intros s' Q'. specialize (CC s' Q'). rewrite <- St. cbn [sems].
      destruct (sem_eq_dec s' s) as [->|ne]; [rewrite !set_sem_same; lia|now rewrite !set_sem_other].
  - eexists. split; [reflexivity|]. injection St as St. split; [|split].
    + apply PP; [reflexivity|]. rewrite <- St. cbn [ths]. now rewrite !get_upd_same.
    + intros x K. cbn [mem]. apply MM; auto. discriminate.
    + intros s' Q'. specialize (CC s' Q'). rewrite <- St. cbn [sems].
      destruct (sem_eq_dec s' s) as [->|ne]; [rewrite !set_sem_same; lia|now rewrite !set_sem_other].
  - eexists. split; [reflexivity|]. injection St as St. split; [|split].
    + apply PP; [reflexivity|]. rewrite <- St. cbn [ths]. rewrite !get_upd_same by auto.
      destruct (kd x) eqn:K; [| |exact (proj1 (Bl x K) eq_refl _ _)]; f_equal; apply (sim_read n R t x false a); auto; congruence.
    + intros y K. cbn [mem]. apply MM; auto. discriminate.
    + intros s' Q'. specialize (CC s' Q'). rewrite <- St. auto.
  - eexists. split; [reflexivity|]. injection St as St. split; [|split].
    + apply PP; [reflexivity|]. rewrite <- St. cbn [ths]. now rewrite !get_upd_same.
    + intros y K Q. cbn [mem]. destruct (loc_eq_dec y x) as [->|ne].
      * rewrite <- St. cbn [mem]. unfold set_mem. destruct (loc_eq_dec x x); congruence.
      * unfold set_mem at 1. destruct (loc_eq_dec y x); [congruence|]. apply MM; auto. congruence.
    + intros s' Q'. specialize (CC s' Q'). rewrite <- St. auto.
  - eexists. split; [reflexivity|]. injection St as St. split; [|split].
    + apply PP; [reflexivity|]. rewrite <- St. cbn [ths]. now rewrite !get_upd_same.
    + intros y K Q. cbn [mem]. destruct (loc_eq_dec y x) as [->|ne].
      * rewrite <- St. cbn [mem]. unfold set_mem. destruct (loc_eq_dec x x); [|congruence]. f_equal.
        apply (sim_read n R t x true true); auto.
      * unfold set_mem at 1. destruct (loc_eq_dec y x); [congruence|]. apply MM; auto. congruence.
    + intros s' Q'. specialize (CC s' Q'). rewrite <- St. auto.
Qed.

Lemma sim_run : forall n, n <= j -> exists sched R, runs sched st = Some R /\ sim n R.
Proof.
  induction n as [|n IH]; intro L.
  - exists [], st. split; [reflexivity|]. split; [|split].
    + intros u m Lm _ _. assert (m = 0) by lia. subst m. now rewrite S0.
    + intros x _ _. now rewrite S0.
    + intros s _. rewrite S0. apply le_n.
  - destruct (IH ltac:(lia)) as (sched & R & Run & Sm).
    destruct (nth_error tr n) as [(t, e)|] eqn:E; [|apply nth_error_None in E; lia].
    destruct (d n) eqn:D.
    + destruct (sim_keep n R t e L E D Sm) as (R' & SR & Sm'). exists (sched ++ [t]), R'. split; auto.
      clear -Run SR. revert st Run. induction sched as [|a sched IH]; intros st Run; cbn in *.
      * injection Run as ->. now rewrite SR.
      * destruct (step st a); [auto|discriminate].
    + exists sched, R. split; auto. eapply sim_skip; eauto.
Qed.
End Simulation.

(** the first event that is not ordered after a conflicting one before it can be brought next to it *)
Lemma first_unordered : forall st sched tr j i x,
  (forall x u, kd x = Blind -> blind x (get Stop (ths st) u)) -> trace sched st = Some tr ->
  (forall n k y, n < j -> k < n -> kconf tr y k n -> khb tr k n) ->
  i < j -> kconf tr x i j -> ~ khb tr i j -> exists sc R, runs sc st = Some R /\ krace R x.
Proof.
  intros st sched tr j i x SB T IH Lij C NH. destruct (trace_states sched st tr T) as (S & S0 & SS0).
  assert (SS : forall n t e, is_event tr n t e -> step (S n) t = Some (S (Datatypes.S n)) /\ next_event (get Stop (ths (S n)) t) = Some e).
  { intros n t e E. destruct (SS0 n t e E) as (A & B & _). auto. }
  destruct C as (t & u & r & r' & w & w' & a & a' & Ntu & Ei & Ej & W & A).
  assert (Lj : j < length tr). { apply nth_error_Some. unfold is_event in Ej. congruence. }
  pose (d := fun k => if khb_dec tr k i then true else if khb_dec tr k j then true else false).
  assert (D : forall k, d k = true <-> khb tr k i \/ khb tr k j).
  { intro k. unfold d. destruct (khb_dec tr k i); [split; auto|]. destruct (khb_dec tr k j); [split; auto|].
    split; [discriminate|tauto]. }
  destruct (sim_run st tr S S0 SS SB d j) with (n := j) as (sc & R & Run & (P & _ & _)); auto; [lia| | |].
  { intros k k' _ Dk B. apply D in Dk. apply D.
    destruct Dk as [Dk|Dk]; [left|right]; (eapply t_trans; [apply t_step; exact B|exact Dk]). }
  { intros y k n Ln Lk C Dn. apply D in Dn. apply D. pose proof (IH n k y Ln Lk C) as H.
    destruct Dn as [Dn|Dn]; [left|right]; (eapply t_trans; [exact H|exact Dn]). }
  assert (Di : d i = false).
  { destruct (d i) eqn:Z; auto. exfalso. apply D in Z. destruct Z as [Z|Z]; auto. apply khb_lt in Z. lia. }
  assert (Pi : get Stop (ths R) t = get Stop (ths (S i)) t).
  { apply P; [lia| |right; eauto]. intros k e Lk E. apply D. left. apply t_step. eapply k_same_thread; eauto. }
  assert (Pj : get Stop (ths R) u = get Stop (ths (S j)) u).
  { apply P; [lia| |left; auto]. intros k e Lk E. apply D. right. apply t_step. eapply k_same_thread; eauto. }
  destruct (SS i t _ Ei) as (_ & Ni). destruct (SS j u _ Ej) as (_ & Nj).
  assert (NA : forall p y r0 w0 a0, next_event p = Some (Accesses y r0 w0 a0) -> next_access p = Some (y, w0, a0)).
  { intros [] y r0 w0 a0 E; cbn in E; try discriminate; injection E; intros; subst; reflexivity. }
  exists sc, R. split; auto. exists t, u, w, w', a, a'. rewrite Pi, Pj. repeat split; auto; eapply NA; eauto.
Qed.

Lemma kconf_dec : forall tr i j, {exists x, kconf tr x i j} + {~ exists x, kconf tr x i j}.
Proof.
  intros tr i j. destruct (nth_error tr i) as [(t, e)|] eqn:Ei.
  2:{ right. intros (x & t & u & r & r' & w & w' & a & a' & _ & A & _). unfold is_event in A. congruence. }
  destruct (nth_error tr j) as [(u, f)|] eqn:Ej.
  2:{ right. intros (x & t' & u' & r & r' & w & w' & a & a' & _ & _ & A & _). unfold is_event in A. congruence. }
  destruct e as [s|s|x r w a].
  1,2: right; intros (x & t' & u' & r & r' & w & w' & a & a' & _ & A & _); unfold is_event in A; congruence.
  destruct f as [s|s|y r' w' a'].
  1,2: right; intros (x' & t' & u' & r' & r'' & w' & w'' & a' & a'' & _ & _ & A & _); unfold is_event in A; congruence.
  assert (Q : {t <> u /\ x = y /\ w || w' = true /\ (kd x <> Plain -> a && a' = false)} +
              {~ (t <> u /\ x = y /\ w || w' = true /\ (kd x <> Plain -> a && a' = false))}).
  { destruct (Nat.eq_dec t u); [right; tauto|]. destruct (loc_eq_dec x y); [|right; tauto].
    destruct (w || w'); [|right; intros (_ & _ & Z & _); discriminate].
    destruct (kd x) eqn:K; [left; repeat split; auto; congruence| |]; (destruct (a && a'); [right; intros (_ & _ & _ & Z); discriminate Z; congruence|left; auto]). }
  destruct Q as [(Q1 & <- & Q2 & Q3)|Q].
  - left. exists x, t, u, r, r', w, w', a, a'. auto.
  - right. intros (z & t1 & u1 & r1 & r2 & w1 & w2 & a1 & a2 & N & A & B & C & D). apply Q. unfold is_event in *.
    rewrite Ei in A. rewrite Ej in B. injection A as -> -> -> -> ->. injection B as -> -> -> -> ->. auto.
Qed.

Theorem unordered_races : forall st sched tr,
  (forall x u, kd x = Blind -> blind x (get Stop (ths st) u)) -> trace sched st = Some tr ->
  forall j i x, i < j -> kconf tr x i j -> ~ khb tr i j -> exists y sc R, runs sc st = Some R /\ krace R y.
Proof.
  intros st sched tr SB T. induction j as [j IH] using lt_wf_ind. intros i x Lij C NH.
  assert (F : forall n, (exists k m, k < m < n /\ (exists y, kconf tr y k m) /\ ~ khb tr k m) \/
                        (forall k m, k < m < n -> (exists y, kconf tr y k m) -> khb tr k m)).
  { induction n as [|n [Y|N]].
    - right. intros; lia.
    - left. destruct Y as (k & m & L & Q). exists k, m. split; [lia|auto].
    - assert (G : forall q, q <= n -> (exists k, k < q /\ (exists y, kconf tr y k n) /\ ~ khb tr k n) \/
                            (forall k, k < q -> (exists y, kconf tr y k n) -> khb tr k n)).
      { induction q as [|q IHq]; intro L; [right; intros; lia|]. destruct (IHq ltac:(lia)) as [Y|Nq].
        - left. destruct Y as (k & Lk & Q). exists k. split; [lia|auto].
        - destruct (kconf_dec tr q n) as [Cq|Cq].
          + destruct (khb_dec tr q n) as [Hq|Hq].
            * right. intros k Lk Ck. destruct (Nat.eq_dec k q) as [->|]; auto. apply Nq; auto. lia.
            * left. exists q. auto.
          + right. intros k Lk Ck. destruct (Nat.eq_dec k q) as [->|]; [contradiction|]. apply Nq; auto. lia. }
      destruct (G n (le_n n)) as [(k & Lk & Q)|Y].
      + left. exists k, n. split; [lia|auto].
      + right. intros k m L Ck. destruct (Nat.eq_dec m n) as [->|]; [apply Y; auto; lia|apply N; auto; lia]. }
  destruct (F j) as [(k & m & L & (y & Cy) & Q)|Ord].
  - apply (IH m (proj2 L) k y); auto. tauto.
  - exists x. apply (first_unordered st sched tr j i x); auto. intros n k y Ln Lk Cy. apply Ord; [lia|eauto].
Qed.
(** if no interleaving brings two conflicting accesses next to each other, all conflicting accesses are ordered *)
Theorem all_ordered : forall st sched tr,
  (forall x u, kd x = Blind -> blind x (get Stop (ths st) u)) ->
  (forall x sc st', runs sc st = Some st' -> ~ krace st' x) ->
  trace sched st = Some tr -> forall j i x, i < j -> kconf tr x i j -> khb tr i j.
Proof.
  intros st sched tr SB NR T j i x L C. destruct (khb_dec tr i j) as [H|NH]; auto. exfalso.
  destruct (unordered_races st sched tr SB T j i x L C NH) as (y & sc & R & Run & K). exact (NR y sc R Run K).
Qed.

(** two accesses next to each other can be made one after the other, and nothing orders them *)
Lemma trace_app : forall sched st st' tr more tr', trace sched st = Some tr -> runs sched st = Some st' -> trace more st' = Some tr' ->
  trace (sched ++ more) st = Some (tr ++ tr').
Proof.
  induction sched as [|t r IH]; intros st st' tr more tr' T R M; cbn in *.
  - injection T as <-. injection R as <-. exact M.
  - destruct (next_event (get Stop (ths st) t)) as [e|]; [|discriminate]. destruct (step st t) as [s1|]; [|discriminate].
    destruct (trace r s1) as [tr1|] eqn:T1; [|discriminate]. injection T as <-. rewrite (IH s1 st' tr1 more tr'); auto.
Qed.
Lemma trace_runs : forall sched st st', runs sched st = Some st' -> exists tr, trace sched st = Some tr.
Proof.
  induction sched as [|t r IH]; intros st st' R; cbn in *; [eauto|].
  destruct (step st t) as [s1|] eqn:St; [|discriminate]. destruct (IH s1 st' R) as (tr & ->).
  assert (exists e, next_event (get Stop (ths st) t) = Some e) as (e & ->).
  { unfold step in St. destruct (get Stop (ths st) t); try discriminate; cbn; eauto. }
  cbn. eauto.
Qed.
Lemma adjacent_unordered : forall st sched st' x, runs sched st = Some st' -> krace st' x ->
  exists sc tr i j, trace sc st = Some tr /\ i < j /\ kconf tr x i j /\ ~ khb tr i j.
Proof.
  intros st sched st' x R (u & v & wu & wv & au & av & N & Eu & Ev & W & A).
  destruct (trace_runs _ _ _ R) as (tr & T).
  assert (NE : forall p w a, next_access p = Some (x, w, a) -> exists r, next_event p = Some (Accesses x r w a)).
  { intros [] w a E; cbn in E; try discriminate; injection E; intros; subst; cbn; eauto. }
  destruct (NE _ _ _ Eu) as (ru & Nu). destruct (NE _ _ _ Ev) as (rv & Nv).
  assert (ST : forall s p w a t, get Stop (ths s) t = p -> next_access p = Some (x, w, a) -> exists s', step s t = Some s').
  { intros s p w a t G E. unfold step. rewrite G. destruct p; try discriminate; eauto. }
  destruct (ST st' _ _ _ u eq_refl Eu) as (s1 & St1).
  pose proof (step_other _ _ _ v St1 ltac:(congruence)) as Gv.
  destruct (ST s1 _ _ _ v eq_refl ltac:(rewrite Gv; exact Ev)) as (s2 & St2).
  exists (sched ++ [u; v]), (tr ++ [(u, Accesses x ru wu au); (v, Accesses x rv wv av)]), (length tr), (S (length tr)).
  assert (Iu : is_event (tr ++ [(u, Accesses x ru wu au); (v, Accesses x rv wv av)]) (length tr) u (Accesses x ru wu au)).
  { unfold is_event. now rewrite nth_error_app2, Nat.sub_diag. }
  assert (Iv : is_event (tr ++ [(u, Accesses x ru wu au); (v, Accesses x rv wv av)]) (S (length tr)) v (Accesses x rv wv av)).
  { unfold is_event. rewrite nth_error_app2 by lia. replace (S (length tr) - length tr) with 1 by lia. reflexivity. }
  split.
  { apply trace_app with (st' := st'); auto. cbn. rewrite Nu, St1, Gv, Nv, St2. reflexivity. }
  split; [lia|]. split.
  { exists u, v, ru, rv, wu, wv, au, av. auto. }
  intro H. apply khb_last in H. destruct H as [H|(k & H & B)].
  2:{ apply khb_lt in H. apply kbefore_lt in B. lia. }
  destruct H as [t e f _ P Q|t t' s _ P Q|t t' y r w K P Q _];
    destruct (is_event_eq _ _ _ _ _ _ Iu P) as (? & P2); destruct (is_event_eq _ _ _ _ _ _ Iv Q) as (? & Q2); subst; try congruence.
  injection P2 as -> -> -> ->. injection Q2 as -> -> ->. discriminate A. congruence.
Qed.
End Kinds.
