(** Which locations the threads of the library access atomically, and whose values they do not look at.  *)
From Coq Require Import List ZArith Bool Lia Arith.
From Verif Require Import Base.Threads Model.Races Spec.RacesSpec Spec.HappensBeforeSpec Spec.WeakMemorySpec
  Proofs.RacesFacts Proofs.RacesUse Proofs.RacesGlobal Proofs.HappensBeforeFacts.
Import ListNotations.
Local Open Scope nat_scope.

(** only the switches of the level table are accessed atomically *)
Fixpoint plain_but_switches (p : prog) : Prop :=
  match p with
  | Stop => True
  | Acq _ k | Rel _ k => plain_but_switches k
  | Rd a x k => (a = true -> atomics x = true) /\ forall v, plain_but_switches (k v)
  | Wr a x _ k => (a = true -> atomics x = true) /\ plain_but_switches k
  | Rmw x _ k => atomics x = true /\ plain_but_switches k
  end.

Lemma step_plain : forall st t st', step st t = Some st' -> (forall u, plain_but_switches (get Stop (ths st) u)) ->
  forall u, plain_but_switches (get Stop (ths st') u).
Proof.
  intros st t st' E B u. destruct (Nat.eq_dec u t) as [->|N]; [|now rewrite (step_other st t st' u E N)].
  specialize (B t). unfold step in E.
  assert (L : t < length (ths st)).
  { apply (get_in Stop). intro Z. rewrite Z in E. discriminate. }
  destruct (get Stop (ths st) t) as [|s k|s k|a y k|a y v k|y f k]; try discriminate; [destruct (sems st s); [discriminate|]|..];
    injection E as <-; cbn [ths]; rewrite get_upd_same by auto; cbn in B; auto; apply B.
Qed.
(** then threads that do not race do not meet at the other locations at all *)
Lemma plain_never_meet : forall st x, (forall u, plain_but_switches (get Stop (ths st) u)) -> race_free st x -> atomics x = false -> never_meet st x.
Proof.
  intros st x B RF A sched st' R (u & v & wu & wv & au & av & N & Eu & Ev & W).
  assert (P : forall u, plain_but_switches (get Stop (ths st') u)).
  { clear -B R. revert st B R. induction sched as [|t l IH]; intros st B R; cbn in R; [injection R as <-; auto|].
    destruct (step st t) eqn:St; [|discriminate]. eapply IH; [|exact R]. eapply step_plain; eauto. }
  assert (Q : forall t w a, next_access (get Stop (ths st') t) = Some (x, w, a) -> a = false).
  { intros t w a E. specialize (P t). destruct (get Stop (ths st') t); try discriminate; cbn in *; injection E; intros; subst.
    - destruct a; auto. destruct P as (P & _). rewrite P in A by auto. discriminate A.
    - destruct a; auto. destruct P as (P & _). rewrite P in A by auto. discriminate A.
    - destruct P as (P & _). rewrite P in A. discriminate. }
  apply (RF sched st' R). exists u, v, wu, wv, au, av. repeat split; auto. rewrite (Q u wu au Eu). reflexivity.
Qed.

(** ** The signals *)
Lemma blind_restore : forall l sigs k, blind (LStatus l) k -> blind (LStatus l) (restore_all sigs k).
Proof.
  intros l. induction sigs as [|s r IH]; intros k P; cbn; auto. split; [discriminate|]. intro v. destruct (existsb (Z.eqb s) v); cbn; auto.
Qed.
Lemma blind_install : forall l sigs k, blind (LStatus l) k -> blind (LStatus l) (install_all sigs k).
Proof. intros l. induction sigs as [|s r IH]; intros k P; cbn; auto. split; [discriminate|auto]. Qed.
(** ** The level table *)
Definition ignored (l : Z) (p : prog) : Prop := blind (LStatus l) p.

Lemma blind_at_key : forall l m k, ignored l k -> ignored l (at_key m k).
Proof. intros l m k P. unfold at_key. split; [discriminate|]. intro v. destruct (has_key m v); cbn; auto. Qed.
Lemma blind_assign : forall l m on k, ignored l k -> ignored l (assign m on k).
Proof. intros l m on k P. exact P. Qed.
Lemma blind_set : forall l m on k, ignored l k -> ignored l (set_level m on k).
Proof.
  intros l m on k P. unfold set_level. split; [discriminate|]. intro v. fold (ignored l (if has_key m v then at_key m (assign m on k) else k)).
  destruct (has_key m v); auto. now apply blind_at_key, blind_assign.
Qed.
Lemma blind_tcall : forall l c k, ignored l k -> ignored l (tcall_prog c k).
Proof.
  intros l [m|m on|m|on| |m|m on|] k P; cbn [tcall_prog].
  - unfold log_level. apply blind_at_key. split; auto.
  - now apply blind_set.
  - unfold set_highest. split; [discriminate|]. intro v. fold (ignored l (if has_key m v then highest_loop m v k else k)).
    destruct (has_key m v); auto. generalize v as w. induction w as [|y r IH]; cbn [highest_loop]; auto.
    split; [discriminate|]. intros _. now apply blind_set.
  - unfold set_all. split; [discriminate|]. intro v. fold (ignored l (all_loop on v k)). induction v as [|y r IH]; cbn; auto.
  - unfold get_all. split; [discriminate|]. intro v. fold (ignored l (copy_loop v k)). induction v as [|y r IH]; cbn; auto.

  - unfold get_status. split; [discriminate|]. intro v. fold (ignored l (if has_key m v then Rd true (LStatus m) (fun _ => k) else k)).
    destruct (has_key m v); auto. split; auto.
  - unfold add_level. now apply blind_at_key, blind_assign.
  - unfold reset_levels. cbn. exact P.
Qed.

Lemma plain_at_key : forall m k, plain_but_switches k -> plain_but_switches (at_key m k).
Proof. intros m k P. unfold at_key. split; [discriminate|]. intro v. destruct (has_key m v); cbn; repeat split; auto; discriminate. Qed.
Lemma plain_assign : forall m on k, plain_but_switches k -> plain_but_switches (assign m on k).
Proof. intros m on k P. cbn. repeat split; auto. Qed.
Lemma plain_set : forall m on k, plain_but_switches k -> plain_but_switches (set_level m on k).
Proof.
  intros m on k P. unfold set_level. split; [discriminate|]. intro v.
  destruct (has_key m v); auto. now apply plain_at_key, plain_assign.
Qed.
Lemma plain_tcall : forall c k, plain_but_switches k -> plain_but_switches (tcall_prog c k).
Proof.
  intros [m|m on|m|on| |m|m on|] k P; cbn [tcall_prog].
  - unfold log_level. apply plain_at_key. split; auto.
  - now apply plain_set.
  - unfold set_highest. split; [discriminate|]. intro v.
    destruct (has_key m v); auto. generalize v as w. induction w as [|y r IH]; cbn [highest_loop]; auto.
    split; [discriminate|]. intros _. now apply plain_set.
  - unfold set_all. split; [discriminate|]. intro v. induction v as [|y r IH]; cbn; auto.
  - unfold get_all. split; [discriminate|]. intro v. induction v as [|y r IH]; cbn; auto.

  - unfold get_status. split; [discriminate|]. intro v.
    destruct (has_key m v); auto. split; auto.
  - unfold add_level. now apply plain_at_key, plain_assign.
  - unfold reset_levels. cbn. repeat split; auto; discriminate.
Qed.

(** ** The documented use *)
Section Use.
Variable l : Z.
Notation B := (blind (LStatus l)).

Lemma blind_ask : forall j k, B k -> B (ask_worker j k).
Proof. intros j k P. cbn. split; [discriminate|]. intros _. split; [discriminate|auto]. Qed.
Lemma blind_once : forall i body k, (forall k, B k -> B (body k)) -> B k -> B (once i body k).
Proof. intros i body k Q P. cbn. split; [discriminate|]. intro v. destruct (is_set v); cbn; auto. Qed.
Lemma blind_push : forall k, B k -> B (push_message k).
Proof.
  intros k P. unfold push_message. split; [discriminate|]. intro v. destruct (is_set v).
  - split; [discriminate|]. intros _. now apply blind_ask.
  - apply blind_once; auto. intros k' P'. cbn. split; [discriminate|auto].
Qed.
Lemma blind_ucall : forall c k, B k -> B (ucall_prog c k).
Proof.
  intros [m|m| | | |h] k P; cbn [ucall_prog].
  - unfold log_level. apply blind_at_key. split; auto. intros _. now apply blind_push.
  - apply (blind_tcall l (TStatus m) k P).
  - now apply blind_ask.
  - now apply blind_ask.
  - now apply blind_ask.
  - exact P.
Qed.
Lemma blind_ucalls : forall cs k, B k -> B (calls (map ucall_prog cs) k).
Proof. intros cs k P. induction cs as [|c cs IH]; cbn; auto. now apply blind_ucall. Qed.
Lemma blind_user : forall i cs, B (user_thread i cs).
Proof. intros i cs. unfold user_thread. cbn. apply blind_ucalls. exact I. Qed.
Lemma blind_starts : forall n k, B k -> B (start_threads n k).
Proof. induction n as [|n IH]; intros k P; cbn; auto. Qed.
Lemma blind_joins : forall n k, B k -> B (join_threads n k).
Proof. induction n as [|n IH]; intros k P; cbn; auto. Qed.
Lemma blind_init : forall k, B k -> B (initialize k).
Proof.
  intros k P. unfold initialize. apply blind_once.
  { intros k' P'. unfold install. split; [discriminate|]. intro v. now apply blind_install. }
  cbn [blind]. split; [discriminate|]. intro v. destruct (is_set v); [exact I|]. apply blind_once.
  { intros k' P'. split; [discriminate|]. intro w. destruct (is_set w); auto. cbn [blind]. now apply blind_ask. }
  exact P.
Qed.
Lemma blind_main : forall n cs, B (main_thread n cs).
Proof.
  intros n cs. unfold main_thread, create_worker. cbn [blind]. apply blind_ask, blind_init, blind_starts, blind_ucalls, blind_joins.
  unfold destroy_worker. split; [discriminate|]. intros _. unfold shut_down, locked. cbn [blind]. apply blind_ask. cbn.
  repeat split; discriminate.
Qed.
Lemma blind_job : forall j k, B k -> B (job_prog j k).
Proof.
  intros j k P. unfold job_prog.
  destruct (j =? j_save)%Z; [split; [discriminate|auto]|]. destruct (j =? j_add)%Z; [split; [discriminate|auto]|].
  destruct (j =? j_remove)%Z; [split; [discriminate|auto]|]. destruct (j =? j_clear)%Z; [exact P|].
  destruct (j =? j_fatal)%Z.
  - unfold shut_down, locked, restore_loop. cbn [blind]. split; [discriminate|]. intros _. split; [discriminate|]. intro w.
    apply blind_restore. exact I.
  - destruct (j =? j_done)%Z; exact P.
Qed.
Lemma blind_run : forall m n, B (run m n).
Proof.
  intros m. induction n as [|n IH]; cbn [run]; [exact I|]. split; [discriminate|]. intro v. destruct (is_set v); [exact I|].
  assert (W : forall q k, (forall j, B (k j)) -> B (q_wait q k)).
  { induction q as [|q IHq]; intros k K; cbn; (split; [discriminate|]); intros [|j r]; cbn; auto. }
  apply W. intro j. now apply blind_job.
Qed.
Lemma blind_documented : forall keys sigs m r mc users u, B (get Stop (ths (documented keys sigs m r mc users)) u).
Proof.
  intros keys sigs m r mc users [|[|u]]; cbn [documented ths get nth].
  - apply blind_main.
  - unfold worker. cbn [blind]. apply blind_run.
  - change (B (get Stop (user_threads 1 users) u)). rewrite user_threads_get. destruct (nth_error users u); [apply blind_user|exact I].
Qed.
End Use.

(** ** Threads that never meet *)
Lemma queue_never_meet : forall m ts x, never_meet (mkState m mutexes_free (map (fun cs => calls (map qcall_prog cs) Stop) ts)) x.
Proof.
  intros m ts x sched st' R (u & v & wu & wv & au & av & N & Eu & Ev & W).
  rewrite (permissions_apart _ _ _ _ _ qcarriers_nodup qcarriers_all _ x sched st' (queue_inv m ts) eq_refl R u v wu wv au av N Eu Ev) in W.
  discriminate.
Qed.
Lemma override_never_meet : forall m ts x, never_meet (mkState m mutexes_free (map (fun cs => calls (map override_signals cs) Stop) ts)) x.
Proof.
  intros m ts x sched st' R (u & v & wu & wv & au & av & N & Eu & Ev & W).
  rewrite (permissions_apart _ _ _ _ _ scarriers_nodup scarriers_all _ x sched st' (override_inv m ts) eq_refl R u v wu wv au av N Eu Ev) in W.
  discriminate.
Qed.
Lemma documented_never_meet : forall keys sigs m r mc users x, Forall (registered keys) mc -> Forall (Forall (registered keys)) users ->
  atomics x = false -> never_meet (documented keys sigs m r mc users) x.
Proof.
  intros keys sigs m r mc users x RM RU A sched st' R (u & v & wu & wv & au & av & N & Eu & Ev & W).
  rewrite (permissions_apart _ _ _ _ _ (dcarriers_nodup _) (dcarriers_all _) _ x sched st' (documented_inv keys sigs m r mc users RM RU)
             A R u v wu wv au av N Eu Ev) in W. discriminate.
Qed.
