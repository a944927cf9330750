(** C131: under a fair scheduler every message arrives and every call returns, though logging never stops. *)
From Coq Require Import List Arith Bool Lia.
From Verif.Base Require Import Threads.
From Verif.Model Require Import Worker.
From Verif.Spec Require Import WorkerSpec FairSpec.
From Verif.Proofs Require Import WorkerLife WorkerHist WorkerTok WorkerEnd WorkerTrace FairFacts.
Import ListNotations.

(** ** C131 *)
(** no client has to be fair for this: clients may stop anywhere in their calls *)
Theorem C131_received : forall n ex ac t, execution n ex ac -> fair_to ex ac Worker -> (forall k, fair_to ex ac (SinkOf k)) ->
  eventually ex t (fun s => forall k, prefix (window k false (entered (ex t))) (received (sk s k))).
Proof. intros n ex ac t EX FW FS. exact (delivered_all n ex ac EX FW FS t). Qed.
Print Assumptions C131_received.
Theorem C131_message : forall n ex ac t l1 l2 m k, execution n ex ac -> fair_to ex ac Worker -> (forall k, fair_to ex ac (SinkOf k)) ->
  entered (ex t) = l1 ++ TSave m :: l2 -> registered k false l1 = true -> eventually ex t (fun s => In m (received (sk s k))).
Proof.
  intros n ex ac t l1 l2 m k EX FW FS E R. destruct (C131_received n ex ac t EX FW FS) as (u & LU & [P|H]); exists u; (split; [exact LU|]); [now left|right].
  destruct (H k) as [r G]. rewrite G, E, window_app, R. cbn [window]. apply in_or_app. left. apply in_or_app. right. now left.
Qed.
Print Assumptions C131_message.
(** a log call hands its message over, whatever the worker and the sinks do *)
Theorem C131_logged : forall n ex ac t i, execution n ex ac -> fair_to ex ac (Client i) ->
  ac t = Some (ALog i) -> w_active (ex t) = true -> eventually ex t (fun s => In (TSave (i, c_n (cl (ex t) i))) (entered s)).
Proof.
  intros n ex ac t i EX FC A AC. pose proof (ex_next _ _ _ EX t) as E. rewrite A in E. set (m := (i, c_n (cl (ex t) i))).
  assert (C : c_pc (cl (ex (S t)) i) = CLog1 m).
  { unfold wstep in E. destruct (w_proc (ex t)); try discriminate. destruct (idle (ex t) i) eqn:ID; [|discriminate]. apply idle_spec in ID as [L _]. rewrite AC in E. injection E as <-.
    unfold count_log. now rewrite cl_set, Nat.eqb_refl by exact L. }
  assert (EN : forall s p, w_proc s = PRun -> c_pc (cl s i) = p -> p = CLog1 m \/ p = CLog2 m -> wstep s (AGo i) <> None).
  { intros s p P CP [-> | ->]; unfold wstep; rewrite P; unfold go; rewrite CP; discriminate. }
  destruct (client_fair n ex ac EX i (S t) (S t) (fun _ => True) FC) as (u & LU & [PU|[CU EU]]); auto; try (rewrite C; first [discriminate|reflexivity]).
  - intros u P CU _. rewrite C in CU. eapply EN; eauto.
  - exists u. split; [lia|auto].
  - rewrite C in CU. destruct (w_proc (ex (S u))) eqn:PSU; try (exists (S u); split; [lia|left; congruence]).
    assert (C2 : c_pc (cl (ex (S u)) i) = CLog2 m).
    { unfold wstep in EU. destruct (w_proc (ex u)); try discriminate. unfold go in EU. rewrite CU in EU. injection EU as EU. rewrite <- EU in PSU |- *. destruct (w_active (ex u)); [|discriminate].
      rewrite (pc_set_cpc (ex u) (ex u) i _ i eq_refl); [now rewrite Nat.eqb_refl|]. apply cl_lt. rewrite CU. discriminate. }
    destruct (client_fair n ex ac EX i (S u) (S u) (fun _ => True) FC) as (v & LV & [PV|[CV EV]]); auto; try (rewrite C2; first [discriminate|reflexivity]).
    + intros v P CV _. rewrite C2 in CV. eapply EN; eauto.
    + exists v. split; [lia|auto].
    + rewrite C2 in CV. exists (S v). split; [lia|]. unfold wstep in EV. destruct (w_proc (ex v)); try discriminate. unfold go in EV. rewrite CV in EV. injection EV as <-.
      destruct (w_bg (ex v)); [right|left; discriminate]. unfold entered. cbn. apply in_or_app. right. apply in_or_app. right. now left.
Qed.
Print Assumptions C131_logged.
(** a call returns although the other clients may stop in the middle of theirs *)
Theorem C131_returns : forall n ex ac t i, execution n ex ac -> fair_to ex ac Worker -> (forall k, fair_to ex ac (SinkOf k)) -> fair_to ex ac (Client i) ->
  eventually ex t (fun s => c_pc (cl s i) = CIdle \/ exists h, c_pc (cl s i) = DDone h).
Proof. intros n ex ac t i EX FW FS FC. exact (client_returns n ex ac EX FW FS i t FC). Qed.
Print Assumptions C131_returns.
(** a fatal message that was handed over ends the process *)
Theorem C131_fatal : forall n ex ac t m, execution n ex ac -> fair_to ex ac Worker -> (forall k, fair_to ex ac (SinkOf k)) ->
  In (TFatal m) (entered (ex t)) -> exists u, t <= u /\ w_proc (ex u) <> PRun.
Proof. intros n ex ac t m EX FW FS H. destruct (fatal_ends n ex ac EX FW FS t m H) as (u & LU & [P|[]]). eauto. Qed.
Print Assumptions C131_fatal.
(** only the sink of the handle and the caller have to go on *)
Theorem C131_future : forall n ex ac t k c p, execution n ex ac -> fair_to ex ac (SinkOf k) -> (forall i, fair_to ex ac (Client i)) ->
  nth_error (w_prom (ex t)) c = Some (k, p) -> p <> BadWeak -> eventually ex t (fun s => exists o, nth_error (w_prom s) c = Some (k, Ready o)).
Proof. intros n ex ac t k c p EX FK FC H N. exact (future_ready n ex ac EX t k c p FK FC H N). Qed.
Print Assumptions C131_future.
(** from every state there is such an execution; and if nothing fatal has happened, and nobody has shut the logger down, there is one in which every client logs again and again for ever *)
Theorem C131_exists : forall n s, wreach n s -> exists ex ac, ex 0 = s /\ execution n ex ac /\ (forall th, fair_to ex ac th) /\
  (forall l, wrun (w_init n) l = Some s -> Forall calm_action l -> w_proc s = PRun -> forall i N, i < n -> exists t, w_proc (ex t) = PRun /\ N <= c_n (cl (ex t) i)).
Proof.
  intros n s R. exists (rex s), (rac s). split; [reflexivity|]. split; [now apply rex_ex|]. split; [now apply (rex_fair n)|].
  intros l W F P i N L. assert (CA : calmly n s) by (split; eauto). destruct (logs_forever n s i N R CA L) as [t H]. exists t. split; [|exact H]. now destruct (rex_calm n s t CA).
Qed.
Print Assumptions C131_exists.
(** a sink is added; then two clients log for ever, and the message that the second logged first arrives *)
Example C131_ex : exists ex ac, execution 2 ex ac /\ (forall th, fair_to ex ac th) /\ entered (ex 0) = [TAdd 0 0; TSave (1, 0)] /\
  (forall i N, i < 2 -> exists t, N <= c_n (cl (ex t) i)) /\ eventually ex 0 (fun s => In (1, 0) (received (sk s 0))).
Proof.
  set (l := [AAdd 0; AWork; AWork; AWork; AWork; AGo 0; ALog 1; AGo 1; AGo 1]).
  destruct (wrun (w_init 2) l) as [s|] eqn:W; [|vm_compute in W; discriminate].
  assert (Q : option_map (fun s => (entered s, w_proc s)) (wrun (w_init 2) l) = Some ([TAdd 0 0; TSave (1, 0)], PRun)) by (vm_compute; reflexivity).
  rewrite W in Q. cbn [option_map] in Q. injection Q as Q P. destruct (C131_exists 2 s (wrun_reach 2 _ _ W)) as (ex & ac & E0 & EX & F & G).
  exists ex, ac. split; [exact EX|]. split; [exact F|]. rewrite E0. split; [exact Q|]. split.
  - intros i N L. destruct (G l W) with (i := i) (N := N) as (t & _ & H); eauto. repeat constructor; exact I.
  - eapply C131_message with (l1 := [TAdd 0 0]) (l2 := []); eauto. rewrite E0. exact Q.
Qed.
