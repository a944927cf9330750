(** C138: several file sinks when writing may fail.  Models: Model/FaultyDisk.v, Model/WriteError.v; specification: Spec/WriteErrorSpec.v,
    Spec/ManySinksSpec.v. *)
From Coq Require Import Ascii String List ZArith NArith Bool Lia.
From Verif.Base Require Import Bytes.
From Verif.Model Require Import Levels TimeFmt Message FileName FileSink WriteError EndToEnd SharedDisk FaultyDisk ManySinks.
From Verif.Model Require Worker.
From Verif.Spec Require Import TimeSpec MessageSpec EndToEndSpec RotationSpec SharedDiskSpec ManySinksSpec.
From Verif.Spec Require FileSinkSpec WriteErrorSpec WorkerSpec.
From Verif.Proofs Require Import FileSinkFacts WriteErrorFacts EndToEndFacts RotationFacts SharedDiskFacts FaultyDiskFacts.
From Verif.Proofs Require WorkerHist WorkerTrace.
From Verif.Properties Require PFileSink PWriteError PWorker PEndToEnd PSharedDisk PManySinks.
Import ListNotations.
Local Open Scope list_scope.

(** No file is opened by two sinks, and without write errors all goes well, leaving the files w.  Then whatever write errors happen to which sinks:
    all goes well, a sink to which none happens has its files as in w, and files that no sink has opened are not touched. *)
Theorem C138_others : forall flt f sched w, apart sched -> wrun (start f) sched = Some w ->
  exists fw, fwrun flt (fstart f) sched = Some fw /\
    (forall n i, (forall a, flt n a = None) -> In i (touched (own n sched)) -> fw_fs fw i = w_fs w i) /\
    (forall i, (forall n, ~ In i (touched (own n sched))) -> fw_fs fw i = f i).
Proof.
  intros flt f sched w A W.
  destruct (fworld_defined flt f sched) as (fw & F).
  { intros n. destruct (world_streams _ _ _ W n) as (d & D & _). unfold alone, falone in *.
    pose proof (alike_run (flt n) (own n sched) (mkDisk f None None) (mkFD f None None 0)) as X. rewrite D in X.
    destruct (frun _ _ _); [discriminate|]. exfalso. apply X. split; cbn; tauto. }
  exists fw. split; [exact F|]. destruct (fworld_alone _ _ _ _ A F) as (F1 & F2). destruct (world_alone _ _ _ A W) as (A1 & _).
  split; [|exact F2]. intros n i NF T.
  destruct (world_streams _ _ _ W n) as (d & D & _). destruct (fworld_streams _ _ _ _ F n) as (fd & FD & _).
  rewrite (F1 _ _ _ FD T), (A1 _ _ _ D T). unfold alone, falone in *.
  pose proof (healthy_run (flt n) (own n sched) (mkDisk f None None) (mkFD f None None 0) NF) as X. rewrite D, FD in X.
  destruct X as (X & _); [split; [reflexivity|split; reflexivity]|]. now rewrite X.
Qed.
Print Assumptions C138_others.

(** The other sinks fare as if they were alone with their write errors, and so their files are those of C121 to C123: a beginning of what they would
    hold without errors, possibly followed by pieces of it again, without gaps. *)
Theorem C138_own : forall flt f sched ls w fw, complete ls sched -> apart sched -> wrun (start f) sched = Some w -> fwrun flt (fstart f) sched = Some fw ->
  forall n l, nth_error ls n = Some l ->
  (forall fd i, frun (flt n) (mkFD f None None 0) (own n sched) = Some fd -> In i (touched (own n sched)) -> fw_fs fw i = fd_fs fd i) /\
  forall i0 tnow k, begins l i0 -> WriteErrorSpec.apart i0 (FileSinkSpec.opened (l_ops l)) -> l_end l = Some (tnow, k) ->
  forall i, In i (i0 :: FileSinkSpec.opened (l_ops l)) -> exists r, WriteErrorSpec.patched (w_fs w i) r (fw_fs fw i).
Proof.
  intros flt f sched ls w fw (CO & _) A W F n l N.
  destruct (fworld_alone _ _ _ _ A F) as (F1 & _). destruct (world_alone _ _ _ A W) as (A1 & _).
  split; [intros fd i FD T; now apply (F1 n)|].
  intros i0 tnow k B AP EN i I. destruct (CO _ _ N) as (s & L).
  destruct (world_streams _ _ _ W n) as (d & D & _). destruct (fworld_streams _ _ _ _ F n) as (fd & FD & _).
  assert (T : In i (touched (own n sched))).
  { rewrite (life_touched _ _ _ L). destruct B as [-> | [-> ->]]; exact I. }
  rewrite (F1 _ _ _ FD T), (A1 _ _ _ D T). unfold alone, falone in *.
  destruct (life_alone _ _ _ _ _ _ _ L EN D) as (w0 & w1 & C1 & C2 & C3).
  destruct (flife_alone _ _ _ _ _ _ _ _ L EN FD) as (v0 & v1 & G1 & G2 & G3).
  destruct (PWriteError.C123_no_gaps_partial (flt n) _ _ _ _ _ _ _ _ _ _ i0 _ _ _ _ _ _ C1 B AP C2 C3) as (x0 & x1 & h & X1 & X2 & X3 & P).
  rewrite G1 in X1. injection X1 as <-. rewrite G2 in X2. injection X2 as <-. rewrite G3 in X3. injection X3 as <-. apply P.
Qed.
Print Assumptions C138_own.

(** what sinks have received is in their files *)
Lemma nodup_apart : forall i l, NoDup (i :: l) -> WriteErrorSpec.apart i l.
Proof.
  intros i l. revert i. induction l as [|j l IH]; intros i ND; [exact I|]. split.
  - intros ->. apply NoDup_cons_iff in ND as [ND _]. apply ND. now left.
  - apply IH. now apply NoDup_cons_iff in ND.
Qed.

(** the files a sink should have, and those it has when some of its accesses fail *)
Definition despite (flt : faults) (g h : fsys) (used : list nat) : Prop :=
  (forall j, In j used -> exists r, WriteErrorSpec.patched (g j) r (h j)) /\ ((forall a, flt a = None) -> forall j, In j used -> h j = g j).

Lemma lives_despite : forall flt e warn prog ls sched f w fw, complete ls sched -> apart sched ->
  wrun (start f) sched = Some w -> fwrun flt (fstart f) sched = Some fw ->
  forall q l x used tnow, nth_error ls q = Some l -> lives e warn prog x l used tnow ->
  (forall m, In m (WorkerSpec.received x) -> plain e (prog m)) -> despite (flt q) (w_fs w) (fw_fs fw) used.
Proof.
  intros flt e warn prog ls sched f w fw CO A W F q l x used tnow Q (E & Z & calls & luck & kend & i0 & OP & EN & B & G & SA & U & ND) P.
  assert (P' : forall m, In (Worker.JMsg m) (Worker.k_got x) -> plain e (prog m)).
  { intros m I. apply P. unfold WorkerSpec.received, WorkerSpec.msgs. apply in_flat_map. exists (Worker.JMsg m). split; [exact I|now left]. }
  assert (OC : FileSinkSpec.opened (l_ops l) = changes calls (Worker.k_got x)) by (rewrite OP; eapply opened_changes; eauto).
  rewrite <- OC in U. rewrite U in ND |- *. split.
  - destruct (C138_own flt f sched ls w fw CO A W F q l Q) as (_ & X). exact (X i0 tnow kend B (nodup_apart _ _ ND) EN).
  - intros NF j J. destruct (C138_others flt f sched w A W) as (fw' & F' & X & _). rewrite F in F'. injection F' as <-.
    apply (X q); [exact NF|]. destruct CO as (CO & _). destruct (CO _ _ Q) as (s & L).
    rewrite (life_touched _ _ _ L). destruct B as [-> | [-> ->]]; exact J.
Qed.

Lemma in_files_same : forall g h e warn prog used tnow ms, (forall j, In j used -> h j = g j) ->
  in_files g e warn prog used tnow ms -> in_files h e warn prog used tnow ms.
Proof.
  intros g h e warn prog used tnow ms S (files & la & ps & t & M & F & N & B & T & G).
  assert (X : forall j q, In (j, q) (files ++ [(la, ps)]) -> h j = g j).
  { intros j q I. apply S. rewrite <- M. apply in_map_iff. exists (j, q). auto. }
  exists files, la, ps, t. split; [exact M|]. split; [exact F|]. split; [exact N|]. split; [|split; [exact T|]].
  - intros j q I. rewrite (X j q) by (apply in_or_app; auto). auto.
  - rewrite (X la ps) by (apply in_or_app; right; now left). exact G.
Qed.

(** ~LogWorker has returned; h is everything that had entered the worker's queue when it began.  The sinks ks, which no client owns, are file
    sinks and no file is opened by two of them; write errors happen anywhere.  A sink to which none happens holds the whole log (C133); the
    files of the others hold a beginning of what they should, possibly followed by pieces of it again. *)
Theorem C138_after_shutdown : forall flt n s i h e prog ks ls sched f,
  Worker.wreach n s -> Worker.c_pc (Worker.cl s i) = Worker.DDone h ->
  (forall m, In m (WorkerSpec.logged (Worker.entered s)) -> plain e (prog m)) ->
  Forall2 (fun k l => unheld s k /\ exists used tnow, lives e [] prog (Worker.sk s k) l used tnow) ks ls ->
  complete ls sched -> apart sched ->
  exists fw, fwrun flt (fstart f) sched = Some fw /\
  forall q k l used tnow, nth_error ks q = Some k -> nth_error ls q = Some l -> lives e [] prog (Worker.sk s k) l used tnow ->
  exists more,
    ((forall a, flt q a = None) -> in_files (fw_fs fw) e [] prog used tnow (WorkerSpec.window k false h ++ more)) /\
    (exists g, in_files g e [] prog used tnow (WorkerSpec.window k false h ++ more) /\
       forall j, In j used -> exists r, WriteErrorSpec.patched (g j) r (fw_fs fw j)) /\
    NoDup (WorkerSpec.window k false h ++ more) /\
    (forall u a b, WorkerSpec.before (u, a) (u, b) (WorkerSpec.window k false h ++ more) -> a < b) /\
    (WorkerSpec.logged (Worker.entered s) = WorkerSpec.logged h -> more = []).
Proof.
  intros flt n s i h e prog ks ls sched f R PC PL OK CO A.
  destruct (PManySinks.C133_after_shutdown_partial n s i h e prog ks ls sched f R PC PL OK CO A) as (w & W & X).
  destruct (C138_others flt f sched w A W) as (fw & F & _). exists fw. split; [exact F|]. intros q k l used tnow K Q L.
  destruct (X q k l used tnow K Q L) as (more & I & REST). exists more.
  assert (D : despite (flt q) (w_fs w) (fw_fs fw) used).
  { eapply lives_despite; eauto. eapply PManySinks.received_plain; eauto. }
  destruct D as [D1 D2]. split; [|split; [|exact REST]].
  - intro NF. eapply in_files_same; [|exact I]. auto.
  - exists (w_fs w). auto.
Qed.
Print Assumptions C138_after_shutdown.

(** The same at a fatal event: pre is what the worker had taken out of its queue before the fatal message m. *)
Theorem C138_after_crash : forall flt n s e warn prog ks ls sched f,
  Worker.wreach n s -> Worker.w_proc s = Worker.PKilled ->
  (forall m, In m (WorkerSpec.logged (Worker.entered s)) -> plain e (prog m)) ->
  Forall2 (fun k l => exists used tnow, lives e warn prog (Worker.sk s k) l used tnow) ks ls ->
  complete ls sched -> apart sched ->
  exists fw pre m, fwrun flt (fstart f) sched = Some fw /\ Worker.w_old s = pre ++ [Worker.TFatal m] /\
  forall q k l used tnow, nth_error ks q = Some k -> nth_error ls q = Some l -> lives e warn prog (Worker.sk s k) l used tnow ->
  unheld s k -> WorkerSpec.registered k false pre = true ->
  ((forall a, flt q a = None) -> in_files (fw_fs fw) e warn prog used tnow (WorkerSpec.window k false pre ++ [m])) /\
  exists g, in_files g e warn prog used tnow (WorkerSpec.window k false pre ++ [m]) /\
    forall j, In j used -> exists r, WriteErrorSpec.patched (g j) r (fw_fs fw j).
Proof.
  intros flt n s e warn prog ks ls sched f R PK PL OK CO A.
  destruct (PManySinks.C133_after_crash_partial n s e warn prog ks ls sched f R PK PL OK CO A) as (w & pre & m & W & O & X).
  destruct (C138_others flt f sched w A W) as (fw & F & _). exists fw, pre, m. split; [exact F|]. split; [exact O|].
  intros q k l used tnow K Q L U RG. pose proof (X q k l used tnow K Q L U RG) as I.
  assert (D : despite (flt q) (w_fs w) (fw_fs fw) used).
  { eapply lives_despite; eauto. eapply PManySinks.received_plain; eauto. }
  destruct D as [D1 D2]. split; [|exists (w_fs w); auto].
  intro NF. eapply in_files_same; [|exact I]. auto.
Qed.
Print Assumptions C138_after_crash.

(** Two loggers in one run of the worker (C133_ex), and the device of the first is full in the middle of its second message: the rest of its log is
    missing; the other logger has everything. *)
Example C138_ex : let a := PManySinks.ex_sink None 0 1 0 in let b := PManySinks.ex_sink (Some (lit "other")) 500000000 2 1 in
  let flt := fun n a => if Nat.eqb n 0 && Nat.leb 4 a then Some (mkFault 231 231 0) else None in
  Worker.wreach 1 PManySinks.ex_state /\ PManySinks.default_logger PEndToEnd.ex_env PManySinks.ex_prog PManySinks.ex_state 0 a 1 0 /\
  PManySinks.default_logger PEndToEnd.ex_env PManySinks.ex_prog PManySinks.ex_state 1 b 2 0 /\
  complete [a; b] (PManySinks.ex_sched a b) /\ apart (PManySinks.ex_sched a b) /\
  option_map (fun w => (fw_fs w 1, fw_fs w 2, fw_fs w 3)) (fwrun flt (fstart (fun _ => lit "old")) (PManySinks.ex_sched a b)) =
    Some (FileSinkSpec.header_text (lit "x x 04 00:00:00 2021") default_header ++
          lit "2021/03/04 12:52:25 007009	INFO [a.cpp->f:7]	~" ++ [NL] ++ lit "2021/03/",
          FileSinkSpec.header_text (lit "x x 04 00:00:00 2021") default_header ++
          lit "2021/03/04 12:52:25 007010	WARNING [a.cpp->f:9]	two" ++ [NL] ++ FileSinkSpec.closing_text (lit "00:00:00 000000"),
          lit "old").
Proof.
  cbv zeta. destruct PManySinks.C133_ex as (D1 & D2 & C & A & _).
  split; [exact PManySinks.ex_reached|]. split; [exact D1|]. split; [exact D2|]. split; [exact C|]. split; [exact A|].
  vm_compute. reflexivity.
Qed.
