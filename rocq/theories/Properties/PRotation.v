(** C111: changing the log file while threads log, from the statements to the files. *)
From Coq Require Import Ascii String List ZArith NArith Bool Lia.
From Verif.Base Require Import Bytes.
From Verif.Model Require Import Levels TimeFmt Message FileSink EndToEnd.
From Verif.Model Require Worker.
From Verif.Spec Require Import TimeSpec MessageSpec EndToEndSpec RotationSpec.
From Verif.Spec Require FileSinkSpec WorkerSpec.
From Verif.Proofs Require Import FileSinkFacts EndToEndFacts RotationFacts.
From Verif.Proofs Require WorkerHist WorkerNum WorkerEnd WorkerBusy WorkerTok.
From Verif.Properties Require PFileSink PWorker PEndToEnd.
Import ListNotations.
Local Open Scope list_scope.

(** a file sink, whatever it has received *)
Lemma files_of_sink : forall e warn prog calls luck high p dir id every now r1 r2 f w0 tnow kend x i0,
  create e high p dir id every now r1 r2 f = Ok w0 -> (every <> 0)%N -> (r1 = Some i0 \/ r1 = None /\ r2 = Some i0) ->
  gentle e calls -> sane e luck tnow -> (forall m, In m (WorkerSpec.received x) -> plain e (prog m)) ->
  NoDup (i0 :: changes calls (Worker.k_got x)) ->
  exists files i ps t g, map fst (files ++ [(i, ps)]) = i0 :: changes calls (Worker.k_got x) /\
    sink_files e warn prog calls luck w0 tnow kend x = Ok g /\
    Forall2 (fun m l => shows e warn (prog m) l) (WorkerSpec.received x) (concat (map (fun q => FileSinkSpec.entries (snd q)) (files ++ [(i, ps)]))) /\
    (forall j q, In (j, q) (files ++ [(i, ps)]) -> FileSinkSpec.notes_ok q) /\
    (forall j q, In (j, q) files -> g j = FileSinkSpec.bytes q) /\
    FileName.formatted (clock_of e) tnow time_formatted = FOk t /\ g i = FileSinkSpec.bytes ps ++ FileSinkSpec.closing_text t.
Proof.
  intros e warn prog calls luck high p dir id every now r1 r2 f [s0 d0] tnow kend x i0 C Z RR M (S1 & S2 & S3 & S4) P ND.
  assert (P' : forall m, In (Worker.JMsg m) (Worker.k_got x) -> plain e (prog m)).
  { intros m I. apply P. unfold WorkerSpec.received, WorkerSpec.msgs. apply in_flat_map. exists (Worker.JMsg m). split; [exact I|now left]. }
  pose proof (create_sink _ _ _ _ _ _ _ _ _ _ _ C) as (C1 & C2 & C3 & C4 & C5 & C6). cbn [fst snd] in *.
  assert (O : exists st, d_out d0 = Some st).
  { destruct (create_inv _ _ _ _ _ _ _ _ _ _ _ C) as [(i & _ & D & _)|H]; [cbn [snd] in D; rewrite D; eauto|].
    exfalso. destruct H as (H1 & H2 & _). destruct RR as [RR|(RR1 & RR2)]; congruence. }
  destruct O as [st DO].
  assert (Z' : (_write_to_log_every_x_message s0 <> 0)%N) by (rewrite C6; exact Z).
  destruct (ops_total2 e warn prog calls luck (Worker.k_got x) 0 s0 d0 st M P' S1 S4 DO Z' C1) as (s1 & d1 & st1 & R & D1).
  destruct (destroy_total e s1 d1 st1 tnow kend D1 (closing_time e tnow S2 S3)) as (g & D).
  rewrite <- (opened_changes e warn prog calls luck (Worker.k_got x) 0 M) in *.
  destruct (PFileSink.C55_all_messages_after_shutdown e high p dir id every now r1 r2 f (s0, d0) _ _ i0 tnow kend g C Z RR ND R D)
    as (files & i & ps & t & MF & RC & NO & FL & T & G).
  exists files, i, ps, t, g. split; [exact MF|]. split; [unfold sink_files; rewrite R; exact D|].
  split; [exact (ops_received2 e warn prog calls luck _ 0 _ M P' RC)|]. auto.
Qed.

(** ~LogWorker has returned; h is everything that had entered the worker's queue when it began.  Sink k is a file sink that no
    client owns.  While threads logged, others changed its file through its handle, each time to a file not used before; some
    attempts may have failed.  In the files, in the order in which they were opened, stand one line for each statement that was
    logged before the destructor began, in the order of the queue, then those logged meanwhile: each line in one file, once.
    Besides these lines the files hold headers, notices and at the end of the last one the closing line. *)
Theorem C111_after_shutdown : forall n s i h k e prog calls luck high p dir id every now r1 r2 f w0 tnow kend i0,
  Worker.wreach n s -> Worker.c_pc (Worker.cl s i) = Worker.DDone h ->
  (forall j, ~ In k (Worker.c_hold (Worker.cl s j))) -> (forall j next, Worker.c_pc (Worker.cl s j) <> Worker.CJoin k next) ->
  (forall m, In m (WorkerSpec.logged (Worker.entered s)) -> plain e (prog m)) ->
  create e high p dir id every now r1 r2 f = Ok w0 -> (every <> 0)%N -> (r1 = Some i0 \/ r1 = None /\ r2 = Some i0) ->
  gentle e calls -> sane e luck tnow -> NoDup (i0 :: changes calls (Worker.k_got (Worker.sk s k))) ->
  exists files last ps t g more,
    sink_files e [] prog calls luck w0 tnow kend (Worker.sk s k) = Ok g /\
    map fst (files ++ [(last, ps)]) = i0 :: changes calls (Worker.k_got (Worker.sk s k)) /\
    Forall2 (fun m l => shows e [] (prog m) l) (WorkerSpec.window k false h ++ more)
      (concat (map (fun q => FileSinkSpec.entries (snd q)) (files ++ [(last, ps)]))) /\
    NoDup (WorkerSpec.window k false h ++ more) /\
    (forall u a b, WorkerSpec.before (u, a) (u, b) (WorkerSpec.window k false h ++ more) -> a < b) /\
    (forall j q, In (j, q) (files ++ [(last, ps)]) -> FileSinkSpec.notes_ok q) /\
    (forall j q, In (j, q) files -> g j = FileSinkSpec.bytes q) /\
    FileName.formatted (clock_of e) tnow time_formatted = FOk t /\ g last = FileSinkSpec.bytes ps ++ FileSinkSpec.closing_text t.
Proof.
  intros n s i h k e prog calls luck high p dir id every now r1 r2 f w0 tnow kend i0 R PC NH NJ PL C Z RR M SA ND.
  destruct (PWorker.C09_flush_partial n s i h k R PC) as (_ & FL). destruct (FL NH NJ) as (_ & more & E). clear FL.
  destruct (PWorker.C05_once n s k R) as (NDR & SU).
  assert (IN : forall m, In m (WorkerSpec.received (Worker.sk s k)) -> In m (WorkerSpec.logged (Worker.entered s))).
  { intros m I. clear - SU I. induction SU; [destruct I|right; auto|]. destruct I as [->|I]; [now left|right; auto]. }
  destruct (files_of_sink e [] prog calls luck high p dir id every now r1 r2 f w0 tnow kend (Worker.sk s k) i0 C Z RR M SA (fun m I => PL m (IN m I)) ND)
    as (files & la & ps & t & g & MF & SF & F & NO & FI & T & G).
  exists files, la, ps, t, g, more. rewrite <- E.
  repeat (split; [solve [assumption | intros u a b BF; exact (PWorker.C06_program_order n s k u a b R BF)]|]). exact G.
Qed.
Print Assumptions C111_after_shutdown.

(** The same at a fatal event: pre is what the worker had taken out of its queue before the fatal message m. *)
Theorem C111_after_crash : forall n s k e prog warn calls luck high p dir id every now r1 r2 f w0 tnow kend i0,
  Worker.wreach n s -> Worker.w_proc s = Worker.PKilled ->
  (forall m, In m (WorkerSpec.logged (Worker.entered s)) -> plain e (prog m)) ->
  create e high p dir id every now r1 r2 f = Ok w0 -> (every <> 0)%N -> (r1 = Some i0 \/ r1 = None /\ r2 = Some i0) ->
  gentle e calls -> sane e luck tnow -> NoDup (i0 :: changes calls (Worker.k_got (Worker.sk s k))) ->
  exists pre m, Worker.w_old s = pre ++ [Worker.TFatal m] /\
    (WorkerSpec.registered k false pre = true ->
     (forall j, ~ In k (Worker.c_hold (Worker.cl s j))) -> (forall j next, Worker.c_pc (Worker.cl s j) <> Worker.CJoin k next) ->
     exists files last ps t g,
      sink_files e warn prog calls luck w0 tnow kend (Worker.sk s k) = Ok g /\
      map fst (files ++ [(last, ps)]) = i0 :: changes calls (Worker.k_got (Worker.sk s k)) /\
      Forall2 (fun m l => shows e warn (prog m) l) (WorkerSpec.window k false pre ++ [m])
        (concat (map (fun q => FileSinkSpec.entries (snd q)) (files ++ [(last, ps)]))) /\
      (forall j q, In (j, q) (files ++ [(last, ps)]) -> FileSinkSpec.notes_ok q) /\
      (forall j q, In (j, q) files -> g j = FileSinkSpec.bytes q) /\
      FileName.formatted (clock_of e) tnow time_formatted = FOk t /\ g last = FileSinkSpec.bytes ps ++ FileSinkSpec.closing_text t).
Proof.
  intros n s k e prog warn calls luck high p dir id every now r1 r2 f w0 tnow kend i0 R K PL C Z RR M SA ND.
  destruct (PWorker.C13_flush_partial n s R K) as (pre & m & E & NF & FL). exists pre, m. split; [exact E|]. intros RG NH NJ.
  assert (NA : WorkerHist.nadd k pre <> 0).
  { intro N. clear - RG N. rewrite WorkerHist.registered_noadd in RG by exact N. discriminate. }
  destruct (FL k NA NH NJ) as (_ & RC). rewrite RG in RC.
  destruct (PWorker.C05_once n s k R) as (NDR & SU).
  assert (IN : forall m, In m (WorkerSpec.received (Worker.sk s k)) -> In m (WorkerSpec.logged (Worker.entered s))).
  { intros u I. clear - SU I. induction SU; [destruct I|right; auto|]. destruct I as [->|I]; [now left|right; auto]. }
  destruct (files_of_sink e warn prog calls luck high p dir id every now r1 r2 f w0 tnow kend (Worker.sk s k) i0 C Z RR M SA (fun m I => PL m (IN m I)) ND)
    as (files & la & ps & t & g & MF & SF & F & NO & FI & T & G).
  rewrite RC in F. exists files, la, ps, t, g. repeat (split; [assumption|]). exact G.
Qed.
Print Assumptions C111_after_crash.

(** Client 0 logs, client 1 changes the file, client 0 logs again, the worker is destroyed. *)
Definition ex_calls (c : nat) : option op := match c with O => Some (OChange (lit "/new/") [] 0 0 0 (Some 2%nat) 9 0 0) | _ => None end.
Definition ex_files (s : Worker.wstate) : out (str * str) :=
  obind PEndToEnd.ex_disk (fun w =>
    obind (sink_files PEndToEnd.ex_env [] PEndToEnd.ex_prog ex_calls (fun _ => (0%Z, 3, 5)) w 0 2 (Worker.sk s 0)) (fun g => Ok (g 1, g 2))).
Definition ex_run : option Worker.wstate :=
  WorkerSpec.wrun (Worker.w_init 2) (PWorker.x_add 0 ++ PWorker.x_log 0 ++ PWorker.x_one ++ [Worker.ACall 1 0; Worker.AGo 1; Worker.AGo 1] ++ PWorker.x_log 0 ++
    [Worker.ADestroy 0; Worker.AGo 0] ++ PWorker.x_one ++ [Worker.AWork; Worker.AWork] ++
    PWorker.x_sink 0 ++ PWorker.x_sink 0 ++ PWorker.x_sink 0 ++ PWorker.x_end 0 ++ [Worker.AWork; Worker.AGo 0; Worker.AWork; Worker.AGo 0]).
(** The first line was still in the buffer when the file was changed: it is in the second file. *)
Example C111_ex :
  option_map (fun s => (Worker.c_pc (Worker.cl s 0), map Worker.c_hold (Worker.w_cl s), changes ex_calls (Worker.k_got (Worker.sk s 0)), ex_files s)) ex_run
  = Some (Worker.DDone [Worker.TAdd 0 0; Worker.TSave (0, 0); Worker.TSave (0, 1)], [[]; []], [2],
     Ok (FileSinkSpec.header_text (lit "x x 04 00:00:00 2021") default_header ++
         FileSinkSpec.header_text (lit "x x 04 00:00:00 2021") default_header ++
         FileSinkSpec.leaving_text (lit "2021/03/04 00:00:00 000000") (lit "/logs/app.20210304-000000.log") (lit "/new/app.20210304-000000.log"),
         FileSinkSpec.arriving_text (lit "2021/03/04 00:00:00 000000") (lit "/logs/app.20210304-000000.log") ++
         lit "2021/03/04 12:52:25 007009	INFO [a.cpp->f:7]	x=1" ++ [NL] ++
         lit "2021/03/04 12:52:25 007010	WARNING [a.cpp->f:9]	two" ++ [NL] ++
         FileSinkSpec.closing_text (lit "00:00:00 000000"))).
Proof. vm_compute. reflexivity. Qed.
Example C111_ex_gentle : gentle PEndToEnd.ex_env ex_calls.
Proof.
  intros [|c]; [|now left]. right. right. do 9 eexists. split; [reflexivity|].
  assert (G : good_time PEndToEnd.ex_env 0) by (split; vm_compute; intuition discriminate). auto.
Qed.
