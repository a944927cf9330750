(** C97, C98: from the LOG statements to the log file.  Model: Model/EndToEnd.v, specification: Spec/EndToEndSpec.v. *)
From Coq Require Import Ascii String List ZArith NArith Bool Lia.
From Verif.Base Require Import Bytes.
From Verif.Model Require Import Levels TimeFmt Message FileSink EndToEnd.
From Verif.Model Require Worker.
From Verif.Spec Require Import TimeSpec MessageSpec EndToEndSpec.
From Verif.Spec Require FileSinkSpec WorkerSpec.
From Verif.Proofs Require Import FileSinkFacts EndToEndFacts.
From Verif.Proofs Require WorkerHist WorkerNum WorkerEnd WorkerBusy WorkerTok.
From Verif.Properties Require PFileSink PWorker.
Import ListNotations.
Local Open Scope list_scope.

(** a file sink, whatever it has received *)
Lemma file_of_sink : forall e warn prog calls luck high p dir id every now r1 r2 f w0 tnow kend x,
  create e high p dir id every now r1 r2 f = Ok w0 -> (every <> 0)%N -> d_out (snd w0) <> None ->
  mild calls -> sane e luck tnow -> (forall m, In m (WorkerSpec.received x) -> plain e (prog m)) ->
  exists i hd lines t g, (r1 = Some i \/ r1 = None /\ r2 = Some i) /\ sink_files e warn prog calls luck w0 tnow kend x = Ok g /\
    Forall2 (fun m l => shows e warn (prog m) l) (WorkerSpec.received x) lines /\ top calls (WorkerSpec.received x <> []) hd /\
    FileName.formatted (clock_of e) tnow time_formatted = FOk t /\
    g i = hd ++ concat lines ++ FileSinkSpec.closing_text t /\ forall j, j <> i -> g j = f j.
Proof.
  intros e warn prog calls luck high p dir id every now r1 r2 f [s0 d0] tnow kend x C Z O M (S1 & S2 & S3 & S4) P.
  assert (P' : forall m, In (Worker.JMsg m) (Worker.k_got x) -> plain e (prog m)).
  { intros m I. apply P. unfold WorkerSpec.received, WorkerSpec.msgs. apply in_flat_map. exists (Worker.JMsg m). split; [exact I|now left]. }
  pose proof (create_sink _ _ _ _ _ _ _ _ _ _ _ C) as (C1 & C2 & C3 & C4). cbn [fst snd] in *.
  destruct (d_out d0) as [st|] eqn:DO; [|contradiction].
  assert (Z' : (_write_to_log_every_x_message s0 <> 0)%N).
  { destruct (created_Inv1 _ _ _ _ _ _ _ _ _ _ _ _ C Z ltac:(cbn [snd]; rewrite DO; discriminate)) as (i & _ & I & _). apply I. }
  destruct (ops_total e warn prog calls luck (Worker.k_got x) 0 s0 d0 st M P' S1 S4 DO Z' C1) as (s1 & d1 & st1 & R & D1).
  destruct (destroy_total e s1 d1 st1 tnow kend D1 (closing_time e tnow S2 S3)) as (g & D).
  destruct (PFileSink.C53_file_after_shutdown e high p dir id every now r1 r2 f (s0, d0) _ _ tnow kend g C Z ltac:(cbn [snd]; rewrite DO; discriminate)
    (ops_no_change e warn prog calls luck _ 0 M P') R D) as (i & hd & ts & t & RR & RC & H & T & G & OT).
  exists i, hd, ts, t, g. split; [exact RR|]. split; [unfold sink_files; rewrite R; exact D|]. split; [exact (ops_received e warn prog calls luck _ 0 ts M P' RC)|].
  split; [|auto]. destruct (ops_header e warn prog calls luck _ 0 default_header hd M P' H) as [(A & B)|(A & c & h & B & E)]; [left|right]; (split; [auto|]); eauto.
Qed.

Lemma shows_line : forall e warn st l, (value (st_level st) < 1000)%Z -> shows e warn st l -> line e st l.
Proof.
  intros e warn st l V (name & C & E). exists name. split; [exact C|]. unfold rendering, shown_text in E. destruct (Z.ltb_spec (value (st_level st)) 1000); [exact E|lia].
Qed.
Lemma show_lines : forall e warn (prog : Worker.msg -> stmt) ms lines, (forall m, In m ms -> (value (st_level (prog m)) < 1000)%Z) ->
  Forall2 (fun m l => shows e warn (prog m) l) ms lines -> Forall2 (fun m l => line e (prog m) l) ms lines.
Proof. intros e warn prog ms lines V F. induction F; constructor; [eapply shows_line; [apply V; now left|eassumption]|apply IHF; intros; apply V; now right]. Qed.

Lemma window_in : forall k l on m, In m (WorkerSpec.window k on l) -> In (Worker.TSave m) l \/ In (Worker.TFatal m) l.
Proof.
  induction l as [|t l IH]; intros on m H; [destruct H|]. destruct t; cbn [WorkerSpec.window] in H; try (apply in_app_or in H as [H|H]; [destruct on; [destruct H as [->|[]]|destruct H]|]; cbn; auto; fail);
    try (apply IH in H as [H|H]; cbn; auto; fail).
  - apply in_app_or in H as [H|H]; [destruct on; [destruct H as [->|[]]; cbn; auto|destruct H]|]. apply IH in H as [H|H]; cbn; auto.
  - apply in_app_or in H as [H|H]; [destruct on; [destruct H as [->|[]]; cbn; auto|destruct H]|]. apply IH in H as [H|H]; cbn; auto.
Qed.
Lemma window_none : forall k l on, WorkerSpec.logged l = [] -> WorkerSpec.window k on l = [].
Proof.
  intros k l on H. destruct (WorkerSpec.window k on l) as [|m r] eqn:E; [reflexivity|]. exfalso.
  assert (I : In m (WorkerSpec.window k on l)) by (rewrite E; now left). apply window_in in I.
  assert (J : In m (WorkerSpec.logged l)) by (unfold WorkerSpec.logged; apply in_flat_map; destruct I as [I|I]; eexists; (split; [exact I|now left])). rewrite H in J. destruct J.
Qed.

(** what reaches a sink after the destructor of the worker has begun must have been logged since *)
Lemma nothing_more : forall n s i h k more, Worker.wreach n s -> Worker.c_pc (Worker.cl s i) = Worker.DDone h ->
  WorkerSpec.logged (Worker.entered s) = WorkerSpec.logged h ->
  WorkerSpec.received (Worker.sk s k) = WorkerSpec.window k false h ++ more -> more = [].
Proof.
  intros n s i h k more R PC L E. assert (PH : WorkerSpec.prefix h (Worker.w_old s)).
  { destruct (WorkerTok.reach_inv n s R) as [IA IB IP IT ID]. pose proof (WorkerTok.t_pc s IT i) as TP. rewrite PC in TP. cbn [WorkerTok.tokok] in TP. destruct TP as (h' & A & B).
    eapply WorkerTok.prefix_trans; [exact A|]. eapply WorkerTok.prefix_trans; [|exact B]. apply WorkerTok.prefix_app, WorkerTok.prefix_refl. }
  destruct (PWorker.C05_received n s k R) as (r2' & E2). destruct PH as (r3 & E3). unfold Worker.entered in E2, L. rewrite E3, <- app_assoc in E2, L. rewrite WorkerHist.window_app in E2. rewrite WorkerNum.logged_app in L.
  assert (L2 : WorkerSpec.logged (r3 ++ Worker.w_q s) = []) by (rewrite <- (app_nil_r (WorkerSpec.logged h)) in L at 2; now apply app_inv_head in L).
  rewrite (window_none k _ _ L2), app_nil_r in E2. rewrite E, <- app_assoc in E2. rewrite <- (app_nil_r (WorkerSpec.window k false h)) in E2 at 1. apply app_inv_head in E2.
  symmetry in E2. now apply app_eq_nil in E2 as [-> _].
Qed.

(** ** C97 *)
(** ~LogWorker has returned; h is everything that had entered the worker's queue when it began.  Sink k is a file sink that
    could open its file and that no client owns.  Its file holds the header, one line for each statement that was logged before the
    destructor began, in the order of the queue, then those that were logged meanwhile, and the closing line.  Nothing else
    happens to the files. *)
Theorem C97_after_shutdown : forall n s i h k e prog calls luck high p dir id every now r1 r2 f w0 tnow kend,
  Worker.wreach n s -> Worker.c_pc (Worker.cl s i) = Worker.DDone h ->
  (forall j, ~ In k (Worker.c_hold (Worker.cl s j))) -> (forall j next, Worker.c_pc (Worker.cl s j) <> Worker.CJoin k next) ->
  from_program prog (Worker.entered s) -> (forall m, In m (WorkerSpec.logged (Worker.entered s)) -> plain e (prog m)) ->
  create e high p dir id every now r1 r2 f = Ok w0 -> (every <> 0)%N -> d_out (snd w0) <> None -> mild calls -> sane e luck tnow ->
  exists file more hd lines t g, (r1 = Some file \/ r1 = None /\ r2 = Some file) /\
    sink_files e [] prog calls luck w0 tnow kend (Worker.sk s k) = Ok g /\
    g file = hd ++ concat lines ++ FileSinkSpec.closing_text t /\ (forall j, j <> file -> g j = f j) /\
    Forall2 (fun m l => line e (prog m) l) (WorkerSpec.window k false h ++ more) lines /\
    top calls (WorkerSpec.window k false h ++ more <> []) hd /\ FileName.formatted (clock_of e) tnow time_formatted = FOk t /\
    NoDup (WorkerSpec.window k false h ++ more) /\
    (forall u a b, WorkerSpec.before (u, a) (u, b) (WorkerSpec.window k false h ++ more) -> a < b) /\
    (WorkerSpec.logged (Worker.entered s) = WorkerSpec.logged h -> more = []).
Proof.
  intros n s i h k e prog calls luck high p dir id every now r1 r2 f w0 tnow kend R PC NH NJ FP PL C Z O M SA.
  destruct (PWorker.C09_flush_partial n s i h k R PC) as (_ & FL). destruct (FL NH NJ) as (_ & more & E). clear FL.
  destruct (PWorker.C05_once n s k R) as (ND & SU).
  assert (IN : forall m, In m (WorkerSpec.received (Worker.sk s k)) -> In m (WorkerSpec.logged (Worker.entered s))).
  { intros m I. clear - SU I. induction SU; [destruct I|right; auto|]. destruct I as [->|I]; [now left|right; auto]. }
  destruct (file_of_sink e [] prog calls luck high p dir id every now r1 r2 f w0 tnow kend (Worker.sk s k) C Z O M SA (fun m I => PL m (IN m I)))
    as (file & hd & lines & t & g & RR & SF & F & T & FT & G & OT).
  exists file, more, hd, lines, t, g. rewrite <- E.
  assert (NF : forall m, ~ In (Worker.TFatal m) (Worker.entered s)).
  { destruct (PWorker.C09_worker_ended n s i h R PC) as (W & Q & _). destruct (WorkerEnd.exit_empty s (WorkerTok.reach_inv n s R) W) as (_ & pre & OE & QU).
    intros m I. unfold Worker.entered in I. rewrite Q, app_nil_r, OE in I. apply in_app_or in I as [I|[I|[]]]; [exact (QU _ I)|discriminate]. }
  repeat (split; [solve [assumption | eapply show_lines; [|exact F]; intros m I; apply IN in I; unfold WorkerSpec.logged in I; apply in_flat_map in I as (tk & I1 & I2);
    destruct tk; try destruct I2; try contradiction; subst; [now apply (proj1 FP)|exfalso; eapply NF; eassumption] | intros u a b BF; exact (PWorker.C06_program_order n s k u a b R BF)]|]).
  intro L. exact (nothing_more n s i h k more R PC L E).
Qed.
Print Assumptions C97_after_shutdown.

(** The same when removeSink returns; h is everything that had entered when the removal was requested. *)
Theorem C97_after_removal : forall n s i h k e prog calls luck high p dir id every now r1 r2 f w0 tnow kend,
  Worker.wreach n s -> Worker.c_pc (Worker.cl s i) = Worker.CRmR k h ->
  (forall j, ~ In k (Worker.c_hold (Worker.cl s j))) -> (forall j next, Worker.c_pc (Worker.cl s j) <> Worker.CJoin k next) ->
  (forall j h', j <> i -> Worker.c_pc (Worker.cl s j) <> Worker.CRmW k h') ->
  from_program prog (Worker.entered s) -> (forall m, In m (WorkerSpec.logged (Worker.entered s)) -> plain e (prog m)) ->
  create e high p dir id every now r1 r2 f = Ok w0 -> (every <> 0)%N -> d_out (snd w0) <> None -> mild calls -> sane e luck tnow ->
  exists file more hd lines t g, (r1 = Some file \/ r1 = None /\ r2 = Some file) /\
    sink_files e [] prog calls luck w0 tnow kend (Worker.sk s k) = Ok g /\
    g file = hd ++ concat lines ++ FileSinkSpec.closing_text t /\ (forall j, j <> file -> g j = f j) /\
    Forall2 (fun m l => shows e [] (prog m) l) (WorkerSpec.window k false h ++ more) lines /\
    top calls (WorkerSpec.window k false h ++ more <> []) hd /\ FileName.formatted (clock_of e) tnow time_formatted = FOk t /\
    NoDup (WorkerSpec.window k false h ++ more) /\
    (forall u a b, WorkerSpec.before (u, a) (u, b) (WorkerSpec.window k false h ++ more) -> a < b) /\
    forall s', Worker.wsteps s s' -> Worker.sk s' k = Worker.sk s k.
Proof.
  intros n s i h k e prog calls luck high p dir id every now r1 r2 f w0 tnow kend R PC NH NJ NW FP PL C Z O M SA.
  destruct (PWorker.C08_destroyed_partial n s i k h R PC NH NJ NW) as (_ & _ & (more & E) & ST).
  destruct (PWorker.C05_once n s k R) as (ND & SU).
  assert (IN : forall m, In m (WorkerSpec.received (Worker.sk s k)) -> In m (WorkerSpec.logged (Worker.entered s))).
  { intros m I. clear - SU I. induction SU; [destruct I|right; auto|]. destruct I as [->|I]; [now left|right; auto]. }
  destruct (file_of_sink e [] prog calls luck high p dir id every now r1 r2 f w0 tnow kend (Worker.sk s k) C Z O M SA (fun m I => PL m (IN m I)))
    as (file & hd & lines & t & g & RR & SF & F & T & FT & G & OT).
  exists file, more, hd, lines, t, g. rewrite <- E. repeat (split; [solve [assumption | intros u a b BF; exact (PWorker.C06_program_order n s k u a b R BF)]|]). exact ST.
Qed.
Print Assumptions C97_after_removal.

(** ** C98 *)
(** The worker has handled the fatal message m and kills the process; pre is what it had taken out of its queue before. A file
    sink that was registered, and that no client owns, has in its file the header, one line for each statement logged before that
    reached the worker while the sink was registered, then the fatal message with the stack dump, and the closing line. *)
Theorem C98_after_crash : forall n s k e prog warn calls luck high p dir id every now r1 r2 f w0 tnow kend,
  Worker.wreach n s -> Worker.w_proc s = Worker.PKilled ->
  from_program prog (Worker.entered s) -> (forall m, In m (WorkerSpec.logged (Worker.entered s)) -> plain e (prog m)) ->
  create e high p dir id every now r1 r2 f = Ok w0 -> (every <> 0)%N -> d_out (snd w0) <> None -> mild calls -> sane e luck tnow ->
  exists pre m, Worker.w_old s = pre ++ [Worker.TFatal m] /\
    (WorkerSpec.registered k false pre = true ->
     (forall j, ~ In k (Worker.c_hold (Worker.cl s j))) -> (forall j next, Worker.c_pc (Worker.cl s j) <> Worker.CJoin k next) ->
     exists file hd lines last t g, (r1 = Some file \/ r1 = None /\ r2 = Some file) /\
      sink_files e warn prog calls luck w0 tnow kend (Worker.sk s k) = Ok g /\
      g file = hd ++ concat lines ++ last ++ FileSinkSpec.closing_text t /\ (forall j, j <> file -> g j = f j) /\
      Forall2 (fun m l => line e (prog m) l) (WorkerSpec.window k false pre) lines /\
      shows e warn (prog m) last /\ (1000 <= value (st_level (prog m)))%Z /\
      top calls True hd /\ FileName.formatted (clock_of e) tnow time_formatted = FOk t).
Proof.
  intros n s k e prog warn calls luck high p dir id every now r1 r2 f w0 tnow kend R K FP PL C Z O M SA.
  destruct (PWorker.C13_flush_partial n s R K) as (pre & m & E & NF & FL). exists pre, m. split; [exact E|]. intros RG NH NJ.
  assert (NA : WorkerHist.nadd k pre <> 0).
  { intro N. clear - RG N. rewrite WorkerHist.registered_noadd in RG by exact N. discriminate. }
  destruct (FL k NA NH NJ) as (_ & RC). rewrite RG in RC.
  destruct (PWorker.C05_once n s k R) as (ND & SU).
  assert (IN : forall m, In m (WorkerSpec.received (Worker.sk s k)) -> In m (WorkerSpec.logged (Worker.entered s))).
  { intros u I. clear - SU I. induction SU; [destruct I|right; auto|]. destruct I as [->|I]; [now left|right; auto]. }
  destruct (file_of_sink e warn prog calls luck high p dir id every now r1 r2 f w0 tnow kend (Worker.sk s k) C Z O M SA (fun m I => PL m (IN m I)))
    as (file & hd & lines & t & g & RR & SF & F & T & FT & G & OT).
  rewrite RC in F. apply Forall2_app_inv_l in F as (ls & l2 & F1 & F2 & ->). inversion F2 as [|? la ? ? SH F3]; subst. inversion F3; subst.
  exists file, hd, ls, la, t, g. split; [exact RR|]. split; [exact SF|].
  split; [rewrite G, concat_app; cbn [concat]; now rewrite app_nil_r, <- !app_assoc|]. split; [exact OT|].
  split.
  { eapply show_lines; [|exact F1]. intros u I. apply window_in in I as [I|I]; [|exfalso; eapply NF; eassumption].
    apply (proj1 FP). unfold Worker.entered. rewrite E. apply in_or_app. left. apply in_or_app. now left. }
  split; [exact SH|]. split; [apply (proj2 FP); unfold Worker.entered; rewrite E; apply in_or_app; left; apply in_or_app; right; now left|].
  split; [|exact FT]. rewrite RC in T. destruct T as [(N & _)|(_ & T)]; [exfalso; apply N; intro X; apply app_eq_nil in X as [_ X]; discriminate|right; auto].
Qed.
Print Assumptions C98_after_crash.

(** Examples: two statements of client 0, then the worker is destroyed; one statement, then a failed CHECK of client 1. *)
Definition ex_env : env :=
  mkEnv true (fun _ _ => lit "x") (fun s => mkTm (s mod 60) ((s / 60) mod 60) ((s / 3600) mod 24) 4 2 121)
        1614862345007008009 5000000 (fun t => to_string t) (fun _ m => FOk (_function m)).
Definition ex_prog (m : Worker.msg) : stmt :=
  match m with
  | (1, _) => mkStmt (lit "/src/b.cpp") 8 (lit "g") CONTRACT (lit "1 > 2") 6 [lit "no"] 5003000 2 (lit "#0 g")
  | (_, O) => mkStmt (lit "/src/a.cpp") 7 (lit "f") INFO [] 6 [lit "x="; lit "1"] 5001000 1 []
  | (_, _) => mkStmt (lit "/src/a.cpp") 9 (lit "f") WARNING [] 6 [lit "two"] 5002000 1 []
  end.
Definition ex_disk : out (FileSink * disk) :=
  create ex_env (fun _ => false) (lit "app") (lit "/logs") [] 3 0 (Some 1%nat) None (fun _ => lit "old").
Definition ex_text (s : Worker.wstate) : out (str * str) :=
  obind ex_disk (fun w => obind (sink_files ex_env [] ex_prog (fun _ => None) (fun _ => (0%Z, 3, 5)) w 0 2 (Worker.sk s 0)) (fun g => Ok (g 1, g 2))).
Example C97_ex :
  option_map (fun s => (Worker.c_pc (Worker.cl s 0), map Worker.c_hold (Worker.w_cl s), ex_text s))
    (WorkerSpec.wrun (Worker.w_init 1) (PWorker.x_add 0 ++ PWorker.x_log 0 ++ PWorker.x_log 0 ++ [Worker.ADestroy 0; Worker.AGo 0] ++ PWorker.x_one ++ PWorker.x_one ++ [Worker.AWork; Worker.AWork] ++
       PWorker.x_sink 0 ++ PWorker.x_sink 0 ++ PWorker.x_end 0 ++ [Worker.AWork; Worker.AGo 0; Worker.AWork; Worker.AGo 0]))
  = Some (Worker.DDone [Worker.TAdd 0 0; Worker.TSave (0, 0); Worker.TSave (0, 1)], [[]],
     Ok (FileSinkSpec.header_text (lit "x x 04 00:00:00 2021") default_header ++
         lit "2021/03/04 12:52:25 007009	INFO [a.cpp->f:7]	x=1" ++ [NL] ++
         lit "2021/03/04 12:52:25 007010	WARNING [a.cpp->f:9]	two" ++ [NL] ++
         FileSinkSpec.closing_text (lit "00:00:00 000000"), lit "old")).
Proof. vm_compute. reflexivity. Qed.
Example C98_ex :
  option_map (fun s => (Worker.w_proc s, map Worker.c_hold (Worker.w_cl s), Worker.w_old s, WorkerSpec.registered 0 false [Worker.TAdd 0 0; Worker.TSave (0, 0)], ex_text s))
    (WorkerSpec.wrun (Worker.w_init 2) (PWorker.x_add 0 ++ PWorker.x_log 0 ++ [Worker.AFatal 1; Worker.AGo 1; Worker.AGo 1] ++ PWorker.x_log 0 ++ PWorker.x_one ++ [Worker.AWork; Worker.AWork; Worker.AWork; Worker.AWork] ++
       PWorker.x_sink 0 ++ PWorker.x_sink 0 ++ [Worker.ASinkPop 0; Worker.ASinkEnd 0 (Worker.Val 0); Worker.ASinkExit 0; Worker.AWork; Worker.AWork]))
  = Some (Worker.PKilled, [[]; []], [Worker.TAdd 0 0; Worker.TSave (0, 0)] ++ [Worker.TFatal (1, 0)], true,
     Ok (FileSinkSpec.header_text (lit "x x 04 00:00:00 2021") default_header ++
         lit "2021/03/04 12:52:25 007009	INFO [a.cpp->f:7]	x=1" ++ [NL] ++
         lit "2021/03/04 12:52:25 007011	CONTRACT [b.cpp->g:8]	" ++ [NL; TAB] ++ lit "*******	 EXIT trigger caused by broken Contract: CHECK(1 > 2)" ++ [NL; TAB; DQ] ++ lit "no" ++
         [NL] ++ lit "*******	STACKDUMP *******" ++ [NL] ++ lit "#0 g" ++
         [NL] ++ lit "Exiting after fatal event  (CONTRACT). Fatal type:  SIGABRT" ++ [NL] ++ lit "Log content flushed successfully to sink" ++ [NL; NL] ++ [DQ] ++
         FileSinkSpec.closing_text (lit "00:00:00 000000"), lit "old")).
Proof. vm_compute. reflexivity. Qed.
(** the statements meet the hypotheses *)
Example C97_ex_plain : forall m, plain ex_env (ex_prog m).
Proof.
  intros [[|[|i]] [|n]]; unfold plain; cbn [ex_prog]; repeat (split; [vm_compute; intuition discriminate|]); vm_compute; intuition discriminate.
Qed.
Example C97_ex_sane : sane ex_env (fun _ => (0%Z, 3, 5)) 0.
Proof. repeat split; try (vm_compute; intuition discriminate). intros c t. vm_compute. lia. Qed.
