(** C133: a worker with several file sinks.  Model: Model/ManySinks.v; specification: Spec/ManySinksSpec.v. *)
From Coq Require Import Ascii String List ZArith NArith Bool Lia.
From Verif.Base Require Import Bytes.
From Verif.Model Require Import Levels TimeFmt Message FileName FileSink EndToEnd SharedDisk ManySinks.
From Verif.Model Require Worker.
From Verif.Spec Require Import TimeSpec MessageSpec EndToEndSpec RotationSpec SharedDiskSpec ManySinksSpec.
From Verif.Spec Require FileSinkSpec WorkerSpec.
From Verif.Proofs Require Import FileSinkFacts EndToEndFacts RotationFacts SharedDiskFacts.
From Verif.Proofs Require WorkerHist WorkerTrace.
From Verif.Properties Require PFileSink PWorker PEndToEnd PSharedDisk.
Import ListNotations.
Local Open Scope list_scope.

Lemma opened_file : forall l i0, begins l i0 -> l_r1 l <> None \/ l_r2 l <> None.
Proof. intros l i0 [-> | [_ ->]]; [left|right]; discriminate. Qed.

(** what sinks have received is in their files *)
Lemma received_in_files : forall e warn prog ls sched f, complete ls sched -> apart sched ->
  (forall n l, nth_error ls n = Some l -> exists x used tnow, lives e warn prog x l used tnow) ->
  exists w, wrun (start f) sched = Some w /\
  forall n l x used tnow, nth_error ls n = Some l -> lives e warn prog x l used tnow ->
    (forall m, In m (WorkerSpec.received x) -> plain e (prog m)) ->
    in_files (w_fs w) e warn prog used tnow (WorkerSpec.received x).
Proof.
  intros e warn prog ls sched f CO A OK.
  destruct (PSharedDisk.C132_messages_partial ls sched f CO A) as (w & W & F).
  { intros n l N. destruct (OK _ _ N) as (x & used & tnow & _ & Z & calls & luck & kend & i0 & _ & _ & B & _). split; [exact Z|]. eapply opened_file; eauto. }
  exists w. split; [exact W|]. intros n l x used tnow N (E & Z & calls & luck & kend & i0 & OP & EN & B & G & SA & U & ND) P.
  assert (P' : forall m, In (Worker.JMsg m) (Worker.k_got x) -> plain e (prog m)).
  { intros m I. apply P. unfold WorkerSpec.received, WorkerSpec.msgs. apply in_flat_map. exists (Worker.JMsg m). split; [exact I|now left]. }
  assert (OC : FileSinkSpec.opened (l_ops l) = changes calls (Worker.k_got x)) by (rewrite OP; eapply opened_changes; eauto).
  destruct (F n l i0 tnow kend N B) as (files & la & ps & t & Q1 & Q2 & Q3 & Q4 & Q5 & Q6); [now rewrite OC, <- U|exact EN|].
  rewrite OC, <- U in Q1. rewrite E in Q2, Q5. exists files, la, ps, t. split; [exact Q1|]. split; [|auto].
  rewrite OP in Q2. exact (ops_received2 e warn prog calls luck _ 0 _ G P' Q2).
Qed.

Lemma received_plain : forall n s k e prog, Worker.wreach n s -> (forall m, In m (WorkerSpec.logged (Worker.entered s)) -> plain e (prog m)) ->
  forall m, In m (WorkerSpec.received (Worker.sk s k)) -> plain e (prog m).
Proof.
  intros n s k e prog R PL m I. apply PL. destruct (PWorker.C05_once n s k R) as (_ & SU).
  clear - SU I. induction SU; [destruct I|right; auto|]. destruct I as [->|I]; [now left|right; auto].
Qed.

(** ~LogWorker has returned; h is everything that had entered the worker's queue when it began.  The sinks ks, which no client owns, are file
    sinks and no file is opened by two of them.  However their threads take turns on the files, nothing goes wrong, and at the end each sink's
    files hold one line for each statement that was logged while the sink was registered, before the destructor began, in the order of the queue,
    then those logged meanwhile. *)
Theorem C133_after_shutdown_partial : forall n s i h e prog ks ls sched f,
  Worker.wreach n s -> Worker.c_pc (Worker.cl s i) = Worker.DDone h ->
  (forall m, In m (WorkerSpec.logged (Worker.entered s)) -> plain e (prog m)) ->
  Forall2 (fun k l => unheld s k /\ exists used tnow, lives e [] prog (Worker.sk s k) l used tnow) ks ls ->
  complete ls sched -> apart sched ->
  exists w, wrun (start f) sched = Some w /\
  forall q k l used tnow, nth_error ks q = Some k -> nth_error ls q = Some l -> lives e [] prog (Worker.sk s k) l used tnow ->
  exists more, in_files (w_fs w) e [] prog used tnow (WorkerSpec.window k false h ++ more) /\
    NoDup (WorkerSpec.window k false h ++ more) /\
    (forall u a b, WorkerSpec.before (u, a) (u, b) (WorkerSpec.window k false h ++ more) -> a < b) /\
    (WorkerSpec.logged (Worker.entered s) = WorkerSpec.logged h -> more = []).
Proof.
  intros n s i h e prog ks ls sched f R PC PL OK CO A.
  destruct (received_in_files e [] prog ls sched f CO A) as (w & W & F).
  { intros q l Q. clear - OK Q. revert q Q. induction OK as [|k l' ks ls (_ & used & tnow & L) _ IH]; intros [|q] Q; try discriminate.
    - injection Q as <-. eauto.
    - eapply IH; eauto. }
  exists w. split; [exact W|]. intros q k l used tnow K Q L.
  assert (U : unheld s k).
  { clear - OK K. revert q K. induction OK as [|k' l' ks ls (U & _) _ IH]; intros [|q] K; try discriminate; [now injection K as <-|eauto]. }
  destruct U as [NH NJ].
  destruct (PWorker.C09_flush_partial n s i h k R PC) as (_ & FL). destruct (FL NH NJ) as (_ & more & E). clear FL.
  destruct (PWorker.C05_once n s k R) as (ND & SU).
  exists more. rewrite <- E. split; [|split; [exact ND|split]].
  - apply (F q l); auto. eapply received_plain; eauto.
  - intros u a b B. exact (PWorker.C06_program_order n s k u a b R B).
  - intros SAME. exact (PEndToEnd.nothing_more n s i h k more R PC SAME E).
Qed.
Print Assumptions C133_after_shutdown_partial.

(** The same at a fatal event: pre is what the worker had taken out of its queue before the fatal message m.  Each file sink that was
    registered then has m as its last line. *)
Theorem C133_after_crash_partial : forall n s e warn prog ks ls sched f,
  Worker.wreach n s -> Worker.w_proc s = Worker.PKilled ->
  (forall m, In m (WorkerSpec.logged (Worker.entered s)) -> plain e (prog m)) ->
  Forall2 (fun k l => exists used tnow, lives e warn prog (Worker.sk s k) l used tnow) ks ls ->
  complete ls sched -> apart sched ->
  exists w pre m, wrun (start f) sched = Some w /\ Worker.w_old s = pre ++ [Worker.TFatal m] /\
  forall q k l used tnow, nth_error ks q = Some k -> nth_error ls q = Some l -> lives e warn prog (Worker.sk s k) l used tnow ->
  unheld s k -> WorkerSpec.registered k false pre = true ->
  in_files (w_fs w) e warn prog used tnow (WorkerSpec.window k false pre ++ [m]).
Proof.
  intros n s e warn prog ks ls sched f R PK PL OK CO A.
  destruct (received_in_files e warn prog ls sched f CO A) as (w & W & F).
  { intros q l Q. clear - OK Q. revert q Q. induction OK as [|k l' ks ls (used & tnow & L) _ IH]; intros [|q] Q; try discriminate.
    - injection Q as <-. eauto.
    - eapply IH; eauto. }
  destruct (PWorker.C13_flush_partial n s R PK) as (pre & m & E & NF & FL). exists w, pre, m. split; [exact W|]. split; [exact E|].
  intros q k l used tnow K Q L [NH NJ] RG.
  assert (NA : WorkerHist.nadd k pre <> 0).
  { intro N. clear - RG N. rewrite WorkerHist.registered_noadd in RG by exact N. discriminate. }
  destruct (FL k NA NH NJ) as (_ & RC). rewrite RG in RC. rewrite <- RC. apply (F q l); auto. eapply received_plain; eauto.
Qed.
Print Assumptions C133_after_crash_partial.

(** ** the sinks run *)
Lemma ops_run_micros : forall e os s d s' d', ops_run e (s, d) os = Ok (s', d') -> exists ms, ops_micros e s os = Ok (s', ms).
Proof.
  intros e os. induction os as [|o os IH]; intros s d s' d' H.
  - injection H as <- _. exists []. reflexivity.
  - cbn [ops_run] in H. apply obind_ok in H as ((s1, d1) & H & K). unfold op_step in H. cbn [fst snd] in H.
    apply obind_ok in H as ((s2, ms2) & H & E). apply obind_ok in E as (d2 & _ & E). cbn [fst snd] in E. injection E as -> ->.
    destruct (IH _ _ _ _ K) as (ms & M). cbn [ops_micros]. rewrite H. cbn [obind fst snd]. rewrite M. cbn [obind fst snd]. eauto.
Qed.

Lemma lives_runs : forall e warn prog x l used tnow y, lives e warn prog x l used tnow ->
  (forall m, In m (WorkerSpec.received x) -> plain e (prog m)) ->
  FileSink_ctor (l_env l) (l_high l) (l_prefix l) (l_dir l) (l_id l) (l_every l) (l_now l) (l_r1 l) (l_r2 l) = Ok y ->
  exists s ms, life_micros l = Ok (s, ms).
Proof.
  intros e warn prog x l used tnow (s0, ms0) (E & Z & calls & luck & kend & i0 & OP & EN & B & G & (S1 & S2 & S3 & S4) & U & ND) P C.
  assert (P' : forall m, In (Worker.JMsg m) (Worker.k_got x) -> plain e (prog m)).
  { intros m I. apply P. unfold WorkerSpec.received, WorkerSpec.msgs. apply in_flat_map. exists (Worker.JMsg m). split; [exact I|now left]. }
  assert (X : exists d0, create (l_env l) (l_high l) (l_prefix l) (l_dir l) (l_id l) (l_every l) (l_now l) (l_r1 l) (l_r2 l) (fun _ => []) = Ok (s0, d0) /\
    exists st, d_out d0 = Some st).
  { unfold create. rewrite C. cbn [obind fst snd]. unfold FileSink_ctor in C. destruct (negb _); [discriminate|]. apply obind_ok in C as (name & _ & C).
    destruct B as [B | [B1 B2]].
    - rewrite B in C. injection C as <- <-. eexists. split; [reflexivity|]. eexists. reflexivity.
    - rewrite B1, B2 in C. injection C as <- <-. eexists. split; [reflexivity|]. eexists. reflexivity. }
  destruct X as (d0 & CR & st & DO). pose proof (create_sink _ _ _ _ _ _ _ _ _ _ _ CR) as (C1 & C2 & C3 & C4 & C5 & C6). cbn [fst snd] in *.
  assert (Z' : (_write_to_log_every_x_message s0 <> 0)%N) by (rewrite C6; exact Z).
  destruct (ops_total2 e warn prog calls luck (Worker.k_got x) 0 s0 d0 st G P' S1 S4 DO Z' C1) as (s1 & d1 & st1 & R & D1).
  destruct (ops_run_micros _ _ _ _ _ _ R) as (ms1 & M).
  unfold life_micros. rewrite C. cbn [obind fst snd]. rewrite E, OP, M. cbn [obind fst snd]. rewrite EN.
  unfold FileSink_dtor. destruct (closing_time e tnow S2 S3) as (t & T). rewrite T. cbn. eauto.
Qed.

(** The sinks of the worker can run: each one's accesses are defined, whatever the others do, and the sinks may take turns as they like;
    one after the other, for example. *)
Theorem C133_runs : forall n s e warn prog ks ls,
  Worker.wreach n s -> (forall m, In m (WorkerSpec.logged (Worker.entered s)) -> plain e (prog m)) ->
  Forall2 (fun k l => (exists used tnow, lives e warn prog (Worker.sk s k) l used tnow) /\
    exists y, FileSink_ctor (l_env l) (l_high l) (l_prefix l) (l_dir l) (l_id l) (l_every l) (l_now l) (l_r1 l) (l_r2 l) = Ok y) ks ls ->
  (forall q l, nth_error ls q = Some l -> exists x ms, life_micros l = Ok (x, ms)) /\
  exists sched, complete ls sched.
Proof.
  intros n s e warn prog ks ls R PL OK.
  assert (RUN : forall q l, nth_error ls q = Some l -> exists x ms, life_micros l = Ok (x, ms)).
  { induction OK as [|k l' ks ls ((used & tnow & L) & y & C) _ IH]; intros [|q] l Q; try discriminate.
    - injection Q as <-. eapply lives_runs; eauto. eapply received_plain; eauto.
    - eapply IH; eauto. }
  split; [exact RUN|]. clear - RUN.
  assert (H : forall base, exists sched, (forall q l, nth_error ls q = Some l -> exists x, life_micros l = Ok (x, own (base + q) sched)) /\
    forall q m, In (q, m) sched -> base <= q < base + length ls).
  { induction ls as [|l ls IH]; intro base.
    - exists []. split; [intros [|q] l H; discriminate|]. intros q m [].
    - destruct IH with (base := S base) as (sched & S1 & S2); [intros q l' Q; exact (RUN (S q) l' Q)|].
      destruct (RUN 0 l eq_refl) as (x & ms & M). exists (PSharedDisk.tag base ms ++ sched). split.
      + intros [|q] l' Q; cbn [nth_error] in Q.
        * injection Q as <-. exists x. rewrite M. do 2 f_equal. rewrite own_app, Nat.add_0_r.
          assert (T : own base (PSharedDisk.tag base ms) = ms).
          { clear. unfold own, PSharedDisk.tag. induction ms as [|m ms IH]; [reflexivity|]. cbn. rewrite Nat.eqb_refl. cbn. now rewrite IH. }
          rewrite T. replace (own base sched) with (@nil micro); [now rewrite app_nil_r|]. clear - S2. unfold own. symmetry.
          induction sched as [|(a, m) r IH]; [reflexivity|]. cbn. destruct (Nat.eqb_spec a base) as [->|X].
          -- exfalso. destruct (S2 base m (or_introl eq_refl)). lia.
          -- cbn. apply IH. intros a' m' I. apply (S2 a' m'). now right.
        * destruct (S1 q l' Q) as (x' & M'). exists x'. rewrite M'. do 2 f_equal. rewrite own_app.
          replace (base + S q) with (S base + q) by lia.
          replace (own (S base + q) (PSharedDisk.tag base ms)) with (@nil micro); [reflexivity|]. clear. unfold own, PSharedDisk.tag.
          induction ms as [|m ms IH]; [reflexivity|]. cbn [map flat_map fst snd]. destruct (Nat.eqb_spec base (S base + q)); [lia|]. cbn. exact IH.
      + intros q m I. cbn [length]. apply in_app_or in I as [I|I].
        * unfold PSharedDisk.tag in I. apply in_map_iff in I as (? & I & _). injection I as <- _. lia.
        * destruct (S2 _ _ I). lia. }
  destruct (H 0) as (sched & A & B). exists sched. split; [exact A|]. intros q m I. now apply B in I.
Qed.
Print Assumptions C133_runs.

(** ** addDefaultLogger *)
Lemma mild_gentle : forall e calls, mild calls -> gentle e calls.
Proof. intros e calls M c. destruct (M c) as [H|H]; auto. Qed.
Lemma mild_changes : forall calls got, mild calls -> changes calls got = [].
Proof.
  intros calls got M. unfold changes. induction got as [|[m|c|] got IH]; cbn [flat_map]; auto. rewrite IH.
  destruct (M c) as [-> | (h & ->)]; reflexivity.
Qed.
Lemma mild_no_change : forall warn prog calls luck got p, mild calls -> Forall FileSinkSpec.no_change (ops_of warn prog calls luck p got).
Proof.
  intros warn prog calls luck got p M. revert p. induction got as [|j got IH]; intro p; cbn [ops_of]; [constructor|]. apply Forall_app. split; auto.
  destruct j as [m|c|]; [destruct (content warn (prog m)); repeat constructor| |constructor].
  destruct (M c) as [-> | (h & ->)]; repeat constructor.
Qed.

(** sink k of the worker was added with addDefaultLogger, which could open a file *)
Definition default_logger (e : env) (prog : Worker.msg -> stmt) (s : Worker.wstate) (k : nat) (l : life) (i0 : nat) (tnow : Z) : Prop :=
  begins l i0 /\ PSharedDisk.fit (l_env l) (l_prefix l) (l_dir l) (l_id l) (l_now l) /\
  exists high p dir id now r1 r2 calls luck kend,
    l = addDefaultLogger e high p dir id now r1 r2 [] prog calls luck tnow kend (Worker.sk s k) /\ mild calls /\ sane e luck tnow.

(** The file of a default logger: prefix, id ("g3log" when it is left out) and the second of its creation make its name, it lies in the directory, and what it
    receives goes to the file after every 100 messages. *)
Theorem C133_default_file : forall e high p dir id now i r2 warn prog calls luck tnow kend x sk ms,
  let l := addDefaultLogger e high p dir id now (Some i) r2 warn prog calls luck tnow kend x in
  let given := match id with Some d => d | None => lit "g3log" end in
  PSharedDisk.fit e p dir given now -> FileNameSpec.plain_dir dir ->
  FileSink_ctor (l_env l) (l_high l) (l_prefix l) (l_dir l) (l_id l) (l_every l) (l_now l) (l_r1 l) (l_r2 l) = Ok (sk, ms) ->
  FileNameSpec.inside (fileName sk) dir (FileNameSpec.log_name (prefixSanityFix high p) given (e_local e (Z.quot now 1000000000))) /\
  ms = [MOpen (fileName sk) (Some i); MMove] /\ _write_to_log_every_x_message sk = 100%N.
Proof.
  intros e high p dir id now i r2 warn prog calls luck tnow kend x sk ms l given (B & P & D & I & SL & T) PD C.
  change (FileSink_ctor e high p dir given 100 now (Some i) r2 = Ok (sk, ms)) in C.
  destruct (PFileName.C51_inside_the_directory_partial e high p dir given 100 now i r2 sk ms B PD SL T C) as (name & N & _ & IN & M).
  assert (X : _log_prefix_backup sk = prefixSanityFix high p /\ _write_to_log_every_x_message sk = 100%N).
  { unfold FileSink_ctor in C. destruct (negb _); [discriminate|]. apply obind_ok in C as (nm & _ & C). injection C as <- _. split; reflexivity. }
  destruct X as (X & Y). rewrite X, FileNameFacts.createLogFileName_spec in N by exact T. injection N as <-. auto.
Qed.
Print Assumptions C133_default_file.

(** Sinks added with addDefaultLogger, whose file is not changed, which differ in prefix, id or the second in which they were created: without
    any hypothesis about their files, each holds the whole log.  Different names lead to different files. *)
Theorem C133_default_loggers : forall n s i h e prog ks ls sched f names,
  Worker.wreach n s -> Worker.c_pc (Worker.cl s i) = Worker.DDone h ->
  (forall m, In m (WorkerSpec.logged (Worker.entered s)) -> plain e (prog m)) ->
  Forall2 (fun k l => unheld s k /\ exists i0 tnow, default_logger e prog s k l i0 tnow) ks ls ->
  complete ls sched -> by_name names sched -> (forall p q, names p = names q -> p = q) ->
  (forall n n' l l', nth_error ls n = Some l -> nth_error ls n' = Some l' -> n <> n' ->
     prefixSanityFix (l_high l) (l_prefix l) <> prefixSanityFix (l_high l') (l_prefix l') \/ l_id l <> l_id l' \/
     e_local e (Z.quot (l_now l) 1000000000) <> e_local e (Z.quot (l_now l') 1000000000)) ->
  exists w, wrun (start f) sched = Some w /\
  forall q k l i0 tnow, nth_error ks q = Some k -> nth_error ls q = Some l -> default_logger e prog s k l i0 tnow ->
  exists more, in_files (w_fs w) e [] prog [i0] tnow (WorkerSpec.window k false h ++ more) /\
    NoDup (WorkerSpec.window k false h ++ more) /\
    (forall u a b, WorkerSpec.before (u, a) (u, b) (WorkerSpec.window k false h ++ more) -> a < b) /\
    (WorkerSpec.logged (Worker.entered s) = WorkerSpec.logged h -> more = []).
Proof.
  intros n s i h e prog ks ls sched f names R PC PL OK CO BN INJ DIFF.
  assert (LV : forall k l i0 tnow, default_logger e prog s k l i0 tnow -> lives e [] prog (Worker.sk s k) l [i0] tnow).
  { intros k l i0 tnow (B & _ & high & p & dir & id & now & r1 & r2 & calls & luck & kend & -> & M & SA).
    split; [reflexivity|]. split; [discriminate|]. exists calls, luck, kend, i0.
    repeat (split; [solve [reflexivity | assumption | now apply mild_gentle]|]). rewrite mild_changes by exact M. split; [reflexivity|]. repeat constructor. intros []. }
  assert (ENV : forall q l, nth_error ls q = Some l -> l_env l = e /\ PSharedDisk.fit (l_env l) (l_prefix l) (l_dir l) (l_id l) (l_now l) /\ Forall FileSinkSpec.no_change (l_ops l)).
  { clear - OK. induction OK as [|k l' ks ls (_ & i0 & tnow & D) _ IH]; intros [|q] l Q; try discriminate; [injection Q as <-|eauto].
    destruct D as (B & FI & high & p & dir & id & now & r1 & r2 & calls & luck & kend & -> & M & SA).
    split; [reflexivity|]. split; [exact FI|]. now apply mild_no_change. }
  assert (A : apart sched).
  { eapply PSharedDisk.C132_apart; eauto.
    - intros q l Q. now apply ENV in Q.
    - intros q q' l l' Q Q' X. specialize (DIFF q q' l l' Q Q' X). destruct (ENV _ _ Q) as (-> & _). destruct (ENV _ _ Q') as (-> & _). exact DIFF. }
  destruct (C133_after_shutdown_partial n s i h e prog ks ls sched f R PC PL) as (w & W & F); auto.
  { clear - OK LV. induction OK as [|k l ks ls (U & i0 & tnow & D) _ IH]; constructor; auto. split; [exact U|]. exists [i0], tnow. auto. }
  exists w. split; [exact W|]. intros q k l i0 tnow K Q D. exact (F q k l [i0] tnow K Q (LV _ _ _ _ D)).
Qed.
Print Assumptions C133_default_loggers.

(** ** two sinks with one file *)
Lemma in_files_contains : forall g e warn prog i0 tnow ms m c, in_files g e warn prog [i0] tnow ms -> In m ms ->
  (value (st_level (prog m)) < 1000)%Z -> In c (concat (st_texts (prog m))) -> In c (g i0).
Proof.
  intros g e warn prog i0 tnow ms m c (files & la & ps & t & MF & F & _ & _ & _ & G) I LV C.
  destruct files as [|x files]; [|cbn in MF; injection MF as _ MF; destruct files; discriminate]. injection MF as <-. cbn [app map concat snd] in F.
  rewrite app_nil_r in F. assert (X : exists l, In l (FileSinkSpec.entries ps) /\ shows e warn (prog m) l).
  { clear - F I. induction F as [|a l ms ls S _ IH]; [destruct I|]. destruct I as [->|I]; [exists l; split; auto; now left|].
    destruct (IH I) as (l' & A & B). exists l'. split; auto. now right. }
  destruct X as (l & L & name & _ & S). cbn zeta in S. unfold rendering, shown_text in S. apply Z.ltb_lt in LV. rewrite LV in S.
  assert (Y : In c l). { rewrite S. unfold entry. apply in_or_app. right. apply in_or_app. now left. }
  rewrite G. apply in_or_app. left. clear - L Y. unfold FileSinkSpec.entries, FileSinkSpec.bytes in *. induction ps as [|p ps IH]; [destruct L|].
  cbn [map concat] in *. apply in_or_app. apply in_app_or in L as [L|L]; [left|right; auto]. destruct p as [t'|t']; [|destruct L]. destruct L as [->|[]]. exact Y.
Qed.

(** Client 0 adds a default logger, logs, adds a second one with the same arguments in the same second, logs again, and destroys the worker. *)
Definition ex_prog (m : Worker.msg) : stmt :=
  match m with
  | (_, O) => mkStmt (lit "/src/a.cpp") 7 (lit "f") INFO [] 6 [lit "~"] 5001000 1 []
  | (_, _) => mkStmt (lit "/src/a.cpp") 9 (lit "f") WARNING [] 6 [lit "two"] 5002000 1 []
  end.
Definition x_sink (k : nat) : list Worker.waction := [Worker.ASinkPop k; Worker.ASinkEnd k (Worker.Val 0)].
Definition x_add : list Worker.waction := [Worker.AAdd 0; Worker.AWork; Worker.AWork; Worker.AGo 0; Worker.AWork; Worker.AWork].
Definition x_log : list Worker.waction := [Worker.ALog 0; Worker.AGo 0; Worker.AGo 0].
Definition x_work (n : nat) : list Worker.waction := repeat Worker.AWork n.
Definition ex_actions : list Worker.waction :=
    (x_add ++ x_log ++ x_work 4 ++ x_sink 0 ++ x_add ++ x_log ++ x_work 5 ++ x_sink 0 ++ x_sink 1 ++
     [Worker.ADestroy 0; Worker.AGo 0] ++ x_work 2 ++ x_sink 0 ++ [Worker.ASinkExit 0] ++ x_work 2 ++ x_sink 1 ++ [Worker.ASinkExit 1] ++ x_work 3 ++
     [Worker.AGo 0] ++ x_work 2 ++ [Worker.AGo 0]).
Definition ex_state : Worker.wstate := match WorkerSpec.wrun (Worker.w_init 1) ex_actions with Some s => s | None => Worker.w_init 0 end.
Definition ex_sink (id : option str) (now : Z) (file k : nat) : life :=
  addDefaultLogger PEndToEnd.ex_env (fun _ => false) (lit "app") (lit "/logs") id now (Some file) None [] ex_prog (fun _ => None) (fun _ => (0%Z, 0, 0)) 0 0
    (Worker.sk ex_state k).
(** the accesses in the order of that run: first sink added, first message, second sink added, second message, both destroyed *)
Definition ex_sched (a b : life) : list (nat * micro) :=
  PSharedDisk.tag 0 (firstn 3 (PSharedDisk.ex_micros a)) ++ PSharedDisk.tag 1 (firstn 3 (PSharedDisk.ex_micros b)) ++
  PSharedDisk.tag 0 (skipn 3 (PSharedDisk.ex_micros a)) ++ PSharedDisk.tag 1 (skipn 3 (PSharedDisk.ex_micros b)).

Lemma ex_reached : Worker.wreach 1 ex_state.
Proof. apply (WorkerTrace.wrun_reach _ ex_actions). vm_compute. reflexivity. Qed.
Lemma ex_clients : Worker.w_cl ex_state =
  [Worker.mkClient (Worker.DDone [Worker.TAdd 0 0; Worker.TSave (0, 0); Worker.TAdd 0 1; Worker.TSave (0, 1)]) [] 2].
Proof. vm_compute. reflexivity. Qed.
Lemma ex_unheld : forall k, unheld ex_state k.
Proof.
  intro k. unfold unheld, Worker.cl. rewrite ex_clients. split.
  - intros [|[|j]]; exact (fun x => x).
  - intros [|[|j]]; discriminate.
Qed.
Lemma ex_plain : forall m, plain PEndToEnd.ex_env (ex_prog m).
Proof.
  intros [i [|n]]; unfold plain; cbn [ex_prog]; repeat (split; [vm_compute; intuition discriminate|]); vm_compute; intuition discriminate.
Qed.
Lemma ex_default : forall id now file k, id = None \/ id = Some (lit "other") -> (now = 0 \/ now = 500000000)%Z ->
  default_logger PEndToEnd.ex_env ex_prog ex_state k (ex_sink id now file k) file 0.
Proof.
  intros id now file k I N. split; [left; reflexivity|]. split.
  - destruct I as [-> | ->], N as [-> | ->]; vm_compute; intuition discriminate.
  - exists (fun _ => false), (lit "app"), (lit "/logs"), id, now, (Some file), None, (fun _ => None), (fun _ => (0%Z, 0, 0)), 0.
    split; [reflexivity|]. split; [intro c; now left|].
    repeat split; try (vm_compute; intuition discriminate). intros c t. vm_compute. lia.
Qed.

Lemma ex_complete : forall a b sched,
  match life_micros a with Ok (_, ms) => Some ms | _ => None end = Some (own 0 sched) ->
  match life_micros b with Ok (_, ms) => Some ms | _ => None end = Some (own 1 sched) ->
  forallb (fun x => Nat.ltb (fst x) 2) sched = true -> complete [a; b] sched.
Proof.
  intros a b sched A B C. split.
  - intros [|[|n]] l H; cbn [nth_error] in H; [injection H as <-..|destruct n; discriminate].
    + destruct (life_micros a) as [(s, ms)| | |]; try discriminate. injection A as <-. eauto.
    + destruct (life_micros b) as [(s, ms)| | |]; try discriminate. injection B as <-. eauto.
  - intros n m I. rewrite forallb_forall in C. specialize (C _ I). now apply Nat.ltb_lt in C.
Qed.
Lemma ex_apart : forall (a b : list nat) sched, forallb (fun x => Nat.ltb (fst x) 2) sched = true ->
  touched (own 0 sched) = a -> touched (own 1 sched) = b -> (forall i, In i a -> In i b -> False) -> apart sched.
Proof.
  intros a b sched C <- <- D n n' i H H'.
  assert (G : forall n, In i (touched (own n sched)) -> n = 0 \/ n = 1).
  { intros k X. unfold touched in X. apply in_flat_map in X as (m & X & _). unfold own in X. apply in_flat_map in X as ((q, m') & X & Y). cbn [fst snd] in Y.
    destruct (Nat.eqb_spec q k) as [->|]; [|destruct Y]. rewrite forallb_forall in C. specialize (C _ X). apply Nat.ltb_lt in C. cbn [fst] in C. lia. }
  destruct (G _ H) as [-> | ->], (G _ H') as [-> | ->]; auto; exfalso; eauto.
Qed.
Example C133_default_file_ex : PSharedDisk.fit PEndToEnd.ex_env (lit "app") (lit "/logs") (lit "g3log") 0 /\ FileNameSpec.plain_dir (lit "/logs") /\
  exists sk ms, FileSink_ctor PEndToEnd.ex_env (fun _ => false) (lit "app") (lit "/logs") (l_id (ex_sink None 0 1 0)) (l_every (ex_sink None 0 1 0)) 0 (Some 1) None = Ok (sk, ms) /\
  fileName sk = lit "/logs/app.g3log.20210304-000000.log".
Proof.
  split. { unfold PSharedDisk.fit. repeat (split; [vm_compute; intuition discriminate|]). vm_compute. intuition discriminate. }
  split; [split; [vm_compute; intuition discriminate|right; exists (lit "/log"), "s"%char, 0; vm_compute; intuition discriminate]|].
  eexists. eexists. split; vm_compute; reflexivity.
Qed.
Definition ex_a : life := ex_sink None 0 1 0.
Definition ex_b : life := ex_sink None 500000000 1 1.
Lemma ex_complete2 : complete [ex_a; ex_b] (ex_sched ex_a ex_b).
Proof. apply ex_complete; vm_compute; reflexivity. Qed.
Lemma ex_by_name : by_name (fun _ => 1) (ex_sched ex_a ex_b).
Proof.
  assert (AL : forallb (fun x => match snd x with MOpen _ (Some i) => Nat.eqb i 1 | _ => true end) (ex_sched ex_a ex_b) = true) by (vm_compute; reflexivity).
  intros n p i I. rewrite forallb_forall in AL. specialize (AL _ I). cbn [snd] in AL. apply Nat.eqb_eq in AL. symmetry. exact AL.
Qed.
Lemma ex_lost : exists w, wrun (start (fun _ => [])) (ex_sched ex_a ex_b) = Some w /\ ~ In "~"%char (w_fs w 1).
Proof.
  assert (X : match wrun (start (fun _ => [])) (ex_sched ex_a ex_b) with Some w => existsb (Ascii.eqb "~"%char) (w_fs w 1) | None => true end = false)
    by (vm_compute; reflexivity).
  destruct (wrun _ _) as [w|]; [|discriminate]. exists w. split; [reflexivity|]. now apply PSharedDisk.ex_has_not.
Qed.

(** addDefaultLogger twice with the same arguments within a second, while the program logs: both sinks have the same file, and when the
    destructor of the worker has returned, the first sink's file does not hold what was logged while it was registered. *)
Theorem C133_refuted : exists s h e prog a b sched names w,
  Worker.wreach 1 s /\ Worker.c_pc (Worker.cl s 0) = Worker.DDone h /\ (forall m, plain e (prog m)) /\
  unheld s 0 /\ unheld s 1 /\ default_logger e prog s 0 a 1 0 /\ default_logger e prog s 1 b 1 0 /\
  complete [a; b] sched /\ by_name names sched /\ wrun (start (fun _ => [])) sched = Some w /\
  ~ exists more, in_files (w_fs w) e [] prog [1] 0 (WorkerSpec.window 0 false h ++ more).
Proof.
  destruct ex_lost as (w & W & F).
  exists ex_state. eexists. exists PEndToEnd.ex_env, ex_prog, ex_a, ex_b, (ex_sched ex_a ex_b), (fun _ => 1), w.
  split; [exact ex_reached|]. split; [unfold Worker.cl; rewrite ex_clients; reflexivity|]. split; [exact ex_plain|].
  split; [apply ex_unheld|]. split; [apply ex_unheld|].
  split; [apply ex_default; auto|]. split; [apply ex_default; auto|]. split; [exact ex_complete2|]. split; [exact ex_by_name|]. split; [exact W|].
  intros (more & IF). apply F.
  eapply (in_files_contains _ _ _ _ _ _ _ (0, 0)); [exact IF|now left|vm_compute; reflexivity|now left].
Qed.
Print Assumptions C133_refuted.

(** With an id of its own the second sink has its own file, and all is well. *)
Example C133_ex : let a := ex_sink None 0 1 0 in let b := ex_sink (Some (lit "other")) 500000000 2 1 in
  default_logger PEndToEnd.ex_env ex_prog ex_state 0 a 1 0 /\ default_logger PEndToEnd.ex_env ex_prog ex_state 1 b 2 0 /\
  complete [a; b] (ex_sched a b) /\ apart (ex_sched a b) /\ l_id a <> l_id b /\
  option_map (fun w => (w_fs w 1, w_fs w 2, w_fs w 3)) (wrun (start (fun _ => lit "old")) (ex_sched a b)) =
    Some (FileSinkSpec.header_text (lit "x x 04 00:00:00 2021") default_header ++
          lit "2021/03/04 12:52:25 007009	INFO [a.cpp->f:7]	~" ++ [NL] ++ lit "2021/03/04 12:52:25 007010	WARNING [a.cpp->f:9]	two" ++ [NL] ++
          FileSinkSpec.closing_text (lit "00:00:00 000000"),
          FileSinkSpec.header_text (lit "x x 04 00:00:00 2021") default_header ++
          lit "2021/03/04 12:52:25 007010	WARNING [a.cpp->f:9]	two" ++ [NL] ++ FileSinkSpec.closing_text (lit "00:00:00 000000"),
          lit "old").
Proof.
  cbv zeta. split; [apply ex_default; auto|]. split; [apply ex_default; auto|]. split; [apply ex_complete; vm_compute; reflexivity|]. split.
  { apply (ex_apart [1] [2]); [vm_compute; reflexivity..|]. intros i [<-|[]] [H|[]]. discriminate. }
  split; [vm_compute; discriminate|]. vm_compute. reflexivity.
Qed.
