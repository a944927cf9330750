(** C115 - C120: logging when memory runs out.  Model: Model/Exhaustion.v. *)
From Coq Require Import Ascii String List ZArith NArith Bool Lia.
From Verif.Base Require Import Bytes.
From Verif.Model Require Import Levels TimeFmt Message Capture Global Exhaustion.
From Verif.Spec Require Import ExhaustionSpec MessageSpec.
From Verif.Proofs Require Import BytesFacts CaptureFacts StatementFacts ExhaustionFacts.
Import ListNotations.
Local Open Scope list_scope.

(** for the examples: LOG(INFO) << "x=" << "42", LOG(FATAL) << "gone", and a memory that fails once *)
Definition ex_log : xstmt := mkStmt (INTERNAL_LOG_MESSAGE (lit "a.cpp") 7 (lit "f") INFO []) [lit "x="; lit "42"] false false 5 1.
Definition ex_log2 : xstmt := mkStmt (INTERNAL_LOG_MESSAGE (lit "b.cpp") 8 (lit "g") INFO []) [lit "second"] false false 6 1.
Definition ex_fatal : xstmt := mkStmt (INTERNAL_LOG_MESSAGE (lit "a.cpp") 9 (lit "f") FATAL (lit "dump")) [lit "gone"] false false 7 1.
Definition fails (i k : nat) (n : nat) : option nat := if Nat.eqb n i then Some k else None.
Definition plenty (n : nat) : option nat := None.
(** initialized, one sink *)
Definition ex_ready : xst := mkX true None false true (Some (Hook 3)) 0 None false [] [4] [4] [] [] [] None.

(** ** C115: all or nothing *)
(** False: text that does not fit into the stream any more is dropped without a word, LOG returns *)
Theorem C115_text_refuted : exists mem t s n' s' m, ready_to_log s /\ fresh t /\ fatal t = false /\ t_throws t = false /\
  xstatement mem t 0 s = (Val Returned, n', s') /\ x_queue s' = [XSave m] /\
  whole_text t = lit "x=42" /\ _message m = lit "x=4".
Proof.
  exists (fails 1 1), ex_log, ex_ready. do 3 eexists. split; [repeat split|]. split; [reflexivity|]. split; [reflexivity|]. split; [reflexivity|].
  split; [vm_compute; reflexivity|]. split; [vm_compute; reflexivity|]. split; reflexivity.
Qed.
Print Assumptions C115_text_refuted.

(** False before initialization: the statement throws, and its entry, with no text, is kept and later delivered *)
Theorem C115_first_refuted : exists mem t n1 s1 n2 s2 m, fresh t /\ fatal t = false /\ t_throws t = false /\ whole_text t = lit "x=42" /\
  xstatement mem t 0 x_start = (Thrown, n1, s1) /\ xinitialize mem n1 s1 = (Val Returned, n2, s2) /\
  x_queue s2 = [XSave m] /\ is_entry t [] m.
Proof.
  exists (fails 14 0), ex_log. do 5 eexists. split; [reflexivity|]. split; [reflexivity|]. split; [reflexivity|]. split; [reflexivity|].
  split; [vm_compute; reflexivity|]. split; [vm_compute; reflexivity|]. split; [reflexivity|]. vm_compute. auto 12.
Qed.
Print Assumptions C115_first_refuted.

(** ... and a later statement takes the place of the first one *)
Theorem C115_first_replaced_refuted : exists mem n s l m, xrun mem 0 x_start [ALog ex_log; ALog ex_log2; AInit] = (n, s, l) /\
  map snd l = [Some Threw; Some Returned; Some Returned] /\ x_queue s = [XSave m] /\ _file_path m = lit "b.cpp".
Proof. exists (fails 11 0). do 4 eexists. split; [vm_compute; reflexivity|]. split; [reflexivity|]. split; [reflexivity|]. reflexivity. Qed.
Print Assumptions C115_first_replaced_refuted.

(** While logging is active, a statement that is not fatal either adds exactly its own entry to the worker's queue, with a text that is
    at least a part of the whole one, or throws and changes nothing at all.  (During the unwinding of an exception of an operand, throwing ends
    the process.) *)
Theorem C115_all_or_nothing_partial : forall mem t n s r n' s', fresh t -> fatal t = false -> ready_to_log s ->
  xstatement mem t n s = (r, n', s') ->
  (s' = s /\ r = if t_throws t then Over XTerminate else Thrown) \/
  (r = (if t_throws t then Thrown else Val Returned) /\
   exists m, cut_entry t m /\ s' = w_queue (x_queue s ++ [XSave m]) s).
Proof.
  intros mem t n s r n' s' F NF (LG & L & _) E. apply logged in E; try assumption. destruct E as [E|(E & m & I & Q)]; [now left|].
  right. split; [assumption|]. exists m. split; [|assumption].
  destruct (insert mem (t_pieces t) [] true n) as (x, nx) eqn:IN. exists x. split; [|assumption].
  apply inserted in IN. destruct IN as (p & -> & P). exact P.
Qed.
Print Assumptions C115_all_or_nothing_partial.

(** the text is whole if the stream got its memory *)
Theorem C115_whole_text_partial : forall mem t n s r n' s', fresh t -> fatal t = false -> ready_to_log s ->
  (forall i, i < length (t_pieces t) -> mem (n + i) = None) ->
  xstatement mem t n s = (r, n', s') ->
  s' = s \/ exists m, is_entry t (whole_text t) m /\ s' = w_queue (x_queue s ++ [XSave m]) s.
Proof.
  intros mem t n s r n' s' F NF (LG & L & _) M E. apply logged in E; try assumption. destruct E as [(E & _)|(E & m & I & Q)]; [now left|].
  right. exists m. split; [|assumption]. rewrite inserted_all in I by assumption. exact I.
Qed.
Print Assumptions C115_whole_text_partial.

(** In every run, however often memory runs out and whatever the worker does meanwhile: the worker was given exactly the entries of the statements that came through,
    in their order, once each.  What threw is not among them. *)
Theorem C115_run_partial : forall mem acts n s n' s' l, ready_to_log s -> (forall t, In (ALog t) acts -> fresh t) ->
  xrun mem n s acts = (n', s', l) ->
  exists ms, Forall2 cut_entry (through l) ms /\ with_worker s' = with_worker s ++ ms.
Proof. intros. eapply run_gives; eassumption. Qed.
Print Assumptions C115_run_partial.

(** With enough memory, before initialization: the first statement is kept, is told on stderr, and no later one takes its place or is told. *)
Theorem C115_first_kept_partial : forall mem t r n s l, (forall n, mem n = None) ->
  (forall u, In u (t :: r) -> fresh u /\ fatal u = false /\ t_throws u = false /\ (size (c_str (c_file (t_capture u))) < npos)%N) ->
  xrun mem 0 x_start (map ALog (t :: r)) = (n, s, l) ->
  (forall p, In p l -> snd p = Some Returned) /\ x_end s = None /\
  exists m, is_entry t (whole_text t) m /\ x_out s = [XStderr (lit "LOGGER NOT INITIALIZED:" ++ [NL; TAB; TAB] ++ _message m ++ nl)] /\
    forall n2 s2 o, xstep mem n s AInit = (n2, s2, o) -> o = Some Returned /\
      exists k, x_queue s2 = [XSave k] /\ _message k = lit "LOGGER NOT INITIALIZED:" ++ [NL; TAB; TAB] ++ _message m /\ k = replace_text m (_message k).
Proof.
  intros mem t r n s l OK H E. destruct (first_kept mem OK t r 0 n s l H E) as (O & NE & m & I & Q).
  split; [exact O|]. split; [exact NE|]. exists m. split; [exact I|]. destruct Q as (Q1 & Q2 & Q3 & Q4 & Q5 & Q6). split; [exact Q2|].
  intros n2 s2 o S2. unfold xstep in S2. rewrite NE in S2. cbn [xdo] in S2. unfold xinitialize, getv, bind in S2.
  rewrite Q3, Q4, Q1 in S2. unfold setv, xsend, bind, alloc, locked, ret in S2. rewrite !OK in S2.
  cbn [w_first x_locked] in S2. rewrite Q5 in S2. cbn in S2. injection S2 as <- <- <-. split; [reflexivity|].
  eexists. cbn [w_counter w_hook w_logger w_save_first w_locked w_queue w_first x_queue]. rewrite Q6. repeat split.
Qed.
Print Assumptions C115_first_kept_partial.

Example C115_ex_first : exists n s l, xrun plenty 0 x_start (map ALog [ex_log; ex_log2]) = (n, s, l) /\
  fresh ex_log /\ fatal ex_log2 = false /\ (size (c_str (c_file (t_capture ex_log2))) < npos)%N /\
  x_out s = [XStderr (lit "LOGGER NOT INITIALIZED:" ++ [NL; TAB; TAB] ++ lit "x=42" ++ nl)] /\ map snd l = [Some Returned; Some Returned].
Proof. do 3 eexists. split; [vm_compute; reflexivity|]. repeat split. Qed.

Example C115_ex : ready_to_log ex_ready /\ fresh ex_log /\ fatal ex_log = false /\
  exists n s l, xrun (fails 8 0) 0 ex_ready [ALog ex_log; ALog ex_log2; AWork; ALog ex_log; AWork; AWork] = (n, s, l) /\
    map snd l = [Some Threw; Some Returned; Some Returned; Some Returned; Some Returned; Some Returned] /\
    map _message (with_worker s) = [lit "second"; lit "x=42"] /\ map fst (x_got s) = [4; 4].
Proof. split; [repeat split|]. split; [reflexivity|]. split; [reflexivity|]. do 3 eexists. split; [vm_compute; reflexivity|]. repeat split. Qed.

(** ** C116: fatal events *)
(** False: LOG(FATAL) throws and the program goes on; the client's hook is gone without having been called; and the next fatal event says that
    there was a recursive crash, which there was not *)
Theorem C116_refuted : exists mem n s l f, ready_to_log ex_ready /\ x_hook ex_ready = Some (Hook 3) /\
  xrun mem 0 ex_ready [ALog ex_fatal; ALog ex_log; ALog ex_fatal] = (n, s, l) /\
  map snd l = [Some Threw; Some Returned; Some Waits] /\ x_end s = None /\ x_out s = [] /\
  nth_error (x_queue s) 1 = Some (XFatal f) /\ contains (lit "A recursive crash detected") (_message (f_msg f)).
Proof.
  exists (fails 14 0). do 4 eexists. split; [repeat split|]. split; [reflexivity|]. split; [vm_compute; reflexivity|].
  split; [reflexivity|]. split; [reflexivity|]. split; [reflexivity|]. split; [reflexivity|].
  match goal with |- contains _ ?l => exists (firstn 46 l), (skipn 72 l) end. vm_compute. reflexivity.
Qed.
Print Assumptions C116_refuted.

(** A fatal statement never returns.  It throws, leaving queue, sinks and logger as they were; or its message, with its signal and level, is in the
    queue and the thread waits; or the process ends. *)
Theorem C116_never_returns_partial : forall mem t n s r n' s', fresh t -> fatal t = true -> x_locked s = false ->
  xstatement mem t n s = (r, n', s') ->
  (r = Thrown /\ x_queue s' = x_queue s /\ x_sinks s' = x_sinks s /\ x_logger s' = x_logger s /\ x_locked s' = false) \/
  (r = Val Waits /\ x_logger s = true /\ x_sinks s' = x_sinks s /\ x_logger s' = true /\ x_locked s' = false /\
   exists f, x_queue s' = x_queue s ++ [XFatal f] /\ _signal_id f = c_fatal_signal (t_capture t) /\
     value (_level (f_msg f)) = value (c_level (t_capture t))) \/
  (x_logger s = false /\ exists lv, r = Over (XSignal lv (c_fatal_signal (t_capture t))) /\ value lv = value (c_level (t_capture t))) \/
  (t_throws t = true /\ r = Over XTerminate).
Proof.
  intros mem t n s r n' s' F FT L E. apply failed in E; try assumption.
  destruct E as [[(-> & G)|[(-> & LG & f & s1 & G & -> & Sg & V)|(LG & G & lv & sg & -> & -> & V)]]|(T & -> & G)].
  - left. unfold framed in G. intuition congruence.
  - right. left. unfold framed in G. cbn [w_queue x_sinks x_logger x_locked x_queue].
    destruct G as (G1 & _ & _ & _ & G2 & G3 & G4 & _). rewrite G1, G2, G3, G4. intuition. eauto.
  - right. right. left. eauto.
  - right. right. right. auto.
Qed.
Print Assumptions C116_never_returns_partial.

(** Once the fatal message is in the queue and the worker comes to it, the process ends: by its signal, or by terminate. *)
Theorem C116_worker_ends : forall mem n s f q, x_locked s = false -> x_queue s = XFatal f :: q ->
  exists e n' s', xwork mem n s = (Over e, n', s') /\ (e = XTerminate \/ e = XSignal (_level (f_msg f)) (_signal_id f)).
Proof.
  intros mem n s f q L Q. destruct (xwork mem n s) as ((r, n'), s') eqn:E. pose proof E as E0.
  unfold xwork, getv, bind at 1 in E. rewrite Q in E. unfold bind at 1, locked at 1 in E. rewrite L in E. unfold setv, bind at 1 in E. cbn iota beta in E.
  match type of E with match ?X with _ => _ end = _ => destruct X as ((r2, n2), s2) eqn:B end.
  assert (R : r2 = Thrown \/ r2 = Over XTerminate \/ r2 = Over (XSignal (_level (f_msg f)) (_signal_id f))).
  { clear E. do 5 (apply after_alloc in B; destruct B as [(-> & _)|B]; [now left|]).
    unfold bind at 1 in B. unfold bind in B.
    match type of B with match ?X with _ => _ end = _ => destruct X as ((r3, n3), s3) eqn:T3 end.
    apply to_sinks_spec in T3. destruct T3 as (d & _ & _ & _ & O & _). destruct O as [-> | ->]; [|injection B as <- <- <-; auto].
    destruct (xclear mem _ n3 s3) as ((r4, n4), s4) eqn:C4. apply cleared in C4. destruct C4 as (-> & [-> | ->]); injection B as <- <- <-; auto. }
  destruct R as [-> |[-> | ->]]; injection E as <- <- <-; eauto 8.
Qed.
Print Assumptions C116_worker_ends.

Ltac fields := cbn [w_counter w_hook w_first_trace w_out w_locked w_queue x_first_trace x_counter x_logger x_locked x_queue x_hook x_out].
(** With enough memory a fatal statement, while logging is active, does all that it has to: the client's hook is called, once, and taken out; the message has the
    whole text, then the stack dump, and tells of a recursive crash exactly if there was a fatal event since initialization. *)
Theorem C116_enough_memory_partial : forall mem t n s h, (forall n, mem n = None) -> fresh t -> fatal t = true -> ready_to_log s ->
  (size (c_str (c_file (t_capture t))) < npos)%N -> x_hook s = Some h -> (x_counter s < npos)%N ->
  exists n' s' f m, xstatement mem t n s = (Val Waits, n', s') /\ x_hook s' = Some HookNop /\ x_counter s' = (x_counter s + 1)%N /\
    x_out s' = x_out s ++ match h with Hook i => [XHook i] | HookNop => [] end /\
    x_queue s' = x_queue s ++ [XFatal f] /\ is_entry t (whole_text t) m /\
    _message (f_msg f) = _message m ++ c_str (c_stack_trace (t_capture t)) ++
      (if (x_counter s =? 0)%N then []
       else recursive_warning match x_first_trace s with Some d => d | None => c_str (c_stack_trace (t_capture t)) end).
Proof.
  intros mem t n s h OK F FT (LG & L & NE) SZ HK C.
  unfold xstatement. assert (W : wasFatal (c_level (t_capture t)) = true) by exact FT. rewrite W.
  unfold bind, alloc. rewrite !OK. rewrite inserted_all by (intros; apply OK). cbn [app].
  unfold xhand_over, bind, alloc. rewrite !OK.
  destruct (end_total (t_full t) (t_now t) (t_tid t) (stream (t_capture t) (List.concat (t_pieces t))) SZ) as (d & D). rewrite D.
  apply entry_fields in D; [|assumption]. destruct D as [(m & _ & B & _)|(st & m & -> & _ & I & ->)]; [congruence|].
  unfold xsaveFatalMessage, getv, setv, bind, alloc. rewrite !OK, HK. cbn [w_counter w_hook x_first_trace x_counter].
  assert (SC : sz (x_counter s + 1) = (x_counter s + 1)%N) by (unfold sz; apply N.mod_small; unfold npos in C; unfold size_max; lia).
  assert (CT : (1 <? x_counter s + 1)%N = negb (x_counter s =? 0)%N).
  { destruct (N.eqb_spec (x_counter s) 0) as [E0|E0]; cbn [negb]; [apply N.ltb_ge|apply N.ltb_lt]; lia. }
  destruct (x_first_trace s) as [d|] eqn:FTR; destruct h as [|i];
    unfold ret, xpushFatalMessageToLogger, xsend, locked, getv, setv, bind, alloc; repeat first [progress fields|rewrite OK|rewrite SC];
    rewrite ?CT; destruct (x_counter s =? 0)%N eqn:Z; cbn [negb]; repeat first [progress fields|rewrite OK|rewrite LG|rewrite L];
    do 4 eexists; (split; [reflexivity|]); fields;
    repeat (split; [rewrite ?app_nil_r; first [reflexivity|eassumption]|]); cbn [f_msg new_FatalMessage copyMsg write_append _message]; rewrite ?FTR, ?app_nil_r, <- ?app_assoc; reflexivity.
Qed.
Print Assumptions C116_enough_memory_partial.

Example C116_ex : fresh ex_fatal /\ fatal ex_fatal = true /\
  exists n s l, xrun plenty 0 ex_ready [ALog ex_log; ALog ex_fatal; AWork; AWork] = (n, s, l) /\
    map snd l = [Some Returned; Some Waits; Some Returned; None] /\ x_end s = Some (XSignal FATAL 6) /\ x_out s = [XHook 3] /\
    map fst (x_got s) = [4; 4].
Proof. split; [reflexivity|]. split; [reflexivity|]. do 3 eexists. split; [vm_compute; reflexivity|]. repeat split. Qed.

Example C116_ex_enough : ready_to_log ex_ready /\ x_hook ex_ready = Some (Hook 3) /\ (x_counter ex_ready < npos)%N /\
  (size (c_str (c_file (t_capture ex_fatal))) < npos)%N /\
  exists n s f, xstatement plenty ex_fatal 0 ex_ready = (Val Waits, n, s) /\ x_out s = [XHook 3] /\ x_queue s = [XFatal f] /\ _message (f_msg f) = lit "gone" ++ nl ++ lit "*******" ++ tab ++ lit "STACKDUMP *******" ++ nl ++ lit "dump".
Proof. split; [repeat split|]. split; [reflexivity|]. split; [reflexivity|]. split; [reflexivity|]. do 3 eexists. split; [vm_compute; reflexivity|]. split; [reflexivity|]. split; [reflexivity|]. reflexivity. Qed.

(** setFatalPreLoggingHook when memory runs out: it throws and the hook is the one there was, or the hook is the new one; nothing else changes.
    And the new hook is the one that the next fatal statement calls. *)
Theorem C116_hook_partial : forall mem h n s,
  xset_hook mem h n s = (match mem n with Some _ => Thrown | None => Val Returned end, S n, match mem n with Some _ => s | None => w_hook h s end) /\
  x_hook (w_hook h s) = h /\ x_queue (w_hook h s) = x_queue s /\ x_sinks (w_hook h s) = x_sinks s /\ x_logger (w_hook h s) = x_logger s /\
  x_counter (w_hook h s) = x_counter s /\ x_out (w_hook h s) = x_out s /\ x_locked (w_hook h s) = x_locked s.
Proof.
  intros mem h n s. split; [|repeat split]. unfold xset_hook, bind, alloc, setv, ret. destruct (mem n); reflexivity.
Qed.
Print Assumptions C116_hook_partial.
Theorem C116_new_hook_partial : forall mem t n s i n1 s1 o, (forall n, mem n = None) -> fresh t -> fatal t = true -> ready_to_log s ->
  (size (c_str (c_file (t_capture t))) < npos)%N -> (x_counter s < npos)%N ->
  xdo mem (ASetHook (Some (Hook i))) n s = (o, n1, s1) ->
  o = Val Returned /\ exists n' s', xstatement mem t n1 s1 = (Val Waits, n', s') /\ x_out s' = x_out s ++ [XHook i].
Proof.
  intros mem t n s i n1 s1 o OK F FT R SZ C E. cbn [xdo] in E. destruct (C116_hook_partial mem (Some (Hook i)) n s) as [Q _].
  rewrite Q, OK in E. injection E as <- <- <-. split; [reflexivity|].
  assert (R' : ready_to_log (w_hook (Some (Hook i)) s)) by exact R.
  destruct (C116_enough_memory_partial mem t (S n) _ (Hook i) OK F FT R' SZ eq_refl C) as (n' & s' & f & m & E1 & _ & _ & O & _).
  exists n', s'. split; [exact E1|exact O].
Qed.
Print Assumptions C116_new_hook_partial.
Example C116_ex_hook : exists n s l, xrun (fails 0 0) 0 ex_ready [ASetHook (Some (Hook 8)); ASetHook (Some (Hook 9)); ALog ex_fatal] = (n, s, l) /\
  map snd l = [Some Threw; Some Returned; Some Waits] /\ x_out s = [XHook 9].
Proof. do 3 eexists. split; [vm_compute; reflexivity|]. split; reflexivity. Qed.

(** ** C117: the background *)
(** False: the LOG call returned, the worker runs out of memory, and the process ends without the entry having reached a sink *)
Theorem C117_refuted : exists mem n s l, xrun mem 0 ex_ready [ALog ex_log; ALog ex_log2; AWork] = (n, s, l) /\
  map snd l = [Some Returned; Some Returned; None] /\ x_end s = Some XTerminate /\ length (with_worker s) = 2 /\ x_got s = [].
Proof. exists (fails 27 0). do 3 eexists. split; [vm_compute; reflexivity|]. repeat split. Qed.
Print Assumptions C117_refuted.

(** A sink that is registered once is sent what the worker has taken, in order, without gaps; all of it as long as the process
    lives, and at the end all but at most the last one (or, after those, the fatal message). *)
Theorem C117_in_order_partial : forall mem k acts n s n' s' l, ready_to_log s ->
  count_occ Nat.eq_dec (x_sinks s) k = 1 -> ~ In (XAdd k) (x_queue s) -> ~ In (AAddSink k) acts ->
  (forall t, In (ALog t) acts -> fresh t) -> xrun mem n s acts = (n', s', l) ->
  exists d g, x_taken s' = x_taken s ++ d /\ of_sink k (x_got s') = of_sink k (x_got s) ++ g /\
    (x_end s' = None -> g = d) /\ exists e, length e <= 1 /\ (d = g ++ e \/ g = d ++ e).
Proof. intros mem k acts n s n' s' l R C NA NK F E. eapply run_heard; try eassumption. now split. Qed.
Print Assumptions C117_in_order_partial.

Example C117_ex : count_occ Nat.eq_dec (x_sinks ex_ready) 4 = 1 /\ ~ In (XAdd 4) (x_queue ex_ready) /\
  exists n s l, xrun (fails 20 0) 0 ex_ready [AAddSink 5; ALog ex_log; AWork; AWork; AAddReturn 5; ALog ex_log2; ALog ex_log2; AWork] = (n, s, l) /\
    map snd l = [Some Waits; Some Threw; Some Returned; Some Returned; Some Returned; Some Returned; Some Returned; Some Returned] /\
    map _message (of_sink 4 (x_got s)) = [lit "second"] /\ length (of_sink 5 (x_got s)) = 1.
Proof. split; [reflexivity|]. split; [intros []|]. do 3 eexists. split; [vm_compute; reflexivity|]. repeat split. Qed.

(** ** C118: addSink *)
(** False: the exception of push_back stays in a future nobody asks: addSink returns a handle, but there is no sink *)
Theorem C118_returned_refuted : exists mem n s l, xrun mem 0 ex_ready [AAddSink 5; AWork; AAddReturn 5] = (n, s, l) /\
  map snd l = [Some Waits; Some Returned; Some Returned] /\ ~ In 5 (x_sinks s) /\ x_end s = None.
Proof.
  exists (fails 8 0). do 3 eexists. split; [vm_compute; reflexivity|]. split; [reflexivity|]. split; [|reflexivity].
  intros [H|[]]. discriminate.
Qed.
Print Assumptions C118_returned_refuted.

(** False: addSink throws because there is no memory for the handle, but the sink is registered and is sent messages *)
Theorem C118_threw_refuted : exists mem n s l, xrun mem 0 ex_ready [AAddSink 5; AWork; AAddReturn 5; ALog ex_log; AWork] = (n, s, l) /\
  map snd l = [Some Waits; Some Returned; Some Threw; Some Returned; Some Returned] /\ length (of_sink 5 (x_got s)) = 1.
Proof. exists (fails 9 0). do 3 eexists. split; [vm_compute; reflexivity|]. repeat split. Qed.
Print Assumptions C118_threw_refuted.

(** False: there is no memory for the job, the exception destroys the new sink on its way out, and the destructor, which needs memory
    too, ends the process *)
Theorem C118_process_refuted : exists mem n s l, mem 2 = None /\ xrun mem 0 ex_ready [AAddSink 5] = (n, s, l) /\
  map snd l = [None] /\ x_end s = Some XTerminate.
Proof. exists (fun n => if Nat.ltb n 4 then None else Some 0). do 3 eexists. split; [reflexivity|]. split; [vm_compute; reflexivity|]. repeat split. Qed.
Print Assumptions C118_process_refuted.

(** addSink that throws before it waits changes nothing; and the part after the wait never changes anything. *)
Theorem C118_throws_partial : forall mem k n s r n' s', x_locked s = false ->
  (xadd_sink mem k n s = (r, n', s') -> r = Thrown -> s' = s) /\ (xadd_return mem k n s = (r, n', s') -> s' = s).
Proof.
  intros mem k n s r n' s' L. split; intro E.
  - intros ->. apply add_spec in E; [|assumption]. destruct E as [(-> & _)|(E & _)]; [reflexivity|discriminate].
  - apply return_spec in E. apply E.
Qed.
Print Assumptions C118_throws_partial.

(** The end of addSink, exactly.  The sink is registered: without memory for the handle it throws, otherwise it returns.  It is not (the exception of
    push_back stayed in the future): the call destroys the sink, which needs memory three times and ends the process without it. *)
Theorem C118_return_partial : forall mem k n s r n' s', In k (x_tasks s) -> xadd_return mem k n s = (r, n', s') ->
  s' = s /\
  (In k (x_sinks s) -> r = if mem n then Thrown else Val Returned) /\
  (~ In k (x_sinks s) ->
     ((exists i, 1 <= i <= 3 /\ mem (n + i) <> None) -> r = Over XTerminate) /\
     ((forall i, 1 <= i <= 3 -> mem (n + i) = None) -> r = if mem n then Thrown else Val Returned)).
Proof.
  intros mem k n s r n' s' T E. pose proof E as E0. apply return_spec in E0. split; [apply E0|]. clear E0.
  assert (T' : existsb (Nat.eqb k) (x_tasks s) = true) by (apply existsb_exists; exists k; split; [exact T|apply Nat.eqb_refl]).
  unfold xadd_return, getv, bind in E. rewrite T' in E. split; intro K.
  - assert (K' : existsb (Nat.eqb k) (x_sinks s) = true) by (apply existsb_exists; exists k; split; [exact K|apply Nat.eqb_refl]).
    rewrite K' in E. unfold alloc, ret in E. destruct (mem n); injection E as <- <- <-; reflexivity.
  - assert (K' : existsb (Nat.eqb k) (x_sinks s) = false).
    { destruct (existsb (Nat.eqb k) (x_sinks s)) eqn:X; [|reflexivity]. apply existsb_exists in X. destruct X as (j & I & J).
      apply Nat.eqb_eq in J. subst j. now elim K. }
    rewrite K' in E. unfold owning_sink, xdestroy_sink, must, bind, alloc, ret in E.
    assert (A : forall i j, mem i <> None -> i = j -> mem j <> None) by (intros; subst; assumption).
    split; intro M.
    + destruct M as (i & I & M). assert (D : mem (S n) <> None \/ mem (S (S n)) <> None \/ mem (S (S (S n))) <> None).
      { assert (i = 1 \/ i = 2 \/ i = 3) as [->|[->| ->]] by lia; [left|right; left|right; right]; eapply A; try exact M; lia. }
      destruct (mem n), (mem (S n)), (mem (S (S n))), (mem (S (S (S n)))); cbn in E; try (injection E as <- <- <-; reflexivity);
        exfalso; destruct D as [D|[D|D]]; apply D; reflexivity.
    + assert (M1 : mem (S n) = None) by (rewrite <- (M 1) by lia; f_equal; lia).
      assert (M2 : mem (S (S n)) = None) by (rewrite <- (M 2) by lia; f_equal; lia).
      assert (M3 : mem (S (S (S n))) = None) by (rewrite <- (M 3) by lia; f_equal; lia).
      destruct (mem n); rewrite M1, M2, M3 in E; cbn in E; injection E as <- <- <-; reflexivity.
Qed.
Print Assumptions C118_return_partial.
(** no memory for the list of sinks, and then none to destroy the sink with *)
Example C118_ex_return : exists n s l, xrun (fun n => if Nat.eqb n 8 || Nat.eqb n 11 then Some 0 else None)%bool 0 ex_ready [AAddSink 5; AWork; AAddReturn 5] = (n, s, l) /\
  map snd l = [Some Waits; Some Returned; None] /\ x_end s = Some XTerminate /\ In 5 (x_tasks s) /\ ~ In 5 (x_sinks s).
Proof. do 3 eexists. split; [vm_compute; reflexivity|]. split; [reflexivity|]. split; [reflexivity|]. split; [vm_compute; auto|]. vm_compute. intuition discriminate. Qed.

(** With enough memory a sink whose addSink has returned is registered, in every run from the start of the program. *)
Theorem C118_registered_partial : forall mem acts n' s' l a k, (forall n, mem n = None) ->
  xrun mem 0 x_start acts = (n', s', l) -> x_end s' = None ->
  forall n2 s2, xstep mem n' s' a = (n2, s2, Some Returned) -> a = AAddReturn k -> In k (x_sinks s2).
Proof.
  intros mem acts n' s' l a k OK E NE n2 s2 S2 ->. apply got_registered in E; [|assumption|intros i []].
  unfold xstep in S2. rewrite NE in S2. cbn [xdo] in S2. unfold xadd_return, getv, bind at 1 in S2.
  destruct (existsb (Nat.eqb k) (x_tasks s')) eqn:X; [|discriminate].
  apply existsb_exists in X. destruct X as (i & Hi & Ei). apply Nat.eqb_eq in Ei. subst i.
  apply E in Hi. unfold bind in S2. assert (X : existsb (Nat.eqb k) (x_sinks s') = true) by (apply existsb_exists; exists k; now rewrite Nat.eqb_refl).
  rewrite X in S2. unfold alloc in S2. rewrite OK in S2. injection S2 as <- <-. exact Hi.
Qed.
Print Assumptions C118_registered_partial.

Example C118_ex : exists n s l n2 s2, xrun plenty 0 x_start [AAddSink 5; AInit; ALog ex_log; AWork] = (n, s, l) /\ x_end s = None /\
  xstep plenty n s (AAddReturn 5) = (n2, s2, Some Returned) /\ x_sinks s2 = [5].
Proof. do 5 eexists. split; [vm_compute; reflexivity|]. split; [reflexivity|]. split; [vm_compute; reflexivity|]. reflexivity. Qed.
Example C118_ex2 : (exists n s, xadd_sink (fails 4 0) 5 0 ex_ready = (Thrown, n, s)) /\
  (exists n s, xadd_return (fails 0 0) 5 0 (w_task 5 ex_ready) = (Thrown, n, s)).
Proof. split; do 2 eexists; vm_compute; reflexivity. Qed.

(** ** C119: initializeLogging *)
(** False: the entry kept from before is moved out before it is saved; an exception loses it, and calling again does not bring it back *)
Theorem C119_refuted : exists mem n s l, xrun mem 0 x_start [ALog ex_log; AInit; AInit] = (n, s, l) /\
  map snd l = [Some Returned; Some Threw; Some Returned] /\ x_logger s = true /\ with_worker s = [] /\ x_first s = None.
Proof. exists (fails 16 0). do 3 eexists. split; [vm_compute; reflexivity|]. repeat split. Qed.
Print Assumptions C119_refuted.

(** Apart from that entry, a call that throws changes nothing; and without such an entry it does not throw. *)
Theorem C119_throws_partial : forall mem n s n' s', x_locked s = false -> xinitialize mem n s = (Thrown, n', s') ->
  s' = w_first None s /\ x_first s <> None /\ x_save_first s = false /\ x_logger s = false.
Proof.
  intros mem n s n' s' L E. unfold xinitialize, getv, setv, bind, ret in E. destruct (x_logger s) eqn:LG; [discriminate|].
  destruct (x_save_first s) eqn:SF; [discriminate|]. destruct (x_first s) as [m|] eqn:FM; [|discriminate].
  destruct (xsend mem (XSave m) n (w_first None s)) as ((r, n1), s1) eqn:S1. apply sent in S1; [|exact L].
  destruct S1 as [(-> & ->)|(-> & ->)]; [|discriminate].
  injection E as <- <-. repeat split; auto; discriminate.
Qed.
Print Assumptions C119_throws_partial.

(** A call that returns gives the kept entry, if there is one, to the worker and switches logging on. *)
Theorem C119_returns : forall mem n s n' s', x_locked s = false -> x_save_first s = false ->
  xinitialize mem n s = (Val Returned, n', s') ->
  with_worker s' = with_worker s ++ (match x_first s with Some m => [m] | None => [] end) /\
  x_logger s' = true /\ x_first s' = None /\ x_save_first s' = true /\ x_hook s' = Some HookNop /\ x_counter s' = 0%N /\ x_locked s' = false.
Proof.
  intros mem n s n' s' L SF E. unfold xinitialize, getv, setv, bind, ret in E. destruct (x_logger s) eqn:LG; [discriminate|].
  rewrite SF in E. destruct (x_first s) as [m|] eqn:FM.
  - destruct (xsend mem (XSave m) n (w_first None s)) as ((r, n1), s1) eqn:S1. apply sent in S1; [|exact L].
    destruct S1 as [(-> & ->)|(-> & ->)]; [discriminate|]. injection E as <- <-. cbn.
    split; [|auto 8]. unfold with_worker. cbn. now rewrite flat_map_app, app_assoc.
  - injection E as <- <-. cbn. split; [now rewrite app_nil_r|auto 8].
Qed.
Print Assumptions C119_returns.

Example C119_ex : exists n s l, xrun plenty 0 x_start [ALog ex_log; ALog ex_log2; AInit] = (n, s, l) /\ x_locked s = false /\
  map _message (with_worker s) = [not_initialized_text ++ lit "x=42"] /\
  exists n1 s1 n2 s2, xstep plenty 0 x_start (ALog ex_log) = (n1, s1, Some Returned) /\ xinitialize (fails n1 0) n1 s1 = (Thrown, n2, s2) /\
    x_first s1 <> None /\ x_first s2 = None.
Proof.
  do 3 eexists. split; [vm_compute; reflexivity|]. split; [reflexivity|]. split; [vm_compute; reflexivity|].
  do 4 eexists. split; [vm_compute; reflexivity|]. split; [vm_compute; reflexivity|]. split; [discriminate|reflexivity].
Qed.

(** ** C120: starting the background thread *)
(** False: if the thread cannot be started the half-made object is destroyed, and joining a thread that never ran ends the process *)
Theorem C120_refuted : exists mem, (forall n, mem n = None) /\ xcreateActive mem false 0 = STerminate.
Proof. exists plenty. split; reflexivity. Qed.
Print Assumptions C120_refuted.

(** Exactly this happens: it throws only if there is no memory for the object itself. *)
Theorem C120_outcomes_partial : forall mem thread n,
  xcreateActive mem thread n =
    match mem n, mem (S n), thread with
    | Some _, _, _ => SThrew
    | None, None, true => SRunning
    | _, _, _ => STerminate
    end.
Proof.
  intros mem thread n. unfold xcreateActive, alloc. destruct (mem n); [reflexivity|]. destruct (mem (S n)).
  - unfold xdestroyActive. destruct (xsend mem (XAdd 0) (S (S n)) x_start) as ((r, n1), s1). destruct r; reflexivity.
  - destruct thread; [reflexivity|].
    unfold xdestroyActive. destruct (xsend mem (XAdd 0) (S (S n)) x_start) as ((r, n1), s1). destruct r; reflexivity.
Qed.
Print Assumptions C120_outcomes_partial.

Example C120_ex : xcreateActive plenty true 0 = SRunning /\ xcreateActive (fails 0 0) true 0 = SThrew /\ xcreateActive (fails 1 0) true 0 = STerminate.
Proof. repeat split. Qed.
