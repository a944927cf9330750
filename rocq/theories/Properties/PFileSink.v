(** C53-C60, C72: contents of log files.  Model: Model/FileSink.v; specification: Spec/FileSinkSpec.v. *)
From Coq Require Import Ascii String List ZArith NArith Bool Lia.
From Verif.Base Require Import Bytes.
From Verif.Model Require Import Levels TimeFmt Message FileName FileSink.
From Verif.Spec Require Import TimeSpec MessageSpec FileNameSpec FileSinkSpec.
From Verif.Proofs Require Import BytesFacts TimeFacts MessageFacts FileNameFacts FileSinkFacts.
From Verif.Properties Require Import PFileName.
Import ListNotations.
Local Open Scope list_scope.

Lemma header_written_due : forall e h os hd, header_written e h os hd -> header_due e h os hd.
Proof.
  intros e h os hd H. unfold header_written, header_due in *. destruct (first_header h os) as [[h' now]|]; auto.
  apply header_notice in H. exact H.
Qed.

(** For the examples: messages, their details rendered by a client function as "D ". *)
Definition ex_msg (t : str) : LogMessage := mkMsg DefaultDetails 0 1 (lit "f.cpp") (lit "/s/f.cpp") 7 (lit "fun") INFO [] t.
Definition ex_recv (t : str) : op := ORecv (ex_msg t) 0 0 0.
Definition ex_create (every : N) : out (FileSink * disk) :=
  create ex_env (fun _ => false) (lit "app") (lit "/logs") [] every 0 (Some 1%nat) None (fun _ => lit "old").
Definition ex_ops : list op := [ODetails (UserDetails 0); OHeader (lit "HH" ++ [NL]); ex_recv (lit "one"); ex_recv (lit "two"); ex_recv (lit "three")].
Definition ex_go (every : N) (os : list op) : out (FileSink * disk) := obind (ex_create every) (fun w => ops_run ex_env w os).
(** the contents of file i, and of file i after an orderly shutdown *)
Definition ex_file (i : nat) (r : out (FileSink * disk)) : out str := obind r (fun w => Ok (d_fs (snd w) i)).
Definition ex_end (i : nat) (r : out (FileSink * disk)) : out str := obind r (fun w => obind (destroy ex_env w 0 0) (fun g => Ok (g i))).

(** ** C53 *)
(** A sink that opened a file, received any calls other than a change of file, and was destroyed: its file
    holds the header (if any message came), all messages in order, the closing line, and nothing else; no
    other file was touched. *)
Theorem C53_file_after_shutdown : forall e high p dir id every now r1 r2 f w0 os w tnow k g,
  create e high p dir id every now r1 r2 f = Ok w0 -> (every <> 0)%N -> d_out (snd w0) <> None ->
  Forall no_change os -> ops_run e w0 os = Ok w -> destroy e w tnow k = Ok g ->
  exists i hd ts t, (r1 = Some i \/ r1 = None /\ r2 = Some i) /\
    received e DefaultDetails os ts /\ header_due e default_header os hd /\
    FileName.formatted (clock_of e) tnow time_formatted = FOk t /\
    g i = hd ++ concat ts ++ closing_text t /\ forall j, j <> i -> g j = f j.
Proof.
  intros e high p dir id every now r1 r2 f [s0 d0] os [s d] tnow k g C Z O NC R D.
  destruct (created_Inv1 _ _ _ _ _ _ _ _ _ _ _ _ C Z O) as (i & RR & I & OT).
  pose proof (create_sink _ _ _ _ _ _ _ _ _ _ _ C) as (S1 & S2 & S3 & _). cbn [fst] in *.
  destruct (run_Inv1 _ _ _ _ _ _ _ _ _ _ I NC R) as (ts & hd & dn & pend & RC & I' & E & HW & _ & _ & _ & _ & OT').
  rewrite S3, S2 in HW. rewrite S1 in RC. destruct I' as (A & _ & (B & _) & _).
  destruct (destroy_effect _ _ _ _ _ _ _ _ A D) as (t & T & G & OT2).
  exists i, hd, ts, t. split; auto. split; auto. split; [now apply header_written_due|]. split; auto. split.
  - rewrite G, B. cbn in E. rewrite <- E, concat_app, <- !app_assoc. reflexivity.
  - intros j J. rewrite OT2, OT', OT; auto.
Qed.
Print Assumptions C53_file_after_shutdown.

Example C53_ex : ex_end 1 (ex_go 2 ex_ops) =
  Ok (header_text (lit "x x 04 00:00:00 2021") (lit "HH" ++ [NL]) ++
      lit "D one" ++ [NL] ++ lit "D two" ++ [NL] ++ lit "D three" ++ [NL] ++ closing_text (lit "00:00:00 000000")) /\
  (exists w, ex_go 2 ex_ops = Ok w /\ d_out (snd w) <> None) /\ Forall no_change ex_ops.
Proof.
  split; [vm_compute; reflexivity|]. split.
  - eexists. split; [vm_compute; reflexivity|discriminate].
  - repeat constructor.
Qed.

(** ** C54 *)
(** After any calls: the file holds an initial part of header and messages and misses fewer than [every] of
    the messages received, in any state of the stream. *)
Theorem C54_file_between_calls : forall e high p dir id every now r1 r2 f w0 os w,
  create e high p dir id every now r1 r2 f = Ok w0 -> (every <> 0)%N -> d_out (snd w0) <> None ->
  Forall no_change os -> ops_run e w0 os = Ok w ->
  exists i hd ts, (r1 = Some i \/ r1 = None /\ r2 = Some i) /\
    received e DefaultDetails os ts /\ header_due e default_header os hd /\
    starts_with (hd ++ concat ts) (d_fs (snd w) i) /\
    exists n, n <= length ts /\ (N.of_nat (length ts - n) < every)%N /\
      (n = 0 \/ starts_with (d_fs (snd w) i) (hd ++ concat (firstn n ts))).
Proof.
  intros e high p dir id every now r1 r2 f [s0 d0] os [s d] C Z O NC R.
  destruct (created_Inv1 _ _ _ _ _ _ _ _ _ _ _ _ C Z O) as (i & RR & I & OT).
  pose proof (create_sink _ _ _ _ _ _ _ _ _ _ _ C) as (S1 & S2 & S3 & _ & _ & S6). cbn [fst snd] in *.
  destruct (run_Inv1 _ _ _ _ _ _ _ _ _ _ I NC R) as (ts & hd & dn & pend & RC & I' & E & HW & _ & _ & _ & EV & OT').
  rewrite S3, S2 in HW. rewrite S1 in RC. destruct I' as (A & FL & CT & _). cbn in E.
  exists i, hd, ts. split; auto. split; auto. split; [now apply header_written_due|]. split.
  - destruct (at_end_content _ _ _ A) as [x X]. exists (x ++ concat pend).
    rewrite <- E, concat_app, !app_assoc, X. reflexivity.
  - exists (length dn). rewrite <- E. rewrite app_length. split; [lia|].
    replace (length dn + length pend - length dn) with (length pend) by lia.
    split; [rewrite <- S6, <- EV; now apply counted_pending|].
    rewrite firstn_app, firstn_all, Nat.sub_diag. simpl. rewrite app_nil_r.
    destruct dn as [|x dn]; [now left|]. right. rewrite (at_end_flushed _ _ _ A); [apply starts_refl|].
    apply FL. discriminate.
Qed.
Print Assumptions C54_file_between_calls.

(** A crash in the middle of receiving message [m], after [j] of the stream operations of that call. *)
Theorem C54_crash_while_receiving : forall e high p dir id every now r1 r2 f w0 os s d m mnow k1 k2 s' ms j dj,
  create e high p dir id every now r1 r2 f = Ok w0 -> (every <> 0)%N -> d_out (snd w0) <> None ->
  Forall no_change os -> ops_run e w0 os = Ok (s, d) ->
  fileWrite e s m mnow k1 k2 = Ok (s', ms) -> mrun d (firstn j ms) = Some dj ->
  exists i hd ts t, (r1 = Some i \/ r1 = None /\ r2 = Some i) /\
    received e DefaultDetails (os ++ [ORecv m mnow k1 k2]) (ts ++ [t]) /\
    header_due e default_header (os ++ [ORecv m mnow k1 k2]) hd /\
    starts_with (hd ++ concat (ts ++ [t])) (d_fs dj i) /\
    exists n, n <= length ts /\ (N.of_nat (length ts - n) < every)%N /\
      (n = 0 \/ starts_with (d_fs dj i) (hd ++ concat (firstn n ts))).
Proof.
  intros e high p dir id every now r1 r2 f [s0 d0] os s d m mnow k1 k2 s' ms j dj C Z O NC R W J.
  destruct (created_Inv1 _ _ _ _ _ _ _ _ _ _ _ _ C Z O) as (i & RR & I & OT).
  pose proof (create_sink _ _ _ _ _ _ _ _ _ _ _ C) as (S1 & S2 & S3 & _ & _ & S6). cbn [fst snd] in *.
  destruct (run_Inv1 _ _ _ _ _ _ _ _ _ _ I NC R) as (ts & hd & dn & pend & RC & I' & E & HW & FE & RA & HA & EV & OT').
  rewrite S3, S2 in HW. rewrite S1 in *. rewrite S2, S3 in *. cbn in E.
  destruct (recv_Inv1 _ _ _ _ _ _ _ _ _ _ _ _ _ I' W) as (hd' & dn' & pend' & t & d' & _ & _ & _ & T & H & _ & _ & _ & _ & CR).
  destruct (CR j) as (dj' & J' & G & S). rewrite J in J'. injection J' as <-.
  exists i, hd', ts, t. split; auto.
  split. { apply RA. econstructor; [exact T|constructor]. }
  split.
  { apply header_written_due. unfold header_written. destruct (_firstEntry s) eqn:FS.
    - rewrite HA by reflexivity. cbn [first_header]. exact H.
    - subst hd'. unfold header_written in HW. clear -HW FE.
      assert (Q : forall h os r, first_header h os <> None -> first_header h (os ++ r) = first_header h os).
      { clear. intros h os r. revert h. induction os as [|o os IH]; intros h N; [exfalso; now apply N|].
        destruct o; cbn [first_header app] in *; auto. }
      rewrite Q; [exact HW|]. destruct (first_header default_header os); [discriminate|congruence]. }
  split. { rewrite <- E, <- app_assoc. exact S. }
  destruct I' as (A & FL & CT & FI).
  exists (length dn). rewrite <- E. rewrite app_length. split; [lia|].
  replace (length dn + length pend - length dn) with (length pend) by lia.
  split; [rewrite <- S6, <- EV; now apply counted_pending|].
  rewrite firstn_app, firstn_all, Nat.sub_diag. simpl. rewrite app_nil_r.
  destruct dn as [|x dn]; [now left|]. right. eapply starts_trans; [apply G|].
  assert (hd' = hd) as ->. { destruct (_firstEntry s); auto. destruct FI as (_ & K & _); [reflexivity|discriminate]. }
  rewrite (at_end_flushed _ _ _ A); [apply starts_refl|]. apply FL. discriminate.
Qed.
Print Assumptions C54_crash_while_receiving.

Example C54_ex : ex_file 1 (ex_go 2 ex_ops) =
  Ok (header_text (lit "x x 04 00:00:00 2021") (lit "HH" ++ [NL]) ++ lit "D one" ++ [NL] ++ lit "D two" ++ [NL]).
Proof. vm_compute. reflexivity. Qed.
(** the third message of four: two of its two stream operations done, or only one *)
Example C54_ex_crash : exists s d s' ms, ex_go 3 (firstn 4 ex_ops) = Ok (s, d) /\
  fileWrite ex_env s (ex_msg (lit "three")) 0 0 4 = Ok (s', ms) /\ length ms = 2 /\
  option_map (fun d => d_fs d 1) (mrun d (firstn 1 ms)) = Some ([TAB; TAB] ++ lit "g3") /\
  option_map (fun d => d_fs d 1) (mrun d ms) =
    Some (header_text (lit "x x 04 00:00:00 2021") (lit "HH" ++ [NL]) ++
          lit "D one" ++ [NL] ++ lit "D two" ++ [NL] ++ lit "D three" ++ [NL]).
Proof. do 4 eexists. split; [vm_compute; reflexivity|]. split; [vm_compute; reflexivity|]. repeat split; vm_compute; reflexivity. Qed.

(** ** C55 *)
(** Any calls, including changes of the log file that open files not used before: [files] are the files
    used, in order, each with what was written to it.  The messages in them followed by the pending ones
    are all messages received; all files but the last are complete on disk; of the last one at most
    notices at its end are missing on disk. *)
Theorem C55_messages_across_files : forall e high p dir id every now r1 r2 f w0 os w i0,
  create e high p dir id every now r1 r2 f = Ok w0 -> (every <> 0)%N ->
  (r1 = Some i0 \/ r1 = None /\ r2 = Some i0) ->
  NoDup (i0 :: opened os) -> ops_run e w0 os = Ok w ->
  exists files i ps pending ts, map fst (files ++ [(i, ps)]) = i0 :: opened os /\
    received e DefaultDetails os ts /\
    concat (map (fun x => entries (snd x)) (files ++ [(i, ps)])) ++ pending = ts /\
    (N.of_nat (length pending) < every)%N /\ _write_buffer (fst w) = concat pending /\
    (forall j q, In (j, q) (files ++ [(i, ps)]) -> notes_ok q) /\
    (forall j q, In (j, q) files -> d_fs (snd w) j = bytes q) /\
    starts_with (bytes ps) (d_fs (snd w) i) /\
    (exists q ns, ps = q ++ map Note ns /\ starts_with (d_fs (snd w) i) (bytes q)).
Proof.
  intros e high p dir id every now r1 r2 f [s0 d0] os [s d] i0 C Z RR ND R.
  pose proof (created_Inv _ _ _ _ _ _ _ _ _ _ _ _ _ C Z RR) as I.
  pose proof (create_sink _ _ _ _ _ _ _ _ _ _ _ C) as (S1 & S2 & S3 & _ & _ & S6). cbn [fst snd] in *.
  destruct (run_Inv _ _ _ _ _ _ _ _ _ _ I R ND) as (fl & i & ps & pend & ts & I' & RC & E & M & _ & _ & _).
  rewrite S1 in RC. cbn in E, M.
  exists fl, i, ps, pend, ts. split; auto. split; auto. split; auto.
  destruct I' as [V1 V2 V3 V4 V5 V6 V7].
  split. { assert (EV : _write_to_log_every_x_message s = every).
           { rewrite <- S6. revert R. clear. revert s0 d0. induction os as [|o os IH]; intros s0 d0 R; cbn [ops_run] in R; [congruence|].
             apply obind_ok in R as ((s1, d1) & R1 & R2). rewrite (IH _ _ R2). unfold op_step in R1.
             apply obind_ok in R1 as ((s2, ms) & R1 & R3). apply obind_ok in R3 as (d2 & _ & R3). injection R3 as <- <-.
             cbn [fst] in *. destruct o; cbn [op_run] in R1.
             - apply fileWrite_inv in R1 as (h & data & _ & _ & _ & -> & _). reflexivity.
             - apply obind_ok in R1 as (((s3, m3), n3) & R1 & E). injection E as <- <-. unfold changeLogFile in R1.
               apply obind_ok in R1 as (x1 & _ & R1). apply obind_ok in R1 as (x2 & _ & R1). destruct r as [n|].
               + apply obind_ok in R1 as (x3 & _ & R1). injection R1 as <- _ _. reflexivity.
               + injection R1 as <- _ _. reflexivity.
             - injection R1 as <- _. reflexivity.
             - injection R1 as <- _. reflexivity. }
           rewrite <- EV. now apply counted_pending. }
  split; [apply V5|]. split; [exact V4|]. split; [exact V3|].
  split; [apply (at_end_content _ _ _ V1)|exact V6].
Qed.
Print Assumptions C55_messages_across_files.

(** ... and after the sink's destruction nothing is pending: the files hold all messages received. *)
Theorem C55_all_messages_after_shutdown : forall e high p dir id every now r1 r2 f w0 os w i0 tnow k g,
  create e high p dir id every now r1 r2 f = Ok w0 -> (every <> 0)%N ->
  (r1 = Some i0 \/ r1 = None /\ r2 = Some i0) ->
  NoDup (i0 :: opened os) -> ops_run e w0 os = Ok w -> destroy e w tnow k = Ok g ->
  exists files i ps t, map fst (files ++ [(i, ps)]) = i0 :: opened os /\
    received e DefaultDetails os (concat (map (fun x => entries (snd x)) (files ++ [(i, ps)]))) /\
    (forall j q, In (j, q) (files ++ [(i, ps)]) -> notes_ok q) /\
    (forall j q, In (j, q) files -> g j = bytes q) /\
    FileName.formatted (clock_of e) tnow time_formatted = FOk t /\
    g i = bytes ps ++ closing_text t.
Proof.
  intros e high p dir id every now r1 r2 f [s0 d0] os [s d] i0 tnow k g C Z RR ND R D.
  pose proof (created_Inv _ _ _ _ _ _ _ _ _ _ _ _ _ C Z RR) as I.
  pose proof (create_sink _ _ _ _ _ _ _ _ _ _ _ C) as (S1 & S2 & S3 & _ & _ & S6). cbn [fst snd] in *.
  destruct (run_Inv _ _ _ _ _ _ _ _ _ _ I R ND) as (fl & i & ps & pend & ts & I' & RC & E & M & _ & _ & _).
  rewrite S1 in RC. cbn in E, M. destruct I' as [V1 V2 V3 V4 (B & _) V6 V7].
  destruct (destroy_effect _ _ _ _ _ _ _ _ V1 D) as (t & T & G & OT).
  exists fl, i, (ps ++ map Entry pend), t.
  split. { rewrite map_app in *. exact M. }
  split. { rewrite map_app, concat_app. cbn [map snd concat]. rewrite app_nil_r, entries_app, entries_Entry.
           subst ts. unfold all_entries in RC. rewrite map_app, concat_app in RC. cbn [map snd concat] in RC.
           rewrite app_nil_r in RC. now rewrite app_assoc. }
  split. { intros j q H. apply in_app_or in H as [H|[H|[]]].
           - apply (V4 j). apply in_or_app. auto.
           - injection H as <- <-. apply notes_ok_app; [apply (V4 i); apply in_or_app; simpl; auto|].
             intros x X. apply in_map_iff in X as (y & Y & _). discriminate. }
  split. { intros j q H. rewrite OT; auto. intros ->. rewrite map_app in V2. apply NoDup_remove_2 in V2.
           apply V2. rewrite app_nil_r. eapply In_fst. exact H. }
  split; auto. rewrite G, bytes_app, bytes_Entry, B, app_assoc. reflexivity.
Qed.
Print Assumptions C55_all_messages_after_shutdown.

(** A failed change leaves the sink as it was, with the same stream and no file changed but the current one,
    which only grows by the notice. *)
Theorem C55_failed_change_keeps_the_file : forall e s d i txt dir id n1 n2 n3 k1 k2 k3 s' d',
  at_end d i txt -> op_step e (s, d) (OChange dir id n1 n2 n3 None k1 k2 k3) = Ok (s', d') ->
  s' = s /\ (forall j, j <> i -> d_fs d' j = d_fs d j) /\
  exists t name, at_end d' i (txt ++ failed_change_text t name).
Proof.
  intros e s d i txt dir id n1 n2 n3 k1 k2 k3 s' d' A H. unfold op_step in H. cbn [fst snd] in H.
  apply obind_ok in H as ((s1, ms) & H & K). apply obind_ok in K as (d1 & K & E). injection E as <- <-.
  cbn [op_run] in H. apply obind_ok in H as (((s2, ms2), nm) & H & E). injection E as -> ->.
  unfold changeLogFile in H. apply obind_ok in H as (t & T & H). apply obind_ok in H as (name & _ & H).
  injection H as <- <- <-. unfold apply_micros in K. cbn [snd] in K. split; auto.
  cbn [mrun] in K. unfold mstep at 1 in K. cbn [d_fs d_out d_new] in K.
  assert (A' : at_end (mkDisk (d_fs d) (d_out d) None) i txt) by exact A.
  match type of K with context [MWrite ?x _] => destruct (write_step _ _ _ x k1 A') as (d2 & W & A2 & G & _) end.
  rewrite W in K. injection K as <-. split; [apply G|]. exists t, (dir ++ name). exact A2.
Qed.
Print Assumptions C55_failed_change_keeps_the_file.

(** two changes, the first one failing, the second one to file 2, with a pending message *)
Definition ex_changes : list op :=
  firstn 4 ex_ops ++ [OChange (lit "/new/") [] 0 0 0 None 9 0 0; ex_recv (lit "three");
                      OChange (lit "/new/") [] 0 0 0 (Some 2%nat) 9 0 0; ex_recv (lit "four")].
Example C55_ex : exists w, ex_go 2 ex_changes = Ok w /\ NoDup (1 :: opened ex_changes) /\
  ex_end 1 (Ok w) = Ok (header_text (lit "x x 04 00:00:00 2021") (lit "HH" ++ [NL]) ++ lit "D one" ++ [NL] ++ lit "D two" ++ [NL] ++
    failed_change_text (lit "2021/03/04 00:00:00 000000") (lit "/new/app.20210304-000000.log") ++
    header_text (lit "x x 04 00:00:00 2021") (lit "HH" ++ [NL]) ++
    leaving_text (lit "2021/03/04 00:00:00 000000") (lit "/logs/app.20210304-000000.log") (lit "/new/app.20210304-000000.log")) /\
  ex_end 2 (Ok w) = Ok (arriving_text (lit "2021/03/04 00:00:00 000000") (lit "/logs/app.20210304-000000.log") ++
    lit "D three" ++ [NL] ++ lit "D four" ++ [NL] ++ closing_text (lit "00:00:00 000000")).
Proof.
  eexists. split; [vm_compute; reflexivity|]. split; [repeat constructor; simpl; intuition discriminate|].
  split; vm_compute; reflexivity.
Qed.

(** ** C56 *)
(** After a change the header goes into the old file; the new file has none. *)
Theorem C56_refuted : exists w c, ex_go 1 [OChange (lit "/new/") [] 0 0 0 (Some 2%nat) 9 0 0; ex_recv (lit "x"); ex_recv (lit "y")] = Ok w /\
  FileName.formatted (clock_of ex_env) 0 (lit "%a %b %d %H:%M:%S %Y") = FOk c /\
  starts_with (d_fs (snd w) 1) (header_text c default_header) /\
  ~ starts_with (d_fs (snd w) 2) (header_text c default_header).
Proof.
  eexists. eexists. split; [vm_compute; reflexivity|]. split; [vm_compute; reflexivity|].
  split; [eexists; vm_compute; reflexivity|]. intros [x X]. vm_compute in X. discriminate.
Qed.
Print Assumptions C56_refuted.

(** Exactly: all files after the first start with the notice about the change ... *)
Theorem C56_later_files_start_with_the_change_notice_partial : forall e high p dir id every now r1 r2 f w0 os w i0 tnow k g j,
  create e high p dir id every now r1 r2 f = Ok w0 -> (every <> 0)%N ->
  (r1 = Some i0 \/ r1 = None /\ r2 = Some i0) ->
  NoDup (i0 :: opened os) -> ops_run e w0 os = Ok w -> destroy e w tnow k = Ok g -> In j (opened os) ->
  exists t old, starts_with (g j) (arriving_text t old).
Proof.
  intros e high p dir id every now r1 r2 f [s0 d0] os [s d] i0 tnow k g j C Z RR ND R D J.
  pose proof (created_Inv _ _ _ _ _ _ _ _ _ _ _ _ _ C Z RR) as I.
  destruct (run_Inv _ _ _ _ _ _ _ _ _ _ I R ND) as (fl & i & ps & pend & ts & I' & RC & E & M & _ & _ & _).
  cbn in M. destruct I' as [V1 V2 V3 V4 (B & _) V6 V7].
  destruct (destroy_effect _ _ _ _ _ _ _ _ V1 D) as (t & T & G & OT).
  assert (MT : map fst (tl (fl ++ [(i, ps)])) = opened os).
  { destruct (fl ++ [(i, ps)]); [discriminate|]. cbn in *. congruence. }
  rewrite <- MT in J. apply in_map_iff in J as ((j', q) & <- & J). cbn [fst].
  destruct (V7 _ _ J) as (t' & o & r & ->). exists t', o.
  assert (J2 : In (j', Note (arriving_text t' o) :: r) (fl ++ [(i, ps)])).
  { destruct (fl ++ [(i, ps)]); [destruct J|now right]. }
  apply in_app_or in J2 as [J2|[J2|[]]].
  - assert (j' <> i). { intros ->. rewrite map_app in V2. apply NoDup_remove_2 in V2. apply V2. rewrite app_nil_r. eapply In_fst. exact J2. }
    rewrite OT, (V3 _ _ J2) by assumption. unfold bytes. cbn [map piece_text concat]. apply starts_app.
  - injection J2 as <- ->. rewrite G. unfold bytes. cbn [map piece_text concat]. rewrite <- app_assoc. apply starts_app.
Qed.
Print Assumptions C56_later_files_start_with_the_change_notice_partial.

(** ... and a file that was never changed starts with the header once a message came. *)
Theorem C56_only_file_starts_with_the_header_partial : forall e high p dir id every now r1 r2 f w0 os w tnow k g h hnow,
  create e high p dir id every now r1 r2 f = Ok w0 -> (every <> 0)%N -> d_out (snd w0) <> None ->
  Forall no_change os -> ops_run e w0 os = Ok w -> destroy e w tnow k = Ok g ->
  first_header default_header os = Some (h, hnow) ->
  exists i c, (r1 = Some i \/ r1 = None /\ r2 = Some i) /\
    FileName.formatted (clock_of e) hnow (lit "%a %b %d %H:%M:%S %Y") = FOk c /\ starts_with (g i) (header_text c h).
Proof.
  intros e high p dir id every now r1 r2 f w0 os w tnow k g h hnow C Z O NC R D F.
  destruct (C53_file_after_shutdown _ _ _ _ _ _ _ _ _ _ _ _ _ _ _ _ C Z O NC R D) as (i & hd & ts & t & RR & _ & H & _ & G & _).
  unfold header_due in H. rewrite F in H. destruct H as (c & H & ->). exists i, c. split; auto. split; auto.
  rewrite G. apply starts_app.
Qed.
Print Assumptions C56_only_file_starts_with_the_header_partial.

(** what the header of a sink that nobody configured says, with the date given *)
Theorem C56_default_text : forall c, header_text c default_header =
  [TAB; TAB] ++ lit "g3log created log at: " ++ c ++ [NL; TAB; TAB] ++
  lit "LOG format: [YYYY/MM/DD hh:mm:ss uuu* LEVEL FILE->FUNCTION:LINE] message" ++ [NL; NL; TAB; TAB] ++
  lit "(uuu*: microseconds fractions of the seconds value)" ++ [NL; NL].
Proof. intro c. unfold header_text, default_header. rewrite <- ?app_assoc. reflexivity. Qed.
Print Assumptions C56_default_text.

(** the header of a sink that nobody configured *)
Example C56_ex_default : ex_end 1 (ex_go 1 [ODetails (UserDetails 0); ex_recv (lit "one")]) =
  Ok ([TAB; TAB] ++ lit "g3log created log at: x x 04 00:00:00 2021" ++ [NL; TAB; TAB] ++
      lit "LOG format: [YYYY/MM/DD hh:mm:ss uuu* LEVEL FILE->FUNCTION:LINE] message" ++ [NL; NL; TAB; TAB] ++
      lit "(uuu*: microseconds fractions of the seconds value)" ++ [NL; NL] ++ lit "D one" ++ [NL] ++ closing_text (lit "00:00:00 000000")).
Proof. vm_compute. reflexivity. Qed.

(** ** C57 *)
Lemma absent : forall c l, existsb (Ascii.eqb c) l = false -> ~ In c l.
Proof.
  intros c l H I. assert (T : existsb (Ascii.eqb c) l = true); [|congruence].
  apply existsb_exists. exists c. split; auto. apply Ascii.eqb_refl.
Qed.

(** The new name may be the old one (two changes, or creation and change, within the same second): the file
    is emptied, and the message that was in it is gone, also after an orderly shutdown. *)
Theorem C57_refuted : exists w1 w2 g,
  ex_go 1 [ODetails (UserDetails 0); ex_recv (lit "~")] = Ok w1 /\
  op_step ex_env w1 (OChange (lit "/logs/") [] 0 0 0 (Some 1%nat) 0 0 0) = Ok w2 /\
  fileName (fst w2) = fileName (fst w1) /\ destroy ex_env w2 0 0 = Ok g /\
  In "~"%char (d_fs (snd w1) 1) /\ ~ In "~"%char (d_fs (snd w2) 1) /\ ~ In "~"%char (g 1).
Proof.
  do 3 eexists. split; [vm_compute; reflexivity|]. split; [vm_compute; reflexivity|]. split; [vm_compute; reflexivity|].
  split; [vm_compute; reflexivity|]. split; [|split; apply absent; vm_compute; reflexivity].
  assert (M : forall l, existsb (Ascii.eqb "~") l = true -> In "~"%char l).
  { intros l H. apply existsb_exists in H as (x & I & E). apply Ascii.eqb_eq in E. now subst. }
  apply M. vm_compute. reflexivity.
Qed.
Print Assumptions C57_refuted.

(** As long as every change opens a file not used before, no file other than the newly opened ones ever
    loses a byte. *)
Theorem C57_files_only_grow_partial : forall e high p dir id every now r1 r2 f w0 os1 w1 os2 w2 i0,
  create e high p dir id every now r1 r2 f = Ok w0 -> (every <> 0)%N ->
  (r1 = Some i0 \/ r1 = None /\ r2 = Some i0) -> NoDup (i0 :: opened (os1 ++ os2)) ->
  ops_run e w0 os1 = Ok w1 -> ops_run e w1 os2 = Ok w2 ->
  forall j, ~ In j (opened os2) -> starts_with (d_fs (snd w2) j) (d_fs (snd w1) j).
Proof.
  intros e high p dir id every now r1 r2 f [s0 d0] os1 [s1 d1] os2 [s2 d2] i0 C Z RR ND R1 R2 j J.
  pose proof (created_Inv _ _ _ _ _ _ _ _ _ _ _ _ _ C Z RR) as I. rewrite opened_app in ND.
  assert (ND1 : NoDup (map fst ([] ++ [(i0, @nil piece)]) ++ opened os1)).
  { cbn. rewrite app_comm_cons in ND. revert ND. generalize (i0 :: opened os1). clear. intros l ND.
    induction (opened os2) as [|x m IH] using rev_ind; [now rewrite app_nil_r in ND|].
    apply IH. rewrite app_assoc in ND. apply NoDup_remove_1 in ND. now rewrite app_nil_r in ND. }
  destruct (run_Inv _ _ _ _ _ _ _ _ _ _ I R1 ND1) as (fl & i & ps & pend & ts & I1 & _ & _ & M & _).
  destruct (run_Inv _ _ _ _ _ _ _ _ _ _ I1 R2) as (fl2 & i2 & ps2 & pend2 & ts2 & _ & _ & _ & _ & S & _).
  { rewrite M. exact ND. }
  apply S. exact J.
Qed.
Print Assumptions C57_files_only_grow_partial.

(** What is left of a file that is opened again while the sink writes to it: nothing of what was in it.  The space
    it took reads as NUL; after it comes what the stream still had in its buffer, the header and the note about the change; and
    the new stream writes over it all from the beginning.  All other files, and the messages waiting in the sink, are kept. *)
Definition hole (o : nat) (t : str) : str := match t with [] => [] | _ => repeat NUL o ++ t end.
Lemma write_hole : forall o t data, write_at (hole o t) (o + length t) data = hole o (t ++ data).
Proof.
  intros o t data. destruct data as [|x data]; [now rewrite app_nil_r|]. destruct t as [|y t].
  - cbn [hole length app write_at]. rewrite firstn_nil, skipn_nil, app_nil_r, Nat.add_0_r, Nat.sub_0_r. reflexivity.
  - cbn [write_at]. assert (L : length (hole o (y :: t)) = (o + length (y :: t))%nat) by (cbn [hole]; now rewrite app_length, repeat_length).
    rewrite <- L, firstn_all, Nat.sub_diag, skipn_all2 by lia. cbn [repeat app hole]. rewrite app_nil_r, <- app_assoc. reflexivity.
Qed.
Lemma spill_hole : forall f i o t b k, f i = hole o t ->
  exists f', spill f (mkStream i (o + length t) b) k = (f', mkStream i (o + length (t ++ firstn k b)) (skipn k b)) /\
    f' i = hole o (t ++ firstn k b) /\ forall j, j <> i -> f' j = f j.
Proof.
  intros f i o t b k H. unfold spill. cbn [s_ino s_off s_buf]. eexists. split; [rewrite app_length, Nat.add_assoc; reflexivity|].
  rewrite fs_set_same, H, write_hole. split; [reflexivity|]. intros. now apply fs_set_other.
Qed.
Lemma write_start : forall c data, write_at c 0 data = data ++ skipn (length data) c.
Proof. intros c [|x data]; [reflexivity|]. cbn [write_at]. rewrite firstn_O. reflexivity. Qed.
Theorem C57_same_file_partial : forall e s d dir id n1 n2 n3 i k1 k2 k3 s' d' st,
  op_step e (s, d) (OChange dir id n1 n2 n3 (Some i) k1 k2 k3) = Ok (s', d') ->
  d_out d = Some st -> s_ino st = i -> s_off st = length (d_fs d i) ->
  exists t created,
    let written := firstn k3 (arriving_text t (fileName s)) in
    d_fs d' i = written ++ skipn (length written)
                  (repeat NUL (length (d_fs d i)) ++ s_buf st ++ header_text created (_header s) ++ leaving_text t (fileName s) (fileName s')) /\
    (forall j, j <> i -> d_fs d' j = d_fs d j) /\ _write_buffer s' = _write_buffer s.
Proof.
  intros e s d dir id n1 n2 n3 i k1 k2 k3 s' d' [i0 o b] H D I O. cbn [s_ino s_off s_buf] in *. subst i0.
  unfold op_step, op_run in H. cbn [fst snd] in H. apply obind_ok in H as ([s1 ms] & H & G).
  apply obind_ok in H as ([[s2 ms2] ret] & H & H'). apply Ok_inj in H'. injection H' as -> ->.
  unfold changeLogFile in H. apply obind_ok in H as (t & _ & H). apply obind_ok in H as (name & _ & H).
  apply obind_ok in H as (hdr & HD & H). unfold addLogFileHeader, header in HD. apply obind_ok in HD as (h & HD & E). apply Ok_inj in E. subst hdr.
  apply obind_ok in HD as (cr & _ & E). apply Ok_inj in E. apply Ok_inj in H. injection H as <- <- _.
  exists t, cr. cbv zeta. apply obind_ok in G as (d2 & G & E2). apply Ok_inj in E2. injection E2 as <- <-. cbn [snd] in G.
  unfold apply_micros in G. cbn [app mrun] in G.
  match type of G with context [MWrite ?x k2] => remember x as lv eqn:LV end. match type of G with context [MWrite ?x k3] => remember x as ar eqn:AR end.
  cbn [mstep] in G. rewrite D in G. cbn [d_out d_fs d_new s_ino s_off s_buf] in G.
  set (f0 := fs_set (d_fs d) i []) in G.
  assert (F0 : f0 i = hole o []) by apply fs_set_same.
  destruct (spill_hole f0 i o [] (b ++ h) k1 F0) as (f1 & S1 & F1 & N1). cbn [app length] in S1, F1. rewrite Nat.add_0_r in S1. rewrite S1 in G. clear S1.
  cbn [mstep d_out d_fs d_new s_ino s_off s_buf] in G.
  destruct (spill_hole f1 i o _ (skipn k1 (b ++ h) ++ lv) k2 F1) as (f2 & S2 & F2 & N2). rewrite S2 in G. clear S2.
  cbn [mstep d_out d_fs d_new s_ino s_off s_buf] in G. unfold spill_all in G. cbn [s_buf] in G.
  match type of G with context [spill f2 (mkStream i _ ?r) ?k] => destruct (spill_hole f2 i o _ r k F2) as (f3 & S3 & F3 & N3) end.
  rewrite S3 in G. clear S3. cbn [fst] in G. unfold spill in G. cbn [s_ino s_off s_buf] in G. injection G as <-. cbn [d_fs fileName _log_file_with_path _write_buffer].
  rewrite firstn_all, <- !app_assoc, firstn_skipn in F3. rewrite (app_assoc (firstn k1 _)), firstn_skipn in F3.
  split; [|split; [|reflexivity]].
  - rewrite fs_set_same, write_start, F3.
    match goal with |- firstn k3 ?x ++ skipn (length (firstn k3 ?x)) ?a = firstn k3 ?y ++ skipn (length (firstn k3 ?y)) ?c => assert (X : x = y) by (rewrite AR; reflexivity); rewrite <- X; clear X; assert (X : a = c); [|now rewrite X] end.
    rewrite <- O, <- !app_assoc, <- E. rewrite LV.
    unfold hole. destruct b; reflexivity.
  - intros j J. rewrite fs_set_other, N3, N2, N1 by assumption. now apply fs_set_other.
Qed.
Print Assumptions C57_same_file_partial.


Example C57_same_ex : exists w1 w2, ex_go 1 [ex_recv (lit "~")] = Ok w1 /\ d_fs (snd w1) 1 <> [] /\
  option_map s_ino (d_out (snd w1)) = Some 1%nat /\ option_map s_off (d_out (snd w1)) = Some (length (d_fs (snd w1) 1)) /\
  op_step ex_env w1 (OChange (lit "/logs/") [] 0 0 0 (Some 1%nat) 0 0 3) = Ok w2 /\
  firstn 5 (d_fs (snd w2) 1) = lit "202" ++ [NUL; NUL].
Proof. do 2 eexists. split; [vm_compute; reflexivity|]. split; [vm_compute; discriminate|]. repeat (split; [vm_compute; reflexivity|]). vm_compute. reflexivity. Qed.
Example C57_ex : exists w1 w2, ex_go 2 (firstn 4 ex_ops) = Ok w1 /\
  ops_run ex_env w1 [OChange (lit "/new/") [] 0 0 0 (Some 2%nat) 9 0 0; ex_recv (lit "four")] = Ok w2 /\
  d_fs (snd w1) 1 <> [] /\ d_fs (snd w2) 1 <> d_fs (snd w1) 1.
Proof.
  do 2 eexists. split; [vm_compute; reflexivity|]. split; [vm_compute; reflexivity|].
  split; vm_compute; discriminate.
Qed.

(** ** C58 *)
(** Two accepted configurations are not usable: flush interval zero; no file could be opened (release build). *)
Theorem C58_refuted :
  (exists w, ex_create 0 = Ok w /\ op_step ex_env w (ex_recv (lit "m")) = UB) /\
  (exists w, create (mkEnv false (e_ext ex_env) (e_local ex_env) 0 0 (e_thread ex_env) (e_user ex_env)) (fun _ => false)
                    (lit "app") (lit "/logs") [] 1 0 None None (fun _ => []) = Ok w /\
    ops_run (mkEnv false (e_ext ex_env) (e_local ex_env) 0 0 (e_thread ex_env) (e_user ex_env)) w [ex_recv (lit "m")] = UB).
Proof.
  split; eexists; (split; [vm_compute; reflexivity|vm_compute; reflexivity]).
Qed.
Print Assumptions C58_refuted.

(** All others are: no call ever runs into undefined behaviour, for any number of calls, and neither does the
    shutdown.  (A call may end with an exception or abort: time stamps that cannot be rendered, C37.) *)
Theorem C58_all_other_sinks_are_usable_partial : forall e high p dir id every now r1 r2 f w0 os tnow k,
  create e high p dir id every now r1 r2 f = Ok w0 -> (every <> 0)%N ->
  (r1 <> None \/ r2 <> None) ->
  ops_run e w0 os <> UB /\ forall w, ops_run e w0 os = Ok w -> destroy e w tnow k <> UB.
Proof.
  intros e high p dir id every now r1 r2 f w0 os tnow k C Z RR.
  assert (U : usable w0).
  { pose proof (create_sink _ _ _ _ _ _ _ _ _ _ _ C) as (_ & _ & _ & _ & _ & S6).
    destruct (create_inv _ _ _ _ _ _ _ _ _ _ _ C) as [(i & _ & D & _)|(-> & -> & _)].
    - split; [rewrite D; discriminate|now rewrite S6].
    - destruct RR; congruence. }
  assert (G : ops_run e w0 os <> UB /\ forall w, ops_run e w0 os = Ok w -> usable w).
  { clear C RR. revert w0 U. induction os as [|o os IH]; intros w0 U; cbn [ops_run].
    - split; [discriminate|]. intros w H. injection H as <-. exact U.
    - destruct (usable_op e w0 o U) as [(w' & -> & U')|[-> | ->]]; cbn [obind]; [apply IH; exact U'|split; discriminate|split; discriminate]. }
  destruct G as [G1 G2]. split; auto. intros w H. destruct (G2 w H) as [O _].
  unfold destroy, FileSink_dtor. destruct (FileName.formatted _ _ _); cbn [of_fres obind]; try discriminate.
  unfold apply_micros. cbn [mrun].
  destruct (mstep_out (snd w) (MWrite (_write_buffer (fst w) ++ lit "g3log g3FileSink shutdown at: " ++ s ++ nl) k) O) as (d1 & -> & O1 & _);
    [discriminate|discriminate|].
  destruct (mstep_out d1 MFlush O1) as (d2 & -> & O2 & _); [discriminate|discriminate|].
  unfold mstep. discriminate.
Qed.
Print Assumptions C58_all_other_sinks_are_usable_partial.

Example C58_ex : exists w, ex_create 1 = Ok w.
Proof. eexists. vm_compute. reflexivity. Qed.

(** ** C59 *)
Theorem C59_fallback : forall e high p dir id every now i f w,
  create e high p dir id every now None (Some i) f = Ok w ->
  exists name, createLogFileName (clock_of e) now (_log_prefix_backup (fst w)) id = FOk name /\
    fileName (fst w) = lit "./" ++ name /\
    (exists s, FileSink_ctor e high p dir id every now None (Some i) =
       Ok (s, [MOpen (c_str (pathSanityFix dir name)) None; MMove; MOpen (c_str (lit "./" ++ name)) (Some i); MMove])) /\
    (exists st, d_out (snd w) = Some st /\ s_ino st = i) /\
    (~ In "/"%char name -> matters name = true -> inside (fileName (fst w)) [] name).
Proof.
  intros e high p dir id every now i f w C.
  destruct (create_inv _ _ _ _ _ _ _ _ _ _ _ C) as [(i' & RR & D & F)|(_ & X & _)]; [|discriminate].
  assert (i' = i) by (destruct RR as [RR|[_ RR]]; congruence). subst i'.
  unfold create in C. apply obind_ok in C as ((s, ms) & C & K). cbn [fst snd] in K.
  apply obind_ok in K as (d & _ & K). injection K as <-. cbn [fst snd] in *.
  unfold FileSink_ctor in *. destruct (negb _) eqn:V; [discriminate|].
  destruct (createLogFileName (clock_of e) now (prefixSanityFix high p) id) as [name| | |] eqn:N; cbn [of_fres obind] in *; try discriminate.
  injection C as <- <-. cbn [_log_prefix_backup fileName _log_file_with_path]. exists name. split; auto.
  split; [reflexivity|]. split; [eexists; reflexivity|]. split; [eexists; split; [exact D|reflexivity]|].
  intros N1 N2. unfold inside, place, fileName. cbn [_log_file_with_path lit list_ascii_of_string app absolute fst].
  f_equal. change (lit "./" ++ name) with (lit "." ++ "/"%char :: name).
  change ("."%char :: "/"%char :: name) with (lit "." ++ "/"%char :: name).
  rewrite split_slash_app, filter_app, (split_slash_none name) by assumption. simpl. rewrite N2. reflexivity.
Qed.
Print Assumptions C59_fallback.

(** The path reported is always that of the last successful open, and the stream is on that file: after the
    construction ... *)
Theorem C59_reported_file_is_the_open_one_at_start : forall e high p dir id every now r1 r2 f s d i ms,
  create e high p dir id every now r1 r2 f = Ok (s, d) ->
  FileSink_ctor e high p dir id every now r1 r2 = Ok (s, ms) ->
  (r1 = Some i \/ r1 = None /\ r2 = Some i) ->
  In (MOpen (c_str (fileName s)) (Some i)) ms /\ exists st, d_out d = Some st /\ s_ino st = i.
Proof.
  intros e high p dir id every now r1 r2 f s d i ms C K RR.
  destruct (create_inv _ _ _ _ _ _ _ _ _ _ _ C) as [(i' & RR' & D & F)|(X1 & X2 & _)].
  2: { destruct RR as [RR|[_ RR]]; congruence. }
  assert (i' = i) by (destruct RR as [RR|[RR RR2]], RR' as [RR'|[RR' RR2']]; congruence). subst i'.
  split; [|eexists; split; [exact D|reflexivity]].
  unfold FileSink_ctor in K. destruct (negb _); [discriminate|]. apply obind_ok in K as (name & _ & K).
  destruct RR as [->|[-> ->]]; injection K as <- <-; unfold fileName; cbn [_log_file_with_path In]; auto 6.
Qed.
Print Assumptions C59_reported_file_is_the_open_one_at_start.

(** ... and after every further call. *)
Theorem C59_reported_file_stays_the_open_one : forall e s d o s' ms d' st,
  d_out d = Some st -> op_run e s o = Ok (s', ms) -> op_step e (s, d) o = Ok (s', d') ->
  (exists i st', In (MOpen (c_str (fileName s')) (Some i)) ms /\ d_out d' = Some st' /\ s_ino st' = i) \/
  (fileName s' = fileName s /\ (forall q i, ~ In (MOpen q (Some i)) ms) /\ exists st', d_out d' = Some st' /\ s_ino st' = s_ino st).
Proof.
  intros e s d o s' ms d' st O R S. unfold op_step in S. cbn [fst snd] in S. rewrite R in S. cbn [obind snd fst] in S.
  apply obind_ok in S as (d1 & A & E). injection E as <-. unfold apply_micros in A.
  destruct (mrun d ms) as [d2|] eqn:M; [|discriminate]. injection A as <-.
  assert (K : forall l d d2 st, d_out d = Some st -> (forall m, In m l -> (forall q r, m <> MOpen q r) /\ m <> MMove) -> mrun d l = Some d2 ->
     exists st', d_out d2 = Some st' /\ s_ino st' = s_ino st).
  { clear. induction l as [|m l IH]; intros d d2 st O H M; cbn [mrun] in M.
    - injection M as <-. eauto.
    - destruct (mstep d m) as [d1|] eqn:S; [|discriminate].
      assert (Q : exists st1, d_out d1 = Some st1 /\ s_ino st1 = s_ino st).
      { destruct (H m (or_introl eq_refl)) as [H1 H2]. destruct m; try (exfalso; eapply H1; reflexivity); try congruence;
        cbn [mstep] in S; rewrite O in S; unfold spill_all, spill in S; injection S as <-; cbn; eauto. }
      destruct Q as (st1 & Q1 & Q2). destruct (IH _ _ _ Q1 (fun m I => H m (or_intror I)) M) as (st' & Q3 & Q4). exists st'. split; congruence. }
  destruct o; cbn [op_run] in R.
  - apply fileWrite_inv in R as (h & data & _ & _ & _ & -> & ->). right. split; [reflexivity|].
    assert (Q : forall m, In m ((if _firstEntry s then [MWrite h k1] else []) ++ (if due s then [MWrite (_write_buffer s ++ data) k2; MFlush] else [])) ->
       (forall q r, m <> MOpen q r) /\ m <> MMove).
    { intros m' H. apply in_app_or in H. destruct (_firstEntry s), (due s); cbn in H; repeat destruct H as [H|H]; try contradiction; subst m'; split; discriminate. }
    split; [intros q i H; destruct (Q _ H) as [Q1 _]; eapply Q1; reflexivity|]. eapply K; eauto.
  - apply obind_ok in R as (((s3, m3), n3) & R & E). injection E as <- <-. unfold changeLogFile in R.
    apply obind_ok in R as (x1 & _ & R). apply obind_ok in R as (x2 & _ & R). destruct r as [n|].
    + apply obind_ok in R as (x3 & H3 & R). injection R as <- <- _. left.
      unfold addLogFileHeader in H3. apply obind_ok in H3 as (h & _ & H3). injection H3 as <-.
      exists n. cbn [app] in M.
      repeat (cbn [mrun] in M; match type of M with context [mstep ?a ?b] => let q := fresh in destruct (mstep a b) eqn:q in M; [|discriminate M] end).
      cbn [mrun] in M. injection M as <-.
      cbn [mstep] in H. injection H as <-. cbn [mstep d_out d_fs d_new] in H0. rewrite O in H0. unfold spill in H0. injection H0 as <-.
      cbn [mstep d_out d_fs d_new] in H1. unfold spill in H1. injection H1 as <-.
      cbn [mstep d_out d_fs d_new] in H2. injection H2 as <-.
      cbn [mstep d_out d_fs d_new] in H3. unfold spill in H3. injection H3 as <-. cbn [d_out].
      eexists. split; [left; reflexivity|]. split; [reflexivity|reflexivity].
    + injection R as <- <- _. right. split; [reflexivity|]. split.
      * intros q i [H|[H|[]]]; discriminate.
      * cbn [mrun] in M. unfold mstep at 1 in M.
        match type of M with context [mstep ?a ?b] => destruct (mstep a b) as [d3|] eqn:Q; [|discriminate M] end.
        cbn [mrun] in M. injection M as <-. cbn [mstep d_out d_fs d_new] in Q. rewrite O in Q. unfold spill in Q. injection Q as <-.
        cbn. eauto.
  - injection R as <- <-. cbn in M. injection M as <-. right. split; [reflexivity|]. split; [intros ? ? []|eauto].
  - injection R as <- <-. cbn in M. injection M as <-. right. split; [reflexivity|]. split; [intros ? ? []|eauto].
Qed.
Print Assumptions C59_reported_file_stays_the_open_one.

Example C59_ex : exists w, create ex_env (fun _ => false) (lit "app") (lit "/nowhere") (lit "id") 1 0 None (Some 4%nat) (fun _ => []) = Ok w /\
  fileName (fst w) = lit "./app.id.20210304-000000.log" /\ matters (lit "app.id.20210304-000000.log") = true.
Proof. eexists. split; [vm_compute; reflexivity|]. split; vm_compute; reflexivity. Qed.

(** ** C60 *)
(** An override touches neither the files nor anything pending; it sets its own field and no other. *)
Theorem C60_override_touches_nothing_else : forall e s d fn h,
  (exists s', op_step e (s, d) (ODetails fn) = Ok (s', d) /\ _log_details_func s' = fn /\ _header s' = _header s /\
     fileName s' = fileName s /\ _log_prefix_backup s' = _log_prefix_backup s /\ _firstEntry s' = _firstEntry s /\ _write_buffer s' = _write_buffer s /\
     _write_counter s' = _write_counter s /\ _write_to_log_every_x_message s' = _write_to_log_every_x_message s) /\
  (exists s', op_step e (s, d) (OHeader h) = Ok (s', d) /\ _header s' = h /\ _log_details_func s' = _log_details_func s /\
     fileName s' = fileName s /\ _log_prefix_backup s' = _log_prefix_backup s /\ _firstEntry s' = _firstEntry s /\ _write_buffer s' = _write_buffer s /\
     _write_counter s' = _write_counter s /\ _write_to_log_every_x_message s' = _write_to_log_every_x_message s).
Proof. intros. split; eexists; (split; [reflexivity|]); repeat split. Qed.
Print Assumptions C60_override_touches_nothing_else.

(** Later output: with overrides anywhere in the calls, each message is rendered with the details function set
    last before it and the header is the one set last before the first message (definitions of [received] and
    [header_due]); a later override changes neither. *)
Theorem C60_overrides_take_effect_from_then_on : forall e high p dir id every now r1 r2 f w0 os os' w tnow k g,
  create e high p dir id every now r1 r2 f = Ok w0 -> (every <> 0)%N -> d_out (snd w0) <> None ->
  Forall no_change (os ++ os') -> ops_run e w0 (os ++ os') = Ok w -> destroy e w tnow k = Ok g ->
  exists i hd ts ts' t, (r1 = Some i \/ r1 = None /\ r2 = Some i) /\
    received e DefaultDetails os ts /\ received e (fold_left details_after os DefaultDetails) os' ts' /\
    header_due e default_header (os ++ os') hd /\
    g i = hd ++ concat ts ++ concat ts' ++ closing_text t.
Proof.
  intros e high p dir id every now r1 r2 f w0 os os' w tnow k g C Z O NC R D.
  destruct (C53_file_after_shutdown _ _ _ _ _ _ _ _ _ _ _ _ _ _ _ _ C Z O NC R D) as (i & hd & ts & t & RR & RC & H & _ & G & _).
  assert (SP : exists a b, ts = a ++ b /\ received e DefaultDetails os a /\ received e (fold_left details_after os DefaultDetails) os' b).
  { clear -RC. revert RC. generalize DefaultDetails. revert ts. induction os as [|o os IH]; intros ts fn RC; cbn [fold_left app] in *.
    - exists [], ts. split; auto. split; [constructor|exact RC].
    - inversion RC; subst; cbn [details_after];
      match goal with H : received _ _ (os ++ os') _ |- _ => destruct (IH _ _ H) as (x & y & -> & A & B) end;
      [exists (t :: x), y|exists x, y|exists x, y|exists x, y]; (split; [reflexivity|split; [econstructor; eauto|exact B]]). }
  destruct SP as (a & b & -> & A & B). exists i, hd, a, b, t. do 4 (split; auto).
  rewrite G, concat_app, <- app_assoc. reflexivity.
Qed.
Print Assumptions C60_overrides_take_effect_from_then_on.

(** The details function accounts for the details only: with any two of them a message gives the same text
    around the details. *)
Theorem C60_text_is_unaffected : forall e m fn fn' ts d d',
  timestamp e m default_timestamp_format = FOk ts ->
  call_details e fn (overrideLogDetailsFunc m fn) = FOk d -> call_details e fn' (overrideLogDetailsFunc m fn') = FOk d' ->
  exists t, snd (toString_with e m fn) = FOk (t d) /\ snd (toString_with e m fn') = FOk (t d') /\
    t = fun x => rendering (value (_level m)) ts x (_expression m) (_message m).
Proof.
  intros e m fn fn' ts d d' T D D'. eexists. split; [|split; [|reflexivity]]; cbn beta; now apply toString_rendering.
Qed.
Print Assumptions C60_text_is_unaffected.

Example C60_ex : ex_end 1 (ex_go 3 [ODetails (UserDetails 0); ex_recv (lit "one"); OHeader (lit "H2"); ODetails DefaultDetails; ex_recv (lit "two")]) =
  Ok (header_text (lit "x x 04 00:00:00 2021") default_header ++
      lit "D one" ++ [NL] ++ lit "2021/03/04 00:00:00 000000" ++ [TAB] ++ lit "INFO [f.cpp->fun:7]" ++ [TAB] ++ lit "two" ++ [NL] ++ closing_text (lit "00:00:00 000000")).
Proof. vm_compute. reflexivity. Qed.

(** ** C72 *)
(** A change of the log file takes the directory as a mere text prefix of the file name. *)
Theorem C72_refuted : exists w w' name,
  ex_create 1 = Ok w /\ op_step ex_env w (OChange (lit "/logs") [] 0 0 0 (Some 2%nat) 0 0 0) = Ok w' /\
  createLogFileName (clock_of ex_env) 0 (_log_prefix_backup (fst w)) [] = FOk name /\
  fileName (fst w') = lit "/logsapp.20210304-000000.log" /\
  ~ inside (fileName (fst w')) (lit "/logs") name.
Proof.
  do 3 eexists. do 3 (split; [vm_compute; reflexivity|]). split; [vm_compute; reflexivity|].
  vm_compute. discriminate.
Qed.
Print Assumptions C72_refuted.

(** It leads into the named directory if that ends in a slash or is empty. *)
Theorem C72_change_leads_into_the_directory_partial : forall e s dir id n1 n2 n3 i k1 k2 k3 s' ms ret name,
  (dir = [] \/ exists d, dir = d ++ lit "/") ->
  changeLogFile e s dir id n1 n2 n3 (Some i) k1 k2 k3 = Ok (s', ms, ret) ->
  createLogFileName (clock_of e) n2 (_log_prefix_backup s) id = FOk name ->
  ~ In "/"%char name -> matters name = true ->
  fileName s' = ret /\ inside ret dir name /\ In (MOpen (c_str ret) (Some i)) ms.
Proof.
  intros e s dir id n1 n2 n3 i k1 k2 k3 s' ms ret name H R N N1 N2. unfold changeLogFile in R.
  apply obind_ok in R as (x1 & _ & R). rewrite N in R. cbn [of_fres obind] in R.
  apply obind_ok in R as (x3 & H3 & R). injection R as <- <- <-. split; [reflexivity|]. split; [|now left].
  destruct H as [->|(d & ->)].
  - unfold inside, place. cbn [app fst snd]. rewrite (split_slash_none name) by assumption. simpl. rewrite N2.
    destruct name as [|c name]; [discriminate|]. cbn [absolute]. f_equal. apply Ascii.eqb_neq. intros ->. apply N1. now left.
  - unfold inside, place. cbn [fst snd]. rewrite <- app_assoc. cbn [lit list_ascii_of_string app].
    rewrite split_slash_app, filter_app, (split_slash_none name) by assumption.
    change (d ++ ["/"%char]) with (d ++ repeat "/"%char 1). rewrite comps_trailing. simpl. rewrite N2.
    destruct d; reflexivity.
Qed.
Print Assumptions C72_change_leads_into_the_directory_partial.

Lemma last_part : forall s : str, exists x, ~ In "/"%char x /\ (s = x \/ exists a, s = a ++ "/"%char :: x).
Proof.
  induction s as [|c s IH]; [exists []; split; [intros []|now left]|]. destruct IH as (x & N & [->|(a & ->)]).
  - destruct (Ascii.eqb_spec c "/") as [->|D]; [exists x; split; [assumption|right; now exists []]|].
    exists (c :: x). split; [intros [E|E]; [congruence|contradiction]|now left].
  - exists x. split; [assumption|]. right. now exists (c :: a).
Qed.
Lemma not_inside : forall dir name, dir <> [] -> (forall d, dir <> d ++ lit "/") -> ~ In "/"%char name -> name <> [] -> ~ inside (dir ++ name) dir name.
Proof.
  intros dir name NE NS NN N0 I. unfold inside, place in I. cbn [fst snd] in I. injection I as _ I.
  destruct (last_part dir) as (x & NX & D).
  assert (X0 : x <> []) by (intros ->; destruct D as [->|(a & ->)]; [now apply NE|now apply (NS a)]).
  assert (SX : ~ In "/"%char (x ++ name)) by (intro E; apply in_app_or in E as [E|E]; contradiction).
  assert (L : (length name < length (x ++ name))%nat) by (rewrite app_length; destruct x; [congruence|cbn; lia]).
  assert (G : exists pre, filter matters (split_slash (dir ++ name)) = pre ++ (if matters (x ++ name) then [x ++ name] else []) /\
                          filter matters (split_slash dir) = pre ++ (if matters x then [x] else [])).
  { destruct D as [->|(a & ->)].
    - exists []. rewrite !split_slash_none by assumption. split; reflexivity.
    - exists (filter matters (split_slash a)). rewrite <- app_assoc. cbn [app]. rewrite !split_slash_app, !filter_app, (split_slash_none x), (split_slash_none (x ++ name)) by assumption. split; reflexivity. }
  destruct G as (pre & G1 & G2). rewrite G1, G2, <- app_assoc in I. apply app_inv_head in I.
  destruct (matters (x ++ name)), (matters x); cbn [app] in I; try discriminate.
  injection I as I. rewrite I in L. lia.
Qed.
(** Otherwise it never does: exactly the directories that end in a slash, and the empty one, work. *)
Theorem C72_exactly_partial : forall e s dir id n1 n2 n3 i k1 k2 k3 s' ms ret name,
  changeLogFile e s dir id n1 n2 n3 (Some i) k1 k2 k3 = Ok (s', ms, ret) ->
  createLogFileName (clock_of e) n2 (_log_prefix_backup s) id = FOk name ->
  ~ In "/"%char name -> matters name = true ->
  (inside (fileName s') dir name <-> dir = [] \/ exists d, dir = d ++ lit "/").
Proof.
  intros e s dir id n1 n2 n3 i k1 k2 k3 s' ms ret name R N N1 N2. split.
  - intro I. destruct dir as [|c dir]; [now left|]. right.
    destruct (exists_last (l := c :: dir)) as (d & z & E); [discriminate|]. destruct (Ascii.eqb_spec z "/") as [->|D]; [exists d; exact E|].
    exfalso. revert I. unfold changeLogFile in R. apply obind_ok in R as (x1 & _ & R). rewrite N in R. cbn [of_fres obind] in R.
    apply obind_ok in R as (x3 & H3 & R). injection R as <- <- <-. change (~ inside ((c :: dir) ++ name) (c :: dir) name). apply not_inside; auto; [discriminate|rewrite E|destruct name; discriminate].
    intros d' E'. apply app_inj_tail in E' as (_ & E'). now apply D.
  - intro H. destruct (C72_change_leads_into_the_directory_partial _ _ _ _ _ _ _ _ _ _ _ _ _ _ _ H R N N1 N2) as (-> & I & _). exact I.
Qed.
Print Assumptions C72_exactly_partial.

Example C72_ex : exists w w', ex_create 1 = Ok w /\
  op_step ex_env w (OChange (lit "/logs/") [] 0 0 0 (Some 2%nat) 0 0 0) = Ok w' /\ fileName (fst w') = lit "/logs/app.20210304-000000.log".
Proof. do 2 eexists. split; [vm_compute; reflexivity|]. split; vm_compute; reflexivity. Qed.
