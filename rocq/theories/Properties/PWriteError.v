(** C121-C123: the file sink when writing fails. *)
From Coq Require Import Ascii String List ZArith NArith Bool Lia.
From Verif.Base Require Import Bytes.
From Verif.Model Require Import Levels TimeFmt Message FileName FileSink WriteError.
From Verif.Spec Require Import FileSinkSpec WriteErrorSpec.
From Verif.Proofs Require Import BytesFacts FileSinkFacts WriteErrorFacts.
From Verif.Properties Require Import PFileName PFileSink.
Import ListNotations.
Local Open Scope list_scope.

(** ** examples *)
(** one fault: access [n] takes [a] bytes only, and the stream keeps its whole buffer, as libstdc++ does *)
Definition ex_fault (n a : nat) : faults := fun m => if Nat.eqb m n then Some (mkFault a 0 1000) else None.
(** ... and a library that keeps only what was not accepted *)
Definition ex_exact (n a : nat) : faults := fun m => if Nat.eqb m n then Some (mkFault a a 1000) else None.
Definition ex_fcreate (flt : faults) (every : N) : out (FileSink * fdisk) :=
  fcreate flt ex_env (fun _ => false) (lit "p") (lit "/log") [] every 0 (Some 1%nat) None (fun _ => []).
Definition ex_fgo (flt : faults) (every : N) (os : list op) : out (FileSink * fdisk) := obind (ex_fcreate flt every) (fun w => fops_run flt ex_env w os).
Definition ex_fend (flt : faults) (i : nat) (r : out (FileSink * fdisk)) : out str := obind r (fun w => obind (fdestroy flt ex_env w 0 0) (fun g => Ok (g i))).

Lemma infix_In : forall part whole c, infix part whole -> In c part -> In c whole.
Proof. intros part whole c (a & b & ->) I. apply in_or_app. right. apply in_or_app. auto. Qed.

(** ** C121 *)
(** A write fails once; everything written later would succeed, and still the messages received later are not
    in the file, not even after an orderly end. *)
Theorem C121_refuted : exists flt os1 os2 w1 w2 h t,
  ex_fgo flt 1 os1 = Ok w1 /\ (forall n, fd_n (snd w1) <= n -> flt n = None) /\
  fops_run flt ex_env w1 os2 = Ok w2 /\ fdestroy flt ex_env w2 0 0 = Ok h /\
  received ex_env (UserDetails 0) os2 [t] /\ ~ infix t (h 1).
Proof.
  exists (ex_fault 3 2), [ODetails (UserDetails 0); ex_recv (lit "one")], [ex_recv (lit "two#")].
  do 3 eexists. exists (lit "D two#" ++ [NL]).
  split; [vm_compute; reflexivity|]. split.
  { intros n L. unfold ex_fault. destruct (Nat.eqb_spec n 3) as [->|]; [|reflexivity]. vm_compute in L. lia. }
  split; [vm_compute; reflexivity|]. split; [vm_compute; reflexivity|]. split.
  - apply r_recv with (t := lit "D two#" ++ [NL]); [vm_compute; reflexivity|constructor].
  - intro I. apply infix_In with (c := "#"%char) in I; [|vm_compute; auto 12].
    vm_compute in I. repeat (destruct I as [I|I]; [discriminate|]). exact I.
Qed.
Print Assumptions C121_refuted.

(** In general: once a write has failed, whatever is received, and whatever the device does from then on, the
    file gets nothing more than pieces of the text its stream had kept when the write failed. *)
Theorem C121_nothing_later_partial : forall flt e high p dir id every now r1 r2 f s0 fd0 i0 os1 s fd st os2 s' fd' tnow k h,
  fcreate flt e high p dir id every now r1 r2 f = Ok (s0, fd0) -> (r1 = Some i0 \/ r1 = None /\ r2 = Some i0) ->
  apart i0 (opened os1) -> fops_run flt e (s0, fd0) os1 = Ok (s, fd) ->
  fd_out fd = Some (mkF st false) ->
  Forall no_change os2 -> fops_run flt e (s, fd) os2 = Ok (s', fd') -> fdestroy flt e (s', fd') tnow k = Ok h ->
  exists xs, Forall (fun x => infix x (s_buf st)) xs /\ h (s_ino st) = fd_fs fd (s_ino st) ++ concat xs.
Proof.
  intros flt e high p dir id every now r1 r2 f s0 fd0 i0 os1 s fd st os2 s' fd' tnow k h C RR AP R B NC R2 D.
  pose proof (alike_create flt e high p dir id every now r1 r2 f) as AC. rewrite C in AC.
  destruct (create e high p dir id every now r1 r2 f) as [[s1 d1]| | |] eqn:CR; try contradiction. destruct AC as [-> AC].
  assert (NN : d_out d1 <> None).
  { destruct (create_inv _ _ _ _ _ _ _ _ _ _ _ CR) as [(i & _ & O & _)|(E1 & E2 & _)]; [cbn in O; congruence|]. intuition congruence. }
  destruct (Sim_create J_pt Jpt_all flt _ _ _ _ _ _ _ _ _ _ _ _ CR NN) as (fd1 & i & FC & SM & NW & CU & RI).
  rewrite C in FC. injection FC as <-. assert (i = i0) by (intuition congruence). subst i.
  pose proof (alike_ops flt e os1 s0 d1 fd0 AC) as AO. rewrite R in AO.
  destruct (ops_run e (s0, d1) os1) as [[s2 d2]| | |] eqn:OR; try contradiction. destruct AO as [-> _].
  destruct (Sim_ops (fun _ => True) J_pt Jpt_more Jpt_all Jpt_fail Jpt_part Jpt_hand flt e os1 s0 d1 fd0 i0 s d2 (fun _ _ _ => I) SM NW CU AP OR)
    as (fd2 & F2 & S2 & _ & _).
  rewrite R in F2. injection F2 as <-.
  assert (BR : broken fd (s_ino st) (s_buf st)).
  { destruct S2 as (_ & S2 & _). unfold out_rel in S2. rewrite B in S2. destruct (d_out d2) as [sd|]; [|contradiction].
    destruct S2 as (E1 & _ & E2 & _). exists st. rewrite E1. split; auto. split; auto. split; auto. apply infix_refl. }
  destruct (broken_ops flt e os2 s fd _ _ s' fd' BR NC R2) as (BR2 & x1 & X1 & E1).
  destruct (broken_destroy flt e s' fd' _ _ tnow k h BR2 D) as (x2 & X2 & E2).
  exists (x1 ++ x2). split; [apply Forall_app; auto|]. rewrite E2, E1, concat_app. now rewrite app_assoc.
Qed.
Print Assumptions C121_nothing_later_partial.

(** What does help is changing the log file: if nothing fails from the first access to the new file on (the
    accesses before it go to the old one), the new file and those after it hold everything received from the
    change on, and the messages that were still waiting in the sink (fewer than [every]) before them. *)
Theorem C121_change_recovers_partial : forall flt e high p dir id every now r1 r2 f s0 fd0 os1 s fd ft
    cdir cid n1 n2 n3 j k1 k2 k3 os2 s' fd' tnow k h,
  fcreate flt e high p dir id every now r1 r2 f = Ok (s0, fd0) -> (every <> 0)%N ->
  fops_run flt e (s0, fd0) os1 = Ok (s, fd) ->
  fd_out fd = Some ft -> s_ino (f_st ft) <> j -> NoDup (j :: opened os2) ->
  (forall n, fd_n fd + 4 <= n -> flt n = None) ->
  fops_run flt e (s, fd) (OChange cdir cid n1 n2 n3 (Some j) k1 k2 k3 :: os2) = Ok (s', fd') ->
  fdestroy flt e (s', fd') tnow k = Ok h ->
  exists lost waiting later files i ps t,
    received e DefaultDetails os1 (lost ++ waiting) /\ (N.of_nat (length waiting) < every)%N /\
    received e (_log_details_func s) os2 later /\ _log_details_func s = fold_left (fun f o => match o with ODetails g => g | _ => f end) os1 DefaultDetails /\
    map fst (files ++ [(i, ps)]) = j :: opened os2 /\
    concat (map (fun x => entries (snd x)) (files ++ [(i, ps)])) = waiting ++ later /\
    (forall j q, In (j, q) (files ++ [(i, ps)]) -> notes_ok q) /\
    (forall j q, In (j, q) files -> h j = bytes q) /\
    FileName.formatted (clock_of e) tnow time_formatted = FOk t /\ h i = bytes ps ++ closing_text t.
Proof.
  intros flt e high p dir id every now r1 r2 f s0 fd0 os1 s fd ft cdir cid n1 n2 n3 j k1 k2 k3 os2 s' fd' tnow k h
    C Z R1 O NE ND NF R2 D.
  pose proof (alike_create flt e high p dir id every now r1 r2 f) as AC. rewrite C in AC.
  destruct (create e high p dir id every now r1 r2 f) as [[sc d1]| | |] eqn:CR; try contradiction. destruct AC as [-> AC].
  pose proof (create_sink _ _ _ _ _ _ _ _ _ _ _ CR) as (Q1 & Q2 & Q3 & Q4 & Q5 & Q6). cbn [fst] in *.
  pose proof (alike_ops flt e os1 s0 d1 fd0 AC) as AO. rewrite R1 in AO.
  destruct (ops_run e (s0, d1) os1) as [[sx d2]| | |] eqn:OR; try contradiction. destruct AO as [-> _].
  assert (C0 : counted s0 []).
  { unfold counted. rewrite Q4, Q5, Q6. repeat split; auto. }
  destruct (counted_ops _ _ _ _ _ _ _ C0 OR) as (ts1 & lost & waiting & T1 & E1 & C1 & L1). rewrite Q1 in *. cbn [app] in E1. subst ts1.
  assert (EV : (N.of_nat (length waiting) < every)%N).
  { pose proof (counted_pending _ _ C1) as X. assert (W : _write_to_log_every_x_message s = every); [|congruence].
    rewrite <- Q6. revert OR. clear. revert s0 d1. induction os1 as [|o os IH]; intros s0 d0 R; cbn [ops_run] in R; [congruence|].
    apply obind_ok in R as ((s1, d1) & R1 & R2). rewrite (IH _ _ R2). unfold op_step in R1.
    apply obind_ok in R1 as ((s2, ms) & R1 & R3). apply obind_ok in R3 as (d3 & _ & R3). injection R3 as <- <-.
    cbn [fst] in *. destruct o; cbn [op_run] in R1.
    - apply fileWrite_inv in R1 as (h & data & _ & _ & _ & -> & _). reflexivity.
    - apply obind_ok in R1 as (((s3, m3), n3) & R1 & E). injection E as <- <-. unfold changeLogFile in R1.
      apply obind_ok in R1 as (x1 & _ & R1). apply obind_ok in R1 as (x2 & _ & R1). destruct r as [n|].
      + apply obind_ok in R1 as (x3 & _ & R1). injection R1 as <- _ _. reflexivity.
      + injection R1 as <- _ _. reflexivity.
    - injection R1 as <- _. reflexivity.
    - injection R1 as <- _. reflexivity. }
  cbn [fops_run] in R2. apply obind_ok in R2 as ((s3, fd3) & R2 & R3).
  unfold fop_step in R2. cbn [fst snd op_run] in R2. apply obind_ok in R2 as ((s4, ms) & OP & R2).
  apply obind_ok in R2 as (fd4 & M & R2). injection R2 as <- <-. cbn [fst snd] in *.
  apply obind_ok in OP as (((s5, ms5), nm) & OP & E). apply Ok_inj in E. injection E as <- <-. cbn [fst] in *.
  unfold changeLogFile in OP. apply obind_ok in OP as (tt & TT & OP). apply obind_ok in OP as (fn & FN & OP).
  apply obind_ok in OP as (hdr & HD & OP). apply Ok_inj in OP.
  unfold addLogFileHeader in HD. apply obind_ok in HD as (hh & HH & HD). apply Ok_inj in HD. subst hdr.
  assert (S5 := f_equal (fun x => fst (fst x)) OP). assert (M5 := f_equal (fun x => snd (fst x)) OP). cbn [fst snd] in S5, M5. clear OP.
  (* the accesses of the change *)
  unfold fapply in M. destruct (frun flt fd ms5) as [fd5|] eqn:F; [|discriminate]. apply Ok_inj in M. subst fd5.
  set (note := tt ++ nl ++ tab ++ lit "New log file. The previous log file was at: " ++ _log_file_with_path s ++ nl) in *.
  rewrite <- M5 in F. cbn [app frun] in F. clear M5.
  assert (P1 : exists g1, fstep flt fd (MOpen (c_str (cdir ++ fn)) (Some j)) =
    Some (mkFD (fs_set (fd_fs fd) j []) (Some ft) (Some (mkF (mkStream j 0 []) true)) (S (fd_n fd))) /\ g1 = 0).
  { exists 0. cbn [fstep]. rewrite O. auto. }
  destruct P1 as (_ & P1 & _). rewrite P1 in F. clear P1.
  assert (PW : forall x txt q, (exists a, fd_out x = Some a /\ s_ino (f_st a) <> j) -> fd_fs x j = [] -> fd_new x = Some (mkF (mkStream j 0 []) true) ->
    exists y, fstep flt x (MWrite txt q) = Some y /\ (exists a, fd_out y = Some a /\ s_ino (f_st a) <> j) /\ fd_fs y j = [] /\
      fd_new y = Some (mkF (mkStream j 0 []) true) /\ fd_n y = S (fd_n x)).
  { intros x txt q ([st g] & X1 & X2) X3 X4. cbn [f_st] in X2. cbn [fstep]. rewrite X1. destruct g.
    - destruct (flt (fd_n x)); [unfold spill_fail|unfold spill]; eexists; (split; [reflexivity|]); cbn [fd_out fd_fs fd_new fd_n s_ino];
      (split; [eexists; split; [reflexivity|exact X2]|]); (split; [rewrite fs_set_other by congruence; exact X3|auto]).
    - eexists. split; [reflexivity|]. cbn [fd_out fd_fs fd_new fd_n]. split; [eexists; split; [reflexivity|exact X2]|auto]. }
  match type of F with match fstep flt ?x (MWrite ?txt ?q) with _ => _ end = _ =>
    destruct (PW x txt q) as (y1 & W1 & A1 & B1 & N1 & T1'); [exists ft; auto|cbn; apply fs_set_same|reflexivity|] end.
  rewrite W1 in F. cbn [fd_n] in T1'.
  match type of F with match fstep flt ?x (MWrite ?txt ?q) with _ => _ end = _ =>
    destruct (PW x txt q A1 B1 N1) as (y2 & W2 & A2 & B2 & N2 & T2') end.
  rewrite W2 in F. destruct A2 as ([st2 g2] & A2 & A2').
  cbn [f_st] in A2'.
  assert (W3 : exists g, fstep flt y2 MMove = Some (emb (mkDisk g (Some (mkStream j 0 [])) None) (S (fd_n y2))) /\ g j = []).
  { cbn [fstep]. rewrite A2, N2. destruct (hand_over (flt (fd_n y2)) (fd_fs y2) st2) as [[g st'] w] eqn:HO.
    exists g. split; [reflexivity|]. unfold hand_over in HO.
    destruct (flt (fd_n y2)); unfold spill_fail, spill_all, spill in HO; injection HO as <- _ _; rewrite fs_set_other by congruence; exact B2. }
  destruct W3 as (g & W3 & GJ). rewrite W3 in F.
  rewrite emb_step in F by (apply NF; rewrite T2', T1'; lia).
  assert (AE : at_end (mkDisk g (Some (mkStream j 0 [])) None) j []) by (exists (mkStream j 0 []); cbn; rewrite GJ; auto).
  destruct (write_step _ _ _ note k3 AE) as (dn & WN & AN & GN & NN). rewrite WN in F. cbn [option_map] in F. injection F as <-.
  (* from here on without faults *)
  assert (NF' : forall m, S (S (fd_n y2)) <= m -> flt m = None) by (intros m L; apply NF; rewrite T2', T1' in L; lia).
  pose proof (alike_ops flt e os2 s5 dn (emb dn (S (S (fd_n y2))))) as AO2. rewrite R3 in AO2.
  assert (AD : alike dn (emb dn (S (S (fd_n y2))))).
  { split; cbn; [destruct (d_out dn)|destruct (d_new dn)]; cbn; split; congruence. }
  specialize (AO2 AD). destruct (ops_run e (s5, dn) os2) as [[s6 d6]| | |] eqn:OR2; try contradiction. destruct AO2 as [-> _].
  destruct (emb_ops flt e os2 s5 dn (S (S (fd_n y2))) s' d6 NF' OR2) as (n' & LN & FE). rewrite R3 in FE. injection FE as ->.
  rewrite emb_destroy in D by (intros m L; apply NF'; lia).
  assert (C5 : counted s5 waiting) by (rewrite <- S5; exact C1).
  assert (I5 : Inv s5 dn [] j [Note (arriving_text tt (_log_file_with_path s))] waiting).
  { assert (BY : bytes [Note (arriving_text tt (_log_file_with_path s))] = note).
    { unfold bytes, note. cbn [map concat piece_text]. rewrite app_nil_r. reflexivity. }
    constructor.
    - rewrite BY. exact AN.
    - cbn. constructor; [intros []|constructor].
    - intros j0 q [].
    - intros j0 q [E|[]]. injection E as <- <-. intros t0 [E|[]]. injection E as <-. constructor.
    - exact C5.
    - exists [], [arriving_text tt (_log_file_with_path s)]. split; [reflexivity|]. exists (d_fs dn j). reflexivity.
    - intros j0 q []. }
  destruct (run_Inv _ _ _ _ _ _ _ _ _ _ I5 OR2) as (fl & i & ps & pend & later & I' & RC & E & MP & _ & _ & _); [exact ND|].
  assert (LD : _log_details_func s5 = _log_details_func s) by (rewrite <- S5; reflexivity). rewrite LD in RC.
  cbn [map fst app] in MP. destruct I' as [V1 V2 V3 V4 (VB & _) V6 V7].
  destruct (destroy_effect _ _ _ _ _ _ _ _ V1 D) as (t & T & G & OT).
  exists lost, waiting, later, fl, i, (ps ++ map Entry pend), t.
  split; [exact T1|]. split; [exact EV|]. split; [exact RC|]. split; [exact L1|].
  split. { rewrite map_app in *. exact MP. }
  split. { rewrite map_app, concat_app. cbn [map snd concat]. rewrite app_nil_r, entries_app, entries_Entry.
           unfold all_entries in E. rewrite map_app, concat_app in E. cbn [map snd concat] in E.
           rewrite app_nil_r in E. rewrite app_assoc. rewrite E. reflexivity. }
  split. { intros j0 q H. apply in_app_or in H as [H|[H|[]]].
           - apply (V4 j0). apply in_or_app. auto.
           - injection H as <- <-. apply notes_ok_app; [apply (V4 i); apply in_or_app; simpl; auto|].
             intros x X. apply in_map_iff in X as (y & Y & _). discriminate. }
  split. { intros j0 q H. rewrite OT; auto. intros ->. rewrite map_app in V2. apply NoDup_remove_2 in V2.
           apply V2. rewrite app_nil_r. eapply In_fst. exact H. }
  split; auto. rewrite G, bytes_app, bytes_Entry, VB, app_assoc. reflexivity.
Qed.
Print Assumptions C121_change_recovers_partial.

(** the second message's write takes 4 bytes; what follows is lost until the file is changed *)
Definition ex_before : list op := [ODetails (UserDetails 0); OHeader (lit "HH" ++ [NL]); ex_recv (lit "one"); ex_recv (lit "two")].
Definition ex_after : list op := [ex_recv (lit "three"); ex_recv (lit "four")].
Definition ex_change : op := OChange (lit "/new/") [] 0 0 0 (Some 2%nat) 0 0 0.
Definition ex_top : str := header_text (lit "x x 04 00:00:00 2021") (lit "HH" ++ [NL]).
Example C121_ex :
  (exists w st, ex_fgo (ex_fault 5 4) 1 ex_before = Ok w /\ fd_out (snd w) = Some (mkF st false) /\ s_ino st = 1 /\
     s_buf st = [] /\ fd_fs (snd w) 1 = ex_top ++ lit "D one" ++ [NL] ++ lit "D twD two" ++ [NL]) /\
  ex_fend (ex_fault 5 4) 1 (ex_fgo (ex_fault 5 4) 1 (ex_before ++ ex_after)) = Ok (ex_top ++ lit "D one" ++ [NL] ++ lit "D twD two" ++ [NL]) /\
  ex_fend (ex_fault 5 4) 2 (ex_fgo (ex_fault 5 4) 1 (ex_before ++ ex_change :: ex_after)) =
    Ok (arriving_text (lit "2021/03/04 00:00:00 000000") (lit "/log/p.20210304-000000.log") ++
        lit "D three" ++ [NL] ++ lit "D four" ++ [NL] ++ closing_text (lit "00:00:00 000000")) /\
  (* three messages at a time: the third is written, fails, and is gone; a fourth one waits *)
  ex_fend (ex_fault 3 4) 2 (ex_fgo (ex_fault 3 4) 3 (ex_before ++ ex_after ++ [ex_change; ex_recv (lit "five")])) =
    Ok (arriving_text (lit "2021/03/04 00:00:00 000000") (lit "/log/p.20210304-000000.log") ++
        lit "D four" ++ [NL] ++ lit "D five" ++ [NL] ++ closing_text (lit "00:00:00 000000")).
Proof.
  split; [do 2 eexists; split; [vm_compute; reflexivity|]; repeat split; vm_compute; reflexivity|].
  repeat split; vm_compute; reflexivity.
Qed.

(** ** C122 *)
(** Write errors are seen by nobody: for every sequence of calls the run with write errors ends as the one
    without (no exception, no undefined behaviour, no abort comes from them), and leaves the sink's members,
    among them the reported file name and the waiting text, the same. *)
Theorem C122_unnoticed : forall flt e high p dir id every now r1 r2 f os,
  seen (obind (fcreate flt e high p dir id every now r1 r2 f) (fun w => fops_run flt e w os)) =
  seen (obind (create e high p dir id every now r1 r2 f) (fun w => ops_run e w os)) /\
  forall tnow k,
    ended (obind (fcreate flt e high p dir id every now r1 r2 f) (fun w => obind (fops_run flt e w os) (fun w' => fdestroy flt e w' tnow k))) =
    ended (obind (create e high p dir id every now r1 r2 f) (fun w => obind (ops_run e w os) (fun w' => destroy e w' tnow k))).
Proof.
  intros flt e high p dir id every now r1 r2 f os.
  pose proof (alike_create flt e high p dir id every now r1 r2 f) as AC.
  destruct (create e high p dir id every now r1 r2 f) as [[s d]| | |], (fcreate flt e high p dir id every now r1 r2 f) as [[s' fd]| | |];
  try contradiction; cbn [obind]; auto.
  destruct AC as [<- AC]. pose proof (alike_ops flt e os s d fd AC) as AO.
  split; [symmetry; now apply alike_seen|]. intros tnow k.
  destruct (ops_run e (s, d) os) as [[s1 d1]| | |], (fops_run flt e (s, fd) os) as [[s2 fd2]| | |]; try contradiction; cbn [obind]; auto.
  destruct AO as [<- AO]. symmetry. now apply alike_destroy.
Qed.
Print Assumptions C122_unnoticed.

(** ... and files the sink never opened are not touched. *)
Theorem C122_other_files : forall flt e high p dir id every now r1 r2 f w0 os w tnow k h j,
  fcreate flt e high p dir id every now r1 r2 f = Ok w0 -> fops_run flt e w0 os = Ok w -> fdestroy flt e w tnow k = Ok h ->
  r1 <> Some j -> r2 <> Some j -> ~ In j (opened os) -> fd_fs (snd w) j = f j /\ h j = f j.
Proof.
  intros flt e high p dir id every now r1 r2 f [s0 fd0] os [s fd] tnow k h j C R D N1 N2 NO.
  assert (A0 : fd_fs fd0 j = f j /\ away fd0 j).
  { unfold fcreate, FileSink_ctor in C. destruct (negb _); [discriminate|].
    apply obind_ok in C as ((s1, ms) & H & K). apply obind_ok in H as (fn & _ & H). apply obind_ok in K as (fd1 & K & E). injection E as <- <-.
    cbn [fst snd] in *. unfold fapply in K. destruct (frun flt (mkFD f None None 0) ms) as [fd2|] eqn:F; [|discriminate]. injection K as <-.
    apply (untouched_run flt ms (mkFD f None None 0) fd2 j F); [|split; cbn; discriminate].
    intros q I. destruct r1 as [i1|]; [|destruct r2 as [i2|]; [|destruct (e_debug e); [discriminate|]]]; injection H as _ <-;
    simpl in I; intuition congruence. }
  destruct A0 as [E0 A0]. destruct (untouched_ops flt e os s0 fd0 s fd j R NO A0) as [E1 A1]. cbn [snd]. split; [congruence|].
  unfold fdestroy in D. apply obind_ok in D as (ms & M & D). apply obind_ok in D as (fd' & K & D). injection D as <-. cbn [fst snd] in *.
  unfold FileSink_dtor in M. apply obind_ok in M as (t & _ & M). apply Ok_inj in M. subst ms.
  unfold fapply in K. destruct (frun flt fd _) as [fd2|] eqn:F in K; [|discriminate]. injection K as <-.
  destruct (untouched_run flt _ fd fd2 j F) as [E2 _]; [intros q I; simpl in I; intuition discriminate|exact A1|]. congruence.
Qed.
Print Assumptions C122_other_files.

Example C122_ex :
  seen (ex_fgo (ex_fault 5 4) 1 (ex_before ++ ex_change :: ex_after)) = seen (ex_fgo (fun _ => None) 1 (ex_before ++ ex_change :: ex_after)) /\
  (exists s, seen (ex_fgo (fun n => Some (mkFault 0 0 0)) 2 (ex_before ++ ex_change :: ex_after)) = Ok s /\
     fileName s = lit "/new/p.20210304-000000.log") /\
  ex_fend (fun n => Some (mkFault 0 0 0)) 1 (ex_fgo (fun n => Some (mkFault 0 0 0)) 2 (ex_before ++ ex_after)) = Ok [].
Proof. split; [vm_compute; reflexivity|]. split; [eexists; split; vm_compute; reflexivity|vm_compute; reflexivity]. Qed.

(** ** C123 *)
(** A write error makes the file differ from a beginning of what it should hold: the bytes accepted before the
    error are written again when the stream is flushed or closed later (here with what libstdc++ keeps). *)
Theorem C123_refuted : exists flt os w g fw h,
  ex_go 1 os = Ok w /\ destroy ex_env w 0 0 = Ok g /\
  obind (fcreate flt ex_env (fun _ => false) (lit "app") (lit "/logs") [] 1 0 (Some 1%nat) None (fun _ => lit "old")) (fun w => fops_run flt ex_env w os) = Ok fw /\
  fdestroy flt ex_env fw 0 0 = Ok h /\ ~ starts_with (g 1) (h 1).
Proof.
  exists (ex_fault 5 4), ex_before. do 4 eexists.
  split; [vm_compute; reflexivity|]. split; [vm_compute; reflexivity|]. split; [vm_compute; reflexivity|]. split; [vm_compute; reflexivity|].
  intros [x E]. apply (f_equal (firstn 70)) in E. vm_compute in E. discriminate.
Qed.
Print Assumptions C123_refuted.

(** Whatever fails, and whatever the stream library keeps: compared with the same calls without write errors
    (their files are those of C53 and C55), every file holds a beginning of its text, possibly followed by
    pieces of that text again, without gaps; between the calls and after the end. *)
Theorem C123_no_gaps_partial : forall flt e high p dir id every now r1 r2 f i0 w0 os w tnow k g,
  create e high p dir id every now r1 r2 f = Ok w0 -> (r1 = Some i0 \/ r1 = None /\ r2 = Some i0) -> apart i0 (opened os) ->
  ops_run e w0 os = Ok w -> destroy e w tnow k = Ok g ->
  exists fw0 fw h, fcreate flt e high p dir id every now r1 r2 f = Ok fw0 /\ fops_run flt e fw0 os = Ok fw /\ fdestroy flt e fw tnow k = Ok h /\
    forall j, (exists r, patched (g j) r (fd_fs (snd fw) j)) /\ exists r, patched (g j) r (h j).
Proof.
  intros flt e high p dir id every now r1 r2 f i0 [s0 d0] os [s d] tnow k g C RR AP R D.
  assert (NN : d_out d0 <> None).
  { destruct (create_inv _ _ _ _ _ _ _ _ _ _ _ C) as [(i & _ & O & _)|(E1 & E2 & _)]; [cbn in O; congruence|]. intuition congruence. }
  destruct (Sim_create J_pt Jpt_all flt _ _ _ _ _ _ _ _ _ _ _ _ C NN) as (fd0 & i & FC & SM & NW & CU & RI).
  assert (i = i0) by (intuition congruence). subst i.
  destruct (Sim_ops (fun _ => True) J_pt Jpt_more Jpt_all Jpt_fail Jpt_part Jpt_hand flt e os s0 d0 fd0 i0 s d (fun _ _ _ => I) SM NW CU AP R)
    as (fd & F & S & NW' & _).
  destruct (Sim_destroy (fun _ => True) J_pt Jpt_more Jpt_all Jpt_fail Jpt_part Jpt_hand flt e s d fd tnow k g (fun _ _ _ => I) S NW' D) as (h & FD & H1 & H2).
  exists (s0, fd0), (s, fd), h. split; auto. split; auto. split; auto. intro j. cbn [snd].
  split; [destruct (H2 j) as (b & r & a & l & P & _)|destruct (H1 j) as (r & a & l & P & _)]; eauto.
Qed.
Print Assumptions C123_no_gaps_partial.

(** With a stream library that does not keep what was accepted, every file is a beginning of its text. *)
Theorem C123_beginning_partial : forall flt e high p dir id every now r1 r2 f i0 w0 os w tnow k g,
  (forall n x, flt n = Some x -> f_accepted x <= f_from x) ->
  create e high p dir id every now r1 r2 f = Ok w0 -> (r1 = Some i0 \/ r1 = None /\ r2 = Some i0) -> apart i0 (opened os) ->
  ops_run e w0 os = Ok w -> destroy e w tnow k = Ok g ->
  exists fw0 fw h, fcreate flt e high p dir id every now r1 r2 f = Ok fw0 /\ fops_run flt e fw0 os = Ok fw /\ fdestroy flt e fw tnow k = Ok h /\
    forall j, starts_with (g j) (fd_fs (snd fw) j) /\ starts_with (g j) (h j).
Proof.
  intros flt e high p dir id every now r1 r2 f i0 [s0 d0] os [s d] tnow k g EX C RR AP R D.
  assert (NN : d_out d0 <> None).
  { destruct (create_inv _ _ _ _ _ _ _ _ _ _ _ C) as [(i & _ & O & _)|(E1 & E2 & _)]; [cbn in O; congruence|]. intuition congruence. }
  destruct (Sim_create J_pre Jpre_all flt _ _ _ _ _ _ _ _ _ _ _ _ C NN) as (fd0 & i & FC & SM & NW & CU & RI).
  assert (i = i0) by (intuition congruence). subst i.
  destruct (Sim_ops exact_fault J_pre Jpre_more Jpre_all Jpre_fail Jpre_part Jpre_hand flt e os s0 d0 fd0 i0 s d EX SM NW CU AP R)
    as (fd & F & S & NW' & _).
  destruct (Sim_destroy exact_fault J_pre Jpre_more Jpre_all Jpre_fail Jpre_part Jpre_hand flt e s d fd tnow k g EX S NW' D) as (h & FD & H1 & H2).
  exists (s0, fd0), (s, fd), h. split; auto. split; auto. split; auto. intro j. cbn [snd].
  split.
  - destruct (H2 j) as (b & P). eapply starts_trans; [exact P|]. apply starts_app.
  - specialize (H1 j). unfold J_pre in H1. now rewrite app_nil_r in H1.
Qed.
Print Assumptions C123_beginning_partial.

(** Without write errors the two models agree, so that C53 to C60 say what the files hold. *)
Theorem C123_no_errors : forall e high p dir id every now r1 r2 f os tnow k,
  obind (fcreate (fun _ => None) e high p dir id every now r1 r2 f) (fun w => obind (fops_run (fun _ => None) e w os) (fun w' => fdestroy (fun _ => None) e w' tnow k)) =
  obind (create e high p dir id every now r1 r2 f) (fun w => obind (ops_run e w os) (fun w' => destroy e w' tnow k)).
Proof.
  intros e high p dir id every now r1 r2 f os tnow k. set (flt := fun _ : nat => @None fault).
  assert (NF : forall n m : nat, n <= m -> flt m = None) by reflexivity.
  assert (C : fcreate flt e high p dir id every now r1 r2 f =
    match create e high p dir id every now r1 r2 f with Ok (s, d) => Ok (s, emb d (fd_n (match fcreate flt e high p dir id every now r1 r2 f with Ok x => snd x | _ => mkFD f None None 0 end))) | UB => UB | Throw => Throw | Abort => Abort end).
  { unfold fcreate, create. destruct (FileSink_ctor e high p dir id every now r1 r2) as [[s ms]| | |]; cbn [obind]; auto. cbn [fst snd].
    unfold fapply, apply_micros. change (mkFD f None None 0) with (emb (mkDisk f None None) 0). rewrite emb_run by (apply NF).
    destruct (mrun (mkDisk f None None) ms); cbn; auto. }
  rewrite C. destruct (create e high p dir id every now r1 r2 f) as [[s d]| | |]; cbn [obind]; auto.
  generalize (fd_n (match fcreate flt e high p dir id every now r1 r2 f with Ok x => snd x | _ => mkFD f None None 0 end)). intro n. clear C.
  destruct (ops_run e (s, d) os) as [[s1 d1]| | |] eqn:R.
  - destruct (emb_ops flt e os s d n s1 d1 (NF n) R) as (n' & _ & E). rewrite E. cbn [obind]. apply emb_destroy. apply NF.
  - pose proof (alike_ops flt e os s d (emb d n)) as A. rewrite R in A.
    destruct (fops_run flt e (s, emb d n) os); cbn; auto; exfalso; apply A; split; cbn; destruct (d_out d), (d_new d); cbn; split; congruence.
  - pose proof (alike_ops flt e os s d (emb d n)) as A. rewrite R in A.
    destruct (fops_run flt e (s, emb d n) os); cbn; auto; exfalso; apply A; split; cbn; destruct (d_out d), (d_new d); cbn; split; congruence.
  - pose proof (alike_ops flt e os s d (emb d n)) as A. rewrite R in A.
    destruct (fops_run flt e (s, emb d n) os); cbn; auto; exfalso; apply A; split; cbn; destruct (d_out d), (d_new d); cbn; split; congruence.
Qed.
Print Assumptions C123_no_errors.

Example C123_ex :
  (* the kept buffer is written again *)
  ex_fend (ex_fault 5 4) 1 (ex_fgo (ex_fault 5 4) 1 ex_before) = Ok (ex_top ++ lit "D one" ++ [NL] ++ lit "D twD two" ++ [NL]) /\
  (* nothing kept of what was accepted *)
  ex_fend (ex_exact 5 4) 1 (ex_fgo (ex_exact 5 4) 1 ex_before) = Ok (ex_top ++ lit "D one" ++ [NL] ++ lit "D two" ++ [NL]) /\
  ex_fend (ex_exact 6 4) 1 (ex_fgo (ex_exact 6 4) 1 (ex_before ++ ex_after)) = Ok (ex_top ++ lit "D one" ++ [NL] ++ lit "D two" ++ [NL]) /\
  ex_fend (fun _ => None) 1 (ex_fgo (fun _ => None) 1 ex_before) =
    Ok (ex_top ++ lit "D one" ++ [NL] ++ lit "D two" ++ [NL] ++ closing_text (lit "00:00:00 000000")) /\
  apart 1 (opened (ex_before ++ ex_change :: ex_after)).
Proof. repeat split; try (vm_compute; reflexivity). discriminate. Qed.
