(** C78-C84: the Windows side.  Model: Model/Windows.v; specification: Spec/WindowsSpec.v. *)
From Coq Require Import Ascii String List ZArith NArith Bool Lia.
From Verif.Base Require Import Bytes.
From Verif.Model Require Import Levels Signals Windows.
From Verif.Spec Require Import WindowsSpec.
From Verif.Proofs Require Import BytesFacts WindowsFacts.
Import ListNotations.
Local Open Scope list_scope.
Local Open Scope Z_scope.

(** ** C78: names of exceptions *)
Theorem C78_documented : forall id name, In (id, name) documented -> exceptionIdToText id = name.
Proof.
  intros id name I. destruct (exception_cases id) as [[v [J [E _]]]|[J _]].
  - rewrite E. exact (documented_fun id v name J I).
  - exfalso. apply J. change id with (fst (id, name)). apply in_map. exact I.
Qed.
Print Assumptions C78_documented.
Theorem C78_unknown : forall id, ~ In id (map fst documented) -> exceptionIdToText id = lit "UNKNOWN EXCEPTION:" ++ to_string id.
Proof.
  intros id N. destruct (exception_cases id) as [[v [J _]]|[_ [E _]]].
  - exfalso. apply N. change id with (fst (id, v)). apply in_map. exact J.
  - exact E.
Qed.
Print Assumptions C78_unknown.
Theorem C78_known : forall id, isKnownException id = true <-> In id (map fst documented).
Proof.
  intro id. destruct (exception_cases id) as [[v [J [_ K]]]|[J [_ K]]]; rewrite K.
  - split; [|reflexivity]. intros _. change id with (fst (id, v)). apply in_map. exact J.
  - split; [discriminate|]. intro I. contradiction.
Qed.
Print Assumptions C78_known.
Theorem C78_injective : forall a b, exceptionIdToText a = exceptionIdToText b -> a = b.
Proof.
  intros a b E. destruct (exception_cases a) as [[v [I [Ea _]]]|[I [Ea _]]], (exception_cases b) as [[w [J [Eb _]]]|[J [Eb _]]]; rewrite Ea, Eb in E.
  - subst w. exact (documented_inj a b v I J).
  - apply documented_texts in I. destruct I as [r I]. rewrite I in E. discriminate.
  - apply documented_texts in J. destruct J as [r J]. rewrite J in E. discriminate.
  - apply app_inv_head in E. apply to_string_inj. exact E.
Qed.
Print Assumptions C78_injective.
(** the name of what ended the program *)
Lemma signal_cases : forall lv x, levelEq lv FATAL_EXCEPTION = false ->
  (exists n, In (x, n) win_signals /\ exitReasonName_win lv x = n) \/
  (~ In x (map fst win_signals) /\ exitReasonName_win lv x = lit "UNKNOWN SIGNAL(" ++ to_string x ++ lit ")").
Proof.
  intros lv x L. unfold exitReasonName_win. rewrite L.
  destruct (Z.eqb_spec x WIN_SIGABRT) as [E1|E1]; [left; eexists; split; [|reflexivity]; subst x; cbn; auto 9|].
  destruct (Z.eqb_spec x WIN_SIGFPE) as [E2|E2]; [left; eexists; split; [|reflexivity]; subst x; cbn; auto 9|].
  destruct (Z.eqb_spec x WIN_SIGSEGV) as [E3|E3]; [left; eexists; split; [|reflexivity]; subst x; cbn; auto 9|].
  destruct (Z.eqb_spec x WIN_SIGILL) as [E4|E4]; [left; eexists; split; [|reflexivity]; subst x; cbn; auto 9|].
  destruct (Z.eqb_spec x WIN_SIGTERM) as [E5|E5]; [left; eexists; split; [|reflexivity]; subst x; cbn; auto 9|].
  right. split; [|reflexivity].
  unfold WIN_SIGABRT, WIN_SIGFPE, WIN_SIGSEGV, WIN_SIGILL, WIN_SIGTERM in *. cbn [map fst win_signals In]. intuition congruence.
Qed.
Theorem C78_exit_exception : forall lv id, value lv = 2002 -> text lv = lit "FATAL_EXCEPTION" -> exitReasonName_win lv id = exceptionIdToText id.
Proof. intros lv id V T. unfold exitReasonName_win, levelEq. rewrite V, T. reflexivity. Qed.
Print Assumptions C78_exit_exception.
Theorem C78_exit_signal : forall lv id n, value lv <> 2002 \/ text lv <> lit "FATAL_EXCEPTION" ->
  In (id, n) win_signals -> exitReasonName_win lv id = n.
Proof.
  intros lv id n L I. assert (LF : levelEq lv FATAL_EXCEPTION = false).
  { unfold levelEq. apply andb_false_iff. destruct L as [L|L].
    - left. apply Z.eqb_neq. exact L.
    - right. destruct (str_eqb (text lv) (text FATAL_EXCEPTION)) eqn:E; [|reflexivity]. apply str_eqb_eq in E. contradiction. }
  destruct (signal_cases lv id LF) as [[m [J E]]|[J _]].
  - rewrite E. clear E. cbn in I, J. intuition congruence.
  - exfalso. apply J. change id with (fst (id, n)). apply in_map. exact I.
Qed.
Print Assumptions C78_exit_signal.
Theorem C78_exit_injective : forall lv a b, exitReasonName_win lv a = exitReasonName_win lv b -> a = b.
Proof.
  intros lv a b E. destruct (levelEq lv FATAL_EXCEPTION) eqn:L.
  - unfold exitReasonName_win in E. rewrite L in E. apply C78_injective. exact E.
  - destruct (signal_cases lv a L) as [[m [I Ea]]|[I Ea]], (signal_cases lv b L) as [[n [J Eb]]|[J Eb]]; rewrite Ea, Eb in E.
    + subst n. clear Ea Eb. cbn in I, J.
      repeat (destruct I as [I|I]; [inversion I; subst a m; repeat (destruct J as [J|J]; [inversion J; auto|]); contradiction|]).
      contradiction.
    + clear Ea Eb J. exfalso. cbn [win_signals In] in I. repeat (destruct I as [I|I]; [inversion I; subst a m; discriminate|]). contradiction.
    + clear Ea Eb I. exfalso. cbn [win_signals In] in J. repeat (destruct J as [J|J]; [inversion J; subst b n; discriminate|]). contradiction.
    + apply app_inv_head in E. apply app_inv_tail in E. apply to_string_inj. exact E.
Qed.
Print Assumptions C78_exit_injective.
Example C78_ex1 : exceptionIdToText 3221225620 = lit "EXCEPTION_INT_DIVIDE_BY_ZERO" /\
  exceptionIdToText 3765269347 = lit "UNKNOWN EXCEPTION:3765269347" (* 0xE06D7363: a C++ exception *) /\
  length documented = 20%nat.
Proof. vm_compute. auto. Qed.
Example C78_ex2 : exitReasonName_win FATAL 22 = lit "SIGABRT" /\ exitReasonName_win FATAL_EXCEPTION 22 = lit "UNKNOWN EXCEPTION:22".
Proof. vm_compute. auto. Qed.

(** ** C79: the text of a dump *)
(** one frame: number, then source position if known, then name if known *)
Definition frame_line (sym : symbols) (n : nat) (a : Z) : str :=
  lit "stack dump [" ++ to_string (Z.of_nat n) ++ lit "]" ++ tab ++
  match sym a with
  | Some (name, Some (file, line)) => tab ++ file ++ lit " L: " ++ to_string line ++ lit " " ++ name
  | Some (name, None) => lit " " ++ name
  | None => []
  end.
Lemma frame_line_ok : forall sym n a, getSymbolInformation sym n a = frame_line sym n a.
Proof.
  intros sym n a. unfold getSymbolInformation, frame_line. destruct (sym a) as [[name [[file line]|]]|]; [|reflexivity|reflexivity].
  rewrite <- !app_assoc. reflexivity.
Qed.
Lemma dump_lines_ext : forall f g, (forall n a, f n a = g n a) -> forall l n, dump_lines f n l = dump_lines g n l.
Proof. intros f g E l. induction l as [|a l IH]; intro n; [reflexivity|]. cbn [dump_lines]. rewrite E, IH. reflexivity. Qed.
Theorem C79_text : forall sym walk a c,
  dump_text true sym walk a c = dump_lines (frame_line sym) 0 (until_null (firstn 64 (walk (start_frame a c)))).
Proof.
  intros sym walk a c. unfold dump_text, convertFramesToText, captureStackTrace.
  rewrite capture_loop_spec by (rewrite repeat_length; lia). rewrite repeat_length. cbn [firstn app].
  change (kmax_frame_dump_size - 0)%nat with 64%nat. set (w := firstn 64 (walk (start_frame a c))).
  rewrite text_loop_spec by lia. cbn [skipn]. rewrite skipn_repeat, until_null_app_zeros.
  apply dump_lines_ext. intros. apply frame_line_ok.
Qed.
Print Assumptions C79_text.
Theorem C79_failed : forall sym walk a c,
  dump_text false sym walk a c = lit "Error: Cannot call SymInitialize(...) for retrieving symbols in stack".
Proof. reflexivity. Qed.
Print Assumptions C79_failed.
Example C79_ex : dump_text true (fun a => if a =? 7 then Some (lit "main", Some (lit "a.cpp", 12)) else if a =? 8 then Some (lit "f", None) else None)
    (fun _ => [7; 8; 9; 0; 7]) X64 (mkRegs 7 100 200) =
  lit "stack dump [0]" ++ tab ++ tab ++ lit "a.cpp L: 12 main" ++ nl ++
  lit "stack dump [1]" ++ tab ++ lit " f" ++ nl ++ lit "stack dump [2]" ++ tab ++ nl.
Proof. vm_compute. reflexivity. Qed.
Example C79_ex_long : length (until_null (firstn 64 (repeat 5 100))) = 64%nat.
Proof. vm_compute. reflexivity. Qed.

(** ** C80: the guard against recursion *)
(** A thread gets at most two dumps in its life; what comes after that is the notice. *)
Theorem C80_at_most_two : forall s t, dreach s -> (dumps t s + npassed (d_stack s t) <= 2)%nat.
Proof. intros s t R. apply dreach_inv in R. pose proof (di_count s R t). pose proof (di_two s R t). lia. Qed.
Print Assumptions C80_at_most_two.
(** The test answers with the notice exactly if two activations of the thread have passed it before. *)
Theorem C80_notice_iff : forall s t r, dreach s -> d_ub s = false -> d_stack s t = DCheck :: r ->
  exists s', dstep s (DStep t) = Some s' /\ d_ub s' = false /\ d_mutex s' = d_mutex s /\ (forall u, u <> t -> d_stack s' u = d_stack s u) /\
  ((dumps t s + npassed (d_stack s t) = 2)%nat -> d_out s' = d_out s ++ [(t, true)] /\ d_stack s' t = r) /\
  ((dumps t s + npassed (d_stack s t) < 2)%nat -> d_out s' = d_out s /\ d_stack s' t = DLock :: r).
Proof.
  intros s t r R U ST. apply dreach_inv in R. pose proof (di_count s R t) as C. unfold dstep. rewrite U, ST.
  rewrite ST in C. destruct (2 <=? d_cnt s t)%N eqn:E; eexists; (split; [reflexivity|]); cbn [d_out d_stack d_ub d_mutex]; unfold updn; rewrite Nat.eqb_refl;
    (split; [reflexivity|]); (split; [reflexivity|]); (split; [intros u Hu; destruct (Nat.eqb_spec u t); [contradiction|reflexivity]|]).
  - apply N.leb_le in E. split; intro H; [auto|lia].
  - apply N.leb_gt in E. split; intro H; [lia|auto].
Qed.
Print Assumptions C80_notice_iff.
(** DbgHelp, which must not be used by two threads at once, is used by one activation at a time. *)
Theorem C80_exclusive : forall s t u, dreach s -> In DBody (d_stack s t) -> In DBody (d_stack s u) -> t = u.
Proof.
  intros s t u R I J. apply dreach_inv in R.
  assert (H : forall v, In DBody (d_stack s v) -> d_mutex s = Some v).
  { intros v K. destruct (d_mutex s) as [x|] eqn:M.
    - destruct (Nat.eq_dec x v) as [Q|Q]; [congruence|]. assert (O : d_mutex s <> Some v) by congruence.
      apply (di_others s R) in O. unfold nbody in O. apply length_zero_iff_nil in O.
      assert (F : In DBody (List.filter body (d_stack s v))) by (apply filter_In; auto). rewrite O in F. contradiction.
    - assert (O : d_mutex s <> Some v) by congruence.
      apply (di_others s R) in O. unfold nbody in O. apply length_zero_iff_nil in O.
      assert (F : In DBody (List.filter body (d_stack s v))) by (apply filter_In; auto). rewrite O in F. contradiction. }
  apply H in I. apply H in J. congruence.
Qed.
Print Assumptions C80_exclusive.
(** Refuted: three dumps one after the other, none inside another; the third is called a recursive crash.
    The counter is never decreased. *)
Theorem C80_sequential_refuted : exists s1 s2,
  drun d_init ([DCall 0; DStep 0; DStep 0; DStep 0] ++ [DCall 0; DStep 0; DStep 0; DStep 0])%nat = Some s1 /\
  d_stack s1 0%nat = [] /\ drun s1 [DCall 0; DStep 0]%nat = Some s2 /\ d_out s2 = [(0, false); (0, false); (0, true)]%nat.
Proof.
  destruct (drun d_init ([DCall 0; DStep 0; DStep 0; DStep 0] ++ [DCall 0; DStep 0; DStep 0; DStep 0])%nat) as [s1|] eqn:E1.
  2: { apply (f_equal (fun o => match o with None => true | _ => false end)) in E1. vm_compute in E1. discriminate. }
  assert (H : option_map (fun s => (d_stack s 0%nat, option_map d_out (drun s [DCall 0; DStep 0]%nat))) (Some s1) =
              Some ([], Some [(0, false); (0, false); (0, true)]%nat)) by (rewrite <- E1; vm_compute; reflexivity).
  cbn [option_map] in H. injection H as H1 H2.
  change (option_map d_out (drun s1 [DCall 0; DStep 0]%nat) = Some [(0, false); (0, false); (0, true)]%nat) in H2. destruct (drun s1 [DCall 0; DStep 0]%nat) as [s2|] eqn:E2; cbn [option_map] in H2; [|discriminate H2].
  injection H2 as H2. exists s1, s2. auto.
Qed.
Print Assumptions C80_sequential_refuted.
(** The other way round: the first crash inside the dump itself locks the mutex that the thread owns. *)
Theorem C80_nested_locks : forall s t r, dreach s -> d_ub s = false -> d_stack s t = DBody :: r ->
  (dumps t s + npassed (d_stack s t) < 2)%nat ->
  exists s', drun s [DCall t; DStep t; DStep t] = Some s' /\ d_ub s' = true.
Proof.
  intros s t r R U ST P. apply dreach_inv in R.
  assert (M : d_mutex s = Some t).
  { destruct (d_mutex s) as [x|] eqn:M.
    - destruct (Nat.eq_dec x t) as [Q|Q]; [congruence|]. assert (O : d_mutex s <> Some t) by congruence.
      apply (di_others s R) in O. rewrite ST in O. discriminate.
    - assert (O : d_mutex s <> Some t) by congruence. apply (di_others s R) in O. rewrite ST in O. discriminate. }
  pose proof (di_count s R t) as C.
  assert (Q : (2 <=? d_cnt s t)%N = false) by (apply N.leb_gt; lia).
  cbn [drun]. unfold dstep at 1. rewrite U. cbn [d_cnt d_mutex d_stack d_out d_ub].
  unfold dstep at 1. cbn [d_cnt d_mutex d_stack d_out d_ub]. unfold updn at 1. rewrite Nat.eqb_refl. rewrite Q.
  unfold dstep at 1. cbn [d_cnt d_mutex d_stack d_out d_ub]. unfold updn at 1. rewrite Nat.eqb_refl. rewrite M, Nat.eqb_refl.
  eexists. split; reflexivity.
Qed.
Print Assumptions C80_nested_locks.
Theorem C80_nested_refuted : exists s, drun d_init [DCall 3; DStep 3; DStep 3; DCall 3; DStep 3; DStep 3]%nat = Some s /\ d_ub s = true.
Proof. eexists. split; reflexivity. Qed.
Print Assumptions C80_nested_refuted.
Example C80_ex_nested : exists s, drun d_init [DCall 3; DStep 3; DStep 3]%nat = Some s /\ d_stack s 3%nat = [DBody] /\ d_ub s = false /\
  (dumps 3 s + npassed (d_stack s 3) = 1)%nat.
Proof. eexists. split; [reflexivity|]. repeat split. Qed.

(** ** C81: where the walk starts *)
Theorem C81_start : forall a c, a <> X86 -> start_frame a c = c.
Proof. intros [] [] H; try reflexivity. contradiction. Qed.
Print Assumptions C81_start.
(** On 32-bit x86 the walk starts at the stack pointer as program counter, with no frame or stack address. *)
Theorem C81_x86 : forall c, start_frame X86 c = mkRegs (r_sp c) 0 0.
Proof. reflexivity. Qed.
Print Assumptions C81_x86.
Theorem C81_refuted : exists a c, start_frame a c <> c.
Proof. exists X86, (mkRegs 4198400 1703724 1703700). discriminate. Qed.
Print Assumptions C81_refuted.
Example C81_ex : start_frame X86 (mkRegs 4198400 1703724 1703700) = mkRegs 1703700 0 0 /\ X64 <> X86.
Proof. split; [reflexivity|discriminate]. Qed.

(** ** C82: threads covered by the signal handlers *)
Definition uses (t : nat) (o : vop) : bool := match o with VLog u | VInstall u => Nat.eqb u t | _ => false end.
Definition uncovers (o : vop) : bool := match o with VRestore _ | VSignal _ _ _ => true | _ => false end.
Definition covered (w : win) (t : nat) : Prop := forall s n, In (s, n) win_signals -> handler_of w t s = G3log.
Lemma five_win : forall s n, In (s, n) win_signals -> existsb (Z.eqb s) five_signals = true.
Proof. intros s n I. cbn in I. repeat (destruct I as [I|I]; [inversion I; reflexivity|]). contradiction. Qed.
Lemma install_handler : forall t w u s, handler_of (installSignalHandlerForThread t w) u s =
  if negb (g_installed_thread_signal_handler w t) && existsb (Z.eqb s) five_signals && (negb (per_thread s) || Nat.eqb u t) then G3log else handler_of w u s.
Proof.
  intros t w u s. unfold installSignalHandlerForThread. destruct (g_installed_thread_signal_handler w t); [reflexivity|].
  rewrite fold_set by auto. reflexivity.
Qed.
Lemma install_flag : forall t w u, g_installed_thread_signal_handler (installSignalHandlerForThread t w) u =
  (g_installed_thread_signal_handler w u || Nat.eqb u t).
Proof.
  intros t w u. unfold installSignalHandlerForThread. destruct (g_installed_thread_signal_handler w t) eqn:F.
  - destruct (Nat.eqb_spec u t) as [Q|Q]; [rewrite Q, F; reflexivity|]. symmetry. apply orb_false_r.
  - change (updn (g_installed_thread_signal_handler w) t true u = g_installed_thread_signal_handler w u || Nat.eqb u t). unfold updn.
    destruct (Nat.eqb u t); [symmetry; apply orb_true_r|symmetry; apply orb_false_r].
Qed.
Lemma flag_step : forall w o u, g_installed_thread_signal_handler (vstep w o) u = g_installed_thread_signal_handler w u || uses u o.
Proof.
  intros w o u. destruct o as [t|t|t|t s d|f|]; cbn [vstep uses]; try (symmetry; apply orb_false_r).
  - rewrite install_flag, (Nat.eqb_sym u t). reflexivity.
  - unfold installCrashHandler_win. cbn [g_installed_thread_signal_handler]. rewrite install_flag, (Nat.eqb_sym u t). reflexivity.
Qed.
Lemma flag_run : forall ops w u, g_installed_thread_signal_handler (vrun w ops) u = g_installed_thread_signal_handler w u || existsb (uses u) ops.
Proof.
  induction ops as [|o ops IH]; intros w u; [symmetry; apply orb_false_r|].
  unfold vrun in *. cbn [fold_left existsb]. rewrite IH, flag_step. symmetry. apply orb_assoc.
Qed.
Lemma covered_step : forall w o t, covered w t -> uncovers o = false -> covered (vstep w o) t.
Proof.
  intros w o t C U s n I. specialize (C s n I). destruct o as [u|u|u|u r d|f|]; cbn [vstep uncovers] in *; try discriminate; try exact C.
  - rewrite install_handler. destruct (_ && _); [reflexivity|exact C].
  - unfold installCrashHandler_win, handler_of. cbn [v_thread v_process].
    change (handler_of (installSignalHandlerForThread u w) t s = G3log). rewrite install_handler. destruct (_ && _); [reflexivity|exact C].
Qed.
Lemma covered_run : forall ops w t, covered w t -> existsb uncovers ops = false -> covered (vrun w ops) t.
Proof.
  induction ops as [|o ops IH]; intros w t C U; [exact C|]. cbn [existsb] in U. apply orb_false_iff in U. destruct U as [U V].
  unfold vrun. cbn [fold_left]. apply IH; [|exact V]. apply covered_step; assumption.
Qed.
(** From the first LOG call (or installation) of a thread on, all five signals in that thread lead to g3log, as long as
    nobody sets handlers and nobody restores. *)
Theorem C82_covered : forall before t o after,
  existsb (uses t) before = false -> uses t o = true -> existsb uncovers after = false ->
  covered (vrun v_start (before ++ o :: after)) t.
Proof.
  intros before t o after B O A. unfold vrun. rewrite fold_left_app. cbn [fold_left]. fold (vrun v_start before).
  apply covered_run; [|exact A].
  assert (F : g_installed_thread_signal_handler (vrun v_start before) t = false) by (rewrite flag_run, B; reflexivity).
  intros s n I. pose proof (five_win s n I) as J.
  destruct o as [u|u|u|u r d|f|]; cbn [uses] in O; try discriminate; apply Nat.eqb_eq in O; subst u; cbn [vstep].
  - rewrite install_handler, F, J, Nat.eqb_refl, orb_true_r. reflexivity.
  - unfold installCrashHandler_win, handler_of. cbn [v_thread v_process].
    change (handler_of (installSignalHandlerForThread t (vrun v_start before)) t s = G3log).
    rewrite install_handler, F, J, Nat.eqb_refl, orb_true_r. reflexivity.
Qed.
Print Assumptions C82_covered.
(** Refuted after a restore: further LOG calls and installations of that thread cover nothing. *)
Theorem C82_refuted : exists w, w = vrun v_start [VInstall 1; VLog 2; VRestore 2; VLog 2; VInstall 2]%nat /\
  forall s n, In (s, n) win_signals -> handler_of w 2%nat s = Dfl.
Proof.
  eexists. split; [reflexivity|]. intros s n I. cbn [win_signals In] in I.
  repeat (destruct I as [I|I]; [inversion I; reflexivity|]). contradiction.
Qed.
Print Assumptions C82_refuted.
(** In general: for the three per-thread signals, such a thread is never covered again, whatever anyone calls. *)
Theorem C82_never_again : forall before t after s,
  existsb (uses t) before = true -> In s [4; 8; 11] ->
  existsb (fun o => match o with VSignal _ _ _ => true | _ => false end) after = false ->
  handler_of (vrun v_start (before ++ VRestore t :: after)) t s = Dfl.
Proof.
  intros before t after s B I A.
  assert (P : per_thread s = true /\ existsb (Z.eqb s) five_signals = true).
  { cbn [In] in I. repeat (destruct I as [I|I]; [subst s; split; reflexivity|]). contradiction. }
  destruct P as [P5 P].
  unfold vrun. rewrite fold_left_app. cbn [fold_left]. fold (vrun v_start before).
  set (w0 := vrun v_start before).
  assert (F0 : g_installed_thread_signal_handler w0 t = true) by (unfold w0; rewrite flag_run, B; apply orb_true_r).
  set (w1 := vstep w0 (VRestore t)).
  assert (F1 : g_installed_thread_signal_handler w1 t = true) by (unfold w1; rewrite flag_step, F0; reflexivity).
  assert (D1 : handler_of w1 t s = Dfl).
  { unfold w1. cbn [vstep]. unfold restoreFatalHandlingToDefault_win. rewrite fold_set.
    - rewrite Nat.eqb_refl, orb_true_r, andb_true_r. cbn [In] in I.
      repeat (destruct I as [I|I]; [subst s; reflexivity|]). contradiction.
    - intros x X. cbn [In] in *. unfold five_signals. cbn [In]. intuition congruence. }
  clearbody w1. clear -A P P5 F1 D1. revert w1 F1 D1. induction after as [|o after IH]; intros w1 F1 D1; [exact D1|].
  cbn [existsb] in A. apply orb_false_iff in A. destruct A as [A1 A2]. cbn [fold_left]. apply (IH A2).
  - rewrite flag_step, F1. reflexivity.
  - destruct o as [u|u|u|u r d|f|]; cbn [vstep]; try discriminate A1; try exact D1.
    + rewrite install_handler. rewrite P5. cbn [negb orb]. destruct (Nat.eqb_spec t u) as [Q|Q].
      * rewrite <- Q, F1. exact D1.
      * rewrite andb_false_r. exact D1.
    + unfold installCrashHandler_win, handler_of. cbn [v_thread v_process].
      change (handler_of (installSignalHandlerForThread u w1) t s = Dfl).
      rewrite install_handler. rewrite P5. cbn [negb orb]. destruct (Nat.eqb_spec t u) as [Q|Q].
      * rewrite <- Q, F1. exact D1.
      * rewrite andb_false_r. exact D1.
    + unfold restoreFatalHandlingToDefault_win. rewrite fold_set.
      * destruct (_ && _); [reflexivity|]. exact D1.
      * intros x X. cbn [In] in *. unfold five_signals. cbn [In]. intuition congruence.
Qed.
Print Assumptions C82_never_again.
Example C82_ex : existsb (uses 5%nat) [VInstall 1; VRestore 1; VSignal 5 11 (User 2)]%nat = false /\
  handler_of (vrun v_start [VInstall 1; VRestore 1; VSignal 5 11 (User 2); VLog 5]%nat) 5%nat 11 = G3log /\
  handler_of (vrun v_start [VInstall 1; VRestore 1; VSignal 5 11 (User 2); VLog 5]%nat) 1%nat 11 = Dfl /\
  handler_of (vrun v_start [VInstall 1; VRestore 1; VSignal 5 11 (User 2); VLog 5]%nat) 1%nat 22 = G3log.
Proof. vm_compute. auto. Qed.

(** ** C83: restoring what was there before *)
Lemma restore_rest : forall t w,
  v_filter (restoreFatalHandlingToDefault_win t w) = g_previous_unexpected_exception_handler w /\
  v_vectored (restoreFatalHandlingToDefault_win t w) = remove_vectored (v_vectored w) (g_vector_exception_handler w) /\
  g_block (restoreFatalHandlingToDefault_win t w) = g_block w.
Proof.
  intros t w. repeat split.
Qed.
Lemma restore_dfl : forall t w s n, In (s, n) win_signals -> handler_of (restoreFatalHandlingToDefault_win t w) t s = Dfl.
Proof.
  intros t w s n I. unfold restoreFatalHandlingToDefault_win. rewrite fold_set.
  - rewrite Nat.eqb_refl, orb_true_r, andb_true_r. cbn [win_signals In] in I.
    repeat (destruct I as [I|I]; [inversion I; reflexivity|]). contradiction.
  - intros x X. cbn [In] in *. unfold five_signals. cbn [In]. intuition congruence.
Qed.
Lemma install_rest : forall t w, v_filter (installSignalHandlerForThread t w) = v_filter w /\
  v_vectored (installSignalHandlerForThread t w) = v_vectored w /\ v_next (installSignalHandlerForThread t w) = v_next w.
Proof.
  intros t w. unfold installSignalHandlerForThread. destruct (g_installed_thread_signal_handler w t); [auto|].
  repeat split.
Qed.
Lemma handles_small : forall ops, Forall (fun e => (fst e < v_next (vrun v_start ops))%nat) (v_vectored (vrun v_start ops)).
Proof.
  intro ops. rewrite <- (rev_involutive ops). set (l := rev ops). clearbody l. clear ops. induction l as [|o l IH]; [constructor|].
  cbn [rev]. unfold vrun in *. rewrite fold_left_app. cbn [fold_left]. set (w := fold_left vstep (rev l) v_start) in *. clearbody w.
  assert (UP : Forall (fun e => (fst e < S (v_next w))%nat) (v_vectored w)).
  { eapply Forall_impl; [|exact IH]. intros e L. cbn beta in L. lia. }
  destruct o as [u|u|u|u r d|f|]; cbn [vstep].
  - destruct (install_rest u w) as [_ [V N]]. rewrite V, N. exact IH.
  - unfold installCrashHandler_win. cbn [v_vectored v_next]. destruct (install_rest u w) as [_ [V N]]. rewrite V, N.
    apply Forall_app. split; [exact UP|]. constructor; [|constructor]. cbn [fst]. lia.
  - assert (NX : v_next (restoreFatalHandlingToDefault_win u w) = v_next w).
    { reflexivity. }
    destruct (restore_rest u w) as [_ [V _]]. rewrite V, NX. unfold remove_vectored. destruct (g_vector_exception_handler w) as [k|]; [|exact IH].
    rewrite Forall_forall in *. intros e I. apply filter_In in I. apply IH. apply I.
  - exact IH.
  - exact IH.
  - cbn [v_vectored v_next]. apply Forall_app. split; [exact UP|]. constructor; [|constructor]. cbn [fst]. lia.
Qed.
(** One installation followed by one restore: the filter and the vectored handlers are what they were, and the five signals
    have their default action in that thread. *)
Theorem C83_restored : forall ops t w, w = vrun v_start ops ->
  let w' := restoreFatalHandlingToDefault_win t (installCrashHandler_win t w) in
  v_filter w' = v_filter w /\ v_vectored w' = v_vectored w /\
  forall s n, In (s, n) win_signals -> handler_of w' t s = Dfl.
Proof.
  intros ops t w W w'. destruct (restore_rest t (installCrashHandler_win t w)) as [F [V _]].
  split; [|split].
  - unfold w'. rewrite F. unfold installCrashHandler_win. cbn [g_previous_unexpected_exception_handler]. apply install_rest.
  - unfold w'. rewrite V. unfold installCrashHandler_win. cbn [v_vectored g_vector_exception_handler].
    destruct (install_rest t w) as [_ [VV N]]. rewrite VV, N. cbn [remove_vectored]. rewrite List.filter_app. cbn [List.filter fst].
    rewrite Nat.eqb_refl. cbn [negb]. rewrite app_nil_r. pose proof (handles_small ops) as H. rewrite <- W in H. clear -H.
    induction H as [|e l L H IH]; [reflexivity|]. cbn [List.filter]. destruct (Nat.eqb_spec (fst e) (v_next w)); [lia|].
    cbn [negb]. rewrite IH. reflexivity.
  - intros s n I. apply (restore_dfl t _ s n). exact I.
Qed.
Print Assumptions C83_restored.
(** Vectored handlers of the client are never removed, whatever is called in whatever order by whichever threads: there are as
    many as the client has added. *)
Theorem C83_client_handlers_stay : forall ops,
  length (List.filter (fun h => negb (snd h)) (v_vectored (vrun v_start ops))) =
  length (List.filter (fun o => match o with VVectored => true | _ => false end) ops).
Proof.
  intro ops. pose (own w := forall k, g_vector_exception_handler w = Some k -> (k < v_next w)%nat /\ forall e, In e (v_vectored w) -> fst e = k -> snd e = true).
  enough (G : own (vrun v_start ops) /\ length (List.filter (fun h => negb (snd h)) (v_vectored (vrun v_start ops))) =
    length (List.filter (fun o => match o with VVectored => true | _ => false end) ops)) by apply G.
  rewrite <- (rev_involutive ops). set (l := rev ops). clearbody l. clear ops. induction l as [|o l IH]; [split; [discriminate|reflexivity]|].
  cbn [rev]. pose proof (handles_small (rev l)) as SM. unfold vrun in *. rewrite fold_left_app. cbn [fold_left]. set (w := fold_left vstep (rev l) v_start) in *. clearbody w.
  destruct IH as [O IH]. rewrite filter_app, app_length, <- IH. rewrite Forall_forall in SM. unfold own in *. clear own IH.
  destruct o as [u|u|u|u r d|f|]; cbn [vstep].
  - assert (GV : g_vector_exception_handler (installSignalHandlerForThread u w) = g_vector_exception_handler w).
    { unfold installSignalHandlerForThread. destruct (g_installed_thread_signal_handler w u); reflexivity. }
    destruct (install_rest u w) as [_ [V N]]. rewrite V, N, GV. split; [exact O|]. cbn [List.filter length]. lia.
  - unfold installCrashHandler_win. cbn [v_vectored v_next g_vector_exception_handler]. destruct (install_rest u w) as [_ [V N]]. rewrite V, N.
    split; [|rewrite filter_app, app_length; cbn [List.filter snd negb length]; lia].
    intros k K. injection K as <-. split; [lia|]. intros e I F. apply in_app_iff in I. destruct I as [I|[<-|[]]]; [|reflexivity].
    apply SM in I. lia.
  - change (v_next (restoreFatalHandlingToDefault_win u w)) with (v_next w).
    change (g_vector_exception_handler (restoreFatalHandlingToDefault_win u w)) with (g_vector_exception_handler w).
    destruct (restore_rest u w) as [_ [V _]]. rewrite V. unfold remove_vectored. destruct (g_vector_exception_handler w) as [k|].
    + destruct (O k eq_refl) as [K T]. split.
      * intros k' E. injection E as <-. split; [exact K|]. intros e I. apply filter_In in I. apply T. apply I.
      * cbn [List.filter length]. rewrite Nat.add_0_r. clear - T. induction (v_vectored w) as [|e r IH]; [reflexivity|].
        assert (R : forall e, In e r -> fst e = k -> snd e = true) by (intros; apply T; [now right|assumption]).
        specialize (IH R). pose proof (T e (or_introl eq_refl)) as Te. cbn [List.filter]. destruct (Nat.eqb_spec (fst e) k) as [Q|Q]; cbn [negb].
        -- rewrite (Te Q). cbn [negb]. exact IH.
        -- cbn [List.filter]. destruct (snd e); cbn [negb length]; [exact IH|]. now rewrite IH.
    + split; [discriminate|]. cbn [List.filter length]. lia.
  - split; [exact O|]. cbn [set_signal v_vectored List.filter length]. lia.
  - split; [exact O|]. cbn [v_vectored List.filter length]. lia.
  - cbn [v_vectored v_next g_vector_exception_handler]. split.
    + intros k K. destruct (O k K) as [L T]. split; [lia|]. intros e I F. apply in_app_iff in I. destruct I as [I|[<-|[]]]; [now apply T|]. cbn [fst] in F. lia.
    + rewrite filter_app, app_length. reflexivity.
Qed.
Print Assumptions C83_client_handlers_stay.
(** Refuted for two installations: the filter that is put back is g3log's own, and the first vectored handler stays. *)
Theorem C83_twice_refuted : exists w, w = vrun v_start [VFilter (FUser 7); VInstall 0; VInstall 0; VRestore 0; VRestore 0]%nat /\
  v_filter w = FG3log /\ v_vectored w = [(0%nat, true)].
Proof. eexists. split; [reflexivity|]. split; reflexivity. Qed.
Print Assumptions C83_twice_refuted.
(** Refuted for signals: a handler that the client had before is lost. *)
Theorem C83_signal_refuted : exists w, w = vrun v_start [VSignal 0 11 (User 3); VInstall 0; VRestore 0]%nat /\ handler_of w 0%nat 11 = Dfl.
Proof. eexists. split; reflexivity. Qed.
Print Assumptions C83_signal_refuted.
(** Refuted for other threads: their three per-thread signals still lead to g3log. *)
Theorem C83_thread_refuted : exists w, w = vrun v_start [VInstall 0; VLog 1; VRestore 0]%nat /\ handler_of w 1%nat 11 = G3log.
Proof. eexists. split; reflexivity. Qed.
Print Assumptions C83_thread_refuted.
Example C83_ex : let w := vrun v_start [VFilter (FUser 7); VVectored; VInstall 0; VVectored]%nat in
  v_vectored w = [(0, false); (1, true); (2, false)]%nat /\ v_filter w = FG3log /\ v_vectored (vstep w (VRestore 0%nat)) = [(0, false); (2, false)]%nat.
Proof. vm_compute. auto. Qed.

(** ** C84: how it ends *)
(** A fatal signal ends the process by that signal, whatever was installed. *)
Theorem C84_signal_kills : forall w t lv s n, value lv <> 2002 \/ text lv <> lit "FATAL_EXCEPTION" -> In (s, n) win_signals ->
  snd (exitWithDefaultSignalHandler_win t lv s w) = WKilled s.
Proof.
  intros w t lv s n L I. unfold exitWithDefaultSignalHandler_win.
  assert (LF : levelEq FATAL_EXCEPTION lv = false).
  { unfold levelEq. apply andb_false_iff. destruct L as [L|L].
    - left. apply Z.eqb_neq. cbn. congruence.
    - right. destruct (str_eqb (text FATAL_EXCEPTION) (text lv)) eqn:E; [|reflexivity]. apply str_eqb_eq in E. exfalso. apply L. symmetry. exact E. }
  rewrite LF, (five_win s n I), (restore_dfl t w s n I). reflexivity.
Qed.
Print Assumptions C84_signal_kills.
(** An exception lets the process go on, and lets the thread that waits for its end go on too. *)
Theorem C84_exception_continues : forall w t lv s, value lv = 2002 -> text lv = lit "FATAL_EXCEPTION" ->
  snd (exitWithDefaultSignalHandler_win t lv s w) = WReturns /\ g_block (fst (exitWithDefaultSignalHandler_win t lv s w)) = false.
Proof. intros w t lv s V T. unfold exitWithDefaultSignalHandler_win, levelEq. rewrite V, T. cbn. split; reflexivity. Qed.
Print Assumptions C84_exception_continues.
(** The vectored handler logs exactly the documented exceptions and leaves everything alone for the others; once it has
    logged one, g3log's latest vectored handler is gone. *)
Theorem C84_vectored : forall w t code,
  (In code (map fst documented) -> snd (vectorExceptionHandling t code w) = true /\
     forall k, g_vector_exception_handler w = Some k -> ~ In k (map fst (v_vectored (fst (vectorExceptionHandling t code w))))) /\
  (~ In code (map fst documented) -> vectorExceptionHandling t code w = (w, false)).
Proof.
  intros w t code. unfold vectorExceptionHandling. split; intro I.
  - apply C78_known in I. rewrite I. cbn [fst snd]. split; [reflexivity|]. intros k K J.
    destruct (restore_rest t w) as [_ [V _]]. rewrite V, K in J. cbn [remove_vectored] in J.
    apply in_map_iff in J. destruct J as [e [E J]]. apply filter_In in J. destruct J as [_ J]. subst k.
    rewrite Nat.eqb_refl in J. discriminate.
  - destruct (isKnownException code) eqn:E; [|reflexivity]. apply C78_known in E. contradiction.
Qed.
Print Assumptions C84_vectored.
(** The handler for unhandled exceptions logs every exception, after g3log's handlers are gone. *)
Theorem C84_unhandled : forall w t code, snd (unexpectedExceptionHandling t code w) = true /\
  forall k, g_vector_exception_handler w = Some k -> ~ In k (map fst (v_vectored (fst (unexpectedExceptionHandling t code w)))).
Proof.
  intros w t code. split; [reflexivity|]. cbn [unexpectedExceptionHandling fst]. intros k K J.
  destruct (restore_rest t w) as [_ [V _]]. rewrite V, K in J. cbn [remove_vectored] in J.
  apply in_map_iff in J. destruct J as [e [E J]]. apply filter_In in J. destruct J as [_ J]. subst k.
  rewrite Nat.eqb_refl in J. discriminate.
Qed.
Print Assumptions C84_unhandled.
(** A fatal message that carries a number which is none of the five signals does not end the process, and the
    thread that logged it goes on waiting. *)
Theorem C84_other : forall w t s, ~ In s (map fst win_signals) -> g_block w = true ->
  snd (exitWithDefaultSignalHandler_win t FATAL s w) = WReturns /\ g_block (fst (exitWithDefaultSignalHandler_win t FATAL s w)) = true.
Proof.
  intros w t s I B. unfold exitWithDefaultSignalHandler_win.
  change (levelEq FATAL_EXCEPTION FATAL) with false. cbn iota.
  assert (E : existsb (Z.eqb s) five_signals = false).
  { destruct (existsb (Z.eqb s) five_signals) eqn:E; [|reflexivity]. exfalso. apply I. apply existsb_exists in E.
    destruct E as [x [X Q]]. apply Z.eqb_eq in Q. subst x. unfold five_signals, WIN_SIGTERM, WIN_SIGABRT, WIN_SIGFPE, WIN_SIGSEGV, WIN_SIGILL in X.
    cbn [In map fst win_signals] in *. tauto. }
  rewrite E. cbn [fst snd]. destruct (restore_rest t w) as [_ [_ K]]. rewrite K. auto.
Qed.
Print Assumptions C84_other.
Theorem C84_refuted : exists w t s, snd (exitWithDefaultSignalHandler_win t FATAL s w) = WReturns /\
  g_block (fst (exitWithDefaultSignalHandler_win t FATAL s w)) = true.
Proof. exists v_start, 0%nat, 6. split; reflexivity. Qed.
Print Assumptions C84_refuted.
Example C84_ex : snd (exitWithDefaultSignalHandler_win 0 FATAL_SIGNAL 11 (vrun v_start [VInstall 0; VLog 1; VSignal 0 11 (User 1)]%nat)) = WKilled 11 /\
  snd (vectorExceptionHandling 0 3221225477 v_start) = true.
Proof. vm_compute. auto. Qed.
