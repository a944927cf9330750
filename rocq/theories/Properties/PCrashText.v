(** C85, C86: the texts of crash reports.  Model: Model/CrashText.v. *)
From Coq Require Import Ascii String List ZArith NArith Bool Lia.
From Verif.Base Require Import Bytes.
From Verif.Model Require Import Levels Message Capture Signals Windows CrashText.
From Verif.Proofs Require Import BytesFacts MessageFacts CaptureFacts.
From Verif.Properties Require Import PSignals PWindows.
Import ListNotations.
Local Open Scope list_scope.
Local Open Scope Z_scope.

(** ** C85 *)
Ltac not_in_lit := let I := fresh in intro I; cbn in I; repeat (destruct I as [I|I]; [discriminate I|]); exact I.
Lemma to_string_not : forall z c, is_digit c = false -> c <> "-"%char -> ~ In c (to_string z).
Proof. intros z c D M I. apply to_string_chars in I. destruct I as [I|I]; congruence. Qed.
Lemma reason_chars : forall s c, is_digit c = false -> c <> "-"%char ->
  ~ In c (lit "SIGABRT SIGFPE SIGSEGV SIGILL SIGTERM UNKNOWN SIGNAL() for FATAL_SIGNAL") -> ~ In c (exitReasonName FATAL_SIGNAL s).
Proof.
  intros s c D M N I. apply N. unfold exitReasonName in I.
  repeat match type of I with context [if ?b then _ else _] => destruct b end;
    try (cbn in I |- *; tauto).
  rewrite !in_app_iff in I. destruct I as [I|[I|[I|I]]].
  - cbn in I |- *. tauto.
  - exfalso. exact (to_string_not _ _ D M I).
  - cbn in I |- *. tauto.
  - cbn in I |- *. tauto.
Qed.

(** The report identifies the event: signal, process, si_errno and si_code can be read off it. *)
Theorem C85_signal_report : forall s pid e c s' pid' e' c',
  signal_text s pid e c = signal_text s' pid' e' c' -> s = s' /\ pid = pid' /\ e = e' /\ c = c'.
Proof.
  intros s pid e c s' pid' e' c' E. unfold signal_text in E. cbv zeta in E. rewrite <- !app_assoc in E.
  apply app_inv_head in E.
  (* up to the tab *)
  assert (P : forall x, ~ In TAB (exitReasonName FATAL_SIGNAL x ++ lit "(" ++ to_string x ++ lit ")")).
  { intros x I. rewrite !in_app_iff in I. destruct I as [I|[I|[I|I]]].
    - revert I. apply reason_chars; [reflexivity|discriminate|not_in_lit].
    - revert I. not_in_lit.
    - revert I. apply to_string_not; [reflexivity|discriminate].
    - revert I. not_in_lit. }
  assert (E1 : (exitReasonName FATAL_SIGNAL s ++ lit "(" ++ to_string s ++ lit ")") ++ TAB ::
     (lit "PID: " ++ to_string pid ++ nl ++ nl ++ lit "***** SIGNAL " ++ exitReasonName FATAL_SIGNAL s ++ lit "(signo= " ++ to_string s ++ lit " si_errno= " ++ to_string e ++ lit " si_code = " ++ to_string c ++ lit ")" ++ nl) =
     (exitReasonName FATAL_SIGNAL s' ++ lit "(" ++ to_string s' ++ lit ")") ++ TAB ::
     (lit "PID: " ++ to_string pid' ++ nl ++ nl ++ lit "***** SIGNAL " ++ exitReasonName FATAL_SIGNAL s' ++ lit "(signo= " ++ to_string s' ++ lit " si_errno= " ++ to_string e' ++ lit " si_code = " ++ to_string c' ++ lit ")" ++ nl)).
  { rewrite <- !app_assoc. exact E. }
  clear E. apply split_first in E1; [|apply P|apply P]. destruct E1 as [E1 E2].
  (* the number between the last brackets *)
  rewrite !app_assoc in E1. apply app_inv_tail in E1. rewrite <- !app_assoc in E1.
  apply (split_last "("%char) in E1; try (apply to_string_not; [reflexivity|discriminate]).
  destruct E1 as [_ E1]. apply to_string_inj in E1. subst s'.
  (* the rest *)
  apply app_inv_head in E2.
  apply (split_first NL) in E2; try (apply to_string_not; [reflexivity|discriminate]).
  destruct E2 as [E2 E3]. apply to_string_inj in E2. apply app_inv_head in E3. apply app_inv_head in E3.
  apply app_inv_head in E3. apply app_inv_head in E3. apply app_inv_head in E3. apply app_inv_head in E3.
  apply (split_first " "%char) in E3; try (apply to_string_not; [reflexivity|discriminate]).
  destruct E3 as [E3 E4]. apply to_string_inj in E3.
  apply (app_inv_head (lit "si_code = ")) in E4. rewrite !app_assoc in E4. apply app_inv_tail in E4. apply app_inv_tail in E4.
  apply to_string_inj in E4. auto.
Qed.
Print Assumptions C85_signal_report.
(** What it says, in order: an independent statement of the content for the five signals. *)
Theorem C85_signal_content : forall s n pid e c, In (s, n) five_names ->
  signal_text s pid e c =
    lit "Received fatal signal: " ++ n ++ lit "(" ++ to_string s ++ lit ")" ++ [TAB] ++ lit "PID: " ++ to_string pid ++ [NL; NL] ++
    lit "***** SIGNAL " ++ n ++ lit "(signo= " ++ to_string s ++ lit " si_errno= " ++ to_string e ++ lit " si_code = " ++ to_string c ++ lit ")" ++ [NL].
Proof.
  intros s n pid e c I. unfold signal_text. rewrite (C65_five FATAL_SIGNAL s n I). rewrite <- !app_assoc. reflexivity.
Qed.
Print Assumptions C85_signal_content.
(** and for all others *)
Theorem C85_signal_content_others : forall s pid e c, SignalsSpec.five s = false ->
  signal_text s pid e c =
    lit "Received fatal signal: UNKNOWN SIGNAL(" ++ to_string s ++ lit ") for FATAL_SIGNAL(" ++ to_string s ++ lit ")" ++ [TAB] ++ lit "PID: " ++ to_string pid ++ [NL; NL] ++
    lit "***** SIGNAL UNKNOWN SIGNAL(" ++ to_string s ++ lit ") for FATAL_SIGNAL(signo= " ++ to_string s ++ lit " si_errno= " ++ to_string e ++ lit " si_code = " ++ to_string c ++ lit ")" ++ [NL].
Proof.
  intros s pid e c F. unfold signal_text. rewrite (C65_others FATAL_SIGNAL s F). rewrite <- !app_assoc. reflexivity.
Qed.
Print Assumptions C85_signal_content_others.
(** It reaches the fatal path complete, with the signal and the stack dump. *)
Lemma signal_text_no_nul : forall s pid e c, ~ In NUL (signal_text s pid e c).
Proof.
  intros s pid e c I. unfold signal_text in I. cbv zeta in I. rewrite !in_app_iff in I.
  assert (T : forall z, ~ In NUL (to_string z)) by (intro; apply to_string_not; [reflexivity|discriminate]).
  assert (R : ~ In NUL (exitReasonName FATAL_SIGNAL s)) by (apply reason_chars; [reflexivity|discriminate|not_in_lit]).
  repeat match type of I with _ \/ _ => destruct I as [I|I] end;
    try (exact (T _ I)); try (exact (R I)); revert I; not_in_lit.
Qed.
Theorem C85_signal_handed_over : forall full now tid s pid e c dump d, ~ In NUL dump ->
  end_LogCapture full now tid (signal_capture s pid e c dump) = Some d ->
  exists m, d = ToFatal ([NL] ++ lit "*******" ++ [TAB] ++ lit "STACKDUMP *******" ++ [NL] ++ dump) m s /\
    _message m = signal_text s pid e c /\ _level m = FATAL_SIGNAL /\ _timestamp m = now /\ _call_thread_id m = tid /\
    _line m = 0%Z /\ _function m = [] /\ _expression m = [] /\ _file_path m = [] /\ _file m = [].
Proof.
  intros full now tid s pid e c dump d ND E. apply saveMessage_fields in E. cbv zeta in E.
  unfold signal_capture, signal_LogCapture in E. cbn [stream new_LogCapture c_stream c_stack_trace c_file c_line c_function c_level c_expression c_fatal_signal] in E.
  change (wasFatal FATAL_SIGNAL) with true in E. cbn iota in E. rewrite app_nil_l in E.
  set (trace := [NL] ++ lit "*******" ++ tab ++ lit "STACKDUMP *******" ++ nl ++ dump) in E.
  assert (NT : ~ In NUL trace).
  { unfold trace. intro I. rewrite !in_app_iff in I. repeat match type of I with _ \/ _ => destruct I as [I|I] end;
      try (exact (ND I)); revert I; not_in_lit. }
  rewrite !(proj1 (c_str_id _) NT), !(proj1 (c_str_id _) (signal_text_no_nul s pid e c)) in E.
  destruct E as (M & E1 & E2 & E3 & E4 & LV & TS & TI & E5 & E).
  exists (match d with ToLogger m => m | ToFatal _ m _ => m end).
  split; [exact E|]. split; [exact M|]. split; [rewrite LV; reflexivity|]. split; [exact TS|]. split; [exact TI|].
  split; [exact E3|]. split; [exact E4|]. split; [exact E5|]. split; [exact E1|]. clear - E2. destruct full; cbn in E2; now injection E2.
Qed.
Print Assumptions C85_signal_handed_over.
(** The last words on stderr identify level and signal. *)
Theorem C85_exit_text : forall lv lv' s s', exit_text lv s = exit_text lv' s' -> text lv = text lv' /\ s = s'.
Proof.
  intros lv lv' s s' E. unfold exit_text in E. do 6 apply app_inv_head in E.
  change (lit ", ") with ([","%char] ++ [" "%char]) in E. rewrite <- !app_assoc in E. cbn [app] in E.
  assert (P : forall x, ~ In ","%char (" "%char :: to_string x ++ lit "   " ++ nl ++ nl)).
  { intros x [I|I]; [discriminate|]. rewrite in_app_iff in I. destruct I as [I|I].
    - revert I. apply to_string_not; [reflexivity|discriminate].
    - revert I. not_in_lit. }
  apply (split_last ","%char) in E; [|apply P|apply P]. destruct E as [E1 E2]. split; [exact E1|].
  injection E2 as E2. apply app_inv_tail in E2. apply to_string_inj. exact E2.
Qed.
Print Assumptions C85_exit_text.
(** and are exactly these *)
Theorem C85_exit_content : forall lv s, exit_text lv s =
  [NL; NL] ++ lit "exitWithDefaultSignalHandler:232. Exiting due to " ++ text lv ++ lit ", " ++ to_string s ++ lit "   " ++ [NL; NL].
Proof. intros lv s. unfold exit_text. rewrite <- ?app_assoc. reflexivity. Qed.
Print Assumptions C85_exit_content.
(** A restore that fails names the signal in any case. *)
Theorem C85_restore_error : forall strsignal s,
  (forall n, strsignal s = Some n -> ~ In NUL n -> restore_error strsignal s = lit "sigaction - " ++ n) /\
  (strsignal s = None -> restore_error strsignal s = lit "sigaction - Unknown signal " ++ to_string s).
Proof.
  intros strsignal s. unfold restore_error, signalToStr. split.
  - intros n E N. rewrite E. apply c_str_id. intro I. rewrite in_app_iff in I. destruct I as [I|I]; [|exact (N I)]. revert I. not_in_lit.
  - intro E. rewrite E. rewrite (proj1 (c_str_id _)).
    + rewrite app_assoc. reflexivity.
    + intro I. rewrite !in_app_iff in I. destruct I as [I|[I|I]]; revert I; [not_in_lit|not_in_lit|apply to_string_not; [reflexivity|discriminate]].
Qed.
Print Assumptions C85_restore_error.
(** Windows *)
Theorem C85_windows_signal : forall s pid s' pid', signal_text_win s pid = signal_text_win s' pid' -> s = s' /\ pid = pid'.
Proof.
  intros s pid s' pid' E. unfold signal_text_win in E. do 2 apply app_inv_head in E.
  assert (P : forall x, ~ In TAB (to_string x ++ lit ")")).
  { intros x I. rewrite in_app_iff in I. destruct I as [I|I]; revert I; [apply to_string_not; [reflexivity|discriminate]|not_in_lit]. }
  assert (N : forall x, ~ In TAB (exitReasonName_win FATAL_SIGNAL x)).
  { intros x I. destruct (signal_cases FATAL_SIGNAL x eq_refl) as [[n [J Q]]|[_ Q]]; rewrite Q in I.
    - clear Q. cbn [WindowsSpec.win_signals In] in J.
      repeat (destruct J as [J|J]; [apply (f_equal snd) in J; cbn [snd] in J; subst n; revert I; not_in_lit|]). contradiction.
    - rewrite !in_app_iff in I. destruct I as [I|[I|I]]; revert I; [not_in_lit|apply to_string_not; [reflexivity|discriminate]|not_in_lit]. }
  assert (E1 : (exitReasonName_win FATAL_SIGNAL s ++ lit "(" ++ to_string s ++ lit ")") ++ TAB :: (lit "PID: " ++ to_string pid ++ nl) =
               (exitReasonName_win FATAL_SIGNAL s' ++ lit "(" ++ to_string s' ++ lit ")") ++ TAB :: (lit "PID: " ++ to_string pid' ++ nl)).
  { rewrite <- !app_assoc. exact E. }
  assert (P2 : forall x, ~ In TAB (exitReasonName_win FATAL_SIGNAL x ++ lit "(" ++ to_string x ++ lit ")")).
  { intros x I. rewrite in_app_iff in I. destruct I as [I|I]; [exact (N x I)|]. rewrite in_app_iff in I. destruct I as [I|I]; [revert I; not_in_lit|exact (P x I)]. }
  apply split_first in E1; [|apply P2|apply P2]. destruct E1 as [E1 E2].
  apply app_inv_head in E2. apply app_inv_tail in E2. apply to_string_inj in E2. split; [|exact E2].
  rewrite !app_assoc in E1. apply app_inv_tail in E1. rewrite <- !app_assoc in E1.
  apply (split_last "("%char) in E1; try (apply to_string_not; [reflexivity|discriminate]).
  apply to_string_inj. apply E1.
Qed.
Print Assumptions C85_windows_signal.
Theorem C85_windows_exception : forall h code pid code' pid',
  exception_text_win h code pid = exception_text_win h code' pid' -> code = code' /\ pid = pid'.
Proof.
  intros h code pid code' pid' E. unfold exception_text_win in E. do 4 apply app_inv_head in E.
  assert (N : forall x, ~ In TAB (exitReasonName_win FATAL_EXCEPTION x)).
  { intros x I. rewrite (C78_exit_exception FATAL_EXCEPTION x eq_refl eq_refl) in I.
    destruct (WindowsFacts.exception_cases x) as [[n [J [Q _]]]|[_ [Q _]]]; rewrite Q in I.
    - clear Q. unfold WindowsSpec.documented in J. cbn [map fst snd In] in J.
      repeat (destruct J as [J|J]; [apply (f_equal snd) in J; cbn [snd] in J; subst n; revert I; not_in_lit|]). contradiction.
    - rewrite in_app_iff in I. destruct I as [I|I]; revert I; [not_in_lit|apply to_string_not; [reflexivity|discriminate]]. }
  apply (split_first TAB) in E; [|apply N|apply N]. destruct E as [E1 E2].
  apply C78_exit_injective in E1. apply app_inv_head in E2. apply app_inv_tail in E2. apply to_string_inj in E2. auto.
Qed.
Print Assumptions C85_windows_exception.
(** what the two reports say *)
Theorem C85_windows_content : forall s n h code m pid, In (s, n) WindowsSpec.win_signals -> In (code, m) WindowsSpec.documented ->
  signal_text_win s pid = [NL] ++ lit "***** Received fatal signal " ++ n ++ lit "(" ++ to_string s ++ lit ")" ++ [TAB] ++ lit "PID: " ++ to_string pid ++ [NL] /\
  exception_text_win h code pid = [NL] ++ lit "***** " ++ h ++ lit ": Received fatal exception " ++ m ++ [TAB] ++ lit "PID: " ++ to_string pid ++ [NL].
Proof.
  intros s n h code m pid I J. unfold signal_text_win, exception_text_win. split.
  - replace (exitReasonName_win FATAL_SIGNAL s) with n; [reflexivity|].
    cbn [WindowsSpec.win_signals In] in I. repeat (destruct I as [I|I]; [injection I as <- <-; reflexivity|]). contradiction.
  - replace (exitReasonName_win FATAL_EXCEPTION code) with m; [reflexivity|].
    unfold WindowsSpec.documented in J. cbn [map fst snd In] in J. repeat (destruct J as [J|J]; [injection J as <- <-; reflexivity|]). contradiction.
Qed.
Print Assumptions C85_windows_content.
Example C85_ex : signal_text 11 4711 0 1 = lit "Received fatal signal: SIGSEGV(11)" ++ [TAB] ++ lit "PID: 4711" ++ [NL; NL] ++
    lit "***** SIGNAL SIGSEGV(signo= 11 si_errno= 0 si_code = 1)" ++ [NL] /\
  exit_text FATAL 6 = [NL; NL] ++ lit "exitWithDefaultSignalHandler:232. Exiting due to FATAL, 6   " ++ [NL; NL] /\
  restore_error (fun _ => None) 70 = lit "sigaction - Unknown signal 70" /\
  signal_text_win 11 4711 = [NL] ++ lit "***** Received fatal signal SIGSEGV(11)" ++ [TAB] ++ lit "PID: 4711" ++ [NL] /\
  exception_text_win (lit "Vectored Exception Handler") 3221225477 4711 =
    [NL] ++ lit "***** Vectored Exception Handler: Received fatal exception EXCEPTION_ACCESS_VIOLATION" ++ [TAB] ++ lit "PID: 4711" ++ [NL].
Proof. vm_compute. auto. Qed.

(** ** C86: a message made from an operating system's crash text *)
Theorem C86_crash_message : forall full now tid crash,
  exists m, new_LogMessage_crash full now tid crash = Some m /\ _message m = crash /\ _level m = FATAL_SIGNAL /\
    msg_wasFatal m = true /\ _timestamp m = now /\ _call_thread_id m = tid /\ _file m = [] /\ _file_path m = [] /\ _line m = 0 /\
    _function m = [] /\ _expression m = [].
Proof. intros [|] now tid crash; (eexists; split; [reflexivity|]); repeat split. Qed.
Print Assumptions C86_crash_message.
Example C86_ex : option_map _message (new_LogMessage_crash false 5 1 (lit "SIGSEGV at 0")) = Some (lit "SIGSEGV at 0").
Proof. reflexivity. Qed.
