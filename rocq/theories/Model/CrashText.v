(** The texts that the crash handlers write.
    Source: src/crashhandler_unix.cpp, src/crashhandler_windows.cpp.
    Numbers are printed in decimal (no client changes the formatting of a local stream). *)
From Coq Require Import Ascii String List ZArith NArith Bool.
From Verif.Base Require Import Bytes.
From Verif.Model Require Import Levels Message Capture Signals Windows.
Import ListNotations.
Local Open Scope list_scope.
Local Open Scope Z_scope.

(** crashhandler_unix.cpp:75-79: the text of the fatal message for a signal *)
Definition signal_text (signal_number pid si_errno si_code : Z) : str :=
  let fatal_reason := exitReasonName FATAL_SIGNAL signal_number in
  let s := lit "Received fatal signal: " ++ fatal_reason in
  let s := s ++ lit "(" ++ to_string signal_number ++ lit ")" ++ tab ++ lit "PID: " ++ to_string pid ++ nl in
  s ++ nl ++ lit "***** SIGNAL " ++ fatal_reason ++ lit "(signo= " ++ to_string signal_number ++ lit " si_errno= " ++
  to_string si_errno ++ lit " si_code = " ++ to_string si_code ++ lit ")" ++ nl.
(** crashhandler_unix.cpp:80-81: the capture that is destroyed at line 82 *)
Definition signal_capture (signal_number pid si_errno si_code : Z) (dump : str) : LogCapture :=
  stream (signal_LogCapture FATAL_SIGNAL signal_number dump) (signal_text signal_number pid si_errno si_code).

(** crashhandler_unix.cpp:231-233: what is left on stderr at the end ([__LINE__] is 232) *)
Definition exit_text (lv : LEVELS) (signal_number : Z) : str :=
  nl ++ nl ++ lit "exitWithDefaultSignalHandler" ++ lit ":" ++ to_string 232 ++ lit ". Exiting due to " ++ text lv ++ lit ", " ++
  to_string signal_number ++ lit "   " ++ nl ++ nl.

(** crashhandler_unix.cpp:299-303: what a restore writes that fails *)
Definition restore_error (strsignal : Z -> option str) (signal_number : Z) : str :=
  c_str (lit "sigaction - " ++ signalToStr strsignal signal_number).

(** crashhandler_windows.cpp:43-45 *)
Definition signal_text_win (signal_number pid : Z) : str :=
  nl ++ lit "***** Received fatal signal " ++ exitReasonName_win FATAL_SIGNAL signal_number ++
  lit "(" ++ to_string signal_number ++ lit ")" ++ tab ++ lit "PID: " ++ to_string pid ++ nl.
(** crashhandler_windows.cpp:66-69 *)
Definition exception_text_win (handler : str) (exception_code pid : Z) : str :=
  nl ++ lit "***** " ++ handler ++ lit ": Received fatal exception " ++ exitReasonName_win FATAL_EXCEPTION exception_code ++
  tab ++ lit "PID: " ++ to_string pid ++ nl.
