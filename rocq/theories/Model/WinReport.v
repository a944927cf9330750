(** A fatal event on Windows, from the handler to the message that the sinks get.
    Source: src/crashhandler_windows.cpp:39-81, 115-153, src/stacktrace_windows.cpp:149-161, src/logcapture.cpp:43-73, src/g3log.cpp:143-184,
    src/logmessage.cpp:177-191, src/logworker.cpp:38-61.

    The number of a signal or exception is a g3::SignalType, on Windows an unsigned long of 32 bits (crashhandler.hpp:32); saveMessage
    and saveFatalMessage take it as an int (g3log.hpp:107, 109), FatalMessage is a SignalType again.  Exception codes do not fit an int.
    Simplified: as Model/EndToEnd.v; pre-fatal hooks and the text of a recursive crash are the parameter [warn] (C24). *)
From Coq Require Import Ascii String List ZArith NArith Bool.
From Verif.Base Require Import Bytes.
From Verif.Model Require Import Levels Message Capture Global EndToEnd Windows CrashText.
Import ListNotations.
Local Open Scope list_scope.
Local Open Scope Z_scope.

(** conversion to g3::SignalType; crashhandler.hpp:32 *)
Definition to_SignalType (z : Z) : Z := z mod 4294967296.

(** crashhandler_windows.cpp:118-124.  [dump]: what the caller gives, None = null pointer; [fresh]: what stacktrace::stackdump() gives here
    (stacktrace_windows.cpp:150-155) *)
Definition stackdump_win (fresh : str) (dump : option str) : str :=
  match dump with
  | Some (c :: r) => c :: r
  | _ => fresh
  end.

(** crashhandler_windows.cpp:39-60.  [dump]: stacktrace::stackdump() of line 41, [fresh]: a second one, taken by the LogCapture *)
Definition signal_stmt (signal_number pid : Z) (dump fresh : str) (now tid : Z) : stmt :=
  mkStmt [] 0 [] FATAL_SIGNAL [] (to_SignalType signal_number) [signal_text_win signal_number pid] now tid (stackdump_win fresh (Some (c_str dump))).
(** crashhandler_windows.cpp:63-81; [dump]: stacktrace::stackdump(info) of line 64, from the context of the exception *)
Definition exception_stmt (handler : str) (exception_code pid : Z) (dump fresh : str) (now tid : Z) : stmt :=
  mkStmt [] 0 [] FATAL_EXCEPTION [] exception_code [exception_text_win handler exception_code pid] now tid (stackdump_win fresh (Some (c_str dump))).
(** LOG(FATAL) and CHECK take their own dump; logcapture.cpp:60-73 with dump = nullptr *)
Definition macro_stmt (file : str) (line : Z) (function : str) (lv : LEVELS) (expression : str) (texts : list str) (fresh : str) (now tid : Z) : stmt :=
  mkStmt file line function lv expression WIN_SIGABRT texts now tid (stackdump_win fresh None).

(** logmessage.cpp:189-191 with the Windows exitReasonName *)
Definition reason_win (f : FatalMessage) : str := exitReasonName_win (_level (f_msg f)) (_signal_id f).
(** logworker.cpp:38-61 *)
Definition bgFatal_message_win (f : FatalMessage) : LogMessage :=
  let reason := reason_win f in
  let m1 := write_append (f_msg f) ([NL] ++ lit "Exiting after fatal event  (" ++ msg_level (f_msg f)) in
  copyMsg (write_append m1 (lit "). " ++ lit "Fatal type: " ++ lit " " ++ reason ++ nl ++
                            lit "Log content flushed successfully to sink" ++ [NL; NL])).

(** the FatalMessage that a statement leads to, None: it is not fatal; logcapture.cpp:46 passes _fatal_signal as an int, g3log.cpp:178 as a SignalType *)
Definition fatal_of (warn : str) (st : stmt) : option FatalMessage :=
  match execute (mkStmt (st_file st) (st_line st) (st_function st) (st_level st) (st_expression st) (to_int (Z.to_N (st_signal st))) (st_texts st)
                        (st_now st) (st_thread st) (st_dump st)) with
  | Some (ToFatal trace m sig) => Some (new_FatalMessage (write_append (write_append m trace) warn) (to_SignalType sig))
  | _ => None
  end.
(** what every sink gets, and what exitWithDefaultSignalHandler is called with afterwards; logworker.cpp:43-64 *)
Definition fatal_win (warn : str) (st : stmt) : option (LogMessage * (LEVELS * Z)) :=
  match fatal_of warn st with
  | Some f => Some (delivered (bgFatal_message_win f), (_level (f_msg f), _signal_id f))
  | None => None
  end.
