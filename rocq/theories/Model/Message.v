(** LogMessage and its renderings.
    Source: src/g3log/logmessage.hpp, src/logmessage.cpp.

    Simplifications: a formatting function pointer is a name ([LogDetailsFunc]) that the
    environment maps to its behaviour; a thread id is an integer whose printed form the
    environment supplies.  Function pointers are never null here. *)
From Coq Require Import Ascii String List ZArith NArith Bool.
From Verif.Base Require Import Bytes.
From Verif.Model Require Import Levels TimeFmt.
Import ListNotations.
Local Open Scope list_scope.

(** logmessage.hpp:97 using LogDetailsFunc = std::string ( * )(const LogMessage&) :
    the two functions the library provides, or the n-th function of the client *)
Inductive LogDetailsFunc := DefaultDetails | FullDetails | UserDetails (n : nat).

(** logmessage.hpp:106-115: the data members *)
Record LogMessage := mkMsg {
  _logDetailsToStringFunc : LogDetailsFunc;
  _timestamp : Z;              (* high_resolution_clock, ns *)
  _call_thread_id : Z;
  _file : str;
  _file_path : str;
  _line : Z;
  _function : str;
  _level : LEVELS;
  _expression : str;
  _message : str
}.

(** What the rendering functions take from outside the message: build flavour, C library,
    time zone, the reference clock readings of to_system_time (static, read once), the
    printed form of thread ids and the client's formatting functions.  Read in logmessage.cpp:110-112, 171-175, time.hpp:72-76 *)
Record env := mkEnv {
  e_debug : bool;
  e_ext : ascii -> tm -> str;
  e_local : Z -> tm;
  e_sys_now : Z;
  e_hrs_now : Z;
  e_thread : Z -> str;
  e_user : nat -> LogMessage -> fres
}.

(** a + b for results that may be an exception; helper of this model, no source of its own *)
Definition fbind (r : fres) (k : str -> fres) : fres :=
  match r with FOk s => k s | e => e end.

(** logmessage.hpp:32-64: accessors *)
Definition msg_file_path (m : LogMessage) : str := _file_path m.
(** logmessage.hpp:35-37 *)
Definition msg_file (m : LogMessage) : str := _file m.
(** logmessage.hpp:38-40 *)
Definition msg_line (m : LogMessage) : str := to_string (_line m).
(** logmessage.hpp:41-43 *)
Definition msg_function (m : LogMessage) : str := _function m.
(** logmessage.hpp:44-46 *)
Definition msg_level (m : LogMessage) : str := text (_level m).
(** logmessage.hpp:52-54 *)
Definition msg_message (m : LogMessage) : str := _message m.
(** logmessage.hpp:59-61 *)
Definition msg_expression (m : LogMessage) : str := _expression m.
(** logmessage.hpp:62-64 *)
Definition msg_wasFatal (m : LogMessage) : bool := wasFatal (_level m).

(** logmessage.cpp:110-112 (clock ticks of 1 ns as in libstdc++) *)
Definition timestamp (e : env) (m : LogMessage) (time_look : str) : fres :=
  localtime_formatted (e_debug e) (e_ext e) (e_local e)
    (to_system_time 1 (e_sys_now e) (e_hrs_now e) (_timestamp m)) time_look.

(** logmessage.cpp:171-175 *)
Definition threadID (e : env) (m : LogMessage) : str := e_thread e (_call_thread_id m).

(** logmessage.cpp:16-20; found + 1 is size_t arithmetic; None = substr throws *)
Definition splitFileName (s : str) : option str :=
  let found := find_last_of s (lit "(/\") in
  substr s (sz (found + 1)) npos.

(** logmessage.cpp:53-57 *)
Definition DefaultLogDetailsToString (e : env) (m : LogMessage) : fres :=
  fbind (timestamp e m default_timestamp_format) (fun t =>
  FOk (t ++ tab ++ msg_level m ++ lit " [" ++ msg_file m ++ lit "->" ++ msg_function m ++ lit ":" ++
       msg_line m ++ lit "]" ++ tab)).

(** logmessage.cpp:59-63 *)
Definition FullLogDetailsToString (e : env) (m : LogMessage) : fres :=
  fbind (timestamp e m default_timestamp_format) (fun t =>
  FOk (t ++ tab ++ msg_level m ++ lit " [" ++ threadID e m ++ lit " " ++ msg_file m ++ lit "->" ++
       msg_function m ++ lit ":" ++ msg_line m ++ lit "]" ++ tab)).

(** calling through the function pointer; logmessage.cpp:38, 46, 67, 102 *)
Definition call_details (e : env) (f : LogDetailsFunc) (m : LogMessage) : fres :=
  match f with
  | DefaultDetails => DefaultLogDetailsToString e m
  | FullDetails => FullLogDetailsToString e m
  | UserDetails n => e_user e n m
  end.

(** logmessage.cpp:23-27 *)
Definition fatalSignalToString (e : env) (m : LogMessage) : fres :=
  fbind (timestamp e m default_timestamp_format) (fun t =>
  FOk (t ++ nl ++ nl ++ lit "***** FATAL SIGNAL RECEIVED ******* " ++ nl ++ msg_message m ++ nl)).

(** logmessage.cpp:30-34 *)
Definition fatalExceptionToString (e : env) (m : LogMessage) : fres :=
  fbind (timestamp e m default_timestamp_format) (fun t =>
  FOk (t ++ nl ++ nl ++ lit "***** FATAL EXCEPTION RECEIVED ******* " ++ nl ++ msg_message m ++ nl)).

(** logmessage.cpp:37-42 *)
Definition fatalLogToString (e : env) (m : LogMessage) : fres :=
  fbind (call_details e (_logDetailsToStringFunc m) m) (fun out =>
  FOk (out ++ nl ++ tab ++ lit "*******" ++ tab ++ lit " " ++
       lit "EXIT trigger caused by LOG(FATAL) entry: " ++ nl ++ tab ++ dq ++ msg_message m ++ dq)).

(** logmessage.cpp:45-50 *)
Definition fatalCheckToString (e : env) (m : LogMessage) : fres :=
  fbind (call_details e (_logDetailsToStringFunc m) m) (fun out =>
  FOk (out ++ nl ++ tab ++ lit "*******" ++ tab ++ lit " " ++
       lit "EXIT trigger caused by broken Contract:" ++ lit " CHECK(" ++ msg_expression m ++ lit ")" ++
       nl ++ tab ++ dq ++ msg_message m ++ dq)).

(** logmessage.cpp:66-70 *)
Definition normalToString (e : env) (m : LogMessage) : fres :=
  fbind (call_details e (_logDetailsToStringFunc m) m) (fun out =>
  FOk (out ++ msg_message m ++ nl)).

(** logmessage.cpp:74-76: the member is mutable, so the const message changes *)
Definition overrideLogDetailsFunc (m : LogMessage) (f : LogDetailsFunc) : LogMessage :=
  mkMsg f (_timestamp m) (_call_thread_id m) (_file m) (_file_path m) (_line m) (_function m)
        (_level m) (_expression m) (_message m).

(** logmessage.cpp:79-108: the text and the message afterwards *)
Definition toString_with (e : env) (m0 : LogMessage) (formattingFunc : LogDetailsFunc) : LogMessage * fres :=
  let m := overrideLogDetailsFunc m0 formattingFunc in
  (m,
   if negb (msg_wasFatal m) then normalToString e m
   else if (value FATAL_SIGNAL =? value (_level m))%Z then fatalSignalToString e m
   else if (value FATAL_EXCEPTION =? value (_level m))%Z then fatalExceptionToString e m
   else if (value FATAL =? value (_level m))%Z then fatalLogToString e m
   else if (value CONTRACT =? value (_level m))%Z then fatalCheckToString e m
   else
     fbind (call_details e (_logDetailsToStringFunc m) m) (fun out =>
     FOk (out ++ tab ++ lit "*******" ++ lit "UNKNOWN or Custom made Log Message Type" ++ nl ++ tab ++
          msg_message m ++ nl))).

(** logmessage.hpp:98: the default argument *)
Definition toString (e : env) (m : LogMessage) : LogMessage * fres := toString_with e m DefaultDetails.

(** logmessage.cpp:121-138; [full] = G3_LOG_FULL_FILENAME is defined.  [now] and [tid] are
    high_resolution_clock::now() and this_thread::get_id().  The level is copied twice (by-value
    parameter, member).  None = splitFileName throws (shown impossible). *)
Definition new_LogMessage (full : bool) (now tid : Z) (file : str) (line : Z) (function : str) (lv : LEVELS)
  : option LogMessage :=
  let f := if full then Some file else splitFileName file in
  match f with
  | None => None
  | Some f => Some (mkMsg DefaultDetails now tid f file line function (copyLevel (copyLevel lv)) [] [])
  end.

(** logmessage.cpp:140-143: constructor for crash messages of the OS signal handler *)
Definition new_LogMessage_crash (full : bool) (now tid : Z) (crash : str) : option LogMessage :=
  option_map (fun m => mkMsg (_logDetailsToStringFunc m) (_timestamp m) (_call_thread_id m) (_file m)
                 (_file_path m) (_line m) (_function m) (_level m) (_expression m) (_message m ++ crash))
    (new_LogMessage full now tid [] 0 [] FATAL_SIGNAL).

(** logmessage.hpp:68-70 *)
Definition setExpression (m : LogMessage) (x : str) : LogMessage :=
  mkMsg (_logDetailsToStringFunc m) (_timestamp m) (_call_thread_id m) (_file m) (_file_path m) (_line m)
        (_function m) (_level m) x (_message m).

(** logmessage.hpp:55-57: write() hands out a reference to the text; the callers append to it *)
Definition write_append (m : LogMessage) (t : str) : LogMessage :=
  mkMsg (_logDetailsToStringFunc m) (_timestamp m) (_call_thread_id m) (_file m) (_file_path m) (_line m)
        (_function m) (_level m) (_expression m) (_message m ++ t).

(** logmessage.cpp:145-156: copy constructor *)
Definition copyMsg (m : LogMessage) : LogMessage :=
  mkMsg (_logDetailsToStringFunc m) (_timestamp m) (_call_thread_id m) (_file m) (_file_path m) (_line m)
        (_function m) (copyLevel (_level m)) (_expression m) (_message m).

(** logmessage.cpp:158-169: move constructor; the new message and what is left of the source.
    The library leaves moved-from strings in an unspecified state, given by [left]. *)
Definition moveMsg (left : str -> str) (m : LogMessage) : LogMessage * LogMessage :=
  (mkMsg (_logDetailsToStringFunc m) (_timestamp m) (_call_thread_id m) (_file m) (_file_path m) (_line m)
         (_function m) (copyLevel (_level m)) (_expression m) (_message m),
   mkMsg (_logDetailsToStringFunc m) (_timestamp m) (_call_thread_id m) (left (_file m)) (left (_file_path m))
         (_line m) (left (_function m)) (_level m) (left (_expression m)) (left (_message m))).

(** logmessage.hpp:117-127: neither _file_path nor _logDetailsToStringFunc is exchanged *)
Definition swapMsg (a b : LogMessage) : LogMessage * LogMessage :=
  (mkMsg (_logDetailsToStringFunc a) (_timestamp b) (_call_thread_id b) (_file b) (_file_path a) (_line b)
         (_function b) (_level b) (_expression b) (_message b),
   mkMsg (_logDetailsToStringFunc b) (_timestamp a) (_call_thread_id a) (_file a) (_file_path b) (_line a)
         (_function a) (_level a) (_expression a) (_message a)).

(** logmessage.cpp:116-119: the parameter is a copy of the right-hand side; the result is
    the assigned-to message (the right-hand side itself is not touched) *)
Definition assignMsg (this other : LogMessage) : LogMessage := fst (swapMsg this (copyMsg other)).

(** logmessage.hpp:133-143, logmessage.cpp:177-187 *)
Record FatalMessage := mkFatal { f_msg : LogMessage; _signal_id : Z }.
(** logmessage.cpp:177-179 *)
Definition new_FatalMessage (details : LogMessage) (signal_id : Z) : FatalMessage :=
  mkFatal (copyMsg details) signal_id.
(** logmessage.cpp:181-183 *)
Definition copyFatal (f : FatalMessage) : FatalMessage := mkFatal (copyMsg (f_msg f)) (_signal_id f).
(** logmessage.cpp:185-187 *)
Definition copyToLogMessage (f : FatalMessage) : LogMessage := copyMsg (f_msg f).

(** crashhandler_unix.cpp:193-217 (Linux signal numbers) *)
Definition SIGILL : Z := 4.
(** signal.h of Linux *)
Definition SIGABRT : Z := 6.
(** signal.h of Linux *)
Definition SIGFPE : Z := 8.
(** signal.h of Linux *)
Definition SIGSEGV : Z := 11.
(** signal.h of Linux *)
Definition SIGTERM : Z := 15.
(** crashhandler_unix.cpp:193-217 *)
Definition exitReasonName (lv : LEVELS) (fatal_id : Z) : str :=
  if (fatal_id =? SIGABRT)%Z then lit "SIGABRT"
  else if (fatal_id =? SIGFPE)%Z then lit "SIGFPE"
  else if (fatal_id =? SIGSEGV)%Z then lit "SIGSEGV"
  else if (fatal_id =? SIGILL)%Z then lit "SIGILL"
  else if (fatal_id =? SIGTERM)%Z then lit "SIGTERM"
  else lit "UNKNOWN SIGNAL(" ++ to_string fatal_id ++ lit ") for " ++ text lv.

(** logmessage.cpp:189-191 *)
Definition reason (f : FatalMessage) : str := exitReasonName (_level (f_msg f)) (_signal_id f).
