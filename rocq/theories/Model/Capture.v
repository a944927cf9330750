(** LogCapture: collecting the text of one LOG / CHECK statement and handing it over.
    Source: src/g3log/logcapture.hpp, src/logcapture.cpp, g3log.cpp:143-155 (saveMessage).

    [const char*] arguments are byte strings; a consumer of a [const char*] sees the bytes
    before the first NUL ([c_str]).  The printf machinery is external: [res] is the outcome
    of expanding the format, [None] for an encoding error, [Some t] for the complete
    expansion t (of any length, possibly with NUL bytes from %c). *)
From Coq Require Import Ascii String List ZArith NArith Bool.
From Verif.Base Require Import Bytes.
From Verif.Model Require Import Levels TimeFmt Message.
Import ListNotations.
Local Open Scope list_scope.

(** logcapture.hpp:66-74: the members of LogCapture *)
Record LogCapture := mkCap {
  c_stream : str;
  c_stack_trace : str;
  c_file : str;
  c_line : Z;
  c_function : str;
  c_level : LEVELS;
  c_expression : str;
  c_fatal_signal : Z
}.

(** logcapture.cpp:60-73; [dump] is the text returned by stackdump(dump) *)
Definition new_LogCapture (file : str) (line : Z) (function : str) (lv : LEVELS) (expression : str)
    (fatal_signal : Z) (dump : str) : LogCapture :=
  mkCap [] (if wasFatal lv then [NL] ++ lit "*******" ++ tab ++ lit "STACKDUMP *******" ++ nl ++ dump else [])
        file line function lv expression fatal_signal.

(** g3log.hpp:140 and the default arguments of the constructor (logcapture.hpp:38) *)
Definition INTERNAL_LOG_MESSAGE (file : str) (line : Z) (function : str) (lv : LEVELS) (dump : str) : LogCapture :=
  new_LogCapture file line function lv [] SIGABRT dump.
(** g3log.hpp:142-143 *)
Definition INTERNAL_CONTRACT_MESSAGE (file : str) (line : Z) (function expression dump : str) : LogCapture :=
  new_LogCapture file line function CONTRACT expression SIGABRT dump.
(** logcapture.cpp:50-52 *)
Definition signal_LogCapture (lv : LEVELS) (fatal_signal : Z) (dump : str) : LogCapture :=
  new_LogCapture [] 0 [] lv [] fatal_signal dump.

(** logcapture.hpp:62-64 stream(): text streamed into it is appended *)
Definition stream (c : LogCapture) (t : str) : LogCapture :=
  mkCap (c_stream c ++ t) (c_stack_trace c) (c_file c) (c_line c) (c_function c) (c_level c) (c_expression c)
        (c_fatal_signal c).

(** limits.h, int of 32 bits *)
Definition INT_MAX : Z := 2147483647.
(** conversion of a size_t to int: modulo 2^32 (what the supported compilers do) *)
Definition to_int (n : N) : Z :=
  let r := Z.of_N (n mod 4294967296)%N in if (r <=? INT_MAX)%Z then r else (r - 4294967296)%Z.

(** logcapture.cpp:31-35 (G3_DYNAMIC_MAX_MESSAGE_SIZE): MaxMessageSize is an int *)
Definition MaxMessageSize_default : Z := 2048.
(** logcapture.cpp:33-35 *)
Definition setMaxMessageSize (max_size : N) : Z := to_int max_size.

(** vsnprintf(buf, n, ...) (ISO C): return value, and the string then found in buf (n > 0).
    The result does not fit an int above INT_MAX: the call fails. *)
Definition vsnprintf (n : Z) (res : option str) : Z * str :=
  match res with
  | None => ((-1)%Z, [])
  | Some t =>
      if (INT_MAX <? Z.of_nat (length t))%Z then ((-1)%Z, [])
      else (Z.of_nat (length t), c_str (firstn (Z.to_nat (n - 1)) t))
  end.

(** outcomes of logcapture.cpp:79-113 *)
Inductive cap_result :=
| CapOk (c : LogCapture)
| CapThrow                 (* std::vector<char>(negative): length_error *)
| CapUB.                   (* stream << finished_message with a null pointer *)

(** logcapture.cpp:80 *)
Definition kTruncatedWarningText : str := lit "[...truncated...]".

(** logcapture.cpp:79-113; [max] is finished_message_len: MaxMessageSize, or the constant 2048
    when G3_DYNAMIC_MAX_MESSAGE_SIZE is not defined *)
Definition capturef (max : Z) (c : LogCapture) (printf_like_message : str) (res : option str) : cap_result :=
  if (max <? 0)%Z then CapThrow
  else
    let (nbrcharacters, finished_message) := vsnprintf max res in
    if (nbrcharacters <? 0)%Z then
      CapOk (stream (stream c ([NL; TAB] ++
               lit "ERROR LOG MSG NOTIFICATION: Failure to successfully parse the message"))
               (dq ++ c_str printf_like_message ++ dq ++ nl))
    else if (max =? 0)%Z then CapUB
    else if (max <? nbrcharacters)%Z then CapOk (stream c (finished_message ++ kTruncatedWarningText))
    else CapOk (stream c finished_message).

(** What saveMessage does with a message: a fatal one goes to saveFatalMessage(stack_trace, message,
    fatal_signal), any other to pushMessageToLogger(message).  g3log.cpp:150-154 *)
Inductive dispatch :=
| ToLogger (m : LogMessage)
| ToFatal (stack_trace : str) (m : LogMessage) (fatal_signal : Z).

(** g3log.cpp:143-155; None = the LogMessage constructor throws (shown impossible) *)
Definition saveMessage (full : bool) (now tid : Z) (entry file : str) (line : Z) (function : str) (lv : LEVELS)
    (boolean_expression : str) (fatal_signal : Z) (stack_trace : str) : option dispatch :=
  let msgLevel := copyLevel lv in
  match new_LogMessage full now tid (c_str file) line (c_str function) msgLevel with
  | None => None
  | Some m0 =>
      let m := setExpression (write_append m0 (c_str entry)) (c_str boolean_expression) in
      Some (if wasFatal lv then ToFatal (c_str stack_trace) m fatal_signal else ToLogger m)
  end.

(** logcapture.cpp:43-47: the destructor hands over what was collected *)
Definition end_LogCapture (full : bool) (now tid : Z) (c : LogCapture) : option dispatch :=
  saveMessage full now tid (c_str (c_stream c)) (c_file c) (c_line c) (c_function c) (c_level c)
    (c_expression c) (c_fatal_signal c) (c_str (c_stack_trace c)).
