(** From the LOG statement to the bytes in the log file: composition of the models of LogCapture and saveMessage
    (Model/Capture.v), of the fatal message (Model/Global.v), of the worker and its sinks (Model/Worker.v) and of the
    file sink (Model/FileSink.v).

    Model/Worker.v names a message by the client and the number of its log call; here a program says what that log call is.
    The global variables of g3log.cpp are those of Model/Worker.v; the text that saveFatalMessage adds when it is not the first
    fatal event (g3log.cpp:170-176, Model/Global.v, C24) is a parameter. *)
From Coq Require Import Ascii String List ZArith NArith Bool.
From Verif.Base Require Import Bytes.
From Verif.Model Require Import Levels Message Capture Global FileSink.
From Verif.Model Require Worker.
Import ListNotations.
Local Open Scope list_scope.

(** one LOG or CHECK statement, or one signal: the arguments of the LogCapture constructor (logcapture.hpp:30, 38), what is streamed into it,
    and what it finds: clock, thread and stack dump *)
Record stmt := mkStmt {
  st_file : str;
  st_line : Z;
  st_function : str;
  st_level : LEVELS;
  st_expression : str;
  st_signal : Z;
  st_texts : list str;
  st_now : Z;
  st_thread : Z;
  st_dump : str
}.

(** the statement from the constructor to the destructor of its LogCapture: logcapture.cpp:43-47, 60-73, g3log.cpp:143-155;
    G3_LOG_FULL_FILENAME is not defined *)
Definition execute (st : stmt) : option dispatch :=
  end_LogCapture false (st_now st) (st_thread st)
    (fold_left Capture.stream (st_texts st)
       (new_LogCapture (st_file st) (st_line st) (st_function st) (st_level st) (st_expression st) (st_signal st) (st_dump st))).

(** the copy that one sink gets (logworker.cpp:27-28, sink.hpp:64-66); what is left in the moved-from strings does not matter *)
Definition delivered (m : LogMessage) : LogMessage := fst (moveMsg (fun s => s) (copyMsg m)).

(** what a statement sends to every sink; saveFatalMessage appends the stack trace, and [warn] if it is not the first fatal event
    (g3log.cpp:168-178); bgFatal: logworker.cpp:38-61 *)
Definition content (warn : str) (st : stmt) : option LogMessage :=
  match execute st with
  | None => None
  | Some (ToLogger m) => Some (delivered m)
  | Some (ToFatal trace m sig) =>
      Some (delivered (bgFatal_message (new_FatalMessage (write_append (write_append m trace) warn) sig)))
  end.

(** the calls that a file sink's thread makes for the callbacks it has taken (active.hpp:38-41, sink.hpp:47, 66, 72).
    [calls c]: what handle call number c does to the sink, None: nothing, as fileName() (filesink.cpp:102-104).
    [luck p]: clock reading and stream behaviour at callback number p.  A message is printed by FileSink::fileWrite (filesink.cpp:57-70) *)
Fixpoint ops_of (warn : str) (prog : Worker.msg -> stmt) (calls : nat -> option op) (luck : nat -> Z * nat * nat) (p : nat) (got : list Worker.sjob) : list op :=
  match got with
  | [] => []
  | j :: r =>
      match j with
      | Worker.JMsg m =>
          match content warn (prog m) with
          | Some lm => [ORecv lm (fst (fst (luck p))) (snd (fst (luck p))) (snd (luck p))]
          | None => []
          end
      | Worker.JCall c => match calls c with Some o => [o] | None => [] end
      | Worker.JDone => []
      end ++ ops_of warn prog calls luck (S p) r
  end.

(** the file sink number k of the worker, from its creation (result [w]) to its destruction; filesink.cpp:17-54 *)
Definition sink_files (e : env) (warn : str) (prog : Worker.msg -> stmt) (calls : nat -> option op) (luck : nat -> Z * nat * nat)
    (w : FileSink * disk) (tnow : Z) (kend : nat) (x : Worker.sink) : out fsys :=
  obind (ops_run e w (ops_of warn prog calls luck 0 (Worker.k_got x))) (fun w' => destroy e w' tnow kend).
