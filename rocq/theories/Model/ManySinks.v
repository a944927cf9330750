(** A worker with several file sinks: what each of them does to the files.
    Source: src/logworker.cpp:121-123, src/g3log/logworker.hpp:82, src/g3log/filesink.hpp:18.

    The worker and its sinks: Worker.v; the texts: EndToEnd.v; the common files: SharedDisk.v. *)
From Coq Require Import Ascii String List ZArith NArith Bool.
From Verif.Base Require Import Bytes.
From Verif.Model Require Import Levels TimeFmt Message FileSink EndToEnd SharedDisk.
From Verif.Model Require Worker.
Import ListNotations.
Local Open Scope list_scope.

(** the life of a file sink that has run the callbacks [k_got x]; filesink.cpp:17-112, active.hpp:38-41.
    [warn], [prog], [calls], [luck]: as in EndToEnd.v *)
Definition file_sink (e : env) (high : ascii -> bool) (log_prefix log_directory logger_id : str) (every : N) (now : Z) (r1 r2 : option nat)
    (warn : str) (prog : Worker.msg -> stmt) (calls : nat -> option op) (luck : nat -> Z * nat * nat) (tnow : Z) (kend : nat)
    (x : Worker.sink) : life :=
  mkLife e high log_prefix log_directory logger_id every now r1 r2 (ops_of warn prog calls luck 0 (Worker.k_got x)) (Some (tnow, kend)).

(** logworker.hpp:82: the third argument may be left out *)
Definition default_id (id : option str) : str := match id with Some i => i | None => lit "g3log" end.
(** filesink.hpp:18: the fourth argument, which addDefaultLogger leaves out *)
Definition default_every : N := 100.
(** logworker.cpp:121-122; the sink's call is FileSink::fileWrite, which is what EndToEnd.v runs for a message *)
Definition addDefaultLogger (e : env) (high : ascii -> bool) (log_prefix log_directory : str) (id : option str) (now : Z) (r1 r2 : option nat) :=
  file_sink e high log_prefix log_directory (default_id id) default_every now r1 r2.
