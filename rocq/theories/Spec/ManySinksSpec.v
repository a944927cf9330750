(** What the files of each sink should hold. *)
From Coq Require Import Ascii String List ZArith NArith Bool.
From Verif.Base Require Import Bytes.
From Verif.Model Require Import Levels TimeFmt Message FileSink EndToEnd SharedDisk.
From Verif.Model Require Worker.
From Verif.Spec Require Import TimeSpec MessageSpec EndToEndSpec RotationSpec SharedDiskSpec.
From Verif.Spec Require FileSinkSpec.
Import ListNotations.
Local Open Scope list_scope.

(** the constructor has opened this file *)
Definition begins (l : life) (i0 : nat) : Prop := l_r1 l = Some i0 \/ l_r1 l = None /\ l_r2 l = Some i0.
(** the sink [x] of a worker lives as [l] on the files: it could open its file, flushes at some interval, is asked for names, headers and
    new files only, each time a file that it has not used before, and its clock is sane *)
Definition lives (e : env) (warn : str) (prog : Worker.msg -> stmt) (x : Worker.sink) (l : life) (used : list nat) (tnow : Z) : Prop :=
  l_env l = e /\ (l_every l <> 0)%N /\
  exists calls luck kend i0, l_ops l = ops_of warn prog calls luck 0 (Worker.k_got x) /\ l_end l = Some (tnow, kend) /\
    begins l i0 /\ gentle e calls /\ sane e luck tnow /\ used = i0 :: changes calls (Worker.k_got x) /\ NoDup used.
(** in the files [used], in this order, stand the lines of the messages [ms], each in one file, once; besides them only headers, notices and
    at the end of the last file the closing line *)
Definition in_files (g : fsys) (e : env) (warn : str) (prog : Worker.msg -> stmt) (used : list nat) (tnow : Z) (ms : list Worker.msg) : Prop :=
  exists files last ps t, map fst (files ++ [(last, ps)]) = used /\
    Forall2 (fun m l => shows e warn (prog m) l) ms (concat (map (fun q => FileSinkSpec.entries (snd q)) (files ++ [(last, ps)]))) /\
    (forall j q, In (j, q) (files ++ [(last, ps)]) -> FileSinkSpec.notes_ok q) /\
    (forall j q, In (j, q) files -> g j = FileSinkSpec.bytes q) /\
    FileName.formatted (clock_of e) tnow time_formatted = FOk t /\ g last = FileSinkSpec.bytes ps ++ FileSinkSpec.closing_text t.
(** no client has or waits for the sink *)
Definition unheld (s : Worker.wstate) (k : nat) : Prop :=
  (forall j, ~ In k (Worker.c_hold (Worker.cl s j))) /\ forall j next, Worker.c_pc (Worker.cl s j) <> Worker.CJoin k next.
