(** Several file sinks over the same files.
    Source: src/filesink.cpp, src/filesinkhelper.ipp:100-123; each sink has a thread of its own (src/g3log/sinkwrapper.hpp,
    src/g3log/active.hpp), and other processes may have sinks too.

    Each sink has its own streams, the files are common to all.  Sinks take turns between any two accesses to the
    files: a schedule is any sequence of accesses, each with the number of the sink that makes it.  One access
    ([micro] of FileSink.v) is indivisible here; a write that the stream hands to the file in several portions can be
    written as several accesses. *)
From Coq Require Import Ascii String List ZArith NArith Bool.
From Verif.Base Require Import Bytes.
From Verif.Model Require Import Levels TimeFmt Message FileName FileSink.
Import ListNotations.
Local Open Scope list_scope.

(** the files, and for each sink its _outptr (filesink.hpp:31) and the stream it has just opened (filesink.cpp:79,
    filesinkhelper.ipp:116) *)
Record world := mkWorld { w_fs : fsys; w_out : nat -> option stream; w_new : nat -> option stream }.
(** before the first sink; helper of this model, no source of its own *)
Definition start (f : fsys) : world := mkWorld f (fun _ => None) (fun _ => None).

(** helper of this model, no source of its own *)
Definition put (g : nat -> option stream) (n : nat) (s : option stream) : nat -> option stream :=
  fun m => if Nat.eqb m n then s else g m.

(** one access of one sink: it sees the common files and its own streams; None = use of a null stream pointer.
    filesinkhelper.ipp:100-123, filesink.cpp:50, 67, 81, 90, 95, 98, 115 *)
Definition wstep (w : world) (a : nat * micro) : option world :=
  let (n, m) := a in
  match mstep (mkDisk (w_fs w) (w_out w n) (w_new w n)) m with
  | None => None
  | Some d => Some (mkWorld (d_fs d) (put (w_out w) n (d_out d)) (put (w_new w) n (d_new d)))
  end.
(** helper of this model, no source of its own *)
Fixpoint wrun (w : world) (sched : list (nat * micro)) : option world :=
  match sched with
  | [] => Some w
  | a :: r => match wstep w a with Some w' => wrun w' r | None => None end
  end.

(** The life of one sink: arguments of its constructor (filesink.cpp:17), what the environment answers there, the
    calls its thread makes, and (if it is destroyed) the clock reading of the destructor with the number of
    characters the stream writes out meanwhile.  Each sink may be in a process of its own, so each has its [env]. *)
Record life := mkLife {
  l_env : env; l_high : ascii -> bool;
  l_prefix : str; l_dir : str; l_id : str; l_every : N;
  l_now : Z; l_r1 : option nat; l_r2 : option nat;
  l_ops : list op; l_end : option (Z * nat)
}.

(** the accesses of a sequence of calls; which they are does not depend on the files.  sink.hpp:64-73, filesink.cpp:57-112 *)
Fixpoint ops_micros (e : env) (s : FileSink) (os : list op) : out (FileSink * list micro) :=
  match os with
  | [] => Ok (s, [])
  | o :: r =>
      obind (op_run e s o) (fun x => obind (ops_micros e (fst x) r) (fun y => Ok (fst y, snd x ++ snd y)))
  end.

(** the members of a sink at the end of its life and all accesses it has made; filesink.cpp:17-112 *)
Definition life_micros (l : life) : out (FileSink * list micro) :=
  obind (FileSink_ctor (l_env l) (l_high l) (l_prefix l) (l_dir l) (l_id l) (l_every l) (l_now l) (l_r1 l) (l_r2 l)) (fun x =>
  obind (ops_micros (l_env l) (fst x) (l_ops l)) (fun y =>
  match l_end l with
  | None => Ok (fst y, snd x ++ snd y)
  | Some (tnow, k) => obind (FileSink_dtor (l_env l) (fst y) tnow k) (fun z => Ok (fst y, snd x ++ snd y ++ z))
  end)).
