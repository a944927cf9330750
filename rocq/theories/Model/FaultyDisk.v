(** Several file sinks over the same files, when writing may fail.
    Source: src/filesink.cpp, src/filesinkhelper.ipp:100-123; as Model/SharedDisk.v, with the streams of Model/WriteError.v.

    Each sink has an oracle of its own that says which of its accesses fail, so one device may be full while another is not, and a
    device that several sinks write to may fail for each of them at any access. *)
From Coq Require Import List Bool.
From Verif.Base Require Import Bytes.
From Verif.Model Require Import FileSink WriteError.
Import ListNotations.

(** the files, and for each sink its _outptr (filesink.hpp:31), the stream it has just opened (filesink.cpp:79, filesinkhelper.ipp:116), and
    the number of accesses it has made *)
Record fworld := mkFW { fw_fs : fsys; fw_out : nat -> option fstream; fw_new : nat -> option fstream; fw_n : nat -> nat }.
(** before the first sink; helper of this model, no source of its own *)
Definition fstart (f : fsys) : fworld := mkFW f (fun _ => None) (fun _ => None) (fun _ => 0).

(** helper of this model, no source of its own *)
Definition fput {A : Type} (g : nat -> A) (n : nat) (s : A) : nat -> A := fun m => if Nat.eqb m n then s else g m.

(** one access of one sink: it sees the common files and its own streams; None = use of a null stream pointer.
    filesinkhelper.ipp:100-123, filesink.cpp:50, 67, 81, 90, 95, 98, 115 *)
Definition fwstep (flt : nat -> faults) (w : fworld) (a : nat * micro) : option fworld :=
  let (n, m) := a in
  match fstep (flt n) (mkFD (fw_fs w) (fw_out w n) (fw_new w n) (fw_n w n)) m with
  | None => None
  | Some d => Some (mkFW (fd_fs d) (fput (fw_out w) n (fd_out d)) (fput (fw_new w) n (fd_new d)) (fput (fw_n w) n (fd_n d)))
  end.
(** helper of this model, no source of its own *)
Fixpoint fwrun (flt : nat -> faults) (w : fworld) (sched : list (nat * micro)) : option fworld :=
  match sched with
  | [] => Some w
  | a :: r => match fwstep flt w a with Some w' => fwrun flt w' r | None => None end
  end.
