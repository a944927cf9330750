(** The file sink when writing to the file fails: disk full, quota, device gone.
    Source: src/filesink.cpp:44-98, src/filesinkhelper.ipp:100-123; the calls of the sink and their file
    accesses are those of Model/FileSink.v, only the streams behave differently here.

    A std::ofstream has a state: after a failed write badbit is set, and nothing in g3log reads or clears
    it (there is no good(), fail(), clear() or exceptions() in src/).  What the environment does is an
    arbitrary function from the number of the access to its outcome.
    Simplified: the standard leaves open what a stream keeps in its buffer after a failed write; it may be any
    piece of the text that begins no later than the first byte that was not accepted (libstdc++ keeps the
    whole buffer).  The standard libraries also differ in whether flush() on a failed stream tries again;
    both are covered, an access that is not made is one that accepts nothing and keeps everything. *)
From Coq Require Import Ascii String List ZArith NArith Bool.
From Verif.Base Require Import Bytes.
From Verif.Model Require Import Levels TimeFmt Message FileName FileSink.
Import ListNotations.
Local Open Scope list_scope.

(** a failed write: the device took only the first [f_accepted] bytes of the buffer; the stream keeps
    [f_keep] bytes from position [f_from] (at most as far as was accepted); environment, no source in /repo *)
Record fault := mkFault { f_accepted : nat; f_from : nat; f_keep : nat }.
(** outcome of each access, by its number; None = it works; environment, no source in /repo *)
Definition faults := nat -> option fault.

(** std::ofstream with its state; filesink.hpp:31 *)
Record fstream := mkF { f_st : stream; f_good : bool }.
(** files, the stream behind _outptr, the stream just opened (filesink.hpp:31, filesink.cpp:79), and the number of accesses made *)
Record fdisk := mkFD { fd_fs : fsys; fd_out : option fstream; fd_new : option fstream; fd_n : nat }.

(** a write of the buffer that fails; C++ standard library, no source in /repo *)
Definition spill_fail (f : fsys) (st : stream) (x : fault) : fsys * stream :=
  let part := firstn (f_accepted x) (s_buf st) in
  (fs_set f (s_ino st) (write_at (f (s_ino st)) (s_off st) part),
   mkStream (s_ino st) (s_off st + length part)
            (firstn (f_keep x) (skipn (Nat.min (f_from x) (length part)) (s_buf st)))).

(** hand the whole buffer to the file, as flush() and close() do: the files, the stream, and whether it worked; C++ standard library, no source in /repo *)
Definition hand_over (o : option fault) (f : fsys) (st : stream) : fsys * stream * bool :=
  match o with
  | None => (spill_all f st, true)
  | Some x => (spill_fail f st x, false)
  end.

(** One access.  operator<< does nothing on a stream that is not good (filesink.cpp:50, 67, 81, 90, 98, 115); the destruction of a
    stream closes it whatever its state (filesink.cpp:95 and the end of the sink); None = use of a null stream pointer. *)
Definition fstep (flt : faults) (d : fdisk) (m : micro) : option fdisk :=
  let n := fd_n d in
  match m with
  | MOpen _ None => Some (mkFD (fd_fs d) (fd_out d) None (S n))
  | MOpen _ (Some i) => Some (mkFD (fs_set (fd_fs d) i []) (fd_out d) (Some (mkF (mkStream i 0 []) true)) (S n))
  | MWrite data k =>
      match fd_out d with
      | None => None
      | Some (mkF st false) => Some (mkFD (fd_fs d) (fd_out d) (fd_new d) (S n))
      | Some (mkF st true) =>
          let st1 := mkStream (s_ino st) (s_off st) (s_buf st ++ data) in
          match flt n with
          | None => let (f, st') := spill (fd_fs d) st1 k in Some (mkFD f (Some (mkF st' true)) (fd_new d) (S n))
          | Some x => let (f, st') := spill_fail (fd_fs d) st1 x in Some (mkFD f (Some (mkF st' false)) (fd_new d) (S n))
          end
      end
  | MFlush =>
      match fd_out d with
      | None => None
      | Some (mkF st good) =>
          let '(f, st', worked) := hand_over (flt n) (fd_fs d) st in
          Some (mkFD f (Some (mkF st' (good && worked))) (fd_new d) (S n))
      end
  | MMove =>
      let f := match fd_out d with
               | None => fd_fs d
               | Some (mkF st _) => let '(f, _, _) := hand_over (flt n) (fd_fs d) st in f
               end in
      Some (mkFD f (fd_new d) None (S n))
  end.
(** helper of this model, no source of its own *)
Fixpoint frun (flt : faults) (d : fdisk) (ms : list micro) : option fdisk :=
  match ms with
  | [] => Some d
  | m :: r => match fstep flt d m with Some d' => frun flt d' r | None => None end
  end.

(** helper of this model, no source of its own *)
Definition fapply (flt : faults) (d : fdisk) (ms : list micro) : out fdisk :=
  match frun flt d ms with Some d' => Ok d' | None => UB end.
(** one call to the sink (filesink.cpp:57-112) with its file accesses done *)
Definition fop_step (flt : faults) (e : env) (w : FileSink * fdisk) (o : op) : out (FileSink * fdisk) :=
  obind (op_run e (fst w) o) (fun x => obind (fapply flt (snd w) (snd x)) (fun d => Ok (fst x, d))).
(** helper of this model, no source of its own *)
Fixpoint fops_run (flt : faults) (e : env) (w : FileSink * fdisk) (os : list op) : out (FileSink * fdisk) :=
  match os with
  | [] => Ok w
  | o :: r => obind (fop_step flt e w o) (fun w' => fops_run flt e w' r)
  end.
(** filesink.cpp:17-42 *)
Definition fcreate (flt : faults) (e : env) (high : ascii -> bool) (log_prefix log_directory logger_id : str) (every : N)
    (now : Z) (r1 r2 : option nat) (f : fsys) : out (FileSink * fdisk) :=
  obind (FileSink_ctor e high log_prefix log_directory logger_id every now r1 r2) (fun x =>
  obind (fapply flt (mkFD f None None 0) (snd x)) (fun d => Ok (fst x, d))).
(** filesink.cpp:44-54; what is left are the files *)
Definition fdestroy (flt : faults) (e : env) (w : FileSink * fdisk) (now : Z) (k : nat) : out fsys :=
  obind (FileSink_dtor e (fst w) now k) (fun ms => obind (fapply flt (snd w) ms) (fun d => Ok (fd_fs d))).
