(** The file sink, its stream and the files.
    Source: src/filesink.cpp, src/g3log/filesink.hpp, src/filesinkhelper.ipp:79-123.

    A file is named by a number (its inode); which number an open yields, or that it fails, is up to
    the environment, so equal names, links and unwritable directories are all covered.  A std::ofstream
    has a position and a buffer; it may hand any initial part of its buffer to the file at any write
    (the numbers [k] below), must do so completely on flush and when destroyed.  Running out of disk
    space and other write errors are in Model/WriteError.v.  Operations are lists of small steps ([micro]), so that
    a crash can be placed between any two of them. *)
From Coq Require Import Ascii String List ZArith NArith Bool.
From Verif.Base Require Import Bytes.
From Verif.Model Require Import Levels TimeFmt Message FileName.
Import ListNotations.
Local Open Scope list_scope.

(** result of a member function: a value, undefined behaviour, a C++ exception, abort(); helper of this model, no source of its own *)
Inductive out (A : Type) := Ok (a : A) | UB | Throw | Abort.
Arguments Ok {A} a. Arguments UB {A}. Arguments Throw {A}. Arguments Abort {A}.
(** helper of this model, no source of its own *)
Definition obind {A B : Type} (r : out A) (k : A -> out B) : out B :=
  match r with Ok a => k a | UB => UB | Throw => Throw | Abort => Abort end.
(** helper of this model, no source of its own *)
Definition of_fres (r : fres) : out str :=
  match r with FOk s => Ok s | FThrow => Throw | FAbort => Abort | FFuel => Throw end.

(** ** files and streams (external: POSIX files, std::ofstream) *)
(** contents of files by inode *)
Definition fsys := nat -> str.
(** helper of this model, no source of its own *)
Definition fs_set (f : fsys) (i : nat) (c : str) : fsys := fun j => if Nat.eqb j i then c else f j.
(** pwrite: what lies between the end of the file and the position reads as NUL; writing nothing leaves the file
    as it is; POSIX, no source in /repo *)
Definition write_at (content : str) (off : nat) (data : str) : str :=
  match data with
  | [] => content
  | _ => firstn off content ++ repeat NUL (off - length content) ++ data ++ skipn (off + length data) content
  end.

(** std::ofstream: the file it is open on, its position, its buffer *)
Record stream := mkStream { s_ino : nat; s_off : nat; s_buf : str }.

(** files, the stream behind _outptr (None = null pointer or never opened), the stream just opened; _outptr: filesink.hpp:31; log_stream: filesink.cpp:79 *)
Record disk := mkDisk { d_fs : fsys; d_out : option stream; d_new : option stream }.

(** the accesses to files made in filesink.cpp:34-98 and filesinkhelper.ipp:100-123 *)
Inductive micro :=
| MOpen (path : str) (r : option nat)   (* openLogFile: ios::out | ios::trunc of the file named by c_str(); r = None: failure *)
| MWrite (data : str) (k : nat)         (* filestream() << data *)
| MFlush                                (* << std::flush *)
| MMove.                                (* _outptr = std::move(log_stream), and destruction of the old stream *)

(** hand the first k bytes of the buffer to the file; C++ standard library, no source in /repo *)
Definition spill (f : fsys) (st : stream) (k : nat) : fsys * stream :=
  let part := firstn k (s_buf st) in
  (fs_set f (s_ino st) (write_at (f (s_ino st)) (s_off st) part),
   mkStream (s_ino st) (s_off st + length part) (skipn k (s_buf st))).
(** std::ofstream::flush *)
Definition spill_all (f : fsys) (st : stream) : fsys * stream := spill f st (length (s_buf st)).

(** None = use of a null stream pointer; effect of one access; filesinkhelper.ipp:100-123, filesink.cpp:50, 67, 81, 90, 95, 98, 115 *)
Definition mstep (d : disk) (m : micro) : option disk :=
  match m with
  | MOpen _ None => Some (mkDisk (d_fs d) (d_out d) None)
  | MOpen _ (Some i) => Some (mkDisk (fs_set (d_fs d) i []) (d_out d) (Some (mkStream i 0 [])))
  | MWrite data k =>
      match d_out d with
      | None => None
      | Some st =>
          let (f, st') := spill (d_fs d) (mkStream (s_ino st) (s_off st) (s_buf st ++ data)) k in
          Some (mkDisk f (Some st') (d_new d))
      end
  | MFlush =>
      match d_out d with
      | None => None
      | Some st => let (f, st') := spill_all (d_fs d) st in Some (mkDisk f (Some st') (d_new d))
      end
  | MMove =>
      let f := match d_out d with None => d_fs d | Some st => fst (spill_all (d_fs d) st) end in
      Some (mkDisk f (d_new d) None)
  end.
(** helper of this model, no source of its own *)
Fixpoint mrun (d : disk) (ms : list micro) : option disk :=
  match ms with
  | [] => Some d
  | m :: r => match mstep d m with Some d' => mrun d' r | None => None end
  end.

(** ** the sink.  filesink.hpp:28-36; _outptr is [d_out] of the disk *)
Record FileSink := mkSink {
  _log_details_func : LogDetailsFunc;
  _log_file_with_path : str;
  _log_prefix_backup : str;
  _header : str;
  _firstEntry : bool;
  _write_buffer : str;
  _write_counter : N;
  _write_to_log_every_x_message : N
}.

(** helper of this model, no source of its own *)
Definition clock_of (e : env) : clock := mkClock (e_debug e) (e_ext e) (e_local e).

(** filesink.cpp:22 *)
Definition default_header : str :=
  tab ++ tab ++ lit "LOG format: [YYYY/MM/DD hh:mm:ss uuu* LEVEL FILE->FUNCTION:LINE] message" ++ nl ++ nl ++
  tab ++ tab ++ lit "(uuu*: microseconds fractions of the seconds value)" ++ nl ++ nl.

(** filesinkhelper.ipp:79-86 *)
Definition header (e : env) (now : Z) (headerFormat : str) : out str :=
  obind (of_fres (formatted (clock_of e) now (lit "%a %b %d %H:%M:%S %Y"))) (fun t =>
  Ok (tab ++ tab ++ lit "g3log created log at: " ++ t ++ nl ++ headerFormat)).

(** filesink.cpp:17-42.  [now] is the clock reading of createLogFileName; [r1] and [r2] are the outcomes of
    the two attempts to open.  assert() aborts in a debug build and is nothing otherwise. *)
Definition FileSink_ctor (e : env) (high : ascii -> bool) (log_prefix log_directory logger_id : str) (every : N)
    (now : Z) (r1 r2 : option nat) : out (FileSink * list micro) :=
  let prefix := prefixSanityFix high log_prefix in
  if negb (isValidFilename prefix) then Abort
  else
    obind (of_fres (createLogFileName (clock_of e) now prefix logger_id)) (fun file_name =>
    let path := pathSanityFix log_directory file_name in
    let sink p := mkSink DefaultDetails p prefix default_header true [] 0 every in
    match r1 with
    | Some _ => Ok (sink path, [MOpen (c_str path) r1; MMove])
    | None =>
        let path2 := lit "./" ++ file_name in
        match r2 with
        | None => if e_debug e then Abort
                  else Ok (sink path2, [MOpen (c_str path) None; MMove; MOpen (c_str path2) None; MMove])
        | Some _ => Ok (sink path2, [MOpen (c_str path) None; MMove; MOpen (c_str path2) r2; MMove])
        end
    end).

(** filesink.cpp:114-116; [k]: how much of the buffer the stream writes out meanwhile *)
Definition addLogFileHeader (e : env) (s : FileSink) (now : Z) (k : nat) : out (list micro) :=
  obind (header e now (_header s)) (fun h => Ok [MWrite h k]).

(** filesink.cpp:57-70.  The counter is a size_t; a modulus of zero is undefined. *)
Definition fileWrite (e : env) (s : FileSink) (message : LogMessage) (now : Z) (k1 k2 : nat)
  : out (FileSink * list micro) :=
  obind (if _firstEntry s then addLogFileHeader e s now k1 else Ok []) (fun hdr =>
  obind (of_fres (snd (toString_with e message (_log_details_func s)))) (fun data =>
  let buffer := _write_buffer s ++ data in
  let counter := sz (_write_counter s + 1) in
  let every := _write_to_log_every_x_message s in
  if (every =? 0)%N then UB
  else if (counter mod every =? 0)%N then
    Ok (mkSink (_log_details_func s) (_log_file_with_path s) (_log_prefix_backup s) (_header s) false
               [] counter every,
        hdr ++ [MWrite buffer k2; MFlush])
  else
    Ok (mkSink (_log_details_func s) (_log_file_with_path s) (_log_prefix_backup s) (_header s) false
               buffer counter every,
        hdr))).

(** filesink.cpp:72-100.  [now1], [now2], [now3]: the clock readings of lines 74, 91 of the helper, and of
    the header; [r]: the outcome of opening.  The returned name is empty on failure. *)
Definition changeLogFile (e : env) (s : FileSink) (directory logger_id : str) (now1 now2 now3 : Z)
    (r : option nat) (k1 k2 k3 : nat) : out (FileSink * list micro * str) :=
  obind (of_fres (formatted (clock_of e) now1 (date_formatted ++ lit " " ++ time_formatted))) (fun now_formatted =>
  obind (of_fres (createLogFileName (clock_of e) now2 (_log_prefix_backup s) logger_id)) (fun file_name =>
  let prospect_log := directory ++ file_name in
  match r with
  | None =>
      Ok (s, [MOpen (c_str prospect_log) None;
              MWrite (nl ++ now_formatted ++
                      lit " Unable to change log file. Illegal filename or busy? Unsuccessful log name was: " ++
                      prospect_log) k1], [])
  | Some _ =>
      obind (addLogFileHeader e s now3 k1) (fun hdr =>
      let old_log := _log_file_with_path s in
      Ok (mkSink (_log_details_func s) prospect_log (_log_prefix_backup s) (_header s) (_firstEntry s)
                 (_write_buffer s) (_write_counter s) (_write_to_log_every_x_message s),
          [MOpen (c_str prospect_log) r] ++ hdr ++
          [MWrite (now_formatted ++ nl ++ tab ++ lit "Changing log file from : " ++ old_log ++ nl ++ tab ++
                   lit "to new location: " ++ prospect_log ++ nl) k2;
           MMove;
           MWrite (now_formatted ++ nl ++ tab ++ lit "New log file. The previous log file was at: " ++ old_log ++ nl) k3],
          prospect_log))
  end)).

(** filesink.cpp:102-112 *)
Definition fileName (s : FileSink) : str := _log_file_with_path s.
(** filesink.cpp:106-108 *)
Definition overrideLogDetails (s : FileSink) (f : LogDetailsFunc) : FileSink :=
  mkSink f (_log_file_with_path s) (_log_prefix_backup s) (_header s) (_firstEntry s) (_write_buffer s)
         (_write_counter s) (_write_to_log_every_x_message s).
(** filesink.cpp:110-112 *)
Definition overrideLogHeader (s : FileSink) (change : str) : FileSink :=
  mkSink (_log_details_func s) (_log_file_with_path s) (_log_prefix_backup s) change (_firstEntry s) (_write_buffer s)
         (_write_counter s) (_write_to_log_every_x_message s).

(** filesink.cpp:44-54, and the destruction of _outptr (the text on stderr is left out) *)
Definition FileSink_dtor (e : env) (s : FileSink) (now : Z) (k : nat) : out (list micro) :=
  obind (of_fres (formatted (clock_of e) now time_formatted)) (fun t =>
  let exit_msg := lit "g3log g3FileSink shutdown at: " ++ t ++ nl in
  Ok [MWrite (_write_buffer s ++ exit_msg) k; MFlush; MMove]).

(** ** use of a sink: the calls its thread makes, one after the other *)
(** sink.hpp:64-73: messages and calls through the handle *)
Inductive op :=
| ORecv (m : LogMessage) (now : Z) (k1 k2 : nat)
| OChange (directory logger_id : str) (now1 now2 now3 : Z) (r : option nat) (k1 k2 k3 : nat)
| ODetails (f : LogDetailsFunc)
| OHeader (h : str).

(** filesink.cpp:57-112: one call, as a change of the members and a list of file accesses *)
Definition op_run (e : env) (s : FileSink) (o : op) : out (FileSink * list micro) :=
  match o with
  | ORecv m now k1 k2 => fileWrite e s m now k1 k2
  | OChange d i n1 n2 n3 r k1 k2 k3 =>
      obind (changeLogFile e s d i n1 n2 n3 r k1 k2 k3) (fun x => Ok (fst x))
  | ODetails f => Ok (overrideLogDetails s f, [])
  | OHeader h => Ok (overrideLogHeader s h, [])
  end.

(** helper of this model, no source of its own *)
Definition apply_micros (d : disk) (ms : list micro) : out disk :=
  match mrun d ms with Some d' => Ok d' | None => UB end.

(** one call with its file accesses done; helper of this model, no source of its own *)
Definition op_step (e : env) (w : FileSink * disk) (o : op) : out (FileSink * disk) :=
  obind (op_run e (fst w) o) (fun x => obind (apply_micros (snd w) (snd x)) (fun d => Ok (fst x, d))).

(** helper of this model, no source of its own *)
Fixpoint ops_run (e : env) (w : FileSink * disk) (os : list op) : out (FileSink * disk) :=
  match os with
  | [] => Ok w
  | o :: r => obind (op_step e w o) (fun w' => ops_run e w' r)
  end.

(** a sink created on the given files; filesink.cpp:17-42 *)
Definition create (e : env) (high : ascii -> bool) (log_prefix log_directory logger_id : str) (every : N)
    (now : Z) (r1 r2 : option nat) (f : fsys) : out (FileSink * disk) :=
  obind (FileSink_ctor e high log_prefix log_directory logger_id every now r1 r2) (fun x =>
  obind (apply_micros (mkDisk f None None) (snd x)) (fun d => Ok (fst x, d))).

(** ... and destroyed: what is left are the files; filesink.cpp:44-54 *)
Definition destroy (e : env) (w : FileSink * disk) (now : Z) (k : nat) : out fsys :=
  obind (FileSink_dtor e (fst w) now k) (fun ms => obind (apply_micros (snd w) ms) (fun d => Ok (d_fs d))).
