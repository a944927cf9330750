(** Names of log files.  Source: src/filesinkhelper.ipp:20-98. *)
From Coq Require Import Ascii String List ZArith NArith Bool.
From Verif.Base Require Import Bytes.
From Verif.Model Require Import TimeFmt.
Import ListNotations.
Local Open Scope list_scope.

(** filesinkhelper.ipp:23 *)
Definition file_name_time_formatted : str := lit "%Y%m%d-%H%M%S".

(** filesinkhelper.ipp:27: the characters of the string literal, the double quote written as dq *)
Definition illegal_characters : str := lit "/,|<>:#$%{}[]'" ++ dq ++ lit "^!?+* ".

(** filesinkhelper.ipp:26-38 (without the text on stderr) *)
Definition isValidFilename (prefix_filename : str) : bool :=
  let pos := find_first_of prefix_filename illegal_characters in
  if negb (pos =? npos)%N then false
  else match prefix_filename with [] => false | _ => true end.

(** isspace of the C library.  For bytes above 127 the code passes a negative char, for which the
    C standard leaves isspace undefined; [high] is what the C library at hand answers (glibc: a
    table lookup, false in the C locale). *)
Definition isspace (high : ascii -> bool) (c : ascii) : bool :=
  let n := N_of_ascii c in
  if (127 <? n)%N then high c else ((n =? 32) || ((9 <=? n) && (n <=? 13)))%N.

(** erase(remove_if(begin, end, p), end); used in filesinkhelper.ipp:41-45 *)
Fixpoint erase_if (p : ascii -> bool) (s : str) : str :=
  match s with
  | [] => []
  | c :: r => if p c then erase_if p r else c :: erase_if p r
  end.

(** filesinkhelper.ipp:40-52 *)
Definition prefixSanityFix (high : ascii -> bool) (prefix : str) : str :=
  let prefix := erase_if (isspace high) prefix in
  let prefix := erase_if (fun c => Ascii.eqb c "/") prefix in
  let prefix := erase_if (fun c => Ascii.eqb c "\") prefix in
  let prefix := erase_if (fun c => Ascii.eqb c ".") prefix in
  let prefix := erase_if (fun c => Ascii.eqb c ":") prefix in
  if negb (isValidFilename prefix) then [] else prefix.

(** filesinkhelper.ipp:60-65 *)
Definition contains_end (path : str) : bool :=
  match path with
  | [] => false
  | _ => let e := last path NUL in Ascii.eqb e "/" || Ascii.eqb e " "
  end.

(** filesinkhelper.ipp:67-69; every round shortens the path, so [fuel] = its length is enough *)
Fixpoint trim_loop (fuel : nat) (path : str) : str :=
  match fuel with
  | O => path
  | S f => if contains_end path then trim_loop f (removelast path) else path
  end.

(** filesinkhelper.ipp:54-77 *)
Definition pathSanityFix (path file_name : str) : str :=
  let path := map (fun c => if Ascii.eqb c "\" then "/"%char else c) path in
  let path := trim_loop (length path) path in
  let path := match path with [] => [] | _ => path ++ lit "/" end in
  path ++ file_name.

(** the clock as the file sink uses it: build flavour, C library, time zone; parameters of localtime_formatted, time.cpp:145-150 *)
Record clock := mkClock { k_debug : bool; k_ext : ascii -> tm -> str; k_local : Z -> tm }.
(** g3::localtime_formatted as called in filesinkhelper.ipp:83, 95 and filesink.cpp:47, 75 *)
Definition formatted (k : clock) (now : Z) (fmt : str) : fres :=
  localtime_formatted (k_debug k) (k_ext k) (k_local k) now fmt.

(** filesinkhelper.ipp:88-98; [now] is system_clock::now() *)
Definition createLogFileName (k : clock) (now : Z) (verified_prefix logger_id : str) : fres :=
  match formatted k now file_name_time_formatted with
  | FOk t =>
      FOk (verified_prefix ++ lit "." ++ (match logger_id with [] => [] | _ => logger_id ++ lit "." end) ++
           t ++ lit ".log")
  | r => r
  end.
