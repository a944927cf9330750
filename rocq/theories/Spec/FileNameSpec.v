(** What the names of log files should be. *)
From Coq Require Import Ascii String List ZArith NArith Bool.
From Verif.Base Require Import Bytes.
From Verif.Model Require Import TimeFmt.
From Verif.Spec Require Import TimeSpec.
Import ListNotations.
Local Open Scope list_scope.

(** characters dropped from a prefix: white space (blank, tab, line feed, vertical tab, form feed,
    carriage return; for bytes above 127 whatever the C library says), slash, backslash, dot, colon *)
Definition dropped (high : ascii -> bool) (c : ascii) : Prop :=
  In c (map ascii_of_nat [9; 10; 11; 12; 13; 32; 47; 92; 46; 58]%nat) \/
  ((127 < N_of_ascii c)%N /\ high c = true).

(** characters that make a prefix unacceptable: , | < > # $ % { } [ ] ' double-quote ^ ! ? + * and the separators *)
Definition illegal (c : ascii) : Prop :=
  In c (map ascii_of_nat [47; 44; 124; 60; 62; 58; 35; 36; 37; 123; 125; 91; 93; 39; 34; 94; 33; 63; 43; 42; 32]%nat).

(** [out] is [s] without the dropped characters: same order, nothing else left out *)
Inductive without (drop : ascii -> Prop) : str -> str -> Prop :=
| wo_nil : without drop [] []
| wo_drop c s t : drop c -> without drop s t -> without drop (c :: s) t
| wo_keep c s t : ~ drop c -> without drop s t -> without drop (c :: s) (c :: t).

(** POSIX path names: cut at slashes; empty components and "." do not matter *)
Fixpoint split_slash (s : str) : list str :=
  match s with
  | [] => [[]]
  | c :: r =>
      if Ascii.eqb c "/" then [] :: split_slash r
      else match split_slash r with [] => [[c]] | x :: l => (c :: x) :: l end
  end.
Definition matters (s : str) : bool := negb (str_eqb s [] || str_eqb s (lit ".")).
Definition absolute (s : str) : bool := match s with c :: _ => Ascii.eqb c "/" | [] => false end.
(** where a path leads: from the root or from the current directory, through which components *)
Definition place (s : str) : bool * list str := (absolute s, List.filter matters (split_slash s)).
(** [path] is the entry [name] directly inside [dir] *)
Definition inside (path dir name : str) : Prop :=
  place path = (fst (place dir), snd (place dir) ++ [name]).

(** creation time within a file name: YYYYMMDD-hhmmss *)
Definition file_stamp (t : tm) : str :=
  padded 4 (Z.to_N (tm_year t + 1900)) ++ padded 2 (Z.to_N (tm_mon t + 1)) ++ padded 2 (Z.to_N (tm_mday t)) ++
  lit "-" ++ padded 2 (Z.to_N (tm_hour t)) ++ padded 2 (Z.to_N (tm_min t)) ++ padded 2 (Z.to_N (tm_sec t)).

Definition log_name (prefix id : str) (t : tm) : str :=
  if str_eqb id [] then prefix ++ lit "." ++ file_stamp t ++ lit ".log"
  else prefix ++ lit "." ++ id ++ lit "." ++ file_stamp t ++ lit ".log".

(** directories whose last significant character is neither a blank nor a slash, or the empty one *)
Definition plain_dir (dir : str) : Prop :=
  ~ In "\"%char dir /\
  (dir = [] \/ exists d c n, dir = d ++ c :: repeat "/"%char n /\ c <> "/"%char /\ c <> " "%char).
