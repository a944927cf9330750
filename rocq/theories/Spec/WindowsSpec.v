(** What the Windows side is meant to do. *)
From Coq Require Import Ascii String List ZArith NArith Bool.
From Verif.Base Require Import Bytes.
Import ListNotations.
Local Open Scope list_scope.
Local Open Scope Z_scope.

(** The documented exceptions, by their NTSTATUS: severity (3 error, 2 warning) and code *)
Definition status (severity code : Z) : Z := severity * 2 ^ 30 + code.
Definition documented : list (Z * str) :=
  map (fun p => (fst p, lit "EXCEPTION_" ++ snd p))
  [ (status 2 2, lit "DATATYPE_MISALIGNMENT"); (status 2 3, lit "BREAKPOINT"); (status 2 4, lit "SINGLE_STEP");
    (status 3 5, lit "ACCESS_VIOLATION"); (status 3 6, lit "IN_PAGE_ERROR"); (status 3 29, lit "ILLEGAL_INSTRUCTION");
    (status 3 37, lit "NONCONTINUABLE_EXCEPTION"); (status 3 38, lit "INVALID_DISPOSITION");
    (status 3 140, lit "ARRAY_BOUNDS_EXCEEDED"); (status 3 141, lit "FLT_DENORMAL_OPERAND");
    (status 3 142, lit "FLT_DIVIDE_BY_ZERO"); (status 3 143, lit "FLT_INEXACT_RESULT");
    (status 3 144, lit "FLT_INVALID_OPERATION"); (status 3 145, lit "FLT_OVERFLOW"); (status 3 146, lit "FLT_STACK_CHECK");
    (status 3 147, lit "FLT_UNDERFLOW"); (status 3 148, lit "INT_DIVIDE_BY_ZERO"); (status 3 149, lit "INT_OVERFLOW");
    (status 3 150, lit "PRIV_INSTRUCTION"); (status 3 253, lit "STACK_OVERFLOW") ].

(** The lines of a dump: the frames up to the first null address, numbered from n *)
Fixpoint until_null (l : list Z) : list Z :=
  match l with [] => [] | a :: r => if Z.eq_dec a 0 then [] else a :: until_null r end.
Fixpoint dump_lines (line : nat -> Z -> str) (n : nat) (l : list Z) : str :=
  match l with [] => [] | a :: r => line n a ++ nl ++ dump_lines line (S n) r end.
(** signal.h on Windows *)
Definition win_signals : list (Z * str) :=
  [(4, lit "SIGILL"); (8, lit "SIGFPE"); (11, lit "SIGSEGV"); (15, lit "SIGTERM"); (22, lit "SIGABRT")].
