(** What may be in a log file when writing has failed, and what should be noticed of it. *)
From Coq Require Import Ascii String List ZArith NArith Bool.
From Verif.Base Require Import Bytes.
From Verif.Model Require Import FileSink.
Import ListNotations.
Local Open Scope list_scope.

(** [part] occurs in [whole] as one piece *)
Definition infix (part whole : str) : Prop := exists a b, whole = a ++ part ++ b.

(** [patched whole r content]: [content] is a beginning of [whole], possibly followed by pieces of [whole]
    again, none of which begins further on than what was there before ([r] is how far that is): no text of
    [whole] is present without all text that precedes it, and nothing else is present *)
Inductive patched (whole : str) : nat -> str -> Prop :=
| p_beginning p : p <= length whole -> patched whole p (firstn p whole)
| p_again r c j l : patched whole r c -> j <= r -> j + l <= length whole ->
    patched whole (Nat.max r (j + l)) (c ++ firstn l (skipn j whole)).

(** what the caller of the sink can see of a run: how it ended and the members of the sink *)
Definition seen {D : Type} (r : out (FileSink * D)) : out FileSink :=
  match r with Ok w => Ok (fst w) | UB => UB | Throw => Throw | Abort => Abort end.
Definition ended {D : Type} (r : out D) : out unit :=
  match r with Ok _ => Ok tt | UB => UB | Throw => Throw | Abort => Abort end.

(** no change opens the file that is in use at that time, [i] being in use at first *)
Fixpoint apart (i : nat) (l : list nat) : Prop :=
  match l with [] => True | j :: r => i <> j /\ apart j r end.
