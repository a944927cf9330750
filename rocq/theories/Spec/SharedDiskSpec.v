(** What it means that sinks keep out of each other's way. *)
From Coq Require Import Ascii String List ZArith NArith Bool.
From Verif.Base Require Import Bytes.
From Verif.Model Require Import Levels TimeFmt Message FileName FileSink SharedDisk.
Import ListNotations.
Local Open Scope list_scope.

(** what sink [n] does in a schedule *)
Definition own (n : nat) (sched : list (nat * micro)) : list micro :=
  flat_map (fun a => if Nat.eqb (fst a) n then [snd a] else []) sched.
(** the files it opens *)
Definition touched (ms : list micro) : list nat :=
  flat_map (fun m => match m with MOpen _ (Some i) => [i] | _ => [] end) ms.
(** no file is opened by two sinks *)
Definition apart (sched : list (nat * micro)) : Prop :=
  forall n n' i, In i (touched (own n sched)) -> In i (touched (own n' sched)) -> n = n'.
(** a name leads to the same file whoever opens it, as long as nobody removes or renames files *)
Definition by_name (names : str -> nat) (sched : list (nat * micro)) : Prop :=
  forall n p i, In (n, MOpen p (Some i)) sched -> names p = i.
(** the sinks with these lives, from beginning to end, in any interleaving *)
Definition complete (ls : list life) (sched : list (nat * micro)) : Prop :=
  (forall n l, nth_error ls n = Some l -> exists s, life_micros l = Ok (s, own n sched)) /\
  (forall n m, In (n, m) sched -> n < length ls).
