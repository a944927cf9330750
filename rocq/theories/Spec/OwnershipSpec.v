(** What it means for a wrapper to own a message, and for the life of a message to be right. *)
From Coq Require Import List Arith.
From Verif.Model Require Import Ownership.
Import ListNotations.

(** wrapper c owns object o *)
Definition holds (s : mem) (c o : nat) : Prop := nth_error (o_cells s) c = Some (Own (Some o)).
(** how often o has been deleted *)
Definition deleted (s : mem) (o : nat) : nat := count_occ Nat.eq_dec (o_freed s) o.
(** owned by exactly one wrapper and not deleted, or owned by none and deleted once *)
Definition single (s : mem) (o : nat) : Prop :=
  ((exists c, holds s c o /\ forall d, holds s d o -> d = c) /\ deleted s o = 0) \/ ((forall c, ~ holds s c o) /\ deleted s o = 1).
(** every wrapper has been destroyed *)
Definition no_wrapper (s : mem) : Prop := forall x, In x (o_cells s) -> x = Dead.
(** nobody is busy with a message, and no wrapper is left *)
Definition quiet (s : jstate) : Prop :=
  (forall u, In u (j_cl s) -> u = no_caller) /\ j_q s = [] /\ j_w s = None /\ j_wold s = [].
