(** Words for the properties of Model/Dismantle.v. *)
From Coq Require Import List Arith Bool.
From Verif.Model Require Import Dismantle.
Import ListNotations.

(** the entries in a queue *)
Definition entries (q : list djob) : list nat := flat_map (fun j => match j with JSave m => [m] | _ => [] end) q.
(** the entries of the LOG statements of a run that returned *)
Definition logged (l : list (dact * option dout)) : list nat :=
  flat_map (fun p => match p with (ALog m, Some OReturned) => [m] | _ => [] end) l.
(** what sink k was sent *)
Definition sent_to (k : nat) (g : list (nat * nat)) : list nat := map snd (filter (fun p => Nat.eqb (fst p) k) g).
(** a state of a run in which the process lives *)
Definition reached (mem : nat -> bool) (n : nat) (s : dst) : Prop := exists acts l, drun mem 0 d_start acts = (n, s, l) /\ d_end s = None.
