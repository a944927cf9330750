(** Programs whose destructors use levels as the documentation says, and the order of construction. *)
From Coq Require Import List ZArith Bool.
From Verif.Model Require Import Levels Global StaticInit StaticExit.
From Verif.Spec Require Import StaticInitSpec.
Import ListNotations.
Local Open Scope list_scope.

(** the names a list of objects gives to levels *)
Fixpoint x_names (l : list xdef) : list lname :=
  match l with
  | [] => []
  | XLevel k _ :: r => k :: x_names r
  | _ :: r => x_names r
  end.
(** the level objects a destructor logs with *)
Definition x_refs (d : xdef) : list lref :=
  match d with XObj dtor => flat_map (fun a => match a with XLog l => [l] | _ => [] end) dtor | _ => [] end.
(** every level a destructor uses is one that the same file has defined further up *)
Definition x_above (u : tunit) (l : list xdef) : Prop :=
  forall l1 d l2, l = l1 ++ d :: l2 -> forall r, In r (x_refs d) -> fst r = u /\ In (snd r) (x_names l1).

(** the objects of one unit, in the order of their construction *)
Definition of_unit (u : tunit) (objs : list (tunit * xdef)) : list xdef :=
  rev (map snd (filter (fun p => tunit_eqb u (fst p)) objs)).
(** all of the library's files have been initialized *)
Definition whole_library (dyn : bool) (user : nat -> list xdef) (objs : list (tunit * xdef)) : Prop :=
  forall u, of_library u -> of_unit u objs = x_defs dyn user u.

(** nothing was used too late *)
Definition none_late (st : xstate) : Prop := forall o, ~ In (XLate o) (x_events st).
