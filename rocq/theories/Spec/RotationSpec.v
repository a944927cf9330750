(** Changing the log file while the program logs. *)
From Coq Require Import Ascii String List ZArith NArith Bool.
From Verif.Base Require Import Bytes.
From Verif.Model Require Import Levels TimeFmt Message FileSink EndToEnd.
From Verif.Model Require Worker.
From Verif.Spec Require Import TimeSpec.
Import ListNotations.
Local Open Scope list_scope.

(** the clock is sane when the file is changed *)
Definition good_time (e : env) (t : Z) : Prop := (0 <= t)%Z /\ tm_ok (e_local e (Z.quot t (10^9))).
(** through the handle: fileName(), overrideLogHeader, changeLogFile *)
Definition gentle (e : env) (calls : nat -> option op) : Prop :=
  forall c, calls c = None \/ (exists h, calls c = Some (OHeader h)) \/
    exists dir id n1 n2 n3 r k1 k2 k3, calls c = Some (OChange dir id n1 n2 n3 r k1 k2 k3) /\ good_time e n1 /\ good_time e n2 /\ good_time e n3.
(** the files that those calls have opened, in order; a call that cannot open its file does not count *)
Definition changes (calls : nat -> option op) (got : list Worker.sjob) : list nat :=
  flat_map (fun j => match j with
                     | Worker.JCall c => match calls c with Some (OChange _ _ _ _ _ (Some i) _ _ _) => [i] | _ => [] end
                     | _ => []
                     end) got.
