(** What an active object does, in terms of the events observed. *)
From Coq Require Import List Arith.
From Verif.Model Require Import SharedQueue ActiveObj.
Import ListNotations.

(** callbacks whose execution began, in order *)
Definition executed (tr : list aevent) : list cb :=
  flat_map (fun e => match e with EvBegin c => [c] | _ => [] end) tr.
(** executions that ended *)
Definition ended (tr : list aevent) : list (cb * outcome) :=
  flat_map (fun e => match e with EvEnd c o => [(c, o)] | _ => [] end) tr.

(** executions follow one another: nothing begins while something runs; [Some c]: c is running *)
Inductive one_at_a_time : list aevent -> option cb -> Prop :=
| oa_nil : one_at_a_time [] None
| oa_begin : forall tr c, one_at_a_time tr None -> one_at_a_time (tr ++ [EvBegin c]) (Some c)
| oa_end : forall tr c o, one_at_a_time tr (Some c) -> one_at_a_time (tr ++ [EvEnd c o]) None
| oa_other : forall tr e r, one_at_a_time tr r -> (forall c, e <> EvBegin c) -> (forall c o, e <> EvEnd c o) ->
    one_at_a_time (tr ++ [e]) r.

Definition prefix {A} (a b : list A) : Prop := exists r, b = a ++ r.
Definition cb_eq_dec (a b : cb) : {a = b} + {a <> b}.
Proof. decide equality; apply Nat.eq_dec. Defined.
(** how often *)
Definition times (c : cb) (l : list cb) : nat := count_occ cb_eq_dec l c.

(** what client i sent, in order; the destructor sends the shutdown callback *)
Definition sent (i : nat) (tr : list aevent) : list cb :=
  flat_map (fun e => match e with
                     | EvSend j c => if Nat.eqb j i then [c] else []
                     | EvDtor j => if Nat.eqb j i then [Shutdown] else []
                     | _ => [] end) tr.
(** what thread t put into the queue, in order *)
Definition pushed_by {A} (t : nat) (tr : list (qevent A)) : list A :=
  flat_map (fun e => match e with Commit u (OPush x) _ => if Nat.eqb u t then [x] else [] | _ => [] end) tr.
