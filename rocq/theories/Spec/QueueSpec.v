(** What a queue is, and when a concurrent history is that of a queue. *)
From Coq Require Import List Arith NArith.
From Verif.Model Require Import SharedQueue.
Import ListNotations.

Section Spec.
Context {A : Type}.

(** a queue used by one thread: contents, operation, result, contents afterwards *)
Inductive atomic : list A -> qop A -> qres A -> list A -> Prop :=
| at_push : forall l x, atomic l (OPush x) RUnit (l ++ [x])
| at_pop : forall l x, atomic (x :: l) OPop (RItem x) l
| at_try : forall l x, atomic (x :: l) OTryPop (RItem x) l
| at_try_none : atomic [] OTryPop RNone []
| at_empty : forall l b, (b = true <-> l = []) -> atomic l OEmpty (RBool b) l
| at_size : forall l n, (N.of_nat (length l) mod 2 ^ 32 = n)%N -> atomic l OSize (RNum n) l.

(** a sequence of operations *)
Inductive sequential : list (qevent A) -> list A -> Prop :=
| sq_nil : sequential [] []
| sq_commit : forall tr l t o r l', sequential tr l -> atomic l o r l' -> sequential (tr ++ [Commit t o r]) l'
| sq_call : forall tr l t o, sequential tr l -> sequential (tr ++ [Call t o]) l
| sq_ret : forall tr l t r, sequential tr l -> sequential (tr ++ [Ret t r]) l.

(** one thread: call, effect, return with the result of the effect, and again *)
Inductive phase := Free | Called (o : qop A) | Committed (r : qres A).
Definition by_thread (t : nat) (e : qevent A) : bool :=
  match e with Call u _ => Nat.eqb u t | Commit u _ _ => Nat.eqb u t | Ret u _ => Nat.eqb u t end.
Inductive protocol : list (qevent A) -> phase -> Prop :=
| pr_nil : protocol [] Free
| pr_call : forall tr t o, protocol tr Free -> protocol (tr ++ [Call t o]) (Called o)
| pr_commit : forall tr t o r, protocol tr (Called o) -> protocol (tr ++ [Commit t o r]) (Committed r)
| pr_ret : forall tr t r, protocol tr (Committed r) -> protocol (tr ++ [Ret t r]) Free.

(** linearizable: with every operation placed at its Commit the history is that of a queue, and every Commit
    lies between the call and the return of its operation *)
Definition linearized (tr : list (qevent A)) (l : list A) : Prop :=
  sequential tr l /\ forall t, exists p, protocol (filter (by_thread t) tr) p.

(** items in the order in which they went in and came out *)
Definition pushed (tr : list (qevent A)) : list A :=
  flat_map (fun e => match e with Commit _ (OPush x) _ => [x] | _ => [] end) tr.
Definition popped (tr : list (qevent A)) : list A :=
  flat_map (fun e => match e with Commit _ _ (RItem x) => [x] | _ => [] end) tr.
End Spec.
