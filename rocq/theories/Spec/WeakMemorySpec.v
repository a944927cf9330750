(** Executions as the C++ standard's memory model allows them ([intro.races], [atomics.order]): a read need not find the last value
    written, it may find any value whose write is not hidden from it by happens-before.  The order of the list is some order in which
    every action comes after those that happen before it; two actions of different threads that are not ordered by happens-before may
    stand in either order.  *)
From Coq Require Import List ZArith Bool.
From Coq Require Import Relations.Relation_Operators.
From Verif Require Import Base.Threads Model.Races Spec.RacesSpec Spec.HappensBeforeSpec.
Import ListNotations.
Open Scope Z_scope.

(** an action: its thread, what it was, the value written if it writes, and, if it reads, the number of the action whose value it
    found; None for the value from before the threads started *)
Record action := mkAction { by_thread : nat; what : event; wrote : val; from : option nat }.
Definition events_of (g : list action) : events := map (fun a => (by_thread a, what a)) g.

(** sequenced before, or synchronizes with *)
Inductive wbefore (g : list action) (i j : nat) : Prop :=
| w_same_thread t e f : (i < j)%nat -> is_event (events_of g) i t e -> is_event (events_of g) j t f -> wbefore g i j
| w_unlock_lock t u s : (i < j)%nat -> is_event (events_of g) i t (Unlocks s) -> is_event (events_of g) j u (Locks s) -> wbefore g i j
| w_write_read t u x r w a : (i < j)%nat ->
    is_event (events_of g) i t (Accesses x r true true) -> is_event (events_of g) j u (Accesses x true w true) ->
    nth_error g j = Some a -> from a = Some i -> wbefore g i j.
Definition whappens_before (g : list action) : nat -> nat -> Prop := clos_trans nat (wbefore g).

(** action number n of g may find the value v of x, written by the action f: a write that does not lie hidden behind another one, and,
    if the read is not atomic, happens before it.  Of the standard's rules for atomics only this one is kept: neither is the
    modification order respected nor is a read-modify-write exclusive, which allows more executions. *)
Definition may_find (m : loc -> val) (g : list action) (n : nat) (x : loc) (atomic : bool) (f : option nat) (v : val) : Prop :=
  match f with
  | Some i =>
      (i < n)%nat /\ writes_to (events_of g) x i /\ (exists a, nth_error g i = Some a /\ wrote a = v) /\
      (forall k, writes_to (events_of g) x k -> whappens_before g i k -> ~ whappens_before g k n) /\
      (atomic = false -> whappens_before g i n)
  | None => v = m x /\ forall k, writes_to (events_of g) x k -> ~ whappens_before g k n
  end.

(** the executions from st: the actions so far, the counts, the threads *)
Inductive weak (st : state) : list action -> (sem -> nat) -> list prog -> Prop :=
| weak_start : weak st [] (sems st) (ths st)
| weak_acq g sm ps t s k n : weak st g sm ps -> get Stop ps t = Acq s k -> sm s = S n ->
    weak st (g ++ [mkAction t (Locks s) [] None]) (set_sem sm s n) (upd ps t k)
| weak_rel g sm ps t s k : weak st g sm ps -> get Stop ps t = Rel s k ->
    weak st (g ++ [mkAction t (Unlocks s) [] None]) (set_sem sm s (S (sm s))) (upd ps t k)
| weak_rd g sm ps t a x k f v : weak st g sm ps -> get Stop ps t = Rd a x k ->
    may_find (mem st) (g ++ [mkAction t (Accesses x true false a) [] f]) (length g) x a f v ->
    weak st (g ++ [mkAction t (Accesses x true false a) [] f]) sm (upd ps t (k v))
| weak_wr g sm ps t a x v k : weak st g sm ps -> get Stop ps t = Wr a x v k ->
    weak st (g ++ [mkAction t (Accesses x false true a) v None]) sm (upd ps t k)
| weak_rmw g sm ps t x h k f v : weak st g sm ps -> get Stop ps t = Rmw x h k ->
    may_find (mem st) (g ++ [mkAction t (Accesses x true true true) (h v) f]) (length g) x true f v ->
    weak st (g ++ [mkAction t (Accesses x true true true) (h v) f]) sm (upd ps t k).

(** the value of x after the actions, when they are taken one after the other *)
Definition assign_to (x : loc) (v : val) (a : action) : val :=
  match what a with Accesses y _ true _ => if loc_eq_dec y x then wrote a else v | _ => v end.
Definition value_after (m : loc -> val) (g : list action) (x : loc) : val := fold_left (assign_to x) g (m x).

(** every conflicting pair of accesses is ordered: the execution has no data race in the sense of the standard *)
Definition no_data_race (g : list action) : Prop :=
  forall x i j, conflicting (events_of g) x i j -> whappens_before g i j \/ whappens_before g j i.

(** the execution is one of the interleavings of Model/Races.v, except for the values of the locations in [loose]: the same steps in the
    same order are possible there, they lead to the same threads and counts, and every value is the last one written *)
Definition sequential (loose : loc -> bool) (st : state) (g : list action) (sm : sem -> nat) (ps : list prog) : Prop :=
  exists st', runs (map by_thread g) st = Some st' /\ trace (map by_thread g) st = Some (events_of g) /\
    ths st' = ps /\ (forall s, sems st' s = sm s) /\ (forall x, loose x = false -> value_after (mem st) g x = mem st' x).

(** the values that are read from x do not influence what the thread does *)
Fixpoint blind (x : loc) (p : prog) : Prop :=
  match p with
  | Stop => True
  | Acq _ k | Rel _ k => blind x k
  | Rd _ y k => (y = x -> forall v w, k v = k w) /\ forall v, blind x (k v)
  | Wr _ _ _ k => blind x k
  | Rmw _ _ k => blind x k
  end.

(** two threads are about to access x, one of them writes; atomic accesses count as well *)
Definition meet_at (st : state) (x : loc) : Prop :=
  exists u v wu wv au av, u <> v /\
    next_access (get Stop (ths st) u) = Some (x, wu, au) /\ next_access (get Stop (ths st) v) = Some (x, wv, av) /\ wu || wv = true.
Definition never_meet (st : state) (x : loc) : Prop := forall sched st', runs sched st = Some st' -> ~ meet_at st' x.
