(** The atomic variables of the library, in executions of the C++ memory model.
    Source: src/g3log/atomicbool.hpp:14-46 (the switch of a level), src/crashhandler_unix.cpp:40, 53-57, 130-132, 240 (gBlockForFatal, firstExit),
    src/g3log.cpp:46, 82, 162, 170 (g_fatal_hook_recursive_counter).

    Executions are axiomatic, after [intro.races] and [atomics.order] of C++17: a list of events, numbered; the events of a thread are in the order of
    the list, those of different threads are in no order; where every read has its value from; a modification order for each variable.
    Simplifications: the single total order of sequentially consistent operations is not required, they count as acquire and release: there are more
    executions here than the standard allows.  What else synchronizes (mutexes, the start of threads) is a relation that may be anything. *)
From Coq Require Import List ZArith Bool Relations PeanoNat.
Import ListNotations.
Local Open Scope list_scope.
Local Open Scope Z_scope.

(** the variables: crashhandler_unix.cpp:54, g3log.cpp:46, crashhandler_unix.cpp:40, loglevels.hpp:104 (of the level with that value) *)
Inductive aloc := FirstExit | Counter | Block | Switch (key : Z).
(** an event: what it reads, what it writes (both: a read-modify-write), whether it is an acquire or release operation; helper of this model, no source of its own *)
Record event := mkE { e_thread : nat; e_loc : aloc; e_old : option Z; e_new : option Z; e_sync : bool }.

(** a counter of 64 bits; crashhandler_unix.cpp:54-55, g3log.cpp:46, 162 *)
Definition next64 (v : Z) : Z := (v + 1) mod 2 ^ 64.
(** bool as a number; helper of this model, no source of its own *)
Definition num (b : bool) : Z := if b then 1 else 0.
(** the events of the code: shouldDoExit (crashhandler_unix.cpp:53-57, relaxed); saveFatalMessage (g3log.cpp:162 and 170) and initializeLogging
    (g3log.cpp:82); shouldBlockForFatalHandling and exitWithDefaultSignalHandler (crashhandler_unix.cpp:130-132 and 240); reading and setting the switch
    of a level (atomicbool.hpp:25-37 and 43, loglevels.cpp:63-88; getStatus reads with the default order, loglevels.cpp:107-114) *)
Inductive coded : event -> Prop :=
| by_shouldDoExit t v : coded (mkE t FirstExit (Some v) (Some (next64 v)) false)
| by_increment t v : coded (mkE t Counter (Some v) (Some (next64 v)) true)
| by_load t v : coded (mkE t Counter (Some v) None true)
| by_initialize t : coded (mkE t Counter None (Some 0) true)
| by_shouldBlock t b : coded (mkE t Block (Some (num b)) None true)
| by_unblock t : coded (mkE t Block None (Some (num false)) true)
| by_value t k b : coded (mkE t (Switch k) (Some (num b)) None true)
| by_assign t k b : coded (mkE t (Switch k) None (Some (num b)) true).
(** what shouldDoExit returns, by the value its operation found; crashhandler_unix.cpp:55-56 *)
Definition shouldDoExit (count : Z) : bool := 0 =? count.
(** whether saveFatalMessage writes of a recursive crash, by the value it loads; g3log.cpp:170 *)
Definition recursive (loaded : Z) : bool := loaded >? 1.
(** crashhandler_unix.cpp:40, 54, g3log.cpp:46; [levels]: the switches at the start, loglevels.cpp:14-30 *)
Definition initially (levels : Z -> bool) (x : aloc) : Z :=
  match x with FirstExit => 0 | Counter => 0 | Block => num true | Switch k => num (levels k) end.

(** an execution; [x_rf]: the event a read has its value from, None: the initial value; [x_mo i j]: i is before j in the modification order; [x_other]:
    other synchronization; C++17 [intro.races] *)
Record execution := mkX { x_events : list event; x_rf : nat -> option nat; x_mo : nat -> nat -> bool; x_other : nat -> nat -> Prop }.
(** helpers of this model, no source of their own *)
Definition at_ (x : execution) (i : nat) (e : event) : Prop := nth_error (x_events x) i = Some e.
Definition writes (x : execution) (l : aloc) (i : nat) : Prop := exists e, at_ x i e /\ e_loc e = l /\ e_new e <> None.
Definition reads (x : execution) (l : aloc) (i : nat) : Prop := exists e, at_ x i e /\ e_loc e = l /\ e_old e <> None.
(** sequenced before; [intro.execution] *)
Definition sb (x : execution) (i j : nat) : Prop :=
  (i < j)%nat /\ exists a b, at_ x i a /\ at_ x j b /\ e_thread a = e_thread b.
(** the release sequence that i heads; [intro.races] *)
Inductive sequence (x : execution) (i : nat) : nat -> Prop :=
| seq_head : sequence x i i
| seq_next : forall j k l, sequence x i j -> writes x l k -> reads x l k -> x_rf x k = Some j -> sequence x i k.
(** synchronizes with; [atomics.order] *)
Definition sw (x : execution) (i j : nat) : Prop :=
  exists a b k, at_ x i a /\ at_ x j b /\ e_new a <> None /\ e_old b <> None /\ e_sync a = true /\ e_sync b = true /\ x_rf x j = Some k /\ sequence x i k.
(** happens before; [intro.races] *)
Definition hb (x : execution) : nat -> nat -> Prop := clos_trans nat (fun i j => sb x i j \/ sw x i j \/ x_other x i j).

(** the requirements on an execution; [intro.races], [atomics.order] *)
Record consistent (init : aloc -> Z) (x : execution) : Prop := mkConsistent {
  c_hb : forall i, ~ hb x i i;
  c_mo_irreflexive : forall i, x_mo x i i = false;
  c_mo_transitive : forall i j k, x_mo x i j = true -> x_mo x j k = true -> x_mo x i k = true;
  c_mo_total : forall l i j, writes x l i -> writes x l j -> i <> j -> x_mo x i j = true \/ x_mo x j i = true;
  c_mo_same : forall i j, x_mo x i j = true -> exists l, writes x l i /\ writes x l j;
  c_rf_some : forall j b v i, at_ x j b -> e_old b = Some v -> x_rf x j = Some i -> exists a, at_ x i a /\ e_loc a = e_loc b /\ e_new a = Some v;
  c_rf_none : forall j b v, at_ x j b -> e_old b = Some v -> x_rf x j = None -> v = init (e_loc b);
  (* coherence *)
  c_ww : forall l i j, writes x l i -> writes x l j -> hb x i j -> x_mo x i j = true;
  c_wr : forall l i j, writes x l i -> reads x l j -> hb x i j -> exists k, x_rf x j = Some k /\ (k = i \/ x_mo x i k = true);
  c_rw : forall l i j k, reads x l i -> writes x l j -> hb x i j -> x_rf x i = Some k -> x_mo x k j = true;
  c_rr : forall l i j k, reads x l i -> reads x l j -> hb x i j -> x_rf x i = Some k -> exists k', x_rf x j = Some k' /\ (k' = k \/ x_mo x k k' = true);
  (* a read-modify-write reads the last value before its own *)
  c_rmw_some : forall l i k, writes x l i -> reads x l i -> x_rf x i = Some k -> x_mo x k i = true /\ forall j, x_mo x j i = true -> j = k \/ x_mo x j k = true;
  c_rmw_none : forall l i j, writes x l i -> reads x l i -> x_rf x i = None -> x_mo x j i = false
}.
