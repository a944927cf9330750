(** The active object (src/g3log/active.hpp) on top of the queue of Model/SharedQueue.v, and spawn_task
    (src/g3log/future.hpp).

    One background thread, any number of client threads that may call send, spawn_task and, one of them, the
    destructor.  In the queue the background thread is thread 0 and client i is thread S i.
    Simplifications: callbacks are numbered; a callback sent by send can end or throw, and may itself
    call send; the function of a spawned task ends with any value or exception.  Operations that are still in the
    middle of a send when the destructor has returned go on (in C++ they would touch freed memory). *)
From Coq Require Import List Arith NArith Bool.
From Verif.Base Require Import Threads.
From Verif.Model Require Import SharedQueue.
Import ListNotations.

(** what is sent: client code, a packaged task (with the number of its promise), the lambda of line 51 *)
Inductive cb := User (n : nat) | Task (p : nat) | Shutdown.

(** outcome of running client code; of func() in active.hpp:41 *)
Inductive outcome := Val (v : nat) | Exc (e : nat).
(** shared state of a future: NullWorker is the runtime_error of future.hpp:50, Broken is
    std::future_errc::broken_promise *)
Inductive promise := Pending | Ready (o : outcome) | NullWorker | Broken.

(** the background thread: line 38; inside wait_and_pop; inside func(); inside func(), which is
    in the middle of a send; ended *)
Inductive bgpc := BTest | BPop | BRun (c : cb) | BSend (c : cb) | BExit.
(** a client: outside; in send; in the destructor before line 52; in join; destructor finished *)
Inductive clpc := CIdle | CSend | DSend | DJoin | DDone.

(** ghost events for stating properties: calls and returns of send (active.hpp:55-57), beginning and end of func() (active.hpp:41), call and return of the destructor (active.hpp:50-53) *)
Inductive aevent :=
| EvSend (i : nat) (c : cb) | EvSent (i : nat)
| EvBegin (c : cb) | EvEnd (c : cb) (o : outcome)
| EvDtor (i : nat) | EvDtorRet (i : nat).

(** active.hpp:45-47, the threads, and the shared states of the futures of future.hpp:56 *)
Record astate := mkA {
  a_q : qstate cb;                          (* mq_ *)
  a_done : bool;                            (* done_ *)
  a_bg : bgpc;                              (* thd_ *)
  a_cl : list clpc;
  a_prom : list promise;
  a_terminated : bool;                      (* an exception left the thread function *)
  a_tr : list aevent                        (* ghost *)
}.
(** createActive, lines 60-64: done_ is set before the thread starts *)
Definition a_init (n : nat) : astate := mkA (q_init (S n)) false BTest (repeat CIdle n) [] false [].

(** program counter of client i; helper of this model, no source of its own *)
Definition cl (s : astate) (i : nat) : clpc := get CIdle (a_cl s) i.
(** in active.hpp:50-53 *)
Definition is_dtor (c : clpc) : bool := match c with DSend | DJoin | DDone => true | _ => false end.
(** some client is in, or has finished, active.hpp:50-53 *)
Definition dtor_begun (s : astate) : bool := existsb is_dtor (a_cl s).

(** what can happen next; the lines are those of active.hpp *)
Inductive aaction :=
| AQueue (a : qaction cb)                   (* a step inside an operation of the queue *)
| ATest                                     (* line 38, and call of wait_and_pop *)
| ABegin                                    (* line 41: func() *)
| AEnd (o : outcome)                        (* func() is over *)
| ABgSend (c : cb) | ABgSent                (* send by the running callback *)
| ASend (i : nat) (n : nat)                 (* send(User n) *)
| ASpawn (i : nat)                          (* spawn_task on this object *)
| ASpawnNull (i : nat)                      (* spawn_task on a null pointer *)
| ASent (i : nat)
| ADtor (i : nat) | ADtorSent (i : nat) | ADtorRet (i : nat).

(** the queue, the trace; setters of the record; helper of this model, no source of its own *)
Definition with_q (s : astate) (q : qstate cb) : astate :=
  mkA q (a_done s) (a_bg s) (a_cl s) (a_prom s) (a_terminated s) (a_tr s).
(** helper of this model, no source of its own *)
Definition with_bg (s : astate) (b : bgpc) : astate :=
  mkA (a_q s) (a_done s) b (a_cl s) (a_prom s) (a_terminated s) (a_tr s).
(** helper of this model, no source of its own *)
Definition with_cl (s : astate) (i : nat) (c : clpc) : astate :=
  mkA (a_q s) (a_done s) (a_bg s) (upd (a_cl s) i c) (a_prom s) (a_terminated s) (a_tr s).
(** helper of this model, no source of its own *)
Definition with_prom (s : astate) (l : list promise) : astate :=
  mkA (a_q s) (a_done s) (a_bg s) (a_cl s) l (a_terminated s) (a_tr s).
(** helper of this model, no source of its own *)
Definition a_note (s : astate) (e : aevent) : astate :=
  mkA (a_q s) (a_done s) (a_bg s) (a_cl s) (a_prom s) (a_terminated s) (a_tr s ++ [e]).
(** active.hpp:51: the body of the lambda *)
Definition set_done (s : astate) : astate :=
  mkA (a_q s) true (a_bg s) (a_cl s) (a_prom s) (a_terminated s) (a_tr s).
(** std::terminate: an exception leaves run(), active.hpp:37-43 *)
Definition terminate (s : astate) : astate :=
  mkA (a_q s) (a_done s) (a_bg s) (a_cl s) (a_prom s) true (a_tr s).

(** a step inside push or wait_and_pop (shared_queue.hpp:38-67), not the call of one *)
Definition is_internal (a : qaction cb) : bool := match a with Start _ _ => false | _ => true end.

(** thread t calls an operation of the queue; active.hpp:40, 56 *)
Definition start (s : astate) (t : nat) (o : qop cb) : option astate := option_map (with_q s) (qstep (a_q s) (Start t o)).
(** the queue operation that thread t called has returned; helper of this model, no source of its own *)
Definition returned (s : astate) (t : nat) : bool := match pc (a_q s) t with Idle _ => true | _ => false end.

(** lines 50-53, and the destruction of what was never executed *)
Definition break_promises (l : list promise) : list promise :=
  map (fun p => match p with Pending => Broken | _ => p end) l.

(** active.hpp:37-64 and future.hpp:43-59; None: the action is not possible now *)
Definition astep (s : astate) (a : aaction) : option astate :=
  if a_terminated s then None else
  match a with
  | AQueue qa => if is_internal qa then option_map (with_q s) (qstep (a_q s) qa) else None
  | ATest =>
      match a_bg s with
      | BTest => if a_done s then Some (with_bg s BExit) else option_map (fun s' => with_bg s' BPop) (start s 0 OPop)
      | _ => None
      end
  | ABegin =>
      match a_bg s, pc (a_q s) 0 with
      | BPop, Idle (Some (RItem c)) => Some (a_note (with_bg s (BRun c)) (EvBegin c))
      | _, _ => None
      end
  | AEnd o =>
      match a_bg s with
      | BRun c =>
          let s' := a_note (with_bg s BTest) (EvEnd c o) in
          Some (match c with
                | Shutdown => set_done s'
                | Task p => with_prom s' (upd (a_prom s') p (Ready o))       (* packaged_task catches exceptions *)
                | User _ => match o with Val _ => s' | Exc _ => terminate s' end
                end)
      | _ => None
      end
  | ABgSend c' =>
      match a_bg s, c' with
      | BRun (User n), User _ => option_map (fun s' => with_bg s' (BSend (User n))) (start s 0 (OPush c'))
      | _, _ => None
      end
  | ABgSent =>
      match a_bg s with
      | BSend c => if returned s 0 then Some (with_bg s (BRun c)) else None
      | _ => None
      end
  | ASend i n =>
      match cl s i with
      | CIdle => if existsb (fun c => match c with DDone => true | _ => false end) (a_cl s) then None
                 else option_map (fun s' => a_note (with_cl s' i CSend) (EvSend i (User n))) (start s (S i) (OPush (User n)))
      | _ => None
      end
  | ASpawn i =>
      match cl s i with
      | CIdle => if existsb (fun c => match c with DDone => true | _ => false end) (a_cl s) then None
                 else option_map (fun s' => a_note (with_prom (with_cl s' i CSend) (a_prom s' ++ [Pending])) (EvSend i (Task (length (a_prom s')))))
                                 (start s (S i) (OPush (Task (length (a_prom s)))))
      | _ => None
      end
  | ASpawnNull i =>
      match cl s i with
      | CIdle => Some (with_prom s (a_prom s ++ [NullWorker]))
      | _ => None
      end
  | ASent i =>
      match cl s i with
      | CSend => if returned s (S i) then Some (a_note (with_cl s i CIdle) (EvSent i)) else None
      | _ => None
      end
  | ADtor i =>
      match cl s i with
      | CIdle => if dtor_begun s then None
                 else option_map (fun s' => a_note (with_cl s' i DSend) (EvDtor i)) (start s (S i) (OPush Shutdown))
      | _ => None
      end
  | ADtorSent i =>
      match cl s i with
      | DSend => if returned s (S i) then Some (with_cl s i DJoin) else None
      | _ => None
      end
  | ADtorRet i =>
      match cl s i, a_bg s with
      | DJoin, BExit => Some (a_note (with_prom (with_cl s i DDone) (break_promises (a_prom s))) (EvDtorRet i))
      | _, _ => None
      end
  end.

(** any number of steps; helper of this model, no source of its own *)
Inductive asteps : astate -> astate -> Prop :=
| as_refl : forall s, asteps s s
| as_step : forall s s1 a s2, asteps s s1 -> astep s1 a = Some s2 -> asteps s s2.
(** executions from createActive, active.hpp:60-64 *)
Definition areach (n : nat) (s : astate) : Prop := asteps (a_init n) s.
