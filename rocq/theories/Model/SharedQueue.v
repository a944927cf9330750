(** shared_queue (src/g3log/shared_queue.hpp): a queue, a mutex and a condition variable, at the granularity of
    acquiring and releasing the mutex, the accesses made while holding it, waiting and notifying.

    Any number of threads; an idle thread may start any operation at any time.
    Simplifications: steps interleave (sequential consistency; all accesses to queue_ are made under the
    mutex, see C02_mutual_exclusion); copying and moving items cannot fail. *)
From Coq Require Import List Arith NArith Bool.
From Verif.Base Require Import Threads.
Import ListNotations.

Section Queue.
Context {A : Type}.

(** lines 38-77 *)
Inductive qop := OPush (x : A) | OPop | OTryPop | OEmpty | OSize.
(** results of the functions of shared_queue.hpp:38-77 *)
Inductive qres := RUnit | RItem (x : A) | RNone | RBool (b : bool) | RNum (n : N).

(** where a thread is; shared_queue.hpp:38-77 *)
Inductive qpc :=
| Idle (last : option qres)                 (* outside; result of its last operation *)
| Lock (o : qop)                            (* lines 40, 48, 59, 70, 75: wants the mutex *)
| Body (o : qop)                            (* has the mutex *)
| Sleep                                     (* line 61: inside wait, not notified *)
| Relock                                    (* line 61: inside wait, notified, wants the mutex back *)
| Take (try : bool)                         (* lines 52-53, 65-66: queue_ was not empty *)
| Leave (r : qres) (notify : bool)          (* the lock goes out of scope *)
| Notify.                                   (* line 43 *)

(** what happens: calls, the access to queue_ that decides the result, returns; ghost, for stating properties *)
Inductive qevent := Call (t : nat) (o : qop) | Commit (t : nat) (o : qop) (r : qres) | Ret (t : nat) (r : qres).

(** shared_queue.hpp:28-30 and the threads *)
Record qstate := mkQ {
  q_content : list A;                       (* queue_ *)
  q_owner : option nat;                     (* m_ *)
  q_waiters : list nat;                     (* data_cond_ *)
  q_pcs : list qpc;
  q_ub : bool;                              (* front() or pop() on an empty queue, or unlock by another thread *)
  q_trace : list qevent                     (* ghost *)
}.

(** shared_queue.hpp:36; n threads *)
Definition q_init (n : nat) : qstate := mkQ [] None [] (repeat (Idle None) n) false [].
(** helper of this model, no source of its own *)
Definition pc (s : qstate) (t : nat) : qpc := get (Idle None) (q_pcs s) t.
(** helper of this model, no source of its own *)
Definition goto (s : qstate) (t : nat) (p : qpc) : qstate :=
  mkQ (q_content s) (q_owner s) (q_waiters s) (upd (q_pcs s) t p) (q_ub s) (q_trace s).
(** helper of this model, no source of its own *)
Definition note (s : qstate) (e : qevent) : qstate :=
  mkQ (q_content s) (q_owner s) (q_waiters s) (q_pcs s) (q_ub s) (q_trace s ++ [e]).
(** helper of this model, no source of its own *)
Definition set_content (s : qstate) (l : list A) : qstate :=
  mkQ l (q_owner s) (q_waiters s) (q_pcs s) (q_ub s) (q_trace s).
(** helper of this model, no source of its own *)
Definition set_owner (s : qstate) (o : option nat) : qstate :=
  mkQ (q_content s) o (q_waiters s) (q_pcs s) (q_ub s) (q_trace s).
(** helper of this model, no source of its own *)
Definition set_waiters (s : qstate) (l : list nat) : qstate :=
  mkQ (q_content s) (q_owner s) l (q_pcs s) (q_ub s) (q_trace s).
(** helper of this model, no source of its own *)
Definition set_ub (s : qstate) : qstate :=
  mkQ (q_content s) (q_owner s) (q_waiters s) (q_pcs s) true (q_trace s).

(** m_.unlock() by thread t; C++ standard library, no source in /repo *)
Definition unlock (s : qstate) (t : nat) : qstate :=
  if match q_owner s with Some u => Nat.eqb u t | None => false end then set_owner s None else set_ub s.

(** what can happen next *)
Inductive qaction :=
| Start (t : nat) (o : qop)
| Step (t : nat)
| Wake (t : nat) (w : nat)                  (* notify_one by t wakes w *)
| NoWake (t : nat)                          (* notify_one by t finds nobody waiting *)
| Spurious (w : nat).

(** size() returns unsigned; shared_queue.hpp:74-77 *)
Definition to_unsigned (n : nat) : N := (N.of_nat n mod 4294967296)%N.

(** the accesses made with the mutex held; shared_queue.hpp:41, 49-53, 60-66, 71, 76 *)
Definition body (s : qstate) (t : nat) (o : qop) : qstate :=
  match o with
  | OPush x => goto (note (set_content s (q_content s ++ [x])) (Commit t o RUnit)) t (Leave RUnit true)
  | OPop =>
      match q_content s with
      | [] => set_waiters (goto (unlock s t) t Sleep) (t :: q_waiters s)     (* wait: unlock and sleep at once *)
      | _ :: _ => goto s t (Take false)
      end
  | OTryPop =>
      match q_content s with
      | [] => goto (note s (Commit t o RNone)) t (Leave RNone false)
      | _ :: _ => goto s t (Take true)
      end
  | OEmpty => let r := RBool (match q_content s with [] => true | _ => false end) in
              goto (note s (Commit t o r)) t (Leave r false)
  | OSize => let r := RNum (to_unsigned (length (q_content s))) in
             goto (note s (Commit t o r)) t (Leave r false)
  end.

(** return to the caller; helper of this model, no source of its own *)
Definition ret (s : qstate) (t : nat) (r : qres) : qstate := goto (note s (Ret t r)) t (Idle (Some r)).

(** None: the action is not possible now; shared_queue.hpp:38-77 *)
Definition qstep (s : qstate) (a : qaction) : option qstate :=
  match a with
  | Start t o =>
      match pc s t with
      | Idle _ => if Nat.ltb t (length (q_pcs s)) then Some (goto (note s (Call t o)) t (Lock o)) else None
      | _ => None
      end
  | Step t =>
      match pc s t with
      | Lock o => match q_owner s with None => Some (goto (set_owner s (Some t)) t (Body o)) | Some _ => None end
      | Relock => match q_owner s with None => Some (goto (set_owner s (Some t)) t (Body OPop)) | Some _ => None end
      | Body o => Some (body s t o)
      | Take try =>
          match q_content s with
          | [] => Some (set_ub s)
          | x :: l => Some (goto (note (set_content s l) (Commit t (if try then OTryPop else OPop) (RItem x))) t (Leave (RItem x) false))
          end
      | Leave r notify => let s' := unlock s t in Some (if notify then goto s' t Notify else ret s' t r)
      | _ => None
      end
  | Wake t w =>
      match pc s t with
      | Notify => if existsb (Nat.eqb w) (q_waiters s)
                  then Some (ret (goto (set_waiters s (remove Nat.eq_dec w (q_waiters s))) w Relock) t RUnit)
                  else None
      | _ => None
      end
  | NoWake t =>
      match pc s t, q_waiters s with
      | Notify, [] => Some (ret s t RUnit)
      | _, _ => None
      end
  | Spurious w =>
      if existsb (Nat.eqb w) (q_waiters s)
      then Some (goto (set_waiters s (remove Nat.eq_dec w (q_waiters s))) w Relock)
      else None
  end.

(** executions; helper of this model, no source of its own *)
Inductive qreach (n : nat) : qstate -> Prop :=
| qr_init : qreach n (q_init n)
| qr_step : forall s a s', qreach n s -> qstep s a = Some s' -> qreach n s'.
End Queue.
Arguments qop : clear implicits.
Arguments qres : clear implicits.
Arguments qpc : clear implicits.
Arguments qevent : clear implicits.
Arguments qstate : clear implicits.
Arguments qaction : clear implicits.
