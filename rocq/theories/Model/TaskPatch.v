(** The replacement of std::packaged_task<void(...)> for Visual C++ up to 2013.
    Source: src/g3log/stlpatch_future.hpp:15-78, used by src/g3log/future.hpp:44-58.

    Tasks are variables of the program, shared states (of std::promise and std::future) have the number of the
    operation that made them as their name, functions are numbers.
    Left out: the arguments (g3log's tasks have none); swap (lines 49-52), which does not compile when it is used because inside the
    class the name swap is the member with one parameter; a function that uses the task it is in; self-assignment.
    Simplified: a std::function that was moved from is empty (the standard says: valid but unspecified). *)
From Coq Require Import List Bool PeanoNat.
Import ListNotations.

(** what is in a shared state: nothing yet; set_value was called; an exception; the promise was destroyed before.
    C++ standard library, no source in /repo *)
Inductive content := Waiting | HasValue | HasException (e : nat) | BrokenPromise.
(** [sh_taken]: get_future was called; C++ standard library, no source in /repo *)
Record shared := mkSh { sh_content : content; sh_taken : bool }.
(** a new one; C++ standard library, no source in /repo *)
Definition new_shared : shared := mkSh Waiting false.

(** exceptions: future_error with its codes, bad_function_call, an exception of the function; C++ standard library, no source in /repo *)
Inductive thrown := NoState | AlreadyRetrieved | AlreadySatisfied | BadFunctionCall | OfFunction (e : nat).
(** how an operation ended; helper of this model, no source of its own *)
Inductive result := Done | Answer (b : bool) | GaveFuture (k : nat) | Throws (x : thrown).

(** the operations of a program, one for each member of the class; stlpatch_future.hpp:24, 28, 32, 37, 46, 54, 58, 62, 66, 71 *)
Inductive top :=
| TDefault (i : nat)             (* packaged_task i; *)
| TNew (i f : nat)               (* packaged_task i(f); *)
| TMove (i j : nat)              (* packaged_task j(std::move(i)); *)
| TAssign (i j : nat)            (* j = std::move(i); *)
| TValid (i : nat)               (* i.valid(), bool(i) *)
| TGetFuture (i : nat)           (* i.get_future() *)
| TCall (i : nat)                (* i() *)
| TReset (i : nat)               (* i.reset() *)
| TDestroy (i : nat).            (* the end of i *)

(** what the n-th call of a function does, f its number: returns, or throws; client code *)
Definition behaviour := nat -> nat -> option nat.

(** helper of this model, no source of its own *)
Definition set {A : Type} (g : nat -> A) (n : nat) (x : A) : nat -> A := fun m => if Nat.eqb m n then x else g m.

(** the members; _my_promise without shared state = moved from; stlpatch_future.hpp:20-21 *)
Record task := mkTask { my_promise : option nat; my_func : option nat }.
(** variables, shared states, the calls of functions so far, number of the next operation; helper of this model, no source of its own *)
Record pmem := mkP { p_obj : nat -> option task; p_sh : nat -> shared; p_calls : list nat; p_now : nat }.
(** helper of this model, no source of its own *)
Definition p_init : pmem := mkP (fun _ => None) (fun _ => new_shared) [] 0.

(** a promise gives up its shared state; C++ standard library, no source in /repo *)
Definition abandon (sh : nat -> shared) (p : option nat) : nat -> shared :=
  match p with
  | None => sh
  | Some k => match sh_content (sh k) with Waiting => set sh k (mkSh BrokenPromise (sh_taken (sh k))) | _ => sh end
  end.
(** std::promise::get_future; C++ standard library, no source in /repo *)
Definition promise_get_future (sh : nat -> shared) (p : option nat) : (nat -> shared) * result :=
  match p with
  | None => (sh, Throws NoState)
  | Some k => if sh_taken (sh k) then (sh, Throws AlreadyRetrieved) else (set sh k (mkSh (sh_content (sh k)) true), GaveFuture k)
  end.
(** std::promise::set_value; C++ standard library, no source in /repo *)
Definition promise_set_value (sh : nat -> shared) (p : option nat) : (nat -> shared) * result :=
  match p with
  | None => (sh, Throws NoState)
  | Some k => match sh_content (sh k) with
              | Waiting => (set sh k (mkSh HasValue (sh_taken (sh k))), Done)
              | _ => (sh, Throws AlreadySatisfied)
              end
  end.

(** one operation, stlpatch_future.hpp:24-74; None: the program has no such variable, or has it already *)
Definition pstep (beh : behaviour) (s : pmem) (o : top) : option (pmem * result) :=
  let now := p_now s in
  match o with
  | TDefault i =>                                                          (* stlpatch_future.hpp:24-25 *)
      match p_obj s i with
      | Some _ => None
      | None => Some (mkP (set (p_obj s) i (Some (mkTask (Some now) None))) (set (p_sh s) now new_shared) (p_calls s) (S now), Done)
      end
  | TNew i f =>                                                            (* stlpatch_future.hpp:27-30 *)
      match p_obj s i with
      | Some _ => None
      | None => Some (mkP (set (p_obj s) i (Some (mkTask (Some now) (Some f)))) (set (p_sh s) now new_shared) (p_calls s) (S now), Done)
      end
  | TMove i j =>                                                           (* stlpatch_future.hpp:32-35 *)
      match p_obj s i, p_obj s j with
      | Some t, None => Some (mkP (set (set (p_obj s) i (Some (mkTask None None))) j (Some (mkTask (my_promise t) (my_func t))))
                                  (p_sh s) (p_calls s) (S now), Done)
      | _, _ => None
      end
  | TAssign i j =>                                                         (* stlpatch_future.hpp:37-41 *)
      if Nat.eqb i j then None else
      match p_obj s i, p_obj s j with
      | Some t, Some u => Some (mkP (set (set (p_obj s) i (Some (mkTask None None))) j (Some (mkTask (my_promise t) (my_func t))))
                                    (abandon (p_sh s) (my_promise u)) (p_calls s) (S now), Done)
      | _, _ => None
      end
  | TValid i =>                                                            (* stlpatch_future.hpp:54-60 *)
      match p_obj s i with
      | None => None
      | Some t => Some (mkP (p_obj s) (p_sh s) (p_calls s) (S now), Answer (match my_func t with Some _ => true | None => false end))
      end
  | TGetFuture i =>                                                        (* stlpatch_future.hpp:62-64 *)
      match p_obj s i with
      | None => None
      | Some t => let (sh, r) := promise_get_future (p_sh s) (my_promise t) in Some (mkP (p_obj s) sh (p_calls s) (S now), r)
      end
  | TCall i =>                                                             (* stlpatch_future.hpp:66-69 *)
      match p_obj s i with
      | None => None
      | Some t =>
          match my_func t with
          | None => Some (mkP (p_obj s) (p_sh s) (p_calls s) (S now), Throws BadFunctionCall)
          | Some f =>
              let calls := p_calls s ++ [f] in
              match beh (length (p_calls s)) f with
              | Some e => Some (mkP (p_obj s) (p_sh s) calls (S now), Throws (OfFunction e))
              | None => let (sh, r) := promise_set_value (p_sh s) (my_promise t) in Some (mkP (p_obj s) sh calls (S now), r)
              end
          end
      end
  | TReset i =>                                                            (* stlpatch_future.hpp:71-74 *)
      match p_obj s i with
      | None => None
      | Some t => Some (mkP (set (p_obj s) i (Some (mkTask (Some now) None))) (set (abandon (p_sh s) (my_promise t)) now new_shared)
                            (p_calls s) (S now), Done)
      end
  | TDestroy i =>                                                          (* stlpatch_future.hpp:46-47 *)
      match p_obj s i with
      | None => None
      | Some t => Some (mkP (set (p_obj s) i None) (abandon (p_sh s) (my_promise t)) (p_calls s) (S now), Done)
      end
  end.
(** a program: final state and results; helper of this model, no source of its own *)
Fixpoint prun (beh : behaviour) (s : pmem) (os : list top) : option (pmem * list result) :=
  match os with
  | [] => Some (s, [])
  | o :: r => match pstep beh s o with
              | None => None
              | Some (s', x) => match prun beh s' r with None => None | Some (s'', xs) => Some (s'', x :: xs) end
              end
  end.

(** g3::spawn_task with a worker, followed by what the background thread does: the task is made, its future taken, the task is moved n times
    (std::move, MoveOnCopy, std::function, the queue) and called where it ended up.  future.hpp:54-58, moveoncopy.hpp:21-48, active.hpp:39-42 *)
Definition spawned (f n : nat) : list top := TNew 0 f :: TGetFuture 0 :: map (fun i => TMove i (S i)) (seq 0 n) ++ [TCall n].
