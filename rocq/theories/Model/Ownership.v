(** The wrapper around log messages, and its way to the worker.
    Source: src/g3log/moveoncopy.hpp, src/g3log/logmessage.hpp:145-147, src/g3log.cpp:143-155, 193-209,
    src/logworker.cpp:23-36, 101-103, src/g3log/active.hpp:37-57.

    MoveOnCopy<std::unique_ptr<LogMessage>>: the wrapper has one member, a unique_ptr.  A cell is a wrapper or a
    plain unique_ptr; it owns an object (a message, named by a number), or is null, or has been destroyed itself.
    The calling thread, the queue and the worker are interleaved arbitrarily; the steps inside the queue are those
    of Model/SharedQueue.v and are atomic here. *)
From Coq Require Import List Arith Bool.
From Verif.Base Require Import Threads.
Import ListNotations.

(** ** Wrappers *)
(** moveoncopy.hpp:19: the member _move_only; Dead: the wrapper was destroyed *)
Inductive cell := Dead | Own (p : option nat).
(** all wrappers, and the objects they own; helper of this model, no source of its own *)
Record mem := mkMem { o_cells : list cell; o_objs : nat; o_freed : list nat (* objects, in the order of their deletion *) }.
(** helper of this model, no source of its own *)
Definition o_init : mem := mkMem [] 0 [].
(** helper of this model, no source of its own *)
Definition cell_at (s : mem) (c : nat) : cell := get Dead (o_cells s) c.
(** helper of this model, no source of its own *)
Definition put (s : mem) (c : nat) (x : cell) : mem := mkMem (upd (o_cells s) c x) (o_objs s) (o_freed s).
(** a new wrapper; helper of this model, no source of its own *)
Definition grow (s : mem) (x : cell) : mem := mkMem (o_cells s ++ [x]) (o_objs s) (o_freed s).
(** ~unique_ptr, reset; C++ standard library, no source in /repo *)
Definition delete (s : mem) (p : option nat) : mem := mkMem (o_cells s) (o_objs s) (o_freed s ++ match p with Some o => [o] | None => [] end).

(** ORes: done; OUb: null dereference; ONot: the program names a wrapper that does not exist; helper of this model, no source of its own *)
Inductive ores := ORes (s : mem) | OUb | ONot.
(** moveoncopy.hpp:21-48 *)
Inductive op :=
| ONew                      (* make_unique, and MoveOnCopy(Moveable&&); moveoncopy.hpp:21-22 *)
| OCopyCtor (c : nat)       (* moveoncopy.hpp:23-24 *)
| OMoveCtor (c : nat)       (* moveoncopy.hpp:25-26 *)
| OCopyAssign (d c : nat)   (* moveoncopy.hpp:28-31 *)
| OMoveAssign (d c : nat)   (* moveoncopy.hpp:33-36 *)
| ORelease (c : nat)        (* moveoncopy.hpp:46-48, and unique_ptr(std::move(x.get())), logworker.cpp:24 *)
| ODestroy (c : nat)        (* implicit destructor *)
| OUse (c : nat).           (* *x.get(), x.get()-> ; moveoncopy.hpp:42-44 *)

(** unique_ptr(unique_ptr&& u): takes u.release(); C++ standard library, no source in /repo *)
Definition construct_from (s : mem) (c : nat) : ores :=
  match cell_at s c with
  | Dead => ONot
  | Own p => ORes (grow (put s c (Own None)) (Own p))
  end.
(** unique_ptr::operator=(unique_ptr&& u): reset(u.release()); C++ standard library, no source in /repo *)
Definition assign_from (s : mem) (d c : nat) : ores :=
  match cell_at s c with
  | Dead => ONot
  | Own p =>
      let s1 := put s c (Own None) in
      match cell_at s1 d with
      | Dead => ONot
      | Own old => ORes (delete (put s1 d (Own p)) old)
      end
  end.
(** moveoncopy.hpp:21-48: the effect of one operation *)
Definition oexec (s : mem) (o : op) : ores :=
  match o with
  | ONew => ORes (grow (mkMem (o_cells s) (S (o_objs s)) (o_freed s)) (Own (Some (o_objs s))))
  | OCopyCtor c => construct_from s c
  | OMoveCtor c => construct_from s c
  | OCopyAssign d c => assign_from s d c
  | OMoveAssign d c => assign_from s d c
  | ORelease c => construct_from s c
  | ODestroy c => match cell_at s c with Dead => ONot | Own p => ORes (delete (put s c Dead) p) end
  | OUse c => match cell_at s c with Dead => ONot | Own None => OUb | Own (Some _) => ORes s end
  end.
(** helper of this model, no source of its own *)
Fixpoint oexecs (s : mem) (l : list op) : ores :=
  match l with [] => ORes s | o :: r => match oexec s o with ORes s' => oexecs s' r | x => x end end.

(** ** The way to the worker *)
(** A caller: the message (ghost) and the wrapper that is passed on at present, and earlier wrappers that still exist
    (parameters and closures of the calls that it is in).  g3log.cpp:143-155, 193-209 *)
Record caller := mkCaller { u_cur : option (nat * nat); u_old : list nat }.
(** helper of this model, no source of its own *)
Definition no_caller : caller := mkCaller None [].
(** The worker: the wrapper in use, and whether bgSave has used it already.  shared_queue.hpp:28, logworker.cpp:23-36 *)
Record jstate := mkJ {
  j_mem : mem;
  j_cl : list caller;
  j_q : list nat;                   (* the queue, for each callback the wrapper inside *)
  j_w : option (nat * bool);
  j_wold : list nat;
  j_sent : list nat;                (* ghost: messages in the order in which they were queued *)
  j_gone : list nat;                (* ghost: messages that were dropped because no logger is active *)
  j_handed : list nat;              (* messages that bgSave gave to the sinks *)
  j_ub : bool                       (* null was dereferenced *)
}.
(** helper of this model, no source of its own *)
Definition j_init (n : nat) : jstate := mkJ o_init (repeat no_caller n) [] None [] [] [] [] false.

(** what can happen next *)
Inductive jaction :=
| JNew (i : nat)                (* g3log.cpp:146 *)
| JPass (i : nat) (o : op)      (* g3log.cpp:153, 208, logworker.cpp:102, active.hpp:55-56, shared_queue.hpp:38 and the construction and copying of std::function *)
| JSend (i : nat)               (* shared_queue.hpp:41 *)
| JDiscard (i : nat)            (* g3log.cpp:195-205: not the first message *)
| JDrop (i c : nat)             (* a parameter or closure is destroyed *)
| JPop                          (* active.hpp:39-40, shared_queue.hpp:65-66 *)
| JWPass (o : op)               (* shared_queue.hpp:65, logworker.cpp:102, 24 *)
| JUse                          (* logworker.cpp:26-35 *)
| JEnd                          (* logworker.cpp:36: the local unique_ptr is destroyed *)
| JWDrop (c : nat).             (* the parameter of bgSave; func in active.hpp:42 *)

(** the operations by which a wrapper is passed on; whether a copy, a move, or nothing (elision) depends on the library and the compiler; moveoncopy.hpp:21-26, 46-48 *)
Definition passes (c : nat) (o : op) : bool :=
  match o with OCopyCtor u | OMoveCtor u | ORelease u => Nat.eqb u c | _ => false end.
(** helper of this model, no source of its own *)
Definition caller_at (s : jstate) (i : nat) : caller := get no_caller (j_cl s) i.
(** helper of this model, no source of its own *)
Definition mem_has (c : nat) (l : list nat) : bool := existsb (Nat.eqb c) l.
(** helper of this model, no source of its own *)
Definition drop1 (c : nat) (l : list nat) : list nat := filter (fun u => negb (Nat.eqb u c)) l.

(** helper of this model, no source of its own *)
Definition set_caller (s : jstate) (m : mem) (i : nat) (u : caller) : jstate :=
  mkJ m (upd (j_cl s) i u) (j_q s) (j_w s) (j_wold s) (j_sent s) (j_gone s) (j_handed s) (j_ub s).
(** helper of this model, no source of its own *)
Definition set_worker (s : jstate) (m : mem) (w : option (nat * bool)) (old : list nat) : jstate :=
  mkJ m (j_cl s) (j_q s) w old (j_sent s) (j_gone s) (j_handed s) (j_ub s).

(** g3log.cpp:143-155, 193-209, logworker.cpp:23-36, 101-103, active.hpp:37-57; None: the action is not possible now *)
Definition jstep (s : jstate) (a : jaction) : option jstate :=
  match a with
  | JNew i =>
      let u := caller_at s i in
      match u_cur u with
      | Some _ => None
      | None => if Nat.ltb i (length (j_cl s)) then
          match oexec (j_mem s) ONew with
          | ORes m => Some (set_caller s m i (mkCaller (Some (o_objs (j_mem s), length (o_cells (j_mem s)))) (u_old u)))
          | _ => None
          end else None
      end
  | JPass i o =>
      let u := caller_at s i in
      match u_cur u with
      | None => None
      | Some (x, c) => if passes c o then
          match oexec (j_mem s) o with
          | ORes m => Some (set_caller s m i (mkCaller (Some (x, length (o_cells (j_mem s)))) (c :: u_old u)))
          | _ => None
          end else None
      end
  | JSend i =>
      let u := caller_at s i in
      match u_cur u with
      | None => None
      | Some (x, c) => Some (mkJ (j_mem s) (upd (j_cl s) i (mkCaller None (u_old u))) (j_q s ++ [c]) (j_w s) (j_wold s) (j_sent s ++ [x]) (j_gone s) (j_handed s) (j_ub s))
      end
  | JDiscard i =>
      let u := caller_at s i in
      match u_cur u with
      | None => None
      | Some (x, c) =>
          match oexec (j_mem s) (ODestroy c) with
          | ORes m => Some (mkJ m (upd (j_cl s) i (mkCaller None (u_old u))) (j_q s) (j_w s) (j_wold s) (j_sent s) (j_gone s ++ [x]) (j_handed s) (j_ub s))
          | _ => None
          end
      end
  | JDrop i c =>
      let u := caller_at s i in
      if mem_has c (u_old u) then
        match oexec (j_mem s) (ODestroy c) with
        | ORes m => Some (set_caller s m i (mkCaller (u_cur u) (drop1 c (u_old u))))
        | _ => None
        end
      else None
  | JPop =>
      match j_w s, j_q s with
      | None, c :: q => Some (mkJ (j_mem s) (j_cl s) q (Some (c, false)) (j_wold s) (j_sent s) (j_gone s) (j_handed s) (j_ub s))
      | _, _ => None
      end
  | JWPass o =>
      match j_w s with
      | Some (c, false) => if passes c o then
          match oexec (j_mem s) o with
          | ORes m => Some (set_worker s m (Some (length (o_cells (j_mem s)), false)) (c :: j_wold s))
          | _ => None
          end else None
      | _ => None
      end
  | JUse =>
      match j_w s with
      | Some (c, false) =>
          match oexec (j_mem s) (OUse c), cell_at (j_mem s) c with
          | ORes m, Own (Some x) => Some (mkJ m (j_cl s) (j_q s) (Some (c, true)) (j_wold s) (j_sent s) (j_gone s) (j_handed s ++ [x]) (j_ub s))
          | OUb, _ => Some (mkJ (j_mem s) (j_cl s) (j_q s) (Some (c, true)) (j_wold s) (j_sent s) (j_gone s) (j_handed s) true)
          | _, _ => None
          end
      | _ => None
      end
  | JEnd =>
      match j_w s with
      | Some (c, true) =>
          match oexec (j_mem s) (ODestroy c) with
          | ORes m => Some (set_worker s m None (j_wold s))
          | _ => None
          end
      | _ => None
      end
  | JWDrop c =>
      if mem_has c (j_wold s) then
        match oexec (j_mem s) (ODestroy c) with
        | ORes m => Some (set_worker s m (j_w s) (drop1 c (j_wold s)))
        | _ => None
        end
      else None
  end.
(** executions; helper of this model, no source of its own *)
Inductive jreach (n : nat) : jstate -> Prop :=
| jr_init : jreach n (j_init n)
| jr_step : forall s a s', jreach n s -> jstep s a = Some s' -> jreach n s'.
