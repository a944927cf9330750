(** What the worker gives to the sinks: copies of the message.
    Source: src/logworker.cpp:23-36, 38-64, src/g3log/sink.hpp:42-58, 64-68, src/g3log/logmessage.hpp:145-147
    (LogMessageMover = MoveOnCopy<LogMessage>), src/g3log/moveoncopy.hpp.

    Message objects live at addresses; an object that is moved from keeps whatever the library leaves in its strings
    ([lf]).  std::string owns its characters.  The sinks are registered all the time (registration: Model/Worker.v),
    and may change every message that they have received, at any time, in any way. *)
From Coq Require Import Ascii String List Arith Bool ZArith.
From Verif.Base Require Import Bytes Threads.
From Verif.Model Require Import Levels Message.
Import ListNotations.
Local Open Scope list_scope.
Local Open Scope nat_scope.

(** never used as a message; default of [get]; helper of this model, no source of its own *)
Definition no_msg : LogMessage := mkMsg DefaultDetails 0 0 [] [] 0 [] INFO [] [].
(** the message objects, by address; helper of this model, no source of its own *)
Definition heap := list LogMessage.
(** helper of this model, no source of its own *)
Definition at_ (h : heap) (a : nat) : LogMessage := get no_msg h a.
(** the object at address a is moved into a new object, as often as [hops] says: MoveOnCopy's constructors (moveoncopy.hpp:21-26)
    on the way through parameters, closures and std::function; result: heap and the last address *)
Fixpoint pass_on (h : heap) (a : nat) (hops : list (str -> str)) : heap * nat :=
  match hops with
  | [] => (h, a)
  | lf :: r => pass_on (upd h a (snd (moveMsg lf (at_ h a))) ++ [fst (moveMsg lf (at_ h a))]) (length h) r
  end.

(** logworker.cpp:23-64: the worker's message and loop; sink.hpp:64-68: the queues of the sinks *)
Record kstate := mkK {
  k_heap : heap;
  k_cur : option (nat * list nat);      (* *uniqueMsg, and the sinks that the loop has not reached *)
  k_qs : list (list nat);               (* messages on the way to the sinks *)
  k_own : list (list nat);              (* messages that the sinks have received *)
  k_seen : list (list LogMessage);      (* their contents at that time *)
  k_log : list LogMessage               (* ghost: the messages that came *)
}.
(** no message yet; helper of this model, no source of its own *)
Definition k_init (n : nat) : kstate := mkK [] None (repeat [] n) (repeat [] n) (repeat [] n) [].
(** helper of this model, no source of its own *)
Definition row {A} (l : list (list A)) (k : nat) : list A := get [] l k.
(** logworker.cpp:47-55: what bgFatal makes of its message *)
Definition fatal_form (m : LogMessage) (reason : str) : LogMessage :=
  write_append (write_append m (lit "
Exiting after fatal event  (" ++ msg_level m)) (lit "). " ++ lit "Fatal type: " ++ lit " " ++ reason ++ lit "
Log content flushed successfully to sink

").

(** what can happen next *)
Inductive kaction :=
| KSave (m : LogMessage)                          (* logworker.cpp:24 *)
| KFatal (m : LogMessage) (reason : str)          (* logworker.cpp:43-55 *)
| KSend (hops : list (str -> str))                (* logworker.cpp:27-28, 58-59; sink.hpp:64-66 *)
| KDone                                           (* logworker.cpp:36 *)
| KRecv (k : nat) (hops : list (str -> str))      (* sink.hpp:66, 47, 55-56 *)
| KEdit (k a : nat) (m : LogMessage).             (* the client's receive function, or later *)

(** logworker.cpp:24-26, 47-56: the message is there, the loop over the sinks begins *)
Definition begin_ (s : kstate) (m : LogMessage) : option kstate :=
  match k_cur s with
  | Some _ => None
  | None => Some (mkK (k_heap s ++ [m]) (Some (length (k_heap s), seq 0 (length (k_qs s)))) (k_qs s) (k_own s) (k_seen s) (k_log s ++ [m]))
  end.
(** logworker.cpp:23-36, 47-59, sink.hpp:64-68; None: the action is not possible now *)
Definition kstep (s : kstate) (a : kaction) : option kstate :=
  match a with
  | KSave m => begin_ s m
  | KFatal m reason => begin_ s (fatal_form m reason)
  | KSend hops =>
      match k_cur s with
      | Some (u, k :: todo) =>
          let h := k_heap s ++ [copyMsg (at_ (k_heap s) u)] in           (* LogMessage msg( *uniqueMsg ) *)
          let (h1, b) := pass_on h (length (k_heap s)) hops in
          Some (mkK h1 (Some (u, todo)) (upd (k_qs s) k (row (k_qs s) k ++ [b])) (k_own s) (k_seen s) (k_log s))
      | _ => None
      end
  | KDone => match k_cur s with Some (_, []) => Some (mkK (k_heap s) None (k_qs s) (k_own s) (k_seen s) (k_log s)) | _ => None end
  | KRecv k hops =>
      match row (k_qs s) k with
      | [] => None
      | a :: q =>
          let (h1, b) := pass_on (k_heap s) a hops in
          Some (mkK h1 (k_cur s) (upd (k_qs s) k q) (upd (k_own s) k (row (k_own s) k ++ [b])) (upd (k_seen s) k (row (k_seen s) k ++ [at_ h1 b])) (k_log s))
      end
  | KEdit k a m => if existsb (Nat.eqb a) (row (k_own s) k) then Some (mkK (upd (k_heap s) a m) (k_cur s) (k_qs s) (k_own s) (k_seen s) (k_log s)) else None
  end.
(** executions; helper of this model, no source of its own *)
Inductive kreach (n : nat) : kstate -> Prop :=
| kr_init : kreach n (k_init n)
| kr_step : forall s a s', kreach n s -> kstep s a = Some s' -> kreach n s'.
(** a given sequence of actions; helper of this model, no source of its own *)
Fixpoint krun (s : kstate) (l : list kaction) : option kstate :=
  match l with [] => Some s | a :: r => match kstep s a with Some s' => krun s' r | None => None end end.
