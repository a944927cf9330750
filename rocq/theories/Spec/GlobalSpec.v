(** The life cycle of logging as its documentation has it, in terms of the calls made. *)
From Coq Require Import Ascii String List ZArith NArith Bool.
From Verif.Base Require Import Bytes.
From Verif.Model Require Import Levels Message Global.
Import ListNotations.
Local Open Scope list_scope.

(** ** projections of what was observed *)
Definition calls (tr : list (nat * event)) : list op :=
  flat_map (fun e => match snd e with EOp o => [o] | _ => [] end) tr.
Definition saves (tr : list (nat * event)) : list (nat * LogMessage) :=
  flat_map (fun e => match snd e with ESave w m => [(w, m)] | _ => [] end) tr.
Definition firsts (tr : list (nat * event)) : list (nat * LogMessage) :=
  flat_map (fun e => match snd e with ESaveFirst w m => [(w, m)] | _ => [] end) tr.
Definition starts (tr : list (nat * event)) : list str :=
  flat_map (fun e => match snd e with EStart s => [s] | _ => [] end) tr.
(** how often hook n ran *)
Definition runs (n : nat) (tr : list (nat * event)) : nat :=
  length (filter (fun e => match snd e with EHook k => Nat.eqb k n | _ => false end) tr).
(** how often hook n was set *)
Definition sets (n : nat) (l : list op) : nat :=
  length (filter (fun o => match o with OSetHook (Some (Hook k)) => Nat.eqb k n | _ => false end) l).
(** a fatal message given to somebody: a client's handler, a worker, or stderr *)
Inductive receiver := ToHandler (n : nat) | ToWorker (w : nat) | ToStderr.
Definition handed (e : nat * event) : list (receiver * FatalMessage) :=
  match snd e with
  | EHandler n f => [(ToHandler n, f)]
  | EFatal w f => [(ToWorker w, f)]
  | EStderrFatal f => [(ToStderr, f)]
  | _ => []
  end.
Definition hand_overs (tr : list (nat * event)) : list (receiver * FatalMessage) := flat_map handed tr.

(** ** the life cycle *)
(** does this call take worker w out of service? *)
Definition deactivates (w : nat) (o : op) : bool :=
  match o with
  | OShutdown => true
  | OShutdownFor None _ => true
  | OShutdownFor (Some x) _ => Nat.eqb x w
  | _ => false
  end.
(** worker w is in service after these calls: it was put into service and nothing took it out since *)
Definition in_service (w : nat) (l : list op) : Prop :=
  exists before after, l = before ++ OInit (Some w) :: after /\ forallb (fun o => negb (deactivates w o)) after = true /\
    (forall x, ~ In (OInit x) after).

(** the worker in service, as a function of the calls *)
Definition active_after (a : option nat) (o : op) : option nat :=
  match a, o with
  | None, OInit w => w
  | Some w, _ => if deactivates w o then None else Some w
  | None, _ => None
  end.
Definition active (l : list op) : option nat := fold_left active_after l None.

(** what the workers should get: every message logged while one of them is in service, and the warning about
    shutting down the wrong one *)
Definition delivery (a : option nat) (o : op) : list (nat * LogMessage) :=
  match a, o with
  | Some w, OLog m => [(w, m)]
  | Some w, OShutdownFor (Some x) (Some m) => if Nat.eqb x w then [] else [(w, m)]
  | _, _ => []
  end.
Fixpoint deliveries (a : option nat) (l : list op) : list (nat * LogMessage) :=
  match l with
  | [] => []
  | o :: r => delivery a o ++ deliveries (active_after a o) r
  end.

(** ** the first message logged without a logger *)
Definition marked (m : LogMessage) : LogMessage :=
  mkMsg (_logDetailsToStringFunc m) (_timestamp m) (_call_thread_id m) (Message._file m) (_file_path m) (_line m)
    (_function m) (_level m) (_expression m) (lit "LOGGER NOT INITIALIZED:" ++ [NL; TAB; TAB] ++ _message m).

(** as documented: the first message logged while nothing is in service goes to the next worker put into service.
    [a]: the worker in service; [lost]: that message if there was one; [done]: it was delivered *)
Fixpoint wanted (a : option nat) (lost : option LogMessage) (l : list op) : list (nat * LogMessage) :=
  match l with
  | [] => []
  | o :: r =>
      match a, o, lost with
      | None, OInit (Some w), Some m => [(w, marked m)]
      | None, OLog m, None => wanted a (Some m) r
      | _, _, _ => wanted (active_after a o) lost r
      end
  end.

(** what the code delivers: the first message logged before the first initialization *)
Fixpoint first_log (l : list op) : option LogMessage :=
  match l with
  | [] => None
  | OLog m :: _ => Some m
  | _ :: r => first_log r
  end.
Fixpoint first_init (l : list op) : option (nat * list op) :=
  match l with
  | [] => None
  | OInit (Some w) :: _ => Some (w, [])
  | o :: r => match first_init r with Some (w, b) => Some (w, o :: b) | None => None end
  end.
Definition first_delivered (l : list op) : list (nat * LogMessage) :=
  match first_init l with
  | Some (w, before) => match first_log before with Some m => [(w, marked m)] | None => [] end
  | None => []
  end.

(** ** fatal events *)
(** number of fatal events since logging was last initialized *)
Definition since_step (s : option nat * nat) (e : nat * event) : option nat * nat :=
  match snd e with
  | EOp o => (active_after (fst s) o,
              match fst s, o with None, OInit (Some _) => O | _, _ => snd s end)
  | EStart _ => (fst s, S (snd s))
  | _ => s
  end.
Definition since_init (tr : list (nat * event)) : nat := snd (fold_left since_step tr (None, O)).

(** the handler in force *)
Definition handler_after (h : option handler) (o : op) : option handler :=
  match o with OSetExit h' => h' | _ => h end.
Definition handler_of (l : list op) : option handler := fold_left handler_after l (Some HandlerDefault).

(** the texts of the code's messages, written out *)
Definition warning_text (first : str) : str :=
  [NL; NL; NL] ++ lit "WARNING" ++ [NL] ++
  lit "A recursive crash detected. It is likely the hook set with 'setFatalPreLoggingHook(...)' is responsible" ++
  [NL; NL] ++ lit "---First crash stacktrace: " ++ first ++ [NL] ++ lit "---End of first stacktrace" ++ [NL].
