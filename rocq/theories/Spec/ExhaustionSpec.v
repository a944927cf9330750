(** What a logging statement may do when memory runs out. *)
From Coq Require Import Ascii String List ZArith NArith Bool.
From Verif.Base Require Import Bytes.
From Verif.Model Require Import Levels Message Capture Exhaustion.
Import ListNotations.
Local Open Scope list_scope.

(** [m] is the entry of the statement [t], with the text [s] *)
Definition is_entry (t : xstmt) (s : str) (m : LogMessage) : Prop :=
  _message m = c_str s /\ _file_path m = c_str (c_file (t_capture t)) /\ _line m = c_line (t_capture t) /\
  _function m = c_str (c_function (t_capture t)) /\ value (_level m) = value (c_level (t_capture t)) /\
  text (_level m) = c_str (text (c_level (t_capture t))) /\
  _expression m = c_str (c_expression (t_capture t)) /\ _timestamp m = t_now t /\ _call_thread_id m = t_tid t.

(** all the text of the statement *)
Definition whole_text (t : xstmt) : str := List.concat (t_pieces t).
Definition prefix_of (a b : str) : Prop := exists r, b = a ++ r.
(** the entry of [t], perhaps cut short *)
Definition cut_entry (t : xstmt) (m : LogMessage) : Prop := exists s, prefix_of s (whole_text t) /\ is_entry t s m.

Definition fatal (t : xstmt) : bool := (1000 <=? value (c_level (t_capture t)))%Z.
(** a LogCapture of the macros: nothing streamed yet *)
Definition fresh (t : xstmt) : Prop := c_stream (t_capture t) = [].

(** the statements that are not fatal and that came to their end, an exception of an operand notwithstanding *)
Definition came_through (p : xact * option xoutcome) : list xstmt :=
  match p with
  | (ALog t, Some Returned) => if fatal t then [] else [t]
  | (ALog t, Some Threw) => if negb (fatal t) && t_throws t then [t] else []
  | _ => []
  end.
Definition through (l : list (xact * option xoutcome)) : list xstmt := flat_map came_through l.

Definition saved (j : xjob) : list LogMessage := match j with XSave m => [m] | _ => [] end.
(** what the worker was given and has not lost: what it took, then what is in its queue *)
Definition with_worker (s : xst) : list LogMessage := x_taken s ++ flat_map saved (x_queue s).

Definition of_sink (k : nat) (l : list (nat * LogMessage)) : list LogMessage :=
  map snd (filter (fun p => Nat.eqb (fst p) k) l).
Definition ready_to_log (s : xst) : Prop := x_logger s = true /\ x_locked s = false /\ x_end s = None.
