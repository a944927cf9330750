(** Specifications of the message texts, written as layouts. *)
From Coq Require Import Ascii String List ZArith NArith Bool.
From Verif.Base Require Import Bytes.
Import ListNotations.
Local Open Scope list_scope.

(** a path separator, or the parenthesis some compilers put in front of a file name *)
Definition sep (c : ascii) : Prop := c = "/"%char \/ c = "\"%char \/ c = "("%char.

(** [name] is the last component of [path] *)
Definition last_component (path name : str) : Prop :=
  (forall c, In c name -> ~ sep c) /\
  (path = name \/ exists dir c, sep c /\ path = dir ++ c :: name).

(** details of an entry, and details with the thread *)
Definition details (ts level file function line : str) : str :=
  ts ++ [TAB] ++ level ++ lit " [" ++ file ++ lit "->" ++ function ++ lit ":" ++ line ++ lit "]" ++ [TAB].

Definition full_details (ts level thread file function line : str) : str :=
  ts ++ [TAB] ++ level ++ lit " [" ++ thread ++ lit " " ++ file ++ lit "->" ++ function ++ lit ":" ++ line ++
  lit "]" ++ [TAB].

(** a normal entry *)
Definition entry (details message : str) : str := details ++ message ++ [NL].

(** the fatal entries *)
Definition log_fatal_entry (details message : str) : str :=
  details ++ [NL; TAB] ++ lit "*******" ++ [TAB] ++ lit " EXIT trigger caused by LOG(FATAL) entry: " ++
  [NL; TAB; DQ] ++ message ++ [DQ].
Definition check_entry (details expression message : str) : str :=
  details ++ [NL; TAB] ++ lit "*******" ++ [TAB] ++ lit " EXIT trigger caused by broken Contract: CHECK(" ++
  expression ++ lit ")" ++ [NL; TAB; DQ] ++ message ++ [DQ].
Definition signal_entry (ts message : str) : str :=
  ts ++ [NL; NL] ++ lit "***** FATAL SIGNAL RECEIVED ******* " ++ [NL] ++ message ++ [NL].
Definition exception_entry (ts message : str) : str :=
  ts ++ [NL; NL] ++ lit "***** FATAL EXCEPTION RECEIVED ******* " ++ [NL] ++ message ++ [NL].
Definition custom_fatal_entry (details message : str) : str :=
  details ++ [TAB] ++ lit "*******UNKNOWN or Custom made Log Message Type" ++ [NL; TAB] ++ message ++ [NL].

(** the text for a level value, given the timestamp, the details and the texts *)
Definition rendering (level_value : Z) (ts details expression message : str) : str :=
  if (level_value <? 1000)%Z then entry details message
  else if (level_value =? 1000)%Z then log_fatal_entry details message
  else if (level_value =? 2000)%Z then check_entry details expression message
  else if (level_value =? 2001)%Z then signal_entry ts message
  else if (level_value =? 2002)%Z then exception_entry ts message
  else custom_fatal_entry details message.

Definition contains (part whole : str) : Prop := exists a b, whole = a ++ part ++ b.

(** reading a decimal number back *)
Definition digit_of (c : ascii) : option Z :=
  let v := Z.of_N (N_of_ascii c) in if (48 <=? v)%Z && (v <=? 57)%Z then Some (v - 48)%Z else None.
Fixpoint read_digits (s : str) (acc : Z) : option Z :=
  match s with
  | [] => Some acc
  | c :: r => match digit_of c with Some d => read_digits r (acc * 10 + d)%Z | None => None end
  end.
Definition read_int (s : str) : option Z :=
  match s with
  | [] => None
  | c :: r => if Ascii.eqb c "-" then match r with [] => None | _ => option_map Z.opp (read_digits r 0) end
              else read_digits s 0
  end.
