(** What users of the level API are promised, stated without the table.

    A history is the list of level operations and LOG calls made so far, most recent
    first.  [verdict h v] says whether value [v] is registered after history [h] and if
    so whether it is enabled: it looks for the most recent operation that concerns [v]. *)
From Coq Require Import Ascii String List ZArith Bool.
From Verif.Base Require Import Bytes.
From Verif.Model Require Import Levels.
Import ListNotations.
Local Open Scope Z_scope.

(** the standard levels: DEBUG 100, INFO 300, WARNING 500, FATAL 1000 *)
Definition standard (v : Z) : bool := (v =? 100) || (v =? 300) || (v =? 500) || (v =? 1000).

Fixpoint verdict (h : list lop) (v : Z) : option bool :=
  match h with
  | [] => if standard v then Some true else None
  | OpReset :: _ => if standard v then Some true else None
  | OpAdd l b :: h' => if value l =? v then Some b else verdict h' v
  | OpAdd1 l :: h' => if value l =? v then Some true else verdict h' v
  | OpSet l b :: h' =>
      if value l =? v then match verdict h' v with Some _ => Some b | None => None end
      else verdict h' v
  | OpEnable l :: h' =>
      if value l =? v then match verdict h' v with Some _ => Some true | None => None end
      else verdict h' v
  | OpDisable l :: h' =>
      if value l =? v then match verdict h' v with Some _ => Some false | None => None end
      else verdict h' v
  | OpEnableAll :: h' => match verdict h' v with Some _ => Some true | None => None end
  | OpDisableAll :: h' => match verdict h' v with Some _ => Some false | None => None end
  | OpSetHighest l :: h' =>
      match verdict h' (value l), verdict h' v with
      | Some _, Some _ => Some (value l <=? v)
      | _, r => r
      end
  | OpLog _ :: h' => verdict h' v
  end.

(** every LOG call in the history used a level registered at that time *)
Fixpoint logs_registered (h : list lop) : Prop :=
  match h with
  | [] => True
  | OpLog l :: h' => verdict h' (value l) <> None /\ logs_registered h'
  | _ :: h' => logs_registered h'
  end.

(** status as reported to the user *)
Definition as_status (o : option bool) : lstatus :=
  match o with None => Absent | Some true => Enabled | Some false => Disabled end.

(** the displayed name of a level after a history (names without NUL bytes) *)
Definition standard_name (v : Z) : str :=
  if v =? 100 then lit "DEBUG" else if v =? 300 then lit "INFO"
  else if v =? 500 then lit "WARNING" else lit "FATAL".

Fixpoint name_after (h : list lop) (v : Z) : str :=
  match h with
  | [] => standard_name v
  | OpReset :: _ => standard_name v
  | OpAdd l _ :: h' | OpAdd1 l :: h' => if value l =? v then text l else name_after h' v
  | OpSet l _ :: h' | OpEnable l :: h' | OpDisable l :: h' =>
      if value l =? v then text l else name_after h' v
  | _ :: h' => name_after h' v
  end.

Definition op_names_ok (o : lop) : Prop :=
  match o with
  | OpAdd l _ | OpAdd1 l | OpSet l _ | OpEnable l | OpDisable l => ~ In NUL (text l)
  | _ => True
  end.
