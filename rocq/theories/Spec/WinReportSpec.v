(** What a report of a fatal event on Windows should say. *)
From Coq Require Import Ascii String List ZArith NArith Bool.
From Verif.Base Require Import Bytes.
From Verif.Model Require Import Levels Message EndToEnd.
From Verif.Spec Require Import TimeSpec MessageSpec EndToEndSpec WindowsSpec.
Import ListNotations.
Local Open Scope list_scope.

(** the name of the event: of an exception or of a signal *)
Definition is_exception (lv : LEVELS) : Prop := value lv = 2002%Z /\ text lv = lit "FATAL_EXCEPTION".
Definition event_name (lv : LEVELS) (id : Z) (name : str) : Prop :=
  (is_exception lv /\ (In (id, name) documented \/ (~ In id (map fst documented) /\ name = lit "UNKNOWN EXCEPTION:" ++ to_string id))) \/
  (~ is_exception lv /\ (In (id, name) win_signals \/ (~ In id (map fst win_signals) /\ name = lit "UNKNOWN SIGNAL(" ++ to_string id ++ lit ")"))).

(** time, what happened, the dump, and the last words with the name of the event *)
Definition reported (e : env) (warn : str) (st : stmt) (name l : str) : Prop :=
  exists file, last_component (st_file st) file /\
    let ts := stamp (e_local e (wall e st / 10^9)%Z) (us_of (wall e st)) in
    l = rendering (value (st_level st)) ts (details ts (text (st_level st)) file (st_function st) (to_string (st_line st)))
          (st_expression st)
          (concat (st_texts st) ++ [NL] ++ lit "*******" ++ [TAB] ++ lit "STACKDUMP *******" ++ [NL] ++ st_dump st ++ warn ++
           [NL] ++ lit "Exiting after fatal event  (" ++ text (st_level st) ++ lit "). Fatal type:  " ++ name ++ [NL] ++
           lit "Log content flushed successfully to sink" ++ [NL; NL]).
