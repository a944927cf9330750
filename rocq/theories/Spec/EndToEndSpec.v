(** What a log file should hold, told from the statements of the program. *)
From Coq Require Import Ascii String List ZArith NArith Bool.
From Verif.Base Require Import Bytes.
From Verif.Model Require Import Levels TimeFmt Message FileSink EndToEnd.
From Verif.Model Require Worker.
From Verif.Spec Require Import TimeSpec MessageSpec.
From Verif.Spec Require FileSinkSpec.
Import ListNotations.
Local Open Scope list_scope.

(** the wall clock time of a statement, in nanoseconds *)
Definition wall (e : env) (st : stmt) : Z := (e_sys_now e + (st_now st - e_hrs_now e))%Z.
(** the text: what was streamed; for a fatal event followed by the stack dump and the last words *)
Definition last_words (st : stmt) : str :=
  [NL] ++ lit "Exiting after fatal event  (" ++ text (st_level st) ++ lit "). Fatal type:  " ++ exitReasonName (st_level st) (st_signal st) ++ [NL] ++
  lit "Log content flushed successfully to sink" ++ [NL; NL].
Definition stack_part (st : stmt) : str := [NL] ++ lit "*******" ++ [TAB] ++ lit "STACKDUMP *******" ++ [NL] ++ st_dump st.
Definition shown_text (warn : str) (st : stmt) : str :=
  if (value (st_level st) <? 1000)%Z then concat (st_texts st)
  else concat (st_texts st) ++ stack_part st ++ warn ++ last_words st.
(** the entry in the file: time, level, last part of the file name, function, line, text *)
Definition shows (e : env) (warn : str) (st : stmt) (l : str) : Prop :=
  exists name, last_component (st_file st) name /\
    let ts := stamp (e_local e (wall e st / 10^9)%Z) (us_of (wall e st)) in
    l = rendering (value (st_level st)) ts (details ts (text (st_level st)) name (st_function st) (to_string (st_line st)))
                  (st_expression st) (shown_text warn st).

(** no text contains a NUL byte; the time is after 1970 and has a four digit year *)
Definition plain (e : env) (st : stmt) : Prop :=
  ~ In NUL (st_file st) /\ (size (st_file st) < npos)%N /\ ~ In NUL (st_function st) /\ ~ In NUL (text (st_level st)) /\
  ~ In NUL (st_expression st) /\ ~ In NUL (concat (st_texts st)) /\ ~ In NUL (st_dump st) /\
  (0 <= wall e st)%Z /\ tm_ok (e_local e (wall e st / 10^9)%Z).
(** clock readings of the sink's thread are sane, names of days and months fit the buffer *)
Definition sane (e : env) (luck : nat -> Z * nat * nat) (tnow : Z) : Prop :=
  (forall p, tm_ok (e_local e (Z.quot (fst (fst (luck p))) (10^9)))) /\ (0 <= tnow)%Z /\ tm_ok (e_local e (Z.quot tnow (10^9))) /\
  forall c t, length (e_ext e c t) <= 100.
(** the requests come from this program: a message goes the way of its level *)
Definition from_program (prog : Worker.msg -> stmt) (l : list Worker.task) : Prop :=
  (forall m, In (Worker.TSave m) l -> (value (st_level (prog m)) < 1000)%Z) /\
  (forall m, In (Worker.TFatal m) l -> (1000 <= value (st_level (prog m)))%Z).
(** through the handle the sink's file name is asked for and the header is set *)
Definition mild (calls : nat -> option op) : Prop := forall c, calls c = None \/ exists h, calls c = Some (OHeader h).
(** an ordinary line of the file *)
Definition line (e : env) (st : stmt) (l : str) : Prop :=
  exists name, last_component (st_file st) name /\
    l = entry (details (stamp (e_local e (wall e st / 10^9)%Z) (us_of (wall e st))) (text (st_level st)) name (st_function st) (to_string (st_line st)))
              (concat (st_texts st)).
(** the text at the top of the file, if there is any message: its time, and the documented header or one that the program has set *)
Definition top (calls : nat -> option op) (any : Prop) (hd : str) : Prop :=
  (~ any /\ hd = []) \/
  (any /\ exists c h, hd = FileSinkSpec.header_text c h /\ (h = default_header \/ exists u, calls u = Some (OHeader h))).
