(** Programs whose level definitions and logging follow the documentation, and what the order of initialization is. *)
From Coq Require Import List ZArith Bool.
From Verif.Model Require Import Levels Global StaticInit.
Import ListNotations.
Local Open Scope list_scope.

(** the names a list of definitions gives to levels *)
Fixpoint names (l : list def) : list lname :=
  match l with
  | [] => []
  | DConst k _ :: r | DLevel k _ _ :: r => k :: names r
  | _ :: r => names r
  end.

(** the level objects something refers to *)
Definition act_refs (a : act) : list lref := match a with ALog l | AAddLevel l _ => [l] | _ => [] end.
Definition refs (d : def) : list lref :=
  match d with DLevel _ b _ => [b] | DObj code => flat_map act_refs code | _ => [] end.

(** every level used is one that the same file has defined further up (loglevels.hpp:67, "add to your own source file") *)
Definition above (u : tunit) (l : list def) : Prop :=
  forall l1 d l2, l = l1 ++ d :: l2 -> forall r, In r (refs d) -> fst r = u /\ In (snd r) (names l1).
(** a file of the program: what it includes and defines, no name twice *)
Definition well_written (u : tunit) (l : list def) : Prop := above u l /\ NoDup (names l).

(** files of the program define none of the library's objects *)
Definition users_def (d : def) : bool := match d with DMap | DNoHook | DExit | DSignals | DFormats | DFraction => false | _ => true end.

(** the library's files are done *)
Definition library_done (st : sstate) : Prop :=
  s_left st UG3log = [] /\ s_left st ULoglevels = [] /\ s_left st UCrashhandler = [] /\ s_left st ULogmessage = [] /\ s_left st UTime = [] /\
  s_left st UFilesink = [].


(** nothing was used too early *)
Definition none_early (st : sstate) : Prop := forall o, ~ In (SEarly o) (s_events st).

(** the program does none of these *)
Definition no_setexit (l : list def) : Prop := forall code h, In (DObj code) l -> ~ In (ASetExit h) code.
(** addLogLevel exists with G3_DYNAMIC_LOGGING only *)
Definition compiles (dynamic : bool) (l : list def) : Prop :=
  forall code r b, In (DObj code) l -> In (AAddLevel r b) code -> dynamic = true.
(** a unit of the library *)
Definition of_library (u : tunit) : Prop := match u with UUser _ => False | _ => True end.
