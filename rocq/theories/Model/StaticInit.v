(** Before main: the dynamic initialization of the library's and the program's static objects.
    Source: src/g3log/loglevels.hpp:96-99, 136-138 (every translation unit has its own level constants), src/loglevels.cpp:16-27,
    119-127, src/g3log.cpp:36-46, 91-106, 143-209, 216-240, src/crashhandler_unix.cpp:39-50, src/logcapture.cpp:63-78,
    src/g3log/time.hpp:38-43, src/time.cpp:24.

    C++17 (CMakeLists.txt:46): LEVELS holds a std::string, so its objects are initialized dynamically, in the order of their
    definitions within one translation unit and in no particular order between units.  Before that their bytes are zero
    (static storage).  std::once_flag, std::mutex, std::unique_ptr, std::atomic and an empty std::function have constexpr
    constructors and are ready from the beginning.

    One step = the initialization of one object.  Simplifications: one thread; initializers do not catch exceptions; hooks and
    fatal exit handlers set by the program only get called (no code of their own); no worker exists before main. *)
From Coq Require Import List ZArith Bool.
From Verif.Model Require Import Levels Global.
Import ListNotations.
Local Open Scope list_scope.
Local Open Scope Z_scope.

(** translation units: those of the library that define static objects used here, and those of the program *)
Inductive tunit := UG3log | ULoglevels | UCrashhandler | ULogmessage | UTime | UFilesink | UUser (n : nat).
(** helper of this model, no source of its own *)
Definition tunit_eqb (a b : tunit) : bool :=
  match a, b with
  | UG3log, UG3log | ULoglevels, ULoglevels | UCrashhandler, UCrashhandler | ULogmessage, ULogmessage | UTime, UTime | UFilesink, UFilesink => true
  | UUser n, UUser m => Nat.eqb n m
  | _, _ => false
  end.

(** names of level objects: loglevels.hpp:96-99, 136-138, and the program's own (loglevels.hpp:76-79) *)
Inductive lname := NDebug | NInfo | NWarning | NFatal | NContract | NSignal | NException | NOwn (k : nat).
(** helper of this model, no source of its own *)
Definition lname_eqb (a b : lname) : bool :=
  match a, b with
  | NDebug, NDebug | NInfo, NInfo | NWarning, NWarning | NFatal, NFatal | NContract, NContract | NSignal, NSignal
  | NException, NException => true
  | NOwn n, NOwn m => Nat.eqb n m
  | _, _ => false
  end.
(** a level object: the unit whose object it is, and its name *)
Definition lref : Type := tunit * lname.
(** helper of this model, no source of its own *)
Definition lref_eqb (a b : lref) : bool := tunit_eqb (fst a) (fst b) && lname_eqb (snd a) (snd b).

(** what the program does while its objects are initialized: LOG with a level (g3log.hpp:147), the two setters
    (g3log.cpp:91-106), addLogLevel (loglevels.cpp:34-37) *)
Inductive act := ALog (l : lref) | ASetHook (h : option hook) | ASetExit (h : option handler) | AAddLevel (l : lref) (enabled : bool).

(** definitions of static objects.  DConst: a level with a constant value; DLevel: "const LEVELS X {base.value + delta, ...}"
    (loglevels.hpp:78-79); DIostream: the ios_base::Init object of <iostream>; DObj: an object of the program whose constructor
    does something; the others are objects of the library *)
Inductive def :=
| DConst (k : lname) (v : Z)
| DLevel (k : lname) (base : lref) (delta : Z)
| DIostream
| DMap                          (* g_log_level_defaults and g_log_levels: loglevels.cpp:21-27 *)
| DNoHook                       (* g_pre_fatal_hook_that_does_nothing: g3log.cpp:43 *)
| DExit                         (* g_fatal_to_g3logworker_function_ptr: g3log.cpp:98 *)
| DSignals                      (* kSignals, gSignals, gSavedSigActions: crashhandler_unix.cpp:41-50 *)
| DFormats                      (* date_formatted, time_formatted: time.hpp:38, 43, those of logmessage.cpp *)
| DFraction                     (* kFractionalIdentier: time.cpp:24 *)
| DObj (code : list act).

(** what loglevels.hpp defines in every unit that includes it: lines 96-99, 136-138 *)
Definition header : list def :=
  [DConst NDebug kDebugValue; DConst NInfo kInfoValue; DConst NWarning kWarningValue; DConst NFatal kFatalValue;
   DConst NContract kInternalFatalValue; DConst NSignal (kInternalFatalValue + 1); DConst NException (kInternalFatalValue + 2)].

(** the objects of a unit in order: loglevels.cpp:9-27, g3log.cpp:21-98, crashhandler_unix.cpp:9-50; [dynamic]: G3_DYNAMIC_LOGGING *)
Definition defs (dynamic : bool) (user : nat -> list def) (u : tunit) : list def :=
  match u with
  | ULoglevels => header ++ [DIostream] ++ (if dynamic then [DMap] else [])
  | UG3log => header ++ [DIostream; DNoHook; DExit]
  | UCrashhandler => header ++ [DIostream; DSignals]
  | ULogmessage => header ++ [DFormats]
  | UTime => [DFraction]
  | UFilesink => header              (* its own time formats are used by file sinks only *)
  | UUser n => header ++ user n
  end.

(** static objects other than levels, as far as they can be used too early *)
Inductive obj := OLevel (l : lref) | OCerr | OMap | ONoHook | OExit | OSignals | OFormats | OFraction.

(** what can be observed: an object is used before its initialization; a message is stored as the first one and shown on
    stderr (g3log.cpp:196-203); a message is dropped (204); the hook runs; a fatal message goes to a handler; it is shown on
    stderr (218-223) *)
Inductive sev := SEarly (o : obj) | SFirst (v : Z) | SDropped (v : Z) | SHook (n : nat) | SHandler (n : nat) (v : Z) | SFatal (v : Z).

(** the process: running; std::terminate (an exception leaves an initializer); killed by exitWithDefaultSignalHandler;
    undefined behaviour: zero bytes used as a string, map or stream *)
Inductive sstatus := SRunning | STerminate | SDied | SUndefined.

Record sstate := mkS {
  s_left : tunit -> list def;         (* not yet initialized *)
  s_levels : list (lref * Z);         (* initialized level objects *)
  s_cerr : bool;
  s_map : option (list (Z * bool));   (* g_log_levels, values and status; None: not initialized *)
  s_nohook : bool;
  s_exit_init : bool;
  s_exit : option handler;
  s_hook : option hook;
  s_signals : bool;
  s_formats : bool;
  s_fraction : bool;
  s_first : bool;                     (* g_set_first_uninitialized_flag *)
  s_status : sstatus;
  s_events : list sev
}.

(** before dynamic initialization; g3log.cpp:36-46 *)
Definition s_start (dynamic : bool) (user : nat -> list def) : sstate :=
  mkS (defs dynamic user) [] false None false false None None false false false false SRunning [].

(** helper of this model, no source of its own *)
Fixpoint lookup (m : list (lref * Z)) (l : lref) : option Z :=
  match m with [] => None | (l', v) :: r => if lref_eqb l l' then Some v else lookup r l end.
(** helper of this model, no source of its own *)
Definition s_emit (st : sstate) (es : list sev) : sstate :=
  mkS (s_left st) (s_levels st) (s_cerr st) (s_map st) (s_nohook st) (s_exit_init st) (s_exit st) (s_hook st) (s_signals st) (s_formats st) (s_fraction st)
      (s_first st) (s_status st) (s_events st ++ es).
(** helper of this model, no source of its own *)
Definition s_end (st : sstate) (x : sstatus) : sstate :=
  mkS (s_left st) (s_levels st) (s_cerr st) (s_map st) (s_nohook st) (s_exit_init st) (s_exit st) (s_hook st) (s_signals st) (s_formats st) (s_fraction st)
      (s_first st) x (s_events st).
(** g3log.cpp:94 *)
Definition s_sethook (st : sstate) (h : option hook) : sstate :=
  mkS (s_left st) (s_levels st) (s_cerr st) (s_map st) (s_nohook st) (s_exit_init st) (s_exit st) h (s_signals st) (s_formats st) (s_fraction st)
      (s_first st) (s_status st) (s_events st).
(** g3log.cpp:98, 105; [i]: this is the initialization *)
Definition s_setexit (st : sstate) (i : bool) (h : option handler) : sstate :=
  mkS (s_left st) (s_levels st) (s_cerr st) (s_map st) (s_nohook st) (i || s_exit_init st) h (s_hook st) (s_signals st) (s_formats st) (s_fraction st)
      (s_first st) (s_status st) (s_events st).
(** helper of this model, no source of its own *)
Definition s_setmap (st : sstate) (m : option (list (Z * bool))) : sstate :=
  mkS (s_left st) (s_levels st) (s_cerr st) m (s_nohook st) (s_exit_init st) (s_exit st) (s_hook st) (s_signals st) (s_formats st) (s_fraction st)
      (s_first st) (s_status st) (s_events st).
(** an object is used; it is recorded when that is too early *)
Definition use (ready : bool) (o : obj) (st : sstate) : sstate := if ready then st else s_emit st [SEarly o].

(** the int member of a level object; zero bytes read as 0.  loglevels.cpp:17 *)
Definition level_value (st : sstate) (l : lref) : Z := match lookup (s_levels st) l with Some v => v | None => 0 end.
(** helper of this model, no source of its own *)
Definition level_ready (st : sstate) (l : lref) : bool := match lookup (s_levels st) l with Some _ => true | None => false end.

(** loglevels.cpp:16-18: FATAL is the object of loglevels.cpp *)
Definition s_wasFatal (st : sstate) (l : lref) : bool := level_value st (ULoglevels, NFatal) <=? level_value st l.

(** g3log.cpp:216-225 with no logger: the message is rendered (logmessage.hpp:50, time.cpp:82-100), the text is written on stderr,
    then exitWithDefaultSignalHandler (crashhandler_unix.cpp), which goes through gSignals *)
Definition s_pushFatal (st : sstate) (v : Z) : sstate :=
  if negb (s_formats st) then s_end (s_emit st [SEarly OFormats]) SUndefined
  else if negb (s_fraction st) then s_end (s_emit st [SEarly OFraction]) SUndefined
  else if negb (s_cerr st) then s_end (s_emit st [SEarly OCerr]) SUndefined
  else let st1 := s_emit st [SFatal v] in
       if s_signals st1 then s_end st1 SDied else s_end (s_emit st1 [SEarly OSignals]) SUndefined.

(** g3log.cpp:237-239: an empty std::function throws *)
Definition s_fatalCall (st : sstate) (v : Z) : sstate :=
  let st1 := use (s_exit_init st) OExit st in
  match s_exit st1 with
  | None => s_end st1 STerminate
  | Some HandlerDefault => s_pushFatal st1 v
  | Some (Handler n) => s_emit st1 [SHandler n v]
  end.

(** g3log.cpp:157-184: the hook is copied, replaced by the one that does nothing (an empty one if that is not initialized), called *)
Definition s_saveFatal (st : sstate) (v : Z) : sstate :=
  let h := s_hook st in
  let st1 := use (s_nohook st) ONoHook st in
  let st2 := s_sethook st1 (if s_nohook st then Some HookNop else None) in
  match h with
  | None => s_end st2 STerminate
  | Some HookNop => s_fatalCall st2 v
  | Some (Hook n) => s_fatalCall (s_emit st2 [SHook n]) v
  end.

(** g3log.cpp:193-205 with no logger *)
Definition s_pushMessage (st : sstate) (v : Z) : sstate :=
  if s_first st then s_emit st [SDropped v]
  else if s_cerr st
  then mkS (s_left st) (s_levels st) (s_cerr st) (s_map st) (s_nohook st) (s_exit_init st) (s_exit st) (s_hook st) (s_signals st) (s_formats st) (s_fraction st)
           true (s_status st) (s_events st ++ [SFirst v])
  else s_end (s_emit st [SEarly OCerr]) SUndefined.

(** an enabled LOG statement: the constructor asks wasFatal (logcapture.cpp:74), the destructor copies the level with its text
    (g3log.cpp:145; a zero string has no text) and asks wasFatal again (150) *)
Definition s_capture (st : sstate) (l : lref) : sstate :=
  let st1 := use (level_ready st (ULoglevels, NFatal)) (OLevel (ULoglevels, NFatal)) (use (level_ready st l) (OLevel l) st) in
  if negb (level_ready st1 l) then s_end st1 SUndefined
  else let v := level_value st1 l in
       if s_wasFatal st1 l then s_saveFatal st1 v else s_pushMessage st1 v.

(** the status of a level: loglevels.cpp:121-123; an unknown level becomes known, as disabled *)
Fixpoint status_of (m : list (Z * bool)) (v : Z) : option bool :=
  match m with [] => None | (k, b) :: r => if v =? k then Some b else status_of r v end.

(** LOG(level): g3log.hpp:147 *)
Definition s_log (dynamic : bool) (st : sstate) (l : lref) : sstate :=
  if dynamic then
    match s_map st with
    | None => s_end (s_emit st [SEarly OMap]) SUndefined
    | Some m =>
        let st1 := use (level_ready st l) (OLevel l) st in
        let v := level_value st1 l in
        match status_of m v with
        | Some true => s_capture st1 l
        | Some false => st1
        | None => s_setmap st1 (Some ((v, false) :: m))
        end
    end
  else s_capture st l.

(** one thing the program does; loglevels.cpp:34-37, g3log.cpp:91-106 *)
Definition s_act (dynamic : bool) (st : sstate) (a : act) : sstate :=
  match a with
  | ALog l => s_log dynamic st l
  | ASetHook h => s_sethook st h
  | ASetExit h => s_setexit (use (s_exit_init st) OExit st) false h
  | AAddLevel l b =>
      match s_map st with
      | None => s_end (s_emit st [SEarly OMap]) SUndefined
      | Some m =>
          if level_ready st l then s_setmap st (Some ((level_value st l, b) :: m))
          else s_end (s_emit st [SEarly (OLevel l)]) SUndefined
      end
  end.

(** several, as long as the process runs; helper of this model, no source of its own *)
Fixpoint s_acts (dynamic : bool) (st : sstate) (l : list act) : sstate :=
  match l with
  | [] => st
  | a :: r => let st1 := s_act dynamic st a in match s_status st1 with SRunning => s_acts dynamic st1 r | _ => st1 end
  end.

(** helper of this model, no source of its own *)
Definition s_addlevel (st : sstate) (l : lref) (v : Z) : sstate :=
  mkS (s_left st) ((l, v) :: s_levels st) (s_cerr st) (s_map st) (s_nohook st) (s_exit_init st) (s_exit st) (s_hook st)
      (s_signals st) (s_formats st) (s_fraction st) (s_first st) (s_status st) (s_events st).

(** the initialization of one object of unit u; the table starts with the four levels of loglevels.cpp:21-25 *)
Definition s_init (dynamic : bool) (st : sstate) (u : tunit) (d : def) : sstate :=
  match d with
  | DConst k v => s_addlevel st (u, k) v
  | DLevel k b delta =>
      let st1 := use (level_ready st b) (OLevel b) st in
      s_addlevel st1 (u, k) (level_value st1 b + delta)
  | DIostream =>
      mkS (s_left st) (s_levels st) true (s_map st) (s_nohook st) (s_exit_init st) (s_exit st) (s_hook st) (s_signals st) (s_formats st) (s_fraction st)
          (s_first st) (s_status st) (s_events st)
  | DMap =>
      s_setmap st (Some [(level_value st (u, NDebug), true); (level_value st (u, NInfo), true);
                         (level_value st (u, NWarning), true); (level_value st (u, NFatal), true)])
  | DNoHook =>
      mkS (s_left st) (s_levels st) (s_cerr st) (s_map st) true (s_exit_init st) (s_exit st) (s_hook st) (s_signals st) (s_formats st) (s_fraction st)
          (s_first st) (s_status st) (s_events st)
  | DExit => s_setexit st true (Some HandlerDefault)
  | DSignals =>
      mkS (s_left st) (s_levels st) (s_cerr st) (s_map st) (s_nohook st) (s_exit_init st) (s_exit st) (s_hook st) true (s_formats st) (s_fraction st)
          (s_first st) (s_status st) (s_events st)
  | DFormats =>
      mkS (s_left st) (s_levels st) (s_cerr st) (s_map st) (s_nohook st) (s_exit_init st) (s_exit st) (s_hook st) (s_signals st)
          true (s_fraction st) (s_first st) (s_status st) (s_events st)
  | DFraction =>
      mkS (s_left st) (s_levels st) (s_cerr st) (s_map st) (s_nohook st) (s_exit_init st) (s_exit st) (s_hook st) (s_signals st)
          (s_formats st) true (s_first st) (s_status st) (s_events st)
  | DObj code => s_acts dynamic st code
  end.

(** helper of this model, no source of its own *)
Definition s_take (st : sstate) (u : tunit) (r : list def) : sstate :=
  mkS (fun x => if tunit_eqb x u then r else s_left st x) (s_levels st) (s_cerr st) (s_map st) (s_nohook st) (s_exit_init st)
      (s_exit st) (s_hook st) (s_signals st) (s_formats st) (s_fraction st) (s_first st) (s_status st) (s_events st).

(** unit u initializes its next object.  None: the process has ended or the unit is done.  C++17 [basic.start.dynamic] *)
Definition s_step (dynamic : bool) (st : sstate) (u : tunit) : option sstate :=
  match s_status st, s_left st u with
  | SRunning, d :: r => Some (s_init dynamic (s_take st u r) u d)
  | _, _ => None
  end.

(** initialization in the given order of units *)
Fixpoint s_run (dynamic : bool) (st : sstate) (order : list tunit) : option sstate :=
  match order with
  | [] => Some st
  | u :: r => match s_step dynamic st u with Some st1 => s_run dynamic st1 r | None => None end
  end.
