(** Log levels and dynamic level filtering.
    Source: src/g3log/loglevels.hpp, src/loglevels.cpp, src/g3log/atomicbool.hpp
    (configuration G3_DYNAMIC_LOGGING).

    Simplifications: a single thread operates on the table (the functions are
    documented as initialization-time only, except enable/disable/LOG, whose
    individual flag accesses are atomic); int is [Z] (the library performs no
    arithmetic on level values, only comparisons). *)
From Coq Require Import Ascii String List ZArith Bool.
From Verif.Base Require Import Bytes.
Import ListNotations.
Local Open Scope list_scope.
Local Open Scope Z_scope.

(** loglevels.hpp:32-65 struct LEVELS { int value; std::string text; } *)
Record LEVELS := mkLevel { value : Z; text : str }.

(** loglevels.hpp:36-38: the copy constructor rebuilds the text from other.text.c_str() *)
Definition copyLevel (l : LEVELS) : LEVELS := mkLevel (value l) (c_str (text l)).

(** loglevels.hpp:44-46 operator== *)
Definition levelEq (a b : LEVELS) : bool := (value a =? value b) && str_eqb (text a) (text b).

(** loglevels.hpp:89-93 *)
Definition kDebugValue : Z := 100.
(** loglevels.hpp:90 *)
Definition kInfoValue : Z := 300.
(** loglevels.hpp:91 *)
Definition kWarningValue : Z := 500.
(** loglevels.hpp:92 *)
Definition kFatalValue : Z := 1000.
(** loglevels.hpp:93 *)
Definition kInternalFatalValue : Z := 2000.

(** loglevels.hpp:96-99 *)
Definition G3LOG_DEBUG := mkLevel kDebugValue (lit "DEBUG").
(** loglevels.hpp:97 *)
Definition INFO := mkLevel kInfoValue (lit "INFO").
(** loglevels.hpp:98 *)
Definition WARNING := mkLevel kWarningValue (lit "WARNING").
(** loglevels.hpp:99 *)
Definition FATAL := mkLevel kFatalValue (lit "FATAL").

(** loglevels.hpp:136-138 *)
Definition CONTRACT := mkLevel kInternalFatalValue (lit "CONTRACT").
(** loglevels.hpp:137 *)
Definition FATAL_SIGNAL := mkLevel (kInternalFatalValue + 1) (lit "FATAL_SIGNAL").
(** loglevels.hpp:138 *)
Definition FATAL_EXCEPTION := mkLevel (kInternalFatalValue + 2) (lit "FATAL_EXCEPTION").

(** loglevels.cpp:16-18 *)
Definition wasFatal (l : LEVELS) : bool := value FATAL <=? value l.

(** loglevels.hpp:103-131 struct LoggingLevel; constructors at 108-121 copy the level *)
Record LoggingLevel := mkLL { status : bool; level : LEVELS }.
(** loglevels.hpp:108-110 *)
Definition LL_default : LoggingLevel := mkLL false (copyLevel INFO).       (* 108-110 *)
Definition LL_of (l : LEVELS) : LoggingLevel := mkLL true (copyLevel l).    (* 114-116 *)
Definition LL_of2 (l : LEVELS) (b : bool) : LoggingLevel := mkLL b (copyLevel l). (* 117-119 *)
(** loglevels.hpp:122-126 operator=: status and (by-value copy of) level *)
Definition LL_assign (o : LoggingLevel) : LoggingLevel := mkLL (status o) (copyLevel (level o)).

(** std::map<int, LoggingLevel>: association list in ascending key order; loglevels.cpp:27 *)
Definition lmap := list (Z * LoggingLevel).

(** map::find, map::count; C++ standard library, no source in /repo *)
Fixpoint map_find (m : lmap) (k : Z) : option LoggingLevel :=
  match m with
  | [] => None
  | (k', v) :: r => if k =? k' then Some v else map_find r k
  end.

(** insert or overwrite, keeping the order; helper of this model, no source of its own *)
Fixpoint map_put (m : lmap) (k : Z) (v : LoggingLevel) : lmap :=
  match m with
  | [] => [(k, v)]
  | (k', v') :: r =>
      if k =? k' then (k, v) :: r
      else if k <? k' then (k, v) :: (k', v') :: r
      else (k', v') :: map_put r k v
  end.

(** map::operator[]: a missing key is inserted with a default-constructed value; C++ standard library, no source in /repo *)
Definition map_index (m : lmap) (k : Z) : lmap * LoggingLevel :=
  match map_find m k with
  | Some v => (m, v)
  | None => (map_put m k LL_default, LL_default)
  end.

(** m[k] = v  (index, then assign); loglevels.cpp:36, 66 *)
Definition map_index_assign (m : lmap) (k : Z) (v : LoggingLevel) : lmap :=
  let (m', _) := map_index m k in map_put m' k (LL_assign v).

(** loglevels.cpp:21-25 *)
Definition g_log_level_defaults : lmap :=
  [ (value G3LOG_DEBUG, LL_of G3LOG_DEBUG); (value INFO, LL_of INFO);
    (value WARNING, LL_of WARNING); (value FATAL, LL_of FATAL) ].

(** loglevels.cpp:34-37 (the LEVELS parameter is a copy) *)
Definition addLogLevel (m : lmap) (lvl : LEVELS) (enabled : bool) : lmap :=
  let lvl := copyLevel lvl in
  map_index_assign m (value lvl) (LL_of2 lvl enabled).

(** loglevels.cpp:39-41: the one-argument overload *)
Definition addLogLevel1 (m : lmap) (lvl : LEVELS) : lmap := addLogLevel m (copyLevel lvl) true.

(** loglevels.cpp:43-45 *)
Definition reset (m : lmap) : lmap := g_log_level_defaults.

(** loglevels.cpp:63-68 *)
Definition set (m : lmap) (lvl : LEVELS) (enabled : bool) : lmap :=
  let lvl := copyLevel lvl in
  match map_find m (value lvl) with
  | Some _ => map_index_assign m (value lvl) (LL_of2 lvl enabled)
  | None => m
  end.

(** loglevels.cpp:70-76 *)
Definition disable (m : lmap) (lvl : LEVELS) : lmap := set m (copyLevel lvl) false.
(** loglevels.cpp:74-76 *)
Definition enable (m : lmap) (lvl : LEVELS) : lmap := set m (copyLevel lvl) true.

(** loglevels.cpp:53-59: one round of the loop of setHighest.  The loop runs over the
    keys (no key is inserted or removed by the body) and reads each entry at the time it
    is visited. *)
Definition setHighest_visit (from : Z) (m : lmap) (k : Z) : lmap :=
  match map_find m k with
  | Some v => if k <? from then disable m (level v) else enable m (level v)
  | None => m
  end.

(** loglevels.cpp:50-61 *)
Definition setHighest (m : lmap) (enabledFrom : LEVELS) : lmap :=
  let from := value (copyLevel enabledFrom) in
  match map_find m from with
  | Some _ => fold_left (setHighest_visit from) (map fst m) m
  | None => m
  end.

(** loglevels.cpp:78-82, 84-88 *)
Definition set_all (b : bool) (m : lmap) : lmap :=
  map (fun kv => (fst kv, mkLL b (level (snd kv)))) m.
(** loglevels.cpp:78-82 *)
Definition disableAll (m : lmap) : lmap := set_all false m.
(** loglevels.cpp:84-88 *)
Definition enableAll (m : lmap) : lmap := set_all true m.

(** loglevels.cpp:90-96: std::to_string of the bool prints 1 or 0 *)
Definition level_line (kv : Z * LoggingLevel) : str :=
  lit "name: " ++ text (level (snd kv)) ++ lit " level: " ++ to_string (fst kv) ++
  lit " status: " ++ to_string (if status (snd kv) then 1 else 0) ++ nl.

(** loglevels.cpp:90-100 *)
Definition levels_to_string (m : lmap) : str := concat (map level_line m).

(** loglevels.cpp:102-104 *)
Definition getAll (m : lmap) : lmap := m.

(** loglevels.cpp:107-114 *)
Inductive lstatus := Absent | Enabled | Disabled.
(** loglevels.cpp:107-114 *)
Definition getStatus (m : lmap) (lvl : LEVELS) : lstatus :=
  match map_find m (value (copyLevel lvl)) with
  | None => Absent
  | Some v => if status v then Enabled else Disabled
  end.

(** loglevels.cpp:119-127: returns the answer and the (possibly changed) table *)
Definition logLevel (m : lmap) (l : LEVELS) : lmap * bool :=
  let (m', v) := map_index m (value l) in (m', status v).

(** the level API as operations on the table; a LOG call performs [OpLog]; loglevels.hpp:145-193 *)
Inductive lop :=
| OpAdd (l : LEVELS) (b : bool)
| OpAdd1 (l : LEVELS)
| OpReset
| OpSet (l : LEVELS) (b : bool)
| OpEnable (l : LEVELS)
| OpDisable (l : LEVELS)
| OpEnableAll
| OpDisableAll
| OpSetHighest (l : LEVELS)
| OpLog (l : LEVELS).

(** loglevels.cpp:34-127: the effect of one operation on g_log_levels *)
Definition lstep (m : lmap) (o : lop) : lmap :=
  match o with
  | OpAdd l b => addLogLevel m l b
  | OpAdd1 l => addLogLevel1 m l
  | OpReset => reset m
  | OpSet l b => set m l b
  | OpEnable l => enable m l
  | OpDisable l => disable m l
  | OpEnableAll => enableAll m
  | OpDisableAll => disableAll m
  | OpSetHighest l => setHighest m l
  | OpLog l => fst (logLevel m l)
  end.

(** loglevels.cpp:27: g_log_levels starts as the defaults *)
Definition lrun (ops : list lop) : lmap := fold_left lstep ops g_log_level_defaults.
