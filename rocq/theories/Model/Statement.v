(** One thread executing code that contains logging statements: what the operands of a statement do while it is being
    built up.  Source: src/g3log/g3log.hpp:140-226, src/g3log/logcapture.hpp:28-74, src/logcapture.cpp:43-113,
    g3log.cpp:143-155, loglevels.cpp:119-127.

    The operands of LOG(...) << a << b are expressions of the client.  They may throw, assign to the variable that was given as
    level, fail to be printed, and run other logging statements.  C++17 evaluates the left operand of << and the object of a
    member call before the right operand and the arguments, so the LogCapture exists before the first operand is evaluated.
    Simplifications: one client variable of type LEVELS, and one client function that returns a level;
    texts are what an operand prints to a good stream. *)
From Coq Require Import Ascii String List ZArith NArith Bool.
From Verif.Base Require Import Bytes.
From Verif.Model Require Import Levels Message Capture Macros.
Import ListNotations.
Local Open Scope list_scope.

(** what is written as level argument: a level, a variable, a call; g3log.hpp:147, 151, 208, 212 *)
Inductive lexp := LConst (l : LEVELS) | LVar | LCall.

(** LOG/LOGF, LOG_IF/LOGF_IF (value of the condition), CHECK/CHECKF/CHECK_F (value and text of the condition); g3log.hpp:147-226 *)
Inductive kind := KLog (l : lexp) | KLogIf (l : lexp) (holds : bool) | KCheck (holds : bool) (text : str).

(** .stream() << ..., or .capturef(fmt, ...) with the expansion [res] as in Model/Capture.v; g3log.hpp:147, 209 *)
Inductive form := FStream | FPrintf (fmt : str) (res : option str).

(** __FILE__, __LINE__, G3LOG_PRETTY_FUNCTION; g3log.hpp:140-143 *)
Record place := mkPlace { p_file : str; p_line : Z; p_function : str }.

(** client code.  [Log p k f cond ops next]: [cond] is what the evaluation of the condition does.
    An operand is what its evaluation does and what it prints; None: printing it makes the stream fail
    (such as a null pointer to char).  C++ language, no source in /repo *)
Inductive code :=
| Done
| Throw
| SetVar (l : LEVELS) (next : code)
| Log (p : place) (k : kind) (f : form) (cond : code) (ops : operands) (next : code)
with operands :=
| ONil
| OCons (c : code) (t : option str) (r : operands).

(** what does not change while the code runs: build flavour, clock readings, thread, stack dump, results of the client's
    function, MaxMessageSize, and whether the fatal handling comes back (setFatalExitHandler, g3log.cpp:104-106) *)
Record world := mkWorld {
  w_dynamic : bool;
  w_full : bool;
  w_now : nat -> Z;
  w_thread : Z;
  w_dump : str;
  w_calls : nat -> LEVELS;
  w_max : Z;
  w_survives : bool
}.

(** the client's variable, calls of its function so far, clock readings so far, and the level table (loglevels.cpp:15-26) *)
Record state := mkState { s_var : LEVELS; s_called : nat; s_read : nat; s_levels : lmap }.

(** ghost, for stating properties: logLevel answered, a LogCapture was constructed, saveMessage was called by its destructor *)
Inductive ev := Asked (l : LEVELS) (answer : bool) | Begun (p : place) (l : LEVELS) | Handed (d : dispatch).

(** how the code ends: an exception is on its way, the process ends, undefined behaviour *)
Inductive outcome := Normal | Threw | Ended | Undefined.

(** result of running a piece of code; helper of this model, no source of its own *)
Definition result : Type := state * list ev * outcome.
(** sequencing; C++ language, no source in /repo *)
Definition andthen (r : result) (k : state -> result) : result :=
  let '(s, tr, o) := r in
  match o with
  | Normal => let '(s', tr', o') := k s in (s', tr ++ tr', o')
  | _ => r
  end.

(** the level argument is evaluated each time the macro mentions it; C++ language *)
Definition level_of (w : world) (l : lexp) (s : state) : LEVELS * state :=
  match l with
  | LConst l => (l, s)
  | LVar => (s_var s, s)
  | LCall => (w_calls w (s_called s), mkState (s_var s) (S (s_called s)) (s_read s) (s_levels s))
  end.

(** the left side of the condition: !g3::logLevel(level); g3log.hpp:147, 152, 209, 213, loglevels.cpp:119-127; CHECK has none (g3log.hpp:157) *)
Definition ask (w : world) (k : kind) (s : state) : state * list ev * bool :=
  match k with
  | KLog l | KLogIf l _ =>
      let (v, s1) := level_of w l s in
      let (t, b) := query (w_dynamic w) (s_levels s1) v in
      (mkState (s_var s1) (s_called s1) (s_read s1) t, [Asked v b], b)
  | KCheck _ _ => (s, [], true)
  end.

(** whether the statement fires after the condition was evaluated; g3log.hpp:147, 152, 157 *)
Definition fires (k : kind) : bool :=
  match k with KLog _ => true | KLogIf _ b => b | KCheck b _ => negb b end.

(** LOG has no condition of the client; g3log.hpp:147, 208-209 *)
Definition has_cond (k : kind) : bool := match k with KLog _ => false | _ => true end.

(** the second evaluation of the level, as constructor argument; g3log.hpp:140-143 *)
Definition capture_level (w : world) (k : kind) (s : state) : LEVELS * state :=
  match k with
  | KLog l | KLogIf l _ => level_of w l s
  | KCheck _ _ => (CONTRACT, s)
  end.

(** logcapture.hpp:71: _level is a reference; a variable is read when the destructor runs, a temporary lives until then *)
Definition level_at_end (k : kind) (l : LEVELS) (s : state) : LEVELS :=
  match k with
  | KLog LVar | KLogIf LVar _ => s_var s
  | _ => l
  end.

(** g3log.hpp:140-143 *)
Definition captured (w : world) (p : place) (k : kind) (l : LEVELS) : LogCapture :=
  match k with
  | KCheck _ x => INTERNAL_CONTRACT_MESSAGE (p_file p) (p_line p) (p_function p) x (w_dump w)
  | _ => INTERNAL_LOG_MESSAGE (p_file p) (p_line p) (p_function p) l (w_dump w)
  end.

(** printing to an ostream: nothing is printed after a failure; C++ standard, no source in /repo *)
Definition print (text : str) (good : bool) (t : option str) : str * bool :=
  match t with
  | Some t => (if good then text ++ t else text, good)
  | None => (text, false)
  end.

(** the operands have been evaluated: the text collected; logcapture.cpp:79-113, logcapture.hpp:62-64.
    An exception leaves what was streamed so far; capturef has then not been called *)
Definition filled (w : world) (f : form) (c : LogCapture) (text : str) (o : outcome) : LogCapture * outcome :=
  match f with
  | FStream => (stream c text, o)
  | FPrintf fmt res =>
      match o with
      | Normal =>
          match capturef (w_max w) c fmt res with
          | CapOk c' => (c', Normal)
          | CapThrow => (c, Threw)
          | CapUB => (c, Undefined)
          end
      | o => (c, o)
      end
  end.

(** the level member of the LogCapture, read through the reference; logcapture.hpp:71 *)
Definition with_level (c : LogCapture) (l : LEVELS) : LogCapture :=
  mkCap (c_stream c) (c_stack_trace c) (c_file c) (c_line c) (c_function c) l (c_expression c) (c_fatal_signal c).

(** ~LogCapture, at the end of the full expression or while an exception is on its way: logcapture.cpp:43-47, g3log.cpp:143-155;
    a fatal message ends the process unless the exit handler was replaced *)
Definition hand_over (w : world) (k : kind) (l : LEVELS) (c : LogCapture) (o : outcome) (s : state) : result :=
  match o with
  | Normal | Threw =>
      match end_LogCapture (w_full w) (w_now w (s_read s)) (w_thread w) (with_level c (level_at_end k l s)) with
      | None => (s, [], Undefined)
      | Some d =>
          (mkState (s_var s) (s_called s) (S (s_read s)) (s_levels s), [Handed d],
           match d with
           | ToFatal _ _ _ => if w_survives w then o else Ended
           | ToLogger _ => o
           end)
      end
  | o => (s, [], o)
  end.

(** running client code and evaluating operands; C++ language; the statement is g3log.hpp:147-226 *)
Fixpoint exec (w : world) (c : code) (s : state) : result :=
  match c with
  | Done => (s, [], Normal)
  | Throw => (s, [], Threw)
  | SetVar l k => exec w k (mkState l (s_called s) (s_read s) (s_levels s))
  | Log p k f cond ops next =>
      let '(s1, tr1, on) := ask w k s in
      andthen
        (andthen (s1, tr1, Normal) (fun s1 =>
           if on then
             andthen (if has_cond k then exec w cond s1 else (s1, [], Normal)) (fun s2 =>
               if fires k then
                 let (l, s3) := capture_level w k s2 in
                 let '(s4, tr4, o4, text) := exec_ops w ops s3 [] true in
                 let (c', o5) := filled w f (captured w p k l) text o4 in
                 let '(s6, tr6, o6) := hand_over w k l c' o5 s4 in
                 (s6, Begun p l :: tr4 ++ tr6, o6)
               else (s2, [], Normal))
           else (s1, [], Normal)))
        (exec w next)
  end
with exec_ops (w : world) (ops : operands) (s : state) (text : str) (good : bool) : state * list ev * outcome * str :=
  match ops with
  | ONil => (s, [], Normal, text)
  | OCons c t r =>
      let '(s1, tr1, o1) := exec w c s in
      match o1 with
      | Normal =>
          let (text', good') := print text good t in
          let '(s2, tr2, o2, text2) := exec_ops w r s1 text' good' in
          (s2, tr1 ++ tr2, o2, text2)
      | o => (s1, tr1, o, text)
      end
  end.
