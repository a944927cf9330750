(** The Windows side: exception names, stack dumps, installation of handlers, the end of the process.
    Source: src/stacktrace_windows.cpp, src/crashhandler_windows.cpp (neither DISABLE_FATAL_SIGNALHANDLING nor
    DISABLE_VECTORED_EXCEPTIONHANDLING is defined).

    The Windows API is external: what StackWalk64, SymFromAddr and SymGetLineFromAddr64 answer are parameters. *)
From Coq Require Import Ascii String List ZArith NArith Bool.
From Verif.Base Require Import Bytes.
From Verif.Model Require Import Levels Signals.
Import ListNotations.
Local Open Scope list_scope.
Local Open Scope Z_scope.

(** ** names of exceptions and signals *)
(** winnt.h; the codes named in stacktrace_windows.cpp:39 *)
Definition EXCEPTION_ACCESS_VIOLATION : Z := 0xC0000005.
Definition EXCEPTION_ARRAY_BOUNDS_EXCEEDED : Z := 0xC000008C.
Definition EXCEPTION_DATATYPE_MISALIGNMENT : Z := 0x80000002.
Definition EXCEPTION_FLT_DENORMAL_OPERAND : Z := 0xC000008D.
Definition EXCEPTION_FLT_DIVIDE_BY_ZERO : Z := 0xC000008E.
Definition EXCEPTION_FLT_INEXACT_RESULT : Z := 0xC000008F.
Definition EXCEPTION_FLT_INVALID_OPERATION : Z := 0xC0000090.
Definition EXCEPTION_FLT_OVERFLOW : Z := 0xC0000091.
Definition EXCEPTION_FLT_STACK_CHECK : Z := 0xC0000092.
Definition EXCEPTION_FLT_UNDERFLOW : Z := 0xC0000093.
Definition EXCEPTION_ILLEGAL_INSTRUCTION : Z := 0xC000001D.
Definition EXCEPTION_IN_PAGE_ERROR : Z := 0xC0000006.
Definition EXCEPTION_INT_DIVIDE_BY_ZERO : Z := 0xC0000094.
Definition EXCEPTION_INT_OVERFLOW : Z := 0xC0000095.
Definition EXCEPTION_INVALID_DISPOSITION : Z := 0xC0000026.
Definition EXCEPTION_NONCONTINUABLE_EXCEPTION : Z := 0xC0000025.
Definition EXCEPTION_PRIV_INSTRUCTION : Z := 0xC0000096.
Definition EXCEPTION_STACK_OVERFLOW : Z := 0xC00000FD.
Definition EXCEPTION_BREAKPOINT : Z := 0x80000003.
Definition EXCEPTION_SINGLE_STEP : Z := 0x80000004.

(** stacktrace_windows.cpp:32-33, 38-41; the map is made by [smap_of] (FLT_INEXACT_RESULT is listed twice) *)
Definition kExceptionsAsText : smap := smap_of
  [ (EXCEPTION_ACCESS_VIOLATION, lit "EXCEPTION_ACCESS_VIOLATION");
    (EXCEPTION_ARRAY_BOUNDS_EXCEEDED, lit "EXCEPTION_ARRAY_BOUNDS_EXCEEDED");
    (EXCEPTION_DATATYPE_MISALIGNMENT, lit "EXCEPTION_DATATYPE_MISALIGNMENT");
    (EXCEPTION_FLT_DENORMAL_OPERAND, lit "EXCEPTION_FLT_DENORMAL_OPERAND");
    (EXCEPTION_FLT_DIVIDE_BY_ZERO, lit "EXCEPTION_FLT_DIVIDE_BY_ZERO");
    (EXCEPTION_FLT_INEXACT_RESULT, lit "EXCEPTION_FLT_INEXACT_RESULT");
    (EXCEPTION_FLT_INEXACT_RESULT, lit "EXCEPTION_FLT_INEXACT_RESULT");
    (EXCEPTION_FLT_INVALID_OPERATION, lit "EXCEPTION_FLT_INVALID_OPERATION");
    (EXCEPTION_FLT_OVERFLOW, lit "EXCEPTION_FLT_OVERFLOW");
    (EXCEPTION_FLT_STACK_CHECK, lit "EXCEPTION_FLT_STACK_CHECK");
    (EXCEPTION_FLT_UNDERFLOW, lit "EXCEPTION_FLT_UNDERFLOW");
    (EXCEPTION_ILLEGAL_INSTRUCTION, lit "EXCEPTION_ILLEGAL_INSTRUCTION");
    (EXCEPTION_IN_PAGE_ERROR, lit "EXCEPTION_IN_PAGE_ERROR");
    (EXCEPTION_INT_DIVIDE_BY_ZERO, lit "EXCEPTION_INT_DIVIDE_BY_ZERO");
    (EXCEPTION_INT_OVERFLOW, lit "EXCEPTION_INT_OVERFLOW");
    (EXCEPTION_INVALID_DISPOSITION, lit "EXCEPTION_INVALID_DISPOSITION");
    (EXCEPTION_NONCONTINUABLE_EXCEPTION, lit "EXCEPTION_NONCONTINUABLE_EXCEPTION");
    (EXCEPTION_PRIV_INSTRUCTION, lit "EXCEPTION_PRIV_INSTRUCTION");
    (EXCEPTION_STACK_OVERFLOW, lit "EXCEPTION_STACK_OVERFLOW");
    (EXCEPTION_BREAKPOINT, lit "EXCEPTION_BREAKPOINT");
    (EXCEPTION_SINGLE_STEP, lit "EXCEPTION_SINGLE_STEP") ].
(** map::find; as used in stacktrace_windows.cpp:134, 146 *)
Fixpoint smap_find (m : smap) (k : Z) : option str :=
  match m with [] => None | (k', v) :: r => if k =? k' then Some v else smap_find r k end.

(** stacktrace_windows.cpp:130-140; SignalType is unsigned long *)
Definition kUnknown : str := lit "UNKNOWN EXCEPTION".
(** stacktrace_windows.cpp:133-140 *)
Definition exceptionIdToText (id : Z) : str :=
  match smap_find kExceptionsAsText id with
  | None => kUnknown ++ lit ":" ++ to_string id
  | Some t => t
  end.
(** stacktrace_windows.cpp:145-147 *)
Definition isKnownException (id : Z) : bool := match smap_find kExceptionsAsText id with Some _ => true | None => false end.

(** signal.h of the Microsoft C library; named in crashhandler_windows.cpp:134-147 and 222-231 *)
Definition WIN_SIGILL : Z := 4.
Definition WIN_SIGFPE : Z := 8.
Definition WIN_SIGSEGV : Z := 11.
Definition WIN_SIGTERM : Z := 15.
Definition WIN_SIGABRT : Z := 22.
(** crashhandler_windows.cpp:127-153 *)
Definition exitReasonName_win (level : LEVELS) (fatal_id : Z) : str :=
  if levelEq level FATAL_EXCEPTION then exceptionIdToText fatal_id
  else if fatal_id =? WIN_SIGABRT then lit "SIGABRT"
  else if fatal_id =? WIN_SIGFPE then lit "SIGFPE"
  else if fatal_id =? WIN_SIGSEGV then lit "SIGSEGV"
  else if fatal_id =? WIN_SIGILL then lit "SIGILL"
  else if fatal_id =? WIN_SIGTERM then lit "SIGTERM"
  else lit "UNKNOWN SIGNAL(" ++ to_string fatal_id ++ lit ")".

(** ** the text of a stack dump *)
(** stacktrace_windows.cpp:186 *)
Definition kmax_frame_dump_size : nat := 64.
(** registers of a CONTEXT: program counter, frame pointer, stack pointer; the three addresses of a STACKFRAME64 *)
Record regs := mkRegs { r_pc : Z; r_fp : Z; r_sp : Z }.
(** stacktrace_windows.cpp:51, 56, 61, 66 *)
Inductive arch := ARM64 | ARM | X64 | X86.
(** stacktrace_windows.cpp:46-71: the branch for 32-bit x86 assigns to AddrPC three times *)
Definition start_frame (a : arch) (c : regs) : regs :=
  match a with
  | ARM64 | ARM | X64 => mkRegs (r_pc c) (r_fp c) (r_sp c)
  | X86 =>
      let f := mkRegs 0 0 0 in
      let f := mkRegs (r_pc c) (r_fp f) (r_sp f) in
      let f := mkRegs (r_fp c) (r_fp f) (r_sp f) in
      mkRegs (r_sp c) (r_fp f) (r_sp f)
  end.
(** stacktrace_windows.cpp:72-86; [walk]: the program counters that StackWalk64 delivers, until it answers FALSE *)
Fixpoint capture_loop (fuel : nat) (index : nat) (walk : list Z) (frame_pointers : list Z) : list Z :=
  match fuel with
  | O => frame_pointers
  | S f =>
      if Nat.ltb index (length frame_pointers) then
        match walk with
        | pc :: w => capture_loop f (S index) w (firstn index frame_pointers ++ [pc] ++ skipn (S index) frame_pointers)
        | [] => frame_pointers
        end
      else frame_pointers
  end.
(** stacktrace_windows.cpp:45-87.  [walk]: what successive calls of StackWalk64 deliver from a start frame; a program counter
    of a frame may be 0 as well. *)
Definition walker := regs -> list Z.
(** stacktrace_windows.cpp:45-87 *)
Definition captureStackTrace (walk : walker) (a : arch) (c : regs) (frame_pointers : list Z) : list Z :=
  capture_loop (S (length frame_pointers)) 0 (walk (start_frame a c)) frame_pointers.

(** what SymFromAddr (the name) and SymGetLineFromAddr64 (file, line number) answer for an address *)
Definition symbols := Z -> option (str * option (str * Z)).
(** stacktrace_windows.cpp:91-115 *)
Definition getSymbolInformation (sym : symbols) (index : nat) (addr : Z) : str :=
  lit "stack dump [" ++ to_string (Z.of_nat index) ++ lit "]" ++ tab ++
  match sym addr with
  | None => []
  | Some (name, line) =>
      match line with None => [] | Some (file, n) => tab ++ file ++ lit " L: " ++ to_string n end ++ lit " " ++ name
  end.
(** stacktrace_windows.cpp:118-126 *)
Fixpoint text_loop (fuel : nat) (sym : symbols) (index : nat) (frame_pointers : list Z) : str :=
  match fuel with
  | O => []
  | S f =>
      if Nat.ltb index (length frame_pointers) && negb (nth index frame_pointers 0 =? 0)
      then getSymbolInformation sym index (nth index frame_pointers 0) ++ nl ++ text_loop f sym (S index) frame_pointers
      else []
  end.
(** stacktrace_windows.cpp:118-126 *)
Definition convertFramesToText (sym : symbols) (frame_pointers : list Z) : str :=
  text_loop (length frame_pointers) sym 0 frame_pointers.
(** stacktrace_windows.cpp:175-193, the part under the lock; [initialized]: SymInitialize succeeds *)
Definition dump_text (initialized : bool) (sym : symbols) (walk : walker) (a : arch) (c : regs) : str :=
  if initialized then convertFramesToText sym (captureStackTrace walk a c (repeat 0 kmax_frame_dump_size))
  else lit "Error: Cannot call SymInitialize(...) for retrieving symbols in stack".

(** ** stack dumps of several threads: the counter and the mutex, stacktrace_windows.cpp:36, 164-174 *)
(** an activation of stackdump(CONTEXT* ): before the test of the counter; before locking; inside; stacktrace_windows.cpp:166, 174, 175-193 *)
Inductive dpc := DCheck | DLock | DBody.
(** Every thread has a stack of activations: a crash inside stackdump calls it again.  [d_out]: what was returned, by thread;
    true for the notice about recursion.  stacktrace_windows.cpp:36, 173 *)
Record dstate := mkD { d_cnt : nat -> N; d_mutex : option nat; d_stack : nat -> list dpc; d_out : list (nat * bool); d_ub : bool }.
(** helper of this model, no source of its own *)
Definition d_init : dstate := mkD (fun _ => 0%N) None (fun _ => []) [] false.
(** a thread calls stackdump; a thread goes on *)
Inductive daction := DCall (t : nat) | DStep (t : nat).
(** None: not possible now.  Locking a std::mutex that the thread owns is undefined.  stacktrace_windows.cpp:164-194 *)
Definition dstep (s : dstate) (a : daction) : option dstate :=
  if d_ub s then None else
  match a with
  | DCall t => Some (mkD (d_cnt s) (d_mutex s) (updn (d_stack s) t (DCheck :: d_stack s t)) (d_out s) false)
  | DStep t =>
      match d_stack s t with
      | [] => None
      | DCheck :: r =>
          if (2 <=? d_cnt s t)%N then Some (mkD (d_cnt s) (d_mutex s) (updn (d_stack s) t r) (d_out s ++ [(t, true)]) false)
          else Some (mkD (updn (d_cnt s) t (sz (d_cnt s t + 1))) (d_mutex s) (updn (d_stack s) t (DLock :: r)) (d_out s) false)
      | DLock :: r =>
          match d_mutex s with
          | None => Some (mkD (d_cnt s) (Some t) (updn (d_stack s) t (DBody :: r)) (d_out s) false)
          | Some u => if Nat.eqb u t then Some (mkD (d_cnt s) (d_mutex s) (d_stack s) (d_out s) true) else None
          end
      | DBody :: r => Some (mkD (d_cnt s) None (updn (d_stack s) t r) (d_out s ++ [(t, false)]) false)
      end
  end.
(** executions; helper of this model, no source of its own *)
Inductive dreach : dstate -> Prop :=
| dr_init : dreach d_init
| dr_step : forall s a s', dreach s -> dstep s a = Some s' -> dreach s'.
(** helper of this model, no source of its own *)
Fixpoint drun (s : dstate) (l : list daction) : option dstate :=
  match l with [] => Some s | a :: r => match dstep s a with Some s' => drun s' r | None => None end end.

(** ** installation *)
(** exception filters: none, the client's, g3log's *)
Inductive filter := FNone | FUser (n : nat) | FG3log.
(** SIGFPE, SIGILL and SIGSEGV have a handler per thread, SIGABRT and SIGTERM one for the process;
    vectored handlers are a list of (handle, is g3log's); a handle is not used again. *)
Definition per_thread (s : Z) : bool := (s =? WIN_SIGFPE) || (s =? WIN_SIGILL) || (s =? WIN_SIGSEGV).
(** crashhandler_windows.cpp:27-35: the static and thread_local variables, and the tables of the system *)
Record win := mkWin {
  v_thread : nat -> Z -> disp;
  v_process : Z -> disp;
  v_filter : filter;
  v_vectored : list (nat * bool);
  v_next : nat;                                 (* next handle *)
  g_installed_thread_signal_handler : nat -> bool;
  g_previous_unexpected_exception_handler : filter;
  g_vector_exception_handler : option nat;
  g_block : bool                                (* gBlockForFatal *)
}.
(** which handler signal s has in thread t; helper of this model, no source of its own *)
Definition handler_of (w : win) (t : nat) (s : Z) : disp := if per_thread s then v_thread w t s else v_process w s.
(** signal(s, d) by thread t, for a valid s; Microsoft's C library *)
Definition set_signal (t : nat) (d : disp) (w : win) (s : Z) : win :=
  mkWin (if per_thread s then updn (v_thread w) t (upd (v_thread w t) s d) else v_thread w)
        (if per_thread s then v_process w else upd (v_process w) s d)
        (v_filter w) (v_vectored w) (v_next w) (g_installed_thread_signal_handler w)
        (g_previous_unexpected_exception_handler w) (g_vector_exception_handler w) (g_block w).
(** the order of crashhandler_windows.cpp:222-231 *)
Definition five_signals : list Z := [WIN_SIGTERM; WIN_SIGABRT; WIN_SIGFPE; WIN_SIGSEGV; WIN_SIGILL].
(** crashhandler_windows.cpp:218-234; also at every LOG call, logcapture.cpp:21, 45 *)
Definition installSignalHandlerForThread (t : nat) (w : win) : win :=
  if g_installed_thread_signal_handler w t then w
  else
    fold_left (set_signal t G3log) five_signals
      (mkWin (v_thread w) (v_process w) (v_filter w) (v_vectored w) (v_next w) (updn (g_installed_thread_signal_handler w) t true)
             (g_previous_unexpected_exception_handler w) (g_vector_exception_handler w) (g_block w)).
(** crashhandler_windows.cpp:236-247 *)
Definition installCrashHandler_win (t : nat) (w0 : win) : win :=
  let w := installSignalHandlerForThread t w0 in
  mkWin (v_thread w) (v_process w) FG3log (v_vectored w ++ [(v_next w, true)]) (S (v_next w)) (g_installed_thread_signal_handler w)
        (v_filter w) (Some (v_next w)) (g_block w).
(** RemoveVectoredExceptionHandler; Windows API *)
Definition remove_vectored (l : list (nat * bool)) (h : option nat) : list (nat * bool) :=
  match h with None => l | Some k => List.filter (fun e => negb (Nat.eqb (fst e) k)) l end.
(** crashhandler_windows.cpp:183-206 *)
Definition restoreFatalHandlingToDefault_win (t : nat) (w : win) : win :=
  fold_left (set_signal t Dfl) [WIN_SIGABRT; WIN_SIGFPE; WIN_SIGSEGV; WIN_SIGILL; WIN_SIGTERM]
    (mkWin (v_thread w) (v_process w) (g_previous_unexpected_exception_handler w)
           (remove_vectored (v_vectored w) (g_vector_exception_handler w)) (v_next w)
           (g_installed_thread_signal_handler w) (g_previous_unexpected_exception_handler w)
           (g_vector_exception_handler w) (g_block w)).
(** clients: a LOG call in thread t; installCrashHandler; restore; their own handlers and filters; calls of crashhandler_windows.cpp:183-247 *)
Inductive vop :=
| VLog (t : nat) | VInstall (t : nat) | VRestore (t : nat)
| VSignal (t : nat) (s : Z) (d : disp) | VFilter (f : filter) | VVectored.
(** crashhandler_windows.cpp:183-247: the effect of one call *)
Definition vstep (w : win) (o : vop) : win :=
  match o with
  | VLog t => installSignalHandlerForThread t w
  | VInstall t => installCrashHandler_win t w
  | VRestore t => restoreFatalHandlingToDefault_win t w
  | VSignal t s d => set_signal t d w s
  | VFilter f => mkWin (v_thread w) (v_process w) f (v_vectored w) (v_next w) (g_installed_thread_signal_handler w)
                   (g_previous_unexpected_exception_handler w) (g_vector_exception_handler w) (g_block w)
  | VVectored => mkWin (v_thread w) (v_process w) (v_filter w) (v_vectored w ++ [(v_next w, false)]) (S (v_next w))
                   (g_installed_thread_signal_handler w) (g_previous_unexpected_exception_handler w) (g_vector_exception_handler w) (g_block w)
  end.
(** helper of this model, no source of its own *)
Definition vrun (w : win) (l : list vop) : win := fold_left vstep l w.
(** program start; crashhandler_windows.cpp:26-36 *)
Definition v_start : win := mkWin (fun _ _ => Dfl) (fun _ => Dfl) FNone [] 0 (fun _ => false) FNone None true.

(** ** the end *)
(** exitWithDefaultSignalHandler returns, or the process has died of a signal, or a handler of that signal has run.
    raise() of a number that is no signal returns an error.  (SIGINT and SIGBREAK, which g3log never uses, are left out.) *)
Inductive wending := WReturns | WKilled (s : Z) | WHandled (d : disp).
(** crashhandler_windows.cpp:158-173, in thread t (the worker's) *)
Definition exitWithDefaultSignalHandler_win (t : nat) (level : LEVELS) (fatal_signal_id : Z) (w0 : win) : win * wending :=
  let w := restoreFatalHandlingToDefault_win t w0 in
  if levelEq FATAL_EXCEPTION level then
    (mkWin (v_thread w) (v_process w) (v_filter w) (v_vectored w) (v_next w) (g_installed_thread_signal_handler w)
           (g_previous_unexpected_exception_handler w) (g_vector_exception_handler w) false, WReturns)
  else if existsb (Z.eqb fatal_signal_id) five_signals then
    match handler_of w t fatal_signal_id with
    | Dfl => (w, WKilled fatal_signal_id)
    | d => (w, WHandled d)
    end
  else (w, WReturns).
(** crashhandler_windows.cpp:92-103, 84-87: the handlers of exceptions.  Result: whether a fatal message is logged, and the
    state; both return EXCEPTION_CONTINUE_SEARCH. *)
Definition vectorExceptionHandling (t : nat) (code : Z) (w : win) : win * bool :=
  if isKnownException code then (restoreFatalHandlingToDefault_win t w, true) else (w, false).
(** crashhandler_windows.cpp:84-87 *)
Definition unexpectedExceptionHandling (t : nat) (code : Z) (w : win) : win * bool :=
  (restoreFatalHandlingToDefault_win t w, true).
