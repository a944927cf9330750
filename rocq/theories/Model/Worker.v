(** The log worker with its sinks and handles: src/logworker.cpp, src/g3log/logworker.hpp, src/g3log/sink.hpp,
    src/g3log/sinkhandle.hpp, and the parts of src/g3log.cpp that use the active worker.

    Threads: the background thread of the worker, the background thread of each sink, any number of clients.
    The queues of the active objects are atomic FIFO queues, which is what C01-C04 prove of them.
    shared_ptr: the reference count of a sink is computed from the places that own it (function [refs]).

    Simplifications:
    - a message is identified by the client that logged it and the number of its log call;
    - clients are not sink threads: a sink does not call removeSink on itself, or release its own last shared_ptr;
    - addSink/removeSink/removeAllSinks are not called by other threads once ~LogWorker has begun (logging is);
    - there is one worker, it is the one that was made the active logger. *)
From Coq Require Import List Arith Bool.
From Verif.Base Require Import Threads.
Import ListNotations.

(** message: client, number of the log call; helper of this model, no source of its own *)
Definition msg := (nat * nat)%type.

(** of the receive function, or of a function called through a handle; sink.hpp:66, 72 *)
Inductive outcome := Val (v : nat) | Exc (e : nat).
(** the future of a handle call: BadWeak is sinkhandle.hpp:43-48 *)
Inductive promise := Pending | Ready (o : outcome) | BadWeak.

(** what is sent to a sink's active object: sink.hpp:65, sink.hpp:72, active.hpp:51 *)
Inductive sjob := JMsg (m : msg) | JCall (c : nat) | JDone.

(** a Sink with its Active: queue, running callback, done_, thread ended, finished callbacks (ghost), destroyed; sink.hpp:37-40, active.hpp:45-47 *)
Record sink := mkSink { k_q : list sjob; k_run : option sjob; k_done : bool; k_exit : bool; k_got : list sjob; k_dead : bool }.
(** sink.hpp:42-58 *)
Definition new_sink : sink := mkSink [] None false false [] false.
(** default of [get]; helper of this model, no source of its own *)
Definition no_sink : sink := mkSink [] None true true [] true.

(** what is sent to the worker's active object: logworker.cpp:102, 106, 110, logworker.hpp:108, 126, active.hpp:51;
    i is the client that waits *)
Inductive task := TSave (m : msg) | TFatal (m : msg) | TAdd (i k : nat) | TRemove (i k : nat) | TClear (i : nat) | TDone.

(** after destroying shared_ptrs: next task; make the token of client i ready; exitWithDefaultSignalHandler; logworker.cpp:36, 63-64, logworker.hpp:108-113, 126-128 *)
Inductive kont := KLoop | KTok (i : nat) | KKill.
(** where the worker's thread is: active.hpp:37-43, logworker.cpp:23-68, logworker.hpp:108-128 *)
Inductive wpc :=
| WLoop                                               (* active.hpp:38-40 *)
| WSend (m : msg) (todo drop : list nat) (q : kont)   (* loops of bgSave and bgFatal; drop: the vector that bgFatal clears *)
| WDrop (l : list nat) (q : kont)                     (* destruction of shared_ptrs *)
| WJoin (k : nat) (l : list nat) (q : kont)           (* in ~Sink of the last one: join *)
| WTok (i : nat) (func : list nat)                    (* packaged_task makes the result available; func still owns *)
| WExit.

(** a client; h (ghost): all that had entered the worker's queue when removeSink was about to send its request, when ~LogWorker began; g3log.cpp:193-230, logworker.hpp:89-131, sinkhandle.hpp:38-49, logworker.cpp:70-99 *)
Inductive cpc :=
| CIdle
| CLog1 (m : msg) | CLog2 (m : msg)                   (* g3log.cpp:208: before, after reading g_logger_instance *)
| CFat1 (m : msg) | CFat2 (m : msg) | CFatBlock       (* g3log.cpp:226, then 227-229 *)
| CAddW (k : nat) | CAddR (k : nat)                   (* logworker.cpp:114 waits; the token is ready *)
| CRm1 (k : nat) | CRm2 (k : nat)                     (* logworker.hpp:106: temporary of sink(); before 114 *)
| CRmW (k : nat) (h : list task) | CRmR (k : nat) (h : list task)   (* logworker.hpp:115 *)
| CAllW | CAllR                                       (* logworker.hpp:130 *)
| CCall (k c : nat) | CCallR (k : nat)                (* sinkhandle.hpp:41: before, after line 42 *)
| CJoin (k : nat) (next : cpc)                        (* in ~Sink of the last shared_ptr: join *)
| D0 (h : list task) | DClrW (h : list task) | DClrR (h : list task) | DJoin (h : list task) | DDone (h : list task).   (* logworker.cpp:83, 98 *)
(** hold: the shared_ptrs this client owns, including those of functions it is in; n: number of log calls; helper of this model, no source of its own *)
Record client := mkClient { c_pc : cpc; c_hold : list nat; c_n : nat }.
(** helper of this model, no source of its own *)
Definition new_client : client := mkClient CIdle [] 0.

(** the process: running; logworker.cpp:64; g3log.cpp:224; null or destroyed object used (g3log.cpp:208, 226, logworker.cpp:102, 106); std::terminate *)
Inductive pstate := PRun | PKilled | PExit | PUb | PTerm.

(** logworker.hpp:33-34, active.hpp:45-47, g3log.cpp:37 *)
Record wstate := mkW {
  w_old : list task;                (* ghost: what was taken out of the queue *)
  w_q : list task;                  (* mq_ *)
  w_pc : wpc;
  w_sinks : list nat;               (* _sinks *)
  w_bg : bool;                      (* _bg is not null *)
  w_active : bool;                  (* g_logger_instance is not null *)
  w_sk : list sink;
  w_cl : list client;
  w_prom : list (nat * promise);    (* futures of handle calls: sink, state *)
  w_handles : list nat;             (* handles that were returned *)
  w_err : list msg;                 (* logworker.cpp:31-35 *)
  w_proc : pstate;
  w_sinkub : bool                   (* a destroyed sink was used *)
}.
(** logworker.cpp:20-21, and initializeLogging done; n clients *)
Definition w_init (n : nat) : wstate := mkW [] [] WLoop [] true true [] (repeat new_client n) [] [] [] PRun false.

(** ** fields *)
(** helper of this model, no source of its own *)
Definition sk (s : wstate) (k : nat) : sink := get no_sink (w_sk s) k.
(** helper of this model, no source of its own *)
Definition cl (s : wstate) (i : nat) : client := get new_client (w_cl s) i.
(** wait_and_pop; active.hpp:40 *)
Definition pop (s : wstate) (t : task) (q : list task) : wstate :=
  mkW (w_old s ++ [t]) q (w_pc s) (w_sinks s) (w_bg s) (w_active s) (w_sk s) (w_cl s) (w_prom s) (w_handles s) (w_err s) (w_proc s) (w_sinkub s).
(** helper of this model, no source of its own *)
Definition set_pc (s : wstate) (p : wpc) : wstate :=
  mkW (w_old s) (w_q s) p (w_sinks s) (w_bg s) (w_active s) (w_sk s) (w_cl s) (w_prom s) (w_handles s) (w_err s) (w_proc s) (w_sinkub s).
(** helper of this model, no source of its own *)
Definition set_sinks (s : wstate) (l : list nat) : wstate :=
  mkW (w_old s) (w_q s) (w_pc s) l (w_bg s) (w_active s) (w_sk s) (w_cl s) (w_prom s) (w_handles s) (w_err s) (w_proc s) (w_sinkub s).
(** helper of this model, no source of its own *)
Definition set_bg (s : wstate) (b : bool) : wstate :=
  mkW (w_old s) (w_q s) (w_pc s) (w_sinks s) b (w_active s) (w_sk s) (w_cl s) (w_prom s) (w_handles s) (w_err s) (w_proc s) (w_sinkub s).
(** helper of this model, no source of its own *)
Definition set_active (s : wstate) (b : bool) : wstate :=
  mkW (w_old s) (w_q s) (w_pc s) (w_sinks s) (w_bg s) b (w_sk s) (w_cl s) (w_prom s) (w_handles s) (w_err s) (w_proc s) (w_sinkub s).
(** helper of this model, no source of its own *)
Definition set_sk (s : wstate) (l : list sink) : wstate :=
  mkW (w_old s) (w_q s) (w_pc s) (w_sinks s) (w_bg s) (w_active s) l (w_cl s) (w_prom s) (w_handles s) (w_err s) (w_proc s) (w_sinkub s).
(** helper of this model, no source of its own *)
Definition set_cl (s : wstate) (i : nat) (c : client) : wstate :=
  mkW (w_old s) (w_q s) (w_pc s) (w_sinks s) (w_bg s) (w_active s) (w_sk s) (upd (w_cl s) i c) (w_prom s) (w_handles s) (w_err s) (w_proc s) (w_sinkub s).
(** helper of this model, no source of its own *)
Definition set_prom (s : wstate) (l : list (nat * promise)) : wstate :=
  mkW (w_old s) (w_q s) (w_pc s) (w_sinks s) (w_bg s) (w_active s) (w_sk s) (w_cl s) l (w_handles s) (w_err s) (w_proc s) (w_sinkub s).
(** helper of this model, no source of its own *)
Definition set_handles (s : wstate) (l : list nat) : wstate :=
  mkW (w_old s) (w_q s) (w_pc s) (w_sinks s) (w_bg s) (w_active s) (w_sk s) (w_cl s) (w_prom s) l (w_err s) (w_proc s) (w_sinkub s).
(** helper of this model, no source of its own *)
Definition set_err (s : wstate) (l : list msg) : wstate :=
  mkW (w_old s) (w_q s) (w_pc s) (w_sinks s) (w_bg s) (w_active s) (w_sk s) (w_cl s) (w_prom s) (w_handles s) l (w_proc s) (w_sinkub s).
(** helper of this model, no source of its own *)
Definition set_proc (s : wstate) (p : pstate) : wstate :=
  mkW (w_old s) (w_q s) (w_pc s) (w_sinks s) (w_bg s) (w_active s) (w_sk s) (w_cl s) (w_prom s) (w_handles s) (w_err s) p (w_sinkub s).
(** helper of this model, no source of its own *)
Definition set_sinkub (s : wstate) : wstate :=
  mkW (w_old s) (w_q s) (w_pc s) (w_sinks s) (w_bg s) (w_active s) (w_sk s) (w_cl s) (w_prom s) (w_handles s) (w_err s) (w_proc s) true.

(** Active::send of the worker; logworker.cpp:102, 106, future.hpp:57, active.hpp:55-57 *)
Definition push (s : wstate) (t : task) : wstate :=
  mkW (w_old s) (w_q s ++ [t]) (w_pc s) (w_sinks s) (w_bg s) (w_active s) (w_sk s) (w_cl s) (w_prom s) (w_handles s) (w_err s) (w_proc s) (w_sinkub s).
(** Active::send of sink k; using a sink after its destruction is recorded; helper of this model, no source of its own *)
Definition with_kq (x : sink) (q : list sjob) : sink := mkSink q (k_run x) (k_done x) (k_exit x) (k_got x) (k_dead x).
(** helper of this model, no source of its own *)
Definition with_dead (x : sink) : sink := mkSink (k_q x) (k_run x) (k_done x) (k_exit x) (k_got x) true.
(** sink.hpp:65, future.hpp:57; using a sink after its destruction is recorded *)
Definition push_sink (s : wstate) (k : nat) (j : sjob) : wstate :=
  if k_dead (sk s k) then set_sinkub s
  else set_sk s (upd (w_sk s) k (with_kq (sk s k) (k_q (sk s k) ++ [j]))).
(** end of ~Sink; sink.hpp:60-62 *)
Definition destroy (s : wstate) (k : nat) : wstate :=
  if k_dead (sk s k) then set_sinkub s else set_sk s (upd (w_sk s) k (with_dead (sk s k))).

(** everything that entered the queue so far; helper of this model, no source of its own *)
Definition entered (s : wstate) : list task := w_old s ++ w_q s.

(** ** owners of sinks *)
(** logworker.cpp:110: the lambda owns a shared_ptr; logworker.hpp:108: a weak_ptr only *)
Definition task_refs (t : task) : list nat := match t with TAdd _ k => [k] | _ => [] end.
(** shared_ptrs owned by locals and temporaries of the worker's thread: logworker.cpp:63, 110, logworker.hpp:109-111, 127 *)
Definition pc_refs (p : wpc) : list nat :=
  match p with WSend _ _ drop _ => drop | WDrop l _ => l | WJoin _ l _ => l | WTok _ f => f | WLoop | WExit => [] end.
(** helper of this model, no source of its own *)
Definition cnt (k : nat) (l : list nat) : nat := count_occ Nat.eq_dec l k.
(** use_count of sink k: the vector, the queued lambdas, the worker's thread, the clients *)
Definition refs (s : wstate) (k : nat) : nat :=
  cnt k (w_sinks s) + cnt k (flat_map task_refs (w_q s)) + cnt k (pc_refs (w_pc s)) + weigh (fun c => cnt k (c_hold c)) (w_cl s).

(** helper of this model, no source of its own *)
Definition set_cpc (s : wstate) (i : nat) (p : cpc) : wstate := set_cl s i (mkClient p (c_hold (cl s i)) (c_n (cl s i))).
(** helper of this model, no source of its own *)
Definition set_hold (s : wstate) (i : nat) (h : list nat) : wstate := set_cl s i (mkClient (c_pc (cl s i)) h (c_n (cl s i))).
(** helper of this model, no source of its own *)
Fixpoint remove1 (k : nat) (l : list nat) : list nat :=
  match l with [] => [] | x :: r => if Nat.eqb x k then r else x :: remove1 k r end.
(** client i destroys one of its shared_ptrs to k, and then continues at [next]; sink.hpp:60-62, active.hpp:50-53 *)
Definition release (s : wstate) (i k : nat) (next : cpc) : wstate :=
  let s1 := set_hold s i (remove1 k (c_hold (cl s i))) in
  if Nat.eqb (refs s1 k) 0 then set_cpc (push_sink s1 k JDone) i (CJoin k next) else set_cpc s1 i next.
(** weak_ptr::lock; sinkhandle.hpp:41, 55, logworker.hpp:106 *)
Definition acquire (s : wstate) (i k : nat) : wstate := set_hold s i (k :: c_hold (cl s i)).

(** ** the worker *)
(** std::packaged_task: the client that waits can go on; logworker.cpp:114, logworker.hpp:115, 130 *)
Definition signal (p : cpc) : cpc :=
  match p with CAddW k => CAddR k | CRmW k h => CRmR k h | CAllW => CAllR | DClrW h => DClrR h | _ => p end.
(** one step of the worker's thread *)
Definition work (s : wstate) : option wstate :=
  match w_pc s with
  | WLoop =>
      match w_q s with
      | [] => None
      | t :: q =>
          let s := pop s t q in
          Some match t with
          | TSave m =>                                                          (* logworker.cpp:23-36 *)
              set_pc (set_err s (w_err s ++ match w_sinks s with [] => [m] | _ => [] end)) (WSend m (w_sinks s) [] KLoop)
          | TFatal m =>                                                         (* logworker.cpp:38-64 *)
              set_pc (set_sinks (set_active s false) []) (WSend m (w_sinks s) (w_sinks s) KKill)
          | TAdd i k => set_pc (set_sinks s (w_sinks s ++ [k])) (WTok i [k])    (* logworker.cpp:110-112 *)
          | TRemove i k =>                                                      (* logworker.hpp:108-113 *)
              if Nat.eqb (refs s k) 0 then set_pc s (WTok i [])
              else set_pc (set_sinks s (remove Nat.eq_dec k (w_sinks s))) (WDrop (repeat k (cnt k (w_sinks s)) ++ [k]) (KTok i))
          | TClear i => set_pc (set_sinks s []) (WDrop (w_sinks s) (KTok i))    (* logworker.hpp:126-128 *)
          | TDone => set_pc s WExit                                             (* active.hpp:51, 38 *)
          end
      end
  | WSend m (k :: todo) drop q => Some (set_pc (push_sink s k (JMsg m)) (WSend m todo drop q))
  | WSend m [] drop q => Some (set_pc s (WDrop drop q))
  | WDrop (k :: l) q =>
      let s1 := set_pc s (WDrop l q) in
      Some (if Nat.eqb (refs s1 k) 0 then set_pc (push_sink s1 k JDone) (WJoin k l q) else s1)
  | WJoin k l q => if k_exit (sk s k) then Some (set_pc (destroy s k) (WDrop l q)) else None
  | WDrop [] KLoop => Some (set_pc s WLoop)
  | WDrop [] (KTok i) => Some (set_pc s (WTok i []))
  | WDrop [] KKill => Some (set_proc s PKilled)
  | WTok i f => Some (set_pc (set_cpc s i (signal (c_pc (cl s i)))) (WDrop f KLoop))
  | WExit => None
  end.

(** ** a sink *)
(** one step of a sink's thread: active.hpp:38-40 *)
Definition sink_pop (s : wstate) (k : nat) : option wstate :=                   (* active.hpp:38-40 *)
  let x := sk s k in
  match k_run x, k_q x with
  | None, j :: q => if k_done x then None else Some (set_sk s (upd (w_sk s) k (mkSink q (Some j) (k_done x) (k_exit x) (k_got x) (k_dead x))))
  | _, _ => None
  end.
(** active.hpp:41 *)
Definition sink_end (s : wstate) (k : nat) (o : outcome) : option wstate :=     (* active.hpp:41 *)
  let x := sk s k in
  match k_run x with
  | None => None
  | Some j =>
      let s1 := set_sk s (upd (w_sk s) k (mkSink (k_q x) None (match j with JDone => true | _ => k_done x end) (k_exit x) (k_got x ++ [j]) (k_dead x))) in
      Some (match j with
            | JMsg _ => match o with Val _ => s1 | Exc _ => set_proc s1 PTerm end
            | JCall c => set_prom s1 (upd (w_prom s1) c (fst (get (0, BadWeak) (w_prom s1) c), Ready o))
            | JDone => s1
            end)
  end.
(** active.hpp:38, 43: done_ was set *)
Definition sink_exit (s : wstate) (k : nat) : option wstate :=
  let x := sk s k in
  if k_done x && negb (k_exit x) then Some (set_sk s (upd (w_sk s) k (mkSink (k_q x) (k_run x) true true (k_got x) (k_dead x)))) else None.

(** ** clients *)
(** in addSink, removeSink or removeAllSinks, or in the destructor; logworker.hpp:89-131, logworker.cpp:70-99 *)
Fixpoint managing (p : cpc) : bool :=
  match p with
  | CAddW _ | CAddR _ | CRm1 _ | CRm2 _ | CRmW _ _ | CRmR _ _ | CAllW | CAllR | D0 _ | DClrW _ | DClrR _ | DJoin _ | DDone _ => true
  | CJoin _ next => managing next
  | _ => false
  end.
(** in logworker.cpp:70-99 *)
Definition is_dtor (p : cpc) : bool := match p with D0 _ | DClrW _ | DClrR _ | DJoin _ | DDone _ => true | _ => false end.
(** ~LogWorker was called; logworker.cpp:70 *)
Definition dtor_begun (s : wstate) : bool := existsb (fun c => is_dtor (c_pc c)) (w_cl s).

(** a client that is in the middle of something goes on; one step of g3log.cpp:193-230, logworker.hpp:89-131, sinkhandle.hpp:38-49, logworker.cpp:70-99 *)
Definition go (s : wstate) (i : nat) : option wstate :=
  let c := cl s i in
  match c_pc c with
  | CLog1 m => Some (if w_active s then set_cpc s i (CLog2 m) else set_proc s PUb)
  | CLog2 m => Some (if w_bg s then set_cpc (push s (TSave m)) i CIdle else set_proc s PUb)
  | CFat1 m => Some (if w_active s then set_cpc s i (CFat2 m) else set_proc s PUb)
  | CFat2 m => Some (if w_bg s then set_cpc (push s (TFatal m)) i CFatBlock else set_proc s PUb)
  | CAddR k => Some (release (set_handles s (w_handles s ++ [k])) i k CIdle)    (* logworker.hpp:93-95 *)
  | CRm1 k => Some (release s i k (CRm2 k))                                     (* logworker.hpp:106 *)
  | CRm2 k => Some (set_cpc (push s (TRemove i k)) i (CRmW k (entered s)))                  (* logworker.hpp:114 *)
  | CRmR _ _ | CAllR => Some (set_cpc s i CIdle)
  | CCall k c => Some (set_cpc (push_sink s k (JCall c)) i (CCallR k))          (* sinkhandle.hpp:42 *)
  | CCallR k => Some (release s i k CIdle)
  | CJoin k next => if k_exit (sk s k) then Some (set_cpc (destroy s k) i next) else None
  | D0 h => Some (set_cpc (push s (TClear i)) i (DClrW h))                      (* logworker.cpp:83 *)
  | DClrR h => Some (set_cpc (set_bg (push s TDone) false) i (DJoin h))         (* logworker.cpp:98 *)
  | DJoin h => match w_pc s with WExit => Some (set_cpc s i (DDone h)) | _ => None end
  | CIdle | CFatBlock | CAddW _ | CRmW _ _ | CAllW | DClrW _ | DDone _ => None
  end.

(** what can happen next: steps of threads, and calls by idle clients *)
Inductive waction :=
| AWork | ASinkPop (k : nat) | ASinkEnd (k : nat) (o : outcome) | ASinkExit (k : nat) | AGo (i : nat)
| ALog (i : nat) | AFatal (i : nat) | AAdd (i : nat) | ARemove (i k : nat) | ARemoveAll (i : nat)
| ACall (i k : nat) | ALock (i k : nat) | ARelease (i k : nat) | ADestroy (i : nat)
| AShutDown | AInit.

(** helper of this model, no source of its own *)
Definition idle (s : wstate) (i : nat) : bool := Nat.ltb i (length (w_cl s)) && match c_pc (cl s i) with CIdle => true | _ => false end.
(** helper of this model, no source of its own *)
Definition has (k : nat) (l : list nat) : bool := existsb (Nat.eqb k) l.
(** a log call: the client's counter; helper of this model, no source of its own *)
Definition count_log (s : wstate) (i : nat) (p : cpc) : wstate := set_cl s i (mkClient p (c_hold (cl s i)) (S (c_n (cl s i)))).

(** the lines are named with each case; None: the action is not possible now *)
Definition wstep (s : wstate) (a : waction) : option wstate :=
  match w_proc s with PRun =>
  match a with
  | AWork => work s
  | ASinkPop k => sink_pop s k
  | ASinkEnd k o => sink_end s k o
  | ASinkExit k => sink_exit s k
  | AGo i => go s i
  | ALog i =>                                                                   (* g3log.cpp:193-209 *)
      if idle s i then
        Some (count_log s i (if w_active s then CLog1 (i, c_n (cl s i)) else CIdle))
      else None
  | AFatal i =>                                                                 (* g3log.cpp:216-230 *)
      if idle s i then
        Some (if w_active s then count_log s i (CFat1 (i, c_n (cl s i))) else set_proc (count_log s i CIdle) PExit)
      else None
  | AAdd i =>                                                                   (* logworker.hpp:89-95, logworker.cpp:109-115 *)
      if idle s i && negb (dtor_begun s) then
        let k := length (w_sk s) in
        Some (set_cpc (push (acquire (set_sk s (w_sk s ++ [new_sink])) i k) (TAdd i k)) i (CAddW k))
      else None
  | ARemove i k =>                                                              (* logworker.hpp:101-121 *)
      if idle s i && negb (dtor_begun s) && has k (w_handles s) then
        Some (if Nat.eqb (refs s k) 0 then set_cpc s i (CRm2 k) else set_cpc (acquire s i k) i (CRm1 k))
      else None
  | ARemoveAll i =>                                                             (* logworker.hpp:125-131 *)
      if idle s i && negb (dtor_begun s) then Some (set_cpc (push s (TClear i)) i CAllW) else None
  | ACall i k =>                                                                (* sinkhandle.hpp:38-49 *)
      if idle s i && has k (w_handles s) then
        Some (if Nat.eqb (refs s k) 0 then set_prom s (w_prom s ++ [(k, BadWeak)])
              else set_cpc (acquire (set_prom s (w_prom s ++ [(k, Pending)])) i k) i (CCall k (length (w_prom s))))
      else None
  | ALock i k =>                                                                (* sinkhandle.hpp:54-56, and lock() by the client *)
      if idle s i && has k (w_handles s) && negb (Nat.eqb (refs s k) 0) then Some (acquire s i k) else None
  | ARelease i k =>
      if idle s i && has k (c_hold (cl s i)) then Some (release s i k CIdle) else None
  | ADestroy i =>                                                               (* logworker.cpp:70-71 *)
      if idle s i && negb (existsb (fun c => managing (c_pc c)) (w_cl s)) then Some (set_cpc (set_active s false) i (D0 (entered s))) else None
  | AShutDown => Some (set_active s false)                                      (* g3log.cpp:118-121 *)
  | AInit => if w_active s || dtor_begun s then None else Some (set_active s true)   (* g3log.cpp:58-83 *)
  end
  | _ => None
  end.

(** helper of this model, no source of its own *)
Inductive wsteps : wstate -> wstate -> Prop :=
| ws_refl : forall s, wsteps s s
| ws_step : forall s s1 a s2, wsteps s s1 -> wstep s1 a = Some s2 -> wsteps s s2.
(** executions; helper of this model, no source of its own *)
Definition wreach (n : nat) (s : wstate) : Prop := wsteps (w_init n) s.
