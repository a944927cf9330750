(** What the signal handling should do. *)
From Coq Require Import Ascii String List ZArith NArith Bool.
From Verif.Base Require Import Bytes.
From Verif.Model Require Import Message Signals.
Import ListNotations.
Local Open Scope Z_scope.
Local Open Scope list_scope.

(** The life of the signal table as a client sees it: which set of signals is chosen, which of them g3log
    handles, and what handling each signal has apart from g3log. *)
Record view := mkView { chosen : Z -> bool; handled : Z -> bool; outside : Z -> disp }.

Definition five (s : Z) : bool := existsb (Z.eqb s) [4; 6; 8; 11; 15].
Definition named (l : list (Z * str)) (s : Z) : bool := existsb (fun kv => fst kv =? s) l.

Definition view0 (base : Z -> disp) : view := mkView five (fun _ => false) base.

Definition view_step (catchable : Z -> bool) (v : view) (o : sop) : view :=
  match o with
  | SInstall => mkView (chosen v) (fun s => handled v s || (chosen v s && catchable s)) (outside v)
  | SOverride l => mkView (named l) (fun s => named l s && catchable s) (outside v)
  | SDefault => mkView five (fun s => five s && catchable s) (outside v)
  | SRestore s => mkView (chosen v) (fun x => handled v x && negb (x =? s)) (outside v)
  | SClient s d => mkView (chosen v) (handled v) (fun x => if (x =? s) && catchable s then d else outside v x)
  end.
Definition view_of (catchable : Z -> bool) (base : Z -> disp) (os : list sop) : view :=
  fold_left (view_step catchable) os (view0 base).

(** Clients behave: no installation while one of the chosen signals is handled already (in particular:
    installing once, before anything else, is fine), and no own handler for a signal g3log handles. *)
Definition proper (v : view) (o : sop) : Prop :=
  match o with
  | SInstall => forall s, chosen v s = true -> handled v s = false
  | SClient s d => handled v s = false /\ d <> G3log
  | _ => True
  end.
Fixpoint all_proper (catchable : Z -> bool) (v : view) (os : list sop) : Prop :=
  match os with
  | [] => True
  | o :: r => proper v o /\ all_proper catchable (view_step catchable v o) r
  end.

(** how a process ends that raises s with handling d and then, if it is still there, exits with code s *)
Definition expected_ending (w : world) (d : disp) (s : Z) : ending :=
  match d with
  | Dfl => if w_kills w s && negb (w_pid1 w) then Killed s else ExitCode s
  | User n => if w_ends w n then EndedByHandler n else ExitCode s
  | Ign | G3log => ExitCode s
  end.

(** number of signals in a schedule *)
Definition is_signal (a : hact) : bool := match a with HSignal _ _ => true | _ => false end.
Definition signals_in (l : list hact) : nat := length (filter is_signal l).
