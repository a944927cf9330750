(** What the entries of a piece of code should be. *)
From Coq Require Import Ascii String List ZArith NArith Bool.
From Verif.Base Require Import Bytes.
From Verif.Model Require Import Levels Message Capture Statement.
From Verif.Model Require Stamps.
Import ListNotations.
Local Open Scope list_scope.

Definition message_of (d : dispatch) : LogMessage := match d with ToLogger m => m | ToFatal _ m _ => m end.
(** it was written at that place *)
Definition from_place (p : place) (d : dispatch) : Prop :=
  _file_path (message_of d) = c_str (p_file p) /\ _line (message_of d) = p_line p /\ _function (message_of d) = c_str (p_function p).

(** every LogCapture that was constructed hands over exactly one entry, of its own place, and statements are properly nested *)
Inductive nested : list ev -> Prop :=
| nested_nil : nested []
| nested_asked : forall l b r, nested r -> nested (Asked l b :: r)
| nested_stmt : forall p l inner d r, nested inner -> from_place p d -> nested r -> nested (Begun p l :: inner ++ Handed d :: r).

Definition handed (e : ev) : list dispatch := match e with Handed d => [d] | _ => [] end.
Definition entries (tr : list ev) : list dispatch := flat_map handed tr.
Definition time_of (d : dispatch) : Z := _timestamp (message_of d).

(** the text of the operands, up to the first one that cannot be printed *)
Fixpoint joined (ops : operands) : str :=
  match ops with
  | OCons _ (Some t) r => t ++ joined r
  | _ => []
  end.
(** the text of all the operands that can be printed *)
Fixpoint all_text (ops : operands) : str :=
  match ops with
  | ONil => []
  | OCons _ (Some t) r => t ++ all_text r
  | OCons _ None r => all_text r
  end.
Fixpoint app_ops (a b : operands) : operands :=
  match a with ONil => b | OCons c t r => OCons c t (app_ops r b) end.

(** the code contains an assignment to the level variable *)
Fixpoint assigns (c : code) : bool :=
  match c with
  | Done | Throw => false
  | SetVar _ _ => true
  | Log _ _ _ cond ops next => assigns cond || assigns_ops ops || assigns next
  end
with assigns_ops (ops : operands) : bool :=
  match ops with ONil => false | OCons c _ r => assigns c || assigns_ops r end.

(** ** Stamps *)
Definition of_thread (i : nat) (q : list Stamps.entry) : list Stamps.entry :=
  filter (fun e => Nat.eqb (Stamps.e_thread e) i) q.
(** the clock is never set back *)
Fixpoint forward (t : Z) (es : list Stamps.step) : Prop :=
  match es with
  | [] => True
  | Stamps.Tick t' :: r => (t <= t')%Z /\ forward t' r
  | _ :: r => forward t r
  end.
Fixpoint in_time_order (q : list Stamps.entry) : Prop :=
  match q with
  | a :: ((b :: _) as r) => (Stamps.e_time a <= Stamps.e_time b)%Z /\ in_time_order r
  | _ => True
  end.
