(** What a macro use should do, and what a statement with macro uses should mean. *)
From Coq Require Import List ZArith Bool.
From Verif.Model Require Import Levels Macros.
Import ListNotations.

(** a statement in which every macro use is one indivisible statement *)
Fixpoint meaning (s : source) : stmt :=
  match s with
  | PCall n => SCall n
  | PEmit e => SEmit e
  | PUse m => expand_macro m
  | PBlock l => SBlock (map meaning l)
  | PIf c t => SIf c (meaning t)
  | PIfElse c t f => SIfElse c (meaning t) (meaning f)
  | PWhile c b => SWhile c (meaning b)
  end.

Definition level_of (m : macro) : option LEVELS :=
  match m with MLOG l _ | MLOGF l _ | MLOG_IF l _ _ | MLOGF_IF l _ _ => Some l | _ => None end.
Definition cond_of (m : macro) : option nat :=
  match m with MLOG_IF _ c _ | MLOGF_IF _ c _ | MCHECK c _ | MCHECKF c _ | MCHECK_F c _ => Some c | _ => None end.
Definition is_check (m : macro) : bool := match m with MCHECK _ _ | MCHECKF _ _ | MCHECK_F _ _ => true | _ => false end.

(** the documented behaviour, as the sequence of things that happen.  [enabled] is the level's status,
    [holds] the value of the condition. *)
Definition emission (l : LEVELS) (x : option nat) (a : nat) : list event := [EvCapture l x; EvArgs a; EvEmit].
Definition documented (m : macro) (enabled holds : bool) : list event :=
  match m with
  | MLOG l a | MLOGF l a => EvQuery l :: if enabled then emission l None a else []
  | MLOG_IF l c a | MLOGF_IF l c a =>
      EvQuery l :: if enabled then EvCond c :: (if holds then emission l None a else []) else []
  | MCHECK c a | MCHECKF c a | MCHECK_F c a =>
      EvCond c :: if holds then [] else emission CONTRACT (Some c) a
  end.
