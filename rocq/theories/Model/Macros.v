(** The logging macros, as the statements they expand to.
    Source: src/g3log/g3log.hpp:140-226, src/loglevels.cpp:119-127.

    A small statement language with the C++ rules for if/else and for || and ==.  Client
    expressions are numbered; the environment gives their values (an int; a bool is 0 or 1)
    and every evaluation leaves a mark in a trace. *)
From Coq Require Import Ascii String List ZArith Bool.
From Verif.Base Require Import Bytes.
From Verif.Model Require Import Levels.
Import ListNotations.
Local Open Scope list_scope.

(** what happens while a statement runs; ghost, for stating properties *)
Inductive event :=
| EvQuery (l : LEVELS)        (* g3::logLevel(level) *)
| EvCond (n : nat)            (* the n-th client expression is evaluated *)
| EvCapture (l : LEVELS) (expr : option nat)   (* LogCapture constructed: level, and the CHECK's expression *)
| EvArgs (a : nat)            (* the streamed / printf arguments number a are evaluated *)
| EvEmit                      (* ~LogCapture: the entry is handed over *)
| EvCall (n : nat).           (* some other client statement runs *)

(** expressions occurring in the macros; g3log.hpp:147-226 *)
Inductive expr :=
| XLevel (l : LEVELS)         (* g3::logLevel(l) *)
| XClient (n : nat)           (* (boolean_expression) *)
| XNot (e : expr)
| XOr (a b : expr)            (* short-circuit *)
| XFalseEq (e : expr)         (* false == e *)
| XTrueEq (e : expr).         (* true == e *)

(** the statement after else: constructing a LogCapture, evaluating the arguments, destroying it; g3log.hpp:140-143 *)
Record emit := mkEmit { em_level : LEVELS; em_expr : option nat; em_args : nat }.

(** C++ statements; helper of this model, no source of its own *)
Inductive stmt :=
| SCall (n : nat)                       (* client expression statement *)
| SEmit (e : emit)
| SBlock (l : list stmt)
| SIf (c : expr) (t : stmt)
| SIfElse (c : expr) (t f : stmt)
| SWhile (c : expr) (b : stmt).

(** uses of the macros; g3log.hpp:147, 151, 156, 208, 212, 218, 225 *)
Inductive macro :=
| MLOG (l : LEVELS) (args : nat)
| MLOG_IF (l : LEVELS) (cond : nat) (args : nat)
| MCHECK (cond : nat) (args : nat)
| MLOGF (l : LEVELS) (args : nat)
| MLOGF_IF (l : LEVELS) (cond : nat) (args : nat)
| MCHECKF (cond : nat) (args : nat)
| MCHECK_F (cond : nat) (args : nat).

(** the condition of the if each macro expands to: g3log.hpp:147, 151-152, 156-157, 208-209, 212-213, 218-219, 225-226 *)
Definition macro_cond (m : macro) : expr :=
  match m with
  | MLOG l _ => XNot (XLevel l)
  | MLOG_IF l c _ => XOr (XNot (XLevel l)) (XFalseEq (XClient c))
  | MCHECK c _ => XTrueEq (XClient c)
  | MLOGF l _ => XNot (XLevel l)
  | MLOGF_IF l c _ => XOr (XNot (XLevel l)) (XFalseEq (XClient c))
  | MCHECKF c _ => XTrueEq (XClient c)
  | MCHECK_F c _ => XTrueEq (XClient c)
  end.

(** the part after else: g3log.hpp:147, 152, 157, 209, 213, 219, 226 *)
Definition macro_emit (m : macro) : emit :=
  match m with
  | MLOG l a | MLOGF l a => mkEmit l None a
  | MLOG_IF l _ a | MLOGF_IF l _ a => mkEmit l None a
  | MCHECK c a | MCHECKF c a | MCHECK_F c a => mkEmit CONTRACT (Some c) a
  end.

(** if (cond) {} else LogCapture(...) ...  g3log.hpp:147-226 *)
Definition expand_macro (m : macro) : stmt := SIfElse (macro_cond m) (SBlock []) (SEmit (macro_emit m)).

(** loglevels.cpp:119-127; without G3_DYNAMIC_LOGGING the answer is true and nothing is touched *)
Definition query (dynamic : bool) (tbl : lmap) (l : LEVELS) : lmap * bool :=
  if dynamic then logLevel tbl l else (tbl, true).

(** conversion of bool to int *)
Definition b2z (b : bool) : Z := if b then 1%Z else 0%Z.

(** evaluation: new level table, trace, value; C++ language, no source in /repo *)
Fixpoint eval (dynamic : bool) (client : nat -> Z) (tbl : lmap) (x : expr) : lmap * list event * Z :=
  match x with
  | XLevel l => let (tbl', b) := query dynamic tbl l in (tbl', [EvQuery l], b2z b)
  | XClient n => (tbl, [EvCond n], client n)
  | XNot e => let '(t, tr, v) := eval dynamic client tbl e in (t, tr, b2z (v =? 0)%Z)
  | XOr a b =>
      let '(t, tr, v) := eval dynamic client tbl a in
      if (v =? 0)%Z then
        let '(t', tr', v') := eval dynamic client t b in (t', tr ++ tr', b2z (negb (v' =? 0)%Z))
      else (t, tr, 1%Z)
  | XFalseEq e => let '(t, tr, v) := eval dynamic client tbl e in (t, tr, b2z (0 =? v)%Z)
  | XTrueEq e => let '(t, tr, v) := eval dynamic client tbl e in (t, tr, b2z (1 =? v)%Z)
  end.

(** execution of loop-free statements; a while loop runs at most [fuel] rounds (the macros contain none); C++ language, no source in /repo *)
Fixpoint exec (fuel : nat) (dynamic : bool) (client : nat -> Z) (tbl : lmap) (s : stmt) : lmap * list event :=
  match fuel with
  | O => (tbl, [])
  | S fuel' =>
    match s with
    | SCall n => (tbl, [EvCall n])
    | SEmit e => (tbl, [EvCapture (em_level e) (em_expr e); EvArgs (em_args e); EvEmit])
    | SBlock l =>
        fold_left (fun acc s' => let '(t, tr) := acc in
                     let '(t', tr') := exec fuel' dynamic client t s' in (t', tr ++ tr')) l (tbl, [])
    | SIf c t =>
        let '(tb, tr, v) := eval dynamic client tbl c in
        if (v =? 0)%Z then (tb, tr)
        else let '(tb', tr') := exec fuel' dynamic client tb t in (tb', tr ++ tr')
    | SIfElse c t f =>
        let '(tb, tr, v) := eval dynamic client tbl c in
        let '(tb', tr') := exec fuel' dynamic client tb (if (v =? 0)%Z then f else t) in (tb', tr ++ tr')
    | SWhile c b =>
        let '(tb, tr, v) := eval dynamic client tbl c in
        if (v =? 0)%Z then (tb, tr)
        else
          let '(tb', tr') := exec fuel' dynamic client tb b in
          let '(tb'', tr'') := exec fuel' dynamic client tb' (SWhile c b) in (tb'', tr ++ tr' ++ tr'')
    end
  end.

(** ** Concrete syntax: what the parser makes of a macro use *)
(** Tokens; [TCond c] is a parenthesised condition, [TExpr n] an expression, [TUse m] a macro use with the
    operands that follow it (LOG(INFO) << a << b), before preprocessing.  C++ language, no source in /repo *)
Inductive token :=
| TIf | TElse | TWhile | TLBrace | TRBrace | TSemi
| TCond (c : expr)
| TExpr (n : nat)
| TEmit (e : emit)
| TUse (m : macro).

(** source statements before preprocessing: as above, with macro uses as expression statements; C++ language, no source in /repo *)
Inductive source :=
| PCall (n : nat)
| PEmit (e : emit)
| PUse (m : macro)
| PBlock (l : list source)
| PIf (c : expr) (t : source)
| PIfElse (c : expr) (t f : source)
| PWhile (c : expr) (b : source).

(** the C++ statement grammar (stmt.select, stmt.iter, stmt.block): an else belongs to the nearest if; C++ language, no source in /repo *)
Fixpoint parse (fuel : nat) (ts : list token) : option (source * list token) :=
  match fuel with
  | O => None
  | S f =>
    match ts with
    | TExpr n :: TSemi :: r => Some (PCall n, r)
    | TEmit e :: TSemi :: r => Some (PEmit e, r)
    | TUse m :: TSemi :: r => Some (PUse m, r)
    | TLBrace :: r => match parse_seq f r with Some (l, r') => Some (PBlock l, r') | None => None end
    | TIf :: TCond c :: r =>
        match parse f r with
        | Some (t, TElse :: r') =>
            match parse f r' with Some (e, r'') => Some (PIfElse c t e, r'') | None => None end
        | Some (t, r') => Some (PIf c t, r')
        | None => None
        end
    | TWhile :: TCond c :: r =>
        match parse f r with Some (b, r') => Some (PWhile c b, r') | None => None end
    | _ => None
    end
  end
with parse_seq (fuel : nat) (ts : list token) : option (list source * list token) :=
  match fuel with
  | O => None
  | S f =>
    match ts with
    | TRBrace :: r => Some ([], r)
    | _ => match parse f ts with
           | Some (s, r) => match parse_seq f r with Some (l, r') => Some (s :: l, r') | None => None end
           | None => None
           end
    end
  end.

(** the preprocessor: g3log.hpp:140-226 *)
Definition expand_token (t : token) : list token :=
  match t with
  | TUse m => [TIf; TCond (macro_cond m); TLBrace; TRBrace; TElse; TEmit (macro_emit m)]
  | t => [t]
  end.
(** the preprocessor, for the macros of g3log.hpp:147-226 *)
Definition preprocess (ts : list token) : list token := concat (map expand_token ts).
