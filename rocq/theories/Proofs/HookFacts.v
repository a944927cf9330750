(** How often a hook runs when several threads fail. *)
From Coq Require Import Ascii String List ZArith NArith Bool Lia.
From Verif.Base Require Import Bytes.
From Verif.Model Require Import Levels Message Global.
From Verif.Spec Require Import GlobalSpec.
From Verif.Proofs Require Import GlobalFacts.
Import ListNotations.
Local Open Scope list_scope.

(** what a step is for hook n *)
Inductive hmove (n : nat) (g : global) (t : nat) (g' : global) : Prop :=
| hm_same : g' = g -> hmove n g t g'
| hm_plain : clean (g_threads g t) -> clean (g_threads g' t) -> runs n (g_trace g') = runs n (g_trace g) ->
    (sets n (calls (g_trace g')) = sets n (calls (g_trace g)) /\
       (g_fatal_pre_logging_hook g' = g_fatal_pre_logging_hook g \/ hold n (g_fatal_pre_logging_hook g') = 0) \/
     sets n (calls (g_trace g')) = sets n (calls (g_trace g)) + hold n (g_fatal_pre_logging_hook g')) -> hmove n g t g'
| hm_copy : forall st m s r, clean (g_threads g t) -> g_threads g' t = FCopied (g_fatal_pre_logging_hook g) st m s :: r -> clean r ->
    runs n (g_trace g') = runs n (g_trace g) -> sets n (calls (g_trace g')) = sets n (calls (g_trace g)) ->
    g_fatal_pre_logging_hook g' = g_fatal_pre_logging_hook g -> hmove n g t g'
| hm_reset : forall h st m s r, g_threads g t = FCopied h st m s :: r -> g_threads g' t = FReset h st m s :: r ->
    runs n (g_trace g') = runs n (g_trace g) -> sets n (calls (g_trace g')) = sets n (calls (g_trace g)) ->
    hold n (g_fatal_pre_logging_hook g') = 0 -> hmove n g t g'
| hm_count : forall h st m s r, g_threads g t = FReset h st m s :: r -> clean (g_threads g' t) ->
    runs n (g_trace g') = runs n (g_trace g) + hold n h -> sets n (calls (g_trace g')) = sets n (calls (g_trace g)) ->
    g_fatal_pre_logging_hook g' = g_fatal_pre_logging_hook g -> hmove n g t g'.

Section Steps.
Variable hook_body handler_body : nat -> list op.
Variable statics : list nat.
Notation gstep := (gstep hook_body handler_body statics).

Ltac same_t := match goal with |- context [Nat.eqb ?x ?x] => rewrite (Nat.eqb_refl x) end.

Lemma throw_clean : forall g t s, clean s -> clean (g_threads (throw g t s) t).
Proof.
  intros g t s C. unfold throw. destruct (unwind s) as [r|] eqn:U; gcbn; rewrite Nat.eqb_refl; [eapply unwind_clean; eassumption|intros f []].
Qed.
Lemma throw_others : forall g t s x, x <> t -> g_threads (throw g t s) x = g_threads g x.
Proof. intros g t s x N. apply Nat.eqb_neq in N. unfold throw. destruct (unwind s); gcbn; now rewrite N. Qed.
Lemma throw_trace : forall g t s, g_trace (throw g t s) = g_trace g ++ [(t, EThrow)].
Proof. intros. unfold throw. destruct (unwind s); reflexivity. Qed.
Lemma throw_hook : forall g t s, g_fatal_pre_logging_hook (throw g t s) = g_fatal_pre_logging_hook g.
Proof. intros. unfold throw. destruct (unwind s); reflexivity. Qed.

Lemma others : forall g t x, x <> t -> g_threads (gstep g t) x = g_threads g x.
Proof.
  intros g t x N. pose proof N as M. apply Nat.eqb_neq in M. unfold Global.gstep. destruct (g_status g); auto.
  destruct (g_threads g t) as [|f r]; auto. destruct f as [[|o l]| |h st m s|h st m s|st m s|]; gcbn; rewrite ?M; auto.
  - unfold do_op. destruct o as [w| |w wm|m|st m s|h|h| |l']; rewrite ?throw_others by assumption; gcbn; rewrite ?M; auto.
    + unfold initializeLogging. gcbn. destruct (g_logger_instance g); [|destruct w; [destruct (g_save_first g); [|destruct (g_first_uninitialized_msg g)]|]]; gcbn; rewrite ?M; auto.
    + unfold shutDownLoggingForActiveOnly. gcbn. destruct (g_logger_instance g) as [a|] eqn:EI; [destruct w as [y|]; [destruct (Nat.eqb y a)|]|]; cbn [negb]; gcbn; rewrite ?M; auto.
      destruct wm; gcbn; [unfold pushMessageToLogger; gcbn; rewrite EI|]; gcbn; rewrite ?M; auto.
    + unfold pushMessageToLogger. gcbn. destruct (g_logger_instance g); [|destruct (g_set_first g)]; gcbn; rewrite ?M; auto.
    + unfold setFatalExitHandler. gcbn. now rewrite M.
  - unfold do_reset. gcbn. now rewrite M.
  - unfold do_count. destruct h as [[|k]|]; rewrite ?throw_others by assumption; gcbn; rewrite ?M; auto.
  - unfold fatalCall. gcbn. destruct (g_fatal_function g) as [[|k]|]; [destruct (g_logger_instance g)| |]; rewrite ?throw_others by assumption; gcbn; rewrite ?M; auto.
Qed.

Ltac trace := gcbn; rewrite ?throw_trace; gcbn; rewrite ?runs_app, ?calls_app, ?sets_app; cbn; try lia.

Lemma hook_step : forall n g t, clean (tl (g_threads g t)) -> hmove n g t (gstep g t).
Proof.
  intros n g t C. unfold Global.gstep. destruct (g_status g); try (now apply hm_same).
  destruct (g_threads g t) as [|f r] eqn:ES; [now apply hm_same|]. cbn [tl] in C.
  destruct f as [[|o l]| |h st m s|h st m s|st m s|]; try (now apply hm_same).
  - apply hm_plain; [rewrite ES; now apply clean_cons|gcbn; now rewrite Nat.eqb_refl|reflexivity|left; auto].
  - assert (CO : clean (g_threads g t)) by (rewrite ES; now apply clean_cons).
    assert (CR : clean (FOps l :: r)) by now apply clean_cons.
    unfold do_op. destruct o as [w| |w wm|m|st m s|h|h| |l'].
    + unfold initializeLogging. gcbn. destruct (g_logger_instance g); [|destruct w; [destruct (g_save_first g); [|destruct (g_first_uninitialized_msg g)]|]];
        (apply hm_plain; [assumption|gcbn; now rewrite Nat.eqb_refl|trace|left; split; [trace|gcbn; auto]]).
    + apply hm_plain; [assumption|gcbn; now rewrite Nat.eqb_refl|trace|left; split; [trace|gcbn; auto]].
    + unfold shutDownLoggingForActiveOnly. gcbn. destruct (g_logger_instance g) as [a|] eqn:EI; [destruct w as [y|]; [destruct (Nat.eqb y a)|]|]; cbn [negb];
        try (apply hm_plain; [assumption|gcbn; now rewrite Nat.eqb_refl|trace|left; split; [trace|gcbn; auto]]).
      destruct wm; [unfold pushMessageToLogger; gcbn; rewrite EI|];
        (apply hm_plain; [assumption|gcbn; now rewrite Nat.eqb_refl|trace|left; split; [trace|gcbn; auto]]).
    + unfold pushMessageToLogger. gcbn. destruct (g_logger_instance g); [|destruct (g_set_first g)];
        (apply hm_plain; [assumption|gcbn; now rewrite Nat.eqb_refl|trace|left; split; [trace|gcbn; auto]]).
    + eapply hm_copy; [assumption|gcbn; rewrite Nat.eqb_refl; reflexivity|assumption|trace|trace|reflexivity].
    + apply hm_plain; [assumption|gcbn; now rewrite Nat.eqb_refl|trace|right; trace].
      destruct h as [[|k]|]; cbn; try lia. destruct (Nat.eqb k n); cbn; lia.
    + unfold setFatalExitHandler. apply hm_plain; [assumption|gcbn; now rewrite Nat.eqb_refl|trace|left; split; [trace|gcbn; auto]].
    + apply hm_plain; [assumption|now apply throw_clean|trace|left; split; [trace|rewrite throw_hook; gcbn; auto]].
    + apply hm_plain; [assumption|gcbn; rewrite Nat.eqb_refl; now apply clean_cons, clean_cons|trace|left; split; [trace|gcbn; auto]].
  - apply hm_plain; [rewrite ES; now apply clean_cons|gcbn; now rewrite Nat.eqb_refl|reflexivity|left; auto].
  - unfold do_reset. eapply hm_reset; [exact ES|gcbn; rewrite Nat.eqb_refl; reflexivity|reflexivity|reflexivity|reflexivity].
  - unfold do_count. destruct h as [[|k]|].
    + eapply hm_count; [exact ES|gcbn; rewrite Nat.eqb_refl; now apply clean_cons|trace|trace|reflexivity].
    + eapply hm_count; [exact ES|gcbn; rewrite Nat.eqb_refl; now apply clean_cons, clean_cons|trace|trace|reflexivity].
      unfold runs. cbn. destruct (Nat.eqb k n); cbn; lia.
    + eapply hm_count; [exact ES|now apply throw_clean|trace|trace|rewrite throw_hook; reflexivity].
  - assert (CO : clean (g_threads g t)) by (rewrite ES; now apply clean_cons).
    unfold fatalCall. gcbn. destruct (g_fatal_function g) as [[|k]|]; [destruct (g_logger_instance g)| |].
    + apply hm_plain; [assumption|gcbn; rewrite Nat.eqb_refl; now apply clean_cons|trace|left; split; [trace|gcbn; auto]].
    + apply hm_plain; [assumption|gcbn; rewrite Nat.eqb_refl; intros ? []|trace|left; split; [trace|gcbn; auto]].
    + apply hm_plain; [assumption|gcbn; rewrite Nat.eqb_refl; now apply clean_cons|trace|left; split; [trace|gcbn; auto]].
    + apply hm_plain; [assumption|now apply throw_clean|trace|left; split; [trace|rewrite throw_hook; gcbn; auto]].
Qed.

(** the copies of hook n that a thread has, and whether it is about to reset the hook *)
Definition mine (n : nat) (s : list frame) : nat := match s with FReset h _ _ _ :: _ | FCopied h _ _ _ :: _ => hold n h | _ => 0 end.
Definition copied (s : list frame) : nat := match s with FCopied _ _ _ _ :: _ => 1 | _ => 0 end.
Definition total (f : list frame -> nat) (g : global) (ts : list nat) : nat := list_sum (map (fun t => f (g_threads g t)) ts).

Lemma clean_mine : forall n s, clean s -> mine n s = 0 /\ copied s = 0.
Proof.
  intros n [|[| | | | |] s] C; cbn; auto; exfalso.
  - assert (X : prologue (FCopied h stack_trace m signal) = false) by (apply C; now left). discriminate.
  - assert (X : prologue (FReset h stack_trace m signal) = false) by (apply C; now left). discriminate.
Qed.
Lemma total_step : forall f g g' t ts, (forall x, x <> t -> g_threads g' x = g_threads g x) -> NoDup ts -> In t ts ->
  total f g' ts + f (g_threads g t) = total f g ts + f (g_threads g' t).
Proof.
  intros f g g' t ts O. unfold total. induction ts as [|x ts IH]; intros ND I; [destruct I|]. destruct I as [I|I].
  - subst x. inversion ND; subst. cbn. replace (map (fun t => f (g_threads g' t)) ts) with (map (fun t => f (g_threads g t)) ts); [lia|].
    apply map_ext_in. intros a A. rewrite O; [reflexivity|]. intro. subst. contradiction.
  - inversion ND; subst. cbn. assert (x <> t) by (intro; subst; contradiction). rewrite (O x) by assumption.
    assert (G := IH H2 I). fold (list_sum (map (fun t => f (g_threads g t)) ts)). fold (list_sum (map (fun t => f (g_threads g' t)) ts)). lia.
Qed.

Record TInv (n K : nat) (ts : list nat) (g : global) : Prop := mkTI {
  t_count : runs n (g_trace g) + total (mine n) g ts + hold n (g_fatal_pre_logging_hook g) * (K - total copied g ts) <= K * sets n (calls (g_trace g));
  t_clean : forall t, clean (tl (g_threads g t))
}.

Lemma hold_le : forall n h, hold n h <= 1.
Proof. intros n [[|k]|]; cbn; try lia. destruct (Nat.eqb k n); lia. Qed.

Lemma TInv_step : forall n K ts g t, TInv n K ts g -> NoDup ts -> In t ts -> total copied (gstep g t) ts <= K -> TInv n K ts (gstep g t).
Proof.
  intros n K ts g t [A C] ND I B.
  pose proof (others g t) as O. pose proof (total_step (mine n) g (gstep g t) t ts O ND I) as T1.
  pose proof (total_step copied g (gstep g t) t ts O ND I) as T2.
  pose proof (hook_step n g t (C t)) as H. destruct H as [H|C0 C1 R S|st m s r C0 E Cr R S V|h st m s r E0 E1 R S V|h st m s r E0 C1 R S V].
  - rewrite H. now constructor.
  - destruct (clean_mine n _ C0) as (M0 & K0). destruct (clean_mine n _ C1) as (M1 & K1).
    constructor.
    + rewrite R. replace (total (mine n) (gstep g t) ts) with (total (mine n) g ts) by lia. replace (total copied (gstep g t) ts) with (total copied g ts) by lia.
      destruct S as [(S & [V|V])|S].
      * now rewrite S, V.
      * rewrite S, V. clear - A. generalize dependent (hold n (g_fatal_pre_logging_hook g) * (K - total copied g ts)). intros. lia.
      * rewrite S. pose proof (hold_le n (g_fatal_pre_logging_hook (gstep g t))). nia.
    + intro x. destruct (Nat.eq_dec x t) as [->|N]; [now apply clean_tl|rewrite O by assumption; apply C].
  - destruct (clean_mine n _ C0) as (M0 & K0). rewrite E in T1, T2. cbn [mine copied] in T1, T2.
    constructor.
    + rewrite R, S, V. pose proof (hold_le n (g_fatal_pre_logging_hook g)). nia.
    + intro x. destruct (Nat.eq_dec x t) as [->|N]; [now rewrite E|rewrite O by assumption; apply C].
  - rewrite E0, E1 in T1. cbn [mine] in T1. constructor.
    + rewrite R, S, V. clear - A T1. generalize dependent (hold n (g_fatal_pre_logging_hook g) * (K - total copied g ts)). intros. lia.
    + intro x. destruct (Nat.eq_dec x t) as [->|N]; [rewrite E1; specialize (C t); now rewrite E0 in C|rewrite O by assumption; apply C].
  - destruct (clean_mine n _ C1) as (M1 & K1). rewrite E0 in T1, T2. cbn [mine copied] in T1, T2. constructor.
    + rewrite R, S, V. replace (total copied (gstep g t) ts) with (total copied g ts) by lia. lia.
    + intro x. destruct (Nat.eq_dec x t) as [->|N]; [now apply clean_tl|rewrite O by assumption; apply C].
Qed.

Lemma TInv_run : forall n K ts sched g, TInv n K ts g -> NoDup ts -> (forall x, In x sched -> In x ts) ->
  (forall a b, sched = a ++ b -> total copied (grun hook_body handler_body statics g a) ts <= K) ->
  TInv n K ts (grun hook_body handler_body statics g sched).
Proof.
  intros n K ts. induction sched as [|t sched IH]; intros g T ND I B; [exact T|].
  change (TInv n K ts (grun hook_body handler_body statics (gstep g t) sched)). apply IH; auto.
  - apply TInv_step; auto; [apply I; now left|]. exact (B [t] sched eq_refl).
  - intros x X. apply I. now right.
  - intros a b E. apply (B (t :: a) b). now rewrite E.
Qed.

(** the threads about to reset, as a list *)
Lemma total_filter : forall g ts, total copied g ts = length (filter (fun t => Nat.eqb (copied (g_threads g t)) 1) ts).
Proof.
  intros g. unfold total. induction ts as [|t ts IH]; [reflexivity|]. cbn [map filter]. cbn [list_sum fold_right]. fold (list_sum (map (fun t => copied (g_threads g t)) ts)). rewrite IH.
  destruct (g_threads g t) as [|[| | | | |] r]; cbn; reflexivity.
Qed.
End Steps.
