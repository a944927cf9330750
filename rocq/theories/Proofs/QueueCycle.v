(** Infinite executions that repeat themselves: for examples and counterexamples. *)
From Coq Require Import List Arith NArith Bool Lia.
From Verif.Base Require Import Threads.
From Verif.Model Require Import SharedQueue.
From Verif.Spec Require Import QueueSpec QueueFairSpec.
From Verif.Proofs Require Import QueueFacts QueueFairFacts.
Import ListNotations.

Section Cycle.
Context {A : Type}.


(** without the history *)
Definition strip (s : qstate A) : qstate A := mkQ (q_content s) (q_owner s) (q_waiters s) (q_pcs s) (q_ub s) [].
Lemma strip_step : forall (s : qstate A) a, option_map strip (qstep (strip s) a) = option_map strip (qstep s a).
Proof.
  intros s a. assert (PC : forall t, pc (strip s) t = pc s t) by reflexivity.
  destruct a as [t o|t|t w|t|w]; cbn [qstep]; rewrite ?PC.
  - destruct (pc s t); auto. change (q_pcs (strip s)) with (q_pcs s). now destruct (Nat.ltb _ _).
  - destruct (pc s t) as [l|o|o| | |b|r b|]; auto; unfold body, unlock; cbn [strip q_owner q_content q_waiters q_pcs].
    + now destruct (q_owner s).
    + destruct o; auto; destruct (q_content s); auto. now destruct (match q_owner s with Some _ => _ | None => _ end).
    + now destruct (q_owner s).
    + now destruct (q_content s).
    + destruct b; now destruct (match q_owner s with Some _ => _ | None => _ end).
  - destruct (pc s t); auto. change (q_waiters (strip s)) with (q_waiters s). now destruct (existsb _ _).
  - destruct (pc s t); auto. change (q_waiters (strip s)) with (q_waiters s). now destruct (q_waiters s).
  - change (q_waiters (strip s)) with (q_waiters s). now destruct (existsb _ _).
Qed.

Variables (n : nat) (first again : list (qaction A)).
Hypothesis NE : again <> [].
(** first, and then the others for ever *)
Definition place (i : nat) : nat := if Nat.ltb i (length first) then i else length first + (i - length first) mod length again.
Definition cyc_ac (i : nat) : option (qaction A) := nth_error (first ++ again) (place i).
Fixpoint cyc_ex (i : nat) : qstate A :=
  match i with
  | O => q_init n
  | S i => match cyc_ac i with Some a => match qstep (cyc_ex i) a with Some s => s | None => cyc_ex i end | None => cyc_ex i end
  end.
(** the states along the list *)
Fixpoint states (s : option (qstate A)) (l : list (qaction A)) : list (option (qstate A)) :=
  s :: match l with [] => [] | a :: r => states (match s with Some s => option_map strip (qstep s a) | None => None end) r end.
Definition at_place (p : nat) : option (qstate A) := nth p (states (Some (q_init n)) (first ++ again)) None.
Hypothesis BACK : at_place (length (first ++ again)) = at_place (length first).
Hypothesis ALL : at_place (length (first ++ again)) <> None.

Lemma states_next : forall l (s : option (qstate A)) p a, nth_error l p = Some a ->
  nth (S p) (states s l) None = match nth p (states s l) None with Some s => option_map strip (qstep s a) | None => None end.
Proof.
  induction l as [|b l IH]; intros s [|p] a E; try discriminate.
  - cbn in E. injection E as ->. cbn. now destruct l.
  - cbn in E. cbn [states]. change (nth (S p) (states (match s with Some s0 => option_map strip (qstep s0 b) | None => None end) l) None = match nth p (states (match s with Some s0 => option_map strip (qstep s0 b) | None => None end) l) None with Some s0 => option_map strip (qstep s0 a) | None => None end). now apply IH.
Qed.
Lemma place_lt : forall i, place i < length (first ++ again).
Proof.
  intro i. unfold place. rewrite app_length. assert (length again <> 0) by (destruct again; cbn; congruence). pose proof (Nat.mod_upper_bound (i - length first) (length again) H).
  destruct (Nat.ltb_spec i (length first)); lia.
Qed.
Lemma place_next : forall i, place (S i) = S (place i) \/ place (S i) = length first /\ S (place i) = length (first ++ again).
Proof.
  intro i. unfold place. rewrite app_length. assert (K : length again <> 0) by (destruct again; cbn; congruence).
  destruct (Nat.ltb_spec i (length first)) as [L|L], (Nat.ltb_spec (S i) (length first)) as [L'|L']; try lia.
  - left. replace (S i - length first) with 0 by lia. rewrite Nat.mod_small by lia. lia.
  - replace (S i - length first) with (S (i - length first)) by lia. set (x := i - length first). pose proof (Nat.mod_upper_bound x (length again) K) as U.
    pose proof (Nat.div_mod x (length again) K) as DM. destruct (Nat.eq_dec (S (x mod length again)) (length again)) as [E|E].
    + right. split; [|lia]. rewrite <- (Nat.mod_unique (S x) (length again) (S (x / length again)) 0); lia.
    + left. rewrite <- (Nat.mod_unique (S x) (length again) (x / length again) (S (x mod length again))); lia.
Qed.
Lemma at_none : forall l (s : option (qstate A)) p, p <= length l -> nth p (states s l) None = None -> nth (length l) (states s l) None = None.
Proof.
  intros l s p L E. assert (X : forall d, p + d <= length l -> nth (p + d) (states s l) None = None).
  { induction d as [|d IH]; intro H; [now rewrite Nat.add_0_r|]. rewrite Nat.add_succ_r. destruct (nth_error l (p + d)) as [a|] eqn:N; [|apply nth_error_None in N; lia].
    rewrite (states_next l s _ a N), IH by lia. reflexivity. }
  replace (length l) with (p + (length l - p)) by lia. apply X. lia.
Qed.
Lemma cyc_at : forall i, at_place (place i) = Some (strip (cyc_ex i)).
Proof.
  assert (NX : forall i, at_place (place i) = Some (strip (cyc_ex i)) -> exists a s', cyc_ac i = Some a /\ qstep (cyc_ex i) a = Some s' /\ at_place (S (place i)) = Some (strip s')).
  { intros i H. pose proof (place_lt i) as L. unfold cyc_ac. destruct (nth_error (first ++ again) (place i)) as [a|] eqn:N; [|apply nth_error_None in N; lia].
    pose proof (states_next _ (Some (q_init n)) _ _ N) as S1. fold (at_place (S (place i))) in S1. fold (at_place (place i)) in S1. rewrite H, strip_step in S1.
    destruct (qstep (cyc_ex i) a) as [s'|] eqn:Q; cbn in S1; [exists a, s'; auto|]. exfalso. apply ALL. apply (at_none _ _ (S (place i))); [lia|exact S1]. }
  induction i as [|i IH].
  - unfold place. destruct (Nat.ltb_spec 0 (length first)) as [L|L].
    + unfold at_place. destruct (first ++ again); reflexivity.
    + assert (F : length first = 0) by lia. rewrite F. assert (K : length again <> 0) by (destruct again; cbn; congruence). cbn [Nat.sub]. rewrite Nat.mod_small by lia. cbn [Nat.add]. unfold at_place. destruct (first ++ again); reflexivity.
  - destruct (NX i IH) as (a & s' & E & S1 & P1). cbn [cyc_ex]. rewrite E, S1. destruct (place_next i) as [->|[-> Z]]; [exact P1|]. rewrite <- BACK, <- Z. exact P1.
Qed.
Lemma cyc_execution : q_execution n cyc_ex cyc_ac.
Proof.
  split; [reflexivity|]. intro i. pose proof (place_lt i) as L. destruct (cyc_ac i) as [a|] eqn:E; cbn [cyc_ex]; rewrite E; [|reflexivity].
  pose proof (states_next _ (Some (q_init n)) _ _ E) as S1. fold (at_place (S (place i))) in S1. fold (at_place (place i)) in S1. rewrite (cyc_at i), strip_step in S1.
  destruct (qstep (cyc_ex i) a) as [s'|]; [reflexivity|]. exfalso. apply ALL. apply (at_none _ _ (S (place i))); [lia|exact S1].
Qed.
(** every place of the repeated part is reached again and again *)
Lemma cyc_again : forall p i, p < length again -> exists m, i <= m /\ place m = length first + p.
Proof.
  intros p i L. exists (length first + (p + i * length again)). assert (K : length again <> 0) by lia. split.
  - assert (i <= i * length again) by nia. lia.
  - unfold place. destruct (Nat.ltb_spec (length first + (p + i * length again)) (length first)); [lia|]. replace (length first + (p + i * length again) - length first) with (p + i * length again) by lia.
    rewrite Nat.mod_add by exact K. now rewrite Nat.mod_small.
Qed.
Lemma cyc_pc : forall m s, at_place (place m) = Some s -> q_owner (cyc_ex m) = q_owner s /\ q_content (cyc_ex m) = q_content s /\ forall t, pc (cyc_ex m) t = pc s t.
Proof. intros m s H. rewrite (cyc_at m) in H. injection H as <-. repeat split. Qed.
Lemma cyc_out : forall m t, n <= t -> pc (cyc_ex m) t = Idle None.
Proof.
  intros m t L. unfold pc. apply get_out. enough (length (q_pcs (cyc_ex m)) = n) by lia.
  induction m as [|m IH]; [cbn; apply repeat_length|]. cbn [cyc_ex]. destruct (cyc_ac m) as [a|]; auto. destruct (qstep _ a) eqn:X; auto. now rewrite (pcs_len _ _ _ X).
Qed.
(** fair to a thread that acts in the repeated part *)
Lemma cyc_fair_act : forall t p a, p < length again -> nth_error again p = Some a -> q_step_of t a = true -> q_fair_to cyc_ex cyc_ac t.
Proof.
  intros t p a L E O i. destruct (cyc_again p i L) as (m & LE & P). exists m. split; auto. left. exists a. split; auto. unfold cyc_ac. rewrite P, nth_error_app2 by lia. now replace (length first + p - length first) with p by lia.
Qed.
(** fair to a thread that cannot act somewhere in the repeated part *)
Lemma cyc_fair_not : forall t p s, p < length again -> at_place (length first + p) = Some s -> (forall a, q_step_of t a = true -> qstep s a = None) -> q_fair_to cyc_ex cyc_ac t.
Proof.
  intros t p s L E D i. destruct (cyc_again p i L) as (m & LE & P). exists m. split; auto. right. intros a O.
  pose proof (strip_step (cyc_ex m) a) as X. pose proof (cyc_at m) as AT. rewrite P, E in AT. injection AT as AT. rewrite <- AT, (D a O) in X. destruct (qstep (cyc_ex m) a); [discriminate|reflexivity].
Qed.
Lemma cyc_fair_out : forall t, n <= t -> q_fair_to cyc_ex cyc_ac t.
Proof.
  intros t L i. exists i. split; auto. right. intros a O. pose proof (cyc_out i t L) as P. destruct a as [u o|u|u w|u|w]; cbn in O; try discriminate; apply Nat.eqb_eq in O; subst u; cbn [qstep]; now rewrite P.
Qed.
(** a thread that does not always want the mutex *)
Lemma cyc_wants : forall t p s, p < length again -> at_place (length first + p) = Some s -> wants (pc s t) = false -> forall i, exists m, i <= m /\ wants (pc (cyc_ex m) t) = false.
Proof.
  intros t p s L E W i. destruct (cyc_again p i L) as (m & LE & P). exists m. split; auto. rewrite <- P in E. destruct (cyc_pc m s E) as (_ & _ & H). now rewrite H.
Qed.
(** what is so at a place of the repeated part is so again and again *)
Lemma cyc_look : forall p s i, p < length again -> at_place (length first + p) = Some s ->
  exists m, i <= m /\ q_owner (cyc_ex m) = q_owner s /\ q_content (cyc_ex m) = q_content s /\ forall t, pc (cyc_ex m) t = pc s t.
Proof. intros p s i L E. destruct (cyc_again p i L) as (m & LE & P). exists m. split; auto. apply cyc_pc. now rewrite P. Qed.
Lemma cyc_does : forall p a i, p < length again -> nth_error again p = Some a -> exists m, i <= m /\ cyc_ac m = Some a.
Proof. intros p a i L E. destruct (cyc_again p i L) as (m & LE & P). exists m. split; auto. unfold cyc_ac. rewrite P, nth_error_app2 by lia. now replace (length first + p - length first) with p by lia. Qed.
(** what is so at all places from k on stays so *)
Lemma cyc_all : forall (f : qstate A -> bool) k, forallb (fun o => match o with Some s => f s | None => false end) (skipn k (states (Some (q_init n)) (first ++ again))) = true ->
  k <= length first -> forall i, k <= i -> f (strip (cyc_ex i)) = true.
Proof.
  intros f k Z K i L. pose proof (cyc_at i) as AT. assert (G : k <= place i) by (unfold place; destruct (Nat.ltb_spec i (length first)); lia).
  rewrite forallb_forall in Z. apply (Z (Some (strip (cyc_ex i)))). rewrite <- AT. unfold at_place.
  assert (LE : place i < length (states (Some (q_init n)) (first ++ again))).
  { destruct (Nat.lt_ge_cases (place i) (length (states (Some (q_init n)) (first ++ again)))) as [?|GE]; auto. unfold at_place in AT. rewrite nth_overflow in AT by exact GE. discriminate. }
  revert G LE. generalize (states (Some (q_init n)) (first ++ again)). generalize (place i). clear. induction k as [|k IH]; intros p l G LE; [apply nth_In; exact LE|].
  destruct p as [|p]; [lia|]. destruct l as [|x l]; cbn in LE; [lia|]. cbn [nth skipn]. apply IH; lia.
Qed.
End Cycle.
