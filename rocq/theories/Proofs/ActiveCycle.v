(** Infinite executions of an active object that repeat themselves. *)
From Coq Require Import List Arith NArith Bool Lia.
From Verif.Base Require Import Threads.
From Verif.Model Require Import SharedQueue ActiveObj.
From Verif.Spec Require Import QueueSpec QueueFairSpec ActiveSpec ActiveFairSpec.
From Verif.Proofs Require Import QueueFacts QueueFairFacts QueueCycle ActiveFacts ActiveFairFacts.
From Verif.Base Require Import Cycle.
Import ListNotations.

(** without the histories *)
Definition astrip (s : astate) : astate := mkA (strip (a_q s)) (a_done s) (a_bg s) (a_cl s) (a_prom s) (a_terminated s) [].
(** a step, or a pause *)
Definition ostep (s : astate) (o : option aaction) : option astate := match o with Some a => astep s a | None => Some s end.

Lemma some_inj : forall A (x y : A), Some x = Some y -> x = y.
Proof. congruence. Qed.
Lemma astrip_astep : forall s a, option_map astrip (astep (astrip s) a) = option_map astrip (astep s a).
Proof.
  intros s a. assert (CL : forall i, cl (astrip s) i = cl s i) by reflexivity. assert (RT : forall t, returned (astrip s) t = returned s t) by reflexivity. assert (PC : forall t, pc (strip (a_q s)) t = pc (a_q s) t) by reflexivity.
  assert (ST : forall t o (f : qstate cb -> astate) (g : qstate cb -> astate), (forall q q', strip q = strip q' -> astrip (f q) = astrip (g q')) -> option_map astrip (option_map f (qstep (strip (a_q s)) (Start t o))) = option_map astrip (option_map g (qstep (a_q s) (Start t o)))).
  { intros t o f g H. pose proof (strip_step (a_q s) (Start t o)) as X. destruct (qstep (strip (a_q s)) (Start t o)), (qstep (a_q s) (Start t o)); cbn [option_map] in *; try discriminate; auto. f_equal. apply H. now apply some_inj. }
  assert (FU : forall (f : astate -> astate) r, option_map f (option_map (with_q s) r) = option_map (fun q => f (with_q s q)) r) by (intros f [x|]; reflexivity).
  assert (FU' : forall (f : astate -> astate) r, option_map f (option_map (with_q (astrip s)) r) = option_map (fun q => f (with_q (astrip s) q)) r) by (intros f [x|]; reflexivity).
  unfold astep. change (a_terminated (astrip s)) with (a_terminated s). destruct (a_terminated s); auto. change (a_bg (astrip s)) with (a_bg s). change (a_done (astrip s)) with (a_done s). change (a_cl (astrip s)) with (a_cl s).
  change (a_prom (astrip s)) with (a_prom s). change (dtor_begun (astrip s)) with (dtor_begun s). change (a_q (astrip s)) with (strip (a_q s)).
  destruct a as [qa| | |o|c| |i x|i|i|i|i|i|i]; rewrite ?CL, ?RT, ?PC; unfold start; change (a_q (astrip s)) with (strip (a_q s)).
  - destruct (is_internal qa); auto. pose proof (strip_step (a_q s) qa) as X. destruct (qstep (strip (a_q s)) qa), (qstep (a_q s) qa); cbn [option_map] in *; try discriminate; auto. apply some_inj in X. unfold astrip, with_q. cbn [a_q a_done a_bg a_cl a_prom a_terminated]. now rewrite X.
  - destruct (a_bg s); auto. destruct (a_done s); auto. rewrite FU, FU'. apply ST. intros q q' H. unfold astrip. cbn. now rewrite H.
  - destruct (a_bg s); auto. destruct (pc (a_q s) 0) as [[[]|]| | | | | | |]; auto.
  - destruct (a_bg s); auto. cbn [option_map]. destruct c; auto. destruct o; auto.
  - destruct (a_bg s) as [| |[]| |]; auto. destruct c; auto. rewrite FU, FU'. apply ST. intros q q' H. unfold astrip. cbn. now rewrite H.
  - destruct (a_bg s); auto. destruct (returned s 0); auto.
  - destruct (cl s i); auto. destruct (existsb _ _); auto. rewrite FU, FU'. apply ST. intros q q' H. unfold astrip. cbn. now rewrite H.
  - destruct (cl s i); auto. destruct (existsb _ _); auto. rewrite FU, FU'. apply ST. intros q q' H. unfold astrip. cbn. now rewrite H.
  - destruct (cl s i); auto.
  - destruct (cl s i); auto. destruct (returned s (S i)); auto.
  - destruct (cl s i); auto. destruct (dtor_begun s); auto. rewrite FU, FU'. apply ST. intros q q' H. unfold astrip. cbn. now rewrite H.
  - destruct (cl s i); auto. destruct (returned s (S i)); auto.
  - destruct (cl s i); auto. destruct (a_bg s); auto.
Qed.
Lemma astrip_step : forall s o, option_map astrip (ostep (astrip s) o) = option_map astrip (ostep s o).
Proof. intros s [a|]; [apply astrip_astep|reflexivity]. Qed.

Section Cycle.
Variables (n : nat) (first again : list (option aaction)).
Definition acyc_ac (i : nat) : option aaction := match cyc_ac _ first again i with Some o => o | None => None end.
Definition acyc_ex (i : nat) : astate := cyc_ex _ _ ostep (a_init n) first again i.
Definition aplace (p : nat) : option astate := at_place _ _ ostep astrip (a_init n) first again p.
Hypothesis NE : again <> [].
Hypothesis BACK : aplace (length (first ++ again)) = aplace (length first).
Hypothesis ALL : aplace (length (first ++ again)) <> None.

Lemma acyc_execution : a_execution n acyc_ex acyc_ac.
Proof.
  split; [reflexivity|]. intro i. destruct (cyc_next _ _ ostep astrip (a_init n) astrip_step eq_refl first again NE BACK ALL i) as (o & E & S1). unfold acyc_ac. rewrite E. destruct o; cbn in S1; [exact S1|now injection S1].
Qed.
Lemma acyc_look : forall p s i, p < length again -> aplace (length first + p) = Some s -> exists m, i <= m /\ astrip (acyc_ex m) = s.
Proof. intros p s i L E. exact (cyc_look _ _ ostep astrip (a_init n) astrip_step eq_refl first again NE BACK ALL p s i L E). Qed.
Lemma acyc_does : forall p a i, p < length again -> nth_error again p = Some (Some a) -> exists m, i <= m /\ acyc_ac m = Some a.
Proof. intros p a i L E. destruct (cyc_does _ first again p (Some a) i L E) as (m & LE & P). exists m. unfold acyc_ac. now rewrite P. Qed.
Lemma acyc_all : forall (f : astate -> bool) k, forallb (fun o => match o with Some s => f s | None => false end) (skipn k (states _ _ ostep astrip (Some (a_init n)) (first ++ again))) = true ->
  k <= length first -> forall i, k <= i -> f (astrip (acyc_ex i)) = true.
Proof. intros f k Z K i L. exact (cyc_all _ _ ostep astrip (a_init n) astrip_step eq_refl first again NE BACK ALL f k Z K i L). Qed.
Lemma acyc_fair_act : forall t p a, p < length again -> nth_error again p = Some (Some a) -> a_step_of t a = true -> a_fair_to acyc_ex acyc_ac t.
Proof. intros t p a L E O i. destruct (acyc_does p a i L E) as (m & LE & P). exists m. split; auto. left. eauto. Qed.
Lemma acyc_fair_not : forall t p s, p < length again -> aplace (length first + p) = Some s -> (forall a, a_step_of t a = true -> astep s a = None) -> a_fair_to acyc_ex acyc_ac t.
Proof.
  intros t p s L E D i. destruct (acyc_look p s i L E) as (m & LE & P). exists m. split; auto. right. intros a O.
  pose proof (astrip_astep (acyc_ex m) a) as X. rewrite P, (D a O) in X. destruct (astep (acyc_ex m) a); [discriminate|reflexivity].
Qed.
Lemma acyc_inv : forall i, AInv n (acyc_ex i).
Proof.
  induction i as [|i IH]; [apply AInv_init|]. pose proof (aex_next _ _ _ acyc_execution i) as N. destruct (acyc_ac i) as [a|]; [eapply AInv_step; eauto|now rewrite N].
Qed.
Lemma acyc_out : forall t i, n < t -> pc (a_q (acyc_ex i)) t = Idle None.
Proof. intros t i L. apply pc_out. rewrite (v_lq n _ (acyc_inv i)). lia. Qed.
Lemma acyc_fair_out : forall t, n < t -> a_fair_to acyc_ex acyc_ac t.
Proof.
  intros t L i. exists i. split; auto. right. intros a O. pose proof (acyc_out t i L) as P.
  assert (C : forall j, t = S j -> cl (acyc_ex i) j = CIdle) by (intros j ->; unfold cl; apply get_out; rewrite (v_lc n _ (acyc_inv i)); lia).
  unfold astep. destruct (a_terminated (acyc_ex i)); auto.
  destruct a as [qa| | |o|c| |j x|j|j|j|j|j|j]; cbn [a_step_of] in O; try discriminate; try (apply Nat.eqb_eq in O; try lia; now rewrite (C j O)).
  destruct (is_internal qa); auto. now rewrite (idle_disabled _ _ _ _ P O).
Qed.
Lemma acyc_wants : forall t p s, p < length again -> aplace (length first + p) = Some s -> wants (pc (a_q s) t) = false -> forall i, exists m, i <= m /\ wants (pc (a_q (acyc_ex m)) t) = false.
Proof. intros t p s L E W i. destruct (acyc_look p s i L E) as (m & LE & P). exists m. split; auto. rewrite <- P in W. exact W. Qed.
End Cycle.
