(** Facts about executions of the library's atomics. *)
From Coq Require Import List ZArith Bool Relations PeanoNat Lia.
From Verif Require Import Model.Atomics.
Import ListNotations.
Local Open Scope list_scope.
Local Open Scope Z_scope.

Lemma at_length : forall x i e, at_ x i e -> (i < length (x_events x))%nat.
Proof. intros x i e H. apply nth_error_Some. unfold at_ in H. rewrite H. discriminate. Qed.

Lemma at_inj : forall x i a b, at_ x i a -> at_ x i b -> a = b.
Proof. unfold at_. intros x i a b A B. rewrite A in B. now injection B. Qed.

Lemma writes_reads_loc : forall x l l' i, writes x l i -> reads x l' i -> l = l'.
Proof. intros x l l' i (a & A & LA & _) (b & B & LB & _). rewrite (at_inj _ _ _ _ A B) in LA. congruence. Qed.

Lemma filter_less : forall (f g : nat -> bool) l k,
  (forall j, f j = true -> g j = true) -> In k l -> f k = false -> g k = true ->
  (length (filter f l) < length (filter g l))%nat.
Proof.
  intros f g l k S. assert (LE : forall m, (length (filter f m) <= length (filter g m))%nat).
  { induction m as [|a m IH]; [apply le_n|]. cbn [filter]. destruct (f a) eqn:F.
    - rewrite (S a F). cbn [length]. lia.
    - destruct (g a); cbn [length]; lia. }
  induction l as [|a l IH]; intros I F G; [destruct I|]. cbn [filter]. destruct I as [->|I].
  - rewrite F, G. cbn [length]. specialize (LE l). lia.
  - specialize (IH I F G). destruct (f a) eqn:FA.
    + rewrite (S a FA). cbn [length]. lia.
    + destruct (g a); cbn [length]; lia.
Qed.

Definition rank (x : execution) (i : nat) : nat := length (filter (fun j => x_mo x j i) (seq 0 (length (x_events x)))).

Lemma rank_le : forall x i, (rank x i <= length (x_events x))%nat.
Proof.
  intros x i. unfold rank. rewrite <- (seq_length (length (x_events x)) 0) at 2.
  generalize (seq 0 (length (x_events x))). induction l as [|a l IH]; [apply le_n|].
  cbn [filter]. destruct (x_mo x a i); cbn [length]; lia.
Qed.

Section Consistent.
Variables (init : aloc -> Z) (x : execution).
Hypothesis C : consistent init x.

Lemma mo_rank : forall i j, x_mo x i j = true -> (rank x i < rank x j)%nat.
Proof.
  intros i j M. unfold rank. apply (filter_less _ _ _ i).
  - intros k K. exact (c_mo_transitive _ _ C _ _ _ K M).
  - destruct (c_mo_same _ _ C _ _ M) as (l & (a & A & _) & _). apply at_length in A. apply in_seq. lia.
  - apply (c_mo_irreflexive _ _ C).
  - exact M.
Qed.

Lemma mo_asym : forall i j, x_mo x i j = true -> x_mo x j i = true -> False.
Proof. intros i j A B. pose proof (c_mo_transitive _ _ C _ _ _ A B) as D. rewrite (c_mo_irreflexive _ _ C) in D. discriminate. Qed.

Lemma rf_writes : forall l j i, reads x l j -> x_rf x j = Some i -> writes x l i.
Proof.
  intros l j i (b & B & L & N) R. destruct (e_old b) as [v|] eqn:O; [|congruence].
  destruct (c_rf_some _ _ C j b v i B O R) as (a & A & LA & NA). exists a. repeat split; [exact A|congruence|congruence].
Qed.

(** what a counting variable holds never exceeds the number of operations *)
Definition counting (l : aloc) : Prop := forall i e, at_ x i e -> e_loc e = l -> e_new e <> None -> (exists v, e_old e = Some v /\ e_new e = Some (next64 v)) \/ (e_old e = None /\ e_new e = Some 0).

Lemma next64_small : forall v, 0 <= v -> v + 1 < 2 ^ 64 -> next64 v = v + 1.
Proof. intros v A B. unfold next64. apply Z.mod_small. lia. Qed.

Hypothesis few : Z.of_nat (length (x_events x)) + 1 < 2 ^ 64.

Lemma count_bound : forall l, counting l -> init l = 0 -> forall n i e, rank x i = n -> at_ x i e -> e_loc e = l -> e_new e <> None ->
  exists v, e_new e = Some v /\ 0 <= v <= Z.of_nat n + 1.
Proof.
  intros l K I0. induction n as [n IH] using lt_wf_ind. intros i e R A L W.
  destruct (K i e A L W) as [(v & O & N)|(O & N)]; [|exists 0; split; [exact N|lia]].
  assert (WR : writes x l i) by (exists e; repeat split; assumption).
  assert (RD : reads x l i) by (exists e; repeat split; [assumption|assumption|congruence]).
  assert (V : 0 <= v <= Z.of_nat n).
  { destruct (x_rf x i) as [k|] eqn:RF.
    - destruct (c_rf_some _ _ C i e v k A O RF) as (a & B & LB & NB).
      destruct (c_rmw_some _ _ C l i k WR RD RF) as (M & _). pose proof (mo_rank _ _ M) as MR.
      destruct (IH (rank x k) ltac:(lia) k a eq_refl B ltac:(congruence) ltac:(congruence)) as (v' & NV & BV).
      rewrite NB in NV. injection NV as <-. lia.
    - pose proof (c_rf_none _ _ C i e v A O RF) as E. rewrite L, I0 in E. lia. }
  exists (next64 v). split; [exact N|]. pose proof (rank_le x i). rewrite next64_small; lia.
Qed.

(** a read-modify-write of a counting variable adds one *)
Lemma count_step : forall l, counting l -> init l = 0 -> forall i e v, at_ x i e -> e_loc e = l -> e_new e <> None -> e_old e = Some v ->
  0 <= v /\ e_new e = Some (v + 1).
Proof.
  intros l K I0 i e v A L W O. destruct (K i e A L W) as [(v' & O' & N)|(O' & _)]; [|congruence].
  assert (v' = v) by congruence. subst v'.
  assert (RD : reads x l i) by (exists e; repeat split; [assumption|assumption|congruence]).
  assert (V : 0 <= v <= Z.of_nat (length (x_events x))).
  { destruct (x_rf x i) as [k|] eqn:RF.
    - destruct (c_rf_some _ _ C i e v k A O RF) as (a & B & LB & NB).
      assert (WR : writes x l i) by (exists e; repeat split; assumption).
      destruct (c_rmw_some _ _ C l i k WR RD RF) as (M & _). pose proof (mo_rank _ _ M) as MR. pose proof (rank_le x i).
      destruct (count_bound l K I0 (rank x k) k a eq_refl B ltac:(congruence) ltac:(congruence)) as (v' & NV & BV).
      rewrite NB in NV. injection NV as <-. lia.
    - pose proof (c_rf_none _ _ C i e v A O RF) as E. rewrite L, I0 in E. lia. }
  split; [lia|]. rewrite N, next64_small; [reflexivity|lia|lia].
Qed.

(** there is a first one *)
Lemma first_exists : forall l n i, rank x i = n -> writes x l i -> exists f, writes x l f /\ forall j, x_mo x j f = false.
Proof.
  intros l. induction n as [n IH] using lt_wf_ind. intros i R W.
  destruct (filter (fun j => x_mo x j i) (seq 0 (length (x_events x)))) as [|k r] eqn:F.
  - exists i. split; [exact W|]. intros j. destruct (x_mo x j i) eqn:M; [|reflexivity]. exfalso.
    assert (In j (filter (fun j => x_mo x j i) (seq 0 (length (x_events x))))).
    { apply filter_In. split; [|exact M]. destruct (c_mo_same _ _ C _ _ M) as (l' & (a & A & _) & _). apply at_length in A. apply in_seq. lia. }
    rewrite F in H. destruct H.
  - assert (In k (filter (fun j => x_mo x j i) (seq 0 (length (x_events x))))) as K by (rewrite F; now left).
    apply filter_In in K. destruct K as (_ & M). pose proof (mo_rank _ _ M).
    destruct (c_mo_same _ _ C _ _ M) as (l' & Wk & Wi).
    assert (l' = l). { destruct Wi as (a & A & LA & _), W as (b & B & LB & _). rewrite (at_inj _ _ _ _ A B) in LA. congruence. }
    subst l'. exact (IH (rank x k) ltac:(lia) k eq_refl Wk).
Qed.
End Consistent.
