(** C144, C145: what the library's atomic variables do in every execution the C++ memory model allows. *)
From Coq Require Import List ZArith Bool Relations PeanoNat Lia.
From Verif Require Import Model.Atomics Proofs.AtomicsFacts Proofs.AtomicsCheck.
Import ListNotations.
Local Open Scope list_scope.
Local Open Scope Z_scope.

(** an execution of the code: consistent, of the code's operations, fewer than 2^64 - 1 of them *)
Definition run (levels : Z -> bool) (x : execution) : Prop :=
  consistent (initially levels) x /\ (forall i e, at_ x i e -> coded e) /\ Z.of_nat (length (x_events x)) + 1 < 2 ^ 64.

(** call number i of shouldDoExit; its result *)
Definition call (x : execution) (i : nat) : Prop := exists e, at_ x i e /\ e_loc e = FirstExit.
Definition may_exit (x : execution) (i : nat) : Prop := exists e v, at_ x i e /\ e_loc e = FirstExit /\ e_old e = Some v /\ shouldDoExit v = true.
(** i is a fatal event entering saveFatalMessage *)
Definition fatal (x : execution) (i : nat) : Prop := exists e, at_ x i e /\ e_loc e = Counter /\ e_old e <> None /\ e_new e <> None.
(** l decides about the warning of a recursive crash; the warning is written *)
Definition decides (x : execution) (l : nat) : Prop := exists e, at_ x l e /\ e_loc e = Counter /\ e_old e <> None /\ e_new e = None.
Definition warns (x : execution) (l : nat) : Prop := exists e v, at_ x l e /\ e_loc e = Counter /\ e_new e = None /\ e_old e = Some v /\ recursive v = true.
(** i is initializeLogging's *)
Definition initializes (x : execution) (i : nat) : Prop := exists e, at_ x i e /\ e_loc e = Counter /\ e_old e = None.
(** i sets, r checks the switch of level k; with that value *)
Definition sets (x : execution) (k : Z) (i : nat) (b : bool) : Prop := exists e, at_ x i e /\ e_loc e = Switch k /\ e_new e = Some (if b then 1 else 0).
Definition checks (x : execution) (k : Z) (r : nat) (b : bool) : Prop := exists e, at_ x r e /\ e_loc e = Switch k /\ e_old e = Some (if b then 1 else 0).

(** * C144: the counters *)
Lemma exit_zero : forall x i, may_exit x i <-> exists e, at_ x i e /\ e_loc e = FirstExit /\ e_old e = Some 0.
Proof.
  intros x i. split.
  - intros (e & v & A & L & O & S). unfold shouldDoExit in S. apply Z.eqb_eq in S. subst v. exists e. repeat split; assumption.
  - intros (e & A & L & O). exists e, 0. repeat split; try assumption; reflexivity.
Qed.
Lemma recursive_iff : forall v, recursive v = true <-> v > 1.
Proof. intros v. unfold recursive. rewrite Z.gtb_lt. lia. Qed.

Lemma coded_counting : forall x l, (forall i e, at_ x i e -> coded e) -> l = FirstExit \/ l = Counter -> counting x l.
Proof.
  intros x l K D i e A L W. destruct (K i e A); cbn [e_loc e_old e_new] in *; destruct D; subst l; try discriminate; try (now contradiction W);
    solve [left; eexists; split; reflexivity|right; split; reflexivity].
Qed.

Lemma exit_writes : forall x i e, (forall i e, at_ x i e -> coded e) -> at_ x i e -> e_loc e = FirstExit -> (exists v, e_old e = Some v) /\ e_new e <> None.
Proof. intros x i e K A L. destruct (K i e A); cbn [e_loc e_old e_new] in *; try discriminate L. split; [eexists; reflexivity|discriminate]. Qed.

(** of all calls of shouldDoExit, in whatever threads, exactly one returns true *)
Theorem C144_one : forall levels x i, run levels x -> call x i -> exists f, may_exit x f /\ forall g, may_exit x g -> g = f.
Proof.
  intros levels x i (C & K & F) (e & A & L).
  assert (CT : counting x FirstExit) by (apply coded_counting; [exact K|now left]).
  destruct (exit_writes x i e K A L) as (_ & W).
  destruct (first_exists _ _ C FirstExit (rank x i) i eq_refl) as (f & (ef & Af & Lf & Wf) & M); [exists e; repeat split; assumption|].
  exists f. split.
  - apply exit_zero. destruct (exit_writes x f ef K Af Lf) as ((v & O) & _). exists ef. repeat split; [exact Af|exact Lf|]. rewrite O. f_equal.
    destruct (x_rf x f) as [k|] eqn:R.
    + exfalso. destruct (c_rmw_some _ _ C FirstExit f k) as (MK & _); [exists ef; repeat split; assumption|exists ef; repeat split; [assumption|assumption|congruence]|exact R|].
      rewrite M in MK. discriminate.
    + pose proof (c_rf_none _ _ C f ef v Af O R) as E. rewrite Lf in E. exact E.
  - intros g G. apply exit_zero in G. destruct G as (eg & Ag & Lg & Og). destruct (exit_writes x g eg K Ag Lg) as (_ & Wg).
    destruct (Nat.eq_dec g f) as [|N]; [assumption|exfalso].
    destruct (c_mo_total _ _ C FirstExit g f) as [B|B]; [exists eg; repeat split; assumption|exists ef; repeat split; assumption|exact N|rewrite M in B; discriminate|].
    destruct (x_rf x g) as [k|] eqn:R.
    + destruct (c_rf_some _ _ C g eg 0 k Ag Og R) as (a & Aa & La & Na).
      rewrite Lg in La. destruct (exit_writes x k a K Aa La) as ((w & Ow) & Wk).
      destruct (count_step _ x C F FirstExit CT eq_refl k a w Aa La Wk Ow) as (P & S). rewrite S in Na. injection Na. lia.
    + rewrite (c_rmw_none _ _ C FirstExit g f) in B; [discriminate|exists eg; repeat split; assumption|exists eg; repeat split; [assumption|assumption|congruence]|exact R].
Qed.
Print Assumptions C144_one.

(** a call that happens after another call never returns true *)
Theorem C144_later : forall levels x i j, run levels x -> call x i -> call x j -> hb x i j -> ~ may_exit x j.
Proof.
  intros levels x i j (C & K & F) (e & A & L) (e' & A' & L') H G. apply exit_zero in G. destruct G as (b & B & LB & O).
  assert (CT : counting x FirstExit) by (apply coded_counting; [exact K|now left]).
  destruct (exit_writes x i e K A L) as ((v & Oi) & W). destruct (exit_writes x j b K B LB) as (_ & Wj).
  assert (Wi' : writes x FirstExit i) by (exists e; repeat split; assumption).
  assert (Wj' : writes x FirstExit j) by (exists b; repeat split; assumption).
  assert (Rj' : reads x FirstExit j) by (exists b; repeat split; [assumption|assumption|congruence]).
  pose proof (c_ww _ _ C FirstExit i j Wi' Wj' H) as M.
  destruct (x_rf x j) as [k|] eqn:R.
  - destruct (c_rf_some _ _ C j b 0 k B O R) as (a & Aa & La & Na). rewrite LB in La. destruct (exit_writes x k a K Aa La) as ((w & Ow) & Wk).
    destruct (count_step _ x C F FirstExit CT eq_refl k a w Aa La Wk Ow) as (P & S). rewrite S in Na. injection Na. lia.
  - rewrite (c_rmw_none _ _ C FirstExit j i Wj' Rj' R) in M. discriminate.
Qed.
Print Assumptions C144_later.

Lemma counter_writes : forall x w, (forall i e, at_ x i e -> coded e) -> writes x Counter w -> fatal x w \/ initializes x w.
Proof.
  intros x w K (e & A & L & W). destruct (K w e A); cbn [e_loc e_old e_new] in *; try discriminate; try (now contradiction W).
  - left. eexists. repeat split; [exact A|reflexivity|cbn; discriminate|cbn; discriminate].
  - right. eexists. repeat split; [exact A|reflexivity|reflexivity].
Qed.

(** of two fatal events at least one finds the other: the later of the two in the counter's order gets the warning, unless logging is initialized again *)
Theorem C144_noticed : forall levels x i j li lj, run levels x -> fatal x i -> fatal x j -> i <> j -> decides x li -> decides x lj ->
  hb x i li -> hb x j lj -> (forall r, initializes x r -> hb x r i /\ hb x r j) -> warns x li \/ warns x lj.
Proof.
  assert (H : forall levels x i j lj, run levels x -> fatal x i -> fatal x j -> x_mo x i j = true -> decides x lj -> hb x j lj ->
    (forall r, initializes x r -> hb x r i) -> warns x lj).
  { intros levels x i j lj (C & K & F) (a & A & LA & OA & NA) (b & B & LB & OB & NB) M (d & D & LD & OD & ND) H I.
    assert (CT : counting x Counter) by (apply coded_counting; [exact K|now right]).
    (* what is at or after i is not a reset, and holds at least 1 *)
    assert (Wi : writes x Counter i) by (exists a; repeat split; assumption).
    assert (ONE : forall w e, at_ x w e -> e_loc e = Counter -> e_new e <> None -> (w = i \/ x_mo x i w = true) -> exists v, e_old e = Some v /\ 0 <= v /\ e_new e = Some (v + 1)).
    { intros w e Aw Lw Ww AF. destruct (counter_writes x w K) as [(e' & A' & _ & O' & _)|(e' & A' & L' & O')]; [exists e; repeat split; assumption| |].
      - rewrite (at_inj _ _ _ _ A' Aw) in O'. destruct (e_old e) as [v|] eqn:O; [|congruence]. exists v.
        destruct (count_step _ x C F Counter CT eq_refl w e v Aw Lw Ww O). repeat split; assumption.
      - exfalso. assert (Ww' : writes x Counter w) by (exists e; repeat split; assumption).
        assert (IN : initializes x w) by (exists e'; repeat split; assumption). pose proof (c_ww _ _ C Counter w i Ww' Wi (I w IN)) as X.
        destruct AF as [->|Y]; [rewrite (c_mo_irreflexive _ _ C) in X; discriminate|exact (mo_asym _ _ C _ _ X Y)]. }
    (* what is after i holds at least 2 *)
    assert (TWO : forall w e, at_ x w e -> e_loc e = Counter -> e_new e <> None -> x_mo x i w = true -> exists v, e_new e = Some v /\ v > 1).
    { intros w e Aw Lw Ww MW. destruct (ONE w e Aw Lw Ww (or_intror MW)) as (v & O & P & N). exists (v + 1). split; [exact N|].
      assert (Ww' : writes x Counter w) by (exists e; repeat split; assumption).
      assert (Rw' : reads x Counter w) by (exists e; repeat split; [assumption|assumption|congruence]).
      destruct (x_rf x w) as [k|] eqn:R.
      - destruct (c_rmw_some _ _ C Counter w k Ww' Rw' R) as (_ & LAST).
        destruct (c_rf_some _ _ C w e v k Aw O R) as (c & Ac & Lc & Nc). rewrite Lw in Lc.
        destruct (ONE k c Ac Lc ltac:(congruence)) as (u & _ & PU & NU); [destruct (LAST i MW); [now left|now right]|].
        rewrite Nc in NU. injection NU as ->. lia.
      - rewrite (c_rmw_none _ _ C Counter w i Ww' Rw' R) in MW. discriminate. }
    assert (Wj : writes x Counter j) by (exists b; repeat split; assumption).
    assert (Rl : reads x Counter lj) by (exists d; repeat split; assumption).
    destruct (c_wr _ _ C Counter j lj Wj Rl H) as (k & R & AF).
    destruct (e_old d) as [v|] eqn:O; [|congruence]. destruct (c_rf_some _ _ C lj d v k D O R) as (c & Ac & Lc & Nc). rewrite LD in Lc.
    destruct (TWO k c Ac Lc ltac:(congruence)) as (u & NU & PU).
    { destruct AF as [->|MK]; [exact M|exact (c_mo_transitive _ _ C _ _ _ M MK)]. }
    exists d, v. repeat split; try assumption. rewrite Nc in NU. injection NU as ->. apply recursive_iff. exact PU. }
  intros levels x i j li lj RN Fi Fj N Di Dj Hi Hj I. pose proof RN as (C & _ & _).
  assert (Wi : writes x Counter i) by (destruct Fi as (a & A & LA & OA & NA); exists a; repeat split; assumption).
  assert (Wj : writes x Counter j) by (destruct Fj as (a & A & LA & OA & NA); exists a; repeat split; assumption).
  destruct (c_mo_total _ _ C Counter i j Wi Wj N) as [M|M].
  - right. exact (H levels x i j lj RN Fi Fj M Dj Hj (fun r R => proj1 (I r R))).
  - left. exact (H levels x j i li RN Fj Fi M Di Hi (fun r R => proj2 (I r R))).
Qed.
Print Assumptions C144_noticed.

(** the warning is never written when there was one fatal event only *)
Theorem C144_alone : forall levels x i l, run levels x -> (forall j, fatal x j -> j = i) -> ~ warns x l.
Proof.
  intros levels x i l (C & K & F) ONLY (d & v & D & LD & ND & O & P). apply recursive_iff in P.
  destruct (x_rf x l) as [k|] eqn:R.
  2: { pose proof (c_rf_none _ _ C l d v D O R) as E. rewrite LD in E. cbn in E. lia. }
  destruct (c_rf_some _ _ C l d v k D O R) as (a & A & LA & NA). rewrite LD in LA.
  assert (Wk : writes x Counter k) by (exists a; repeat split; [assumption|assumption|congruence]).
  destruct (counter_writes x k K Wk) as [Fk|(a' & A' & _ & O')].
  2: { rewrite (at_inj _ _ _ _ A' A) in O'. destruct (K k a A); cbn [e_loc e_old e_new] in *; try discriminate. injection NA as <-. lia. }
  assert (CT : counting x Counter) by (apply coded_counting; [exact K|now right]).
  destruct (e_old a) as [u|] eqn:OA.
  2: { destruct Fk as (a' & A' & _ & O' & _). rewrite (at_inj _ _ _ _ A' A) in O'. congruence. }
  destruct (count_step _ x C F Counter CT eq_refl k a u A LA ltac:(congruence) OA) as (P0 & S). rewrite NA in S. injection S as ->.
  assert (Rk : reads x Counter k) by (exists a; repeat split; [assumption|assumption|congruence]).
  destruct (x_rf x k) as [m|] eqn:RK.
  2: { pose proof (c_rf_none _ _ C k a u A OA RK) as E. rewrite LA in E. cbn in E. lia. }
  destruct (c_rf_some _ _ C k a u m A OA RK) as (c & Ac & Lc & Nc). rewrite LA in Lc.
  destruct (c_rmw_some _ _ C Counter k m Wk Rk RK) as (M & _).
  assert (Wm : writes x Counter m) by (exists c; repeat split; [assumption|assumption|congruence]).
  destruct (counter_writes x m K Wm) as [Fm|(c' & A' & _ & O')].
  - pose proof (ONLY m Fm). pose proof (ONLY k Fk). subst m k. rewrite (c_mo_irreflexive _ _ C) in M. discriminate.
  - rewrite (at_inj _ _ _ _ A' Ac) in O'. destruct (K m c Ac); cbn [e_loc e_old e_new] in *; try discriminate. injection Nc as <-. lia.
Qed.
Print Assumptions C144_alone.

(** * C145: what one thread sets is what another finds *)
Lemma switch_writes : forall x k w b, sets x k w b -> writes x (Switch k) w.
Proof. intros x k w b (e & A & L & N). exists e. repeat split; [exact A|exact L|congruence]. Qed.
Lemma switch_reads : forall x k r b, checks x k r b -> reads x (Switch k) r.
Proof. intros x k w b (e & A & L & N). exists e. repeat split; [exact A|exact L|congruence]. Qed.
Lemma checks_value : forall x k r b b', checks x k r b -> checks x k r b' -> b = b'.
Proof. intros x k r b b' (e & A & _ & O) (e' & A' & _ & O'). rewrite (at_inj _ _ _ _ A' A) in O'. rewrite O in O'. destruct b, b'; [reflexivity|discriminate|discriminate|reflexivity]. Qed.

(** a check finds a setting that no other setting overtook: it does not happen after the check, and none that happened before the check happened after it *)
Theorem C145_found : forall levels x k r b, run levels x -> checks x k r b ->
  (b = levels k /\ forall w c, sets x k w c -> ~ hb x w r) \/
  (exists w, sets x k w b /\ ~ hb x r w /\ forall w' c, sets x k w' c -> hb x w' r -> ~ hb x w w').
Proof.
  intros levels x k r b (C & K & F) (e & A & L & O). assert (R : reads x (Switch k) r) by (exists e; repeat split; [exact A|exact L|congruence]).
  destruct (x_rf x r) as [w|] eqn:RF.
  - right. exists w. destruct (c_rf_some _ _ C r e _ w A O RF) as (a & B & LB & NB). rewrite L in LB.
    assert (S : sets x k w b) by (exists a; repeat split; assumption). pose proof (switch_writes _ _ _ _ S) as W. split; [exact S|]. split.
    + intros H. pose proof (c_rw _ _ C _ _ _ _ R W H RF) as M. rewrite (c_mo_irreflexive _ _ C) in M. discriminate.
    + intros w' c S' H' H. pose proof (switch_writes _ _ _ _ S') as W'. pose proof (c_ww _ _ C _ _ _ W W' H) as M.
      destruct (c_wr _ _ C _ _ _ W' R H') as (w2 & RF2 & [E|M2]); rewrite RF in RF2; injection RF2 as <-.
      * subst w'. rewrite (c_mo_irreflexive _ _ C) in M. discriminate.
      * exact (mo_asym _ _ C _ _ M M2).
  - left. split.
    + pose proof (c_rf_none _ _ C r e _ A O RF) as E. rewrite L in E. cbn [initially] in E. unfold num in E. destruct b, (levels k); [reflexivity|discriminate|discriminate|reflexivity].
    + intros w c S H. destruct (c_wr _ _ C _ _ _ (switch_writes _ _ _ _ S) R H) as (w2 & RF2 & _). congruence.
Qed.
Print Assumptions C145_found.

(** so a setting that happened before the check, with every other setting before it or after the check, is what the check finds *)
Theorem C145_last : forall levels x k w r b c, run levels x -> sets x k w b -> checks x k r c -> hb x w r ->
  (forall w' d, sets x k w' d -> w' <> w -> hb x w' w \/ hb x r w') -> c = b.
Proof.
  intros levels x k w r b c RN S CK H OTHERS.
  destruct (C145_found levels x k r c RN CK) as [(_ & NO)|(w2 & S2 & NA & NB)]; [exfalso; exact (NO w b S H)|].
  destruct (Nat.eq_dec w2 w) as [->|N].
  - destruct S as (e & A & _ & NE), S2 as (e' & A' & _ & NE'). rewrite (at_inj _ _ _ _ A' A) in NE'. rewrite NE in NE'.
    destruct b, c; [reflexivity|discriminate|discriminate|reflexivity].
  - exfalso. destruct (OTHERS w2 c S2 N) as [B|B]; [exact (NB w b S H B)|exact (NA B)].
Qed.
Print Assumptions C145_last.

(** finding a setting other than the initial value publishes what happened before the setting *)
Theorem C145_publishes : forall levels x k r, run levels x -> checks x k r (negb (levels k)) ->
  exists w, sets x k w (negb (levels k)) /\ forall e f, (e = w \/ hb x e w) -> (f = r \/ hb x r f) -> hb x e f.
Proof.
  intros levels x k r (C & K & F) (e & A & L & O). destruct (x_rf x r) as [w|] eqn:RF.
  - exists w. destruct (c_rf_some _ _ C r e _ w A O RF) as (a & B & LB & NB). rewrite L in LB. split; [exists a; repeat split; assumption|].
    assert (H : hb x w r).
    { apply t_step. right; left. exists a, e, w. repeat split; [exact B|exact A|congruence|congruence| | |exact RF|apply seq_head].
      - destruct (K w a B); cbn in *; congruence.
      - destruct (K r e A); cbn in *; congruence. }
    intros e0 f [->|E] [->|G]; [exact H|eapply t_trans; eassumption|eapply t_trans; eassumption|eapply t_trans; [eassumption|eapply t_trans; eassumption]].
  - exfalso. pose proof (c_rf_none _ _ C r e _ A O RF) as E. rewrite L in E. cbn [initially] in E. unfold num in E. destruct (levels k); discriminate E.
Qed.
Print Assumptions C145_publishes.

(** disableAll and enableAll go through the levels in order: who finds a later level switched finds the earlier ones switched, as long as nobody else sets *)
Theorem C145_in_order : forall levels x k1 k2 w1 w2 r1 r2 b c, run levels x -> sets x k1 w1 b -> sets x k2 w2 b -> sb x w1 w2 ->
  (forall w d, sets x k1 w d -> w = w1) -> (forall w d, sets x k2 w d -> w = w2) -> levels k2 = negb b ->
  checks x k2 r2 b -> sb x r2 r1 -> checks x k1 r1 c -> c = b.
Proof.
  intros levels x k1 k2 w1 w2 r1 r2 b c RN S1 S2 SB O1 O2 LV C2 SR C1.
  assert (B : b = negb (levels k2)) by (rewrite LV, negb_involutive; reflexivity).
  pose proof C2 as C2'. rewrite B in C2'. destruct (C145_publishes levels x k2 r2 RN C2') as (w & S & P). rewrite <- B in S.
  pose proof (O2 w b S). subst w.
  assert (H : hb x w1 r1) by (apply P; right; apply t_step; left; assumption).
  apply (C145_last levels x k1 w1 r1 b c RN S1 C1 H). intros w' d S' N. exfalso. exact (N (O1 w' d S')).
Qed.
Print Assumptions C145_in_order.

(** a thread that stops waiting in the fatal entry has all that happened before the unblocking before it *)
Theorem C145_released : forall levels x r e, run levels x -> at_ x r e -> e_loc e = Block -> e_old e = Some 0 ->
  exists w a, at_ x w a /\ e_loc a = Block /\ e_new a = Some 0 /\ forall p q, (p = w \/ hb x p w) -> (q = r \/ hb x r q) -> hb x p q.
Proof.
  intros levels x r e (C & K & F) A L O. destruct (x_rf x r) as [w|] eqn:RF.
  - destruct (c_rf_some _ _ C r e _ w A O RF) as (a & B & LB & NB). exists w, a. rewrite L in LB. repeat split; [exact B|exact LB|exact NB|].
    assert (H : hb x w r).
    { apply t_step. right; left. exists a, e, w. repeat split; [exact B|exact A|congruence|congruence| | |exact RF|apply seq_head].
      - destruct (K w a B); cbn in *; congruence.
      - destruct (K r e A); cbn in *; congruence. }
    intros e0 f [->|E] [->|G]; [exact H|eapply t_trans; eassumption|eapply t_trans; eassumption|eapply t_trans; [eassumption|eapply t_trans; eassumption]].
  - exfalso. pose proof (c_rf_none _ _ C r e _ A O RF) as E. rewrite L in E. discriminate E.
Qed.
Print Assumptions C145_released.

(** and a thread that looks after the unblocking happened is let go *)
Theorem C145_lets_go : forall levels x w a r e, run levels x -> at_ x w a -> e_loc a = Block -> e_new a <> None -> at_ x r e -> e_loc e = Block -> e_old e <> None ->
  hb x w r -> e_old e = Some 0.
Proof.
  intros levels x w a r e (C & K & F) A LA NA E L O H.
  destruct (c_wr _ _ C Block w r) as (k & R & _); [exists a; repeat split; assumption|exists e; repeat split; assumption|exact H|].
  destruct (e_old e) as [v|] eqn:V; [|congruence]. destruct (c_rf_some _ _ C r e v k E V R) as (b & B & LB & NB). rewrite L in LB.
  destruct (K k b B); cbn [e_loc e_new] in *; try discriminate. injection NB as <-. reflexivity.
Qed.
Print Assumptions C145_lets_go.

(** checks never go back: once the only setting was found, every later check finds it *)
Theorem C145_no_return : forall levels x k w r1 r2 b c, run levels x -> sets x k w b -> (forall w' d, sets x k w' d -> w' = w) -> levels k = negb b ->
  checks x k r1 b -> hb x r1 r2 -> checks x k r2 c -> c = b.
Proof.
  intros levels x k w r1 r2 b c RN S ONLY LV C1 H C2.
  assert (B : b = negb (levels k)) by (rewrite LV, negb_involutive; reflexivity).
  pose proof C1 as C1'. rewrite B in C1'. destruct (C145_publishes levels x k r1 RN C1') as (w' & S' & P). rewrite <- B in S'. pose proof (ONLY w' b S'). subst w'.
  apply (C145_last levels x k w r2 b c RN S C2); [apply P; [now left|now right]|].
  intros w' d S2 N. exfalso. exact (N (ONLY w' d S2)).
Qed.
Print Assumptions C145_no_return.

(** * Concrete executions *)
Definition on (k : Z) : bool := true.
Lemma built : forall levels evs rfs mos hbs, check (initially levels) evs rfs mos hbs = true -> Forall coded evs -> Z.of_nat (length evs) + 1 < 2 ^ 64 -> run levels (build evs rfs mos).
Proof.
  intros levels evs rfs mos hbs CH K L. split; [exact (check_consistent _ _ _ _ _ CH)|split; [|exact L]].
  intros i e A. rewrite Forall_forall in K. apply K. exact (nth_error_In _ _ A).
Qed.
Ltac all_coded := repeat (apply Forall_cons; [first [apply by_shouldDoExit|apply by_increment|apply by_load|apply by_initialize|apply by_unblock|apply (by_shouldBlock _ true)
  |apply (by_shouldBlock _ false)|apply (by_value _ _ true)|apply (by_value _ _ false)|apply (by_assign _ _ true)|apply (by_assign _ _ false)]|]); apply Forall_nil.

(** three threads call shouldDoExit, the second is first *)
Definition three : execution := build [mkE 1 FirstExit (Some 1) (Some 2) false; mkE 2 FirstExit (Some 0) (Some 1) false; mkE 3 FirstExit (Some 2) (Some 3) false]
  [(0, 1); (2, 0)]%nat [(1, 0); (0, 2); (1, 2)]%nat.
Example three_run : run on three.
Proof. apply (built on _ _ _ [(1, 0); (0, 2); (1, 2)]%nat); [vm_compute; reflexivity|all_coded|vm_compute; reflexivity]. Qed.
Example three_exit : may_exit three 1 /\ ~ may_exit three 0 /\ ~ may_exit three 2.
Proof.
  split; [eexists; exists 0; repeat split; reflexivity|split].
  - intros (e & v & A & _ & O & S). injection A as <-. injection O as <-. discriminate S.
  - intros (e & v & A & _ & O & S). injection A as <-. injection O as <-. discriminate S.
Qed.
(** one thread calls it twice *)
Definition twice : execution := build [mkE 1 FirstExit (Some 0) (Some 1) false; mkE 1 FirstExit (Some 1) (Some 2) false] [(1, 0)]%nat [(0, 1)]%nat.
Example twice_run : run on twice /\ call twice 0 /\ call twice 1 /\ hb twice 0 1.
Proof.
  split; [apply (built on _ _ _ [(0, 1)]%nat); [vm_compute; reflexivity|all_coded|vm_compute; reflexivity]|].
  split; [eexists; split; reflexivity|]. split; [eexists; split; reflexivity|].
  apply t_step. left. split; [lia|]. eexists. eexists. repeat split; reflexivity.
Qed.

Lemma sb_hb : forall x i j, (i < j)%nat -> (exists a b, at_ x i a /\ at_ x j b /\ e_thread a = e_thread b) -> hb x i j.
Proof. intros x i j L E. apply t_step. left. split; assumption. Qed.
(** two fatal events at a time; only the second finds the other *)
Definition crashes : execution := build
  [mkE 1 Counter (Some 0) (Some 1) true; mkE 1 Counter (Some 1) None true; mkE 2 Counter (Some 1) (Some 2) true; mkE 2 Counter (Some 2) None true]
  [(1, 0); (2, 0); (3, 2)]%nat [(0, 2)]%nat.
Example crashes_run : run on crashes /\ fatal crashes 0 /\ fatal crashes 2 /\ decides crashes 1 /\ decides crashes 3 /\ hb crashes 0 1 /\ hb crashes 2 3
  /\ ~ warns crashes 1 /\ warns crashes 3.
Proof.
  split; [apply (built on _ _ _ [(0, 1); (0, 2); (0, 3); (2, 3)]%nat); [vm_compute; reflexivity|all_coded|vm_compute; reflexivity]|].
  split; [eexists; repeat split; first [reflexivity|discriminate]|].
  split; [eexists; repeat split; first [reflexivity|discriminate]|].
  split; [eexists; repeat split; first [reflexivity|discriminate]|].
  split; [eexists; repeat split; first [reflexivity|discriminate]|].
  split; [apply sb_hb; [lia|eexists; eexists; repeat split; reflexivity]|].
  split; [apply sb_hb; [lia|eexists; eexists; repeat split; reflexivity]|].
  split.
  - intros (e & v & A & _ & _ & O & P). injection A as <-. injection O as <-. discriminate P.
  - eexists. exists 2. repeat split; reflexivity.
Qed.

(** when logging is initialized between two fatal events, neither is told of the other *)
Definition initialized_between : execution := build
  [mkE 1 Counter (Some 0) (Some 1) true; mkE 1 Counter (Some 1) None true; mkE 2 Counter None (Some 0) true; mkE 3 Counter (Some 0) (Some 1) true; mkE 3 Counter (Some 1) None true]
  [(1, 0); (3, 2); (4, 3)]%nat [(0, 2); (0, 3); (2, 3)]%nat.
Theorem C144_initialized_between : exists x, run on x /\ fatal x 0 /\ fatal x 3 /\ decides x 1 /\ decides x 4 /\ hb x 0 1 /\ hb x 3 4 /\ ~ warns x 1 /\ ~ warns x 4.
Proof.
  exists initialized_between.
  split; [apply (built on _ _ _ [(0, 1); (2, 3); (2, 4); (3, 4)]%nat); [vm_compute; reflexivity|all_coded|vm_compute; reflexivity]|].
  split; [eexists; repeat split; first [reflexivity|discriminate]|].
  split; [eexists; repeat split; first [reflexivity|discriminate]|].
  split; [eexists; repeat split; first [reflexivity|discriminate]|].
  split; [eexists; repeat split; first [reflexivity|discriminate]|].
  split; [apply sb_hb; [lia|eexists; eexists; repeat split; reflexivity]|].
  split; [apply sb_hb; [lia|eexists; eexists; repeat split; reflexivity]|].
  split; intros (e & v & A & _ & _ & O & P); injection A as <-; injection O as <-; discriminate P.
Qed.
Print Assumptions C144_initialized_between.

(** a thread disables two levels, another finds the second disabled, then the first *)
Definition passing : execution := build
  [mkE 1 (Switch 100) None (Some 0) true; mkE 1 (Switch 300) None (Some 0) true; mkE 2 (Switch 300) (Some 0) None true; mkE 2 (Switch 100) (Some 0) None true]
  [(2, 1); (3, 0)]%nat [].
Ltac is_switch := eexists; repeat split; reflexivity.
Lemma passing_sets : forall k w d, sets passing k w d -> (k = 100 /\ w = 0%nat \/ k = 300 /\ w = 1%nat) /\ d = false.
Proof.
  intros k w d (e & A & L & N).
  destruct w as [|[|[|[|w]]]]; [injection A as <-|injection A as <-|injection A as <-|injection A as <-|destruct w; discriminate A]; cbn in L, N; try discriminate N;
    injection L as <-; (split; [|destruct d; [discriminate N|reflexivity]]); [left|right]; split; reflexivity.
Qed.
Example passing_run : run on passing /\ sets passing 100 0 false /\ sets passing 300 1 false /\ sb passing 0 1 /\ checks passing 300 2 false /\ sb passing 2 3 /\ checks passing 100 3 false
  /\ hb passing 0 3 /\ (forall w d, sets passing 100 w d -> w = 0%nat) /\ (forall w d, sets passing 300 w d -> w = 1%nat).
Proof.
  assert (RN : run on passing) by (apply (built on _ _ _ [(0, 1); (0, 2); (0, 3); (1, 2); (1, 3); (2, 3)]%nat); [vm_compute; reflexivity|all_coded|vm_compute; reflexivity]).
  assert (O1 : forall w d, sets passing 100 w d -> w = 0%nat) by (intros w d S; destruct (passing_sets _ _ _ S) as ([(_ & E)|(E & _)] & _); [exact E|discriminate E]).
  assert (O2 : forall w d, sets passing 300 w d -> w = 1%nat) by (intros w d S; destruct (passing_sets _ _ _ S) as ([(E & _)|(_ & E)] & _); [discriminate E|exact E]).
  assert (S01 : sb passing 0 1) by (split; [lia|eexists; eexists; repeat split; reflexivity]).
  assert (S23 : sb passing 2 3) by (split; [lia|eexists; eexists; repeat split; reflexivity]).
  split; [exact RN|]. split; [is_switch|]. split; [is_switch|]. split; [exact S01|]. split; [is_switch|]. split; [exact S23|]. split; [is_switch|].
  split; [|split; assumption].
  destruct (C145_publishes on passing 300 2 RN) as (w & S & P); [is_switch|]. rewrite (O2 _ _ S) in P. apply P; right; apply t_step; left; assumption.
Qed.

(** but the settings of two levels by two threads are in no order that all threads agree on: each disables a level, and finds the other's level still enabled *)
Definition buffering : execution := build
  [mkE 1 (Switch 100) None (Some 0) true; mkE 1 (Switch 300) (Some 1) None true; mkE 2 (Switch 300) None (Some 0) true; mkE 2 (Switch 100) (Some 1) None true] [] [].
Theorem C145_buffering : exists x, run on x /\ sets x 100 0 false /\ checks x 300 1 true /\ sets x 300 2 false /\ checks x 100 3 true /\ sb x 0 1 /\ sb x 2 3.
Proof.
  exists buffering. split; [apply (built on _ _ _ [(0, 1); (2, 3)]%nat); [vm_compute; reflexivity|all_coded|vm_compute; reflexivity]|].
  split; [is_switch|]. split; [is_switch|]. split; [is_switch|]. split; [is_switch|].
  split; (split; [lia|eexists; eexists; repeat split; reflexivity]).
Qed.
Print Assumptions C145_buffering.
(** and two others that look at both levels see the two settings in opposite orders *)
Definition disagreeing : execution := build
  [mkE 1 (Switch 100) None (Some 0) true; mkE 2 (Switch 300) None (Some 0) true;
   mkE 3 (Switch 100) (Some 0) None true; mkE 3 (Switch 300) (Some 1) None true; mkE 4 (Switch 300) (Some 0) None true; mkE 4 (Switch 100) (Some 1) None true]
  [(2, 0); (4, 1)]%nat [].
Theorem C145_disagreeing : exists x, run on x /\ sets x 100 0 false /\ sets x 300 1 false /\ checks x 100 2 false /\ checks x 300 3 true /\ sb x 2 3
  /\ checks x 300 4 false /\ checks x 100 5 true /\ sb x 4 5.
Proof.
  exists disagreeing. split; [apply (built on _ _ _ [(0, 2); (0, 3); (2, 3); (1, 4); (1, 5); (4, 5)]%nat); [vm_compute; reflexivity|all_coded|vm_compute; reflexivity]|].
  split; [is_switch|]. split; [is_switch|]. split; [is_switch|]. split; [is_switch|].
  split; [split; [lia|eexists; eexists; repeat split; reflexivity]|]. split; [is_switch|]. split; [is_switch|].
  split; [lia|eexists; eexists; repeat split; reflexivity].
Qed.
Print Assumptions C145_disagreeing.

(** the background thread disables a level and unblocks; the waiting thread is released *)
Definition released : execution := build
  [mkE 1 Block (Some 1) None true; mkE 2 (Switch 100) None (Some 0) true; mkE 2 Block None (Some 0) true; mkE 1 Block (Some 0) None true; mkE 1 (Switch 100) (Some 0) None true]
  [(3, 2); (4, 1)]%nat [].
Example released_run : run on released /\ (exists e, at_ released 3 e /\ e_loc e = Block /\ e_old e = Some 0) /\ hb released 1 4.
Proof.
  assert (RN : run on released) by (apply (built on _ _ _ [(0, 3); (0, 4); (1, 2); (1, 3); (1, 4); (2, 3); (2, 4); (3, 4)]%nat); [vm_compute; reflexivity|all_coded|vm_compute; reflexivity]).
  split; [exact RN|]. split; [eexists; repeat split; reflexivity|].
  destruct (C145_released on released 3 (mkE 1 Block (Some 0) None true) RN eq_refl eq_refl eq_refl) as (w & a & A & L & N & P).
  assert (w = 2%nat). { destruct w as [|[|[|[|[|w]]]]]; [injection A as <-|injection A as <-|reflexivity|injection A as <-|injection A as <-|destruct w; discriminate A]; discriminate. }
  subst w. apply P; right; (apply sb_hb; [lia|eexists; eexists; repeat split; reflexivity]).
Qed.
