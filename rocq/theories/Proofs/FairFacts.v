(** Progress under a fair scheduler. *)
From Coq Require Import List Arith Bool Lia.
From Verif.Base Require Import Threads.
From Verif.Model Require Import Worker.
From Verif.Spec Require Import WorkerSpec FairSpec.
From Verif.Proofs Require Import WorkerLife WorkerHist WorkerBusy WorkerTok WorkerProm WorkerMeasure WorkerEnd WorkerTrace.
Import ListNotations.

(** ** steps of others leave a sink's thread where it is *)
Definition skok (x y : sink) : Prop := exists q d, y = mkSink (k_q x ++ q) (k_run x) (k_done x) (k_exit x) (k_got x) d.
Lemma skok_refl : forall x, skok x x.
Proof. intros [q r d e g z]. exists [], z. cbn. now rewrite app_nil_r. Qed.
Lemma skok_push : forall s k j u, skok (sk s u) (sk (push_sink s k j) u).
Proof.
  intros s k j u. unfold push_sink. destruct (k_dead (sk s k)); [apply skok_refl|]. rewrite sk_upd. destruct (Nat.eqb u k && Nat.ltb k (length (w_sk s))) eqn:E; [|apply skok_refl].
  apply andb_prop in E as [E _]. apply Nat.eqb_eq in E as ->. now exists [j], (k_dead (sk s k)).
Qed.
Lemma skok_destroy : forall s k u, skok (sk s u) (sk (destroy s k) u).
Proof.
  intros s k u. unfold destroy. destruct (k_dead (sk s k)); [apply skok_refl|]. rewrite sk_upd. destruct (Nat.eqb u k && Nat.ltb k (length (w_sk s))) eqn:E; [|apply skok_refl].
  apply andb_prop in E as [E _]. apply Nat.eqb_eq in E as ->. exists [], true. now rewrite app_nil_r.
Qed.
Lemma skok_release : forall s i k next u, skok (sk s u) (sk (release s i k next) u).
Proof. intros. unfold release. destruct (Nat.eqb _ 0); [|apply skok_refl]. exact (skok_push (set_hold s i (remove1 k (c_hold (cl s i)))) k JDone u). Qed.
Lemma sk_upd_other : forall s k x u, u <> k -> get no_sink (upd (w_sk s) k x) u = sk s u.
Proof. intros s k x u N. pose proof (sk_upd s k x u) as H. apply Nat.eqb_neq in N. rewrite N in H. exact H. Qed.
Lemma sk_new : forall s u x, u < length (w_sk s) -> get no_sink (w_sk s ++ [x]) u = sk s u.
Proof. intros s u x L. rewrite get_app_last by lia. destruct (Nat.eqb_spec u (length (w_sk s))); [lia|reflexivity]. Qed.
Lemma sk_other : forall s a s' u, wstep s a = Some s' -> u < length (w_sk s) -> own u a = false -> skok (sk s u) (sk s' u).
Proof.
  intros s a s' u E L O. scase E; try apply skok_refl; try (exact (skok_push _ _ _ _)); try (exact (skok_destroy _ _ _)); try (exact (skok_release _ _ _ _ _)).
  all: try (cbn [own] in O; apply Nat.eqb_neq in O; match goal with |- skok (sk ?s ?u) (sk ?s' ?u) => replace (sk s' u) with (sk s u); [apply skok_refl|]; symmetry; apply sk_upd_other; congruence end).
  all: match goal with |- skok (sk ?s ?u) (sk ?s' ?u) => replace (sk s' u) with (sk s u); [apply skok_refl|]; symmetry; apply sk_new; assumption end.
Qed.
Lemma sk_len : forall s a s', wstep s a = Some s' -> length (w_sk s) <= length (w_sk s').
Proof. intros s a s' E. scase E; sunf; cbn; rewrite ?upd_length, ?app_length; lia. Qed.
(** what the sink's own thread does *)
Inductive sown (x : sink) : sink -> Prop :=
| o_pop : forall j q, k_run x = None -> k_q x = j :: q -> k_done x = false -> sown x (mkSink q (Some j) (k_done x) (k_exit x) (k_got x) (k_dead x))
| o_end : forall j, k_run x = Some j -> sown x (mkSink (k_q x) None (match j with JDone => true | _ => k_done x end) (k_exit x) (k_got x ++ [j]) (k_dead x))
| o_exit : k_done x = true -> k_exit x = false -> sown x (mkSink (k_q x) (k_run x) true true (k_got x) (k_dead x)).
Lemma sk_upd_same : forall s k x, k < length (w_sk s) -> get no_sink (upd (w_sk s) k x) k = x.
Proof. intros s k x L. pose proof (sk_upd s k x k) as H. rewrite Nat.eqb_refl in H. apply Nat.ltb_lt in L. rewrite L in H. exact H. Qed.
Lemma sk_own : forall s a s' u, wstep s a = Some s' -> own u a = true -> u < length (w_sk s) /\ sown (sk s u) (sk s' u).
Proof.
  intros s a s' u E O. unfold wstep in E. destruct (w_proc s); try discriminate. destruct a as [|k|k o|k|i|i|i|i|i k|i|i k|i k|i k|i| |]; cbn [own] in O; try discriminate; apply Nat.eqb_eq in O as ->.
  - unfold sink_pop in E. destruct (k_run (sk s u)) eqn:R; [discriminate|]. destruct (k_q (sk s u)) as [|j q] eqn:Q; [discriminate|]. destruct (k_done (sk s u)) eqn:D; [discriminate|].
    pose proof (sink_q_lt _ _ _ _ Q) as L. split; [exact L|]. injection E as <-. unfold sk at 2. cbn [set_sk w_sk]. rewrite sk_upd_same by exact L. rewrite <- D. now apply o_pop.
  - unfold sink_end in E. destruct (k_run (sk s u)) as [j|] eqn:R; [|discriminate]. pose proof (sink_run_lt _ _ _ R) as L. split; [exact L|]. injection E as <-.
    match goal with |- sown _ ?y => assert (Y : y = mkSink (k_q (sk s u)) None (match j with JDone => true | _ => k_done (sk s u) end) (k_exit (sk s u)) (k_got (sk s u) ++ [j]) (k_dead (sk s u))) end.
    { destruct j; [destruct o|..]; unfold sk at 1; cbn [set_sk w_sk set_proc set_prom]; apply sk_upd_same; exact L. }
    rewrite Y. now apply o_end.
  - unfold sink_exit in E. destruct (k_done (sk s u)) eqn:D; [|discriminate]. destruct (k_exit (sk s u)) eqn:X; [discriminate|]. injection E as <-.
    pose proof (sink_exit_lt _ _ X) as L. split; [exact L|]. unfold sk at 2. cbn [set_sk w_sk]. rewrite sk_upd_same by exact L. now apply o_exit.
Qed.
(** a sink only goes forward *)
Definition skle (x y : sink) : Prop := prefix (all x) (all y) /\ prefix (k_got x) (k_got y) /\ (k_exit x = true -> k_exit y = true).
Lemma skle_refl : forall x, skle x x.
Proof. intro x. repeat split; auto using prefix_refl. Qed.
Lemma skle_trans : forall x y z, skle x y -> skle y z -> skle x z.
Proof. intros x y z (A & B & C) (D & E & F). repeat split; eauto using prefix_trans. Qed.
Lemma skle_step : forall s a s' u, wstep s a = Some s' -> u < length (w_sk s) -> skle (sk s u) (sk s' u).
Proof.
  intros s a s' u E L. destruct (own u a) eqn:O.
  - destruct (sk_own _ _ _ _ E O) as [_ [j q R Q D|j R|D X]]; repeat split; unfold all; cbn; rewrite ?R, ?Q; auto using prefix_refl.
    + rewrite <- app_assoc. apply prefix_refl.
    + now exists [j].
  - destruct (sk_other _ _ _ _ E L O) as (q & d & ->). repeat split; unfold all; cbn; auto using prefix_refl. rewrite !app_assoc. exists q. reflexivity.
Qed.
Lemma skle_steps : forall s s' u, wsteps s s' -> u < length (w_sk s) -> u < length (w_sk s') /\ skle (sk s u) (sk s' u).
Proof.
  intros s s' u W L. induction W as [s|s s1 a s2 W IH E]; [split; auto using skle_refl|]. destruct (IH L) as [L1 K]. split; [pose proof (sk_len _ _ _ E); lia|]. eapply skle_trans; [exact K|eapply skle_step; eauto].
Qed.

(** ** executions *)
Section fair.
Variables (n : nat) (ex : nat -> wstate) (ac : nat -> option waction).
Hypothesis EX : execution n ex ac.

Lemma ex_succ : forall t, ex (S t) = ex t \/ exists a, ac t = Some a /\ wstep (ex t) a = Some (ex (S t)).
Proof. intro t. pose proof (ex_next _ _ _ EX t) as H. destruct (ac t) as [a|]; eauto. Qed.
Lemma ex_steps : forall t m, t <= m -> wsteps (ex t) (ex m).
Proof.
  intros t m L. induction L as [|m L IH]; [constructor|]. destruct (ex_succ m) as [E|(a & _ & E)]; [rewrite E; exact IH|]. eapply ws_step; eauto.
Qed.
Lemma ex_reach : forall t, wreach n (ex t).
Proof. intro t. eapply reach_steps; [apply (ex_start _ _ _ EX)|apply ex_steps; lia]. Qed.
Lemma ex_inv : forall t, inv (ex t).
Proof. intro t. eapply reach_inv, ex_reach. Qed.
Lemma ex_A : forall t, invA (ex t).
Proof. intro t. apply i_A, ex_inv. Qed.

Lemma ev_now : forall t (Q : wstate -> Prop), w_proc (ex t) <> PRun \/ Q (ex t) -> eventually ex t Q.
Proof. intros t Q H. now exists t. Qed.
Lemma ev_bind : forall t (Q R : wstate -> Prop), eventually ex t Q -> (forall m, t <= m -> w_proc (ex m) = PRun -> Q (ex m) -> eventually ex m R) -> eventually ex t R.
Proof.
  intros t Q R (m & L & H) K. assert (D : w_proc (ex m) <> PRun \/ w_proc (ex m) = PRun) by (destruct (w_proc (ex m)); auto; left; discriminate).
  destruct D as [D|D]; [exists m; auto|]. destruct H as [H|H]; [contradiction|]. destruct (K m L D H) as (m' & L' & H'). exists m'. split; [lia|exact H'].
Qed.
Lemma ev_weak : forall t (Q R : wstate -> Prop), eventually ex t Q -> (forall m, t <= m -> w_proc (ex m) = PRun -> Q (ex m) -> R (ex m)) -> eventually ex t R.
Proof. intros t Q R H K. eapply ev_bind; [exact H|]. intros m L P HQ. apply ev_now. right. now apply K. Qed.
Lemma ev_run : forall t (Q : wstate -> Prop), (w_proc (ex t) = PRun -> eventually ex t Q) -> eventually ex t Q.
Proof. intros t Q H. destruct (w_proc (ex t)) eqn:P; auto; apply ev_now; left; congruence. Qed.

(** a thread that could go on until it does, does *)
Lemma fair_step : forall th (P : wstate -> Prop) t, fair_to ex ac th ->
  (forall m, t <= m -> w_proc (ex m) = PRun -> P (ex m) -> exists a, step_of th a = true /\ wstep (ex m) a <> None) ->
  (forall m a, t <= m -> w_proc (ex m) = PRun -> P (ex m) -> wstep (ex m) a = Some (ex (S m)) -> step_of th a = false -> P (ex (S m))) ->
  P (ex t) -> exists m, t <= m /\ (w_proc (ex m) <> PRun \/ (w_proc (ex m) = PRun /\ P (ex m) /\ exists a, step_of th a = true /\ wstep (ex m) a = Some (ex (S m)))).
Proof.
  intros th P t F EN ST H0. destruct (F t) as (m & L & FM).
  assert (D : forall u, {w_proc (ex u) = PRun} + {w_proc (ex u) <> PRun}) by (intro u; destruct (w_proc (ex u)); auto; right; discriminate).
  assert (G : forall d, let u := t + d in P (ex u) \/ exists m, t <= m /\ (w_proc (ex m) <> PRun \/ (w_proc (ex m) = PRun /\ P (ex m) /\ exists a, step_of th a = true /\ wstep (ex m) a = Some (ex (S m))))).
  { induction d as [|d [IH|IH]]; cbn zeta in *; [left; now rewrite Nat.add_0_r| |now right]. rewrite Nat.add_succ_r. destruct (D (t + d)) as [PR|PR]; [|right; exists (t + d); split; [lia|auto]].
    destruct (ex_succ (t + d)) as [E|(a & A & E)]; [left; now rewrite E|]. destruct (step_of th a) eqn:S.
    - right. exists (t + d). split; [lia|]. right. eauto.
    - left. eapply ST; eauto. lia. }
  specialize (G (m - t)). cbn zeta in G. replace (t + (m - t)) with m in G by lia. destruct G as [G|G]; [|exact G].
  destruct (D m) as [PR|PR]; [|exists m; auto]. destruct FM as [(a & A & S)|FM].
  - exists m. split; [exact L|]. right. split; [exact PR|]. split; [exact G|]. exists a. split; [exact S|]. pose proof (ex_next _ _ _ EX m) as N. now rewrite A in N.
  - destruct (EN m L PR G) as (a & S & N). elim N. now apply FM.
Qed.

(** ** a sink *)
Lemma own_step : forall k a, step_of (SinkOf k) a = own k a.
Proof. intros k []; reflexivity. Qed.
Lemma sink_next : forall k (P : sink -> Prop) (Q : sink -> Prop) t, fair_to ex ac (SinkOf k) -> k < length (w_sk (ex t)) ->
  (forall m, t <= m -> w_proc (ex m) = PRun -> P (sk (ex m) k) -> exists a, own k a = true /\ wstep (ex m) a <> None) ->
  (forall x y, P x -> skok x y -> P y) -> (forall m y, P (sk (ex m) k) -> sown (sk (ex m) k) y -> Q y) ->
  P (sk (ex t) k) -> eventually ex t (fun s => Q (sk s k)).
Proof.
  intros k P Q t F L EN OT OW H. destruct (fair_step (SinkOf k) (fun s => k < length (w_sk s) /\ P (sk s k)) t F) as (m & LM & [PR|(PR & [LK PM] & a & S & E)]).
  - intros m LM PR [_ PM]. destruct (EN m LM PR PM) as (a & O & W). exists a. now rewrite own_step.
  - intros m a LM PR [LK PM] E S. rewrite own_step in S. split; [pose proof (sk_len _ _ _ E); lia|]. eapply OT; [exact PM|eapply sk_other; eauto].
  - auto.
  - exists m. auto.
  - rewrite own_step in S. exists (Datatypes.S m). split; [lia|]. right. eapply OW; [exact PM|]. eapply sk_own; eauto.
Qed.
Lemma sink_ends : forall k t j, fair_to ex ac (SinkOf k) -> k_run (sk (ex t) k) = Some j -> eventually ex t (fun s => length (k_got (sk s k)) = S (length (k_got (sk (ex t) k)))).
Proof.
  intros k t j F R. apply (sink_next k (fun x => k_run x = Some j /\ length (k_got x) = length (k_got (sk (ex t) k))) (fun x => length (k_got x) = S (length (k_got (sk (ex t) k))))); auto.
  - eapply sink_run_lt; eauto.
  - intros m L PR [RM _]. exists (ASinkEnd k (Val 0)). split; [apply Nat.eqb_refl|]. unfold wstep. rewrite PR. unfold sink_end. rewrite RM. discriminate.
  - intros x y H (q & d & ->). exact H.
  - intros m y [RM G] S. destruct S as [j' q R' Q D|j' R'|D X]; [congruence| |].
    + cbn [k_got]. rewrite app_length. cbn [length]. lia.
    + destruct (exit_flushed _ _ (ex_A m) D) as [_ N]. congruence.
Qed.
Lemma sink_grows : forall k t, fair_to ex ac (SinkOf k) -> k_run (sk (ex t) k) <> None \/ k_q (sk (ex t) k) <> [] -> eventually ex t (fun s => length (k_got (sk s k)) = S (length (k_got (sk (ex t) k)))).
Proof.
  intros k t F H. destruct (k_run (sk (ex t) k)) as [j|] eqn:R; [eapply sink_ends; eauto|]. destruct H as [H|H]; [congruence|]. destruct (k_q (sk (ex t) k)) as [|j q] eqn:Q; [congruence|].
  eapply ev_bind with (Q := fun s => k_run (sk s k) = Some j /\ length (k_got (sk s k)) = length (k_got (sk (ex t) k))).
  - apply (sink_next k (fun x => k_run x = None /\ (exists q, k_q x = j :: q) /\ length (k_got x) = length (k_got (sk (ex t) k))) (fun x => k_run x = Some j /\ length (k_got x) = length (k_got (sk (ex t) k)))); auto.
    + eapply sink_q_lt; eauto.
    + intros m L PR (RM & (q' & QM) & _). exists (ASinkPop k). split; [apply Nat.eqb_refl|]. unfold wstep. rewrite PR. unfold sink_pop. rewrite RM, QM. intro Z. destruct (k_done (sk (ex m) k)) eqn:D; [|discriminate].
      destruct (exit_flushed _ _ (ex_A m) D) as [N _]. congruence.
    + intros x y (A & (q' & B) & C) (r & d & ->). cbn. split; [exact A|]. split; [|exact C]. rewrite B. now exists (q' ++ r).
    + intros m y (A & (q' & B) & C) S. destruct S as [j' q2 R' Q' D|j' R'|D X].
      * cbn. split; congruence.
      * congruence.
      * destruct (exit_flushed _ _ (ex_A m) D). congruence.
    + eauto.
  - intros m L PR [RM G]. rewrite <- G. eapply sink_ends; eauto.
Qed.
Lemma prefix_len : forall A (a b c : list A), prefix a c -> prefix b c -> length a <= length b -> prefix a b.
Proof.
  intros A a. induction a as [|x a IH]; intros b c [r P] [r' Q] L; [exists b; reflexivity|]. destruct b as [|y b]; [cbn in L; lia|]. subst c. cbn in Q. injection Q as -> Q. destruct (IH b (a ++ r)) as [z Z]; [now exists r|now exists r'|cbn in L; lia|]. exists z. cbn. now rewrite Z.
Qed.
Lemma got_all : forall x, prefix (k_got x) (all x).
Proof. intro x. now exists (match k_run x with Some j => [j] | None => [] end ++ k_q x). Qed.
(** a sink comes to the end of all that was sent to it *)
Lemma sink_flush : forall k t, fair_to ex ac (SinkOf k) -> k < length (w_sk (ex t)) -> eventually ex t (fun s => prefix (all (sk (ex t) k)) (k_got (sk s k))).
Proof.
  intros k t F L. set (A := all (sk (ex t) k)).
  assert (G : forall d u, t <= u -> length A - length (k_got (sk (ex u) k)) <= d -> eventually ex u (fun s => prefix A (k_got (sk s k)))).
  { induction d as [|d IH]; intros u LU LD; destruct (skle_steps _ _ k (ex_steps t u LU) L) as [LK (PA & _ & _)]; fold A in PA.
    - apply ev_now. right. apply prefix_len with (c := all (sk (ex u) k)); [exact PA|apply got_all|lia].
    - destruct (le_lt_dec (length A) (length (k_got (sk (ex u) k)))) as [LE|LT].
      + apply ev_now. right. apply prefix_len with (c := all (sk (ex u) k)); [exact PA|apply got_all|exact LE].
      + eapply ev_bind; [apply sink_grows; [exact F|]|].
        * destruct (k_run (sk (ex u) k)) eqn:R; [left; discriminate|]. right. intro Q. destruct PA as [r PA]. assert (LL : length (all (sk (ex u) k)) = length A + length r) by now rewrite PA, app_length.
          unfold all in LL. rewrite R, Q in LL. cbn [app] in LL. rewrite app_nil_r in LL. lia.
        * intros m LM PR G. apply IH; [lia|]. rewrite G. lia. }
  apply (G (length A) t); lia.
Qed.
(** a sink that is being destroyed ends *)
Lemma sink_exits : forall k t, fair_to ex ac (SinkOf k) -> jn (ex t) k <> 0 -> eventually ex t (fun s => k_exit (sk s k) = true).
Proof.
  intros k t F J. pose proof (life_ltJ _ _ _ _ (a_life _ (ex_A t)) J) as L. destruct (k_of _ k (ex_A t) L) as [a b c d e f].
  assert (HD : has_done (all (sk (ex t) k)) = true) by (destruct (has_done (all (sk (ex t) k))); [reflexivity|]; cbn [b2n] in c; lia).
  eapply ev_bind; [apply sink_flush; [exact F|exact L]|]. intros m LM PR [r PF]. destruct (skle_steps _ _ k (ex_steps t m LM) L) as [LK _]. destruct (k_of _ k (ex_A m) LK) as [a' b' c' d' e' f'].
  assert (D : k_done (sk (ex m) k) = true) by (rewrite d', PF, has_done_app, HD; reflexivity).
  destruct (k_exit (sk (ex m) k)) eqn:X; [apply ev_now; auto|].
  apply (sink_next k (fun x => k_done x = true /\ k_exit x = false) (fun x => k_exit x = true)); auto.
  - intros u LU PU [DU XU]. exists (ASinkExit k). split; [apply Nat.eqb_refl|]. unfold wstep. rewrite PU. unfold sink_exit. rewrite DU, XU. discriminate.
  - intros x y H (q & z & ->). exact H.
  - intros u y [DU XU] S. destruct S as [j q R Q D'|j R|D' X']; [congruence| |reflexivity]. destruct (exit_flushed _ _ (ex_A u) DU). congruence.
Qed.

(** ** the worker *)
Lemma work_step : forall s s', wstep s AWork = Some s' ->
  w_proc s' <> PRun \/ (w_pc s = WLoop /\ exists t, w_q s = t :: w_q s' /\ w_old s' = w_old s ++ [t]) \/ (w_pc s <> WLoop /\ w_old s' = w_old s /\ pw (w_pc s') < pw (w_pc s)).
Proof.
  intros s s' E. unfold wstep in E. destruct (w_proc s) eqn:P; try discriminate. unfold work in E. destruct (w_pc s) as [|m todo drop q|l q|k l q|i f|] eqn:W.
  - destruct (w_q s) as [|t q] eqn:Q; [discriminate|]. injection E as <-. right. left. split; [reflexivity|]. exists t. destruct t; try (split; reflexivity). destruct (Nat.eqb _ 0); split; reflexivity.
  - right. right. split; [discriminate|]. destruct todo as [|k todo]; injection E as <-; [split; [reflexivity|cbn; lia]|]. destruct (ps_frame s k (JMsg m)) as (A1 & _). split; [exact A1|cbn; lia].
  - destruct l as [|k l].
    + destruct q; injection E as <-; [right; right; split; [discriminate|]; split; [reflexivity|cbn; lia]..|left; discriminate].
    + right. right. split; [discriminate|]. injection E as <-. destruct (Nat.eqb _ 0); [|split; [reflexivity|cbn; unfold dw; cbn [length]; lia]].
      destruct (ps_frame (set_pc s (WDrop l q)) k JDone) as (A1 & _). split; [exact A1|]. cbn. unfold dw. cbn [length]. lia.
  - destruct (k_exit (sk s k)); [|discriminate]. injection E as <-. right. right. split; [discriminate|]. destruct (ds_frame s k) as (A1 & _). split; [exact A1|]. cbn. lia.
  - injection E as <-. right. right. split; [discriminate|]. split; [reflexivity|]. cbn. unfold dw. cbn [kw]. lia.
  - discriminate.
Qed.
Lemma work_other : forall s a s', wstep s a = Some s' -> step_of Worker a = false -> w_pc s' = w_pc s /\ w_old s' = w_old s /\ prefix (w_q s) (w_q s').
Proof.
  intros s a s' E O. scase E; try discriminate O; clear O; sunf; cbn; repeat split; auto; try apply prefix_refl; eexists; reflexivity.
Qed.
Lemma exit_q : forall s, inv s -> w_pc s = WExit -> w_q s = [].
Proof.
  intros s [IA IB IP IT ID] W. destruct IP as [[C _]|(pre & t & O & Q & B)]; [congruence|]. rewrite W in B. assert (TD : t = TDone).
  { destruct t; auto; exfalso; cbn [busy] in B; repeat (match goal with H : _ \/ _ |- _ => destruct H | H : exists _, _ |- _ => destruct H | H : _ /\ _ |- _ => destruct H end); try discriminate. }
  assert (ND : In TDone (entered s)) by (unfold entered; rewrite O, TD; apply in_or_app; left; apply in_or_app; right; now left).
  destruct (w_bg s) eqn:BGV; [destruct (d_bg1 s ID BGV) as [N _]; contradiction|]. destruct (d_bg0 s ID BGV) as [(l & E1 & N) _].
  destruct (w_q s) as [|x r] eqn:QQ; [reflexivity|]. exfalso. apply N. unfold entered in E1. rewrite QQ in E1. destruct (exists_last (l := x :: r) ltac:(discriminate)) as (r' & y & E2). rewrite E2, app_assoc in E1. apply app_inj_tail in E1 as [E1 _].
  rewrite <- E1, O, TD. apply in_or_app. left. apply in_or_app. right. now left.
Qed.
Lemma entered_step : forall s a s', wstep s a = Some s' -> prefix (entered s) (entered s').
Proof.
  intros s a s' E. destruct (step_of Worker a) eqn:O; [|destruct (work_other _ _ _ E O) as (_ & A & [l B]); unfold entered; rewrite A, B, app_assoc; now exists l].
  scase E; try discriminate O; sunf; unfold entered; cbn; rewrite ?C0, <- ?app_assoc; cbn [app]; apply prefix_refl.
Qed.
Lemma entered_steps : forall s s', wsteps s s' -> prefix (entered s) (entered s').
Proof. intros s s' W. induction W as [s|s s1 a s2 W IH E]; [apply prefix_refl|]. eapply prefix_trans; [exact IH|eapply entered_step; eauto]. Qed.

Hypothesis FW : fair_to ex ac Worker.
Hypothesis FS : forall k, fair_to ex ac (SinkOf k).

Definition stays (t : nat) (s : wstate) : Prop := w_pc s = w_pc (ex t) /\ w_old s = w_old (ex t) /\ prefix (w_q (ex t)) (w_q s).
Definition works (t m : nat) : Prop := w_proc (ex m) = PRun /\ stays t (ex m) /\ wstep (ex m) AWork = Some (ex (S m)).
Lemma stays_refl : forall t, stays t (ex t).
Proof. intro t. repeat split. apply prefix_refl. Qed.
Lemma stays_step : forall t s a s', stays t s -> wstep s a = Some s' -> step_of Worker a = false -> stays t s'.
Proof. intros t s a s' (A & B & C) E O. destruct (work_other _ _ _ E O) as (D & F & G). repeat split; [congruence|congruence|eapply prefix_trans; eauto]. Qed.
Lemma stays_until : forall t m, t <= m -> stays t (ex m) \/ exists u, t <= u /\ works t u.
Proof.
  intros t m L. induction L as [|m L [IH|IH]]; [left; apply stays_refl| |now right]. destruct (ex_succ m) as [E|(a & A & E)]; [left; now rewrite E|].
  destruct (step_of Worker a) eqn:O; [|left; eapply stays_step; eauto]. right. exists m. split; [exact L|]. destruct a; try discriminate. split; [eapply wstep_move; exact E|]. split; [exact IH|exact E].
Qed.
Lemma worker_fair : forall t m, t <= m -> stays t (ex m) -> (forall u, m <= u -> w_proc (ex u) = PRun -> stays t (ex u) -> wstep (ex u) AWork <> None) ->
  exists u, t <= u /\ (w_proc (ex u) <> PRun \/ works t u).
Proof.
  intros t m L ST EN. destruct (fair_step Worker (stays t) m FW) as (u & LU & [P|(P & SU & a & O & E)]).
  - intros u LU P SU. exists AWork. split; [reflexivity|]. now apply EN.
  - intros u a LU P SU E O. eapply stays_step; eauto.
  - exact ST.
  - exists u. split; [lia|auto].
  - exists u. split; [lia|]. right. destruct a; try discriminate. repeat split; auto; apply SU.
Qed.
Lemma worker_moves : forall t, w_proc (ex t) = PRun -> w_pc (ex t) <> WExit -> (w_pc (ex t) = WLoop -> w_q (ex t) <> []) -> exists u, t <= u /\ (w_proc (ex u) <> PRun \/ works t u).
Proof.
  intros t P NX NQ.
  assert (EASY : (forall k l q, w_pc (ex t) <> WJoin k l q) -> exists u, t <= u /\ (w_proc (ex u) <> PRun \/ works t u)).
  { intro NJ. apply worker_fair with (m := t); [lia|apply stays_refl|]. intros u LU PU (A & B & [r C]). unfold wstep. rewrite PU. unfold work. rewrite A.
    destruct (w_pc (ex t)) as [|m todo drop q|l q|k l q|i f|]; try discriminate.
    - rewrite C. destruct (w_q (ex t)) as [|x y]; [now elim NQ|discriminate].
    - destruct todo; discriminate.
    - destruct l; [destruct q|]; discriminate.
    - now elim (NJ k l q).
    - congruence. }
  destruct (w_pc (ex t)) as [|m todo drop q|l q|k l q|i f|] eqn:W; try (apply EASY; discriminate).
  assert (J : jn (ex t) k <> 0) by (unfold jn; rewrite W; cbn [wjoin]; rewrite Nat.eqb_refl; cbn [b2n]; lia).
  destruct (sink_exits k t (FS k) J) as (m & LM & [PM|XM]); [exists m; auto|]. destruct (stays_until t m LM) as [SM|(u & LU & WU)]; [|exists u; auto].
  apply worker_fair with (m := m); auto. intros u LU PU (A & B & C). unfold wstep. rewrite PU. unfold work. rewrite A, W.
  pose proof (life_ltJ _ _ _ _ (a_life _ (ex_A t)) J) as L. destruct (skle_steps _ _ k (ex_steps t m LM) L) as [LK _]. destruct (skle_steps _ _ k (ex_steps m u LU) LK) as [_ (_ & _ & X)]. rewrite (X XM). discriminate.
Qed.
(** the worker comes to the end of the first N tasks *)
Lemma catch_up : forall N t, length (w_old (ex t)) <= N -> N <= length (entered (ex t)) -> eventually ex t (fun s => length (w_old s) = N /\ (w_pc s = WLoop \/ w_pc s = WExit)).
Proof.
  intros N t L1 L2.
  assert (G : forall d e u, t <= u -> length (w_old (ex u)) <= N -> N - length (w_old (ex u)) <= d -> pw (w_pc (ex u)) <= e -> eventually ex u (fun s => length (w_old s) = N /\ (w_pc s = WLoop \/ w_pc s = WExit))).
  { induction d as [|d IHd]; (induction e as [|e IHe]; intros u LU LO LD LE; apply ev_run; intro P).
    all: assert (LEN : N <= length (entered (ex u))) by (destruct (entered_steps _ _ (ex_steps t u LU)) as [r EQ]; rewrite EQ, app_length; lia).
    all: destruct (w_pc (ex u)) as [|m todo drop q|l q|k l q|i f|] eqn:W; try (cbn in LE; unfold dw in LE; lia).
    all: try (apply ev_now; right; split; [|auto]; pose proof (exit_q _ (ex_inv u) W) as Q; unfold entered in LEN; rewrite Q, app_nil_r in LEN; lia).
    all: try (apply ev_now; right; split; [lia|auto]; fail).
    all: assert (NX : w_pc (ex u) <> WExit) by (rewrite W; discriminate).
    all: try (destruct (Nat.eq_dec (length (w_old (ex u))) N) as [EQ|NE]; [apply ev_now; right; auto|];
      destruct (worker_moves u P NX) as (v & LV & [PV|(PV & (A & B & [r C]) & E)]);
        [intros _ Q; unfold entered in LEN; rewrite Q, app_nil_r in LEN; lia|exists v; auto|];
      destruct (work_step _ _ E) as [PE|[(_ & x & Q & O)|(NW & _)]]; [exists (S v); split; [lia|auto]| |congruence];
      assert (LEQ : length (w_old (ex (S v))) = S (length (w_old (ex u)))) by (rewrite O, B, app_length; cbn [length]; lia);
      destruct (IHd (pw (w_pc (ex (S v)))) (S v)) as (z & LZ & HZ); try lia; exists z; split; [lia|exact HZ]).
    all: destruct (worker_moves u P NX) as (v & LV & [PV|(PV & (A & B & _) & E)]); [intro Q; congruence|exists v; auto|];
      destruct (work_step _ _ E) as [PE|[(NW & _)|(_ & O & LT)]]; [exists (S v); split; [lia|auto]|congruence|];
      rewrite A, W in LT; destruct (IHe (S v)) as (z & LZ & HZ); [lia|rewrite O, B; exact LO|rewrite O, B; exact LD|lia|exists z; split; [lia|exact HZ]]. }
  exact (G _ _ t (le_n t) L1 (le_n _) (le_n _)).
Qed.

(** ** delivery *)
Lemma window_noadd : forall k l, nadd k l = 0 -> window k false l = [].
Proof.
  intros k l. induction l as [|t l IH]; intro H; [reflexivity|]. unfold nadd in *. destruct t as [m|m|i u|i u|i|]; cbn [filter is_add window app] in *; auto.
  - destruct (Nat.eqb u k); [discriminate|auto].
  - destruct (Nat.eqb u k); auto.
Qed.
Lemma caught : forall t, eventually ex t (fun s => w_old s = entered (ex t) /\ (w_pc s = WLoop \/ w_pc s = WExit)).
Proof.
  intro t. assert (L : length (w_old (ex t)) <= length (entered (ex t))) by (unfold entered; rewrite app_length; lia).
  eapply ev_weak; [exact (catch_up _ t L (le_n _))|]. intros m LM P [E W]. split; [|exact W].
  destruct (prefix_len _ (w_old (ex m)) (entered (ex t)) (entered (ex m))) as [z Z]; [now exists (w_q (ex m))|now apply entered_steps, ex_steps|lia|].
  assert (LZ : length (entered (ex t)) = length (w_old (ex m)) + length z) by now rewrite Z, app_length. destruct z; [now rewrite Z, app_nil_r|cbn [length] in LZ; lia].
Qed.
Lemma delivered : forall k t, eventually ex t (fun s => prefix (window k false (entered (ex t))) (received (sk s k))).
Proof.
  intros k t. destruct (Nat.lt_ge_cases k (length (w_sk (ex t)))) as [L|L].
  - eapply ev_bind; [exact (caught t)|]. intros m LM P [E W]. destruct (skle_steps _ _ k (ex_steps t m LM) L) as [LK _].
    eapply ev_weak; [exact (sink_flush k m (FS k) LK)|]. intros u LU PU [r G]. cbn beta in *. pose proof (b_win _ (i_B _ (ex_inv m)) k) as B. rewrite E in B.
    assert (PN : pending k (w_pc (ex m)) = []) by (destruct W as [-> | ->]; reflexivity). rewrite PN, app_nil_r in B. unfold received. rewrite G, msgs_app. unfold sent in B. rewrite B. now exists (msgs r).
  - apply ev_now. right. rewrite window_noadd; [exists (received (sk (ex t) k)); reflexivity|]. rewrite (b_add _ (i_B _ (ex_inv t))). apply Nat.ltb_ge in L. now rewrite L.
Qed.
Lemma received_mono : forall k t m, t <= m -> prefix (received (sk (ex t) k)) (received (sk (ex m) k)).
Proof. intros k t m L. destruct (steps_got _ _ k (ex_steps t m L)) as [l E]. unfold received. rewrite E, msgs_app. now exists (msgs l). Qed.
Lemma delivered_all : forall t, eventually ex t (fun s => forall k, prefix (window k false (entered (ex t))) (received (sk s k))).
Proof.
  intro t. assert (G : forall K, eventually ex t (fun s => forall k, k < K -> prefix (window k false (entered (ex t))) (received (sk s k)))).
  { induction K as [|K IH]; [apply ev_now; right; intros; lia|]. eapply ev_bind; [exact IH|]. intros m LM P H. cbn beta in H.
    destruct (delivered K m) as (u & LU & [PU|HU]); [exists u; auto|]. exists u. split; [exact LU|]. right. intros k LK.
    destruct (Nat.eq_dec k K) as [->|N]; [|eapply prefix_trans; [apply H; lia|now apply received_mono]].
    eapply prefix_trans; [|exact HU]. apply prefix_window. now apply entered_steps, ex_steps. }
  eapply ev_weak; [exact (G (length (w_sk (ex t))))|]. intros m LM P H k. destruct (Nat.lt_ge_cases k (length (w_sk (ex t)))) as [L|L]; [now apply H|].
  rewrite window_noadd; [exists (received (sk (ex m) k)); reflexivity|]. rewrite (b_add _ (i_B _ (ex_inv t))). apply Nat.ltb_ge in L. now rewrite L.
Qed.

(** ** clients *)
Fixpoint cr (p : cpc) : nat :=
  match p with
  | CIdle | DDone _ => 0
  | CLog1 _ => 2 | CLog2 _ => 1 | CFat1 _ => 3 | CFat2 _ => 2 | CFatBlock => 1
  | CAddW _ => 3 | CAddR _ => 2 | CRm1 _ => 5 | CRm2 _ => 3 | CRmW _ _ => 2 | CRmR _ _ => 1 | CAllW => 2 | CAllR => 1
  | CCall _ _ => 3 | CCallR _ => 2 | CJoin _ next => S (cr next)
  | D0 _ => 4 | DClrW _ => 3 | DClrR _ => 2 | DJoin _ => 1
  end.
Lemma go_dec : forall s s' i, invA s -> wstep s (AGo i) = Some s' -> w_proc s' <> PRun \/ cr (c_pc (cl s' i)) < cr (c_pc (cl s i)).
Proof.
  intros s s' i IA E. unfold wstep in E. destruct (w_proc s); try discriminate. unfold go in E.
  assert (LL : c_pc (cl s i) <> CIdle -> i < length (w_cl s)) by apply cl_lt.
  assert (PC : forall s1 p, w_cl s1 = w_cl s -> c_pc (cl s i) <> CIdle -> c_pc (cl (set_cpc s1 i p) i) = p).
  { intros s1 p E1 N. rewrite (pc_set_cpc s s1 i p i E1 (LL N)). now rewrite Nat.eqb_refl. }
  assert (RL : forall s1 k next, w_cl s1 = w_cl s -> c_pc (cl s i) <> CIdle -> c_pc (cl (release s1 i k next) i) = next \/ c_pc (cl (release s1 i k next) i) = CJoin k next).
  { intros s1 k next E1 N. eapply rel_pc; [apply release_rel|]. rewrite E1. auto. }
  destruct (c_pc (cl s i)) eqn:C; try discriminate; try (injection E as <-).
  - destruct (w_active s); [|left; discriminate]. right. rewrite PC by (auto; discriminate). cbn. lia.
  - destruct (w_bg s); [|left; discriminate]. right. rewrite PC by (auto; discriminate). cbn. lia.
  - destruct (w_active s); [|left; discriminate]. right. rewrite PC by (auto; discriminate). cbn. lia.
  - destruct (w_bg s); [|left; discriminate]. right. rewrite PC by (auto; discriminate). cbn. lia.
  - right. destruct (RL (set_handles s (w_handles s ++ [k])) k CIdle eq_refl) as [R|R]; [discriminate| |]; rewrite R; cbn; lia.
  - right. destruct (RL s k (CRm2 k) eq_refl) as [R|R]; [discriminate| |]; rewrite R; cbn; lia.
  - right. rewrite PC by (auto; discriminate). cbn. lia.
  - right. rewrite PC by (auto; discriminate). cbn. lia.
  - right. rewrite PC by (auto; discriminate). cbn. lia.
  - right. rewrite PC; [cbn; lia| |discriminate]. apply (ps_frame s k (JCall c)).
  - right. destruct (RL s k CIdle eq_refl) as [R|R]; [discriminate| |]; rewrite R; cbn; lia.
  - destruct (k_exit (sk s k)); [|discriminate]. injection E as <-. right. rewrite PC; [cbn; lia| |discriminate]. apply (ds_frame s k).
  - right. rewrite PC by (auto; discriminate). cbn. lia.
  - right. rewrite PC by (auto; discriminate). cbn. lia.
  - destruct (w_pc s); try discriminate. injection E as <-. right. rewrite PC by (auto; discriminate). cbn. lia.
Qed.
Lemma cl_other : forall s s' i j p, w_cl s' = w_cl s -> j <> i -> c_pc (cl (set_cpc s' i p) j) = c_pc (cl s j).
Proof. intros s s' i j p E N. unfold cl, set_cpc. cbn [set_cl w_cl]. now rewrite get_upd_other, E by exact N. Qed.
Lemma cl_count : forall s i j p, j <> i -> c_pc (cl (count_log s i p) j) = c_pc (cl s j).
Proof. intros s i j p N. unfold cl, count_log. cbn [set_cl w_cl]. now rewrite get_upd_other by exact N. Qed.
Lemma cl_acquire : forall s i k p j, j <> i -> c_pc (cl (set_cpc (acquire s i k) i p) j) = c_pc (cl s j).
Proof. intros s i k p j N. unfold cl, set_cpc, acquire, set_hold. cbn [set_cl w_cl]. now rewrite !get_upd_other by exact N. Qed.
Lemma cl_release : forall s s1 i k next j, w_cl s1 = w_cl s -> j <> i -> c_pc (cl (release s1 i k next) j) = c_pc (cl s j).
Proof.
  intros s s1 i k next j E N. unfold release. assert (H : cl (set_hold s1 i (remove1 k (c_hold (cl s1 i)))) j = cl s j) by (unfold cl, set_hold; cbn [set_cl w_cl]; now rewrite get_upd_other, E by exact N).
  destruct (Nat.eqb _ 0); [|rewrite (cl_other (set_hold s1 i (remove1 k (c_hold (cl s1 i))))) by auto; now rewrite H].
  rewrite (cl_other (set_hold s1 i (remove1 k (c_hold (cl s1 i))))); [now rewrite H| |exact N]. apply (ps_frame (set_hold s1 i (remove1 k (c_hold (cl s1 i))))).
Qed.
Definition caller (a : waction) : option nat :=
  match a with ALog i | AFatal i | AAdd i | ARemove i _ | ARemoveAll i | ACall i _ | ALock i _ | ARelease i _ | ADestroy i => Some i | _ => None end.
Lemma pc_frame0 : forall s a s' i, wstep s a = Some s' -> step_of (Client i) a = false -> caller a <> Some i ->
  c_pc (cl s' i) = c_pc (cl s i) \/ (waiting (c_pc (cl s i)) = true /\ c_pc (cl s' i) = signal (c_pc (cl s i))).
Proof.
  intros s a s' i E O N. assert (ID : forall j, caller a = Some j -> i <> j) by (intros j H ->; contradiction).
  scase E; try (left; reflexivity); cbn [caller] in ID; specialize (fun j H => ID j H).
  all: try (specialize (ID _ eq_refl)).
  all: try (cbn [step_of] in O; apply Nat.eqb_neq in O; apply not_eq_sym in O).
  all: try (left; apply cl_count; assumption).
  all: try (left; apply cl_other; [reflexivity|assumption]).
  all: try (left; apply cl_release; [reflexivity|assumption]).
  all: try (left; unfold cl, set_cpc, acquire, set_hold, count_log; cbn [set_cl set_sk set_prom set_proc push w_cl]; rewrite ?get_upd_other by assumption; reflexivity).
  - left. unfold cl. cbn [set_pc w_cl]. destruct (ps_frame s n0 (JMsg m)) as (A1 & A2 & A3 & A4 & A5 & A6 & A7 & _). now rewrite A7.
  - left. unfold cl. cbn [set_pc w_cl]. destruct (ps_frame (set_pc s (WDrop l0 q)) n0 JDone) as (A1 & A2 & A3 & A4 & A5 & A6 & A7 & _). now rewrite A7.
  - left. unfold cl. cbn [set_pc w_cl]. destruct (ds_frame s k) as (A1 & A2 & A3 & A4 & A5 & A6 & A7 & _). now rewrite A7.
  - change (c_pc (cl (set_cpc s i0 (signal (c_pc (cl s i0)))) i) = c_pc (cl s i) \/ waiting (c_pc (cl s i)) = true /\ c_pc (cl (set_cpc s i0 (signal (c_pc (cl s i0)))) i) = signal (c_pc (cl s i))).
    destruct (Nat.eq_dec i i0) as [<-|NE]; [|left; now apply cl_other]. destruct (Nat.lt_ge_cases i (length (w_cl s))) as [L|L].
    + rewrite (pc_set_cpc s s i _ i eq_refl L), Nat.eqb_refl. destruct (c_pc (cl s i)); auto.
    + left. unfold cl, set_cpc. cbn [set_cl w_cl]. now rewrite upd_out.
  - left. apply cl_other; [|exact O]. apply (ps_frame s k (JCall c)).
  - left. apply cl_other; [|exact O]. apply (ds_frame s k).
Qed.
Lemma not_caller : forall s a s' i, wstep s a = Some s' -> c_pc (cl s i) <> CIdle -> caller a <> Some i.
Proof.
  intros s a s' i E N H. assert (ID : idle s i = false) by (destruct (idle s i) eqn:ID; [|reflexivity]; apply idle_spec in ID as [_ ID]; contradiction).
  unfold wstep in E. destruct (w_proc s); try discriminate. destruct a; try discriminate; injection H as ->; rewrite ID in E; discriminate.
Qed.
Lemma pc_frame : forall s a s' i, wstep s a = Some s' -> step_of (Client i) a = false -> c_pc (cl s i) <> CIdle ->
  c_pc (cl s' i) = c_pc (cl s i) \/ (waiting (c_pc (cl s i)) = true /\ c_pc (cl s' i) = signal (c_pc (cl s i))).
Proof. intros s a s' i E O N. eapply pc_frame0; eauto. eapply not_caller; eauto. Qed.
Lemma tok_other : forall i j k l, i <> j -> ntok i (l ++ [TAdd j k]) = ntok i l /\ ntok i (l ++ [TRemove j k]) = ntok i l /\ ntok i (l ++ [TClear j]) = ntok i l.
Proof. intros i j k l N. apply not_eq_sym, Nat.eqb_neq in N. rewrite !ntok_app, !ntok_cons. cbn [tok]. rewrite N. unfold ntok at 2 4 6. cbn. repeat split; lia. Qed.
Lemma ntok_frame : forall s a s' i, wstep s a = Some s' -> step_of (Client i) a = false -> c_pc (cl s i) <> CIdle -> ntok i (entered s') = ntok i (entered s).
Proof.
  intros s a s' i E O N. assert (ID : forall j, idle s j = true -> i <> j) by (intros j H ->; apply idle_spec in H as [_ H]; contradiction).
  scase E; try reflexivity.
  all: repeat first [apply ID in C|apply andb_prop in C as [C _]].
  all: try (cbn [step_of] in O; apply Nat.eqb_neq in O; apply not_eq_sym in O).
  all: sunf; unfold entered; cbn [w_old w_q set_pc set_sinks set_err set_active set_proc set_cpc set_cl set_hold set_sk set_sinkub set_prom set_handles set_bg push pop count_log acquire]; try reflexivity.
  all: rewrite ?app_assoc; try (match goal with H : ?i <> ?j |- context [TAdd ?j ?k] => exact (proj1 (tok_other i j k _ H)) | H : ?i <> ?j |- context [TRemove ?j ?k] => exact (proj1 (proj2 (tok_other i j k _ H))) | H : ?i <> ?j |- context [TClear ?j] => exact (proj2 (proj2 (tok_other i j 0 _ H))) end).
  all: try (rewrite ntok_app, ntok_cons; cbn [tok b2n]; unfold ntok at 2; cbn; lia).
  all: rewrite C0, <- app_assoc; reflexivity.
Qed.

Definition held (i t : nat) (s : wstate) : Prop := c_pc (cl s i) = c_pc (cl (ex t) i) /\ ntok i (entered s) = ntok i (entered (ex t)).
Definition less (i t : nat) (s : wstate) : Prop := cr (c_pc (cl s i)) < cr (c_pc (cl (ex t) i)).
Lemma signal_less : forall p, waiting p = true -> cr (signal p) < cr p.
Proof. intros [] H; try discriminate; cbn; lia. Qed.
Lemma held_until : forall i t m, c_pc (cl (ex t) i) <> CIdle -> t <= m -> held i t (ex m) \/ eventually ex t (less i t).
Proof.
  intros i t m N L. induction L as [|m L [IH|IH]]; [left; split; reflexivity| |now right]. destruct (ex_succ m) as [E|(a & A & E)]; [left; now rewrite E|]. destruct IH as [P T].
  assert (N1 : c_pc (cl (ex m) i) <> CIdle) by congruence. destruct (step_of (Client i) a) eqn:O.
  - right. destruct a; try discriminate. apply Nat.eqb_eq in O as ->. exists (S m). split; [lia|]. destruct (go_dec _ _ _ (ex_A m) E) as [D|D]; [now left|right]. unfold less. now rewrite <- P.
  - destruct (pc_frame _ _ _ _ E O N1) as [F|[W F]].
    + left. split; [congruence|]. now rewrite (ntok_frame _ _ _ _ E O N1).
    + right. exists (S m). split; [lia|]. right. unfold less. rewrite F, <- P. now apply signal_less.
Qed.
Lemma client_fair : forall i t m (G : wstate -> Prop), fair_to ex ac (Client i) -> t <= m -> c_pc (cl (ex t) i) <> CIdle -> waiting (c_pc (cl (ex t) i)) = false -> c_pc (cl (ex m) i) = c_pc (cl (ex t) i) -> G (ex m) ->
  (forall u a, G (ex u) -> wstep (ex u) a = Some (ex (S u)) -> G (ex (S u))) ->
  (forall u, w_proc (ex u) = PRun -> c_pc (cl (ex u) i) = c_pc (cl (ex t) i) -> G (ex u) -> wstep (ex u) (AGo i) <> None) ->
  exists u, t <= u /\ (w_proc (ex u) <> PRun \/ (c_pc (cl (ex u) i) = c_pc (cl (ex t) i) /\ wstep (ex u) (AGo i) = Some (ex (S u)))).
Proof.
  intros i t m G F L N NW P GM GS EN. destruct (fair_step (Client i) (fun s => c_pc (cl s i) = c_pc (cl (ex t) i) /\ G s) m F) as (u & LU & [PU|(PU & [CU GU] & a & O & E)]).
  - intros u LU PU [CU GU]. exists (AGo i). split; [apply Nat.eqb_refl|]. now apply EN.
  - intros u a LU PU [CU GU] E O. split; [|eapply GS; eauto]. destruct (pc_frame _ _ _ _ E O) as [X|[X _]]; congruence.
  - auto.
  - exists u. split; [lia|auto].
  - exists u. split; [lia|]. right. destruct a; try discriminate. apply Nat.eqb_eq in O as ->. auto.
Qed.
Lemma client_less : forall i t m (G : wstate -> Prop), fair_to ex ac (Client i) -> t <= m -> c_pc (cl (ex t) i) <> CIdle -> waiting (c_pc (cl (ex t) i)) = false -> c_pc (cl (ex m) i) = c_pc (cl (ex t) i) -> G (ex m) ->
  (forall u a, G (ex u) -> wstep (ex u) a = Some (ex (S u)) -> G (ex (S u))) ->
  (forall u, w_proc (ex u) = PRun -> c_pc (cl (ex u) i) = c_pc (cl (ex t) i) -> G (ex u) -> wstep (ex u) (AGo i) <> None) ->
  eventually ex t (less i t).
Proof.
  intros i t m G F L N NW P GM GS EN. destruct (client_fair i t m G F L N NW P GM GS EN) as (u & LU & [PU|[CU E]]); [exists u; auto|].
  exists (S u). split; [lia|]. destruct (go_dec _ _ _ (ex_A u) E) as [D|D]; [now left|right]. unfold less. now rewrite <- CU.
Qed.
Lemma no_fatal : forall s m, inv s -> w_pc s = WLoop \/ w_pc s = WExit -> ~ In (TFatal m) (w_old s).
Proof.
  intros s m [IA IB IP IT ID] W H. destruct IP as [[_ QU]|(pre & t & O & QU & B)]; [exact (QU _ H)|].
  rewrite O in H. apply in_app_iff in H as [H|[H|[]]]; [exact (QU _ H)|]. rewrite H in B. cbn [busy] in B. destruct W as [W|W]; rewrite W in B; destruct B as [(a & b & B & _)|[(a & B & _)|(a & b & B & _)]]; discriminate.
Qed.
Lemma no_done : forall s, inv s -> w_pc s = WLoop -> ~ In TDone (w_old s).
Proof.
  intros s [IA IB IP IT ID] W H. destruct IP as [[_ QU]|(pre & t & O & QU & B)]; [exact (QU _ H)|].
  rewrite W in B. destruct t; cbn [busy] in B; repeat (match goal with H : _ \/ _ |- _ => destruct H | H : exists _, _ |- _ => destruct H | H : _ /\ _ |- _ => destruct H end); discriminate.
Qed.
Lemma exit_stays : forall s a s', w_pc s = WExit -> wstep s a = Some s' -> w_pc s' = WExit.
Proof.
  intros s a s' W E. destruct (step_of Worker a) eqn:O; [|destruct (work_other _ _ _ E O) as [A _]; congruence].
  destruct a; try discriminate. unfold wstep in E. destruct (w_proc s); try discriminate. unfold work in E. rewrite W in E. discriminate.
Qed.
(** a process in which a fatal event has been handed over ends *)
Lemma fatal_ends : forall t m, In (TFatal m) (entered (ex t)) -> eventually ex t (fun _ => False).
Proof. intros t m H. eapply ev_weak; [exact (caught t)|]. intros u LU PU [E W]. cbn beta in *. rewrite <- E in H. exact (no_fatal _ m (ex_inv u) W H). Qed.
(** a client in the middle of a call comes closer to its end *)
Lemma client_goes : forall i t, fair_to ex ac (Client i) -> cr (c_pc (cl (ex t) i)) <> 0 -> eventually ex t (less i t).
Proof.
  intros i t F NZ. assert (N : c_pc (cl (ex t) i) <> CIdle) by (intro E; rewrite E in NZ; now apply NZ).
  assert (WAIT : waiting (c_pc (cl (ex t) i)) = true -> eventually ex t (less i t)).
  { intro W. destruct (caught t) as (m & LM & [PM|[E WP]]); [exists m; auto|]. destruct (held_until i t m N LM) as [[P T]|H]; [|exact H]. exfalso.
    pose proof (t_cnt _ (i_T _ (ex_inv m)) i) as C. assert (WT : wtok i (w_pc (ex m)) = false) by (destruct WP as [-> | ->]; reflexivity). rewrite WT, P, W in C. unfold entered at 1 in T. rewrite E, ntok_app in T. cbn [b2n] in C. lia. }
  assert (EASY : waiting (c_pc (cl (ex t) i)) = false -> (forall s, w_proc s = PRun -> c_pc (cl s i) = c_pc (cl (ex t) i) -> wstep s (AGo i) <> None) -> eventually ex t (less i t)).
  { intros W H. apply client_less with (m := t) (G := fun _ => True); auto. }
  destruct (c_pc (cl (ex t) i)) as [|m|m|m|m| |k|k|k|k|k h|k h| | |k c|k|k next|h|h|h|h|h] eqn:C;
    try (now apply WAIT); try (apply EASY; [reflexivity|]; intros s P E; unfold wstep; rewrite P; unfold go; rewrite E; discriminate); try (now elim NZ).
  - destruct (d_fat _ (i_D _ (ex_inv t)) i C) as [m H]. eapply ev_weak; [exact (fatal_ends t m H)|]. intros u _ _ [].
  - assert (J : jn (ex t) k <> 0).
    { unfold jn. assert (L : i < length (w_cl (ex t))) by (apply cl_lt; rewrite C; discriminate). pose proof (count_get new_client (cjoin k) (w_cl (ex t)) i L) as Z. change (get new_client (w_cl (ex t)) i) with (cl (ex t) i) in Z. unfold cjoin at 1 in Z. rewrite C, Nat.eqb_refl in Z. specialize (Z eq_refl). lia. }
    destruct (sink_exits k t (FS k) J) as (m & LM & [PM|XM]); [exists m; auto|]. assert (N1 : c_pc (cl (ex t) i) <> CIdle) by (rewrite C; discriminate).
    destruct (held_until i t m N1 LM) as [[P _]|H]; [|exact H]. pose proof (life_ltJ _ _ _ _ (a_life _ (ex_A t)) J) as L. destruct (skle_steps _ _ k (ex_steps t m LM) L) as [LK _].
    apply client_less with (m := m) (G := fun s => k < length (w_sk s) /\ k_exit (sk s k) = true); auto.
    + now rewrite C.
    + intros u a [LU XU] E. split; [pose proof (sk_len _ _ _ E); lia|]. destruct (skle_step _ _ _ k E LU) as (_ & _ & X). auto.
    + intros u PU CU [LU XU]. unfold wstep. rewrite PU. unfold go. rewrite CU, C, XU. discriminate.
  - destruct (caught t) as (m & LM & [PM|[E WP]]); [exists m; auto|]. assert (N1 : c_pc (cl (ex t) i) <> CIdle) by (rewrite C; discriminate).
    destruct (held_until i t m N1 LM) as [[P _]|H]; [|exact H]. assert (WX : w_pc (ex m) = WExit).
    { destruct WP as [WP|WP]; [|exact WP]. exfalso. apply (no_done _ (ex_inv m) WP). rewrite E. pose proof (i_D _ (ex_inv t)) as ID.
      assert (BGV : w_bg (ex t) = false) by (destruct (w_bg (ex t)) eqn:BGV; [|reflexivity]; destruct (d_bg1 _ ID BGV) as [_ Z]; specialize (Z i); rewrite C in Z; discriminate).
      destruct (d_bg0 _ ID BGV) as [(l & E1 & _) _]. rewrite E1. apply in_or_app. right. now left. }
    apply client_less with (m := m) (G := fun s => w_pc s = WExit); auto.
    + now rewrite C.
    + intros u a WU EU. eapply exit_stays; eauto.
    + intros u PU CU WU. unfold wstep. rewrite PU. unfold go. rewrite CU, C, WU. discriminate.
Qed.
Lemma cr_zero : forall p, cr p = 0 -> p = CIdle \/ exists h, p = DDone h.
Proof. intros [] H; try discriminate; eauto. Qed.
(** its call returns *)
Lemma client_returns : forall i t, fair_to ex ac (Client i) -> eventually ex t (fun s => c_pc (cl s i) = CIdle \/ exists h, c_pc (cl s i) = DDone h).
Proof.
  intros i t F. assert (G : forall d u, t <= u -> cr (c_pc (cl (ex u) i)) <= d -> eventually ex u (fun s => c_pc (cl s i) = CIdle \/ exists h, c_pc (cl s i) = DDone h)).
  { induction d as [|d IH]; intros u LU LD; [apply ev_now; right; apply cr_zero; lia|]. destruct (Nat.eq_dec (cr (c_pc (cl (ex u) i))) 0) as [Z|Z]; [apply ev_now; right; now apply cr_zero|].
    eapply ev_bind; [exact (client_goes i u F Z)|]. intros m LM PM H. apply IH; [lia|]. unfold less in H. lia. }
  exact (G _ t (le_n t) (le_n _)).
Qed.
(** a function called through a handle is called, and its result arrives *)
Lemma call_lands : forall i t k c, fair_to ex ac (Client i) -> c_pc (cl (ex t) i) = CCall k c -> eventually ex t (fun s => k < length (w_sk s) /\ In (JCall c) (all (sk s k))).
Proof.
  intros i t k c F C. destruct (client_fair i t t (fun _ => True) F) as (u & LU & [PU|[CU E]]); auto; try (rewrite C; first [discriminate|reflexivity]).
  - intros u P CU _. unfold wstep. rewrite P. unfold go. rewrite CU, C. discriminate.
  - exists u. auto.
  - exists (S u). split; [lia|]. right. rewrite C in CU. unfold wstep in E. destruct (w_proc (ex u)); try discriminate. unfold go in E. rewrite CU in E. injection E as E.
    assert (R : refs (ex u) k <> 0). { apply refs_hold with (i := i); [apply cl_lt; rewrite CU; discriminate|]. pose proof (a_cl _ (ex_A u) i) as H. unfold pcok in H. now rewrite CU in H. }
    pose proof (life_lt _ _ _ _ (a_life _ (ex_A u)) R) as L. destruct (invA_push_sink (ex u) k (JCall c) (ex_A u) R) as [_ H]; [discriminate|]. rewrite <- E. cbn [set_cpc set_cl w_sk].
    split; [rewrite len_push_sink; exact L|]. unfold sk. cbn [set_cpc set_cl w_sk]. rewrite H. cbn [set_sk w_sk]. rewrite sk_upd_same by exact L. rewrite all_push. apply in_or_app. right. now left.
Qed.
Lemma future_ready : forall t k c p, fair_to ex ac (SinkOf k) -> (forall i, fair_to ex ac (Client i)) -> nth_error (w_prom (ex t)) c = Some (k, p) -> p <> BadWeak ->
  eventually ex t (fun s => exists o, nth_error (w_prom s) c = Some (k, Ready o)).
Proof.
  intros t k c p FK FC H NB. assert (IE : forall u, invE (ex u)) by (intro u; eapply reach_E, ex_reach).
  assert (G : eventually ex t (fun s => k < length (w_sk s) /\ In (JCall c) (all (sk s k)))).
  { pose proof (e_cnt _ (IE t) k c) as N. unfold owed in N. rewrite H, Nat.eqb_refl in N. destruct (Nat.eq_dec (count (cc k c) (w_cl (ex t))) 0) as [Z|Z].
    - assert (NZ : ncall c (all (sk (ex t) k)) <> 0) by (destruct p; cbn [b2n] in N; try lia; congruence). apply ncall_In in NZ. apply ev_now. right. split; [|exact NZ].
      apply (get_in no_sink). change (get no_sink (w_sk (ex t)) k) with (sk (ex t) k). intro X. rewrite X in NZ. destruct NZ.
    - destruct (count_pos new_client (cc k c) (w_cl (ex t)) ltac:(lia)) as (i & L & CI). change (get new_client (w_cl (ex t)) i) with (cl (ex t) i) in CI. unfold cc in CI.
      destruct (c_pc (cl (ex t) i)) eqn:C; try discriminate. apply andb_prop in CI as [A B]. apply Nat.eqb_eq in A as ->. apply Nat.eqb_eq in B as ->. exact (call_lands i t k c (FC i) C). }
  eapply ev_bind; [exact G|]. intros m LM PM [L I]. eapply ev_weak; [exact (sink_flush k m FK L)|]. intros u LU PU [r E]. cbn beta in *. apply (e_got _ (IE u)). rewrite E. apply in_or_app. now left.
Qed.
End fair.

(** ** a fair scheduler, under which the clients log for ever *)
From Coq Require Import Cantor.
Definition thread_of (x : nat) : thread := match Cantor.of_nat x with (0, _) => Worker | (1, k) => SinkOf k | (_, i) => Client i end.
Definition turn (t : nat) : thread := thread_of (fst (Cantor.of_nat t)).
Lemma turn_again : forall th t, exists m, t <= m /\ turn m = th.
Proof.
  intros th t. assert (X : exists x, thread_of x = th).
  { destruct th as [|k|i]; [exists (Cantor.to_nat (0, 0))|exists (Cantor.to_nat (1, k))|exists (Cantor.to_nat (2, i))]; unfold thread_of; now rewrite Cantor.cancel_of_to. }
  destruct X as [x X]. exists (Cantor.to_nat (x, t)). split; [pose proof (Cantor.to_nat_non_decreasing x t); lia|]. unfold turn. now rewrite Cantor.cancel_of_to.
Qed.
(** what the thread whose turn it is does *)
Definition choice (s : wstate) (th : thread) : waction :=
  match th with
  | Worker => AWork
  | SinkOf k => match k_run (sk s k) with Some _ => ASinkEnd k (Val 0) | None => if k_done (sk s k) then ASinkExit k else ASinkPop k end
  | Client i => if idle s i then ALog i else AGo i
  end.
Definition next (s : wstate) (t : nat) : option (waction * wstate) := match wstep s (choice s (turn t)) with Some s' => Some (choice s (turn t), s') | None => None end.
Fixpoint rex (s : wstate) (t : nat) : wstate := match t with 0 => s | S t => match next (rex s t) t with Some (_, s') => s' | None => rex s t end end.
Definition rac (s : wstate) (t : nat) : option waction := match next (rex s t) t with Some (a, _) => Some a | None => None end.
Lemma rex_next : forall s t, match rac s t with Some a => a = choice (rex s t) (turn t) /\ wstep (rex s t) a = Some (rex s (S t)) | None => wstep (rex s t) (choice (rex s t) (turn t)) = None /\ rex s (S t) = rex s t end.
Proof. intros s t. unfold rac. cbn [rex]. unfold next. destruct (wstep (rex s t) (choice (rex s t) (turn t))) as [s'|] eqn:E; auto. Qed.
Lemma rex_ex : forall n s, wreach n s -> execution n (rex s) (rac s).
Proof. intros n s R. constructor; [exact R|]. intro t. pose proof (rex_next s t) as H. destruct (rac s t); apply H. Qed.
Lemma choice_best : forall n s th, wreach n s -> wstep s (choice s th) = None \/ step_of th (choice s th) = false -> forall a, step_of th a = true -> wstep s a = None.
Proof.
  intros n s th R H a O. destruct (wstep s a) as [s'|] eqn:E; [exfalso|reflexivity]. destruct th as [|k|i]; cbn [choice] in H.
  - destruct a; try discriminate. destruct H; [congruence|discriminate].
  - rewrite own_step in O. destruct (wstep_move _ _ _ E) as [P _]. destruct (sk_own _ _ _ _ E O) as [L [j q RU Q D|j RU|D X]].
    + rewrite RU, D in H. destruct H as [H|H]; [|cbn in H; rewrite Nat.eqb_refl in H; discriminate]. unfold wstep in H. rewrite P in H. unfold sink_pop in H. rewrite RU, Q, D in H. discriminate.
    + rewrite RU in H. destruct H as [H|H]; [|cbn in H; rewrite Nat.eqb_refl in H; discriminate]. unfold wstep in H. rewrite P in H. unfold sink_end in H. rewrite RU in H. discriminate.
    + destruct (exit_flushed _ _ (reach_A n s R) D) as [_ RU]. rewrite RU, D in H. destruct H as [H|H]; [|cbn in H; rewrite Nat.eqb_refl in H; discriminate]. unfold wstep in H. rewrite P in H. unfold sink_exit in H. rewrite D, X in H. discriminate.
  - destruct a; try discriminate. apply Nat.eqb_eq in O as ->. destruct (idle s i) eqn:ID.
    + apply idle_spec in ID as [_ ID]. unfold wstep in E. destruct (w_proc s); try discriminate. unfold go in E. rewrite ID in E. discriminate.
    + destruct H as [H|H]; [congruence|]. cbn in H. rewrite Nat.eqb_refl in H. discriminate.
Qed.
Lemma rex_fair : forall n s, wreach n s -> forall th, fair_to (rex s) (rac s) th.
Proof.
  intros n s R th t. destruct (turn_again th t) as (m & L & T). exists m. split; [exact L|]. pose proof (rex_next s m) as H. rewrite T in H.
  assert (RM : wreach n (rex s m)) by (eapply ex_reach, rex_ex; exact R).
  destruct (rac s m) as [a|] eqn:A.
  - destruct H as [-> E]. destruct (step_of th (choice (rex s m) th)) eqn:O; [left; eauto|right]. apply (choice_best n (rex s m) th RM). now right.
  - right. apply (choice_best n (rex s m) th RM). left. apply H.
Qed.
(** if nothing fatal has happened, and nobody has shut the logger down *)
Definition calmly (n : nat) (s : wstate) : Prop := w_proc s = PRun /\ exists l, wrun (w_init n) l = Some s /\ Forall calm_action l.
Lemma term_only : forall s a s', wstep s a = Some s' -> w_proc s' = PTerm -> exists k e, a = ASinkEnd k (Exc e).
Proof. intros s a s' E. scase E; try (sunf; cbn; intro; congruence); eauto. Qed.
Lemma wrun_snoc : forall l s s1 a s2, wrun s l = Some s1 -> wstep s1 a = Some s2 -> wrun s (l ++ [a]) = Some s2.
Proof. induction l as [|b l IH]; intros s s1 a s2 H E; cbn in *; [injection H as ->; now rewrite E|]. destruct (wstep s b); [eauto|discriminate]. Qed.
Lemma choice_calm : forall s th, calm_action (choice s th) /\ forall k e, choice s th <> ASinkEnd k (Exc e).
Proof. intros s [|k|i]; cbn [choice]; [|destruct (k_run (sk s k)); [|destruct (k_done (sk s k))]|destruct (idle s i)]; split; cbn; auto; discriminate. Qed.
Lemma rex_calm : forall n s t, calmly n s -> calmly n (rex s t).
Proof.
  intros n s t H. induction t as [|t IH]; [exact H|]. pose proof (rex_next s t) as X. destruct (rac s t) as [a|]; [|destruct X as [_ X]; now rewrite X]. destruct X as [-> E]. destruct (choice_calm (rex s t) (turn t)) as [CA NE].
  destruct IH as [P (l & W & F)]. pose proof (wrun_snoc _ _ _ _ _ W E) as W1. assert (F1 : Forall calm_action (l ++ [choice (rex s t) (turn t)])) by (apply Forall_app; split; auto).
  split; [|eauto]. destruct (calm_run _ _ _ W1 F1) as [Z|Z]; [exact Z|]. destruct (term_only _ _ _ E Z) as (k & e & Y). now elim (NE k e).
Qed.
Lemma calls_step : forall s a s' i, wstep s a = Some s' -> c_n (cl s i) <= c_n (cl s' i).
Proof.
  intros s a s' i E. assert (U : forall l j c, c_n (get new_client l j) <= c_n c -> c_n (get new_client l i) <= c_n (get new_client (upd l j c) i)).
  { intros l j c H. destruct (Nat.eq_dec i j) as [->|NE]; [|now rewrite get_upd_other]. destruct (Nat.lt_ge_cases j (length l)) as [L|L]; [now rewrite get_upd_same|now rewrite upd_out]. }
  assert (U2 : forall s1 p, c_n (cl s1 i) <= c_n (cl (set_cpc s1 p CIdle) i) ) by (intros; apply U; reflexivity).
  assert (G : forall s1 j p, c_n (cl s1 i) <= c_n (cl (set_cpc s1 j p) i)) by (intros; apply U; reflexivity).
  assert (G2 : forall s1 j h, c_n (cl s1 i) <= c_n (cl (set_hold s1 j h) i)) by (intros; apply U; reflexivity).
  assert (GP : forall s1 k j, cl (push_sink s1 k j) i = cl s1 i) by (intros; unfold cl, push_sink; now destruct (k_dead _)).
  assert (GR : forall s1 j k p, c_n (cl s1 i) <= c_n (cl (release s1 j k p) i)).
  { intros. unfold release. destruct (Nat.eqb _ 0); (eapply Nat.le_trans; [|apply G]); rewrite ?GP; apply G2. }
  scase E; try (apply Nat.le_refl); try (exact (G _ _ _)); try (exact (GR _ _ _ _)); try (apply (G2 s)); try (apply U; cbn; lia).
  all: try (unfold cl; cbn [set_pc w_cl]; first [rewrite (proj1 (proj2 (proj2 (proj2 (proj2 (proj2 (proj2 (ps_frame _ _ _)))))))) | rewrite (proj1 (proj2 (proj2 (proj2 (proj2 (proj2 (proj2 (ds_frame _ _))))))))]; reflexivity).
  all: try (eapply Nat.le_trans; [|apply G]; try (exact (G2 _ _ _)); unfold cl; first [rewrite (proj1 (proj2 (proj2 (proj2 (proj2 (proj2 (proj2 (ps_frame _ _ _)))))))) | rewrite (proj1 (proj2 (proj2 (proj2 (proj2 (proj2 (proj2 (ds_frame _ _))))))))]; reflexivity).
  - exact (GR (set_handles s (w_handles s ++ [k])) i0 k CIdle).
  - apply (U (w_cl s) i0). cbn. unfold cl. lia.
  - apply (U (w_cl s) i0). cbn. unfold cl. lia.
  - apply (U (w_cl s) i0). cbn. unfold cl. lia.
Qed.
Lemma calm_inv : forall n l s, wrun (w_init n) l = Some s -> Forall calm_action l -> invC s.
Proof.
  intros n l s E F. assert (J : wreach n s /\ invC s); [|apply J].
  revert E. apply (wrun_ind (fun s => wreach n s /\ invC s) calm_action l (w_init n) s); [|intros s0 a s1 [R I] N E; split; [eapply ws_step; eauto|eapply calm_step; eauto]|exact F].
  split; [constructor|]. split; cbn; auto. intros i. unfold get. destruct (Nat.lt_ge_cases i n) as [L|L]; [|rewrite nth_overflow by (rewrite repeat_length; lia); reflexivity]. now rewrite nth_repeat.
Qed.
Lemma clients_step : forall s a s', wstep s a = Some s' -> length (w_cl s') = length (w_cl s).
Proof. intros s a s' E. scase E; sunf; cbn; rewrite ?upd_length; reflexivity. Qed.
Lemma choice_caller : forall s th i, caller (choice s th) = Some i -> choice s th = ALog i.
Proof. intros s [|k|j] i; cbn [choice]; [|destruct (k_run (sk s k)); [|destruct (k_done (sk s k))]|destruct (idle s j)]; cbn; intro H; congruence. Qed.
Lemma log_counts : forall s i s', wstep s (ALog i) = Some s' -> c_n (cl s' i) = S (c_n (cl s i)).
Proof.
  intros s i s' E. unfold wstep in E. destruct (w_proc s); try discriminate. destruct (idle s i) eqn:ID; [|discriminate]. apply idle_spec in ID as [L _]. injection E as <-.
  unfold count_log. rewrite cl_set, Nat.eqb_refl by exact L. reflexivity.
Qed.
Lemma calls_steps : forall n s i t m, wreach n s -> t <= m -> c_n (cl (rex s t) i) <= c_n (cl (rex s m) i).
Proof.
  intros n s i t m R L. induction L as [|m L IH]; [lia|]. destruct (ex_succ _ _ _ (rex_ex n s R) m) as [E|(a & _ & E)]; [now rewrite E|]. eapply Nat.le_trans; [exact IH|eapply calls_step; eauto].
Qed.
Lemma clients_rex : forall n s t, wreach n s -> length (w_cl (rex s t)) = n.
Proof.
  intros n s t R. assert (H : forall s0 s1, wsteps s0 s1 -> length (w_cl s1) = length (w_cl s0)).
  { intros s0 s1 W. induction W as [s0|s0 s1 a s2 W IH E]; [reflexivity|]. rewrite (clients_step _ _ _ E). exact IH. }
  rewrite (H (w_init n) (rex s t)); [apply repeat_length|]. eapply ex_reach, rex_ex. exact R.
Qed.
Lemma logs_again : forall n s i t, wreach n s -> calmly n s -> i < n -> exists m, t <= m /\ c_n (cl (rex s t) i) < c_n (cl (rex s m) i).
Proof.
  intros n s i t R CA L. pose proof (rex_ex n s R) as EX. pose proof (rex_fair n s R) as F.
  destruct (client_returns n (rex s) (rac s) EX (F Worker) (fun k => F (SinkOf k)) i t (F (Client i))) as (m & LM & H).
  destruct (rex_calm n s m CA) as [P (l & W & FA)]. destruct H as [H|H]; [congruence|].
  assert (ID : c_pc (cl (rex s m) i) = CIdle).
  { destruct H as [H|[h H]]; [exact H|]. pose proof (c_cl _ (calm_inv _ _ _ W FA) i) as Z. change (get new_client (w_cl (rex s m)) i) with (cl (rex s m) i) in Z. rewrite H in Z. discriminate. }
  destruct (turn_again (Client i) m) as (u & LU & T).
  assert (G : c_pc (cl (rex s u) i) = CIdle \/ exists v, m <= v /\ c_n (cl (rex s m) i) < c_n (cl (rex s v) i)).
  { clear T. induction LU as [|u LU [IH|IH]]; [now left| |now right]. pose proof (rex_next s u) as X. destruct (rac s u) as [a|]; [|left; destruct X as [_ X]; now rewrite X]. destruct X as [-> E].
    set (a := choice (rex s u) (turn u)) in *. assert (D : caller a = Some i \/ caller a <> Some i) by (destruct (caller a) as [j|]; [destruct (Nat.eq_dec j i) as [->|]; [now left|right; congruence]|right; discriminate]).
    destruct D as [D|D].
    - right. exists (S u). split; [lia|]. apply choice_caller in D. fold a in D. rewrite D in E. rewrite (log_counts _ _ _ E). pose proof (calls_steps n s i m u R LU). lia.
    - left. assert (O : step_of (Client i) a = false). { destruct (step_of (Client i) a) eqn:O; [|reflexivity]. destruct a; try discriminate. apply Nat.eqb_eq in O as ->. unfold wstep in E. destruct (w_proc (rex s u)); try discriminate. unfold go in E. rewrite IH in E. discriminate. }
      destruct (pc_frame0 _ _ _ _ E O D) as [Z|[Z _]]; [congruence|]. rewrite IH in Z. discriminate. }
  pose proof (calls_steps n s i t m R LM) as M1. destruct G as [G|(v & LV & G)]; [|exists v; split; lia].
  exists (S u). split; [lia|]. pose proof (rex_next s u) as X. rewrite T in X. cbn [choice] in X.
  assert (IU : idle (rex s u) i = true) by (unfold idle; rewrite (clients_rex n s u R), G; apply Nat.ltb_lt in L; now rewrite L). rewrite IU in X. destruct (rex_calm n s u CA) as [PU _].
  destruct (rac s u) as [a|]; [|destruct X as [X _]; unfold wstep in X; rewrite PU, IU in X; discriminate]. destruct X as [-> E]. rewrite (log_counts _ _ _ E). pose proof (calls_steps n s i m u R LU). lia.
Qed.
Lemma logs_forever : forall n s i N, wreach n s -> calmly n s -> i < n -> exists t, N <= c_n (cl (rex s t) i).
Proof.
  intros n s i N R CA L. induction N as [|N [t IH]]; [exists 0; lia|]. destruct (logs_again n s i t R CA L) as (m & _ & H). exists m. lia.
Qed.
