(** What the worker is doing is determined by the task it took last. *)
From Coq Require Import List Arith Bool Lia.
From Verif.Base Require Import Threads.
From Verif.Model Require Import Worker.
From Verif.Spec Require Import WorkerSpec.
From Verif.Proofs Require Import WorkerLife WorkerHist.
Import ListNotations.

Definition regd (pre : list task) (l : list nat) : Prop := forall k, In k l -> registered k false pre = true.
Definition only (k : nat) (l : list nat) : Prop := forall u, In u l -> u = k.
Definition busy (p : wpc) (pre : list task) (t : task) : Prop :=
  match t with
  | TSave m => (exists todo, p = WSend m todo [] KLoop) \/ p = WDrop [] KLoop
  | TFatal m => (exists todo drop, p = WSend m todo drop KKill /\ regd pre drop) \/ (exists l, p = WDrop l KKill /\ regd pre l) \/ (exists k l, p = WJoin k l KKill /\ regd pre (k :: l))
  | TAdd i k => p = WTok i [k] \/ p = WDrop [k] KLoop \/ p = WJoin k [] KLoop \/ p = WDrop [] KLoop
  | TRemove i k => (exists l, p = WDrop l (KTok i) /\ only k l) \/ (exists l, p = WJoin k l (KTok i) /\ only k l) \/ p = WTok i [] \/ p = WDrop [] KLoop
  | TClear i => (exists l, p = WDrop l (KTok i) /\ regd pre l) \/ (exists k l, p = WJoin k l (KTok i) /\ regd pre (k :: l)) \/ p = WTok i [] \/ p = WDrop [] KLoop
  | TDone => p = WExit
  end.
Definition calm (t : task) : Prop := match t with TFatal _ | TDone => False | _ => True end.
Definition quiet (l : list task) : Prop := forall t, In t l -> calm t.
Definition invP (s : wstate) : Prop :=
  (w_pc s = WLoop /\ quiet (w_old s)) \/ (exists pre t, w_old s = pre ++ [t] /\ quiet pre /\ busy (w_pc s) pre t).

Lemma invP_eq : forall s s', invP s -> w_old s' = w_old s -> w_pc s' = w_pc s -> invP s'.
Proof. intros s s' I A B. unfold invP in *. now rewrite A, B. Qed.
Lemma invP_busy : forall s s', invP s -> w_pc s <> WLoop -> w_old s' = w_old s -> (forall pre t, busy (w_pc s) pre t -> busy (w_pc s') pre t) -> invP s'.
Proof.
  intros s s' [[A _]|(pre & t & A & B & C)] N E H; [congruence|]. right. exists pre, t. rewrite E. auto.
Qed.
Lemma rel_frame : forall s i k next s', rel s i k next s' -> w_old s' = w_old s /\ w_q s' = w_q s /\ w_pc s' = w_pc s /\ w_sinks s' = w_sinks s /\ w_bg s' = w_bg s /\ w_active s' = w_active s /\
  w_prom s' = w_prom s /\ w_handles s' = w_handles s /\ w_proc s' = w_proc s.
Proof.
  intros s i k next s' [H|H]; [cbn; repeat split|]. set (s1 := set_hold s i (remove1 k (c_hold (cl s i)))). destruct (ps_frame s1 k JDone) as (A1 & A2 & A3 & A4 & A5 & A6 & A7 & A8 & A9 & A10 & _).
  repeat split; assumption.
Qed.
Ltac bust B := repeat first [progress subst | match type of B with
  | _ \/ _ => destruct B as [B|B]
  | exists _, _ => destruct B as [? B]
  | _ /\ _ => let B' := fresh "B" in destruct B as [B B']
  end].

Lemma move_P : forall s s', move s s' -> invB s -> invP s -> invP s'.
Proof.
  intros s s' M IB I. assert (ON : forall k, In k (w_sinks s) -> registered k false (w_old s) = true) by (intro k; apply (b_on s IB)).
  destruct M as
    [m q W Q|m q W Q|i k q W Q|i k q W Q R|i k q W Q R|i q W Q|q W Q
    |m k todo drop q W|m drop q W|k l q W R|k l q W R|k l q W X|W|i W|W|i f W
    |k j q R Q DN|k m R|k m R|k c o R|k R|k DN X
    |i m P G|i m P G|i m P G|i m P G|i m P G|i m P G|i m P G|i m P G
    |i k s' P H|i k s' P H|i k P|i k h P|i P|i k c P|i k s' P H|i k next P X|i h P|i h P|i h P W
    |i ID G|i ID G|i ID G|i ID G|i ID G|i k ID DT H R|i k ID DT H R|i ID DT|i k ID H R|i k ID H R|i k ID H R|i k s' ID H G|i ID DT| |G DT];
  try (eapply invP_eq; eauto; fail).
  (* a task is taken *)
  1-7: assert (QT : quiet (w_old s)) by (destruct I as [[_ I]|(pre & t & _ & _ & C)]; [exact I|exfalso; rewrite W in C; destruct t; cbn [busy] in C; bust C; discriminate]);
       right; exists (w_old s); eexists; (split; [reflexivity|split; [exact QT|]]); cbn [set_pc w_pc busy].
  - left. eauto.
  - left. exists (w_sinks s), (w_sinks s). split; [reflexivity|exact ON].
  - now left.
  - right. right. now left.
  - left. eexists. split; [reflexivity|]. intros u U. apply in_app_or in U as [U|[U|[]]]; [now apply repeat_spec in U|auto].
  - left. eexists. split; [reflexivity|exact ON].
  - reflexivity.
  (* it goes on *)
  - eapply invP_busy; eauto; [rewrite W; discriminate|apply ps_frame|]. intros pre t B. rewrite W in B. cbn [set_pc w_pc]. destruct t; cbn [busy] in *; bust B; try discriminate; injection B; intros; subst; eauto 6.
  - eapply invP_busy; eauto; [rewrite W; discriminate|]. intros pre t B. rewrite W in B. cbn [set_pc w_pc]. destruct t; cbn [busy] in *; bust B; try discriminate; injection B; intros; subst; eauto 6.
  - eapply invP_busy; eauto; [rewrite W; discriminate|]. intros pre t B. rewrite W in B. cbn [set_pc w_pc]. destruct t; cbn [busy] in *; bust B; try discriminate; injection B; intros; subst; eauto 6.
    + right. left. eexists. split; [reflexivity|]. intros u U. apply B0. now right.
    + left. eexists. split; [reflexivity|]. intros u U. apply B0. now right.
    + left. eexists. split; [reflexivity|]. intros u U. apply B0. now right.
  - eapply invP_busy; eauto; [rewrite W; discriminate|apply (ps_frame (set_pc s (WDrop l q)) k JDone)|]. intros pre t B. rewrite W in B. cbn [set_pc w_pc]. destruct t; cbn [busy] in *; bust B; try discriminate; injection B; intros; subst; eauto 6.
    right. left. pose proof (B0 k (or_introl eq_refl)). subst k. eexists. split; [reflexivity|]. intros u U. apply B0. now right.
  - eapply invP_busy; eauto; [rewrite W; discriminate|apply ds_frame|]. intros pre t B. rewrite W in B. cbn [set_pc w_pc]. destruct t; cbn [busy] in *; bust B; try discriminate; injection B; intros; subst; eauto 6.
    + right. left. eexists. split; [reflexivity|]. intros u U. apply B0. now right.
    + left. eexists. split; [reflexivity|]. intros u U. apply B0. now right.
  - left. split; [reflexivity|]. destruct I as [[I _]|(pre & t & A & B & C)]; [congruence|]. cbn [set_pc w_old]. rewrite A. intros x X. apply in_app_or in X as [X|[X|[]]]; [now apply B|]. subst x.
    rewrite W in C. destruct t; cbn [busy calm] in *; auto; bust C; discriminate.
  - eapply invP_busy; eauto; [rewrite W; discriminate|]. intros pre t B. rewrite W in B. cbn [set_pc w_pc]. destruct t; cbn [busy] in *; bust B; try discriminate; injection B; intros; subst; eauto 6.
  - eapply invP_busy; eauto; [rewrite W; discriminate|]. intros pre t B. rewrite W in B. cbn [set_pc w_pc]. destruct t; cbn [busy] in *; bust B; try discriminate; injection B; intros; subst; eauto 6.
  - eapply invP_eq; [exact I|apply (rel_frame _ _ _ _ _ H)..].
  - eapply invP_eq; [exact I|apply (rel_frame _ _ _ _ _ H)..].
  - eapply invP_eq; [exact I|apply (ps_frame s k (JCall c))..].
  - eapply invP_eq; [exact I|apply (rel_frame _ _ _ _ _ H)..].
  - eapply invP_eq; [exact I|apply (ds_frame s k)..].
  - eapply invP_eq; [exact I|apply (rel_frame _ _ _ _ _ G)..].
Qed.
Lemma init_P : forall n, invP (w_init n).
Proof. intro n. left. split; [reflexivity|]. intros t []. Qed.
