(** Progress of an active object. *)
From Coq Require Import List Arith NArith Bool Lia.
From Verif.Base Require Import Threads.
From Verif.Model Require Import SharedQueue ActiveObj.
From Verif.Spec Require Import QueueSpec QueueFairSpec ActiveSpec ActiveFairSpec.
From Verif.Proofs Require Import QueueFacts QueueFairFacts ActiveFacts.
Import ListNotations.

(** what a step does *)
Definition q_part (s : astate) (a : aaction) : option (qaction cb) :=
  match a with
  | AQueue qa => Some qa
  | ATest => if a_done s then None else Some (Start 0 OPop)
  | ABgSend c => Some (Start 0 (OPush c))
  | ASend i n => Some (Start (S i) (OPush (User n)))
  | ASpawn i => Some (Start (S i) (OPush (Task (length (a_prom s)))))
  | ADtor i => Some (Start (S i) (OPush Shutdown))
  | _ => None
  end.
Definition bg_after (s : astate) (a : aaction) : bgpc :=
  match a with
  | ATest => if a_done s then BExit else BPop
  | ABegin => match pc (a_q s) 0 with Idle (Some (RItem c)) => BRun c | _ => a_bg s end
  | AEnd _ => BTest
  | ABgSend _ => match a_bg s with BRun c => BSend c | b => b end
  | ABgSent => match a_bg s with BSend c => BRun c | b => b end
  | _ => a_bg s
  end.
Definition cl_after (s : astate) (a : aaction) (j : nat) : clpc :=
  match a with
  | ASend i _ | ASpawn i => if Nat.eqb j i then CSend else cl s j
  | ASent i => if Nat.eqb j i then CIdle else cl s j
  | ADtor i => if Nat.eqb j i then DSend else cl s j
  | ADtorSent i => if Nat.eqb j i then DJoin else cl s j
  | ADtorRet i => if Nat.eqb j i then DDone else cl s j
  | _ => cl s j
  end.
(** where a step is possible *)
Definition ready (s : astate) (a : aaction) : Prop :=
  match a with
  | ATest => a_bg s = BTest
  | ABegin => a_bg s = BPop /\ exists c, pc (a_q s) 0 = Idle (Some (RItem c))
  | AEnd _ => exists c, a_bg s = BRun c
  | ABgSend _ => exists c, a_bg s = BRun c
  | ABgSent => (exists c, a_bg s = BSend c) /\ returned s 0 = true
  | ASend i _ | ASpawn i | ASpawnNull i | ADtor i => cl s i = CIdle
  | ASent i => cl s i = CSend /\ returned s (S i) = true
  | ADtorSent i => cl s i = DSend /\ returned s (S i) = true
  | ADtorRet i => cl s i = DJoin /\ a_bg s = BExit
  | AQueue _ => True
  end.
Definition done_after (s : astate) (a : aaction) : bool :=
  match a with AEnd _ => match a_bg s with BRun Shutdown => true | _ => a_done s end | _ => a_done s end.

Ltac acase E :=
  unfold astep in E; cbv zeta in E;
  match type of E with (if a_terminated ?s then _ else _) = _ => destruct (a_terminated s); [discriminate|] end;
  match type of E with
  | match ?a with _ => _ end = _ => destruct a as [qa| | |o|c| |i m|i|i|i|i|i|i]
  end;
  repeat match type of E with
  | None = Some _ => discriminate E
  | (if is_internal ?q then _ else _) = _ => destruct (is_internal q) eqn:IN
  | match a_bg ?s with _ => _ end = _ => destruct (a_bg s) eqn:B
  | (if a_done ?s then _ else _) = _ => destruct (a_done s) eqn:D
  | match pc ?q 0 with _ => _ end = _ => destruct (pc q 0) eqn:P0
  | (if returned ?s ?t then _ else _) = _ => destruct (returned s t) eqn:RT
  | match cl ?s ?i with _ => _ end = _ => destruct (cl s i) eqn:CL
  | (if existsb ?f ?l then _ else _) = _ => destruct (existsb f l)
  | (if dtor_begun ?s then _ else _) = _ => destruct (dtor_begun s) eqn:DB
  | option_map _ (start ?s ?t ?o) = _ => let x := fresh "x" in let ST := fresh "ST" in destruct (start s t o) as [x|] eqn:ST; cbn [option_map] in E; [destruct (start_inv _ _ _ _ ST) as (q' & -> & Q)|]
  | start ?s ?t ?o = Some ?x => let ST := fresh "ST" in destruct (start_inv _ _ _ _ E) as (q' & X & Q); subst x; clear E; assert (E : True = True) by reflexivity
  | option_map _ (qstep ?s ?t) = _ => destruct (qstep s t) as [q'|] eqn:Q; cbn [option_map] in E
  | match ?x with _ => _ end = _ => is_var x; destruct x
  | Some (match ?x with _ => _ end) = _ => is_var x; destruct x
  end;
  try discriminate; try (injection E as <-).

Lemma step_q : forall s a s', astep s a = Some s' -> match q_part s a with Some q => qstep (a_q s) q = Some (a_q s') | None => a_q s' = a_q s end.
Proof. intros s a s' E. acase E; cbn; rewrite ?D; auto. Qed.
Lemma step_bg : forall s a s', astep s a = Some s' -> a_bg s' = bg_after s a.
Proof. intros s a s' E. acase E; cbn; rewrite ?B, ?D, ?P0; auto. Qed.
Lemma step_done : forall s a s', astep s a = Some s' -> a_done s' = done_after s a.
Proof. intros s a s' E. acase E; cbn; rewrite ?B, ?D; auto. Qed.
Lemma step_ready : forall s a s', astep s a = Some s' -> ready s a.
Proof. intros s a s' E. acase E; cbn; eauto. Qed.
Lemma step_cl : forall n s a s' j, AInv n s -> astep s a = Some s' -> cl s' j = cl_after s a j.
Proof.
  intros n s a s' j I E. assert (U : forall i c, i < n -> get CIdle (upd (a_cl s) i c) j = if Nat.eqb j i then c else cl s j) by (intros i c L; unfold cl; apply get_upd; now rewrite (v_lc n s I)).
  assert (LT : forall i o q', qstep (a_q s) (Start (S i) o) = Some q' -> i < n) by (intros; eapply started_lt; eauto).
  assert (LC : forall i c, cl s i = c -> c <> CIdle -> i < n) by (intros; eapply cl_lt; eauto).
  acase E; cbn [cl_after]; try reflexivity; unfold cl at 1; cbn [a_note with_cl with_prom with_q a_cl]; (rewrite U; [reflexivity|first [eapply LT; eassumption|eapply LC; [eassumption|discriminate]]]).
Qed.
Lemma step_ended : forall s a s', astep s a = Some s' -> ended (a_tr s') = ended (a_tr s) ++ match a, a_bg s with AEnd o, BRun c => [(c, o)] | _, _ => [] end.
Proof.
  intros s a s' E. assert (N : forall tr e, match e with EvEnd _ _ => False | _ => True end -> ended (tr ++ [e]) = ended tr ++ []) by (intros tr e H; rewrite ended_app; destruct e; try destruct H; reflexivity).
  acase E; cbn [a_note with_cl with_prom with_q with_bg set_done terminate a_tr]; try (rewrite N by exact Logic.I); try rewrite ended_app; rewrite ?B; cbn; rewrite ?app_nil_r; auto.
Qed.
Lemma idle_disabled : forall (q : qstate cb) t l a, pc q t = Idle l -> q_step_of t a = true -> qstep q a = None.
Proof. intros q t l a P O. destruct a as [u o|u|u w|u|w]; cbn in O; try discriminate; apply Nat.eqb_eq in O; subst u; cbn [qstep]; now rewrite P. Qed.
Lemma ok_idle : forall p, is_idle p -> exists l, p = Idle l.
Proof. intros p H. destruct p; try destruct H. eauto. Qed.

Section Run.
Variables (n : nat) (ex : nat -> astate) (ac : nat -> option aaction).
Hypothesis WR : well_run n ex ac.
Hypothesis ENDS : callbacks_end ex ac.
Let EX := wr_ex _ _ _ WR.

Lemma a_inv : forall i, AInv n (ex i).
Proof.
  induction i as [|i IH]; [rewrite (aex_start _ _ _ EX); apply AInv_init|]. pose proof (aex_next _ _ _ EX i) as N. destruct (ac i) as [a|]; [eapply AInv_step; eauto|now rewrite N].
Qed.
Lemma a_steps : forall i d, asteps (ex i) (ex (i + d)).
Proof.
  intros i d. induction d as [|d IH]; [rewrite Nat.add_0_r; constructor|]. rewrite Nat.add_succ_r. pose proof (aex_next _ _ _ EX (i + d)) as N. destruct (ac (i + d)) as [a|]; [econstructor; eauto|now rewrite N].
Qed.
Lemma a_reach : forall i, areach n (ex i).
Proof. intro i. unfold areach. rewrite <- (aex_start _ _ _ EX). exact (a_steps 0 i). Qed.

(** ** the queue inside *)
Definition qx (i : nat) : qstate cb := a_q (ex i).
Definition qac (i : nat) : option (qaction cb) := match ac i with Some a => q_part (ex i) a | None => None end.
Lemma q_exec : q_execution (S n) qx qac.
Proof.
  split; [unfold qx; now rewrite (aex_start _ _ _ EX)|]. intro i. pose proof (aex_next _ _ _ EX i) as N. unfold qx, qac. destruct (ac i) as [a|]; [|now rewrite N]. apply (step_q _ _ _ N).
Qed.
Lemma thread_idle : forall m a t, ac m = Some a -> a_step_of t a = true -> (exists qa, a = AQueue qa /\ q_step_of t qa = true) \/ exists l, pc (qx m) t = Idle l.
Proof.
  intros m a t E O. pose proof (aex_next _ _ _ EX m) as N. rewrite E in N. pose proof (step_ready _ _ _ N) as R. pose proof (a_inv m) as I. pose proof (v_bg n _ I) as VB. unfold qx.
  assert (RT : forall u, returned (ex m) u = true -> exists l, pc (a_q (ex m)) u = Idle l) by (unfold returned; intros u H; destruct (pc (a_q (ex m)) u); try discriminate; eauto).
  destruct a as [qa| | |o|c| |i x|i|i|i|i|i|i]; cbn [a_step_of ready] in *; try discriminate; [left; eauto|right..]; apply Nat.eqb_eq in O; subst t.
  - rewrite R in VB. now apply ok_idle.
  - destruct R as (_ & c & R). eauto.
  - apply RT, R.
  - apply RT, R.
  - apply RT, R.
  - destruct R as (C & _). assert (L : i < n) by (eapply cl_lt; eauto; discriminate). pose proof (v_cl n _ I i L) as VC. rewrite C in VC. now apply ok_idle.
Qed.
Lemma q_fair : forall t, q_fair_to qx qac t.
Proof.
  intros t i. destruct (wr_fair _ _ _ WR t i) as (m & LE & [(a & E & O)|F]); exists m; (split; [exact LE|]).
  - destruct (thread_idle m a t E O) as [(qa & -> & Q)|(l & P)].
    + left. exists qa. split; [unfold qac; now rewrite E|exact Q].
    + right. intros qa Q. eapply idle_disabled; eauto.
  - right. intros qa Q. specialize (F (AQueue qa) Q). unfold astep in F. rewrite (wr_throw _ _ _ WR m) in F.
    assert (IN : is_internal qa = true) by (destruct qa; auto; discriminate). rewrite IN in F. unfold qx. destruct (qstep (a_q (ex m)) qa); [discriminate|reflexivity].
Qed.
Lemma q_mutex : mutex_fair qx.
Proof. exact (wr_mutex _ _ _ WR). Qed.

(** ** a thread that can go on does *)
Lemma fair_wait : forall t (Q : nat -> Prop), (forall i, Q i -> exists a s', a_step_of t a = true /\ astep (ex i) a = Some s') ->
  (forall i, Q i -> (forall a, ac i = Some a -> a_step_of t a = false) -> Q (S i)) ->
  forall i, Q i -> exists m a, i <= m /\ Q m /\ ac m = Some a /\ a_step_of t a = true.
Proof.
  intros t Q EN ST i QI. destruct (wr_fair _ _ _ WR t i) as (m & LE & F).
  assert (DEC : forall j, (exists a, ac j = Some a /\ a_step_of t a = true) \/ forall a, ac j = Some a -> a_step_of t a = false).
  { intro j. destruct (ac j) as [a|]; [|right; discriminate]. destruct (a_step_of t a) eqn:O; [left; eauto|right]. intros b X. now injection X as <-. }
  assert (W : forall d j, Q j -> (exists m' a, j <= m' < j + d /\ Q m' /\ ac m' = Some a /\ a_step_of t a = true) \/ Q (j + d)).
  { induction d as [|d IH]; intros j H; [right; now rewrite Nat.add_0_r|]. destruct (DEC j) as [(a & E & O)|D]; [left; exists j, a; repeat split; auto; lia|].
    destruct (IH (S j) (ST j H D)) as [(m' & a & L & H')|H']; [left; exists m', a; split; [lia|exact H']|right; now replace (j + S d) with (S j + d) by lia]. }
  destruct (W (m - i) i QI) as [(m' & a & L & H)|H]; [exists m', a; split; [lia|exact H]|]. replace (i + (m - i)) with m in H by lia.
  destruct F as [(a & E & O)|F]; [exists m, a; auto|]. exfalso. destruct (EN m H) as (a & s' & O & X). rewrite (F a O) in X. discriminate.
Qed.
Lemma next_or : forall i, (exists a, ac i = Some a /\ astep (ex i) a = Some (ex (S i))) \/ (ac i = None /\ ex (S i) = ex i).
Proof. intro i. pose proof (aex_next _ _ _ EX i) as N. destruct (ac i) as [a|]; eauto. Qed.

(** ** how many callbacks have ended *)
Definition fin (i : nat) : nat := length (ended (a_tr (ex i))).
Lemma fin_step : forall i, fin i <= fin (S i).
Proof. intro i. unfold fin. destruct (next_or i) as [(a & _ & N)|[_ ->]]; [rewrite (step_ended _ _ _ N), app_length; lia|auto]. Qed.
Lemma fin_mono : forall i m, i <= m -> fin i <= fin m.
Proof. intros i m L. induction L as [|m L IH]; auto. pose proof (fin_step m). lia. Qed.
Definition more (i : nat) : Prop := exists m, i <= m /\ fin i < fin m.
Lemma more_later : forall i m, i <= m -> more m -> more i.
Proof. intros i m L (m' & L' & H). exists m'. split; [lia|]. pose proof (fin_mono i m L). lia. Qed.
Lemma fin_counts : forall i, length (executed (a_tr (ex i))) = fin i + match running (a_bg (ex i)) with Some _ => 1 | None => 0 end.
Proof. intro i. rewrite (one_executed _ _ (v_one n _ (a_inv i))), app_length, map_length. unfold fin. now destruct (running _). Qed.
Lemma popped_counts : forall i, length (popped (q_trace (qx i))) = length (executed (a_tr (ex i))) + length (inflight (ex i)).
Proof. intro i. unfold qx. now rewrite (v_exec n _ (a_inv i)), app_length. Qed.

Lemma run_ends : forall i, running (a_bg (ex i)) <> None -> more i.
Proof.
  intros i R. assert (C : exists c, a_bg (ex i) = BRun c \/ a_bg (ex i) = BSend c) by (destruct (a_bg (ex i)); cbn in R; try congruence; eauto).
  destruct C as (c & C). destruct (ENDS i c C) as (m & o & L & E). exists (S m). split; [lia|]. pose proof (aex_next _ _ _ EX m) as N. rewrite E in N.
  destruct (step_ready _ _ _ N) as (d & B). pose proof (fin_mono i m L). unfold fin. rewrite (step_ended _ _ _ N), B, app_length. cbn. unfold fin in *. lia.
Qed.
(** a thread that has its callback begins it *)
Lemma begins : forall i c, a_bg (ex i) = BPop -> pc (qx i) 0 = Idle (Some (RItem c)) -> more i.
Proof.
  intros i c B P. destruct (fair_wait 0 (fun j => a_bg (ex j) = BPop /\ pc (qx j) 0 = Idle (Some (RItem c)))) with (i := i) as (m & a & L & (Bm & Pm) & E & O); auto.
  - intros j (Bj & Pj). exists ABegin. eexists. split; [reflexivity|]. unfold astep. rewrite (wr_throw _ _ _ WR j), Bj. unfold qx in Pj. rewrite Pj. reflexivity.
  - intros j (Bj & Pj) NO. destruct (next_or j) as [(a & E & N)|[_ NX]]; [|unfold qx in *; rewrite NX; auto]. specialize (NO a E). pose proof (step_ready _ _ _ N) as R. split.
    + rewrite (step_bg _ _ _ N). destruct a; cbn in *; try discriminate; auto; destruct R as (d & R); congruence.
    + unfold qx in *. pose proof (step_q _ _ _ N) as Q. destruct (q_part (ex j) a) as [qa|] eqn:QP; [|now rewrite Q]. rewrite <- Pj. apply (untouched _ _ _ _ Q).
      destruct (touched 0 qa) eqn:T; auto. exfalso. unfold touched in T. apply orb_prop in T as [T|T].
      * apply Nat.eqb_eq in T. destruct a as [qb| | |o|d| |k x|k|k|k|k|k|k]; cbn in QP, NO, R; try discriminate; try (injection QP as <-; cbn in T; try discriminate).
        -- destruct qb as [u o|u|u w|u|w]; cbn in NO, T; subst; try discriminate.
           ++ cbn in N. unfold astep in N. rewrite (wr_throw _ _ _ WR j) in N. discriminate.
           ++ pose proof (step_moves _ _ _ (ex_inv _ _ _ q_exec j) Q) as M. cbn [doer] in M. inversion M; subst. unfold qx in *. congruence.
        -- destruct R as (d' & R). congruence.
      * destruct qa as [| |u w| |]; try discriminate. apply Nat.eqb_eq in T. subst w. pose proof (step_moves _ _ _ (ex_inv _ _ _ q_exec j) Q) as M. cbn [doer] in M. inversion M; subst. unfold qx in *. congruence.
  - pose proof (aex_next _ _ _ EX m) as N. rewrite E in N. apply (more_later i (S m)); [lia|]. apply run_ends. rewrite (step_bg _ _ _ N).
    pose proof (step_ready _ _ _ N) as R. unfold qx in Pm. destruct a; cbn [a_step_of ready] in O, R; cbn [bg_after]; try discriminate; rewrite ?Pm; try discriminate; try congruence.
    + unfold astep in N. rewrite (wr_throw _ _ _ WR m) in N. destruct (is_internal _); [|discriminate]. rewrite (idle_disabled _ _ _ _ Pm O) in N. discriminate.
    + destruct R as ((d & R) & _). congruence.
Qed.
Lemma inflight_ends : forall i, inflight (ex i) <> [] -> more i.
Proof.
  intros i F. unfold inflight in F. destruct (a_bg (ex i)) eqn:B; try congruence. pose proof (v_bg n _ (a_inv i)) as VB. rewrite B in VB. cbn in VB.
  destruct (pc (a_q (ex i)) 0) as [[[|c| | |]|]|o|o| | |b|r b|] eqn:P; cbn in F; try congruence.
  - apply (begins i c B P).
  - destruct r as [|c| | |]; try congruence. destruct b; cbn in VB; try contradiction.
    destruct (goes_on (S n) qx qac q_exec q_fair 0 i) as (m & L & Pm & Y); [unfold qx; now rewrite P|]. unfold qx in Pm at 2. rewrite P in Pm.
    assert (Bm : a_bg (ex m) = BPop) by (pose proof (v_bg n _ (a_inv m)) as VM; unfold qx in Pm; rewrite Pm in VM; destruct (a_bg (ex m)); cbn in VM; try contradiction; auto).
    destruct (acts_moves (S n) qx qac q_exec 0 m Y) as (qa & E & M). apply (more_later i (S m)); [lia|]. apply (begins (S m) c).
    + destruct (next_or m) as [(a & EA & N)|[EA _]]; unfold qac in E; rewrite EA in E; [|discriminate]. rewrite (step_bg _ _ _ N). pose proof (step_ready _ _ _ N) as R.
      destruct a as [qb| | |o|d| |k x|k|k|k|k|k|k]; cbn in E, R |- *; auto; try discriminate; try congruence; destruct R as (d' & R); congruence.
    + inversion M; subst; unfold qx in *; try congruence.
Qed.
(** the background thread takes the next callback *)
Lemma only_0 : only_consumer qac 0.
Proof.
  intros i t o E T. unfold qac in E. destruct (next_or i) as [(a & EA & N)|[EA _]]; rewrite EA in E; [|discriminate].
  destruct a as [qb| | |o'|d| |k x|k|k|k|k|k|k]; cbn in E; try discriminate; try (injection E as <- <-; destruct T; discriminate).
  - injection E as ->. unfold astep in N. rewrite (wr_throw _ _ _ WR i) in N. discriminate.
  - destruct (a_done (ex i)); [discriminate|]. now injection E as <- <-.
Qed.
Lemma popping_ends : forall i, a_bg (ex i) = BPop -> fin i < length (pushed (q_trace (qx i))) -> more i.
Proof.
  intros i B LT. destruct (inflight (ex i)) as [|c l] eqn:F; [|apply inflight_ends; congruence].
  pose proof (fin_counts i) as FC. rewrite B in FC. cbn in FC. pose proof (popped_counts i) as PC. rewrite F in PC. cbn in PC.
  pose proof (v_bg n _ (a_inv i)) as VB. rewrite B in VB. cbn in VB. unfold inflight in F. rewrite B in F.
  assert (PO : popping (pc (qx i) 0) = true) by (unfold qx; destruct (pc (a_q (ex i)) 0) as [[[|c| | |]|]|[]|[]| | |[]|[] []|]; cbn in *; try contradiction; try discriminate; auto).
  assert (NE : q_content (qx i) <> []) by (intro C; pose proof (pushed_split n _ (a_inv i)) as S; fold (qx i) in S; rewrite C in S; unfold inflight in S; rewrite B, F in S; cbn in S; rewrite app_nil_r in S; rewrite S in LT; lia).
  destruct (an_item_is_taken (S n) qx qac q_exec q_fair q_mutex 0 i PO NE) as (m & L & O). unfold out in O.
  rewrite (popped_counts m), (fin_counts m) in O. pose proof (fin_mono i m L) as FM. destruct (Nat.eq_dec (fin m) (fin i)) as [EQ|NQ]; [|exists m; split; [exact L|lia]].
  apply (more_later i m L). destruct (running (a_bg (ex m))) eqn:R; [apply run_ends; congruence|]. apply inflight_ends. intro Z. rewrite Z in O. cbn in O. lia.
Qed.
Lemma pushed_mono : forall i m, i <= m -> prefix (pushed (q_trace (qx i))) (pushed (q_trace (qx m))).
Proof. intros i m L. replace m with (i + (m - i)) by lia. eapply pushed_grows; [apply a_inv|apply a_steps]. Qed.
Lemma prefix_len : forall A (a b : list A), prefix a b -> length a <= length b.
Proof. intros A a b (r & ->). rewrite app_length. lia. Qed.
Lemma advances : forall i, a_done (ex i) = false -> fin i < length (pushed (q_trace (qx i))) -> more i.
Proof.
  intros i D LT. destruct (a_bg (ex i)) eqn:B.
  - destruct (fair_wait 0 (fun j => i <= j /\ fin j = fin i /\ a_bg (ex j) = BTest /\ a_done (ex j) = false)) with (i := i) as (m & a & L & (_ & Fm & Bm & Dm) & E & O); auto.
    + intros j (_ & _ & Bj & Dj). exists ATest. pose proof (v_bg n _ (a_inv j)) as VB. rewrite Bj in VB. destruct (ok_idle _ VB) as (l & P).
      assert (X : exists q', qstep (a_q (ex j)) (Start 0 OPop) = Some q') by (cbn [qstep]; rewrite P, (v_lq n _ (a_inv j)); cbn; eauto). destruct X as (q' & X).
      eexists. split; [reflexivity|]. unfold astep. rewrite (wr_throw _ _ _ WR j), Bj, Dj. unfold start. rewrite X. reflexivity.
    + intros j (Lj & Fj & Bj & Dj) NO. destruct (next_or j) as [(a & E & N)|[_ NX]]; [|unfold fin in *; rewrite NX; auto]. specialize (NO a E). pose proof (step_ready _ _ _ N) as R. split; [lia|].
      unfold fin in *. rewrite (step_bg _ _ _ N), (step_done _ _ _ N), (step_ended _ _ _ N), Bj, app_length.
      destruct a; cbn in *; try discriminate; repeat split; auto; try lia; destruct R as (d & R); congruence.
    + pose proof (aex_next _ _ _ EX m) as N. rewrite E in N. pose proof (step_ready _ _ _ N) as R. pose proof (v_bg n _ (a_inv m)) as VB. rewrite Bm in VB. destruct (ok_idle _ VB) as (l & P).
      assert (A : a = ATest).
      { destruct a; cbn in O, R; auto; try discriminate; exfalso.
        - unfold astep in N. rewrite (wr_throw _ _ _ WR m) in N. destruct (is_internal a); [|discriminate]. rewrite (idle_disabled _ _ _ _ P O) in N. discriminate.
        - destruct R as (R & _). congruence.
        - destruct R as ((d & R) & _). congruence. }
      subst a. apply (more_later i (S m)); [lia|]. pose proof (step_bg _ _ _ N) as B1. cbn in B1. rewrite Dm in B1.
      apply popping_ends; auto. assert (Z : fin (S m) = fin m) by (unfold fin; rewrite (step_ended _ _ _ N); now rewrite app_nil_r).
      rewrite Z, Fm. pose proof (prefix_len _ _ _ (pushed_mono i (S m) ltac:(lia))). lia.
  - now apply popping_ends.
  - apply run_ends. rewrite B. discriminate.
  - apply run_ends. rewrite B. discriminate.
  - rewrite (v_exit n _ (a_inv i) B) in D. discriminate.
Qed.
(** ** all that has been put in the queue is executed *)
Lemma reaches : forall k i, k <= length (pushed (q_trace (qx i))) -> exists m, i <= m /\ (k <= fin m \/ a_done (ex m) = true).
Proof.
  intros k i K. remember (k - fin i) as g eqn:G. revert i K G. induction g as [g IH] using (well_founded_induction Wf_nat.lt_wf). intros i K G.
  destruct (le_lt_dec k (fin i)) as [H|H]; [exists i; auto|]. destruct (a_done (ex i)) eqn:D; [exists i; auto|].
  destruct (advances i D) as (m & L & F); [lia|]. destruct (IH (k - fin m)) with (i := m) as (m' & L' & F'); auto; try lia.
  - pose proof (prefix_len _ _ _ (pushed_mono i m L)). lia.
  - exists m'. split; [lia|auto].
Qed.
Lemma prefix_of : forall A (a b c : list A), prefix a c -> prefix b c -> length a <= length b -> prefix a b.
Proof.
  intros A a b c (r & ->) (r' & E) L. exists (firstn (length b - length a) r). apply (f_equal (firstn (length b))) in E.
  rewrite firstn_app, firstn_all2 in E by lia. rewrite firstn_app, Nat.sub_diag, firstn_all, firstn_O, app_nil_r in E. now symmetry.
Qed.
Lemma ended_prefix : forall m, prefix (map fst (ended (a_tr (ex m)))) (pushed (q_trace (qx m))).
Proof. intro m. unfold qx. rewrite (pushed_split n _ (a_inv m)), (one_executed _ _ (v_one n _ (a_inv m))), <- app_assoc. eexists. reflexivity. Qed.
Lemma done_ended : forall m, a_done (ex m) = true -> In Shutdown (map fst (ended (a_tr (ex m)))).
Proof.
  intros m D. destruct (v_done n _ (a_inv m) D) as (IN & B). rewrite (one_executed _ _ (v_one n _ (a_inv m))) in IN. apply in_app_or in IN as [IN|IN]; auto.
  destruct B as [B|B]; rewrite B in IN; destruct IN.
Qed.
Lemma all_executed : forall i, ~ In Shutdown (pushed (q_trace (qx i))) -> exists m, i <= m /\ prefix (pushed (q_trace (qx i))) (map fst (ended (a_tr (ex m)))).
Proof.
  intros i NS. destruct (reaches _ i (le_n _)) as (m & L & H). exists m. split; auto. apply (prefix_of _ _ _ (pushed (q_trace (qx m)))); [now apply pushed_mono|apply ended_prefix|].
  destruct H as [H|D]; [unfold fin in H; now rewrite map_length|].
  destruct (le_lt_dec (length (pushed (q_trace (qx i)))) (length (map fst (ended (a_tr (ex m)))))) as [|G]; auto. exfalso. apply NS.
  destruct (prefix_of _ _ _ _ (ended_prefix m) (pushed_mono i m L)) as (r & E); [lia|]. rewrite E. apply in_or_app. left. now apply done_ended.
Qed.
Lemma gets_done : forall i, In Shutdown (pushed (q_trace (qx i))) -> exists m, i <= m /\ a_done (ex m) = true.
Proof.
  intros i IN. destruct (reaches _ i (le_n _)) as (m & L & [H|D]); [|eauto]. exists m. split; auto.
  destruct (prefix_of _ _ _ _ (pushed_mono i m L) (ended_prefix m)) as (r & E); [unfold fin in H; now rewrite map_length|].
  assert (X : In Shutdown (map fst (ended (a_tr (ex m))))) by (rewrite E; apply in_or_app; auto).
  pose proof (one_executed _ _ (v_one n _ (a_inv m))) as OE.
  destruct (v_last n _ (a_inv m)) as ((l & EL & NL) & [B|D]); auto.
  - rewrite OE. apply in_or_app. auto.
  - exfalso. rewrite B in OE. cbn in OE. rewrite OE in EL. apply app_inj_tail in EL as [EL _]. now rewrite EL in X.
Qed.
(** ** the calls of clients *)
Lemma push_returns : forall t i (P : cb -> Prop), ok_push P (pc (qx i) t) -> exists m l, i <= m /\ pc (qx m) t = Idle l.
Proof.
  intros t i P OK. destruct (pc (qx i) t) as [l|o|o| | |b|r b|] eqn:E; cbn in OK; try contradiction; [exists i, l; auto|..].
  all: destruct (returns (S n) qx qac q_exec q_fair q_mutex _ t i (le_n _)) as (m & r' & L & H);
    [intro; rewrite E; discriminate|rewrite E; try destruct o; try contradiction; cbn; discriminate|exists m, (Some r'); auto].
Qed.
(** a client stays where it is until it takes the step that leaves *)
Definition exit_of (k : nat) (c : clpc) : option aaction := match c with CSend => Some (ASent k) | DSend => Some (ADtorSent k) | DJoin => Some (ADtorRet k) | _ => None end.
Definition then_ (c : clpc) : clpc := match c with CSend => CIdle | DSend => DJoin | DJoin => DDone | c => c end.
Lemma client_stays : forall k i c e, exit_of k c = Some e -> cl (ex i) k = c -> (ac i = Some e /\ cl (ex (S i)) k = then_ c) \/ (ac i <> Some e /\ cl (ex (S i)) k = c).
Proof.
  intros k i c e X C. destruct (next_or i) as [(a & E & N)|[E NX]]; [|right; rewrite E, NX; split; [discriminate|auto]].
  pose proof (step_ready _ _ _ N) as R. rewrite E, (step_cl _ _ _ _ k (a_inv i) N).
  destruct a as [qb| | |o'|d| |j x|j|j|j|j|j|j]; cbn [cl_after ready] in *; try (right; split; [destruct c; cbn in X; try discriminate; injection X as <-; discriminate|exact C]);
    destruct (Nat.eqb_spec k j) as [<-|NE]; try (destruct R as (R & _)); try (rewrite R in C; subst c; cbn in X; try discriminate; injection X as <-; left; split; reflexivity);
    (right; split; [destruct c; cbn in X; try discriminate; injection X as <-; congruence|exact C]).
Qed.
Lemma client_until : forall k i c e m, exit_of k c = Some e -> cl (ex i) k = c -> i <= m -> (exists m', i <= m' /\ cl (ex m') k = then_ c) \/ cl (ex m) k = c.
Proof.
  intros k i c e m X C L. induction L as [|m L IH]; auto. destruct IH as [IH|IH]; auto. destruct (client_stays k m c e X IH) as [[_ H]|[_ H]]; auto. left. exists (S m). split; [lia|auto].
Qed.
Lemma client_leaves : forall k c e (Q : nat -> Prop), exit_of k c = Some e -> (forall i, cl (ex i) k = c -> Q i -> exists s', astep (ex i) e = Some s') ->
  (forall i, cl (ex i) k = c -> Q i -> (exists l, pc (qx i) (S k) = Idle l) /\ (cl (ex (S i)) k = c -> Q (S i))) ->
  forall i, cl (ex i) k = c -> Q i -> exists m, i <= m /\ cl (ex m) k = then_ c.
Proof.
  intros k c e Q X EN ST i C QI. assert (SO : a_step_of (S k) e = true) by (destruct c; cbn in X; try discriminate; injection X as <-; cbn; apply Nat.eqb_refl).
  destruct (fair_wait (S k) (fun j => cl (ex j) k = c /\ Q j)) with (i := i) as (m & a & L & (Cm & Qm) & E & O); auto.
  - intros j (Cj & Qj). destruct (EN j Cj Qj) as (s' & S1). eauto.
  - intros j (Cj & Qj) NO. destruct (client_stays k j c e X Cj) as [[E _]|[_ H]]; [rewrite (NO e E) in SO; discriminate|]. split; auto. now apply (ST j Cj Qj).
  - exists (S m). split; [lia|]. destruct (client_stays k m c e X Cm) as [[_ H]|[NE _]]; auto. exfalso. apply NE. rewrite E. f_equal.
    destruct (ST m Cm Qm) as ((l & P) & _). pose proof (aex_next _ _ _ EX m) as N. rewrite E in N. pose proof (step_ready _ _ _ N) as R.
    destruct a as [qb| | |o'|d| |j x|j|j|j|j|j|j]; cbn [a_step_of ready] in O, R; try discriminate; try (apply Nat.eqb_eq in O; try discriminate; injection O as <-; destruct R as (R & _); rewrite R in Cm; subst c; cbn in X; congruence).
    exfalso. unfold astep in N. rewrite (wr_throw _ _ _ WR m) in N. destruct (is_internal qb); [|discriminate]. unfold qx in P. rewrite (idle_disabled _ _ _ _ P O) in N. discriminate.
    all: apply Nat.eqb_eq in O; injection O as <-; destruct R as (R & _); rewrite R in Cm; rewrite <- Cm in X; cbn in X; congruence.
Qed.
Lemma idle_stays : forall k i l, pc (qx i) (S k) = Idle l -> cl (ex i) k <> CIdle -> pc (qx (S i)) (S k) = Idle l.
Proof.
  intros k i l P C. unfold qx in *. destruct (next_or i) as [(a & E & N)|[_ NX]]; [|now rewrite NX]. pose proof (step_q _ _ _ N) as Q. pose proof (step_ready _ _ _ N) as R.
  destruct (q_part (ex i) a) as [qa|] eqn:QP; [|now rewrite Q]. rewrite <- P. apply (untouched _ _ _ _ Q). destruct (touched (S k) qa) eqn:T; auto. exfalso.
  assert (I : QInv (a_q (ex i))) by (exact (ex_inv _ _ _ q_exec i)).
  destruct a as [qb| | |o|d| |j x|j|j|j|j|j|j]; cbn in QP, R; try discriminate; try (injection QP as <-; unfold touched in T; cbn [doer] in T; rewrite ?orb_false_r in T).
  - destruct (is_internal qb) eqn:IN; [|unfold astep in N; rewrite (wr_throw _ _ _ WR i), IN in N; discriminate].
    pose proof (step_moves _ _ _ I Q) as M. apply orb_prop in T as [T|T].
    + apply Nat.eqb_eq in T. rewrite <- T in M. inversion M; subst; try congruence. discriminate.
    + destruct qb as [|u|u w| |]; try discriminate. apply Nat.eqb_eq in T. subst w. cbn [doer] in M. inversion M; subst. congruence.
  - destruct (a_done (ex i)); [discriminate|]. injection QP as <-. unfold touched in T. cbn in T. discriminate.
  - discriminate.
  - apply Nat.eqb_eq in T. injection T as <-. contradiction.
  - apply Nat.eqb_eq in T. injection T as <-. contradiction.
  - apply Nat.eqb_eq in T. injection T as <-. contradiction.
Qed.
Lemma call_over : forall k c e, c = CSend \/ c = DSend -> exit_of k c = Some e -> forall i, cl (ex i) k = c -> exists m, i <= m /\ cl (ex m) k = then_ c.
Proof.
  intros k c e CC X i C. assert (NI : c <> CIdle) by (destruct CC; congruence). assert (L : k < n) by (eapply cl_lt; [apply a_inv|exact C|exact NI]).
  pose proof (v_cl n _ (a_inv i) k L) as VC. rewrite C in VC. assert (OK : exists P, ok_push P (pc (qx i) (S k))) by (destruct CC as [Z|Z]; rewrite Z in VC; eexists; exact VC).
  destruct OK as (P & OK). destruct (push_returns (S k) i P OK) as (m & l & Lm & Pm). destruct (client_until k i c e m X C Lm) as [H|Cm]; auto.
  destruct (client_leaves k c e (fun j => exists l, pc (qx j) (S k) = Idle l) X) with (i := m) as (m' & L' & H); eauto.
  - intros j Cj (l' & Pj). unfold astep. rewrite (wr_throw _ _ _ WR j). unfold qx in Pj. destruct CC as [Z|Z]; rewrite Z in X, Cj; cbn in X; injection X as <-; rewrite Cj; unfold returned; rewrite Pj; eauto.
  - intros j Cj (l' & Pj). split; eauto. intros _. exists l'. apply idle_stays; congruence.
  - exists m'. split; [lia|auto].
Qed.
Lemma exits : forall i, a_done (ex i) = true -> exists m, i <= m /\ a_bg (ex m) = BExit.
Proof.
  intros i D. destruct (v_done n _ (a_inv i) D) as (_ & [B|B]); [|eauto].
  destruct (fair_wait 0 (fun j => a_bg (ex j) = BTest /\ a_done (ex j) = true)) with (i := i) as (m & a & L & (Bm & Dm) & E & O); auto.
  - intros j (Bj & Dj). exists ATest. eexists. split; [reflexivity|]. unfold astep. rewrite (wr_throw _ _ _ WR j), Bj, Dj. reflexivity.
  - intros j (Bj & Dj) NO. destruct (next_or j) as [(a & E & N)|[_ NX]]; [|rewrite NX; auto]. specialize (NO a E). pose proof (step_ready _ _ _ N) as R. rewrite (step_bg _ _ _ N), (step_done _ _ _ N).
    unfold bg_after, done_after. destruct a; cbn in *; try discriminate; auto; destruct R as (d & R); congruence.
  - exists (S m). split; [lia|]. pose proof (aex_next _ _ _ EX m) as N. rewrite E in N. pose proof (step_ready _ _ _ N) as R. pose proof (v_bg n _ (a_inv m)) as VB. rewrite Bm in VB. destruct (ok_idle _ VB) as (l & P).
    rewrite (step_bg _ _ _ N). destruct a; cbn [a_step_of ready] in O, R; try discriminate; cbn [bg_after].
    + exfalso. unfold astep in N. rewrite (wr_throw _ _ _ WR m) in N. destruct (is_internal a); [|discriminate]. rewrite (idle_disabled _ _ _ _ P O) in N. discriminate.
    + now rewrite Dm.
    + destruct R as (R & _). congruence.
    + destruct R as ((d & R) & _). congruence.
Qed.
Lemma exit_stays : forall i m, i <= m -> a_bg (ex i) = BExit -> a_bg (ex m) = BExit.
Proof.
  intros i m L B. induction L as [|m L IH]; auto. destruct (next_or m) as [(a & E & N)|[_ NX]]; [|now rewrite NX]. pose proof (step_ready _ _ _ N) as R. rewrite (step_bg _ _ _ N).
  destruct a; cbn in *; auto; try congruence; try (destruct R as (d & R); congruence); try (destruct R as ((d & R) & _); congruence).
Qed.
Lemma join_shutdown : forall k i, cl (ex i) k = DJoin -> In Shutdown (pushed (q_trace (qx i))).
Proof.
  intros k i C. pose proof (a_inv i) as I. pose proof (v_shut n _ I) as VS. unfold seen in VS. pose proof (v_dtor1 n _ I) as D1.
  assert (L : k < n) by (eapply cl_lt; [exact I|exact C|discriminate]).
  destruct (in_dec cb_eq_dec Shutdown (pushed (q_trace (qx i)))) as [H|H]; auto. exfalso. unfold qx in H. unfold times in VS. rewrite (proj1 (count_occ_not_In cb_eq_dec _ _) H) in VS. cbn in VS.
  assert (CP : 0 < count is_dtor (a_cl (ex i))) by (eapply (count_get CIdle) with (t := k); [rewrite (v_lc n _ I); exact L|unfold cl in C; now rewrite C]).
  rewrite <- VS in CP. destruct (count_pos (Idle None) _ _ CP) as (t & Lt & PT). fold (pc (a_q (ex i)) t) in PT. rewrite (v_lq n _ I) in Lt.
  destruct t as [|j].
  - pose proof (v_bg n _ I) as VB. destruct (a_bg (ex i)), (pc (a_q (ex i)) 0) as [l|[]|[]| | |b|r b|]; cbn in VB, PT; try discriminate; try contradiction; destruct VB as (u & ->); discriminate.
  - assert (Lj : j < n) by lia. pose proof (v_cl n _ I j Lj) as VC. assert (DJ : cl (ex i) j = DSend).
    { destruct (cl (ex i) j), (pc (a_q (ex i)) (S j)) as [l|[]|[]| | |b|r b|]; cbn in VC, PT; try discriminate; try contradiction; auto; destruct x; try discriminate; contradiction. }
    assert (NE : j <> k) by congruence. pose proof (count_upd CIdle is_dtor (a_cl (ex i)) j CIdle ltac:(rewrite (v_lc n _ I); exact Lj)) as CU. unfold cl in DJ. rewrite DJ in CU. cbn in CU.
    assert (CK : 0 < count is_dtor (upd (a_cl (ex i)) j CIdle)); [|lia].
    eapply (count_get CIdle) with (t := k); [rewrite upd_length, (v_lc n _ I); exact L|]. rewrite get_upd_other by auto. unfold cl in C. now rewrite C.
Qed.
Lemma joins : forall k i, cl (ex i) k = DJoin -> exists m, i <= m /\ cl (ex m) k = DDone.
Proof.
  intros k i C. destruct (gets_done i (join_shutdown k i C)) as (m1 & L1 & D). destruct (exits m1 D) as (m & L & B).
  destruct (client_until k i DJoin (ADtorRet k) m eq_refl C ltac:(lia)) as [H|Cm]; auto.
  destruct (client_leaves k DJoin (ADtorRet k) (fun j => m <= j) eq_refl) with (i := m) as (m' & L' & H); eauto.
  - intros j Cj Lj. unfold astep. rewrite (wr_throw _ _ _ WR j), Cj, (exit_stays m j Lj B). eauto.
  - intros j Cj Lj. split; [|intros; lia]. assert (K : k < n) by (eapply cl_lt; [apply a_inv|exact Cj|discriminate]). pose proof (v_cl n _ (a_inv j) k K) as VC. rewrite Cj in VC. now apply ok_idle.
  - exists m'. split; [lia|auto].
Qed.
Lemma destructor_returns : forall k i, cl (ex i) k = DSend \/ cl (ex i) k = DJoin -> exists m, i <= m /\ cl (ex m) k = DDone.
Proof.
  intros k i [C|C]; [|now apply joins]. destruct (call_over k DSend _ (or_intror eq_refl) eq_refl i C) as (m & L & H). destruct (joins k m H) as (m' & L' & H'). exists m'. split; [lia|auto].
Qed.
End Run.
