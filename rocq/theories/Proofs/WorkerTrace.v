(** Executions: schedules, the next step, futures, the end of the process. *)
From Coq Require Import List Arith Bool Lia.
From Verif.Base Require Import Threads.
From Verif.Model Require Import Worker.
From Verif.Spec Require Import WorkerSpec.
From Verif.Proofs Require Import WorkerLife WorkerHist WorkerBusy WorkerTok WorkerProm WorkerEnd.
Import ListNotations.

Lemma wsteps_app : forall s s1 s2, wsteps s s1 -> wsteps s1 s2 -> wsteps s s2.
Proof. intros s s1 s2 H W. induction W as [x|x x1 a x2 W IH E]; auto. exact (ws_step s x1 a x2 (IH H) E). Qed.
Lemma wrun_steps : forall l s s', wrun s l = Some s' -> wsteps s s'.
Proof.
  induction l as [|a l IH]; intros s s' E; cbn [wrun] in E; [injection E as <-; constructor|]. destruct (wstep s a) as [s1|] eqn:A; [|discriminate]. apply (wsteps_app s s1); auto. eapply ws_step; [constructor|exact A].
Qed.
Lemma wrun_reach : forall n l s, wrun (w_init n) l = Some s -> wreach n s.
Proof. intros n l s E. now apply wrun_steps with (l := l). Qed.
Lemma wrun_ind : forall (I : wstate -> Prop) (ok : waction -> Prop) l s s', I s -> (forall s a s', I s -> ok a -> wstep s a = Some s' -> I s') -> Forall ok l -> wrun s l = Some s' -> I s'.
Proof.
  intros I ok l. induction l as [|a l IH]; intros s s' H ST F E; cbn [wrun] in E; [injection E as <-; exact H|]. destruct (wstep s a) as [s1|] eqn:A; [|discriminate]. inversion F as [|? ? F1 F2]; subst. exact (IH s1 s' (ST s a s1 H F1 A) ST F2 E).
Qed.
Lemma step_old : forall s a s', wstep s a = Some s' -> prefix (w_old s) (w_old s').
Proof.
  intros s a s' E. destruct (wstep_move _ _ _ E) as [_ M].
  destruct M; try (exists []; rewrite app_nil_r; reflexivity); try (eexists; reflexivity); exists []; rewrite app_nil_r;
    try (match goal with |- context [push_sink ?u ?v ?w] => destruct (ps_frame u v w) as (A & _); cbn [set_cpc set_cl set_pc w_old]; rewrite A; reflexivity end);
    try (match goal with |- context [destroy ?u ?v] => destruct (ds_frame u v) as (A & _); cbn [set_cpc set_cl set_pc w_old]; rewrite A; reflexivity end);
    try (match goal with H : rel _ _ _ _ _ |- _ => apply rel_frame in H as (A & _); rewrite A; reflexivity end).
Qed.
Lemma steps_old : forall s s', wsteps s s' -> prefix (w_old s) (w_old s').
Proof. intros s s' W. induction W as [s|s s1 a s2 W IH E]; [apply prefix_refl|]. eapply prefix_trans; [exact IH|]. eapply step_old; eauto. Qed.

(** ** the next step *)
Definition candidates (s : wstate) : list waction :=
  AWork :: flat_map (fun k => [ASinkPop k; ASinkEnd k (Val 0); ASinkExit k]) (seq 0 (length (w_sk s))) ++ map AGo (seq 0 (length (w_cl s))).
Definition next_bg (s : wstate) : option waction := find (fun a => match wstep s a with Some _ => true | None => false end) (candidates s).
Lemma next_bg_some : forall s a, next_bg s = Some a -> bg a = true /\ exists s', wstep s a = Some s'.
Proof.
  intros s a H. apply find_some in H as [I H]. split.
  - destruct I as [<-|I]; [reflexivity|]. apply in_app_iff in I as [I|I].
    + apply in_flat_map in I as (k & _ & [<-|[<-|[<-|[]]]]); reflexivity.
    + apply in_map_iff in I as (i & <- & _). reflexivity.
  - destruct (wstep s a) as [s'|]; [eauto|discriminate].
Qed.
Lemma next_bg_none : forall s, next_bg s = None -> stuck s.
Proof.
  intros s H a G. assert (F : forall b, In b (candidates s) -> wstep s b = None) by (intros b I; pose proof (find_none _ _ H b I) as N; cbn beta in N; destruct (wstep s b); [discriminate|reflexivity]).
  assert (SKI : forall k b, k < length (w_sk s) -> In b [ASinkPop k; ASinkEnd k (Val 0); ASinkExit k] -> wstep s b = None).
  { intros k b L I. apply F. right. apply in_or_app. left. apply in_flat_map. exists k. split; [apply in_seq; lia|exact I]. }
  destruct a as [|k|k o|k|i|i|i|i|i k|i|i k|i k|i k|i| |]; try discriminate.
  - apply F. now left.
  - destruct (Nat.lt_ge_cases k (length (w_sk s))) as [L|L]; [apply (SKI k); cbn; auto|]. unfold wstep. destruct (w_proc s); auto. unfold sink_pop. rewrite sk_out by exact L. reflexivity.
  - destruct (Nat.lt_ge_cases k (length (w_sk s))) as [L|L].
    + assert (E : wstep s (ASinkEnd k (Val 0)) = None) by (apply (SKI k); cbn; auto). unfold wstep in *. destruct (w_proc s); auto. unfold sink_end in *. destruct (k_run (sk s k)); [discriminate|reflexivity].
    + unfold wstep. destruct (w_proc s); auto. unfold sink_end. rewrite sk_out by exact L. reflexivity.
  - destruct (Nat.lt_ge_cases k (length (w_sk s))) as [L|L]; [apply (SKI k); cbn; auto|]. unfold wstep. destruct (w_proc s); auto. unfold sink_exit. rewrite sk_out by exact L. reflexivity.
  - destruct (Nat.lt_ge_cases i (length (w_cl s))) as [L|L].
    + apply F. right. apply in_or_app. right. apply in_map. apply in_seq. lia.
    + unfold wstep. destruct (w_proc s); auto. unfold go, cl. rewrite get_out by exact L. reflexivity.
Qed.
Lemma bsteps_cons : forall m s s1 s' a, bg a = true -> wstep s a = Some s1 -> bsteps m s1 s' -> bsteps (S m) s s'.
Proof.
  intros m s s1 s' a G E B. induction B as [x|m x x1 b x2 B IH H W]; [eapply bs_step; [constructor|exact G|exact E]|]. eapply bs_step; [apply IH; exact E|exact H|exact W].
Qed.

(** ** futures *)
Lemma prom_step : forall s a s', wstep s a = Some s' ->
  w_prom s' = w_prom s \/ (exists x, w_prom s' = w_prom s ++ [x] /\ forall k o, x <> (k, Ready o)) \/ (exists k c o, a = ASinkEnd k o /\ k_run (sk s k) = Some (JCall c) /\ w_prom s' = upd (w_prom s) c (fst (get (0, BadWeak) (w_prom s) c), Ready o)).
Proof.
  intros s a s' E. unfold wstep in E. destruct (w_proc s) eqn:P; try discriminate. destruct a as [|k|k o|k|i|i|i|i|i k|i|i k|i k|i k|i| |].
  - left. unfold work in E. destruct (w_pc s) as [|m todo drop q|l q|u l q|i f|] eqn:W.
    + destruct (w_q s) as [|t q] eqn:Q; [discriminate|]. injection E as <-. destruct t as [m|m|i u|i u|i|]; try reflexivity. destruct (Nat.eqb (refs (pop s (TRemove i u) q) u) 0); reflexivity.
    + destruct todo as [|u todo]; injection E as <-; [reflexivity|]. apply (ps_frame s u (JMsg m)).
    + destruct l as [|u l]; [destruct q; injection E as <-; reflexivity|]. injection E as <-. destruct (Nat.eqb (refs (set_pc s (WDrop l q)) u) 0); [|reflexivity]. apply (ps_frame (set_pc s (WDrop l q)) u JDone).
    + destruct (k_exit (sk s u)); [|discriminate]. injection E as <-. apply (ds_frame s u).
    + injection E as <-. reflexivity.
    + discriminate.
  - left. unfold sink_pop in E. destruct (k_run (sk s k)); [discriminate|]. destruct (k_q (sk s k)); [discriminate|]. destruct (k_done (sk s k)); [discriminate|]. injection E as <-. reflexivity.
  - unfold sink_end in E. destruct (k_run (sk s k)) as [j|] eqn:R; [|discriminate]. injection E as <-. destruct j as [m|c|]; [left; destruct o; reflexivity| |left; reflexivity]. right. right. exists k, c, o. auto.
  - left. unfold sink_exit in E. destruct (k_done (sk s k) && negb (k_exit (sk s k))); [|discriminate]. injection E as <-. reflexivity.
  - left. assert (RL : forall u j k next, w_prom (release u j k next) = w_prom u) by (intros u j k next; destruct (rel_frame _ _ _ _ _ (release_rel u j k next)) as (_ & _ & _ & _ & _ & _ & H); apply H).
    unfold go in E. destruct (c_pc (cl s i)); try discriminate; try (injection E as <-; reflexivity); try (destruct (w_active s); injection E as <-; reflexivity); try (destruct (w_bg s); injection E as <-; reflexivity).
    + injection E as <-. now rewrite RL.
    + injection E as <-. now rewrite RL.
    + injection E as <-. apply (ps_frame s k (JCall c)).
    + injection E as <-. now rewrite RL.
    + destruct (k_exit (sk s k)); [|discriminate]. injection E as <-. apply (ds_frame s k).
    + destruct (w_pc s); try discriminate. injection E as <-. reflexivity.
  - destruct (idle s i); [|discriminate]. injection E as <-. now left.
  - destruct (idle s i); [|discriminate]. destruct (w_active s); injection E as <-; now left.
  - destruct (idle s i && negb (dtor_begun s)); [|discriminate]. injection E as <-. now left.
  - destruct (idle s i && negb (dtor_begun s) && has k (w_handles s)); [|discriminate]. destruct (Nat.eqb (refs s k) 0); injection E as <-; now left.
  - destruct (idle s i && negb (dtor_begun s)); [|discriminate]. injection E as <-. now left.
  - destruct (idle s i && has k (w_handles s)); [|discriminate]. right. left. destruct (Nat.eqb (refs s k) 0); injection E as <-; eexists; (split; [reflexivity|discriminate]).
  - destruct (idle s i && has k (w_handles s) && negb (Nat.eqb (refs s k) 0)); [|discriminate]. injection E as <-. now left.
  - destruct (idle s i && has k (c_hold (cl s i))); [|discriminate]. injection E as <-. left. destruct (rel_frame _ _ _ _ _ (release_rel s i k CIdle)) as (_ & _ & _ & _ & _ & _ & H). apply H.
  - destruct (idle s i && negb (existsb (fun c => managing (c_pc c)) (w_cl s))); [|discriminate]. injection E as <-. now left.
  - injection E as <-. now left.
  - destruct (w_active s || dtor_begun s); [discriminate|]. injection E as <-. now left.
Qed.
Lemma prom_ready : forall s a s' k c o, invE s -> wstep s a = Some s' -> nth_error (w_prom s') c = Some (k, Ready o) -> nth_error (w_prom s) c <> Some (k, Ready o) -> a = ASinkEnd k o /\ k_run (sk s k) = Some (JCall c).
Proof.
  intros s a s' k c o I E H N. destruct (prom_step s a s' E) as [P|[(x & P & Z)|(k' & c' & o' & A & R & P)]]; rewrite P in H; [contradiction|..].
  - rewrite nth_error_snoc in H. destruct (Nat.eqb c (length (w_prom s))); [|contradiction]. injection H as ->. exfalso. now apply (Z k o).
  - rewrite nth_error_upd in H. destruct (Nat.eqb_spec c c') as [->|NE]; [|contradiction]. destruct (Nat.ltb c' (length (w_prom s))); [|contradiction]. cbn [andb] in H.
    rewrite (nth_error_get _ (0, BadWeak) _ _ _ (running_pending s k' c' I R)) in H. cbn [fst] in H. injection H as -> ->. auto.
Qed.
Lemma steps_prom : forall n s s' c k p, wreach n s -> wsteps s s' -> p <> Pending -> nth_error (w_prom s) c = Some (k, p) -> nth_error (w_prom s') c = Some (k, p).
Proof.
  intros n s s' c k p R W NP H. induction W as [s|s s1 a s2 W IH E]; auto. specialize (IH R H). assert (R1 : wreach n s1) by (eapply reach_steps; eauto).
  destruct (prom_step s1 a s2 E) as [P|[(x & P & Z)|(k' & c' & o' & A & RN & P)]]; rewrite P; auto.
  - rewrite nth_error_snoc. destruct (Nat.eqb_spec c (length (w_prom s1))) as [->|]; [|exact IH]. exfalso. assert (length (w_prom s1) < length (w_prom s1)); [|lia]. apply nth_error_Some. congruence.
  - rewrite nth_error_upd. destruct (Nat.eqb_spec c c') as [->|]; [|exact IH]. rewrite (running_pending s1 k' c' (reach_E n s1 R1) RN) in IH. injection IH as _ IH. congruence.
Qed.

(** ** the end of the process *)
(** all cases of a step *)
Ltac scase E :=
  unfold wstep in E; match type of E with match w_proc ?s with _ => _ end = _ => let P := fresh "P" in destruct (w_proc s) eqn:P; try discriminate E end;
  match type of E with match ?a with _ => _ end = _ => destruct a end;
  try unfold work in E; try unfold sink_pop in E; try unfold sink_end in E; try unfold sink_exit in E; try unfold go in E;
  repeat (cbv zeta in E; match type of E with
    | match ?x with _ => _ end = Some _ => let C := fresh "C" in destruct x eqn:C
    | Some (match ?x with _ => _ end) = Some _ => let C := fresh "C" in destruct x eqn:C
    | None = Some _ => discriminate E
    end);
  try (injection E as <-).
Ltac sunf := unfold release, push_sink, destroy; repeat match goal with |- context [if ?b then _ else _] => destruct b end.
Lemma active_step : forall s a s', wstep s a = Some s' -> no_shutdown a -> w_active s' = w_active s \/ w_active s' = true \/ exists m, In (TFatal m) (w_old s').
Proof.
  intros s a s' E N. scase E; try (now cbn in N); try (left; reflexivity); try (right; left; reflexivity); try (left; sunf; cbn; congruence); right; right; exists m; cbn; apply in_or_app; right; now left.
Qed.
Lemma ub_only : forall s a s', wstep s a = Some s' -> w_proc s' = PUb ->
  exists i m, a = AGo i /\ ((w_active s = false /\ (c_pc (cl s i) = CLog1 m \/ c_pc (cl s i) = CFat1 m)) \/ (w_bg s = false /\ (c_pc (cl s i) = CLog2 m \/ c_pc (cl s i) = CFat2 m))).
Proof. intros s a s' E. scase E; try (sunf; cbn; intro; congruence); intros _; eauto 8. Qed.
Lemma exit_step : forall s a s', wstep s a = Some s' -> w_proc s' = PExit -> w_active s' = false.
Proof. intros s a s' E. scase E; try (sunf; cbn; intro; congruence); auto. Qed.
Lemma exit_fatal : forall n l s, wrun (w_init n) l = Some s -> Forall no_shutdown l -> w_proc s = PExit -> exists m, In (TFatal m) (w_old s).
Proof.
  intros n l s E F P.
  assert (J : (w_active s = false -> exists m, In (TFatal m) (w_old s)) /\ (w_proc s = PExit -> w_active s = false)); [|destruct J; auto].
  revert E. apply (wrun_ind (fun s => (w_active s = false -> exists m, In (TFatal m) (w_old s)) /\ (w_proc s = PExit -> w_active s = false)) no_shutdown l (w_init n) s); [split; discriminate| |exact F].
  intros s0 a s1 [J1 J2] N E. split; [|eapply exit_step; eauto]. intro A. destruct (step_old s0 a s1 E) as [r O]. destruct (active_step s0 a s1 E N) as [H|[H|H]]; [|congruence|exact H].
  destruct J1 as [m J1]; [congruence|]. exists m. rewrite O. apply in_or_app. now left.
Qed.

Fixpoint calm_pc (p : cpc) : bool :=
  match p with CFat1 _ | CFat2 _ | D0 _ | DClrW _ | DClrR _ | DJoin _ | DDone _ => false | CJoin _ next => calm_pc next | _ => true end.
Definition allcalm (l : list client) : Prop := forall i, calm_pc (c_pc (get new_client l i)) = true.
Lemma allcalm_upd : forall l i c, allcalm l -> calm_pc (c_pc c) = true -> allcalm (upd l i c).
Proof.
  intros l i c A C j. destruct (Nat.lt_ge_cases i (length l)) as [L|L].
  - destruct (Nat.eq_dec j i) as [->|N]; [now rewrite get_upd_same|rewrite get_upd_other by auto; apply A].
  - destruct (Nat.lt_ge_cases j (length l)); [rewrite get_upd_other by lia; apply A|rewrite get_out by (rewrite upd_length; lia); reflexivity].
Qed.
Record invC (s : wstate) : Prop := { c_act : w_active s = true; c_bg : w_bg s = true; c_fat : forall m, ~ In (TFatal m) (entered s); c_cl : allcalm (w_cl s); c_proc : w_proc s = PRun \/ w_proc s = PTerm }.
Lemma calm_step : forall n s a s', wreach n s -> invC s -> calm_action a -> wstep s a = Some s' -> invC s'.
Proof.
  intros n s a s' R [A B F C P] N E. assert (NK : w_pc s <> WDrop [] KKill).
  { intro W. destruct (reach_inv n s R) as [_ _ IP _ _]. destruct IP as [[Z _]|(pre & t & O & _ & BZ)]; [congruence|]. rewrite W in BZ. destruct t as [m|m|u v|u v|u|]; cbn [busy] in BZ; [|apply (F m); unfold entered; rewrite O; apply in_or_app; left; apply in_or_app; right; now left|..];
    repeat (match goal with H : _ \/ _ |- _ => destruct H | H : exists _, _ |- _ => destruct H | H : _ /\ _ |- _ => destruct H end); discriminate. }
  split.
  - scase E; try exact A; try (sunf; cbn; congruence); try contradiction. exfalso. apply (F m). unfold entered. rewrite C1. apply in_or_app. right. now left.
  - assert (CI : forall i, calm_pc (c_pc (cl s i)) = true) by exact C. scase E; try exact B; try (sunf; cbn; congruence); try contradiction. specialize (CI i). rewrite C0 in CI. discriminate.
  - intros m0 H. apply (F m0). assert (CI : forall i, calm_pc (c_pc (cl s i)) = true) by exact C. revert H. unfold entered in *.
    scase E; try contradiction; try exact (fun H => H); try (match goal with H : w_q s = _ |- _ => rewrite H end); sunf; cbn [w_old w_q set_pc set_sinks set_err set_active set_proc set_cpc set_cl set_hold set_sk set_sinkub set_prom set_handles set_bg push pop count_log acquire]; try exact (fun H => H); try (rewrite <- app_assoc; exact (fun H => H));
      rewrite app_assoc; intro H; apply in_app_iff in H as [H|[H|[]]]; auto; try discriminate.
    specialize (CI i). rewrite C0 in CI. discriminate.
  - assert (CI : forall i, calm_pc (c_pc (cl s i)) = true) by exact C.
    assert (SG : forall p, calm_pc (signal p) = calm_pc p) by (intros []; reflexivity).
    scase E; try contradiction; sunf; unfold count_log, set_cpc, set_hold, cl in *; cbn; repeat (apply allcalm_upd); auto; try exact (CI _); try (cbn [c_pc]; rewrite SG; exact (CI _));
      specialize (CI i); rewrite C0 in CI; cbn in *; congruence.
  - scase E; try contradiction; sunf; cbn; auto; try congruence.
    all: assert (CI : calm_pc (c_pc (cl s i)) = true) by apply C; rewrite C0 in CI; discriminate.
Qed.
Lemma calm_run : forall n l s, wrun (w_init n) l = Some s -> Forall calm_action l -> w_proc s = PRun \/ w_proc s = PTerm.
Proof.
  intros n l s E F. assert (J : wreach n s /\ invC s); [|apply J].
  revert E. apply (wrun_ind (fun s => wreach n s /\ invC s) calm_action l (w_init n) s); [|intros s0 a s1 [R I] N E; split; [eapply ws_step; eauto|eapply calm_step; eauto]|exact F].
  split; [constructor|]. split; cbn; auto. intros i. unfold get. destruct (Nat.lt_ge_cases i n) as [L|L]; [|rewrite nth_overflow by (rewrite repeat_length; lia); reflexivity]. now rewrite nth_repeat.
Qed.
