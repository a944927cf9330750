(** Facts about calls from the library's own threads. *)
From Coq Require Import List Arith Bool Lia.
From Verif.Base Require Import Threads.
From Verif.Model Require Import Worker Reentry.
From Verif.Spec Require Import WorkerSpec ReentrySpec.
From Verif.Proofs Require Import WorkerLife WorkerHist WorkerBusy WorkerTok WorkerNum WorkerProm WorkerMeasure WorkerWait WorkerEnd WorkerTrace.
Import ListNotations.

(** ** from rstep to wstep *)
Lemma rstep_cases : forall h s a s', rstep h s a = Some s' -> allowed h s a = true /\ w_proc s = PRun /\
  (wstep s a = Some s' /\ self_join h s a = false \/ s' = set_proc s PTerm /\ self_join h s a = true).
Proof.
  intros h s a s' E. unfold rstep in E. destruct (allowed h s a); [|discriminate]. split; [reflexivity|].
  destruct (self_join h s a).
  - destruct (w_proc s) eqn:P; try discriminate. injection E as <-. auto.
  - split; [|auto]. unfold wstep in E. now destruct (w_proc s).
Qed.
Lemma rreach_wreach : forall h n s, rreach h n s -> (w_proc s <> PTerm -> wreach n s) /\
  (w_proc s = PTerm -> wreach n s \/ exists s0, rreach h n s0 /\ wreach n s0 /\ w_proc s0 = PRun /\ s = set_proc s0 PTerm).
Proof.
  intros h n s R. remember (w_init n) as s0 eqn:I. unfold rreach in R. rewrite <- I in R. induction R as [s|s s1 a s2 R IH E]; subst.
  - split; intros; [constructor|left; constructor].
  - specialize (IH eq_refl). destruct (rstep_cases _ _ _ _ E) as (_ & P & [[W _]|[-> J]]).
    + assert (W1 : wreach n s1) by (apply IH; congruence). assert (W2 : wreach n s2) by (eapply reach_steps; [exact W1|]; eapply ws_step; [constructor|exact W]). split; auto.
    + split; [intro C; now destruct C|]. intros _. right. exists s1. split; [exact R|]. split; [apply IH; congruence|]. auto.
Qed.
(** forgetting whether the process runs *)
Lemma rreach_view : forall h n s, rreach h n s -> exists s0, wreach n s0 /\ (s = s0 \/ s = set_proc s0 PTerm).
Proof.
  intros h n s R. destruct (rreach_wreach h n s R) as [A B]. destruct (w_proc s) eqn:P; try (exists s; split; [apply A; congruence|auto]).
  destruct (B eq_refl) as [W|(s0 & _ & W & _ & E)]; eauto.
Qed.
Lemma rreach_run : forall h n s, rreach h n s -> w_proc s = PRun -> wreach n s.
Proof. intros h n s R P. apply (rreach_wreach h n s R). congruence. Qed.
Lemma rsteps_app : forall h s s1 s2, rsteps h s s1 -> rsteps h s1 s2 -> rsteps h s s2.
Proof. intros h s s1 s2 A B. induction B as [|s1 x a y B IH E]; [exact A|]. eapply rs_step; [apply IH; exact A|exact E]. Qed.
Lemma rrun_steps : forall h l s s', rrun h s l = Some s' -> rsteps h s s'.
Proof.
  induction l as [|a l IH]; intros s s' E; cbn [rrun] in E; [injection E as <-; constructor|]. destruct (rstep h s a) as [s1|] eqn:A; [|discriminate].
  apply (rsteps_app h s s1); auto. eapply rs_step; [constructor|exact A].
Qed.

(** ** who changes what *)
Lemma cl_set_any : forall s i c j, cl (set_cl s i c) j = if Nat.eqb j i && Nat.ltb i (length (w_cl s)) then c else cl s j.
Proof.
  intros s i c j. destruct (Nat.ltb_spec i (length (w_cl s))) as [L|L]; [now rewrite cl_set, andb_true_r|]. rewrite andb_false_r. unfold cl. cbn [set_cl w_cl]. now rewrite upd_out.
Qed.
Lemma len_cl : forall s a s', wstep s a = Some s' -> length (w_cl s') = length (w_cl s).
Proof. intros s a s' E. scase E; try reflexivity; sunf; cbn; rewrite ?upd_length; reflexivity. Qed.
Lemma step_pc : forall s a s', wstep s a = Some s' -> a <> AWork -> w_pc s' = w_pc s.
Proof. intros s a s' E N. scase E; try congruence; try reflexivity; sunf; try reflexivity; cbn; congruence. Qed.
Lemma step_oldq : forall s a s', wstep s a = Some s' -> a <> AWork -> w_old s' = w_old s /\ w_proc s' <> PKilled.
Proof. intros s a s' E N. scase E; try congruence; try (split; [reflexivity|cbn; congruence]); sunf; (split; [reflexivity|cbn; congruence]). Qed.
(** of which client is the action? *)
Definition client_of (a : waction) : option nat :=
  match a with
  | AGo i | ALog i | AAdd i | ARemove i _ | ARemoveAll i | ACall i _ | ALock i _ | ARelease i _ | ADestroy i | AFatal i => Some i
  | _ => None
  end.
Lemma step_cl : forall s a s' i, wstep s a = Some s' -> a <> AWork -> client_of a <> Some i -> cl s' i = cl s i.
Proof.
  intros s a s' i E N B. scase E; try congruence; try reflexivity; cbn [client_of] in B;
    (assert (NE : i <> i0) by congruence); unfold release, push_sink, destroy, acquire; sunf; unfold cl;
    cbn [set_cpc set_hold count_log set_cl set_proc push set_sk set_sinkub set_handles set_prom set_bg set_active w_cl];
    rewrite ?(get_upd_other new_client) by exact NE; reflexivity.
Qed.

(** is the client in a fatal event, or in another call? *)
Inductive class := Idle | Fatal | Call.
Fixpoint cls (p : cpc) : class :=
  match p with
  | CIdle => Idle
  | CFat1 _ | CFat2 _ | CFatBlock => Fatal
  | CJoin _ next => match cls next with Fatal => Fatal | _ => Call end
  | _ => Call
  end.
Lemma cls_idle : forall p, cls p = Idle -> p = CIdle.
Proof. destruct p; cbn; try discriminate; auto. now destruct (cls p). Qed.
Lemma cls_signal : forall p, cls (signal p) = cls p.
Proof. now destruct p. Qed.
(** a step by client i *)
Lemma step_cls : forall s a s' i, wstep s a = Some s' -> client_of a = Some i ->
  cls (c_pc (cl s' i)) = cls (c_pc (cl s i)) \/ c_pc (cl s' i) = CIdle \/
  (c_pc (cl s i) = CIdle /\ cls (c_pc (cl s' i)) = match a with AFatal _ => Fatal | _ => Call end /\ forall j, a <> AGo j).
Proof.
  intros s a s' i E B. destruct (Nat.lt_ge_cases i (length (w_cl s))) as [L|L].
  2: { left. unfold cl. rewrite !get_out; auto. now rewrite (len_cl s a s' E). }
  scase E; cbn [client_of] in B; try discriminate B; injection B as ->;
    repeat match goal with H : _ && _ = true |- _ => apply andb_prop in H as [H ?] end;
    try match goal with H : idle _ _ = true |- _ => apply idle_spec in H as [_ H] end;
    unfold release, push_sink, destroy, acquire; sunf; unfold cl in *;
    cbn [set_cpc set_hold count_log set_cl set_proc push set_sk set_sinkub set_handles set_prom set_bg set_active w_cl];
    rewrite ?(get_upd_same new_client) by (rewrite ?upd_length; exact L); cbn [c_pc]; 
    repeat match goal with H : c_pc _ = _ |- _ => rewrite H in * end; cbn [cls]; auto;
    try (right; right; split; [reflexivity|]; split; [reflexivity|]; discriminate);
    destruct (cls c) eqn:K; auto; right; left; now apply cls_idle.
Qed.

(** ** what holds while a call runs on a library thread *)
Lemma free_busy : forall h s t i, free h s t = true -> same_thread (h i) t = true -> c_pc (cl s i) = CIdle.
Proof.
  intros h s t i F S. destruct (Nat.lt_ge_cases i (length (w_cl s))) as [L|L]; [|unfold cl; now rewrite get_out].
  unfold free in F. rewrite forallb_forall in F. specialize (F i). rewrite in_seq in F. specialize (F ltac:(lia)). rewrite S in F. cbn [negb orb] in F. now apply idle_spec in F.
Qed.
Lemma same_sink : forall t k, same_thread t (OnSink k) = true <-> t = OnSink k.
Proof. intros t k. destruct t as [|j|]; cbn; try (split; discriminate). rewrite Nat.eqb_eq. split; congruence. Qed.
Lemma same_worker : forall t, same_thread t OnWorker = true <-> t = OnWorker.
Proof. intro t. destruct t; cbn; split; congruence. Qed.

Definition hosted1 (h : nat -> thread) (s : wstate) (i : nat) : Prop :=
  match h i with
  | OwnThread => True
  | OnSink k => match cls (c_pc (cl s i)) with Idle => True | Fatal => k_exit (sk s k) = false | Call => k_exit (sk s k) = false /\ in_callback s k = true end
  | OnWorker => match cls (c_pc (cl s i)) with Idle => True | Fatal => w_pc s <> WExit | Call => in_destructor s = true end
  end.
Definition hosted (h : nat -> thread) (s : wstate) : Prop := forall i, hosted1 h s i.

Lemma callback_exit : forall s k, invA s -> in_callback s k = true -> k_exit (sk s k) = false.
Proof.
  intros s k IA C. destruct (k_exit (sk s k)) eqn:X; [|reflexivity]. exfalso. unfold in_callback in C.
  assert (R : k_run (sk s k) = None).
  { destruct (Nat.lt_ge_cases k (length (w_sk s))) as [L|L]; [|now rewrite sk_out]. apply (exit_flushed s k IA). destruct (k_of s k IA L) as [_ _ _ _ e _]. now apply e. }
  now rewrite R in C.
Qed.
Lemma callback_lt : forall s k, in_callback s k = true -> k < length (w_sk s).
Proof. intros s k C. destruct (Nat.lt_ge_cases k (length (w_sk s))) as [L|L]; [exact L|]. unfold in_callback in C. now rewrite sk_out in C. Qed.
(** steps of others keep what a thread is in *)
Lemma keep_sink : forall s a s' k, wstep s a = Some s' -> own k a = false -> k_exit (sk s k) = false -> k_exit (sk s' k) = false /\ k_run (sk s' k) = k_run (sk s k).
Proof.
  intros s a s' k E O X. assert (L : k < length (w_sk s)) by (destruct (Nat.lt_ge_cases k (length (w_sk s))) as [L|L]; [exact L|]; now rewrite sk_out in X).
  destruct (other_step s a s' k E O L) as (A & _ & _ & B & _). split; congruence.
Qed.
Lemma exit_done : forall s k, invA s -> k_exit (sk s k) = true -> k_done (sk s k) = true.
Proof.
  intros s k IA X. destruct (Nat.lt_ge_cases k (length (w_sk s))) as [L|L]; [|now rewrite sk_out]. destruct (k_of s k IA L) as [_ _ _ _ e _]. now apply e.
Qed.
Lemma keep_exit : forall s a s' k, invA s -> wstep s a = Some s' -> k < length (w_sk s) -> k_exit (sk s k) = true -> k_exit (sk s' k) = true.
Proof.
  intros s a s' k IA E L X. destruct (own k a) eqn:O; [|destruct (other_step s a s' k E O L) as (_ & _ & _ & B & _); congruence].
  exfalso. pose proof (exit_done s k IA X) as D. destruct (exit_flushed s k IA D) as [Q R].
  scase E; try discriminate O; cbn [own] in O; apply Nat.eqb_eq in O; subst; try congruence.
  apply andb_prop in C as [_ C]. rewrite X in C. discriminate.
Qed.
Lemma keep_destructor : forall s a s', invA s -> wstep s a = Some s' -> a <> AWork -> in_destructor s = true -> in_destructor s' = true.
Proof.
  intros s a s' IA E N D. unfold in_destructor in *. rewrite (step_pc s a s' E N). destruct (w_pc s) as [| | |k l q| |] eqn:W; try discriminate.
  apply (keep_exit s a s' k IA E); auto. apply (life_ltJ _ _ _ _ (a_life s IA)). unfold jn. rewrite W. cbn [wjoin]. rewrite Nat.eqb_refl. cbn [b2n]. lia.
Qed.

Lemma work_cls : forall s s' i, wstep s AWork = Some s' -> cls (c_pc (cl s' i)) = cls (c_pc (cl s i)).
Proof.
  intros s s' i E. assert (X : exists a, a = AWork /\ wstep s a = Some s') by eauto. clear E. destruct X as (a & A & E). scase E; try discriminate A; clear A; try reflexivity; try (sunf; reflexivity).
  change (cls (c_pc (cl (set_cpc s i0 (signal (c_pc (cl s i0)))) i)) = cls (c_pc (cl s i))). unfold set_cpc. rewrite cl_set_any.
  destruct (Nat.eqb_spec i i0) as [->|]; [|reflexivity]. destruct (Nat.ltb i0 (length (w_cl s))); cbn [andb]; [|reflexivity]. apply cls_signal.
Qed.
Lemma hosted_step : forall h s a s', invA s -> hosted h s -> allowed h s a = true -> wstep s a = Some s' -> hosted h s'.
Proof.
  intros h s a s' IA H AL E i. specialize (H i). unfold hosted1 in *. destruct (h i) as [|k|] eqn:HI; [exact I|..].
  - (* on sink k *)
    destruct (own k a) eqn:O.
    + assert (F : free h s (OnSink k) = true) by (destruct a; try discriminate O; cbn [own] in O; apply Nat.eqb_eq in O; subst; exact AL).
      pose proof (free_busy h s (OnSink k) i F (proj2 (same_sink _ _) HI)) as ID.
      assert (EQ : cl s' i = cl s i) by (apply (step_cl s a s' i E); destruct a; discriminate). rewrite EQ, ID. exact I.
    + assert (K : k_exit (sk s k) = false -> k_exit (sk s' k) = false /\ in_callback s' k = in_callback s k).
      { intro X. destruct (keep_sink s a s' k E O X) as [A B]. split; [exact A|]. unfold in_callback. now rewrite B. }
      assert (G : forall c, cls (c_pc (cl s i)) = c -> match c with Idle => True | Fatal => k_exit (sk s' k) = false | Call => k_exit (sk s' k) = false /\ in_callback s' k = true end).
      { intros c EC. rewrite EC in H. destruct c; [exact I|now apply K|]. destruct H as [X C]. destruct (K X) as [A B]. split; congruence. }
      destruct (option_map (Nat.eqb i) (client_of a)) as [[|]|] eqn:CO; cycle 1.
      * assert (EQ : cl s' i = cl s i). { apply (step_cl s a s' i E); [intros ->; discriminate|]. intro C. rewrite C in CO. cbn in CO. rewrite Nat.eqb_refl in CO. discriminate. } rewrite EQ. now apply G.
      * destruct a; try discriminate CO.
        { rewrite (work_cls s s' i E). now apply G. }
        all: assert (EQ : cl s' i = cl s i) by (apply (step_cl _ _ s' i E); discriminate); rewrite EQ; now apply G.
      * assert (C : client_of a = Some i). { destruct (client_of a) as [j|]; [|discriminate]. cbn in CO. injection CO as CO. apply Nat.eqb_eq in CO. now subst. }
        destruct (step_cls s a s' i E C) as [S|[S|(S1 & S2 & NG)]]; [rewrite S; now apply G|rewrite S; exact I|].
        rewrite S2. assert (M : match a with AFatal _ => may_fail h s i | _ => may_call h s i end = true) by (destruct a; cbn [client_of] in C; try discriminate C; injection C as ->; [now destruct (NG i)|exact AL..]).
        unfold may_fail, may_call in M. rewrite HI in M. destruct a; cbn [client_of] in C; try discriminate C; apply andb_prop in M as [_ M].
        all: try (apply negb_true_iff in M; now apply K).
        all: pose proof (callback_exit s k IA M) as X; destruct (K X) as [A B]; split; congruence.
  - (* on the worker *)
    assert (DEC : {a = AWork} + {a <> AWork}) by (destruct a; (left; reflexivity) || (right; discriminate)). destruct DEC as [->|NW].
    + pose proof (free_busy h s OnWorker i AL (proj2 (same_worker _) HI)) as ID. rewrite (work_cls s s' i E), ID. exact I.
    + assert (G : forall c, cls (c_pc (cl s i)) = c -> match c with Idle => True | Fatal => w_pc s' <> WExit | Call => in_destructor s' = true end).
      { intros c EC. rewrite EC in H. destruct c; [exact I|now rewrite (step_pc s a s' E NW)|]. now apply (keep_destructor s a s'). }
      destruct (option_map (Nat.eqb i) (client_of a)) as [[|]|] eqn:CO; cycle 1.
      * assert (EQ : cl s' i = cl s i). { apply (step_cl s a s' i E NW). intro C. rewrite C in CO. cbn in CO. rewrite Nat.eqb_refl in CO. discriminate. } rewrite EQ. now apply G.
      * assert (EQ : cl s' i = cl s i) by (apply (step_cl s a s' i E NW); intro C; rewrite C in CO; discriminate). rewrite EQ. now apply G.
      * assert (C : client_of a = Some i). { destruct (client_of a) as [j|]; [|discriminate]. cbn in CO. injection CO as CO. apply Nat.eqb_eq in CO. now subst. }
        destruct (step_cls s a s' i E C) as [S|[S|(S1 & S2 & NG)]]; [rewrite S; now apply G|rewrite S; exact I|].
        rewrite S2. assert (M : match a with AFatal _ => may_fail h s i | _ => may_call h s i end = true) by (destruct a; cbn [client_of] in C; try discriminate C; injection C as ->; [now destruct (NG i)|exact AL..]).
        unfold may_fail, may_call in M. rewrite HI in M. destruct a; cbn [client_of] in C; try discriminate C; apply andb_prop in M as [_ M].
        all: try (now apply (keep_destructor s _ s' IA E)).
        rewrite (step_pc s _ s' E NW). now destruct (w_pc s).
Qed.
Lemma reach_hosted : forall h n s, rreach h n s -> hosted h s.
Proof.
  intros h n s R. unfold rreach in R. remember (w_init n) as s0 eqn:I0. induction R as [s|s s1 a s2 R IH E]; subst.
  - intro i. unfold hosted1. rewrite cl_init. cbn. now destruct (h i).
  - specialize (IH eq_refl). destruct (rstep_cases _ _ _ _ E) as (AL & P & [[W _]|[-> J]]).
    + apply (hosted_step h s1 a s2); auto. apply (reach_A n). now apply (rreach_run h).
    + exact IH.
Qed.

(** ** deadlocks *)
Lemma asks_stuck : forall s a i, asks_worker (c_pc (cl s i)) = true -> client_of a = Some i -> wstep s a = None.
Proof.
  intros s a i A C. assert (ID : idle s i = false) by (unfold idle; destruct (c_pc (cl s i)); try discriminate A; apply andb_false_r).
  unfold wstep. destruct (w_proc s); auto. destruct a; cbn [client_of] in C; try discriminate C; injection C as ->; try (now rewrite ID).
  unfold go. destruct (c_pc (cl s i)); try discriminate A; reflexivity.
Qed.
Lemma asks_cls : forall p, asks_worker p = true -> cls p <> Idle.
Proof. destruct p; cbn; congruence. Qed.
Lemma asks_notidle : forall p, asks_worker p = true -> p <> CIdle.
Proof. destruct p; cbn; congruence. Qed.
Lemma asks_keep : forall s a s' i, asks_worker (c_pc (cl s i)) = true -> a <> AWork -> wstep s a = Some s' -> cl s' i = cl s i.
Proof.
  intros s a s' i A N E. apply (step_cl s a s' i E N). intro C. rewrite (asks_stuck s a i A C) in E. discriminate.
Qed.
Lemma deadlock_worker : forall h s i, h i = OnWorker -> asks_worker (c_pc (cl s i)) = true ->
  forall s', rsteps h s s' -> c_pc (cl s' i) = c_pc (cl s i) /\ w_pc s' = w_pc s /\ w_old s' = w_old s /\ (w_proc s <> PKilled -> w_proc s' <> PKilled).
Proof.
  intros h s i H A s' S. induction S as [s|s s1 a s2 S IH E]; [auto|]. specialize (IH A). destruct IH as (I1 & I2 & I3 & I4).
  destruct (rstep_cases _ _ _ _ E) as (AL & P & [[W J]|[-> J]]).
  - assert (N : a <> AWork). { intros ->. apply (asks_notidle _ A). rewrite <- I1. apply (free_busy h s1 OnWorker i AL). now apply same_worker. }
    rewrite (asks_keep s1 a s2 i ltac:(now rewrite I1) N W), (step_pc s1 a s2 W N). destruct (step_oldq s1 a s2 W N) as [O K]. repeat split; try congruence; auto.
  - repeat split; auto. discriminate.
Qed.
Lemma frozen_step : forall h s a s' i k, h i = OnSink k -> asks_worker (c_pc (cl s i)) = true -> k_exit (sk s k) = false -> allowed h s a = true -> wstep s a = Some s' ->
  k_exit (sk s' k) = false /\ k_run (sk s' k) = k_run (sk s k) /\ k_got (sk s' k) = k_got (sk s k).
Proof.
  intros h s a s' i k H A X AL W. assert (O : own k a = false).
  { destruct (own k a) eqn:O; [|reflexivity]. exfalso. apply (asks_notidle _ A). apply (free_busy h s (OnSink k) i); [|now apply same_sink].
    destruct a; try discriminate O; cbn [own] in O; apply Nat.eqb_eq in O; subst; exact AL. }
  assert (L : k < length (w_sk s)) by (destruct (Nat.lt_ge_cases k (length (w_sk s))) as [L|L]; [exact L|]; now rewrite sk_out in X).
  destruct (other_step s a s' k W O L) as (R & G & _ & B & _). repeat split; congruence.
Qed.
Lemma hosted_exit : forall h s i k, hosted h s -> h i = OnSink k -> cls (c_pc (cl s i)) <> Idle -> k_exit (sk s k) = false.
Proof. intros h s i k HO H N. specialize (HO i). unfold hosted1 in HO. rewrite H in HO. destruct (cls (c_pc (cl s i))); [now destruct N|exact HO|apply HO]. Qed.
Lemma deadlock_sink : forall h n s i k l q, rreach h n s -> w_proc s = PRun -> h i = OnSink k -> asks_worker (c_pc (cl s i)) = true -> w_pc s = WJoin k l q ->
  forall s', rsteps h s s' -> w_pc s' = WJoin k l q /\ c_pc (cl s' i) = c_pc (cl s i) /\ w_old s' = w_old s /\ k_got (sk s' k) = k_got (sk s k) /\ w_proc s' <> PKilled.
Proof.
  intros h n s i k l q R P H A J s' S. assert (X : k_exit (sk s k) = false) by (apply (hosted_exit h s i k (reach_hosted h n s R) H), asks_cls, A).
  assert (G : k_exit (sk s' k) = false /\ w_pc s' = WJoin k l q /\ c_pc (cl s' i) = c_pc (cl s i) /\ w_old s' = w_old s /\ k_got (sk s' k) = k_got (sk s k) /\ w_proc s' <> PKilled); [|tauto].
  clear R. induction S as [s|s s1 a s2 S IH E]; [repeat split; auto; congruence|]. specialize (IH P A J X). destruct IH as (I0 & I1 & I2 & I3 & I5 & I4).
  destruct (rstep_cases _ _ _ _ E) as (AL & P1 & [[W SJ]|[-> SJ]]).
  - assert (N : a <> AWork). { intros ->. unfold wstep, work in W. rewrite P1, I1, I0 in W. discriminate. }
    assert (A1 : asks_worker (c_pc (cl s1 i)) = true) by (now rewrite I2). destruct (frozen_step h s1 a s2 i k H A1 I0 AL W) as (X2 & _ & G2).
    rewrite (asks_keep s1 a s2 i A1 N W), (step_pc s1 a s2 W N). destruct (step_oldq s1 a s2 W N) as [O K]. repeat split; congruence.
  - repeat split; auto. discriminate.
Qed.

(** ** deciding *)
Lemma cl_dec : forall (Q : nat -> client -> Prop) s, (forall i c, {Q i c} + {~ Q i c}) -> (forall i, ~ Q i new_client) -> {exists i, Q i (cl s i)} + {forall i, ~ Q i (cl s i)}.
Proof.
  intros Q s D N. assert (H : forall m, {exists i, i < m /\ Q i (cl s i)} + {forall i, i < m -> ~ Q i (cl s i)}).
  { induction m as [|m [Y|F]]; [right; lia|left; destruct Y as (i & L & Y); exists i; split; [lia|exact Y]|].
    destruct (D m (cl s m)) as [Y|Z]; [left; exists m; auto|right]. intros i L. destruct (Nat.eq_dec i m) as [->|]; [exact Z|]. apply F. lia. }
  destruct (H (length (w_cl s))) as [Y|F]; [left; destruct Y as (i & _ & Y); eauto|right]. intro i. destruct (Nat.lt_ge_cases i (length (w_cl s))) as [L|L]; [now apply F|].
  unfold cl. rewrite get_out by exact L. apply N.
Qed.
Lemma hold_dec : forall s k, {exists j, In k (c_hold (cl s j))} + {forall j, ~ In k (c_hold (cl s j))}.
Proof. intros s k. apply (cl_dec (fun _ c => In k (c_hold c))); [intros; apply in_dec, Nat.eq_dec|auto]. Qed.
Lemma join_dec : forall s k, {exists j next, c_pc (cl s j) = CJoin k next} + {forall j next, c_pc (cl s j) <> CJoin k next}.
Proof.
  intros s k. destruct (cl_dec (fun _ c => exists next, c_pc c = CJoin k next) s) as [Y|F].
  - intros _ c. destruct (c_pc c) as [| | | | | | | | | | | | | | | |u p| | | | |]; try (right; intros [? ?]; discriminate). destruct (Nat.eq_dec u k) as [->|N]; [left; eauto|right; intros [? E]; congruence].
  - intros _ [? E]. discriminate.
  - left. exact Y.
  - right. intros j next E. apply (F j). eauto.
Qed.
Lemma rmw_dec : forall s i k, {exists j h', j <> i /\ c_pc (cl s j) = CRmW k h'} + {forall j h', j <> i -> c_pc (cl s j) <> CRmW k h'}.
Proof.
  intros s i k. destruct (cl_dec (fun j c => j <> i /\ exists h', c_pc c = CRmW k h') s) as [Y|F].
  - intros j c. destruct (Nat.eq_dec j i) as [->|N]; [right; intros [C _]; now apply C|]. destruct (c_pc c) as [| | | | | | | | | |u h| | | | | | | | | | |]; try (right; intros [_ [? ?]]; discriminate).
    destruct (Nat.eq_dec u k) as [->|N2]; [left; eauto|right; intros [_ [? E]]; congruence].
  - intros j [_ [? E]]. discriminate.
  - left. destruct Y as (j & N & h' & E). eauto.
  - right. intros j h' N E. apply (F j). eauto.
Qed.

(** ** boundedness *)
Lemma rb_done : forall h m s s', rbsteps h m s s' -> w_proc s <> PRun -> m = 0 /\ s' = s.
Proof.
  intros h m s s' B N. induction B as [s|m s s1 a s2 B IH G E]; [auto|]. destruct (IH N) as [-> ->]. destruct (rstep_cases _ _ _ _ E) as (_ & P & _). congruence.
Qed.
Lemma rb_b : forall h m s s', rbsteps h m s s' -> exists m' s1, bsteps m' s s1 /\ m <= S m' /\ (w_proc s' = PRun -> m' = m /\ s1 = s').
Proof.
  intros h m s s' B. induction B as [s|m s s1 a s2 B IH G E]; [exists 0, s; split; [constructor|]; auto|].
  destruct IH as (m' & x & B1 & LE & K). destruct (rstep_cases _ _ _ _ E) as (_ & P & [[W _]|[-> _]]); destruct (K P) as [-> ->].
  - exists (S m), s2. split; [|auto]. eapply bs_step; [exact B1| |exact W]. now destruct a.
  - exists m, s1. split; [exact B1|]. split; [lia|]. discriminate.
Qed.

(** ** no thread joins itself *)
Definition noself (h : nat -> thread) (s : wstate) : Prop := forall i k, h i = OnSink k -> ~ In k (c_hold (cl s i)) /\ forall next, c_pc (cl s i) <> CJoin k next.
Lemma remove1_In : forall k u l, In u (remove1 k l) -> In u l.
Proof. intros k u l. induction l as [|x l IH]; cbn; [auto|]. destruct (Nat.eqb x k); cbn; tauto. Qed.
Lemma work_hold : forall s s' i, wstep s AWork = Some s' -> c_hold (cl s' i) = c_hold (cl s i) /\ (c_pc (cl s' i) = c_pc (cl s i) \/ c_pc (cl s' i) = signal (c_pc (cl s i))).
Proof.
  intros s s' i E. assert (X : exists a, a = AWork /\ wstep s a = Some s') by eauto. clear E. destruct X as (a & A & E). scase E; try discriminate A; clear A; try (split; [reflexivity|left; reflexivity]); try (sunf; (split; [reflexivity|left; reflexivity])).
  change (c_hold (cl (set_cpc s i0 (signal (c_pc (cl s i0)))) i) = c_hold (cl s i) /\ (c_pc (cl (set_cpc s i0 (signal (c_pc (cl s i0)))) i) = c_pc (cl s i) \/ c_pc (cl (set_cpc s i0 (signal (c_pc (cl s i0)))) i) = signal (c_pc (cl s i)))). unfold set_cpc. rewrite cl_set_any.
  destruct (Nat.eqb_spec i i0) as [->|]; [|auto]. destruct (Nat.ltb i0 (length (w_cl s))); cbn [andb]; auto.
Qed.
Lemma noself_step : forall h s a s', invA s -> noself h s -> allowed h s a = true -> own_handle_unused h a -> wstep s a = Some s' -> noself h s'.
Proof.
  intros h s a s' IA NS AL U E i k H. destruct (NS i k H) as [N1 N2].
  assert (DEC : {a = AWork} + {a <> AWork}) by (destruct a; (left; reflexivity) || (right; discriminate)). destruct DEC as [->|NW].
  { destruct (work_hold s s' i E) as [A B]. rewrite A. split; [exact N1|]. intro next. destruct B as [B|B]; rewrite B; [apply N2|]. specialize (N2 next). destruct (c_pc (cl s i)); cbn; congruence. }
  destruct (option_map (Nat.eqb i) (client_of a)) as [[|]|] eqn:CO; cycle 1.
  - assert (EQ : cl s' i = cl s i). { apply (step_cl s a s' i E NW). intro C. rewrite C in CO. cbn in CO. rewrite Nat.eqb_refl in CO. discriminate. } rewrite EQ. auto.
  - assert (EQ : cl s' i = cl s i) by (apply (step_cl s a s' i E NW); intro C; rewrite C in CO; discriminate). rewrite EQ. auto.
  - assert (C : client_of a = Some i). { destruct (client_of a) as [j|]; [|discriminate]. cbn in CO. injection CO as CO. apply Nat.eqb_eq in CO. now subst. }
    pose proof (a_cl s IA i) as PC. unfold pcok in PC.
    destruct (Nat.lt_ge_cases i (length (w_cl s))) as [L|L].
    2: { unfold cl. rewrite get_out by (rewrite (len_cl s a s' E); exact L). cbn. split; [tauto|discriminate]. }
    assert (AD : forall j, a = AAdd j -> k <> length (w_sk s)).
    { intros j ->. cbn [client_of] in C. injection C as ->. cbn [allowed] in AL. unfold may_call in AL. rewrite H in AL. apply andb_prop in AL as [_ AL]. apply callback_lt in AL. lia. }
    scase E; cbn [client_of] in C; try discriminate C; injection C as ->;
    repeat match goal with H : _ && _ = true |- _ => apply andb_prop in H as [H ?] end;
    try match goal with H : idle _ _ = true |- _ => apply idle_spec in H as [_ H] end;
    try match goal with H : c_pc (cl s i) = _ |- _ => rewrite H in PC end;
    unfold release, push_sink, destroy, acquire; sunf; unfold cl in *;
    cbn [set_cpc set_hold count_log set_cl set_proc push set_sk set_sinkub set_handles set_prom set_bg set_active w_cl];
    rewrite ?(get_upd_same new_client) by (rewrite ?upd_length; exact L); cbn [c_pc c_hold]; cbn [own_handle_unused] in U.
    all: try (split; [exact N1|]; intros next; try discriminate; try (exact (N2 next)); congruence).
    all: unfold cl; cbn [set_cpc set_hold count_log set_cl set_proc push set_sk set_sinkub set_handles set_prom set_bg set_active w_cl];
      rewrite ?(get_upd_same new_client) by (rewrite ?upd_length; exact L); cbn [c_pc c_hold].
    all: split; [intro X; try apply remove1_In in X; cbn [In] in X; try (destruct X as [X|X]); try contradiction; subst; try (now apply U); try (now apply (AD i))
      |intros next; try discriminate; try (exact (N2 next)); intro Z; try (injection Z as Z1 Z2; subst)].
    all: try (apply N1; exact PC).
    all: try (subst; destruct PC as [PC|PC]; discriminate).
    all: try (match goal with H : has _ _ = true |- _ => now apply N1, has_In end).
Qed.
Lemma no_self_join : forall h n l s, rrun h (w_init n) l = Some s -> Forall (own_handle_unused h) l -> forall i k next, h i = OnSink k -> c_pc (cl s i) <> CJoin k next.
Proof.
  intros h n l s E F.
  assert (G : forall l s0, rreach h n s0 -> noself h s0 -> Forall (own_handle_unused h) l -> rrun h s0 l = Some s -> noself h s).
  { clear. induction l as [|a l IH]; intros s0 R NS F E; cbn [rrun] in E; [injection E as <-; exact NS|]. inversion F as [|? ? F1 F2]; subst. destruct (rstep h s0 a) as [s1|] eqn:A; [|discriminate].
    assert (R1 : rreach h n s1) by (eapply rs_step; eauto). apply (IH s1); auto. destruct (rstep_cases _ _ _ _ A) as (AL & P & [[W _]|[-> _]]); [|exact NS].
    apply (noself_step h s0 a s1); auto. apply (reach_A n). now apply (rreach_run h). }
  intros i k next H. apply (G l (w_init n)); auto; [constructor|]. intros j u _. rewrite cl_init. cbn. split; [tauto|discriminate].
Qed.
