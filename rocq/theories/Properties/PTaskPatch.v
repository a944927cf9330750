(** C139: the packaged_task for old Visual C++.  Model: Model/TaskPatch.v, specification: Spec/TaskPatchSpec.v. *)
From Coq Require Import List Bool PeanoNat Lia.
From Verif.Model Require Import TaskPatch.
From Verif.Spec Require Import TaskPatchSpec.
From Verif.Proofs Require Import TaskPatchFacts.
Import ListNotations.

(** In every use that the standard's class goes through without an error, the replacement does the same. *)
Theorem C139_same_partial : forall beh os, smooth beh os -> same_outcome (prun beh p_init os) (srun beh s_init os).
Proof.
  intros beh os (s & rs & RN & NT & NE & NR).
  destruct (run_same beh os (fun _ => False) p_init s_init s rs) as (priv & p & PR & (C & _ & _ & _ & SH) & _ & G); auto.
  - split; [reflexivity|]. split; [reflexivity|]. split; [intros k []|]. split; [intro i; exact I|]. reflexivity.
  - split; [discriminate|reflexivity].
  - rewrite PR, RN. split; [reflexivity|]. split; [exact C|]. intros k K. rewrite (SH k); auto.
Qed.
Print Assumptions C139_same_partial.

(** what is left of a spawned task that was moved n times, as far as its call matters *)
Lemma prun_app : forall beh os s s1 r1 os', prun beh s os = Some (s1, r1) ->
  prun beh s (os ++ os') = match prun beh s1 os' with Some (s2, r2) => Some (s2, r1 ++ r2) | None => None end.
Proof.
  intros beh os. induction os as [|o os IH]; intros s s1 r1 os' H; cbn in H.
  - injection H as <- <-. cbn. now destruct (prun beh s os') as [[? ?]|].
  - cbn. destruct (pstep beh s o) as [[t x]|]; [|discriminate]. destruct (prun beh t os) as [[t' xs]|] eqn:E; [|discriminate]. injection H as <- <-.
    rewrite (IH _ _ _ os' E). now destruct (prun beh t' os') as [[? ?]|].
Qed.
Lemma srun_app : forall beh os s s1 r1 os', srun beh s os = Some (s1, r1) ->
  srun beh s (os ++ os') = match srun beh s1 os' with Some (s2, r2) => Some (s2, r1 ++ r2) | None => None end.
Proof.
  intros beh os. induction os as [|o os IH]; intros s s1 r1 os' H; cbn in H.
  - injection H as <- <-. cbn. now destruct (srun beh s os') as [[? ?]|].
  - cbn. destruct (sstep beh s o) as [[t x]|]; [|discriminate]. destruct (srun beh t os) as [[t' xs]|] eqn:E; [|discriminate]. injection H as <- <-.
    rewrite (IH _ _ _ os' E). now destruct (srun beh t' os') as [[? ?]|].
Qed.
Lemma moved : forall beh f n, exists p,
  prun beh p_init (TNew 0 f :: TGetFuture 0 :: map (fun i => TMove i (S i)) (seq 0 n)) = Some (p, Done :: GaveFuture 0 :: repeat Done n) /\
  p_obj p n = Some (mkTask (Some 0) (Some f)) /\ (forall j, n < j -> p_obj p j = None) /\ p_sh p 0 = mkSh Waiting true /\ p_calls p = [].
Proof.
  intros beh f n. induction n as [|n (p & RN & O & NO & SH & C)].
  - eexists. split; [reflexivity|]. split; [reflexivity|]. split; [|split; reflexivity]. intros [|j] J; [lia|reflexivity].
  - rewrite seq_S, map_app, 2!app_comm_cons. rewrite (prun_app _ _ _ _ _ _ RN).
    cbn [map prun pstep Nat.add]. rewrite O, (NO (S n)) by lia. cbn [my_promise my_func].
    eexists. split; [rewrite <- 2!app_comm_cons, <- repeat_cons; reflexivity|]. cbn [p_obj p_sh p_calls].
    split; [apply set_same|]. split; [|split; [exact SH|exact C]].
    intros j J. rewrite 2!set_other by lia. apply NO. lia.
Qed.
Lemma smoved : forall beh f n, exists s,
  srun beh s_init (TNew 0 f :: TGetFuture 0 :: map (fun i => TMove i (S i)) (seq 0 n)) = Some (s, Done :: GaveFuture 0 :: repeat Done n) /\
  s_obj s n = Some (Some (0, f)) /\ (forall j, n < j -> s_obj s j = None) /\
  s_sh s 0 = mkSh Waiting true /\ (forall k, k <> 0 -> s_sh s k = new_shared) /\ s_calls s = [].
Proof.
  intros beh f n. induction n as [|n (s & RN & O & NO & SH & SO & C)].
  - eexists. split; [reflexivity|]. split; [reflexivity|]. split; [intros [|j] J; [lia|reflexivity]|]. split; [reflexivity|].
    split; [|reflexivity]. intros [|k] K; [congruence|reflexivity].
  - rewrite seq_S, map_app, 2!app_comm_cons. rewrite (srun_app _ _ _ _ _ _ RN).
    cbn [map srun sstep Nat.add]. rewrite O, (NO (S n)) by lia.
    eexists. split; [rewrite <- 2!app_comm_cons, <- repeat_cons; reflexivity|]. cbn [s_obj s_sh s_calls].
    split; [apply set_same|]. split; [|split; [exact SH|split; [exact SO|exact C]]].
    intros j J. rewrite 2!set_other by lia. apply NO. lia.
Qed.

(** A task of spawn_task that returns: called once, and then its future is ready, however often the task was moved on its way. *)
Theorem C139_spawned_partial : forall beh f n, beh 0 f = None ->
  smooth beh (spawned f n) /\
  exists p, prun beh p_init (spawned f n) = Some (p, Done :: GaveFuture 0 :: repeat Done n ++ [Done]) /\
    p_calls p = [f] /\ sh_content (p_sh p 0) = HasValue.
Proof.
  intros beh f n B. unfold spawned. rewrite 2!app_comm_cons. split.
  - destruct (smoved beh f n) as (s & RN & O & _ & SH & SO & C). eexists. eexists. split.
    { rewrite (srun_app _ _ _ _ _ _ RN). cbn [srun sstep]. rewrite O, SH, C. cbn [sh_content length]. rewrite B. reflexivity. }
    split; [|split].
    + intros x. rewrite <- 2!app_comm_cons. intros [X|[X|X]]; try discriminate. apply in_app_or in X as [X|[X|[]]]; [|discriminate].
      apply repeat_spec in X. discriminate.
    + intros k e. cbn [s_sh]. unfold set. destruct (Nat.eqb_spec k 0) as [->|K]; [discriminate|]. rewrite SO by exact K. discriminate.
    + intros i. rewrite <- 2!app_comm_cons. intros [X|[X|X]]; try discriminate. apply in_app_or in X as [X|[X|[]]]; [|discriminate].
      apply in_map_iff in X as (j & X & _). discriminate.
  - destruct (moved beh f n) as (p & RN & O & _ & SH & C). eexists. split.
    { rewrite (prun_app _ _ _ _ _ _ RN). cbn [prun pstep]. rewrite O, C. cbn [my_func my_promise length]. rewrite B.
      cbn [promise_set_value]. rewrite SH. cbn [sh_content]. reflexivity. }
    cbn. split; [reflexivity|]. reflexivity.
Qed.
Print Assumptions C139_spawned_partial.

(** One that throws: the exception leaves operator(), so it gets to the thread of the active object, and whoever waits for the future is told nothing
    until the task is destroyed, and then only that the promise is broken. *)
Theorem C139_throws : forall beh f n e, beh 0 f = Some e ->
  exists p s p', prun beh p_init (spawned f n) = Some (p, Done :: GaveFuture 0 :: repeat Done n ++ [Throws (OfFunction e)]) /\
    sh_content (p_sh p 0) = Waiting /\
    pstep beh p (TDestroy n) = Some (p', Done) /\ sh_content (p_sh p' 0) = BrokenPromise /\
    srun beh s_init (spawned f n) = Some (s, Done :: GaveFuture 0 :: repeat Done n ++ [Done]) /\ sh_content (s_sh s 0) = HasException e /\
    ~ same_outcome (prun beh p_init (spawned f n)) (srun beh s_init (spawned f n)).
Proof.
  intros beh f n e B. unfold spawned. rewrite 2!app_comm_cons.
  destruct (moved beh f n) as (p & RN & O & _ & SH & C). destruct (smoved beh f n) as (s & SN & SO & _ & SS & _ & SC).
  rewrite (prun_app _ _ _ _ _ _ RN), (srun_app _ _ _ _ _ _ SN). cbn [prun pstep srun sstep]. rewrite O, C, SO, SC, SS. cbn [my_func length sh_content]. rewrite B.
  eexists. eexists. eexists. split; [reflexivity|]. cbn [p_sh p_obj s_sh]. rewrite SH, O. split; [reflexivity|].
  split; [reflexivity|]. split; [cbn; rewrite SH; cbn; reflexivity|]. split; [reflexivity|]. split; [cbn; reflexivity|].
  unfold same_outcome. intros (E & _). apply (f_equal (fun l => last l Done)) in E. rewrite 2!last_last in E. discriminate.
Qed.
Print Assumptions C139_throws.

(** Further differences need no exception of a function: a second call runs the function again; reset forgets the function;
    a default-constructed task has a future, which never gets ready. *)
Theorem C139_refuted : exists throws beh again reset default,
  ~ same_outcome (prun throws p_init (spawned 7 2)) (srun throws s_init (spawned 7 2)) /\
  (forall n f, beh n f = None) /\
  ~ same_outcome (prun beh p_init again) (srun beh s_init again) /\
  ~ same_outcome (prun beh p_init reset) (srun beh s_init reset) /\
  ~ same_outcome (prun beh p_init default) (srun beh s_init default) /\
  option_map (fun x => p_calls (fst x)) (prun beh p_init again) = Some [7; 7] /\
  option_map (fun x => s_calls (fst x)) (srun beh s_init again) = Some [7] /\
  option_map snd (prun beh p_init again) = Some [Done; Done; Throws AlreadySatisfied] /\
  option_map snd (srun beh s_init again) = Some [Done; Done; Throws AlreadySatisfied] /\
  option_map snd (prun beh p_init reset) = Some [Done; Done; Done; Throws BadFunctionCall] /\
  option_map snd (srun beh s_init reset) = Some [Done; Done; Done; Done] /\
  option_map snd (prun beh p_init default) = Some [Done; GaveFuture 0] /\
  option_map snd (srun beh s_init default) = Some [Done; Throws NoState].
Proof.
  exists (fun _ _ => Some 1), (fun _ _ => None), [TNew 0 7; TCall 0; TCall 0], [TNew 0 7; TCall 0; TReset 0; TCall 0], [TDefault 0; TGetFuture 0].
  split; [intros (E & _); discriminate|].
  split; [reflexivity|]. split; [intros (_ & E & _); discriminate|]. split; [intros (E & _); discriminate|]. split; [intros (E & _); discriminate|].
  repeat split.
Qed.
Print Assumptions C139_refuted.

(** reset, in every state: who has the task's future and waits for it is told that the promise is broken, who has got its value keeps it; the task has no
    function any more, and a new future, which nobody has, can be taken once. *)
Theorem C139_reset : forall beh s i k f, p_obj s i = Some (mkTask (Some k) f) -> k <> p_now s ->
  exists s', pstep beh s (TReset i) = Some (s', Done) /\
    p_sh s' k = mkSh (match sh_content (p_sh s k) with Waiting => BrokenPromise | c => c end) (sh_taken (p_sh s k)) /\
    (forall j, j <> k -> j <> p_now s -> p_sh s' j = p_sh s j) /\ (forall j, j <> i -> p_obj s' j = p_obj s j) /\ p_calls s' = p_calls s /\
    exists s1 s2 s3, pstep beh s' (TValid i) = Some (s1, Answer false) /\ pstep beh s' (TGetFuture i) = Some (s2, GaveFuture (p_now s)) /\
      pstep beh s2 (TGetFuture i) = Some (s3, Throws AlreadyRetrieved).
Proof.
  intros beh s i k f O K. unfold pstep at 1. rewrite O. cbn [my_promise]. eexists. split; [reflexivity|]. cbn [p_sh p_obj p_calls].
  split; [|split; [|split; [|split; [reflexivity|]]]].
  - rewrite set_other by exact K. cbn [abandon]. destruct (p_sh s k) as [c t] eqn:SH. cbn [sh_content sh_taken].
    destruct c; [rewrite set_same; reflexivity|exact SH..].
  - intros j J1 J2. rewrite set_other by exact J2. cbn [abandon]. destruct (sh_content (p_sh s k)); [rewrite set_other by exact J1|..]; reflexivity.
  - intros j J. rewrite set_other by exact J. reflexivity.
  - cbn [pstep p_obj p_sh]. rewrite set_same. cbn [my_func my_promise promise_get_future]. rewrite set_same. cbn [new_shared sh_taken sh_content].
    eexists. eexists. eexists. split; [reflexivity|]. split; [reflexivity|]. cbn [p_obj p_sh]. rewrite set_same. cbn [my_promise promise_get_future]. rewrite set_same.
    cbn [sh_taken]. reflexivity.
Qed.
Print Assumptions C139_reset.
(** a reset while somebody waits, and one after the value has come *)
Example C139_reset_ex : option_map (fun x => (snd x, sh_content (p_sh (fst x) 0), sh_content (p_sh (fst x) 3)))
    (prun (fun _ _ => None) p_init [TNew 0 7; TGetFuture 0; TReset 0; TNew 1 8; TGetFuture 1; TCall 1; TReset 1; TGetFuture 1]) =
  Some ([Done; GaveFuture 0; Done; Done; GaveFuture 3; Done; Done; GaveFuture 6], BrokenPromise, HasValue).
Proof. reflexivity. Qed.

(** functions that do not throw leave no exception in a future *)
Lemma abandon_none : forall f p k e, sh_content (abandon f p k) = HasException e -> sh_content (f k) = HasException e.
Proof.
  intros f [j|] k e H; cbn [abandon] in H; [|exact H]. destruct (sh_content (f j)); auto.
  unfold set in H. destruct (Nat.eqb k j); [discriminate|exact H].
Qed.
Lemma no_exception : forall beh os s s' rs, (forall n f, beh n f = None) -> srun beh s os = Some (s', rs) ->
  forall k e, sh_content (s_sh s' k) = HasException e -> sh_content (s_sh s k) = HasException e.
Proof.
  intros beh os. induction os as [|o os IH]; intros s s' rs B RN k e H; cbn in RN; [injection RN as <- _; exact H|].
  destruct (sstep beh s o) as [[s1 x]|] eqn:ST; [|discriminate]. destruct (srun beh s1 os) as [[s2 xs]|] eqn:RN'; [|discriminate]. injection RN as <- _.
  pose proof (IH _ _ _ B RN' k e H) as X. clear - B ST X.
  assert (SS : forall f n c t, (c = Waiting \/ c = HasValue \/ c = sh_content (f n)) -> sh_content (set f n (mkSh c t) k) = HasException e -> sh_content (f k) = HasException e).
  { intros f n c t C Y. unfold set in Y. destruct (Nat.eqb_spec k n) as [->|]; [|exact Y]. cbn in Y. subst. destruct C as [?|[?|?]]; congruence. }
  destruct o as [i|i f|i j|i j|i|i|i|i|i]; unfold sstep in ST.
  - destruct (s_obj s i); [discriminate|]. now injection ST as <- _.
  - destruct (s_obj s i); [discriminate|]. injection ST as <- _. cbn [s_sh] in X. unfold new_shared in X. eauto.
  - destruct (s_obj s i); [|discriminate]. destruct (s_obj s j); [discriminate|]. now injection ST as <- _.
  - destruct (Nat.eqb i j); [discriminate|]. destruct (s_obj s i); [|discriminate]. destruct (s_obj s j); [|discriminate]. injection ST as <- _. eapply abandon_none; eauto.
  - destruct (s_obj s i); [|discriminate]. now injection ST as <- _.
  - destruct (s_obj s i) as [[[k' f]|]|]; [| |discriminate]; cbn in ST; [|now injection ST as <- _].
    destruct (sh_taken (s_sh s k')); injection ST as <- _; [exact X|]. cbn [s_sh] in X. eauto.
  - destruct (s_obj s i) as [[[k' f]|]|]; [| |discriminate]; [|now injection ST as <- _].
    destruct (sh_content (s_sh s k')) eqn:C; injection ST as <- _; try exact X. cbn [s_sh] in X. rewrite B in X. eauto.
  - destruct (s_obj s i) as [[[k' f]|]|]; [| |discriminate]; [|now injection ST as <- _].
    injection ST as <- _. cbn [s_sh] in X. apply (abandon_none _ (Some k')). unfold new_shared in X. eapply SS; [|exact X]. auto.
  - destruct (s_obj s i); [|discriminate]. injection ST as <- _. eapply abandon_none; eauto.
Qed.
(** A use with a default-constructed task, an assignment that breaks a promise, and futures of all kinds. *)
Example C139_ex : let os := [TDefault 0; TNew 1 7; TGetFuture 1; TNew 2 8; TGetFuture 2; TValid 0; TAssign 1 0; TValid 1; TAssign 0 2; TCall 2; TDestroy 0; TDestroy 2] in
  smooth (fun _ _ => None) os /\
  option_map (fun x => (snd x, p_calls (fst x), sh_content (p_sh (fst x) 1), sh_content (p_sh (fst x) 3))) (prun (fun _ _ => None) p_init os) =
    Some ([Done; Done; GaveFuture 1; Done; GaveFuture 3; Answer false; Done; Answer false; Done; Done; Done; Done], [7], HasValue, BrokenPromise).
Proof.
  cbv zeta. split; [|vm_compute; reflexivity].
  match goal with |- smooth ?beh ?os => assert (E : match srun beh s_init os with Some (_, rs) => rs | None => [Throws NoState] end =
    [Done; Done; GaveFuture 1; Done; GaveFuture 3; Answer false; Done; Answer false; Done; Done; Done; Done]) by (vm_compute; reflexivity);
    unfold smooth; destruct (srun beh s_init os) as [[s rs]|] eqn:RN end; [|discriminate].
  subst rs. exists s. eexists. split; [reflexivity|]. split; [cbn; intros x; intuition discriminate|]. split; [|cbn; intros i; intuition discriminate].
  intros k e H. eapply no_exception in H; [|reflexivity|exact RN]. discriminate.
Qed.
Example C139_spawned_ex : exists p, prun (fun _ _ => None) p_init (spawned 7 4) = Some (p, [Done; GaveFuture 0; Done; Done; Done; Done; Done]) /\ sh_content (p_sh p 0) = HasValue.
Proof. eexists. split; reflexivity. Qed.
