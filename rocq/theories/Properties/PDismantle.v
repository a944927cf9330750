(** C125, C126: removing sinks and destroying the worker when memory runs out. *)
From Coq Require Import List Arith Bool Lia.
From Verif.Model Require Import Dismantle.
From Verif.Spec Require Import DismantleSpec.
From Verif.Proofs Require Import DismantleFacts.
Import ListNotations.

(** examples: enough memory; the n-th allocation fails *)
Definition plenty : nat -> bool := fun _ => true.
Definition fails (n : nat) : nat -> bool := fun i => negb (Nat.eqb i n).

(** ** C125: removeSink and removeAllSinks *)
(** False: removeSink throws, and the handle it was given is gone: the sink stays registered, and is sent entries, and no run gives the client
    a handle to try again *)
Theorem C125_handle_refuted : exists mem n s l, (exists N, forall i, i <> N -> mem i = true) /\
  drun mem 0 d_start [AAdd; AWork; AReturn 0; ARemove 0] = (n, s, l) /\
  map snd l = [Some OWaits; Some OReturned; Some OReturned; Some OThrew] /\ In 0 (d_sinks s) /\ d_end s = None /\
  (exists n1 s1 l1, drun mem n s [ALog 7; AWork] = (n1, s1, l1) /\ sent_to 0 (d_got s1) = [7]) /\
  forall acts n' s' l', drun mem n s acts = (n', s', l') -> d_end s' = None -> ~ In 0 (d_handles s').
Proof.
  exists (fails 10). do 3 eexists.
  split; [exists 10; intros i H; unfold fails; apply Nat.eqb_neq in H; now rewrite H|].
  split; [vm_compute; reflexivity|]. split; [reflexivity|]. split; [now left|]. split; [reflexivity|].
  split; [do 3 eexists; split; [vm_compute; reflexivity|reflexivity]|].
  intros acts n' s' l' E L. refine (proj1 (proj2 (run_keeps (fails 10) (lost 0) (lost_eff 0) _ _ _ _ _ _ _ _ E L))).
  - eapply (run_Inv (fails 10) [AAdd; AWork; AReturn 0; ARemove 0] 0 d_start); [apply Inv_start|vm_compute; reflexivity|reflexivity].
  - split; [cbn; lia|]. split; cbn; intros [].
Qed.
Print Assumptions C125_handle_refuted.

(** False: the sink's destructor, on the worker's thread, needs memory and must not throw: the process ends, with the entry behind it unwritten *)
Theorem C125_process_refuted : exists mem n s l, drun mem 0 d_start [AAdd; AWork; AReturn 0; AAdd; AWork; AReturn 1; ARemove 0; ALog 7; AWork] = (n, s, l) /\
  map snd l = [Some OWaits; Some OReturned; Some OReturned; Some OWaits; Some OReturned; Some OReturned; Some OWaits; Some OReturned; None] /\
  d_end s = Some DTerminate /\ d_got s = [].
Proof. exists (fails 28). do 3 eexists. split; [vm_compute; reflexivity|]. repeat split. Qed.
Print Assumptions C125_process_refuted.

(** removeSink that returns has removed the sink and the sink has been destroyed, which it is after having done all that was sent to it;
    whatever happened between the call and its return. *)
Theorem C125_returns_partial : forall mem n s k n1 s1 acts n2 s2 l n3 s3, reached mem n s -> In k (d_handles s) ->
  dstep mem n s (ARemove k) = (n1, s1, Some OWaits) ->
  drun mem n1 s1 acts = (n2, s2, l) -> dstep mem n2 s2 (AReturn (d_next s)) = (n3, s3, Some OReturned) -> d_end s3 = None ->
  ~ In k (d_sinks s3) /\ In k (d_gone s3) /\ ~ In k (d_handles s3).
Proof.
  intros mem n s k n1 s1 acts n2 s2 l n3 s3 R H E1 E2 E3 L3. pose proof (reached_Inv _ _ _ R) as I.
  assert (L2 := step_live _ _ _ _ _ _ _ E3 L3). assert (L1 := run_live _ _ _ _ _ _ _ E2 L2).
  apply step_eff in E1; [|assumption].
  assert (I1 := Inv_eff _ _ _ _ I E1). assert (I2 := run_Inv _ _ _ _ _ _ _ I1 E2 L2).
  assert (W1 : awaiting (d_next s) k s1 /\ call_is (d_next s) (fun x => x = KRemove k) s1 /\ lost k s1).
  { pose proof (i_handles s I k H) as (LT & NA & _).
    inversion E1; subst. split; [|split].
    - unfold awaiting, waits. cbn. split; [lia|]. split; [|left; apply in_app_iff; right; now left].
      intro J. apply in_app_iff in J. destruct J as [J|[J|[]]]; [|discriminate]. apply (i_job_add s I) in J. tauto.
    - split; cbn; [lia|]. intros x X. apply in_app_iff in X. destruct X as [X|[X|[]]]; [|now injection X as <-].
      assert (d_next s < d_next s) by (apply (i_calls_lt s I), in_map_iff; exists (d_next s, x); auto). lia.
    - split; cbn; [lia|]. split; [apply remove_In|]. intro X. apply in_app_iff in X. destruct X as [X|[X|[]]]; [contradiction|discriminate]. }
  destruct W1 as (W1 & C1 & O1).
  assert (W2 := run_keeps mem (awaiting (d_next s) k) (awaiting_eff (d_next s) k) _ _ _ _ _ _ I1 W1 E2 L2).
  assert (O2 := run_keeps mem (lost k) (lost_eff k) _ _ _ _ _ _ I1 O1 E2 L2).
  assert (C2 := run_keeps mem (call_is (d_next s) (fun x => x = KRemove k)) (call_is_eff (d_next s) (fun x => x = KRemove k) ltac:(discriminate)) _ _ _ _ _ _ I1 C1 E2 L2).
  apply step_eff in E3; [|assumption].
  assert (O3 := lost_eff k _ _ _ _ I2 O2 E3).
  assert (G : exists x, find_call (d_next s) (d_calls s2) = Some x) by (inversion E3; subst; eauto). destruct G as (x & G).
  assert (x = KRemove k) by (apply C2; now apply found). subst x.
  assert (RD : In (d_next s) (d_ready s2) /\ s3 = u_calls (drop_call (d_next s) (d_calls s2)) s2) by (inversion E3; subst; try congruence; auto).
  destruct RD as (RD & ->). assert (NS := awaited _ _ _ I2 W2 RD).
  split; [exact NS|]. split; [|apply O3]. pose proof (i_removes s2 I2 _ k (found _ _ _ G)) as (_ & _ & [X|X]); [contradiction|exact X].
Qed.
Print Assumptions C125_returns_partial.

(** After removeAllSinks has returned, no sink is registered that was when it was called. *)
Theorem C125_all_returns_partial : forall mem n s k n1 s1 acts n2 s2 l n3 s3, reached mem n s -> In k (d_sinks s) ->
  dstep mem n s AAll = (n1, s1, Some OWaits) -> drun mem n1 s1 acts = (n2, s2, l) ->
  dstep mem n2 s2 (AReturn (d_next s)) = (n3, s3, Some OReturned) -> d_end s3 = None -> ~ In k (d_sinks s3).
Proof.
  intros mem n s k n1 s1 acts n2 s2 l n3 s3 R H E1 E2 E3 L3. pose proof (reached_Inv _ _ _ R) as I.
  assert (L2 := step_live _ _ _ _ _ _ _ E3 L3). assert (L1 := run_live _ _ _ _ _ _ _ E2 L2).
  apply step_eff in E1; [|assumption].
  assert (I1 := Inv_eff _ _ _ _ I E1). assert (I2 := run_Inv _ _ _ _ _ _ _ I1 E2 L2).
  assert (W1 : awaiting (d_next s) k s1 /\ call_is (d_next s) (fun x => x = KAll) s1).
  { pose proof (i_sinks s I k H) as (LT & NA). inversion E1; subst. split.
    - unfold awaiting, waits. cbn. split; [lia|]. split; [|right; left; apply in_app_iff; right; now left].
      intro J. apply in_app_iff in J. destruct J as [J|[J|[]]]; [contradiction|discriminate].
    - split; cbn; [lia|]. intros x X. apply in_app_iff in X. destruct X as [X|[X|[]]]; [|now injection X as <-].
      assert (d_next s < d_next s) by (apply (i_calls_lt s I), in_map_iff; exists (d_next s, x); auto). lia. }
  destruct W1 as (W1 & C1).
  assert (W2 := run_keeps mem (awaiting (d_next s) k) (awaiting_eff (d_next s) k) _ _ _ _ _ _ I1 W1 E2 L2).
  assert (C2 := run_keeps mem (call_is (d_next s) (fun x => x = KAll)) (call_is_eff (d_next s) (fun x => x = KAll) ltac:(discriminate)) _ _ _ _ _ _ I1 C1 E2 L2).
  apply step_eff in E3; [|assumption].
  assert (G : exists x, find_call (d_next s) (d_calls s2) = Some x) by (inversion E3; subst; eauto). destruct G as (x & G).
  assert (x = KAll) by (apply C2; now apply found). subst x.
  assert (RD : In (d_next s) (d_ready s2) /\ s3 = u_calls (drop_call (d_next s) (d_calls s2)) s2) by (inversion E3; subst; try congruence; auto).
  destruct RD as (RD & ->). exact (awaited _ _ _ I2 W2 RD).
Qed.
Print Assumptions C125_all_returns_partial.

(** A call that throws leaves the worker as it was: its queue, its sinks and what they have; and the client keeps all other handles. *)
Theorem C125_throws_partial : forall mem n s a n' s', (a = AAll \/ exists k, a = ARemove k) -> d_end s' = None ->
  dstep mem n s a = (n', s', Some OThrew) ->
  d_queue s' = d_queue s /\ d_sinks s' = d_sinks s /\ d_active s' = d_active s /\ d_bg s' = d_bg s /\ d_running s' = d_running s /\
  d_calls s' = d_calls s /\ d_ready s' = d_ready s /\ d_taken s' = d_taken s /\ d_got s' = d_got s /\ d_gone s' = d_gone s /\
  forall k, a <> ARemove k -> (In k (d_handles s') <-> In k (d_handles s)).
Proof.
  intros mem n s a n' s' A L E. apply step_eff in E; [|assumption]. inversion E; subst; try (destruct A as [A|(x & A)]; discriminate).
  - cbn. repeat (split; [reflexivity|]). intros x X. split; intro H1; [now apply in_remove in H1|]. apply in_in_remove; [congruence|assumption].
  - cbn. repeat (split; [reflexivity|]). intros x X. reflexivity.
Qed.
Print Assumptions C125_throws_partial.

Lemma find_last : forall c x l, ~ In c (map fst l) -> find_call c (l ++ [(c, x)]) = Some x.
Proof.
  intros c x. induction l as [|(i, y) l IH]; intro H; cbn; [now rewrite Nat.eqb_refl|].
  destruct (Nat.eqb_spec i c); [subst; elim H; now left|]. apply IH. intro. apply H. now right.
Qed.
Lemma run_app : forall mem a b n s n1 s1 l1 n2 s2 l2, drun mem n s a = (n1, s1, l1) -> drun mem n1 s1 b = (n2, s2, l2) ->
  drun mem n s (a ++ b) = (n2, s2, l1 ++ l2).
Proof.
  intros mem. induction a as [|x a IH]; cbn [app drun]; intros b n s n1 s1 l1 n2 s2 l2 A B; [injection A as <- <- <-; exact B|].
  destruct (dstep mem n s x) as ((n3, s3), o). destruct (drun mem n3 s3 a) as ((n4, s4), l4) eqn:R. injection A as <- <- <-.
  now rewrite (IH b n3 s3 n4 s4 l4 n2 s2 l2 R B).
Qed.
Lemma has : forall k l, In k l -> existsb (Nat.eqb k) l = true.
Proof. intros k l H. apply existsb_exists. exists k. now rewrite Nat.eqb_refl. Qed.

(** With enough memory, and no fatal event under way, removeSink does return: when the worker has come through its queue. *)
Theorem C125_enough_memory_partial : forall mem n s k, (forall n, mem n = true) -> reached mem n s -> In k (d_handles s) -> d_bg s = true ->
  (forall m, ~ In (JFatal m) (d_queue s)) ->
  exists n' s' l, drun mem n s (ARemove k :: repeat AWork (S (length (d_queue s))) ++ [AReturn (d_next s)]) = (n', s', (ARemove k, Some OWaits) :: l ++ [(AReturn (d_next s), Some OReturned)]) /\
    d_end s' = None /\ ~ In k (d_sinks s') /\ In k (d_gone s').
Proof.
  intros mem n s k OK R H BG NF. pose proof (reached_Inv _ _ _ R) as I. assert (L : d_end s = None) by (destruct R as (? & ? & _ & R); exact R).
  pose proof (i_bg s I) as B. rewrite BG in B. destruct B as (RN & NS).
  set (s1 := waits (d_next s) (KRemove k) (u_queue (d_queue s ++ [JRemove k (d_next s)]) (u_handles (remove Nat.eq_dec k (d_handles s)) (u_next (S (d_next s)) s)))).
  assert (S1 : dstep mem n s (ARemove k) = (S (S (S (S n))), s1, Some OWaits)).
  { unfold dstep. rewrite L, BG, (has _ _ H). unfold dremove. unfold andthen at 1, upd at 1. unfold andthen. now rewrite ok_spawn. }
  destruct (ok_works mem OK (d_queue s ++ [JRemove k (d_next s)]) (S (S (S (S n)))) s1 L RN eq_refl) as (n2 & s2 & l & R2 & _ & L2 & Q2 & E2 & C2 & RN2 & X2).
  { intros m J. apply in_app_iff in J. destruct J as [J|[J|[]]]; [now apply (NF m)|discriminate]. }
  { intro J. apply in_app_iff in J. destruct J as [J|[J|[]]]; [auto|discriminate]. }
  assert (FC : find_call (d_next s) (d_calls s2) = Some (KRemove k)).
  { rewrite C2. apply find_last. intro J. apply (i_calls_lt s I) in J. lia. }
  assert (RD : existsb (Nat.eqb (d_next s)) (d_ready s2) = true).
  { apply has. rewrite E2. apply in_app_iff. right. rewrite jids_app. apply in_app_iff. right. now left. }
  assert (S3 : dstep mem n2 s2 (AReturn (d_next s)) = (n2, u_calls (drop_call (d_next s) (d_calls s2)) s2, Some OReturned)).
  { unfold dstep. rewrite L2, FC, RD. reflexivity. }
  assert (LEN : length (d_queue s ++ [JRemove k (d_next s)]) = S (length (d_queue s))) by (rewrite app_length; cbn; lia).
  rewrite LEN in R2. exists n2. eexists. exists l. split.
  - cbn [drun]. rewrite S1. erewrite run_app; [reflexivity|exact R2|]. cbn [drun]. rewrite S3. reflexivity.
  - split; [exact L2|]. pose proof (C125_returns_partial mem n s k _ _ _ _ _ _ _ _ R H S1 R2 S3 L2) as (A & B & _). auto.
Qed.
Print Assumptions C125_enough_memory_partial.

Example C125_ex : exists n s n1 s1, reached plenty n s /\ d_handles s = [0; 1] /\ d_sinks s = [0; 1] /\ d_queue s = [JSave 5; JClear 2] /\
  dstep plenty n s (ARemove 1) = (n1, s1, Some OWaits) /\ d_queue s1 = [JSave 5; JClear 2; JRemove 1 3] /\
  exists n2 s2 l, drun plenty n1 s1 [ALog 6; AWork; AWork; AWork; AReturn 2; AReturn 3] = (n2, s2, l) /\
    map snd l = [Some OReturned; Some OReturned; Some OReturned; Some OReturned; Some OReturned; Some OReturned] /\
    d_sinks s2 = [] /\ d_gone s2 = [0; 1] /\ sent_to 1 (d_got s2) = [5].
Proof.
  do 4 eexists. split; [exists [AAdd; AAdd; AWork; AWork; AReturn 0; AReturn 1; ALog 5; AAll]; eexists; split; [vm_compute; reflexivity|reflexivity]|].
  split; [reflexivity|]. split; [reflexivity|]. split; [reflexivity|]. split; [vm_compute; reflexivity|]. split; [reflexivity|].
  do 3 eexists. split; [vm_compute; reflexivity|]. repeat split.
Qed.
Example C125_ex2 : (exists n s n1 s1, reached (fails 11) n s /\ dstep (fails 11) n s (ARemove 0) = (n1, s1, Some OThrew) /\ d_end s1 = None) /\
  (exists n s n1 s1, reached (fails 11) n s /\ dstep (fails 11) n s AAll = (n1, s1, Some OThrew) /\ d_end s1 = None).
Proof.
  split; (do 4 eexists; split; [exists [AAdd; AWork; AReturn 0]; eexists; split; [vm_compute; reflexivity|reflexivity]|]; split; [vm_compute; reflexivity|reflexivity]).
Qed.

(** ** C126: ~LogWorker *)
(** False: the destructor needs memory and must not throw: the process ends, with entries in the queue that LOG had accepted *)
Theorem C126_refuted : exists mem n s l, drun mem 0 d_start [AAdd; AWork; AReturn 0; ALog 7; ADestroy] = (n, s, l) /\
  map snd l = [Some OWaits; Some OReturned; Some OReturned; Some OReturned; None] /\ d_end s = Some DTerminate /\
  entries (d_queue s) = [7] /\ sent_to 0 (d_got s) = [].
Proof. exists (fails 15). do 3 eexists. split; [vm_compute; reflexivity|]. repeat split. Qed.
Print Assumptions C126_refuted.

Lemma destroyed_state : forall mem n s n1 s1 acts n2 s2 l n3 s3, reached mem n s ->
  dstep mem n s ADestroy = (n1, s1, Some OWaits) -> drun mem n1 s1 acts = (n2, s2, l) ->
  dstep mem n2 s2 (AReturn (d_next s)) = (n3, s3, Some OReturned) -> d_end s3 = None ->
  Inv s /\ Inv s1 /\ Inv s2 /\ d_end s2 = None /\ eff s ADestroy (Some OWaits) s1 /\ eff s2 (AReturn (d_next s)) (Some OReturned) s3 /\
  d_running s2 = false /\ d_queue s2 = [] /\ d_bg s2 = false /\
  s3 = u_sinks [] (u_gones (only_owned (u_calls (drop_call (d_next s) (d_calls s2)) s2)) (u_calls (drop_call (d_next s) (d_calls s2)) s2)).
Proof.
  intros mem n s n1 s1 acts n2 s2 l n3 s3 R E1 E2 E3 L3. pose proof (reached_Inv _ _ _ R) as I.
  assert (L2 := step_live _ _ _ _ _ _ _ E3 L3). assert (L1 := run_live _ _ _ _ _ _ _ E2 L2).
  apply step_eff in E1; [|assumption].
  assert (I1 := Inv_eff _ _ _ _ I E1). assert (I2 := run_Inv _ _ _ _ _ _ _ I1 E2 L2).
  assert (C1 : call_is (d_next s) (fun x => x = KDestroy \/ x = KJoin) s1).
  { inversion E1; subst. split; cbn; [lia|]. intros x X. apply in_app_iff in X. destruct X as [X|[X|[]]]; [|injection X as <-; now left].
    assert (d_next s < d_next s) by (apply (i_calls_lt s I), in_map_iff; exists (d_next s, x); auto). lia. }
  assert (C2 := run_keeps mem (call_is (d_next s) (fun x => x = KDestroy \/ x = KJoin)) (call_is_eff (d_next s) (fun x => x = KDestroy \/ x = KJoin) (fun _ => or_intror eq_refl)) _ _ _ _ _ _ I1 C1 E2 L2).
  apply step_eff in E3; [|assumption].
  assert (G : exists x, find_call (d_next s) (d_calls s2) = Some x) by (inversion E3; subst; eauto). destruct G as (x & G).
  assert (X := proj2 C2 x (found _ _ _ G)).
  assert (S3 : x = KJoin /\ d_running s2 = false /\ s3 = u_sinks [] (u_gones (only_owned (u_calls (drop_call (d_next s) (d_calls s2)) s2)) (u_calls (drop_call (d_next s) (d_calls s2)) s2))).
  { destruct X as [X|X]; subst x; inversion E3; subst; try congruence; try (exfalso; match goal with D : _ \/ exists _, _ |- _ => destruct D as [D|(? & D)]; congruence end); auto. }
  destruct S3 as (-> & RN & S3). pose proof (i_join s2 I2 _ (found _ _ _ G)) as BG. pose proof (i_bg s2 I2) as B. rewrite BG, RN in B.
  destruct B as (_ & Q). auto 12.
Qed.

(** If the destructor returns, then everything that LOG statements had handed over before it was called has been taken and given to the sinks, in order; nothing is left in the queue;
    there is no sink left, and every one the client had a handle of has been destroyed. *)
Theorem C126_returns_partial : forall mem acts1 n s l1 n1 s1 acts2 n2 s2 l2 n3 s3, drun mem 0 d_start acts1 = (n, s, l1) -> d_end s = None ->
  d_active s = true -> dstep mem n s ADestroy = (n1, s1, Some OWaits) -> drun mem n1 s1 acts2 = (n2, s2, l2) ->
  dstep mem n2 s2 (AReturn (d_next s)) = (n3, s3, Some OReturned) -> d_end s3 = None ->
  d_taken s3 = logged l1 /\ d_queue s3 = [] /\ d_sinks s3 = [] /\ d_active s3 = false /\ d_running s3 = false /\
  forall k, In k (d_handles s3) -> In k (d_gone s3).
Proof.
  intros mem acts1 n s l1 n1 s1 acts2 n2 s2 l2 n3 s3 E0 L0 AC E1 E2 E3 L3.
  assert (R : reached mem n s) by (exists acts1, l1; auto).
  destruct (destroyed_state mem n s n1 s1 acts2 n2 s2 l2 n3 s3 R E1 E2 E3 L3) as (I & I1 & I2 & L2 & F1 & F3 & RN & Q & BG & S3).
  pose proof (run_entries mem _ _ _ _ _ _ E0 L0 AC) as (_ & T0). cbn [d_start d_taken d_queue app] in T0.
  assert (A1 : d_active s1 = false /\ d_taken s1 ++ entries (d_queue s1) = d_taken s ++ entries (d_queue s)).
  { pose proof (eff_entries _ _ _ _ F1) as T1. inversion F1; subst. split; [reflexivity|]. rewrite T1. destruct (d_active s); cbn; now rewrite app_nil_r. }
  destruct A1 as (A1 & T1). pose proof (run_entries_off mem _ _ _ _ _ _ E2 L2 A1) as (A2 & T2).
  assert (I3 := Inv_eff _ _ _ _ I2 F3). subst s3. cbn. rewrite Q in *. cbn [entries flat_map] in T2. rewrite app_nil_r in T2.
  split; [cbn in T0; congruence|]. split; [reflexivity|]. split; [reflexivity|]. split; [assumption|]. split; [assumption|].
  intros k H. apply (i_handles _ I3) in H. destruct H as (_ & _ & [[]|H]). exact H.
Qed.
Print Assumptions C126_returns_partial.

(** And each sink has by then been sent all that LOG handed over from when it was registered until the destructor was called, unless
    someone took it away before. *)
Theorem C126_delivered_partial : forall mem n0 s0 k acts1 n s l1 n1 s1 acts2 n2 s2 l2 n3 s3, reached mem n0 s0 -> d_active s0 = true ->
  In k (d_sinks s0) -> (forall c, ~ In (JRemove k c) (d_queue s0)) -> (forall c, ~ In (JClear c) (d_queue s0)) ->
  ~ In (ARemove k) acts1 -> ~ In AAll acts1 -> ~ In ADestroy acts1 ->
  drun mem n0 s0 acts1 = (n, s, l1) -> dstep mem n s ADestroy = (n1, s1, Some OWaits) -> drun mem n1 s1 acts2 = (n2, s2, l2) ->
  dstep mem n2 s2 (AReturn (d_next s)) = (n3, s3, Some OReturned) -> d_end s3 = None ->
  sent_to k (d_got s3) = sent_to k (d_got s0) ++ entries (d_queue s0) ++ logged l1.
Proof.
  intros mem n0 s0 k acts1 n s l1 n1 s1 acts2 n2 s2 l2 n3 s3 R0 AC IN NR NC N1 N2 N3 E0 E1 E2 E3 L3.
  assert (L2 := step_live _ _ _ _ _ _ _ E3 L3). assert (L1 := run_live _ _ _ _ _ _ _ E2 L2). assert (L0 := step_live _ _ _ _ _ _ _ E1 L1).
  assert (R : reached mem n s).
  { destruct R0 as (acts & l & X & _). exists (acts ++ acts1), (l ++ l1). split; [|assumption]. eapply run_app; eassumption. }
  destruct (destroyed_state mem n s n1 s1 acts2 n2 s2 l2 n3 s3 R E1 E2 E3 L3) as (I & I1 & I2 & _ & F1 & F3 & RN & Q & BG & S3).
  assert (HR : hears k s0) by (split; [assumption|]; split; assumption).
  destruct (run_hears mem k acts1 n0 s0 n s l1 (reached_Inv _ _ _ R0) HR AC) as (HS & AS & QS); auto.
  { intros a A. split; [|split]; intros ->; contradiction. }
  assert (FD : fades k s1 /\ sent_to k (d_got s1) ++ entries (d_queue s1) = sent_to k (d_got s) ++ entries (d_queue s)).
  { inversion F1; subst. unfold fades. cbn. split.
    - split; [reflexivity|]. right. split; [apply HS|]. apply calm_snoc; [reflexivity|]. now apply calm_hears; apply HS.
    - rewrite entries_app. cbn. now rewrite app_nil_r. }
  destruct FD as (FD & Q1). destruct (run_fades mem k acts2 n1 s1 n2 s2 l2 I1 FD E2 L2) as (_ & Q2).
  rewrite Q in Q2. cbn [entries flat_map] in Q2. rewrite app_nil_r in Q2. subst s3. change (sent_to k (d_got s2) = sent_to k (d_got s0) ++ entries (d_queue s0) ++ logged l1). congruence.
Qed.
Print Assumptions C126_delivered_partial.

(** With enough memory, and no fatal event under way, the destructor does return: when the worker has come through its queue. *)
Theorem C126_enough_memory_partial : forall mem n s, (forall n, mem n = true) -> reached mem n s -> dying s = false ->
  (forall m, ~ In (JFatal m) (d_queue s)) ->
  exists n' s' l, drun mem n s (ADestroy :: repeat AWork (S (length (d_queue s))) ++ [AReturn (d_next s); AWork; AReturn (d_next s)]) =
      (n', s', (ADestroy, Some OWaits) :: l ++ [(AReturn (d_next s), Some OReturned)]) /\ d_end s' = None /\ d_sinks s' = [] /\ d_queue s' = [].
Proof.
  intros mem n s OK R DY NF. pose proof (reached_Inv _ _ _ R) as I. assert (L : d_end s = None) by (destruct R as (? & ? & _ & R); exact R).
  assert (BG : d_bg s = true) by (unfold dying in DY; apply orb_false_iff in DY; destruct DY as (DY & _); now apply negb_false_iff in DY).
  pose proof (i_bg s I) as B. rewrite BG in B. destruct B as (RN & NS).
  set (s1 := waits (d_next s) KDestroy (u_queue (d_queue s ++ [JClear (d_next s)]) (u_active false (u_next (S (d_next s)) s)))).
  assert (S1 : dstep mem n s ADestroy = (S (S (S (S n))), s1, Some OWaits)).
  { unfold dstep. rewrite L, DY. unfold ddestroy. unfold andthen at 1, upd at 1. unfold andthen, must. now rewrite ok_spawn. }
  destruct (ok_works mem OK (d_queue s ++ [JClear (d_next s)]) (S (S (S (S n)))) s1 L RN eq_refl) as (n2 & s2 & l & R2 & _ & L2 & Q2 & E2 & C2 & RN2 & X2).
  { intros m J. apply in_app_iff in J. destruct J as [J|[J|[]]]; [now apply (NF m)|discriminate]. }
  { intro J. apply in_app_iff in J. destruct J as [J|[J|[]]]; [auto|discriminate]. }
  assert (NC : ~ In (d_next s) (map fst (d_calls s))) by (intro J; apply (i_calls_lt s I) in J; lia).
  assert (FC : find_call (d_next s) (d_calls s2) = Some KDestroy) by (rewrite C2; now apply find_last).
  assert (RD : existsb (Nat.eqb (d_next s)) (d_ready s2) = true).
  { apply has. rewrite E2. apply in_app_iff. right. rewrite jids_app. apply in_app_iff. right. now left. }
  set (s3 := waits (d_next s) KJoin (u_queue (d_queue s2 ++ [JStop]) (u_bg false (u_calls (drop_call (d_next s) (d_calls s2)) s2)))).
  assert (S3 : exists n3, dstep mem n2 s2 (AReturn (d_next s)) = (n3, s3, Some OWaits)).
  { unfold dstep. rewrite L2, FC, RD. unfold ddestroy_bg. unfold andthen at 1, upd at 1. unfold andthen, must. rewrite ok_send by assumption. eexists. reflexivity. }
  destruct S3 as (n3 & S3).
  assert (Q3 : d_queue s3 = [JStop]) by (cbn; now rewrite Q2).
  destruct (ok_work mem OK n3 s3 JStop [] L2 RN2 Q3 ltac:(discriminate)) as (n4 & s4 & S4 & L4 & Q4 & E4 & C4 & RN4 & X4).
  assert (FC4 : find_call (d_next s) (d_calls s4) = Some KJoin).
  { rewrite C4. unfold s3. cbn. apply find_last. intro J. apply drop_fst in J. now destruct J. }
  set (s5 := u_calls (drop_call (d_next s) (d_calls s4)) s4).
  destruct (ok_destroy_all mem OK (only_owned s5) n4 s5) as (n5 & D5).
  assert (S5 : dstep mem n4 s4 (AReturn (d_next s)) = (n5, u_sinks [] (u_gones (only_owned s5) s5), Some OReturned)).
  { unfold dstep. rewrite L4, FC4, RN4. fold s5. unfold ddestroy_end, andthen. rewrite D5. reflexivity. }
  assert (LEN : length (d_queue s ++ [JClear (d_next s)]) = S (length (d_queue s))) by (rewrite app_length; cbn; lia).
  rewrite LEN in R2. exists n5. eexists. exists (l ++ [(AReturn (d_next s), Some OWaits); (AWork, Some OReturned)]). split.
  - cbn [drun]. rewrite S1. erewrite run_app; [|exact R2|cbn [drun]; rewrite S3, S4, S5; reflexivity].
    rewrite <- app_assoc. reflexivity.
  - cbn. split; [exact L4|]. split; [reflexivity|exact Q4].
Qed.
Print Assumptions C126_enough_memory_partial.

Example C126_ex : exists n s l n1 s1 n2 s2 l2 n3 s3,
  drun (fails 13) 0 d_start [AAdd; AWork; AReturn 0; ALog 7; ALog 8; AAdd; ALog 9] = (n, s, l) /\ d_end s = None /\ d_active s = true /\ dying s = false /\ d_handles s = [0] /\
  logged l = [8; 9] /\ entries (d_queue s) = [8; 9] /\ dstep (fails 13) n s ADestroy = (n1, s1, Some OWaits) /\
  drun (fails 13) n1 s1 [ALog 10; AWork; AWork; AWork; AReturn 1; AWork; AReturn 2; AWork] = (n2, s2, l2) /\
  dstep (fails 13) n2 s2 (AReturn (d_next s)) = (n3, s3, Some OReturned) /\ d_end s3 = None /\ d_taken s3 = [8; 9] /\ sent_to 0 (d_got s3) = [8; 9] /\ sent_to 1 (d_got s3) = [9].
Proof.
  do 10 eexists. split; [vm_compute; reflexivity|]. do 6 (split; [reflexivity|]). split; [vm_compute; reflexivity|]. split; [vm_compute; reflexivity|].
  split; [vm_compute; reflexivity|]. repeat split.
Qed.
Example C126_ex2 : exists n s, reached plenty n s /\ d_active s = true /\ d_sinks s = [0] /\ d_queue s = [JSave 7; JAdd 1 1] /\ dying s = false.
Proof. do 2 eexists. split; [exists [AAdd; AWork; AReturn 0; ALog 7; AAdd]; eexists; split; [vm_compute; reflexivity|reflexivity]|]. repeat split. Qed.
