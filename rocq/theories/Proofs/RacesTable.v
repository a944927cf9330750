(** Which calls on the level table race. *)
From Coq Require Import List ZArith Bool Lia Arith.
From Verif Require Import Base.Threads Model.Races Spec.RacesSpec Proofs.RacesFacts Proofs.RacesUse.
Import ListNotations.
Local Open Scope nat_scope.

(* ------------------------------------------------------------------ *)
(** ** Racing schedules *)

(** p gets to q without changing the set of levels, which is ks *)
Inductive go (ks : list Z) : prog -> prog -> Prop :=
| go_refl p : go ks p p
| go_keys k q : go ks (k ks) q -> go ks (Rd false LKeys k) q
| go_rd a x k q : x <> LKeys -> (forall v, go ks (k v) q) -> go ks (Rd a x k) q
| go_wr a x v k q : x <> LKeys -> go ks k q -> go ks (Wr a x v k) q.

Lemma go_trans : forall ks p q r, go ks p q -> go ks q r -> go ks p r.
Proof. intros ks p q r G. induction G; intros H'; auto; constructor; auto. Qed.

Lemma upd_upd : forall (l : list prog) t p q, upd (upd l t p) t q = upd l t q.
Proof. induction l as [|y l IH]; intros [|t] p q; cbn; auto. now rewrite IH. Qed.
Lemma upd_get : forall (l : list prog) t, upd l t (get Stop l t) = l.
Proof. induction l as [|y l IH]; intros [|t]; cbn; auto. f_equal. apply IH. Qed.

Lemma go_runs : forall ks p q, go ks p q -> forall st t, mem st LKeys = ks -> t < length (ths st) -> get Stop (ths st) t = p ->
  exists sched st', runs sched st = Some st' /\ mem st' LKeys = ks /\ ths st' = upd (ths st) t q.
Proof.
  intros ks p q G. induction G as [p|k q G IH|a x k q N G IH|a x v k q N G IH]; intros st t E L P.
  - exists [], st. cbn. split; auto. split; auto. rewrite <- P. now rewrite upd_get.
  - destruct (IH (mkState (mem st) (sems st) (upd (ths st) t (k ks))) t) as (sc & st' & R & M & T); cbn; auto.
    { now rewrite upd_length. } { now apply get_upd_same. }
    exists (t :: sc), st'. cbn. unfold step. rewrite P, E. split; auto. split; auto. rewrite T. cbn. now rewrite upd_upd.
  - destruct (IH (mem st x) (mkState (mem st) (sems st) (upd (ths st) t (k (mem st x)))) t) as (sc & st' & R & M & T); cbn; auto.
    { now rewrite upd_length. } { now apply get_upd_same. }
    exists (t :: sc), st'. cbn. unfold step. rewrite P. split; auto. split; auto. rewrite T. cbn. now rewrite upd_upd.
  - destruct (IH (mkState (set_mem (mem st) x v) (sems st) (upd (ths st) t k)) t) as (sc & st' & R & M & T); cbn; auto.
    { now rewrite set_mem_other by auto. } { now rewrite upd_length. } { now apply get_upd_same. }
    exists (t :: sc), st'. cbn. unfold step. rewrite P. split; auto. split; auto. rewrite T. cbn. now rewrite upd_upd.
Qed.

Lemma runs_app : forall a b st st1, runs a st = Some st1 -> runs (a ++ b) st = runs b st1.
Proof.
  induction a as [|t a IH]; cbn; intros b st st1 E; [now injection E as <-|].
  destruct (step st t); [|discriminate]. now apply IH.
Qed.

(** two threads that get to conflicting accesses *)
Lemma go_race : forall ks st u v pu pv qu qv x wu wv, mem st LKeys = ks -> u <> v ->
  u < length (ths st) -> v < length (ths st) -> get Stop (ths st) u = pu -> get Stop (ths st) v = pv ->
  go ks pu qu -> go ks pv qv -> next_access qu = Some (x, wu, false) -> next_access qv = Some (x, wv, false) ->
  wu || wv = true -> races st x.
Proof.
  intros ks st u v pu pv qu qv x wu wv M N Lu Lv Pu Pv Gu Gv Au Av W.
  destruct (go_runs ks pu qu Gu st u M Lu Pu) as (s1 & st1 & R1 & M1 & T1).
  destruct (go_runs ks pv qv Gv st1 v M1) as (s2 & st2 & R2 & M2 & T2).
  { now rewrite T1, upd_length. } { now rewrite T1, get_upd_other by auto. }
  exists (s1 ++ s2), st2. split; [now rewrite (runs_app s1 s2 st st1 R1)|].
  exists u, v, wu, wv, false, false. split; auto. rewrite T2, T1. split; [|split; [|auto]].
  - rewrite get_upd_other by auto. now rewrite get_upd_same.
  - now rewrite get_upd_same by now rewrite upd_length.
Qed.

(* ------------------------------------------------------------------ *)
(** ** Where the calls get to *)

Lemma call_first : forall c k, exists w, next_access (tcall_prog c k) = Some (LKeys, w, false).
Proof. intros [l|l on|l|on| |l|l on|] k; cbn; eauto. Qed.

Lemma call_restructures : forall ks c k, restructures ks c = true ->
  exists q, go ks (tcall_prog c k) q /\ next_access q = Some (LKeys, true, false).
Proof.
  intros ks c k R. destruct c as [l|l on|l|on| |l|l on|]; cbn in R; try discriminate.
  - apply negb_true_iff in R. eexists. split.
    + cbn. unfold log_level, at_key. apply go_keys. unfold has_key. rewrite R. apply go_refl.
    + reflexivity.
  - apply negb_true_iff in R. eexists. split.
    + cbn. unfold add_level, at_key. apply go_keys. unfold has_key. rewrite R. apply go_refl.
    + reflexivity.
  - eexists. split; [apply go_refl|reflexivity].
Qed.

Lemma go_at_key : forall ks l k, In l ks -> go ks (at_key l k) k.
Proof. intros ks l k I. unfold at_key. apply go_keys. apply has_key_in in I. rewrite I. apply go_refl. Qed.
Lemma go_assign : forall ks l on k, go ks (assign l on k) k.
Proof. intros. unfold assign. repeat (apply go_wr; [discriminate|]). apply go_refl. Qed.
Lemma go_set : forall ks l on k, go ks (set_level l on k) k.
Proof.
  intros. unfold set_level. apply go_keys. destruct (has_key l ks) eqn:E; [|apply go_refl].
  apply has_key_in in E. eapply go_trans; [now apply go_at_key|apply go_assign].
Qed.
Lemma go_set_write : forall ks l on k, In l ks -> go ks (set_level l on k) (Wr false (LLevel l) [1%Z] k).
Proof.
  intros ks l on k I. unfold set_level. apply go_keys. pose proof I as E. apply has_key_in in E. rewrite E.
  eapply go_trans; [now apply go_at_key|]. apply go_wr; [discriminate|]. apply go_refl.
Qed.
Lemma go_highest : forall ks l r k, go ks (highest_loop l r k) k.
Proof.
  intros ks l r k. induction r as [|v r IH]; cbn; [apply go_refl|]. apply go_rd; [discriminate|]. intros _.
  eapply go_trans; [apply go_set|apply IH].
Qed.
Lemma go_highest_at : forall ks l r k v, In v r ->
  exists k', go ks (highest_loop l r k) (Rd false (LLevel v) (fun _ => set_level v (negb (v <? l)%Z) k')).
Proof.
  intros ks l r k v I. induction r as [|w r IH]; [easy|]. destruct I as [->|I].
  - cbn. eexists. apply go_refl.
  - destruct (IH I) as (k' & G). exists k'. cbn. apply go_rd; [discriminate|]. intros _. eapply go_trans; [apply go_set|apply G].
Qed.
Lemma go_all : forall ks on r k, go ks (all_loop on r k) k.
Proof. intros ks on r k. induction r as [|v r IH]; cbn; [apply go_refl|]. apply go_wr; [discriminate|auto]. Qed.
Lemma go_copy : forall ks r k, go ks (copy_loop r k) k.
Proof. intros ks r k. induction r as [|v r IH]; cbn; [apply go_refl|]. apply go_rd; [discriminate|]. intros _. apply go_rd; [discriminate|]. auto. Qed.
Lemma go_copy_at : forall ks r k v, In v r -> exists k', go ks (copy_loop r k) (Rd false (LLevel v) (fun _ => k')).
Proof.
  intros ks r k v I. induction r as [|w r IH]; [easy|]. destruct I as [->|I].
  - cbn. eexists. apply go_rd; [discriminate|]. intros _. apply go_refl.
  - destruct (IH I) as (k' & G). exists k'. cbn. apply go_rd; [discriminate|]. intros _. apply go_rd; [discriminate|]. auto.
Qed.

Lemma call_passes : forall ks c k, restructures ks c = false -> go ks (tcall_prog c k) k.
Proof.
  intros ks c k R. destruct c as [l|l on|l|on| |l|l on|]; cbn [tcall_prog restructures] in *; try discriminate.
  - apply negb_false_iff in R. unfold log_level. eapply go_trans; [apply go_at_key; now apply has_key_in|]. apply go_rd; [discriminate|]. intros _. apply go_refl.
  - apply go_set.
  - unfold set_highest. apply go_keys. destruct (has_key l ks); [apply go_highest|apply go_refl].
  - apply go_keys, go_all.
  - apply go_keys, go_copy.
  - unfold get_status. apply go_keys. destruct (has_key l ks); [|apply go_refl]. apply go_rd; [discriminate|]. intros _. apply go_refl.
  - apply negb_false_iff in R. unfold add_level. eapply go_trans; [apply go_at_key; now apply has_key_in|]. apply go_assign.
Qed.

Lemma call_overwrites : forall ks c k l, In l (overwrites ks c) ->
  exists q, go ks (tcall_prog c k) q /\ next_access q = Some (LLevel l, true, false).
Proof.
  intros ks c k l I. destruct c as [m|m on|m|on| |m|m on|]; cbn [tcall_prog overwrites] in *; try easy.
  - destruct (existsb (Z.eqb m) ks) eqn:E; [|easy]. destruct I as [<-|[]]. apply has_key_in in E.
    eexists. split; [now apply go_set_write|reflexivity].
  - destruct (existsb (Z.eqb m) ks) eqn:E; [|easy]. destruct (go_highest_at ks m ks k l I) as (k' & G).
    eexists. split.
    + unfold set_highest. apply go_keys. unfold has_key. rewrite E. eapply go_trans; [apply G|]. apply go_rd; [discriminate|]. intros _.
      now apply go_set_write.
    + reflexivity.
  - destruct (existsb (Z.eqb m) ks) eqn:E; [|easy]. destruct I as [<-|[]]. apply has_key_in in E.
    eexists. split; [unfold add_level; eapply go_trans; [now apply go_at_key|]; apply go_wr; [discriminate|apply go_refl]|reflexivity].
Qed.
Lemma call_copies : forall ks c k l, In l (copies ks c) ->
  exists q, go ks (tcall_prog c k) q /\ next_access q = Some (LLevel l, false, false).
Proof.
  intros ks c k l I. destruct c as [m|m on|m|on| |m|m on|]; cbn [tcall_prog copies] in *; try easy.
  - destruct (existsb (Z.eqb m) ks) eqn:E; [|easy]. destruct (go_highest_at ks m ks k l I) as (k' & G).
    eexists. split; [unfold set_highest; apply go_keys; unfold has_key; rewrite E; apply G|reflexivity].
  - destruct (go_copy_at ks ks k l I) as (k' & G). eexists. split; [apply go_keys; apply G|reflexivity].
Qed.

(** the program of a thread *)
Definition tprog (cs : list tcall) : prog := calls (map tcall_prog cs) Stop.

Lemma thread_reaches : forall ks cs c, In c cs ->
  (exists q, go ks (tprog cs) q /\ next_access q = Some (LKeys, true, false)) \/
  (exists k, go ks (tprog cs) (tcall_prog c k)).
Proof.
  intros ks cs c I. induction cs as [|d cs IH]; [easy|]. unfold tprog. cbn [map calls fold_right].
  change (fold_right (fun c0 r => c0 r) Stop (map tcall_prog cs)) with (tprog cs).
  destruct I as [->|I]; [right; exists (tprog cs); apply go_refl|].
  destruct (restructures ks d) eqn:R.
  - left. now apply call_restructures.
  - pose proof (call_passes ks d (tprog cs) R) as G. destruct (IH I) as [(q & Gq & A)|(k & Gk)].
    + left. exists q. split; auto. eapply go_trans; eauto.
    + right. exists k. eapply go_trans; eauto.
Qed.

Lemma existsb_common : forall a b, existsb (fun l => existsb (Z.eqb l) b) a = true <-> exists l, In l a /\ In l b.
Proof.
  intros. rewrite existsb_exists. split.
  - intros (l & I & E). apply existsb_exists in E. destruct E as (m & J & E). apply Z.eqb_eq in E. subst. eauto.
  - intros (l & I & J). exists l. split; auto. apply existsb_exists. exists l. split; auto. apply Z.eqb_refl.
Qed.

Lemma table_get : forall ks ts t, get Stop (ths (table_threads ks ts)) t = tprog (nth t ts []).
Proof. intros. cbn [table_threads ths]. now rewrite (get_map _ ts t []). Qed.
Lemma table_length : forall ks ts, length (ths (table_threads ks ts)) = length ts.
Proof. intros. cbn. apply map_length. Qed.

Lemma nth_in_length : forall (ts : list (list tcall)) u c, In c (nth u ts []) -> u < length ts.
Proof. intros ts u c I. destruct (Nat.lt_ge_cases u (length ts)); auto. rewrite nth_overflow in I by auto. easy. Qed.

Lemma first_of_thread : forall cs c, In c cs -> exists w, next_access (tprog cs) = Some (LKeys, w, false).
Proof. intros [|d cs] c I; [easy|]. apply call_first. Qed.

Lemma conflict_races : forall ks ts u v c d, u <> v -> In c (nth u ts []) -> In d (nth v ts []) -> conflict ks c d = true ->
  exists x, races (table_threads ks ts) x.
Proof.
  intros ks ts u v c d N I J C.
  assert (Lu : u < length (ths (table_threads ks ts))) by (rewrite table_length; eauto using nth_in_length).
  assert (Lv : v < length (ths (table_threads ks ts))) by (rewrite table_length; eauto using nth_in_length).
  pose proof (table_get ks ts u) as Pu. pose proof (table_get ks ts v) as Pv.
  (* a thread that gets to a change of the set of levels races with the other's first access *)
  assert (WK : forall a b ca cb, a <> b -> In ca (nth a ts []) -> In cb (nth b ts []) ->
          (exists q, go ks (tprog (nth a ts [])) q /\ next_access q = Some (LKeys, true, false)) -> exists x, races (table_threads ks ts) x).
  { intros a b ca cb Nab Ia Ib (q & G & A). destruct (first_of_thread _ cb Ib) as (w & F). exists LKeys.
    apply (go_race ks (table_threads ks ts) a b (tprog (nth a ts [])) (tprog (nth b ts [])) q (tprog (nth b ts [])) LKeys true w);
      auto using table_get, go_refl; rewrite ?table_length; eauto using nth_in_length. }
  destruct (thread_reaches ks _ c I) as [Gu|(ku & Gu)]; [exact (WK u v c d N I J Gu)|].
  destruct (thread_reaches ks _ d J) as [Gv|(kv & Gv)]; [exact (WK v u d c (not_eq_sym N) J I Gv)|].
  unfold conflict in C. apply orb_true_iff in C. destruct C as [C|C]; [apply orb_true_iff in C; destruct C as [C|C]; [apply orb_true_iff in C; destruct C as [C|C]|]|].
  - apply (WK u v c d N I J). destruct (call_restructures ks c ku C) as (q & G & A). exists q. split; eauto using go_trans.
  - apply (WK v u d c (not_eq_sym N) J I). destruct (call_restructures ks d kv C) as (q & G & A). exists q. split; eauto using go_trans.
  - unfold tramples in C. apply existsb_common in C. destruct C as (l & A & B). apply in_app_iff in B.
    destruct (call_overwrites ks c ku l A) as (q & G & E). exists (LLevel l). destruct B as [B|B].
    + destruct (call_overwrites ks d kv l B) as (q' & G' & E').
      apply (go_race ks (table_threads ks ts) u v (tprog (nth u ts [])) (tprog (nth v ts [])) q q' (LLevel l) true true); eauto using go_trans.
    + destruct (call_copies ks d kv l B) as (q' & G' & E').
      apply (go_race ks (table_threads ks ts) u v (tprog (nth u ts [])) (tprog (nth v ts [])) q q' (LLevel l) true false); eauto using go_trans.
  - unfold tramples in C. apply existsb_common in C. destruct C as (l & A & B). apply in_app_iff in B.
    destruct (call_overwrites ks d kv l A) as (q & G & E). exists (LLevel l). destruct B as [B|B].
    + destruct (call_overwrites ks c ku l B) as (q' & G' & E').
      apply (go_race ks (table_threads ks ts) u v (tprog (nth u ts [])) (tprog (nth v ts [])) q' q (LLevel l) true true); eauto using go_trans.
    + destruct (call_copies ks c ku l B) as (q' & G' & E').
      apply (go_race ks (table_threads ks ts) u v (tprog (nth u ts [])) (tprog (nth v ts [])) q' q (LLevel l) false true); eauto using go_trans.
Qed.

(* ------------------------------------------------------------------ *)
(** ** No conflict, no race *)

(** the program keeps the set of levels, overwrites levels of w only and copies levels of r only *)
Fixpoint within (ks w r : list Z) (p : prog) : Prop :=
  match p with
  | Stop => True
  | Rd false LKeys k => within ks w r (k ks)
  | Rd false (LLevel l) k => In l r /\ forall v, within ks w r (k v)
  | Rd true (LStatus _) k => forall v, within ks w r (k v)
  | Wr true (LStatus _) _ k => within ks w r k
  | Wr false (LLevel l) _ k => In l w /\ within ks w r k
  | _ => False
  end.

Lemma within_assign : forall ks w r l on k, In l w -> within ks w r k -> within ks w r (assign l on k).
Proof. intros. cbn. auto. Qed.
Lemma within_at : forall ks w r l k, In l ks -> within ks w r k -> within ks w r (at_key l k).
Proof. intros ks w r l k I W. cbn. apply has_key_in in I. now rewrite I. Qed.
Lemma within_set : forall ks w r l on k, (In l ks -> In l w) -> within ks w r k -> within ks w r (set_level l on k).
Proof.
  intros ks w r l on k I W. cbn. destruct (has_key l ks) eqn:E; auto. apply has_key_in in E. cbn. 
  pose proof E as F. apply has_key_in in F. rewrite F. cbn. auto.
Qed.
Lemma within_highest : forall ks w r l s k, (forall v, In v s -> In v w /\ In v r) -> within ks w r k -> within ks w r (highest_loop l s k).
Proof.
  intros ks w r l s k I W. induction s as [|v s IH]; cbn [highest_loop]; auto. split; [apply I; cbn; auto|]. intros _. apply within_set.
  - intros _. apply I. cbn. auto.
  - apply IH. intros. apply I. cbn. auto.
Qed.
Lemma within_call : forall ks w r c k, restructures ks c = false -> incl (overwrites ks c) w -> incl (copies ks c) r ->
  within ks w r k -> within ks w r (tcall_prog c k).
Proof.
  intros ks w r c k R IW IR W. destruct c as [l|l on|l|on| |l|l on|]; cbn [tcall_prog restructures overwrites copies] in *; try discriminate.
  - apply negb_false_iff in R. apply within_at; [now apply has_key_in|]. cbn. auto.
  - apply within_set; auto. intro I. apply has_key_in in I. unfold has_key in I. rewrite I in IW. apply IW. cbn. auto.
  - cbn. unfold has_key. destruct (existsb (Z.eqb l) ks) eqn:E; auto. apply within_highest; auto.
  - cbn. induction ks as [|v s IH] in |- * at 2; cbn; auto.
  - cbn. revert IR. assert (G : forall s, incl s r -> within ks w r (copy_loop s k)).
    { induction s as [|v s IH]; cbn; auto. intros IS _. split; [apply IS; cbn; auto|]. intros _. apply IH. intros y I. apply IS. cbn. auto. }
    auto.
  - cbn. destruct (has_key l ks); cbn; auto.
  - apply negb_false_iff in R. rewrite R in IW. apply within_at; [now apply has_key_in|]. apply within_assign; auto. apply IW. cbn. auto.
Qed.
Lemma within_thread : forall ks cs, (forall c, In c cs -> restructures ks c = false) ->
  within ks (flat_map (overwrites ks) cs) (flat_map (copies ks) cs) (tprog cs).
Proof.
  intros ks cs R. assert (G : forall w r l, incl l cs -> incl (flat_map (overwrites ks) l) w -> incl (flat_map (copies ks) l) r -> within ks w r (tprog l)).
  { induction l as [|c l IH]; intros I A B; [exact Logic.I|]. unfold tprog. cbn [map calls fold_right].
    change (fold_right (fun c0 r0 => c0 r0) Stop (map tcall_prog l)) with (tprog l).
    cbn [flat_map] in A, B. apply within_call.
    - apply R, I. cbn. auto.
    - intros y J. apply A. apply in_app_iff. auto.
    - intros y J. apply B. apply in_app_iff. auto.
    - apply IH.
      + intros y J. apply I. cbn. auto.
      + intros y J. apply A. apply in_app_iff. auto.
      + intros y J. apply B. apply in_app_iff. auto. }
  apply G; apply incl_refl.
Qed.

Lemma within_step : forall ks W R st t st', mem st LKeys = ks -> (forall u, within ks (W u) (R u) (get Stop (ths st) u)) ->
  step st t = Some st' -> mem st' LKeys = ks /\ forall u, within ks (W u) (R u) (get Stop (ths st') u).
Proof.
  intros ks W R st t st' M I E. pose proof (I t) as It. unfold step in E.
  assert (L : t < length (ths st)).
  { destruct (Nat.lt_ge_cases t (length (ths st))) as [|G]; auto. rewrite (get_out Stop _ _ G) in E. discriminate. }
  assert (U : forall q, within ks (W t) (R t) q -> forall u, within ks (W u) (R u) (get Stop (upd (ths st) t q) u)).
  { intros q Q u. rewrite get_upd by auto. destruct (Nat.eqb_spec u t) as [->|]; auto. }
  destruct (get Stop (ths st) t) as [|s k|s k|a x k|a x v k|x f k]; try discriminate; cbn in It; try easy.
  - injection E as <-. cbn [mem ths]. split; auto. apply U. destruct a, x; try easy; try (now apply It). now rewrite M.
  - injection E as <-. cbn [mem ths]. destruct a, x; try easy; (split; [rewrite set_mem_other by discriminate; auto|apply U; tauto]).
Qed.
Lemma within_runs : forall ks W R sched st st', mem st LKeys = ks -> (forall u, within ks (W u) (R u) (get Stop (ths st) u)) ->
  runs sched st = Some st' -> forall u, within ks (W u) (R u) (get Stop (ths st') u).
Proof.
  intros ks W R. induction sched as [|t s IH]; cbn; intros st st' M I E; [now injection E as <-|].
  destruct (step st t) as [st1|] eqn:S; [|discriminate]. destruct (within_step ks W R st t st1 M I S). eauto.
Qed.
Lemma within_access : forall ks w r p x wr a, within ks w r p -> next_access p = Some (x, wr, a) ->
  (a = true) \/ (x = LKeys /\ wr = false) \/ (exists l, x = LLevel l /\ In l (if wr then w else r)).
Proof.
  intros ks w r p x wr a W E. destruct p as [|s k|s k|b y k|b y v k|y f k]; try discriminate; cbn in *; try easy.
  - injection E as -> <- ->. destruct a, x; try easy; auto. right. right. eexists. split; eauto. tauto.
  - injection E as -> <- ->. destruct a, x; try easy; auto. right. right. eexists. split; eauto. tauto.
Qed.

Lemma single_step : forall st t st' u, (forall v, v <> u -> get Stop (ths st) v = Stop) -> step st t = Some st' ->
  forall v, v <> u -> get Stop (ths st') v = Stop.
Proof.
  intros st t st' u O E v N. destruct (Nat.eq_dec t u) as [->|ne].
  - unfold step in E. destruct (get Stop (ths st) u); try discriminate;
      try (destruct (sems st s); [discriminate|]); injection E as <-; cbn [ths]; rewrite (get_upd_other Stop) by auto; auto.
  - unfold step in E. rewrite (O t ne) in E. discriminate.
Qed.
Lemma single_runs : forall sched st st' u, (forall v, v <> u -> get Stop (ths st) v = Stop) -> runs sched st = Some st' ->
  forall v, v <> u -> get Stop (ths st') v = Stop.
Proof.
  induction sched as [|t s IH]; cbn; intros st st' u O E; [now injection E as <-|].
  destruct (step st t) as [st1|] eqn:S; [|discriminate]. apply (IH st1 st' u); auto. now apply (single_step st t st1 u).
Qed.

Lemma no_conflict_free : forall ks ts,
  (forall u v c d, u <> v -> In c (nth u ts []) -> In d (nth v ts []) -> conflict ks c d = false) ->
  forall x, race_free (table_threads ks ts) x.
Proof.
  intros ks ts NC x sched st R. 
  destruct (existsb (fun cs => existsb (restructures ks) cs) ts) eqn:X.
  - (* a thread changes the set of levels: it is alone *)
    apply existsb_exists in X. destruct X as (cs & I & X). apply existsb_exists in X. destruct X as (c & J & X).
    destruct (In_nth ts cs [] I) as (u & Lu & Eu).
    assert (O : forall v, v <> u -> get Stop (ths (table_threads ks ts)) v = Stop).
    { intros v N. rewrite table_get. destruct (nth v ts []) as [|d r] eqn:Ev; auto. exfalso.
      pose proof (NC u v c d ltac:(auto)) as F. rewrite Eu, Ev in F. specialize (F J (or_introl eq_refl)).
      unfold conflict in F. now rewrite X in F. }
    pose proof (single_runs sched _ st u O R) as O'.
    intros (a & b & wa & wb & aa & ab & N & A & B & _).
    destruct (Nat.eq_dec a u) as [->|na]; [|rewrite (O' a na) in A; discriminate].
    rewrite (O' b ltac:(auto)) in B. discriminate.
  - assert (NR : forall u c, In c (nth u ts []) -> restructures ks c = false).
    { intros u c I. destruct (restructures ks c) eqn:E; auto. exfalso. apply not_true_iff_false in X. apply X.
      apply existsb_exists. exists (nth u ts []). split; [apply nth_In; eauto using nth_in_length|]. apply existsb_exists. eauto. }
    assert (W0 : forall u, within ks (flat_map (overwrites ks) (nth u ts [])) (flat_map (copies ks) (nth u ts [])) (get Stop (ths (table_threads ks ts)) u)).
    { intro u. rewrite table_get. apply within_thread. eauto. }
    pose proof (within_runs ks (fun u => flat_map (overwrites ks) (nth u ts [])) (fun u => flat_map (copies ks) (nth u ts [])) sched (table_threads ks ts) st eq_refl W0 R) as W1.
    cbn beta in W1. intros (a & b & wa & wb & aa & ab & N & A & B & C & D).
    assert (K : forall u v l, u <> v -> In l (flat_map (overwrites ks) (nth u ts [])) ->
              In l (flat_map (overwrites ks) (nth v ts [])) \/ In l (flat_map (copies ks) (nth v ts [])) -> False).
    { intros u v l Nuv I J. apply in_flat_map in I. destruct I as (c & Ic & I).
      assert (E : exists d, In d (nth v ts []) /\ In l (overwrites ks d ++ copies ks d)).
      { destruct J as [J|J]; apply in_flat_map in J; destruct J as (d & Id & J); exists d; (split; [auto|]); apply in_app_iff; auto. }
      destruct E as (d & Id & E). pose proof (NC u v c d Nuv Ic Id) as F.
      assert (T : tramples ks c d = true) by (apply existsb_common; eauto).
      unfold conflict in F. rewrite T in F. rewrite !orb_true_r in F. discriminate. }
    destruct (within_access _ _ _ _ _ _ _ (W1 a) A) as [->|[(-> & ->)|(l & -> & Il)]].
    + destruct (within_access _ _ _ _ _ _ _ (W1 b) B) as [->|Q]; [discriminate|].
      (* an atomic access is to a status *)
      pose proof (W1 a) as Wa. destruct (get Stop (ths st) a) as [|s k|s k|b' y k|b' y v k|y f k]; try discriminate; cbn in *; try easy;
        injection A as -> <- ->; destruct x; try easy; destruct Q as [(E & _)|(l & E & _)]; discriminate.
    + destruct (within_access _ _ _ _ _ _ _ (W1 b) B) as [->|[(_ & ->)|(l & E & _)]]; [|discriminate C|discriminate E].
      pose proof (W1 b) as Wb. destruct (get Stop (ths st) b) as [|s k|s k|b' y k|b' y v k|y f k]; try discriminate; cbn in *; try easy;
        injection B as -> <- ->; easy.
    + destruct (within_access _ _ _ _ _ _ _ (W1 b) B) as [->|[(E & _)|(l' & E & Il')]]; [|discriminate E|].
      * pose proof (W1 b) as Wb. destruct (get Stop (ths st) b) as [|s k|s k|b' y k|b' y v k|y f k]; try discriminate; cbn in *; try easy;
        injection B as -> <- ->; easy.
      * injection E as <-. destruct wa.
        -- apply (K a b l N Il). destruct wb; auto.
        -- destruct wb; [|discriminate]. apply (K b a l (not_eq_sym N) Il'). auto.
Qed.
