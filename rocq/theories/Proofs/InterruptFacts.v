(** Facts about signals that interrupt threads. *)
From Coq Require Import List ZArith Bool Lia.
From Verif Require Import Base.Threads Model.Races Spec.RacesSpec Model.Interrupt Spec.InterruptSpec.
Import ListNotations.

Definition critb (s : sem) : bool := if in_dec sem_eq_dec s critical then true else false.
Lemma critb_in : forall s, critb s = true <-> In s critical.
Proof. intro s. unfold critb. destruct (in_dec sem_eq_dec s critical); split; intros; auto; discriminate. Qed.

(** sections of the critical mutexes: nothing else is locked inside, the pointer to the worker and the exit handler are
    not written, and the queue is touched only inside its own *)
Fixpoint leafp (h : option sem) (p : prog) : Prop :=
  match p with
  | Stop => h = None
  | Acq s k => h = None /\ leafp (if critb s then Some s else None) k
  | Rel s k => (if critb s then h = Some s else h = None) /\ leafp None k
  | Rd _ y k => (y = LQueue -> h = Some MQueue) /\ forall v, leafp h (k v)
  | Wr _ y _ k => (y = LQueue -> h = Some MQueue) /\ (h <> None -> y <> LLogger /\ y <> LFatalFn) /\ leafp h k
  | Rmw y _ k => y <> LQueue /\ (h <> None -> y <> LLogger /\ y <> LFatalFn) /\ leafp h k
  end.

(* ------------------------------------------------------------------ *)
(** ** The calls of the library *)
Ltac lf1 := match goal with
  | |- leafp _ Stop => reflexivity
  | |- leafp _ (Acq ?s _) => split; [reflexivity|let b := eval vm_compute in (critb s) in change (critb s) with b; cbv iota]
  | |- leafp _ (Rel _ _) => split; [reflexivity|]
  | |- leafp _ (Rd _ _ _) => split; [try discriminate; reflexivity|intro]
  | |- leafp _ (Wr _ _ _ _) => split; [try discriminate; reflexivity|split; [try congruence; split; discriminate|]]
  | |- leafp _ (if ?b then _ else _) => destruct b
  | |- leafp _ (match ?l with [] => _ | _ => _ end) => destruct l
  | |- leafp _ _ => assumption
  end.
Lemma lf_push : forall j k, leafp None k -> leafp None (q_push j k).
Proof. intros. unfold q_push, locked. repeat lf1. Qed.
Lemma lf_ask : forall j k, leafp None k -> leafp None (ask_worker j k).
Proof. intros. unfold ask_worker. lf1. now apply lf_push. Qed.
Lemma lf_shut : forall k, leafp None k -> leafp None (shut_down k).
Proof. intros. unfold shut_down, locked. repeat lf1. Qed.
Lemma lf_restore : forall l k, leafp None k -> leafp None (restore_all l k).
Proof. intros l k H. induction l as [|s l IH]; cbn; [assumption|]. split; [discriminate|]. intro v. destruct (existsb (Z.eqb s) v); auto. repeat lf1. Qed.
Lemma lf_restore_loop : forall k, leafp None k -> leafp None (restore_loop k).
Proof. intros. unfold restore_loop. lf1. now apply lf_restore. Qed.
Lemma lf_install_all : forall l k, leafp None k -> leafp None (install_all l k).
Proof. intros l k H. induction l as [|s l IH]; cbn; [assumption|]. split; [discriminate|]. intro v. split; [discriminate|]. split; [congruence|]. exact IH. Qed.
Lemma lf_install : forall k, leafp None k -> leafp None (install k).
Proof. intros. unfold install. lf1. now apply lf_install_all. Qed.
Lemma lf_hook : forall h k, leafp None k -> leafp None (set_hook h k).
Proof. intros. unfold set_hook, locked. repeat lf1. Qed.
Lemma lf_once : forall i body k, critb (MOnce i) = false -> (forall k', leafp None k' -> leafp None (body k')) -> leafp None k -> leafp None (once i body k).
Proof.
  intros i body k N B H. unfold once. split; [reflexivity|]. rewrite N. split; [discriminate|]. intro v.
  assert (R : leafp None (Rel (MOnce i) k)) by (split; [now rewrite N|assumption]). destruct (is_set v); auto.
  apply B. split; [discriminate|]. split; [congruence|]. assumption.
Qed.
Lemma lf_gcall : forall c k, leafp None k -> leafp None (gcall_prog c k).
Proof.
  intros [| | | |h|h|sigs|j] k H; cbn [gcall_prog].
  - unfold push_message. lf1. destruct (is_set v); [lf1; now apply lf_ask|]. apply lf_once; auto. intros k' H'. repeat lf1.
  - unfold initialize. apply lf_once; [reflexivity|apply lf_install|]. lf1. lf1. destruct (is_set v); [reflexivity|].
    apply lf_once; [reflexivity| |].
    + intros k' H'. lf1. destruct (is_set v0); auto. lf1. now apply lf_ask.
    + lf1. apply lf_hook. repeat lf1.
  - now apply lf_shut.
  - unfold destroy_worker. lf1. apply lf_shut, lf_ask. lf1. apply lf_push. repeat lf1.
  - now apply lf_hook.
  - unfold set_exit_handler. repeat lf1.
  - unfold override_signals, locked. lf1. apply lf_restore_loop. lf1. apply lf_install. repeat lf1.
  - now apply lf_ask.
Qed.
Lemma lf_wait : forall m k, (forall j, leafp None (k j)) -> leafp None (q_wait m k).
Proof.
  intros m k H. induction m as [|m IH]; cbn [q_wait]; (split; [reflexivity|]; split; [reflexivity|]; intro v; destruct v as [|j r]).
  - repeat lf1.
  - split; [reflexivity|]. split; [split; discriminate|]. split; [reflexivity|]. apply H.
  - split; [reflexivity|]. exact IH.
  - split; [reflexivity|]. split; [split; discriminate|]. split; [reflexivity|]. apply H.
Qed.
Lemma lf_job : forall j k, leafp None k -> leafp None (job_prog j k).
Proof.
  intros j k H. unfold job_prog. repeat match goal with |- leafp _ (if ?c then _ else _) => destruct c end; repeat lf1.
  apply lf_shut. repeat lf1. now apply lf_restore_loop.
Qed.
Lemma lf_run : forall m n, leafp None (run m n).
Proof.
  intros m. induction n as [|n IH]; cbn [run]; [reflexivity|]. lf1. destruct (is_set v); [repeat lf1|].
  apply lf_wait. intro j. now apply lf_job.
Qed.
Lemma lf_push_fatal : leafp None push_fatal.
Proof. unfold push_fatal. lf1. destruct (is_set v); [lf1; now apply lf_ask|now apply lf_restore_loop]. Qed.
Lemma lf_fatal : leafp None fatal_message.
Proof.
  unfold fatal_message. lf1. apply lf_hook. split; [discriminate|]. split; [congruence|].
  assert (F : leafp None (Rd false LFatalFn (fun f => match f with [] => push_fatal | _ => Stop end))).
  { lf1. destruct v0; [apply lf_push_fatal|reflexivity]. }
  unfold once. lf1. lf1. destruct (is_set v0).
  - lf1. lf1. destruct (1 <? Z.of_nat (length v1))%Z; [lf1|]; exact F.
  - lf1. lf1. lf1. lf1. destruct (1 <? Z.of_nat (length v1))%Z; [lf1|]; exact F.
Qed.
Lemma lf_gthread : forall cs e, leafp None (gthread cs e).
Proof.
  intros cs e. unfold gthread. induction cs as [|c cs IH]; cbn; [|now apply lf_gcall].
  destruct e; [reflexivity|apply lf_fatal|apply lf_run].
Qed.

(* ------------------------------------------------------------------ *)
(** ** Invariant *)
(** H: the critical mutex inside whose section each thread is.  [ok t]: the thread is inside what it owns. *)
Definition Inv (H : nat -> option sem) (st : istate) : Prop :=
  (forall t, leafp (H t) (get Stop (ths (core st)) t)) /\
  (forall t s, H t = Some s -> In s critical /\ owner st s = Some t) /\
  (forall s, In s critical -> sems (core st) s = match owner st s with None => 1%nat | Some _ => 0%nat end).
(** nobody was interrupted inside *)
Definition Clean (H : nat -> option sem) (st : istate) : Prop := forall t s, In s critical -> owner st s = Some t -> H t = Some s.

Definition hset (H : nat -> option sem) (t : nat) (h : option sem) : nat -> option sem := fun u => if Nat.eqb u t then h else H u.
Lemma hset_same : forall H t h, hset H t h t = h.
Proof. intros. unfold hset. now rewrite Nat.eqb_refl. Qed.
Lemma hset_other : forall H t h u, u <> t -> hset H t h u = H u.
Proof. intros H t h u N. unfold hset. apply Nat.eqb_neq in N. now rewrite N. Qed.
Definition next_h (H : nat -> option sem) (st : istate) (e : ievent) : nat -> option sem :=
  match e with
  | Signal t => hset H t None
  | Step t => match get Stop (ths (core st)) t with
              | Acq s _ => hset H t (if critb s then Some s else None)
              | Rel _ _ => hset H t None
              | _ => H
              end
  end.

Lemma upd_get : forall (st : state) t q (Q : prog -> nat -> Prop), (t < length (ths st))%nat ->
  (forall u, u <> t -> Q (get Stop (ths st) u) u) -> Q q t -> forall u, Q (get Stop (upd (ths st) t q) u) u.
Proof. intros st t q Q L A B u. rewrite get_upd by auto. destruct (Nat.eqb_spec u t) as [->|]; auto. Qed.

Lemma inv_step : forall H st e st', Inv H st -> istep st e = Some st' -> Inv (next_h H st e) st'.
Proof.
  intros H st e st' (A & B & C) E. destruct e as [t|t]; cbn [istep next_h] in *.
  - destruct (step (core st) t) as [c|] eqn:S; [|discriminate]. injection E as <-. pose proof (A t) as At.
    unfold step in S.
    assert (L : (t < length (ths (core st)))%nat).
    { destruct (Nat.lt_ge_cases t (length (ths (core st)))) as [|G]; auto. rewrite (get_out Stop _ _ G) in S. discriminate. }
    destruct (get Stop (ths (core st)) t) as [|s k|s k|a y k|a y v k|y f k] eqn:P; [discriminate| | | | |]; cbn [leafp] in At; cbn [new_owner].
    + destruct (sems (core st) s) as [|n] eqn:Sn; [discriminate|]. injection S as <-. destruct At as (Ht & At).
      split; [|split]; cbn [core owner ths sems mem].
      * apply (upd_get (core st) t k (fun p u => leafp (hset H t (if critb s then Some s else None) u) p)); auto.
        -- intros u N. rewrite hset_other by auto. apply A.
        -- now rewrite hset_same.
      * intros u s' Hu. unfold set_owner. destruct (Nat.eq_dec u t) as [->|nu].
        -- rewrite hset_same in Hu. destruct (critb s) eqn:Cs; [|discriminate]. injection Hu as <-.
           split; [now apply critb_in|]. destruct (sem_eq_dec s s); congruence.
        -- rewrite hset_other in Hu by auto. destruct (B u s' Hu) as (I & O). split; auto.
           destruct (sem_eq_dec s' s) as [->|]; auto. exfalso. specialize (C s I). rewrite O in C. lia.
      * intros s' I. unfold set_owner, set_sem. destruct (sem_eq_dec s' s) as [->|]; [|auto]. specialize (C s I). destruct (owner st s); lia.
    + injection S as <-. destruct At as (Ht & At). split; [|split]; cbn [core owner ths sems mem].
      * apply (upd_get (core st) t k (fun p u => leafp (hset H t None u) p)); auto.
        -- intros u N. rewrite hset_other by auto. apply A.
        -- now rewrite hset_same.
      * intros u s' Hu. unfold set_owner. destruct (Nat.eq_dec u t) as [->|nu]; [rewrite hset_same in Hu; discriminate|].
        rewrite hset_other in Hu by auto. destruct (B u s' Hu) as (I & O). split; auto.
        destruct (sem_eq_dec s' s) as [->|]; auto. exfalso. apply critb_in in I. rewrite I in Ht. apply B in Ht. destruct Ht as (_ & Ht). congruence.
      * intros s' I. unfold set_owner, set_sem. destruct (sem_eq_dec s' s) as [->|]; [|auto]. pose proof I as I'. apply critb_in in I'. rewrite I' in Ht.
        apply B in Ht. destruct Ht as (_ & Ht). specialize (C s I). rewrite Ht in C. lia.
    + injection S as <-. destruct At as (_ & At). split; [|split]; cbn [core owner ths sems mem]; auto.
      apply (upd_get (core st) t (k (mem (core st) y)) (fun p u => leafp (H u) p)); auto.
    + injection S as <-. destruct At as (_ & _ & At). split; [|split]; cbn [core owner ths sems mem]; auto.
      apply (upd_get (core st) t k (fun p u => leafp (H u) p)); auto.
    + injection S as <-. destruct At as (_ & _ & At). split; [|split]; cbn [core owner ths sems mem]; auto.
      apply (upd_get (core st) t k (fun p u => leafp (H u) p)); auto.
  - destruct (t <? length (ths (core st)))%nat eqn:L; [|discriminate]. apply Nat.ltb_lt in L. injection E as <-.
    split; [|split]; cbn [core owner ths sems mem]; auto.
    + apply (upd_get (core st) t (on_signal (caught st)) (fun p u => leafp (hset H t None u) p)); auto.
      * intros u N. rewrite hset_other by auto. apply A.
      * rewrite hset_same. unfold on_signal. destruct (caught st); [reflexivity|apply lf_fatal].
    + intros u s Hu. destruct (Nat.eq_dec u t) as [->|nu]; [rewrite hset_same in Hu; discriminate|]. rewrite hset_other in Hu by auto. auto.
Qed.

Lemma clean_step : forall H st e st', Inv H st -> Clean H st -> match e with Signal t => harmless st t | Step _ => True end ->
  istep st e = Some st' -> Clean (next_h H st e) st'.
Proof.
  intros H st e st' (A & B & C) D Hl E. destruct e as [t|t]; cbn [istep next_h] in *.
  - destruct (step (core st) t) as [c|] eqn:S; [|discriminate]. injection E as <-. pose proof (A t) as At. unfold step in S.
    destruct (get Stop (ths (core st)) t) as [|s k|s k|a y k|a y v k|y f k] eqn:P; [discriminate| | | | |]; cbn [leafp] in At;
      intros u s' I; cbn [owner new_owner]; try (now apply D).
    + unfold set_owner. destruct At as (Ht & _). destruct (sem_eq_dec s' s) as [->|ns].
      * intro O. injection O as <-. rewrite hset_same. apply critb_in in I. now rewrite I.
      * intro O. pose proof (D u s' I O) as Hu. destruct (Nat.eq_dec u t) as [->|nu]; [congruence|]. now rewrite hset_other.
    + unfold set_owner. destruct (sem_eq_dec s' s) as [->|ns]; [discriminate|]. intro O. pose proof (D u s' I O) as Hu.
      destruct (Nat.eq_dec u t) as [->|nu]; [|now rewrite hset_other]. exfalso.
      destruct At as (Ht & _). destruct (critb s); congruence.
  - destruct (t <? length (ths (core st)))%nat eqn:L; [|discriminate]. injection E as <-. intros u s I O. cbn [owner] in O.
    destruct (Nat.eq_dec u t) as [->|nu]; [exfalso; exact (Hl s I O)|]. rewrite hset_other by auto. now apply D.
Qed.

Lemma inv_runs : forall es H st st', Inv H st -> iruns es st = Some st' -> exists H', Inv H' st'.
Proof.
  induction es as [|e r IH]; cbn; intros H st st' I E; [injection E as <-; eauto|].
  destruct (istep st e) as [st1|] eqn:S; [|discriminate]. eapply IH; [eapply inv_step; eauto|exact E].
Qed.
Lemma clean_runs : forall es H st st', Inv H st -> Clean H st -> all_harmless es st -> iruns es st = Some st' -> exists H', Inv H' st' /\ Clean H' st'.
Proof.
  induction es as [|e r IH]; cbn; intros H st st' I D A E; [injection E as <-; eauto|].
  destruct A as (A1 & A2). destruct (istep st e) as [st1|] eqn:S; [|discriminate].
  eapply IH; [eapply inv_step; eauto|eapply clean_step; eauto|exact A2|exact E].
Qed.
Lemma start_inv : forall m threads, Inv (fun _ => None) (istart m mutexes_free threads) /\ Clean (fun _ => None) (istart m mutexes_free threads).
Proof.
  intros m ts. split; [split; [|split]|]; cbn [istart core owner ths sems mem].
  - intro t. destruct (Nat.lt_ge_cases t (length ts)) as [L|L].
    + unfold get. rewrite (nth_indep _ Stop (gthread [] Returns)) by (rewrite map_length; auto).
      rewrite (map_nth (fun t => gthread (fst t) (snd t)) ts ([], Returns)). apply lf_gthread.
    + rewrite get_out by (rewrite map_length; auto). reflexivity.
  - discriminate.
  - intros s I. repeat (destruct I as [<-|I]; [reflexivity|]). destruct I.
  - discriminate.
Qed.

(* ------------------------------------------------------------------ *)
(** ** A thread interrupted inside its section *)
Definition stuck (H : nat -> option sem) (st : istate) (s : sem) (t : nat) : Prop := owner st s = Some t /\ H t <> Some s.
Lemma stuck_step : forall H st e st' s t, Inv H st -> In s critical -> stuck H st s t -> istep st e = Some st' ->
  stuck (next_h H st e) st' s t /\ (s = MQueue -> mem (core st') LQueue = mem (core st) LQueue).
Proof.
  intros H st e st' s t (A & B & C) I (O & N) E. destruct e as [u|u]; cbn [istep next_h] in *.
  - destruct (step (core st) u) as [c|] eqn:S; [|discriminate]. injection E as <-. pose proof (A u) as Au. unfold step in S.
    pose proof (C s I) as Cs. rewrite O in Cs.
    destruct (get Stop (ths (core st)) u) as [|s' k|s' k|a y k|a y v k|y f k] eqn:P; [discriminate| | | | |]; cbn [leafp] in Au;
      unfold stuck; cbn [owner core new_owner mem].
    + destruct (sems (core st) s') as [|n] eqn:Sn; [discriminate|]. injection S as <-. cbn [mem]. split; auto.
      assert (s' <> s) by congruence. unfold set_owner. destruct (sem_eq_dec s s'); [congruence|]. split; auto.
      destruct (Nat.eq_dec t u) as [->|nu]; [|now rewrite hset_other]. rewrite hset_same. destruct (critb s'); congruence.
    + injection S as <-. cbn [mem]. split; auto.
      assert (s' <> s).
      { intros ->. destruct Au as (Hu & _). pose proof I as I'. apply critb_in in I'. rewrite I' in Hu. apply B in Hu as Q. destruct Q as (_ & Q).
        assert (u = t) by congruence. subst. contradiction. }
      unfold set_owner. destruct (sem_eq_dec s s'); [congruence|]. split; auto.
      destruct (Nat.eq_dec t u) as [->|nu]; [rewrite hset_same; discriminate|now rewrite hset_other].
    + injection S as <-. cbn [mem]. auto.
    + injection S as <-. cbn [mem]. split; auto. intros ->. unfold set_mem. destruct (loc_eq_dec LQueue y) as [<-|]; auto. exfalso.
      destruct Au as (Q & _). specialize (Q eq_refl). apply B in Q as Q2. destruct Q2 as (_ & Q2). assert (u = t) by congruence. subst. contradiction.
    + injection S as <-. cbn [mem]. split; auto. intros ->. unfold set_mem. destruct (loc_eq_dec LQueue y) as [<-|]; auto. exfalso. tauto.
  - destruct (u <? length (ths (core st)))%nat eqn:L; [|discriminate]. injection E as <-. unfold stuck. cbn [owner core mem]. split; auto. split; auto.
    destruct (Nat.eq_dec t u) as [->|nu]; [rewrite hset_same; discriminate|now rewrite hset_other].
Qed.
Lemma stuck_runs : forall es H st st' s t, Inv H st -> In s critical -> stuck H st s t -> iruns es st = Some st' ->
  (exists H', Inv H' st' /\ stuck H' st' s t) /\ (s = MQueue -> mem (core st') LQueue = mem (core st) LQueue).
Proof.
  induction es as [|e r IH]; cbn; intros H st st' s t I J K E; [injection E as <-; eauto|].
  destruct (istep st e) as [st1|] eqn:S; [|discriminate]. destruct (stuck_step H st e st1 s t I J K S) as (K1 & M1).
  destruct (IH (next_h H st e) st1 st' s t) as (G & M); auto. { eapply inv_step; eauto. } split; auto. intro Q. rewrite M, M1; auto.
Qed.
Lemma signal_sticks : forall H st s t st', Inv H st -> owner st s = Some t -> istep st (Signal t) = Some st' -> stuck (next_h H st (Signal t)) st' s t.
Proof.
  intros H st s t st' I O E. cbn [istep] in E. destruct (t <? length (ths (core st)))%nat; [|discriminate]. injection E as <-.
  split; [exact O|]. cbn [next_h]. rewrite hset_same. discriminate.
Qed.

(** every way through the program locks s *)
Fixpoint must (s : sem) (p : prog) : Prop :=
  match p with
  | Stop => False
  | Acq s' k => s' = s \/ must s k
  | Rel _ k | Wr _ _ _ k | Rmw _ _ k => must s k
  | Rd _ _ k => forall v, must s (k v)
  end.
Lemma must_fatal : forall s, s = MHook \/ s = MOnce 3 -> must s fatal_message.
Proof. intros s [-> | ->]; unfold fatal_message; cbn; auto. Qed.
Lemma must_step : forall H st e st' s t, Inv H st -> In s critical -> stuck H st s t -> e <> Signal t -> (t < length (ths (core st)))%nat ->
  must s (get Stop (ths (core st)) t) -> istep st e = Some st' -> must s (get Stop (ths (core st')) t).
Proof.
  intros H st e st' s t (A & B & C) I (O & N) NS L M E. destruct e as [u|u]; cbn [istep] in E.
  - destruct (step (core st) u) as [c|] eqn:S; [|discriminate]. injection E as <-. unfold step in S. cbn [core].
    pose proof (C s I) as Cs. rewrite O in Cs.
    destruct (Nat.eq_dec u t) as [->|nu].
    + destruct (get Stop (ths (core st)) t) as [|s' k|s' k|a y k|a y v k|y f k] eqn:P; [discriminate| | | | |]; cbn [must] in M.
      * destruct (sems (core st) s') as [|n] eqn:Sn; [discriminate|]. injection S as <-. cbn [ths]. rewrite get_upd_same by auto.
        destruct M as [->|M]; auto. congruence.
      * injection S as <-. cbn [ths]. now rewrite get_upd_same.
      * injection S as <-. cbn [ths]. now rewrite get_upd_same.
      * injection S as <-. cbn [ths]. now rewrite get_upd_same.
      * injection S as <-. cbn [ths]. now rewrite get_upd_same.
    + destruct (get Stop (ths (core st)) u) as [|s' k|s' k|a y k|a y v k|y f k] eqn:P; [discriminate| | | | |];
        try destruct (sems (core st) s') as [|n] eqn:Sn; try discriminate; injection S as <-; cbn [ths]; rewrite (get_upd_other Stop) by auto; auto.
  - destruct (u <? length (ths (core st)))%nat eqn:Lu; [|discriminate]. injection E as <-. cbn [core ths].
    rewrite (get_upd_other Stop); [exact M|]. congruence.
Qed.
Lemma length_step : forall st e st', istep st e = Some st' -> length (ths (core st')) = length (ths (core st)).
Proof.
  intros st e st' E. destruct e as [u|u]; cbn [istep] in E.
  - destruct (step (core st) u) as [c|] eqn:S; [|discriminate]. injection E as <-. unfold step in S. cbn [core].
    destruct (get Stop (ths (core st)) u) as [|s' k|s' k|a y k|a y v k|y f k] eqn:P; [discriminate| | | | |];
      try destruct (sems (core st) s') as [|n] eqn:Sn; try discriminate; injection S as <-; cbn [ths]; now rewrite upd_length.
  - destruct (u <? length (ths (core st)))%nat eqn:Lu; [|discriminate]. injection E as <-. cbn [core ths]. now rewrite upd_length.
Qed.
Lemma must_runs : forall es H st st' s t, Inv H st -> In s critical -> stuck H st s t -> spares t es -> (t < length (ths (core st)))%nat ->
  must s (get Stop (ths (core st)) t) -> iruns es st = Some st' -> must s (get Stop (ths (core st')) t).
Proof.
  induction es as [|e r IH]; cbn; intros H st st' s t I J K Sp L M E; [now injection E as <-|].
  inversion Sp; subst. destruct (istep st e) as [st1|] eqn:S; [|discriminate].
  eapply (IH (next_h H st e) st1); eauto.
  - eapply inv_step; eauto.
  - eapply stuck_step; eauto.
  - rewrite (length_step st e st1); auto.
  - eapply must_step; eauto.
Qed.

(* ------------------------------------------------------------------ *)
(** ** A thread interrupted outside *)
Lemma iruns_app : forall a b st st1, iruns a st = Some st1 -> iruns (a ++ b) st = iruns b st1.
Proof.
  induction a as [|e r IH]; cbn; intros b st st1 E; [now injection E as <-|].
  destruct (istep st e); [|discriminate]. now apply IH.
Qed.

(** the owner of a section runs to its end *)
Lemma finish : forall p u s st H, Inv H st -> Clean H st -> get Stop (ths (core st)) u = p -> H u = Some s ->
  exists n st', iruns (repeat (Step u) n) st = Some st' /\ (exists H', Inv H' st' /\ Clean H' st') /\ sems (core st') s = 1%nat /\
    (forall t, t <> u -> get Stop (ths (core st')) t = get Stop (ths (core st)) t) /\
    mem (core st') LLogger = mem (core st) LLogger /\ mem (core st') LFatalFn = mem (core st) LFatalFn /\ length (ths (core st')) = length (ths (core st)).
Proof.
  induction p as [|s' k IH|s' k IH|a y k IH|a y v k IH|y f k IH]; intros u s st H I D P Hu.
  - pose proof I as (A & _). specialize (A u). rewrite P, Hu in A. discriminate.
  - pose proof I as (A & _). specialize (A u). rewrite P, Hu in A. cbn in A. destruct A. discriminate.
  - pose proof I as (A & B & C). pose proof (A u) as Au. rewrite P, Hu in Au. cbn in Au. destruct Au as (Q & _).
    destruct (critb s') eqn:Cs; [|discriminate]. injection Q as <-.
    assert (E : istep st (Step u) = Some (mkI (mkState (mem (core st)) (set_sem (sems (core st)) s (S (sems (core st) s))) (upd (ths (core st)) u k))
                  (set_owner (owner st) s None) (caught st))).
    { cbn [istep]. unfold step. rewrite P. reflexivity. }
    exists 1%nat. eexists. split; [cbn [repeat iruns]; rewrite E; reflexivity|]. split; [|split; [|split; [|split; [|split]]]].
    + exists (next_h H st (Step u)). split; [eapply inv_step; eauto|eapply clean_step; eauto; exact Logic.I].
    + cbn [core sems]. unfold set_sem. destruct (sem_eq_dec s s); [|congruence]. destruct (B u s Hu) as (Is & Os). specialize (C s Is). rewrite Os in C. lia.
    + intros t N. cbn [core ths]. now rewrite (get_upd_other Stop).
    + reflexivity.
    + reflexivity.
    + cbn [core ths]. apply upd_length.
  - assert (L : (u < length (ths (core st)))%nat) by (apply (get_in Stop); congruence).
    assert (E : istep st (Step u) = Some (mkI (mkState (mem (core st)) (sems (core st)) (upd (ths (core st)) u (k (mem (core st) y)))) (owner st) (caught st))).
    { cbn [istep]. unfold step. rewrite P. reflexivity. }
    set (st1 := mkI (mkState (mem (core st)) (sems (core st)) (upd (ths (core st)) u (k (mem (core st) y)))) (owner st) (caught st)) in *.
    assert (N : next_h H st (Step u) = H) by (cbn [next_h]; rewrite P; reflexivity).
    assert (I1 : Inv H st1) by (rewrite <- N; eapply inv_step; eauto).
    assert (D1 : Clean H st1) by (rewrite <- N; eapply clean_step; eauto; exact Logic.I).
    assert (P1 : get Stop (ths (core st1)) u = k (mem (core st) y)) by (cbn [st1 core ths]; now rewrite get_upd_same).
    destruct (IH (mem (core st) y) u s st1 H I1 D1 P1 Hu) as (n & st' & R & HH & S1 & G & M1 & M2 & Ln).
    exists (S n), st'. split; [cbn [repeat iruns]; rewrite E; exact R|]. split; [exact HH|]. split; [exact S1|]. split; [|split; [|split]]; auto.
    + intros t Nt. rewrite G by auto. cbn [st1 core ths]. now rewrite (get_upd_other Stop).
    + rewrite Ln. cbn [st1 core ths]. apply upd_length.
  - assert (L : (u < length (ths (core st)))%nat) by (apply (get_in Stop); congruence).
    assert (E : istep st (Step u) = Some (mkI (mkState (set_mem (mem (core st)) y v) (sems (core st)) (upd (ths (core st)) u k)) (owner st) (caught st))).
    { cbn [istep]. unfold step. rewrite P. reflexivity. }
    set (st1 := mkI (mkState (set_mem (mem (core st)) y v) (sems (core st)) (upd (ths (core st)) u k)) (owner st) (caught st)) in *.
    assert (N : next_h H st (Step u) = H) by (cbn [next_h]; rewrite P; reflexivity).
    pose proof I as (A & _). specialize (A u). rewrite P, Hu in A. cbn [leafp] in A. destruct A as (_ & A & _). destruct A as (A1 & A2); [discriminate|].
    assert (I1 : Inv H st1) by (rewrite <- N; eapply inv_step; eauto).
    assert (D1 : Clean H st1) by (rewrite <- N; eapply clean_step; eauto; exact Logic.I).
    assert (P1 : get Stop (ths (core st1)) u = k) by (cbn [st1 core ths]; now rewrite get_upd_same).
    destruct (IH u s st1 H I1 D1 P1 Hu) as (n & st' & R & HH & S1 & G & M1 & M2 & Ln).
    exists (S n), st'. split; [cbn [repeat iruns]; rewrite E; exact R|]. split; [exact HH|]. split; [exact S1|]. split; [|split; [|split]].
    + intros t Nt. rewrite G by auto. cbn [st1 core ths]. now rewrite (get_upd_other Stop).
    + rewrite M1. cbn [st1 core mem]. unfold set_mem. destruct (loc_eq_dec LLogger y); congruence.
    + rewrite M2. cbn [st1 core mem]. unfold set_mem. destruct (loc_eq_dec LFatalFn y); congruence.
    + rewrite Ln. cbn [st1 core ths]. apply upd_length.
  - assert (L : (u < length (ths (core st)))%nat) by (apply (get_in Stop); congruence).
    assert (E : istep st (Step u) = Some (mkI (mkState (set_mem (mem (core st)) y (f (mem (core st) y))) (sems (core st)) (upd (ths (core st)) u k)) (owner st) (caught st))).
    { cbn [istep]. unfold step. rewrite P. reflexivity. }
    set (st1 := mkI (mkState (set_mem (mem (core st)) y (f (mem (core st) y))) (sems (core st)) (upd (ths (core st)) u k)) (owner st) (caught st)) in *.
    assert (N : next_h H st (Step u) = H) by (cbn [next_h]; rewrite P; reflexivity).
    pose proof I as (A & _). specialize (A u). rewrite P, Hu in A. cbn [leafp] in A. destruct A as (_ & A & _). destruct A as (A1 & A2); [discriminate|].
    assert (I1 : Inv H st1) by (rewrite <- N; eapply inv_step; eauto).
    assert (D1 : Clean H st1) by (rewrite <- N; eapply clean_step; eauto; exact Logic.I).
    assert (P1 : get Stop (ths (core st1)) u = k) by (cbn [st1 core ths]; now rewrite get_upd_same).
    destruct (IH u s st1 H I1 D1 P1 Hu) as (n & st' & R & HH & S1 & G & M1 & M2 & Ln).
    exists (S n), st'. split; [cbn [repeat iruns]; rewrite E; exact R|]. split; [exact HH|]. split; [exact S1|]. split; [|split; [|split]].
    + intros t Nt. rewrite G by auto. cbn [st1 core ths]. now rewrite (get_upd_other Stop).
    + rewrite M1. cbn [st1 core mem]. unfold set_mem. destruct (loc_eq_dec LLogger y); congruence.
    + rewrite M2. cbn [st1 core mem]. unfold set_mem. destruct (loc_eq_dec LFatalFn y); congruence.
    + rewrite Ln. cbn [st1 core ths]. apply upd_length.
Qed.

(** programs that lock critical mutexes only *)
Fixpoint only_critical (p : prog) : Prop :=
  match p with
  | Stop => True
  | Acq s k => In s critical /\ only_critical k
  | Rel _ k | Rmw _ _ k | Wr _ _ _ k => only_critical k
  | Rd _ _ k => forall v, only_critical (k v)
  end.
(** while there is a worker and no other exit handler, programs that end with pushing the fatal message *)
Fixpoint ends_pushing (p : prog) : Prop :=
  match p with
  | Stop => False
  | Acq _ k | Rel _ k => ends_pushing k
  | Rmw y _ k => y <> LLogger /\ y <> LFatalFn /\ ends_pushing k
  | Wr _ y v k => y <> LLogger /\ y <> LFatalFn /\ (ends_pushing k \/ (y = LQueue /\ last v 0%Z = j_fatal /\ k = Rel MQueue Stop))
  | Rd _ y k => forall v, (y = LLogger -> is_set v = true) -> (y = LFatalFn -> v = []) -> ends_pushing (k v)
  end.

Lemma steps_repeat : forall u n, steps_only (repeat (Step u) n).
Proof. intros. apply Forall_forall. intros e J. apply repeat_spec in J. now subst. Qed.

Lemma reach_end : forall p t st H, Inv H st -> Clean H st -> get Stop (ths (core st)) t = p -> only_critical p ->
  exists es st', steps_only es /\ iruns es st = Some st' /\ get Stop (ths (core st')) t = Stop /\
    (ends_pushing p -> is_set (mem (core st) LLogger) = true -> mem (core st) LFatalFn = [] -> last (mem (core st') LQueue) 0%Z = j_fatal).
Proof.
  induction p as [|s k IH|s k IH|a y k IH|a y v k IH|y f k IH]; intros t st H I D P OC.
  - exists [], st. split; [constructor|]. split; [reflexivity|]. split; [exact P|]. intros [].
  - destruct OC as (Cs & OC). pose proof I as (A & B & C). pose proof (A t) as At. rewrite P in At. cbn [leafp] in At. destruct At as (Ht & _).
    assert (L : (t < length (ths (core st)))%nat) by (apply (get_in Stop); congruence).
    assert (G : exists es st1, steps_only es /\ iruns es st = Some st1 /\ (exists H1, Inv H1 st1 /\ Clean H1 st1) /\ sems (core st1) s = 1%nat /\
       get Stop (ths (core st1)) t = Acq s k /\ mem (core st1) LLogger = mem (core st) LLogger /\ mem (core st1) LFatalFn = mem (core st) LFatalFn /\
       length (ths (core st1)) = length (ths (core st))).
    { destruct (owner st s) as [u|] eqn:O.
      - pose proof (D u s Cs O) as Hu. destruct (finish (get Stop (ths (core st)) u) u s st H I D eq_refl Hu) as (n & st1 & R & HH & S1 & G & M1 & M2 & Ln).
        exists (repeat (Step u) n), st1. split; [apply steps_repeat|]. split; [exact R|]. split; [exact HH|]. split; [exact S1|].
        split; [rewrite G; [exact P|congruence]|]. auto.
      - exists [], st. split; [constructor|]. split; [reflexivity|]. split; [eauto|]. split; [specialize (C s Cs); now rewrite O in C|]. auto. }
    destruct G as (es & st1 & SO & R & (H1 & I1 & D1) & S1 & P1 & M1 & M2 & Ln).
    assert (E : istep st1 (Step t) = Some (mkI (mkState (mem (core st1)) (set_sem (sems (core st1)) s 0) (upd (ths (core st1)) t k)) (set_owner (owner st1) s (Some t)) (caught st1))).
    { cbn [istep]. unfold step. rewrite P1, S1. reflexivity. }
    set (st2 := mkI (mkState (mem (core st1)) (set_sem (sems (core st1)) s 0) (upd (ths (core st1)) t k)) (set_owner (owner st1) s (Some t)) (caught st1)) in *.
    destruct (IH t st2 (next_h H1 st1 (Step t))) as (es2 & st3 & SO2 & R2 & F & Q).
    { eapply inv_step; eauto. } { eapply clean_step; eauto. } { cbn [st2 core ths]. rewrite get_upd_same; [reflexivity|lia]. } { exact OC. }
    exists (es ++ Step t :: es2), st3. split; [apply Forall_app; split; [exact SO|constructor; [exact Logic.I|exact SO2]]|].
    split; [rewrite (iruns_app es (Step t :: es2) st st1 R); cbn [iruns]; rewrite E; exact R2|]. split; [exact F|].
    cbn [ends_pushing]. intros EP L1 L2. apply Q; auto; cbn [st2 core mem]; congruence.
  - assert (L : (t < length (ths (core st)))%nat) by (apply (get_in Stop); congruence).
    assert (E : istep st (Step t) = Some (mkI (mkState (mem (core st)) (set_sem (sems (core st)) s (S (sems (core st) s))) (upd (ths (core st)) t k))
                  (set_owner (owner st) s None) (caught st))).
    { cbn [istep]. unfold step. rewrite P. reflexivity. }
    destruct (IH t _ (next_h H st (Step t)) (inv_step _ _ _ _ I E) (clean_step H st (Step t) _ I D Logic.I E)) as (es2 & st3 & SO2 & R2 & F & Q).
    { cbn [core ths]. now rewrite get_upd_same. } { exact OC. }
    exists (Step t :: es2), st3. split; [constructor; [exact Logic.I|exact SO2]|]. split; [cbn [iruns]; rewrite E; exact R2|]. split; [exact F|]. exact Q.
  - assert (L : (t < length (ths (core st)))%nat) by (apply (get_in Stop); congruence).
    assert (E : istep st (Step t) = Some (mkI (mkState (mem (core st)) (sems (core st)) (upd (ths (core st)) t (k (mem (core st) y)))) (owner st) (caught st))).
    { cbn [istep]. unfold step. rewrite P. reflexivity. }
    destruct (IH (mem (core st) y) t _ (next_h H st (Step t)) (inv_step _ _ _ _ I E) (clean_step H st (Step t) _ I D Logic.I E)) as (es2 & st3 & SO2 & R2 & F & Q).
    { cbn [core ths]. now rewrite get_upd_same. } { apply OC. }
    exists (Step t :: es2), st3. split; [constructor; [exact Logic.I|exact SO2]|]. split; [cbn [iruns]; rewrite E; exact R2|]. split; [exact F|].
    cbn [ends_pushing]. intros EP L1 L2. apply Q; auto. apply EP; intros ->; auto.
  - assert (L : (t < length (ths (core st)))%nat) by (apply (get_in Stop); congruence).
    assert (E : istep st (Step t) = Some (mkI (mkState (set_mem (mem (core st)) y v) (sems (core st)) (upd (ths (core st)) t k)) (owner st) (caught st))).
    { cbn [istep]. unfold step. rewrite P. reflexivity. }
    destruct (IH t _ (next_h H st (Step t)) (inv_step _ _ _ _ I E) (clean_step H st (Step t) _ I D Logic.I E)) as (es2 & st3 & SO2 & R2 & F & Q).
    { cbn [core ths]. now rewrite get_upd_same. } { exact OC. }
    cbn [core mem] in Q.
    assert (HL : y <> LLogger -> set_mem (mem (core st)) y v LLogger = mem (core st) LLogger).
    { intro. unfold set_mem. destruct (loc_eq_dec LLogger y); congruence. }
    assert (HF : y <> LFatalFn -> set_mem (mem (core st)) y v LFatalFn = mem (core st) LFatalFn).
    { intro. unfold set_mem. destruct (loc_eq_dec LFatalFn y); congruence. }
    assert (K : k = Rel MQueue Stop \/ k <> Rel MQueue Stop).
    { destruct k as [|s' k'|s' k'|? ? ?|? ? ? ?|? ? ?]; try (right; discriminate). destruct (sem_eq_dec s' MQueue) as [->|]; [|right; congruence].
      destruct k'; try (right; discriminate). left. reflexivity. }
    destruct K as [->|K].
    + set (st1 := mkI (mkState (set_mem (mem (core st)) y v) (sems (core st)) (upd (ths (core st)) t (Rel MQueue Stop))) (owner st) (caught st)) in *.
      assert (P1 : get Stop (ths (core st1)) t = Rel MQueue Stop) by (cbn [st1 core ths]; now rewrite get_upd_same).
      exists [Step t; Step t]. eexists. split; [repeat constructor|]. split.
      { cbn [iruns]. rewrite E. cbn [istep]. unfold step. rewrite P1. reflexivity. }
      split. { cbn [core ths st1]. rewrite get_upd_same; [reflexivity|]. now rewrite upd_length. }
      cbn [ends_pushing]. intros (_ & _ & [[]|(-> & LV & _)]) _ _. cbn [core mem st1]. unfold set_mem. destruct (loc_eq_dec LQueue LQueue); congruence.
    + exists (Step t :: es2), st3. split; [constructor; [exact Logic.I|exact SO2]|]. split; [cbn [iruns]; rewrite E; exact R2|]. split; [exact F|].
      cbn [ends_pushing]. intros (N1 & N2 & [EP|(_ & _ & C)]) L1 L2; [|contradiction]. apply Q; auto; [rewrite HL|rewrite HF]; auto.
  - assert (L : (t < length (ths (core st)))%nat) by (apply (get_in Stop); congruence).
    assert (E : istep st (Step t) = Some (mkI (mkState (set_mem (mem (core st)) y (f (mem (core st) y))) (sems (core st)) (upd (ths (core st)) t k)) (owner st) (caught st))).
    { cbn [istep]. unfold step. rewrite P. reflexivity. }
    destruct (IH t _ (next_h H st (Step t)) (inv_step _ _ _ _ I E) (clean_step H st (Step t) _ I D Logic.I E)) as (es2 & st3 & SO2 & R2 & F & Q).
    { cbn [core ths]. now rewrite get_upd_same. } { exact OC. }
    exists (Step t :: es2), st3. split; [constructor; [exact Logic.I|exact SO2]|]. split; [cbn [iruns]; rewrite E; exact R2|]. split; [exact F|].
    cbn [ends_pushing core mem] in *. intros (N1 & N2 & EP) L1 L2. apply Q; auto; unfold set_mem.
    + destruct (loc_eq_dec LLogger y); congruence.
    + destruct (loc_eq_dec LFatalFn y); congruence.
Qed.

Lemma oc_restore : forall l, only_critical (restore_all l Stop).
Proof. induction l as [|s l IH]; cbn; auto. intro v. destruct (existsb (Z.eqb s) v); cbn; auto. Qed.
Lemma oc_fatal : only_critical fatal_message.
Proof.
  unfold fatal_message, set_hook, locked, once. cbn [only_critical]. intro v. split; [cbn; auto|]. split; [cbn; auto|]. intro f.
  assert (F : only_critical (Rd false LFatalFn (fun f => match f with [] => push_fatal | _ => Stop end))).
  { intros [|z r]; [|exact Logic.I]. unfold push_fatal. intro lg. destruct (is_set lg).
    - intros _ b. cbn. auto.
    - intro sg. apply oc_restore. }
  destruct (is_set f); cbn [only_critical]; intro n; destruct (1 <? Z.of_nat (length n))%Z; cbn [only_critical]; intros; apply F.
Qed.
Lemma ep_fatal : ends_pushing fatal_message.
Proof.
  unfold fatal_message, set_hook, locked, once. cbn [ends_pushing]. intros v _ _. split; [discriminate|]. split; [discriminate|]. left.
  split; [discriminate|]. split; [discriminate|]. intros f _ _.
  assert (F : ends_pushing (Rd false LFatalFn (fun f => match f with [] => push_fatal | _ => Stop end))).
  { cbn [ends_pushing]. intros w _ W. rewrite (W eq_refl). unfold push_fatal. cbn [ends_pushing]. intros lg SL _. rewrite (SL eq_refl).
    cbn [ends_pushing]. intros lg2 _ _. unfold ask_worker, q_push, locked. cbn [ends_pushing]. intros _ _ _ q _ _.
    split; [discriminate|]. split; [discriminate|]. right. split; [reflexivity|]. split; [apply last_last|reflexivity]. }
  assert (T : ends_pushing (Rd true LCounter (fun n =>
     if (1 <? Z.of_nat (length n))%Z then Rd false LStack (fun _ => Rd false LFatalFn (fun f => match f with [] => push_fatal | _ => Stop end))
     else Rd false LFatalFn (fun f => match f with [] => push_fatal | _ => Stop end)))).
  { cbn [ends_pushing]. intros n _ _. destruct (1 <? Z.of_nat (length n))%Z; [|exact F]. cbn [ends_pushing]. intros _ _ _. exact F. }
  destruct (is_set f); [exact T|]. split; [discriminate|]. split; [discriminate|]. left. split; [discriminate|]. split; [discriminate|]. left. exact T.
Qed.

Lemma oc_step : forall st e st' t, only_critical (get Stop (ths (core st)) t) -> e <> Signal t -> istep st e = Some st' -> only_critical (get Stop (ths (core st')) t).
Proof.
  intros st e st' t O N E. destruct e as [u|u]; cbn [istep] in E.
  - destruct (step (core st) u) as [c|] eqn:S; [|discriminate]. injection E as <-. unfold step in S. cbn [core].
    destruct (Nat.eq_dec u t) as [->|nu].
    + assert (L : (t < length (ths (core st)))%nat).
      { destruct (Nat.lt_ge_cases t (length (ths (core st)))) as [|G]; auto. rewrite (get_out Stop _ _ G) in S. discriminate. }
      destruct (get Stop (ths (core st)) t) as [|s' k|s' k|a y k|a y v k|y f k] eqn:P; [discriminate| | | | |]; cbn [only_critical] in O;
        try destruct (sems (core st) s') as [|n] eqn:Sn; try discriminate; injection S as <-; cbn [ths]; rewrite get_upd_same by auto; auto; tauto.
    + destruct (get Stop (ths (core st)) u) as [|s' k|s' k|a y k|a y v k|y f k] eqn:P; [discriminate| | | | |];
        try destruct (sems (core st) s') as [|n] eqn:Sn; try discriminate; injection S as <-; cbn [ths]; rewrite (get_upd_other Stop) by auto; auto.
  - destruct (u <? length (ths (core st)))%nat eqn:Lu; [|discriminate]. injection E as <-. cbn [core ths].
    rewrite (get_upd_other Stop); [exact O|]. congruence.
Qed.
Lemma oc_runs : forall es st st' t, only_critical (get Stop (ths (core st)) t) -> spares t es -> iruns es st = Some st' -> only_critical (get Stop (ths (core st')) t).
Proof.
  induction es as [|e r IH]; cbn; intros st st' t O S E; [now injection E as <-|]. inversion S; subst.
  destruct (istep st e) as [st1|] eqn:S1; [|discriminate]. apply (IH st1 st' t); auto. eapply oc_step; eauto.
Qed.
