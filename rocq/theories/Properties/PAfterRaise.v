(** C141: a fatal event whose signal does not end the process. *)
From Coq Require Import List ZArith Bool Lia PeanoNat.
From Verif.Model Require Import Signals AfterRaise.
From Verif.Spec Require Import AfterRaiseSpec.
From Verif.Proofs Require Import AfterRaiseFacts.
Import ListNotations.
Local Open Scope list_scope.

(** When every raised signal ends the process, no fatal call ever returns, whatever the threads do, and it ends by nothing but a signal. *)
Theorem C141_held_partial : forall kills n statics l p, (forall s, kills s = true) -> arun kills (a_start n statics) l = Some p ->
  a_past p = [] /\ forall e, a_end p = Some e -> exists s, e = BySignal s.
Proof.
  intros kills n statics l p K R. destruct (held_run kills n statics l p K R) as (_ & P & _ & E). split; [exact P|].
  intros e X. rewrite X in E. destruct e; try contradiction. eauto.
Qed.
Print Assumptions C141_held_partial.

(** No thread goes on, and the process does not end, before every sink has received all entries up to the first fatal one and no other:
    if there is one fatal event, or all of them are signals. *)
Theorem C141_flushed_partial : forall kills n statics l p, calm l -> arun kills (a_start n statics) l = Some p ->
  a_past p <> [] \/ a_end p <> None \/ a_block p = false -> flushed (up_to_fatal l) p /\ length (a_sinks p) = n.
Proof.
  intros kills n statics l p C R H. split.
  - assert (FA : Forall (fun x => fst x = up_to_fatal l /\ snd x = []) (a_sinks p)).
    { destruct (inv_run kills n statics l p C R) as [F T0 IN Q O A Y|s q1 m q2 F T0 IN Q O CO EQ FA|s F T0 IN Q O CO FA|s F T0 IN Q O CO FA|s F K E P B FA|s F K IN B X RS O T0 EC FA]; auto;
        destruct Q as (Q1 & Q2 & Q3 & Q4 & Q5); destruct H as [H|[H|H]]; congruence. }
    rewrite Forall_forall in FA. intros got pend I. apply FA in I. exact I.
  - clear C H. revert p R. induction l as [|e l IH] using rev_ind; intros p R.
    + injection R as <-. simpl. apply repeat_length.
    + apply arun_snoc in R. destruct R as (q & R & S). specialize (IH q R). rewrite <- IH. clear IH R.
      unfold astep in S. destruct (a_end q) eqn:EN; [discriminate|].
      assert (L : forall t s, length (a_sinks (leave kills q t s)) = length (a_sinks q)).
      { intros t s. unfold leave. destruct (kills s); [reflexivity|]. destruct (a_exiting q); reflexivity. }
      assert (FT : forall t s m k, length (a_sinks (a_fatal kills q t s m k)) = length (a_sinks q)).
      { intros t s m k. unfold a_fatal. destruct (a_init q); [reflexivity|apply L]. }
      destruct e as [t m'|t m'|t s' again m'|t| |i|t].
      * destruct (a_running q t); [|discriminate]. injection S as <-. destruct (a_init q); reflexivity.
      * destruct (a_running q t); [|discriminate]. injection S as <-. apply FT.
      * destruct (a_running q t); [|discriminate]. injection S as <-. unfold signal_step. destruct (a_restored q); [destruct (kills s' || again); reflexivity|].
        destruct (a_first q); [reflexivity|]. unfold a_fatal, leave. simpl. destruct (a_init q); [reflexivity|]. destruct (kills s'); [reflexivity|].
        destruct (a_exiting q); reflexivity.
      * unfold wake_step in S. destruct (a_block q); [discriminate|]. destruct (a_threads q t) as [|s' again m'|[|s' again]| | | |]; try discriminate;
          injection S as <-; [apply FT|reflexivity|destruct again; reflexivity].
      * unfold bg_step in S. destruct (a_threads q 0); try discriminate.
        -- destruct (a_queue q) as [|[m|s m] r]; try discriminate; injection S as <-; simpl; unfold a_send; apply map_length.
        -- destruct (forallb _ _); [|discriminate]. injection S as <-. reflexivity.
        -- injection S as <-. apply L.
      * destruct (sink_step i (a_sinks q)) as [sl|] eqn:SS; [|discriminate]. injection S as <-. simpl. clear - SS. revert i sl SS.
        induction (a_sinks q) as [|[g [|m r]] l IH]; intros [|i] sl SS; simpl in SS; try discriminate.
        -- destruct (sink_step i l) eqn:E; [|discriminate]. injection SS as <-. simpl. erewrite IH; eauto.
        -- injection SS as <-. reflexivity.
        -- destruct (sink_step i l) eqn:E; [|discriminate]. injection SS as <-. simpl. erewrite IH; eauto.
      * unfold exit_step in S. destruct (a_threads q t); try discriminate. destruct (a_statics q) as [|[] r]; injection S as <-; reflexivity.
Qed.
Print Assumptions C141_flushed_partial.

(** An exit code is the number of the first fatal event's signal, and only when that signal does not end the process. *)
Theorem C141_code_partial : forall kills n statics l p s, calm l -> arun kills (a_start n statics) l = Some p -> a_end p = Some (ByCode s) ->
  first_fatal l = Some s /\ kills s = false.
Proof.
  intros kills n statics l p s C R E.
  destruct (inv_run kills n statics l p C R) as [F T0 IN Q O A Y|s' q1 m q2 F T0 IN Q O CO EQ FA|s' F T0 IN Q O CO FA|s' F T0 IN Q O CO FA|s' F K E' P B FA|s' F K IN B X RS O T0 EC FA];
    try (destruct Q as (_ & _ & _ & _ & Q5); congruence); [congruence|]. rewrite (EC _ E). auto.
Qed.
Print Assumptions C141_code_partial.

(** If no static object owns the worker, the logger's own threads can always bring the process to its end after a fatal event: by the signal,
    or by exit with its number. *)
Theorem C141_ends_partial : forall kills n statics l p s, calm l -> ~ In true statics -> arun kills (a_start n statics) l = Some p ->
  first_fatal l = Some s -> a_end p = None ->
  exists l' p', forallb by_logger l' = true /\ arun kills p l' = Some p' /\ a_end p' = Some (if kills s then BySignal s else ByCode s).
Proof.
  intros kills n statics l p s C I R F N.
  assert (FI : fine p). { eapply fine_run; [|exact R]. split; simpl; auto. discriminate. }
  destruct FI as [FI1 FI2].
  destruct (inv_run kills n statics l p C R) as [F' T0 IN Q O A Y|s' q1 m q2 F' T0 IN Q O CO EQ FA|s' F' T0 IN Q O CO FA|s' F' T0 IN Q O CO FA|s' F' K E' P B FA|s' F' K IN B X RS O T0 EC FA];
    rewrite F in F'; try discriminate; injection F' as <-.
  - destruct Q as (_ & Q2 & _). exact (queue_ends q1 kills p s m q2 EQ T0 N Q2 FI1).
  - destruct Q as (_ & Q2 & _). exact (clear_ends _ kills p s eq_refl T0 N Q2 FI1).
  - destruct Q as (_ & Q2 & _). exact (raise_ends kills p s T0 N Q2 FI1).
  - congruence.
  - destruct T0 as [T0|T0]; [|exfalso; exact (FI2 0 T0)].
    destruct (exit_ends kills (a_statics p) p s eq_refl T0 N FI1) as (p' & R' & E). exists (repeat (VExit 0) (S (length (a_statics p)))), p'.
    rewrite K. split; [apply by_repeat|]. auto.
Qed.
Print Assumptions C141_ends_partial.

(** Process number 1 (no signal ends it), one sink: a failed CHECK in thread 1 lets its thread go on while the process is still there. *)
Lemma run_with : forall kills p l (P : aproc -> Prop), match arun kills p l with Some q => P q | None => False end -> exists q, arun kills p l = Some q /\ P q.
Proof. intros kills p l P H. destruct (arun kills p l) as [q|]; [|contradiction]. exists q. auto. Qed.
Definition pid1 : Z -> bool := fun _ => false.
Definition c141_run : list aev := [VLog 1 7; VFatal 1 8; VBg; VBg; VSink 0; VSink 0; VBg; VBg; VWake 1].
Theorem C141_refuted : exists p, arun pid1 (a_start 1 [false]) c141_run = Some p /\ calm c141_run /\ a_end p = None /\ a_past p = [1] /\ a_threads p 1 = ARun.
Proof.
  destruct (run_with pid1 (a_start 1 [false]) c141_run (fun p => a_end p = None /\ a_past p = [1] /\ a_threads p 1 = ARun)) as (p & R & H); [vm_compute; auto|].
  exists p. split; [exact R|]. split; [left; simpl; lia|exact H].
Qed.
Print Assumptions C141_refuted.

(** A static object owns the worker: the background thread, in exit, waits for itself; whatever is logged, and however long the threads run,
    the process does not end. *)
Definition c141_hang : list aev := [VFatal 1 8; VBg; VSink 0; VBg; VBg; VWake 1; VExit 0].
Lemma hang_stays : forall kills l' p p', a_threads p 0 = AStuck -> (forall t, t <> 0 -> a_threads p t = ARun) -> a_end p = None -> a_init p = false ->
  forallb (fun e => negb (is_fatal e)) l' = true -> arun kills p l' = Some p' -> a_end p' = None.
Proof.
  intros kills l'. induction l' as [|e l' IH]; intros p p' T O N I Q R; simpl in R, Q; [congruence|].
  apply andb_prop in Q. destruct Q as [Q1 Q2]. destruct (astep kills p e) as [q|] eqn:S; [|discriminate].
  assert (a_threads q = a_threads p /\ a_end q = None /\ a_init q = false) as (Z1 & Z2 & Z3).
  { unfold astep in S. rewrite N in S. destruct e as [t m'|t m'|t s' again m'|t| |i|t]; simpl in Q1; try discriminate.
    - destruct (a_running p t); [|discriminate]. rewrite I in S. injection S as <-. auto.
    - unfold wake_step in S. destruct (a_block p); [discriminate|]. destruct (Nat.eq_dec t 0) as [->|E]; [rewrite T in S|rewrite (O t E) in S]; discriminate.
    - unfold bg_step in S. rewrite T in S. discriminate.
    - destruct (sink_step i (a_sinks p)); [|discriminate]. injection S as <-. auto.
    - unfold exit_step in S. destruct (Nat.eq_dec t 0) as [->|E]; [rewrite T in S|rewrite (O t E) in S]; discriminate. }
  eapply (IH q); auto; rewrite Z1; auto.
Qed.
Theorem C141_hangs_refuted : exists p, arun pid1 (a_start 1 [true]) c141_hang = Some p /\ calm c141_hang /\ a_past p = [1] /\
  forall l' p', forallb (fun e => negb (is_fatal e)) l' = true -> arun pid1 p l' = Some p' -> a_end p' = None.
Proof.
  destruct (run_with pid1 (a_start 1 [true]) c141_hang (fun p => a_past p = [1] /\ a_threads p 0 = AStuck /\ (forall t, t <> 0 -> a_threads p t = ARun) /\
                     a_end p = None /\ a_init p = false)) as (p & R & P & T & O & N & I).
  { vm_compute. repeat split; auto. intros [|[|t]] H; [congruence|reflexivity|reflexivity]. }
  exists p. split; [exact R|]. split; [left; simpl; lia|]. split; [exact P|]. intros l' p' Q R'. exact (hang_stays pid1 l' p p' T O N I Q R').
Qed.
Print Assumptions C141_hangs_refuted.

(** Two signals: the second thread was held back (crashhandler_unix.cpp:67-71), is let go, finds no logger and calls exit a second time. *)
Theorem C141_twice_refuted : exists l p, arun pid1 (a_start 1 [false]) l = Some p /\ calm l /\ a_end p = Some Undefined.
Proof.
  exists [VSignal 1 11 false 7; VSignal 2 15 false 8; VBg; VSink 0; VBg; VBg; VWake 2].
  match goal with |- exists p, arun ?k ?q ?l = _ /\ _ => destruct (run_with k q l (fun p => a_end p = Some Undefined)) as (p & R & H); [vm_compute; reflexivity|] end.
  exists p. split; [exact R|]. split; [right; reflexivity|exact H].
Qed.
Print Assumptions C141_twice_refuted.

(** Two failed CHECKs: the second one finds no logger and lets the first thread go on before the sink has received anything. *)
Theorem C141_early_refuted : exists l p, arun pid1 (a_start 1 [false]) l = Some p /\ ~ calm l /\ a_past p = [1] /\ a_end p = None /\ a_sinks p = [([], [7; 8])].
Proof.
  exists [VLog 1 7; VFatal 1 8; VBg; VBg; VFatal 2 9; VWake 1].
  match goal with |- exists p, arun ?k ?q ?l = _ /\ _ => destruct (run_with k q l (fun p => a_past p = [1] /\ a_end p = None /\ a_sinks p = [([], [7; 8])]))
    as (p & R & H); [vm_compute; auto|] end.
  exists p. split; [exact R|]. split; [|exact H].
  intros [C|C]; simpl in C; [lia|discriminate].
Qed.
Print Assumptions C141_early_refuted.

(** Signal 11 at thread 1 of process 1 with two sinks, two entries before, a second signal that has to wait: everything arrives, then exit 11. *)
Example C141_ex : exists p, arun pid1 (a_start 2 [false; false])
    [VLog 2 5; VLog 1 6; VSignal 1 11 false 7; VSignal 2 15 false 8; VLog 3 9; VBg; VSink 1; VBg; VBg; VSink 0; VSink 0; VSink 1; VSink 0; VSink 1; VBg; VBg;
     VWake 1; VExit 0; VLog 1 10; VExit 0; VExit 0] = Some p /\
  a_end p = Some (ByCode 11) /\ a_sinks p = [([5; 6; 7], []); ([5; 6; 7], [])] /\ a_past p = [1].
Proof. apply run_with. vm_compute. auto. Qed.
(** With default handling: the process dies by the signal and nobody goes on. *)
Example C141_ex_killed : exists p, arun (fun _ => true) (a_start 1 [true]) [VLog 2 5; VFatal 1 6; VFatal 2 7; VBg; VBg; VSink 0; VSink 0; VBg; VBg] = Some p /\
  a_end p = Some (BySignal 6) /\ a_sinks p = [([5; 6], [])] /\ a_past p = [].
Proof. apply run_with. vm_compute. auto. Qed.
