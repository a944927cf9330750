(** Proofs about Model/AfterRaise.v. *)
From Coq Require Import List ZArith Bool Lia PeanoNat.
From Verif.Model Require Import Signals AfterRaise.
From Verif.Spec Require Import AfterRaiseSpec.
Import ListNotations.
Local Open Scope list_scope.

Lemma arun_app : forall kills l1 l2 p p1, arun kills p l1 = Some p1 -> arun kills p (l1 ++ l2) = arun kills p1 l2.
Proof. induction l1; intros l2 p p1 H; simpl in *; [congruence|]. destruct (astep kills p a); [eauto|discriminate]. Qed.
Lemma arun_snoc : forall kills l e p p2, arun kills p (l ++ [e]) = Some p2 ->
  exists p1, arun kills p l = Some p1 /\ astep kills p1 e = Some p2.
Proof.
  induction l as [|a l IH]; intros e p p2 H; simpl in *.
  - exists p. destruct (astep kills p e) as [q|]; [auto|discriminate].
  - destruct (astep kills p a) as [q|]; [apply IH; auto|discriminate].
Qed.

Lemma up_to_app : forall l e, up_to_fatal (l ++ [e]) = match first_fatal l with Some _ => up_to_fatal l | None => up_to_fatal l ++ up_to_fatal [e] end.
Proof. induction l as [|a l IH]; intros e; [reflexivity|]. destruct a; simpl; rewrite ?IH; destruct (first_fatal l); reflexivity. Qed.
Lemma first_app : forall l e, first_fatal (l ++ [e]) = match first_fatal l with Some s => Some s | None => first_fatal [e] end.
Proof. induction l as [|a l IH]; intros e; [reflexivity|]. destruct a; simpl; rewrite ?IH; reflexivity. Qed.
Lemma calm_app : forall l e, calm (l ++ [e]) -> calm l.
Proof.
  intros l e [H|H]; rewrite filter_app in H.
  - left. rewrite app_length in H. lia.
  - right. rewrite forallb_app in H. apply andb_prop in H. tauto.
Qed.
Lemma first_some : forall l, (exists s, first_fatal l = Some s) <-> filter is_fatal l <> [].
Proof.
  induction l as [|a l IH]; simpl; [split; [intros [s H]; discriminate|congruence]|].
  destruct a; simpl; try exact IH; split; intros; eauto; discriminate.
Qed.
(** a second fatal event of a calm run is a signal, like all before *)
Lemma calm_second : forall l e s, calm (l ++ [e]) -> first_fatal l = Some s -> is_fatal e = true ->
  is_signal e = true /\ forallb is_signal (filter is_fatal l) = true.
Proof.
  intros l e s C F E. assert (filter is_fatal l <> []) as N by (apply first_some; eauto).
  destruct C as [C|C]; rewrite filter_app in C; simpl in C; rewrite E in C.
  - rewrite app_length in C. destruct (filter is_fatal l); [congruence|]. simpl in C. lia.
  - rewrite forallb_app in C. apply andb_prop in C. destruct C as [C1 C2]. simpl in C2. rewrite andb_true_r in C2. auto.
Qed.

(** threads that do not end the process themselves *)
Definition plain (x : athread) : Prop := match x with ARun | AFirst _ _ _ | AWait _ => True | _ => False end.
Definition others (p : aproc) : Prop := forall t, t <> 0 -> plain (a_threads p t).
(** after signals firstExit is not 0 *)
Definition counted (l : list aev) (p : aproc) : Prop :=
  first_fatal l <> None -> forallb is_signal (filter is_fatal l) = true -> a_first p = true.
Definition quiet (p : aproc) : Prop :=
  a_block p = true /\ a_exiting p = false /\ a_restored p = false /\ a_past p = [] /\ a_end p = None.

Definition in_queue (q : list atask) : list nat := map (fun x => match x with QSave m => m | QFatal _ m => m end) q.

Inductive inv (kills : Z -> bool) (l : list aev) (p : aproc) : Prop :=
| inv_log : first_fatal l = None -> a_threads p 0 = ARun -> a_init p = true -> quiet p -> others p -> a_first p = false ->
    (exists q, a_queue p = map QSave q /\ Forall (fun x => fst x ++ snd x ++ q = up_to_fatal l) (a_sinks p)) -> inv kills l p
| inv_queued : forall s q1 m q2, first_fatal l = Some s -> a_threads p 0 = ARun -> a_init p = true -> quiet p -> others p -> counted l p ->
    a_queue p = map QSave q1 ++ QFatal s m :: q2 -> Forall (fun x => fst x ++ snd x ++ q1 ++ [m] = up_to_fatal l) (a_sinks p) -> inv kills l p
| inv_clear : forall s, first_fatal l = Some s -> a_threads p 0 = AClear s -> a_init p = false -> quiet p -> others p -> counted l p ->
    Forall (fun x => fst x ++ snd x = up_to_fatal l) (a_sinks p) -> inv kills l p
| inv_raise : forall s, first_fatal l = Some s -> a_threads p 0 = ARaise s -> a_init p = false -> quiet p -> others p -> counted l p ->
    Forall (fun x => fst x = up_to_fatal l /\ snd x = []) (a_sinks p) -> inv kills l p
| inv_killed : forall s, first_fatal l = Some s -> kills s = true -> a_end p = Some (BySignal s) -> a_past p = [] -> a_block p = true ->
    Forall (fun x => fst x = up_to_fatal l /\ snd x = []) (a_sinks p) -> inv kills l p
| inv_exit : forall s, first_fatal l = Some s -> kills s = false -> a_init p = false -> a_block p = false -> a_exiting p = true ->
    a_restored p = true -> others p -> (a_threads p 0 = AExit s \/ a_threads p 0 = AStuck) ->
    (forall c, a_end p = Some (ByCode c) -> c = s) ->
    Forall (fun x => fst x = up_to_fatal l /\ snd x = []) (a_sinks p) -> inv kills l p.

Lemma others_set : forall p t x, others p -> plain x -> forall u, u <> 0 -> plain (updn (a_threads p) t x u).
Proof. intros p t x O X u N. unfold updn. destruct (Nat.eqb u t); auto. Qed.
Lemma set_0 : forall (f : nat -> athread) t x, t <> 0 -> updn f t x 0 = f 0.
Proof. intros f t x N. unfold updn. destruct (Nat.eqb 0 t) eqn:E; [apply Nat.eqb_eq in E; congruence|reflexivity]. Qed.
Lemma running_not_0 : forall p t, a_running p t = true -> t <> 0 /\ a_threads p t = ARun.
Proof.
  unfold a_running. intros p t H. apply andb_prop in H. destruct H as [A B]. apply negb_true_iff, Nat.eqb_neq in A. split; [exact A|].
  destruct (a_threads p t); congruence.
Qed.
Lemma sink_forall : forall (P Q : list nat * list nat -> Prop) i l l',
  (forall got m q, P (got, m :: q) -> Q (got ++ [m], q)) -> (forall x, P x -> Q x) -> Forall P l -> sink_step i l = Some l' -> Forall Q l'.
Proof.
  intros P Q. induction i as [|i IH]; intros [|[got [|m q]] l] l' H1 H2 F E; simpl in E; try discriminate; inversion F; subst.
  - injection E as <-. constructor; [auto|]. eapply Forall_impl; eauto.
  - destruct (sink_step i l) as [r|] eqn:S; [|discriminate]. injection E as <-. constructor; [auto|]. eapply IH; eauto.
  - destruct (sink_step i l) as [r|] eqn:S; [|discriminate]. injection E as <-. constructor; [auto|]. eapply IH; eauto.
Qed.
Lemma sink_none : forall (P : list nat * list nat -> Prop) i l l',
  (forall x, P x -> snd x = []) -> Forall P l -> sink_step i l = Some l' -> False.
Proof.
  intros P. induction i as [|i IH]; intros [|[got [|m q]] l] l' H F E; simpl in E; try discriminate; inversion F; subst.
  - match goal with Z : P _ |- _ => apply H in Z; discriminate end.
  - destruct (sink_step i l) as [r|] eqn:S; [eauto|discriminate].
  - destruct (sink_step i l) as [r|] eqn:S; [eauto|discriminate].
Qed.
Lemma send_forall : forall (P Q : list nat * list nat -> Prop) m l,
  (forall got q, P (got, q) -> Q (got, q ++ [m])) -> Forall P l -> Forall Q (a_send m l).
Proof. intros P Q m l H F. unfold a_send. apply Forall_map. eapply Forall_impl; [|exact F]. intros [g q] X. simpl. auto. Qed.

(** events that are not fatal and log nothing leave the specification as it is *)
Lemma same_spec : forall l e, is_fatal e = false -> up_to_fatal [e] = [] ->
  up_to_fatal (l ++ [e]) = up_to_fatal l /\ first_fatal (l ++ [e]) = first_fatal l /\ filter is_fatal (l ++ [e]) = filter is_fatal l.
Proof.
  intros l e F U. rewrite up_to_app, first_app, filter_app, U. cbn [filter]. rewrite F, !app_nil_r.
  repeat split; destruct (first_fatal l); try reflexivity. destruct e; simpl in *; congruence.
Qed.
Lemma later_spec : forall l e s, first_fatal l = Some s ->
  up_to_fatal (l ++ [e]) = up_to_fatal l /\ first_fatal (l ++ [e]) = Some s.
Proof. intros l e s F. rewrite up_to_app, first_app, F. auto. Qed.
Lemma counted_later : forall l e p p', first_fatal l <> None -> counted l p -> (a_first p = true -> a_first p' = true) -> counted (l ++ [e]) p'.
Proof.
  intros l e p p' N C H A B. rewrite filter_app, forallb_app in B. apply andb_prop in B. destruct B as [B _]. apply H, C; auto.
Qed.
Lemma drained : forall (P : list nat -> Prop) l, forallb (fun x : list nat * list nat => match snd x with [] => true | _ => false end) l = true ->
  Forall (fun x => P (fst x ++ snd x)) l -> Forall (fun x => P (fst x) /\ snd x = []) l.
Proof.
  intros P l B F. rewrite forallb_forall in B. rewrite Forall_forall in *. intros x I. specialize (F x I). specialize (B x I).
  destruct (snd x); [rewrite app_nil_r in F; auto|discriminate].
Qed.

Ltac quietly Q := destruct Q as (? & ? & ? & ? & ?).
Ltac isquiet := unfold quiet; simpl; repeat split; assumption.
Ltac unstep H := match type of H with Some _ = Some _ => injection H as <- | None = Some _ => discriminate H end.

(** a step of a calm run *)
Lemma inv_step : forall kills l e p p', inv kills l p -> calm (l ++ [e]) -> astep kills p e = Some p' -> inv kills (l ++ [e]) p'.
Proof.
  intros kills l e p p' I C S. unfold astep in S. destruct (a_end p) eqn:EN; [discriminate|].
  destruct I as [F T0 IN Q O A (q & EQ & FA)|s q1 m q2 F T0 IN Q O CO EQ FA|s F T0 IN Q O CO FA|s F T0 IN Q O CO FA|s F K E P B FA|s F K IN B X R O T0 EC FA].
  - (* nothing fatal so far *)
    quietly Q. destruct e as [t m|t m|t s again m|t| |i|t].
    + destruct (a_running p t) eqn:R; [|discriminate]. rewrite IN in S. unstep S.
      apply inv_log; simpl; auto; [rewrite first_app, F; reflexivity|isquiet|].
      exists (q ++ [m]). split; [rewrite EQ, map_app; reflexivity|]. rewrite up_to_app, F. eapply Forall_impl; [|exact FA].
      intros x Z. simpl. rewrite <- Z, !app_assoc. reflexivity.
    + destruct (a_running p t) eqn:R; [|discriminate]. apply running_not_0 in R. destruct R as [N R]. unfold a_fatal in S. rewrite IN in S. unstep S.
      apply (inv_queued kills _ _ ABORT q m []); simpl; auto.
      * rewrite first_app, F. reflexivity.
      * rewrite set_0; auto.
      * isquiet.
      * intros u U. apply others_set; simpl; auto.
      * intros _ Z. rewrite filter_app in Z. simpl in Z. rewrite forallb_app in Z. simpl in Z. rewrite andb_false_r in Z. discriminate.
      * rewrite EQ. reflexivity.
      * rewrite up_to_app, F. eapply Forall_impl; [|exact FA]. intros x Z. simpl. rewrite <- Z, !app_assoc. reflexivity.
    + destruct (a_running p t) eqn:R; [|discriminate]. apply running_not_0 in R. destruct R as [N R]. unfold signal_step, a_fatal in S.
      match goal with Z : a_restored p = false |- _ => rewrite Z in S end. rewrite A in S. simpl in S. rewrite IN in S. unstep S.
      apply (inv_queued kills _ _ s q m []); simpl; auto.
      * rewrite first_app, F. reflexivity.
      * rewrite set_0; auto.
      * isquiet.
      * intros u U. apply others_set; simpl; auto.
      * intros _ _. reflexivity.
      * rewrite EQ. reflexivity.
      * rewrite up_to_app, F. eapply Forall_impl; [|exact FA]. intros x Z. simpl. rewrite <- Z, !app_assoc. reflexivity.
    + unfold wake_step in S. match goal with Z : a_block p = true |- _ => rewrite Z in S end. discriminate.
    + destruct (same_spec l VBg eq_refl eq_refl) as (U1 & U2 & U3).
      unfold bg_step in S. rewrite T0, EQ in S. destruct q as [|m q]; simpl in S; [discriminate|]. unstep S.
      apply inv_log; simpl; auto; [rewrite U2; exact F|isquiet|].
      exists q. split; [reflexivity|]. rewrite U1. eapply send_forall; [|exact FA]. intros g r Z. simpl in *. rewrite <- Z, <- !app_assoc. reflexivity.
    + destruct (same_spec l (VSink i) eq_refl eq_refl) as (U1 & U2 & U3).
      destruct (sink_step i (a_sinks p)) as [sl|] eqn:SS; [|discriminate]. unstep S.
      apply inv_log; simpl; auto; [rewrite U2; exact F|isquiet|].
      exists q. split; [exact EQ|]. rewrite U1. eapply sink_forall; [| |exact FA|exact SS]; [|auto].
      intros g m r Z. simpl in *. rewrite <- Z, <- !app_assoc. reflexivity.
    + unfold exit_step in S. destruct (Nat.eq_dec t 0) as [->|N]; [rewrite T0 in S; discriminate|].
      specialize (O t N). destruct (a_threads p t); simpl in O; try contradiction; discriminate.
  - (* the fatal entry is in the queue *)
    quietly Q. assert (NN : first_fatal l <> None) by congruence. destruct (later_spec l e s F) as [U1 U2].
    destruct e as [t m'|t m'|t s' again m'|t| |i|t].
    + destruct (a_running p t) eqn:R; [|discriminate]. rewrite IN in S. unstep S.
      apply (inv_queued kills _ _ s q1 m (q2 ++ [QSave m'])); simpl; auto; [isquiet|eapply counted_later; eauto| |rewrite U1; exact FA].
      rewrite EQ, <- app_assoc. reflexivity.
    + destruct (calm_second _ _ _ C F eq_refl) as [Z _]. discriminate.
    + destruct (calm_second _ _ _ C F eq_refl) as [_ Z]. destruct (a_running p t) eqn:R; [|discriminate]. apply running_not_0 in R. destruct R as [N R].
      unfold signal_step in S. match goal with Z : a_restored p = false |- _ => rewrite Z in S end. rewrite (CO NN Z) in S. unstep S.
      apply (inv_queued kills _ _ s q1 m q2); simpl; auto; [rewrite set_0; auto|isquiet| |eapply counted_later; eauto|rewrite U1; exact FA].
      intros u U. apply others_set; simpl; auto.
    + unfold wake_step in S. match goal with Z : a_block p = true |- _ => rewrite Z in S end. discriminate.
    + unfold bg_step in S. rewrite T0, EQ in S. destruct q1 as [|m1 q1]; simpl in S; unstep S.
      * apply (inv_clear kills _ _ s); simpl; auto; [isquiet| |eapply counted_later; eauto|].
        -- intros u U. simpl. unfold updn. destruct (Nat.eqb u 0) eqn:E; [apply Nat.eqb_eq in E; congruence|auto].
        -- rewrite U1. eapply send_forall; [|exact FA]. intros g r Z. simpl in *. rewrite <- Z. reflexivity.
      * apply (inv_queued kills _ _ s q1 m q2); simpl; auto; [isquiet|eapply counted_later; eauto|].
        rewrite U1. eapply send_forall; [|exact FA]. intros g r Z. simpl in *. rewrite <- Z, <- !app_assoc. reflexivity.
    + destruct (sink_step i (a_sinks p)) as [sl|] eqn:SS; [|discriminate]. unstep S.
      apply (inv_queued kills _ _ s q1 m q2); simpl; auto; [isquiet|eapply counted_later; eauto|].
      rewrite U1. eapply sink_forall; [| |exact FA|exact SS]; [|auto]. intros g m' r Z. simpl in *. rewrite <- Z, <- !app_assoc. reflexivity.
    + unfold exit_step in S. destruct (Nat.eq_dec t 0) as [->|N]; [rewrite T0 in S; discriminate|].
      specialize (O t N). destruct (a_threads p t); simpl in O; try contradiction; discriminate.
  - (* the sinks are being cleared *)
    quietly Q. assert (NN : first_fatal l <> None) by congruence. destruct (later_spec l e s F) as [U1 U2].
    destruct e as [t m'|t m'|t s' again m'|t| |i|t].
    + destruct (a_running p t) eqn:R; [|discriminate]. rewrite IN in S. unstep S.
      apply (inv_clear kills _ _ s); auto; [isquiet|eapply counted_later; eauto|rewrite U1; exact FA].
    + destruct (calm_second _ _ _ C F eq_refl) as [Z _]. discriminate.
    + destruct (calm_second _ _ _ C F eq_refl) as [_ Z]. destruct (a_running p t) eqn:R; [|discriminate]. apply running_not_0 in R. destruct R as [N R].
      unfold signal_step in S. match goal with Z : a_restored p = false |- _ => rewrite Z in S end. rewrite (CO NN Z) in S. unstep S.
      apply (inv_clear kills _ _ s); simpl; auto; [rewrite set_0; auto|isquiet| |eapply counted_later; eauto|rewrite U1; exact FA].
      intros u U. apply others_set; simpl; auto.
    + unfold wake_step in S. match goal with Z : a_block p = true |- _ => rewrite Z in S end. discriminate.
    + unfold bg_step in S. rewrite T0 in S.
      destruct (forallb (fun x : list nat * list nat => match snd x with [] => true | _ => false end) (a_sinks p)) eqn:D; [|discriminate]. unstep S.
      apply (inv_raise kills _ _ s); simpl; auto; [isquiet| |eapply counted_later; eauto|].
      * intros u U. simpl. unfold updn. destruct (Nat.eqb u 0) eqn:E; [apply Nat.eqb_eq in E; congruence|auto].
      * rewrite U1. exact (drained (fun z => z = up_to_fatal l) _ D FA).
    + destruct (sink_step i (a_sinks p)) as [sl|] eqn:SS; [|discriminate]. unstep S.
      apply (inv_clear kills _ _ s); simpl; auto; [isquiet|eapply counted_later; eauto|].
      rewrite U1. eapply sink_forall; [| |exact FA|exact SS]; [|auto]. intros g m' r Z. simpl in *. rewrite <- Z, <- app_assoc. reflexivity.
    + unfold exit_step in S. destruct (Nat.eq_dec t 0) as [->|N]; [rewrite T0 in S; discriminate|].
      specialize (O t N). destruct (a_threads p t); simpl in O; try contradiction; discriminate.
  - (* before raise *)
    quietly Q. assert (NN : first_fatal l <> None) by congruence. destruct (later_spec l e s F) as [U1 U2].
    destruct e as [t m'|t m'|t s' again m'|t| |i|t].
    + destruct (a_running p t) eqn:R; [|discriminate]. rewrite IN in S. unstep S.
      apply (inv_raise kills _ _ s); auto; [isquiet|eapply counted_later; eauto|rewrite U1; exact FA].
    + destruct (calm_second _ _ _ C F eq_refl) as [Z _]. discriminate.
    + destruct (calm_second _ _ _ C F eq_refl) as [_ Z]. destruct (a_running p t) eqn:R; [|discriminate]. apply running_not_0 in R. destruct R as [N R].
      unfold signal_step in S. match goal with Z : a_restored p = false |- _ => rewrite Z in S end. rewrite (CO NN Z) in S. unstep S.
      apply (inv_raise kills _ _ s); simpl; auto; [rewrite set_0; auto|isquiet| |eapply counted_later; eauto|rewrite U1; exact FA].
      intros u U. apply others_set; simpl; auto.
    + unfold wake_step in S. match goal with Z : a_block p = true |- _ => rewrite Z in S end. discriminate.
    + unfold bg_step in S. rewrite T0 in S. unfold leave in S. destruct (kills s) eqn:K.
      * unstep S. apply (inv_killed kills _ _ s); simpl; auto. rewrite U1. exact FA.
      * match goal with Z : a_exiting p = false |- _ => rewrite Z in S end. unstep S.
        apply (inv_exit kills _ _ s); simpl; auto; [|intros c Z; congruence|rewrite U1; exact FA].
        intros u U. simpl. unfold updn. destruct (Nat.eqb u 0) eqn:E; [apply Nat.eqb_eq in E; congruence|auto].
    + destruct (sink_step i (a_sinks p)) as [sl|] eqn:SS; [|discriminate]. exfalso. eapply sink_none; [|exact FA|exact SS]. intros x Z. apply Z.
    + unfold exit_step in S. destruct (Nat.eq_dec t 0) as [->|N]; [rewrite T0 in S; discriminate|].
      specialize (O t N). destruct (a_threads p t); simpl in O; try contradiction; discriminate.
  - congruence.
  - (* raise has returned *)
    destruct (later_spec l e s F) as [U1 U2].
    assert (G : forall p1, a_init p1 = a_init p -> a_block p1 = a_block p -> a_exiting p1 = a_exiting p -> a_restored p1 = true ->
                (forall t, t <> 0 -> plain (a_threads p1 t)) -> (a_threads p1 0 = AExit s \/ a_threads p1 0 = AStuck) -> a_sinks p1 = a_sinks p ->
                (forall c, a_end p1 = Some (ByCode c) -> c = s) -> inv kills (l ++ [e]) p1).
    { intros p1 Z1 Z2 Z3 Z4 Z5 Z6 Z7 Z8. apply (inv_exit kills _ _ s); try congruence; auto. rewrite Z7, U1. exact FA. }
    assert (GL : forall t s', inv kills (l ++ [e]) (leave kills p t s')).
    { intros t s'. unfold leave. destruct (kills s'); [|rewrite X]; apply G; simpl; auto; discriminate. }
    destruct e as [t m'|t m'|t s' again m'|t| |i|t].
    + destruct (a_running p t) eqn:R'; [|discriminate]. rewrite IN in S. unstep S. apply G; auto.
    + destruct (calm_second _ _ _ C F eq_refl) as [Z _]. discriminate.
    + destruct (a_running p t) eqn:R'; [|discriminate]. unfold signal_step in S. rewrite R in S.
      destruct (kills s' || again); unstep S; apply G; simpl; auto. discriminate.
    + unfold wake_step in S. rewrite B in S. destruct (Nat.eq_dec t 0) as [->|N]; [destruct T0 as [T0|T0]; rewrite T0 in S; discriminate|].
      destruct (a_threads p t) as [|s' again m'|[|s' again]| | | |] eqn:T; try discriminate.
      * unstep S. unfold a_fatal. rewrite IN. apply GL.
      * unstep S. apply G; simpl; auto; [intros u U; apply others_set; simpl; auto|rewrite set_0; auto].
      * destruct again; unstep S; apply G; simpl; auto; [discriminate|intros u U; apply others_set; simpl; auto|rewrite set_0; auto].
    + unfold bg_step in S. destruct T0 as [T0|T0]; rewrite T0 in S; discriminate.
    + destruct (sink_step i (a_sinks p)) as [sl|] eqn:SS; [|discriminate]. exfalso. eapply sink_none; [|exact FA|exact SS]. intros x Z. apply Z.
    + unfold exit_step in S. destruct (Nat.eq_dec t 0) as [->|N].
      * destruct T0 as [T0|T0]; rewrite T0 in S; [|discriminate]. destruct (a_statics p) as [|[] r] eqn:ST; unstep S; apply G; simpl; auto.
        -- intros c Z. congruence.
        -- intros u U. unfold updn. destruct (Nat.eqb u 0) eqn:E; [apply Nat.eqb_eq in E; congruence|auto].
      * specialize (O t N). destruct (a_threads p t); simpl in O; try contradiction; discriminate.
Qed.

Lemma inv_start : forall kills n st, inv kills [] (a_start n st).
Proof.
  intros kills n st. apply inv_log; simpl; auto; [unfold quiet; simpl; auto|intros t N; simpl; auto|].
  exists []. split; [reflexivity|]. apply Forall_forall. intros x I. apply repeat_spec in I. subst x. reflexivity.
Qed.
Lemma inv_run : forall kills n st l p, calm l -> arun kills (a_start n st) l = Some p -> inv kills l p.
Proof.
  intros kills n st l. induction l as [|e l IH] using rev_ind; intros p C R.
  - injection R as <-. apply inv_start.
  - apply arun_snoc in R. destruct R as (p1 & R & S). eapply inv_step; [apply IH; [eapply calm_app; eauto|exact R]|exact C|exact S].
Qed.

(** when every signal ends the process *)
Definition heldp (p : aproc) : Prop :=
  a_block p = true /\ a_past p = [] /\ (forall t s, a_threads p t <> AExit s) /\ match a_end p with None | Some (BySignal _) => True | _ => False end.
Lemma held_step : forall kills e p p', (forall s, kills s = true) -> heldp p -> astep kills p e = Some p' -> heldp p'.
Proof.
  intros kills e p p' K (B & P & T & E) S. unfold astep in S. destruct (a_end p) eqn:EN; [discriminate|].
  assert (L : forall q t s, a_block q = true -> a_past q = [] -> (forall t s, a_threads q t <> AExit s) -> heldp (leave kills q t s)).
  { intros q t s Z1 Z2 Z3. unfold leave. rewrite K. unfold heldp. simpl. auto. }
  assert (U : forall t x, (forall s, x <> AExit s) -> forall u s, updn (a_threads p) t x u <> AExit s).
  { intros t x X u s. unfold updn. destruct (Nat.eqb u t); auto. }
  assert (FT : forall q t s m k, a_block q = true -> a_past q = [] -> a_threads q = a_threads p -> a_end q = None -> heldp (a_fatal kills q t s m k)).
  { intros q t s m k Z1 Z2 Z3 Z4. unfold a_fatal. destruct (a_init q); [|apply L; auto; rewrite Z3; auto].
    unfold heldp. simpl. rewrite Z3, Z4. repeat split; auto. apply U. discriminate. }
  destruct e as [t m'|t m'|t s' again m'|t| |i|t].
  - destruct (a_running p t); [|discriminate]. unstep S. destruct (a_init p); unfold heldp; simpl; rewrite ?EN; auto.
  - destruct (a_running p t); [|discriminate]. unstep S. apply FT; auto.
  - destruct (a_running p t); [|discriminate]. unstep S. unfold signal_step. destruct (a_restored p).
    + destruct (kills s' || again); unfold heldp; simpl; rewrite ?EN; auto.
    + destruct (a_first p); [|apply FT; auto]. unfold heldp; simpl; rewrite ?EN. repeat split; auto. apply U. discriminate.
  - unfold wake_step in S. rewrite B in S. discriminate.
  - unfold bg_step in S. destruct (a_threads p 0) eqn:T0; try discriminate.
    + destruct (a_queue p) as [|[m|s m] q]; try discriminate; unstep S; unfold heldp; simpl; rewrite EN; repeat split; auto. apply U. discriminate.
    + destruct (forallb _ _); [|discriminate]. unstep S. unfold heldp; simpl; rewrite EN. repeat split; auto. apply U. discriminate.
    + unstep S. apply L; auto.
  - destruct (sink_step i (a_sinks p)); [|discriminate]. unstep S. unfold heldp; simpl; rewrite ?EN; auto.
  - unfold exit_step in S. destruct (a_threads p t) eqn:TT; try discriminate. exfalso. eapply T; eauto.
Qed.
Lemma held_run : forall kills n st l p, (forall s, kills s = true) -> arun kills (a_start n st) l = Some p -> heldp p.
Proof.
  intros kills n st l. induction l as [|e l IH] using rev_ind; intros p K R.
  - injection R as <-. unfold heldp. simpl. repeat split; auto. discriminate.
  - apply arun_snoc in R. destruct R as (p1 & R & S). eapply held_step; eauto.
Qed.

(** the background thread and the sinks bring a fatal entry to the end *)
Definition pending_left (l : list (list nat * list nat)) : nat := fold_right (fun x n => length (snd x) + n) 0 l.
Lemma sink_enabled : forall l, forallb (fun x : list nat * list nat => match snd x with [] => true | _ => false end) l = false ->
  exists i l', sink_step i l = Some l' /\ pending_left l = S (pending_left l').
Proof.
  induction l as [|[g [|m q]] l IH]; simpl; intros H; [discriminate| |].
  - destruct (IH H) as (i & l' & E & P). exists (S i). exists ((g, []) :: l'). cbn [sink_step]; rewrite E; simpl; auto.
  - exists 0. eexists. split; [reflexivity|]. simpl. reflexivity.
Qed.
Definition finish_at (kills : Z -> bool) (s : Z) : aend := if kills s then BySignal s else ByCode s.
Lemma exit_ends : forall kills st p s, a_statics p = st -> a_threads p 0 = AExit s -> a_end p = None -> ~ In true st ->
  exists p', arun kills p (repeat (VExit 0) (S (length st))) = Some p' /\ a_end p' = Some (ByCode s).
Proof.
  induction st as [|[] st IH]; intros p s E T N I.
  - eexists. simpl. unfold astep, exit_step. rewrite N, T, E. split; reflexivity.
  - exfalso. apply I. left. reflexivity.
  - change (repeat (VExit 0) (S (length (false :: st)))) with (VExit 0 :: repeat (VExit 0) (S (length st))).
    cbn [arun]. unfold astep at 1, exit_step. rewrite N, T, E. apply IH; simpl; auto. intros X. apply I. right. exact X.
Qed.
Lemma by_repeat : forall n, forallb by_logger (repeat (VExit 0) n) = true.
Proof. induction n; simpl; auto. Qed.
Lemma raise_ends : forall kills p s, a_threads p 0 = ARaise s -> a_end p = None -> a_exiting p = false -> ~ In true (a_statics p) ->
  exists l' p', forallb by_logger l' = true /\ arun kills p l' = Some p' /\ a_end p' = Some (finish_at kills s).
Proof.
  intros kills p s T N X I. unfold finish_at. destruct (kills s) eqn:K.
  - exists [VBg]. eexists. simpl. unfold astep, bg_step, leave. rewrite N, T, K. repeat split; reflexivity.
  - destruct (exit_ends kills (a_statics p) (leave kills p 0 s) s) as (p' & R & E); try (unfold leave; rewrite K, X; simpl; auto; fail); auto.
    exists (VBg :: repeat (VExit 0) (S (length (a_statics p)))), p'. split; [apply by_repeat|]. split; [|exact E].
    cbn [arun]. unfold astep at 1, bg_step. rewrite N, T. exact R.
Qed.
Lemma clear_ends : forall n kills p s, pending_left (a_sinks p) = n -> a_threads p 0 = AClear s -> a_end p = None -> a_exiting p = false ->
  ~ In true (a_statics p) -> exists l' p', forallb by_logger l' = true /\ arun kills p l' = Some p' /\ a_end p' = Some (finish_at kills s).
Proof.
  induction n as [|n IH]; intros kills p s P T N X I;
    destruct (forallb (fun x : list nat * list nat => match snd x with [] => true | _ => false end) (a_sinks p)) eqn:D.
  1, 3: destruct (raise_ends kills (a_thread p 0 (ARaise s)) s) as (l' & p' & B & R & E); simpl; auto;
    exists (VBg :: l'), p'; split; [exact B|]; split; [|exact E]; cbn [arun]; unfold astep at 1, bg_step; rewrite N, T, D; exact R.
  - destruct (sink_enabled _ D) as (i & l' & _ & E). congruence.
  - destruct (sink_enabled _ D) as (i & sl & SS & E). rewrite P in E. injection E as E.
    destruct (IH kills (mkA (a_init p) (a_queue p) sl (a_block p) (a_first p) (a_restored p) (a_exiting p) (a_statics p) (a_threads p) (a_past p) (a_end p)) s)
      as (l' & p' & B & R & E'); simpl; auto.
    exists (VSink i :: l'), p'. split; [exact B|]. split; [|exact E']. cbn [arun]. unfold astep at 1. rewrite N, SS, <- N. exact R.
Qed.
Lemma queue_ends : forall q1 kills p s m q2, a_queue p = map QSave q1 ++ QFatal s m :: q2 -> a_threads p 0 = ARun -> a_end p = None -> a_exiting p = false ->
  ~ In true (a_statics p) -> exists l' p', forallb by_logger l' = true /\ arun kills p l' = Some p' /\ a_end p' = Some (finish_at kills s).
Proof.
  induction q1 as [|m1 q1 IH]; intros kills p s m q2 Q T N X I; simpl in Q.
  - edestruct (clear_ends _ kills (mkA false q2 (a_send m (a_sinks p)) (a_block p) (a_first p) (a_restored p) (a_exiting p) (a_statics p)
                 (updn (a_threads p) 0 (AClear s)) (a_past p) (a_end p)) s eq_refl) as (l' & p' & B & R & E); simpl; auto.
    exists (VBg :: l'), p'. split; [exact B|]. split; [|exact E]. cbn [arun]. unfold astep at 1, bg_step. rewrite N, T, Q, <- N. exact R.
  - destruct (IH kills (mkA (a_init p) (map QSave q1 ++ QFatal s m :: q2) (a_send m1 (a_sinks p)) (a_block p) (a_first p) (a_restored p) (a_exiting p) (a_statics p)
                 (a_threads p) (a_past p) (a_end p)) s m q2) as (l' & p' & B & R & E); simpl; auto.
    exists (VBg :: l'), p'. split; [exact B|]. split; [|exact E]. cbn [arun]. unfold astep at 1, bg_step. rewrite N, T, Q, <- N. exact R.
Qed.
(** static objects that do not own the worker never make the background thread wait *)
Definition fine (p : aproc) : Prop := ~ In true (a_statics p) /\ forall t, a_threads p t <> AStuck.
Lemma leave_fine : forall kills p t s, fine p -> fine (leave kills p t s).
Proof.
  intros kills p t s [A B]. unfold leave. destruct (kills s); [split; auto|]. destruct (a_exiting p); [split; auto|].
  split; [exact A|]. simpl. intros u. unfold updn. destruct (Nat.eqb u t); [discriminate|auto].
Qed.
Lemma fatal_fine : forall kills p t s m k, fine p -> fine (a_fatal kills p t s m k).
Proof.
  intros kills p t s m k [A B]. unfold a_fatal. destruct (a_init p); [|apply leave_fine; split; auto].
  split; [exact A|]. simpl. intros u. unfold updn. destruct (Nat.eqb u t); [discriminate|auto].
Qed.
Lemma fine_step : forall kills e p p', fine p -> astep kills p e = Some p' -> fine p'.
Proof.
  intros kills e p p' [A B] S. unfold astep in S. destruct (a_end p) eqn:EN; [discriminate|].
  assert (U : forall t x, x <> AStuck -> forall u, updn (a_threads p) t x u <> AStuck).
  { intros t x X u. unfold updn. destruct (Nat.eqb u t); auto. }
  destruct e as [t m'|t m'|t s' again m'|t| |i|t].
  - destruct (a_running p t); [|discriminate]. unstep S. destruct (a_init p); split; auto.
  - destruct (a_running p t); [|discriminate]. unstep S. apply fatal_fine. split; auto.
  - destruct (a_running p t); [|discriminate]. unstep S. unfold signal_step. destruct (a_restored p).
    + destruct (kills s' || again); split; auto.
    + destruct (a_first p); [|apply fatal_fine; split; auto]. split; [exact A|]. apply U. discriminate.
  - unfold wake_step in S. destruct (a_block p); [discriminate|]. destruct (a_threads p t) as [|s' again m'|[|s' again]| | | |] eqn:T; try discriminate.
    + unstep S. apply fatal_fine. split; auto.
    + unstep S. split; [exact A|]. apply U. discriminate.
    + destruct again; unstep S; split; auto. apply U. discriminate.
  - unfold bg_step in S. destruct (a_threads p 0) eqn:T0; try discriminate.
    + destruct (a_queue p) as [|[m|s m] q]; try discriminate; unstep S; split; auto. apply U. discriminate.
    + destruct (forallb _ _); [|discriminate]. unstep S. split; auto. apply U. discriminate.
    + unstep S. apply leave_fine. split; auto.
  - destruct (sink_step i (a_sinks p)); [|discriminate]. unstep S. split; auto.
  - unfold exit_step in S. destruct (a_threads p t) eqn:TT; try discriminate. destruct (a_statics p) as [|[] r] eqn:ST; unstep S.
    + split; simpl; auto. rewrite ST. auto.
    + exfalso. apply A. left. reflexivity.
    + split; simpl; auto. intros X. apply A. right. exact X.
Qed.
Lemma fine_run : forall kills l p p', fine p -> arun kills p l = Some p' -> fine p'.
Proof.
  intros kills. induction l as [|e l IH]; intros p p' FI R; simpl in R; [congruence|].
  destruct (astep kills p e) eqn:S; [|discriminate]. eapply IH; [eapply fine_step; eauto|exact R].
Qed.
