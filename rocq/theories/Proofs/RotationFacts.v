(** Lemmas on sinks whose file is changed while they receive. *)
From Coq Require Import Ascii String List ZArith NArith Bool Lia.
From Verif.Base Require Import Bytes.
From Verif.Model Require Import Levels TimeFmt Message Capture FileName Global FileSink EndToEnd.
From Verif.Model Require Worker.
From Verif.Spec Require Import TimeSpec MessageSpec FileSinkSpec EndToEndSpec RotationSpec.
From Verif.Spec Require WorkerSpec.
From Verif.Proofs Require Import BytesFacts TimeFacts MessageFacts CaptureFacts FileNameFacts FileSinkFacts EndToEndFacts.
Import ListNotations.
Local Open Scope list_scope.

Lemma change_total : forall e s d st dir id n1 n2 n3 r k1 k2 k3, d_out d = Some st -> (_write_to_log_every_x_message s <> 0)%N ->
  good_time e n1 -> good_time e n2 -> good_time e n3 -> (forall c t, length (e_ext e c t) <= 100) ->
  exists s' d' st', op_step e (s, d) (OChange dir id n1 n2 n3 r k1 k2 k3) = Ok (s', d') /\ d_out d' = Some st' /\
    _write_to_log_every_x_message s' = _write_to_log_every_x_message s /\ _log_details_func s' = _log_details_func s.
Proof.
  intros e s d st dir id n1 n2 n3 r k1 k2 k3 O Z (P1 & T1) (P2 & T2) (P3 & T3) X.
  assert (U : usable (s, d)) by (split; cbn [fst snd]; [rewrite O; discriminate | exact Z]).
  assert (R : exists s' ms, op_run e s (OChange dir id n1 n2 n3 r k1 k2 k3) = Ok (s', ms) /\
    _write_to_log_every_x_message s' = _write_to_log_every_x_message s /\ _log_details_func s' = _log_details_func s).
  { cbn [op_run]. unfold changeLogFile, formatted at 1.
    change (date_formatted ++ lit " " ++ time_formatted) with default_timestamp_format.
    rewrite default_timestamp; [|exact P1|exact T1]. cbn [of_fres obind].
    rewrite createLogFileName_spec by exact T2. cbn [of_fres obind].
    destruct r as [i|].
    - unfold addLogFileHeader, header. destruct (header_time e n3 T3 X) as (t & ->). cbn [of_fres obind fst]. do 2 eexists. split; [reflexivity|]. split; reflexivity.
    - cbn [obind fst]. do 2 eexists. split; [reflexivity|]. split; reflexivity. }
  destruct R as (s' & ms & R & E1 & E2).
  destruct (usable_op e (s, d) (OChange dir id n1 n2 n3 r k1 k2 k3) U) as [((s2 & d2) & S & U2)|[S|S]].
  - exists s2, d2. destruct U2 as [U2 _]. cbn [snd] in U2. destruct (d_out d2) as [st2|] eqn:D2; [|contradiction]. exists st2.
    split; [exact S|]. split; [reflexivity|]. unfold op_step in S. cbn [fst snd] in S. rewrite R in S. cbn [obind fst snd] in S.
    apply obind_ok in S as (d3 & _ & S). injection S as <- <-. auto.
  - exfalso. unfold op_step in S. cbn [fst snd] in S. rewrite R in S. cbn [obind fst snd] in S. unfold apply_micros in S. destruct (mrun d ms); discriminate.
  - exfalso. unfold op_step in S. cbn [fst snd] in S. rewrite R in S. cbn [obind fst snd] in S. unfold apply_micros in S. destruct (mrun d ms); discriminate.
Qed.

Lemma ops_total2 : forall e warn prog calls luck got p s d st, gentle e calls ->
  (forall m, In (Worker.JMsg m) got -> plain e (prog m)) ->
  (forall p, tm_ok (e_local e (Z.quot (fst (fst (luck p))) (10^9)))) -> (forall c t, length (e_ext e c t) <= 100) ->
  d_out d = Some st -> (_write_to_log_every_x_message s <> 0)%N -> _log_details_func s = DefaultDetails ->
  exists s' d' st', ops_run e (s, d) (ops_of warn prog calls luck p got) = Ok (s', d') /\ d_out d' = Some st'.
Proof.
  intros e warn prog calls luck got p s d st M P L X. revert p s d st. induction got as [|j got IH]; intros p s d st O Z D; cbn [ops_of ops_run]; [eauto|].
  assert (IH' := IH (fun m H => P m (or_intror H))). clear IH. destruct j as [m|c|].
  - destruct (content_shows e warn (prog m) (P m (or_introl eq_refl))) as (lm & l & C & T & _). rewrite C. cbn [app ops_run]. rewrite <- D in T.
    destruct (recv_total e s d st lm (fst (fst (luck p))) (snd (fst (luck p))) (snd (luck p)) l O Z T (header_time e _ (L p) X)) as (s' & d' & st' & E & O' & Z' & D').
    rewrite E. cbn [obind]. apply (IH' _ _ _ st'); congruence.
  - destruct (M c) as [-> | [(h & ->) | (dir & id & n1 & n2 & n3 & r & k1 & k2 & k3 & -> & G1 & G2 & G3)]]; cbn [app ops_run]; [apply (IH' _ _ _ st); auto| |].
    + unfold op_step. cbn [op_run fst snd obind apply_micros mrun]. apply (IH' _ _ _ st); auto.
    + destruct (change_total e s d st dir id n1 n2 n3 r k1 k2 k3 O Z G1 G2 G3 X) as (s' & d' & st' & E & O' & Z' & D').
      rewrite E. cbn [obind]. apply (IH' _ _ _ st'); congruence.
  - cbn [app]. apply (IH' _ _ _ st); auto.
Qed.

Lemma ops_received2 : forall e warn prog calls luck got p ts, gentle e calls -> (forall m, In (Worker.JMsg m) got -> plain e (prog m)) ->
  received e DefaultDetails (ops_of warn prog calls luck p got) ts -> Forall2 (fun m l => shows e warn (prog m) l) (WorkerSpec.msgs got) ts.
Proof.
  intros e warn prog calls luck got p ts M. revert p ts. induction got as [|j got IH]; intros p ts P R; cbn [ops_of] in R.
  - inversion R; subst. constructor.
  - assert (IH' := fun p ts => IH p ts (fun m H => P m (or_intror H))). clear IH. destruct j as [m|c|].
    + destruct (content_shows e warn (prog m) (P m (or_introl eq_refl))) as (lm & l & C & T & S). rewrite C in R. cbn [app] in R. inversion R; subst.
      change (WorkerSpec.msgs (Worker.JMsg m :: got)) with (m :: WorkerSpec.msgs got). constructor; [|eapply IH'; eassumption].
      assert (l = t) by congruence. now subst.
    + destruct (M c) as [E | [(h & E) | (dir & id & n1 & n2 & n3 & r & k1 & k2 & k3 & E & _)]]; rewrite E in R; cbn [app] in R; [eapply IH'; eassumption| |];
        inversion R; subst; eapply IH'; eassumption.
    + eapply IH'. exact R.
Qed.

Lemma opened_changes : forall e warn prog calls luck got p, gentle e calls -> opened (ops_of warn prog calls luck p got) = changes calls got.
Proof.
  intros e warn prog calls luck got p M. revert p. induction got as [|j got IH]; intro p; [reflexivity|]. cbn [ops_of]. rewrite opened_app, IH.
  unfold changes. cbn [flat_map]. f_equal. destruct j as [m|c|]; [destruct (content warn (prog m)); reflexivity| |reflexivity].
  destruct (M c) as [-> | [(h & ->) | (dir & id & n1 & n2 & n3 & r & k1 & k2 & k3 & -> & _)]]; reflexivity.
Qed.
