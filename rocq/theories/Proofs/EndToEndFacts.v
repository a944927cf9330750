(** Lemmas for the end-to-end theorems. *)
From Coq Require Import Ascii String List ZArith NArith Bool Lia.
From Verif.Base Require Import Bytes.
From Verif.Model Require Import Levels TimeFmt Message Capture FileName Global FileSink EndToEnd.
From Verif.Model Require Worker.
From Verif.Spec Require Import TimeSpec MessageSpec FileSinkSpec EndToEndSpec.
From Verif.Spec Require WorkerSpec.
From Verif.Proofs Require Import BytesFacts TimeFacts MessageFacts CaptureFacts FileNameFacts FileSinkFacts.
Import ListNotations.
Local Open Scope list_scope.

(** ** the message *)
Lemma fold_stream : forall ts c, fold_left Capture.stream ts c = Capture.stream c (concat ts).
Proof.
  induction ts as [|t ts IH]; intro c; cbn [fold_left concat].
  - unfold Capture.stream. destruct c; cbn. now rewrite app_nil_r.
  - rewrite IH. unfold Capture.stream. cbn. now rewrite <- app_assoc.
Qed.

Lemma copy_plain : forall lv, ~ In NUL (text lv) -> copyLevel lv = lv.
Proof. intros [v t] N. unfold copyLevel. cbn in *. now rewrite (proj1 (c_str_id t) N). Qed.

Lemma trace_no_nul : forall st, ~ In NUL (st_dump st) -> ~ In NUL (stack_part st).
Proof.
  intros st N I. unfold stack_part in I. rewrite !in_app_iff in I. destruct I as [I|[I|[I|[I|[I|I]]]]]; try (apply N; exact I);
    cbn in I; repeat (destruct I as [I|I]; [discriminate I|]); exact I.
Qed.

Lemma execute_spec : forall e st, plain e st -> exists m name, last_component (st_file st) name /\
  _logDetailsToStringFunc m = DefaultDetails /\ _file m = name /\ _line m = st_line st /\ _function m = st_function st /\ _level m = st_level st /\
  _message m = concat (st_texts st) /\ _timestamp m = st_now st /\ _expression m = st_expression st /\
  execute st = Some (if (value (st_level st) <? 1000)%Z then ToLogger m else ToFatal (stack_part st) m (st_signal st)).
Proof.
  intros e st (NF & B & NN & NL' & NX & NT & ND & _). unfold execute. rewrite fold_stream.
  destruct (splitFileName_spec (st_file st) B) as (name & S & C).
  unfold end_LogCapture. cbn [Capture.stream new_LogCapture c_stream c_file c_line c_function c_level c_expression c_fatal_signal c_stack_trace app].
  unfold saveMessage, new_LogMessage. rewrite (proj1 (c_str_id _) NF), S, (proj1 (c_str_id _) NN), (proj1 (c_str_id _) NT), (proj1 (c_str_id _) NT), (proj1 (c_str_id _) NX), !(copy_plain (st_level st)) by assumption.
  exists (mkMsg DefaultDetails (st_now st) (st_thread st) name (st_file st) (st_line st) (st_function st) (st_level st) (st_expression st) (concat (st_texts st))), name.
  split; [exact C|]. cbn [_logDetailsToStringFunc _file _line _function _level _message _timestamp _expression setExpression write_append]. do 8 (split; [reflexivity|]).
  f_equal. unfold wasFatal. change (value FATAL) with 1000%Z.
  destruct (Z.ltb_spec (value (st_level st)) 1000); destruct (Z.leb_spec 1000 (value (st_level st))); try lia; [reflexivity|].
  cbn [app]. f_equal. change (c_str (c_str (stack_part st)) = stack_part st). rewrite c_str_idem. apply c_str_id, trace_no_nul, ND.
Qed.

Lemma message_shows : forall e st warn m name, plain e st -> last_component (st_file st) name ->
  _file m = name -> _line m = st_line st -> _function m = st_function st -> _level m = st_level st ->
  _message m = shown_text warn st -> _timestamp m = st_now st -> _expression m = st_expression st ->
  exists l, snd (toString_with e m DefaultDetails) = FOk l /\ shows e warn st l.
Proof.
  intros e st warn m name (_ & _ & _ & _ & _ & _ & _ & P & O) C F Li Fu Lv Me Ts Ex.
  assert (T : timestamp e m default_timestamp_format = FOk (stamp (e_local e (wall e st / 10^9)%Z) (us_of (wall e st)))).
  { unfold timestamp. replace (to_system_time 1 (e_sys_now e) (e_hrs_now e) (_timestamp m)) with (wall e st)
      by (unfold to_system_time, wall; rewrite Ts, Z.quot_1_r; lia).
    change (10^9)%Z with 1000000000%Z in *. rewrite <- Z.quot_div_nonneg in * by lia. now apply default_timestamp. }
  eexists. split.
  - apply toString_rendering; [exact T|]. cbn [call_details]. unfold DefaultLogDetailsToString. rewrite timestamp_override, T. reflexivity.
  - exists name. split; [exact C|]. cbv zeta. rewrite Lv, Ex, Me. f_equal.
    unfold details, msg_level, msg_file, msg_function, msg_line. cbn [_level _file _function _line overrideLogDetailsFunc]. now rewrite Lv, F, Fu, Li.
Qed.

Lemma content_shows : forall e warn st, plain e st ->
  exists m l, content warn st = Some m /\ snd (toString_with e m DefaultDetails) = FOk l /\ shows e warn st l.
Proof.
  intros e warn st P. destruct (execute_spec e st P) as (m & name & C & DF & F & Li & Fu & Lv & Me & Ts & Ex & X). unfold content. rewrite X.
  assert (CL : copyLevel (st_level st) = st_level st) by (apply copy_plain; apply P).
  destruct (Z.ltb_spec (value (st_level st)) 1000) as [V|V].
  - assert (H : exists l, snd (toString_with e (delivered m) DefaultDetails) = FOk l /\ shows e warn st l).
    { apply (message_shows e st warn (delivered m) name); auto; unfold delivered; cbn [fst moveMsg copyMsg _level _message].
      - now rewrite Lv, !CL.
      - rewrite Me. unfold shown_text. destruct (Z.ltb_spec (value (st_level st)) 1000); [reflexivity|lia]. }
    destruct H as (l & A & B). eauto.
  - set (f := delivered _). assert (H : exists l, snd (toString_with e f DefaultDetails) = FOk l /\ shows e warn st l).
    { apply (message_shows e st warn f name); auto; unfold f, delivered, bgFatal_message, new_FatalMessage, reason; cbn [fst moveMsg copyMsg write_append _level _message f_msg _signal_id].
      - now rewrite Lv, !CL.
      - rewrite Me, Lv, CL. unfold shown_text, last_words, stack_part, msg_level, nl. cbn [_level copyMsg write_append]. rewrite ?Lv, ?CL. destruct (Z.ltb_spec (value (st_level st)) 1000); [lia|]. rewrite <- !app_assoc. reflexivity. }
    destruct H as (l & A & B). eauto.
Qed.

(** ** the sink does not fail *)
Lemma two_length : forall z, (0 <= z <= 99)%Z -> length (two z) = 2.
Proof. intros z H. rewrite two_padded by lia. apply padded_length; simpl; lia. Qed.
Lemma header_time : forall e now, tm_ok (e_local e (Z.quot now (10^9))) -> (forall c t, length (e_ext e c t) <= 100) ->
  exists t, formatted (clock_of e) now (lit "%a %b %d %H:%M:%S %Y") = FOk t.
Proof.
  intros e now O B. unfold formatted, localtime_formatted, clock_of. cbn [k_debug k_ext k_local].
  change (localtime_formatted_fractions now (lit "%a %b %d %H:%M:%S %Y")) with (FOk (lit "%a %b %d %H:%M:%S %Y")). cbv iota.
  change (c_str (lit "%a %b %d %H:%M:%S %Y")) with (lit "%a %b %d %H:%M:%S %Y"). unfold put_time.
  change (10^9)%Z with 1000000000%Z in O. set (t := e_local e (Z.quot now 1000000000)) in *. unfold tm_ok in O.
  cbn [lit list_ascii_of_string strftime Ascii.eqb Bool.eqb strftime_conv]. rewrite year_padded by lia.
  set (full := _ ++ _).
  assert (L : 1 <= length full < 1024).
  { unfold full. rewrite !app_length. cbn [length]. rewrite !app_length. cbn [length]. rewrite !app_length. cbn [length]. rewrite !app_length. cbn [length]. rewrite !app_length. cbn [length]. rewrite !app_length. cbn [length].
    rewrite !two_length by lia. rewrite !app_length, !padded_length by (simpl; lia). pose proof (B "a"%char t). pose proof (B "b"%char t). cbn [length]. lia. }
  destruct (Nat.eqb_spec (length full) 0); [lia|]. destruct (Nat.leb_spec 1024 (length full)); [lia|]. cbn [orb]. eauto.
Qed.
Lemma closing_time : forall e now, (0 <= now)%Z -> tm_ok (e_local e (Z.quot now (10^9))) -> exists t, formatted (clock_of e) now time_formatted = FOk t.
Proof.
  intros e now P O. unfold formatted, localtime_formatted, clock_of. cbn [k_debug k_ext k_local].
  rewrite fractions_fill; [|exact P|vm_compute; reflexivity].
  change (10^9)%Z with 1000000000%Z in O. set (t := e_local e (Z.quot now 1000000000)) in *. unfold tm_ok in O.
  assert (E : fill (D3 now) (D6 now) (D9 now) time_formatted = lit "%H:%M:%S " ++ D6 now).
  { unfold time_formatted. cbn [lit list_ascii_of_string app fill Ascii.eqb Bool.eqb]. now rewrite app_nil_r. }
  rewrite E. assert (DD : forall c, In c (D6 now) -> is_digit c = true) by (intros c; apply padded_digits).
  rewrite (proj1 (c_str_id _)).
  2: { intro H. apply in_app_or in H as [H|H]; [revert H; vm_compute; intuition discriminate|]. apply DD in H. discriminate. }
  unfold put_time. assert (U : strftime (e_ext e) (D6 now) t = D6 now).
  { clear - DD. induction (D6 now) as [|c us IH]; auto. cbn [strftime]. destruct (Ascii.eqb_spec c "%"%char) as [->|n].
    - specialize (DD "%"%char (or_introl eq_refl)). discriminate.
    - f_equal. apply IH. intros; apply DD; now right. }
  cbn [lit list_ascii_of_string app strftime Ascii.eqb Bool.eqb strftime_conv]. rewrite U.
  set (full := _ ++ _). assert (L : length full = 15).
  { unfold full. rewrite !app_length, two_length by lia. cbn [length]. rewrite !app_length, two_length by lia. cbn [length]. rewrite !app_length, two_length by lia. cbn [length].
    unfold D6. rewrite padded_length; [reflexivity|lia|exact (us_bound now)]. }
  rewrite L. cbn [Nat.eqb Nat.leb orb]. eauto.
Qed.

Lemma apply_writes : forall d st ms, d_out d = Some st -> Forall (fun m => match m with MWrite _ _ | MFlush => True | _ => False end) ms ->
  exists d' st', apply_micros d ms = Ok d' /\ d_out d' = Some st'.
Proof.
  intros d st ms O F. unfold apply_micros. revert d st O. induction F as [|m ms H F IH]; intros d st O; cbn [mrun]; [eauto|].
  destruct m; try contradiction; cbn [mstep]; rewrite O.
  - destruct (spill _ _ _) as [f st'] eqn:E. apply (IH _ st'). reflexivity.
  - destruct (spill_all _ _) as [f st'] eqn:E. apply (IH _ st'). reflexivity.
Qed.

Lemma recv_total : forall e s d st m now k1 k2 l, d_out d = Some st -> (_write_to_log_every_x_message s <> 0)%N ->
  snd (toString_with e m (_log_details_func s)) = FOk l -> (exists t, formatted (clock_of e) now (lit "%a %b %d %H:%M:%S %Y") = FOk t) ->
  exists s' d' st', op_step e (s, d) (ORecv m now k1 k2) = Ok (s', d') /\ d_out d' = Some st' /\
    _write_to_log_every_x_message s' = _write_to_log_every_x_message s /\ _log_details_func s' = _log_details_func s.
Proof.
  intros e s d st m now k1 k2 l O Z T (ht & H). unfold op_step. cbn [op_run fst snd]. unfold fileWrite, addLogFileHeader, header. rewrite H, T. cbn [of_fres obind].
  apply N.eqb_neq in Z. cbv zeta.
  set (hdr := if _firstEntry s then _ else _).
  assert (HD : exists hs, hdr = Ok hs /\ Forall (fun m => match m with MWrite _ _ | MFlush => True | _ => False end) hs).
  { unfold hdr. destruct (_firstEntry s); eexists; split; try reflexivity; repeat constructor. }
  destruct HD as (hs & -> & F). cbn [obind]. rewrite ?Z. destruct (_ mod _ =? 0)%N; cbn [obind fst snd].
  - edestruct (apply_writes d st (hs ++ [MWrite (_write_buffer s ++ l) k2; MFlush])) as (d' & st' & A & B); [exact O|apply Forall_app; split; [exact F|repeat constructor]|].
    rewrite A. cbn [obind]. do 2 eexists. exists st'. split; [reflexivity|]. auto.
  - edestruct (apply_writes d st hs) as (d' & st' & A & B); [exact O|exact F|].
    rewrite A. cbn [obind]. do 2 eexists. exists st'. split; [reflexivity|]. auto.
Qed.

Lemma ops_total : forall e warn prog calls luck got p s d st, mild calls ->
  (forall m, In (Worker.JMsg m) got -> plain e (prog m)) ->
  (forall p, tm_ok (e_local e (Z.quot (fst (fst (luck p))) (10^9)))) -> (forall c t, length (e_ext e c t) <= 100) ->
  d_out d = Some st -> (_write_to_log_every_x_message s <> 0)%N -> _log_details_func s = DefaultDetails ->
  exists s' d' st', ops_run e (s, d) (ops_of warn prog calls luck p got) = Ok (s', d') /\ d_out d' = Some st'.
Proof.
  intros e warn prog calls luck got p s d st M P L X. revert p s d st. induction got as [|j got IH]; intros p s d st O Z D; cbn [ops_of ops_run]; [eauto|].
  assert (IH' := IH (fun m H => P m (or_intror H))). clear IH. destruct j as [m|c|].
  - destruct (content_shows e warn (prog m) (P m (or_introl eq_refl))) as (lm & l & C & T & _). rewrite C. cbn [app ops_run]. rewrite <- D in T.
    destruct (recv_total e s d st lm (fst (fst (luck p))) (snd (fst (luck p))) (snd (luck p)) l O Z T (header_time e _ (L p) X)) as (s' & d' & st' & E & O' & Z' & D').
    rewrite E. cbn [obind]. apply (IH' _ _ _ st'); congruence.
  - destruct (M c) as [-> | (h & ->)]; cbn [app ops_run]; [apply (IH' _ _ _ st); auto|].
    unfold op_step. cbn [op_run fst snd obind apply_micros mrun]. apply (IH' _ _ _ st); auto.
  - cbn [app]. apply (IH' _ _ _ st); auto.
Qed.

Lemma destroy_total : forall e s d st tnow k, d_out d = Some st -> (exists t, formatted (clock_of e) tnow time_formatted = FOk t) -> exists g, destroy e (s, d) tnow k = Ok g.
Proof.
  intros e s d st tnow k O (t & T). unfold destroy, FileSink_dtor. cbn [fst snd]. rewrite T. cbn [of_fres obind].
  unfold apply_micros. cbn [mrun mstep]. rewrite O. destruct (spill _ _ _) as [f st'] eqn:E. cbn [d_out d_fs]. destruct (spill_all f st') as [f2 st2]. cbn [d_out obind]. eauto.
Qed.

(** ** what the calls of the sink produce *)
Lemma ops_no_change : forall e warn prog calls luck got p, mild calls -> (forall m, In (Worker.JMsg m) got -> plain e (prog m)) -> Forall no_change (ops_of warn prog calls luck p got).
Proof.
  intros e warn prog calls luck got p M. revert p. induction got as [|j got IH]; intros p P; cbn [ops_of]; [constructor|]. apply Forall_app. split; [|apply IH; intros; apply P; now right].
  destruct j as [m|c|]; [destruct (content warn (prog m)); repeat constructor| |constructor].
  destruct (M c) as [-> | (h & ->)]; repeat constructor.
Qed.

Lemma ops_received : forall e warn prog calls luck got p ts, mild calls -> (forall m, In (Worker.JMsg m) got -> plain e (prog m)) ->
  received e DefaultDetails (ops_of warn prog calls luck p got) ts -> Forall2 (fun m l => shows e warn (prog m) l) (WorkerSpec.msgs got) ts.
Proof.
  intros e warn prog calls luck got p ts M. revert p ts. induction got as [|j got IH]; intros p ts P R; cbn [ops_of] in R.
  - inversion R; subst. constructor.
  - assert (IH' := fun p ts => IH p ts (fun m H => P m (or_intror H))). clear IH. destruct j as [m|c|].
    + destruct (content_shows e warn (prog m) (P m (or_introl eq_refl))) as (lm & l & C & T & S). rewrite C in R. cbn [app] in R. inversion R; subst.
      change (WorkerSpec.msgs (Worker.JMsg m :: got)) with (m :: WorkerSpec.msgs got). constructor; [|eapply IH'; eassumption].
      assert (l = t) by congruence. now subst.
    + destruct (M c) as [E | (h & E)]; rewrite E in R; cbn [app] in R; [eapply IH'; eassumption|]. inversion R; subst. eapply IH'; eassumption.
    + eapply IH'. exact R.
Qed.

(** the header in the file: none without a message *)
Lemma ops_header : forall e warn prog calls luck got p h hd, mild calls -> (forall m, In (Worker.JMsg m) got -> plain e (prog m)) ->
  header_due e h (ops_of warn prog calls luck p got) hd ->
  (WorkerSpec.msgs got = [] /\ hd = []) \/ (WorkerSpec.msgs got <> [] /\ exists c h', hd = header_text c h' /\ (h' = h \/ exists u, calls u = Some (OHeader h'))).
Proof.
  intros e warn prog calls luck got p h hd M. revert p h. induction got as [|j got IH]; intros p h P H; cbn [ops_of] in H; [left; auto|].
  assert (IH' := fun p h => IH p h (fun m H => P m (or_intror H))). clear IH. destruct j as [m|c|].
  - right. split; [discriminate|]. destruct (content_shows e warn (prog m) (P m (or_introl eq_refl))) as (lm & l & C & _). rewrite C in H. cbn [app] in H. unfold header_due in H. cbn [first_header] in H.
    destruct H as (c & _ & ->). eauto.
  - destruct (M c) as [E | (h2 & E)]; rewrite E in H; cbn [app] in H; [exact (IH' _ _ H)|]. unfold header_due in H. cbn [first_header] in H.
    destruct (IH' (S p) h2 H) as [A | (A & c0 & h' & B & [-> | D])]; [left; exact A| |].
    + right. split; [exact A|]. exists c0, h2. split; [exact B|]. right. eauto.
    + right. split; [exact A|]. exists c0, h'. auto.
  - exact (IH' _ _ H).
Qed.
