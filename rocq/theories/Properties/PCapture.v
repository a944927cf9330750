(** C45 - C49: from the LOG statement to the logger.  Model: Model/Capture.v. *)
From Coq Require Import Ascii String List ZArith NArith Bool Lia.
From Verif.Base Require Import Bytes.
From Verif.Model Require Import Levels TimeFmt Message Capture.
From Verif.Spec Require Import MessageSpec.
From Verif.Proofs Require Import BytesFacts MessageFacts CaptureFacts.
Import ListNotations.
Local Open Scope list_scope.

(** the text a capturef call adds to the entry, if it ends normally *)
Definition logged (max : Z) (fmt : str) (res : option str) (out : str) : Prop :=
  forall c, capturef max c fmt res = CapOk (stream c out).

(** ** C45: messages that fit *)
Theorem C45_fitting_message_verbatim : forall max fmt t,
  (0 < max <= INT_MAX)%Z -> (Z.of_nat (length t) < max)%Z -> ~ In NUL t ->
  logged max fmt (Some t) t.
Proof.
  intros max fmt t M L N c. rewrite capturef_ok by lia.
  destruct (Z.ltb_spec max (Z.of_nat (length t))); [lia|].
  rewrite firstn_all2 by lia. now rewrite (proj1 (c_str_id t) N).
Qed.
Print Assumptions C45_fitting_message_verbatim.

(** every size accepted by setMaxMessageSize that fits an int gives that limit *)
Theorem C45_configured_size : forall n, (0 < n)%N -> (Z.of_N n <= INT_MAX)%Z -> setMaxMessageSize n = Z.of_N n.
Proof. exact to_int_small. Qed.
Print Assumptions C45_configured_size.

Example C45_ex : logged 2048 (lit "%d items") (Some (lit "17 items")) (lit "17 items") /\
  logged (setMaxMessageSize 9) (lit "%d items") (Some (lit "17 items")) (lit "17 items").
Proof.
  split; apply C45_fitting_message_verbatim; try (vm_compute; intuition congruence); simpl; intuition discriminate.
Qed.

(** ** C46: longer messages *)
(** exactly what happens at the boundary *)
Theorem C46_boundary_length : forall max fmt t,
  (0 < max <= INT_MAX)%Z -> Z.of_nat (length t) = max -> ~ In NUL t ->
  logged max fmt (Some t) (firstn (length t - 1) t).
Proof.
  intros max fmt t M L N c. rewrite capturef_ok by lia. destruct (Z.ltb_spec max (Z.of_nat (length t))); [lia|].
  replace (Z.to_nat (max - 1)) with (length t - 1) by lia.
  rewrite (proj1 (c_str_id (firstn _ t))); [reflexivity|]. intro K. apply N. eapply firstn_In; eauto.
Qed.
Print Assumptions C46_boundary_length.

(** ... which refutes the property: with exactly max characters the last one is silently dropped. *)
Theorem C46_refuted : exists fmt t out, logged MaxMessageSize_default fmt (Some t) out /\
  Z.of_nat (length t) = MaxMessageSize_default /\ ~ In NUL t /\ out <> t /\
  ~ contains (lit "[...truncated...]") out.
Proof.
  exists (lit "%s"), (rep (Z.to_nat MaxMessageSize_default) "x"), (rep (Z.to_nat (MaxMessageSize_default - 1)) "x").
  assert (P : (0 < MaxMessageSize_default <= INT_MAX)%Z) by (unfold MaxMessageSize_default, INT_MAX; lia).
  revert P. generalize MaxMessageSize_default. intros max P.
  assert (N : forall n c, In c (rep n "x") -> c = "x"%char) by (intros n c I; now apply repeat_spec in I).
  assert (L : forall n, length (rep n "x") = n) by (intro; apply repeat_length).
  split; [|split; [|split; [|split]]].
  - assert (E : Z.of_nat (length (rep (Z.to_nat max) "x")) = max) by (rewrite L; lia).
    replace (rep (Z.to_nat (max - 1)) "x") with
      (firstn (length (rep (Z.to_nat max) "x") - 1) (rep (Z.to_nat max) "x")).
    + apply C46_boundary_length; auto. intro I. apply N in I. discriminate.
    + rewrite L. replace (Z.to_nat max) with (Z.to_nat (max - 1) + 1) by lia.
      unfold rep. rewrite repeat_app, Nat.add_sub.
      rewrite <- (repeat_length "x"%char (Z.to_nat (max - 1))) at 1. apply firstn_exact.
  - rewrite L. lia.
  - intro I. apply N in I. discriminate.
  - intro E. apply (f_equal (@length ascii)) in E. rewrite !L in E. lia.
  - intros (a & b & E). assert (I : In "["%char (rep (Z.to_nat (max - 1)) "x")).
    { rewrite E. apply in_or_app. right. simpl. auto. }
    apply N in I. discriminate.
Qed.
Print Assumptions C46_refuted.

(** At every other length the property holds: the text is kept if shorter than the limit, and otherwise
    cut to its first max - 1 characters followed by the announcement. *)
Theorem C46_cut_is_announced_partial : forall max fmt t,
  (0 < max <= INT_MAX)%Z -> (Z.of_nat (length t) <= INT_MAX)%Z -> ~ In NUL t ->
  Z.of_nat (length t) <> max ->
  ((Z.of_nat (length t) < max)%Z -> logged max fmt (Some t) t) /\
  ((max < Z.of_nat (length t))%Z ->
     logged max fmt (Some t) (firstn (Z.to_nat (max - 1)) t ++ lit "[...truncated...]")).
Proof.
  intros max fmt t M I N D. split; [intro; now apply C45_fitting_message_verbatim|].
  intros L c. rewrite capturef_ok by lia. destruct (Z.ltb_spec max (Z.of_nat (length t))); [|lia].
  rewrite (proj1 (c_str_id (firstn _ t))); [reflexivity|]. intro K. apply N. eapply firstn_In; eauto.
Qed.
Print Assumptions C46_cut_is_announced_partial.
(** As g3log.hpp:92-94 documents it: nothing configured, the limit is 2 KB. *)
Theorem C46_two_kilobytes_partial : forall fmt t, (Z.of_nat (length t) <= INT_MAX)%Z -> ~ In NUL t ->
  ((length t <= 2047)%nat -> logged MaxMessageSize_default fmt (Some t) t) /\
  (length t = (2047 + 1)%nat -> logged MaxMessageSize_default fmt (Some t) (firstn 2047 t)) /\
  ((2047 + 1 < length t)%nat -> logged MaxMessageSize_default fmt (Some t) (firstn 2047 t ++ lit "[...truncated...]")).
Proof.
  intros fmt t I N. assert (M : (0 < MaxMessageSize_default <= INT_MAX)%Z) by (unfold MaxMessageSize_default, INT_MAX; lia).
  assert (E : Z.of_nat 2047 = (MaxMessageSize_default - 1)%Z) by reflexivity.
  assert (E2 : 2047%nat = Z.to_nat (MaxMessageSize_default - 1)) by (rewrite <- E; symmetry; apply Nat2Z.id).
  revert E E2. generalize 2047%nat as k. intros k E E2. split; [|split]; intro L.
  - apply C45_fitting_message_verbatim; auto. lia.
  - replace k with (length t - 1)%nat by lia. apply C46_boundary_length; auto. lia.
  - rewrite E2. apply C46_cut_is_announced_partial; auto; lia.
Qed.
Print Assumptions C46_two_kilobytes_partial.
Example C46_two_kilobytes_ex : (2047 + 1 < length (rep 3000 "x"))%nat /\ (Z.of_nat (length (rep 3000 "x")) <= INT_MAX)%Z /\ ~ In NUL (rep 3000 "x").
Proof.
  assert (L : length (rep 3000 "x") = 3000%nat) by apply repeat_length. rewrite L. split; [apply Nat.ltb_lt; vm_compute; reflexivity|]. split; [apply Z.leb_le; vm_compute; reflexivity|].
  intro H. apply repeat_spec in H. discriminate.
Qed.

(** the logged text never exceeds the limit plus the announcement, whatever the format expands to *)
Theorem C46_bounded : forall max fmt t,
  (0 < max <= INT_MAX)%Z -> (Z.of_nat (length t) <= INT_MAX)%Z ->
  exists out, logged max fmt (Some t) out /\ (Z.of_nat (length out) <= max - 1 + 17)%Z.
Proof.
  intros max fmt t M I. eexists. split; [intro c; apply capturef_ok; lia|].
  assert (length (c_str (firstn (Z.to_nat (max - 1)) t)) <= Z.to_nat (max - 1)).
  { etransitivity; [apply c_str_length|]. apply firstn_le_length. }
  destruct (max <? Z.of_nat (length t))%Z; rewrite ?app_length; cbn [kTruncatedWarningText lit list_ascii_of_string length]; lia.
Qed.
Print Assumptions C46_bounded.

Example C46_ex : logged 6 (lit "%s") (Some (lit "abcdefgh")) (lit "abcde[...truncated...]") /\
  logged 8 (lit "%s") (Some (lit "abcdefgh")) (lit "abcdefg").
Proof. split; intro c; reflexivity. Qed.

(** ** C47: streamed text *)
(** False for text with a NUL byte: the rest is lost. *)
Theorem C47_refuted : exists c t m, end_LogCapture false 0 0 (stream c t) = Some (ToLogger m) /\
  c_stream c = [] /\ t = lit "key=" ++ [NUL] ++ lit "value" /\ _message m = lit "key=".
Proof.
  exists (INTERNAL_LOG_MESSAGE (lit "/a/b.cpp") 1 (lit "f") INFO []).
  eexists _, _. split; [reflexivity|]. split; [reflexivity|]. split; reflexivity.
Qed.
Print Assumptions C47_refuted.

(** Otherwise the text arrives byte for byte, also in the copies made for the sinks. *)
Theorem C47_text_arrives_partial : forall full now tid c d,
  c_stream c = [] -> forall t, ~ In NUL t ->
  end_LogCapture full now tid (stream c t) = Some d ->
  let m := match d with ToLogger m => m | ToFatal _ m _ => m end in
  _message m = t /\ forall left, _message (fst (moveMsg left (copyMsg m))) = t.
Proof.
  intros full now tid c d Z t N E. unfold end_LogCapture, stream in E. rewrite Z in E. cbn [c_stream app] in E.
  apply saveMessage_fields in E. destruct E as (M & _). rewrite c_str_idem, (proj1 (c_str_id t) N) in M.
  destruct d; simpl; auto.
Qed.
Print Assumptions C47_text_arrives_partial.

(** what exactly arrives, for every byte string: the part before the first NUL *)
Theorem C47_text_up_to_first_nul : forall full now tid c d t,
  c_stream c = [] -> end_LogCapture full now tid (stream c t) = Some d ->
  let m := match d with ToLogger m => m | ToFatal _ m _ => m end in
  exists rest, t = _message m ++ rest /\ ~ In NUL (_message m) /\ (rest = [] \/ exists r, rest = NUL :: r).
Proof.
  intros full now tid c d t Z E m. unfold end_LogCapture, stream in E. rewrite Z in E. cbn [c_stream app] in E.
  apply saveMessage_fields in E. destruct E as (M & _). rewrite c_str_idem in M. fold m in M. rewrite M.
  destruct (c_str_prefix t) as (r & Er & D). exists r. split; [assumption|]. split; [apply c_str_no_nul|assumption].
Qed.
Print Assumptions C47_text_up_to_first_nul.

Definition ex_cap := INTERNAL_LOG_MESSAGE (lit "/src/main.cpp") 42 (lit "main") WARNING [].
Example C47_ex : exists m, end_LogCapture false 7 8 (stream ex_cap (lit "x = " ++ [ascii_of_nat 200; NL])) = Some (ToLogger m) /\
  c_stream ex_cap = [] /\ ~ In NUL (lit "x = " ++ [ascii_of_nat 200; NL]) /\ length (_message m) = 6.
Proof.
  eexists. split; [reflexivity|]. split; [reflexivity|]. split; [|reflexivity].
  vm_compute. intuition discriminate.
Qed.

(** ** C48: failing conversions *)
Theorem C48_failure_is_reported : forall max fmt c, (0 <= max)%Z -> ~ In NUL fmt ->
  exists out, capturef max c fmt None = CapOk (stream c out) /\
    contains (lit "Failure to successfully parse the message") out /\ contains (dq ++ fmt ++ dq) out.
Proof.
  intros max fmt c M N. unfold capturef. destruct (Z.ltb_spec max 0); [lia|]. cbn [vsnprintf].
  change (-1 <? 0)%Z with true. cbn iota beta. rewrite (proj1 (c_str_id fmt) N).
  eexists. split; [|split].
  - unfold stream. cbn [c_stream c_stack_trace c_file c_line c_function c_level c_expression c_fatal_signal].
    rewrite <- app_assoc. reflexivity.
  - exists ([NL; TAB] ++ lit "ERROR LOG MSG NOTIFICATION: "). eexists. reflexivity.
  - apply contains_later. exists [], nl. now rewrite <- !app_assoc.
Qed.
Print Assumptions C48_failure_is_reported.

(** an expansion too long for vsnprintf to count is such a failure, too *)
Theorem C48_overlong_is_a_failure : forall max fmt c t, (0 <= max)%Z -> (INT_MAX < Z.of_nat (length t))%Z ->
  capturef max c fmt (Some t) = capturef max c fmt None.
Proof.
  intros max fmt c t M L. unfold capturef. cbn [vsnprintf].
  destruct (Z.ltb_spec INT_MAX (Z.of_nat (length t))); [reflexivity|lia].
Qed.
Print Assumptions C48_overlong_is_a_failure.

(** and the entry is emitted in any case *)
Theorem C48_entry_is_still_emitted : forall full now tid max c fmt res c',
  (size (c_file c) < npos)%N -> capturef max c fmt res = CapOk c' ->
  exists d, end_LogCapture full now tid c' = Some d.
Proof.
  intros full now tid max c fmt res c' B E.
  destruct (capturef_stream _ _ _ _ _ E) as (out & ->). unfold end_LogCapture, saveMessage.
  assert (B' : (size (c_str (c_file c)) < npos)%N).
  { unfold size in *. pose proof (c_str_length (c_file c)). lia. }
  cbn [stream c_file c_stream c_line c_function c_level c_expression c_fatal_signal c_stack_trace].
  unfold new_LogMessage. destruct full; [eauto|].
  destruct (splitFileName_spec _ B') as (name & -> & _). eauto.
Qed.
Print Assumptions C48_entry_is_still_emitted.

Example C48_ex : capturef 2048 ex_cap (lit "%ls") None =
  CapOk (stream ex_cap ([NL; TAB] ++ lit "ERROR LOG MSG NOTIFICATION: Failure to successfully parse the message" ++
                        [DQ] ++ lit "%ls" ++ [DQ; NL])) /\ (size (c_file ex_cap) < npos)%N.
Proof. split; vm_compute; reflexivity. Qed.

(** ** C49: location, level and text *)
Theorem C49_message_carries_its_statement : forall now tid file line fn lv dump t d,
  ~ In NUL file -> ~ In NUL fn -> ~ In NUL t -> ~ In NUL (text lv) -> ~ In NUL dump ->
  (size file < npos)%N ->
  end_LogCapture false now tid (stream (INTERNAL_LOG_MESSAGE file line fn lv dump) t) = Some d ->
  exists m, last_component file (_file m) /\ _file_path m = file /\ _line m = line /\ _function m = fn /\
    _level m = lv /\ _message m = t /\ _timestamp m = now /\ _call_thread_id m = tid /\ _expression m = [] /\
    ((value lv < 1000)%Z -> d = ToLogger m) /\
    ((1000 <= value lv)%Z ->
       d = ToFatal ([NL] ++ lit "*******" ++ tab ++ lit "STACKDUMP *******" ++ nl ++ dump) m SIGABRT).
Proof.
  intros now tid file line fn lv dump t d NF NN NT NL' ND B E.
  exists (match d with ToLogger m => m | ToFatal _ m _ => m end).
  unfold end_LogCapture, INTERNAL_LOG_MESSAGE in E. pose proof E as E0. apply saveMessage_fields in E.
  cbn [stream new_LogCapture c_stream c_file c_line c_function c_level c_expression c_fatal_signal c_stack_trace app] in E.
  rewrite (proj1 (c_str_id file) NF), (proj1 (c_str_id fn) NN), (proj1 (c_str_id t) NT) in E.
  rewrite (proj1 (c_str_id t) NT) in E.
  destruct E as (M & FP & FN & Li & Fu & Lv & Ts & Ti & Ex & D).
  rewrite (copyLevel_clean lv NL') in Lv.
  destruct (splitFileName_spec file B) as (name & S & C). rewrite S in FN. injection FN as FN.
  rewrite <- FN. repeat (split; [assumption|]). unfold wasFatal in D. change (value FATAL) with 1000%Z in D.
  destruct (Z.leb_spec 1000 (value lv)) as [G|G].
  - split; [lia|]. intros _. rewrite D at 1. f_equal. unfold wasFatal. change (value FATAL) with 1000%Z.
    destruct (Z.leb_spec 1000 (value lv)); [|lia].
    rewrite c_str_idem. apply c_str_id.
    intro I. apply in_app_or in I as [[I|[]]|I]; [discriminate|].
    repeat (apply in_app_or in I as [I|I]; [simpl in I; intuition discriminate|]). auto.
  - split; [intros _; exact D|lia].
Qed.
Print Assumptions C49_message_carries_its_statement.
(** what a sink that asks the message for its parts is told *)
Theorem C49_accessors : forall now tid file line fn lv dump t d,
  ~ In NUL file -> ~ In NUL fn -> ~ In NUL t -> ~ In NUL (text lv) -> ~ In NUL dump ->
  (size file < npos)%N ->
  end_LogCapture false now tid (stream (INTERNAL_LOG_MESSAGE file line fn lv dump) t) = Some d ->
  exists m, (d = ToLogger m \/ exists stack, d = ToFatal stack m SIGABRT) /\
    last_component file (msg_file m) /\ msg_file_path m = file /\ msg_function m = fn /\ msg_line m = to_string line /\
    msg_level m = text lv /\ msg_wasFatal m = (1000 <=? value lv)%Z.
Proof.
  intros now tid file line fn lv dump t d NF NN NT NL' ND B E.
  destruct (C49_message_carries_its_statement _ _ _ _ _ _ _ _ _ NF NN NT NL' ND B E) as [m [A1 [A2 [A3 [A4 [A5 [A6 [_ [_ [_ [A7 A8]]]]]]]]]]].
  exists m. split.
  - destruct (Z_lt_le_dec (value lv) 1000) as [L|L]; [left; exact (A7 L)|right; eexists; exact (A8 L)].
  - unfold msg_file, msg_file_path, msg_function, msg_line, msg_level, msg_wasFatal, wasFatal. rewrite A3, A5. change (value FATAL) with 1000%Z. auto 10.
Qed.
Print Assumptions C49_accessors.

(** CHECK carries its expression and is always fatal *)
Theorem C49_contract_message : forall now tid file line fn x dump t d,
  ~ In NUL file -> ~ In NUL fn -> ~ In NUL t -> ~ In NUL x -> (size file < npos)%N ->
  end_LogCapture false now tid (stream (INTERNAL_CONTRACT_MESSAGE file line fn x dump) t) = Some d ->
  exists m stack, d = ToFatal stack m SIGABRT /\
    last_component file (_file m) /\ _line m = line /\ _function m = fn /\
    _level m = mkLevel 2000 (lit "CONTRACT") /\ _message m = t /\ _expression m = x.
Proof.
  intros now tid file line fn x dump t d NF NN NT NX B E.
  exists (match d with ToLogger m => m | ToFatal _ m _ => m end).
  exists (match d with ToLogger m => [] | ToFatal s _ _ => s end).
  unfold end_LogCapture, INTERNAL_CONTRACT_MESSAGE in E. apply saveMessage_fields in E.
  cbn [stream new_LogCapture c_stream c_file c_line c_function c_level c_expression c_fatal_signal c_stack_trace app] in E.
  rewrite (proj1 (c_str_id file) NF), (proj1 (c_str_id fn) NN), (proj1 (c_str_id t) NT), (proj1 (c_str_id x) NX) in E.
  rewrite (proj1 (c_str_id t) NT) in E.
  destruct E as (M & FP & FN & Li & Fu & Lv & Ts & Ti & Ex & D).
  destruct (splitFileName_spec file B) as (name & S & C). rewrite S in FN. injection FN as FN.
  split; [|rewrite <- FN; repeat (split; [assumption|]); assumption].
  destruct d; [discriminate D|]. change (wasFatal CONTRACT) with true in D. cbn iota in D. now injection D as -> ->.
Qed.
Print Assumptions C49_contract_message.

Example C49_ex : exists m,
  end_LogCapture false 7 8 (stream (INTERNAL_LOG_MESSAGE (lit "/src/main.cpp") 42 (lit "main") WARNING []) (lit "careful"))
  = Some (ToLogger m) /\ _file m = lit "main.cpp" /\ _line m = 42%Z /\ text (_level m) = lit "WARNING".
Proof. eexists. repeat split. Qed.

(** ** C71: every configured limit is honoured *)
(** The limit is kept in an int and used as a buffer size: 0 makes the stream read a null pointer, 2^31
    makes the buffer allocation throw, and 2^32 + 10 silently means 10. *)
Theorem C71_refuted :
  (forall c fmt, capturef (setMaxMessageSize 0) c fmt (Some (lit "text")) = CapUB) /\
  (forall c fmt res, capturef (setMaxMessageSize 2147483648) c fmt res = CapThrow) /\
  setMaxMessageSize 4294967306 = 10%Z.
Proof. repeat split. Qed.
Print Assumptions C71_refuted.

(** Sizes from 1 to INT_MAX are honoured: no exception, no undefined behaviour, and nothing shorter is cut. *)
Theorem C71_int_sizes_are_honoured_partial : forall n, (0 < n)%N -> (Z.of_N n <= INT_MAX)%Z ->
  (forall c fmt res, exists out, capturef (setMaxMessageSize n) c fmt res = CapOk (stream c out)) /\
  (forall fmt t, (N.of_nat (length t) < n)%N -> ~ In NUL t -> logged (setMaxMessageSize n) fmt (Some t) t).
Proof.
  intros n P L. rewrite to_int_small by assumption. split.
  - intros c fmt [t|].
    + destruct (Z.ltb_spec INT_MAX (Z.of_nat (length t))) as [G|G].
      * rewrite C48_overlong_is_a_failure by lia.
        unfold capturef. destruct (Z.ltb_spec (Z.of_N n) 0); [lia|]. cbn. eexists. unfold stream. cbn.
        rewrite <- app_assoc. reflexivity.
      * eexists. apply capturef_ok; lia.
    + unfold capturef. destruct (Z.ltb_spec (Z.of_N n) 0); [lia|]. cbn. eexists. unfold stream. cbn.
      rewrite <- app_assoc. reflexivity.
  - intros fmt t B N. apply C45_fitting_message_verbatim; auto; lia.
Qed.
Print Assumptions C71_int_sizes_are_honoured_partial.

(** Every other size: the limit is the int that is equal to it modulo 2^32; if that is negative, every capturef throws. *)
Theorem C71_other_sizes_partial : forall n,
  (- INT_MAX - 1 <= setMaxMessageSize n <= INT_MAX)%Z /\
  (exists k, Z.of_N n = setMaxMessageSize n + k * 2 ^ 32)%Z /\
  (setMaxMessageSize n < 0 -> forall c fmt res, capturef (setMaxMessageSize n) c fmt res = CapThrow)%Z.
Proof.
  intro n. unfold setMaxMessageSize, to_int, INT_MAX. pose proof (N.mod_lt n 4294967296 ltac:(discriminate)) as L.
  pose proof (N.div_mod n 4294967296 ltac:(discriminate)) as D.
  set (r := (n mod 4294967296)%N) in *. set (q := (n / 4294967296)%N) in *. clearbody r q.
  split; [|split].
  - destruct (Z.leb_spec (Z.of_N r) 2147483647); lia.
  - destruct (Z.leb_spec (Z.of_N r) 2147483647); [exists (Z.of_N q) | exists (Z.of_N q + 1)%Z]; change (2 ^ 32)%Z with 4294967296%Z; lia.
  - intros NEG c fmt res. unfold capturef. destruct (Z.ltb_spec (if (Z.of_N r <=? 2147483647)%Z then Z.of_N r else (Z.of_N r - 4294967296)%Z) 0) as [_|G]; [reflexivity | exfalso].
    destruct (Z.leb_spec (Z.of_N r) 2147483647); lia.
Qed.
Print Assumptions C71_other_sizes_partial.

Example C71_ex_other : setMaxMessageSize 4294967295 = (-1)%Z /\ setMaxMessageSize 8589934600 = 8%Z.
Proof. split; reflexivity. Qed.
Example C71_ex : capturef (setMaxMessageSize 4) ex_cap (lit "%s") (Some (lit "abcdef")) =
  CapOk (stream ex_cap (lit "abc[...truncated...]")).
Proof. reflexivity. Qed.
