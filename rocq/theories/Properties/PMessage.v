(** C39 - C44: messages and their texts.  Model: Model/Message.v, specification: Spec/MessageSpec.v. *)
From Coq Require Import Ascii String List ZArith NArith Bool Lia.
From Verif.Base Require Import Bytes.
From Verif.Model Require Import Levels TimeFmt Message.
From Verif.Spec Require Import TimeSpec MessageSpec.
From Verif.Proofs Require Import BytesFacts LevelsFacts TimeFacts MessageFacts.
Import ListNotations.
Local Open Scope list_scope.

(** ** C39: the short file name *)
(** (a std::string is always shorter than npos) *)
Theorem C39_short_name_is_last_component : forall path, (size path < npos)%N ->
  exists name, splitFileName path = Some name /\ last_component path name /\
    (forall other, last_component path other -> other = name).
Proof.
  intros path B. destruct (splitFileName_spec path B) as (name & E & L).
  exists name. split; [assumption|]. split; [assumption|]. intros. eapply last_component_unique; eauto.
Qed.
Print Assumptions C39_short_name_is_last_component.

(** the message constructor never throws and stores that component and the whole path *)
Theorem C39_message_file_names : forall now tid path line fn lv, (size path < npos)%N ->
  exists m, new_LogMessage false now tid path line fn lv = Some m /\
    last_component path (_file m) /\ _file_path m = path.
Proof.
  intros now tid path line fn lv B. destruct (splitFileName_spec path B) as (name & E & L).
  unfold new_LogMessage. rewrite E. eexists. split; [reflexivity|]. auto.
Qed.
Print Assumptions C39_message_file_names.

Example C39_ex : splitFileName (lit "/home/x/(src\main.cpp") = Some (lit "main.cpp") /\
  splitFileName (lit "main.cpp") = Some (lit "main.cpp") /\ splitFileName (lit "dir/") = Some [] /\
  (size (lit "/home/x/(src\main.cpp") < npos)%N.
Proof. repeat split; vm_compute; reflexivity. Qed.

(** ** C40: a normal entry *)
(** Whatever the message holds: as long as the time stamp can be rendered (C37), the text of a
    non-fatal message is exactly the documented line. *)
Theorem C40_normal_entry : forall e m ts,
  (value (_level m) < 1000)%Z ->
  timestamp e m default_timestamp_format = FOk ts ->
  snd (toString e m) =
  FOk (entry (details ts (text (_level m)) (_file m) (_function m) (to_string (_line m))) (_message m)).
Proof.
  intros e m ts V T. unfold toString.
  rewrite (toString_rendering e m DefaultDetails ts
    (details ts (text (_level m)) (_file m) (_function m) (to_string (_line m)))); auto.
  - unfold rendering. destruct (Z.ltb_spec (value (_level m)) 1000); [reflexivity|lia].
  - simpl. unfold DefaultLogDetailsToString. rewrite timestamp_override, T. reflexivity.
Qed.
Print Assumptions C40_normal_entry.

(** All the parts can be read back from the line. *)
Theorem C40_entry_can_be_read_back : forall e m ts m' ts' out,
  (value (_level m) < 1000)%Z -> (value (_level m') < 1000)%Z ->
  timestamp e m default_timestamp_format = FOk ts -> length ts = 26 ->
  timestamp e m' default_timestamp_format = FOk ts' -> length ts' = 26 ->
  ~ contains (lit " [") (text (_level m)) -> ~ contains (lit " [") (text (_level m')) ->
  ~ contains (lit "->") (_file m) -> ~ contains (lit "->") (_file m') ->
  ~ In TAB (_function m) -> ~ In TAB (_function m') ->
  snd (toString e m) = FOk out -> snd (toString e m') = FOk out ->
  ts = ts' /\ text (_level m) = text (_level m') /\ _file m = _file m' /\ _function m = _function m' /\
  _line m = _line m' /\ _message m = _message m'.
Proof.
  intros e m ts m' ts' out V V' T L T' L' A A' B B' C C' O O'.
  rewrite (C40_normal_entry e m ts V T) in O. rewrite (C40_normal_entry e m' ts' V' T') in O'.
  rewrite <- O' in O. injection O as E. unfold entry in E.
  apply details_inj in E as (-> & -> & -> & -> & -> & E); auto; [|lia].
  apply app_inv_tail in E. auto 10.
Qed.
Print Assumptions C40_entry_can_be_read_back.

(** The time stamp condition of the two theorems holds whenever the wall-clock time lies at or after
    the epoch and in a year of four digits. *)
Theorem C40_timestamp_available : forall e m,
  let t := (e_sys_now e + (_timestamp m - e_hrs_now e))%Z in
  (0 <= t)%Z -> tm_ok (e_local e (t / 10^9)%Z) ->
  exists ts, timestamp e m default_timestamp_format = FOk ts /\
    ts = stamp (e_local e (t / 10^9)%Z) (us_of t) /\ length ts = 26.
Proof.
  intros e m t P O. unfold timestamp.
  replace (to_system_time 1 (e_sys_now e) (e_hrs_now e) (_timestamp m)) with t
    by (unfold to_system_time, t; rewrite Z.quot_1_r; lia).
  change (10^9)%Z with 1000000000%Z in *. rewrite <- Z.quot_div_nonneg in * by lia.
  eexists. split; [now apply default_timestamp|]. split; [reflexivity|]. apply stamp_length; auto using us_bound.
Qed.
Print Assumptions C40_timestamp_available.

Definition ex_env : env :=
  mkEnv true (fun _ _ => []) (fun s => mkTm (s mod 60) ((s / 60) mod 60) ((s / 3600) mod 24) 4 2 121)
        1614862345007008009 5000000 (fun t => to_string t) (fun _ m => FOk (_function m)).
Definition ex_msg (lv : LEVELS) : LogMessage :=
  mkMsg DefaultDetails 5001000 77 (lit "main.cpp") (lit "/src/main.cpp") 42 (lit "operator[]") lv [] (lit "hello ]	world").
Example C40_ex :
  snd (toString ex_env (ex_msg INFO)) =
    FOk (lit "2021/03/04 12:52:25 007009	INFO [main.cpp->operator[]:42]	hello ]	world" ++ [NL]) /\
  (value INFO < 1000)%Z /\
  timestamp ex_env (ex_msg INFO) default_timestamp_format = FOk (lit "2021/03/04 12:52:25 007009") /\
  ~ In TAB (_function (ex_msg INFO)) /\ ~ contains (lit "->") (_file (ex_msg INFO)).
Proof.
  split; [vm_compute; reflexivity|]. split; [reflexivity|]. split; [vm_compute; reflexivity|]. split.
  - simpl. intuition discriminate.
  - intros (a & b & H). change (_file (ex_msg INFO)) with (lit "main.cpp") in H.
    assert (I : In ">"%char (lit "main.cpp")) by (rewrite H; apply in_or_app; simpl; auto).
    simpl in I. intuition discriminate.
Qed.

(** ** C41: every level has its layout *)
Theorem C41_layout_by_level_value : forall e m f ts d,
  timestamp e m default_timestamp_format = FOk ts ->
  call_details e f (overrideLogDetailsFunc m f) = FOk d ->
  snd (toString_with e m f) = FOk (rendering (value (_level m)) ts d (_expression m) (_message m)).
Proof. exact toString_rendering. Qed.
Print Assumptions C41_layout_by_level_value.

(** each layout holds the logged text, completely *)
Theorem C41_text_is_complete : forall v ts d x m,
  contains m (rendering v ts d x m) /\
  (forall m', rendering v ts d x m' = rendering v ts d x m -> m' = m).
Proof.
  intros v ts d x m. unfold rendering.
  destruct (v <? 1000)%Z; [|destruct (v =? 1000)%Z; [|destruct (v =? 2000)%Z; [|destruct (v =? 2001)%Z; [|destruct (v =? 2002)%Z]]]];
  unfold entry, log_fatal_entry, check_entry, signal_entry, exception_entry, custom_fatal_entry;
  (split;
   [ repeat first [apply contains_here | apply contains_later]
   | intros m' E; repeat (apply app_inv_head in E); now apply app_inv_tail in E ]).
Qed.
Print Assumptions C41_text_is_complete.

(** the layouts of the five fatal kinds and the normal one are told apart by their fixed texts *)
Theorem C41_fatal_layouts_are_marked : forall v ts d x m, (1000 <= v)%Z ->
  contains (lit "*****") (rendering v ts d x m).
Proof.
  intros v ts d x m V. unfold rendering. destruct (Z.ltb_spec v 1000); [lia|].
  destruct (v =? 1000)%Z; [|destruct (v =? 2000)%Z; [|destruct (v =? 2001)%Z; [|destruct (v =? 2002)%Z]]];
  unfold entry, log_fatal_entry, check_entry, signal_entry, exception_entry, custom_fatal_entry.
  - apply contains_later, contains_later. eexists [], _. reflexivity.
  - apply contains_later, contains_later. eexists [], _. reflexivity.
  - apply contains_later, contains_later. eexists [], _. reflexivity.
  - apply contains_later, contains_later. eexists [], _. reflexivity.
  - apply contains_later, contains_later. eexists [], _. reflexivity.
Qed.
Print Assumptions C41_fatal_layouts_are_marked.

Example C41_ex :
  snd (toString ex_env (ex_msg CONTRACT)) =
    FOk (check_entry (lit "2021/03/04 12:52:25 007009	CONTRACT [main.cpp->operator[]:42]	") [] (lit "hello ]	world")) /\
  snd (toString ex_env (ex_msg FATAL_SIGNAL)) =
    FOk (signal_entry (lit "2021/03/04 12:52:25 007009") (lit "hello ]	world")) /\
  snd (toString ex_env (ex_msg (mkLevel 1001 (lit "MYFATAL")))) =
    FOk (custom_fatal_entry (lit "2021/03/04 12:52:25 007009	MYFATAL [main.cpp->operator[]:42]	") (lit "hello ]	world")).
Proof. repeat split; vm_compute; reflexivity. Qed.

(** ** C42: custom details formatters *)
(** toString(f) uses f, for every layout that shows details, ... *)
Theorem C42_toString_with_formatter_partial : forall e m n ts d,
  timestamp e m default_timestamp_format = FOk ts ->
  e_user e n (overrideLogDetailsFunc m (UserDetails n)) = FOk d ->
  snd (toString_with e m (UserDetails n)) = FOk (rendering (value (_level m)) ts d (_expression m) (_message m)).
Proof. intros. now apply toString_rendering. Qed.
Print Assumptions C42_toString_with_formatter_partial.

(** ... and toString(FullLogDetailsToString) adds the thread. *)
Theorem C42_full_details : forall e m ts,
  (value (_level m) < 1000)%Z ->
  timestamp e m default_timestamp_format = FOk ts ->
  snd (toString_with e m FullDetails) =
  FOk (entry (full_details ts (text (_level m)) (e_thread e (_call_thread_id m)) (_file m) (_function m)
                (to_string (_line m))) (_message m)).
Proof.
  intros e m ts V T.
  rewrite (toString_rendering e m FullDetails ts
    (full_details ts (text (_level m)) (e_thread e (_call_thread_id m)) (_file m) (_function m) (to_string (_line m)))); auto.
  - unfold rendering. destruct (Z.ltb_spec (value (_level m)) 1000); [reflexivity|lia].
  - simpl. unfold FullLogDetailsToString. rewrite timestamp_override, T. reflexivity.
Qed.
Print Assumptions C42_full_details.

(** The second half is false: the formatter installed by overrideLogDetailsFunc is forgotten by
    toString(), which installs its default argument first. *)
Theorem C42_override_has_no_effect_on_toString : forall e m f,
  snd (toString e (overrideLogDetailsFunc m f)) = snd (toString e m).
Proof. reflexivity. Qed.
Print Assumptions C42_override_has_no_effect_on_toString.

Theorem C42_refuted : exists e m f,
  snd (toString e (overrideLogDetailsFunc m f)) <> snd (toString_with e m f) /\
  snd (toString e (overrideLogDetailsFunc m f)) = snd (toString_with e m DefaultDetails).
Proof. exists ex_env, (ex_msg INFO), FullDetails. split; [vm_compute; discriminate|reflexivity]. Qed.
Print Assumptions C42_refuted.

(** Only the static helpers called directly see it, until the next toString. *)
Theorem C42_override_seen_by_static_helper : forall e m f d,
  call_details e f (overrideLogDetailsFunc m f) = FOk d ->
  normalToString e (overrideLogDetailsFunc m f) = FOk (entry d (_message m)) /\
  _logDetailsToStringFunc (fst (toString e (overrideLogDetailsFunc m f))) = DefaultDetails.
Proof. intros e m f d D. split; [|reflexivity]. unfold normalToString. simpl. now rewrite D. Qed.
Print Assumptions C42_override_seen_by_static_helper.

Example C42_ex : e_user ex_env 0 (overrideLogDetailsFunc (ex_msg INFO) (UserDetails 0)) = FOk (lit "operator[]") /\
  snd (toString_with ex_env (ex_msg INFO) (UserDetails 0)) = FOk (lit "operator[]hello ]	world" ++ [NL]).
Proof. split; vm_compute; reflexivity. Qed.

(** ** C43: copies *)
(** For every message a client can get hold of ([built]), a copy or a moved-to message is equal to the
    source in every field. *)
Theorem C43_copy_and_move_preserve : forall m left, built m ->
  copyMsg m = m /\ fst (moveMsg left m) = m /\ copyFatal (new_FatalMessage m 6) = new_FatalMessage m 6 /\
  (forall sig, f_msg (new_FatalMessage m sig) = m /\ copyToLogMessage (new_FatalMessage m sig) = m /\
               _signal_id (copyFatal (new_FatalMessage m sig)) = sig).
Proof.
  intros m left B. apply built_clean in B. pose proof (copyMsg_clean m B) as C.
  split; [assumption|]. split; [exact C|].
  unfold copyFatal, new_FatalMessage, copyToLogMessage. simpl. rewrite !C. auto.
Qed.
Print Assumptions C43_copy_and_move_preserve.

(** Assignment forgets the full path and the formatter: *)
Theorem C43_refuted : exists a b, built a /\ built b /\ assignMsg a b <> b /\
  _file_path (assignMsg a b) = lit "/a/x.cpp" /\ _file_path b = lit "/b/x.cpp".
Proof.
  exists (mkMsg DefaultDetails 0 0 (lit "x.cpp") (lit "/a/x.cpp") 1 (lit "f") INFO [] []).
  exists (mkMsg DefaultDetails 0 0 (lit "x.cpp") (lit "/b/x.cpp") 1 (lit "f") INFO [] []).
  split; [|split; [|split; [discriminate|split; reflexivity]]].
  - apply (B_new false 0 0 (lit "/a/x.cpp") 1 (lit "f") INFO). reflexivity.
  - apply (B_new false 0 0 (lit "/b/x.cpp") 1 (lit "f") INFO). reflexivity.
Qed.
Print Assumptions C43_refuted.

(** ... but everything else is taken over and both library renderings agree. *)
Theorem C43_assignment_keeps_the_rest_partial : forall a b, built b ->
  let r := assignMsg a b in
  _timestamp r = _timestamp b /\ _call_thread_id r = _call_thread_id b /\ _file r = _file b /\
  _line r = _line b /\ _function r = _function b /\ _level r = _level b /\ _expression r = _expression b /\
  _message r = _message b /\ _file_path r = _file_path a /\
  (forall e, snd (toString e r) = snd (toString e b) /\
             snd (toString_with e r FullDetails) = snd (toString_with e b FullDetails)).
Proof.
  intros a b B r. apply built_clean in B. unfold level_clean in B. subst r. unfold assignMsg.
  rewrite (copyMsg_clean b B). do 9 (split; [reflexivity|]). intro e. split; reflexivity.
Qed.
Print Assumptions C43_assignment_keeps_the_rest_partial.

Example C43_ex : exists m, built m /\ _message m = lit "text" /\ _expression m = lit "a > b".
Proof.
  eexists. split; [apply B_write, B_expr; apply (B_new false 1 2 (lit "/p/q.cpp") 3 (lit "fn") WARNING); reflexivity|].
  split; reflexivity.
Qed.

(** ** C44: line numbers *)
Theorem C44_line_reads_back : forall m, read_int (msg_line m) = Some (_line m).
Proof. intro m. apply read_int_to_string. Qed.
Print Assumptions C44_line_reads_back.

Theorem C44_lines_differ : forall m m', _line m <> _line m' -> msg_line m <> msg_line m'.
Proof. intros m m' H E. apply H. now apply to_string_inj. Qed.
Print Assumptions C44_lines_differ.

Example C44_ex : msg_line (ex_msg INFO) = lit "42" /\ read_int (lit "-17") = Some (-17)%Z /\ read_int (lit "4x") = None.
Proof. repeat split; vm_compute; reflexivity. Qed.
