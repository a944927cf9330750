(** C27 - C32, C69: log levels.  Model: Model/Levels.v, specification: Spec/LevelsSpec.v. *)
From Coq Require Import Ascii String List ZArith NArith Bool Lia Sorted.
From Verif.Base Require Import Bytes.
From Verif.Model Require Import Levels.
From Verif.Spec Require Import LevelsSpec.
From Verif.Proofs Require Import BytesFacts LevelsFacts.
Import ListNotations.
Local Open Scope list_scope.
Local Open Scope Z_scope.

(** ** C27: a level is fatal exactly from FATAL's value upwards *)
Theorem C27_fatal_iff_value_at_least_FATAL : forall l,
  wasFatal l = true <-> 1000 <= value l.
Proof. intro l. unfold wasFatal. apply Z.leb_le. Qed.
Print Assumptions C27_fatal_iff_value_at_least_FATAL.

Theorem C27_standard_and_internal_levels :
  wasFatal G3LOG_DEBUG = false /\ wasFatal INFO = false /\ wasFatal WARNING = false /\
  wasFatal FATAL = true /\ wasFatal CONTRACT = true /\ wasFatal FATAL_SIGNAL = true /\
  wasFatal FATAL_EXCEPTION = true.
Proof. repeat split. Qed.
Print Assumptions C27_standard_and_internal_levels.
(** their values and names, as in loglevels.hpp:89-99, 136-138 *)
Theorem C27_values_and_names :
  map (fun l => (value l, text l)) [G3LOG_DEBUG; INFO; WARNING; FATAL; CONTRACT; FATAL_SIGNAL; FATAL_EXCEPTION] =
  [(100, lit "DEBUG"); (300, lit "INFO"); (500, lit "WARNING"); (1000, lit "FATAL");
   (2000, lit "CONTRACT"); (2001, lit "FATAL_SIGNAL"); (2002, lit "FATAL_EXCEPTION")].
Proof. reflexivity. Qed.
Print Assumptions C27_values_and_names.

Theorem C27_name_is_irrelevant : forall v n n', wasFatal (mkLevel v n) = wasFatal (mkLevel v n').
Proof. reflexivity. Qed.
Print Assumptions C27_name_is_irrelevant.

Example C27_ex : wasFatal (mkLevel 1001 (lit "MYFATAL")) = true /\ wasFatal (mkLevel 999 (lit "FATAL")) = false.
Proof. split; reflexivity. Qed.

(** ** C28: filtering follows the last setting of each level *)
Theorem C28_log_iff_last_setting_enabled : forall ops l,
  logs_registered (rev ops) ->
  (snd (logLevel (lrun ops) l) = true <-> verdict (rev ops) (value l) = Some true) /\
  getStatus (lrun ops) l = as_status (verdict (rev ops) (value l)).
Proof.
  intros ops l R. split; [|now apply getStatus_verdict].
  rewrite verdict_registered by assumption.
  destruct (verdict (rev ops) (value l)) as [[|]|]; split; congruence.
Qed.
Print Assumptions C28_log_iff_last_setting_enabled.

Definition MYINFO := mkLevel 501 (lit "MYINFO").
Definition ex_hist : list lop :=
  [OpAdd MYINFO false; OpLog MYINFO; OpDisable INFO; OpEnable MYINFO; OpSetHighest WARNING; OpDisable FATAL; OpLog INFO].

Example C28_ex_hypothesis : logs_registered (rev ex_hist).
Proof. simpl. repeat split; discriminate. Qed.
Example C28_ex_value :
  map (fun l => getStatus (lrun ex_hist) l) [G3LOG_DEBUG; INFO; WARNING; MYINFO; FATAL; mkLevel 7 []]
  = [Disabled; Disabled; Enabled; Enabled; Disabled; Absent].
Proof. reflexivity. Qed.

(** Without the hypothesis the claim is false: one LOG call at an unregistered level (here 700) is
    enough to make a later setHighest(WARNING) leave INFO enabled, although the most recent
    operation concerning INFO disabled it. *)
Theorem C28_refuted : exists ops l,
  verdict (rev ops) (value l) = Some false /\ snd (logLevel (lrun ops) l) = true.
Proof.
  exists [OpLog (mkLevel 700 (lit "CUSTOM")); OpSetHighest WARNING], INFO. split; reflexivity.
Qed.
Print Assumptions C28_refuted.

(** ** C29: setHighest splits the registered levels *)
Theorem C29_setHighest_splits : forall ops L l,
  logs_registered (rev ops) ->
  let before := lrun ops in
  let after := setHighest before L in
  (getStatus before L = Absent -> after = before) /\
  (getStatus before L <> Absent -> getStatus before l <> Absent ->
     getStatus after l = if value l <? value L then Disabled else Enabled) /\
  (getStatus before l = Absent -> getStatus after l = Absent).
Proof.
  intros ops L l R before after. destruct (run_linv ops R) as (S & C & _).
  assert (F := fun v => find_setHighest before L v C S). fold after in F.
  unfold getStatus. rewrite !value_copy. split; [|split].
  - intro H. unfold after, setHighest. rewrite value_copy.
    destruct (map_find before (value L)) as [e|]; auto. destruct (status e); discriminate.
  - rewrite F. destruct (map_find before (value L)) as [e|]; [|congruence].
    destruct (map_find before (value l)) as [e'|]; [|congruence]. intros _ _. simpl.
    rewrite Z.leb_antisym. destruct (value l <? value L); reflexivity.
  - rewrite F. destruct (map_find before (value l)) as [e'|].
    + destruct (status e'); discriminate.
    + destruct (map_find before (value L)); auto.
Qed.
Print Assumptions C29_setHighest_splits.

Example C29_ex : logs_registered (rev [OpAdd MYINFO false; OpDisable FATAL]) /\
  map (fun l => getStatus (setHighest (lrun [OpAdd MYINFO false; OpDisable FATAL]) WARNING) l)
      [G3LOG_DEBUG; INFO; WARNING; MYINFO; FATAL] = [Disabled; Disabled; Enabled; Enabled; Enabled].
Proof. split; [simpl; repeat split; discriminate|reflexivity]. Qed.

Theorem C29_refuted : exists ops L l,
  getStatus (lrun ops) L <> Absent /\ getStatus (lrun ops) l <> Absent /\
  value l < value L /\ getStatus (setHighest (lrun ops) L) l = Enabled.
Proof.
  exists [OpLog (mkLevel 700 (lit "CUSTOM"))], WARNING, INFO.
  repeat split; try discriminate.
Qed.
Print Assumptions C29_refuted.

(** ** C30: operations touch only what they name; reset restores the defaults *)
Theorem C30_set_frame : forall m l b k,
  (k <> value l -> map_find (set m l b) k = map_find m k) /\
  (map_find m k = None -> map_find (set m l b) k = None) /\
  (map_find m (value l) <> None -> option_map status (map_find (set m l b) (value l)) = Some b).
Proof.
  intros m l b k. rewrite !find_set, Z.eqb_refl. split; [|split]; intro H.
  - destruct (Z.eqb_spec k (value l)); [contradiction|reflexivity].
  - destruct (Z.eqb_spec k (value l)); rewrite H; reflexivity.
  - destruct (map_find m (value l)); [reflexivity|contradiction].
Qed.
Print Assumptions C30_set_frame.

Theorem C30_enable_disable_are_set : forall m l,
  enable m l = set m l true /\ disable m l = set m l false.
Proof. intros. unfold enable, disable. now rewrite !copy_set. Qed.
Print Assumptions C30_enable_disable_are_set.

Theorem C30_all_only_changes_status : forall m k,
  map_find (enableAll m) k = option_map (fun e => mkLL true (level e)) (map_find m k) /\
  map_find (disableAll m) k = option_map (fun e => mkLL false (level e)) (map_find m k) /\
  map fst (enableAll m) = map fst m /\ map fst (disableAll m) = map fst m.
Proof. intros m k. repeat split; try apply find_set_all; apply keys_set_all. Qed.
Print Assumptions C30_all_only_changes_status.

Theorem C30_add_frame : forall m l b k,
  (k <> value l -> map_find (addLogLevel m l b) k = map_find m k) /\
  map_find (addLogLevel m l b) (value l) = Some (mkLL b (mkLevel (value l) (c_str (text l)))).
Proof.
  intros m l b k. rewrite !find_add, Z.eqb_refl. split; [|reflexivity]. intro H.
  destruct (Z.eqb_spec k (value l)); [contradiction|reflexivity].
Qed.
Print Assumptions C30_add_frame.

Theorem C30_reset_restores_defaults : forall ops,
  map (fun kv => (fst kv, text (level (snd kv)), status (snd kv))) (lrun (ops ++ [OpReset])) =
  [(100, lit "DEBUG", true); (300, lit "INFO", true); (500, lit "WARNING", true); (1000, lit "FATAL", true)].
Proof. intro ops. unfold lrun. rewrite fold_left_app. reflexivity. Qed.
Print Assumptions C30_reset_restores_defaults.

(** the displayed names follow the last operation that named the level *)
Theorem C30_names_follow_last_naming : forall ops k e,
  Forall op_names_ok ops -> logs_registered (rev ops) ->
  map_find (lrun ops) k = Some e -> text (level e) = name_after (rev ops) k.
Proof. intros ops k e F R E. now apply (run_names ops F R k e). Qed.
Print Assumptions C30_names_follow_last_naming.

Example C30_ex : Forall op_names_ok ex_hist /\ logs_registered (rev ex_hist) /\
  option_map (fun e => text (level e)) (map_find (lrun ex_hist) 501) = Some (lit "MYINFO") /\
  getStatus (set (lrun []) (mkLevel 42 (lit "X")) true) (mkLevel 42 []) = Absent.
Proof.
  split; [|split; [apply C28_ex_hypothesis|split; reflexivity]].
  repeat constructor; simpl; vm_compute; intuition discriminate.
Qed.

(** ** C31: asking whether a level is enabled *)
(** At a registered level nothing changes, whatever the table. *)
Theorem C31_registered_query_is_pure : forall m l,
  getStatus m l <> Absent -> fst (logLevel m l) = m.
Proof.
  intros m l. unfold getStatus, logLevel, map_index. rewrite value_copy.
  destruct (map_find m (value l)); [reflexivity|congruence].
Qed.
Print Assumptions C31_registered_query_is_pure.

(** At an unregistered level the call logs nothing, but from then on the level counts as
    registered and disabled. *)
Theorem C31_unregistered_query_registers : forall m l,
  getStatus m l = Absent ->
  snd (logLevel m l) = false /\ getStatus (fst (logLevel m l)) l = Disabled.
Proof.
  intros m l. unfold getStatus, logLevel, map_index. rewrite !value_copy.
  destruct (map_find m (value l)) as [e|] eqn:E; [destruct (status e); discriminate|].
  intros _. simpl. rewrite find_put, Z.eqb_refl. auto.
Qed.
Print Assumptions C31_unregistered_query_registers.

Theorem C31_refuted : exists ops l, fst (logLevel (lrun ops) l) <> lrun ops /\
  getStatus (lrun ops) l = Absent /\ getStatus (fst (logLevel (lrun ops) l)) l = Disabled /\
  (* ... and a later enableAll now lets the level through *)
  snd (logLevel (enableAll (lrun ops)) l) = false /\
  snd (logLevel (enableAll (fst (logLevel (lrun ops) l))) l) = true.
Proof.
  exists [], (mkLevel 700 (lit "CUSTOM")). repeat split; discriminate.
Qed.
Print Assumptions C31_refuted.

Example C31_ex : getStatus (lrun []) INFO <> Absent /\ getStatus (lrun []) MYINFO = Absent.
Proof. split; [discriminate|reflexivity]. Qed.

(** ** C32: the listing *)
(** one line per registered level, ascending, whatever the history *)
Theorem C32_one_line_per_level_ascending : forall ops,
  let m := lrun ops in
  levels_to_string m =
    concat (map (fun kv => lit "name: " ++ text (level (snd kv)) ++ lit " level: " ++ to_string (fst kv)
                           ++ lit " status: " ++ lit (if status (snd kv) then "1" else "0") ++ [NL]) m)
  /\ StronglySorted Z.lt (map fst m)
  /\ (forall l, In (value l) (map fst m) <-> getStatus m l <> Absent).
Proof.
  intros ops m. split; [|split].
  - unfold levels_to_string. f_equal. apply map_ext. intros [k [[|] l]]; reflexivity.
  - exact (run_sorted ops).
  - intro l. change (map fst m) with (keys m). rewrite keys_find.
    unfold getStatus. rewrite value_copy. destruct (map_find m (value l)) as [e|].
    + destruct (status e); split; congruence.
    + tauto.
Qed.
Print Assumptions C32_one_line_per_level_ascending.
(** getAll() holds exactly the levels that are not absent, each with its status *)
Theorem C32_getAll : forall ops l b,
  (exists e, In (value l, e) (getAll (lrun ops)) /\ status e = b) <-> getStatus (lrun ops) l = (if b then Enabled else Disabled).
Proof.
  intros ops l b. unfold getAll, getStatus. rewrite value_copy. split.
  - intros [e [I <-]]. rewrite (find_In _ _ _ (run_sorted ops) I). destruct (status e); reflexivity.
  - destruct (map_find (lrun ops) (value l)) as [e|] eqn:E; [|destruct b; discriminate]. intro S. exists e.
    split; [apply map_find_In; exact E|]. destruct (status e), b; congruence.
Qed.
Print Assumptions C32_getAll.

Theorem C32_listing_determines_table : forall ops ops',
  names_single_line (lrun ops) -> names_single_line (lrun ops') ->
  levels_to_string (lrun ops) = levels_to_string (lrun ops') ->
  map (fun kv => (fst kv, text (level (snd kv)), status (snd kv))) (lrun ops) =
  map (fun kv => (fst kv, text (level (snd kv)), status (snd kv))) (lrun ops').
Proof. intros. now apply listing_inj. Qed.
Print Assumptions C32_listing_determines_table.

Example C32_ex : names_single_line (lrun ex_hist) /\
  levels_to_string (lrun []) =
  lit "name: DEBUG level: 100 status: 1
name: INFO level: 300 status: 1
name: WARNING level: 500 status: 1
name: FATAL level: 1000 status: 1
".
Proof.
  split; [|reflexivity].
  intros kv H. vm_compute in H.
  repeat (destruct H as [<-|H]; [vm_compute; intuition discriminate|]). contradiction.
Qed.

(** ** C69: custom fatal levels without registration *)
(** loglevels.hpp:84-87 promises that LOG(MYFATAL) works with dynamic levels enabled although
    addLogLevel was not called.  It does not: no unregistered level is ever let through. *)
Theorem C69_refuted : exists l, wasFatal l = true /\ snd (logLevel (lrun []) l) = false.
Proof. exists (mkLevel 1001 (lit "MYFATAL")). split; reflexivity. Qed.
Print Assumptions C69_refuted.

Theorem C69_registered_custom_fatal_is_logged_partial : forall ops l,
  wasFatal l = true -> snd (logLevel (lrun (ops ++ [OpAdd1 l])) l) = true.
Proof.
  intros ops l _. unfold lrun. rewrite fold_left_app. cbn [fold_left lstep].
  unfold logLevel, map_index, addLogLevel1. rewrite find_add, value_copy, Z.eqb_refl. reflexivity.
Qed.
Print Assumptions C69_registered_custom_fatal_is_logged_partial.

Example C69_ex : wasFatal (mkLevel 1001 (lit "MYFATAL")) = true.
Proof. reflexivity. Qed.
