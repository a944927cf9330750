(** C140: the report of a fatal event on Windows.  Model: Model/WinReport.v, specification: Spec/WinReportSpec.v. *)
From Coq Require Import Ascii String List ZArith NArith Bool Lia.
From Verif.Base Require Import Bytes.
From Verif.Model Require Import Levels TimeFmt Message Capture Global EndToEnd Windows CrashText WinReport.
From Verif.Spec Require Import TimeSpec MessageSpec EndToEndSpec WindowsSpec WinReportSpec.
From Verif.Proofs Require Import BytesFacts TimeFacts MessageFacts CaptureFacts WindowsFacts EndToEndFacts.
From Verif.Properties Require Import PWindows PCrashText.
From Verif.Properties Require PEndToEnd.
Import ListNotations.
Local Open Scope list_scope.
Local Open Scope Z_scope.

(** The number of the event survives its way through an int. *)
Theorem C140_number : forall z, 0 <= z < 2 ^ 32 -> to_SignalType (to_int (Z.to_N z)) = z.
Proof.
  intros z H. change (2 ^ 32) with 4294967296 in H. unfold to_SignalType, to_int, INT_MAX. rewrite N2Z.inj_mod, Z2N.id by lia.
  change (Z.of_N 4294967296) with 4294967296. rewrite (Z.mod_small z) by lia.
  destruct (Z.leb_spec z 2147483647).
  - apply Z.mod_small. lia.
  - replace (z - 4294967296) with (z + (-1) * 4294967296) by lia. rewrite Z.mod_add by lia. apply Z.mod_small. lia.
Qed.
Print Assumptions C140_number.

Lemma levelEq_exception : forall lv, levelEq lv FATAL_EXCEPTION = true <-> is_exception lv.
Proof.
  intros lv. unfold levelEq, is_exception. rewrite andb_true_iff, Z.eqb_eq. change (value FATAL_EXCEPTION) with 2002.
  split; intros [A B]; (split; [exact A|]); [now apply str_eqb_eq in B|apply str_eqb_eq; exact B].
Qed.
Lemma name_spec : forall lv id, event_name lv id (exitReasonName_win lv id).
Proof.
  intros lv id. unfold event_name. destruct (levelEq lv FATAL_EXCEPTION) eqn:L.
  - left. split; [now apply levelEq_exception|]. unfold exitReasonName_win. rewrite L.
    destruct (exception_cases id) as [(v & J & E & _)|(J & E & _)]; rewrite E; auto.
  - right. split; [rewrite <- levelEq_exception; congruence|].
    destruct (signal_cases lv id L) as [(v & J & E)|(J & E)]; rewrite E; auto.
Qed.

(** Whatever the fatal event: every sink gets the report with time, text, stack dump and the name of the event, and the process then ends with that number. *)
Theorem C140_report : forall e warn st, plain e st -> 1000 <= value (st_level st) -> 0 <= st_signal st < 2 ^ 32 ->
  exists m l name, fatal_win warn st = Some (m, (st_level st, st_signal st)) /\ event_name (st_level st) (st_signal st) name /\
    snd (toString e m) = FOk l /\ reported e warn st name l.
Proof.
  intros e warn st P V S. unfold fatal_win, fatal_of.
  set (st' := mkStmt _ _ _ _ _ _ _ _ _ _).
  destruct (execute_spec e st' P) as (m & name & C & DF & F & Li & Fu & Lv & Me & Ts & Ex & X). rewrite X.
  cbn [st' st_level st_signal st_file st_line st_function st_texts st_now st_expression] in *.
  destruct (Z.ltb_spec (value (st_level st)) 1000); [lia|].
  assert (CL : copyLevel (st_level st) = st_level st) by (apply copy_plain; apply P).
  rewrite C140_number by exact S.
  unfold new_FatalMessage, bgFatal_message_win, reason_win. cbn [f_msg _signal_id copyMsg write_append _level]. rewrite Lv, CL.
  eexists. eexists. exists (exitReasonName_win (st_level st) (st_signal st)). split; [reflexivity|]. split; [apply name_spec|].
  destruct P as (_ & _ & _ & _ & _ & _ & _ & PW & O).
  match goal with |- snd (toString e ?x) = _ /\ _ => set (mm := x) end.
  assert (T : timestamp e mm default_timestamp_format = FOk (stamp (e_local e (wall e st / 10^9)%Z) (us_of (wall e st)))).
  { unfold timestamp. replace (to_system_time 1 (e_sys_now e) (e_hrs_now e) (_timestamp mm)) with (wall e st).
    - change (wall e st') with (wall e st) in *. change (10^9)%Z with 1000000000%Z in *. rewrite <- Z.quot_div_nonneg in * by lia. now apply default_timestamp.
    - unfold to_system_time, wall, mm. cbn. rewrite Ts, Z.quot_1_r. lia. }
  split.
  - apply toString_rendering; [exact T|]. cbn [call_details]. unfold DefaultLogDetailsToString. rewrite timestamp_override, T. reflexivity.
  - exists name. split; [exact C|]. cbv zeta.
    unfold details, msg_level, msg_file, msg_function, msg_line. unfold mm, delivered.
    cbn [fst moveMsg copyMsg write_append _level _message _file _function _line _expression f_msg overrideLogDetailsFunc].
    rewrite ?Lv, ?CL, ?F, ?Fu, ?Li, ?Me, ?Ex, ?Ts. f_equal.
    unfold stack_part, msg_level, nl. cbn [st' st_dump _level copyMsg write_append]. rewrite ?Lv, ?CL. rewrite <- !app_assoc. reflexivity.
Qed.
Print Assumptions C140_report.

(** The dump in the report is the one that the handler took, at the place of the event; only if that is empty another is taken, inside the logger. *)
Theorem C140_dump : forall dump fresh,
  (c_str dump <> [] -> stackdump_win fresh (Some (c_str dump)) = c_str dump) /\
  (c_str dump = [] -> stackdump_win fresh (Some (c_str dump)) = fresh) /\ stackdump_win fresh None = fresh.
Proof.
  intros dump fresh. split; [|split; [intros ->; reflexivity|reflexivity]]. destruct (c_str dump); [congruence|reflexivity].
Qed.
Print Assumptions C140_dump.

(** the moment is one that a date can be made of *)
Definition dated (e : env) (now : Z) : Prop :=
  let w := e_sys_now e + (now - e_hrs_now e) in 0 <= w /\ tm_ok (e_local e (w / 10 ^ 9)).

Lemma dump_no_nul : forall dump fresh, ~ In NUL fresh -> ~ In NUL (stackdump_win fresh (Some (c_str dump))).
Proof.
  intros dump fresh N. destruct (C140_dump dump fresh) as (A & B & _). destruct (c_str dump) eqn:E.
  - rewrite B by reflexivity. exact N.
  - rewrite A by discriminate. rewrite <- E. apply c_str_no_nul.
Qed.
Lemma name_no_nul : forall lv id, ~ In NUL (exitReasonName_win lv id).
Proof.
  intros lv id I. assert (T : ~ In NUL (to_string id)) by (apply to_string_not; [reflexivity|discriminate]).
  destruct (name_spec lv id) as [(_ & [J|(_ & E)])|(_ & [J|(_ & E)])].
  - unfold documented in J. cbn [map fst snd In] in J. remember (exitReasonName_win lv id) as n.
    repeat (destruct J as [J|J]; [injection J as _ J; subst n; rewrite <- J in I; revert I; not_in_lit|]). exact J.
  - rewrite E, in_app_iff in I. destruct I as [I|I]; [revert I; not_in_lit|exact (T I)].
  - cbn [win_signals In] in J. remember (exitReasonName_win lv id) as n.
    repeat (destruct J as [J|J]; [injection J as _ J; subst n; rewrite <- J in I; revert I; not_in_lit|]). exact J.
  - rewrite E, !in_app_iff in I. destruct I as [I|[I|I]]; [revert I; not_in_lit|exact (T I)|revert I; not_in_lit].
Qed.

(** An exception: *)
Theorem C140_exception : forall e warn handler code pid dump fresh now tid,
  ~ In NUL handler -> ~ In NUL fresh -> dated e now -> 0 <= code < 2 ^ 32 ->
  let st := exception_stmt handler code pid dump fresh now tid in
  exists m l name, fatal_win warn st = Some (m, (FATAL_EXCEPTION, code)) /\ event_name FATAL_EXCEPTION code name /\
    snd (toString e m) = FOk l /\ reported e warn st name l /\
    concat (st_texts st) = [NL] ++ lit "***** " ++ handler ++ lit ": Received fatal exception " ++ name ++ [TAB] ++ lit "PID: " ++ to_string pid ++ [NL].
Proof.
  intros e warn handler code pid dump fresh now tid NH NF (W & O) C st.
  assert (TX : concat (st_texts st) = [NL] ++ lit "***** " ++ handler ++ lit ": Received fatal exception " ++ exitReasonName_win FATAL_EXCEPTION code ++ [TAB] ++
     lit "PID: " ++ to_string pid ++ [NL]).
  { cbn [st exception_stmt st_texts concat]. rewrite app_nil_r. reflexivity. }
  assert (PL : plain e st).
  { split; [exact (fun x => x)|]. split; [reflexivity|]. split; [exact (fun x => x)|]. split; [not_in_lit|]. split; [exact (fun x => x)|].
    split. { rewrite TX. intro I. rewrite !in_app_iff in I.
      destruct I as [I|[I|[I|[I|[I|[I|[I|[I|I]]]]]]]]; try (exact (NH I)); try (exact (name_no_nul _ _ I));
        [revert I; not_in_lit|revert I; not_in_lit|revert I; not_in_lit|revert I; not_in_lit|revert I; not_in_lit|
         revert I; apply to_string_not; [reflexivity|discriminate]|revert I; not_in_lit]. }
    split; [apply dump_no_nul; exact NF|]. split; [exact W|exact O]. }
  destruct (C140_report e warn st PL) as (m & l & name & FW & EN & TS & RP); [vm_compute; discriminate|exact C|].
  exists m, l, name. split; [exact FW|]. split; [exact EN|]. split; [exact TS|]. split; [exact RP|].
  rewrite TX. do 4 f_equal. cbn [st exception_stmt st_level st_signal] in EN.
  f_equal. clear - EN.
  destruct (name_spec FATAL_EXCEPTION code) as [(_ & B)|(B & _)]; [|exfalso; apply B; split; reflexivity].
  destruct EN as [(_ & A)|(A & _)]; [|exfalso; apply A; split; reflexivity].
  destruct A as [A|(A & ->)], B as [B|(B & ->)]; auto.
  - exact (documented_fun code _ _ B A).
  - exfalso. apply B. change code with (fst (code, name)). now apply in_map.
  - exfalso. apply A. change code with (fst (code, exitReasonName_win FATAL_EXCEPTION code)). now apply in_map.
Qed.
Print Assumptions C140_exception.

(** A signal: *)
Theorem C140_signal : forall e warn s n pid dump fresh now tid,
  ~ In NUL fresh -> dated e now -> In (s, n) win_signals ->
  let st := signal_stmt s pid dump fresh now tid in
  exists m l, fatal_win warn st = Some (m, (FATAL_SIGNAL, s)) /\
    snd (toString e m) = FOk l /\ reported e warn st n l /\
    concat (st_texts st) = [NL] ++ lit "***** Received fatal signal " ++ n ++ lit "(" ++ to_string s ++ lit ")" ++ [TAB] ++ lit "PID: " ++ to_string pid ++ [NL].
Proof.
  intros e warn s n pid dump fresh now tid NF (W & O) I st.
  assert (S : 0 <= s < 2 ^ 32 /\ to_SignalType s = s /\ exitReasonName_win FATAL_SIGNAL s = n).
  { cbn [win_signals In] in I. repeat (destruct I as [I|I]; [injection I as <- <-; vm_compute; intuition discriminate|]). contradiction. }
  destruct S as (S & TS & EN).
  assert (TX : concat (st_texts st) = [NL] ++ lit "***** Received fatal signal " ++ n ++ lit "(" ++ to_string s ++ lit ")" ++ [TAB] ++ lit "PID: " ++ to_string pid ++ [NL]).
  { cbn [st signal_stmt st_texts concat]. rewrite app_nil_r. unfold signal_text_win. rewrite EN. reflexivity. }
  assert (PL : plain e st).
  { split; [exact (fun x => x)|]. split; [reflexivity|]. split; [exact (fun x => x)|]. split; [not_in_lit|]. split; [exact (fun x => x)|].
    split. { rewrite TX. intro J. rewrite !in_app_iff in J. rewrite <- EN in J.
      destruct J as [J|[J|[J|[J|[J|[J|[J|[J|[J|J]]]]]]]]]; try (exact (name_no_nul _ _ J)); revert J;
        try (apply to_string_not; [reflexivity|discriminate]); not_in_lit. }
    split; [apply dump_no_nul; exact NF|]. split; [exact W|exact O]. }
  destruct (C140_report e warn st PL) as (m & l & name & FW & NM & TL & RP); [vm_compute; discriminate|cbn [st signal_stmt st_signal]; rewrite TS; exact S|].
  cbn [st signal_stmt st_level st_signal] in FW, NM. rewrite TS in FW, NM.
  assert (E : name = n).
  { destruct NM as [((V & _) & _)|(_ & [J|(J & _)])]; [discriminate V| |].
    - clear - I J. cbn [win_signals In] in I. repeat (destruct I as [I|I]; [injection I as <- <-; cbn [win_signals In] in J;
        repeat (destruct J as [J|J]; [first [now injection J as <-|discriminate J]|]); contradiction|]). contradiction.
    - exfalso. apply J. change s with (fst (s, n)). now apply in_map. }
  subst name. exists m, l. auto.
Qed.
Print Assumptions C140_signal.

(** LOG(FATAL) and CHECK: the event is SIGABRT, and the dump is one taken in the logger, as the macros hand none over. *)
Theorem C140_macro : forall e warn file line function lv expression texts fresh now tid,
  let st := mkStmt file line function lv expression 22 texts now tid fresh in
  plain e st -> 1000 <= value lv -> ~ is_exception lv ->
  exists m l, fatal_win warn (macro_stmt file line function lv expression texts fresh now tid) = Some (m, (lv, 22)) /\ snd (toString e m) = FOk l /\
    reported e warn st (lit "SIGABRT") l.
Proof.
  intros e warn file line function lv expression texts fresh now tid st PL V NX.
  assert (MS : macro_stmt file line function lv expression texts fresh now tid = st) by reflexivity. rewrite MS.
  destruct (C140_report e warn st PL V) as (m & l & name & FW & NM & TL & RP); [vm_compute; intuition discriminate|].
  assert (E : name = lit "SIGABRT").
  { destruct NM as [(X & _)|(_ & [J|(J & _)])]; [contradiction| |].
    - cbn [st st_signal win_signals In] in J. repeat (destruct J as [J|J]; [first [discriminate J|now injection J as <-]|]). contradiction.
    - exfalso. apply J. vm_compute. tauto. }
  subst name. exists m, l. auto.
Qed.
Print Assumptions C140_macro.

Example C140_ex : exists m, fatal_win [] (exception_stmt (lit "Vectored Exception Handler") 3221225477 4711
      (dump_text true (fun _ => Some (lit "main", None)) (fun _ => [7]) X64 (mkRegs 7 100 200)) (lit "inside the logger") 1614862345000000000 1) = Some (m, (FATAL_EXCEPTION, 3221225477)) /\
  msg_message m = [NL] ++ lit "***** Vectored Exception Handler: Received fatal exception EXCEPTION_ACCESS_VIOLATION" ++ [TAB] ++ lit "PID: 4711" ++ [NL; NL] ++
    lit "*******" ++ [TAB] ++ lit "STACKDUMP *******" ++ [NL] ++ lit "stack dump [0]" ++ [TAB] ++ lit " main" ++ [NL; NL] ++
    lit "Exiting after fatal event  (FATAL_EXCEPTION). Fatal type:  EXCEPTION_ACCESS_VIOLATION" ++ [NL] ++ lit "Log content flushed successfully to sink" ++ [NL; NL] /\
  to_int 3221225477 = -1073741819.
Proof. eexists. split; [vm_compute; reflexivity|]. split; vm_compute; reflexivity. Qed.
Example C140_ex_dated : dated PEndToEnd.ex_env 1614862345000000000 /\ In (11, lit "SIGSEGV") win_signals.
Proof. split; [|vm_compute; tauto]. unfold dated. cbv zeta. split; [vm_compute; intuition discriminate|]. unfold tm_ok. vm_compute. intuition discriminate. Qed.
