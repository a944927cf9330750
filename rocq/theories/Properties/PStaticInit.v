(** Before main: C108-C110. *)
From Coq Require Import List ZArith Bool Lia.
From Verif.Model Require Import Levels Global StaticInit.
From Verif.Spec Require Import StaticInitSpec.
From Verif.Proofs Require Import StaticInitFacts.
Import ListNotations.
Local Open Scope list_scope.
Local Open Scope Z_scope.

(** C108: in every order of initialization, a level that is initialized has the value its definition says: the constant, or
    what lies [delta] above the level it is defined from, as that is. *)
Theorem C108_values : forall dyn user order st u d,
  well_written u (defs dyn user u) ->
  s_run dyn (s_start dyn user) order = Some st ->
  In d (defs dyn user u) ->
  match d with
  | DConst k v => lookup (s_levels st) (u, k) = None \/ lookup (s_levels st) (u, k) = Some v
  | DLevel k b delta =>
      lookup (s_levels st) (u, k) = None \/
      exists vb, lookup (s_levels st) b = Some vb /\ lookup (s_levels st) (u, k) = Some (vb + delta)
  | _ => True
  end.
Proof.
  intros dyn user order st u d W E I. pose proof (inv_run _ _ _ _ _ (inv_start dyn user) E) as J.
  destruct (J u) as [dn [D [N R]]]. specialize (R W).
  assert (P : forall k, name_of d = Some k -> lookup (s_levels st) (u, k) = None \/ In d dn).
  { intros k HK. destruct (lookup (s_levels st) (u, k)) as [v|] eqn:EL; [|now left]. right.
    assert (IK : In k (names dn)) by (apply N; eauto).
    rewrite D in I. apply in_app_iff in I. destruct I as [I|I]; [exact I|]. exfalso.
    destruct W as [_ ND]. rewrite D, names_app in ND.
    assert (IK2 : In k (names (s_left st u))).
    { apply in_split in I. destruct I as [a [b ->]]. rewrite names_app. apply in_or_app. right.
      destruct d; cbn in HK; try discriminate; injection HK as ->; now left. }
    revert ND IK IK2. generalize (names dn) (names (s_left st u)). clear. intros a b ND A B.
    induction a as [|x a IH]; [destruct A|]. cbn in ND. apply NoDup_cons_iff in ND. destruct ND as [N1 N2].
    destruct A as [->|A]; [apply N1; apply in_or_app; now right | exact (IH N2 A)]. }
  destruct d; auto.
  - destruct (P k eq_refl) as [H|H]; [now left|]. right. exact (R _ H).
  - destruct (P k eq_refl) as [H|H]; [now left|]. right. exact (R _ H).
Qed.
Print Assumptions C108_values.

(** and once the file is done, all its levels have their values *)
Theorem C108_complete : forall dyn user order st u k,
  s_run dyn (s_start dyn user) order = Some st -> s_left st u = [] -> In k (names (defs dyn user u)) ->
  exists v, lookup (s_levels st) (u, k) = Some v.
Proof.
  intros dyn user order st u k E L I. pose proof (inv_run _ _ _ _ _ (inv_start dyn user) E) as J.
  destruct (J u) as [dn [D [N _]]]. rewrite L, app_nil_r in D. apply N. rewrite <- D. exact I.
Qed.
Print Assumptions C108_complete.

(** the seven levels of g3log in every file that includes loglevels.hpp, with the values of Model/Levels.v *)
Theorem C108_standard_levels : forall dyn user u, u <> UTime ->
  firstn 7 (defs dyn user u) =
  map (fun p => DConst (fst p) (value (snd p)))
    [(NDebug, G3LOG_DEBUG); (NInfo, INFO); (NWarning, WARNING); (NFatal, FATAL); (NContract, CONTRACT); (NSignal, FATAL_SIGNAL); (NException, FATAL_EXCEPTION)].
Proof. intros dyn user u U. destruct u; try reflexivity. now destruct U. Qed.
Print Assumptions C108_standard_levels.

(** the documentation's example (loglevels.hpp:76-79) in two files *)
Definition custom (n : nat) : list def := [DLevel (NOwn 0) (UUser n, NWarning) 1; DLevel (NOwn 1) (UUser n, NFatal) 1].
(** all of a unit's objects at once *)
Definition whole (dyn : bool) (user : nat -> list def) (u : tunit) : list tunit := repeat u (length (defs dyn user u)).

Example C108_ex : forall n, well_written (UUser n) (defs false custom (UUser n)).
Proof.
  intro n. split.
  - intros l1 d l2 E r I. cbn in E.
    do 7 (destruct l1 as [|? l1]; cbn in E; injection E as <- E; [destruct I|]).
    destruct l1 as [|? l1]; cbn in E; injection E as <- E; [destruct I as [<-|[]]; cbn; auto 10|].
    destruct l1 as [|? l1]; cbn in E; injection E as <- E; [destruct I as [<-|[]]; cbn; auto 10|].
    destruct l1; discriminate.
  - cbn. repeat (constructor; [cbn; intuition discriminate|]). constructor.
Qed.

Example C108_ex_first :
  option_map (fun st => (lookup (s_levels st) (UUser 3, NOwn 0), lookup (s_levels st) (UUser 3, NOwn 1), s_status st, s_events st))
    (s_run false (s_start false custom) (whole false custom (UUser 3)))
  = Some (Some 501, Some 1001, SRunning, []).
Proof. vm_compute. reflexivity. Qed.

(** a level made from another file's level is not "in your own source file": it can come out as 1 instead of 501 *)
Example C108_ex_other_file :
  let user n := match n with O => [DLevel (NOwn 0) (UUser 1, NWarning) 1] | _ => [] end in
  option_map (fun st => (lookup (s_levels st) (UUser 0, NOwn 0), s_events st))
    (s_run false (s_start false user) (whole false user (UUser 0)))
  = Some (Some 1, [SEarly (OLevel (UUser 1, NWarning))]).
Proof. vm_compute. reflexivity. Qed.

(** C109: LOG may be used while static objects are initialized.  False: in a file that is initialized before loglevels.cpp,
    every level is fatal (FATAL is still 0), the hook is empty, and the process terminates with nothing on stderr; with
    G3_DYNAMIC_LOGGING the table of levels does not exist yet. *)
Definition logging (n : nat) : list def := match n with O => [DIostream; DObj [ALog (UUser 0%nat, NInfo)]] | _ => [] end.

Theorem C109_refuted :
  (forall n, well_written (UUser n) (defs false logging (UUser n))) /\
  (exists order st, s_run false (s_start false logging) order = Some st /\ s_status st = STerminate /\
     forall v, ~ In (SFirst v) (s_events st) /\ ~ In (SFatal v) (s_events st)) /\
  (exists order st, s_run true (s_start true logging) order = Some st /\ s_status st = SUndefined).
Proof.
  split; [|split].
  - intro n. split.
    + intros l1 d l2 E r I. destruct n as [|n]; cbn in E.
      * do 8 (destruct l1 as [|? l1]; cbn in E; injection E as <- E; [destruct I|]).
        destruct l1 as [|? l1]; cbn in E; injection E as <- E; [destruct I as [<-|[]]; cbn; auto 10|].
        destruct l1; discriminate.
      * do 7 (destruct l1 as [|? l1]; cbn in E; injection E as <- E; [destruct I|]). destruct l1; discriminate.
    + destruct n; cbn; repeat (constructor; [cbn; intuition discriminate|]); constructor.
  - exists (whole false logging (UUser 0)). eexists. split; [vm_compute; reflexivity|]. split; [reflexivity|].
    intro v. cbn. split; intuition discriminate.
  - exists (whole true logging (UUser 0)). eexists. split; [vm_compute; reflexivity | reflexivity].
Qed.
Print Assumptions C109_refuted.

(** with the library initialized first (as a shared library is), nothing is used too early, whatever the program's files do and
    in whatever order they come *)
Theorem C109_library_first_partial : forall dyn user o1 o2 st1 st2,
  (forall n, well_written (UUser n) (defs dyn user (UUser n)) /\ compiles dyn (user n)) ->
  (forall u, In u o1 -> of_library u) ->
  s_run dyn (s_start dyn user) o1 = Some st1 -> library_done st1 -> s_run dyn st1 o2 = Some st2 ->
  none_early st2 /\ s_status st2 <> SUndefined.
Proof.
  intros dyn user o1 o2 st1 st2 W O1 E1 L E2.
  pose proof (inv_run _ _ _ _ _ (inv_start dyn user) E1) as I1.
  pose proof (inv2_run _ _ _ _ _ (inv2_start dyn user) E1) as J1.
  assert (C1 : none_early st1 /\ s_status st1 <> SUndefined /\ s_status st1 = SRunning).
  { assert (G : forall o st st', (forall u, In u o -> of_library u) ->
               (forall u, of_library u -> forall d, In d (s_left st u) -> match d with DObj _ | DLevel _ _ _ => False | _ => True end) ->
               s_run dyn st o = Some st' -> s_events st' = s_events st /\ s_status st' = s_status st).
    { clear. induction o as [|u r IH]; intros st st' O D E; cbn [s_run] in E; [injection E as <-; auto|].
      destruct (s_step dyn st u) as [s1|] eqn:S1; [|discriminate].
      assert (X : s_events s1 = s_events st /\ s_status s1 = s_status st /\ (forall w d, In d (s_left s1 w) -> In d (s_left st w))).
      { unfold s_step in S1. destruct (s_status st) eqn:ST; try discriminate. destruct (s_left st u) as [|d l] eqn:LU; [discriminate|].
        injection S1 as <-. specialize (D u (O u (or_introl eq_refl)) d). rewrite LU in D. specialize (D (or_introl eq_refl)).
        assert (LL : forall w d0, In d0 (s_left (s_init dyn (s_take st u l) u d) w) -> In d0 (s_left st w)).
        { intros w d0 I. rewrite init_left, left_take in I. destruct (tunit_eqb w u) eqn:WU; [|exact I].
          apply tunit_eqb_spec in WU. subst w. rewrite LU. now right. }
        destruct d; try contradiction; (split; [reflexivity|]); (split; [exact ST | exact LL]). }
      destruct X as [X1 [X2 X3]]. destruct (IH s1 st') as [Y1 Y2].
      - intros w I. apply O. now right.
      - intros w LW d I. apply (D w LW). apply X3. exact I.
      - exact E.
      - split; congruence. }
    destruct (G o1 (s_start dyn user) st1 O1) as [A B].
    - intros u LU d I. destruct u; cbn [of_library] in LU; try contradiction; destruct dyn; cbn in I;
        repeat (destruct I as [<-|I]; [exact Logic.I|]); destruct I.
    - exact E1.
    - split; [intros o I; rewrite A in I; destruct I|]. rewrite B. split; [discriminate | reflexivity]. }
  destruct C1 as [C1 [C2 _]].
  assert (LR : lib_ready dyn st1) by (eapply lib_done_ready; eassumption).
  clear O1 E1. revert o2 st1 I1 J1 L C1 C2 LR E2.
  induction o2 as [|u r IH]; intros st1 I1 J1 L C1 C2 LR E2; cbn [s_run] in E2; [injection E2 as <-; auto|].
  destruct (s_step dyn st1 u) as [s1|] eqn:S1; [|discriminate].
  assert (K : clean st1 s1 /\ lib_ready dyn s1 /\ library_done s1).
  { pose proof S1 as S2. unfold s_step in S2. destruct (s_status st1) eqn:ST; try discriminate.
    destruct (s_left st1 u) as [|d l] eqn:LU; [discriminate|]. injection S2 as <-.
    destruct u as [| | | | | |n]; try (exfalso; destruct L as (L1 & L2 & L3 & L4 & L5 & L6); rewrite ?L1, ?L2, ?L3, ?L4, ?L5, ?L6 in LU; discriminate).
    assert (LD : library_done (s_init dyn (s_take st1 (UUser n) l) (UUser n) d)).
    { destruct L as (L1 & L2 & L3 & L4 & L5 & L6). unfold library_done. rewrite init_left. cbn. auto 10. }
    destruct (I1 (UUser n)) as [dn [D [N R]]]. rewrite LU in D. destruct (W n) as [[AB ND] CO].
    assert (RD : forall x, In x (refs d) -> level_ready st1 x = true).
    { intros x I. destruct (AB dn d l D x I) as [F P]. apply N in P. destruct P as [v P]. destruct x as [xu xk]. cbn in F. subst xu.
      unfold level_ready. cbn in P. rewrite P. reflexivity. }
    set (st0 := s_take st1 (UUser n) l).
    assert (LR0 : lib_ready dyn st0) by exact LR.
    assert (CL : clean st1 st0) by (split; auto).
    split; [|split; [|exact LD]].
    - eapply clean_trans; [exact CL|]. destruct d; try (split; auto; fail).
      + unfold s_init. assert (RB : level_ready st0 base = true) by (apply (RD base); now left). rewrite RB. cbn [use]. cbn zeta. split; auto.
      + unfold s_init. apply clean_acts; [exact LR0 | exact RD|].
        intros x b I. apply (CO code x b); [|exact I].
        assert (ID : In (DObj code) (defs dyn user (UUser n))) by (rewrite D; apply in_or_app; right; now left).
        cbn [defs] in ID. apply in_app_iff in ID. destruct ID as [ID|ID]; [|exact ID]. cbn in ID. intuition discriminate.
    - eapply lib_done_ready; [eapply inv_step; eassumption | eapply inv2_step; eassumption | exact LD]. }
  destruct K as [[K1 K2] [K3 K4]]. apply (IH s1).
  - eapply inv_step; eassumption.
  - eapply inv2_step; eassumption.
  - exact K4.
  - intros o I. apply K1 in I. exact (C1 o I).
  - intro H. apply C2. exact (K2 H).
  - exact K3.
  - exact E2.
Qed.
Print Assumptions C109_library_first_partial.

(** what an enabled LOG of a level below FATAL does, exactly: with FATAL of loglevels.cpp and stderr initialized, the message is
    kept as the first one or dropped and the program goes on; with FATAL not initialized and no hook set, the process
    terminates and the text appears nowhere *)
Theorem C109_entry_partial : forall user order st l v,
  s_run false (s_start false user) order = Some st -> s_status st = SRunning ->
  lookup (s_levels st) l = Some v -> 0 <= v < 1000 ->
  (level_ready st (ULoglevels, NFatal) = true -> s_cerr st = true ->
     s_status (s_log false st l) = SRunning /\
     s_events (s_log false st l) = s_events st ++ [if s_first st then SDropped v else SFirst v] /\ s_first (s_log false st l) = true) /\
  (level_ready st (ULoglevels, NFatal) = false -> s_hook st = None ->
     s_status (s_log false st l) = STerminate /\
     s_events (s_log false st l) = s_events st ++ SEarly (OLevel (ULoglevels, NFatal)) :: if s_nohook st then [] else [SEarly ONoHook]).
Proof.
  intros user order st l v E S LV B. pose proof (inv_run _ _ _ _ _ (inv_start false user) E) as J.
  assert (RL : level_ready st l = true) by (unfold level_ready; rewrite LV; reflexivity).
  split.
  - intros RF RC. unfold s_log, s_capture. rewrite RL, RF. cbn [use]. cbn zeta. rewrite RL. cbn [negb].
    assert (FV : level_value st (ULoglevels, NFatal) = 1000).
    { unfold level_ready in RF. unfold level_value. destruct (lookup (s_levels st) (ULoglevels, NFatal)) as [f|] eqn:EF; [|discriminate].
      exact (fatal_value _ _ _ J f EF). }
    assert (VV : level_value st l = v) by (unfold level_value; rewrite LV; reflexivity).
    unfold s_wasFatal. rewrite FV, VV. destruct (1000 <=? v) eqn:C; [apply Z.leb_le in C; lia|].
    unfold s_pushMessage. rewrite RC. destruct (s_first st) eqn:SF; cbn; auto.
  - intros RF H. unfold s_log, s_capture. rewrite RL, RF. cbn [use]. cbn zeta.
    set (st1 := s_emit st [SEarly (OLevel (ULoglevels, NFatal))]).
    assert (RL1 : level_ready st1 l = true) by exact RL. rewrite RL1. cbn [negb].
    assert (FV : level_value st1 (ULoglevels, NFatal) = 0).
    { unfold level_ready in RF. unfold level_value. cbn [s_levels st1 s_emit].
      destruct (lookup (s_levels st) (ULoglevels, NFatal)); [discriminate | reflexivity]. }
    assert (VV : level_value st1 l = v) by (unfold level_value; cbn [s_levels st1 s_emit]; rewrite LV; reflexivity).
    unfold s_wasFatal. rewrite FV, VV. destruct (0 <=? v) eqn:C; [|apply Z.leb_gt in C; lia].
    unfold s_saveFatal. cbn zeta. replace (s_hook st1) with (s_hook st) by reflexivity. rewrite H.
    split; [reflexivity|]. replace (s_nohook st1) with (s_nohook st) by reflexivity. destruct (s_nohook st).
    + reflexivity.
    + unfold use, s_emit, s_end, s_sethook, st1. cbn. rewrite <- app_assoc. reflexivity.
Qed.
Print Assumptions C109_entry_partial.

(** which objects of the library are there, at any time: those that their own files have passed *)
Definition flag_of (st : sstate) (d : def) : bool :=
  match d with DNoHook => s_nohook st | DSignals => s_signals st | DFormats => s_formats st | DFraction => s_fraction st | _ => false end.
Definition home (d : def) : tunit := match d with DNoHook => UG3log | DSignals => UCrashhandler | DFormats => ULogmessage | _ => UTime end.
Lemma init_flag : forall dyn st u d d0, flag_of (s_init dyn st u d) d0 = true -> d = d0 \/ flag_of st d0 = true.
Proof.
  intros dyn st u d d0 H. destruct d; try (right; exact H); try (destruct d0; auto; fail).
  - right. revert H. cbn [s_init]. unfold use. destruct (level_ready st base); destruct d0; auto.
  - right. revert H. cbn [s_init]. destruct (frame_acts dyn code st) as (_ & _ & _ & F1 & _ & (F2 & F3 & F4) & _).
    destruct d0; cbn [flag_of]; rewrite ?F1, ?F2, ?F3, ?F4; auto.
Qed.
Theorem C109_objects : forall dyn user order st, (forall n d, In d (user n) -> users_def d = true) ->
  s_run dyn (s_start dyn user) order = Some st ->
  (s_nohook st = true <-> ~ In DNoHook (s_left st UG3log)) /\
  (s_signals st = true <-> ~ In DSignals (s_left st UCrashhandler)) /\
  (s_formats st = true <-> ~ In DFormats (s_left st ULogmessage)) /\
  (s_fraction st = true <-> ~ In DFraction (s_left st UTime)).
Proof.
  intros dyn user order st UD E.
  assert (I3 : forall d, flag_of st d = true -> exists u dn, defs dyn user u = dn ++ s_left st u /\ In d dn).
  { assert (S0 : forall u, exists dn, defs dyn user u = dn ++ s_left (s_start dyn user) u) by (intro u; exists []; reflexivity).
    assert (S1 : forall d, flag_of (s_start dyn user) d = true -> exists u dn, defs dyn user u = dn ++ s_left (s_start dyn user) u /\ In d dn)
      by (intros d H; destruct d; discriminate).
    revert E S0 S1. generalize (s_start dyn user). induction order as [|u r IH]; intros s0 E S0 S1; cbn [s_run] in E; [injection E as <-; exact S1|].
    destruct (s_step dyn s0 u) as [s1|] eqn:Q; [|discriminate]. apply (IH s1 E); unfold s_step in Q; destruct (s_status s0); try discriminate;
      destruct (s_left s0 u) as [|d l] eqn:L; try discriminate; injection Q as <-.
    - intro w. rewrite init_left, left_take. destruct (S0 w) as [dn D]. destruct (tunit_eqb w u) eqn:W; [|exists dn; exact D].
      apply tunit_eqb_spec in W. subst w. exists (dn ++ [d]). rewrite <- app_assoc, D, L. reflexivity.
    - intros d0 H. apply init_flag in H. destruct H as [<-|H].
      + exists u. destruct (S0 u) as [dn D]. exists (dn ++ [d]). rewrite init_left, left_take, tunit_eqb_refl. split; [rewrite <- app_assoc, D, L; reflexivity|].
        apply in_or_app. right. now left.
      + assert (H' : flag_of s0 d0 = true) by (destruct d0; exact H). destruct (S1 d0 H') as (w & dn & D & I). exists w.
        rewrite init_left, left_take. destruct (tunit_eqb w u) eqn:W; [|exists dn; split; assumption].
        apply tunit_eqb_spec in W. subst w. exists (dn ++ [d]). split; [rewrite <- app_assoc, D, L; reflexivity|]. apply in_or_app. now left. }
  pose proof (inv2_run _ _ _ _ _ (inv2_start dyn user) E) as I2.
  assert (G : forall d, users_def d = false -> In d [DNoHook; DSignals; DFormats; DFraction] -> (flag_of st d = true <-> ~ In d (s_left st (home d)))).
  { intros d UF K. split.
    - intros H I. destruct (I3 d H) as (u & dn & D & J).
      assert (HU : u = home d).
      { assert (JU : In d (defs dyn user u)) by (rewrite D; apply in_or_app; now left).
        destruct u as [| | | | | |n]; cbn [defs] in JU; destruct dyn; cbn in JU, K;
          repeat match goal with H : _ \/ _ |- _ => destruct H as [H|H] | H : False |- _ => destruct H end; subst; try discriminate; try reflexivity;
          apply UD in JU; congruence. }
      subst u.
      assert (ONE : forall dn2, defs dyn user (home d) = dn ++ dn2 -> In d dn2 -> False).
      { intros dn2 D2 I2'. assert (CT : count_occ Bool.bool_dec (map (fun x => match x, d with DNoHook, DNoHook | DSignals, DSignals | DFormats, DFormats | DFraction, DFraction => true | _, _ => false end) (defs dyn user (home d))) true = 1%nat).
        { cbn in K. repeat (destruct K as [<-|K]; [destruct dyn; reflexivity|]). destruct K. }
        rewrite D2, map_app, count_occ_app in CT.
        assert (P : forall l, In d l -> (1 <= count_occ Bool.bool_dec (map (fun x => match x, d with DNoHook, DNoHook | DSignals, DSignals | DFormats, DFormats | DFraction, DFraction => true | _, _ => false end) l) true)%nat).
        { intros l IL. apply count_occ_In. apply in_map_iff. exists d. split; [|exact IL]. cbn in K. repeat (destruct K as [<-|K]; [reflexivity|]). destruct K. }
        pose proof (P dn J). pose proof (P dn2 I2'). lia. }
      exact (ONE _ D I).
    - intro NI. destruct (I2 (home d)) as (dn & D & R).
      assert (ID : In d (defs dyn user (home d))).
      { cbn in K. repeat (destruct K as [<-|K]; [destruct dyn; cbn; auto 12|]). destruct K. }
      rewrite D in ID. apply in_app_iff in ID. destruct ID as [ID|ID]; [|contradiction]. specialize (R d ID).
      cbn in K. repeat (destruct K as [<-|K]; [exact R|]). destruct K. }
  repeat split; intro H; revert H; first [apply (G DNoHook)|apply (G DSignals)|apply (G DFormats)|apply (G DFraction)]; cbn; auto.
Qed.
Print Assumptions C109_objects.

(** the same for stderr, the table of levels and the exit handler: there as soon as one file has passed the definition that makes them *)
Definition passed (dyn : bool) (user : nat -> list def) (st : sstate) (u : tunit) (d : def) : Prop :=
  exists done, defs dyn user u = done ++ s_left st u /\ In d done.
Definition there (st : sstate) (d : def) : bool :=
  match d with DIostream => s_cerr st | DMap => match s_map st with Some _ => true | None => false end | DExit => s_exit_init st | _ => false end.
Definition traced (d : def) : bool := match d with DIostream | DMap | DExit => true | _ => false end.
Lemma init_there : forall dyn st u d d0, traced d0 = true -> (there (s_init dyn st u d) d0 = true <-> d = d0 \/ there st d0 = true).
Proof.
  intros dyn st u d d0 T.
  assert (K : forall st1, frame st st1 -> there st1 d0 = there st d0).
  { intros st1 (_ & _ & F1 & _ & F2 & _ & F3). destruct d0; try discriminate T; cbn [there]; auto.
    destruct F3 as [F3 F3']. destruct (s_map st1), (s_map st); auto; [discriminate (F3' eq_refl)|discriminate (F3 eq_refl)]. }
  assert (D : forall b, b = there st d0 -> d <> d0 -> (b = true <-> d = d0 \/ there st d0 = true)) by (intros b -> N; tauto).
  destruct d.
  - apply D; [destruct d0; try discriminate T; reflexivity|intros <-; discriminate T].
  - apply D; [|intros <-; discriminate T]. cbn [s_init]. rewrite <- (K _ (frame_use (level_ready st base) (OLevel base) st)). destruct d0; try discriminate T; reflexivity.
  - destruct d0; try discriminate T; cbn; split; auto; intros [X|X]; auto; discriminate X.
  - destruct d0; try discriminate T; cbn; split; auto; intros [X|X]; auto; discriminate X.
  - apply D; [destruct d0; try discriminate T; reflexivity|intros <-; discriminate T].
  - destruct d0; try discriminate T; cbn; split; auto; intros [X|X]; auto; discriminate X.
  - apply D; [destruct d0; try discriminate T; reflexivity|intros <-; discriminate T].
  - apply D; [destruct d0; try discriminate T; reflexivity|intros <-; discriminate T].
  - apply D; [destruct d0; try discriminate T; reflexivity|intros <-; discriminate T].
  - apply D; [cbn [s_init]; apply K, frame_acts|intros <-; discriminate T].
Qed.
Theorem C109_streams : forall dyn user order st, s_run dyn (s_start dyn user) order = Some st ->
  (s_cerr st = true <-> exists u, passed dyn user st u DIostream) /\
  (s_map st <> None <-> exists u, passed dyn user st u DMap) /\
  (s_exit_init st = true <-> exists u, passed dyn user st u DExit).
Proof.
  intros dyn user order st E.
  assert (G : forall d, traced d = true -> (there st d = true <-> exists u, passed dyn user st u d)).
  { assert (S0 : forall u, exists dn, defs dyn user u = dn ++ s_left (s_start dyn user) u) by (intro u; exists []; reflexivity).
    assert (S1 : forall d, traced d = true -> (there (s_start dyn user) d = true <-> exists u, passed dyn user (s_start dyn user) u d)).
    { intros d T. split; [destruct d; discriminate|]. intros (u & dn & X & IN). exfalso.
      change (s_left (s_start dyn user) u) with (defs dyn user u) in X. destruct dn as [|y dn]; [destruct IN|].
      apply (f_equal (@length def)) in X. cbn in X. rewrite app_length in X. lia. }
    revert E S0 S1. generalize (s_start dyn user). induction order as [|u r IH]; intros s0 E S0 S1; cbn [s_run] in E; [injection E as <-; exact S1|].
    destruct (s_step dyn s0 u) as [s1|] eqn:Q; [|discriminate]. apply (IH s1 E); unfold s_step in Q; destruct (s_status s0); try discriminate;
      destruct (s_left s0 u) as [|d l] eqn:L; try discriminate; injection Q as <-.
    - intro w. rewrite init_left, left_take. destruct (S0 w) as [dn D]. destruct (tunit_eqb w u) eqn:W; [|exists dn; exact D].
      apply tunit_eqb_spec in W. subst w. exists (dn ++ [d]). rewrite <- app_assoc, D, L. reflexivity.
    - intros d0 T. rewrite init_there by exact T. assert (TK : there (s_take s0 u l) d0 = there s0 d0) by (destruct d0; reflexivity). rewrite TK, (S1 d0 T). unfold passed. split.
      + intros [<-|(w & dn & D & I)].
        * exists u. destruct (S0 u) as [dn D]. exists (dn ++ [d]). rewrite init_left, left_take, tunit_eqb_refl. split; [rewrite <- app_assoc, D, L; reflexivity|].
          apply in_or_app. right. now left.
        * exists w. rewrite init_left, left_take. destruct (tunit_eqb w u) eqn:W; [|exists dn; split; assumption].
          apply tunit_eqb_spec in W. subst w. exists (dn ++ [d]). split; [rewrite <- app_assoc, D, L; reflexivity|]. apply in_or_app. now left.
      + intros (w & dn & D & I). rewrite init_left, left_take in D. destruct (tunit_eqb w u) eqn:W; [|right; exists w, dn; split; assumption].
        apply tunit_eqb_spec in W. subst w. destruct (S0 u) as [dn0 D0]. rewrite D0, L in D. change (d :: l) with ([d] ++ l) in D. rewrite app_assoc in D.
        apply app_inv_tail in D. subst dn. apply in_app_iff in I. destruct I as [I|[I|[]]]; [|now left]. right. exists u, dn0. rewrite L. split; [rewrite D0, L; reflexivity|exact I]. }
  split; [apply (G DIostream eq_refl)|]. split; [|apply (G DExit eq_refl)].
  rewrite <- (G DMap eq_refl). cbn [there]. destruct (s_map st); split; congruence.
Qed.
Print Assumptions C109_streams.

(** A fatal LOG before main, in every order of initialization, exactly: the hook of the moment runs (an empty one ends the process) and is replaced by the one
    that does nothing, or by an empty one if g3log.cpp has not got that far; then the function that takes fatal messages gets the message: an empty one
    ends the process; the library's shows it and kills the process if what it needs is there. *)
Theorem C109_fatal_partial : forall user order st l v,
  s_run false (s_start false user) order = Some st -> s_status st = SRunning ->
  lookup (s_levels st) l = Some v -> 1000 <= v -> level_ready st (ULoglevels, NFatal) = true ->
  let st' := s_log false st l in
  let early := if s_nohook st then [] else [SEarly ONoHook] in
  s_hook st' = (if s_nohook st then Some HookNop else None) /\
  match s_hook st with
  | None => s_status st' = STerminate /\ s_events st' = s_events st ++ early
  | Some hk =>
      let ran := match hk with HookNop => [] | Hook n => [SHook n] end ++ (if s_exit_init st then [] else [SEarly OExit]) in
      match s_exit st with
      | None => s_status st' = STerminate /\ s_events st' = s_events st ++ early ++ ran
      | Some (Handler n) => s_status st' = SRunning /\ s_events st' = s_events st ++ early ++ ran ++ [SHandler n v]
      | Some HandlerDefault =>
          if s_formats st && s_fraction st && s_cerr st && s_signals st
          then s_status st' = SDied /\ s_events st' = s_events st ++ early ++ ran ++ [SFatal v]
          else s_status st' = SUndefined
      end
  end.
Proof.
  intros user order st l v E S LV B RF st' early. subst st'. pose proof (inv_run _ _ _ _ _ (inv_start false user) E) as J.
  assert (RL : level_ready st l = true) by (unfold level_ready; rewrite LV; reflexivity).
  assert (FV : level_value st (ULoglevels, NFatal) = 1000).
  { unfold level_ready in RF. unfold level_value. destruct (lookup (s_levels st) (ULoglevels, NFatal)) as [f|] eqn:EF; [|discriminate].
    exact (fatal_value _ _ _ J f EF). }
  assert (VV : level_value st l = v) by (unfold level_value; rewrite LV; reflexivity).
  assert (Q : s_log false st l = s_saveFatal st v).
  { unfold s_log, s_capture. rewrite RL, RF. cbn [use]. cbn zeta. rewrite RL. cbn [negb]. unfold s_wasFatal. rewrite FV, VV.
    destruct (1000 <=? v) eqn:C; [reflexivity|apply Z.leb_gt in C; lia]. }
  rewrite Q. clear Q. unfold s_saveFatal. cbn zeta.
  assert (U : use (s_nohook st) ONoHook st = s_emit st early \/ use (s_nohook st) ONoHook st = st /\ early = []).
  { unfold early, use. destruct (s_nohook st); auto. }
  assert (EM : s_emit st [] = st) by (unfold s_emit; rewrite app_nil_r; destruct st; reflexivity).
  assert (U' : use (s_nohook st) ONoHook st = s_emit st early) by (destruct U as [U|[U L0]]; [exact U|rewrite L0, EM; exact U]).
  rewrite U'. clear U U'. set (nh := if s_nohook st then Some HookNop else None). set (s2 := s_sethook (s_emit st early) nh).
  destruct (s_hook st) as [hk|]; [|split; [reflexivity|split; reflexivity]].
  set (r0 := match hk with HookNop => [] | Hook n => [SHook n] end).
  replace (match hk with HookNop => s_fatalCall s2 v | Hook n => s_fatalCall (s_emit s2 [SHook n]) v end) with (s_fatalCall (s_emit s2 r0) v).
  2:{ unfold r0. destruct hk; [|reflexivity]. unfold s_emit. rewrite app_nil_r. reflexivity. }
  unfold s_fatalCall. cbn zeta.
  set (x0 := if s_exit_init st then [] else [SEarly OExit]).
  assert (U : use (s_exit_init (s_emit s2 r0)) OExit (s_emit s2 r0) = s_emit s2 (r0 ++ x0)).
  { replace (s_exit_init (s_emit s2 r0)) with (s_exit_init st) by reflexivity. unfold x0, use. destruct (s_exit_init st); [rewrite app_nil_r; reflexivity|].
    unfold s_emit. cbn. rewrite <- !app_assoc. reflexivity. }
  rewrite U. set (s3 := s_emit s2 (r0 ++ x0)). assert (EV : s_events s3 = s_events st ++ early ++ r0 ++ x0) by (cbn; rewrite <- !app_assoc; reflexivity).
  replace (s_exit s3) with (s_exit st) by reflexivity. destruct (s_exit st) as [[|n]|].
  - unfold s_pushFatal. replace (s_formats s3) with (s_formats st) by reflexivity. replace (s_fraction s3) with (s_fraction st) by reflexivity.
    replace (s_cerr s3) with (s_cerr st) by reflexivity. cbn zeta. replace (s_signals (s_emit s3 [SFatal v])) with (s_signals st) by reflexivity.
    destruct (s_formats st); [|split; reflexivity]. destruct (s_fraction st); [|split; reflexivity]. destruct (s_cerr st); [|split; reflexivity].
    destruct (s_signals st); [|split; reflexivity]. cbn [negb andb]. split; [reflexivity|]. split; [reflexivity|].
    cbn [s_end s_emit s_events]. fold s3. rewrite EV, <- !app_assoc. reflexivity.
  - split; [reflexivity|]. split; [exact S|]. change (s_events (s_emit s3 [SHandler n v])) with (s_events s3 ++ [SHandler n v]). rewrite EV, <- !app_assoc. reflexivity.
  - split; [reflexivity|]. split; [reflexivity|]. exact EV.
Qed.
Print Assumptions C109_fatal_partial.
(** The order inside g3log.cpp: stderr is there before the hook that does nothing, and that one before the function that takes fatal messages. *)
Theorem C109_g3log_order : forall dyn user order st, (forall n d, In d (user n) -> users_def d = true) ->
  s_run dyn (s_start dyn user) order = Some st ->
  (s_exit_init st = true -> s_nohook st = true) /\ (s_nohook st = true -> s_cerr st = true).
Proof.
  intros dyn user order st UD E. destruct (C109_streams dyn user order st E) as (ST1 & _ & ST3). destruct (C109_objects dyn user order st UD E) as (OB & _).
  assert (S0 : exists dn, defs dyn user UG3log = dn ++ s_left st UG3log) by (destruct (inv2_run _ _ _ _ _ (inv2_start dyn user) E UG3log) as (dn & D & _); exists dn; exact D).
  split; intro H.
  - apply ST3 in H. destruct H as (u & dn & D & I). apply OB.
    assert (u = UG3log) as ->.
    { assert (J : In DExit (defs dyn user u)) by (rewrite D; apply in_or_app; now left).
      destruct u as [| | | | | |n]; [reflexivity|..]; exfalso; cbn [defs] in J; try (apply in_app_iff in J; destruct J as [J|J]).
      all: try (destruct dyn; cbn in J; intuition discriminate).
      apply UD in J. discriminate. }
    intro J. apply in_split in I. destruct I as (d1 & d2 & ->). rewrite <- app_assoc in D. cbn [app] in D.
    assert (J' : In DNoHook (d2 ++ s_left st UG3log)) by (apply in_or_app; now right). revert D J'. generalize (d2 ++ s_left st UG3log). clear.
    intros r D J'. cbn [defs] in D.
    repeat (destruct d1 as [|? d1]; cbn [app header] in D; [injection D; intros; subst; cbn in J'; intuition discriminate|injection D as <- D]); destruct d1; discriminate D.
  - apply ST1. exists UG3log. destruct S0 as [dn D]. exists dn. split; [exact D|]. apply OB in H.
    assert (I : In DNoHook dn).
    { assert (J : In DNoHook (defs dyn user UG3log)) by (cbn; auto 20). rewrite D in J. apply in_app_iff in J. destruct J as [J|J]; [exact J|contradiction]. }
    apply in_split in I. destruct I as (d1 & d2 & ->). rewrite <- app_assoc in D. apply in_or_app. left. revert D. cbn [app]. generalize (d2 ++ s_left st UG3log). clear.
    intros r D. cbn [defs] in D.
    repeat (destruct d1 as [|? d1]; cbn [app header] in D; [try discriminate D|injection D as <- D; try (now left)]); try discriminate D.
    all: try (cbn; tauto).
Qed.
Print Assumptions C109_g3log_order.

(** the table of levels, when loglevels.cpp makes it: the four levels of the documentation, enabled *)
Theorem C109_default_table : forall user order st st',
  s_run true (s_start true user) order = Some st -> s_left st ULoglevels = [DMap] -> s_step true st ULoglevels = Some st' ->
  s_map st' = Some [(100, true); (300, true); (500, true); (1000, true)].
Proof.
  intros user order st st' E L S. pose proof (inv_run _ _ _ _ _ (inv_start true user) E) as J.
  destruct (J ULoglevels) as [dn [D [_ R]]]. specialize (R (loglevels_well_written true user)). rewrite L in D.
  change (defs true user ULoglevels) with ((header ++ [DIostream]) ++ [DMap]) in D. apply app_inj_tail in D. destruct D as [D _].
  assert (V : forall k v, In (DConst k v) header -> lookup (s_levels st) (ULoglevels, k) = Some v).
  { intros k v I. apply (R (DConst k v)). rewrite <- D. apply in_or_app. now left. }
  unfold s_step in S. destruct (s_status st); try discriminate. rewrite L in S. injection S as <-. cbn [s_init s_setmap s_map]. unfold level_value. cbn [s_take s_levels].
  rewrite (V NDebug 100), (V NInfo 300), (V NWarning 500), (V NFatal 1000) by (cbn; auto 10). reflexivity.
Qed.
Print Assumptions C109_default_table.

(** the first message is kept once: SFirst occurs exactly when the flag is set, and never twice *)
Definition kept_once (st : sstate) : Prop :=
  length (filter (fun e => match e with SFirst _ => true | _ => false end) (s_events st)) = if s_first st then 1%nat else 0%nat.
Definition keeps_once (a b : sstate) : Prop := kept_once a -> kept_once b.
Lemma keeps_trans : forall a b c, keeps_once a b -> keeps_once b c -> keeps_once a c.
Proof. unfold keeps_once. auto. Qed.
Lemma keeps_emit : forall st e, (forall v, e <> SFirst v) -> keeps_once st (s_emit st [e]).
Proof.
  intros st e N K. unfold kept_once in *. cbn [s_emit s_events s_first]. rewrite filter_app, app_length, K.
  destruct e; cbn; rewrite ?Nat.add_0_r; try reflexivity. exfalso. now apply (N v).
Qed.
Lemma keeps_use : forall b o st, keeps_once st (use b o st).
Proof. intros [|] o st; [intro K; exact K|]. apply keeps_emit. discriminate. Qed.
Lemma keeps_end : forall st x, keeps_once st (s_end st x).
Proof. intros st x K. exact K. Qed.
Lemma keeps_pushFatal : forall st v, keeps_once st (s_pushFatal st v).
Proof.
  intros st v. unfold s_pushFatal. repeat match goal with |- context [if ?b then _ else _] => destruct b end;
    repeat (eapply keeps_trans; [|apply keeps_end]); repeat (eapply keeps_trans; [|apply keeps_emit; discriminate]); intro K; exact K.
Qed.
Lemma keeps_fatalCall : forall st v, keeps_once st (s_fatalCall st v).
Proof.
  intros st v. unfold s_fatalCall. cbv zeta. eapply keeps_trans; [apply (keeps_use (s_exit_init st) OExit)|].
  destruct (s_exit (use (s_exit_init st) OExit st)) as [[|n]|]; [apply keeps_pushFatal|apply keeps_emit; discriminate|apply keeps_end].
Qed.
Lemma keeps_capture : forall st l, keeps_once st (s_capture st l).
Proof.
  intros st l. unfold s_capture. cbv zeta.
  set (st1 := use (level_ready st (ULoglevels, NFatal)) (OLevel (ULoglevels, NFatal)) (use (level_ready st l) (OLevel l) st)).
  assert (K1 : keeps_once st st1) by (eapply keeps_trans; apply keeps_use). eapply keeps_trans; [exact K1|]. clearbody st1. clear K1.
  destruct (negb (level_ready st1 l)); [apply keeps_end|]. destruct (s_wasFatal st1 l).
  - unfold s_saveFatal. cbv zeta. set (st2 := s_sethook _ _). assert (K2 : keeps_once st1 st2) by (eapply keeps_trans; [apply keeps_use|]; intro K; exact K).
    eapply keeps_trans; [exact K2|]. destruct (s_hook st1) as [[|n]|]; [apply keeps_fatalCall| |apply keeps_end].
    eapply keeps_trans; [|apply keeps_fatalCall]; apply keeps_emit; discriminate.
  - unfold s_pushMessage. destruct (s_first st1) eqn:F; [apply keeps_emit; discriminate|]. destruct (s_cerr st1).
    + intro K. unfold kept_once in *. cbn [s_events s_first]. rewrite F in K. rewrite filter_app, app_length, K. reflexivity.
    + eapply keeps_trans; [|apply keeps_end]; apply keeps_emit; discriminate.
Qed.
Lemma keeps_act : forall dyn st a, keeps_once st (s_act dyn st a).
Proof.
  intros dyn st a. destruct a as [l|h|h|l b]; cbn [s_act].
  - unfold s_log. destruct dyn; [|apply keeps_capture]. destruct (s_map st) as [m|].
    + cbv zeta. eapply keeps_trans; [apply (keeps_use (level_ready st l) (OLevel l))|].
      destruct (status_of m _) as [[|]|]; [apply keeps_capture| |]; intro K; exact K.
    + eapply keeps_trans; [|apply keeps_end]; apply keeps_emit; discriminate.
  - intro K; exact K.
  - eapply keeps_trans; [apply (keeps_use (s_exit_init st) OExit)|]. intro K; exact K.
  - destruct (s_map st) as [m|].
    + destruct (level_ready st l); [intro K; exact K|]. eapply keeps_trans; [|apply keeps_end]; apply keeps_emit; discriminate.
    + eapply keeps_trans; [|apply keeps_end]; apply keeps_emit; discriminate.
Qed.
Theorem C109_first_once : forall dyn user order st, s_run dyn (s_start dyn user) order = Some st ->
  length (filter (fun e => match e with SFirst _ => true | _ => false end) (s_events st)) = if s_first st then 1%nat else 0%nat.
Proof.
  intros dyn user order st E. change (kept_once st). assert (K : kept_once (s_start dyn user)) by reflexivity. revert E K. generalize (s_start dyn user).
  induction order as [|u r IH]; intros s0 E K; cbn [s_run] in E; [injection E as <-; exact K|].
  destruct (s_step dyn s0 u) as [s1|] eqn:S; [|discriminate]. apply (IH s1 E). unfold s_step in S. destruct (s_status s0); try discriminate.
  destruct (s_left s0 u) as [|d l]; [discriminate|]. injection S as <-.
  assert (K' : kept_once (s_take s0 u l)) by exact K. clear K E IH. revert K'. generalize (s_take s0 u l). clear. intros st K.
  destruct d; try exact K; cbn [s_init].
  - apply (keeps_use (level_ready st base) (OLevel base)) in K. exact K.
  - revert st K. induction code as [|a c IH]; intros st K; [exact K|]. cbn [s_acts].
    pose proof (keeps_act dyn st a K) as K2. destruct (s_status (s_act dyn st a)); [apply IH; exact K2| | |]; exact K2.
Qed.
Print Assumptions C109_first_once.

(** with G3_DYNAMIC_LOGGING and the table of levels there: the last entry for the value of the level decides; an unknown level
    is entered as disabled and nothing is logged *)
Theorem C109_dynamic_partial : forall user order st l v m,
  s_run true (s_start true user) order = Some st -> s_status st = SRunning ->
  lookup (s_levels st) l = Some v -> s_map st = Some m ->
  match List.find (fun p => v =? fst p) m with
  | Some (_, true) => s_log true st l = s_log false st l
  | Some (_, false) => s_log true st l = st
  | None => s_status (s_log true st l) = SRunning /\ s_events (s_log true st l) = s_events st /\ s_map (s_log true st l) = Some ((v, false) :: m)
  end.
Proof.
  intros user order st l v m E S LV M.
  assert (RL : level_ready st l = true) by (unfold level_ready; rewrite LV; reflexivity).
  assert (VV : level_value st l = v) by (unfold level_value; rewrite LV; reflexivity).
  assert (F : status_of m v = option_map snd (List.find (fun p => v =? fst p) m)).
  { clear. induction m as [|[k b] r IH]; [reflexivity|]. cbn [status_of List.find fst]. destruct (v =? k); [reflexivity|exact IH]. }
  unfold s_log. rewrite M, RL. cbn [use]. cbv zeta. rewrite VV, F.
  destruct (List.find (fun p => v =? fst p) m) as [[k [|]]|]; cbn [option_map snd]; [reflexivity|reflexivity|].
  split; [exact S|]. split; reflexivity.
Qed.
Print Assumptions C109_dynamic_partial.
Example C109_ex_dynamic_off :
  let user n := match n with O => [DIostream; DObj [AAddLevel (UUser 0%nat, NInfo) false; ALog (UUser 0%nat, NInfo); ALog (UUser 0%nat, NWarning)]] | _ => [] end in
  option_map (fun st => (s_status st, s_events st))
    (s_run true (s_start true user)
       (whole true user ULoglevels ++ whole true user UG3log ++ whole true user UCrashhandler ++ whole true user (UUser 0)))
  = Some (SRunning, [SFirst 500]).
Proof. vm_compute. reflexivity. Qed.

(** with the library first: the message is kept and shown *)
Example C109_ex :
  option_map (fun st => (s_status st, s_events st))
    (s_run false (s_start false logging)
       (whole false logging ULoglevels ++ whole false logging UG3log ++ whole false logging UCrashhandler ++ whole false logging (UUser 0)))
  = Some (SRunning, [SFirst 300]).
Proof. vm_compute. reflexivity. Qed.
Example C109_ex_fatal :
  option_map (fun st => (s_status st, s_events st))
    (s_run false (s_start false logging) (whole false logging (UUser 0)))
  = Some (STerminate, [SEarly (OLevel (ULoglevels, NFatal)); SEarly ONoHook]).
Proof. vm_compute. reflexivity. Qed.
Example C109_ex_hook :
  let user n := match n with O => [DIostream; DObj [ASetHook (Some (Hook 5)); ALog (UUser 0%nat, NInfo)]] | _ => [] end in
  option_map (fun st => (s_status st, s_events st))
    (s_run false (s_start false user) (whole false user UG3log ++ whole false user UCrashhandler ++ whole false user ULogmessage ++ whole false user UTime ++
       whole false user (UUser 0)))
  = Some (SDied, [SEarly (OLevel (ULoglevels, NFatal)); SHook 5; SFatal 300]).
Proof. vm_compute. reflexivity. Qed.
(** two fatal entries before g3log.cpp, with a hook and a handler of the program: the second one finds the hook empty *)
Example C109_ex_twice :
  let user n := match n with O => [DIostream; DObj [ASetHook (Some (Hook 5)); ASetExit (Some (Handler 7)); ALog (UUser 0%nat, NFatal); ALog (UUser 0%nat, NFatal)]] | _ => [] end in
  option_map (fun st => (s_status st, s_events st, s_hook st))
    (s_run false (s_start false user) (whole false user ULoglevels ++ whole false user (UUser 0)))
  = Some (STerminate, [SEarly OExit; SEarly ONoHook; SHook 5; SEarly OExit; SHandler 7 1000; SEarly ONoHook], None).
Proof. vm_compute. reflexivity. Qed.
(** a fatal entry with only logmessage.cpp still to be initialized: its time format is not there *)
Example C109_ex_format :
  let user n := match n with O => [DIostream; DObj [ASetHook (Some HookNop); ALog (UUser 0%nat, NFatal)]] | _ => [] end in
  option_map (fun st => (s_status st, s_events st))
    (s_run false (s_start false user) (whole false user ULoglevels ++ whole false user UG3log ++ whole false user UCrashhandler ++
       whole false user UTime ++ whole false user (UUser 0)))
  = Some (SUndefined, [SEarly OFormats]).
Proof. vm_compute. reflexivity. Qed.
Example C109_ex_dynamic :
  option_map (fun st => (s_status st, s_events st))
    (s_run true (s_start true logging)
       (whole true logging ULoglevels ++ whole true logging UG3log ++ whole true logging UCrashhandler ++ whole true logging (UUser 0)))
  = Some (SRunning, [SFirst 300]).
Proof. vm_compute. reflexivity. Qed.

(** C110: a fatal exit handler set before main is the one in force in main.  False: g3log.cpp's own initialization comes later
    and puts the default one back. *)
Definition setting (n : nat) : list def := match n with O => [DObj [ASetExit (Some (Handler 7))]] | _ => [] end.

Theorem C110_refuted : exists order st,
  s_run false (s_start false setting) order = Some st /\ s_status st = SRunning /\
  library_done st /\ s_left st (UUser 0) = [] /\ s_exit st = Some HandlerDefault.
Proof.
  exists (whole false setting (UUser 0) ++ whole false setting UG3log ++ whole false setting ULoglevels ++ whole false setting UCrashhandler ++
    whole false setting ULogmessage ++ whole false setting UTime ++ whole false setting UFilesink).
  eexists. split; [vm_compute; reflexivity|]. split; [reflexivity|]. split; [repeat split; reflexivity|]. split; reflexivity.
Qed.
Print Assumptions C110_refuted.

Lemma acts_exit : forall dyn code st, (forall h, ~ In (ASetExit h) code) -> s_exit (s_acts dyn st code) = s_exit st.
Proof.
  assert (PF : forall st v, s_exit (s_pushFatal st v) = s_exit st).
  { intros. unfold s_pushFatal. destruct (negb (s_formats st)); [reflexivity|]. destruct (negb (s_fraction st)); [reflexivity|]. destruct (negb (s_cerr st)); [reflexivity|]. cbn zeta. destruct (s_signals (s_emit st [SFatal v])); reflexivity. }
  assert (U : forall b o st, s_exit (use b o st) = s_exit st) by (intros [] o st; reflexivity).
  assert (FC : forall st v, s_exit (s_fatalCall st v) = s_exit st).
  { intros. unfold s_fatalCall. cbn zeta. rewrite U. destruct (s_exit st) as [[|n]|] eqn:X; [rewrite PF, U; exact X | cbn; rewrite U; exact X | cbn; rewrite U; exact X]. }
  assert (CA : forall st l, s_exit (s_capture st l) = s_exit st).
  { intros. unfold s_capture. cbn zeta.
    set (st1 := use (level_ready st (ULoglevels, NFatal)) (OLevel (ULoglevels, NFatal)) (use (level_ready st l) (OLevel l) st)).
    assert (X : s_exit st1 = s_exit st) by (unfold st1; rewrite !U; reflexivity).
    destruct (negb (level_ready st1 l)); [exact X|]. destruct (s_wasFatal st1 l).
    - unfold s_saveFatal. cbn zeta. destruct (s_hook st1) as [[|n]|].
      + rewrite FC. cbn. rewrite U. exact X.
      + rewrite FC. cbn. rewrite U. exact X.
      + cbn. rewrite U. exact X.
    - unfold s_pushMessage. destruct (s_first st1); [exact X|]. destruct (s_cerr st1); exact X. }
  assert (AC : forall dyn st a, (forall h, a <> ASetExit h) -> s_exit (s_act dyn st a) = s_exit st).
  { intros dyn st [l|h|h|l b] H; cbn [s_act].
    - unfold s_log. destruct dyn; [|apply CA]. destruct (s_map st) as [m|]; [|reflexivity]. cbn zeta.
      destruct (status_of m (level_value (use (level_ready st l) (OLevel l) st) l)) as [[]|]; [rewrite CA|..]; try apply U.
    - reflexivity.
    - elim (H h eq_refl).
    - destruct (s_map st); [|reflexivity]. destruct (level_ready st l); reflexivity. }
  induction code as [|a r IH]; intros st H; cbn [s_acts]; [reflexivity|]. cbn zeta.
  assert (A : s_exit (s_act dyn st a) = s_exit st) by (apply AC; intros h ->; apply (H h); now left).
  destruct (s_status (s_act dyn st a)); try exact A. rewrite IH; [exact A|]. intros h I. apply (H h). now right.
Qed.

(** once g3log.cpp's object is initialized, the handler that is set stays: nothing that follows before main changes it, except
    another call of setFatalExitHandler *)
Theorem C110_stays_partial : forall dyn user o1 o2 st1 st2,
  s_run dyn (s_start dyn user) o1 = Some st1 -> s_left st1 UG3log = [] ->
  (forall n, no_setexit (s_left st1 (UUser n))) -> (forall n d, In d (user n) -> users_def d = true) ->
  s_run dyn st1 o2 = Some st2 -> s_exit st2 = s_exit st1.
Proof.
  intros dyn user o1 o2 st1 st2 E1 L NS UD E2. pose proof (inv2_run _ _ _ _ _ (inv2_start dyn user) E1) as J.
  clear E1. revert o2 st1 J L NS E2.
  induction o2 as [|u r IH]; intros st1 J L NS E2; cbn [s_run] in E2; [injection E2 as <-; auto|].
  destruct (s_step dyn st1 u) as [s1|] eqn:S1; [|discriminate].
  assert (K : s_exit s1 = s_exit st1 /\ (forall w d, In d (s_left s1 w) -> In d (s_left st1 w))).
  { pose proof S1 as S2. unfold s_step in S2. destruct (s_status st1); try discriminate.
    destruct (s_left st1 u) as [|d l] eqn:LU; [discriminate|]. injection S2 as <-. split.
    - assert (ID : In d (defs dyn user u)).
      { destruct (J u) as [dn [D _]]. rewrite LU in D. rewrite D. apply in_or_app. right. now left. }
      destruct d; try reflexivity.
      + unfold s_init. cbn zeta. cbn. destruct (level_ready _ base); reflexivity.
      + exfalso. destruct u as [| | | | | |n]; [rewrite L in LU; discriminate|..].
        * destruct dyn; cbn in ID; intuition discriminate.
        * cbn in ID. intuition discriminate.
        * cbn in ID. intuition discriminate.
        * cbn in ID. intuition discriminate.
        * cbn in ID. intuition discriminate.
        * cbn [defs] in ID. apply in_app_iff in ID. destruct ID as [ID|ID]; [cbn in ID; intuition discriminate|].
          specialize (UD n _ ID). discriminate.
      + unfold s_init. rewrite acts_exit; [reflexivity|]. intros h I. destruct u as [| | | | | |n].
        * rewrite L in LU. discriminate.
        * destruct dyn; cbn in ID; intuition discriminate.
        * cbn in ID. intuition discriminate.
        * cbn in ID. intuition discriminate.
        * cbn in ID. intuition discriminate.
        * cbn in ID. intuition discriminate.
        * refine (NS n code h _ I). rewrite LU. now left.
    - intros w d0 I. rewrite init_left, left_take in I. destruct (tunit_eqb w u) eqn:WU; [|exact I].
      apply tunit_eqb_spec in WU. subst w. rewrite LU. now right. }
  destruct K as [K1 K2]. rewrite <- K1. apply IH.
  - eapply inv2_step; eassumption.
  - destruct (s_left s1 UG3log) as [|d l] eqn:LL; [reflexivity|]. specialize (K2 UG3log d). rewrite LL, L in K2. destruct (K2 (or_introl eq_refl)).
  - intros n code h I1 I2. exact (NS n code h (K2 _ _ I1) I2).
  - exact E2.
Qed.
Print Assumptions C110_stays_partial.

Example C110_ex :
  option_map (fun st => (s_status st, s_exit_init st, s_exit st))
    (s_run false (s_start false setting) (whole false setting UG3log ++ whole false setting (UUser 0) ++ whole false setting ULoglevels))
  = Some (SRunning, true, Some (Handler 7)).
Proof. vm_compute. reflexivity. Qed.
