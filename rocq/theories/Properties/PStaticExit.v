(** After main: C112. *)
From Coq Require Import List ZArith Bool Lia.
From Verif.Model Require Import Levels Global StaticInit StaticExit.
From Verif.Spec Require Import StaticInitSpec StaticExitSpec.
From Verif.Proofs Require Import StaticInitFacts StaticExitFacts.
Import ListNotations.
Local Open Scope list_scope.
Local Open Scope Z_scope.

(** all of a unit's objects at once *)
Definition x_whole (dyn : bool) (user : nat -> list xdef) (u : tunit) : list tunit := repeat u (length (x_defs dyn user u)).
(** all of the library *)
Definition x_library (dyn : bool) (user : nat -> list xdef) : list tunit :=
  x_whole dyn user ULoglevels ++ x_whole dyn user UG3log ++ x_whole dyn user UCrashhandler ++ x_whole dyn user ULogmessage ++
  x_whole dyn user UTime ++ x_whole dyn user UFilesink.

(** an object whose destructor logs; an object that owns a worker; both, the logging one constructed later or earlier *)
Definition logs (n : nat) : list xdef := match n with O => [XObj [XLog (UUser 0%nat, NInfo)]] | _ => [] end.
Definition owns (n : nat) : list xdef := match n with O => [XWorker 7] | _ => [] end.
Definition both (n : nat) : list xdef := match n with O => [XWorker 7; XObj [XLog (UUser 0%nat, NInfo)]] | _ => [] end.
Definition both2 (n : nat) : list xdef :=
  match n with O => [XObj [XLog (UUser 0%nat, NInfo); XLog (UUser 0%nat, NWarning)]; XWorker 7; XObj [XLog (UUser 0%nat, NInfo)]] | _ => [] end.

(** False: when the program's file is initialized before the library's, its objects are destroyed after the library's.  A LOG
    in a destructor then uses the destroyed g_first_uninitialized_msg, or with G3_DYNAMIC_LOGGING the destroyed level
    table, though a logger is active; a worker owned by a static object renders its last entries with destroyed formats. *)
Theorem C112_refuted :
  (forall n, x_above (UUser n) (x_defs false logs (UUser n)) /\ x_above (UUser n) (x_defs true logs (UUser n)) /\ x_above (UUser n) (x_defs false owns (UUser n))) /\
  (exists order objs k st, x_build (x_defs false logs) [] order = Some objs /\ whole_library false logs objs /\
     x_run false (x_start objs None [] false (Some HookNop) (Some HandlerDefault)) k = Some st /\ x_status st = XUndefined) /\
  (exists order objs k st, x_build (x_defs true logs) [] order = Some objs /\ whole_library true logs objs /\
     x_run true (x_start objs (Some 3%nat) [(300, true)] false (Some HookNop) (Some HandlerDefault)) k = Some st /\ x_status st = XUndefined) /\
  (exists order objs k st, x_build (x_defs false owns) [] order = Some objs /\ whole_library false owns objs /\
     x_run false (x_start objs (Some 7%nat) [] false (Some HookNop) (Some HandlerDefault)) k = Some st /\ x_status st = XUndefined).
Proof.
  assert (A : forall dyn n, x_above (UUser n) (x_defs dyn logs (UUser n))).
  { intros dyn n l1 d l2 E r I. destruct n as [|n]; cbn in E.
    - do 7 (destruct l1 as [|? l1]; cbn in E; injection E as <- E; [destruct I|]).
      destruct l1 as [|? l1]; cbn in E; injection E as <- E; [destruct I as [<-|[]]; cbn; auto 10|]. destruct l1; discriminate.
    - do 7 (destruct l1 as [|? l1]; cbn in E; injection E as <- E; [destruct I|]). destruct l1; discriminate. }
  assert (B : forall n, x_above (UUser n) (x_defs false owns (UUser n))).
  { intros n l1 d l2 E r I. destruct n as [|n]; cbn in E.
    - do 8 (destruct l1 as [|? l1]; cbn in E; injection E as <- E; [destruct I|]). destruct l1; discriminate.
    - do 7 (destruct l1 as [|? l1]; cbn in E; injection E as <- E; [destruct I|]). destruct l1; discriminate. }
  split; [intro n; split; [apply A | split; [apply A | apply B]]|]. split; [|split].
  - exists (x_whole false logs (UUser 0) ++ x_library false logs). eexists. exists (S (length (x_library false logs))). eexists.
    split; [vm_compute; reflexivity|]. split; [intros [| | | | | |n] L; [vm_compute; reflexivity .. | destruct L]|]. split; [vm_compute; reflexivity | reflexivity].
  - exists (x_whole true logs (UUser 0) ++ x_library true logs). eexists. exists (S (length (x_library true logs))). eexists.
    split; [vm_compute; reflexivity|]. split; [intros [| | | | | |n] L; [vm_compute; reflexivity .. | destruct L]|]. split; [vm_compute; reflexivity | reflexivity].
  - exists (x_whole false owns (UUser 0) ++ x_library false owns). eexists. exists (S (length (x_library false owns))). eexists.
    split; [vm_compute; reflexivity|]. split; [intros [| | | | | |n] L; [vm_compute; reflexivity .. | destruct L]|]. split; [vm_compute; reflexivity | reflexivity].
Qed.
Print Assumptions C112_refuted.

Lemma suffix_split : forall (A : Type) (x : A) us a r ls, a ++ x :: r = us ++ ls -> ~ In x ls -> exists r', r = r' ++ ls.
Proof.
  intros A x us. induction us as [|y us IH]; intros a r ls E N.
  - exfalso. apply N. cbn in E. rewrite <- E. apply in_or_app. right. now left.
  - destruct a as [|z a]; cbn in E; injection E as -> E; [exists us; exact E | eapply IH; eassumption].
Qed.

(** When the library's files are initialized first (as those of a shared library are), nothing is used too late, whatever the
    program's files define, in whatever order they come, and whatever main has left behind. *)
Theorem C112_library_first_partial : forall dyn user o1 o2 ls objs active m first h f k st,
  (forall n, x_above (UUser n) (x_defs dyn user (UUser n))) ->
  (forall u, In u o1 -> of_library u) -> x_build (x_defs dyn user) [] o1 = Some ls -> whole_library dyn user ls ->
  x_build (x_defs dyn user) [] (o1 ++ o2) = Some objs ->
  x_run dyn (x_start objs active m first h f) k = Some st ->
  none_late st /\ x_status st <> XUndefined.
Proof.
  intros dyn user o1 o2 ls objs active m first h f k st AB L1 B1 W B R.
  destruct (build_app _ _ _ _ _ B) as (mid & left2 & M1 & M2). assert (mid = ls) by congruence. subst mid. clear M1.
  destruct (build_split _ _ _ _ M2) as (us & EO & _ & _).
  assert (LS : forall u d, In (u, d) ls -> of_library u).
  { intros u d I. destruct (build_split _ _ _ _ B1) as (new & EN & _ & C). rewrite app_nil_r in EN. subst new. apply L1. eapply C. exact I. }
  assert (G : forall k st0, (exists a, objs = a ++ x_live st0) -> none_late st0 -> x_status st0 <> XUndefined -> x_run dyn st0 k = Some st ->
              none_late st /\ x_status st <> XUndefined).
  { clear R k. induction k as [|k IH]; intros st0 SU NL NU R; cbn [x_run] in R; [injection R as <-; auto|].
    destruct (x_step dyn st0) as [st1|] eqn:S; [|discriminate].
    unfold x_step in S. destruct (x_status st0) eqn:ST; try discriminate. destruct (x_live st0) as [|[u d] r] eqn:LV; [discriminate|].
    injection S as S. destruct SU as [a SU].
    set (st2 := mkX r (x_all st0) (x_active st0) (x_map st0) (x_first st0) (x_hook st0) (x_exit st0) XRunning (x_events st0)) in *.
    assert (IN : In d (x_defs dyn user u)).
    { destruct (built_above _ _ _ _ _ _ _ _ B SU) as [rest ->]. apply in_or_app. right. now left. }
    assert (O : ok st2 st1).
    { destruct d; try (subst st1; apply ok_refl).
      - assert (exists n, u = UUser n) as [n ->].
        { destruct u; try (exfalso; destruct dyn; cbn in IN; intuition discriminate). eauto. }
        assert (NI : ~ In (UUser n, XObj dtor) ls) by (intro I; exact (LS _ _ I)).
        destruct (suffix_split _ _ us a r ls (eq_trans (eq_sym SU) EO) NI) as [r' ER].
        subst st1. apply ok_acts.
        + cbn [x_live st2]. rewrite ER. eapply whole_alive. exact W.
        + intros x I. destruct (built_above _ _ _ _ _ _ _ _ B SU) as [rest DF].
          destruct (AB n _ _ _ DF x) as [FU FN].
          { cbn [x_refs]. apply in_flat_map. exists (XLog x). split; [exact I | now left]. }
          destruct x as [xu xk]. cbn [fst snd] in *. subst xu. apply alive_level. apply in_x_names in FN. destruct FN as [v FN].
          exists v. apply in_of_unit. exact FN.
      - assert (exists n, u = UUser n) as [n ->].
        { destruct u; try (exfalso; destruct dyn; cbn in IN; intuition discriminate). eauto. }
        assert (NI : ~ In (UUser n, XWorker w) ls) by (intro I; exact (LS _ _ I)).
        destruct (suffix_split _ _ us a r ls (eq_trans (eq_sym SU) EO) NI) as [r' ER].
        subst st1. apply ok_worker. cbn [x_live st2]. rewrite ER. eapply whole_alive. exact W. }
    destruct O as (O1 & O2 & O3 & O4). apply (IH st1); [|intros o I; exact (NL o (O1 o I))| |exact R].
    - exists (a ++ [(u, d)]). rewrite O3, <- app_assoc. exact SU.
    - intro H. apply O2 in H. discriminate. }
  apply (G k (x_start objs active m first h f)); [exists []; reflexivity | intros o [] | discriminate | exact R].
Qed.
Print Assumptions C112_library_first_partial.

Lemma step_suffix : forall dyn st st1, x_step dyn st = Some st1 -> exists p, x_live st = p :: x_live st1 /\ x_all st1 = x_all st.
Proof.
  intros dyn st st1 S. unfold x_step in S. destruct (x_status st); try discriminate. destruct (x_live st) as [|[u d] r] eqn:LV; [discriminate|].
  injection S as <-. exists (u, d). destruct d; try (split; reflexivity).
  - destruct (acts_live dyn dtor (mkX r (x_all st) (x_active st) (x_map st) (x_first st) (x_hook st) (x_exit st) XRunning (x_events st))) as [A B].
    rewrite A, B. split; reflexivity.
  - destruct (worker_live dyn (mkX r (x_all st) (x_active st) (x_map st) (x_first st) (x_hook st) (x_exit st) XRunning (x_events st)) w) as [A B].
    rewrite A, B. split; reflexivity.
Qed.
Lemma run_all : forall dyn k st st1, x_run dyn st k = Some st1 -> x_all st1 = x_all st.
Proof.
  induction k as [|k IH]; intros st st1 R; cbn [x_run] in R; [injection R as <-; reflexivity|].
  destruct (x_step dyn st) as [s|] eqn:S; [|discriminate]. destruct (step_suffix _ _ _ S) as (p & _ & A). rewrite (IH _ _ R). exact A.
Qed.

(** In every order of construction, exactly: an enabled LOG of a level below FATAL, in a destructor whose level object is alive.
    With an active logger the entry goes there; otherwise it is dropped, or kept as the first one; only in this last case
    a destroyed object may be used for more than reading FATAL.value. *)
Theorem C112_entry_partial : forall user order objs active m first h f k st l v,
  x_build (x_defs false user) [] order = Some objs -> whole_library false user objs ->
  x_run false (x_start objs active m first h f) k = Some st -> x_status st = XRunning ->
  x_alive st (XOLevel l) = true -> x_value objs l = v -> v < 1000 ->
  exists late, (late = [] \/ late = [XLate (XOLevel (ULoglevels, NFatal))]) /\
  match x_active st with
  | Some w => x_status (x_log false st l) = XRunning /\ x_events (x_log false st l) = x_events st ++ late ++ [XSaved w v]
  | None =>
      if x_first st then x_status (x_log false st l) = XRunning /\ x_events (x_log false st l) = x_events st ++ late ++ [XDropped v]
      else if x_alive st XOFirst
      then x_status (x_log false st l) = XRunning /\ x_events (x_log false st l) = x_events st ++ late ++ [XKept v] /\ x_first (x_log false st l) = true
      else x_status (x_log false st l) = XUndefined
  end.
Proof.
  intros user order objs active m first h f k st l v B W R S A V LT.
  assert (AL : x_all st = objs) by (rewrite (run_all _ _ _ _ R); reflexivity).
  assert (FV : x_value objs (ULoglevels, NFatal) = 1000) by (eapply fatal_is; exact W).
  unfold x_log, x_capture. cbn zeta. rewrite (read_alive st l A). unfold x_read.
  destruct (x_alive st (XOLevel (ULoglevels, NFatal))) eqn:AF; [exists []; split; [now left|] | exists [XLate (XOLevel (ULoglevels, NFatal))]; split; [now right|]].
  - rewrite need_alive by (intros o [<-|[]]; exact A). rewrite AL, FV, V. destruct (1000 <=? v) eqn:C; [apply Z.leb_le in C; lia|].
    unfold x_pushMessage. destruct (x_active st) as [w|]; [split; [exact S | reflexivity]|].
    destruct (x_first st); [split; [exact S | reflexivity]|]. cbn [x_need]. destruct (x_alive st XOFirst); [|reflexivity].
    split; [exact S|]. split; reflexivity.
  - set (st1 := x_emit st [XLate (XOLevel (ULoglevels, NFatal))]).
    assert (A1 : forall o, x_alive st1 o = x_alive st o) by reflexivity.
    rewrite need_alive by (intros o [<-|[]]; rewrite A1; exact A). cbn [x_all st1 x_emit]. rewrite AL, FV, V. destruct (1000 <=? v) eqn:C; [apply Z.leb_le in C; lia|].
    unfold x_pushMessage. replace (x_active st1) with (x_active st) by reflexivity. replace (x_first st1) with (x_first st) by reflexivity.
    destruct (x_active st) as [w|]; [split; [exact S | cbn; rewrite <- app_assoc; reflexivity]|].
    destruct (x_first st); [split; [exact S | cbn; rewrite <- app_assoc; reflexivity]|]. cbn [x_need]. rewrite A1. destruct (x_alive st XOFirst); [|reflexivity].
    split; [exact S|]. split; [cbn; rewrite <- app_assoc; reflexivity | reflexivity].
Qed.
Print Assumptions C112_entry_partial.

(** In every order of construction, exactly: an enabled fatal LOG in a destructor whose level object is alive.  The hook and what it is replaced
    by must be alive, then the function that takes the message, then what renders it, then the table of signals; where one is gone the behaviour
    is undefined.  Otherwise: the hook runs; an empty hook or an empty function ends the process by terminate; a handler of the program gets the message;
    the library's shows it, or hands it to the worker, and kills the process. *)
Theorem C112_fatal_partial : forall user order objs active m first h f k st l v,
  x_build (x_defs false user) [] order = Some objs -> whole_library false user objs ->
  x_run false (x_start objs active m first h f) k = Some st -> x_status st = XRunning ->
  x_alive st (XOLevel l) = true -> x_value objs l = v -> 1000 <= v ->
  let st' := x_log false st l in
  exists late, (late = [] \/ late = [XLate (XOLevel (ULoglevels, NFatal))]) /\
  if x_alive st XOHook && x_alive st XONoHook then
    match x_hook st with
    | None => x_status st' = XTerminate /\ x_events st' = x_events st ++ late
    | Some hk =>
        let ran := match hk with HookNop => [] | Hook n => [XRan n] end in
        x_hook st' = Some HookNop /\
        if x_alive st XOExit then
          match x_exit st with
          | None => x_status st' = XTerminate /\ x_events st' = x_events st ++ late ++ ran
          | Some (Handler n) => x_status st' = XRunning /\ x_events st' = x_events st ++ late ++ ran ++ [XHandled n v]
          | Some HandlerDefault =>
              if x_alive st XOFormats && x_alive st XOFraction && (match x_active st with Some _ => x_alive st XOFileFormats | None => true end) && x_alive st XOSignals
              then x_status st' = XDied /\
                   x_events st' = x_events st ++ late ++ ran ++ [match x_active st with Some w => XFatalTo w v | None => XFatalShown v end]
              else x_status st' = XUndefined
          end
        else x_status st' = XUndefined
    end
  else x_status st' = XUndefined.
Proof.
  intros user order objs active m first h f k st l v B W R S A V GE st'. subst st'.
  assert (AL : x_all st = objs) by (rewrite (run_all _ _ _ _ R); reflexivity).
  assert (FV : x_value objs (ULoglevels, NFatal) = 1000) by (eapply fatal_is; exact W).
  set (late := if x_alive st (XOLevel (ULoglevels, NFatal)) then [] else [XLate (XOLevel (ULoglevels, NFatal))]).
  exists late. split; [unfold late; destruct (x_alive st (XOLevel (ULoglevels, NFatal))); auto|].
  assert (E : x_log false st l = x_saveFatal (x_emit st late) v).
  { unfold x_log, x_capture. cbn zeta. rewrite (read_alive st l A).
    assert (RD : x_read st (ULoglevels, NFatal) = x_emit st late \/ (late = [] /\ x_read st (ULoglevels, NFatal) = st)).
    { unfold x_read, late. destruct (x_alive st (XOLevel (ULoglevels, NFatal))); auto. }
    assert (ST : x_emit st [] = st) by (unfold x_emit; rewrite app_nil_r; destruct st; reflexivity).
    assert (RD' : x_read st (ULoglevels, NFatal) = x_emit st late) by (destruct RD as [RD|[L0 RD]]; [exact RD|rewrite L0, ST; exact RD]).
    rewrite RD'. rewrite need_alive by (intros o [<-|[]]; exact A). cbn [x_all x_emit]. rewrite AL, FV, V.
    destruct (1000 <=? v) eqn:C; [reflexivity|apply Z.leb_gt in C; lia]. }
  rewrite E. clear E. unfold x_saveFatal. set (s1 := x_emit st late).
  assert (A1 : forall o, x_alive s1 o = x_alive st o) by reflexivity.
  assert (NE : forall s2 o go, x_need s2 [o] go = if x_alive s2 o then go s2 else x_end (x_emit s2 [XLate o]) XUndefined) by reflexivity.
  cbn [x_need]. rewrite !A1. destruct (x_alive st XOHook); cbn [andb]; [|reflexivity]. destruct (x_alive st XONoHook); [|reflexivity].
  cbn zeta. replace (x_hook s1) with (x_hook st) by reflexivity.
  destruct (x_hook st) as [hk|]; [|split; reflexivity].
  set (ran := match hk with HookNop => [] | Hook n => [XRan n] end).
  replace (match hk with HookNop => x_fatalCall (x_sethook s1 (Some HookNop)) v | Hook n => x_fatalCall (x_emit (x_sethook s1 (Some HookNop)) [XRan n]) v end)
    with (x_fatalCall (x_emit (x_sethook s1 (Some HookNop)) ran) v).
  2:{ unfold ran. destruct hk; [|reflexivity]. unfold x_emit at 1. rewrite app_nil_r. reflexivity. }
  set (s2 := x_emit (x_sethook s1 (Some HookNop)) ran).
  assert (A2 : forall o, x_alive s2 o = x_alive st o) by reflexivity.
  assert (EV : x_events s2 = x_events st ++ late ++ ran) by (cbn; rewrite <- app_assoc; reflexivity).
  unfold x_fatalCall. rewrite NE, A2.
  assert (HK : forall es s, x_hook (x_end (x_emit s2 es) s) = Some HookNop) by reflexivity.
  destruct (x_alive st XOExit); [|split; reflexivity].
  replace (x_exit s2) with (x_exit st) by reflexivity. destruct (x_exit st) as [[|n]|].
  - unfold x_pushFatal. replace (x_active s2) with (x_active st) by reflexivity.
    destruct (x_active st) as [w|]; cbn [x_need]; rewrite !A2;
      destruct (x_alive st XOFormats); cbn [andb]; try (split; reflexivity); destruct (x_alive st XOFraction); cbn [andb]; try (split; reflexivity).
    + destruct (x_alive st XOFileFormats); cbn [andb]; try (split; reflexivity).
      assert (A3 : x_alive (x_emit s2 [XFatalTo w v]) XOSignals = x_alive st XOSignals) by reflexivity. rewrite A3.
      destruct (x_alive st XOSignals); [|split; reflexivity]. split; [reflexivity|]. split; [reflexivity|].
      cbn [x_end x_emit x_events]. fold s2. rewrite EV, <- !app_assoc. reflexivity.
    + assert (A3 : x_alive (x_emit s2 [XFatalShown v]) XOSignals = x_alive st XOSignals) by reflexivity. rewrite A3.
      destruct (x_alive st XOSignals); [|split; reflexivity]. split; [reflexivity|]. split; [reflexivity|].
      cbn [x_end x_emit x_events]. rewrite EV, <- !app_assoc. reflexivity.
  - split; [reflexivity|]. split; [exact S|]. cbn [x_emit x_events]. rewrite EV, <- !app_assoc. reflexivity.
  - split; [reflexivity|]. split; [reflexivity|]. exact EV.
Qed.
Print Assumptions C112_fatal_partial.

Lemma run_suffix : forall dyn k st st1, x_run dyn st k = Some st1 -> exists a, x_live st = a ++ x_live st1.
Proof.
  induction k as [|k IH]; intros st st1 R; cbn [x_run] in R; [injection R as <-; exists []; reflexivity|].
  destruct (x_step dyn st) as [s|] eqn:S; [|discriminate]. destruct (step_suffix _ _ _ S) as (p & L & _). destruct (IH _ _ R) as [a L'].
  exists (p :: a). rewrite L, L'. reflexivity.
Qed.
(** g3log.cpp's own objects go in the reverse order of its definitions: the function that takes fatal messages, the hook, what the hook is replaced
    by, the first message.  So a destructor that can still fail a process with the first can do so with all of them. *)
Theorem C112_g3log_order : forall dyn user order objs active m first h f k st,
  (forall n d, In d (user n) -> match d with XLevel _ _ | XObj _ | XWorker _ => True | _ => False end) ->
  x_build (x_defs dyn user) [] order = Some objs -> x_run dyn (x_start objs active m first h f) k = Some st ->
  (x_alive st XOExit = true -> x_alive st XOHook = true) /\
  (x_alive st XOHook = true -> x_alive st XONoHook = true) /\
  (x_alive st XONoHook = true -> x_alive st XOFirst = true).
Proof.
  intros dyn user order objs active m first h f k st UD B R. destruct (run_suffix _ _ _ _ R) as [a L]. cbn [x_start x_live] in L.
  assert (G : forall d, match d with XExit | XHook | XNoHook => True | _ => False end -> forall u, In (u, d) (x_live st) ->
    exists p r rest, x_live st = p ++ (u, d) :: r /\ u = UG3log /\ x_header ++ [XFirst; XNoHook; XHook; XExit] = of_unit u r ++ d :: rest).
  { intros d D u I. apply in_split in I. destruct I as (p & r & E). rewrite E in L. rewrite app_assoc in L.
    destruct (built_above _ _ _ _ _ _ _ _ B L) as [rest DF]. exists p, r, rest. split; [exact E|].
    assert (U : u = UG3log).
    { assert (IN : In d (x_defs dyn user u)) by (rewrite DF; apply in_or_app; right; now left).
      destruct u as [| | | | | |n]; [reflexivity|..]; exfalso; cbn [x_defs] in IN; try (apply in_app_iff in IN; destruct IN as [IN|IN]).
      all: try (destruct dyn; cbn in IN; repeat (destruct IN as [<-|IN]; [exact D|]); exact IN).
      apply UD in IN. destruct d; contradiction. }
    subst u. split; [reflexivity|exact DF]. }
  assert (OUT : forall o d, (forall u, is_obj o (u, d) = true) -> (forall u e, is_obj o (u, e) = true -> e = d) ->
    (x_alive st o = true <-> exists u, In (u, d) (x_live st))).
  { intros o d O1 O2. unfold x_alive. rewrite existsb_exists. split.
    - intros ([u e] & I & E). apply O2 in E. subst e. eauto.
    - intros (u & I). exists (u, d). auto. }
  assert (GO : forall o d o2 d2, match d with XExit | XHook | XNoHook => True | _ => False end ->
    (forall u, is_obj o (u, d) = true) -> (forall u e, is_obj o (u, e) = true -> e = d) ->
    (forall u, is_obj o2 (u, d2) = true) -> (forall u e, is_obj o2 (u, e) = true -> e = d2) ->
    (forall l rest, x_header ++ [XFirst; XNoHook; XHook; XExit] = l ++ d :: rest -> In d2 l) -> x_alive st o = true -> x_alive st o2 = true).
  { intros o d o2 d2 D O1 O2 P1 P2 Q X. rewrite (OUT o d) in X by assumption. rewrite (OUT o2 d2) by assumption. destruct X as (u & I).
    destruct (G d D u I) as (p & r & rest & E & -> & DF). apply Q in DF. apply in_of_unit in DF. exists UG3log. rewrite E. apply in_or_app. right. now right. }
  assert (OB : forall o d, match o, d with XOExit, XExit | XOHook, XHook | XONoHook, XNoHook | XOFirst, XFirst => True | _, _ => False end ->
    (forall u, is_obj o (u, d) = true) /\ (forall u e, is_obj o (u, e) = true -> e = d)).
  { intros o d OD. split; [intro u|intros u e]; destruct o, d; try contradiction; try reflexivity; destruct e; cbn; intro; try discriminate; reflexivity. }
  assert (LS : forall d d2, match d, d2 with XExit, XHook | XHook, XNoHook | XNoHook, XFirst => True | _, _ => False end ->
    forall l rest, x_header ++ [XFirst; XNoHook; XHook; XExit] = l ++ d :: rest -> In d2 l).
  { intros d d2 DD l rest E. unfold x_header in E. cbn [app] in E.
    destruct d, d2; try contradiction;
      do 11 (destruct l as [|? l]; cbn [app] in E; [discriminate E || (injection E; intros; discriminate)|injection E as <- E; try (cbn; tauto)]);
      try (destruct l; discriminate E); cbn; tauto. }
  split; [|split].
  - apply (GO XOExit XExit XOHook XHook I); try apply OB; try exact I. apply LS. exact I.
  - apply (GO XOHook XHook XONoHook XNoHook I); try apply OB; try exact I. apply LS. exact I.
  - apply (GO XONoHook XNoHook XOFirst XFirst I); try apply OB; try exact I. apply LS. exact I.
Qed.
Print Assumptions C112_g3log_order.
(** g3log.cpp half destroyed: the function that takes fatal messages is gone, what is left is used up to there *)
Example C112_ex_order :
  let user n := match n with O => [XObj [XLog (UUser 0%nat, NFatal)]] | _ => [] end in
  match x_build (x_defs false user) [] (x_library false user) with
  | Some objs => option_map (fun st => (map (x_alive st) [XOExit; XOHook; XONoHook; XOFirst], x_status st))
      (x_run false (x_start objs None [] false (Some HookNop) (Some HandlerDefault)) 26)
  | None => None
  end = Some ([false; true; true; true], XRunning).
Proof. vm_compute. reflexivity. Qed.

(** with G3_DYNAMIC_LOGGING: undefined if the table of levels is gone; otherwise the last entry for the value of the level decides, and
    an unknown level is entered as disabled and nothing is logged *)
Theorem C112_dynamic_partial : forall user order objs active m first h f k st l v,
  x_build (x_defs true user) [] order = Some objs ->
  x_run true (x_start objs active m first h f) k = Some st -> x_status st = XRunning ->
  x_alive st (XOLevel l) = true -> x_value objs l = v ->
  if x_alive st XOMap then
    match List.find (fun p => v =? fst p) (x_map st) with
    | Some (_, true) => x_log true st l = x_log false st l
    | Some (_, false) => x_log true st l = st
    | None => x_status (x_log true st l) = XRunning /\ x_events (x_log true st l) = x_events st /\ x_map (x_log true st l) = (v, false) :: x_map st
    end
  else x_status (x_log true st l) = XUndefined.
Proof.
  intros user order objs active m first h f k st l v B R S A V.
  assert (AL : x_all st = objs) by (rewrite (run_all _ _ _ _ R); reflexivity).
  unfold x_log. rewrite (read_alive st l A). cbn [x_need]. destruct (x_alive st XOMap); [|reflexivity]. rewrite AL, V.
  assert (FS : status_of (x_map st) v = match List.find (fun p => v =? fst p) (x_map st) with Some (_, b) => Some b | None => None end).
  { generalize (x_map st). induction l0 as [|[q b] r IH]; [reflexivity|]. cbn [status_of List.find fst]. destruct (v =? q); [reflexivity|exact IH]. }
  rewrite FS. destruct (List.find _ (x_map st)) as [[q [|]]|]; auto.
Qed.
Print Assumptions C112_dynamic_partial.

(** the seven levels of g3log in every file that includes loglevels.hpp, with the values of Model/Levels.v *)
Theorem C112_standard_levels : forall dyn user u, u <> UTime ->
  firstn 7 (x_defs dyn user u) =
  map (fun p => XLevel (fst p) (value (snd p)))
    [(NDebug, G3LOG_DEBUG); (NInfo, INFO); (NWarning, WARNING); (NFatal, FATAL); (NContract, CONTRACT); (NSignal, FATAL_SIGNAL); (NException, FATAL_EXCEPTION)].
Proof. intros dyn user u U. destruct u; try reflexivity. now destruct U. Qed.
Print Assumptions C112_standard_levels.

(** the library first: a static worker takes the entries of objects that are destroyed before it and writes them; those that
    are destroyed after it get one entry kept and the others dropped *)
Example C112_ex :
  match x_build (x_defs false both2) [] (x_library false both2 ++ x_whole false both2 (UUser 0)) with
  | Some objs => option_map (fun st => (x_status st, x_events st)) (x_run false (x_start objs (Some 7%nat) [] false (Some HookNop) (Some HandlerDefault)) (length objs))
  | None => None
  end = Some (XRunning, [XSaved 7 300; XFlushed 7; XKept 300; XDropped 500]).
Proof. vm_compute. reflexivity. Qed.
(** two static workers: the one that is not active says so *)
Example C112_ex_two :
  let user n := match n with O => [XWorker 7; XWorker 8] | _ => [] end in
  match x_build (x_defs true user) [] (x_library true user ++ x_whole true user (UUser 0)) with
  | Some objs => option_map (fun st => (x_status st, x_events st)) (x_run true (x_start objs (Some 7%nat) [(500, true)] false (Some HookNop) (Some HandlerDefault)) (length objs))
  | None => None
  end = Some (XRunning, [XSaved 7 500; XFlushed 8; XFlushed 7]).
Proof. vm_compute. reflexivity. Qed.
(** the program's file first, no dynamic levels: the worker still takes the entry, though FATAL is gone; then it has no formats *)
Example C112_ex_late :
  match x_build (x_defs false both) [] (x_whole false both (UUser 0) ++ x_library false both) with
  | Some objs => option_map (fun st => (x_status st, x_events st)) (x_run false (x_start objs (Some 7%nat) [] false (Some HookNop) (Some HandlerDefault)) (S (S (length (x_library false both)))))
  | None => None
  end = Some (XUndefined, [XLate (XOLevel (ULoglevels, NFatal)); XSaved 7 300; XLate XOFormats]).
Proof. vm_compute. reflexivity. Qed.
(** a fatal entry in a destructor, the library first *)
Example C112_ex_fatal :
  let user n := match n with O => [XWorker 7; XObj [XSetHook (Some (Hook 4)); XLog (UUser 0%nat, NFatal)]] | _ => [] end in
  match x_build (x_defs false user) [] (x_library false user ++ x_whole false user (UUser 0)) with
  | Some objs => option_map (fun st => (x_status st, x_events st)) (x_run false (x_start objs (Some 7%nat) [] false (Some HookNop) (Some HandlerDefault)) 1)
  | None => None
  end = Some (XDied, [XRan 4; XFatalTo 7 1000]).
Proof. vm_compute. reflexivity. Qed.
(** an unknown level, logged twice: entered as disabled the first time, and still nothing the second time *)
Example C112_ex_dynamic :
  let user n := match n with O => [XObj [XLog (UUser 0%nat, NWarning); XLog (UUser 0%nat, NWarning)]] | _ => [] end in
  match x_build (x_defs true user) [] (x_library true user ++ x_whole true user (UUser 0)) with
  | Some objs => option_map (fun st => (x_status st, x_events st, x_map st)) (x_run true (x_start objs (Some 7%nat) [] false (Some HookNop) (Some HandlerDefault)) 1)
  | None => None
  end = Some (XRunning, [], [(500, false)]).
Proof. vm_compute. reflexivity. Qed.
