(** Lemmas on the destruction of static objects. *)
From Coq Require Import List ZArith Bool Lia.
From Verif.Model Require Import Levels Global StaticInit StaticExit.
From Verif.Spec Require Import StaticInitSpec StaticExitSpec.
From Verif.Proofs Require Import StaticInitFacts.
Import ListNotations.
Local Open Scope list_scope.
Local Open Scope Z_scope.


(** ** the order of construction *)
Lemma of_unit_app : forall u a b, of_unit u (a ++ b) = of_unit u b ++ of_unit u a.
Proof. intros. unfold of_unit. rewrite filter_app, map_app, rev_app_distr. reflexivity. Qed.
Lemma of_unit_cons : forall u w d r, of_unit u ((w, d) :: r) = of_unit u r ++ (if tunit_eqb u w then [d] else []).
Proof. intros. unfold of_unit. cbn [filter fst]. destruct (tunit_eqb u w); cbn; [reflexivity | rewrite app_nil_r; reflexivity]. Qed.

Lemma build_split : forall order left done objs, x_build left done order = Some objs ->
  exists new, objs = new ++ done /\ (forall u, exists rest, left u = of_unit u new ++ rest) /\ (forall u d, In (u, d) new -> In u order).
Proof.
  induction order as [|w r IH]; intros left done objs E; cbn [x_build] in E.
  - injection E as <-. exists []. split; [reflexivity|]. split; [intro u; exists (left u); reflexivity | intros u d []].
  - destruct (left w) as [|d l] eqn:L; [discriminate|]. destruct (IH _ _ _ E) as (new & -> & B & C).
    exists (new ++ [(w, d)]). split; [rewrite <- app_assoc; reflexivity|]. split.
    + intro u. destruct (B u) as [rest R]. exists rest. rewrite of_unit_app, of_unit_cons. cbn [of_unit filter map rev app].
      destruct (tunit_eqb u w) eqn:UW; [|exact R]. apply tunit_eqb_spec in UW. subst u. rewrite L, R. reflexivity.
    + intros u d0 I. apply in_app_iff in I. destruct I as [I|[I|[]]]; [right; eapply C; exact I | left; congruence].
Qed.

Lemma build_app : forall o1 o2 left done objs, x_build left done (o1 ++ o2) = Some objs ->
  exists mid left2, x_build left done o1 = Some mid /\ x_build left2 mid o2 = Some objs.
Proof.
  induction o1 as [|w r IH]; intros o2 left done objs E; cbn [app x_build] in *.
  - eauto.
  - destruct (left w) as [|d l]; [discriminate|]. exact (IH _ _ _ _ E).
Qed.

(** the object's file has constructed what stands above it *)
Lemma built_above : forall dyn user order objs a u d r, x_build (x_defs dyn user) [] order = Some objs -> objs = a ++ (u, d) :: r ->
  exists rest, x_defs dyn user u = of_unit u r ++ d :: rest.
Proof.
  intros dyn user order objs a u d r E ->. destruct (build_split _ _ _ _ E) as (new & EN & B & _). rewrite app_nil_r in EN. subst new.
  destruct (B u) as [rest R]. exists (of_unit u a ++ rest). rewrite R, of_unit_app, of_unit_cons, tunit_eqb_refl, <- !app_assoc. reflexivity.
Qed.

Lemma in_of_unit : forall u d objs, In d (of_unit u objs) <-> In (u, d) objs.
Proof.
  intros u d objs. unfold of_unit. rewrite <- in_rev, in_map_iff. split.
  - intros ((w & x) & <- & I). apply filter_In in I. destruct I as [I E]. apply tunit_eqb_spec in E. cbn in *. subst. exact I.
  - intro I. exists (u, d). split; [reflexivity|]. apply filter_In. split; [exact I|]. apply tunit_eqb_refl.
Qed.
Lemma in_x_names : forall k l, In k (x_names l) <-> exists v, In (XLevel k v) l.
Proof.
  induction l as [|d l IH]; cbn; [split; [intros [] | intros (v & [])]|].
  destruct d; cbn; rewrite IH; split.
  all: try (intros (v' & I); exists v'; right; exact I).
  all: try (intros (v' & [I|I]); [discriminate | exists v'; exact I]).
  - intros [->|(w & I)]; [exists v; now left | exists w; now right].
  - intros (w & [I|I]); [injection I as -> _; now left | right; exists w; exact I].
Qed.
Lemma alive_level : forall st u k, x_alive st (XOLevel (u, k)) = true <-> exists v, In (u, XLevel k v) (x_live st).
Proof.
  intros st u k. unfold x_alive. rewrite existsb_exists. split.
  - intros ((w & d) & I & E). destruct d; cbn in E; try discriminate. apply lref_eqb_spec in E. injection E as -> ->. eauto.
  - intros (v & I). exists (u, XLevel k v). split; [exact I|]. cbn. apply lref_eqb_refl.
Qed.

(** ** with the library alive, nothing is used too late *)
Definition lib_alive (dyn : bool) (live : list (tunit * xdef)) : Prop :=
  forall o, match o with XOLevel l => l = (ULoglevels, NFatal) \/ l = (UG3log, NWarning) | XOMap => dyn = true | _ => True end ->
  existsb (is_obj o) live = true.

Lemma whole_alive : forall dyn user objs r, whole_library dyn user objs -> lib_alive dyn (r ++ objs).
Proof.
  intros dyn user objs r W o H. rewrite existsb_app. apply orb_true_iff. right. apply existsb_exists.
  assert (P : forall u d, of_library u -> In d (x_defs dyn user u) -> In (u, d) objs) by (intros u d L I; apply in_of_unit; rewrite (W u L); exact I).
  destruct o.
  - destruct H as [-> | ->].
    + exists (ULoglevels, XLevel NFatal kFatalValue). split; [apply P; cbn; auto 10 | reflexivity].
    + exists (UG3log, XLevel NWarning kWarningValue). split; [apply P; cbn; auto 10 | reflexivity].
  - subst dyn. exists (ULoglevels, XMap). split; [apply P; cbn; auto 20 | reflexivity].
  - exists (UG3log, XFirst). split; [apply P; cbn; auto 20 | reflexivity].
  - exists (UG3log, XNoHook). split; [apply P; cbn; auto 20 | reflexivity].
  - exists (UG3log, XHook). split; [apply P; cbn; auto 20 | reflexivity].
  - exists (UG3log, XExit). split; [apply P; cbn; auto 20 | reflexivity].
  - exists (UCrashhandler, XSignals). split; [apply P; cbn; auto 20 | reflexivity].
  - exists (ULogmessage, XFormats). split; [apply P; cbn; auto 20 | reflexivity].
  - exists (UTime, XFraction). split; [apply P; cbn; auto 20 | reflexivity].
  - exists (UFilesink, XFileFormats). split; [apply P; cbn; auto 20 | reflexivity].
Qed.

Definition ok (a b : xstate) : Prop :=
  (forall o, In (XLate o) (x_events b) -> In (XLate o) (x_events a)) /\ (x_status b = XUndefined -> x_status a = XUndefined) /\
  x_live b = x_live a /\ x_all b = x_all a.
Lemma ok_refl : forall a, ok a a.
Proof. intro. repeat split; auto. Qed.
Lemma ok_trans : forall a b c, ok a b -> ok b c -> ok a c.
Proof. intros a b c (A1&A2&A3&A4) (B1&B2&B3&B4). split; [auto|]. split; [auto|]. split; congruence. Qed.
Lemma ok_emit : forall st e, (forall o, e <> XLate o) -> ok st (x_emit st [e]).
Proof.
  intros st e H. split; [|repeat split; auto]. intros o I. cbn in I. apply in_app_iff in I. destruct I as [I|[I|[]]]; [exact I | elim (H o I)].
Qed.
Lemma ok_end : forall st s, s <> XUndefined -> ok st (x_end st s).
Proof. intros st s H. split; [auto|]. split; [cbn; intro; contradiction | split; reflexivity]. Qed.
Lemma ok_sethook : forall st h, ok st (x_sethook st h).
Proof. intros. repeat split; auto. Qed.
Lemma ok_setexit : forall st h, ok st (x_setexit st h).
Proof. intros. repeat split; auto. Qed.
Lemma ok_setmap : forall st h, ok st (x_setmap st h).
Proof. intros. repeat split; auto. Qed.
Lemma ok_setactive : forall st h, ok st (x_setactive st h).
Proof. intros. repeat split; auto. Qed.

Lemma need_alive : forall os st go, (forall o, In o os -> x_alive st o = true) -> x_need st os go = go st.
Proof.
  induction os as [|o r IH]; intros st go H; cbn [x_need]; [reflexivity|]. rewrite (H o (or_introl eq_refl)). apply IH. intros. apply H. now right.
Qed.
Lemma read_alive : forall st l, x_alive st (XOLevel l) = true -> x_read st l = st.
Proof. intros st l H. unfold x_read. rewrite H. reflexivity. Qed.

(** helper: all the given library objects are alive *)
Ltac alv L := intros ? ?IN; cbn in IN; unfold x_alive; apply L; cbn;
  repeat (destruct IN as [<-|IN]; [cbn; auto|]); destruct IN.

Lemma ok_pushFatal : forall dyn st v, lib_alive dyn (x_live st) -> ok st (x_pushFatal st v).
Proof.
  intros dyn st v L. unfold x_pushFatal. destruct (x_active st) as [w|].
  - rewrite need_alive by (alv L). rewrite need_alive by (alv L).
    eapply ok_trans; [apply (ok_emit st (XFatalTo w v)); discriminate | apply ok_end; discriminate].
  - rewrite need_alive by (alv L). rewrite need_alive by (alv L).
    eapply ok_trans; [apply (ok_emit st (XFatalShown v)); discriminate | apply ok_end; discriminate].
Qed.
Lemma ok_fatalCall : forall dyn st v, lib_alive dyn (x_live st) -> ok st (x_fatalCall st v).
Proof.
  intros dyn st v L. unfold x_fatalCall. rewrite need_alive by (alv L). destruct (x_exit st) as [[|n]|].
  - eapply ok_pushFatal. exact L.
  - apply ok_emit. discriminate.
  - apply ok_end. discriminate.
Qed.
Lemma ok_saveFatal : forall dyn st v, lib_alive dyn (x_live st) -> ok st (x_saveFatal st v).
Proof.
  intros dyn st v L. unfold x_saveFatal. rewrite need_alive by (alv L). cbn zeta. destruct (x_hook st) as [[|n]|].
  - eapply ok_trans; [apply (ok_sethook st (Some HookNop))|]. eapply ok_fatalCall. exact L.
  - eapply ok_trans; [apply (ok_sethook st (Some HookNop))|]. eapply ok_trans; [apply (ok_emit _ (XRan n)); discriminate|].
    eapply ok_fatalCall. exact L.
  - eapply ok_trans; [apply (ok_sethook st (Some HookNop))|]. apply ok_end. discriminate.
Qed.
Lemma ok_pushMessage : forall dyn st v, lib_alive dyn (x_live st) -> ok st (x_pushMessage st v).
Proof.
  intros dyn st v L. unfold x_pushMessage. destruct (x_active st); [apply ok_emit; discriminate|].
  destruct (x_first st); [apply ok_emit; discriminate|]. rewrite need_alive by (alv L).
  split; [|repeat split; auto]. intros o I. cbn in I. apply in_app_iff in I. destruct I as [I|[I|[]]]; [exact I | discriminate].
Qed.
Lemma ok_capture : forall dyn st l, lib_alive dyn (x_live st) -> x_alive st (XOLevel l) = true -> ok st (x_capture st l).
Proof.
  intros dyn st l L A. unfold x_capture. cbn zeta. rewrite (read_alive st l A). rewrite read_alive by (unfold x_alive; apply L; now left).
  rewrite need_alive by (intros o [<-|[]]; exact A).
  destruct (x_value (x_all st) (ULoglevels, NFatal) <=? x_value (x_all st) l); [eapply ok_saveFatal | eapply ok_pushMessage]; exact L.
Qed.
Lemma ok_log : forall dyn st l, lib_alive dyn (x_live st) -> x_alive st (XOLevel l) = true -> ok st (x_log dyn st l).
Proof.
  intros dyn st l L A. unfold x_log. destruct dyn; [|eapply ok_capture; [exact L | exact A]].
  rewrite (read_alive st l A). rewrite need_alive by (alv L).
  destruct (status_of (x_map st) (x_value (x_all st) l)) as [[]|]; [eapply ok_capture; [exact L | exact A] | apply ok_refl | apply ok_setmap].
Qed.
Lemma ok_act : forall dyn st a, lib_alive dyn (x_live st) -> (forall l, a = XLog l -> x_alive st (XOLevel l) = true) -> ok st (x_act dyn st a).
Proof.
  intros dyn st [l|h|f] L A; cbn [x_act].
  - apply ok_log; auto.
  - rewrite need_alive by (alv L). apply ok_sethook.
  - rewrite need_alive by (alv L). apply ok_setexit.
Qed.
Lemma alive_ok : forall a b o, ok a b -> x_alive b o = x_alive a o.
Proof. intros a b o (_ & _ & E & _). unfold x_alive. rewrite E. reflexivity. Qed.
Lemma ok_acts : forall dyn l st, lib_alive dyn (x_live st) -> (forall r, In (XLog r) l -> x_alive st (XOLevel r) = true) -> ok st (x_acts dyn st l).
Proof.
  induction l as [|a l IH]; intros st L A; cbn [x_acts]; [apply ok_refl|]. cbn zeta.
  assert (O : ok st (x_act dyn st a)) by (apply ok_act; [exact L|]; intros r ->; apply A; now left).
  destruct (x_status (x_act dyn st a)); try exact O. eapply ok_trans; [exact O|]. apply IH.
  - destruct O as (_ & _ & E & _). rewrite E. exact L.
  - intros r I. rewrite (alive_ok _ _ _ O). apply A. now right.
Qed.
Lemma ok_worker : forall dyn st w, lib_alive dyn (x_live st) -> ok st (x_worker dyn st w).
Proof.
  intros dyn st w L. unfold x_worker. cbn zeta.
  assert (O : ok st (x_shutDown dyn st w)).
  { unfold x_shutDown. destruct (x_active st) as [a|]; [|apply ok_setactive]. destruct (Nat.eqb a w); [apply ok_setactive|].
    apply ok_log; [exact L|]. unfold x_alive. apply L. now right. }
  destruct (x_status (x_shutDown dyn st w)); try exact O.
  assert (L' : lib_alive dyn (x_live (x_shutDown dyn st w))) by (destruct O as (_ & _ & E & _); rewrite E; exact L).
  rewrite need_alive by (alv L'). eapply ok_trans; [exact O | apply ok_emit; discriminate].
Qed.

(** ** the live objects are the last ones of all *)
Lemma acts_live : forall dyn l st, x_live (x_acts dyn st l) = x_live st /\ x_all (x_acts dyn st l) = x_all st.
Proof.
  assert (ND : forall os st go, (forall s, x_live s = x_live st -> x_all s = x_all st -> x_live (go s) = x_live st /\ x_all (go s) = x_all st) ->
    x_live (x_need st os go) = x_live st /\ x_all (x_need st os go) = x_all st).
  { induction os as [|o r IH]; intros st go H; cbn [x_need]; [apply H; reflexivity|]. destruct (x_alive st o); [apply IH; exact H | split; reflexivity]. }
  assert (RD : forall st l, x_live (x_read st l) = x_live st /\ x_all (x_read st l) = x_all st) by (intros; unfold x_read; destruct (x_alive st (XOLevel l)); split; reflexivity).
  assert (PF : forall st v, x_live (x_pushFatal st v) = x_live st /\ x_all (x_pushFatal st v) = x_all st).
  { intros st v. unfold x_pushFatal. destruct (x_active st); apply ND; intros s A B; rewrite <- A, <- B; apply (ND [XOSignals] (x_emit s _)); intros s2 A2 B2; cbn; split; assumption. }
  assert (FC : forall st v, x_live (x_fatalCall st v) = x_live st /\ x_all (x_fatalCall st v) = x_all st).
  { intros st v. unfold x_fatalCall. apply ND. intros s A B. rewrite <- A, <- B. destruct (x_exit s) as [[|n]|]; [apply PF | split; reflexivity | split; reflexivity]. }
  assert (SF : forall st v, x_live (x_saveFatal st v) = x_live st /\ x_all (x_saveFatal st v) = x_all st).
  { intros st v. unfold x_saveFatal. apply ND. intros s A B. cbn zeta. rewrite <- A, <- B. destruct (x_hook s) as [[|n]|]; [apply (FC (x_sethook s (Some HookNop))) | apply (FC (x_emit (x_sethook s (Some HookNop)) [XRan n])) | split; reflexivity]. }
  assert (PM : forall st v, x_live (x_pushMessage st v) = x_live st /\ x_all (x_pushMessage st v) = x_all st).
  { intros st v. unfold x_pushMessage. destruct (x_active st); [split; reflexivity|]. destruct (x_first st); [split; reflexivity|]. apply ND. intros s A B. cbn. auto. }
  assert (CA : forall st l, x_live (x_capture st l) = x_live st /\ x_all (x_capture st l) = x_all st).
  { intros st l. unfold x_capture. cbn zeta. destruct (RD st l) as [R1 R2]. destruct (RD (x_read st l) (ULoglevels, NFatal)) as [R3 R4].
    rewrite <- R1, <- R2, <- R3, <- R4. apply ND. intros s A B. rewrite <- A, <- B.
    destruct (x_value (x_all s) (ULoglevels, NFatal) <=? x_value (x_all s) l); [apply SF | apply PM]. }
  assert (LG : forall dyn st l, x_live (x_log dyn st l) = x_live st /\ x_all (x_log dyn st l) = x_all st).
  { intros dyn st l. unfold x_log. destruct dyn; [|apply CA]. destruct (RD st l) as [R1 R2]. rewrite <- R1, <- R2. apply ND. intros s A B. rewrite <- A, <- B.
    destruct (status_of (x_map s) (x_value (x_all s) l)) as [[]|]; [apply CA | split; reflexivity | split; reflexivity]. }
  intros dyn. induction l as [|a l IH]; intro st; cbn [x_acts]; [split; reflexivity|]. cbn zeta.
  assert (A : x_live (x_act dyn st a) = x_live st /\ x_all (x_act dyn st a) = x_all st).
  { destruct a; cbn [x_act]; [apply LG | apply ND; intros; cbn; auto | apply ND; intros; cbn; auto]. }
  destruct (x_status (x_act dyn st a)); try exact A. destruct (IH (x_act dyn st a)) as [I1 I2]. destruct A as [A1 A2]. rewrite I1, I2. auto.
Qed.

Lemma log_live : forall dyn st l, x_live (x_log dyn st l) = x_live st /\ x_all (x_log dyn st l) = x_all st.
Proof.
  intros dyn st l. pose proof (acts_live dyn [XLog l] st) as H. cbn [x_acts x_act] in H. cbn zeta in H. destruct (x_status (x_log dyn st l)); exact H.
Qed.
Lemma worker_live : forall dyn st w, x_live (x_worker dyn st w) = x_live st /\ x_all (x_worker dyn st w) = x_all st.
Proof.
  intros dyn st w. unfold x_worker. cbn zeta.
  assert (A : x_live (x_shutDown dyn st w) = x_live st /\ x_all (x_shutDown dyn st w) = x_all st).
  { unfold x_shutDown. destruct (x_active st) as [a|]; [|split; reflexivity]. destruct (Nat.eqb a w); [split; reflexivity | apply log_live]. }
  destruct (x_status (x_shutDown dyn st w)); try exact A. cbn [x_need].
  destruct (x_alive _ XOFormats); [|exact A]. destruct (x_alive _ XOFraction); [|exact A]. destruct (x_alive _ XOFileFormats); exact A.
Qed.

(** ** values *)
Fixpoint value_in (l : list xdef) (k : lname) : option Z :=
  match l with
  | [] => None
  | XLevel j v :: r => match value_in r k with Some w => Some w | None => if lname_eqb k j then Some v else None end
  | _ :: r => value_in r k
  end.
Lemma value_in_app : forall a b k, value_in (a ++ b) k = match value_in b k with Some w => Some w | None => value_in a k end.
Proof.
  induction a as [|d a IH]; intros b k; cbn [app value_in]; [destruct (value_in b k); reflexivity|].
  destruct d; rewrite ?IH; auto. destruct (value_in b k); reflexivity.
Qed.
Lemma value_of_unit : forall objs u k, x_value objs (u, k) = match value_in (of_unit u objs) k with Some v => v | None => 0 end.
Proof.
  induction objs as [|[w d] r IH]; intros u k; [reflexivity|]. rewrite of_unit_cons, value_in_app. cbn [x_value].
  assert (S : tunit_eqb u w = false -> value_in (if tunit_eqb u w then [d] else []) k = None) by (intros ->; reflexivity).
  destruct d; try (rewrite IH; destruct (tunit_eqb u w); reflexivity).
  unfold lref_eqb. cbn [fst snd]. destruct (tunit_eqb u w); cbn [andb value_in]; [destruct (lname_eqb k k0); [reflexivity|] |]; apply IH.
Qed.
Lemma fatal_is : forall dyn user objs, whole_library dyn user objs -> x_value objs (ULoglevels, NFatal) = 1000.
Proof. intros dyn user objs W. rewrite value_of_unit, (W ULoglevels Logic.I). destruct dyn; reflexivity. Qed.
