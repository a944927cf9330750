(** Facts about the initialization of static objects (Model/StaticInit.v). *)
From Coq Require Import List ZArith Bool Lia.
From Verif.Model Require Import Levels Global StaticInit.
From Verif.Spec Require Import StaticInitSpec.
Import ListNotations.
Local Open Scope list_scope.

Lemma tunit_eqb_spec : forall a b, tunit_eqb a b = true <-> a = b.
Proof.
  intros [| | | | | |n] [| | | | | |m]; cbn; split; intro H; try reflexivity; try discriminate.
  - apply Nat.eqb_eq in H. now subst.
  - injection H as ->. apply Nat.eqb_refl.
Qed.

Lemma lname_eqb_spec : forall a b, lname_eqb a b = true <-> a = b.
Proof.
  intros [| | | | | | |n] [| | | | | | |m]; cbn; split; intro H; try reflexivity; try discriminate.
  - apply Nat.eqb_eq in H. now subst.
  - injection H as ->. apply Nat.eqb_refl.
Qed.

Lemma lref_eqb_spec : forall a b, lref_eqb a b = true <-> a = b.
Proof.
  intros [u k] [w j]. unfold lref_eqb. cbn [fst snd]. rewrite andb_true_iff, tunit_eqb_spec, lname_eqb_spec.
  split; [intros [-> ->]; reflexivity | intro H; injection H as -> ->; auto].
Qed.

Lemma lref_eqb_refl : forall a, lref_eqb a a = true.
Proof. intro. now apply lref_eqb_spec. Qed.

Lemma lref_eqb_neq : forall a b, a <> b -> lref_eqb a b = false.
Proof. intros a b H. destruct (lref_eqb a b) eqn:E; [apply lref_eqb_spec in E; contradiction | reflexivity]. Qed.

Lemma tunit_eqb_refl : forall a, tunit_eqb a a = true.
Proof. intro. now apply tunit_eqb_spec. Qed.


(** ** what program code cannot change *)
Definition frame (a b : sstate) : Prop :=
  s_left b = s_left a /\ s_levels b = s_levels a /\ s_cerr b = s_cerr a /\ s_nohook b = s_nohook a /\
  s_exit_init b = s_exit_init a /\ (s_signals b = s_signals a /\ s_formats b = s_formats a /\ s_fraction b = s_fraction a) /\ (s_map b = None <-> s_map a = None).

Lemma frame_refl : forall a, frame a a.
Proof. intro a. unfold frame. repeat split; auto. Qed.

Lemma frame_trans : forall a b c, frame a b -> frame b c -> frame a c.
Proof. intros a b c (A1&A2&A3&A4&A5&(A6&A61&A62)&A7) (B1&B2&B3&B4&B5&(B6&B61&B62)&B7). unfold frame. repeat split; try congruence; tauto. Qed.

Ltac fr := unfold frame; cbn; repeat split; auto; try congruence; try (intro; discriminate).

Lemma frame_emit : forall st es, frame st (s_emit st es).
Proof. intros. fr. Qed.
Lemma frame_end : forall st x, frame st (s_end st x).
Proof. intros. fr. Qed.
Lemma frame_sethook : forall st x, frame st (s_sethook st x).
Proof. intros. fr. Qed.
Lemma frame_setexit : forall st x, frame st (s_setexit st false x).
Proof. intros. fr. Qed.
Lemma frame_use : forall b o st, frame st (use b o st).
Proof. intros [] o st; [apply frame_refl | apply frame_emit]. Qed.

Ltac frs :=
  repeat first
    [ apply frame_refl
    | match goal with
      | |- frame ?a (s_emit ?b _) => apply (frame_trans a b); [|apply frame_emit]
      | |- frame ?a (s_end ?b _) => apply (frame_trans a b); [|apply frame_end]
      | |- frame ?a (s_sethook ?b _) => apply (frame_trans a b); [|apply frame_sethook]
      | |- frame ?a (s_setexit ?b false _) => apply (frame_trans a b); [|apply frame_setexit]
      | |- frame ?a (use _ _ ?b) => apply (frame_trans a b); [|apply frame_use]
      end ].

Lemma frame_pushFatal : forall st v, frame st (s_pushFatal st v).
Proof.
  intros. unfold s_pushFatal. destruct (negb (s_formats st)); [frs|]. destruct (negb (s_fraction st)); [frs|]. destruct (negb (s_cerr st)); [frs|]. cbn zeta. destruct (s_signals (s_emit st [SFatal v])); frs.
Qed.
Lemma frame_fatalCall : forall st v, frame st (s_fatalCall st v).
Proof.
  intros. unfold s_fatalCall. cbn zeta. destruct (s_exit (use (s_exit_init st) OExit st)) as [[|n]|].
  - apply (frame_trans _ (use (s_exit_init st) OExit st)); [apply frame_use | apply frame_pushFatal].
  - frs.
  - frs.
Qed.
Lemma frame_saveFatal : forall st v, frame st (s_saveFatal st v).
Proof.
  intros. unfold s_saveFatal. cbn zeta. destruct (s_hook st) as [[|n]|].
  - eapply frame_trans; [|apply frame_fatalCall]. frs.
  - eapply frame_trans; [|apply frame_fatalCall]. frs.
  - frs.
Qed.
Lemma frame_pushMessage : forall st v, frame st (s_pushMessage st v).
Proof.
  intros. unfold s_pushMessage. destruct (s_first st); [frs|]. destruct (s_cerr st) eqn:E; [|frs]. fr.
Qed.
Lemma frame_capture : forall st l, frame st (s_capture st l).
Proof.
  intros. unfold s_capture. cbn zeta.
  set (st1 := use (level_ready st (ULoglevels, NFatal)) (OLevel (ULoglevels, NFatal)) (use (level_ready st l) (OLevel l) st)).
  assert (F : frame st st1) by (unfold st1; frs).
  destruct (negb (level_ready st1 l)); [eapply frame_trans; [exact F | apply frame_end]|].
  destruct (s_wasFatal st1 l); (eapply frame_trans; [exact F|]); [apply frame_saveFatal | apply frame_pushMessage].
Qed.

Lemma frame_act : forall dyn st a, frame st (s_act dyn st a).
Proof.
  intros dyn st [l|h|h|l b]; unfold s_act.
  - unfold s_log. destruct dyn; [|apply frame_capture]. destruct (s_map st) as [m|] eqn:E; [|frs]. cbn zeta.
    set (st1 := use (level_ready st l) (OLevel l) st).
    assert (F : frame st st1) by (unfold st1; frs).
    destruct (status_of m (level_value st1 l)) as [[]|].
    + eapply frame_trans; [exact F | apply frame_capture].
    + exact F.
    + destruct F as (A1&A2&A3&A4&A5&A6&A7). unfold frame. cbn. do 6 (split; [assumption|]). split; intro; try discriminate.
      congruence.
  - frs.
  - frs.
  - destruct (s_map st) as [m|] eqn:E; [|frs]. destruct (level_ready st l); [|frs].
    unfold frame. cbn. repeat split; auto; intro; try discriminate; congruence.
Qed.

Lemma frame_acts : forall dyn code st, frame st (s_acts dyn st code).
Proof.
  induction code as [|a r IH]; intro st; cbn [s_acts]; [apply frame_refl|]. cbn zeta.
  destruct (s_status (s_act dyn st a)); try apply frame_act.
  eapply frame_trans; [apply frame_act | apply IH].
Qed.

(** ** lookups *)
Lemma lookup_cons : forall m l v k, lookup ((l, v) :: m) k = if lref_eqb k l then Some v else lookup m k.
Proof. reflexivity. Qed.

Lemma left_take : forall st u r x, s_left (s_take st u r) x = if tunit_eqb x u then r else s_left st x.
Proof. reflexivity. Qed.

(** the names that a definition gives *)
Definition name_of (d : def) : option lname := match d with DConst k _ | DLevel k _ _ => Some k | _ => None end.

Lemma names_app : forall a b, names (a ++ b) = names a ++ names b.
Proof. induction a as [|d a IH]; intro b; [reflexivity|]. destruct d; cbn; rewrite IH; reflexivity. Qed.

(** one initialization: what happens to the levels and to what is left *)
Lemma init_left : forall dyn st u d, s_left (s_init dyn st u d) = s_left st.
Proof.
  intros dyn st u d. destruct d; try reflexivity.
  - unfold s_init. cbn zeta. cbn. apply frame_use.
  - unfold s_init. apply frame_acts.
Qed.

Lemma init_levels : forall dyn st u d,
  s_levels (s_init dyn st u d) =
  match d with
  | DConst k v => ((u, k), v) :: s_levels st
  | DLevel k b delta => ((u, k), (level_value st b + delta)%Z) :: s_levels st
  | _ => s_levels st
  end.
Proof.
  intros dyn st u d. destruct d; try reflexivity.
  - unfold s_init. cbn zeta. cbn. unfold level_value.
    destruct (frame_use (level_ready st base) (OLevel base) st) as (_ & L & _). rewrite L. reflexivity.
  - unfold s_init. apply frame_acts.
Qed.

(** ** the invariant *)
Definition right (st : sstate) (u : tunit) (d : def) : Prop :=
  match d with
  | DConst k v => lookup (s_levels st) (u, k) = Some v
  | DLevel k b delta => exists vb, lookup (s_levels st) b = Some vb /\ lookup (s_levels st) (u, k) = Some (vb + delta)%Z
  | _ => True
  end.

Definition inv (dyn : bool) (user : nat -> list def) (st : sstate) : Prop :=
  forall u, exists dn,
    defs dyn user u = dn ++ s_left st u /\
    (forall k, In k (names dn) <-> exists v, lookup (s_levels st) (u, k) = Some v) /\
    (well_written u (defs dyn user u) -> forall d, In d dn -> right st u d).

Lemma inv_start : forall dyn user, inv dyn user (s_start dyn user).
Proof.
  intros dyn user u. exists []. split; [reflexivity|]. split.
  - intro k. cbn. split; [intros [] | intros [v H]; discriminate].
  - intros _ d [].
Qed.

Lemma lookup_other_unit : forall m u k v w j, u <> w -> lookup (((u, k), v) :: m) (w, j) = lookup m (w, j).
Proof. intros. rewrite lookup_cons, lref_eqb_neq; [reflexivity|]. intro H0. injection H0 as H1 H2. congruence. Qed.

Lemma nodup_app_notin : forall (A : Type) (l1 l2 : list A) (x : A), NoDup (l1 ++ x :: l2) -> ~ In x l1.
Proof.
  intros A l1 l2 x H I. apply NoDup_remove_2 in H. apply H. apply in_or_app. now left.
Qed.

Lemma lookup_keep_old : forall m l v l0 v0, lookup m l0 = None -> lookup m l = Some v -> lookup ((l0, v0) :: m) l = Some v.
Proof.
  intros m l v l0 v0 N H. rewrite lookup_cons. destruct (lref_eqb l l0) eqn:E; [|exact H].
  apply lref_eqb_spec in E. subst. congruence.
Qed.

Lemma inv_step : forall dyn user st u st', inv dyn user st -> s_step dyn st u = Some st' -> inv dyn user st'.
Proof.
  intros dyn user st u st' I E. unfold s_step in E.
  destruct (s_status st); try discriminate. destruct (s_left st u) as [|d r] eqn:L; [discriminate|].
  injection E as <-. intro w. destruct (I w) as [dn [D [N R]]].
  destruct (tunit_eqb w u) eqn:WU.
  - apply tunit_eqb_spec in WU. subst w. rewrite L in D.
    exists (dn ++ [d]). rewrite init_left, left_take, tunit_eqb_refl. split; [rewrite D, <- app_assoc; reflexivity|].
    assert (NEW : forall k, name_of d = Some k -> exists v, s_levels (s_init dyn (s_take st u r) u d) = ((u, k), v) :: s_levels st).
    { intros k H. rewrite init_levels. destruct d; cbn in H; try discriminate; injection H as ->; eexists; reflexivity. }
    assert (OLD : name_of d = None -> s_levels (s_init dyn (s_take st u r) u d) = s_levels st).
    { intro H. rewrite init_levels. destruct d; cbn in H; try discriminate; reflexivity. }
    assert (NM : names [d] = match name_of d with Some k => [k] | None => [] end) by (destruct d; reflexivity).
    split.
    + intro k. rewrite names_app, in_app_iff, N, NM. destruct (name_of d) as [k0|] eqn:ND.
      * destruct (NEW k0 eq_refl) as [v0 LV]. rewrite LV. setoid_rewrite lookup_cons.
        destruct (lref_eqb (u, k) (u, k0)) eqn:EK.
        -- apply lref_eqb_spec in EK. injection EK as ->. split; [eauto|]. intros _. right. now left.
        -- split; [intros [H|[->|[]]]; [exact H|] | auto]. rewrite lref_eqb_refl in EK. discriminate.
      * rewrite (OLD eq_refl). split; [intros [H|[]]; exact H | auto].
    + intros W d0 I0. destruct W as [AB ND]. specialize (R (conj AB ND)).
      assert (REF : forall r0, In r0 (refs d) -> fst r0 = u /\ In (snd r0) (names dn)) by (intros r0 HR; exact (AB dn d r D r0 HR)).
      assert (FRESH : forall k, name_of d = Some k -> ~ In k (names dn)).
      { intros k HK. rewrite D, names_app in ND.
        assert (X : names (d :: r) = k :: names r) by (destruct d; cbn in HK; try discriminate; injection HK as ->; reflexivity).
        rewrite X in ND. exact (nodup_app_notin _ _ _ _ ND). }
      assert (KEEP : forall l v, lookup (s_levels st) l = Some v -> lookup (s_levels (s_init dyn (s_take st u r) u d)) l = Some v).
      { intros l v HL. destruct (name_of d) as [k|] eqn:HN; [|rewrite (OLD eq_refl); exact HL].
        destruct (NEW k eq_refl) as [v0 LV]. rewrite LV. apply lookup_keep_old; [|exact HL].
        destruct (lookup (s_levels st) (u, k)) eqn:EL; [|reflexivity]. exfalso. apply (FRESH k eq_refl). apply N. eauto. }
      apply in_app_iff in I0. destruct I0 as [I0|[<-|[]]].
      * specialize (R d0 I0). destruct d0; cbn [right] in *; auto. destruct R as [vb [A B]]. exists vb. split; apply KEEP; assumption.
      * destruct d; cbn [right]; auto.
        -- rewrite init_levels, lookup_cons, lref_eqb_refl. reflexivity.
        -- destruct (REF base (or_introl eq_refl)) as [FB IB]. apply N in IB. destruct IB as [vb VB].
           assert (VB' : lookup (s_levels st) base = Some vb) by (destruct base as [bu bk]; cbn in FB; subst bu; exact VB).
           exists vb. split; [apply KEEP; exact VB'|]. rewrite init_levels, lookup_cons, lref_eqb_refl.
           unfold level_value. cbn [s_levels s_take]. rewrite VB'. reflexivity.
  - assert (NE : u <> w) by (intros ->; rewrite tunit_eqb_refl in WU; discriminate).
    exists dn. rewrite init_left, left_take, WU. split; [exact D|].
    assert (LK : forall k, lookup (s_levels (s_init dyn (s_take st u r) u d)) (w, k) = lookup (s_levels st) (w, k)).
    { intro k. rewrite init_levels. destruct d; try reflexivity; apply lookup_other_unit; exact NE. }
    split.
    + intro k. rewrite LK. apply N.
    + intros W d0 I0. specialize (R W d0 I0). destruct W as [AB _].
      destruct d0; cbn [right] in *; auto.
      * rewrite LK. exact R.
      * destruct R as [vb [A B]]. exists vb. rewrite LK. split; [|exact B].
        apply in_split in I0. destruct I0 as [a [b ->]].
        destruct (AB a (DLevel k base delta) (b ++ s_left st w)) with (r := base) as [FB _].
        { rewrite D, <- app_assoc. reflexivity. }
        { now left. }
        destruct base as [bu bk]. cbn in FB. subst bu. rewrite LK. exact A.
Qed.

Lemma inv_run : forall dyn user order st st', inv dyn user st -> s_run dyn st order = Some st' -> inv dyn user st'.
Proof.
  induction order as [|u r IH]; intros st st' I E; cbn [s_run] in E.
  - injection E as <-. exact I.
  - destruct (s_step dyn st u) as [s1|] eqn:S1; [|discriminate]. eapply IH; [|exact E]. eapply inv_step; eassumption.
Qed.

(** ** objects of the library are ready once initialized *)
Definition ready_of (st : sstate) (d : def) : Prop :=
  match d with
  | DIostream => s_cerr st = true
  | DMap => s_map st <> None
  | DNoHook => s_nohook st = true
  | DExit => s_exit_init st = true
  | DSignals => s_signals st = true
  | DFormats => s_formats st = true
  | DFraction => s_fraction st = true
  | _ => True
  end.

Lemma init_ready : forall dyn st u d d0, ready_of st d0 -> ready_of (s_init dyn st u d) d0.
Proof.
  intros dyn st u d d0 H.
  assert (X : forall st', frame st st' -> ready_of st' d0).
  { intros st' (A1&A2&A3&A4&A5&(A6&A61&A62)&A7). destruct d0; cbn [ready_of] in *; auto; try congruence. tauto. }
  destruct d; try (destruct d0; cbn in *; auto; discriminate).
  - unfold s_init. cbn zeta. specialize (X _ (frame_use (level_ready st base) (OLevel base) st)).
    destruct d0; cbn in *; auto.
  - unfold s_init. apply X. apply frame_acts.
Qed.

Lemma init_own_ready : forall dyn st u d, ready_of (s_init dyn st u d) d.
Proof. intros dyn st u d. destruct d; cbn; auto; discriminate. Qed.

Definition inv2 (dyn : bool) (user : nat -> list def) (st : sstate) : Prop :=
  forall u, exists dn, defs dyn user u = dn ++ s_left st u /\ forall d, In d dn -> ready_of st d.

Lemma inv2_step : forall dyn user st u st', inv2 dyn user st -> s_step dyn st u = Some st' -> inv2 dyn user st'.
Proof.
  intros dyn user st u st' I E. unfold s_step in E.
  destruct (s_status st); try discriminate. destruct (s_left st u) as [|d r] eqn:L; [discriminate|].
  injection E as <-. intro w. destruct (I w) as [dn [D R]].
  assert (R' : forall d0, In d0 dn -> ready_of (s_init dyn (s_take st u r) u d) d0).
  { intros d0 I0. apply init_ready. specialize (R d0 I0). destruct d0; cbn in *; auto. }
  destruct (tunit_eqb w u) eqn:WU.
  - apply tunit_eqb_spec in WU. subst w. rewrite L in D. exists (dn ++ [d]).
    rewrite init_left, left_take, tunit_eqb_refl. split; [rewrite D, <- app_assoc; reflexivity|].
    intros d0 I0. apply in_app_iff in I0. destruct I0 as [I0|[<-|[]]]; [auto | apply init_own_ready].
  - exists dn. rewrite init_left, left_take, WU. split; assumption.
Qed.

Lemma inv2_run : forall dyn user order st st', inv2 dyn user st -> s_run dyn st order = Some st' -> inv2 dyn user st'.
Proof.
  induction order as [|u r IH]; intros st st' I E; cbn [s_run] in E.
  - injection E as <-. exact I.
  - destruct (s_step dyn st u) as [s1|] eqn:S1; [|discriminate]. eapply IH; [|exact E]. eapply inv2_step; eassumption.
Qed.

Lemma inv2_start : forall dyn user, inv2 dyn user (s_start dyn user).
Proof. intros dyn user u. exists []. split; [reflexivity | intros d []]. Qed.


Lemma above_noref : forall u l, (forall d, In d l -> refs d = []) -> above u l.
Proof.
  intros u l H l1 d l2 E r I. exfalso. rewrite (H d) in I; [destruct I|]. rewrite E. apply in_or_app. right. now left.
Qed.

Lemma loglevels_well_written : forall dyn user, well_written ULoglevels (defs dyn user ULoglevels).
Proof.
  intros dyn user. split.
  - apply above_noref. intros d I. destruct dyn; cbn in I;
      repeat (destruct I as [<-|I]; [reflexivity|]); destruct I.
  - destruct dyn; cbn; repeat (constructor; [cbn; intuition discriminate|]); constructor.
Qed.

Definition lib_ready (dyn : bool) (st : sstate) : Prop :=
  s_cerr st = true /\ s_nohook st = true /\ s_exit_init st = true /\ (s_signals st = true /\ s_formats st = true /\ s_fraction st = true) /\
  lookup (s_levels st) (ULoglevels, NFatal) = Some kFatalValue /\ (dyn = true -> s_map st <> None).

Lemma fatal_value : forall dyn user st, inv dyn user st ->
  forall v, lookup (s_levels st) (ULoglevels, NFatal) = Some v -> v = kFatalValue.
Proof.
  intros dyn user st I v H. destruct (I ULoglevels) as [dn [D [N R]]].
  specialize (R (loglevels_well_written dyn user)).
  assert (IN : In NFatal (names dn)) by (apply N; eauto).
  assert (ID : In (DConst NFatal kFatalValue) dn).
  { assert (P : forall l1 l2, defs dyn user ULoglevels = l1 ++ l2 -> In NFatal (names l1) -> In (DConst NFatal kFatalValue) l1).
    { clear. intros l1 l2 E IN.
      assert (Q : exists t, defs dyn user ULoglevels = [DConst NDebug kDebugValue; DConst NInfo kInfoValue; DConst NWarning kWarningValue; DConst NFatal kFatalValue] ++ t) by (eexists; reflexivity).
      destruct Q as [t Q]. rewrite Q in E. clear Q. cbn [app] in E.
      do 4 (destruct l1 as [|? l1]; [cbn in IN; intuition discriminate|]; cbn [app] in E; injection E as <- E).
      cbn. auto 10. }
    exact (P dn _ D IN). }
  specialize (R _ ID). cbn [right] in R. congruence.
Qed.

Lemma lib_done_ready : forall dyn user st, inv dyn user st -> inv2 dyn user st -> library_done st -> lib_ready dyn st.
Proof.
  intros dyn user st I J (L1 & L2 & L3 & L4 & L5 & L6).
  destruct (J UG3log) as [d1 [D1 R1]]. rewrite L1, app_nil_r in D1.
  destruct (J ULoglevels) as [d2 [D2 R2]]. rewrite L2, app_nil_r in D2.
  destruct (J UCrashhandler) as [d3 [D3 R3]]. rewrite L3, app_nil_r in D3.
  destruct (J ULogmessage) as [d4 [D4 R4]]. rewrite L4, app_nil_r in D4.
  destruct (J UTime) as [d5 [D5 R5]]. rewrite L5, app_nil_r in D5.
  assert (A1 : s_cerr st = true) by (apply (R1 DIostream); rewrite <- D1; cbn; auto 20).
  assert (A2 : s_nohook st = true) by (apply (R1 DNoHook); rewrite <- D1; cbn; auto 20).
  assert (A3 : s_exit_init st = true) by (apply (R1 DExit); rewrite <- D1; cbn; auto 20).
  assert (A4 : s_signals st = true) by (apply (R3 DSignals); rewrite <- D3; cbn; auto 20).
  assert (A5 : s_formats st = true) by (apply (R4 DFormats); rewrite <- D4; cbn; auto 20).
  assert (A6 : s_fraction st = true) by (apply (R5 DFraction); rewrite <- D5; cbn; auto 20).
  destruct (I ULoglevels) as [dn [D [N R]]]. rewrite L2, app_nil_r in D.
  specialize (R (loglevels_well_written dyn user) (DConst NFatal kFatalValue)). cbn [right] in R.
  unfold lib_ready. split; [exact A1|]. split; [exact A2|]. split; [exact A3|]. split; [auto|]. split.
  - apply R. rewrite <- D. cbn. auto 10.
  - intro HD. subst dyn. apply (R2 DMap). rewrite <- D2. cbn. auto 20.
Qed.

Lemma lib_ready_frame : forall dyn a b, frame a b -> lib_ready dyn a -> lib_ready dyn b.
Proof.
  intros dyn a b (A1&A2&A3&A4&A5&(A6&A61&A62)&A7) (B1&B2&B3&B4&B5&B6). unfold lib_ready. rewrite A2, A3, A4, A5, A6, A61, A62.
  do 5 (split; [assumption|]). intro H. specialize (B6 H). tauto.
Qed.

(** ** with the library ready, nothing is used too early *)
Definition clean (a b : sstate) : Prop :=
  (forall o, In (SEarly o) (s_events b) -> In (SEarly o) (s_events a)) /\ (s_status b = SUndefined -> s_status a = SUndefined).

Lemma clean_refl : forall a, clean a a.
Proof. intro. split; auto. Qed.
Lemma clean_trans : forall a b c, clean a b -> clean b c -> clean a c.
Proof. intros a b c [A1 A2] [B1 B2]. split; auto. Qed.

Lemma clean_emit : forall st e, (forall o, e <> SEarly o) -> clean st (s_emit st [e]).
Proof.
  intros st e H. split; [|auto]. cbn. intros o I. apply in_app_iff in I. destruct I as [I|[I|[]]]; [exact I|]. elim (H o I).
Qed.
Lemma clean_end : forall st x, x <> SUndefined -> clean st (s_end st x).
Proof. intros st x H. split; cbn; [auto | intro; contradiction]. Qed.
Lemma clean_sethook : forall st h, clean st (s_sethook st h).
Proof. intros. split; auto. Qed.

Lemma clean_pushFatal : forall dyn st v, lib_ready dyn st -> clean st (s_pushFatal st v).
Proof.
  intros dyn st v (B1&B2&B3&(B4&B41&B42)&B5&B6). unfold s_pushFatal. rewrite B41, B42, B1. cbn [negb]. cbn zeta. cbn [s_emit s_signals]. rewrite B4.
  apply (clean_trans _ (s_emit st [SFatal v])); [apply clean_emit; discriminate | apply clean_end; discriminate].
Qed.
Lemma clean_fatalCall : forall dyn st v, lib_ready dyn st -> clean st (s_fatalCall st v).
Proof.
  intros dyn st v B. pose proof B as (B1&B2&B3&B4&B5&B6). unfold s_fatalCall. rewrite B3. cbn [use]. cbn zeta.
  destruct (s_exit st) as [[|n]|].
  - eapply clean_pushFatal. exact B.
  - apply clean_emit. discriminate.
  - apply clean_end. discriminate.
Qed.
Lemma clean_saveFatal : forall dyn st v, lib_ready dyn st -> clean st (s_saveFatal st v).
Proof.
  intros dyn st v B. pose proof B as (B1&B2&B3&B4&B5&B6). unfold s_saveFatal. cbn zeta. rewrite B2. cbn [use].
  assert (F : lib_ready dyn (s_sethook st (Some HookNop))) by (eapply lib_ready_frame; [apply frame_sethook | exact B]).
  destruct (s_hook st) as [[|n]|].
  - eapply clean_trans; [apply (clean_sethook st (Some HookNop)) | eapply clean_fatalCall; exact F].
  - eapply clean_trans; [apply (clean_sethook st (Some HookNop))|].
    eapply clean_trans; [apply (clean_emit _ (SHook n)); discriminate|].
    eapply clean_fatalCall. eapply lib_ready_frame; [apply frame_emit | exact F].
  - eapply clean_trans; [apply (clean_sethook st (Some HookNop)) | apply clean_end; discriminate].
Qed.
Lemma clean_pushMessage : forall dyn st v, lib_ready dyn st -> clean st (s_pushMessage st v).
Proof.
  intros dyn st v (B1&B2&B3&B4&B5&B6). unfold s_pushMessage. destruct (s_first st).
  - apply clean_emit. discriminate.
  - rewrite B1. split; cbn; [|auto]. intros o I. apply in_app_iff in I. destruct I as [I|[I|[]]]; [exact I | discriminate].
Qed.
Lemma clean_capture : forall dyn st l, lib_ready dyn st -> level_ready st l = true -> clean st (s_capture st l).
Proof.
  intros dyn st l B R. pose proof B as (B1&B2&B3&B4&B5&B6). unfold s_capture.
  assert (RF : level_ready st (ULoglevels, NFatal) = true) by (unfold level_ready; rewrite B5; reflexivity).
  rewrite R, RF. cbn [use]. cbn zeta. rewrite R. cbn [negb].
  destruct (s_wasFatal st l); [eapply clean_saveFatal | eapply clean_pushMessage]; exact B.
Qed.
Lemma clean_act : forall dyn st a, lib_ready dyn st -> (forall r, In r (act_refs a) -> level_ready st r = true) ->
  (match a with AAddLevel _ _ => dyn = true | _ => True end) -> clean st (s_act dyn st a).
Proof.
  intros dyn st [l|h|h|l b] B R W; cbn [act_refs] in R; cbn [s_act]; pose proof B as (B1&B2&B3&B4&B5&B6).
  - specialize (R l (or_introl eq_refl)). unfold s_log. destruct dyn.
    + destruct (s_map st) as [m|] eqn:M; [|exfalso; apply B6; reflexivity]. rewrite R. cbn [use]. cbn zeta.
      destruct (status_of m (level_value st l)) as [[]|].
      * eapply clean_capture; eassumption.
      * apply clean_refl.
      * split; auto.
    + eapply clean_capture; eassumption.
  - apply clean_sethook.
  - rewrite B3. cbn [use]. split; auto.
  - destruct (s_map st) as [m|] eqn:M; [|exfalso; exact (B6 W eq_refl)]. rewrite (R l (or_introl eq_refl)). split; auto.
Qed.

Lemma level_ready_frame : forall a b l, frame a b -> level_ready b l = level_ready a l.
Proof. intros a b l (_ & L & _). unfold level_ready. rewrite L. reflexivity. Qed.

Lemma clean_acts : forall dyn code st, lib_ready dyn st ->
  (forall r, In r (flat_map act_refs code) -> level_ready st r = true) ->
  (forall l b, In (AAddLevel l b) code -> dyn = true) -> clean st (s_acts dyn st code).
Proof.
  induction code as [|a r IH]; intros st B R W; cbn [s_acts]; [apply clean_refl|]. cbn zeta.
  assert (C : clean st (s_act dyn st a)).
  { apply clean_act; [exact B | intros x I; apply R; cbn; apply in_or_app; now left|].
    destruct a; auto. apply (W l enabled). now left. }
  destruct (s_status (s_act dyn st a)); try exact C.
  eapply clean_trans; [exact C|]. apply IH.
  - eapply lib_ready_frame; [apply frame_act | exact B].
  - intros x I. rewrite (level_ready_frame st); [apply R; cbn; apply in_or_app; now right | apply frame_act].
  - intros l b I. apply (W l b). now right.
Qed.
