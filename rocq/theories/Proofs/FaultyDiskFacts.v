From Coq Require Import Ascii String List ZArith NArith Bool Lia.
From Verif.Base Require Import Bytes.
From Verif.Model Require Import Levels TimeFmt Message FileName FileSink WriteError SharedDisk FaultyDisk.
From Verif.Spec Require Import FileSinkSpec SharedDiskSpec.
From Verif.Proofs Require Import FileSinkFacts WriteErrorFacts SharedDiskFacts.
Import ListNotations.
Local Open Scope list_scope.

Lemma fput_same : forall A (g : nat -> A) n s, fput g n s n = s.
Proof. intros. unfold fput. now rewrite Nat.eqb_refl. Qed.
Lemma fput_other : forall A (g : nat -> A) n s m, m <> n -> fput g n s m = g m.
Proof. intros A g n s m H. unfold fput. apply Nat.eqb_neq in H. now rewrite H. Qed.
Lemma frun_app : forall flt a b d, frun flt d (a ++ b) = match frun flt d a with Some d' => frun flt d' b | None => None end.
Proof. intros flt a. induction a as [|m a IH]; intros b d; cbn [frun app]; auto. destruct (fstep flt d m); auto. Qed.
Lemma frun_one : forall flt d a m v, frun flt d a = Some v -> frun flt d (a ++ [m]) = fstep flt v m.
Proof. intros flt d a m v H. rewrite frun_app, H. cbn. destruct (fstep flt v m); auto. Qed.
Lemma fwrun_app : forall flt a b w, fwrun flt w (a ++ b) = match fwrun flt w a with Some w' => fwrun flt w' b | None => None end.
Proof. intros flt a. induction a as [|m a IH]; intros b w; cbn [fwrun app]; auto. destruct (fwstep flt w m); auto. Qed.
Lemma fwrun_snoc : forall flt w a x w', fwrun flt w (a ++ [x]) = Some w' -> exists v, fwrun flt w a = Some v /\ fwstep flt v x = Some w'.
Proof.
  intros flt w a x w' H. rewrite fwrun_app in H. destruct (fwrun flt w a) as [v|]; [|discriminate]. exists v. split; auto.
  cbn in H. destruct (fwstep flt v x); auto.
Qed.

(** ** what an access does to the streams does not depend on the files *)
Definition same_f (d d' : fdisk) : Prop := fd_out d = fd_out d' /\ fd_new d = fd_new d' /\ fd_n d = fd_n d'.
Lemma fstep_streams : forall flt d d' m, same_f d d' ->
  match fstep flt d m, fstep flt d' m with
  | Some v, Some v' => same_f v v'
  | None, None => True
  | _, _ => False
  end.
Proof.
  intros flt [f o n c] [f' o' n' c'] m (E & E' & E2). cbn in E, E', E2. subst o' n' c'. unfold same_f.
  destruct m as [p [i|]|data k| |]; cbn [fstep fd_fs fd_out fd_new fd_n]; auto; destruct o as [[st [|]]|]; cbn; auto;
  destruct (flt c); cbn; auto.
Qed.

(** the file an access writes to (besides emptying the one it opens) *)
Lemma fstep_files : forall flt d m d' j, fstep flt d m = Some d' -> fd_fs d' j <> fd_fs d j ->
  (exists p, m = MOpen p (Some j)) \/ exists st g, fd_out d = Some (mkF st g) /\ s_ino st = j.
Proof.
  intros flt [f o nw c] m d' j H N.
  assert (S : forall st x, fs_set f (s_ino st) x j <> f j -> s_ino st = j).
  { intros st x X. destruct (Nat.eq_dec j (s_ino st)) as [->|Y]; auto. rewrite fs_set_other in X by auto. congruence. }
  destruct m as [p [i|]|data k| |]; cbn [fstep fd_fs fd_out fd_new fd_n] in H.
  - injection H as <-. cbn in N. left. exists p. destruct (Nat.eq_dec j i) as [->|X]; auto. rewrite fs_set_other in N by auto. congruence.
  - injection H as <-. cbn in N. congruence.
  - destruct o as [[st [|]]|]; [|injection H as <-; cbn in N; congruence|discriminate]. right. exists st, true. split; [reflexivity|].
    destruct (flt c); cbn in H; injection H as <-; cbn in N; eapply S; exact N.
  - destruct o as [[st g]|]; [|discriminate]. right. exists st, g. split; [reflexivity|].
    destruct (flt c); cbn in H; injection H as <-; cbn in N; eapply S; exact N.
  - injection H as <-. cbn in N. destruct o as [[st g]|]; [|congruence]. right. exists st, g. split; [reflexivity|].
    destruct (flt c); cbn in N; eapply S; exact N.
Qed.

(** the same access on files that agree at one place leaves them agreeing there *)
Lemma fstep_agree : forall flt d d' m v v' j, same_f d d' -> fd_fs d j = fd_fs d' j ->
  fstep flt d m = Some v -> fstep flt d' m = Some v' -> fd_fs v j = fd_fs v' j.
Proof.
  intros flt [f o nw c] [f' o' nw' c'] m v v' j (E & E' & E2) F H H'. cbn in E, E', E2, F. subst o' nw' c'.
  assert (S : forall i off x, fs_set f i (write_at (f i) off x) j = fs_set f' i (write_at (f' i) off x) j).
  { intros i off x. unfold fs_set. destruct (Nat.eqb_spec j i) as [X|X]; auto. now rewrite <- X, F. }
  destruct m as [p [i|]|data k| |]; cbn [fstep fd_fs fd_out fd_new fd_n] in H, H'.
  - injection H as <-. injection H' as <-. cbn. unfold fs_set. destruct (Nat.eqb j i); auto.
  - injection H as <-. injection H' as <-. auto.
  - destruct o as [[st [|]]|]; [|injection H as <-; injection H' as <-; auto|discriminate].
    destruct (flt c); cbn in H, H'; injection H as <-; injection H' as <-; cbn; apply S.
  - destruct o as [[st g]|]; [|discriminate].
    destruct (flt c); cbn in H, H'; injection H as <-; injection H' as <-; cbn; apply S.
  - injection H as <-. injection H' as <-. cbn. destruct o as [[st g]|]; auto. destruct (flt c); cbn; apply S.
Qed.

(** ** each sink has the streams it would have alone *)
Definition falone (flt : nat -> faults) (f : fsys) (n : nat) (sched : list (nat * micro)) : option fdisk :=
  frun (flt n) (mkFD f None None 0) (own n sched).

Lemma fworld_streams : forall flt f sched w, fwrun flt (fstart f) sched = Some w -> forall n,
  exists d, falone flt f n sched = Some d /\ fd_out d = fw_out w n /\ fd_new d = fw_new w n /\ fd_n d = fw_n w n.
Proof.
  intros flt f sched. induction sched as [|(n0, m) sched IH] using rev_ind; intros w H n.
  - injection H as <-. eexists. split; [reflexivity|]. repeat split; reflexivity.
  - apply fwrun_snoc in H as (v & H & S). destruct (IH _ H n) as (d & D & Q). unfold falone in *. rewrite own_app.
    unfold fwstep in S. destruct (fstep _ _ m) as [d'|] eqn:M; [|discriminate]. injection S as <-. cbn [fw_out fw_new fw_n].
    destruct (Nat.eq_dec n0 n) as [->|X].
    + rewrite own_me, (frun_one _ _ _ _ _ D), !fput_same.
      pose proof (fstep_streams (flt n) d (mkFD (fw_fs v) (fw_out v n) (fw_new v n) (fw_n v n)) m Q) as S. rewrite M in S.
      destruct (fstep (flt n) d m) as [d1|]; [|destruct S]. exists d1. destruct S. auto.
    + rewrite own_other, app_nil_r by auto. exists d. rewrite !fput_other by auto. auto.
Qed.

Lemma fworld_defined : forall flt f sched, (forall n, falone flt f n sched <> None) -> exists w, fwrun flt (fstart f) sched = Some w.
Proof.
  intros flt f sched. induction sched as [|(n0, m) sched IH] using rev_ind; intros A.
  - eexists. reflexivity.
  - destruct IH as (w & W).
    { intros n E. apply (A n). unfold falone in *. rewrite own_app, frun_app, E. reflexivity. }
    rewrite fwrun_app, W. cbn [fwrun fwstep]. destruct (fworld_streams _ _ _ _ W n0) as (d & D & Q).
    specialize (A n0). unfold falone in *. rewrite own_app, own_me, (frun_one _ _ _ _ _ D) in A.
    pose proof (fstep_streams (flt n0) d (mkFD (fw_fs w) (fw_out w n0) (fw_new w n0) (fw_n w n0)) m Q) as S.
    destruct (fstep (flt n0) d m); [|congruence]. destruct (fstep (flt n0) (mkFD _ _ _ _) m); [|destruct S]. eexists. reflexivity.
Qed.

(** streams are open on files the sink has opened *)
Definition on (o : option fstream) (l : list nat) : Prop := forall st g, o = Some (mkF st g) -> In (s_ino st) l.
Lemma fout_touched : forall flt f ms d, frun flt (mkFD f None None 0) ms = Some d -> on (fd_out d) (touched ms) /\ on (fd_new d) (touched ms).
Proof.
  intros flt f ms. induction ms as [|m ms IH] using rev_ind; intros d H.
  - injection H as <-. split; intros st g E; discriminate.
  - rewrite frun_app in H. destruct (frun _ _ ms) as [v|] eqn:V; [|discriminate]. destruct (IH _ eq_refl) as [O N].
    cbn [frun] in H. destruct (fstep flt v m) as [d'|] eqn:M; [|discriminate]. injection H as <-. rewrite touched_app.
    destruct v as [fv o nw c]. cbn [fd_out fd_new] in O, N.
    destruct m as [p [i|]|data k| |]; cbn [fstep fd_fs fd_out fd_new fd_n] in M.
    + injection M as <-. split; intros st g E; apply in_or_app; eauto. injection E as <- _. right. now left.
    + injection M as <-. split; intros st g E; apply in_or_app; eauto. discriminate.
    + destruct o as [[st0 [|]]|]; [|injection M as <-; split; intros st g E; apply in_or_app; eauto|discriminate].
      specialize (O _ _ eq_refl).
      destruct (flt c); cbn in M; injection M as <-; split; intros st g E; apply in_or_app; eauto; injection E as <- _; auto.
    + destruct o as [[st0 g0]|]; [|discriminate]. specialize (O _ _ eq_refl).
      destruct (flt c); cbn in M; injection M as <-; split; intros st g E; apply in_or_app; eauto; injection E as <- _; auto.
    + injection M as <-. split; intros st g E; apply in_or_app; eauto. discriminate.
Qed.

(** ** sinks that keep apart *)
Lemma fworld_alone : forall flt f sched w, apart sched -> fwrun flt (fstart f) sched = Some w ->
  (forall n d i, falone flt f n sched = Some d -> In i (touched (own n sched)) -> fw_fs w i = fd_fs d i) /\
  (forall i, (forall n, ~ In i (touched (own n sched))) -> fw_fs w i = f i).
Proof.
  intros flt f sched. induction sched as [|(n0, m) sched IH] using rev_ind; intros w A H.
  - injection H as <-. split; [intros n d i _ []|]. reflexivity.
  - apply fwrun_snoc in H as (v & H & S). destruct (IH _ (apart_less _ _ A) H) as (I1 & I2).
    unfold fwstep in S. destruct (fstep _ _ m) as [d'|] eqn:M; [|discriminate]. injection S as <-. cbn [fw_fs].
    destruct (fworld_streams _ _ _ _ H n0) as (d0 & D0 & Q0).
    pose proof (fstep_streams (flt n0) d0 (mkFD (fw_fs v) (fw_out v n0) (fw_new v n0) (fw_n v n0)) m Q0) as S. rewrite M in S.
    destruct (fstep (flt n0) d0 m) as [d0'|] eqn:M0; [|destruct S]. clear S.
    destruct (fout_touched _ f _ _ D0) as [T0 _].
    assert (OWN : falone flt f n0 (sched ++ [(n0, m)]) = Some d0').
    { unfold falone. rewrite own_app, own_me, (frun_one _ _ _ _ _ D0). exact M0. }
    assert (OLD : forall n, n <> n0 -> own n (sched ++ [(n0, m)]) = own n sched).
    { intros n X. rewrite own_app, own_other, app_nil_r by auto. reflexivity. }
    assert (ME : forall i, In i (touched (own n0 sched)) -> In i (touched (own n0 (sched ++ [(n0, m)])))).
    { intros i X. rewrite own_app, touched_app. apply in_or_app. auto. }
    assert (NEW : forall p i, m = MOpen p (Some i) -> In i (touched (own n0 (sched ++ [(n0, m)])))).
    { intros p i ->. rewrite own_app, touched_app, own_me. apply in_or_app. right. now left. }
    assert (UNTOUCHED : forall i, ~ In i (touched (own n0 (sched ++ [(n0, m)]))) -> fd_fs d' i = fw_fs v i).
    { intros i NT. destruct (list_eq_dec ascii_dec (fd_fs d' i) (fw_fs v i)) as [E|E]; auto. exfalso. apply NT.
      apply (fstep_files _ _ _ _ _ M) in E as [(p & ->)|(st & g & ST & <-)]; [eapply NEW; reflexivity|].
      cbn [fd_out] in ST. destruct Q0 as (O0 & _). rewrite <- O0 in ST. apply ME. eapply T0; eauto. }
    split.
    + intros n d i D T. destruct (Nat.eq_dec n n0) as [->|X].
      * rewrite OWN in D. injection D as <-. symmetry. destruct (in_dec Nat.eq_dec i (touched (own n0 sched))) as [T'|T'].
        -- eapply (fstep_agree (flt n0) d0 (mkFD (fw_fs v) (fw_out v n0) (fw_new v n0) (fw_n v n0)) m); [exact Q0| |exact M0|exact M].
           cbn [fd_fs]. symmetry. eauto.
        -- rewrite own_app, own_me, touched_app in T. apply in_app_or in T as [T|T]; [contradiction|].
           destruct m as [p [j|]|data k| |]; try (now destruct T). destruct T as [->|[]]. cbn in M0, M.
           injection M0 as <-. injection M as <-. cbn. now rewrite !fs_set_same.
      * pose proof T as T'. rewrite OLD in T' by auto. rewrite UNTOUCHED.
        -- eapply I1; eauto. unfold falone in *. now rewrite OLD in D by auto.
        -- intro Y. apply X. eapply A; eauto.
    + intros i NT. rewrite UNTOUCHED by apply NT. apply I2. intros n T. destruct (Nat.eq_dec n n0) as [->|X].
      * apply (NT n0). auto.
      * apply (NT n). now rewrite OLD by auto.
Qed.

(** ** no access fails: as in Model/FileSink.v *)
Definition healthy (o : option stream) : option fstream := match o with Some s => Some (mkF s true) | None => None end.
Definition the_same (d : disk) (fd : fdisk) : Prop := fd_fs fd = d_fs d /\ fd_out fd = healthy (d_out d) /\ fd_new fd = healthy (d_new d).
Lemma healthy_step : forall flt d fd m, (forall a, flt a = None) -> the_same d fd ->
  match mstep d m, fstep flt fd m with
  | Some v, Some v' => the_same v v'
  | None, None => True
  | _, _ => False
  end.
Proof.
  intros flt [f o n] [f' o' n' c] m NF (E & E' & E2). cbn in E, E', E2. subst f' o' n'. unfold the_same.
  destruct m as [p [i|]|data k| |]; cbn [fstep mstep d_fs d_out d_new fd_fs fd_out fd_new fd_n]; auto;
  destruct o as [st|]; cbn [healthy]; rewrite ?NF; cbn; auto.
Qed.
Lemma healthy_run : forall flt ms d fd, (forall a, flt a = None) -> the_same d fd ->
  match mrun d ms, frun flt fd ms with
  | Some v, Some v' => the_same v v'
  | None, None => True
  | _, _ => False
  end.
Proof.
  intros flt ms. induction ms as [|m ms IH]; intros d fd NF E; [exact E|]. cbn [mrun frun].
  pose proof (healthy_step flt d fd m NF E) as S. destruct (mstep d m) as [v|], (fstep flt fd m) as [v'|]; try contradiction; [|exact I].
  apply IH; auto.
Qed.

(** ** whole lives *)
Lemma fops_micros_run : forall flt e os s d s' ms d', ops_micros e s os = Ok (s', ms) -> frun flt d ms = Some d' ->
  fops_run flt e (s, d) os = Ok (s', d').
Proof.
  intros flt e os. induction os as [|o os IH]; intros s d s' ms d' H R.
  - injection H as <- <-. injection R as <-. reflexivity.
  - cbn [ops_micros] in H. apply obind_ok in H as ((s1, ms1) & H & K). apply obind_ok in K as ((s2, ms2) & K & E).
    cbn [fst snd] in *. injection E as <- <-. rewrite frun_app in R. destruct (frun flt d ms1) as [d1|] eqn:R1; [|discriminate].
    cbn [fops_run]. unfold fop_step. cbn [fst snd]. rewrite H. cbn [obind fst snd]. unfold fapply. rewrite R1. cbn [obind fst snd]. eauto.
Qed.

Lemma flife_alone : forall flt l s ms f d tnow k, life_micros l = Ok (s, ms) -> l_end l = Some (tnow, k) ->
  frun flt (mkFD f None None 0) ms = Some d ->
  exists w0 w, fcreate flt (l_env l) (l_high l) (l_prefix l) (l_dir l) (l_id l) (l_every l) (l_now l) (l_r1 l) (l_r2 l) f = Ok w0 /\
    fops_run flt (l_env l) w0 (l_ops l) = Ok w /\ fdestroy flt (l_env l) w tnow k = Ok (fd_fs d).
Proof.
  intros flt l s ms f d tnow k H EN R. unfold life_micros in H.
  apply obind_ok in H as ((s0, ms0) & C & H). apply obind_ok in H as ((s1, ms1) & O & H). rewrite EN in H.
  apply obind_ok in H as (ms2 & D & E). cbn [fst snd] in *. injection E as <- <-.
  rewrite frun_app in R. destruct (frun flt _ ms0) as [d0|] eqn:R0; [|discriminate]. rewrite frun_app in R.
  destruct (frun flt d0 ms1) as [d1|] eqn:R1; [|discriminate].
  exists (s0, d0), (s1, d1). split; [|split].
  - unfold fcreate. rewrite C. cbn [obind snd fst]. unfold fapply. rewrite R0. reflexivity.
  - eapply fops_micros_run; eauto.
  - unfold fdestroy. cbn [fst snd]. rewrite D. cbn [obind]. unfold fapply. rewrite R. reflexivity.
Qed.
