From Coq Require Import Ascii String List ZArith NArith Bool Lia.
From Verif.Base Require Import Bytes.
From Verif.Model Require Import Levels TimeFmt Message FileName FileSink SharedDisk.
From Verif.Spec Require Import FileSinkSpec SharedDiskSpec.
From Verif.Proofs Require Import FileSinkFacts.
Import ListNotations.
Local Open Scope list_scope.

Lemma own_app : forall n a b, own n (a ++ b) = own n a ++ own n b.
Proof. intros. unfold own. apply flat_map_app. Qed.
Lemma own_me : forall n m, own n [(n, m)] = [m].
Proof. intros. cbn. now rewrite Nat.eqb_refl. Qed.
Lemma own_other : forall n n' m, n' <> n -> own n [(n', m)] = [].
Proof. intros n n' m H. cbn. apply Nat.eqb_neq in H. now rewrite H. Qed.
Lemma touched_app : forall a b, touched (a ++ b) = touched a ++ touched b.
Proof. intros. unfold touched. apply flat_map_app. Qed.

Lemma wrun_app : forall a b w, wrun w (a ++ b) = match wrun w a with Some w' => wrun w' b | None => None end.
Proof. induction a as [|m a IH]; intros b w; cbn [wrun app]; auto. destruct (wstep w m); auto. Qed.
Lemma wrun_snoc : forall w a x w', wrun w (a ++ [x]) = Some w' -> exists v, wrun w a = Some v /\ wstep v x = Some w'.
Proof.
  intros w a x w' H. rewrite wrun_app in H. destruct (wrun w a) as [v|]; [|discriminate]. exists v. split; auto.
  cbn in H. destruct (wstep v x); auto.
Qed.
Lemma mrun_one : forall d a m v, mrun d a = Some v -> mrun d (a ++ [m]) = mstep v m.
Proof. intros d a m v H. rewrite mrun_app, H. cbn. destruct (mstep v m); auto. Qed.

Lemma put_same : forall g n s, put g n s n = s.
Proof. intros. unfold put. now rewrite Nat.eqb_refl. Qed.
Lemma put_other : forall g n s m, m <> n -> put g n s m = g m.
Proof. intros g n s m H. unfold put. apply Nat.eqb_neq in H. now rewrite H. Qed.

(** ** what an access does to the streams does not depend on the files *)
Definition same_streams (d d' : disk) : Prop := d_out d = d_out d' /\ d_new d = d_new d'.
Lemma mstep_streams : forall d d' m, same_streams d d' ->
  match mstep d m, mstep d' m with
  | Some v, Some v' => same_streams v v'
  | None, None => True
  | _, _ => False
  end.
Proof.
  intros [f o n] [f' o' n'] m [E E']. cbn in E, E'. subst o' n'. unfold same_streams.
  destruct m as [p [i|]|data k| |]; cbn; auto; destruct o; cbn; auto.
Qed.

(** the file an access writes to (besides emptying the one it opens) *)
Lemma mstep_files : forall d m d' j, mstep d m = Some d' -> d_fs d' j <> d_fs d j ->
  (exists p, m = MOpen p (Some j)) \/ exists st, d_out d = Some st /\ s_ino st = j.
Proof.
  intros [f o nw] m d' j H N. destruct m as [p [i|]|data k| |]; cbn in H.
  - injection H as <-. cbn in N. left. exists p. destruct (Nat.eq_dec j i) as [->|X]; auto.
    rewrite fs_set_other in N by auto. congruence.
  - injection H as <-. cbn in N. congruence.
  - destruct o as [st|]; [|discriminate]. injection H as <-. cbn in N. right. exists st. split; auto.
    destruct (Nat.eq_dec j (s_ino st)) as [->|X]; auto. rewrite fs_set_other in N by auto. congruence.
  - destruct o as [st|]; [|discriminate]. injection H as <-. cbn in N. right. exists st. split; auto.
    destruct (Nat.eq_dec j (s_ino st)) as [->|X]; auto. rewrite fs_set_other in N by auto. congruence.
  - injection H as <-. cbn in N. destruct o as [st|]; [|congruence]. right. exists st. split; auto.
    destruct (Nat.eq_dec j (s_ino st)) as [->|X]; auto. cbn in N. rewrite fs_set_other in N by auto. congruence.
Qed.

(** the same access on files that agree at one place leaves them agreeing there *)
Lemma mstep_agree : forall d d' m v v' j, same_streams d d' -> d_fs d j = d_fs d' j ->
  mstep d m = Some v -> mstep d' m = Some v' -> d_fs v j = d_fs v' j.
Proof.
  intros [f o nw] [f' o' nw'] m v v' j [E E'] F H H'. cbn in E, E', F. subst o' nw'.
  destruct m as [p [i|]|data k| |]; cbn in H, H'.
  - injection H as <-. injection H' as <-. cbn. unfold fs_set. destruct (Nat.eqb j i); auto.
  - injection H as <-. injection H' as <-. auto.
  - destruct o as [st|]; [|discriminate]. injection H as <-. injection H' as <-. cbn. unfold fs_set.
    destruct (Nat.eqb_spec j (s_ino st)) as [X|X]; auto. rewrite <- X, F. auto.
  - destruct o as [st|]; [|discriminate]. injection H as <-. injection H' as <-. cbn. unfold fs_set.
    destruct (Nat.eqb_spec j (s_ino st)) as [X|X]; auto. rewrite <- X, F. auto.
  - injection H as <-. injection H' as <-. cbn. destruct o as [st|]; auto. cbn. unfold fs_set.
    destruct (Nat.eqb_spec j (s_ino st)) as [X|X]; auto. rewrite <- X, F. auto.
Qed.

(** ** each sink has the streams it would have alone *)
Definition alone (f : fsys) (n : nat) (sched : list (nat * micro)) : option disk := mrun (mkDisk f None None) (own n sched).

Lemma world_streams : forall f sched w, wrun (start f) sched = Some w -> forall n,
  exists d, alone f n sched = Some d /\ d_out d = w_out w n /\ d_new d = w_new w n.
Proof.
  intros f sched. induction sched as [|(n0, m) sched IH] using rev_ind; intros w H n.
  - injection H as <-. eexists. split; [reflexivity|]. split; reflexivity.
  - apply wrun_snoc in H as (v & H & S). destruct (IH _ H n) as (d & D & O & N). unfold alone in *. rewrite own_app.
    unfold wstep in S. destruct (mstep _ m) as [d'|] eqn:M; [|discriminate]. injection S as <-. cbn [w_out w_new].
    destruct (Nat.eq_dec n0 n) as [->|X].
    + rewrite own_me, (mrun_one _ _ _ _ D), !put_same.
      pose proof (mstep_streams d (mkDisk (w_fs v) (w_out v n) (w_new v n)) m (conj O N)) as S. rewrite M in S.
      destruct (mstep d m) as [d1|]; [|destruct S]. exists d1. destruct S. auto.
    + rewrite own_other, app_nil_r by auto. exists d. rewrite !put_other by auto. auto.
Qed.

Lemma world_defined : forall f sched, (forall n, alone f n sched <> None) -> exists w, wrun (start f) sched = Some w.
Proof.
  intros f sched. induction sched as [|(n0, m) sched IH] using rev_ind; intros A.
  - eexists. reflexivity.
  - destruct IH as (w & W).
    { intros n E. apply (A n). unfold alone in *. rewrite own_app, mrun_app, E. reflexivity. }
    rewrite wrun_app, W. cbn [wrun wstep]. destruct (world_streams _ _ _ W n0) as (d & D & O & N).
    specialize (A n0). unfold alone in *. rewrite own_app, own_me, (mrun_one _ _ _ _ D) in A.
    pose proof (mstep_streams d (mkDisk (w_fs w) (w_out w n0) (w_new w n0)) m (conj O N)) as S.
    destruct (mstep d m); [|congruence]. destruct (mstep (mkDisk _ _ _) m); [|destruct S]. eexists. reflexivity.
Qed.

(** streams are open on files the sink has opened *)
Lemma out_touched : forall f ms d, mrun (mkDisk f None None) ms = Some d ->
  (forall st, d_out d = Some st -> In (s_ino st) (touched ms)) /\ (forall st, d_new d = Some st -> In (s_ino st) (touched ms)).
Proof.
  intros f ms. induction ms as [|m ms IH] using rev_ind; intros d H.
  - injection H as <-. split; discriminate.
  - rewrite mrun_app in H. destruct (mrun _ ms) as [v|] eqn:V; [|discriminate]. destruct (IH _ eq_refl) as [O N].
    cbn [mrun] in H. destruct (mstep v m) as [d'|] eqn:M; [|discriminate]. injection H as <-. rewrite touched_app.
    destruct v as [fv o nw]. cbn [d_out d_new] in O, N.
    destruct m as [p [i|]|data k| |]; cbn in M.
    + injection M as <-. cbn [d_out d_new]. split; intros st E; apply in_or_app; auto. injection E as <-. right. now left.
    + injection M as <-. cbn [d_out d_new]. split; intros st E; apply in_or_app; auto. discriminate.
    + destruct o as [st0|]; [|discriminate]. injection M as <-. cbn [d_out d_new]. specialize (O _ eq_refl).
      split; intros st E; apply in_or_app; auto. injection E as <-. auto.
    + destruct o as [st0|]; [|discriminate]. injection M as <-. cbn [d_out d_new]. specialize (O _ eq_refl).
      split; intros st E; apply in_or_app; auto. injection E as <-. auto.
    + injection M as <-. cbn [d_out d_new]. split; intros st E; apply in_or_app; auto. discriminate.
Qed.

Lemma apart_less : forall a b, apart (a ++ b) -> apart a.
Proof.
  intros a b A n n' i H H'. apply (A n n' i); rewrite own_app, touched_app; apply in_or_app; auto.
Qed.

(** ** sinks that keep apart *)
Lemma world_alone : forall f sched w, apart sched -> wrun (start f) sched = Some w ->
  (forall n d i, alone f n sched = Some d -> In i (touched (own n sched)) -> w_fs w i = d_fs d i) /\
  (forall i, (forall n, ~ In i (touched (own n sched))) -> w_fs w i = f i) /\
  (forall n d i, alone f n sched = Some d -> ~ In i (touched (own n sched)) -> d_fs d i = f i).
Proof.
  intros f sched. induction sched as [|(n0, m) sched IH] using rev_ind; intros w A H.
  - injection H as <-. split; [intros n d i _ []|]. split; [reflexivity|]. intros n d i D _. injection D as <-. reflexivity.
  - apply wrun_snoc in H as (v & H & S). destruct (IH _ (apart_less _ _ A) H) as (I1 & I2 & I3).
    unfold wstep in S. destruct (mstep _ m) as [d'|] eqn:M; [|discriminate]. injection S as <-. cbn [w_fs].
    destruct (world_streams _ _ _ H n0) as (d0 & D0 & O0 & N0).
    pose proof (mstep_streams d0 (mkDisk (w_fs v) (w_out v n0) (w_new v n0)) m (conj O0 N0)) as S. rewrite M in S.
    destruct (mstep d0 m) as [d0'|] eqn:M0; [|destruct S]. clear S.
    destruct (out_touched f _ _ D0) as [T0 _].
    assert (OWN : alone f n0 (sched ++ [(n0, m)]) = Some d0').
    { unfold alone. rewrite own_app, own_me, (mrun_one _ _ _ _ D0). exact M0. }
    assert (OLD : forall n, n <> n0 -> own n (sched ++ [(n0, m)]) = own n sched).
    { intros n X. rewrite own_app, own_other, app_nil_r by auto. reflexivity. }
    assert (ME : forall i, In i (touched (own n0 sched)) -> In i (touched (own n0 (sched ++ [(n0, m)])))).
    { intros i X. rewrite own_app, touched_app. apply in_or_app. auto. }
    assert (NEW : forall p i, m = MOpen p (Some i) -> In i (touched (own n0 (sched ++ [(n0, m)])))).
    { intros p i ->. rewrite own_app, touched_app, own_me. apply in_or_app. right. now left. }
    assert (UNTOUCHED : forall i, ~ In i (touched (own n0 (sched ++ [(n0, m)]))) -> d_fs d' i = w_fs v i).
    { intros i NT. destruct (list_eq_dec ascii_dec (d_fs d' i) (w_fs v i)) as [E|E]; auto. exfalso. apply NT.
      apply (mstep_files _ _ _ _ M) in E as [(p & ->)|(st & ST & <-)]; [eapply NEW; reflexivity|].
      cbn [d_out] in ST. rewrite <- O0 in ST. auto. }
    split; [|split].
    + intros n d i D T. destruct (Nat.eq_dec n n0) as [->|X].
      * rewrite OWN in D. injection D as <-. symmetry. destruct (in_dec Nat.eq_dec i (touched (own n0 sched))) as [T'|T'].
        -- eapply (mstep_agree d0 (mkDisk (w_fs v) (w_out v n0) (w_new v n0)) m); [split; [exact O0|exact N0]| |exact M0|exact M]. cbn [d_fs]. symmetry. eauto.
        -- rewrite own_app, own_me, touched_app in T. apply in_app_or in T as [T|T]; [contradiction|].
           destruct m as [p [j|]|data k| |]; try (now destruct T). destruct T as [->|[]]. cbn in M0, M.
           injection M0 as <-. injection M as <-. cbn. now rewrite !fs_set_same.
      * pose proof T as T'. rewrite OLD in T' by auto. rewrite UNTOUCHED.
        -- eapply I1; eauto. unfold alone in *. now rewrite OLD in D by auto.
        -- intro Y. apply X. eapply A; eauto.
    + intros i NT. rewrite UNTOUCHED by apply NT. apply I2. intros n T. destruct (Nat.eq_dec n n0) as [->|X].
      * apply (NT n0). auto.
      * apply (NT n). now rewrite OLD by auto.
    + intros n d i D T. destruct (Nat.eq_dec n n0) as [->|X].
      * rewrite OWN in D. injection D as <-. rewrite <- (I3 n0 d0 i D0) by (intro Y; auto).
        destruct (list_eq_dec ascii_dec (d_fs d0' i) (d_fs d0 i)) as [E|E]; auto. exfalso. apply T.
        apply (mstep_files _ _ _ _ M0) in E as [(p & ->)|(st & ST & <-)]; [eapply NEW; reflexivity|]. auto.
      * eapply (I3 n); [|rewrite OLD in T by auto; exact T]. unfold alone in *. now rewrite OLD in D by auto.
Qed.

(** ** sinks that share a file *)
(** the streams of a sink that opens each file once write at the ends of their files *)
Definition tidy (d : disk) : Prop :=
  (forall st, d_out d = Some st -> s_off st = length (d_fs d (s_ino st))) /\
  (forall st, d_new d = Some st -> s_off st = 0 /\ s_buf st = [] /\ d_fs d (s_ino st) = []) /\
  (forall st st', d_out d = Some st -> d_new d = Some st' -> s_ino st <> s_ino st').

Lemma NoDup_snoc_inv : forall (l : list nat) x, NoDup (l ++ [x]) -> NoDup l /\ ~ In x l.
Proof.
  intros l x H. apply NoDup_remove in H. rewrite app_nil_r in H. exact H.
Qed.

Lemma spill_tidy : forall f st k, s_off st = length (f (s_ino st)) ->
  s_off (snd (spill f st k)) = length (fst (spill f st k) (s_ino st)).
Proof.
  intros f st k O. unfold spill. cbn [fst snd s_off]. rewrite fs_set_same, O, write_at_end, app_length. reflexivity.
Qed.

Lemma alone_tidy : forall f ms d, NoDup (touched ms) -> mrun (mkDisk f None None) ms = Some d -> tidy d.
Proof.
  intros f ms. induction ms as [|m ms IH] using rev_ind; intros d ND H.
  - injection H as <-. repeat split; discriminate.
  - rewrite mrun_app in H. destruct (mrun _ ms) as [v|] eqn:V; [|discriminate]. rewrite touched_app in ND.
    pose proof (out_touched _ _ _ V) as [TO TN].
    assert (ND' : NoDup (touched ms)).
    { clear - ND. induction (touched ms); [constructor|]. cbn [app] in ND. apply NoDup_cons_iff in ND as [A B].
      constructor; [intro X; apply A, in_or_app; auto|auto]. }
    destruct (IH _ ND' eq_refl) as (A & B & C). cbn [mrun] in H.
    destruct (mstep v m) as [d'|] eqn:M; [|discriminate]. injection H as <-.
    destruct v as [fv o nw]. cbn [d_out d_new d_fs] in *. unfold tidy.
    destruct m as [p [i|]|data k| |]; cbn in M.
    + cbn in ND. apply NoDup_snoc_inv in ND as [_ NI]. injection M as <-. cbn [d_out d_new d_fs]. split; [|split].
      * intros st E. pose proof (TO _ E) as T. rewrite fs_set_other; auto. intro X. rewrite X in T. contradiction.
      * intros st E. injection E as <-. cbn. now rewrite fs_set_same.
      * intros st st' E E'. injection E' as <-. cbn. intro X. apply NI. rewrite <- X. eauto.
    + injection M as <-. cbn [d_out d_new d_fs]. split; [|split]; auto; discriminate.
    + destruct o as [st0|]; [|discriminate]. injection M as <-. cbn [d_out d_new d_fs]. split; [|split].
      * intros st E. injection E as <-. cbn [s_ino s_off]. rewrite fs_set_same, (A _ eq_refl), write_at_end, app_length. reflexivity.
      * intros st E. destruct (B _ E) as (B1 & B2 & B3). repeat split; auto. rewrite fs_set_other; auto.
        intro X. apply (C _ _ eq_refl E). auto.
      * intros st st' E E'. injection E as <-. cbn. eapply C; eauto.
    + destruct o as [st0|]; [|discriminate]. injection M as <-. cbn [d_out d_new d_fs]. split; [|split].
      * intros st E. injection E as <-. cbn [s_ino s_off]. rewrite fs_set_same, (A _ eq_refl), write_at_end, app_length. reflexivity.
      * intros st E. destruct (B _ E) as (B1 & B2 & B3). repeat split; auto. rewrite fs_set_other; auto.
        intro X. apply (C _ _ eq_refl E). auto.
      * intros st st' E E'. injection E as <-. cbn. eapply C; eauto.
    + injection M as <-. cbn [d_out d_new d_fs]. split; [|split]; try discriminate.
      intros st E. destruct (B _ E) as (B1 & B2 & B3). rewrite B1. destruct o as [st0|]; [|now rewrite B3].
      cbn. rewrite fs_set_other; [now rewrite B3|]. intro X. apply (C _ _ eq_refl E). auto.
Qed.

Lemma nth_firstn : forall A (l : list A) n x y, nth_error (firstn n l) x = Some y -> nth_error l x = Some y.
Proof.
  intros A l. induction l as [|a l IH]; intros [|n] [|x] y H; cbn in *; try discriminate; eauto.
Qed.
Lemma nth_skipn : forall A (l : list A) n x, nth_error (skipn n l) x = nth_error l (n + x).
Proof.
  intros A l. induction l as [|a l IH]; intros [|n] x; cbn; auto. now destruct x.
Qed.

Lemma nth_write_at : forall c off data x b, nth_error (write_at c off data) x = Some b ->
  nth_error c x = Some b \/ (x < off /\ b = NUL) \/ (off <= x /\ nth_error data (x - off) = Some b).
Proof.
  intros c off data x b H. unfold write_at in H. destruct data as [|y data]; [auto|]. set (da := y :: data) in *.
  destruct (Nat.lt_ge_cases x (length (firstn off c))) as [L|L].
  - rewrite nth_error_app1 in H by auto. left. now apply nth_firstn in H.
  - rewrite nth_error_app2 in H by auto. rewrite firstn_length in *.
    destruct (Nat.lt_ge_cases (x - Nat.min off (length c)) (off - length c)) as [G|G].
    + rewrite nth_error_app1 in H by now rewrite repeat_length. right. left. split; [lia|].
      apply nth_error_In in H. now apply repeat_spec in H.
    + rewrite nth_error_app2 in H by now rewrite repeat_length. rewrite repeat_length in H.
      replace (x - Nat.min off (length c) - (off - length c)) with (x - off) in H by lia.
      destruct (Nat.lt_ge_cases (x - off) (length da)) as [Q|Q].
      * rewrite nth_error_app1 in H by auto. right. right. split; [lia|auto].
      * rewrite nth_error_app2 in H by auto. left. rewrite nth_skipn in H.
        replace (off + length da + (x - off - length da)) with x in H by lia. auto.
Qed.

(** a sink that opens each file once only adds to its files *)
Lemma alone_grows : forall d m d' j x b, tidy d -> mstep d m = Some d' -> (forall p, m <> MOpen p (Some j)) ->
  nth_error (d_fs d j) x = Some b -> nth_error (d_fs d' j) x = Some b.
Proof.
  intros [f o nw] m d' j x b (A & _) M NO H. cbn [d_fs d_out] in *.
  assert (G : forall st k, o = Some st -> nth_error (fst (spill f (mkStream (s_ino st) (s_off st) k) (length k)) j) x = Some b).
  { intros st k E. unfold spill. cbn. unfold fs_set. destruct (Nat.eqb_spec j (s_ino st)) as [->|X]; auto.
    rewrite (A _ E), write_at_end. rewrite nth_error_app1; auto. now apply nth_error_Some; rewrite H. }
  destruct m as [p [i|]|data k| |]; cbn in M.
  - injection M as <-. cbn. rewrite fs_set_other; auto. intros ->. now apply (NO p).
  - injection M as <-. auto.
  - destruct o as [st|]; [|discriminate]. injection M as <-. cbn. unfold fs_set.
    destruct (Nat.eqb_spec j (s_ino st)) as [->|X]; auto. rewrite (A _ eq_refl), write_at_end, nth_error_app1; auto.
    now apply nth_error_Some; rewrite H.
  - destruct o as [st|]; [|discriminate]. injection M as <-. cbn. unfold fs_set.
    destruct (Nat.eqb_spec j (s_ino st)) as [->|X]; auto. rewrite (A _ eq_refl), write_at_end, nth_error_app1; auto.
    now apply nth_error_Some; rewrite H.
  - injection M as <-. cbn. destruct o as [st|]; auto. cbn. unfold fs_set.
    destruct (Nat.eqb_spec j (s_ino st)) as [->|X]; auto. rewrite (A _ eq_refl), write_at_end, nth_error_app1; auto.
    now apply nth_error_Some; rewrite H.
Qed.

(** what an access changes in common files it also writes, at the same place, into the files of the sink alone *)
Lemma step_bytes : forall d e m d' e' j x b, same_streams d e -> tidy d ->
  mstep d m = Some d' -> mstep e m = Some e' -> nth_error (d_fs e' j) x = Some b ->
  nth_error (d_fs e j) x = Some b \/
  exists st b', d_out d = Some st /\ s_ino st = j /\ nth_error (d_fs d' j) x = Some b' /\ (b = b' \/ b = NUL).
Proof.
  intros [f o nw] [f' o' nw'] m d' e' j x b [E E'] T M M' H. cbn in E, E'. subst o' nw'.
  assert (W : forall st part, o = Some st ->
    nth_error (fs_set f' (s_ino st) (write_at (f' (s_ino st)) (s_off st) part) j) x = Some b ->
    nth_error (f' j) x = Some b \/
    (s_ino st = j /\ exists b', nth_error (fs_set f (s_ino st) (write_at (f (s_ino st)) (s_off st) part) j) x = Some b' /\ (b = b' \/ b = NUL))).
  { intros st part O X. destruct T as (A & _). specialize (A st). cbn [d_out d_fs] in A. specialize (A O). unfold fs_set in *.
    destruct (Nat.eqb_spec j (s_ino st)) as [->|Y]; auto. rewrite A, write_at_end. rewrite A in X.
    apply nth_write_at in X as [X|[[X ->]|[X Z]]]; auto; right; split; auto.
    - destruct (nth_error (f (s_ino st)) x) as [b'|] eqn:Q; [|apply nth_error_None in Q; lia].
      exists b'. split; auto. rewrite nth_error_app1; auto.
    - exists b. split; auto. rewrite nth_error_app2; auto. }
  destruct m as [p [i|]|data k| |]; cbn in M, M'.
  - injection M' as <-. cbn in *. left. unfold fs_set in H. destruct (Nat.eqb j i); auto. now destruct x.
  - injection M' as <-. auto.
  - destruct o as [st|]; [|discriminate]. injection M as <-. injection M' as <-. cbn in *.
    apply (W st) in H as [H|[I (b' & H & Q)]]; auto. right. exists st, b'. auto.
  - destruct o as [st|]; [|discriminate]. injection M as <-. injection M' as <-. cbn in *.
    apply (W st) in H as [H|[I (b' & H & Q)]]; auto. right. exists st, b'. auto.
  - injection M as <-. injection M' as <-. cbn in *. destruct o as [st|]; auto. cbn in *.
    apply (W st) in H as [H|[I (b' & H & Q)]]; auto. right. exists st, b'. auto.
Qed.

Lemma shared_bytes : forall f sched w, (forall n, NoDup (touched (own n sched))) -> wrun (start f) sched = Some w ->
  forall i x b, nth_error (w_fs w i) x = Some b ->
  (w_fs w i = f i /\ forall n, ~ In i (touched (own n sched))) \/
  exists n d b', In i (touched (own n sched)) /\ alone f n sched = Some d /\
    nth_error (d_fs d i) x = Some b' /\ (b = b' \/ b = NUL).
Proof.
  intros f sched. induction sched as [|(n0, m) sched IH] using rev_ind; intros w ND H i x b X.
  - injection H as <-. left. split; [reflexivity|]. intros n [].
  - apply wrun_snoc in H as (v & H & S).
    assert (ND' : forall n, NoDup (touched (own n sched))).
    { intro n. specialize (ND n). rewrite own_app, touched_app in ND. revert ND. generalize (touched (own n [(n0, m)])).
      induction (touched (own n sched)); [constructor|]. intros l' Q. cbn [app] in Q. apply NoDup_cons_iff in Q as [A B].
      constructor; [intro Z; apply A, in_or_app; auto|eauto]. }
    destruct (world_streams _ _ _ H n0) as (d0 & D0 & O0 & N0). unfold wstep in S.
    destruct (mstep _ m) as [d'|] eqn:M; [|discriminate]. injection S as <-. cbn [w_fs] in *.
    pose proof (mstep_streams d0 (mkDisk (w_fs v) (w_out v n0) (w_new v n0)) m (conj O0 N0)) as S. rewrite M in S.
    destruct (mstep d0 m) as [d0'|] eqn:M0; [|destruct S]. clear S.
    assert (TD : tidy d0) by (eapply alone_tidy; [apply (ND' n0)|exact D0]).
    assert (OWN : alone f n0 (sched ++ [(n0, m)]) = Some d0').
    { unfold alone. rewrite own_app, own_me, (mrun_one _ _ _ _ D0). exact M0. }
    assert (OLD : forall n, n <> n0 -> own n (sched ++ [(n0, m)]) = own n sched).
    { intros n Y. rewrite own_app, own_other, app_nil_r by auto. reflexivity. }
    assert (ME : forall j n, In j (touched (own n sched)) -> In j (touched (own n (sched ++ [(n0, m)])))).
    { intros j n Y. rewrite own_app, touched_app. apply in_or_app. auto. }
    destruct (step_bytes d0 (mkDisk (w_fs v) (w_out v n0) (w_new v n0)) m d0' d' i x b) as [Q|(st & b' & Q & <- & Q' & Q'')]; auto.
    + split; auto.
    + cbn [d_fs] in Q.
      assert (NOPEN : forall p, m <> MOpen p (Some i)).
      { intros p ->. cbn in M. injection M as <-. cbn in X. rewrite fs_set_same in X. now destruct x. }
      destruct (IH _ ND' H _ _ _ Q) as [[I1 I2]|(n & d & b' & I1 & I2 & I3 & I4)].
      * destruct (list_eq_dec ascii_dec (d_fs d' i) (w_fs v i)) as [E|E].
        -- left. split; [congruence|]. intros n Y. rewrite own_app, touched_app in Y. apply in_app_or in Y as [Y|Y]; [now apply (I2 n)|].
           destruct (Nat.eq_dec n0 n) as [->|Z]; [|rewrite own_other in Y by auto; destruct Y].
           rewrite own_me in Y. destruct m as [p [k|]| | |]; try (now destruct Y). destruct Y as [->|[]]. now apply (NOPEN p).
        -- exfalso. apply (mstep_files _ _ _ _ M) in E as [(p & ->)|(st & ST & <-)]; [now apply (NOPEN p)|].
           cbn [d_out] in ST. rewrite <- O0 in ST. apply (I2 n0). apply (out_touched f _ _ D0) in ST. exact ST.
      * right. destruct (Nat.eq_dec n n0) as [->|Z].
        -- rewrite D0 in I2. injection I2 as <-. exists n0, d0', b'. repeat split; auto. eapply alone_grows; eauto.
        -- exists n, d, b'. repeat split; auto. unfold alone in *. now rewrite OLD by auto.
    + right. exists n0, d0', b'. repeat split; auto. apply ME. apply (out_touched f _ _ D0) in Q. exact Q.
Qed.

(** ** lives *)
Lemma ops_micros_run : forall e os s d s' ms, ops_micros e s os = Ok (s', ms) -> forall d', mrun d ms = Some d' ->
  ops_run e (s, d) os = Ok (s', d').
Proof.
  intros e os. induction os as [|o os IH]; intros s d s' ms H d' R.
  - injection H as <- <-. injection R as <-. reflexivity.
  - cbn [ops_micros] in H. apply obind_ok in H as ((s1, ms1) & H & K). apply obind_ok in K as ((s2, ms2) & K & E).
    cbn [fst snd] in *. injection E as <- <-. rewrite mrun_app in R. destruct (mrun d ms1) as [d1|] eqn:R1; [|discriminate].
    cbn [ops_run]. unfold op_step. cbn [fst snd]. rewrite H. cbn [obind snd fst]. unfold apply_micros. rewrite R1. cbn [obind].
    eauto.
Qed.

Lemma life_alone : forall l s ms f d tnow k, life_micros l = Ok (s, ms) -> l_end l = Some (tnow, k) ->
  mrun (mkDisk f None None) ms = Some d ->
  exists w0 w, create (l_env l) (l_high l) (l_prefix l) (l_dir l) (l_id l) (l_every l) (l_now l) (l_r1 l) (l_r2 l) f = Ok w0 /\
    ops_run (l_env l) w0 (l_ops l) = Ok w /\ destroy (l_env l) w tnow k = Ok (d_fs d).
Proof.
  intros l s ms f d tnow k H EN R. unfold life_micros in H.
  apply obind_ok in H as ((s0, ms0) & C & H). apply obind_ok in H as ((s1, ms1) & O & H). rewrite EN in H.
  apply obind_ok in H as (ms2 & D & E). cbn [fst snd] in *. injection E as <- <-.
  rewrite mrun_app in R. destruct (mrun _ ms0) as [d0|] eqn:R0; [|discriminate]. rewrite mrun_app in R.
  destruct (mrun d0 ms1) as [d1|] eqn:R1; [|discriminate].
  exists (s0, d0), (s1, d1). split; [|split].
  - unfold create. rewrite C. cbn [obind snd fst]. unfold apply_micros. rewrite R0. reflexivity.
  - eapply ops_micros_run; eauto.
  - unfold destroy. cbn [fst snd]. rewrite D. cbn [obind]. unfold apply_micros. rewrite R. reflexivity.
Qed.

(** the files a life opens *)
Lemma ops_touched : forall e os s s' ms, ops_micros e s os = Ok (s', ms) -> touched ms = opened os.
Proof.
  intros e os. induction os as [|o os IH]; intros s s' ms H.
  - injection H as <- <-. reflexivity.
  - cbn [ops_micros] in H. apply obind_ok in H as ((s1, ms1) & H & K). apply obind_ok in K as ((s2, ms2) & K & E).
    cbn [fst snd] in *. injection E as <- <-. rewrite touched_app, (IH _ _ _ K). clear IH K.
    destruct o as [m now k1 k2|d i n1 n2 n3 r k1 k2 k3|g|h]; cbn [op_run opened] in *.
    + assert (touched ms1 = []); [|now rewrite H0]. apply fileWrite_inv in H as (h & data & H1 & _ & _ & _ & ->).
      unfold hdr_of in H1. destruct (_firstEntry s); cbn; destruct (due s); reflexivity.
    + apply obind_ok in H as (((s3, ms3), nm) & H & E). injection E as <- <-. unfold changeLogFile in H.
      apply obind_ok in H as (t & _ & H). apply obind_ok in H as (name & _ & H). destruct r as [j|].
      * apply obind_ok in H as (hd & HD & H). injection H as <- <- <-. unfold addLogFileHeader in HD.
        apply obind_ok in HD as (h & _ & HD). injection HD as <-. reflexivity.
      * injection H as <- <- <-. reflexivity.
    + injection H as <- <-. reflexivity.
    + injection H as <- <-. reflexivity.
Qed.

Lemma life_touched : forall l s ms, life_micros l = Ok (s, ms) ->
  touched ms = (match l_r1 l, l_r2 l with Some i, _ => [i] | None, Some i => [i] | None, None => [] end) ++ opened (l_ops l).
Proof.
  intros l s ms H. unfold life_micros in H.
  apply obind_ok in H as ((s0, ms0) & C & H). apply obind_ok in H as ((s1, ms1) & O & H). cbn [fst snd] in *.
  assert (T0 : touched ms0 = match l_r1 l, l_r2 l with Some i, _ => [i] | None, Some i => [i] | None, None => [] end).
  { unfold FileSink_ctor in C. destruct (negb _); [discriminate|]. apply obind_ok in C as (name & _ & C).
    destruct (l_r1 l) as [i|]; [injection C as <- <-; reflexivity|]. destruct (l_r2 l) as [i|]; [injection C as <- <-; reflexivity|].
    destruct (e_debug _); [discriminate|]. injection C as <- <-. reflexivity. }
  apply ops_touched in O. destruct (l_end l) as [(tnow, k)|].
  - apply obind_ok in H as (ms2 & D & E). injection E as <- <-. rewrite !touched_app, T0, O.
    unfold FileSink_dtor in D. apply obind_ok in D as (t & _ & D). injection D as <-. cbn. now rewrite app_nil_r.
  - injection H as <- <-. now rewrite touched_app, T0, O.
Qed.

Lemma ops_defined : forall e os s d s' ms, usable (s, d) -> ops_micros e s os = Ok (s', ms) ->
  exists d', mrun d ms = Some d' /\ usable (s', d').
Proof.
  intros e os. induction os as [|o os IH]; intros s d s' ms U H.
  - injection H as <- <-. exists d. auto.
  - cbn [ops_micros] in H. apply obind_ok in H as ((s1, ms1) & H & K). apply obind_ok in K as ((s2, ms2) & K & E).
    cbn [fst snd] in *. injection E as <- <-. rewrite mrun_app.
    pose proof (usable_op e (s, d) o U) as X. unfold op_step in X. cbn [fst snd] in X. rewrite H in X.
    cbn [obind fst snd] in X. unfold apply_micros in X. destruct (mrun d ms1) as [d1|].
    + cbn [obind] in X. destruct X as [(w' & E & U')|[X|X]]; try discriminate. injection E as <-. eauto.
    + destruct X as [(w' & E & _)|[X|X]]; discriminate.
Qed.

Lemma life_defined : forall l s ms f, life_micros l = Ok (s, ms) -> (l_every l <> 0)%N -> l_r1 l <> None \/ l_r2 l <> None ->
  mrun (mkDisk f None None) ms <> None.
Proof.
  intros l s ms f H Z RR. unfold life_micros in H.
  apply obind_ok in H as ((s0, ms0) & C & H). apply obind_ok in H as ((s1, ms1) & O & H). cbn [fst snd] in *.
  assert (U : exists d0, mrun (mkDisk f None None) ms0 = Some d0 /\ usable (s0, d0)).
  { unfold FileSink_ctor in C. destruct (negb _); [discriminate|]. apply obind_ok in C as (name & _ & C).
    destruct (l_r1 l) as [i|]; [injection C as <- <-; eexists; split; [reflexivity|]; split; [discriminate|exact Z]|].
    destruct (l_r2 l) as [i|]; [injection C as <- <-; eexists; split; [reflexivity|]; split; [discriminate|exact Z]|].
    destruct RR; congruence. }
  destruct U as (d0 & R0 & U). destruct (ops_defined _ _ _ _ _ _ U O) as (d1 & R1 & U1). destruct (l_end l) as [(tnow, k)|].
  - apply obind_ok in H as (ms2 & D & E). injection E as <- <-. rewrite !mrun_app, R0, mrun_app, R1.
    unfold FileSink_dtor in D. apply obind_ok in D as (t & _ & D). injection D as <-. destruct U1 as [U1 _]. cbn [snd] in U1.
    cbn. destruct (d_out d1) as [st|]; [|congruence]. cbn. discriminate.
  - injection H as <- <-. rewrite mrun_app, R0, R1. discriminate.
Qed.

(** ** names *)
Lemma last_component : forall (a b n m : str), (a = [] \/ exists x, a = x ++ lit "/") -> (b = [] \/ exists x, b = x ++ lit "/") ->
  ~ In "/"%char n -> ~ In "/"%char m -> a ++ n = b ++ m -> n = m.
Proof.
  assert (G : forall (a b n m : str), length b <= length a -> (a = [] \/ exists x, a = x ++ lit "/") ->
    ~ In "/"%char m -> a ++ n = b ++ m -> n = m).
  { intros a b n m L A M E. destruct (Nat.eq_dec (length a) (length b)) as [Q|Q].
    - revert E. revert b L Q. clear A M. induction a as [|x a IH]; intros [|y b] L Q E; cbn in *; try discriminate; auto.
      injection E as _ E. apply (IH b); auto; lia.
    - exfalso. destruct A as [->|(x & ->)]; [cbn in *; lia|]. apply M. rewrite app_length in *. cbn [length lit] in *.
      assert (X : exists y, m = y ++ lit "/" ++ n).
      { clear - E L Q. assert (LL : length b <= length x) by (cbn in *; lia). clear L Q. revert b LL E.
        induction x as [|c x IH]; intros [|c' b] LL E; cbn in *; try lia.
        - exists []. cbn. auto.
        - exists (c :: x). cbn. now rewrite <- app_assoc in E.
        - injection E as _ E. apply IH in E; [auto|lia]. }
      destruct X as (y & ->). apply in_or_app. right. now left. }
  intros a b n m A B N M E. destruct (Nat.le_ge_cases (length b) (length a)) as [L|L]; [eauto|symmetry; eauto].
Qed.

Lemma pathSanityFix_shape : forall dir name, exists a, (a = [] \/ exists x, a = x ++ lit "/") /\ pathSanityFix dir name = a ++ name.
Proof.
  intros dir name. unfold pathSanityFix. destruct (trim_loop _ _) as [|c r]; [exists []; auto|].
  exists ((c :: r) ++ lit "/"). split; eauto.
Qed.
