From Coq Require Import Ascii String List ZArith NArith Bool Lia.
From Verif.Base Require Import Bytes.
From Verif.Model Require Import Levels TimeFmt Message FileName FileSink WriteError.
From Verif.Spec Require Import FileSinkSpec WriteErrorSpec.
From Verif.Proofs Require Import BytesFacts FileSinkFacts.
Import ListNotations.
Local Open Scope list_scope.

(** ** the same calls with and without faults end alike *)
Definition alike (d : disk) (fd : fdisk) : Prop :=
  (d_out d = None <-> fd_out fd = None) /\ (d_new d = None <-> fd_new fd = None).

Ltac al := split; cbn; auto; try (split; discriminate); try tauto.
Lemma alike_step : forall flt d fd m, alike d fd ->
  match mstep d m, fstep flt fd m with
  | Some d', Some fd' => alike d' fd'
  | None, None => True
  | _, _ => False
  end.
Proof.
  intros flt d fd m [O N].
  destruct m as [path [i|]|data k| |]; cbn [mstep fstep].
  - al.
  - al.
  - destruct (d_out d) as [st|] eqn:D.
    + destruct (fd_out fd) as [[ft g]|] eqn:F; [|destruct O as [_ O]; now specialize (O eq_refl)].
      destruct (spill _ _ _) as [f' st']. destruct g.
      * destruct (flt (fd_n fd)); [destruct (spill_fail _ _ _)|destruct (spill _ _ _)]; al.
      * al.
    + destruct O as [O _]. now rewrite (O eq_refl).
  - destruct (d_out d) as [st|] eqn:D.
    + destruct (fd_out fd) as [[ft g]|] eqn:F; [|destruct O as [_ O]; now specialize (O eq_refl)].
      destruct (spill_all _ _) as [f' st']. destruct (hand_over _ _ _) as [[f2 st2] w]. al.
    + destruct O as [O _]. now rewrite (O eq_refl).
  - al.
Qed.

Lemma alike_run : forall flt ms d fd, alike d fd ->
  match mrun d ms, frun flt fd ms with
  | Some d', Some fd' => alike d' fd'
  | None, None => True
  | _, _ => False
  end.
Proof.
  intros flt. induction ms as [|m ms IH]; intros d fd A; cbn [mrun frun]; auto.
  pose proof (alike_step flt d fd m A) as S.
  destruct (mstep d m) as [d'|], (fstep flt fd m) as [fd'|]; try contradiction; auto.
  apply IH. exact S.
Qed.

Definition alike_out (r : out (FileSink * disk)) (q : out (FileSink * fdisk)) : Prop :=
  match r, q with
  | Ok (s, d), Ok (s', fd) => s = s' /\ alike d fd
  | UB, UB | Throw, Throw | Abort, Abort => True
  | _, _ => False
  end.

Lemma alike_apply : forall flt (x : out (FileSink * list micro)) d fd, alike d fd ->
  alike_out (obind x (fun x => obind (apply_micros d (snd x)) (fun d' => Ok (fst x, d'))))
            (obind x (fun x => obind (fapply flt fd (snd x)) (fun d' => Ok (fst x, d')))).
Proof.
  intros flt [[s ms]| | |] d fd A; cbn; auto. unfold apply_micros, fapply. pose proof (alike_run flt ms d fd A) as R.
  destruct (mrun d ms), (frun flt fd ms); try contradiction; cbn; auto.
Qed.

Lemma alike_ops : forall flt e os s d fd, alike d fd ->
  alike_out (ops_run e (s, d) os) (fops_run flt e (s, fd) os).
Proof.
  intros flt e. induction os as [|o os IH]; intros s d fd A; cbn [ops_run fops_run]; [split; auto|].
  unfold op_step, fop_step. cbn [fst snd]. pose proof (alike_apply flt (op_run e s o) d fd A) as S.
  destruct (obind (op_run e s o) (fun x => obind (apply_micros d (snd x)) (fun d' => Ok (fst x, d')))) as [[s1 d1]| | |],
           (obind (op_run e s o) (fun x => obind (fapply flt fd (snd x)) (fun d' => Ok (fst x, d')))) as [[s2 d2]| | |];
  try contradiction; cbn; auto.
  destruct S as [-> S]. now apply IH.
Qed.

Lemma alike_create : forall flt e high p dir id every now r1 r2 f,
  alike_out (create e high p dir id every now r1 r2 f) (fcreate flt e high p dir id every now r1 r2 f).
Proof.
  intros. unfold create, fcreate. apply alike_apply. al.
Qed.

Lemma alike_destroy : forall flt e s d fd now k, alike d fd ->
  ended (destroy e (s, d) now k) = ended (fdestroy flt e (s, fd) now k).
Proof.
  intros flt e s d fd now k A. unfold destroy, fdestroy. cbn [fst snd].
  destruct (FileSink_dtor e s now k) as [ms| | |]; cbn; auto. unfold apply_micros, fapply.
  pose proof (alike_run flt ms d fd A) as R. destruct (mrun d ms), (frun flt fd ms); try contradiction; reflexivity.
Qed.

Lemma alike_seen : forall r q, alike_out r q -> seen r = seen q.
Proof. intros [[s d]| | |] [[s' fd]| | |] A; try contradiction; auto. destruct A as [-> _]. reflexivity. Qed.

(** ** the contents of the files in lockstep *)
Section J.
Variable allowed : fault -> Prop.
Variable J : str -> str -> str -> Prop.   (* whole text, content of the file, buffer of the stream *)
Hypothesis J_more : forall T c b x, J T c b -> J (T ++ x) c b.
Hypothesis J_all : forall c b, J (c ++ b) c b.
Hypothesis J_fail : forall T c b x, J T c b -> allowed x ->
  J T (c ++ firstn (f_accepted x) b) (firstn (f_keep x) (skipn (Nat.min (f_from x) (length (firstn (f_accepted x) b))) b)).
Hypothesis J_part : forall T c b a, J T c b -> J T (c ++ firstn a b) [].
Hypothesis J_hand : forall T c b, J T c b -> J T (c ++ b) [].

Definition out_rel (d : disk) (fd : fdisk) : Prop :=
  match d_out d, fd_out fd with
  | None, None => True
  | Some st, Some (mkF ft g) =>
      s_ino ft = s_ino st /\ s_off st = length (d_fs d (s_ino st)) /\ s_off ft = length (fd_fs fd (s_ino st)) /\
      (g = true -> fd_fs fd (s_ino st) ++ s_buf ft = d_fs d (s_ino st) ++ s_buf st) /\
      J (d_fs d (s_ino st) ++ s_buf st) (fd_fs fd (s_ino st)) (s_buf ft)
  | _, _ => False
  end.
Definition cur (d : disk) : option nat := match d_out d with Some st => Some (s_ino st) | None => None end.
Definition new_rel (d : disk) (fd : fdisk) : Prop :=
  match d_new d, fd_new fd with
  | None, None => True
  | Some st, Some ft => exists j, st = mkStream j 0 [] /\ ft = mkF (mkStream j 0 []) true /\
      d_fs d j = [] /\ fd_fs fd j = [] /\ cur d <> Some j
  | _, _ => False
  end.
Definition Sim (d : disk) (fd : fdisk) : Prop :=
  (forall j, cur d <> Some j -> J (d_fs d j) (fd_fs fd j) []) /\ out_rel d fd /\ new_rel d fd.

Lemma J_refl : forall c, J c c [].
Proof. intro c. pose proof (J_all c []) as A. rewrite app_nil_r in A. exact A. Qed.

Lemma fail_at_end : forall f st x, s_off st = length (f (s_ino st)) ->
  let (f', st') := spill_fail f st x in
  s_ino st' = s_ino st /\ s_off st' = length (f' (s_ino st)) /\
  f' (s_ino st) = f (s_ino st) ++ firstn (f_accepted x) (s_buf st) /\
  s_buf st' = firstn (f_keep x) (skipn (Nat.min (f_from x) (length (firstn (f_accepted x) (s_buf st)))) (s_buf st)) /\
  (forall j, j <> s_ino st -> f' j = f j).
Proof.
  intros f st x O. unfold spill_fail. cbn [s_ino s_off s_buf]. rewrite O, write_at_end, fs_set_same.
  split; [reflexivity|]. split; [now rewrite app_length|]. split; [reflexivity|]. split; [reflexivity|].
  intros; now apply fs_set_other.
Qed.

Lemma Sim_step : forall flt d fd m d', (forall n x, flt n = Some x -> allowed x) ->
  Sim d fd -> (forall p j, m = MOpen p (Some j) -> cur d <> Some j) -> mstep d m = Some d' ->
  exists fd', fstep flt fd m = Some fd' /\ Sim d' fd'.
Proof.
  intros flt d fd m d' AL (F & O & N) OK S.
  destruct m as [path [i|]|data k| |]; cbn [mstep fstep] in *.
  - (* open *)
    injection S as <-. eexists. split; [reflexivity|]. specialize (OK _ _ eq_refl). split; [|split].
    + intros j C. cbn [d_fs fd_fs]. unfold fs_set. destruct (Nat.eqb_spec j i); [apply J_refl|]. apply F. exact C.
    + unfold out_rel in *. cbn [d_out d_fs fd_out fd_fs]. unfold cur in OK. destruct (d_out d) as [st|]; auto.
      destruct (fd_out fd) as [[ft g]|]; auto. rewrite !fs_set_other by congruence. exact O.
    + unfold new_rel. cbn [d_new fd_new d_fs fd_fs]. exists i. rewrite !fs_set_same. auto 6.
  - injection S as <-. eexists. split; [reflexivity|]. split; [|split]; [exact F|exact O|]. unfold new_rel. cbn. exact I.
  - (* write *)
    unfold out_rel in O. destruct (d_out d) as [st|] eqn:D; [|discriminate].
    destruct (fd_out fd) as [[ft g]|] eqn:FD; [|contradiction]. destruct O as (OI & O1 & O2 & O3 & O4).
    pose proof (spill_at_end (d_fs d) (mkStream (s_ino st) (s_off st) (s_buf st ++ data)) k) as SP.
    cbn [s_ino s_off s_buf] in SP. specialize (SP O1).
    destruct (spill (d_fs d) (mkStream (s_ino st) (s_off st) (s_buf st ++ data)) k) as [f' st'] eqn:SE.
    injection S as <-. destruct SP as (S1 & S2 & S3 & _ & S5 & _).
    assert (T : d_fs d (s_ino st) ++ s_buf st ++ data = (d_fs d (s_ino st) ++ s_buf st) ++ data) by apply app_assoc.
    assert (CUR : cur (mkDisk f' (Some st') (d_new d)) = cur d) by (unfold cur; cbn; rewrite D, S1; reflexivity).
    assert (NEW : forall f2 o n, (forall j, j <> s_ino st -> f2 j = fd_fs fd j) ->
                  new_rel (mkDisk f' (Some st') (d_new d)) (mkFD f2 o (fd_new fd) n)).
    { intros f2 o n H. unfold new_rel in *. rewrite CUR. cbn [d_new fd_new d_fs fd_fs].
      destruct (d_new d) as [sn|]; [|exact N]. destruct (fd_new fd); [|exact N].
      destruct N as (j & N1 & N2 & N3 & N4 & N5). exists j.
      assert (j <> s_ino st) by (unfold cur in N5; rewrite D in N5; congruence).
      rewrite S5, H by assumption. auto. }
    assert (OTH : forall f2 o n, (forall j, j <> s_ino st -> f2 j = fd_fs fd j) ->
                  forall j, cur (mkDisk f' (Some st') (d_new d)) <> Some j ->
                  J (d_fs (mkDisk f' (Some st') (d_new d)) j) (fd_fs (mkFD f2 o (fd_new fd) n) j) []).
    { intros f2 o n H j C. rewrite CUR in C. cbn [d_fs fd_fs].
      assert (j <> s_ino st) by (unfold cur in C; rewrite D in C; congruence).
      rewrite S5, H by assumption. now apply F. }
    destruct g.
    + pose proof (O3 eq_refl) as E.
      destruct (flt (fd_n fd)) as [x|] eqn:FX.
      * pose proof (fail_at_end (fd_fs fd) (mkStream (s_ino ft) (s_off ft) (s_buf ft ++ data)) x) as FE.
        cbn [s_ino s_off s_buf] in FE. rewrite OI in FE. specialize (FE O2). rewrite OI.
        destruct (spill_fail _ _ _) as [f2 st2]. destruct FE as (E1 & E2 & E3 & E4 & E5).
        eexists. split; [reflexivity|]. split; [now apply OTH|]. split; [|now apply NEW].
        unfold out_rel. cbn [d_out fd_out d_fs fd_fs]. rewrite S1. split; [exact E1|]. split; [exact S2|]. split; [exact E2|].
        split; [discriminate|]. rewrite S3, E3, E4. rewrite T, <- E, <- app_assoc.
        apply J_fail; [|eapply AL; exact FX]. apply J_all.
      * pose proof (spill_at_end (fd_fs fd) (mkStream (s_ino ft) (s_off ft) (s_buf ft ++ data)) k) as FE.
        cbn [s_ino s_off s_buf] in FE. rewrite OI in FE. specialize (FE O2). rewrite OI.
        destruct (spill (fd_fs fd) _ _) as [f2 st2]. destruct FE as (E1 & E2 & E3 & _ & E5 & _).
        eexists. split; [reflexivity|]. split; [now apply OTH|]. split; [|now apply NEW].
        unfold out_rel. cbn [d_out fd_out d_fs fd_fs]. rewrite S1. split; [exact E1|]. split; [exact S2|]. split; [exact E2|].
        assert (Q : f2 (s_ino st) ++ s_buf st2 = f' (s_ino st) ++ s_buf st').
        { rewrite E3, S3, T, <- E, <- app_assoc. reflexivity. }
        split; [intros _; exact Q|]. rewrite <- Q. apply J_all.
    + eexists. split; [reflexivity|]. split; [now apply OTH|]. split; [|now apply NEW].
      unfold out_rel. cbn [d_out fd_out d_fs fd_fs]. rewrite S1. split; [exact OI|]. split; [exact S2|]. split; [exact O2|].
      split; [discriminate|]. rewrite S3, T. now apply J_more.
  - (* flush *)
    unfold out_rel in O. destruct (d_out d) as [st|] eqn:D; [|discriminate].
    destruct (fd_out fd) as [[ft g]|] eqn:FD; [|contradiction]. destruct O as (OI & O1 & O2 & O3 & O4).
    unfold spill_all in S. pose proof (spill_at_end (d_fs d) st (length (s_buf st)) O1) as SP.
    destruct (spill (d_fs d) st (length (s_buf st))) as [f' st'] eqn:SE.
    injection S as <-. destruct SP as (S1 & S2 & S3 & _ & S5 & _).
    assert (CUR : cur (mkDisk f' (Some st') (d_new d)) = cur d) by (unfold cur; cbn; rewrite D, S1; reflexivity).
    assert (NEW : forall f2 o n, (forall j, j <> s_ino st -> f2 j = fd_fs fd j) ->
                  new_rel (mkDisk f' (Some st') (d_new d)) (mkFD f2 o (fd_new fd) n)).
    { intros f2 o n H. unfold new_rel in *. rewrite CUR. cbn [d_new fd_new d_fs fd_fs].
      destruct (d_new d) as [sn|]; [|exact N]. destruct (fd_new fd); [|exact N].
      destruct N as (j & N1 & N2 & N3 & N4 & N5). exists j.
      assert (j <> s_ino st) by (unfold cur in N5; rewrite D in N5; congruence).
      rewrite S5, H by assumption. auto. }
    assert (OTH : forall f2 o n, (forall j, j <> s_ino st -> f2 j = fd_fs fd j) ->
                  forall j, cur (mkDisk f' (Some st') (d_new d)) <> Some j ->
                  J (d_fs (mkDisk f' (Some st') (d_new d)) j) (fd_fs (mkFD f2 o (fd_new fd) n) j) []).
    { intros f2 o n H j C. rewrite CUR in C. cbn [d_fs fd_fs].
      assert (j <> s_ino st) by (unfold cur in C; rewrite D in C; congruence).
      rewrite S5, H by assumption. now apply F. }
    unfold hand_over. destruct (flt (fd_n fd)) as [x|] eqn:FX.
    + pose proof (fail_at_end (fd_fs fd) ft x) as FE. rewrite OI in FE. specialize (FE O2).
      destruct (spill_fail (fd_fs fd) ft x) as [f2 st2]. destruct FE as (E1 & E2 & E3 & E4 & E5).
      eexists. split; [reflexivity|]. split; [now apply OTH|]. split; [|now apply NEW].
      unfold out_rel. cbn [d_out fd_out d_fs fd_fs]. rewrite S1. split; [exact E1|]. split; [exact S2|]. split; [exact E2|].
      split; [now rewrite andb_false_r|]. rewrite S3, E3, E4. apply J_fail; [exact O4|eapply AL; exact FX].
    + unfold spill_all. pose proof (spill_at_end (fd_fs fd) ft (length (s_buf ft))) as FE. rewrite OI in FE. specialize (FE O2).
      destruct (spill (fd_fs fd) ft (length (s_buf ft))) as [f2 st2]. destruct FE as (E1 & E2 & E3 & _ & E5 & E6).
      specialize (E6 (le_n _)).
      eexists. split; [reflexivity|]. split; [now apply OTH|]. split; [|now apply NEW].
      unfold out_rel. cbn [d_out fd_out d_fs fd_fs]. rewrite S1. split; [exact E1|]. split; [exact S2|]. split; [exact E2|].
      rewrite S3. split; [intro G; rewrite andb_true_r in G; rewrite E3; auto|].
      rewrite E6, app_nil_r in *. rewrite E3. now apply J_hand.
  - (* move *)
    injection S as <-. eexists. split; [reflexivity|].
    assert (ALL : forall j, J (match d_out d with None => d_fs d | Some st => fst (spill_all (d_fs d) st) end j)
                     (match fd_out fd with None => fd_fs fd | Some (mkF st _) => let '(f, _, _) := hand_over (flt (fd_n fd)) (fd_fs fd) st in f end j) []).
    { intro j. unfold out_rel in O. destruct (d_out d) as [st|] eqn:D.
      - destruct (fd_out fd) as [[ft g]|] eqn:FD; [|contradiction]. destruct O as (OI & O1 & O2 & O3 & O4).
        unfold spill_all at 1. pose proof (spill_at_end (d_fs d) st (length (s_buf st)) O1) as SP.
        destruct (spill (d_fs d) st (length (s_buf st))) as [f' st'] eqn:SE. destruct SP as (S1 & S2 & S3 & _ & S5 & S6).
        specialize (S6 (le_n _)). rewrite S6, app_nil_r in S3. cbn [fst].
        unfold hand_over. destruct (flt (fd_n fd)) as [x|] eqn:FX.
        + pose proof (fail_at_end (fd_fs fd) ft x) as FE. rewrite OI in FE. specialize (FE O2).
          destruct (spill_fail (fd_fs fd) ft x) as [f2 st2]. destruct FE as (E1 & E2 & E3 & E4 & E5).
          destruct (Nat.eq_dec j (s_ino st)) as [->|NE].
          * rewrite S3, E3. now apply J_part.
          * rewrite S5, E5 by assumption. apply F. unfold cur. rewrite D. congruence.
        + unfold spill_all. pose proof (spill_at_end (fd_fs fd) ft (length (s_buf ft))) as FE. rewrite OI in FE. specialize (FE O2).
          destruct (spill (fd_fs fd) ft (length (s_buf ft))) as [f2 st2]. destruct FE as (E1 & E2 & E3 & _ & E5 & E6).
          specialize (E6 (le_n _)). rewrite E6, app_nil_r in E3.
          destruct (Nat.eq_dec j (s_ino st)) as [->|NE].
          * rewrite S3, E3. now apply J_hand.
          * rewrite S5, E5 by assumption. apply F. unfold cur. rewrite D. congruence.
      - destruct (fd_out fd) as [[ft g]|] eqn:FD; [contradiction|]. apply F. unfold cur. rewrite D. discriminate. }
    assert (KEEP : forall j, cur d <> Some j ->
      match d_out d with None => d_fs d | Some st => fst (spill_all (d_fs d) st) end j = d_fs d j /\
      match fd_out fd with None => fd_fs fd | Some (mkF st _) => let '(f, _, _) := hand_over (flt (fd_n fd)) (fd_fs fd) st in f end j = fd_fs fd j).
    { intros j C. unfold out_rel, cur in *. destruct (d_out d) as [st|].
      - destruct (fd_out fd) as [[ft g]|]; [|contradiction]. destruct O as (OI & _). assert (NE : j <> s_ino st) by congruence.
        split; [unfold spill_all, spill; cbn [fst]; now apply fs_set_other|].
        unfold hand_over. destruct (flt (fd_n fd)); unfold spill_fail, spill_all, spill; apply fs_set_other; congruence.
      - destruct (fd_out fd); [contradiction|auto]. }
    split; [intros j _; apply ALL|]. split; [|exact I].
    unfold out_rel. cbn [d_out fd_out d_fs fd_fs].
    unfold new_rel in N. destruct (d_new d) as [sn|]; [|destruct (fd_new fd); exact N]. destruct (fd_new fd) as [fn|]; [|exact N].
    destruct N as (j & -> & -> & N3 & N4 & N5). cbn [s_ino s_off s_buf].
    destruct (KEEP j N5) as [K1 K2]. unfold spill_all, spill in K1. cbn [fst] in K1. rewrite K1, K2, N3, N4. repeat split; auto.
Qed.

Lemma Sim_run : forall flt ms d fd d', (forall n x, flt n = Some x -> allowed x) ->
  Sim d fd -> (forall p r, ~ In (MOpen p r) ms) -> mrun d ms = Some d' ->
  exists fd', frun flt fd ms = Some fd' /\ Sim d' fd'.
Proof.
  intros flt. induction ms as [|m ms IH]; intros d fd d' AL S NO R; cbn [mrun frun] in *.
  - injection R as <-. eauto.
  - destruct (mstep d m) as [d1|] eqn:M; [|discriminate].
    destruct (Sim_step flt d fd m d1 AL S) as (fd1 & F1 & S1); auto.
    { intros p j ->. exfalso. eapply NO. now left. }
    rewrite F1. eapply IH; eauto. intros p r I. eapply NO. right. exact I.
Qed.

Lemma cur_run : forall ms d d', (forall p r, ~ In (MOpen p r) ms) -> ~ In MMove ms -> mrun d ms = Some d' ->
  cur d' = cur d /\ d_new d' = d_new d.
Proof.
  induction ms as [|m ms IH]; intros d d' NO NM R; cbn [mrun] in R; [injection R as <-; auto|].
  destruct (mstep d m) as [d1|] eqn:M; [|discriminate].
  destruct (IH d1 d') as [E1 E2]; auto.
  { intros p r I. eapply NO. right. exact I. } { intro I. apply NM. now right. }
  rewrite E1, E2. destruct m as [p r|data k| |]; cbn [mstep] in M.
  - exfalso. eapply NO. now left.
  - unfold cur. destruct (d_out d) as [st|]; [|discriminate]. destruct (spill _ _ _) as [f st'] eqn:SP. injection M as <-.
    unfold spill in SP. injection SP as _ <-. auto.
  - unfold cur. destruct (d_out d) as [st|]; [|discriminate]. destruct (spill_all _ _) as [f st'] eqn:SP. injection M as <-.
    unfold spill_all, spill in SP. injection SP as _ <-. auto.
  - exfalso. apply NM. now left.
Qed.

(** what one call does: at most one file is opened, at its beginning *)
Lemma op_shape : forall e s o s' ms, op_run e s o = Ok (s', ms) ->
  match o with
  | OChange _ _ _ _ _ (Some j) _ _ _ => exists p h a k1 b k2 c k3, ms = MOpen p (Some j) :: [MWrite h k1; MWrite a k2] ++ MMove :: [MWrite c k3] /\ b = a
  | OChange _ _ _ _ _ None _ _ _ => exists p a k, ms = [MOpen p None; MWrite a k]
  | _ => (forall p r, ~ In (MOpen p r) ms) /\ ~ In MMove ms
  end.
Proof.
  intros e s o s' ms H. destruct o as [m now k1 k2|dir id n1 n2 n3 r k1 k2 k3|f|h]; cbn [op_run] in H.
  - apply fileWrite_inv in H as (h & data & _ & _ & _ & _ & ->).
    split; [intros p r I|intro I]; destruct (_firstEntry s), (due s); simpl in I; intuition discriminate.
  - apply obind_ok in H as (((s2, ms2), nm) & H & E). injection E as -> ->. unfold changeLogFile in H.
    apply obind_ok in H as (x1 & _ & H). apply obind_ok in H as (x2 & _ & H). destruct r as [n|].
    + apply obind_ok in H as (x3 & X3 & H). unfold addLogFileHeader in X3. apply obind_ok in X3 as (x4 & _ & X3). injection X3 as <-.
      injection H as _ <- _. do 8 eexists. split; reflexivity.
    + injection H as _ <- _. do 3 eexists. reflexivity.
  - injection H as _ <-. split; [intros p r I|intro I]; destruct I.
  - injection H as _ <-. split; [intros p r I|intro I]; destruct I.
Qed.

Lemma Sim_op : forall flt e s d fd o i s' d', (forall n x, flt n = Some x -> allowed x) ->
  Sim d fd -> d_new d = None -> cur d = Some i -> (forall j, In j (opened [o]) -> i <> j) -> op_step e (s, d) o = Ok (s', d') ->
  exists fd', fop_step flt e (s, fd) o = Ok (s', fd') /\ Sim d' fd' /\ d_new d' = None /\
    cur d' = Some (match opened [o] with j :: _ => j | [] => i end).
Proof.
  intros flt e s d fd o i s' d' AL S NW C A H. unfold op_step in H. cbn [fst snd] in H.
  apply obind_ok in H as ((s1, ms) & O & H). apply obind_ok in H as (d1 & M & H). injection H as -> ->. cbn [fst snd] in *.
  unfold apply_micros in M. destruct (mrun d ms) as [d2|] eqn:R; [|discriminate]. injection M as ->.
  unfold fop_step. cbn [fst snd]. rewrite O. cbn [obind fst snd]. unfold fapply.
  pose proof (op_shape _ _ _ _ _ O) as SH.
  destruct o as [m now k1 k2|dir id n1 n2 n3 r k1 k2 k3|f|h].
  1,3,4: destruct SH as [NO NM]; destruct (Sim_run flt ms d fd d' AL S NO R) as (fd' & F & S'); rewrite F; exists fd';
    destruct (cur_run ms d d' NO NM R) as [C' N']; cbn [obind opened]; split; [reflexivity|]; split; [exact S'|]; split; congruence.
  destruct r as [j|].
  - destruct SH as (p & h & a & q1 & b & q2 & c & q3 & -> & _). cbn [opened] in A |- *.
    assert (NE : cur d <> Some j) by (rewrite C; intro X; injection X as ->; now apply (A j (or_introl eq_refl))).
    cbn [mrun app] in R. cbn [frun app].
    destruct (mstep d (MOpen p (Some j))) as [d1|] eqn:M1; [|discriminate].
    destruct (Sim_step flt d fd (MOpen p (Some j)) d1 AL S) as (fd1 & F1 & S1); [intros p0 j0 E; injection E as _ <-; exact NE|exact M1|].
    rewrite F1.
    assert (R' : mrun d1 ([MWrite h q1; MWrite a q2] ++ MMove :: [MWrite c q3]) = Some d') by exact R. clear R.
    assert (NO : forall p r, ~ In (MOpen p r) ([MWrite h q1; MWrite a q2] ++ MMove :: [MWrite c q3])) by (intros p0 r0 I; simpl in I; intuition discriminate).
    destruct (Sim_run flt _ d1 fd1 d' AL S1 NO R') as (fd' & F & S').
    cbn [app frun] in F. rewrite F. exists fd'. split; [reflexivity|]. split; [exact S'|].
    rewrite mrun_app in R'. destruct (mrun d1 [MWrite h q1; MWrite a q2]) as [d3|] eqn:R3; [|discriminate].
    assert (R3' := R3). apply cur_run in R3' as [C3 N3].
    2:{ intros p0 r0 I. simpl in I. intuition discriminate. } 2:{ intro I. simpl in I. intuition discriminate. }
    cbn [mstep] in M1. injection M1 as <-. cbn [d_new] in N3. cbn [mrun mstep d_out d_fs d_new] in R'. rewrite N3 in R'.
    destruct (spill _ _ q3) as [f4 st4] eqn:SP in R'. injection R' as <-. unfold spill in SP. injection SP as _ <-. split; reflexivity.
  - destruct SH as (p & a & k & ->). cbn [opened mrun frun] in *.
    destruct (mstep d (MOpen p None)) as [d1|] eqn:M1; [|discriminate].
    destruct (Sim_step flt d fd (MOpen p None) d1 AL S) as (fd1 & F1 & S1); [intros p0 j0 E; discriminate|exact M1|].
    rewrite F1. assert (R' : mrun d1 [MWrite a k] = Some d') by exact R.
    assert (NO : forall p r, ~ In (MOpen p r) [MWrite a k]) by (intros p0 r0 I; simpl in I; intuition discriminate).
    destruct (Sim_run flt [MWrite a k] d1 fd1 d' AL S1 NO R') as (fd' & F & S'). cbn [frun] in F. rewrite F.
    exists fd'. split; [reflexivity|]. split; [exact S'|].
    apply cur_run in R' as [C' N']; auto; [|intro I; simpl in I; intuition discriminate].
    rewrite C', N'. cbn [mstep] in M1. injection M1 as <-. split; [reflexivity|exact C].
Qed.

Lemma opened_cons : forall o os, opened (o :: os) = opened [o] ++ opened os.
Proof. intros. rewrite <- opened_app. reflexivity. Qed.

Lemma opened_one : forall o, opened [o] = [] \/ exists j, opened [o] = [j].
Proof. intros [| ? ? ? ? ? [] | |]; simpl; eauto. Qed.

Lemma Sim_ops : forall flt e os s d fd i s' d', (forall n x, flt n = Some x -> allowed x) ->
  Sim d fd -> d_new d = None -> cur d = Some i -> apart i (opened os) -> ops_run e (s, d) os = Ok (s', d') ->
  exists fd', fops_run flt e (s, fd) os = Ok (s', fd') /\ Sim d' fd' /\ d_new d' = None /\ cur d' <> None.
Proof.
  intros flt e. induction os as [|o os IH]; intros s d fd i s' d' AL S NW C A R; cbn [ops_run fops_run] in *.
  - injection R as <- <-. exists fd. rewrite C. split; auto. split; auto. split; auto. discriminate.
  - apply obind_ok in R as ((s1, d1) & R1 & R2). rewrite opened_cons in A.
    assert (A1 : forall j, In j (opened [o]) -> i <> j).
    { intros j I. destruct (opened_one o) as [E|(j' & E)]; rewrite E in *; [destruct I|]. destruct I as [<-|[]]. apply A. }
    destruct (Sim_op flt e s d fd o i s1 d1 AL S NW C A1 R1) as (fd1 & F1 & S1 & N1 & C1). rewrite F1. cbn [obind].
    eapply IH; eauto. destruct (opened_one o) as [E|(j' & E)]; rewrite E in *; apply A.
Qed.

Lemma Sim_create : forall flt e high p dir id every now r1 r2 f s d, 
  create e high p dir id every now r1 r2 f = Ok (s, d) -> d_out d <> None ->
  exists fd i, fcreate flt e high p dir id every now r1 r2 f = Ok (s, fd) /\ Sim d fd /\ d_new d = None /\ cur d = Some i /\
    (r1 = Some i \/ r1 = None /\ r2 = Some i).
Proof.
  intros flt e high p dir id every now r1 r2 f s d H NN.
  unfold create, fcreate, FileSink_ctor in *. destruct (negb _); [discriminate|].
  apply obind_ok in H as ((s1, ms) & H & K). apply obind_ok in H as (fn & E & H). rewrite E. cbn [obind].
  assert (ST : forall i n, Sim (mkDisk (fs_set f i []) (Some (mkStream i 0 [])) None) (mkFD (fs_set f i []) (Some (mkF (mkStream i 0 []) true)) None n)).
  { intros i n. split; [intros j _; apply J_refl|]. split; [|exact I]. unfold out_rel. cbn. rewrite fs_set_same. repeat split; auto. }
  destruct r1 as [i|].
  - injection H as <- <-. cbn in K. injection K as <- <-. eexists. exists i. split; [reflexivity|]. split; [apply ST|]. split; [reflexivity|]. split; [reflexivity|auto].
  - destruct r2 as [i|].
    + injection H as <- <-. cbn in K. injection K as <- <-. eexists. exists i. split; [reflexivity|]. split; [apply ST|]. split; [reflexivity|]. split; [reflexivity|auto].
    + destruct (e_debug e); [discriminate|]. injection H as <- <-. cbn in K. injection K as <- <-. cbn in NN. congruence.
Qed.

Lemma Sim_destroy : forall flt e s d fd now k g, (forall n x, flt n = Some x -> allowed x) -> Sim d fd -> d_new d = None ->
  destroy e (s, d) now k = Ok g ->
  exists h, fdestroy flt e (s, fd) now k = Ok h /\ (forall j, J (g j) (h j) []) /\
    (forall j, exists b, J (g j) (fd_fs fd j) b).
Proof.
  intros flt e s d fd now k g AL S NW D. unfold destroy, fdestroy in *. cbn [fst snd] in *.
  apply obind_ok in D as (ms & M & D). rewrite M. cbn [obind]. apply obind_ok in D as (d' & A & D). injection D as <-.
  unfold FileSink_dtor in M. apply obind_ok in M as (t & _ & M). apply Ok_inj in M. subst ms.
  unfold apply_micros, fapply in *. destruct (mrun d _) as [d2|] eqn:R in A; [|discriminate]. injection A as ->.
  assert (NO : forall txt p r, ~ In (MOpen p r) [MWrite txt k; MFlush; MMove]) by (intros txt p r I; simpl in I; intuition discriminate).
  destruct (Sim_run flt _ d fd d' AL S (NO _) R) as (fd' & F & S'). rewrite F. cbn [obind]. eexists. split; [reflexivity|].
  cbn [mrun] in R. destruct S as (S1 & S2 & _). unfold out_rel in S2.
  destruct (d_out d) as [st|] eqn:DO; [|unfold mstep in R; rewrite DO in R; discriminate]. destruct (fd_out fd) as [[ft good]|]; [|contradiction].
  destruct S2 as (OI & O1 & O2 & O3 & O4).
  assert (AE : at_end d (s_ino st) (d_fs d (s_ino st) ++ s_buf st)) by (exists st; auto).
  destruct (write_step d _ _ (_write_buffer s ++ lit "g3log g3FileSink shutdown at: " ++ t ++ nl) k AE) as (d1 & W1 & A1 & G1 & N1).
  rewrite W1 in R.
  destruct (flush_step _ _ _ A1) as (d3 & W2 & A2 & G2 & _ & _ & N2). rewrite W2 in R.
  destruct (move_step _ _ _ A2) as (d4 & W3 & C3 & G3 & E3). rewrite W3 in R. injection R as <-.
  split.
  - intro j. destruct S' as (S' & _). apply S'. unfold cur. rewrite C3, N2, N1, NW. discriminate.
  - intro j. destruct (Nat.eq_dec j (s_ino st)) as [->|NE].
    + exists (s_buf ft). rewrite E3. now apply J_more.
    + exists []. destruct G1 as [_ G1], G2 as [_ G2], G3 as [_ G3]. rewrite G3, G2, G1 by assumption. apply S1. unfold cur. rewrite DO. congruence.
Qed.
End J.

(** ** instance: no gaps, for every stream library *)
Definition J_pt (T c b : str) : Prop :=
  exists r j l, patched T r c /\ j <= r /\ j + l <= length T /\ b = firstn l (skipn j T).


Lemma patched_more : forall T x r c, patched T r c -> patched (T ++ x) r c.
Proof.
  intros T x r c H. induction H as [p L|r c j l H IH A B].
  - replace (firstn p T) with (firstn p (T ++ x)).
    + constructor. rewrite app_length. lia.
    + rewrite firstn_app. replace (p - length T) with 0 by lia. now rewrite firstn_O, app_nil_r.
  - replace (firstn l (skipn j T)) with (firstn l (skipn j (T ++ x))).
    + constructor; auto. rewrite app_length. lia.
    + rewrite skipn_app. replace (j - length T) with 0 by lia. rewrite firstn_app, skipn_length.
      replace (l - (length T - j)) with 0 by lia. now rewrite firstn_O, app_nil_r.
Qed.

Lemma piece_more : forall (T x : str) j l, j + l <= length T -> firstn l (skipn j (T ++ x)) = firstn l (skipn j T).
Proof.
  intros T x j l B. rewrite skipn_app. replace (j - length T) with 0 by lia. rewrite firstn_app, skipn_length.
  replace (l - (length T - j)) with 0 by lia. now rewrite firstn_O, app_nil_r.
Qed.

Lemma piece_length : forall (T : str) j l, j + l <= length T -> length (firstn l (skipn j T)) = l.
Proof. intros. rewrite firstn_length, skipn_length. lia. Qed.

Lemma firstn_piece : forall (T : str) a j l, firstn a (firstn l (skipn j T)) = firstn (Nat.min a l) (skipn j T).
Proof. intros. apply firstn_firstn. Qed.

Lemma skipn_twice : forall (T : str) a j, skipn a (skipn j T) = skipn (j + a) T.
Proof.
  intros T a j. revert T. induction j as [|j IH]; intro T; [reflexivity|].
  destruct T as [|x T]; [now rewrite !skipn_nil|]. cbn [skipn Nat.add]. apply IH.
Qed.
Lemma skipn_piece : forall (T : str) a j l, skipn a (firstn l (skipn j T)) = firstn (l - a) (skipn (j + a) T).
Proof. intros. rewrite skipn_firstn_comm, skipn_twice. reflexivity. Qed.

Lemma Jpt_more : forall T c b x, J_pt T c b -> J_pt (T ++ x) c b.
Proof.
  intros T c b x (r & j & l & P & A & B & ->). exists r, j, l. split; [now apply patched_more|]. split; auto.
  split; [rewrite app_length; lia|]. now rewrite piece_more.
Qed.
Lemma Jpt_all : forall c b, J_pt (c ++ b) c b.
Proof.
  intros c b. exists (length c), (length c), (length b). split.
  - replace c with (firstn (length c) (c ++ b)) at 3.
    + constructor. rewrite app_length. lia.
    + rewrite firstn_app, firstn_all, Nat.sub_diag. simpl. now rewrite app_nil_r.
  - split; auto. split; [rewrite app_length; lia|]. rewrite skipn_app, skipn_all, Nat.sub_diag. simpl. now rewrite firstn_all.
Qed.
Lemma Jpt_fail : forall T c b x, J_pt T c b -> True ->
  J_pt T (c ++ firstn (f_accepted x) b) (firstn (f_keep x) (skipn (Nat.min (f_from x) (length (firstn (f_accepted x) b))) b)).
Proof.
  intros T c b [a f k] (r & j & l & P & A & B & ->) _. cbn [f_accepted f_from f_keep].
  rewrite firstn_piece, piece_length by lia. set (n := Nat.min a l). set (m := Nat.min f n).
  rewrite skipn_piece, firstn_firstn.
  exists (Nat.max r (j + n)), (j + m), (Nat.min k (l - m)). split; [constructor; auto; lia|].
  split; [lia|]. split; [lia|reflexivity].
Qed.
Lemma Jpt_part : forall T c b a, J_pt T c b -> J_pt T (c ++ firstn a b) [].
Proof.
  intros T c b a H. pose proof (Jpt_fail T c b (mkFault a 0 0) H I) as X. exact X.
Qed.
Lemma Jpt_hand : forall T c b, J_pt T c b -> J_pt T (c ++ b) [].
Proof. intros T c b H. pose proof (Jpt_part T c b (length b) H) as X. now rewrite firstn_all in X. Qed.

(** ** instance: a stream library that forgets what was accepted *)
Definition exact_fault (x : fault) : Prop := f_accepted x <= f_from x.
Definition J_pre (T c b : str) : Prop := starts_with T (c ++ b).
Lemma Jpre_more : forall T c b x, J_pre T c b -> J_pre (T ++ x) c b.
Proof. intros T c b x H. now apply starts_more. Qed.
Lemma Jpre_all : forall c b, J_pre (c ++ b) c b.
Proof. intros. apply starts_refl. Qed.
Lemma Jpre_fail : forall T c b x, J_pre T c b -> exact_fault x ->
  J_pre T (c ++ firstn (f_accepted x) b) (firstn (f_keep x) (skipn (Nat.min (f_from x) (length (firstn (f_accepted x) b))) b)).
Proof.
  intros T c b [a f k] H E. unfold exact_fault, J_pre in *. cbn [f_accepted f_from f_keep] in *.
  eapply starts_trans; [exact H|]. exists (skipn k (skipn a b)).
  rewrite firstn_length. destruct (Nat.le_gt_cases a (length b)) as [L|L].
  - rewrite (Nat.min_l a), Nat.min_r by lia. rewrite <- !app_assoc. rewrite !firstn_skipn. reflexivity.
  - rewrite (Nat.min_r a) by lia. rewrite (firstn_all2 b) by lia. rewrite (skipn_all2 (n := a)) by lia.
    rewrite (skipn_all2 (n := Nat.min f (length b))) by lia. rewrite firstn_nil, skipn_nil, !app_nil_r. reflexivity.
Qed.
Lemma Jpre_part : forall T c b a, J_pre T c b -> J_pre T (c ++ firstn a b) [].
Proof.
  intros T c b a H. unfold J_pre in *. rewrite app_nil_r. eapply starts_trans; [exact H|]. exists (skipn a b).
  now rewrite <- app_assoc, firstn_skipn.
Qed.
Lemma Jpre_hand : forall T c b, J_pre T c b -> J_pre T (c ++ b) [].
Proof. intros T c b H. unfold J_pre in *. now rewrite app_nil_r. Qed.

(** ** a stream that has failed writes nothing any more but what it kept *)
Lemma infix_refl : forall b, infix b b.
Proof. intro b. exists [], []. now rewrite app_nil_r. Qed.
Lemma infix_trans : forall a b c, infix a b -> infix b c -> infix a c.
Proof. intros a b c (x & y & ->) (u & v & ->). exists (u ++ x), (y ++ v). now rewrite <- !app_assoc. Qed.
Lemma infix_firstn : forall b n, infix (firstn n b) b.
Proof. intros b n. exists [], (skipn n b). simpl. now rewrite firstn_skipn. Qed.
Lemma infix_skipn : forall b n, infix (skipn n b) b.
Proof. intros b n. exists (firstn n b), []. now rewrite app_nil_r, firstn_skipn. Qed.

Definition broken (fd : fdisk) (i : nat) (b : str) : Prop :=
  exists st, fd_out fd = Some (mkF st false) /\ s_ino st = i /\ s_off st = length (fd_fs fd i) /\ infix (s_buf st) b.

Lemma hand_broken : forall o f st b, s_off st = length (f (s_ino st)) -> infix (s_buf st) b ->
  let '(f', st', _) := hand_over o f st in
  s_ino st' = s_ino st /\ s_off st' = length (f' (s_ino st)) /\ infix (s_buf st') b /\
  (exists x, infix x b /\ f' (s_ino st) = f (s_ino st) ++ x) /\ forall j, j <> s_ino st -> f' j = f j.
Proof.
  intros o f st b O B. unfold hand_over. destruct o as [x|].
  - pose proof (fail_at_end f st x O) as FE. destruct (spill_fail f st x) as [f' st']. destruct FE as (E1 & E2 & E3 & E4 & E5).
    split; auto. split; auto. split; [rewrite E4; eapply infix_trans; [|exact B]; eapply infix_trans; [apply infix_firstn|apply infix_skipn]|].
    split; auto. eexists. split; [|exact E3]. eapply infix_trans; [apply infix_firstn|exact B].
  - unfold spill_all. pose proof (spill_at_end f st (length (s_buf st)) O) as SP.
    destruct (spill f st (length (s_buf st))) as [f' st']. destruct SP as (E1 & E2 & E3 & _ & E5 & E6). specialize (E6 (le_n _)).
    split; auto. split; auto. split; [rewrite E6; exists [], b; reflexivity|]. split; auto.
    exists (s_buf st). split; auto. rewrite E6, app_nil_r in E3. exact E3.
Qed.

Lemma broken_run : forall flt ms fd i b fd', broken fd i b ->
  (forall p r, ~ In (MOpen p r) ms) -> ~ In MMove ms -> frun flt fd ms = Some fd' ->
  broken fd' i b /\ (exists xs, Forall (fun x => infix x b) xs /\ fd_fs fd' i = fd_fs fd i ++ concat xs).
Proof.
  intros flt. induction ms as [|m ms IH]; intros fd i b fd' B NO NM R; cbn [frun] in R.
  - injection R as <-. split; auto. exists []. simpl. rewrite app_nil_r. auto.
  - destruct (fstep flt fd m) as [fd1|] eqn:F; [|discriminate].
    assert (X : broken fd1 i b /\ exists x, infix x b /\ fd_fs fd1 i = fd_fs fd i ++ x).
    { destruct B as (st & B1 & B2 & B3 & B4). destruct m as [p r|data k| |]; cbn [fstep] in F.
      - exfalso. eapply NO. now left.
      - rewrite B1 in F. injection F as <-. split; [exists st; cbn; auto|]. exists []. cbn. rewrite app_nil_r. split; auto. exists [], b. reflexivity.
      - rewrite B1 in F. subst i. pose proof (hand_broken (flt (fd_n fd)) (fd_fs fd) st b B3 B4) as H.
        destruct (hand_over _ _ _) as [[f' st'] w]. injection F as <-. destruct H as (H1 & H2 & H3 & H4 & _).
        split; [exists st'; cbn; auto|exact H4].
      - exfalso. apply NM. now left. }
    destruct X as (B1 & x & X1 & X2). destruct (IH fd1 i b fd') as (B' & xs & XS & E); auto.
    { intros p r I. eapply NO. right. exact I. } { intro I. apply NM. now right. }
    split; auto. exists (x :: xs). split; [constructor; auto|]. rewrite E, X2. simpl. now rewrite app_assoc.
Qed.

Lemma broken_ops : forall flt e os s fd i b s' fd', broken fd i b -> Forall no_change os ->
  fops_run flt e (s, fd) os = Ok (s', fd') ->
  broken fd' i b /\ (exists xs, Forall (fun x => infix x b) xs /\ fd_fs fd' i = fd_fs fd i ++ concat xs).
Proof.
  intros flt e. induction os as [|o os IH]; intros s fd i b s' fd' B NC R; cbn [fops_run] in R.
  - injection R as _ <-. split; auto. exists []. simpl. rewrite app_nil_r. auto.
  - inversion NC as [|? ? N1 N2]; subst. apply obind_ok in R as ((s1, fd1) & R1 & R2).
    unfold fop_step in R1. apply obind_ok in R1 as ((s2, ms) & O & R1). apply obind_ok in R1 as (fd2 & M & R1). injection R1 as <- <-.
    cbn [fst snd] in *. unfold fapply in M. destruct (frun flt fd ms) as [fd3|] eqn:F; [|discriminate]. injection M as <-.
    pose proof (op_shape _ _ _ _ _ O) as SH.
    assert (SH' : (forall p r, ~ In (MOpen p r) ms) /\ ~ In MMove ms) by (destruct o; try contradiction; exact SH).
    destruct SH' as [NO NM]. destruct (broken_run flt ms fd i b fd3 B NO NM F) as (B1 & x1 & X1 & E1).
    destruct (IH _ _ _ _ _ _ B1 N2 R2) as (B2 & x2 & X2 & E2). split; auto. exists (x1 ++ x2).
    split; [apply Forall_app; auto|]. rewrite E2, E1, concat_app. now rewrite app_assoc.
Qed.

Lemma broken_destroy : forall flt e s fd i b now k h, broken fd i b -> fdestroy flt e (s, fd) now k = Ok h ->
  exists xs, Forall (fun x => infix x b) xs /\ h i = fd_fs fd i ++ concat xs.
Proof.
  intros flt e s fd i b now k h B D. unfold fdestroy in D. cbn [fst snd] in D.
  apply obind_ok in D as (ms & M & D). apply obind_ok in D as (fd' & A & D). injection D as <-.
  unfold FileSink_dtor in M. apply obind_ok in M as (t & _ & M). apply Ok_inj in M. subst ms.
  unfold fapply in A. set (txt := _write_buffer s ++ _) in A.
  change [MWrite txt k; MFlush; MMove] with ([MWrite txt k; MFlush] ++ [MMove]) in A.
  assert (AP : forall a c fd, frun flt fd (a ++ c) = match frun flt fd a with Some x => frun flt x c | None => None end).
  { clear. induction a as [|m a IH]; intros c fd; simpl; auto. destruct (fstep flt fd m); auto. }
  rewrite AP in A. destruct (frun flt fd [MWrite txt k; MFlush]) as [fd1|] eqn:F; [|discriminate].
  apply broken_run with (i := i) (b := b) in F as (B1 & xs & XS & E); auto.
  2:{ intros p r I. simpl in I. intuition discriminate. } 2:{ intro I. simpl in I. intuition discriminate. }
  cbn [frun fstep] in A. injection A as <-. cbn [fd_fs]. destruct B1 as (st & C1 & C2 & C3 & C4). rewrite C1.
  subst i. pose proof (hand_broken (flt (fd_n fd1)) (fd_fs fd1) st b C3 C4) as H.
  destruct (hand_over _ _ _) as [[f' st'] w]. destruct H as (_ & _ & _ & (x & X1 & X2) & _).
  exists (xs ++ [x]). split; [apply Forall_app; auto|]. rewrite X2, E, concat_app. simpl. now rewrite app_nil_r, app_assoc.
Qed.

(** ** files that are never opened are never touched *)
Lemma untouched_step : forall flt fd m fd' j, fstep flt fd m = Some fd' ->
  (forall p, m <> MOpen p (Some j)) ->
  (forall ft, fd_out fd = Some ft -> s_ino (f_st ft) <> j) -> (forall ft, fd_new fd = Some ft -> s_ino (f_st ft) <> j) ->
  fd_fs fd' j = fd_fs fd j /\ (forall ft, fd_out fd' = Some ft -> s_ino (f_st ft) <> j) /\ (forall ft, fd_new fd' = Some ft -> s_ino (f_st ft) <> j).
Proof.
  intros flt fd m fd' j F NO O N. destruct m as [p [i|]|data k| |]; cbn [fstep] in F.
  - injection F as <-. cbn. split; [apply fs_set_other; intros ->; now apply (NO p)|]. split; auto.
    intros ft E. injection E as <-. cbn. intros ->. now apply (NO p).
  - injection F as <-. cbn. split; auto. split; auto. discriminate.
  - destruct (fd_out fd) as [[st [|]]|] eqn:D; [| |discriminate].
    + specialize (O _ eq_refl). cbn in O. destruct (flt (fd_n fd)); [destruct (spill_fail _ _ _) as [f' st'] eqn:SP|destruct (spill _ _ _) as [f' st'] eqn:SP];
      injection F as <-; unfold spill_fail, spill in SP; injection SP as <- <-; cbn;
      (split; [apply fs_set_other; congruence|]; split; auto; intros ft E; injection E as <-; exact O).
    + injection F as <-. cbn. auto.
  - destruct (fd_out fd) as [[st g]|] eqn:D; [|discriminate]. specialize (O _ eq_refl). cbn in O.
    destruct (hand_over _ _ _) as [[f' st'] w] eqn:H. injection F as <-. cbn.
    assert (X : f' j = fd_fs fd j /\ s_ino st' = s_ino st).
    { unfold hand_over in H. destruct (flt (fd_n fd)); unfold spill_fail, spill_all, spill in H; injection H as <- <- _; split; auto; apply fs_set_other; congruence. }
    destruct X as [X1 X2]. split; auto. split; auto. intros ft E. injection E as <-. cbn. congruence.
  - injection F as <-. cbn. split; [|split; [auto|discriminate]]. destruct (fd_out fd) as [[st g]|] eqn:D; auto.
    specialize (O _ eq_refl). cbn in O.
    unfold hand_over. destruct (flt (fd_n fd)); unfold spill_fail, spill_all, spill; apply fs_set_other; congruence.
Qed.

Definition away (fd : fdisk) (j : nat) : Prop :=
  (forall ft, fd_out fd = Some ft -> s_ino (f_st ft) <> j) /\ (forall ft, fd_new fd = Some ft -> s_ino (f_st ft) <> j).

Lemma untouched_run : forall flt ms fd fd' j, frun flt fd ms = Some fd' -> (forall p, ~ In (MOpen p (Some j)) ms) ->
  away fd j -> fd_fs fd' j = fd_fs fd j /\ away fd' j.
Proof.
  intros flt. induction ms as [|m ms IH]; intros fd fd' j R NO A; cbn [frun] in R.
  - injection R as <-. auto.
  - destruct (fstep flt fd m) as [fd1|] eqn:F; [|discriminate]. destruct A as [A1 A2].
    destruct (untouched_step flt fd m fd1 j F) as (E & B1 & B2); auto.
    { intros p ->. eapply NO. now left. }
    destruct (IH fd1 fd' j R) as (E' & B'); [intros p I; eapply NO; right; exact I|split; auto|]. split; auto. congruence.
Qed.

Lemma untouched_ops : forall flt e os s fd s' fd' j, fops_run flt e (s, fd) os = Ok (s', fd') ->
  ~ In j (opened os) -> away fd j -> fd_fs fd' j = fd_fs fd j /\ away fd' j.
Proof.
  intros flt e. induction os as [|o os IH]; intros s fd s' fd' j R NO A; cbn [fops_run] in R.
  - injection R as _ <-. auto.
  - apply obind_ok in R as ((s1, fd1) & R1 & R2). rewrite opened_cons in NO.
    unfold fop_step in R1. apply obind_ok in R1 as ((s2, ms) & O & R1). apply obind_ok in R1 as (fd2 & M & R1). injection R1 as <- <-.
    cbn [fst snd] in *. unfold fapply in M. destruct (frun flt fd ms) as [fd3|] eqn:F; [|discriminate]. injection M as <-.
    assert (NO1 : forall p, ~ In (MOpen p (Some j)) ms).
    { intros p I. pose proof (op_shape _ _ _ _ _ O) as SH. destruct o as [m now k1 k2|dir id n1 n2 n3 [i|] k1 k2 k3|f|h].
      - destruct SH as [SH _]. eapply SH. exact I.
      - destruct SH as (q & h & a & q1 & b & q2 & c & q3 & -> & _). simpl in I. apply NO. simpl. intuition (try discriminate). injection H as _ ->. auto.
      - destruct SH as (q & a & k & ->). simpl in I. intuition discriminate.
      - destruct SH as [SH _]. eapply SH. exact I.
      - destruct SH as [SH _]. eapply SH. exact I. }
    destruct (untouched_run flt ms fd fd3 j F NO1 A) as (E1 & A1).
    destruct (IH _ _ _ _ _ R2 (fun I => NO (in_or_app _ _ _ (or_intror I))) A1) as (E2 & A2). split; auto. congruence.
Qed.

(** ** without faults everything is as in Model/FileSink.v *)
Definition emb (d : disk) (n : nat) : fdisk :=
  mkFD (d_fs d) (option_map (fun st => mkF st true) (d_out d)) (option_map (fun st => mkF st true) (d_new d)) n.

Lemma emb_step : forall flt d n m, flt n = None ->
  fstep flt (emb d n) m = option_map (fun d' => emb d' (S n)) (mstep d m).
Proof.
  intros flt d n m F. unfold emb. destruct m as [p [i|]|data k| |]; cbn [fstep mstep fd_fs fd_out fd_new fd_n]; auto.
  - destruct (d_out d) as [st|]; cbn; auto. rewrite F. reflexivity.
  - destruct (d_out d) as [st|]; cbn; auto. rewrite F. reflexivity.
  - destruct (d_out d) as [st|]; cbn; auto. rewrite F. reflexivity.
Qed.

Lemma emb_run : forall flt ms d n, (forall m, n <= m -> flt m = None) ->
  frun flt (emb d n) ms = option_map (fun d' => emb d' (n + length ms)) (mrun d ms).
Proof.
  intros flt. induction ms as [|m ms IH]; intros d n F; cbn [frun mrun].
  - simpl. now rewrite Nat.add_0_r.
  - rewrite emb_step by auto. destruct (mstep d m) as [d'|]; cbn [option_map]; auto.
    rewrite IH by (intros; apply F; lia). simpl. now rewrite <- Nat.add_succ_comm.
Qed.

Lemma emb_ops : forall flt e os s d n s' d', (forall m, n <= m -> flt m = None) ->
  ops_run e (s, d) os = Ok (s', d') -> exists n', n <= n' /\ fops_run flt e (s, emb d n) os = Ok (s', emb d' n').
Proof.
  intros flt e. induction os as [|o os IH]; intros s d n s' d' F R; cbn [ops_run fops_run] in *.
  - injection R as <- <-. eauto.
  - apply obind_ok in R as ((s1, d1) & R1 & R2). unfold op_step in R1. cbn [fst snd] in R1.
    apply obind_ok in R1 as ((s2, ms) & O & R1). apply obind_ok in R1 as (d2 & M & R1). injection R1 as <- <-. cbn [fst snd] in *.
    unfold apply_micros in M. destruct (mrun d ms) as [d3|] eqn:MR; [|discriminate]. injection M as <-.
    destruct (IH s2 d3 (n + length ms) s' d') as (n' & L & E); [intros; apply F; lia|exact R2|].
    exists n'. split; [lia|]. unfold fop_step. cbn [fst snd]. rewrite O. cbn [obind fst snd]. unfold fapply.
    rewrite emb_run, MR by assumption. cbn [option_map obind]. exact E.
Qed.

Lemma emb_destroy : forall flt e s d n now k, (forall m, n <= m -> flt m = None) ->
  fdestroy flt e (s, emb d n) now k = destroy e (s, d) now k.
Proof.
  intros flt e s d n now k F. unfold fdestroy, destroy. cbn [fst snd]. destruct (FileSink_dtor e s now k); cbn; auto.
  unfold fapply, apply_micros. rewrite emb_run by assumption. destruct (mrun d a); reflexivity.
Qed.

(** ** what is pending, whatever happens to the file *)
Lemma counted_ops : forall e os s d s' d' pend, counted s pend -> ops_run e (s, d) os = Ok (s', d') ->
  exists ts gone pend', received e (_log_details_func s) os ts /\ pend ++ ts = gone ++ pend' /\ counted s' pend' /\
    _log_details_func s' = fold_left details_after os (_log_details_func s).
Proof.
  intros e. induction os as [|o os IH]; intros s d s' d' pend C R; cbn [ops_run] in R.
  - injection R as <- _. exists [], [], pend. rewrite app_nil_r. repeat split; auto; try constructor; apply C.
  - apply obind_ok in R as ((s1, d1) & R1 & R2). unfold op_step in R1. cbn [fst snd] in R1.
    apply obind_ok in R1 as ((s2, ms) & O & R1). apply obind_ok in R1 as (d2 & _ & R1). injection R1 as <- <-. cbn [fst snd] in *.
    destruct o as [m now k1 k2|dir id n1 n2 n3 r k1 k2 k3|f|h]; cbn [op_run fold_left details_after] in *.
    + apply fileWrite_inv in O as (h & data & _ & D & _ & S' & _).
      pose proof (counted_step s pend data s2 C S') as C'.
      destruct (IH _ _ _ _ _ C' R2) as (ts & gone & pend' & T & E & C2 & L).
      assert (LD : _log_details_func s2 = _log_details_func s) by (rewrite S'; reflexivity). rewrite LD in *.
      exists (data :: ts). destruct (due s).
      * exists (pend ++ data :: gone), pend'. split; [now constructor|]. split; [simpl in E; rewrite E, <- app_assoc; reflexivity|auto].
      * exists gone, pend'. split; [now constructor|]. split; [rewrite <- E, <- app_assoc; reflexivity|auto].
    + apply obind_ok in O as (((s3, m3), nm) & O & E). injection E as -> ->. unfold changeLogFile in O.
      apply obind_ok in O as (x1 & _ & O). apply obind_ok in O as (x2 & _ & O).
      assert (X : counted s2 pend /\ _log_details_func s2 = _log_details_func s).
      { destruct r; [apply obind_ok in O as (x3 & _ & O)|]; injection O as <- _ _; auto. }
      destruct X as [C' LD]. destruct (IH _ _ _ _ _ C' R2) as (ts & gone & pend' & T & E & C2 & L). rewrite LD in *.
      exists ts, gone, pend'. split; [now constructor|auto].
    + injection O as <- <-. destruct (IH (overrideLogDetails s f) _ _ _ pend C R2) as (ts & gone & pend' & T & E & C2 & L).
      exists ts, gone, pend'. split; [now constructor|auto].
    + injection O as <- <-. destruct (IH (overrideLogHeader s h) _ _ _ pend C R2) as (ts & gone & pend' & T & E & C2 & L).
      exists ts, gone, pend'. split; [now constructor|auto].
Qed.
