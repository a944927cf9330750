From Coq Require Import Ascii String List ZArith NArith Bool Lia.
From Verif.Base Require Import Bytes.
From Verif.Model Require Import Levels TimeFmt Message FileName FileSink.
From Verif.Spec Require Import FileSinkSpec.
From Verif.Proofs Require Import BytesFacts.
Import ListNotations.
Local Open Scope list_scope.

Lemma obind_ok : forall A B (r : out A) (k : A -> out B) b, obind r k = Ok b -> exists a, r = Ok a /\ k a = Ok b.
Proof. intros A B [] k b H; simpl in H; try discriminate. eauto. Qed.

Lemma Ok_inj : forall A (a b : A), Ok a = Ok b -> a = b.
Proof. congruence. Qed.

Lemma starts_refl : forall a, starts_with a a.
Proof. intro a. exists []. now rewrite app_nil_r. Qed.
Lemma starts_app : forall a b, starts_with (a ++ b) a.
Proof. intros. now exists b. Qed.
Lemma starts_trans : forall a b c, starts_with a b -> starts_with b c -> starts_with a c.
Proof. intros a b c [x ->] [y ->]. exists (y ++ x). now rewrite app_assoc. Qed.
Lemma starts_more : forall a b c, starts_with a b -> starts_with (a ++ c) b.
Proof. intros a b c [x ->]. exists (x ++ c). now rewrite app_assoc. Qed.

Lemma write_at_end : forall c data, write_at c (length c) data = c ++ data.
Proof.
  intros. unfold write_at. destruct data as [|x data]; [now rewrite app_nil_r|]. rewrite firstn_all, Nat.sub_diag. simpl. f_equal.
  rewrite skipn_all2 by lia. now rewrite app_nil_r.
Qed.

Lemma fs_set_same : forall f i c, fs_set f i c i = c.
Proof. intros. unfold fs_set. now rewrite Nat.eqb_refl. Qed.
Lemma fs_set_other : forall f i c j, j <> i -> fs_set f i c j = f j.
Proof. intros f i c j H. unfold fs_set. apply Nat.eqb_neq in H. now rewrite H. Qed.

(** [d] writes at the end of file [i]; file and stream buffer together hold [txt] *)
Definition at_end (d : disk) (i : nat) (txt : str) : Prop :=
  exists st, d_out d = Some st /\ s_ino st = i /\ s_off st = length (d_fs d i) /\ d_fs d i ++ s_buf st = txt.

(** nothing is waiting in the stream *)
Definition flushed (d : disk) : Prop := match d_out d with Some st => s_buf st = [] | None => True end.

(** [d'] is a later disk state: file [i] has only grown, all others are untouched *)
Definition grown (d d' : disk) (i : nat) : Prop :=
  starts_with (d_fs d' i) (d_fs d i) /\ forall j, j <> i -> d_fs d' j = d_fs d j.

Lemma grown_refl : forall d i, grown d d i.
Proof. split; auto using starts_refl. Qed.
Lemma grown_trans : forall a b c i, grown a b i -> grown b c i -> grown a c i.
Proof.
  intros a b c i [S O] [S' O']. split; [eauto using starts_trans|]. intros j N. rewrite O', O; auto.
Qed.

Lemma spill_at_end : forall f st k, s_off st = length (f (s_ino st)) ->
  let (f', st') := spill f st k in
  s_ino st' = s_ino st /\ s_off st' = length (f' (s_ino st)) /\
  f' (s_ino st) ++ s_buf st' = f (s_ino st) ++ s_buf st /\
  starts_with (f' (s_ino st)) (f (s_ino st)) /\ (forall j, j <> s_ino st -> f' j = f j) /\
  (length (s_buf st) <= k -> s_buf st' = []).
Proof.
  intros f st k O. unfold spill. cbn [s_ino s_off s_buf]. rewrite O, write_at_end, fs_set_same.
  split; [reflexivity|]. split; [now rewrite app_length|]. split.
  - rewrite <- app_assoc, firstn_skipn. reflexivity.
  - split; [apply starts_app|]. split; [intros; now apply fs_set_other|]. intro L. now apply skipn_all2.
Qed.

Lemma write_step : forall d i txt data k, at_end d i txt ->
  exists d', mstep d (MWrite data k) = Some d' /\ at_end d' i (txt ++ data) /\ grown d d' i /\ d_new d' = d_new d.
Proof.
  intros d i txt data k (st & D & I & O & T). unfold mstep. rewrite D.
  pose proof (spill_at_end (d_fs d) (mkStream (s_ino st) (s_off st) (s_buf st ++ data)) k) as S.
  cbn [s_ino s_off s_buf] in S. rewrite I in S. specialize (S O). rewrite I.
  destruct (spill _ _ _) as [f' st'] eqn:E. destruct S as (S1 & S2 & S3 & S4 & S5 & _).
  eexists. split; [reflexivity|]. split; [|split; [split|reflexivity]].
  - exists st'. cbn [d_out d_fs]. repeat split; auto. rewrite S3, app_assoc, T. reflexivity.
  - assumption.
  - assumption.
Qed.

Lemma flush_step : forall d i txt, at_end d i txt ->
  exists d', mstep d MFlush = Some d' /\ at_end d' i txt /\ grown d d' i /\ flushed d' /\ d_fs d' i = txt /\ d_new d' = d_new d.
Proof.
  intros d i txt (st & D & I & O & T). unfold mstep, spill_all. rewrite D.
  pose proof (spill_at_end (d_fs d) st (length (s_buf st))) as S. rewrite I in S. specialize (S O).
  destruct (spill _ _ _) as [f' st'] eqn:E. destruct S as (S1 & S2 & S3 & S4 & S5 & S6). specialize (S6 (le_n _)).
  eexists. split; [reflexivity|]. split; [|split; [split|]].
  - exists st'. cbn [d_out d_fs]. repeat split; auto. congruence.
  - assumption.
  - assumption.
  - cbn [d_out d_fs]. unfold flushed. cbn [d_out]. split; auto. split; auto.
    rewrite S6, app_nil_r in S3. congruence.
Qed.

(** destroying the stream writes out its buffer *)
Lemma move_step : forall d i txt, at_end d i txt ->
  exists d', mstep d MMove = Some d' /\ d_out d' = d_new d /\ grown d d' i /\ d_fs d' i = txt.
Proof.
  intros d i txt (st & D & I & O & T). unfold mstep, spill_all. rewrite D.
  pose proof (spill_at_end (d_fs d) st (length (s_buf st))) as S. rewrite I in S. specialize (S O).
  destruct (spill _ _ _) as [f' st'] eqn:E. destruct S as (S1 & S2 & S3 & S4 & S5 & S6). specialize (S6 (le_n _)).
  eexists. split; [reflexivity|]. cbn [d_out d_fs fst]. split; [reflexivity|]. split; [split; assumption|].
  rewrite S6, app_nil_r in S3. congruence.
Qed.

Lemma at_end_content : forall d i txt, at_end d i txt -> starts_with txt (d_fs d i).
Proof. intros d i txt (st & D & I & O & T). exists (s_buf st). auto. Qed.

Lemma at_end_flushed : forall d i txt, at_end d i txt -> flushed d -> d_fs d i = txt.
Proof. intros d i txt (st & D & I & O & T) F. unfold flushed in F. rewrite D in F. rewrite F, app_nil_r in T. exact T. Qed.

Lemma mrun_step : forall d m d' r, mstep d m = Some d' -> mrun d (m :: r) = mrun d' r.
Proof. intros d m d' r H. simpl. now rewrite H. Qed.

Lemma mrun_app : forall a b d, mrun d (a ++ b) = match mrun d a with Some d' => mrun d' b | None => None end.
Proof. induction a as [|m a IH]; intros b d; simpl; auto. destruct (mstep d m); auto. Qed.

(** ** fileWrite *)
(** the header part of a call *)
Definition hdr_of (e : env) (s : FileSink) (now : Z) : out str :=
  if _firstEntry s then header e now (_header s) else Ok [].

Definition due (s : FileSink) : bool := (sz (_write_counter s + 1) mod _write_to_log_every_x_message s =? 0)%N.

Lemma fileWrite_inv : forall e s m now k1 k2 s' ms, fileWrite e s m now k1 k2 = Ok (s', ms) ->
  exists h data, hdr_of e s now = Ok h /\ snd (toString_with e m (_log_details_func s)) = FOk data /\
    (_write_to_log_every_x_message s <> 0)%N /\
    s' = mkSink (_log_details_func s) (_log_file_with_path s) (_log_prefix_backup s) (_header s) false
           (if due s then [] else _write_buffer s ++ data) (sz (_write_counter s + 1)) (_write_to_log_every_x_message s) /\
    ms = (if _firstEntry s then [MWrite h k1] else []) ++
         (if due s then [MWrite (_write_buffer s ++ data) k2; MFlush] else []).
Proof.
  intros e s m now k1 k2 s' ms H. unfold fileWrite in H.
  apply obind_ok in H as (hdr & H1 & H). apply obind_ok in H as (data & H2 & H).
  destruct (N.eqb_spec (_write_to_log_every_x_message s) 0) as [Z|Z]; [discriminate|].
  assert (D : snd (toString_with e m (_log_details_func s)) = FOk data).
  { destruct (snd _); simpl in H2; try discriminate. congruence. }
  assert (K : exists h, hdr_of e s now = Ok h /\ hdr = if _firstEntry s then [MWrite h k1] else []).
  { unfold hdr_of. destruct (_firstEntry s).
    - unfold addLogFileHeader in H1. apply obind_ok in H1 as (h & H1 & K). injection K as <-. eauto.
    - injection H1 as <-. eauto. }
  destruct K as (h & K & ->). exists h, data. unfold due.
  destruct (sz (_write_counter s + 1) mod _write_to_log_every_x_message s =? 0)%N; injection H as <- <-;
  repeat split; auto. now rewrite app_nil_r.
Qed.

(** the effect of one received message on file and stream, and on every moment in between *)
Lemma recv_effect : forall e s m now k1 k2 s' ms d i txt,
  fileWrite e s m now k1 k2 = Ok (s', ms) -> at_end d i txt ->
  exists h data, hdr_of e s now = Ok h /\ snd (toString_with e m (_log_details_func s)) = FOk data /\
    (exists d', mrun d ms = Some d' /\ grown d d' i /\ d_new d' = d_new d /\
       at_end d' i (txt ++ h ++ if due s then _write_buffer s ++ data else []) /\
       (due s = true -> flushed d')) /\
    (forall j, exists dj, mrun d (firstn j ms) = Some dj /\ grown d dj i /\
       starts_with (txt ++ h ++ _write_buffer s ++ data) (d_fs dj i)).
Proof.
  intros e s m now k1 k2 s' ms d i txt W A.
  apply fileWrite_inv in W as (h & data & H & D & NZ & -> & ->).
  exists h, data. split; auto. split; auto.
  assert (HDR : exists d1, mrun d (if _firstEntry s then [MWrite h k1] else []) = Some d1 /\
     at_end d1 i (txt ++ h) /\ grown d d1 i /\ d_new d1 = d_new d).
  { unfold hdr_of in H. destruct (_firstEntry s).
    - destruct (write_step d i txt h k1 A) as (d1 & S & A1 & G & N). exists d1. cbn [mrun]. rewrite S. auto.
    - injection H as <-. exists d. rewrite app_nil_r. cbn [mrun]. auto using grown_refl. }
  destruct HDR as (d1 & R1 & A1 & G1 & N1).
  assert (TL : forall j, exists dj, mrun d1 (firstn j (if due s then [MWrite (_write_buffer s ++ data) k2; MFlush] else [])) = Some dj /\
     grown d1 dj i /\ starts_with (txt ++ h ++ _write_buffer s ++ data) (d_fs dj i) /\
     (2 <= j -> d_new dj = d_new d1 /\ at_end dj i (txt ++ h ++ if due s then _write_buffer s ++ data else []) /\ (due s = true -> flushed dj))).
  { intro j. destruct (due s).
    - destruct (write_step d1 i (txt ++ h) (_write_buffer s ++ data) k2 A1) as (d2 & S2 & A2 & G2 & N2).
      rewrite <- app_assoc in A2.
      destruct (flush_step d2 i _ A2) as (d3 & S3 & A3 & G3 & F3 & C3 & N3).
      destruct j as [|[|j]]; cbn [firstn mrun].
      + exists d1. split; auto. split; auto using grown_refl. split; [|lia].
        apply at_end_content in A1. apply (starts_more _ _ (_write_buffer s ++ data)) in A1. now rewrite <- app_assoc in A1.
      + rewrite S2. exists d2. split; auto. split; auto. split; [|lia]. now apply at_end_content.
      + rewrite S2, S3. destruct j; cbn [firstn mrun]; exists d3; (split; [reflexivity|]; split; [eauto using grown_trans|]; split;
          [now apply at_end_content|]; intros _; split; [congruence|]; split; auto).
    - exists d1. destruct j; simpl; (split; auto; split; auto using grown_refl; split;
        [apply at_end_content in A1; apply (starts_more _ _ (_write_buffer s ++ data)) in A1; now rewrite <- app_assoc in A1|
         intros _; rewrite app_nil_r; split; [reflexivity|]; split; [assumption|discriminate]]). }
  split.
  - destruct (TL 2) as (d2 & R2 & G2 & _ & X). destruct (X (le_n _)) as (N2 & A2 & F2).
    exists d2. rewrite mrun_app, R1. split.
    + revert R2. destruct (due s); simpl; auto.
    + split; [eauto using grown_trans|]. split; [congruence|]. auto.
  - intro j.
    destruct (_firstEntry s).
    + destruct j as [|j].
      * simpl. exists d. split; auto. split; auto using grown_refl.
        apply at_end_content in A. now apply starts_more.
      * destruct (TL j) as (dj & Rj & Gj & Cj & _). cbn [app firstn mrun] in *.
        destruct (mstep d (MWrite h k1)) as [d1'|]; [|discriminate]. injection R1 as ->.
        exists dj. split; [exact Rj|]. split; [eauto using grown_trans|auto].
    + injection R1 as <-. destruct (TL j) as (dj & Rj & Gj & Cj & _). exists dj. auto.
Qed.

(** ** creation *)
Lemma create_inv : forall e high p dir id every now r1 r2 f w,
  create e high p dir id every now r1 r2 f = Ok w ->
  (exists i, (r1 = Some i \/ (r1 = None /\ r2 = Some i)) /\ d_out (snd w) = Some (mkStream i 0 []) /\
             d_fs (snd w) = fs_set f i []) \/
  (r1 = None /\ r2 = None /\ e_debug e = false /\ d_out (snd w) = None /\ d_fs (snd w) = f).
Proof.
  intros e high p dir id every now r1 r2 f w H. unfold create, FileSink_ctor in H.
  apply obind_ok in H as ((s, ms) & H & K).
  destruct (negb _); [discriminate|]. apply obind_ok in H as (name & E & H).
  destruct r1 as [i|].
  - injection H as <- <-. cbn in K. injection K as <-. left. exists i. cbn. auto.
  - destruct r2 as [i|].
    + injection H as <- <-. cbn in K. injection K as <-. left. exists i. cbn. auto.
    + destruct (e_debug e) eqn:DB; [discriminate|]. injection H as <- <-. cbn in K. injection K as <-. right. auto.
Qed.

Lemma create_sink : forall e high p dir id every now r1 r2 f w,
  create e high p dir id every now r1 r2 f = Ok w ->
  _log_details_func (fst w) = DefaultDetails /\ _header (fst w) = default_header /\ _firstEntry (fst w) = true /\
  _write_buffer (fst w) = [] /\ _write_counter (fst w) = 0%N /\ _write_to_log_every_x_message (fst w) = every.
Proof.
  intros e high p dir id every now r1 r2 f w H. unfold create, FileSink_ctor in H.
  apply obind_ok in H as ((s, ms) & H & K).
  destruct (negb _); [discriminate|]. apply obind_ok in H as (name & E & H).
  apply obind_ok in K as (d & _ & K). injection K as <-. cbn [fst].
  destruct r1; [injection H as <- _; auto 6|]. destruct r2; [injection H as <- _; auto 6|].
  destruct (e_debug e); [discriminate|]. injection H as <- _; auto 6.
Qed.

Lemma at_end_created : forall (w : FileSink * disk) i f, d_out (snd w) = Some (mkStream i 0 []) -> d_fs (snd w) = fs_set f i [] -> at_end (snd w) i [].
Proof. intros w i f D F. exists (mkStream i 0 []). rewrite F, fs_set_same. auto. Qed.

(** ** counting *)
Lemma count_step : forall c every p, (every <> 0)%N -> (c < size_max)%N ->
  N.of_nat p = (c mod every)%N ->
  let c' := sz (c + 1) in
  (c' < size_max)%N /\
  (if (c' mod every =? 0)%N then True else N.of_nat (S p) = (c' mod every)%N) /\
  (N.of_nat p < every)%N.
Proof.
  intros c every p Z B E c'. assert (L : (c mod every < every)%N) by now apply N.mod_lt.
  split; [apply N.mod_lt; discriminate|]. split; [|lia].
  destruct (N.eqb_spec (c' mod every) 0) as [Q|Q]; auto.
  unfold c', sz in *. destruct (N.eq_dec (c + 1) size_max) as [W|W].
  - exfalso. apply Q. rewrite W, N.mod_same by discriminate. now rewrite N.mod_0_l.
  - rewrite (N.mod_small (c + 1)) in * by lia.
    assert (X : ((c + 1) mod every = (c mod every + 1) mod every)%N) by now rewrite N.add_mod_idemp_l.
    rewrite X in *. destruct (N.eq_dec (c mod every + 1) every) as [V|V].
    + rewrite V, N.mod_same in Q by assumption. congruence.
    + rewrite N.mod_small by lia. lia.
Qed.

(** ** one file: no change of the log file *)
Definition counted (s : FileSink) (pend : list str) : Prop :=
  _write_buffer s = concat pend /\
  N.of_nat (length pend) = (_write_counter s mod _write_to_log_every_x_message s)%N /\
  (_write_counter s < size_max)%N /\ (_write_to_log_every_x_message s <> 0)%N.

Lemma counted_step : forall s pend data s', counted s pend ->
  s' = mkSink (_log_details_func s) (_log_file_with_path s) (_log_prefix_backup s) (_header s) false
           (if due s then [] else _write_buffer s ++ data) (sz (_write_counter s + 1)) (_write_to_log_every_x_message s) ->
  counted s' (if due s then [] else pend ++ [data]).
Proof.
  intros s pend data s' (B & C & L & Z) ->. unfold counted. cbn.
  destruct (count_step _ _ _ Z L C) as (L' & C' & _). unfold due.
  destruct (N.eqb_spec (sz (_write_counter s + 1) mod _write_to_log_every_x_message s) 0) as [Q|Q].
  - repeat split; auto.
  - repeat split; auto.
    + rewrite B, concat_app. simpl. now rewrite app_nil_r.
    + rewrite app_length, Nat.add_comm. exact C'.
Qed.

Lemma counted_pending : forall s pend, counted s pend -> (N.of_nat (length pend) < _write_to_log_every_x_message s)%N.
Proof. intros s pend (_ & C & _ & Z). rewrite C. now apply N.mod_lt. Qed.

Definition Inv1 (s : FileSink) (d : disk) (i : nat) (hd : str) (done pend : list str) : Prop :=
  at_end d i (hd ++ concat done) /\ (done <> [] -> flushed d) /\ counted s pend /\
  (_firstEntry s = true -> hd = [] /\ done = [] /\ pend = []).

(** the header the calls make the sink write, when it has not written one before *)
Definition header_written (e : env) (h : str) (os : list op) (hd : str) : Prop :=
  match first_header h os with None => hd = [] | Some (h', now) => header e now h' = Ok hd end.

Lemma recv_Inv1 : forall e s d i hd done pend m now k1 k2 s' ms,
  Inv1 s d i hd done pend -> fileWrite e s m now k1 k2 = Ok (s', ms) ->
  exists hd' done' pend' data d',
    mrun d ms = Some d' /\ Inv1 s' d' i hd' done' pend' /\ done' ++ pend' = done ++ pend ++ [data] /\
    snd (toString_with e m (_log_details_func s)) = FOk data /\
    (if _firstEntry s then header e now (_header s) = Ok hd' else hd' = hd) /\ _firstEntry s' = false /\
    _log_details_func s' = _log_details_func s /\
    (forall j, j <> i -> d_fs d' j = d_fs d j) /\
    _write_to_log_every_x_message s' = _write_to_log_every_x_message s /\
    (forall j, exists dj, mrun d (firstn j ms) = Some dj /\ grown d dj i /\
       starts_with (hd' ++ concat (done ++ pend ++ [data])) (d_fs dj i)).
Proof.
  intros e s d i hd done pend m now k1 k2 s' ms (A & F & C & First) W.
  pose proof (fileWrite_inv _ _ _ _ _ _ _ _ W) as (h0 & data0 & H0 & D0 & _ & S' & _).
  destruct (recv_effect _ _ _ _ _ _ _ _ d i _ W A) as (h & data & H & D & (d' & R & G & _ & A' & F') & CR).
  rewrite H0 in H. injection H as ->. rewrite D0 in D. injection D as ->.
  assert (HH : exists hd', hd ++ concat done ++ h = hd' ++ concat done /\
     (if _firstEntry s then header e now (_header s) = Ok hd' else hd' = hd)).
  { unfold hdr_of in H0. destruct (_firstEntry s).
    - destruct (First eq_refl) as (-> & -> & ->). exists h. simpl. now rewrite app_nil_r.
    - injection H0 as <-. exists hd. now rewrite app_nil_r. }
  destruct HH as (hd' & E & HD). destruct C as (B & C). assert (C1 : counted s pend) by (split; auto).
  exists hd', (if due s then done ++ pend ++ [data] else done), (if due s then [] else pend ++ [data]), data, d'.
  assert (CC : concat (done ++ pend ++ [data]) = concat done ++ _write_buffer s ++ data).
  { rewrite !concat_app, B. simpl. now rewrite app_nil_r. }
  split; [exact R|]. split; [|split; [|split; [exact D0|split; [exact HD|]]]].
  - split; [|split; [|split; [eapply counted_step; eauto|]]].
    + rewrite app_assoc, <- (app_assoc hd), E in A'. destruct (due s).
      * rewrite <- app_assoc, <- CC in A'. exact A'.
      * rewrite app_nil_r in A'. exact A'.
    + destruct (due s); auto. intro N. pose proof (F N) as FF.
      assert (Fst : _firstEntry s = false).
      { destruct (_firstEntry s) eqn:FE; auto. destruct (First eq_refl) as (_ & -> & _). congruence. }
      unfold hdr_of in H0. rewrite Fst in H0. injection H0 as <-.
      (* no header: the file already holds everything, and it cannot shrink *)
      rewrite app_nil_r in A'. destruct A' as (st & D1 & I1 & O1 & T1).
      destruct G as [[x Gx] _]. rewrite (at_end_flushed _ _ _ A FF) in Gx.
      unfold flushed. rewrite D1.
      rewrite Gx, <- app_assoc in T1. apply (f_equal (@length ascii)) in T1. rewrite !app_length in T1.
      destruct (s_buf st); auto. simpl in T1. lia.
    + intro X. rewrite S' in X. discriminate.
  - destruct (due s); [now rewrite app_nil_r|reflexivity].
  - rewrite S'. cbn. do 2 (split; [reflexivity|]). split; [apply G|]. split; [reflexivity|].
    intro j. destruct (CR j) as (dj & Rj & Gj & Sj). exists dj. split; auto. split; auto.
    rewrite app_assoc, <- (app_assoc hd), E, <- app_assoc, <- CC in Sj. exact Sj.
Qed.

Lemma run_Inv1 : forall e i os s d hd done pend s' d',
  Inv1 s d i hd done pend -> Forall no_change os -> ops_run e (s, d) os = Ok (s', d') ->
  exists ts hd' done' pend', received e (_log_details_func s) os ts /\ Inv1 s' d' i hd' done' pend' /\
    done' ++ pend' = done ++ pend ++ ts /\
    (if _firstEntry s then header_written e (_header s) os hd' else hd' = hd) /\
    (_firstEntry s' = match first_header (_header s) os with None => _firstEntry s | Some _ => false end) /\
    (forall o1 t1, received e (_log_details_func s') o1 t1 -> received e (_log_details_func s) (os ++ o1) (ts ++ t1)) /\
    (_firstEntry s' = true -> forall o1, first_header (_header s) (os ++ o1) = first_header (_header s') o1) /\
    _write_to_log_every_x_message s' = _write_to_log_every_x_message s /\
    (forall j, j <> i -> d_fs d' j = d_fs d j).
Proof.
  intros e i. induction os as [|o os IH]; intros s d hd done pend s' d' I NC R.
  - injection R as <- <-. exists [], hd, done, pend. rewrite app_nil_r. cbn.
    split; [constructor|]. split; [assumption|]. split; [reflexivity|].
    split; [destruct I as (_ & _ & _ & F); unfold header_written; simpl; destruct (_firstEntry s); [apply F|]; reflexivity|].
    repeat split; auto.
  - inversion NC as [|? ? N1 N2]; subst. cbn [ops_run] in R. apply obind_ok in R as ((s1, d1) & S & R).
    unfold op_step in S. apply obind_ok in S as ((s1', ms) & O & S). apply obind_ok in S as (d1' & M & S).
    injection S as -> ->. cbn [fst snd] in *. unfold apply_micros in M.
    destruct o; try contradiction; cbn [op_run] in O.
    + (* a message *)
      destruct (recv_Inv1 _ _ _ _ _ _ _ _ _ _ _ _ _ I O) as
        (hd1 & done1 & pend1 & data & d1' & M' & I1 & E1 & D1 & H1 & F1 & L1 & U1 & V1 & _).
      rewrite M' in M. injection M as ->.
      destruct (IH _ _ _ _ _ _ _ I1 N2 R) as (ts & hd2 & done2 & pend2 & R2 & I2 & E2 & H2 & F2 & X2 & Y2 & V2 & U2).
      rewrite F1 in H2. subst hd2. rewrite L1 in R2, X2.
      exists (data :: ts), hd1, done2, pend2. split; [now constructor|]. split; auto.
      split; [rewrite E2; rewrite app_assoc, E1, <- !app_assoc; reflexivity|].
      split; [unfold header_written; cbn [first_header]; exact H1|].
      split; [cbn [first_header]; rewrite F2, F1; now destruct (first_header _ _)|].
      split; [intros o1 t1 Z; cbn [app]; constructor; auto|].
      split; [intro Z; rewrite F2, F1 in Z; destruct (first_header _ _); discriminate|].
      split; [congruence|]. intros j J. rewrite U2, U1; auto.
    + injection O as <- <-. cbn in M. injection M as <-.
      assert (I1 : Inv1 (overrideLogDetails s f) d i hd done pend) by exact I.
      destruct (IH _ _ _ _ _ _ _ I1 N2 R) as (ts & hd2 & done2 & pend2 & R2 & I2 & E2 & H2 & F2 & X2 & Y2 & V2 & U2).
      exists ts, hd2, done2, pend2. cbn in *. split; [now constructor|]. split; auto. split; auto.
      split; [exact H2|]. split; [exact F2|]. split; [intros; constructor; auto|]. auto.
    + injection O as <- <-. cbn in M. injection M as <-.
      assert (I1 : Inv1 (overrideLogHeader s h) d i hd done pend) by exact I.
      destruct (IH _ _ _ _ _ _ _ I1 N2 R) as (ts & hd2 & done2 & pend2 & R2 & I2 & E2 & H2 & F2 & X2 & Y2 & V2 & U2).
      exists ts, hd2, done2, pend2. cbn in *. split; [now constructor|]. split; auto. split; auto.
      split; [exact H2|]. split; [exact F2|]. split; [intros; constructor; auto|]. auto.
Qed.

Lemma created_Inv1 : forall e high p dir id every now r1 r2 f s d,
  create e high p dir id every now r1 r2 f = Ok (s, d) -> (every <> 0)%N -> d_out d <> None ->
  exists i, (r1 = Some i \/ (r1 = None /\ r2 = Some i)) /\ Inv1 s d i [] [] [] /\
    (forall j, j <> i -> d_fs d j = f j).
Proof.
  intros e high p dir id every now r1 r2 f s d H Z NN.
  pose proof (create_sink _ _ _ _ _ _ _ _ _ _ _ H) as (S1 & S2 & S3 & S4 & S5 & S6).
  destruct (create_inv _ _ _ _ _ _ _ _ _ _ _ H) as [(i & RR & D & F)|(_ & _ & _ & D & _)]; [|contradiction].
  exists i. split; auto. split.
  - split; [exact (at_end_created (s, d) i f D F)|]. split; [congruence|]. split; [|auto].
    cbn [fst] in *. unfold counted. rewrite S4, S5, S6. split; auto. split; [|split; auto; reflexivity].
    rewrite N.mod_0_l by assumption. reflexivity.
  - intros j J. cbn [snd] in F. rewrite F. now apply fs_set_other.
Qed.

(** ** closing *)
Lemma destroy_effect : forall e s d i txt now k g, at_end d i txt -> destroy e (s, d) now k = Ok g ->
  exists t, formatted (clock_of e) now time_formatted = FOk t /\
    g i = txt ++ _write_buffer s ++ closing_text t /\ forall j, j <> i -> g j = d_fs d j.
Proof.
  intros e s d i txt now k g A H. unfold destroy, FileSink_dtor in H.
  apply obind_ok in H as (ms & H & K). apply obind_ok in H as (t & T & H). apply Ok_inj in H. subst ms.
  apply obind_ok in K as (d' & M & K). injection K as <-.
  exists t. split; [destruct (formatted _ _ _); simpl in T; try discriminate; congruence|].
  unfold apply_micros in M. cbn [snd fst mrun] in M.
  destruct (write_step d i txt (_write_buffer s ++ lit "g3log g3FileSink shutdown at: " ++ t ++ nl) k A) as (d1 & S1 & A1 & G1 & _).
  rewrite S1 in M. destruct (flush_step d1 i _ A1) as (d2 & S2 & A2 & G2 & _). rewrite S2 in M.
  destruct (move_step d2 i _ A2) as (d3 & S3 & _ & G3 & C3). rewrite S3 in M. injection M as <-.
  split; [exact C3|]. intros j J. destruct G1 as [_ G1], G2 as [_ G2], G3 as [_ G3]. rewrite G3, G2, G1; auto.
Qed.

(** ** no undefined behaviour *)
Definition usable (w : FileSink * disk) : Prop :=
  d_out (snd w) <> None /\ (_write_to_log_every_x_message (fst w) <> 0)%N.

Lemma mstep_out : forall d m, d_out d <> None -> (forall p r, m <> MOpen p r) -> m <> MMove ->
  exists d', mstep d m = Some d' /\ d_out d' <> None /\ d_new d' = d_new d.
Proof.
  intros d m O N1 N2. destruct m; try (exfalso; eapply N1; reflexivity); try congruence; cbn [mstep];
  (destruct (d_out d); [|congruence]); [destruct (spill _ _ _)|unfold spill_all; destruct (spill _ _ _)];
  eexists; (split; [reflexivity|split; [discriminate|reflexivity]]).
Qed.

Lemma usable_op : forall e w o, usable w ->
  (exists w', op_step e w o = Ok w' /\ usable w') \/ op_step e w o = Throw \/ op_step e w o = Abort.
Proof.
  intros e [s d] o [O Z]. cbn [fst snd] in *. unfold op_step. cbn [fst snd].
  assert (OB : forall (r : fres), (exists t, of_fres r = Ok t) \/ of_fres r = Throw \/ of_fres r = Abort).
  { intros []; simpl; eauto. }
  assert (HD : forall now h, (exists t, header e now h = Ok t) \/ header e now h = Throw \/ header e now h = Abort).
  { intros now h. unfold header. destruct (OB (formatted (clock_of e) now (lit "%a %b %d %H:%M:%S %Y"))) as [[t ->]|[->| ->]]; simpl; eauto. }
  assert (WR : forall d data k, d_out d <> None -> exists d', mstep d (MWrite data k) = Some d' /\ d_out d' <> None /\ d_new d' = d_new d).
  { intros. apply mstep_out; auto; discriminate. }
  assert (FL : forall d, d_out d <> None -> exists d', mstep d MFlush = Some d' /\ d_out d' <> None /\ d_new d' = d_new d).
  { intros. apply mstep_out; auto; discriminate. }
  destruct o; cbn [op_run].
  - unfold fileWrite.
    destruct (OB (snd (toString_with e m (_log_details_func s)))) as [[t ->]|[->| ->]];
    [|destruct (_firstEntry s); cbn [obind]; auto; unfold addLogFileHeader;
      destruct (HD now (_header s)) as [[h ->]|[->| ->]]; cbn; auto..].
    assert (X : (exists hdr, (if _firstEntry s then addLogFileHeader e s now k1 else Ok []) = Ok hdr /\
                  exists d1, mrun d hdr = Some d1 /\ d_out d1 <> None) \/
       (if _firstEntry s then addLogFileHeader e s now k1 else Ok []) = Throw \/
       (if _firstEntry s then addLogFileHeader e s now k1 else Ok []) = Abort).
    { destruct (_firstEntry s); [|left; exists []; split; auto; exists d; auto].
      unfold addLogFileHeader. destruct (HD now (_header s)) as [[h ->]|[->| ->]]; cbn [obind]; auto.
      left. eexists. split; [reflexivity|]. destruct (WR d h k1 O) as (d1 & S1 & O1 & _). exists d1. cbn [mrun]. rewrite S1. auto. }
    destruct X as [(hdr & -> & d1 & R1 & O1)|[->| ->]]; cbn [obind]; auto. left.
    apply N.eqb_neq in Z as Z'. rewrite Z'.
    destruct (_ mod _ =? 0)%N; cbn [obind fst snd].
    + unfold apply_micros. rewrite mrun_app, R1. cbn [mrun].
      destruct (WR d1 (_write_buffer s ++ t) k2 O1) as (d2 & S2 & O2 & _). rewrite S2.
      destruct (FL d2 O2) as (d3 & S3 & O3 & _). rewrite S3. cbn [obind]. eexists. split; [reflexivity|]. split; auto.
    + unfold apply_micros. rewrite R1. cbn [obind]. eexists. split; [reflexivity|]. split; auto.
  - unfold changeLogFile.
    destruct (OB (formatted (clock_of e) now1 (date_formatted ++ lit " " ++ time_formatted))) as [[t ->]|[->| ->]]; cbn [obind]; auto.
    destruct (OB (createLogFileName (clock_of e) now2 (_log_prefix_backup s) logger_id)) as [[n ->]|[->| ->]]; cbn [obind]; auto.
    destruct r as [i|].
    + unfold addLogFileHeader. destruct (HD now3 (_header s)) as [[h ->]|[->| ->]]; cbn [obind]; auto.
      left. cbn [fst snd app]. unfold apply_micros.
      set (d0 := mkDisk (fs_set (d_fs d) i []) (d_out d) (Some (mkStream i 0 []))).
      rewrite (mrun_step d (MOpen (c_str (directory ++ n)) (Some i)) d0) by reflexivity.
      assert (O0 : d_out d0 <> None) by exact O.
      destruct (WR d0 h k1 O0) as (d1 & S1 & O1 & N1). rewrite (mrun_step _ _ _ _ S1).
      match goal with |- context [mrun d1 (MWrite ?x ?k :: _)] => destruct (WR d1 x k O1) as (d2 & S2 & O2 & N2) end.
      rewrite (mrun_step _ _ _ _ S2).
      set (d3 := mkDisk (match d_out d2 with None => d_fs d2 | Some st => fst (spill_all (d_fs d2) st) end) (d_new d2) None).
      rewrite (mrun_step d2 MMove d3) by reflexivity.
      assert (O3 : d_out d3 <> None) by (cbn; rewrite N2, N1; discriminate).
      match goal with |- context [mrun d3 (MWrite ?x ?k :: _)] => destruct (WR d3 x k O3) as (d4 & S4 & O4 & N4) end.
      rewrite (mrun_step _ _ _ _ S4).
      cbn [obind mrun]. eexists. split; [reflexivity|]. split; auto.
    + left. cbn [obind fst snd]. unfold apply_micros.
      rewrite (mrun_step d (MOpen (c_str (directory ++ n)) None) (mkDisk (d_fs d) (d_out d) None)) by reflexivity.
      match goal with |- context [mrun ?d3 (MWrite ?x ?k :: _)] => destruct (WR d3 x k) as (d4 & S4 & O4 & N4); [exact O|] end.
      rewrite (mrun_step _ _ _ _ S4).
      cbn [obind mrun]. eexists. split; [reflexivity|]. split; auto.
  - left. cbn. eexists. split; [reflexivity|]. split; auto.
  - left. cbn. eexists. split; [reflexivity|]. split; auto.
Qed.

(** ** several files *)
Lemma bytes_app : forall a b, bytes (a ++ b) = bytes a ++ bytes b.
Proof. intros. unfold bytes. now rewrite map_app, concat_app. Qed.
Lemma entries_app : forall a b, entries (a ++ b) = entries a ++ entries b.
Proof. intros. unfold entries. now rewrite map_app, concat_app. Qed.
Lemma entries_Entry : forall l, entries (map Entry l) = l.
Proof. induction l as [|t l IH]; simpl; auto. unfold entries in *. simpl. now rewrite IH. Qed.
Lemma bytes_Entry : forall l, bytes (map Entry l) = concat l.
Proof. induction l as [|t l IH]; simpl; auto. unfold bytes in *. simpl. now rewrite IH. Qed.

Definition all_entries (fl : list (nat * list piece)) : list str := concat (map (fun x => entries (snd x)) fl).
Lemma all_entries_app : forall a b, all_entries (a ++ b) = all_entries a ++ all_entries b.
Proof. intros. unfold all_entries. now rewrite map_app, concat_app. Qed.

Lemma In_fst : forall (A B : Type) (l : list (A * B)) j q, In (j, q) l -> In j (map fst l).
Proof. intros A B l j q H. apply (in_map fst) in H. exact H. Qed.

Definition arrived (q : list piece) : Prop := exists t o r, q = Note (arriving_text t o) :: r.

Record Inv (s : FileSink) (d : disk) (fl : list (nat * list piece)) (i : nat) (ps : list piece) (pend : list str) : Prop := {
  v_end : at_end d i (bytes ps);
  v_nodup : NoDup (map fst (fl ++ [(i, ps)]));
  v_old : forall j q, In (j, q) fl -> d_fs d j = bytes q;
  v_notes : forall j q, In (j, q) (fl ++ [(i, ps)]) -> notes_ok q;
  v_count : counted s pend;
  v_safe : exists q ns, ps = q ++ map Note ns /\ starts_with (d_fs d i) (bytes q);
  v_begin : forall j q, In (j, q) (tl (fl ++ [(i, ps)])) -> arrived q
}.

Lemma tl_app : forall (A : Type) (l m : list A), l <> [] -> tl (l ++ m) = tl l ++ m.
Proof. intros A [|x l] m H; [congruence|reflexivity]. Qed.

Lemma arrived_app : forall q r, arrived q -> arrived (q ++ r).
Proof. intros q r (t & o & x & ->). exists t, o, (x ++ r). reflexivity. Qed.

Lemma notes_ok_app : forall a b, notes_ok a -> notes_ok b -> notes_ok (a ++ b).
Proof. intros a b A B t H. apply in_app_or in H as [H|H]; auto. Qed.

Lemma header_notice : forall e now h x, header e now h = Ok x ->
  exists c, formatted (clock_of e) now (lit "%a %b %d %H:%M:%S %Y") = FOk c /\ x = header_text c h.
Proof.
  intros e now h x H. unfold header in H. apply obind_ok in H as (c & C & H). injection H as <-. exists c.
  split; [destruct (formatted _ _ _); simpl in C; try discriminate; congruence|].
  unfold header_text. simpl. reflexivity.
Qed.

(** more pieces at the end of the current file *)
Lemma Inv_extend : forall s d fl i ps pend s' d' more pend',
  Inv s d fl i ps pend -> at_end d' i (bytes (ps ++ more)) -> grown d d' i -> notes_ok more ->
  counted s' pend' ->
  ((exists ns, more = map Note ns) \/ d_fs d' i = bytes (ps ++ more)) ->
  Inv s' d' fl i (ps ++ more) pend'.
Proof.
  intros s d fl i ps pend s' d' more pend' [I1 I2 I3 I4 I5 I6 I7] A G N C S.
  assert (NI : ~ In i (map fst fl)).
  { rewrite map_app in I2. apply NoDup_remove_2 in I2. rewrite app_nil_r in I2. exact I2. }
  split.
  - assumption.
  - rewrite map_app in *. exact I2.
  - intros j q H. destruct G as [_ G]. rewrite G; auto.
    intro E. subst j. apply NI. eapply In_fst; eauto.
  - intros j q H. apply in_app_or in H as [H|[H|[]]].
    + eapply I4. apply in_or_app. eauto.
    + injection H as <- <-. apply notes_ok_app; auto. apply (I4 i). apply in_or_app. simpl. auto.
  - assumption.
  - destruct S as [[ns ->]|S].
    + destruct I6 as (q & ns0 & -> & Q). exists q, (ns0 ++ ns). rewrite map_app, <- app_assoc. split; auto.
      destruct G as [G _]. eauto using starts_trans.
    + exists (ps ++ more), []. rewrite app_nil_r. split; auto. rewrite S. apply starts_refl.
  - intros j q H. destruct fl as [|x fl]; [destruct H|]. cbn [tl app] in *.
    apply in_app_or in H as [H|[H|[]]]; [eapply I7; apply in_or_app; eauto|].
    injection H as <- <-. apply arrived_app. eapply I7. apply in_or_app. simpl. auto.
Qed.

Definition details_after (f : LogDetailsFunc) (o : op) : LogDetailsFunc := match o with ODetails f' => f' | _ => f end.

Lemma step_Inv : forall e s d fl i ps pend o s' d',
  Inv s d fl i ps pend -> op_step e (s, d) o = Ok (s', d') ->
  (forall j, In j (opened [o]) -> ~ In j (map fst (fl ++ [(i, ps)]))) ->
  exists fl' i' ps' pend' ts, Inv s' d' fl' i' ps' pend' /\ received e (_log_details_func s) [o] ts /\
    all_entries (fl' ++ [(i', ps')]) ++ pend' = all_entries (fl ++ [(i, ps)]) ++ pend ++ ts /\
    map fst (fl' ++ [(i', ps')]) = map fst (fl ++ [(i, ps)]) ++ opened [o] /\
    (forall j, ~ In j (opened [o]) -> starts_with (d_fs d' j) (d_fs d j)) /\
    (forall j, ~ In j (map fst (fl' ++ [(i', ps')])) -> d_fs d' j = d_fs d j) /\
    _log_details_func s' = details_after (_log_details_func s) o.
Proof.
  intros e s d fl i ps pend o s' d' I R FR.
  assert (GR : forall d', grown d d' i -> (forall j, starts_with (d_fs d' j) (d_fs d j)) /\
     (forall j, ~ In j (map fst (fl ++ [(i, ps)])) -> d_fs d' j = d_fs d j)).
  { intros x [G1 G2]. split; intro j.
    - destruct (Nat.eq_dec j i) as [->|N]; auto. rewrite G2 by assumption. apply starts_refl.
    - intro N. apply G2. intros ->. apply N. rewrite map_app. apply in_or_app. simpl. auto. }
  unfold op_step in R. apply obind_ok in R as ((s1, ms) & O & R). apply obind_ok in R as (d1 & M & R).
  apply Ok_inj in R. injection R as <- <-. cbn [fst snd] in *. unfold apply_micros in M.
  destruct (mrun d ms) as [d2|] eqn:MR; [|discriminate]. apply Ok_inj in M. subst d2.
  destruct o; cbn [op_run opened app] in *.
  - (* message *)
    pose proof (fileWrite_inv _ _ _ _ _ _ _ _ O) as (h0 & data0 & H0 & D0 & _ & S' & _).
    destruct (recv_effect _ _ _ _ _ _ _ _ d i _ O (v_end _ _ _ _ _ _ I)) as (h & data & H & D & (d' & R' & G & _ & A' & F') & _).
    rewrite MR in R'. injection R' as <-. rewrite H0 in H. injection H as ->. rewrite D0 in D. injection D as ->.
    set (nt := if _firstEntry s then [Note h] else []).
    set (more := nt ++ map Entry (if due s then pend ++ [data] else [])).
    assert (HT : bytes nt = h).
    { unfold nt, hdr_of in *. destruct (_firstEntry s); [unfold bytes; simpl; apply app_nil_r|]. injection H0 as <-. reflexivity. }
    assert (CT : counted s1 (if due s then [] else pend ++ [data])) by (eapply counted_step; eauto using v_count).
    assert (BM : bytes more = h ++ if due s then _write_buffer s ++ data else []).
    { unfold more. rewrite bytes_app, HT, bytes_Entry. f_equal. destruct (due s); [|reflexivity].
      destruct (v_count _ _ _ _ _ _ I) as (B & _). rewrite concat_app, B. simpl. now rewrite app_nil_r. }
    exists fl, i, (ps ++ more), (if due s then [] else pend ++ [data]), [data].
    split; [|split; [|split; [|split; [|split]]]].
    + eapply Inv_extend; eauto.
      * rewrite bytes_app, BM. exact A'.
      * unfold more. apply notes_ok_app.
        -- unfold nt, hdr_of in *. destruct (_firstEntry s); [|intros ? []].
           apply header_notice in H0 as (c & _ & ->). intros t [E|[]]. injection E as <-. constructor.
        -- intros t E. apply in_map_iff in E as (x & E & _). discriminate.
      * unfold more, nt. destruct (due s) eqn:DU.
        -- right. rewrite bytes_app. fold nt. fold more. rewrite BM. apply at_end_flushed; auto.
        -- left. cbn [map]. rewrite app_nil_r. destruct (_firstEntry s); [exists [h]|exists []]; reflexivity.
    + constructor; [assumption|constructor].
    + rewrite !all_entries_app. unfold all_entries. simpl. rewrite !app_nil_r, entries_app.
      assert (EM : entries more = if due s then pend ++ [data] else []).
      { unfold more. rewrite entries_app, entries_Entry. unfold nt. destruct (_firstEntry s); reflexivity. }
      rewrite EM. destruct (due s); rewrite ?app_nil_r, <- !app_assoc; reflexivity.
    + rewrite !map_app, app_nil_r. reflexivity.
    + intros j _. now apply GR.
    + split; [intros j; rewrite map_app; cbn [map fst]; intro N; apply GR; [assumption|rewrite map_app; exact N]|].
      rewrite S'. reflexivity.
  - (* change of file *)
    apply obind_ok in O as (x & O & E). apply Ok_inj in E. destruct x as ((s2, ms2), nm). cbn [fst] in E. injection E as -> ->.
    unfold changeLogFile in O. apply obind_ok in O as (t & T & O). apply obind_ok in O as (n & N & O).
    destruct r as [i'|].
    + (* success *)
      apply obind_ok in O as (hm & HM & O). apply Ok_inj in O.
      unfold addLogFileHeader in HM. apply obind_ok in HM as (h & H & HM). apply Ok_inj in HM. subst hm.
      match type of O with (?a, ?b, ?c) = (_, _, _) => assert (s1 = a /\ ms = b) as [-> ->] by (split; congruence) end. clear O.
      assert (NI : ~ In i' (map fst (fl ++ [(i, ps)]))) by (apply FR; simpl; auto).
      assert (NE : i' <> i). { intros ->. apply NI. rewrite map_app. apply in_or_app. simpl. auto. }
      assert (NF : ~ In i' (map fst fl)). { intro Q. apply NI. rewrite map_app. apply in_or_app. auto. }
      cbn [app] in MR.
      set (d0 := mkDisk (fs_set (d_fs d) i' []) (d_out d) (Some (mkStream i' 0 []))) in *.
      rewrite (mrun_step d _ d0) in MR by reflexivity.
      assert (A0 : at_end d0 i (bytes ps)).
      { destruct (v_end _ _ _ _ _ _ I) as (st & Z1 & Z2 & Z3 & Z4). exists st. unfold d0. cbn [d_out d_fs].
        rewrite fs_set_other by auto. auto. }
      destruct (write_step d0 i _ h k1 A0) as (d2 & S2 & A2 & G2 & N2). rewrite (mrun_step _ _ _ _ S2) in MR.
      match type of MR with mrun _ (MWrite ?x ?k :: _) = _ => destruct (write_step d2 i _ x k A2) as (d3 & S3 & A3 & G3 & N3); set (lv := x) in * end.
      rewrite (mrun_step _ _ _ _ S3) in MR.
      destruct (move_step d3 i _ A3) as (d4 & S4 & O4 & G4 & C4). rewrite (mrun_step _ _ _ _ S4) in MR.
      assert (E4 : d_fs d4 i' = []).
      { destruct G2 as [_ G2], G3 as [_ G3], G4 as [_ G4]. rewrite G4, G3, G2 by auto. unfold d0. cbn. apply fs_set_same. }
      assert (A4 : at_end d4 i' []).
      { exists (mkStream i' 0 []). rewrite O4, N3, N2, E4. auto. }
      match type of MR with mrun _ (MWrite ?x ?k :: _) = _ => destruct (write_step d4 i' _ x k A4) as (d5 & S5 & A5 & G5 & N5); set (ar := x) in * end.
      rewrite (mrun_step _ _ _ _ S5) in MR. cbn [mrun] in MR. injection MR as <-.
      assert (GG : forall j, j <> i' -> starts_with (d_fs d5 j) (d_fs d j)).
      { intros j J. assert (X : d_fs d0 j = d_fs d j) by (unfold d0; cbn; now apply fs_set_other).
        destruct G5 as [_ G5]. rewrite G5, <- X by auto.
        assert (Y : grown d0 d4 i) by eauto using grown_trans. destruct Y as [Y1 Y2].
        destruct (Nat.eq_dec j i) as [->|J2]; auto. rewrite Y2 by auto. apply starts_refl. }
      assert (KK : forall j, j <> i' -> j <> i -> d_fs d5 j = d_fs d j).
      { intros j J J2. assert (X : d_fs d0 j = d_fs d j) by (unfold d0; cbn; now apply fs_set_other).
        destruct G5 as [_ G5]. rewrite G5, <- X by auto.
        assert (Y : grown d0 d4 i) by eauto using grown_trans. destruct Y as [_ Y2]. auto. }
      exists (fl ++ [(i, ps ++ [Note h; Note lv])]), i', [Note ar], pend, [].
      split; [|split; [|split; [|split; [|split; [|split]]]]].
      * split.
        -- unfold bytes. simpl. rewrite app_nil_r. exact A5.
        -- pose proof (v_nodup _ _ _ _ _ _ I) as ND. rewrite !map_app in *. cbn [map fst] in *.
           apply NoDup_rev in ND. rewrite <- (rev_involutive (_ ++ [i'])). apply NoDup_rev. rewrite rev_app_distr. cbn.
           constructor; auto. rewrite <- in_rev. exact NI.
        -- intros j q Q. apply in_app_or in Q as [Q|[Q|[]]].
           ++ assert (JI : j <> i). { intros ->. pose proof (v_nodup _ _ _ _ _ _ I) as ND. rewrite map_app in ND.
                apply NoDup_remove_2 in ND. rewrite app_nil_r in ND. apply ND. eapply In_fst; eauto. }
              assert (JI' : j <> i'). { intros ->. apply NF. eapply In_fst; eauto. }
              rewrite KK by auto. now apply (v_old _ _ _ _ _ _ I).
           ++ injection Q as <- <-. destruct G5 as [_ G5]. rewrite G5 by auto. rewrite C4.
              unfold bytes. rewrite map_app, concat_app. simpl. rewrite app_nil_r, <- app_assoc. reflexivity.
        -- intros j q Q. apply in_app_or in Q as [Q|[Q|[]]]; [apply in_app_or in Q as [Q|[Q|[]]]|].
           ++ eapply (v_notes _ _ _ _ _ _ I). apply in_or_app. eauto.
           ++ injection Q as <- <-. apply notes_ok_app.
              ** apply (v_notes _ _ _ _ _ _ I i). apply in_or_app. simpl. auto.
              ** apply header_notice in H as (c & _ & ->). intros y [E|[E|[]]]; injection E as <-; [constructor|].
                 apply n_leaving.
           ++ injection Q as <- <-. intros y [E|[]]. injection E as <-. apply n_arriving.
        -- apply (v_count _ _ _ _ _ _ I).
        -- exists [], [ar]. split; [reflexivity|]. eexists. reflexivity.
        -- intros j q Q. rewrite tl_app in Q by (destruct fl; discriminate).
           apply in_app_or in Q as [Q|[Q|[]]].
           ++ destruct fl as [|x fl]; [destruct Q|]. cbn [tl app] in Q. apply in_app_or in Q as [Q|[Q|[]]].
              ** eapply (v_begin _ _ _ _ _ _ I). cbn [tl app]. apply in_or_app. eauto.
              ** injection Q as <- <-. apply arrived_app. eapply (v_begin _ _ _ _ _ _ I). cbn [tl app]. apply in_or_app. simpl. auto.
           ++ injection Q as <- <-. eexists. eexists. exists []. reflexivity.
      * constructor. constructor.
      * rewrite !all_entries_app. unfold all_entries. simpl. rewrite !entries_app. simpl. rewrite !app_nil_r. reflexivity.
      * rewrite !map_app. reflexivity.
      * intros j J. apply GG. simpl in J. intros ->. tauto.
      * intros j J. rewrite !map_app in J. cbn [map fst] in J. apply KK; intros ->; apply J; apply in_or_app; simpl; auto.
        left. apply in_or_app. simpl. auto.
      * reflexivity.
    + (* failure *)
      match type of O with Ok (?a, ?b, ?c) = Ok (_, _, _) => assert (s1 = a /\ ms = b) as [-> ->] by (split; congruence) end. clear O.
      rewrite (mrun_step d _ (mkDisk (d_fs d) (d_out d) None)) in MR by reflexivity.
      assert (A0 : at_end (mkDisk (d_fs d) (d_out d) None) i (bytes ps)) by exact (v_end _ _ _ _ _ _ I).
      match type of MR with mrun _ (MWrite ?x ?k :: _) = _ => destruct (write_step _ i _ x k A0) as (d2 & S2 & A2 & G2 & N2); set (ft := x) in * end.
      rewrite (mrun_step _ _ _ _ S2) in MR. cbn [mrun] in MR. injection MR as <-.
      assert (G : grown d d2 i) by exact G2.
      exists fl, i, (ps ++ [Note ft]), pend, []. split; [|split; [|split; [|split; [|split]]]].
      * eapply Inv_extend; eauto using v_count.
        -- rewrite bytes_app. unfold bytes at 2. simpl. rewrite app_nil_r. exact A2.
        -- intros y [E|[]]. injection E as <-. apply n_failed.
        -- left. exists [ft]. reflexivity.
      * constructor. constructor.
      * rewrite !all_entries_app. unfold all_entries. simpl. rewrite !entries_app. simpl. rewrite !app_nil_r. reflexivity.
      * rewrite !map_app, app_nil_r. reflexivity.
      * intros j _. now apply GR.
      * split; [intros j; rewrite map_app; cbn [map fst]; intro NN; apply GR; [assumption|rewrite map_app; exact NN]|reflexivity].
  - injection O as <- <-. cbn in MR. injection MR as <-. exists fl, i, ps, pend, [].
    split; [destruct I; split; auto|]. split; [constructor; constructor|]. rewrite !app_nil_r.
    repeat split; auto. intros; apply starts_refl.
  - injection O as <- <-. cbn in MR. injection MR as <-. exists fl, i, ps, pend, [].
    split; [destruct I; split; auto|]. split; [constructor; constructor|]. rewrite !app_nil_r.
    repeat split; auto. intros; apply starts_refl.
Qed.

Lemma received_app : forall e os f f1 ts o t, received e f os ts ->
  f1 = fold_left details_after os f -> received e f1 [o] t -> received e f (os ++ [o]) (ts ++ t).
Proof.
  intros e os f f1 ts o t H. revert f1. induction H; intros f1 E R; simpl in *.
  - now subst.
  - constructor; eauto.
  - constructor; eauto.
  - constructor; eauto.
  - constructor; eauto.
Qed.

Lemma opened_app : forall a b, opened (a ++ b) = opened a ++ opened b.
Proof.
  induction a as [|o a IH]; intro b; simpl; auto. destruct o as [| ? ? ? ? ? [] | |]; simpl; rewrite ?IH; auto.
Qed.

Lemma ops_run_app : forall e a b w, ops_run e w (a ++ b) = obind (ops_run e w a) (fun w' => ops_run e w' b).
Proof.
  intros e. induction a as [|o a IH]; intros b w; simpl; auto.
  destruct (op_step e w o); simpl; auto.
Qed.

Lemma run_Inv : forall e os s d fl i ps pend s' d',
  Inv s d fl i ps pend -> ops_run e (s, d) os = Ok (s', d') ->
  NoDup (map fst (fl ++ [(i, ps)]) ++ opened os) ->
  exists fl' i' ps' pend' ts, Inv s' d' fl' i' ps' pend' /\ received e (_log_details_func s) os ts /\
    all_entries (fl' ++ [(i', ps')]) ++ pend' = all_entries (fl ++ [(i, ps)]) ++ pend ++ ts /\
    map fst (fl' ++ [(i', ps')]) = map fst (fl ++ [(i, ps)]) ++ opened os /\
    (forall j, ~ In j (opened os) -> starts_with (d_fs d' j) (d_fs d j)) /\
    (forall j, ~ In j (map fst (fl' ++ [(i', ps')])) -> d_fs d' j = d_fs d j) /\
    _log_details_func s' = fold_left details_after os (_log_details_func s).
Proof.
  intros e os. induction os as [|o os IH] using rev_ind; intros s d fl i ps pend s' d' I R ND.
  - injection R as <- <-. exists fl, i, ps, pend, []. rewrite !app_nil_r. cbn [opened].
    split; [exact I|]. split; [constructor|]. split; [reflexivity|]. split; [reflexivity|].
    split; [intros; apply starts_refl|]. split; reflexivity.
  - rewrite ops_run_app in R. apply obind_ok in R as ((s1, d1) & R1 & R2).
    cbn [ops_run] in R2. apply obind_ok in R2 as ((s2, d2) & R2 & E). apply Ok_inj in E. injection E as <- <-.
    rewrite opened_app, app_assoc in ND.
    assert (ND1 : NoDup (map fst (fl ++ [(i, ps)]) ++ opened os)).
    { clear -ND. induction (opened [o]) as [|x l IHl] in ND |- * using rev_ind; [now rewrite app_nil_r in ND|].
      apply IHl. rewrite app_assoc in ND. apply NoDup_remove_1 in ND. now rewrite app_nil_r in ND. }
    destruct (IH _ _ _ _ _ _ _ _ I R1 ND1) as (fl1 & i1 & ps1 & pend1 & ts1 & I1 & RC1 & E1 & M1 & S1 & K1 & F1).
    destruct (step_Inv _ _ _ _ _ _ _ _ _ _ I1 R2) as (fl2 & i2 & ps2 & pend2 & ts2 & I2 & RC2 & E2 & M2 & S2 & K2 & F2).
    { intros j J. rewrite M1. intro Q. clear -ND J Q.
      apply in_split in J as (l1 & l2 & J). rewrite J in ND.
      rewrite app_assoc in ND. apply NoDup_remove_2 in ND. apply ND.
      apply in_or_app. left. apply in_or_app. auto. }
    exists fl2, i2, ps2, pend2, (ts1 ++ ts2). split; auto.
    split; [eapply received_app; eauto; congruence|].
    split; [rewrite E2, app_assoc, E1, <- !app_assoc; reflexivity|].
    split; [rewrite M2, M1, opened_app, app_assoc; reflexivity|].
    split.
    { intros j J. rewrite opened_app in J. eapply starts_trans; [apply S2|apply S1]; intro Q; apply J; apply in_or_app; auto. }
    split.
    { intros j J. rewrite K2 by assumption. apply K1. intro Q. apply J. rewrite M2. apply in_or_app. auto. }
    rewrite fold_left_app. simpl. congruence.
Qed.

Lemma created_Inv : forall e high p dir id every now r1 r2 f s d i,
  create e high p dir id every now r1 r2 f = Ok (s, d) -> (every <> 0)%N ->
  (r1 = Some i \/ (r1 = None /\ r2 = Some i)) -> Inv s d [] i [] [].
Proof.
  intros e high p dir id every now r1 r2 f s d i H Z RR.
  pose proof (create_sink _ _ _ _ _ _ _ _ _ _ _ H) as (S1 & S2 & S3 & S4 & S5 & S6).
  destruct (create_inv _ _ _ _ _ _ _ _ _ _ _ H) as [(i' & RR' & D & F)|(X & Y & _)].
  2: { destruct RR as [RR|[_ RR]]; congruence. }
  assert (i' = i) by (destruct RR as [RR|[RR RR2]], RR' as [RR'|[RR' RR2']]; congruence). subst i'.
  split.
  - exact (at_end_created (s, d) i f D F).
  - repeat constructor. intros [].
  - intros j q [].
  - intros j q [Q|[]]. injection Q as <- <-. intros t [].
  - cbn [fst] in *. unfold counted. rewrite S4, S5, S6. split; auto. split; [|split; auto; reflexivity].
    rewrite N.mod_0_l by assumption. reflexivity.
  - exists [], []. split; auto. eexists. reflexivity.
  - intros j q [].
Qed.
