(** C132: several file sinks over the same files.  Model: Model/SharedDisk.v; specification: Spec/SharedDiskSpec.v. *)
From Coq Require Import Ascii String List ZArith NArith Bool Lia.
From Verif.Base Require Import Bytes.
From Verif.Model Require Import Levels TimeFmt Message FileName FileSink SharedDisk.
From Verif.Spec Require Import TimeSpec MessageSpec FileNameSpec FileSinkSpec SharedDiskSpec.
From Verif.Proofs Require Import BytesFacts TimeFacts MessageFacts FileNameFacts FileSinkFacts SharedDiskFacts.
From Verif.Properties Require Import PFileName PFileSink.
Import ListNotations.
Local Open Scope list_scope.

(** For the examples: a sink with one message; all clocks stand still within one second. *)
Definition ex_life (prefix id : str) (now : Z) (i : nat) (texts : list str) : life :=
  mkLife ex_env (fun _ => false) prefix (lit "/logs") id 1 now (Some i) None
    (ODetails (UserDetails 0) :: map ex_recv texts) (Some (0%Z, 0)).
Definition ex_micros (l : life) : list micro := match life_micros l with Ok (_, ms) => ms | _ => [] end.
Definition tag (n : nat) (ms : list micro) : list (nat * micro) := map (fun m => (n, m)) ms.


(** ** two sinks with one file *)
(** Two sinks with the same directory, prefix and id, created within one second.  Every name leads to one file.  Both run
    to their ends, and the message that the first had logged, and had written to its file, is gone.  First a program that
    starts a second time within the second; then both sinks live at the same time. *)
Definition ex_l1 : life := ex_life (lit "app") [] 0 1 [lit "~"].
Definition ex_l2 : life := ex_life (lit "app") [] 500000000 1 [lit "0123456789"].
Definition ex_restart : list (nat * micro) := tag 0 (ex_micros ex_l1) ++ tag 1 (ex_micros ex_l2).
Definition ex_both : list (nat * micro) :=
  tag 0 (firstn 2 (ex_micros ex_l1)) ++ tag 1 (firstn 2 (ex_micros ex_l2)) ++
  tag 0 (skipn 2 (ex_micros ex_l1)) ++ tag 1 (skipn 2 (ex_micros ex_l2)).

Lemma ex_known : forall (r : option world) (i : nat) c,
  match r with Some w => Some (w_fs w i) | None => None end = Some c -> exists w, r = Some w /\ w_fs w i = c.
Proof. intros [w|] i c H; [|discriminate]. injection H as <-. eauto. Qed.

Lemma ex_has : forall (c : ascii) l, existsb (Ascii.eqb c) l = true -> In c l.
Proof. intros c l H. apply existsb_exists in H as (x & I & E). apply Ascii.eqb_eq in E. now subst x. Qed.
Lemma ex_has_not : forall (c : ascii) l, existsb (Ascii.eqb c) l = false -> ~ In c l.
Proof.
  intros c l H I. assert (E : existsb (Ascii.eqb c) l = true) by (apply existsb_exists; exists c; split; [exact I|apply Ascii.eqb_refl]).
  congruence.
Qed.

Ltac ex_complete :=
  split; [intros [|[|n]] l H; cbn [nth_error] in H; [injection H as <-..|destruct n; discriminate];
          eexists; vm_compute; reflexivity|
          let H := fresh in intros n m H; vm_compute in H;
          repeat (destruct H as [H|H]; [injection H as <- _; cbn; lia|]); destruct H].

Theorem C132_refuted : exists s1 s2 ms1 ms2 names w1 w w',
  life_micros ex_l1 = Ok (s1, ms1) /\ life_micros ex_l2 = Ok (s2, ms2) /\ fileName s1 = fileName s2 /\
  complete [ex_l1; ex_l2] (tag 0 ms1 ++ tag 1 ms2) /\ by_name names (tag 0 ms1 ++ tag 1 ms2) /\
  wrun (start (fun _ => [])) (tag 0 ms1) = Some w1 /\ In "~"%char (w_fs w1 (names (fileName s1))) /\
  wrun (start (fun _ => [])) (tag 0 ms1 ++ tag 1 ms2) = Some w /\ ~ In "~"%char (w_fs w (names (fileName s1))) /\
  complete [ex_l1; ex_l2] ex_both /\ by_name names ex_both /\ wrun (start (fun _ => [])) ex_both = Some w' /\
  ~ In "~"%char (w_fs w' (names (fileName s1))).
Proof.
  destruct (life_micros ex_l1) as [[s1 ms1]| | |] eqn:E1; try (vm_compute in E1; discriminate E1).
  destruct (life_micros ex_l2) as [[s2 ms2]| | |] eqn:E2; try (vm_compute in E2; discriminate E2).
  assert (M1 : ms1 = ex_micros ex_l1) by (unfold ex_micros; now rewrite E1).
  assert (M2 : ms2 = ex_micros ex_l2) by (unfold ex_micros; now rewrite E2). subst ms1 ms2.
  destruct (ex_known (wrun (start (fun _ => [])) (tag 0 (ex_micros ex_l1))) 1 _ ltac:(vm_compute; reflexivity)) as (w1 & W1 & F1).
  destruct (ex_known (wrun (start (fun _ => [])) ex_restart) 1 _ ltac:(vm_compute; reflexivity)) as (w & W & F).
  destruct (ex_known (wrun (start (fun _ => [])) ex_both) 1 _ ltac:(vm_compute; reflexivity)) as (w' & W' & F').
  exists s1, s2, (ex_micros ex_l1), (ex_micros ex_l2), (fun _ => 1), w1, w, w'. cbv beta.
  split; [reflexivity|]. split; [reflexivity|].
  split; [vm_compute in E1, E2; injection E1 as <-; injection E2 as <-; reflexivity|].
  split; [ex_complete|].
  split; [intros n p i H; vm_compute in H; repeat (destruct H as [H|H]; [try discriminate H; injection H as _ _ <-; reflexivity|]); destruct H|].
  split; [exact W1|]. split; [rewrite F1; apply ex_has; vm_compute; reflexivity|].
  split; [exact W|]. split; [rewrite F; apply ex_has_not; vm_compute; reflexivity|].
  split; [ex_complete|].
  split; [intros n p i H; vm_compute in H; repeat (destruct H as [H|H]; [try discriminate H; injection H as _ _ <-; reflexivity|]); destruct H|].
  split; [exact W'|]. rewrite F'. apply ex_has_not. vm_compute. reflexivity.
Qed.
Print Assumptions C132_refuted.

(** In general: opening a file empties it, whatever other sinks have written there. *)
Theorem C132_opening_empties : forall f sched n p i w,
  wrun (start f) (sched ++ [(n, MOpen p (Some i))]) = Some w -> w_fs w i = [].
Proof.
  intros f sched n p i w H. apply wrun_snoc in H as (v & _ & S). cbn in S. injection S as <-. cbn. apply fs_set_same.
Qed.
Print Assumptions C132_opening_empties.

(** If sinks share files (each opens a file at most once), then at each place of a file at most one of them has its say:
    a byte found there at any time is the one that some sink, which opened the file, would have put there had it been
    alone, or NUL.  So the file is never longer than the longest of those texts, and the rest of them is lost. *)
Theorem C132_one_byte_each_partial : forall f sched w, (forall n, NoDup (touched (own n sched))) -> wrun (start f) sched = Some w ->
  forall i x b, (exists n, In i (touched (own n sched))) -> nth_error (w_fs w i) x = Some b ->
  exists n d b', In i (touched (own n sched)) /\ mrun (mkDisk f None None) (own n sched) = Some d /\
    nth_error (d_fs d i) x = Some b' /\ (b = b' \/ b = NUL).
Proof.
  intros f sched w ND H i x b [n T] X. destruct (shared_bytes _ _ _ ND H i x b X) as [[_ Q]|Q]; [now apply Q in T|exact Q].
Qed.
Print Assumptions C132_one_byte_each_partial.

(** ** the same name *)
(** Sinks with the same directory, prefix (after sanitation) and id, created in the same local second, get the same
    name, if both could open their file in that directory or both could not. *)
Theorem C132_same_second : forall e high high' p p' dir id every every' now now' r1 r1' r2 r2' s s' ms ms',
  prefixSanityFix high p = prefixSanityFix high' p' -> (r1 = None <-> r1' = None) ->
  tm_ok (k_local (clock_of e) (Z.quot now 1000000000)) ->
  k_local (clock_of e) (Z.quot now 1000000000) = k_local (clock_of e) (Z.quot now' 1000000000) ->
  FileSink_ctor e high p dir id every now r1 r2 = Ok (s, ms) ->
  FileSink_ctor e high' p' dir id every' now' r1' r2' = Ok (s', ms') -> fileName s = fileName s'.
Proof.
  intros e high high' p p' dir id every every' now now' r1 r1' r2 r2' s s' ms ms' P R T L C C'.
  unfold FileSink_ctor in C, C'. rewrite <- P in C'. destruct (negb _); [discriminate|].
  rewrite createLogFileName_spec in C by exact T. rewrite createLogFileName_spec in C' by (rewrite <- L; exact T).
  rewrite <- L in C'. cbn [of_fres obind] in C, C'.
  destruct r1 as [i|], r1' as [i'|]; try (destruct R as [R R']; (discriminate (R eq_refl) || discriminate (R' eq_refl))).
  - injection C as <- _. injection C' as <- _. reflexivity.
  - destruct r2, r2'; try (destruct (e_debug e); try discriminate); injection C as <- _; injection C' as <- _; reflexivity.
Qed.
Print Assumptions C132_same_second.

(** Conversely a name in common means the same prefix, id and local second. *)
Definition fit (e : env) (p dir id : str) (now : Z) : Prop :=
  (size p < npos)%N /\ ~ In NUL p /\ ~ In NUL dir /\ ~ In NUL id /\ ~ In "/"%char id /\
  tm_ok (k_local (clock_of e) (Z.quot now 1000000000)).

Lemma ctor_names : forall e high p dir id every now r1 r2 s ms q r, fit e p dir id now ->
  FileSink_ctor e high p dir id every now r1 r2 = Ok (s, ms) -> In (MOpen q r) ms ->
  let pre := prefixSanityFix high p in let name := log_name pre id (k_local (clock_of e) (Z.quot now 1000000000)) in
  ~ In "."%char pre /\ ~ In "/"%char name /\ exists a, (a = [] \/ exists x, a = x ++ lit "/") /\ q = a ++ name.
Proof.
  intros e high p dir id every now r1 r2 s ms q r (B & N1 & N2 & N3 & N4 & T) C I pre name.
  destruct (C50_sink_refuses_or_is_safe e high p dir id every now r1 r2 B) as (q' & W & _ & Q).
  destruct (Q _ _ C) as (QE & QN & QI). clear Q.
  unfold FileSink_ctor in C. fold pre in C. destruct (negb _) eqn:V; [discriminate|].
  rewrite createLogFileName_spec in C by exact T. cbn [of_fres obind] in C. fold name in C.
  assert (PE : _log_prefix_backup s = pre).
  { destruct r1; [injection C as <- _; reflexivity|]. destruct r2; [injection C as <- _; reflexivity|].
    destruct (e_debug e); [discriminate|]. injection C as <- _. reflexivity. }
  rewrite PE in QE. subst q'.
  assert (DOT : ~ In "."%char pre). { intro J. apply QI in J as [_ J]. apply J. left. simpl. tauto. }
  assert (SL : ~ In "/"%char pre). { intro J. apply QI in J as [_ J]. apply J. left. simpl. tauto. }
  assert (NQ : ~ In NUL pre). { intro J. apply N1. clear -W J. induction W; simpl in *; tauto. }
  assert (NOT : forall c, is_digit c = false -> c <> "-"%char -> ~ In c pre -> ~ In c id -> ~ In c (lit ".log") -> ~ In c name).
  { intros c D D' A1 A2 A3 H. assert (ST : ~ In c (file_stamp (k_local (clock_of e) (Z.quot now 1000000000)))) by now apply file_stamp_not.
    assert (c <> "."%char) by (intros ->; apply A3; simpl; auto).
    unfold name, log_name in H. destruct (str_eqb id []);
    repeat (apply in_app_or in H as [H|H]; [auto; simpl in H; intuition congruence|]); simpl in H; simpl in A3; intuition congruence. }
  assert (NSL : ~ In "/"%char name) by (apply NOT; auto; [discriminate|simpl; intuition discriminate]).
  assert (NNU : ~ In NUL name) by (apply NOT; auto; [discriminate|simpl; intuition discriminate]).
  split; [exact DOT|]. split; [exact NSL|].
  assert (P1 : c_str (pathSanityFix dir name) = pathSanityFix dir name).
  { apply c_str_id. intro H. unfold pathSanityFix in H.
    assert (TL : forall n x, In NUL (trim_loop n x) -> In NUL x).
    { induction n as [|n IH]; intros x X; cbn [trim_loop] in X; auto. destruct (contains_end x); auto. apply IH in X.
      clear - X. induction x as [|a [|b x] IHx]; cbn in *; [tauto..|]. destruct X as [X|X]; auto. }
    apply in_app_or in H as [H|H]; auto. apply N2.
    destruct (trim_loop _ _) as [|c u] eqn:TR; [destruct H|]. apply in_app_or in H as [H|H]; [|simpl in H; intuition discriminate].
    rewrite <- TR in H. apply TL in H. apply in_map_iff in H as (y & Y & H). destruct (Ascii.eqb y "\"); [discriminate|]. now subst y. }
  assert (P2 : c_str (lit "./" ++ name) = lit "./" ++ name).
  { apply c_str_id. intro H. apply in_app_or in H as [H|H]; auto. simpl in H. intuition discriminate. }
  assert (Y : q = pathSanityFix dir name \/ q = lit "./" ++ name).
  { destruct r1; [|destruct r2; [|destruct (e_debug e); [discriminate|]]]; injection C as _ <-; rewrite ?P1, ?P2 in I; simpl in I;
    repeat (destruct I as [I|I]; [try discriminate I; injection I as <-; auto|]); destruct I. }
  destruct Y as [->| ->].
  - destruct (pathSanityFix_shape dir name) as (a & A & ->). eauto.
  - exists (lit "./"). split; auto. right. now exists (lit ".").
Qed.

Theorem C132_names : forall e high p dir id every now r1 r2 s ms e' high' p' dir' id' every' now' r1' r2' s' ms' q r r',
  fit e p dir id now -> fit e' p' dir' id' now' ->
  FileSink_ctor e high p dir id every now r1 r2 = Ok (s, ms) -> In (MOpen q r) ms ->
  FileSink_ctor e' high' p' dir' id' every' now' r1' r2' = Ok (s', ms') -> In (MOpen q r') ms' ->
  prefixSanityFix high p = prefixSanityFix high' p' /\ id = id' /\
  k_local (clock_of e) (Z.quot now 1000000000) = k_local (clock_of e') (Z.quot now' 1000000000).
Proof.
  intros e high p dir id every now r1 r2 s ms e' high' p' dir' id' every' now' r1' r2' s' ms' q r r' F F' C I C' I'.
  pose proof (ctor_names _ _ _ _ _ _ _ _ _ _ _ _ _ F C I) as (D & S & a & A & Q).
  pose proof (ctor_names _ _ _ _ _ _ _ _ _ _ _ _ _ F' C' I') as (D' & S' & a' & A' & Q').
  rewrite Q in Q'. apply last_component in Q'; auto. apply log_name_inj in Q'; auto; [apply F|apply F'].
Qed.
Print Assumptions C132_names.

(** ** sinks that keep apart *)
(** No file is opened by two sinks.  Then for every interleaving each sink finds its files exactly as if it were
    alone, nothing else is written, and using the sinks together is defined if it is for each alone. *)
Theorem C132_as_if_alone_partial : forall f sched,
  ((exists w, wrun (start f) sched = Some w) <-> forall n, exists d, mrun (mkDisk f None None) (own n sched) = Some d) /\
  (apart sched -> forall w, wrun (start f) sched = Some w ->
   (forall n d i, mrun (mkDisk f None None) (own n sched) = Some d -> In i (touched (own n sched)) -> w_fs w i = d_fs d i) /\
   (forall i, (forall n, ~ In i (touched (own n sched))) -> w_fs w i = f i)).
Proof.
  intros f sched. split; [split|].
  - intros (w & W) n. destruct (world_streams _ _ _ W n) as (d & D & _). eauto.
  - intros A. apply world_defined. intro n. destruct (A n) as (d & D). unfold alone. congruence.
  - intros A w W. destruct (world_alone _ _ _ A W) as (A1 & A2 & _). split; auto.
Qed.
Print Assumptions C132_as_if_alone_partial.

(** For whole lives: each sink's files hold all its messages, in order, each once, in the order of its files. *)
Theorem C132_messages_partial : forall ls sched f, complete ls sched -> apart sched ->
  (forall n l, nth_error ls n = Some l -> (l_every l <> 0)%N /\ (l_r1 l <> None \/ l_r2 l <> None)) ->
  exists w, wrun (start f) sched = Some w /\
  forall n l i0 tnow k, nth_error ls n = Some l -> (l_r1 l = Some i0 \/ l_r1 l = None /\ l_r2 l = Some i0) ->
  NoDup (i0 :: opened (l_ops l)) -> l_end l = Some (tnow, k) ->
  exists files i ps t, map fst (files ++ [(i, ps)]) = i0 :: opened (l_ops l) /\
    received (l_env l) DefaultDetails (l_ops l) (concat (map (fun x => entries (snd x)) (files ++ [(i, ps)]))) /\
    (forall j q, In (j, q) (files ++ [(i, ps)]) -> notes_ok q) /\
    (forall j q, In (j, q) files -> w_fs w j = bytes q) /\
    FileName.formatted (clock_of (l_env l)) tnow time_formatted = FOk t /\
    w_fs w i = bytes ps ++ closing_text t.
Proof.
  intros ls sched f [CO BD] A OK.
  assert (W : exists w, wrun (start f) sched = Some w).
  { apply world_defined. intros n. unfold alone. destruct (nth_error ls n) as [l|] eqn:N.
    - destruct (CO _ _ N) as (s & L). destruct (OK _ _ N) as [Z R]. eapply life_defined; eauto.
    - replace (own n sched) with (@nil micro); [discriminate|]. symmetry. apply nth_error_None in N.
      assert (B : forall m, ~ In (n, m) sched) by (intros m X; apply BD in X; lia). clear - B.
      induction sched as [|(n', m) sched IH]; [reflexivity|]. unfold own in *. cbn [flat_map fst snd].
      destruct (Nat.eqb_spec n' n) as [->|X]; [exfalso; apply (B m); now left|]. cbn [app]. apply IH. intros m' X'. apply (B m'). now right. }
  destruct W as (w & W). exists w. split; [exact W|]. intros n l i0 tnow k N RR ND EN.
  destruct (CO _ _ N) as (s & L). destruct (OK _ _ N) as [Z R].
  destruct (mrun (mkDisk f None None) (own n sched)) as [d|] eqn:D; [|exfalso; eapply life_defined; eauto].
  destruct (life_alone _ _ _ _ _ _ _ L EN D) as (w0 & w1 & C1 & C2 & C3).
  destruct (world_alone _ _ _ A W) as (A1 & _ & _).
  destruct (C55_all_messages_after_shutdown _ _ _ _ _ _ _ _ _ _ _ _ _ _ _ _ _ C1 Z RR ND C2 C3) as (files & i & ps & t & Q1 & Q2 & Q3 & Q4 & Q5 & Q6).
  assert (T : forall j, In j (map fst (files ++ [(i, ps)])) -> In j (touched (own n sched))).
  { intros j J. rewrite (life_touched _ _ _ L). rewrite Q1 in J. destruct RR as [-> | [-> ->]]; exact J. }
  exists files, i, ps, t. split; [exact Q1|]. split; [exact Q2|]. split; [exact Q3|]. split; [|split; [exact Q5|]].
  - intros j q J. rewrite (A1 n d j D); [now apply Q4|]. apply T. rewrite map_app. apply in_or_app. left. now apply In_fst in J.
  - rewrite (A1 n d i D); [exact Q6|]. apply T. rewrite map_app. apply in_or_app. right. now left.
Qed.
Print Assumptions C132_messages_partial.

(** When do sinks keep apart?  In a file system in which different names are different files, sinks that never change
    their file and differ in prefix, id or local second of creation do. *)
Theorem C132_apart : forall ls sched names, complete ls sched -> by_name names sched ->
  (forall p q, names p = names q -> p = q) ->
  (forall n l, nth_error ls n = Some l -> fit (l_env l) (l_prefix l) (l_dir l) (l_id l) (l_now l) /\ Forall no_change (l_ops l)) ->
  (forall n n' l l', nth_error ls n = Some l -> nth_error ls n' = Some l' -> n <> n' ->
     prefixSanityFix (l_high l) (l_prefix l) <> prefixSanityFix (l_high l') (l_prefix l') \/ l_id l <> l_id l' \/
     k_local (clock_of (l_env l)) (Z.quot (l_now l) 1000000000) <> k_local (clock_of (l_env l')) (Z.quot (l_now l') 1000000000)) ->
  apart sched.
Proof.
  intros ls sched names [CO BD] BN INJ OK DIFF n n' i T T'.
  assert (G : forall n, In i (touched (own n sched)) -> exists p, In (n, MOpen p (Some i)) sched /\ In (MOpen p (Some i)) (own n sched)).
  { clear. intros n T. unfold touched in T. apply in_flat_map in T as (m & M & T). unfold own in M.
    pose proof M as M'. apply in_flat_map in M as ((a, m') & S & M). cbn [fst snd] in M. destruct (Nat.eqb_spec a n) as [->|X]; [|destruct M].
    destruct M as [->|[]]. destruct m as [p [j|]| | |]; try (now destruct T). destruct T as [->|[]]. exists p. split; auto. }
  destruct (G _ T) as (p & P & O). destruct (G _ T') as (p' & P' & O'). clear G.
  pose proof (BN _ _ _ P) as N. pose proof (BN _ _ _ P') as N'. assert (p = p') by (apply INJ; congruence). subst p'.
  destruct (Nat.eq_dec n n') as [|X]; auto. exfalso.
  destruct (nth_error ls n) as [l|] eqn:E; [|apply nth_error_None in E; apply BD in P; lia].
  destruct (nth_error ls n') as [l'|] eqn:E'; [|apply nth_error_None in E'; apply BD in P'; lia].
  destruct (CO _ _ E) as (s & L). destruct (CO _ _ E') as (s' & L'). destruct (OK _ _ E) as [F NC]. destruct (OK _ _ E') as [F' NC'].
  assert (K : forall l s ms, Forall no_change (l_ops l) -> life_micros l = Ok (s, ms) -> In (MOpen p (Some i)) ms ->
    exists s0 ms0, FileSink_ctor (l_env l) (l_high l) (l_prefix l) (l_dir l) (l_id l) (l_every l) (l_now l) (l_r1 l) (l_r2 l) = Ok (s0, ms0) /\
      In (MOpen p (Some i)) ms0).
  { clear. intros l s ms NC H I. unfold life_micros in H.
    apply obind_ok in H as ((s0, ms0) & C & H). apply obind_ok in H as ((s1, ms1) & O & H). cbn [fst snd] in *.
    exists s0, ms0. split; [exact C|]. apply ops_touched in O.
    assert (NO : opened (l_ops l) = []).
    { clear - NC. induction NC as [|o os H _ IH]; [reflexivity|]. destruct o; try exact IH. destruct H. }
    assert (N1 : ~ In (MOpen p (Some i)) ms1).
    { intro X. rewrite NO in O. assert (Y : In i (touched ms1)) by (unfold touched; apply in_flat_map; eexists; split; [exact X|now left]).
      rewrite O in Y. destruct Y. }
    destruct (l_end l) as [(tnow, k)|].
    - apply obind_ok in H as (ms2 & D & E). injection E as <- <-. unfold FileSink_dtor in D.
      apply obind_ok in D as (t & _ & D). injection D as <-. apply in_app_or in I as [I|I]; auto.
      apply in_app_or in I as [I|I]; [contradiction|]. simpl in I. intuition discriminate.
    - injection H as <- <-. apply in_app_or in I as [I|I]; [exact I|contradiction]. }
  destruct (K _ _ _ NC L O) as (s0 & ms0 & C & I). destruct (K _ _ _ NC' L' O') as (s0' & ms0' & C' & I').
  destruct (C132_names _ _ _ _ _ _ _ _ _ _ _ _ _ _ _ _ _ _ _ _ _ _ _ _ _ F F' C I C' I') as (Q1 & Q2 & Q3).
  destruct (DIFF _ _ _ _ E E' X) as [D|[D|D]]; contradiction.
Qed.
Print Assumptions C132_apart.

(** Two sinks that differ in their ids, created in the same second, on different files, taking turns. *)
Definition ex_m1 : life := ex_life (lit "app") (lit "a.b") 0 1 [lit "one"; lit "two"].
Definition ex_m2 : life := ex_life (lit "app") (lit "c") 0 2 [lit "three"].
Fixpoint ex_turns (a b : list micro) : list (nat * micro) :=
  match a, b with
  | x :: a', y :: b' => (0, x) :: (1, y) :: ex_turns a' b'
  | [], b => tag 1 b
  | a, [] => tag 0 a
  end.
Example C132_ex : complete [ex_m1; ex_m2] (ex_turns (ex_micros ex_m1) (ex_micros ex_m2)) /\
  apart (ex_turns (ex_micros ex_m1) (ex_micros ex_m2)) /\
  fit (l_env ex_m1) (l_prefix ex_m1) (l_dir ex_m1) (l_id ex_m1) (l_now ex_m1) /\
  (forall n, NoDup (touched (own n ex_both))) /\
  exists w, wrun (start (fun _ => lit "old")) (ex_turns (ex_micros ex_m1) (ex_micros ex_m2)) = Some w /\
    w_fs w 2 = header_text (lit "x x 04 00:00:00 2021") default_header ++ lit "D three" ++ [NL] ++ closing_text (lit "00:00:00 000000").
Proof.
  split; [ex_complete|]. split.
  { intros [|[|n]] [|[|n']] i; try reflexivity; vm_compute; intuition (try discriminate; subst; try discriminate; congruence). }
  split; [vm_compute; intuition discriminate|]. split.
  { intros [|[|n]]; vm_compute; repeat constructor; auto. }
  destruct (ex_known (wrun (start (fun _ => lit "old")) (ex_turns (ex_micros ex_m1) (ex_micros ex_m2))) 2 _ ltac:(vm_compute; reflexivity)) as (w & W & F).
  exists w. split; [exact W|]. rewrite F. vm_compute. reflexivity.
Qed.
