(** C50-C52: names of log files.  Model: Model/FileName.v; specification: Spec/FileNameSpec.v. *)
From Coq Require Import Ascii String List ZArith NArith Bool Lia.
From Verif.Base Require Import Bytes.
From Verif.Model Require Import Levels TimeFmt Message FileName FileSink.
From Verif.Spec Require Import TimeSpec FileNameSpec.
From Verif.Proofs Require Import BytesFacts TimeFacts FileNameFacts FileSinkFacts.
Import ListNotations.
Local Open Scope list_scope.

(** ** C50 *)
(** The sanitised prefix is the prefix without the dropped characters if that is non-empty and free of
    illegal characters, and empty otherwise. *)
Theorem C50_sanitised_prefix : forall high p, (size p < npos)%N ->
  exists q, without (dropped high) p q /\
    ((q <> [] /\ (forall c, In c q -> ~ illegal c) /\ prefixSanityFix high p = q) \/
     ((q = [] \/ exists c, In c q /\ illegal c) /\ prefixSanityFix high p = [])).
Proof.
  intros high p B. exists (erase_if (drop_b high) p).
  split; [apply erase_if_without, drop_b_spec|].
  unfold prefixSanityFix. rewrite !erase_if_erase_if.
  match goal with |- context [negb (isValidFilename (erase_if ?g p))] =>
    rewrite (erase_if_ext g (drop_b high) p) by (intro c; unfold drop_b; rewrite !orb_assoc; reflexivity) end.
  assert (BB : (size (erase_if (drop_b high) p) < npos)%N).
  { assert (L : length (erase_if (drop_b high) p) <= length p).
    { clear. induction p as [|c p IH]; simpl; auto. destruct (drop_b high c); simpl; lia. }
    unfold size in *. lia. }
  destruct (isValidFilename (erase_if (drop_b high) p)) eqn:V; cbn [negb].
  - apply isValid_spec in V as [N I]; auto.
  - right. split; auto. destruct (erase_if (drop_b high) p) as [|c r] eqn:E; auto. right.
    destruct (first_of_from illegal_characters (c :: r) 0) as [k|] eqn:F.
    + destruct (existsb (fun x => mem x illegal_characters) (c :: r)) eqn:X.
      * apply existsb_exists in X as (x & I & X). exists x. split; auto. now apply illegal_spec.
      * exfalso. assert (F' : first_of_from illegal_characters (c :: r) 0 = None); [|congruence].
        apply first_of_from_none. intros x I. destruct (mem x illegal_characters) eqn:M; auto.
        assert (existsb (fun x => mem x illegal_characters) (c :: r) = true); [|congruence].
        apply existsb_exists. eauto.
    + exfalso. assert (isValidFilename (c :: r) = true); [|congruence].
      apply isValid_spec; auto. split; [discriminate|]. intros x I L. apply illegal_spec in L.
      rewrite first_of_from_none in F. rewrite F in L by assumption. discriminate.
Qed.
Print Assumptions C50_sanitised_prefix.

(** The file sink starts exactly if what is left of the prefix is a legal name; otherwise it aborts.  The
    prefix it works with contains no dropped and no illegal character. *)
Theorem C50_sink_refuses_or_is_safe : forall e high p dir id every now r1 r2, (size p < npos)%N ->
  exists q, without (dropped high) p q /\
   ((q = [] \/ exists c, In c q /\ illegal c) ->
      FileSink_ctor e high p dir id every now r1 r2 = Abort) /\
   (forall s ms, FileSink_ctor e high p dir id every now r1 r2 = Ok (s, ms) ->
      _log_prefix_backup s = q /\ q <> [] /\ (forall c, In c q -> ~ illegal c /\ ~ dropped high c)).
Proof.
  intros e high p dir id every now r1 r2 B. destruct (C50_sanitised_prefix high p B) as (q & W & H).
  exists q. split; auto. split.
  - intro X. destruct H as [(N & I & _)|[_ E]].
    + exfalso. destruct X as [->|(c & J & L)]; [congruence|]. now apply (I c).
    + unfold FileSink_ctor. rewrite E. reflexivity.
  - intros s ms C. unfold FileSink_ctor in C. destruct H as [(N & I & E)|[_ E]]; rewrite E in C; [|discriminate].
    destruct (negb (isValidFilename q)); [discriminate|]. apply obind_ok in C as (n & _ & C).
    split; [|split; auto].
    + destruct r1; [injection C as <- _; reflexivity|]. destruct r2; [injection C as <- _; reflexivity|].
      destruct (e_debug e); [discriminate|]. injection C as <- _. reflexivity.
    + intros c J. split; auto. clear -W J. induction W; simpl in J; try tauto. destruct J as [<-|J]; auto.
Qed.
Print Assumptions C50_sink_refuses_or_is_safe.

Example C50_ex :
  prefixSanityFix (fun _ => false) (lit " my. app/na\me:1" ++ [TAB]) = lit "myappname1" /\
  prefixSanityFix (fun _ => false) (lit "a#b") = [] /\ prefixSanityFix (fun _ => false) (lit " ./") = [] /\
  prefixSanityFix (fun _ => false) [ascii_of_nat 200; NUL] = [ascii_of_nat 200; NUL].
Proof. repeat split; vm_compute; reflexivity. Qed.

(** ** C51 *)
(** a clock for the examples *)
Definition ex_clock : clock := mkClock true (fun _ _ => lit "x") (fun s => mkTm (s mod 60) ((s / 60) mod 60) ((s / 3600) mod 24) 4 2 121).

(** The directory named is not always the one used: root, a blank at the end, a backslash, a logger id with
    a slash. *)
Theorem C51_refuted :
  exists name, createLogFileName ex_clock 0 (lit "app") (lit "id") = FOk name /\
    ~ inside (pathSanityFix (lit "/") name) (lit "/") name /\
    ~ inside (pathSanityFix (lit "/logs ") name) (lit "/logs ") name /\
    ~ inside (pathSanityFix (lit "a\b") name) (lit "a\b") name /\
  exists name', createLogFileName ex_clock 0 (lit "app") (lit "x/y") = FOk name' /\
    ~ inside (pathSanityFix (lit "/logs") name') (lit "/logs") name'.
Proof.
  eexists. split; [vm_compute; reflexivity|]. do 3 (split; [vm_compute; discriminate|]).
  eexists. split; [vm_compute; reflexivity|]. vm_compute. discriminate.
Qed.
Print Assumptions C51_refuted.

(** In all other cases the file lies directly inside the directory.  [plain_dir]: no backslash, and empty or
    with a last character other than slash or blank in front of its trailing slashes. *)
Theorem C51_inside_the_directory_partial : forall e high p dir id every now r1 r2 s ms,
  (size p < npos)%N ->
  plain_dir dir -> ~ In "/"%char id -> tm_ok (k_local (clock_of e) (Z.quot now 1000000000)) ->
  FileSink_ctor e high p dir id every now (Some r1) r2 = Ok (s, ms) ->
  exists name, createLogFileName (clock_of e) now (_log_prefix_backup s) id = FOk name /\
    fileName s = pathSanityFix dir name /\ inside (fileName s) dir name /\
    (~ In NUL p -> ~ In NUL dir -> ~ In NUL id -> ms = [MOpen (fileName s) (Some r1); MMove]).
Proof.
  intros e high p dir id every now r1 r2 s ms B P I T C.
  destruct (C50_sink_refuses_or_is_safe e high p dir id every now (Some r1) r2 B) as (q & W & _ & Q).
  destruct (Q _ _ C) as (QE & QN & QI). rewrite QE.
  rewrite createLogFileName_spec by assumption. eexists. split; [reflexivity|].
  unfold FileSink_ctor in C. destruct (negb _) eqn:V; [discriminate|]. apply obind_ok in C as (n & N & C).
  injection C as S M. assert (PE : prefixSanityFix high p = q) by (rewrite <- S in QE; exact QE).
  rewrite PE in N. rewrite createLogFileName_spec in N by assumption. injection N as <-.
  rewrite <- S. cbn [fileName _log_file_with_path]. unfold fileName. cbn [_log_file_with_path].
  set (t := k_local _ _) in *. split; [reflexivity|]. split.
  - apply inside_plain; auto.
    + unfold log_name. intro H.
      assert (SL : ~ In "/"%char q). { intro J. apply QI in J as [_ J]. apply J. left. simpl. tauto. }
      assert (ST : ~ In "/"%char (file_stamp t)) by (apply file_stamp_not; [reflexivity|discriminate]).
      destruct (str_eqb id []);
      repeat (apply in_app_or in H as [H|H]; [auto; simpl in H; intuition discriminate|]); simpl in H; intuition discriminate.
    + destruct q as [|c q]; [congruence|].
      assert (c <> "."%char). { intros ->. destruct (QI "."%char) as [_ J]; [simpl; auto|]. apply J. left. simpl. tauto. }
      unfold log_name. destruct (str_eqb id []); apply matters_first; assumption.
  - intros N1 N2 N3. rewrite <- M. do 3 f_equal. apply c_str_id.
    assert (NQ : ~ In NUL q).
    { intro J. apply N1. clear -W J. induction W; simpl in *; tauto. }
    assert (NN : ~ In NUL (log_name q id t)).
    { unfold log_name. assert (ST : ~ In NUL (file_stamp t)) by (apply file_stamp_not; [reflexivity|discriminate]). intro H.
      destruct (str_eqb id []);
      repeat (apply in_app_or in H as [H|H]; [auto; simpl in H; intuition discriminate|]); simpl in H; intuition discriminate. }
    change (e_local e (Z.quot now 1000000000)) with t.
    destruct (pathSanityFix_plain dir (log_name q id t) P) as (d & -> & DD).
    assert (ND : ~ In NUL d). { destruct DD as [[_ ->]|(_ & k & ->)]; [intros []|]. intro J. apply N2. apply in_or_app. auto. }
    destruct d; auto. intro H. apply in_app_or in H as [H|[H|H]]; auto. discriminate.
Qed.
Print Assumptions C51_inside_the_directory_partial.

(** Otherwise it never does: for a name without slashes, exactly the plain directories work. *)
Definition ncount (x : ascii) (s : str) : nat := count_occ Ascii.ascii_dec s x.
Lemma ncount_comps : forall x s, x <> "/"%char -> x <> "."%char -> ncount x (concat (List.filter matters (split_slash s))) = ncount x s.
Proof.
  intros x s X1 X2.
  assert (A : forall l, ncount x (concat (List.filter matters l)) = ncount x (concat l)).
  { induction l as [|c l IH]; [reflexivity|]. cbn [List.filter concat]. unfold ncount in *. destruct (matters c) eqn:M.
    - cbn [concat]. rewrite !count_occ_app. now rewrite IH.
    - rewrite count_occ_app, IH. unfold matters in M. apply negb_false_iff, orb_true_iff in M as [M|M]; apply str_eqb_eq in M; subst c; [reflexivity|].
      cbn [lit list_ascii_of_string]. rewrite count_occ_cons_neq by congruence. reflexivity. }
  rewrite A. clear A. induction s as [|c s IH]; [reflexivity|]. cbn [split_slash]. destruct (Ascii.eqb_spec c "/") as [->|N].
  - cbn [concat app]. rewrite IH. unfold ncount. rewrite count_occ_cons_neq; auto.
  - destruct (split_slash s) as [|y l] eqn:E; [now apply split_slash_nonempty in E|]. cbn [concat app]. unfold ncount in *. cbn [concat] in IH. cbn [app count_occ]. rewrite IH. reflexivity.
Qed.
Lemma trim_shape : forall f s, length s <= f -> exists t, s = trim_loop f s ++ t /\ contains_end (trim_loop f s) = false /\ Forall (fun c => c = "/"%char \/ c = " "%char) t.
Proof.
  induction f as [|f IH]; intros s L.
  - destruct s; [|cbn in L; lia]. exists []. repeat split; constructor.
  - cbn [trim_loop]. destruct (contains_end s) eqn:E; [|exists []; rewrite app_nil_r; auto].
    destruct s as [|c0 s0]; [discriminate|]. destruct (exists_last (l := c0 :: s0)) as (s & c & X); [discriminate|]. rewrite X in *. clear c0 s0 X.
    rewrite removelast_snoc. rewrite contains_end_snoc in E. rewrite app_length in L. cbn [length] in L.
    destruct (IH s) as (t & T1 & T2 & T3); [lia|]. exists (t ++ [c]). split; [|split; [exact T2|]].
    + rewrite T1 at 1. now rewrite app_assoc.
    + apply Forall_app. split; [exact T3|]. constructor; [|constructor]. apply orb_true_iff in E as [E|E]; apply Ascii.eqb_eq in E; auto.
Qed.
Lemma inside_only_plain : forall dir name, ~ In "/"%char name -> matters name = true -> inside (pathSanityFix dir name) dir name -> plain_dir dir.
Proof.
  intros dir name N M I. unfold pathSanityFix in I. set (u := map _ dir) in I.
  destruct (trim_shape (length u) u (le_n _)) as (t & T1 & T2 & T3). set (d := trim_loop (length u) u) in *.
  assert (C : List.filter matters (split_slash (match d with [] => [] | _ => d ++ lit "/" end ++ name)) = List.filter matters (split_slash d) ++ [name]).
  { destruct d as [|c d0]; [cbn [app]; rewrite split_slash_none by assumption; cbn; now rewrite M|]. rewrite <- app_assoc. cbn [lit list_ascii_of_string].
    change (["/"%char] ++ name) with ("/"%char :: name). rewrite split_slash_app, filter_app, (split_slash_none name) by assumption. cbn [List.filter]. now rewrite M. }
  unfold inside, place in I. cbn [fst snd] in I. rewrite C in I. injection I as AB I. apply app_inv_tail in I.
  assert (NB : ~ In "\"%char u). { unfold u. rewrite in_map_iff. intros (c & E & _). destruct (Ascii.eqb_spec c "\"); [discriminate|congruence]. }
  assert (B : ~ In "\"%char dir).
  { intro J. apply (count_occ_In Ascii.ascii_dec) in J. change (0 < ncount "\" dir) in J. rewrite <- ncount_comps, <- I, ncount_comps in J by discriminate.
    apply NB. rewrite T1. apply in_or_app. left. apply (count_occ_In Ascii.ascii_dec). exact J. }
  assert (U : u = dir) by (apply map_backslash_id; exact B). clearbody d. rewrite U in T1. clear NB. clearbody u. clear U u.
  assert (S : ncount " " t = 0).
  { assert (X : ncount " " dir = ncount " " d) by (rewrite <- (ncount_comps " " dir), <- I, ncount_comps by discriminate; reflexivity).
    unfold ncount in X. rewrite T1 in X at 1. rewrite count_occ_app in X. unfold ncount. lia. }
  assert (TS : t = repeat "/"%char (length t)).
  { clear -T3 S. induction T3 as [|c t H _ IH]; [reflexivity|]. cbn [length repeat]. destruct H as [->| ->].
    - unfold ncount in *. rewrite count_occ_cons_neq in S by discriminate. f_equal. now apply IH.
    - unfold ncount in S. rewrite count_occ_cons_eq in S by reflexivity. discriminate. }
  split; [exact B|]. rewrite TS in T1. destruct d as [|c0 d0].
  - destruct t as [|c1 t]; [left; exact T1|]. exfalso. rewrite T1 in AB. cbn in AB. destruct name as [|c name]; [discriminate|].
    cbn in AB. apply N. left. now apply Ascii.eqb_eq.
  - right. destruct (exists_last (l := c0 :: d0)) as (a & c & X); [discriminate|]. rewrite X in *. exists a, c, (length t). split; [rewrite T1, <- app_assoc; reflexivity|].
    rewrite contains_end_snoc in T2. apply orb_false_iff in T2 as [X1 X2]. split; now apply Ascii.eqb_neq.
Qed.
Theorem C51_exactly_partial : forall dir name, ~ In "/"%char name -> matters name = true ->
  (inside (pathSanityFix dir name) dir name <-> plain_dir dir).
Proof. intros dir name N M. split; [now apply inside_only_plain|]. intro P. now apply inside_plain. Qed.
Print Assumptions C51_exactly_partial.

Definition ex_env : env := mkEnv true (fun _ _ => lit "x") (k_local ex_clock) 0 0 (fun _ => lit "1") (fun _ _ => FOk (lit "D ")).
Example C51_ex : plain_dir (lit "/var/log//") /\ plain_dir [] /\ plain_dir (lit "..") /\
  tm_ok (k_local (clock_of ex_env) 7) /\
  exists s ms, FileSink_ctor ex_env (fun _ => false) (lit "a.b") (lit "/var/log//") (lit "id") 1 7 (Some 3) None = Ok (s, ms) /\
    fileName s = lit "/var/log/ab.id.20210304-000000.log" /\
    place (fileName s) = (true, [lit "var"; lit "log"; lit "ab.id.20210304-000000.log"]).
Proof.
  split; [split; [vm_compute; intuition discriminate|right; exists (lit "/var/lo"), "g"%char, 2; vm_compute; intuition discriminate]|].
  split; [split; [intros []|now left]|].
  split; [split; [vm_compute; intuition discriminate|right; exists (lit "."), "."%char, 0; vm_compute; intuition discriminate]|].
  split; [vm_compute; intuition discriminate|].
  eexists. eexists. split; [vm_compute; reflexivity|]. vm_compute. auto.
Qed.

(** ** C52 *)
Theorem C52_name_layout : forall k now p id, tm_ok (k_local k (now / 10^9)%Z) -> (0 <= now)%Z ->
  createLogFileName k now p id = FOk (log_name p id (k_local k (now / 10^9)%Z)) /\
  length (file_stamp (k_local k (now / 10^9)%Z)) = 15.
Proof.
  intros k now p id O P. change (10^9)%Z with 1000000000%Z in *. rewrite <- Z.quot_div_nonneg in * by lia.
  split; [now apply createLogFileName_spec|now apply file_stamp_length].
Qed.
Print Assumptions C52_name_layout.

(** With a dot-free prefix (a sink removes the dots, C50) the name determines prefix, id and the second of creation,
    whatever the id; in particular files created at different local seconds have different names. *)
Theorem C52_name_can_be_read_back : forall p id t p' id' t', tm_ok t -> tm_ok t' ->
  ~ In "."%char p -> ~ In "."%char p' ->
  log_name p id t = log_name p' id' t' -> p = p' /\ id = id' /\ t = t'.
Proof. exact log_name_inj. Qed.
Print Assumptions C52_name_can_be_read_back.

Theorem C52_different_seconds_different_names : forall p id t t', tm_ok t -> tm_ok t' -> t <> t' ->
  log_name p id t <> log_name p id t'.
Proof.
  intros p id t t' O O' N E. apply N. unfold log_name in E.
  destruct (str_eqb id []); rewrite ?app_assoc in E; apply app_inv_tail in E;
  apply app_inv_head in E; now apply file_stamp_inj.
Qed.
Print Assumptions C52_different_seconds_different_names.

Example C52_ex :
  createLogFileName ex_clock 45296000000000%Z (lit "app") (lit "g3log") = FOk (lit "app.g3log.20210304-123456.log") /\
  createLogFileName ex_clock 45296000000000%Z (lit "app") [] = FOk (lit "app.20210304-123456.log") /\
  tm_ok (k_local ex_clock 45296).
Proof. split; [vm_compute; reflexivity|]. split; [vm_compute; reflexivity|]. vm_compute. intuition discriminate. Qed.

(** When clocks are set back (here: 3 o'clock summer time to 2 o'clock on 29 October 2023, offset +2 h and then
    +1 h, seconds counted from midnight UTC) two different seconds do get the same name. *)
Definition ex_fall_back : clock := mkClock true (fun _ _ => [])
  (fun s => let l := (s + if s <? 3600 then 7200 else 3600)%Z in mkTm (l mod 60) ((l / 60) mod 60) ((l / 3600) mod 24) 29 9 123).
Example C52_ex_repeated_hour :
  createLogFileName ex_fall_back 600000000000%Z (lit "app") [] = FOk (lit "app.20231029-021000.log") /\
  createLogFileName ex_fall_back 4200000000000%Z (lit "app") [] = FOk (lit "app.20231029-021000.log").
Proof. split; vm_compute; reflexivity. Qed.
