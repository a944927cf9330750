From Coq Require Import Ascii String List ZArith NArith Bool Lia.
From Verif.Base Require Import Bytes.
From Verif.Model Require Import TimeFmt FileName.
From Verif.Spec Require Import TimeSpec MessageSpec FileNameSpec.
From Verif.Proofs Require Import BytesFacts TimeFacts MessageFacts.
Import ListNotations.
Local Open Scope list_scope.


Lemma erase_if_erase_if : forall p q s, erase_if q (erase_if p s) = erase_if (fun c => p c || q c) s.
Proof.
  induction s as [|x s IH]; simpl; auto. destruct (p x); simpl; auto.
  destruct (q x); simpl; rewrite IH; auto.
Qed.

Lemma erase_if_without : forall p (drop : ascii -> Prop) s,
  (forall c, p c = true <-> drop c) -> without drop s (erase_if p s).
Proof.
  intros p drop s H. induction s as [|c s IH]; simpl; [constructor|].
  destruct (p c) eqn:E; constructor; auto; [now apply H|]. rewrite <- H. congruence.
Qed.


Definition drop_b (high : ascii -> bool) (c : ascii) : bool :=
  ((((isspace high c || Ascii.eqb c "/") || Ascii.eqb c "\") || Ascii.eqb c ".") || Ascii.eqb c ":").

Lemma erase_if_ext : forall p q s, (forall c, p c = q c) -> erase_if p s = erase_if q s.
Proof. intros p q s H. induction s as [|c s IH]; simpl; auto. rewrite H, IH. reflexivity. Qed.

Lemma drop_b_spec : forall high c, drop_b high c = true <-> dropped high c.
Proof.
  intros high c. unfold drop_b, dropped, isspace.
  assert (S : forall n, (n < 256)%nat -> c = ascii_of_nat n <-> N_of_ascii c = N.of_nat n).
  { intros n L. split; intro H.
    - subst. unfold N_of_ascii. rewrite <- (nat_ascii_embedding n) at 2 by assumption.
      unfold nat_of_ascii. rewrite N2Nat.id. reflexivity.
    - rewrite <- (ascii_N_embedding c), H. unfold ascii_of_nat. reflexivity. }
  destruct (N.ltb_spec 127 (N_of_ascii c)) as [L|L].
  - split.
    + intro H. right. split; auto.
      repeat (apply orb_prop in H as [H|H]); auto;
      apply Ascii.eqb_eq in H; subst; vm_compute in L; discriminate.
    + intros [H|[_ H]]; [|rewrite H; reflexivity].
      exfalso. apply in_map_iff in H as (n & E & I). subst c.
      assert (B : (n < 128)%nat) by (simpl in I; lia).
      assert (N_of_ascii (ascii_of_nat n) = N.of_nat n) by (apply S; [lia|reflexivity]). lia.
  - rewrite !orb_true_iff, !Ascii.eqb_eq, andb_true_iff, !N.eqb_eq, !N.leb_le. split.
    + intro H. left. apply in_map_iff.
      destruct H as [[[[[H|H]|H]|H]|H]|H]; [| |exists 47%nat|exists 92%nat|exists 46%nat|exists 58%nat];
        try (split; [now rewrite H|simpl; tauto]).
      * exists 32%nat. split; [symmetry; apply S; [lia|exact H]|simpl; tauto].
      * exists (N.to_nat (N_of_ascii c)). split; [symmetry; apply S; lia|].
        assert (K : N.to_nat (N_of_ascii c) = 9 \/ N.to_nat (N_of_ascii c) = 10 \/ N.to_nat (N_of_ascii c) = 11 \/
                    N.to_nat (N_of_ascii c) = 12 \/ N.to_nat (N_of_ascii c) = 13) by lia.
        simpl. lia.
    + intros [H|[H _]]; [|lia]. apply in_map_iff in H as (n & E & I).
      simpl in I. repeat (destruct I as [<-|I]; [subst c; vm_compute; intuition congruence|]). destruct I.
Qed.

Lemma illegal_spec : forall c, mem c illegal_characters = true <-> illegal c.
Proof. intro c. rewrite mem_In. unfold illegal, illegal_characters. simpl. tauto. Qed.

Lemma first_of_from_none : forall set s i,
  first_of_from set s i = None <-> (forall c, In c s -> mem c set = false).
Proof.
  induction s as [|c r IH]; simpl; intro i; [split; auto; contradiction|].
  destruct (mem c set) eqn:E.
  - split; [discriminate|]. intro H. rewrite H in E by auto. discriminate.
  - rewrite IH. split; intros H; [intros d [<-|I]; auto|auto].
Qed.

Lemma first_of_from_bound : forall set s i k, first_of_from set s i = Some k -> k < i + length s.
Proof.
  induction s as [|c r IH]; simpl; intros i k H; [discriminate|].
  destruct (mem c set); [injection H as <-; lia|]. apply IH in H. lia.
Qed.

Lemma isValid_spec : forall s, (size s < npos)%N ->
  isValidFilename s = true <-> s <> [] /\ forall c, In c s -> ~ illegal c.
Proof.
  intros s B. unfold isValidFilename, find_first_of.
  destruct (first_of_from illegal_characters s 0) as [k|] eqn:E.
  - pose proof (first_of_from_bound _ _ _ _ E) as L. unfold size in B.
    destruct (N.eqb_spec (N.of_nat k) npos) as [Q|Q]; [lia|]. cbn [negb]. split; [discriminate|].
    intros [_ H]. exfalso. assert (N : first_of_from illegal_characters s 0 = None); [|congruence].
    apply first_of_from_none. intros c I. specialize (H c I).
    destruct (mem c illegal_characters) eqn:M; auto. now apply illegal_spec in M.
  - rewrite first_of_from_none in E. rewrite N.eqb_refl. cbn [negb].
    destruct s; split; intro H; try discriminate; try (destruct H; congruence).
    split; [discriminate|]. intros c I L. apply illegal_spec in L. rewrite E in L by assumption. discriminate.
Qed.

(** ** paths *)
Lemma split_slash_nonempty : forall s, split_slash s <> [].
Proof.
  induction s as [|c s IH]; simpl; [discriminate|].
  destruct (Ascii.eqb c "/"); [discriminate|]. destruct (split_slash s); discriminate.
Qed.

Lemma split_slash_app : forall a b, split_slash (a ++ "/"%char :: b) = split_slash a ++ split_slash b.
Proof.
  induction a as [|c a IH]; intro b; simpl; auto.
  destruct (Ascii.eqb c "/"); simpl; rewrite IH; auto.
  pose proof (split_slash_nonempty a). destruct (split_slash a); [congruence|]. reflexivity.
Qed.

Lemma split_slash_none : forall s, ~ In "/"%char s -> split_slash s = [s].
Proof.
  induction s as [|c s IH]; simpl; intro H; auto.
  destruct (Ascii.eqb_spec c "/") as [->|n]; [tauto|]. rewrite IH by tauto. reflexivity.
Qed.

Lemma comps_trailing : forall n a, filter matters (split_slash (a ++ repeat "/"%char n)) = filter matters (split_slash a).
Proof.
  induction n as [|n IH]; intro a; simpl; [now rewrite app_nil_r|].
  replace (a ++ "/"%char :: repeat "/"%char n) with ((a ++ ["/"%char]) ++ repeat "/"%char n) by now rewrite <- app_assoc.
  rewrite IH. rewrite split_slash_app. simpl. rewrite filter_app. simpl. apply app_nil_r.
Qed.

Lemma removelast_snoc : forall (A : Type) (l : list A) x, removelast (l ++ [x]) = l.
Proof. intros. rewrite removelast_app by discriminate. simpl. apply app_nil_r. Qed.

Lemma contains_end_snoc : forall s c, contains_end (s ++ [c]) = (Ascii.eqb c "/" || Ascii.eqb c " ").
Proof.
  intros. unfold contains_end. destruct (s ++ [c]) eqn:E; [destruct s; discriminate|].
  rewrite <- E, last_last. reflexivity.
Qed.

Lemma trim_slashes : forall n s f, n <= f -> contains_end s = false -> trim_loop f (s ++ repeat "/"%char n) = s.
Proof.
  induction n as [|n IH]; intros s f L E.
  - simpl. rewrite app_nil_r. destruct f; auto. simpl. now rewrite E.
  - destruct f as [|f]; [lia|].
    assert (R : s ++ repeat "/"%char (S n) = (s ++ repeat "/"%char n) ++ ["/"%char]).
    { rewrite <- app_assoc. f_equal. change (repeat "/"%char (S n)) with ("/"%char :: repeat "/"%char n). apply repeat_cons. }
    rewrite R. cbn [trim_loop]. rewrite contains_end_snoc, removelast_snoc. cbn. apply IH; auto; lia.
Qed.

Lemma map_backslash_id : forall s, ~ In "\"%char s -> map (fun c => if Ascii.eqb c "\" then "/"%char else c) s = s.
Proof.
  induction s as [|c s IH]; simpl; intro H; auto.
  destruct (Ascii.eqb_spec c "\") as [->|n]; [tauto|]. rewrite IH by tauto. reflexivity.
Qed.

Lemma pathSanityFix_plain : forall dir name, plain_dir dir ->
  exists d, pathSanityFix dir name = match d with [] => name | _ => d ++ "/"%char :: name end /\
    ((dir = [] /\ d = []) \/ (d <> [] /\ exists n, dir = d ++ repeat "/"%char n)).
Proof.
  intros dir name [B H]. unfold pathSanityFix. rewrite map_backslash_id by assumption.
  destruct H as [->|(d & c & n & -> & N1 & N2)].
  - exists []. simpl. auto.
  - exists (d ++ [c]).
    replace (d ++ c :: repeat "/"%char n) with ((d ++ [c]) ++ repeat "/"%char n) by now rewrite <- app_assoc.
    rewrite trim_slashes.
    + split.
      * destruct (d ++ [c]) eqn:E; [destruct d; discriminate|]. rewrite <- E, <- app_assoc. reflexivity.
      * right. split; [destruct d; discriminate|]. now exists n.
    + rewrite app_length, repeat_length. lia.
    + rewrite contains_end_snoc. apply orb_false_iff. now rewrite !Ascii.eqb_neq.
Qed.

Lemma matters_first : forall c r, c <> "."%char -> matters (c :: r) = true.
Proof.
  intros c r H. unfold matters. cbn [str_eqb orb lit list_ascii_of_string]. apply Ascii.eqb_neq in H.
  cbn. rewrite H. reflexivity.
Qed.

Lemma inside_plain : forall dir name, plain_dir dir -> ~ In "/"%char name -> matters name = true ->
  inside (pathSanityFix dir name) dir name.
Proof.
  intros dir name P N M. destruct (pathSanityFix_plain dir name P) as (d & -> & [[-> ->]|(D & n & ->)]).
  - unfold inside, place. simpl. rewrite split_slash_none by assumption. simpl. rewrite M.
    destruct name as [|c name]; [discriminate|]. simpl in *. f_equal.
    apply Ascii.eqb_neq. tauto.
  - destruct d as [|c d]; [congruence|]. unfold inside, place. cbn [fst snd].
    rewrite split_slash_app, filter_app, comps_trailing, (split_slash_none name) by assumption.
    simpl filter at 2. rewrite M. reflexivity.
Qed.

(** ** file names *)
Lemma strftime_file : forall ext t, tm_ok t -> strftime ext file_name_time_formatted t = file_stamp t.
Proof.
  intros ext t O. unfold tm_ok in O. unfold file_name_time_formatted, file_stamp.
  rewrite <- !two_padded by lia. rewrite <- year_padded by lia. cbn. now rewrite !app_nil_r.
Qed.

Lemma file_stamp_length : forall t, tm_ok t -> length (file_stamp t) = 15.
Proof.
  intros t O. unfold tm_ok in O. unfold file_stamp. rewrite !app_length, !padded_length by (simpl; lia). reflexivity.
Qed.

Lemma file_stamp_chars : forall t c, In c (file_stamp t) -> is_digit c = true \/ c = "-"%char.
Proof.
  intros t c H. unfold file_stamp in H.
  do 3 (apply in_app_or in H as [H|H]; [left; eapply padded_digits; eassumption|]).
  apply in_app_or in H as [H|H]; [destruct H as [<-|[]]; now right|].
  do 2 (apply in_app_or in H as [H|H]; [left; eapply padded_digits; eassumption|]).
  left. eapply padded_digits; eassumption.
Qed.

Lemma file_stamp_not : forall t c, is_digit c = false -> c <> "-"%char -> ~ In c (file_stamp t).
Proof. intros t c D N H. apply file_stamp_chars in H as [H|H]; congruence. Qed.

Lemma formatted_file : forall k now, tm_ok (k_local k (Z.quot now 1000000000)) ->
  formatted k now file_name_time_formatted = FOk (file_stamp (k_local k (Z.quot now 1000000000))).
Proof.
  intros k now O. unfold formatted, localtime_formatted.
  change (localtime_formatted_fractions now file_name_time_formatted) with (FOk file_name_time_formatted).
  cbv iota. change (c_str file_name_time_formatted) with file_name_time_formatted.
  unfold put_time. rewrite strftime_file by assumption. rewrite file_stamp_length by assumption.
  cbn [Nat.eqb Nat.leb orb]. f_equal. apply c_str_id. now apply file_stamp_not.
Qed.

Lemma createLogFileName_spec : forall k now p id, tm_ok (k_local k (Z.quot now 1000000000)) ->
  createLogFileName k now p id = FOk (log_name p id (k_local k (Z.quot now 1000000000))).
Proof.
  intros k now p id O. unfold createLogFileName. rewrite formatted_file by assumption.
  unfold log_name. destruct id as [|c id]; [reflexivity|]. cbn [str_eqb]. now rewrite <- !app_assoc.
Qed.

Lemma file_stamp_inj : forall t t', tm_ok t -> tm_ok t' -> file_stamp t = file_stamp t' -> t = t'.
Proof.
  intros t t' O O' E. unfold tm_ok in O, O'. unfold file_stamp in E.
  assert (P : forall w a b r r', 0 < w -> (a < 10 ^ N.of_nat w)%N -> (b < 10 ^ N.of_nat w)%N ->
     padded w a ++ r = padded w b ++ r' -> a = b /\ r = r').
  { intros w a b r r' W A B H. apply app_inj_len in H as [H ->]; [|now rewrite !padded_length].
    split; auto. now apply padded_eq in H. }
  apply P in E as [Y E]; try (simpl; lia). apply P in E as [M E]; try (simpl; lia).
  apply P in E as [D E]; try (simpl; lia). injection E as E.
  apply P in E as [H E]; try (simpl; lia). apply P in E as [I E]; try (simpl; lia).
  apply padded_eq in E. destruct t, t'; simpl in *. f_equal; lia.
Qed.

Lemma log_name_inj : forall p id t p' id' t', tm_ok t -> tm_ok t' -> ~ In "."%char p -> ~ In "."%char p' ->
  log_name p id t = log_name p' id' t' -> p = p' /\ id = id' /\ t = t'.
Proof.
  intros p id t p' id' t' O O' P P' E.
  assert (X : forall p id t, exists r, log_name p id t = p ++ "."%char :: r /\
     r = (if str_eqb id [] then [] else id ++ lit ".") ++ file_stamp t ++ lit ".log").
  { intros. unfold log_name. destruct (str_eqb id0 []); eexists; (split; [reflexivity|]); rewrite <- ?app_assoc; reflexivity. }
  destruct (X p id t) as (r & E1 & R). destruct (X p' id' t') as (r' & E2 & R'). clear X.
  rewrite E1, E2 in E. apply split_first in E as [-> E]; auto. split; auto. clear E1 E2. rewrite R, R' in E. clear R R' r r'.
  pose proof (file_stamp_length _ O) as L. pose proof (file_stamp_length _ O') as L'.
  pose proof (f_equal (@length ascii) E) as LE. rewrite !app_length, L, L' in LE.
  apply app_inj_len in E as [E E']; [|lia]. apply app_inv_tail in E'. apply file_stamp_inj in E' as ->; auto. split; auto.
  destruct id as [|c id], id' as [|c' id']; cbn [str_eqb] in E; auto; try discriminate.
  now apply app_inv_tail in E.
Qed.
