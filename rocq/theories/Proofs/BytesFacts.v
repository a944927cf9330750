(** Facts about the byte-string operations of Base/Bytes.v. *)
From Coq Require Import Ascii String List NArith ZArith Lia Bool.
From Verif.Base Require Import Bytes.
Import ListNotations.
Local Open Scope list_scope.
Local Ltac Zify.zify_post_hook ::= Z.div_mod_to_equations.

Lemma str_eqb_eq : forall a b, str_eqb a b = true <-> a = b.
Proof.
  induction a as [|x a IH]; destruct b as [|y b]; simpl; split; intro H; try discriminate; auto.
  - apply andb_prop in H as [H1 H2]. apply Ascii.eqb_eq in H1. apply IH in H2. congruence.
  - injection H as -> ->. rewrite Ascii.eqb_refl. simpl. now apply IH.
Qed.


Lemma mem_In : forall set c, mem c set = true <-> In c set.
Proof.
  induction set as [|x r IH]; simpl; intro c.
  - split; [discriminate|tauto].
  - destruct (Ascii.eqb_spec c x) as [->|n].
    + split; auto.
    + rewrite IH. split; [auto|]. intros [E|H]; [congruence|auto].
Qed.


Lemma size_app : forall a b, size (a ++ b) = (size a + size b)%N.
Proof. intros. unfold size. rewrite app_length. lia. Qed.

Lemma sz_small : forall n, (n < size_max)%N -> sz n = n.
Proof. intros n H. unfold sz. now apply N.mod_small. Qed.

(** ** c_str *)
Lemma c_str_id : forall s, ~ In NUL s <-> c_str s = s.
Proof.
  induction s as [|c r IH]; simpl.
  - tauto.
  - destruct (Ascii.eqb_spec c NUL) as [->|n].
    + split; intro H; [exfalso; apply H; auto | discriminate].
    + split; intro H.
      * f_equal. apply IH. tauto.
      * injection H as H. intros [E|E]; [congruence|]. now apply IH in H.
Qed.

Lemma c_str_no_nul : forall s, ~ In NUL (c_str s).
Proof.
  induction s as [|c r IH]; simpl; auto.
  destruct (Ascii.eqb_spec c NUL) as [->|n]; simpl; auto.
  intros [E|E]; congruence || auto.
Qed.

Lemma c_str_prefix : forall s, exists t, s = c_str s ++ t /\ (t = [] \/ exists t', t = NUL :: t').
Proof.
  induction s as [|c r [t [E D]]]; simpl.
  - exists []; auto.
  - destruct (Ascii.eqb_spec c NUL) as [->|n].
    + exists (NUL :: r). split; [reflexivity|]. right; eauto.
    + exists t. split; [simpl; congruence|auto].
Qed.

Lemma c_str_idem : forall s, c_str (c_str s) = c_str s.
Proof. intro s. apply c_str_id, c_str_no_nul. Qed.


(** ** find_last_of *)
Lemma last_of_from_none : forall set s i,
  last_of_from set s i = None <-> (forall c, In c s -> mem c set = false).
Proof.
  induction s as [|c r IH]; simpl; intro i.
  - split; [tauto|reflexivity].
  - destruct (last_of_from set r (S i)) eqn:E.
    + split; [discriminate|]. intro H.
      assert (last_of_from set r (S i) = None) by (apply IH; auto). congruence.
    + destruct (mem c set) eqn:M.
      * split; [discriminate|]. intro H. rewrite (H c) in M; auto. discriminate.
      * split; auto. intros _ d [<-|D]; auto. rewrite IH in E. auto.
Qed.

Lemma last_of_from_some : forall set s i k,
  last_of_from set s i = Some k ->
  exists p c q, s = p ++ c :: q /\ k = i + length p /\ mem c set = true /\
                (forall d, In d q -> mem d set = false).
Proof.
  induction s as [|c r IH]; simpl; intros i k H.
  - discriminate.
  - destruct (last_of_from set r (S i)) eqn:E.
    + injection H as ->. apply IH in E as (p & d & q & -> & -> & M & Q).
      exists (c :: p), d, q. simpl. repeat split; auto.
    + destruct (mem c set) eqn:M; [|discriminate]. injection H as <-.
      exists [], c, r. simpl. split; [reflexivity|]. split; [lia|]. split; [assumption|].
      exact (proj1 (last_of_from_none _ _ _) E).
Qed.

(** ** find *)
Lemma is_prefix_spec : forall p s, is_prefix p s = true <-> exists t, s = p ++ t.
Proof.
  induction p as [|x p IH]; simpl; intro s.
  - split; eauto.
  - destruct s as [|y s].
    + split; [discriminate|]. intros [t H]. discriminate.
    + rewrite andb_true_iff, Ascii.eqb_eq, IH. split.
      * intros [-> [t ->]]. eauto.
      * intros [t H]. injection H as -> ->. eauto.
Qed.

Lemma sub_from_some : forall p s i k,
  sub_from p s i = Some k ->
  exists a b, s = a ++ p ++ b /\ k = i + length a /\
   (forall a' b', s = a' ++ p ++ b' -> length a <= length a').
Proof.
  induction s as [|c r IH]; intros i k H.
  - cbn [sub_from] in H. destruct (is_prefix p []) eqn:E; [|discriminate]. injection H as <-.
    apply is_prefix_spec in E as [t E]. exists [], t. simpl. repeat split; auto. lia.
  - cbn [sub_from] in H. destruct (is_prefix p (c :: r)) eqn:E.
    + injection H as <-. apply is_prefix_spec in E as [t E]. exists [], t. simpl.
      repeat split; auto; lia.
    + apply IH in H as (a & b & -> & -> & M).
      exists (c :: a), b. simpl. repeat split; auto; try lia.
      intros [|x a'] b' E'; simpl in E'.
      * exfalso. assert (is_prefix p (c :: a ++ p ++ b) = true).
        { apply is_prefix_spec. eauto. } congruence.
      * injection E' as -> E'. apply M in E'. simpl. lia.
Qed.

Lemma sub_from_none : forall p s i, sub_from p s i = None <-> (forall a b, s <> a ++ p ++ b).
Proof.
  induction s as [|c r IH]; intros i; cbn [sub_from].
  - destruct (is_prefix p []) eqn:E.
    + split; [discriminate|]. apply is_prefix_spec in E as [t E]. intro H.
      exfalso; now apply (H [] t).
    + split; auto. intros _ a b H. symmetry in H. apply app_eq_nil in H as [-> H].
      apply app_eq_nil in H as [-> ->]. discriminate.
  - destruct (is_prefix p (c :: r)) eqn:E.
    + split; [discriminate|]. apply is_prefix_spec in E as [t E]. intro H.
      exfalso; now apply (H [] t).
    + rewrite IH. split; intros H a b K.
      * destruct a as [|x a]; simpl in K.
        -- assert (is_prefix p (c :: r) = true) by (apply is_prefix_spec; eauto). congruence.
        -- injection K as -> K. now apply (H a b).
      * apply (H (c :: a) b). simpl. congruence.
Qed.

(** ** decimal rendering *)
Definition is_digit (c : ascii) : bool := (48 <=? N_of_ascii c)%N && (N_of_ascii c <=? 57)%N.
Definition digit_val (c : ascii) : N := (N_of_ascii c - 48)%N.
Definition dec_val (s : str) : N := fold_left (fun a c => a * 10 + digit_val c)%N s 0%N.

Lemma N_of_ascii_digit : forall n, N_of_ascii (digit n) = (48 + n mod 10)%N.
Proof.
  intro n. unfold digit. apply N_ascii_embedding.
  assert (n mod 10 < 10)%N by (apply N.mod_lt; lia). lia.
Qed.

Lemma is_digit_digit : forall n, is_digit (digit n) = true.
Proof.
  intro n. unfold is_digit. rewrite N_of_ascii_digit.
  assert (n mod 10 < 10)%N by (apply N.mod_lt; lia).
  rewrite andb_true_iff, !N.leb_le. revert H. generalize (n mod 10)%N. intros x Hx. lia.
Qed.

Lemma digit_val_digit : forall n, digit_val (digit n) = (n mod 10)%N.
Proof. intro n. unfold digit_val. rewrite N_of_ascii_digit. generalize (n mod 10)%N. intro; lia. Qed.

Lemma fold_val_acc : forall s a,
  fold_left (fun a c => a * 10 + digit_val c)%N s a = (a * 10 ^ N.of_nat (length s) + dec_val s)%N.
Proof.
  unfold dec_val. induction s as [|c r IH]; intro a.
  - simpl. lia.
  - cbn [fold_left length]. rewrite IH. rewrite (IH (0 * 10 + digit_val c)%N).
    rewrite Nat2N.inj_succ, N.pow_succ_r'. lia.
Qed.

Lemma dec_val_cons : forall c s, dec_val (c :: s) = (digit_val c * 10 ^ N.of_nat (length s) + dec_val s)%N.
Proof. intros. unfold dec_val at 1. cbn [fold_left]. rewrite fold_val_acc. lia. Qed.

Lemma dec_val_app : forall a b, dec_val (a ++ b) = (dec_val a * 10 ^ N.of_nat (length b) + dec_val b)%N.
Proof. intros. unfold dec_val at 1. rewrite fold_left_app. now rewrite fold_val_acc. Qed.

(** specification of [dig]: it puts the digits of n in front of acc *)
Lemma dig_app : forall f n acc, dig f n acc = dig f n [] ++ acc.
Proof.
  induction f as [|f IH]; intros; simpl; auto.
  destruct (n / 10 =? 0)%N; auto.
  rewrite IH, (IH _ [digit n]). now rewrite <- app_assoc.
Qed.

Lemma dig_spec : forall f n, (n < 2 ^ N.of_nat f)%N -> (0 < f) ->
  dec_val (dig f n []) = n /\ (forall c, In c (dig f n []) -> is_digit c = true) /\
  dig f n [] <> [].
Proof.
  induction f as [|f IH]; intros n H L; [lia|].
  cbn [dig]. destruct (N.eqb_spec (n / 10) 0) as [E|E].
  - assert (n < 10)%N by (apply N.div_small_iff in E; lia).
    repeat split.
    + unfold dec_val; simpl. rewrite digit_val_digit. rewrite N.mod_small; lia.
    + intros c [<-|[]]. apply is_digit_digit.
    + discriminate.
  - assert (Hf : (n / 10 < 2 ^ N.of_nat f)%N).
    { apply N.div_lt_upper_bound; [lia|]. rewrite Nat2N.inj_succ, N.pow_succ_r' in H. lia. }
    assert (0 < f). { destruct f; [|lia]. simpl in Hf. lia. }
    destruct (IH _ Hf H0) as (V & D & NE). rewrite dig_app. repeat split.
    + rewrite dec_val_app. rewrite V. unfold dec_val; simpl. rewrite digit_val_digit.
      pose proof (N.div_mod n 10). lia.
    + intros c Hc. apply in_app_or in Hc as [Hc|[<-|[]]]; auto. apply is_digit_digit.
    + intro K. apply app_eq_nil in K as [_ K]. discriminate.
Qed.

Lemma dec_fuel : forall n, (n < 2 ^ N.of_nat (S (N.to_nat (N.log2 n))))%N.
Proof.
  intro n. rewrite Nat2N.inj_succ, N2Nat.id. destruct n as [|p].
  - simpl. lia.
  - apply N.log2_spec. lia.
Qed.

Lemma dec_val_dec : forall n, dec_val (dec n) = n.
Proof. intro n. unfold dec. apply (dig_spec _ n (dec_fuel n)). lia. Qed.

Lemma dec_digits : forall n c, In c (dec n) -> is_digit c = true.
Proof. intros n c. unfold dec. apply (dig_spec _ n (dec_fuel n)). lia. Qed.

Lemma dec_nonempty : forall n, dec n <> [].
Proof. intro n. unfold dec. apply (dig_spec _ n (dec_fuel n)). lia. Qed.

Lemma dec_inj : forall a b, dec a = dec b -> a = b.
Proof. intros a b H. rewrite <- (dec_val_dec a), <- (dec_val_dec b). now f_equal. Qed.

Lemma dig_length : forall f k n, (n < 10 ^ N.of_nat k)%N -> 0 < k -> length (dig f n []) <= k.
Proof.
  induction f as [|f IH]; intros k n H L; simpl; [lia|].
  destruct (N.eqb_spec (n / 10) 0) as [E|E]; simpl; [lia|].
  rewrite dig_app, app_length. simpl.
  destruct k as [|k]; [lia|].
  assert (Hk : (n / 10 < 10 ^ N.of_nat k)%N).
  { apply N.div_lt_upper_bound; [lia|]. rewrite Nat2N.inj_succ, N.pow_succ_r' in H. lia. }
  assert (0 < k). { destruct k; [|lia]. simpl in Hk. lia. }
  specialize (IH _ _ Hk H0). lia.
Qed.

Lemma dec_length : forall k n, (n < 10 ^ N.of_nat k)%N -> 0 < k -> length (dec n) <= k.
Proof. intros. now apply dig_length. Qed.

Lemma dec_val_bound : forall s, (forall c, In c s -> is_digit c = true) ->
  (dec_val s < 10 ^ N.of_nat (length s))%N.
Proof.
  induction s as [|c r IH]; intro H.
  - unfold dec_val; simpl. lia.
  - rewrite dec_val_cons. cbn [length]. rewrite Nat2N.inj_succ, N.pow_succ_r'.
    assert (digit_val c <= 9)%N.
    { specialize (H c (or_introl eq_refl)). unfold is_digit in H.
      apply andb_prop in H as [_ H]. apply N.leb_le in H. unfold digit_val. lia. }
    assert (dec_val r < 10 ^ N.of_nat (length r))%N by (apply IH; intros; apply H; now right).
    nia.
Qed.

Lemma dec_length_lower : forall k n, (10 ^ N.of_nat k <= n)%N -> k < length (dec n).
Proof.
  intros k n H.
  destruct (le_lt_dec (length (dec n)) k) as [L|]; auto.
  pose proof (dec_val_bound (dec n) (dec_digits n)) as B. rewrite dec_val_dec in B.
  assert (10 ^ N.of_nat (length (dec n)) <= 10 ^ N.of_nat k)%N.
  { apply N.pow_le_mono_r; lia. } lia.
Qed.

Lemma dec_val_repeat0 : forall k s, dec_val (repeat "0"%char k ++ s) = dec_val s.
Proof.
  induction k as [|k IH]; simpl; intro s; auto.
  rewrite dec_val_cons. rewrite IH. reflexivity.
Qed.


Lemma to_string_inj : forall a b, to_string a = to_string b -> a = b.
Proof.
  assert (M : forall n m, dec n <> "-"%char :: dec m).
  { intros n m E. pose proof (dec_digits n "-"%char) as D. rewrite E in D.
    specialize (D (or_introl eq_refl)). discriminate. }
  intros [|a|a] [|b|b]; cbn [to_string]; intro H; auto; try (exfalso; eapply M; eauto; fail);
    try (symmetry in H; exfalso; eapply M; eauto; fail).
  - apply dec_inj in H. discriminate.
  - apply dec_inj in H. discriminate.
  - apply dec_inj in H. congruence.
  - injection H as H. apply dec_inj in H. congruence.
Qed.

Lemma firstn_exact : forall (A : Type) (a b : list A), firstn (length a) (a ++ b) = a.
Proof. intros. rewrite firstn_app, Nat.sub_diag, firstn_all. simpl. apply app_nil_r. Qed.

Lemma skipn_exact : forall (A : Type) (a b : list A), skipn (length a) (a ++ b) = b.
Proof. intros. rewrite skipn_app, Nat.sub_diag, skipn_all. reflexivity. Qed.
