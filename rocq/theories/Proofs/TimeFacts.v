(** Lemmas about Model/TimeFmt.v. *)
From Coq Require Import Ascii String List ZArith NArith Bool Lia.
From Verif.Base Require Import Bytes.
From Verif.Model Require Import TimeFmt.
From Verif.Spec Require Import TimeSpec.
From Verif.Proofs Require Import BytesFacts.
Import ListNotations.
Local Open Scope list_scope.
Local Ltac Zify.zify_post_hook ::= Z.to_euclidean_division_equations.

Lemma to_string_nonneg : forall z, (0 <= z)%Z -> to_string z = dec (Z.to_N z).
Proof. intros [|p|p] H; cbn [to_string Z.to_N]; auto. lia. Qed.

Lemma sz_sub_small : forall a b, (b <= a)%N -> (a < size_max)%N -> sz_sub a b = (a - b)%N.
Proof.
  intros a b H K. unfold sz_sub, sz.
  replace (a + size_max - b)%N with ((a - b) + 1 * size_max)%N by lia.
  rewrite N.mod_add by discriminate. apply N.mod_small. lia.
Qed.

Lemma sz_sub_neg : forall a b, (a < b)%N -> (b - a <= size_max)%N -> sz_sub a b = (size_max - (b - a))%N.
Proof.
  intros a b H K. unfold sz_sub, sz. rewrite N.mod_small by lia. lia.
Qed.

Definition frac_value (ts : Z) (f : Fractional) : N :=
  match f with Millisecond => ms_of ts | Microsecond => us_of ts | _ => ns_of ts end.

Lemma subsecond_nonneg : forall ts, (0 <= ts)%Z -> subsecond_ns ts = (ts mod 1000000000)%Z.
Proof.
  intros ts H. unfold subsecond_ns. rewrite Z.quot_div_nonneg by lia.
  pose proof (Z.div_mod ts 1000000000). lia.
Qed.

Lemma frac_value_bound : forall ts f, (0 <= ts)%Z -> (frac_value ts f < 10 ^ zeroes f)%N.
Proof.
  intros ts f H. destruct f; unfold frac_value, ms_of, us_of, ns_of, zeroes;
  match goal with |- context [(10 ^ ?k)%N] => let v := eval vm_compute in (10^k)%N in change (10^k)%N with v end; lia.
Qed.

Lemma frac_nonneg : forall ts f, (0 <= ts)%Z ->
  frac_to_string ts f = FOk (padded (N.to_nat (zeroes f)) (frac_value ts f)).
Proof.
  intros ts f H. unfold frac_to_string. rewrite subsecond_nonneg by assumption.
  assert (E : to_string (Z.quot (ts mod 1000000000) (digitsToCut f)) = dec (frac_value ts f)).
  { assert (0 <= ts mod 1000000000)%Z by lia.
    rewrite Z.quot_div_nonneg by (destruct f; simpl; lia).
    rewrite to_string_nonneg.
    - destruct f; simpl; unfold ms_of, us_of, ns_of; auto; now rewrite Z.div_1_r.
    - destruct f; simpl; lia. }
  rewrite E.
  pose proof (frac_value_bound ts f H) as B.
  assert (L : length (dec (frac_value ts f)) <= N.to_nat (zeroes f)).
  { apply dec_length; [now rewrite N2Nat.id|destruct f; simpl; lia]. }
  rewrite sz_sub_small.
  - assert (zeroes f <= 9)%N by (destruct f; simpl; lia).
    destruct (N.ltb_spec string_max_size (zeroes f - size (dec (frac_value ts f)))) as [C|C].
    + exfalso. unfold string_max_size in C. lia.
    + unfold padded, rep. do 2 f_equal. f_equal. unfold size. lia.
  - unfold size. lia.
  - assert (zeroes f <= 9)%N by (destruct f; simpl; lia). unfold size_max. lia.
Qed.

Lemma padded_length : forall w n, 0 < w -> (n < 10 ^ N.of_nat w)%N -> length (padded w n) = w.
Proof.
  intros w n H K. unfold padded. rewrite app_length, repeat_length.
  pose proof (dec_length w n K H). lia.
Qed.

Lemma padded_digits : forall w n c, In c (padded w n) -> is_digit c = true.
Proof.
  intros w n c H. unfold padded in H. apply in_app_or in H as [H|H].
  - apply repeat_spec in H. subst. reflexivity.
  - now apply dec_digits in H.
Qed.

Lemma padded_value : forall w n, dec_val (padded w n) = n.
Proof. intros. unfold padded. rewrite dec_val_repeat0. apply dec_val_dec. Qed.

(** ** before the epoch *)
Lemma frac_negative : forall ts f, (ts < 0)%Z ->
  let n := Z.to_N (Z.quot (- subsecond_ns ts) (digitsToCut f)) in
  (n = 0%N -> frac_to_string ts f = FOk (rep (N.to_nat (zeroes f)) "0")) /\
  ((0 < n < 10 ^ (zeroes f - 1))%N ->
     exists k, frac_to_string ts f = FOk (rep k "0" ++ "-"%char :: dec n)) /\
  ((10 ^ (zeroes f - 1) <= n)%N -> frac_to_string ts f = FThrow).
Proof.
  intros ts f H n.
  assert (S : (-1000000000 < subsecond_ns ts <= 0)%Z).
  { unfold subsecond_ns. lia. }
  assert (Q : (Z.quot (subsecond_ns ts) (digitsToCut f) = - Z.of_N n)%Z).
  { unfold n. rewrite Z.quot_opp_l by (destruct f; simpl; lia).
    rewrite Z2N.id; [lia|].
    rewrite <- Z.quot_opp_l by (destruct f; simpl; lia).
    apply Z.quot_pos; [lia|destruct f; simpl; lia]. }
  assert (NB : (n < 10 ^ zeroes f)%N).
  { unfold n. rewrite Z.quot_div_nonneg by (destruct f; simpl; lia).
    destruct f; unfold zeroes, digitsToCut;
    match goal with |- context [(10 ^ ?k)%N] => let v := eval vm_compute in (10^k)%N in change (10^k)%N with v end; lia. }
  unfold frac_to_string. rewrite Q. clearbody n. clear Q S H.
  split; [|split].
  - intros ->. simpl Z.opp. cbn [to_string]. destruct f; reflexivity.
  - intros [P U]. destruct n as [|p]; [lia|]. cbn [Z.of_N Z.opp to_string].
    assert (L : length (dec (N.pos p)) <= N.to_nat (zeroes f - 1)).
    { apply dec_length; [rewrite N2Nat.id; exact U|destruct f; simpl; lia]. }
    assert (zeroes f <= 9)%N by (destruct f; simpl; lia).
    unfold size; cbn [length].
    assert (3 <= zeroes f)%N by (destruct f; simpl; lia).
    assert (N.of_nat (S (length (dec (N.pos p)))) <= zeroes f)%N by lia.
    rewrite sz_sub_small; [|lia|unfold size_max; lia].
    match goal with |- context [(?a <? ?b)%N] => destruct (N.ltb_spec a b) as [C|C] end.
    + exfalso. unfold string_max_size in C. lia.
    + eauto.
  - intros U. destruct n as [|p].
    { exfalso. destruct f; cbn in U; lia. }
    cbn [Z.of_N Z.opp to_string].
    assert (L : N.to_nat (zeroes f - 1) < length (dec (N.pos p))).
    { apply dec_length_lower. rewrite N2Nat.id. exact U. }
    assert (L' : length (dec (N.pos p)) <= N.to_nat (zeroes f)).
    { apply dec_length; [rewrite N2Nat.id; exact NB|destruct f; simpl; lia]. }
    assert (3 <= zeroes f <= 9)%N by (destruct f; simpl; lia).
    unfold size; cbn [length].
    rewrite sz_sub_neg; [|lia|unfold size_max; lia].
    match goal with |- context [(?a <? ?b)%N] => destruct (N.ltb_spec a b) as [C|C] end; auto.
    exfalso. unfold string_max_size, size_max in C. lia.
Qed.


Lemma find_skip_clean : forall tl rest i, ~ In "%"%char tl ->
  sub_from (lit "%f") (tl ++ rest) i = sub_from (lit "%f") rest (i + length tl).
Proof.
  induction tl as [|c tl IH]; intros rest i H.
  - simpl. now rewrite Nat.add_0_r.
  - change ((c :: tl) ++ rest) with (c :: (tl ++ rest)). cbn [sub_from].
    assert (is_prefix (lit "%f") (c :: tl ++ rest) = false) as ->.
    { cbv [lit list_ascii_of_string is_prefix]. destruct (Ascii.eqb_spec "%"%char c) as [<-|]; auto.
      exfalso; apply H; simpl; auto. }
    rewrite IH by (intro; apply H; simpl; auto). f_equal. simpl. lia.
Qed.

Section Fill.
  Variables d3 d6 d9 : str.

  Lemma fill_skip : forall a b, (forall a' b', a ++ lit "%f" ++ b = a' ++ lit "%f" ++ b' -> length a <= length a') ->
    fill d3 d6 d9 (a ++ lit "%f" ++ b) = a ++ fill d3 d6 d9 (lit "%f" ++ b).
  Proof.
    induction a as [|c a IH]; intros b M; auto.
    assert (M' : forall a' b', a ++ lit "%f" ++ b = a' ++ lit "%f" ++ b' -> length a <= length a').
    { intros a' b' E. pose proof (M (c :: a') b' (f_equal (cons c) E)) as X. simpl in X. lia. }
    change ((c :: a) ++ lit "%f" ++ b) with (c :: (a ++ lit "%f" ++ b)).
    change ((c :: a) ++ fill d3 d6 d9 (lit "%f" ++ b)) with (c :: (a ++ fill d3 d6 d9 (lit "%f" ++ b))).
    rewrite <- (IH b M'). cbn [fill]. destruct (Ascii.eqb_spec c "%"%char) as [->|n]; auto.
    destruct (a ++ lit "%f" ++ b) as [|x y] eqn:E; auto.
    destruct (Ascii.eqb_spec x "f"%char) as [->|n']; auto.
    exfalso. pose proof (M [] y (f_equal (cons "%"%char) E)) as X. simpl in X. lia.
  Qed.

  Lemma fill_none : forall s, (forall a b, s <> a ++ lit "%f" ++ b) -> fill d3 d6 d9 s = s.
  Proof.
    induction s as [|c s IH]; intro M; auto.
    assert (M' : forall a b, s <> a ++ lit "%f" ++ b).
    { intros a b E. apply (M (c :: a) b). exact (f_equal (cons c) E). }
    cbn [fill]. rewrite (IH M').
    destruct (Ascii.eqb_spec c "%"%char) as [->|n]; auto.
    destruct s as [|x y]; auto.
    destruct (Ascii.eqb_spec x "f"%char) as [->|n']; auto.
    exfalso. now apply (M [] y).
  Qed.
End Fill.

Lemma getFractional_at : forall pre b,
  getFractional (pre ++ lit "%f" ++ b) (N.of_nat (length pre)) =
  match b with
  | [] => NanosecondDefault
  | c :: _ => if Ascii.eqb c "3" then Millisecond else if Ascii.eqb c "6" then Microsecond
              else if Ascii.eqb c "9" then Nanosecond else NanosecondDefault
  end.
Proof.
  intros pre b. unfold getFractional, kFractionalIdentierSize, size.
  rewrite !app_length. cbn [lit list_ascii_of_string length].
  destruct b as [|c b].
  - simpl length. destruct (N.ltb_spec (N.of_nat (length pre) + 2) (N.of_nat (length pre + (2 + 0)))); [lia|reflexivity].
  - destruct (N.ltb_spec (N.of_nat (length pre) + 2) (N.of_nat (length pre + (2 + length (c :: b))))) as [C|C].
    2: { cbn [length] in C. lia. }
    replace (N.to_nat (N.of_nat (length pre) + 2)) with (length pre + 2) by lia.
    rewrite app_nth2_plus. reflexivity.
Qed.

Lemma replace_at : forall pre x b t n, N.of_nat (length x) = n ->
  replace (pre ++ x ++ b) (N.of_nat (length pre)) n t = Some (pre ++ t ++ b).
Proof.
  intros pre x b t n L. unfold replace, size. rewrite !app_length.
  match goal with |- context [(?a <? ?b)%N] => destruct (N.ltb_spec a b) as [C|C] end; [lia|].
  f_equal. rewrite Nat2N.id, firstn_exact. f_equal. f_equal.
  rewrite N.min_l by lia.
  replace (N.to_nat (N.of_nat (length pre) + n)) with (length (pre ++ x)) by (rewrite app_length; lia).
  rewrite app_assoc. apply skipn_exact.
Qed.


(** digits for each placeholder at time ts (at or after the epoch) *)
Definition D3 ts := padded 3 (ms_of ts).
Definition D6 ts := padded 6 (us_of ts).
Definition D9 ts := padded 9 (ns_of ts).

Lemma clean_digits : forall s, (forall c, In c s -> is_digit c = true) -> ~ In "%"%char s.
Proof. intros s H I. apply H in I. discriminate. Qed.

Lemma frac_len : forall ts f, (0 <= ts)%Z -> length (padded (N.to_nat (zeroes f)) (frac_value ts f)) = N.to_nat (zeroes f).
Proof.
  intros ts f H. apply padded_length. destruct f; simpl; lia.
  rewrite N2Nat.id. now apply frac_value_bound.
Qed.

Lemma In_skipn : forall (A : Type) n (l : list A) x, In x (skipn n l) -> In x l.
Proof.
  induction n; intros [|a l] x H; simpl in *; auto. 
Qed.

Lemma loop_fill : forall fuel ts pre rest p,
  (0 <= ts)%Z -> length rest < fuel -> p <= length pre -> ~ In "%"%char (skipn p pre) ->
  (* std::string sizes stay below npos: nine characters per byte of format at most *)
  (N.of_nat (length pre + 9 * length rest) < npos)%N ->
  fractions_loop fuel ts (pre ++ rest) (N.of_nat p) = FOk (pre ++ fill (D3 ts) (D6 ts) (D9 ts) rest).
Proof.
  induction fuel as [|fuel IH]; intros ts pre rest p T F P C B; [lia|].
  assert (FE : find (pre ++ rest) kFractionalIdentier (N.of_nat p) =
     match sub_from (lit "%f") rest (length pre) with Some k => N.of_nat k | None => npos end).
  { unfold find, size. rewrite app_length.
    destruct (N.ltb_spec (N.of_nat (length pre + length rest)) (N.of_nat p)) as [X|_]; [lia|].
    rewrite Nat2N.id. rewrite skipn_app.
    replace (p - length pre) with 0 by lia. cbn [skipn]. change kFractionalIdentier with (lit "%f").
    rewrite find_skip_clean by assumption.
    now replace (p + length (skipn p pre)) with (length pre) by (rewrite skipn_length; lia). }
  cbn [fractions_loop]. rewrite FE. clear FE.
  destruct (sub_from (lit "%f") rest (length pre)) as [k|] eqn:E.
  2: { assert (N : forall a b, rest <> a ++ lit "%f" ++ b) by (eapply sub_from_none; eauto).
       rewrite N.eqb_refl. now rewrite fill_none. }
  apply sub_from_some in E as (a & b & -> & -> & M).
  rewrite app_length in B. cbn [lit list_ascii_of_string length app] in B.
  destruct (N.eqb_spec (N.of_nat (length pre + length a)) npos) as [X|_].
  { lia. }
  rewrite fill_skip by assumption.
  replace (pre ++ a ++ lit "%f" ++ b) with ((pre ++ a) ++ lit "%f" ++ b) by (rewrite <- app_assoc; reflexivity).
  rewrite <- app_length. rewrite getFractional_at.
  set (ty := match b with [] => NanosecondDefault | c :: _ => _ end).
  rewrite (frac_nonneg ts ty T).
  set (v := padded (N.to_nat (zeroes ty)) (frac_value ts ty)).
  assert (VL : length v = N.to_nat (zeroes ty)) by now apply frac_len.
  (* the replaced text and what is left *)
  assert (R : exists x b', lit "%f" ++ b = x ++ b' /\
     N.of_nat (length x) = (size kFractionalIdentier + match ty with NanosecondDefault => 0 | _ => 1 end)%N /\
     length b' <= length b /\
     fill (D3 ts) (D6 ts) (D9 ts) (lit "%f" ++ b) = v ++ fill (D3 ts) (D6 ts) (D9 ts) b').
  { unfold ty in v. destruct b as [|c b].
    - exists (lit "%f"), []. simpl. repeat split; auto. rewrite app_nil_r. reflexivity.
    - cbn [lit list_ascii_of_string app fill].
      change (Ascii.eqb "%" "%") with true. change (Ascii.eqb "f" "f") with true. cbv iota.
      unfold ty. destruct (Ascii.eqb_spec c "3"%char) as [->|n3].
      { exists (lit "%f3"), b. repeat split; auto. simpl; lia. }
      destruct (Ascii.eqb_spec c "6"%char) as [->|n6].
      { exists (lit "%f6"), b. repeat split; auto. simpl; lia. }
      destruct (Ascii.eqb_spec c "9"%char) as [->|n9].
      { exists (lit "%f9"), b. repeat split; auto. simpl; lia. }
      exists (lit "%f"), (c :: b). repeat split; auto. }
  destruct R as (x & b' & Ex & Lx & Lb & Fx).
  rewrite Fx, Ex. rewrite (replace_at (pre ++ a) x b' v _ Lx).
  replace ((pre ++ a) ++ v ++ b') with (((pre ++ a) ++ v) ++ b') by now rewrite <- app_assoc.
  unfold kFractionalIdentierSize.
  replace (N.of_nat (length (pre ++ a)) + 2)%N with (N.of_nat (length (pre ++ a) + 2)) by lia.
  assert (3 <= N.to_nat (zeroes ty) <= 9) by (destruct ty; simpl; lia).
  rewrite IH.
  - now rewrite <- !app_assoc.
  - assumption.
  - rewrite !app_length in F. cbn [lit list_ascii_of_string length] in F. lia.
  - rewrite !app_length. lia.
  - rewrite skipn_app. intro I. apply in_app_or in I as [I|I].
    + rewrite skipn_all2 in I by lia. contradiction.
    + apply In_skipn in I. revert I. apply clean_digits. intros c Hc. eapply padded_digits; eauto.
  - rewrite !app_length in *. cbn [lit list_ascii_of_string length] in *.
    assert (length x + length b' = 2 + length b).
    { apply (f_equal (@length ascii)) in Ex. rewrite !app_length in Ex. exact (eq_sym Ex). }
    assert (length x >= 2) by (destruct ty; simpl in Lx; lia).
    lia.
Qed.

Lemma fractions_fill : forall ts fmt, (0 <= ts)%Z -> (9 * size fmt < npos)%N ->
  localtime_formatted_fractions ts fmt = FOk (fill (D3 ts) (D6 ts) (D9 ts) fmt).
Proof.
  intros ts fmt T B. unfold localtime_formatted_fractions.
  apply (loop_fill (S (length fmt)) ts [] fmt 0); auto; simpl; try lia.
  - unfold size in B. lia.
Qed.

(** nothing that looks like a placeholder is left *)
Definition starts_f (s : str) : Prop := exists t, s = "f"%char :: t.

Lemma fill_head : forall d3 d6 d9 s,
  (forall d, In d [d3; d6; d9] -> d <> [] /\ forall c, In c d -> is_digit c = true) ->
  starts_f (fill d3 d6 d9 s) -> starts_f s.
Proof.
  intros d3 d6 d9 s D [t H].
  assert (K : forall d r, In d [d3; d6; d9] -> d ++ r = "f"%char :: t -> False).
  { intros d r I E. destruct (D d I) as [N G]. destruct d as [|x d]; [congruence|].
    injection E as -> E. specialize (G "f"%char (or_introl eq_refl)). discriminate. }
  destruct s as [|a r1]; [discriminate|]. cbn [fill] in H.
  destruct (Ascii.eqb_spec a "%"%char) as [->|n].
  - destruct r1 as [|b r2]; [discriminate|].
    destruct (Ascii.eqb_spec b "f"%char) as [->|n'].
    + exfalso. destruct r2 as [|c r3].
      * apply (K d9 []); [simpl; auto|]. now rewrite app_nil_r.
      * destruct (Ascii.eqb c "3"); [eapply (K d3); simpl; eauto|].
        destruct (Ascii.eqb c "6"); [eapply (K d6); simpl; eauto|].
        destruct (Ascii.eqb c "9"); eapply (K d9); simpl; eauto.
    + discriminate.
  - injection H as -> H. exists r1. reflexivity.
Qed.

Lemma app_placeholder : forall d s, ~ In "%"%char d -> has_placeholder (d ++ s) -> has_placeholder s.
Proof.
  induction d as [|c d IH]; intros s N H; auto.
  apply IH; [simpl in N; tauto|]. destruct H as (a & b & E).
  destruct a as [|x a].
  - simpl in E. injection E as -> E. simpl in N. tauto.
  - simpl in E. injection E as -> E. exists a, b. exact E.
Qed.

Lemma cons_placeholder : forall c s, has_placeholder (c :: s) ->
  (c = "%"%char /\ starts_f s) \/ has_placeholder s.
Proof.
  intros c s (a & b & E). destruct a as [|x a]; simpl in E.
  - injection E as -> ->. left. split; auto. exists b. reflexivity.
  - injection E as -> E. right. exists a, b. exact E.
Qed.

Lemma fill_clean : forall d3 d6 d9,
  (forall d, In d [d3; d6; d9] -> d <> [] /\ forall c, In c d -> is_digit c = true) ->
  forall n s, length s < n -> ~ has_placeholder (fill d3 d6 d9 s).
Proof.
  intros d3 d6 d9 D.
  assert (DC : forall d, In d [d3; d6; d9] -> ~ In "%"%char d).
  { intros d I. apply clean_digits. now apply D. }
  induction n as [|n IH]; intros s L H; [lia|].
  destruct s as [|a r1].
  { destruct H as (a & b & E). destruct a; discriminate. }
  cbn [fill] in H. simpl in L.
  destruct (Ascii.eqb_spec a "%"%char) as [->|na].
  - destruct r1 as [|b r2].
    { destruct H as (x & y & E). destruct x as [|? [|? ?]]; discriminate. }
    simpl in L. destruct (Ascii.eqb_spec b "f"%char) as [->|nb].
    + destruct r2 as [|c r3].
      { rewrite <- (app_nil_r d9) in H. apply app_placeholder in H; [|apply DC; simpl; auto].
        destruct H as (x & y & E). destruct x; discriminate. }
      simpl in L.
      destruct (Ascii.eqb c "3").
      { apply app_placeholder in H; [|apply DC; simpl; auto]. revert H. apply IH. lia. }
      destruct (Ascii.eqb c "6").
      { apply app_placeholder in H; [|apply DC; simpl; auto]. revert H. apply IH. lia. }
      destruct (Ascii.eqb c "9").
      { apply app_placeholder in H; [|apply DC; simpl; auto]. revert H. apply IH. lia. }
      apply app_placeholder in H; [|apply DC; simpl; auto]. revert H. apply IH. simpl; lia.
    + apply cons_placeholder in H as [[_ H]|H].
      * apply fill_head in H; auto. destruct H as [t H]. congruence.
      * revert H. apply IH. simpl; lia.
  - apply cons_placeholder in H as [[E _]|H]; [congruence|].
    revert H. apply IH. lia.
Qed.

(** ** the default time stamp *)
Lemma two_padded : forall n, (0 <= n <= 99)%Z -> two n = padded 2 (Z.to_N n).
Proof.
  intros n H. unfold two, padded. destruct (Z.ltb_spec n 10) as [L|L].
  - rewrite to_string_nonneg by lia.
    assert (length (dec (Z.to_N n)) <= 1) by (apply dec_length; simpl; lia).
    assert (dec (Z.to_N n) <> []) by apply dec_nonempty.
    destruct (dec (Z.to_N n)) as [|x [|y z]]; simpl in *; try congruence; lia.
  - rewrite to_string_nonneg by lia.
    assert (1 < length (dec (Z.to_N n))) by (apply dec_length_lower; simpl; lia).
    assert (length (dec (Z.to_N n)) <= 2) by (apply dec_length; simpl; lia).
    replace (2 - length (dec (Z.to_N n))) with 0 by lia. reflexivity.
Qed.

Lemma year_padded : forall y, (1000 <= y <= 9999)%Z -> to_string y = padded 4 (Z.to_N y).
Proof.
  intros y H. rewrite to_string_nonneg by lia. unfold padded.
  assert (3 < length (dec (Z.to_N y))) by (apply dec_length_lower; simpl; lia).
  replace (4 - length (dec (Z.to_N y))) with 0 by lia. reflexivity.
Qed.

Lemma strftime_default : forall ext t us, tm_ok t ->
  (forall c, In c us -> is_digit c = true) ->
  strftime ext (lit "%Y/%m/%d %H:%M:%S " ++ us) t =
  padded 4 (Z.to_N (tm_year t + 1900)) ++ lit "/" ++ padded 2 (Z.to_N (tm_mon t + 1)) ++ lit "/" ++
  padded 2 (Z.to_N (tm_mday t)) ++ lit " " ++ padded 2 (Z.to_N (tm_hour t)) ++ lit ":" ++
  padded 2 (Z.to_N (tm_min t)) ++ lit ":" ++ padded 2 (Z.to_N (tm_sec t)) ++ lit " " ++ us.
Proof.
  intros ext t us O D. unfold tm_ok in O.
  assert (U : strftime ext us t = us).
  { clear - D. induction us as [|c us IH]; auto. cbn [strftime].
    destruct (Ascii.eqb_spec c "%"%char) as [->|n].
    - specialize (D "%"%char (or_introl eq_refl)). discriminate.
    - f_equal. apply IH. intros; apply D; now right. }
  cbn [lit list_ascii_of_string app strftime Ascii.eqb Bool.eqb strftime_conv].
  rewrite U, year_padded by lia. rewrite !two_padded by lia. reflexivity.
Qed.

Lemma stamp_length : forall t us, tm_ok t -> (us < 1000000)%N -> length (stamp t us) = 26.
Proof.
  intros t us O U. unfold tm_ok in O. unfold stamp. rewrite !app_length.
  rewrite !padded_length; simpl; lia.
Qed.

Lemma us_bound : forall ts, (us_of ts < 1000000)%N.
Proof. intros. unfold us_of. lia. Qed.

Lemma digits_no_nul : forall s, (forall c, In c s -> is_digit c = true) -> ~ In NUL s.
Proof. intros s H I. apply H in I. discriminate. Qed.

Lemma stamp_no_nul : forall t us, ~ In NUL (stamp t us).
Proof.
  intros t us H. unfold stamp in H.
  repeat (apply in_app_or in H as [H|H];
    [try (apply padded_digits in H; discriminate); revert H; vm_compute; intuition discriminate|]).
  apply padded_digits in H. discriminate.
Qed.

Lemma default_timestamp : forall debug ext local ts, (0 <= ts)%Z ->
  tm_ok (local (Z.quot ts 1000000000)) ->
  localtime_formatted debug ext local ts default_timestamp_format =
  FOk (stamp (local (Z.quot ts 1000000000)) (us_of ts)).
Proof.
  intros debug ext local ts T O. unfold localtime_formatted.
  rewrite fractions_fill; [|assumption|vm_compute; reflexivity].
  set (t := local _) in *.
  assert (E : fill (D3 ts) (D6 ts) (D9 ts) default_timestamp_format = lit "%Y/%m/%d %H:%M:%S " ++ D6 ts).
  { unfold default_timestamp_format, date_formatted, time_formatted.
    cbn [lit list_ascii_of_string app fill Ascii.eqb Bool.eqb]. now rewrite app_nil_r. }
  rewrite E.
  assert (DD : forall c, In c (D6 ts) -> is_digit c = true) by (intros c; apply padded_digits).
  rewrite (proj1 (c_str_id _)).
  2: { intro H. apply in_app_or in H as [H|H].
       - revert H. vm_compute. intuition discriminate.
       - apply DD in H. discriminate. }
  unfold put_time. rewrite strftime_default by assumption.
  assert (S : stamp t (us_of ts) =
   padded 4 (Z.to_N (tm_year t + 1900)) ++ lit "/" ++ padded 2 (Z.to_N (tm_mon t + 1)) ++ lit "/" ++
   padded 2 (Z.to_N (tm_mday t)) ++ lit " " ++ padded 2 (Z.to_N (tm_hour t)) ++ lit ":" ++
   padded 2 (Z.to_N (tm_min t)) ++ lit ":" ++ padded 2 (Z.to_N (tm_sec t)) ++ lit " " ++ D6 ts) by reflexivity.
  rewrite <- S. rewrite stamp_length by auto using us_bound.
  cbn [Nat.eqb Nat.leb orb].
  change ((26 =? 0)%nat || (1024 <=? 26)%nat) with false. cbv iota.
  f_equal. apply c_str_id. apply stamp_no_nul.
Qed.

(** ** dictionary order *)
Lemma text_lt_app : forall a a' b b', length a = length a' ->
  (text_lt (a ++ b) (a' ++ b') <-> text_lt a a' \/ (a = a' /\ text_lt b b')).
Proof.
  induction a as [|x a IH]; intros [|y a'] b b' L; try discriminate; cbn [app text_lt].
  - tauto.
  - injection L as L. rewrite (IH a' b b' L). intuition (subst; auto; try congruence).
Qed.

Lemma N_of_ascii_inj : forall a b, N_of_ascii a = N_of_ascii b -> a = b.
Proof. intros a b H. rewrite <- (ascii_N_embedding a), <- (ascii_N_embedding b). now f_equal. Qed.

Lemma text_lt_digits : forall a b, length a = length b ->
  (forall c, In c a -> is_digit c = true) -> (forall c, In c b -> is_digit c = true) ->
  (text_lt a b <-> (dec_val a < dec_val b)%N).
Proof.
  induction a as [|x a IH]; intros [|y b] L A B; try discriminate.
  - cbn [text_lt]. unfold dec_val; simpl. split; [tauto|lia].
  - injection L as L. cbn [text_lt]. rewrite !dec_val_cons, L.
    assert (A' : forall c, In c a -> is_digit c = true) by (intros; apply A; now right).
    assert (B' : forall c, In c b -> is_digit c = true) by (intros; apply B; now right).
    rewrite (IH b L A' B').
    pose proof (dec_val_bound a A') as BA. pose proof (dec_val_bound b B') as BB. rewrite L in BA.
    assert (DX : is_digit x = true) by (apply A; now left).
    assert (DY : is_digit y = true) by (apply B; now left).
    unfold is_digit in DX, DY. apply andb_prop in DX as [X1 X2]. apply andb_prop in DY as [Y1 Y2].
    apply N.leb_le in X1, X2, Y1, Y2. unfold digit_val.
    set (p := (10 ^ N.of_nat (length b))%N) in *.
    assert (x = y <-> N_of_ascii x = N_of_ascii y) as -> by (split; [congruence|apply N_of_ascii_inj]).
    set (u := N_of_ascii x) in *. set (w := N_of_ascii y) in *. clearbody u w p.
    split.
    + intros [H|[-> H]]; nia.
    + intro H. destruct (N.lt_trichotomy u w) as [K|[K|K]]; [auto| |exfalso; nia].
      right. split; auto. subst. nia.
Qed.

Lemma padded_lt : forall w a b, 0 < w -> (a < 10 ^ N.of_nat w)%N -> (b < 10 ^ N.of_nat w)%N ->
  (text_lt (padded w a) (padded w b) <-> (a < b)%N).
Proof.
  intros w a b W A B. rewrite text_lt_digits.
  - now rewrite !padded_value.
  - now rewrite !padded_length.
  - apply padded_digits.
  - apply padded_digits.
Qed.

Lemma padded_eq : forall w a b, padded w a = padded w b <-> a = b.
Proof.
  intros. split; [|congruence]. intro H. rewrite <- (padded_value w a), <- (padded_value w b). now f_equal.
Qed.

Lemma text_lt_app_same : forall a b b', text_lt (a ++ b) (a ++ b') <-> text_lt b b'.
Proof.
  induction a as [|x a IH]; intros b b'; cbn [app text_lt]; [tauto|].
  rewrite IH. intuition lia.
Qed.

Lemma text_lt_field : forall w a b r r', 0 < w -> (a < 10 ^ N.of_nat w)%N -> (b < 10 ^ N.of_nat w)%N ->
  (text_lt (padded w a ++ r) (padded w b ++ r') <-> (a < b)%N \/ (a = b /\ text_lt r r')).
Proof.
  intros. rewrite text_lt_app, padded_lt, padded_eq by (auto; now rewrite !padded_length). tauto.
Qed.

Lemma stamp_order : forall t t' us us', tm_ok t -> tm_ok t' -> (us < 1000000)%N -> (us' < 1000000)%N ->
  (text_lt (stamp t us) (stamp t' us') <-> tm_lt t t' \/ (t = t' /\ (us < us')%N)).
Proof.
  intros t t' us us' O O' U U'. unfold tm_ok in O, O'. unfold stamp.
  repeat (rewrite text_lt_field by (simpl; lia); try rewrite text_lt_app_same).
  rewrite padded_lt by (simpl; lia).
  destruct t as [s mi h d mo y], t' as [s' mi' h' d' mo' y']. unfold tm_lt. simpl in *.
  assert (T : mkTm s mi h d mo y = mkTm s' mi' h' d' mo' y' <->
     (y = y' /\ mo = mo' /\ d = d' /\ h = h' /\ mi = mi' /\ s = s')).
  { split; [intro E; injection E as -> -> -> -> -> ->; auto 10|].
    intros (-> & -> & -> & -> & -> & ->); reflexivity. }
  rewrite T. clear T.
  assert (L : forall a b, (0 <= a)%Z -> (0 <= b)%Z -> (Z.to_N a < Z.to_N b)%N <-> (a < b)%Z) by (clear; lia).
  assert (Q : forall a b, (0 <= a)%Z -> (0 <= b)%Z -> Z.to_N a = Z.to_N b <-> a = b) by (clear; lia).
  assert (SL : forall a b k, (a + k < b + k)%Z <-> (a < b)%Z) by (clear; lia).
  assert (SQ : forall a b k, (a + k = b + k)%Z <-> a = b) by (clear; lia).
  rewrite !L, !Q, !SL, !SQ by (clear - O O'; lia).
  tauto.
Qed.

(** ** wall-clock conversion *)
Lemma to_system_time_mono : forall k sys hrs a b, (0 < k)%Z -> (a <= b)%Z ->
  (to_system_time k sys hrs a <= to_system_time k sys hrs b)%Z.
Proof. intros. unfold to_system_time. apply Z.quot_le_mono; lia. Qed.


Lemma to_system_time_dist_pos : forall k sys hrs a b, (0 < k)%Z -> (a <= b)%Z ->
  (0 <= sys * k + (a - hrs))%Z ->
  (Z.abs ((to_system_time k sys hrs b - to_system_time k sys hrs a) * k - (b - a)) < k)%Z.
Proof.
  intros. unfold to_system_time. rewrite !Z.quot_div_nonneg by lia.
  pose proof (Z.div_mod (sys * k + (a - hrs)) k). pose proof (Z.div_mod (sys * k + (b - hrs)) k).
  pose proof (Z.mod_pos_bound (sys * k + (a - hrs)) k). pose proof (Z.mod_pos_bound (sys * k + (b - hrs)) k).
  assert ((sys * k + (b - hrs)) / k >= (sys * k + (a - hrs)) / k)%Z by (apply Z.le_ge, Z.div_le_mono; lia).
  nia.
Qed.

(** ** Rendering *)
Lemma conversion_ok : forall ext t c, tm_ok t -> strftime_conv ext c t = conversion ext t c.
Proof.
  intros ext t c (A & B & C & D & E & F). unfold strftime_conv.
  destruct (Ascii.eqb_spec c "Y"); [subst; cbn [conversion]; apply year_padded; lia|].
  destruct (Ascii.eqb_spec c "m"); [subst; cbn [conversion]; apply two_padded; lia|].
  destruct (Ascii.eqb_spec c "d"); [subst; cbn [conversion]; apply two_padded; lia|].
  destruct (Ascii.eqb_spec c "H"); [subst; cbn [conversion]; apply two_padded; lia|].
  destruct (Ascii.eqb_spec c "M"); [subst; cbn [conversion]; apply two_padded; lia|].
  destruct (Ascii.eqb_spec c "S"); [subst; cbn [conversion]; apply two_padded; lia|].
  destruct (Ascii.eqb_spec c "%"); [subst; reflexivity|].
  destruct c as [[|] [|] [|] [|] [|] [|] [|] [|]]; try reflexivity; congruence.
Qed.

Lemma strftime_plain : forall ext t d s, ~ In "%"%char d -> strftime ext (d ++ s) t = d ++ strftime ext s t.
Proof.
  intros ext t d s. induction d as [|a d IH]; intro N; cbn; [reflexivity|].
  destruct (Ascii.eqb_spec a "%"); [subst; exfalso; apply N; left; reflexivity|]. rewrite IH; [reflexivity|]. intro I. apply N. right. exact I.
Qed.

Lemma strftime_fill : forall ext t d3 d6 d9 n fmt, length fmt < n ->
  ~ In "%"%char d3 -> ~ In "%"%char d6 -> ~ In "%"%char d9 -> no_escaped_f fmt ->
  strftime ext (fill d3 d6 d9 fmt) t = render d3 d6 d9 (fun c => strftime_conv ext c t) fmt.
Proof.
  intros ext t d3 d6 d9 n. induction n as [|n IH]; intros fmt L N3 N6 N9 C; [lia|].
  destruct fmt as [|a r1]; [reflexivity|]. cbn [length] in L. cbn [fill render]. cbn [no_escaped_f] in C.
  destruct (Ascii.eqb_spec a "%") as [->|A].
  2: { cbn [strftime]. destruct (Ascii.eqb_spec a "%"); [contradiction|]. rewrite IH by (auto; lia). reflexivity. }
  destruct r1 as [|b r2]; [reflexivity|]. cbn [length] in L. destruct C as (C1 & C2).
  destruct (Ascii.eqb_spec b "f") as [->|B].
  - destruct r2 as [|c r3]; [rewrite <- (app_nil_r d9) at 1; rewrite strftime_plain by auto; cbn; apply app_nil_r|].
    cbn [length] in L. cbn [no_escaped_f] in C2.
    destruct (Ascii.eqb_spec c "3"); [subst c; rewrite strftime_plain by auto; rewrite IH by (auto; lia); reflexivity|].
    destruct (Ascii.eqb_spec c "6"); [subst c; rewrite strftime_plain by auto; rewrite IH by (auto; lia); reflexivity|].
    destruct (Ascii.eqb_spec c "9"); [subst c; rewrite strftime_plain by auto; rewrite IH by (auto; lia); reflexivity|].
    rewrite strftime_plain by auto. rewrite IH by (auto; cbn [length]; lia). reflexivity.
  - assert (X : fill d3 d6 d9 (b :: r2) = b :: fill d3 d6 d9 r2).
    { cbn [fill]. destruct (Ascii.eqb_spec b "%") as [->|Bp]; [|reflexivity].
      destruct r2 as [|c r3]; [reflexivity|]. destruct (Ascii.eqb_spec c "f"); [contradiction|reflexivity]. }
    rewrite X. cbn [strftime]. change (Ascii.eqb "%" "%") with true. cbn iota. rewrite IH by (auto; lia). reflexivity.
Qed.

Lemma render_ext : forall d3 d6 d9 f g n fmt, length fmt < n -> (forall c, f c = g c) -> render d3 d6 d9 f fmt = render d3 d6 d9 g fmt.
Proof.
  intros d3 d6 d9 f g n. induction n as [|n IH]; intros fmt L E; [lia|]. destruct fmt as [|a r1]; [reflexivity|]. cbn [length] in L. cbn [render].
  destruct (Ascii.eqb a "%"); [|rewrite IH by (auto; lia); reflexivity].
  destruct r1 as [|b r2]; [reflexivity|]. cbn [length] in L. destruct (Ascii.eqb b "f"); [|rewrite E, IH by (auto; lia); reflexivity].
  destruct r2 as [|c r3]; [reflexivity|]. cbn [length] in L.
  destruct (Ascii.eqb c "3"); [rewrite IH by (auto; lia); reflexivity|]. destruct (Ascii.eqb c "6"); [rewrite IH by (auto; lia); reflexivity|].
  destruct (Ascii.eqb c "9"); [rewrite IH by (auto; lia); reflexivity|]. rewrite IH by (auto; cbn [length]; lia). reflexivity.
Qed.

Lemma fill_no_nul : forall d3 d6 d9 n fmt, length fmt < n -> ~ In NUL d3 -> ~ In NUL d6 -> ~ In NUL d9 -> ~ In NUL fmt -> ~ In NUL (fill d3 d6 d9 fmt).
Proof.
  intros d3 d6 d9 n. induction n as [|n IH]; intros fmt L N3 N6 N9 N; [lia|]. destruct fmt as [|a r1]; [exact N|]. cbn [length] in L. cbn [fill].
  assert (Na : a <> NUL) by (intro X; apply N; left; exact X).
  assert (N1 : ~ In NUL r1) by (intro X; apply N; right; exact X).
  assert (G : ~ In NUL (a :: fill d3 d6 d9 r1)).
  { intros [X|X]; [auto|]. revert X. apply IH; auto; lia. }
  assert (P : forall d r, ~ In NUL d -> ~ In NUL r -> length r < n -> ~ In NUL (d ++ fill d3 d6 d9 r)).
  { intros d r D R Lr X. apply in_app_or in X as [X|X]; [exact (D X)|]. revert X. apply IH; auto. }
  destruct (Ascii.eqb a "%"); [|exact G]. destruct r1 as [|b r2]; [intros [X|[]]; auto|]. cbn [length] in L.
  destruct (Ascii.eqb b "f"); [|exact G].
  assert (N2 : ~ In NUL r2) by (intro X; apply N1; right; exact X).
  destruct r2 as [|c r3]; [exact N9|]. cbn [length] in L.
  assert (N4 : ~ In NUL r3) by (intro X; apply N2; right; exact X).
  destruct (Ascii.eqb c "3"); [apply P; auto; lia|]. destruct (Ascii.eqb c "6"); [apply P; auto; lia|].
  destruct (Ascii.eqb c "9"); [apply P; auto; lia|]. apply P; auto; cbn [length]; lia.
Qed.
