From Coq Require Import Ascii String List ZArith NArith Bool Lia.
From Verif.Base Require Import Bytes.
From Verif.Model Require Import Levels TimeFmt Message.
From Verif.Spec Require Import TimeSpec MessageSpec.
From Verif.Proofs Require Import BytesFacts LevelsFacts TimeFacts.
Import ListNotations.
Local Open Scope list_scope.

Local Ltac Zify.zify_post_hook ::= Z.div_mod_to_equations.

(** ** file names *)
Lemma sep_mem : forall c, mem c (lit "(/\") = true <-> sep c.
Proof.
  intro c. rewrite mem_In. unfold sep. simpl. intuition congruence.
Qed.

Lemma splitFileName_spec : forall path, (size path < npos)%N ->
  exists name, splitFileName path = Some name /\ last_component path name.
Proof.
  intros path B. unfold splitFileName, find_last_of.
  destruct (last_of_from (lit "(/\") path 0) as [k|] eqn:E.
  - apply last_of_from_some in E as (p & c & q & -> & -> & M & N).
    exists q. unfold size in B. rewrite app_length in B. cbn [length] in B.
    replace (sz (N.of_nat (0 + length p) + 1)) with (N.of_nat (length (p ++ [c]))).
    2: { rewrite sz_small; rewrite ?app_length; cbn [length]; unfold size_max, npos in *; lia. }
    unfold substr, size. rewrite !app_length. cbn [length].
    destruct (N.ltb_spec (N.of_nat (length p + S (length q))) (N.of_nat (length p + 1))) as [C|C]; [lia|].
    rewrite Nat2N.id. replace (length p + 1) with (length (p ++ [c])) by (rewrite app_length; simpl; lia).
    replace (p ++ c :: q) with ((p ++ [c]) ++ q) by now rewrite <- app_assoc.
    rewrite skipn_exact. split.
    + f_equal. rewrite N.min_r by (rewrite app_length; simpl; lia).
      rewrite firstn_all2; auto. rewrite app_length. simpl. lia.
    + split.
      * intros c' I S. apply sep_mem in S. rewrite N in S by assumption. discriminate.
      * right. exists p, c. split; [now apply sep_mem|now rewrite <- app_assoc].
  - rewrite last_of_from_none in E. exists path.
    replace (sz (npos + 1)) with 0%N by reflexivity.
    unfold substr. cbn [N.to_nat skipn]. destruct (N.ltb_spec (size path) 0) as [C|C]; [lia|].
    split.
    + f_equal. rewrite N.min_r by lia. apply firstn_all2. unfold size. lia.
    + split; auto. intros c I S. apply sep_mem in S. rewrite E in S by assumption. discriminate.
Qed.

Lemma last_component_unique : forall path a b, last_component path a -> last_component path b -> a = b.
Proof.
  assert (G : forall d c x d' c' y, d ++ c :: x = d' ++ c' :: y -> sep c -> sep c' ->
     (forall z, In z x -> ~ sep z) -> (forall z, In z y -> ~ sep z) -> x = y).
  { induction d as [|h d IH]; intros c x d' c' y E S S' X Y; destruct d' as [|h' d']; simpl in E.
    - congruence.
    - injection E as -> ->. exfalso. apply (X c'); auto. apply in_or_app. simpl; auto.
    - injection E as <- <-. exfalso. apply (Y c); auto. apply in_or_app. simpl; auto.
    - injection E as -> E. eapply IH; eauto. }
  intros path a b [Na [->|(d & c & S & ->)]] [Nb H].
  - destruct H as [|(d & c & S & ->)]; auto. exfalso. apply (Na c); auto. apply in_or_app; simpl; auto.
  - destruct H as [<-|(d' & c' & S' & E)].
    + exfalso. apply (Nb c); auto. apply in_or_app; simpl; auto.
    + eapply G; eauto.
Qed.

Lemma app_inj_len : forall (A : Type) (a b c d : list A), length a = length c -> a ++ b = c ++ d -> a = c /\ b = d.
Proof.
  induction a as [|x a IH]; intros b c d L E; destruct c as [|y c]; simpl in *; try discriminate; auto.
  injection E as -> E. destruct (IH b c d) as [-> ->]; auto.
Qed.

(** ** splitting at a two-character mark *)
Lemma split_mark : forall c1 c2 a b a' b', c1 <> c2 ->
  ~ contains [c1; c2] a -> ~ contains [c1; c2] a' ->
  a ++ c1 :: c2 :: b = a' ++ c1 :: c2 :: b' -> a = a' /\ b = b'.
Proof.
  intros c1 c2. induction a as [|x a IH]; intros b a' b' D N N' E; destruct a' as [|x' a']; simpl in E.
  - injection E; auto.
  - exfalso. destruct a' as [|y a']; simpl in E.
    + injection E as <- E2 E3. congruence.
    + injection E as <- <- E. apply N'. now exists [], a'.
  - exfalso. destruct a as [|y a]; simpl in E.
    + injection E as -> E2 E3. congruence.
    + injection E as -> -> E. apply N. now exists [], a.
  - injection E as -> E. destruct (IH b a' b') as [-> ->]; auto.
    + intros (p & q & ->). apply N. now exists (x' :: p), q.
    + intros (p & q & ->). apply N'. now exists (x' :: p), q.
Qed.

Lemma split_last : forall (c : ascii) a b a' b', ~ In c b -> ~ In c b' -> a ++ c :: b = a' ++ c :: b' -> a = a' /\ b = b'.
Proof.
  intros c. induction a as [|x a IH]; intros b a' b' N N' E; destruct a' as [|x' a']; simpl in E.
  - injection E; auto.
  - injection E as <- ->. exfalso. apply N. apply in_or_app; simpl; auto.
  - injection E as -> <-. exfalso. apply N'. apply in_or_app; simpl; auto.
  - injection E as -> E. destruct (IH b a' b' N N' E) as [-> ->]. auto.
Qed.

Lemma split_first : forall (c : ascii) a b a' b', ~ In c a -> ~ In c a' -> a ++ c :: b = a' ++ c :: b' -> a = a' /\ b = b'.
Proof.
  intros c. induction a as [|x a IH]; intros b a' b' N N' E; destruct a' as [|x' a']; simpl in E.
  - injection E; auto.
  - injection E as <- ->. exfalso. apply N'. simpl; auto.
  - injection E as -> <-. exfalso. apply N. simpl; auto.
  - injection E as -> E. destruct (IH b a' b') as [-> ->]; auto; intro I; [apply N|apply N']; simpl; auto.
Qed.

Lemma to_string_chars : forall z c, In c (to_string z) -> is_digit c = true \/ c = "-"%char.
Proof.
  intros z c H. destruct z; simpl in H.
  - destruct H as [<-|[]]. left; reflexivity.
  - left. eapply dec_digits; eauto.
  - destruct H as [<-|H]; auto. left. eapply dec_digits; eauto.
Qed.

Lemma details_inj : forall ts lv fi fu li r ts' lv' fi' fu' li' r',
  length ts = length ts' ->
  ~ contains (lit " [") lv -> ~ contains (lit " [") lv' ->
  ~ contains (lit "->") fi -> ~ contains (lit "->") fi' ->
  ~ In TAB fu -> ~ In TAB fu' ->
  details ts lv fi fu (to_string li) ++ r = details ts' lv' fi' fu' (to_string li') ++ r' ->
  ts = ts' /\ lv = lv' /\ fi = fi' /\ fu = fu' /\ li = li' /\ r = r'.
Proof.
  intros ts lv fi fu li r ts' lv' fi' fu' li' r' L L1 L2 F1 F2 U1 U2 E.
  unfold details in E. rewrite <- !app_assoc in E.
  apply app_inj_len in E as [-> E]; [|assumption].
  apply (f_equal (@tl ascii)) in E. cbn [app tl] in E.
  change (lit " [") with [" "%char; "["%char] in *. change (lit "->") with ["-"%char; ">"%char] in *.
  cbn [app] in E.
  apply split_mark in E as [-> E]; auto; [|discriminate].
  apply split_mark in E as [-> E]; auto; [|discriminate].
  assert (E2 : (fu ++ ":"%char :: (to_string li ++ lit "]")) ++ TAB :: r =
               (fu' ++ ":"%char :: (to_string li' ++ lit "]")) ++ TAB :: r').
  { rewrite <- !app_assoc. cbn [app]. rewrite <- !app_assoc. exact E. }
  clear E. rename E2 into E.
  assert (NT : forall li, ~ In TAB (to_string li ++ lit "]")).
  { intros z I. apply in_app_or in I as [I|[I|[]]]; [|discriminate].
    apply to_string_chars in I as [I|I]; discriminate. }
  apply split_first in E as [E ->].
  2,3: intro I; apply in_app_or in I as [I|[I|I]]; [auto|discriminate|now apply NT in I].
  apply split_last in E as [-> E].
  2,3: intro I; apply in_app_or in I as [I|[I|[]]]; [|discriminate];
       apply to_string_chars in I as [I|I]; discriminate.
  apply app_inv_tail in E. apply to_string_inj in E. auto 10.
Qed.

(** ** reading numbers *)
Lemma digit_of_digit : forall n, digit_of (digit n) = Some (Z.of_N (n mod 10)).
Proof.
  intro n. unfold digit_of. rewrite N_of_ascii_digit.
  assert (H : (n mod 10 < 10)%N) by (apply N.mod_lt; lia). revert H. generalize (n mod 10)%N. intros k H.
  destruct (Z.leb_spec 48 (Z.of_N (48 + k))); [|lia]. destruct (Z.leb_spec (Z.of_N (48 + k)) 57); [|lia].
  cbn [andb]. f_equal. lia.
Qed.

Lemma read_digits_app : forall a b acc, read_digits (a ++ b) acc =
  match read_digits a acc with Some v => read_digits b v | None => None end.
Proof.
  induction a as [|c a IH]; intros; simpl; auto. destruct (digit_of c); auto.
Qed.

Lemma read_dig : forall f n, (n < 2 ^ N.of_nat f)%N -> (0 < f)%nat -> read_digits (dig f n []) 0 = Some (Z.of_N n).
Proof.
  induction f as [|f IH]; intros n B P; [lia|]. cbn [dig].
  destruct (N.eqb_spec (n / 10) 0) as [Q|Q].
  - cbn [read_digits]. rewrite digit_of_digit. f_equal.
    assert (n < 10)%N by (apply N.div_small_iff in Q; lia). rewrite N.mod_small; lia.
  - assert (Hf : (n / 10 < 2 ^ N.of_nat f)%N).
    { apply N.div_lt_upper_bound; [lia|]. rewrite Nat2N.inj_succ, N.pow_succ_r' in B. lia. }
    rewrite dig_app, read_digits_app. rewrite IH; [|assumption|].
    + cbn [read_digits]. rewrite digit_of_digit. f_equal. pose proof (N.div_mod n 10). lia.
    + destruct f; [|lia]. simpl in Hf. lia.
Qed.

Lemma read_dec : forall n, read_digits (dec n) 0 = Some (Z.of_N n).
Proof. intro n. unfold dec. apply read_dig; [apply dec_fuel|lia]. Qed.

Lemma read_int_to_string : forall z, read_int (to_string z) = Some z.
Proof.
  assert (P : forall n, read_int (dec n) = Some (Z.of_N n)).
  { intro n. rewrite <- (read_dec n). pose proof (dec_nonempty n). pose proof (dec_digits n).
    destruct (dec n) as [|c r]; [congruence|]. unfold read_int.
    destruct (Ascii.eqb_spec c "-") as [->|]; auto.
    specialize (H0 "-"%char). discriminate H0; simpl; auto. }
  intros [|p|p]; simpl to_string.
  - apply (P 0%N).
  - apply (P (N.pos p)).
  - cbn [read_int]. pose proof (dec_nonempty (N.pos p)). rewrite read_dec.
    destruct (dec (N.pos p)); [congruence|reflexivity].
Qed.


Lemma timestamp_override : forall e m f t, timestamp e (overrideLogDetailsFunc m f) t = timestamp e m t.
Proof. reflexivity. Qed.

Lemma toString_rendering : forall e m f ts d,
  timestamp e m default_timestamp_format = FOk ts ->
  call_details e f (overrideLogDetailsFunc m f) = FOk d ->
  snd (toString_with e m f) = FOk (rendering (value (_level m)) ts d (_expression m) (_message m)).
Proof.
  intros e m f ts d T D. unfold toString_with, rendering. cbn [snd].
  unfold msg_wasFatal, wasFatal. cbn [_level overrideLogDetailsFunc].
  change (value FATAL) with 1000%Z. change (value FATAL_SIGNAL) with 2001%Z.
  change (value FATAL_EXCEPTION) with 2002%Z. change (value CONTRACT) with 2000%Z.
  unfold normalToString, fatalSignalToString, fatalExceptionToString, fatalLogToString, fatalCheckToString.
  cbn [_logDetailsToStringFunc overrideLogDetailsFunc]. fold (overrideLogDetailsFunc m f).
  rewrite timestamp_override, T, D. cbn [fbind].
  change (msg_message (overrideLogDetailsFunc m f)) with (_message m).
  change (msg_expression (overrideLogDetailsFunc m f)) with (_expression m).
  destruct (Z.leb_spec 1000 (value (_level m))) as [G|G]; destruct (Z.ltb_spec (value (_level m)) 1000) as [G'|G']; try lia.
  - cbn [negb]. rewrite !(Z.eqb_sym 2001), !(Z.eqb_sym 2002), !(Z.eqb_sym 1000), !(Z.eqb_sym 2000).
    destruct (Z.eqb_spec (value (_level m)) 2001) as [->|N1]; [reflexivity|].
    destruct (Z.eqb_spec (value (_level m)) 2002) as [->|N2]; [reflexivity|].
    destruct (Z.eqb_spec (value (_level m)) 1000) as [q3|N3].
    { reflexivity. }
    destruct (Z.eqb_spec (value (_level m)) 2000) as [q4|N4].
    { reflexivity. }
    unfold custom_fatal_entry. reflexivity.
  - reflexivity.
Qed.

(** messages built by the constructors have a level text without NUL *)
Definition level_clean (m : LogMessage) : Prop := ~ In NUL (text (_level m)).

Lemma copyLevel_clean : forall l, ~ In NUL (text l) -> copyLevel l = l.
Proof. intros [v t] H. unfold copyLevel. simpl in *. f_equal. now apply c_str_id. Qed.

Lemma copyMsg_clean : forall m, level_clean m -> copyMsg m = m.
Proof. intros m H. destruct m. unfold copyMsg, level_clean in *. simpl in *. now rewrite copyLevel_clean. Qed.

Lemma copyMsg_level_clean : forall m, level_clean (copyMsg m).
Proof. intro m. unfold level_clean, copyMsg. simpl. apply c_str_no_nul. Qed.

(** every message a client can get hold of: made by a constructor, then copied, moved, assigned,
    edited through write(), given an expression or a formatter *)
Inductive built : LogMessage -> Prop :=
| B_new : forall full now tid file line fn lv m, new_LogMessage full now tid file line fn lv = Some m -> built m
| B_crash : forall full now tid t m, new_LogMessage_crash full now tid t = Some m -> built m
| B_expr : forall m x, built m -> built (setExpression m x)
| B_write : forall m t, built m -> built (write_append m t)
| B_override : forall m f, built m -> built (overrideLogDetailsFunc m f)
| B_copy : forall m, built m -> built (copyMsg m)
| B_moved_to : forall left m, built m -> built (fst (moveMsg left m))
| B_moved_from : forall left m, built m -> built (snd (moveMsg left m))
| B_assign : forall a b, built a -> built b -> built (assignMsg a b).

Lemma new_clean : forall full now tid file line fn lv m,
  new_LogMessage full now tid file line fn lv = Some m -> level_clean m.
Proof.
  intros until m. unfold new_LogMessage. destruct (if full then _ else _); [|discriminate].
  intro H. injection H as <-. unfold level_clean. simpl. apply c_str_no_nul.
Qed.

Lemma built_clean : forall m, built m -> level_clean m.
Proof.
  induction 1; try assumption; try apply copyMsg_level_clean.
  - eapply new_clean; eauto.
  - unfold new_LogMessage_crash in H. destruct (new_LogMessage _ _ _ _ _ _ _) eqn:E; [|discriminate].
    injection H as <-. apply new_clean in E. exact E.
Qed.

Lemma contains_here : forall m b, contains m (m ++ b).
Proof. intros. now exists [], b. Qed.
Lemma contains_later : forall m a b, contains m b -> contains m (a ++ b).
Proof. intros m a b (x & y & ->). exists (a ++ x), y. now rewrite <- app_assoc. Qed.
