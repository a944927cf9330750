(** Facts about the stack dump. *)
From Coq Require Import Ascii String List ZArith NArith Bool Lia.
From Verif.Base Require Import Bytes.
From Verif.Model Require Import StackDump.
From Verif.Spec Require Import StackDumpSpec.
From Verif.Proofs Require Import BytesFacts FileNameFacts.
Import ListNotations.
Local Open Scope list_scope.

Lemma mem1 : forall c d, mem d [c] = true <-> d = c.
Proof. intros. rewrite mem_In. cbn. intuition. Qed.

Lemma first_of_here : forall set a c b i, (forall d, In d a -> mem d set = false) -> mem c set = true ->
  first_of_from set (a ++ c :: b) i = Some (i + length a).
Proof.
  induction a as [|x a IH]; intros c b i H M; cbn.
  - rewrite M. f_equal. lia.
  - rewrite H by (left; auto). rewrite IH; auto; [f_equal; lia|]. intros d D. apply H. now right.
Qed.

Lemma last_of_here : forall set a c b i, (forall d, In d b -> mem d set = false) -> mem c set = true ->
  last_of_from set (a ++ c :: b) i = Some (i + length a).
Proof.
  induction a as [|x a IH]; intros c b i H M; cbn.
  - replace (last_of_from set b (S i)) with (@None nat); [rewrite M; f_equal; lia|].
    symmetry. now apply last_of_from_none.
  - rewrite IH; auto. f_equal. lia.
Qed.

(** the three searches, for single characters and for the two-character text *)
Lemma find_last_1 : forall s c, (~ In c s /\ find_last_of s [c] = npos) \/
  exists a b, s = a ++ c :: b /\ ~ In c b /\ find_last_of s [c] = size a.
Proof.
  intros s c. unfold find_last_of. destruct (last_of_from [c] s 0) as [k|] eqn:E.
  - right. apply last_of_from_some in E as (p & d & q & -> & -> & M & Q). apply mem1 in M. subst d.
    exists p, q. split; auto. split; [|reflexivity]. intro I. apply Q in I.
    assert (mem c [c] = true) by now apply mem1. congruence.
  - left. split; auto. rewrite last_of_from_none in E. intro I. apply E in I.
    assert (mem c [c] = true) by now apply mem1. congruence.
Qed.

Lemma find_last_at : forall a c b, ~ In c b -> find_last_of (a ++ c :: b) [c] = size a.
Proof.
  intros a c b N. unfold find_last_of. rewrite last_of_here; [reflexivity| |now apply mem1].
  intros d D. destruct (mem d [c]) eqn:M; auto. apply mem1 in M. now subst.
Qed.

Lemma find_last_absent : forall s c, ~ In c s -> find_last_of s [c] = npos.
Proof. intros s c N. destruct (find_last_1 s c) as [[_ ->]|(a & b & -> & _)]; auto. exfalso. apply N. apply in_or_app. cbn. auto. Qed.

Lemma find_first_at : forall a c b, ~ In c a -> find_first_of (a ++ c :: b) [c] = size a.
Proof.
  intros a c b N. unfold find_first_of. rewrite first_of_here; [reflexivity| |now apply mem1].
  intros d D. destruct (mem d [c]) eqn:M; auto. apply mem1 in M. now subst.
Qed.

Lemma split_first : forall s (c : ascii), In c s -> exists a b, s = a ++ c :: b /\ ~ In c a.
Proof.
  induction s as [|x s IH]; intros c I; [destruct I|]. destruct (ascii_dec x c) as [->|n].
  - exists [], s. auto.
  - destruct I as [I|I]; [congruence|]. destruct (IH c I) as (a & b & -> & N). exists (x :: a), b. split; auto.
    intros [?|?]; auto.
Qed.

Lemma find_first_absent : forall s c, ~ In c s -> find_first_of s [c] = npos.
Proof.
  intros s c N. unfold find_first_of. replace (first_of_from [c] s 0) with (@None nat); auto.
  symmetry. apply first_of_from_none. intros d D. destruct (mem d [c]) eqn:M; auto. apply mem1 in M. now subst.
Qed.

Lemma last_sub_none : forall p s i, p <> [] -> last_sub_from p s i = None <-> ~ occurs p s.
Proof.
  intros p s i NE. revert i. induction s as [|c r IH]; intro i; cbn [last_sub_from].
  - split; auto. intros _ (a & b & E). symmetry in E. apply app_eq_nil in E as [_ E]. apply app_eq_nil in E as [E _]. contradiction.
  - destruct (last_sub_from p r (S i)) as [k|] eqn:E.
    + split; [discriminate|]. intro H. exfalso.
      assert (last_sub_from p r (S i) = None); [|congruence]. apply IH. intros (a & b & ->). apply H. exists (c :: a), b. reflexivity.
    + destruct (is_prefix p (c :: r)) eqn:P.
      * split; [discriminate|]. intro H. exfalso. apply is_prefix_spec in P as [t P]. apply H. exists [], t. exact P.
      * split; auto. intros _ (a & b & H). destruct a as [|x a].
        -- cbn [app] in H. assert (is_prefix p (c :: r) = true) by (apply is_prefix_spec; eauto). congruence.
        -- injection H as -> ->. apply IH in E. apply E. exists a, b. reflexivity.
Qed.

(** an occurrence with none starting later *)
Lemma last_sub_at : forall p a b i, p <> [] ->
  ~ occurs p (tl (p ++ b)) -> last_sub_from p (a ++ p ++ b) i = Some (i + length a).
Proof.
  intros p a b i NE N. revert i. induction a as [|c a IH]; intro i.
  - cbn [app length]. destruct p as [|x p]; [congruence|]. cbn [app last_sub_from]. cbn [app tl] in N.
    rewrite (proj2 (last_sub_none (x :: p) (p ++ b) (S i) NE)) by exact N.
    replace (is_prefix (x :: p) (x :: p ++ b)) with true; [f_equal; lia|].
    symmetry. apply is_prefix_spec. exists b. reflexivity.
  - cbn [app last_sub_from length]. rewrite IH. f_equal. lia.
Qed.

Lemma last_sub_split : forall p s i k, last_sub_from p s i = Some k -> exists a b, s = a ++ p ++ b /\ k = i + length a.
Proof.
  intros p. induction s as [|c r IH]; intros i k H; cbn [last_sub_from] in H; [discriminate|].
  destruct (last_sub_from p r (S i)) as [k'|] eqn:E.
  - injection H as ->. apply IH in E as (a & b & -> & ->). exists (c :: a), b. split; auto. cbn. lia.
  - destruct (is_prefix p (c :: r)) eqn:P; [|discriminate]. injection H as <-.
    apply is_prefix_spec in P as [t P]. exists [], t. split; auto.
Qed.

(** ** substr *)
Lemma substr_mid : forall a m b, substr (a ++ m ++ b) (size a) (size m) = Some m.
Proof.
  intros a m b. unfold substr. rewrite !size_app.
  destruct (N.ltb_spec (size a + (size m + size b)) (size a)) as [L|L]; [lia|].
  replace (N.min (size m) (size a + (size m + size b) - size a)) with (size m) by lia.
  unfold size. rewrite !Nat2N.id, skipn_exact, firstn_exact. reflexivity.
Qed.

Lemma substr_rest : forall a b n, (size b <= n)%N -> substr (a ++ b) (size a) n = Some b.
Proof.
  intros a b n H. unfold substr. rewrite !size_app.
  destruct (N.ltb_spec (size a + size b) (size a)) as [L|L]; [lia|].
  replace (N.min n (size a + size b - size a)) with (size b) by lia.
  unfold size. rewrite !Nat2N.id, skipn_exact, firstn_all. reflexivity.
Qed.

Lemma substr_ok : forall s pos n, (pos <= size s)%N -> exists t, substr s pos n = Some t.
Proof. intros s pos n H. unfold substr. destruct (N.ltb_spec (size s) pos); [lia|eauto]. Qed.

Lemma sz_sub_le : forall a b, (b <= a)%N -> (a < size_max)%N -> sz_sub a b = (a - b)%N.
Proof.
  intros a b L B. unfold sz_sub, sz. replace (a + size_max - b)%N with ((a - b) + 1 * size_max)%N by lia.
  rewrite N.mod_add by discriminate. apply N.mod_small. lia.
Qed.

Lemma size_cons : forall c s, size (c :: s) = (1 + size s)%N.
Proof. intros. unfold size. cbn [length]. lia. Qed.

Lemma not_npos : forall n, (n + 2 < size_max)%N -> (n =? npos)%N = false.
Proof. intros n H. apply N.eqb_neq. unfold npos, size_max in *. lia. Qed.

(** ** frames in brackets *)
Lemma parse_brackets : forall f inner, last_brackets f inner -> (size f + 2 < size_max)%N ->
  parse_frame f =
    if negb (find_first_of inner (lit "+") =? npos)%N then
      match substr inner 0 (find_first_of inner (lit "+")), substr inner (sz (find_first_of inner (lit "+") + 1)) npos with
      | Some m, Some o => Some (m, o) | _, _ => None end
    else Some ([], []).
Proof.
  intros f inner (front & back & E & N1 & N2 & N3) B.
  assert (F1 : find_last_of f (lit "(") = size front).
  { rewrite E. cbn [lit list_ascii_of_string app]. apply find_last_at.
    intro I. apply in_app_or in I as [I|[I|I]]; [contradiction|discriminate|contradiction]. }
  assert (F2 : find_last_of f (lit ")") = (size front + 1 + size inner)%N).
  { rewrite E. replace (front ++ lit "(" ++ inner ++ lit ")" ++ back) with ((front ++ lit "(" ++ inner) ++ ")"%char :: back).
    - cbn [lit list_ascii_of_string]. rewrite find_last_at by assumption. rewrite !size_app. change (size ["("%char]) with 1%N. lia.
    - rewrite <- !app_assoc. reflexivity. }
  assert (SF : (size f = size front + (1 + (size inner + (1 + size back))))%N).
  { rewrite E, !size_app. reflexivity. }
  unfold parse_frame. rewrite F1, F2, !not_npos by lia. cbn [negb andb].
  rewrite (sz_small (size front + 1)) by lia. rewrite (sz_sub_le _ (size front)) by lia. rewrite sz_sub_le by lia.
  replace (size front + 1 + size inner - size front - 1)%N with (size inner) by lia.
  assert (SB : substr f (size front + 1) (size inner) = Some inner).
  { rewrite E. replace (front ++ lit "(" ++ inner ++ lit ")" ++ back) with ((front ++ lit "(") ++ inner ++ (lit ")" ++ back)) by (rewrite <- app_assoc; reflexivity).
    replace (size front + 1)%N with (size (front ++ lit "(")) by (rewrite size_app; reflexivity). apply substr_mid. }
  rewrite SB. reflexivity.
Qed.

Lemma inner_bound : forall f inner, last_brackets f inner -> (size inner <= size f)%N.
Proof. intros f inner (front & back & -> & _). rewrite !size_app. lia. Qed.

Lemma parse_brackets_plus : forall f sym off, last_brackets f (sym ++ lit "+" ++ off) -> ~ In "+"%char sym ->
  (size f + 2 < size_max)%N -> parse_frame f = Some (sym, off).
Proof.
  intros f sym off L N B. rewrite (parse_brackets _ _ L B). pose proof (inner_bound _ _ L) as IB. rewrite !size_app in IB.
  change (lit "+" ++ off) with ("+"%char :: off). change (lit "+") with ["+"%char].
  rewrite find_first_at by assumption. change (size (lit "+")) with 1%N in IB. rewrite not_npos by lia. cbn [negb].
  change 0%N with (size []). rewrite (substr_mid [] sym ("+"%char :: off) : substr (sym ++ _) (size []) (size sym) = Some sym).
  rewrite sz_small by lia.
  replace (sym ++ "+"%char :: off) with ((sym ++ ["+"%char]) ++ off) by (rewrite <- app_assoc; reflexivity).
  replace (size sym + 1)%N with (size (sym ++ ["+"%char])) by (rewrite size_app; reflexivity).
  rewrite substr_rest; [reflexivity|]. unfold npos, size_max in *. lia.
Qed.

Lemma parse_brackets_none : forall f inner, last_brackets f inner -> ~ In "+"%char inner ->
  (size f + 2 < size_max)%N -> parse_frame f = Some ([], []).
Proof.
  intros f inner L N B. rewrite (parse_brackets _ _ L B). change (lit "+") with ["+"%char].
  rewrite find_first_absent by assumption. reflexivity.
Qed.

(** ** frames without *)
Lemma parse_plain : forall f, no_brackets f ->
  parse_frame f =
    let plusSign := find_first_of f (lit "+") in
    let lastUnderscore := rfind f (lit " _") in
    if negb (plusSign =? npos)%N && negb (lastUnderscore =? npos)%N then
      match substr f (sz (lastUnderscore + 1)) (sz_sub (sz_sub plusSign lastUnderscore) 2) with
      | None => None
      | Some m => match substr f (sz (plusSign + 2)) npos with None => None | Some o => Some (m, o) end
      end
    else Some ([], []).
Proof.
  intros f [N|N]; unfold parse_frame; change (lit "(") with ["("%char]; change (lit ")") with [")"%char]; [rewrite (find_last_absent f "(") by assumption|rewrite (find_last_absent f ")") by assumption].
  - rewrite N.eqb_refl. reflexivity.
  - rewrite N.eqb_refl, andb_false_r. reflexivity.
Qed.

Lemma parse_macos : forall f sym off, symbol_frame f sym off -> no_brackets f ->
  ~ last_brackets f (sym ++ lit "+" ++ off) -> (size f + 2 < size_max)%N -> parse_frame f = Some (sym, off).
Proof.
  intros f sym off [L|front NB E (r & R) O N1 N2 N3] NB' NL B; [contradiction|]. clear NB'. rewrite (parse_plain f NB). cbn zeta.
  assert (SF : (size f = size front + (1 + (size sym + (3 + size off))))%N) by (rewrite E, !size_app; reflexivity).
  assert (S1 : (1 <= size sym)%N) by (rewrite R; change (lit "_" ++ r) with ("_"%char :: r); rewrite size_cons; lia).
  assert (P : find_first_of f (lit "+") = (size front + 1 + size sym + 1)%N).
  { rewrite E. replace (front ++ lit " " ++ sym ++ lit " + " ++ off) with ((front ++ lit " " ++ sym ++ lit " ") ++ "+"%char :: (" "%char :: off))
      by (rewrite <- !app_assoc; reflexivity).
    change (lit "+") with ["+"%char]. rewrite find_first_at.
    - rewrite !size_app. change (size (lit " ")) with 1%N. lia.
    - intro I. apply in_app_or in I as [I|I]; [contradiction|]. cbn [lit list_ascii_of_string app] in I. destruct I as [I|I]; [discriminate|].
      apply in_app_or in I as [I|[I|[]]]; [contradiction|discriminate]. }
  assert (U : rfind f (lit " _") = size front).
  { unfold rfind. replace f with (front ++ lit " _" ++ (r ++ lit " + " ++ off)).
    - rewrite last_sub_at; [reflexivity|discriminate|].
      rewrite R in N3. exact N3.
    - rewrite E, R. reflexivity. }
  rewrite P, U, !not_npos by lia. cbn [negb andb].
  rewrite (sz_small (size front + 1)), (sz_small (size front + 1 + size sym + 1 + 2)) by lia.
  rewrite (sz_sub_le _ (size front)) by lia. rewrite sz_sub_le by lia.
  replace (size front + 1 + size sym + 1 - size front - 2)%N with (size sym) by lia.
  assert (X1 : substr f (size front + 1) (size sym) = Some sym).
  { rewrite E. replace (front ++ lit " " ++ sym ++ lit " + " ++ off) with ((front ++ lit " ") ++ sym ++ (lit " + " ++ off)) by (rewrite <- !app_assoc; reflexivity).
    replace (size front + 1)%N with (size (front ++ lit " ")) by (rewrite size_app; reflexivity). apply substr_mid. }
  assert (X2 : substr f (size front + 1 + size sym + 1 + 2) npos = Some off).
  { rewrite E. replace (front ++ lit " " ++ sym ++ lit " + " ++ off) with ((front ++ lit " " ++ sym ++ lit " + ") ++ off) by (rewrite <- !app_assoc; reflexivity).
    replace (size front + 1 + size sym + 1 + 2)%N with (size (front ++ lit " " ++ sym ++ lit " + ")).
    - apply substr_rest. unfold npos, size_max in *. lia.
    - rewrite !size_app. change (size (lit " ")) with 1%N. change (size (lit " + ")) with 3%N. lia. }
  rewrite X1, X2. reflexivity.
Qed.

Lemma brackets_exclusive : forall f inner, last_brackets f inner -> ~ no_brackets f.
Proof.
  intros f inner (front & back & -> & _) [N|N]; apply N; rewrite ?in_app_iff; cbn; auto 8.
Qed.

Lemma parse_symbol : forall f sym off, symbol_frame f sym off -> (size f + 2 < size_max)%N -> parse_frame f = Some (sym, off).
Proof.
  intros f sym off H B. pose proof H as [L N _ _|front NB _ _ _ _ _ _].
  - now apply parse_brackets_plus.
  - apply parse_macos; auto. intro L. now apply (brackets_exclusive _ _ L).
Qed.

Lemma find_first_split : forall s c, (~ In c s /\ find_first_of s [c] = npos) \/
  exists a b, s = a ++ c :: b /\ ~ In c a /\ find_first_of s [c] = size a.
Proof.
  intros s c. destruct (in_dec ascii_dec c s) as [I|N].
  - right. apply split_first in I as (a & b & -> & N). exists a, b. split; auto. split; auto. now apply find_first_at.
  - left. split; auto. now apply find_first_absent.
Qed.


Lemma plain_throws : forall f, (size f + 2 < size_max)%N -> no_brackets f -> parse_frame f = None <-> bad_frame f.
Proof.
  intros f B NB.
  rewrite (parse_plain f NB). cbn zeta.
  change (lit "+") with ["+"%char].
  destruct (find_first_split f "+") as [[N F]|(x & y & E & N & F)]; rewrite F.
  - rewrite N.eqb_refl. cbn [negb andb]. split; [discriminate|]. intros (_ & _ & p & -> & _). exfalso. apply N. apply in_or_app. cbn. auto.
  - assert (SX : (size f = size x + (1 + size y))%N) by (rewrite E, size_app, size_cons; lia).
    rewrite not_npos by lia. cbn [negb andb]. unfold rfind.
    destruct (last_sub_from (lit " _") f 0) as [k|] eqn:U.
    + pose proof (last_sub_split _ _ _ _ U) as (u & v & EU & ->). cbn [plus]. fold (size u).
      assert (SU : (size f = size u + (2 + size v))%N) by (rewrite EU, !size_app; reflexivity).
      rewrite not_npos by lia. cbn [negb]. rewrite (sz_small (size u + 1)), (sz_small (size x + 2)) by lia.
      destruct (substr_ok f (size u + 1) (sz_sub (sz_sub (size x) (size u)) 2)) as [m ->]; [lia|].
      destruct y as [|c y].
      -- unfold substr. rewrite SX. change (size []) with 0%N. destruct (N.ltb_spec (size x + (1 + 0)) (size x + 2)); [|lia].
         split; auto. intros _. split; auto. split; [exists u, v; exact EU|]. exists x. auto.
      -- destruct (substr_ok f (size x + 2) npos) as [o ->]; [rewrite SX, size_cons; lia|].
         split; [discriminate|]. intros (_ & _ & p & EP & NP). exfalso.
         rewrite EP in E. apply (f_equal (@rev ascii)) in E. rewrite rev_app_distr in E. cbn in E.
         rewrite rev_app_distr in E. cbn in E. rewrite <- !app_assoc in E. cbn in E.
         assert (In "+"%char p); [|contradiction].
         assert (I : In "+"%char (rev p)).
         { destruct (rev y) as [|d q] eqn:R; cbn in E.
           - injection E as E1 E2. rewrite E2. cbn. auto.
           - injection E as E1 E2. rewrite E2. rewrite !in_app_iff. cbn. auto. }
         now apply in_rev in I.
    + rewrite N.eqb_refl. cbn [negb]. split; [discriminate|]. intros (_ & O & _). exfalso.
      apply last_sub_none in U; [contradiction|discriminate].
Qed.

Lemma parse_throws : forall f, (size f + 2 < size_max)%N -> parse_frame f = None <-> bad_frame f.
Proof.
  intros f B.
  destruct (find_last_1 f "(") as [[N1 F1]|(a & b & E & N1 & F1)]; [apply plain_throws; auto; now left|].
  destruct (find_last_1 f ")") as [[N2 F2]|(a2 & b2 & E2 & N2 & F2)]; [apply plain_throws; auto; now right|].
  split; [|intros ([N|N] & _); exfalso; apply N; [rewrite E|rewrite E2]; apply in_or_app; cbn; auto].
      unfold parse_frame. change (lit "(") with ["("%char]. change (lit ")") with [")"%char]. rewrite F1, F2.
      assert (SA : (size f = size a + (1 + size b))%N) by (rewrite E, size_app, size_cons; lia).
      assert (SA2 : (size f = size a2 + (1 + size b2))%N) by (rewrite E2, size_app, size_cons; lia).
      rewrite !not_npos by lia. cbn [negb andb]. rewrite sz_small by lia.
      destruct (substr_ok f (size a + 1) (sz_sub (sz_sub (size a2) (size a)) 1)) as [m M]; [lia|]. rewrite M.
      assert (SM : (size m <= size f)%N).
      { unfold substr in M. destruct (size f <? size a + 1)%N; [discriminate|]. injection M as <-.
        unfold size. rewrite firstn_length, skipn_length. lia. }
      change (lit "+") with ["+"%char].
      destruct (find_first_split m "+") as [[N F]|(x & y & EE & N & F)]; rewrite F.
      * rewrite N.eqb_refl. discriminate.
      * assert (SX : (size m = size x + (1 + size y))%N) by (rewrite EE, size_app, size_cons; lia).
        rewrite not_npos by lia. cbn [negb]. rewrite sz_small by lia.
        destruct (substr_ok m 0 (size x)) as [o1 ->]; [lia|]. destruct (substr_ok m (size x + 1) npos) as [o2 ->]; [lia|]. discriminate.
Qed.

Lemma parse_opaque : forall f, opaque_frame f -> (size f + 2 < size_max)%N -> ~ bad_frame f ->
  exists m o, parse_frame f = Some (m, o) /\ (m = [] \/ o = []).
Proof.
  intros f H B NB. destruct H as [N|inner L N|off L|sym L N|NBr NO].
  - destruct (parse_frame f) as [[m o]|] eqn:P; [|exfalso; now apply NB, parse_throws]. exists m, o. split; auto.
    destruct (find_last_1 f "(") as [[N1 F1]|(a & b & E & N1 & F1)].
    + rewrite (parse_plain f (or_introl N1)) in P. cbn zeta in P. change (lit "+") with ["+"%char] in P.
      rewrite find_first_absent in P by assumption. rewrite N.eqb_refl in P. cbn in P. injection P as <- _. auto.
    + destruct (find_last_1 f ")") as [[N2 F2]|(a2 & b2 & E2 & N2 & F2)].
      * rewrite (parse_plain f (or_intror N2)) in P. cbn zeta in P. change (lit "+") with ["+"%char] in P.
        rewrite find_first_absent in P by assumption. rewrite N.eqb_refl in P. cbn in P. injection P as <- _. auto.
      * unfold parse_frame in P. change (lit "(") with ["("%char] in P. change (lit ")") with [")"%char] in P. rewrite F1, F2 in P.
        assert (SA : (size f = size a + (1 + size b))%N) by (rewrite E, size_app, size_cons; lia).
        assert (SA2 : (size f = size a2 + (1 + size b2))%N) by (rewrite E2, size_app, size_cons; lia).
        rewrite !not_npos in P by lia. cbn [negb andb] in P.
        destruct (substr f (sz (size a + 1)) (sz_sub (sz_sub (size a2) (size a)) 1)) as [x|] eqn:M; [|discriminate].
        change (lit "+") with ["+"%char] in P. rewrite (find_first_absent x "+") in P.
        -- rewrite N.eqb_refl in P. cbn in P. injection P as <- _. auto.
        -- intro I. apply N. unfold substr in M. destruct (_ <? _)%N; [discriminate|]. injection M as <-.
           apply (In_nth _ _ NUL) in I as (k & K1 & K2).
           set (l := skipn (N.to_nat (sz (size a + 1))) f) in *.
           assert (I : In "+"%char l).
           { rewrite <- K2. rewrite <- (firstn_skipn (N.to_nat (N.min (sz_sub (sz_sub (size a2) (size a)) 1) (size f - sz (size a + 1)))) l) at 2.
             apply in_or_app. left. now apply nth_In. }
           unfold l in I. rewrite <- (firstn_skipn (N.to_nat (sz (size a + 1))) f). apply in_or_app. auto.
  - exists [], []. split; auto. now apply (parse_brackets_none f inner).
  - exists [], off. split; auto. apply (parse_brackets_plus f [] off); auto.
  - exists sym, []. split; auto. apply (parse_brackets_plus f sym []); auto.
  - exists [], []. split; auto. rewrite (parse_plain f NBr). cbn zeta. unfold rfind.
    rewrite (proj2 (last_sub_none (lit " _") f 0 ltac:(discriminate)) NO). rewrite N.eqb_refl, andb_false_r. reflexivity.
Qed.
