(** Every object has one holder; what is on the way to a sink is unchanged. *)
From Coq Require Import Ascii String List Arith Bool ZArith Lia.
From Verif.Base Require Import Bytes Threads.
From Verif.Model Require Import Levels Message Copies.
From Verif.Proofs Require Import MessageFacts.
Import ListNotations.
Local Open Scope list_scope.
Local Open Scope nat_scope.

Lemma at_app : forall h m a, at_ (h ++ [m]) a = if Nat.eqb a (length h) then m else at_ h a.
Proof.
  intros h m a. unfold at_, get. destruct (Nat.eqb_spec a (length h)) as [->|N].
  - rewrite app_nth2, Nat.sub_diag by lia. reflexivity.
  - destruct (Nat.lt_ge_cases a (length h)); [now rewrite app_nth1|]. rewrite !nth_overflow; auto. rewrite app_length. cbn. lia.
Qed.
Lemma at_upd : forall h a m b, a < length h -> at_ (upd h a m) b = if Nat.eqb b a then m else at_ h b.
Proof. intros. unfold at_. now apply get_upd. Qed.
(** passing on: the new address is new, or the old one; the content is the same; nothing else is touched *)
Lemma pass_on_spec : forall hops h a h' b, pass_on h a hops = (h', b) -> a < length h -> copyMsg (at_ h a) = at_ h a ->
  at_ h' b = at_ h a /\ b < length h' /\ length h <= length h' /\ (b = a \/ length h <= b) /\ forall d, d < length h -> d <> a -> at_ h' d = at_ h d.
Proof.
  induction hops as [|lf hops IH]; intros h a h' b E L C; cbn [pass_on] in E; [injection E as <- <-; auto 6|].
  set (h1 := upd h a (snd (moveMsg lf (at_ h a))) ++ [fst (moveMsg lf (at_ h a))]) in *.
  assert (LN : length h1 = S (length h)) by (unfold h1; rewrite app_length, upd_length; cbn; lia).
  assert (A1 : forall d, at_ h1 d = if Nat.eqb d (length h) then at_ h a else if Nat.eqb d a then snd (moveMsg lf (at_ h a)) else at_ h d).
  { intro d. unfold h1. rewrite at_app, upd_length. destruct (Nat.eqb d (length h)); [exact C|]. now apply at_upd. }
  assert (AN : at_ h1 (length h) = at_ h a) by (rewrite A1, Nat.eqb_refl; reflexivity).
  destruct (IH h1 (length h) h' b E) as (P1 & P2 & P3 & P4 & P5); [lia|now rewrite AN|]. rewrite AN in P1. repeat split; auto; [lia|lia|].
  intros d LD ND. rewrite P5 by lia. rewrite A1. destruct (Nat.eqb_spec d (length h)); [lia|]. destruct (Nat.eqb_spec d a); [contradiction|reflexivity].
Qed.

Definition occ (a : nat) (l : list nat) : nat := count_occ Nat.eq_dec l a.
Definition occs (a : nat) (l : list (list nat)) : nat := weigh (occ a) l.
Definition held (s : kstate) (a : nat) : nat := occs a (k_qs s) + occs a (k_own s) + match k_cur s with Some (u, _) => b2n (Nat.eqb u a) | None => 0 end.
(** the messages that sink k should have been sent by now *)
Definition due (s : kstate) (k : nat) : list LogMessage :=
  match k_cur s with Some (_, todo) => if existsb (Nat.eqb k) todo then removelast (k_log s) else k_log s | None => k_log s end.
Record invK (n : nat) (s : kstate) : Prop := {
  kl : length (k_qs s) = n /\ length (k_own s) = n /\ length (k_seen s) = n;
  k_one : forall a, held s a <= 1;
  k_lt : forall a, 0 < held s a -> a < length (k_heap s);
  k_due : forall k, k < n -> row (k_seen s) k ++ map (at_ (k_heap s)) (row (k_qs s) k) = due s k;
  k_msg : forall u todo, k_cur s = Some (u, todo) -> exists l, k_log s = l ++ [at_ (k_heap s) u];
  k_todo : forall u todo, k_cur s = Some (u, todo) -> NoDup todo /\ forall k, In k todo -> k < n
}.
Lemma occ_app : forall o a b, occ o (a ++ b) = occ o a + occ o b.
Proof. intros. apply count_occ_app. Qed.
Lemma occ_In : forall o l, In o l <-> 0 < occ o l.
Proof. intros. unfold occ. rewrite (count_occ_In Nat.eq_dec). lia. Qed.
Lemma occ_cons : forall o x l, occ o (x :: l) = b2n (Nat.eqb x o) + occ o l.
Proof. intros. unfold occ. cbn [count_occ]. destruct (Nat.eq_dec x o) as [->|N]; [now rewrite Nat.eqb_refl|]. apply Nat.eqb_neq in N. now rewrite N. Qed.
Lemma occ_nil : forall o, occ o [] = 0.
Proof. reflexivity. Qed.
Lemma row_upd : forall A (l : list (list A)) k x j, k < length l -> row (upd l k x) j = if Nat.eqb j k then x else row l j.
Proof. intros. unfold row. now apply get_upd. Qed.
Lemma row_lt : forall A (l : list (list A)) k a, In a (row l k) -> k < length l.
Proof. intros A l k a H. apply (get_in []). intro E. unfold row in H. rewrite E in H. destruct H. Qed.
Lemma occs_upd : forall a l k x, k < length l -> occs a (upd l k x) + occ a (row l k) = occs a l + occ a x.
Proof. intros. unfold occs, row. now apply weigh_upd. Qed.
Lemma occs_get : forall a l k, k < length l -> occ a (row l k) <= occs a l.
Proof. intros. unfold occs, row. now apply weigh_get. Qed.
Lemma occs_two : forall a l k j, k < length l -> j < length l -> k <> j -> occ a (row l k) + occ a (row l j) <= occs a l.
Proof.
  intros a l k j K J N. pose proof (occs_upd a l k [] K) as W. pose proof (occs_get a (upd l k []) j) as V. rewrite upd_length in V. specialize (V J). rewrite row_upd in V by exact K. destruct (Nat.eqb_spec j k); [congruence|]. rewrite occ_nil in W. lia.
Qed.
Lemma fatal_built : forall m r, built m -> built (fatal_form m r).
Proof. intros. unfold fatal_form. now apply B_write, B_write. Qed.
Lemma map_at_eq : forall h h' l, (forall a, In a l -> at_ h' a = at_ h a) -> map (at_ h') l = map (at_ h) l.
Proof. intros. now apply map_ext_in. Qed.
Lemma due_built : forall s k, Forall built (k_log s) -> Forall built (due s k).
Proof.
  intros s k F. unfold due. destruct (k_cur s) as [[u todo]|]; auto. destruct (existsb (Nat.eqb k) todo); auto. rewrite Forall_forall in *. intros x H. apply F. clear -H. induction (k_log s) as [|y l IH]; [destruct H|]. cbn in H. destruct l; [destruct H|]. destruct H as [->|H]; [now left|right; auto].
Qed.
Lemma has_In : forall k l, existsb (Nat.eqb k) l = true <-> In k l.
Proof. intros. rewrite existsb_exists. split; [intros (x & A & B); apply Nat.eqb_eq in B as ->; exact A|intro H; exists k; split; [exact H|apply Nat.eqb_refl]]. Qed.
Lemma has_not : forall k l, existsb (Nat.eqb k) l = false <-> ~ In k l.
Proof. intros. rewrite <- has_In. destruct (existsb (Nat.eqb k) l); split; intro H; congruence || (exfalso; auto). Qed.
Lemma kinit_inv : forall n, invK n (k_init n).
Proof.
  intro n. assert (R : forall A k, row (repeat (@nil A) n) k = []) by (intros A k; unfold row, get; destruct (Nat.lt_ge_cases k n); [apply nth_repeat|apply nth_overflow; rewrite repeat_length; lia]).
  assert (Z : forall a, occs a (repeat [] n) = 0) by (intro a; clear R; unfold occs, weigh; induction n as [|n IH]; [reflexivity|]; cbn [repeat map]; rewrite occ_nil; exact IH).
  split; cbn [k_init k_heap k_cur k_qs k_own k_seen k_log]; rewrite ?repeat_length; auto; try discriminate.
  - intro a. unfold held. cbn [k_init k_qs k_own k_cur]. rewrite !Z. lia.
  - intros a H. unfold held in H. cbn [k_init k_qs k_own k_cur] in H. rewrite !Z in H. lia.
  - intros k L. rewrite !R. reflexivity.
Qed.
Lemma kstep_inv : forall n s a s', invK n s -> Forall built (k_log s') -> kstep s a = Some s' -> invK n s'.
Proof.
  intros n s a s' I F E. pose proof I as [[Q1 [Q2 Q3]] I1 I2 I3 I4 I5].
  assert (BG : forall m, begin_ s m = Some s' -> invK n s').
  { intros m H. unfold begin_ in H. destruct (k_cur s) as [|] eqn:C; [discriminate|]. injection H as <-. set (u := length (k_heap s)).
    assert (HU : forall a, held (mkK (k_heap s ++ [m]) (Some (u, seq 0 (length (k_qs s)))) (k_qs s) (k_own s) (k_seen s) (k_log s ++ [m])) a = held s a + b2n (Nat.eqb u a)) by (intro a0; unfold held; cbn [k_qs k_own k_cur]; rewrite C; lia).
    assert (HZ : held s u = 0) by (destruct (Nat.eq_dec (held s u) 0) as [|N]; auto; pose proof (I2 u ltac:(lia)); unfold u in *; lia).
    split; cbn [k_heap k_cur k_qs k_own k_seen k_log]; auto.
    - intro b. rewrite HU. destruct (Nat.eqb_spec u b) as [EQ|]; cbn [b2n]; [rewrite <- EQ; lia|]. specialize (I1 b). lia.
    - intros b H. rewrite HU in H. rewrite app_length. cbn [length]. destruct (Nat.eqb_spec u b) as [EQ|]; [unfold u in EQ; lia|]. cbn [b2n] in H. specialize (I2 b ltac:(lia)). lia.
    - intros k L. unfold due. cbn [k_cur k_log]. assert (HK : existsb (Nat.eqb k) (seq 0 (length (k_qs s))) = true) by (apply has_In, in_seq; lia). rewrite HK, removelast_last.
      specialize (I3 k L). unfold due in I3. rewrite C in I3. rewrite <- I3. f_equal. apply map_at_eq. intros b Hb. rewrite at_app. destruct (Nat.eqb_spec b (length (k_heap s))) as [EQ|]; try subst b; [|reflexivity]. exfalso.
      pose proof (occs_get u (k_qs s) k ltac:(lia)) as G. apply occ_In in Hb. fold u in Hb. unfold held in HZ. lia.
    - intros v todo H. injection H as <- <-. exists (k_log s). rewrite at_app. unfold u. rewrite Nat.eqb_refl. reflexivity.
    - intros v todo H. injection H as <- <-. split; [apply seq_NoDup|]. intros k H. apply in_seq in H. lia. }
  destruct a as [m|m reason|hops| |k hops|k b m]; cbn [kstep] in E; eauto.
  - (* KSend *)
    destruct (k_cur s) as [[u [|k todo]]|] eqn:C; try discriminate. set (h := k_heap s ++ [copyMsg (at_ (k_heap s) u)]) in *. destruct (pass_on h (length (k_heap s)) hops) as [h1 b] eqn:P. injection E as <-. cbn [k_log] in F.
    destruct (I5 u (k :: todo) eq_refl) as [ND LT]. inversion ND as [|? ? NI ND2]; subst x l. pose proof (LT k (or_introl eq_refl)) as LK. destruct (I4 u (k :: todo) eq_refl) as [l LOG].
    assert (CB : built (at_ (k_heap s) u)) by (rewrite Forall_forall in F; apply F; rewrite LOG; apply in_or_app; right; now left). apply built_clean in CB. apply copyMsg_clean in CB.
    assert (HN : at_ h (length (k_heap s)) = at_ (k_heap s) u) by (unfold h; rewrite at_app, Nat.eqb_refl; exact CB).
    assert (LH : length h = S (length (k_heap s))) by (unfold h; rewrite app_length; cbn; lia).
    destruct (pass_on_spec _ _ _ _ _ P) as (P1 & P2 & P3 & P4 & P5); [lia|now rewrite HN|].
    assert (OLD : forall d, d < length (k_heap s) -> at_ h1 d = at_ (k_heap s) d).
    { intros d LD. rewrite P5 by lia. unfold h. rewrite at_app. destruct (Nat.eqb_spec d (length (k_heap s))); [lia|reflexivity]. }
    assert (LB : length (k_heap s) <= b) by (destruct P4; lia).
    assert (HU : forall a, held (mkK h1 (Some (u, todo)) (upd (k_qs s) k (row (k_qs s) k ++ [b])) (k_own s) (k_seen s) (k_log s)) a = held s a + b2n (Nat.eqb b a)).
    { intro a. unfold held. cbn [k_qs k_own k_cur]. rewrite C. pose proof (occs_upd a (k_qs s) k (row (k_qs s) k ++ [b]) ltac:(lia)) as W. rewrite occ_app, occ_cons, occ_nil in W. lia. }
    assert (HZ : held s b = 0) by (destruct (Nat.eq_dec (held s b) 0) as [|N]; auto; pose proof (I2 b ltac:(lia)); lia).
    assert (HC : 0 < held s u) by (unfold held; rewrite C, Nat.eqb_refl; cbn; lia). pose proof (I2 u HC) as LU.
    split; cbn [k_heap k_cur k_qs k_own k_seen k_log]; rewrite ?upd_length; auto.
    + intro d. rewrite HU. destruct (Nat.eqb_spec b d) as [EQ|]; cbn [b2n]; [rewrite <- EQ; lia|]. specialize (I1 d). lia.
    + intros d H. rewrite HU in H. destruct (Nat.eqb_spec b d) as [EQ|]; [rewrite <- EQ; exact P2|]. cbn [b2n] in H. specialize (I2 d ltac:(lia)). lia.
    + intros j L. rewrite row_upd by lia. specialize (I3 j L). unfold due in *. cbn [k_cur k_log]. rewrite C in I3. cbn [existsb] in I3.
      assert (KQ : map (at_ h1) (row (k_qs s) j) = map (at_ (k_heap s)) (row (k_qs s) j)).
      { apply map_at_eq. intros d H. apply OLD. apply I2. apply occ_In in H. pose proof (occs_get d (k_qs s) j ltac:(lia)). unfold held. lia. }
      destruct (Nat.eqb_spec j k) as [EQ|N]; try subst j.
      * assert (HK : existsb (Nat.eqb k) todo = false) by (apply has_not; exact NI). rewrite HK. cbn [orb] in I3. rewrite map_app, KQ, app_assoc, I3. cbn [map]. rewrite P1, HN, LOG, removelast_last. reflexivity.
      * cbn [orb] in I3. rewrite KQ. exact I3.
    + intros v t H. injection H as <- <-. exists l. rewrite OLD by exact LU. exact LOG.
    + intros v t H. injection H as <- <-. split; [exact ND2|]. intros j H. apply LT. now right.
  - (* KDone *)
    destruct (k_cur s) as [[u [|k todo]]|] eqn:C; try discriminate. injection E as <-.
    assert (HU : forall a, held (mkK (k_heap s) None (k_qs s) (k_own s) (k_seen s) (k_log s)) a <= held s a) by (intro a; unfold held; cbn [k_qs k_own k_cur]; rewrite C; lia).
    split; cbn [k_heap k_cur k_qs k_own k_seen k_log]; auto; try discriminate.
    + intro b. specialize (HU b). specialize (I1 b). lia.
    + intros b H. apply I2. specialize (HU b). lia.
    + intros k L. specialize (I3 k L). unfold due in *. rewrite C in I3. exact I3.
  - (* KRecv *)
    destruct (row (k_qs s) k) as [|a q] eqn:Q; [discriminate|]. destruct (pass_on (k_heap s) a hops) as [h1 b] eqn:P. injection E as <-. cbn [k_log] in F.
    assert (LK : k < length (k_qs s)) by (apply (row_lt _ _ _ a); rewrite Q; now left). pose proof (I3 k ltac:(lia)) as DU. rewrite Q in DU. cbn [map] in DU.
    assert (CB : built (at_ (k_heap s) a)).
    { pose proof (due_built s k F) as B. rewrite <- DU, Forall_forall in B. apply B. apply in_or_app. right. now left. }
    apply built_clean in CB. apply copyMsg_clean in CB.
    assert (HA : 0 < held s a) by (pose proof (occs_get a (k_qs s) k LK) as G; rewrite Q, occ_cons, Nat.eqb_refl in G; cbn [b2n] in G; unfold held; lia). pose proof (I2 a HA) as LA. pose proof (I1 a) as A1.
    destruct (pass_on_spec _ _ _ _ _ P LA CB) as (P1 & P2 & P3 & P4 & P5).
    set (s1 := mkK h1 (k_cur s) (upd (k_qs s) k q) (upd (k_own s) k (row (k_own s) k ++ [b])) (upd (k_seen s) k (row (k_seen s) k ++ [at_ h1 b])) (k_log s)) in *.
    assert (HU : forall d, held s1 d + b2n (Nat.eqb a d) = held s d + b2n (Nat.eqb b d)).
    { intro d. unfold held, s1. cbn [k_qs k_own k_cur]. pose proof (occs_upd d (k_qs s) k q LK) as W1. pose proof (occs_upd d (k_own s) k (row (k_own s) k ++ [b]) ltac:(lia)) as W2. rewrite occ_app, occ_cons, occ_nil in W2. rewrite Q, occ_cons in W1. lia. }
    assert (HB : b <> a -> held s b = 0) by (intro N; destruct (Nat.eq_dec (held s b) 0) as [|NZ]; auto; pose proof (I2 b ltac:(lia)); destruct P4; [contradiction|lia]).
    assert (OTH : forall d, 0 < held s d -> d <> a -> at_ h1 d = at_ (k_heap s) d) by (intros d H N; apply P5; auto).
    (* a is not elsewhere *)
    assert (NQ : forall j d, j < n -> In d (if Nat.eqb j k then q else row (k_qs s) j) -> d <> a).
    { intros j d L H ->. apply occ_In in H. destruct (Nat.eqb_spec j k) as [EQ|N]; try subst j.
      - pose proof (occs_get a (k_qs s) k LK) as G. rewrite Q, occ_cons, Nat.eqb_refl in G. cbn [b2n] in G. unfold held in A1. lia.
      - pose proof (occs_two a (k_qs s) j k ltac:(lia) LK N) as G. rewrite Q, occ_cons, Nat.eqb_refl in G. cbn [b2n] in G. unfold held in A1. lia. }
    split; unfold s1; cbn [k_heap k_cur k_qs k_own k_seen k_log]; rewrite ?upd_length; auto.
    + intro d. change (held s1 d <= 1). specialize (HU d). specialize (I1 d). destruct (Nat.eqb_spec a d) as [E1|N1]; destruct (Nat.eqb_spec b d) as [E2|N2]; cbn [b2n] in HU; try lia. rewrite <- E2, HB in HU by congruence. rewrite <- E2. lia.
    + intros d H. change (0 < held s1 d) in H. specialize (HU d). destruct (Nat.eqb_spec b d) as [EQ|N2]; [rewrite <- EQ; exact P2|]. cbn [b2n] in HU. specialize (I2 d ltac:(lia)). lia.
    + intros j L. rewrite !row_upd by lia. change (due s1 j) with (due s j). specialize (I3 j L).
      assert (KQ : map (at_ h1) (if Nat.eqb j k then q else row (k_qs s) j) = map (at_ (k_heap s)) (if Nat.eqb j k then q else row (k_qs s) j)).
      { apply map_at_eq. intros d H. apply OTH; [|eapply NQ; eauto]. apply occ_In in H. pose proof (occs_get d (k_qs s) j ltac:(lia)) as G. destruct (Nat.eqb_spec j k) as [EQ|]; try subst j; [rewrite Q, occ_cons in G|]; unfold held; lia. }
      rewrite KQ. destruct (Nat.eqb_spec j k) as [EQ|N]; try subst j; [|exact I3]. rewrite P1, <- app_assoc. exact DU.
    + intros u todo H. destruct (I4 u todo H) as [l LOG]. exists l. rewrite OTH; [exact LOG| |].
      * unfold held. rewrite H, Nat.eqb_refl. cbn. lia.
      * intros ->. pose proof (occs_get a (k_qs s) k LK) as G. rewrite Q, occ_cons, Nat.eqb_refl in G. unfold held in A1. rewrite H, Nat.eqb_refl in A1. cbn [b2n] in *. lia.
  - (* KEdit *)
    destruct (existsb (Nat.eqb b) (row (k_own s) k)) eqn:O; [|discriminate]. injection E as <-. apply has_In in O. pose proof (row_lt _ _ _ _ O) as LK. apply occ_In in O. pose proof (occs_get b (k_own s) k LK) as G. pose proof (I1 b) as A1.
    assert (LB : b < length (k_heap s)) by (apply I2; unfold held; lia).
    split; cbn [k_heap k_cur k_qs k_own k_seen k_log]; rewrite ?upd_length; auto.
    + intros j L. change (due (mkK (upd (k_heap s) b m) (k_cur s) (k_qs s) (k_own s) (k_seen s) (k_log s)) j) with (due s j). rewrite <- (I3 j L). f_equal. apply map_at_eq. intros d H. rewrite at_upd by exact LB. destruct (Nat.eqb_spec d b) as [EQ|]; try subst d; [|reflexivity]. exfalso.
      apply occ_In in H. pose proof (occs_get b (k_qs s) j ltac:(lia)). unfold held in A1. lia.
    + intros u todo H. destruct (I4 u todo H) as [l LOG]. exists l. rewrite at_upd by exact LB. destruct (Nat.eqb_spec u b) as [EQ|]; try subst u; [|exact LOG]. exfalso. unfold held in A1. rewrite H, Nat.eqb_refl in A1. cbn [b2n] in A1. lia.
Qed.
Lemma kstep_log : forall s a s', kstep s a = Some s' -> exists r, k_log s' = k_log s ++ r.
Proof.
  intros s a s' E. assert (BG : forall m, begin_ s m = Some s' -> exists r, k_log s' = k_log s ++ r) by (intros m H; unfold begin_ in H; destruct (k_cur s); [discriminate|]; injection H as <-; eexists; reflexivity).
  destruct a as [m|m reason|hops| |k hops|k b m]; cbn [kstep] in E; eauto; exists []; rewrite app_nil_r.
  - destruct (k_cur s) as [[u [|k todo]]|]; try discriminate. destruct (pass_on _ _ _). now injection E as <-.
  - destruct (k_cur s) as [[u [|k todo]]|]; try discriminate. now injection E as <-.
  - destruct (row (k_qs s) k); [discriminate|]. destruct (pass_on _ _ _). now injection E as <-.
  - destruct (existsb _ _); [|discriminate]. now injection E as <-.
Qed.
Lemma kreach_inv : forall n s, kreach n s -> Forall built (k_log s) -> invK n s.
Proof.
  intros n s R. induction R as [|s a s' R IH E]; intro F; [apply kinit_inv|]. eapply kstep_inv; eauto. apply IH. destruct (kstep_log _ _ _ E) as [r H]. rewrite H in F. now apply Forall_app in F.
Qed.
