(** Facts about the packaged_task for old Visual C++ and the one of the standard. *)
From Coq Require Import List Bool PeanoNat Lia.
From Verif.Model Require Import TaskPatch.
From Verif.Spec Require Import TaskPatchSpec.
Import ListNotations.

Lemma set_same : forall (A : Type) (g : nat -> A) n x, set g n x n = x.
Proof. intros. unfold set. now rewrite Nat.eqb_refl. Qed.
Lemma set_other : forall (A : Type) (g : nat -> A) n x m, m <> n -> set g n x m = g m.
Proof. intros A g n x m H. unfold set. apply Nat.eqb_neq in H. now rewrite H. Qed.

(** shared states of default-constructed tasks, which the standard's class does not have, are private *)
Definition matched (priv : nat -> Prop) (now : nat) (a : option task) (b : option (option (nat * nat))) : Prop :=
  match a, b with
  | None, None => True
  | Some t, Some (Some (k, f)) => my_promise t = Some k /\ my_func t = Some f /\ ~ priv k /\ k < now
  | Some t, Some None => my_func t = None /\ forall k, my_promise t = Some k -> priv k
  | _, _ => False
  end.
Definition R (priv : nat -> Prop) (p : pmem) (s : smem) : Prop :=
  p_calls p = s_calls s /\ p_now p = s_now s /\ (forall k, priv k -> k < s_now s) /\
  (forall i, matched priv (s_now s) (p_obj p i) (s_obj s i)) /\ forall k, ~ priv k -> p_sh p k = s_sh s k.

Lemma matched_later : forall priv now a b, matched priv now a b -> matched priv (S now) a b.
Proof. intros priv now [t|] [[[k f]|]|]; cbn; intuition. Qed.
Lemma matched_set : forall priv now p s i a b, (forall j, matched priv now (p j) (s j)) -> matched priv now a b ->
  forall j, matched priv now (set p i a j) (set s i b j).
Proof. intros priv now p s i a b H M j. unfold set. now destruct (Nat.eqb j i). Qed.
Lemma matched_nothing : forall priv now, matched priv now (Some (mkTask None None)) (Some None).
Proof. intros. split; [reflexivity|discriminate]. Qed.

Lemma abandon_same : forall priv now t u (f g : nat -> shared), matched priv now (Some t) (Some u) ->
  (forall k, ~ priv k -> f k = g k) -> forall k, ~ priv k -> abandon f (my_promise t) k = abandon g (state_of u) k.
Proof.
  intros priv now t [[k f']|] f g; cbn.
  - intros (E & _ & NP & _) H j J. rewrite E. cbn [state_of option_map fst abandon]. rewrite (H k NP).
    destruct (sh_content (g k)); auto. unfold set. destruct (Nat.eqb j k); auto.
  - intros (_ & P) H j J. destruct (my_promise t) as [k|]; cbn [abandon]; [|auto].
    destruct (sh_content (f k)); auto. rewrite set_other; [auto|]. intros ->. apply J. now apply P.
Qed.

Lemma step_same : forall beh priv p s o s' r, R priv p s -> sstep beh s o = Some (s', r) ->
  (forall x, r <> Throws x) -> (forall k e, sh_content (s_sh s' k) <> HasException e) -> (forall i, o <> TReset i) ->
  exists (priv' : nat -> Prop) p', pstep beh p o = Some (p', r) /\ R priv' p' s' /\ (forall k, priv' k -> priv k \/ k = s_now s) /\
    (forall k, r = GaveFuture k -> ~ priv k /\ k < s_now s).
Proof.
  intros beh priv p s o s' r (C & N & PV & M & SH) ST NT NE NR.
  assert (PV' : forall k, priv k -> k < S (s_now s)) by (intros k K; apply PV in K; lia).
  assert (ML : forall i, matched priv (S (s_now s)) (p_obj p i) (s_obj s i)) by (intro; apply matched_later, M).
  destruct o as [i|i f|i j|i j|i|i|i|i|i]; unfold sstep in ST; unfold pstep; rewrite ?N, ?C.
  - pose proof (M i) as Mi. destruct (s_obj s i) as [|]; [discriminate|]. destruct (p_obj p i); [destruct Mi|]. injection ST as <- <-.
    exists (fun k => priv k \/ k = s_now s). eexists. split; [reflexivity|].
    split; [|split; [auto|discriminate]].
    split; [cbn; congruence|]. split; [cbn; congruence|]. split; [cbn; intros k [K| ->]; [auto|lia]|]. cbn [p_obj s_obj p_sh s_sh s_now]. split.
    + apply matched_set.
      * intro j. specialize (ML j). pose proof (M j) as Mj. destruct (p_obj p j) as [t|], (s_obj s j) as [[[k f]|]|]; cbn in *; auto.
        -- intuition. subst. lia.
        -- intuition.
      * split; [reflexivity|]. cbn. intros k [= <-]. auto.
    + intros k K. rewrite set_other by tauto. apply SH. tauto.
  - pose proof (M i) as Mi. destruct (s_obj s i) as [|]; [discriminate|]. destruct (p_obj p i); [destruct Mi|]. injection ST as <- <-.
    exists priv. eexists. split; [reflexivity|]. split; [|split; [auto|discriminate]].
    split; [cbn; congruence|]. split; [cbn; congruence|]. split; [exact PV'|]. cbn [p_obj s_obj p_sh s_sh s_now]. split.
    + apply matched_set; [exact ML|]. cbn. split; [reflexivity|]. split; [reflexivity|]. split; [intro K; apply PV in K; lia|lia].
    + intros k K. unfold set. destruct (Nat.eqb k (s_now s)); auto.
  - pose proof (ML i) as Mi. pose proof (M j) as Mj. destruct (s_obj s i) as [t|]; [|discriminate]. destruct (s_obj s j); [discriminate|].
    destruct (p_obj p i) as [u|]; [|destruct Mi]. destruct (p_obj p j); [destruct Mj|]. injection ST as <- <-.
    exists priv. eexists. split; [reflexivity|]. split; [|split; [auto|discriminate]].
    split; [cbn; congruence|]. split; [cbn; congruence|]. split; [exact PV'|]. cbn [p_obj s_obj p_sh s_sh s_now]. split; [|exact SH].
    apply matched_set; [apply matched_set; [exact ML|apply matched_nothing]|]. destruct u; exact Mi.
  - destruct (Nat.eqb i j); [discriminate|]. pose proof (ML i) as Mi. pose proof (M j) as Mj.
    destruct (s_obj s i) as [t|]; [|discriminate]. destruct (s_obj s j) as [u|]; [|discriminate].
    destruct (p_obj p i) as [t'|]; [|destruct Mi]. destruct (p_obj p j) as [u'|]; [|destruct Mj]. injection ST as <- <-.
    exists priv. eexists. split; [reflexivity|]. split; [|split; [auto|discriminate]].
    split; [cbn; congruence|]. split; [cbn; congruence|]. split; [exact PV'|]. cbn [p_obj s_obj p_sh s_sh s_now]. split.
    + apply matched_set; [apply matched_set; [exact ML|apply matched_nothing]|]. destruct t'; exact Mi.
    + eapply abandon_same; eauto.
  - pose proof (M i) as Mi. destruct (s_obj s i) as [t|]; [|discriminate]. destruct (p_obj p i) as [t'|]; [|destruct Mi]. injection ST as <- <-.
    exists priv. eexists. split.
    { do 3 f_equal. destruct t as [[k f]|]; cbn in Mi; [destruct Mi as (_ & -> & _)|destruct Mi as (-> & _)]; reflexivity. }
    split; [|split; [auto|discriminate]].
    split; [cbn; congruence|]. split; [cbn; congruence|]. split; [exact PV'|]. split; [exact ML|exact SH].
  - pose proof (M i) as Mi. destruct (s_obj s i) as [[[k f]|]|]; [| |discriminate].
    + destruct (p_obj p i) as [t'|]; [|destruct Mi]. destruct Mi as (E & F & NP & LT). rewrite E. cbn [state_of option_map fst promise_get_future] in *.
      rewrite (SH k NP). destruct (sh_taken (s_sh s k)) eqn:TK; injection ST as <- <-; [exfalso; exact (NT _ eq_refl)|].
      exists priv. eexists. split; [reflexivity|]. split; [|split; [auto|intros k' [= <-]; auto]].
      split; [cbn; congruence|]. split; [cbn; congruence|]. split; [exact PV'|]. split; [exact ML|].
      intros j J. cbn [p_sh s_sh]. unfold set. destruct (Nat.eqb j k); auto.
    + cbn in ST. injection ST as <- <-. exfalso; exact (NT _ eq_refl).
  - pose proof (M i) as Mi. destruct (s_obj s i) as [[[k f]|]|]; [| |discriminate].
    + destruct (p_obj p i) as [t'|]; [|destruct Mi]. destruct Mi as (E & F & NP & LT). rewrite E, F.
      destruct (sh_content (s_sh s k)) eqn:SC; injection ST as <- <-; try (exfalso; exact (NT _ eq_refl)).
      destruct (beh (length (s_calls s)) f) as [e|].
      { exfalso. apply (NE k e). cbn. now rewrite set_same. }
      cbn [promise_set_value]. rewrite (SH k NP), SC.
      exists priv. eexists. split; [reflexivity|]. split; [|split; [auto|discriminate]].
      split; [reflexivity|]. split; [reflexivity|]. split; [exact PV'|]. split; [exact ML|].
      intros j J. cbn [p_sh s_sh]. unfold set. destruct (Nat.eqb j k); auto.
    + injection ST as <- <-. exfalso; exact (NT _ eq_refl).
  - exfalso. exact (NR _ eq_refl).
  - pose proof (M i) as Mi. destruct (s_obj s i) as [t|]; [|discriminate]. destruct (p_obj p i) as [t'|]; [|destruct Mi]. injection ST as <- <-.
    exists priv. eexists. split; [reflexivity|]. split; [|split; [auto|discriminate]].
    split; [cbn; congruence|]. split; [cbn; congruence|]. split; [exact PV'|]. cbn [p_obj s_obj p_sh s_sh s_now]. split.
    + apply matched_set; [exact ML|exact I].
    + eapply abandon_same; eauto.
Qed.

(** names of shared states are those of earlier operations *)
Definition old (s : smem) : Prop :=
  (forall i k f, s_obj s i = Some (Some (k, f)) -> k < s_now s) /\ (forall k, s_now s <= k -> s_sh s k = new_shared).

Lemma abandon_old : forall n f u, (forall k, state_of u = Some k -> k < n) -> (forall k, n <= k -> f k = new_shared) ->
  forall k, n <= k -> abandon f (state_of u) k = new_shared.
Proof.
  intros n f [[k x]|] B H j J; cbn [state_of option_map fst abandon] in *; [|auto].
  destruct (sh_content (f k)); auto. rewrite set_other; [auto|]. intros ->. specialize (B _ eq_refl). lia.
Qed.
Lemma abandon_exception : forall f p k e, sh_content (f k) = HasException e -> sh_content (abandon f p k) = HasException e.
Proof.
  intros f [j|] k e H; cbn [abandon]; [|exact H]. destruct (sh_content (f j)) eqn:X; auto. rewrite set_other; [exact H|]. intros ->. congruence.
Qed.
Lemma step_old : forall beh s o s' r, old s -> sstep beh s o = Some (s', r) ->
  s_now s' = S (s_now s) /\ old s' /\ forall k e, sh_content (s_sh s k) = HasException e -> sh_content (s_sh s' k) = HasException e.
Proof.
  intros beh s o s' r (O1 & O2) ST.
  assert (L1 : forall i k f, s_obj s i = Some (Some (k, f)) -> k < S (s_now s)) by (intros i k f H; apply O1 in H; lia).
  assert (L2 : forall k, S (s_now s) <= k -> s_sh s k = new_shared) by (intros k K; apply O2; lia).
  assert (FR : forall k e, sh_content (s_sh s k) = HasException e -> k <> s_now s).
  { intros k e H ->. rewrite O2 in H by lia. discriminate. }
  assert (ST1 : forall g n (x : option (option (nat * nat))), (forall i k f, g i = Some (Some (k, f)) -> k < S (s_now s)) ->
     (forall k f, x = Some (Some (k, f)) -> k < S (s_now s)) -> forall i k f, set g n x i = Some (Some (k, f)) -> k < S (s_now s)).
  { intros g n x G X i k f H. unfold set in H. destruct (Nat.eqb i n); eauto. }
  destruct o as [i|i f|i j|i j|i|i|i|i|i]; unfold sstep in ST.
  - destruct (s_obj s i) as [|]; [discriminate|]. injection ST as <- _. split; [reflexivity|]. split; [split|auto]; cbn [s_obj s_sh s_now]; auto.
    apply ST1; [exact L1|discriminate].
  - destruct (s_obj s i) as [|]; [discriminate|]. injection ST as <- _. split; [reflexivity|]. split; [split|]; cbn [s_obj s_sh s_now].
    + apply ST1; [exact L1|]. intros k g [= <- _]. lia.
    + intros k K. rewrite set_other by lia. auto.
    + intros k e H. rewrite set_other by eauto. exact H.
  - destruct (s_obj s i) as [t|] eqn:E; [|discriminate]. destruct (s_obj s j); [discriminate|]. injection ST as <- _.
    split; [reflexivity|]. split; [split|auto]; cbn [s_obj s_sh s_now]; auto.
    apply ST1; [apply ST1; [exact L1|discriminate]|]. intros k g [= ->]. eauto.
  - destruct (Nat.eqb i j); [discriminate|]. destruct (s_obj s i) as [t|] eqn:E; [|discriminate]. destruct (s_obj s j) as [u|] eqn:F; [|discriminate].
    injection ST as <- _. split; [reflexivity|]. split; [split|]; cbn [s_obj s_sh s_now].
    + apply ST1; [apply ST1; [exact L1|discriminate]|]. intros k g [= ->]. eauto.
    + apply abandon_old; [|exact L2]. intros k K. destruct u as [[k' g]|]; [|discriminate]. injection K as ->. eauto.
    + intros k e. apply abandon_exception.
  - destruct (s_obj s i); [|discriminate]. injection ST as <- _. split; [reflexivity|]. split; [split|]; auto.
  - destruct (s_obj s i) as [[[k f]|]|] eqn:E; [| |discriminate]; cbn [state_of option_map fst promise_get_future] in ST.
    + destruct (sh_taken (s_sh s k)); injection ST as <- _; (split; [reflexivity|]; split; [split|]); cbn [s_obj s_sh s_now]; auto.
      * intros j J. rewrite set_other; [auto|]. apply O1 in E. lia.
      * intros j e H. unfold set. destruct (Nat.eqb_spec j k); [subst; exact H|exact H].
    + injection ST as <- _. split; [reflexivity|]. split; [split|]; auto.
  - destruct (s_obj s i) as [[[k f]|]|] eqn:E; [| |discriminate].
    + destruct (sh_content (s_sh s k)) eqn:SC; injection ST as <- _; (split; [reflexivity|]; split; [split|]); cbn [s_obj s_sh s_now]; auto.
      * intros j J. rewrite set_other; [auto|]. apply O1 in E. lia.
      * intros j e H. rewrite set_other; [exact H|]. intros ->. congruence.
    + injection ST as <- _. split; [reflexivity|]. split; [split|]; auto.
  - destruct (s_obj s i) as [[[k f]|]|] eqn:E; [| |discriminate].
    + injection ST as <- _. split; [reflexivity|]. split; [split|]; cbn [s_obj s_sh s_now].
      * apply ST1; [exact L1|]. intros k' g [= <- _]. lia.
      * intros j J. rewrite set_other by lia. apply (abandon_old (S (s_now s)) (s_sh s) (Some (k, f))); [|exact L2|exact J]. intros k' [= <-]. eauto.
      * intros j e H. rewrite set_other by eauto. apply (abandon_exception _ (Some k)). exact H.
    + injection ST as <- _. split; [reflexivity|]. split; [split|]; auto.
  - destruct (s_obj s i) as [t|] eqn:E; [|discriminate]. injection ST as <- _. split; [reflexivity|]. split; [split|]; cbn [s_obj s_sh s_now].
    + apply ST1; [exact L1|discriminate].
    + apply abandon_old; [|exact L2]. intros k K. destruct t as [[k' g]|]; [|discriminate]. injection K as ->. eauto.
    + intros k e. apply abandon_exception.
Qed.
Lemma run_exception : forall beh os s s' rs, old s -> srun beh s os = Some (s', rs) ->
  forall k e, sh_content (s_sh s k) = HasException e -> sh_content (s_sh s' k) = HasException e.
Proof.
  intros beh os. induction os as [|o os IH]; intros s s' rs O RN k e H; cbn in RN; [injection RN as <- _; exact H|].
  destruct (sstep beh s o) as [[s1 x]|] eqn:ST; [|discriminate]. destruct (srun beh s1 os) as [[s2 xs]|] eqn:RN'; [|discriminate]. injection RN as <- _.
  destruct (step_old _ _ _ _ _ O ST) as (_ & O' & KE). eapply IH; eauto.
Qed.

Lemma run_same : forall beh os priv p s s' rs, R priv p s -> old s -> srun beh s os = Some (s', rs) ->
  (forall x, ~ In (Throws x) rs) -> (forall k e, sh_content (s_sh s' k) <> HasException e) -> (forall i, ~ In (TReset i) os) ->
  exists (priv' : nat -> Prop) p', prun beh p os = Some (p', rs) /\ R priv' p' s' /\ (forall k, priv' k -> priv k \/ s_now s <= k) /\
    (forall k, In (GaveFuture k) rs -> ~ priv' k).
Proof.
  intros beh os. induction os as [|o os IH]; intros priv p s s' rs RR O RN NT NE NR; cbn in RN.
  - injection RN as <- <-. exists priv, p. cbn. split; [reflexivity|]. split; [exact RR|]. split; [auto|intros k []].
  - destruct (sstep beh s o) as [[s1 x]|] eqn:ST; [|discriminate]. destruct (srun beh s1 os) as [[s2 xs]|] eqn:RN'; [|discriminate]. injection RN as <- <-.
    destruct (step_old _ _ _ _ _ O ST) as (NW & O' & _).
    destruct (step_same beh priv p s o s1 x RR ST) as (pr1 & p1 & PS & R1 & P1 & G1).
    { intros y ->. apply (NT y). now left. }
    { intros k e H. apply (NE k e). eapply run_exception; eauto. }
    { intros i ->. apply (NR i). now left. }
    destruct (IH pr1 p1 s1 s2 xs R1 O' RN') as (pr2 & p2 & PR & R2 & P2 & G2); [intros y Y; apply (NT y); now right|exact NE|intros i Y; apply (NR i); now right|].
    exists pr2, p2. cbn. rewrite PS, PR. split; [reflexivity|]. split; [exact R2|]. split.
    + intros k K. apply P2 in K as [K|K]; [apply P1 in K as [K|K]; [auto|right; lia]|right; lia].
    + intros k [-> |K] X; [|exact (G2 _ K X)]. destruct (G1 k eq_refl) as (G & L). apply P2 in X as [X|X]; [apply P1 in X as [X|X]; [auto|lia]|lia].
Qed.
