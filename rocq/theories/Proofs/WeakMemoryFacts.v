(** Executions of the C++ memory model, when the interleavings are free of races: they are interleavings.  *)
From Coq Require Import List ZArith Bool Lia Arith.
From Coq Require Import Relations.Relation_Operators.
From Verif Require Import Base.Threads Model.Races Spec.RacesSpec Spec.HappensBeforeSpec Spec.WeakMemorySpec Proofs.HappensBeforeFacts.
Import ListNotations.
Local Open Scope nat_scope.

Section Sequential.
Variable loose : loc -> bool.
Definition kinds (x : loc) : kind := if loose x then Blind else Plain.

Lemma kinds_plain : forall x, loose x = false -> kinds x = Plain.
Proof. intros x E. unfold kinds. now rewrite E. Qed.

Variable st : state.
Hypothesis NB : forall x u, loose x = true -> blind x (get Stop (ths st) u).
Hypothesis NM : forall x, loose x = false -> never_meet st x.
Hypothesis NR : forall x, race_free st x.

Lemma no_krace : forall x sc st', runs sc st = Some st' -> ~ krace kinds st' x.
Proof.
  intros x sc st' R (u & v & wu & wv & au & av & N & Eu & Ev & W & A). destruct (loose x) eqn:L.
  - apply (NR x sc st' R). exists u, v, wu, wv, au, av. repeat split; auto. apply A. unfold kinds. rewrite L. discriminate.
  - apply (NM x L sc st' R). exists u, v, wu, wv, au, av. auto.
Qed.
Lemma kinds_blind : forall x u, kinds x = Blind -> blind x (get Stop (ths st) u).
Proof. intros x u K. apply NB. unfold kinds in K. destruct (loose x); [auto|discriminate]. Qed.

Lemma khb_whb : forall g i j, khb kinds (events_of g) i j -> whappens_before g i j.
Proof.
  intros g i j H. induction H as [i j B|i j k _ IH1 _ IH2]; [|eapply t_trans; eauto]. apply t_step.
  destruct B as [t e f L A B|t u s L A B|t u x r w K _ _ _].
  - eapply w_same_thread; eauto.
  - eapply w_unlock_lock; eauto.
  - unfold kinds in K. destruct (loose x); discriminate.
Qed.

(** accesses to x of which one writes are ordered in every execution that is an interleaving *)
Lemma accesses_ordered : forall g x i j t u r r' w w' a a', trace (map by_thread g) st = Some (events_of g) -> loose x = false -> i < j ->
  is_event (events_of g) i t (Accesses x r w a) -> is_event (events_of g) j u (Accesses x r' w' a') -> w || w' = true ->
  whappens_before g i j.
Proof.
  intros g x i j t u r r' w w' a a' T P L Ei Ej W. destruct (Nat.eq_dec t u) as [->|N].
  - apply t_step. eapply w_same_thread; eauto.
  - apply khb_whb. apply (all_ordered kinds st _ _ kinds_blind no_krace T j i x); auto.
    exists t, u, r, r', w, w', a, a'. repeat split; auto. rewrite (kinds_plain x P). congruence.
Qed.
Lemma sequential_no_race : forall g, trace (map by_thread g) st = Some (events_of g) -> no_data_race g.
Proof.
  intros g T x i j (t & u & r & r' & w & w' & a & a' & N & Ei & Ej & W & A).
  destruct (lt_eq_lt_dec i j) as [[L| ->]|L].
  - left. apply khb_whb. apply (all_ordered kinds st _ _ kinds_blind no_krace T j i x); auto. exists t, u, r, r', w, w', a, a'. auto.
  - destruct (is_event_eq _ _ _ _ _ _ Ei Ej). congruence.
  - right. apply khb_whb. apply (all_ordered kinds st _ _ kinds_blind no_krace T i j x); auto.
    exists u, t, r', r, w', w, a', a. rewrite orb_comm, andb_comm. auto.
Qed.

(** the last write *)
Lemma value_after_snoc : forall m g a x, value_after m (g ++ [a]) x = assign_to x (value_after m g x) a.
Proof. intros. unfold value_after. now rewrite fold_left_app. Qed.
Lemma event_app : forall g a i t e, i < length g -> is_event (events_of (g ++ [a])) i t e <-> is_event (events_of g) i t e.
Proof. intros g a i t e L. unfold is_event, events_of. rewrite map_app, nth_error_app1 by now rewrite map_length. tauto. Qed.
Lemma event_last : forall g a, is_event (events_of (g ++ [a])) (length g) (by_thread a) (what a).
Proof.
  intros g a. unfold is_event, events_of. rewrite map_app, nth_error_app2 by now rewrite map_length.
  rewrite map_length, Nat.sub_diag. reflexivity.
Qed.
Lemma event_bound : forall g i t e, is_event (events_of g) i t e -> i < length g.
Proof. intros g i t e E. unfold is_event in E. rewrite <- (map_length (fun a => (by_thread a, what a)) g). apply nth_error_Some. unfold events_of in E. congruence. Qed.

(** either nothing was written to x, or there is a last write *)
Lemma last_write : forall m g x,
  (value_after m g x = m x /\ forall k, ~ writes_to (events_of g) x k) \/
  (exists i a, writes_to (events_of g) x i /\ nth_error g i = Some a /\ wrote a = value_after m g x /\ forall k, writes_to (events_of g) x k -> k <= i).
Proof.
  intros m g x. induction g as [|a g IH] using rev_ind.
  - left. split; [reflexivity|]. intros k (t & r & b & E). unfold is_event in E. destruct k; discriminate.
  - rewrite value_after_snoc.
    assert (B : forall k, writes_to (events_of (g ++ [a])) x k -> k <= length g).
    { intros k (t & r & b & E). apply event_bound in E. rewrite app_length in E. cbn in E. lia. }
    destruct (writes_to_dec (events_of (g ++ [a])) x (length g)) as [W|W].
    + right. exists (length g), a. split; auto. split; [now rewrite nth_error_app2, Nat.sub_diag|]. split; auto.
      destruct W as (t & r & b & E). destruct (is_event_eq _ _ _ _ _ _ (event_last g a) E) as (_ & Ea). unfold assign_to.
      rewrite Ea. now destruct (loc_eq_dec x x).
    + assert (V : assign_to x (value_after m g x) a = value_after m g x).
      { unfold assign_to. destruct (what a) as [s|s|y r [|] b] eqn:Ea; auto. destruct (loc_eq_dec y x) as [->|]; auto.
        exfalso. apply W. do 3 eexists. rewrite <- Ea. apply event_last. }
      rewrite V. destruct IH as [(E & N)|(i & c & Wi & Ni & Ei & Mi)].
      * left. split; auto. intros k Wk. pose proof (B k Wk). destruct (Nat.eq_dec k (length g)) as [->|]; [auto|].
        destruct Wk as (t & r & b & Ek). apply event_app in Ek; [|lia]. apply (N k). do 3 eexists; eauto.
      * right. exists i, c. assert (i < length g). { destruct Wi as (t & r & b & E). eapply event_bound; eauto. }
        split. { destruct Wi as (t & r & b & E). do 3 eexists. apply event_app; eauto. }
        split; [now rewrite nth_error_app1|]. split; auto. intros k Wk. pose proof (B k Wk).
        destruct (Nat.eq_dec k (length g)) as [->|]; [contradiction|]. apply Mi.
        destruct Wk as (t & r & b & Ek). apply event_app in Ek; [|lia]. do 3 eexists; eauto.
Qed.

(** a read finds the last value written *)
Lemma finds_last : forall g c x w b f v, what c = Accesses x true w b -> trace (map by_thread (g ++ [c])) st = Some (events_of (g ++ [c])) ->
  loose x = false -> may_find (mem st) (g ++ [c]) (length g) x b f v -> v = value_after (mem st) g x.
Proof.
  intros g c x w b f v Ec T P F. pose proof (event_last g c) as El. rewrite Ec in El.
  assert (WW : forall i, i < length g -> writes_to (events_of g) x i -> writes_to (events_of (g ++ [c])) x i).
  { intros i L (t & r & d & E). do 3 eexists. apply event_app; eauto. }
  assert (HL : forall k, k < length g -> writes_to (events_of g) x k -> whappens_before (g ++ [c]) k (length g)).
  { intros k L W. destruct (WW k L W) as (t & r & d & E). eapply (accesses_ordered (g ++ [c]) x k (length g)); eauto. }
  assert (BD : forall k, writes_to (events_of g) x k -> k < length g). { intros k (t & r & d & E). eapply event_bound; eauto. }
  destruct (last_write (mem st) g x) as [(V & N)|(l & a & Wl & Nl & Vl & Ml)].
  - destruct f as [i|]; cbn in F.
    + exfalso. destruct F as (L & (t & r & d & E) & _). apply event_app in E; auto. apply (N i). do 3 eexists; eauto.
    + destruct F as (-> & _). now rewrite V.
  - destruct f as [i|]; cbn in F.
    + destruct F as (L & Wi & (a' & Na & Va) & Hid & _). rewrite nth_error_app1 in Na by auto.
      assert (Wi' : writes_to (events_of g) x i). { destruct Wi as (t & r & d & E). apply event_app in E; auto. do 3 eexists; eauto. }
      destruct (Nat.eq_dec i l) as [->|Ni]; [congruence|]. exfalso.
      assert (i < l). { specialize (Ml i Wi'). lia. }
      apply (Hid l); auto.
      destruct (WW i L Wi') as (t & r & d & E). destruct (WW l (BD l Wl) Wl) as (t' & r' & d' & E').
      eapply (accesses_ordered (g ++ [c]) x i l); eauto.
    + exfalso. destruct F as (_ & F). apply (F l); auto.
Qed.

(** the step of the interleaving *)
Lemma seq_step : forall g st' c st'', runs (map by_thread g) st = Some st' -> trace (map by_thread g) st = Some (events_of g) ->
  next_event (get Stop (ths st') (by_thread c)) = Some (what c) -> step st' (by_thread c) = Some st'' ->
  runs (map by_thread (g ++ [c])) st = Some st'' /\ trace (map by_thread (g ++ [c])) st = Some (events_of (g ++ [c])).
Proof.
  intros g st' c st'' R T Ne St. unfold events_of. rewrite !map_app. split.
  - cbn [map]. clear T. revert R. generalize (map by_thread g) as l. intro l. generalize st. induction l as [|t l IH]; intros s R; cbn in *.
    + injection R as ->. now rewrite St.
    + destruct (step s t); [auto|discriminate].
  - apply trace_app with (st' := st'); auto. cbn. now rewrite Ne, St.
Qed.

Theorem weak_sequential : forall g sm ps, weak st g sm ps -> sequential loose st g sm ps.
Proof.
  intros g sm ps W. induction W as [|g sm ps t s k n W IH G Sn|g sm ps t s k W IH G|g sm ps t a x k f v W IH G F|g sm ps t a x v k W IH G|g sm ps t x h k f v W IH G F].
  - exists st. repeat split; auto.
  - destruct IH as (st' & R & T & <- & C & V).
    destruct (seq_step g st' (mkAction t (Locks s) [] None) (mkState (mem st') (set_sem (sems st') s n) (upd (ths st') t k))) as (R' & T'); auto.
    { cbn. now rewrite G. } { unfold step. cbn. rewrite G, C, Sn. reflexivity. }
    eexists. split; [exact R'|]. split; [exact T'|]. split; [reflexivity|]. split.
    + intro s'. cbn [sems]. unfold set_sem. destruct (sem_eq_dec s' s); auto.
    + intros x P. rewrite value_after_snoc. cbn. auto.
  - destruct IH as (st' & R & T & <- & C & V).
    destruct (seq_step g st' (mkAction t (Unlocks s) [] None) (mkState (mem st') (set_sem (sems st') s (S (sems st' s))) (upd (ths st') t k))) as (R' & T'); auto.
    { cbn. now rewrite G. } { unfold step. cbn. rewrite G. reflexivity. }
    eexists. split; [exact R'|]. split; [exact T'|]. split; [reflexivity|]. split.
    + intro s'. cbn [sems]. unfold set_sem. destruct (sem_eq_dec s' s); auto.
    + intros x P. rewrite value_after_snoc. cbn. auto.
  - destruct IH as (st' & R & T & <- & C & V).
    destruct (seq_step g st' (mkAction t (Accesses x true false a) [] f) (mkState (mem st') (sems st') (upd (ths st') t (k (mem st' x))))) as (R' & T'); auto.
    { cbn. now rewrite G. } { unfold step. cbn. rewrite G. reflexivity. }
    assert (K : k v = k (mem st' x)).
    { destruct (loose x) eqn:L.
      - assert (B : blind x (get Stop (ths st') t)).
        { clear -NB L R. revert R. generalize (map by_thread g) as l. intro l. assert (B : forall u, blind x (get Stop (ths st) u)) by auto.
          clear NB. revert B. generalize st. induction l as [|u l IH]; intros s B R; cbn in R.
          - injection R as <-. auto.
          - destruct (step s u) eqn:St; [|discriminate]. eapply IH; [|exact R]. eapply step_blind; eauto. }
        rewrite G in B. apply (proj1 B). reflexivity.
      - f_equal. rewrite <- V by auto. eapply finds_last; eauto. reflexivity. }
    eexists. split; [exact R'|]. split; [exact T'|]. split; [cbn [ths]; now rewrite K|]. split; [auto|].
    intros y P. rewrite value_after_snoc. cbn. auto.
  - destruct IH as (st' & R & T & <- & C & V).
    destruct (seq_step g st' (mkAction t (Accesses x false true a) v None) (mkState (set_mem (mem st') x v) (sems st') (upd (ths st') t k))) as (R' & T'); auto.
    { cbn. now rewrite G. } { unfold step. cbn. rewrite G. reflexivity. }
    eexists. split; [exact R'|]. split; [exact T'|]. split; [reflexivity|]. split; [auto|].
    intros y P. rewrite value_after_snoc. cbn. unfold set_mem. destruct (loc_eq_dec x y) as [Exy|N], (loc_eq_dec y x); try congruence; auto.
  - destruct IH as (st' & R & T & <- & C & V).
    destruct (seq_step g st' (mkAction t (Accesses x true true true) (h v) f) (mkState (set_mem (mem st') x (h (mem st' x))) (sems st') (upd (ths st') t k))) as (R' & T'); auto.
    { cbn. now rewrite G. } { unfold step. cbn. rewrite G. reflexivity. }
    eexists. split; [exact R'|]. split; [exact T'|]. split; [reflexivity|]. split; [auto|].
    intros y P. rewrite value_after_snoc. cbn. unfold set_mem. destruct (loc_eq_dec x y) as [Exy|N], (loc_eq_dec y x); try congruence; auto.
    + subst y. f_equal. rewrite <- V by auto. eapply finds_last; eauto. reflexivity.
Qed.
End Sequential.

(* ------------------------------------------------------------------ *)
(** ** The interleavings of a program without races are executions of the C++ memory model *)
Definition all_sync (x : loc) : kind := Sync.
Lemma krace_sync : forall st x, krace all_sync st x <-> race_at st x.
Proof.
  intros st x. split; intros (u & v & wu & wv & au & av & N & Eu & Ev & W & A); exists u, v, wu, wv, au, av; repeat split; auto.
  apply A. discriminate.
Qed.
Lemma kconf_sync : forall tr x i j, kconf all_sync tr x i j <-> conflicting tr x i j.
Proof.
  intros tr x i j. split; intros (t & u & r & r' & w & w' & a & a' & N & Ei & Ej & W & A); exists t, u, r, r', w, w', a, a'; repeat split; auto.
  apply A. discriminate.
Qed.
Lemma kbefore_sync : forall tr i j, kbefore all_sync tr i j <-> before tr i j.
Proof.
  intros tr i j. split; intros [t e f L A B|t u s L A B|].
  - eapply same_thread; eauto.
  - eapply unlock_lock; eauto.
  - eapply write_read; eauto.
  - eapply k_same_thread; eauto.
  - eapply k_unlock_lock; eauto.
  - eapply k_write_read; eauto.
Qed.
Lemma khb_sync : forall tr i j, khb all_sync tr i j <-> happens_before tr i j.
Proof.
  intros tr i j. split; intro H; (induction H as [i j B|i j k _ IH1 _ IH2]; [apply t_step; now apply kbefore_sync|eapply t_trans; eauto]).
Qed.
Lemma sync_blind : forall st (x : loc) u, all_sync x = Blind -> blind x (get Stop (ths st) u).
Proof. discriminate. Qed.

(** every read found the last value written *)
Definition latest (g : list action) : Prop :=
  forall j a x w b i, nth_error g j = Some a -> what a = Accesses x true w b -> reads_from (events_of g) x i j -> from a = Some i.

Lemma latest_hb : forall g i j, latest g -> khb all_sync (events_of g) i j -> whappens_before g i j.
Proof.
  intros g i j La H. induction H as [i j B|i j k _ IH1 _ IH2]; [|eapply t_trans; eauto]. apply t_step.
  destruct B as [t e f L A B|t u s L A B|t u x r w _ A B RF].
  - eapply w_same_thread; eauto.
  - eapply w_unlock_lock; eauto.
  - unfold is_event, events_of in B. rewrite nth_error_map in B. destruct (nth_error g j) as [c|] eqn:Ec; [|discriminate].
    cbn in B. injection B as B1 B2. pose proof (La j c x w true i Ec B2 RF) as Fr. destruct RF as (L & _ & _).
    eapply w_write_read with (u := by_thread c); eauto. unfold is_event, events_of. rewrite nth_error_map, Ec. cbn. now rewrite B2.
Qed.
Lemma whb_lt : forall g i j, whappens_before g i j -> i < j.
Proof. intros g i j H. induction H as [i j [| |]|]; auto; lia. Qed.

Lemma writes_app : forall g c x k, k < length g -> writes_to (events_of (g ++ [c])) x k <-> writes_to (events_of g) x k.
Proof. intros g c x k L. split; intros (t & r & d & E); do 3 eexists; [apply event_app in E|apply event_app]; eauto. Qed.
Lemma reads_from_app : forall g c x i j, j <= length g -> reads_from (events_of (g ++ [c])) x i j <-> reads_from (events_of g) x i j.
Proof.
  intros g c x i j L. unfold reads_from. split; intros (A & B & C); (split; [auto|split; [apply (writes_app g c); auto; lia|]]); intros k Gk W.
  - apply (C k Gk). apply (writes_app g c); auto. lia.
  - apply (C k Gk). apply (writes_app g c); auto. lia.
Qed.
Lemma latest_snoc : forall g c, latest g -> (forall x w b i, what c = Accesses x true w b -> reads_from (events_of g) x i (length g) -> from c = Some i) ->
  latest (g ++ [c]).
Proof.
  intros g c La Q j a x w b i Na Wa RF.
  destruct (Nat.lt_ge_cases j (length g)) as [L|L].
  - rewrite nth_error_app1 in Na by auto. apply (La j a x w b i Na Wa). now apply (reads_from_app g c x i j (Nat.lt_le_incl _ _ L)).
  - rewrite nth_error_app2 in Na by auto. destruct (j - length g) as [|[|q]] eqn:Ej; try discriminate. cbn in Na. injection Na as ->.
    assert (j = length g) by lia. subst j. apply (Q x w b i Wa). now apply (reads_from_app g a x i _ (le_n _)).
Qed.
(** what the next action of a thread may find *)
Lemma may_find_last : forall st g c x w b, (forall x, race_free st x) -> latest g ->
  trace (map by_thread (g ++ [c])) st = Some (events_of (g ++ [c])) -> what c = Accesses x true w b ->
  (from c = None -> forall k, ~ writes_to (events_of g) x k) ->
  (forall i, from c = Some i -> writes_to (events_of g) x i /\ forall k, writes_to (events_of g) x k -> k <= i) ->
  latest (g ++ [c]) /\ may_find (mem st) (g ++ [c]) (length g) x b (from c) (value_after (mem st) g x).
Proof.
  intros st g c x w b NR La T Wc None' Some'.
  assert (BD : forall k, writes_to (events_of g) x k -> k < length g). { intros k (t & r & d & E). eapply event_bound; eauto. }
  assert (La' : latest (g ++ [c])).
  { apply latest_snoc; auto. intros y w' b' i E (L & Wi & Last). rewrite Wc in E. injection E as <- <- <-.
    destruct (from c) as [l|] eqn:F.
    - destruct (Some' l eq_refl) as (Wl & Ml). f_equal. pose proof (Ml i Wi). destruct (Nat.eq_dec i l) as [->|]; auto.
      exfalso. apply (Last l); auto. split; [lia|auto].
    - exfalso. exact (None' eq_refl i Wi). }
  split; auto. destruct (from c) as [i|] eqn:F.
  - destruct (Some' i eq_refl) as (Wi & Mi). pose proof (BD i Wi) as Li. cbn. split; auto. split; [now apply writes_app|].
    destruct (last_write (mem st) g x) as [(_ & N)|(l & a & Wl & Nl & Vl & Ml)]; [exfalso; exact (N i Wi)|].
    assert (l = i) by (pose proof (Mi l Wl); pose proof (Ml i Wi); lia). subst l.
    split; [exists a; rewrite nth_error_app1; auto|]. split.
    + intros k Wk H1 H2. apply whb_lt in H1, H2. apply (proj1 (writes_app g c x k H2)) in Wk. specialize (Mi k Wk). lia.
    + intros ->. destruct Wi as (t & r & d & Ei). apply (event_app g c) in Ei; auto. pose proof (event_last g c) as El. rewrite Wc in El.
      destruct (Nat.eq_dec t (by_thread c)) as [->|N]; [apply t_step; eapply w_same_thread; eauto|].
      apply latest_hb; auto. apply (all_ordered all_sync st (map by_thread (g ++ [c])) _ (sync_blind st)) with (x := x); auto.
      * intros y sc st' R K. apply krace_sync in K. exact (NR y sc st' R K).
      * exists t, (by_thread c), r, true, true, w, d, false. repeat split; auto. intros _. apply andb_false_r.
  - cbn. destruct (last_write (mem st) g x) as [(V & N)|(l & a & Wl & _)]; [|exfalso; exact (None' eq_refl l Wl)]. split; auto.
    intros k Wk H. apply whb_lt in H. apply (proj1 (writes_app g c x k H)) in Wk. exact (N k Wk).
Qed.

Definition last_of (g : list action) (x : loc) : option nat :=
  find (fun i => if writes_to_dec (events_of g) x i then true else false) (rev (seq 0 (length g))).
Lemma find_rev_seq : forall (p : nat -> bool) n,
  match find p (rev (seq 0 n)) with
  | Some i => p i = true /\ forall k, k < n -> p k = true -> k <= i
  | None => forall k, k < n -> p k = false
  end.
Proof.
  intros p. induction n as [|n IH]; [intros k L; lia|]. rewrite seq_S, rev_app_distr. cbn [rev app find plus]. destruct (p n) eqn:E.
  - split; auto. intros; lia.
  - destruct (find p (rev (seq 0 n))) as [i|].
    + destruct IH as (A & B). split; auto. intros k L Pk. destruct (Nat.eq_dec k n) as [->|]; [congruence|]. apply B; auto. lia.
    + intros k L. destruct (Nat.eq_dec k n) as [->|]; auto. apply IH. lia.
Qed.
Lemma last_of_spec : forall g x,
  (last_of g x = None -> forall k, ~ writes_to (events_of g) x k) /\
  (forall i, last_of g x = Some i -> writes_to (events_of g) x i /\ forall k, writes_to (events_of g) x k -> k <= i).
Proof.
  intros g x. unfold last_of.
  pose proof (find_rev_seq (fun i => if writes_to_dec (events_of g) x i then true else false) (length g)) as F.
  assert (BD : forall k, writes_to (events_of g) x k -> k < length g). { intros k (t & r & d & E). eapply event_bound; eauto. }
  destruct (find _ _) as [i|].
  - split; [discriminate|]. intros i' [= <-]. destruct F as (A & B). split.
    + now destruct (writes_to_dec (events_of g) x i).
    + intros k W. apply B; auto. now destruct (writes_to_dec (events_of g) x k).
  - split; [|discriminate]. intros _ k W. specialize (F k (BD k W)). now destruct (writes_to_dec (events_of g) x k).
Qed.

Theorem interleaving_weak : forall st, (forall x, race_free st x) -> forall sched st', runs sched st = Some st' ->
  exists g, map by_thread g = sched /\ weak st g (sems st') (ths st') /\ forall x, value_after (mem st) g x = mem st' x.
Proof.
  intros st NR sched.
  assert (Q : forall st', runs sched st = Some st' -> exists g, map by_thread g = sched /\ weak st g (sems st') (ths st') /\
    (forall x, value_after (mem st) g x = mem st' x) /\ latest g /\ trace sched st = Some (events_of g)).
  { induction sched as [|t sched IH] using rev_ind; intros st' R.
    - cbn in R. injection R as <-. exists []. repeat split; auto using weak_start. intros [|j] a x w b i E; discriminate.
    - assert (exists s1, runs sched st = Some s1 /\ step s1 t = Some st') as (s1 & R1 & St).
      { clear IH. revert R. generalize st. induction sched as [|u l IHl]; intros s R; cbn in *.
        - destruct (step s t) eqn:E; [|discriminate]. injection R as <-. eauto.
        - destruct (step s u); [auto|discriminate]. }
      destruct (IH s1 R1) as (g & <- & W & V & La & T).
      assert (SQ : forall c, by_thread c = t -> next_event (get Stop (ths s1) t) = Some (what c) ->
                runs (map by_thread (g ++ [c])) st = Some st' /\ trace (map by_thread (g ++ [c])) st = Some (events_of (g ++ [c]))).
      { intros c <- Ne. exact (seq_step st g s1 c st' R1 T Ne St). }
      assert (Fin : forall c, by_thread c = t -> next_event (get Stop (ths s1) t) = Some (what c) ->
                weak st (g ++ [c]) (sems st') (ths st') -> (forall x, assign_to x (mem s1 x) c = mem st' x) -> latest (g ++ [c]) ->
                exists g0, map by_thread g0 = map by_thread g ++ [t] /\ weak st g0 (sems st') (ths st') /\
                  (forall x, value_after (mem st) g0 x = mem st' x) /\ latest g0 /\ trace (map by_thread g ++ [t]) st = Some (events_of g0)).
      { intros c Et Ne Wc Vc Lc. exists (g ++ [c]). destruct (SQ c Et Ne) as (_ & Tc). rewrite map_app in Tc |- *. cbn [map] in *. rewrite Et in *.
        split; [reflexivity|]. split; [exact Wc|]. split; [|split; auto]. intro x. rewrite value_after_snoc, V. apply Vc. }
      unfold step in St. destruct (get Stop (ths s1) t) as [|s k|s k|a x k|a x v k|x h k] eqn:G; [discriminate| | | | |].
      + destruct (sems s1 s) as [|n] eqn:Sn; [discriminate|]. injection St as <-. apply (Fin (mkAction t (Locks s) [] None)); try reflexivity.
        * now apply weak_acq with (s := s).
        * apply latest_snoc; auto. discriminate.
      + injection St as <-. apply (Fin (mkAction t (Unlocks s) [] None)); try reflexivity.
        * now apply weak_rel with (s := s).
        * apply latest_snoc; auto. discriminate.
      + injection St as <-. pose (c := mkAction t (Accesses x true false a) [] (last_of g x)).
        destruct (SQ c eq_refl eq_refl) as (_ & Tc). destruct (last_of_spec g x) as (L1 & L2).
        destruct (may_find_last st g c x false a NR La Tc eq_refl L1 L2) as (Lc & F). rewrite V in F.
        apply (Fin c); try reflexivity; auto. now apply weak_rd.
      + injection St as <-. apply (Fin (mkAction t (Accesses x false true a) v None)); try reflexivity.
        * now apply weak_wr with (a := a).
        * intro y. cbn. unfold set_mem. destruct (loc_eq_dec x y), (loc_eq_dec y x); congruence.
        * apply latest_snoc; auto. discriminate.
      + injection St as <-. pose (c := mkAction t (Accesses x true true true) (h (mem s1 x)) (last_of g x)).
        destruct (SQ c eq_refl eq_refl) as (_ & Tc). destruct (last_of_spec g x) as (L1 & L2).
        destruct (may_find_last st g c x true true NR La Tc eq_refl L1 L2) as (Lc & F). rewrite V in F.
        apply (Fin c); try reflexivity; auto.
        * now apply weak_rmw.
        * intro y. cbn. unfold set_mem. destruct (loc_eq_dec x y), (loc_eq_dec y x); congruence. }
  intros st' R. destruct (Q st' R) as (g & A & B & C & _). eauto.
Qed.
