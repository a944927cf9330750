(** Facts about the signal handling. *)
From Coq Require Import Ascii String List ZArith NArith Bool Lia Sorted.
From Verif.Base Require Import Bytes.
From Verif.Model Require Import Levels Message Signals.
From Verif.Spec Require Import SignalsSpec.
Import ListNotations.
Local Open Scope Z_scope.
Local Open Scope list_scope.

(** ** maps *)
Lemma ins_named : forall m k v s, named (ins m k v) s = (k =? s) || named m s.
Proof.
  induction m as [|[k' v'] m IH]; intros k v s; cbn; auto.
  destruct (k <? k') eqn:L; cbn; auto. destruct (Z.eqb_spec k k') as [->|n]; cbn.
  - destruct (k' =? s); auto.
  - fold (named (ins m k v) s). rewrite IH. fold (named m s). destruct (k' =? s), (k =? s); auto.
Qed.

Lemma smap_of_named : forall l s, named (smap_of l) s = named l s.
Proof.
  intros l s. unfold smap_of.
  assert (G : forall l m, named (fold_left (fun m kv => ins m (fst kv) (snd kv)) l m) s = named l s || named m s).
  { clear. induction l as [|[k v] l IH]; intro m; cbn [fold_left]; auto.
    rewrite IH. cbn [fst snd]. rewrite ins_named. cbn [named existsb fst]. fold (named l s).
    destruct (named l s), (k =? s); auto. }
  rewrite G. cbn. apply orb_false_r.
Qed.

Definition keys (m : smap) : list Z := map fst m.
Lemma named_In : forall m s, named m s = true <-> In s (keys m).
Proof.
  intros m s. unfold named, keys. rewrite existsb_exists, in_map_iff. split.
  - intros (x & I & E). apply Z.eqb_eq in E. eauto.
  - intros (x & E & I). exists x. split; auto. now apply Z.eqb_eq.
Qed.

Lemma ins_sorted : forall m k v, StronglySorted Z.lt (keys m) -> StronglySorted Z.lt (keys (ins m k v)).
Proof.
  induction m as [|[k' v'] m IH]; intros k v S; cbn.
  - repeat constructor.
  - inversion S as [|? ? S' F]; subst. destruct (Z.ltb_spec k k') as [L|L]; cbn.
    + constructor; auto. constructor; auto. eapply Forall_impl; [|exact F]. cbn. lia.
    + destruct (Z.eqb_spec k k') as [->|n]; [exact S|]. cbn. constructor; auto.
      apply Forall_forall. intros x I. apply named_In in I. rewrite ins_named in I.
      apply orb_true_iff in I as [I|I]; [apply Z.eqb_eq in I; lia|].
      apply named_In in I. rewrite Forall_forall in F. auto.
Qed.

Lemma sorted_nodup : forall l, StronglySorted Z.lt l -> NoDup l.
Proof.
  intros l S. induction S as [|a l S IH F]; constructor; auto.
  intro I. rewrite Forall_forall in F. specialize (F _ I). lia.
Qed.

Lemma smap_of_nodup : forall l, NoDup (keys (smap_of l)).
Proof.
  intro l. apply sorted_nodup. unfold smap_of.
  assert (G : forall l m, StronglySorted Z.lt (keys m) ->
    StronglySorted Z.lt (keys (fold_left (fun m kv => ins m (fst kv) (snd kv)) l m))).
  { clear. induction l as [|kv l IH]; intros m S; cbn; auto using ins_sorted. }
  apply G. constructor.
Qed.

Lemma upd_same : forall A (f : Z -> A) k v, upd f k v k = v.
Proof. intros. unfold upd. now rewrite Z.eqb_refl. Qed.

(** ** the loops *)
Lemma install_fold : forall cat L st, NoDup (keys L) ->
  let st' := fold_left (install_one cat) L st in
  gSignals st' = gSignals st /\
  (forall s, table st' s = if named L s && cat s then G3log else table st s) /\
  (forall s, gSavedSigActions st' s = if named L s && cat s then Some (table st s) else gSavedSigActions st s).
Proof.
  intros cat. induction L as [|[k v] L IH]; intros st ND; cbn [fold_left].
  - repeat split; reflexivity.
  - inversion ND as [|? ? NI ND']; subst.
    destruct (IH (install_one cat st (k, v)) ND') as (G & T & S). clear IH.
    assert (NK : named L k = false). { destruct (named L k) eqn:E; auto. apply named_In in E. contradiction. }
    unfold install_one, sigaction in *. cbn [fst] in *. destruct (cat k) eqn:CK; cbn [table gSignals gSavedSigActions] in *.
    + split; [exact G|]. split; intro s; [rewrite T|rewrite S]; cbn [named existsb fst]; fold (named L s); unfold upd;
      rewrite (Z.eqb_sym k s); destruct (Z.eqb_spec s k) as [->|n]; rewrite ?NK, ?CK; cbn; auto.
    + split; [exact G|]. split; intro s; [rewrite T|rewrite S]; cbn [named existsb fst]; fold (named L s);
      rewrite (Z.eqb_sym k s); destruct (Z.eqb_spec s k) as [->|n]; rewrite ?NK, ?CK; cbn; auto.
Qed.

Lemma restore_fold : forall cat L st,
  let st' := fold_left (fun st sig => restoreSignalHandler false cat st (fst sig)) L st in
  gSignals st' = gSignals st /\
  (forall s, table st' s = match gSavedSigActions st s with
                           | Some d => if named L s && cat s then d else table st s | None => table st s end) /\
  (forall s, gSavedSigActions st' s = if named L s then None else gSavedSigActions st s).
Proof.
  intros cat. induction L as [|[k v] L IH]; intro st; cbn [fold_left].
  - cbn. repeat split; intros; auto. destruct (gSavedSigActions st s); auto.
  - cbn [fst]. destruct (IH (restoreSignalHandler false cat st k)) as (G & T & S). clear IH.
    unfold restoreSignalHandler, sigaction in *.
    destruct (gSavedSigActions st k) as [d|] eqn:SK; cbn [table gSignals gSavedSigActions] in *.
    + split; [exact G|]. split; intro s; [rewrite T|rewrite S]; cbn [named existsb fst]; fold (named L s);
      rewrite (Z.eqb_sym k s); unfold upd; destruct (Z.eqb_spec s k) as [->|n].
      * rewrite SK. cbn. destruct (cat k); cbn; auto. now rewrite Z.eqb_refl.
      * destruct (cat k); cbn; destruct (gSavedSigActions st s); auto;
        destruct (Z.eqb_spec s k); try congruence; destruct (named L s && cat s); auto.
      * destruct (named L k); reflexivity.
      * reflexivity.
    + split; [exact G|]. split; intro s; [rewrite T|rewrite S]; cbn [named existsb fst]; fold (named L s);
      rewrite (Z.eqb_sym k s); destruct (Z.eqb_spec s k) as [->|n]; rewrite ?SK; cbn; auto.
      destruct (named L k); reflexivity.
Qed.

(** ** the invariant *)
Record Sync (cat : Z -> bool) (st : sigs) (v : view) : Prop := {
  y_table : forall s, table st s = if handled v s then G3log else outside v s;
  y_saved : forall s, gSavedSigActions st s = if handled v s then Some (outside v s) else None;
  y_chosen : forall s, handled v s = true -> chosen v s = true /\ cat s = true;
  y_nodup : NoDup (keys (gSignals st));
  y_named : forall s, named (gSignals st) s = chosen v s;
  y_outside : forall s, outside v s <> G3log
}.

Lemma five_named : forall s, named kSignals s = five s.
Proof.
  intro s. change kSignals with [(4, lit "SIGILL"); (6, lit "SIGABRT"); (8, lit "SIGFPE"); (11, lit "SIGSEGV"); (15, lit "SIGTERM")].
  unfold named, five. cbn [existsb fst]. rewrite !(Z.eqb_sym s). reflexivity.
Qed.

Lemma kSignals_nodup : NoDup (keys kSignals).
Proof. apply smap_of_nodup. Qed.

Lemma Sync_start : forall cat base, (forall s, base s <> G3log) -> Sync cat (start base) (view0 base).
Proof.
  intros cat base B. split; cbn; auto.
  - discriminate.
  - apply kSignals_nodup.
  - apply five_named.
Qed.

Lemma Sync_restore_all : forall cat st v, Sync cat st v ->
  Sync cat (restore_all false cat st) (mkView (chosen v) (fun _ => false) (outside v)).
Proof.
  intros cat st v [T S C N M O]. unfold restore_all.
  destruct (restore_fold cat (gSignals st) st) as (G & T' & S').
  split; cbn [handled outside chosen]; auto.
  - intro s. rewrite T', S, T, M. destruct (handled v s) eqn:H; auto.
    destruct (C s H) as [-> ->]. reflexivity.
  - intro s. rewrite S', S, M. destruct (chosen v s) eqn:E; auto.
    destruct (handled v s) eqn:H; auto. destruct (C s H). congruence.
  - discriminate.
  - now rewrite G.
  - intro s. now rewrite G.
Qed.

Lemma Sync_install : forall cat st v, Sync cat st v -> (forall s, chosen v s = true -> handled v s = false) ->
  Sync cat (installCrashHandler false cat st) (mkView (chosen v) (fun s => handled v s || (chosen v s && cat s)) (outside v)).
Proof.
  intros cat st v [T S C N M O] F. unfold installCrashHandler, installSignalHandler.
  destruct (install_fold cat (gSignals st) st N) as (G & T' & S').
  split; cbn [handled outside chosen]; auto.
  - intro s. rewrite T', M, T. destruct (chosen v s && cat s) eqn:E; [now rewrite orb_true_r|now rewrite orb_false_r].
  - intro s. rewrite S', M, S, T. destruct (chosen v s && cat s) eqn:E; [|now rewrite orb_false_r].
    rewrite orb_true_r. apply andb_true_iff in E as [E _]. now rewrite (F _ E).
  - intros s H. apply orb_true_iff in H as [H|H]; [auto|]. now apply andb_true_iff in H.
  - now rewrite G.
  - intro s. now rewrite G.
Qed.

Lemma Sync_override : forall cat st v m, Sync cat st v -> NoDup (keys m) ->
  Sync cat (overrideSetupSignals false cat st m) (mkView (named m) (fun s => named m s && cat s) (outside v)).
Proof.
  intros cat st v m Y ND. unfold overrideSetupSignals.
  destruct (Sync_restore_all _ _ _ Y) as [T S C N M O]. cbn [handled outside chosen] in *.
  assert (Y' : Sync cat (mkSigs (table (restore_all false cat st)) m (gSavedSigActions (restore_all false cat st)))
                        (mkView (named m) (fun _ => false) (outside v))).
  { split; cbn; auto. discriminate. }
  apply Sync_install in Y'; [exact Y'|reflexivity].
Qed.

Lemma Sync_step : forall cat st v o, Sync cat st v -> proper v o -> Sync cat (sstep false cat st o) (view_step cat v o).
Proof.
  intros cat st v o Y P. destruct o; cbn [sstep view_step proper] in *.
  - now apply Sync_install.
  - pose proof (Sync_override _ _ _ (smap_of l) Y (smap_of_nodup l)) as [T S C N M O].
    split; cbn [handled outside chosen] in *; auto; intro x; rewrite <- (smap_of_named l x); auto.
  - destruct Y as [T S C N M O]. unfold restoreSignalHandler, sigaction. rewrite S.
    destruct (handled v s) eqn:H.
    + destruct (C _ H) as [_ CS]. rewrite CS.
      split; cbn [handled outside chosen table gSignals gSavedSigActions]; auto.
      * intro x. unfold upd. destruct (Z.eqb_spec x s) as [->|n]; [now rewrite andb_false_r|]. now rewrite andb_true_r.
      * intro x. unfold upd. destruct (Z.eqb_spec x s) as [->|n]; [now rewrite andb_false_r|]. now rewrite andb_true_r.
      * intros x X. apply andb_true_iff in X as [X _]. auto.
    + assert (E : forall x, handled v x && negb (x =? s) = handled v x).
      { intro x. destruct (Z.eqb_spec x s) as [->|n]; [rewrite H; auto|now rewrite andb_true_r]. }
      split; cbn [handled outside chosen]; auto; intro x; rewrite E; auto.
  - unfold restoreFatalHandlingToDefault.
    pose proof (Sync_override _ _ _ kSignals Y kSignals_nodup) as [T S C N M O].
    split; cbn [handled outside chosen] in *; auto; intro x; rewrite <- ?five_named; auto.
  - destruct P as [P1 P2]. destruct Y as [T S C N M O]. unfold sigaction. destruct (cat s) eqn:CS.
    + split; cbn [handled outside chosen table gSignals gSavedSigActions]; auto; intro x; unfold upd;
      destruct (Z.eqb_spec x s) as [->|n]; cbn [andb]; rewrite ?P1, ?T, ?S; auto. now rewrite P1.
    + split; cbn [handled outside chosen]; auto; intro x; rewrite andb_false_r; auto.
Qed.

Lemma Sync_run : forall cat os st v, Sync cat st v -> all_proper cat v os ->
  Sync cat (srun false cat st os) (fold_left (view_step cat) os v).
Proof.
  intros cat. unfold srun. induction os as [|o os IH]; intros st v Y P; cbn [fold_left]; auto.
  destruct P as [P1 P2]. apply IH; auto. now apply Sync_step.
Qed.

(** ** concurrent handlers *)
Definition blocking (l : list hact) : Prop := ~ In HUnblock l.
Definition idle (a : hpc * Z) : Prop := fst a = HStart \/ fst a = HWait.

Lemma updn_same : forall A (f : nat -> A) k v, updn f k v k = v.
Proof. intros. unfold updn. now rewrite Nat.eqb_refl. Qed.
Lemma updn_other : forall A (f : nat -> A) k v x, x <> k -> updn f k v x = f x.
Proof. intros A f k v x N. unfold updn. apply Nat.eqb_neq in N. now rewrite N. Qed.

(** how many activations among the threads T have not reached the counter yet *)
Definition waiting_start (l : list (hpc * Z)) : nat :=
  length (filter (fun a => match fst a with HStart => true | _ => false end) l).
Definition sum_start (f : nat -> list (hpc * Z)) (T : list nat) : nat := fold_right (fun t n => waiting_start (f t) + n)%nat O T.

Lemma sum_start_other : forall f T t v, ~ In t T -> sum_start (updn f t v) T = sum_start f T.
Proof.
  intros f T t v N. induction T as [|x T IH]; auto. unfold sum_start in *. cbn [fold_right].
  rewrite updn_other, IH; auto; intro; apply N; cbn; auto.
Qed.
Lemma sum_start_upd : forall f T t v, NoDup T -> In t T ->
  (sum_start (updn f t v) T + waiting_start (f t) = sum_start f T + waiting_start v)%nat.
Proof.
  intros f T t v ND I. induction T as [|x T IH]; [destruct I|]. inversion ND; subst. cbn [sum_start fold_right].
  fold (sum_start (updn f t v) T). fold (sum_start f T). destruct (Nat.eq_dec x t) as [->|n].
  - rewrite updn_same, sum_start_other by assumption. lia.
  - destruct I as [I|I]; [congruence|]. rewrite updn_other by assumption. specialize (IH H2 I). lia.
Qed.

Definition thread_of (a : hact) : list nat := match a with HSignal t _ | HStep t => [t] | HUnblock => [] end.

(** Either no activation went past the counter, or exactly one did; all others are idle. *)
Definition nobody (st : hstate) : Prop := (forall t a, In a (stacks st t) -> fst a = HStart) /\ fatals st = [].
Definition winner (st : hstate) (t : nat) (s : Z) (up down : list (hpc * Z)) (p : hpc) : Prop :=
  stacks st t = up ++ (p, s) :: down /\ Forall idle up /\ Forall idle down /\
  (forall t', t' <> t -> Forall idle (stacks st t')) /\
  ((p = HGo /\ fatals st = []) \/ (p = HPushed /\ fatals st = [(t, s)])).

Definition HInv (st : hstate) : Prop :=
  gBlockForFatal st = true /\
  ((count st = 0%N /\ nobody st) \/ (count st <> 0%N /\ exists t s up down p, winner st t s up down p)).

Lemma winner_signal : forall st t s up down p t' s', winner st t s up down p ->
  exists up', winner (hstep st (HSignal t' s')) t s up' down p /\ (t' = t -> up' = (HStart, s') :: up) /\ (t' <> t -> up' = up).
Proof.
  intros st t s up down p t' s' (E & U & D & O & F). destruct (Nat.eq_dec t' t) as [->|n].
  - exists ((HStart, s') :: up). split; [|split; [reflexivity|congruence]].
    unfold winner. cbn [hstep stacks fatals]. rewrite updn_same, E. split; [reflexivity|].
    split; [constructor; auto; now left|]. split; auto. split; auto. intros x X. rewrite updn_other by assumption. auto.
  - exists up. split; [|split; [congruence|reflexivity]].
    unfold winner. cbn [hstep stacks fatals]. rewrite updn_other by congruence. split; [exact E|].
    split; auto. split; auto. split; auto. intros x X. destruct (Nat.eq_dec x t') as [->|m].
    + rewrite updn_same. constructor; [now left|auto].
    + rewrite updn_other by assumption. auto.
Qed.

Lemma winner_step : forall st t s up down p t', gBlockForFatal st = true -> count st <> 0%N ->
  winner st t s up down p ->
  exists up' p', winner (hstep st (HStep t')) t s up' down p' /\
    (up <> [] -> up' <> [] /\ p' = p) /\ (up = [] -> t' = t -> p' = HPushed) /\ (t' <> t -> up' = up /\ p' = p).
Proof.
  intros st t s up down p t' B C (E & U & D & O & F). apply N.eqb_neq in C. cbn [hstep].
  destruct (Nat.eq_dec t' t) as [->|n].
  - rewrite E. destruct up as [|(q, x) up]; cbn [app].
    + destruct F as [[-> F]|[-> F]].
      * exists [], HPushed. split; [|split; [congruence|split; [reflexivity|congruence]]].
        unfold winner, set_top. cbn [stacks fatals]. rewrite updn_same, F. split; [reflexivity|]. split; auto. split; auto.
        split; [intros y Y; rewrite updn_other by assumption; auto|]. right. auto.
      * rewrite B. exists [], HPushed. split; [|split; [congruence|split; [reflexivity|congruence]]].
        unfold winner. split; [exact E|]. auto 6.
    + inversion U as [|? ? I U']; subst. destruct I as [I|I]; cbn in I; subst q.
      * rewrite C. exists ((HWait, x) :: up), p.
        split; [|split; [intros _; split; [discriminate|reflexivity]|split; [discriminate|congruence]]].
        unfold winner, set_top. cbn [stacks fatals]. rewrite updn_same. split; [reflexivity|].
        split; [constructor; auto; now right|]. split; auto. split; auto. intros y Y; rewrite updn_other by assumption; auto.
      * rewrite B. exists ((HWait, x) :: up), p.
        split; [|split; [intros _; split; [discriminate|reflexivity]|split; [discriminate|congruence]]].
        unfold winner. split; [exact E|]. auto 6.
  - exists up, p. split; [|split; [auto|split; [congruence|auto]]].
    pose proof (O t' n) as I. destruct (stacks st t') as [|(q, x) r] eqn:ES.
    + unfold winner. auto 6.
    + inversion I as [|? ? J K]; subst. destruct J as [J|J]; cbn in J; subst q.
      * rewrite C. unfold winner, set_top. cbn [stacks fatals]. rewrite updn_other by congruence.
        split; [exact E|]. split; auto. split; auto. split; auto. intros y Y. destruct (Nat.eq_dec y t') as [->|m].
        -- rewrite updn_same. constructor; auto. now right.
        -- rewrite updn_other by assumption. auto.
      * rewrite B. unfold winner. auto 6.
Qed.

Lemma HInv_step : forall st a, HInv st -> a <> HUnblock -> (count st + 1 < size_max)%N -> HInv (hstep st a).
Proof.
  intros st a [B [[C [N F]]|(C & t & s & up & down & p & W)]] A L.
  - destruct a as [t s|t|]; [| |congruence]; cbn [hstep].
    + split; auto. left. split; auto. split; auto. cbn [stacks]. intros t' a I. destruct (Nat.eq_dec t' t) as [->|n].
      * rewrite updn_same in I. destruct I as [<-|I]; eauto.
      * rewrite updn_other in I by assumption. eauto.
    + destruct (stacks st t) as [|(p, s) r] eqn:E.
      * split; auto. left. repeat split; auto.
      * assert (p = HStart). { apply (N t (p, s)). rewrite E. now left. } subst p. rewrite C. cbn [N.eqb].
        split; auto. right. cbn [count]. split; [discriminate|].
        exists t, s, [], r, HGo. unfold winner, set_top. cbn [stacks fatals]. rewrite updn_same. split; [reflexivity|].
        split; auto. assert (R : Forall idle r). { apply Forall_forall. intros a I. left. apply (N t). rewrite E. now right. }
        split; auto. split; [|left; auto]. intros t' T. rewrite updn_other by assumption. apply Forall_forall. intros a I. left. eauto.
  - destruct a as [t' s'|t'|]; [| |congruence].
    + destruct (winner_signal _ _ _ _ _ _ t' s' W) as (up' & W' & _). split; auto. right. split; auto. eauto 6.
    + destruct (winner_step _ _ _ _ _ _ t' B C W) as (up' & p' & W' & _).
      split.
      * cbn [hstep]. destruct (stacks st t') as [|([] , ?) ?]; auto; rewrite ?B; auto.
      * right. split; [|eauto 6]. cbn [hstep]. destruct (stacks st t') as [|([] , ?) ?]; auto; rewrite ?B; auto.
        cbn [count]. unfold sz. rewrite N.mod_small by assumption. lia.
Qed.

(** the counter never exceeds the number of signals *)
Lemma count_bound : forall T, NoDup T -> forall l st n, (forall a, In a l -> incl (thread_of a) T) ->
  (N.to_nat (count st) + sum_start (stacks st) T <= n)%nat ->
  (N.to_nat (count (hrun st l)) + sum_start (stacks (hrun st l)) T <= n + signals_in l)%nat.
Proof.
  intros T ND. induction l as [|a l IH]; intros st n IN H; cbn [hrun fold_left].
  - unfold signals_in. cbn. lia.
  - specialize (IH (hstep st a) (n + if is_signal a then 1 else 0)%nat).
    assert (S : signals_in (a :: l) = ((if is_signal a then 1 else 0) + signals_in l)%nat).
    { unfold signals_in. cbn. destruct (is_signal a); reflexivity. }
    rewrite S, Nat.add_assoc. apply IH; [intros b I; apply IN; now right|]. clear IH S.
    assert (ZZ : forall m, (N.to_nat (sz m) <= N.to_nat m)%nat).
    { intro m. unfold sz. pose proof (N.mod_le m size_max). assert (size_max <> 0)%N by discriminate. specialize (H0 H1). lia. }
    destruct a as [t s|t|]; cbn [hstep is_signal].
    + assert (I : In t T) by (apply (IN (HSignal t s)); cbn; auto). cbn [count stacks].
      pose proof (sum_start_upd (stacks st) T t ((HStart, s) :: stacks st t) ND I) as U.
      unfold waiting_start in U. cbn [filter fst length] in U. lia.
    + assert (I : In t T) by (apply (IN (HStep t)); cbn; auto).
      destruct (stacks st t) as [|(p, s) r] eqn:E; [lia|].
      destruct p.
      * cbn [count stacks]. unfold set_top.
        pose proof (sum_start_upd (stacks st) T t ((if (count st =? 0)%N then HGo else HWait, s) :: r) ND I) as U.
        rewrite E in U. unfold waiting_start in U. cbn [filter fst length] in U.
        specialize (ZZ (count st + 1)%N). destruct (count st =? 0)%N; cbn [fst] in *; lia.
      * destruct (gBlockForFatal st); [lia|]. cbn [count stacks]. unfold set_top.
        pose proof (sum_start_upd (stacks st) T t ((HGo, s) :: r) ND I) as U. rewrite E in U. unfold waiting_start in U. cbn [filter fst length] in U. lia.
      * cbn [count stacks]. unfold set_top.
        pose proof (sum_start_upd (stacks st) T t ((HPushed, s) :: r) ND I) as U. rewrite E in U. unfold waiting_start in U. cbn [filter fst length] in U. lia.
      * destruct (gBlockForFatal st); [lia|]. cbn [count stacks].
        pose proof (sum_start_upd (stacks st) T t r ND I) as U. rewrite E in U. unfold waiting_start in U. cbn [filter fst length] in U. lia.
    + cbn [count stacks]. lia.
Qed.

Lemma sum_start_empty : forall T, sum_start (fun _ => []) T = O.
Proof. induction T; cbn; auto. Qed.

Lemma count_le_signals : forall l, (N.to_nat (count (hrun hstart l)) <= signals_in l)%nat.
Proof.
  intro l. set (T := nodup Nat.eq_dec (concat (map thread_of l))).
  assert (B : (N.to_nat (count (hrun hstart l)) + sum_start (stacks (hrun hstart l)) T <= 0 + signals_in l)%nat).
  { apply count_bound.
    - apply NoDup_nodup.
    - intros a I t J. apply nodup_In. apply in_concat. exists (thread_of a). split; auto. apply in_map. exact I.
    - cbn [count hstart stacks]. rewrite sum_start_empty. reflexivity. }
  lia.
Qed.

Lemma hrun_app : forall a b st, hrun st (a ++ b) = hrun (hrun st a) b.
Proof. intros. unfold hrun. apply fold_left_app. Qed.

Lemma signals_in_app : forall a b, signals_in (a ++ b) = (signals_in a + signals_in b)%nat.
Proof. intros. unfold signals_in. rewrite filter_app, app_length. reflexivity. Qed.

Lemma HInv_run : forall l, blocking l -> (N.of_nat (signals_in l) + 1 < size_max)%N -> HInv (hrun hstart l).
Proof.
  induction l as [|a l IH] using rev_ind; intros B L.
  - split; auto. left. split; auto. split; auto. intros t a [].
  - rewrite signals_in_app in L. rewrite hrun_app. cbn [hrun fold_left]. apply HInv_step.
    + apply IH; [intro I; apply B; apply in_or_app; auto|lia].
    + intros ->. apply B. apply in_or_app. cbn. auto.
    + pose proof (count_le_signals l). lia.
Qed.

(** ** a signal on top of the winner before it handed its message over *)
Definition Covered (st : hstate) : Prop :=
  gBlockForFatal st = true /\ count st <> 0%N /\ exists t s up down, winner st t s up down HGo /\ up <> [].

Lemma Covered_step : forall st a, Covered st -> a <> HUnblock -> (count st + 1 < size_max)%N -> Covered (hstep st a).
Proof.
  intros st a (B & C & t & s & up & down & W & U) A L. destruct a as [t' s'|t'|]; [| |congruence].
  - destruct (winner_signal _ _ _ _ _ _ t' s' W) as (up' & W' & U1 & U2). split; auto. split; auto.
    exists t, s, up', down. split; auto. destruct (Nat.eq_dec t' t) as [e|n]; [rewrite (U1 e); discriminate|now rewrite (U2 n)].
  - destruct (winner_step _ _ _ _ _ _ t' B C W) as (up' & p' & W' & U' & _). destruct (U' U) as [U1 ->].
    split; [|split; [|eauto 6]].
    + cbn [hstep]. destruct (stacks st t') as [|([] , ?) ?]; auto; rewrite ?B; auto.
    + cbn [hstep]. destruct (stacks st t') as [|([] , ?) ?]; auto; rewrite ?B; auto.
      cbn [count]. unfold sz. rewrite N.mod_small by assumption. lia.
Qed.

Lemma Covered_run : forall l0 l, Covered (hrun hstart l0) -> blocking l -> (N.of_nat (signals_in (l0 ++ l)) + 1 < size_max)%N ->
  Covered (hrun hstart (l0 ++ l)).
Proof.
  intros l0 l C. induction l as [|a l IH] using rev_ind; intros B L; [now rewrite app_nil_r|].
  rewrite app_assoc in *. rewrite signals_in_app in L. rewrite hrun_app. cbn [hrun fold_left]. apply Covered_step.
  - apply IH; [intro I; apply B; apply in_or_app; auto|lia].
  - intros ->. apply B. apply in_or_app. cbn. auto.
  - pose proof (count_le_signals (l0 ++ l)). lia.
Qed.

(** ** every signal gets through if none comes on top of another in the same thread *)
Definition steps_of (t : nat) (l : list hact) : nat :=
  length (filter (fun a => match a with HStep x => Nat.eqb x t | _ => false end) l).

Lemma fatals_grow : forall st a, exists new, fatals (hstep st a) = fatals st ++ new.
Proof.
  intros st [t s|t|]; cbn [hstep fatals]; [exists []; now rewrite app_nil_r| |exists []; now rewrite app_nil_r].
  destruct (stacks st t) as [|([] , s) r]; try (exists []; now rewrite app_nil_r); try (exists [(t, s)]; reflexivity).
  - destruct (gBlockForFatal st); exists []; now rewrite app_nil_r.
  - destruct (gBlockForFatal st); exists []; now rewrite app_nil_r.
Qed.

Lemma fatals_stay : forall l st, fatals st <> [] -> fatals (hrun st l) <> [].
Proof.
  induction l as [|a l IH]; intros st H; cbn [hrun fold_left]; auto. apply IH.
  destruct (fatals_grow st a) as [n ->]. destruct (fatals st); [congruence|discriminate].
Qed.

Lemma steps_some : forall t a l, (1 <= steps_of t (a :: l))%nat -> a = HStep t \/ (1 <= steps_of t l)%nat.
Proof.
  intros t a l H. unfold steps_of in *. destruct a as [x s|x|]; cbn [filter] in H; auto.
  destruct (Nat.eqb_spec x t) as [->|n]; auto.
Qed.

Lemma keeps_count : forall l0 x, (N.of_nat (signals_in l0) + 1 < size_max)%N -> gBlockForFatal (hrun hstart l0) = true ->
  let st := hrun hstart l0 in
  gBlockForFatal (hstep st (HStep x)) = true /\ (count st <> 0%N -> count (hstep st (HStep x)) <> 0%N).
Proof.
  intros l0 x L B st. pose proof (count_le_signals l0) as CB. fold st in B, CB. cbn [hstep].
  destruct (stacks st x) as [|([] , ?) ?]; auto; rewrite ?B; auto.
  cbn [gBlockForFatal count]. split; auto. intros _. unfold sz. rewrite N.mod_small by lia. lia.
Qed.

Lemma winner_gets_through : forall l l0 t s down p, (N.of_nat (signals_in l0) + 1 < size_max)%N ->
  gBlockForFatal (hrun hstart l0) = true -> count (hrun hstart l0) <> 0%N ->
  winner (hrun hstart l0) t s [] down p -> blocking l -> signals_in l = O -> (1 <= steps_of t l)%nat ->
  fatals (hrun hstart (l0 ++ l)) <> [].
Proof.
  induction l as [|a l IH]; intros l0 t s down p L B C W BL SG ST; [cbn in ST; lia|].
  destruct a as [x s'|x|]; [discriminate SG| |exfalso; apply BL; cbn; auto].
  change (HStep x :: l) with ([HStep x] ++ l). rewrite app_assoc.
  assert (SG' : signals_in (l0 ++ [HStep x]) = signals_in l0) by (rewrite signals_in_app; unfold signals_in; cbn; lia).
  assert (E1 : hrun hstart (l0 ++ [HStep x]) = hstep (hrun hstart l0) (HStep x)) by (rewrite hrun_app; reflexivity).
  destruct (winner_step _ _ _ _ _ _ x B C W) as (up' & p' & W' & _ & X & Y).
  destruct (Nat.eq_dec x t) as [->|n].
  - rewrite hrun_app. apply fatals_stay. rewrite E1. rewrite (X eq_refl eq_refl) in W'.
    destruct W' as (_ & _ & _ & _ & [[E _]|[_ ->]]); discriminate.
  - destruct (Y n) as [-> ->]. destruct (keeps_count l0 x L B) as [B' C']. apply (IH _ t s down p).
    + now rewrite SG'.
    + now rewrite E1.
    + rewrite E1. auto.
    + now rewrite E1.
    + intro I. apply BL. now right.
    + exact SG.
    + apply steps_some in ST as [ST|ST]; auto. congruence.
Qed.

Lemma first_gets_through : forall l l0 t, (N.of_nat (signals_in l0) + 1 < size_max)%N ->
  gBlockForFatal (hrun hstart l0) = true -> count (hrun hstart l0) = 0%N -> nobody (hrun hstart l0) ->
  (forall x, (length (stacks (hrun hstart l0) x) <= 1)%nat) -> stacks (hrun hstart l0) t <> [] ->
  blocking l -> signals_in l = O -> (forall x, stacks (hrun hstart l0) x <> [] -> (2 <= steps_of x l)%nat) ->
  fatals (hrun hstart (l0 ++ l)) <> [].
Proof.
  induction l as [|a l IH]; intros l0 t L B C [NB F] ONE T BL SG ST; [specialize (ST t T); cbn in ST; lia|].
  destruct a as [x s'|x|]; [discriminate SG| |exfalso; apply BL; cbn; auto].
  change (HStep x :: l) with ([HStep x] ++ l). rewrite app_assoc.
  assert (SG' : signals_in (l0 ++ [HStep x]) = signals_in l0) by (rewrite signals_in_app; unfold signals_in; cbn; lia).
  assert (E1 : hrun hstart (l0 ++ [HStep x]) = hstep (hrun hstart l0) (HStep x)) by (rewrite hrun_app; reflexivity).
  assert (BL' : blocking l) by (intro I; apply BL; now right).
  set (st := hrun hstart l0) in *. destruct (stacks st x) as [|(q, s) r] eqn:ES.
  - assert (E2 : hstep st (HStep x) = st) by (cbn [hstep]; now rewrite ES).
    rewrite E2 in E1. apply (IH _ t); rewrite ?SG', ?E1; auto; [split; auto|].
    intros y Y. specialize (ST y Y). unfold steps_of in *. cbn [filter] in ST.
    destruct (Nat.eqb_spec x y) as [->|n]; auto. contradiction.
  - pose proof (ONE x) as R. rewrite ES in R. destruct r as [|? ?]; [|cbn in R; lia].
    assert (q = HStart) by (apply (NB x (q, s)); rewrite ES; cbn; auto). subst q.
    apply (winner_gets_through l _ x s [] HGo); rewrite ?SG'; auto.
    + rewrite E1. now apply keeps_count.
    + rewrite E1. cbn [hstep]. rewrite ES. cbn [count]. rewrite C. discriminate.
    + rewrite E1. unfold winner. cbn [hstep]. rewrite ES. cbn [stacks fatals]. unfold set_top. rewrite updn_same, C. cbn [N.eqb app].
      split; auto. split; auto. split; auto. split; auto.
      intros y Y. rewrite updn_other by assumption. apply Forall_forall. intros b I. left. now apply (NB y).
    + assert (X : stacks st x <> []) by (rewrite ES; discriminate). specialize (ST x X). unfold steps_of in *. cbn [filter] in ST.
      rewrite Nat.eqb_refl in ST. cbn [length] in ST. lia.
Qed.
