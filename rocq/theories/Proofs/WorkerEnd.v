(** Sinks that nobody owns any more; steps of one sink and of the others. *)
From Coq Require Import List Arith Bool Lia Sorted.
From Verif.Base Require Import Threads.
From Verif.Model Require Import Worker.
From Verif.Spec Require Import WorkerSpec.
From Verif.Proofs Require Import WorkerLife WorkerHist WorkerBusy WorkerTok WorkerNum WorkerProm WorkerMeasure WorkerWait.
Import ListNotations.

(** ** dead sinks *)
Lemma sk_out : forall s k, length (w_sk s) <= k -> sk s k = no_sink.
Proof. intros. now apply get_out. Qed.
Lemma exit_flushed : forall s k, invA s -> k_done (sk s k) = true -> k_q (sk s k) = [] /\ k_run (sk s k) = None.
Proof.
  intros s k IA X. destruct (Nat.lt_ge_cases k (length (w_sk s))) as [L|L]; [|rewrite sk_out by exact L; auto].
  destruct (k_of s k IA L) as [a b c d e f]. rewrite d in X. assert (H : has_done (all (sk s k)) = true) by (unfold all; rewrite has_done_app, X; reflexivity).
  destruct (b H) as (l & E & N). unfold all in E. set (r := match k_run (sk s k) with Some j => [j] | None => [] end ++ k_q (sk s k)) in *.
  destruct r as [|j r'] eqn:R.
  - unfold r in R. apply app_eq_nil in R as [R1 R2]. split; [exact R2|]. destruct (k_run (sk s k)); [discriminate|reflexivity].
  - exfalso. destruct (exists_last (l := j :: r') ltac:(discriminate)) as (q' & x & E'). rewrite E', app_assoc in E. apply app_inj_tail in E as [E _]. rewrite <- E, has_done_app, X in N. discriminate.
Qed.
Lemma dead_facts : forall s k, invA s -> k_dead (sk s k) = true -> k_exit (sk s k) = true /\ k_done (sk s k) = true /\ k_q (sk s k) = [] /\ k_run (sk s k) = None /\ all (sk s k) = k_got (sk s k).
Proof.
  intros s k IA X. assert (H : k_exit (sk s k) = true /\ k_done (sk s k) = true).
  { destruct (Nat.lt_ge_cases k (length (w_sk s))) as [L|L]; [|rewrite sk_out by exact L; auto]. destruct (k_of s k IA L) as [a b c d e f]. auto. }
  destruct H as [H1 H2]. destruct (exit_flushed s k IA H2) as [Q R]. repeat split; auto. unfold all. rewrite Q, R. cbn [app]. apply app_nil_r.
Qed.
Lemma refs_pending : forall s k, invA s -> refs s k = 0 -> pending k (w_pc s) = [].
Proof.
  intros s k IA R. pose proof (a_send s IA) as S. unfold sendok in S. unfold pending. destruct (w_pc s) as [|m todo drop q|l q|u l q|i f|] eqn:W; try reflexivity.
  destruct (has k todo) eqn:H; [|reflexivity]. apply has_In, S in H. exfalso. unfold refs in R. rewrite W in R. cbn [pc_refs] in R. apply in_app_iff in H as [H|H]; apply cnt_In in H; lia.
Qed.
Lemma unowned : forall s k, invA s -> invB s -> refs s k = 0 -> jn s k = 0 -> k_dead (sk s k) = true /\ received (sk s k) = window k false (w_old s).
Proof.
  intros s k IA IB R J. assert (D : k_dead (sk s k) = true).
  { destruct (Nat.lt_ge_cases k (length (w_sk s))) as [L|L]; [|now rewrite sk_out]. destruct (k_of s k IA L) as [a b c d e f]. rewrite (proj1 a R), J in c. destruct (k_dead (sk s k)); [reflexivity|discriminate]. }
  split; [exact D|]. destruct (dead_facts s k IA D) as (_ & _ & _ & _ & AL). unfold received. rewrite <- AL. rewrite <- (b_win s IB k), (refs_pending s k IA R), app_nil_r. reflexivity.
Qed.
Lemma no_cjoin : forall s k, (forall i next, c_pc (cl s i) <> CJoin k next) -> count (cjoin k) (w_cl s) = 0.
Proof.
  intros s k H. destruct (Nat.eq_dec (count (cjoin k) (w_cl s)) 0) as [Z|Z]; [exact Z|]. exfalso. destruct (count_pos new_client (cjoin k) (w_cl s) ltac:(lia)) as (i & L & G). change (get new_client (w_cl s) i) with (cl s i) in G.
  unfold cjoin in G. destruct (c_pc (cl s i)) eqn:E; try discriminate. apply Nat.eqb_eq in G as ->. exact (H _ _ E).
Qed.
Lemma no_hold : forall s k, (forall i, ~ In k (c_hold (cl s i))) -> weigh (fun c => cnt k (c_hold c)) (w_cl s) = 0.
Proof.
  intros s k H. assert (G : forall c, In c (w_cl s) -> cnt k (c_hold c) = 0).
  { intros c I. apply (In_nth _ _ new_client) in I as (i & L & E). specialize (H i). unfold cl, get in H. rewrite E in H. destruct (Nat.eq_dec (cnt k (c_hold c)) 0) as [Z|Z]; [exact Z|]. apply cnt_In in Z. contradiction. }
  unfold weigh. induction (w_cl s) as [|c l IH]; [reflexivity|]. cbn [map list_sum fold_right]. rewrite (G c) by now left. cbn [Nat.add]. apply IH. intros d I. apply G. now right.
Qed.
Lemma old_no_queue : forall s k, invB s -> nadd k (w_old s) <> 0 -> cnt k (flat_map task_refs (w_q s)) = 0 /\ nadd k (w_q s) = 0.
Proof.
  intros s k IB H. pose proof (b_add s IB k) as N. unfold entered in N. rewrite nadd_app in N. pose proof (b2n_le (k <? length (w_sk s))) as LE. assert (Z : nadd k (w_q s) = 0) by lia. split; [|exact Z].
  destruct (Nat.eq_dec (cnt k (flat_map task_refs (w_q s))) 0) as [E|E]; [exact E|]. apply cnt_In, in_flat_map in E as (t & I & T). destruct t as [m|m|i u|i u|i|]; try destruct T as []; [|contradiction]. subst u. exfalso. apply (proj2 (nadd_In k (w_q s))); eauto.
Qed.

Lemma prefix_window : forall k h l, prefix h l -> prefix (window k false h) (window k false l).
Proof. intros k h l [r ->]. rewrite window_app. eexists. reflexivity. Qed.
Lemma prefix_cases : forall A (h : list A) x pre t, prefix (h ++ [x]) (pre ++ [t]) -> (h = pre /\ x = t) \/ prefix (h ++ [x]) pre.
Proof.
  intros A h x pre t [r E]. destruct r as [|y r].
  - rewrite app_nil_r in E. apply app_inj_tail in E as [-> ->]. auto.
  - right. destruct (exists_last (l := y :: r) ltac:(discriminate)) as (r' & z & E'). rewrite E', app_assoc in E. apply app_inj_tail in E as [-> _]. now exists r'.
Qed.
(** after a removal, no registration *)
Lemma removed_unreg : forall k i h l, nadd k h <> 0 -> nadd k l <= 1 -> prefix (h ++ [TRemove i k]) l -> registered k false l = false.
Proof.
  intros k i h l H N [r ->]. rewrite <- app_assoc in *. cbn [app] in *. rewrite nadd_app in N. change (TRemove i k :: r) with ([TRemove i k] ++ r) in N. rewrite nadd_app in N.
  rewrite registered_app. cbn [registered]. rewrite Nat.eqb_refl. apply registered_noadd. lia.
Qed.
Lemma removed_flushed : forall s i k h, inv s -> invG s -> c_pc (cl s i) = CRmR k h ->
  (forall j, ~ In k (c_hold (cl s j))) -> (forall j next, c_pc (cl s j) <> CJoin k next) -> (forall j h', j <> i -> c_pc (cl s j) <> CRmW k h') ->
  refs s k = 0 /\ jn s k = 0.
Proof.
  intros s i k h [IA IB IP IT ID] IG P NH NJ NW. pose proof (t_pc s IT i) as TP. rewrite P in TP. cbn [tokok] in TP. destruct TP as [HK PF]. pose proof (g_add s IG i) as AD. rewrite P in AD. cbn [addok] in AD.
  pose proof (t_h s IT k HK) as NO. destruct (old_no_queue s k IB NO) as [CQ NQ]. pose proof (b_add s IB k) as BA. pose proof (b2n_le (k <? length (w_sk s))) as LE. unfold entered in BA. rewrite nadd_app in BA.
  assert (LE1 : nadd k (w_old s) <= 1) by lia.
  pose proof (removed_unreg k i h (w_old s) AD LE1 PF) as UR.
  assert (NS : cnt k (w_sinks s) = 0) by (destruct (Nat.eq_dec (cnt k (w_sinks s)) 0) as [Z|Z]; [exact Z|]; apply cnt_In, (b_on s IB) in Z; congruence).
  assert (NR : forall pre t, w_old s = pre ++ [t] -> (forall u, t <> TRemove u k) -> registered k false pre = false /\ (forall u, t <> TAdd u k)).
  { intros pre t O NT. rewrite O in PF, LE1. destruct (prefix_cases _ _ _ _ _ PF) as [[_ E]|PF']; [exfalso; now apply (NT i)|]. rewrite nadd_app in LE1. split.
    - apply (removed_unreg k i h pre AD); [lia|exact PF'].
    - intros u ->. destruct PF' as [r ->]. rewrite nadd_app, nadd_app in LE1. unfold nadd at 4 in LE1. cbn [filter is_add] in LE1. rewrite Nat.eqb_refl in LE1. cbn [length] in LE1. lia. }
  (* the worker does not own it and does not destroy it *)
  assert (WK : cnt k (pc_refs (w_pc s)) = 0 /\ wjoin k (w_pc s) = false).
  { destruct IP as [[W _]|(pre & t & O & QU & B)]; [rewrite W; auto|].
    assert (RE : forall l, regd pre l -> (forall u, t <> TRemove u k) -> cnt k l = 0).
    { intros l RG NT. destruct (Nat.eq_dec (cnt k l) 0) as [Z|Z]; [exact Z|]. apply cnt_In, RG in Z. destruct (NR pre t O NT). congruence. }
    assert (RJ : forall u l, regd pre (u :: l) -> (forall u, t <> TRemove u k) -> Nat.eqb u k = false /\ cnt k l = 0).
    { intros u l RG NT. split.
      - apply Nat.eqb_neq. intros ->. destruct (NR pre t O NT). specialize (RG k ltac:(now left)). congruence.
      - apply RE; auto. intros v Hv. apply RG. now right. }
    assert (WT : forall u, wtok u (w_pc s) = true -> t = TRemove u k -> False).
    { intros u WU E. destruct (g_cur s IG u WU) as (pre' & t' & O' & M). rewrite O in O'. apply app_inj_tail in O' as [_ <-]. subst t. unfold matches in M. destruct (c_pc (cl s u)) eqn:PU; try discriminate; try contradiction. injection M as ->.
      assert (NE : u <> i) by (intros ->; congruence). exact (NW u _ NE PU). }
    destruct t as [m|m|u v|u v|u|]; cbn [busy] in B.
    - destruct B as [(todo & ->)| ->]; auto.
    - destruct B as [(todo & drop & -> & RG)|[(l & -> & RG)|(v & l & -> & RG)]]; cbn [pc_refs wjoin].
      + split; [apply RE; [exact RG|discriminate]|reflexivity].
      + split; [apply RE; [exact RG|discriminate]|reflexivity].
      + destruct (RJ v l RG ltac:(discriminate)). auto.
    - assert (NV : v <> k) by (intros ->; destruct (NR pre _ O ltac:(discriminate)) as [_ N]; now apply (N u)). apply Nat.eqb_neq in NV. destruct B as [-> |[-> |[-> | ->]]]; cbn [pc_refs wjoin]; rewrite ?cnt_cons, ?NV; auto.
    - destruct (Nat.eq_dec v k) as [EV|NV].
      + subst v. destruct B as [(l & W & _)|[(l & W & _)|[W|W]]]; rewrite W; [| | |auto]; exfalso; apply (WT u); auto; rewrite W; cbn [wtok]; apply Nat.eqb_refl.
      + assert (OK : forall l, only v l -> cnt k l = 0) by (intros l OL; destruct (Nat.eq_dec (cnt k l) 0) as [Z|Z]; [exact Z|]; apply cnt_In, OL in Z; congruence).
        destruct B as [(l & -> & OL)|[(l & -> & OL)|[-> | ->]]]; cbn [pc_refs wjoin]; auto. apply Nat.eqb_neq in NV. auto.
    - destruct B as [(l & -> & RG)|[(v & l & -> & RG)|[-> | ->]]]; cbn [pc_refs wjoin]; auto.
      + split; [apply RE; [exact RG|discriminate]|reflexivity].
      + destruct (RJ v l RG ltac:(discriminate)). auto.
    - rewrite B. auto. }
  destruct WK as [W1 W2]. split.
  - unfold refs. rewrite NS, CQ, W1, (no_hold s k NH). reflexivity.
  - unfold jn. rewrite W2, (no_cjoin s k NJ). reflexivity.
Qed.

(** ** the end of the worker *)
Lemma exit_empty : forall s, inv s -> w_pc s = WExit -> w_q s = [] /\ exists pre, w_old s = pre ++ [TDone] /\ quiet pre.
Proof.
  intros s [IA IB IP IT ID] W. destruct IP as [[C _]|(pre & t & O & Q & B)]; [congruence|]. rewrite W in B. assert (TD : t = TDone).
  { destruct t; auto; exfalso; cbn [busy] in B; destruct B as [B|B]; repeat (match goal with H : _ \/ _ |- _ => destruct H | H : exists _, _ |- _ => destruct H | H : _ /\ _ |- _ => destruct H end); try discriminate. }
  split; [|exists pre; subst t; auto]. assert (ND : In TDone (entered s)) by (unfold entered; rewrite O, TD; apply in_or_app; left; apply in_or_app; right; now left).
  destruct (w_bg s) eqn:BGV; [destruct (d_bg1 s ID BGV) as [N _]; contradiction|]. destruct (d_bg0 s ID BGV) as [(l & E1 & N) _].
  destruct (w_q s) as [|x r] eqn:QQ; [reflexivity|]. exfalso. apply N. unfold entered in E1. rewrite QQ in E1. destruct (exists_last (l := x :: r) ltac:(discriminate)) as (r' & y & E2). rewrite E2, app_assoc in E1. apply app_inj_tail in E1 as [E1 _].
  rewrite <- E1, O, TD. apply in_or_app. left. apply in_or_app. right. now left.
Qed.
Lemma move_killed : forall s s', move s s' -> w_proc s = PRun -> w_proc s' = PKilled -> s' = set_proc s PKilled /\ w_pc s = WDrop [] KKill.
Proof.
  intros s s' M P K.
  assert (R : forall u i k next t, rel u i k next t -> w_proc u = PRun -> w_proc t = PKilled -> False).
  { intros u i k next t [E|E] PU PT; [cbn in PT; congruence|]. cbn [set_cpc set_cl w_proc] in PT. destruct (ps_frame (set_hold u i (remove1 k (c_hold (cl u i)))) k JDone) as (_ & _ & _ & _ & _ & _ & _ & _ & _ & A & _). rewrite A in PT. cbn in PT. congruence. }
  destruct M; try (cbn in K; congruence); try (exfalso; eapply R; eauto; fail); try (exfalso; eapply R; [eassumption|exact P|exact K]);
    try (exfalso; revert K; unfold push_sink, destroy; repeat (match goal with |- context [if ?b then _ else _] => destruct b end); cbn; congruence).
  auto.
Qed.
Lemma killed : forall n s, wreach n s -> w_proc s = PKilled -> exists s0, wreach n s0 /\ w_proc s0 = PRun /\ w_pc s0 = WDrop [] KKill /\ s = set_proc s0 PKilled.
Proof.
  intros n s R K. unfold wreach in *. inversion R as [x|x s1 a s2 R1 E]; subst; [discriminate|]. destruct (wstep_move _ _ _ E) as [P M]. destruct (move_killed _ _ M P K) as [-> W]. exists s1. auto.
Qed.

(** ** the steps of the others *)
Definition ext (x x' : sink) : Prop := k_run x' = k_run x /\ k_got x' = k_got x /\ k_done x' = k_done x /\ k_exit x' = k_exit x /\ (exists l, k_q x' = k_q x ++ l) /\ (k_dead x = true -> x' = x).
Lemma ext_refl : forall x, ext x x.
Proof. intro x. repeat split; auto. exists []. now rewrite app_nil_r. Qed.
Lemma ext_trans : forall x y z, ext x y -> ext y z -> ext x z.
Proof.
  intros x y z (A1 & A2 & A3 & A4 & (l & A5) & A6) (B1 & B2 & B3 & B4 & (l' & B5) & B6). repeat split; try congruence.
  - exists (l ++ l'). rewrite B5, A5. now rewrite app_assoc.
  - intro D. specialize (A6 D). subst y. auto.
Qed.
Lemma ext_eq : forall s s' k, w_sk s' = w_sk s -> ext (sk s k) (sk s' k).
Proof. intros s s' k E. unfold sk. rewrite E. apply ext_refl. Qed.
Lemma ext_push : forall s u j k, ext (sk s k) (sk (push_sink s u j) k).
Proof.
  intros s u j k. unfold push_sink. destruct (k_dead (sk s u)) eqn:D; [now apply ext_eq|]. rewrite sk_upd. destruct (Nat.eqb k u && Nat.ltb u (length (w_sk s))) eqn:E; [|apply ext_refl].
  apply andb_prop in E as [E _]. apply Nat.eqb_eq in E as ->. repeat split; [exists [j]; reflexivity|congruence].
Qed.
Lemma ext_destroy : forall s u k, ext (sk s k) (sk (destroy s u) k).
Proof.
  intros s u k. unfold destroy. destruct (k_dead (sk s u)) eqn:D; [now apply ext_eq|]. rewrite sk_upd. destruct (Nat.eqb k u && Nat.ltb u (length (w_sk s))) eqn:E; [|apply ext_refl].
  apply andb_prop in E as [E _]. apply Nat.eqb_eq in E as ->. repeat split; [exists []; cbn [with_dead k_q]; now rewrite app_nil_r|congruence].
Qed.
Lemma ext_release : forall s i u next k, ext (sk s k) (sk (release s i u next) k).
Proof.
  intros s i u next k. unfold release. set (s1 := set_hold s i (remove1 u (c_hold (cl s i)))). destruct (Nat.eqb (refs s1 u) 0); [|now apply ext_eq].
  eapply ext_trans; [|apply ext_eq; reflexivity]. exact (ext_push s1 u JDone k).
Qed.
Lemma ext_upd : forall s u x k, u <> k -> ext (sk s k) (sk (set_sk s (upd (w_sk s) u x)) k).
Proof. intros s u x k N. rewrite sk_upd. assert (E : Nat.eqb k u = false) by (apply Nat.eqb_neq; congruence). rewrite E. apply ext_refl. Qed.
Lemma other_step : forall s a s' k, wstep s a = Some s' -> own k a = false -> k < length (w_sk s) -> ext (sk s k) (sk s' k).
Proof.
  intros s a s' k E OW L. unfold wstep in E. destruct (w_proc s) eqn:P; try discriminate. destruct a as [|u|u o|u|i|i|i|i|i u|i|i u|i u|i u|i| |]; cbn [own] in OW; try apply Nat.eqb_neq in OW.
  - unfold work in E. destruct (w_pc s) as [|m todo drop q|l q|u l q|i f|] eqn:W.
    + destruct (w_q s) as [|t q] eqn:Q; [discriminate|]. injection E as <-. destruct t as [m|m|i u|i u|i|]; try (now apply ext_eq). destruct (Nat.eqb (refs (pop s (TRemove i u) q) u) 0); now apply ext_eq.
    + destruct todo as [|u todo]; injection E as <-; [now apply ext_eq|]. exact (ext_push s u (JMsg m) k).
    + destruct l as [|u l]; [destruct q; injection E as <-; now apply ext_eq|]. injection E as <-. destruct (Nat.eqb (refs (set_pc s (WDrop l q)) u) 0); [|now apply ext_eq]. exact (ext_push (set_pc s (WDrop l q)) u JDone k).
    + destruct (k_exit (sk s u)); [|discriminate]. injection E as <-. exact (ext_destroy s u k).
    + injection E as <-. now apply ext_eq.
    + discriminate.
  - unfold sink_pop in E. destruct (k_run (sk s u)); [discriminate|]. destruct (k_q (sk s u)); [discriminate|]. destruct (k_done (sk s u)); [discriminate|]. injection E as <-. now apply ext_upd.
  - unfold sink_end in E. destruct (k_run (sk s u)) as [j|]; [|discriminate]. injection E as <-. destruct j; [destruct o| |]; exact (ext_upd s u _ k OW).
  - unfold sink_exit in E. destruct (k_done (sk s u) && negb (k_exit (sk s u))); [|discriminate]. injection E as <-. now apply ext_upd.
  - unfold go in E. destruct (c_pc (cl s i)); try discriminate; try (injection E as <-; now apply ext_eq); try (destruct (w_active s); injection E as <-; now apply ext_eq); try (destruct (w_bg s); injection E as <-; now apply ext_eq).
    + injection E as <-. exact (ext_release (set_handles s _) i _ CIdle k).
    + injection E as <-. apply ext_release.
    + injection E as <-. exact (ext_push s _ _ k).
    + injection E as <-. apply ext_release.
    + destruct (k_exit (sk s _)); [|discriminate]. injection E as <-. exact (ext_destroy s _ k).
    + destruct (w_pc s); try discriminate. injection E as <-. now apply ext_eq.
  - destruct (idle s i); [|discriminate]. injection E as <-. now apply ext_eq.
  - destruct (idle s i); [|discriminate]. destruct (w_active s); injection E as <-; now apply ext_eq.
  - destruct (idle s i && negb (dtor_begun s)); [|discriminate]. injection E as <-. unfold sk at 2. cbn [set_cpc set_cl push acquire set_hold set_sk w_sk]. rewrite get_app_last by lia. assert (NE : Nat.eqb k (length (w_sk s)) = false) by (apply Nat.eqb_neq; lia). rewrite NE. apply ext_refl.
  - destruct (idle s i && negb (dtor_begun s) && has u (w_handles s)); [|discriminate]. destruct (Nat.eqb (refs s u) 0); injection E as <-; now apply ext_eq.
  - destruct (idle s i && negb (dtor_begun s)); [|discriminate]. injection E as <-. now apply ext_eq.
  - destruct (idle s i && has u (w_handles s)); [|discriminate]. destruct (Nat.eqb (refs s u) 0); injection E as <-; now apply ext_eq.
  - destruct (idle s i && has u (w_handles s) && negb (Nat.eqb (refs s u) 0)); [|discriminate]. injection E as <-. now apply ext_eq.
  - destruct (idle s i && has u (c_hold (cl s i))); [|discriminate]. injection E as <-. apply ext_release.
  - destruct (idle s i && negb (existsb (fun c => managing (c_pc c)) (w_cl s))); [|discriminate]. injection E as <-. now apply ext_eq.
  - injection E as <-. now apply ext_eq.
  - destruct (w_active s || dtor_begun s); [discriminate|]. injection E as <-. now apply ext_eq.
Qed.
Lemma sk_len : forall s a s', wstep s a = Some s' -> length (w_sk s) <= length (w_sk s').
Proof.
  intros s a s' E. destruct (wstep_move _ _ _ E) as [_ M].
  assert (R : forall u i k next t, rel u i k next t -> length (w_sk t) = length (w_sk u)) by (intros u i k next t [H|H]; [reflexivity|]; cbn [set_cpc set_cl w_sk]; now rewrite len_push_sink).
  destruct M; try (cbn; rewrite ?upd_length, ?app_length; lia); try (cbn [set_pc set_cpc set_cl w_sk]; rewrite ?len_push_sink, ?len_destroy; cbn; lia); try (match goal with H : rel _ _ _ _ _ |- _ => apply R in H; rewrite H; cbn; lia end).
Qed.
(** what sink k does to itself *)
Lemma own_step : forall s a s' k, wstep s a = Some s' -> own k a = true -> k < length (w_sk s) /\ k_dead (sk s' k) = k_dead (sk s k) /\ exists l, k_got (sk s' k) = k_got (sk s k) ++ l.
Proof.
  intros s a s' k E OW. unfold wstep in E. destruct (w_proc s) eqn:P; try discriminate. destruct a as [|u|u o|u|i|i|i|i|i u|i|i u|i u|i u|i| |]; cbn [own] in OW; try discriminate; apply Nat.eqb_eq in OW; subst u.
  - unfold sink_pop in E. destruct (k_run (sk s k)); [discriminate|]. destruct (k_q (sk s k)) eqn:Q; [discriminate|]. destruct (k_done (sk s k)); [discriminate|]. injection E as <-. pose proof (sink_q_lt _ _ _ _ Q) as L. split; [exact L|]. rewrite sk_upd, Nat.eqb_refl. apply Nat.ltb_lt in L. rewrite L. split; [reflexivity|]. exists []. cbn. now rewrite app_nil_r.
  - unfold sink_end in E. destruct (k_run (sk s k)) as [j|] eqn:R; [|discriminate]. pose proof (sink_run_lt _ _ _ R) as L. injection E as <-. split; [exact L|]. apply Nat.ltb_lt in L.
    assert (Z : forall x, sk (set_sk s (upd (w_sk s) k x)) k = x) by (intro x; now rewrite sk_upd, Nat.eqb_refl, L).
    assert (Y : forall x v, sk (set_prom (set_sk s (upd (w_sk s) k x)) v) k = x) by (intros x v; exact (Z x)). assert (X : forall x v, sk (set_proc (set_sk s (upd (w_sk s) k x)) v) k = x) by (intros x v; exact (Z x)).
    destruct j; [destruct o| |]; rewrite ?Y, ?X, ?Z; (split; [reflexivity|]); eexists; reflexivity.
  - unfold sink_exit in E. destruct (k_done (sk s k)); [|discriminate]. destruct (k_exit (sk s k)) eqn:X; [discriminate|]. injection E as <-. pose proof (sink_exit_lt _ _ X) as L. split; [exact L|]. rewrite sk_upd, Nat.eqb_refl. apply Nat.ltb_lt in L. rewrite L. split; [reflexivity|]. exists []. cbn. now rewrite app_nil_r.
Qed.
Lemma step_got : forall s a s' k, wstep s a = Some s' -> exists l, k_got (sk s' k) = k_got (sk s k) ++ l.
Proof.
  intros s a s' k E. destruct (own k a) eqn:OW; [apply (own_step s a s' k E OW)|]. destruct (Nat.lt_ge_cases k (length (w_sk s))) as [L|L].
  - destruct (other_step s a s' k E OW L) as (_ & G & _). exists []. now rewrite app_nil_r.
  - rewrite (sk_out s k L). exists (k_got (sk s' k)). reflexivity.
Qed.
Lemma steps_got : forall s s' k, wsteps s s' -> exists l, k_got (sk s' k) = k_got (sk s k) ++ l.
Proof.
  intros s s' k W. induction W as [s|s s1 a s2 W [l IH] E]; [exists []; now rewrite app_nil_r|]. destruct (step_got _ _ _ k E) as [r R]. exists (l ++ r). rewrite R, IH. now rewrite app_assoc.
Qed.
Lemma step_dead : forall s a s' k, invA s -> wstep s a = Some s' -> k < length (w_sk s) -> k_dead (sk s k) = true -> sk s' k = sk s k.
Proof.
  intros s a s' k IA E L D. destruct (own k a) eqn:OW; [|now apply (other_step s a s' k E OW L)]. exfalso. destruct (dead_facts s k IA D) as (X1 & X2 & X3 & X4 & _).
  unfold wstep in E. destruct (w_proc s); try discriminate. destruct a as [|u|u o|u|i|i|i|i|i u|i|i u|i u|i u|i| |]; cbn [own] in OW; try discriminate; apply Nat.eqb_eq in OW; subst u.
  - unfold sink_pop in E. rewrite X3, X4 in E. discriminate.
  - unfold sink_end in E. rewrite X4 in E. discriminate.
  - unfold sink_exit in E. rewrite X1, X2 in E. discriminate.
Qed.
Lemma reach_steps : forall n s s', wreach n s -> wsteps s s' -> wreach n s'.
Proof. intros n s s' R W. induction W as [s|s s1 a s2 W IH E]; auto. unfold wreach in *. apply ws_step with (s1 := s1) (a := a); auto. Qed.
Lemma steps_len : forall s s', wsteps s s' -> length (w_sk s) <= length (w_sk s').
Proof. intros s s' W. induction W as [s|s s1 a s2 W IH E]; [lia|]. pose proof (sk_len _ _ _ E). lia. Qed.
Lemma steps_dead : forall n s s' k, wreach n s -> wsteps s s' -> k < length (w_sk s) -> k_dead (sk s k) = true -> sk s' k = sk s k.
Proof.
  intros n s s' k R W. induction W as [s|s s1 a s2 W IH E]; intros L D; [reflexivity|]. specialize (IH R L D). pose proof (steps_len _ _ W) as LL. rewrite <- IH. apply (step_dead s1 a); auto; [|lia|now rewrite IH].
  apply (reach_A n). eapply reach_steps; eauto.
Qed.

(** ** order *)
Lemma sublist_refl : forall A (l : list A), sublist l l.
Proof. induction l; [apply sub_nil|now apply sub_take]. Qed.
Lemma sublist_nil : forall A (l : list A), sublist [] l.
Proof. induction l; constructor; auto. Qed.
Lemma sublist_app : forall A (a b c d : list A), sublist a b -> sublist c d -> sublist (a ++ c) (b ++ d).
Proof. intros A a b c d H K. induction H; cbn [app]; [exact K|now apply sub_skip|now apply sub_take]. Qed.
Lemma sublist_prefix : forall A (a b : list A), prefix a b -> sublist a b.
Proof. intros A a b [r ->]. rewrite <- (app_nil_r a) at 1. apply sublist_app; [apply sublist_refl|apply sublist_nil]. Qed.
Lemma sublist_trans : forall A (a b c : list A), sublist a b -> sublist b c -> sublist a c.
Proof.
  intros A a b c H K. revert a H. induction K as [|x l1 l2 K IH|x l1 l2 K IH]; intros a H; auto.
  - apply sub_skip. auto.
  - inversion H; subst; [apply sub_skip|apply sub_take]; auto.
Qed.
Lemma sublist_In : forall A (a b : list A) x, sublist a b -> In x a -> In x b.
Proof. intros A a b x H. induction H; cbn; tauto. Qed.
Lemma sublist_NoDup : forall A (a b : list A), sublist a b -> NoDup b -> NoDup a.
Proof.
  intros A a b H. induction H as [|x l1 l2 H IH|x l1 l2 H IH]; intro N; auto; inversion N; subst; auto. constructor; auto. intro I. apply H2. eapply sublist_In; eauto.
Qed.
Lemma window_sub : forall k l on, sublist (window k on l) (logged l).
Proof.
  intros k l. induction l as [|t l IH]; intro on; [constructor|]. destruct t; cbn [window logged flat_map]; try apply IH.
  - apply (sublist_app _ _ [m]); [destruct on; [apply sublist_refl|apply sublist_nil]|apply IH].
  - apply (sublist_app _ _ [m]); [destruct on; [apply sublist_refl|apply sublist_nil]|apply IH].
Qed.
Lemma logged_NoDup : forall s, invN s -> NoDup (logged (entered s)).
Proof.
  intros s IN. pose proof (n_sort s IN) as S. induction (logged (entered s)) as [|[i x] l IH]; constructor.
  - intro H. specialize (S i). unfold nums in S. cbn [filter fst map snd] in S. rewrite Nat.eqb_refl in S. cbn [map snd] in S. inversion S as [|a b S1 S2]; subst. rewrite Forall_forall in S2.
    specialize (S2 x). assert (C : x < x); [|lia]. apply S2. change x with (snd (i, x)). apply in_map. apply filter_In. split; [exact H|cbn; apply Nat.eqb_refl].
  - apply IH. intro j. specialize (S j). unfold nums in S. cbn [filter fst] in S. destruct (Nat.eqb i j); [|exact S]. cbn [map] in S. inversion S; assumption.
Qed.
Lemma before_cons : forall A (a b x : A) l, before a b l -> before a b (x :: l).
Proof. intros A a b x l (l1 & l2 & l3 & ->). exists (x :: l1), l2, l3. reflexivity. Qed.
Lemma before_sub : forall A (a b : A) l l', sublist l l' -> before a b l -> before a b l'.
Proof.
  intros A a b l l' S. induction S as [|x l1 l2 S IH|x l1 l2 S IH]; intro B; auto.
  - now apply before_cons, IH.
  - destruct B as (p & q & r & E). destruct p as [|y p]; cbn [app] in E; injection E; intros E1 E2.
    + subst x. assert (I : In b l2) by (eapply sublist_In; [exact S|]; rewrite E1; apply in_or_app; right; now left). apply in_split in I as (u & v & ->). exists [], u, v. reflexivity.
    + apply before_cons, IH. now exists p, q, r.
Qed.
Lemma before_anti : forall A (a b : A) l, NoDup l -> before a b l -> before b a l -> False.
Proof.
  intros A a b l N (l1 & l2 & l3 & E) (m1 & m2 & m3 & F). revert m1 l E F N. induction l1 as [|x l1 IH]; intros m1 l E F N.
  - cbn [app] in E. destruct m1 as [|y m1]; cbn [app] in F; rewrite E in F; injection F; intros F1 F2.
    + subst b. rewrite E in N. inversion N as [|? ? N1 N2]; subst. apply N1. apply in_or_app. right. now left.
    + subst y. rewrite E in N. inversion N as [|? ? N1 N2]; subst. apply N1. rewrite F1. apply in_or_app. right. right. apply in_or_app. right. now left.
  - destruct m1 as [|y m1]; rewrite E in F; cbn [app] in F; injection F; intros F1 F2.
    + subst x. rewrite E in N. cbn [app] in N. inversion N as [|? ? N1 N2]; subst. apply N1. apply in_or_app. right. right. apply in_or_app. right. now left.
    + apply (IH m1 (l1 ++ a :: l2 ++ b :: l3) eq_refl F1). rewrite E in N. cbn [app] in N. now inversion N.
Qed.
Lemma received_window : forall s k, invB s -> prefix (received (sk s k)) (window k false (entered s)).
Proof.
  intros s k IB. unfold entered. rewrite window_app, <- (b_win s IB k). unfold sent, all. rewrite msgs_app. unfold received. eexists. rewrite <- !app_assoc. reflexivity.
Qed.
