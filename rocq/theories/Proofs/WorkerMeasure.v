(** Without new requests the threads stop, and then nobody waits. *)
From Coq Require Import List Arith Bool Lia.
From Verif.Base Require Import Threads.
From Verif.Model Require Import Worker.
From Verif.Spec Require Import WorkerSpec.
From Verif.Proofs Require Import WorkerLife WorkerHist WorkerBusy WorkerTok WorkerProm.
Import ListNotations.

(** ** how much is left to do *)
Definition sw (x : sink) : nat := 2 * length (k_q x) + (match k_run x with Some _ => 1 | None => 0 end) + b2n (negb (k_exit x)).
Definition kw (q : kont) : nat := match q with KTok _ => 2 | _ => 0 end.
Definition dw (l : list nat) (q : kont) : nat := 4 * length l + kw q + 1.
Definition pw (p : wpc) : nat :=
  match p with
  | WLoop | WExit => 0
  | WSend _ todo drop q => 3 * length todo + dw drop q + 1
  | WDrop l q => dw l q
  | WJoin _ l q => 1 + dw l q
  | WTok _ f => 4 * length f + 2
  end.
Fixpoint cw (T : nat) (p : cpc) : nat :=
  match p with
  | CIdle | CFatBlock | DDone _ => 0
  | CLog1 _ | CFat1 _ => T + 2
  | CLog2 _ | CFat2 _ => T + 1
  | CAddW _ | CAddR _ => 4
  | CRm1 _ => T + 6
  | CRm2 _ => T + 2
  | CRmW _ _ | CRmR _ _ | CAllW | CAllR => 1
  | CCall _ _ => 7
  | CCallR _ => 4
  | CJoin _ next => 1 + cw T next
  | D0 _ => 2 * T + 3
  | DClrW _ | DClrR _ => T + 2
  | DJoin _ => 1
  end.
Definition SK (s : wstate) : nat := weigh sw (w_sk s).
Definition CL (T : nat) (s : wstate) : nat := weigh (fun c => cw T (c_pc c)) (w_cl s).
Definition QW (T : nat) (s : wstate) : nat := length (w_q s) * T.
Definition RW (s : wstate) : nat := match w_proc s with PRun => 1 | _ => 0 end.
Definition phiT (T : nat) (s : wstate) : nat := QW T s + pw (w_pc s) + SK s + CL T s + RW s.
Definition budget (s : wstate) : nat := 7 * length (w_sk s) + 20.
Definition phi (s : wstate) : nat := phiT (budget s) s.

Lemma CL_cpc : forall T s s' i p, i < length (w_cl s) -> w_cl s' = w_cl s -> CL T (set_cpc s' i p) + cw T (c_pc (cl s i)) = CL T s + cw T p.
Proof.
  intros T s s' i p L C. unfold CL. cbn [set_cpc set_cl w_cl]. rewrite C.
  exact (weigh_upd new_client (fun c => cw T (c_pc c)) (w_cl s) i (mkClient p (c_hold (cl s' i)) (c_n (cl s' i))) L).
Qed.
Lemma SK_push : forall s k j, SK (push_sink s k j) <= SK s + 2.
Proof.
  intros s k j. unfold push_sink. destruct (k_dead (sk s k)); [unfold SK; cbn [set_sinkub w_sk]; lia|]. unfold SK. cbn [set_sk w_sk].
  destruct (Nat.lt_ge_cases k (length (w_sk s))) as [L|L]; [|rewrite upd_out by exact L; lia].
  pose proof (weigh_upd no_sink sw (w_sk s) k (with_kq (sk s k) (k_q (sk s k) ++ [j])) L) as W. change (get no_sink (w_sk s) k) with (sk s k) in W.
  assert (E : sw (with_kq (sk s k) (k_q (sk s k) ++ [j])) = sw (sk s k) + 2) by (unfold sw, with_kq; cbn [k_q k_run k_exit]; rewrite app_length; cbn [length]; lia). lia.
Qed.
Lemma SK_destroy : forall s k, SK (destroy s k) = SK s.
Proof.
  intros s k. unfold destroy. destruct (k_dead (sk s k)); [reflexivity|]. unfold SK. cbn [set_sk w_sk].
  destruct (Nat.lt_ge_cases k (length (w_sk s))) as [L|L]; [|now rewrite upd_out].
  pose proof (weigh_upd no_sink sw (w_sk s) k (with_dead (sk s k)) L) as W. change (get no_sink (w_sk s) k) with (sk s k) in W. change (sw (with_dead (sk s k))) with (sw (sk s k)) in W. lia.
Qed.
Lemma SK_local : forall s k x, k < length (w_sk s) -> sw x < sw (sk s k) -> SK (set_sk s (upd (w_sk s) k x)) < SK s.
Proof.
  intros s k x L H. unfold SK. cbn [set_sk w_sk]. pose proof (weigh_upd no_sink sw (w_sk s) k x L) as W. change (get no_sink (w_sk s) k) with (sk s k) in W. lia.
Qed.
Lemma CL_hold : forall T s i h, CL T (set_hold s i h) = CL T s.
Proof.
  intros T s i h. unfold CL. cbn [set_hold set_cl w_cl]. destruct (Nat.lt_ge_cases i (length (w_cl s))) as [L|L]; [|now rewrite upd_out].
  pose proof (weigh_upd new_client (fun c => cw T (c_pc c)) (w_cl s) i (mkClient (c_pc (cl s i)) h (c_n (cl s i))) L) as W. cbn [c_pc] in W. change (get new_client (w_cl s) i) with (cl s i) in W. lia.
Qed.
Lemma rel_phi : forall T s i k next s', i < length (w_cl s) -> rel s i k next s' -> cw T next + 3 < cw T (c_pc (cl s i)) -> phiT T s' < phiT T s /\ length (w_sk s') = length (w_sk s).
Proof.
  intros T s i k next s' L E H. set (s1 := set_hold s i (remove1 k (c_hold (cl s i)))) in *.
  assert (L1 : i < length (w_cl s1)) by (cbn [s1 set_hold set_cl w_cl]; now rewrite upd_length).
  assert (PC1 : c_pc (cl s1 i) = c_pc (cl s i)) by (unfold s1, set_hold; rewrite cl_set, Nat.eqb_refl by exact L; reflexivity).
  assert (C1 : CL T s1 = CL T s) by apply CL_hold.
  destruct E as [E|E]; fold s1 in E |- *; unfold phiT.
  - pose proof (CL_cpc T s1 s1 i next L1 eq_refl) as W. rewrite PC1 in W. split; [|reflexivity]. change (QW T (set_cpc s1 i next)) with (QW T s). change (w_pc (set_cpc s1 i next)) with (w_pc s). change (SK (set_cpc s1 i next)) with (SK s). change (RW (set_cpc s1 i next)) with (RW s). lia.
  - destruct (ps_frame s1 k JDone) as (A1 & A2 & A3 & A4 & A5 & A6 & A7 & A8 & A9 & A10 & _). pose proof (CL_cpc T s1 (push_sink s1 k JDone) i (CJoin k next) L1 A7) as W. rewrite PC1 in W. cbn [cw] in W.
    pose proof (SK_push s1 k JDone) as W2. change (SK s1) with (SK s) in W2. split; [|cbn [set_cpc set_cl w_sk]; exact (len_push_sink s1 k JDone)].
    unfold QW, RW. cbn [set_cpc set_cl w_q w_pc w_proc]. rewrite A2, A3, A10. change (SK (set_cpc (push_sink s1 k JDone) i (CJoin k next))) with (SK (push_sink s1 k JDone)). change (w_q s1) with (w_q s). change (w_pc s1) with (w_pc s). change (w_proc s1) with (w_proc s). lia.
Qed.

Lemma sinks_len : forall s, invA s -> invB s -> length (w_sinks s) <= length (w_sk s).
Proof.
  intros s IA IB. rewrite <- (seq_length (length (w_sk s)) 0). apply NoDup_incl_length; [apply (b_nd s IB)|]. intros k H. apply in_seq. split; [lia|].
  apply (life_lt _ _ _ _ (a_life s IA)). unfold refs. apply cnt_In in H. lia.
Qed.
Lemma pop_phi : forall s s' t q, w_q s = t :: q -> w_q s' = q -> pw (w_pc s') < budget s + pw (w_pc s) -> w_sk s' = w_sk s -> w_cl s' = w_cl s -> w_proc s' = w_proc s -> phi s' < phi s.
Proof.
  intros s s' t q Q Q' H K C P. assert (B : budget s' = budget s) by (unfold budget; now rewrite K). unfold phi. rewrite B. unfold phiT, QW, SK, CL, RW. rewrite Q, Q', K, C, P. cbn [length Nat.mul]. lia.
Qed.
Lemma pc_phi : forall s s', w_q s' = w_q s -> pw (w_pc s') < pw (w_pc s) -> w_sk s' = w_sk s -> w_cl s' = w_cl s -> w_proc s' = w_proc s -> phi s' < phi s.
Proof.
  intros s s' Q H K C P. assert (B : budget s' = budget s) by (unfold budget; now rewrite K). unfold phi. rewrite B. unfold phiT, QW, SK, CL, RW. rewrite Q, K, C, P. lia.
Qed.
Lemma end_phi : forall s p, w_proc s = PRun -> p <> PRun -> phi (set_proc s p) < phi s.
Proof.
  intros s p P N. unfold phi. change (budget (set_proc s p)) with (budget s). unfold phiT. change (QW (budget s) (set_proc s p)) with (QW (budget s) s). change (SK (set_proc s p)) with (SK s). change (CL (budget s) (set_proc s p)) with (CL (budget s) s).
  unfold RW. cbn [set_proc w_proc w_pc]. rewrite P. destruct p; try congruence; lia.
Qed.
Lemma sk_phi : forall s s' k x, w_q s' = w_q s -> w_pc s' = w_pc s -> w_sk s' = upd (w_sk s) k x -> w_cl s' = w_cl s -> w_proc s = PRun -> k < length (w_sk s) -> sw x < sw (sk s k) -> phi s' < phi s.
Proof.
  intros s s' k x Q P K C R L H. assert (B : budget s' = budget s) by (unfold budget; now rewrite K, upd_length). unfold phi. rewrite B. unfold phiT, QW, CL. rewrite Q, P, C.
  pose proof (SK_local s k x L H) as W. unfold SK in *. cbn [set_sk w_sk] in W. rewrite K. unfold RW. rewrite R. destruct (w_proc s'); lia.
Qed.
(** a client goes on *)
Lemma cpc_phi : forall s s' i p l, i < length (w_cl s) -> w_cl s' = w_cl s -> w_q s' = w_q s ++ l -> w_pc s' = w_pc s -> SK s' <= SK s + 2 -> length (w_sk s') = length (w_sk s) -> w_proc s' = w_proc s ->
  cw (budget s) p + length l * budget s + (SK s' - SK s) < cw (budget s) (c_pc (cl s i)) -> phi (set_cpc s' i p) < phi s.
Proof.
  intros s s' i p l L C Q P K KL R H. assert (B : budget (set_cpc s' i p) = budget s) by (unfold budget; cbn [set_cpc set_cl w_sk]; now rewrite KL). unfold phi. rewrite B. unfold phiT.
  pose proof (CL_cpc (budget s) s s' i p L C) as W. unfold QW, RW. change (SK (set_cpc s' i p)) with (SK s'). change (w_proc (set_cpc s' i p)) with (w_proc s'). change (w_q (set_cpc s' i p)) with (w_q s'). change (w_pc (set_cpc s' i p)) with (w_pc s').
  rewrite Q, P, R, app_length, Nat.mul_add_distr_r. lia.
Qed.

Lemma bg_phi : forall s a s', invA s -> invB s -> invT s -> bg a = true -> wstep s a = Some s' -> phi s' < phi s.
Proof.
  intros s a s' IA IB IT BG E. pose proof (sinks_len s IA IB) as SL. assert (BD : 7 * length (w_sinks s) + 20 <= budget s) by (unfold budget; lia). assert (BT : 20 <= budget s) by (unfold budget; lia).
  unfold wstep in E. destruct (w_proc s) eqn:P; try discriminate. destruct a as [|k|k o|k|i|i|i|i|i k|i|i k|i k|i k|i| |]; try discriminate.
  - unfold work in E. destruct (w_pc s) as [|m todo drop q|l q|k l q|i f|] eqn:W.
    + destruct (w_q s) as [|t q] eqn:Q; [discriminate|]. injection E as <-. destruct t as [m|m|i k|i k|i|].
      * eapply pop_phi; try reflexivity; eauto. rewrite W. cbn [set_pc w_pc pw length dw kw pop w_sinks]. unfold dw. cbn [length kw]. lia.
      * eapply pop_phi; try reflexivity; eauto. rewrite W. cbn [set_pc w_pc pw length dw kw pop w_sinks]. unfold dw. cbn [length kw]. lia.
      * eapply pop_phi; try reflexivity; eauto. rewrite W. cbn [set_pc w_pc pw length dw kw pop w_sinks]. unfold dw. cbn [length kw]. lia.
      * cbn [pop w_sinks]. destruct (Nat.eqb (refs (pop s (TRemove i k) q) k) 0); (eapply pop_phi; try reflexivity; eauto); rewrite W; cbn [set_pc w_pc pw length Nat.mul].
        -- lia.
        -- unfold dw. rewrite app_length, repeat_length. cbn [length kw]. assert (cnt k (w_sinks s) <= 1) by (apply NoDup_count_occ; apply (b_nd s IB)). lia.
      * eapply pop_phi; try reflexivity; eauto. rewrite W. cbn [set_pc w_pc pw length dw kw pop w_sinks]. unfold dw. cbn [length kw]. lia.
      * eapply pop_phi; try reflexivity; eauto. rewrite W. cbn [set_pc w_pc pw length dw kw pop w_sinks]. lia.
    + destruct todo as [|k todo]; injection E as <-.
      * apply pc_phi; try reflexivity. rewrite W. cbn [set_pc w_pc pw length]. lia.
      * destruct (ps_frame s k (JMsg m)) as (A1 & A2 & A3 & A4 & A5 & A6 & A7 & A8 & A9 & A10 & _). pose proof (SK_push s k (JMsg m)) as Z. pose proof (len_push_sink s k (JMsg m)) as Y.
        assert (B : budget (set_pc (push_sink s k (JMsg m)) (WSend m todo drop q)) = budget s) by (unfold budget; cbn [set_pc w_sk]; now rewrite Y).
        unfold phi. rewrite B. unfold phiT, QW, CL, RW. change (SK (set_pc (push_sink s k (JMsg m)) (WSend m todo drop q))) with (SK (push_sink s k (JMsg m))). cbn [set_pc w_q w_cl w_proc w_pc]. rewrite A2, A7, A10, W. cbn [pw length]. lia.
    + destruct l as [|k l].
      * destruct q; injection E as <-.
        -- apply pc_phi; try reflexivity. rewrite W. cbn. lia.
        -- apply pc_phi; try reflexivity. rewrite W. cbn. lia.
        -- apply end_phi; [exact P|discriminate].
      * injection E as <-. destruct (Nat.eqb (refs (set_pc s (WDrop l q)) k) 0).
        -- set (s1 := set_pc s (WDrop l q)). destruct (ps_frame s1 k JDone) as (A1 & A2 & A3 & A4 & A5 & A6 & A7 & A8 & A9 & A10 & _). pose proof (SK_push s1 k JDone) as Z. pose proof (len_push_sink s1 k JDone) as Y. change (SK s1) with (SK s) in Z. change (w_sk s1) with (w_sk s) in Y.
           assert (B : budget (set_pc (push_sink s1 k JDone) (WJoin k l q)) = budget s) by (unfold budget; cbn [set_pc w_sk]; now rewrite Y).
           unfold phi. rewrite B. unfold phiT, QW, CL, RW. change (SK (set_pc (push_sink s1 k JDone) (WJoin k l q))) with (SK (push_sink s1 k JDone)). cbn [set_pc w_q w_cl w_proc w_pc]. rewrite A2, A7, A10, W. change (w_q s1) with (w_q s). change (w_cl s1) with (w_cl s). change (w_proc s1) with (w_proc s). cbn [pw]. unfold dw. cbn [length]. lia.
        -- apply pc_phi; try reflexivity. rewrite W. cbn [set_pc w_pc pw]. unfold dw. cbn [length]. lia.
    + destruct (k_exit (sk s k)) eqn:X; [|discriminate]. injection E as <-. destruct (ds_frame s k) as (A1 & A2 & A3 & A4 & A5 & A6 & A7 & A8 & A9 & A10 & _). pose proof (len_destroy s k) as Y.
      assert (B : budget (set_pc (destroy s k) (WDrop l q)) = budget s) by (unfold budget; cbn [set_pc w_sk]; now rewrite Y).
      unfold phi. rewrite B. unfold phiT, QW, CL, RW. change (SK (set_pc (destroy s k) (WDrop l q))) with (SK (destroy s k)). rewrite SK_destroy. cbn [set_pc w_q w_cl w_proc w_pc]. rewrite A2, A7, A10, W. cbn [pw]. lia.
    + injection E as <-. assert (B : budget (set_pc (set_cpc s i (signal (c_pc (cl s i)))) (WDrop f KLoop)) = budget s) by reflexivity. unfold phi. rewrite B. unfold phiT.
      change (QW (budget s) (set_pc (set_cpc s i (signal (c_pc (cl s i)))) (WDrop f KLoop))) with (QW (budget s) s). change (SK (set_pc (set_cpc s i (signal (c_pc (cl s i)))) (WDrop f KLoop))) with (SK s).
      change (RW (set_pc (set_cpc s i (signal (c_pc (cl s i)))) (WDrop f KLoop))) with (RW s). change (CL (budget s) (set_pc (set_cpc s i (signal (c_pc (cl s i)))) (WDrop f KLoop))) with (CL (budget s) (set_cpc s i (signal (c_pc (cl s i))))).
      assert (CE : CL (budget s) (set_cpc s i (signal (c_pc (cl s i)))) = CL (budget s) s).
      { destruct (Nat.lt_ge_cases i (length (w_cl s))) as [L|L]; [|unfold CL; cbn [set_cpc set_cl w_cl]; now rewrite upd_out].
        pose proof (CL_cpc (budget s) s s i (signal (c_pc (cl s i))) L eq_refl) as Z. assert (SE : forall T p, cw T (signal p) = cw T p) by (intros T p; destruct p; reflexivity). rewrite SE in Z. lia. }
      rewrite CE, W. cbn [set_pc w_pc pw]. unfold dw. cbn [kw]. lia.
    + discriminate.
  - unfold sink_pop in E. destruct (k_run (sk s k)) eqn:R; [discriminate|]. destruct (k_q (sk s k)) as [|j q] eqn:Q; [discriminate|].
    destruct (k_done (sk s k)) eqn:D; [discriminate|]. injection E as <-. eapply sk_phi; try reflexivity; eauto using sink_q_lt. unfold sw. rewrite R, Q. cbn [k_q k_run k_exit length]. lia.
  - unfold sink_end in E. destruct (k_run (sk s k)) as [j|] eqn:R; [|discriminate]. pose proof (sink_run_lt _ _ _ R) as LT.
    assert (Z : forall d g, sw (mkSink (k_q (sk s k)) None d (k_exit (sk s k)) g (k_dead (sk s k))) < sw (sk s k)) by (intros; unfold sw; rewrite R; cbn [k_q k_run k_exit]; lia).
    injection E as <-. destruct j as [m|c|]; [destruct o| |]; (eapply sk_phi; [reflexivity|reflexivity|reflexivity|reflexivity|exact P|exact LT|apply Z]).
  - unfold sink_exit in E. destruct (k_done (sk s k)) eqn:D; [|discriminate]. destruct (k_exit (sk s k)) eqn:X; [discriminate|]. injection E as <-.
    eapply sk_phi; try reflexivity; eauto using sink_exit_lt. unfold sw. rewrite X. cbn [k_q k_run k_exit negb b2n]. lia.
  - unfold go in E. assert (LL : c_pc (cl s i) <> CIdle -> i < length (w_cl s)) by apply cl_lt. pose proof (a_cl s IA i) as PC. unfold pcok in PC. destruct (c_pc (cl s i)) eqn:C; try discriminate; specialize (LL ltac:(discriminate)).
    + injection E as <-. destruct (w_active s); [|apply end_phi; [exact P|discriminate]]. eapply (cpc_phi s s i _ []); rewrite ?app_nil_r; auto; rewrite ?C, ?Nat.sub_diag; cbn [cw length]; lia.
    + injection E as <-. destruct (w_bg s); [|apply end_phi; [exact P|discriminate]]. eapply (cpc_phi s (push s (TSave m)) i _ [(TSave m)]); auto; change (SK (push s (TSave m))) with (SK s); rewrite ?C, ?Nat.sub_diag; cbn [cw length]; lia.
    + injection E as <-. destruct (w_active s); [|apply end_phi; [exact P|discriminate]]. eapply (cpc_phi s s i _ []); rewrite ?app_nil_r; auto; rewrite ?C, ?Nat.sub_diag; cbn [cw length]; lia.
    + injection E as <-. destruct (w_bg s); [|apply end_phi; [exact P|discriminate]]. eapply (cpc_phi s (push s (TFatal m)) i _ [(TFatal m)]); auto; change (SK (push s (TFatal m))) with (SK s); rewrite ?C, ?Nat.sub_diag; cbn [cw length]; lia.
    + injection E as <-. set (s1 := set_handles s (w_handles s ++ [k])). destruct (rel_phi (budget s) s1 i k CIdle _ LL (release_rel s1 i k CIdle)) as [A B]; [change (cl s1 i) with (cl s i); rewrite C; cbn [cw]; lia|].
      unfold phi. replace (budget (release s1 i k CIdle)) with (budget s) by (unfold budget; now rewrite B). exact A.
    + injection E as <-. destruct (rel_phi (budget s) s i k (CRm2 k) _ LL (release_rel s i k (CRm2 k))) as [A B]; [rewrite C; cbn [cw]; lia|].
      unfold phi. replace (budget (release s i k (CRm2 k))) with (budget s) by (unfold budget; now rewrite B). exact A.
    + injection E as <-. eapply (cpc_phi s (push s (TRemove i k)) i _ [(TRemove i k)]); auto; change (SK (push s (TRemove i k))) with (SK s); rewrite ?C, ?Nat.sub_diag; cbn [cw length]; lia.
    + injection E as <-. eapply (cpc_phi s s i _ []); rewrite ?app_nil_r; auto; rewrite ?C, ?Nat.sub_diag; cbn [cw length]; lia.
    + injection E as <-. eapply (cpc_phi s s i _ []); rewrite ?app_nil_r; auto; rewrite ?C, ?Nat.sub_diag; cbn [cw length]; lia.
    + injection E as <-. destruct (ps_frame s k (JCall c)) as (A1 & A2 & A3 & A4 & A5 & A6 & A7 & A8 & A9 & A10 & _). pose proof (SK_push s k (JCall c)) as Z.
      eapply (cpc_phi s (push_sink s k (JCall c)) i _ []); rewrite ?app_nil_r; auto using len_push_sink. rewrite C. cbn [cw length]. lia.
    + injection E as <-. destruct (rel_phi (budget s) s i k CIdle _ LL (release_rel s i k CIdle)) as [A B]; [rewrite C; cbn [cw]; lia|].
      unfold phi. replace (budget (release s i k CIdle)) with (budget s) by (unfold budget; now rewrite B). exact A.
    + destruct (k_exit (sk s k)) eqn:X; [|discriminate]. injection E as <-. destruct (ds_frame s k) as (A1 & A2 & A3 & A4 & A5 & A6 & A7 & A8 & A9 & A10 & _).
      eapply (cpc_phi s (destroy s k) i _ []); rewrite ?app_nil_r; auto using len_destroy; rewrite SK_destroy, ?C, ?Nat.sub_diag; cbn [cw length]; lia.
    + injection E as <-. eapply (cpc_phi s (push s (TClear i)) i _ [(TClear i)]); auto; change (SK (push s (TClear i))) with (SK s); rewrite ?C, ?Nat.sub_diag; cbn [cw length]; lia.
    + injection E as <-. eapply (cpc_phi s (set_bg (push s TDone) false) i _ [TDone]); auto; change (SK (set_bg (push s TDone) false)) with (SK s); rewrite ?C, ?Nat.sub_diag; cbn [cw length]; lia.
    + destruct (w_pc s) eqn:W; try discriminate. injection E as <-. eapply (cpc_phi s s i _ []); rewrite ?app_nil_r; auto; rewrite ?C, ?Nat.sub_diag; cbn [cw length]; lia.
Qed.

(** ** quiescence *)
Lemma stuck_sink : forall s k, w_proc s = PRun -> invA s -> stuck s -> k < length (w_sk s) -> k_run (sk s k) = None /\ k_q (sk s k) = [] /\ (has_done (all (sk s k)) = true -> k_exit (sk s k) = true).
Proof.
  intros s k P IA ST L. destruct (k_of s k IA L) as [a b c d e f].
  pose proof (ST (ASinkEnd k (Val 0)) eq_refl) as E1. pose proof (ST (ASinkPop k) eq_refl) as E2. pose proof (ST (ASinkExit k) eq_refl) as E3.
  unfold wstep in E1, E2, E3. rewrite P in E1, E2, E3. unfold sink_end in E1. unfold sink_pop in E2. unfold sink_exit in E3.
  destruct (k_run (sk s k)) as [j|] eqn:R; [discriminate|]. split; [reflexivity|].
  assert (Q : k_q (sk s k) = []).
  { destruct (k_q (sk s k)) as [|j q] eqn:Q; [reflexivity|]. destruct (k_done (sk s k)) eqn:D; [|discriminate]. exfalso.
    unfold all in b. rewrite R, Q in b. cbn [app] in b. rewrite has_done_app, <- d in b. destruct (b eq_refl) as (l & E & N).
    destruct (exists_last (l := j :: q) ltac:(discriminate)) as (q' & x & E'). rewrite E', app_assoc in E. apply app_inj_tail in E as [E _].
    rewrite <- E, has_done_app, <- d in N. discriminate. }
  split; [exact Q|]. intro H. unfold all in H. rewrite R, Q in H. cbn [app] in H. rewrite app_nil_r, <- d in H. rewrite H in E3. destruct (k_exit (sk s k)); [reflexivity|discriminate].
Qed.
Lemma join_exit : forall s k, w_proc s = PRun -> invA s -> stuck s -> jn s k <> 0 -> k_exit (sk s k) = true.
Proof.
  intros s k P IA ST J. pose proof (life_ltJ _ _ _ _ (a_life s IA) J) as L. destruct (stuck_sink s k P IA ST L) as (_ & _ & H). apply H. destruct (k_of s k IA L) as [a b c d e f].
  destruct (has_done (all (sk s k))); [reflexivity|]. cbn [b2n] in c. lia.
Qed.
Lemma stuck_worker : forall s, w_proc s = PRun -> inv s -> stuck s -> w_q s = [] /\ (w_pc s = WLoop \/ w_pc s = WExit).
Proof.
  intros s P [IA IB IP IT ID] ST. pose proof (ST AWork eq_refl) as E. unfold wstep in E. rewrite P in E. unfold work in E.
  destruct (w_pc s) as [|m todo drop q|l q|k l q|i f|] eqn:W.
  - destruct (w_q s); [auto|discriminate].
  - destruct todo; discriminate.
  - destruct l as [|k l]; [destruct q; discriminate|discriminate].
  - assert (J : jn s k <> 0) by (unfold jn; rewrite W; cbn [wjoin]; rewrite Nat.eqb_refl; cbn [b2n]; lia). rewrite (join_exit s k P IA ST J) in E. discriminate.
  - discriminate.
  - split; [|auto]. destruct IP as [[C _]|(pre & t & O & Q & B)]; [congruence|]. rewrite W in B. assert (TD : t = TDone).
    { destruct t; auto; exfalso; cbn [busy] in B; destruct B as [B|B]; repeat (match goal with H : _ \/ _ |- _ => destruct H | H : exists _, _ |- _ => destruct H | H : _ /\ _ |- _ => destruct H end); try discriminate. }
    assert (ND : In TDone (entered s)) by (unfold entered; rewrite O, TD; apply in_or_app; left; apply in_or_app; right; now left).
    destruct (w_bg s) eqn:BGV; [destruct (d_bg1 s ID BGV) as [N _]; contradiction|]. destruct (d_bg0 s ID BGV) as [(l & E1 & N) _].
    destruct (w_q s) as [|x r] eqn:QQ; [reflexivity|]. exfalso. apply N. unfold entered in E1. rewrite QQ in E1. destruct (exists_last (l := x :: r) ltac:(discriminate)) as (r' & y & E2). rewrite E2, app_assoc in E1. apply app_inj_tail in E1 as [E1 _].
    rewrite <- E1, O, TD. apply in_or_app. left. apply in_or_app. right. now left.
Qed.
Lemma stuck_client : forall s i, w_proc s = PRun -> inv s -> stuck s -> c_pc (cl s i) = CIdle \/ exists h, c_pc (cl s i) = DDone h.
Proof.
  intros s i P I ST. destruct (stuck_worker s P I ST) as [Q W]. destruct I as [IA IB IP IT ID].
  assert (NW : waiting (c_pc (cl s i)) = false).
  { pose proof (t_cnt s IT i) as N. rewrite Q in N. assert (WT : wtok i (w_pc s) = false) by (destruct W as [-> | ->]; reflexivity). rewrite WT in N. cbn in N. destruct (waiting (c_pc (cl s i))); [cbn in N; lia|reflexivity]. }
  pose proof (ST (AGo i) eq_refl) as E. unfold wstep in E. rewrite P in E. unfold go in E. destruct (c_pc (cl s i)) eqn:C; try discriminate; eauto.
  - exfalso. destruct (d_fat s ID i C) as [m H]. unfold entered in H. rewrite Q, app_nil_r in H. destruct IP as [[_ QU]|(pre & t & O & QU & B)].
    + exact (QU _ H).
    + rewrite O in H. apply in_app_iff in H as [H|[H|[]]]; [exact (QU _ H)|]. rewrite H in B. cbn [busy] in B. destruct W as [W|W]; rewrite W in B; destruct B as [(a & b & B & _)|[(a & B & _)|(a & b & B & _)]]; discriminate.
  - exfalso. assert (J : jn s k <> 0).
    { unfold jn. assert (L : i < length (w_cl s)) by (apply cl_lt; rewrite C; discriminate). pose proof (count_get new_client (cjoin k) (w_cl s) i L) as Z. change (get new_client (w_cl s) i) with (cl s i) in Z. unfold cjoin at 1 in Z. rewrite C, Nat.eqb_refl in Z. specialize (Z eq_refl). lia. }
    rewrite (join_exit s k P IA ST J) in E. discriminate.
  - exfalso. destruct W as [W|W]; rewrite W in E; [|discriminate]. assert (BGV : w_bg s = false) by (destruct (w_bg s) eqn:BGV; [|reflexivity]; destruct (d_bg1 s ID BGV) as [_ N]; specialize (N i); rewrite C in N; discriminate).
    destruct (d_bg0 s ID BGV) as [(l & E1 & N) _]. destruct IP as [[_ QU]|(pre & t & O & QU & B)].
    + assert (H : In TDone (w_old s)) by (unfold entered in E1; rewrite Q, app_nil_r in E1; rewrite E1; apply in_or_app; right; now left). exact (QU _ H).
    + rewrite W in B. destruct t; cbn [busy] in B; repeat (match goal with H : _ \/ _ |- _ => destruct H | H : exists _, _ |- _ => destruct H | H : _ /\ _ |- _ => destruct H end); discriminate.
Qed.
Lemma stuck_prom : forall s c k p, w_proc s = PRun -> inv s -> invE s -> stuck s -> nth_error (w_prom s) c = Some (k, p) -> p <> Pending.
Proof.
  intros s c k p P I IE ST H E. subst p. pose proof (e_cnt s IE k c) as N. unfold owed in N. rewrite H, Nat.eqb_refl in N. cbn [b2n] in N.
  assert (Z : count (cc k c) (w_cl s) = 0).
  { destruct (Nat.eq_dec (count (cc k c) (w_cl s)) 0) as [Z|Z]; [exact Z|]. destruct (count_pos new_client (cc k c) (w_cl s) ltac:(lia)) as (i & L & G). change (get new_client (w_cl s) i) with (cl s i) in G.
    unfold cc in G. destruct (stuck_client s i P I ST) as [C|[h C]]; rewrite C in G; discriminate. }
  assert (NZ : ncall c (all (sk s k)) <> 0) by lia. apply ncall_In in NZ. assert (L : k < length (w_sk s)).
  { apply (get_in no_sink). change (get no_sink (w_sk s) k) with (sk s k). intro X. rewrite X in NZ. destruct NZ. }
  destruct (stuck_sink s k P (i_A s I) ST L) as (R & Q & _). unfold all in NZ. rewrite R, Q in NZ. cbn [app] in NZ. rewrite app_nil_r in NZ. apply (e_got s IE) in NZ as [o NZ]. congruence.
Qed.
