(** Who waits for the worker, and for what. *)
From Coq Require Import List Arith Bool Lia.
From Verif.Base Require Import Threads.
From Verif.Model Require Import Worker.
From Verif.Spec Require Import WorkerSpec.
From Verif.Proofs Require Import WorkerLife WorkerHist WorkerBusy WorkerTok.
Import ListNotations.

(** the request that client i at p waits for *)
Definition matches (i : nat) (p : cpc) (t : task) : Prop :=
  match p with CAddW k => t = TAdd i k | CRmW k _ => t = TRemove i k | CAllW | DClrW _ => t = TClear i | _ => False end.
Definition addok (p : cpc) : Prop := match p with CRmW k h | CRmR k h => nadd k h <> 0 | _ => True end.
Record invG (s : wstate) : Prop := mkG {
  g_cur : forall i, wtok i (w_pc s) = true -> exists pre t, w_old s = pre ++ [t] /\ matches i (c_pc (cl s i)) t;
  g_add : forall i, addok (c_pc (cl s i))
}.
Lemma eq_G : forall s s', invG s -> w_old s' = w_old s -> (forall j, wtok j (w_pc s') = true -> wtok j (w_pc s) = true) -> (forall j, c_pc (cl s' j) = c_pc (cl s j)) -> invG s'.
Proof.
  intros s s' [A B] O W C. constructor; intro i; rewrite C; [|apply B]. intro H. rewrite O. apply A. now apply W.
Qed.
Lemma go_G : forall s s' i, invG s -> w_old s' = w_old s -> (forall j, wtok j (w_pc s') = true -> wtok j (w_pc s) = true) -> (forall j, j <> i -> c_pc (cl s' j) = c_pc (cl s j)) ->
  wtok i (w_pc s') = false -> addok (c_pc (cl s' i)) -> invG s'.
Proof.
  intros s s' i [A B] O W C WI AI. constructor; intro j.
  - intro H. destruct (Nat.eq_dec j i) as [->|N]; [congruence|]. rewrite C by exact N. rewrite O. apply A. now apply W.
  - destruct (Nat.eq_dec j i) as [->|N]; [exact AI|]. rewrite C by exact N. apply B.
Qed.
Lemma cpc_G : forall s s' i p, invG s -> invT s -> w_old s' = w_old s -> w_pc s' = w_pc s -> w_cl s' = w_cl s -> i < length (w_cl s) -> waiting (c_pc (cl s i)) = false -> addok p -> invG (set_cpc s' i p).
Proof.
  intros s s' i p I IT O W C L N A. destruct (not_waiting_wtok s i IT N) as [WT _]. apply go_G with (s := s) (i := i); auto.
  - intros j. cbn [set_cpc set_cl w_pc]. now rewrite W.
  - intros j NE. rewrite (pc_set_cpc s) by auto. apply Nat.eqb_neq in NE. now rewrite NE.
  - cbn [set_cpc set_cl w_pc]. now rewrite W.
  - rewrite (pc_set_cpc s) by auto. now rewrite Nat.eqb_refl.
Qed.
Lemma pop_G : forall s s' t q, invG s -> invT s -> w_pc s = WLoop -> w_q s = t :: q -> w_old s' = w_old s ++ [t] -> (forall j, wtok j (w_pc s') = tok j t) -> w_cl s' = w_cl s -> invG s'.
Proof.
  intros s s' t q [A B] [N T H] W Q EO EP EC. assert (CL : forall j, cl s' j = cl s j) by (intro j; unfold cl; now rewrite EC). constructor; intro i; rewrite CL; [|apply B].
  rewrite EP. intro TK. exists (w_old s), t. split; [exact EO|]. specialize (T i). specialize (N i). rewrite Q, W in N. cbn [wtok b2n] in N. pose proof (b2n_le (waiting (c_pc (cl s i)))) as LE.
  assert (LE' : ntok i (t :: q) <= 1) by lia. assert (NZ : ntok i (t :: q) <> 0) by (rewrite ntok_cons, TK; cbn [b2n]; lia). unfold tokok in T. rewrite W, Q in T. cbn [wtok] in T.
  destruct (c_pc (cl s i)) as [|m|m|m|m| |k|k|k|k|k h|k h| | |k c|k|k next|h|h|h|h|h]; cbn [waiting b2n matches] in *; try lia.
  - symmetry. apply (tok_head_In i t q); auto. cbn. apply Nat.eqb_refl.
  - destruct T as [_ (a & b & T & _)]. apply (tok_head i t q) in T; auto; [|cbn; apply Nat.eqb_refl]. symmetry. apply T.
  - symmetry. apply (tok_head_In i t q); auto. cbn. apply Nat.eqb_refl.
  - destruct T as (a & b & T & _). apply (tok_head i t q) in T; auto; [|cbn; apply Nat.eqb_refl]. symmetry. apply T.
Qed.
Lemma rel_G : forall s i k next s', invG s -> invT s -> i < length (w_cl s) -> waiting (c_pc (cl s i)) = false -> addok next -> rel s i k next s' -> invG s'.
Proof.
  intros s i k next s' I IT L N A E. destruct (rel_pc s i k next s' E L) as [C1 C2]. destruct (rel_frame s i k next s' E) as (F1 & F2 & F3 & _). destruct (not_waiting_wtok s i IT N) as [WT _].
  apply go_G with (s := s) (i := i); auto; [intro j; now rewrite F3|now rewrite F3|]. destruct C2 as [-> | ->]; [exact A|exact Logic.I].
Qed.
Lemma acq_pc : forall s i k j, c_pc (cl (acquire s i k) j) = c_pc (cl s j).
Proof.
  intros s i k j. unfold acquire, set_hold. destruct (Nat.lt_ge_cases i (length (w_cl s))) as [L|L].
  - rewrite cl_set by exact L. destruct (Nat.eqb_spec j i) as [->|]; reflexivity.
  - unfold cl. cbn [set_cl w_cl]. now rewrite upd_out.
Qed.

Lemma move_G : forall s s', move s s' -> invA s -> invT s -> invG s -> invG s'.
Proof.
  intros s s' M IA IT I. destruct M as
    [m q W Q|m q W Q|i k q W Q|i k q W Q R|i k q W Q R|i q W Q|q W Q
    |m k todo drop q W|m drop q W|k l q W R|k l q W R|k l q W X|W|i W|W|i f W
    |k j q R Q DN|k m R|k m R|k c o R|k R|k DN X
    |i m P G|i m P G|i m P G|i m P G|i m P G|i m P G|i m P G|i m P G
    |i k s' P H|i k s' P H|i k P|i k h P|i P|i k c P|i k s' P H|i k next P X|i h P|i h P|i h P W
    |i ID G|i ID G|i ID G|i ID G|i ID G|i k ID DT H R|i k ID DT H R|i ID DT|i k ID H R|i k ID H R|i k ID H R|i k s' ID H G|i ID DT| |G DT];
  try (assert (LI : i < length (w_cl s)) by (first [apply (idle_spec _ _ ID)|apply cl_lt; rewrite P; discriminate]));
  try (destruct (idle_spec _ _ ID) as [_ P]);
  try (now (eapply eq_G; eauto)).
  1-7: eapply pop_G; [exact I|exact IT|exact W|exact Q|reflexivity..].
  - destruct (ps_frame s k (JMsg m)) as (A1 & A2 & A3 & A4 & A5 & A6 & A7 & _). eapply eq_G; eauto; intro j; [cbn [set_pc w_pc wtok]; now rewrite W|unfold cl; cbn [set_pc w_cl]; now rewrite A7].
  - eapply eq_G; eauto. intro j. cbn [set_pc w_pc wtok]. now rewrite W.
  - eapply eq_G; eauto. intro j. cbn [set_pc w_pc wtok]. now rewrite W.
  - destruct (ps_frame (set_pc s (WDrop l q)) k JDone) as (A1 & A2 & A3 & A4 & A5 & A6 & A7 & _). eapply eq_G; eauto; intro j; [cbn [set_pc w_pc wtok]; now rewrite W|unfold cl; cbn [set_pc w_cl]; now rewrite A7].
  - destruct (ds_frame s k) as (A1 & A2 & A3 & A4 & A5 & A6 & A7 & _). eapply eq_G; eauto; intro j; [cbn [set_pc w_pc wtok]; now rewrite W|unfold cl; cbn [set_pc w_cl]; now rewrite A7].
  - eapply eq_G; eauto. intro j. cbn [set_pc w_pc wtok]. now rewrite W.
  - assert (WT : wtok i (w_pc s) = true) by (rewrite W; cbn; apply Nat.eqb_refl).
    assert (WA : waiting (c_pc (cl s i)) = true) by (pose proof (t_cnt s IT i) as N; rewrite WT in N; destruct (waiting (c_pc (cl s i))); cbn [b2n] in N; auto; lia).
    pose proof (waiting_lt _ _ WA) as LI. apply go_G with (s := s) (i := i); auto.
    + intros j. cbn [set_pc w_pc wtok]. discriminate.
    + intros j N. change (cl (set_pc (set_cpc s i (signal (c_pc (cl s i)))) (WDrop f KLoop)) j) with (cl (set_cpc s i (signal (c_pc (cl s i)))) j). rewrite (pc_set_cpc s) by auto. apply Nat.eqb_neq in N. now rewrite N.
    + change (cl (set_pc (set_cpc s i (signal (c_pc (cl s i)))) (WDrop f KLoop)) i) with (cl (set_cpc s i (signal (c_pc (cl s i)))) i). rewrite (pc_set_cpc s), Nat.eqb_refl by auto. pose proof (g_add s I i) as A. destruct (c_pc (cl s i)); try discriminate; exact A.
  - apply cpc_G with (s := s); auto; [now rewrite P|exact Logic.I].
  - apply cpc_G with (s := s); auto; [now rewrite P|exact Logic.I].
  - apply cpc_G with (s := s); auto; [now rewrite P|exact Logic.I].
  - apply cpc_G with (s := s); auto; [now rewrite P|exact Logic.I].
  - apply (rel_G (set_handles s (w_handles s ++ [k])) i k CIdle); auto; try exact Logic.I.
    + eapply eq_G; eauto.
    + constructor; intro j.
      * exact (t_cnt s IT j).
      * apply tokok_mono with (s := s) (l := []); auto; [apply (t_pc s IT)|now rewrite app_nil_r|]. cbn [set_handles w_handles]. intros u Hu. apply in_or_app. now left.
      * cbn [set_handles w_handles w_old]. intro Hj. apply in_app_iff in Hj as [Hj|[<-|[]]]; [now apply (t_h s IT)|]. pose proof (t_pc s IT i) as TP. rewrite P in TP. cbn [tokok] in TP. apply nadd_In. eauto.
    + change (cl (set_handles s (w_handles s ++ [k])) i) with (cl s i). now rewrite P.
  - apply (rel_G s i k (CRm2 k)); auto; [now rewrite P|exact Logic.I].
  - apply cpc_G with (s := s); auto; [now rewrite P|]. cbn [addok]. pose proof (t_pc s IT i) as TP. rewrite P in TP. cbn [tokok] in TP. apply (t_h s IT) in TP. unfold entered. rewrite nadd_app. lia.
  - apply cpc_G with (s := s); auto; [now rewrite P|exact Logic.I].
  - apply cpc_G with (s := s); auto; [now rewrite P|exact Logic.I].
  - destruct (ps_frame s k (JCall c)) as (A1 & A2 & A3 & A4 & A5 & A6 & A7 & _). apply cpc_G with (s := s); auto; [now rewrite P|exact Logic.I].
  - apply (rel_G s i k CIdle); auto; [now rewrite P|exact Logic.I].
  - destruct (ds_frame s k) as (A1 & A2 & A3 & A4 & A5 & A6 & A7 & _). pose proof (a_cl s IA i) as PC. unfold pcok in PC. rewrite P in PC. apply cpc_G with (s := s); auto; [now rewrite P|destruct PC as [-> | ->]; exact Logic.I].
  - apply cpc_G with (s := s); auto; [now rewrite P|exact Logic.I].
  - apply cpc_G with (s := s); auto; [now rewrite P|exact Logic.I].
  - apply cpc_G with (s := s); auto; [now rewrite P|exact Logic.I].
  - eapply go_G with (i := i); eauto; [|cbn [count_log set_cl w_pc]; apply (not_waiting_wtok s i IT); now rewrite P|].
    + intros j N. unfold count_log. rewrite cl_set by exact LI. apply Nat.eqb_neq in N. now rewrite N.
    + unfold count_log. rewrite cl_set, Nat.eqb_refl by exact LI. exact Logic.I.
  - eapply go_G with (i := i); eauto; [|cbn [count_log set_cl w_pc]; apply (not_waiting_wtok s i IT); now rewrite P|].
    + intros j N. unfold count_log. rewrite cl_set by exact LI. apply Nat.eqb_neq in N. now rewrite N.
    + unfold count_log. rewrite cl_set, Nat.eqb_refl by exact LI. exact Logic.I.
  - eapply go_G with (i := i); eauto; [|cbn [count_log set_cl w_pc]; apply (not_waiting_wtok s i IT); now rewrite P|].
    + intros j N. unfold count_log. rewrite cl_set by exact LI. apply Nat.eqb_neq in N. now rewrite N.
    + unfold count_log. rewrite cl_set, Nat.eqb_refl by exact LI. exact Logic.I.
  - eapply go_G with (i := i); eauto; [|cbn [set_proc count_log set_cl w_pc]; apply (not_waiting_wtok s i IT); now rewrite P|].
    + intros j N. change (cl (set_proc (count_log s i CIdle) PExit) j) with (cl (count_log s i CIdle) j). unfold count_log. rewrite cl_set by exact LI. apply Nat.eqb_neq in N. now rewrite N.
    + change (cl (set_proc (count_log s i CIdle) PExit) i) with (cl (count_log s i CIdle) i). unfold count_log. rewrite cl_set, Nat.eqb_refl by exact LI. exact Logic.I.
  - set (s0 := acquire (set_sk s (w_sk s ++ [new_sink])) i (length (w_sk s))).
    assert (PC0 : forall j, c_pc (cl s0 j) = c_pc (cl s j)) by (intro j; unfold s0; rewrite acq_pc; reflexivity).
    assert (L0 : i < length (w_cl s0)) by (cbn [s0 acquire set_hold set_cl w_cl set_sk]; now rewrite upd_length).
    eapply go_G with (s := s) (i := i); auto; [|cbn [set_cpc set_cl push w_pc s0 acquire set_hold set_sk]; apply (not_waiting_wtok s i IT); now rewrite P|].
    + intros j N. rewrite (pc_set_cpc s0) by auto. apply Nat.eqb_neq in N. now rewrite N.
    + rewrite (pc_set_cpc s0), Nat.eqb_refl by auto. exact Logic.I.
  - apply cpc_G with (s := s); auto; [now rewrite P|exact Logic.I].
  - set (s0 := acquire s i k).
    assert (PC0 : forall j, c_pc (cl s0 j) = c_pc (cl s j)) by (intro j; unfold s0; rewrite acq_pc; reflexivity).
    assert (L0 : i < length (w_cl s0)) by (cbn [s0 acquire set_hold set_cl w_cl]; now rewrite upd_length).
    eapply go_G with (s := s) (i := i); auto; [|cbn [set_cpc set_cl w_pc s0 acquire set_hold]; apply (not_waiting_wtok s i IT); now rewrite P|].
    + intros j N. rewrite (pc_set_cpc s0) by auto. apply Nat.eqb_neq in N. now rewrite N.
    + rewrite (pc_set_cpc s0), Nat.eqb_refl by auto. exact Logic.I.
  - apply cpc_G with (s := s); auto; [now rewrite P|exact Logic.I].
  - set (s0 := acquire (set_prom s (w_prom s ++ [(k, Pending)])) i k).
    assert (PC0 : forall j, c_pc (cl s0 j) = c_pc (cl s j)) by (intro j; unfold s0; rewrite acq_pc; reflexivity).
    assert (L0 : i < length (w_cl s0)) by (cbn [s0 acquire set_hold set_cl w_cl set_prom]; now rewrite upd_length).
    eapply go_G with (s := s) (i := i); auto; [|cbn [set_cpc set_cl w_pc s0 acquire set_hold set_prom]; apply (not_waiting_wtok s i IT); now rewrite P|].
    + intros j N. rewrite (pc_set_cpc s0) by auto. apply Nat.eqb_neq in N. now rewrite N.
    + rewrite (pc_set_cpc s0), Nat.eqb_refl by auto. exact Logic.I.
  - eapply eq_G; eauto. intro j. apply acq_pc.
  - apply (rel_G s i k CIdle); auto; [now rewrite P|exact Logic.I].
  - apply cpc_G with (s := s); auto; [now rewrite P|exact Logic.I].
Qed.
Lemma init_G : forall n, invG (w_init n).
Proof. intro n. constructor; intro i; [discriminate|]. rewrite cl_init. exact Logic.I. Qed.
Theorem reach_G : forall n s, wreach n s -> inv s /\ invG s.
Proof.
  intros n s R. apply (steps_ind (fun s => inv s /\ invG s) (w_init n)); auto.
  - split; [apply (reach_inv n); constructor|apply init_G].
  - intros t t' _ M [[IA IB IP IT ID] IN]. split; [constructor; [eapply move_A|eapply move_B|eapply move_P|eapply move_T|eapply move_D]; eauto|]. eapply move_G; eauto.
Qed.
