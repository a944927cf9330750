(** The numbers of the log calls: every client's messages enter the worker's queue in order. *)
From Coq Require Import List Arith Bool Lia Sorted.
From Verif.Base Require Import Threads.
From Verif.Model Require Import Worker.
From Verif.Spec Require Import WorkerSpec.
From Verif.Proofs Require Import WorkerLife WorkerHist WorkerBusy WorkerTok.
Import ListNotations.

Definition nums (i : nat) (l : list msg) : list nat := map snd (filter (fun m => Nat.eqb (fst m) i) l).
Lemma nums_app : forall i a b, nums i (a ++ b) = nums i a ++ nums i b.
Proof. intros. unfold nums. now rewrite filter_app, map_app. Qed.
Definition limit (c : client) : nat := match c_pc c with CLog1 m | CLog2 m | CFat1 m | CFat2 m => snd m | _ => c_n c end.
Definition pcnum (i : nat) (c : client) : Prop := match c_pc c with CLog1 m | CLog2 m | CFat1 m | CFat2 m => fst m = i /\ S (snd m) = c_n c | _ => True end.
Record invN (s : wstate) : Prop := mkN {
  n_pc : forall i, pcnum i (cl s i);
  n_lim : forall i x, In x (nums i (logged (entered s))) -> x < limit (cl s i);
  n_sort : forall i, StronglySorted lt (nums i (logged (entered s)))
}.
Definition notlog (p : cpc) : Prop := match p with CLog1 _ | CLog2 _ | CFat1 _ | CFat2 _ => False | _ => True end.
Lemma limit_notlog : forall c, notlog (c_pc c) -> limit c = c_n c.
Proof. intros c H. unfold limit. destruct (c_pc c); auto; destruct H. Qed.
Lemma pcnum_notlog : forall i c, notlog (c_pc c) -> pcnum i c.
Proof. intros i c H. unfold pcnum. destruct (c_pc c); auto; destruct H. Qed.
Lemma frame_N : forall s s', invN s -> logged (entered s') = logged (entered s) -> (forall j, pcnum j (cl s' j) /\ limit (cl s j) <= limit (cl s' j)) -> invN s'.
Proof.
  intros s s' [A B C] E H. constructor; rewrite ?E; auto.
  - intro i. apply H.
  - intros i x X. apply B in X. specialize (H i) as [_ H]. lia.
Qed.
Lemma eq_N : forall s s', invN s -> logged (entered s') = logged (entered s) -> w_cl s' = w_cl s -> invN s'.
Proof. intros s s' I E H. apply frame_N with (s := s); auto. intro j. unfold cl. rewrite H. split; [apply (n_pc s I)|auto]. Qed.
Lemma cpc_N : forall s s' i p, invN s -> logged (entered s') = logged (entered s) -> w_cl s' = w_cl s -> i < length (w_cl s) -> notlog (c_pc (cl s i)) -> notlog p -> invN (set_cpc s' i p).
Proof.
  intros s s' i p I E HC L N1 N2. assert (EC : forall j, cl s' j = cl s j) by (intro j; unfold cl; now rewrite HC).
  apply frame_N with (s := s); auto. intro j. unfold set_cpc. rewrite cl_set by now rewrite HC. rewrite !EC. destruct (Nat.eqb_spec j i) as [->|NE].
  - split; [now apply pcnum_notlog|]. rewrite !limit_notlog by auto. auto.
  - split; [apply (n_pc s I)|auto].
Qed.
Lemma logged_app : forall a b, logged (a ++ b) = logged a ++ logged b.
Proof. intros. apply flat_map_app. Qed.
Lemma logged_push : forall s s' t, w_old s' = w_old s -> w_q s' = w_q s ++ [t] -> logged (entered s') = logged (entered s) ++ logged [t].
Proof. intros s s' t A B. unfold entered. now rewrite A, B, app_assoc, logged_app. Qed.
Lemma logged_push0 : forall s s' t, w_old s' = w_old s -> w_q s' = w_q s ++ [t] -> logged [t] = [] -> logged (entered s') = logged (entered s).
Proof. intros s s' t A B C. rewrite (logged_push s s' t), C, app_nil_r; auto. Qed.
Lemma logged_pop : forall s s' t q, w_q s = t :: q -> w_old s' = w_old s ++ [t] -> w_q s' = q -> logged (entered s') = logged (entered s).
Proof. intros s s' t q A B C. unfold entered. now rewrite A, B, C, <- app_assoc. Qed.
Lemma logged_same : forall s s', w_old s' = w_old s -> w_q s' = w_q s -> logged (entered s') = logged (entered s).
Proof. intros s s' A B. unfold entered. now rewrite A, B. Qed.
Lemma rel_cl : forall s i k next s' j, rel s i k next s' -> i < length (w_cl s) -> c_n (cl s' j) = c_n (cl s j).
Proof.
  intros s i k next s' j E L. destruct E as [E|E]; set (s1 := set_hold s i (remove1 k (c_hold (cl s i)))) in *.
  - assert (L1 : i < length (w_cl s1)) by (unfold s1, set_hold; cbn [set_cl w_cl]; now rewrite upd_length).
    unfold set_cpc. rewrite cl_set by exact L1. destruct (Nat.eqb_spec j i) as [EQ|NE]; [rewrite EQ|]; cbn [c_n]; unfold s1, set_hold; rewrite cl_set by exact L; [now rewrite Nat.eqb_refl|]. now apply Nat.eqb_neq in NE as ->.
  - assert (L1 : i < length (w_cl s1)) by (unfold s1, set_hold; cbn [set_cl w_cl]; now rewrite upd_length).
    destruct (ps_frame s1 k JDone) as (_ & _ & _ & _ & _ & _ & A & _). assert (L2 : i < length (w_cl (push_sink s1 k JDone))) by now rewrite A.
    assert (CC : forall u, cl (push_sink s1 k JDone) u = cl s1 u) by (intro u; unfold cl; now rewrite A).
    unfold set_cpc. rewrite cl_set by exact L2. rewrite !CC. destruct (Nat.eqb_spec j i) as [EQ|NE]; [rewrite EQ|]; cbn [c_n]; unfold s1, set_hold; rewrite cl_set by exact L; [now rewrite Nat.eqb_refl|]. now apply Nat.eqb_neq in NE as ->.
Qed.
Lemma rel_N : forall s i k next s', invN s -> i < length (w_cl s) -> notlog (c_pc (cl s i)) -> notlog next -> rel s i k next s' -> invN s'.
Proof.
  intros s i k next s' I L N1 N2 E. destruct (rel_frame _ _ _ _ _ E) as (A1 & A2 & _). destruct (rel_pc _ _ _ _ _ E L) as [P1 P2].
  apply frame_N with (s := s); auto; [now apply logged_same|]. intro j. pose proof (rel_cl _ _ _ _ _ j E L) as CN. destruct (Nat.eq_dec j i) as [->|NE].
  - assert (NL : notlog (c_pc (cl s' i))) by (destruct P2 as [-> | ->]; [exact N2|exact Logic.I]). split; [now apply pcnum_notlog|]. rewrite !limit_notlog by auto. lia.
  - specialize (P1 j NE). split.
    + pose proof (n_pc s I j) as Q. unfold pcnum in *. rewrite P1, CN. exact Q.
    + unfold limit. rewrite P1, CN. auto.
Qed.
(** the message enters the queue *)
Lemma send_N : forall s s' i m p t, invN s -> logged [t] = [m] -> w_old s' = w_old s -> w_q s' = w_q s ++ [t] -> w_cl s' = w_cl s -> i < length (w_cl s) -> pcnum i (cl s i) -> limit (cl s i) = snd m -> fst m = i -> S (snd m) = c_n (cl s i) -> notlog p ->
  invN (set_cpc s' i p).
Proof.
  intros s s' i m p t [A B C] T EO EQ EC L PN LM FM SM NP. assert (E : logged (entered (set_cpc s' i p)) = logged (entered s) ++ [m]) by (rewrite <- T; now apply logged_push).
  assert (CC : forall j, cl (set_cpc s' i p) j = if Nat.eqb j i then mkClient p (c_hold (cl s i)) (c_n (cl s i)) else cl s j).
  { intro j. unfold set_cpc. rewrite cl_set by now rewrite EC. unfold cl. now rewrite !EC. }
  assert (NI : forall j, nums j (logged (entered s) ++ [m]) = nums j (logged (entered s)) ++ if Nat.eqb i j then [snd m] else []).
  { intro j. rewrite nums_app. f_equal. unfold nums. cbn [filter]. rewrite FM. now destruct (Nat.eqb i j). }
  constructor.
  - intro j. rewrite CC. destruct (Nat.eqb_spec j i); auto. now apply pcnum_notlog.
  - intros j x. rewrite E, CC, NI, in_app_iff. destruct (Nat.eqb_spec j i) as [->|NE].
    + rewrite Nat.eqb_refl, limit_notlog by exact NP. cbn [c_n]. intros [X|[X|[]]]; [apply B in X|]; lia.
    + apply not_eq_sym in NE. apply Nat.eqb_neq in NE. rewrite NE. intros [X|[]]. auto.
  - intro j. rewrite E, NI. destruct (Nat.eqb_spec i j) as [EJ|NE]; [|rewrite app_nil_r; auto]. rewrite <- EJ. specialize (B i). specialize (C i). rewrite LM in B. clear E NI CC.
    induction C as [|y l S IH F]; cbn; [repeat constructor|]. constructor.
    + apply IH. intros x X. apply B. now right.
    + apply Forall_app. split; auto. constructor; auto. apply B. now left.
Qed.
Lemma log_N : forall s i p, invN s -> idle s i = true -> (p = CIdle \/ p = CLog1 (i, c_n (cl s i)) \/ p = CFat1 (i, c_n (cl s i))) -> invN (count_log s i p).
Proof.
  intros s i p I ID H. destruct (idle_spec _ _ ID) as [L P]. apply frame_N with (s := s); auto. intro j. unfold count_log. rewrite cl_set by exact L. destruct (Nat.eqb_spec j i) as [->|NE].
  - rewrite (limit_notlog (cl s i)) by now rewrite P. destruct H as [->|[-> | ->]]; unfold pcnum, limit; cbn [c_pc fst snd c_n]; split; auto.
  - split; [apply (n_pc s I)|auto].
Qed.

Lemma move_N : forall s s', move s s' -> invA s -> invT s -> invN s -> invN s'.
Proof.
  intros s s' M IA IT I. destruct M as
    [m q W Q|m q W Q|i k q W Q|i k q W Q R|i k q W Q R|i q W Q|q W Q
    |m k todo drop q W|m drop q W|k l q W R|k l q W R|k l q W X|W|i W|W|i f W
    |k j q R Q DN|k m R|k m R|k c o R|k R|k DN X
    |i m P AC|i m P AC|i m P BG|i m P BG|i m P AC|i m P AC|i m P BG|i m P BG
    |i k s' P H|i k s' P H|i k P|i k h P|i P|i k c P|i k s' P H|i k next P X|i h P|i h P|i h P W
    |i ID AC|i ID AC|i ID AC|i ID AC|i ID DT|i k ID DT H R|i k ID DT H R|i ID DT|i k ID H R|i k ID H R|i k ID H R|i k s' ID H RL|i ID DT| |AC DT].
  1-7: eapply eq_N; [exact I|eapply logged_pop; [exact Q|reflexivity..]|reflexivity].
  - destruct (ps_frame s k (JMsg m)) as (A1 & A2 & A3 & A4 & A5 & A6 & A7 & A8 & A9 & _). eapply eq_N; [exact I|now apply logged_same|exact A7].
  - eapply eq_N; eauto.
  - eapply eq_N; eauto.
  - destruct (ps_frame (set_pc s (WDrop l q)) k JDone) as (A1 & A2 & A3 & A4 & A5 & A6 & A7 & A8 & A9 & _). eapply eq_N; [exact I|now apply logged_same|exact A7].
  - destruct (ds_frame s k) as (A1 & A2 & A3 & A4 & A5 & A6 & A7 & A8 & A9 & _). eapply eq_N; [exact I|now apply logged_same|exact A7].
  - eapply eq_N; eauto.
  - eapply eq_N; eauto.
  - eapply eq_N; eauto.
  - assert (WT : wtok i (w_pc s) = true) by (rewrite W; cbn; apply Nat.eqb_refl).
    assert (WA : waiting (c_pc (cl s i)) = true) by (pose proof (t_cnt s IT i) as N; rewrite WT in N; destruct (waiting (c_pc (cl s i))); cbn [b2n] in N; auto; lia).
    pose proof (waiting_lt _ _ WA) as LI.
    change (set_pc (set_cpc s i (signal (c_pc (cl s i)))) (WDrop f KLoop)) with (set_cpc (set_pc s (WDrop f KLoop)) i (signal (c_pc (cl s i)))).
    apply cpc_N with (s := s); auto; destruct (c_pc (cl s i)); try discriminate; exact Logic.I.
  - eapply eq_N; eauto.
  - eapply eq_N; eauto.
  - eapply eq_N; eauto.
  - eapply eq_N; eauto.
  - eapply eq_N; eauto.
  - eapply eq_N; eauto.
  - pose proof (cl_lt s i ltac:(rewrite P; discriminate)) as L. pose proof (n_pc s I i) as PN. apply frame_N with (s := s); auto. intro j. unfold set_cpc. rewrite cl_set by exact L. destruct (Nat.eqb_spec j i) as [->|NE].
    + unfold pcnum, limit in *. rewrite P in *. cbn [c_pc c_n]. auto.
    + split; [apply (n_pc s I)|auto].
  - eapply eq_N; eauto.
  - pose proof (cl_lt s i ltac:(rewrite P; discriminate)) as L. pose proof (n_pc s I i) as PN. pose proof PN as PN'. unfold pcnum in PN'. rewrite P in PN'. destruct PN' as [P1 P2].
    eapply send_N with (m := m) (t := TSave m) (s := s); eauto; [unfold limit; now rewrite P|exact Logic.I].
  - eapply eq_N; eauto.
  - pose proof (cl_lt s i ltac:(rewrite P; discriminate)) as L. pose proof (n_pc s I i) as PN. apply frame_N with (s := s); auto. intro j. unfold set_cpc. rewrite cl_set by exact L. destruct (Nat.eqb_spec j i) as [->|NE].
    + unfold pcnum, limit in *. rewrite P in *. cbn [c_pc c_n]. auto.
    + split; [apply (n_pc s I)|auto].
  - eapply eq_N; eauto.
  - pose proof (cl_lt s i ltac:(rewrite P; discriminate)) as L. pose proof (n_pc s I i) as PN. pose proof PN as PN'. unfold pcnum in PN'. rewrite P in PN'. destruct PN' as [P1 P2].
    eapply send_N with (m := m) (t := TFatal m) (s := s); eauto; [unfold limit; now rewrite P|exact Logic.I].
  - eapply eq_N; eauto.
  - pose proof (cl_lt s i ltac:(rewrite P; discriminate)) as L. apply (rel_N (set_handles s (w_handles s ++ [k])) i k CIdle); auto; [eapply eq_N; eauto|change (cl (set_handles s (w_handles s ++ [k])) i) with (cl s i); now rewrite P|exact Logic.I].
  - pose proof (cl_lt s i ltac:(rewrite P; discriminate)) as L. apply (rel_N s i k (CRm2 k)); auto; [now rewrite P|exact Logic.I].
  - pose proof (cl_lt s i ltac:(rewrite P; discriminate)) as L. apply cpc_N with (s := s); auto; [now apply logged_push0 with (t := TRemove i k)|now rewrite P|exact Logic.I].
  - pose proof (cl_lt s i ltac:(rewrite P; discriminate)) as L. apply cpc_N with (s := s); auto; [now rewrite P|exact Logic.I].
  - pose proof (cl_lt s i ltac:(rewrite P; discriminate)) as L. apply cpc_N with (s := s); auto; [now rewrite P|exact Logic.I].
  - pose proof (cl_lt s i ltac:(rewrite P; discriminate)) as L. destruct (ps_frame s k (JCall c)) as (A1 & A2 & A3 & A4 & A5 & A6 & A7 & A8 & A9 & _). apply cpc_N with (s := s); auto; [now apply logged_same|now rewrite P|exact Logic.I].
  - pose proof (cl_lt s i ltac:(rewrite P; discriminate)) as L. apply (rel_N s i k CIdle); auto; [now rewrite P|exact Logic.I].
  - pose proof (cl_lt s i ltac:(rewrite P; discriminate)) as L. destruct (ds_frame s k) as (A1 & A2 & A3 & A4 & A5 & A6 & A7 & A8 & A9 & _).
    pose proof (a_cl s IA i) as PC. unfold pcok in PC. rewrite P in PC. apply cpc_N with (s := s); auto; [now apply logged_same|now rewrite P|]. destruct PC as [-> | ->]; exact Logic.I.
  - pose proof (cl_lt s i ltac:(rewrite P; discriminate)) as L. apply cpc_N with (s := s); auto; [now apply logged_push0 with (t := TClear i)|now rewrite P|exact Logic.I].
  - pose proof (cl_lt s i ltac:(rewrite P; discriminate)) as L. apply cpc_N with (s := s); auto; [now apply logged_push0 with (t := TDone)|now rewrite P|exact Logic.I].
  - pose proof (cl_lt s i ltac:(rewrite P; discriminate)) as L. apply cpc_N with (s := s); auto; [now rewrite P|exact Logic.I].
  - apply log_N; auto.
  - apply log_N; auto.
  - apply log_N; auto.
  - eapply eq_N with (s := count_log s i CIdle); [apply log_N; auto|reflexivity..].
  - destruct (idle_spec _ _ ID) as [L P]. set (k := length (w_sk s)). set (s0 := acquire (set_sk s (w_sk s ++ [new_sink])) i k).
    assert (L0 : i < length (w_cl s0)) by (cbn [s0 acquire set_hold set_cl w_cl set_sk]; now rewrite upd_length).
    assert (C0 : forall j, c_pc (cl s0 j) = c_pc (cl s j) /\ c_n (cl s0 j) = c_n (cl s j)) by (intro j; unfold s0, acquire, set_hold; rewrite cl_set by exact L; destruct (Nat.eqb_spec j i) as [->|NE]; split; reflexivity).
    assert (I0 : invN s0). { apply frame_N with (s := s); auto. intro j. destruct (C0 j) as [CA CB]. pose proof (n_pc s I j) as PN. unfold pcnum, limit in *. rewrite CA, CB. auto. }
    apply cpc_N with (s := s0); auto; [now apply logged_push0 with (t := TAdd i k)|destruct (C0 i) as [-> _]; now rewrite P|exact Logic.I].
  - destruct (idle_spec _ _ ID) as [L P]. apply cpc_N with (s := s); auto; [now rewrite P|exact Logic.I].
  - destruct (idle_spec _ _ ID) as [L P]. set (s0 := acquire s i k).
    assert (L0 : i < length (w_cl s0)) by (cbn [s0 acquire set_hold set_cl w_cl set_sk]; now rewrite upd_length).
    assert (C0 : forall j, c_pc (cl s0 j) = c_pc (cl s j) /\ c_n (cl s0 j) = c_n (cl s j)) by (intro j; unfold s0, acquire, set_hold; rewrite cl_set by exact L; destruct (Nat.eqb_spec j i) as [->|NE]; split; reflexivity).
    assert (I0 : invN s0). { apply frame_N with (s := s); auto. intro j. destruct (C0 j) as [CA CB]. pose proof (n_pc s I j) as PN. unfold pcnum, limit in *. rewrite CA, CB. auto. }
    apply cpc_N with (s := s0); auto; [destruct (C0 i) as [-> _]; now rewrite P|exact Logic.I].
  - destruct (idle_spec _ _ ID) as [L P]. apply cpc_N with (s := s); auto; [now apply logged_push0 with (t := TClear i)|now rewrite P|exact Logic.I].
  - eapply eq_N; eauto.
  - destruct (idle_spec _ _ ID) as [L P]. set (s0 := acquire (set_prom s (w_prom s ++ [(k, Pending)])) i k).
    assert (L0 : i < length (w_cl s0)) by (cbn [s0 acquire set_hold set_cl w_cl set_prom]; now rewrite upd_length).
    assert (C0 : forall j, c_pc (cl s0 j) = c_pc (cl s j) /\ c_n (cl s0 j) = c_n (cl s j)) by (intro j; unfold s0, acquire, set_hold; rewrite cl_set by exact L; destruct (Nat.eqb_spec j i) as [->|NE]; split; reflexivity).
    assert (I0 : invN s0). { apply frame_N with (s := s); auto. intro j. destruct (C0 j) as [CA CB]. pose proof (n_pc s I j) as PN. unfold pcnum, limit in *. rewrite CA, CB. auto. }
    apply cpc_N with (s := s0); auto; [destruct (C0 i) as [-> _]; now rewrite P|exact Logic.I].
  - destruct (idle_spec _ _ ID) as [L P].
    apply frame_N with (s := s); auto. intro j. unfold acquire, set_hold. rewrite cl_set by exact L. pose proof (n_pc s I j) as PN. destruct (Nat.eqb_spec j i) as [->|NE]; unfold pcnum, limit in *; cbn [c_pc c_n]; auto.
  - destruct (idle_spec _ _ ID) as [L P]. apply (rel_N s i k CIdle); auto; [now rewrite P|exact Logic.I].
  - destruct (idle_spec _ _ ID) as [L P]. apply cpc_N with (s := s); auto; [now rewrite P|exact Logic.I].
  - eapply eq_N; eauto.
  - eapply eq_N; eauto.
Qed.
Lemma init_N : forall n, invN (w_init n).
Proof.
  intro n. constructor.
  - intro i. rewrite cl_init. exact Logic.I.
  - intros i x [].
  - intro i. constructor.
Qed.
Theorem reach_N : forall n s, wreach n s -> invN s.
Proof.
  intros n s R. assert (H : inv s /\ invN s); [|tauto]. apply (steps_ind (fun s => inv s /\ invN s) (w_init n)); auto.
  - split; [apply (reach_inv n); constructor|apply init_N].
  - intros t t' _ M [[IA IB IP IT ID] IN]. split; [constructor; [eapply move_A|eapply move_B|eapply move_P|eapply move_T|eapply move_D]; eauto|]. eapply move_N; eauto.
Qed.
