(** Calls through sink handles and their futures. *)
From Coq Require Import List Arith Bool Lia.
From Verif.Base Require Import Threads.
From Verif.Model Require Import Worker.
From Verif.Spec Require Import WorkerSpec.
From Verif.Proofs Require Import WorkerLife WorkerHist WorkerBusy WorkerTok.
Import ListNotations.

Lemma ncall_app : forall c a b, ncall c (a ++ b) = ncall c a + ncall c b.
Proof. intros. unfold ncall. now rewrite filter_app, app_length. Qed.
Lemma ncall_cons : forall c j l, ncall c (j :: l) = b2n (isc c j) + ncall c l.
Proof. intros. unfold ncall. cbn [filter]. now destruct (isc c j). Qed.
Lemma ncall_In : forall c l, In (JCall c) l <-> ncall c l <> 0.
Proof.
  intros c l. induction l as [|j l IH]; [cbn; tauto|]. rewrite ncall_cons. cbn [In]. destruct j as [m|u|]; cbn [isc b2n].
  - rewrite <- IH. split; [intros [E|E]; [discriminate|tauto]|tauto].
  - destruct (Nat.eqb_spec u c) as [->|N]; cbn [b2n]; [split; auto|]. rewrite <- IH. split; [intros [E|E]; [congruence|tauto]|tauto].
  - rewrite <- IH. split; [intros [E|E]; [discriminate|tauto]|tauto].
Qed.
Definition cc (k c : nat) (x : client) : bool := match c_pc x with CCall u v => Nat.eqb u k && Nat.eqb v c | _ => false end.
Definition owed (s : wstate) (k c : nat) : bool := match nth_error (w_prom s) c with Some (u, Pending) | Some (u, Ready _) => Nat.eqb u k | _ => false end.
Record invE (s : wstate) : Prop := mkE {
  e_cnt : forall k c, ncall c (all (sk s k)) + count (cc k c) (w_cl s) = b2n (owed s k c);
  e_got : forall k c, (exists o, nth_error (w_prom s) c = Some (k, Ready o)) <-> In (JCall c) (k_got (sk s k))
}.
(** the sinks' jobs, as far as calls are concerned *)
Definition sames (s s' : wstate) : Prop := forall k c, ncall c (all (sk s' k)) = ncall c (all (sk s k)) /\ (In (JCall c) (k_got (sk s' k)) <-> In (JCall c) (k_got (sk s k))).
Lemma sames_eq : forall s s', w_sk s' = w_sk s -> sames s s'.
Proof. intros s s' H k c. unfold sk. rewrite H. tauto. Qed.
Lemma sames_push : forall s k j, (forall c, isc c j = false) -> sames s (push_sink s k j).
Proof.
  intros s k j H u c. unfold push_sink. destruct (k_dead (sk s k)); [tauto|]. rewrite sk_upd. destruct (Nat.eqb u k && Nat.ltb k (length (w_sk s))) eqn:E; [|tauto].
  apply andb_prop in E as [E _]. apply Nat.eqb_eq in E as ->. rewrite all_push, ncall_app, ncall_cons, H. cbn [with_kq k_got b2n ncall filter length]. split; [lia|tauto].
Qed.
Lemma sames_destroy : forall s k, sames s (destroy s k).
Proof.
  intros s k u c. unfold destroy. destruct (k_dead (sk s k)); [tauto|]. rewrite sk_upd. destruct (Nat.eqb u k && Nat.ltb k (length (w_sk s))) eqn:E; [|tauto].
  apply andb_prop in E as [E _]. apply Nat.eqb_eq in E as ->. split; reflexivity.
Qed.
Lemma sames_local : forall s k x, all x = all (sk s k) -> (forall c, In (JCall c) (k_got x) <-> In (JCall c) (k_got (sk s k))) -> sames s (set_sk s (upd (w_sk s) k x)).
Proof.
  intros s k x H H2 u c. rewrite sk_upd. destruct (Nat.eqb u k && Nat.ltb k (length (w_sk s))) eqn:E; [|tauto].
  apply andb_prop in E as [E _]. apply Nat.eqb_eq in E as ->. rewrite H. split; [reflexivity|apply H2].
Qed.
Lemma frame_E : forall s s', invE s -> sames s s' -> w_prom s' = w_prom s -> (forall k c, count (cc k c) (w_cl s') = count (cc k c) (w_cl s)) -> invE s'.
Proof.
  intros s s' [A B] H P C. constructor; intros k c; destruct (H k c) as [H1 H2].
  - unfold owed. rewrite H1, C, P. apply A.
  - rewrite P, H2. apply B.
Qed.
Definition nocall (p : cpc) : Prop := match p with CCall _ _ => False | _ => True end.
Lemma cc_nocall : forall k c x, nocall (c_pc x) -> cc k c x = false.
Proof. intros k c x H. unfold cc. destruct (c_pc x); auto; destruct H. Qed.
Lemma count_cl : forall (p : client -> bool) s i c, p c = p (cl s i) -> count p (upd (w_cl s) i c) = count p (w_cl s).
Proof.
  intros p s i c H. destruct (Nat.lt_ge_cases i (length (w_cl s))) as [L|L]; [|now rewrite upd_out].
  pose proof (count_upd new_client p (w_cl s) i c L) as E. change (get new_client (w_cl s) i) with (cl s i) in E. rewrite H in E. lia.
Qed.
Lemma cl_E : forall s s' i c, invE s -> sames s s' -> w_prom s' = w_prom s -> w_cl s' = upd (w_cl s) i c -> nocall (c_pc (cl s i)) -> nocall (c_pc c) -> invE s'.
Proof.
  intros s s' i c I H P C N1 N2. apply frame_E with (s := s); auto. intros k u. rewrite C. apply count_cl. now rewrite !cc_nocall.
Qed.
Lemma cpc_E : forall s s' i p, invE s -> sames s s' -> w_prom s' = w_prom s -> w_cl s' = w_cl s -> nocall (c_pc (cl s i)) -> nocall p -> invE (set_cpc s' i p).
Proof.
  intros s s' i p I H P C N1 N2. apply (cl_E s (set_cpc s' i p) i (mkClient p (c_hold (cl s' i)) (c_n (cl s' i)))); auto. cbn [set_cpc set_cl w_cl]. now rewrite C.
Qed.
Lemma rel_E : forall s i k next s', invE s -> i < length (w_cl s) -> (forall c, c_pc (cl s i) <> CCall k c) -> nocall (c_pc (cl s i)) -> nocall next -> rel s i k next s' -> invE s'.
Proof.
  intros s i k next s' I L _ N1 N2 E. set (s1 := set_hold s i (remove1 k (c_hold (cl s i)))).
  assert (PC1 : c_pc (cl s1 i) = c_pc (cl s i)) by (unfold s1, set_hold; rewrite cl_set, Nat.eqb_refl by exact L; reflexivity).
  assert (I1 : invE s1) by (eapply cl_E with (s := s) (i := i); [exact I|apply sames_eq; reflexivity|reflexivity|reflexivity|exact N1|exact N1]).
  destruct E as [E|E]; fold s1 in E |- *.
  - apply cpc_E with (s := s1); auto; [apply sames_eq; reflexivity|now rewrite PC1].
  - destruct (ps_frame s1 k JDone) as (_ & _ & _ & _ & _ & _ & A & A' & _). apply cpc_E with (s := s1); auto; [now apply sames_push|now rewrite PC1|exact Logic.I].
Qed.

Lemma nth_error_upd : forall A (l : list A) t x u, nth_error (upd l t x) u = if Nat.eqb u t && Nat.ltb t (length l) then Some x else nth_error l u.
Proof.
  intros A l. induction l as [|y l IH]; intros [|t] x [|u]; try reflexivity.
  - cbn. now rewrite andb_false_r.
  - cbn [upd nth_error Nat.eqb length]. rewrite IH. reflexivity.
Qed.
Lemma nth_error_get : forall A (d : A) l t x, nth_error l t = Some x -> get d l t = x.
Proof. intros A d l t x H. unfold get. now apply nth_error_nth. Qed.
Lemma nth_error_snoc : forall A (l : list A) x u, nth_error (l ++ [x]) u = if Nat.eqb u (length l) then Some x else nth_error l u.
Proof.
  intros A l. induction l as [|y l IH]; intros x [|u]; cbn [nth_error length Nat.eqb app]; auto.
  destruct u; reflexivity.
Qed.
(** who is about to send a call, or has it queued, is pending *)
Lemma running_pending : forall s k c, invE s -> k_run (sk s k) = Some (JCall c) -> nth_error (w_prom s) c = Some (k, Pending).
Proof.
  intros s k c [A B] R. pose proof (A k c) as N. unfold all in N. rewrite R, ncall_app, ncall_app, ncall_cons in N. cbn [isc] in N. rewrite Nat.eqb_refl in N. cbn [b2n] in N.
  unfold owed in N. destruct (nth_error (w_prom s) c) as [[u []]|] eqn:E; [| | |]; try (destruct (Nat.eqb_spec u k) as [->|]; cbn [b2n] in N); try (cbn [b2n] in N); try lia.
  - reflexivity.
  - exfalso. assert (G : In (JCall c) (k_got (sk s k))) by (apply B; eauto). apply ncall_In in G. lia.
Qed.

Lemma move_E : forall s s', move s s' -> invA s -> invT s -> invE s -> invE s'.
Proof.
  intros s s' M IA IT I. destruct M as
    [m q W Q|m q W Q|i k q W Q|i k q W Q R|i k q W Q R|i q W Q|q W Q
    |m k todo drop q W|m drop q W|k l q W R|k l q W R|k l q W X|W|i W|W|i f W
    |k j q R Q DN|k m R|k m R|k c o R|k R|k DN X
    |i m P AC|i m P AC|i m P BG|i m P BG|i m P AC|i m P AC|i m P BG|i m P BG
    |i k s' P H|i k s' P H|i k P|i k h P|i P|i k c P|i k s' P H|i k next P X|i h P|i h P|i h P W
    |i ID AC|i ID AC|i ID AC|i ID AC|i ID DT|i k ID DT H R|i k ID DT H R|i ID DT|i k ID H R|i k ID H R|i k ID H R|i k s' ID H RL|i ID DT| |AC DT];
  try (eapply frame_E; eauto; apply sames_eq; reflexivity).
  - destruct (ps_frame s k (JMsg m)) as (A1 & A2 & A3 & A4 & A5 & A6 & A7 & A8 & A9 & _). eapply frame_E; [exact I|now apply sames_push|exact A8|]. intros. cbn [set_pc w_cl]. now rewrite A7.
  - destruct (ps_frame (set_pc s (WDrop l q)) k JDone) as (A1 & A2 & A3 & A4 & A5 & A6 & A7 & A8 & A9 & _). eapply frame_E; [exact I|exact (sames_push (set_pc s (WDrop l q)) k JDone (fun _ => eq_refl))|exact A8|]. intros. cbn [set_pc w_cl]. now rewrite A7.
  - destruct (ds_frame s k) as (A1 & A2 & A3 & A4 & A5 & A6 & A7 & A8 & A9 & _). eapply frame_E; [exact I|exact (sames_destroy s k)|exact A8|]. intros. cbn [set_pc w_cl]. now rewrite A7.
  - assert (WT : wtok i (w_pc s) = true) by (rewrite W; cbn; apply Nat.eqb_refl).
    assert (WA : waiting (c_pc (cl s i)) = true) by (pose proof (t_cnt s IT i) as N; rewrite WT in N; destruct (waiting (c_pc (cl s i))); cbn [b2n] in N; auto; lia).
    eapply cl_E with (s := s) (i := i); [exact I|apply sames_eq; reflexivity|reflexivity|reflexivity|destruct (c_pc (cl s i)); try discriminate; exact Logic.I|destruct (c_pc (cl s i)); try discriminate; exact Logic.I].
  - eapply frame_E; eauto. apply sames_local; [|cbn [k_got]; tauto]. unfold all. cbn [k_got k_run k_q]. rewrite R, Q. reflexivity.
  - eapply frame_E; eauto. apply sames_local; [unfold all; cbn [k_got k_run k_q]; rewrite R, <- app_assoc; reflexivity|]. intro c. cbn [k_got]. rewrite in_app_iff. cbn [In]. split; [intros [Z|[Z|[]]]; [auto|discriminate]|tauto].
  - eapply frame_E; [exact I| |reflexivity|reflexivity]. apply (sames_local s k (mkSink (k_q (sk s k)) None (k_done (sk s k)) (k_exit (sk s k)) (k_got (sk s k) ++ [JMsg m]) (k_dead (sk s k)))); [unfold all; cbn [k_got k_run k_q]; rewrite R, <- app_assoc; reflexivity|]. intro c. cbn [k_got]. rewrite in_app_iff. cbn [In]. split; [intros [Z|[Z|[]]]; [auto|discriminate]|tauto].
  - (* a call finishes *)
    pose proof (running_pending s k c I R) as PD. pose proof (sink_run_lt _ _ _ R) as LT. destruct I as [A B]. assert (LC : c < length (w_prom s)) by (apply nth_error_Some; congruence).
    rewrite (nth_error_get _ (0, BadWeak) _ _ _ PD). cbn [fst].
    set (x := mkSink (k_q (sk s k)) None (k_done (sk s k)) (k_exit (sk s k)) (k_got (sk s k) ++ [JCall c]) (k_dead (sk s k))).
    assert (AL : all x = all (sk s k)) by (unfold all, x; cbn [k_got k_run k_q]; rewrite R, <- app_assoc; reflexivity).
    set (s' := set_prom (set_sk s (upd (w_sk s) k x)) (upd (w_prom s) c (k, Ready o))).
    assert (SK : forall u, sk s' u = if Nat.eqb u k then x else sk s u) by (intro u; change (sk s' u) with (sk (set_sk s (upd (w_sk s) k x)) u); rewrite sk_upd; apply Nat.ltb_lt in LT; now rewrite LT, andb_true_r).
    assert (PR : forall u, nth_error (w_prom s') u = if Nat.eqb u c then Some (k, Ready o) else nth_error (w_prom s) u) by (intro u; cbn [s' set_prom w_prom]; rewrite nth_error_upd; apply Nat.ltb_lt in LC; now rewrite LC, andb_true_r).
    constructor; intros u v.
    + assert (AL' : all (sk s' u) = all (sk s u)) by (rewrite SK; destruct (Nat.eqb_spec u k) as [EQ|]; [rewrite EQ; exact AL|reflexivity]). rewrite AL'. change (w_cl s') with (w_cl s). rewrite A. unfold owed. rewrite PR. destruct (Nat.eqb_spec v c) as [EQ|NE]; [|reflexivity]. rewrite EQ, PD. reflexivity.
    + rewrite PR, SK. destruct (Nat.eqb_spec u k) as [EQ|NE].
      * rewrite EQ. unfold x. cbn [k_got]. rewrite in_app_iff, <- B. cbn [In]. destruct (Nat.eqb_spec v c) as [EV|NV].
        -- rewrite EV. split; [intros _; right; now left|eauto].
        -- split; [tauto|]. intros [Z|[Z|[]]]; [auto|congruence].
      * rewrite <- B. destruct (Nat.eqb_spec v c) as [EV|NV]; [|tauto]. rewrite EV, PD. split; intros [o' Z]; congruence.
  - eapply frame_E; eauto. apply sames_local; [unfold all; cbn [k_got k_run k_q]; rewrite R, <- app_assoc; reflexivity|]. intro c. cbn [k_got]. rewrite in_app_iff. cbn [In]. split; [intros [Z|[Z|[]]]; [auto|discriminate]|tauto].
  - eapply frame_E; eauto. apply sames_local; [reflexivity|cbn [k_got]; tauto].
  - apply cpc_E with (s := s); auto; [apply sames_eq; reflexivity|now rewrite P|exact Logic.I].
  - apply cpc_E with (s := s); auto; [apply sames_eq; reflexivity|now rewrite P|exact Logic.I].
  - apply cpc_E with (s := s); auto; [apply sames_eq; reflexivity|now rewrite P|exact Logic.I].
  - apply cpc_E with (s := s); auto; [apply sames_eq; reflexivity|now rewrite P|exact Logic.I].
  - pose proof (cl_lt s i ltac:(rewrite P; discriminate)) as L. apply (rel_E (set_handles s (w_handles s ++ [k])) i k CIdle); auto; try (change (cl (set_handles s (w_handles s ++ [k])) i) with (cl s i); rewrite P; first [discriminate|exact Logic.I]).
    eapply frame_E; eauto; apply sames_eq; reflexivity. exact Logic.I.
  - pose proof (cl_lt s i ltac:(rewrite P; discriminate)) as L. apply (rel_E s i k (CRm2 k)); auto; try (rewrite P; first [discriminate|exact Logic.I]). exact Logic.I.
  - apply cpc_E with (s := s); auto; [apply sames_eq; reflexivity|now rewrite P|exact Logic.I].
  - apply cpc_E with (s := s); auto; [apply sames_eq; reflexivity|now rewrite P|exact Logic.I].
  - apply cpc_E with (s := s); auto; [apply sames_eq; reflexivity|now rewrite P|exact Logic.I].
  - (* the call is queued *)
    pose proof (cl_lt s i ltac:(rewrite P; discriminate)) as L. pose proof (a_cl s IA i) as PC. unfold pcok in PC. rewrite P in PC. pose proof (refs_hold _ _ _ L PC) as RF. pose proof (life_lt _ _ _ _ (a_life s IA) RF) as LT.
    destruct (invA_push_sink s k (JCall c) IA RF ltac:(discriminate)) as [_ E2]. rewrite E2. destruct I as [A B].
    set (x := with_kq (sk s k) (k_q (sk s k) ++ [JCall c])). set (s2 := set_sk s (upd (w_sk s) k x)).
    assert (SK : forall u, sk (set_cpc s2 i (CCallR k)) u = if Nat.eqb u k then x else sk s u) by (intro u; change (sk (set_cpc s2 i (CCallR k)) u) with (sk s2 u); unfold s2; rewrite sk_upd; apply Nat.ltb_lt in LT; now rewrite LT, andb_true_r).
    constructor; intros u v.
    + change (owed (set_cpc s2 i (CCallR k)) u v) with (owed s u v). rewrite <- A. cbn [set_cpc set_cl s2 set_sk w_cl]. change (cl s2 i) with (cl s i).
      pose proof (count_upd new_client (cc u v) (w_cl s) i (mkClient (CCallR k) (c_hold (cl s i)) (c_n (cl s i))) L) as Z. change (get new_client (w_cl s) i) with (cl s i) in Z. unfold cc at 2 4 in Z. rewrite P in Z. cbn [c_pc b2n] in Z.
      rewrite SK. destruct (Nat.eqb_spec u k) as [EQ|NE].
      * rewrite EQ in *. unfold x. rewrite all_push, ncall_app, ncall_cons. rewrite Nat.eqb_refl in Z. cbn [andb isc ncall filter length] in *. lia.
      * apply not_eq_sym, Nat.eqb_neq in NE. rewrite NE in Z. cbn [andb b2n] in Z. lia.
    + change (w_prom (set_cpc s2 i (CCallR k))) with (w_prom s). rewrite SK. destruct (Nat.eqb_spec u k) as [EQ|NE]; [rewrite EQ|]; apply B.
  - pose proof (cl_lt s i ltac:(rewrite P; discriminate)) as L. apply (rel_E s i k CIdle); auto; try (rewrite P; first [discriminate|exact Logic.I]). exact Logic.I.
  - destruct (ds_frame s k) as (A1 & A2 & A3 & A4 & A5 & A6 & A7 & A8 & A9 & _). pose proof (a_cl s IA i) as PC. unfold pcok in PC. rewrite P in PC.
    apply cpc_E with (s := s); auto; [apply sames_destroy|now rewrite P|destruct PC as [-> | ->]; exact Logic.I].
  - apply cpc_E with (s := s); auto; [apply sames_eq; reflexivity|now rewrite P|exact Logic.I].
  - apply cpc_E with (s := s); auto; [apply sames_eq; reflexivity|now rewrite P|exact Logic.I].
  - apply cpc_E with (s := s); auto; [apply sames_eq; reflexivity|now rewrite P|exact Logic.I].
  - destruct (idle_spec _ _ ID) as [L P]. eapply cl_E with (s := s) (i := i); [exact I|apply sames_eq; reflexivity|reflexivity|reflexivity|now rewrite P|exact Logic.I].
  - destruct (idle_spec _ _ ID) as [L P]. eapply cl_E with (s := s) (i := i); [exact I|apply sames_eq; reflexivity|reflexivity|reflexivity|now rewrite P|exact Logic.I].
  - destruct (idle_spec _ _ ID) as [L P]. eapply cl_E with (s := s) (i := i); [exact I|apply sames_eq; reflexivity|reflexivity|reflexivity|now rewrite P|exact Logic.I].
  - destruct (idle_spec _ _ ID) as [L P]. eapply cl_E with (s := s) (i := i); [exact I|apply sames_eq; reflexivity|reflexivity|reflexivity|now rewrite P|exact Logic.I].
  - destruct (idle_spec _ _ ID) as [L P]. set (k := length (w_sk s)). set (s1 := set_sk s (w_sk s ++ [new_sink])). set (s0 := acquire s1 i k).
    assert (S1 : sames s s1).
    { intros u c. unfold sk, s1. cbn [set_sk w_sk]. destruct (Nat.lt_ge_cases u (S (length (w_sk s)))) as [LU|LU].
      - rewrite get_app_last by exact LU. destruct (Nat.eqb_spec u (length (w_sk s))) as [EQ|NE]; [|tauto]. subst u. rewrite (get_out no_sink (w_sk s)) by lia. split; reflexivity.
      - rewrite !get_out; [tauto|lia|rewrite app_length; cbn [length]; lia]. }
    assert (I1 : invE s1) by (eapply frame_E; eauto).
    assert (PC0 : c_pc (cl s0 i) = CIdle) by (unfold s0, acquire, set_hold; rewrite cl_set, Nat.eqb_refl by exact L; exact P).
    assert (I0 : invE s0) by (eapply cl_E with (s := s1) (i := i); [exact I1|apply sames_eq; reflexivity|reflexivity|reflexivity|change (cl s1 i) with (cl s i); now rewrite P|change (cl s1 i) with (cl s i); cbn [c_pc]; now rewrite P]).
    apply cpc_E with (s := s0); auto; [apply sames_eq; reflexivity|now rewrite PC0|exact Logic.I].
  - destruct (idle_spec _ _ ID) as [L P]. apply cpc_E with (s := s); auto; [apply sames_eq; reflexivity|now rewrite P|exact Logic.I].
  - destruct (idle_spec _ _ ID) as [L P]. set (s0 := acquire s i k).
    assert (PC0 : c_pc (cl s0 i) = CIdle) by (unfold s0, acquire, set_hold; rewrite cl_set, Nat.eqb_refl by exact L; exact P).
    assert (I0 : invE s0) by (eapply cl_E with (s := s) (i := i); [exact I|apply sames_eq; reflexivity|reflexivity|reflexivity|now rewrite P|cbn [c_pc]; now rewrite P]).
    apply cpc_E with (s := s0); auto; [apply sames_eq; reflexivity|now rewrite PC0|exact Logic.I].
  - destruct (idle_spec _ _ ID) as [L P]. apply cpc_E with (s := s); auto; [apply sames_eq; reflexivity|now rewrite P|exact Logic.I].
  - (* a call on a sink that is gone *)
    destruct I as [A B]. constructor; intros u v; cbn [set_prom w_cl w_prom]; change (sk (set_prom s (w_prom s ++ [(k, BadWeak)])) u) with (sk s u).
    + rewrite A. unfold owed. cbn [set_prom w_prom]. rewrite nth_error_snoc. destruct (Nat.eqb_spec v (length (w_prom s))) as [->|NE]; [|reflexivity]. rewrite (proj2 (nth_error_None (w_prom s) (length (w_prom s)))) by lia. reflexivity.
    + rewrite nth_error_snoc, <- B. destruct (Nat.eqb_spec v (length (w_prom s))) as [->|NE]; [|tauto]. rewrite (proj2 (nth_error_None (w_prom s) (length (w_prom s)))) by lia. split; intros [o Z]; discriminate.
  - (* a call begins *)
    destruct (idle_spec _ _ ID) as [L P]. set (s1 := set_prom s (w_prom s ++ [(k, Pending)])). set (s0 := acquire s1 i k).
    assert (PC0 : c_pc (cl s0 i) = CIdle) by (unfold s0, acquire, set_hold; rewrite cl_set, Nat.eqb_refl by exact L; exact P).
    assert (L0 : i < length (w_cl s0)) by (cbn [s0 acquire set_hold set_cl w_cl s1 set_prom]; now rewrite upd_length).
    assert (CN : forall u v, count (cc u v) (w_cl s0) = count (cc u v) (w_cl s)) by (intros u v; cbn [s0 acquire set_hold set_cl w_cl s1 set_prom]; apply count_cl; unfold cc; cbn [c_pc]; reflexivity).
    destruct I as [A B]. constructor; intros u v.
    + pose proof (count_upd new_client (cc u v) (w_cl s0) i (mkClient (CCall k (length (w_prom s))) (c_hold (cl s0 i)) (c_n (cl s0 i))) L0) as Z. change (get new_client (w_cl s0) i) with (cl s0 i) in Z.
      rewrite (cc_nocall u v (cl s0 i)), CN in Z by now rewrite PC0. change (cc u v (mkClient (CCall k (length (w_prom s))) (c_hold (cl s0 i)) (c_n (cl s0 i)))) with (Nat.eqb k u && Nat.eqb (length (w_prom s)) v) in Z. cbn [b2n] in Z. cbn [set_cpc set_cl w_cl]. specialize (A u v).
      change (sk (set_cpc s0 i (CCall k (length (w_prom s)))) u) with (sk s u). unfold owed in *. cbn [set_cpc set_cl s0 acquire set_hold s1 set_prom w_prom]. rewrite nth_error_snoc, Nat.eqb_sym.
      destruct (Nat.eqb_spec (length (w_prom s)) v) as [EQ|NE].
      * rewrite EQ in Z |- *. rewrite (proj2 (nth_error_None (w_prom s) v)) in A by lia. rewrite andb_true_r in Z. cbn [b2n] in A. lia.
      * rewrite andb_false_r in Z. cbn [b2n] in Z. lia.
    + change (sk (set_cpc s0 i (CCall k (length (w_prom s)))) u) with (sk s u). rewrite <- B. cbn [set_cpc set_cl s0 acquire set_hold s1 set_prom w_prom]. rewrite nth_error_snoc.
      destruct (Nat.eqb_spec v (length (w_prom s))) as [->|NE]; [|tauto]. rewrite (proj2 (nth_error_None (w_prom s) (length (w_prom s)))) by lia. split; intros [o Z]; discriminate.
  - destruct (idle_spec _ _ ID) as [L P]. eapply cl_E with (s := s) (i := i); [exact I|apply sames_eq; reflexivity|reflexivity|reflexivity|now rewrite P|cbn [c_pc]; now rewrite P].
  - destruct (idle_spec _ _ ID) as [L P]. apply (rel_E s i k CIdle); auto; try (rewrite P; first [discriminate|exact Logic.I]). exact Logic.I.
  - destruct (idle_spec _ _ ID) as [L P]. apply cpc_E with (s := s); auto; [apply sames_eq; reflexivity|now rewrite P|exact Logic.I].
Qed.
Lemma init_E : forall n, invE (w_init n).
Proof.
  intro n. assert (SK : forall k, sk (w_init n) k = no_sink) by (intro k; unfold sk; apply get_out; cbn; lia). constructor; intros k c.
  - rewrite SK. cbn [w_init w_cl]. rewrite count_repeat0 by reflexivity. unfold owed. cbn [w_init w_prom]. destruct c; reflexivity.
  - rewrite SK. cbn [w_init w_prom]. destruct c; cbn; split; try tauto; intros [o Z]; discriminate.
Qed.
Theorem reach_E : forall n s, wreach n s -> invE s.
Proof.
  intros n s R. assert (H : inv s /\ invE s); [|tauto]. apply (steps_ind (fun s => inv s /\ invE s) (w_init n)); auto.
  - split; [apply (reach_inv n); constructor|apply init_E].
  - intros t t' _ M [[IA IB IP IT ID] IN]. split; [constructor; [eapply move_A|eapply move_B|eapply move_P|eapply move_T|eapply move_D]; eauto|]. eapply move_E; eauto.
Qed.
