(** Requests and the clients that wait for them; the destructor of the worker. *)
From Coq Require Import List Arith Bool Lia.
From Verif.Base Require Import Threads.
From Verif.Model Require Import Worker.
From Verif.Spec Require Import WorkerSpec.
From Verif.Proofs Require Import WorkerLife WorkerHist WorkerBusy.
Import ListNotations.

Definition tok (i : nat) (t : task) : bool := match t with TAdd j _ | TRemove j _ | TClear j => Nat.eqb j i | _ => false end.
Definition ntok (i : nat) (l : list task) : nat := length (filter (tok i) l).
Definition wtok (i : nat) (p : wpc) : bool := match p with WTok j _ | WDrop _ (KTok j) | WJoin _ _ (KTok j) | WSend _ _ _ (KTok j) => Nat.eqb j i | _ => false end.
Definition waiting (p : cpc) : bool := match p with CAddW _ | CRmW _ _ | CAllW | DClrW _ => true | _ => false end.
Definition clr (i : nat) (h old : list task) : Prop := exists h', prefix h h' /\ prefix (h' ++ [TClear i]) old.
Definition tokok (s : wstate) (i : nat) (p : cpc) : Prop :=
  match p with
  | CAddW k => if wtok i (w_pc s) then In (TAdd i k) (w_old s) else In (TAdd i k) (w_q s)
  | CAddR k => In (TAdd i k) (w_old s)
  | CRm1 k | CRm2 k | CJoin _ (CRm2 k) => In k (w_handles s)
  | CRmW k h => In k (w_handles s) /\ if wtok i (w_pc s) then prefix (h ++ [TRemove i k]) (w_old s) else exists a b, w_q s = a ++ TRemove i k :: b /\ h = w_old s ++ a
  | CRmR k h => In k (w_handles s) /\ prefix (h ++ [TRemove i k]) (w_old s)
  | CAllW => if wtok i (w_pc s) then In (TClear i) (w_old s) else In (TClear i) (w_q s)
  | D0 h => prefix h (entered s)
  | DClrW h => if wtok i (w_pc s) then clr i h (w_old s) else exists a b, w_q s = a ++ TClear i :: b /\ prefix h (w_old s ++ a)
  | DClrR h | DJoin h | DDone h => clr i h (w_old s)
  | _ => True
  end.
Record invT (s : wstate) : Prop := mkT {
  t_cnt : forall i, ntok i (w_q s) + b2n (wtok i (w_pc s)) = b2n (waiting (c_pc (cl s i)));
  t_pc : forall i, tokok s i (c_pc (cl s i));
  t_h : forall k, In k (w_handles s) -> nadd k (w_old s) <> 0
}.

Lemma prefix_refl : forall A (a : list A), prefix a a.
Proof. intros. exists []. now rewrite app_nil_r. Qed.
Lemma prefix_app : forall A (a b c : list A), prefix a b -> prefix a (b ++ c).
Proof. intros A a b c [r ->]. exists (r ++ c). now rewrite app_assoc. Qed.
Lemma prefix_trans : forall A (a b c : list A), prefix a b -> prefix b c -> prefix a c.
Proof. intros A a b c [r ->] [r' ->]. exists (r ++ r'). now rewrite app_assoc. Qed.
Lemma clr_app : forall i h a b, clr i h a -> clr i h (a ++ b).
Proof. intros i h a b (h' & H & P). exists h'. split; auto. now apply prefix_app. Qed.
Lemma ntok_app : forall i a b, ntok i (a ++ b) = ntok i a + ntok i b.
Proof. intros. unfold ntok. now rewrite filter_app, app_length. Qed.
Lemma ntok_cons : forall i t l, ntok i (t :: l) = b2n (tok i t) + ntok i l.
Proof. intros. unfold ntok. cbn [filter]. now destruct (tok i t). Qed.
Lemma tok_head : forall i t q a t' b, tok i t = true -> tok i t' = true -> ntok i (t :: q) <= 1 -> t :: q = a ++ t' :: b -> a = [] /\ t' = t /\ b = q.
Proof.
  intros i t q a t' b H H' N E. destruct a as [|x a]; cbn in E; injection E; intros; subst; auto. exfalso. rewrite ntok_cons, ntok_app, ntok_cons, H, H' in N. cbn [b2n] in N. lia.
Qed.
Lemma tok_head_In : forall i t q t', tok i t = true -> tok i t' = true -> ntok i (t :: q) <= 1 -> In t' (t :: q) -> t' = t.
Proof.
  intros i t q t' H H' N I. apply in_split in I as (a & b & E). now destruct (tok_head _ _ _ _ _ _ H H' N E).
Qed.
Lemma b2n_le : forall b, b2n b <= 1.
Proof. intros []; cbn; lia. Qed.

(** the worker takes a task *)
Lemma pop_T : forall s s' t q, invT s -> w_pc s = WLoop -> w_q s = t :: q -> w_old s' = w_old s ++ [t] -> w_q s' = q -> (forall j, wtok j (w_pc s') = tok j t) ->
  w_cl s' = w_cl s -> w_handles s' = w_handles s -> invT s'.
Proof.
  intros s s' t q [N T H] W Q EO EQ EP EC EH. assert (CL : forall j, cl s' j = cl s j) by (intro j; unfold cl; now rewrite EC).
  constructor.
  - intro i. rewrite CL, <- N, EQ, EP, Q, W, ntok_cons. cbn [wtok b2n]. lia.
  - intro i. rewrite CL. specialize (T i). specialize (N i). rewrite Q, W in N. cbn [wtok b2n] in N. pose proof (b2n_le (waiting (c_pc (cl s i)))) as LE.
    assert (LE' : ntok i (t :: q) <= 1) by lia. unfold tokok in *. rewrite EP, EO, EQ, EH, W in *. cbn [wtok] in T. rewrite Q in T.
    destruct (c_pc (cl s i)) as [|m|m|m|m| |k|k|k|k|k h|k h| | |k c|k|k next|h|h|h|h|h]; auto.
    + destruct (tok i t) eqn:TK.
      * apply in_or_app. right. left. symmetry. apply (tok_head_In i t q); auto. cbn. apply Nat.eqb_refl.
      * destruct T as [->|T]; auto. cbn in TK. rewrite Nat.eqb_refl in TK. discriminate.
    + apply in_or_app. now left.
    + destruct T as [TH (a & b & T & ->)]. split; auto. destruct (tok i t) eqn:TK.
      * apply (tok_head i t q) in T; auto; [|cbn; apply Nat.eqb_refl]. destruct T as (-> & -> & _). rewrite app_nil_r. apply prefix_refl.
      * destruct a as [|x a]; cbn in T; injection T; intros; subst; [cbn in TK; rewrite Nat.eqb_refl in TK; discriminate|]. exists a, b. split; auto. now rewrite <- app_assoc.
    + destruct T as [TH T]. split; auto. now apply prefix_app.
    + destruct (tok i t) eqn:TK.
      * apply in_or_app. right. left. symmetry. apply (tok_head_In i t q); auto. cbn. apply Nat.eqb_refl.
      * destruct T as [->|T]; auto. cbn in TK. rewrite Nat.eqb_refl in TK. discriminate.
    + unfold entered in *. rewrite EO, EQ, <- app_assoc. rewrite Q in T. exact T.
    + destruct T as (a & b & T & P). destruct (tok i t) eqn:TK.
      * apply (tok_head i t q) in T; auto; [|cbn; apply Nat.eqb_refl]. destruct T as (-> & <- & _). rewrite app_nil_r in P. exists (w_old s). split; auto. apply prefix_refl.
      * destruct a as [|x a]; cbn in T; injection T; intros; subst; [cbn in TK; rewrite Nat.eqb_refl in TK; discriminate|]. exists a, b. split; auto. now rewrite <- app_assoc.
    + now apply clr_app.
    + now apply clr_app.
    + now apply clr_app.
  - intros k K. rewrite EO, EH in *. rewrite nadd_app. specialize (H k K). lia.
Qed.
Lemma tokok_mono : forall s s' l i p, tokok s i p -> w_old s' = w_old s -> w_q s' = w_q s ++ l -> wtok i (w_pc s') = wtok i (w_pc s) -> (forall k, In k (w_handles s) -> In k (w_handles s')) -> tokok s' i p.
Proof.
  intros s s' l i p T EO EQ EP EH. unfold tokok in *. rewrite EP, EO, EQ. destruct p as [|m|m|m|m| |k|k|k|k|k h|k h| | |k c|k|k next|h|h|h|h|h]; auto.
  - destruct (wtok i (w_pc s)); auto. apply in_or_app. now left.
  - destruct T as [T1 T]. split; auto. destruct (wtok i (w_pc s)); auto. destruct T as (a & b & T & E). exists a, (b ++ l). rewrite T, <- app_assoc. auto.
  - destruct T as [T1 T]. auto.
  - destruct (wtok i (w_pc s)); auto. apply in_or_app. now left.
  - destruct next; auto.
  - unfold entered in *. rewrite EO, EQ, app_assoc. now apply prefix_app.
  - destruct (wtok i (w_pc s)); auto. destruct T as (a & b & T & E). exists a, (b ++ l). rewrite T, <- app_assoc. auto.
Qed.
(** client i goes on, requests l enter the queue *)
Lemma go_T : forall s s' i l, invT s -> w_old s' = w_old s -> w_q s' = w_q s ++ l -> (forall j, wtok j (w_pc s') = wtok j (w_pc s)) ->
  (forall k, In k (w_handles s) -> In k (w_handles s')) -> (forall k, In k (w_handles s') -> nadd k (w_old s) <> 0) ->
  (forall j, j <> i -> c_pc (cl s' j) = c_pc (cl s j)) -> (forall j, j <> i -> ntok j l = 0) ->
  b2n (waiting (c_pc (cl s' i))) = b2n (waiting (c_pc (cl s i))) + ntok i l -> tokok s' i (c_pc (cl s' i)) -> invT s'.
Proof.
  intros s s' i l [N T H] EO EQ EP EH EH' EC EL EW OK. constructor.
  - intro j. rewrite EQ, EP, ntok_app. specialize (N j). destruct (Nat.eq_dec j i) as [->|NE]; [lia|]. rewrite EC, EL by exact NE. lia.
  - intro j. destruct (Nat.eq_dec j i) as [->|NE]; [exact OK|]. rewrite EC by exact NE. eapply tokok_mono; eauto.
  - intros k K. rewrite EO. now apply EH'.
Qed.
Lemma eq_T : forall s s', invT s -> w_old s' = w_old s -> w_q s' = w_q s -> (forall j, wtok j (w_pc s') = wtok j (w_pc s)) -> w_handles s' = w_handles s ->
  (forall j, c_pc (cl s' j) = c_pc (cl s j)) -> invT s'.
Proof.
  intros s s' [N T H] EO EQ EP EH EC. constructor.
  - intro i. now rewrite EQ, EP, EC.
  - intro i. rewrite EC. apply tokok_mono with (s := s) (l := []); auto; [now rewrite app_nil_r|intro k; now rewrite EH].
  - intro k. rewrite EH, EO. apply H.
Qed.
Lemma rel_pc : forall s i k next s', rel s i k next s' -> i < length (w_cl s) -> (forall j, j <> i -> c_pc (cl s' j) = c_pc (cl s j)) /\ (c_pc (cl s' i) = next \/ c_pc (cl s' i) = CJoin k next).
Proof.
  intros s i k next s' E L. pose proof (rel_len _ _ _ _ _ E) as LL. destruct E as [E|E]; set (s1 := set_hold s i (remove1 k (c_hold (cl s i)))) in *.
  - assert (L1 : i < length (w_cl s1)) by (unfold s1, set_hold; cbn [set_cl w_cl]; now rewrite upd_length).
    split; [intros j N|left]; unfold set_cpc; rewrite cl_set by exact L1.
    + apply Nat.eqb_neq in N. rewrite N. unfold s1, set_hold. rewrite cl_set by exact L. now rewrite N.
    + now rewrite Nat.eqb_refl.
  - assert (L1 : i < length (w_cl s1)) by (unfold s1, set_hold; cbn [set_cl w_cl]; now rewrite upd_length).
    destruct (ps_frame s1 k JDone) as (_ & _ & _ & _ & _ & _ & A & _). assert (L2 : i < length (w_cl (push_sink s1 k JDone))) by now rewrite A.
    split; [intros j N|right]; unfold set_cpc; rewrite cl_set by exact L2.
    + apply Nat.eqb_neq in N. rewrite N. unfold cl. rewrite A. change (get new_client (w_cl s1) j) with (cl s1 j). unfold s1, set_hold. rewrite cl_set by exact L. now rewrite N.
    + now rewrite Nat.eqb_refl.
Qed.
Lemma pc_set_cpc : forall s s' i p j, w_cl s' = w_cl s -> i < length (w_cl s) -> c_pc (cl (set_cpc s' i p) j) = if Nat.eqb j i then p else c_pc (cl s j).
Proof.
  intros s s' i p j E L. unfold set_cpc. rewrite cl_set by now rewrite E. destruct (Nat.eqb j i); auto. unfold cl. now rewrite E.
Qed.
Lemma rel_T : forall s i k next s', invT s -> i < length (w_cl s) -> waiting (c_pc (cl s i)) = false -> (next = CIdle \/ (next = CRm2 k /\ In k (w_handles s))) -> rel s i k next s' -> invT s'.
Proof.
  intros s i k next s' I L NW NX E. destruct (rel_frame _ _ _ _ _ E) as (A1 & A2 & A3 & A4 & A5 & A6 & A7 & A8 & A9). destruct (rel_pc _ _ _ _ _ E L) as [P1 P2].
  apply go_T with (s := s) (i := i) (l := []); auto; try (intros; rewrite ?A8, ?A3 in *; auto; fail).
  - now rewrite app_nil_r.
  - intros u U. rewrite A8 in U. apply (t_h s I u U).
  - rewrite NW. destruct P2 as [-> | ->]; destruct NX as [-> |[-> _]]; reflexivity.
  - destruct P2 as [-> | ->]; destruct NX as [-> |[-> NX]]; cbn [tokok]; auto; now rewrite A8.
Qed.
(** client i goes on without any request *)
Lemma cpc_T : forall s s' i p, invT s -> w_old s' = w_old s -> w_q s' = w_q s -> w_pc s' = w_pc s -> w_handles s' = w_handles s -> w_cl s' = w_cl s -> i < length (w_cl s) ->
  waiting (c_pc (cl s i)) = false -> waiting p = false -> tokok s i p -> invT (set_cpc s' i p).
Proof.
  intros s s' i p I A1 A2 A3 A4 A5 L W1 W2 OK. apply go_T with (s := s) (i := i) (l := []); auto.
  - cbn [set_cpc set_cl w_q]. now rewrite app_nil_r.
  - intro j. cbn [set_cpc set_cl w_pc]. now rewrite A3.
  - intros k K. cbn [set_cpc set_cl w_handles]. now rewrite A4.
  - intros k K. cbn [set_cpc set_cl w_handles] in K. rewrite A4 in K. now apply (t_h s I).
  - intros j N. rewrite (pc_set_cpc s) by auto. now apply Nat.eqb_neq in N as ->.
  - rewrite (pc_set_cpc s), Nat.eqb_refl by auto. now rewrite W1, W2.
  - rewrite (pc_set_cpc s), Nat.eqb_refl by auto. apply tokok_mono with (s := s) (l := []); auto; cbn [set_cpc set_cl w_old w_q w_pc w_handles]; [now rewrite app_nil_r|now rewrite A3|now rewrite A4].
Qed.
(** client i sends a request *)
Lemma req_T : forall s s' i p t, invT s -> w_old s' = w_old s -> w_q s' = w_q s ++ [t] -> w_pc s' = w_pc s -> w_handles s' = w_handles s -> w_cl s' = w_cl s -> i < length (w_cl s) ->
  waiting (c_pc (cl s i)) = false -> waiting p = tok i t -> (forall j, j <> i -> tok j t = false) -> tokok (set_cpc s' i p) i p -> invT (set_cpc s' i p).
Proof.
  intros s s' i p t I A1 A2 A3 A4 A5 L W1 W2 W3 OK. apply go_T with (s := s) (i := i) (l := [t]); auto.
  - intro j. cbn [set_cpc set_cl w_pc]. now rewrite A3.
  - intros k K. cbn [set_cpc set_cl w_handles]. now rewrite A4.
  - intros k K. cbn [set_cpc set_cl w_handles] in K. rewrite A4 in K. now apply (t_h s I).
  - intros j N. rewrite (pc_set_cpc s) by auto. now apply Nat.eqb_neq in N as ->.
  - intros j N. rewrite ntok_cons, W3 by exact N. reflexivity.
  - rewrite (pc_set_cpc s), Nat.eqb_refl by auto. rewrite W1, W2, ntok_cons. cbn. lia.
  - rewrite (pc_set_cpc s), Nat.eqb_refl by auto. exact OK.
Qed.
Lemma not_waiting_wtok : forall s i, invT s -> waiting (c_pc (cl s i)) = false -> wtok i (w_pc s) = false /\ ntok i (w_q s) = 0.
Proof. intros s i [N _ _] H. specialize (N i). rewrite H in N. destruct (wtok i (w_pc s)); cbn [b2n] in N; split; auto; lia. Qed.
Lemma waiting_lt : forall s i, waiting (c_pc (cl s i)) = true -> i < length (w_cl s).
Proof. intros s i H. apply cl_lt. intro E. rewrite E in H. discriminate. Qed.

Lemma move_T : forall s s', move s s' -> invA s -> invT s -> invT s'.
Proof.
  intros s s' M IA I. pose proof I as [N T TH]. destruct M as
    [m q W Q|m q W Q|i k q W Q|i k q W Q R|i k q W Q R|i q W Q|q W Q
    |m k todo drop q W|m drop q W|k l q W R|k l q W R|k l q W X|W|i W|W|i f W
    |k j q R Q DN|k m R|k m R|k c o R|k R|k DN X
    |i m P G|i m P G|i m P G|i m P G|i m P G|i m P G|i m P G|i m P G
    |i k s' P H|i k s' P H|i k P|i k h P|i P|i k c P|i k s' P H|i k next P X|i h P|i h P|i h P W
    |i ID G|i ID G|i ID G|i ID G|i ID G|i k ID DT H R|i k ID DT H R|i ID DT|i k ID H R|i k ID H R|i k ID H R|i k s' ID H G|i ID DT| |G DT].
  1-7: eapply pop_T; [exact I|exact W|exact Q|reflexivity..].
  - destruct (ps_frame s k (JMsg m)) as (A1 & A2 & A3 & A4 & A5 & A6 & A7 & A8 & A9 & _). eapply eq_T; eauto; [intro j; cbn [set_pc w_pc wtok]; now rewrite W|intro j; unfold cl; cbn [set_pc w_cl]; now rewrite A7].
  - eapply eq_T; eauto. intro j. cbn [set_pc w_pc wtok]. now rewrite W.
  - eapply eq_T; eauto. intro j. cbn [set_pc w_pc wtok]. now rewrite W.
  - destruct (ps_frame (set_pc s (WDrop l q)) k JDone) as (A1 & A2 & A3 & A4 & A5 & A6 & A7 & A8 & A9 & _). eapply eq_T; eauto; [intro j; cbn [set_pc w_pc wtok]; now rewrite W|intro j; unfold cl; cbn [set_pc w_cl]; now rewrite A7].
  - destruct (ds_frame s k) as (A1 & A2 & A3 & A4 & A5 & A6 & A7 & A8 & A9 & _). eapply eq_T; eauto; [intro j; cbn [set_pc w_pc wtok]; now rewrite W|intro j; unfold cl; cbn [set_pc w_cl]; now rewrite A7].
  - eapply eq_T; eauto. intro j. cbn [set_pc w_pc wtok]. now rewrite W.
  - eapply eq_T; eauto. intro j. cbn [set_pc w_pc wtok]. now rewrite W.
  - eapply eq_T; eauto.
  (* the token becomes ready *)
  - assert (WT : wtok i (w_pc s) = true) by (rewrite W; cbn; apply Nat.eqb_refl).
    assert (WA : waiting (c_pc (cl s i)) = true) by (specialize (N i); rewrite WT in N; destruct (waiting (c_pc (cl s i))); cbn [b2n] in N; auto; lia).
    pose proof (waiting_lt _ _ WA) as LI. set (s' := set_pc (set_cpc s i (signal (c_pc (cl s i)))) (WDrop f KLoop)).
    assert (C' : forall j, c_pc (cl s' j) = if Nat.eqb j i then signal (c_pc (cl s i)) else c_pc (cl s j)).
    { intro j. change (cl s' j) with (cl (set_cpc s i (signal (c_pc (cl s i)))) j). now rewrite (pc_set_cpc s). }
    constructor.
    + intro j. rewrite C'. specialize (N j). cbn [s' set_pc set_cpc set_cl w_q w_pc wtok b2n]. destruct (Nat.eqb_spec j i) as [->|NE].
      * rewrite WA, WT in N. cbn [b2n] in N. destruct (c_pc (cl s i)); cbn [signal waiting b2n]; try lia; discriminate.
      * rewrite W in N. cbn [wtok] in N. apply not_eq_sym in NE. apply Nat.eqb_neq in NE. rewrite NE in N. exact N.
    + intro j. rewrite C'. destruct (Nat.eqb_spec j i) as [->|NE].
      * specialize (T i). unfold tokok in *. rewrite WT in T. cbn [s' set_pc set_cpc set_cl w_old w_q w_pc w_handles]. destruct (c_pc (cl s i)); try discriminate; first [exact T|exact Logic.I].
      * apply tokok_mono with (s := s) (l := []); auto; [symmetry; apply app_nil_r|]. rewrite W. cbn. symmetry. apply Nat.eqb_neq. auto.
    + exact TH.
  (* sinks *)
  - eapply eq_T; eauto.
  - eapply eq_T; eauto.
  - eapply eq_T; eauto.
  - eapply eq_T; eauto.
  - eapply eq_T; eauto.
  - eapply eq_T; eauto.
  (* clients *)
  - pose proof (cl_lt s i ltac:(rewrite P; discriminate)) as L. apply cpc_T with (s := s); auto; [now rewrite P|exact Logic.I].
  - eapply eq_T; eauto.
  - pose proof (cl_lt s i ltac:(rewrite P; discriminate)) as L. apply req_T with (s := s) (t := TSave m); auto; [now rewrite P|exact Logic.I].
  - eapply eq_T; eauto.
  - pose proof (cl_lt s i ltac:(rewrite P; discriminate)) as L. apply cpc_T with (s := s); auto; [now rewrite P|exact Logic.I].
  - eapply eq_T; eauto.
  - pose proof (cl_lt s i ltac:(rewrite P; discriminate)) as L. apply req_T with (s := s) (t := TFatal m); auto; [now rewrite P|exact Logic.I].
  - eapply eq_T; eauto.
  - pose proof (cl_lt s i ltac:(rewrite P; discriminate)) as L. eapply rel_T with (s := set_handles s (w_handles s ++ [k])) (i := i); eauto; [|change (cl (set_handles s (w_handles s ++ [k])) i) with (cl s i); now rewrite P].
    constructor; auto.
    + intro j. apply tokok_mono with (s := s) (l := []); [exact (T j)|reflexivity|symmetry; apply app_nil_r|reflexivity|]. intros u U. apply in_or_app. now left.
    + intros u U. cbn [set_handles w_handles w_old] in *. apply in_app_or in U as [U|[U|[]]]; [now apply TH|]. subst u. apply nadd_In. exists i. specialize (T i). rewrite P in T. exact T.
  - pose proof (cl_lt s i ltac:(rewrite P; discriminate)) as L. apply (rel_T s i k (CRm2 k)); auto; [now rewrite P|]. right. split; auto. specialize (T i). now rewrite P in T.
  - pose proof (cl_lt s i ltac:(rewrite P; discriminate)) as L. destruct (not_waiting_wtok s i I) as [WT _]; [now rewrite P|].
    apply req_T with (s := s) (t := TRemove i k); auto; [now rewrite P|cbn; now rewrite Nat.eqb_refl|intros j NE; cbn; apply Nat.eqb_neq; auto|].
    cbn [tokok set_cpc set_cl push w_pc w_handles w_q w_old]. rewrite WT. split; [specialize (T i); now rewrite P in T|]. exists (w_q s), []. split; auto.
  - pose proof (cl_lt s i ltac:(rewrite P; discriminate)) as L. apply cpc_T with (s := s); auto; [now rewrite P|exact Logic.I].
  - pose proof (cl_lt s i ltac:(rewrite P; discriminate)) as L. apply cpc_T with (s := s); auto; [now rewrite P|exact Logic.I].
  - pose proof (cl_lt s i ltac:(rewrite P; discriminate)) as L. destruct (ps_frame s k (JCall c)) as (A1 & A2 & A3 & A4 & A5 & A6 & A7 & A8 & A9 & _). apply cpc_T with (s := s); auto; [now rewrite P|exact Logic.I].
  - pose proof (cl_lt s i ltac:(rewrite P; discriminate)) as L. apply (rel_T s i k CIdle); auto. now rewrite P.
  - pose proof (cl_lt s i ltac:(rewrite P; discriminate)) as L. destruct (ds_frame s k) as (A1 & A2 & A3 & A4 & A5 & A6 & A7 & A8 & A9 & _).
    assert (NX : waiting next = false /\ tokok s i next). { pose proof (a_cl s IA i) as C. unfold pcok in C. rewrite P in C. specialize (T i). rewrite P in T. destruct C as [-> | ->]; split; auto. }
    apply cpc_T with (s := s); auto; [now rewrite P|tauto|tauto].
  - pose proof (cl_lt s i ltac:(rewrite P; discriminate)) as L. destruct (not_waiting_wtok s i I) as [WT _]; [now rewrite P|].
    apply req_T with (s := s) (t := TClear i); auto; [now rewrite P|cbn; now rewrite Nat.eqb_refl|intros j NE; cbn; apply Nat.eqb_neq; auto|].
    cbn [tokok set_cpc set_cl push w_pc w_handles w_q w_old]. rewrite WT. specialize (T i). rewrite P in T. exists (w_q s), []. split; auto.
  - pose proof (cl_lt s i ltac:(rewrite P; discriminate)) as L.
    apply req_T with (s := s) (t := TDone); auto; [now rewrite P|]. specialize (T i). rewrite P in T. exact T.
  - pose proof (cl_lt s i ltac:(rewrite P; discriminate)) as L. apply cpc_T with (s := s); auto; [now rewrite P|]. specialize (T i). rewrite P in T. exact T.
  (* new requests *)
  - destruct (idle_spec _ _ ID) as [L P]. apply go_T with (s := s) (i := i) (l := []); auto; try (cbn [count_log set_cl w_q]; now rewrite app_nil_r).
    + intros j NE. unfold count_log. rewrite cl_set by exact L. now apply Nat.eqb_neq in NE as ->.
    + unfold count_log. rewrite cl_set by exact L. rewrite Nat.eqb_refl, P. reflexivity.
    + unfold count_log. rewrite cl_set by exact L. rewrite Nat.eqb_refl. exact Logic.I.
  - destruct (idle_spec _ _ ID) as [L P]. eapply eq_T; eauto. intro j. unfold count_log. rewrite cl_set by exact L. destruct (Nat.eqb_spec j i) as [->|NE]; auto.
  - destruct (idle_spec _ _ ID) as [L P]. apply go_T with (s := s) (i := i) (l := []); auto; try (cbn [count_log set_cl w_q]; now rewrite app_nil_r).
    + intros j NE. unfold count_log. rewrite cl_set by exact L. now apply Nat.eqb_neq in NE as ->.
    + unfold count_log. rewrite cl_set by exact L. rewrite Nat.eqb_refl, P. reflexivity.
    + unfold count_log. rewrite cl_set by exact L. rewrite Nat.eqb_refl. exact Logic.I.
  - destruct (idle_spec _ _ ID) as [L P]. eapply eq_T; eauto. intro j. change (cl (set_proc ?a ?b) j) with (cl a j). unfold count_log. rewrite cl_set by exact L. destruct (Nat.eqb_spec j i) as [->|NE]; auto.
  - destruct (idle_spec _ _ ID) as [L P]. destruct (not_waiting_wtok s i I) as [WT _]; [now rewrite P|]. set (k := length (w_sk s)).
    set (s0 := set_cl s i (mkClient (c_pc (cl s i)) (k :: c_hold (cl s i)) (c_n (cl s i)))).
    assert (PC0 : forall j, c_pc (cl s0 j) = c_pc (cl s j)) by (intro j; unfold s0; rewrite cl_set by exact L; destruct (Nat.eqb_spec j i) as [->|NE]; reflexivity).
    assert (I0 : invT s0) by (eapply eq_T; eauto).
    apply req_T with (s := s0) (t := TAdd i k); auto; try (intros j NE; cbn; apply Nat.eqb_neq; auto).
    + cbn [s0 set_cl w_cl]. now rewrite upd_length.
    + now rewrite PC0, P.
    + cbn. now rewrite Nat.eqb_refl.
    + cbn [tokok set_cpc set_cl push acquire set_hold set_sk w_pc w_q]. rewrite WT. apply in_or_app. right. now left.
  - destruct (idle_spec _ _ ID) as [L P]. apply cpc_T with (s := s); auto; [now rewrite P|]. cbn. now apply has_In.
  - destruct (idle_spec _ _ ID) as [L P]. set (s0 := acquire s i k).
    assert (PC0 : forall j, c_pc (cl s0 j) = c_pc (cl s j)) by (intro j; unfold s0, acquire, set_hold; rewrite cl_set by exact L; destruct (Nat.eqb_spec j i) as [->|NE]; reflexivity).
    assert (I0 : invT s0) by (eapply eq_T; eauto). apply cpc_T with (s := s0); auto.
    + cbn [s0 acquire set_hold set_cl w_cl]. now rewrite upd_length.
    + now rewrite PC0, P.
    + cbn. now apply has_In.
  - destruct (idle_spec _ _ ID) as [L P]. destruct (not_waiting_wtok s i I) as [WT _]; [now rewrite P|].
    apply req_T with (s := s) (t := TClear i); auto; [now rewrite P|cbn; now rewrite Nat.eqb_refl|intros j NE; cbn; apply Nat.eqb_neq; auto|].
    cbn [tokok set_cpc set_cl push w_pc w_q]. rewrite WT. apply in_or_app. right. now left.
  - eapply eq_T; eauto.
  - destruct (idle_spec _ _ ID) as [L P]. set (s0 := acquire (set_prom s (w_prom s ++ [(k, Pending)])) i k).
    assert (PC0 : forall j, c_pc (cl s0 j) = c_pc (cl s j)) by (intro j; unfold s0, acquire, set_hold; rewrite cl_set by exact L; destruct (Nat.eqb_spec j i) as [->|NE]; reflexivity).
    assert (I0 : invT s0) by (eapply eq_T; eauto). apply cpc_T with (s := s0); auto.
    + cbn [s0 acquire set_hold set_cl w_cl set_prom]. now rewrite upd_length.
    + now rewrite PC0, P.
    + exact Logic.I.
  - destruct (idle_spec _ _ ID) as [L P]. eapply eq_T; eauto. intro j. unfold acquire, set_hold. rewrite cl_set by exact L. destruct (Nat.eqb_spec j i) as [->|NE]; reflexivity.
  - destruct (idle_spec _ _ ID) as [L P]. apply (rel_T s i k CIdle); auto. now rewrite P.
  - destruct (idle_spec _ _ ID) as [L P]. apply cpc_T with (s := s); auto; [now rewrite P|]. apply prefix_refl.
  - eapply eq_T; eauto.
  - eapply eq_T; eauto.
Qed.
Lemma init_T : forall n, invT (w_init n).
Proof.
  intro n. constructor.
  - intro i. rewrite cl_init. reflexivity.
  - intro i. rewrite cl_init. exact Logic.I.
  - intros k [].
Qed.

(** ** the destructor *)
Definition late (p : cpc) : bool := match p with DJoin _ | DDone _ => true | _ => false end.
Definition cleared (p : cpc) : bool := match p with DClrR _ | DJoin _ | DDone _ => true | _ => false end.
Definition nodone (l : list task) : Prop := ~ In TDone l.
Record invD (s : wstate) : Prop := mkD {
  d_one : forall i j, is_dtor (c_pc (cl s i)) = true -> managing (c_pc (cl s j)) = true -> i = j;
  d_bg1 : w_bg s = true -> nodone (entered s) /\ (forall i, late (c_pc (cl s i)) = false);
  d_bg0 : w_bg s = false -> (exists l, entered s = l ++ [TDone] /\ nodone l) /\ exists i, late (c_pc (cl s i)) = true;
  d_act : forall i, is_dtor (c_pc (cl s i)) = true -> w_active s = false;
  d_clr : forall i, cleared (c_pc (cl s i)) = true \/ (exists h, c_pc (cl s i) = DClrW h /\ wtok i (w_pc s) = true) -> w_sinks s = [];
  d_done : forall i h, c_pc (cl s i) = DDone h -> w_pc s = WExit;
  d_fat : forall i, c_pc (cl s i) = CFatBlock -> exists m, In (TFatal m) (entered s)
}.
Lemma late_dtor : forall p, late p = true -> is_dtor p = true. Proof. now destruct p. Qed.
Lemma cleared_dtor : forall p, cleared p = true -> is_dtor p = true. Proof. now destruct p. Qed.
Lemma dtor_managing : forall p, is_dtor p = true -> managing p = true. Proof. now destruct p. Qed.
Lemma dtor_begun_false : forall s i, dtor_begun s = false -> is_dtor (c_pc (cl s i)) = false.
Proof.
  intros s i H. destruct (Nat.lt_ge_cases i (length (w_cl s))) as [L|L].
  - apply not_true_is_false. intro E. unfold dtor_begun in H. assert (X : existsb (fun c => is_dtor (c_pc c)) (w_cl s) = true); [|congruence].
    apply existsb_exists. exists (cl s i). split; auto. now apply nth_In.
  - unfold cl. rewrite get_out by exact L. reflexivity.
Qed.
Lemma managing_false : forall s i, existsb (fun c => managing (c_pc c)) (w_cl s) = false -> managing (c_pc (cl s i)) = false.
Proof.
  intros s i H. destruct (Nat.lt_ge_cases i (length (w_cl s))) as [L|L].
  - apply not_true_is_false. intro E. assert (X : existsb (fun c => managing (c_pc c)) (w_cl s) = true); [|congruence].
    apply existsb_exists. exists (cl s i). split; auto. now apply nth_In.
  - unfold cl. rewrite get_out by exact L. reflexivity.
Qed.
Lemma bg_open : forall s i, invD s -> managing (c_pc (cl s i)) = true -> late (c_pc (cl s i)) = false -> w_bg s = true.
Proof.
  intros s i I M L. destruct (w_bg s) eqn:B; auto. destruct (d_bg0 s I B) as [_ [j J]]. pose proof (d_one s I j i (late_dtor _ J) M). subst j. congruence.
Qed.
Lemma bg_begun : forall s, invD s -> dtor_begun s = false -> w_bg s = true.
Proof.
  intros s I M. destruct (w_bg s) eqn:B; auto. destruct (d_bg0 s I B) as [_ [j J]]. apply late_dtor in J. rewrite (dtor_begun_false s j M) in J. discriminate.
Qed.

(** a step that does not change the clients' places nor the queue *)
Lemma eq_D : forall s s', invD s -> (forall j, c_pc (cl s' j) = c_pc (cl s j)) -> w_bg s' = w_bg s -> entered s' = entered s -> (w_active s' = true -> w_active s = true) ->
  (w_sinks s = [] -> w_sinks s' = []) -> (forall j, wtok j (w_pc s') = true -> wtok j (w_pc s) = true) -> (w_pc s = WExit -> w_pc s' = WExit) -> invD s'.
Proof.
  intros s s' [A B C D E F G] HC HB HE HA HS HW HX. constructor.
  - intros i j. rewrite !HC. apply A.
  - rewrite HB, HE. intro X. destruct (B X) as [B1 B2]. split; auto. intro i. now rewrite HC.
  - rewrite HB, HE. intro X. destruct (C X) as [B1 [i B2]]. split; auto. exists i. now rewrite HC.
  - intros i. rewrite HC. intro X. apply D in X. destruct (w_active s'); auto. rewrite <- HA by reflexivity. auto.
  - intros i X. apply HS, (E i). rewrite HC in X. destruct X as [X|(h & X & Y)]; [now left|]. right. exists h. split; auto.
  - intros i h. rewrite HC. intro X. eapply HX, F, X.
  - intros i. rewrite HC, HE. apply G.
Qed.
(** a client that is not in the destructor goes on *)
Lemma go_D : forall s s' i l, invD s -> (forall j, j <> i -> c_pc (cl s' j) = c_pc (cl s j)) -> is_dtor (c_pc (cl s i)) = false -> is_dtor (c_pc (cl s' i)) = false ->
  (managing (c_pc (cl s' i)) = true -> managing (c_pc (cl s i)) = true \/ dtor_begun s = false) ->
  w_bg s' = w_bg s -> entered s' = entered s ++ l -> (l <> [] -> w_bg s = true) -> nodone l -> w_active s' = w_active s -> w_sinks s' = w_sinks s -> w_pc s' = w_pc s ->
  (c_pc (cl s' i) = CFatBlock -> exists m, In (TFatal m) (entered s')) -> invD s'.
Proof.
  intros s s' i l [A B C D E F G] HC H0 H1 HM HB HE HL HN HA HS HW HF. constructor.
  - intros a b X Y. destruct (Nat.eq_dec a i) as [->|NA]; [congruence|]. rewrite HC in X by exact NA. destruct (Nat.eq_dec b i) as [->|NB].
    + destruct (HM Y) as [M|M]; [now apply A|]. rewrite (dtor_begun_false s a M) in X. discriminate.
    + rewrite HC in Y by exact NB. now apply A.
  - rewrite HB, HE. intro X. destruct (B X) as [B1 B2]. split; [unfold nodone in *; rewrite in_app_iff; tauto|]. intro j. destruct (Nat.eq_dec j i) as [->|NJ]; [|rewrite HC; auto].
    apply not_true_is_false. intro Y. apply late_dtor in Y. congruence.
  - rewrite HB, HE. intro X. destruct (C X) as [B1 [j B2]]. destruct l as [|t l]; [rewrite app_nil_r|rewrite HL in X; discriminate]. split; auto. exists j. rewrite HC; auto. intros ->. apply late_dtor in B2. congruence.
  - intros j X. rewrite HA. destruct (Nat.eq_dec j i) as [->|NJ]; [congruence|]. rewrite HC in X by exact NJ. eauto.
  - intros j X. rewrite HS. apply (E j). destruct (Nat.eq_dec j i) as [->|NJ].
    + exfalso. destruct X as [X|(h & X & _)]; [apply cleared_dtor in X; congruence|]. rewrite X in H1. discriminate.
    + rewrite HC in X by exact NJ. now rewrite HW in X.
  - intros j h X. rewrite HW. destruct (Nat.eq_dec j i) as [->|NJ]; [rewrite X in H1; discriminate|]. rewrite HC in X by exact NJ. eauto.
  - intros j X. destruct (Nat.eq_dec j i) as [->|NJ]; [auto|]. rewrite HC in X by exact NJ. destruct (G j X) as [m M]. exists m. rewrite HE. apply in_or_app. now left.
Qed.
Lemma rel_D : forall s i k next s', invD s -> i < length (w_cl s) -> is_dtor (c_pc (cl s i)) = false -> is_dtor next = false -> next <> CFatBlock -> (managing next = true -> managing (c_pc (cl s i)) = true) ->
  rel s i k next s' -> invD s'.
Proof.
  intros s i k next s' I L H0 H1 H2 H3 E. destruct (rel_frame _ _ _ _ _ E) as (A1 & A2 & A3 & A4 & A5 & A6 & A7 & A8 & A9). destruct (rel_pc _ _ _ _ _ E L) as [P1 P2].
  apply go_D with (s := s) (i := i) (l := []); auto.
  - destruct P2 as [-> | ->]; auto.
  - intro X. left. apply H3. destruct P2 as [P2|P2]; rewrite P2 in X; exact X.
  - unfold entered. now rewrite A1, A2, app_nil_r.
  - intro X. now destruct X.
  - intro X. destruct P2 as [P2|P2]; rewrite P2 in X; congruence.
Qed.
Lemma cpc_D : forall s s' i p l, invD s -> w_cl s' = w_cl s -> i < length (w_cl s) -> is_dtor (c_pc (cl s i)) = false -> is_dtor p = false ->
  (managing p = true -> managing (c_pc (cl s i)) = true \/ dtor_begun s = false) -> w_bg s' = w_bg s -> w_old s' = w_old s -> w_q s' = w_q s ++ l -> (l <> [] -> w_bg s = true) -> nodone l ->
  w_active s' = w_active s -> w_sinks s' = w_sinks s -> w_pc s' = w_pc s -> (p = CFatBlock -> exists m, In (TFatal m) l) -> invD (set_cpc s' i p).
Proof.
  intros s s' i p l I EC L H0 H1 HM HB HO HQ HL HN HA HS HW HF. apply go_D with (s := s) (i := i) (l := l); auto; try (rewrite (pc_set_cpc s), Nat.eqb_refl by auto; auto).
  - intros j NE. rewrite (pc_set_cpc s) by auto. now apply Nat.eqb_neq in NE as ->.
  - unfold entered. cbn [set_cpc set_cl w_old w_q]. now rewrite HO, HQ, app_assoc.
  - intro X. destruct (HF X) as [m M]. exists m. unfold entered. cbn [set_cpc set_cl w_old w_q]. rewrite HQ. apply in_or_app. right. apply in_or_app. now right.
Qed.
Lemma queue_waiting : forall s t q i, invT s -> w_q s = t :: q -> tok i t = true -> waiting (c_pc (cl s i)) = true.
Proof.
  intros s t q i [N _ _] Q H. specialize (N i). rewrite Q, ntok_cons, H in N. destruct (waiting (c_pc (cl s i))); auto. cbn [b2n] in N. lia.
Qed.
(** the worker takes a task *)
Lemma pop_D : forall s s' t q, invD s -> w_pc s = WLoop -> w_q s = t :: q -> (forall j, c_pc (cl s' j) = c_pc (cl s j)) -> w_bg s' = w_bg s -> w_old s' = w_old s ++ [t] -> w_q s' = q ->
  (w_active s' = true -> w_active s = true) -> (forall j, wtok j (w_pc s') = tok j t) ->
  (w_sinks s = [] -> w_sinks s' = [] \/ exists i k, t = TAdd i k) -> (forall j h, tok j t = true -> c_pc (cl s j) = DClrW h -> w_sinks s' = []) ->
  (forall i k, t = TAdd i k -> forall j, cleared (c_pc (cl s j)) = false) -> invD s'.
Proof.
  intros s s' t q [A B C D E F G] W Q HC HB HO HQ HA HT HS HS2 HN. assert (HE : entered s' = entered s) by (unfold entered; rewrite HO, HQ, Q, <- app_assoc; reflexivity). constructor.
  - intros i j. rewrite !HC. apply A.
  - rewrite HB, HE. intro X. destruct (B X) as [B1 B2]. split; auto. intro i. now rewrite HC.
  - rewrite HB, HE. intro X. destruct (C X) as [B1 [i B2]]. split; auto. exists i. now rewrite HC.
  - intros i. rewrite HC. intro X. apply D in X. destruct (w_active s'); auto. rewrite <- HA by reflexivity. auto.
  - intros i X. rewrite HC in X. destruct X as [X|(h & X & Y)].
    + destruct (HS (E i (or_introl X))) as [Z|(a & k & Z)]; auto. rewrite (HN a k Z i) in X. discriminate.
    + rewrite HT in Y. eauto.
  - intros i h. rewrite HC. intro X. apply F in X. congruence.
  - intros i. rewrite HC, HE. apply G.
Qed.

Lemma log_D : forall s i p, invD s -> idle s i = true -> is_dtor p = false -> managing p = false -> p <> CFatBlock -> invD (count_log s i p).
Proof.
  intros s i p I ID H1 H2 H3. destruct (idle_spec _ _ ID) as [L P]. assert (C : c_pc (cl (count_log s i p) i) = p) by (unfold count_log; rewrite cl_set by exact L; now rewrite Nat.eqb_refl).
  apply go_D with (s := s) (i := i) (l := []); auto; rewrite ?C, ?P; auto.
  - intros j NE. unfold count_log. rewrite cl_set by exact L. now apply Nat.eqb_neq in NE as ->.
  - congruence.
  - symmetry. apply app_nil_r.
  - intro Z. now destruct Z.
  - congruence.
Qed.
Lemma move_D : forall s s', move s s' -> invA s -> invT s -> invD s -> invD s'.
Proof.
  intros s s' M IA IT I. pose proof I as [A B C D E F G]. destruct M as
    [m q W Q|m q W Q|i k q W Q|i k q W Q R|i k q W Q R|i q W Q|q W Q
    |m k todo drop q W|m drop q W|k l q W R|k l q W R|k l q W X|W|i W|W|i f W
    |k j q R Q DN|k m R|k m R|k c o R|k R|k DN X
    |i m P AC|i m P AC|i m P BG|i m P BG|i m P AC|i m P AC|i m P BG|i m P BG
    |i k s' P H|i k s' P H|i k P|i k h P|i P|i k c P|i k s' P H|i k next P X|i h P|i h P|i h P W
    |i ID AC|i ID AC|i ID AC|i ID AC|i ID DT|i k ID DT H R|i k ID DT H R|i ID DT|i k ID H R|i k ID H R|i k ID H R|i k s' ID H RL|i ID DT| |AC DT].
  - eapply (pop_D s _ (TSave m) q); eauto; try discriminate.
  - eapply (pop_D s _ (TFatal m) q); eauto; try discriminate.
  - assert (WI : waiting (c_pc (cl s i)) = true) by (eapply queue_waiting; eauto; cbn; apply Nat.eqb_refl).
    assert (MI : managing (c_pc (cl s i)) = true) by (destruct (c_pc (cl s i)); auto; discriminate).
    eapply (pop_D s _ (TAdd i k) q); eauto.
    + intros j h TK P. cbn in TK. apply Nat.eqb_eq in TK. subst j. pose proof (t_pc s IT i) as T. unfold tokok in T. rewrite P, W in T. cbn [wtok] in T. destruct T as (a & b & T & _).
      pose proof (t_cnt s IT i) as N. rewrite P, W in N. cbn in N. rewrite Q in T, N. pose proof (tok_head i (TAdd i k) q a (TClear i) b) as Z. cbn [tok] in Z. rewrite Nat.eqb_refl in Z.
      destruct Z as (_ & Z & _); auto; [lia|discriminate].
    + intros a b Z j. apply not_true_is_false. intro CJ. pose proof (A j i (cleared_dtor _ CJ) MI). subst j. destruct (c_pc (cl s i)); discriminate.
  - eapply (pop_D s _ (TRemove i k) q); eauto; try discriminate.
    intros j h TK P. cbn in TK. apply Nat.eqb_eq in TK. subst j. pose proof (t_pc s IT i) as T. unfold tokok in T. rewrite P, W in T. cbn [wtok] in T. destruct T as (a & b & T & _).
    pose proof (t_cnt s IT i) as N. rewrite P, W in N. cbn in N. rewrite Q in T, N. pose proof (tok_head i (TRemove i k) q a (TClear i) b) as Z. cbn [tok] in Z. rewrite Nat.eqb_refl in Z.
    destruct Z as (_ & Z & _); auto; [lia|discriminate].
  - eapply (pop_D s _ (TRemove i k) q); eauto; try discriminate.
    + cbn [set_pc set_sinks w_sinks]. intro Z. left. rewrite Z. reflexivity.
    + intros j h TK P. cbn in TK. apply Nat.eqb_eq in TK. subst j. pose proof (t_pc s IT i) as T. unfold tokok in T. rewrite P, W in T. cbn [wtok] in T. destruct T as (a & b & T & _).
      pose proof (t_cnt s IT i) as N. rewrite P, W in N. cbn in N. rewrite Q in T, N. pose proof (tok_head i (TRemove i k) q a (TClear i) b) as Z. cbn [tok] in Z. rewrite Nat.eqb_refl in Z.
      destruct Z as (_ & Z & _); auto; [lia|discriminate].
  - eapply (pop_D s _ (TClear i) q); eauto; try discriminate.
  - eapply (pop_D s _ TDone q); eauto; try discriminate.
  - destruct (ps_frame s k (JMsg m)) as (A1 & A2 & A3 & A4 & A5 & A6 & A7 & A8 & A9 & _). eapply eq_D; eauto; cbn [set_pc w_active w_sinks w_pc wtok]; try (rewrite ?A4, ?A6; auto; fail).
    + intro j. unfold cl. cbn [set_pc w_cl]. now rewrite A7.
    + unfold entered. cbn [set_pc w_old w_q]. now rewrite A1, A2.
    + rewrite W. auto.
    + rewrite W. discriminate.
  - eapply eq_D; eauto; cbn [set_pc w_pc]; rewrite W; auto; discriminate.
  - eapply eq_D; eauto; cbn [set_pc w_pc]; rewrite W; auto; discriminate.
  - destruct (ps_frame (set_pc s (WDrop l q)) k JDone) as (A1 & A2 & A3 & A4 & A5 & A6 & A7 & A8 & A9 & _). eapply eq_D; eauto; cbn [set_pc w_active w_sinks w_pc wtok]; try (rewrite ?A4, ?A6; auto; fail).
    + intro j. unfold cl. cbn [set_pc w_cl]. now rewrite A7.
    + unfold entered. cbn [set_pc w_old w_q]. now rewrite A1, A2.
    + rewrite W. auto.
    + rewrite W. discriminate.
  - destruct (ds_frame s k) as (A1 & A2 & A3 & A4 & A5 & A6 & A7 & A8 & A9 & _). eapply eq_D; eauto; cbn [set_pc w_active w_sinks w_pc wtok]; try (rewrite ?A4, ?A6; auto; fail).
    + intro j. unfold cl. cbn [set_pc w_cl]. now rewrite A7.
    + unfold entered. cbn [set_pc w_old w_q]. now rewrite A1, A2.
    + rewrite W. auto.
    + rewrite W. discriminate.
  - eapply eq_D; eauto; cbn [set_pc w_pc]; rewrite W; auto; discriminate.
  - eapply eq_D; eauto; cbn [set_pc w_pc]; rewrite W; auto; discriminate.
  - eapply eq_D; eauto.
  - (* the token *)
    assert (WT : wtok i (w_pc s) = true) by (rewrite W; cbn; apply Nat.eqb_refl).
    assert (WA : waiting (c_pc (cl s i)) = true) by (pose proof (t_cnt s IT i) as N; rewrite WT in N; destruct (waiting (c_pc (cl s i))); cbn [b2n] in N; auto; lia).
    pose proof (waiting_lt _ _ WA) as LI. set (s' := set_pc (set_cpc s i (signal (c_pc (cl s i)))) (WDrop f KLoop)).
    assert (C' : forall j, c_pc (cl s' j) = if Nat.eqb j i then signal (c_pc (cl s i)) else c_pc (cl s j)).
    { intro j. change (cl s' j) with (cl (set_cpc s i (signal (c_pc (cl s i)))) j). now rewrite (pc_set_cpc s). }
    assert (SD : forall j, is_dtor (c_pc (cl s' j)) = is_dtor (c_pc (cl s j))) by (intro j; rewrite C'; destruct (Nat.eqb_spec j i) as [->|]; auto; now destruct (c_pc (cl s i))).
    assert (SM : forall j, managing (c_pc (cl s' j)) = managing (c_pc (cl s j))) by (intro j; rewrite C'; destruct (Nat.eqb_spec j i) as [->|]; auto; now destruct (c_pc (cl s i))).
    assert (SL : forall j, late (c_pc (cl s' j)) = late (c_pc (cl s j))) by (intro j; rewrite C'; destruct (Nat.eqb_spec j i) as [->|]; auto; now destruct (c_pc (cl s i))).
    constructor.
    + intros a b. rewrite SD, SM. apply A.
    + intro X. destruct (B X) as [B1 B2]. split; auto. intro j. now rewrite SL.
    + intro X. destruct (C X) as [B1 [j B2]]. split; auto. exists j. now rewrite SL.
    + intro j. rewrite SD. apply D.
    + intros j X. change (w_sinks s') with (w_sinks s). apply (E j). rewrite C' in X. destruct (Nat.eqb_spec j i) as [EQ|NE].
      * rewrite EQ. destruct X as [X|(h & X & Y)]; [|discriminate]. destruct (c_pc (cl s i)) eqn:P; try discriminate. right. eauto.
      * destruct X as [X|(h & X & Y)]; [now left|discriminate].
    + intros j h. rewrite C'. destruct (Nat.eqb_spec j i) as [->|NE]; intro X; [destruct (c_pc (cl s i)); discriminate|]. apply F in X. congruence.
    + intros j. rewrite C'. destruct (Nat.eqb_spec j i) as [->|NE]; [|apply G]. intro X. destruct (c_pc (cl s i)); discriminate.
  - eapply eq_D; eauto.
  - eapply eq_D; eauto.
  - eapply eq_D; eauto.
  - eapply eq_D; eauto.
  - eapply eq_D; eauto.
  - eapply eq_D; eauto.
  (* clients *)
  - pose proof (cl_lt s i ltac:(rewrite P; discriminate)) as L. apply cpc_D with (s := s) (l := []); auto; try discriminate; try (now rewrite P); first [now rewrite app_nil_r|intro Z; now destruct Z|intros []].
  - eapply eq_D; eauto.
  - pose proof (cl_lt s i ltac:(rewrite P; discriminate)) as L. apply cpc_D with (s := s) (l := [TSave m]); auto; try discriminate; try (now rewrite P). intros [Z|[]]; discriminate.
  - eapply eq_D; eauto.
  - pose proof (cl_lt s i ltac:(rewrite P; discriminate)) as L. apply cpc_D with (s := s) (l := []); auto; try discriminate; try (now rewrite P); first [now rewrite app_nil_r|intro Z; now destruct Z|intros []].
  - eapply eq_D; eauto.
  - pose proof (cl_lt s i ltac:(rewrite P; discriminate)) as L. apply cpc_D with (s := s) (l := [TFatal m]); auto; try discriminate; try (now rewrite P); [intros [Z|[]]; discriminate|]. intros _. exists m. now left.
  - eapply eq_D; eauto.
  - pose proof (cl_lt s i ltac:(rewrite P; discriminate)) as L. apply (rel_D (set_handles s (w_handles s ++ [k])) i k CIdle); auto; try discriminate; [eapply eq_D; eauto|change (cl (set_handles s (w_handles s ++ [k])) i) with (cl s i); now rewrite P].
  - pose proof (cl_lt s i ltac:(rewrite P; discriminate)) as L. apply (rel_D s i k (CRm2 k)); auto; try discriminate; rewrite P; auto.
  - pose proof (cl_lt s i ltac:(rewrite P; discriminate)) as L. apply cpc_D with (s := s) (l := [TRemove i k]); auto; try discriminate; try (rewrite P; auto; fail); [|intros [Z|[]]; discriminate].
    intros _. apply (bg_open s i I); now rewrite P.
  - pose proof (cl_lt s i ltac:(rewrite P; discriminate)) as L. apply cpc_D with (s := s) (l := []); auto; try discriminate; try (now rewrite P); first [now rewrite app_nil_r|intro Z; now destruct Z|intros []].
  - pose proof (cl_lt s i ltac:(rewrite P; discriminate)) as L. apply cpc_D with (s := s) (l := []); auto; try discriminate; try (now rewrite P); first [now rewrite app_nil_r|intro Z; now destruct Z|intros []].
  - pose proof (cl_lt s i ltac:(rewrite P; discriminate)) as L. destruct (ps_frame s k (JCall c)) as (A1 & A2 & A3 & A4 & A5 & A6 & A7 & A8 & A9 & _).
    apply cpc_D with (s := s) (l := []); auto; try discriminate; try (now rewrite P); first [now rewrite app_nil_r|intro Z; now destruct Z|intros []].
  - pose proof (cl_lt s i ltac:(rewrite P; discriminate)) as L. apply (rel_D s i k CIdle); auto; try discriminate. now rewrite P.
  - pose proof (cl_lt s i ltac:(rewrite P; discriminate)) as L. destruct (ds_frame s k) as (A1 & A2 & A3 & A4 & A5 & A6 & A7 & A8 & A9 & _).
    pose proof (a_cl s IA i) as PC. unfold pcok in PC. rewrite P in PC.
    apply cpc_D with (s := s) (l := []); auto; try (rewrite P; auto; fail); first [destruct PC as [-> | ->]; solve [auto|discriminate]|now rewrite app_nil_r|intro Z; now destruct Z|intros []].
  - (* the destructor *)
    pose proof (cl_lt s i ltac:(rewrite P; discriminate)) as L. pose proof (bg_open s i I ltac:(now rewrite P) ltac:(now rewrite P)) as BG. destruct (B BG) as [B1 B2].
    set (s' := set_cpc (push s (TClear i)) i (DClrW h)).
    assert (C' : forall j, c_pc (cl s' j) = if Nat.eqb j i then DClrW h else c_pc (cl s j)) by (intro j; unfold s'; now rewrite (pc_set_cpc s (push s (TClear i)))).
    assert (EN : entered s' = entered s ++ [TClear i]) by (unfold entered; cbn [s' set_cpc set_cl push w_old w_q]; apply app_assoc).
    destruct (not_waiting_wtok s i IT) as [WT _]; [now rewrite P|]. constructor.
    + intros a b. rewrite !C'. intros X Y. apply A; [destruct (Nat.eqb_spec a i) as [->|]; auto; now rewrite P|destruct (Nat.eqb_spec b i) as [->|]; auto; now rewrite P].
    + intros _. split; [rewrite EN; unfold nodone; rewrite in_app_iff; intros [Z|[Z|[]]]; [auto|discriminate]|]. intro j. rewrite C'. destruct (Nat.eqb j i); auto.
    + change (w_bg s') with (w_bg s). congruence.
    + intros j _. apply (D i). now rewrite P.
    + intros j X. change (w_sinks s') with (w_sinks s). apply (E j). rewrite C' in X. destruct (Nat.eqb_spec j i) as [EQ|NE]; auto. exfalso. rewrite EQ in X. destruct X as [X|(h' & _ & Y)]; [discriminate|]. change (w_pc s') with (w_pc s) in Y. congruence.
    + intros j h'. rewrite C'. destruct (Nat.eqb_spec j i) as [->|NE]; [discriminate|apply F].
    + intros j. rewrite C', EN. destruct (Nat.eqb_spec j i) as [->|NE]; [discriminate|]. intro X. destruct (G j X) as [m M]. exists m. apply in_or_app. now left.
  - pose proof (cl_lt s i ltac:(rewrite P; discriminate)) as L. pose proof (bg_open s i I ltac:(now rewrite P) ltac:(now rewrite P)) as BG. destruct (B BG) as [B1 B2].
    set (s' := set_cpc (set_bg (push s TDone) false) i (DJoin h)).
    assert (C' : forall j, c_pc (cl s' j) = if Nat.eqb j i then DJoin h else c_pc (cl s j)) by (intro j; unfold s'; now rewrite (pc_set_cpc s (set_bg (push s TDone) false))).
    assert (EN : entered s' = entered s ++ [TDone]) by (unfold entered; cbn [s' set_cpc set_cl set_bg push w_old w_q]; apply app_assoc). constructor.
    + intros a b. rewrite !C'. intros X Y. apply A; [destruct (Nat.eqb_spec a i) as [->|]; auto; now rewrite P|destruct (Nat.eqb_spec b i) as [->|]; auto; now rewrite P].
    + discriminate.
    + intros _. split; [exists (entered s); auto|]. exists i. rewrite C', Nat.eqb_refl. reflexivity.
    + intros j _. apply (D i). now rewrite P.
    + intros j X. change (w_sinks s') with (w_sinks s). rewrite C' in X. destruct (Nat.eqb_spec j i) as [EQ|NE]; [|now apply (E j)]. apply (E i). left. now rewrite P.
    + intros j h'. rewrite C'. destruct (Nat.eqb_spec j i) as [->|NE]; [discriminate|apply F].
    + intros j. rewrite C', EN. destruct (Nat.eqb_spec j i) as [->|NE]; [discriminate|]. intro X. destruct (G j X) as [m M]. exists m. apply in_or_app. now left.
  - pose proof (cl_lt s i ltac:(rewrite P; discriminate)) as L. set (s' := set_cpc s i (DDone h)).
    assert (C' : forall j, c_pc (cl s' j) = if Nat.eqb j i then DDone h else c_pc (cl s j)) by (intro j; unfold s'; now rewrite (pc_set_cpc s s)). constructor.
    + intros a b. rewrite !C'. intros X Y. apply A; [destruct (Nat.eqb_spec a i) as [->|]; auto; now rewrite P|destruct (Nat.eqb_spec b i) as [->|]; auto; now rewrite P].
    + intro X. destruct (B X) as [B1 B2]. specialize (B2 i). rewrite P in B2. discriminate.
    + intro X. destruct (C X) as [B1 _]. split; auto. exists i. rewrite C', Nat.eqb_refl. reflexivity.
    + intros j _. apply (D i). now rewrite P.
    + intros j X. change (w_sinks s') with (w_sinks s). apply (E i). left. now rewrite P.
    + intros j h'. rewrite C'. destruct (Nat.eqb_spec j i) as [->|NE]; [intros _; exact W|apply F].
    + intros j. rewrite C'. destruct (Nat.eqb_spec j i) as [->|NE]; [discriminate|]. apply G.
  (* new requests *)
  - now apply log_D.
  - destruct (idle_spec _ _ ID) as [L P]. eapply eq_D; eauto. intro j. unfold count_log. rewrite cl_set by exact L. destruct (Nat.eqb_spec j i) as [->|NE]; auto.
  - now apply log_D.
  - destruct (idle_spec _ _ ID) as [L P]. eapply eq_D; eauto. intro j. change (cl (set_proc ?a ?b) j) with (cl a j). unfold count_log. rewrite cl_set by exact L. destruct (Nat.eqb_spec j i) as [->|NE]; auto.
  - destruct (idle_spec _ _ ID) as [L P]. set (k := length (w_sk s)). set (s0 := acquire (set_sk s (w_sk s ++ [new_sink])) i k).
    assert (PC0 : forall j, c_pc (cl s0 j) = c_pc (cl s j)) by (intro j; unfold s0, acquire, set_hold; rewrite cl_set by exact L; destruct (Nat.eqb_spec j i) as [->|NE]; reflexivity).
    assert (I0 : invD s0) by (eapply eq_D; eauto). apply go_D with (s := s) (i := i) (l := [TAdd i k]); auto; try (rewrite P; reflexivity); try (rewrite (pc_set_cpc s0), Nat.eqb_refl; [cbn; auto; discriminate|reflexivity|cbn [s0 acquire set_hold set_cl w_cl set_sk]; now rewrite upd_length]).
    + intros j NE. rewrite (pc_set_cpc s0); [|reflexivity|cbn [s0 acquire set_hold set_cl w_cl set_sk]; now rewrite upd_length]. apply Nat.eqb_neq in NE as ->. apply PC0.
    + unfold entered. cbn [set_cpc set_cl push s0 acquire set_hold set_sk w_old w_q]. apply app_assoc.
    + intros _. now apply bg_begun.
    + intros [Z|[]]. discriminate.
  - destruct (idle_spec _ _ ID) as [L P]. apply cpc_D with (s := s) (l := []); auto; try discriminate; try (now rewrite P); first [now rewrite app_nil_r|intro Z; now destruct Z|intros []].
  - destruct (idle_spec _ _ ID) as [L P]. set (s0 := acquire s i k).
    assert (PC0 : forall j, c_pc (cl s0 j) = c_pc (cl s j)) by (intro j; unfold s0, acquire, set_hold; rewrite cl_set by exact L; destruct (Nat.eqb_spec j i) as [->|NE]; reflexivity).
    assert (L0 : i < length (w_cl s0)) by (cbn [s0 acquire set_hold set_cl w_cl]; now rewrite upd_length).
    apply go_D with (s := s) (i := i) (l := []); auto; try (rewrite P; reflexivity); try (rewrite (pc_set_cpc s0), Nat.eqb_refl by auto; cbn; auto; discriminate); try (intro Z; now destruct Z).
    + intros j NE. rewrite (pc_set_cpc s0) by auto. apply Nat.eqb_neq in NE as ->. apply PC0.
    + symmetry. apply app_nil_r.
  - destruct (idle_spec _ _ ID) as [L P]. apply cpc_D with (s := s) (l := [TClear i]); auto; try discriminate; try (now rewrite P); [intros _; now apply bg_begun|intros [Z|[]]; discriminate].
  - eapply eq_D; eauto.
  - destruct (idle_spec _ _ ID) as [L P]. set (s0 := acquire (set_prom s (w_prom s ++ [(k, Pending)])) i k).
    assert (PC0 : forall j, c_pc (cl s0 j) = c_pc (cl s j)) by (intro j; unfold s0, acquire, set_hold; rewrite cl_set by exact L; destruct (Nat.eqb_spec j i) as [->|NE]; reflexivity).
    assert (L0 : i < length (w_cl s0)) by (cbn [s0 acquire set_hold set_cl w_cl set_prom]; now rewrite upd_length).
    apply go_D with (s := s) (i := i) (l := []); auto; try (rewrite P; reflexivity); try (rewrite (pc_set_cpc s0), Nat.eqb_refl by auto; cbn; auto; discriminate); try (intro Z; now destruct Z).
    + intros j NE. rewrite (pc_set_cpc s0) by auto. apply Nat.eqb_neq in NE as ->. apply PC0.
    + symmetry. apply app_nil_r.
  - destruct (idle_spec _ _ ID) as [L P]. eapply eq_D; eauto. intro j. unfold acquire, set_hold. rewrite cl_set by exact L. destruct (Nat.eqb_spec j i) as [->|NE]; reflexivity.
  - destruct (idle_spec _ _ ID) as [L P]. apply (rel_D s i k CIdle); auto; try discriminate. now rewrite P.
  - destruct (idle_spec _ _ ID) as [L P]. assert (NM : forall j, managing (c_pc (cl s j)) = false) by (intro j; now apply managing_false).
    set (s' := set_cpc (set_active s false) i (D0 (entered s))).
    assert (C' : forall j, c_pc (cl s' j) = if Nat.eqb j i then D0 (entered s) else c_pc (cl s j)) by (intro j; unfold s'; now rewrite (pc_set_cpc s (set_active s false))). constructor.
    + intros a b. rewrite !C'. destruct (Nat.eqb_spec a i) as [->|NA]; [|intro X; apply dtor_managing in X; congruence]. destruct (Nat.eqb_spec b i) as [->|NB]; [auto|intros _ X; congruence].
    + intro X. destruct (B X) as [B1 B2]. split; auto. intro j. rewrite C'. destruct (Nat.eqb j i); auto.
    + intro X. destruct (C X) as [B1 [j B2]]. apply late_dtor, dtor_managing in B2. congruence.
    + reflexivity.
    + intros j X. change (w_sinks s') with (w_sinks s). apply (E j). rewrite C' in X. destruct (Nat.eqb j i); [|exact X]. destruct X as [X|(h & X & _)]; discriminate.
    + intros j h'. rewrite C'. destruct (Nat.eqb_spec j i) as [->|NE]; [discriminate|apply F].
    + intros j. rewrite C'. destruct (Nat.eqb_spec j i) as [->|NE]; [discriminate|]. apply G.
  - eapply eq_D; eauto. discriminate.
  - constructor; auto. intros j X. change (cl (set_active s true) j) with (cl s j) in X. rewrite (dtor_begun_false s j DT) in X. discriminate.
Qed.
Lemma init_D : forall n, invD (w_init n).
Proof.
  intro n. constructor; intros; rewrite ?cl_init in *; try discriminate.
  - split; [intros []|]. intro i. now rewrite cl_init.
  - destruct H as [H|(h & H & _)]; discriminate.
Qed.
Record inv (s : wstate) : Prop := mkInv { i_A : invA s; i_B : invB s; i_P : invP s; i_T : invT s; i_D : invD s }.
Theorem reach_inv : forall n s, wreach n s -> inv s.
Proof.
  intros n s R. apply (steps_ind inv (w_init n)); auto.
  - constructor; [apply init_A|apply init_B|apply init_P|apply init_T|apply init_D].
  - intros t t' _ M [IA IB IP IT ID]. constructor; [eapply move_A|eapply move_B|eapply move_P|eapply move_T|eapply move_D]; eauto.
Qed.
