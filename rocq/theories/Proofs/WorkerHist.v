(** The history of the worker: which sinks are registered, what was sent to them, what the worker is busy with. *)
From Coq Require Import List Arith Bool Lia.
From Verif.Base Require Import Threads.
From Verif.Model Require Import Worker.
From Verif.Spec Require Import WorkerSpec.
From Verif.Proofs Require Import WorkerLife.
Import ListNotations.

(** ** the specification functions *)
Lemma registered_app : forall k a b on, registered k on (a ++ b) = registered k (registered k on a) b.
Proof. intros k a. induction a as [|t a IH]; intros b on; [reflexivity|]. destruct t; cbn [registered app]; auto. Qed.
Lemma window_app : forall k a b on, window k on (a ++ b) = window k on a ++ window k (registered k on a) b.
Proof.
  intros k a. induction a as [|t a IH]; intros b on; [reflexivity|]. destruct t; cbn [registered window app]; auto; rewrite IH, app_assoc; reflexivity.
Qed.
Definition is_add (k : nat) (t : task) : bool := match t with TAdd _ u => Nat.eqb u k | _ => false end.
Definition nadd (k : nat) (l : list task) : nat := length (filter (is_add k) l).
Lemma nadd_app : forall k a b, nadd k (a ++ b) = nadd k a + nadd k b.
Proof. intros. unfold nadd. now rewrite filter_app, app_length. Qed.
Lemma nadd_In : forall k l, nadd k l <> 0 <-> exists i, In (TAdd i k) l.
Proof.
  intros k l. unfold nadd. split.
  - intro H. destruct (filter (is_add k) l) as [|t r] eqn:E; [cbn in H; congruence|]. assert (In t (filter (is_add k) l)) by (rewrite E; now left).
    apply filter_In in H0 as [H0 H1]. destruct t as [| |i u| | |]; try discriminate. apply Nat.eqb_eq in H1 as ->. now exists i.
  - intros [i H] E. assert (F : In (TAdd i k) (filter (is_add k) l)) by (apply filter_In; split; auto; cbn; apply Nat.eqb_refl).
    destruct (filter (is_add k) l); [destruct F|discriminate].
Qed.
Lemma registered_add : forall k l on, registered k on l = true -> on = true \/ nadd k l <> 0.
Proof.
  intros k l. induction l as [|t l IH]; intros on H; [auto|]. unfold nadd in *. destruct t as [m|m|i u|i u|i|]; cbn [registered filter is_add] in *; auto;
    try (destruct (IH _ H) as [E|E]; [discriminate|auto]; fail).
  - destruct (Nat.eqb u k); [right; discriminate|auto].
  - destruct (IH _ H) as [E|E]; [|auto]. destruct (Nat.eqb u k); [discriminate|auto].
Qed.
Lemma registered_noadd : forall k l, nadd k l = 0 -> registered k false l = false.
Proof. intros k l H. apply not_true_is_false. intro E. destruct (registered_add _ _ _ E); [discriminate|contradiction]. Qed.

(** ** sinks *)
Lemma msgs_app : forall a b, msgs (a ++ b) = msgs a ++ msgs b.
Proof. intros. apply flat_map_app. Qed.
Lemma sk_upd : forall s k x u, sk (set_sk s (upd (w_sk s) k x)) u = if Nat.eqb u k && Nat.ltb k (length (w_sk s)) then x else sk s u.
Proof.
  intros s k x u. unfold sk. cbn [set_sk w_sk]. destruct (Nat.ltb_spec k (length (w_sk s))) as [L|L].
  - rewrite get_upd by exact L. now destruct (Nat.eqb u k).
  - rewrite upd_out by exact L. now rewrite andb_false_r.
Qed.
Definition sent (s : wstate) (k : nat) : list msg := msgs (all (sk s k)).
Lemma sent_push : forall s k j u, msgs [j] = [] -> sent (push_sink s k j) u = sent s u.
Proof.
  intros s k j u H. unfold sent, push_sink. destruct (k_dead (sk s k)); [reflexivity|]. rewrite sk_upd. destruct (Nat.eqb u k && Nat.ltb k (length (w_sk s))) eqn:E; [|reflexivity].
  apply andb_prop in E as [E _]. apply Nat.eqb_eq in E as ->. now rewrite all_push, msgs_app, H, app_nil_r.
Qed.
Lemma sent_destroy : forall s k u, sent (destroy s k) u = sent s u.
Proof.
  intros s k u. unfold sent, destroy. destruct (k_dead (sk s k)); [reflexivity|]. rewrite sk_upd. destruct (Nat.eqb u k && Nat.ltb k (length (w_sk s))) eqn:E; [|reflexivity].
  apply andb_prop in E as [E _]. now apply Nat.eqb_eq in E as ->.
Qed.
Lemma sent_local : forall s k x u, all x = all (sk s k) -> sent (set_sk s (upd (w_sk s) k x)) u = sent s u.
Proof.
  intros s k x u H. unfold sent. rewrite sk_upd. destruct (Nat.eqb u k && Nat.ltb k (length (w_sk s))) eqn:E; [|reflexivity].
  apply andb_prop in E as [E _]. apply Nat.eqb_eq in E as ->. now rewrite H.
Qed.
Lemma len_push_sink : forall s k j, length (w_sk (push_sink s k j)) = length (w_sk s).
Proof. intros. unfold push_sink. destruct (k_dead (sk s k)); cbn [set_sinkub set_sk w_sk]; now rewrite ?upd_length. Qed.
Lemma len_destroy : forall s k, length (w_sk (destroy s k)) = length (w_sk s).
Proof. intros. unfold destroy. destruct (k_dead (sk s k)); cbn [set_sinkub set_sk w_sk]; now rewrite ?upd_length. Qed.

(** ** the invariant *)
Definition pending (k : nat) (p : wpc) : list msg := match p with WSend m todo _ _ => if has k todo then [m] else [] | _ => [] end.
Record invB (s : wstate) : Prop := mkB {
  b_on : forall k, In k (w_sinks s) <-> registered k false (w_old s) = true;
  b_nd : NoDup (w_sinks s);
  b_add : forall k, nadd k (entered s) = b2n (Nat.ltb k (length (w_sk s)));
  b_win : forall k, sent s k ++ pending k (w_pc s) = window k false (w_old s);
  b_todo : match w_pc s with WSend _ todo _ _ => NoDup todo | _ => True end
}.
(** nothing of this changes *)
Definition nosend (p : wpc) : Prop := match p with WSend _ (_ :: _) _ _ => False | _ => True end.
Lemma nosend_pending : forall k p, nosend p -> pending k p = [].
Proof. intros k p H. destruct p as [|m [|] d q| | | |]; try reflexivity. destruct H. Qed.
Record same (s s' : wstate) : Prop := mkSame {
  e_old : w_old s' = w_old s; e_sinks : w_sinks s' = w_sinks s; e_q : exists l, w_q s' = w_q s ++ l /\ forall k, nadd k l = 0;
  e_len : length (w_sk s') = length (w_sk s); e_sent : forall k, sent s' k = sent s k;
  e_pc : w_pc s' = w_pc s \/ (nosend (w_pc s) /\ nosend (w_pc s'))
}.
Lemma same_B : forall s s', invB s -> same s s' -> invB s'.
Proof.
  intros s s' [A B C D E] [F G (l & HQ & HL) I J K]. constructor.
  - intro k. now rewrite F, G.
  - now rewrite G.
  - intro k. unfold entered in *. rewrite F, HQ, I, app_assoc, nadd_app, HL, C. lia.
  - intro k. rewrite F, J, <- D. destruct K as [->|[K1 K2]]; [reflexivity|]. now rewrite !nosend_pending.
  - destruct K as [->|[K1 K2]]; [exact E|]. destruct (w_pc s') as [|m [|] d q| | | |]; auto; [constructor|destruct K2].
Qed.
Lemma same_eq : forall s s', w_old s' = w_old s -> w_sinks s' = w_sinks s -> w_q s' = w_q s -> w_sk s' = w_sk s -> w_pc s' = w_pc s -> same s s'.
Proof.
  intros s s' A B C D E. constructor; auto; [|now rewrite D|intro k; unfold sent, sk; now rewrite D]. exists []. split; [now rewrite app_nil_r|reflexivity].
Qed.
Lemma same_pc : forall s s', w_old s' = w_old s -> w_sinks s' = w_sinks s -> w_q s' = w_q s -> w_sk s' = w_sk s -> nosend (w_pc s) -> nosend (w_pc s') -> same s s'.
Proof.
  intros s s' A B C D E F. constructor; auto; [|now rewrite D|intro k; unfold sent, sk; now rewrite D]. exists []. split; [now rewrite app_nil_r|reflexivity].
Qed.
Lemma same_push : forall s s' t, w_old s' = w_old s -> w_sinks s' = w_sinks s -> w_q s' = w_q s ++ [t] -> w_sk s' = w_sk s -> w_pc s' = w_pc s -> (forall k, is_add k t = false) -> same s s'.
Proof.
  intros s s' t A B C D E F. constructor; auto; [|now rewrite D|intro k; unfold sent, sk; now rewrite D]. exists [t]. split; auto. intro k. unfold nadd. cbn [filter]. now rewrite F.
Qed.
Lemma same_sk : forall s s', w_old s' = w_old s -> w_sinks s' = w_sinks s -> w_q s' = w_q s -> length (w_sk s') = length (w_sk s) -> (forall k, sent s' k = sent s k) ->
  w_pc s' = w_pc s \/ (nosend (w_pc s) /\ nosend (w_pc s')) -> same s s'.
Proof. intros s s' A B C D E F. constructor; auto. exists []. split; [now rewrite app_nil_r|reflexivity]. Qed.
(** the parts that [push_sink] and [destroy] leave alone *)
Lemma ps_frame : forall s k j, w_old (push_sink s k j) = w_old s /\ w_q (push_sink s k j) = w_q s /\ w_pc (push_sink s k j) = w_pc s /\ w_sinks (push_sink s k j) = w_sinks s /\
  w_bg (push_sink s k j) = w_bg s /\ w_active (push_sink s k j) = w_active s /\ w_cl (push_sink s k j) = w_cl s /\ w_prom (push_sink s k j) = w_prom s /\
  w_handles (push_sink s k j) = w_handles s /\ w_proc (push_sink s k j) = w_proc s /\ w_err (push_sink s k j) = w_err s.
Proof. intros. unfold push_sink. destruct (k_dead (sk s k)); cbn; repeat split. Qed.
Lemma ds_frame : forall s k, w_old (destroy s k) = w_old s /\ w_q (destroy s k) = w_q s /\ w_pc (destroy s k) = w_pc s /\ w_sinks (destroy s k) = w_sinks s /\
  w_bg (destroy s k) = w_bg s /\ w_active (destroy s k) = w_active s /\ w_cl (destroy s k) = w_cl s /\ w_prom (destroy s k) = w_prom s /\
  w_handles (destroy s k) = w_handles s /\ w_proc (destroy s k) = w_proc s /\ w_err (destroy s k) = w_err s.
Proof. intros. unfold destroy. destruct (k_dead (sk s k)); cbn; repeat split. Qed.
Ltac frame k j := match goal with
  | |- context [push_sink ?s k j] => let F := fresh "F" in pose proof (ps_frame s k j) as F; decompose [and] F; clear F
  end.
Lemma same_rel : forall s i k next s', rel s i k next s' -> same s s'.
Proof.
  intros s i k next s' [H|H]; [now apply same_eq|]. set (s1 := set_hold s i (remove1 k (c_hold (cl s i)))).
  destruct (ps_frame s1 k JDone) as (A1 & A2 & A3 & A4 & _).
  apply same_sk; try (cbn [set_cpc set_cl w_old w_sinks w_q w_pc]; assumption).
  - exact (len_push_sink s1 k JDone).
  - intro u. exact (sent_push s1 k JDone u eq_refl).
  - left. exact A3.
Qed.
Lemma has_cons : forall k x l, has k (x :: l) = Nat.eqb k x || has k l.
Proof. reflexivity. Qed.
Lemma In_has : forall k l, In k l -> has k l = true.
Proof. intros k l H. unfold has. apply existsb_exists. exists k. split; auto. apply Nat.eqb_refl. Qed.
Lemma notIn_has : forall k l, ~ In k l -> has k l = false.
Proof. intros k l H. apply not_true_is_false. intro E. apply H. now apply has_In. Qed.
Lemma has_on : forall s k, invB s -> has k (w_sinks s) = registered k false (w_old s).
Proof.
  intros s k [A _ _ _ _]. destruct (registered k false (w_old s)) eqn:E; [apply In_has; now apply A|]. apply notIn_has. intro H. apply A in H. congruence.
Qed.
Lemma NoDup_snoc : forall (l : list nat) k, NoDup l -> ~ In k l -> NoDup (l ++ [k]).
Proof.
  intros l k H N. induction H as [|x l X H IH]; cbn; [constructor; auto; constructor|]. constructor.
  - rewrite in_app_iff. intros [E|[E|[]]]; [auto|]. apply N. now left.
  - apply IH. intro. apply N. now right.
Qed.

Lemma NoDup_remove' : forall (l : list nat) k, NoDup l -> NoDup (remove Nat.eq_dec k l).
Proof.
  intros l k H. induction H as [|x l X H IH]; cbn; [constructor|]. destruct (Nat.eq_dec k x); auto. constructor; auto. intro E. apply in_remove in E. tauto.
Qed.

Lemma pop_B : forall s t q p l err, invB s -> w_pc s = WLoop -> w_q s = t :: q ->
  (forall k, In k l <-> registered k (registered k false (w_old s)) [t] = true) -> NoDup l ->
  (forall k, pending k p = window k (registered k false (w_old s)) [t]) -> match p with WSend _ todo _ _ => NoDup todo | _ => True end ->
  forall act, invB (set_pc (set_sinks (set_active (set_err (pop s t q) err) act) l) p).
Proof.
  intros s t q p l err I W Q HL ND HP HT act. destruct I as [A B C D E]. constructor; cbn [set_pc set_sinks set_active set_err pop w_old w_sinks w_q w_pc w_sk]; auto.
  - intro k. rewrite registered_app. apply HL.
  - intro k. rewrite <- C. unfold entered. cbn [set_pc set_sinks set_active set_err pop w_old w_q]. rewrite Q, <- app_assoc. reflexivity.
  - intro k. rewrite window_app, <- HP, <- D, W. cbn [pending]. rewrite app_nil_r. reflexivity.
Qed.

Lemma move_B : forall s s', move s s' -> invA s -> invB s -> invB s'.
Proof.
  intros s s' M IA I. pose proof (fun k => has_on s k I) as HON. pose proof I as [A B C D E]. destruct M as
    [m q W Q|m q W Q|i k q W Q|i k q W Q R|i k q W Q R|i q W Q|q W Q
    |m k todo drop q W|m drop q W|k l q W R|k l q W R|k l q W X|W|i W|W|i f W
    |k j q R Q DN|k m R|k m R|k c o R|k R|k DN X
    |i m P G|i m P G|i m P G|i m P G|i m P G|i m P G|i m P G|i m P G
    |i k s' P H|i k s' P H|i k P|i k h P|i P|i k c P|i k s' P H|i k next P X|i h P|i h P|i h P W
    |i ID G|i ID G|i ID G|i ID G|i ID G|i k ID DT H R|i k ID DT H R|i ID DT|i k ID H R|i k ID H R|i k ID H R|i k s' ID H G|i ID DT| |G DT].
  - apply (pop_B s (TSave m) q (WSend m (w_sinks s) [] KLoop) (w_sinks s) (w_err s ++ match w_sinks s with [] => [m] | _ => [] end) I W Q) with (act := w_active s); auto.
    intro k. cbn [pending window]. rewrite HON, app_nil_r. reflexivity.
  - apply (pop_B s (TFatal m) q (WSend m (w_sinks s) (w_sinks s) KKill) [] (w_err s) I W Q) with (act := false); auto; [|constructor|].
    + intro k. cbn [registered In]. split; [tauto|discriminate].
    + intro k. cbn [pending window]. rewrite HON, app_nil_r. reflexivity.
  - assert (N : registered k false (w_old s) = false).
    { apply registered_noadd. specialize (C k). unfold entered in C. rewrite Q, nadd_app in C. unfold nadd at 2 in C. cbn [filter is_add] in C. rewrite Nat.eqb_refl in C. cbn [length] in C.
      destruct (k <? length (w_sk s)); cbn [b2n] in C; lia. }
    apply (pop_B s (TAdd i k) q (WTok i [k]) (w_sinks s ++ [k]) (w_err s) I W Q) with (act := w_active s); auto.
    + intro u. cbn [registered]. rewrite in_app_iff, A. cbn [In]. destruct (Nat.eqb_spec k u) as [EQ|NE]; [subst u; tauto|]. tauto.
    + apply NoDup_snoc; auto. rewrite A, N. discriminate.
  - assert (N : registered k false (w_old s) = false).
    { apply not_true_is_false. intro E1. apply A in E1. apply cnt_In in E1. unfold refs in R. cbn [pop w_sinks] in R. lia. }
    apply (pop_B s (TRemove i k) q (WTok i []) (w_sinks s) (w_err s) I W Q) with (act := w_active s); auto.
    intro u. cbn [registered]. rewrite A. destruct (Nat.eqb_spec k u) as [EQ|NE]; [subst u; rewrite N|]; tauto.
  - apply (pop_B s (TRemove i k) q (WDrop (repeat k (cnt k (w_sinks s)) ++ [k]) (KTok i)) (remove Nat.eq_dec k (w_sinks s)) (w_err s) I W Q) with (act := w_active s); auto.
    + intro u. cbn [registered]. destruct (Nat.eqb_spec k u) as [EQ|NE].
      * subst u. split; [intro F; apply in_remove in F; tauto|discriminate].
      * rewrite <- A. split; [intro F; now apply in_remove in F|intro F; now apply in_in_remove; auto].
    + now apply NoDup_remove'.
  - apply (pop_B s (TClear i) q (WDrop (w_sinks s) (KTok i)) [] (w_err s) I W Q) with (act := w_active s); auto; [|constructor].
    intro k. cbn [registered In]. split; [tauto|discriminate].
  - apply (pop_B s TDone q WExit (w_sinks s) (w_err s) I W Q) with (act := w_active s); auto.
  - rewrite W in E. inversion E as [|x l' NI ND EQ]. subst x l'.
    assert (R : refs s k <> 0).
    { pose proof (a_send s IA) as S. unfold sendok in S. rewrite W in S. specialize (S k (or_introl eq_refl)). apply cnt_In in S. rewrite cnt_app in S. unfold refs. rewrite W. cbn [pc_refs]. lia. }
    destruct (invA_push_sink s k (JMsg m) IA R ltac:(discriminate)) as [_ E2]. rewrite E2. pose proof (life_lt _ _ _ _ (a_life s IA) R) as LT.
    constructor; cbn [set_pc set_sk w_old w_sinks w_q w_pc w_sk]; auto.
    + intro u. rewrite upd_length. apply C.
    + intro u. rewrite <- D, W. cbn [pending]. rewrite has_cons. unfold sent. change (sk (set_pc ?a ?b) u) with (sk a u). rewrite sk_upd. apply Nat.ltb_lt in LT. rewrite LT, andb_true_r.
      destruct (Nat.eqb_spec u k) as [EQ|NE]; [|reflexivity]. subst u. rewrite all_push, msgs_app. rewrite (notIn_has k todo NI). cbn [orb]. now rewrite app_nil_r.
  - apply same_B with (s := s); auto. apply same_pc; auto. now rewrite W. exact Logic.I.
  - apply same_B with (s := s); auto. apply same_pc; auto. now rewrite W. exact Logic.I.
  - apply same_B with (s := s); auto. destruct (ps_frame (set_pc s (WDrop l q)) k JDone) as (A1 & A2 & A3 & A4 & _). apply same_sk; auto.
    + exact (len_push_sink (set_pc s (WDrop l q)) k JDone).
    + intro u. exact (sent_push (set_pc s (WDrop l q)) k JDone u eq_refl).
    + right. rewrite W. split; exact Logic.I.
  - apply same_B with (s := s); auto. destruct (ds_frame s k) as (A1 & A2 & A3 & A4 & _). apply same_sk; auto.
    + exact (len_destroy s k).
    + intro u. exact (sent_destroy s k u).
    + right. rewrite W. split; exact Logic.I.
  - apply same_B with (s := s); auto. apply same_pc; auto. now rewrite W. exact Logic.I.
  - apply same_B with (s := s); auto. apply same_pc; auto. now rewrite W. exact Logic.I.
  - apply same_B with (s := s); auto. now apply same_eq.
  - apply same_B with (s := s); auto. apply same_pc; auto. now rewrite W. exact Logic.I.
  - apply same_B with (s := s); auto. apply same_sk; auto; [cbn [set_sk w_sk]; apply upd_length|]. intro u. apply sent_local. unfold all. cbn [k_got k_run k_q]. rewrite R, Q. reflexivity.
  - apply same_B with (s := s); auto. apply same_sk; auto; [cbn [set_sk w_sk]; apply upd_length|]. intro u. apply sent_local. unfold all. cbn [k_got k_run k_q]. rewrite R, <- app_assoc. reflexivity.
  - apply same_B with (s := s); auto. apply same_sk; auto; [cbn [set_proc set_sk w_sk]; apply upd_length|]. intro u. change (sent (set_proc ?a ?b) u) with (sent a u). apply sent_local. unfold all. cbn [k_got k_run k_q]. rewrite R, <- app_assoc. reflexivity.
  - apply same_B with (s := s); auto. apply same_sk; auto; [cbn [set_prom set_sk w_sk]; apply upd_length|]. intro u. change (sent (set_prom ?a ?b) u) with (sent a u). apply sent_local. unfold all. cbn [k_got k_run k_q]. rewrite R, <- app_assoc. reflexivity.
  - apply same_B with (s := s); auto. apply same_sk; auto; [cbn [set_sk w_sk]; apply upd_length|]. intro u. apply sent_local. unfold all. cbn [k_got k_run k_q]. rewrite R, <- app_assoc. reflexivity.
  - apply same_B with (s := s); auto. apply same_sk; auto; [cbn [set_sk w_sk]; apply upd_length|]. intro u. now apply sent_local.
  - apply same_B with (s := s); auto. now apply same_eq.
  - apply same_B with (s := s); auto. now apply same_eq.
  - apply same_B with (s := s); auto. now apply same_push with (t := TSave m).
  - apply same_B with (s := s); auto. now apply same_eq.
  - apply same_B with (s := s); auto. now apply same_eq.
  - apply same_B with (s := s); auto. now apply same_eq.
  - apply same_B with (s := s); auto. now apply same_push with (t := TFatal m).
  - apply same_B with (s := s); auto. now apply same_eq.
  - apply same_B with (s := set_handles s (w_handles s ++ [k])); [apply same_B with (s := s); auto; now apply same_eq|]. eapply same_rel; eauto.
  - apply same_B with (s := s); auto. eapply same_rel; eauto.
  - apply same_B with (s := s); auto. now apply same_push with (t := TRemove i k).
  - apply same_B with (s := s); auto. now apply same_eq.
  - apply same_B with (s := s); auto. now apply same_eq.
  - apply same_B with (s := s); auto. destruct (ps_frame s k (JCall c)) as (A1 & A2 & A3 & A4 & _). apply same_sk; auto.
    + exact (len_push_sink s k (JCall c)).
    + intro u. exact (sent_push s k (JCall c) u eq_refl).
  - apply same_B with (s := s); auto. eapply same_rel; eauto.
  - apply same_B with (s := s); auto. destruct (ds_frame s k) as (A1 & A2 & A3 & A4 & _). apply same_sk; auto.
    + exact (len_destroy s k).
    + intro u. exact (sent_destroy s k u).
  - apply same_B with (s := s); auto. now apply same_push with (t := TClear i).
  - apply same_B with (s := s); auto. now apply same_push with (t := TDone).
  - apply same_B with (s := s); auto. now apply same_eq.
  - apply same_B with (s := s); auto. now apply same_eq.
  - apply same_B with (s := s); auto. now apply same_eq.
  - apply same_B with (s := s); auto. now apply same_eq.
  - apply same_B with (s := s); auto. now apply same_eq.
  - set (k := length (w_sk s)). constructor; auto.
    + intro u. unfold entered. cbn [set_cpc set_cl push acquire set_hold set_sk w_old w_q w_sk]. rewrite app_assoc, nadd_app. change (w_old s ++ w_q s) with (entered s). rewrite C, app_length. cbn [length].
      unfold nadd. cbn [filter is_add]. fold k. destruct (Nat.eqb_spec k u) as [EQ|NE].
      * subst u. rewrite Nat.ltb_irrefl. replace (k <? k + 1) with true by (symmetry; apply Nat.ltb_lt; lia). reflexivity.
      * cbn [length]. destruct (Nat.ltb_spec u k), (Nat.ltb_spec u (k + 1)); cbn [b2n]; lia.
    + intro u. rewrite <- D. f_equal. unfold sent, sk. cbn [set_cpc set_cl push acquire set_hold set_sk w_sk].
      destruct (Nat.lt_ge_cases u (S (length (w_sk s)))) as [L|L].
      * rewrite get_app_last by exact L. destruct (Nat.eqb_spec u (length (w_sk s))) as [EQ|NE]; [|reflexivity]. subst u. rewrite (get_out no_sink (w_sk s)) by lia. reflexivity.
      * rewrite !get_out; [reflexivity|lia|rewrite app_length; cbn [length]; lia].
  - apply same_B with (s := s); auto. now apply same_eq.
  - apply same_B with (s := s); auto. now apply same_eq.
  - apply same_B with (s := s); auto. now apply same_push with (t := TClear i).
  - apply same_B with (s := s); auto. now apply same_eq.
  - apply same_B with (s := s); auto. now apply same_eq.
  - apply same_B with (s := s); auto. now apply same_eq.
  - apply same_B with (s := s); auto. eapply same_rel; eauto.
  - apply same_B with (s := s); auto. now apply same_eq.
  - apply same_B with (s := s); auto. now apply same_eq.
  - apply same_B with (s := s); auto. now apply same_eq.
Qed.
Lemma init_B : forall n, invB (w_init n).
Proof.
  intro n. constructor; cbn; auto; try constructor; try tauto; try discriminate.
  intro k. unfold sent, sk. cbn [w_init w_sk]. rewrite get_out by (cbn; lia). reflexivity.
Qed.
Theorem reach_B : forall n s, wreach n s -> invB s.
Proof.
  intros n s R. assert (H : invA s /\ invB s); [|tauto]. apply (steps_ind (fun s => invA s /\ invB s) (w_init n)); auto.
  - split; [apply init_A|apply init_B].
  - intros t t' P M [IA IB]. split; [eapply move_A; eauto|eapply move_B; eauto].
Qed.
