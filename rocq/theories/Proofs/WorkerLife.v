From Coq Require Import List Arith Bool Lia.
From Verif.Base Require Import Threads.
From Verif.Model Require Import Worker.
From Verif.Spec Require Import WorkerSpec.
Import ListNotations.

(** ** the steps, one by one *)
Inductive rel (s : wstate) (i k : nat) (next : cpc) : wstate -> Prop :=
| r_more : refs (set_hold s i (remove1 k (c_hold (cl s i)))) k <> 0 ->
    rel s i k next (set_cpc (set_hold s i (remove1 k (c_hold (cl s i)))) i next)
| r_last : refs (set_hold s i (remove1 k (c_hold (cl s i)))) k = 0 ->
    rel s i k next (set_cpc (push_sink (set_hold s i (remove1 k (c_hold (cl s i)))) k JDone) i (CJoin k next)).
Lemma release_rel : forall s i k next, rel s i k next (release s i k next).
Proof.
  intros. unfold release. destruct (Nat.eqb_spec (refs (set_hold s i (remove1 k (c_hold (cl s i)))) k) 0); now constructor.
Qed.

Definition save_err (s : wstate) (m : msg) : wstate := set_err s (w_err s ++ match w_sinks s with [] => [m] | _ => [] end).

Inductive move (s : wstate) : wstate -> Prop :=
(* the worker *)
| m_save : forall m q, w_pc s = WLoop -> w_q s = TSave m :: q -> move s (set_pc (save_err (pop s (TSave m) q) m) (WSend m (w_sinks s) [] KLoop))
| m_fatal : forall m q, w_pc s = WLoop -> w_q s = TFatal m :: q ->
    move s (set_pc (set_sinks (set_active (pop s (TFatal m) q) false) []) (WSend m (w_sinks s) (w_sinks s) KKill))
| m_add : forall i k q, w_pc s = WLoop -> w_q s = TAdd i k :: q -> move s (set_pc (set_sinks (pop s (TAdd i k) q) (w_sinks s ++ [k])) (WTok i [k]))
| m_gone : forall i k q, w_pc s = WLoop -> w_q s = TRemove i k :: q -> refs (pop s (TRemove i k) q) k = 0 -> move s (set_pc (pop s (TRemove i k) q) (WTok i []))
| m_remove : forall i k q, w_pc s = WLoop -> w_q s = TRemove i k :: q -> refs (pop s (TRemove i k) q) k <> 0 ->
    move s (set_pc (set_sinks (pop s (TRemove i k) q) (remove Nat.eq_dec k (w_sinks s))) (WDrop (repeat k (cnt k (w_sinks s)) ++ [k]) (KTok i)))
| m_clear : forall i q, w_pc s = WLoop -> w_q s = TClear i :: q -> move s (set_pc (set_sinks (pop s (TClear i) q) []) (WDrop (w_sinks s) (KTok i)))
| m_done : forall q, w_pc s = WLoop -> w_q s = TDone :: q -> move s (set_pc (pop s TDone q) WExit)
| m_send : forall m k todo drop q, w_pc s = WSend m (k :: todo) drop q -> move s (set_pc (push_sink s k (JMsg m)) (WSend m todo drop q))
| m_sent : forall m drop q, w_pc s = WSend m [] drop q -> move s (set_pc s (WDrop drop q))
| m_drop : forall k l q, w_pc s = WDrop (k :: l) q -> refs (set_pc s (WDrop l q)) k <> 0 -> move s (set_pc s (WDrop l q))
| m_droplast : forall k l q, w_pc s = WDrop (k :: l) q -> refs (set_pc s (WDrop l q)) k = 0 ->
    move s (set_pc (push_sink (set_pc s (WDrop l q)) k JDone) (WJoin k l q))
| m_joined : forall k l q, w_pc s = WJoin k l q -> k_exit (sk s k) = true -> move s (set_pc (destroy s k) (WDrop l q))
| m_loop : w_pc s = WDrop [] KLoop -> move s (set_pc s WLoop)
| m_totok : forall i, w_pc s = WDrop [] (KTok i) -> move s (set_pc s (WTok i []))
| m_kill : w_pc s = WDrop [] KKill -> move s (set_proc s PKilled)
| m_tok : forall i f, w_pc s = WTok i f -> move s (set_pc (set_cpc s i (signal (c_pc (cl s i)))) (WDrop f KLoop))
(* sinks *)
| m_spop : forall k j q, k_run (sk s k) = None -> k_q (sk s k) = j :: q -> k_done (sk s k) = false ->
    move s (set_sk s (upd (w_sk s) k (mkSink q (Some j) (k_done (sk s k)) (k_exit (sk s k)) (k_got (sk s k)) (k_dead (sk s k)))))
| m_smsg : forall k m, k_run (sk s k) = Some (JMsg m) ->
    move s (set_sk s (upd (w_sk s) k (mkSink (k_q (sk s k)) None (k_done (sk s k)) (k_exit (sk s k)) (k_got (sk s k) ++ [JMsg m]) (k_dead (sk s k)))))
| m_sthrow : forall k m, k_run (sk s k) = Some (JMsg m) ->
    move s (set_proc (set_sk s (upd (w_sk s) k (mkSink (k_q (sk s k)) None (k_done (sk s k)) (k_exit (sk s k)) (k_got (sk s k) ++ [JMsg m]) (k_dead (sk s k))))) PTerm)
| m_scall : forall k c o, k_run (sk s k) = Some (JCall c) ->
    move s (set_prom (set_sk s (upd (w_sk s) k (mkSink (k_q (sk s k)) None (k_done (sk s k)) (k_exit (sk s k)) (k_got (sk s k) ++ [JCall c]) (k_dead (sk s k)))))
                     (upd (w_prom s) c (fst (get (0, BadWeak) (w_prom s) c), Ready o)))
| m_sdone : forall k, k_run (sk s k) = Some JDone ->
    move s (set_sk s (upd (w_sk s) k (mkSink (k_q (sk s k)) None true (k_exit (sk s k)) (k_got (sk s k) ++ [JDone]) (k_dead (sk s k)))))
| m_sexit : forall k, k_done (sk s k) = true -> k_exit (sk s k) = false ->
    move s (set_sk s (upd (w_sk s) k (mkSink (k_q (sk s k)) (k_run (sk s k)) true true (k_got (sk s k)) (k_dead (sk s k)))))
(* clients in the middle of something *)
| m_log1 : forall i m, c_pc (cl s i) = CLog1 m -> w_active s = true -> move s (set_cpc s i (CLog2 m))
| m_log1ub : forall i m, c_pc (cl s i) = CLog1 m -> w_active s = false -> move s (set_proc s PUb)
| m_log2 : forall i m, c_pc (cl s i) = CLog2 m -> w_bg s = true -> move s (set_cpc (push s (TSave m)) i CIdle)
| m_log2ub : forall i m, c_pc (cl s i) = CLog2 m -> w_bg s = false -> move s (set_proc s PUb)
| m_fat1 : forall i m, c_pc (cl s i) = CFat1 m -> w_active s = true -> move s (set_cpc s i (CFat2 m))
| m_fat1ub : forall i m, c_pc (cl s i) = CFat1 m -> w_active s = false -> move s (set_proc s PUb)
| m_fat2 : forall i m, c_pc (cl s i) = CFat2 m -> w_bg s = true -> move s (set_cpc (push s (TFatal m)) i CFatBlock)
| m_fat2ub : forall i m, c_pc (cl s i) = CFat2 m -> w_bg s = false -> move s (set_proc s PUb)
| m_added : forall i k s', c_pc (cl s i) = CAddR k -> rel (set_handles s (w_handles s ++ [k])) i k CIdle s' -> move s s'
| m_rm1 : forall i k s', c_pc (cl s i) = CRm1 k -> rel s i k (CRm2 k) s' -> move s s'
| m_rm2 : forall i k, c_pc (cl s i) = CRm2 k -> move s (set_cpc (push s (TRemove i k)) i (CRmW k (entered s)))
| m_rmr : forall i k h, c_pc (cl s i) = CRmR k h -> move s (set_cpc s i CIdle)
| m_allr : forall i, c_pc (cl s i) = CAllR -> move s (set_cpc s i CIdle)
| m_call : forall i k c, c_pc (cl s i) = CCall k c -> move s (set_cpc (push_sink s k (JCall c)) i (CCallR k))
| m_callr : forall i k s', c_pc (cl s i) = CCallR k -> rel s i k CIdle s' -> move s s'
| m_cjoined : forall i k next, c_pc (cl s i) = CJoin k next -> k_exit (sk s k) = true -> move s (set_cpc (destroy s k) i next)
| m_d0 : forall i h, c_pc (cl s i) = D0 h -> move s (set_cpc (push s (TClear i)) i (DClrW h))
| m_dclr : forall i h, c_pc (cl s i) = DClrR h -> move s (set_cpc (set_bg (push s TDone) false) i (DJoin h))
| m_djoin : forall i h, c_pc (cl s i) = DJoin h -> w_pc s = WExit -> move s (set_cpc s i (DDone h))
(* new requests *)
| m_ilog : forall i, idle s i = true -> w_active s = true -> move s (count_log s i (CLog1 (i, c_n (cl s i))))
| m_ilog0 : forall i, idle s i = true -> w_active s = false -> move s (count_log s i CIdle)
| m_ifat : forall i, idle s i = true -> w_active s = true -> move s (count_log s i (CFat1 (i, c_n (cl s i))))
| m_ifat0 : forall i, idle s i = true -> w_active s = false -> move s (set_proc (count_log s i CIdle) PExit)
| m_iadd : forall i, idle s i = true -> dtor_begun s = false ->
    move s (set_cpc (push (acquire (set_sk s (w_sk s ++ [new_sink])) i (length (w_sk s))) (TAdd i (length (w_sk s)))) i (CAddW (length (w_sk s))))
| m_irm0 : forall i k, idle s i = true -> dtor_begun s = false -> has k (w_handles s) = true -> refs s k = 0 -> move s (set_cpc s i (CRm2 k))
| m_irm : forall i k, idle s i = true -> dtor_begun s = false -> has k (w_handles s) = true -> refs s k <> 0 -> move s (set_cpc (acquire s i k) i (CRm1 k))
| m_iall : forall i, idle s i = true -> dtor_begun s = false -> move s (set_cpc (push s (TClear i)) i CAllW)
| m_icall0 : forall i k, idle s i = true -> has k (w_handles s) = true -> refs s k = 0 -> move s (set_prom s (w_prom s ++ [(k, BadWeak)]))
| m_icall : forall i k, idle s i = true -> has k (w_handles s) = true -> refs s k <> 0 ->
    move s (set_cpc (acquire (set_prom s (w_prom s ++ [(k, Pending)])) i k) i (CCall k (length (w_prom s))))
| m_ilock : forall i k, idle s i = true -> has k (w_handles s) = true -> refs s k <> 0 -> move s (acquire s i k)
| m_irel : forall i k s', idle s i = true -> has k (c_hold (cl s i)) = true -> rel s i k CIdle s' -> move s s'
| m_idtor : forall i, idle s i = true -> existsb (fun c => managing (c_pc c)) (w_cl s) = false -> move s (set_cpc (set_active s false) i (D0 (entered s)))
| m_shut : move s (set_active s false)
| m_init : w_active s = false -> dtor_begun s = false -> move s (set_active s true).

Lemma wstep_move : forall s a s', wstep s a = Some s' -> w_proc s = PRun /\ move s s'.
Proof.
  intros s a s' E. unfold wstep in E. destruct (w_proc s) eqn:P; try discriminate. split; [reflexivity|].
  destruct a as [|k|k o|k|i|i|i|i|i k|i|i k|i k|i k|i| |].
  - unfold work in E. destruct (w_pc s) as [|m todo drop q|l q|k l q|i f|] eqn:W.
    + destruct (w_q s) as [|t q] eqn:Q; [discriminate|]. injection E as <-. destruct t as [m|m|i k|i k|i|].
      * now apply m_save.
      * now apply m_fatal.
      * now apply m_add.
      * cbn [pop w_sinks]. destruct (Nat.eqb_spec (refs (pop s (TRemove i k) q) k) 0); [now apply m_gone|now apply m_remove].
      * now apply m_clear.
      * now apply m_done.
    + destruct todo as [|k todo]; injection E as <-; [eapply m_sent; eauto|eapply m_send; eauto].
    + destruct l as [|k l].
      * destruct q; injection E as <-; [now apply m_loop|now apply m_totok|now apply m_kill].
      * injection E as <-. destruct (Nat.eqb_spec (refs (set_pc s (WDrop l q)) k) 0); [eapply m_droplast; eauto|eapply m_drop; eauto].
    + destruct (k_exit (sk s k)) eqn:X; [|discriminate]. injection E as <-. eapply m_joined; eauto.
    + injection E as <-. eapply m_tok; eauto.
    + discriminate.
  - unfold sink_pop in E. destruct (k_run (sk s k)) eqn:R; [discriminate|]. destruct (k_q (sk s k)) as [|j q] eqn:Q; [discriminate|].
    destruct (k_done (sk s k)) eqn:D; [discriminate|]. injection E as <-. rewrite <- D. now apply m_spop.
  - unfold sink_end in E. destruct (k_run (sk s k)) as [[m|c|]|] eqn:R; [..|discriminate]; injection E as <-.
    + destruct o; [now apply m_smsg|now apply m_sthrow].
    + now apply m_scall.
    + now apply m_sdone.
  - unfold sink_exit in E. destruct (k_done (sk s k)) eqn:D; [|discriminate]. destruct (k_exit (sk s k)) eqn:X; [discriminate|]. injection E as <-. now apply m_sexit.
  - unfold go in E. destruct (c_pc (cl s i)) eqn:C; try discriminate.
    + injection E as <-. destruct (w_active s) eqn:A; [eapply m_log1; eauto|eapply m_log1ub; eauto].
    + injection E as <-. destruct (w_bg s) eqn:A; [eapply m_log2; eauto|eapply m_log2ub; eauto].
    + injection E as <-. destruct (w_active s) eqn:A; [eapply m_fat1; eauto|eapply m_fat1ub; eauto].
    + injection E as <-. destruct (w_bg s) eqn:A; [eapply m_fat2; eauto|eapply m_fat2ub; eauto].
    + injection E as <-. eapply m_added; eauto. apply release_rel.
    + injection E as <-. eapply m_rm1; eauto. apply release_rel.
    + injection E as <-. eapply m_rm2; eauto.
    + injection E as <-. eapply m_rmr; eauto.
    + injection E as <-. eapply m_allr; eauto.
    + injection E as <-. eapply m_call; eauto.
    + injection E as <-. eapply m_callr; eauto. apply release_rel.
    + destruct (k_exit (sk s k)) eqn:X; [|discriminate]. injection E as <-. eapply m_cjoined; eauto.
    + injection E as <-. eapply m_d0; eauto.
    + injection E as <-. eapply m_dclr; eauto.
    + destruct (w_pc s) eqn:W; try discriminate. injection E as <-. eapply m_djoin; eauto.
  - destruct (idle s i) eqn:ID; [|discriminate]. injection E as <-. destruct (w_active s) eqn:A; [now apply m_ilog|now apply m_ilog0].
  - destruct (idle s i) eqn:ID; [|discriminate]. injection E as <-. destruct (w_active s) eqn:A; [now apply m_ifat|now apply m_ifat0].
  - destruct (idle s i) eqn:ID; [|discriminate]. destruct (dtor_begun s) eqn:D; [discriminate|]. injection E as <-. now apply m_iadd.
  - destruct (idle s i) eqn:ID; [|discriminate]. destruct (dtor_begun s) eqn:D; [discriminate|]. destruct (has k (w_handles s)) eqn:H; [|discriminate]. injection E as <-.
    destruct (Nat.eqb_spec (refs s k) 0); [now apply m_irm0|now apply m_irm].
  - destruct (idle s i) eqn:ID; [|discriminate]. destruct (dtor_begun s) eqn:D; [discriminate|]. injection E as <-. now apply m_iall.
  - destruct (idle s i) eqn:ID; [|discriminate]. destruct (has k (w_handles s)) eqn:H; [|discriminate]. injection E as <-.
    destruct (Nat.eqb_spec (refs s k) 0); [eapply m_icall0; eauto|now apply m_icall].
  - destruct (idle s i) eqn:ID; [|discriminate]. destruct (has k (w_handles s)) eqn:H; [|discriminate]. destruct (Nat.eqb_spec (refs s k) 0); [discriminate|]. injection E as <-. now apply m_ilock.
  - destruct (idle s i) eqn:ID; [|discriminate]. destruct (has k (c_hold (cl s i))) eqn:H; [|discriminate]. injection E as <-. eapply m_irel; eauto. apply release_rel.
  - destruct (idle s i) eqn:ID; [|discriminate]. destruct (existsb (fun c => managing (c_pc c)) (w_cl s)) eqn:D; [discriminate|]. injection E as <-. now apply m_idtor.
  - injection E as <-. apply m_shut.
  - destruct (w_active s) eqn:A; [discriminate|]. destruct (dtor_begun s) eqn:D; [discriminate|]. injection E as <-. now apply m_init.
Qed.

(** ** the life of sinks: sinks, number of owners, number of threads in the destructor *)
Definition has_done (l : list sjob) : bool := existsb (fun j => match j with JDone => true | _ => false end) l.
Lemma has_done_app : forall a b, has_done (a ++ b) = has_done a || has_done b.
Proof. intros. apply existsb_app. Qed.

Record life1 (x : sink) (r j : nat) : Prop := mkLife {
  f_alive : r = 0 <-> has_done (all x) = true;
  f_last : has_done (all x) = true -> exists l, all x = l ++ [JDone] /\ has_done l = false;
  f_join : j + b2n (k_dead x) = b2n (has_done (all x));
  f_done : k_done x = has_done (k_got x);
  f_exit : k_exit x = true -> k_done x = true;
  f_dead : k_dead x = true -> k_exit x = true
}.
Definition life (ks : list sink) (R J : nat -> nat) : Prop :=
  (forall k, k < length ks -> life1 (get no_sink ks k) (R k) (J k)) /\ (forall k, length ks <= k -> R k = 0 /\ J k = 0).

Lemma life_same : forall ks R J R' J', life ks R J -> (forall k, R' k = 0 <-> R k = 0) -> (forall k, J' k = J k) -> life ks R' J'.
Proof.
  intros ks R J R' J' [L1 L2] HR HJ. split.
  - intros k L. destruct (L1 k L) as [a b c d e f]. constructor; auto; [rewrite HR; exact a|rewrite HJ; exact c].
  - intros k L. destruct (L2 k L) as [a b]. rewrite HJ, HR. auto.
Qed.
Lemma life_upd : forall ks R J R' J' k x, life ks R J -> k < length ks -> life1 x (R' k) (J' k) ->
  (forall u, u <> k -> (R' u = 0 <-> R u = 0)) -> (forall u, u <> k -> J' u = J u) -> life (upd ks k x) R' J'.
Proof.
  intros ks R J R' J' k x [L1 L2] L LX HR HJ. split; rewrite upd_length.
  - intros u Lu. rewrite get_upd by exact L. destruct (Nat.eqb_spec u k) as [->|N]; [exact LX|].
    destruct (L1 u Lu) as [a b c d e f]. constructor; auto; [rewrite HR by exact N; exact a|rewrite HJ by exact N; exact c].
  - intros u Lu. assert (N : u <> k) by lia. destruct (L2 u Lu) as [a b]. rewrite HJ, HR by exact N. auto.
Qed.
Lemma life_lt : forall ks R J k, life ks R J -> R k <> 0 -> k < length ks.
Proof. intros ks R J k [L1 L2] H. destruct (Nat.lt_ge_cases k (length ks)) as [L|L]; auto. destruct (L2 k L). contradiction. Qed.
Lemma life_ltJ : forall ks R J k, life ks R J -> J k <> 0 -> k < length ks.
Proof. intros ks R J k [L1 L2] H. destruct (Nat.lt_ge_cases k (length ks)) as [L|L]; auto. destruct (L2 k L). contradiction. Qed.
Lemma life_live : forall ks R J k, life ks R J -> R k <> 0 -> has_done (all (get no_sink ks k)) = false /\ k_dead (get no_sink ks k) = false /\ J k = 0.
Proof.
  intros ks R J k L H. destruct (proj1 L k (life_lt _ _ _ _ L H)) as [a b c d e f].
  assert (N : has_done (all (get no_sink ks k)) = false) by (apply not_true_is_false; intro E; apply H, a; exact E).
  rewrite N in c. cbn [b2n] in c. destruct (k_dead (get no_sink ks k)); cbn [b2n] in c; auto; [lia|]. repeat split; auto. lia.
Qed.

Lemma all_push : forall x q, all (with_kq x (k_q x ++ q)) = all x ++ q.
Proof. intros x q. unfold all, with_kq. cbn. now rewrite !app_assoc. Qed.

(** a callback is sent to a sink that somebody owns *)
Lemma life_push : forall ks R J k j, life ks R J -> R k <> 0 -> j <> JDone ->
  life (upd ks k (with_kq (get no_sink ks k) (k_q (get no_sink ks k) ++ [j]))) R J.
Proof.
  intros ks R J k j L H NJ. destruct (life_live _ _ _ _ L H) as (A & D & Z). pose proof (life_lt _ _ _ _ L H) as LT.
  eapply life_upd; eauto; try tauto. destruct (proj1 L k LT) as [a b c d e f].
  assert (E : has_done (all (with_kq (get no_sink ks k) (k_q (get no_sink ks k) ++ [j]))) = false)
    by (rewrite all_push, has_done_app, A; destruct j; auto; congruence).
  constructor; cbn [with_kq k_done k_exit k_dead k_got]; auto; rewrite ?E; auto.
  - split; [contradiction|discriminate].
  - discriminate.
  - rewrite A in c. exact c.
Qed.
(** the last owner lets go *)
Lemma life_lastpush : forall ks R J R' J' k, life ks R J -> R k <> 0 -> R' k = 0 -> J' k = S (J k) ->
  (forall u, u <> k -> (R' u = 0 <-> R u = 0)) -> (forall u, u <> k -> J' u = J u) ->
  life (upd ks k (with_kq (get no_sink ks k) (k_q (get no_sink ks k) ++ [JDone]))) R' J'.
Proof.
  intros ks R J R' J' k L H H' HJ HR HJ'. destruct (life_live _ _ _ _ L H) as (A & D & Z). pose proof (life_lt _ _ _ _ L H) as LT.
  eapply life_upd; eauto. destruct (proj1 L k LT) as [a b c d e f].
  assert (E : has_done (all (with_kq (get no_sink ks k) (k_q (get no_sink ks k) ++ [JDone]))) = true) by (rewrite all_push, has_done_app, A; reflexivity).
  constructor; cbn [with_kq k_done k_exit k_dead k_got]; auto; rewrite ?E; auto.
  - split; auto.
  - intros _. exists (all (get no_sink ks k)). split; [apply all_push|exact A].
  - rewrite HJ, Z, D. reflexivity.
Qed.
(** the destructor finishes *)
Lemma life_destroy : forall ks R J J' k, life ks R J -> J k = S (J' k) -> (forall u, u <> k -> J' u = J u) -> k_exit (get no_sink ks k) = true ->
  life (upd ks k (with_dead (get no_sink ks k))) R J' /\ k_dead (get no_sink ks k) = false.
Proof.
  intros ks R J J' k L HJ HO X. assert (LT : k < length ks) by (eapply life_ltJ; eauto; lia). destruct (proj1 L k LT) as [a b c d e f].
  assert (D : k_dead (get no_sink ks k) = false) by (destruct (k_dead (get no_sink ks k)), (has_done (all (get no_sink ks k))); cbn [b2n] in c; auto; lia).
  split; [|exact D]. eapply life_upd; eauto; try tauto.
  assert (AL : all (with_dead (get no_sink ks k)) = all (get no_sink ks k)) by reflexivity.
  rewrite D in c. cbn [b2n] in c. constructor; cbn [with_dead k_done k_exit k_dead k_got]; rewrite ?AL; auto. cbn [b2n]. lia.
Qed.
(** the sink's own steps *)
Lemma life_local : forall ks R J k x', life ks R J -> k < length ks -> all x' = all (get no_sink ks k) -> k_dead x' = k_dead (get no_sink ks k) ->
  k_done x' = has_done (k_got x') -> (k_exit x' = true -> k_done x' = true) -> (k_dead x' = true -> k_exit x' = true) ->
  life (upd ks k x') R J.
Proof.
  intros ks R J k x' L LT AL D H1 H2 H3. eapply life_upd; eauto; try tauto. destruct (proj1 L k LT) as [a b c d e f].
  constructor; rewrite ?AL, ?D; auto. now rewrite <- D.
Qed.
Lemma get_app_last : forall A (d x : A) l k, k < S (length l) -> get d (l ++ [x]) k = if Nat.eqb k (length l) then x else get d l k.
Proof.
  intros A d x l k L. unfold get. destruct (Nat.eqb_spec k (length l)) as [->|N].
  - rewrite app_nth2, Nat.sub_diag by lia. reflexivity.
  - apply app_nth1. lia.
Qed.
Lemma life_new : forall ks R J R', life ks R J -> R' (length ks) <> 0 -> (forall u, u <> length ks -> (R' u = 0 <-> R u = 0)) -> life (ks ++ [new_sink]) R' J.
Proof.
  intros ks R J R' [L1 L2] N HR. split; rewrite app_length; cbn [length].
  - intros k L. rewrite get_app_last by lia. destruct (Nat.eqb_spec k (length ks)) as [->|NE].
    + destruct (L2 (length ks) (Nat.le_refl _)) as [_ Z]. constructor; cbn; auto; try discriminate. split; [contradiction|discriminate]. lia.
    + destruct (L1 k ltac:(lia)) as [a b c d e f]. constructor; auto. rewrite HR by exact NE. exact a.
  - intros k L. destruct (L2 k ltac:(lia)) as [a b]. rewrite HR by lia. auto.
Qed.

(** ** clients *)
Lemma cl_lt : forall s i, c_pc (cl s i) <> CIdle -> i < length (w_cl s).
Proof. intros s i H. apply (get_in new_client). unfold cl in H. intro E. rewrite E in H. now apply H. Qed.
Lemma idle_spec : forall s i, idle s i = true -> i < length (w_cl s) /\ c_pc (cl s i) = CIdle.
Proof.
  intros s i H. unfold idle in H. apply andb_prop in H as [H1 H2]. apply Nat.ltb_lt in H1. split; auto. now destruct (c_pc (cl s i)).
Qed.
Lemma upd_out : forall A (l : list A) t x, length l <= t -> upd l t x = l.
Proof. intros A l. induction l as [|y l IH]; intros [|t] x H; cbn in *; auto; [lia|]. now rewrite IH by lia. Qed.
Lemma cl_set : forall s i c j, i < length (w_cl s) -> cl (set_cl s i c) j = if Nat.eqb j i then c else cl s j.
Proof. intros. unfold cl. cbn [set_cl w_cl]. now apply get_upd. Qed.
Lemma cl_all : forall (Q : client -> Prop) s i c, (forall j, Q (cl s j)) -> Q c -> forall j, Q (cl (set_cl s i c) j).
Proof.
  intros Q s i c H C j. destruct (Nat.lt_ge_cases i (length (w_cl s))) as [L|L].
  - rewrite cl_set by exact L. destruct (Nat.eqb j i); auto.
  - unfold cl. cbn [set_cl w_cl]. rewrite upd_out by exact L. apply H.
Qed.

(** ** owners *)
Lemma cnt_app : forall k a b, cnt k (a ++ b) = cnt k a + cnt k b.
Proof. intros. apply count_occ_app. Qed.
Lemma cnt_cons : forall k x l, cnt k (x :: l) = b2n (Nat.eqb x k) + cnt k l.
Proof. intros. unfold cnt. cbn. destruct (Nat.eq_dec x k) as [->|N]; [now rewrite Nat.eqb_refl|]. now apply Nat.eqb_neq in N as ->. Qed.
Lemma cnt_In : forall k l, In k l <-> cnt k l <> 0.
Proof. intros k l. unfold cnt. rewrite (count_occ_In Nat.eq_dec). lia. Qed.
Lemma cnt_remove1 : forall k u l, In k l -> cnt u (remove1 k l) + b2n (Nat.eqb k u) = cnt u l.
Proof.
  intros k u. induction l as [|x l IH]; intro H; [destruct H|]. cbn [remove1]. rewrite (cnt_cons u x l). destruct (Nat.eqb_spec x k) as [->|N]; [lia|].
  destruct H as [H|H]; [congruence|]. rewrite cnt_cons. specialize (IH H). lia.
Qed.
Lemma cnt_remove : forall k u l, cnt u (remove Nat.eq_dec k l) = if Nat.eqb k u then 0 else cnt u l.
Proof.
  intros k u l. induction l as [|x l IH]; [now destruct (Nat.eqb k u)|]. cbn [remove]. rewrite (cnt_cons u x l).
  destruct (Nat.eq_dec k x) as [->|N]; [rewrite IH; now destruct (Nat.eqb x u)|]. rewrite cnt_cons, IH.
  destruct (Nat.eqb_spec k u) as [->|NE]; [|reflexivity]. destruct (Nat.eqb_spec x u); [congruence|reflexivity].
Qed.
Lemma cnt_repeat : forall k u n, cnt u (repeat k n) = if Nat.eqb k u then n else 0.
Proof.
  intros k u n. induction n as [|n IH]; [now destruct (Nat.eqb k u)|]. cbn [repeat]. rewrite cnt_cons, IH. destruct (Nat.eqb k u); reflexivity.
Qed.
Lemma has_In : forall k l, has k l = true -> In k l.
Proof. intros k l H. unfold has in H. apply existsb_exists in H as (x & I & E). apply Nat.eqb_eq in E as ->. exact I. Qed.

Lemma refs_set_cl : forall s i c k, i < length (w_cl s) -> refs (set_cl s i c) k + cnt k (c_hold (cl s i)) = refs s k + cnt k (c_hold c).
Proof.
  intros s i c k L. unfold refs. cbn [set_cl w_sinks w_q w_pc w_cl]. pose proof (weigh_upd new_client (fun c => cnt k (c_hold c)) (w_cl s) i c L) as W.
  cbn beta in W. change (get new_client (w_cl s) i) with (cl s i) in W. lia.
Qed.
Lemma refs_set_cpc : forall s i p k, refs (set_cpc s i p) k = refs s k.
Proof.
  intros s i p k. destruct (Nat.lt_ge_cases i (length (w_cl s))) as [L|L].
  - pose proof (refs_set_cl s i (mkClient p (c_hold (cl s i)) (c_n (cl s i))) k L) as H. cbn [c_hold] in H. unfold set_cpc. lia.
  - unfold refs, set_cpc. cbn [set_cl w_sinks w_q w_pc w_cl]. now rewrite upd_out by exact L.
Qed.
Lemma refs_hold : forall s i k, i < length (w_cl s) -> In k (c_hold (cl s i)) -> refs s k <> 0.
Proof.
  intros s i k L H. apply cnt_In in H. pose proof (weigh_get new_client (fun c => cnt k (c_hold c)) (w_cl s) i L) as W. cbn beta in W.
  change (get new_client (w_cl s) i) with (cl s i) in W. unfold refs. lia.
Qed.

(** threads in the destructor of k *)
Definition wjoin (k : nat) (p : wpc) : bool := match p with WJoin u _ _ => Nat.eqb u k | _ => false end.
Definition cjoin (k : nat) (c : client) : bool := match c_pc c with CJoin u _ => Nat.eqb u k | _ => false end.
Definition jn (s : wstate) (k : nat) : nat := b2n (wjoin k (w_pc s)) + count (cjoin k) (w_cl s).
Lemma jn_set_cl : forall s i c k, i < length (w_cl s) -> jn (set_cl s i c) k + b2n (cjoin k (cl s i)) = jn s k + b2n (cjoin k c).
Proof.
  intros s i c k L. unfold jn. cbn [set_cl w_pc w_cl]. pose proof (count_upd new_client (cjoin k) (w_cl s) i c L) as W.
  change (get new_client (w_cl s) i) with (cl s i) in W. lia.
Qed.
Lemma jn_out : forall s i c k, length (w_cl s) <= i -> jn (set_cl s i c) k = jn s k.
Proof. intros. unfold jn. cbn [set_cl w_pc w_cl]. now rewrite upd_out. Qed.

(** ** the first invariant *)
Definition pcok (c : client) : Prop :=
  match c_pc c with
  | CAddW k | CAddR k | CRm1 k | CCall k _ | CCallR k => In k (c_hold c)
  | CJoin k next => next = CIdle \/ next = CRm2 k
  | _ => True
  end.
Definition sendok (s : wstate) : Prop :=
  match w_pc s with WSend m todo drop q => forall k, In k todo -> In k (w_sinks s ++ drop) | _ => True end.
Record invA (s : wstate) : Prop := mkA {
  a_life : life (w_sk s) (refs s) (jn s);
  a_cl : forall i, pcok (cl s i);
  a_send : sendok s;
  a_ub : w_sinkub s = false
}.
Lemma invA_same : forall s s', invA s -> w_sk s' = w_sk s -> w_sinkub s' = w_sinkub s -> (forall k, refs s' k = 0 <-> refs s k = 0) -> (forall k, jn s' k = jn s k) ->
  (forall j, pcok (cl s' j)) -> sendok s' -> invA s'.
Proof.
  intros s s' [L C S U] E1 E2 R J C' S'. constructor; auto; [|congruence]. rewrite E1. now apply life_same with (R := refs s) (J := jn s).
Qed.
Lemma invA_eq : forall s s', invA s -> w_sk s' = w_sk s -> w_sinkub s' = w_sinkub s -> w_sinks s' = w_sinks s -> flat_map task_refs (w_q s') = flat_map task_refs (w_q s) ->
  w_pc s' = w_pc s -> w_cl s' = w_cl s -> invA s'.
Proof.
  intros s s' I E1 E2 E3 E4 E5 E6. pose proof I as [L C S U]. eapply invA_same; eauto.
  - intro k. unfold refs. rewrite E3, E4, E5, E6. tauto.
  - intro k. unfold jn. now rewrite E5, E6.
  - intro j. unfold cl. rewrite E6. apply C.
  - unfold sendok. rewrite E3, E5. exact S.
Qed.
Definition nojoin (p : cpc) : Prop := match p with CJoin _ _ => False | _ => True end.
Lemma nojoin_c : forall p k h n, nojoin p -> cjoin k (mkClient p h n) = false.
Proof. intros p k h n H. destruct p; cbn in *; auto; contradiction. Qed.
Lemma nojoin_cl : forall s i k, nojoin (c_pc (cl s i)) -> cjoin k (cl s i) = false.
Proof. intros s i k H. unfold cjoin. destruct (c_pc (cl s i)); auto; contradiction. Qed.
Lemma invA_clj : forall s i c, invA s -> (forall k, cnt k (c_hold c) = cnt k (c_hold (cl s i))) -> pcok c -> (forall k, cjoin k c = cjoin k (cl s i)) -> invA (set_cl s i c).
Proof.
  intros s i c I H P N. pose proof I as [L C S U]. eapply invA_same; eauto.
  - intro k. destruct (Nat.lt_ge_cases i (length (w_cl s))) as [LI|LI].
    + pose proof (refs_set_cl s i c k LI) as R. rewrite H in R. lia.
    + unfold refs. cbn [set_cl w_sinks w_q w_pc w_cl]. rewrite upd_out by exact LI. tauto.
  - intro k. destruct (Nat.lt_ge_cases i (length (w_cl s))) as [LI|LI]; [|now apply jn_out].
    pose proof (jn_set_cl s i c k LI) as R. rewrite N in R. lia.
  - now apply cl_all.
Qed.
Lemma invA_cl : forall s i c, invA s -> (forall k, cnt k (c_hold c) = cnt k (c_hold (cl s i))) -> pcok c -> nojoin (c_pc (cl s i)) -> nojoin (c_pc c) -> invA (set_cl s i c).
Proof.
  intros s i c I H P N N'. apply invA_clj; auto. intro k. rewrite nojoin_cl by exact N. destruct c as [p h n]. now rewrite nojoin_c.
Qed.
Lemma invA_cpc : forall s i p, invA s -> pcok (mkClient p (c_hold (cl s i)) (c_n (cl s i))) -> nojoin (c_pc (cl s i)) -> nojoin p -> invA (set_cpc s i p).
Proof. intros. unfold set_cpc. apply invA_cl; auto. Qed.
Lemma invA_push : forall s t, invA s -> task_refs t = [] -> invA (push s t).
Proof.
  intros s t I E. eapply invA_eq; eauto. cbn [push w_q]. rewrite flat_map_app. cbn [flat_map]. now rewrite E, !app_nil_r.
Qed.
Lemma invA_acquire : forall s i k, invA s -> refs s k <> 0 -> i < length (w_cl s) -> invA (acquire s i k).
Proof.
  intros s i k I R L. pose proof I as [LF C S U]. unfold acquire, set_hold. eapply invA_same; eauto.
  - intro u. pose proof (refs_set_cl s i (mkClient (c_pc (cl s i)) (k :: c_hold (cl s i)) (c_n (cl s i))) u L) as E. cbn [c_hold] in E. rewrite cnt_cons in E.
    destruct (Nat.eqb_spec k u) as [->|N]; cbn [b2n] in E; lia.
  - intro u. pose proof (jn_set_cl s i (mkClient (c_pc (cl s i)) (k :: c_hold (cl s i)) (c_n (cl s i))) u L) as E. unfold cjoin in E. cbn [c_pc] in E. lia.
  - apply cl_all; auto. specialize (C i). unfold pcok in *. cbn [c_pc c_hold]. destruct (c_pc (cl s i)); auto; now right.
Qed.
Lemma invA_push_sink : forall s k j, invA s -> refs s k <> 0 -> j <> JDone ->
  invA (push_sink s k j) /\ push_sink s k j = set_sk s (upd (w_sk s) k (with_kq (sk s k) (k_q (sk s k) ++ [j]))).
Proof.
  intros s k j [L C S U] R N. pose proof (life_live _ _ _ _ L R) as (_ & D & _). unfold push_sink, sk. rewrite D. split; [|reflexivity].
  constructor; auto. apply (life_push (w_sk s) (refs s) (jn s) k j L R N).
Qed.
(** a client lets go of a sink *)
Lemma rel_len : forall s i k next s', rel s i k next s' -> length (w_cl s') = length (w_cl s).
Proof.
  intros s i k next s' [H|H]; unfold set_cpc, set_hold; cbn [set_cl w_cl]; rewrite ?upd_length; auto.
  unfold push_sink. destruct (k_dead _); cbn [set_sinkub set_sk set_cl w_cl]; now rewrite ?upd_length.
Qed.
Lemma invA_rel : forall s i k next s', invA s -> i < length (w_cl s) -> In k (c_hold (cl s i)) -> nojoin (c_pc (cl s i)) -> next = CIdle \/ next = CRm2 k -> rel s i k next s' -> invA s'.
Proof.
  intros s i k next s' I L H N NX E. pose proof I as [LF C S U]. pose proof (refs_hold s i k L H) as RH.
  set (c1 := mkClient (c_pc (cl s i)) (remove1 k (c_hold (cl s i))) (c_n (cl s i))).
  assert (R1 : forall u, refs (set_cl s i c1) u + b2n (Nat.eqb k u) = refs s u).
  { intro u. pose proof (refs_set_cl s i c1 u L) as Q. pose proof (cnt_remove1 k u (c_hold (cl s i)) H) as M. subst c1. cbn [c_hold] in *. lia. }
  assert (J1 : forall u, jn (set_cl s i c1) u = jn s u).
  { intro u. pose proof (jn_set_cl s i c1 u L) as Q. subst c1. unfold cjoin in Q. cbn [c_pc] in Q. lia. }
  assert (NN : nojoin next) by (destruct NX as [->| ->]; exact Logic.I).
  assert (CLI : cl (set_cl s i c1) i = c1) by (rewrite cl_set, Nat.eqb_refl by exact L; reflexivity).
  assert (L' : i < length (w_cl (set_cl s i c1))) by (cbn [set_cl w_cl]; now rewrite upd_length).
  destruct E as [E|E]; unfold set_hold in E |- *; change (mkClient (c_pc (cl s i)) (remove1 k (c_hold (cl s i))) (c_n (cl s i))) with c1 in E |- *.
  - eapply invA_same; eauto.
    + intro u. rewrite refs_set_cpc. specialize (R1 u). destruct (Nat.eqb_spec k u) as [EQ|NE]; cbn [b2n] in R1; [subst u; lia|]. replace (refs (set_cl s i c1) u) with (refs s u) by lia. tauto.
    + intro u. unfold set_cpc. rewrite CLI. pose proof (jn_set_cl (set_cl s i c1) i (mkClient next (c_hold c1) (c_n c1)) u L') as Q.
      rewrite CLI in Q. rewrite nojoin_c in Q by exact NN. subst c1. rewrite nojoin_c in Q by exact N. rewrite J1 in Q. cbn [c_hold c_n] in *. lia.
    + unfold set_cpc. rewrite CLI. intro j. rewrite cl_set by exact L'. destruct (Nat.eqb_spec j i) as [->|NE].
      * destruct NX as [->| ->]; exact Logic.I.
      * rewrite cl_set by exact L. apply Nat.eqb_neq in NE. rewrite NE. apply C.
  - pose proof (life_live _ _ _ _ LF RH) as (_ & D & _). unfold push_sink. change (sk (set_cl s i c1) k) with (sk s k). unfold sk at 1. rewrite D.
    set (s2 := set_sk (set_cl s i c1) (upd (w_sk (set_cl s i c1)) k (with_kq (sk s k) (k_q (sk s k) ++ [JDone])))).
    assert (CL2 : cl s2 i = c1) by exact CLI.
    assert (R2 : forall u, refs s2 u = refs (set_cl s i c1) u) by reflexivity.
    assert (J2 : forall u, jn s2 u = jn s u) by (intro u; rewrite <- J1; reflexivity).
    assert (J3 : forall u, jn (set_cpc s2 i (CJoin k next)) u = jn s u + b2n (Nat.eqb k u)).
    { intro u. pose proof (jn_set_cl s2 i (mkClient (CJoin k next) (c_hold c1) (c_n c1)) u L') as Q. rewrite CL2 in Q. subst c1. rewrite nojoin_c in Q by exact N.
      unfold cjoin in Q. cbn [c_pc b2n] in Q. rewrite J2 in Q. unfold set_cpc. rewrite CL2. cbn [c_hold c_n] in *. lia. }
    constructor; auto.
    + cbn [set_cpc set_cl w_sk]. unfold s2. cbn [set_sk w_sk set_cl]. eapply life_lastpush with (R := refs s) (J := jn s); eauto.
      * rewrite refs_set_cpc, R2. exact E.
      * rewrite J3, Nat.eqb_refl. cbn [b2n]. lia.
      * intros u NE. rewrite refs_set_cpc, R2. specialize (R1 u). destruct (Nat.eqb_spec k u); [congruence|]. cbn [b2n] in R1. replace (refs (set_cl s i c1) u) with (refs s u) by lia. tauto.
      * intros u NE. rewrite J3. destruct (Nat.eqb_spec k u); [congruence|]. cbn [b2n]. lia.
    + unfold set_cpc. rewrite CL2. intro j. rewrite cl_set by exact L'. destruct (Nat.eqb_spec j i) as [->|NE].
      * unfold pcok. cbn [c_pc]. destruct NX as [->| ->]; auto.
      * change (cl s2 j) with (cl (set_cl s i c1) j). rewrite cl_set by exact L. apply Nat.eqb_neq in NE. rewrite NE. apply C.
Qed.

Lemma flat_refs_cons : forall k t q, cnt k (flat_map task_refs (t :: q)) = cnt k (task_refs t) + cnt k (flat_map task_refs q).
Proof. intros. cbn [flat_map]. apply cnt_app. Qed.
(** the worker goes on: owners may move *)
Lemma invA_work : forall s s', invA s -> w_sk s' = w_sk s -> w_sinkub s' = w_sinkub s -> w_cl s' = w_cl s ->
  (forall k, cnt k (w_sinks s') + cnt k (flat_map task_refs (w_q s')) + cnt k (pc_refs (w_pc s')) = 0 <->
             cnt k (w_sinks s) + cnt k (flat_map task_refs (w_q s)) + cnt k (pc_refs (w_pc s)) = 0) ->
  (forall k, wjoin k (w_pc s') = wjoin k (w_pc s)) -> sendok s' -> invA s'.
Proof.
  intros s s' I E1 E2 E3 R J S'. pose proof I as [L C S U]. eapply invA_same; eauto.
  - intro k. specialize (R k). unfold refs. rewrite E3. lia.
  - intro k. unfold jn. now rewrite J, E3.
  - intro j. unfold cl. rewrite E3. apply C.
Qed.
Lemma sink_run_lt : forall s k j, k_run (sk s k) = Some j -> k < length (w_sk s).
Proof. intros s k j H. apply (get_in no_sink). unfold sk in H. intro E. rewrite E in H. discriminate. Qed.
Lemma sink_q_lt : forall s k j q, k_q (sk s k) = j :: q -> k < length (w_sk s).
Proof. intros s k j q H. apply (get_in no_sink). unfold sk in H. intro E. rewrite E in H. discriminate. Qed.
Lemma sink_exit_lt : forall s k, k_exit (sk s k) = false -> k < length (w_sk s).
Proof. intros s k H. apply (get_in no_sink). unfold sk in H. intro E. rewrite E in H. discriminate. Qed.
Lemma invA_local : forall s k x', invA s -> k < length (w_sk s) -> all x' = all (sk s k) -> k_dead x' = k_dead (sk s k) ->
  k_done x' = has_done (k_got x') -> (k_exit x' = true -> k_done x' = true) -> (k_dead x' = true -> k_exit x' = true) ->
  invA (set_sk s (upd (w_sk s) k x')).
Proof.
  intros s k x' [L C S U] LT A D H1 H2 H3. constructor; auto. cbn [set_sk w_sk]. now apply life_local with (R := refs s) (J := jn s).
Qed.
Lemma k_of : forall s k, invA s -> k < length (w_sk s) -> life1 (sk s k) (refs s k) (jn s k).
Proof. intros s k [L _ _ _] LT. exact (proj1 L k LT). Qed.

Lemma move_A : forall s s', move s s' -> invA s -> invA s'.
Proof.
  intros s s' M I. pose proof I as IA. destruct IA as [L C S U]. destruct M as
    [m q W Q|m q W Q|i k q W Q|i k q W Q R|i k q W Q R|i q W Q|q W Q
    |m k todo drop q W|m drop q W|k l q W R|k l q W R|k l q W X|W|i W|W|i f W
    |k j q R Q D|k m R|k m R|k c o R|k R|k D X
    |i m P A|i m P A|i m P A|i m P A|i m P A|i m P A|i m P A|i m P A
    |i k s' P E|i k s' P E|i k P|i k h P|i P|i k c P|i k s' P E|i k next P X|i h P|i h P|i h P W
    |i ID A|i ID A|i ID A|i ID A|i ID A|i k ID D H R|i k ID D H R|i ID D|i k ID H R|i k ID H R|i k ID H R|i k s' ID H E|i ID D| |A D].
  - eapply invA_work; eauto; cbn [set_pc save_err set_err pop w_sk w_sinkub w_cl w_sinks w_q w_pc pc_refs wjoin]; intros.
    + rewrite Q, W. cbn [flat_map task_refs app pc_refs]. tauto.
    + now rewrite W.
    + cbn [sendok set_pc w_pc]. intros k H. rewrite app_nil_r. exact H.
  - eapply invA_work; eauto; cbn [set_pc set_sinks set_active pop w_sk w_sinkub w_cl w_sinks w_q w_pc pc_refs wjoin]; intros.
    + rewrite Q, W. cbn [flat_map task_refs app pc_refs]. cbn [cnt count_occ]. lia.
    + now rewrite W.
    + cbn [sendok set_pc w_pc]. intros k H. exact H.
  - eapply invA_work; eauto; cbn [set_pc set_sinks set_active pop w_sk w_sinkub w_cl w_sinks w_q w_pc pc_refs wjoin]; intros.
    + rewrite Q, W. rewrite flat_refs_cons, cnt_app. cbn [task_refs pc_refs]. change (cnt k0 []) with 0. lia.
    + now rewrite W.
    + exact Logic.I.
  - eapply invA_work; eauto; cbn [set_pc set_sinks set_active pop w_sk w_sinkub w_cl w_sinks w_q w_pc pc_refs wjoin]; intros.
    + rewrite Q, W. cbn [flat_map task_refs app pc_refs]. tauto.
    + now rewrite W.
    + exact Logic.I.
  - apply invA_same with (s := s); auto.
    + intro u. unfold refs in *. cbn [set_pc set_sinks pop w_sinks w_q w_pc w_cl pc_refs] in *. rewrite Q, flat_refs_cons. rewrite W in R |- *. cbn [pc_refs task_refs] in *. change (cnt u []) with 0. change (cnt k []) with 0 in R.
      rewrite cnt_app, cnt_repeat, cnt_remove, cnt_cons. change (cnt u []) with 0. destruct (Nat.eqb_spec k u) as [EQ|NE]; cbn [b2n]; [subst u; lia|lia].
    + intro u. unfold jn. cbn [set_pc set_sinks pop w_pc w_cl]. now rewrite W.
    + exact Logic.I.
  - eapply invA_work; eauto; cbn [set_pc set_sinks set_active pop w_sk w_sinkub w_cl w_sinks w_q w_pc pc_refs wjoin]; intros.
    + rewrite Q, W. cbn [flat_map task_refs app pc_refs]. change (cnt k []) with 0. lia.
    + now rewrite W.
    + exact Logic.I.
  - eapply invA_work; eauto; cbn [set_pc set_sinks set_active pop w_sk w_sinkub w_cl w_sinks w_q w_pc pc_refs wjoin]; intros.
    + rewrite Q, W. cbn [flat_map task_refs app pc_refs]. tauto.
    + now rewrite W.
    + exact Logic.I.
  (* sending *)
  - assert (R : refs s k <> 0).
    { unfold sendok in S. rewrite W in S. specialize (S k (or_introl eq_refl)). apply cnt_In in S. rewrite cnt_app in S. unfold refs. rewrite W. cbn [pc_refs]. lia. }
    destruct (invA_push_sink s k (JMsg m) I R ltac:(discriminate)) as [I2 E2]. eapply invA_work; [exact I2|..]; try reflexivity.
    + intro u. rewrite E2. cbn [set_pc set_sk w_sinks w_q w_pc]. rewrite W. tauto.
    + intro u. rewrite E2. cbn [set_pc set_sk w_pc]. now rewrite W.
    + rewrite E2. unfold sendok in *. cbn [set_pc set_sk w_pc w_sinks]. rewrite W in S. intros u H. apply S. now right.
  - eapply invA_work; eauto; cbn [set_pc w_sk w_sinkub w_cl w_sinks w_q w_pc]; intros; rewrite ?W; [cbn [pc_refs]; tauto|reflexivity|exact Logic.I].
  - apply invA_same with (s := s); auto.
    + intro u. unfold refs in *. cbn [set_pc w_sinks w_q w_pc w_cl pc_refs] in *. rewrite W. cbn [pc_refs]. rewrite cnt_cons. destruct (Nat.eqb_spec k u) as [EQ|NE]; cbn [b2n]; [subst u; lia|lia].
    + intro u. unfold jn. cbn [set_pc w_pc w_cl]. now rewrite W.
    + exact Logic.I.
  - assert (R0 : refs s k = 1).
    { unfold refs in *. cbn [set_pc w_sinks w_q w_pc w_cl pc_refs] in R. rewrite W. cbn [pc_refs]. rewrite cnt_cons, Nat.eqb_refl. cbn [b2n]. lia. }
    pose proof (life_live _ _ _ _ L ltac:(rewrite R0; discriminate)) as (_ & D & _). unfold push_sink. change (sk (set_pc s (WDrop l q)) k) with (sk s k). unfold sk at 1. rewrite D.
    constructor; auto.
    + cbn [set_pc set_sk w_sk]. eapply life_lastpush with (R := refs s) (J := jn s) (R' := refs (set_pc s (WJoin k l q))) (J' := jn (set_pc s (WJoin k l q))); eauto.
      * rewrite R0; discriminate.
      * unfold jn. cbn [set_pc w_pc w_cl wjoin]. rewrite W, Nat.eqb_refl. reflexivity.
      * intros u NE. unfold refs. cbn [set_pc w_sinks w_q w_pc w_cl pc_refs]. rewrite W. cbn [pc_refs]. rewrite cnt_cons. destruct (Nat.eqb_spec k u); [congruence|]. cbn [b2n]. lia.
      * intros u NE. unfold jn. cbn [set_pc w_pc w_cl wjoin]. rewrite W. destruct (Nat.eqb_spec k u); [congruence|]. reflexivity.
    + exact Logic.I.
  - assert (J : jn s k = Datatypes.S (jn (set_pc s (WDrop l q)) k)).
    { unfold jn. cbn [set_pc w_pc w_cl wjoin]. rewrite W. cbn [wjoin]. rewrite Nat.eqb_refl. reflexivity. }
    destruct (life_destroy _ _ _ (jn (set_pc s (WDrop l q))) k L J) as [L2 D]; auto.
    { intros u NE. unfold jn. cbn [set_pc w_pc w_cl wjoin]. rewrite W. cbn [wjoin]. destruct (Nat.eqb_spec k u); [congruence|]. reflexivity. }
    unfold destroy, sk. rewrite D. constructor; auto.
    + cbn [set_pc set_sk w_sk]. eapply life_same; [exact L2| |reflexivity]. intro u. unfold refs. cbn [set_pc set_sk w_sinks w_q w_pc w_cl]. rewrite W. cbn [pc_refs]. tauto.
    + exact Logic.I.
  - eapply invA_work; eauto; cbn [set_pc w_sk w_sinkub w_cl w_sinks w_q w_pc]; intros; rewrite ?W; [cbn [pc_refs]; tauto|reflexivity|exact Logic.I].
  - eapply invA_work; eauto; cbn [set_pc w_sk w_sinkub w_cl w_sinks w_q w_pc]; intros; rewrite ?W; [cbn [pc_refs]; tauto|reflexivity|exact Logic.I].
  - eapply invA_eq; eauto.
  - assert (I2 : invA (set_pc s (WDrop f KLoop))).
    { eapply invA_work; eauto; cbn [set_pc w_sk w_sinkub w_cl w_sinks w_q w_pc]; intros; rewrite ?W; [cbn [pc_refs]; tauto|reflexivity|exact Logic.I]. }
    change (set_pc (set_cpc s i (signal (c_pc (cl s i)))) (WDrop f KLoop)) with (set_cl (set_pc s (WDrop f KLoop)) i (mkClient (signal (c_pc (cl s i))) (c_hold (cl s i)) (c_n (cl s i)))).
    apply invA_clj; auto.
    + specialize (C i). unfold pcok in *. cbn [c_pc c_hold]. destruct (c_pc (cl s i)); exact C.
    + intro u. change (cl (set_pc s (WDrop f KLoop)) i) with (cl s i). unfold cjoin. cbn [c_pc]. now destruct (c_pc (cl s i)).
  (* sinks *)
  - pose proof (sink_q_lt _ _ _ _ Q) as LT. destruct (k_of s k I LT) as [a b c d e f]. apply invA_local; cbn [k_dead k_done k_exit k_got]; auto. unfold all. cbn [k_got k_run k_q]. rewrite R, Q. reflexivity.
  - pose proof (sink_run_lt _ _ _ R) as LT. destruct (k_of s k I LT) as [a b c d e f]. apply invA_local; cbn [k_dead k_done k_exit k_got]; auto.
    + unfold all. cbn [k_got k_run k_q]. rewrite R, <- app_assoc. reflexivity.
    + rewrite has_done_app, d. cbn. now rewrite orb_false_r.
  - pose proof (sink_run_lt _ _ _ R) as LT. destruct (k_of s k I LT) as [a b c d e f].
    eapply invA_eq with (s := set_sk s (upd (w_sk s) k _)); [|reflexivity..]. apply invA_local; cbn [k_dead k_done k_exit k_got]; auto.
    + unfold all. cbn [k_got k_run k_q]. rewrite R, <- app_assoc. reflexivity.
    + rewrite has_done_app, d. cbn. now rewrite orb_false_r.
  - pose proof (sink_run_lt _ _ _ R) as LT. destruct (k_of s k I LT) as [a b c0 d e f].
    eapply invA_eq with (s := set_sk s (upd (w_sk s) k _)); [|reflexivity..]. apply invA_local; cbn [k_dead k_done k_exit k_got]; auto.
    + unfold all. cbn [k_got k_run k_q]. rewrite R, <- app_assoc. reflexivity.
    + rewrite has_done_app, d. cbn. now rewrite orb_false_r.
  - pose proof (sink_run_lt _ _ _ R) as LT. destruct (k_of s k I LT) as [a b c0 d e f]. apply invA_local; cbn [k_dead k_done k_exit k_got]; auto.
    + unfold all. cbn [k_got k_run k_q]. rewrite R, <- app_assoc. reflexivity.
    + rewrite has_done_app, orb_comm. reflexivity.
  - pose proof (sink_exit_lt _ _ X) as LT. destruct (k_of s k I LT) as [a b c0 d e f]. apply invA_local; cbn [k_dead k_done k_exit k_got]; auto. congruence.
  (* clients *)
  - apply invA_cpc; auto; first [exact Logic.I|now rewrite P].
  - eapply invA_eq; eauto.
  - apply invA_cpc; [apply invA_push; auto|exact Logic.I|change (cl (push s (TSave m)) i) with (cl s i); now rewrite P|exact Logic.I].
  - eapply invA_eq; eauto.
  - apply invA_cpc; auto; first [exact Logic.I|now rewrite P].
  - eapply invA_eq; eauto.
  - apply invA_cpc; [apply invA_push; auto|exact Logic.I|change (cl (push s (TFatal m)) i) with (cl s i); now rewrite P|exact Logic.I].
  - eapply invA_eq; eauto.
  - assert (H : In k (c_hold (cl s i))) by (specialize (C i); unfold pcok in C; now rewrite P in C).
    apply invA_rel with (s := set_handles s (w_handles s ++ [k])) (i := i) (k := k) (next := CIdle); auto.
    + eapply invA_eq; eauto.
    + apply (cl_lt s). rewrite P. discriminate.
    + change (cl (set_handles s (w_handles s ++ [k])) i) with (cl s i). now rewrite P.
  - assert (H : In k (c_hold (cl s i))) by (specialize (C i); unfold pcok in C; now rewrite P in C).
    apply invA_rel with (s := s) (i := i) (k := k) (next := CRm2 k); auto; [apply (cl_lt s); rewrite P; discriminate|now rewrite P].
  - apply invA_cpc; [apply invA_push; auto|exact Logic.I|change (cl (push s (TRemove i k)) i) with (cl s i); now rewrite P|exact Logic.I].
  - apply invA_cpc; auto; first [exact Logic.I|now rewrite P].
  - apply invA_cpc; auto; first [exact Logic.I|now rewrite P].
  - assert (LI : i < length (w_cl s)) by (apply (cl_lt s); rewrite P; discriminate).
    assert (H : In k (c_hold (cl s i))) by (specialize (C i); unfold pcok in C; now rewrite P in C).
    destruct (invA_push_sink s k (JCall c) I (refs_hold _ _ _ LI H) ltac:(discriminate)) as [I2 E2]. rewrite E2 in *.
    apply invA_cpc; auto; match goal with |- context [cl (set_sk ?a ?b) i] => change (cl (set_sk a b) i) with (cl s i) | _ => idtac end; first [exact H|now rewrite P|exact Logic.I].
  - assert (H : In k (c_hold (cl s i))) by (specialize (C i); unfold pcok in C; now rewrite P in C).
    apply invA_rel with (s := s) (i := i) (k := k) (next := CIdle); auto; [apply (cl_lt s); rewrite P; discriminate|now rewrite P].
  - assert (LI : i < length (w_cl s)) by (apply (cl_lt s); rewrite P; discriminate).
    assert (NX : next = CIdle \/ next = CRm2 k) by (specialize (C i); unfold pcok in C; now rewrite P in C).
    assert (NN : nojoin next) by (destruct NX as [->| ->]; exact Logic.I).
    assert (JJ : forall u, jn (set_cpc s i next) u + b2n (Nat.eqb k u) = jn s u).
    { intro u. pose proof (jn_set_cl s i (mkClient next (c_hold (cl s i)) (c_n (cl s i))) u LI) as Z. rewrite nojoin_c in Z by exact NN. unfold cjoin in Z. rewrite P in Z. cbn [b2n] in Z. unfold set_cpc. lia. }
    destruct (life_destroy _ _ _ (jn (set_cpc s i next)) k L) as [L2 D]; auto.
    { specialize (JJ k). rewrite Nat.eqb_refl in JJ. cbn [b2n] in JJ. lia. }
    { intros u NE. specialize (JJ u). destruct (Nat.eqb_spec k u); [congruence|]. cbn [b2n] in JJ. lia. }
    unfold destroy, sk. rewrite D. constructor; auto.
    + cbn [set_cpc set_cl set_sk w_sk]. eapply life_same; [exact L2| |reflexivity]. intro u. rewrite refs_set_cpc. reflexivity.
    + intro j. apply (cl_all pcok s i (mkClient next (c_hold (cl s i)) (c_n (cl s i)))); auto. destruct NX as [->| ->]; exact Logic.I.
  - apply invA_cpc; [apply invA_push; auto|exact Logic.I|change (cl (push s (TClear i)) i) with (cl s i); now rewrite P|exact Logic.I].
  - apply invA_cpc; [eapply invA_eq with (s := push s TDone); [apply invA_push; auto|reflexivity..]|exact Logic.I|change (cl (set_bg (push s TDone) false) i) with (cl s i); now rewrite P|exact Logic.I].
  - apply invA_cpc; auto; first [exact Logic.I|now rewrite P].
  (* new requests *)
  - destruct (idle_spec _ _ ID) as [LI P]. unfold count_log. apply invA_cl; auto; first [exact Logic.I|now rewrite P].
  - destruct (idle_spec _ _ ID) as [LI P]. unfold count_log. apply invA_cl; auto; first [exact Logic.I|now rewrite P].
  - destruct (idle_spec _ _ ID) as [LI P]. unfold count_log. apply invA_cl; auto; first [exact Logic.I|now rewrite P].
  - destruct (idle_spec _ _ ID) as [LI P]. eapply invA_eq with (s := count_log s i CIdle); [|reflexivity..]. unfold count_log. apply invA_cl; auto; first [exact Logic.I|now rewrite P].
  - destruct (idle_spec _ _ ID) as [LI P]. set (k := length (w_sk s)).
    set (s1 := set_sk s (w_sk s ++ [new_sink])). set (s2 := acquire s1 i k). set (s3 := push s2 (TAdd i k)).
    assert (C2 : cl s2 i = mkClient CIdle (k :: c_hold (cl s i)) (c_n (cl s i))).
    { unfold s2, acquire, set_hold. rewrite cl_set by exact LI. rewrite Nat.eqb_refl. change (cl s1 i) with (cl s i). now rewrite P. }
    assert (R2 : forall u, refs s2 u = refs s u + b2n (Nat.eqb k u)).
    { intro u. pose proof (refs_set_cl s1 i (mkClient (c_pc (cl s1 i)) (k :: c_hold (cl s1 i)) (c_n (cl s1 i))) u LI) as Z. cbn [c_hold] in Z. rewrite cnt_cons in Z.
      change (refs s1 u) with (refs s u) in Z. change (refs s2 u) with (refs (set_cl s1 i (mkClient (c_pc (cl s1 i)) (k :: c_hold (cl s1 i)) (c_n (cl s1 i)))) u). lia. }
    assert (R3 : forall u, refs s3 u = refs s u + b2n (Nat.eqb k u) + b2n (Nat.eqb k u)).
    { intro u. transitivity (refs s2 u + b2n (Nat.eqb k u)); [|rewrite R2; lia]. unfold refs, s3. cbn [push w_sinks w_q w_pc w_cl]. rewrite flat_map_app, cnt_app. cbn [flat_map task_refs app].
      rewrite cnt_cons. change (cnt u []) with 0. lia. }
    assert (J2 : forall u, jn s2 u = jn s u).
    { intro u. pose proof (jn_set_cl s1 i (mkClient (c_pc (cl s1 i)) (k :: c_hold (cl s1 i)) (c_n (cl s1 i))) u LI) as Z. change (jn s1 u) with (jn s u) in Z. unfold cjoin in Z. cbn [c_pc] in Z.
      change (jn s2 u) with (jn (set_cl s1 i (mkClient (c_pc (cl s1 i)) (k :: c_hold (cl s1 i)) (c_n (cl s1 i)))) u). lia. }
    assert (I3 : invA s3).
    { constructor; auto.
      - change (w_sk s3) with (w_sk s ++ [new_sink]). eapply life_same with (J := jn s); [|reflexivity|intro u; rewrite <- J2; reflexivity]. eapply life_new; eauto.
        + rewrite R3. change (length (w_sk s)) with k. rewrite Nat.eqb_refl. cbn [b2n]. lia.
        + intros u NE. rewrite R3. unfold k. destruct (Nat.eqb_spec (length (w_sk s)) u); [congruence|]. cbn [b2n]. rewrite !Nat.add_0_r. tauto.
      - intro j. apply (cl_all pcok s1 i (mkClient (c_pc (cl s1 i)) (k :: c_hold (cl s1 i)) (c_n (cl s1 i)))); auto. change (cl s1 i) with (cl s i). unfold pcok. cbn [c_pc]. now rewrite P. }
    apply invA_cpc; auto.
    + change (cl s3 i) with (cl s2 i). rewrite C2. unfold pcok. cbn [c_pc c_hold]. now left.
    + change (cl s3 i) with (cl s2 i). now rewrite C2.
    + exact Logic.I.
  - destruct (idle_spec _ _ ID) as [LI P]. apply invA_cpc; auto; first [exact Logic.I|now rewrite P].
  - destruct (idle_spec _ _ ID) as [LI P]. assert (C2 : cl (acquire s i k) i = mkClient CIdle (k :: c_hold (cl s i)) (c_n (cl s i))).
    { unfold acquire, set_hold. rewrite cl_set by exact LI. rewrite Nat.eqb_refl. now rewrite P. }
    apply invA_cpc; [now apply invA_acquire|rewrite C2; unfold pcok; cbn [c_pc c_hold]; now left|now rewrite C2|exact Logic.I].
  - destruct (idle_spec _ _ ID) as [LI P]. apply invA_cpc; [apply invA_push; auto|exact Logic.I|change (cl (push s (TClear i)) i) with (cl s i); now rewrite P|exact Logic.I].
  - eapply invA_eq; eauto.
  - destruct (idle_spec _ _ ID) as [LI P]. set (s1 := set_prom s (w_prom s ++ [(k, Pending)])).
    assert (C2 : cl (acquire s1 i k) i = mkClient CIdle (k :: c_hold (cl s i)) (c_n (cl s i))).
    { unfold acquire, set_hold. rewrite cl_set by exact LI. rewrite Nat.eqb_refl. change (cl s1 i) with (cl s i). now rewrite P. }
    apply invA_cpc; [apply invA_acquire; auto; eapply invA_eq; eauto|rewrite C2; unfold pcok; cbn [c_pc c_hold]; now left|now rewrite C2|exact Logic.I].
  - destruct (idle_spec _ _ ID) as [LI P]. now apply invA_acquire.
  - destruct (idle_spec _ _ ID) as [LI P]. apply invA_rel with (s := s) (i := i) (k := k) (next := CIdle); auto; [now apply has_In|now rewrite P].
  - destruct (idle_spec _ _ ID) as [LI P]. apply invA_cpc; [eapply invA_eq; eauto|exact Logic.I|change (cl (set_active s false) i) with (cl s i); now rewrite P|exact Logic.I].
  - eapply invA_eq; eauto.
  - eapply invA_eq; eauto.
Qed.

Lemma cl_init : forall n i, cl (w_init n) i = new_client.
Proof.
  intros n i. unfold cl. cbn [w_init w_cl]. destruct (Nat.lt_ge_cases i n) as [L|L].
  - unfold get. apply nth_repeat.
  - apply get_out. now rewrite repeat_length.
Qed.
Lemma weigh_repeat0 : forall (w : client -> nat) n, w new_client = 0 -> weigh w (repeat new_client n) = 0.
Proof. intros w n H. unfold weigh. induction n; cbn; auto. now rewrite H. Qed.
Lemma count_repeat0 : forall (p : client -> bool) n, p new_client = false -> count p (repeat new_client n) = 0.
Proof. intros p n H. unfold count. induction n; cbn; auto. now rewrite H. Qed.
Lemma init_A : forall n, invA (w_init n).
Proof.
  intro n. constructor; auto.
  - split; [cbn [w_init w_sk length]; lia|]. intros k _. split.
    + unfold refs. cbn [w_init w_sinks w_q w_pc w_cl pc_refs flat_map]. rewrite weigh_repeat0; reflexivity.
    + unfold jn. cbn [w_init w_pc w_cl wjoin b2n]. now rewrite count_repeat0.
  - intro i. rewrite cl_init. exact Logic.I.
  - exact Logic.I.
Qed.
Lemma steps_ind : forall (I : wstate -> Prop) s0, I s0 -> (forall s s', w_proc s = PRun -> move s s' -> I s -> I s') -> forall s, wsteps s0 s -> I s.
Proof.
  intros I s0 H0 HS s R. induction R as [s0|s0 s1 a s2 R IH E]; auto. destruct (wstep_move _ _ _ E) as [P M]. eapply HS; eauto.
Qed.
Theorem reach_A : forall n s, wreach n s -> invA s.
Proof. intros n s R. eapply steps_ind; eauto; [apply init_A|intros; eapply move_A; eauto]. Qed.
