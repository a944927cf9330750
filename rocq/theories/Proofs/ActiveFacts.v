From Coq Require Import List Arith NArith Bool Lia.
From Verif.Base Require Import Threads.
From Verif.Model Require Import SharedQueue ActiveObj.
From Verif.Spec Require Import QueueSpec ActiveSpec.
From Verif.Proofs Require Import QueueFacts.
Import ListNotations.

(** ** steps of the queue, seen from outside *)
Section View.
Context {A : Type}.
Inductive local (t : nat) : qpc A -> list (qevent A) -> qpc A -> Prop :=
| l_lock : forall o, local t (Lock o) [] (Body o)
| l_relock : local t Relock [] (Body OPop)
| l_push : forall x, local t (Body (OPush x)) [Commit t (OPush x) RUnit] (Leave RUnit true)
| l_sleep : local t (Body OPop) [] Sleep
| l_take : local t (Body OPop) [] (Take false)
| l_try_none : local t (Body OTryPop) [Commit t OTryPop RNone] (Leave RNone false)
| l_try : local t (Body OTryPop) [] (Take true)
| l_empty : forall b, local t (Body OEmpty) [Commit t OEmpty (RBool b)] (Leave (RBool b) false)
| l_size : forall n, local t (Body OSize) [Commit t OSize (RNum n)] (Leave (RNum n) false)
| l_item : forall b x, local t (Take b) [Commit t (if b then OTryPop else OPop) (RItem x)] (Leave (RItem x) false)
| l_ret : forall r, local t (Leave r false) [Ret t r] (Idle (Some r))
| l_unlock : local t (Leave RUnit true) [] Notify
| l_notify : local t Notify [Ret t RUnit] (Idle (Some RUnit))
| l_wake : local t Sleep [] Relock.

Record view (s s' : qstate A) (t : nat) (es : list (qevent A)) : Prop := mkView {
  w_local : local t (pc s t) es (pc s' t);
  w_other : forall u, u <> t -> pc s' u = pc s u \/ (pc s u = Sleep /\ pc s' u = Relock);
  w_len : length (q_pcs s') = length (q_pcs s);
  w_tr : q_trace s' = q_trace s ++ es;
  w_count : forall f : qpc A -> bool, f Sleep = f Relock ->
    count f (q_pcs s') + b2n (f (pc s t)) = count f (q_pcs s) + b2n (f (pc s' t))
}.

Lemma view_goto : forall s s0 t p es, t < length (q_pcs s) -> q_pcs s0 = q_pcs s -> q_trace s0 = q_trace s ++ es ->
  local t (pc s t) es p -> view s (goto s0 t p) t es.
Proof.
  intros s s0 t p es L P T LO. assert (L0 : t < length (q_pcs s0)) by now rewrite P.
  assert (PT : pc (goto s0 t p) t = p) by (rewrite pc_goto by assumption; now rewrite Nat.eqb_refl).
  constructor.
  - now rewrite PT.
  - intros u N. left. rewrite pc_goto by assumption. destruct (Nat.eqb_spec u t); [congruence|]. unfold pc. now rewrite P.
  - cbn. now rewrite upd_length, P.
  - exact T.
  - intros f _. rewrite PT. cbn [goto q_pcs]. rewrite P. unfold pc. now apply count_upd.
Qed.

Lemma qstep_view : forall (s : qstate A) a s', QInv s -> qstep s a = Some s' -> (forall t o, a <> Start t o) ->
  exists t es, view s s' t es.
Proof.
  intros s a s' I E NS. destruct a as [t o|t|t w|t|w]; cbn [qstep] in E; [exfalso; eapply NS; reflexivity|..].
  - assert (L : match pc s t with Idle _ => True | _ => t < length (q_pcs s) end).
    { destruct (pc s t) eqn:P; auto; apply pc_lt; rewrite P; discriminate. }
    destruct (pc s t) as [l|o|o| | |b|r nf|] eqn:P; try discriminate.
    + destruct (q_owner s); [discriminate|]. injection E as <-. exists t, []. apply view_goto; auto; [cbn; now rewrite app_nil_r|rewrite P; constructor].
    + injection E as <-. assert (O : q_owner s = Some t) by (apply (i_owner s I); now rewrite P).
      destruct o as [x| | | |]; cbn [body].
      * exists t, [Commit t (OPush x) RUnit]. apply view_goto; auto. rewrite P. constructor.
      * destruct (q_content s) as [|x l].
        -- rewrite (unlock_own s t O). exists t, [].
           assert (V : view s (goto (set_owner s None) t Sleep) t []) by (apply view_goto; auto; [cbn; now rewrite app_nil_r|rewrite P; constructor]).
           destruct V as [V1 V2 V3 V4 V5]. constructor; auto.
        -- exists t, []. apply view_goto; auto; [now rewrite app_nil_r|rewrite P; constructor].
      * destruct (q_content s) as [|x l].
        -- exists t, [Commit t OTryPop RNone]. apply view_goto; auto. rewrite P. constructor.
        -- exists t, []. apply view_goto; auto; [now rewrite app_nil_r|rewrite P; constructor].
      * eexists t, [_]. apply view_goto; auto; [reflexivity|]. rewrite P. constructor.
      * eexists t, [_]. apply view_goto; auto; [reflexivity|]. rewrite P. constructor.
    + destruct (q_owner s); [discriminate|]. injection E as <-. exists t, []. apply view_goto; auto; [cbn; now rewrite app_nil_r|rewrite P; constructor].
    + destruct (q_content s) as [|x l] eqn:CO; [exfalso; exact (i_take s I t b P CO)|]. injection E as <-.
      eexists t, [_]. apply view_goto; auto; [reflexivity|]. rewrite P. constructor.
    + assert (O : q_owner s = Some t) by (apply (i_owner s I); now rewrite P). rewrite (unlock_own s t O) in E. destruct nf; injection E as <-.
      * pose proof (i_leave s I t r P) as ->. exists t, []. apply view_goto; auto; [cbn; now rewrite app_nil_r|rewrite P; constructor].
      * exists t, [Ret t r]. apply view_goto; auto. rewrite P. constructor.
  - destruct (pc s t) eqn:P; try discriminate. destruct (existsb (Nat.eqb w) (q_waiters s)) eqn:X; [|discriminate]. injection E as <-.
    destruct (existsb_waiter s w I X) as [WI PW]. assert (NE : w <> t) by congruence.
    assert (L : t < length (q_pcs s)) by (apply pc_lt; rewrite P; discriminate).
    assert (LW : w < length (q_pcs s)) by (apply pc_lt; rewrite PW; discriminate).
    set (s1 := goto (set_waiters s (remove Nat.eq_dec w (q_waiters s))) w Relock).
    assert (P1 : forall u, pc s1 u = if Nat.eqb u w then Relock else pc s u) by (intro u; unfold s1; now rewrite pc_goto by exact LW).
    assert (L1 : t < length (q_pcs s1)) by (unfold s1; cbn; rewrite upd_length; exact L).
    assert (PT : pc (ret s1 t RUnit) t = Idle (Some RUnit)) by (unfold ret; rewrite pc_goto by exact L1; now rewrite Nat.eqb_refl).
    exists t, [Ret t RUnit]. constructor.
    + rewrite PT, P. constructor.
    + intros u N. unfold ret. rewrite pc_goto by exact L1. destruct (Nat.eqb_spec u t); [congruence|].
      change (pc (note s1 (Ret t RUnit)) u) with (pc s1 u). rewrite P1. destruct (Nat.eqb_spec u w) as [->|]; auto.
    + cbn. now rewrite !upd_length.
    + reflexivity.
    + intros f F. rewrite PT, P. cbn [ret goto note q_pcs].
      pose proof (count_upd (Idle None) f (q_pcs s1) t (Idle (Some RUnit)) L1) as C1. fold (pc s1 t) in C1. rewrite P1 in C1.
      destruct (Nat.eqb_spec t w); [congruence|]. rewrite P in C1.
      pose proof (count_upd (Idle None) f (q_pcs s) w Relock LW) as C2. fold (pc s w) in C2. rewrite PW, F in C2.
      change (q_pcs s1) with (upd (q_pcs s) w Relock) in *. lia.
  - destruct (pc s t) eqn:P; try discriminate. destruct (q_waiters s) eqn:W; [|discriminate]. injection E as <-.
    assert (L : t < length (q_pcs s)) by (apply pc_lt; rewrite P; discriminate).
    exists t, [Ret t RUnit]. apply view_goto; auto. rewrite P. constructor.
  - destruct (existsb (Nat.eqb w) (q_waiters s)) eqn:X; [|discriminate]. injection E as <-.
    destruct (existsb_waiter s w I X) as [WI PW]. assert (LW : w < length (q_pcs s)) by (apply pc_lt; rewrite PW; discriminate).
    exists w, []. apply view_goto; auto; [cbn; now rewrite app_nil_r|rewrite PW; constructor].
Qed.

(** starting an operation *)
Record started (s s' : qstate A) (t : nat) (o : qop A) : Prop := mkStarted {
  d_idle : exists l, pc s t = Idle l;
  d_lt : t < length (q_pcs s);
  d_pc : forall u, pc s' u = if Nat.eqb u t then Lock o else pc s u;
  d_len : length (q_pcs s') = length (q_pcs s);
  d_tr : q_trace s' = q_trace s ++ [Call t o];
  d_content : q_content s' = q_content s;
  d_count : forall f : qpc A -> bool, (forall l, f (Idle l) = false) -> count f (q_pcs s') = count f (q_pcs s) + b2n (f (Lock o))
}.
Lemma start_started : forall (s : qstate A) t o s', qstep s (Start t o) = Some s' -> started s s' t o.
Proof.
  intros s t o s' E. cbn [qstep] in E. destruct (pc s t) as [l| | | | | | |] eqn:P; try discriminate.
  destruct (Nat.ltb_spec t (length (q_pcs s))) as [L|L]; [|discriminate]. injection E as <-. constructor; auto.
  - eauto.
  - intro u. rewrite pc_goto by exact L. reflexivity.
  - cbn. now rewrite upd_length.
  - intros f F. cbn [goto note q_pcs]. pose proof (count_upd (Idle None) f (q_pcs s) t (Lock o) L) as C. fold (pc s t) in C.
    rewrite P, F in C. cbn [b2n] in C. lia.
Qed.
End View.

Lemma nth_error_nil : forall A i, nth_error (@nil A) i = None.
Proof. intros A [|i]; reflexivity. Qed.

Lemma nth_repeat_any : forall A (d : A) n i, nth i (repeat d n) d = d.
Proof. intros A d n. induction n as [|n IH]; intros [|i]; cbn; auto. Qed.

(** ** the active object *)
Definition pushing (c : cb) (p : qpc cb) : bool :=
  match p with Lock (OPush x) | Body (OPush x) => if cb_eq_dec x c then true else false | _ => false end.
Definition pushing_any (p : qpc cb) : bool := match p with Lock (OPush _) | Body (OPush _) => true | _ => false end.
(** how often c was pushed, or is about to be *)
Definition seen (c : cb) (q : qstate cb) : nat := times c (pushed (q_trace q)) + count (pushing c) (q_pcs q).

(** a thread that pushes *)
Definition ok_push (P : cb -> Prop) (p : qpc cb) : Prop :=
  match p with
  | Lock (OPush c) | Body (OPush c) => P c
  | Leave RUnit true | Notify | Idle _ => True
  | _ => False
  end.
(** the background thread in wait_and_pop *)
Definition ok_pop (p : qpc cb) : Prop :=
  match p with
  | Lock OPop | Body OPop | Sleep | Relock | Take false | Leave (RItem _) false | Idle (Some (RItem _)) => True
  | _ => False
  end.
Definition is_idle (p : qpc cb) : Prop := match p with Idle _ => True | _ => False end.
Definition ok_cl (c : clpc) (p : qpc cb) : Prop :=
  match c with
  | CIdle | DJoin | DDone => is_idle p
  | CSend => ok_push (fun c => c <> Shutdown) p
  | DSend => ok_push (fun c => c = Shutdown) p
  end.
Definition ok_bg (b : bgpc) (p : qpc cb) : Prop :=
  match b with
  | BTest | BRun _ | BExit => is_idle p
  | BPop => ok_pop p
  | BSend _ => ok_push (fun c => exists n, c = User n) p
  end.
Definition inflight_pc (p : qpc cb) : list cb :=
  match p with Leave (RItem c) _ | Idle (Some (RItem c)) => [c] | _ => [] end.
Definition inflight (s : astate) : list cb := match a_bg s with BPop => inflight_pc (pc (a_q s) 0) | _ => [] end.
Definition running (b : bgpc) : option cb := match b with BRun c | BSend c => Some c | _ => None end.
Definition ends (p : nat) (tr : list aevent) : list (cb * outcome) :=
  filter (fun x => if cb_eq_dec (fst x) (Task p) then true else false) (ended tr).

Record AInv (n : nat) (s : astate) : Prop := mkAI {
  v_q : qreach (S n) (a_q s);
  v_lq : length (q_pcs (a_q s)) = S n;
  v_lc : length (a_cl s) = n;
  v_cl : forall i, i < n -> ok_cl (cl s i) (pc (a_q s) (S i));
  v_bg : ok_bg (a_bg s) (pc (a_q s) 0);
  v_exec : popped (q_trace (a_q s)) = executed (a_tr s) ++ inflight s;
  v_one : one_at_a_time (a_tr s) (running (a_bg s));
  v_shut : seen Shutdown (a_q s) = count is_dtor (a_cl s);
  v_dtor1 : count is_dtor (a_cl s) <= 1;
  v_done : a_done s = true -> In Shutdown (executed (a_tr s)) /\ (a_bg s = BTest \/ a_bg s = BExit);
  v_exit : a_bg s = BExit -> a_done s = true;
  v_last : In Shutdown (executed (a_tr s)) -> (exists l, executed (a_tr s) = l ++ [Shutdown] /\ ~ In Shutdown l) /\ (a_bg s = BRun Shutdown \/ a_done s = true);
  v_ret : forall i, cl s i = DDone -> a_bg s = BExit;
  v_task : forall p, seen (Task p) (a_q s) = match nth_error (a_prom s) p with None | Some NullWorker => 0 | _ => 1 end;
  v_prom : forall p, match nth_error (a_prom s) p with
    | Some (Ready o) => ends p (a_tr s) = [(Task p, o)]
    | Some Broken => ends p (a_tr s) = [] /\ exists i, cl s i = DDone
    | _ => ends p (a_tr s) = [] end
}.

Lemma executed_app : forall a b, executed (a ++ b) = executed a ++ executed b.
Proof. intros. apply flat_map_app. Qed.
Lemma ended_app : forall a b, ended (a ++ b) = ended a ++ ended b.
Proof. intros. apply flat_map_app. Qed.
Lemma ends_app : forall p a b, ends p (a ++ b) = ends p a ++ ends p b.
Proof. intros. unfold ends. now rewrite ended_app, filter_app. Qed.
Lemma pushed_app : forall A (a b : list (qevent A)), pushed (a ++ b) = pushed a ++ pushed b.
Proof. intros. apply flat_map_app. Qed.
Lemma popped_app : forall A (a b : list (qevent A)), popped (a ++ b) = popped a ++ popped b.
Proof. intros. apply flat_map_app. Qed.
Lemma times_app : forall c a b, times c (a ++ b) = times c a + times c b.
Proof. intros. apply count_occ_app. Qed.

Lemma one_executed : forall tr r, one_at_a_time tr r -> executed tr = map fst (ended tr) ++ match r with Some c => [c] | None => [] end.
Proof.
  intros tr r H. induction H as [|tr c H IH|tr c o H IH|tr e r H IH N1 N2]; auto.
  - rewrite executed_app, ended_app, IH. cbn. now rewrite !app_nil_r.
  - rewrite executed_app, ended_app, IH. cbn. rewrite map_app, !app_nil_r. reflexivity.
  - rewrite executed_app, ended_app, IH. destruct e; cbn; rewrite ?app_nil_r; auto; exfalso; [eapply N1|eapply N2]; reflexivity.
Qed.

(** a quiet event *)
Definition quiet_ev (e : aevent) : bool := match e with EvBegin _ | EvEnd _ _ => false | _ => true end.
Lemma one_quiet : forall tr e r, quiet_ev e = true -> one_at_a_time tr r -> one_at_a_time (tr ++ [e]) r.
Proof. intros tr e r Q H. apply oa_other; auto; destruct e; discriminate. Qed.
Lemma executed_quiet : forall tr e, quiet_ev e = true -> executed (tr ++ [e]) = executed tr.
Proof. intros tr e Q. rewrite executed_app. destruct e; try discriminate; apply app_nil_r. Qed.
Lemma ends_quiet : forall p tr e, quiet_ev e = true -> ends p (tr ++ [e]) = ends p tr.
Proof. intros p tr e Q. rewrite ends_app. destruct e; try discriminate; apply app_nil_r. Qed.

(** ** the queue moves by itself *)
Lemma seen_view : forall c s s' t es, view s s' t es -> seen c s' = seen c s.
Proof.
  intros c s s' t es V. unfold seen. rewrite (w_tr _ _ _ _ V), pushed_app, times_app.
  pose proof (w_count _ _ _ _ V (pushing c) eq_refl) as C. pose proof (w_local _ _ _ _ V) as L.
  destruct L; cbn [pushing b2n pushed flat_map app times count_occ] in *; rewrite ?app_nil_r in *; cbn [times count_occ] in *;
    try (destruct o; cbn [b2n] in *; lia); try (destruct b; cbn [times count_occ]; lia); try lia.
  unfold times in *. cbn [count_occ]. destruct (cb_eq_dec x c); cbn [b2n] in *; lia.
Qed.
Lemma seen_start : forall c s s' t o, started s s' t o -> seen c s' = seen c s + match o with OPush x => if cb_eq_dec x c then 1 else 0 | _ => 0 end.
Proof.
  intros c s s' t o D. unfold seen. rewrite (d_tr _ _ _ _ D), pushed_app, times_app. cbn [pushed flat_map app].
  rewrite (d_count _ _ _ _ D (pushing c)) by reflexivity. unfold times. cbn [count_occ]. destruct o; cbn [pushing b2n]; try lia.
  destruct (cb_eq_dec x c); cbn [b2n]; lia.
Qed.

Lemma ok_push_view : forall P t p es p', local t p es p' -> ok_push P p -> ok_push P p' /\ popped es = [].
Proof.
  intros P t p es p' L. destruct L; cbn; try tauto; try (destruct o; tauto); try (destruct r; tauto).
Qed.
Lemma ok_idle_view : forall t p es p', local t p es p' -> is_idle p -> False.
Proof. intros t p es p' L. destruct L; cbn; auto. Qed.
Lemma ok_pop_view : forall t p es p', local t p es p' -> ok_pop p -> ok_pop p' /\ popped es ++ inflight_pc p = inflight_pc p'.
Proof.
  intros t p es p' L. destruct L; cbn; try tauto; try (destruct o; cbn; tauto); try (destruct b; cbn; tauto); try (destruct r; cbn; tauto).
Qed.
Lemma ok_cl_view : forall c t p es p', local t p es p' -> ok_cl c p -> ok_cl c p' /\ popped es = [].
Proof.
  intros c t p es p' L. destruct c; cbn [ok_cl]; try (intro H; exfalso; exact (ok_idle_view _ _ _ _ L H)); now apply (ok_push_view _ t).
Qed.
Lemma not_sleep_cl : forall c p, ok_cl c p -> p <> Sleep.
Proof. intros c p H ->. destruct c; exact H. Qed.

Lemma pc_out : forall (q : qstate cb) t, length (q_pcs q) <= t -> pc q t = Idle None.
Proof. intros q t L. unfold pc. now apply get_out. Qed.

Lemma AInv_queue : forall n s qa q', AInv n s -> is_internal qa = true -> qstep (a_q s) qa = Some q' -> AInv n (with_q s q').
Proof.
  intros n s qa q' I IN E. pose proof (QInv_reach _ _ (v_q n s I)) as QI.
  destruct (qstep_view (a_q s) qa q' QI E) as (t & es & V); [intros u o ->; discriminate|].
  assert (PO : pc q' t <> pc q' t -> False) by auto.
  assert (IND : forall i, i < n -> S i <> t -> ok_cl (cl s i) (pc q' (S i))).
  { intros i Li N. destruct (w_other _ _ _ _ V (S i) N) as [->|[X _]]; [now apply I|]. exfalso. exact (not_sleep_cl _ _ (v_cl n s I i Li) X). }
  assert (LT : t < S n).
  { rewrite <- (v_lq n s I). apply pc_lt. intros l X. pose proof (w_local _ _ _ _ V) as L. rewrite X in L. inversion L. }
  assert (KEY : (forall i, i < n -> ok_cl (cl s i) (pc q' (S i))) /\ ok_bg (a_bg s) (pc q' 0) /\
    popped es ++ inflight s = inflight (with_q s q')).
  { destruct t as [|i].
    - split; [intros; now apply IND|]. pose proof (w_local _ _ _ _ V) as L. pose proof (v_bg n s I) as B. unfold inflight, ok_bg in *. cbn [with_q a_bg a_q].
      destruct (a_bg s); try (exfalso; exact (ok_idle_view _ _ _ _ L B)).
      + now apply (ok_pop_view 0).
      + destruct (ok_push_view _ 0 _ _ _ L B) as [B1 B2]. split; auto. now rewrite B2.
    - assert (Li : i < n) by lia. pose proof (w_local _ _ _ _ V) as L.
      destruct (ok_cl_view _ _ _ _ _ L (v_cl n s I i Li)) as [C1 C2].
      split; [intros j Lj; destruct (Nat.eq_dec j i) as [->|N]; [exact C1|apply IND; [exact Lj|congruence]]|].
      destruct (w_other _ _ _ _ V 0 ltac:(discriminate)) as [Z|[Z1 Z2]].
      + rewrite Z. split; [apply I|]. rewrite C2. unfold inflight. cbn [with_q a_bg a_q]. now rewrite Z.
      + pose proof (v_bg n s I) as B. rewrite Z1 in B. rewrite C2. unfold inflight. cbn [with_q a_bg a_q]. rewrite Z1, Z2.
        destruct (a_bg s); cbn [ok_bg is_idle ok_push ok_pop] in B; try contradiction; split; auto; exact Logic.I. }
  destruct KEY as (K1 & K2 & K3).
  constructor; cbn [with_q a_q a_done a_bg a_cl a_prom a_terminated a_tr]; try apply I.
  - eapply qr_step; [apply I|exact E].
  - rewrite (w_len _ _ _ _ V). apply I.
  - exact K1.
  - exact K2.
  - rewrite (w_tr _ _ _ _ V), popped_app, (v_exec n s I), <- app_assoc, <- K3.
    destruct (popped es) as [|x l] eqn:PE; [now rewrite app_nil_r|].
    (* an item was taken: nothing was in flight *)
    assert (inflight s = []).
    { pose proof (w_local _ _ _ _ V) as L. unfold inflight. destruct (a_bg s) eqn:B; auto. destruct t as [|i].
      - destruct L; try discriminate; reflexivity.
      - destruct (ok_cl_view _ _ _ _ _ L (v_cl n s I i ltac:(lia))) as [_ C2]. congruence. }
    rewrite H, !app_nil_r. reflexivity.
  - rewrite (seen_view _ _ _ _ _ V). apply I.
  - intro p. rewrite (seen_view _ _ _ _ _ V). apply I.
Qed.


Lemma AInv_init : forall n, AInv n (a_init n).
Proof.
  intro n. assert (PC : forall t, pc (q_init (S n)) t = @Idle cb None) by (intro t; apply pc_repeat).
  assert (CL : forall i, cl (a_init n) i = CIdle).
  { intro i. unfold cl, a_init, get. cbn [a_cl]. destruct (Nat.lt_ge_cases i n); [apply nth_repeat|apply nth_overflow; now rewrite repeat_length]. }
  assert (Z : forall A f (x : A) k, f x = false -> count f (repeat x k) = 0).
  { intros A f x k F. unfold count. induction k as [|k IH]; cbn; auto. now rewrite F. }
  constructor; cbn [a_init a_q a_done a_bg a_cl a_prom a_terminated a_tr].
  - constructor.
  - unfold q_init. cbn [q_pcs]. apply repeat_length.
  - apply repeat_length.
  - intros i _. rewrite CL, PC. exact I.
  - rewrite PC. exact I.
  - reflexivity.
  - constructor.
  - unfold seen. cbn [q_init q_trace q_pcs]. rewrite (Z _ is_dtor) by reflexivity. rewrite (Z _ (pushing Shutdown)) by reflexivity. reflexivity.
  - rewrite (Z _ is_dtor) by reflexivity. lia.
  - discriminate.
  - discriminate.
  - intros [].
  - intros i H. rewrite CL in H. discriminate.
  - intro p. rewrite nth_error_nil. unfold seen. cbn [q_init q_trace q_pcs]. rewrite (Z _ (pushing (Task p))) by reflexivity. reflexivity.
  - intro p. rewrite nth_error_nil. reflexivity.
Qed.

Lemma seen_executed : forall n s c, AInv n s -> times c (executed (a_tr s)) + times c (inflight s) <= seen c (a_q s).
Proof.
  intros n s c I. pose proof (QInv_reach _ _ (v_q n s I)) as QI. pose proof (sequential_fifo _ _ (i_seq _ QI)) as F.
  unfold seen. rewrite F, times_app, (v_exec n s I), times_app. lia.
Qed.

Lemma count_cl : forall n s i c, AInv n s -> i < n -> count is_dtor (upd (a_cl s) i c) + b2n (is_dtor (cl s i)) = count is_dtor (a_cl s) + b2n (is_dtor c).
Proof. intros n s i c I L. apply count_upd. now rewrite (v_lc n s I). Qed.

Lemma start_inv : forall s t o s', start s t o = Some s' -> exists q', s' = with_q s q' /\ qstep (a_q s) (Start t o) = Some q'.
Proof. intros s t o s' H. unfold start in H. destruct (qstep (a_q s) (Start t o)) as [q'|]; [|discriminate]. injection H as <-. eauto. Qed.

Lemma AInv_test : forall n s s', AInv n s -> astep s ATest = Some s' -> AInv n s'.
Proof.
  intros n s s' I E. unfold astep in E. destruct (a_terminated s) eqn:T; [discriminate|]. destruct (a_bg s) eqn:B; try discriminate.
  pose proof (v_bg n s I) as VB. rewrite B in VB. pose proof (v_exec n s I) as VE. unfold inflight in VE. rewrite B in VE.
  pose proof (v_one n s I) as VO. rewrite B in VO.
  destruct (a_done s) eqn:D.
  - injection E as <-. constructor; cbn [with_bg a_q a_done a_bg a_cl a_prom a_terminated a_tr]; try apply I; auto.
    + intros _. split; auto. apply (v_done n s I D).
    + intro H. destruct (v_last n s I H) as [H1 _]. split; auto.
  - destruct (start s 0 OPop) as [s1|] eqn:S; [|discriminate]. injection E as <-. destruct (start_inv _ _ _ _ S) as (q' & -> & Q).
    pose proof (start_started _ _ _ _ Q) as DS.
    constructor; cbn [with_bg with_q a_q a_done a_bg a_cl a_prom a_terminated a_tr]; try apply I; auto.
    + eapply qr_step; [apply I|exact Q].
    + rewrite (d_len _ _ _ _ DS). apply I.
    + intros i Li. rewrite (d_pc _ _ _ _ DS). apply (v_cl n s I i Li).
    + rewrite (d_pc _ _ _ _ DS). exact Logic.I.
    + unfold inflight. cbn [with_bg with_q a_q a_bg]. rewrite (d_pc _ _ _ _ DS), (d_tr _ _ _ _ DS), popped_app. cbn. rewrite app_nil_r. exact VE.
    + rewrite (seen_start _ _ _ _ _ DS), Nat.add_0_r. apply I.
    + intro H; congruence.
    + discriminate.
    + intro H. destruct (v_last n s I H) as [_ [X|X]]; congruence.
    + intros i H. pose proof (v_ret n s I i H). congruence.
    + intro p. rewrite (seen_start _ _ _ _ _ DS), Nat.add_0_r. apply I.
Qed.

Lemma AInv_begin : forall n s s', AInv n s -> astep s ABegin = Some s' -> AInv n s'.
Proof.
  intros n s s' I E. unfold astep in E. destruct (a_terminated s) eqn:T; [discriminate|]. destruct (a_bg s) eqn:B; try discriminate.
  destruct (pc (a_q s) 0) as [[[|c| | |]|]| | | | | | |] eqn:P; try discriminate. injection E as <-.
  pose proof (v_exec n s I) as VE. unfold inflight in VE. rewrite B, P in VE. cbn [inflight_pc] in VE.
  pose proof (v_one n s I) as VO. rewrite B in VO.
  assert (ND : a_done s = false).
  { destruct (a_done s) eqn:D; auto. destruct (v_done n s I D) as [_ [X|X]]; congruence. }
  assert (NS : ~ In Shutdown (executed (a_tr s))).
  { intro H. destruct (v_last n s I H) as [_ [X|X]]; congruence. }
  assert (EX : executed (a_tr s ++ [EvBegin c]) = executed (a_tr s) ++ [c]) by (rewrite executed_app; reflexivity).
  constructor; cbn [a_note with_bg a_q a_done a_bg a_cl a_prom a_terminated a_tr]; try apply I; auto.
  - rewrite P. exact Logic.I.
  - rewrite EX. unfold inflight. cbn. now rewrite app_nil_r.
  - cbn [running]. apply oa_begin. exact VO.
  - congruence.
  - discriminate.
  - rewrite EX. intro H. apply in_app_or in H. destruct H as [H|[->|[]]]; [contradiction|]. split; [eexists; split; [reflexivity|exact NS]|auto].
  - intros i H. pose proof (v_ret n s I i H). congruence.
  - intro p. replace (ends p (a_tr s ++ [EvBegin c])) with (ends p (a_tr s)) by (rewrite ends_app; symmetry; apply app_nil_r). exact (v_prom n s I p).
Qed.

Lemma times_0 : forall c l, times c l = 0 -> ~ In c l.
Proof. intros c l H X. apply (count_occ_In cb_eq_dec) in X. unfold times in H. lia. Qed.
Lemma times_map : forall p tr, times (Task p) (map fst (ended tr)) = length (ends p tr).
Proof.
  intros p tr. unfold ends. induction (ended tr) as [|[c o] l IH]; [reflexivity|]. unfold times in *. cbn [map fst count_occ filter].
  destruct (cb_eq_dec c (Task p)); cbn [length]; congruence.
Qed.

Lemma nth_error_upd : forall A (d : A) l i (v : A) j, nth_error (upd l i v) j = if Nat.eqb i j then match nth_error l j with None => None | Some _ => Some v end else nth_error l j.
Proof.
  intros A d l i v. revert l. induction i as [|i IH]; intros [|a l] [|j]; cbn; auto. destruct (Nat.eqb i j); reflexivity.
Qed.

Lemma AInv_end : forall n s o s', AInv n s -> astep s (AEnd o) = Some s' -> AInv n s'.
Proof.
  intros n s o s' I E. unfold astep in E. destruct (a_terminated s) eqn:T; [discriminate|]. destruct (a_bg s) as [| |c|c|] eqn:B; try discriminate.
  injection E as <-.
  pose proof (v_bg n s I) as VB. rewrite B in VB. pose proof (v_exec n s I) as VE. unfold inflight in VE. rewrite B in VE.
  pose proof (v_one n s I) as VO. rewrite B in VO. cbn [running] in VO.
  assert (ND : a_done s = false).
  { destruct (a_done s) eqn:D; auto. destruct (v_done n s I D) as [_ [X|X]]; congruence. }
  assert (EX : executed (a_tr s ++ [EvEnd c o]) = executed (a_tr s)) by (rewrite executed_app; cbn; now rewrite app_nil_r).
  assert (NB : forall i, cl s i <> DDone) by (intros i H; pose proof (v_ret n s I i H); congruence).
  assert (O1 : one_at_a_time (a_tr s ++ [EvEnd c o]) None) by (now apply oa_end).
  pose proof (one_executed _ _ VO) as OE. cbn [app] in OE.
  assert (EN : forall p, ends p (a_tr s ++ [EvEnd c o]) = ends p (a_tr s) ++ if cb_eq_dec c (Task p) then [(c, o)] else []).
  { intro p. rewrite ends_app. unfold ends at 2. cbn [ended flat_map filter app fst]. destruct (cb_eq_dec c (Task p)); reflexivity. }
  assert (SAME : forall P : nat, c <> Task P -> ends P (a_tr s ++ [EvEnd c o]) = ends P (a_tr s)).
  { intros P N. rewrite EN. destruct (cb_eq_dec c (Task P)); [contradiction|apply app_nil_r]. }
  assert (LAST : In Shutdown (executed (a_tr s)) -> c = Shutdown /\ exists l, executed (a_tr s) = l ++ [Shutdown] /\ ~ In Shutdown l).
  { intro H. destruct (v_last n s I H) as [H1 [H2|H2]]; [|congruence]. split; [congruence|exact H1]. }
  destruct c as [m|p|].
  - assert (R : AInv n (a_note (with_bg s BTest) (EvEnd (User m) o)) /\ AInv n (terminate (a_note (with_bg s BTest) (EvEnd (User m) o)))).
    { split; (constructor; cbn [terminate a_note with_bg a_q a_done a_bg a_cl a_prom a_terminated a_tr]; try apply I; rewrite ?EX; auto;
        try discriminate; try (intro H; congruence); try (intro H; destruct (LAST H); discriminate); try (intros i H; exfalso; exact (NB i H))).
      all: intro p; rewrite SAME by discriminate; exact (v_prom n s I p). }
    destruct o; apply R.
  - (* the promise of the task *)
    assert (IN : In (Task p) (executed (a_tr s))) by (rewrite OE; apply in_or_app; right; left; reflexivity).
    pose proof (seen_executed n s (Task p) I) as SE. apply (count_occ_In cb_eq_dec) in IN. fold (times (Task p) (executed (a_tr s))) in IN.
    pose proof (v_task n s I p) as VT.
    assert (E0 : ends p (a_tr s) = []).
    { apply length_zero_iff_nil. rewrite <- times_map.
      rewrite OE, times_app in SE, IN. cbn [times count_occ] in SE. unfold times in SE at 2. cbn [count_occ] in SE.
      destruct (cb_eq_dec (Task p) (Task p)); [|congruence]. destruct (nth_error (a_prom s) p) as [[]|]; lia. }
    assert (EXI : exists r, nth_error (a_prom s) p = Some r /\ r <> NullWorker).
    { destruct (nth_error (a_prom s) p) as [r|]; [|lia]. exists r. split; auto. intros ->. lia. }
    destruct EXI as (r & NR & NN).
    constructor; cbn [with_prom a_note with_bg a_q a_done a_bg a_cl a_prom a_terminated a_tr]; try apply I; rewrite ?EX; auto;
        try discriminate; try (intro H; congruence); try (intro H; destruct (LAST H); discriminate); try (intros i H; exfalso; exact (NB i H)).
    + intro p'. rewrite (v_task n s I p'). rewrite (nth_error_upd _ Pending). destruct (Nat.eqb_spec p p') as [<-|]; [|reflexivity].
      rewrite NR. destruct r; try reflexivity. congruence.
    + intro p'. rewrite (nth_error_upd _ Pending). destruct (Nat.eqb_spec p p') as [<-|NE].
      * rewrite NR, EN, E0. destruct (cb_eq_dec (Task p) (Task p)); [reflexivity|congruence].
      * rewrite SAME by congruence. exact (v_prom n s I p').
  - constructor; cbn [set_done a_note with_bg a_q a_done a_bg a_cl a_prom a_terminated a_tr]; try apply I; rewrite ?EX; auto;
        try discriminate; try (intros i H; exfalso; exact (NB i H)).
    + intros _. split; auto. rewrite OE. apply in_or_app. right. now left.
    + intro H. destruct (LAST H). auto.
    + intro p. rewrite SAME by discriminate. exact (v_prom n s I p).
Qed.

Lemma AInv_bgsend : forall n s c s', AInv n s -> astep s (ABgSend c) = Some s' -> AInv n s'.
Proof.
  intros n s c s' I E. unfold astep in E. destruct (a_terminated s) eqn:T; [discriminate|]. destruct (a_bg s) as [| |[m|p|]|d|] eqn:B; try discriminate.
  destruct c as [k| |]; try discriminate.
  destruct (start s 0 (OPush (User k))) as [s1|] eqn:S; [|discriminate]. injection E as <-. destruct (start_inv _ _ _ _ S) as (q' & -> & Q).
  pose proof (start_started _ _ _ _ Q) as DS.
  pose proof (v_exec n s I) as VE. unfold inflight in VE. rewrite B in VE. pose proof (v_one n s I) as VO. rewrite B in VO.
  constructor; cbn [with_bg with_q a_q a_done a_bg a_cl a_prom a_terminated a_tr]; try apply I; auto.
  - eapply qr_step; [apply I|exact Q].
  - rewrite (d_len _ _ _ _ DS). apply I.
  - intros i Li. rewrite (d_pc _ _ _ _ DS). apply (v_cl n s I i Li).
  - rewrite (d_pc _ _ _ _ DS). cbn. eauto.
  - unfold inflight. cbn [with_bg with_q a_q a_bg]. rewrite (d_tr _ _ _ _ DS), popped_app. cbn. rewrite app_nil_r. exact VE.
  - rewrite (seen_start _ _ _ _ _ DS). cbn. rewrite Nat.add_0_r. apply I.
  - intro H. destruct (v_done n s I H) as [_ [X|X]]; congruence.
  - discriminate.
  - intro H. destruct (v_last n s I H) as [_ [X|X]]; [congruence|]. destruct (v_done n s I X) as [_ [Y|Y]]; congruence.
  - intros i H. pose proof (v_ret n s I i H). congruence.
  - intro p. rewrite (seen_start _ _ _ _ _ DS). destruct (cb_eq_dec (User k) (Task p)); [discriminate|]. rewrite Nat.add_0_r. apply I.
Qed.

Lemma AInv_bgsent : forall n s s', AInv n s -> astep s ABgSent = Some s' -> AInv n s'.
Proof.
  intros n s s' I E. unfold astep in E. destruct (a_terminated s) eqn:T; [discriminate|]. destruct (a_bg s) as [| | |d|] eqn:B; try discriminate.
  unfold returned in E. destruct (pc (a_q s) 0) eqn:P; try discriminate. injection E as <-.
  pose proof (v_exec n s I) as VE. unfold inflight in VE. rewrite B in VE. pose proof (v_one n s I) as VO. rewrite B in VO.
  constructor; cbn [with_bg with_q a_q a_done a_bg a_cl a_prom a_terminated a_tr]; try apply I; auto.
  - rewrite P. exact Logic.I.
  - intro H. destruct (v_done n s I H) as [_ [X|X]]; congruence.
  - discriminate.
  - intro H. destruct (v_last n s I H) as [_ [X|X]]; [congruence|]. destruct (v_done n s I X) as [_ [Y|Y]]; congruence.
  - intros i H. pose proof (v_ret n s I i H). congruence.
Qed.

(** a client step that changes only its own pc and adds a quiet event *)
Lemma cl_lt : forall n s i c, AInv n s -> cl s i = c -> c <> CIdle -> i < n.
Proof.
  intros n s i c I H N. rewrite <- (v_lc n s I). apply (get_in CIdle). unfold cl in H. congruence.
Qed.

Lemma AInv_client : forall n s i c tr, AInv n s -> i < n -> is_dtor c = is_dtor (cl s i) -> ok_cl c (pc (a_q s) (S i)) ->
  (c = DDone -> a_bg s = BExit) -> cl s i <> DDone ->
  (tr = [] \/ exists e, tr = [e] /\ quiet_ev e = true) ->
  AInv n (mkA (a_q s) (a_done s) (a_bg s) (upd (a_cl s) i c) (a_prom s) (a_terminated s) (a_tr s ++ tr)).
Proof.
  intros n s i c tr I Li DI OK DD NDD TR.
  assert (EX : executed (a_tr s ++ tr) = executed (a_tr s)) by (destruct TR as [->|(e & -> & Q)]; [now rewrite app_nil_r|now apply executed_quiet]).
  assert (EN : forall p, ends p (a_tr s ++ tr) = ends p (a_tr s)) by (intro p; destruct TR as [->|(e & -> & Q)]; [now rewrite app_nil_r|now apply ends_quiet]).
  assert (ON : forall r, one_at_a_time (a_tr s) r -> one_at_a_time (a_tr s ++ tr) r) by (intros r H; destruct TR as [->|(e & -> & Q)]; [now rewrite app_nil_r|now apply one_quiet]).
  assert (CT : count is_dtor (upd (a_cl s) i c) = count is_dtor (a_cl s)) by (pose proof (count_cl n s i c I Li) as X; rewrite DI in X; lia).
  assert (CG : forall j, get CIdle (upd (a_cl s) i c) j = if Nat.eqb j i then c else cl s j) by (intro j; apply get_upd; now rewrite (v_lc n s I)).
  constructor; cbn [a_q a_done a_bg a_cl a_prom a_terminated a_tr]; try apply I; rewrite ?EX; try apply I.
  - rewrite upd_length. apply I.
  - intros j Lj. unfold cl. cbn [a_cl]. rewrite CG. destruct (Nat.eqb_spec j i) as [->|]; [exact OK|now apply I].
  - apply ON, I.
  - rewrite CT. apply I.
  - rewrite CT. apply I.
  - intro j. unfold cl. cbn [a_cl]. rewrite CG. destruct (Nat.eqb_spec j i) as [->|]; [exact DD|now apply I].
  - intro p. rewrite EN. pose proof (v_prom n s I p) as V. destruct (nth_error (a_prom s) p) as [[]|]; auto.
    destruct V as (V & j & Vj). split; auto. exists j. unfold cl. cbn [a_cl]. rewrite CG. destruct (Nat.eqb_spec j i) as [->|]; [congruence|exact Vj].
Qed.

(** a client calls push *)
Lemma AInv_push : forall n s i c d q' pr e, AInv n s -> i < n -> cl s i = CIdle -> qstep (a_q s) (Start (S i) (OPush d)) = Some q' ->
  ok_push (fun x => x = d) (Lock (OPush d)) -> ok_cl c (Lock (OPush d)) -> c <> DDone ->
  count is_dtor (a_cl s) + b2n (is_dtor c) = count is_dtor (a_cl s) + (if cb_eq_dec d Shutdown then 1 else 0) ->
  count is_dtor (a_cl s) + b2n (is_dtor c) <= 1 ->
  quiet_ev e = true ->
  (forall p, nth_error (a_prom s ++ pr) p = nth_error (a_prom s) p \/
             (nth_error (a_prom s) p = None /\ nth_error (a_prom s ++ pr) p = Some Pending)) ->
  (forall p, (if cb_eq_dec d (Task p) then 1 else 0) =
     match nth_error (a_prom s) p with Some _ => 0 | None => match nth_error (a_prom s ++ pr) p with Some _ => 1 | None => 0 end end) ->
  AInv n (mkA q' (a_done s) (a_bg s) (upd (a_cl s) i c) (a_prom s ++ pr) (a_terminated s) (a_tr s ++ [e])).
Proof.
  intros n s i c d q' pr e I Li CI Q _ OK ND CE CL QE PR TK.
  pose proof (start_started _ _ _ _ Q) as DS.
  assert (CT : count is_dtor (upd (a_cl s) i c) = count is_dtor (a_cl s) + b2n (is_dtor c)) by (pose proof (count_cl n s i c I Li) as X; rewrite CI in X; cbn in X; lia).
  assert (CG : forall j, get CIdle (upd (a_cl s) i c) j = if Nat.eqb j i then c else cl s j) by (intro j; apply get_upd; now rewrite (v_lc n s I)).
  constructor; cbn [a_q a_done a_bg a_cl a_prom a_terminated a_tr]; rewrite ?(executed_quiet _ _ QE); try apply I.
  - eapply qr_step; [apply I|exact Q].
  - rewrite (d_len _ _ _ _ DS). apply I.
  - rewrite upd_length. apply I.
  - intros j Lj. unfold cl. cbn [a_cl]. rewrite CG, (d_pc _ _ _ _ DS). cbn [Nat.eqb]. destruct (Nat.eqb_spec j i) as [->|]; [exact OK|now apply I].
  - rewrite (d_pc _ _ _ _ DS). apply I.
  - rewrite (d_tr _ _ _ _ DS), popped_app. cbn [popped flat_map app]. rewrite app_nil_r. unfold inflight. cbn [a_bg a_q]. rewrite (d_pc _ _ _ _ DS). apply I.
  - apply one_quiet; auto. apply I.
  - rewrite (seen_start _ _ _ _ _ DS), CT, (v_shut n s I). lia.
  - rewrite CT. exact CL.
  - intro j. unfold cl. cbn [a_cl]. rewrite CG. destruct (Nat.eqb_spec j i) as [->|]; [contradiction|now apply I].
  - intro p. rewrite (seen_start _ _ _ _ _ DS), (v_task n s I p), TK. destruct (PR p) as [->|[H1 H2]].
    + destruct (nth_error (a_prom s) p) as [[]|]; reflexivity.
    + rewrite H1, H2. reflexivity.
  - intro p. rewrite (ends_quiet _ _ _ QE). pose proof (v_prom n s I p) as V. destruct (PR p) as [->|[H1 H2]].
    + destruct (nth_error (a_prom s) p) as [[]|]; auto. destruct V as (V & j & Vj). split; auto. exists j. unfold cl. cbn [a_cl]. rewrite CG.
      destruct (Nat.eqb_spec j i) as [->|]; [congruence|exact Vj].
    + rewrite H2. rewrite H1 in V. exact V.
Qed.

Lemma started_lt : forall n s i q' o, AInv n s -> qstep (a_q s) (Start (S i) o) = Some q' -> i < n.
Proof. intros n s i q' o I Q. pose proof (d_lt _ _ _ _ (start_started _ _ _ _ Q)) as L. rewrite (v_lq n s I) in L. lia. Qed.

Lemma dtor_begun_count : forall s, dtor_begun s = false -> count is_dtor (a_cl s) = 0.
Proof.
  intros s H. unfold dtor_begun in H. unfold count. induction (a_cl s) as [|c l IH]; [reflexivity|]. cbn in *. apply orb_false_elim in H. destruct H as [H1 H2].
  rewrite H1. auto.
Qed.

Lemma AInv_step : forall n s a s', AInv n s -> astep s a = Some s' -> AInv n s'.
Proof.
  intros n s a s' I E. destruct a as [qa| | |o|c| |i m|i|i|i|i|i|i].
  - unfold astep in E. destruct (a_terminated s); [discriminate|]. destruct (is_internal qa) eqn:IN; [|discriminate].
    destruct (qstep (a_q s) qa) as [q'|] eqn:Q; [|discriminate]. injection E as <-. eapply AInv_queue; eauto.
  - eapply AInv_test; eauto.
  - eapply AInv_begin; eauto.
  - eapply AInv_end; eauto.
  - eapply AInv_bgsend; eauto.
  - eapply AInv_bgsent; eauto.
  - unfold astep in E. destruct (a_terminated s) eqn:T; [discriminate|]. destruct (cl s i) eqn:CI; try discriminate.
    destruct (existsb _ (a_cl s)) eqn:X; [discriminate|]. destruct (start s (S i) (OPush (User m))) as [s1|] eqn:S; [|discriminate].
    injection E as <-. destruct (start_inv _ _ _ _ S) as (q' & -> & Q). pose proof (started_lt n s i q' _ I Q) as Li.
    unfold a_note, with_cl, with_q. cbn [a_q a_done a_bg a_cl a_prom a_terminated a_tr]. rewrite <- (app_nil_r (a_prom s)).
    rewrite T. rewrite <- T. eapply AInv_push; eauto; cbn; try discriminate; auto.
    + rewrite Nat.add_0_r. apply I.
    + intro p. rewrite app_nil_r. auto.
    + intro p. rewrite app_nil_r. destruct (nth_error (a_prom s) p); reflexivity.
  - unfold astep in E. destruct (a_terminated s) eqn:T; [discriminate|]. destruct (cl s i) eqn:CI; try discriminate.
    destruct (existsb _ (a_cl s)) eqn:X; [discriminate|]. destruct (start s (S i) (OPush (Task (length (a_prom s))))) as [s1|] eqn:S; [|discriminate].
    injection E as <-. destruct (start_inv _ _ _ _ S) as (q' & -> & Q). pose proof (started_lt n s i q' _ I Q) as Li.
    unfold a_note, with_prom, with_cl, with_q. cbn [a_q a_done a_bg a_cl a_prom a_terminated a_tr].
    rewrite T. rewrite <- T. eapply AInv_push; eauto; cbn; try discriminate; auto.
    + rewrite Nat.add_0_r. apply I.
    + intro p. destruct (Nat.lt_ge_cases p (length (a_prom s))) as [L|L]; [left; now apply nth_error_app1|].
      destruct (Nat.eq_dec p (length (a_prom s))) as [->|N].
      * right. split; [now apply nth_error_None|]. rewrite nth_error_app2, Nat.sub_diag by lia. reflexivity.
      * left. rewrite nth_error_app2 by lia. transitivity (@None promise); [|symmetry; now apply nth_error_None].
        apply nth_error_None. cbn. lia.
    + intro p. destruct (Nat.lt_ge_cases p (length (a_prom s))) as [L|L].
      * destruct (nth_error (a_prom s) p) eqn:NE; [|apply nth_error_None in NE; lia].
        match goal with |- (if ?d then _ else _) = _ => destruct d as [EQ|_] end; [injection EQ; lia|reflexivity].
      * replace (nth_error (a_prom s) p) with (@None promise) by (symmetry; now apply nth_error_None).
        rewrite nth_error_app2 by lia.
        match goal with |- (if ?d then _ else _) = _ => destruct d as [EQ|NQ] end.
        -- injection EQ as <-. rewrite Nat.sub_diag. reflexivity.
        -- destruct (p - length (a_prom s)) as [|k] eqn:K; [exfalso; apply NQ; f_equal; lia|]. cbn. now rewrite nth_error_nil.
  - (* ASpawnNull *)
    unfold astep in E. destruct (a_terminated s) eqn:T; [discriminate|]. destruct (cl s i) eqn:CI; try discriminate. injection E as <-.
    assert (NE : forall p, nth_error (a_prom s ++ [NullWorker]) p = nth_error (a_prom s) p \/
             (nth_error (a_prom s) p = None /\ nth_error (a_prom s ++ [NullWorker]) p = Some NullWorker)).
    { intro p. destruct (Nat.lt_ge_cases p (length (a_prom s))) as [L|L]; [left; now apply nth_error_app1|].
      destruct (Nat.eq_dec p (length (a_prom s))) as [->|N].
      * right. split; [now apply nth_error_None|]. rewrite nth_error_app2, Nat.sub_diag by lia. reflexivity.
      * left. rewrite nth_error_app2 by lia. transitivity (@None promise); [|symmetry; now apply nth_error_None].
        apply nth_error_None. cbn. lia. }
    constructor; cbn [with_prom a_q a_done a_bg a_cl a_prom a_terminated a_tr]; try apply I.
    + intro p. rewrite (v_task n s I p). destruct (NE p) as [->|[-> ->]]; reflexivity.
    + intro p. pose proof (v_prom n s I p) as V. destruct (NE p) as [->|[H1 H2]]; [exact V|]. rewrite H2. rewrite H1 in V. exact V.
  - unfold astep in E. destruct (a_terminated s) eqn:T; [discriminate|]. destruct (cl s i) eqn:CI; try discriminate.
    unfold returned in E. destruct (pc (a_q s) (S i)) eqn:P; try discriminate. injection E as <-.
    unfold a_note, with_cl. cbn [a_q a_done a_bg a_cl a_prom a_terminated a_tr]. eapply AInv_client; eauto; try (rewrite CI; discriminate); try (rewrite CI; reflexivity); try discriminate.
    + eapply cl_lt; eauto. discriminate.
    + rewrite P. exact Logic.I.
  - unfold astep in E. destruct (a_terminated s) eqn:T; [discriminate|]. destruct (cl s i) eqn:CI; try discriminate.
    destruct (dtor_begun s) eqn:X; [discriminate|]. destruct (start s (S i) (OPush Shutdown)) as [s1|] eqn:S; [|discriminate].
    injection E as <-. destruct (start_inv _ _ _ _ S) as (q' & -> & Q). pose proof (started_lt n s i q' _ I Q) as Li.
    unfold a_note, with_cl, with_q. cbn [a_q a_done a_bg a_cl a_prom a_terminated a_tr]. rewrite <- (app_nil_r (a_prom s)).
    rewrite T. rewrite <- T. eapply AInv_push; eauto; cbn; try discriminate; auto.
    + rewrite (dtor_begun_count s X). lia.
    + intro p. rewrite app_nil_r. auto.
    + intro p. rewrite app_nil_r. destruct (nth_error (a_prom s) p); reflexivity.
  - unfold astep in E. destruct (a_terminated s) eqn:T; [discriminate|]. destruct (cl s i) eqn:CI; try discriminate.
    unfold returned in E. destruct (pc (a_q s) (S i)) eqn:P; try discriminate. injection E as <-.
    unfold with_cl. rewrite <- (app_nil_r (a_tr s)). eapply AInv_client; eauto; try (rewrite CI; discriminate); try (rewrite CI; reflexivity); try discriminate.
    + eapply cl_lt; eauto. discriminate.
    + rewrite P. exact Logic.I.
  - unfold astep in E. destruct (a_terminated s) eqn:T; [discriminate|]. destruct (cl s i) eqn:CI; try discriminate. destruct (a_bg s) eqn:B; try discriminate. injection E as <-.
    assert (Li : i < n) by (eapply cl_lt; eauto; discriminate).
    assert (K : AInv n (mkA (a_q s) (a_done s) (a_bg s) (upd (a_cl s) i DDone) (a_prom s) (a_terminated s) (a_tr s ++ [EvDtorRet i]))).
    { eapply AInv_client; eauto; try (rewrite CI; discriminate); try (rewrite CI; reflexivity). pose proof (v_cl n s I i Li) as V. rewrite CI in V. exact V. }
    assert (NE : forall p, nth_error (break_promises (a_prom s)) p = option_map (fun p => match p with Pending => Broken | _ => p end) (nth_error (a_prom s) p)) by (intro p; apply nth_error_map).
    constructor; cbn [a_note with_prom with_cl a_q a_done a_bg a_cl a_prom a_terminated a_tr]; try apply K.
    + intro p. pose proof (v_task n _ K p) as V. cbn [a_q a_prom] in V. rewrite V, NE. destruct (nth_error (a_prom s) p) as [[]|]; reflexivity.
    + intro p. pose proof (v_prom n _ K p) as V. cbn [a_tr a_prom] in V. rewrite NE. destruct (nth_error (a_prom s) p) as [[]|]; cbn [option_map]; auto.
      split; auto. exists i. unfold cl. cbn [a_cl a_note with_prom with_cl]. rewrite get_upd by (rewrite (v_lc n s I); exact Li). now rewrite Nat.eqb_refl.
Qed.

Lemma AInv_steps : forall n s s', AInv n s -> asteps s s' -> AInv n s'.
Proof. intros n s s' I H. induction H; auto. eapply AInv_step; [apply IHasteps; exact I|eassumption]. Qed.
Lemma AInv_reach : forall n s, areach n s -> AInv n s.
Proof. intros n s H. eapply AInv_steps; [apply AInv_init|exact H]. Qed.

(** what was pushed stays *)
Lemma pushed_grows : forall n s s', AInv n s -> asteps s s' -> prefix (pushed (q_trace (a_q s))) (pushed (q_trace (a_q s'))).
Proof.
  intros n s s' I H. induction H as [|s s1 a s2 H IH E]; [exists []; now rewrite app_nil_r|].
  assert (I1 : AInv n s1) by (eapply AInv_steps; eauto). destruct (IH I) as (r & R).
  assert (G : forall q', a_q s2 = q' -> (a_q s1 = q' \/ exists qa, qstep (a_q s1) qa = Some q') -> prefix (pushed (q_trace (a_q s))) (pushed (q_trace q'))).
  { intros q' _ [<-|(qa & Q)]; [exists r; exact R|].
    assert (X : exists es, q_trace q' = q_trace (a_q s1) ++ es).
    { destruct (is_internal qa) eqn:IN.
      - destruct (qstep_view _ qa q' (QInv_reach _ _ (v_q n s1 I1)) Q) as (t & es & V); [intros u o ->; discriminate|]. exists es. apply (w_tr _ _ _ _ V).
      - destruct qa; try discriminate. eexists. apply (d_tr _ _ _ _ (start_started _ _ _ _ Q)). }
    destruct X as (es & ->). rewrite pushed_app, R, <- app_assoc. eexists. reflexivity. }
  apply (G (a_q s2) eq_refl). clear G.
  destruct a as [qa| | |o|c| |i m|i|i|i|i|i|i]; unfold astep in E; destruct (a_terminated s1); try discriminate.
  - destruct (is_internal qa); [|discriminate]. destruct (qstep (a_q s1) qa) as [q'|] eqn:Q; [|discriminate]. injection E as <-. right. eauto.
  - destruct (a_bg s1); try discriminate. destruct (a_done s1); [injection E as <-; left; reflexivity|].
    destruct (start s1 0 OPop) as [x|] eqn:S; [|discriminate]. injection E as <-. destruct (start_inv _ _ _ _ S) as (q' & -> & Q). right. eauto.
  - destruct (a_bg s1); try discriminate. destruct (pc (a_q s1) 0) as [[[]|]| | | | | | |]; try discriminate. injection E as <-. auto.
  - destruct (a_bg s1) as [| |c|c|]; try discriminate. injection E as <-. left. destruct c; try reflexivity. destruct o; reflexivity.
  - destruct (a_bg s1) as [| |[]|d|]; try discriminate. destruct c; try discriminate. destruct (start s1 0 (OPush (User n1))) as [x|] eqn:S; [|discriminate].
    injection E as <-. destruct (start_inv _ _ _ _ S) as (q' & -> & Q). right. eauto.
  - destruct (a_bg s1); try discriminate. destruct (returned s1 0); [|discriminate]. injection E as <-. auto.
  - destruct (cl s1 i); try discriminate. destruct (existsb _ _); [discriminate|]. destruct (start s1 (S i) (OPush (User m))) as [x|] eqn:S; [|discriminate].
    injection E as <-. destruct (start_inv _ _ _ _ S) as (q' & -> & Q). right. eauto.
  - destruct (cl s1 i); try discriminate. destruct (existsb _ _); [discriminate|]. destruct (start s1 (S i) _) as [x|] eqn:S; [|discriminate].
    injection E as <-. destruct (start_inv _ _ _ _ S) as (q' & -> & Q). right. eauto.
  - destruct (cl s1 i); try discriminate. injection E as <-. auto.
  - destruct (cl s1 i); try discriminate. destruct (returned s1 (S i)); [|discriminate]. injection E as <-. auto.
  - destruct (cl s1 i); try discriminate. destruct (dtor_begun s1); [discriminate|]. destruct (start s1 (S i) _) as [x|] eqn:S; [|discriminate].
    injection E as <-. destruct (start_inv _ _ _ _ S) as (q' & -> & Q). right. eauto.
  - destruct (cl s1 i); try discriminate. destruct (returned s1 (S i)); [|discriminate]. injection E as <-. auto.
  - destruct (cl s1 i); try discriminate. destruct (a_bg s1); try discriminate. injection E as <-. auto.
Qed.

(** the queue of callbacks: executed, then taken, then waiting *)
Lemma pushed_split : forall n s, AInv n s -> pushed (q_trace (a_q s)) = executed (a_tr s) ++ inflight s ++ q_content (a_q s).
Proof.
  intros n s I. pose proof (QInv_reach _ _ (v_q n s I)) as QI. rewrite (sequential_fifo _ _ (i_seq _ QI)), (v_exec n s I). now rewrite <- app_assoc.
Qed.

(** *** what each client sent *)
Definition pend (p : qpc cb) : list cb := match p with Lock (OPush c) | Body (OPush c) => [c] | _ => [] end.
Lemma pushed_by_app : forall A t (a b : list (qevent A)), pushed_by t (a ++ b) = pushed_by t a ++ pushed_by t b.
Proof. intros. apply flat_map_app. Qed.
Lemma sent_app : forall i a b, sent i (a ++ b) = sent i a ++ sent i b.
Proof. intros. apply flat_map_app. Qed.

Lemma pend_view : forall s s' t es, view s s' t es -> forall u, pushed_by u es ++ pend (pc s' u) = pend (pc s u).
Proof.
  intros s s' t es V u. pose proof (w_local _ _ _ _ V) as L.
  assert (A : forall e, In e es -> match e with Commit v _ _ => v = t | _ => True end) by (destruct L; intros e []; subst; auto; contradiction).
  destruct (Nat.eq_dec u t) as [->|N].
  - destruct L; try reflexivity; try (destruct o; reflexivity); try (destruct b; reflexivity).
    cbn. now rewrite Nat.eqb_refl.
  - assert (Z : pushed_by u es = []).
    { clear -A N. induction es as [|e es IH]; [reflexivity|]. cbn [pushed_by flat_map]. fold (pushed_by u es). rewrite IH by (intros; apply A; now right). rewrite app_nil_r.
      pose proof (A e (or_introl eq_refl)) as X. destruct e as [| v o r|]; auto. subst v. destruct o; auto. destruct (Nat.eqb_spec t u); [congruence|reflexivity]. }
    rewrite Z. destruct (w_other _ _ _ _ V u N) as [->|[-> ->]]; reflexivity.
Qed.
Lemma pend_start : forall s s' t c, started s s' t (OPush c) -> forall u,
  pushed_by u (q_trace s') = pushed_by u (q_trace s) /\ pend (pc s' u) = pend (pc s u) ++ if Nat.eqb u t then [c] else [].
Proof.
  intros s s' t c D u. split; [rewrite (d_tr _ _ _ _ D), pushed_by_app; apply app_nil_r|].
  rewrite (d_pc _ _ _ _ D). destruct (Nat.eqb_spec u t) as [->|]; [|now rewrite app_nil_r]. destruct (d_idle _ _ _ _ D) as [l ->]. reflexivity.
Qed.

Lemma sent_step : forall n s a s', AInv n s -> (forall i, pushed_by (S i) (q_trace (a_q s)) ++ pend (pc (a_q s) (S i)) = sent i (a_tr s)) ->
  astep s a = Some s' -> forall i, pushed_by (S i) (q_trace (a_q s')) ++ pend (pc (a_q s') (S i)) = sent i (a_tr s').
Proof.
  intros n s a s' I H E i. specialize (H i).
  assert (PUSH : forall j c q', qstep (a_q s) (Start (S j) (OPush c)) = Some q' -> forall e,
    sent i [e] = (if Nat.eqb i j then [c] else []) ->
    pushed_by (S i) (q_trace q') ++ pend (pc q' (S i)) = sent i (a_tr s ++ [e])).
  { intros j c q' Q e SE. destruct (pend_start _ _ _ _ (start_started _ _ _ _ Q) (S i)) as [-> ->]. rewrite app_assoc, H, sent_app, SE. reflexivity. }
  assert (QUIET : forall tr, sent i tr = [] -> pushed_by (S i) (q_trace (a_q s)) ++ pend (pc (a_q s) (S i)) = sent i (a_tr s ++ tr))
    by (intros tr Z; now rewrite sent_app, Z, app_nil_r).
  assert (SELF : forall j c, sent i [EvSend j c] = if Nat.eqb i j then [c] else []) by (intros; cbn; now rewrite app_nil_r, Nat.eqb_sym).
  unfold astep in E; destruct (a_terminated s); [discriminate|].
  destruct a as [qa| | |o|c| |j m|j|j|j|j|j|j].
  - destruct (is_internal qa) eqn:IN; [|discriminate]. destruct (qstep (a_q s) qa) as [q'|] eqn:Q; [|discriminate]. injection E as <-.
    destruct (qstep_view _ qa q' (QInv_reach _ _ (v_q n s I)) Q) as (t & es & V); [intros u o ->; discriminate|].
    cbn [with_q a_q a_tr]. rewrite (w_tr _ _ _ _ V), pushed_by_app, <- app_assoc, (pend_view _ _ _ _ V). exact H.
  - destruct (a_bg s); try discriminate. destruct (a_done s); [injection E as <-; exact H|].
    destruct (start s 0 OPop) as [x|] eqn:S; [|discriminate]. injection E as <-. destruct (start_inv _ _ _ _ S) as (q' & -> & Q).
    pose proof (start_started _ _ _ _ Q) as D. cbn [with_bg with_q a_q a_tr]. rewrite (d_tr _ _ _ _ D), (d_pc _ _ _ _ D), pushed_by_app. cbn [Nat.eqb].
    cbn [pushed_by flat_map]. rewrite !app_nil_r. exact H.
  - destruct (a_bg s); try discriminate. destruct (pc (a_q s) 0) as [[[]|]| | | | | | |]; try discriminate. injection E as <-. now apply QUIET.
  - destruct (a_bg s) as [| |c|c|]; try discriminate. injection E as <-. destruct c; try (now apply QUIET). destruct o; now apply QUIET.
  - destruct (a_bg s) as [| |[]|d|]; try discriminate. destruct c; try discriminate. destruct (start s 0 (OPush (User n1))) as [x|] eqn:S; [|discriminate].
    injection E as <-. destruct (start_inv _ _ _ _ S) as (q' & -> & Q). cbn [with_bg with_q a_q a_tr].
    destruct (pend_start _ _ _ _ (start_started _ _ _ _ Q) (Datatypes.S i)) as [-> ->]. cbn [Nat.eqb]. rewrite app_nil_r. exact H.
  - destruct (a_bg s); try discriminate. destruct (returned s 0); [|discriminate]. injection E as <-. exact H.
  - destruct (cl s j); try discriminate. destruct (existsb _ _); [discriminate|]. destruct (start s (S j) (OPush (User m))) as [x|] eqn:S; [|discriminate].
    injection E as <-. destruct (start_inv _ _ _ _ S) as (q' & -> & Q). cbn [a_note with_cl with_q a_q a_tr]. eapply PUSH; eauto.
  - destruct (cl s j); try discriminate. destruct (existsb _ _); [discriminate|]. destruct (start s (S j) _) as [x|] eqn:S; [|discriminate].
    injection E as <-. destruct (start_inv _ _ _ _ S) as (q' & -> & Q). cbn [a_note with_prom with_cl with_q a_q a_tr a_prom]. eapply PUSH; eauto.
  - destruct (cl s j); try discriminate. injection E as <-. exact H.
  - destruct (cl s j); try discriminate. destruct (returned s (S j)); [|discriminate]. injection E as <-. now apply QUIET.
  - destruct (cl s j); try discriminate. destruct (dtor_begun s); [discriminate|]. destruct (start s (S j) _) as [x|] eqn:S; [|discriminate].
    injection E as <-. destruct (start_inv _ _ _ _ S) as (q' & -> & Q). cbn [a_note with_cl with_q a_q a_tr]. eapply PUSH; eauto.
  - destruct (cl s j); try discriminate. destruct (returned s (S j)); [|discriminate]. injection E as <-. exact H.
  - destruct (cl s j); try discriminate. destruct (a_bg s); try discriminate. injection E as <-. now apply QUIET.
Qed.
Lemma sent_reach : forall n s, areach n s -> forall i, pushed_by (S i) (q_trace (a_q s)) ++ pend (pc (a_q s) (S i)) = sent i (a_tr s).
Proof.
  intros n s R. unfold areach in R. remember (a_init n) as s0 eqn:E0. induction R as [s|s s1 a s2 R IH E].
  - subst. intro i. cbn [a_init a_q a_tr sent flat_map]. unfold pc. cbn [q_init q_pcs q_trace]. rewrite pc_repeat. reflexivity.
  - subst. eapply sent_step; [exact (AInv_reach n s1 R)|apply IH; reflexivity|exact E].
Qed.

(** *** progress *)
Definition wbg (b : bgpc) : nat := match b with BTest => 20 | BPop => 1 | BRun _ => 30 | BSend _ => 31 | BExit => 0 end.
Definition wcl (c : clpc) : nat := match c with CSend => 1 | DSend => 2 | DJoin => 1 | _ => 0 end.
Definition backlog (s : astate) : nat := length (q_content (a_q s)) + count pushing_any (q_pcs (a_q s)) + length (inflight s).
Definition ameasure (s : astate) : nat := measure (a_q s) + 40 * backlog s + wbg (a_bg s) + weigh wcl (a_cl s).

(** what the threads do without new requests *)
Definition ainternal (a : aaction) : bool :=
  match a with
  | AQueue qa => internal qa
  | ATest | ABegin | AEnd _ | ABgSent | ASent _ | ADtorSent _ | ADtorRet _ => true
  | _ => false
  end.

Lemma content_step : forall n s q' es, AInv n s -> QInv q' -> q_trace q' = q_trace (a_q s) ++ es ->
  length (q_content q') + length (popped es) = length (q_content (a_q s)) + length (pushed es).
Proof.
  intros n s q' es I I' E. pose proof (sequential_fifo _ _ (i_seq _ I')) as F'. pose proof (sequential_fifo _ _ (i_seq _ (QInv_reach _ _ (v_q n s I)))) as F.
  rewrite E, pushed_app, popped_app, F, <- !app_assoc in F'. apply app_inv_head in F'. apply (f_equal (@length cb)) in F'. rewrite !app_length in F'. lia.
Qed.

Lemma weigh_cl : forall n s i c, AInv n s -> i < n -> weigh wcl (upd (a_cl s) i c) + wcl (cl s i) = weigh wcl (a_cl s) + wcl c.
Proof. intros n s i c I L. apply weigh_upd. now rewrite (v_lc n s I). Qed.

Lemma ainternal_decreases : forall n s a s', AInv n s -> astep s a = Some s' -> ainternal a = true -> ameasure s' < ameasure s.
Proof.
  intros n s a s' I E IN. pose proof (QInv_reach _ _ (v_q n s I)) as QI. pose proof (AInv_step n s a s' I E) as I'.
  unfold astep in E; destruct (a_terminated s); [discriminate|].
  destruct a as [qa| | |o|c| |j m|j|j|j|j|j|j]; try discriminate IN.
  - destruct (is_internal qa) eqn:IQ; [|discriminate]. destruct (qstep (a_q s) qa) as [q'|] eqn:Q; [|discriminate]. injection E as <-. cbn [ainternal] in IN.
    pose proof (internal_decreases _ _ _ QI Q IN) as M. destruct (qstep_view _ qa q' QI Q) as (t & es & V); [intros u o ->; discriminate|].
    pose proof (QInv_step _ _ _ QI Q) as QI'.
    pose proof (content_step n s q' es I QI' (w_tr _ _ _ _ V)) as CS.
    pose proof (w_count _ _ _ _ V pushing_any eq_refl) as CP.
    pose proof (v_exec n _ I') as VE'. pose proof (v_exec n s I) as VE. cbn [with_q a_q a_tr] in VE'. rewrite (w_tr _ _ _ _ V), popped_app, VE, <- app_assoc in VE'.
    apply app_inv_head in VE'. apply (f_equal (@length cb)) in VE'. rewrite app_length in VE'.
    assert (B : length (pushed es) + b2n (pushing_any (pc q' t)) = b2n (pushing_any (pc (a_q s) t))).
    { pose proof (w_local _ _ _ _ V) as L. destruct L; try reflexivity; try (destruct o; reflexivity); try (destruct b; reflexivity). }
    unfold ameasure, backlog. cbn [with_q a_q a_bg a_cl]. lia.
  - destruct (a_bg s) eqn:B; try discriminate. destruct (a_done s).
    + injection E as <-. unfold ameasure, backlog, inflight. cbn [with_bg a_q a_bg a_cl]. rewrite B. cbn [wbg]. lia.
    + destruct (start s 0 OPop) as [x|] eqn:S; [|discriminate]. injection E as <-. destruct (start_inv _ _ _ _ S) as (q' & -> & Q).
      pose proof (start_started _ _ _ _ Q) as D. unfold ameasure, backlog, inflight. cbn [with_bg with_q a_q a_bg a_cl]. rewrite B.
      rewrite (d_content _ _ _ _ D), (d_count _ _ _ _ D pushing_any) by reflexivity. rewrite (d_pc _ _ _ _ D). cbn [Nat.eqb inflight_pc length b2n pushing_any wbg].
      assert (M : measure q' = measure (a_q s) + 9).
      { cbn [qstep] in Q. pose proof (v_bg n s I) as VB. rewrite B in VB. destruct (pc (a_q s) 0) as [l| | | | | | |] eqn:P; try discriminate.
        destruct (Nat.ltb_spec 0 (length (q_pcs (a_q s)))) as [L|]; [|discriminate]. injection Q as <-.
        pose proof (measure_goto (note (a_q s) (Call 0 OPop)) 0 (Lock OPop) L) as M. change (pc (note (a_q s) (Call 0 OPop)) 0) with (pc (a_q s) 0) in M. rewrite P in M.
        cbn [weight' weight] in M. change (measure (note (a_q s) (Call 0 OPop))) with (measure (a_q s)) in M. lia. }
      lia.
  - destruct (a_bg s) eqn:B; try discriminate. destruct (pc (a_q s) 0) as [[[]|]| | | | | | |] eqn:P; try discriminate. injection E as <-.
    unfold ameasure, backlog, inflight. cbn [a_note with_bg a_q a_bg a_cl]. rewrite B, P. cbn. lia.
  - destruct (a_bg s) as [| |c|c|] eqn:B; try discriminate. injection E as <-.
    assert (K : forall x, a_q x = a_q s -> a_bg x = BTest -> a_cl x = a_cl s -> ameasure x < ameasure s).
    { intros x X1 X2 X3. unfold ameasure, backlog, inflight. rewrite X1, X2, X3, B. cbn [wbg length]. lia. }
    apply K; destruct c; try reflexivity; destruct o; reflexivity.
  - destruct (a_bg s) eqn:B; try discriminate. destruct (returned s 0); [|discriminate]. injection E as <-.
    unfold ameasure, backlog, inflight. cbn [with_bg a_q a_bg a_cl]. rewrite B. cbn [wbg]. lia.
  - destruct (cl s j) eqn:C; try discriminate. destruct (returned s (S j)); [|discriminate]. injection E as <-.
    pose proof (weigh_cl n s j CIdle I (cl_lt n s j _ I C ltac:(discriminate))) as W. rewrite C in W. cbn [wcl] in W.
    unfold ameasure, backlog, inflight. cbn [a_note with_cl a_q a_bg a_cl]. lia.
  - destruct (cl s j) eqn:C; try discriminate. destruct (returned s (S j)); [|discriminate]. injection E as <-.
    pose proof (weigh_cl n s j DJoin I (cl_lt n s j _ I C ltac:(discriminate))) as W. rewrite C in W. cbn [wcl] in W.
    unfold ameasure, backlog, inflight. cbn [a_note with_cl a_q a_bg a_cl]. lia.
  - destruct (cl s j) eqn:C; try discriminate. destruct (a_bg s) eqn:B; try discriminate. injection E as <-.
    pose proof (weigh_cl n s j DDone I (cl_lt n s j _ I C ltac:(discriminate))) as W. rewrite C in W. cbn [wcl] in W.
    unfold ameasure, backlog, inflight. cbn [a_note with_prom with_cl a_q a_bg a_cl]. rewrite B. cbn [wbg]. lia.
Qed.

(** nothing more to do *)
Lemma quiescent : forall n s, AInv n s -> a_terminated s = false -> (forall a s', astep s a = Some s' -> ainternal a = false) ->
  (forall t, pc (a_q s) t = Sleep \/ exists l, pc (a_q s) t = Idle l) /\
  (forall i, cl s i = CIdle \/ cl s i = DDone) /\
  (a_bg s = BExit \/ (a_bg s = BPop /\ pc (a_q s) 0 = Sleep /\ q_content (a_q s) = [] /\ inflight s = [] /\ dtor_begun s = false)).
Proof.
  intros n s I T ST. pose proof (QInv_reach _ _ (v_q n s I)) as QI.
  assert (QS : forall qa q', qstep (a_q s) qa = Some q' -> internal qa = false).
  { intros qa q' Q. destruct (internal qa) eqn:IN; auto. assert (X : astep s (AQueue qa) = Some (with_q s q')).
    { unfold astep. rewrite T. replace (is_internal qa) with true by (destruct qa; auto; discriminate). now rewrite Q. }
    apply ST in X. cbn in X. congruence. }
  pose proof (stuck_pcs _ QI QS) as SP. split; [exact SP|].
  assert (EN : forall a s', astep s a = Some s' -> ainternal a = true -> False) by (intros a s' X Y; apply ST in X; congruence).
  assert (BG : a_bg s = BExit \/ (a_bg s = BPop /\ pc (a_q s) 0 = Sleep /\ q_content (a_q s) = [] /\ inflight s = [])).
  { pose proof (v_bg n s I) as VB. destruct (a_bg s) as [| |c|c|] eqn:B; auto; cbn [ok_bg] in VB.
    - exfalso. destruct (a_done s) eqn:D.
      + apply (EN ATest (with_bg s BExit)); [unfold astep; now rewrite T, B, D|reflexivity].
      + assert (X : exists q', qstep (a_q s) (Start 0 OPop) = Some q').
        { cbn [qstep]. destruct (pc (a_q s) 0); try contradiction. rewrite (v_lq n s I). cbn. eauto. }
        destruct X as [q' X]. apply (EN ATest (with_bg (with_q s q') BPop)); [|reflexivity]. unfold astep. rewrite T, B, D. unfold start. now rewrite X.
    - right. destruct (SP 0) as [Z|[l Z]]; rewrite Z in *; [repeat split; auto|].
      + now apply (stuck_empty _ QI QS 0).
      + unfold inflight. now rewrite B, Z.
      + exfalso. destruct l as [[]|]; try contradiction. eapply (EN ABegin); [unfold astep; rewrite T, B, Z; reflexivity|reflexivity].
    - exfalso. eapply (EN (AEnd (Val 0))); [unfold astep; rewrite T, B; reflexivity|reflexivity].
    - exfalso. destruct (SP 0) as [Z|[l Z]]; rewrite Z in VB; [contradiction|].
      eapply (EN ABgSent); [unfold astep, returned; rewrite T, B, Z; reflexivity|reflexivity]. }
  assert (CL0 : forall i, cl s i = CIdle \/ cl s i = DDone \/ cl s i = DJoin).
  { intro i. destruct (cl s i) eqn:C; auto; exfalso; assert (Li : i < n) by (eapply cl_lt; eauto; discriminate);
      pose proof (v_cl n s I i Li) as VC; rewrite C in VC; destruct (SP (S i)) as [Z|[l Z]]; rewrite Z in VC; try contradiction.
    - eapply (EN (ASent i)); [unfold astep, returned; rewrite T, C, Z; reflexivity|reflexivity].
    - eapply (EN (ADtorSent i)); [unfold astep, returned; rewrite T, C, Z; reflexivity|reflexivity]. }
  assert (ND : a_bg s = BPop -> dtor_begun s = false).
  { intro B. destruct BG as [X|(_ & P & C & F)]; [congruence|].
    destruct (dtor_begun s) eqn:D; auto. exfalso.
    assert (CN : count is_dtor (a_cl s) <> 0).
    { unfold dtor_begun in D. apply existsb_exists in D. destruct D as (c & H1 & H2). clear -H1 H2. unfold count. induction (a_cl s) as [|x l IH]; [destruct H1|].
      cbn. destruct H1 as [->|H1]; [rewrite H2; cbn; lia|]. destruct (is_dtor x); cbn; [lia|auto]. }
    assert (PZ : count (pushing Shutdown) (q_pcs (a_q s)) = 0).
    { destruct (count (pushing Shutdown) (q_pcs (a_q s))) eqn:K; auto. destruct (count_pos (Idle None) (pushing Shutdown) (q_pcs (a_q s))) as (u & _ & U); [lia|].
      fold (pc (a_q s) u) in U. destruct (SP u) as [Z|[l Z]]; rewrite Z in U; discriminate. }
    pose proof (v_shut n s I) as VS. unfold seen in VS. rewrite PZ, (pushed_split n s I), C, F, !app_nil_r in VS.
    assert (IN : In Shutdown (executed (a_tr s))) by (apply (count_occ_In cb_eq_dec); unfold times in VS; lia).
    destruct (v_last n s I IN) as [_ [X|X]]; [congruence|]. destruct (v_done n s I X) as [_ [Y|Y]]; congruence. }
  split.
  - intro i. destruct (CL0 i) as [X|[X|X]]; auto. exfalso. destruct BG as [B|(B & _)].
    + eapply (EN (ADtorRet i)); [unfold astep; rewrite T, X, B; reflexivity|reflexivity].
    + specialize (ND B). assert (Li : i < length (a_cl s)) by (apply (get_in CIdle); unfold cl in X; congruence).
      unfold dtor_begun in ND. rewrite <- not_true_iff_false in ND. apply ND. apply existsb_exists. exists DJoin. split; auto.
      unfold cl, get in X. rewrite <- X. now apply nth_In.
  - destruct BG as [B|(B & P)]; auto. right. destruct P as (P1 & P2 & P3). repeat split; auto.
Qed.

Lemma no_pushing : forall (q : qstate cb) c, (forall t, pc q t = Sleep \/ exists l, pc q t = Idle l) -> count (pushing c) (q_pcs q) = 0.
Proof.
  intros q c SP. destruct (count (pushing c) (q_pcs q)) eqn:K; auto. destruct (count_pos (Idle None) (pushing c) (q_pcs q)) as (u & _ & U); [lia|].
  fold (pc q u) in U. destruct (SP u) as [Z|[l Z]]; rewrite Z in U; discriminate.
Qed.

(** a task that was executed and is not running has its promise fulfilled *)
Lemma executed_ready : forall n s p, AInv n s -> In (Task p) (executed (a_tr s)) -> running (a_bg s) <> Some (Task p) ->
  exists o, nth_error (a_prom s) p = Some (Ready o) /\ ends p (a_tr s) = [(Task p, o)].
Proof.
  intros n s p I IN NR. pose proof (one_executed _ _ (v_one n s I)) as OE.
  assert (X : times (Task p) (map fst (ended (a_tr s))) <> 0).
  { intro Z. apply times_0 in Z. rewrite OE in IN. apply in_app_or in IN. destruct IN as [IN|IN]; [contradiction|].
    destruct (running (a_bg s)); [|destruct IN]. destruct IN as [->|[]]. congruence. }
  rewrite times_map in X. pose proof (v_prom n s I p) as V. destruct (nth_error (a_prom s) p) as [[|o| |]|]; try (rewrite V in X; now cbn in X).
  - eauto.
  - destruct V as [V _]. rewrite V in X. now cbn in X.
Qed.

(** no promise is left pending when the destructor has returned *)
Lemma done_no_pending : forall n s, areach n s -> forall i p, cl s i = DDone -> nth_error (a_prom s) p <> Some Pending.
Proof.
  intros n s R. unfold areach in R. remember (a_init n) as s0 eqn:E0. induction R as [s|s s1 a s2 R IH E]; subst.
  - intros i p H. unfold cl, a_init, get in H. cbn [a_cl] in H. rewrite nth_repeat_any in H. discriminate.
  - specialize (IH eq_refl). pose proof (AInv_reach n s1 R) as I1.
    intros i p D. unfold astep in E; destruct (a_terminated s1); [discriminate|].
    destruct a as [qa| | |o|c| |j m|j|j|j|j|j|j].
    + destruct (is_internal qa) eqn:IN; [|discriminate]. destruct (qstep (a_q s1) qa) as [q'|] eqn:Q; [|discriminate]. injection E as <-. exact (IH i p D).
    + destruct (a_bg s1); try discriminate. destruct (a_done s1); [injection E as <-; exact (IH i p D)|].
      destruct (start s1 0 OPop) as [x|] eqn:S; [|discriminate]. injection E as <-. destruct (start_inv _ _ _ _ S) as (q' & -> & Q). exact (IH i p D).
    + destruct (a_bg s1); try discriminate. destruct (pc (a_q s1) 0) as [[[]|]| | | | | | |]; try discriminate. injection E as <-. exact (IH i p D).
    + destruct (a_bg s1) as [| |c|c|] eqn:B; try discriminate. injection E as <-.
      assert (D1 : cl s1 i = DDone) by (destruct c; try exact D; destruct o; exact D). pose proof (v_ret n s1 I1 i D1). congruence.
    + destruct (a_bg s1) as [| |[]|d|]; try discriminate. destruct c; try discriminate. destruct (start s1 0 (OPush (User n1))) as [x|] eqn:S; [|discriminate].
      injection E as <-. destruct (start_inv _ _ _ _ S) as (q' & -> & Q). exact (IH i p D).
    + destruct (a_bg s1); try discriminate. destruct (returned s1 0); [|discriminate]. injection E as <-. exact (IH i p D).
    + destruct (cl s1 j) eqn:C; try discriminate. destruct (existsb _ _); [discriminate|]. destruct (start s1 (S j) (OPush (User m))) as [x|] eqn:S; [|discriminate].
      injection E as <-. destruct (start_inv _ _ _ _ S) as (q' & -> & Q). cbn [a_note with_cl with_q a_prom] in *.
      apply (IH i p). pose proof (started_lt n s1 j q' _ I1 Q) as Lj. unfold cl in D. cbn [a_note with_cl with_q a_cl] in D.
      rewrite get_upd in D by (now rewrite (v_lc n s1 I1)). destruct (Nat.eqb i j); [discriminate|exact D].
    + destruct (cl s1 j) eqn:C; try discriminate. destruct (existsb _ _) eqn:X; [discriminate|]. destruct (start s1 (S j) _) as [x|] eqn:S; [|discriminate].
      injection E as <-. destruct (start_inv _ _ _ _ S) as (q' & -> & Q).
      pose proof (started_lt n s1 j q' _ I1 Q) as Lj. unfold cl in D. cbn [a_note with_prom with_cl with_q a_cl] in D.
      rewrite get_upd in D by (now rewrite (v_lc n s1 I1)). destruct (Nat.eqb i j); [discriminate|]. exfalso.
      rewrite <- not_true_iff_false in X. apply X. apply existsb_exists. exists DDone. split; auto. rewrite <- D. apply nth_In.
      apply (get_in CIdle). congruence.
    + destruct (cl s1 j); try discriminate. injection E as <-. cbn [with_prom a_prom]. intro H.
      destruct (Nat.lt_ge_cases p (length (a_prom s1))) as [L|L]; [rewrite nth_error_app1 in H by lia; exact (IH i p D H)|].
      rewrite nth_error_app2 in H by lia. destruct (p - length (a_prom s1)) as [|k]; [discriminate|]. cbn in H. now rewrite nth_error_nil in H.
    + destruct (cl s1 j) eqn:C; try discriminate. destruct (returned s1 (S j)); [|discriminate]. injection E as <-. apply (IH i p). unfold cl in D. cbn [a_note with_cl a_cl] in D.
      rewrite get_upd in D by (rewrite (v_lc n s1 I1); eapply cl_lt; eauto; discriminate). destruct (Nat.eqb i j); [discriminate|exact D].
    + destruct (cl s1 j) eqn:C; try discriminate. destruct (dtor_begun s1); [discriminate|]. destruct (start s1 (S j) _) as [x|] eqn:S; [|discriminate].
      injection E as <-. destruct (start_inv _ _ _ _ S) as (q' & -> & Q). apply (IH i p).
      pose proof (started_lt n s1 j q' _ I1 Q) as Lj. unfold cl in D. cbn [a_note with_cl with_q a_cl] in D.
      rewrite get_upd in D by (now rewrite (v_lc n s1 I1)). destruct (Nat.eqb i j); [discriminate|exact D].
    + destruct (cl s1 j) eqn:C; try discriminate. destruct (returned s1 (S j)); [|discriminate]. injection E as <-. apply (IH i p). unfold cl in D. cbn [a_note with_cl a_cl] in D.
      rewrite get_upd in D by (rewrite (v_lc n s1 I1); eapply cl_lt; eauto; discriminate). destruct (Nat.eqb i j); [discriminate|exact D].
    + destruct (cl s1 j); try discriminate. destruct (a_bg s1); try discriminate. injection E as <-. cbn [a_note with_prom with_cl a_prom]. unfold break_promises. rewrite nth_error_map.
      destruct (nth_error (a_prom s1) p) as [[]|]; discriminate.
Qed.
