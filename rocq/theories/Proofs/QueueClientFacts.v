From Coq Require Import List Arith NArith Bool Lia.
From Verif.Base Require Import Threads.
From Verif.Model Require Import SharedQueue QueueClient.
From Verif.Spec Require Import QueueSpec QueueClientSpec.
From Verif.Proofs Require Import QueueFacts.
Import ListNotations.

Section Facts.
Context {A L M : Type}.
Implicit Types (q : qstate A) (P : program A L M) (s : fstate A L M) (ls : list L) (m : M).

Lemma nth_upd : forall (l : list L) t u x, nth_error (upd l t x) u =
  if Nat.eqb u t then match nth_error l t with Some _ => Some x | None => None end else nth_error l u.
Proof.
  induction l as [|y l IH]; intros [|t] [|u] x; cbn; auto.
  now destruct (Nat.eqb u t).
Qed.

(** what a step inside the queue does to the phases *)
Definition pays q q' : Prop :=
  (* nothing visible *)
  (q_content q' = q_content q /\ forall u, phase_of (pc q' u) = phase_of (pc q u)) \/
  (* t's operation happens *)
  (exists t o r, phase_of (pc q t) = Called o /\ phase_of (pc q' t) = Committed r /\ atomic (q_content q) o r (q_content q') /\
     forall u, u <> t -> phase_of (pc q' u) = phase_of (pc q u)) \/
  (* t returns *)
  (exists t r, phase_of (pc q t) = Committed r /\ pc q' t = Idle (Some r) /\ q_content q' = q_content q /\
     forall u, u <> t -> phase_of (pc q' u) = phase_of (pc q u)).

Lemma pays_hidden : forall q q' t p, t < length (q_pcs q) -> q_pcs q' = upd (q_pcs q) t p -> q_content q' = q_content q -> phase_of p = phase_of (pc q t) -> pays q q'.
Proof.
  intros q q' t p LT E C F. left. split; [exact C|]. intro u. unfold pc. rewrite E, get_upd by exact LT. destruct (Nat.eqb_spec u t) as [->|]; [exact F|reflexivity].
Qed.
Lemma pays_commit : forall q q' t p o r, t < length (q_pcs q) -> q_pcs q' = upd (q_pcs q) t p -> phase_of (pc q t) = Called o -> phase_of p = Committed r ->
  atomic (q_content q) o r (q_content q') -> pays q q'.
Proof.
  intros q q' t p o r LT E F F' AT. right; left. exists t, o, r. split; [exact F|]. unfold pc. rewrite E. split; [rewrite get_upd_same by exact LT; exact F'|].
  split; [exact AT|]. intros u N. now rewrite get_upd_other.
Qed.
Lemma pays_return : forall q q' t r, t < length (q_pcs q) -> q_pcs q' = upd (q_pcs q) t (Idle (Some r)) -> phase_of (pc q t) = Committed r ->
  q_content q' = q_content q -> pays q q'.
Proof.
  intros q q' t r LT E F C. right; right. exists t, r. split; [exact F|]. unfold pc. rewrite E. split; [now rewrite get_upd_same|].
  split; [exact C|]. intros u N. now rewrite get_upd_other.
Qed.

Lemma unlock_pcs : forall q t, q_pcs (unlock q t) = q_pcs q /\ q_content (unlock q t) = q_content q.
Proof. intros q t. unfold unlock. destruct (match q_owner q with Some u => u =? t | None => false end); auto. Qed.

Lemma step_pays : forall q a q', QInv q -> goes_on a -> qstep q a = Some q' -> pays q q'.
Proof.
  intros q a q' I G E. destruct a as [t o|t|t w|t|w]; cbn [qstep] in E; [destruct G|..]; clear G.
  - assert (LT : match pc q t with Idle _ => True | _ => t < length (q_pcs q) end)
      by (destruct (pc q t) eqn:P; auto; apply pc_lt; rewrite P; discriminate).
    destruct (pc q t) as [l|o|o| | |b|r nf|] eqn:P; try discriminate.
    + destruct (q_owner q); [discriminate|]. injection E as <-. eapply pays_hidden; [exact LT|reflexivity|reflexivity|now rewrite P].
    + injection E as <-. destruct o as [x| | | |]; cbn [body].
      * eapply pays_commit; [exact LT|reflexivity|rewrite P; reflexivity|reflexivity|constructor].
      * destruct (q_content q) as [|y l] eqn:C.
        -- destruct (unlock_pcs q t) as [U1 U2]. eapply pays_hidden; [exact LT|cbn; now rewrite U1|cbn; exact U2|now rewrite P].
        -- eapply pays_hidden; [exact LT|reflexivity|reflexivity|now rewrite P].
      * destruct (q_content q) as [|y l] eqn:C.
        -- eapply pays_commit; [exact LT|reflexivity|rewrite P; reflexivity|reflexivity|cbn; rewrite C; constructor].
        -- eapply pays_hidden; [exact LT|reflexivity|reflexivity|now rewrite P].
      * eapply pays_commit; [exact LT|reflexivity|rewrite P; reflexivity|reflexivity|]. cbn. constructor. destruct (q_content q); split; congruence.
      * eapply pays_commit; [exact LT|reflexivity|rewrite P; reflexivity|reflexivity|]. cbn. constructor. reflexivity.
    + destruct (q_owner q); [discriminate|]. injection E as <-. eapply pays_hidden; [exact LT|reflexivity|reflexivity|now rewrite P].
    + destruct (q_content q) as [|y l] eqn:C; [exfalso; exact (i_take q I t b P C)|]. injection E as <-.
      eapply pays_commit; [exact LT|reflexivity|rewrite P; reflexivity|reflexivity|]. cbn. rewrite C. destruct b; constructor.
    + destruct (unlock_pcs q t) as [U1 U2]. injection E as <-. destruct nf.
      * pose proof (i_leave q I t r P) as ->. eapply pays_hidden; [exact LT|cbn; now rewrite U1|exact U2|now rewrite P].
      * eapply pays_return; [exact LT|cbn; now rewrite U1|now rewrite P|exact U2].
  - destruct (pc q t) eqn:P; try discriminate. destruct (existsb (Nat.eqb w) (q_waiters q)) eqn:W; [|discriminate]. injection E as <-.
    apply existsb_waiter in W as [W PW]; [|exact I].
    assert (LT : t < length (q_pcs q)) by (apply pc_lt; rewrite P; discriminate).
    assert (LW : w < length (q_pcs q)) by (apply pc_lt; rewrite PW; discriminate).
    right; right. exists t, RUnit. rewrite P. split; [reflexivity|]. unfold pc, ret. cbn [goto note q_pcs set_waiters q_content].
    split; [apply get_upd_same; now rewrite upd_length|]. split; [reflexivity|].
    intros u N. rewrite get_upd_other by exact N. rewrite get_upd by exact LW. destruct (Nat.eqb_spec u w) as [->|]; [|reflexivity].
    unfold pc in PW. now rewrite PW.
  - destruct (pc q t) eqn:P; try discriminate. destruct (q_waiters q); [|discriminate]. injection E as <-.
    assert (LT : t < length (q_pcs q)) by (apply pc_lt; rewrite P; discriminate).
    eapply pays_return; [exact LT|reflexivity|now rewrite P|reflexivity].
  - destruct (existsb (Nat.eqb w) (q_waiters q)) eqn:W; [|discriminate]. injection E as <-.
    apply existsb_waiter in W as [W PW]; [|exact I].
    assert (LW : w < length (q_pcs q)) by (apply pc_lt; rewrite PW; discriminate).
    eapply pays_hidden; [exact LW|reflexivity|reflexivity|now rewrite PW].
Qed.

Lemma start_phase : forall q t o q', qstep q (Start t o) = Some q' ->
  outside (pc q t) /\ t < length (q_pcs q) /\ q_content q' = q_content q /\ phase_of (pc q' t) = Called o /\ forall u, u <> t -> pc q' u = pc q u.
Proof.
  intros q t o q' E. cbn [qstep] in E. destruct (pc q t) as [l| | | | | | |] eqn:P; try discriminate.
  destruct (Nat.ltb_spec t (length (q_pcs q))) as [LT|]; [|discriminate]. injection E as <-.
  split; [now exists l|]. split; [exact LT|]. split; [reflexivity|]. unfold pc. cbn [goto note q_pcs].
  split; [now rewrite get_upd_same|]. intros u N. now rewrite get_upd_other.
Qed.

Lemma outside_free : forall (p : qpc A), outside p <-> phase_of p = Free.
Proof. intro p. split; [intros [l ->]; reflexivity|destruct p; cbn; intro; try discriminate; eexists; reflexivity]. Qed.

(** the last event of a thread says in which phase it is *)
Lemma way_phase : forall q t r, QInv q -> (on_its_way q t r <-> phase_of (pc q t) = Committed r).
Proof.
  intros q t r I. pose proof (i_proto q I t) as H. unfold on_its_way. split.
  - intros (tr & o & E). rewrite E in H. inversion H as [X|tr' t' o' X1 X|tr' t' o' r' X1 X|tr' t' r' X1 X].
    + symmetry in X. now apply app_eq_nil in X.
    + apply app_inj_tail in X as [_ X]. discriminate.
    + apply app_inj_tail in X as [_ X]. congruence.
    + apply app_inj_tail in X as [_ X]. discriminate.
  - intro F. rewrite F in H. inversion H as [X|tr' t' o' X1 X|tr' t' o' r' X1 X|tr' t' r' X1 X]; subst.
    exists tr', o'. f_equal. f_equal. f_equal.
    assert (IN : In (Commit t' o' r) (filter (by_thread t) (q_trace q))) by (rewrite <- X; apply in_or_app; right; now left).
    apply filter_In in IN as [_ B]. cbn in B. now apply Nat.eqb_eq in B.
Qed.

(** ** the simulation *)
Definition view P (t : nat) (p : qpc A) (x : L) : L := match phase_of p with Committed r => p_takes P t x r | _ => x end.
Definition views P q ls ls' : Prop :=
  length ls' = length ls /\ forall t x, nth_error ls t = Some x -> nth_error ls' t = Some (view P t (pc q t) x).
Definition asks P q ls : Prop := forall t o, phase_of (pc q t) = Called o -> exists x, nth_error ls t = Some x /\ p_wants P t x = Some o.
Definition FInv P ls0 m0 s : Prop :=
  QInv (f_queue s) /\ length (q_pcs (f_queue s)) = length (f_locals s) /\ asks P (f_queue s) (f_locals s) /\
  exists ls', views P (f_queue s) (f_locals s) ls' /\ areach P ls0 m0 (ls', f_mem s, q_content (f_queue s)).

Lemma step_length : forall q a q', qstep q a = Some q' -> length (q_pcs q') = length (q_pcs q).
Proof.
  intros q a q' E. destruct a as [t o|t|t w|t|w]; cbn [qstep] in E.
  - destruct (pc q t); try discriminate. destruct (Nat.ltb t (length (q_pcs q))); [|discriminate]. injection E as <-. apply upd_length.
  - destruct (unlock_pcs q t) as [U _].
    destruct (pc q t) as [l|o|o| | |b|r nf|]; try discriminate; try (destruct (q_owner q); [discriminate|]); try (injection E as <-; apply upd_length).
    + injection E as <-. destruct o; cbn; try apply upd_length; destruct (q_content q); cbn; rewrite ?upd_length, ?U; reflexivity.
    + destruct (q_content q); injection E as <-; [reflexivity|apply upd_length].
    + injection E as <-. destruct nf; cbn; now rewrite upd_length, U.
  - destruct (pc q t); try discriminate. destruct (existsb (Nat.eqb w) (q_waiters q)); [|discriminate]. injection E as <-. cbn. now rewrite !upd_length.
  - destruct (pc q t); try discriminate. destruct (q_waiters q); [|discriminate]. injection E as <-. apply upd_length.
  - destruct (existsb (Nat.eqb w) (q_waiters q)); [|discriminate]. injection E as <-. apply upd_length.
Qed.

(** a thread whose result has not been decided sees the same variables in both systems *)
Lemma views_same : forall P q ls ls' t x, views P q ls ls' -> nth_error ls t = Some x -> (forall r, phase_of (pc q t) <> Committed r) -> nth_error ls' t = Some x.
Proof.
  intros P q ls ls' t x [_ V] N F. rewrite (V t x N). unfold view. destruct (phase_of (pc q t)) as [| |r]; auto. now specialize (F r).
Qed.

Lemma FInv_step : forall P ls0 m0 s lab s', FInv P ls0 m0 s -> fstep P lab s s' -> FInv P ls0 m0 s'.
Proof.
  intros P ls0 m0 s lab s' (I & LN & AK & ls' & V & R) ST.
  destruct ST as [ls m q t x x' m' NX OUT W IN|ls m q q' t x o NX W E|ls m q q' a G E OUT|ls m q q' a t x r G E NO PR NX]; cbn [f_queue f_locals f_mem] in *.
  - (* a step outside the queue *)
    apply outside_free in OUT. split; [exact I|]. split; [cbn; now rewrite upd_length|]. cbn. split.
    + intros u o F. destruct (AK u o F) as (y & Y & WY). exists y. split; [|exact WY]. rewrite nth_upd. destruct (Nat.eqb_spec u t) as [->|]; [congruence|exact Y].
    + exists (upd ls' t x'). destruct V as [VL V]. split.
      * split; [now rewrite !upd_length|]. intros u y. rewrite !nth_upd. destruct (Nat.eqb_spec u t) as [->|]; [|apply V].
        rewrite NX, (V t x NX). intro Y. injection Y as <-. unfold view. now rewrite OUT.
      * eapply ar_step; [exact R|]. apply (as_inner P ls' m _ t x x' m'); auto. eapply views_same; [split; eauto|exact NX|]. rewrite OUT. discriminate.
  - (* a call *)
    pose proof (QInv_step q _ q' I E) as I'. pose proof (step_length q _ q' E) as LE. apply start_phase in E as (OUT & LT & C & F & O).
    apply outside_free in OUT. split; [exact I'|]. split; [cbn; congruence|]. cbn. split.
    + intros u o' F'. destruct (Nat.eq_dec u t) as [->|N]; [|rewrite O in F' by exact N; now apply AK]. exists x. split; [exact NX|]. congruence.
    + exists ls'. rewrite C. split; [|exact R]. destruct V as [VL V]. split; [exact VL|]. intros u y Y. rewrite (V u y Y). f_equal. unfold view.
      destruct (Nat.eq_dec u t) as [->|N]; [now rewrite OUT, F|now rewrite O].
  - (* inside the queue, nobody returns *)
    pose proof (QInv_step q _ q' I E) as I'. pose proof (step_length q _ q' E) as LE. pose proof (step_pays q a q' I G E) as PY.
    split; [exact I'|]. split; [cbn; congruence|]. cbn. destruct PY as [[C F]|[(t & o & r & F1 & F2 & AT & O)|(t & r & F1 & F2 & C & O)]].
    + split; [intros u o X; rewrite F in X; now apply AK|]. exists ls'. rewrite C. split; [|exact R].
      destruct V as [VL V]. split; [exact VL|]. intros u y Y. rewrite (V u y Y). unfold view. now rewrite F.
    + split.
      * intros u o' X. destruct (Nat.eq_dec u t) as [->|N]; [congruence|]. rewrite O in X by exact N. now apply AK.
      * destruct (AK t o F1) as (x & NX & W). exists (upd ls' t (p_takes P t x r)). split.
        -- destruct V as [VL V]. split; [now rewrite upd_length|]. intros u y Y. rewrite nth_upd. destruct (Nat.eqb_spec u t) as [->|N].
           ++ rewrite (V t x NX). assert (y = x) as -> by congruence. unfold view. now rewrite F2.
           ++ rewrite (V u y Y). unfold view. now rewrite O.
        -- eapply ar_step; [exact R|]. apply (as_op P ls' m _ t x o r); auto. eapply views_same; eauto. rewrite F1. discriminate.
    + exfalso. assert (OT : outside (pc q t)) by (apply OUT; eexists; exact F2). apply outside_free in OT. congruence.
  - (* thread t returns *)
    pose proof (QInv_step q _ q' I E) as I'. pose proof (step_length q _ q' E) as LE. pose proof (step_pays q a q' I G E) as PY.
    split; [exact I'|]. split; [cbn; rewrite upd_length; congruence|]. cbn.
    assert (FN : phase_of (pc q t) <> Free) by (intro X; apply NO; now apply outside_free).
    assert (FT : phase_of (pc q' t) = Free) by now rewrite PR.
    destruct PY as [[C F]|[(t' & o & r' & F1 & F2 & AT & O)|(t' & r' & F1 & F2 & C & O)]].
    + exfalso. rewrite F in FT. congruence.
    + exfalso. destruct (Nat.eq_dec t t') as [->|N]; [congruence|]. rewrite O in FT by exact N. congruence.
    + destruct (Nat.eq_dec t t') as [<-|N]; [|exfalso; rewrite O in FT by exact N; congruence].
      assert (r' = r) as -> by congruence. split.
      * intros u o X. destruct (Nat.eq_dec u t) as [->|N]; [congruence|]. rewrite O in X by exact N. destruct (AK u o X) as (y & Y & WY).
        exists y. split; [|exact WY]. rewrite nth_upd. destruct (Nat.eqb_spec u t); [congruence|exact Y].
      * exists ls'. rewrite C. split; [|exact R]. destruct V as [VL V]. split; [now rewrite upd_length|]. intros u y. rewrite nth_upd.
        destruct (Nat.eqb_spec u t) as [->|N]; [|intro Y; rewrite (V u y Y); unfold view; now rewrite O].
        rewrite NX. intro Y. injection Y as <-. rewrite (V t x NX). unfold view. now rewrite F1, FT.
Qed.

Lemma FInv_reach : forall P ls m s, freach P ls m s -> FInv P ls m s.
Proof.
  intros P ls m s R. induction R as [|s lab s' R IH ST]; [|eapply FInv_step; eauto].
  split; [apply QInv_init|]. split; [apply repeat_length|].
  assert (PC : forall t, pc (q_init (length ls)) t = @Idle A None) by (intro t; apply pc_repeat).
  cbn [f_queue f_locals f_mem q_init q_content]. split; [intros t o F; now rewrite PC in F|].
  exists ls. split; [|constructor]. split; [reflexivity|]. intros t x X. unfold view. now rewrite PC.
Qed.

(** thread t alone is inside the queue *)
Record solo q (t : nat) (p : qpc A) (l : list A) (own : option nat) : Prop := mkSolo {
  so_content : q_content q = l; so_owner : q_owner q = own; so_wait : q_waiters q = []; so_pc : pc q t = p;
  so_lt : t < length (q_pcs q); so_others : forall u, u <> t -> outside (pc q u) }.

Lemma solo_goto : forall q q' t p p' l own l' own', solo q t p l own -> q_pcs q' = upd (q_pcs q) t p' -> q_content q' = l' -> q_owner q' = own' -> q_waiters q' = [] ->
  solo q' t p' l' own'.
Proof.
  intros q q' t p p' l own l' own' [S1 S2 S3 S4 S5 S6] E C O W. constructor; auto.
  - unfold pc. rewrite E. now apply get_upd_same.
  - rewrite E. now rewrite upd_length.
  - intros u N. unfold pc. rewrite E, get_upd_other by exact N. now apply S6.
Qed.

Lemma solo_quiet : forall q t, QInv q -> quiet q -> t < length (q_pcs q) -> exists last, solo q t (Idle last) (q_content q) None.
Proof.
  intros q t I Q LT. destruct (Q t) as [last P]. exists last. constructor; auto.
  - destruct (q_owner q) as [u|] eqn:O; [|reflexivity]. apply (i_owner q I) in O. destruct (Q u) as [y Y]. now rewrite Y in O.
  - destruct (q_waiters q) as [|w ws] eqn:W; [reflexivity|]. assert (IN : In w (q_waiters q)) by (rewrite W; now left).
    apply (i_wait q I) in IN. destruct (Q w) as [y Y]. congruence.
Qed.

Lemma solo_start : forall q t o l last own, solo q t (Idle last) l own -> exists q' : qstate A, qstep q (Start t o) = Some q' /\ solo q' t (Lock o) l own.
Proof.
  intros q t o l last own S. pose proof S as [S1 S2 S3 S4 S5 S6]. eexists. split.
  - cbn [qstep]. rewrite S4. apply Nat.ltb_lt in S5 as ->. reflexivity.
  - eapply solo_goto; [exact S|reflexivity|assumption|assumption|assumption].
Qed.
Lemma solo_lock : forall q t o l, solo q t (Lock o) l None -> exists q', qstep q (Step t) = Some q' /\ solo q' t (Body o) l (Some t).
Proof.
  intros q t o l S. pose proof S as [S1 S2 S3 S4 S5 S6]. eexists. split.
  - cbn [qstep]. rewrite S4, S2. reflexivity.
  - eapply solo_goto; [exact S|reflexivity|assumption|reflexivity|assumption].
Qed.
(** the access, in one step or two, decides *)
Lemma solo_body : forall q t o r l l', solo q t (Body o) l (Some t) -> atomic l o r l' ->
  (exists q' nf, qstep q (Step t) = Some q' /\ solo q' t (Leave r nf) l' (Some t) /\ (nf = true -> r = RUnit)) \/
  (exists q1 q' b, qstep q (Step t) = Some q1 /\ solo q1 t (Take b) l (Some t) /\ qstep q1 (Step t) = Some q' /\ solo q' t (Leave r false) l' (Some t)).
Proof.
  intros q t o r l l' S AT. pose proof S as [S1 S2 S3 S4 S5 S6].
  assert (TAKE : forall (b : bool) x l1, l = x :: l1 -> o = (if b then OTryPop else OPop) -> r = RItem x -> l' = l1 ->
    exists q1 q' b, qstep q (Step t) = Some q1 /\ solo q1 t (Take b) l (Some t) /\ qstep q1 (Step t) = Some q' /\ solo q' t (Leave r false) l' (Some t)).
  { intros b x l1 -> -> -> ->.
    assert (T : solo (goto q t (Take b)) t (Take b) (x :: l1) (Some t)) by (eapply solo_goto; [exact S|reflexivity|assumption|assumption|assumption]).
    exists (goto q t (Take b)). eexists. exists b. split; [cbn [qstep]; rewrite S4; destruct b; cbn [body]; rewrite S1; reflexivity|].
    split; [exact T|]. split; [cbn [qstep]; rewrite (so_pc _ _ _ _ _ T), (so_content _ _ _ _ _ T); reflexivity|].
    eapply solo_goto; [exact T|reflexivity|reflexivity|apply T|apply T]. }
  destruct AT as [l0 x|l0 x|l0 x| |l0 b B|l0 n B].
  - left. eexists. exists true. split; [cbn [qstep]; rewrite S4; reflexivity|]. split; [|auto].
    eapply solo_goto; [exact S|reflexivity|cbn; now rewrite S1|assumption|assumption].
  - right. now apply (TAKE false x l0).
  - right. now apply (TAKE true x l0).
  - left. eexists. exists false. split; [cbn [qstep]; rewrite S4; cbn [body]; rewrite S1; reflexivity|]. split; [|discriminate].
    eapply solo_goto; [exact S|reflexivity|assumption|assumption|assumption].
  - left. eexists. exists false. split; [cbn [qstep]; rewrite S4; reflexivity|]. split; [|discriminate].
    cbn [body]. rewrite S1. replace (match l0 with [] => true | _ :: _ => false end) with b.
    + eapply solo_goto; [exact S|reflexivity|assumption|assumption|assumption].
    + destruct B as [B1 B2]. destruct l0, b; auto; discriminate (B1 eq_refl).
  - left. eexists. exists false. split; [cbn [qstep]; rewrite S4; reflexivity|]. split; [|discriminate].
    cbn [body]. rewrite S1. replace (to_unsigned (length l0)) with n by (symmetry; exact B).
    eapply solo_goto; [exact S|reflexivity|assumption|assumption|assumption].
Qed.
Lemma solo_leave : forall q t r l, solo q t (Leave r false) l (Some t) -> exists q', qstep q (Step t) = Some q' /\ solo q' t (Idle (Some r)) l None.
Proof.
  intros q t r l S. pose proof S as [S1 S2 S3 S4 S5 S6]. eexists. split.
  - cbn [qstep]. rewrite S4. rewrite unlock_own by exact S2. reflexivity.
  - eapply solo_goto; [exact S|reflexivity|assumption|reflexivity|assumption].
Qed.
Lemma solo_leave_notify : forall q t r l, solo q t (Leave r true) l (Some t) -> exists q', qstep q (Step t) = Some q' /\ solo q' t Notify l None.
Proof.
  intros q t r l S. pose proof S as [S1 S2 S3 S4 S5 S6]. eexists. split.
  - cbn [qstep]. rewrite S4. rewrite unlock_own by exact S2. reflexivity.
  - eapply solo_goto; [exact S|reflexivity|assumption|reflexivity|assumption].
Qed.
Lemma solo_notify : forall q t l, solo q t Notify l None -> exists q', qstep q (NoWake t) = Some q' /\ solo q' t (Idle (Some RUnit)) l None.
Proof.
  intros q t l S. pose proof S as [S1 S2 S3 S4 S5 S6]. eexists. split.
  - cbn [qstep]. rewrite S4, S3. reflexivity.
  - eapply solo_goto; [exact S|reflexivity|assumption|assumption|assumption].
Qed.

Lemma solo_still : forall q t p l own, solo q t p l own -> (forall x, p <> Idle x) -> forall q' p' l' own', solo q' t p' l' own' -> (forall x, p' <> Idle x) ->
  forall u, outside (pc q' u) -> outside (pc q u).
Proof.
  intros q t p l own S N q' p' l' own' S' N' u [y Y]. destruct (Nat.eq_dec u t) as [->|D].
  - rewrite (so_pc _ _ _ _ _ S') in Y. now apply N' in Y.
  - now apply (so_others _ _ _ _ _ S).
Qed.
Lemma solo_inside : forall q t p l own, solo q t p l own -> (forall x, p <> Idle x) -> ~ outside (pc q t).
Proof. intros q t p l own S N [y Y]. rewrite (so_pc _ _ _ _ _ S) in Y. now apply N in Y. Qed.

Lemma one_operation : forall P ls0 m0 ls m q t x o r l', freach P ls0 m0 (mkF ls m q) -> quiet q -> nth_error ls t = Some x -> p_wants P t x = Some o ->
  atomic (q_content q) o r l' -> exists q', freach P ls0 m0 (mkF (upd ls t (p_takes P t x r)) m q') /\ quiet q' /\ q_content q' = l'.
Proof.
  intros P ls0 m0 ls m q t x o r l' R Q NX W AT. destruct (FInv_reach P ls0 m0 _ R) as (I & LN & _). cbn [f_queue f_locals] in *.
  assert (LT : t < length (q_pcs q)) by (rewrite LN; apply nth_error_Some; congruence).
  destruct (solo_quiet q t I Q LT) as (last & S0). destruct (solo_start q t o _ last None S0) as (q1 & E1 & S1).
  assert (R1 : freach P ls0 m0 (mkF ls m q1)) by (eapply fr_step; [exact R|]; eapply fs_call; eauto).
  destruct (solo_lock q1 t o _ S1) as (q2 & E2 & S2).
  assert (R2 : freach P ls0 m0 (mkF ls m q2)).
  { eapply fr_step; [exact R1|]. eapply (fs_work P _ _ _ _ (Step t)); [exact Logic.I|exact E2|]. eapply solo_still; [exact S1|discriminate|exact S2|discriminate]. }
  assert (LV : exists q3 nf, freach P ls0 m0 (mkF ls m q3) /\ solo q3 t (Leave r nf) l' (Some t) /\ (nf = true -> r = RUnit)).
  { destruct (solo_body q2 t o r _ l' S2 AT) as [(q3 & nf & E3 & S3 & U)|(q2' & q3 & b & E2' & S2' & E3 & S3)].
    - exists q3, nf. split; [|split; [exact S3|exact U]]. eapply fr_step; [exact R2|]. eapply (fs_work P _ _ _ _ (Step t)); [exact Logic.I|exact E3|].
      eapply solo_still; [exact S2|discriminate|exact S3|discriminate].
    - exists q3, false. split; [|split; [exact S3|discriminate]].
      assert (R2' : freach P ls0 m0 (mkF ls m q2')).
      { eapply fr_step; [exact R2|]. eapply (fs_work P _ _ _ _ (Step t)); [exact Logic.I|exact E2'|]. eapply solo_still; [exact S2|discriminate|exact S2'|discriminate]. }
      eapply fr_step; [exact R2'|]. eapply (fs_work P _ _ _ _ (Step t)); [exact Logic.I|exact E3|]. eapply solo_still; [exact S2'|discriminate|exact S3|discriminate]. }
  destruct LV as (q3 & nf & R3 & S3 & U).
  assert (END : forall q4 q5 p a, freach P ls0 m0 (mkF ls m q4) -> solo q4 t p l' (match p with Notify => None | _ => Some t end) -> (forall y, p <> Idle y) -> goes_on a -> qstep q4 a = Some q5 ->
    solo q5 t (Idle (Some r)) l' None -> exists q', freach P ls0 m0 (mkF (upd ls t (p_takes P t x r)) m q') /\ quiet q' /\ q_content q' = l').
  { intros q4 q5 p a R4 S4 N4 G4 E5 S5. exists q5. split; [|split].
    - eapply fr_step; [exact R4|]. eapply fs_return; [exact G4|exact E5|eapply solo_inside; eauto|apply S5|exact NX].
    - intro u. destruct (Nat.eq_dec u t) as [->|D]; [rewrite (so_pc _ _ _ _ _ S5); now eexists|now apply (so_others _ _ _ _ _ S5)].
    - apply S5. }
  destruct nf.
  - pose proof (U eq_refl) as ->. destruct (solo_leave_notify q3 t _ l' S3) as (q4 & E4 & S4).
    assert (R4 : freach P ls0 m0 (mkF ls m q4)).
    { eapply fr_step; [exact R3|]. eapply (fs_work P _ _ _ _ (Step t)); [exact Logic.I|exact E4|]. eapply solo_still; [exact S3|discriminate|exact S4|discriminate]. }
    destruct (solo_notify q4 t l' S4) as (q5 & E5 & S5). eapply (END q4 q5 Notify (NoWake t)); eauto; [discriminate|exact Logic.I].
  - destruct (solo_leave q3 t r l' S3) as (q4 & E4 & S4). eapply (END q3 q4 (Leave r false) (Step t)); eauto; [discriminate|exact Logic.I].
Qed.

Lemma atomic_possible : forall P ls0 m0 ls m l, areach P ls0 m0 (ls, m, l) -> exists q, freach P ls0 m0 (mkF ls m q) /\ quiet q /\ q_content q = l.
Proof.
  intros P ls0 m0 ls m l R. remember (ls, m, l) as a eqn:EA. revert ls m l EA. induction R as [|a a' R IH ST]; intros ls m l EA.
  - injection EA as <- <- <-. eexists. split; [constructor|]. split; [|reflexivity]. intro t. exists None. apply pc_repeat.
  - subst a'. inversion ST as [ls1 m1 l1 t x x' m' NX W IN E1 E2|ls1 m1 l1 t x o r l' NX W AT E1 E2]; subst.
    + destruct (IH _ _ _ eq_refl) as (q & RF & Q & C). exists q. split; [|split; [exact Q|exact C]].
      eapply fr_step; [exact RF|]. eapply fs_inner; eauto.
    + destruct (IH _ _ _ eq_refl) as (q & RF & Q & C). subst l1. eapply one_operation; eauto.
Qed.
(** every step of the queue is one of the program *)
Lemma queue_goes : forall P ls m q a q', QInv q -> length (q_pcs q) = length ls -> goes_on a -> qstep q a = Some q' -> exists s', fstep P (FQueue a) (mkF ls m q) s'.
Proof.
  intros P ls m q a q' I LN G E. pose proof (step_pays q a q' I G E) as PY.
  assert (W : (forall u, outside (pc q' u) -> outside (pc q u)) -> exists s', fstep P (FQueue a) (mkF ls m q) s').
  { intro O. eexists. eapply fs_work; eauto. }
  destruct PY as [[C F]|[(t & o & r & F1 & F2 & AT & O)|(t & r & F1 & F2 & C & O)]].
  - apply W. intros u X. apply outside_free. rewrite <- F. now apply outside_free.
  - apply W. intros u X. apply outside_free. apply outside_free in X. destruct (Nat.eq_dec u t) as [->|N]; [congruence|]. now rewrite <- O.
  - assert (LT : t < length ls) by (rewrite <- LN; apply pc_lt; intros y Y; rewrite Y in F1; discriminate).
    apply nth_error_Some in LT. destruct (nth_error ls t) as [x|] eqn:NX; [|congruence].
    eexists. eapply fs_return; eauto. intro X. apply outside_free in X. congruence.
Qed.
Lemma views_none : forall P q ls ls', (forall t r, phase_of (pc q t) <> Committed r) -> views P q ls ls' -> ls' = ls.
Proof.
  intros P q ls ls' N [VL V]. assert (H : forall t, nth_error ls' t = nth_error ls t).
  { intro t. destruct (nth_error ls t) as [x|] eqn:X.
    - rewrite (V t x X). unfold view. specialize (N t). destruct (phase_of (pc q t)) as [| |r]; auto. now specialize (N r).
    - apply nth_error_None. apply nth_error_None in X. lia. }
  clear -H. revert ls H. induction ls' as [|x l IH]; intros [|y ls] H; auto; try (specialize (H 0); discriminate).
  f_equal; [specialize (H 0); cbn in H; congruence|]. apply IH. intro t. apply (H (S t)).
Qed.
Lemma views_quiet : forall P q ls ls', quiet q -> views P q ls ls' -> ls' = ls.
Proof. intros P q ls ls' Q. apply views_none. intros t r F. specialize (Q t). apply outside_free in Q. congruence. Qed.
End Facts.
