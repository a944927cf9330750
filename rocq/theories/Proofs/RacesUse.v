(** The permissions of the queue and of the documented use of the library. *)
From Coq Require Import List ZArith Bool Lia Arith.
From Coq Require FinFun.
From Verif Require Import Base.Threads Model.Races Spec.RacesSpec Proofs.RacesFacts.
Import ListNotations.
Local Open Scope nat_scope.

(** locations with atomic accesses at the same time *)
Definition atomics (x : loc) : bool := match x with LStatus _ => true | _ => false end.
(** no location has *)
Definition none_atomic (x : loc) : bool := false.

Ltac wk := eapply ok_weaken; [| |eassumption].

Lemma ok_kset : forall total carry asr a p has (kn : loc -> val -> Prop) x v,
  ok total carry asr a has kn p -> (1 <= has x -> kn x v) -> ok total carry asr a has (kset kn x (eq v)) p.
Proof.
  intros * O K. wk; auto. intros y w G Q. unfold kset in Q. destruct (loc_eq_dec y x) as [->|]; auto.
  specialize (Q G). subst. auto.
Qed.

(* ------------------------------------------------------------------ *)
(** ** The queue *)

Definition qcarry (s : sem) (x : loc) : nat := match s, x with MQueue, LQueue => 1 | _, _ => 0 end.
Definition qassert (s : sem) (x : loc) (v : val) : Prop := True.
Definition qknow (x : loc) (v : val) : Prop := True.
Definition okq := ok (fun _ => 1) qcarry qassert none_atomic.

Lemma okq_drop : forall p has kn, okq (fun _ => 0) qknow p -> okq has kn p.
Proof. intros. unfold okq in *. wk; [intro; cbn; lia|intros; exact I]. Qed.

Lemma okq_wait : forall n k, (forall j, okq (fun _ => 0) qknow (k j)) -> forall has kn, okq has kn (q_wait n k).
Proof.
  induction n as [|n IH]; intros k O has kn; cbn.
  - split; auto. split; [lia|]. intros v _. destruct v as [|j r]; cbn.
    + split; [intro x; destruct x; cbn; lia|]. split; [intros; exact I|exact I].
    + split; auto. split; [lia|]. split; [lia|]. split; [intro x; destruct x; cbn; lia|]. split; [intros; exact I|].
      apply okq_drop, O.
  - split; auto. split; [lia|]. intros v _. destruct v as [|j r]; cbn.
    + split; [intro x; destruct x; cbn; lia|]. split; [intros; exact I|]. apply IH, O.
    + split; auto. split; [lia|]. split; [lia|]. split; [intro x; destruct x; cbn; lia|]. split; [intros; exact I|].
      apply okq_drop, O.
Qed.

Lemma okq_call : forall c k, okq (fun _ => 0) qknow k -> okq (fun _ => 0) qknow (qcall_prog c k).
Proof.
  intros [j| |n| |] k O; cbn [qcall_prog].
  - cbn. split; auto. split; [lia|]. intros v _. split; auto. split; [lia|]. split; [lia|].
    split; [intro x; destruct x; cbn; lia|]. split; [intros; exact I|]. now apply okq_drop.
  - cbn. split; auto. split; [lia|]. intros v _. destruct v as [|y r]; cbn.
    + split; [intro x; destruct x; cbn; lia|]. split; [intros; exact I|]. now apply okq_drop.
    + split; auto. split; [lia|]. split; [lia|].
      split; [intro x; destruct x; cbn; lia|]. split; [intros; exact I|]. now apply okq_drop.
  - apply okq_wait. auto.
  - cbn. split; auto. split; [lia|]. intros v _. split; [intro x; destruct x; cbn; lia|]. split; [intros; exact I|]. now apply okq_drop.
  - cbn. split; auto. split; [lia|]. intros v _. split; [intro x; destruct x; cbn; lia|]. split; [intros; exact I|]. now apply okq_drop.
Qed.
Lemma okq_calls : forall cs, okq (fun _ => 0) qknow (calls (map qcall_prog cs) Stop).
Proof. induction cs as [|c cs IH]; cbn; auto. now apply okq_call. Qed.

Lemma get_map : forall {A} (f : A -> prog) l t d, f d = Stop -> get Stop (map f l) t = f (nth t l d).
Proof. intros. unfold get. rewrite <- H. apply map_nth. Qed.

Lemma held_zero : forall n x, held (fun _ _ => 0) n x = 0.
Proof. intros. unfold held. induction (seq 0 n); auto. Qed.

Lemma qcarriers_nodup : NoDup [MQueue].
Proof. repeat constructor. easy. Qed.
Lemma qcarriers_all : forall s x, 1 <= qcarry s x -> In s [MQueue].
Proof. intros s y G. destruct s; cbn in *; auto; lia. Qed.
Lemma queue_inv : forall m ts,
  inv (fun _ => 1) qcarry qassert none_atomic [MQueue] (mkState m mutexes_free (map (fun cs => calls (map qcall_prog cs) Stop) ts)).
Proof.
  intros m ts. exists (fun _ _ => 0), (fun _ => qknow). cbn [ths sems mem]. split; [|split; [|split]].
  - intro t. rewrite (get_map _ ts t []) by reflexivity. apply okq_calls.
  - intro y. rewrite held_zero. unfold lying. cbn. destruct y; cbn; lia.
  - intros. exact I.
  - intros. exact I.
Qed.
Lemma queue_race_free : forall m ts x,
  race_free (mkState m mutexes_free (map (fun cs => calls (map qcall_prog cs) Stop) ts)) x.
Proof.
  intros m ts x. exact (permissions_sound _ _ _ _ _ qcarriers_nodup qcarriers_all _ x (queue_inv m ts)).
Qed.

(* ------------------------------------------------------------------ *)
(** ** The documented use *)

Section Documented.
Variable keys : list Z.
Variable n : nat.

Definition dtotal (x : loc) : nat := match x with LLogger | LBg => S n | LKeys => S (S n) | _ => 1 end.
Definition user (i : nat) : bool := (1 <=? i) && (i <=? n).
Definition dcarry (s : sem) (x : loc) : nat :=
  match s, x with
  | MQueue, LQueue => 1
  | MHook, LHook => 1
  | (Start 0 | End 0), (LSinks | LDone) => 1
  | (Start i | End i), (LLogger | LBg) => if user i then 1 else 0
  | _, _ => 0
  end.
Definition dassert (s : sem) (x : loc) (v : val) : Prop :=
  match s, x with
  | MQueue, LQueue => ~ In j_fatal v
  | (Start _ | End _), LLogger => v = [1%Z]
  | _, _ => True
  end.
Definition dcarriers : list sem :=
  MQueue :: MHook :: map Start (seq 0 (S n)) ++ map End (seq 0 (S n)).
Notation okd := (ok dtotal dcarry dassert atomics).

Lemma dcarriers_nodup : NoDup dcarriers.
Proof.
  assert (E : forall (f : nat -> sem) m, (forall a b, f a = f b -> a = b) -> NoDup (map f (seq 0 m))).
  { intros f m F. apply FinFun.Injective_map_NoDup; auto using seq_NoDup. }
  unfold dcarriers. constructor.
  { cbn [In]. rewrite in_app_iff, !in_map_iff. intros [D|[(y & D & _)|(y & D & _)]]; discriminate. }
  constructor. { rewrite in_app_iff, !in_map_iff. intros [(y & D & _)|(y & D & _)]; discriminate. }
  assert (D : forall y, In y (map Start (seq 0 (S n))) -> ~ In y (map End (seq 0 (S n)))).
  { intros y I J. apply in_map_iff in I, J. destruct I as (a & <- & _), J as (b & D & _). discriminate. }
  pose proof (E Start (S n) ltac:(congruence)) as A. pose proof (E End (S n) ltac:(congruence)) as B.
  induction (map Start (seq 0 (S n))) as [|y l IH]; cbn; auto. inversion A; subst. constructor.
  - rewrite in_app_iff. intros [I|I]; auto. apply (D y); cbn; auto.
  - apply IH; auto. intros z I. apply D. cbn. auto.
Qed.
Lemma dcarriers_all : forall s x, 1 <= dcarry s x -> In s dcarriers.
Proof.
  intros s x G. unfold dcarriers. cbn [In]. rewrite in_app_iff, !in_map_iff.
  assert (U : forall i, 1 <= (if user i then 1 else 0) -> In i (seq 0 (S n))).
  { intros i Gi. apply in_seq. unfold user in Gi. destruct (Nat.leb_spec 1 i), (Nat.leb_spec i n); cbn in Gi; lia. }
  destruct s as [| | | |i|t|t]; cbn in G; auto; try lia; right; right; [left|right]; exists t; (split; [auto|]);
    destruct x; destruct t; try lia; try (apply in_seq; lia); apply U; auto.
Qed.

(** a user's thread, or main, while logging is on *)
Definition ready (has : loc -> nat) (kn : loc -> val -> Prop) : Prop :=
  1 <= has LLogger /\ (forall v, kn LLogger v -> v = [1%Z]) /\ 1 <= has LBg /\
  1 <= has LKeys /\ (forall v, kn LKeys v -> v = keys) /\ has LQueue = 0 /\ has LHook = 0.

Lemma ok_push : forall j has kn k, j <> j_fatal -> has LQueue = 0 -> okd has kn k -> okd has kn (q_push j k).
Proof.
  intros j has kn k J Q O. cbn. split; auto. split; [lia|]. intros v (_ & K). split; auto. split; [lia|]. split; [lia|].
  split; [intro x; lia|]. split.
  - intros x w G E. destruct x; cbn in G; try lia. cbn in E. subst w. cbn.
    rewrite in_app_iff. intros [I|[I|[]]]; [apply K in I; auto; cbn; lia|congruence].
  - wk; [intro; lia|]. intros x w G E. unfold kset in E.
    destruct (loc_eq_dec x LQueue) as [->|ne]; [lia|]. apply E; auto. cbn. lia.
Qed.

Lemma ok_ask : forall j has kn k, j <> j_fatal -> has LQueue = 0 -> 1 <= has LBg -> okd has kn k -> okd has kn (ask_worker j k).
Proof.
  intros j has kn k J Q B O. unfold ask_worker. cbn [ok atomics]. split; auto. split; auto. intros v K. apply ok_push; auto.
  apply ok_kset; auto.
Qed.

Lemma ok_hook : forall h has kn k, has LHook = 0 -> okd has kn k -> okd has kn (set_hook h k).
Proof.
  intros h has kn k Q O. cbn. split; auto. split; [lia|]. split; [lia|]. split; [intro; lia|]. split.
  - intros x w G E. destruct x; cbn in *; try lia; auto.
  - wk; [intro; lia|]. intros x w G E. unfold kset in E.
    destruct (loc_eq_dec x LHook) as [->|ne]; [lia|]. apply E; auto. lia.
Qed.

Lemma has_key_in : forall l ks, has_key l ks = true <-> In l ks.
Proof.
  intros. unfold has_key. rewrite existsb_exists. split.
  - intros (y & I & E). apply Z.eqb_eq in E. now subst.
  - intro I. exists l. split; auto. apply Z.eqb_refl.
Qed.

Lemma ok_call : forall c has kn k, registered keys c -> ready has kn -> okd has kn k -> okd has kn (ucall_prog c k).
Proof.
  intros c has kn k R (A & B & C & D & E & F & G) O. destruct c as [l|l| | | |h]; cbn [ucall_prog]; cbn [registered] in R.
  - unfold log_level, at_key. cbn [ok atomics]. split; auto. split; auto. intros v K. pose proof (E v K). subst v.
    apply has_key_in in R. rewrite R. apply ok_kset; auto. cbn [ok atomics]. split; auto. intros _.
    unfold push_message. cbn [ok atomics]. split; auto. split; auto. intros v K1. pose proof (B v K1). subst v. cbn [is_set].
    apply ok_kset; auto. cbn [ok atomics]. split; auto. split; auto. intros v K2. apply ok_kset; auto.
    apply ok_ask; auto. discriminate.
  - unfold get_status. cbn [ok atomics]. split; auto. split; auto. intros v K. apply ok_kset; auto.
    destruct (has_key l v); auto. cbn [ok atomics]. auto.
  - apply ok_ask; auto. discriminate.
  - apply ok_ask; auto. discriminate.
  - apply ok_ask; auto. discriminate.
  - apply ok_hook; auto.
Qed.
Lemma ok_calls : forall cs has kn k, Forall (registered keys) cs -> ready has kn -> okd has kn k -> okd has kn (calls (map ucall_prog cs) k).
Proof. intros cs has kn k R A O. induction R; cbn; auto. apply ok_call; auto. Qed.

(** the worker's thread *)
Lemma ok_wait : forall m has kn k, has LQueue = 0 -> (forall j, j <> j_fatal -> okd has kn (k j)) -> okd has kn (q_wait m k).
Proof.
  intros m has kn k Q O.
  assert (W : forall k1, okd has kn k1 -> forall (q : val -> Prop),
            okd (fun x => has x + dcarry MQueue x - dcarry MQueue x)
              (kset (fun x v => (1 <= has x -> kn x v) /\ (1 <= dcarry MQueue x -> dassert MQueue x v)) LQueue q) k1).
  { intros k1 O1 q. wk; [intro; lia|]. intros x w G E. unfold kset in E.
    destruct (loc_eq_dec x LQueue) as [->|ne]; [lia|]. apply E; auto. lia. }
  assert (J : forall j r, dassert MQueue LQueue (j :: r) -> j <> j_fatal).
  { cbn. intros j r N ->. apply N. auto. }
  induction m as [|m IH]; cbn [q_wait ok].
  - split; auto. split; [cbn; lia|]. intros v (_ & K). specialize (K ltac:(cbn; lia)). destruct v as [|j r]; cbn [ok atomics].
    + split; [intro; lia|]. split; auto. intros x w G E. destruct x; cbn in G; try lia. cbn in E. now subst w.
    + split; auto. split; [cbn; lia|]. split; [cbn; lia|]. split; [intro; lia|]. split.
      * intros x w G E. destruct x; cbn in G; try lia. cbn in E. subst w. cbn in *. tauto.
      * eapply ok_weaken; [| |apply (W _ (O j (J j r K)) (fun _ => True))]; [intro; apply Nat.le_refl|].
        intros x w G E. specialize (E G). unfold kset in *. destruct (loc_eq_dec x LQueue); auto.
  - split; auto. split; [cbn; lia|]. intros v (_ & K). specialize (K ltac:(cbn; lia)). destruct v as [|j r]; cbn [ok atomics].
    + split; [intro; lia|]. split. { intros x w G E. destruct x; cbn in G; try lia. cbn in E. now subst w. }
      apply W. auto.
    + split; auto. split; [cbn; lia|]. split; [cbn; lia|]. split; [intro; lia|]. split.
      * intros x w G E. destruct x; cbn in G; try lia. cbn in E. subst w. cbn in *. tauto.
      * eapply ok_weaken; [| |apply (W _ (O j (J j r K)) (fun _ => True))]; [intro; apply Nat.le_refl|].
        intros x w G E. specialize (E G). unfold kset in *. destruct (loc_eq_dec x LQueue); auto.
Qed.

(** what the worker's thread holds *)
Definition whas (x : loc) : nat := match x with LSinks | LDone => 1 | _ => 0 end.
Definition nothing (x : loc) (v : val) : Prop := True.
Lemma okd_forget : forall k has (kn kn' : loc -> val -> Prop), (forall x v, kn x v) -> okd has kn k -> okd has kn' k.
Proof. intros k has kn kn' A O. wk; auto. Qed.

Lemma ok_job : forall j k, j <> j_fatal -> okd whas nothing k -> okd whas nothing (job_prog j k).
Proof.
  intros j k J O. assert (F : forall kn, okd whas kn k) by (intro kn; apply (okd_forget k whas nothing); auto; intros; exact I).
  unfold job_prog. repeat (match goal with |- context [if ?c then _ else _] => destruct c eqn:? end);
    try (apply Z.eqb_eq in Heqb3; congruence); cbn; repeat (split; auto; intros); auto.
Qed.
Lemma ok_run : forall m r, okd whas nothing (run m r).
Proof.
  intros m. induction r as [|r IH]; cbn [run]; [exact I|]. cbn [ok atomics]. split; auto. split; [cbn; lia|].
  intros v _. apply (okd_forget _ whas nothing); [intros; exact I|]. destruct (is_set v); cbn [ok atomics].
  - split; [intros [| | | | | | | | | | | | | | |]; cbn; lia|]. split; [|exact I]. intros [| | | | | | | | | | | | | | |] w G _; cbn in *; try lia; exact I.
  - apply ok_wait; auto. intros. apply ok_job; auto.
Qed.


(** main, before the worker is created *)
Definition mhas (x : loc) : nat := match x with LLogger | LBg => S n | LHook => 0 | _ => 1 end.
Definition mkn (x : loc) (v : val) : Prop := match x with LLogger => v = [] | LKeys => v = keys | _ => True end.
(** main with i threads running *)
Definition mhs (i : nat) (x : loc) : nat :=
  match x with LLogger | LBg => S n - i | LHook | LQueue | LSinks | LDone => 0 | _ => 1 end.
Definition mkn1 (x : loc) (v : val) : Prop := match x with LLogger => v = [1%Z] | LKeys => v = keys | _ => True end.

Lemma ok_acq0 : forall s has kn k, (forall x, dcarry s x = 0) -> okd has kn k -> okd has kn (Acq s k).
Proof. intros s has kn k C O. cbn. wk; [intro; lia|]. intros x v G E. apply E; auto. lia. Qed.
Lemma ok_rel0 : forall s has kn k, (forall x, dcarry s x = 0) -> okd has kn k -> okd has kn (Rel s k).
Proof.
  intros s has kn k C O. cbn. split; [intro x; rewrite C; lia|]. split; [intros x v G; rewrite C in G; lia|].
  wk; [intro x; rewrite C; lia|]. intros x v G E. apply E. rewrite C. lia.
Qed.
Lemma ok_kforget : forall p has (kn : loc -> val -> Prop) x q, (forall v, kn x v) -> okd has kn p -> okd has (kset kn x q) p.
Proof.
  intros p has kn x q N O. wk; auto. intros y v G E. unfold kset in E. destruct (loc_eq_dec y x) as [->|]; auto.
Qed.
Lemma ok_kforget2 : forall p has (kn : loc -> val -> Prop) x q q', (forall v, kn x v) -> okd has kn p -> okd has (kset (kset kn x q) x q') p.
Proof.
  intros p has kn x q q' N O. wk; auto. intros y v G E. unfold kset in E. destruct (loc_eq_dec y x) as [->|]; auto.
Qed.
Lemma ok_once : forall i body has (kn : loc -> val -> Prop) k, has (LOnce i) = 1 -> (forall v, kn (LOnce i) v) ->
  (forall k', okd has kn k' -> okd has kn (body k')) -> okd has kn k -> okd has kn (once i body k).
Proof.
  intros i body has kn k H N B O. unfold once. apply ok_acq0; [reflexivity|]. cbn [ok atomics]. split; auto. split; [lia|].
  intros v _. assert (R : forall q, okd has (kset kn (LOnce i) q) (Rel (MOnce i) k)).
  { intro q. apply ok_rel0; [reflexivity|]. now apply ok_kforget. }
  destruct (is_set v); auto. apply ok_kforget; auto. apply B. cbn [ok atomics]. split; auto.
  split; [change (dtotal (LOnce i)) with 1; lia|]. split; [lia|]. exact (R (eq [1%Z])).
Qed.
Lemma ok_install : forall sigs has (kn : loc -> val -> Prop) k, has LSaved = 1 -> (forall v, kn LSaved v) -> okd has kn k -> okd has kn (install_all sigs k).
Proof.
  intros sigs has kn k S N O. induction sigs as [|s r IH]; cbn; auto. split; auto. split; [lia|]. intros v _. split; auto.
  split; [lia|]. split; [lia|]. now apply ok_kforget2.
Qed.

Lemma ok_starts : forall i k, i <= n -> okd (mhs i) mkn1 k -> okd (mhs 0) mkn1 (start_threads i k).
Proof.
  induction i as [|i IH]; intros k L O; cbn [start_threads]; auto. apply IH; [lia|]. cbn [ok atomics].
  assert (U : user (S i) = true). { unfold user. destruct (Nat.leb_spec (S i) n); [reflexivity|lia]. }
  split; [intros [| | | | | | | | | | | | | | |]; cbn [dcarry mhs]; rewrite ?U; lia|]. split.
  - intros [| | | | | | | | | | | | | | |] v G E; cbn in *; auto.
  - wk; [intros [| | | | | | | | | | | | | | |]; cbn [dcarry mhs]; rewrite ?U; lia|].
    intros x v G E. apply E. revert G. destruct x; cbn [dcarry mhs]; rewrite ?U; lia.
Qed.
Lemma ok_joins : forall i k, i <= n -> okd (mhs (n - i)) mkn1 k -> okd (mhs n) mkn1 (join_threads i k).
Proof.
  induction i as [|i IH]; intros k L O; cbn [join_threads]; [now rewrite Nat.sub_0_r in O|]. apply IH; [lia|]. cbn [ok atomics].
  assert (U : user (S i) = true). { unfold user. destruct (Nat.leb_spec (S i) n); [reflexivity|lia]. }
  wk; [intros [| | | | | | | | | | | | | | |]; cbn [dcarry mhs]; rewrite ?U; lia|].
  intros x v G E. destruct x; cbn [dcarry mhs mkn1 dassert] in *; auto.
  - rewrite U in E. apply E; lia.
  - apply E; lia.
Qed.

Lemma ok_destroy : okd (mhs 0) mkn1 (destroy_worker Stop).
Proof.
  unfold destroy_worker. cbn [ok atomics]. split; auto. split; [cbn; lia|]. intros v _.
  unfold shut_down, locked. apply ok_acq0; [reflexivity|]. cbn [ok atomics]. split; auto. split; [cbn; lia|]. split; [cbn; lia|].
  apply ok_rel0; [reflexivity|]. apply ok_ask; [discriminate|reflexivity|cbn; lia|]. cbn [ok atomics]. split; auto.
  split; [cbn; lia|]. split; [cbn; lia|]. apply ok_push; [discriminate|reflexivity|]. cbn.
  repeat (split; auto).
Qed.

Lemma ok_initialize : forall k, okd (mhs 0) mkn1 k -> okd (mhs 0) mkn (initialize k).
Proof.
  intros k O. unfold initialize. apply ok_once; [reflexivity|intro; exact I| |].
  { intros k' O'. unfold install. cbn [ok atomics]. split; auto. split; [cbn; lia|]. intros v _. apply ok_kforget; [intro; exact I|].
    apply ok_install; [reflexivity|intro; exact I|exact O']. }
  apply ok_acq0; [reflexivity|]. cbn [ok atomics]. split; auto. split; [cbn; lia|]. intros v E. cbn in E. subst v. cbn [is_set].
  apply ok_kset; [|intro; reflexivity]. apply ok_once; [reflexivity|intro; exact I| |].
  { intros k' O'. cbn [ok atomics]. split; auto. split; [cbn; lia|]. intros v _. apply ok_kforget; [intro; exact I|].
    destruct (is_set v); auto. cbn [ok atomics]. split; auto. split; [cbn; lia|]. split; [cbn; lia|].
    apply ok_kforget; [intro; exact I|]. apply ok_ask; [discriminate|reflexivity|cbn; lia|auto]. }
  cbn [ok atomics]. split; auto. split; [cbn; lia|]. split; [cbn; lia|]. apply ok_hook; [reflexivity|]. cbn [ok atomics]. split; auto.
  split; [cbn; lia|]. split; [cbn; lia|]. apply ok_rel0; [reflexivity|]. wk; auto. intros x w G E. specialize (E G). unfold kset in E.
  destruct (loc_eq_dec x LCounter) as [->|nc]; [exact I|]. destruct (loc_eq_dec x LLogger) as [->|ne]; [now subst|].
  destruct x; auto. congruence.
Qed.

Lemma ok_main : forall cs, Forall (registered keys) cs -> okd mhas mkn (main_thread n cs).
Proof.
  intros cs R. unfold main_thread.
  assert (O : okd (mhs 0) mkn1 (start_threads n (calls (map ucall_prog cs) (join_threads n (destroy_worker Stop))))).
  { apply ok_starts; auto. apply ok_calls; auto.
    - unfold ready. cbn [mhs mkn1]. repeat split; auto; lia.
    - apply ok_joins; auto. rewrite Nat.sub_diag. apply ok_destroy. }
  apply ok_initialize in O.
  assert (A : okd (mhs 0) mkn (ask_worker j_add (initialize (start_threads n (calls (map ucall_prog cs) (join_threads n (destroy_worker Stop))))))).
  { apply ok_ask; [discriminate|reflexivity|cbn; lia|auto]. }
  unfold create_worker. cbn [ok atomics]. repeat (split; [cbn; auto; lia|]).
  split. { intros [| | | | | | | | | | | | | | |]; cbn; lia. }
  split. { intros [| | | | | | | | | | | | | | |] v G; cbn in *; try lia. intros E. subst v. cbn. auto. }
  split. { intros [| | | | | | | | | | | | | | |]; cbn; lia. }
  split. { intros [| | | | | | | | | | | | | | |] v G; cbn in *; try lia; auto. }
  split; auto. split; [cbn; lia|]. split; [cbn; lia|].
  wk; [intros [| | | | | | | | | | | | | | |]; cbn; lia|].
  intros x v G E. destruct x; cbn in *; auto; try lia; apply E; lia.
Qed.

(** a user's thread holds one of the tokens of the level table *)
Definition uhas (x : loc) : nat := match x with LKeys => 1 | _ => 0 end.
Lemma ok_user : forall i cs, 1 <= i <= n -> Forall (registered keys) cs -> okd uhas mkn (user_thread i cs).
Proof.
  intros i cs L R. unfold user_thread. cbn [ok atomics].
  assert (U : user i = true). { unfold user. destruct (Nat.leb_spec 1 i), (Nat.leb_spec i n); auto; lia. }
  destruct i as [|i]; [lia|].
  apply ok_calls; auto.
  - unfold ready. cbn [dcarry uhas dassert mkn]. rewrite U. cbn. repeat split; auto; try lia; intros v (A & B); auto.
  - cbn [ok atomics]. split; [intros [| | | | | | | | | | | | | | |]; cbn [dcarry uhas]; rewrite ?U; lia|]. split; [|exact I].
    intros [| | | | | | | | | | | | | | |] v G (A & B); cbn [dcarry uhas dassert] in *; auto.
Qed.

End Documented.

Lemma user_threads_get : forall l i t, get Stop (user_threads i l) t =
  match nth_error l t with Some cs => user_thread (i + t) cs | None => Stop end.
Proof.
  unfold get. induction l as [|cs l IH]; intros i [|t]; cbn; auto.
  - now rewrite Nat.add_0_r.
  - rewrite IH. destruct (nth_error l t); auto. f_equal. lia.
Qed.
Lemma user_threads_length : forall l i, length (user_threads i l) = length l.
Proof. induction l as [|cs l IH]; intro i; cbn; auto. Qed.

Lemma documented_inv : forall keys sigs m r main_calls users,
  Forall (registered keys) main_calls -> Forall (Forall (registered keys)) users ->
  inv (dtotal (length users)) (dcarry (length users)) dassert atomics (dcarriers (length users)) (documented keys sigs m r main_calls users).
Proof.
  intros keys sigs m r mc users RM RU. set (n := length users).
  - exists (fun t => match t with 0 => mhas n | 1 => fun _ => 0 | _ => uhas end),
           (fun t => mkn keys). unfold documented. cbn [ths sems mem]. split; [|split; [|split]].
    + intros [|[|t]].
      * cbn [get nth]. apply ok_main. exact RM.
      * cbn [get nth]. unfold worker. cbn [ok atomics]. eapply ok_weaken; [| |apply (ok_run n m r)].
        -- intros [| | | | | | | | | | | | | | |]; cbn; lia.
        -- intros. exact I.
      * change (get Stop (main_thread (length users) mc :: worker m r :: user_threads 1 users) (S (S t))) with (get Stop (user_threads 1 users) t).
        rewrite user_threads_get. destruct (nth_error users t) as [cs|] eqn:E; [|exact I].
        pose proof (nth_error_In _ _ E) as J. assert (t < n) by (apply nth_error_Some; congruence).
        apply ok_user; [lia|]. rewrite Forall_forall in RU. auto.
    + intro y. cbn [length]. rewrite user_threads_length. fold n.
      assert (HU : forall k a, list_sum (map (fun t => (match t with 0 => mhas n | 1 => fun _ => 0 | _ => uhas end) y) (seq (S (S a)) k)) = k * uhas y).
      { induction k as [|k IH]; intro a; cbn [seq map list_sum fold_right]; auto. change (fold_right Nat.add 0 ?l) with (list_sum l).
        rewrite IH. cbn. lia. }
      unfold held. cbn [seq map list_sum fold_right]. change (fold_right Nat.add 0 ?l) with (list_sum l). rewrite HU.
      assert (LY : lying (dcarry n) (dcarriers n) before_main y = match y with LHook => 1 | _ => 0 end).
      { unfold lying, dcarriers. cbn [map list_sum fold_right]. change (fold_right Nat.add 0 ?l) with (list_sum l).
        rewrite map_app, list_sum_app, !map_map.
        assert (Z : forall l : list nat, list_sum (map (fun _ => 0) l) = 0) by (induction l; auto).
        rewrite (sum_ext (fun a => before_main (Start a) * dcarry n (Start a) y) (fun _ => 0) (seq 0 (S n))), Z by reflexivity.
        rewrite (sum_ext (fun a => before_main (End a) * dcarry n (End a) y) (fun _ => 0) (seq 0 (S n))), Z by reflexivity.
        destruct y; reflexivity. }
      rewrite LY. destruct y; cbn; lia.
    + intros t y A L G. destruct y; cbn; auto.
    + intros s y A G C. destruct s; cbn in *; auto; try lia.
Qed.
Lemma documented_race_free : forall keys sigs m r main_calls users x,
  Forall (registered keys) main_calls -> Forall (Forall (registered keys)) users ->
  race_free (documented keys sigs m r main_calls users) x.
Proof.
  intros keys sigs m r mc users x RM RU.
  exact (permissions_sound _ _ _ _ _ (dcarriers_nodup _) (dcarriers_all _) _ x (documented_inv keys sigs m r mc users RM RU)).
Qed.
