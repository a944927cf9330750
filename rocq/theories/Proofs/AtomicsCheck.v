(** A decision procedure that shows a concrete execution consistent; for the examples and refutations of Properties/PAtomics.v. *)
From Coq Require Import List ZArith Bool Relations PeanoNat Lia.
From Verif Require Import Model.Atomics Proofs.AtomicsFacts.
Import ListNotations.
Local Open Scope list_scope.
Local Open Scope bool_scope.

Definition aloc_eqb (a b : aloc) : bool :=
  match a, b with FirstExit, FirstExit => true | Counter, Counter => true | Block, Block => true | Switch k, Switch k' => Z.eqb k k' | _, _ => false end.
Lemma aloc_eqb_eq : forall a b, aloc_eqb a b = true <-> a = b.
Proof.
  intros [| | |k] [| | |k']; cbn; split; intros H; try reflexivity; try discriminate.
  - apply Z.eqb_eq in H. now subst.
  - injection H as ->. apply Z.eqb_refl.
Qed.

Definition pairb (l : list (nat * nat)) (i j : nat) : bool := existsb (fun p => Nat.eqb (fst p) i && Nat.eqb (snd p) j) l.
Lemma pairb_in : forall l i j, pairb l i j = true <-> In (i, j) l.
Proof.
  intros l i j. unfold pairb. rewrite existsb_exists. split.
  - intros ([a b] & I & E). apply andb_prop in E. destruct E as (A & B). apply Nat.eqb_eq in A, B. cbn in A, B. now subst.
  - intros I. exists (i, j). split; [exact I|]. cbn. now rewrite !Nat.eqb_refl.
Qed.
Definition rf_of (l : list (nat * nat)) (j : nat) : option nat := match find (fun p => Nat.eqb (fst p) j) l with Some p => Some (snd p) | None => None end.
Lemma rf_of_in : forall l j i, rf_of l j = Some i -> In (j, i) l.
Proof.
  intros l j i. unfold rf_of. destruct (find _ l) as [[a b]|] eqn:E; [|discriminate]. intros H. injection H as <-.
  apply find_some in E. destruct E as (I & E). apply Nat.eqb_eq in E. cbn in *. now subst.
Qed.

Definition build (evs : list event) (rfs mos : list (nat * nat)) : execution := mkX evs (rf_of rfs) (pairb mos) (fun _ _ => False).

Definition all (n : nat) (P : nat -> bool) : bool := forallb P (seq 0 n).
Lemma all_spec : forall n P i, all n P = true -> (i < n)%nat -> P i = true.
Proof. intros n P i A L. unfold all in A. rewrite forallb_forall in A. apply A. apply in_seq. lia. Qed.

Definition isSome {A} (o : option A) : bool := match o with Some _ => true | None => false end.
Definition wrb (evs : list event) (l : aloc) (i : nat) : bool := match nth_error evs i with Some e => aloc_eqb (e_loc e) l && isSome (e_new e) | None => false end.
Definition rdb (evs : list event) (l : aloc) (i : nat) : bool := match nth_error evs i with Some e => aloc_eqb (e_loc e) l && isSome (e_old e) | None => false end.
Definition locof (evs : list event) (i : nat) : aloc := match nth_error evs i with Some e => e_loc e | None => Block end.
Definition sameThread (evs : list event) (i j : nat) : bool :=
  match nth_error evs i, nth_error evs j with Some a, Some b => Nat.eqb (e_thread a) (e_thread b) | _, _ => false end.
Definition opt_eqb (a b : option Z) : bool := match a, b with Some x, Some y => Z.eqb x y | None, None => true | _, _ => false end.
Lemma opt_eqb_eq : forall a b, opt_eqb a b = true -> a = b.
Proof. intros [a|] [b|] H; cbn in H; try discriminate; [apply Z.eqb_eq in H; now subst|reflexivity]. Qed.

Section Check.
Variables (init : aloc -> Z) (evs : list event) (rfs mos hbs : list (nat * nat)).
Let n := length evs.
Let H := pairb hbs.
Let M := pairb mos.
Let x := build evs rfs mos.

Definition check_hb : bool :=
  all n (fun i => negb (H i i))
  && all n (fun i => all n (fun j => all n (fun k => implb (H i j && H j k) (H i k))))
  && all n (fun i => all n (fun j => implb (Nat.ltb i j && sameThread evs i j) (H i j)))
  && forallb (fun p => H (snd p) (fst p)) rfs.
Definition check_mo : bool :=
  forallb (fun p => negb (Nat.eqb (fst p) (snd p))) mos
  && forallb (fun p => forallb (fun q => implb (Nat.eqb (snd p) (fst q)) (M (fst p) (snd q))) mos) mos
  && all n (fun i => all n (fun j => implb (wrb evs (locof evs i) i && wrb evs (locof evs i) j && negb (Nat.eqb i j)) (M i j || M j i)))
  && forallb (fun p => wrb evs (locof evs (fst p)) (fst p) && wrb evs (locof evs (fst p)) (snd p)) mos.
Definition check_rf : bool :=
  all n (fun j => match nth_error evs j with
    | Some b => match e_old b with
        | Some v => match rf_of rfs j with
            | Some i => match nth_error evs i with Some a => aloc_eqb (e_loc a) (e_loc b) && opt_eqb (e_new a) (Some v) | None => false end
            | None => Z.eqb v (init (e_loc b)) end
        | None => true end
    | None => true end).
Definition atOrAfter (i k : nat) : bool := Nat.eqb k i || M i k.
Definition check_co : bool :=
  all n (fun i => all n (fun j => let l := locof evs i in implb (H i j)
    (implb (wrb evs l i && wrb evs l j) (M i j)
     && implb (wrb evs l i && rdb evs l j) (match rf_of rfs j with Some k => atOrAfter i k | None => false end)
     && implb (rdb evs l i && wrb evs l j) (match rf_of rfs i with Some k => M k j | None => true end)
     && implb (rdb evs l i && rdb evs l j) (match rf_of rfs i, rf_of rfs j with Some k, Some k' => atOrAfter k k' | Some _, None => false | None, _ => true end)))).
Definition check_rmw : bool :=
  all n (fun i => let l := locof evs i in implb (wrb evs l i && rdb evs l i)
    (match rf_of rfs i with
     | Some k => M k i && forallb (fun p => implb (Nat.eqb (snd p) i) (Nat.eqb (fst p) k || M (fst p) k)) mos
     | None => forallb (fun p => negb (Nat.eqb (snd p) i)) mos end)).
Definition check : bool := check_hb && check_mo && check_rf && check_co && check_rmw.

Lemma lt_n : forall i e, at_ x i e -> (i < n)%nat.
Proof. intros i e A. exact (at_length x i e A). Qed.
Lemma writes_b : forall l i, writes x l i -> wrb evs l i = true /\ locof evs i = l /\ (i < n)%nat.
Proof.
  intros l i (e & A & L & W). pose proof (lt_n i e A). unfold at_ in A. cbn in A. unfold wrb, locof. rewrite A. subst l. repeat split; [|assumption].
  rewrite (proj2 (aloc_eqb_eq _ _) eq_refl). destruct (e_new e); [reflexivity|congruence].
Qed.
Lemma reads_b : forall l i, reads x l i -> rdb evs l i = true /\ locof evs i = l /\ (i < n)%nat.
Proof.
  intros l i (e & A & L & W). pose proof (lt_n i e A). unfold at_ in A. cbn in A. unfold rdb, locof. rewrite A. subst l. repeat split; [|assumption].
  rewrite (proj2 (aloc_eqb_eq _ _) eq_refl). destruct (e_old e); [reflexivity|congruence].
Qed.
Lemma b_writes : forall l i, wrb evs l i = true -> writes x l i.
Proof.
  intros l i B. unfold wrb in B. destruct (nth_error evs i) as [e|] eqn:E; [|discriminate]. apply andb_prop in B. destruct B as (L & W).
  apply aloc_eqb_eq in L. exists e. repeat split; [exact E|exact L|]. destruct (e_new e); [discriminate|discriminate W].
Qed.

Lemma imp : forall a b, implb a b = true -> a = true -> b = true.
Proof. intros [] [] P Q; cbn in *; congruence. Qed.

Lemma check_consistent : check = true -> consistent init x.
Proof.
  unfold check. intros CHB. apply andb_prop in CHB. destruct CHB as [CHB CRMW]. apply andb_prop in CHB. destruct CHB as [CHB CCO].
  apply andb_prop in CHB. destruct CHB as [CHB CRF]. apply andb_prop in CHB. destruct CHB as [CHB CMO].
  unfold check_hb in CHB. apply andb_prop in CHB. destruct CHB as [CHB HRF]. apply andb_prop in CHB. destruct CHB as [CHB HSB].
  apply andb_prop in CHB. destruct CHB as [HIR HTR].
  rewrite forallb_forall in HRF.
  assert (TR : forall i j k, (i < n)%nat -> (j < n)%nat -> (k < n)%nat -> H i j = true -> H j k = true -> H i k = true).
  { intros i j k A B D P Q. pose proof (all_spec _ _ i HTR A) as T. cbn beta in T. pose proof (all_spec _ _ j T B) as T2. pose proof (all_spec _ _ k T2 D) as T3.
    cbn beta in T3. apply (imp _ _ T3). now rewrite P, Q. }
  assert (RFH : forall j i, x_rf x j = Some i -> H i j = true).
  { intros j i R. exact (HRF (j, i) (rf_of_in _ _ _ R)). }
  assert (RFL : forall l j i, reads x l j -> x_rf x j = Some i -> (i < n)%nat).
  { intros l j i (b & B & _ & O) R. pose proof (all_spec _ _ j CRF (lt_n _ _ B)) as T. cbn beta in T. unfold at_ in B. cbn in B, R. rewrite B in T.
    destruct (e_old b); [|congruence]. rewrite R in T. destruct (nth_error evs i) eqn:E; [|discriminate]. apply nth_error_Some. congruence. }
  assert (SEQ : forall i k, (i < n)%nat -> sequence x i k -> (k < n)%nat /\ (k = i \/ H i k = true)).
  { intros i k L S. induction S as [|j k l S (JL & IH) W RD R]; [split; [exact L|now left]|].
    destruct (reads_b _ _ RD) as (_ & _ & KL). split; [exact KL|]. right. pose proof (RFH _ _ R) as E.
    destruct IH as [->|IH]; [exact E|exact (TR i j k L JL KL IH E)]. }
  assert (HB : forall i j, hb x i j -> (i < n)%nat /\ (j < n)%nat /\ H i j = true).
  { intros i j P. induction P as [i j [S|[S|S]]|i j k _ (A & B & P) _ (B' & D & Q)].
    - destruct S as (L & a & b & A & B & T). pose proof (lt_n _ _ A) as LI. pose proof (lt_n _ _ B) as LJ. repeat split; [exact LI|exact LJ|].
      pose proof (all_spec _ _ i HSB LI) as Q. cbn beta in Q. pose proof (all_spec _ _ j Q LJ) as Q2. cbn beta in Q2. apply (imp _ _ Q2).
      unfold at_ in A, B. cbn in A, B. unfold sameThread. rewrite A, B, (proj2 (Nat.ltb_lt _ _) L), (proj2 (Nat.eqb_eq _ _) T). reflexivity.
    - destruct S as (a & b & k & A & B & WA & RB & _ & _ & R & S). pose proof (lt_n _ _ A) as LI. pose proof (lt_n _ _ B) as LJ. repeat split; [exact LI|exact LJ|].
      destruct (SEQ i k LI S) as (LK & [->|Q]); [exact (RFH _ _ R)|exact (TR i k j LI LK LJ Q (RFH _ _ R))].
    - destruct S.
    - repeat split; [exact A|exact D|exact (TR i j k A B D P Q)]. }
  unfold check_mo in CMO. apply andb_prop in CMO. destruct CMO as [CMO MSA]. apply andb_prop in CMO. destruct CMO as [CMO MTO]. apply andb_prop in CMO. destruct CMO as [MIR MTR].
  rewrite forallb_forall in MSA, MIR, MTR.
  assert (CO : forall i j, hb x i j -> let l := locof evs i in
    implb (wrb evs l i && wrb evs l j) (M i j)
     && implb (wrb evs l i && rdb evs l j) (match rf_of rfs j with Some k => atOrAfter i k | None => false end)
     && implb (rdb evs l i && wrb evs l j) (match rf_of rfs i with Some k => M k j | None => true end)
     && implb (rdb evs l i && rdb evs l j) (match rf_of rfs i, rf_of rfs j with Some k, Some k' => atOrAfter k k' | Some _, None => false | None, _ => true end) = true).
  { intros i j P. destruct (HB i j P) as (A & B & Q). pose proof (all_spec _ _ i CCO A) as T. cbn beta in T. pose proof (all_spec _ _ j T B) as T2. cbn beta zeta in T2. exact (imp _ _ T2 Q). }
  constructor.
  - intros i P. destruct (HB i i P) as (A & _ & Q). pose proof (all_spec _ _ i HIR A) as T. cbn beta in T. rewrite Q in T. discriminate.
  - intros i. destruct (x_mo x i i) eqn:E; [|reflexivity]. apply pairb_in in E. specialize (MIR _ E). cbn in MIR. rewrite Nat.eqb_refl in MIR. discriminate.
  - intros i j k P Q. apply pairb_in in P, Q. pose proof (MTR _ P) as T. rewrite forallb_forall in T. specialize (T _ Q). cbn in T. rewrite Nat.eqb_refl in T. exact T.
  - intros l i j W W' N. destruct (writes_b _ _ W) as (A & B & L). destruct (writes_b _ _ W') as (A' & _ & L').
    pose proof (all_spec _ _ i MTO L) as T. cbn beta in T. pose proof (all_spec _ _ j T L') as T2. cbn beta in T2. rewrite B, A, A' in T2.
    rewrite (proj2 (Nat.eqb_neq _ _) N) in T2. cbn in T2. apply orb_prop in T2. exact T2.
  - intros i j P. apply pairb_in in P. specialize (MSA _ P). cbn in MSA. apply andb_prop in MSA. destruct MSA as (A & B).
    exists (locof evs i). split; apply b_writes; assumption.
  - intros j b v i A O R. pose proof (all_spec _ _ j CRF (lt_n _ _ A)) as T. cbn beta in T. unfold at_ in A. cbn in A, R. rewrite A, O, R in T.
    destruct (nth_error evs i) as [a|] eqn:E; [|discriminate]. apply andb_prop in T. destruct T as (L & V). apply aloc_eqb_eq in L. apply opt_eqb_eq in V.
    exists a. repeat split; assumption.
  - intros j b v A O R. pose proof (all_spec _ _ j CRF (lt_n _ _ A)) as T. cbn beta in T. unfold at_ in A. cbn in A, R. rewrite A, O, R in T. now apply Z.eqb_eq in T.
  - intros l i j W W' P. specialize (CO i j P). cbn zeta in CO. destruct (writes_b _ _ W) as (A & B & _). destruct (writes_b _ _ W') as (A' & _ & _). rewrite B, A, A' in CO.
    apply andb_prop in CO. destruct CO as [CO _]. apply andb_prop in CO. destruct CO as [CO _]. apply andb_prop in CO. destruct CO as [CO _]. exact CO.
  - intros l i j W W' P. specialize (CO i j P). cbn zeta in CO. destruct (writes_b _ _ W) as (A & B & _). destruct (reads_b _ _ W') as (A' & _ & _). rewrite B, A, A' in CO.
    apply andb_prop in CO. destruct CO as [CO _]. apply andb_prop in CO. destruct CO as [CO _]. apply andb_prop in CO. destruct CO as [_ CO]. cbn [andb implb] in CO.
    cbn. destruct (rf_of rfs j) as [k|]; [|discriminate]. exists k. split; [reflexivity|]. apply orb_prop in CO. destruct CO as [E|E]; [left; now apply Nat.eqb_eq|right; exact E].
  - intros l i j k W W' P R. specialize (CO i j P). cbn zeta in CO. destruct (reads_b _ _ W) as (A & B & _). destruct (writes_b _ _ W') as (A' & _ & _). rewrite B, A, A' in CO.
    apply andb_prop in CO. destruct CO as [CO _]. apply andb_prop in CO. destruct CO as [_ CO]. cbn [andb implb] in CO. cbn in R. rewrite R in CO. exact CO.
  - intros l i j k W W' P R. specialize (CO i j P). cbn zeta in CO. destruct (reads_b _ _ W) as (A & B & _). destruct (reads_b _ _ W') as (A' & _ & _). rewrite B, A, A' in CO.
    apply andb_prop in CO. destruct CO as [_ CO]. cbn [andb implb] in CO. cbn in R. rewrite R in CO. cbn.
    destruct (rf_of rfs j) as [k'|]; [|discriminate]. exists k'. split; [reflexivity|]. apply orb_prop in CO. destruct CO as [E|E]; [left; now apply Nat.eqb_eq|right; exact E].
  - intros l i k W W' R. destruct (writes_b _ _ W) as (A & B & L). destruct (reads_b _ _ W') as (A' & _ & _). pose proof (all_spec _ _ i CRMW L) as T. cbn beta zeta in T.
    rewrite B, A, A' in T. cbn in R. rewrite R in T. cbn [andb implb] in T. apply andb_prop in T. destruct T as (T & U). split; [exact T|].
    intros j P. apply pairb_in in P. rewrite forallb_forall in U. specialize (U _ P). cbn in U. rewrite Nat.eqb_refl in U. cbn in U. apply orb_prop in U.
    destruct U as [E|E]; [left; now apply Nat.eqb_eq|right; exact E].
  - intros l i j W W' R. destruct (writes_b _ _ W) as (A & B & L). destruct (reads_b _ _ W') as (A' & _ & _). pose proof (all_spec _ _ i CRMW L) as T. cbn beta zeta in T.
    rewrite B, A, A' in T. cbn in R. rewrite R in T. cbn [andb implb] in T. destruct (x_mo x j i) eqn:P; [|reflexivity]. apply pairb_in in P.
    rewrite forallb_forall in T. specialize (T _ P). cbn in T. rewrite Nat.eqb_refl in T. discriminate.
Qed.
End Check.
