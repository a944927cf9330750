(** Every message has one owner, or has been deleted once. *)
From Coq Require Import List Arith Bool Lia.
From Verif.Base Require Import Threads.
From Verif.Model Require Import Ownership.
Import ListNotations.

Definition owns (o : nat) (x : cell) : bool := match x with Own (Some p) => Nat.eqb p o | _ => false end.
Definition owners (s : mem) (o : nat) : nat := count (owns o) (o_cells s).
Definition frees (s : mem) (o : nat) : nat := count_occ Nat.eq_dec (o_freed s) o.
Definition invO (s : mem) : Prop := forall o, owners s o + frees s o = b2n (Nat.ltb o (o_objs s)).

Lemma cell_lt : forall s c p, cell_at s c = Own p -> c < length (o_cells s).
Proof. intros s c p H. apply (get_in Dead). unfold cell_at in H. rewrite H. discriminate. Qed.
Lemma cell_put : forall s c x d, c < length (o_cells s) -> cell_at (put s c x) d = if Nat.eqb d c then x else cell_at s d.
Proof. intros s c x d L. unfold cell_at, put. cbn. now apply get_upd. Qed.
Lemma cell_grow : forall s x d, cell_at (grow s x) d = if Nat.eqb d (length (o_cells s)) then x else cell_at s d.
Proof.
  intros s x d. unfold cell_at, grow, get. cbn. destruct (Nat.eqb_spec d (length (o_cells s))) as [->|N].
  - rewrite app_nth2, Nat.sub_diag by lia. reflexivity.
  - destruct (Nat.lt_ge_cases d (length (o_cells s))); [now rewrite app_nth1|]. rewrite !nth_overflow; auto. rewrite app_length. cbn. lia.
Qed.
Lemma owners_put : forall s c p x o, cell_at s c = Own p -> owners (put s c x) o + b2n (owns o (Own p)) = owners s o + b2n (owns o x).
Proof. intros s c p x o H. unfold owners, put. cbn [o_cells]. rewrite <- H. apply count_upd. now apply cell_lt in H. Qed.
Lemma count_app : forall A (f : A -> bool) a b, count f (a ++ b) = count f a + count f b.
Proof. intros. unfold count. now rewrite filter_app, app_length. Qed.
Lemma owners_grow : forall s x o, owners (grow s x) o = owners s o + b2n (owns o x).
Proof. intros. unfold owners, grow. cbn [o_cells]. rewrite count_app. unfold count at 2. cbn [filter]. destruct (owns o x); reflexivity. Qed.
Lemma frees_delete : forall s p o, frees (delete s p) o = frees s o + b2n (owns o (Own p)).
Proof.
  intros. unfold frees, delete. cbn [o_freed]. rewrite count_occ_app. f_equal. destruct p as [q|]; [|reflexivity]. cbn [count_occ owns]. destruct (Nat.eq_dec q o) as [->|N]; [now rewrite Nat.eqb_refl|]. apply Nat.eqb_neq in N. now rewrite N.
Qed.
Lemma exec_inv : forall s o s', invO s -> oexec s o = ORes s' -> invO s'.
Proof.
  intros s o s' I E.
  assert (CF : forall c, construct_from s c = ORes s' -> invO s').
  { intros c H. unfold construct_from in H. destruct (cell_at s c) as [|p] eqn:C; [discriminate|]. injection H as <-. intro x. rewrite owners_grow. pose proof (owners_put s c p (Own None) x C) as P. specialize (I x). cbn [owns b2n] in *. change (frees (grow (put s c (Own None)) (Own p)) x) with (frees s x). change (o_objs (grow (put s c (Own None)) (Own p))) with (o_objs s). cbn [owns] in *. lia. }
  assert (AF : forall d c, assign_from s d c = ORes s' -> invO s').
  { intros d c H. unfold assign_from in H. destruct (cell_at s c) as [|p] eqn:C; [discriminate|]. set (s1 := put s c (Own None)) in *. destruct (cell_at s1 d) as [|old] eqn:D; [discriminate|]. injection H as <-. intro x. rewrite frees_delete. change (owners (delete (put s1 d (Own p)) old) x) with (owners (put s1 d (Own p)) x).
    pose proof (owners_put s c p (Own None) x C) as P1. pose proof (owners_put s1 d old (Own p) x D) as P2. specialize (I x). fold s1 in P1. cbn [owns b2n] in P1. change (frees (put s1 d (Own p)) x) with (frees s x). change (o_objs (delete (put s1 d (Own p)) old)) with (o_objs s). cbn [owns] in *. lia. }
  destruct o; cbn [oexec] in E; eauto.
  - injection E as <-. intro x. rewrite owners_grow. specialize (I x). change (owners (mkMem (o_cells s) (S (o_objs s)) (o_freed s)) x) with (owners s x). change (frees (grow (mkMem (o_cells s) (S (o_objs s)) (o_freed s)) (Own (Some (o_objs s)))) x) with (frees s x). cbn [grow o_objs owns].
    destruct (Nat.ltb_spec x (o_objs s)), (Nat.ltb_spec x (S (o_objs s))), (Nat.eqb_spec (o_objs s) x); cbn [b2n] in *; lia.
  - destruct (cell_at s c) as [|p] eqn:C; [discriminate|]. injection E as <-. intro x. rewrite frees_delete. change (owners (delete (put s c Dead) p) x) with (owners (put s c Dead) x). pose proof (owners_put s c p Dead x C) as P. specialize (I x). change (frees (put s c Dead) x) with (frees s x). change (o_objs (delete (put s c Dead) p)) with (o_objs s). cbn [owns b2n] in *. lia.
  - destruct (cell_at s c) as [|[p|]]; try discriminate. now injection E as <-.
Qed.
Lemma execs_inv : forall l s s', invO s -> oexecs s l = ORes s' -> invO s'.
Proof.
  induction l as [|o l IH]; intros s s' I E; cbn [oexecs] in E; [now injection E as <-|]. destruct (oexec s o) as [s1| |] eqn:A; try discriminate. eapply IH; [|exact E]. eapply exec_inv; eauto.
Qed.
Lemma init_inv : invO o_init.
Proof. intro o. reflexivity. Qed.
Lemma owner_of : forall s c o, cell_at s c = Own (Some o) -> 0 < owners s o.
Proof. intros s c o H. unfold owners. apply (count_get Dead _ _ c); [now apply cell_lt in H|]. unfold cell_at in H. rewrite H. cbn. apply Nat.eqb_refl. Qed.
Lemma b2n_le1 : forall b, b2n b <= 1.
Proof. destruct b; cbn; lia. Qed.
(** the owner is unique *)
Lemma owner_unique : forall s c d o, invO s -> cell_at s c = Own (Some o) -> cell_at s d = Own (Some o) -> c = d.
Proof.
  intros s c d o I C D. destruct (Nat.eq_dec c d) as [|N]; auto. exfalso. pose proof (owners_put s c (Some o) (Own None) o C) as P. cbn [owns b2n] in P. rewrite Nat.eqb_refl in P. cbn [b2n] in P.
  assert (D' : cell_at (put s c (Own None)) d = Own (Some o)) by (rewrite cell_put by (now apply cell_lt in C); destruct (Nat.eqb_spec d c); [congruence|exact D]). pose proof (owner_of _ _ _ D') as Q. specialize (I o). pose proof (b2n_le1 (o <? o_objs s)). lia.
Qed.

(** ** the way to the worker *)
Definition cur_is (o : nat) (u : caller) : nat := match u_cur u with Some (x, _) => b2n (Nat.eqb x o) | None => 0 end.
Definition occ (o : nat) (l : list nat) : nat := count_occ Nat.eq_dec l o.
Definition owned (l : list nat) : list cell := map (fun x => Own (Some x)) l.
Definition unused (s : jstate) : list nat := match j_w s with Some (c, false) => [c] | _ => [] end.
Definition null (m : mem) (c : nat) : Prop := c < length (o_cells m) /\ forall x, cell_at m c <> Own (Some x).
Record invJ (s : jstate) : Prop := {
  j_one : invO (j_mem s);
  j_cnt : forall o, occ o (j_sent s) + occ o (j_gone s) + weigh (cur_is o) (j_cl s) = b2n (Nat.ltb o (o_objs (j_mem s)));
  j_cur : forall i x c, u_cur (caller_at s i) = Some (x, c) -> cell_at (j_mem s) c = Own (Some x);
  j_old : forall i c, In c (u_old (caller_at s i)) -> null (j_mem s) c;
  j_wo : forall c, In c (j_wold s) -> null (j_mem s) c;
  j_rest : exists rest, j_sent s = j_handed s ++ rest /\ map (cell_at (j_mem s)) (unused s ++ j_q s) = owned rest;
  j_used : forall c, j_w s = Some (c, true) -> exists h x, j_handed s = h ++ [x] /\ cell_at (j_mem s) c = Own (Some x);
  j_noub : j_ub s = false;
  j_fr : forall o, In o (o_freed (j_mem s)) -> In o (j_handed s) \/ In o (j_gone s);
  j_ref : forall c p, cell_at (j_mem s) c = Own p -> (exists i, In c (u_old (caller_at s i)) \/ exists x, u_cur (caller_at s i) = Some (x, c)) \/ In c (j_q s) \/ In c (j_wold s) \/ exists b, j_w s = Some (c, b)
}.

Lemma caller_lt : forall s i x, u_cur (caller_at s i) = Some x -> i < length (j_cl s).
Proof. intros s i x H. apply (get_in no_caller). unfold caller_at in H. intro E. rewrite E in H. discriminate. Qed.
Lemma caller_old_lt : forall s i c, In c (u_old (caller_at s i)) -> i < length (j_cl s).
Proof. intros s i c H. apply (get_in no_caller). unfold caller_at in H. intro E. rewrite E in H. destruct H. Qed.
Lemma occ_app : forall o a b, occ o (a ++ b) = occ o a + occ o b.
Proof. intros. apply count_occ_app. Qed.
Lemma occ_In : forall o l, In o l <-> 0 < occ o l.
Proof. intros. unfold occ. rewrite (count_occ_In Nat.eq_dec). lia. Qed.
Lemma occ_one : forall o x, occ o [x] = b2n (Nat.eqb x o).
Proof. intros. unfold occ. cbn [count_occ]. destruct (Nat.eq_dec x o) as [->|N]; [now rewrite Nat.eqb_refl|]. apply Nat.eqb_neq in N. now rewrite N. Qed.
(** the message of a caller has not been sent, and two callers have different messages *)
Lemma cur_weigh : forall s i x c, u_cur (caller_at s i) = Some (x, c) -> 1 <= weigh (cur_is x) (j_cl s).
Proof.
  intros s i x c H. pose proof (weigh_get no_caller (cur_is x) (j_cl s) i (caller_lt _ _ _ H)) as W. change (get no_caller (j_cl s) i) with (caller_at s i) in W. unfold cur_is at 1 in W. rewrite H, Nat.eqb_refl in W. exact W.
Qed.
Lemma cur_notsent : forall s i x c, invJ s -> u_cur (caller_at s i) = Some (x, c) -> ~ In x (j_sent s) /\ ~ In x (j_gone s).
Proof.
  intros s i x c I H. pose proof (cur_weigh s i x c H) as W. pose proof (j_cnt s I x) as C. pose proof (b2n_le1 (x <? o_objs (j_mem s))). rewrite !occ_In. lia.
Qed.
Lemma cur_inj : forall s i j x y c d, invJ s -> u_cur (caller_at s i) = Some (x, c) -> u_cur (caller_at s j) = Some (y, d) -> i <> j -> x <> y.
Proof.
  intros s i j x y c d I H K N ->. pose proof (weigh_upd no_caller (cur_is y) (j_cl s) i no_caller (caller_lt _ _ _ H)) as W. pose proof (weigh_get no_caller (cur_is y) (upd (j_cl s) i no_caller) j) as V. rewrite upd_length in V. specialize (V (caller_lt _ _ _ K)).
  rewrite get_upd_other in V by auto. change (get no_caller (j_cl s) j) with (caller_at s j) in V. change (get no_caller (j_cl s) i) with (caller_at s i) in W. unfold cur_is at 1 in V. unfold cur_is at 2 4 in W. rewrite H in W. rewrite K in V. rewrite !Nat.eqb_refl in *. cbn [b2n u_cur no_caller] in *.
  pose proof (j_cnt s I y) as C. pose proof (b2n_le1 (y <? o_objs (j_mem s))). lia.
Qed.
Lemma caller_set : forall l i u j, i < length l -> get no_caller (upd l i u) j = if Nat.eqb j i then u else get no_caller l j.
Proof. intros. now apply get_upd. Qed.
Lemma owned_In : forall c l m rest, In c l -> map (cell_at m) l = owned rest -> exists x, In x rest /\ cell_at m c = Own (Some x).
Proof. intros c l m rest H E. apply (in_map (cell_at m)) in H. rewrite E in H. apply in_map_iff in H as (x & A & B). eauto. Qed.
(** the memory operations *)
Lemma pass_cell : forall m c o m' x, passes c o = true -> cell_at m c = Own (Some x) -> oexec m o = ORes m' ->
  (forall d, cell_at m' d = if Nat.eqb d (length (o_cells m)) then Own (Some x) else if Nat.eqb d c then Own None else cell_at m d) /\ o_objs m' = o_objs m /\ o_freed m' = o_freed m /\ c < length (o_cells m) /\ (forall d, null m d -> null m' d) /\ null m' c.
Proof.
  intros m c o m' x P C E. pose proof (cell_lt _ _ _ C) as L. assert (F : construct_from m c = ORes m') by (destruct o as [|u|u|u v|u v|u|u|u]; cbn in P; try discriminate; apply Nat.eqb_eq in P as ->; exact E).
  unfold construct_from in F. rewrite C in F. injection F as <-. assert (CL : forall d, cell_at (grow (put m c (Own None)) (Own (Some x))) d = if Nat.eqb d (length (o_cells m)) then Own (Some x) else if Nat.eqb d c then Own None else cell_at m d)
    by (intro d; rewrite cell_grow; unfold put at 1; cbn [o_cells]; rewrite upd_length, cell_put by exact L; reflexivity).
  assert (LN : length (o_cells (grow (put m c (Own None)) (Own (Some x)))) = S (length (o_cells m))) by (cbn [grow put o_cells]; rewrite app_length, upd_length; cbn; lia).
  repeat split; auto; rewrite ?LN; try lia.
  - destruct H. lia.
  - intros y. rewrite CL. destruct H as [H1 H2]. destruct (Nat.eqb_spec d (length (o_cells m))); [lia|]. destruct (Nat.eqb d c); [discriminate|apply H2].
  - intros y. rewrite CL. destruct (Nat.eqb_spec c (length (o_cells m))); [lia|]. rewrite Nat.eqb_refl. discriminate.
Qed.
Lemma destroy_cell : forall m c m', oexec m (ODestroy c) = ORes m' -> exists p, cell_at m c = Own p /\ (forall d, cell_at m' d = if Nat.eqb d c then Dead else cell_at m d) /\ o_objs m' = o_objs m /\ o_freed m' = o_freed m ++ match p with Some o => [o] | None => [] end /\ (forall d, null m d -> null m' d).
Proof.
  intros m c m' E. cbn [oexec] in E. destruct (cell_at m c) as [|p] eqn:C; [discriminate|]. injection E as <-. exists p. pose proof (cell_lt _ _ _ C) as L.
  assert (CL : forall d, cell_at (delete (put m c Dead) p) d = if Nat.eqb d c then Dead else cell_at m d) by (intro d; change (cell_at (delete (put m c Dead) p) d) with (cell_at (put m c Dead) d); now apply cell_put).
  repeat split; auto; destruct H as [H1 H2]; [cbn; now rewrite upd_length|]. intros x. rewrite CL. destruct (Nat.eqb d c); [discriminate|apply H2].
Qed.
Lemma mem_has_In : forall c l, mem_has c l = true <-> In c l.
Proof. intros. unfold mem_has. rewrite existsb_exists. split; [intros (x & I & E); apply Nat.eqb_eq in E as ->; exact I|intro I; exists c; split; [exact I|apply Nat.eqb_refl]]. Qed.
Lemma drop1_In : forall c d l, In d (drop1 c l) <-> In d l /\ d <> c.
Proof. intros. unfold drop1. rewrite filter_In, negb_true_iff, Nat.eqb_neq. tauto. Qed.
Lemma map_cell_eq : forall m m' l, (forall c, In c l -> cell_at m' c = cell_at m c) -> map (cell_at m') l = map (cell_at m) l.
Proof. intros. now apply map_ext_in. Qed.
Lemma weigh_nil : forall (w : caller -> nat) n, w no_caller = 0 -> weigh w (repeat no_caller n) = 0.
Proof. intros w n H. unfold weigh. induction n as [|n IH]; cbn; [reflexivity|]. unfold list_sum in *. lia. Qed.

Lemma NoDup_app_disj : forall (a b : list nat) x, NoDup (a ++ b) -> In x a -> In x b -> False.
Proof. induction a as [|y a IH]; intros b x ND A B; [destruct A|]. inversion ND as [|? ? N1 N2]; subst. destruct A as [->|A]; [|eauto]. apply N1. apply in_or_app. now right. Qed.
Lemma jinit_inv : forall n, invJ (j_init n).
Proof.
  intro n. assert (CA : forall i, caller_at (j_init n) i = no_caller).
  { intro i. unfold caller_at, get. cbn [j_init j_cl]. destruct (Nat.lt_ge_cases i n); [apply nth_repeat|]. apply nth_overflow. rewrite repeat_length. lia. }
  split; try (now cbn); try (intros; rewrite CA in *; cbn in *; contradiction || discriminate).
  - intro o. change (0 + 0 + weigh (cur_is o) (repeat no_caller n) = 0). now rewrite weigh_nil.
  - exists []. split; reflexivity.
  - intros c p H. unfold cell_at, get in H. cbn in H. destruct c; discriminate.
Qed.
(** a caller's step does not concern others *)
Lemma other_cell : forall s i x c, invJ s -> u_cur (caller_at s i) = Some (x, c) ->
  (forall j y d, j <> i -> u_cur (caller_at s j) = Some (y, d) -> d <> c) /\ (forall d, In d (unused s ++ j_q s) -> d <> c) /\ (forall d, j_w s = Some (d, true) -> d <> c) /\ (forall j d, In d (u_old (caller_at s j)) -> d <> c) /\ (forall d, In d (j_wold s) -> d <> c).
Proof.
  intros s i x c I U. pose proof (j_cur s I i x c U) as C. destruct (cur_notsent s i x c I U) as [NS NG]. destruct (j_rest s I) as (rest & RS & RM). repeat split.
  - intros j y d N H ->. pose proof (j_cur s I j y c H) as D. rewrite C in D. injection D as ->. now apply (cur_inj s i j y y c c I U H (not_eq_sym N)).
  - intros d H ->. destruct (owned_In _ _ _ _ H RM) as (y & A & B). rewrite C in B. injection B as ->. apply NS. rewrite RS. apply in_or_app. now right.
  - intros d H ->. destruct (j_used s I c H) as (h & y & A & B). rewrite C in B. injection B as ->. apply NS. rewrite RS, A. apply in_or_app. left. apply in_or_app. right. now left.
  - intros j d H ->. now apply (proj2 (j_old s I j c H) x).
  - intros d H ->. now apply (proj2 (j_wo s I c H) x).
Qed.
Lemma rest_nodup : forall s, invJ s -> NoDup (j_sent s).
Proof.
  intros s I. apply (NoDup_count_occ Nat.eq_dec). intro o. pose proof (j_cnt s I o) as C. pose proof (b2n_le1 (o <? o_objs (j_mem s))). unfold occ in C. lia.
Qed.
(** nor does the worker's *)
Lemma worker_cell : forall s c b, invJ s -> j_w s = Some (c, b) -> exists x, cell_at (j_mem s) c = Own (Some x) /\ In x (j_sent s) /\
  (forall j y d, u_cur (caller_at s j) = Some (y, d) -> d <> c) /\ (forall d, In d (j_q s) -> d <> c) /\ (forall j d, In d (u_old (caller_at s j)) -> d <> c) /\ (forall d, In d (j_wold s) -> d <> c).
Proof.
  intros s c b I W. destruct (j_rest s I) as (rest & RS & RM). pose proof (rest_nodup s I) as ND. rewrite RS in ND.
  assert (X : exists x, cell_at (j_mem s) c = Own (Some x) /\ In x (j_sent s) /\ forall d, In d (j_q s) -> d <> c).
  { destruct b.
    - destruct (j_used s I c W) as (h & x & A & B). exists x. split; [exact B|]. split; [rewrite RS, A; apply in_or_app; left; apply in_or_app; right; now left|]. intros d H ->. unfold unused in RM. rewrite W in RM. cbn [app] in RM. destruct (owned_In _ _ _ _ H RM) as (y & P & Q). rewrite B in Q. injection Q as ->.
      rewrite A in ND. clear -ND P. apply (NoDup_app_disj (h ++ [y]) rest y); auto. apply in_or_app. right. now left.
    - unfold unused in RM. rewrite W in RM. cbn [app map] in RM. destruct rest as [|x rest]; [discriminate|]. cbn [owned map] in RM. injection RM as B RM. exists x. split; [exact B|]. split; [rewrite RS; apply in_or_app; right; now left|].
      intros d H ->. destruct (owned_In _ _ _ _ H RM) as (y & P & Q). rewrite B in Q. injection Q as ->. apply NoDup_remove_2 in ND. apply ND. apply in_or_app. now right. }
  destruct X as (x & B & S & Q). exists x. split; [exact B|]. split; [exact S|]. repeat split; auto.
  - intros j y d H ->. pose proof (j_cur s I j y c H) as C. rewrite B in C. injection C as ->. now destruct (cur_notsent s j y c I H).
  - intros j d H ->. now apply (proj2 (j_old s I j c H) x).
  - intros d H ->. now apply (proj2 (j_wo s I c H) x).
Qed.
Ltac callers L := intros; unfold caller_at in *; cbn [set_caller set_worker j_cl] in *; rewrite ?caller_set in * by exact L.
Lemma cur_frame : forall s m' i u,
  i < length (j_cl s) -> (forall j x c, j <> i -> u_cur (caller_at s j) = Some (x, c) -> cell_at m' c = Own (Some x)) -> (forall x c, u_cur u = Some (x, c) -> cell_at m' c = Own (Some x)) ->
  forall j x c, u_cur (get no_caller (upd (j_cl s) i u) j) = Some (x, c) -> cell_at m' c = Own (Some x).
Proof. intros s m' i u L A B j x c H. rewrite caller_set in H by exact L. destruct (Nat.eqb_spec j i); [now apply B|now apply (A j)]. Qed.
Lemma old_frame : forall s m' i u,
  i < length (j_cl s) -> (forall j c, In c (u_old (caller_at s j)) -> null m' c) -> (forall c, In c (u_old u) -> null m' c) ->
  forall j c, In c (u_old (get no_caller (upd (j_cl s) i u) j)) -> null m' c.
Proof. intros s m' i u L A B j c H. rewrite caller_set in H by exact L. destruct (Nat.eqb_spec j i); [now apply B|now apply (A j)]. Qed.
Lemma weigh_cur : forall s i u o, i < length (j_cl s) -> weigh (cur_is o) (upd (j_cl s) i u) + cur_is o (caller_at s i) = weigh (cur_is o) (j_cl s) + cur_is o u.
Proof. intros s i u o L. unfold caller_at. now apply weigh_upd. Qed.

Lemma jstep_inv : forall s a s', invJ s -> jstep s a = Some s' -> invJ s'.
Proof.
  intros s a s' I E. pose proof I as [I1 I2 I3 I4 I5 I6 I7 I8 I9 I10]. destruct a as [i|i o|i|i|i c0| |o| | |c0]; cbn [jstep] in E.
  - (* JNew *)
    destruct (u_cur (caller_at s i)) as [|] eqn:U; [discriminate|]. destruct (Nat.ltb_spec i (length (j_cl s))) as [L|]; [|discriminate]. destruct (oexec (j_mem s) ONew) as [m| |] eqn:X; try discriminate. injection E as <-.
    pose proof (exec_inv _ _ _ I1 X) as I1'. cbn [oexec] in X. injection X as X. set (n := length (o_cells (j_mem s))) in *.
    assert (CL : forall d, cell_at m d = if Nat.eqb d n then Own (Some (o_objs (j_mem s))) else cell_at (j_mem s) d) by (intro d; rewrite <- X, cell_grow; reflexivity).
    assert (LN : length (o_cells m) = S n) by (rewrite <- X; cbn [grow o_cells]; rewrite app_length; cbn; fold n; lia).
    assert (KP : forall d p, cell_at (j_mem s) d = Own p -> cell_at m d = Own p) by (intros d p H; rewrite CL; destruct (Nat.eqb_spec d n) as [->|]; [apply cell_lt in H; unfold n in H; lia|exact H]).
    assert (NU : forall d, null (j_mem s) d -> null m d) by (intros d [H1 H2]; split; [fold n in H1; lia|]; intro x; rewrite CL; fold n in H1; destruct (Nat.eqb_spec d n); [lia|apply H2]).
    assert (OB : o_objs m = S (o_objs (j_mem s)) /\ o_freed m = o_freed (j_mem s)) by (rewrite <- X; split; reflexivity). destruct OB as [OB OF].
    split; cbn [set_caller j_mem j_cl j_q j_w j_wold j_sent j_gone j_handed j_ub]; auto.
    + intro o. specialize (I2 o). pose proof (weigh_cur s i (mkCaller (Some (o_objs (j_mem s), n)) (u_old (caller_at s i))) o L) as W. unfold cur_is at 2 4 in W. rewrite U in W. cbn [u_cur] in W. rewrite OB.
      destruct (Nat.ltb_spec o (o_objs (j_mem s))), (Nat.ltb_spec o (S (o_objs (j_mem s)))), (Nat.eqb_spec (o_objs (j_mem s)) o); cbn [b2n] in *; lia.
    + apply cur_frame; [exact L|intros; apply KP; eauto|]. intros x c H. cbn [u_cur] in H. injection H as <- <-. rewrite CL, Nat.eqb_refl. reflexivity.
    + apply old_frame; [exact L|eauto|cbn [u_old]; eauto].
    + destruct I6 as (rest & A & B). exists rest. split; [exact A|]. rewrite <- B. apply map_cell_eq. intros c H. destruct (owned_In _ _ _ _ H B) as (x & _ & C). rewrite C. now apply KP.
    + intros c H. destruct (I7 c H) as (h & x & A & B). exists h, x. auto.
    + rewrite OF. exact I9.
    + intros c p H. rewrite CL in H. destruct (Nat.eqb_spec c n) as [->|N].
      * left. exists i. right. exists (o_objs (j_mem s)). callers L. now rewrite Nat.eqb_refl.
      * destruct (I10 c p H) as [(j & [H'|(x & H')])|H']; [left; exists j; left|left; exists j; right; exists x|right; exact H']; callers L; (destruct (Nat.eqb_spec j i) as [->|]; [|exact H']); [exact H'|]. congruence.
  - (* JPass *)
    destruct (u_cur (caller_at s i)) as [[x c]|] eqn:U; [|discriminate]. destruct (passes c o) eqn:PS; [|discriminate]. destruct (oexec (j_mem s) o) as [m| |] eqn:X; try discriminate. injection E as <-. pose proof (caller_lt _ _ _ U) as L.
    pose proof (exec_inv _ _ _ I1 X) as I1'. destruct (pass_cell _ _ _ _ x PS (I3 _ _ _ U) X) as (CL & OB & OF & LC & NU & NC). set (n := length (o_cells (j_mem s))) in *. destruct (other_cell s i x c I U) as (O1 & O2 & O3 & O4 & O5).
    assert (KP : forall d p, d <> c -> cell_at (j_mem s) d = Own p -> cell_at m d = Own p) by (intros d p N H; rewrite CL; destruct (Nat.eqb_spec d n) as [->|]; [apply cell_lt in H; unfold n in H; lia|]; destruct (Nat.eqb_spec d c); [contradiction|exact H]).
    split; cbn [set_caller j_mem j_cl j_q j_w j_wold j_sent j_gone j_handed j_ub]; auto.
    + intro y. specialize (I2 y). pose proof (weigh_cur s i (mkCaller (Some (x, n)) (c :: u_old (caller_at s i))) y L) as W. unfold cur_is at 2 4 in W. rewrite U in W. cbn [u_cur] in W. rewrite OB. lia.
    + apply cur_frame; [exact L|intros j y d N H; apply KP; eauto|]. intros y d H. cbn [u_cur] in H. injection H as <- <-. rewrite CL, Nat.eqb_refl. reflexivity.
    + apply old_frame; [exact L|eauto|]. cbn [u_old]. intros d [<-|H]; eauto.
    + destruct I6 as (rest & A & B). exists rest. split; [exact A|]. rewrite <- B. apply map_cell_eq. intros d H. destruct (owned_In _ _ _ _ H B) as (y & _ & C). rewrite C. apply KP; auto.
    + intros d H. destruct (I7 d H) as (h & y & A & B). exists h, y. split; [exact A|apply KP; auto].
    + rewrite OF. exact I9.
    + intros d p H. rewrite CL in H. destruct (Nat.eqb_spec d n) as [->|N].
      * left. exists i. right. exists x. callers L. now rewrite Nat.eqb_refl.
      * destruct (Nat.eqb_spec d c) as [->|ND]; [left; exists i; left; callers L; rewrite Nat.eqb_refl; now left|].
        destruct (I10 d p H) as [(j & [H'|(y & H')])|H']; [left; exists j; left|left; exists j; right; exists y|right; exact H']; callers L; (destruct (Nat.eqb_spec j i) as [->|]; [|exact H']); [now right|]. congruence.
  - (* JSend *)
    destruct (u_cur (caller_at s i)) as [[x c]|] eqn:U; [|discriminate]. injection E as <-. pose proof (caller_lt _ _ _ U) as L. pose proof (I3 _ _ _ U) as C.
    split; cbn [j_mem j_cl j_q j_w j_wold j_sent j_gone j_handed j_ub]; auto.
    + intro y. specialize (I2 y). pose proof (weigh_cur s i (mkCaller None (u_old (caller_at s i))) y L) as W. unfold cur_is at 2 4 in W. rewrite U in W. cbn [u_cur] in W. rewrite occ_app, occ_one. lia.
    + apply cur_frame; [exact L|eauto|]. intros y d H. discriminate.
    + apply old_frame; [exact L|eauto|cbn [u_old]; eauto].
    + destruct I6 as (rest & A & B). exists (rest ++ [x]). split; [rewrite A, app_assoc; reflexivity|]. unfold unused in *. cbn [j_w]. rewrite app_assoc, map_app, B. unfold owned. rewrite map_app. cbn [map]. now rewrite C.
    + intros d p H. destruct (I10 d p H) as [(j & [H'|(y & H')])|[H'|H']]; [left; exists j; left; callers L; destruct (Nat.eqb_spec j i) as [->|]; exact H'| |right; left; apply in_or_app; now left|right; right; exact H'].
      destruct (Nat.eq_dec j i) as [->|N]; [right; left; apply in_or_app; right; left; congruence|]. left. exists j. right. exists y. callers L. destruct (Nat.eqb_spec j i); [contradiction|exact H'].
  - (* JDiscard *)
    destruct (u_cur (caller_at s i)) as [[x c]|] eqn:U; [|discriminate]. destruct (oexec (j_mem s) (ODestroy c)) as [m| |] eqn:X; try discriminate. injection E as <-. pose proof (caller_lt _ _ _ U) as L.
    pose proof (exec_inv _ _ _ I1 X) as I1'. destruct (destroy_cell _ _ _ X) as (p & C & CL & OB & OF & NU). rewrite (I3 _ _ _ U) in C. injection C as <-. destruct (other_cell s i x c I U) as (O1 & O2 & O3 & O4 & O5).
    assert (KP : forall d p, d <> c -> cell_at (j_mem s) d = Own p -> cell_at m d = Own p) by (intros d p N H; rewrite CL; destruct (Nat.eqb_spec d c); [contradiction|exact H]).
    split; cbn [j_mem j_cl j_q j_w j_wold j_sent j_gone j_handed j_ub]; auto.
    + intro y. specialize (I2 y). pose proof (weigh_cur s i (mkCaller None (u_old (caller_at s i))) y L) as W. unfold cur_is at 2 4 in W. rewrite U in W. cbn [u_cur] in W. rewrite OB, occ_app, occ_one. lia.
    + apply cur_frame; [exact L|intros j y d N H; apply KP; eauto|]. intros y d H. discriminate.
    + apply old_frame; [exact L|eauto|cbn [u_old]; eauto].
    + destruct I6 as (rest & A & B). exists rest. split; [exact A|]. rewrite <- B. apply map_cell_eq. intros d H. destruct (owned_In _ _ _ _ H B) as (y & _ & C). rewrite C. apply KP; auto.
    + intros d H. destruct (I7 d H) as (h & y & A & B). exists h, y. split; [exact A|apply KP; auto].
    + intros y H. rewrite OF in H. apply in_app_iff in H as [H|[<-|[]]]; [destruct (I9 y H); auto|]; right; apply in_or_app; [now left|right; now left].
    + intros d p H. rewrite CL in H. destruct (Nat.eqb_spec d c) as [->|ND]; [discriminate|].
      destruct (I10 d p H) as [(j & [H'|(y & H')])|H']; [left; exists j; left|left; exists j; right; exists y|right; exact H']; callers L; (destruct (Nat.eqb_spec j i) as [->|]; [|exact H']); [exact H'|]. congruence.
  - (* JDrop *)
    destruct (mem_has c0 (u_old (caller_at s i))) eqn:MH; [|discriminate]. apply mem_has_In in MH. destruct (oexec (j_mem s) (ODestroy c0)) as [m| |] eqn:X; try discriminate. injection E as <-. pose proof (caller_old_lt _ _ _ MH) as L.
    pose proof (exec_inv _ _ _ I1 X) as I1'. destruct (destroy_cell _ _ _ X) as (p & C & CL & OB & OF & NU). destruct (I4 _ _ MH) as [_ NO]. destruct p as [y|]; [now apply NO in C|]. rewrite app_nil_r in OF.
    assert (KP : forall d x, cell_at (j_mem s) d = Own (Some x) -> cell_at m d = Own (Some x)) by (intros d x H; rewrite CL; destruct (Nat.eqb_spec d c0) as [->|]; [congruence|exact H]).
    split; cbn [set_caller j_mem j_cl j_q j_w j_wold j_sent j_gone j_handed j_ub]; auto.
    + intro y. specialize (I2 y). pose proof (weigh_cur s i (mkCaller (u_cur (caller_at s i)) (drop1 c0 (u_old (caller_at s i)))) y L) as W. unfold cur_is at 2 4 in W. cbn [u_cur] in W. rewrite OB. lia.
    + apply cur_frame; [exact L|intros j y d N H; apply KP; eauto|]. intros y d H. cbn [u_cur] in H. apply KP. eauto.
    + apply old_frame; [exact L|eauto|]. cbn [u_old]. intros d H. apply drop1_In in H as [H _]. eauto.
    + destruct I6 as (rest & A & B). exists rest. split; [exact A|]. rewrite <- B. apply map_cell_eq. intros d H. destruct (owned_In _ _ _ _ H B) as (y & _ & D). rewrite D. now apply KP.
    + intros d H. destruct (I7 d H) as (h & y & A & B). exists h, y. split; auto.
    + rewrite OF. exact I9.
    + intros d p H. rewrite CL in H. destruct (Nat.eqb_spec d c0) as [->|ND]; [discriminate|].
      destruct (I10 d p H) as [(j & [H'|(y & H')])|H']; [left; exists j; left|left; exists j; right; exists y|right; exact H']; callers L; (destruct (Nat.eqb_spec j i) as [->|]; [|exact H']); [apply drop1_In; auto|]. exact H'.
  - (* JPop *)
    destruct (j_w s) eqn:W; [discriminate|]. destruct (j_q s) as [|c q] eqn:Q; [discriminate|]. injection E as <-.
    split; cbn [j_mem j_cl j_q j_w j_wold j_sent j_gone j_handed j_ub]; auto.
    + destruct I6 as (rest & A & B). exists rest. split; [exact A|]. unfold unused in *. rewrite W in B. exact B.
    + discriminate.
    + intros d p H. destruct (I10 d p H) as [H'|[H'|[H'|(b & H')]]]; [left; exact H'| |right; right; left; exact H'|congruence]. destruct H' as [->|H']; [right; right; right; eauto|right; left; exact H'].
  - (* JWPass *)
    destruct (j_w s) as [[c []]|] eqn:W; try discriminate. destruct (passes c o) eqn:PS; [|discriminate]. destruct (oexec (j_mem s) o) as [m| |] eqn:X; try discriminate. injection E as <-. destruct (worker_cell s c false I W) as (x & C & SX & O1 & O2 & O4 & O5).
    pose proof (exec_inv _ _ _ I1 X) as I1'. destruct (pass_cell _ _ _ _ x PS C X) as (CL & OB & OF & LC & NU & NC). set (n := length (o_cells (j_mem s))) in *.
    assert (KP : forall d p, d <> c -> cell_at (j_mem s) d = Own p -> cell_at m d = Own p) by (intros d p N H; rewrite CL; destruct (Nat.eqb_spec d n) as [->|]; [apply cell_lt in H; unfold n in H; lia|]; destruct (Nat.eqb_spec d c); [contradiction|exact H]).
    split; cbn [set_worker j_mem j_cl j_q j_w j_wold j_sent j_gone j_handed j_ub]; auto.
    + rewrite OB. exact I2.
    + intros j y d H. change (u_cur (caller_at s j) = Some (y, d)) in H. apply KP; eauto.
    + intros j d H. change (In d (u_old (caller_at s j))) in H. eauto.
    + intros d [<-|H]; eauto.
    + destruct I6 as (rest & A & B). exists rest. split; [exact A|]. unfold unused in *. cbn [set_worker j_w]. rewrite W in B. cbn [app map] in *. rewrite <- B. f_equal; [rewrite CL, Nat.eqb_refl; now rewrite C|]. apply map_cell_eq. intros d H.
      destruct rest as [|y rest]; [discriminate|]. cbn [owned map] in B. injection B as _ B. destruct (owned_In _ _ _ _ H B) as (z & _ & D). rewrite D. apply KP; auto.
    + discriminate.
    + rewrite OF. exact I9.
    + intros d p H. rewrite CL in H. destruct (Nat.eqb_spec d n) as [->|N]; [right; right; right; eauto|]. destruct (Nat.eqb_spec d c) as [->|ND]; [right; right; left; now left|].
      destruct (I10 d p H) as [H'|[H'|[H'|(b & H')]]]; [left; exact H'|right; left; exact H'|right; right; left; now right|congruence].
  - (* JUse *)
    destruct (j_w s) as [[c []]|] eqn:W; try discriminate. destruct (worker_cell s c false I W) as (x & C & SX & O1 & O2 & O4 & O5). cbn [oexec] in E. rewrite C in E. injection E as <-.
    destruct I6 as (rest & A & B). unfold unused in B. rewrite W in B. cbn [app map] in B. destruct rest as [|y rest]; [discriminate|]. cbn [owned map] in B. injection B as B1 B2. rewrite C in B1. injection B1 as <-.
    split; cbn [j_mem j_cl j_q j_w j_wold j_sent j_gone j_handed j_ub]; auto.
    + exists rest. split; [rewrite A, <- app_assoc; reflexivity|]. exact B2.
    + intros d H. injection H as <-. exists (j_handed s), x. auto.
    + intros y H. destruct (I9 y H); auto. left. apply in_or_app. now left.
    + intros d p H. destruct (I10 d p H) as [H'|[H'|[H'|(b & H')]]]; [left; exact H'|right; left; exact H'|right; right; left; exact H'|right; right; right; exists true; congruence].
  - (* JEnd *)
    destruct (j_w s) as [[c []]|] eqn:W; try discriminate. destruct (worker_cell s c true I W) as (x & C & SX & O1 & O2 & O4 & O5). destruct (oexec (j_mem s) (ODestroy c)) as [m| |] eqn:X; try discriminate. injection E as <-.
    pose proof (exec_inv _ _ _ I1 X) as I1'. destruct (destroy_cell _ _ _ X) as (p & C' & CL & OB & OF & NU). rewrite C in C'. injection C' as <-. destruct (I7 c eq_refl) as (h & y & HA & HB). rewrite C in HB. injection HB as <-.
    assert (KP : forall d p, d <> c -> cell_at (j_mem s) d = Own p -> cell_at m d = Own p) by (intros d p N H; rewrite CL; destruct (Nat.eqb_spec d c); [contradiction|exact H]).
    split; cbn [set_worker j_mem j_cl j_q j_w j_wold j_sent j_gone j_handed j_ub]; auto.
    + rewrite OB. exact I2.
    + intros j y d H. change (u_cur (caller_at s j) = Some (y, d)) in H. apply KP; eauto.
    + intros j d H. change (In d (u_old (caller_at s j))) in H. eauto.
    + destruct I6 as (rest & A & B). exists rest. split; [exact A|]. unfold unused in *. cbn [set_worker j_w]. rewrite W in B. cbn [app] in *. rewrite <- B. apply map_cell_eq. intros d H. destruct (owned_In _ _ _ _ H B) as (z & _ & D). rewrite D. apply KP; auto.
    + discriminate.
    + intros y H. rewrite OF in H. apply in_app_iff in H as [H|[<-|[]]]; [destruct (I9 y H); auto|]. left. rewrite HA. apply in_or_app. right. now left.
    + intros d p H. rewrite CL in H. destruct (Nat.eqb_spec d c) as [->|ND]; [discriminate|]. destruct (I10 d p H) as [H'|[H'|[H'|(b & H')]]]; [left; exact H'|right; left; exact H'|right; right; left; exact H'|congruence].
  - (* JWDrop *)
    destruct (mem_has c0 (j_wold s)) eqn:MH; [|discriminate]. apply mem_has_In in MH. destruct (oexec (j_mem s) (ODestroy c0)) as [m| |] eqn:X; try discriminate. injection E as <-.
    pose proof (exec_inv _ _ _ I1 X) as I1'. destruct (destroy_cell _ _ _ X) as (p & C & CL & OB & OF & NU). destruct (I5 _ MH) as [_ NO]. destruct p as [y|]; [now apply NO in C|]. rewrite app_nil_r in OF.
    assert (KP : forall d x, cell_at (j_mem s) d = Own (Some x) -> cell_at m d = Own (Some x)) by (intros d x H; rewrite CL; destruct (Nat.eqb_spec d c0) as [->|]; [congruence|exact H]).
    split; cbn [set_worker j_mem j_cl j_q j_w j_wold j_sent j_gone j_handed j_ub]; auto.
    + rewrite OB. exact I2.
    + intros j y d H. change (u_cur (caller_at s j) = Some (y, d)) in H. apply KP; eauto.
    + intros j d H. change (In d (u_old (caller_at s j))) in H. eauto.
    + intros d H. apply drop1_In in H as [H _]. eauto.
    + destruct I6 as (rest & A & B). exists rest. split; [exact A|]. rewrite <- B. unfold unused in *. cbn [set_worker j_w]. apply map_cell_eq. intros d H. destruct (owned_In _ _ _ _ H B) as (y & _ & D). rewrite D. now apply KP.
    + intros d H. destruct (I7 d H) as (h & y & A & B). exists h, y. split; auto.
    + rewrite OF. exact I9.
    + intros d p H. rewrite CL in H. destruct (Nat.eqb_spec d c0) as [->|ND]; [discriminate|]. destruct (I10 d p H) as [H'|[H'|[H'|H']]]; [left; exact H'|right; left; exact H'|right; right; left; apply drop1_In; auto|right; right; right; exact H'].
Qed.
Lemma jreach_inv : forall n s, jreach n s -> invJ s.
Proof. intros n s R. induction R as [|s a s' R IH E]; [apply jinit_inv|]. eapply jstep_inv; eauto. Qed.
