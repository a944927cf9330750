(** C17: a message in a move-on-copy wrapper has one owner, is handed to the sinks once, and is freed once. *)
From Coq Require Import List Arith Bool Lia.
From Verif.Base Require Import Threads.
From Verif.Model Require Import Ownership.
From Verif.Spec Require Import OwnershipSpec.
From Verif.Proofs Require Import OwnershipFacts.
Import ListNotations.

Lemma holds_cell : forall s c o, holds s c o <-> cell_at s c = Own (Some o).
Proof.
  intros s c o. unfold holds, cell_at, get. split; intro H.
  - now apply nth_error_nth.
  - assert (L : c < length (o_cells s)) by (destruct (Nat.lt_ge_cases c (length (o_cells s))); auto; rewrite nth_overflow in H by lia; discriminate).
    rewrite (nth_error_nth' _ Dead L), H. reflexivity.
Qed.
Lemma owner_ex : forall s o, 0 < owners s o -> exists c, cell_at s c = Own (Some o).
Proof.
  intros s o H. unfold owners, count in H. destruct (filter (owns o) (o_cells s)) as [|x l] eqn:F; [cbn in H; lia|].
  assert (IN : In x (filter (owns o) (o_cells s))) by (rewrite F; now left). apply filter_In in IN as [IN OW]. destruct x as [|[p|]]; try discriminate. cbn in OW. apply Nat.eqb_eq in OW as ->.
  apply (In_nth _ _ Dead) in IN as (c & _ & E). exists c. exact E.
Qed.
Lemma inv_single : forall s o, invO s -> o < o_objs s -> single s o.
Proof.
  intros s o I L. pose proof (I o) as E. apply Nat.ltb_lt in L. rewrite L in E. cbn [b2n] in E. change (frees s o) with (deleted s o) in E. unfold single.
  destruct (Nat.eq_dec (owners s o) 0) as [Z|N].
  - right. split; [|lia]. intros c H. apply holds_cell in H. apply owner_of in H. lia.
  - left. split; [|lia]. destruct (owner_ex s o ltac:(lia)) as [c H]. exists c. split; [now apply holds_cell|]. intros d D. apply holds_cell in D. eapply owner_unique; eauto.
Qed.

(** Whatever the program does with its wrappers: each message so far has one owner, or was deleted once; wrappers own nothing else. *)
Theorem C17_one_owner : forall l s, oexecs o_init l = ORes s ->
  (forall o, o < o_objs s -> single s o) /\ (forall c o, holds s c o -> o < o_objs s) /\ (forall o, In o (o_freed s) -> o < o_objs s).
Proof.
  intros l s E. assert (I : invO s) by (eapply execs_inv; [apply init_inv|exact E]). split; [intros o; now apply inv_single|]. split.
  - intros c o H. apply holds_cell, owner_of in H. pose proof (I o) as C. destruct (Nat.ltb_spec o (o_objs s)); [assumption|]. cbn [b2n] in C. lia.
  - intros o H. pose proof (I o) as C. apply (count_occ_In Nat.eq_dec) in H. unfold frees in C. destruct (Nat.ltb_spec o (o_objs s)); [assumption|]. cbn [b2n] in C. lia.
Qed.
Print Assumptions C17_one_owner.
(** When all wrappers are gone, each message has been deleted exactly once. *)
Theorem C17_all_freed : forall l s, oexecs o_init l = ORes s -> no_wrapper s -> forall o, o < o_objs s -> deleted s o = 1.
Proof.
  intros l s E N o L. destruct (C17_one_owner l s E) as [S _]. destruct (S o L) as [[(c & H & _) _]|[_ D]]; [|exact D]. unfold holds in H. apply nth_error_In in H. apply N in H. discriminate.
Qed.
Print Assumptions C17_all_freed.
(** A message passed on n times, by copies or moves in any mixture: the last wrapper has it. *)
Theorem C17_last_has_it : forall s c o x s', invO s -> holds s c o -> x = OCopyCtor c \/ x = OMoveCtor c \/ x = ORelease c -> oexec s x = ORes s' ->
  holds s' (length (o_cells s)) o /\ ~ holds s' c o.
Proof.
  intros s c o x s' I H X E. apply holds_cell in H. assert (P : passes c x = true) by (destruct X as [->|[->| ->]]; cbn; apply Nat.eqb_refl).
  destruct (pass_cell s c x s' o P H E) as (C & _ & _ & L & _). split; rewrite holds_cell, C.
  - now rewrite Nat.eqb_refl.
  - destruct (Nat.eqb_spec c (length (o_cells s))); [lia|]. rewrite Nat.eqb_refl. discriminate.
Qed.
Print Assumptions C17_last_has_it.
(** Assignment, by either operator: the message of the right-hand side moves to the left-hand side, the message that was there before is deleted, and
    no other wrapper changes; assigned to itself, a wrapper keeps its message *)
Theorem C17_assigned : forall s d c o x s', holds s c o -> x = OCopyAssign d c \/ x = OMoveAssign d c -> oexec s x = ORes s' ->
  holds s' d o /\ (d <> c -> ~ holds s' c o) /\ (forall e, e <> d -> e <> c -> nth_error (o_cells s') e = nth_error (o_cells s) e) /\
  (forall old, d <> c -> holds s d old -> o_freed s' = o_freed s ++ [old]) /\ (d = c -> o_freed s' = o_freed s).
Proof.
  intros s d c o x s' H X E. apply holds_cell in H. pose proof (cell_lt _ _ _ H) as LC.
  assert (A : assign_from s d c = ORes s') by (destruct X as [-> | ->]; exact E). clear X E. unfold assign_from in A. rewrite H in A.
  destruct (cell_at (put s c (Own None)) d) as [|old] eqn:D; [discriminate|]. injection A as <-.
  assert (LD : d < length (o_cells (put s c (Own None)))) by (eapply cell_lt; exact D).
  assert (CE : forall e, cell_at (delete (put (put s c (Own None)) d (Own (Some o))) old) e = if Nat.eqb e d then Own (Some o) else if Nat.eqb e c then Own None else cell_at s e).
  { intro e. change (cell_at (delete ?m old) e) with (cell_at m e). rewrite cell_put by exact LD. rewrite cell_put by exact LC. reflexivity. }
  rewrite cell_put in D by exact LC. split; [|split; [|split; [|split]]].
  - rewrite holds_cell, CE, Nat.eqb_refl. reflexivity.
  - intros N. rewrite holds_cell, CE. destruct (Nat.eqb_spec c d); [congruence|]. rewrite Nat.eqb_refl. discriminate.
  - intros e N1 N2. apply Nat.eqb_neq in N1, N2. specialize (CE e). rewrite N1, N2 in CE. unfold cell_at, get in CE.
    assert (LL : length (o_cells (delete (put (put s c (Own None)) d (Own (Some o))) old)) = length (o_cells s)) by (cbn; now rewrite !upd_length).
    destruct (Nat.lt_ge_cases e (length (o_cells s))) as [L|L].
    + rewrite (nth_error_nth' (o_cells s) Dead L), <- CE. apply nth_error_nth'. lia.
    + rewrite (proj2 (nth_error_None (o_cells s) e) L). apply nth_error_None. lia.
  - intros q N Q. apply holds_cell in Q. destruct (Nat.eqb_spec d c); [congruence|]. rewrite Q in D. injection D as <-. reflexivity.
  - intros ->. rewrite Nat.eqb_refl in D. injection D as <-. cbn. apply app_nil_r.
Qed.
Print Assumptions C17_assigned.
Example C17_assigned_ex : exists s s', oexecs o_init [ONew; ONew] = ORes s /\ holds s 1 1 /\ holds s 0 0 /\ oexec s (OCopyAssign 0 1) = ORes s' /\ holds s' 0 1 /\ o_freed s' = [0].
Proof. do 2 eexists. repeat split; reflexivity. Qed.

(** The way to the worker, for every interleaving of n callers and the worker: no null pointer is used; no message is queued twice;
    bgSave handles the queued messages in their order, each once; those not handled are owned by the wrappers in the queue and at the worker. *)
Theorem C17_handed_once : forall n s, jreach n s ->
  j_ub s = false /\ NoDup (j_sent s) /\
  exists rest, j_sent s = j_handed s ++ rest /\
    map (fun c => nth_error (o_cells (j_mem s)) c) (match j_w s with Some (c, false) => [c] | _ => [] end ++ j_q s) = map (fun o => Some (Own (Some o))) rest.
Proof.
  intros n s R. pose proof (jreach_inv n s R) as I. split; [apply I|]. split; [now apply rest_nodup|]. destruct (j_rest s I) as (rest & A & B). exists rest. split; [exact A|].
  fold (unused s). revert B. generalize (unused s ++ j_q s) as l. clear. intro l. revert rest. induction l as [|c l IH]; intros [|o rest] B; try discriminate; [reflexivity|]. cbn in B. injection B as B1 B2. cbn [map]. f_equal; [now apply holds_cell|now apply IH].
Qed.
Print Assumptions C17_handed_once.
(** No message is deleted before bgSave is done with it (unless it was dropped for lack of a logger), and none twice. *)
Theorem C17_freed_once : forall n s, jreach n s ->
  (forall o, o < o_objs (j_mem s) -> single (j_mem s) o) /\
  (forall o, In o (o_freed (j_mem s)) -> In o (j_handed s) \/ In o (j_gone s)) /\
  (forall o, In o (j_gone s) -> ~ In o (j_sent s)).
Proof.
  intros n s R. pose proof (jreach_inv n s R) as I. split; [intros o; apply inv_single; apply I|]. split; [apply I|].
  intros o G S. pose proof (j_cnt s I o) as C. apply occ_In in G. apply occ_In in S. pose proof (b2n_le1 (o <? o_objs (j_mem s))). lia.
Qed.
Print Assumptions C17_freed_once.
(** When everything is quiet again: every message ever made was handed to the sinks once or dropped once, and is deleted, once. *)
Theorem C17_end : forall n s, jreach n s -> quiet s ->
  j_handed s = j_sent s /\ no_wrapper (j_mem s) /\
  forall o, o < o_objs (j_mem s) -> deleted (j_mem s) o = 1 /\ count_occ Nat.eq_dec (j_handed s ++ j_gone s) o = 1.
Proof.
  intros n s R (Q1 & Q2 & Q3 & Q4). pose proof (jreach_inv n s R) as I.
  assert (CA : forall i, caller_at s i = no_caller).
  { intro i. unfold caller_at, get. destruct (Nat.lt_ge_cases i (length (j_cl s))); [apply Q1; now apply nth_In|now apply nth_overflow]. }
  assert (HS : j_handed s = j_sent s).
  { destruct (j_rest s I) as (rest & A & B). unfold unused in B. rewrite Q2, Q3 in B. destruct rest; [|discriminate]. now rewrite app_nil_r in A. }
  assert (NW : no_wrapper (j_mem s)).
  { intros x IN. apply (In_nth _ _ Dead) in IN as (c & _ & E). destruct x as [|p]; [reflexivity|]. exfalso. destruct (j_ref s I c p E) as [[i [H|[y H]]]|[H|[H|[b H]]]].
    - rewrite CA in H. destruct H.
    - rewrite CA in H. discriminate.
    - rewrite Q2 in H. destruct H.
    - rewrite Q4 in H. destruct H.
    - congruence. }
  split; [exact HS|]. split; [exact NW|]. intros o L. split.
  - destruct (inv_single (j_mem s) o (j_one s I) L) as [[(c & H & _) _]|[_ D]]; [|exact D]. unfold holds in H. apply nth_error_In in H. apply NW in H. discriminate.
  - pose proof (j_cnt s I o) as C. apply Nat.ltb_lt in L. rewrite L in C. cbn [b2n] in C. rewrite HS, count_occ_app. fold (occ o (j_sent s)) (occ o (j_gone s)).
    assert (W : weigh (cur_is o) (j_cl s) = 0); [|lia]. revert Q1. generalize (j_cl s) as l. clear. induction l as [|u l IH]; intro Q1; [reflexivity|]. unfold weigh in *. cbn [map]. rewrite (Q1 u (or_introl eq_refl)). cbn [cur_is u_cur no_caller]. apply IH. intros v H. apply Q1. now right.
Qed.
Print Assumptions C17_end.

(** *** Examples *)
(** new, copied, the copy moved, assigned over another message, destroyed *)
Example ownership_ex : oexecs o_init [ONew; OCopyCtor 0; OMoveCtor 1; ONew; OMoveAssign 3 2; OCopyAssign 0 3; OUse 0] = ORes (mkMem [Own (Some 0); Own None; Own None; Own None] 2 [1]).
Proof. reflexivity. Qed.
(** assigning a wrapper to itself keeps the message *)
Example self_assign_ex : oexecs o_init [ONew; OCopyAssign 0 0; OUse 0] = ORes (mkMem [Own (Some 0)] 1 []).
Proof. reflexivity. Qed.
(** a wrapper that was copied is null: using it afterwards would be undefined *)
Example source_is_null_ex : oexecs o_init [ONew; OCopyCtor 0; OUse 0] = OUb.
Proof. reflexivity. Qed.
Example all_freed_ex : oexecs o_init [ONew; OCopyCtor 0; ONew; ODestroy 0; ODestroy 2; ODestroy 1] = ORes (mkMem [Dead; Dead; Dead] 2 [1; 0]).
Proof. reflexivity. Qed.
Fixpoint jrun (s : jstate) (l : list jaction) : option jstate :=
  match l with [] => Some s | a :: r => match jstep s a with Some s' => jrun s' r | None => None end end.
Lemma jrun_reach : forall n l s s', jreach n s -> jrun s l = Some s' -> jreach n s'.
Proof. induction l as [|a l IH]; intros s s' R E; cbn in E; [now injection E as <-|]. destruct (jstep s a) as [s1|] eqn:A; [|discriminate]. eapply IH; [|exact E]. eapply jr_step; eauto. Qed.
(** two callers; the second message is queued first; a third is dropped; at the end all is quiet *)
Example way_ex : exists s, jreach 2 s /\ quiet s /\ j_handed s = [1; 0] /\ j_gone s = [2] /\ o_freed (j_mem s) = [1; 2; 0].
Proof.
  assert (E : exists s, jrun (j_init 2) [JNew 0; JNew 1; JPass 0 (OCopyCtor 0); JPass 1 (OMoveCtor 1); JSend 1; JPop; JWPass (ORelease 3); JPass 0 (OCopyCtor 2); JSend 0; JUse; JDrop 1 1; JEnd; JWDrop 3; JNew 1; JDiscard 1; JPop; JUse; JDrop 0 0; JEnd; JDrop 0 2] = Some s /\ quiet s /\ j_handed s = [1; 0] /\ j_gone s = [2] /\ o_freed (j_mem s) = [1; 2; 0]).
  { eexists. split; [vm_compute; reflexivity|]. split; [|repeat split; reflexivity]. repeat split. intros u [<-|[<-|[]]]; reflexivity. }
  destruct E as (s & E & H). exists s. split; [eapply jrun_reach; [apply jr_init|exact E]|exact H].
Qed.
