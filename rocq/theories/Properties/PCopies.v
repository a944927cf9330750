(** C18: every sink receives the messages as they were logged, whatever other sinks do to theirs. *)
From Coq Require Import Ascii String List Arith Bool ZArith Lia.
From Verif.Base Require Import Bytes Threads.
From Verif.Model Require Import Levels Message Copies.
From Verif.Proofs Require Import MessageFacts CopiesFacts.
Import ListNotations.
Local Open Scope list_scope.
Local Open Scope nat_scope.

(** At every moment, what sink k has received is an initial part of what was logged, message by message unchanged; the rest is on the way
    to it, unchanged as well - except the current message, when the worker has not come to sink k yet. *)
Theorem C18_unchanged : forall n s k, kreach n s -> Forall built (k_log s) -> k < n ->
  exists sent rest, k_log s = sent ++ rest /\ length rest <= 1 /\
    sent = nth k (k_seen s) [] ++ map (fun a => nth a (k_heap s) no_msg) (nth k (k_qs s) []).
Proof.
  intros n s k R F L. pose proof (kreach_inv n s R F) as I. pose proof (k_due n s I k L) as D. unfold row, get, at_ in D. unfold due in D.
  change (map (fun a => nth a (k_heap s) no_msg)) with (map (get no_msg (k_heap s))).
  destruct (k_cur s) as [[u todo]|] eqn:C; [destruct (existsb (Nat.eqb k) todo)|].
  - destruct (k_msg n s I u todo C) as [l LOG]. exists (removelast (k_log s)), [at_ (k_heap s) u]. split; [rewrite LOG, removelast_last; reflexivity|]. split; [cbn; lia|]. symmetry. exact D.
  - exists (k_log s), []. rewrite app_nil_r. split; [reflexivity|]. split; [cbn; lia|]. symmetry. exact D.
  - exists (k_log s), []. rewrite app_nil_r. split; [reflexivity|]. split; [cbn; lia|]. symmetry. exact D.
Qed.
Print Assumptions C18_unchanged.
(** When the worker is idle and nothing is on the way, sink k has received exactly what was logged. *)
Theorem C18_complete : forall n s k, kreach n s -> Forall built (k_log s) -> k < n -> k_cur s = None -> nth k (k_qs s) [] = [] -> nth k (k_seen s) [] = k_log s.
Proof.
  intros n s k R F L C Q. pose proof (k_due n s (kreach_inv n s R F) k L) as D. unfold row, get, due in D. rewrite C, Q in D. cbn in D. now rewrite app_nil_r in D.
Qed.
Print Assumptions C18_complete.
(** No message object is with two sinks, or with a sink and still with the worker. *)
Theorem C18_own_copy : forall n s a k j, kreach n s -> Forall built (k_log s) -> k < n -> j < n -> In a (nth k (k_own s) []) ->
  ~ In a (nth j (k_qs s) []) /\ (k <> j -> ~ In a (nth j (k_own s) [])) /\ forall u todo, k_cur s = Some (u, todo) -> u <> a.
Proof.
  intros n s a k j R F K J H. pose proof (kreach_inv n s R F) as I. pose proof (k_one n s I a) as O. destruct (kl n s I) as (Q1 & Q2 & _). apply occ_In in H. pose proof (occs_get a (k_own s) k ltac:(lia)) as G. unfold row, get in G. unfold held in O. split; [|split].
  - intro X. apply occ_In in X. pose proof (occs_get a (k_qs s) j ltac:(lia)) as G2. unfold row, get in G2. lia.
  - intros N X. apply occ_In in X. pose proof (occs_two a (k_own s) k j ltac:(lia) ltac:(lia) N) as G2. unfold row, get in G2. lia.
  - intros u todo C ->. rewrite C, Nat.eqb_refl in O. cbn [b2n] in O. lia.
Qed.
Print Assumptions C18_own_copy.
(** Non-interference: edits change nothing that a sink has been or will be shown. *)
Theorem C18_edit : forall n s s' k a m, kreach n s -> Forall built (k_log s) -> kstep s (KEdit k a m) = Some s' ->
  k_seen s' = k_seen s /\ forall j, j < n -> map (fun b => nth b (k_heap s') no_msg) (nth j (k_qs s') []) = map (fun b => nth b (k_heap s) no_msg) (nth j (k_qs s) []).
Proof.
  intros n s s' k a m R F E. pose proof E as E0. cbn [kstep] in E. destruct (existsb (Nat.eqb a) (row (k_own s) k)) eqn:O; [|discriminate]. injection E as <-. split; [reflexivity|]. cbn [k_heap k_qs]. intros j J. apply has_In in O. pose proof (row_lt _ _ _ _ O) as L. pose proof (kreach_inv n s R F) as I. destruct (kl n s I) as (Q1 & Q2 & _). rewrite Q2 in L.
  destruct (C18_own_copy n s a k j R F L J O) as [N _]. apply map_ext_in. intros b B. assert (LA : a < length (k_heap s)) by (apply (k_lt n s I); apply occ_In in O; pose proof (occs_get a (k_own s) k ltac:(lia)); unfold held; lia).
  change (at_ (upd (k_heap s) a m) b = at_ (k_heap s) b). rewrite at_upd by exact LA. destruct (Nat.eqb_spec b a); [congruence|reflexivity].
Qed.
Print Assumptions C18_edit.
(** What is delivered for a fatal message: its text with the closing words after it. *)
Theorem C18_fatal_text : forall m reason, _message (fatal_form m reason) =
    _message m ++ [NL] ++ lit "Exiting after fatal event  (" ++ msg_level m ++ lit "). Fatal type:  " ++ reason ++ [NL] ++
    lit "Log content flushed successfully to sink" ++ [NL; NL].
Proof. intros m reason. unfold fatal_form, write_append. cbn [_message]. rewrite <- ?app_assoc. reflexivity. Qed.
Print Assumptions C18_fatal_text.

(** *** Examples *)
Lemma krun_reach : forall n l s s', kreach n s -> krun s l = Some s' -> kreach n s'.
Proof. induction l as [|a l IH]; intros s s' R E; cbn in E; [now injection E as <-|]. destruct (kstep s a) as [s1|] eqn:A; [|discriminate]. eapply IH; [|exact E]. eapply kr_step; eauto. Qed.
Definition ex_msg (text : str) : LogMessage := write_append (mkMsg DefaultDetails 7 3 (lit "a.cpp") (lit "/x/a.cpp") 12 (lit "f") (copyLevel (copyLevel INFO)) [] []) text.
Lemma ex_msg_built : forall t, built (ex_msg t).
Proof. intro t. apply B_write. apply (B_new false 7 3 (lit "/x/a.cpp") 12 (lit "f") INFO). vm_compute. reflexivity. Qed.
(** Two sinks.  Sink 0 receives the first message and wipes it before the worker's loop reaches sink 1; later it spoils the fatal message too. *)
Definition wiped : LogMessage := no_msg.
Example edits_ex : exists s, kreach 2 s /\ Forall built (k_log s) /\ k_cur s = None /\ length (k_log s) = 2 /\
  nth 1 (k_seen s) [] = k_log s /\ nth 0 (k_seen s) [] = k_log s /\
  map (fun a => nth a (k_heap s) (ex_msg [])) (nth 0 (k_own s) []) = [wiped; wiped].
Proof.
  pose (l := [KSave (ex_msg (lit "one")); KSend [fun x => x]; KRecv 0 [fun _ => []]; KEdit 0 3 wiped; KSend [fun _ => []; fun x => x]; KDone;
              KFatal (ex_msg (lit "two")) (lit "SIGABRT"); KSend []; KRecv 0 []; KEdit 0 8 wiped; KRecv 1 []; KSend []; KDone; KRecv 1 [fun _ => []]]).
  assert (E : exists s, krun (k_init 2) l = Some s /\ k_log s = [ex_msg (lit "one"); fatal_form (ex_msg (lit "two")) (lit "SIGABRT")] /\ k_cur s = None /\
    nth 1 (k_seen s) [] = k_log s /\ nth 0 (k_seen s) [] = k_log s /\ map (fun a => nth a (k_heap s) (ex_msg [])) (nth 0 (k_own s) []) = [wiped; wiped]).
  { eexists. split; [vm_compute; reflexivity|]. vm_compute. repeat split; reflexivity. }
  destruct E as (s & E & LG & C & A & B & D). exists s. split; [eapply krun_reach; [apply kr_init|exact E]|]. split; [rewrite LG; repeat constructor; try apply fatal_built; apply ex_msg_built|]. rewrite LG in *. repeat split; auto.
Qed.
(** the text of the fatal message *)
Example fatal_form_ex : _message (fatal_form (ex_msg (lit "two")) (lit "SIGABRT")) = lit "two
Exiting after fatal event  (INFO). Fatal type:  SIGABRT
Log content flushed successfully to sink

".
Proof. vm_compute. reflexivity. Qed.
