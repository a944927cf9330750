(** Lists of thread states: reading, updating, counting. *)
From Coq Require Import List Arith Bool Lia.
Import ListNotations.

Section Threads.
Context {P : Type}.
Variable dflt : P.

(** state of thread t; helper of this model, no source of its own *)
Definition get (l : list P) (t : nat) : P := nth t l dflt.
(** change the state of thread t; helper of this model, no source of its own *)
Fixpoint upd (l : list P) (t : nat) (x : P) : list P :=
  match l, t with
  | [], _ => []
  | _ :: r, O => x :: r
  | y :: r, S k => y :: upd r k x
  end.

Lemma upd_length : forall l t x, length (upd l t x) = length l.
Proof. induction l as [|y l IH]; intros [|t] x; cbn; auto. Qed.
Lemma get_upd_same : forall l t x, t < length l -> get (upd l t x) t = x.
Proof. unfold get. induction l as [|y l IH]; intros [|t] x H; cbn in *; try lia; auto. apply IH. lia. Qed.
Lemma get_upd_other : forall l t u x, u <> t -> get (upd l t x) u = get l u.
Proof. unfold get. induction l as [|y l IH]; intros [|t] [|u] x H; cbn; auto; try congruence. Qed.
Lemma get_out : forall l t, length l <= t -> get l t = dflt.
Proof. intros. now apply nth_overflow. Qed.
Lemma get_in : forall l t, get l t <> dflt -> t < length l.
Proof. intros l t H. destruct (Nat.lt_ge_cases t (length l)) as [L|L]; auto. exfalso. apply H. now apply get_out. Qed.
Lemma get_upd : forall l t u x, t < length l -> get (upd l t x) u = if Nat.eqb u t then x else get l u.
Proof.
  intros l t u x H. destruct (Nat.eqb_spec u t) as [->|n]; [now apply get_upd_same|now apply get_upd_other].
Qed.

(** helper of this model, no source of its own *)
Definition b2n (b : bool) : nat := if b then 1 else 0.
(** how many threads satisfy p; helper of this model, no source of its own *)
Definition count (p : P -> bool) (l : list P) : nat := length (filter p l).
Lemma count_upd : forall p l t x, t < length l -> count p (upd l t x) + b2n (p (get l t)) = count p l + b2n (p x).
Proof.
  unfold get, count. intros p. induction l as [|y l IH]; intros [|t] x H; cbn in *; try lia.
  - destruct (p x), (p y); cbn; lia.
  - specialize (IH t x). destruct (p y); cbn; rewrite <- ?plus_Sn_m; specialize (IH ltac:(lia)); lia.
Qed.
Lemma count_pos : forall p l, 0 < count p l -> exists t, t < length l /\ p (get l t) = true.
Proof.
  unfold get, count. intros p. induction l as [|y l IH]; cbn; intro H; [lia|].
  destruct (p y) eqn:E; [exists 0; cbn; split; [lia|auto]|]. destruct (IH H) as (t & L & T). exists (S t). cbn. split; [lia|auto].
Qed.
Lemma count_get : forall p l t, t < length l -> p (get l t) = true -> 0 < count p l.
Proof.
  unfold get, count. intros p. induction l as [|y l IH]; intros [|t] L H; cbn in *; try lia.
  - rewrite H. cbn. lia.
  - specialize (IH t ltac:(lia) H). destruct (p y); cbn; lia.
Qed.

(** sum of weights; helper of this model, no source of its own *)
Definition weigh (w : P -> nat) (l : list P) : nat := list_sum (map w l).
Lemma weigh_upd : forall w l t x, t < length l -> weigh w (upd l t x) + w (get l t) = weigh w l + w x.
Proof.
  unfold get, weigh, list_sum. intros w. induction l as [|y l IH]; intros [|t] x H; cbn in *; try lia.
  specialize (IH t x ltac:(lia)). lia.
Qed.
Lemma weigh_get : forall w l t, t < length l -> w (get l t) <= weigh w l.
Proof.
  unfold get, weigh, list_sum. intros w. induction l as [|y l IH]; intros [|t] L; cbn in *; try lia.
  specialize (IH t ltac:(lia)). lia.
Qed.
End Threads.
