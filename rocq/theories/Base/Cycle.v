(** Infinite executions of any step function that repeat themselves: for examples and counterexamples. *)
From Coq Require Import List Arith Bool Lia.
Import ListNotations.

Section Cycle.
Variables (S0 Act : Type) (step : S0 -> Act -> option S0) (strip : S0 -> S0) (init : S0).
Hypothesis strip_step : forall s a, option_map strip (step (strip s) a) = option_map strip (step s a).
Hypothesis strip_init : strip init = init.
Variables first again : list Act.
Hypothesis NE : again <> [].
(** first, and then the others for ever *)
Definition place (i : nat) : nat := if Nat.ltb i (length first) then i else length first + (i - length first) mod length again.
Definition cyc_ac (i : nat) : option Act := nth_error (first ++ again) (place i).
Fixpoint cyc_ex (i : nat) : S0 :=
  match i with
  | O => init
  | S i => match cyc_ac i with Some a => match step (cyc_ex i) a with Some s => s | None => cyc_ex i end | None => cyc_ex i end
  end.
(** the states along the list *)
Fixpoint states (s : option S0) (l : list Act) : list (option S0) :=
  s :: match l with [] => [] | a :: r => states (match s with Some s => option_map strip (step s a) | None => None end) r end.
Definition at_place (p : nat) : option S0 := nth p (states (Some init) (first ++ again)) None.
Hypothesis BACK : at_place (length (first ++ again)) = at_place (length first).
Hypothesis ALL : at_place (length (first ++ again)) <> None.

Lemma states_next : forall l (s : option S0) p a, nth_error l p = Some a ->
  nth (S p) (states s l) None = match nth p (states s l) None with Some s => option_map strip (step s a) | None => None end.
Proof.
  induction l as [|b l IH]; intros s [|p] a E; try discriminate.
  - cbn in E. injection E as ->. cbn. now destruct l.
  - cbn in E. cbn [states]. change (nth (S p) (states (match s with Some s0 => option_map strip (step s0 b) | None => None end) l) None = match nth p (states (match s with Some s0 => option_map strip (step s0 b) | None => None end) l) None with Some s0 => option_map strip (step s0 a) | None => None end). now apply IH.
Qed.
Lemma place_lt : forall i, place i < length (first ++ again).
Proof.
  intro i. unfold place. rewrite app_length. assert (length again <> 0) by (destruct again; cbn; congruence). pose proof (Nat.mod_upper_bound (i - length first) (length again) H).
  destruct (Nat.ltb_spec i (length first)); lia.
Qed.
Lemma place_next : forall i, place (S i) = S (place i) \/ place (S i) = length first /\ S (place i) = length (first ++ again).
Proof.
  intro i. unfold place. rewrite app_length. assert (K : length again <> 0) by (destruct again; cbn; congruence).
  destruct (Nat.ltb_spec i (length first)) as [L|L], (Nat.ltb_spec (S i) (length first)) as [L'|L']; try lia.
  - left. replace (S i - length first) with 0 by lia. rewrite Nat.mod_small by lia. lia.
  - replace (S i - length first) with (S (i - length first)) by lia. set (x := i - length first). pose proof (Nat.mod_upper_bound x (length again) K) as U.
    pose proof (Nat.div_mod x (length again) K) as DM. destruct (Nat.eq_dec (S (x mod length again)) (length again)) as [E|E].
    + right. split; [|lia]. rewrite <- (Nat.mod_unique (S x) (length again) (S (x / length again)) 0); lia.
    + left. rewrite <- (Nat.mod_unique (S x) (length again) (x / length again) (S (x mod length again))); lia.
Qed.
Lemma at_none : forall l (s : option S0) p, p <= length l -> nth p (states s l) None = None -> nth (length l) (states s l) None = None.
Proof.
  intros l s p L E. assert (X : forall d, p + d <= length l -> nth (p + d) (states s l) None = None).
  { induction d as [|d IH]; intro H; [now rewrite Nat.add_0_r|]. rewrite Nat.add_succ_r. destruct (nth_error l (p + d)) as [a|] eqn:N; [|apply nth_error_None in N; lia].
    rewrite (states_next l s _ a N), IH by lia. reflexivity. }
  replace (length l) with (p + (length l - p)) by lia. apply X. lia.
Qed.
Lemma cyc_at : forall i, at_place (place i) = Some (strip (cyc_ex i)).
Proof.
  assert (NX : forall i, at_place (place i) = Some (strip (cyc_ex i)) -> exists a s', cyc_ac i = Some a /\ step (cyc_ex i) a = Some s' /\ at_place (S (place i)) = Some (strip s')).
  { intros i H. pose proof (place_lt i) as L. unfold cyc_ac. destruct (nth_error (first ++ again) (place i)) as [a|] eqn:N; [|apply nth_error_None in N; lia].
    pose proof (states_next _ (Some init) _ _ N) as S1. fold (at_place (S (place i))) in S1. fold (at_place (place i)) in S1. rewrite H, strip_step in S1.
    destruct (step (cyc_ex i) a) as [s'|] eqn:Q; cbn in S1; [exists a, s'; auto|]. exfalso. apply ALL. apply (at_none _ _ (S (place i))); [lia|exact S1]. }
  induction i as [|i IH].
  - unfold place. destruct (Nat.ltb_spec 0 (length first)) as [L|L].
    + unfold at_place. cbn [cyc_ex]. rewrite strip_init. destruct (first ++ again); reflexivity.
    + assert (F : length first = 0) by lia. rewrite F. assert (K : length again <> 0) by (destruct again; cbn; congruence). cbn [Nat.sub]. rewrite Nat.mod_small by lia. cbn [Nat.add]. unfold at_place. cbn [cyc_ex]. rewrite strip_init. destruct (first ++ again); reflexivity.
  - destruct (NX i IH) as (a & s' & E & S1 & P1). cbn [cyc_ex]. rewrite E, S1. destruct (place_next i) as [->|[-> Z]]; [exact P1|]. rewrite <- BACK, <- Z. exact P1.
Qed.
Lemma cyc_next : forall i, exists a, cyc_ac i = Some a /\ step (cyc_ex i) a = Some (cyc_ex (S i)).
Proof.
  intro i. pose proof (place_lt i) as L. destruct (cyc_ac i) as [a|] eqn:E; [|unfold cyc_ac in E; apply nth_error_None in E; lia]. exists a. split; auto. cbn [cyc_ex]; rewrite E.
  pose proof (states_next _ (Some init) _ _ E) as S1. fold (at_place (S (place i))) in S1. fold (at_place (place i)) in S1. rewrite (cyc_at i), strip_step in S1.
  destruct (step (cyc_ex i) a) as [s'|]; [reflexivity|]. exfalso. apply ALL. apply (at_none _ _ (S (place i))); [lia|exact S1].
Qed.
(** every place of the repeated part is reached again and again *)
Lemma cyc_again : forall p i, p < length again -> exists m, i <= m /\ place m = length first + p.
Proof.
  intros p i L. exists (length first + (p + i * length again)). assert (K : length again <> 0) by lia. split.
  - assert (i <= i * length again) by nia. lia.
  - unfold place. destruct (Nat.ltb_spec (length first + (p + i * length again)) (length first)); [lia|]. replace (length first + (p + i * length again) - length first) with (p + i * length again) by lia.
    rewrite Nat.mod_add by exact K. now rewrite Nat.mod_small.
Qed.
Lemma cyc_does : forall p a i, p < length again -> nth_error again p = Some a -> exists m, i <= m /\ cyc_ac m = Some a.
Proof. intros p a i L E. destruct (cyc_again p i L) as (m & LE & P). exists m. split; auto. unfold cyc_ac. rewrite P, nth_error_app2 by lia. now replace (length first + p - length first) with p by lia. Qed.
(** what is so at all places from k on stays so *)
Lemma cyc_all : forall (f : S0 -> bool) k, forallb (fun o => match o with Some s => f s | None => false end) (skipn k (states (Some init) (first ++ again))) = true ->
  k <= length first -> forall i, k <= i -> f (strip (cyc_ex i)) = true.
Proof.
  intros f k Z K i L. pose proof (cyc_at i) as AT. assert (G : k <= place i) by (unfold place; destruct (Nat.ltb_spec i (length first)); lia).
  rewrite forallb_forall in Z. apply (Z (Some (strip (cyc_ex i)))). rewrite <- AT. unfold at_place.
  assert (LE : place i < length (states (Some init) (first ++ again))).
  { destruct (Nat.lt_ge_cases (place i) (length (states (Some init) (first ++ again)))) as [?|GE]; auto. unfold at_place in AT. rewrite nth_overflow in AT by exact GE. discriminate. }
  revert G LE. generalize (states (Some init) (first ++ again)). generalize (place i). clear. induction k as [|k IH]; intros p l G LE; [apply nth_In; exact LE|].
  destruct p as [|p]; [lia|]. destruct l as [|x l]; cbn in LE; [lia|]. cbn [nth skipn]. apply IH; lia.
Qed.
(** what is so at a place of the repeated part is so again and again *)
Lemma cyc_look : forall p s i, p < length again -> at_place (length first + p) = Some s -> exists m, i <= m /\ strip (cyc_ex m) = s.
Proof. intros p s i L E. destruct (cyc_again p i L) as (m & LE & P). exists m. split; auto. rewrite <- P, (cyc_at m) in E. congruence. Qed.
End Cycle.
