(** Permissions: every location has a number of tokens, which threads hold or which lie at a
    mutex or an event.  Writing needs all tokens of a location, reading at least one.  *)
From Coq Require Import List ZArith Bool Lia Arith.
From Verif Require Import Base.Threads Model.Races Spec.RacesSpec.
Import ListNotations.
Local Open Scope nat_scope.

Section Permissions.
(** tokens of a location *)
Variable total : loc -> nat.
(** tokens lying at a mutex or event per unit of its count *)
Variable carry : sem -> loc -> nat.
(** what is known of the value while the tokens lie there *)
Variable assert : sem -> loc -> val -> Prop.
(** locations without tokens, all accesses to them are atomic; accesses to the others may be atomic, but need tokens all the
    same *)
Variable at_loc : loc -> bool.

Definition kset (kn : loc -> val -> Prop) (x : loc) (q : val -> Prop) : loc -> val -> Prop :=
  fun y => if loc_eq_dec y x then q else kn y.

(** the program respects the permissions, holding [has] and knowing [kn] *)
Fixpoint ok (has : loc -> nat) (kn : loc -> val -> Prop) (p : prog) : Prop :=
  match p with
  | Stop => True
  | Acq s k => ok (fun x => has x + carry s x)
                  (fun x v => (1 <= has x -> kn x v) /\ (1 <= carry s x -> assert s x v)) k
  | Rel s k => (forall x, carry s x <= has x) /\
               (forall x v, 1 <= carry s x -> kn x v -> assert s x v) /\
               ok (fun x => has x - carry s x) kn k
  | Rd a x k => (at_loc x = true -> a = true) /\
      if at_loc x then forall v, ok has kn (k v)
      else 1 <= has x /\ forall v, kn x v -> ok has (kset kn x (eq v)) (k v)
  | Wr a x v k => (at_loc x = true -> a = true) /\
      if at_loc x then ok has kn k
      else total x <= has x /\ 1 <= has x /\ ok has (kset kn x (eq v)) k
  | Rmw x f k =>
      if at_loc x then ok has kn k
      else total x <= has x /\ 1 <= has x /\ forall v, kn x v -> ok has (kset kn x (eq (f v))) k
  end.

Lemma ok_weaken : forall p has (kn : loc -> val -> Prop) has' (kn' : loc -> val -> Prop),
  (forall x, has x <= has' x) ->
  (forall x v, 1 <= has x -> (1 <= has' x -> kn' x v) -> kn x v) ->
  ok has kn p -> ok has' kn' p.
Proof.
  induction p as [|s k IH|s k IH|a x k IH|a x v k IH|x f k IH]; intros has kn has' kn' HH HK O; cbn in *; auto.
  - revert O. apply IH.
    + intro x. specialize (HH x). lia.
    + intros x v G (A & B). { specialize (HH x). lia. }
      split; [|assumption]. intro G1. apply HK; auto.
  - destruct O as (A & B & O). split; [intro x; specialize (A x); specialize (HH x); lia|].
    split. { intros x v C K. apply B; auto. apply HK; auto. specialize (A x). lia. }
    revert O. apply IH.
    + intro x. specialize (HH x). lia.
    + intros x v G K. apply HK; [lia|]. intro. apply K. specialize (HH x). lia.
  - destruct O as (A & O). split; auto. destruct (at_loc x).
    + intro v. specialize (O v). revert O. now apply IH.
    + destruct O as (G & O). split; [specialize (HH x); lia|]. intros v K. specialize (O v).
      apply (IH v has (kset kn x (eq v)) has' (kset kn' x (eq v))); auto.
      * intros y w G1 K1. unfold kset in *. destruct (loc_eq_dec y x) as [->|ne]; auto.
        apply K1. specialize (HH x). lia.
  - destruct O as (A & O). split; auto. destruct (at_loc x).
    + revert O. now apply IH.
    + destruct O as (G & G1 & O). pose proof (HH x). split; [lia|]. split; [lia|].
      apply (IH has (kset kn x (eq v)) has' (kset kn' x (eq v))); auto.
      intros y w G2 K1. unfold kset in *. destruct (loc_eq_dec y x) as [->|ne]; auto.
      apply K1. lia.
  - destruct (at_loc x).
    + revert O. now apply IH.
    + destruct O as (G & G1 & O). pose proof (HH x). split; [lia|]. split; [lia|]. intros v K.
      apply (IH has (kset kn x (eq (f v))) has' (kset kn' x (eq (f v)))); auto.
      intros y w G2 K1. unfold kset in *. destruct (loc_eq_dec y x) as [->|ne]; auto.
      apply K1. lia.
Qed.

(** mutexes and events that carry tokens *)
Variable carriers : list sem.
Hypothesis carriers_nodup : NoDup carriers.
Hypothesis carriers_all : forall s x, 1 <= carry s x -> In s carriers.
Hypothesis total_pos : forall x, 1 <= total x.

Definition lying (sm : sem -> nat) (x : loc) : nat := list_sum (map (fun s => sm s * carry s x) carriers).
Definition held (H : nat -> loc -> nat) (n : nat) (x : loc) : nat := list_sum (map (fun t => H t x) (seq 0 n)).

Definition inv (st : state) : Prop :=
  exists (H : nat -> loc -> nat) (K : nat -> loc -> val -> Prop),
    (forall t, ok (H t) (K t) (get Stop (ths st) t)) /\
    (forall x, held H (length (ths st)) x + lying (sems st) x <= total x) /\
    (forall t x, at_loc x = false -> t < length (ths st) -> 1 <= H t x -> K t x (mem st x)) /\
    (forall s x, at_loc x = false -> 1 <= sems st s -> 1 <= carry s x -> assert s x (mem st x)).

Lemma sum_ext : forall {A} (f g : A -> nat) l, (forall a, In a l -> f a = g a) -> list_sum (map f l) = list_sum (map g l).
Proof. intros A f g l E. f_equal. now apply map_ext_in. Qed.
Lemma sum_one : forall {A} (f g : A -> nat) a l, NoDup l -> In a l -> (forall b, b <> a -> f b = g b) ->
  list_sum (map f l) + g a = list_sum (map g l) + f a.
Proof.
  intros A f g a l ND I E. induction l as [|b l IH]; [easy|]. inversion ND as [|? ? NI ND']; subst.
  cbn [map list_sum fold_right]. change (fold_right Nat.add 0 ?l) with (list_sum l). destruct I as [->|I].
  - rewrite (sum_ext f g l). { lia. } intros b J. apply E. intros ->. contradiction.
  - specialize (IH ND' I). assert (f b = g b) by (apply E; intros ->; contradiction). lia.
Qed.
Lemma sum_mem : forall {A} (f : A -> nat) a l, In a l -> f a <= list_sum (map f l).
Proof.
  intros A f a l I. induction l as [|b l IH]; [easy|]. cbn [map list_sum fold_right].
  change (fold_right Nat.add 0 ?l) with (list_sum l). destruct I as [->|I]; [lia|]. specialize (IH I). lia.
Qed.
Lemma sum_two : forall {A} (f : A -> nat) a b l, NoDup l -> In a l -> In b l -> a <> b -> f a + f b <= list_sum (map f l).
Proof.
  intros A f a b l ND I J N. induction l as [|c l IH]; [easy|]. inversion ND as [|? ? NI ND']; subst.
  cbn [map list_sum fold_right]. change (fold_right Nat.add 0 ?l) with (list_sum l).
  destruct I as [->|I], J as [->|J]; try congruence.
  - pose proof (sum_mem f b l J). lia.
  - pose proof (sum_mem f a l I). lia.
  - specialize (IH ND' I J). lia.
Qed.

Definition hset (H : nat -> loc -> nat) (t : nat) (h : loc -> nat) : nat -> loc -> nat := fun u => if Nat.eqb u t then h else H u.
Definition kseta (K : nat -> loc -> val -> Prop) (t : nat) (q : loc -> val -> Prop) := fun u => if Nat.eqb u t then q else K u.

Lemma held_hset : forall H n t h x, t < n -> held (hset H t h) n x + H t x = held H n x + h x.
Proof.
  intros. unfold held. pose proof (sum_one (fun u => hset H t h u x) (fun u => H u x) t (seq 0 n) (seq_NoDup n 0)) as S.
  cbn beta in S. unfold hset in S at 3. rewrite Nat.eqb_refl in S. apply S.
  - apply in_seq. lia.
  - intros b nb. unfold hset. apply Nat.eqb_neq in nb. now rewrite nb.
Qed.
Lemma lying_set : forall sm s n x, lying (set_sem sm s n) x + sm s * carry s x = lying sm x + n * carry s x.
Proof.
  intros. unfold lying. destruct (in_dec sem_eq_dec s carriers) as [I|NI].
  - pose proof (sum_one (fun u => set_sem sm s n u * carry u x) (fun u => sm u * carry u x) s carriers carriers_nodup I) as S.
    cbn beta in S. unfold set_sem in S at 3. destruct (sem_eq_dec s s) as [_|F]; [|congruence]. apply S.
    intros b nb. unfold set_sem. destruct (sem_eq_dec b s); congruence.
  - assert (carry s x = 0). { destruct (carry s x) eqn:E; auto. exfalso. apply NI, (carriers_all s x). lia. }
    rewrite H, !Nat.mul_0_r, !Nat.add_0_r. apply sum_ext. intros b J. unfold set_sem.
    destruct (sem_eq_dec b s) as [->|]; [contradiction|auto].
Qed.
Lemma held_get : forall H n t x, t < n -> H t x <= held H n x.
Proof. intros. unfold held. apply (sum_mem (fun u => H u x)). apply in_seq. lia. Qed.
Lemma held_two : forall H n t u x, t < n -> u < n -> t <> u -> H t x + H u x <= held H n x.
Proof. intros. unfold held. apply (sum_two (fun u => H u x)); auto using seq_NoDup; apply in_seq; lia. Qed.
Lemma lying_get : forall sm s x, 1 <= carry s x -> sm s * carry s x <= lying sm x.
Proof. intros. unfold lying. apply (sum_mem (fun u => sm u * carry u x)). eauto. Qed.

Lemma set_mem_same : forall m x v, set_mem m x v x = v.
Proof. intros. unfold set_mem. now destruct (loc_eq_dec x x). Qed.
Lemma set_mem_other : forall m x v y, y <> x -> set_mem m x v y = m y.
Proof. intros. unfold set_mem. now destruct (loc_eq_dec y x). Qed.

Lemma inv_step : forall st t st', inv st -> step st t = Some st' -> inv st'.
Proof.
  intros st t st' (H & K & O & T & KN & AS) E. unfold step in E.
  pose proof (O t) as Ot.
  assert (L : t < length (ths st)).
  { destruct (Nat.lt_ge_cases t (length (ths st))) as [|G]; auto. rewrite (get_out Stop _ _ G) in E. discriminate. }
  destruct (get Stop (ths st) t) as [|s k|s k|a x k|a x v k|x f k] eqn:P; [discriminate| | | | |].
  - destruct (sems st s) as [|n] eqn:Sn; [discriminate|]. injection E as <-. cbn in Ot.
    exists (hset H t (fun x => H t x + carry s x)),
           (kseta K t (fun x v => (1 <= H t x -> K t x v) /\ (1 <= carry s x -> assert s x v))).
    cbn [ths sems mem]. rewrite upd_length. split; [|split; [|split]].
    + intro u. rewrite get_upd by auto. unfold hset, kseta. destruct (Nat.eqb_spec u t) as [->|N]; auto.
    + intro x. pose proof (held_hset H (length (ths st)) t (fun x => H t x + carry s x) x L) as A.
      pose proof (lying_set (sems st) s n x) as B. specialize (T x). cbn beta in A. rewrite Sn in B. lia.
    + intros u x Lx Lu. unfold hset, kseta. destruct (Nat.eqb_spec u t) as [->|N]; [|now apply KN].
      intros _. split; intro G; [now apply KN|]. apply AS; auto. lia.
    + intros s' x Lx G C. apply AS; auto. unfold set_sem in G. destruct (sem_eq_dec s' s) as [->|]; auto. lia.
  - injection E as <-. cbn in Ot. destruct Ot as (C & B & Ot).
    exists (hset H t (fun x => H t x - carry s x)), K.
    cbn [ths sems mem]. rewrite upd_length. split; [|split; [|split]].
    + intro u. rewrite get_upd by auto. unfold hset. destruct (Nat.eqb_spec u t) as [->|N]; auto.
    + intro x. pose proof (held_hset H (length (ths st)) t (fun x => H t x - carry s x) x L) as A.
      pose proof (lying_set (sems st) s (S (sems st s)) x) as D. specialize (T x). specialize (C x). cbn beta in A. lia.
    + intros u x Lx Lu. unfold hset. destruct (Nat.eqb_spec u t) as [->|N]; [|now apply KN].
      intro G. apply KN; auto. lia.
    + intros s' x Lx G Cx. unfold set_sem in G. destruct (sem_eq_dec s' s) as [->|]; [|now apply AS].
      apply B; auto. apply KN; auto. specialize (C x). lia.
  - injection E as <-. cbn in Ot. destruct Ot as (A & Ot). destruct (at_loc x) eqn:AL.
    + exists H, K. cbn [ths sems mem]. rewrite upd_length. split; [|split; [|split]]; auto.
      intro u. rewrite get_upd by auto. destruct (Nat.eqb_spec u t) as [->|N]; auto.
    + destruct Ot as (G & Ot). exists H, (kseta K t (kset (K t) x (eq (mem st x)))).
      cbn [ths sems mem]. rewrite upd_length. split; [|split; [|split]]; auto.
      * intro u. rewrite get_upd by auto. unfold kseta. destruct (Nat.eqb_spec u t) as [->|N]; auto.
      * intros u y Lx Lu Gy. unfold kseta. destruct (Nat.eqb_spec u t) as [->|N]; [|now apply KN].
        unfold kset. destruct (loc_eq_dec y x) as [->|]; auto.
  - injection E as <-. cbn in Ot. destruct Ot as (A & Ot). destruct (at_loc x) eqn:AL.
    + exists H, K. cbn [ths sems mem]. rewrite upd_length. split; [|split; [|split]]; auto.
      * intro u. rewrite get_upd by auto. destruct (Nat.eqb_spec u t) as [->|N]; auto.
      * intros u y Lx Lu Gy. rewrite set_mem_other by congruence. auto.
      * intros s' y Lx Gs Gy. rewrite set_mem_other by congruence. auto.
    + destruct Ot as (G & G1 & Ot). exists H, (kseta K t (kset (K t) x (eq v))).
      cbn [ths sems mem]. rewrite upd_length. split; [|split; [|split]]; auto.
      * intro u. rewrite get_upd by auto. unfold kseta. destruct (Nat.eqb_spec u t) as [->|N]; auto.
      * intros u y Lx Lu Gy. unfold kseta. destruct (Nat.eqb_spec u t) as [->|N].
        -- unfold kset. destruct (loc_eq_dec y x) as [->|ne]; [now rewrite set_mem_same|rewrite set_mem_other by auto; auto].
        -- destruct (loc_eq_dec y x) as [->|ne]; [|rewrite set_mem_other by auto; auto].
           exfalso. pose proof (held_two H _ t u x L Lu ltac:(congruence)). specialize (T x). lia.
      * intros s' y Lx Gs Gy. destruct (loc_eq_dec y x) as [->|ne]; [|rewrite set_mem_other by auto; auto].
        exfalso. pose proof (held_get H _ t x L). pose proof (lying_get (sems st) s' x Gy). specialize (T x). nia.
  - injection E as <-. cbn in Ot. destruct (at_loc x) eqn:AL.
    + exists H, K. cbn [ths sems mem]. rewrite upd_length. split; [|split; [|split]]; auto.
      * intro u. rewrite get_upd by auto. destruct (Nat.eqb_spec u t) as [->|N]; auto.
      * intros u y Lx Lu Gy. rewrite set_mem_other by congruence. auto.
      * intros s' y Lx Gs Gy. rewrite set_mem_other by congruence. auto.
    + destruct Ot as (G & G1 & Ot0). pose proof (Ot0 (mem st x) (KN t x AL L G1)) as Ot. exists H, (kseta K t (kset (K t) x (eq (f (mem st x))))).
      cbn [ths sems mem]. rewrite upd_length. split; [|split; [|split]]; auto.
      * intro u. rewrite get_upd by auto. unfold kseta. destruct (Nat.eqb_spec u t) as [->|N]; auto.
      * intros u y Lx Lu Gy. unfold kseta. destruct (Nat.eqb_spec u t) as [->|N].
        -- unfold kset. destruct (loc_eq_dec y x) as [->|ne]; [now rewrite set_mem_same|rewrite set_mem_other by auto; auto].
        -- destruct (loc_eq_dec y x) as [->|ne]; [|rewrite set_mem_other by auto; auto].
           exfalso. pose proof (held_two H _ t u x L Lu ltac:(congruence)). specialize (T x). lia.
      * intros s' y Lx Gs Gy. destruct (loc_eq_dec y x) as [->|ne]; [|rewrite set_mem_other by auto; auto].
        exfalso. pose proof (held_get H _ t x L). pose proof (lying_get (sems st) s' x Gy). specialize (T x). nia.
Qed.

Lemma inv_runs : forall sched st st', inv st -> runs sched st = Some st' -> inv st'.
Proof.
  induction sched as [|t r IH]; cbn; intros st st' I E; [now injection E as <-|].
  destruct (step st t) as [st1|] eqn:S; [|discriminate]. eauto using inv_step.
Qed.

(** two threads are never about to make accesses to a location with tokens of which one is a write, be they atomic or not *)
Lemma inv_apart : forall st x u v wu wv au av, inv st -> u <> v -> at_loc x = false ->
  next_access (get Stop (ths st) u) = Some (x, wu, au) -> next_access (get Stop (ths st) v) = Some (x, wv, av) ->
  wu || wv = false.
Proof.
  intros st x u v wu wv au av (H & K & O & T & _ & _) N F Eu Ev.
  assert (Lu : u < length (ths st)). { apply (get_in Stop). intro Z. rewrite Z in Eu. discriminate. }
  assert (Lv : v < length (ths st)). { apply (get_in Stop). intro Z. rewrite Z in Ev. discriminate. }
  assert (Q : forall t w a, next_access (get Stop (ths st) t) = Some (x, w, a) -> 1 <= H t x /\ (w = true -> total x <= H t x)).
  { intros t w a E. pose proof (O t) as Ot. destruct (get Stop (ths st) t); try discriminate; cbn in *.
    - injection E as -> <- ->. rewrite F in Ot. split; [tauto|discriminate].
    - injection E as -> <- ->. rewrite F in Ot. tauto.
    - injection E as -> <- <-. rewrite F in Ot. tauto. }
  destruct (Q _ _ _ Eu) as (Gu & Fu). destruct (Q _ _ _ Ev) as (Gv & Fv).
  pose proof (held_two H _ u v x Lu Lv N). specialize (T x).
  destruct wu; [specialize (Fu eq_refl); lia|]. destruct wv; [specialize (Fv eq_refl); lia|reflexivity].
Qed.
Lemma inv_atomic : forall st x u w a, inv st -> at_loc x = true ->
  next_access (get Stop (ths st) u) = Some (x, w, a) -> a = true.
Proof.
  intros st x u w a (H & K & O & _) F E. pose proof (O u) as Ou. destruct (get Stop (ths st) u); try discriminate; cbn in *.
  - injection E as -> <- ->. tauto.
  - injection E as -> <- ->. tauto.
  - now injection E as -> <- <-.
Qed.

Lemma inv_no_race : forall st x, inv st -> ~ race_at st x.
Proof.
  intros st x I (u & v & wu & wv & au & av & N & Eu & Ev & W & A). destruct (at_loc x) eqn:F.
  - rewrite (inv_atomic st x u wu au I F Eu), (inv_atomic st x v wv av I F Ev) in A. discriminate.
  - rewrite (inv_apart st x u v wu wv au av I N F Eu Ev) in W. discriminate.
Qed.

Lemma permissions_sound : forall st x, inv st -> race_free st x.
Proof. intros st x I sched st' E. exact (inv_no_race st' x (inv_runs sched st st' I E)). Qed.
Lemma permissions_apart : forall st x sched st', inv st -> at_loc x = false -> runs sched st = Some st' ->
  forall u v wu wv au av, u <> v -> next_access (get Stop (ths st') u) = Some (x, wu, au) ->
  next_access (get Stop (ths st') v) = Some (x, wv, av) -> wu || wv = false.
Proof. intros st x sched st' I F R u v wu wv au av N Eu Ev. exact (inv_apart st' x u v wu wv au av (inv_runs sched st st' I R) N F Eu Ev). Qed.
End Permissions.
