(** Facts about Model/Dismantle.v. *)
From Coq Require Import List Arith Bool Lia.
From Verif.Model Require Import Dismantle.
From Verif.Spec Require Import DismantleSpec.
Import ListNotations.

Section S.
Variable mem : nat -> bool.

(** ** what the pieces of code do to the state *)
Lemma do_alloc : forall b n s r n' s', (alloc mem ;; b) n s = (r, n', s') ->
  (r = Threw /\ s' = s) \/ b (S n) s = (r, n', s').
Proof. intros b n s r n' s' E. unfold andthen, alloc in E. destruct (mem n); [now right|]. injection E as <- <- <-. now left. Qed.

Lemma do_send : forall j n s r n' s', dsend mem j n s = (r, n', s') ->
  (r = Threw /\ s' = s) \/ (r = Done /\ s' = u_queue (d_queue s ++ [j]) s).
Proof.
  intros j n s r n' s' E. unfold dsend in E. do 3 (apply do_alloc in E; destruct E as [|E]; [now left|]).
  injection E as <- <- <-. now right.
Qed.
Lemma do_spawn : forall j n s r n' s', dspawn mem j n s = (r, n', s') ->
  (r = Threw /\ s' = s) \/ (r = Done /\ s' = u_queue (d_queue s ++ [j]) s).
Proof. intros j n s r n' s' E. apply do_alloc in E. destruct E as [|E]; [now left|]. now apply do_send in E. Qed.

Lemma do_destroy : forall k n s r n' s', destroy_sink mem k n s = (r, n', s') ->
  (r = Ends DTerminate /\ s' = s) \/ (r = Done /\ s' = u_gone k s).
Proof.
  intros k n s r n' s' E. unfold destroy_sink, andthen, must, alloc in E.
  destruct (mem n), (mem (S n)), (mem (S (S n))); injection E as <- <- <-; auto.
Qed.

Definition u_gones (l : list nat) (s : dst) : dst := mkD (d_active s) (d_bg s) (d_running s) (d_queue s) (d_sinks s) (d_handles s) (d_next s) (d_calls s) (d_ready s) (d_taken s) (d_got s) (d_gone s ++ l) (d_end s).
Definition u_gots (l : list (nat * nat)) (s : dst) : dst := mkD (d_active s) (d_bg s) (d_running s) (d_queue s) (d_sinks s) (d_handles s) (d_next s) (d_calls s) (d_ready s) (d_taken s) (d_got s ++ l) (d_gone s) (d_end s).
Lemma u_gones_nil : forall s, u_gones [] s = s.
Proof. intros []. unfold u_gones. cbn. now rewrite app_nil_r. Qed.
Lemma u_gots_nil : forall s, u_gots [] s = s.
Proof. intros []. unfold u_gots. cbn. now rewrite app_nil_r. Qed.

Lemma do_destroy_all : forall l n s r n' s', destroy_all mem l n s = (r, n', s') ->
  (r = Ends DTerminate) \/ (r = Done /\ s' = u_gones l s).
Proof.
  induction l as [|k l IH]; cbn [destroy_all]; intros n s r n' s' E.
  - injection E as <- <- <-. right. now rewrite u_gones_nil.
  - unfold andthen in E. destruct (destroy_sink mem k n s) as ((r1, n1), s1) eqn:D. apply do_destroy in D.
    destruct D as [(-> & ->)|(-> & ->)]; [injection E as <- <- <-; now left|].
    apply IH in E. destruct E as [|(-> & ->)]; [now left|]. right. split; [reflexivity|].
    unfold u_gones, u_gone. cbn. now rewrite <- app_assoc.
Qed.

Lemma do_to_sinks : forall l m n s r n' s', to_sinks mem l m n s = (r, n', s') ->
  exists l1, (exists l2, l = l1 ++ l2) /\ s' = u_gots (map (fun k => (k, m)) l1) s /\ (r = Threw \/ r = Done /\ l1 = l).
Proof.
  induction l as [|k l IH]; cbn [to_sinks]; intros m n s r n' s' E.
  - injection E as <- <- <-. exists []. rewrite u_gots_nil. split; [now exists []|]. auto.
  - do 5 (apply do_alloc in E; destruct E as [(-> & ->)|E]; [exists []; rewrite u_gots_nil; split; [now exists (k :: l)|]; auto|]).
    unfold andthen at 1, upd in E. apply IH in E. destruct E as (l1 & (l2 & ->) & -> & R). exists (k :: l1).
    split; [now exists l2|]. split; [unfold u_gots, u_got; cbn; now rewrite <- app_assoc|].
    destruct R as [->|(-> & R)]; [now left|right]. split; [reflexivity|now rewrite <- R].
Qed.

(** ** one action, without the memory *)
Inductive eff (s : dst) : dact -> option dout -> dst -> Prop :=
| e_log_threw : forall m, eff s (ALog m) (Some OThrew) s
| e_log : forall m, d_active s = true -> eff s (ALog m) (Some OReturned) (u_queue (d_queue s ++ [JSave m]) s)
| e_log_off : forall m, d_active s = false -> eff s (ALog m) (Some OReturned) s
| e_fatal_threw : forall m, eff s (AFatal m) (Some OThrew) s
| e_fatal : forall m, d_active s = true -> eff s (AFatal m) (Some OWaits) (u_queue (d_queue s ++ [JFatal m]) s)
| e_none : forall a, eff s a None s
| e_wait : forall c, eff s (AReturn c) (Some OWaits) s
| e_idle : (d_running s = false \/ d_queue s = []) -> eff s AWork (Some OReturned) s
| e_add_threw : forall g, d_bg s = true -> (g = [] \/ g = [d_next s]) -> eff s AAdd (Some OThrew) (u_gones g (u_next (S (d_next s)) s))
| e_add : d_bg s = true ->
    eff s AAdd (Some OWaits) (waits (d_next s) (KAdd (d_next s)) (u_queue (d_queue s ++ [JAdd (d_next s) (d_next s)]) (u_next (S (d_next s)) s)))
| e_remove_null : forall k, ~ In k (d_handles s) -> eff s (ARemove k) (Some OReturned) s
| e_remove_threw : forall k, d_bg s = true -> In k (d_handles s) ->
    eff s (ARemove k) (Some OThrew) (u_handles (remove Nat.eq_dec k (d_handles s)) (u_next (S (d_next s)) s))
| e_remove : forall k, d_bg s = true -> In k (d_handles s) ->
    eff s (ARemove k) (Some OWaits) (waits (d_next s) (KRemove k) (u_queue (d_queue s ++ [JRemove k (d_next s)])
      (u_handles (remove Nat.eq_dec k (d_handles s)) (u_next (S (d_next s)) s))))
| e_all_threw : d_bg s = true -> eff s AAll (Some OThrew) (u_next (S (d_next s)) s)
| e_all : d_bg s = true -> eff s AAll (Some OWaits) (waits (d_next s) KAll (u_queue (d_queue s ++ [JClear (d_next s)]) (u_next (S (d_next s)) s)))
| e_destroy : dying s = false ->
    eff s ADestroy (Some OWaits) (waits (d_next s) KDestroy (u_queue (d_queue s ++ [JClear (d_next s)]) (u_active false (u_next (S (d_next s)) s))))
| e_added : forall c k, find_call c (d_calls s) = Some (KAdd k) -> In c (d_ready s) -> In k (d_sinks s) ->
    eff s (AReturn c) (Some OReturned) (u_handles (d_handles s ++ [k]) (u_calls (drop_call c (d_calls s)) s))
| e_added_threw : forall c k, find_call c (d_calls s) = Some (KAdd k) -> In c (d_ready s) -> In k (d_sinks s) ->
    eff s (AReturn c) (Some OThrew) (u_calls (drop_call c (d_calls s)) s)
| e_not_added : forall c k, find_call c (d_calls s) = Some (KAdd k) -> In c (d_ready s) -> ~ In k (d_sinks s) ->
    eff s (AReturn c) (Some OReturned) (u_handles (d_handles s ++ [k]) (u_gone k (u_calls (drop_call c (d_calls s)) s)))
| e_not_added_threw : forall c k, find_call c (d_calls s) = Some (KAdd k) -> In c (d_ready s) -> ~ In k (d_sinks s) ->
    eff s (AReturn c) (Some OThrew) (u_gone k (u_calls (drop_call c (d_calls s)) s))
| e_return : forall c x, find_call c (d_calls s) = Some x -> (x = KAll \/ exists k, x = KRemove k) -> In c (d_ready s) ->
    eff s (AReturn c) (Some OReturned) (u_calls (drop_call c (d_calls s)) s)
| e_bg : forall c, find_call c (d_calls s) = Some KDestroy -> In c (d_ready s) ->
    eff s (AReturn c) (Some OWaits) (waits c KJoin (u_queue (d_queue s ++ [JStop]) (u_bg false (u_calls (drop_call c (d_calls s)) s))))
| e_gone : forall c, find_call c (d_calls s) = Some KJoin -> d_running s = false ->
    eff s (AReturn c) (Some OReturned)
      (u_sinks [] (u_gones (only_owned (u_calls (drop_call c (d_calls s)) s)) (u_calls (drop_call c (d_calls s)) s)))
| e_save : forall m q, d_running s = true -> d_queue s = JSave m :: q ->
    eff s AWork (Some OReturned) (u_gots (map (fun k => (k, m)) (d_sinks s)) (u_taken m (u_queue q s)))
| e_push : forall k c q, d_running s = true -> d_queue s = JAdd k c :: q ->
    eff s AWork (Some OReturned) (u_ready c (u_sinks (d_sinks s ++ [k]) (u_queue q s)))
| e_push_fails : forall k c q, d_running s = true -> d_queue s = JAdd k c :: q ->
    eff s AWork (Some OReturned) (u_ready c (u_queue q s))
| e_erase : forall k c q g, d_running s = true -> d_queue s = JRemove k c :: q ->
    (In k (d_sinks s) -> held s k = false -> g = [k]) ->
    eff s AWork (Some OReturned) (u_ready c (u_gones g (u_sinks (remove Nat.eq_dec k (d_sinks s)) (u_queue q s))))
| e_clear : forall c q, d_running s = true -> d_queue s = JClear c :: q ->
    eff s AWork (Some OReturned) (u_ready c (u_gones (only_owned s) (u_sinks [] (u_queue q s))))
| e_stop : forall q, d_running s = true -> d_queue s = JStop :: q ->
    eff s AWork (Some OReturned) (u_running false (u_queue q s)).

Lemma has_true : forall k l, existsb (Nat.eqb k) l = true -> In k l.
Proof. intros k l H. apply existsb_exists in H. destruct H as (i & I & E). apply Nat.eqb_eq in E. now subst i. Qed.
Lemma has_false : forall k l, existsb (Nat.eqb k) l = false -> ~ In k l.
Proof. intros k l H I. assert (existsb (Nat.eqb k) l = true) by (apply existsb_exists; exists k; now rewrite Nat.eqb_refl). congruence. Qed.
Lemma remove_none : forall k l, ~ In k l -> remove Nat.eq_dec k l = l.
Proof. intros k l. apply notin_remove. Qed.

Lemma do_owning : forall k a n s r n' s', owning mem k a n s = (r, n', s') -> exists r1 n1 s1, a n s = (r1, n1, s1) /\
  ((r1 = Threw /\ (r = Ends DTerminate \/ (r = Threw /\ s' = u_gone k s1))) \/ (r1 <> Threw /\ r = r1 /\ s' = s1)).
Proof.
  intros k a n s r n' s' E. unfold owning in E. destruct (a n s) as ((r1, n1), s1). exists r1, n1, s1. split; [reflexivity|].
  destruct r1; [right; injection E as <- <- <-; repeat split; discriminate| |right; injection E as <- <- <-; repeat split; discriminate].
  left. split; [reflexivity|]. unfold andthen in E. destruct (destroy_sink mem k n1 s1) as ((r2, n2), s2) eqn:X. apply do_destroy in X.
  destruct X as [(-> & ->)|(-> & ->)]; injection E as <- <- <-; auto.
Qed.

Lemma do_must : forall a n s r n' s', must a n s = (r, n', s') -> exists r1, a n s = (r1, n', s') /\
  ((r1 = Threw /\ r = Ends DTerminate) \/ (r1 <> Threw /\ r = r1)).
Proof.
  intros a n s r n' s' E. unfold must in E. destruct (a n s) as ((r1, n1), s1).
  destruct r1; injection E as <- <- <-; eexists; (split; [reflexivity|]); [right|left|right]; split; auto; discriminate.
Qed.

Lemma result_live : forall o r n s n' s' out, d_end s' = None -> result o (r, n, s) = (n', s', out) ->
  n' = n /\ s' = s /\ ((r = Done /\ out = Some o) \/ (r = Threw /\ out = Some OThrew)).
Proof. intros o r n s n' s' out L E. destruct r; injection E as <- <- <-; auto. discriminate. Qed.

Lemma step_eff : forall n s a n' s' o, dstep mem n s a = (n', s', o) -> d_end s' = None -> eff s a o s'.
Proof.
  intros n s a n' s' o E L. unfold dstep in E. destruct (d_end s) eqn:L0; [injection E as <- <- <-; congruence|].
  destruct a as [m|m| |k| | |c|].
  - destruct (dlog mem m n s) as ((r, n1), s1) eqn:D. apply result_live in E; [|assumption]. destruct E as (-> & -> & R).
    unfold dlog in D. destruct (d_active s) eqn:A.
    + apply do_alloc in D. destruct D as [(-> & ->)|D].
      * destruct R as [(R & _)|(_ & ->)]; [discriminate|constructor].
      * apply do_send in D. destruct D as [(-> & ->)|(-> & ->)]; destruct R as [(R & ->)|(R & ->)]; try discriminate; now constructor.
    + apply do_alloc in D. destruct D as [(-> & ->)|D].
      * destruct R as [(R & _)|(_ & ->)]; [discriminate|constructor].
      * injection D as <- <- <-. destruct R as [(R & ->)|(R & ->)]; try discriminate; now constructor.
  - destruct (dfatal mem m n s) as ((r, n1), s1) eqn:D. apply result_live in E; [|assumption]. destruct E as (-> & -> & R).
    unfold dfatal in D. destruct (d_active s) eqn:A.
    + apply do_alloc in D. destruct D as [(-> & ->)|D].
      * destruct R as [(R & _)|(_ & ->)]; [discriminate|constructor].
      * apply do_send in D. destruct D as [(-> & ->)|(-> & ->)]; destruct R as [(R & ->)|(R & ->)]; try discriminate; now constructor.
    + apply do_alloc in D. destruct D as [(-> & ->)|D].
      * destruct R as [(R & _)|(_ & ->)]; [discriminate|constructor].
      * injection D as <- <- <-. destruct R as [(R & _)|(R & _)]; discriminate.
  - destruct (d_bg s) eqn:BG; [|injection E as <- <- <-; constructor].
    destruct (dadd mem (d_next s) n (u_next (S (d_next s)) s)) as ((r, n1), s1) eqn:D. apply result_live in E; [|assumption]. destruct E as (-> & -> & R).
    unfold dadd in D. set (s0 := u_next (S (d_next s)) s) in *.
    assert (T0 : r = Threw -> s1 = s0 -> eff s AAdd o s1).
    { intros -> ->. destruct R as [(R & _)|(_ & ->)]; [discriminate|]. rewrite <- (u_gones_nil s0). apply e_add_threw; auto. }
    do 2 (apply do_alloc in D; destruct D as [(T & D)|D]; [now apply T0|]).
    unfold andthen at 1 in D. destruct (must (alloc mem) _ s0) as ((r2, n2), s2) eqn:M. apply do_must in M.
    destruct M as (r3 & M & X). unfold alloc in M.
    assert (s2 = s0) by (now injection M). subst s2.
    destruct X as [(_ & ->)|(X & ->)]; [injection D as <- <- <-; destruct R as [(R & _)|(R & _)]; discriminate|].
    destruct r3; [|now elim X|injection M as M _; destruct (mem (S (S n))); discriminate]. clear M X.
    unfold andthen at 1 in D. destruct (owning mem (d_next s) _ n2 s0) as ((r2, n3), s2) eqn:O. apply do_owning in O.
    destruct O as (r1 & n4 & s3 & B & O).
    assert (S3 : (r1 = Threw /\ s3 = s0) \/ (r1 = Done /\ s3 = u_queue (d_queue s0 ++ [JAdd (d_next s) (d_next s)]) s0)).
    { apply do_alloc in B. destruct B as [|B]; [now left|]. now apply do_spawn in B. }
    destruct S3 as [(-> & ->)|(-> & ->)].
    + destruct O as [(_ & [->|(-> & ->)])|(O & _)]; [| |now elim O].
      * injection D as <- <- <-. destruct R as [(R & _)|(R & _)]; discriminate.
      * injection D as <- <- <-. destruct R as [(R & _)|(_ & ->)]; [discriminate|].
        change (u_gone (d_next s) s0) with (u_gones [d_next s] s0). apply e_add_threw; auto.
    + destruct O as [(O & _)|(_ & -> & ->)]; [discriminate|]. injection D as <- <- <-.
      destruct R as [(_ & ->)|(R & _)]; [|discriminate]. now apply e_add.
  - destruct (d_bg s) eqn:BG; [|injection E as <- <- <-; constructor].
    destruct (existsb (Nat.eqb k) (d_handles s)) eqn:H.
    2:{ injection E as <- <- <-. apply e_remove_null. now apply has_false. }
    apply has_true in H. destruct (dremove mem k (d_next s) n (u_next (S (d_next s)) s)) as ((r, n1), s1) eqn:D.
    apply result_live in E; [|assumption]. destruct E as (-> & -> & R).
    unfold dremove in D. unfold andthen at 1, upd at 1 in D. unfold andthen in D.
    destruct (dspawn mem _ n _) as ((r2, n2), s2) eqn:P. apply do_spawn in P. destruct P as [(-> & ->)|(-> & ->)];
      injection D as <- <- <-; destruct R as [(R & ->)|(R & ->)]; try discriminate; now constructor.
  - destruct (d_bg s) eqn:BG; [|injection E as <- <- <-; constructor].
    destruct (dall mem (d_next s) n (u_next (S (d_next s)) s)) as ((r, n1), s1) eqn:D.
    apply result_live in E; [|assumption]. destruct E as (-> & -> & R). unfold dall, andthen in D.
    destruct (dspawn mem _ n _) as ((r2, n2), s2) eqn:P. apply do_spawn in P. destruct P as [(-> & ->)|(-> & ->)];
      injection D as <- <- <-; destruct R as [(R & ->)|(R & ->)]; try discriminate; now constructor.
  - destruct (dying s) eqn:DY; [injection E as <- <- <-; constructor|].
    destruct (ddestroy mem (d_next s) n (u_next (S (d_next s)) s)) as ((r, n1), s1) eqn:D.
    apply result_live in E; [|assumption]. destruct E as (-> & -> & R).
    unfold ddestroy in D. unfold andthen at 1, upd at 1 in D. unfold andthen in D.
    destruct (must _ n _) as ((r2, n2), s2) eqn:M. apply do_must in M. destruct M as (r3 & P & X).
    apply do_spawn in P. destruct P as [(-> & ->)|(-> & ->)].
    + destruct X as [(_ & ->)|(X & _)]; [|now elim X]. injection D as <- <- <-. destruct R as [(R & _)|(R & _)]; discriminate.
    + destruct X as [(X & _)|(_ & ->)]; [discriminate|]. injection D as <- <- <-. destruct R as [(R & ->)|(R & ->)]; try discriminate. now constructor.
  - destruct (find_call c (d_calls s)) as [x|] eqn:F; [|injection E as <- <- <-; constructor].
    set (s0 := u_calls (drop_call c (d_calls s)) s) in *.
    assert (C : x = KJoin \/ x <> KJoin) by (destruct x; auto; right; discriminate). destruct C as [-> |NJ].
    + destruct (d_running s) eqn:RN; [injection E as <- <- <-; constructor|].
      destruct (ddestroy_end mem n s0) as ((r, n1), s1) eqn:D. apply result_live in E; [|assumption]. destruct E as (-> & -> & R).
      unfold ddestroy_end, andthen in D. destruct (destroy_all mem (only_owned s0) n s0) as ((r2, n2), s2) eqn:A. apply do_destroy_all in A.
      destruct A as [->|(-> & ->)]; injection D as <- <- <-; destruct R as [(R & ->)|(R & ->)]; try discriminate. now constructor.
    + assert (E' : (if existsb (Nat.eqb c) (d_ready s) then
                    match x with
                    | KAdd k => result OReturned (dadd_end mem k n s0)
                    | KDestroy => result OWaits (ddestroy_bg mem c n s0)
                    | _ => (n, s0, Some OReturned)
                    end
                  else (n, s, Some OWaits)) = (n', s', o)) by (destruct x; try exact E; now elim NJ).
      clear E. rename E' into E. destruct (existsb (Nat.eqb c) (d_ready s)) eqn:RD; [|injection E as <- <- <-; constructor].
      apply has_true in RD. destruct x as [k|k| | |]; [| | | |now elim NJ].
      * destruct (dadd_end mem k n s0) as ((r, n1), s1) eqn:D. apply result_live in E; [|assumption]. destruct E as (-> & -> & R).
        unfold dadd_end in D. destruct (existsb (Nat.eqb k) (d_sinks s0)) eqn:IN.
        -- apply has_true in IN. apply do_alloc in D. destruct D as [(-> & ->)|D].
           ++ destruct R as [(R & _)|(_ & ->)]; [discriminate|]. now apply (e_added_threw s c k).
           ++ injection D as <- <- <-. destruct R as [(_ & ->)|(R & _)]; [|discriminate]. now apply (e_added s c k).
        -- apply has_false in IN. unfold andthen at 1 in D. destruct (owning mem k (alloc mem) n s0) as ((r2, n2), s2) eqn:O.
           apply do_owning in O. destruct O as (r3 & n3 & s3 & A & O). unfold alloc in A.
           assert (s3 = s0) by (now injection A). subst s3.
           destruct O as [(-> & [->|(-> & ->)])|(NT & -> & ->)].
           ++ injection D as <- <- <-. destruct R as [(R & _)|(R & _)]; discriminate.
           ++ injection D as <- <- <-. destruct R as [(R & _)|(_ & ->)]; [discriminate|]. now apply (e_not_added_threw s c k).
           ++ destruct r3; [|now elim NT|injection A as A _; destruct (mem n); discriminate].
              unfold andthen in D. destruct (destroy_sink mem k n2 s0) as ((r4, n4), s4) eqn:X. apply do_destroy in X.
              destruct X as [(-> & ->)|(-> & ->)]; injection D as <- <- <-; destruct R as [(R & ->)|(R & ->)]; try discriminate.
              now apply (e_not_added s c k).
      * injection E as <- <- <-. apply (e_return s c (KRemove k)); eauto.
      * injection E as <- <- <-. apply (e_return s c KAll); eauto.
      * destruct (ddestroy_bg mem c n s0) as ((r, n1), s1) eqn:D. apply result_live in E; [|assumption]. destruct E as (-> & -> & R).
        unfold ddestroy_bg in D. unfold andthen at 1, upd at 1 in D. unfold andthen in D.
        destruct (must _ n _) as ((r2, n2), s2) eqn:M. apply do_must in M. destruct M as (r3 & P & X).
        apply do_send in P. destruct P as [(-> & ->)|(-> & ->)].
        -- destruct X as [(_ & ->)|(X & _)]; [|now elim X]. injection D as <- <- <-. destruct R as [(R & _)|(R & _)]; discriminate.
        -- destruct X as [(X & _)|(_ & ->)]; [discriminate|]. injection D as <- <- <-. destruct R as [(R & ->)|(R & ->)]; try discriminate. now apply e_bg.
  - destruct (dwork mem n s) as ((r, n1), s1) eqn:D. apply result_live in E; [|assumption]. destruct E as (-> & -> & R).
    unfold dwork in D. destruct (d_running s) eqn:RN.
    2:{ injection D as <- <- <-. destruct R as [(_ & ->)|(R & _)]; [|discriminate]. apply e_idle. now left. }
    destruct (d_queue s) as [|j q] eqn:Q.
    { injection D as <- <- <-. destruct R as [(_ & ->)|(R & _)]; [|discriminate]. apply e_idle. now right. }
    unfold andthen at 1, upd at 1 in D. apply do_must in D. destruct D as (r1 & D & X).
    assert (r1 = Done).
    { destruct X as [(-> & ->)|(X & <-)]; [destruct R as [(R & _)|(R & _)]; discriminate|].
      destruct R as [(-> & _)|(-> & _)]; [reflexivity|now elim X]. }
    subst r1. assert (o = Some OReturned).
    { destruct X as [(X & _)|(_ & ->)]; [discriminate|]. destruct R as [(_ & ->)|(R & _)]; [reflexivity|discriminate]. }
    subst o. clear X R r. set (s0 := u_queue q s) in *. unfold djob_run in D. destruct j as [m|m|k c|k c|c|].
    + unfold andthen at 1, upd at 1 in D. unfold andthen in D.
      destruct (to_sinks mem (d_sinks s0) m n (u_taken m s0)) as ((r2, n2), s2) eqn:T. apply do_to_sinks in T.
      destruct T as (l1 & _ & -> & [->|(-> & ->)]); [discriminate|].
      assert (s1 = u_gots (map (fun k => (k, m)) (d_sinks s0)) (u_taken m s0)).
      { destruct (d_sinks s0); [|now injection D as _ <-].
        unfold alloc in D. destruct (mem n2); [|discriminate]. now injection D as _ _ <-. }
      subst s1. exact (e_save s m q RN Q).
    + exfalso. unfold andthen at 1, upd at 1 in D.
      do 5 (apply do_alloc in D; destruct D as [(D & _)|D]; [discriminate|]). unfold andthen in D.
      destruct (to_sinks mem _ m _ _) as ((r2, n2), s2). destruct r2; try discriminate.
      destruct (destroy_all mem _ _ _) as ((r3, n3), s3). destruct r3; discriminate.
    + destruct ((alloc mem ;; upd (fun s => u_sinks (d_sinks s ++ [k]) s)) n s0) as ((r2, n2), s2) eqn:A. injection D as <- <-.
      apply do_alloc in A. destruct A as [(-> & ->)|A]; [now apply (e_push_fails s k c q)|]. injection A as <- <- <-. now apply (e_push s k c q).
    + destruct (existsb (Nat.eqb k) (d_sinks s0)) eqn:IN.
      * unfold andthen at 1, upd at 1 in D. unfold andthen in D. destruct (held s0 k) eqn:H.
        -- unfold skip in D. injection D as <- <-.
           rewrite <- (u_gones_nil (u_sinks _ s0)). apply (e_erase s k c q []); auto. intros _ H'. unfold held in *. cbn in H. congruence.
        -- destruct (destroy_sink mem k n _) as ((r2, n2), s2) eqn:X. apply do_destroy in X. destruct X as [(-> & _)|(-> & ->)]; [discriminate|].
           injection D as <- <-. apply (e_erase s k c q [k]); auto.
      * apply has_false in IN. injection D as <- <-.
        assert (W : s0 = u_gones [] (u_sinks (remove Nat.eq_dec k (d_sinks s)) s0)).
        { rewrite u_gones_nil. change (d_sinks s0) with (d_sinks s) in IN. rewrite (remove_none _ _ IN). now destruct s. }
        rewrite W. apply (e_erase s k c q []); auto. intro. contradiction.
    + unfold andthen at 1, upd at 1 in D. unfold andthen in D. destruct (destroy_all mem _ n _) as ((r2, n2), s2) eqn:A. apply do_destroy_all in A.
      destruct A as [->|(-> & ->)]; [discriminate|]. injection D as <- <-. now apply (e_clear s c q).
    + injection D as <- <-. now apply (e_stop s q).
Qed.

(** ** the invariant *)
End S.

Definition jid (j : djob) : list nat := match j with JAdd _ c => [c] | JRemove _ c => [c] | JClear c => [c] | _ => [] end.
Definition jids (q : list djob) : list nat := flat_map jid q.

(** addSink has come to its end for this sink, and it is registered or destroyed *)
Definition settled (s : dst) (k : nat) : Prop := k < d_next s /\ ~ In (k, KAdd k) (d_calls s) /\ (In k (d_sinks s) \/ In k (d_gone s)).

Record Inv (s : dst) : Prop := mkInv {
  i_ids : NoDup (jids (d_queue s));
  i_fresh : forall c, In c (jids (d_queue s)) -> ~ In c (d_ready s) /\ c < d_next s;
  i_ready : forall c, In c (d_ready s) -> c < d_next s;
  i_calls : NoDup (map fst (d_calls s));
  i_calls_lt : forall c, In c (map fst (d_calls s)) -> c < d_next s;
  i_call_add : forall c k, In (c, KAdd k) (d_calls s) -> c = k;
  i_job_add : forall k c, In (JAdd k c) (d_queue s) -> c = k /\ In (k, KAdd k) (d_calls s);
  i_job_remove : forall k c, In (JRemove k c) (d_queue s) -> In (c, KRemove k) (d_calls s);
  i_job_clear : forall c, In (JClear c) (d_queue s) -> In (c, KAll) (d_calls s) \/ In (c, KDestroy) (d_calls s);
  i_nodup : NoDup (d_sinks s);
  i_sinks : forall k, In k (d_sinks s) -> k < d_next s /\ ~ In (JAdd k k) (d_queue s);
  i_handles : forall k, In k (d_handles s) -> settled s k;
  i_removes : forall c k, In (c, KRemove k) (d_calls s) -> settled s k;
  i_bg : if d_bg s then d_running s = true /\ ~ In JStop (d_queue s)
         else d_active s = false /\ (if d_running s then exists q, d_queue s = q ++ [JStop] /\ ~ In JStop q else d_queue s = []);
  i_destroy : forall c, In (c, KDestroy) (d_calls s) -> d_active s = false /\ d_bg s = true /\ forall i, In (i, KDestroy) (d_calls s) -> i = c;
  i_join : forall c, In (c, KJoin) (d_calls s) -> d_bg s = false
}.

Lemma Inv_start : Inv d_start.
Proof. constructor; cbn; try constructor; try contradiction; auto. Qed.

Lemma jids_app : forall a b, jids (a ++ b) = jids a ++ jids b.
Proof. intros. apply flat_map_app. Qed.
Lemma in_jids : forall c q, In c (jids q) <-> exists j, In j q /\ In c (jid j).
Proof. intros. unfold jids. apply in_flat_map. Qed.
Lemma in_drop : forall c p l, In p (drop_call c l) <-> In p l /\ fst p <> c.
Proof. intros. unfold drop_call. rewrite filter_In, negb_true_iff, Nat.eqb_neq. reflexivity. Qed.
Lemma found : forall c l x, find_call c l = Some x -> In (c, x) l.
Proof.
  induction l as [|(i, y) l IH]; cbn [find_call]; intros x E; [discriminate|]. destruct (Nat.eqb_spec i c).
  - injection E as ->. subst. now left.
  - right. auto.
Qed.
Lemma NoDup_snoc : forall (l : list nat) x, NoDup l -> ~ In x l -> NoDup (l ++ [x]).
Proof.
  induction l as [|a l IH]; cbn; intros x N H; [repeat constructor; auto|]. apply NoDup_cons_iff in N. destruct N as (NI & N).
  constructor; [|auto]. rewrite in_app_iff. cbn. intros [|[|[]]]; subst; auto.
Qed.
Lemma drop_nodup : forall c (l : list (nat * dcall)), NoDup (map fst l) -> NoDup (map fst (drop_call c l)).
Proof.
  induction l as [|(i, z) l IH]; cbn; intros N; [constructor|]. apply NoDup_cons_iff in N. destruct N as (NI & N).
  destruct (Nat.eqb i c); cbn; [auto|]. constructor; [|auto]. intro H. apply NI. apply in_map_iff in H. destruct H as (p & E & P).
  apply in_drop in P. apply in_map_iff. exists p. tauto.
Qed.
Lemma drop_fst : forall c l i, In i (map fst (drop_call c l)) -> In i (map fst l) /\ i <> c.
Proof.
  intros c l i H. apply in_map_iff in H. destruct H as (p & <- & P). apply in_drop in P. split; [|tauto].
  apply in_map_iff. exists p. tauto.
Qed.
Lemma held_in : forall s k, held s k = true -> exists c, In (c, KAdd k) (d_calls s).
Proof.
  intros s k H. unfold held in H. apply existsb_exists in H. destruct H as ((c, x) & I & E). cbn in E. destruct x; try discriminate.
  apply Nat.eqb_eq in E. subst. eauto.
Qed.
Lemma not_held : forall s k, Inv s -> ~ In (k, KAdd k) (d_calls s) -> held s k = false.
Proof.
  intros s k I H. destruct (held s k) eqn:E; [|reflexivity]. apply held_in in E. destruct E as (c & E).
  pose proof (i_call_add s I c k E). subst. contradiction.
Qed.
Lemma jid_ready : forall s j c, Inv s -> In j (d_queue s) -> In c (jid j) -> ~ In c (d_ready s).
Proof. intros s j c I J C. apply (i_fresh s I c). apply in_jids. eauto. Qed.

Ltac flds := cbn [waits u_active u_bg u_running u_queue u_sinks u_handles u_next u_calls u_ready u_taken u_got u_gone u_gones u_gots
  d_active d_bg d_running d_queue d_sinks d_handles d_next d_calls d_ready d_taken d_got d_gone d_end] in *.
Ltac snoc H := apply in_app_iff in H; cbn [In] in H; destruct H as [H|[H|[]]].

(** adding a job that no call waits for *)
Lemma Inv_push : forall s j, Inv s -> jid j = [] -> j <> JStop -> d_bg s = true -> Inv (u_queue (d_queue s ++ [j]) s).
Proof.
  intros s j I J NS BG.
  assert (Q : forall x, In x (d_queue s ++ [j]) -> jid x <> [] -> In x (d_queue s)).
  { intros x H N. snoc H; [assumption|]. subst. now elim N. }
  assert (JI : jids (d_queue s ++ [j]) = jids (d_queue s)).
  { rewrite jids_app. unfold jids at 2. cbn. now rewrite J, !app_nil_r. }
  constructor; flds; try rewrite JI; try apply I.
  - intros k c H. apply (i_job_add s I). apply Q; [exact H|discriminate].
  - intros k c H. apply (i_job_remove s I). apply Q; [exact H|discriminate].
  - intros c H. apply (i_job_clear s I). apply Q; [exact H|discriminate].
  - intros k H. split; [apply (i_sinks s I k H)|]. intro A. apply (proj2 (i_sinks s I k H)). apply Q; [exact A|discriminate].
  - pose proof (i_bg s I) as B. rewrite BG in *. split; [apply B|]. intro A. snoc A; [now apply B|]. now subst.
Qed.

Lemma settled_mono : forall s s' k, settled s k -> d_next s <= d_next s' ->
  (In (k, KAdd k) (d_calls s') -> In (k, KAdd k) (d_calls s) \/ d_next s <= k) ->
  (In k (d_sinks s) -> In k (d_sinks s') \/ In k (d_gone s')) -> (In k (d_gone s) -> In k (d_gone s')) -> settled s' k.
Proof. intros s s' k (A & B & C) N K S G. split; [lia|]. split; [intro H; destruct (K H); [auto|lia]|]. destruct C; auto. Qed.

(** adding a job with the call that waits for it *)
Lemma Inv_call : forall s j x h a, Inv s -> d_bg s = true -> jid j = [d_next s] ->
  (forall k, In k h -> In k (d_handles s)) -> (a = d_active s \/ a = false) ->
  match j, x with
  | JAdd k c, KAdd i => k = i /\ k = c
  | JRemove k c, KRemove i => k = i /\ settled s k
  | JClear c, KAll => True
  | JClear c, KDestroy => a = false /\ forall i, ~ In (i, KDestroy) (d_calls s)
  | _, _ => False
  end ->
  Inv (waits (d_next s) x (u_queue (d_queue s ++ [j]) (u_active a (u_handles h (u_next (S (d_next s)) s))))).
Proof.
  intros s j x h a I BG J HH AA X.
  assert (NX : ~ In (d_next s) (jids (d_queue s))) by (intro H; apply (i_fresh s I) in H; lia).
  assert (NC : ~ In (d_next s) (map fst (d_calls s))) by (intro H; apply (i_calls_lt s I) in H; lia).
  assert (JI : jids (d_queue s ++ [j]) = jids (d_queue s) ++ [d_next s]).
  { rewrite jids_app. unfold jids at 2. cbn. now rewrite J, app_nil_r. }
  assert (ST : forall k, settled s k -> settled (waits (d_next s) x (u_queue (d_queue s ++ [j]) (u_active a (u_handles h (u_next (S (d_next s)) s))))) k).
  { intros k H. eapply settled_mono; [exact H|flds; lia| |flds; auto|flds; auto]. flds. intro A. snoc A; [now left|]. injection A as A _. right. lia. }
  constructor; flds; rewrite ?JI.
  - apply NoDup_snoc; [apply I|assumption].
  - intros c H. snoc H.
    + apply (i_fresh s I) in H. split; [tauto|lia].
    + subst c. split; [|lia]. intro H. apply (i_ready s I) in H. lia.
  - intros c H. apply (i_ready s I) in H. lia.
  - rewrite map_app. apply NoDup_snoc; [apply I|assumption].
  - rewrite map_app. intros c H. snoc H; [apply (i_calls_lt s I) in H; lia|subst; cbn; lia].
  - intros c k H. snoc H; [now apply (i_call_add s I)|]. injection H as <- ->. destruct j; try contradiction. cbn in J. injection J as J. destruct X as (-> & ->). auto.
  - intros k c H. snoc H.
    + apply (i_job_add s I) in H. destruct H as (-> & H). split; [reflexivity|]. apply in_app_iff. now left.
    + subst j. cbn in J. injection J as ->. destruct x; try contradiction. destruct X as (-> & ->). split; [reflexivity|]. apply in_app_iff. right. now left.
  - intros k c H. snoc H.
    + apply (i_job_remove s I) in H. apply in_app_iff. now left.
    + subst j. cbn in J. injection J as ->. destruct x; try contradiction. destruct X as (-> & _). apply in_app_iff. right. now left.
  - intros c H. snoc H.
    + apply (i_job_clear s I) in H. rewrite !in_app_iff. tauto.
    + subst j. cbn in J. injection J as ->. rewrite !in_app_iff. destruct x; try contradiction; [left|right]; right; now left.
  - apply I.
  - intros k H. pose proof (i_sinks s I k H) as (L & N). split; [lia|]. intro A. snoc A; [contradiction|]. subst j. cbn in J. injection J as ->. lia.
  - intros k H. apply ST. apply (i_handles s I). auto.
  - intros c k H. apply ST. snoc H; [now apply (i_removes s I c)|]. injection H as <- ->. destruct j; try contradiction. destruct X as (-> & X). exact X.
  - pose proof (i_bg s I) as B. rewrite BG in *. split; [apply B|]. intro A. snoc A; [now apply B|]. subst. discriminate.
  - intros c H. snoc H.
    + pose proof H as H0. apply (i_destroy s I) in H. destruct H as (HA & _ & HU). split; [destruct AA as [-> | ->]; auto|]. split; [assumption|].
      intros i A. snoc A; [auto|]. injection A as <- ->. destruct j; try contradiction. destruct X as (_ & X). now elim (X c).
    + injection H as <- ->. destruct j; try contradiction. destruct X as (-> & X). split; [reflexivity|]. split; [assumption|].
      intros i A. snoc A; [now elim (X i)|]. now injection A as <-.
  - intros c H. snoc H; [now apply (i_join s I) in H|]. injection H as <- ->. destruct j; contradiction.
Qed.

(** a call comes to its end *)
Lemma Inv_drop : forall s c, Inv s -> ~ In c (jids (d_queue s)) -> Inv (u_calls (drop_call c (d_calls s)) s).
Proof.
  intros s c I NC.
  assert (NJ : forall j i, In j (d_queue s) -> In i (jid j) -> i <> c) by (intros j i A B ->; apply NC; apply in_jids; eauto).
  assert (ST : forall k, settled s k -> settled (u_calls (drop_call c (d_calls s)) s) k).
  { intros k H. eapply settled_mono; [exact H|flds; lia| |flds; auto|flds; auto]. flds. intro A. apply in_drop in A. tauto. }
  constructor; flds; try apply I.
  - apply drop_nodup, I.
  - intros i H. apply drop_fst in H. now apply (i_calls_lt s I).
  - intros i k H. apply in_drop in H. now apply (i_call_add s I).
  - intros k i H. pose proof (i_job_add s I k i H) as (-> & A). split; [reflexivity|]. apply in_drop. split; [assumption|]. cbn. eapply NJ; [exact H|cbn; auto].
  - intros k i H. apply in_drop. split; [now apply (i_job_remove s I)|]. cbn. eapply NJ; [exact H|cbn; auto].
  - intros i H. rewrite !in_drop. assert (i <> c) by (eapply NJ; [exact H|cbn; auto]). apply (i_job_clear s I) in H. cbn. tauto.
  - intros k H. apply ST. now apply (i_handles s I).
  - intros i k H. apply ST. apply in_drop in H. now apply (i_removes s I i).
  - intros i H. apply in_drop in H. destruct H as (H & _). apply (i_destroy s I) in H. destruct H as (A & B & C).
    split; [assumption|]. split; [assumption|]. intros i' H. apply in_drop in H. apply C, H.
  - intros i H. apply in_drop in H. now apply (i_join s I i).
Qed.

(** the worker takes a job from the queue; sinks, ready and gone change *)
Lemma Inv_take : forall s j q l g, Inv s -> d_queue s = j :: q -> j <> JStop ->
  NoDup l -> (forall k, In k l -> In k (d_sinks s) \/ In (JAdd k k) [j]) ->
  (forall k, In k (d_sinks s) -> ~ In (k, KAdd k) (d_calls s) -> In k l \/ In k g) ->
  forall r, r = d_ready s ++ jid j ->
  forall t o, Inv (mkD (d_active s) (d_bg s) (d_running s) q l (d_handles s) (d_next s) (d_calls s) r t o (d_gone s ++ g) (d_end s)).
Proof.
  intros s j q l g I Q NS ND HL HG r -> t o.
  pose proof (i_ids s I) as N. rewrite Q in N. unfold jids in N. cbn [flat_map] in N. fold (jids q) in N.
  assert (IQ : forall x, In x q -> In x (d_queue s)) by (intros x H; rewrite Q; now right).
  assert (JQ : forall c, In c (jids q) -> In c (jids (d_queue s))) by (intros c H; rewrite Q; unfold jids; cbn [flat_map]; apply in_app_iff; now right).
  assert (DJ : forall c, In c (jids q) -> ~ In c (jid j)).
  { intros c A B. clear -N A B. revert N B. generalize (jid j). intros l N B. induction l as [|y l IH]; [contradiction|].
    cbn in N. apply NoDup_cons_iff in N. destruct N as (N1 & N2). destruct B as [->|B]; [apply N1; apply in_app_iff; now right|auto]. }
  assert (ST : forall k, settled s k -> settled (mkD (d_active s) (d_bg s) (d_running s) q l (d_handles s) (d_next s) (d_calls s) (d_ready s ++ jid j) t o (d_gone s ++ g) (d_end s)) k).
  { intros k (A & B & C). split; [exact A|]. split; [exact B|]. flds. rewrite in_app_iff. destruct C as [C|C]; [|tauto].
    destruct (HG k C B); tauto. }
  constructor; flds; try apply I.
  - clear -N. revert N. generalize (jid j). induction l as [|y l IH]; cbn; intro N; [assumption|]. apply NoDup_cons_iff in N. now apply IH.
  - intros c H. pose proof (i_fresh s I c (JQ c H)) as (A & B). split; [|assumption]. rewrite in_app_iff. intros [C|C]; [auto|now apply (DJ c)].
  - intros c H. apply in_app_iff in H. destruct H as [H|H]; [now apply (i_ready s I)|]. apply (i_fresh s I). rewrite Q. unfold jids. cbn [flat_map]. apply in_app_iff. now left.
  - intros k c H. apply (i_job_add s I). auto.
  - intros k c H. apply (i_job_remove s I). auto.
  - intros c H. apply (i_job_clear s I). auto.
  - exact ND.
  - intros k H. destruct (HL k H) as [A|[->|[]]].
    + pose proof (i_sinks s I k A) as (B & C). split; [assumption|]. auto.
    + assert (In (JAdd k k) (d_queue s)) by (rewrite Q; now left). split.
      * apply (i_fresh s I). apply in_jids. exists (JAdd k k). split; [assumption|]. now left.
      * intro C. apply (DJ k); [|now left]. apply in_jids. exists (JAdd k k). split; [assumption|]. now left.
  - intros k H. apply ST. now apply (i_handles s I).
  - intros c k H. apply ST. now apply (i_removes s I c).
  - pose proof (i_bg s I) as B. destruct (d_bg s); [split; [apply B|]; intro H; apply (proj2 B), IQ, H|].
    split; [apply B|]. destruct B as (_ & B). destruct (d_running s).
    + destruct B as (q' & E & NQ). rewrite Q in E. destruct q' as [|y q']; [injection E as -> _; now elim NS|].
      injection E as -> ->. exists q'. split; [reflexivity|]. intro. apply NQ. now right.
    + rewrite Q in B. discriminate.
Qed.

Lemma only_owned_in : forall s k, In k (d_sinks s) -> ~ In (k, KAdd k) (d_calls s) -> Inv s -> In k (only_owned s).
Proof. intros s k A B I. unfold only_owned. apply filter_In. split; [assumption|]. now rewrite (not_held s k I B). Qed.

Lemma active_bg : forall s, Inv s -> d_active s = true -> d_bg s = true.
Proof. intros s I A. pose proof (i_bg s I) as B. destruct (d_bg s); [reflexivity|]. destruct B; congruence. Qed.

Lemma Inv_next : forall s g, Inv s -> Inv (u_gones g (u_next (S (d_next s)) s)).
Proof.
  intros s g I.
  assert (ST : forall k, settled s k -> settled (u_gones g (u_next (S (d_next s)) s)) k).
  { intros k H. eapply settled_mono; [exact H|flds; lia|flds; auto|flds; auto|flds]. intro. apply in_app_iff. now left. }
  constructor; flds; try apply I.
  - intros c H. apply (i_fresh s I) in H. split; [tauto|lia].
  - intros c H. apply (i_ready s I) in H. lia.
  - intros c H. apply (i_calls_lt s I) in H. lia.
  - intros k H. apply (i_sinks s I) in H. split; [lia|tauto].
  - intros k H. apply ST. now apply (i_handles s I).
  - intros c k H. apply ST. now apply (i_removes s I c).
Qed.
Lemma Inv_handles : forall s h, Inv s -> (forall k, In k h -> settled s k) -> Inv (u_handles h s).
Proof. intros s h I H. constructor; flds; try apply I. exact H. Qed.
Lemma Inv_gone : forall s g, Inv s -> Inv (u_gones g s).
Proof.
  intros s g I. assert (ST : forall k, settled s k -> settled (u_gones g s) k).
  { intros k H. eapply settled_mono; [exact H|flds; lia|flds; auto|flds; auto|flds]. intro. apply in_app_iff. now left. }
  constructor; flds; try apply I.
  - intros k H. apply ST. now apply (i_handles s I).
  - intros c k H. apply ST. now apply (i_removes s I c).
Qed.

Lemma drop_settled : forall s c k, find_call c (d_calls s) = Some (KAdd k) -> Inv s -> c = k /\ k < d_next s /\ ~ In (k, KAdd k) (drop_call c (d_calls s)).
Proof.
  intros s c k F I. apply found in F. pose proof (i_call_add s I c k F). subst c. split; [reflexivity|]. split.
  - apply (i_calls_lt s I). apply in_map_iff. exists (k, KAdd k). auto.
  - intro H. apply in_drop in H. now destruct H.
Qed.

Lemma NoDup_remove_eq : forall k l, NoDup l -> NoDup (remove Nat.eq_dec k l).
Proof.
  induction l as [|i l IH]; cbn; intro N; [constructor|]. apply NoDup_cons_iff in N. destruct N as (NI & N).
  destruct (Nat.eq_dec k i); [auto|]. constructor; [|auto]. intro H. apply in_remove in H. tauto.
Qed.

Lemma Inv_eff : forall s a o s', Inv s -> eff s a o s' -> Inv s'.
Proof.
  intros s a o s' I E. destruct E as [m|m A|m A|m|m A|a|c|A|g BG G|BG|k NH|k BG H|k BG H|BG|BG|DY|c k F R IN|c k F R IN|c k F R IN|c k F R IN|c x F X R|c F R|c F RN|m q RN Q|k c q RN Q|k c q RN Q|k c q g RN Q G|c q RN Q|q RN Q]; try exact I.
  - apply Inv_push; auto; [discriminate|now apply active_bg].
  - apply Inv_push; auto; [discriminate|now apply active_bg].
  - now apply Inv_next.
  - pose proof (Inv_call s (JAdd (d_next s) (d_next s)) (KAdd (d_next s)) (d_handles s) (d_active s) I BG eq_refl (fun k H => H) (or_introl eq_refl) (conj eq_refl eq_refl)) as H.
    destruct s; exact H.
  - apply Inv_handles with (h := remove Nat.eq_dec k (d_handles s)) (s := u_next (S (d_next s)) s).
    + pose proof (Inv_next s [] I) as J. rewrite u_gones_nil in J. exact J.
    + intros i J. apply in_remove in J. destruct J as (J & _). apply (i_handles s I) in J. eapply settled_mono; [exact J|flds; lia|flds; auto..].
  - pose proof (Inv_call s (JRemove k (d_next s)) (KRemove k) (remove Nat.eq_dec k (d_handles s)) (d_active s) I BG eq_refl) as J.
    destruct s; apply J; auto.
    + intros i P. now apply in_remove in P.
    + split; [reflexivity|]. now apply (i_handles _ I).
  - pose proof (Inv_next s [] I) as J. rewrite u_gones_nil in J. exact J.
  - pose proof (Inv_call s (JClear (d_next s)) KAll (d_handles s) (d_active s) I BG eq_refl (fun k H => H) (or_introl eq_refl) Logic.I) as H.
    destruct s; exact H.
  - unfold dying in DY. apply orb_false_iff in DY. destruct DY as (BG & ND). apply negb_false_iff in BG.
    assert (ND' : forall i, ~ In (i, KDestroy) (d_calls s)).
    { intros i H. assert (T : existsb (fun p => match snd p with KDestroy | KJoin => true | _ => false end) (d_calls s) = true)
        by (apply existsb_exists; exists (i, KDestroy); auto). congruence. }
    pose proof (Inv_call s (JClear (d_next s)) KDestroy (d_handles s) false I BG eq_refl (fun k H => H) (or_intror eq_refl) (conj eq_refl ND')) as H.
    destruct s; exact H.
  - pose proof (drop_settled s c k F I) as (-> & L & N). apply Inv_handles.
    + apply Inv_drop; [assumption|]. intro H. apply (i_fresh s I) in H. tauto.
    + assert (I2 : Inv (u_calls (drop_call k (d_calls s)) s)) by (apply Inv_drop; [assumption|]; intro H; apply (i_fresh s I) in H; tauto).
      intros i H. snoc H; [now apply (i_handles _ I2)|]. subst i. split; [exact L|]. split; [exact N|now left].
  - apply Inv_drop; [assumption|]. intro H. apply (i_fresh s I) in H. tauto.
  - pose proof (drop_settled s c k F I) as (-> & L & N).
    assert (I2 : Inv (u_gone k (u_calls (drop_call k (d_calls s)) s))).
    { apply (Inv_gone _ [k]). apply Inv_drop; [assumption|]. intro H. apply (i_fresh s I) in H. tauto. }
    apply Inv_handles; [exact I2|].
    intros i H. snoc H; [now apply (i_handles _ I2)|]. subst i. split; [exact L|]. split; [exact N|]. right. flds. apply in_app_iff. right. now left.
  - apply (Inv_gone _ [k]). apply Inv_drop; [assumption|]. intro H. apply (i_fresh s I) in H. tauto.
  - apply Inv_drop; [assumption|]. intro H. apply (i_fresh s I) in H. tauto.
  - assert (I2 : Inv (u_calls (drop_call c (d_calls s)) s)) by (apply Inv_drop; [assumption|]; intro H; apply (i_fresh s I) in H; tauto).
    apply found in F. pose proof (i_destroy s I c F) as (A & BG & U). pose proof (i_bg s I) as B. rewrite BG in B. destruct B as (RN & NS).
    assert (LT : c < d_next s) by (apply (i_calls_lt s I), in_map_iff; exists (c, KDestroy); auto).
    assert (ND : forall i, ~ In (i, KDestroy) (drop_call c (d_calls s))).
    { intros i H. apply in_drop in H. destruct H as (H & NE). apply NE. cbn. now apply U. }
    assert (JI : jids (d_queue s ++ [JStop]) = jids (d_queue s)) by (rewrite jids_app; apply app_nil_r).
    assert (Q : forall x, In x (d_queue s ++ [JStop]) -> x <> JStop -> In x (d_queue s)) by (intros x H N; snoc H; [assumption|congruence]).
    set (s2 := u_calls (drop_call c (d_calls s)) s) in *.
    assert (ST : forall k, settled s2 k -> settled (waits c KJoin (u_queue (d_queue s ++ [JStop]) (u_bg false s2))) k).
    { intros k H. eapply settled_mono; [exact H|flds; lia| |flds; auto|flds; auto]. flds. intro P. snoc P; [now left|discriminate]. }
    constructor; flds; rewrite ?JI; try apply I2.
    + rewrite map_app. apply NoDup_snoc; [apply I2|]. cbn. intro H. apply drop_fst in H. now destruct H.
    + rewrite map_app. intros i H. snoc H; [now apply (i_calls_lt s2 I2)|]. cbn in H. now subst.
    + intros i k H. snoc H; [now apply (i_call_add s2 I2)|discriminate].
    + intros k i H. apply Q in H; [|discriminate]. apply (i_job_add s2 I2) in H. destruct H as (-> & H). split; [reflexivity|]. apply in_app_iff. now left.
    + intros k i H. apply Q in H; [|discriminate]. apply (i_job_remove s2 I2) in H. apply in_app_iff. now left.
    + intros i H. apply Q in H; [|discriminate]. apply (i_job_clear s2 I2) in H. rewrite !in_app_iff. tauto.
    + intros k H. pose proof (i_sinks s2 I2 k H) as (L & N). split; [assumption|]. intro P. apply Q in P; [|discriminate]. contradiction.
    + intros k H. apply ST. now apply (i_handles s2 I2).
    + intros i k H. apply ST. snoc H; [now apply (i_removes s2 I2 i)|discriminate].
    + subst s2. flds. split; [assumption|]. rewrite RN. exists (d_queue s). auto.
    + intros i H. snoc H; [now elim (ND i)|discriminate].
    + reflexivity.
  - pose proof (i_join s I c (found _ _ _ F)) as BG. pose proof (i_bg s I) as B. rewrite BG, RN in B. destruct B as (A & Q).
    assert (I2 : Inv (u_calls (drop_call c (d_calls s)) s)) by (apply Inv_drop; [assumption|]; rewrite Q; auto).
    set (s2 := u_calls (drop_call c (d_calls s)) s) in *.
    assert (ST : forall k, settled s2 k -> settled (u_sinks [] (u_gones (only_owned s2) s2)) k).
    { intros k (X & Y & Z). split; [exact X|]. split; [exact Y|]. right. flds. apply in_app_iff. destruct Z as [Z|Z]; [right|now left].
      apply only_owned_in; assumption. }
    constructor; flds; try apply I2.
    + constructor.
    + intros k [].
    + intros k H. apply ST. now apply (i_handles s2 I2).
    + intros i k H. apply ST. now apply (i_removes s2 I2 i).
  - pose proof (Inv_take s (JSave m) q (d_sinks s) [] I Q ltac:(discriminate) (i_nodup s I) (fun k H => or_introl H) (fun k H _ => or_introl H) _ eq_refl) as H.
    cbn [jid] in H. rewrite !app_nil_r in H. apply H.
  - pose proof (i_job_add s I k c) as J. rewrite Q in J. specialize (J (or_introl eq_refl)). destruct J as (-> & J).
    pose proof (Inv_take s (JAdd k k) q (d_sinks s ++ [k]) [] I Q ltac:(discriminate)) as H. rewrite app_nil_r in H. apply H; auto.
    + apply NoDup_snoc; [apply I|]. intro P. apply (i_sinks s I) in P. apply P. rewrite Q. now left.
    + intros i P. snoc P; [now left|]. subst. right. now left.
    + intros i P _. left. apply in_app_iff. now left.
  - pose proof (i_job_add s I k c) as J. rewrite Q in J. specialize (J (or_introl eq_refl)). destruct J as (-> & J).
    pose proof (Inv_take s (JAdd k k) q (d_sinks s) [] I Q ltac:(discriminate)) as H. rewrite app_nil_r in H. apply H; auto. apply I.
  - apply (Inv_take s (JRemove k c) q (remove Nat.eq_dec k (d_sinks s)) g I Q); auto; [discriminate| | |].
    + apply NoDup_remove_eq. apply I.
    + intros i P. apply in_remove in P. now left.
    + intros i P N. destruct (Nat.eq_dec i k) as [-> |NE].
      * right. rewrite G; [now left|assumption|]. now apply not_held.
      * left. now apply in_in_remove.
  - apply (Inv_take s (JClear c) q [] (only_owned s) I Q); auto; [discriminate|constructor|intros k []|].
    intros k P N. right. now apply only_owned_in.
  - pose proof (i_bg s I) as B. destruct (d_bg s) eqn:BG.
    + elim (proj2 B). rewrite Q. now left.
    + rewrite RN in B. destruct B as (A & q' & E & NQ). rewrite Q in E. destruct q' as [|y q']; [|injection E as <- _; elim NQ; now left].
      injection E as ->.
      constructor; flds; try apply I; try (now intros ? []); try (now intros ? ? []); try exact A.
      * constructor.
      * intros k H. split; [now apply (i_sinks s I)|intros []].
      * rewrite BG. split; [assumption|reflexivity].
Qed.

(** ** runs *)
Section R.
Variable mem : nat -> bool.
Lemma step_live : forall n s a n' s' o, dstep mem n s a = (n', s', o) -> d_end s' = None -> d_end s = None.
Proof. intros n s a n' s' o E L. unfold dstep in E. destruct (d_end s) eqn:X; [|reflexivity]. injection E as <- <- <-. congruence. Qed.
Lemma run_live : forall acts n s n' s' l, drun mem n s acts = (n', s', l) -> d_end s' = None -> d_end s = None.
Proof.
  induction acts as [|a r IH]; cbn [drun]; intros n s n' s' l E L; [now injection E as <- <- <-|].
  destruct (dstep mem n s a) as ((n1, s1), o) eqn:S1. destruct (drun mem n1 s1 r) as ((n2, s2), l2) eqn:R2. injection E as <- <- <-.
  eapply step_live; [exact S1|]. eapply IH; eassumption.
Qed.
Lemma run_Inv : forall acts n s n' s' l, Inv s -> drun mem n s acts = (n', s', l) -> d_end s' = None -> Inv s'.
Proof.
  induction acts as [|a r IH]; cbn [drun]; intros n s n' s' l I E L; [now injection E as <- <- <-|].
  destruct (dstep mem n s a) as ((n1, s1), o) eqn:S1. destruct (drun mem n1 s1 r) as ((n2, s2), l2) eqn:R2. injection E as <- <- <-.
  eapply IH; [|exact R2|exact L]. eapply Inv_eff; [exact I|]. eapply step_eff; [exact S1|]. eapply run_live; eassumption.
Qed.
Lemma run_keeps : forall (P : dst -> Prop), (forall s a o s', Inv s -> P s -> eff s a o s' -> P s') ->
  forall acts n s n' s' l, Inv s -> P s -> drun mem n s acts = (n', s', l) -> d_end s' = None -> P s'.
Proof.
  intros P H. induction acts as [|a r IH]; cbn [drun]; intros n s n' s' l I p E L; [now injection E as <- <- <-|].
  destruct (dstep mem n s a) as ((n1, s1), o) eqn:S1. destruct (drun mem n1 s1 r) as ((n2, s2), l2) eqn:R2. injection E as <- <- <-.
  assert (F : eff s a o s1) by (eapply step_eff; [exact S1|]; eapply run_live; eassumption).
  eapply IH; [eapply Inv_eff; eassumption|eapply H; eassumption|exact R2|exact L].
Qed.
Lemma reached_Inv : forall n s, reached mem n s -> Inv s.
Proof. intros n s (acts & l & E & L). eapply run_Inv; [apply Inv_start|eassumption..]. Qed.

Ltac effs E := destruct E as [m|m A|m A|m|m A|a|c'|A|g BG G|BG|k' NH|k' BG H|k' BG H|BG|BG|DY|c' k' F R IN|c' k' F R IN|c' k' F R IN|c' k' F R IN|c' x F X R|c' F R|c' F RN|m q RN Q|k' c' q RN Q|k' c' q RN Q|k' c' q g RN Q G|c' q RN Q|q RN Q].

(** ** a handle that is gone *)
Definition lost (k : nat) (s : dst) : Prop := k < d_next s /\ ~ In k (d_handles s) /\ ~ In (k, KAdd k) (d_calls s).
Lemma lost_eff : forall k s a o s', Inv s -> lost k s -> eff s a o s' -> lost k s'.
Proof.
  clear mem. intros k s a o s' I (L & H0 & C) E.
  effs E; unfold lost; flds; (split; [lia|]); split; try assumption;
    try (intro P; apply in_remove in P; tauto); try (intro P; apply in_drop in P; tauto);
    try (intro P; snoc P; [try (apply in_drop in P; destruct P as (P & _)); contradiction|first [discriminate|injection P as P _; lia|idtac]]).
  - subst k'. apply found in F. pose proof (i_call_add s I c' k F). subst. contradiction.
  - subst k'. apply found in F. pose proof (i_call_add s I c' k F). subst. contradiction.
Qed.

(** ** the wait of removeSink and removeAllSinks *)
Definition awaiting (c k : nat) (s : dst) : Prop := k < d_next s /\ ~ In (JAdd k k) (d_queue s) /\
  (In (JRemove k c) (d_queue s) \/ In (JClear c) (d_queue s) \/ ~ In k (d_sinks s)).
Lemma awaiting_eff : forall c k s a o s', Inv s -> awaiting c k s -> eff s a o s' -> awaiting c k s'.
Proof.
  clear mem. intros c k s a o s' I (L & NJ & D) E.
  effs E; unfold awaiting; flds; try (now auto);
    try (split; [lia|]; rewrite !in_app_iff; split; [intros [|[J|[]]]; [contradiction|discriminate J || (injection J; lia)]|tauto]);
    try (split; [lia|]; split; [assumption|tauto]).
  - rewrite Q in *. cbn [In] in *. split; [lia|]. split; [tauto|].
    destruct D as [[D|D]|[[D|D]|D]]; try discriminate; auto.
  - pose proof (i_job_add s I k' c') as JA. rewrite Q in *. specialize (JA (or_introl eq_refl)). destruct JA as (-> & _). cbn [In] in *.
    assert (k' <> k) by (intros ->; apply NJ; now left). split; [lia|]. split; [tauto|].
    destruct D as [[D|D]|[[D|D]|D]]; try discriminate; auto. right. right. rewrite in_app_iff. cbn. intros [|[|[]]]; auto.
  - rewrite Q in *. cbn [In] in *. split; [lia|]. split; [tauto|].
    destruct D as [[D|D]|[[D|D]|D]]; try discriminate; auto.
  - rewrite Q in *. cbn [In] in *. split; [lia|]. split; [tauto|].
    destruct D as [[D|D]|[[D|D]|D]]; try discriminate; auto.
    + injection D as -> ->. right. right. apply remove_In.
    + right. right. intro P. apply in_remove in P. tauto.
  - rewrite Q in *. cbn [In] in *. split; [lia|]. split; [tauto|]. auto.
  - rewrite Q in *. cbn [In] in *. split; [lia|]. split; [tauto|].
    destruct D as [[D|D]|[[D|D]|D]]; try discriminate; auto.
Qed.
Lemma awaited : forall c k s, Inv s -> awaiting c k s -> In c (d_ready s) -> ~ In k (d_sinks s).
Proof.
  intros c k s I (_ & _ & [D|[D|D]]) R; [| |assumption].
  - elim (jid_ready s _ c I D); [now left|assumption].
  - elim (jid_ready s _ c I D); [now left|assumption].
Qed.

(** ** what a call is *)
Definition call_is (c : nat) (p : dcall -> Prop) (s : dst) : Prop := c < d_next s /\ forall x, In (c, x) (d_calls s) -> p x.
Lemma call_is_eff : forall c (p : dcall -> Prop), (p KDestroy -> p KJoin) -> forall s a o s', Inv s -> call_is c p s -> eff s a o s' -> call_is c p s'.
Proof.
  intros c p D s a o s' I (L & C) E.
  effs E; unfold call_is; flds; (split; [lia|]); intros y P; try (apply C; assumption); try (apply in_drop in P; apply C, P);
    try (snoc P; [apply C, P|injection P as <- <-; lia]).
  snoc P; [apply in_drop in P; apply C, P|]. injection P as -> <-. apply D, C. now apply found in F.
Qed.

(** ** entries *)
Lemma entries_app : forall a b, entries (a ++ b) = entries a ++ entries b.
Proof. intros. apply flat_map_app. Qed.
Lemma eff_active : forall s a o s', eff s a o s' -> d_active s' = d_active s \/ (a = ADestroy /\ o = Some OWaits /\ d_active s' = false).
Proof. intros s a o s' E. effs E; flds; auto. Qed.
Lemma eff_entries : forall s a o s', eff s a o s' ->
  d_taken s' ++ entries (d_queue s') = d_taken s ++ entries (d_queue s) ++ (if d_active s then logged [(a, o)] else []).
Proof.
  intros s a o s' E. assert (NA : forall b : bool, (if b then @nil nat else []) = []) by now intros [].
  effs E; flds; rewrite ?entries_app, ?A; cbn [logged flat_map entries app]; rewrite ?app_nil_r; try reflexivity;
    try (now destruct (d_active s)); try (destruct (d_active s); rewrite ?app_nil_r; reflexivity).
  - destruct a; destruct (d_active s); now rewrite ?app_nil_r.
  - rewrite Q. cbn. destruct (d_active s); now rewrite app_nil_r, <- app_assoc.
  - rewrite Q. cbn. destruct (d_active s); now rewrite app_nil_r.
  - rewrite Q. cbn. destruct (d_active s); now rewrite app_nil_r.
  - rewrite Q. cbn. destruct (d_active s); now rewrite app_nil_r.
  - rewrite Q. cbn. destruct (d_active s); now rewrite app_nil_r.
  - rewrite Q. cbn. destruct (d_active s); now rewrite app_nil_r.
Qed.

Lemma logged_cons : forall p l, logged (p :: l) = logged [p] ++ logged l.
Proof. intros p l. unfold logged. cbn [flat_map]. now rewrite app_nil_r. Qed.

Lemma run_entries : forall acts n s n' s' l, drun mem n s acts = (n', s', l) -> d_end s' = None -> d_active s' = true ->
  d_active s = true /\ d_taken s' ++ entries (d_queue s') = d_taken s ++ entries (d_queue s) ++ logged l.
Proof.
  induction acts as [|a r IH]; cbn [drun]; intros n s n' s' l E L A; [injection E as <- <- <-; now rewrite app_nil_r|].
  destruct (dstep mem n s a) as ((n1, s1), o) eqn:S1. destruct (drun mem n1 s1 r) as ((n2, s2), l2) eqn:R2. injection E as <- <- <-.
  assert (F : eff s a o s1) by (eapply step_eff; [exact S1|]; eapply run_live; eassumption).
  destruct (IH _ _ _ _ _ R2 L A) as (A1 & Q). pose proof (eff_entries _ _ _ _ F) as Q1.
  assert (A0 : d_active s = true) by (destruct (eff_active _ _ _ _ F) as [<-|(_ & _ & X)]; [assumption|congruence]).
  split; [assumption|]. rewrite A0 in Q1. rewrite Q, (logged_cons (a, o)), !app_assoc. rewrite !app_assoc in Q1. now rewrite Q1.
Qed.
Lemma run_entries_off : forall acts n s n' s' l, drun mem n s acts = (n', s', l) -> d_end s' = None -> d_active s = false ->
  d_active s' = false /\ d_taken s' ++ entries (d_queue s') = d_taken s ++ entries (d_queue s).
Proof.
  induction acts as [|a r IH]; cbn [drun]; intros n s n' s' l E L A; [now injection E as <- <- <-|].
  destruct (dstep mem n s a) as ((n1, s1), o) eqn:S1. destruct (drun mem n1 s1 r) as ((n2, s2), l2) eqn:R2. injection E as <- <- <-.
  assert (F : eff s a o s1) by (eapply step_eff; [exact S1|]; eapply run_live; eassumption).
  pose proof (eff_entries _ _ _ _ F) as Q1. rewrite A, app_nil_r in Q1.
  assert (A1 : d_active s1 = false) by (destruct (eff_active _ _ _ _ F) as [->|(_ & _ & X)]; assumption).
  destruct (IH _ _ _ _ _ R2 L A1) as (A2 & Q). split; [assumption|]. congruence.
Qed.

(** ** what a sink is sent *)
Lemma sent_app : forall k a b, sent_to k (a ++ b) = sent_to k a ++ sent_to k b.
Proof. intros. unfold sent_to. now rewrite filter_app, map_app. Qed.
Lemma sent_none : forall k m l, ~ In k l -> sent_to k (map (fun i => (i, m)) l) = [].
Proof.
  intros k m l. unfold sent_to. induction l as [|i l IH]; intro H; [reflexivity|]. cbn. destruct (Nat.eqb_spec i k).
  - subst. elim H. now left.
  - apply IH. intro. apply H. now right.
Qed.
Lemma sent_once : forall k m l, NoDup l -> In k l -> sent_to k (map (fun i => (i, m)) l) = [m].
Proof.
  intros k m l. induction l as [|i l IH]; intros N H; [contradiction|]. apply NoDup_cons_iff in N. destruct N as (NI & N).
  destruct (Nat.eq_dec i k) as [-> |NE].
  - pose proof (sent_none k m l NI) as Z. unfold sent_to in *. cbn. rewrite Nat.eqb_refl. cbn. now rewrite Z.
  - destruct H as [|H]; [contradiction|]. pose proof (IH N H) as Z. unfold sent_to in *. cbn. apply Nat.eqb_neq in NE. now rewrite NE.
Qed.

(** while nobody takes the sink away *)
Definition hears (k : nat) (s : dst) : Prop := In k (d_sinks s) /\ (forall c, ~ In (JRemove k c) (d_queue s)) /\ forall c, ~ In (JClear c) (d_queue s).
Lemma hears_eff : forall k s a o s', Inv s -> hears k s -> d_active s = true -> a <> ARemove k -> a <> AAll -> a <> ADestroy -> eff s a o s' ->
  hears k s' /\ d_active s' = true /\
  sent_to k (d_got s') ++ entries (d_queue s') = sent_to k (d_got s) ++ entries (d_queue s) ++ logged [(a, o)].
Proof.
  intros k s a o s' I (S & NR & NC) AC N1 N2 N3 E.
  assert (BG1 := active_bg s I AC). pose proof (i_bg s I) as B. rewrite BG1 in B. destruct B as (RN1 & NST).
  assert (ND : forall c, ~ In (c, KDestroy) (d_calls s)) by (intros c H; apply (i_destroy s I) in H; destruct H; congruence).
  assert (NJN : forall c, ~ In (c, KJoin) (d_calls s)) by (intros c H; apply (i_join s I) in H; congruence).
  assert (PUSH : forall j, (forall c, j <> JRemove k c) -> (forall c, j <> JClear c) ->
            (forall c, ~ In (JRemove k c) (d_queue s ++ [j])) /\ (forall c, ~ In (JClear c) (d_queue s ++ [j]))).
  { intros j J1 J2. split; intros c P; snoc P; [now apply (NR c)|now apply (J1 c)|now apply (NC c)|now apply (J2 c)]. }
  assert (POP : forall j q, d_queue s = j :: q -> (forall c, ~ In (JRemove k c) q) /\ (forall c, ~ In (JClear c) q)).
  { intros j q Q. rewrite Q in *. split; intros c P; [apply (NR c)|apply (NC c)]; now right. }
  assert (ADD : forall j, entries [j] = [] -> entries (d_queue s ++ [j]) = entries (d_queue s)) by (intros j J; now rewrite entries_app, J, app_nil_r).
  effs E; unfold hears; flds; try (now (split; [auto|]; split; [assumption|]; cbn [logged flat_map]; now rewrite app_nil_r));
    try contradiction; try congruence.
  - split; [split; [assumption|]; apply PUSH; intros; discriminate|]. split; [assumption|]. now rewrite entries_app.
  - split; [split; [assumption|]; apply PUSH; intros; discriminate|]. split; [assumption|]. now rewrite entries_app.
  - destruct a; (split; [auto|]; split; [assumption|]; cbn [logged flat_map]; now rewrite app_nil_r).
  - split; [split; [assumption|]; apply PUSH; intros; discriminate|]. split; [assumption|]. now rewrite entries_app.
  - assert (k' <> k) by congruence. split; [split; [assumption|]; apply PUSH; intros; congruence|]. split; [assumption|]. now rewrite entries_app.
  - elim (ND c'). now apply found.
  - split; [split; [assumption|]; now apply (POP (JSave m))|]. split; [assumption|]. rewrite Q, sent_app, (sent_once k m _ (i_nodup s I) S). cbn.
    now rewrite app_nil_r, <- app_assoc.
  - split; [split; [apply in_app_iff; now left|]; now apply (POP (JAdd k' c'))|]. split; [assumption|]. rewrite Q. cbn. now rewrite app_nil_r.
  - split; [split; [assumption|]; now apply (POP (JAdd k' c'))|]. split; [assumption|]. rewrite Q. cbn. now rewrite app_nil_r.
  - assert (k' <> k) by (intros ->; apply (NR c'); rewrite Q; now left).
    split; [split; [apply in_in_remove; auto|]; now apply (POP (JRemove k' c'))|]. split; [assumption|]. rewrite Q. cbn. now rewrite app_nil_r.
  - elim (NC c'). rewrite Q. now left.
  - elim NST. rewrite Q. now left.
Qed.
Lemma run_hears : forall k acts n s n' s' l, Inv s -> hears k s -> d_active s = true ->
  (forall a, In a acts -> a <> ARemove k /\ a <> AAll /\ a <> ADestroy) -> drun mem n s acts = (n', s', l) -> d_end s' = None ->
  hears k s' /\ d_active s' = true /\ sent_to k (d_got s') ++ entries (d_queue s') = sent_to k (d_got s) ++ entries (d_queue s) ++ logged l.
Proof.
  intro k. induction acts as [|a r IH]; cbn [drun]; intros n s n' s' l I HR A NA E L; [injection E as <- <- <-; now rewrite app_nil_r|].
  destruct (dstep mem n s a) as ((n1, s1), o) eqn:S1. destruct (drun mem n1 s1 r) as ((n2, s2), l2) eqn:R2. injection E as <- <- <-.
  assert (F : eff s a o s1) by (eapply step_eff; [exact S1|]; eapply run_live; eassumption).
  destruct (NA a (or_introl eq_refl)) as (N1 & N2 & N3).
  pose proof (hears_eff k s a o s1 I HR A N1 N2 N3 F) as (H1 & A1 & Q1).
  destruct (IH n1 s1 n2 s2 l2 (Inv_eff _ _ _ _ I F) H1 A1 (fun x X => NA x (or_intror X)) R2 L) as (H2 & A2 & Q2).
  split; [assumption|]. split; [assumption|]. rewrite Q2, app_assoc, Q1, (logged_cons (a, o) l2), <- !app_assoc. reflexivity.
Qed.

(** once the destructor has begun: what is queued before the end of the sink still reaches it *)
Fixpoint calm (k : nat) (q : list djob) : Prop :=
  match q with
  | [] => True
  | JClear _ :: r => entries r = []
  | JRemove i _ :: r => if Nat.eqb i k then entries r = [] else calm k r
  | _ :: r => calm k r
  end.
Lemma calm_none : forall k q, entries q = [] -> calm k q.
Proof.
  intros k. induction q as [|j q IH]; cbn; intro E; [exact I|]. destruct j; cbn in E; try discriminate; auto. destruct (Nat.eqb k0 k); auto.
Qed.
Lemma calm_snoc : forall k q j, entries [j] = [] -> calm k q -> calm k (q ++ [j]).
Proof.
  intros k q j J. induction q as [|i q IH]; intro H; [now apply calm_none|]. cbn [calm app] in *.
  destruct i; auto; try (rewrite entries_app, J, app_nil_r; assumption).
  destruct (Nat.eqb k0 k); [|auto]. rewrite entries_app, J, app_nil_r. assumption.
Qed.
Lemma calm_hears : forall k q, (forall c, ~ In (JRemove k c) q) -> (forall c, ~ In (JClear c) q) -> calm k q.
Proof.
  intros k. induction q as [|i q IH]; intros A B; [exact I|].
  assert (H : calm k q) by (apply IH; intros c P; [apply (A c)|apply (B c)]; now right).
  destruct i; cbn; auto.
  - destruct (Nat.eqb_spec k0 k); [|assumption]. subst. elim (A c). now left.
  - elim (B c). now left.
Qed.
Definition fades (k : nat) (s : dst) : Prop := d_active s = false /\ (entries (d_queue s) = [] \/ (In k (d_sinks s) /\ calm k (d_queue s))).
Lemma fades_eff : forall k s a o s', Inv s -> fades k s -> eff s a o s' ->
  fades k s' /\ sent_to k (d_got s') ++ entries (d_queue s') = sent_to k (d_got s) ++ entries (d_queue s).
Proof.
  intros k s a o s' I (AC & D) E.
  assert (PUSH : forall j, entries [j] = [] -> entries (d_queue s ++ [j]) = entries (d_queue s) /\
    (entries (d_queue s ++ [j]) = [] \/ In k (d_sinks s) /\ calm k (d_queue s ++ [j]))).
  { intros j J. rewrite entries_app, J, app_nil_r. split; [reflexivity|]. destruct D as [D|(D1 & D2)]; [now left|right]. split; [assumption|]. now apply calm_snoc. }
  effs E; unfold fades; flds; try (now auto); try congruence.
  - destruct (PUSH (JAdd (d_next s) (d_next s)) eq_refl) as (Q1 & P). split; [auto|now rewrite Q1].
  - destruct (PUSH (JRemove k' (d_next s)) eq_refl) as (Q1 & P). split; [auto|now rewrite Q1].
  - destruct (PUSH (JClear (d_next s)) eq_refl) as (Q1 & P). split; [auto|now rewrite Q1].
  - destruct (PUSH (JClear (d_next s)) eq_refl) as (Q1 & P). split; [auto|now rewrite Q1].
  - destruct (PUSH JStop eq_refl) as (Q1 & P). split; [auto|now rewrite Q1].
  - pose proof (i_bg s I) as B. rewrite (i_join s I c' (found _ _ _ F)), RN in B. destruct B as (_ & Q). rewrite Q. auto.
  - rewrite Q in *. destruct D as [D|(D1 & D2)]; [discriminate|]. cbn in D2. split; [auto|].
    rewrite sent_app, (sent_once k m _ (i_nodup s I) D1). cbn. now rewrite <- app_assoc.
  - rewrite Q in *. cbn in *. split; [|reflexivity]. split; [assumption|]. destruct D as [D|(D1 & D2)]; [now left|right]. split; [apply in_app_iff; now left|assumption].
  - rewrite Q in *. cbn in *. auto.
  - rewrite Q in *. cbn in *. split; [|reflexivity]. split; [assumption|]. destruct D as [D|(D1 & D2)]; [now left|].
    destruct (Nat.eqb_spec k' k); [now left|]. right. split; [|assumption]. apply in_in_remove; auto.
  - rewrite Q in *. cbn in *. split; [|reflexivity]. split; [assumption|]. destruct D as [D|(D1 & D2)]; now left.
  - rewrite Q in *. cbn in *. auto.
Qed.
Lemma run_fades : forall k acts n s n' s' l, Inv s -> fades k s -> drun mem n s acts = (n', s', l) -> d_end s' = None ->
  fades k s' /\ sent_to k (d_got s') ++ entries (d_queue s') = sent_to k (d_got s) ++ entries (d_queue s).
Proof.
  intro k. induction acts as [|a r IH]; cbn [drun]; intros n s n' s' l I H E L; [now injection E as <- <- <-|].
  destruct (dstep mem n s a) as ((n1, s1), o) eqn:S1. destruct (drun mem n1 s1 r) as ((n2, s2), l2) eqn:R2. injection E as <- <- <-.
  assert (F : eff s a o s1) by (eapply step_eff; [exact S1|]; eapply run_live; eassumption).
  destruct (fades_eff k s a o s1 I H F) as (H1 & Q1). destruct (IH n1 s1 n2 s2 l2 (Inv_eff _ _ _ _ I F) H1 R2 L) as (H2 & Q2).
  split; [assumption|congruence].
Qed.

(** ** with enough memory *)
Section Enough.
Hypothesis OK : forall n, mem n = true.

Lemma ok_alloc : forall b n s, (alloc mem ;; b) n s = b (S n) s.
Proof. intros. unfold andthen, alloc. now rewrite OK. Qed.
Lemma ok_send : forall j n s, dsend mem j n s = (Done, S (S (S n)), u_queue (d_queue s ++ [j]) s).
Proof. intros. unfold dsend. now rewrite !ok_alloc. Qed.
Lemma ok_spawn : forall j n s, dspawn mem j n s = (Done, S (S (S (S n))), u_queue (d_queue s ++ [j]) s).
Proof. intros. unfold dspawn. now rewrite ok_alloc, ok_send. Qed.
Lemma ok_destroy : forall k n s, destroy_sink mem k n s = (Done, S (S (S n)), u_gone k s).
Proof. intros. unfold destroy_sink, andthen, must, alloc. now rewrite !OK. Qed.
Lemma ok_destroy_all : forall l n s, exists n', destroy_all mem l n s = (Done, n', u_gones l s).
Proof.
  induction l as [|k l IH]; intros n s; cbn [destroy_all].
  - exists n. now rewrite u_gones_nil.
  - unfold andthen. rewrite ok_destroy. destruct (IH (S (S (S n))) (u_gone k s)) as (n' & ->). exists n'. unfold u_gones, u_gone. cbn. now rewrite <- app_assoc.
Qed.
Lemma ok_to_sinks : forall l m n s, exists n', to_sinks mem l m n s = (Done, n', u_gots (map (fun k => (k, m)) l) s).
Proof.
  induction l as [|k l IH]; intros m n s; cbn [to_sinks].
  - exists n. now rewrite u_gots_nil.
  - rewrite !ok_alloc. unfold andthen, upd. destruct (IH m (S (S (S (S (S n))))) (u_got k m s)) as (n' & ->). exists n'. unfold u_gots, u_got. cbn. now rewrite <- app_assoc.
Qed.

Lemma ok_job : forall j n s, (forall m, j <> JFatal m) -> d_end s = None -> exists n' s', djob_run mem j n s = (Done, n', s') /\ d_end s' = None.
Proof.
  intros j n s NF L. unfold djob_run. destruct j as [m|m|k c|k c|c|].
  - unfold andthen at 1, upd at 1. unfold andthen. destruct (ok_to_sinks (d_sinks s) m n (u_taken m s)) as (n1 & ->).
    destruct (d_sinks s); [unfold alloc; rewrite !OK|]; do 2 eexists; (split; [reflexivity|exact L]).
  - now elim (NF m).
  - rewrite ok_alloc. do 2 eexists. split; [reflexivity|exact L].
  - destruct (existsb (Nat.eqb k) (d_sinks s)); [|do 2 eexists; split; [reflexivity|exact L]].
    unfold andthen at 1, upd at 1. unfold andthen. destruct (held s k).
    + do 2 eexists. split; [reflexivity|exact L].
    + rewrite ok_destroy. do 2 eexists. split; [reflexivity|exact L].
  - unfold andthen at 1, upd at 1. unfold andthen. destruct (ok_destroy_all (only_owned s) n (u_sinks [] s)) as (n1 & ->).
    do 2 eexists. split; [reflexivity|exact L].
  - do 2 eexists. split; [reflexivity|exact L].
Qed.

Lemma ok_work : forall n s j q, d_end s = None -> d_running s = true -> d_queue s = j :: q -> (forall m, j <> JFatal m) ->
  exists n' s', dstep mem n s AWork = (n', s', Some OReturned) /\ d_end s' = None /\ d_queue s' = q /\ d_ready s' = d_ready s ++ jid j /\
    d_calls s' = d_calls s /\ d_running s' = (match j with JStop => false | _ => true end) /\ d_next s' = d_next s.
Proof.
  intros n s j q L RN Q NF.
  assert (W : exists n' s', dwork mem n s = (Done, n', s') /\ d_end s' = None).
  { unfold dwork. rewrite RN, Q. unfold andthen, upd. unfold must. destruct (ok_job j n (u_queue q s) NF L) as (n' & s' & -> & L'). eauto. }
  destruct W as (n' & s' & W & L'). exists n', s'.
  assert (S1 : dstep mem n s AWork = (n', s', Some OReturned)) by (unfold dstep; rewrite L, W; reflexivity).
  split; [exact S1|]. split; [exact L'|]. apply step_eff in S1; [|exact L'].
  remember AWork as w eqn:EW. remember (Some OReturned) as o eqn:EO. destruct S1; try discriminate; flds; try congruence.
  - destruct H; congruence.
  - rewrite Q in H0. injection H0 as -> ->. cbn. rewrite app_nil_r. auto.
  - rewrite Q in H0. injection H0 as -> ->. auto.
  - rewrite Q in H0. injection H0 as -> ->. auto.
  - rewrite Q in H0. injection H0 as -> ->. auto.
  - rewrite Q in H0. injection H0 as -> ->. auto.
  - rewrite Q in H0. injection H0 as -> ->. cbn. rewrite app_nil_r. auto.
Qed.

Lemma ok_works : forall q n s, d_end s = None -> d_running s = true -> d_queue s = q -> (forall m, ~ In (JFatal m) q) -> ~ In JStop q ->
  exists n' s' l, drun mem n s (repeat AWork (length q)) = (n', s', l) /\ (forall p, In p l -> snd p = Some OReturned) /\
    d_end s' = None /\ d_queue s' = [] /\ d_ready s' = d_ready s ++ jids q /\ d_calls s' = d_calls s /\ d_running s' = true /\ d_next s' = d_next s.
Proof.
  induction q as [|j q IH]; intros n s L RN Q NF NS.
  - exists n, s, []. cbn. rewrite app_nil_r. split; [reflexivity|]. split; [intros p []|]. auto 8.
  - destruct (ok_work n s j q L RN Q) as (n1 & s1 & S1 & L1 & Q1 & R1 & C1 & N1 & X1); [intros m ->; apply (NF m); now left|].
    assert (RN1 : d_running s1 = true) by (rewrite N1; destruct j; auto; elim NS; now left).
    destruct (IH n1 s1 L1 RN1 Q1) as (n2 & s2 & l & R2 & O & L2 & Q2 & E2 & C2 & RN2 & X2).
    { intros m H. apply (NF m). now right. }
    { intro. apply NS. now right. }
    exists n2, s2, ((AWork, Some OReturned) :: l). cbn [length repeat drun]. rewrite S1, R2.
    split; [reflexivity|]. split; [intros p [<-|P]; auto|]. split; [assumption|]. split; [assumption|].
    split; [rewrite E2, R1, <- app_assoc; reflexivity|]. split; [congruence|]. split; [assumption|congruence].
Qed.
End Enough.
End R.
