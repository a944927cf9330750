(** Facts about the life cycle of logging. *)
From Coq Require Import Ascii String List ZArith NArith Bool Lia.
From Verif.Base Require Import Bytes.
From Verif.Model Require Import Levels Message Global.
From Verif.Spec Require Import GlobalSpec.
Import ListNotations.
Local Open Scope list_scope.

Lemma calls_app : forall a b, calls (a ++ b) = calls a ++ calls b.
Proof. intros. apply flat_map_app. Qed.
Lemma saves_app : forall a b, saves (a ++ b) = saves a ++ saves b.
Proof. intros. apply flat_map_app. Qed.
Lemma firsts_app : forall a b, firsts (a ++ b) = firsts a ++ firsts b.
Proof. intros. apply flat_map_app. Qed.
Lemma starts_app : forall a b, starts (a ++ b) = starts a ++ starts b.
Proof. intros. apply flat_map_app. Qed.
Lemma active_snoc : forall l o, active (l ++ [o]) = active_after (active l) o.
Proof. intros. unfold active. rewrite fold_left_app. reflexivity. Qed.
Lemma deliveries_app : forall l a r, deliveries a (l ++ r) = deliveries a l ++ deliveries (fold_left active_after l a) r.
Proof.
  induction l as [|o l IH]; intros a r; cbn [app deliveries fold_left]; auto. rewrite IH, app_assoc. reflexivity.
Qed.
Lemma handler_snoc : forall l o, handler_of (l ++ [o]) = handler_after (handler_of l) o.
Proof. intros. unfold handler_of. rewrite fold_left_app. reflexivity. Qed.

(** the first initialization and the first message *)
Lemma first_init_snoc : forall l o, first_init (l ++ [o]) =
  match first_init l with
  | Some x => Some x
  | None => match o with OInit (Some w) => Some (w, l) | _ => None end
  end.
Proof.
  induction l as [|a l IH]; intro o; cbn [app first_init].
  - destruct o as [[w|]| | | | | | | |]; reflexivity.
  - rewrite IH. destruct a as [[w|]| | | | | | | |]; auto; destruct (first_init l) as [[? ?]|]; auto;
      destruct o as [[?|]| | | | | | | |]; auto.
Qed.
Lemma first_log_snoc : forall l o, first_log (l ++ [o]) =
  match first_log l with Some m => Some m | None => match o with OLog m => Some m | _ => None end end.
Proof.
  induction l as [|a l IH]; intro o; cbn [app first_log].
  - destruct o; reflexivity.
  - destruct a; auto.
Qed.

(** ** what every step keeps true *)
Record GInv (g : global) : Prop := mkGInv {
  i_active : g_logger_instance g = active (calls (g_trace g));
  i_saves : saves (g_trace g) = deliveries None (calls (g_trace g));
  i_handler : g_fatal_function g = handler_of (calls (g_trace g));
  i_firsts : firsts (g_trace g) = first_delivered (calls (g_trace g));
  i_save_first : g_save_first g = match first_init (calls (g_trace g)) with Some _ => true | None => false end;
  i_before : first_init (calls (g_trace g)) = None ->
    g_first_uninitialized_msg g = option_map marked (first_log (calls (g_trace g))) /\
    g_set_first g = match first_log (calls (g_trace g)) with Some _ => true | None => false end;
  i_never : first_init (calls (g_trace g)) = None -> active (calls (g_trace g)) = None;
  i_counter : g_status g = Running -> g_counter g = (N.of_nat (since_init (g_trace g)) mod size_max)%N;
  i_since : fst (fold_left since_step (g_trace g) (None, O)) = active (calls (g_trace g));
  i_first_trace : g_first_stack_trace g = hd_error (starts (g_trace g))
}.

Lemma GInv_start : forall main, GInv (g_start main).
Proof. intro main. constructor; try reflexivity. cbn. auto. Qed.

(** changing the stacks or the status to an end does not matter *)
Definition same (g g' : global) : Prop :=
  g_logger_instance g' = g_logger_instance g /\ g_trace g' = g_trace g /\ g_fatal_function g' = g_fatal_function g /\
  g_save_first g' = g_save_first g /\ g_first_uninitialized_msg g' = g_first_uninitialized_msg g /\
  g_set_first g' = g_set_first g /\ g_counter g' = g_counter g /\ g_first_stack_trace g' = g_first_stack_trace g /\
  (g_status g' = Running -> g_status g = Running).

Lemma same_GInv : forall g g', same g g' -> GInv g -> GInv g'.
Proof.
  intros g g' (E1 & E2 & E3 & E4 & E5 & E6 & E7 & E8 & E9) [A B C D E F G H I J].
  constructor; rewrite ?E1, ?E2, ?E3, ?E4, ?E5, ?E6, ?E7, ?E8; auto.
Qed.

(** events that mean nothing here *)
Definition silent (e : event) : bool :=
  match e with EReturn _ | EStderr _ | EHook _ | EHandler _ _ | EFatal _ _ | EStderrFatal _ | EThrow => true | _ => false end.

Lemma silent_trace : forall t es, forallb silent es = true ->
  calls (map (pair t) es) = [] /\ saves (map (pair t) es) = [] /\ firsts (map (pair t) es) = [] /\ starts (map (pair t) es) = [] /\
  forall s, fold_left since_step (map (pair t) es) s = s.
Proof.
  induction es as [|e es IH]; intro H; [cbn; auto 6|]. apply andb_prop in H as [H1 H2].
  destruct (IH H2) as (A & B & C & D & E). cbn [map]. unfold calls, saves, firsts, starts in *. cbn [flat_map snd fold_left].
  destruct e; try discriminate H1; cbn [app]; repeat split; auto.
Qed.

Lemma GInv_silent : forall g t es, forallb silent es = true -> GInv g -> GInv (emit g t es).
Proof.
  intros g t es H [A B C D E F G K I J]. destruct (silent_trace t es H) as (S1 & S2 & S3 & S4 & S5).
  constructor; cbn [emit g_logger_instance g_trace g_fatal_function g_save_first g_first_uninitialized_msg g_set_first g_counter
    g_first_stack_trace g_status]; unfold since_init; rewrite ?calls_app, ?saves_app, ?firsts_app, ?starts_app, ?fold_left_app, ?S1, ?S2, ?S3, ?S4, ?S5, ?app_nil_r; auto.
Qed.

Lemma since_snoc : forall tr e, fold_left since_step (tr ++ [e]) (None, O) = since_step (fold_left since_step tr (None, O)) e.
Proof. intros. rewrite fold_left_app. reflexivity. Qed.

(** a call that is only recorded *)
Definition inert (o : op) : bool :=
  match o with OFatal _ _ _ | OSetHook _ | OThrow | OTry _ => true | _ => false end.

Lemma active_inert : forall a o, inert o = true -> active_after a o = a.
Proof. intros [w|] o H; destruct o; try discriminate H; reflexivity. Qed.

Lemma GInv_inert : forall g t o, inert o = true -> GInv g -> GInv (emit g t [EOp o]).
Proof.
  intros g t o H [A B C D E F G K I J].
  constructor; cbn [emit g_logger_instance g_trace g_fatal_function g_save_first g_first_uninitialized_msg g_set_first g_counter
    g_first_stack_trace g_status map]; unfold since_init; rewrite ?calls_app, ?saves_app, ?firsts_app, ?starts_app, ?since_snoc;
    cbn [calls saves firsts starts flat_map snd app]; rewrite ?app_nil_r.
  - rewrite active_snoc, active_inert; auto.
  - rewrite deliveries_app, B. cbn [deliveries]. destruct (fold_left active_after (calls (g_trace g)) None), o; try discriminate H; cbn; now rewrite app_nil_r.
  - rewrite handler_snoc, C. destruct o; try discriminate H; reflexivity.
  - unfold first_delivered in *. rewrite first_init_snoc, D. destruct (first_init (calls (g_trace g))) as [[? ?]|]; auto. destruct o; try discriminate H; auto.
  - rewrite first_init_snoc, E. destruct (first_init (calls (g_trace g))) as [[? ?]|]; auto. destruct o; try discriminate H; auto.
  - rewrite first_init_snoc, first_log_snoc. intro X. destruct (first_init (calls (g_trace g))) as [[? ?]|]; [discriminate|].
    destruct (F eq_refl) as [F1 F2]. rewrite F1, F2. destruct (first_log (calls (g_trace g))); auto. destruct o; try discriminate H; auto.
  - rewrite first_init_snoc, active_snoc, active_inert by assumption. intro X. apply G. destruct (first_init (calls (g_trace g))) as [[? ?]|]; [discriminate|auto].
  - intro R. rewrite (K R). unfold since_init, since_step at 2. cbn [snd]. destruct (fst (fold_left since_step (g_trace g) (None, 0))), o; try discriminate H; reflexivity.
  - unfold since_step at 1. cbn [snd fst]. rewrite I. rewrite active_snoc. reflexivity.
  - exact J.
Qed.

(** ** the other calls *)
Definition quiet (e : event) : bool := match e with EOp _ | EStart _ => false | _ => true end.
Lemma trace_op : forall t o es, forallb quiet es = true ->
  calls (map (pair t) (EOp o :: es)) = [o] /\ starts (map (pair t) (EOp o :: es)) = [] /\
  forall s, fold_left since_step (map (pair t) (EOp o :: es)) s = since_step s (t, EOp o).
Proof.
  intros t o es H.
  assert (Q : calls (map (pair t) es) = [] /\ starts (map (pair t) es) = [] /\ forall s, fold_left since_step (map (pair t) es) s = s).
  { induction es as [|e es IH]; [cbn; auto|]. apply andb_prop in H as [H1 H2]. destruct (IH H2) as (A & B & C).
    cbn [map]. unfold calls, starts in *. cbn [flat_map snd fold_left]. destruct e; try discriminate H1; cbn [app]; repeat split; auto. }
  destruct Q as (A & B & C). cbn [map]. unfold calls, starts in *. cbn [flat_map snd fold_left app]. rewrite A, B. repeat split; auto.
Qed.

(** A step that records the call o with effects es, from g to g'. *)
Lemma GInv_call : forall g g' t o es, GInv g -> forallb quiet es = true ->
  g_trace g' = g_trace g ++ map (pair t) (EOp o :: es) ->
  g_logger_instance g' = active_after (g_logger_instance g) o ->
  g_fatal_function g' = handler_after (g_fatal_function g) o ->
  saves (map (pair t) es) = delivery (g_logger_instance g) o ->
  g_first_stack_trace g' = g_first_stack_trace g ->
  (g_status g' = Running -> g_status g = Running /\
     g_counter g' = match g_logger_instance g, o with None, OInit (Some _) => 0%N | _, _ => g_counter g end) ->
  match first_init (calls (g_trace g)), o with
  | None, OInit (Some w) =>
      firsts (map (pair t) es) = match first_log (calls (g_trace g)) with Some m => [(w, marked m)] | None => [] end /\ g_save_first g' = true
  | None, _ => firsts (map (pair t) es) = [] /\ g_save_first g' = g_save_first g /\
      g_first_uninitialized_msg g' = option_map marked (first_log (calls (g_trace g) ++ [o])) /\
      g_set_first g' = match first_log (calls (g_trace g) ++ [o]) with Some _ => true | None => false end
  | Some _, _ => firsts (map (pair t) es) = [] /\ g_save_first g' = g_save_first g
  end -> GInv g'.
Proof.
  intros g g' t o es [A B C D E F G K I J] Q T IN H SV FT ST FI.
  destruct (trace_op t o es Q) as (T1 & T2 & T3).
  assert (SV' : saves (map (pair t) (EOp o :: es)) = saves (map (pair t) es)) by reflexivity.
  assert (FV' : firsts (map (pair t) (EOp o :: es)) = firsts (map (pair t) es)) by reflexivity.
  constructor; unfold since_init; rewrite T, ?calls_app, ?saves_app, ?firsts_app, ?starts_app, ?fold_left_app, ?T1, ?T2, ?T3, ?SV', ?FV', ?app_nil_r.
  - rewrite active_snoc, IN, A. reflexivity.
  - rewrite deliveries_app, B, SV, A. cbn [deliveries]. rewrite app_nil_r. reflexivity.
  - rewrite handler_snoc, H, C. reflexivity.
  - unfold first_delivered in *. rewrite first_init_snoc, D. destruct (first_init (calls (g_trace g))) as [[w b]|].
    + destruct FI as [-> _]. apply app_nil_r.
    + destruct o as [[w|]| | | | | | | |]; destruct FI as [-> _]; auto.
  - rewrite first_init_snoc. destruct (first_init (calls (g_trace g))) as [[w b]|].
    + destruct FI as [_ ->]. exact E.
    + destruct o as [[w|]| | | | | | | |]; [now destruct FI|..]; destruct FI as (_ & -> & _); exact E.
  - rewrite first_init_snoc. destruct (first_init (calls (g_trace g))) as [[w b]|]; [discriminate|].
    destruct o as [[w|]| | | | | | | |]; [discriminate|..]; intros _; destruct FI as (_ & _ & X & Y); auto.
  - rewrite first_init_snoc, active_snoc. destruct (first_init (calls (g_trace g))) as [[w b]|]; [discriminate|].
    rewrite (G eq_refl). destruct o as [[w|]| | | | | | | |]; [discriminate|..]; reflexivity.
  - intro R. destruct (ST R) as [R' ->]. specialize (K R'). rewrite A, <- I.
    unfold since_init in K. destruct (fold_left since_step (g_trace g) (None, O)) as [x y]. cbn [fst snd] in K |- *.
    unfold since_step. cbn [fst snd]. destruct x as [a|], o as [[w|]| | | | | | | |]; auto.
  - unfold since_step at 1. cbn [snd fst]. rewrite I, active_snoc. reflexivity.
  - rewrite FT. exact J.
Qed.

Ltac gcbn := cbn [isLoggingInitialized g_initialized_once g_logger_instance g_first_uninitialized_msg g_set_first
  g_save_first g_fatal_pre_logging_hook g_fatal_function g_counter g_first_stack_trace g_status g_threads g_trace emit
  set_stack set_instance set_status setFatalPreLoggingHook shutDownLogging].
Section Steps.
Variable hook_body handler_body : nat -> list op.
Variable statics : list nat.
Notation do_op := (do_op statics).
Notation gstep := (gstep hook_body handler_body statics).
Notation grun := (grun hook_body handler_body statics).

Lemma same_set_stack : forall g t s, same g (set_stack g t s).
Proof. intros. unfold same. cbn. auto 10. Qed.
Lemma same_hook : forall g h, same g (setFatalPreLoggingHook g h).
Proof. intros. unfold same. cbn. auto 10. Qed.

Lemma GInv_throw : forall g t s, GInv g -> GInv (throw g t s).
Proof.
  intros g t s H. unfold throw.
  assert (E : GInv (emit g t [EThrow])) by (apply GInv_silent; auto).
  destruct (unwind s); [apply (same_GInv _ _ (same_set_stack _ _ _) E)|].
  apply (same_GInv (set_stack (emit g t [EThrow]) t [])); [|apply (same_GInv _ _ (same_set_stack _ _ _) E)].
  unfold same. cbn. repeat split; auto. discriminate.
Qed.

Lemma map_app_1 : forall (tr : list (nat * event)) t e es, (tr ++ map (pair t) [e]) ++ map (pair t) es = tr ++ map (pair t) (e :: es).
Proof. intros. rewrite <- app_assoc. reflexivity. Qed.

Lemma exit_locked_ends : forall g l, exit_locked g l <> Running.
Proof. intros g l. unfold exit_locked. match goal with |- (if ?b then _ else _) <> _ => destruct b end; discriminate. Qed.

Lemma GInv_do_op : forall g t r o, GInv g -> g_status g = Running -> GInv (do_op g t r o).
Proof.
  intros g t r o H R.
  assert (HS : GInv (set_stack g t r)) by (apply (same_GInv _ _ (same_set_stack _ _ _) H)).
  destruct (inert o) eqn:IO.
  { pose proof (GInv_inert (set_stack g t r) t o IO HS) as HE.
    destruct o; try discriminate IO; unfold Global.do_op.
    - apply (same_GInv _ _ (same_set_stack _ _ _) HE).
    - apply (same_GInv _ _ (same_hook _ _) HE).
    - now apply GInv_throw.
    - apply (same_GInv _ _ (same_set_stack _ _ _) HE). }
  pose proof H as [A B C D E F G K I J].
  destruct o as [w| |w wm|m| | |h| |]; try discriminate IO; unfold Global.do_op.
  - (* OInit *)
    unfold initializeLogging. gcbn.
    destruct (g_logger_instance g) as [a|] eqn:EI.
    + apply (GInv_call g _ t (OInit w) []); auto; try rewrite EI; auto; cbn; try discriminate;
        try (intro X; exfalso; exact (exit_locked_ends _ _ X)).
      destruct (first_init (calls (g_trace g))) as [[? ?]|] eqn:FI; auto.
      assert (X : @None nat = Some a); [|discriminate]. rewrite <- (G eq_refl). rewrite A. reflexivity.
    + destruct w as [w|].
      * destruct (g_save_first g) eqn:SF; gcbn.
        -- apply (GInv_call g _ t (OInit (Some w)) []); auto; try rewrite EI; auto.
           destruct (first_init (calls (g_trace g))) as [[? ?]|] eqn:FI; auto. exfalso. discriminate E.
        -- destruct (first_init (calls (g_trace g))) as [[? ?]|] eqn:FI; [discriminate E|].
           destruct (F eq_refl) as [F1 F2]. cbn [g_first_uninitialized_msg]. rewrite F1.
           destruct (first_log (calls (g_trace g))) as [m|] eqn:FL; cbn [option_map].
           ++ apply (GInv_call g _ t (OInit (Some w)) [ESaveFirst w (marked m)]); auto; try rewrite EI; auto.
              ** cbn [emit g_trace setFatalPreLoggingHook set_instance]. apply map_app_1.
              ** rewrite FI, FL. split; reflexivity.
           ++ apply (GInv_call g _ t (OInit (Some w)) []); auto; try rewrite EI; auto.
              rewrite FI, FL. split; reflexivity.
      * apply (GInv_call g _ t (OInit None) []); auto; try rewrite EI; auto; cbn; try discriminate;
          try (intro X; exfalso; exact (exit_locked_ends _ _ X)).
        destruct (first_init (calls (g_trace g))) as [[? ?]|] eqn:FI; auto. destruct (F eq_refl) as [F1 F2].
           rewrite first_log_snoc. rewrite F1, F2. destruct (first_log (calls (g_trace g))); auto.
  - (* OShutdown *)
    apply (GInv_call g _ t OShutdown []); auto.
    + cbn. destruct (g_logger_instance g); reflexivity.
    + cbn. destruct (g_logger_instance g); reflexivity.
    + cbn. intros _. split; auto. destruct (g_logger_instance g); reflexivity.
    + destruct (first_init (calls (g_trace g))) as [[? ?]|] eqn:FI; auto. destruct (F eq_refl) as [F1 F2].
      rewrite first_log_snoc. cbn. rewrite F1, F2. destruct (first_log (calls (g_trace g))); auto.
  - (* OShutdownFor *)
    assert (FST : forall es, firsts (map (pair t) es) = [] ->
      match first_init (calls (g_trace g)) with
      | Some _ => firsts (map (pair t) es) = [] /\ g_save_first g = g_save_first g
      | None => firsts (map (pair t) es) = [] /\ g_save_first g = g_save_first g /\
          g_first_uninitialized_msg g = option_map marked (first_log (calls (g_trace g) ++ [OShutdownFor w wm])) /\
          g_set_first g = match first_log (calls (g_trace g) ++ [OShutdownFor w wm]) with Some _ => true | None => false end
      end).
    { intros es X. destruct (first_init (calls (g_trace g))) as [[? ?]|] eqn:FI; auto. destruct (F eq_refl) as [F1 F2].
      rewrite first_log_snoc. rewrite F1, F2. destruct (first_log (calls (g_trace g))); auto. }
    unfold shutDownLoggingForActiveOnly. gcbn.
    destruct (g_logger_instance g) as [a|] eqn:EI; [destruct w as [x|]; [destruct (Nat.eqb_spec x a) as [->|n]|]|]; cbn [negb].
    + apply (GInv_call g _ t (OShutdownFor (Some a) wm) [EReturn true]); auto; try rewrite EI; auto.
      * cbn [emit g_trace shutDownLogging set_instance]. apply map_app_1.
      * cbn. now rewrite Nat.eqb_refl.
      * cbn. destruct wm; auto. now rewrite Nat.eqb_refl.
      * exact (FST [EReturn true] eq_refl).
    + apply Nat.eqb_neq in n. destruct wm as [m|].
      * unfold pushMessageToLogger. gcbn. rewrite EI.
        apply (GInv_call g _ t (OShutdownFor (Some x) (Some m)) [ESave a m; EReturn false]); auto; try rewrite EI; auto.
        -- cbn [emit g_trace set_stack]. rewrite map_app_1, <- app_assoc. reflexivity.
        -- cbn. rewrite n. exact EI.
        -- cbn. rewrite n. reflexivity.
        -- exact (FST [ESave a m; EReturn false] eq_refl).
      * apply (GInv_call g _ t (OShutdownFor (Some x) None) [EReturn false]); auto; try rewrite EI; auto.
        -- cbn [emit g_trace set_stack]. apply map_app_1.
        -- cbn. rewrite n. exact EI.
        -- exact (FST [EReturn false] eq_refl).
    + apply (GInv_call g _ t (OShutdownFor None wm) [EReturn true]); auto; try rewrite EI; auto.
      * cbn [emit g_trace shutDownLogging set_instance set_stack]. apply map_app_1.
      * exact (FST [EReturn true] eq_refl).
    + apply (GInv_call g _ t (OShutdownFor w wm) [EReturn true]); auto; try rewrite EI; auto.
      * cbn [emit g_trace shutDownLogging set_instance set_stack]. apply map_app_1.
      * exact (FST [EReturn true] eq_refl).
  - (* OLog *)
    unfold pushMessageToLogger. gcbn. destruct (g_logger_instance g) as [a|] eqn:EI.
    + apply (GInv_call g _ t (OLog m) [ESave a m]); auto; try rewrite EI; auto.
      * cbn [emit g_trace set_stack]. apply map_app_1.
      * destruct (first_init (calls (g_trace g))) as [[? ?]|] eqn:FI; auto. rewrite (G eq_refl) in A. discriminate.
    + destruct (g_set_first g) eqn:SF.
      * apply (GInv_call g _ t (OLog m) []); auto; try rewrite EI; auto.
        destruct (first_init (calls (g_trace g))) as [[? ?]|] eqn:FI; auto. destruct (F eq_refl) as [F1 F2].
        rewrite first_log_snoc. cbn. rewrite F1, SF, F2. destruct (first_log (calls (g_trace g))); auto. discriminate.
      * apply (GInv_call g _ t (OLog m) [EStderr ((not_initialized_text ++ msg_message m) ++ nl)]); auto; try rewrite EI; auto.
        -- cbn [emit g_trace set_stack]. apply map_app_1.
        -- destruct (first_init (calls (g_trace g))) as [[? ?]|] eqn:FI; auto. destruct (F eq_refl) as [F1 F2].
           rewrite first_log_snoc. destruct (first_log (calls (g_trace g))) as [x|]; [discriminate|].
           cbn [emit g_save_first g_first_uninitialized_msg g_set_first option_map set_stack]. repeat split; auto.
  - (* OSetExit *)
    apply (GInv_call g _ t (OSetExit h) []); auto.
    + cbn. destruct (g_logger_instance g); reflexivity.
    + cbn. destruct (g_logger_instance g); reflexivity.
    + cbn. intros _. split; auto. destruct (g_logger_instance g); reflexivity.
    + destruct (first_init (calls (g_trace g))) as [[? ?]|] eqn:FI; auto. destruct (F eq_refl) as [F1 F2].
      rewrite first_log_snoc. cbn. rewrite F1, F2. destruct (first_log (calls (g_trace g))); auto.
Qed.

Lemma sz_succ : forall n, sz (N.of_nat n mod size_max + 1) = (N.of_nat (S n) mod size_max)%N.
Proof.
  intro n. unfold sz. rewrite Nat2N.inj_succ, <- N.add_1_r. rewrite N.add_mod_idemp_l; [reflexivity|discriminate].
Qed.

Lemma GInv_count : forall g t s, GInv g -> g_status g = Running ->
  GInv (emit (mkG (g_initialized_once g) (g_logger_instance g) (g_first_uninitialized_msg g) (g_set_first g)
      (g_save_first g) (g_fatal_pre_logging_hook g) (g_fatal_function g) (sz (g_counter g + 1))
      (Some (match g_first_stack_trace g with Some f => f | None => s end)) (g_status g)
      (g_threads g) (g_trace g)) t [EStart s]).
Proof.
  intros g t s [A B C D E F G K I J] R.
  constructor; cbn [emit g_logger_instance g_trace g_fatal_function g_save_first g_first_uninitialized_msg g_set_first g_counter
    g_first_stack_trace g_status map]; unfold since_init; rewrite ?calls_app, ?saves_app, ?firsts_app, ?starts_app, ?since_snoc;
    cbn [calls saves firsts starts flat_map snd app]; rewrite ?app_nil_r; auto.
  - intros _. rewrite (K R). unfold since_step at 1. cbn [snd]. apply sz_succ.
  - rewrite J. destruct (starts (g_trace g)); reflexivity.
Qed.

Lemma GInv_step : forall g t, GInv g -> GInv (gstep g t).
Proof.
  intros g t H. unfold Global.gstep. destruct (g_status g) eqn:R; auto.
  destruct (g_threads g t) as [|[[|o l]| |h st m s|h st m s|st m s|] r]; auto;
    try (apply (same_GInv _ _ (same_set_stack _ _ _) H); fail).
  - now apply GInv_do_op.
  - unfold do_reset. apply (same_GInv (set_stack g t (FReset h st m s :: r))); [apply same_hook|apply (same_GInv _ _ (same_set_stack _ _ _) H)].
  - unfold do_count. pose proof (GInv_count g t st H R) as HC.
    destruct h as [[|n]|]; [|apply (same_GInv _ _ (same_set_stack _ _ _)); now apply GInv_silent|now apply GInv_throw].
    apply (same_GInv _ _ (same_set_stack _ _ _) HC).
  - unfold fatalCall. set (f := finish_message g st m s). clearbody f.
    assert (HS : GInv (set_stack g t r)) by (apply (same_GInv _ _ (same_set_stack _ _ _) H)).
    cbn [set_stack g_fatal_function g_logger_instance]. destruct (g_fatal_function g) as [[|n]|]; [destruct (g_logger_instance g) as [w|]|..].
    + apply (same_GInv _ _ (same_set_stack _ _ _)); now apply GInv_silent.
    + apply (same_GInv (set_stack (emit (set_stack g t r) t [EStderrFatal f]) t [])).
      * unfold same. cbn. repeat split; auto; discriminate.
      * apply (same_GInv _ _ (same_set_stack _ _ _)); now apply GInv_silent.
    + apply (same_GInv _ _ (same_set_stack _ _ _)); now apply GInv_silent.
    + now apply GInv_throw.
Qed.

Lemma GInv_run : forall sched g, GInv g -> GInv (grun g sched).
Proof. unfold Global.grun. induction sched as [|t l IH]; intros g H; cbn [fold_left]; auto using GInv_step. Qed.

(** ** one thread: a hook that was set runs at most once *)
Definition hold (n : nat) (h : option hook) : nat := match h with Some (Hook k) => if Nat.eqb k n then 1 else 0 | _ => 0 end.
Definition held (n : nat) (s : list frame) : nat := match s with FReset h _ _ _ :: _ => hold n h | _ => 0 end.
Definition prologue (f : frame) : bool := match f with FCopied _ _ _ _ | FReset _ _ _ _ => true | _ => false end.
Definition clean (s : list frame) : Prop := forall f, In f s -> prologue f = false.
Definition agrees (g : global) (s : list frame) : Prop :=
  match s with FCopied h _ _ _ :: _ => g_fatal_pre_logging_hook g = h | _ => True end.

Record HookInv (t n : nat) (g : global) : Prop := mkHI {
  k_count : runs n (g_trace g) + hold n (g_fatal_pre_logging_hook g) + held n (g_threads g t) <= sets n (calls (g_trace g));
  k_top : agrees g (g_threads g t);
  k_below : clean (tl (g_threads g t))
}.

Lemma runs_app : forall n a b, runs n (a ++ b) = runs n a + runs n b.
Proof. intros. unfold runs. rewrite filter_app, app_length. reflexivity. Qed.
Lemma sets_app : forall n a b, sets n (a ++ b) = sets n a + sets n b.
Proof. intros. unfold sets. rewrite filter_app, app_length. reflexivity. Qed.

Lemma unwind_clean : forall s r, clean s -> unwind s = Some r -> clean r.
Proof.
  induction s as [|f s IH]; intros r C U; [discriminate|].
  assert (C' : clean s) by (intros x I; apply C; now right).
  destruct f; cbn in U; eauto. injection U as <-. exact C'.
Qed.
Lemma clean_held : forall n s, clean s -> held n s = 0.
Proof. intros n [|[| | | | |] s] C; auto. assert (prologue (FReset h stack_trace m signal) = false) by (apply C; now left). discriminate. Qed.
Lemma clean_agrees : forall g s, clean s -> agrees g s.
Proof. intros g [|[| | | | |] s] C; cbn; auto. assert (prologue (FCopied h stack_trace m signal) = false) by (apply C; now left). discriminate. Qed.
Lemma clean_tl : forall s, clean s -> clean (tl s).
Proof. intros [|f s] C; auto. intros x I. apply C. now right. Qed.
Lemma clean_cons : forall f s, prologue f = false -> clean s -> clean (f :: s).
Proof. intros f s P C x [<-|I]; auto. Qed.

(** states that differ only in what does not matter for the hooks *)
Lemma HookInv_of : forall t n g g' s, HookInv t n g -> g_threads g' t = s -> clean s ->
  hold n (g_fatal_pre_logging_hook g') <= hold n (g_fatal_pre_logging_hook g) + (sets n (calls (g_trace g')) - sets n (calls (g_trace g))) ->
  sets n (calls (g_trace g)) <= sets n (calls (g_trace g')) ->
  runs n (g_trace g') = runs n (g_trace g) -> HookInv t n g'.
Proof.
  intros t n g g' s [A B C] E CS H1 H2 R. constructor; rewrite E.
  - rewrite R, (clean_held n s CS). lia.
  - now apply clean_agrees.
  - now apply clean_tl.
Qed.

Lemma set_stack_same : forall g t s, g_threads (set_stack g t s) t = s.
Proof. intros. cbn. now rewrite Nat.eqb_refl. Qed.

Definition no_hook_event (e : event) : bool := match e with EHook _ => false | _ => true end.
Lemma runs_quiet : forall n t es, forallb no_hook_event es = true -> runs n (map (pair t) es) = 0.
Proof.
  induction es as [|e es IH]; intro H; auto. apply andb_prop in H as [H1 H2]. specialize (IH H2).
  unfold runs in *. cbn [map filter snd]. destruct e; try discriminate H1; exact IH.
Qed.

Lemma HookInv_throw : forall t n g s, HookInv t n g -> clean s -> HookInv t n (throw g t s).
Proof.
  intros t n g s H C. unfold throw. destruct (unwind s) as [r|] eqn:U.
  - apply (HookInv_of t n g _ r); auto.
    + apply set_stack_same.
    + eapply unwind_clean; eauto.
    + cbn [set_stack emit g_fatal_pre_logging_hook]. lia.
    + cbn [set_stack emit g_trace]. rewrite calls_app, sets_app. lia.
    + cbn [set_stack emit g_trace]. rewrite runs_app. cbn. lia.
  - apply (HookInv_of t n g _ []); auto.
    + cbn. now rewrite Nat.eqb_refl.
    + intros f [].
    + cbn [set_status set_stack emit g_fatal_pre_logging_hook]. lia.
    + cbn [set_status set_stack emit g_trace]. rewrite calls_app, sets_app. lia.
    + cbn [set_status set_stack emit g_trace]. rewrite runs_app. cbn. lia.
Qed.

(** after a call, with the stack r *)
Lemma HookInv_call : forall t n g g' r o es, HookInv t n g -> clean r -> g_threads g' t = r ->
  g_trace g' = g_trace g ++ map (pair t) (EOp o :: es) -> forallb no_hook_event es = true -> forallb quiet es = true ->
  g_fatal_pre_logging_hook g' = match o with OSetHook h => h | OInit _ => g_fatal_pre_logging_hook g' | _ => g_fatal_pre_logging_hook g end ->
  match o with OInit _ => g_fatal_pre_logging_hook g' = Some HookNop \/ g_fatal_pre_logging_hook g' = g_fatal_pre_logging_hook g | _ => True end ->
  HookInv t n g'.
Proof.
  intros t n g g' r o es H C E T Q1 Q2 HK HI. destruct (trace_op t o es Q2) as (T1 & _ & _).
  assert (RN : runs n (g_trace g') = runs n (g_trace g)).
  { rewrite T, runs_app. cbn [map]. replace (runs n ((t, EOp o) :: map (pair t) es)) with (runs n (map (pair t) es)) by reflexivity.
    rewrite runs_quiet by assumption. lia. }
  assert (SN : sets n (calls (g_trace g')) = sets n (calls (g_trace g)) + sets n [o]) by (rewrite T, calls_app, T1, sets_app; reflexivity).
  apply (HookInv_of t n g _ r); auto; rewrite SN; [|lia].
  destruct o; try (rewrite HK; lia).
  - destruct HI as [-> | ->]; cbn; lia.
  - rewrite HK. unfold sets. cbn [filter hold]. destruct h as [[|k]|]; cbn [hold]; try lia. destruct (Nat.eqb k n); cbn [length]; lia.
Qed.

Lemma HookInv_step : forall t n g, HookInv t n g -> HookInv t n (gstep g t).
Proof.
  intros t n g H. unfold Global.gstep. destruct (g_status g) eqn:R; auto. pose proof H as [A B C].
  destruct (g_threads g t) as [|f r] eqn:ES; auto. cbn [tl] in C.
  assert (POP : HookInv t n (set_stack g t r)).
  { apply (HookInv_of t n g _ r); auto; [apply set_stack_same|cbn; lia]. }
  destruct f as [[|o l]| |h st m s|h st m s|st m s|]; auto.
  - assert (CR : clean (FOps l :: r)) by (apply clean_cons; auto).
    unfold Global.do_op. destruct o as [w| |w wm|m|st m s|h|h| |l'].
    + unfold initializeLogging. gcbn. destruct (g_logger_instance g) as [a|] eqn:EI; [|destruct w as [w|]; [destruct (g_save_first g); [|destruct (g_first_uninitialized_msg g) as [fm|]]|]].
      * apply (HookInv_call t n g _ (FOps l :: r) (OInit w) []); auto. apply set_stack_same.
      * apply (HookInv_call t n g _ (FOps l :: r) (OInit (Some w)) []); auto. apply set_stack_same.
      * apply (HookInv_call t n g _ (FOps l :: r) (OInit (Some w)) [ESaveFirst w fm]); auto; [apply set_stack_same|gcbn; apply map_app_1].
      * apply (HookInv_call t n g _ (FOps l :: r) (OInit (Some w)) []); auto. apply set_stack_same.
      * apply (HookInv_call t n g _ (FOps l :: r) (OInit None) []); auto. apply set_stack_same.
    + apply (HookInv_call t n g _ (FOps l :: r) OShutdown []); auto. apply set_stack_same.
    + unfold shutDownLoggingForActiveOnly. gcbn. destruct (g_logger_instance g) as [a|] eqn:EI; [destruct w as [x|]; [destruct (Nat.eqb_spec x a) as [->|nn]|]|]; cbn [negb].
      * apply (HookInv_call t n g _ (FOps l :: r) (OShutdownFor (Some a) wm) [EReturn true]); auto; [apply set_stack_same|gcbn; apply map_app_1].
      * destruct wm as [m|].
        -- unfold pushMessageToLogger. gcbn. rewrite EI. apply (HookInv_call t n g _ (FOps l :: r) (OShutdownFor (Some x) (Some m)) [ESave a m; EReturn false]); auto; [apply set_stack_same|gcbn; rewrite map_app_1, <- app_assoc; reflexivity].
        -- apply (HookInv_call t n g _ (FOps l :: r) (OShutdownFor (Some x) None) [EReturn false]); auto; [apply set_stack_same|gcbn; apply map_app_1].
      * apply (HookInv_call t n g _ (FOps l :: r) (OShutdownFor None wm) [EReturn true]); auto; [apply set_stack_same|gcbn; apply map_app_1].
      * apply (HookInv_call t n g _ (FOps l :: r) (OShutdownFor w wm) [EReturn true]); auto; [apply set_stack_same|gcbn; apply map_app_1].
    + unfold pushMessageToLogger. gcbn. destruct (g_logger_instance g) as [a|] eqn:EI; [|destruct (g_set_first g)].
      * apply (HookInv_call t n g _ (FOps l :: r) (OLog m) [ESave a m]); auto; [apply set_stack_same|gcbn; apply map_app_1].
      * apply (HookInv_call t n g _ (FOps l :: r) (OLog m) []); auto. apply set_stack_same.
      * apply (HookInv_call t n g _ (FOps l :: r) (OLog m) [EStderr ((not_initialized_text ++ msg_message m) ++ nl)]); auto; [apply set_stack_same|gcbn; apply map_app_1].
    + (* OFatal *)
      constructor; rewrite ?set_stack_same.
      * gcbn. cbn [held]. rewrite runs_app, calls_app, sets_app. cbn [held] in A. cbn. cbn in A. lia.
      * reflexivity.
      * exact CR.
    + apply (HookInv_call t n g _ (FOps l :: r) (OSetHook h) []); auto. apply set_stack_same.
    + apply (HookInv_call t n g _ (FOps l :: r) (OSetExit h) []); auto. apply set_stack_same.
    + apply HookInv_throw; auto. apply (HookInv_call t n g _ (FOps l :: r) OThrow []); auto. apply set_stack_same.
    + apply (HookInv_call t n g _ (FOps l' :: FCatch :: FOps l :: r) (OTry l') []); auto; [|apply set_stack_same].
      apply clean_cons; auto. apply clean_cons; auto.
  - unfold do_reset. cbn [agrees] in B. constructor.
    + gcbn. rewrite Nat.eqb_refl. cbn [held hold]. cbn [held] in A. rewrite B in A. lia.
    + gcbn. rewrite Nat.eqb_refl. exact I.
    + gcbn. rewrite Nat.eqb_refl. exact C.
  - unfold do_count. cbn [held] in A. destruct h as [[|k]|].
    + constructor; rewrite ?set_stack_same.
      * gcbn. rewrite runs_app, calls_app, sets_app. cbn [held]. cbn. cbn in A. lia.
      * exact I.
      * exact C.
    + constructor; rewrite ?set_stack_same.
      * gcbn. rewrite !runs_app, !calls_app, !sets_app. cbn [held]. unfold runs at 2 3, sets at 2 3. cbn [map filter snd length].
        cbn [hold] in A. cbn. cbn in A. destruct (Nat.eqb k n); cbn [length]; lia.
      * exact I.
      * apply clean_cons; auto.
    + apply HookInv_throw; auto. constructor.
      * gcbn. rewrite ES. rewrite runs_app, calls_app, sets_app. cbn [held]. cbn. cbn in A. lia.
      * gcbn. rewrite ES. exact I.
      * gcbn. rewrite ES. exact C.
  - unfold fatalCall. gcbn. destruct (g_fatal_function g) as [[|k]|]; [destruct (g_logger_instance g) as [w|]|..].
    + apply (HookInv_of t n g _ (FWaiting :: r)); auto; [apply set_stack_same|apply clean_cons; auto|..];
        gcbn; rewrite ?calls_app, ?sets_app, ?runs_app; cbn; lia.
    + apply (HookInv_of t n g _ []); auto; [apply set_stack_same|intros ? []|..];
        gcbn; rewrite ?calls_app, ?sets_app, ?runs_app; cbn; lia.
    + apply (HookInv_of t n g _ (FOps (handler_body k) :: r)); auto; [apply set_stack_same|apply clean_cons; auto|..];
        gcbn; rewrite ?calls_app, ?sets_app, ?runs_app; cbn; lia.
    + now apply HookInv_throw.
Qed.

Lemma HookInv_run : forall t n sched g, (forall x, In x sched -> x = t) -> HookInv t n g -> HookInv t n (grun g sched).
Proof.
  intros t n. unfold Global.grun. induction sched as [|x l IH]; intros g O H; cbn [fold_left]; auto.
  apply IH; [intros y Y; apply O; now right|]. rewrite (O x) by now left. now apply HookInv_step.
Qed.

End Steps.
