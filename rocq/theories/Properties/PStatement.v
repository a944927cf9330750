(** C99 - C103: what happens between the beginning of a logging statement and the queue. *)
From Coq Require Import Ascii String List ZArith NArith Bool Lia.
From Verif.Base Require Import Bytes.
From Verif.Model Require Import Levels Message Capture Macros Statement.
From Verif.Model Require Stamps.
From Verif.Spec Require Import StatementSpec.
From Verif.Proofs Require Import BytesFacts MessageFacts CaptureFacts StatementFacts.
Import ListNotations.
Local Open Scope list_scope.

(** ** C99: every entry that was begun is handed over once, also when an operand throws *)
Theorem C99_once : forall w c s s' tr o, exec w c s = (s', tr, o) -> o = Normal \/ o = Threw -> nested tr.
Proof. intros w c s s' tr o H O. apply (proj1 (exec_well w)) in H. apply H. exact O. Qed.
Print Assumptions C99_once.

(** a fatal entry, and only that, ends the process (unless the exit handler was replaced); nothing happens after it *)
Theorem C99_fatal_is_last : forall w c s s' tr o, exec w c s = (s', tr, o) -> w_survives w = false ->
  (o = Ended /\ exists t m sig tr', tr = tr' ++ [Handed (ToFatal t m sig)] /\ forall d, In d (entries tr') -> exists m, d = ToLogger m) \/
  (o <> Ended /\ forall d, In d (entries tr) -> exists m, d = ToLogger m).
Proof.
  assert (A : forall l, existsb is_fatal l = false -> forall d, In d l -> exists m, d = ToLogger m).
  { intros l E d I. destruct d as [m|t m sig]; [eauto|]. exfalso.
    assert (X : existsb is_fatal l = true) by (apply existsb_exists; exists (ToFatal t m sig); auto). congruence. }
  intros w c s s' tr o H S. apply (proj1 (exec_well w)) in H. destruct H as (_ & _ & _ & D & _). specialize (D S).
  destruct o; try (right; split; [discriminate|apply A; exact D]).
  left. split; [reflexivity|]. destruct D as (t & m & sig & tr' & -> & F). exists t, m, sig, tr'. split; [reflexivity|]. apply A. exact F.
Qed.
Print Assumptions C99_fatal_is_last.

(** the level was asked and is enabled: what is left is the statement's body *)
Lemma exec_enabled : forall w p l f cond ops next s,
  snd (query (w_dynamic w) (s_levels s) l) = true ->
  exec w (Log p (KLog (LConst l)) f cond ops next) s =
  andthen (let '(s', tr, o) := body w p (KLog (LConst l)) f ops (mkState (s_var s) (s_called s) (s_read s) (fst (query (w_dynamic w) (s_levels s) l)))
           in (s', Asked l true :: tr, o)) (exec w next).
Proof.
  intros w p l f cond ops next s Q. rewrite exec_log. cbn [ask level_of].
  destruct (query (w_dynamic w) (s_levels s) l) as [t b]. cbn in Q. subst b. cbn [fst has_cond fires andthen].
  destruct (body w p (KLog (LConst l)) f ops (mkState (s_var s) (s_called s) (s_read s) t)) as [[s' tr] o]. reflexivity.
Qed.

(** An operand throws.  The entry with the text so far (nothing yet for LOGF) is handed over, the operands behind it and the rest of the
    code do not run, and the exception goes on to the client, unless the entry was fatal. *)
Theorem C99_throws : forall w p l f cond pre c t post next s s1 tr1 text s2 tr2,
  snd (query (w_dynamic w) (s_levels s) l) = true -> (size (c_str (p_file p)) < npos)%N ->
  exec_ops w pre (mkState (s_var s) (s_called s) (s_read s) (fst (query (w_dynamic w) (s_levels s) l))) [] true = (s1, tr1, Normal, text) ->
  exec w c s1 = (s2, tr2, Threw) ->
  exists s3 d, exec w (Log p (KLog (LConst l)) f cond (app_ops pre (OCons c t post)) next) s =
    (s3, Asked l true :: Begun p l :: (tr1 ++ tr2) ++ [Handed d], if wasFatal l && negb (w_survives w) then Ended else Threw) /\
    _message (message_of d) = c_str (match f with FStream => joined pre | FPrintf _ _ => [] end) /\
    from_place p d /\ _level (message_of d) = copyLevel l.
Proof.
  intros w p l f cond pre c t post next s s1 tr1 text s2 tr2 Q B X1 X2.
  rewrite exec_enabled by exact Q. unfold body. cbn [capture_level level_of].
  set (s0 := mkState (s_var s) (s_called s) (s_read s) (fst (query (w_dynamic w) (s_levels s) l))) in *.
  destruct (exec_ops_app w pre (OCons c t post) s0 [] true _ _ _ X1) as (g & E). rewrite E. cbn [exec_ops]. rewrite X2.
  apply exec_ops_text in X1. cbn in X1. subst text.
  set (cap := match f with FStream => stream (captured w p (KLog (LConst l)) l) (joined pre) | FPrintf _ _ => captured w p (KLog (LConst l)) l end).
  assert (F : filled w f (captured w p (KLog (LConst l)) l) (joined pre) Threw = (cap, Threw)) by (destruct f; reflexivity).
  rewrite F. unfold hand_over. cbn [level_at_end].
  assert (B' : (size (c_str (c_file (with_level cap l))) < npos)%N) by (destruct f; exact B).
  destruct (end_total (w_full w) (w_now w (s_read s2)) (w_thread w) (with_level cap l) B') as (d & D). rewrite D.
  destruct (end_fields _ _ _ _ _ D) as (F0 & F1 & F2 & F3 & F4 & _ & _ & F7).
  assert (O : match d with ToFatal _ _ _ => if w_survives w then Threw else Ended | ToLogger _ => Threw end =
              if wasFatal l && negb (w_survives w) then Ended else Threw).
  { rewrite F7. change (c_level (with_level cap l)) with l. destruct (wasFatal l), (w_survives w); reflexivity. }
  rewrite O. eexists. exists d. split.
  - destruct (wasFatal l && negb (w_survives w)); reflexivity.
  - split; [|split].
    + rewrite F0. destruct f; reflexivity.
    + unfold from_place. rewrite F1, F2, F3. destruct f; auto.
    + rewrite F4. destruct f; reflexivity.
Qed.
Print Assumptions C99_throws.

(** a condition that throws: no entry *)
Theorem C99_condition_throws : forall w p k f cond ops next s s1 tr1 s2 tr2, has_cond k = true ->
  ask w k s = (s1, tr1, true) -> exec w cond s1 = (s2, tr2, Threw) ->
  exec w (Log p k f cond ops next) s = (s2, tr1 ++ tr2, Threw).
Proof. intros w p k f cond ops next s s1 tr1 s2 tr2 K A C. rewrite exec_log, A. cbn. rewrite K, C. reflexivity. Qed.
Print Assumptions C99_condition_throws.

(** ** C100: nested statements *)
(** the text of a statement is that of its own operands, whatever statements run while they are evaluated; those come first *)
Theorem C100_own_text : forall w p l cond ops s s1 tr1 text,
  snd (query (w_dynamic w) (s_levels s) l) = true -> (size (c_str (p_file p)) < npos)%N ->
  exec_ops w ops (mkState (s_var s) (s_called s) (s_read s) (fst (query (w_dynamic w) (s_levels s) l))) [] true = (s1, tr1, Normal, text) ->
  exists s3 d, exec w (Log p (KLog (LConst l)) FStream cond ops Done) s =
    (s3, Asked l true :: Begun p l :: tr1 ++ [Handed d], if wasFatal l && negb (w_survives w) then Ended else Normal) /\
    nested tr1 /\
    _message (message_of d) = c_str (joined ops) /\ from_place p d /\ _level (message_of d) = copyLevel l.
Proof.
  intros w p l cond ops s s1 tr1 text Q B X1.
  pose proof (proj2 (exec_well w) _ _ _ _ _ _ _ _ X1) as W.
  rewrite exec_enabled by exact Q. unfold body. cbn [capture_level level_of].
  set (s0 := mkState (s_var s) (s_called s) (s_read s) (fst (query (w_dynamic w) (s_levels s) l))) in *. rewrite X1.
  apply exec_ops_text in X1. cbn in X1. subst text. cbn [filled].
  set (cap := stream (captured w p (KLog (LConst l)) l) (joined ops)). unfold hand_over. cbn [level_at_end].
  destruct (end_total (w_full w) (w_now w (s_read s1)) (w_thread w) (with_level cap l) B) as (d & D). rewrite D.
  destruct (end_fields _ _ _ _ _ D) as (F0 & F1 & F2 & F3 & F4 & _ & _ & F7).
  assert (O : match d with ToFatal _ _ _ => if w_survives w then Normal else Ended | ToLogger _ => Normal end =
              if wasFatal l && negb (w_survives w) then Ended else Normal).
  { rewrite F7. change (c_level (with_level cap l)) with l. destruct (wasFatal l), (w_survives w); reflexivity. }
  rewrite O. eexists. exists d. split.
  - destruct (wasFatal l && negb (w_survives w)); cbn; rewrite ?app_nil_r; reflexivity.
  - split; [apply W; auto|]. split; [rewrite F0; reflexivity|]. split; [unfold from_place; rewrite F1, F2, F3; auto|]. rewrite F4. reflexivity.
Qed.
Print Assumptions C100_own_text.

(** LOGF in every configuration of the maximum message size: a text that fits arrives; with a size that became negative (C71) the exception leaves the
    statement, whose entry is handed over with empty text; with size 0 the behaviour is undefined *)
Theorem C71_statement_partial : forall w p l cond ops fmt t s s1 tr1 text,
  snd (query (w_dynamic w) (s_levels s) l) = true -> (size (c_str (p_file p)) < npos)%N ->
  exec_ops w ops (mkState (s_var s) (s_called s) (s_read s) (fst (query (w_dynamic w) (s_levels s) l))) [] true = (s1, tr1, Normal, text) ->
  (Z.of_nat (length t) <= INT_MAX)%Z ->
  ((Z.of_nat (length t) < w_max w)%Z ->
    exists s3 d, exec w (Log p (KLog (LConst l)) (FPrintf fmt (Some t)) cond ops Done) s =
      (s3, Asked l true :: Begun p l :: tr1 ++ [Handed d], if wasFatal l && negb (w_survives w) then Ended else Normal) /\
      _message (message_of d) = c_str t /\ from_place p d) /\
  ((w_max w < 0)%Z ->
    exists s3 d, exec w (Log p (KLog (LConst l)) (FPrintf fmt (Some t)) cond ops Done) s =
      (s3, Asked l true :: Begun p l :: tr1 ++ [Handed d], if wasFatal l && negb (w_survives w) then Ended else Threw) /\
      _message (message_of d) = [] /\ from_place p d) /\
  (w_max w = 0%Z -> exists s3, exec w (Log p (KLog (LConst l)) (FPrintf fmt (Some t)) cond ops Done) s = (s3, Asked l true :: Begun p l :: tr1, Undefined)).
Proof.
  intros w p l cond ops fmt t s s1 tr1 text Q B X1 I.
  rewrite exec_enabled by exact Q. unfold body. cbn [capture_level level_of]. rewrite X1. cbn [filled].
  set (c0 := captured w p (KLog (LConst l)) l).
  assert (IM : (INT_MAX <? Z.of_nat (length t))%Z = false) by (apply Z.ltb_ge; exact I).
  assert (HOK : forall cap o, (o = Normal \/ o = Threw) -> (size (c_str (c_file (with_level cap l))) < npos)%N ->
    c_file cap = p_file p -> c_line cap = p_line p -> c_function cap = p_function p ->
    exists s3 d, hand_over w (KLog (LConst l)) l cap o s1 = (s3, [Handed d], if wasFatal l && negb (w_survives w) then Ended else o) /\
      _message (message_of d) = c_str (c_stream cap) /\ from_place p d).
  { intros cap o O B' E1 E2 E3. unfold hand_over. cbn [level_at_end].
    destruct (end_total (w_full w) (w_now w (s_read s1)) (w_thread w) (with_level cap l) B') as (d & D). rewrite D.
    destruct (end_fields _ _ _ _ _ D) as (F0 & F1 & F2 & F3 & _ & _ & _ & F7).
    assert (OO : match d with ToFatal _ _ _ => if w_survives w then o else Ended | ToLogger _ => o end = if wasFatal l && negb (w_survives w) then Ended else o).
    { rewrite F7. change (c_level (with_level cap l)) with l. destruct (wasFatal l), (w_survives w); reflexivity. }
    rewrite OO. eexists. exists d. split; [destruct O as [-> | ->]; reflexivity|]. split; [exact F0|]. unfold from_place. rewrite F1, F2, F3. cbn. rewrite E1, E2, E3. auto. }
  split; [|split].
  - intros M. unfold capturef. replace (w_max w <? 0)%Z with false by (symmetry; apply Z.ltb_ge; lia). cbn [vsnprintf]. rewrite IM.
    replace (Z.of_nat (length t) <? 0)%Z with false by (symmetry; apply Z.ltb_ge; lia). replace (w_max w =? 0)%Z with false by (symmetry; apply Z.eqb_neq; lia).
    replace (w_max w <? Z.of_nat (length t))%Z with false by (symmetry; apply Z.ltb_ge; lia).
    destruct (HOK (stream c0 (c_str (firstn (Z.to_nat (w_max w - 1)) t))) Normal) as (s3 & d & H & T & P); auto.
    rewrite H. exists s3, d. split; [destruct (wasFatal l && negb (w_survives w)); cbn; rewrite ?app_nil_r; reflexivity|]. split; [|exact P].
    rewrite T. rewrite firstn_all2 by lia. cbn. apply c_str_idem.
  - intros M. unfold capturef. replace (w_max w <? 0)%Z with true by (symmetry; apply Z.ltb_lt; lia).
    destruct (HOK c0 Threw) as (s3 & d & H & T & P); auto. rewrite H. exists s3, d.
    split; [destruct (wasFatal l && negb (w_survives w)); cbn; rewrite ?app_nil_r; reflexivity|]. split; [exact T|exact P].
  - intros M. unfold capturef. rewrite M. cbn [Z.ltb Z.compare]. cbn [vsnprintf]. rewrite IM.
    replace (Z.of_nat (length t) <? 0)%Z with false by (symmetry; apply Z.ltb_ge; lia). cbn. rewrite app_nil_r. eexists. reflexivity.
Qed.
Print Assumptions C71_statement_partial.
(** a size of 2^31 has become negative *)
Example C71_statement_ex : exists s' m,
  exec (mkWorld true false (fun n => Z.of_nat n) 7 (lit "dump") (fun _ => INFO) (setMaxMessageSize 2147483648) false)
    (Log (mkPlace (lit "a.cpp") 1 (lit "f")) (KLog (LConst INFO)) (FPrintf (lit "%s") (Some (lit "x"))) Done ONil Done)
    (mkState INFO 0 0 g_log_level_defaults) = (s', [Asked INFO true; Begun (mkPlace (lit "a.cpp") 1 (lit "f")) INFO; Handed (ToLogger m)], Threw) /\ _message m = [].
Proof. do 2 eexists. split; [vm_compute; reflexivity|reflexivity]. Qed.

(** CHECK asks for no level: its condition is evaluated always; when it holds nothing else happens, and when it does not, the
    statement logs a fatal entry of level CONTRACT with the condition's text, whatever the table of levels says *)
Theorem C100_check : forall w p x holds cond ops s s1 tr1 s2 tr2 text, exec w cond s = (s1, tr1, Normal) ->
  (holds = true -> exec w (Log p (KCheck holds x) FStream cond ops Done) s = (s1, tr1, Normal)) /\
  (holds = false -> (size (c_str (p_file p)) < npos)%N -> exec_ops w ops s1 [] true = (s2, tr2, Normal, text) ->
   exists s3 t m, exec w (Log p (KCheck holds x) FStream cond ops Done) s =
     (s3, tr1 ++ Begun p CONTRACT :: tr2 ++ [Handed (ToFatal t m SIGABRT)], if w_survives w then Normal else Ended) /\
   _message m = c_str (joined ops) /\ from_place p (ToFatal t m SIGABRT) /\ _level m = copyLevel CONTRACT /\ _expression m = c_str x).
Proof.
  intros w p x holds cond ops s s1 tr1 s2 tr2 text C. rewrite exec_log. cbn [ask]. split.
  - intros ->. cbn [andthen has_cond]. rewrite C. cbn. now rewrite !app_nil_r.
  - intros -> B X. cbn [andthen has_cond]. rewrite C. cbn [andthen fires negb]. unfold body. cbn [capture_level]. rewrite X.
    apply exec_ops_text in X. cbn in X. subst text. cbn [filled]. unfold hand_over. cbn [level_at_end].
    set (cap := with_level (stream (captured w p (KCheck false x) CONTRACT) (joined ops)) CONTRACT).
    destruct (end_total (w_full w) (w_now w (s_read s2)) (w_thread w) cap B) as (d & D). rewrite D.
    pose proof D as D'. unfold end_LogCapture in D'. apply saveMessage_fields in D'. cbv zeta in D'. fold (message_of d) in D'.
    destruct (end_fields _ _ _ _ _ D) as (F0 & F1 & F2 & F3 & F4 & _ & _ & F7).
    change (wasFatal (c_level cap)) with true in F7. cbv iota in F7.
    rewrite F7. change (c_fatal_signal cap) with SIGABRT. eexists. exists (c_str (c_stack_trace cap)), (message_of d). split.
    + destruct (w_survives w); cbn; rewrite ?app_nil_r; reflexivity.
    + split; [rewrite F0; reflexivity|]. split; [unfold from_place; cbn [message_of]; rewrite F1, F2, F3; auto|]. split; [rewrite F4; reflexivity|].
      destruct D' as (_ & _ & _ & _ & _ & _ & _ & _ & D' & _). rewrite D'. reflexivity.
Qed.
Print Assumptions C100_check.

(** each entry has the next reading of the clock: the entries of a thread are handed over in the order of their time stamps *)
Theorem C100_time_stamps : forall w c s s' tr o, exec w c s = (s', tr, o) ->
  map time_of (entries tr) = map (w_now w) (seq (s_read s) (length (entries tr))).
Proof. intros w c s s' tr o H. apply (proj1 (exec_well w)) in H. apply H. Qed.
Print Assumptions C100_time_stamps.

(** ** C101: the level that was checked is the level of the entry *)
(** a level that stands for the same value throughout: a constant, or a variable that the operands do not assign *)
Definition steady (k : kind) (cond : code) (ops : operands) (s : state) (l : LEVELS) : Prop :=
  match k with
  | KLog (LConst v) | KLogIf (LConst v) _ => l = v
  | KLog LVar | KLogIf LVar _ => l = s_var s /\ assigns cond = false /\ assigns_ops ops = false
  | _ => False
  end.

(** the text that a fatal entry gets its stack dump from *)
Definition trace_text (w : world) : str := [NL] ++ lit "*******" ++ [TAB] ++ lit "STACKDUMP *******" ++ [NL] ++ w_dump w.

Theorem C101_steady_partial : forall w p k f cond ops s s' tr o l, steady k cond ops s l ->
  exec w (Log p k f cond ops Done) s = (s', tr, o) ->
  exists b trc own, tr = Asked l b :: trc ++ own /\ b = snd (query (w_dynamic w) (s_levels s) l) /\
    (b = false -> trc = [] /\ own = []) /\
    (own = [] /\ (b = false \/ fires k = false \/ has_cond k = true /\ o <> Normal) \/
     (exists inner, own = Begun p l :: inner /\ (o = Ended \/ o = Undefined)) \/
     (exists inner d, own = Begun p l :: inner ++ [Handed d] /\ nested inner /\
        _level (message_of d) = copyLevel l /\
        d = if wasFatal l then ToFatal (c_str (trace_text w)) (message_of d) SIGABRT else ToLogger (message_of d))).
Proof.
  intros w p k f cond ops s s' tr o l ST H. rewrite exec_log in H.
  assert (LV : exists s1, ask w k s = (s1, [Asked l (snd (query (w_dynamic w) (s_levels s) l))], snd (query (w_dynamic w) (s_levels s) l))
                       /\ s_var s1 = s_var s).
  { destruct k as [[v| |]|[v| |] h|h x]; cbn in ST; try contradiction; [subst v|destruct ST as (-> & _)|subst v|destruct ST as (-> & _)];
    cbn; destruct (query _ _ _) as [t b]; eexists; split; reflexivity. }
  destruct LV as (s1 & A & V1). rewrite A in H. set (b := snd (query (w_dynamic w) (s_levels s) l)) in *.
  assert (H' : (if b then andthen (if has_cond k then exec w cond s1 else (s1, [], Normal)) (fun s2 =>
                  if fires k then body w p k f ops s2 else (s2, [], Normal)) else (s1, [], Normal)) = (s', tl tr, o) /\ tr = Asked l b :: tl tr).
  { destruct (if b then _ else _) as [[s2 tr2] o2] eqn:E. cbn in H. rewrite E in H. cbn in H.
    destruct o2; cbn in H; injection H as <- <- <-; rewrite ?app_nil_r; auto. }
  destruct H' as (H' & T). clear H. destruct b eqn:B; [|injection H' as <- E <-; exists false, [], []; rewrite T, <- E; repeat split; auto].
  apply andthen_inv in H' as [(s2 & tra & trb & H1 & H2 & E) | (H1 & O)].
  2: { exists true, (tl tr), []. rewrite app_nil_r. split; [exact T|]. split; [auto|]. split; [discriminate|].
       left. split; [reflexivity|]. right. right. split; [|exact O]. destruct (has_cond k); [reflexivity|]. injection H1 as _ _ <-. congruence. }
  exists true, tra, trb. rewrite T, E. split; [reflexivity|]. split; [auto|]. split; [discriminate|].
  destruct (fires k) eqn:FK; [|injection H2 as <- <- <-; auto].
  assert (V2 : match k with KLog LVar | KLogIf LVar _ => s_var s2 = l /\ assigns_ops ops = false | _ => True end).
  { destruct k as [[v| |]|[v| |] h|h x]; auto; cbn in ST, H1; destruct ST as (-> & N1 & N2).
    - injection H1 as <- <-. auto.
    - split; [|auto]. rewrite (proj1 (exec_var w) _ _ _ _ _ H1 N1). auto. }
  unfold body in H2.
  assert (CL : exists s3, capture_level w k s2 = (l, s3) /\ s_var s3 = s_var s2).
  { destruct k as [[v| |]|[v| |] h|h x]; cbn in ST; try contradiction; cbn [capture_level level_of];
    exists s2; [subst v|rewrite (proj1 V2)|subst v|rewrite (proj1 V2)]; auto. }
  destruct CL as (s3 & CL & V3). rewrite CL in H2.
  destruct (exec_ops w ops s3 [] true) as [[[s4 tr4] o4] text] eqn:X.
  destruct (filled w f (captured w p k l) text o4) as [c' o5] eqn:F.
  destruct (hand_over w k l c' o5 s4) as [[s6 tr6] o6] eqn:HO. injection H2 as <- <- <-. right.
  assert (LE : level_at_end k l s4 = l).
  { pose proof (proj2 (exec_var w) _ _ _ _ _ _ _ _ X) as VX.
    destruct k as [[v| |]|[v| |] h|h x]; cbn; auto; destruct V2 as (V2 & N2); rewrite VX by exact N2; congruence. }
  assert (CF : c_stack_trace c' = (if wasFatal l then trace_text w else []) /\ c_fatal_signal c' = SIGABRT).
  { assert (G : c_stack_trace (captured w p k l) = (if wasFatal l then trace_text w else []) /\ c_fatal_signal (captured w p k l) = SIGABRT).
    { destruct k as [lx|lx h|h x]; cbn in ST; try contradiction; cbn; auto. }
    destruct f as [|fmt res]; cbn in F; [injection F as <- <-; exact G|].
    destruct o4; try (injection F as <- <-; exact G). destruct (capturef _ _ _ _) eqn:Y; injection F as <- <-; auto.
    destruct (capturef_stream _ _ _ _ _ Y) as (t & ->). exact G. }
  unfold hand_over in HO. rewrite LE in HO.
  assert (N : o4 = Normal \/ o4 = Threw -> nested tr4) by (apply (proj2 (exec_well w) _ _ _ _ _ _ _ _ X)).
  destruct (filled_outcome _ _ _ _ _ _ _ F) as [O | (O & O')].
  - subst o5. destruct (end_LogCapture _ _ _ _) as [d|] eqn:D.
    + destruct (end_fields _ _ _ _ _ D) as (_ & _ & _ & _ & F4 & _ & _ & F7). cbn in F4, F7. destruct CF as (C1 & C2). rewrite C1, C2 in F7.
      assert (R : _level (message_of d) = copyLevel l /\
         d = if wasFatal l then ToFatal (c_str (trace_text w)) (message_of d) SIGABRT else ToLogger (message_of d)).
      { split; [exact F4|]. destruct (wasFatal l); exact F7. }
      destruct o4; injection HO as <- <- <-; try (left; rewrite app_nil_r; eauto; fail); right; exists tr4, d; auto.
    + left. destruct o4; injection HO as <- <- <-; rewrite app_nil_r; eauto.
  - subst o4. destruct (end_LogCapture _ _ _ _) as [d|] eqn:D.
    + destruct (end_fields _ _ _ _ _ D) as (_ & _ & _ & _ & F4 & _ & _ & F7). cbn in F4, F7. destruct CF as (C1 & C2). rewrite C1, C2 in F7.
      assert (R : _level (message_of d) = copyLevel l /\
         d = if wasFatal l then ToFatal (c_str (trace_text w)) (message_of d) SIGABRT else ToLogger (message_of d)).
      { split; [exact F4|]. destruct (wasFatal l); exact F7. }
      destruct o5; destruct O' as [O'|O']; try discriminate O'; injection HO as <- <- <-; try (left; rewrite app_nil_r; eauto; fail); right; exists tr4, d; auto.
    + left. destruct o5; destruct O' as [O'|O']; try discriminate O'; injection HO as <- <- <-; rewrite app_nil_r; eauto.
Qed.
Print Assumptions C101_steady_partial.

(** a variable: the entry has the level that the variable holds when the statement is over, also in LOG_IF *)
Theorem C101_variable_partial : forall w p k f cond ops s s' tr0 d, k = KLog LVar \/ k = KLogIf LVar true ->
  exec w (Log p k f cond ops Done) s = (s', tr0 ++ [Handed d], Normal) -> _level (message_of d) = copyLevel (s_var s').
Proof.
  intros w p k f cond ops s s' tr0 d K H. cbn [exec] in H. destruct (ask w k s) as [[s1 tr1] on] eqn:A.
  apply andthen_inv in H as [(s9 & ta & tb & H & D & E)|(_ & O)]; [|congruence]. cbn in D. injection D as <- <-. rewrite app_nil_r in E. subst ta.
  apply andthen_inv in H as [(s8 & ta & tb & H1 & H & E)|(_ & O)]; [|congruence]. injection H1 as <- <-.
  destruct on.
  2: { injection H as <- <-. rewrite app_nil_r in E. destruct K as [-> | ->]; cbn in A; destruct (query _ _ _) as [t b]; injection A as _ <- _;
       destruct tr0 as [|x [|y l]]; discriminate E. }
  apply andthen_inv in H as [(s2 & tc & td & _ & H & E')|(_ & O)]; [|congruence].
  assert (FK : fires k = true) by (destruct K as [-> | ->]; reflexivity). rewrite FK in H.
  destruct (capture_level w k s2) as [l s3]. destruct (exec_ops w ops s3 [] true) as [[[s4 tr4] o4] text].
  destruct (filled w f (captured w p k l) text o4) as [c' o5]. destruct (hand_over w k l c' o5 s4) as [[s6 tr6] o6] eqn:HO. injection H as <- <- ->.
  assert (LE : level_at_end k l s4 = s_var s4) by (destruct K as [-> | ->]; reflexivity).
  unfold hand_over in HO. rewrite LE in HO.
  assert (N : o5 = Normal \/ o5 = Threw) by (destruct o5; auto; discriminate HO).
  assert (HO' : match end_LogCapture (w_full w) (w_now w (s_read s4)) (w_thread w) (with_level c' (s_var s4)) with
     | None => False | Some d' => s_var s6 = s_var s4 /\ tr6 = [Handed d'] end).
  { destruct o5; destruct N as [N|N]; try discriminate N; destruct (end_LogCapture _ _ _ _) as [d'|]; try discriminate HO; injection HO as <- <- _; cbn; auto. }
  destruct (end_LogCapture _ _ _ _) as [d'|] eqn:EL; [|contradiction]. destruct HO' as (V & T). subst tr6.
  rewrite E', app_comm_cons, !app_assoc in E. apply app_inj_tail in E as [_ E]. injection E as ->.
  destruct (end_fields _ _ _ _ _ EL) as (_ & _ & _ & _ & F4 & _). rewrite V. exact F4.
Qed.
Print Assumptions C101_variable_partial.
(** LOG_IF(lv, true) << (lv = WARNING, "x") *)
Example C101_variable_ex : exists s' tr0 m,
  exec (mkWorld true false (fun n => Z.of_nat n) 7 (lit "dump") (fun _ => INFO) 2048 false)
    (Log (mkPlace (lit "a.cpp") 1 (lit "f")) (KLogIf LVar true) FStream Done (OCons (SetVar WARNING Done) (Some (lit "x")) ONil) Done)
    (mkState INFO 0 0 g_log_level_defaults) = (s', tr0 ++ [Handed (ToLogger m)], Normal) /\ _level m = WARNING.
Proof. do 3 eexists. split; [vm_compute; match goal with |- (_, ?a :: ?b :: _, _) = _ => instantiate (2 := [a; b]) end; reflexivity|reflexivity]. Qed.

(** LOG(next()) with a function that returns INFO the first time and a disabled level the second time:
    the entry of a disabled level is written.  LOG(lv) << (lv = FATAL, "x"): fatal entry without stack dump. *)
Theorem C101_refuted :
  (exists w c s s' m l l', exec w c s = (s', [Asked l true; Begun (mkPlace (lit "a.cpp") 1 (lit "f")) l'; Handed (ToLogger m)], Normal) /\
     _level m <> l /\ snd (query (w_dynamic w) (s_levels s') (_level m)) = false) /\
  (exists w c s s' m l, exec w c s = (s', [Asked l true; Begun (mkPlace (lit "a.cpp") 1 (lit "f")) l; Handed (ToFatal [] m SIGABRT)], Ended) /\
     wasFatal l = false /\ w_dump w <> []).
Proof.
  split.
  - exists (mkWorld true false (fun n => Z.of_nat n) 7 (lit "dump") (fun n => match n with 0 => INFO | _ => WARNING end) 2048 false).
    exists (Log (mkPlace (lit "a.cpp") 1 (lit "f")) (KLog LCall) FStream Done (OCons Done (Some (lit "hello")) ONil) Done).
    exists (mkState INFO 0 0 (disable g_log_level_defaults WARNING)). do 4 eexists. split; [vm_compute; reflexivity|]. split; [discriminate|reflexivity].
  - exists (mkWorld true false (fun n => Z.of_nat n) 7 (lit "dump") (fun _ => INFO) 2048 false).
    exists (Log (mkPlace (lit "a.cpp") 1 (lit "f")) (KLog LVar) FStream Done (OCons (SetVar FATAL Done) (Some (lit "hello")) ONil) Done).
    exists (mkState INFO 0 0 g_log_level_defaults). do 3 eexists. split; [vm_compute; reflexivity|]. split; [reflexivity|discriminate].
Qed.
Print Assumptions C101_refuted.

(** ** C102: the text of every operand is in the entry *)
Theorem C102_until_failure_partial : forall w p l cond ops s s1 tr1 text,
  snd (query (w_dynamic w) (s_levels s) l) = true -> (size (c_str (p_file p)) < npos)%N ->
  exec_ops w ops (mkState (s_var s) (s_called s) (s_read s) (fst (query (w_dynamic w) (s_levels s) l))) [] true = (s1, tr1, Normal, text) ->
  joined ops = all_text ops ->
  exists s3 d o, exec w (Log p (KLog (LConst l)) FStream cond ops Done) s = (s3, Asked l true :: Begun p l :: tr1 ++ [Handed d], o) /\
    _message (message_of d) = c_str (all_text ops).
Proof.
  intros w p l cond ops s s1 tr1 text Q B X J. destruct (C100_own_text w p l cond ops s s1 tr1 text Q B X) as (s3 & d & E & _ & M & _).
  do 3 eexists. split; [exact E|]. rewrite M, J. reflexivity.
Qed.
Print Assumptions C102_until_failure_partial.

(** LOG(INFO) << "x = " << null << ", y = 5" loses the last operand, silently *)
Theorem C102_refuted : exists w c s s' m ops p, c = Log p (KLog (LConst INFO)) FStream Done ops Done /\
  exec w c s = (s', [Asked INFO true; Begun p INFO; Handed (ToLogger m)], Normal) /\
  _message m <> c_str (all_text ops).
Proof.
  exists (mkWorld true false (fun n => Z.of_nat n) 7 (lit "dump") (fun _ => INFO) 2048 false). eexists.
  exists (mkState INFO 0 0 g_log_level_defaults). do 2 eexists.
  exists (OCons Done (Some (lit "x = ")) (OCons Done None (OCons Done (Some (lit ", y = 5")) ONil))), (mkPlace (lit "a.cpp") 1 (lit "f")).
  split; [reflexivity|]. split; [vm_compute; reflexivity|vm_compute; discriminate].
Qed.
Print Assumptions C102_refuted.

(** ** C103: time order *)
Theorem C103_per_thread_partial : forall t0 es st i, Stamps.runs (Stamps.start t0) es = Some st -> forward t0 es ->
  in_time_order (of_thread i (Stamps.queue st)) /\
  map Stamps.e_number (of_thread i (Stamps.queue st)) = seq 0 (length (of_thread i (Stamps.queue st))).
Proof.
  intros t0 es st i R F.
  assert (OK : stamp_ok (Stamps.start t0)).
  { intro j. cbn. repeat split; auto. intros e []. }
  destruct (stamp_runs _ _ _ R OK F i) as (N & O & _). auto.
Qed.
Print Assumptions C103_per_thread_partial.

(** Statements that do not overlap: entry [a] was in the queue before the statement of [b] began.  Then [b] has no earlier stamp and is
    behind [a] in the queue. *)
Theorem C103_apart_partial : forall t0 es1 es2 st1 st2 a b,
  Stamps.runs (Stamps.start t0) es1 = Some st1 -> Stamps.runs st1 es2 = Some st2 -> forward t0 (es1 ++ es2) ->
  In a (Stamps.queue st1) -> In b (Stamps.queue st2) -> Stamps.begun st1 (Stamps.e_thread b) <= Stamps.e_number b ->
  (Stamps.e_time a <= Stamps.e_time b)%Z /\
  exists q1 q2 q3, Stamps.queue st2 = q1 ++ a :: q2 ++ b :: q3.
Proof.
  intros t0 es1 es2 st1 st2 a b R1 R2 F A B N.
  assert (OK : stamp_ok (Stamps.start t0)).
  { intro j. cbn. repeat split; auto. intros e []. }
  destruct (forward_app es1 es2 (Stamps.start t0) st1 R1 F) as (F1 & F2).
  pose proof (stamp_runs _ _ _ R1 OK F1) as OK1.
  assert (Own : forall e, In e (Stamps.queue st1) -> In e (of_thread (Stamps.e_thread e) (Stamps.queue st1))).
  { intros e I. apply filter_In. rewrite Nat.eqb_refl. auto. }
  assert (TA : (Stamps.e_time a <= Stamps.clock st1)%Z).
  { destruct (OK1 (Stamps.e_thread a)) as (_ & _ & C & _). apply C. auto. }
  destruct (later_runs es2 (Stamps.clock st1) (Stamps.begun st1) st1 st2 [] R2 F2) as (more & Q & L).
  { repeat split; auto; [lia|intros e []|]. intro i. destruct (OK1 i) as (_ & _ & _ & P). destruct (Stamps.phases st1 i); auto. intro. lia. }
  rewrite Q in B. apply in_app_or in B as [B|B].
  - exfalso. destruct (OK1 (Stamps.e_thread b)) as (NU & _ & _ & P). specialize (Own b B).
    assert (I : In (Stamps.e_number b) (map Stamps.e_number (of_thread (Stamps.e_thread b) (Stamps.queue st1)))) by (apply in_map; exact Own).
    rewrite NU in I. apply in_seq in I. destruct (Stamps.phases st1 (Stamps.e_thread b)); lia.
  - split.
    + destruct L as (_ & _ & L & _). specialize (L b B N). lia.
    + apply in_split in A as (q1 & q2 & A). apply in_split in B as (m1 & m2 & B). exists q1, (q2 ++ m1), m2.
      rewrite Q, A, B, <- !app_assoc. reflexivity.
Qed.
Print Assumptions C103_apart_partial.

(** no statement takes longer than [d] from reading the clock to the push; [at_] is when each thread has read the clock last *)
Fixpoint prompt (d now : Z) (at_ : nat -> Z) (es : list Stamps.step) : Prop :=
  match es with
  | [] => True
  | Stamps.Tick t :: r => prompt d t at_ r
  | Stamps.Begin _ :: r => prompt d now at_ r
  | Stamps.Stamp i :: r => prompt d now (fun j => if Nat.eqb j i then now else at_ j) r
  | Stamps.Push i :: r => (now - at_ i <= d)%Z /\ prompt d now at_ r
  end.
(** no entry is more than [d] later than an entry behind it *)
Definition nearly_in_order (d : Z) (q : list Stamps.entry) : Prop :=
  forall q1 a q2 b q3, q = q1 ++ a :: q2 ++ b :: q3 -> (Stamps.e_time a <= Stamps.e_time b + d)%Z.
Definition prompt_ok (d : Z) (at_ : nat -> Z) (st : Stamps.state) : Prop :=
  nearly_in_order d (Stamps.queue st) /\ (forall e, In e (Stamps.queue st) -> (Stamps.e_time e <= Stamps.clock st)%Z) /\
  (forall i n t, Stamps.phases st i = Stamps.Stamped n t -> at_ i = t /\ (t <= Stamps.clock st)%Z).
Lemma nearly_snoc : forall d q e, nearly_in_order d q -> (forall a, In a q -> (Stamps.e_time a <= Stamps.e_time e + d)%Z) -> nearly_in_order d (q ++ [e]).
Proof.
  intros d q e N A q1 a q2 b q3 E. destruct (exists_last (l := b :: q3)) as (m & y & M); [discriminate|].
  rewrite M in E. rewrite app_comm_cons, !app_assoc in E. apply app_inj_tail in E as [E Y]. subst y.
  destruct m as [|z m]; cbn in M; injection M; intros M1 M2.
  - subst b. apply A. rewrite E. apply in_or_app. left. apply in_or_app. right. left. reflexivity.
  - subst z. apply (N q1 a q2 b m). rewrite E, <- !app_assoc. reflexivity.
Qed.
Lemma prompt_runs : forall d es at_ st st', Stamps.runs st es = Some st' -> forward (Stamps.clock st) es ->
  prompt d (Stamps.clock st) at_ es -> prompt_ok d at_ st -> exists at', prompt_ok d at' st'.
Proof.
  intros d es. induction es as [|e es IH]; intros at_ st st' R F P (N & Q & S); cbn [Stamps.runs] in R.
  - injection R as <-. exists at_. repeat split; auto; eapply S; eauto.
  - destruct (Stamps.do_step st e) as [s1|] eqn:D; [|discriminate]. destruct e as [t|i|i|i]; cbn in D, F, P.
    + injection D as <-. destruct F as (L & F). apply (IH at_ _ _ R F P). split; [exact N|]. split; cbn.
      * intros x I. specialize (Q x I). lia.
      * intros i n u H. destruct (S i n u H). split; [auto|lia].
    + destruct (Stamps.phases st i) eqn:H; try discriminate. injection D as <-. apply (IH at_ _ _ R F P). split; [exact N|]. split; [exact Q|]. cbn.
      intros j n u. unfold Stamps.upd. destruct (Nat.eqb j i); [discriminate|]. apply S.
    + destruct (Stamps.phases st i) eqn:H; try discriminate. injection D as <-. apply (IH _ _ _ R F P). split; [exact N|]. split; [exact Q|]. cbn.
      intros j m u. unfold Stamps.upd. destruct (Nat.eqb j i); [intro E; injection E as <- <-; split; [auto|lia]|]. apply S.
    + destruct (Stamps.phases st i) as [| |n u] eqn:H; try discriminate. injection D as <-. destruct P as (P1 & P).
      destruct (S i n u H) as (A & U). apply (IH at_ _ _ R F P). split; cbn.
      * apply nearly_snoc; [exact N|]. intros a I. specialize (Q a I). cbn. lia.
      * split.
        { intros x I. apply in_app_or in I as [I|[<-|[]]]; [apply Q; exact I|cbn; lia]. }
        intros j m w. unfold Stamps.upd. destruct (Nat.eqb j i); [discriminate|]. apply S.
Qed.
(** How far from the order of the stamps the queue can be: not further than the longest time between the reading of the clock and the push. *)
Theorem C103_bounded_partial : forall t0 d es st, Stamps.runs (Stamps.start t0) es = Some st -> forward t0 es -> prompt d t0 (fun _ => t0) es ->
  nearly_in_order d (Stamps.queue st).
Proof.
  intros t0 d es st R F P.
  destruct (prompt_runs d es (fun _ => t0) (Stamps.start t0) st R F P) as (at' & N & _); [|exact N].
  split; [|split; cbn].
  - intros [|x q1] a q2 b q3 E; discriminate E.
  - intros e [].
  - intros i n t E. discriminate E.
Qed.
Print Assumptions C103_bounded_partial.
(** the run of C103_refuted: prompt within 5, and 5 is needed *)
Example C103_bounded_ex : exists st,
  Stamps.runs (Stamps.start 0) [Stamps.Begin 0; Stamps.Begin 1; Stamps.Stamp 0; Stamps.Tick 5; Stamps.Stamp 1; Stamps.Push 1; Stamps.Push 0] = Some st /\
  prompt 5 0 (fun _ => 0%Z) [Stamps.Begin 0; Stamps.Begin 1; Stamps.Stamp 0; Stamps.Tick 5; Stamps.Stamp 1; Stamps.Push 1; Stamps.Push 0] /\
  map Stamps.e_time (Stamps.queue st) = [5; 0]%Z.
Proof. eexists. split; [reflexivity|]. split; [cbn; lia|reflexivity]. Qed.

(** two statements that overlap *)
Theorem C103_refuted : exists t0 es st, Stamps.runs (Stamps.start t0) es = Some st /\ forward t0 es /\ ~ in_time_order (Stamps.queue st).
Proof.
  exists 0%Z, [Stamps.Begin 0; Stamps.Begin 1; Stamps.Stamp 0; Stamps.Tick 5; Stamps.Stamp 1; Stamps.Push 1; Stamps.Push 0].
  eexists. split; [reflexivity|]. split; [cbn; lia|]. cbn. lia.
Qed.
Print Assumptions C103_refuted.

(** ** A case *)
Definition ex_world : world := mkWorld true false (fun n => Z.of_nat (100 + n)) 7 (lit "dump") (fun _ => INFO) 2048 false.
Definition ex_at (n : Z) : place := mkPlace (lit "dir/a.cpp") n (lit "f").
(** LOG(INFO) << "a" << f() << "c" where f logs, logs again, and throws *)
Definition ex_code : code :=
  Log (ex_at 1) (KLog (LConst INFO)) FStream Done
    (OCons Done (Some (lit "a"))
       (OCons (Log (ex_at 2) (KLog (LConst WARNING)) FStream Done (OCons Done (Some (lit "inner")) ONil)
                (Log (ex_at 3) (KLogIf (LConst G3LOG_DEBUG) true) (FPrintf (lit "%d") (Some (lit "42"))) Done (OCons Done (Some []) ONil) Throw)) (Some (lit "b"))
          (OCons Done (Some (lit "c")) ONil)))
    (Log (ex_at 4) (KLog (LConst INFO)) FStream Done ONil Done).
Definition ex_state : state := mkState INFO 0 0 g_log_level_defaults.
Example C99_ex : let '(_, tr, o) := exec ex_world ex_code ex_state in
  o = Threw /\ map (fun d => (_line (message_of d), _message (message_of d), time_of d)) (entries tr) =
  [(2%Z, lit "inner", 100%Z); (3%Z, lit "42", 101%Z); (1%Z, lit "a", 102%Z)].
Proof. vm_compute. split; reflexivity. Qed.
(** a fatal statement inside an operand: the outer entry is never handed over *)
Example C99_ex_fatal : let '(_, tr, o) := exec ex_world
    (Log (ex_at 1) (KLog (LConst INFO)) FStream Done
       (OCons (Log (ex_at 2) (KCheck false (lit "x > 0")) FStream Done (OCons Done (Some (lit "bad")) ONil) Done) (Some (lit "b")) ONil) Done) ex_state in
  o = Ended /\ map (fun d => (_line (message_of d), _message (message_of d))) (entries tr) = [(2%Z, lit "bad")].
Proof. vm_compute. split; reflexivity. Qed.
(** CHECK(cond) << ... with all levels disabled: the condition is evaluated, and logs, and the failure is reported *)
Example C100_check_ex : let '(_, tr, o) := exec ex_world
    (Log (ex_at 1) (KCheck false (lit "f()")) FStream (Log (ex_at 2) (KLog (LConst WARNING)) FStream Done ONil Done) (OCons Done (Some (lit "bad")) ONil) Done)
    (mkState INFO 0 0 []) in
  o = Ended /\ map (fun d => (_line (message_of d), _message (message_of d), value (_level (message_of d)))) (entries tr) = [(1%Z, lit "bad", 2000%Z)].
Proof. vm_compute. split; reflexivity. Qed.
Example C101_ex : steady (KLogIf LVar true) Done (OCons (Log (ex_at 2) (KLog (LConst WARNING)) FStream Done ONil Done) (Some (lit "b")) ONil) ex_state INFO.
Proof. vm_compute. auto. Qed.
Example C103_ex : option_map (fun st => map (fun e => (Stamps.e_thread e, Stamps.e_number e, Stamps.e_time e)) (Stamps.queue st))
    (Stamps.runs (Stamps.start 0) ([Stamps.Begin 0; Stamps.Stamp 0; Stamps.Begin 1; Stamps.Push 0] ++
      [Stamps.Tick 3; Stamps.Begin 0; Stamps.Stamp 1; Stamps.Stamp 0; Stamps.Push 0; Stamps.Push 1])) =
  Some [(0, 0, 0%Z); (0, 1, 3%Z); (1, 0, 3%Z)].
Proof. vm_compute. reflexivity. Qed.
