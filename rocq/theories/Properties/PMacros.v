(** C33, C70: the logging macros.  Model: Model/Macros.v, specification: Spec/MacrosSpec.v. *)
From Coq Require Import Ascii String List ZArith Bool Lia.
From Verif.Base Require Import Bytes.
From Verif.Model Require Import Levels Macros.
From Verif.Spec Require Import LevelsSpec MacrosSpec.
From Verif.Proofs Require Import LevelsFacts MacrosFacts.
Import ListNotations.
Local Open Scope list_scope.

(** ** C33 *)
(** What a macro use does is exactly the documented sequence: the level is asked first, the condition is
    evaluated at most once and only if the level is enabled, the arguments only if the entry is emitted;
    CHECK never asks for a level.  [cond_true] is the truth value of the condition, which must be a
    boolean (0 or 1) for CHECK and may be any integer for LOG_IF. *)
Theorem C33_macros_do_what_is_documented : forall f dyn client tbl m,
  (forall c, is_check m = true -> cond_of m = Some c -> client c = 0%Z \/ client c = 1%Z) ->
  let enabled := match level_of m with Some l => snd (query dyn tbl l) | None => true end in
  let holds := match cond_of m with Some c => negb (client c =? 0)%Z | None => true end in
  snd (exec (S (S f)) dyn client tbl (expand_macro m)) = documented m enabled holds.
Proof.
  intros f dyn client tbl m B enabled holds. pose proof (exec_macro f dyn client tbl m) as X.
  destruct (eval dyn client tbl (macro_cond m)) as [[tb tr] v] eqn:E. rewrite X. cbn [snd]. clear X.
  destruct m; cbn [macro_cond eval] in E; subst enabled holds; cbn [level_of cond_of is_check] in *.
  - destruct (query dyn tbl l) as [t' b]. injection E as <- <- <-. destruct b; reflexivity.
  - destruct (query dyn tbl l) as [t' b]. destruct b; cbn in E; injection E as <- <- <-; cbn.
    + destruct (client cond); reflexivity.
    + reflexivity.
  - injection E as <- <- <-. specialize (B cond eq_refl eq_refl). destruct B as [-> | ->]; reflexivity.
  - destruct (query dyn tbl l) as [t' b]. injection E as <- <- <-. destruct b; reflexivity.
  - destruct (query dyn tbl l) as [t' b]. destruct b; cbn in E; injection E as <- <- <-; cbn.
    + destruct (client cond); reflexivity.
    + reflexivity.
  - injection E as <- <- <-. specialize (B cond eq_refl eq_refl). destruct B as [-> | ->]; reflexivity.
  - injection E as <- <- <-. specialize (B cond eq_refl eq_refl). destruct B as [-> | ->]; reflexivity.
Qed.
Print Assumptions C33_macros_do_what_is_documented.

(** In terms of the program's history: with dynamic levels the entry depends on the last call that concerned
    the level, without them every level is on. *)
Theorem C33_after_history : forall f (dyn : bool) client ops m, logs_registered (rev ops) ->
  (forall c, is_check m = true -> cond_of m = Some c -> client c = 0%Z \/ client c = 1%Z) ->
  let enabled :=
    match level_of m with
    | Some l => if dyn then match verdict (rev ops) (value l) with Some true => true | _ => false end else true
    | None => true
    end in
  let holds := match cond_of m with Some c => negb (client c =? 0)%Z | None => true end in
  snd (exec (S (S f)) dyn client (lrun ops) (expand_macro m)) = documented m enabled holds.
Proof.
  intros f dyn client ops m R B. cbv zeta. rewrite C33_macros_do_what_is_documented by assumption. f_equal.
  destruct (level_of m) as [l|]; auto. unfold query. destruct dyn; [|reflexivity]. rewrite verdict_registered by assumption.
  destruct (verdict (rev ops) (value l)) as [[|]|]; reflexivity.
Qed.
Print Assumptions C33_after_history.
Example C33_after_history_ex :
  snd (exec 2 true (fun _ => 1%Z) (lrun [OpDisable INFO; OpEnable WARNING]) (expand_macro (MLOG INFO 7))) = [EvQuery INFO] /\
  snd (exec 2 false (fun _ => 1%Z) (lrun [OpDisable INFO; OpEnable WARNING]) (expand_macro (MLOG INFO 7))) =
    EvQuery INFO :: emission INFO None 7 /\
  logs_registered (rev [OpDisable INFO; OpEnable WARNING]).
Proof. vm_compute. auto. Qed.

(** The entry appears exactly when the level is enabled and the condition holds, resp. when the
    contract is broken; level settings cannot silence a CHECK. *)
Theorem C33_emits_iff : forall f dyn client tbl m,
  (forall c, is_check m = true -> cond_of m = Some c -> client c = 0%Z \/ client c = 1%Z) ->
  In EvEmit (snd (exec (S (S f)) dyn client tbl (expand_macro m))) <->
  if is_check m then exists c, cond_of m = Some c /\ client c = 0%Z
  else (exists l, level_of m = Some l /\ snd (query dyn tbl l) = true) /\
       (forall c, cond_of m = Some c -> client c <> 0%Z).
Proof.
  intros f dyn client tbl m B. rewrite C33_macros_do_what_is_documented by assumption.
  destruct m; cbn [is_check level_of cond_of documented].
  - destruct (snd (query dyn tbl l)) eqn:Q; split; intro H.
    + split; [eauto|discriminate].
    + simpl. auto 6.
    + simpl in H. destruct H as [H|[]]. discriminate.
    + destruct H as ((l' & E & Q') & _). congruence.
  - destruct (snd (query dyn tbl l)) eqn:Q; [|split; intro H].
    + destruct (Z.eqb_spec (client cond) 0) as [C|C]; split; intro H.
      * simpl in H. intuition discriminate.
      * destruct H as [_ H]. exfalso. now apply (H cond).
      * split; [eauto|]. intros c E. injection E as <-. assumption.
      * simpl. auto 8.
    + simpl in H. destruct H as [H|[]]. discriminate.
    + destruct H as ((l' & E & Q') & _). congruence.
  - specialize (B cond eq_refl eq_refl). destruct B as [B|B]; rewrite B; cbn; split; intro H.
    + eauto. + auto 8.
    + destruct H as [H|[]]; discriminate.
    + destruct H as (c & E & H). injection E as <-. lia.
  - destruct (snd (query dyn tbl l)) eqn:Q; split; intro H.
    + split; [eauto|discriminate].
    + simpl. auto 6.
    + simpl in H. destruct H as [H|[]]. discriminate.
    + destruct H as ((l' & E & Q') & _). congruence.
  - destruct (snd (query dyn tbl l)) eqn:Q; [|split; intro H].
    + destruct (Z.eqb_spec (client cond) 0) as [C|C]; split; intro H.
      * simpl in H. intuition discriminate.
      * destruct H as [_ H]. exfalso. now apply (H cond).
      * split; [eauto|]. intros c E. injection E as <-. assumption.
      * simpl. auto 8.
    + simpl in H. destruct H as [H|[]]. discriminate.
    + destruct H as ((l' & E & Q') & _). congruence.
  - specialize (B cond eq_refl eq_refl). destruct B as [B|B]; rewrite B; cbn; split; intro H.
    + eauto. + auto 8.
    + destruct H as [H|[]]; discriminate.
    + destruct H as (c & E & H). injection E as <-. lia.
  - specialize (B cond eq_refl eq_refl). destruct B as [B|B]; rewrite B; cbn; split; intro H.
    + eauto. + auto 8.
    + destruct H as [H|[]]; discriminate.
    + destruct H as (c & E & H). injection E as <-. lia.
Qed.
Print Assumptions C33_emits_iff.

(** conditions and arguments are evaluated at most once *)
Theorem C33_at_most_once : forall f dyn client tbl m,
  (forall c, is_check m = true -> cond_of m = Some c -> client c = 0%Z \/ client c = 1%Z) ->
  let tr := snd (exec (S (S f)) dyn client tbl (expand_macro m)) in NoDup tr.
Proof.
  intros f dyn client tbl m B tr. subst tr. rewrite C33_macros_do_what_is_documented by assumption.
  destruct m; cbn [documented]; repeat match goal with |- context [if ?b then _ else _] => destruct b end;
  unfold emission; repeat constructor; simpl; intuition discriminate.
Qed.
Print Assumptions C33_at_most_once.

(** under an if of the client the use does what is documented when the condition holds, and nothing at all - not even asking for
    the level - when it does not; in the first branch of an if-else the client's else stays with the client's if *)
Theorem C33_under_if : forall f dyn client tbl m c other,
  (forall c, is_check m = true -> cond_of m = Some c -> client c = 0%Z \/ client c = 1%Z) ->
  let enabled := match level_of m with Some l => snd (query dyn tbl l) | None => true end in
  let holds := match cond_of m with Some c => negb (client c =? 0)%Z | None => true end in
  (client c <> 0%Z ->
     snd (exec (S (S (S f))) dyn client tbl (SIf (XClient c) (expand_macro m))) = EvCond c :: documented m enabled holds /\
     snd (exec (S (S (S f))) dyn client tbl (SIfElse (XClient c) (expand_macro m) (SCall other))) = EvCond c :: documented m enabled holds) /\
  (client c = 0%Z ->
     exec (S (S (S f))) dyn client tbl (SIf (XClient c) (expand_macro m)) = (tbl, [EvCond c]) /\
     exec (S (S (S f))) dyn client tbl (SIfElse (XClient c) (expand_macro m) (SCall other)) = (tbl, [EvCond c; EvCall other])).
Proof.
  intros f dyn client tbl m c other B enabled holds. pose proof (C33_macros_do_what_is_documented f dyn client tbl m B) as X. cbv zeta in X.
  assert (U1 : exec (S (S (S f))) dyn client tbl (SIf (XClient c) (expand_macro m)) =
    if (client c =? 0)%Z then (tbl, [EvCond c]) else let '(tb, tr) := exec (S (S f)) dyn client tbl (expand_macro m) in (tb, [EvCond c] ++ tr)) by reflexivity.
  assert (U2 : exec (S (S (S f))) dyn client tbl (SIfElse (XClient c) (expand_macro m) (SCall other)) =
    let '(tb, tr) := exec (S (S f)) dyn client tbl (if (client c =? 0)%Z then SCall other else expand_macro m) in (tb, [EvCond c] ++ tr)) by reflexivity.
  rewrite U1, U2. split; intro N.
  - destruct (Z.eqb_spec (client c) 0) as [C|C]; [contradiction|]. destruct (exec (S (S f)) dyn client tbl (expand_macro m)) as [tb tr].
    cbn [snd] in X. cbn [snd app]. subst tr. split; reflexivity.
  - destruct (Z.eqb_spec (client c) 0) as [C|C]; [|contradiction]. split; reflexivity.
Qed.
Print Assumptions C33_under_if.
Example C33_under_if_ex :
  snd (exec 3 true (fun n => if (n =? 4)%nat then 1%Z else 0%Z) (lrun []) (SIf (XClient 4) (expand_macro (MLOG INFO 7)))) = EvCond 4 :: EvQuery INFO :: emission INFO None 7 /\
  snd (exec 3 true (fun n => if (n =? 4)%nat then 0%Z else 1%Z) (lrun []) (SIfElse (XClient 4) (expand_macro (MLOG INFO 7)) (SCall 9))) = [EvCond 4; EvCall 9].
Proof. vm_compute. auto. Qed.

(** The body of a while loop: not run at all when the condition fails; otherwise the condition is followed by
    one complete run of the macro and then by the rest of the loop, which starts at the condition again. *)
Theorem C33_under_while : forall f dyn client tbl m c,
  (forall c, is_check m = true -> cond_of m = Some c -> client c = 0%Z \/ client c = 1%Z) ->
  let enabled := match level_of m with Some l => snd (query dyn tbl l) | None => true end in
  let holds := match cond_of m with Some c => negb (client c =? 0)%Z | None => true end in
  (client c = 0%Z -> exec (S (S (S f))) dyn client tbl (SWhile (XClient c) (expand_macro m)) = (tbl, [EvCond c])) /\
  (client c <> 0%Z ->
     exists tbl', fst (exec (S (S f)) dyn client tbl (expand_macro m)) = tbl' /\
       snd (exec (S (S (S f))) dyn client tbl (SWhile (XClient c) (expand_macro m))) =
         EvCond c :: documented m enabled holds ++ snd (exec (S (S f)) dyn client tbl' (SWhile (XClient c) (expand_macro m)))).
Proof.
  intros f dyn client tbl m c B enabled holds. pose proof (C33_macros_do_what_is_documented f dyn client tbl m B) as X. cbv zeta in X.
  assert (U : exec (S (S (S f))) dyn client tbl (SWhile (XClient c) (expand_macro m)) =
    if (client c =? 0)%Z then (tbl, [EvCond c]) else
      let '(tb', tr') := exec (S (S f)) dyn client tbl (expand_macro m) in
      let '(tb'', tr'') := exec (S (S f)) dyn client tb' (SWhile (XClient c) (expand_macro m)) in (tb'', [EvCond c] ++ tr' ++ tr'')) by reflexivity.
  rewrite U. split; intro N.
  - rewrite N. reflexivity.
  - destruct (Z.eqb_spec (client c) 0) as [C|C]; [contradiction|]. destruct (exec (S (S f)) dyn client tbl (expand_macro m)) as [tb tr].
    cbn [snd] in X. exists tb. split; [reflexivity|]. destruct (exec (S (S f)) dyn client tb (SWhile (XClient c) (expand_macro m))) as [t2 r2].
    cbn [snd app]. subst tr. reflexivity.
Qed.
Print Assumptions C33_under_while.
Example C33_under_while_ex :
  snd (exec 4 true (fun _ => 1%Z) (lrun []) (SWhile (XClient 4) (expand_macro (MLOG INFO 7)))) =
    EvCond 4 :: EvQuery INFO :: emission INFO None 7 ++ EvCond 4 :: EvQuery INFO :: emission INFO None 7 ++ [EvCond 4; EvQuery INFO; EvCond 4] /\
  snd (exec 4 true (fun _ => 0%Z) (lrun []) (SWhile (XClient 4) (expand_macro (MLOG INFO 7)))) = [EvCond 4].
Proof. vm_compute. auto. Qed.

(** Macros are safe in any statement context: whenever the client's text, read with each macro use as one
    statement, parses to s, the preprocessed text parses to a statement with the same meaning. *)
Theorem C33_safe_in_every_context : forall f ts s rest,
  parse f ts = Some (s, rest) ->
  exists f' s', parse f' (preprocess ts) = Some (s', preprocess rest) /\ meaning s' = meaning s.
Proof.
  intros f ts s rest H. apply parse_preprocess in H as (s' & H & M). eauto.
Qed.
Print Assumptions C33_safe_in_every_context.

(** if (x) LOG(INFO) << a; else y();  *)
Definition ex_src : list token :=
  [TIf; TCond (XClient 0); TUse (MLOG INFO 7); TSemi; TElse; TExpr 5; TSemi].
Example C33_ex :
  parse 5 ex_src = Some (PIfElse (XClient 0) (PUse (MLOG INFO 7)) (PCall 5), []) /\
  parse 7 (preprocess ex_src) =
    Some (PIfElse (XClient 0) (PIfElse (XNot (XLevel INFO)) (PBlock []) (PEmit (mkEmit INFO None 7))) (PCall 5), []) /\
  (* a macro expanding to a plain if would capture the else: *)
  parse 7 [TIf; TCond (XClient 0); TIf; TCond (XLevel INFO); TEmit (mkEmit INFO None 7); TSemi; TElse; TExpr 5; TSemi] =
    Some (PIf (XClient 0) (PIfElse (XLevel INFO) (PEmit (mkEmit INFO None 7)) (PCall 5)), []) /\
  snd (exec 5 true (fun _ => 1%Z) g_log_level_defaults (expand_macro (MLOG_IF INFO 3 7))) =
    [EvQuery INFO; EvCond 3; EvCapture INFO None; EvArgs 7; EvEmit] /\
  snd (exec 5 true (fun _ => 0%Z) (disableAll g_log_level_defaults) (expand_macro (MCHECK 3 7))) =
    [EvCond 3; EvCapture CONTRACT (Some 3); EvArgs 7; EvEmit].
Proof. repeat split. Qed.

(** ** C70: CHECK with an integer condition *)
(** CHECK(n) compares with true: a non-zero integer other than 1 counts as a broken contract. *)
Theorem C70_refuted : exists client, client 3 = 2%Z /\
  In EvEmit (snd (exec 5 true client g_log_level_defaults (expand_macro (MCHECK 3 7)))) /\
  In EvEmit (snd (exec 5 true client g_log_level_defaults (expand_macro (MCHECKF 3 7)))) /\
  In EvEmit (snd (exec 5 true client g_log_level_defaults (expand_macro (MCHECK_F 3 7)))).
Proof. exists (fun _ => 2%Z). split; [reflexivity|]. simpl. auto 8. Qed.
Print Assumptions C70_refuted.

(** the three macros for contracts behave alike *)
Theorem C70_check_passes_iff_one : forall f dyn client tbl c a m, In m [MCHECK c a; MCHECKF c a; MCHECK_F c a] ->
  snd (exec (S (S f)) dyn client tbl (expand_macro m)) =
  EvCond c :: if (client c =? 1)%Z then [] else emission CONTRACT (Some c) a.
Proof.
  intros f dyn client tbl c a m I. pose proof (exec_macro f dyn client tbl m) as X.
  cbn [In] in I. repeat (destruct I as [I|I]; [subst m; cbn [macro_cond eval] in X; rewrite X;
    cbn [snd]; rewrite (Z.eqb_sym 1); destruct (client c =? 1)%Z; reflexivity|]).
  contradiction.
Qed.
Print Assumptions C70_check_passes_iff_one.

Example C70_ex : snd (exec 5 true (fun _ => 1%Z) [] (expand_macro (MCHECK 3 7))) = [EvCond 3].
Proof. reflexivity. Qed.

(** the statements around the macros mean what they mean in C++ *)
Example exec_ex :
  exec 9 true (fun _ => 0%Z) [] (SWhile (XClient 1) (SCall 2)) = ([], [EvCond 1]) /\
  exec 4 true (fun _ => 7%Z) [] (SWhile (XClient 1) (SCall 2)) = ([], [EvCond 1; EvCall 2; EvCond 1; EvCall 2; EvCond 1; EvCall 2; EvCond 1]) /\
  exec 9 true (fun _ => 0%Z) [] (SIf (XClient 1) (SCall 2)) = ([], [EvCond 1]) /\
  exec 9 true (fun _ => 7%Z) [] (SIf (XClient 1) (SCall 2)) = ([], [EvCond 1; EvCall 2]).
Proof. repeat split. Qed.
