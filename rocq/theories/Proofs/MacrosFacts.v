From Coq Require Import List ZArith Bool Lia.
From Verif.Model Require Import Levels Macros.
From Verif.Spec Require Import MacrosSpec.
Import ListNotations.
Local Open Scope list_scope.

Lemma preprocess_cons : forall t ts, preprocess (t :: ts) = expand_token t ++ preprocess ts.
Proof. reflexivity. Qed.

Lemma parse_preprocess : forall f,
  (forall ts s r, parse f ts = Some (s, r) ->
     exists s', parse (S (S f)) (preprocess ts) = Some (s', preprocess r) /\ meaning s' = meaning s) /\
  (forall ts l r, parse_seq f ts = Some (l, r) ->
     exists l', parse_seq (S (S f)) (preprocess ts) = Some (l', preprocess r) /\ map meaning l' = map meaning l).
Proof.
  induction f as [|f [IH1 IH2]]; [split; discriminate|]. split.
  - intros ts s r H. cbn [parse] in H.
    destruct ts as [|[]]; try discriminate.
    + (* if *)
      destruct ts as [|[]]; try discriminate.
      destruct (parse f ts) as [[t r']|] eqn:E; [|discriminate].
      apply IH1 in E as (t' & E & M).
      change (preprocess (TIf :: TCond c :: ts)) with (TIf :: TCond c :: preprocess ts).
      assert (G : forall g, parse (S g) (TIf :: TCond c :: preprocess ts) =
        match parse g (preprocess ts) with
        | Some (t, TElse :: r') =>
            match parse g r' with Some (e, r'') => Some (PIfElse c t e, r'') | None => None end
        | Some (t, r') => Some (PIf c t, r')
        | None => None
        end) by reflexivity.
      rewrite G, E. clear G.
      destruct r' as [|a r']; [injection H as <- <-; eexists; split; [reflexivity|]; simpl; congruence|].
      destruct a; try (injection H as <- <-; eexists; split; [reflexivity|]; simpl; congruence).
      (* else *)
      rewrite preprocess_cons. cbn [expand_token app].
      destruct (parse f r') as [[e r'']|] eqn:E2; [|discriminate]. injection H as <- <-.
      apply IH1 in E2 as (e' & E2 & M2). rewrite E2. eexists. split; [reflexivity|]. simpl. congruence.
    + (* while *)
      destruct ts as [|[]]; try discriminate.
      destruct (parse f ts) as [[t r']|] eqn:E; [|discriminate]. injection H as <- <-.
      apply IH1 in E as (t' & E & M).
      change (preprocess (TWhile :: TCond c :: ts)) with (TWhile :: TCond c :: preprocess ts).
      assert (G : forall g, parse (S g) (TWhile :: TCond c :: preprocess ts) =
        match parse g (preprocess ts) with Some (b, r') => Some (PWhile c b, r') | None => None end) by reflexivity.
      rewrite G, E. eexists. split; [reflexivity|]. simpl. congruence.
    + (* block *)
      destruct (parse_seq f ts) as [[l r']|] eqn:E; [|discriminate]. injection H as <- <-.
      apply IH2 in E as (l' & E & M).
      change (preprocess (TLBrace :: ts)) with (TLBrace :: preprocess ts).
      assert (G : forall g, parse (S g) (TLBrace :: preprocess ts) =
        match parse_seq g (preprocess ts) with Some (l, r') => Some (PBlock l, r') | None => None end) by reflexivity.
      rewrite G, E. eexists. split; [reflexivity|]. simpl. congruence.
    + (* expression *)
      destruct ts as [|[]]; try discriminate. injection H as <- <-. exists (PCall n). split; reflexivity.
    + destruct ts as [|[]]; try discriminate. injection H as <- <-. exists (PEmit e). split; reflexivity.
    + (* macro use *)
      destruct ts as [|[]]; try discriminate. injection H as <- <-.
      eexists. split; [reflexivity|]. reflexivity.
  - intros ts l r H. cbn [parse_seq] in H.
    assert (C : (exists r0, ts = TRBrace :: r0 /\ l = [] /\ r = r0) \/
      exists s r1 l1, parse f ts = Some (s, r1) /\ parse_seq f r1 = Some (l1, r) /\ l = s :: l1 /\
        (forall r0, ts <> TRBrace :: r0)).
    { destruct ts as [|a ts'] eqn:TS.
      - destruct (parse f []) as [[s r1]|]; [|discriminate].
        destruct (parse_seq f r1) as [[l1 r2]|] eqn:E; [|discriminate]. injection H as <- <-.
        right. exists s, r1, l1. repeat split; auto. discriminate.
      - destruct a;
        try (destruct (parse f (_ :: ts')) as [[s r1]|]; [|discriminate];
             destruct (parse_seq f r1) as [[l1 r2]|] eqn:E; [|discriminate]; injection H as <- <-;
             right; exists s, r1, l1; repeat split; auto; discriminate).
        left. injection H as <- <-. eauto. }
    clear H. destruct C as [(r0 & -> & -> & ->)|(s & r1 & l1 & E1 & E2 & -> & N)].
    + exists []. split; reflexivity.
    + pose proof E1 as E1'. apply IH1 in E1 as (s' & E1 & M1). apply IH2 in E2 as (l' & E2 & M2).
      exists (s' :: l'). split; [|simpl; congruence].
      assert (G : forall g, parse_seq (S g) (preprocess ts) =
         match parse g (preprocess ts) with
         | Some (s, r) => match parse_seq g r with Some (l, r') => Some (s :: l, r') | None => None end
         | None => None end).
      { intro g. destruct ts as [|a ts']; [reflexivity|]. rewrite preprocess_cons.
        destruct a; try reflexivity. exfalso. eapply N. reflexivity. }
      rewrite G, E1, E2. reflexivity.
Qed.

(** ** execution *)
Lemma exec_macro : forall f dyn client tbl m,
  let '(tb, tr, v) := eval dyn client tbl (macro_cond m) in
  exec (S (S f)) dyn client tbl (expand_macro m) =
  (tb, tr ++ if (v =? 0)%Z then emission (em_level (macro_emit m)) (em_expr (macro_emit m)) (em_args (macro_emit m)) else []).
Proof.
  intros. destruct (eval dyn client tbl (macro_cond m)) as [[tb tr] v] eqn:E.
  unfold expand_macro. cbn [exec]. rewrite E. destruct (v =? 0)%Z; reflexivity.
Qed.
