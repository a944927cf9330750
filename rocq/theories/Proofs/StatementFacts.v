From Coq Require Import Ascii String List ZArith NArith Bool Lia.
From Verif.Base Require Import Bytes.
From Verif.Model Require Import Levels Message Capture Macros Statement.
From Verif.Model Require Stamps.
From Verif.Spec Require Import MessageSpec StatementSpec.
From Verif.Proofs Require Import BytesFacts MessageFacts CaptureFacts.
Import ListNotations.
Local Open Scope list_scope.

Scheme code_mut := Induction for code Sort Prop
with operands_mut := Induction for operands Sort Prop.
Combined Scheme code_operands_ind from code_mut, operands_mut.

Lemma nested_app : forall a, nested a -> forall b, nested b -> nested (a ++ b).
Proof.
  induction 1; intros b' B; cbn; auto.
  - constructor. auto.
  - rewrite <- app_assoc. cbn. constructor; auto.
Qed.

(** the statement, once the level was asked and the condition evaluated *)
Definition body (w : world) (p : place) (k : kind) (f : form) (ops : operands) (s2 : state) : result :=
  let (l, s3) := capture_level w k s2 in
  let '(s4, tr4, o4, text) := exec_ops w ops s3 [] true in
  let (c', o5) := filled w f (captured w p k l) text o4 in
  let '(s6, tr6, o6) := hand_over w k l c' o5 s4 in
  (s6, Begun p l :: tr4 ++ tr6, o6).

Lemma exec_log : forall w p k f cond ops next s,
  exec w (Log p k f cond ops next) s =
  let '(s1, tr1, on) := ask w k s in
  andthen (andthen (s1, tr1, Normal) (fun s1 =>
     if on then
       andthen (if has_cond k then exec w cond s1 else (s1, [], Normal)) (fun s2 =>
         if fires k then body w p k f ops s2 else (s2, [], Normal))
     else (s1, [], Normal))) (exec w next).
Proof. reflexivity. Qed.

Lemma andthen_inv : forall r k s tr o, andthen r k = (s, tr, o) ->
  (exists s1 tr1 tr2, r = (s1, tr1, Normal) /\ k s1 = (s, tr2, o) /\ tr = tr1 ++ tr2) \/ (r = (s, tr, o) /\ o <> Normal).
Proof.
  intros [[s1 tr1] o1] k s tr o H. cbn in H. destruct o1.
  - destruct (k s1) as [[s' tr'] o'] eqn:E. injection H as <- <- <-. left. do 3 eexists. eauto.
  - injection H as <- <- <-. right. split; [reflexivity|discriminate].
  - injection H as <- <- <-. right. split; [reflexivity|discriminate].
  - injection H as <- <- <-. right. split; [reflexivity|discriminate].
Qed.


Lemma captured_place : forall w p k l, c_file (captured w p k l) = p_file p /\ c_line (captured w p k l) = p_line p /\
  c_function (captured w p k l) = p_function p /\ c_stream (captured w p k l) = [].
Proof. intros w p [l|l b|b x] lv; repeat split. Qed.

Lemma filled_place : forall w f c text o c' o', filled w f c text o = (c', o') ->
  c_file c' = c_file c /\ c_line c' = c_line c /\ c_function c' = c_function c.
Proof.
  intros w [|fmt res] c text o c' o' H; cbn in H.
  - injection H as <- <-. repeat split.
  - destruct o; try (injection H as <- <-; repeat split; fail).
    destruct (capturef (w_max w) c fmt res) as [c1| |] eqn:E; try (injection H as <- <-; repeat split; fail).
    injection H as <- <-. destruct (capturef_stream _ _ _ _ _ E) as (t & ->). repeat split.
Qed.

(** saveMessage succeeds *)
Lemma end_total : forall full now tid c, (size (c_str (c_file c)) < npos)%N -> exists d, end_LogCapture full now tid c = Some d.
Proof.
  intros full now tid c B. unfold end_LogCapture, saveMessage, new_LogMessage.
  destruct full; [eauto|]. destruct (splitFileName_spec _ B) as (x & E & _). rewrite E. eauto.
Qed.

Lemma end_fields : forall full now tid c d, end_LogCapture full now tid c = Some d ->
  _message (message_of d) = c_str (c_stream c) /\ _file_path (message_of d) = c_str (c_file c) /\ _line (message_of d) = c_line c /\
  _function (message_of d) = c_str (c_function c) /\ _level (message_of d) = copyLevel (c_level c) /\ time_of d = now /\
  _call_thread_id (message_of d) = tid /\
  d = if wasFatal (c_level c) then ToFatal (c_str (c_stack_trace c)) (message_of d) (c_fatal_signal c) else ToLogger (message_of d).
Proof.
  intros full now tid c d H. unfold end_LogCapture in H. apply saveMessage_fields in H. cbv zeta in H.
  fold (message_of d) in H. destruct H as (A & B & _ & C & D & E & F & G & _ & I).
  rewrite !c_str_idem in *. unfold time_of. repeat split; auto.
Qed.

(** ** What holds of every piece of code *)
Definition is_fatal (d : dispatch) : bool := match d with ToFatal _ _ _ => true | ToLogger _ => false end.

Definition well (w : world) (s : state) (tr : list ev) (s' : state) (o : outcome) : Prop :=
  (o = Normal \/ o = Threw -> nested tr) /\
  map time_of (entries tr) = map (w_now w) (seq (s_read s) (length (entries tr))) /\
  s_read s' = s_read s + length (entries tr) /\
  (w_survives w = false ->
     if match o with Ended => true | _ => false end
     then exists t m sig tr', tr = tr' ++ [Handed (ToFatal t m sig)] /\ existsb is_fatal (entries tr') = false
     else existsb is_fatal (entries tr) = false) /\
  (w_survives w = true -> o <> Ended).

Lemma entries_app : forall a b, entries (a ++ b) = entries a ++ entries b.
Proof. intros. unfold entries. apply flat_map_app. Qed.

Lemma well_app : forall w s tr1 s1 tr2 s2 o, well w s tr1 s1 Normal -> well w s1 tr2 s2 o -> well w s (tr1 ++ tr2) s2 o.
Proof.
  intros w s tr1 s1 tr2 s2 o (A1 & B1 & C1 & D1 & E1) (A2 & B2 & C2 & D2 & E2). unfold well. rewrite entries_app, app_length, seq_app, !map_app.
  split; [|split; [|split; [|split]]].
  - intro H. apply nested_app; auto.
  - rewrite B1. f_equal. rewrite B2, C1. reflexivity.
  - rewrite C2, C1. lia.
  - intro S. specialize (D1 S). specialize (D2 S). cbn in D1. destruct o; cbn in *; try (rewrite existsb_app, D1; exact D2).
    destruct D2 as (t & m & sig & tr' & -> & F). exists t, m, sig, (tr1 ++ tr'). rewrite app_assoc, entries_app, existsb_app, D1. auto.
  - auto.
Qed.

Lemma well_nil : forall w s s' o, s_read s' = s_read s -> o <> Ended -> well w s [] s' o.
Proof.
  intros w s s' o R O. unfold well. cbn. repeat split; auto.
  - intros. constructor.
  - lia.
  - destruct o; auto. congruence.
Qed.

Lemma well_asked : forall w s l b s', s_read s' = s_read s -> well w s [Asked l b] s' Normal.
Proof.
  intros. unfold well. cbn. repeat split; auto; try lia; try discriminate.
  intros. repeat constructor.
Qed.

Lemma level_of_read : forall w l s v s', level_of w l s = (v, s') -> s_read s' = s_read s /\ s_var s' = s_var s /\ s_levels s' = s_levels s.
Proof. intros w [l| |] s v s' H; cbn in H; injection H as <- <-; auto. Qed.

Lemma capture_level_read : forall w k s v s', capture_level w k s = (v, s') -> s_read s' = s_read s /\ s_var s' = s_var s /\ s_levels s' = s_levels s.
Proof. intros w [l|l b|b x] s v s' H; cbn in H; eauto using level_of_read. injection H as <- <-; auto. Qed.

Lemma ask_well : forall w k s s1 tr1 on, ask w k s = (s1, tr1, on) -> well w s tr1 s1 Normal.
Proof.
  assert (A : forall w l s s1 tr1 on, (let (v, s1) := level_of w l s in let (t, b) := query (w_dynamic w) (s_levels s1) v in
      (mkState (s_var s1) (s_called s1) (s_read s1) t, [Asked v b], b)) = (s1, tr1, on) -> well w s tr1 s1 Normal).
  { intros w l s s1 tr1 on H. destruct (level_of w l s) as [v s0] eqn:L. destruct (level_of_read _ _ _ _ _ L) as (R & _).
    destruct (query (w_dynamic w) (s_levels s0) v) as [t b]. injection H as <- <- <-. apply well_asked. cbn. auto. }
  intros w [l|l b|b x] s s1 tr1 on H; cbn [ask] in H; eauto. injection H as <- <- <-. apply well_nil; [auto|discriminate].
Qed.

Lemma filled_outcome : forall w f c text o c' o', filled w f c text o = (c', o') ->
  o' = o \/ o = Normal /\ (o' = Threw \/ o' = Undefined).
Proof.
  intros w [|fmt res] c text o c' o' H; cbn in H.
  - injection H as <- <-. auto.
  - destruct o; try (injection H as <- <-; auto; fail). destruct (capturef _ _ _ _); injection H as <- <-; auto.
Qed.

Lemma hand_over_well : forall w p k l c' o5 s3 tr4 s4 s6 tr6 o6,
  (c_file c' = p_file p /\ c_line c' = p_line p /\ c_function c' = p_function p) ->
  well w s3 tr4 s4 o5 -> hand_over w k l c' o5 s4 = (s6, tr6, o6) -> well w s3 (Begun p l :: tr4 ++ tr6) s6 o6.
Proof.
  intros w p k l c' o5 s3 tr4 s4 s6 tr6 o6 (P1 & P2 & P3) (A & B & C & D & E) H. unfold hand_over in H.
  assert (Stay : forall o, (o = Ended \/ o = Undefined) -> o = o5 ->
     well w s3 (Begun p l :: tr4 ++ []) s4 o).
  { intros o O ->. rewrite app_nil_r. unfold well. cbn [entries flat_map handed app].
    split; [intros [X|X]; destruct O; congruence|]. split; [exact B|]. split; [exact C|]. split; [|exact E].
    intro S. specialize (D S). destruct o5; auto.
    destruct D as (t & m & sig & tr' & -> & F). exists t, m, sig, (Begun p l :: tr'). auto. }
  destruct (end_LogCapture (w_full w) (w_now w (s_read s4)) (w_thread w) (with_level c' (level_at_end k l s4))) as [d|] eqn:X.
  2: { destruct o5; injection H as <- <- <-; try (apply Stay; auto; fail);
       unfold well; rewrite app_nil_r; cbn [entries flat_map handed app]; (split; [intros [Y|Y]; discriminate|]); (split; [exact B|]); (split; [exact C|]);
       (split; [|discriminate]); intro S; exact (D S). }
  destruct (end_fields _ _ _ _ _ X) as (_ & F1 & F2 & F3 & _ & F5 & _ & F7). cbn in F1, F2, F3.
  assert (FP : from_place p d).
  { unfold from_place. rewrite F1, F2, F3, P1, P2, P3. auto. }
  assert (Go : o5 = Normal \/ o5 = Threw ->
     well w s3 (Begun p l :: tr4 ++ [Handed d]) (mkState (s_var s4) (s_called s4) (S (s_read s4)) (s_levels s4))
       match d with ToFatal _ _ _ => if w_survives w then o5 else Ended | ToLogger _ => o5 end).
  { intro O. assert (N : nested tr4) by (apply A; destruct O; auto).
    assert (N' : nested (Begun p l :: tr4 ++ [Handed d])) by (constructor; auto; constructor).
    unfold well. change (entries (Begun p l :: tr4 ++ [Handed d])) with (entries (tr4 ++ [Handed d])).
    rewrite entries_app. change (entries [Handed d]) with [d]. rewrite app_length, seq_app, !map_app. cbn [length].
    split; [intros _; exact N'|]. split; [rewrite B; cbn [map seq]; rewrite F5, C; reflexivity|].
    split; [cbn [s_read]; lia|].
    assert (O' : o5 <> Ended) by (destruct O; subst; discriminate).
    split.
    - intro S. specialize (D S). rewrite S.
      assert (D' : existsb is_fatal (entries tr4) = false) by (destruct o5; auto; congruence).
      destruct d as [m|t m sig].
      + rewrite existsb_app, D'. destruct O; subst; reflexivity.
      + exists t, m, sig, (Begun p l :: tr4). auto.
    - intro S. rewrite S. destruct d; exact O'. }
  destruct o5; injection H as <- <- <-; auto.
Qed.

Lemma body_well : forall w p k f ops s2 s' tr o,
  (forall s text good s' tr o text', exec_ops w ops s text good = (s', tr, o, text') -> well w s tr s' o) ->
  body w p k f ops s2 = (s', tr, o) -> well w s2 tr s' o.
Proof.
  intros w p k f ops s2 s' tr o IH H. unfold body in H.
  destruct (capture_level w k s2) as [l s3] eqn:C. destruct (capture_level_read _ _ _ _ _ C) as (R & _).
  destruct (exec_ops w ops s3 [] true) as [[[s4 tr4] o4] text] eqn:X. apply IH in X.
  destruct (filled w f (captured w p k l) text o4) as [c' o5] eqn:F.
  destruct (hand_over w k l c' o5 s4) as [[s6 tr6] o6] eqn:HO. injection H as <- <- <-.
  assert (W : well w s2 tr4 s4 o5).
  { destruct (filled_outcome _ _ _ _ _ _ _ F) as [-> | (-> & O)].
    - destruct X as (X1 & X2 & X3 & X4 & X5). unfold well. rewrite <- R. auto.
    - destruct X as (X1 & X2 & X3 & X4 & X5). unfold well. rewrite <- R. split; [auto|]. split; [auto|]. split; [auto|]. split.
      + intro S. specialize (X4 S). destruct O as [-> | ->]; exact X4.
      + intros _. destruct O as [-> | ->]; discriminate. }
  destruct (filled_place _ _ _ _ _ _ _ F) as (G1 & G2 & G3). destruct (captured_place w p k l) as (H1 & H2 & H3 & _).
  eapply hand_over_well; [|exact W|exact HO]. rewrite G1, G2, G3. auto.
Qed.

Theorem exec_well : forall w,
  (forall c s s' tr o, exec w c s = (s', tr, o) -> well w s tr s' o) /\
  (forall ops s text good s' tr o text', exec_ops w ops s text good = (s', tr, o, text') -> well w s tr s' o).
Proof.
  intro w. apply code_operands_ind.
  - intros s s' tr o H. injection H as <- <- <-. apply well_nil; [auto|discriminate].
  - intros s s' tr o H. injection H as <- <- <-. apply well_nil; [auto|discriminate].
  - intros l next IH s s' tr o H. cbn in H. apply IH in H. exact H.
  - intros p k f cond IHc ops IHo next IHn s s' tr o H. rewrite exec_log in H.
    destruct (ask w k s) as [[s1 tr1] on] eqn:A. apply ask_well in A.
    assert (G : forall s' tr o, (if on then
             andthen (if has_cond k then exec w cond s1 else (s1, [], Normal)) (fun s2 =>
               if fires k then body w p k f ops s2 else (s2, [], Normal))
           else (s1, [], Normal)) = (s', tr, o) -> well w s1 tr s' o).
    { clear H. intros s'' tr'' o'' H. destruct on.
      - apply andthen_inv in H as [(s2 & tra & trb & H1 & H2 & ->) | (H & O)].
        + apply well_app with (s1 := s2).
          * destruct (has_cond k); [exact (IHc _ _ _ _ H1)|]. injection H1 as <- <-. apply well_nil; [auto|discriminate].
          * destruct (fires k); [exact (body_well _ _ _ _ _ _ _ _ _ IHo H2)|]. injection H2 as <- <- <-. apply well_nil; [auto|discriminate].
        + destruct (has_cond k); [exact (IHc _ _ _ _ H)|]. injection H as <- <- <-. congruence.
      - injection H as <- <- <-. apply well_nil; [auto|discriminate]. }
    apply andthen_inv in H as [(s2 & tra & trb & H1 & H2 & ->) | (H1 & O)].
    + apply andthen_inv in H1 as [(s3 & trc & trd & H3 & H4 & ->) | (H3 & O)].
      * injection H3 as <- <-. eapply well_app; [eapply well_app; [exact A|exact (G _ _ _ H4)]|exact (IHn _ _ _ _ H2)].
      * congruence.
    + apply andthen_inv in H1 as [(s3 & trc & trd & H3 & H4 & ->) | (H3 & O')].
      * injection H3 as <- <-. eapply well_app; [exact A|exact (G _ _ _ H4)].
      * injection H3 as <- <- <-. congruence.
  - intros s text good s' tr o text' H. injection H as <- <- <- <-. apply well_nil; [auto|discriminate].
  - intros c IHc t r IHr s text good s' tr o text' H. cbn in H.
    destruct (exec w c s) as [[s1 tr1] o1] eqn:X. apply IHc in X.
    destruct o1; try (injection H as <- <- <- <-; exact X).
    destruct (print text good t) as [text1 good1]. destruct (exec_ops w r s1 text1 good1) as [[[s2 tr2] o2] text2] eqn:Y.
    apply IHr in Y. injection H as <- <- <- <-. eapply well_app; eauto.
Qed.

(** ** Texts *)
Lemma exec_ops_text : forall w ops s text good s' tr text',
  exec_ops w ops s text good = (s', tr, Normal, text') -> text' = if good then text ++ joined ops else text.
Proof.
  intros w ops. induction ops as [|c t r IH]; intros s text good s' tr text' H; cbn in H.
  - injection H as <- <- <-. cbn. rewrite app_nil_r. now destruct good.
  - destruct (exec w c s) as [[s1 tr1] o1]. destruct o1; try discriminate.
    destruct (print text good t) as [text1 good1] eqn:P. destruct (exec_ops w r s1 text1 good1) as [[[s2 tr2] o2] text2] eqn:Y.
    injection H as <- <- -> <-. apply IH in Y. subst. destruct t as [t|]; cbn in P; injection P as <- <-.
    + destruct good; cbn; [now rewrite app_assoc|reflexivity].
    + destruct good; cbn; [now rewrite app_nil_r|reflexivity].
Qed.

Lemma exec_ops_app : forall w pre post s text good s1 tr1 text1,
  exec_ops w pre s text good = (s1, tr1, Normal, text1) ->
  exists good1, exec_ops w (app_ops pre post) s text good =
    let '(s2, tr2, o2, text2) := exec_ops w post s1 text1 good1 in (s2, tr1 ++ tr2, o2, text2).
Proof.
  intros w pre post. induction pre as [|c t r IH]; intros s text good s1 tr1 text1 H; cbn in H.
  - injection H as <- <- <-. exists good. cbn. now destruct (exec_ops w post s text good) as [[[? ?] ?] ?].
  - cbn [app_ops exec_ops]. destruct (exec w c s) as [[s0 tr0] o0]. destruct o0; try discriminate.
    destruct (print text good t) as [text' good']. destruct (exec_ops w r s0 text' good') as [[[s2 tr2] o2] text2] eqn:Y.
    injection H as <- <- -> <-. destruct (IH _ _ _ _ _ _ Y) as (good1 & E). exists good1. rewrite E.
    destruct (exec_ops w post s2 text2 good1) as [[[? ?] ?] ?]. now rewrite app_assoc.
Qed.

(** ** The level variable *)
Lemma ask_var : forall w k s s1 tr1 on, ask w k s = (s1, tr1, on) -> s_var s1 = s_var s.
Proof.
  assert (A : forall w l s s1 tr1 on, (let (v, s1) := level_of w l s in let (t, b) := query (w_dynamic w) (s_levels s1) v in
      (mkState (s_var s1) (s_called s1) (s_read s1) t, [Asked v b], b)) = (s1, tr1, on) -> s_var s1 = s_var s).
  { intros w l s s1 tr1 on H. destruct (level_of w l s) as [v s0] eqn:L. destruct (level_of_read _ _ _ _ _ L) as (_ & R & _).
    destruct (query (w_dynamic w) (s_levels s0) v) as [t b]. injection H as <- <- <-. cbn. auto. }
  intros w [l|l b|b x] s s1 tr1 on H; cbn [ask] in H; eauto. injection H as <- <- <-. auto.
Qed.

Lemma hand_over_var : forall w k l c o s s' tr o', hand_over w k l c o s = (s', tr, o') -> s_var s' = s_var s.
Proof.
  intros w k l c o s s' tr o' H. unfold hand_over in H.
  destruct o; try (injection H as <- <- <-; auto; fail);
  destruct (end_LogCapture _ _ _ _); injection H as <- <- <-; auto.
Qed.

Lemma andthen_var : forall r k s s' tr o, andthen r k = (s', tr, o) ->
  s_var (fst (fst r)) = s_var s -> (forall s1 s2 tr2 o2, k s1 = (s2, tr2, o2) -> s_var s1 = s_var s -> s_var s2 = s_var s) ->
  s_var s' = s_var s.
Proof.
  intros r k s s' tr o H R K. apply andthen_inv in H as [(s1 & tr1 & tr2 & -> & H & _) | (-> & _)]; eauto.
Qed.

Lemma exec_var : forall w,
  (forall c s s' tr o, exec w c s = (s', tr, o) -> assigns c = false -> s_var s' = s_var s) /\
  (forall ops s text good s' tr o text', exec_ops w ops s text good = (s', tr, o, text') -> assigns_ops ops = false -> s_var s' = s_var s).
Proof.
  intro w. apply code_operands_ind.
  - intros s s' tr o H _. injection H as <- <- <-. auto.
  - intros s s' tr o H _. injection H as <- <- <-. auto.
  - intros l next IH s s' tr o H A. discriminate A.
  - intros p k f cond IHc ops IHo next IHn s s' tr o H A. cbn [assigns] in A.
    apply orb_false_elim in A as (A & A3). apply orb_false_elim in A as (A1 & A2). rewrite exec_log in H.
    destruct (ask w k s) as [[s1 tr1] on] eqn:Q. apply ask_var in Q.
    eapply andthen_var with (s := s) in H; [exact H| |].
    + destruct (andthen (s1, tr1, Normal) _) as [[s2 tr2] o2] eqn:X. cbn [fst].
      eapply andthen_var with (s := s) in X; [exact X|exact Q|].
      clear -Q IHc IHo A1 A2. intros sa sb trb ob Y V. destruct on.
      * eapply andthen_var with (s := s) in Y; [exact Y| |].
        -- destruct (has_cond k); [|exact V]. destruct (exec w cond sa) as [[sc trc] oc] eqn:Z. cbn [fst].
           rewrite (IHc _ _ _ _ Z A1). exact V.
        -- intros s3 s4 tr4 o4 B V3. destruct (fires k); [|injection B as <- <- <-; exact V3].
           unfold body in B. destruct (capture_level w k s3) as [l s5] eqn:C. destruct (capture_level_read _ _ _ _ _ C) as (_ & R & _).
           destruct (exec_ops w ops s5 [] true) as [[[s6 tr6] o6] text] eqn:E.
           destruct (filled w f (captured w p k l) text o6) as [c' o7].
           destruct (hand_over w k l c' o7 s6) as [[s8 tr8] o8] eqn:HO. apply hand_over_var in HO. injection B as <- <- <-.
           rewrite HO, (IHo _ _ _ _ _ _ _ E A2), R. exact V3.
      * injection Y as <- <- <-. exact V.
    + intros sa sb trb ob Y V. rewrite (IHn _ _ _ _ Y A3). exact V.
  - intros s text good s' tr o text' H _. injection H as <- <- <- <-. auto.
  - intros c IHc t r IHr s text good s' tr o text' H A. cbn in H, A. apply orb_false_elim in A as (A1 & A2).
    destruct (exec w c s) as [[s1 tr1] o1] eqn:X.
    destruct o1; try (injection H as <- <- <- <-; eauto; fail).
    destruct (print text good t) as [text1 good1]. destruct (exec_ops w r s1 text1 good1) as [[[s2 tr2] o2] text2] eqn:Y.
    injection H as <- <- <- <-. rewrite (IHr _ _ _ _ _ _ _ Y A2). eauto.
Qed.

(** ** Stamps *)
Import Stamps.
Definition stamp_ok (st : Stamps.state) : Prop :=
  forall i, map e_number (of_thread i (queue st)) = seq 0 (length (of_thread i (queue st))) /\
    in_time_order (of_thread i (queue st)) /\
    (forall e, In e (of_thread i (queue st)) -> (e_time e <= clock st)%Z) /\
    match phases st i with
    | Outside => begun st i = length (of_thread i (queue st))
    | Before n => n = length (of_thread i (queue st)) /\ begun st i = S n
    | Stamped n t => n = length (of_thread i (queue st)) /\ begun st i = S n /\ (t <= clock st)%Z /\
        (forall e, In e (of_thread i (queue st)) -> (e_time e <= t)%Z)
    end.

Lemma of_thread_app : forall i a b, of_thread i (a ++ b) = of_thread i a ++ of_thread i b.
Proof. intros. apply filter_app. Qed.

Lemma of_thread_snoc : forall i q e, of_thread i (q ++ [e]) = if Nat.eqb (e_thread e) i then of_thread i q ++ [e] else of_thread i q.
Proof.
  intros. rewrite of_thread_app. unfold of_thread at 2. cbn [filter]. destruct (Nat.eqb (e_thread e) i); [reflexivity|apply app_nil_r].
Qed.

Lemma in_time_order_snoc : forall q e, in_time_order q -> (forall x, In x q -> (e_time x <= e_time e)%Z) -> in_time_order (q ++ [e]).
Proof.
  induction q as [|a q IH]; intros e O L; cbn; [auto|]. destruct q as [|b q]; cbn in *.
  - split; auto.
  - destruct O as (O1 & O2). split; [auto|]. apply IH; auto.
Qed.

Lemma upd_same : forall (A : Type) (f : nat -> A) i x, upd f i x i = x.
Proof. intros. unfold upd. now rewrite Nat.eqb_refl. Qed.
Lemma upd_other : forall (A : Type) (f : nat -> A) i j x, j <> i -> upd f i x j = f j.
Proof. intros. unfold upd. destruct (Nat.eqb_spec j i); congruence. Qed.

Lemma stamp_step : forall st e st', do_step st e = Some st' -> stamp_ok st ->
  match e with Tick t => (clock st <= t)%Z | _ => True end -> stamp_ok st'.
Proof.
  intros st e st' H OK F i. specialize (OK i). destruct OK as (N & O & C & P).
  destruct e as [t|j|j|j]; cbn in H.
  - injection H as <-. cbn. repeat split; auto.
    + intros e I. specialize (C e I). lia.
    + destruct (phases st i); auto. destruct P as (P1 & P2 & P3 & P4). repeat split; auto. lia.
  - destruct (phases st j) eqn:E; try discriminate. injection H as <-. cbn. repeat split; auto.
    destruct (Nat.eq_dec i j) as [->|D]; [rewrite !upd_same; rewrite E in P; auto|rewrite !upd_other by auto; exact P].
  - destruct (phases st j) eqn:E; try discriminate. injection H as <-. cbn. repeat split; auto.
    destruct (Nat.eq_dec i j) as [->|D]; [rewrite !upd_same; rewrite E in P; destruct P; repeat split; auto; lia|rewrite !upd_other by auto; exact P].
  - destruct (phases st j) as [|n|n t] eqn:E; try discriminate. injection H as <-. cbn [clock phases begun queue].
    rewrite of_thread_snoc. cbn [e_thread].
    destruct (Nat.eq_dec i j) as [->|D].
    + rewrite !upd_same. rewrite E in P. destruct P as (P1 & P2 & P3 & P4). rewrite Nat.eqb_refl, app_length, map_app, seq_app. cbn.
      rewrite N, P1. repeat split; auto.
      * apply in_time_order_snoc; auto.
      * intros e I. apply in_app_or in I as [I|[<-|[]]]; auto.
      * lia.
    + rewrite !upd_other by auto. destruct (Nat.eqb_spec j i); [congruence|]. auto.
Qed.

Lemma stamp_runs : forall es st st', runs st es = Some st' -> stamp_ok st -> forward (clock st) es -> stamp_ok st'.
Proof.
  induction es as [|e es IH]; intros st st' H OK F; cbn in H.
  - injection H as <-. exact OK.
  - destruct (do_step st e) as [s1|] eqn:E; [|discriminate]. eapply IH; eauto.
    + eapply stamp_step; eauto. destruct e; auto. destruct F. auto.
    + destruct e as [t|j|j|j]; cbn in E, F.
      * injection E as <-. cbn. apply F.
      * destruct (phases st j); try discriminate. injection E as <-. exact F.
      * destruct (phases st j); try discriminate. injection E as <-. exact F.
      * destruct (phases st j); try discriminate. injection E as <-. exact F.
Qed.


Lemma forward_app : forall a b st st', runs st a = Some st' -> forward (clock st) (a ++ b) -> forward (clock st) a /\ forward (clock st') b.
Proof.
  induction a as [|e a IH]; intros b st st' R F; cbn in R.
  - injection R as <-. cbn. auto.
  - destruct (do_step st e) as [s1|] eqn:E; [|discriminate]. destruct e as [t|j|j|j]; cbn in E, F |- *.
    + injection E as <-. destruct F as (F1 & F2). destruct (IH b _ _ R F2). auto.
    + destruct (phases st j); try discriminate. injection E as <-. exact (IH b _ _ R F).
    + destruct (phases st j); try discriminate. injection E as <-. exact (IH b _ _ R F).
    + destruct (phases st j); try discriminate. injection E as <-. exact (IH b _ _ R F).
Qed.

(** from a moment on: what is begun later is stamped later and queued behind *)
Definition later (T : Z) (from : nat -> nat) (st : Stamps.state) (new : list entry) : Prop :=
  (T <= clock st)%Z /\
  (forall i, from i <= begun st i) /\
  (forall e, In e new -> from (e_thread e) <= e_number e -> (T <= e_time e)%Z) /\
  (forall i, match phases st i with Stamped n t => from i <= n -> (T <= t)%Z | _ => True end).

Lemma later_runs : forall es T from st st' new, runs st es = Some st' -> forward (clock st) es -> later T from st new ->
  exists more, queue st' = queue st ++ more /\ later T from st' (new ++ more).
Proof.
  induction es as [|e es IH]; intros T from st st' new R F L; cbn in R.
  - injection R as <-. exists []. rewrite !app_nil_r. auto.
  - destruct (do_step st e) as [s1|] eqn:E; [|discriminate].
    assert (X : exists m1, queue s1 = queue st ++ m1 /\ later T from s1 (new ++ m1) /\ forward (clock s1) es).
    { destruct L as (L1 & L2 & L3 & L4). destruct e as [t|j|j|j]; cbn in E, F.
      - injection E as <-. exists []. rewrite !app_nil_r. repeat split; cbn; auto; [lia|apply F].
      - destruct (phases st j) eqn:P; try discriminate. injection E as <-. exists []. rewrite !app_nil_r. repeat split; cbn; auto.
        + intro i. unfold upd. destruct (Nat.eqb_spec i j); subst; [specialize (L2 j); lia|auto].
        + intro i. unfold upd. destruct (Nat.eqb_spec i j); subst; [exact I|apply L4].
      - destruct (phases st j) eqn:P; try discriminate. injection E as <-. exists []. rewrite !app_nil_r. repeat split; cbn; auto.
        intro i. unfold upd. destruct (Nat.eqb_spec i j); subst; [auto|apply L4].
      - destruct (phases st j) as [|n|n t] eqn:P; try discriminate. injection E as <-. exists [mkEntry j n t]. repeat split; cbn; auto.
        + intros e I G. apply in_app_or in I as [I|[<-|[]]]; auto. cbn in *. specialize (L4 j). rewrite P in L4. auto.
        + intro i. unfold upd. destruct (Nat.eqb_spec i j); subst; [exact I|apply L4]. }
    destruct X as (m1 & Q1 & L1 & F1). destruct (IH T from s1 st' (new ++ m1) R F1 L1) as (m2 & Q2 & L2).
    exists (m1 ++ m2). rewrite Q2, Q1, !app_assoc. auto.
Qed.
