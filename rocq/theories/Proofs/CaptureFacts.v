From Coq Require Import Ascii String List ZArith NArith Bool Lia.
From Verif.Base Require Import Bytes.
From Verif.Model Require Import Levels TimeFmt Message Capture.
From Verif.Spec Require Import MessageSpec.
From Verif.Proofs Require Import BytesFacts MessageFacts.
Import ListNotations.
Local Open Scope list_scope.

Lemma capturef_ok : forall max c fmt t, (0 < max <= INT_MAX)%Z -> (Z.of_nat (length t) <= INT_MAX)%Z ->
  capturef max c fmt (Some t) =
  CapOk (stream c (if (max <? Z.of_nat (length t))%Z
                   then c_str (firstn (Z.to_nat (max - 1)) t) ++ kTruncatedWarningText
                   else c_str (firstn (Z.to_nat (max - 1)) t))).
Proof.
  intros max c fmt t M L. unfold capturef. cbn [vsnprintf].
  destruct (Z.ltb_spec max 0); [lia|]. destruct (Z.ltb_spec INT_MAX (Z.of_nat (length t))); [lia|].
  destruct (Z.ltb_spec (Z.of_nat (length t)) 0); [lia|]. destruct (Z.eqb_spec max 0); [lia|].
  destruct (max <? Z.of_nat (length t))%Z; reflexivity.
Qed.

Lemma to_int_small : forall n, (0 < n)%N -> (Z.of_N n <= INT_MAX)%Z -> setMaxMessageSize n = Z.of_N n.
Proof.
  intros n P L. unfold setMaxMessageSize, to_int. unfold INT_MAX in *. rewrite N.mod_small by lia.
  destruct (Z.leb_spec (Z.of_N n) 2147483647); lia.
Qed.

Lemma c_str_length : forall s, length (c_str s) <= length s.
Proof.
  intro s. destruct (c_str_prefix s) as (t & E & _). rewrite E at 2. rewrite app_length. lia.
Qed.

Lemma firstn_In : forall (A : Type) n (l : list A) x, In x (firstn n l) -> In x l.
Proof. intros A n l x H. rewrite <- (firstn_skipn n l). apply in_or_app. auto. Qed.

Lemma capturef_stream : forall max c fmt res c', capturef max c fmt res = CapOk c' -> exists out, c' = stream c out.
Proof.
  intros max c fmt res c'. unfold capturef. destruct (max <? 0)%Z; [discriminate|].
  destruct (vsnprintf max res) as [n f]. destruct (n <? 0)%Z.
  - intro H. injection H as <-. unfold stream at 1. cbn. eexists. unfold stream. rewrite <- app_assoc. reflexivity.
  - destruct (max =? 0)%Z; [discriminate|]. destruct (max <? n)%Z; intro H; injection H as <-; eauto.
Qed.

Lemma saveMessage_fields : forall full now tid entry file line fn lv x sig st d,
  saveMessage full now tid entry file line fn lv x sig st = Some d ->
  let m := match d with ToLogger m => m | ToFatal _ m _ => m end in
  _message m = c_str entry /\ _file_path m = c_str file /\
  (if full then Some (c_str file) else splitFileName (c_str file)) = Some (_file m) /\
  _line m = line /\ _function m = c_str fn /\ _level m = copyLevel lv /\ _timestamp m = now /\
  _call_thread_id m = tid /\ _expression m = c_str x /\
  d = if wasFatal lv then ToFatal (c_str st) m sig else ToLogger m.
Proof.
  intros until d. unfold saveMessage, new_LogMessage.
  destruct (if full then _ else _) as [f|] eqn:F; [|discriminate]. intro H. injection H as <-.
  assert (X : copyLevel (copyLevel (copyLevel lv)) = copyLevel lv).
  { unfold copyLevel. simpl. now rewrite !c_str_idem. }
  destruct (wasFatal lv); cbn; rewrite ?X; repeat split; auto.
Qed.
