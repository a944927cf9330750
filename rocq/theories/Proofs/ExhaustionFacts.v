(** Facts about Model/Exhaustion.v. *)
From Coq Require Import Ascii String List ZArith NArith Bool Lia.
From Verif.Base Require Import Bytes.
From Verif.Model Require Import Levels TimeFmt Message Capture Global Exhaustion.
From Verif.Spec Require Import ExhaustionSpec.
From Verif.Proofs Require Import BytesFacts CaptureFacts StatementFacts.
Import ListNotations.
Local Open Scope list_scope.

Lemma prefix_refl : forall a, prefix_of a a.
Proof. intro a. exists []. now rewrite app_nil_r. Qed.
Lemma prefix_app : forall a b c, prefix_of b c -> prefix_of (a ++ b) (a ++ c).
Proof. intros a b c (r & ->). exists r. now rewrite app_assoc. Qed.
Lemma firstn_prefix : forall k (p : str), prefix_of (firstn k p) p.
Proof. intros k p. exists (skipn k p). symmetry. apply firstn_skipn. Qed.
Lemma prefix_more : forall a b c, prefix_of a b -> prefix_of a (b ++ c).
Proof. intros a b c (r & ->). exists (r ++ c). now rewrite app_assoc. Qed.

Section S.
Variable mem : nat -> option nat.



Lemma after_alloc : forall B (f : unit -> X B) n s r n' s', bind (alloc mem) f n s = (r, n', s') ->
  (r = Thrown /\ s' = s) \/ f tt (S n) s = (r, n', s').
Proof.
  intros B f n s r n' s' E. unfold bind, alloc in E. destruct (mem n); [injection E as <- <- <-; now left|now right].
Qed.

Lemma sent : forall j n s r n' s', x_locked s = false -> xsend mem j n s = (r, n', s') ->
  (r = Thrown /\ s' = s) \/ (r = Val tt /\ s' = w_queue (x_queue s ++ [j]) s).
Proof.
  intros j n s r n' s' L E. unfold xsend in E.
  apply after_alloc in E. destruct E as [|E]; [now left|]. apply after_alloc in E. destruct E as [|E]; [now left|].
  unfold locked in E. rewrite L in E. unfold bind, alloc in E. destruct (mem (S (S n))).
  - injection E as <- <- <-. left. split; [reflexivity|]. destruct s; cbn in *; now subst.
  - injection E as <- <- <-. right. split; [reflexivity|]. destruct s; cbn in *; now subst.
Qed.

(** ** the text *)
Lemma inserted_bad : forall ps text n, insert mem ps text false n = (text, n).
Proof. induction ps as [|p r IH]; intros; simpl; auto. Qed.
Lemma inserted : forall ps text n t n', insert mem ps text true n = (t, n') ->
  exists p, t = text ++ p /\ prefix_of p (List.concat ps).
Proof.
  induction ps as [|p r IH]; simpl; intros text n t n' E.
  - injection E as <- <-. exists []. split; [now rewrite app_nil_r|apply prefix_refl].
  - destruct (mem n) as [k|].
    + rewrite inserted_bad in E. injection E as <- <-. exists (firstn k p). split; [reflexivity|].
      apply prefix_more, firstn_prefix.
    + apply IH in E. destruct E as (q & -> & P). exists (p ++ q). split; [now rewrite app_assoc|]. now apply prefix_app.
Qed.
Lemma inserted_all : forall ps text n, (forall i, i < length ps -> mem (n + i) = None) ->
  insert mem ps text true n = (text ++ List.concat ps, n + length ps).
Proof.
  induction ps as [|p r IH]; simpl; intros text n H.
  - now rewrite app_nil_r, Nat.add_0_r.
  - rewrite <- (Nat.add_0_r n) at 1. rewrite H by lia. rewrite IH.
    + now rewrite <- app_assoc, Nat.add_succ_r.
    + intros i Hi. replace (S n + i) with (n + S i) by lia. apply H. lia.
Qed.

Lemma entry_fields : forall t s d, fresh t ->
  end_LogCapture (t_full t) (t_now t) (t_tid t) (stream (t_capture t) s) = Some d ->
  (exists m, d = ToLogger m /\ fatal t = false /\ is_entry t s m) \/
  (exists st m, d = ToFatal st m (c_fatal_signal (t_capture t)) /\ fatal t = true /\ is_entry t s m /\ st = c_str (c_stack_trace (t_capture t))).
Proof.
  intros t s d F E. unfold end_LogCapture, stream in E. cbn [c_stream c_file c_line c_function c_level c_expression c_fatal_signal c_stack_trace] in E.
  rewrite F in E. cbn [app] in E. apply saveMessage_fields in E. destruct E as (M & P & _ & L & Fn & Lv & T & C & X & D).
  set (m := match d with ToLogger m => m | ToFatal _ m _ => m end) in *. clearbody m.
  assert (I : is_entry t s m).
  { unfold is_entry. rewrite c_str_idem in M. rewrite M, P, L, Fn, Lv, T, C, X. cbn. auto 12. }
  assert (W : wasFatal (c_level (t_capture t)) = fatal t) by reflexivity.
  rewrite W in D. destruct (fatal t); [right|left].
  - exists (c_str (c_str (c_stack_trace (t_capture t)))), m. rewrite c_str_idem in *. auto.
  - eauto.
Qed.

Ltac through_allocs E :=
  repeat (apply after_alloc in E; destruct E as [E|E]; [try (left; exact E)|]).

(** a statement that is not fatal, while logging is active *)
Lemma logged : forall t n s r n' s', fresh t -> fatal t = false -> x_logger s = true -> x_locked s = false ->
  xstatement mem t n s = (r, n', s') ->
  (s' = s /\ r = (if t_throws t then Over XTerminate else Thrown)) \/
  (r = (if t_throws t then Thrown else Val Returned) /\
   exists m, is_entry t (fst (insert mem (t_pieces t) [] true n)) m /\ s' = w_queue (x_queue s ++ [XSave m]) s).
Proof.
  intros t n s r n' s' F NF LG L E. unfold xstatement in E.
  assert (W : wasFatal (c_level (t_capture t)) = false) by exact NF. rewrite W in E. unfold bind at 1, ret at 1 in E.
  cbn iota beta in E. destruct (insert mem (t_pieces t) [] true n) as (text, n1). cbn [fst].
  destruct (xhand_over mem (t_full t) (t_now t) (t_tid t) (stream (t_capture t) text) n1 s) as ((r2, n2), s2) eqn:H.
  assert (K : (r2 = Thrown /\ s2 = s) \/ (r2 = Val Returned /\ exists m, is_entry t text m /\ s2 = w_queue (x_queue s ++ [XSave m]) s)).
  { clear E. unfold xhand_over in H. do 9 (apply after_alloc in H; destruct H as [H|H]; [left; exact H|]).
    destruct (end_LogCapture (t_full t) (t_now t) (t_tid t) (stream (t_capture t) text)) as [d|] eqn:D.
    - apply entry_fields in D; [|assumption]. destruct D as [(m & -> & _ & I)|(st & m & _ & B & _)]; [|congruence].
      unfold xpushMessageToLogger, getv, bind at 1 in H. rewrite LG in H. unfold bind in H.
      destruct (xsend mem (XSave m) _ s) as ((r3, n3), s3) eqn:S3. apply sent in S3; [|assumption].
      destruct S3 as [(-> & ->)|(-> & ->)].
      + injection H as <- <- <-. now left.
      + unfold ret in H. injection H as <- <- <-. right. split; [reflexivity|]. eauto.
    - injection H as <- <- <-. now left. }
  destruct K as [(-> & ->)|(-> & m & I & ->)].
  - injection E as <- <- <-. left. now split.
  - injection E as <- <- <-. right. split; [reflexivity|]. eauto.
Qed.

(** nothing but the hook, the counter, the first stack trace and the ghost output may differ *)
Definition framed (s s' : xst) : Prop :=
  x_logger s' = x_logger s /\ x_first s' = x_first s /\ x_set_first s' = x_set_first s /\ x_save_first s' = x_save_first s /\
  x_locked s' = x_locked s /\ x_queue s' = x_queue s /\ x_sinks s' = x_sinks s /\ x_tasks s' = x_tasks s /\
  x_taken s' = x_taken s /\ x_got s' = x_got s /\ x_end s' = x_end s.
Lemma framed_refl : forall s, framed s s.
Proof. intro s. unfold framed. auto 12. Qed.
Lemma framed_trans : forall a b c, framed a b -> framed b c -> framed a c.
Proof. unfold framed. intuition congruence. Qed.

(** a piece of code that only frames: it ends, or throws *)
Definition frames {A} (m : X A) : Prop := forall n s r n' s', m n s = (r, n', s') -> framed s s' /\ forall e, r <> Over e.
Lemma frames_alloc : frames (alloc mem).
Proof.
  intros n s r n' s' E. unfold alloc in E. destruct (mem n); injection E as <- <- <-; split; try discriminate; apply framed_refl.
Qed.
Lemma frames_getv : forall A (f : xst -> A), frames (getv f).
Proof. intros A f n s r n' s' E. injection E as <- <- <-. split; [apply framed_refl|discriminate]. Qed.
Lemma frames_setv : forall f, (forall s, framed s (f s)) -> frames (setv f).
Proof. intros f H n s r n' s' E. injection E as <- <- <-. split; [apply H|discriminate]. Qed.
Lemma frames_ret : forall A (a : A), frames (ret a).
Proof. intros A a n s r n' s' E. injection E as <- <- <-. split; [apply framed_refl|discriminate]. Qed.
Lemma frames_throw : forall A, frames (fun n s => (Thrown : xres A, n, s)).
Proof. intros A n s r n' s' E. injection E as <- <- <-. split; [apply framed_refl|discriminate]. Qed.
Lemma frames_bind : forall A B (m : X A) (f : A -> X B), frames m -> (forall a, frames (f a)) -> frames (bind m f).
Proof.
  intros A B m f Hm Hf n s r n' s' E. unfold bind in E. destruct (m n s) as ((r1, n1), s1) eqn:M.
  apply Hm in M. destruct M as (F1 & O1). destruct r1 as [a| |e].
  - apply Hf in E. destruct E as (F2 & O2). split; [eapply framed_trans; eassumption|assumption].
  - injection E as <- <- <-. split; [assumption|discriminate].
  - now elim (O1 e).
Qed.
(** after a framing piece *)
Lemma after_frames : forall A B (m : X A) (f : A -> X B) n s r n' s', frames m -> bind m f n s = (r, n', s') ->
  (r = Thrown /\ framed s s') \/ exists a n1 s1, framed s s1 /\ f a n1 s1 = (r, n', s').
Proof.
  intros A B m f n s r n' s' H E. unfold bind in E. destruct (m n s) as ((r1, n1), s1) eqn:M. apply H in M.
  destruct M as (F & O). destruct r1 as [a| |e].
  - right. eauto 6.
  - injection E as <- <- <-. now left.
  - now elim (O e).
Qed.

(** the end of a fatal statement *)
Definition fatal_end (t : xstmt) (s s' : xst) (r : xres xoutcome) : Prop :=
  (r = Thrown /\ framed s s') \/
  (r = Val Waits /\ x_logger s = true /\ exists f s1, framed s s1 /\ s' = w_queue (x_queue s1 ++ [XFatal f]) s1 /\
     _signal_id f = c_fatal_signal (t_capture t) /\ value (_level (f_msg f)) = value (c_level (t_capture t))) \/
  (x_logger s = false /\ framed s s' /\ exists lv sg, r = Over (XSignal lv sg) /\
     sg = c_fatal_signal (t_capture t) /\ value lv = value (c_level (t_capture t))).

Lemma fatal_end_framed : forall t s1 s2 s3 r, framed s1 s2 -> fatal_end t s2 s3 r -> fatal_end t s1 s3 r.
Proof.
  intros t s1 s2 s3 r F [(E & G)|[(E & L & f & s4 & G & H)|(L & G & H)]].
  - left. split; [assumption|eapply framed_trans; eassumption].
  - right. left. split; [assumption|]. split; [rewrite <- L; symmetry; apply F|]. exists f, s4.
    split; [eapply framed_trans; eassumption|assumption].
  - right. right. split; [rewrite <- L; symmetry; apply F|]. split; [eapply framed_trans; eassumption|assumption].
Qed.

Lemma pushed_fatal : forall t f n s r n' s', x_locked s = false ->
  _signal_id f = c_fatal_signal (t_capture t) -> value (_level (f_msg f)) = value (c_level (t_capture t)) ->
  xpushFatalMessageToLogger mem f n s = (r, n', s') -> fatal_end t s s' r.
Proof.
  intros t f n s r n' s' L Sg V E. unfold xpushFatalMessageToLogger, getv, bind at 1 in E.
  destruct (x_logger s) eqn:LG.
  - unfold bind in E. destruct (xsend mem (XFatal f) n s) as ((r3, n3), s3) eqn:S3. apply sent in S3; [|assumption].
    destruct S3 as [(-> & ->)|(-> & ->)]; injection E as <- <- <-.
    + left. split; [reflexivity|apply framed_refl].
    + right. left. split; [reflexivity|]. split; [assumption|]. exists f, s. split; [apply framed_refl|auto].
  - do 3 (apply after_alloc in E; destruct E as [(-> & ->)|E]; [left; split; [reflexivity|apply framed_refl]|]).
    injection E as <- <- <-. right. right. split; [assumption|]. split; [apply framed_refl|]. eauto.
Qed.

Lemma saved_fatal : forall t st m n s r n' s', x_locked s = false ->
  value (_level m) = value (c_level (t_capture t)) ->
  xsaveFatalMessage mem st m (c_fatal_signal (t_capture t)) n s = (r, n', s') -> fatal_end t s s' r.
Proof.
  intros t st m n s r n' s' L V E. unfold xsaveFatalMessage in E.
  Ltac nextF E L F :=
    apply after_frames in E;
    [destruct E as [(-> & F)|(?a & ?n1 & ?s1 & F & E)];
       [left; split; [reflexivity|exact F]|eapply fatal_end_framed; [exact F|];
        match type of F with framed ?s ?s1 => assert (x_locked s1 = false) by (unfold framed in F; intuition congruence); clear L; rename H into L end]|].
  nextF E L F1; [|apply frames_getv].
  nextF E L F2; [|apply frames_alloc].
  nextF E L F4; [|apply frames_setv; intros []; unfold framed; cbn; auto 12].
  nextF E L F5; [|apply frames_setv; intros []; unfold framed; cbn; auto 12].
  nextF E L F6; [|apply frames_getv].
  nextF E L F7; [|destruct a3; [apply frames_ret|apply frames_bind; [apply frames_alloc|intros _; apply frames_setv; intros []; unfold framed; cbn; auto 12]]].
  nextF E L F8; [|destruct a as [[|i]|]; [apply frames_ret|apply frames_setv; intros []; unfold framed; cbn; auto 12|apply frames_throw]].
  nextF E L F9; [|apply frames_alloc].
  nextF E L F10; [|apply frames_getv]. nextF E L F11; [|apply frames_getv].
  nextF E L F12; [|destruct (1 <? a7)%N; [apply frames_alloc|apply frames_ret]].
  nextF E L F13; [|apply frames_alloc]. nextF E L F14; [|apply frames_alloc].
  eapply pushed_fatal; try exact E; try assumption; [reflexivity|].
  destruct (1 <? a7)%N; exact V.
Qed.

Lemma failed : forall t n s r n' s', fresh t -> fatal t = true -> x_locked s = false ->
  xstatement mem t n s = (r, n', s') ->
  fatal_end t s s' r \/ (t_throws t = true /\ r = Over XTerminate /\ framed s s').
Proof.
  intros t n s r n' s' F FT L E. unfold xstatement in E.
  assert (W : wasFatal (c_level (t_capture t)) = true) by exact FT. rewrite W in E.
  apply after_frames in E; [|repeat (apply frames_bind; [apply frames_alloc|intros _]); apply frames_alloc].
  destruct E as [(-> & G)|(u & n1 & s1 & G & E)]; [left; left; auto|].
  assert (L1 : x_locked s1 = false) by (unfold framed in G; intuition congruence).
  destruct (insert mem (t_pieces t) [] true n1) as (text, n2).
  destruct (xhand_over mem (t_full t) (t_now t) (t_tid t) (stream (t_capture t) text) n2 s1) as ((r2, n3), s2) eqn:H.
  assert (K : fatal_end t s1 s2 r2).
  { clear E. unfold xhand_over in H.
    do 9 (apply after_alloc in H; destruct H as [(-> & ->)|H]; [left; split; [reflexivity|apply framed_refl]|]).
    destruct (end_LogCapture (t_full t) (t_now t) (t_tid t) (stream (t_capture t) text)) as [d|] eqn:D.
    - apply entry_fields in D; [|assumption]. destruct D as [(m & _ & B & _)|(st & m & -> & _ & I & _)]; [congruence|].
      eapply saved_fatal; try exact H; try assumption. apply I.
    - injection H as <- <- <-. left. split; [reflexivity|apply framed_refl]. }
  apply (fatal_end_framed _ _ _ _ _ G) in K.
  destruct K as [(-> & K)|[(-> & K)|(Lg & K & lv & sg & -> & Q)]].
  - destruct (t_throws t) eqn:T; injection E as <- <- <-; [right; auto|left; left; auto].
  - injection E as <- <- <-. left. right. left. auto.
  - injection E as <- <- <-. left. right. right. split; [assumption|]. split; [assumption|]. eauto.
Qed.

(** ** destroying and adding a sink *)
Lemma destroyed : forall n s r n' s', xdestroy_sink mem n s = (r, n', s') -> s' = s /\ (r = Val tt \/ r = Over XTerminate).
Proof.
  intros n s r n' s' E. unfold xdestroy_sink, must, bind, alloc in E.
  destruct (mem n); [injection E as <- <- <-; auto|]. destruct (mem (S n)); [injection E as <- <- <-; auto|].
  destruct (mem (S (S n))); injection E as <- <- <-; auto.
Qed.
Lemma cleared : forall l n s r n' s', xclear mem l n s = (r, n', s') -> s' = s /\ (r = Val tt \/ r = Over XTerminate).
Proof.
  induction l as [|k l IH]; cbn [xclear]; intros n s r n' s' E.
  - injection E as <- <- <-. auto.
  - unfold bind in E. destruct (xdestroy_sink mem n s) as ((r1, n1), s1) eqn:D. apply destroyed in D. destruct D as (-> & [-> | ->]).
    + now apply IH in E.
    + injection E as <- <- <-. auto.
Qed.
Lemma owned : forall A (m : X A) n s r n' s', owning_sink mem m n s = (r, n', s') ->
  exists r1 n1 s1, m n s = (r1, n1, s1) /\ s' = s1 /\ (r = r1 \/ r1 = Thrown /\ r = Over XTerminate).
Proof.
  intros A m n s r n' s' E. unfold owning_sink in E. destruct (m n s) as ((r1, n1), s1). exists r1, n1, s1. split; [reflexivity|].
  destruct r1 as [a| |e]; [injection E as <- <- <-; auto| |injection E as <- <- <-; auto].
  unfold bind in E. destruct (xdestroy_sink mem n1 s1) as ((r2, n2), s2) eqn:D. apply destroyed in D.
  destruct D as (-> & [-> | ->]); injection E as <- <- <-; auto.
Qed.
Lemma add_spec : forall k n s r n' s', x_locked s = false -> xadd_sink mem k n s = (r, n', s') ->
  (s' = s /\ (r = Thrown \/ r = Over XTerminate)) \/ (r = Val Waits /\ s' = w_queue (x_queue s ++ [XAdd k]) s).
Proof.
  intros k n s r n' s' L E. unfold xadd_sink in E. do 2 (apply after_alloc in E; destruct E as [(-> & ->)|E]; [auto|]).
  unfold bind at 1, must, alloc at 1 in E. destruct (mem (S (S n))); [injection E as <- <- <-; auto|].
  unfold bind at 1 in E. destruct (owning_sink mem _ _ s) as ((r1, n1), s1) eqn:O. apply owned in O.
  destruct O as (r2 & n2 & s2 & B & -> & O).
  assert (S2 : (r2 = Thrown /\ s2 = s) \/ (r2 = Val tt /\ s2 = w_queue (x_queue s ++ [XAdd k]) s)).
  { do 2 (apply after_alloc in B; destruct B as [(-> & ->)|B]; [auto|]). now apply sent in B. }
  destruct S2 as [(-> & ->)|(-> & ->)]; destruct O as [-> |(O & ->)]; try discriminate; injection E as <- <- <-; auto.
Qed.
Lemma return_spec : forall k n s r n' s', xadd_return mem k n s = (r, n', s') ->
  s' = s /\ (r = Thrown \/ r = Over XTerminate \/ r = Val Returned \/ r = Val Waits).
Proof.
  intros k n s r n' s' E. unfold xadd_return, getv, bind at 1 in E. destruct (existsb (Nat.eqb k) (x_tasks s)); [|injection E as <- <- <-; auto].
  unfold bind at 1 in E. destruct (existsb (Nat.eqb k) (x_sinks s)).
  - apply after_alloc in E. destruct E as [(-> & ->)|E]; [auto|]. injection E as <- <- <-. auto.
  - unfold bind in E. destruct (owning_sink mem (alloc mem) n s) as ((r1, n1), s1) eqn:O. apply owned in O.
    destruct O as (r2 & n2 & s2 & B & -> & O). unfold alloc in B.
    assert (S2 : s2 = s /\ (r2 = Thrown \/ r2 = Val tt)) by (destruct (mem n); injection B as <- <- <-; auto). destruct S2 as (-> & R2).
    destruct r1 as [u| |e].
    + destruct (xdestroy_sink mem n1 s) as ((r3, n3), s3) eqn:D. apply destroyed in D.
      destruct D as (-> & [-> | ->]); injection E as <- <- <-; auto.
    + injection E as <- <- <-. auto.
    + injection E as <- <- <-. destruct O as [<- |(_ & O)]; [destruct R2; discriminate|]. injection O as ->. auto.
Qed.

(** ** the other actions *)
Lemma to_sinks_spec : forall l m n s r n' s', xto_sinks mem l m n s = (r, n', s') ->
  exists d, x_got s' = x_got s ++ map (fun k => (k, m)) d /\ (exists e, l = d ++ e) /\
    (r = Val tt -> d = l) /\ (r = Val tt \/ r = Thrown) /\
    x_taken s' = x_taken s /\ x_queue s' = x_queue s /\ x_logger s' = x_logger s /\ x_locked s' = x_locked s /\ x_end s' = x_end s /\
    x_sinks s' = x_sinks s /\ x_tasks s' = x_tasks s.
Proof.
  induction l as [|k l IH]; cbn [xto_sinks]; intros m n s r n' s' E.
  - injection E as <- <- <-. exists []. cbn. rewrite app_nil_r. intuition eauto.
  - do 5 (apply after_alloc in E; destruct E as [(-> & ->)|E];
      [exists []; cbn; rewrite app_nil_r; intuition (eauto; discriminate)|]).
    unfold setv, bind at 1 in E. apply IH in E. destruct E as (d & G & (e & P) & V & O & K).
    exists (k :: d). cbn in G, K |- *. rewrite G, <- app_assoc. split; [reflexivity|]. split; [exists e; now rewrite P|].
    split; [intro Q; now rewrite (V Q)|]. auto.
Qed.

Lemma with_worker_eq : forall s s', x_taken s' = x_taken s -> x_queue s' = x_queue s -> with_worker s' = with_worker s.
Proof. unfold with_worker. now intros s s' -> ->. Qed.
Lemma with_worker_add : forall s j, with_worker (w_queue (x_queue s ++ [j]) s) = with_worker s ++ saved j.
Proof.
  intros s j. unfold with_worker. cbn [w_queue x_taken x_queue]. now rewrite flat_map_app, app_assoc; cbn [flat_map]; rewrite app_nil_r.
Qed.

(** what one action gives to the worker *)
Definition gives (s s' : xst) (ts : list xstmt) : Prop :=
  exists ms, Forall2 cut_entry ts ms /\ with_worker s' = with_worker s ++ ms.
Lemma gives_none : forall s s', with_worker s' = with_worker s -> gives s s' [].
Proof. intros s s' E. exists []. now rewrite app_nil_r. Qed.

Lemma work_spec : forall n s r n' s', x_locked s = false -> xwork mem n s = (r, n', s') ->
  with_worker s' = with_worker s /\ x_locked s' = false /\ x_end s' = x_end s /\
  ((r = Val tt /\ x_logger s' = x_logger s) \/ exists e, r = Over e).
Proof.
  intros n s r n' s' L E. unfold xwork, getv, bind at 1 in E. destruct (x_queue s) as [|j q] eqn:Q.
  - injection E as <- <- <-. auto 8.
  - unfold bind at 1, locked at 1 in E. rewrite L in E. unfold setv at 1 in E. cbn iota beta in E.
    set (s1 := w_locked false (w_queue q (w_locked true s))) in E.
    assert (S1 : x_taken s1 = x_taken s /\ x_queue s1 = q /\ x_locked s1 = false /\ x_end s1 = x_end s /\ x_logger s1 = x_logger s /\ x_sinks s1 = x_sinks s)
      by (unfold s1; cbn; auto 10).
    clearbody s1. destruct S1 as (T1 & Q1 & L1 & E1 & G1 & K1).
    assert (W : with_worker s = x_taken s ++ saved j ++ flat_map saved q).
    { unfold with_worker. rewrite Q. reflexivity. }
    destruct j as [m|f|k].
    + unfold setv, getv, bind at 1, bind at 1 in E. cbn iota beta in E.
      destruct (bind (xto_sinks mem (x_sinks (w_taken m s1)) m) _ n (w_taken m s1)) as ((r2, n2), s2) eqn:B.
      unfold bind in B. destruct (xto_sinks mem (x_sinks (w_taken m s1)) m n (w_taken m s1)) as ((r3, n3), s3) eqn:T3.
      apply to_sinks_spec in T3. destruct T3 as (d & _ & _ & _ & O & T3 & Q3 & G3 & L3 & E3 & _).
      cbn [w_taken x_taken x_queue x_logger x_locked x_end] in *.
      assert (S2 : s2 = s3 /\ (r2 = Val tt \/ r2 = Thrown)).
      { destruct r3 as [u| |e].
        - destruct (x_sinks (w_taken m s1)).
          + unfold alloc in B. destruct (mem n3); [injection B as <- <- <-; auto|]. destruct (mem (S n3)); injection B as <- <- <-; auto.
          + injection B as <- <- <-. auto.
        - injection B as <- <- <-. auto.
        - destruct O; discriminate. }
      destruct S2 as (-> & R2).
      assert (S3 : s' = s3 /\ ((r = Val tt) \/ exists e, r = Over e)).
      { destruct R2 as [-> | ->]; injection E as <- <- <-; eauto. }
      destruct S3 as (-> & R3). split; [|split; [congruence|split; [congruence|]]].
      * unfold with_worker at 1. rewrite T3, Q3, Q1, T1, W. cbn [saved]. now rewrite <- app_assoc.
      * destruct R3 as [->|]; [left; split; [reflexivity|congruence]|auto].
    + unfold setv, bind at 1 in E. cbn iota beta in E.
      match type of E with match ?X with _ => _ end = _ => destruct X as ((r2, n2), s2) eqn:B end.
      assert (S2 : with_worker s2 = with_worker s /\ x_locked s2 = false /\ x_end s2 = x_end s /\ (r2 = Thrown \/ exists e, r2 = Over e)).
      { assert (W1 : with_worker (w_logger false s1) = with_worker s).
        { unfold with_worker at 1. cbn [w_logger x_taken x_queue]. rewrite T1, Q1, W. reflexivity. }
        do 5 (apply after_alloc in B; destruct B as [(-> & ->)|B]; [cbn [w_logger x_locked x_end]; auto|]).
        unfold getv, bind at 1 in B. unfold bind in B.
        destruct (xto_sinks mem (x_sinks (w_logger false s1)) (bgFatal_message f) _ (w_logger false s1)) as ((r3, n3), s3) eqn:T3.
        apply to_sinks_spec in T3. destruct T3 as (d & _ & _ & _ & O & T3 & Q3 & G3 & L3 & E3 & _).
        cbn [w_logger x_taken x_queue x_logger x_locked x_end] in *.
        assert (W3 : with_worker s3 = with_worker s) by (rewrite <- W1; apply with_worker_eq; assumption).
        destruct O as [-> | ->].
        - destruct (xclear mem _ n3 s3) as ((r4, n4), s4) eqn:C4. apply cleared in C4. destruct C4 as (-> & [-> | ->]);
            injection B as <- <- <-; (split; [assumption|]; split; [congruence|]; split; [congruence|]); eauto.
        - injection B as <- <- <-; (split; [assumption|]; split; [congruence|]; split; [congruence|]); eauto. }
      destruct S2 as (W2 & L2 & E2 & R2). destruct R2 as [-> |(e & ->)]; injection E as <- <- <-; eauto 6.
    + cbn iota beta in E. unfold bind, alloc, setv in E.
      assert (W1 : with_worker s1 = with_worker s) by (unfold with_worker at 1; rewrite T1, Q1, W; reflexivity).
      destruct (mem n); injection E as <- <- <-; cbn; (split; [|auto]); rewrite <- W1; apply with_worker_eq; reflexivity.
Qed.

Lemma step_gives : forall n s a n' s' o, ready_to_log s -> (forall t, a = ALog t -> fresh t) ->
  xstep mem n s a = (n', s', o) -> gives s s' (came_through (a, o)) /\ (ready_to_log s' \/ x_end s' <> None).
Proof.
  intros n s a n' s' o (LG & L & NE) F E. unfold xstep in E. rewrite NE in E.
  destruct (xdo mem a n s) as ((r, n1), s1) eqn:D.
  assert (FR : forall s2, framed s s2 -> with_worker s2 = with_worker s /\ ready_to_log s2).
  { intros s2 G. unfold framed in G. split; [apply with_worker_eq; apply G|]. unfold ready_to_log. intuition congruence. }
  assert (WE : forall e s2, with_worker (w_end e s2) = with_worker s2) by reflexivity.
  assert (NX : forall e s2, x_end (w_end e s2) <> None) by (intros; discriminate).
  destruct a as [t| |h|k|k|]; cbn [xdo] in D.
  - specialize (F t eq_refl). destruct (fatal t) eqn:FT.
    + apply failed in D; try assumption. destruct D as [[(-> & G)|[(-> & _ & f & s2 & G & -> & _)|(B & _)]]|(T & -> & G)].
      * injection E as <- <- <-. cbn [came_through]. rewrite FT. cbn [negb andb]. destruct (FR _ G). split; [now apply gives_none|auto].
      * injection E as <- <- <-. cbn [came_through]. destruct (FR _ G) as (W2 & LG2 & L2 & NE2). split.
        -- apply gives_none. rewrite with_worker_add, app_nil_r. exact W2.
        -- left. unfold ready_to_log. cbn. auto.
      * congruence.
      * injection E as <- <- <-. cbn [came_through]. destruct (FR _ G). split; [apply gives_none; now rewrite WE|right; apply NX].
    + apply logged in D; try assumption. destruct D as [(-> & ->)|(-> & m & I & ->)].
      * destruct (t_throws t) eqn:T; injection E as <- <- <-; cbn [came_through].
        -- split; [apply gives_none; apply WE|right; apply NX].
        -- rewrite FT, T. cbn [negb andb]. split; [now apply gives_none|left; unfold ready_to_log; auto].
      * assert (C : cut_entry t m).
        { destruct (insert mem (t_pieces t) [] true n) as (x, nx) eqn:IN. exists x. cbn [fst] in I. split; [|assumption].
          apply inserted in IN. destruct IN as (p & -> & P). exact P. }
        assert (R : ready_to_log (w_queue (x_queue s ++ [XSave m]) s)) by (unfold ready_to_log; cbn; auto).
        destruct (t_throws t) eqn:T; injection E as <- <- <-; cbn [came_through]; rewrite FT, ?T; cbn [negb andb];
          (split; [|left; exact R]); exists [m]; rewrite with_worker_add; (split; [|reflexivity]); constructor; auto.
  - unfold xinitialize, getv, bind at 1 in D. rewrite LG in D. injection D as <- <- <-. injection E as <- <- <-.
    split; [now apply gives_none|right; apply NX].
  - unfold xset_hook in D. apply after_alloc in D. destruct D as [(-> & ->)|D].
    + injection E as <- <- <-. split; [now apply gives_none|left; unfold ready_to_log; auto].
    + injection D as <- <- <-. injection E as <- <- <-. split; [now apply gives_none|left; unfold ready_to_log; auto].
  - apply add_spec in D; [|assumption]. destruct D as [(-> & [-> | ->])|(-> & ->)]; injection E as <- <- <-.
    + split; [now apply gives_none|left; unfold ready_to_log; auto].
    + split; [apply gives_none; apply WE|right; apply NX].
    + split; [apply gives_none; rewrite with_worker_add; apply app_nil_r|left; unfold ready_to_log; cbn; auto].
  - apply return_spec in D. destruct D as (-> & [-> |[-> |[-> | ->]]]); injection E as <- <- <-;
      solve [split; [now apply gives_none|left; unfold ready_to_log; auto]|split; [apply gives_none; apply WE|right; apply NX]].
  - unfold bind in D. destruct (xwork mem n s) as ((r2, n2), s2) eqn:W. apply work_spec in W; [|assumption].
    destruct W as (W & L2 & E2 & [(-> & G2)|(e & ->)]); injection D as <- <- <-; injection E as <- <- <-.
    + split; [now apply gives_none|left; unfold ready_to_log; intuition congruence].
    + split; [apply gives_none; now rewrite WE|right; apply NX].
Qed.

Lemma run_over : forall acts n s n' s' l, x_end s <> None -> xrun mem n s acts = (n', s', l) ->
  s' = s /\ through l = [] /\ forall p, In p l -> snd p = None.
Proof.
  induction acts as [|a r IH]; cbn [xrun]; intros n s n' s' l NE E.
  - injection E as <- <- <-. split; [reflexivity|]. split; [reflexivity|]. intros p [].
  - unfold xstep in E. destruct (x_end s) eqn:X; [|now elim NE].
    destruct (xrun mem n s r) as ((n2, s2), l2) eqn:R. injection E as <- <- <-. apply IH in R; [|congruence].
    destruct R as (-> & T & A). split; [reflexivity|]. split.
    + cbn [through flat_map] in *. destruct a; exact T.
    + intros p [<-|Hp]; [reflexivity|auto].
Qed.

Lemma run_gives : forall acts n s n' s' l, ready_to_log s -> (forall t, In (ALog t) acts -> fresh t) ->
  xrun mem n s acts = (n', s', l) -> gives s s' (through l).
Proof.
  induction acts as [|a r IH]; cbn [xrun]; intros n s n' s' l R F E.
  - injection E as <- <- <-. now apply gives_none.
  - destruct (xstep mem n s a) as ((n1, s1), o) eqn:S1. destruct (xrun mem n1 s1 r) as ((n2, s2), l2) eqn:R2.
    injection E as <- <- <-. apply step_gives in S1; [|assumption|intros t ->; apply F; now left].
    destruct S1 as ((ms & F1 & W1) & [R1|X1]).
    + apply IH in R2; [|assumption|intros; apply F; now right]. destruct R2 as (ms2 & F2 & W2).
      exists (ms ++ ms2). split; [|rewrite W2, W1; now rewrite app_assoc].
      change (Forall2 cut_entry (came_through (a, o) ++ through l2) (ms ++ ms2)). now apply Forall2_app.
    + apply run_over in R2; [|assumption]. destruct R2 as (-> & T & _). exists ms. split; [|assumption].
      change (Forall2 cut_entry (came_through (a, o) ++ through l2) ms). now rewrite T, app_nil_r.
Qed.

(** ** what a sink hears *)
Lemma of_sink_app : forall k a b, of_sink k (a ++ b) = of_sink k a ++ of_sink k b.
Proof. intros. unfold of_sink. now rewrite filter_app, map_app. Qed.
Lemma of_sink_round : forall k m d, of_sink k (map (fun i => (i, m)) d) = repeat m (count_occ Nat.eq_dec d k).
Proof.
  intros k m d. induction d as [|i d IH]; [reflexivity|]. unfold of_sink in *. cbn [map filter fst count_occ].
  destruct (Nat.eqb_spec i k); destruct (Nat.eq_dec i k); try contradiction; cbn [map repeat]; now rewrite IH.
Qed.

Definition once_sink (k : nat) (s : xst) : Prop := count_occ Nat.eq_dec (x_sinks s) k = 1 /\ ~ In (XAdd k) (x_queue s).
Definition heard (k : nat) (s s' : xst) : Prop := exists d g,
  x_taken s' = x_taken s ++ d /\ of_sink k (x_got s') = of_sink k (x_got s) ++ g /\
  (x_end s' = None -> g = d) /\ exists e, length e <= 1 /\ (d = g ++ e \/ g = d ++ e).
Lemma heard_same : forall k s s', x_taken s' = x_taken s -> x_got s' = x_got s -> heard k s s'.
Proof. intros k s s' T G. exists [], []. rewrite T, G, !app_nil_r. repeat split; auto. exists []. auto. Qed.

Lemma round_heard : forall k s1 s2 m l d e, l = d ++ e -> count_occ Nat.eq_dec l k = 1 ->
  x_got s2 = x_got s1 ++ map (fun i => (i, m)) d ->
  exists g, of_sink k (x_got s2) = of_sink k (x_got s1) ++ g /\ (g = [] \/ g = [m]) /\ (d = l -> g = [m]).
Proof.
  intros k s1 s2 m l d e E C G. rewrite G, of_sink_app, of_sink_round. eexists. split; [reflexivity|].
  split.
  - rewrite E, count_occ_app in C. destruct (count_occ Nat.eq_dec d k) as [|[|c]]; [now left|now right|lia].
  - intros ->. rewrite C. reflexivity.
Qed.

Lemma work_heard : forall k n s r n' s', x_locked s = false -> once_sink k s -> x_end s = None -> xwork mem n s = (r, n', s') ->
  exists d g, x_taken s' = x_taken s ++ d /\ of_sink k (x_got s') = of_sink k (x_got s) ++ g /\
    (r = Val tt -> g = d /\ once_sink k s') /\ exists e, length e <= 1 /\ (d = g ++ e \/ g = d ++ e).
Proof.
  intros k n s r n' s' L (C & NA) NE E. unfold xwork, getv, bind at 1 in E. destruct (x_queue s) as [|j q] eqn:Q.
  - injection E as <- <- <-. exists [], []. rewrite !app_nil_r. repeat split; auto; [now rewrite Q|]. exists []. auto.
  - unfold bind at 1, locked at 1 in E. rewrite L in E. unfold setv at 1 in E. cbn iota beta in E.
    set (s1 := w_locked false (w_queue q (w_locked true s))) in E.
    assert (S1 : x_taken s1 = x_taken s /\ x_queue s1 = q /\ x_sinks s1 = x_sinks s /\ x_got s1 = x_got s)
      by (unfold s1; cbn; auto 10).
    clearbody s1. destruct S1 as (T1 & Q1 & K1 & G1).
    assert (NQ : ~ In (XAdd k) q) by (intro H; apply NA; now right).
    destruct j as [m|f|i].
    + unfold setv, getv, bind at 1, bind at 1 in E. cbn iota beta in E.
      destruct (bind (xto_sinks mem (x_sinks (w_taken m s1)) m) _ n (w_taken m s1)) as ((r2, n2), s2) eqn:B.
      unfold bind in B. destruct (xto_sinks mem (x_sinks (w_taken m s1)) m n (w_taken m s1)) as ((r3, n3), s3) eqn:T3.
      apply to_sinks_spec in T3. destruct T3 as (d & G3 & (e & P3) & V3 & O & T3 & Q3 & _ & _ & _ & K3 & _).
      cbn [w_taken x_taken x_queue x_sinks x_got] in *. rewrite K1 in *.
      destruct (round_heard k (w_taken m s1) s3 m (x_sinks s) d e P3 C G3) as (g & HG & HO & HA). cbn [w_taken x_got] in HG.
      assert (S2 : s2 = s3 /\ (r2 = Thrown \/ r2 = Val tt /\ d = x_sinks s)).
      { destruct r3 as [u| |x].
        - assert (D : d = x_sinks s) by (apply V3; now destruct u). destruct (x_sinks s).
          + unfold alloc in B. destruct (mem n3); [injection B as <- <- <-; auto|]. destruct (mem (S n3)); injection B as <- <- <-; auto.
          + injection B as <- <- <-. auto.
        - injection B as <- <- <-. auto.
        - destruct O; discriminate. }
      destruct S2 as (-> & R2). exists [m], g.
      assert (S3 : s' = s3 /\ (r = Val tt -> d = x_sinks s)).
      { destruct R2 as [-> |(-> & D)]; injection E as <- <- <-; split; auto; discriminate. }
      destruct S3 as (-> & R3). split; [congruence|]. split; [congruence|]. split.
      * intro V. split; [now apply HA, R3|]. unfold once_sink. rewrite K3, Q3, Q1. auto.
      * destruct HO as [-> | ->]; [exists [m]; auto|exists []; auto].
    + unfold setv, bind at 1 in E. cbn iota beta in E.
      match type of E with match ?X with _ => _ end = _ => destruct X as ((r2, n2), s2) eqn:B end.
      assert (S2 : r2 <> Val tt /\ x_taken s2 = x_taken s /\ exists g, of_sink k (x_got s2) = of_sink k (x_got s) ++ g /\ length g <= 1).
      { do 5 (apply after_alloc in B; destruct B as [(-> & ->)|B];
          [cbn [w_logger x_taken x_got]; split; [discriminate|]; split; [assumption|]; exists []; rewrite app_nil_r, G1; split; [reflexivity|cbn; lia]|]).
        unfold getv, bind at 1 in B. unfold bind in B.
        destruct (xto_sinks mem (x_sinks (w_logger false s1)) (bgFatal_message f) _ (w_logger false s1)) as ((r3, n3), s3) eqn:T3.
        apply to_sinks_spec in T3. destruct T3 as (d & G3 & (e & P3) & _ & O & T3 & _).
        cbn [w_logger x_taken x_queue x_sinks x_got] in *. rewrite K1 in *.
        destruct (round_heard k (w_logger false s1) s3 (bgFatal_message f) (x_sinks s) d e P3 C G3) as (g & HG & HO & HA). cbn [w_logger x_got] in HG.
        assert (S3 : s2 = s3 /\ r2 <> Val tt).
        { destruct O as [-> | ->]; [|injection B as <- <- <-; split; auto; discriminate].
          destruct (xclear mem _ n3 s3) as ((r4, n4), s4) eqn:C4. apply cleared in C4.
          destruct C4 as (-> & [-> | ->]); injection B as <- <- <-; split; auto; discriminate. }
        destruct S3 as (-> & R2). split; [assumption|]. split; [congruence|]. exists g. split; [congruence|].
        destruct HO as [-> | ->]; cbn; lia. }
      destruct S2 as (R2 & T2 & g & HG & LG). exists [], g. rewrite app_nil_r.
      assert (S3 : s' = s2 /\ r <> Val tt).
      { destruct r2 as [[]| |x]; [now elim R2| |]; injection E as <- <- <-; split; auto; discriminate. }
      destruct S3 as (-> & R3). split; [assumption|]. split; [assumption|]. split; [intro V; now elim R3|]. exists g. auto.
    + cbn iota beta in E. unfold bind, alloc, setv in E.
      assert (NK : i <> k) by (intros ->; apply NA; now left).
      destruct (mem n); injection E as <- <- <-; exists [], []; rewrite !app_nil_r; cbn [w_task w_sinks x_taken x_got];
        (split; [assumption|]); (split; [congruence|]); (split; [|exists []; auto]); intros _; (split; [reflexivity|]);
        unfold once_sink; cbn [w_task w_sinks x_sinks x_queue]; rewrite K1, Q1; (split; [|assumption]).
      * assumption.
      * rewrite count_occ_app. cbn [count_occ]. destruct (Nat.eq_dec i k); [contradiction|]. lia.
Qed.

Lemma step_heard : forall k n s a n' s' o, ready_to_log s -> once_sink k s -> (forall t, a = ALog t -> fresh t) -> a <> AAddSink k ->
  xstep mem n s a = (n', s', o) -> heard k s s' /\ (x_end s' = None -> once_sink k s').
Proof.
  intros k n s a n' s' o (LG & L & NE) (C & NA) F NK E. unfold xstep in E. rewrite NE in E.
  destruct (xdo mem a n s) as ((r, n1), s1) eqn:D.
  assert (FR : forall s2, framed s s2 -> heard k s s2 /\ once_sink k s2).
  { intros s2 G. unfold framed in G. split; [apply heard_same; apply G|]. unfold once_sink. intuition congruence. }
  assert (RF : heard k s s /\ once_sink k s) by (apply FR, framed_refl).
  assert (HE : forall e s2, heard k s s2 -> heard k s (w_end e s2)).
  { intros e s2 (d & g & A & B & _ & Z). exists d, g. cbn. split; [assumption|]. split; [assumption|]. split; [discriminate|assumption]. }
  assert (ADD : forall j s2, framed s s2 -> j <> XAdd k -> heard k s (w_queue (x_queue s2 ++ [j]) s2) /\ once_sink k (w_queue (x_queue s2 ++ [j]) s2)).
  { intros j s2 G J. split; [apply heard_same; apply G|]. unfold once_sink, framed in *. cbn [w_queue x_sinks x_queue].
    destruct G as (_ & _ & _ & _ & _ & G1 & G2 & _). rewrite G1, G2. split; [assumption|].
    rewrite in_app_iff. intros [H|[H|[]]]; auto. }
  assert (NX : forall e s2 (P : Prop), x_end (w_end e s2) = None -> P) by (intros; discriminate).
  destruct a as [t| |h|i|i|]; cbn [xdo] in D.
  - specialize (F t eq_refl). destruct (fatal t) eqn:FT.
    + apply failed in D; try assumption. destruct D as [[(-> & G)|[(-> & _ & f & s2 & G & -> & _)|(B & _)]]|(T & -> & G)].
      * injection E as <- <- <-. destruct (FR _ G). auto.
      * injection E as <- <- <-. destruct (ADD (XFatal f) _ G); [discriminate|]. auto.
      * congruence.
      * injection E as <- <- <-. destruct (FR _ G). split; [auto|apply NX].
    + apply logged in D; try assumption. destruct D as [(-> & ->)|(-> & m & I & ->)].
      * destruct (t_throws t) eqn:T; injection E as <- <- <-; (split; [apply HE + idtac; apply RF|]); [apply NX|intros _; apply RF].
      * destruct (ADD (XSave m) _ (framed_refl s)); [discriminate|]. destruct (t_throws t); injection E as <- <- <-; auto.
  - unfold xinitialize, getv, bind at 1 in D. rewrite LG in D. injection D as <- <- <-. injection E as <- <- <-.
    split; [apply HE, RF|apply NX].
  - unfold xset_hook in D. apply after_alloc in D. destruct D as [(-> & ->)|D].
    + injection E as <- <- <-. split; [apply RF|intros _; apply RF].
    + injection D as <- <- <-. injection E as <- <- <-. split; [now apply heard_same|intros _; now split].
  - apply add_spec in D; [|assumption]. destruct D as [(-> & [-> | ->])|(-> & ->)]; injection E as <- <- <-.
    + split; [apply RF|intros _; apply RF].
    + split; [apply HE, RF|apply NX].
    + destruct (ADD (XAdd i) _ (framed_refl s)); [congruence|]. auto.
  - apply return_spec in D. destruct D as (-> & [-> |[-> |[-> | ->]]]); injection E as <- <- <-;
      solve [split; [apply RF|intros _; apply RF]|split; [apply HE, RF|apply NX]].
  - unfold bind in D. destruct (xwork mem n s) as ((r2, n2), s2) eqn:W.
    pose proof (work_spec _ _ _ _ _ L W) as (_ & _ & E2 & R2).
    apply (work_heard k) in W; try assumption; [|now split]. destruct W as (d & g & T & G & V & Z).
    destruct R2 as [(-> & _)|(x & ->)]; injection D as <- <- <-; injection E as <- <- <-.
    + destruct (V eq_refl) as (-> & O). split; [|auto]. exists d, d. auto.
    + split; [|apply NX]. exists d, g. cbn. split; [assumption|]. split; [assumption|]. split; [discriminate|assumption].
Qed.

Lemma run_heard : forall k acts n s n' s' l, ready_to_log s -> once_sink k s -> (forall t, In (ALog t) acts -> fresh t) ->
  ~ In (AAddSink k) acts -> xrun mem n s acts = (n', s', l) -> heard k s s'.
Proof.
  intros k. induction acts as [|a r IH]; cbn [xrun]; intros n s n' s' l R O F NK E.
  - injection E as <- <- <-. now apply heard_same.
  - destruct (xstep mem n s a) as ((n1, s1), o) eqn:S1. destruct (xrun mem n1 s1 r) as ((n2, s2), l2) eqn:R2.
    injection E as <- <- <-.
    pose proof (step_gives _ _ _ _ _ _ R (fun t H => F t (or_introl H)) S1) as (_ & Y).
    apply (step_heard k) in S1; try assumption; [|intros t ->; apply F; now left|intros ->; apply NK; now left].
    destruct S1 as (H1 & O1). destruct Y as [R1|X1].
    + apply IH in R2; try assumption; [|apply O1, R1|intros; apply F; now right|intro; apply NK; now right].
      destruct H1 as (d1 & g1 & T1 & G1 & V1 & _). destruct R2 as (d2 & g2 & T2 & G2 & V2 & e & LE & Z2).
      assert (g1 = d1) by (apply V1, R1). subst g1. exists (d1 ++ d2), (d1 ++ g2).
      rewrite T2, T1, G2, G1, !app_assoc. split; [reflexivity|]. split; [reflexivity|].
      split; [intro X; now rewrite (V2 X)|]. exists e. split; [assumption|].
      destruct Z2 as [-> | ->]; [left|right]; now rewrite app_assoc.
    + apply run_over in R2; [|assumption]. destruct R2 as (-> & _). assumption.
Qed.

(** ** addSink *)

Definition keeps {A B} (f : xst -> B) (m : X A) : Prop := forall n s r n' s', m n s = (r, n', s') -> f s' = f s.
Definition ts (s : xst) : list nat * list nat := (x_tasks s, x_sinks s).
Lemma keeps_alloc : keeps ts (alloc mem).
Proof. intros n s r n' s' E. unfold alloc in E. destruct (mem n); now injection E as <- <- <-. Qed.
Lemma keeps_pure : forall A (r0 : xres A), keeps ts (fun n s => (r0, n, s)).
Proof. intros A r0 n s r n' s' E. now injection E as <- <- <-. Qed.
Lemma keeps_ret : forall A (a : A), keeps ts (ret a).
Proof. intros. apply keeps_pure. Qed.
Lemma keeps_getv : forall A (f : xst -> A), keeps ts (getv f).
Proof. intros A f n s r n' s' E. now injection E as <- <- <-. Qed.
Lemma keeps_setv : forall f, (forall s, ts (f s) = ts s) -> keeps ts (setv f).
Proof. intros f H n s r n' s' E. injection E as <- <- <-. apply H. Qed.
Lemma keeps_bind : forall A B (m : X A) (f : A -> X B), keeps ts m -> (forall a, keeps ts (f a)) -> keeps ts (bind m f).
Proof.
  intros A B m f Hm Hf n s r n' s' E. unfold bind in E. destruct (m n s) as ((r1, n1), s1) eqn:M.
  apply Hm in M. destruct r1 as [a| |e].
  - apply Hf in E. congruence.
  - injection E as <- <- <-. assumption.
  - injection E as <- <- <-. assumption.
Qed.
Lemma keeps_locked : forall A (m : X A), keeps ts m -> keeps ts (locked m).
Proof.
  intros A m H n s r n' s' E. unfold locked in E. destruct (x_locked s); [now injection E as <- <- <-|].
  destruct (m n (w_locked true s)) as ((r1, n1), s1) eqn:M. apply H in M. injection E as <- <- <-. exact M.
Qed.
Ltac keep := repeat (lazymatch goal with |- keeps _ (bind _ _) => apply keeps_bind; [|intro] end);
  try apply keeps_alloc; try apply keeps_ret; try apply keeps_pure; try apply keeps_getv; try (apply keeps_setv; intros []; reflexivity).
Lemma keeps_send : forall j, keeps ts (xsend mem j).
Proof. intro j. unfold xsend. keep. apply keeps_locked. keep. Qed.
Lemma keeps_push : forall m, keeps ts (xpushMessageToLogger mem m).
Proof.
  intro m. unfold xpushMessageToLogger. keep. destruct a; keep.
  - apply keeps_send.
  - destruct a; keep.
Qed.
Lemma keeps_push_fatal : forall f, keeps ts (xpushFatalMessageToLogger mem f).
Proof. intro f. unfold xpushFatalMessageToLogger. keep. destruct a; keep. apply keeps_send. Qed.
Lemma keeps_fatal : forall st m sg, keeps ts (xsaveFatalMessage mem st m sg).
Proof.
  intros st m sg. unfold xsaveFatalMessage. keep.
  - destruct a3; keep.
  - destruct a as [[|i]|]; keep.
  - destruct (1 <? a7)%N; keep.
  - apply keeps_push_fatal.
Qed.
Lemma keeps_hand_over : forall full now tid c, keeps ts (xhand_over mem full now tid c).
Proof.
  intros full now tid c. unfold xhand_over. keep. destruct (end_LogCapture full now tid c) as [[m|st m sg]|]; keep.
  - apply keeps_push.
  - apply keeps_fatal.
Qed.
Lemma keeps_statement : forall t, keeps ts (xstatement mem t).
Proof.
  intro t. unfold xstatement. keep.
  - destruct (wasFatal _); keep.
  - intros n s r n' s' E. destruct (insert mem (t_pieces t) [] true n) as (text, n1).
    destruct (xhand_over mem (t_full t) (t_now t) (t_tid t) (stream (t_capture t) text) n1 s) as ((r2, n2), s2) eqn:H.
    apply keeps_hand_over in H. destruct r2 as [[]| |e]; injection E as <- <- <-; exact H.
Qed.
Lemma keeps_init : keeps ts (xinitialize mem).
Proof. unfold xinitialize. keep. destruct a; keep. destruct a; keep. destruct a; keep. apply keeps_send. Qed.
Lemma keeps_must : forall A (m : X A), keeps ts m -> keeps ts (must m).
Proof.
  intros A m H n s r n' s' E. unfold must in E. destruct (m n s) as ((r1, n1), s1) eqn:M. apply H in M.
  destruct r1; injection E as <- <- <-; exact M.
Qed.
Lemma keeps_destroy : keeps ts (xdestroy_sink mem).
Proof. apply keeps_must. keep. Qed.
Lemma keeps_owning : forall A (m : X A), keeps ts m -> keeps ts (owning_sink mem m).
Proof.
  intros A m H n s r n' s' E. apply owned in E. destruct E as (r1 & n1 & s1 & E & -> & _). eapply H. exact E.
Qed.
Lemma keeps_clear : forall l, keeps ts (xclear mem l).
Proof. induction l as [|k l IH]; cbn [xclear]; keep; [apply keeps_destroy|exact IH]. Qed.
Lemma keeps_add : forall k, keeps ts (xadd_sink mem k).
Proof. intro k. unfold xadd_sink. keep; [apply keeps_must, keeps_alloc|]. apply keeps_owning. keep. apply keeps_send. Qed.
Lemma keeps_return : forall k, keeps ts (xadd_return mem k).
Proof. intros k n s r n' s' E. apply return_spec in E. now destruct E as (-> & _). Qed.
Lemma keeps_to_sinks : forall m l, keeps ts (xto_sinks mem l m).
Proof. intros m. induction l as [|k l IH]; cbn [xto_sinks]; keep. exact IH. Qed.

Definition all_registered (s : xst) : Prop := forall k, In k (x_tasks s) -> In k (x_sinks s).
Lemma ts_registered : forall s s', ts s' = ts s -> all_registered s -> all_registered s'.
Proof. intros s s' E H. unfold all_registered. injection E as -> ->. exact H. Qed.

Lemma work_registered : (forall n, mem n = None) -> forall n s r n' s', all_registered s -> xwork mem n s = (r, n', s') -> all_registered s'.
Proof.
  intros OK n s r n' s' A E. unfold xwork, bind at 1, getv at 1 in E. destruct (x_queue s) as [|j q].
  - injection E as <- <- <-. exact A.
  - unfold bind at 1 in E. destruct (locked (setv (w_queue q)) n s) as ((r1, n1), s1) eqn:K.
    assert (A1 : all_registered s1).
    { eapply ts_registered; [|exact A]. eapply (keeps_locked _ _ (keeps_setv _ _)). exact K. Unshelve. now intros []. }
    destruct r1 as [u| |x]; [|injection E as <- <- <-; exact A1..].
    destruct j as [m|f|i].
    + match type of E with match ?X with _ => _ end = _ => destruct X as ((r2, n2), s2) eqn:B end.
      assert (T : ts s2 = ts s1).
      { revert B. apply (fun H : keeps ts _ => H n1 s1 r2 n2 s2). keep; [apply keeps_to_sinks|]. destruct a0; keep. }
      apply (ts_registered _ _ T) in A1. destruct r2; injection E as <- <- <-; exact A1.
    + match type of E with match ?X with _ => _ end = _ => destruct X as ((r2, n2), s2) eqn:B end.
      assert (T : ts s2 = ts s1).
      { revert B. apply (fun H : keeps ts _ => H n1 s1 r2 n2 s2). keep; [apply keeps_to_sinks|apply keeps_clear]. }
      apply (ts_registered _ _ T) in A1. destruct r2; injection E as <- <- <-; exact A1.
    + unfold bind, alloc, setv in E. rewrite OK in E. injection E as <- <- <-. intros k. cbn.
      rewrite !in_app_iff. intros [H|H]; [left; now apply A1|now right].
Qed.

Lemma got_registered : (forall n, mem n = None) -> forall acts n s n' s' l,
  all_registered s -> xrun mem n s acts = (n', s', l) -> all_registered s'.
Proof.
  intros OK. induction acts as [|a r IH]; cbn [xrun]; intros n s n' s' l A E.
  - now injection E as <- <- <-.
  - destruct (xstep mem n s a) as ((n1, s1), o) eqn:S1. destruct (xrun mem n1 s1 r) as ((n2, s2), l2) eqn:R2.
    injection E as <- <- <-. apply IH in R2; [assumption|]. clear IH R2 r s2 n2 l2.
    unfold xstep in S1. destruct (x_end s); [injection S1 as <- <- <-; exact A|].
    destruct (xdo mem a n s) as ((x, n3), s3) eqn:D.
    assert (A3 : all_registered s3).
    { destruct a as [t| |h|k|k|]; cbn [xdo] in D.
      - apply keeps_statement in D. eapply ts_registered; eassumption.
      - apply keeps_init in D. eapply ts_registered; eassumption.
      - eapply ts_registered; [|exact A]. revert D. apply (fun H : keeps ts _ => H n s x n3 s3). unfold xset_hook. keep.
      - apply keeps_add in D. eapply ts_registered; eassumption.
      - apply keeps_return in D. eapply ts_registered; eassumption.
      - unfold bind in D. destruct (xwork mem n s) as ((r4, n4), s4) eqn:W. apply work_registered in W; try assumption.
        destruct r4; injection D as <- <- <-; exact W. }
    destruct x; injection S1 as <- <- <-; exact A3.
Qed.

(** ** with enough memory, before initialization *)
Definition plain (u : xstmt) : Prop :=
  fresh u /\ fatal u = false /\ t_throws u = false /\ (size (c_str (c_file (t_capture u))) < npos)%N.

Lemma before_init : (forall n, mem n = None) -> forall u n s, plain u -> x_logger s = false ->
  exists m n', is_entry u (whole_text u) m /\
    xstatement mem u n s = (Val Returned, n',
      if x_set_first s then s
      else w_set_first true (w_out (XStderr (not_initialized_text ++ _message m ++ nl)) (w_first (Some (replace_text m (not_initialized_text ++ _message m))) s))).
Proof.
  intros OK u n s (F & NF & NT & SZ) LG. unfold xstatement.
  assert (W : wasFatal (c_level (t_capture u)) = false) by exact NF. rewrite W, NT. unfold bind at 1, ret at 1.
  rewrite inserted_all by (intros; apply OK). cbn [app]. unfold xhand_over, bind, alloc. rewrite !OK.
  destruct (end_total (t_full u) (t_now u) (t_tid u) (stream (t_capture u) (List.concat (t_pieces u))) SZ) as (d & D). rewrite D.
  apply entry_fields in D; [|assumption]. destruct D as [(m & -> & _ & I)|(st & m & _ & B & _)]; [|congruence].
  exists m. unfold xpushMessageToLogger, getv, setv, bind, alloc. rewrite LG. destruct (x_set_first s) eqn:SF.
  - unfold ret. eexists. split; [exact I|reflexivity].
  - rewrite !OK. unfold ret, msg_message. eexists. split; [exact I|]. rewrite <- app_assoc. reflexivity.
Qed.

Lemma first_done : (forall n, mem n = None) -> forall r n s n' s' l, (forall u, In u r -> plain u) ->
  x_logger s = false -> x_end s = None -> x_set_first s = true ->
  xrun mem n s (map ALog r) = (n', s', l) -> s' = s /\ forall p, In p l -> snd p = Some Returned.
Proof.
  intros OK. induction r as [|u r IH]; cbn [map xrun]; intros n s n' s' l H LG NE SF E.
  - injection E as <- <- <-. split; [reflexivity|intros p []].
  - unfold xstep in E. rewrite NE in E. cbn [xdo] in E.
    destruct (before_init OK u n s (H u (or_introl eq_refl)) LG) as (m & n1 & _ & X). rewrite X, SF in E.
    destruct (xrun mem n1 s (map ALog r)) as ((n2, s2), l2) eqn:R2. injection E as <- <- <-.
    apply IH in R2; auto; [|intros; apply H; now right]. destruct R2 as (-> & Q). split; [reflexivity|].
    intros p [<-|I]; [reflexivity|auto].
Qed.

Lemma first_kept : (forall n, mem n = None) -> forall t r n n' s' l, (forall u, In u (t :: r) -> plain u) ->
  xrun mem n x_start (map ALog (t :: r)) = (n', s', l) ->
  (forall p, In p l -> snd p = Some Returned) /\ x_end s' = None /\
  exists m, is_entry t (whole_text t) m /\ x_first s' = Some (replace_text m (not_initialized_text ++ _message m)) /\
    x_out s' = [XStderr (not_initialized_text ++ _message m ++ nl)] /\
    x_logger s' = false /\ x_save_first s' = false /\ x_locked s' = false /\ x_queue s' = [].
Proof.
  intros OK t r n n' s' l H E. cbn [map xrun] in E. unfold xstep in E. change (x_end x_start) with (@None xend) in E. cbn [xdo] in E.
  destruct (before_init OK t n x_start (H t (or_introl eq_refl)) eq_refl) as (m & n1 & I & X). rewrite X in E.
  change (x_set_first x_start) with false in E. cbn iota beta in E.
  match type of E with context [xrun mem n1 ?S (map ALog r)] => destruct (xrun mem n1 S (map ALog r)) as ((n2, s2), l2) eqn:R2 end.
  injection E as <- <- <-. apply first_done in R2; auto; [|intros; apply H; now right]. destruct R2 as (-> & Q).
  split; [intros p [<-|J]; [reflexivity|auto]|]. split; [reflexivity|]. exists m. split; [exact I|]. repeat split.
Qed.
End S.
