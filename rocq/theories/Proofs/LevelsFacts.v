(** Lemmas about Model/Levels.v. *)
From Coq Require Import Ascii String List ZArith NArith Bool Lia Sorted.
From Verif.Base Require Import Bytes.
From Verif.Model Require Import Levels.
From Verif.Spec Require Import LevelsSpec.
From Verif.Proofs Require Import BytesFacts.
Import ListNotations.
Local Open Scope list_scope.
Local Open Scope Z_scope.

Lemma find_put : forall m k v k',
  map_find (map_put m k v) k' = if k' =? k then Some v else map_find m k'.
Proof.
  induction m as [|[k0 v0] r IH]; intros k v k'; simpl.
  - reflexivity.
  - destruct (Z.eqb_spec k k0) as [->|n]; simpl.
    + destruct (k' =? k0); reflexivity.
    + destruct (Z.ltb_spec k k0); simpl.
      * reflexivity.
      * rewrite IH. destruct (Z.eqb_spec k' k0) as [->|]; auto.
        destruct (Z.eqb_spec k0 k); congruence.
Qed.

Definition keys (m : lmap) : list Z := map fst m.

Definition sorted (m : lmap) : Prop := StronglySorted Z.lt (keys m).

Lemma keys_find : forall m k, In k (keys m) <-> map_find m k <> None.
Proof.
  induction m as [|[k0 v0] r IH]; simpl; intro k.
  - tauto.
  - destruct (Z.eqb_spec k k0) as [->|n].
    + split; [discriminate|auto].
    + rewrite <- IH. split; [intros [E|E]; congruence|auto].
Qed.

Lemma keys_put_in : forall m k v x, In x (keys (map_put m k v)) -> x = k \/ In x (keys m).
Proof.
  intros m k v x H. apply keys_find in H. rewrite find_put in H.
  destruct (Z.eqb_spec x k); auto. right. now apply keys_find.
Qed.

Lemma sorted_put : forall m k v, sorted m -> sorted (map_put m k v).
Proof.
  unfold sorted. induction m as [|[k0 v0] r IH]; intros k v S; simpl.
  - repeat constructor.
  - simpl in S. apply StronglySorted_inv in S as [S F].
    destruct (Z.eqb_spec k k0) as [->|n]; simpl.
    + constructor; auto.
    + destruct (Z.ltb_spec k k0); simpl.
      * constructor; [constructor; auto|].
        constructor; auto. eapply Forall_impl; [|exact F]. simpl; intros; lia.
      * constructor; [apply IH; auto|].
        apply Forall_forall. intros x Hx. apply keys_put_in in Hx as [->|Hx]; [lia|].
        rewrite Forall_forall in F. auto.
Qed.


Lemma find_index_assign : forall m k v k',
  map_find (map_index_assign m k v) k' = if k' =? k then Some (LL_assign v) else map_find m k'.
Proof.
  intros. unfold map_index_assign, map_index.
  destruct (map_find m k) eqn:E; rewrite find_put; auto.
  rewrite find_put. destruct (k' =? k); auto.
Qed.

Lemma sorted_index_assign : forall m k v, sorted m -> sorted (map_index_assign m k v).
Proof.
  intros. unfold map_index_assign, map_index. destruct (map_find m k);
  repeat apply sorted_put; auto.
Qed.

Lemma find_set_all : forall b m k,
  map_find (set_all b m) k = option_map (fun e => mkLL b (level e)) (map_find m k).
Proof.
  induction m as [|[k0 v0] r IH]; simpl; intro k; auto.
  destruct (k =? k0); auto.
Qed.

Lemma keys_set_all : forall b m, keys (set_all b m) = keys m.
Proof. intros. unfold keys, set_all. rewrite map_map. now apply map_ext. Qed.

Lemma value_copy : forall l, value (copyLevel l) = value l.
Proof. reflexivity. Qed.

Lemma copy_idem : forall l, copyLevel (copyLevel l) = copyLevel l.
Proof. intro l. unfold copyLevel; simpl. now rewrite c_str_idem. Qed.

Lemma find_add : forall m l b k,
  map_find (addLogLevel m l b) k = if k =? value l then Some (mkLL b (copyLevel l)) else map_find m k.
Proof.
  intros. unfold addLogLevel. rewrite find_index_assign. simpl.
  destruct (k =? value l); auto.
  unfold LL_assign, LL_of2; simpl. now rewrite !copy_idem.
Qed.

Lemma find_set : forall m l b k,
  map_find (set m l b) k =
  if k =? value l then match map_find m k with Some _ => Some (mkLL b (copyLevel l)) | None => None end
  else map_find m k.
Proof.
  intros. unfold set. rewrite value_copy. destruct (map_find m (value l)) eqn:E.
  - rewrite find_index_assign. destruct (Z.eqb_spec k (value l)) as [->|n]; auto.
    rewrite E. unfold LL_assign, LL_of2; simpl. now rewrite !copy_idem.
  - destruct (Z.eqb_spec k (value l)) as [->|n]; auto. now rewrite E.
Qed.

Lemma copy_set : forall m l b, set m (copyLevel l) b = set m l b.
Proof. intros. unfold set. now rewrite copy_idem. Qed.

(** every entry is filed under its own value *)
Definition coherent (m : lmap) : Prop :=
  forall k e, map_find m k = Some e -> value (level e) = k.

Lemma coherent_set : forall m l b, coherent m -> coherent (set m l b).
Proof.
  intros m l b H k e. rewrite find_set. destruct (Z.eqb_spec k (value l)) as [->|n]; auto.
  destruct (map_find m (value l)); [|discriminate]. intro E. injection E as <-. reflexivity.
Qed.

Lemma sorted_set : forall m l b, sorted m -> sorted (set m l b).
Proof. intros. unfold set. destruct (map_find _ _); auto. now apply sorted_index_assign. Qed.

Lemma visit_find : forall from m k v, coherent m ->
  map_find (setHighest_visit from m k) v =
  if v =? k then match map_find m v with
                 | Some e => Some (mkLL (from <=? v) (copyLevel (level e))) | None => None end
  else map_find m v.
Proof.
  intros from m k v C. unfold setHighest_visit.
  destruct (map_find m k) as [e|] eqn:E.
  - pose proof (C _ _ E) as V. unfold disable, enable. rewrite !copy_set.
    destruct (Z.ltb_spec k from) as [L|L]; rewrite find_set, V;
      destruct (Z.eqb_spec v k) as [->|n]; auto; rewrite E;
      destruct (Z.leb_spec from k); auto; lia.
  - destruct (Z.eqb_spec v k) as [->|n]; auto. now rewrite E.
Qed.

Lemma visit_coherent : forall from m k, coherent m -> coherent (setHighest_visit from m k).
Proof.
  intros. unfold setHighest_visit. destruct (map_find m k); auto.
  destruct (k <? from); apply coherent_set; auto.
Qed.

Lemma visit_sorted : forall from m k, sorted m -> sorted (setHighest_visit from m k).
Proof.
  intros. unfold setHighest_visit. destruct (map_find m k); auto.
  destruct (k <? from); apply sorted_set; auto.
Qed.

Lemma fold_visit_sorted : forall from ks m, sorted m -> sorted (fold_left (setHighest_visit from) ks m).
Proof. induction ks; simpl; auto. intros. apply IHks. now apply visit_sorted. Qed.

Lemma fold_visit_coherent : forall from ks m, coherent m -> coherent (fold_left (setHighest_visit from) ks m).
Proof. induction ks; simpl; auto. intros. apply IHks. now apply visit_coherent. Qed.

Lemma fold_visit_find : forall from ks m v, coherent m -> NoDup ks ->
  map_find (fold_left (setHighest_visit from) ks m) v =
  if in_dec Z.eq_dec v ks then
     match map_find m v with
     | Some e => Some (mkLL (from <=? v) (copyLevel (level e))) | None => None end
  else map_find m v.
Proof.
  induction ks as [|k ks IH]; intros m v C ND; cbn [fold_left].
  - destruct (in_dec Z.eq_dec v []); [contradiction|reflexivity].
  - inversion ND; subst. rewrite IH; auto using visit_coherent.
    rewrite visit_find by assumption.
    destruct (in_dec Z.eq_dec v ks) as [I|I], (in_dec Z.eq_dec v (k :: ks)) as [J|J]; simpl in J.
    + destruct (Z.eqb_spec v k) as [->|]; [contradiction|reflexivity].
    + tauto.
    + destruct J as [->|J]; [|contradiction]. now rewrite Z.eqb_refl.
    + destruct (Z.eqb_spec v k) as [->|]; tauto || reflexivity.
Qed.

Lemma sorted_nodup : forall m, sorted m -> NoDup (keys m).
Proof.
  unfold sorted. induction m as [|[k0 v0] r IH]; simpl; intro S; constructor.
  - apply StronglySorted_inv in S as [S F]. intro I. rewrite Forall_forall in F.
    specialize (F _ I). lia.
  - apply StronglySorted_inv in S as [S F]. auto.
Qed.

Lemma find_setHighest : forall m l v, coherent m -> sorted m ->
  map_find (setHighest m l) v =
  match map_find m (value l), map_find m v with
  | Some _, Some e => Some (mkLL (value l <=? v) (copyLevel (level e)))
  | _, r => r
  end.
Proof.
  intros m l v C S. unfold setHighest. rewrite value_copy.
  destruct (map_find m (value l)) eqn:E.
  - rewrite fold_visit_find; auto using sorted_nodup.
    destruct (in_dec Z.eq_dec v (map fst m)) as [I|I].
    + destruct (map_find m v); auto.
    + assert (map_find m v = None).
      { destruct (map_find m v) eqn:F; auto. exfalso. apply I. apply keys_find. congruence. }
      now rewrite H.
  - destruct (map_find m v); auto.
Qed.

(** ** the main invariant *)
Definition stat (m : lmap) (v : Z) : option bool := option_map status (map_find m v).

Definition linv (m : lmap) (h : list lop) : Prop :=
  sorted m /\ coherent m /\ (forall v, stat m v = verdict h v).

Lemma stat_default : forall v, stat g_log_level_defaults v = if standard v then Some true else None.
Proof.
  intro v. unfold stat, g_log_level_defaults, standard. simpl.
  unfold kDebugValue, kInfoValue, kWarningValue, kFatalValue.
  destruct (v =? 100); simpl; auto. destruct (v =? 300); simpl; auto.
  destruct (v =? 500); simpl; auto. destruct (v =? 1000); simpl; auto.
Qed.

Lemma default_sorted : sorted g_log_level_defaults.
Proof.
  unfold sorted, keys, g_log_level_defaults; simpl.
  unfold kDebugValue, kInfoValue, kWarningValue, kFatalValue.
  repeat (constructor; [|repeat (constructor; [lia|]); constructor]). constructor.
Qed.

Lemma default_coherent : coherent g_log_level_defaults.
Proof.
  intros k e. unfold g_log_level_defaults. simpl.
  repeat match goal with |- context [if ?a =? ?b then _ else _] => destruct (Z.eqb_spec a b) end;
  intro H; try discriminate; injection H as <-; simpl; auto.
Qed.

Lemma linv_init : linv g_log_level_defaults [].
Proof. split; [apply default_sorted|]. split; [apply default_coherent|]. apply stat_default. Qed.

Lemma linv_step : forall m h o, linv m h -> logs_registered (o :: h) -> linv (lstep m o) (o :: h).
Proof.
  intros m h o (S & C & V) R.
  assert (FV : forall v, verdict h v = None <-> map_find m v = None).
  { intro v. rewrite <- V. unfold stat. destruct (map_find m v); split; simpl; congruence. }
  destruct o; simpl in R; cbn [lstep].
  - (* add *)
    split; [|split].
    + unfold addLogLevel. now apply sorted_index_assign.
    + intros k e. rewrite find_add. destruct (Z.eqb_spec k (value l)) as [->|]; auto.
      intro E; injection E as <-. reflexivity.
    + intro v. simpl. unfold stat. rewrite find_add. rewrite (Z.eqb_sym (value l)).
      destruct (v =? value l); auto. apply V.
  - (* add1 *)
    split; [|split].
    + unfold addLogLevel1, addLogLevel. now apply sorted_index_assign.
    + intros k e. unfold addLogLevel1. rewrite find_add, value_copy.
      destruct (Z.eqb_spec k (value l)) as [->|]; auto. intro E; injection E as <-. reflexivity.
    + intro v. simpl. unfold stat, addLogLevel1. rewrite find_add, value_copy, (Z.eqb_sym (value l)).
      destruct (v =? value l); auto. apply V.
  - split; [apply default_sorted|]. split; [apply default_coherent|]. simpl. apply stat_default.
  - split; [|split]; auto using sorted_set, coherent_set.
    intro v. simpl. rewrite <- V. unfold stat. rewrite find_set, (Z.eqb_sym (value l)).
    destruct (v =? value l); auto. destruct (map_find m v); auto.
  - unfold enable. rewrite copy_set. split; [|split]; auto using sorted_set, coherent_set.
    intro v. simpl. rewrite <- V. unfold stat. rewrite find_set, (Z.eqb_sym (value l)).
    destruct (v =? value l); auto. destruct (map_find m v); auto.
  - unfold disable. rewrite copy_set. split; [|split]; auto using sorted_set, coherent_set.
    intro v. simpl. rewrite <- V. unfold stat. rewrite find_set, (Z.eqb_sym (value l)).
    destruct (v =? value l); auto. destruct (map_find m v); auto.
  - split; [|split].
    + unfold sorted, enableAll. now rewrite keys_set_all.
    + intros k e. unfold enableAll. rewrite find_set_all. destruct (map_find m k) eqn:E; [|discriminate].
      simpl. intro H; injection H as <-. simpl. eauto.
    + intro v. simpl. rewrite <- V. unfold stat, enableAll. rewrite find_set_all.
      destruct (map_find m v); auto.
  - split; [|split].
    + unfold sorted, disableAll. now rewrite keys_set_all.
    + intros k e. unfold disableAll. rewrite find_set_all. destruct (map_find m k) eqn:E; [|discriminate].
      simpl. intro H; injection H as <-. simpl. eauto.
    + intro v. simpl. rewrite <- V. unfold stat, disableAll. rewrite find_set_all.
      destruct (map_find m v); auto.
  - split; [|split].
    + unfold setHighest. destruct (map_find _ _); auto using fold_visit_sorted.
    + unfold setHighest. destruct (map_find _ _); auto using fold_visit_coherent.
    + intro v. simpl. rewrite <- !V. unfold stat. rewrite find_setHighest by assumption.
      destruct (map_find m (value l)), (map_find m v); auto.
  - destruct R as [R _]. rewrite FV in R. unfold logLevel, map_index.
    destruct (map_find m (value l)) as [e|] eqn:E; [|congruence]. simpl.
    split; [|split]; auto.
Qed.

Lemma logs_registered_tail : forall o h, logs_registered (o :: h) -> logs_registered h.
Proof. intros o h. destruct o; simpl; tauto. Qed.

Lemma logs_registered_app : forall a h, logs_registered (a ++ h) -> logs_registered h.
Proof. induction a; simpl app; auto. intros h R. apply IHa. eapply logs_registered_tail; eauto. Qed.

Lemma linv_run : forall ops m h,
  linv m h -> logs_registered (rev ops ++ h) -> linv (fold_left lstep ops m) (rev ops ++ h).
Proof.
  induction ops as [|o ops IH]; simpl; intros m h I R; auto.
  rewrite <- app_assoc in *. simpl in *. apply IH; auto. apply linv_step; auto.
  eapply logs_registered_app; eauto.
Qed.

Lemma run_linv : forall ops, logs_registered (rev ops) -> linv (lrun ops) (rev ops).
Proof.
  intros ops R. unfold lrun. pose proof (linv_run ops _ [] linv_init) as H.
  rewrite app_nil_r in H. auto.
Qed.

Lemma verdict_registered : forall ops l, logs_registered (rev ops) ->
  snd (logLevel (lrun ops) l) = match verdict (rev ops) (value l) with Some b => b | None => false end.
Proof.
  intros ops l R. destruct (run_linv ops R) as (_ & _ & V).
  unfold logLevel, map_index. rewrite <- V. unfold stat.
  destruct (map_find _ _); reflexivity.
Qed.

Lemma getStatus_verdict : forall ops l, logs_registered (rev ops) ->
  getStatus (lrun ops) l = as_status (verdict (rev ops) (value l)).
Proof.
  intros ops l R. destruct (run_linv ops R) as (_ & _ & V).
  unfold getStatus. rewrite value_copy, <- V. unfold stat.
  destruct (map_find _ _) as [e|]; reflexivity.
Qed.

(** sortedness holds after every history, registered or not *)
Lemma step_sorted : forall m o, sorted m -> sorted (lstep m o).
Proof.
  intros m o S. destruct o; cbn [lstep]; auto using sorted_set.
  - unfold addLogLevel. now apply sorted_index_assign.
  - unfold addLogLevel1, addLogLevel. now apply sorted_index_assign.
  - apply default_sorted.
  - unfold enable. now apply sorted_set.
  - unfold disable. now apply sorted_set.
  - unfold sorted, enableAll. now rewrite keys_set_all.
  - unfold sorted, disableAll. now rewrite keys_set_all.
  - unfold setHighest. destruct (map_find _ _); auto using fold_visit_sorted.
  - unfold logLevel, map_index. destruct (map_find _ _); simpl; auto. now apply sorted_put.
Qed.

Lemma map_find_In : forall m k e, map_find m k = Some e -> In (k, e) m.
Proof.
  induction m as [|[k' v] m IH]; intros k e E; [discriminate|]. cbn [map_find] in E.
  destruct (Z.eqb_spec k k') as [->|_]; [injection E as ->; left; reflexivity|right; apply IH; exact E].
Qed.
Lemma find_In : forall m k e, sorted m -> In (k, e) m -> map_find m k = Some e.
Proof.
  induction m as [|[k' v] m IH]; intros k e S I; [destruct I|]. cbn [map_find].
  destruct I as [I|I]; [injection I as -> ->; rewrite Z.eqb_refl; reflexivity|].
  inversion S as [|? ? S' F]; subst. rewrite Forall_forall in F.
  assert (L : (k' < k)%Z) by (apply F; change k with (fst (k, e)); apply in_map; exact I).
  destruct (Z.eqb_spec k k') as [->|_]; [lia|]. apply IH; assumption.
Qed.
Lemma run_sorted : forall ops, sorted (lrun ops).
Proof.
  intro ops. unfold lrun. pose proof default_sorted as S. revert S. generalize g_log_level_defaults.
  induction ops; simpl; auto. intros. apply IHops. now apply step_sorted.
Qed.


(** names: along registered histories with clean names, each entry is (name, status) as specified *)
Definition ninv (m : lmap) (h : list lop) : Prop :=
  forall k e, map_find m k = Some e -> text (level e) = name_after h k /\ ~ In NUL (text (level e)).

Lemma lit_no_nul_std : forall v, ~ In NUL (standard_name v).
Proof.
  intro v. unfold standard_name.
  destruct (v =? 100); [|destruct (v =? 300); [|destruct (v =? 500)]];
  vm_compute; intuition discriminate.
Qed.

Lemma ninv_default : forall h, (forall k, standard k = true -> name_after h k = standard_name k) ->
  ninv g_log_level_defaults h.
Proof.
  intros h H k e E. pose proof (stat_default k) as D. unfold stat in D. rewrite E in D. simpl in D.
  destruct (standard k) eqn:S; [|discriminate]. rewrite H by assumption.
  assert (text (level e) = standard_name k) as ->.
  { unfold standard in S. unfold standard_name. revert E. unfold g_log_level_defaults. simpl.
    unfold kDebugValue, kInfoValue, kWarningValue, kFatalValue.
    destruct (k =? 100); [intro E; injection E as <-; reflexivity|].
    destruct (k =? 300); [intro E; injection E as <-; reflexivity|].
    destruct (k =? 500); [intro E; injection E as <-; reflexivity|].
    destruct (k =? 1000); [intro E; injection E as <-; reflexivity|discriminate]. }
  split; auto using lit_no_nul_std.
Qed.

Lemma c_str_clean : forall s, ~ In NUL s -> c_str s = s.
Proof. intros. now apply c_str_id. Qed.

Lemma ninv_set : forall m h l b o, ninv m h -> ~ In NUL (text l) ->
  (forall v, name_after (o :: h) v = if value l =? v then text l else name_after h v) ->
  ninv (set m l b) (o :: h).
Proof.
  intros m h l b o N C H k e. rewrite find_set, H, (Z.eqb_sym (value l)).
  destruct (Z.eqb_spec k (value l)) as [->|]; auto.
  destruct (map_find m (value l)); [|discriminate]. intro E; injection E as <-. simpl.
  rewrite c_str_clean; auto.
Qed.

Lemma ninv_step : forall m h o, linv m h -> ninv m h -> op_names_ok o -> logs_registered (o :: h) ->
  ninv (lstep m o) (o :: h).
Proof.
  intros m h o L N C R. destruct o; cbn [lstep]; simpl in C.
  - intros k e. rewrite find_add. simpl. rewrite (Z.eqb_sym (value l)).
    destruct (Z.eqb_spec k (value l)) as [->|]; auto. intro E; injection E as <-. simpl.
    rewrite c_str_clean; auto.
  - intros k e. unfold addLogLevel1. rewrite find_add, value_copy. simpl. rewrite (Z.eqb_sym (value l)).
    destruct (Z.eqb_spec k (value l)) as [->|]; auto. intro E; injection E as <-. simpl.
    rewrite c_str_idem, c_str_clean; auto.
  - apply ninv_default. reflexivity.
  - apply ninv_set; auto.
  - unfold enable. rewrite copy_set. apply ninv_set; auto.
  - unfold disable. rewrite copy_set. apply ninv_set; auto.
  - intros k e. unfold enableAll. rewrite find_set_all. destruct (map_find m k) eqn:E; [|discriminate].
    simpl. intro H; injection H as <-. simpl. eauto.
  - intros k e. unfold disableAll. rewrite find_set_all. destruct (map_find m k) eqn:E; [|discriminate].
    simpl. intro H; injection H as <-. simpl. eauto.
  - destruct L as (S & Co & _). intros k e. rewrite find_setHighest by assumption.
    destruct (map_find m (value l)); [|apply N].
    destruct (map_find m k) eqn:E; [|discriminate]. intro H; injection H as <-.
    destruct (N _ _ E) as [T Z]. simpl. rewrite c_str_clean; auto.
  - destruct R as [R _]. destruct L as (_ & _ & V).
    unfold logLevel, map_index. specialize (V (value l)). unfold stat in V.
    destruct (map_find m (value l)) eqn:E; [|simpl in V; congruence]. simpl. exact N.
Qed.

Lemma ninv_run : forall ops m h, linv m h -> ninv m h -> Forall op_names_ok ops ->
  logs_registered (rev ops ++ h) -> ninv (fold_left lstep ops m) (rev ops ++ h).
Proof.
  induction ops as [|o ops IH]; simpl; intros m h L N F R; auto.
  rewrite <- app_assoc in *. simpl in *. inversion F; subst.
  assert (R' : logs_registered (o :: h)).
  { eapply logs_registered_app; eauto. }
  apply IH; auto using linv_step, ninv_step.
Qed.

Lemma run_names : forall ops, Forall op_names_ok ops -> logs_registered (rev ops) ->
  ninv (lrun ops) (rev ops).
Proof.
  intros ops F R. unfold lrun.
  pose proof (ninv_run ops _ [] linv_init (ninv_default [] (fun k _ => eq_refl)) F) as H.
  rewrite app_nil_r in H. auto.
Qed.

(** ** the listing *)
Definition line_body (kv : Z * LoggingLevel) : str :=
  lit "name: " ++ text (level (snd kv)) ++ lit " level: " ++ to_string (fst kv) ++
  lit " status: " ++ [if status (snd kv) then "1"%char else "0"%char].

Lemma level_line_body : forall kv, level_line kv = line_body kv ++ nl.
Proof.
  intros [k [[|] l]]; unfold level_line, line_body; cbn [fst snd status level];
  rewrite !app_assoc; reflexivity.
Qed.

Lemma digits_no_nl : forall z, ~ In NL (to_string z).
Proof.
  assert (D : forall n, ~ In NL (dec n)).
  { intros n H. apply dec_digits in H. discriminate. }
  intros [|p|p]; cbn [to_string]; auto. intros [H|H]; [discriminate|]. now apply D in H.
Qed.

Lemma line_body_no_nl : forall kv, ~ In NL (text (level (snd kv))) -> ~ In NL (line_body kv).
Proof.
  intros [k e] H K. unfold line_body in K. cbn [fst snd] in *.
  repeat (apply in_app_or in K as [K|K]; [now (apply H in K) || (apply digits_no_nl in K) || (revert K; vm_compute; intuition discriminate)|]).
  revert K. destruct (status e); vm_compute; intuition discriminate.
Qed.


(** splitting at the last blank: what follows has no blank *)
Lemma last_blank_split : forall (c : ascii) a b u v, ~ In c b -> ~ In c v ->
  a ++ c :: b = u ++ c :: v -> a = u /\ b = v.
Proof.
  intros c a b u v Hb Hv E.
  apply (f_equal (@rev ascii)) in E. rewrite !rev_app_distr in E. simpl in E.
  rewrite <- !app_assoc in E. simpl in E.
  assert (G : forall x y p q, ~ In c x -> ~ In c y -> x ++ c :: p = y ++ c :: q -> x = y /\ p = q).
  { induction x as [|d x IH]; intros [|e y] p q X Y H; simpl in H.
    - now injection H.
    - injection H as -> H. exfalso; apply Y; simpl; auto.
    - injection H as <- H. exfalso; apply X; simpl; auto.
    - injection H as -> H. apply IH in H as [-> ->]; auto; simpl in *; tauto. }
  apply G in E as [E1 E2].
  - apply (f_equal (@rev ascii)) in E1, E2. rewrite !rev_involutive in *. auto.
  - now rewrite <- in_rev.
  - now rewrite <- in_rev.
Qed.

Lemma to_string_no_blank : forall z, ~ In " "%char (to_string z).
Proof.
  assert (D : forall n, ~ In " "%char (dec n)).
  { intros n H. apply dec_digits in H. discriminate. }
  intros [|p|p]; cbn [to_string]; auto. intros [H|H]; [discriminate|]. now apply D in H.
Qed.

Lemma line_body_inj : forall k e k' e', line_body (k, e) = line_body (k', e') ->
  k = k' /\ text (level e) = text (level e') /\ status e = status e'.
Proof.
  intros k e k' e' H. unfold line_body in H. cbn [fst snd] in H.
  apply app_inv_head in H.
  rewrite !app_assoc in H. apply app_inj_tail in H as [H B].
  assert (S : status e = status e') by (destruct (status e), (status e'); congruence). clear B.
  change (lit " status: ") with (" "%char :: lit "status: ") in H.
  apply app_inv_tail in H.
  change (lit " level: ") with (lit " level:" ++ [" "%char]) in H.
  rewrite <- !app_assoc in H. rewrite (app_assoc (text (level e))), (app_assoc (text (level e'))) in H.
  apply last_blank_split in H as [H1 H2]; try apply to_string_no_blank.
  apply app_inv_tail in H1. apply to_string_inj in H2. auto.
Qed.

Lemma split_nl : forall a b u v, ~ In NL a -> ~ In NL u -> a ++ NL :: b = u ++ NL :: v -> a = u /\ b = v.
Proof.
  induction a as [|d x IH]; intros b [|e y] v X Y H; simpl in H.
  - now injection H.
  - injection H as <- H. exfalso; apply Y; simpl; auto.
  - injection H as -> H. exfalso; apply X; simpl; auto.
  - injection H as -> H. apply IH in H as [-> ->]; auto; simpl in *; tauto.
Qed.

Definition names_single_line (m : lmap) : Prop := forall kv, In kv m -> ~ In NL (text (level (snd kv))).

Lemma listing_inj : forall m m', names_single_line m -> names_single_line m' ->
  levels_to_string m = levels_to_string m' ->
  map (fun kv => (fst kv, text (level (snd kv)), status (snd kv))) m =
  map (fun kv => (fst kv, text (level (snd kv)), status (snd kv))) m'.
Proof.
  unfold levels_to_string.
  induction m as [|kv r IH]; intros [|kv' r'] N N' E; auto.
  - cbn [map concat] in E. rewrite level_line_body, <- app_assoc in E.
    symmetry in E. apply app_eq_nil in E as [_ E]. discriminate.
  - cbn [map concat] in E. rewrite level_line_body, <- app_assoc in E.
    apply app_eq_nil in E as [_ E]. discriminate.
  - cbn [map concat] in E. rewrite !level_line_body, <- !app_assoc in E. unfold nl in E. cbn [app] in E.
    apply split_nl in E as [E1 E2].
    + destruct kv as [k e], kv' as [k' e']. apply line_body_inj in E1 as (-> & T & S).
      simpl. rewrite T, S. f_equal. apply IH; auto.
      * intros x Hx. apply N. now right.
      * intros x Hx. apply N'. now right.
    + apply line_body_no_nl. apply N. now left.
    + apply line_body_no_nl. apply N'. now left.
Qed.
