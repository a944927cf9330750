(** Lemmas about Model/Windows.v. *)
From Coq Require Import Ascii String List ZArith NArith Bool Lia.
From Verif.Base Require Import Bytes.
From Verif.Model Require Import Levels Signals Windows.
From Verif.Spec Require Import WindowsSpec.
From Verif.Proofs Require Import BytesFacts.
Import ListNotations.
Local Open Scope list_scope.
Local Open Scope Z_scope.

(** ** exceptions *)
Lemma smap_find_In : forall m k v, smap_find m k = Some v -> In (k, v) m.
Proof.
  induction m as [|[k' v'] m IH]; intros k v E; [discriminate|].
  cbn [smap_find] in E. destruct (k =? k') eqn:Q.
  - apply Z.eqb_eq in Q. inversion E. subst. left. reflexivity.
  - right. apply IH. exact E.
Qed.
Lemma smap_find_None : forall m k, smap_find m k = None -> ~ In k (map fst m).
Proof.
  induction m as [|[k' v'] m IH]; intros k E I; [exact I|].
  cbn [smap_find] in E. destruct (k =? k') eqn:Q; [discriminate|].
  apply Z.eqb_neq in Q. destruct I as [I|I]; [cbn in I; congruence|]. exact (IH k E I).
Qed.
(** the table of the code, computed, is the documented one up to order *)
Lemma table_documented : forall p, In p kExceptionsAsText <-> In p documented.
Proof.
  intro p.
  assert (A : forallb (fun q => existsb (fun r => (fst q =? fst r) && str_eqb (snd q) (snd r)) documented) kExceptionsAsText = true)
    by (vm_compute; reflexivity).
  assert (B : forallb (fun q => existsb (fun r => (fst q =? fst r) && str_eqb (snd q) (snd r)) kExceptionsAsText) documented = true)
    by (vm_compute; reflexivity).
  rewrite forallb_forall in A, B.
  split; intro I.
  - apply A in I. apply existsb_exists in I. destruct I as [r [J E]]. apply andb_true_iff in E. destruct E as [E F].
    apply Z.eqb_eq in E. apply str_eqb_eq in F. destruct p, r. cbn in E, F. subst. exact J.
  - apply B in I. apply existsb_exists in I. destruct I as [r [J E]]. apply andb_true_iff in E. destruct E as [E F].
    apply Z.eqb_eq in E. apply str_eqb_eq in F. destruct p, r. cbn in E, F. subst. exact J.
Qed.
Lemma documented_fun : forall k v v', In (k, v) documented -> In (k, v') documented -> v = v'.
Proof.
  intros k v v' I J.
  assert (A : forallb (fun p => forallb (fun q => negb (fst p =? fst q) || str_eqb (snd p) (snd q)) documented) documented = true)
    by (vm_compute; reflexivity).
  rewrite forallb_forall in A. specialize (A _ I). rewrite forallb_forall in A. specialize (A _ J).
  cbn [fst snd] in A. rewrite Z.eqb_refl in A. apply str_eqb_eq in A. exact A.
Qed.
Lemma documented_inj : forall k k' v, In (k, v) documented -> In (k', v) documented -> k = k'.
Proof.
  intros k k' v I J.
  assert (A : forallb (fun p => forallb (fun q => negb (str_eqb (snd p) (snd q)) || (fst p =? fst q)) documented) documented = true)
    by (vm_compute; reflexivity).
  rewrite forallb_forall in A. specialize (A _ I). rewrite forallb_forall in A. specialize (A _ J).
  cbn [fst snd] in A. rewrite (proj2 (str_eqb_eq v v) eq_refl) in A. apply Z.eqb_eq in A. exact A.
Qed.
Lemma exception_cases : forall id,
  (exists v, In (id, v) documented /\ exceptionIdToText id = v /\ isKnownException id = true) \/
  (~ In id (map fst documented) /\ exceptionIdToText id = lit "UNKNOWN EXCEPTION:" ++ to_string id /\ isKnownException id = false).
Proof.
  intro id. unfold exceptionIdToText, isKnownException. destruct (smap_find kExceptionsAsText id) as [v|] eqn:E.
  - left. exists v. split; [apply table_documented; apply smap_find_In; exact E|]. split; reflexivity.
  - right. split; [|split; reflexivity]. intro I. apply smap_find_None in E. apply E.
    apply in_map_iff in I. destruct I as [p [Q I]]. apply table_documented in I. subst. apply in_map. exact I.
Qed.
(** no documented text begins like that of an unknown exception *)
Lemma documented_texts : forall k v, In (k, v) documented -> exists r, v = lit "E" ++ r.
Proof.
  intros k v I. unfold documented in I. apply in_map_iff in I. destruct I as [p [Q _]]. inversion Q as [[Q1 Q2]].
  cbn. eexists. reflexivity.
Qed.

(** ** the text *)
Lemma capture_loop_spec : forall fuel index walk fp,
  (length fp - index < fuel)%nat -> (index <= length fp)%nat ->
  capture_loop fuel index walk fp =
  firstn index fp ++ firstn (length fp - index) walk ++ skipn (index + length (firstn (length fp - index) walk)) fp.
Proof.
  induction fuel as [|fuel IH]; intros index walk fp L K; [lia|].
  cbn [capture_loop]. destruct (Nat.ltb_spec index (length fp)) as [Q|Q].
  - destruct walk as [|pc walk].
    + rewrite firstn_nil. cbn [length app]. rewrite Nat.add_0_r. symmetry. apply firstn_skipn.
    + set (fp' := firstn index fp ++ [pc] ++ skipn (S index) fp).
      assert (A : length fp' = length fp).
      { unfold fp'. rewrite !app_length, firstn_length, skipn_length. cbn [length]. lia. }
      rewrite IH by lia. rewrite A.
      assert (F : firstn (S index) fp' = firstn index fp ++ [pc]).
      { unfold fp'. rewrite app_assoc. rewrite firstn_app. rewrite app_length, firstn_length. cbn [length].
        replace (S index - (Nat.min index (length fp) + 1))%nat with 0%nat by lia. rewrite firstn_O, app_nil_r.
        apply firstn_all2. rewrite app_length, firstn_length. cbn [length]. lia. }
      rewrite F. replace (length fp - index)%nat with (S (length fp - S index)) by lia.
      cbn [firstn length]. rewrite <- app_assoc. cbn [app]. f_equal. f_equal. f_equal.
      set (n := length (firstn (length fp - S index) walk)).
      unfold fp'. rewrite app_assoc. rewrite skipn_app. rewrite skipn_all2.
      2:{ rewrite app_length, firstn_length. cbn [length]. lia. }
      cbn [app]. rewrite app_length, firstn_length. cbn [length].
      replace (S index + n - (Nat.min index (length fp) + 1))%nat with n by lia.
      rewrite <- (firstn_skipn (S index) fp) at 2. rewrite skipn_app, firstn_length.
      rewrite (skipn_all2 (firstn (S index) fp)) by (rewrite firstn_length; lia). cbn [app]. f_equal. lia.
  - replace (length fp - index)%nat with 0%nat by lia. cbn [firstn length app]. rewrite Nat.add_0_r.
    symmetry. apply firstn_skipn.
Qed.
Lemma text_loop_spec : forall fuel sym index fp, (length fp <= fuel + index)%nat ->
  text_loop fuel sym index fp = dump_lines (getSymbolInformation sym) index (until_null (skipn index fp)).
Proof.
  induction fuel as [|fuel IH]; intros sym index fp L.
  - rewrite skipn_all2 by lia. reflexivity.
  - cbn [text_loop]. destruct (Nat.ltb_spec index (length fp)) as [Q|Q].
    + assert (S1 : skipn index fp = nth index fp 0 :: skipn (S index) fp).
      { clear -Q. revert fp Q. induction index as [|i IH]; intros [|a fp] Q; cbn [length] in Q; [lia|reflexivity|lia|].
        cbn [skipn nth]. rewrite IH by lia. reflexivity. }
      rewrite S1. cbn [until_null andb]. destruct (Z.eq_dec (nth index fp 0) 0) as [Z0|N0].
      * rewrite Z0. reflexivity.
      * apply Z.eqb_neq in N0. rewrite N0. cbn [negb dump_lines]. rewrite IH by lia. reflexivity.
    + rewrite skipn_all2 by lia. reflexivity.
Qed.
Lemma until_null_app_zeros : forall l n, until_null (l ++ repeat 0 n) = until_null l.
Proof.
  induction l as [|a l IH]; intro n.
  - destruct n; reflexivity.
  - cbn [app until_null]. destruct (Z.eq_dec a 0); [reflexivity|]. rewrite IH. reflexivity.
Qed.
Lemma skipn_repeat : forall (A : Type) (x : A) n k, skipn k (repeat x n) = repeat x (n - k).
Proof. intros A x n. induction n; intros [|k]; cbn; auto. Qed.

(** ** dumps of several threads *)
Definition passed (p : dpc) : bool := match p with DCheck => false | _ => true end.
Definition body (p : dpc) : bool := match p with DBody => true | _ => false end.
Definition npassed (l : list dpc) : nat := length (List.filter passed l).
Definition nbody (l : list dpc) : nat := length (List.filter body l).
Definition is_dump (t : nat) (o : nat * bool) : bool := Nat.eqb (fst o) t && negb (snd o).
Definition dumps (t : nat) (s : dstate) : nat := length (List.filter (is_dump t) (d_out s)).
Record DInv (s : dstate) : Prop := mkDInv {
  di_count : forall t, d_cnt s t = N.of_nat (dumps t s + npassed (d_stack s t));
  di_two : forall t, (d_cnt s t <= 2)%N;
  di_owner : forall t, d_mutex s = Some t -> nbody (d_stack s t) = 1%nat;
  di_others : forall t, d_mutex s <> Some t -> nbody (d_stack s t) = 0%nat
}.
Lemma dumps_app : forall t c m st o u x, dumps t (mkD c m st (o ++ [x]) u) = (dumps t (mkD c m st o u) + if is_dump t x then 1 else 0)%nat.
Proof.
  intros. unfold dumps. cbn [d_out]. rewrite List.filter_app, app_length. cbn [List.filter]. destruct (is_dump t x); reflexivity.
Qed.
Lemma dreach_inv : forall s, dreach s -> DInv s.
Proof.
  intros s R. induction R as [|s a s' R IH E].
  - constructor; intros; cbn in *; try reflexivity; try lia; discriminate.
  - destruct IH as [IC I2 IO IN]. destruct s as [c m st o ub]. unfold dstep in E. cbn [d_cnt d_mutex d_stack d_out d_ub] in *.
    destruct ub; [discriminate|]. destruct a as [t|t].
    + inversion E; subst s'; clear E. constructor; cbn [d_cnt d_mutex d_stack d_out]; intro u; unfold dumps; cbn [d_out]; fold (dumps u (mkD c m st o false)).
      * unfold updn. destruct (Nat.eqb_spec u t) as [Q|Q]; [|apply IC]. rewrite Q. cbn. rewrite <- Q. apply IC.
      * apply I2.
      * intro M. unfold updn. destruct (Nat.eqb_spec u t) as [Q|Q]; [|apply IO; exact M]. subst u. cbn. apply IO. exact M.
      * intro M. unfold updn. destruct (Nat.eqb_spec u t) as [Q|Q]; [|apply IN; exact M]. subst u. cbn. apply IN. exact M.
    + destruct (st t) as [|[| |] r] eqn:ST; [discriminate| | |].
      * destruct (2 <=? c t)%N eqn:C2.
        -- inversion E; subst s'; clear E. constructor; cbn [d_cnt d_mutex d_stack d_out]; intro u.
           ++ rewrite dumps_app. unfold is_dump. cbn [fst snd negb]. rewrite andb_false_r, Nat.add_0_r.
              unfold updn. rewrite IC. unfold dumps. cbn [d_out]. destruct (Nat.eqb_spec u t) as [Q|Q]; [|reflexivity].
              subst u. rewrite ST. reflexivity.
           ++ apply I2.
           ++ intro M. apply IO in M. unfold updn. destruct (Nat.eqb_spec u t) as [Q|Q]; [|exact M]. subst u. rewrite ST in M. exact M.
           ++ intro M. apply IN in M. unfold updn. destruct (Nat.eqb_spec u t) as [Q|Q]; [|exact M]. subst u. rewrite ST in M. exact M.
        -- apply N.leb_gt in C2.
           assert (SZ : sz (c t + 1) = (c t + 1)%N).
           { unfold sz. apply N.mod_small. unfold size_max. lia. }
           inversion E; subst s'; clear E. constructor; cbn [d_cnt d_mutex d_stack d_out]; intro u.
           ++ pose proof (IC u) as D. unfold updn. unfold dumps in *. cbn [d_out d_stack] in *. destruct (Nat.eqb_spec u t) as [Q|Q]; [|exact D].
              subst u. rewrite SZ, D, ST. unfold npassed. cbn [List.filter passed length]. lia.
           ++ unfold updn. destruct (Nat.eqb_spec u t) as [Q|Q]; [rewrite SZ; lia|apply I2].
           ++ intro M. apply IO in M. unfold updn. destruct (Nat.eqb_spec u t) as [Q|Q]; [|exact M]. subst u. rewrite ST in M. exact M.
           ++ intro M. apply IN in M. unfold updn. destruct (Nat.eqb_spec u t) as [Q|Q]; [|exact M]. subst u. rewrite ST in M. exact M.
      * destruct m as [v|].
        -- destruct (Nat.eqb v t); [|discriminate]. inversion E; subst s'; clear E.
           constructor; cbn [d_cnt d_mutex d_stack d_out]; intro u; auto. exact (IC u).
        -- inversion E; subst s'; clear E. constructor; cbn [d_cnt d_mutex d_stack d_out]; intro u.
           ++ pose proof (IC u) as D. unfold updn. unfold dumps in *. cbn [d_out d_stack] in *. destruct (Nat.eqb_spec u t) as [Q|Q]; [|exact D].
              subst u. rewrite D, ST. reflexivity.
           ++ apply I2.
           ++ intro M. assert (Q : u = t) by congruence. subst u. unfold updn. rewrite Nat.eqb_refl.
              assert (M0 : None <> Some t) by discriminate. apply IN in M0. rewrite ST in M0. unfold nbody in *. cbn in *. lia.
           ++ intro M. unfold updn. destruct (Nat.eqb_spec u t) as [Q|Q]; [congruence|]. apply IN. discriminate.
      * inversion E; subst s'; clear E.
        assert (B : m = Some t).
        { destruct m as [v|].
          - destruct (Nat.eq_dec v t) as [Q|Q]; [congruence|]. assert (M0 : Some v <> Some t) by congruence.
            apply IN in M0. rewrite ST in M0. discriminate.
          - assert (M0 : None <> Some t) by discriminate. apply IN in M0. rewrite ST in M0. discriminate. }
        constructor; cbn [d_cnt d_mutex d_stack d_out]; intro u.
        -- rewrite dumps_app. unfold is_dump. cbn [fst snd negb]. rewrite andb_true_r.
           pose proof (IC u) as D. unfold updn. unfold dumps in *. cbn [d_out d_stack] in *. destruct (Nat.eqb_spec u t) as [Q|Q].
           ++ subst u. rewrite Nat.eqb_refl. rewrite D, ST. unfold npassed. cbn [List.filter passed length]. lia.
           ++ destruct (Nat.eqb_spec t u); [congruence|]. rewrite D. f_equal. lia.
        -- apply I2.
        -- discriminate.
        -- intros _. unfold updn. destruct (Nat.eqb_spec u t) as [Q|Q].
           ++ subst u. apply IO in B. rewrite ST in B. unfold nbody in *. cbn in B. lia.
           ++ apply IN. congruence.
Qed.

(** ** installation *)
Lemma handler_set : forall t d w s u r, In s five_signals ->
  handler_of (set_signal t d w s) u r = if (r =? s) && (negb (per_thread s) || Nat.eqb u t) then d else handler_of w u r.
Proof.
  intros t d w s u r I. unfold handler_of, set_signal. cbn [v_thread v_process].
  destruct (Z.eqb_spec r s) as [Q|Q].
  - subst r. destruct (per_thread s) eqn:P; cbn [andb negb orb].
    + unfold updn, upd. destruct (Nat.eqb u t) eqn:U; [|reflexivity]. rewrite Z.eqb_refl. reflexivity.
    + unfold upd. rewrite Z.eqb_refl. reflexivity.
  - cbn [andb]. apply Z.eqb_neq in Q. destruct (per_thread s).
    + destruct (per_thread r); [|reflexivity]. unfold updn, upd. destruct (Nat.eqb_spec u t) as [U|U]; [|reflexivity].
      rewrite Q. subst. reflexivity.
    + destruct (per_thread r); [reflexivity|]. unfold upd. rewrite Q. reflexivity.
Qed.
Lemma fold_set : forall t d l w u r, (forall s, In s l -> In s five_signals) ->
  handler_of (fold_left (set_signal t d) l w) u r =
  if existsb (Z.eqb r) l && (negb (per_thread r) || Nat.eqb u t) then d else handler_of w u r.
Proof.
  intros t d l. induction l as [|s l IH]; intros w u r A; [reflexivity|].
  cbn [fold_left existsb]. rewrite IH by (intros x I; apply A; right; exact I).
  rewrite handler_set by (apply A; left; reflexivity).
  destruct (Z.eqb_spec r s) as [Q|Q].
  - subst s. cbn [orb andb]. destruct (existsb (Z.eqb r) l), (negb (per_thread r) || Nat.eqb u t); reflexivity.
  - reflexivity.
Qed.
