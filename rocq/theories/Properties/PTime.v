(** C34 - C38: time stamps.  Model: Model/TimeFmt.v, specification: Spec/TimeSpec.v. *)
From Coq Require Import Ascii String List ZArith NArith Bool Lia.
From Verif.Base Require Import Bytes.
From Verif.Model Require Import TimeFmt.
From Verif.Spec Require Import TimeSpec.
From Verif.Proofs Require Import BytesFacts TimeFacts.
Import ListNotations.
Local Open Scope list_scope.

(** ** C34: exact digits at or after the epoch *)
Theorem C34_fraction_digits_exact : forall ts, (0 <= ts)%Z ->
  (exists s, frac_to_string ts Millisecond = FOk s /\ length s = 3 /\
     (forall c, In c s -> is_digit c = true) /\ Z.of_N (dec_val s) = ((ts mod 10^9) / 10^6)%Z) /\
  (exists s, frac_to_string ts Microsecond = FOk s /\ length s = 6 /\
     (forall c, In c s -> is_digit c = true) /\ Z.of_N (dec_val s) = ((ts mod 10^9) / 10^3)%Z) /\
  (exists s, frac_to_string ts Nanosecond = FOk s /\ frac_to_string ts NanosecondDefault = FOk s /\
     length s = 9 /\ (forall c, In c s -> is_digit c = true) /\ Z.of_N (dec_val s) = (ts mod 10^9)%Z).
Proof.
  intros ts T.
  assert (0 <= ts mod 1000000000)%Z by (apply Z.mod_pos_bound; lia).
  assert (0 <= ts mod 1000000000 / 1000000)%Z by (apply Z.div_pos; lia).
  assert (0 <= ts mod 1000000000 / 1000)%Z by (apply Z.div_pos; lia).
  change (10^9)%Z with 1000000000%Z. change (10^6)%Z with 1000000%Z. change (10^3)%Z with 1000%Z.
  split; [|split];
    [exists (padded (N.to_nat (zeroes Millisecond)) (frac_value ts Millisecond))
    |exists (padded (N.to_nat (zeroes Microsecond)) (frac_value ts Microsecond))
    |exists (padded (N.to_nat (zeroes Nanosecond)) (frac_value ts Nanosecond));
     split; [now apply frac_nonneg|]];
  (split; [first [now apply frac_nonneg | exact (frac_nonneg ts NanosecondDefault T)]|]);
  (split; [now apply frac_len|]);
  (split; [intro; apply padded_digits|]); rewrite padded_value; cbn [frac_value];
  unfold ms_of, us_of, ns_of; rewrite Z2N.id; auto.
Qed.
Print Assumptions C34_fraction_digits_exact.

(** 2021-03-04 ... 1614862345 s and 7008009 ns *)
Definition ex_ts : Z := 1614862345007008009.
Example C34_ex : (0 <= ex_ts)%Z /\ frac_to_string ex_ts Millisecond = FOk (lit "007") /\
  frac_to_string ex_ts Microsecond = FOk (lit "007008") /\ frac_to_string ex_ts Nanosecond = FOk (lit "007008009").
Proof. repeat split; vm_compute; congruence. Qed.

(** ** C35: rendering before the epoch *)
(** The property is false: one second and 123 ms before the epoch, formatting milliseconds throws. *)
Theorem C35_refuted : exists ts, frac_to_string ts Millisecond = FThrow.
Proof. exists (-1123000000)%Z. vm_compute. reflexivity. Qed.
Print Assumptions C35_refuted.

(** Exactly what happens before the epoch.  n is the (non-negative) number of whole units by which
    the time lies before a full second; w the width of the field.  n = 0 gives zeroes; a small n
    gives a field with a minus sign in it; any n of full width throws. *)
Theorem C35_before_the_epoch_exactly : forall ts f, (ts < 0)%Z ->
  let n := Z.to_N (Z.quot (- subsecond_ns ts) (digitsToCut f)) in
  let w := zeroes f in
  (frac_to_string ts f = FThrow <-> (10 ^ (w - 1) <= n)%N) /\
  (n = 0%N -> frac_to_string ts f = FOk (rep (N.to_nat w) "0")) /\
  ((0 < n < 10 ^ (w - 1))%N -> exists k, frac_to_string ts f = FOk (rep k "0" ++ "-"%char :: dec n)).
Proof.
  intros ts f T n w. destruct (frac_negative ts f T) as (A & B & C). fold n w in A, B, C.
  split; [|auto]. split; [|exact C].
  intro H. destruct (N.lt_ge_cases n (10 ^ (w - 1))) as [L|L]; auto. exfalso.
  destruct (N.eq_dec n 0) as [E|E].
  - rewrite (A E) in H. discriminate.
  - destruct B as [k B]; [lia|]. congruence.
Qed.
Print Assumptions C35_before_the_epoch_exactly.

Theorem C35_at_or_after_the_epoch_partial : forall ts f, (0 <= ts)%Z ->
  exists s, frac_to_string ts f = FOk s /\ length s = N.to_nat (zeroes f) /\
            (forall c, In c s -> is_digit c = true).
Proof.
  intros ts f T. eexists. split; [now apply frac_nonneg|].
  split; [now apply frac_len|]. intro. apply padded_digits.
Qed.
Print Assumptions C35_at_or_after_the_epoch_partial.

Example C35_ex :
  frac_to_string (-5000000) Millisecond = FOk (lit "0-5") /\      (* 5 ms before the epoch *)
  frac_to_string (-3000000000) Millisecond = FOk (lit "000") /\
  frac_to_string (-100000000) Millisecond = FThrow /\
  frac_to_string (-99000000) Millisecond = FOk (lit "-99").
Proof. repeat split; vm_compute; reflexivity. Qed.

(** ** C36: placeholder substitution *)
Theorem C36_substitution_is_one_pass : forall ts fmt, (0 <= ts)%Z -> (9 * size fmt < npos)%N ->
  exists out, localtime_formatted_fractions ts fmt = FOk out /\
    out = fill (padded 3 (ms_of ts)) (padded 6 (us_of ts)) (padded 9 (ns_of ts)) fmt /\
    ~ has_placeholder out.
Proof.
  intros ts fmt T B. eexists. split; [now apply fractions_fill|]. split; [reflexivity|].
  apply fill_clean with (n := S (length fmt)); [|lia].
  intros d [<-|[<-|[<-|[]]]]; (split; [|intro; apply padded_digits]);
  unfold D3, D6, D9, padded; intro H; apply app_eq_nil in H as [_ H]; now apply dec_nonempty in H.
Qed.
Print Assumptions C36_substitution_is_one_pass.

Theorem C36_text_without_placeholder_is_kept : forall ts fmt, (0 <= ts)%Z -> (9 * size fmt < npos)%N ->
  ~ has_placeholder fmt -> localtime_formatted_fractions ts fmt = FOk fmt.
Proof.
  intros ts fmt T B H. rewrite fractions_fill by assumption. f_equal. apply fill_none.
  intros a b E. apply H. now exists a, b.
Qed.
Print Assumptions C36_text_without_placeholder_is_kept.

Example C36_ex : (9 * size (lit "%f3 %f%f6|%f9%%f7") < npos)%N /\
  localtime_formatted_fractions ex_ts (lit "%f3 %f%f6|%f9%%f7") =
  FOk (lit "007 007008009007008|007008009%0070080097").
Proof. split; [vm_compute; reflexivity|vm_compute; reflexivity]. Qed.

(** ** C37: the default time stamp *)
Theorem C37_default_timestamp_shape : forall debug ext local ts, (0 <= ts)%Z ->
  tm_ok (local (ts / 10^9)%Z) ->
  exists s, localtime_formatted debug ext local ts default_timestamp_format = FOk s /\
            s = stamp (local (ts / 10^9)%Z) (us_of ts) /\ length s = 26.
Proof.
  intros debug ext local ts T O. change (10^9)%Z with 1000000000%Z in *.
  rewrite <- Z.quot_div_nonneg in * by lia.
  eexists. split; [now apply default_timestamp|]. split; [reflexivity|].
  apply stamp_length; auto using us_bound.
Qed.
Print Assumptions C37_default_timestamp_shape.

(** Text order is time order, down to the microsecond, as long as local time runs forward between
    the two seconds involved (which fails only when a clock is put back, e.g. at the end of summer time). *)
Theorem C37_text_order_is_time_order : forall debug ext local ts ts' s s',
  (0 <= ts)%Z -> (0 <= ts')%Z ->
  let sec := (ts / 10^9)%Z in let sec' := (ts' / 10^9)%Z in
  tm_ok (local sec) -> tm_ok (local sec') ->
  ((sec < sec')%Z -> tm_lt (local sec) (local sec')) ->
  ((sec' < sec)%Z -> tm_lt (local sec') (local sec)) ->
  localtime_formatted debug ext local ts default_timestamp_format = FOk s ->
  localtime_formatted debug ext local ts' default_timestamp_format = FOk s' ->
  (text_lt s s' <-> (ts / 1000 < ts' / 1000)%Z).
Proof.
  intros debug ext local ts ts' s s' T T' sec sec' O O' M M' E E'.
  subst sec sec'. change (10^9)%Z with 1000000000%Z in *.
  rewrite default_timestamp in E, E' by (rewrite ?Z.quot_div_nonneg by lia; auto).
  injection E as <-. injection E' as <-.
  rewrite !Z.quot_div_nonneg by lia.
  rewrite stamp_order by auto using us_bound.
  assert (IRR : tm_lt (local (ts / 1000000000)%Z) (local (ts' / 1000000000)%Z) <-> (ts / 1000000000 < ts' / 1000000000)%Z).
  { split; [|apply M]. intro H. destruct (Z.lt_trichotomy (ts / 1000000000) (ts' / 1000000000)) as [|[L|L]]; auto; exfalso.
    - rewrite L in H. unfold tm_lt in H. lia.
    - apply M' in L. unfold tm_lt in *. lia. }
  assert (EQ : local (ts / 1000000000)%Z = local (ts' / 1000000000)%Z <-> (ts / 1000000000 = ts' / 1000000000)%Z).
  { split; [|congruence]. intro H. destruct (Z.lt_trichotomy (ts / 1000000000) (ts' / 1000000000)) as [L|[|L]]; auto; exfalso;
    [apply M in L|apply M' in L]; rewrite H in L; unfold tm_lt in L; lia. }
  rewrite IRR, EQ. unfold us_of.
  assert (D : forall x, (x / 1000 = (x / 1000000000) * 1000000 + (x mod 1000000000) / 1000)%Z).
  { intro x. change 1000000000%Z with (1000 * 1000000)%Z.
    rewrite Z.rem_mul_r by lia. rewrite (Z.add_comm (x mod 1000)), (Z.mul_comm 1000 ((x / 1000) mod _)), Z.div_add_l by lia.
    rewrite (Z.div_small (x mod 1000)) by (apply Z.mod_pos_bound; lia).
    rewrite <- Z.div_div by lia. pose proof (Z.div_mod (x / 1000) 1000000). lia. }
  rewrite (D ts), (D ts') by lia.
  assert (B : forall x, (0 <= (x mod 1000000000) / 1000 < 1000000)%Z).
  { intro x. pose proof (Z.mod_pos_bound x 1000000000). split; [apply Z.div_pos; lia|apply Z.div_lt_upper_bound; lia]. }
  pose proof (B ts). pose proof (B ts'). lia.
Qed.
Print Assumptions C37_text_order_is_time_order.

(** a clock that is right for the whole of 4 March 2021 *)
Definition ex_local (s : Z) : tm := mkTm (s mod 60) ((s / 60) mod 60) ((s / 3600) mod 24) 4 2 121.
Example C37_ex : tm_ok (ex_local (ex_ts / 10^9)) /\
  localtime_formatted true (fun _ _ => []) ex_local ex_ts default_timestamp_format
  = FOk (lit "2021/03/04 12:52:25 007008") /\
  tm_ok (ex_local ((ex_ts + 10^9) / 10^9)) /\
  tm_lt (ex_local (ex_ts / 10^9)) (ex_local ((ex_ts + 10^9) / 10^9)) /\
  text_lt (lit "2021/03/04 12:52:25 007008") (lit "2021/03/04 12:52:26 007008").
Proof.
  split; [vm_compute; intuition congruence|]. split; [vm_compute; reflexivity|].
  split; [vm_compute; intuition congruence|]. split; [vm_compute; intuition congruence|].
  simpl. repeat (right; split; [reflexivity|]). left. reflexivity.
Qed.

Theorem C37_text_order_of_two_stamps : forall t t' us us',
  tm_ok t -> tm_ok t' -> (us < 1000000)%N -> (us' < 1000000)%N ->
  (text_lt (stamp t us) (stamp t' us') <-> tm_lt t t' \/ (t = t' /\ (us < us')%N)).
Proof. exact stamp_order. Qed.
Print Assumptions C37_text_order_of_two_stamps.

(** ** C38: conversion to wall-clock time *)
Theorem C38_order_is_kept : forall k sys_now hrs_now a b, (0 < k)%Z -> (a <= b)%Z ->
  (to_system_time k sys_now hrs_now a <= to_system_time k sys_now hrs_now b)%Z.
Proof. exact to_system_time_mono. Qed.
Print Assumptions C38_order_is_kept.

Theorem C38_distance_within_one_tick : forall k sys_now hrs_now a b, (0 < k)%Z -> (a <= b)%Z ->
  (0 <= sys_now * k + (a - hrs_now))%Z ->      (* the earlier stamp is not before the epoch *)
  (Z.abs ((to_system_time k sys_now hrs_now b - to_system_time k sys_now hrs_now a) * k - (b - a)) < k)%Z.
Proof. exact to_system_time_dist_pos. Qed.
Print Assumptions C38_distance_within_one_tick.

Theorem C38_exact_when_clocks_tick_alike : forall sys_now hrs_now a b,
  (to_system_time 1 sys_now hrs_now b - to_system_time 1 sys_now hrs_now a = b - a)%Z /\
  to_system_time 1 sys_now hrs_now hrs_now = sys_now.
Proof. intros. unfold to_system_time. rewrite !Z.quot_1_r. lia. Qed.
Print Assumptions C38_exact_when_clocks_tick_alike.

Example C38_ex : to_system_time 1000 1614862345007008 5000000 5001999 = 1614862345007009%Z.
Proof. vm_compute. reflexivity. Qed.

(** ** C104: a time format is rendered as documented *)
(** the text that the format stands for *)
Definition meant (ext : ascii -> tm -> str) (t : tm) (ts : Z) (fmt : str) : str :=
  render (padded 3 (ms_of ts)) (padded 6 (us_of ts)) (padded 9 (ns_of ts)) (conversion ext t) fmt.

Theorem C104_rendering_partial : forall debug ext local ts fmt, (0 <= ts)%Z -> (9 * size fmt < npos)%N ->
  tm_ok (local (ts / 10^9)%Z) -> ~ In NUL fmt -> no_escaped_f fmt ->
  let m := meant ext (local (ts / 10^9)%Z) ts fmt in
  localtime_formatted debug ext local ts fmt =
  if ((1 <=? length m) && (length m <=? 1023))%nat then FOk (c_str m)
  else if debug then FAbort
  else FOk (fill (padded 3 (ms_of ts)) (padded 6 (us_of ts)) (padded 9 (ns_of ts)) fmt).
Proof.
  intros debug ext local ts fmt T B O Z C m. change (10^9)%Z with 1000000000%Z in *. unfold localtime_formatted.
  rewrite fractions_fill by assumption. rewrite Z.quot_div_nonneg by lia.
  set (d3 := padded 3 (ms_of ts)) in *. set (d6 := padded 6 (us_of ts)) in *. set (d9 := padded 9 (ns_of ts)) in *.
  fold d3 d6 d9 in m |- *. unfold D3, D6, D9. fold d3 d6 d9.
  assert (Q : forall w n, ~ In "%"%char (padded w n)) by (intros; apply clean_digits; intro; apply padded_digits).
  assert (Q0 : forall w n, ~ In NUL (padded w n)) by (intros; apply digits_no_nul; intro; apply padded_digits).
  assert (N : c_str (fill d3 d6 d9 fmt) = fill d3 d6 d9 fmt).
  { apply c_str_id. apply fill_no_nul with (n := S (length fmt)); try apply Q0; auto. }
  rewrite N. unfold put_time.
  rewrite strftime_fill with (n := S (length fmt)) by (try apply Q; auto).
  assert (R : render d3 d6 d9 (fun c => strftime_conv ext c (local (ts / 1000000000)%Z)) fmt = m).
  { apply render_ext with (n := S (length fmt)); [lia|]. intro c. apply conversion_ok. exact O. }
  rewrite R. destruct (length m) as [|k] eqn:L; [reflexivity|].
  destruct (Nat.leb_spec 1024 (S k)), (Nat.leb_spec (S k) 1023); try lia; reflexivity.
Qed.
Print Assumptions C104_rendering_partial.

(** An empty rendering aborts a debug build; a long one comes back as the format; an escaped percent sign before f is not respected. *)
Theorem C104_refuted : exists ext local ts fmt1 fmt2 fmt3 r3, (0 <= ts)%Z /\ tm_ok (local (ts / 10^9)%Z) /\
  localtime_formatted true ext local ts fmt1 = FAbort /\
  localtime_formatted false ext local ts fmt2 = FOk fmt2 /\ fmt2 <> meant ext (local (ts / 10^9)%Z) ts fmt2 /\
  meant ext (local (ts / 10^9)%Z) ts fmt3 = lit "%f3" /\ localtime_formatted false ext local ts fmt3 = FOk r3 /\ r3 <> lit "%f3".
Proof.
  exists (fun c _ => ["%"%char; c]), ex_local, ex_ts, [], (concat (repeat (lit "%Y") 256)), (lit "%%f3"). eexists.
  split; [vm_compute; discriminate|]. split; [vm_compute; intuition discriminate|].
  split; [reflexivity|]. split; [vm_compute; reflexivity|]. split; [vm_compute; discriminate|]. split; [vm_compute; reflexivity|].
  split; [vm_compute; reflexivity|]. discriminate.
Qed.
Print Assumptions C104_refuted.
Example C104_ex : no_escaped_f (lit "100%% %Y%f3|%S %f") /\ ~ In NUL (lit "100%% %Y%f3|%S %f") /\
  localtime_formatted true (fun _ _ => []) ex_local ex_ts (lit "100%% %Y%f3|%S %f") = FOk (lit "100% 2021007|25 007008009") /\
  localtime_formatted true (fun _ _ => []) ex_local ex_ts (lit "%%") = FOk (lit "%").
Proof.
  split; [vm_compute; intuition discriminate|]. split; [|split; vm_compute; reflexivity].
  vm_compute. intuition discriminate.
Qed.
