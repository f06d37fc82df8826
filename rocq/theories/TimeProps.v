(** C52, C65: durations and dates. *)
From Coq Require Import ZArith List Bool Lia.
From Verif Require Import Base TimeModel TimeSpec TimeProofs.
Import ListNotations.
Local Open Scope Z_scope.

(** Every unit constructor gives exactly that many nanoseconds when they fit in 64
    bits (otherwise the multiplication overflows). *)
Theorem C52_units : forall u v, in_i64 v = true ->
  make u v = if in_i64 (v * ns_of u) then Ok (v * ns_of u) else UB.
Proof.
  intros u v H. destruct u; try (now rewrite make_mul).
  cbn [make ns_of]. rewrite Z.mul_1_r, H. reflexivity.
Qed.

(** The literals denote the same, up to 2^63 - 1. *)
Theorem C52_literals : forall u v, 0 <= v < 2 ^ 63 ->
  literal u v = if in_i64 (v * ns_of u) then Ok (v * ns_of u) else UB.
Proof.
  intros u v H. rewrite literal_make by exact H. apply C52_units.
  apply in_i64_spec. unfold i64_min, i64_max. lia.
Qed.

(** Converting back to the unit recovers the count. *)
Theorem C52_back : forall u v d, in_i64 v = true ->
  make u v = Ok d -> to_chrono (unit_period u) d = Ok v.
Proof.
  intros u v d H E. rewrite C52_units in E by exact H.
  destruct (in_i64 (v * ns_of u)) eqn:I; [|discriminate]. injection E as <-.
  unfold to_chrono. rewrite cast_to_unit; [|reflexivity|exact I]. cbn [unit_period cnum].
  f_equal. apply Z.quot_mul. pose proof (ns_of_pos u). lia.
Qed.

(** Converting any duration to a unit truncates toward zero: the result, back in
    nanoseconds, is between zero and the duration and less than one unit away. *)
Theorem C52_truncates : forall u d, in_i64 d = true ->
  exists q, to_chrono (unit_period u) d = Ok q /\
    Z.abs (d - q * ns_of u) < ns_of u /\
    Z.abs (q * ns_of u) <= Z.abs d /\
    0 <= q * d.
Proof.
  intros u d H. exists (Z.quot d (ns_of u)). pose proof (ns_of_pos u) as P.
  split; [unfold to_chrono; now rewrite cast_to_unit|].
  pose proof (Z.quot_rem' d (ns_of u)) as Q.
  destruct (Z.le_gt_cases 0 d) as [D|D].
  - pose proof (Z.rem_bound_pos d (ns_of u) D P). pose proof (Z.quot_pos d (ns_of u) D P).
    repeat split; nia.
  - pose proof (Z.rem_bound_pos (- d) (ns_of u) ltac:(lia) P) as R.
    rewrite Z.rem_opp_l in R by lia.
    pose proof (Z.quot_pos (- d) (ns_of u) ltac:(lia) P) as S. rewrite Z.quot_opp_l in S by lia.
    repeat split; nia.
Qed.

(** From a chrono duration of whole nanoseconds: exact. *)
Theorem C52_from_chrono : forall u c,
  of_chrono (unit_period u) c = if in_i64 (c * ns_of u) then Ok (c * ns_of u) else UB.
Proof. intros u c. unfold of_chrono. now rewrite cast_from_unit. Qed.

Example C52_unit_examples :
  make Week (-15250) = Ok (-9223200000000000000) /\ make Week 15251 = UB /\
  literal Hr 36 = Ok 129600000000000 /\ make Ms (-7) = Ok (-7000000) /\
  to_chrono (unit_period Sec) (-1999999999) = Ok (-1).
Proof. repeat split; vm_compute; reflexivity. Qed.

(** A literal of 2^63 nanoseconds or more is a negative duration. *)
Theorem C52_large_literals : forall v, 2 ^ 63 <= v < 2 ^ 64 -> literal Ns v = Ok (v - 2 ^ 64) /\ v - 2 ^ 64 < 0.
Proof.
  intros v H. split; [|lia]. unfold literal, lit_ns, to_signed. destruct (Z.ltb_spec v (2 ^ 63)); [lia|]. reflexivity.
Qed.
Example C52_literal_limit : literal Ns (2 ^ 63) = Ok (- 2 ^ 63).
Proof. vm_compute. reflexivity. Qed.

(** DateTime counts from noon of January 1st 2000, time points from the start of
    January 1st 1970. *)
Theorem C52_reference : epoch_to_mjd = (days_from 1970 30 * 86400 + 12 * 3600) * ns_of Sec.
Proof. vm_compute. reflexivity. Qed.

(** DateTime to time point and back, and conversely. *)
Theorem C52_date_round_trip : forall dt t, in_i64 dt = true ->
  to_time_point (unit_period Ns) dt = Ok t ->
  t = dt + epoch_to_mjd /\ of_time_point (unit_period Ns) t = Ok dt.
Proof.
  intros dt t H E. unfold to_time_point, add in E.
  destruct (checked (dt + epoch_to_mjd)) as [x| |] eqn:C; try discriminate.
  apply checked_ok in C. destruct C as [-> C]. cbn [bind] in E.
  rewrite cast_to_unit in E; [|reflexivity|exact C]. cbn [cnum unit_period ns_of] in E.
  rewrite Z.quot_1_r in E. injection E as <-. split; [reflexivity|].
  unfold of_time_point. rewrite cast_from_unit by reflexivity. cbn [cnum unit_period ns_of].
  rewrite Z.mul_1_r. unfold checked at 1. rewrite C. cbn [bind]. unfold sub, checked.
  replace (dt + epoch_to_mjd - epoch_to_mjd) with dt by lia. now rewrite H.
Qed.

(** ... for time points of any unit. *)
Theorem C52_time_point_round_trip : forall u t dt, in_i64 t = true ->
  of_time_point (unit_period u) t = Ok dt ->
  dt = t * ns_of u - epoch_to_mjd /\ to_time_point (unit_period u) dt = Ok t.
Proof.
  intros u t dt H E. unfold of_time_point in E. rewrite cast_from_unit in E by reflexivity.
  cbn [cnum unit_period] in E.
  destruct (checked (t * ns_of u)) as [x| |] eqn:C; try discriminate.
  apply checked_ok in C. destruct C as [-> C]. cbn [bind] in E.
  unfold sub in E. apply checked_ok in E. destruct E as [-> E].
  split; [reflexivity|]. unfold to_time_point, add.
  replace (t * ns_of u - epoch_to_mjd + epoch_to_mjd) with (t * ns_of u) by lia.
  unfold checked. rewrite C. cbn [bind]. rewrite cast_to_unit; [|reflexivity|exact C].
  cbn [cnum unit_period]. f_equal. apply Z.quot_mul. pose proof (ns_of_pos u). lia.
Qed.

(** Order and differences are preserved. *)
Theorem C52_order_and_differences : forall a b x y, in_i64 a = true -> in_i64 b = true ->
  to_time_point (unit_period Ns) a = Ok x -> to_time_point (unit_period Ns) b = Ok y ->
  (a < b <-> x < y) /\ x - y = a - b.
Proof.
  intros a b x y Ha Hb Ex Ey.
  destruct (C52_date_round_trip a x Ha Ex) as [-> _].
  destruct (C52_date_round_trip b y Hb Ey) as [-> _]. lia.
Qed.

(** Adding a duration and taking it off again. *)
Theorem C52_plus_minus : forall dt d r, in_i64 dt = true ->
  dt_plus dt d = Ok r -> dt_minus r d = Ok dt.
Proof.
  intros dt d r H E. unfold dt_plus, add in E. apply checked_ok in E. destruct E as [-> E].
  unfold dt_minus, sub, checked. replace (dt + d - d) with dt by lia. now rewrite H.
Qed.

Example C52_date_example :
  to_time_point (unit_period Ns) 0 = Ok 946728000000000000 /\
  of_time_point (unit_period Sec) 0 = Ok (-946728000000000000) /\
  to_time_point (unit_period Ns) (2 ^ 63 - 1) = UB.
Proof. repeat split; vm_compute; reflexivity. Qed.

(** C65: comparing with a chrono duration of whole nanoseconds compares the two
    lengths, for every operator and with the operands in either order. *)
Theorem C65_exact_partial : forall o d p c ns,
  is_period p -> cden p = 1 -> cast_from p c = Ok ns ->
  dur_chrono o d p c = Ok (holds o d (c * cnum p)) /\
  chrono_dur o p c d = Ok (holds o (c * cnum p) d).
Proof.
  intros o d p c ns P D E. pose proof (dur_chrono_cast o d p c ns E) as X.
  rewrite cast_from_unit in E by exact D. apply checked_ok in E. destruct E as [-> _]. exact X.
Qed.

(** For every period, the six operators are consistent with each other. *)
Theorem C65_consistent : forall d p c ns, cast_from p c = Ok ns ->
  exists lt eq, dur_chrono Lt d p c = Ok lt /\ dur_chrono Eq d p c = Ok eq /\
    (lt && eq = false) /\
    dur_chrono Ne d p c = Ok (negb eq) /\ dur_chrono Le d p c = Ok (lt || eq) /\
    dur_chrono Gt d p c = Ok (negb (lt || eq)) /\ dur_chrono Ge d p c = Ok (negb lt) /\
    chrono_dur Eq p c d = Ok eq /\ chrono_dur Ne p c d = Ok (negb eq) /\
    chrono_dur Gt p c d = Ok lt /\ chrono_dur Ge p c d = Ok (lt || eq) /\
    chrono_dur Lt p c d = Ok (negb (lt || eq)) /\ chrono_dur Le p c d = Ok (negb lt).
Proof.
  intros d p c ns E. exists (d <? ns), (d =? ns).
  pose proof (fun o => proj1 (dur_chrono_cast o d p c ns E)) as A.
  pose proof (fun o => proj2 (dur_chrono_cast o d p c ns E)) as B.
  rewrite !A, !B. cbn [holds]. rewrite (Z.eqb_sym ns d).
  assert (L : (d <=? ns) = (d <? ns) || (d =? ns)).
  { destruct (Z.leb_spec d ns), (Z.ltb_spec d ns), (Z.eqb_spec d ns); try reflexivity; lia. }
  rewrite <- L. rewrite (Z.leb_antisym d ns), (Z.ltb_antisym d ns).
  repeat split; try reflexivity; try (now rewrite negb_involutive).
  destruct (Z.eqb_spec d ns) as [->|]; [|apply andb_false_r].
  now rewrite Z.ltb_irrefl.
Qed.

(** With periods finer than a nanosecond the comparison is not exact: one
    nanosecond equals 1500 picoseconds. *)
Theorem C65_finer_refuted :
  exists d p c, is_period p /\
    dur_chrono Eq d p c = Ok true /\ d * cden p <> c * cnum p.
Proof.
  exists 1, (Period 1 1000), 1500. repeat split; try reflexivity. discriminate.
Qed.

Example C65_example :
  dur_chrono Lt 999 (Period 1000 1) 1 = Ok true /\ chrono_dur Ge (Period 1000 1) 1 1000 = Ok true /\
  dur_chrono Gt (-1) (unit_period Week) (-1) = Ok true.
Proof. repeat split. Qed.

Print Assumptions C52_units.
Print Assumptions C52_truncates.
Print Assumptions C52_time_point_round_trip.
Print Assumptions C65_exact_partial.
