(** C93: the texts of durations and date-times. *)
From Verif Require Import Base Text TimeModel CalSpec CalModel CalProofs.
From Coq Require Import ZArith List Bool Lia.
Import ListNotations.
Local Open Scope Z_scope.

(** The text of a duration is the sign and the hours, minutes, seconds and
    nanoseconds of its absolute value; the hours have two digits, or as many as
    needed from 100 hours on.  Missing: the smallest duration. *)
Theorem C93_duration_partial d : i64_min < d <= i64_max -> exists sign body wh,
  duration_text d = Ok (sign ++ body) /\
  sign = (if d <? 0 then [45] else []) /\
  clock wh body (Z.abs d) /\ (2 <= wh)%nat /\
  (Z.abs d < 100 * 3600 * 1000000000 -> wh = 2%nat).
Proof.
  intros H. destruct (duration_text_ok d H) as (b & E & C). eexists; exists b; eexists.
  split; [exact E|]. split; [reflexivity|]. split; [exact C|]. split; [lia|].
  intros B. apply hours_two. lia.
Qed.

Example C93_duration_example :
  duration_text (-361234567000001) = Ok (codes "-100:20:34.567000001") /\
  duration_text 1 = Ok (codes "00:00:00.000000001") /\
  duration_text (168 * 3600 * 1000000000) = Ok (codes "168:00:00.000000000").
Proof. vm_compute. repeat split. Qed.

(** Writing the smallest duration is undefined: its absolute value overflows. *)
Theorem C93_duration_refuted : exists d, i64_min <= d <= i64_max /\ duration_text d = UB.
Proof. exists i64_min. split; [vm_compute; split; discriminate|exact duration_min]. Qed.

(** Two durations with the same text are the same. *)
Theorem C93_duration_injective d d' t :
  i64_min < d <= i64_max -> i64_min < d' <= i64_max ->
  duration_text d = Ok t -> duration_text d' = Ok t -> d = d'.
Proof. exact (duration_inj d d' t). Qed.

(** The texts of durations from 0 to less than 100 hours sort as the durations.  Missing:
    the other durations. *)
Theorem C93_duration_order_partial d d' t t' :
  0 <= d -> d < d' -> d' < 100 * 3600 * 1000000000 ->
  duration_text d = Ok t -> duration_text d' = Ok t' -> before t t'.
Proof. intros H L U. apply duration_order; lia. Qed.

Example C93_duration_order_example :
  duration_text 59999999999 = Ok (codes "00:00:59.999999999") /\
  duration_text 60000000000 = Ok (codes "00:01:00.000000000") /\
  before (codes "00:00:59.999999999") (codes "00:01:00.000000000").
Proof. vm_compute. repeat split. tauto. Qed.

(** From 100 hours on, and below 0, they do not. *)
Theorem C93_duration_order_refuted :
  (exists d d' t t', 0 <= d < d' /\ duration_text d = Ok t /\ duration_text d' = Ok t' /\ before t' t) /\
  (exists d d' t t', d < d' < 0 /\ duration_text d = Ok t /\ duration_text d' = Ok t' /\ before t' t).
Proof.
  split.
  - exists (99 * 3600000000000), (100 * 3600000000000). do 2 eexists. split; [lia|].
    split; [vm_compute; reflexivity|]. split; [vm_compute; reflexivity|]. vm_compute. tauto.
  - exists (-2000000000), (-1000000000). do 2 eexists. split; [lia|].
    split; [vm_compute; reflexivity|]. split; [vm_compute; reflexivity|]. vm_compute. tauto.
Qed.

(** The text of a date-time is the day of the civil calendar and the time of day it
    denotes.  Missing: the date-times later than that. *)
Theorem C93_date_partial dt : i64_min <= dt <= i64_max - 946728000 * 1000000000 ->
  exists t, date_text dt = Ok t /\ date t dt.
Proof.
  intros H. assert (E : epoch_to_mjd = 946728000 * 1000000000) by reflexivity.
  exists (time_point_text (dt + epoch_to_mjd)). split.
  - rewrite date_defined by lia. now rewrite (proj2 (Z.leb_le _ _)) by lia.
  - apply time_point_date; lia.
Qed.

Example C93_date_example :
  date_text 0 = Ok (codes "2000-01-01 12:00:00.000000000") /\
  date_text 744868835000000001 = Ok (codes "2023-08-09 16:00:35.000000001") /\
  date_text (59 * 86400000000000 + 3600000000000 * 11) = Ok (codes "2000-02-29 23:00:00.000000000") /\
  date_text i64_min = Ok (codes "1707-09-22 12:12:43.145224192").
Proof. vm_compute. repeat split. Qed.

(** A day of the calendar has one number only, so a text denotes one date-time. *)
Theorem C93_calendar n : exists x, on_day n x /\ real_day x /\ forall x', on_day n x' -> x' = x.
Proof.
  exists (civil (n + 10957)). split; [apply civil_on_day|]. split; [apply civil_step|].
  intros x' H. now apply on_day_civil.
Qed.

Example C93_calendar_example :
  civil (10957 + 36524) = (2099, 12, 31) /\ civil (10957 + 36525) = (2100, 1, 1) /\
  civil (10957 + 59) = (2000, 2, 29) /\ civil (10957 + 36525 + 59) = (2100, 3, 1).
Proof. vm_compute. repeat split. Qed.

(** The last date-times of the range, from 2262 on, cannot be written: the conversion
    to a time point overflows. *)
Theorem C93_date_refuted : exists dt, i64_min <= dt <= i64_max /\ date_text dt = UB /\
  forall dt', dt <= dt' <= i64_max -> date_text dt' = UB.
Proof.
  exists (i64_max - 946728000 * 1000000000 + 1).
  assert (U : forall dt', i64_max - 946728000 * 1000000000 + 1 <= dt' <= i64_max -> date_text dt' = UB).
  { intros dt' H. assert (E : epoch_to_mjd = 946728000 * 1000000000) by reflexivity.
    assert (i64_min <= i64_max - 946728000 * 1000000000) by (vm_compute; discriminate).
    rewrite date_defined by lia. now rewrite (proj2 (Z.leb_gt _ _)) by lia. }
  split; [vm_compute; split; discriminate|]. split; [|exact U]. apply U. vm_compute. split; discriminate.
Qed.

(** Texts of date-times sort as the date-times. *)
Theorem C93_date_order dt dt' t t' :
  i64_min <= dt <= i64_max -> i64_min <= dt' <= i64_max ->
  date_text dt = Ok t -> date_text dt' = Ok t' -> (before t t' <-> dt < dt').
Proof.
  intros H H' E E'.
  assert (D : forall x s, i64_min <= x <= i64_max -> date_text x = Ok s -> date s x).
  { intros x s B X. rewrite date_defined in X by assumption.
    destruct (Z.leb_spec (x + epoch_to_mjd) i64_max); [|discriminate]. injection X as <-. apply time_point_date; lia. }
  pose proof (D _ _ H E) as A. pose proof (D _ _ H' E') as A'. split.
  - intros B. destruct (Z.lt_trichotomy dt dt') as [L|[L|L]]; [exact L| |].
    + subst dt'. rewrite E in E'. injection E' as ->. now apply before_irrefl in B.
    + pose proof (date_order _ _ _ _ A' A L) as B'. exfalso. apply (before_irrefl t). eapply before_trans; eassumption.
  - intros L. eapply date_order; eassumption.
Qed.

Example C93_date_order_example :
  date_text (-1) = Ok (codes "2000-01-01 11:59:59.999999999") /\
  before (codes "2000-01-01 11:59:59.999999999") (codes "2000-01-01 12:00:00.000000000").
Proof. vm_compute. repeat split. tauto. Qed.

(** Two date-times with the same text are the same. *)
Theorem C93_date_injective dt dt' t :
  i64_min <= dt <= i64_max -> i64_min <= dt' <= i64_max ->
  date_text dt = Ok t -> date_text dt' = Ok t -> dt = dt'.
Proof.
  intros H H' E E'. destruct (Z.lt_trichotomy dt dt') as [L|[L|L]]; [|exact L|]; exfalso; apply (before_irrefl t).
  - exact (proj2 (C93_date_order dt dt' t t H H' E E') L).
  - exact (proj2 (C93_date_order dt' dt t t H' H E' E) L).
Qed.

Print Assumptions C93_date_partial.
Print Assumptions C93_date_order.
Print Assumptions C93_duration_partial.
