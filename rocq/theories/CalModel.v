(** Texts of Duration and DateTime: src/Xsmp/Duration.cpp and src/Xsmp/DateTime.cpp.

    The formats themselves, "%T" and "%F %T", are those of the library date
    (outside /repo), modelled from its documentation and from the texts expected by
    tests/Xsmp/DurationTest.cpp:140-147 and tests/Xsmp/DateTimeTest.cpp:87-97: hours without
    upper limit, nine digits of fraction, the civil calendar.  Characters are byte
    values. *)
From Verif Require Import Base Text TimeModel UuidModel.
From Coq Require Import ZArith List Bool.
Import ListNotations.
Local Open Scope Z_scope.

(** Output of a number that is not negative in base [b], without leading zeros. *)
Fixpoint digits (fuel : nat) (b n : Z) (acc : list Z) : list Z :=
  match fuel with
  | O => acc
  | S f => if n <? b then hexa_char n :: acc
           else digits f b (n / b) (hexa_char (n mod b) :: acc)
  end.
Definition numeral (b n : Z) : list Z := digits 64 b n [].

(** The same in base 10 on at least [w] characters. *)
Definition zeros (w : nat) (n : Z) : list Z :=
  let t := numeral 10 n in repeat 48 (w - length t) ++ t.

(** A time of day, or an amount of time that is not negative, in nanoseconds. *)
Definition clock_text (t : Z) : list Z :=
  zeros 2 (t / 3600000000000) ++ 58 ::
  zeros 2 (t / 60000000000 mod 60) ++ 58 ::
  zeros 2 (t / 1000000000 mod 60) ++ 46 ::
  zeros 9 (t mod 1000000000).

(** Duration.cpp:49-71, format() and operator<<: "%T" of the number of nanoseconds.
    The absolute value of the smallest number overflows. *)
Definition duration_text (d : Z) : res Empty_set (list Z) :=
  if d <? 0 then bind (checked (- d)) (fun a => Ok (45 :: clock_text a))
  else Ok (clock_text d).

(** date::year_month_day of a number of days since 1970-01-01. *)
Definition civil (days : Z) : Z * Z * Z :=
  let z := days + 719468 in
  let era := z / 146097 in
  let doe := z - era * 146097 in
  let yoe := (doe - doe / 1460 + doe / 36524 - doe / 146096) / 365 in
  let doy := doe - (365 * yoe + yoe / 4 - yoe / 100) in
  let mp := (5 * doy + 2) / 153 in
  let d := doy - (153 * mp + 2) / 5 + 1 in
  let m := if mp <? 10 then mp + 3 else mp - 9 in
  (yoe + era * 400 + (if m <=? 2 then 1 else 0), m, d).

(** "%F %T" of a number of nanoseconds since 1970-01-01.  Simplified: years before
    the year 0, which no DateTime reaches, are not given their sign. *)
Definition time_point_text (tp : Z) : list Z :=
  let '(y, m, d) := civil (tp / 86400000000000) in
  zeros 4 y ++ 45 :: zeros 2 m ++ 45 :: zeros 2 d ++ 32 ::
  clock_text (tp mod 86400000000000).

(** DateTime.cpp:54-76, format() and operator<<: conversion to a time point
    (DateTime.h:184-190), then "%F %T". *)
Definition date_text (dt : Z) : res Empty_set (list Z) :=
  bind (to_time_point (Period 1 1) dt) (fun tp => Ok (time_point_text tp)).
