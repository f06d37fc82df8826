(** Model of Xsmp::Duration (include/Xsmp/Duration.h) and Xsmp::DateTime
    (include/Xsmp/DateTime.h): integers of 64 bits whose overflow is undefined
    behaviour, and std::chrono durations as a count of a rational period. *)
From Coq Require Import ZArith List Bool.
From Verif Require Import Base.
Import ListNotations.
Local Open Scope Z_scope.

Definition tres := res Empty_set Z.

(** Signed 64-bit arithmetic. *)
Definition checked (z : Z) : tres := if in_i64 z then Ok z else UB.
Definition mul (a b : Z) : tres := checked (a * b).
Definition add (a b : Z) : tres := checked (a + b).
Definition sub (a b : Z) : tres := checked (a - b).

(** Duration.h:248-284, the unit constructors; each one is written in terms of the
    one before. *)
Definition nanoseconds (v : Z) : tres := Ok v.
Definition microseconds (v : Z) : tres := bind (nanoseconds 1000) (mul v).
Definition milliseconds (v : Z) : tres := bind (microseconds 1000) (mul v).
Definition seconds (v : Z) : tres := bind (milliseconds 1000) (mul v).
Definition minutes (v : Z) : tres := bind (seconds 60) (mul v).
Definition hours (v : Z) : tres := bind (minutes 60) (mul v).
Definition days (v : Z) : tres := bind (hours 24) (mul v).
Definition weeks (v : Z) : tres := bind (days 7) (mul v).

(** static_cast<::Smp::Duration>(unsigned long long) *)
Definition to_signed (v : Z) : Z := if v <? 2 ^ 63 then v else v - 2 ^ 64.

(** Duration.h:295-333, the literals; [v] is an unsigned long long. *)
Definition lit_ns (v : Z) : tres := Ok (to_signed v).
Definition lit_us (v : Z) : tres := bind (lit_ns 1000) (mul (to_signed v)).
Definition lit_ms (v : Z) : tres := bind (lit_us 1000) (mul (to_signed v)).
Definition lit_s (v : Z) : tres := bind (lit_ms 1000) (mul (to_signed v)).
Definition lit_mn (v : Z) : tres := bind (lit_s 60) (mul (to_signed v)).
Definition lit_h (v : Z) : tres := bind (lit_mn 60) (mul (to_signed v)).
Definition lit_d (v : Z) : tres := bind (lit_h 24) (mul (to_signed v)).
Definition lit_w (v : Z) : tres := bind (lit_d 7) (mul (to_signed v)).

Inductive tunit := Ns | Us | Ms | Sec | Mn | Hr | Day | Week.

Definition make (u : tunit) : Z -> tres :=
  match u with
  | Ns => nanoseconds | Us => microseconds | Ms => milliseconds | Sec => seconds
  | Mn => minutes | Hr => hours | Day => days | Week => weeks
  end.
Definition literal (u : tunit) : Z -> tres :=
  match u with
  | Ns => lit_ns | Us => lit_us | Ms => lit_ms | Sec => lit_s
  | Mn => lit_mn | Hr => lit_h | Day => lit_d | Week => lit_w
  end.

(** A std::chrono::duration<int64_t, ratio>: [cnum]/[cden] is its period in
    nanoseconds, in lowest terms. *)
Record period := Period { cnum : Z; cden : Z }.

(** std::chrono::duration_cast between a period of p nanoseconds and nanoseconds:
    multiply by the numerator of the quotient, divide by its denominator. *)
Definition cast_from (p : period) (count : Z) : tres :=
  bind (mul count (cnum p)) (fun x => Ok (Z.quot x (cden p))).
Definition cast_to (p : period) (ns : Z) : tres :=
  bind (mul ns (cden p)) (fun x => Ok (Z.quot x (cnum p))).

(** Duration.h:42-46 and 58-65, construction and assignment from chrono;
    Duration.h:91-95, conversion to chrono. *)
Definition of_chrono := cast_from.
Definition to_chrono := cast_to.

(** DateTime.h:238-244 *)
Definition epoch_to_mjd : Z := 946728000 * 1000000000.

(** DateTime.h:248-257, convert: time point (since 1970) to DateTime;
    DateTime.h:184-190: DateTime to time point. *)
Definition of_time_point (p : period) (count : Z) : tres :=
  bind (cast_from p count) (fun ns => sub ns epoch_to_mjd).
Definition to_time_point (p : period) (dt : Z) : tres :=
  bind (add dt epoch_to_mjd) (cast_to p).

(** Duration.h:164-212: comparisons of a Duration with a chrono duration. *)
Definition compare (f : Z -> Z -> bool) (d : Z) (p : period) (count : Z) : res Empty_set bool :=
  bind (cast_from p count) (fun ns => Ok (f d ns)).
Definition negate (r : res Empty_set bool) : res Empty_set bool := bind r (fun b => Ok (negb b)).

Inductive cmp_op := Eq | Ne | Lt | Gt | Le | Ge.

Definition dur_chrono (o : cmp_op) (d : Z) (p : period) (count : Z) : res Empty_set bool :=
  match o with
  | Eq => compare Z.eqb d p count
  | Ne => negate (compare Z.eqb d p count)
  | Lt => compare Z.ltb d p count
  | Gt => compare Z.gtb d p count
  | Le => compare Z.leb d p count
  | Ge => negate (compare Z.ltb d p count)
  end.

(** Duration.h:214-246: the chrono duration on the left. *)
Definition chrono_dur (o : cmp_op) (p : period) (count : Z) (d : Z) : res Empty_set bool :=
  match o with
  | Eq => dur_chrono Eq d p count
  | Ne => dur_chrono Ne d p count
  | Lt => dur_chrono Gt d p count
  | Gt => dur_chrono Lt d p count
  | Le => dur_chrono Ge d p count
  | Ge => dur_chrono Le d p count
  end.

(** DateTime.h:192-230: DateTime + Duration and DateTime - Duration. *)
Definition dt_plus (dt d : Z) : tres := add dt d.
Definition dt_minus (dt d : Z) : tres := sub dt d.
