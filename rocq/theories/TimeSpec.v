(** Units of time and the calendar, in plain terms. *)
From Coq Require Import ZArith List Bool.
From Verif Require Import Base TimeModel.
Import ListNotations.
Local Open Scope Z_scope.

(** Nanoseconds in a unit. *)
Definition ns_of (u : tunit) : Z :=
  match u with
  | Ns => 1
  | Us => 10 ^ 3
  | Ms => 10 ^ 6
  | Sec => 10 ^ 9
  | Mn => 60 * 10 ^ 9
  | Hr => 3600 * 10 ^ 9
  | Day => 86400 * 10 ^ 9
  | Week => 604800 * 10 ^ 9
  end.

(** The period of a unit. *)
Definition unit_period (u : tunit) : period := Period (ns_of u) 1.

(** A period: a positive fraction in lowest terms. *)
Definition is_period (p : period) : Prop := 0 < cnum p /\ 0 < cden p /\ Z.gcd (cnum p) (cden p) = 1.

(** The Gregorian calendar. *)
Definition leap (y : Z) : bool :=
  (y mod 4 =? 0) && (negb (y mod 100 =? 0) || (y mod 400 =? 0)).
Definition days_in_year (y : Z) : Z := if leap y then 366 else 365.
Fixpoint days_from (y : Z) (n : nat) : Z :=
  match n with O => 0 | S n => days_in_year y + days_from (y + 1) n end.

(** What a comparison means. *)
Definition holds (o : cmp_op) (a b : Z) : bool :=
  match o with
  | Eq => a =? b | Ne => negb (a =? b) | Lt => a <? b | Gt => b <? a
  | Le => a <=? b | Ge => b <=? a
  end.
