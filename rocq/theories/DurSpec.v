(** What the arguments of the Run of the Python binding ask for. *)
From Verif Require Import Base PaceSpec.
From Coq Require Import Floats.SpecFloat QArith.
Local Open Scope Z_scope.

(** The number of nanoseconds asked for: the exact sum of the eight arguments, each in its
    unit. *)
Definition asked (ns us ms s mn h d w : spec_float) : Q :=
  (q_of ns + 1000 * q_of us + 1000000 * q_of ms + 1000000000 * q_of s + 60000000000 * q_of mn
   + 3600000000000 * q_of h + 86400000000000 * q_of d + 604800000000000 * q_of w)%Q.

(** The same for integers. *)
Definition asked_int (ns us ms s mn h d w : Z) : Z :=
  ns + 1000 * us + 1000000 * ms + 1000000000 * s + 60000000000 * mn
  + 3600000000000 * h + 86400000000000 * d + 604800000000000 * w.

(** A double that is a length of time: finite, and either zero or positive and not
    absurdly small (2^-840 is below 10^-252). *)
Definition a_length (x : spec_float) : Prop :=
  double x /\ match x with S754_zero _ => True | S754_finite _ _ _ => (two (-840) <= q_of x)%Q | _ => False end.
