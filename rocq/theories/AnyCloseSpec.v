(** Floating point values as numbers. *)
From Coq Require Import ZArith Floats.SpecFloat QArith Qabs.
From Verif Require Import PaceSpec.
Local Open Scope Z_scope.

(** Neither infinite nor NaN; [q_of f] is then the number it stands for. *)
Definition is_number (f : spec_float) : Prop :=
  match f with S754_zero _ | S754_finite _ _ _ => True | _ => False end.

(** Values of [Float32] and [Float64]. *)
Definition single (f : spec_float) : Prop := valid_binary 24 128 f = true.

(** At most 2^(1-prec) apart, up to one part in 2^prec. *)
Definition close (prec : Z) (x y : spec_float) : Prop :=
  is_number x /\ is_number y /\ (Qabs (q_of x - q_of y) <= two (1 - prec) * (1 + two (- prec)))%Q.
