(** Specification of the arithmetic of typed fields, in terms of the integers. *)
From Coq Require Import ZArith List Bool Floats.SpecFloat QArith Qabs.
From Verif Require Import Base AnyModel AnySpec PaceSpec AnyCloseSpec ArithModel.
Local Open Scope Z_scope.

(** The value fits the type; [type_range] is the table of AnySpec.v. *)
Definition in_type (t : ity) (z : Z) : Prop := of_type t z.

(** What the operator means on the integers: the quotient is truncated, the bits are
    those of the two's complement, and a shift multiplies or divides (rounding down)
    by a power of two. *)
Definition exact (o : bop) (x y : Z) : Z :=
  match o with
  | OAdd => x + y | OSub => x - y | OMul => x * y
  | ODiv => Z.quot x y | ORem => Z.rem x y
  | OAnd => Z.land x y | OOr => Z.lor x y | OXor => Z.lxor x y
  | OShl => x * 2 ^ y | OShr => x / 2 ^ y
  end.

(** The number of bits in which a value of the type is shifted. *)
Definition shift_bits (t : ity) : Z := if bits t <? 32 then 32 else bits t.

(** The operands the operator has no meaning for. *)
Definition meaningful (o : bop) (t : ity) (x y : Z) : Prop :=
  match o with
  | ODiv => y <> 0
  | ORem => y <> 0 /\ (32 <= bits t -> x = fst (type_range t) -> y <> -1)
  | OShl => 0 <= y < shift_bits t /\ (is_signed t = true -> 0 <= x)
  | OShr => 0 <= y < shift_bits t
  | _ => True
  end.

(** Both operands keep their values when brought to one type. *)
Definition same_signs (t u : ity) (x y : Z) : Prop :=
  is_signed t = is_signed u \/ (0 <= x /\ 0 <= y).

(** The value a type of [bits t] bits shows of an integer: the only value of the type
    that differs from it by a multiple of [2 ^ bits t]. *)
Definition shown (t : ity) (z v : Z) : Prop :=
  in_type t v /\ exists k, z - v = k * 2 ^ bits t.

(** Operators whose result modulo a power of two depends on the operands modulo it. *)
Definition modular (o : bop) : Prop :=
  match o with OAdd | OSub | OMul | OAnd | OOr | OXor | OShl => True | _ => False end.

(** The integer types of less than 32 bits. *)
Definition small (t : ity) : Prop := t = TI8 \/ t = TU8 \/ t = TI16 \/ t = TU16.

(** The operators whose result is undefined when it does not fit a type of 32 bits or
    more with a sign. *)
Definition overflowing (o : bop) : Prop :=
  match o with OAdd | OSub | OMul | ODiv => True | _ => False end.

(** What the operators mean on the rational numbers. *)
Definition fexact (o : fop2) (x y : Q) : Q :=
  match o with FAdd => x + y | FSub => x - y | FMul => x * y | FDiv => x / y end.

(** [r] is a number of the format with [prec] bits, and none of them is nearer to [z]. *)
Definition best (prec emax : Z) (z : Q) (r : spec_float) : Prop :=
  valid_binary prec emax r = true /\ is_number r /\
  forall v, valid_binary prec emax v = true -> is_number v ->
    (Qabs (z - q_of r) <= Qabs (z - q_of v))%Q.

(** The number an operand stands for, and the operands that are converted to the
    precision without loss. *)
Definition number_of (y : operand) : Q :=
  match y with NInt z => inject_Z z | NF32 g => q_of g | NF64 g => q_of g end.
Definition exact_operand (prec : Z) (y : operand) : Prop :=
  match y with
  | NInt z => Z.abs z < 2 ^ prec
  | NF32 g => single g /\ is_number g
  | NF64 g => prec = 53 /\ double g /\ is_number g
  end.
