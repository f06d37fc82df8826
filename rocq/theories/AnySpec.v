(** What is meant by the properties of AnySimple values, in mathematical terms. *)
From Coq Require Import ZArith List Bool Floats.SpecFloat.
From Verif Require Import Base AnyModel.
Local Open Scope Z_scope.

(** The values of the integral C++ types. *)
Definition type_range (t : ity) : Z * Z :=
  match t with
  | TU8 => (0, 255)
  | TU16 => (0, 65535)
  | TU32 => (0, 4294967295)
  | TU64 => (0, 18446744073709551615)
  | TI8 => (-128, 127)
  | TI16 => (-32768, 32767)
  | TI32 => (-2147483648, 2147483647)
  | TI64 => (-9223372036854775808, 9223372036854775807)
  end.

Definition of_type (t : ity) (v : Z) : Prop :=
  fst (type_range t) <= v <= snd (type_range t).

(** The integral kinds, and the type whose values they hold. *)
Definition kind_type (k : kind) : option ity :=
  match k with
  | KU8 => Some TU8 | KU16 => Some TU16 | KU32 => Some TU32 | KU64 => Some TU64
  | KI8 => Some TI8 | KI16 => Some TI16 | KI32 => Some TI32 | KI64 => Some TI64
  | KDuration => Some TI64 | KDateTime => Some TI64
  | _ => None
  end.

(** [holds a k v]: the object is of kind [k] and its value is the integer [v]. *)
Definition holds (a : any) (k : kind) (v : Z) : Prop :=
  atype a = k /\ aval a = PInt v.

(** An argument a C++ program can pass. *)
Definition arg_ok (g : arg) : Prop :=
  match g with
  | GInt u v => of_type u v
  | _ => True
  end.

(** An object whose content is a value of its kind. *)
Definition any_ok (a : any) : Prop :=
  match kind_type (atype a) with
  | Some t => exists v, aval a = PInt v /\ of_type t v
  | None =>
      match atype a with
      | KNone => aval a = PNothing
      | KBool => exists b, aval a = PBool b
      | KChar8 => exists c, aval a = PChar c
      | KString8 => exists s, aval a = PStr s
      | _ => exists f, aval a = PFloat f
      end
  end.

Definition op_ok (o : any_op) : Prop :=
  match o with
  | OSet _ g => arg_ok g
  | OAssign b => any_ok b
  | _ => True
  end.

(** The kinds other than the floating point ones, None and Bool: those on which
    equality is an equivalence. *)
Definition exact_kind (k : kind) : Prop :=
  k <> KNone /\ k <> KBool /\ k <> KF32 /\ k <> KF64.

(** [float_is f v]: the floating point value [f] is exactly the integer [v]
    ((-1)^s * m * 2^e = v, written without fractions). *)
Definition float_is (f : spec_float) (v : Z) : Prop :=
  match f with
  | S754_zero _ => v = 0
  | S754_finite s m e =>
      (if s then - Z.pos m else Z.pos m) * 2 ^ Z.max e 0 = v * 2 ^ Z.max (- e) 0
  | _ => False
  end.

(** [fits prec v]: [v] is an integer of at most [prec] significant bits. *)
Definition fits (prec v : Z) : Prop :=
  exists a k, 0 <= k /\ Z.abs a < 2 ^ prec /\ v = a * 2 ^ k.

(** The two objects hold the same value: the same integer (whatever the kinds),
    the same character, or the same string (the null string being a string of
    its own). *)
Definition same_value (a b : any) : Prop :=
  match kind_type (atype a), kind_type (atype b) with
  | Some _, Some _ => aval a = aval b
  | None, None => atype a = atype b /\ aval a = aval b
  | _, _ => False
  end.
