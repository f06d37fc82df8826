(** Model of [Smp::AnySimple] (src/Smp/AnySimple.cpp) and of the integer
    comparison helpers of src/Smp/utility.h.

    Integers are [Z] with the range of their C++ type; floating point values
    are the IEEE-754 values of [Coq.Floats.SpecFloat] (binary32: precision 24,
    emax 128; binary64: 53, 1024; round to nearest even).  The union [value] is
    modelled by a payload whose shape is the union member that [type] selects
    (the code always writes the member named by [kind] before setting [type]).
    Strings are their contents up to the terminating zero, or the null pointer;
    who owns the memory is the subject of AnyHeap*.v. *)
From Coq Require Import ZArith List Bool Floats.SpecFloat.
From Verif Require Import Base Text UuidModel.
Import ListNotations.
Local Open Scope Z_scope.

(** Smp/PrimitiveTypes.h (outside /repo): the integral C++ types.  Duration and
    DateTime are typedefs of Int64. *)
Inductive ity := TU8 | TU16 | TU32 | TU64 | TI8 | TI16 | TI32 | TI64.

(** Smp::PrimitiveTypeKind. *)
Inductive kind :=
  KNone | KChar8 | KBool
| KI8 | KU8 | KI16 | KU16 | KI32 | KU32 | KI64 | KU64
| KF32 | KF64 | KDuration | KDateTime | KString8.

Definition bits (t : ity) : Z :=
  match t with
  | TU8 | TI8 => 8 | TU16 | TI16 => 16 | TU32 | TI32 => 32 | TU64 | TI64 => 64
  end.

Definition is_signed (t : ity) : bool :=
  match t with TI8 | TI16 | TI32 | TI64 => true | _ => false end.

(** std::make_unsigned_t *)
Definition make_unsigned (t : ity) : ity :=
  match t with
  | TU8 | TI8 => TU8 | TU16 | TI16 => TU16 | TU32 | TI32 => TU32
  | TU64 | TI64 => TU64
  end.

(** std::numeric_limits<t>::lowest() and max() *)
Definition tmin (t : ity) : Z := if is_signed t then - 2 ^ (bits t - 1) else 0.
Definition tmax (t : ity) : Z :=
  if is_signed t then 2 ^ (bits t - 1) - 1 else 2 ^ bits t - 1.

(** static_cast and implicit conversion between integral types: reduction
    modulo 2^N into the range of the destination ([conv.integral]). *)
Definition cast (t : ity) (z : Z) : Z := tmin t + (z - tmin t) mod 2 ^ bits t.

(** utility.h:67-91, [_cmp_less_helper] and [cmp_less] (the pre C++20 branch;
    since C++20 std::cmp_less is used instead). *)
Definition cmp_less (T U : ity) (t u : Z) : bool :=
  if Bool.eqb (is_signed T) (is_signed U) then t <? u
  else if is_signed T then
    if t <? 0 then true else cast (make_unsigned T) t <? u
  else
    if u <? 0 then false else t <? cast (make_unsigned U) u.

(** utility.h:93-106, [cmp_greater], [cmp_less_equal]. *)
Definition cmp_greater (T U : ity) (l r : Z) : bool := cmp_less U T r l.
Definition cmp_less_equal (T U : ity) (t u : Z) : bool :=
  negb (cmp_greater T U t u).

(** utility.h:107-110, [in_range<Up>(Tp)]. *)
Definition in_range (Up Tp : ity) (t : Z) : bool :=
  cmp_less_equal Up Tp (tmin Up) t && cmp_less_equal Tp Up t (tmax Up).

Inductive any_exn := InvalidAnyType.

(** AnySimple.cpp:90-97, [convertIntegral<T>(U newValue)]. *)
Definition convert_integral (T U : ity) (v : Z) : res any_exn Z :=
  if negb (in_range T U v) then Throw InvalidAnyType else Ok (cast T v).

(** * Floating point *)

(** Conversion of an integer to binary32 or binary64. *)
Definition f32_of_int (z : Z) : spec_float := binary_normalize 24 128 z 0 false.
Definition f64_of_int (z : Z) : spec_float := binary_normalize 53 1024 z 0 false.

(** Conversions between the two formats (an overflow gives an infinity, as with
    IEEE-754 arithmetic). *)
Definition f32_of_f64 (f : spec_float) : spec_float :=
  match f with
  | S754_finite s m e => binary_round 24 128 s m e
  | _ => f
  end.
Definition f64_of_f32 (f : spec_float) : spec_float :=
  match f with
  | S754_finite s m e => binary_round 53 1024 s m e
  | _ => f
  end.

(** The integral part of a finite value, rounded towards zero. *)
Definition trunc (f : spec_float) : option Z :=
  match f with
  | S754_zero _ => Some 0
  | S754_finite s m e =>
      let a := if 0 <=? e then Z.pos m * 2 ^ e else Z.pos m / 2 ^ (- e) in
      Some (if s then - a else a)
  | _ => None
  end.

(** static_cast from a floating point to an integral type: undefined when the
    truncated value does not fit ([conv.fpint]). *)
Definition int_of_float (t : ity) (f : spec_float) : option Z :=
  match trunc f with
  | Some z => if (tmin t <=? z) && (z <=? tmax t) then Some z else None
  | None => None
  end.

(** std::numeric_limits<Float32/64>::epsilon(): 2^-23 and 2^-52. *)
Definition eps32 : spec_float := S754_finite false (2 ^ 23) (-46).
Definition eps64 : spec_float := S754_finite false (2 ^ 52) (-104).

(** AnySimple.cpp:99-108, [convertFloat<T>(U newValue)] for an integral [U]:
    epsilon<U>() is 0.  The subtraction is the one of [U] (32 or 64 bits, so not
    promoted): it wraps for an unsigned type and is undefined on a signed
    overflow.  Simplified: [std::fabs(d) > 0] on an integer [d] is [d <> 0]. *)
Definition convert_float_int (of_int : Z -> spec_float) (U : ity) (v : Z)
  : res any_exn spec_float :=
  let f := of_int v in
  match int_of_float U f with
  | None => UB
  | Some w =>
      if is_signed U && negb ((tmin U <=? v - w) && (v - w <=? tmax U)) then UB
      else if negb (cast U (v - w) =? 0) then Throw InvalidAnyType
      else Ok f
  end.

(** The same for [T] = Float32 and [U] = Float64. *)
Definition convert_float_double (v : spec_float) : res any_exn spec_float :=
  let f := f32_of_f64 v in
  if SFltb eps64 (SFabs (SFsub 53 1024 v (f64_of_f32 f)))
  then Throw InvalidAnyType else Ok f.

(** * The object *)

Inductive payload :=
| PNothing
| PInt (z : Z)
| PBool (b : bool)
| PChar (z : Z)
| PFloat (f : spec_float)
| PStr (s : option (list Z)).

Record any := Any { atype : kind; aval : payload }.

(** AnySimple.cpp:36-40.  The constructor clears the union. *)
Definition zero_payload (k : kind) : payload :=
  match k with
  | KNone => PNothing
  | KBool => PBool false
  | KChar8 => PChar 0
  | KString8 => PStr None
  | KF32 | KF64 => PFloat (S754_zero false)
  | _ => PInt 0
  end.
Definition any_new (k : kind) : any := Any k (zero_payload k).

(** AnySimple.cpp:27-32, [_releaseContent]. *)
Definition release (a : any) : any :=
  match atype a with
  | KString8 => Any KString8 (PStr None)
  | _ => a
  end.

(** AnySimple.cpp:51-73: copy assignment (distinct objects; self assignment does
    nothing).  Returns the new content of the target. *)
Definition assign_copy (a b : any) : any := b.

(** AnySimple.cpp:75-86 and 46-49: move assignment from a distinct object:
    new target and new source. *)
Definition assign_move (a b : any) : any * any := (b, any_new KNone).

(** Move assignment of an object to itself: there is no test for it. *)
Definition assign_move_self (a : any) : any := any_new KNone.

(** The arguments of the overloads of SetValue. *)
Inductive arg :=
| GInt (u : ity) (v : Z)
| GBool (b : bool)
| GChar (c : Z)
| GStr (s : option (list Z))
| GF32 (f : spec_float)
| GF64 (f : spec_float).

(** Writing a union member: plain assignment, [convertIntegral], and the two
    floating point counterparts. *)
Definition put (t : ity) (v : Z) : res any_exn payload := Ok (PInt (cast t v)).
Definition chk (t u : ity) (v : Z) : res any_exn payload :=
  bind (convert_integral t u v) (fun w => Ok (PInt w)).
Definition putf (f : spec_float) : res any_exn payload := Ok (PFloat f).
Definition chkf (r : res any_exn spec_float) : res any_exn payload :=
  bind r (fun f => Ok (PFloat f)).
Definition no {A} : res any_exn A := Throw InvalidAnyType.

(** AnySimple.cpp:158-206 *)
Definition set_u8 (k : kind) (v : Z) : res any_exn payload :=
  match k with
  | KU8 => put TU8 v | KU16 => put TU16 v | KU32 => put TU32 v | KU64 => put TU64 v
  | KI8 => chk TI8 TU8 v | KI16 => put TI16 v | KI32 => put TI32 v
  | KI64 => put TI64 v | KDuration => put TI64 v | KDateTime => put TI64 v
  | KF32 => putf (f32_of_int v) | KF64 => putf (f64_of_int v)
  | _ => no
  end.

(** AnySimple.cpp:208-259 *)
Definition set_u16 (k : kind) (v : Z) : res any_exn payload :=
  match k with
  | KU8 => chk TU8 TU16 v | KU16 => put TU16 v | KU32 => put TU32 v
  | KU64 => put TU64 v
  | KI8 => chk TI8 TU16 v | KI16 => chk TI16 TU16 v | KI32 => put TI32 v
  | KI64 => put TI64 v | KDuration => put TI64 v | KDateTime => put TI64 v
  | KF32 => putf (f32_of_int v) | KF64 => putf (f64_of_int v)
  | _ => no
  end.

(** AnySimple.cpp:261-315 *)
Definition set_u32 (k : kind) (v : Z) : res any_exn payload :=
  match k with
  | KU8 => chk TU8 TU32 v | KU16 => chk TU16 TU32 v | KU32 => put TU32 v
  | KU64 => put TU64 v
  | KI8 => chk TI8 TU32 v | KI16 => chk TI16 TU32 v | KI32 => chk TI32 TU32 v
  | KI64 => put TI64 v | KDuration => put TI64 v | KDateTime => put TI64 v
  | KF32 => chkf (convert_float_int f32_of_int TU32 v)
  | KF64 => putf (f64_of_int v)
  | _ => no
  end.

(** AnySimple.cpp:317-376 *)
Definition set_u64 (k : kind) (v : Z) : res any_exn payload :=
  match k with
  | KU8 => chk TU8 TU64 v | KU16 => chk TU16 TU64 v | KU32 => chk TU32 TU64 v
  | KU64 => put TU64 v
  | KI8 => chk TI8 TU64 v | KI16 => chk TI16 TU64 v | KI32 => chk TI32 TU64 v
  | KI64 => chk TI64 TU64 v | KDateTime => chk TI64 TU64 v
  | KDuration => chk TI64 TU64 v
  | KF32 => chkf (convert_float_int f32_of_int TU64 v)
  | KF64 => chkf (convert_float_int f64_of_int TU64 v)
  | _ => no
  end.

(** AnySimple.cpp:378-429 *)
Definition set_i8 (k : kind) (v : Z) : res any_exn payload :=
  match k with
  | KU8 => chk TU8 TI8 v | KU16 => chk TU16 TI8 v | KU32 => chk TU32 TI8 v
  | KU64 => chk TU64 TI8 v
  | KI8 => put TI8 v | KI16 => put TI16 v | KI32 => put TI32 v
  | KI64 => put TI64 v | KDuration => put TI64 v | KDateTime => put TI64 v
  | KF32 => putf (f32_of_int v) | KF64 => putf (f64_of_int v)
  | _ => no
  end.

(** AnySimple.cpp:431-483 *)
Definition set_i16 (k : kind) (v : Z) : res any_exn payload :=
  match k with
  | KU8 => chk TU8 TI16 v | KU16 => chk TU16 TI16 v | KU32 => chk TU32 TI16 v
  | KU64 => chk TU64 TI16 v
  | KI8 => chk TI8 TI16 v | KI16 => put TI16 v | KI32 => put TI32 v
  | KI64 => put TI64 v | KDuration => put TI64 v | KDateTime => put TI64 v
  | KF32 => putf (f32_of_int v) | KF64 => putf (f64_of_int v)
  | _ => no
  end.

(** AnySimple.cpp:485-539 *)
Definition set_i32 (k : kind) (v : Z) : res any_exn payload :=
  match k with
  | KU8 => chk TU8 TI32 v | KU16 => chk TU16 TI32 v | KU32 => chk TU32 TI32 v
  | KU64 => chk TU64 TI32 v
  | KI8 => chk TI8 TI32 v | KI16 => chk TI16 TI32 v | KI32 => put TI32 v
  | KI64 => put TI64 v | KDuration => put TI64 v | KDateTime => put TI64 v
  | KF32 => chkf (convert_float_int f32_of_int TI32 v)
  | KF64 => putf (f64_of_int v)
  | _ => no
  end.

(** AnySimple.cpp:541-597 *)
Definition set_i64 (k : kind) (v : Z) : res any_exn payload :=
  match k with
  | KU8 => chk TU8 TI64 v | KU16 => chk TU16 TI64 v | KU32 => chk TU32 TI64 v
  | KU64 => chk TU64 TI64 v
  | KI8 => chk TI8 TI64 v | KI16 => chk TI16 TI64 v | KI32 => chk TI32 TI64 v
  | KI64 => put TI64 v | KDuration => put TI64 v | KDateTime => put TI64 v
  | KF32 => chkf (convert_float_int f32_of_int TI64 v)
  | KF64 => chkf (convert_float_int f64_of_int TI64 v)
  | _ => no
  end.

Definition set_int (u : ity) : kind -> Z -> res any_exn payload :=
  match u with
  | TU8 => set_u8 | TU16 => set_u16 | TU32 => set_u32 | TU64 => set_u64
  | TI8 => set_i8 | TI16 => set_i16 | TI32 => set_i32 | TI64 => set_i64
  end.

(** AnySimple.cpp:110-156 (Bool, Char8, String8) and 599-638 (floats). *)
Definition set_payload (k : kind) (g : arg) : res any_exn payload :=
  match g with
  | GBool b => match k with KBool => Ok (PBool b) | _ => no end
  | GChar c => match k with KChar8 => Ok (PChar c) | _ => no end
  | GStr s => match k with KString8 => Ok (PStr s) | _ => no end
  | GInt u v => set_int u k v
  | GF32 f =>
      match k with
      | KF32 => putf f
      | KF64 => putf (f64_of_f32 f)
      | _ => no
      end
  | GF64 f =>
      match k with
      | KF32 => chkf (convert_float_double f)
      | KF64 => putf f
      | _ => no
      end
  end.

(** AnySimple.cpp:110-638: every SetValue releases the content first, then
    converts, and sets [type] last.  The result is the object afterwards and
    the outcome. *)
Definition set_value (a : any) (k : kind) (g : arg) : any * res any_exn unit :=
  let a1 := release a in
  match set_payload k g with
  | Ok p => (Any k p, Ok tt)
  | Throw e => (a1, Throw e)
  | UB => (a1, UB)
  end.

(** * Reading.  [ld t u v] is [return value.member] (implicit conversion from
    the member type to [t]), [ck] is [convertIntegral<t>(value.member)]. *)
Definition ld (t : ity) (v : Z) : res any_exn Z := Ok (cast t v).
Definition ck (t u : ity) (v : Z) : res any_exn Z := convert_integral t u v.

(** AnySimple.cpp:691-726 *)
Definition get_u8 (k : kind) (v : Z) : res any_exn Z :=
  match k with
  | KI8 => ck TU8 TI8 v | KI16 => ck TU8 TI16 v | KI32 => ck TU8 TI32 v
  | KI64 => ck TU8 TI64 v | KDateTime => ck TU8 TI64 v | KDuration => ck TU8 TI64 v
  | KU8 => ld TU8 v | KU16 => ck TU8 TU16 v | KU32 => ck TU8 TU32 v
  | KU64 => ck TU8 TU64 v
  | _ => no
  end.

(** AnySimple.cpp:728-762 *)
Definition get_u16 (k : kind) (v : Z) : res any_exn Z :=
  match k with
  | KI8 => ck TU16 TI8 v | KI16 => ck TU16 TI16 v | KI32 => ck TU16 TI32 v
  | KI64 => ck TU16 TI64 v | KDateTime => ck TU16 TI64 v
  | KDuration => ck TU16 TI64 v
  | KU8 => ld TU16 v | KU16 => ld TU16 v | KU32 => ck TU16 TU32 v
  | KU64 => ck TU16 TU64 v
  | _ => no
  end.

(** AnySimple.cpp:764-797 *)
Definition get_u32 (k : kind) (v : Z) : res any_exn Z :=
  match k with
  | KI8 => ck TU32 TI8 v | KI16 => ck TU32 TI16 v | KI32 => ck TU32 TI32 v
  | KI64 => ck TU32 TI64 v | KDateTime => ck TU32 TI64 v
  | KDuration => ck TU32 TI64 v
  | KU8 => ld TU32 v | KU16 => ld TU32 v | KU32 => ld TU32 v
  | KU64 => ck TU32 TU64 v
  | _ => no
  end.

(** AnySimple.cpp:799-831 *)
Definition get_u64 (k : kind) (v : Z) : res any_exn Z :=
  match k with
  | KI8 => ck TU64 TI8 v | KI16 => ck TU64 TI16 v | KI32 => ck TU64 TI32 v
  | KI64 => ck TU64 TI64 v | KDateTime => ck TU64 TI64 v
  | KDuration => ck TU64 TI64 v
  | KU8 => ld TU64 v | KU16 => ld TU64 v | KU32 => ld TU64 v | KU64 => ld TU64 v
  | _ => no
  end.

(** AnySimple.cpp:833-868 *)
Definition get_i8 (k : kind) (v : Z) : res any_exn Z :=
  match k with
  | KI8 => ld TI8 v | KI16 => ck TI8 TI16 v | KI32 => ck TI8 TI32 v
  | KI64 => ck TI8 TI64 v | KDateTime => ck TI8 TI64 v | KDuration => ck TI8 TI64 v
  | KU8 => ck TI8 TU8 v | KU16 => ck TI8 TU16 v | KU32 => ck TI8 TU32 v
  | KU64 => ck TI8 TU64 v
  | _ => no
  end.

(** AnySimple.cpp:870-903 *)
Definition get_i16 (k : kind) (v : Z) : res any_exn Z :=
  match k with
  | KI8 => ld TI16 v | KI16 => ld TI16 v | KI32 => ck TI16 TI32 v
  | KI64 => ck TI16 TI64 v | KDateTime => ck TI16 TI64 v
  | KDuration => ck TI16 TI64 v
  | KU8 => ld TI16 v | KU16 => ck TI16 TU16 v | KU32 => ck TI16 TU32 v
  | KU64 => ck TI16 TU64 v
  | _ => no
  end.

(** AnySimple.cpp:905-936 *)
Definition get_i32 (k : kind) (v : Z) : res any_exn Z :=
  match k with
  | KI8 => ld TI32 v | KI16 => ld TI32 v | KI32 => ld TI32 v
  | KI64 => ck TI32 TI64 v | KDateTime => ck TI32 TI64 v
  | KDuration => ck TI32 TI64 v
  | KU8 => ld TI32 v | KU16 => ld TI32 v | KU32 => ck TI32 TU32 v
  | KU64 => ck TI32 TU64 v
  | _ => no
  end.

(** AnySimple.cpp:938-965 *)
Definition get_i64 (k : kind) (v : Z) : res any_exn Z :=
  match k with
  | KI8 => ld TI64 v | KI16 => ld TI64 v | KI32 => ld TI64 v | KI64 => ld TI64 v
  | KDuration => ld TI64 v | KDateTime => ld TI64 v
  | KU8 => ld TI64 v | KU16 => ld TI64 v | KU32 => ld TI64 v
  | KU64 => ck TI64 TU64 v
  | _ => no
  end.

(** The integral conversion operators.  A payload that does not fit the kind
    cannot occur (AnyProofs.v); the model then gives [UB]. *)
Definition get_int (t : ity) (a : any) : res any_exn Z :=
  let f := match t with
           | TU8 => get_u8 | TU16 => get_u16 | TU32 => get_u32 | TU64 => get_u64
           | TI8 => get_i8 | TI16 => get_i16 | TI32 => get_i32 | TI64 => get_i64
           end in
  match aval a with
  | PInt v => f (atype a) v
  | _ => f (atype a) 0
  end.

(** AnySimple.cpp:640-673, operator Bool. *)
Definition get_bool (a : any) : res any_exn bool :=
  match atype a, aval a with
  | KBool, PBool b => Ok b
  | (KU8 | KU16 | KU32 | KU64 | KI8 | KI16 | KI32 | KI64 | KDuration | KDateTime),
    PInt v => Ok (negb (v =? 0))
  | KChar8, PChar c => Ok (negb (c =? 0))
  | KString8, PStr s => Ok (match s with Some _ => true | None => false end)
  | _, _ => no
  end.

(** AnySimple.cpp:675-689, operators Char8 and String8. *)
Definition get_char (a : any) : res any_exn Z :=
  match atype a, aval a with KChar8, PChar c => Ok c | _, _ => no end.
Definition get_str (a : any) : res any_exn (option (list Z)) :=
  match atype a, aval a with KString8, PStr s => Ok s | _, _ => no end.

(** AnySimple.cpp:967-999, operator Float32. *)
Definition get_f32 (a : any) : res any_exn spec_float :=
  match atype a, aval a with
  | (KU8 | KU16 | KI8 | KI16), PInt v => Ok (f32_of_int v)
  | KI32, PInt v => convert_float_int f32_of_int TI32 v
  | KI64, PInt v => convert_float_int f32_of_int TI64 v
  | KU32, PInt v => convert_float_int f32_of_int TU32 v
  | KU64, PInt v => convert_float_int f32_of_int TU64 v
  | KF32, PFloat f => Ok f
  | KF64, PFloat f => convert_float_double f
  | _, _ => no
  end.

(** AnySimple.cpp:1001-1029, operator Float64. *)
Definition get_f64 (a : any) : res any_exn spec_float :=
  match atype a, aval a with
  | (KU8 | KU16 | KU32 | KI8 | KI16 | KI32), PInt v => Ok (f64_of_int v)
  | KI64, PInt v => convert_float_int f64_of_int TI64 v
  | KU64, PInt v => convert_float_int f64_of_int TU64 v
  | KF32, PFloat f => Ok (f64_of_f32 f)
  | KF64, PFloat f => Ok f
  | _, _ => no
  end.

(** AnySimple.cpp:1031-1039, MoveString: the object keeps its kind and holds the
    null string afterwards. *)
Definition move_string (a : any) : any * res any_exn (option (list Z)) :=
  match atype a, aval a with
  | KString8, PStr s => (Any KString8 (PStr None), Ok s)
  | _, _ => (a, no)
  end.

(** [catch (InvalidAnyType &) { return false; }] of AnySimple.cpp:1095-1097. *)
Definition catch_false (r : res any_exn bool) : res any_exn bool :=
  match r with
  | Throw InvalidAnyType => Ok false
  | _ => r
  end.

(** The comparison of an integral member with the other operand read as the
    same type. *)
Definition eq_int (t : ity) (v : Z) (b : any) : res any_exn bool :=
  bind (get_int t b) (fun w => Ok (v =? w)).

(** AnySimple.cpp:1043-1099, operator==. *)
Definition any_eq (a b : any) : res any_exn bool :=
  catch_false
    match atype a, aval a with
    | KNone, _ => Ok true
    | KBool, PBool x => bind (get_bool b) (fun y => Ok (Bool.eqb x y))
    | KU8, PInt v => eq_int TU8 v b
    | KU16, PInt v => eq_int TU16 v b
    | KU32, PInt v => eq_int TU32 v b
    | KU64, PInt v => eq_int TU64 v b
    | KI8, PInt v => eq_int TI8 v b
    | KI16, PInt v => eq_int TI16 v b
    | KI32, PInt v => eq_int TI32 v b
    | KI64, PInt v => eq_int TI64 v b
    | KDuration, PInt v => eq_int TI64 v b
    | KDateTime, PInt v => eq_int TI64 v b
    | KF32, PFloat x =>
        bind (get_f32 b) (fun y => Ok (SFleb (SFabs (SFsub 24 128 x y)) eps32))
    | KF64, PFloat x =>
        bind (get_f64 b) (fun y => Ok (SFleb (SFabs (SFsub 53 1024 x y)) eps64))
    | KChar8, PChar x => bind (get_char b) (fun y => Ok (x =? y))
    | KString8, PStr x =>
        bind (get_str b) (fun y =>
          Ok match x, y with
             | None, None => true
             | Some s, Some t => list_eqb s t
             | _, _ => false
             end)
    | _, _ => UB
    end.

(** AnySimple.cpp:1101-1103, operator!=. *)
Definition any_ne (a b : any) : res any_exn bool :=
  match any_eq a b with Ok r => Ok (negb r) | x => x end.

(** A history of uses of one object. *)
Inductive any_op :=
| OSet (k : kind) (g : arg)
| OMoveString
| OMoveFrom                 (** it is the source of a move *)
| OSelfMove
| OAssign (b : any).        (** copied or moved from another object *)

Definition any_step (a : any) (o : any_op) : any :=
  match o with
  | OSet k g => fst (set_value a k g)
  | OMoveString => fst (move_string a)
  | OMoveFrom => snd (assign_move a a)
  | OSelfMove => assign_move_self a
  | OAssign b => assign_copy a b
  end.

Definition any_run (a : any) (l : list any_op) : any := fold_left any_step l a.
