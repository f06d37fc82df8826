(** Model of the arithmetic operators of typed fields of an integer type:
    include/Xsmp/Field.h, SimpleField and SimpleArrayField::protected_reference. *)
From Coq Require Import ZArith List Bool Floats.SpecFloat.
From Verif Require Import Base AnyModel FlowModel.
Import ListNotations.

(** The binary operators of C++ used by the compound assignments. *)
Inductive bop := OAdd | OSub | OMul | ODiv | ORem | OAnd | OOr | OXor | OShl | OShr.

(** Integral promotion ([conv.prom]) and the usual arithmetic conversions
    ([expr.arith.conv]); int has 32 bits, and Int64 and UInt64 are 64 bit types of
    one rank. *)
Definition promote (t : ity) : ity :=
  match t with TU8 | TU16 | TI8 | TI16 => TI32 | t => t end.
Definition wider (a b : ity) : ity := if (bits a <? bits b)%Z then b else a.
Definition common (t u : ity) : ity :=
  let a := promote t in
  let b := promote u in
  if Bool.eqb (is_signed a) (is_signed b) then wider a b
  else
    let s := if is_signed a then a else b in
    let n := if is_signed a then b else a in
    if (bits s <=? bits n)%Z then n else s.

(** The result of an operation of type [c] ([expr.pre]): undefined when it does not
    fit a signed type, reduced in an unsigned one ([basic.fundamental]). *)
Definition result (c : ity) (z : Z) : res fexn Z :=
  if is_signed c then if (tmin c <=? z) && (z <=? tmax c) then Ok z else UB
  else Ok (cast c z).

(** x << y ([expr.shift] of C++17, CMakeLists.txt:277): the type is the promoted type
    of the left operand; x >> y of a negative number is arithmetic
    (implementation-defined before C++20). *)
Definition shift_left (c : ity) (x y : Z) : res fexn Z :=
  if (0 <=? y) && (y <? bits c) then
    if is_signed c then
      if (0 <=? x) && (x * 2 ^ y <=? tmax (make_unsigned c)) then Ok (cast c (x * 2 ^ y)) else UB
    else Ok (cast c (x * 2 ^ y))
  else UB.
Definition shift_right (c : ity) (x y : Z) : res fexn Z :=
  if (0 <=? y) && (y <? bits c) then Ok (Z.shiftr x y) else UB.

(** [x op y] for x of type [t] and y of type [u] ([expr.mul], [expr.add],
    [expr.shift], [expr.bit.and], [expr.xor], [expr.or]). *)
Definition binary (o : bop) (t u : ity) (x y : Z) : res fexn Z :=
  let c := common t u in
  let a := cast c x in
  let b := cast c y in
  match o with
  | OAdd => result c (a + b)
  | OSub => result c (a - b)
  | OMul => result c (a * b)
  | ODiv => if (b =? 0)%Z then UB else result c (Z.quot a b)
  | ORem => if (b =? 0)%Z then UB else bind (result c (Z.quot a b)) (fun _ => Ok (Z.rem a b))
  | OAnd => Ok (Z.land a b)
  | OOr => Ok (Z.lor a b)
  | OXor => Ok (Z.lxor a b)
  | OShl => shift_left (promote t) (cast (promote t) x) y
  | OShr => shift_right (promote t) (cast (promote t) x) y
  end.

(** SetValue(_value op _i): the argument is converted to [const T &]. *)
Definition compute (o : bop) (t u : ity) (x y : Z) : res fexn Z :=
  bind (binary o t u x y) (fun r => Ok (cast t r)).

(** Field.h:482-513, the compound assignments of a simple field with an operand [y]
    of type [u], and ++ and -- (482-483), which add and subtract the int 1.  The new
    value is computed before SetValue looks whether the field is forced. *)
Definition compound (n : nat) (w : world) (i : nat) (o : bop) (u : ity) (y : Z) : out :=
  match lc (leafs w i), lval (leafs w i) with
  | CInt t, PInt x =>
      match compute o t u x y with
      | Ok r => assign n w i (PInt r)
      | Throw e => (w, Throw e)
      | UB => (w, UB)
      end
  | _, _ => (w, UB)
  end.
Definition increment (n : nat) (w : world) (i : nat) : out := compound n w i OAdd TI32 1.
Definition decrement (n : nat) (w : world) (i : nat) : out := compound n w i OSub TI32 1.

(** Field.h:846-887, the same on an item of a connectable array (protected_reference);
    the items of other arrays are plain variables of C++ (901-903), for which
    [x op= y] is [x = x op y]. *)
Definition item_compound (w : world) (i k : nat) (o : bop) (u : ity) (y : Z) : out :=
  match ac (arrs w i), nth_error (avals (arrs w i)) k with
  | CInt t, Some (PInt x) =>
      match compute o t u x y with
      | Ok r => arr_assign w i k (PInt r)
      | Throw e => (w, Throw e)
      | UB => (w, UB)
      end
  | _, _ => (w, UB)
  end.

(** The operators on Float32 and Float64 ([expr.mul], [expr.add]; IEEE 754, no excess
    precision): bits operations, shifts and remainders do not compile. *)
Inductive fop2 := FAdd | FSub | FMul | FDiv.
Definition fbinary (prec emax : Z) (o : fop2) (x y : spec_float) : spec_float :=
  match o with
  | FAdd => SFadd prec emax x y
  | FSub => SFsub prec emax x y
  | FMul => SFmul prec emax x y
  | FDiv => SFdiv prec emax x y
  end.

(** The operand, of an integer type or a float type, brought to the common type
    ([expr.arith.conv]): Float64 when one of the two has that type. *)
Inductive operand := NInt (y : Z) | NF32 (y : spec_float) | NF64 (y : spec_float).
Definition fcompute (c : cty) (o : fop2) (x : spec_float) (y : operand) : option spec_float :=
  match c, y with
  | CF64, NInt z => Some (fbinary 53 1024 o x (f64_of_int z))
  | CF64, NF32 g => Some (fbinary 53 1024 o x (f64_of_f32 g))
  | CF64, NF64 g => Some (fbinary 53 1024 o x g)
  | CF32, NInt z => Some (fbinary 24 128 o x (f32_of_int z))
  | CF32, NF32 g => Some (fbinary 24 128 o x g)
  | CF32, NF64 g => Some (f32_of_f64 (fbinary 53 1024 o (f64_of_f32 x) g))
  | _, _ => None
  end.

(** Field.h:482-513 for a field of a float type. *)
Definition fcompound (n : nat) (w : world) (i : nat) (o : fop2) (y : operand) : out :=
  match lval (leafs w i) with
  | PFloat x =>
      match fcompute (lc (leafs w i)) o x y with
      | Some r => assign n w i (PFloat r)
      | None => (w, UB)
      end
  | _ => (w, UB)
  end.
