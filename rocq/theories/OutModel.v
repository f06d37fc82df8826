(** Texts of values on a stream: src/Smp/StreamOperators.cpp, and FormatString of
    include/Xsmp/Exception.h.  Characters are byte values.

    A stream is its format and what is written on it.  Simplified: of the format only
    the base of integers, boolalpha, the width and the fill character are kept, those the
    code changes or that change between its insertions; adjustment to the right,
    precision 6 and no other flag, as for every new stream; the stream is never in
    error. *)
From Verif Require Import Base Text UuidModel AnyModel CalModel.
From Coq Require Import ZArith List Bool Floats.SpecFloat.
Import ListNotations.
Local Open Scope Z_scope.

Inductive radix := Dec | Oct | Hex.
Record form := Form { base : radix; alpha : bool; width : nat; fill : Z }.

(** The format of a new std::ostringstream. *)
Definition plain : form := Form Dec false 0 32.

(** What an insertion writes, and the format it leaves; UB: undefined. *)
Definition out := form -> res Empty_set (list Z * form).
Definition andthen (a b : out) : out := fun f =>
  bind (a f) (fun x => bind (b (snd x)) (fun y => Ok (fst x ++ fst y, snd y))).
Infix ";;" := andthen (at level 61, right associativity).
Definition nothing : out := fun f => Ok ([], f).

(** std::dec, std::oct, std::hex; std::boolalpha, std::noboolalpha; std::setw;
    std::setfill. *)
Definition set_base (b : radix) : out := fun f => Ok ([], Form b (alpha f) (width f) (fill f)).
Definition set_alpha (a : bool) : out := fun f => Ok ([], Form (base f) a (width f) (fill f)).
Definition set_width (w : nat) : out := fun f => Ok ([], Form (base f) (alpha f) w (fill f)).
Definition set_fill (c : Z) : out := fun f => Ok ([], Form (base f) (alpha f) (width f) c).

(** A text, padded to the width, which is then 0. *)
Definition put (t : list Z) : out := fun f =>
  Ok (repeat (fill f) (width f - length t) ++ t, Form (base f) (alpha f) 0 (fill f)).

(** A C string; the null pointer is not allowed. *)
Definition put_str (s : option (list Z)) : out :=
  match s with Some t => put t | None => fun _ => UB end.

(** An integer of type [t]: in base 8 and 16 the value of the unsigned type. *)
Definition signed (v : Z) : list Z :=
  if v <? 0 then 45 :: numeral 10 (- v) else numeral 10 v.
Definition put_int (t : ity) (v : Z) : out := fun f =>
  put (match base f with
       | Dec => signed v
       | Oct => numeral 8 (cast (make_unsigned t) v)
       | Hex => numeral 16 (cast (make_unsigned t) v)
       end) f.

Definition put_bool (b : bool) : out := fun f =>
  if alpha f then put (codes (if b then "true" else "false")) f
  else put_int TI64 (if b then 1 else 0) f.

(** * Floating point values: "%g", six significant digits

    The value is num/den > 0.  [scale]: the exponent X for which it is between 10^X
    and 10^(X+1), and the fraction divided by 10^X. *)
Fixpoint scale (fuel : nat) (num den X : Z) : Z * Z * Z :=
  match fuel with
  | O => (num, den, X)
  | S n => if 10 * den <=? num then scale n num (10 * den) (X + 1)
           else if num <? den then scale n (10 * num) den (X - 1)
           else (num, den, X)
  end.

(** Division rounded to the nearest, to the even one of two. *)
Definition nearest (a b : Z) : Z :=
  let q := a / b in let r := a mod b in
  if 2 * r <? b then q
  else if b <? 2 * r then q + 1
  else if Z.even q then q else q + 1.

(** The six digits and the exponent of the first one. *)
Definition six_digits (num den : Z) : Z * Z :=
  let '(a, b, X) := scale 400 num den 0 in
  let d := nearest (100000 * a) b in
  if d =? 1000000 then (100000, X + 1) else (d, X).

(** Zeros at the end are not written. *)
Fixpoint trim (fuel : nat) (d : Z) (n : nat) : Z * nat :=
  match fuel with
  | O => (d, n)
  | S f => if (d mod 10 =? 0) && (1 <=? n)%nat then trim f (d / 10) (n - 1) else (d, n)
  end.

(** The number d * 10^(-n): the integral part, and the point and [n] digits
    when [n] is not 0. *)
Definition fixed (d : Z) (n : nat) : list Z :=
  numeral 10 (d / 10 ^ Z.of_nat n) ++
  match n with O => [] | _ => 46 :: zeros n (d mod 10 ^ Z.of_nat n) end.

Definition general (d X : Z) : list Z :=
  if (X <? -4) || (6 <=? X) then
    let (d', n) := trim 6 d 5 in
    fixed d' n ++ 101 :: (if X <? 0 then 45 else 43) :: zeros 2 (Z.abs X)
  else
    let (d', n) := trim 20 d (Z.to_nat (5 - X)) in fixed d' n.

(** Simplified: the sign of a NaN is not modelled. *)
Definition float_text (x : spec_float) : list Z :=
  match x with
  | S754_zero s => (if s then [45] else []) ++ [48]
  | S754_infinity s => (if s then [45] else []) ++ codes "inf"
  | S754_nan => codes "nan"
  | S754_finite s m e =>
      let (d, X) := six_digits (Z.pos m * 2 ^ Z.max e 0) (2 ^ Z.max (- e) 0) in
      (if s then [45] else []) ++ general d X
  end.
Definition put_float (x : spec_float) : out := put (float_text x).

(** Duration.cpp:68-71 and DateTime.cpp:73-76.  The library date saves and restores the
    format of the stream; it ignores the width. *)
Definition put_lib (r : res Empty_set (list Z)) : out := fun f =>
  bind r (fun t => Ok (t, Form (base f) (alpha f) 0 (fill f))).

(** * Values *)

(** StreamOperators.cpp:184-214.  [c]: a value of the type char, which is signed on the
    platforms considered. *)
Definition put_char8 (c : Z) : out :=
  if c =? 39 then put (codes "'\''")
  else if c =? 63 then put (codes "'\?'")
  else if c =? 92 then put (codes "'\\'")
  else if c =? 7 then put (codes "'\a'")
  else if c =? 8 then put (codes "'\b'")
  else if c =? 12 then put (codes "'\f'")
  else if c =? 10 then put (codes "'\n'")
  else if c =? 13 then put (codes "'\r'")
  else if c =? 9 then put (codes "'\t'")
  else if c =? 11 then put (codes "'\v'")
  else if (32 <=? c) && (c <=? 126) then put (codes "'") ;; put [c] ;; put (codes "'")
  else put (codes "'\") ;; set_base Oct ;; put_int TU32 (cast TU32 c) ;; set_base Dec ;; put (codes "'").

(** StreamOperators.cpp:179-247.  A content that is not one of the kind is not
    reachable; neither is a kind that is not one of the enumeration (lines 244-246). *)
Definition put_any (a : any) : out :=
  match atype a, aval a with
  | KNone, _ => put (codes "None")
  | KChar8, PChar c => put_char8 c
  | KBool, PBool b => set_alpha true ;; put_bool b ;; set_alpha false
  | KI8, PInt v => put_int TI32 v ;; put (codes "i8")
  | KU8, PInt v => put_int TU32 v ;; put (codes "u8")
  | KI16, PInt v => put_int TI16 v ;; put (codes "i16")
  | KU16, PInt v => put_int TU16 v ;; put (codes "u16")
  | KI32, PInt v => put_int TI32 v ;; put (codes "i32")
  | KU32, PInt v => put_int TU32 v ;; put (codes "u32")
  | KI64, PInt v => put_int TI64 v ;; put (codes "i64")
  | KU64, PInt v => put_int TU64 v ;; put (codes "u64")
  | KF32, PFloat x => put_float x ;; put (codes "f32")
  | KF64, PFloat x => put_float x ;; put (codes "f64")
  | KDuration, PInt v => put [34] ;; put_lib (duration_text v) ;; put [34]
  | KDateTime, PInt v => put [34] ;; put_lib (date_text v) ;; put [34]
  | KString8, PStr s => put [34] ;; put_str s ;; put [34]
  | _, _ => fun _ => UB
  end.

(** * Enumerations

    StreamOperators.cpp:33-177.  The numbers of the literals are those of the ECSS
    headers (outside /repo). *)
Inductive enum := EDirection | ETime | EComponent | ESimulator | EView | EAccess | EPrimitive.
Definition literals (e : enum) : list (Z * list Z) :=
  match e with
  | EDirection => [(0, codes "In"); (1, codes "Out"); (2, codes "InOut"); (3, codes "Return")]
  | ETime => [(0, codes "SimulationTime"); (1, codes "MissionTime"); (2, codes "EpochTime"); (3, codes "ZuluTime")]
  | EComponent => [(0, codes "Created"); (1, codes "Publishing"); (2, codes "Configured"); (3, codes "Connected");
                   (4, codes "Disconnected")]
  | ESimulator => [(0, codes "Building"); (1, codes "Connecting"); (2, codes "Initialising"); (3, codes "Standby");
                   (4, codes "Executing"); (5, codes "Storing"); (6, codes "Restoring"); (7, codes "Reconnecting");
                   (8, codes "Exiting"); (9, codes "Aborting")]
  | EView => [(0, codes "None"); (1, codes "Debug"); (2, codes "Expert"); (3, codes "All")]
  | EAccess => [(1, codes "ReadOnly"); (0, codes "ReadWrite"); (2, codes "WriteOnly")]
  | EPrimitive => [(0, codes "None"); (1, codes "Char8"); (2, codes "Bool"); (3, codes "Int8"); (4, codes "UInt8");
                   (5, codes "Int16"); (6, codes "UInt16"); (7, codes "Int32"); (8, codes "UInt32"); (9, codes "Int64");
                   (10, codes "UInt64"); (11, codes "Float32"); (12, codes "Float64"); (13, codes "Duration");
                   (14, codes "DateTime"); (15, codes "String8")]
  end.
Definition enum_name (e : enum) : list Z :=
  match e with
  | EDirection => codes "::Smp::Publication::ParameterDirectionKind"
  | ETime => codes "::Smp::Services::TimeKind"
  | EComponent => codes "::Smp::ComponentStateKind"
  | ESimulator => codes "::Smp::SimulatorStateKind"
  | EView => codes "::Smp::ViewKind"
  | EAccess => codes "::Smp::AccessKind"
  | EPrimitive => codes "::Smp::PrimitiveTypeKind"
  end.
Definition put_enum (e : enum) (v : Z) : out :=
  match find (fun x => fst x =? v) (literals e) with
  | Some x => put (snd x)
  | None => put (codes "Unknown " ++ enum_name e ++ codes "(") ;; put_int TI32 v ;; put (codes ")")
  end.

(** StreamOperators.cpp:249-266. *)
Definition put_uuid (u : uuid) : out :=
  let d2 i := nth i (data2 u) 0 in
  set_base Hex ;; set_width 8 ;; set_fill 48 ;; put_int TU32 (data1 u) ;;
  put (codes "-") ;; set_width 4 ;; put_int TU16 (d2 0%nat) ;;
  put (codes "-") ;; set_width 4 ;; put_int TU16 (d2 1%nat) ;;
  put (codes "-") ;; set_width 4 ;; put_int TU16 (d2 2%nat) ;;
  put (codes "-") ;;
  fold_right (fun x k => set_width 2 ;; put_int TU16 x ;; k) nothing (data3 u) ;;
  set_fill 32 ;; set_base Dec.

(** * Messages

    Exception.h:58-62, FormatString: the arguments are inserted one after the other on a
    new stream.  The kinds of arguments the messages of Exception.cpp have; the path of
    an object (Exception.cpp:1364-1366) is a text. *)
Inductive item :=
| IText (t : list Z)
| IInt (t : ity) (v : Z)
| IAny (a : any)
| IEnum (e : enum) (v : Z)
| IUuid (u : uuid)
| IDuration (d : Z).
Definition put_item (i : item) : out :=
  match i with
  | IText t => put t
  | IInt t v => put_int t v
  | IAny a => put_any a
  | IEnum e v => put_enum e v
  | IUuid u => put_uuid u
  | IDuration d => put_lib (duration_text d)
  end.
Definition format_string (l : list item) : res Empty_set (list Z) :=
  bind (fold_right (fun i k => put_item i ;; k) nothing l plain) (fun x => Ok (fst x)).
