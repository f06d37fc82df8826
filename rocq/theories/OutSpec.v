(** What is meant by the texts of values. *)
From Verif Require Import Base Text AnyModel AnySpec CalSpec.
From Coq Require Import String ZArith List Bool QArith Qabs Floats.SpecFloat.
Import ListNotations.
Local Open Scope Z_scope.

(** [integer t v]: [t] is the number [v] in decimal, without needless zeros. *)
Definition integer (t : list Z) (v : Z) : Prop :=
  exists ds, t = (if v <? 0 then [45] else []) ++ ds /\ ds <> [] /\ Forall is_digit ds /\
    decimal_of ds = Z.abs v /\ (hd 0 ds = 48 -> ds = [48]).

(** The end of the text of a number, by which its type is known. *)
Definition suffix (k : kind) : list Z :=
  match k with
  | KI8 => codes "i8" | KU8 => codes "u8" | KI16 => codes "i16" | KU16 => codes "u16"
  | KI32 => codes "i32" | KU32 => codes "u32" | KI64 => codes "i64" | KU64 => codes "u64"
  | KF32 => codes "f32" | KF64 => codes "f64"
  | _ => []
  end.
Definition is_integer_kind (k : kind) : Prop :=
  match k with KI8 | KU8 | KI16 | KU16 | KI32 | KU32 | KI64 | KU64 => True | _ => False end.

(** A character literal of C whose value is [c]. *)
Definition octal_digit (x : Z) : Prop := 48 <= x <= 55.
Definition octal_of (l : list Z) : Z := fold_left (fun a x => 8 * a + (x - 48)) l 0.
Inductive escape : Z -> list Z -> Prop :=
| esc_single : escape 39 [39]
| esc_double : escape 34 [34]
| esc_question : escape 63 [63]
| esc_backslash : escape 92 [92]
| esc_a : escape 7 (codes "a")
| esc_b : escape 8 (codes "b")
| esc_f : escape 12 (codes "f")
| esc_n : escape 10 (codes "n")
| esc_r : escape 13 (codes "r")
| esc_t : escape 9 (codes "t")
| esc_v : escape 11 (codes "v")
| esc_octal l : (1 <= length l <= 3)%nat -> Forall octal_digit l -> escape (octal_of l) l.
Definition char_literal (t : list Z) (c : Z) : Prop :=
  exists e, t = [39] ++ e ++ [39] /\
    ((e = [c] /\ 32 <= c <= 126 /\ c <> 39 /\ c <> 92) \/ exists x, e = 92 :: x /\ escape c x).

(** The content of an AnySimple that C++ allows: [any_ok], and the characters are those
    of a signed char. *)
Definition value_ok (a : any) : Prop :=
  any_ok a /\ forall c, aval a = PChar c -> -128 <= c <= 127.

(** Kinds whose text is between double quotes. *)
Definition quoted (k : kind) : Prop := k = KDuration \/ k = KDateTime \/ k = KString8.
Definition is_float (k : kind) : Prop := k = KF32 \/ k = KF64.

(** Decimal fractions: n * 10^k, as a rational number. *)
Definition ten (k : Z) : Q := Qpower (inject_Z 10) k.
Definition dec (n k : Z) : Q := (inject_Z n * ten k)%Q.

(** The magnitude of a finite floating point value: m * 2^e. *)
Definition magnitude (m : positive) (e : Z) : Q := (inject_Z (Z.pos m) * Qpower (inject_Z 2) e)%Q.

(** [reads t n x w]: [t] is a decimal number, optionally with a point and [w] more digits,
    the last of which is not 0, optionally with an exponent [x]; without point and
    exponent its digits are [n]. *)
Definition exponent (t : list Z) (x : option Z) : Prop :=
  match x with
  | None => t = []
  | Some x => exists ds, t = 101 :: (if x <? 0 then 45 else 43) :: ds /\ Forall is_digit ds /\
                (2 <= length ds)%nat /\ decimal_of ds = Z.abs x
  end.
Definition reads (t : list Z) (n : Z) (x : option Z) (w : nat) : Prop :=
  exists ip fp e, t = ip ++ (match fp with [] => [] | _ => 46 :: fp end) ++ e /\
    ip <> [] /\ Forall is_digit ip /\ Forall is_digit fp /\ length fp = w /\
    decimal_of (ip ++ fp) = n /\ (fp <> [] -> last fp 0 <> 48) /\
    (hd 0 ip = 48 -> ip = [48]) /\ exponent e x /\ (x <> None -> length ip = 1%nat).
Definition the_exponent (x : option Z) : Z := match x with Some x => x | None => 0 end.

(** The names of the literals of the enumerations of the standard, in the order of their
    values 0, 1, 2, ... *)
Definition names_of_direction := map codes ["In"; "Out"; "InOut"; "Return"]%string.
Definition names_of_time := map codes ["SimulationTime"; "MissionTime"; "EpochTime"; "ZuluTime"]%string.
Definition names_of_component := map codes ["Created"; "Publishing"; "Configured"; "Connected"; "Disconnected"]%string.
Definition names_of_simulator := map codes
  ["Building"; "Connecting"; "Initialising"; "Standby"; "Executing"; "Storing"; "Restoring"; "Reconnecting";
   "Exiting"; "Aborting"]%string.
Definition names_of_view := map codes ["None"; "Debug"; "Expert"; "All"]%string.
Definition names_of_access := map codes ["ReadWrite"; "ReadOnly"; "WriteOnly"]%string.
Definition names_of_primitive := map codes
  ["None"; "Char8"; "Bool"; "Int8"; "UInt8"; "Int16"; "UInt16"; "Int32"; "UInt32"; "Int64"; "UInt64"; "Float32";
   "Float64"; "Duration"; "DateTime"; "String8"]%string.
