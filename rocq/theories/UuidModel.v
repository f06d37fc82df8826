(** Model of src/Smp/Uuid.cpp and of the UUID printer of
    src/Smp/StreamOperators.cpp.  Characters are byte values; a C string is the
    list of its characters without the terminating NUL. *)
From Verif Require Import Base.

(** Uuid.h: Data1 (32 bits), Data2 (3 x 16 bits), Data3 (6 x 8 bits). *)
Record uuid := Uuid { data1 : Z; data2 : list Z; data3 : list Z }.

(** Reading value[k]: the characters, then the NUL; beyond it, undefined behaviour. *)
Definition peek (s : list Z) (k : nat) : option Z :=
  if (k <? length s)%nat then Some (nth k s 0) else if (k =? length s)%nat then Some 0 else None.

(** Uuid.cpp:27-29 isHexaDigit: isxdigit in the "C" locale. *)
Definition is_hexa (c : Z) : bool :=
  ((48 <=? c) && (c <=? 57)) || ((65 <=? c) && (c <=? 70)) || ((97 <=? c) && (c <=? 102)).

(** The tests of Uuid.cpp:34-49, in their order. *)
Inductive ctest := Hexa | Char (c : Z).
Definition uuid_format : list ctest :=
  repeat Hexa 8 ++ Char 45 :: repeat Hexa 4 ++ Char 45 :: repeat Hexa 4 ++ Char 45 :: repeat Hexa 4 ++
  Char 45 :: repeat Hexa 12 ++ [Char 0].

Definition test_char (t : ctest) (c : Z) : bool :=
  match t with Hexa => is_hexa c | Char d => c =? d end.

(** The || chain stops at the first failing test.  [None]: read past the NUL. *)
Fixpoint check_format (fmt : list ctest) (k : nat) (s : list Z) : option bool :=
  match fmt with
  | [] => Some true
  | t :: r =>
      match peek s k with
      | None => None
      | Some c => if test_char t c then check_format r (S k) s else Some false
      end
  end.

Definition hexa_value (c : Z) : Z :=
  if c <=? 57 then c - 48 else if c <=? 70 then c - 55 else c - 87.

(** std::strtoul(p, nullptr, 16) and strtoull on a text that starts with a
    hexadecimal digit: the value of the longest run of digits, saturated at 2^64-1.
    (Blanks, signs and the 0x prefix cannot occur there: the format was checked.) *)
Fixpoint strtou_acc (a : Z) (s : list Z) : Z :=
  match s with
  | c :: r => if is_hexa c then strtou_acc (a * 16 + hexa_value c) r else a
  | [] => a
  end.
Definition strtou (s : list Z) : Z := Z.min (strtou_acc 0 s) (2 ^ 64 - 1).

(** Uuid.cpp:31-77 from (and 80, the constructor); [Throw tt] is the exception InvalidUUID.  [None] for
    [value] is the null pointer. *)
Definition from (value : option (list Z)) : res unit uuid :=
  match value with
  | None => Throw tt
  | Some s =>
      match check_format uuid_format 0 s with
      | None => UB
      | Some false => Throw tt
      | Some true =>
          let d3 := strtou (skipn 24 s) in
          Ok (Uuid (strtou s mod 2 ^ 32)
                [strtou (skipn 9 s) mod 2 ^ 16; strtou (skipn 14 s) mod 2 ^ 16; strtou (skipn 19 s) mod 2 ^ 16]
                (map (fun sh => Z.land (Z.shiftr d3 sh) 255) [40; 32; 24; 16; 8; 0]))
      end
  end.

(** std::array's comparison: lexicographic. *)
Fixpoint lex_lt (a b : list Z) : bool :=
  match a, b with
  | x :: a, y :: b => if x <? y then true else if y <? x then false else lex_lt a b
  | [], _ :: _ => true
  | _, _ => false
  end.

Fixpoint list_eqb (a b : list Z) : bool :=
  match a, b with
  | [], [] => true
  | x :: a, y :: b => (x =? y) && list_eqb a b
  | _, _ => false
  end.

(** Uuid.cpp:82-103 operator<. *)
Definition uuid_lt (a b : uuid) : bool :=
  if data1 a <? data1 b then true
  else if data1 b <? data1 a then false
  else if lex_lt (data2 a) (data2 b) then true
  else if lex_lt (data2 b) (data2 a) then false
  else lex_lt (data3 a) (data3 b).

(** Uuid.cpp:105-107 operator==, 109-111 operator!=. *)
Definition uuid_eq (a b : uuid) : bool :=
  (data1 a =? data1 b) && list_eqb (data2 a) (data2 b) && list_eqb (data3 a) (data3 b).
Definition uuid_ne (a b : uuid) : bool :=
  negb (data1 a =? data1 b) || negb (list_eqb (data2 a) (data2 b)) || negb (list_eqb (data3 a) (data3 b)).

(** Uuid.cpp:114-129 std::hash. *)
Definition uuid_hash (u : uuid) : Z :=
  let d2 i := nth i (data2 u) 0 in
  let d3 i := nth i (data3 u) 0 in
  let left := Z.lor (Z.lor (Z.shiftl (data1 u) 32) (Z.shiftl (d2 0%nat) 16)) (d2 1%nat) in
  let right := Z.lor (Z.lor (Z.lor (Z.lor (Z.lor (Z.lor (Z.shiftl (d2 2%nat) 48) (Z.shiftl (d3 0%nat) 40))
                 (Z.shiftl (d3 1%nat) 32)) (Z.shiftl (d3 2%nat) 24)) (Z.shiftl (d3 3%nat) 16))
                 (Z.shiftl (d3 4%nat) 8)) (d3 5%nat) in
  Z.lxor left right.

(** Output of a number by operator<< in the state std::hex, without showbase and
    uppercase: lower case digits, no leading zeros. *)
Definition hexa_char (d : Z) : Z := if d <? 10 then 48 + d else 87 + d.

Fixpoint hex_digits (fuel : nat) (n : Z) (acc : list Z) : list Z :=
  match fuel with
  | O => acc
  | S f => if n <? 16 then hexa_char n :: acc
           else hex_digits f (n / 16) (hexa_char (n mod 16) :: acc)
  end.
Definition hex_text (n : Z) : list Z := hex_digits 16 n [].

(** std::setw(w) with std::setfill('0'), right adjusted. *)
Definition padded (w : nat) (n : Z) : list Z :=
  let t := hex_text n in repeat 48 (w - length t) ++ t.

(** StreamOperators.cpp:250-266. *)
Definition print (u : uuid) : list Z :=
  let d2 i := nth i (data2 u) 0 in
  padded 8 (data1 u) ++ 45 :: padded 4 (d2 0%nat) ++ 45 :: padded 4 (d2 1%nat) ++ 45 :: padded 4 (d2 2%nat)
  ++ 45 :: concat (map (padded 2) (data3 u)).
