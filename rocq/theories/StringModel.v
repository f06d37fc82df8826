(** Model of include/Xsmp/String.h: Xsmp::String<Nm>.  The object is its character
    array internalString, a list of [Nm + 1] byte values.  Reads and writes are
    checked: outside the array they are undefined behaviour ([UB]).

    Simplifications: a std::string_view or const char* argument is the list of the
    characters it designates and does not point into the object itself (see
    OwnModel.v for those that do). *)
From Verif Require Import Base.

(** Exceptions: std::out_of_range. *)
Inductive serr := OutOfRange.
Definition sres := res serr.

(** traits_type::length: index of the first NUL, [UB] when the array has none. *)
Fixpoint strlen (b : list Z) : sres nat :=
  match b with
  | [] => UB
  | c :: r => if c =? 0 then Ok 0%nat else bind (strlen r) (fun n => Ok (S n))
  end.

(** Copy of [v] into the array at [pos]. *)
Definition put (b : list Z) (pos : nat) (v : list Z) : sres (list Z) :=
  if (pos + length v <=? length b)%nat
  then Ok (firstn pos b ++ v ++ skipn (pos + length v) b) else UB.

(** String.h:320-325 assign(string_view). *)
Definition assign (N : nat) (b v : list Z) : sres (list Z) :=
  let len := Nat.min (length v) N in
  bind (put b 0 (firstn len v)) (fun b => put b len [0]).

(** String.h:317-319 assign(const String<S>&): the S first bytes of the array,
    whatever follows its NUL. *)
Definition assign_string (N S : nat) (b other : list Z) : sres (list Z) :=
  if (S <=? length other)%nat then assign N b (firstn S other) else UB.

(** String.h:338-345 append(str, length), 334-336 append(string_view). *)
Definition append (N : nat) (b v : list Z) : sres (list Z) :=
  bind (strlen b) (fun cur =>
  if (N <? cur)%nat then UB else
  let to_copy := Nat.min (length v) (N - cur) in
  bind (put b (cur + to_copy) [0]) (fun b => put b cur (firstn to_copy v))).

(** String.h:331-333 append(const String<S>&): through c_str(). *)
Definition append_string (N : nat) (b other : list Z) : sres (list Z) :=
  bind (strlen other) (fun l => append N b (firstn l other)).

(** String.h:355 push_back. *)
Definition push_back (N : nat) (b : list Z) (c : Z) : sres (list Z) := append N b [c].

(** String.h:177-180 remove_suffix, 356 pop_back. *)
Definition remove_suffix (b : list Z) (n : nat) : sres (list Z) :=
  bind (strlen b) (fun cur => put b (if (cur <? n)%nat then 0%nat else (cur - n)%nat) [0]).
Definition pop_back (b : list Z) : sres (list Z) := remove_suffix b 1.

(** String.h:169-175 remove_prefix: std::copy of the range [n, length) to the front;
    with n > length the range is not valid. *)
Definition remove_prefix (b : list Z) (n : nat) : sres (list Z) :=
  bind (strlen b) (fun cur =>
  if (cur <? n)%nat then UB
  else bind (put b 0 (skipn n (firstn cur b))) (fun b => put b (cur - n) [0])).

(** String.h:315 clear. *)
Definition clear (b : list Z) : sres (list Z) := put b 0 [0].

(** String.h:127-134 at(pos), followed by an assignment through the reference. *)
Definition set_at (b : list Z) (pos : nat) (c : Z) : sres (list Z) :=
  bind (strlen b) (fun cur => if (cur <=? pos)%nat then Throw OutOfRange else put b pos [c]).

(** String.h:135-142 at(pos) const. *)
Definition get_at (b : list Z) (pos : nat) : sres Z :=
  bind (strlen b) (fun cur => if (cur <=? pos)%nat then Throw OutOfRange else Ok (nth pos b 0)).

Inductive sop :=
| SAssign (v : list Z)
| SAssignString (cap : nat) (other : list Z)
| SAppend (v : list Z)
| SAppendString (other : list Z)
| SPush (c : Z)
| SPop
| SRemovePrefix (n : nat)
| SRemoveSuffix (n : nat)
| SClear
| SSetAt (pos : nat) (c : Z).

Definition sexec (N : nat) (b : list Z) (o : sop) : sres (list Z) :=
  match o with
  | SAssign v => assign N b v
  | SAssignString cap other => assign_string N cap b other
  | SAppend v => append N b v
  | SAppendString other => append_string N b other
  | SPush c => push_back N b c
  | SPop => pop_back b
  | SRemovePrefix n => remove_prefix b n
  | SRemoveSuffix n => remove_suffix b n
  | SClear => clear b
  | SSetAt pos c => set_at b pos c
  end.

(** A call that throws leaves the object as it was. *)
Fixpoint sexec_all (N : nat) (b : list Z) (os : list sop) : sres (list Z) :=
  match os with
  | [] => Ok b
  | o :: r =>
      match sexec N b o with
      | Ok b' => sexec_all N b' r
      | Throw _ => sexec_all N b r
      | UB => UB
      end
  end.

(** String.h:51-59 the constructors: assign on an array of unknown bytes; 49: the
    default constructor. *)
Definition construct (N : nat) (unknown v : list Z) : sres (list Z) := assign N unknown v.
Definition default_string (N : nat) : list Z := repeat 0 (S N).

(** traits_type::compare: the sign of the first difference; bytes as unsigned. *)
Fixpoint memcmp (a b : list Z) (n : nat) : Z :=
  match n, a, b with
  | O, _, _ => 0
  | S n, x :: a, y :: b => if x <? y then -1 else if y <? x then 1 else memcmp a b n
  | _, _, _ => 0
  end.

(** String.h:474-490, the private compare on two ranges. *)
Definition i32_max : Z := 2 ^ 31 - 1.
Definition i32_min : Z := - 2 ^ 31.
Definition compare_ranges (a b : list Z) : Z :=
  let r := memcmp a b (Nat.min (length a) (length b)) in
  if r =? 0 then
    let diff := Z.of_nat (length a) - Z.of_nat (length b) in
    if i32_max <? diff then i32_max else if diff <? i32_min then i32_min else diff
  else r.

(** String.h:362-365 compare(const String<T>&), 366-368 compare(string_view). *)
Definition compare_string (b other : list Z) : sres Z :=
  bind (strlen b) (fun la => bind (strlen other) (fun lb =>
  Ok (compare_ranges (firstn la b) (firstn lb other)))).
Definition compare_view (b v : list Z) : sres Z :=
  bind (strlen b) (fun la => Ok (compare_ranges (firstn la b) v)).

(** String.h:374-471 the comparison operators. *)
Inductive cmp_op := OEq | ONe | OLt | OGt | OLe | OGe.
Definition of_sign (o : cmp_op) (r : Z) : bool :=
  match o with
  | OEq => r =? 0 | ONe => negb (r =? 0) | OLt => r <? 0 | OGt => 0 <? r | OLe => r <=? 0 | OGe => 0 <=? r
  end.
Definition string_op (o : cmp_op) (b other : list Z) : sres bool :=
  bind (compare_string b other) (fun r => Ok (of_sign o r)).
