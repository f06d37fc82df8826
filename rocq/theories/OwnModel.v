(** Model of include/Xsmp/String.h where StringModel.v simplifies: arguments that
    designate characters of the object itself; and of concatenation and streams.

    Simplifications: a piece of the object is given as by substr, or is the whole
    object; streams have no width, no error state before the call, and the classic
    locale. *)
From Coq Require Import ZArith List Bool.
From Verif Require Import Base StringModel.
Import ListNotations.
Local Open Scope nat_scope.

(** String.h:181-185 substr: the offset and the length of the view. *)
Definition part (b : list Z) (p n : nat) : sres (nat * nat) :=
  bind (strlen b) (fun cur => if cur <? p then Throw OutOfRange else Ok (p, Nat.min n (cur - p))).

(** One step of std::copy inside the array. *)
Definition move_one (b : list Z) (from to : nat) : sres (list Z) :=
  match nth_error b from with Some c => put b to [c] | None => UB end.
(** std::copy(data + from, data + from + n, data + to): the first character first;
    undefined when the destination begins inside the source. *)
Fixpoint move_each (b : list Z) (from to n : nat) : sres (list Z) :=
  match n with
  | O => Ok b
  | S n => bind (move_one b from to) (fun b => move_each b (S from) (S to) n)
  end.
Definition std_copy (b : list Z) (from to n : nat) : sres (list Z) :=
  if (from <=? to) && (to <? from + n) then UB else move_each b from to n.

(** std::char_traits<char>::copy(data, data + from, n), which is memcpy: undefined when
    the source begins inside the destination. *)
Definition traits_copy (b : list Z) (from n : nat) : sres (list Z) :=
  if from <? n then UB
  else if length b <? from + n then UB else put b 0 (firstn n (skipn from b)).

(** String.h:320-325 assign(string_view) with the view (p, n) of the object itself;
    326-329 assign(const char*, size_t). *)
Definition assign_own (N : nat) (b : list Z) (p n : nat) : sres (list Z) :=
  let len := Nat.min n N in
  bind (traits_copy b p len) (fun b => put b len [0%Z]).

(** String.h:338-345 append(const char*, size_t) with the view (p, n) of the object
    itself; 334-336 append(string_view). *)
Definition append_own (N : nat) (b : list Z) (p n : nat) : sres (list Z) :=
  bind (strlen b) (fun cur =>
  if N <? cur then UB else
  let to_copy := Nat.min n (N - cur) in
  bind (put b (cur + to_copy) [0%Z]) (fun b => std_copy b p cur to_copy)).

Inductive oop :=
| OPlain (o : sop)               (* as in StringModel.v *)
| OSetPart (u : list Z) (p n : nat)    (* s = s.substr(p, n); [u]: what the temporary object contains at first *)
| OAssignPart (p n : nat)        (* s.assign(s.substr(p, n)) *)
| OAppendPart (p n : nat)        (* s.append(s.substr(p, n)), s += s.substr(p, n) *)
| OAssignSelf                    (* s.assign(s) *)
| OAppendSelf.                   (* s.append(s), s += s *)

Definition oexec (N : nat) (b : list Z) (o : oop) : sres (list Z) :=
  match o with
  | OPlain o => sexec N b o
  | OSetPart u p n =>
      (* String.h:54, then the implicit assignment, which copies the array *)
      bind (part b p n) (fun v => assign N u (firstn (snd v) (skipn (fst v) b)))
  | OAssignPart p n => bind (part b p n) (fun v => assign_own N b (fst v) (snd v))
  | OAppendPart p n => bind (part b p n) (fun v => append_own N b (fst v) (snd v))
  | OAssignSelf => assign_own N b 0 N          (* String.h:317-319 *)
  | OAppendSelf => bind (strlen b) (fun cur => append_own N b 0 cur)   (* String.h:331-333 *)
  end.

(** A call that throws leaves the object as it was. *)
Fixpoint oexec_all (N : nat) (b : list Z) (os : list oop) : sres (list Z) :=
  match os with
  | [] => Ok b
  | o :: r =>
      match oexec N b o with
      | Ok b' => oexec_all N b' r
      | Throw _ => oexec_all N b r
      | UB => UB
      end
  end.

(** String.h:510-533 operator+ with a string, a view or a character on either side; the
    results are std::string. *)
Definition c_str (b : list Z) : sres (list Z) := bind (strlen b) (fun n => Ok (firstn n b)).
Definition plus_strings (a b : list Z) : sres (list Z) := bind (c_str a) (fun s => bind (c_str b) (fun t => Ok (s ++ t))).
Definition plus_view_string (v b : list Z) : sres (list Z) := bind (c_str b) (fun t => Ok (v ++ t)).
Definition plus_string_view (a v : list Z) : sres (list Z) := bind (c_str a) (fun s => Ok (s ++ v)).
Definition plus_char_string (c : Z) (b : list Z) : sres (list Z) := bind (c_str b) (fun t => Ok ([c] ++ t)).
Definition plus_string_char (a : list Z) (c : Z) : sres (list Z) := bind (c_str a) (fun s => Ok (s ++ [c])).

(** std::isspace *)
Definition is_blank (c : Z) : bool := ((c =? 32) || ((9 <=? c) && (c <=? 13)))%Z.
(** operator>>(std::istream&, std::string&) *)
Fixpoint skip_blanks (l : list Z) : list Z :=
  match l with c :: r => if is_blank c then skip_blanks r else l | [] => [] end.
Fixpoint take_word (l : list Z) : list Z :=
  match l with c :: r => if is_blank c then [] else c :: take_word r | [] => [] end.
Fixpoint drop_word (l : list Z) : list Z :=
  match l with c :: r => if is_blank c then l else drop_word r | [] => [] end.

(** String.h:498-501 operator<<, 502-508 operator>>: the object, what remains in the
    stream, and whether the stream is still good.  [u]: what the temporary object
    contains at first. *)
Definition write (b : list Z) : sres (list Z) := c_str b.
Definition read (N : nat) (u input : list Z) : sres (list Z * list Z * bool) :=
  let l := skip_blanks input in
  let w := take_word l in
  bind (construct N u w) (fun b => Ok (b, drop_word l, negb (length w =? 0))).
