(** Xsmp::Array: include/Xsmp/Array.h.  The item type [A] is any type; its operators
    [==] and [<] are parameters, so that items may be floating point numbers or arrays. *)
From Coq Require Import ZArith List Bool Floats.SpecFloat.
From Verif Require Import Base.
Import ListNotations.
Local Open Scope nat_scope.

(** std::out_of_range *)
Inductive aexn := OutOfRange.

Section Items.
  Context {A : Type}.
  Variable eqi lti : A -> A -> bool.

  (** Array.h:82-85, fill: std::fill_n(begin(), size(), value), a loop over the items. *)
  Fixpoint fill_n (l : list A) (n : nat) (v : A) : list A :=
    match n, l with
    | S n, _ :: r => v :: fill_n r n v
    | _, l => l
    end.
  Definition fill (a : list A) (v : A) : list A := fill_n a (length a) v.

  (** Array.h:89-94, swap: std::swap_ranges(begin(), end(), other.begin()): the items from
      [k] on of the two arrays are exchanged one by one. *)
  Fixpoint put (k : nat) (x : A) (l : list A) : list A :=
    match l, k with
    | [], _ => []
    | _ :: r, O => x :: r
    | y :: r, S k => y :: put k x r
    end.
  (** Two arrays in memory, or one array twice: [mem] gives the contents of each object. *)
  Definition store := nat -> list A.
  Definition write (m : store) (i : nat) (l : list A) : store := fun j => if Nat.eqb j i then l else m j.
  Fixpoint swap_from (n k : nat) (m : store) (i j : nat) : res aexn store :=
    match n with
    | O => Ok m
    | S n =>
        match nth_error (m i) k, nth_error (m j) k with
        | Some x, Some y =>
            let m1 := write m i (put k y (m i)) in
            let m2 := write m1 j (put k x (m1 j)) in
            swap_from n (S k) m2 i j
        | _, _ => UB
        end
    end.
  Definition swap (m : store) (i j : nat) : res aexn store := swap_from (length (m i)) 0 m i j.

  (** Array.h:198-211, operator[]; 252-262 front; 268-278 back: no check; Nm - 1 of an
      empty array is the largest index.  Simplified: an index out of range is undefined;
      arrays without items call std::abort instead (41-48). *)
  Definition index (a : list A) (k : nat) : res aexn A :=
    match nth_error a k with Some x => Ok x | None => UB end.
  Definition front (a : list A) : res aexn A := index a 0.
  Definition back (a : list A) : res aexn A :=
    match length a with O => UB | S n => index a n end.
  (** Array.h:220-227 and 237-247, at *)
  Definition at_ (a : list A) (k : nat) : res aexn A :=
    if length a <=? k then Throw OutOfRange else index a k.
  (** Assignment through the reference that operator[] gives, or at gives. *)
  Definition index_set (a : list A) (k : nat) (x : A) : res aexn (list A) :=
    if k <? length a then Ok (put k x a) else UB.
  Definition at_set (a : list A) (k : nat) (x : A) : res aexn (list A) :=
    if length a <=? k then Throw OutOfRange else index_set a k x.

  (** Array.h:120-173, the items from rbegin() to rend(): a reverse iterator gives the item
      before the position it holds. *)
  Fixpoint backwards (a : list A) (pos : nat) : res aexn (list A) :=
    match pos with
    | O => Ok []
    | S p => bind (index a p) (fun x => bind (backwards a p) (fun r => Ok (x :: r)))
    end.
  Definition reversed (a : list A) : res aexn (list A) := backwards a (length a).

  (** Array.h:305-308, ==: std::equal(lhs.begin(), lhs.end(), rhs.begin()) *)
  Fixpoint arr_eq (a b : list A) : bool :=
    match a, b with
    | [], _ => true
    | x :: r, y :: s => if eqi x y then arr_eq r s else false
    | _ :: _, [] => false
    end.
  (** Array.h:315-318, != *)
  Definition arr_ne (a b : list A) : bool := negb (arr_eq a b).
  (** Array.h:325-329, <: std::lexicographical_compare *)
  Fixpoint arr_lt (a b : list A) : bool :=
    match a, b with
    | x :: r, y :: s => if lti x y then true else if lti y x then false else arr_lt r s
    | [], _ :: _ => true
    | _, [] => false
    end.
  (** Array.h:336-339, 349-352, 363-366: >, <=, >= *)
  Definition arr_gt (a b : list A) : bool := arr_lt b a.
  Definition arr_le (a b : list A) : bool := negb (arr_gt a b).
  Definition arr_ge (a b : list A) : bool := negb (arr_lt a b).
End Items.
