(** What is expected of Xsmp::Array. *)
From Coq Require Import ZArith List Bool Floats.SpecFloat.
From Verif Require Import Base ArrayModel.
Import ListNotations.

(** [eq] and [lt] compare the values that satisfy [P] as an order does: equality is an
    equivalence, and of two values exactly one is less, or they are equal. *)
Record ordered {A} (P : A -> Prop) (eq lt : A -> A -> bool) : Prop := {
  o_refl : forall x, P x -> eq x x = true;
  o_sym : forall x y, P x -> P y -> eq x y = eq y x;
  o_trans : forall x y z, P x -> P y -> P z -> eq x y = true -> eq y z = true -> eq x z = true;
  o_lt_trans : forall x y z, P x -> P y -> P z -> lt x y = true -> lt y z = true -> lt x z = true;
  o_lt_l : forall x y z, P x -> P y -> P z -> eq x y = true -> lt x z = lt y z;
  o_lt_r : forall x y z, P x -> P y -> P z -> eq x y = true -> lt z x = lt z y;
  o_lt_eq : forall x y, P x -> P y -> lt x y = true -> eq x y = false;
  o_asym : forall x y, P x -> P y -> lt x y = true -> lt y x = false;
  o_total : forall x y, P x -> P y -> lt x y = true \/ eq x y = true \/ lt y x = true
}.

(** The values of type Array<A, n> with items that satisfy [P]. *)
Definition arr_of {A} (n : nat) (P : A -> Prop) (a : list A) : Prop := length a = n /\ Forall P a.

(** Item by item equality, and: equal items up to some position, where [a] has the
    lesser one. *)
Definition same_items {A} (eq : A -> A -> bool) (a b : list A) : Prop := Forall2 (fun x y => eq x y = true) a b.
Definition before {A} (eq lt : A -> A -> bool) (a b : list A) : Prop :=
  exists k x y, same_items eq (firstn k a) (firstn k b) /\
    nth_error a k = Some x /\ nth_error b k = Some y /\ lt x y = true.

(** The operators of integers (and characters, booleans as 0 and 1, Uuids by bytes...), and
    of floating point numbers. *)
Definition not_nan (f : spec_float) : Prop := f <> S754_nan.
