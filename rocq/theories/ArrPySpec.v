(** What property C108 talks about. *)
From Coq Require Import ZArith List Bool.
From Verif Require Import Base UuidModel PathModel AnyModel AnySpec FlowModel FlowSpec FArrModel FArrSpec PyModel PySpec.
Import ListNotations.
Local Open Scope Z_scope.

(** The array [i] has [n] items, a number that Int64 has. *)
Definition has_size (w : world) (i : nat) (n : Z) : Prop := Z.of_nat (length (avals (arrs w i))) = n /\ n < 2 ^ 63.

(** [p] is the Python value of [v], which is a value of the type of the items. *)
Definition item_value (w : world) (i : nat) (v : payload) (p : pyval) : Prop :=
  let a := Any (ak (arrs w i)) v in
  value_of (ac (arrs w i)) v /\ showable a /\ to_py a = Ok p.

(** The items of the array, as Python shows them. *)
Definition shown (w : world) (i : nat) (ps : list pyval) : Prop := Forall2 (item_value w i) (avals (arrs w i)) ps.
