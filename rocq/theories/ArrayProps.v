(** C100: Xsmp::Array. *)
From Coq Require Import ZArith List Bool Lia Floats.SpecFloat.
From Verif Require Import Base ArrayModel ArraySpec ArrayProofs.
Import ListNotations.
Local Open Scope nat_scope.

(** Access: [at] gives the item or throws, and exactly when the index is not below the size;
    operator[] gives the same items and is undefined elsewhere; front and back are the first
    and the last item, and the reverse iterators give the items in reverse. *)
Theorem C100_access : forall (A : Type) (a : list A),
  (forall k, (forall x, nth_error a k = Some x -> at_ a k = Ok x /\ index a k = Ok x) /\
             (length a <= k -> at_ a k = Throw OutOfRange /\ index a k = UB)) /\
  (forall x r, a = x :: r -> front a = Ok x) /\
  (forall x r, a = r ++ [x] -> back a = Ok x) /\
  (a = [] -> front a = UB /\ back a = UB) /\
  reversed a = Ok (rev a).
Proof.
  intros A a. split; [|split; [|split; [|split]]].
  - intros k. split.
    + intros x E. unfold at_, index. rewrite E.
      assert (L : k < length a) by (apply nth_error_Some; congruence).
      now rewrite (proj2 (Nat.leb_gt _ _) L).
    + intros L. unfold at_, index. rewrite (proj2 (Nat.leb_le _ _) L). now rewrite (proj2 (nth_error_None _ _) L).
  - intros x r ->. reflexivity.
  - intros x r ->. unfold back. rewrite app_length, Nat.add_1_r. unfold index. now rewrite nth_mid.
  - intros ->. split; reflexivity.
  - unfold reversed. apply (backwards_ok a a []). now rewrite app_nil_r.
Qed.

(** Assigning an item changes that item only. *)
Theorem C100_assign : forall (A : Type) (a : list A) k x,
  (k < length a -> exists b, at_set a k x = Ok b /\ index_set a k x = Ok b /\ length b = length a /\
     nth_error b k = Some x /\ forall j, j <> k -> nth_error b j = nth_error a j) /\
  (length a <= k -> at_set a k x = Throw OutOfRange /\ index_set a k x = UB).
Proof.
  intros A a k x. unfold at_set, index_set. split; intros L.
  - rewrite (proj2 (Nat.leb_gt _ _) L), (proj2 (Nat.ltb_lt _ _) L). exists (put k x a).
    repeat split; auto using put_length, put_at, put_other.
  - now rewrite (proj2 (Nat.leb_le _ _) L), (proj2 (Nat.ltb_ge _ _) L).
Qed.

(** fill gives all items the value; swap exchanges the contents of two arrays of the same
    type, touches no other array, and changes nothing when they are the same array. *)
Theorem C100_fill_swap : forall (A : Type),
  (forall (a : list A) v, fill a v = repeat v (length a)) /\
  (forall (m : nat -> list A) i j, i <> j -> length (m i) = length (m j) ->
     exists m', swap m i j = Ok m' /\ m' i = m j /\ m' j = m i /\ forall k, k <> i -> k <> j -> m' k = m k) /\
  (forall (m : nat -> list A) i, exists m', swap m i i = Ok m' /\ forall k, m' k = m k).
Proof.
  intros A. split; [|split].
  - intros a v. apply fill_n_all.
  - intros m i j N L. exact (swap_from_ok i j N (m i) (m j) m [] [] eq_refl L eq_refl eq_refl).
  - intros m i. apply (swap_self_ok i (length (m i)) 0 m). lia.
Qed.

(** When the operators of the items are those of an order, each of the six operators of
    arrays of one type says what it should: == equality of all items, < the lexicographic
    order, and the others follow; and the arrays are ordered in turn, so that this holds of
    arrays of arrays to any depth. *)
Theorem C100_compare : forall (A : Type) (P : A -> Prop) eq lt n a b,
  ordered P eq lt -> arr_of n P a -> arr_of n P b ->
  (arr_eq eq a b = true <-> same_items eq a b) /\
  (arr_ne eq a b = true <-> ~ same_items eq a b) /\
  (arr_lt lt a b = true <-> before eq lt a b) /\
  (arr_gt lt a b = true <-> before eq lt b a) /\
  (arr_le lt a b = true <-> before eq lt a b \/ same_items eq a b) /\
  (arr_ge lt a b = true <-> before eq lt b a \/ same_items eq a b) /\
  ordered (arr_of n P) (arr_eq eq) (arr_lt lt).
Proof.
  intros A P eq lt n a b O [La Fa] [Lb Fb].
  assert (L : length a = length b) by congruence. assert (L' : length b = length a) by congruence.
  pose proof (arr_eq_same eq a b L) as E. pose proof (arr_lt_before P eq lt O a b L Fa Fb) as B1.
  pose proof (arr_lt_before P eq lt O b a L' Fb Fa) as B2.
  pose proof (arr_ordered P eq lt O n) as OO.
  assert (Pa : arr_of n P a) by now split. assert (Pb : arr_of n P b) by now split.
  pose proof (o_total _ _ _ OO a b Pa Pb) as T.
  pose proof (o_lt_eq _ _ _ OO a b Pa Pb) as N1. pose proof (o_lt_eq _ _ _ OO b a Pb Pa) as N2.
  pose proof (o_asym _ _ _ OO a b Pa Pb) as N3. pose proof (o_asym _ _ _ OO b a Pb Pa) as N4.
  pose proof (o_sym _ _ _ OO a b Pa Pb) as SY.
  unfold arr_ne, arr_gt, arr_le, arr_ge, arr_gt. rewrite <- E, <- B1, <- B2.
  destruct (arr_eq eq a b), (arr_lt lt a b), (arr_lt lt b a); cbn;
    repeat match goal with H : true = true -> _ |- _ => specialize (H eq_refl) end;
    intuition congruence.
Qed.

(** Integers are ordered, and so are floating point numbers when none is NaN. *)
Theorem C100_items : (forall P, ordered P Z.eqb Z.ltb) /\ ordered not_nan SFeqb SFltb.
Proof. split; [exact Z_ordered|exact float_ordered]. Qed.

(** With NaN among the items the operators disagree: an array may be <= and >= another
    without being == to it, and is != itself. *)
Theorem C100_nan_refuted : ~ forall n (a b : list spec_float), length a = n -> length b = n ->
  arr_le SFltb a b = true -> arr_lt SFltb a b = true \/ arr_eq SFeqb a b = true.
Proof.
  intros H. destruct (H 1 [S754_nan] [S754_nan] eq_refl eq_refl eq_refl) as [E|E]; discriminate E.
Qed.

(** The lexicographic order itself breaks: a NaN is passed over as if it were equal to
    everything, so that < of arrays is not transitive. *)
Theorem C100_nan_order_refuted : ~ forall n (a b c : list spec_float), length a = n -> length b = n -> length c = n ->
  arr_lt SFltb a b = true -> arr_lt SFltb b c = true -> arr_lt SFltb a c = true.
Proof.
  intros H.
  pose (one := S754_finite false 1 0). pose (two := S754_finite false 2 0). pose (three := S754_finite false 3 0).
  specialize (H 2 [two; one] [S754_nan; two] [one; three] eq_refl eq_refl eq_refl eq_refl eq_refl). discriminate H.
Qed.

Example C100_access_example : at_ [10; 20; 30] 2 = Ok 30 /\ at_ [10; 20; 30] 3 = Throw OutOfRange /\
  back [10; 20; 30] = Ok 30 /\ reversed [10; 20; 30] = Ok [30; 20; 10].
Proof. repeat split. Qed.
Example C100_assign_example : at_set [10; 20; 30] 1 7 = Ok [10; 7; 30].
Proof. reflexivity. Qed.
Example C100_fill_swap_example : fill [1; 2] 5 = [5; 5] /\
  match swap (fun i => match i with 0 => [1; 2] | _ => [3; 4] end) 0 1 with
  | Ok m => m 0 = [3; 4] /\ m 1 = [1; 2] /\ m 2 = [3; 4] | _ => False end.
Proof. repeat split. Qed.
(** Arrays of arrays of integers. *)
Example C100_compare_example :
  let P := arr_of 2 (fun _ : Z => True) in
  arr_of 2 P [[1; 2]; [3; 4]]%Z /\ arr_of 2 P [[1; 2]; [3; 5]]%Z /\
  ordered P (arr_eq Z.eqb) (arr_lt Z.ltb) /\
  arr_lt (arr_lt Z.ltb) [[1; 2]; [3; 4]]%Z [[1; 2]; [3; 5]]%Z = true.
Proof.
  split; [|split; [|split]].
  - repeat constructor.
  - repeat constructor.
  - apply arr_ordered, C100_items.
  - reflexivity.
Qed.

Print Assumptions C100_compare.
Print Assumptions C100_items.
Print Assumptions C100_fill_swap.
