(** What may be stored, and when a restored value is the same as the stored one. *)
From Coq Require Import ZArith List Bool Arith Sorting.Permutation.
From Verif Require Import Base PersistModel.
Import ListNotations.
Local Open Scope Z_scope.

(** A strict order, as std::set requires. *)
Definition strict (lt : val -> val -> bool) : Prop :=
  (forall a, lt a a = false) /\
  (forall a b c, lt a b = true -> lt b c = true -> lt a c = true).

(** [pairwise R l]: R holds between any two elements, the earlier one first. *)
Inductive pairwise {A} (R : A -> A -> Prop) : list A -> Prop :=
| pw_nil : pairwise R []
| pw_cons : forall x l, Forall (R x) l -> pairwise R l -> pairwise R (x :: l).

Definition small {A} (l : list A) : Prop := Z.of_nat (length l) < 2 ^ 64.

(** No unordered container: a restored value is the stored one, not only one
    with the same elements. *)
Fixpoint plain (t : ty) : Prop :=
  match t with
  | TUSet _ _ _ | TUMap _ _ _ _ => False
  | TArray _ t | TVector t | TSet _ t | TAtomic t => plain t
  | TMap _ a b | TPair a b => plain a /\ plain b
  | _ => True
  end.

(** [wt t v]: [v] is a value of type [t], where characters are bytes. *)
Fixpoint wt (mem : Z) (t : ty) (v : val) {struct t} : Prop :=
  match t, v with
  | TInt n, VInt z => 0 <= z < 256 ^ Z.of_nat n
  | TBool, VInt z => z = 0 \/ z = 1
  | TStr w, VStr l => w = 1%nat /\ Forall (fun z => 0 <= z < 256) l /\ small l /\
                      Z.of_nat (length l) <= mem
  | TArray n t, VSeq l => length l = n /\ Forall (wt mem t) l
  | TVector t, VSeq l => small l /\ Forall (wt mem t) l
  | TSet lt t, VSeq l =>
      small l /\ Forall (wt mem t) l /\ plain t /\ strict lt /\ pairwise (fun a b => lt a b = true) l
  | TMap lt k t, VSeq l =>
      small l /\ Forall (fun e => match e with VPair a b => wt mem k a /\ wt mem t b | _ => False end) l
      /\ plain k /\ strict lt /\ pairwise (fun a b => lt (first a) (first b) = true) l
  | TUSet eqk order t, VSeq l =>
      small l /\ Forall (wt mem t) l /\ plain t /\ (forall l, Permutation (order l) l) /\
      pairwise (fun a b => eqk a b = false) l
  | TUMap eqk order k t, VSeq l =>
      small l /\ Forall (fun e => match e with VPair a b => wt mem k a /\ wt mem t b | _ => False end) l
      /\ plain k /\ (forall l, Permutation (order l) l) /\
      pairwise (fun a b => eqk (first a) (first b) = false) l
  | TPair a b, VPair x y => wt mem a x /\ wt mem b y
  | TAtomic t, v => wt mem t v
  | TRef path resolve, VObj o =>
      Forall (fun z => 0 <= z < 256) (path o) /\ small (path o) /\
      Z.of_nat (length (path o)) <= mem /\ resolve (path o) = o
  | _, _ => False
  end.

(** [same t v w]: equal, up to the order of the elements of unordered containers. *)
Fixpoint same (t : ty) (v w : val) {struct t} : Prop :=
  match t, v, w with
  | TArray _ t, VSeq l, VSeq m | TVector t, VSeq l, VSeq m => Forall2 (same t) l m
  | TMap _ k t, VSeq l, VSeq m =>
      Forall2 (fun e f => match e, f with VPair a b, VPair c d => same k a c /\ same t b d
                                        | _, _ => False end) l m
  | TUSet _ _ t, VSeq l, VSeq m => Permutation l m
  | TUMap _ _ k t, VSeq l, VSeq m =>
      exists m', Permutation m' m /\
      Forall2 (fun e f => match e, f with VPair a b, VPair c d => same k a c /\ same t b d
                                        | _, _ => False end) l m'
  | TPair a b, VPair x y, VPair x' y' => same a x x' /\ same b y y'
  | TAtomic t, v, w => same t v w
  | _, v, w => v = w
  end.
