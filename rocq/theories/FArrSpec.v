(** What is expected of simple fields and simple array fields. *)
From Coq Require Import ZArith List Bool.
From Verif Require Import Base UuidModel AnyModel AnySpec HelperModel FlowModel FlowSpec FArrModel.
Import ListNotations.

(** Every field has the kind of its type and holds a value of it. *)
Definition typed (w : world) : Prop :=
  (forall i, kind_of (lc (leafs w i)) (lk (leafs w i)) /\ value_of (lc (leafs w i)) (lval (leafs w i))) /\
  (forall i, kind_of (ac (arrs w i)) (ak (arrs w i)) /\ Forall (value_of (ac (arrs w i))) (avals (arrs w i))).

(** The arguments of a call are what the compiler lets through: values of the type of the
    field, and objects of type AnySimple. *)
Definition well_called (w : world) (o : fop) : Prop :=
  match o with
  | WSetAny _ a | WForce _ a | WArrSet _ _ a => any_ok a
  | WAssign i v | WRestore i v _ => value_of (lc (leafs w i)) v
  | WArrAssign i _ v => value_of (ac (arrs w i)) v
  | WArrSetValues _ vs => Forall any_ok vs
  | _ => True
  end.

(** The item that a value of its kind gives: strings are cut to the room there is. *)
Definition item_of (c : cty) (a : any) : payload :=
  match c, aval a with
  | CStr n, PStr (Some l) => PStr (Some (firstn n l))
  | CStr n, _ => PStr (Some [])
  | _, p => p
  end.

(** The values before the first one of another kind. *)
Fixpoint leading (k : kind) (vs : list any) : nat :=
  match vs with a :: r => if kind_eqb (atype a) k then S (leading k r) else O | [] => O end.

(** Nothing but the items of array [i] differs. *)
Definition only_items (w w' : world) (i : nat) : Prop :=
  leafs w' = leafs w /\ nconn w' = nconn w /\ (forall j, j <> i -> arrs w' j = arrs w j) /\
  arrs w' i = with_vals (arrs w i) (avals (arrs w' i)).

(** Any type but strings. *)
Definition plain (c : cty) : Prop := forall n, c <> CStr n.
