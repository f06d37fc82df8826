(** Ownership and contents, as seen by a user. *)
From Coq Require Import ZArith List Bool Arith.
From Verif Require Import Base AnyHeapModel.

Inductive owner := ByObject (i : nat) | ByCaller.

Definition owns (s : hs) (w : owner) (p : ptr) : Prop :=
  match w with
  | ByObject i => objs s i = Some (OStr (Some p))
  | ByCaller => held s p = true
  end.

(** Every allocated string has exactly one owner, and every owner's string is
    allocated. *)
Definition owned_once (s : hs) : Prop :=
  forall p, heap s p <> None <-> exists w, owns s w p /\ forall w', owns s w' p -> w' = w.

(** The value of an object: bits, or a string or the null string. *)
Inductive value := VBits (z : Z) | VStr (c : option (list Z)).

Definition value_of (s : hs) (i : nat) : option value :=
  match objs s i with
  | Some (OVal z) => Some (VBits z)
  | Some (OStr None) => Some (VStr None)
  | Some (OStr (Some p)) => option_map (fun c => VStr (Some c)) (heap s p)
  | _ => None
  end.

(** The uses the guarantee covers: a string read from an object is not passed
    back to the same object, and copy assignment finds memory. *)
Definition fine (o : h_op) : Prop :=
  match o with
  | HSetStr i (SOf j) _ => i <> j
  | HCopy _ _ fail => fail = false
  | _ => True
  end.

(** The objects an operation is about. *)
Definition targets (o : h_op) (k : nat) : Prop :=
  match o with
  | HNew i _ | HCopyNew i _ _ | HCopy i _ _ | HSetVal i _ _ | HSetStr i _ _
  | HMoveString i | HDestroy i => k = i
  | HMoveNew i j | HMove i j => k = i \/ k = j
  | HFree _ => False
  end.
