(** What a program sees of its cstring objects. *)
From Coq Require Import ZArith List Bool Arith.
From Verif Require Import Base CstrModel.
Import ListNotations.
Local Open Scope nat_scope.

(** The characters before the first NUL. *)
Fixpoint before_nul (l : list Z) : list Z :=
  match l with [] => [] | c :: r => if (c =? 0)%Z then [] else c :: before_nul r end.

(** The objects alive with the text they should hold; None once moved from. *)
Definition texts := nat -> option (option (list Z)).
Definition no_texts : texts := fun _ => None.
Definition put (a : texts) (i : nat) (t : option (option (list Z))) : texts := fun x => if x =? i then t else a x.

Definition told (a : texts) (v : csrc) : option (list Z) :=
  match v with
  | SNull => None
  | SExt b => if existsb (Z.eqb 0) b then Some (before_nul b) else None
  | SOf j => match a j with Some (Some t) => Some t | _ => None end
  end.

Definition expected (a : texts) (o : cop) : texts :=
  match o with
  | CFrom i v fail => if fail then a else put a i (Some (told a v))
  | CFromSize i b n fail => if fail then a else put a i (Some (Some (before_nul (firstn n b))))
  | CCopyNew i j fail => if fail then a else put a i (a j)
  | CMoveNew i j => put (put a i (a j)) j (Some None)
  | CAssign i j _ => put a i (a j)
  | CMove i j => put (put a i (a j)) j (Some None)
  | CSet i v _ => put a i (Some (told a v))
  | CDestroy i => put a i None
  end.

(** The programs that use the class with care: objects are created before they are used,
    no text is taken from null, from a buffer without NUL or from an object that was moved
    from, an object is not given its own c_str(), and the allocations of assignments
    succeed. *)
Definition careful (a : texts) (o : cop) : Prop :=
  match o with
  | CFrom i v _ => a i = None /\ told a v <> None
  | CFromSize i b n _ => a i = None /\ n <= length b
  | CCopyNew i j _ => a i = None /\ told a (SOf j) <> None
  | CMoveNew i j => a i = None /\ a j <> None
  | CAssign i j fail => a i <> None /\ told a (SOf j) <> None /\ fail = false
  | CMove i j => a i <> None /\ a j <> None
  | CSet i v fail => a i <> None /\ told a v <> None /\ v <> SOf i /\ fail = false
  | CDestroy i => a i <> None
  end.

Fixpoint careful_program (a : texts) (ops : list cop) : Prop :=
  match ops with [] => True | o :: r => careful a o /\ careful_program (expected a o) r end.

Definition outcome (a : texts) (ops : list cop) : texts := fold_left expected ops a.
