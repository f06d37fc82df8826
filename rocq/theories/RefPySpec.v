(** What property C107 talks about: references as lists of components. *)
From Coq Require Import ZArith List Bool.
From Verif Require Import Base CollModel RefPyModel.
Import ListNotations.
Local Open Scope Z_scope.

(** One component can be added (removed) as far as the bounds are concerned; a negative
    upper bound is none, and with a negative lower bound nothing is ever removed. *)
Definition room (up : Z) (l : list Z) : Prop := 0 <= up -> Z.of_nat (length l) < up.
Definition spare (lo : Z) (l : list Z) : Prop := 0 <= lo < Z.of_nat (length l).

(** The content after a statement and what the statement says. *)
Inductive does (nm : Z -> list Z) (typ : Z -> bool) (lo up : Z) : list Z -> rstmt -> list Z -> rres -> Prop :=
| d_add : forall l c, room up l -> typ c = true -> does nm typ lo up l (RAdd c) (l ++ [c]) RDone
| d_full : forall l c, ~ room up l -> does nm typ lo up l (RAdd c) l (RSmp FReferenceFull)
| d_type : forall l c, room up l -> typ c = false -> does nm typ lo up l (RAdd c) l (RSmp FInvalidObjectType)
| d_sub : forall a c b, spare lo (a ++ c :: b) -> ~ In c a -> does nm typ lo up (a ++ c :: b) (RSub c) (a ++ b) RDone
| d_sub_not : forall l c, ~ In c l -> does nm typ lo up l (RSub c) l (RSmp FNotReferenced)
| d_sub_lower : forall l c, In c l -> ~ spare lo l -> does nm typ lo up l (RSub c) l (RSmp FCannotRemove)
| d_at : forall a c b, spare lo (a ++ c :: b) -> does nm typ lo up (a ++ c :: b) (RDelAt (Z.of_nat (length a))) (a ++ b) RDone
| d_at_lower : forall l i, 0 <= i < Z.of_nat (length l) -> ~ spare lo l -> does nm typ lo up l (RDelAt i) l (RSmp FCannotRemove)
| d_at_out : forall l i, - 2 ^ 63 <= i < 2 ^ 63 -> i < 0 \/ Z.of_nat (length l) <= i -> does nm typ lo up l (RDelAt i) l RIndexError
| d_at_type : forall l i, ~ - 2 ^ 63 <= i < 2 ^ 63 -> does nm typ lo up l (RDelAt i) l RTypeError
| d_name : forall a c b, spare lo (a ++ c :: b) -> (forall x, In x a -> nm x <> nm c) ->
    does nm typ lo up (a ++ c :: b) (RDelName (nm c)) (a ++ b) RDone
| d_name_not : forall l n, (forall x, In x l -> nm x <> n) -> does nm typ lo up l (RDelName n) l RKeyError
| d_name_lower : forall l c, In c l -> ~ spare lo l -> does nm typ lo up l (RDelName (nm c)) l (RSmp FCannotRemove).

Inductive all_do (nm : Z -> list Z) (typ : Z -> bool) (lo up : Z) : list Z -> list rstmt -> list Z -> list rres -> Prop :=
| a_nil : forall l, all_do nm typ lo up l [] l []
| a_cons : forall l s l1 r ss l2 rs, does nm typ lo up l s l1 r -> all_do nm typ lo up l1 ss l2 rs ->
    all_do nm typ lo up l (s :: ss) l2 (r :: rs).

(** A reference as the library makes it: components of its type, fewer than 2^63. *)
Definition typed (typ : Z -> bool) (l : list Z) : Prop := forall c, In c l -> typ c = true.
Definition countable (l : list Z) (ss : list rstmt) : Prop := Z.of_nat (length l) + Z.of_nat (length ss) < 2 ^ 63.

(** No statement adds a component that is there: the additions are of distinct components
    that are not in [l]. *)
Definition adds (ss : list rstmt) : list Z := flat_map (fun s => match s with RAdd c => [c] | _ => [] end) ss.
