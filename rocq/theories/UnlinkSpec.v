(** What removing the links to a target means. *)
From Coq Require Import List.
From Verif Require Import Base FlowModel UnlinkModel.
Import ListNotations.

(** [l'] is [l] without the elements of which [P] holds. *)
Inductive pruned {A} (P : A -> Prop) : list A -> list A -> Prop :=
| pr_nil : pruned P [] []
| pr_drop : forall j l l', P j -> pruned P l l' -> pruned P (j :: l) l'
| pr_keep : forall j l l', ~ P j -> pruned P l l' -> pruned P (j :: l) (j :: l').

(** The same, but what follows a removed element is not looked at. *)
Inductive skipping {A} (P : A -> Prop) : list A -> list A -> Prop :=
| sk_nil : skipping P [] []
| sk_last : forall j, P j -> skipping P [j] []
| sk_skip : forall j k l l', P j -> skipping P l l' -> skipping P (j :: k :: l) (k :: l')
| sk_keep : forall j l l', ~ P j -> skipping P l l' -> skipping P (j :: l) (j :: l').

(** No two neighbours of the list satisfy [P]. *)
Definition apart {A} (P : A -> Prop) (l : list A) : Prop :=
  forall a j k b, l = a ++ j :: k :: b -> ~ (P j /\ P k).

(** The links of all fields to anything that does not satisfy [P] are the same in [w']
    as in [w], in the same order, and there is no new link. *)
Definition only_loses {A} (P : A -> Prop) (l l' : list A) : Prop :=
  (exists m, pruned P l m /\ pruned P l' m) /\ forall j, In j l' -> In j l.
Definition others_kept (P : nat -> Prop) (w w' : world) : Prop :=
  (forall i, only_loses P (ltargets (leafs w i)) (ltargets (leafs w' i))) /\
  (forall i, only_loses P (atargets (arrs w i)) (atargets (arrs w' i))) /\
  (forall i, only_loses P (nconn w i) (nconn w' i)).

(** The fields on which links can be made: a typed output field of the component, or one
    below fields that are not outputs themselves. *)
Inductive outermost (w : world) : tree -> tree -> Prop :=
| om_self : forall s, extension w s = true -> outermost w s s
| om_arr : forall i a b l x s, In x l -> outermost w x s -> outermost w (TArr i false a b l) s
| om_str : forall i a b l x s, In x l -> outermost w x s -> outermost w (TStr i false a b l) s.

(** The two fields are of the same sort. *)
Definition same_sort (s t : tree) : Prop :=
  match s, t with
  | TSimple _, TSimple _ | TSArr _, TSArr _ | TArr _ _ _ _ _, TArr _ _ _ _ _ | TStr _ _ _ _ _, TStr _ _ _ _ _ => True
  | _, _ => False
  end.

(** The sub-fields and items of a field have it as parent. *)
Inductive parented (parent : obj -> option obj) : tree -> Prop :=
| pt_simple : forall i, parented parent (TSimple i)
| pt_sarr : forall i, parented parent (TSArr i)
| pt_arr : forall i df a b l,
    (forall x, In x l -> parent (OField (tid x)) = Some (OField i) /\ parented parent x) ->
    parented parent (TArr i df a b l)
| pt_str : forall i df a b l,
    (forall x, In x l -> parent (OField (tid x)) = Some (OField i) /\ parented parent x) ->
    parented parent (TStr i df a b l).
