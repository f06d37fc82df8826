(** What the collection, container and reference properties talk about. *)
From Verif Require Import Base CollModel.

(** A list without its first element equal to x. *)
Fixpoint without (x : Z) (l : list Z) : list Z :=
  match l with [] => [] | y :: r => if y =? x then r else y :: without x r end.

(** The elements added and not removed, in order of addition, from what the calls
    returned. *)
Definition coll_effect (l : list Z) (e : collop * collres) : list Z :=
  match e with
  | (CoAdd x, CoDone) => l ++ [x]
  | (CoRemove x, CoBool true) => without x l
  | (CoClear, _) => []
  | _ => l
  end.
Definition added (tr : list (collop * collres)) : list Z := fold_left coll_effect tr [].

(** [e] is the element of that name in l. *)
Definition the_named (nm : Z -> list Z) (n : list Z) (l : list Z) (r : option Z) : Prop :=
  match r with
  | Some e => In e l /\ nm e = n /\ forall e', In e' l -> nm e' = n -> e' = e
  | None => forall e', In e' l -> nm e' <> n
  end.

(** The first element of that name. *)
Definition first_named (nm : Z -> list Z) (n : list Z) (l : list Z) (r : option Z) : Prop :=
  match r with
  | Some e => exists a b, l = a ++ e :: b /\ nm e = n /\ forall e', In e' a -> nm e' <> n
  | None => forall e', In e' l -> nm e' <> n
  end.

(** The i-th element. *)
Definition the_index (i : nat) (l : list Z) (r : option Z) : Prop :=
  match r with
  | Some e => exists a b, l = a ++ e :: b /\ length a = i
  | None => (length l <= i)%nat
  end.

Definition cont_effect (k : nat) (l : list Z) (e : contop * contres) : list Z :=
  match e with
  | (KAdd k' c _ _, KDone) => if (k' =? k)%nat then l ++ [c] else l
  | (KDelete k' c _, KDone) => if (k' =? k)%nat then without c l else l
  | _ => l
  end.
(** The components added to the container k and not deleted, in order of addition. *)
Definition contained (k : nat) (tr : list (contop * contres)) : list Z := fold_left (cont_effect k) tr [].

(** The components of all containers. *)
Definition all_comps (s : compo) : list Z := concat (map comps (conts s)).

Definition ref_effect (l : list Z) (e : refop * refres) : list Z :=
  match e with
  | (FAdd c, FDone) => l ++ [c]
  | (FRemove c, FDone) => without c l
  | (FUnlink c, _) => filter (fun x => negb (x =? c)) l
  | _ => l
  end.
(** The components of the reference, from what the calls returned. *)
Definition referenced (tr : list (refop * refres)) : list Z := fold_left ref_effect tr [].
