(** What property C106 talks about. *)
From Coq Require Import ZArith List Bool.
From Verif Require Import Base UuidModel PathModel AnyModel AnySpec PyModel AttrModel.
Import ListNotations.
Local Open Scope Z_scope.

(** An element that holds integers of the type [t]: a simple field or a property. *)
Definition number (w : world) (c : loc) (t : ity) : Prop :=
  (exists k, w_kind w c = Some k /\ kind_type k = Some t /\ atype (w_val w c) = k) /\
  any_ok (w_val w c) /\
  exists n cs, node_at (w_tree w) c = Some (Node KSimple n cs) \/ node_at (w_tree w) c = Some (Node (KLeaf Property) n cs).
Definition field (w : world) (c : loc) : Prop := exists n cs, node_at (w_tree w) c = Some (Node KSimple n cs).
Definition property (w : world) (c : loc) : Prop := exists n cs, node_at (w_tree w) c = Some (Node (KLeaf Property) n cs).

(** [z] may be written to the element: in the range of its type, a literal when it is a
    field of an enumeration type, and no property that is read only. *)
Definition takes (w : world) (c : loc) (t : ity) (z : Z) : Prop :=
  of_type t z /\ (field w c -> w_kind w c = Some KI32 -> w_literal w c z = true) /\
  (property w c -> w_access w c <> ReadOnly).

(** The two worlds differ at most in the value of the element [c]. *)
Definition only (c : loc) (w w' : world) : Prop :=
  w_tree w' = w_tree w /\ w_kind w' = w_kind w /\ w_access w' = w_access w /\ w_literal w' = w_literal w /\
  forall x, x <> c -> w_val w' x = w_val w x.

(** The integer an element has. *)
Definition is (w : world) (c : loc) (z : Z) : Prop := aval (w_val w c) = PInt z.

(** The integer an expression means: elements stand for their integers.  Elements are read
    by attribute or index, but not by attribute when a method has their name. *)
Inductive means (w : world) (m : loc -> list (list Z)) (v : loc -> Z) : expr -> Z -> Prop :=
| m_num : forall z, means w m v (Num z) z
| m_elem : forall item o name c t, resolve (w_tree w) o name = Some c -> number w c t ->
    item = true \/ ~ In name (m o) -> (property w c -> w_access w c <> WriteOnly) -> means w m v (Elem item o name) (v c)
| m_op : forall f a b x y z, means w m v a x -> means w m v b y -> f x y = Some z -> means w m v (Op f a b) z.

(** What the scripts below are meant to do, on a store of integers. *)
Inductive effect (w : world) (m : loc -> list (list Z)) : (loc -> Z) -> stmt -> (loc -> Z) -> Prop :=
| e_set : forall v v' item o name c t z, resolve (w_tree w) o name = Some c -> number w c t -> takes w c t z ->
    v' c = z -> (forall x, x <> c -> v' x = v x) -> effect w m v (Set_ item o name (AVal (PyInt z))) v'
| e_set_refused : forall v item o name c t z, resolve (w_tree w) o name = Some c -> number w c t -> ~ takes w c t z ->
    effect w m v (Set_ item o name (AVal (PyInt z))) v
| e_aug : forall v v' item o name c t f n z, resolve (w_tree w) o name = Some c -> number w c t -> takes w c t z ->
    item = true \/ ~ In name (m o) -> (property w c -> w_access w c <> WriteOnly) -> f (v c) n = Some z ->
    v' c = z -> (forall x, x <> c -> v' x = v x) -> effect w m v (Aug item o name f n) v'
| e_aug_refused : forall v item o name c t f n, resolve (w_tree w) o name = Some c -> number w c t ->
    (forall z, f (v c) n = Some z -> ~ takes w c t z) \/ (item = false /\ In name (m o)) \/
      (property w c /\ w_access w c = WriteOnly) ->
    effect w m v (Aug item o name f n) v
| e_set_unknown : forall v item o name x, resolve (w_tree w) o name = None -> effect w m v (Set_ item o name x) v
| e_aug_unknown : forall v item o name f n, resolve (w_tree w) o name = None -> effect w m v (Aug item o name f n) v
| e_calc : forall v v' item o name c t f a b z, resolve (w_tree w) o name = Some c -> number w c t ->
    means w m v (Op f a b) z -> takes w c t z ->
    v' c = z -> (forall x, x <> c -> v' x = v x) -> effect w m v (Calc item o name (Op f a b)) v'
| e_calc_refused : forall v item o name c t f a b z, resolve (w_tree w) o name = Some c -> number w c t ->
    means w m v (Op f a b) z -> ~ takes w c t z -> effect w m v (Calc item o name (Op f a b)) v
| e_calc_undefined : forall v item o name f a b x y, means w m v a x -> means w m v b y -> f x y = None ->
    effect w m v (Calc item o name (Op f a b)) v
| e_calc_unknown : forall v item o name f a b z, resolve (w_tree w) o name = None -> means w m v (Op f a b) z ->
    effect w m v (Calc item o name (Op f a b)) v.
Inductive effects (w : world) (m : loc -> list (list Z)) : (loc -> Z) -> list stmt -> (loc -> Z) -> Prop :=
| e_nil : forall v, effects w m v [] v
| e_cons : forall v s v1 l v2, effect w m v s v1 -> effects w m v1 l v2 -> effects w m v (s :: l) v2.

(** The store of the integers of a world. *)
Definition shows (w : world) (v : loc -> Z) : Prop := forall c t, number w c t -> is w c (v c).
