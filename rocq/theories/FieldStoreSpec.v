(** What is meant by storing and restoring a field. *)
From Coq Require Import ZArith List Bool.
From Verif Require Import Base AnyModel FieldStoreModel.
Import ListNotations.
Local Open Scope nat_scope.

Definition in_range (a n x : nat) : Prop := a <= x < a + n.

(** The size in bytes of the values of a primitive type. *)
Definition bytes_of (k : kind) (n : nat) : Prop :=
  match k with
  | KBool | KChar8 | KI8 | KU8 => n = 1
  | KI16 | KU16 => n = 2
  | KI32 | KU32 | KF32 => n = 4
  | KI64 | KU64 | KF64 | KDuration | KDateTime => n = 8
  | KNone | KString8 => False
  end.

(** The byte at [x] belongs to the state of the field: to the value, the forced flag
    or the failure flag of a state field that is not inside a transient one. *)
Inductive state_byte : ftree -> nat -> Prop :=
| sb_value : forall a n fo fa x, in_range a n x -> state_byte (TySimple true a n fo fa) x
| sb_forced : forall a n x fa, state_byte (TySimple true a n (Some x) fa) x
| sb_failed : forall a n fo x, state_byte (TySimple true a n fo (Some x)) x
| sb_items : forall a n fa x, in_range a n x -> state_byte (TySArr true a n fa) x
| sb_items_failed : forall a n x, state_byte (TySArr true a n (Some x)) x
| sb_array : forall l fa t x, In t l -> state_byte t x -> state_byte (TyArr true l fa) x
| sb_array_failed : forall l x, state_byte (TyArr true l (Some x)) x
| sb_structure : forall l fa t x, In t l -> state_byte t x -> state_byte (TyStr true l fa) x
| sb_structure_failed : forall l x, state_byte (TyStr true l (Some x)) x
| sb_pub_value : forall a k len n x, bytes_of k n -> in_range a n x -> state_byte (PbSimple true a k len) x
| sb_pub_string : forall a n x, in_range a (n + 1) x -> state_byte (PbSimple true a KString8 (Some n)) x
| sb_pub_items : forall a i n x, in_range a (i * n) x -> state_byte (PbSArr true a i n) x
| sb_pub_array : forall l t x, In t l -> state_byte t x -> state_byte (PbArr true l) x
| sb_pub_structure : forall l t x, In t l -> state_byte t x -> state_byte (PbStr true l) x
| sb_an_array : forall l t x, In t l -> state_byte t x -> state_byte (AnArr true l) x
| sb_an_structure : forall l t x, In t l -> state_byte t x -> state_byte (AnStr true l) x
| sb_an_items : forall a k i n x, bytes_of k i -> in_range a (i * n) x -> state_byte (AnSArr true a k n) x.

(** The fields that can be created: every published field has a type with a size
    (Publication/Field.cpp:48-57). *)
Inductive creatable : ftree -> Prop :=
| cr_simple : forall st a n fo fa, creatable (TySimple st a n fo fa)
| cr_sarr : forall st a n fa, creatable (TySArr st a n fa)
| cr_arr : forall st l fa, (forall t, In t l -> creatable t) -> creatable (TyArr st l fa)
| cr_str : forall st l fa, (forall t, In t l -> creatable t) -> creatable (TyStr st l fa)
| cr_pub : forall st a k len n, bytes_of k n -> creatable (PbSimple st a k len)
| cr_pub_string : forall st a n, creatable (PbSimple st a KString8 (Some n))
| cr_pub_sarr : forall st a i n, creatable (PbSArr st a i n)
| cr_pub_arr : forall st l, (forall t, In t l -> creatable t) -> creatable (PbArr st l)
| cr_pub_str : forall st l, (forall t, In t l -> creatable t) -> creatable (PbStr st l)
| cr_an_arr : forall st l, (forall t, In t l -> creatable t) -> creatable (AnArr st l)
| cr_an_str : forall st l, (forall t, In t l -> creatable t) -> creatable (AnStr st l)
| cr_an_sarr : forall st a k n i, bytes_of k i -> creatable (AnSArr st a k n).

(** [m'] is [now] with the bytes in [P] as they were in [then]. *)
Definition brought_back (P : nat -> Prop) (old now m' : mem) : Prop :=
  forall x, (P x -> m' x = old x) /\ (~ P x -> m' x = now x) /\ (m' x = old x \/ m' x = now x).

(** The byte belongs to the state of an object of the tree; [own p] is the state a
    component stores itself. *)
Section Tree.
  Variable own : persist -> nat -> Prop.
  Inductive tree_byte : obj -> nat -> Prop :=
  | tb_own : forall p fs cs x, own p x -> tree_byte (Obj (Some p) fs cs) x
  | tb_field : forall p l cs t x, In t l -> state_byte t x -> tree_byte (Obj p (Some l) cs) x
  | tb_child : forall p fs l o x, In o l -> tree_byte o x -> tree_byte (Obj p fs (Some l)) x.

  (** Every component restores what it stored itself, and nothing else, and every
      field can be created. *)
  Inductive sound_tree : obj -> Prop :=
  | st_obj : forall p fs cs,
      (forall q, p = Some q -> forall m now rest, exists m',
         p_restore q now (p_store q m ++ rest) = (m', Ok rest) /\ brought_back (own q) m now m') ->
      (forall l t, fs = Some l -> In t l -> creatable t) ->
      (forall l o, cs = Some l -> In o l -> sound_tree o) ->
      sound_tree (Obj p fs cs).
End Tree.

(** A component that is given less than it stored notices, without touching
    anything else. *)
Inductive alert : obj -> Prop :=
| al_obj : forall p fs cs,
    (forall q, p = Some q -> forall m now s, length s < length (p_store q m) ->
       (exists r, p_store q m = s ++ r) -> exists m', p_restore q now s = (m', Throw CannotRestore)) ->
    (forall l o, cs = Some l -> In o l -> alert o) ->
    alert (Obj p fs cs).
