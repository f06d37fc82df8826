(** What object names, string copies and field shapes are, independently of the code. *)
From Verif Require Import Base HelperModel.

(** The C string of a block of memory: the bytes before the first NUL. *)
Definition cstring (block s : list Z) : Prop := (exists rest, block = s ++ 0 :: rest) /\ ~ In 0 s.

(** The grammar of object names. *)
Definition letter (c : Z) : Prop := 65 <= c <= 90 \/ 97 <= c <= 122.
Definition digit (c : Z) : Prop := 48 <= c <= 57.
Inductive valid_name : list Z -> Prop :=
| vn_ident : forall c s, letter c -> Forall (fun x => letter x \/ digit x \/ x = 95) s -> valid_name (c :: s)
| vn_index : forall s, s <> [] -> Forall digit s -> valid_name (91 :: s ++ [93]).

(** [p] is the longest prefix of [s] of at most [n] bytes. *)
Definition longest_prefix (p s : list Z) (n : nat) : Prop :=
  (exists r, s = p ++ r) /\ (length p <= n)%nat /\ (forall q r, s = q ++ r -> (length q <= n)%nat -> (length q <= length p)%nat).

(** The chain of parents. *)
Inductive ancestor_or_self {A} (parent : A -> option A) : A -> A -> Prop :=
| aos_self : forall o, ancestor_or_self parent o o
| aos_up : forall a o p, parent o = Some p -> ancestor_or_self parent a p -> ancestor_or_self parent a o.

(** Two fields have the same shape: the kinds of the simple values agree one by one.
    [rk] says when two item kinds of simple arrays are considered the same. *)
Inductive same_shape (rk : Z -> Z -> Prop) : field -> field -> Prop :=
| ss_simple : forall k, same_shape rk (FSimple k) (FSimple k)
| ss_sarray : forall n k k', rk k k' -> same_shape rk (FSimpleArray n k) (FSimpleArray n k')
| ss_array : forall l l', Forall2 (same_shape rk) l l' -> same_shape rk (FArray l) (FArray l')
| ss_struct : forall l l', Forall2 (same_shape rk) l l' -> same_shape rk (FStruct l) (FStruct l').

(** Every field of the tree is of one of the four kinds. *)
Inductive known : field -> Prop :=
| kn_simple : forall k, known (FSimple k)
| kn_sarray : forall n k, known (FSimpleArray n k)
| kn_array : forall l, Forall known l -> known (FArray l)
| kn_struct : forall l, Forall known l -> known (FStruct l).
