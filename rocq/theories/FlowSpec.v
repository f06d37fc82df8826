(** What is meant by the properties of fields, forcing and dataflow. *)
From Coq Require Import ZArith List Bool Relations.
From Verif Require Import Base AnyModel AnySpec HelperModel HelperSpec FlowModel.
Import ListNotations.

(** * Values *)

(** The values of a C++ type. *)
Definition value_of (c : cty) (v : payload) : Prop :=
  match c, v with
  | CInt t, PInt z => of_type t z
  | CBool, PBool _ => True
  | CChar, PChar _ => True
  | CF32, PFloat _ => True
  | CF64, PFloat _ => True
  | CStr n, PStr (Some l) => (length l <= n)%nat
  | _, _ => False
  end.

(** The C++ type of the values of a kind. *)
Definition kind_of (c : cty) (k : kind) : Prop :=
  match c with
  | CInt t => kind_type k = Some t
  | CBool => k = KBool
  | CChar => k = KChar8
  | CF32 => k = KF32
  | CF64 => k = KF64
  | CStr _ => k = KString8
  end.

(** The only values a published field of an enumeration of four bytes refuses. *)
Definition declared (f : leaf) (v : payload) : Prop :=
  lpub f = true -> lk f = KI32 -> forall ls z, lenum f = Some ls -> v = PInt z -> In z ls.

(** The field can hold the value. *)
Definition takes (f : leaf) (v : payload) : Prop :=
  kind_of (lc f) (lk f) /\ value_of (lc f) v /\ declared f v.

(** * Forcing *)

(** The field is forced: IsForced() of a forcible field. *)
Definition is_forced (w : world) (i : nat) : Prop :=
  lforcible (leafs w i) = true /\ lforced (leafs w i) = true.

(** The operations that may end the forcing of the field [i] or replace its value
    on purpose. *)
Definition unforces (i : nat) (o : fop) : Prop :=
  match o with
  | WForce j _ => j = i
  | WUnforce j => j = i
  | WRestore j _ _ => j = i
  | _ => False
  end.

(** * Dataflow *)

(** A write to [x] is handed on to [y]. *)
Definition feeds (w : world) (x y : nat) : Prop :=
  ~ is_forced w x /\ lconn (leafs w x) = true /\ In y (ltargets (leafs w x)).

(** ... directly or transitively. *)
Definition reaches (w : world) : nat -> nat -> Prop := clos_refl_trans_1n nat (feeds w).

(** A chain of [n] steps from [i]. *)
Inductive chain (w : world) : nat -> nat -> nat -> Prop :=
| chain_nil : forall i, chain w O i i
| chain_cons : forall n i j k, feeds w i j -> chain w n j k -> chain w (S n) i k.

(** The links made by Connect join fields of one kind. *)
Definition kinds_agree (w : world) : Prop :=
  forall x y, In y (ltargets (leafs w x)) -> lk (leafs w x) = lk (leafs w y).

(** No loop. *)
Definition loop_free (w : world) (i : nat) : Prop :=
  forall j n, reaches w i j -> chain w n j j -> n = O.

(** Everything but the values is the same. *)
Definition same_links (w w' : world) : Prop :=
  (forall i, ltargets (leafs w' i) = ltargets (leafs w i)) /\
  (forall i, atargets (arrs w' i) = atargets (arrs w i)) /\
  (forall i, nconn w' i = nconn w i).
Definition same_values (w w' : world) : Prop :=
  (forall i, lval (leafs w' i) = lval (leafs w i)) /\
  (forall i, lforced (leafs w' i) = lforced (leafs w i)) /\
  (forall i, avals (arrs w' i) = avals (arrs w i)).

(** * Trees *)

(** The corresponding parts of two fields. *)
Inductive parts : tree -> tree -> tree -> tree -> Prop :=
| pa_self : forall s t, parts s t s t
| pa_arr : forall i df a b l j df' a' b' l' x y s t,
    In (x, y) (combine l l') -> parts x y s t -> parts (TArr i df a b l) (TArr j df' a' b' l') s t
| pa_str : forall i df a b l j df' a' b' l' x y s t,
    In (x, y) (combine l l') -> parts x y s t -> parts (TStr i df a b l) (TStr j df' a' b' l') s t.

(** The target is among the connected fields of the source. *)
Definition linked (w : world) (s t : tree) : Prop :=
  match s with
  | TSimple i => In (tid t) (ltargets (leafs w i))
  | TSArr i => In (tid t) (atargets (arrs w i))
  | TArr i _ _ _ _ => In (tid t) (nconn w i)
  | TStr i _ _ _ _ => In (tid t) (nconn w i)
  end.

(** The parts that keep a list of connected fields. *)
Definition keeps_links (w : world) (s : tree) : Prop :=
  match s with
  | TSimple i => lconn (leafs w i) = true
  | TSArr i => aconn (arrs w i) = true
  | TArr _ df _ _ _ => df = true
  | TStr _ df _ _ _ => df = true
  end.

(** All simple fields and simple arrays of the tree are connectable. *)
Inductive all_connectable (w : world) : tree -> Prop :=
| ac_simple : forall i, lconn (leafs w i) = true -> all_connectable w (TSimple i)
| ac_sarr : forall i, aconn (arrs w i) = true -> all_connectable w (TSArr i)
| ac_arr : forall i df a b l,
    (forall x, In x l -> all_connectable w x) -> all_connectable w (TArr i df a b l)
| ac_str : forall i df a b l,
    (forall x, In x l -> all_connectable w x) -> all_connectable w (TStr i df a b l).

(** The identities of a tree. *)
Fixpoint tids (t : tree) : list nat :=
  match t with
  | TSimple i => [i]
  | TSArr i => [i]
  | TArr i _ _ _ l => i :: flat_map tids l
  | TStr i _ _ _ l => i :: flat_map tids l
  end.

(** What Connect is to accept. *)
Definition acceptable (w : world) (s t : tree) : Prop :=
  tout w s = true /\ tin w t = true /\ tid t <> tid s /\
  same_shape (fun _ _ => True) (shape w s) (shape w t) /\
  (forall x y, parts s t x y -> keeps_links w x -> ~ linked w x y).

(** The parts of the target can hold the values of the parts of the source and are
    plain inputs: they hand nothing on. *)
Definition transferable (w : world) (s t : tree) : Prop :=
  (forall i j, parts s t (TSimple i) (TSimple j) ->
     takes (leafs w i) (lval (leafs w i)) /\ takes (leafs w j) (lval (leafs w i)) /\
     lconn (leafs w j) = false) /\
  (forall i j, parts s t (TSArr i) (TSArr j) ->
     ak (arrs w i) = ak (arrs w j) /\ kind_of (ac (arrs w i)) (ak (arrs w i)) /\
     kind_of (ac (arrs w j)) (ak (arrs w j)) /\
     forall v, In v (avals (arrs w i)) -> value_of (ac (arrs w i)) v /\ value_of (ac (arrs w j)) v).

(** Two fields made of different objects, each used once. *)
Definition separate (s t : tree) : Prop :=
  NoDup (tids s) /\ NoDup (tids t) /\ forall i, In i (tids s) -> ~ In i (tids t).

(** The values of the source have been copied into the target, nothing else. *)
Definition copied (w w' : world) (s t : tree) : Prop :=
  (forall i j, parts s t (TSimple i) (TSimple j) ->
     (is_forced w j -> lval (leafs w' j) = lval (leafs w j)) /\
     (~ is_forced w j -> lval (leafs w' j) = lval (leafs w i))) /\
  (forall i j, parts s t (TSArr i) (TSArr j) -> avals (arrs w' j) = avals (arrs w i)) /\
  (forall k, ~ In k (tids t) ->
     lval (leafs w' k) = lval (leafs w k) /\ avals (arrs w' k) = avals (arrs w k)).

(** No field is twice among the connected fields of another. *)
Definition linked_once (w : world) : Prop :=
  (forall i, NoDup (ltargets (leafs w i))) /\
  (forall i, NoDup (atargets (arrs w i))) /\
  (forall i, NoDup (nconn w i)).
(** The source of a connection does not have the same field twice among its parts. *)
Definition distinct_parts (o : fop) : Prop :=
  match o with WConnect s _ => NoDup (tids s) | _ => True end.
