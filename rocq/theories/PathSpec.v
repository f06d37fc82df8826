(** Well-formed object trees, for the theorems about paths. *)
From Verif Require Import Base HelperSpec PathModel.
From Verif Require UuidModel.

(** Containers and references are not addressed by their plain name. *)
Definition addressable (t : tree) : bool :=
  match kind_of t with KCont | KRef _ => false | _ => true end.

(** Which objects may be children of which. *)
Definition allowed (p c : kind) : Prop :=
  match p, c with
  | KSim, KComp _ | KSim, KCont => True
  | KComp _, KSim => False
  | KComp _, _ => True
  | KStruct, c | KArray, c => is_field c = true
  | _, _ => False
  end.

(** What SMP and this code base guarantee about an object and its children, plus
    uniqueness of the names of the addressable children across their kinds. *)
Record good_node (t : tree) : Prop := GoodNode {
  g_kinds : forall c, In c (children t) -> allowed (kind_of t) (kind_of c);
  g_names : forall c, In c (children t) -> valid_name (name_of c);
  g_items : kind_of t = KArray -> forall i c, nth_error (children t) i = Some c -> name_of c = item_name i;
  g_small : Z.of_nat (length (children t)) <= i64_max;
  g_unique : NoDup (map name_of (filter addressable (children t)));
  g_held : forall c n, In c (children t) -> kind_of c = KComp n ->
           exists k, In k (children t) /\ kind_of k = KCont /\ name_of k = n }.

Definition good_tree (root : tree) : Prop :=
  kind_of root = KSim /\ forall o t, node_at root o = Some t -> good_node t.

(** Children of fields are fields: what the C++ types of GetItem and GetField say. *)
Definition typed_tree (root : tree) : Prop :=
  forall o t, node_at root o = Some t -> is_field (kind_of t) = true ->
  forall c, In c (children t) -> is_field (kind_of c) = true.

(** No reference holds a component. *)
Definition no_references (root : tree) : Prop :=
  forall o t ts, node_at root o = Some t -> kind_of t = KRef ts -> ts = [].

(** What an index between brackets denotes: white space, a sign, decimal digits. *)
Definition blank (c : Z) : Prop := c = 32 \/ 9 <= c <= 13.
Definition decimal_value (ds : list Z) : Z := fold_left (fun a c => a * 10 + (c - 48)) ds 0.
Definition denotes (s : list Z) (v : Z) : Prop :=
  exists ws sg ds, s = ws ++ sg ++ ds /\ Forall blank ws /\ (sg = [] \/ sg = [43] \/ sg = [45]) /\
    Forall (fun c => 48 <= c <= 57) ds /\ ds <> [] /\
    v = if list_eq_dec Z.eq_dec sg [45] then - decimal_value ds else decimal_value ds.

(** The item number [i] of an array of [size] items designated by the index [v]: negative
    indexes count from the end. *)
Definition designates (v : Z) (size i : nat) : Prop :=
  (i < size)%nat /\ (Z.of_nat i = v \/ (v < 0 /\ Z.of_nat i = Z.of_nat size + v)).

(** A character that is not a separator of paths. *)
Definition not_separator (c : Z) : Prop := c <> 46 /\ c <> 47 /\ c <> 91.

(** The classes of members among which a component looks a name up, in this order. *)
Definition member_classes : list (kind -> bool) :=
  map (fun c k => match k, c with
                  | KLeaf Sink, Sink | KLeaf Source, Source | KLeaf Entry, Entry
                  | KLeaf Operation, Operation | KLeaf Property, Property | KLeaf Failure, Failure => true
                  | _, _ => false end) [Sink; Source; Entry; Operation; Property; Failure]
  ++ [is_field].
(** [i] is the first child of the class [f] with the name [n]. *)
Definition first_child (f : kind -> bool) (n : list Z) (t : tree) (i : nat) : Prop :=
  exists c, nth_error (children t) i = Some c /\ f (kind_of c) = true /\ name_of c = n /\
    forall j d, (j < i)%nat -> nth_error (children t) j = Some d -> f (kind_of d) = true -> name_of d <> n.
Definition no_child (f : kind -> bool) (n : list Z) (t : tree) : Prop :=
  forall d, In d (children t) -> f (kind_of d) = true -> name_of d <> n.
(** The components held by the container called [c], and the references. *)
Definition held (c : list Z) (k : kind) : bool := match k with KComp c' => UuidModel.list_eqb c' c | _ => false end.
Definition reference (k : kind) : bool := match k with KRef _ => true | _ => false end.
Definition container (k : kind) : bool := match k with KCont => true | _ => false end.
(** The object at [x] has the name [n]. *)
Definition has_name (root : tree) (x : loc) (n : list Z) : Prop := exists d, node_at root x = Some d /\ name_of d = n.
