(** Model of GetPath and Resolve (src/Xsmp/Helper.cpp:98-245, 294-419).

    The objects of a simulation form a tree; the simulator is its root.  An object is
    designated by its location: the list of the positions among siblings, innermost first,
    so that the parent of i :: p is p and the root is [].  A path is the list of the bytes
    of a C string, without its NUL. *)
From Verif Require Import Base HelperModel UuidModel.

Definition loc := list nat.

(** What an object is for the dynamic_casts of Helper.cpp.
    - a component remembers the name of the container that holds it; its parent is the
      composite itself, as in Container.h and Component.cpp;
    - the classes of leaves are those looked up in Helper.cpp:180-227: event sinks, event
      sources, entry points, operations, properties, failures (whose own sub-objects,
      operation parameters for instance, Resolve never reaches);
    - KSimple stands for ISimpleField and ISimpleArrayField, which have no child objects;
    - a reference holds the locations of the components it refers to. *)
Inductive leaf := Sink | Source | Entry | Operation | Property | Failure.
Inductive kind :=
| KSim
| KComp (container : list Z)
| KLeaf (c : leaf)
| KSimple | KStruct | KArray
| KCont
| KRef (targets : list loc).

Inductive tree := Node (k : kind) (name : list Z) (children : list tree).
Definition kind_of (t : tree) : kind := let (k, _, _) := t in k.
Definition name_of (t : tree) : list Z := let (_, n, _) := t in n.
Definition children (t : tree) : list tree := let (_, _, c) := t in c.

(** The object at a location. *)
Fixpoint node_at (root : tree) (o : loc) : option tree :=
  match o with
  | [] => Some root
  | i :: p => match node_at root p with Some t => nth_error (children t) i | None => None end
  end.

(** GetParent *)
Definition parent_of (o : loc) : option loc := match o with [] => None | _ :: p => Some p end.

(** dynamic_cast<IField> *)
Definition is_field (k : kind) : bool := match k with KSimple | KStruct | KArray => true | _ => false end.
(** dynamic_cast<IComposite>, dynamic_cast<IAggregate>: a component without containers or
    references gives the same results as one that does not implement them. *)
Definition is_composite (k : kind) : bool := match k with KSim | KComp _ => true | _ => false end.

(** * Segments *)

(** Helper.cpp:103-113: skip the starting '/', '.', './', keeping the last separator. *)
Fixpoint skip_seps (sep : Z) (l : list Z) : Z * list Z :=
  match l with
  | c :: r =>
      if c =? 47 then skip_seps 47 r
      else if c =? 46 then
        match r with
        | d :: _ => if d =? 46 then (sep, l) else skip_seps 46 r
        | [] => skip_seps 46 r
        end
      else (sep, l)
  | [] => (sep, [])
  end.

(** Helper.cpp:122-126: the dots that follow two dots. *)
Fixpoint take_dots (l : list Z) : list Z * list Z :=
  match l with
  | c :: r => if c =? 46 then let (a, b) := take_dots r in (c :: a, b) else ([], l)
  | [] => ([], [])
  end.

(** Helper.cpp:118-140: up to a separator; a run of several dots belongs to the segment. *)
Fixpoint scan_segment (l : list Z) : list Z * list Z :=
  match l with
  | [] => ([], [])
  | c :: r =>
      if c =? 46 then
        match r with
        | d :: r2 => if d =? 46 then let (a, b) := take_dots r2 in (c :: d :: a, b) else ([], l)
        | [] => ([], l)
        end
      else if (c =? 47) || (c =? 91) then ([], l)
      else let (a, b) := scan_segment r in (c :: a, b)
  end.

(** Helper.cpp:114-117: a leading '[' does not end the segment. *)
Definition first_segment (l : list Z) : list Z * list Z :=
  match l with
  | c :: r => if c =? 91 then let (a, b) := scan_segment r in (c :: a, b) else scan_segment l
  | [] => ([], [])
  end.

(** Helper.cpp:98-141 GetNextSegment: separator, segment, rest of the path.  The caller's
    separator is initialised with NUL (Helper.cpp:342, 386). *)
Definition next_segment (path : list Z) : Z * list Z * list Z :=
  let (sep, l) := skip_seps 0 path in
  let (seg, rest) := first_segment l in (sep, seg, rest).

(** The overloads of Resolve read the path only through GetNextSegment and stop at an
    empty segment: a path is the list of its (separator, segment) pairs. *)
Fixpoint segments_n (n : nat) (path : list Z) : list (Z * list Z) :=
  match n with
  | O => []
  | S m =>
      match next_segment path with
      | (sep, seg, rest) => match seg with [] => [] | _ => (sep, seg) :: segments_n m rest end
      end
  end.
Definition segments (path : list Z) : list (Z * list Z) := segments_n (length path) path.

(** * Array indices *)

(** std::stoll: white space, sign, decimal digits; None when it throws (no digit, or out
    of the range of long long); otherwise the value and the number of characters used. *)
Definition isspace (c : Z) : bool := (c =? 32) || ((9 <=? c) && (c <=? 13)).
Fixpoint drop_spaces (l : list Z) : nat * list Z :=
  match l with
  | c :: r => if isspace c then let (n, b) := drop_spaces r in (S n, b) else (O, l)
  | [] => (O, [])
  end.
Fixpoint digits_value (acc : Z) (l : list Z) : nat * Z :=
  match l with
  | c :: r => if isdigit c then let (n, v) := digits_value (acc * 10 + (c - 48)) r in (S n, v) else (O, acc)
  | [] => (O, acc)
  end.
Definition stoll (l : list Z) : option (Z * nat) :=
  let (w, l1) := drop_spaces l in
  let '(s, neg, l2) :=
    match l1 with
    | c :: r => if c =? 45 then (1%nat, true, r) else if c =? 43 then (1%nat, false, r) else (O, false, l1)
    | [] => (O, false, l1)
    end in
  let (d, v) := digits_value 0 l2 in
  match d with
  | O => None
  | _ => let v' := if (neg : bool) then - v else v in
         if in_i64 v' then Some (v', (w + s + d)%nat) else None
  end.

(** Helper.cpp:355-377: the item designated by a segment in an array of [size] items
    (fewer than 2^63); static_cast<UInt64> of a negative index is at least 2^63. *)
Definition item_index (seg : list Z) (size : nat) : option nat :=
  match seg with
  | c :: r =>
      if (c =? 91) && (last seg 0 =? 93) then
        match stoll r with
        | Some (v, pos) =>
            if (pos + 2 =? length seg)%nat then
              let i := if v <? 0 then Z.of_nat size + v else v in
              if (0 <=? i) && (i <? Z.of_nat size) then Some (Z.to_nat i) else None
            else None
        | None => None
        end
      else None
  | [] => None
  end.

(** * Lookups *)

(** The first element satisfying f, by position. *)
Fixpoint find_pos {A} (f : A -> bool) (l : list A) : option nat :=
  match l with
  | [] => None
  | x :: r => if f x then Some O else match find_pos f r with Some i => Some (S i) | None => None end
  end.

Definition named (n : list Z) (t : tree) : bool := list_eqb (name_of t) n.
Definition is_leaf (c : leaf) (t : tree) : bool :=
  match kind_of t, c with
  | KLeaf Sink, Sink | KLeaf Source, Source | KLeaf Entry, Entry
  | KLeaf Operation, Operation | KLeaf Property, Property | KLeaf Failure, Failure => true
  | _, _ => false
  end.
(** GetEventSink(name), ...: the first child of that class with that name *)
Definition leaf_child (c : leaf) (n : list Z) (t : tree) : option nat :=
  find_pos (fun x => is_leaf c x && named n x) (children t).
(** GetFields()->at(name) and IStructureField::GetField(name) *)
Definition field_child (n : list Z) (t : tree) : option nat :=
  find_pos (fun x => is_field (kind_of x) && named n x) (children t).
(** GetContainer(name), GetReference(name) *)
Definition is_cont (t : tree) : bool := match kind_of t with KCont => true | _ => false end.
Definition is_ref (t : tree) : bool := match kind_of t with KRef _ => true | _ => false end.
Definition cont_child (n : list Z) (t : tree) : option nat :=
  find_pos (fun x => is_cont x && named n x) (children t).
Definition ref_child (n : list Z) (t : tree) : option nat :=
  find_pos (fun x => is_ref x && named n x) (children t).
(** IContainer::GetComponent(name) of the container called [c] *)
Definition held_by (c : list Z) (t : tree) : bool :=
  match kind_of t with KComp c' => list_eqb c' c | _ => false end.
Definition comp_in (c n : list Z) (t : tree) : option nat :=
  find_pos (fun x => held_by c x && named n x) (children t).

Fixpoint first_some {A B} (f : A -> option B) (l : list A) : option B :=
  match l with
  | [] => None
  | x :: r => match f x with Some b => Some b | None => first_some f r end
  end.
(** Helper.cpp:143-153: the containers in order *)
Definition comp_child (n : list Z) (t : tree) : option nat :=
  first_some (fun c => comp_in (name_of c) n t) (filter is_cont (children t)).
(** Helper.cpp:154-164: the references in order, and IReference::GetComponent(name) *)
Definition name_at (root : tree) (o : loc) : list Z :=
  match node_at root o with Some t => name_of t | None => [] end.
Definition ref_target (root : tree) (n : list Z) (t : tree) : option loc :=
  first_some (fun r => match kind_of r with
                       | KRef ts => find (fun o => list_eqb (name_at root o) n) ts
                       | _ => None
                       end) (filter is_ref (children t)).

(** ".." *)
Definition dotdot : list Z := [46; 46].

Definition orelse {A} (a b : option A) : option A := match a with Some _ => a | None => b end.

(** The recursive calls Resolve(child, path): [k fld o] is Resolve of the rest of the path
    from o, with the IField overload when [fld]. *)
Definition cont := bool -> loc -> option loc.
Definition go (k : cont) (fld : bool) (o : loc) (child : option nat) (otherwise : option loc) : option loc :=
  match child with Some i => k fld (i :: o) | None => otherwise end.

(** Helper.cpp:165-179 Resolve(IDynamicInvocation*, name, path) *)
Definition by_invocation (k : cont) (o : loc) (t : tree) (seg : list Z) : option loc :=
  go k false o (leaf_child Operation seg t) (go k false o (leaf_child Property seg t) None).

(** Helper.cpp:180-227 Resolve(IObject*, name, path); for a field (223-225) the name is
    dropped and the rest is resolved from the field itself. *)
Definition by_member (k : cont) (o : loc) (t : tree) (seg : list Z) : option loc :=
  match kind_of t with
  | KComp _ =>
      go k false o (leaf_child Sink seg t)
        (go k false o (leaf_child Source seg t)
           (go k false o (leaf_child Entry seg t)
              (orelse (by_invocation k o t seg)
                 (go k false o (leaf_child Failure seg t)
                    (go k true o (field_child seg t) None)))))
  | KSimple | KStruct | KArray => k true o
  | _ => None
  end.

(** Helper.cpp:229-245 ResolveComponent, called only after '/' or at the start (415-417) *)
Definition by_component (root : tree) (k : cont) (o : loc) (t : tree) (sep : Z) (seg : list Z) : option loc :=
  if ((sep =? 47) || (sep =? 0)) && is_composite (kind_of t) then
    orelse (go k false o (comp_child seg t) None)
      match ref_target root seg t with Some c => k false c | None => None end
  else None.

(** Helper.cpp:397-411: containers and references are reached with a '_' before their
    name; the result of that search is final. *)
Definition by_underscore (k : cont) (o : loc) (t : tree) (seg : list Z) (otherwise : option loc) : option loc :=
  match seg with
  | c :: n =>
      if (c =? 95) && is_composite (kind_of t) then
        go k false o (cont_child n t) (go k false o (ref_child n t) otherwise)
      else otherwise
  | [] => otherwise
  end.

(** Helper.cpp:340-379 Resolve(IField*, path): what is done with a segment other than ".." *)
Definition by_field (k : cont) (o : loc) (t : tree) (seg : list Z) : option loc :=
  match kind_of t with
  | KStruct => go k true o (field_child seg t) None
  | KArray => go k true o (item_index seg (length (children t))) None
  | _ => None
  end.

(** One segment of Resolve(IField*, path) when [fld], and of Resolve(IObject*, path),
    381-419, otherwise. *)
Definition one_segment (root : tree) (k : cont) (fld : bool) (o : loc) (t : tree) (sep : Z) (seg : list Z) : option loc :=
  if list_eqb seg dotdot then match parent_of o with Some p => k false p | None => None end
  else if fld then by_field k o t seg
  else by_underscore k o t seg (orelse (by_member k o t seg) (by_component root k o t sep seg)).

(** The two overloads of Resolve.  None is a null result. *)
Fixpoint res_segs (root : tree) (fld : bool) (o : loc) (segs : list (Z * list Z)) {struct segs} : option loc :=
  match segs with
  | [] => Some o
  | (sep, seg) :: rest =>
      match node_at root o with
      | None => None
      | Some t => one_segment root (fun f c => res_segs root f c rest) fld o t sep seg
      end
  end.

(** Xsmp::Helper::Resolve(object, path) and Resolve(field, path). *)
Definition resolve (root : tree) (o : loc) (path : list Z) : option loc := res_segs root false o (segments path).
Definition resolve_field (root : tree) (o : loc) (path : list Z) : option loc := res_segs root true o (segments path).

(** Helper.cpp:294-319 GetPath.  Every object below the root has a parent. *)
Fixpoint get_path (root : tree) (o : loc) : list Z :=
  match o with
  | [] => match kind_of root with
          | KSim => [47]
          | KComp _ => [60; 110; 117; 108; 108; 62; 47] ++ name_of root (* "<null>/" *)
          | _ => [60; 110; 117; 108; 108; 62; 46] ++ name_of root
          end
  | i :: p =>
      match node_at root p, node_at root (i :: p) with
      | Some tp, Some t =>
          let sep := match kind_of tp with
                     | KSim => []
                     | kp => match kind_of t with
                             | KComp _ => [47]
                             | _ => match kp with KArray => [] | _ => [46] end
                             end
                     end in
          get_path root p ++ sep ++ name_of t
      | _, _ => []
      end
  end.

(** std::to_string, used to name the items of an array (Field.h:730, Publication/Field.cpp:447). *)
Fixpoint decimal_n (n : nat) (v : Z) (acc : list Z) : list Z :=
  match n with
  | O => acc
  | S m => if v <? 10 then (48 + v) :: acc else decimal_n m (v / 10) ((48 + v mod 10) :: acc)
  end.
Definition decimal (v : nat) : list Z := decimal_n (S v) (Z.of_nat v) [].
Definition item_name (i : nat) : list Z := 91 :: decimal i ++ [93].
