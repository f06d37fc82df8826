(** Model of Component::RemoveLinks (src/Xsmp/Component.cpp:127-204): the links of a
    component to a target component are removed from its event sources, its references
    and its fields. *)
From Coq Require Import ZArith List Bool.
From Verif Require Import Base HelperModel CollModel SinkModel FlowModel.
Import ListNotations.
Local Open Scope nat_scope.

(** The objects on the way from a field to the root, as GetParent() returns them. *)
Inductive obj := OField (i : nat) | OComp (c : Z).
Definition obj_eqb (a b : obj) : bool :=
  match a, b with
  | OField i, OField j => Nat.eqb i j
  | OComp c, OComp d => Z.eqb c d
  | _, _ => false
  end.

(** A component: its event sources, [true] for the ones that are an AbstractEventSource;
    its references, [true] for the ones that are an AbstractReference, with the
    components of their type and the ones they hold; its fields. *)
Record comp := Comp {
  c_sources : list (bool * src);
  c_refs : list (bool * (Z -> bool) * list Z);
  c_fields : list tree
}.

Section Unlink.
  (** GetParent() of an object, and a bound on the turns of the loop of IsAncestor. *)
  Context (parent : obj -> option obj) (turns : nat).
  (** The field an address of a connected field points to. *)
  Context (field_at : nat -> tree).
  (** GetParent() of an event sink. *)
  Context (sink_parent : Z -> Z).
  Context (target : Z).

  (** IsAncestor(target, field) (Helper.cpp:466-478) *)
  Definition inside (j : nat) : bool :=
    match is_ancestor obj_eqb parent turns (Some (OComp target)) (Some (OField j)) with
    | Some b => b
    | None => false
    end.

  (** dynamic_cast to IDataflowFieldExtension (Component.cpp:156-157; Field.h:208-262,
      286-299): the typed fields with the annotation output; the connectable fields
      inside another field and the published fields (Publication/Field.h:102) are not. *)
  Definition extension (w : world) (s : tree) : bool :=
    match s with
    | TSimple i => lconn (leafs w i) && lout (leafs w i)
    | TSArr i => aconn (arrs w i) && aout (arrs w i)
    | TArr _ df _ _ _ => df
    | TStr _ df _ _ _ => df
    end.

  (** GetInputFields() (Field.cpp:380-382, 413-415, 486-488, 514-516) *)
  Definition inputs (w : world) (s : tree) : list nat :=
    match s with
    | TSimple i => ltargets (leafs w i)
    | TSArr i => atargets (arrs w i)
    | TArr i _ _ _ _ => nconn w i
    | TStr i _ _ _ _ => nconn w i
    end.

  (** Component.cpp:159-163, the loop over the inputs: an iterator is an index, the end
      is the size before the loop (Field.cpp:434-440), and at() gives the null pointer,
      which has no ancestors, past the end (Field.cpp:426-428).  [n] turns are left. *)
  Fixpoint unlink_inputs (n k : nat) (w : world) (s : tree) : world :=
    match n with
    | O => w
    | S m =>
        let w' := match nth_error (inputs w s) k with
                  | Some j => if inside j then disconnect w s (field_at j) else w
                  | None => w
                  end in
        unlink_inputs m (S k) w' s
    end.

  (** Component.cpp:153-184 RemoveFieldLinks *)
  Fixpoint unlink_field (w : world) (s : tree) {struct s} : world :=
    if extension w s then unlink_inputs (length (inputs w s)) 0 w s
    else
      match s with
      | TStr _ _ _ _ l | TArr _ _ _ _ l =>
          (fix subs (w : world) (l : list tree) : world :=
             match l with [] => w | x :: r => subs (unlink_field w x) r end) w l
      | _ => w
      end.

  (** Component.cpp:129-141 RemoveEventProviderLinks *)
  Definition unlink_source (s : bool * src) : bool * src :=
    if fst s
    then (true, fst (sstep 0 (fun _ => 0%Z) sink_parent (SRemoveLinks target) (snd s)))
    else s.

  (** Component.cpp:142-152 RemoveAggregateLinks *)
  Definition unlink_ref (r : bool * (Z -> bool) * list Z) : bool * (Z -> bool) * list Z :=
    let '(a, typ, l) := r in
    if a then (a, typ, fst (ref_step typ 0 (-1) (FUnlink target) l)) else r.

  (** Component.cpp:186-204 RemoveLinks *)
  Definition remove_links (c : comp) (w : world) : comp * world :=
    (Comp (map unlink_source (c_sources c)) (map unlink_ref (c_refs c)) (c_fields c),
     fold_left unlink_field (c_fields c) w).
End Unlink.
