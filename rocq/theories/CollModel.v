(** Model of include/Xsmp/Collection.h, include/Xsmp/Container.h, src/Xsmp/Container.cpp
    and include/Xsmp/Reference.h.

    Objects are addresses (numbers), distinct objects have distinct addresses.  The name
    of an object does not change; [nm] gives it.  The argument of a call is never the
    null pointer.

    Simplifications: no user code runs inside a call, except Disconnect() and the
    destructor of a deleted component, which do not touch the containers of the same
    composite. *)
From Verif Require Import Base UuidModel EventModel.

(** std::find_if with the predicate "its name is [n]" (strcmp(...) == 0). *)
Fixpoint find_name (nm : Z -> list Z) (n : list Z) (l : list Z) : option Z :=
  match l with
  | [] => None
  | e :: r => if list_eqb n (nm e) then Some e else find_name nm n r
  end.

(** std::find(...) != end() *)
Definition holds (e : Z) (l : list Z) : bool := mem e l.

Definition is_some {A} (o : option A) : bool := match o with Some _ => true | None => false end.

(** ** Collections *)

(** Collection.h:44-55 AbstractCollection::at(name) (161-172 for ContainingCollection);
    [None] as an argument is the null pointer. *)
Definition coll_at_name nm (n : option (list Z)) (l : list Z) : option Z :=
  match n with None => None | Some n => find_name nm n l end.
(** Collection.h:61-63 (178-180) at(index). *)
Definition coll_at_index (i : nat) (l : list Z) : option Z :=
  if (i <? length l)%nat then nth_error l i else None.
(** Collection.h:67 (184) size. *)
Definition coll_size (l : list Z) : nat := length l.

Inductive collop := CoAdd (e : Z) | CoRemove (e : Z) | CoClear.
Inductive collres := CoDone | CoBool (b : bool) | CoDuplicateName | CoInvalidObject.

(** Collection.h:83-104 Add.  [is_obj e]: the element is an IObject (always true when T
    derives from IObject, and for ContainingCollection, 211-220); [dup] is
    AllowDuplicates; [seen] is the virtual at(name) applied to the element's name. *)
Definition coll_add nm (is_obj : Z -> bool) (dup : bool) (seen : option (list Z) -> option Z) (e : Z) (l : list Z)
  : list Z * collres :=
  if is_obj e then
    if negb dup && is_some (seen (Some (nm e))) then (l, CoDuplicateName) else (l ++ [e], CoDone)
  else (l, CoInvalidObject).

(** Collection.h:108-123 Remove (224-234 for ContainingCollection). *)
Definition coll_remove (is_obj : Z -> bool) (e : Z) (l : list Z) : list Z * collres :=
  if is_obj e then
    if holds e l then (erase e l, CoBool true) else (l, CoBool false)
  else (l, CoInvalidObject).

Definition coll_step nm is_obj dup (o : collop) (l : list Z) : list Z * collres :=
  match o with
  | CoAdd e => coll_add nm is_obj dup (fun n => coll_at_name nm n l) e l
  | CoRemove e => coll_remove is_obj e l
  | CoClear => ([], CoDone)                       (* Collection.h:126, 237 *)
  end.

Fixpoint coll_run nm is_obj dup (l : list Z) (os : list collop) : list Z * list (collop * collres) :=
  match os with
  | [] => (l, [])
  | o :: os =>
      let '(l1, r) := coll_step nm is_obj dup o l in
      let '(l2, t) := coll_run nm is_obj dup l1 os in (l2, (o, r) :: t)
  end.

(** Collection.h:75-79 begin/end with the index based iterator of Smp/ICollection.h:
    the elements at(0), at(1), ... at(size-1). *)
Definition iterate (at_index : nat -> option Z) (size : nat) : list (option Z) := map at_index (seq 0 size).

(** *** DelegateCollection: [d] is the content of the delegate, [l] the own elements.
    Collection.h:263-266 at(name). *)
Definition deleg_at_name nm (n : option (list Z)) (d l : list Z) : option Z :=
  match coll_at_name nm n d with Some e => Some e | None => coll_at_name nm n l end.
(** Collection.h:272-277 at(index). *)
Definition deleg_at_index (i : nat) (d l : list Z) : option Z :=
  if (i <? coll_size d)%nat then coll_at_index i d else coll_at_index (i - coll_size d) l.
(** Collection.h:281-283 size. *)
Definition deleg_size (d l : list Z) : nat := (coll_size l + coll_size d)%nat.
(** Collection.h:287-289 empty. *)
Definition deleg_empty (d l : list Z) : bool := (coll_size l =? 0)%nat && (coll_size d =? 0)%nat.

(** Calls on a delegating collection, and on the collection it delegates to. *)
Inductive delop := DeOwn (o : collop) | DeDelegate (o : collop).

Definition deleg_step nm is_obj dup (o : delop) (s : list Z * list Z) : (list Z * list Z) * collres :=
  let '(d, l) := s in
  match o with
  | DeOwn (CoAdd e) =>
      let '(l', r) := coll_add nm is_obj false (fun n => deleg_at_name nm n d l) e l in ((d, l'), r)
  | DeOwn o => let '(l', r) := coll_step nm is_obj false o l in ((d, l'), r)
  | DeDelegate o => let '(d', r) := coll_step nm is_obj dup o d in ((d', l), r)
  end.

Fixpoint deleg_run nm is_obj dup (s : list Z * list Z) (os : list delop) : (list Z * list Z) * list (delop * collres) :=
  match os with
  | [] => (s, [])
  | o :: os =>
      let '(s1, r) := deleg_step nm is_obj dup o s in
      let '(s2, t) := deleg_run nm is_obj dup s1 os in (s2, (o, r) :: t)
  end.

(** ** Bounds: static_cast<std::size_t> of an Int64. *)
Definition to_size (z : Z) : Z := z mod 2 ^ 64.

(** ** Containers of one composite *)
Record cont := Cont { lower : Z; upper : Z; comps : list Z }.

(** What the calls need to know of the components: their name, whether their parent is
    the composite, and whether they are of the type T of the container number k. *)
Record world := World { wname : Z -> list Z; wparent : Z -> bool; wtype : nat -> Z -> bool }.

Inductive contop :=
| KAdd (k : nat) (c : Z) (field : option bool) (clash : bool)
    (** container k: AddComponent(c); [field]: None when the composite is not a component,
        or not one that has been published (Component.cpp:50-52), otherwise whether it
        has a field with the name of c; [clash]: the composite is a component and has an
        entry point, operation, property, event source, event sink or failure with the
        name of c *)
| KDelete (k : nat) (c : Z) (throws : bool).
    (** container k: DeleteComponent(c); [throws]: c is connected and Disconnect throws *)

Inductive contres :=
| KDone | KContainerFull | KDuplicateName | KInvalidObjectType | KInvalidParent
| KInvalidFieldName | KNotContained | KCannotDelete | KDisconnectThrows
| KUseAfterFree | KNoContainer.

(** The state: the containers, and the components deleted from memory. *)
Record compo := Compo { conts : list cont; freed : list Z }.

Fixpoint set_nth {A} (k : nat) (a : A) (l : list A) : list A :=
  match l, k with
  | [], _ => []
  | _ :: r, O => a :: r
  | x :: r, S k => x :: set_nth k a r
  end.

(** Container.cpp:95-106 CheckComposite: a container of the composite has a component
    with this name (Container.h:241-248 GetComponent(name)). *)
Definition check_composite nm (n : list Z) (cs : list cont) : bool :=
  existsb (fun c => is_some (find_name nm n (comps c))) cs.

(** Container.h:275-283, Container.cpp:181-188, 158-178 and 108-156.  CheckComponent first
    asks the composite for a field of that name; a published component without such a
    field answers with the exception InvalidFieldName (Publication.cpp:217-226), which
    nobody catches. *)
Definition cont_add (w : world) (k : nat) (c : Z) (field : option bool) (clash : bool) (s : compo) : compo * contres :=
  match nth_error (conts s) k with
  | None => (s, KNoContainer)
  | Some ct =>
      if holds c (freed s) then (s, KUseAfterFree)
      else if negb (wtype w k c) then (s, KInvalidObjectType)
      else if to_size (upper ct) <=? Z.of_nat (length (comps ct)) then (s, KContainerFull)
      else if check_composite (wname w) (wname w c) (conts s) then (s, KDuplicateName)
      else match field with
           | Some true => (s, KDuplicateName)
           | Some false => (s, KInvalidFieldName)
           | None =>
               if clash then (s, KDuplicateName)
               else if negb (wparent w c) then (s, KInvalidParent)
               else (Compo (set_nth k (Cont (lower ct) (upper ct) (comps ct ++ [c])) (conts s)) (freed s), KDone)
           end
  end.

(** Container.h:294-301, Container.cpp:189-198. *)
Definition cont_delete (w : world) (k : nat) (c : Z) (throws : bool) (s : compo) : compo * contres :=
  match nth_error (conts s) k with
  | None => (s, KNoContainer)
  | Some ct =>
      if holds c (freed s) then (s, KUseAfterFree)
      else if negb (wtype w k c && holds c (comps ct)) then (s, KNotContained)
      else if Z.of_nat (length (comps ct)) <=? to_size (lower ct) then (s, KCannotDelete)
      else if throws then (s, KDisconnectThrows)
      else (Compo (set_nth k (Cont (lower ct) (upper ct) (erase c (comps ct))) (conts s)) (c :: freed s), KDone)
  end.

Definition cont_step w (o : contop) (s : compo) : compo * contres :=
  match o with
  | KAdd k c field clash => cont_add w k c field clash s
  | KDelete k c throws => cont_delete w k c throws s
  end.

Fixpoint cont_run w (s : compo) (os : list contop) : compo * list (contop * contres) :=
  match os with
  | [] => (s, [])
  | o :: os =>
      let '(s1, r) := cont_step w o s in
      let '(s2, t) := cont_run w s1 os in (s2, (o, r) :: t)
  end.

(** The composite with containers of the given bounds (Container.h:212-214,
    Container.cpp:67-80: the containers are registered in the composite). *)
Definition compo_init (bounds : list (Z * Z)) : compo :=
  Compo (map (fun b => Cont (fst b) (snd b) []) bounds) [].

(** Container.h:241-261 GetComponent. *)
Definition cont_by_name nm (n : option (list Z)) (ct : cont) : option Z := coll_at_name nm n (comps ct).
Definition cont_by_index (i : nat) (ct : cont) : option Z := coll_at_index i (comps ct).
(** Container.h:304-306 GetCount. *)
Definition cont_count (ct : cont) : Z := Z.of_nat (length (comps ct)).

(** ** Reference *)
Inductive refop :=
| FAdd (c : Z)          (** AddComponent *)
| FRemove (c : Z)       (** RemoveComponent *)
| FUnlink (c : Z).      (** RemoveLinks, called by Component::RemoveLinks *)
Inductive refres := FDone | FReferenceFull | FInvalidObjectType | FNotReferenced | FCannotRemove.

(** Reference.h:437-443: the loop; [fuel] is at least the number of elements. *)
Fixpoint erase_all (fuel : nat) (c : Z) (l : list Z) : list Z :=
  match fuel with
  | O => l
  | S fuel => if holds c l then erase_all fuel c (erase c l) else l
  end.

(** Reference.h:231-242, 252-262, 432-444; [typ c]: c is of the type T of the reference. *)
Definition ref_step (typ : Z -> bool) (lo up : Z) (o : refop) (l : list Z) : list Z * refres :=
  match o with
  | FAdd c =>
      if to_size up <=? Z.of_nat (length l) then (l, FReferenceFull)
      else if typ c then (l ++ [c], FDone) else (l, FInvalidObjectType)
  | FRemove c =>
      if negb (typ c && holds c l) then (l, FNotReferenced)
      else if Z.of_nat (length l) <=? to_size lo then (l, FCannotRemove)
      else (erase c l, FDone)
  | FUnlink c => (if typ c then erase_all (length l) c l else l, FDone)
  end.

Fixpoint ref_run typ lo up (l : list Z) (os : list refop) : list Z * list (refop * refres) :=
  match os with
  | [] => (l, [])
  | o :: os =>
      let '(l1, r) := ref_step typ lo up o l in
      let '(l2, t) := ref_run typ lo up l1 os in (l2, (o, r) :: t)
  end.
