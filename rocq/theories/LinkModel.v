(** Model of src/Xsmp/Services/XsmpLinkRegistry.{h,cpp}, with the collection of link
    sources of include/Xsmp/Collection.h (Collection<IComponent>, no duplicates).

    Components are addresses; [name] gives the name of each component.  Simplification:
    the calls are atomic (the data are protected by locks; overlapping calls are the subject
    of ConcModel). *)
From Verif Require Import Base Assoc UuidModel EventModel.

Definition pair_eqb (a b : Z * Z) : bool := (fst a =? fst b) && (snd a =? snd b).

Record reg := Reg {
  r_links : list ((Z * Z) * Z);    (* XsmpLinkRegistry.h _links: (source, target) -> UInt32 *)
  r_targets : list (Z * list Z);   (* _targets: target -> collection of sources *)
}.
Definition reg_init : reg := Reg [] [].

Definition u32 : Z := 2 ^ 32.

(** Collection.h:44-55 at(name): some element has this name. *)
Definition has_name (name : Z -> list Z) (n : list Z) (l : list Z) : bool :=
  existsb (fun c => list_eqb n (name c)) l.

(** Collection.h:83-104 Add: [None] is the exception DuplicateName. *)
Definition coll_add (name : Z -> list Z) (c : Z) (l : list Z) : option (list Z) :=
  if has_name name (name c) l then None else Some (l ++ [c]).

Definition coll_of (t : Z) (r : reg) : list Z :=
  match aget Z.eqb t (r_targets r) with Some l => l | None => [] end.

Inductive lout := LDone | LDuplicate | LBool (b : bool) | LCount (n : Z) | LSources (l : list Z).

(** XsmpLinkRegistry.cpp:24-40 AddLink. *)
Definition add_link (name : Z -> list Z) (s t : Z) (r : reg) : reg * lout :=
  match aget pair_eqb (s, t) (r_links r) with
  | None =>
      let links := atry pair_eqb (s, t) 1 (r_links r) in
      let targets := atry Z.eqb t [] (r_targets r) in
      match coll_add name s (coll_of t r) with
      | Some l => (Reg links (aset Z.eqb t l targets), LDone)
      | None => (Reg links targets, LDuplicate)
      end
  | Some n => (Reg (aset pair_eqb (s, t) ((n + 1) mod u32) (r_links r)) (r_targets r), LDone)
  end.

(** XsmpLinkRegistry.cpp:42-51 GetLinkCount. *)
Definition link_count (s t : Z) (r : reg) : Z :=
  match aget pair_eqb (s, t) (r_links r) with Some n => n | None => 0 end.

(** XsmpLinkRegistry.cpp:53-73 RemoveLink. *)
Definition remove_link (s t : Z) (r : reg) : reg * lout :=
  match aget pair_eqb (s, t) (r_links r) with
  | None => (r, LBool false)
  | Some n =>
      let n' := (n - 1) mod u32 in
      if n' =? 0 then
        let targets := match aget Z.eqb t (r_targets r) with
                       | Some l => aset Z.eqb t (erase s l) (r_targets r)
                       | None => r_targets r
                       end in
        (Reg (adel pair_eqb (s, t) (r_links r)) targets, LBool true)
      else (Reg (aset pair_eqb (s, t) n' (r_links r)) (r_targets r), LBool true)
  end.

(** XsmpLinkRegistry.cpp:75-91 GetLinkSources. *)
Definition link_sources (t : Z) (r : reg) : reg * lout :=
  match aget Z.eqb t (r_targets r) with
  | Some l => (r, LSources l)
  | None => (Reg (r_links r) (atry Z.eqb t [] (r_targets r)), LSources [])
  end.

(** XsmpLinkRegistry.cpp:93-106 CanRemove; [linking c]: the component implements
    ILinkingComponent. *)
Definition can_remove (linking : Z -> bool) (t : Z) (r : reg) : bool := forallb linking (coll_of t r).

Inductive lop := LAdd (s t : Z) | LRemove (s t : Z) | LGetCount (s t : Z) | LGetSources (t : Z).

Definition lstep (name : Z -> list Z) (o : lop) (r : reg) : reg * lout :=
  match o with
  | LAdd s t => add_link name s t r
  | LRemove s t => remove_link s t r
  | LGetCount s t => (r, LCount (link_count s t r))
  | LGetSources t => link_sources t r
  end.

Fixpoint lrun (name : Z -> list Z) (r : reg) (os : list lop) : reg * list (lop * lout) :=
  match os with
  | [] => (r, [])
  | o :: os =>
      let '(r1, x) := lstep name o r in
      let '(r2, t) := lrun name r1 os in (r2, (o, x) :: t)
  end.

(** XsmpLinkRegistry.cpp:108-120 RemoveLinks: iteration over the collection by index
    (Collection.h:75-79: the iterators are a collection and an index, the end index is
    computed once; reading an index beyond the current size gives nullptr).
    [behave c]: the calls made on the registry by the RemoveLinks of the source c. *)
Fixpoint remove_links_from (name : Z -> list Z) (linking : Z -> bool) (behave : Z -> list lop) (t : Z)
    (n : nat) (j : nat) (r : reg) : reg * list Z :=
  match n with
  | O => (r, [])
  | S n =>
      match nth_error (coll_of t r) j with
      | Some c =>
          if linking c then
            let '(r', _) := lrun name r (behave c) in
            let '(r'', asked) := remove_links_from name linking behave t n (S j) r' in (r'', c :: asked)
          else remove_links_from name linking behave t n (S j) r
      | None => remove_links_from name linking behave t n (S j) r
      end
  end.
Definition remove_links name linking behave t (r : reg) : reg * list Z :=
  remove_links_from name linking behave t (length (coll_of t r)) 0 r.
