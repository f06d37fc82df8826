(** The fields of a publication: src/Xsmp/Publication/Publication.cpp:48-190 and 217-230
    (fields only), 290-296, with the anonymous arrays and structures of
    src/Xsmp/Publication/Field.cpp:203-247, 404-433, and the search of a field by its path,
    src/Xsmp/Helper.cpp:321-379.

    Simplified: the type registry does not change during the history; a field is known by a
    number, the rank of its publication; the field given to PublishField of an IField is one
    that nobody else published, described by its name and its shape; descriptions and views
    are left out, and of two exceptions the one named first here wins. *)
From Coq Require Import ZArith List Bool.
From Verif Require Import Base Text UuidModel AnyModel HelperModel TypeModel PlaceModel.
From Verif Require FieldStoreModel PathModel.
Import ListNotations.
Local Open Scope Z_scope.

(** A published field: one made for a type or given by the caller, or an anonymous array
    or structure, which is itself a publication. *)
Inductive what := Typed (f : mfield) | AnonArray | AnonStruct.

(** A field in a publication.  [e_in] is the number of the publication: 0 for the one of
    the component, otherwise that of the anonymous field.  [e_owned]: in _fields, otherwise
    in _allFields only (Publication.h). *)
Record entry := Entry { e_id : nat; e_in : nat; e_owned : bool; e_name : list Z; e_what : what }.

(** The publication of a component and the publications inside it. *)
Record pubs := Pubs { entries : list entry; fresh : nat }.

(** Publication.cpp:38-43. *)
Definition no_fields : pubs := Pubs [] 1.

Definition is_anon (w : what) : bool := match w with Typed _ => false | _ => true end.

(** The publication exists: it is that of the component, or its field has not been
    destroyed. *)
Definition live (s : pubs) (p : nat) : bool :=
  (p =? 0)%nat || existsb (fun e => (e_id e =? p)%nat && is_anon (e_what e)) (entries s).

(** The content of _fields, and what _allFields adds to it. *)
Definition owned (s : pubs) (p : nat) : list entry :=
  filter (fun e => (e_in e =? p)%nat && e_owned e) (entries s).
Definition added (s : pubs) (p : nat) : list entry :=
  filter (fun e => (e_in e =? p)%nat && negb (e_owned e)) (entries s).

(** GetFields (Publication.cpp:228-230) in order: Collection.h:272-277. *)
Definition fields (s : pubs) (p : nat) : list entry := owned s p ++ added s p.

Fixpoint find_named (n : list Z) (l : list entry) : option entry :=
  match l with [] => None | e :: r => if list_eqb n (e_name e) then Some e else find_named n r end.

(** Collection.h:263-266, at(name) of _allFields. *)
Definition at_name (s : pubs) (p : nat) (n : list Z) : option entry :=
  match find_named n (owned s p) with Some e => Some e | None => find_named n (added s p) end.

(** The name given to the constructor of a field, Field.cpp:60-66, 73-75; [None] is the null
    pointer. *)
Definition the_name (n : option (list Z)) : res texn (list Z) :=
  match check_name (option_map (fun n => n ++ [0]) n) with
  | Ok s => Ok s
  | Throw _ => Throw InvalidObjectName
  | UB => UB
  end.

Definition taken (o : option entry) : bool := match o with Some _ => true | None => false end.

(** Collection.h:211-220 and 83-104, Add: [seen] is what at(name) finds. *)
Definition insert (s : pubs) (p : nat) (own : bool) (n : list Z) (w : what) (seen : option entry) : pubs * res texn nat :=
  if taken seen then (s, Throw DuplicateName)
  else (Pubs (entries s ++ [Entry (fresh s) p own n w]) (S (fresh s)), Ok (fresh s)).

(** _fields.Add of a field that has been created. *)
Definition add_own (s : pubs) (p : nat) (n : option (list Z)) (w : res texn what) : pubs * res texn nat :=
  match the_name n, w with
  | Ok m, Ok w => insert s p true m w (find_named m (owned s p))
  | Ok _, Throw e => (s, Throw e)
  | Throw e, _ => (s, Throw e)
  | _, _ => (s, UB)
  end.

Inductive call :=
| PublishField (p : nat) (n : option (list Z)) (u addr : Z) (fl : flags)
| PublishIField (p : nat) (n : list Z) (f : mfield)
| PublishSimpleArray (p : nat) (n : option (list Z)) (count addr : Z) (k : kind) (fl : flags)
| PublishArray (p : nat) (n : option (list Z))
| PublishStructure (p : nat) (n : option (list Z))
| Unpublish (p : nat).

Definition target (c : call) : nat :=
  match c with
  | PublishField p _ _ _ _ | PublishIField p _ _ | PublishSimpleArray p _ _ _ _ _ | PublishArray p _
  | PublishStructure p _ | Unpublish p => p
  end.

(** Field.cpp:237-247, the constructor of AnonymousSimpleArrayField; 260-292 GetItemSize.
    The item type is that of the kind (TypeRegistry.cpp:412-455); String8 and Void are
    refused (Field.cpp:48-57). *)
Definition simple_array (r : reg) (count addr : Z) (k : kind) (fl : flags) : res texn what :=
  match get_type_kind r k with
  | None => Throw InvalidFieldType
  | Some t =>
      match FieldStoreModel.kind_size k with
      | None => Throw IncompatibleType
      | Some size => Ok (Typed (MSArr addr (leaf_of t) (Z.of_nat size) (if 0 <=? count then count else 0) fl))
      end
  end.

(** Publication.cpp:290-296, Unpublish: the fields go, and with an anonymous field the
    fields published in it.  [dead] are the publications that are emptied. *)
Fixpoint drop (dead : list nat) (l : list entry) : list entry :=
  match l with
  | [] => []
  | e :: r => if existsb (Nat.eqb (e_in e)) dead then drop (e_id e :: dead) r else e :: drop dead r
  end.

(** Publication.cpp:145-190.  The result is the number of the field.  A call on a
    publication that was destroyed is undefined.  [d] bounds the depth of types, as in
    PlaceModel.v. *)
Definition step (d : nat) (r : reg) (c : call) (s : pubs) : pubs * res texn nat :=
  if negb (live s (target c)) then (s, UB)
  else match c with
       | PublishField p n u addr fl =>
           match place d r u addr fl with
           | None => (s, Throw TypeNotRegistered)
           | Some (Ok f) => add_own s p n (Ok (Typed f))
           | Some (Throw e) => add_own s p n (Throw e)
           | Some UB => (s, UB)
           end
       | PublishIField p n f => insert s p false n (Typed f) (at_name s p n)
       | PublishSimpleArray p n count addr k fl => add_own s p n (simple_array r count addr k fl)
       | PublishArray p n => add_own s p n (Ok AnonArray)
       | PublishStructure p n => add_own s p n (Ok AnonStruct)
       | Unpublish p => (Pubs (drop [p] (entries s)) (fresh s), Ok p)
       end.

Fixpoint run (d : nat) (r : reg) (s : pubs) (h : list call) : pubs * list (call * res texn nat) :=
  match h with
  | [] => (s, [])
  | c :: h =>
      let '(s1, x) := step d r c s in
      let '(s2, t) := run d r s1 h in (s2, (c, x) :: t)
  end.

(** * GetField *)

(** The field found: the number of a published field and a path of positions inside it. *)
Definition field_id := (nat * list nat)%type.

(** [Elsewhere]: a segment is "..", and the search goes on from an object outside the
    publication (Helper.cpp:329-334, 347-349; PathModel.v). *)
Inductive lookup (A : Type) := Found (x : A) | Nothing | Elsewhere.
Arguments Found {A} x. Arguments Nothing {A}. Arguments Elsewhere {A}.

Definition lmap {A B} (f : A -> B) (l : lookup A) : lookup B :=
  match l with Found x => Found (f x) | Nothing => Nothing | Elsewhere => Elsewhere end.

Fixpoint child_pos (n : list Z) (fs : list (list Z * mfield)) : option (nat * mfield) :=
  match fs with
  | [] => None
  | (m, c) :: r => if list_eqb n m then Some (O, c) else option_map (fun x => (S (fst x), snd x)) (child_pos n r)
  end.

(** Helper.cpp:340-379 Resolve(IField*, path), inside a field with a type. *)
Fixpoint inside (f : mfield) (segs : list (Z * list Z)) {struct segs} : lookup (list nat) :=
  match segs with
  | [] => Found []
  | (_, seg) :: rest =>
      if list_eqb seg PathModel.dotdot then Elsewhere
      else match f with
           | MStruct fs _ => match child_pos seg fs with Some (i, c) => lmap (cons i) (inside c rest) | None => Nothing end
           | MArr items _ =>
               match PathModel.item_index seg (length items) with
               | Some i => match nth_error items i with Some c => lmap (cons i) (inside c rest) | None => Nothing end
               | None => Nothing
               end
           | _ => Nothing
           end
  end.

(** The same from a published field; Field.cpp:226-236 and 431-433 for anonymous ones. *)
Fixpoint from_field (s : pubs) (e : entry) (segs : list (Z * list Z)) {struct segs} : lookup field_id :=
  match e_what e with
  | Typed f => lmap (fun p => (e_id e, p)) (inside f segs)
  | w =>
      match segs with
      | [] => Found (e_id e, [])
      | (_, seg) :: rest =>
          if list_eqb seg PathModel.dotdot then Elsewhere
          else match match w with
                     | AnonStruct => at_name s (e_id e) seg
                     | _ => match PathModel.item_index seg (length (fields s (e_id e))) with
                            | Some i => nth_error (fields s (e_id e)) i
                            | None => None
                            end
                     end with
               | Some c => from_field s c rest
               | None => Nothing
               end
      end
  end.

(** Helper.cpp:321-339 Resolve(FieldCollection*, path). *)
Definition from_fields (s : pubs) (p : nat) (segs : list (Z * list Z)) : lookup field_id :=
  match segs with
  | [] => Nothing
  | (_, seg) :: rest =>
      if list_eqb seg PathModel.dotdot then Elsewhere
      else match at_name s p seg with Some e => from_field s e rest | None => Nothing end
  end.

Inductive answer := Got (f : field_id) | InvalidFieldName | Null | Outside.

Fixpoint entry_of (p : nat) (l : list entry) : option entry :=
  match l with [] => None | e :: r => if (e_id e =? p)%nat then Some e else entry_of p r end.

(** IPublication::GetField.  Publication.cpp:217-226; for an anonymous structure, whose
    class derives from Publication and from IStructureField, Field.cpp:431-433 overrides
    both GetField.  [None] is the null pointer. *)
Definition get_field (s : pubs) (p : nat) (path : option (list Z)) : answer :=
  match option_map e_what (entry_of p (entries s)) with
  | Some AnonStruct =>
      match path with
      | None => Null
      | Some t => match at_name s p t with Some e => Got (e_id e, []) | None => Null end
      end
  | _ =>
      match path with
      | None => InvalidFieldName
      | Some t => match from_fields s p (PathModel.segments t) with
                  | Found x => Got x
                  | Nothing => InvalidFieldName
                  | Elsewhere => Outside
                  end
      end
  end.

(** * GetPath *)

(** The path, from the component on, of the parent of the fields of publication [p], and a
    separator.  The parent of the fields is the anonymous structure itself
    (Field.cpp:404-409), but for an anonymous array it is the parent of the array
    (Field.cpp:203-208).  [n] bounds the depth. *)
Fixpoint parent_path (n : nat) (s : pubs) (p : nat) : list Z :=
  match n with
  | O => []
  | S n =>
      if (p =? 0)%nat then []
      else match entry_of p (entries s) with
           | None => []
           | Some e =>
               match e_what e with
               | AnonStruct => parent_path n s (e_in e) ++ e_name e ++ [46]
               | _ => parent_path n s (e_in e)
               end
           end
  end.

(** Helper.cpp:294-319 GetPath, after the path of the component and its separator. *)
Definition path_of (s : pubs) (e : entry) : list Z := parent_path (S (e_in e)) s (e_in e) ++ e_name e.
