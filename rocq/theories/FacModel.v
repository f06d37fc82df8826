(** Model of src/Xsmp/FactoryCollection.cpp, src/Xsmp/Factory.cpp (CreateInstance), the
    parts of src/Xsmp/Simulator.cpp that use them, src/Xsmp/FallibleModel.cpp and
    Failure (src/Xsmp/Field.cpp:336-354).

    Factories, components and failures are addresses.  A UUID is a list of bytes, a name a
    byte string; they do not change. *)
From Verif Require Import Base Assoc UuidModel EventModel CollModel.

(** ** Factories *)
Record facs := Facs {
  f_uuid : list (list Z * Z);       (* _uuid_map, owns the factories *)
  f_name : list (list Z * Z);       (* _factory_map *)
  f_list : list Z;                  (* _factories *)
  f_freed : list Z;                 (* factories that have been deleted *)
}.
Definition facs_init : facs := Facs [] [] [] [].

Inductive facres := FacDone | FacDuplicateUuid | FacUseAfterFree.

Section Factories.
  Context (uuid name : Z -> list Z).

  (** FactoryCollection.cpp:58-68 Add (Simulator::RegisterFactory, Simulator.cpp:641-643).
      The local unique_ptr factoryPointer deletes the factory when the exception leaves. *)
  Definition fac_add (f : Z) (s : facs) : facs * facres :=
    if holds f (f_freed s) then (s, FacUseAfterFree)
    else match aget list_eqb (uuid f) (f_uuid s) with
         | Some _ => (Facs (f_uuid s) (f_name s) (f_list s) (f :: f_freed s), FacDuplicateUuid)
         | None => (Facs (atry list_eqb (uuid f) f (f_uuid s)) (atry list_eqb (name f) f (f_name s)) (f_list s ++ [f]) (f_freed s), FacDone)
         end.

  (** FactoryCollection.cpp:32-55 *)
  Definition fac_by_name (n : option (list Z)) (s : facs) : option Z :=
    match n with None => None | Some n => aget list_eqb n (f_name s) end.
  Definition fac_by_index (i : nat) (s : facs) : option Z :=
    if (i <? length (f_list s))%nat then nth_error (f_list s) i else None.
  Definition fac_by_uuid (u : list Z) (s : facs) : option Z := aget list_eqb u (f_uuid s).
  Definition fac_size (s : facs) : nat := length (f_list s).

  Fixpoint fac_run (s : facs) (fs : list Z) : facs * list (Z * facres) :=
    match fs with
    | [] => (s, [])
    | f :: fs => let '(s1, r) := fac_add f s in let '(s2, t) := fac_run s1 fs in (s2, (f, r) :: t)
    end.

  (** Simulator.cpp:645-656 CreateInstance and Factory.cpp:39-50: [make f] is the
      component the callback of the factory creates, [cuuid c] its GetUuid(). *)
  Inductive created := CrNull | CrComponent (c : Z) | CrInvalidFactory.
  Definition create_instance (make : Z -> Z) (cuuid : Z -> list Z) (u : list Z) (s : facs) : created :=
    match fac_by_uuid u s with
    | None => CrNull
    | Some f => if negb (list_eqb (cuuid (make f)) (uuid f)) then CrInvalidFactory else CrComponent (make f)
    end.
End Factories.

(** ** Failures *)
Inductive failop :=
| LRegister (f : Z)                  (** Failure::Register, Field.cpp:338-342: AddFailure *)
| LFail (f : Z) | LUnfail (f : Z)    (** Field.cpp:344-346 *)
| LRestore (f : Z) (v : option bool).
    (** Field.cpp:348-350: the stored flag, [None] when the reader throws *)
Inductive failres := LDone | LDuplicateName | LThrows.

Record fall := Fall { failures : list Z; flags : list (Z * bool) }.
Definition fall_init : fall := Fall [] [].

(** Field.cpp:336 Failure::IsFailed; _failed is false at first. *)
Definition is_failed (f : Z) (s : fall) : bool := match aget Z.eqb f (flags s) with Some b => b | None => false end.

Definition fall_step (name : Z -> list Z) (o : failop) (s : fall) : fall * failres :=
  match o with
  | LRegister f =>
      match coll_step name (fun _ => true) false (CoAdd f) (failures s) with
      | (l, CoDone) => (Fall l (flags s), LDone)
      | (_, _) => (s, LDuplicateName)
      end
  | LFail f => (Fall (failures s) (aset Z.eqb f true (flags s)), LDone)
  | LUnfail f => (Fall (failures s) (aset Z.eqb f false (flags s)), LDone)
  | LRestore f (Some b) => (Fall (failures s) (aset Z.eqb f b (flags s)), LDone)
  | LRestore f None => (s, LThrows)
  end.
Fixpoint fall_run name (s : fall) (os : list failop) : fall * list (failop * failres) :=
  match os with
  | [] => (s, [])
  | o :: os => let '(s1, r) := fall_step name o s in let '(s2, t) := fall_run name s1 os in (s2, (o, r) :: t)
  end.

(** FallibleModel.cpp:23-31 IsFailed: the loop over the failures. *)
Fixpoint any_failed (l : list Z) (s : fall) : bool :=
  match l with [] => false | f :: r => if is_failed f s then true else any_failed r s end.
Definition model_failed (s : fall) : bool := any_failed (failures s) s.
