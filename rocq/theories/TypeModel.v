(** Model of the type registry: src/Xsmp/Publication/TypeRegistry.cpp, Type.cpp, and
    the expansion of a type into fields by src/Xsmp/Publication/Field.cpp.

    Simplifications: a UUID is a number (the comparison of UUIDs is the subject of
    UuidProps.v); a type object is named by its UUID, so the pointer an array type keeps
    to its item type is the UUID of the item type; descriptions, units and views are
    left out.  A name is a C string: the list of its characters without the final NUL,
    and is never the null pointer. *)
From Coq Require Import ZArith List Bool Floats.SpecFloat.
From Verif Require Import Base Text UuidModel Assoc AnyModel HelperModel.
Import ListNotations.
Local Open Scope Z_scope.

(** Type.h:187-196, StructureType::Field. *)
Record sfield := SField {
  sf_name : list Z; sf_type : Z; sf_offset : Z;
  sf_state : bool; sf_input : bool; sf_output : bool
}.

(** The classes of Type.h:32-222, with their data members. *)
Inductive tdef :=
| DPrim (k : kind)                                           (** PrimitiveType *)
| DEnum (k : kind) (lits : list (Z * list Z))                (** EnumerationType *)
| DFloat (k : kind) (lo hi : spec_float) (lo_in hi_in : bool)  (** FloatType *)
| DInt (k : kind) (lo hi : Z)                                (** IntegerType *)
| DString (len : Z)                                          (** StringType *)
| DArray (item : Z) (isize count : Z) (simple : bool)        (** ArrayType *)
| DStruct (fs : list sfield)                                 (** StructureType *)
| DClass (base : Z) (fs : list sfield).                      (** ClassType *)

Record ty := Ty { ty_name : list Z; ty_def : tdef }.

(** Type.cpp:37-39 and 80-82, GetPrimitiveTypeKind. *)
Definition ty_kind (t : ty) : kind :=
  match ty_def t with
  | DPrim k | DEnum k _ | DFloat k _ _ _ _ | DInt k _ _ => k
  | DString _ => KString8
  | DArray _ _ _ _ | DStruct _ | DClass _ _ => KNone
  end.

(** TypeRegistry.h: _types, in order of registration. *)
Definition reg := list (Z * ty).

(** TypeRegistry.cpp:457-462, GetType(Uuid). *)
Definition get_type (r : reg) (u : Z) : option ty := aget Z.eqb u r.

(** The UUIDs Smp::Uuids (Smp/PrimitiveTypes.h and others, outside /repo). *)
Definition uChar8 := 0. Definition uString8 := 1. Definition uBool := 2.
Definition uInt8 := 3. Definition uInt16 := 4. Definition uInt32 := 5. Definition uInt64 := 6.
Definition uUInt8 := 7. Definition uUInt16 := 8. Definition uUInt32 := 9. Definition uUInt64 := 10.
Definition uFloat32 := 11. Definition uFloat64 := 12.
Definition uDuration := 13. Definition uDateTime := 14. Definition uVoid := 15.
Definition uPrimitiveTypeKind := 16. Definition uEventId := 17. Definition uLogMessageKind := 18.
Definition uTimeKind := 19. Definition uViewKind := 20. Definition uParameterDirectionKind := 21.
Definition uComponentStateKind := 22. Definition uAccessKind := 23. Definition uSimulatorStateKind := 24.

Inductive texn :=
  TypeAlreadyRegistered | TypeNotRegistered | IncompatibleType | InvalidPrimitiveType
| InvalidObjectName | DuplicateLiteral | InvalidFieldType | DuplicateName.

(** Type.cpp:28-31, the constructor of Type: checkName. *)
Definition with_name (n : list Z) (d : tdef) : res texn ty :=
  match check_name (Some (n ++ [0])) with
  | Ok s => Ok (Ty s d)
  | Throw _ => Throw InvalidObjectName
  | UB => UB
  end.

(** Type.cpp:85-99, [kind(name, memorySize)]. *)
Definition size_kind (size : Z) : option kind :=
  if size =? 1 then Some KI8 else if size =? 2 then Some KI16
  else if size =? 4 then Some KI32 else if size =? 8 then Some KI64 else None.

(** Type.cpp:53-72, the constructor of ArrayType; negative sizes become zero. *)
Definition mk_array (r : reg) (n : list Z) (item isize count : Z) (simple : bool) : res texn ty :=
  bind (with_name n (DArray item (Z.max isize 0) (Z.max count 0) simple)) (fun t =>
    match get_type r item with
    | None => Throw TypeNotRegistered
    | Some _ => if (item =? uString8) || (item =? uVoid) then Throw IncompatibleType else Ok t
    end).

(** Type.cpp:188-211, the constructor of ClassType; an IClassType is a ClassType. *)
Definition mk_class (r : reg) (n : list Z) (u base : Z) : res texn ty :=
  bind (with_name n (DClass base [])) (fun t =>
    if base =? uVoid then Ok t
    else if base =? u then Throw IncompatibleType
    else match get_type r base with
         | None => Throw TypeNotRegistered
         | Some b => match ty_def b with DClass _ _ => Ok t | _ => Throw IncompatibleType end
         end).

(** TypeRegistry.cpp:464-478, AddType: the lookup comes first, then the constructor of
    the type, then the insertion.  The result is the UUID: the returned pointer. *)
Definition add_type (r : reg) (u : Z) (mk : res texn ty) : reg * res texn Z :=
  match get_type r u with
  | Some _ => (r, Throw TypeAlreadyRegistered)
  | None => match mk with
            | Ok t => (r ++ [(u, t)], Ok u)
            | Throw e => (r, Throw e)
            | UB => (r, UB)
            end
  end.

Definition is_float_kind (k : kind) : bool := match k with KF32 | KF64 => true | _ => false end.
Definition is_int_kind (k : kind) : bool :=
  match k with KI8 | KI16 | KI32 | KI64 | KU8 | KU16 | KU32 | KU64 => true | _ => false end.

(** The calls that change the registry or one of its types. *)
Inductive top :=
| TFloat (n : list Z) (u : Z) (lo hi : spec_float) (lo_in hi_in : bool) (k : kind)
| TInt (n : list Z) (u : Z) (lo hi : Z) (k : kind)
| TEnum (n : list Z) (u : Z) (size : Z)
| TArray (n : list Z) (u : Z) (item isize count : Z) (simple : bool)
| TString (n : list Z) (u : Z) (len : Z)
| TStruct (n : list Z) (u : Z)
| TClass (n : list Z) (u base : Z)
| TPrim (n : list Z) (u : Z) (k : kind)   (** only in the constructor of the registry *)
| TLiteral (u : Z) (n : list Z) (v : Z)   (** AddLiteral of the type u *)
| TField (u : Z) (f : sfield).            (** AddField of the type u *)

(** Replacing the content of the type object [u]. *)
Fixpoint upd_type (u : Z) (d : tdef) (r : reg) : reg :=
  match r with
  | [] => []
  | (v, t) :: r => if u =? v then (v, Ty (ty_name t) d) :: r else (v, t) :: upd_type u d r
  end.

(** Type.cpp:106-116, AddLiteral (std::map: at most one literal per value).  Undefined
    when the object is not an enumeration: there is no such pointer. *)
Definition add_literal (r : reg) (u : Z) (n : list Z) (v : Z) : reg * res texn Z :=
  match get_type r u with
  | Some (Ty _ (DEnum k ls)) =>
      match aget Z.eqb v ls with
      | Some _ => (r, Throw DuplicateLiteral)
      | None => (upd_type u (DEnum k (ls ++ [(v, n)])) r, Ok u)
      end
  | _ => (r, UB)
  end.

(** Type.cpp:173-180, AddField: nothing is checked. *)
Definition add_field (r : reg) (u : Z) (f : sfield) : reg * res texn Z :=
  match get_type r u with
  | Some (Ty _ (DStruct fs)) => (upd_type u (DStruct (fs ++ [f])) r, Ok u)
  | Some (Ty _ (DClass b fs)) => (upd_type u (DClass b (fs ++ [f])) r, Ok u)
  | _ => (r, UB)
  end.

(** TypeRegistry.cpp:480-562. *)
Definition tstep (r : reg) (o : top) : reg * res texn Z :=
  match o with
  | TFloat n u lo hi li hi_in k =>
      if is_float_kind k then add_type r u (with_name n (DFloat k lo hi li hi_in))
      else (r, Throw InvalidPrimitiveType)
  | TInt n u lo hi k =>
      if is_int_kind k then add_type r u (with_name n (DInt k lo hi))
      else (r, Throw InvalidPrimitiveType)
  | TEnum n u size =>
      add_type r u (match size_kind size with
                    | Some k => with_name n (DEnum k [])
                    | None => Throw InvalidPrimitiveType
                    end)
  | TArray n u item isize count simple => add_type r u (mk_array r n item isize count simple)
  | TString n u len => add_type r u (with_name n (DString len))
  | TStruct n u => add_type r u (with_name n (DStruct []))
  | TClass n u base => add_type r u (mk_class r n u base)
  | TPrim n u k => add_type r u (with_name n (DPrim k))
  | TLiteral u n v => add_literal r u n v
  | TField u f => add_field r u f
  end.

Definition trun (r : reg) (os : list top) : reg := fold_left (fun r o => fst (tstep r o)) os r.

(** TypeRegistry.cpp:30-397, the constructor. *)
Definition prims : list top := [
  TPrim (codes "Char8") uChar8 KChar8; TPrim (codes "String8") uString8 KString8;
  TPrim (codes "Bool") uBool KBool; TPrim (codes "Int8") uInt8 KI8;
  TPrim (codes "Int16") uInt16 KI16; TPrim (codes "Int32") uInt32 KI32;
  TPrim (codes "Int64") uInt64 KI64; TPrim (codes "UInt8") uUInt8 KU8;
  TPrim (codes "UInt16") uUInt16 KU16; TPrim (codes "UInt32") uUInt32 KU32;
  TPrim (codes "UInt64") uUInt64 KU64; TPrim (codes "Float32") uFloat32 KF32;
  TPrim (codes "Float64") uFloat64 KF64; TPrim (codes "Duration") uDuration KDuration;
  TPrim (codes "DateTime") uDateTime KDateTime; TPrim (codes "Void") uVoid KNone ].

Fixpoint lits (u : Z) (i : Z) (names : list (list Z)) : list top :=
  match names with
  | [] => []
  | n :: r => TLiteral u n i :: lits u (i + 1) r
  end.

Definition reg_ctor : list top :=
  prims ++
  TEnum (codes "PrimitiveTypeKind") uPrimitiveTypeKind 4 ::
  lits uPrimitiveTypeKind 0
    [codes "PTK_None"; codes "PTK_Char8"; codes "PTK_Bool"; codes "PTK_Int8"; codes "PTK_UInt8";
     codes "PTK_Int16"; codes "PTK_UInt16"; codes "PTK_Int32"; codes "PTK_UInt32"; codes "PTK_Int64";
     codes "PTK_UInt64"; codes "PTK_Float32"; codes "PTK_Float64"; codes "PTK_Duration";
     codes "PTK_DateTime"; codes "PTK_String8"] ++
  TInt (codes "EventId") uEventId i64_min i64_max KI64 ::
  TInt (codes "LogMessageKind") uLogMessageKind 0 2147483647 KI32 ::
  TEnum (codes "TimeKind") uTimeKind 4 ::
  lits uTimeKind 0 [codes "TK_SimulationTime"; codes "TK_MissionTime"; codes "TK_EpochTime"; codes "TK_ZuluTime"] ++
  TEnum (codes "ViewKind") uViewKind 4 ::
  lits uViewKind 0 [codes "VK_None"; codes "VK_Debug"; codes "VK_Expert"; codes "VK_All"] ++
  TEnum (codes "ParameterDirectionKind") uParameterDirectionKind 4 ::
  lits uParameterDirectionKind 0 [codes "PDK_In"; codes "PDK_Out"; codes "PDK_InOut"; codes "PDK_Return"] ++
  TEnum (codes "ComponentStateKind") uComponentStateKind 4 ::
  lits uComponentStateKind 0
    [codes "CSK_Created"; codes "CSK_Publishing"; codes "CSK_Configured"; codes "CSK_Connected"; codes "CSK_Disconnected"] ++
  TEnum (codes "AccessKind") uAccessKind 4 ::
  lits uAccessKind 0 [codes "AK_ReadWrite"; codes "AK_ReadOnly"; codes "AK_WriteOnly"] ++
  TEnum (codes "SimulatorStateKind") uSimulatorStateKind 4 ::
  lits uSimulatorStateKind 0
    [codes "SSK_Building"; codes "SSK_Connecting"; codes "SSK_Initialising"; codes "SSK_Standby";
     codes "SSK_Executing"; codes "SSK_Storing"; codes "SSK_Restoring"; codes "SSK_Reconnecting";
     codes "SSK_Exiting"; codes "SSK_Aborting"].

Definition new_registry : reg := trun [] reg_ctor.

(** TypeRegistry.cpp:412-455, GetType(PrimitiveTypeKind). *)
Definition kind_uuid (k : kind) : Z :=
  match k with
  | KBool => uBool | KChar8 => uChar8 | KF32 => uFloat32 | KF64 => uFloat64
  | KI8 => uInt8 | KI16 => uInt16 | KI32 => uInt32 | KI64 => uInt64
  | KDuration => uDuration | KDateTime => uDateTime
  | KU8 => uUInt8 | KU16 => uUInt16 | KU32 => uUInt32 | KU64 => uUInt64
  | KString8 => uString8 | KNone => uVoid
  end.
Definition get_type_kind (r : reg) (k : kind) : option ty := get_type r (kind_uuid k).

(** * Expansion into fields *)

(** The shape of a published field. *)
Inductive pfield :=
| PSimple (u : Z)                          (** SimpleField *)
| PSimpleArray (u : Z) (count : Z)         (** SimpleArrayField *)
| PArray (items : list pfield)             (** ArrayField *)
| PStruct (fs : list (list Z * pfield)).   (** StructureField *)

Fixpoint collect {A} (l : list (res texn A)) : res texn (list A) :=
  match l with
  | [] => Ok []
  | x :: r => bind x (fun a => bind (collect r) (fun b => Ok (a :: b)))
  end.

Fixpoint has_name (n : list Z) (l : list (list Z * pfield)) : bool :=
  match l with [] => false | (m, _) :: r => list_eqb n m || has_name n r end.

(** Publication/Field.cpp:801-819, the fields of a structure in order: each is created,
    then added to the collection, which rejects a name already there
    (Collection.h:211-220); [acc] is what was added so far, [mk] is Create. *)
Fixpoint add_fields (mk : Z -> option (res texn pfield)) (fs : list sfield) (acc : list (list Z * pfield))
  : res texn (list (list Z * pfield)) :=
  match fs with
  | [] => Ok acc
  | f :: r =>
      match mk (sf_type f) with
      | None => Throw TypeNotRegistered
      | Some x =>
          match check_name (Some (sf_name f ++ [0])), x with
          | Throw _, _ => Throw InvalidObjectName
          | UB, _ => UB
          | Ok n, Ok p => if has_name n acc then Throw DuplicateName else add_fields mk r (acc ++ [(n, p)])
          | Ok _, Throw e => Throw e
          | Ok _, UB => UB
          end
      end
  end.

(** Publication/Field.cpp:87-141, Create; 48-57 and 639 no field of type String8; 437-452
    the items of an array.  [n] bounds the
    depth of the recursion: beyond it the call stack is exhausted.  Simplified: the
    fields of an item are created before the remaining items, and of two exceptions the
    first wins; the name of a field is checked before its parts. *)
Fixpoint expand (n : nat) (r : reg) (u : Z) : option (res texn pfield) :=
  match n with
  | O => Some UB
  | S n =>
      match get_type r u with
      | None => None
      | Some t => Some
          (match ty_kind t with
           | KNone =>
               match ty_def t with
               | DArray item _ count simple =>
                   match get_type r item with
                   | None => UB
                   | Some it =>
                       if simple && negb (match ty_kind it with KNone => true | _ => false end)
                       then Ok (PSimpleArray item count)
                       else bind (collect (map (fun _ => match expand n r item with Some x => x | None => UB end)
                                               (repeat tt (Z.to_nat count))))
                              (fun l => Ok (PArray l))
                   end
               | DStruct fs => bind (add_fields (expand n r) fs []) (fun l => Ok (PStruct l))
               | DClass _ fs => bind (add_fields (expand n r) fs []) (fun l => Ok (PStruct l))
               | _ => Throw InvalidFieldType
               end
           | _ => if u =? uString8 then Throw IncompatibleType else Ok (PSimple u)
           end)
      end
  end.
