(** What is meant by the properties of the type registry. *)
From Coq Require Import ZArith List Bool Relations String.
From Verif Require Import Base Text AnyModel HelperSpec TypeModel.
Import ListNotations.
Local Open Scope Z_scope.

(** The UUID under which a call wants to register a type, and the name it gives. *)
Definition registers (o : top) : option (Z * list Z) :=
  match o with
  | TFloat n u _ _ _ _ _ | TInt n u _ _ _ | TEnum n u _ | TArray n u _ _ _ _
  | TString n u _ | TStruct n u | TClass n u _ | TPrim n u _ => Some (u, n)
  | TLiteral _ _ _ | TField _ _ => None
  end.

(** The call adds a literal or a field to the type [u]. *)
Definition adds_to (u : Z) (o : top) : Prop :=
  match o with TLiteral v _ _ => v = u | TField v _ => v = u | _ => False end.

(** The description of a type besides its name, its UUID and whether it is registered
    is acceptable. *)
Definition sound (r : reg) (o : top) : Prop :=
  match o with
  | TFloat _ _ _ _ _ _ k => k = KF32 \/ k = KF64
  | TInt _ _ _ _ k => In k [KI8; KI16; KI32; KI64; KU8; KU16; KU32; KU64]
  | TEnum _ _ size => In size [1; 2; 4; 8]
  | TArray _ _ item _ _ _ => get_type r item <> None /\ item <> uString8 /\ item <> uVoid
  | TClass _ u base =>
      base = uVoid \/ (base <> u /\ exists n b fs, get_type r base = Some (Ty n (DClass b fs)))
  | _ => True
  end.

(** What is registered is what the call describes: the content of the new type. *)
Definition described (o : top) (d : tdef) : Prop :=
  match o with
  | TFloat _ _ lo hi lo_in hi_in k => d = DFloat k lo hi lo_in hi_in
  | TInt _ _ lo hi k => d = DInt k lo hi
  | TEnum _ _ size => exists k, d = DEnum k [] /\ In (size, k) [(1, KI8); (2, KI16); (4, KI32); (8, KI64)]
  | TArray _ _ item isize count simple => d = DArray item (Z.max 0 isize) (Z.max 0 count) simple
  | TString _ _ len => d = DString len
  | TStruct _ _ => d = DStruct []
  | TClass _ _ base => d = DClass base []
  | TPrim _ _ k => d = DPrim k
  | TLiteral _ _ _ | TField _ _ => False
  end.

(** The enumerations of the SMP standard with their literals, which are numbered from
    zero in this order. *)
Definition standard_enums : list (Z * string * list string) := [
  (uPrimitiveTypeKind, "PrimitiveTypeKind",
    ["PTK_None"; "PTK_Char8"; "PTK_Bool"; "PTK_Int8"; "PTK_UInt8"; "PTK_Int16"; "PTK_UInt16"; "PTK_Int32";
     "PTK_UInt32"; "PTK_Int64"; "PTK_UInt64"; "PTK_Float32"; "PTK_Float64"; "PTK_Duration"; "PTK_DateTime";
     "PTK_String8"]);
  (uTimeKind, "TimeKind", ["TK_SimulationTime"; "TK_MissionTime"; "TK_EpochTime"; "TK_ZuluTime"]);
  (uViewKind, "ViewKind", ["VK_None"; "VK_Debug"; "VK_Expert"; "VK_All"]);
  (uParameterDirectionKind, "ParameterDirectionKind", ["PDK_In"; "PDK_Out"; "PDK_InOut"; "PDK_Return"]);
  (uComponentStateKind, "ComponentStateKind",
    ["CSK_Created"; "CSK_Publishing"; "CSK_Configured"; "CSK_Connected"; "CSK_Disconnected"]);
  (uAccessKind, "AccessKind", ["AK_ReadWrite"; "AK_ReadOnly"; "AK_WriteOnly"]);
  (uSimulatorStateKind, "SimulatorStateKind",
    ["SSK_Building"; "SSK_Connecting"; "SSK_Initialising"; "SSK_Standby"; "SSK_Executing"; "SSK_Storing";
     "SSK_Restoring"; "SSK_Reconnecting"; "SSK_Exiting"; "SSK_Aborting"]) ]%string.

(** The other types of the SMP standard. *)
Definition standard_types : list (Z * string * tdef) := [
  (uChar8, "Char8", DPrim KChar8); (uString8, "String8", DPrim KString8); (uBool, "Bool", DPrim KBool);
  (uInt8, "Int8", DPrim KI8); (uInt16, "Int16", DPrim KI16); (uInt32, "Int32", DPrim KI32);
  (uInt64, "Int64", DPrim KI64); (uUInt8, "UInt8", DPrim KU8); (uUInt16, "UInt16", DPrim KU16);
  (uUInt32, "UInt32", DPrim KU32); (uUInt64, "UInt64", DPrim KU64); (uFloat32, "Float32", DPrim KF32);
  (uFloat64, "Float64", DPrim KF64); (uDuration, "Duration", DPrim KDuration);
  (uDateTime, "DateTime", DPrim KDateTime); (uVoid, "Void", DPrim KNone);
  (uEventId, "EventId", DInt KI64 (-9223372036854775808) 9223372036854775807);
  (uLogMessageKind, "LogMessageKind", DInt KI32 0 2147483647) ]%string.

(** A type afterwards: the same, except for literals or fields added at the end. *)
Definition grown (t t' : ty) : Prop :=
  ty_name t' = ty_name t /\
  match ty_def t, ty_def t' with
  | DEnum k l, DEnum k' l' => k' = k /\ exists x, l' = l ++ x
  | DStruct l, DStruct l' => exists x, l' = l ++ x
  | DClass b l, DClass b' l' => b' = b /\ exists x, l' = l ++ x
  | d, d' => d' = d
  end.

(** The direct base class of a class. *)
Definition base_class (r : reg) (u b : Z) : Prop :=
  exists n fs, get_type r u = Some (Ty n (DClass b fs)).

(** A chain of base classes that ends with Void. *)
Inductive rooted (r : reg) : Z -> Prop :=
| rooted_void : rooted r uVoid
| rooted_base : forall u b, base_class r u b -> rooted r b -> rooted r u.

(** [v] is registered, and was so before [u]. *)
Definition before (r : reg) (v u : Z) : Prop :=
  exists r1 t r2, r = r1 ++ (u, t) :: r2 /\ In v (map fst r1).

(** Fields are only added with types registered before the structure. *)
Fixpoint in_order (r : reg) (os : list top) : Prop :=
  match os with
  | [] => True
  | o :: os =>
      match o with TField u f => before r (sf_type f) u | _ => True end /\
      in_order (fst (tstep r o)) os
  end.

(** Publishing a field of the type [u] comes to an end, with the field or with an
    exception: some finite depth of the call stack is enough. *)
Definition publishable (r : reg) (u : Z) : Prop :=
  exists x, x <> UB /\
  exists n, forall m, (n <= m)%nat -> expand m r u = Some x.

(** A literal of an enumeration. *)
Definition literal (r : reg) (u v : Z) : Prop :=
  exists n k ls s, get_type r u = Some (Ty n (DEnum k ls)) /\ In (v, s) ls.

Definition has_parts (t : ty) : Prop := ty_kind t = KNone.

(** The field [p] is what a field of the type [u] has to be. *)
Inductive shaped (r : reg) : Z -> pfield -> Prop :=
| sh_simple : forall u t, get_type r u = Some t -> ~ has_parts t -> shaped r u (PSimple u)
| sh_simple_array : forall u n item isize count it,
    get_type r u = Some (Ty n (DArray item isize count true)) ->
    get_type r item = Some it -> ~ has_parts it -> shaped r u (PSimpleArray item count)
| sh_array : forall u n item isize count simple l,
    get_type r u = Some (Ty n (DArray item isize count simple)) ->
    Z.of_nat (length l) = count -> (forall p, In p l -> shaped r item p) -> shaped r u (PArray l)
| sh_struct : forall u n d fs l,
    get_type r u = Some (Ty n d) -> (d = DStruct fs \/ exists b, d = DClass b fs) ->
    map fst l = map sf_name fs ->
    (forall f p, In (f, p) (combine fs (map snd l)) -> shaped r (sf_type f) p) ->
    NoDup (map fst l) -> shaped r u (PStruct l).
