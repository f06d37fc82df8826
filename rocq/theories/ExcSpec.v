(** What an exception is expected to say. *)
From Verif Require Import Base Text UuidModel AnyModel OutModel ExcModel.
From Coq Require Import ZArith List Bool String Ascii.
Import ListNotations.
Local Open Scope Z_scope.

(** A template: %0, %1, ... stand for the texts of the arguments. *)
Fixpoint render (t : string) (args : list text) : text :=
  match t with
  | EmptyString => []
  | String "%" (String d r) => nth (Z.to_nat (Z.of_nat (nat_of_ascii d) - 48)) args [] ++ render r args
  | String c r => Z.of_nat (nat_of_ascii c) :: render r args
  end.

(** The name of the class. *)
Local Open Scope string_scope.
Definition class_name (e : exn) : string :=
  match e with
  | FieldAlreadyConnected _ _ _ => "FieldAlreadyConnected"
  | InvalidTarget _ _ _ => "InvalidTarget"
  | CannotStore _ _ => "CannotStore"
  | CannotRestore _ _ => "CannotRestore"
  | InvalidObjectName _ _ _ => "InvalidObjectName"
  | ContainerFull _ _ => "ContainerFull"
  | DuplicateName _ _ _ => "DuplicateName"
  | NotContained _ _ => "NotContained"
  | CannotDelete _ _ _ => "CannotDelete"
  | InvalidComponentState _ _ _ => "InvalidComponentState"
  | InvalidObjectType _ _ _ _ => "InvalidObjectType"
  | NotReferenced _ _ => "NotReferenced"
  | ReferenceFull _ _ => "ReferenceFull"
  | CannotRemove _ _ _ => "CannotRemove"
  | InvalidEventSink _ _ _ => "InvalidEventSink"
  | EventSinkAlreadySubscribed _ _ _ => "EventSinkAlreadySubscribed"
  | EventSinkNotSubscribed _ _ _ => "EventSinkNotSubscribed"
  | InvalidOperationName _ _ => "InvalidOperationName"
  | InvalidParameterCount _ _ _ => "InvalidParameterCount"
  | InvalidParameterType _ _ _ _ _ => "InvalidParameterType"
  | InvalidArrayIndex _ _ _ => "InvalidArrayIndex"
  | InvalidFieldValue _ _ _ => "InvalidFieldValue"
  | InvalidArrayValue _ _ _ _ => "InvalidArrayValue"
  | InvalidArraySize _ _ _ => "InvalidArraySize"
  | InvalidEventName _ _ => "InvalidEventName"
  | InvalidEventId _ _ => "InvalidEventId"
  | InvalidCycleTime _ _ => "InvalidCycleTime"
  | InvalidEventTime _ _ _ => "InvalidEventTime"
  | EntryPointNotSubscribed _ _ _ => "EntryPointNotSubscribed"
  | EntryPointAlreadySubscribed _ _ _ => "EntryPointAlreadySubscribed"
  | InvalidFieldName _ _ => "InvalidFieldName"
  | TypeNotRegistered _ _ => "TypeNotRegistered"
  | InvalidParameterIndex _ _ _ => "InvalidParameterIndex"
  | VoidOperation _ => "VoidOperation"
  | InvalidAnyType _ _ _ => "InvalidAnyType"
  | InvalidReturnValue _ _ => "InvalidReturnValue"
  | InvalidParameterValue _ _ _ => "InvalidParameterValue"
  | InvalidFieldTypeUuid _ _ | InvalidFieldTypeKind _ _ | InvalidFieldTypeName _ _ => "InvalidFieldType"
  | DuplicateUuid _ _ _ _ _ => "DuplicateUuid"
  | LibraryNotFound _ _ _ => "LibraryNotFound"
  | InvalidLibrary _ _ _ => "InvalidLibrary"
  | InvalidSimulationTime _ _ _ _ => "InvalidSimulationTime"
  | TypeAlreadyRegistered _ _ _ _ => "TypeAlreadyRegistered"
  | DuplicateLiteral _ _ _ => "DuplicateLiteral"
  | InvalidPrimitiveType _ _ _ => "InvalidPrimitiveType"
  | InvalidSimulatorState _ _ => "InvalidSimulatorState"
  | IncompatibleType _ _ _ => "IncompatibleType"
  end.

(** The message: a template and the arguments in the order of the constructor. *)
Definition template (e : exn) : string :=
  match e with
  | FieldAlreadyConnected _ _ _ => "Fields '%1' and '%0' are already connected."
  | InvalidTarget _ _ _ => "The type of the target '%1' is not compatible with '%0'."
  | CannotStore _ _ | CannotRestore _ _ => "%0"
  | InvalidObjectName _ _ _ => "The object's name '%0' is invalid. %1"
  | ContainerFull _ _ => "The Container '%0' is full, upper limit is '%1'."
  | DuplicateName _ _ _ => "Tried to add an object named '%0' in '%1' collection already containing an object with this name."
  | NotContained _ _ => "Cannot delete component '%1' from the container '%0'."
  | CannotDelete _ _ _ => "Tried to delete %1 component from %0 container, but the number of contained components is lower than or equal to the Lower limit: %2"
  | InvalidComponentState _ _ _ => "The ComponentState of %0 is in %1 state instead of %2 state."
  | InvalidObjectType _ _ _ _ => "%0 of type %1 cannot be casted to %2."
  | NotReferenced _ _ => "Tried to remove %1 component from the reference %0 which was not referenced before."
  | ReferenceFull _ _ => "Tried to add a component to %0 that is full (max size: %1)"
  | CannotRemove _ _ _ => "Tried to remove %1 component from %0 reference, but the number of referenced components is lower than or equal to the Lower limit: %2"
  | InvalidEventSink _ _ _ => "Tried to subscribe %0 event source to %1 event sink which has a different type."
  | EventSinkAlreadySubscribed _ _ _ => "Tried to subscribe %0 event source to %1 event sink that is already subscribed."
  | EventSinkNotSubscribed _ _ _ => "Tried to unsubscribe %1 event sink from %0 event source that is not subscribed to it."
  | InvalidOperationName _ _ => "Tried to invoke a method that does not exist, or that does not support dynamic invocation in operation: %0"
  | InvalidParameterCount _ _ _ => "Tried to invoke operation %0 with %1 parameter(s) instead of %2."
  | InvalidParameterType _ _ _ _ _ => "In operation %0, tried to pass parameter %1 which is of type %2 instead of expected type %3"
  | InvalidArrayIndex _ _ _ => "The index '%2' is negative or exceeds the array size '%1' of '%0'."
  | InvalidFieldValue _ _ _ => "Cannot assign value '%1' to the field %0 of %2's type."
  | InvalidArrayValue _ _ _ _ => "Cannot assign value '%2' to the field %0[%1] of %3's type."
  | InvalidArraySize _ _ _ => "The array size %1 of %0 is invalid, expecting %2 elements."
  | InvalidEventName _ _ => "The Event Name '%0' is invalid."
  | InvalidEventId _ _ => "The EventId '%0' is invalid."
  | InvalidCycleTime _ _ => "The cycle time '%0' is not a positive value."
  | InvalidEventTime _ _ _ => "The event time '%0' is before the current time '%1'."
  | EntryPointNotSubscribed _ _ _ => "The EntryPoint %0 is not subscribed to '%1'."
  | EntryPointAlreadySubscribed _ _ _ => "The EntryPoint %0 is already subscribed to '%1'."
  | InvalidFieldName _ _ => "'%0' does no contains a field named '%1'."
  | TypeNotRegistered _ _ => "The Uuid '%0' has not been registered."
  | InvalidParameterIndex _ _ _ => "The Operation '%0' has '%2' parameter(s). Cannot access to parameter at index '%1'."
  | VoidOperation _ => "The Operation '%0' does not have a return value"
  | InvalidAnyType _ _ _ => "The AnySimple type '%1' is invalid: expected '%0'."
  | InvalidReturnValue _ _ => "The return value '%1' is invalid for Operation '%0'."
  | InvalidParameterValue _ _ _ => "The value '%2' is invalid for parameter '%1' in Operation '%0'."
  | InvalidFieldTypeUuid _ _ => "The type UUID '%1' is invalid for field '%0'."
  | InvalidFieldTypeKind _ _ => "The primitive type kind '%1' is invalid for field '%0'."
  | InvalidFieldTypeName _ _ => "The type '%1' is invalid for field '%0'."
  | DuplicateUuid _ _ _ _ _ => "The Uuid '%0' of Factory '%2' collides with the existing factory '%1'."
  | LibraryNotFound _ _ _ | InvalidLibrary _ _ _ => "%0"
  | InvalidSimulationTime _ _ _ _ => "The simulation time '%1' is invalid. Expecting a value between '%0' and '%2'."
  | TypeAlreadyRegistered _ _ _ _ => "Cannot register '%0' with Uuid '%1'. This Uuid has already been registered."
  | DuplicateLiteral _ _ _ => "Value '%1' is already used by '%0' literal."
  | InvalidPrimitiveType _ _ _ => "The primitive type '%1' is invalid for '%0'."
  | InvalidSimulatorState _ _ => "Cannot performs an operation while the simulator is in '%0' state."
  | IncompatibleType _ _ _ => "The type '%0' is incompatible: %1"
  end.

(** The path of an object, and the text of a String8, with the text of a null pointer. *)
Definition obj_text (w : world) (o : option nat) : item :=
  IText (match o with Some p => path w p | None => codes "<null>" end).
Definition str_text (s : str) : item := IText (match s with Some t => t | None => codes "<null>" end).

Definition arguments (w : world) (e : exn) : list item :=
  let O := obj_text w in
  match e with
  | FieldAlreadyConnected _ a b | InvalidTarget _ a b | InvalidEventSink _ a b
  | EventSinkAlreadySubscribed _ a b | EventSinkNotSubscribed _ a b => [O a; O b]
  | CannotStore _ m | CannotRestore _ m => [IText m]
  | InvalidObjectName _ n d => [str_text n; IText d]
  | ContainerFull s c | ReferenceFull s c => [O (Some s); IInt TI64 c]
  | DuplicateName _ n c => [str_text n; O c]
  | NotContained s c | NotReferenced s c => [O (Some s); O c]
  | CannotDelete s c l | CannotRemove s c l => [O (Some s); O c; IInt TI64 l]
  | InvalidComponentState s i x => [O s; IEnum EComponent i; IEnum EComponent x]
  | InvalidObjectType _ o t x => [O o; IText t; IText x]
  | InvalidOperationName _ n | InvalidEventName _ n => [str_text n]
  | InvalidParameterCount s q r => [O (Some s); IInt TI32 q; IInt TU64 r]
  | InvalidParameterType _ o p i x => [IText o; IText p; IEnum EPrimitive i; IEnum EPrimitive x]
  | InvalidArrayIndex s n i => [O s; IInt TI64 n; IInt TI64 i]
  | InvalidFieldValue s a t => [O s; IAny a; IText t]
  | InvalidArrayValue s i a t => [O s; IInt TI64 i; IAny a; IText t]
  | InvalidArraySize s i n => [O s; IInt TI64 i; IInt TU64 n]
  | InvalidEventId _ i => [IInt TI64 i]
  | InvalidCycleTime _ c => [IDuration c]
  | InvalidEventTime _ t c => [IDuration t; IDuration c]
  | EntryPointNotSubscribed _ p n | EntryPointAlreadySubscribed _ p n => [O p; IText n]
  | InvalidFieldName s n => [O s; str_text n]
  | TypeNotRegistered _ u => [IUuid u]
  | InvalidParameterIndex s i c => [O (Some s); IInt TI32 i; IInt TI32 c]
  | VoidOperation s => [O (Some s)]
  | InvalidAnyType _ x i => [IEnum EPrimitive x; IEnum EPrimitive i]
  | InvalidReturnValue s a => [O (Some s); IAny a]
  | InvalidParameterValue s p a => [O s; IText p; IAny a]
  | InvalidFieldTypeUuid s u => [O s; IUuid u]
  | InvalidFieldTypeKind s k => [O s; IEnum EPrimitive k]
  | InvalidFieldTypeName s n => [O s; IText (match n with Some t => t | None => codes "nullptr" end)]
  | DuplicateUuid _ _ u on n => [IUuid u; IText on; str_text n]
  | LibraryNotFound _ _ m | InvalidLibrary _ _ m => [IText m]
  | InvalidSimulationTime _ c p m => [IInt TI64 c; IInt TI64 p; IInt TI64 m]
  | TypeAlreadyRegistered _ n _ u => [str_text n; IUuid u]
  | DuplicateLiteral _ n v => [str_text n; IInt TI32 v]
  | InvalidPrimitiveType _ n k => [str_text n; IEnum EPrimitive k]
  | InvalidSimulatorState _ k => [IEnum ESimulator k]
  | IncompatibleType _ u m => [IUuid u; IText m]
  end.

Definition sender_of (e : exn) : option nat :=
  match e with
  | FieldAlreadyConnected s _ _ | InvalidTarget s _ _ | CannotStore s _ | CannotRestore s _ | InvalidObjectName s _ _
  | DuplicateName s _ _ | InvalidComponentState s _ _ | InvalidObjectType s _ _ _ | InvalidEventSink s _ _
  | EventSinkAlreadySubscribed s _ _ | EventSinkNotSubscribed s _ _ | InvalidOperationName s _
  | InvalidParameterType s _ _ _ _ | InvalidArrayIndex s _ _ | InvalidFieldValue s _ _ | InvalidArrayValue s _ _ _
  | InvalidArraySize s _ _ | InvalidEventName s _ | InvalidEventId s _ | InvalidCycleTime s _ | InvalidEventTime s _ _
  | EntryPointNotSubscribed s _ _ | EntryPointAlreadySubscribed s _ _ | InvalidFieldName s _ | TypeNotRegistered s _
  | InvalidAnyType s _ _ | InvalidParameterValue s _ _ | InvalidFieldTypeUuid s _ | InvalidFieldTypeKind s _
  | InvalidFieldTypeName s _ | DuplicateUuid s _ _ _ _ | LibraryNotFound s _ _ | InvalidLibrary s _ _
  | InvalidSimulationTime s _ _ _ | TypeAlreadyRegistered s _ _ _ | DuplicateLiteral s _ _ | InvalidPrimitiveType s _ _
  | InvalidSimulatorState s _ | IncompatibleType s _ _ => s
  | ContainerFull s _ | NotContained s _ | CannotDelete s _ _ | NotReferenced s _ | ReferenceFull s _ | CannotRemove s _ _
  | InvalidParameterCount s _ _ | InvalidParameterIndex s _ _ | VoidOperation s | InvalidReturnValue s _ => Some s
  end.

(** The getters of the standard and the argument each one gives back ... *)
Definition vstr (s : str) : value := VText (match s with Some t => t | None => codes "<null>" end).
Definition gives (e : exn) : list (string * value) :=
  match e with
  | FieldAlreadyConnected _ a b | InvalidTarget _ a b => [("GetSource", VObject a); ("GetTarget", VObject b)]
  | InvalidEventSink _ a b | EventSinkAlreadySubscribed _ a b | EventSinkNotSubscribed _ a b =>
      [("GetEventSource", VObject a); ("GetEventSink", VObject b)]
  | InvalidObjectName _ n _ => [("GetInvalidName", vstr n)]
  | ContainerFull _ c => [("GetContainerSize", VInt c)]
  | DuplicateName _ n _ => [("GetDuplicateName", vstr n)]
  | NotContained _ c | NotReferenced _ c => [("GetComponent", VObject c)]
  | CannotDelete _ c l | CannotRemove _ c l => [("GetComponent", VObject c); ("GetLowerLimit", VInt l)]
  | InvalidComponentState _ i x => [("GetInvalidState", VInt i); ("GetExpectedState", VInt x)]
  | InvalidObjectType _ o _ _ => [("GetInvalidObject", VObject o)]
  | ReferenceFull _ n => [("GetReferenceSize", VInt n)]
  | InvalidOperationName _ n => [("GetOperationName", vstr n)]
  | InvalidParameterCount _ q r => [("GetOperationParameters", VInt r); ("GetRequestParameters", VInt q)]
  | InvalidParameterType _ o p i x =>
      [("GetOperationName", VText o); ("GetParameterName", VText p); ("GetInvalidType", VInt i); ("GetExpectedType", VInt x)]
  | InvalidArrayIndex _ n i => [("GetArraySize", VInt n); ("GetInvalidIndex", VInt i)]
  | InvalidFieldValue _ a _ => [("GetInvalidFieldValue", VAny a)]
  | InvalidArrayValue _ i a _ => [("GetInvalidValue", VAny a); ("GetInvalidValueIndex", VInt i)]
  | InvalidArraySize _ i n => [("GetArraySize", VInt n); ("GetInvalidSize", VInt i)]
  | InvalidEventId _ i => [("GetInvalidEventId", VInt i)]
  | EntryPointNotSubscribed _ p n | EntryPointAlreadySubscribed _ p n =>
      [("GetEntryPoint", VObject p); ("GetEventName", VText n)]
  | InvalidFieldName _ n => [("GetFieldName", vstr n)]
  | TypeNotRegistered _ u => [("GetUuid", VUuid u)]
  | InvalidParameterIndex _ i c => [("GetParameterIndex", VInt i); ("GetParameterCount", VInt c)]
  | InvalidAnyType _ x i => [("GetInvalidType", VInt i); ("GetExpectedType", VInt x)]
  | InvalidReturnValue _ a => [("GetValue", VAny a)]
  | InvalidParameterValue _ p a => [("GetParameterName", VText p); ("GetValue", VAny a)]
  | DuplicateUuid _ _ _ _ n => [("GetNewName", vstr n)]
  | LibraryNotFound _ l _ | InvalidLibrary _ l _ => [("GetLibraryName", vstr l)]
  | InvalidSimulationTime _ c p m => [("GetCurrentTime", VInt c); ("GetProvidedTime", VInt p); ("GetMaximumTime", VInt m)]
  | TypeAlreadyRegistered _ n t _ => [("GetType", VObject (Some t)); ("GetTypeName", vstr n)]
  | DuplicateLiteral _ n v => [("GetLiteralName", vstr n); ("GetLiteralValue", VInt v)]
  | InvalidPrimitiveType _ n k => [("GetType", VInt k); ("GetTypeName", vstr n)]
  | InvalidSimulatorState _ k => [("GetInvalidState", VInt k)]
  | _ => []
  end.

(** ... and those that give the name of an object. *)
Definition gives_name (e : exn) : list (string * nat) :=
  match e with
  | ContainerFull s _ | NotContained s _ | CannotDelete s _ _ => [("GetContainerName", s)]
  | NotReferenced s _ | ReferenceFull s _ | CannotRemove s _ _ => [("GetReferenceName", s)]
  | InvalidParameterCount s _ _ | InvalidParameterIndex s _ _ | VoidOperation s | InvalidReturnValue s _ =>
      [("GetOperationName", s)]
  | DuplicateUuid _ o _ _ _ => [("GetOldName", o)]
  | _ => []
  end.

(** The values an exception carries that have no text (C93, C94). *)
Definition value_of (e : exn) : option any :=
  match e with
  | InvalidFieldValue _ a _ | InvalidArrayValue _ _ a _ | InvalidReturnValue _ a | InvalidParameterValue _ _ a => Some a
  | _ => None
  end.
Definition durations_of (e : exn) : list Z :=
  match e with
  | InvalidCycleTime _ c => [c]
  | InvalidEventTime _ t c => [t; c]
  | _ => []
  end.
