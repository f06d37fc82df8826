(** Exceptions: src/Xsmp/Exception.cpp.

    An exception is made of the arguments of its constructor and of what the constructor
    reads from the sender.  Objects are addresses; [path] is the text of GetPath
    (Exception.cpp:1364-1366, Helper.cpp:294-319; PathModel), [name] what GetName answers,
    [None] when the object was destroyed.  Names of C++ types are texts.  Simplified: no
    text contains a zero character; memory is never exhausted. *)
From Verif Require Import Base Text UuidModel AnyModel CalModel OutModel.
From Coq Require Import ZArith List Bool String.
Import ListNotations.
Local Open Scope Z_scope.

Definition text := list Z.
Record world := World { path : nat -> text; name : nat -> option text }.

(** Arguments of type String8 may be null. *)
Definition str := option text.

Inductive exn :=
| FieldAlreadyConnected (sender source target : option nat)
| InvalidTarget (sender source target : option nat)
| CannotStore (sender : option nat) (msg : text)
| CannotRestore (sender : option nat) (msg : text)
| InvalidObjectName (sender : option nat) (nm : str) (description : text)
| ContainerFull (sender : nat) (count : Z)
| DuplicateName (sender : option nat) (duplicate : str) (collection : option nat)
| NotContained (container : nat) (component : option nat)
| CannotDelete (container : nat) (component : option nat) (lower : Z)
| InvalidComponentState (sender : option nat) (invalid expected : Z)
| InvalidObjectType (sender : option nat) (invalid : option nat) (its_type expected_type : text)
| NotReferenced (reference : nat) (component : option nat)
| ReferenceFull (sender : nat) (size : Z)
| CannotRemove (sender : nat) (component : option nat) (lower : Z)
| InvalidEventSink (sender source sink : option nat)
| EventSinkAlreadySubscribed (sender source sink : option nat)
| EventSinkNotSubscribed (sender source sink : option nat)
| InvalidOperationName (sender : option nat) (nm : str)
| InvalidParameterCount (sender : nat) (requested right : Z)
| InvalidParameterType (sender : option nat) (operation parameter : text) (invalid expected : Z)
| InvalidArrayIndex (sender : option nat) (size index : Z)
| InvalidFieldValue (sender : option nat) (value : any) (type_name : text)
| InvalidArrayValue (sender : option nat) (index : Z) (value : any) (type_name : text)
| InvalidArraySize (sender : option nat) (invalid size : Z)
| InvalidEventName (sender : option nat) (nm : str)
| InvalidEventId (sender : option nat) (event : Z)
| InvalidCycleTime (sender : option nat) (cycle : Z)
| InvalidEventTime (sender : option nat) (event current : Z)
| EntryPointNotSubscribed (sender entry_point : option nat) (event : text)
| EntryPointAlreadySubscribed (sender entry_point : option nat) (event : text)
| InvalidFieldName (sender : option nat) (nm : str)
| TypeNotRegistered (sender : option nat) (u : uuid)
| InvalidParameterIndex (operation : nat) (index count : Z)
| VoidOperation (sender : nat)
| InvalidAnyType (sender : option nat) (expected invalid : Z)
| InvalidReturnValue (sender : nat) (value : any)
| InvalidParameterValue (sender : option nat) (parameter : text) (value : any)
| InvalidFieldTypeUuid (sender : option nat) (u : uuid)
| InvalidFieldTypeKind (sender : option nat) (kind : Z)
| InvalidFieldTypeName (sender : option nat) (type_name : str)
| DuplicateUuid (sender : option nat) (old : nat) (old_uuid : uuid) (old_name : text) (new_name : str)
| LibraryNotFound (sender : option nat) (library : str) (error : text)
| InvalidLibrary (sender : option nat) (library : str) (msg : text)
| InvalidSimulationTime (sender : option nat) (current provided max : Z)
| TypeAlreadyRegistered (sender : option nat) (nm : str) (type : nat) (u : uuid)
| DuplicateLiteral (sender : option nat) (nm : str) (value : Z)
| InvalidPrimitiveType (sender : option nat) (nm : str) (kind : Z)
| InvalidSimulatorState (sender : option nat) (state : Z)
| IncompatibleType (sender : option nat) (u : uuid) (msg : text).

(** GetPath of a null pointer is a text. *)
Definition path_text (w : world) (o : option nat) : text :=
  match o with Some p => path w p | None => codes "<null>" end.
(** nullCheck, lines 115-117. *)
Definition null_check (s : str) : text := match s with Some t => t | None => codes "<null>" end.

(** What a getter answers: a value kept in the exception, or the name of an object asked
    when the getter is called. *)
Inductive value :=
| VText (t : text) | VInt (v : Z) | VAny (a : any) | VUuid (u : uuid) | VObject (o : option nat).
Inductive kept := Kept (v : value) | NameOf (p : nat).

Record thrown := Thrown { x_sender : option nat; x_name : text; x_description : text; x_message : text;
                          x_what : text; x_kept : list (string * kept) }.

(** The name ([__func__]), the description and the message of each class, and its getters. *)
Record class := Class { c_sender : option nat; c_name : string; c_description : string; c_items : list item;
                        c_kept : list (string * kept) }.
Definition T (s : string) : item := IText (codes s).
Definition X (t : text) : item := IText t.
Definition txt (s : str) : kept := Kept (VText (null_check s)).
Definition int (v : Z) : kept := Kept (VInt v).
Definition ptr (o : option nat) : kept := Kept (VObject o).
Local Open Scope string_scope.

(** Lines 120-1360, in this order; lines 1658-1662 for the last one. *)
Definition class_of (w : world) (e : exn) : class :=
  let P o := IText (path_text w o) in
  match e with
  | FieldAlreadyConnected s src tgt => Class s "FieldAlreadyConnected"
      "Cannot connect a target field to a data flow field that is already connected"
      [T "Fields '"; P tgt; T "' and '"; P src; T "' are already connected."]
      [("GetSource", ptr src); ("GetTarget", ptr tgt)]
  | InvalidTarget s src tgt => Class s "InvalidTarget"
      "Cannot connect two data flow fields of incompatible types"
      [T "The type of the target '"; P tgt; T "' is not compatible with '"; P src; T "'."]
      [("GetSource", ptr src); ("GetTarget", ptr tgt)]
  | CannotStore s m => Class s "CannotStore"
      "This exception is raised when the component cannot store its data to the storage writer given to the Store() method"
      [X m] []
  | CannotRestore s m => Class s "CannotRestore"
      "This exception is raised when the content of the storage reader passed to the Restore() method contains invalid data"
      [X m] []
  | InvalidObjectName s n d => Class s "InvalidObjectName"
      "Cannot set an object's name to an invalid name"
      [T "The object's name '"; X (null_check n); T "' is invalid. "; X d]
      [("GetInvalidName", txt n)]
  | ContainerFull s c => Class (Some s) "ContainerFull"
      "Cannot add a component to a container that is full, i.e. where the Count has reached the Upper limit"
      [T "The Container '"; P (Some s); T "' is full, upper limit is '"; IInt TI64 c; T "'."]
      [("GetContainerName", NameOf s); ("GetContainerSize", int c)]
  | DuplicateName s n c => Class s "DuplicateName"
      "Cannot add an object to a collection of objects, which have to have unique names, but another object with the same name does exist already in this collection. This would lead to duplicate names"
      [T "Tried to add an object named '"; X (null_check n); T "' in '"; P c;
       T "' collection already containing an object with this name."]
      [("GetDuplicateName", txt n)]
  | NotContained s c => Class (Some s) "NotContained"
      "This exception is thrown when trying to delete a component from a container which was not contained before"
      [T "Cannot delete component '"; P c; T "' from the container '"; P (Some s); T "'."]
      [("GetContainerName", NameOf s); ("GetComponent", ptr c)]
  | CannotDelete s c l => Class (Some s) "CannotDelete"
      "This exception is thrown when trying to delete a component from a container when the number of contained components is lower than or equal to the Lower limit"
      [T "Tried to delete "; P c; T " component from "; P (Some s);
       T " container, but the number of contained components is lower than or equal to the Lower limit: "; IInt TI64 l]
      [("GetContainerName", NameOf s); ("GetComponent", ptr c); ("GetLowerLimit", int l)]
  | InvalidComponentState s i x => Class s "InvalidComponentState"
      "This exception is raised by a component when one of its methods is called in an invalid state"
      [T "The ComponentState of "; P s; T " is in "; IEnum EComponent i; T " state instead of "; IEnum EComponent x; T " state."]
      [("GetInvalidState", int i); ("GetExpectedState", int x)]
  | InvalidObjectType s o t x => Class s "InvalidObjectType"
      "Cannot pass an object of wrong type"
      [P o; T " of type "; X t; T " cannot be casted to "; X x; T "."]
      [("GetInvalidObject", ptr o)]
  | NotReferenced s c => Class (Some s) "NotReferenced"
      "This exception is thrown when trying to remove a component from a reference which was not referenced before"
      [T "Tried to remove "; P c; T " component from the reference "; P (Some s); T " which was not referenced before."]
      [("GetReferenceName", NameOf s); ("GetComponent", ptr c)]
  | ReferenceFull s n => Class (Some s) "ReferenceFull"
      "Cannot add a component to a reference that is full, i.e. where the Count has reached the Upper limit"
      [T "Tried to add a component to "; P (Some s); T " that is full (max size: "; IInt TI64 n; T ")"]
      [("GetReferenceName", NameOf s); ("GetReferenceSize", int n)]
  | CannotRemove s c l => Class (Some s) "CannotRemove"
      "This exception is thrown when trying to remove a component from a reference when the number of referenced components is lower than or equal to the Lower limit"
      [T "Tried to remove "; P c; T " component from "; P (Some s);
       T " reference, but the number of referenced components is lower than or equal to the Lower limit: "; IInt TI64 l]
      [("GetReferenceName", NameOf s); ("GetComponent", ptr c); ("GetLowerLimit", int l)]
  | InvalidEventSink s src snk => Class s "InvalidEventSink"
      "Cannot subscribe an event sink to an event source that has a different event type"
      [T "Tried to subscribe "; P src; T " event source to "; P snk; T " event sink which has a different type."]
      [("GetEventSource", ptr src); ("GetEventSink", ptr snk)]
  | EventSinkAlreadySubscribed s src snk => Class s "EventSinkAlreadySubscribed"
      "Cannot subscribe an event sink to an event source that is already subscribed"
      [T "Tried to subscribe "; P src; T " event source to "; P snk; T " event sink that is already subscribed."]
      [("GetEventSource", ptr src); ("GetEventSink", ptr snk)]
  | EventSinkNotSubscribed s src snk => Class s "EventSinkNotSubscribed"
      "Cannot unsubscribe an event sink from an event source that is not subscribed to it"
      [T "Tried to unsubscribe "; P snk; T " event sink from "; P src; T " event source that is not subscribed to it."]
      [("GetEventSource", ptr src); ("GetEventSink", ptr snk)]
  | InvalidOperationName s n => Class s "InvalidOperationName"
      "This exception is raised by the Invoke() method when trying to invoke a method that does not exist, or that does not support dynamic invocation"
      [T "Tried to invoke a method that does not exist, or that does not support dynamic invocation in operation: ";
       X (null_check n)]
      [("GetOperationName", txt n)]
  | InvalidParameterCount s q r => Class (Some s) "InvalidParameterCount"
      "This exception is raised by the Invoke() method when trying to invoke a method with a wrong number of parameters"
      [T "Tried to invoke operation "; P (Some s); T " with "; IInt TI32 q; T " parameter(s) instead of "; IInt TU64 r; T "."]
      [("GetOperationName", NameOf s); ("GetOperationParameters", int r); ("GetRequestParameters", int q)]
  | InvalidParameterType s o p i x => Class s "InvalidParameterType"
      "This exception is raised by the Invoke() method when trying to invoke a method passing a parameter of wrong type"
      [T "In operation "; X o; T ", tried to pass parameter "; X p; T " which is of type "; IEnum EPrimitive i;
       T " instead of expected type "; IEnum EPrimitive x]
      [("GetOperationName", Kept (VText o)); ("GetParameterName", Kept (VText p)); ("GetInvalidType", int i); ("GetExpectedType", int x)]
  | InvalidArrayIndex s n i => Class s "InvalidArrayIndex"
      "This exception is raised when an invalid index is specified"
      [T "The index '"; IInt TI64 i; T "' is negative or exceeds the array size '"; IInt TI64 n; T "' of '"; P s; T "'."]
      [("GetInvalidIndex", int i); ("GetArraySize", int n)]
  | InvalidFieldValue s a t => Class s "InvalidFieldValue"
      "This exception is raised when trying to assign an illegal value to a field"
      [T "Cannot assign value '"; IAny a; T "' to the field "; P s; T " of "; X t; T "'s type."]
      [("GetInvalidFieldValue", Kept (VAny a))]
  | InvalidArrayValue s i a t => Class s "InvalidArrayValue"
      "This exception is raised when trying to assign an illegal value to an array field"
      [T "Cannot assign value '"; IAny a; T "' to the field "; P s; T "["; IInt TI64 i; T "] of "; X t; T "'s type."]
      [("GetInvalidValueIndex", int i); ("GetInvalidValue", Kept (VAny a))]
  | InvalidArraySize s i n => Class s "InvalidArraySize"
      "This exception is raised when an invalid array size is specified"
      [T "The array size "; IInt TI64 i; T " of "; P s; T " is invalid, expecting "; IInt TU64 n; T " elements."]
      [("GetArraySize", int n); ("GetInvalidSize", int i)]
  | InvalidEventName s n => Class s "InvalidEventName"
      "This exception is thrown by the QueryEventId() method of the event manager when an empty event name has been provided"
      [T "The Event Name '"; X (null_check n); T "' is invalid."] []
  | InvalidEventId s i => Class s "InvalidEventId"
      "This exception is raised when an invalid event id is provided, e.g.when calling Subscribe(), Unsubscribe() or Emit() of the Event Manager (using an invalid global event id), or when calling SetEventSimulationTime(), SetEventMissionTime(), SetEventEpochTime(), SetEventZuluTime(), SetEventCycleTime(), SetEventCount() or RemoveEvent() of the Scheduler (using an invalid scheduler event id)"
      [T "The EventId '"; IInt TI64 i; T "' is invalid."]
      [("GetInvalidEventId", int i)]
  | InvalidCycleTime s c => Class s "InvalidCycleTime"
      "This exception is thrown by one of the AddEvent() methods of the scheduler when the event is a cyclic event (i.e. repeat is not 0),  but the cycle time specified is not a positive duration"
      [T "The cycle time '"; IDuration c; T "' is not a positive value."] []
  | InvalidEventTime s t c => Class s "InvalidEventTime"
      "This exception is thrown by one of the AddEvent() methods of the scheduler when the time specified for the first execution of the  event is in the past"
      [T "The event time '"; IDuration t; T "' is before the current time '"; IDuration c; T "'."] []
  | EntryPointNotSubscribed s p n => Class s "EntryPointNotSubscribed"
      "Cannot unsubscribe an entry point from an event that is not subscribed to it"
      [T "The EntryPoint "; P p; T " is not subscribed to '"; X n; T "'."]
      [("GetEntryPoint", ptr p); ("GetEventName", Kept (VText n))]
  | EntryPointAlreadySubscribed s p n => Class s "EntryPointAlreadySubscribed"
      "Cannot subscribe an entry point to an event that is already subscribed"
      [T "The EntryPoint "; P p; T " is already subscribed to '"; X n; T "'."]
      [("GetEntryPoint", ptr p); ("GetEventName", Kept (VText n))]
  | InvalidFieldName s n => Class s "InvalidFieldName"
      "This exception is raised when an invalid field name is specified"
      [T "'"; P s; T "' does no contains a field named '"; X (null_check n); T "'."]
      [("GetFieldName", txt n)]
  | TypeNotRegistered s u => Class s "TypeNotRegistered"
      "Cannot publish a feature with a type Uuid that has not been registered"
      [T "The Uuid '"; IUuid u; T "' has not been registered."]
      [("GetUuid", Kept (VUuid u))]
  | InvalidParameterIndex s i c => Class (Some s) "InvalidParameterIndex"
      "This exception is raised when using an invalid parameter index to set (SetParameterValue()) or get (GetParameterValue()) a parameter value of an operation in a request"
      [T "The Operation '"; P (Some s); T "' has '"; IInt TI32 c; T "' parameter(s). Cannot access to parameter at index '";
       IInt TI32 i; T "'."]
      [("GetOperationName", NameOf s); ("GetParameterIndex", int i); ("GetParameterCount", int c)]
  | VoidOperation s => Class (Some s) "VoidOperation"
      "Cannot read (GetReturnValue()) or write (SetReturnValue()) the return value of a void operation"
      [T "The Operation '"; P (Some s); T "' does not have a return value"]
      [("GetOperationName", NameOf s)]
  | InvalidAnyType s x i => Class s "InvalidAnyType"
      "Cannot use an AnySimple argument of wrong type"
      [T "The AnySimple type '"; IEnum EPrimitive i; T "' is invalid: expected '"; IEnum EPrimitive x; T "'."]
      [("GetInvalidType", int i); ("GetExpectedType", int x)]
  | InvalidReturnValue s a => Class (Some s) "InvalidReturnValue"
      "Cannot assign an invalid return value of an operation in a request using SetReturnValue()"
      [T "The return value '"; IAny a; T "' is invalid for Operation '"; P (Some s); T "'."]
      [("GetOperationName", NameOf s); ("GetValue", Kept (VAny a))]
  | InvalidParameterValue s p a => Class s "InvalidParameterValue"
      "Cannot assign an illegal value to a parameter of an operation in a request using SetParameterValue()"
      [T "The value '"; IAny a; T "' is invalid for parameter '"; X p; T "' in Operation '"; P s; T "'."]
      [("GetParameterName", Kept (VText p)); ("GetValue", Kept (VAny a))]
  | InvalidFieldTypeUuid s u => Class s "InvalidFieldType"
      "Cannot publish a field with invalid type"
      [T "The type UUID '"; IUuid u; T "' is invalid for field '"; P s; T "'."] []
  | InvalidFieldTypeKind s k => Class s "InvalidFieldType"
      "Cannot publish a field with invalid type"
      [T "The primitive type kind '"; IEnum EPrimitive k; T "' is invalid for field '"; P s; T "'."] []
  | InvalidFieldTypeName s n => Class s "InvalidFieldType"
      "Cannot publish a field with invalid type"
      [T "The type '"; X (match n with Some t => t | None => codes "nullptr" end); T "' is invalid for field '"; P s; T "'."] []
  | DuplicateUuid s o u on n => Class s "DuplicateUuid"
      "Cannot register a factory under a Uuid that has already been used to register another (or the same) factory. This would lead to duplicate implementation Uuids"
      [T "The Uuid '"; IUuid u; T "' of Factory '"; X (null_check n); T "' collides with the existing factory '"; X on; T "'."]
      [("GetOldName", NameOf o); ("GetNewName", txt n)]
  | LibraryNotFound s l m => Class s "LibraryNotFound" "Cannot load a library that does not exist"
      [X m] [("GetLibraryName", txt l)]
  | InvalidLibrary s l m => Class s "InvalidLibrary" "Cannot load an undefined symbol from a library"
      [X m] [("GetLibraryName", txt l)]
  | InvalidSimulationTime s c p m => Class s "InvalidSimulationTime"
      "This exception is thrown by SetSimulationTime if the new simulation time is not between the current simulation time and the simulation time of the next event on the scheduler"
      [T "The simulation time '"; IInt TI64 p; T "' is invalid. Expecting a value between '"; IInt TI64 c; T "' and '";
       IInt TI64 m; T "'."]
      [("GetCurrentTime", int c); ("GetProvidedTime", int p); ("GetMaximumTime", int m)]
  | TypeAlreadyRegistered s n t u => Class s "TypeAlreadyRegistered"
      "Cannot register a type with a Uuid that has already been registered"
      [T "Cannot register '"; X (null_check n); T "' with Uuid '"; IUuid u; T "'. This Uuid has already been registered."]
      [("GetTypeName", txt n); ("GetType", ptr (Some t))]
  | DuplicateLiteral s n v => Class s "DuplicateLiteral"
      "Cannot add a literal to an enumeration using a value that has been used for another literal before."
      [T "Value '"; IInt TI32 v; T "' is already used by '"; X (null_check n); T "' literal."]
      [("GetLiteralName", txt n); ("GetLiteralValue", int v)]
  | InvalidPrimitiveType s n k => Class s "InvalidPrimitiveType"
      "Cannot use an invalid primitive type kind as parameter for a user-defined float or integer type"
      [T "The primitive type '"; IEnum EPrimitive k; T "' is invalid for '"; X (null_check n); T "'."]
      [("GetTypeName", txt n); ("GetType", int k)]
  | InvalidSimulatorState s k => Class s "InvalidSimulatorState"
      "This exception is raised by the simulator when one of the operations is called in an invalid state"
      [T "Cannot performs an operation while the simulator is in '"; IEnum ESimulator k; T "' state."]
      [("GetInvalidState", int k)]
  | IncompatibleType s u m => Class s "IncompatibleType" "The type is incompatible"
      [T "The type '"; IUuid u; T "' is incompatible: "; X m] []
  end.

Local Open Scope list_scope.

(** What leaves the throwing function instead of the exception: TypeName of a null pointer
    (Helper.cpp:449-451) applies typeid to it, which throws std::bad_typeid. *)
Inductive other := BadTypeid.

(** Lines 93-103, and line 382 for the type of a null object. *)
Definition throw (w : world) (e : exn) : res other thrown :=
  match e with
  | InvalidObjectType _ None _ _ => Throw BadTypeid
  | _ =>
    let c := class_of w e in
    match format_string (c_items c) with
    | Ok m => Ok (Thrown (c_sender c) (codes (c_name c)) (codes (c_description c)) m
                (codes (c_name c) ++ codes "(" ++ codes (c_description c) ++ codes "): " ++ m) (c_kept c))
    | Throw x => match x with end
    | UB => UB
    end
  end.

(** what(), GetName, GetDescription, GetMessage, GetSender (lines 107-113). *)
Definition what (x : thrown) : text := x_what x.
Definition get_name (x : thrown) : text := x_name x.
Definition get_description (x : thrown) : text := x_description x.
Definition get_message (x : thrown) : text := x_message x.
Definition get_sender (x : thrown) : option nat := x_sender x.

(** A getter of the class, called when the objects are as in [w]; None: the class has no
    such getter. *)
Definition getter (w : world) (x : thrown) (g : string) : option (res other value) :=
  match find (fun y => String.eqb (fst y) g) (x_kept x) with
  | None => None
  | Some (_, Kept v) => Some (Ok v)
  | Some (_, NameOf p) => Some (match name w p with Some t => Ok (VText t) | None => UB end)
  end.
