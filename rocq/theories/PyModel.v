(** Model of the Python bindings of /repo/src/python: index and name helpers, conversion
    of values, calls of operations, and the classes given to SMP objects.

    The casts of pybind11 (outside /repo) are modelled from its documentation: an integer
    is loaded when it is an int or bool in the range of the C++ type, a float from a float
    or from an int that a double can represent, a bool from any bool, int, float or None,
    a string from a str, a char from a str of one character up to U+00FF (a char becomes
    the Latin-1 character of its code, 0 to 255).  A str is the
    list of its UTF-8 bytes.  Other Python objects (lists, user classes with __int__, ...)
    are left out. *)
From Coq Require Import ZArith List Bool Floats.SpecFloat.
From Verif Require Import Base Text UuidModel Assoc HelperModel PathModel AnyModel FlowModel TypeModel ReqModel.
Import ListNotations.
Local Open Scope Z_scope.

Inductive pexn :=
  PyIndexError | PyTypeError | PyCastError | PyDecodeError | PyAnyType | PySmp (e : rexn).

(** * Indexes *)

(** ecss_smp.cpp:537-544, GetIndex: [index] is an Int64 and [size] a UInt64.  The sum is
    one of Int64, undefined when it overflows. *)
Definition py_index (index size : Z) : res pexn Z :=
  let result := if index <? 0 then cast TI64 size + index else index in
  if negb (in_i64 result) then UB
  else if (result <? 0) || (size <=? cast TU64 index) then Throw PyIndexError
  else Ok (cast TU64 result).

(** ICollectionBinding.h:46-53, IContainerBinding.h:40-48, IReferenceBinding.h:40-48 and
    IArrayFieldBinding.h:29-36: the element at the index, IndexError for a null answer.
    [l] is the content of the collection; [at] answers null outside of it (CollModel). *)
Definition py_getitem {A} (l : list A) (index : Z) : res pexn A :=
  bind (py_index index (Z.of_nat (length l))) (fun i =>
    match nth_error l (Z.to_nat i) with
    | Some x => Ok x
    | None => Throw PyIndexError
    end).

(** The legacy iteration protocol of Python, which these classes rely on (they define no
    __iter__): __getitem__ of 0, 1, ... until IndexError; [n] bounds the steps. *)
Fixpoint py_iter {A} (l : list A) (i : nat) (n : nat) : list A :=
  match n with
  | O => []
  | S n => match py_getitem l (Z.of_nat i) with
           | Ok x => x :: py_iter l (S i) n
           | _ => []
           end
  end.

(** * Names *)

(** ecss_smp.cpp:546-551. *)
Definition reserved : list (list Z) :=
  map codes ["False"; "def"; "if"; "raise"; "None"; "del"; "import"; "return"; "True"; "elif"; "in"; "try"; "and"; "else";
             "is"; "while"; "as"; "except"; "lambda"; "with"; "assert"; "finally"; "nonlocal"; "yield"; "break"; "for";
             "not"; "class"; "from"; "or"; "continue"; "global"; "pass"]%string.

(** ecss_smp.cpp:553-559, GetPythonName. *)
Definition py_name (n : list Z) : list Z :=
  if existsb (list_eqb n) reserved then codes "_" ++ n else n.

(** * Values *)

Inductive pyval :=
| PyNone | PyBool (b : bool) | PyInt (z : Z) | PyFloat (f : spec_float) | PyStr (s : list Z)
| PyField (v : any).   (** the Python object of a simple field whose value is [v] *)

(** Well formed UTF-8 (RFC 3629), as the decoder of Python accepts it. *)
Definition cont (b : Z) : bool := (128 <=? b) && (b <=? 191).
Fixpoint utf8 (l : list Z) : bool :=
  match l with
  | [] => true
  | a :: r =>
      if (0 <=? a) && (a <=? 127) then utf8 r
      else match r with
           | [] => false
           | b :: r2 =>
               if (194 <=? a) && (a <=? 223) then cont b && utf8 r2
               else match r2 with
                    | [] => false
                    | c :: r3 =>
                        if (224 <=? a) && (a <=? 239) then
                          cont b && cont c && negb ((a =? 224) && (b <? 160)) && negb ((a =? 237) && (159 <? b)) && utf8 r3
                        else match r3 with
                             | [] => false
                             | d :: r4 =>
                                 (240 <=? a) && (a <=? 244) && cont b && cont c && cont d
                                 && negb ((a =? 240) && (b <? 144)) && negb ((a =? 244) && (143 <? b)) && utf8 r4
                             end
                    end
           end
  end.

(** std::string::c_str() read up to the first NUL. *)
Fixpoint cut (s : list Z) : list Z :=
  match s with [] => [] | c :: r => if c =? 0 then [] else c :: cut r end.

Definition of_any {A} (r : res any_exn A) : res pexn A :=
  match r with Ok a => Ok a | Throw _ => Throw PyAnyType | UB => UB end.

(** ecss_smp.cpp:426-459, convert(AnySimple): the conversion operator of the kind, then
    py::cast.  A null String8 becomes None; a byte string that is not UTF-8 raises
    UnicodeDecodeError. *)
Definition py_str (s : list Z) : res pexn pyval := if utf8 s then Ok (PyStr s) else Throw PyDecodeError.
Definition latin1 (c : Z) : list Z := if c <=? 127 then [c] else [192 + c / 64; 128 + c mod 64].
Definition py_of_int (t : ity) (v : any) : res pexn pyval := bind (of_any (get_int t v)) (fun z => Ok (PyInt z)).
Definition to_py (v : any) : res pexn pyval :=
  match atype v with
  | KString8 => bind (of_any (get_str v)) (fun s => match s with Some s => py_str s | None => Ok PyNone end)
  | KChar8 => bind (of_any (get_char v)) (fun c => Ok (PyStr (latin1 c)))
  | KBool => bind (of_any (get_bool v)) (fun b => Ok (PyBool b))
  | KI8 => py_of_int TI8 v | KI16 => py_of_int TI16 v | KI32 => py_of_int TI32 v
  | KI64 | KDateTime | KDuration => py_of_int TI64 v
  | KU8 => py_of_int TU8 v | KU16 => py_of_int TU16 v | KU32 => py_of_int TU32 v | KU64 => py_of_int TU64 v
  | KF32 => bind (of_any (get_f32 v)) (fun f => Ok (PyFloat (f64_of_f32 f)))
  | KF64 => bind (of_any (get_f64 v)) (fun f => Ok (PyFloat f))
  | KNone => Ok PyNone
  end.

(** pybind11: handle.cast<T>() for the arithmetic types, char and std::string. *)
Definition load_int (t : ity) (p : pyval) : res pexn Z :=
  match p with
  | PyInt z => if (tmin t <=? z) && (z <=? tmax t) then Ok z else Throw PyCastError
  | PyBool b => Ok (if b then 1 else 0)
  | _ => Throw PyCastError
  end.
Definition load_f64 (p : pyval) : res pexn spec_float :=
  match p with
  | PyFloat f => Ok f
  | PyInt z => match f64_of_int z with S754_infinity _ => Throw PyCastError | f => Ok f end
  | PyBool b => Ok (f64_of_int (if b then 1 else 0))
  | _ => Throw PyCastError
  end.
Definition load_bool (p : pyval) : res pexn bool :=
  match p with
  | PyBool b => Ok b
  | PyNone => Ok false
  | PyInt z => Ok (negb (z =? 0))
  | PyFloat f => Ok (match f with S754_zero _ => false | _ => true end)
  | _ => Throw PyCastError
  end.
Definition load_char (p : pyval) : res pexn Z :=
  match p with
  | PyStr [c] => if c <=? 127 then Ok c else Throw PyCastError
  | PyStr [a; b] => if (a =? 194) || (a =? 195) then Ok ((a - 192) * 64 + (b - 128)) else Throw PyCastError
  | _ => Throw PyCastError
  end.
Definition load_str (p : pyval) : res pexn (list Z) :=
  match p with PyStr s => Ok s | _ => Throw PyCastError end.

(** AnySimple{kind, value}: the constructor calls SetValue(kind, value) (Smp/AnySimple.h,
    outside /repo). *)
Definition mk_any (k : kind) (g : arg) : res pexn any :=
  match set_value (any_new KNone) k g with
  | (a, Ok _) => Ok a
  | (_, Throw _) => Throw PyAnyType
  | (_, UB) => UB
  end.
Definition any_int (t : ity) (k : kind) (r : res pexn Z) : res pexn any := bind r (fun z => mk_any k (GInt t z)).

(** ecss_smp.cpp:464-499, the value of a field: the conversion operator of its kind. *)
Definition of_field (v : any) (k : kind) : res pexn any :=
  let int t := any_int t k (of_any (get_int t v)) in
  match atype v with
  | KString8 => bind (of_any (get_str v)) (fun s => mk_any k (GStr s))
  | KChar8 => bind (of_any (get_char v)) (fun c => mk_any k (GChar c))
  | KBool => bind (of_any (get_bool v)) (fun b => mk_any k (GBool b))
  | KI8 => int TI8 | KI16 => int TI16 | KI32 => int TI32
  | KI64 | KDateTime | KDuration => int TI64
  | KU8 => int TU8 | KU16 => int TU16 | KU32 => int TU32 | KU64 => int TU64
  | KF32 => bind (of_any (get_f32 v)) (fun f => mk_any k (GF32 f))
  | KF64 => bind (of_any (get_f64 v)) (fun f => mk_any k (GF64 f))
  | KNone => Ok (any_new KNone)
  end.

(** ecss_smp.cpp:461-536, convert(handle, kind). *)
Definition of_py (p : pyval) (k : kind) : res pexn any :=
  match p with
  | PyField v => of_field v k
  | _ =>
      let int t := any_int t k (load_int t p) in
      match k with
      | KString8 => bind (load_str p) (fun s => mk_any k (GStr (Some (cut s))))
      | KChar8 => bind (load_char p) (fun c => mk_any k (GChar c))
      | KBool => bind (load_bool p) (fun b => mk_any k (GBool b))
      | KI8 => int TI8 | KI16 => int TI16 | KI32 => int TI32
      | KI64 | KDateTime | KDuration => int TI64
      | KU8 => int TU8 | KU16 => int TU16 | KU32 => int TU32 | KU64 => int TU64
      | KF32 => bind (load_f64 p) (fun f => mk_any k (GF32 (f32_of_f64 f)))
      | KF64 => bind (load_f64 p) (fun f => mk_any k (GF64 f))
      | KNone => Ok (any_new KNone)
      end
  end.

(** * Calls of operations: IOperationBinding.h:30-99, callOperation *)

(** request->SetParameterValue(i, convert(a, parameters->at(i)->GetType()->GetPrimitiveTypeKind())). *)
Definition assign (r : reg) (ps : list param) (i : Z) (a : pyval) (q : request) : request * res pexn unit :=
  match nth_error ps (Z.to_nat i) with
  | None => (q, UB)
  | Some p =>
      match get_type r (p_type p) with
      | None => (q, UB)
      | Some t =>
          match of_py a (ty_kind t) with
          | Ok v => match set_param r q i v with
                    | (q', Ok _) => (q', Ok tt)
                    | (q', Throw e) => (q', Throw (PySmp e))
                    | (q', UB) => (q', UB)
                    end
          | Throw e => (q, Throw e)
          | UB => (q, UB)
          end
      end
  end.

(** IOperationBinding.h:46-53: the positional arguments, from the index [i] on. *)
Fixpoint bind_args (r : reg) (ps : list param) (i : Z) (args : list pyval) (q : request) : request * res pexn unit :=
  match args with
  | [] => (q, Ok tt)
  | a :: args =>
      match assign r ps i a q with
      | (q', Ok _) => bind_args r ps (i + 1) args q'
      | x => x
      end
  end.

(** IOperationBinding.h:55-71: the keyword arguments; [index] is the index of the last
    positional one. *)
Fixpoint bind_kwargs (r : reg) (ps : list param) (index : Z) (kws : list (list Z * pyval)) (q : request) : request * res pexn unit :=
  match kws with
  | [] => (q, Ok tt)
  | (nm, a) :: kws =>
      let i := get_index q (Some (cut nm)) in
      if i =? -1 then (q, Throw PyTypeError)
      else if i <=? index then (q, Throw PyTypeError)
      else match assign r ps i a q with
           | (q', Ok _) => bind_kwargs r ps index kws q'
           | x => x
           end
  end.

(** py::setattr on the namespace of the results. *)
Definition setattr (n : list Z) (v : pyval) (ns : list (list Z * pyval)) : list (list Z * pyval) := aset list_eqb n v ns.

(** IOperationBinding.h:84-92: the parameters that are not inputs. *)
Fixpoint collect (q : request) (ps : list param) (ns : list (list Z * pyval)) (none : bool) : res pexn (list (list Z * pyval) * bool) :=
  match ps with
  | [] => Ok (ns, none)
  | p :: ps =>
      match p_dir p with
      | PIn => collect q ps ns none
      | _ =>
          match get_param q (get_index q (Some (p_name p))) with
          | Ok v => bind (to_py v) (fun x => collect q ps (setattr (py_name (p_name p)) x ns) false)
          | Throw e => Throw (PySmp e)
          | UB => UB
          end
      end
  end.

Definition results (o : oper) (q : request) : res pexn (option (list (list Z * pyval))) :=
  bind (match o_ret o with
        | None => Ok ([], true)
        | Some p => match get_ret o q with
                    | Ok v => bind (to_py v) (fun x => Ok (setattr (py_name (p_name p)) x [], false))
                    | Throw e => Throw (PySmp e)
                    | UB => UB
                    end
        end) (fun '(ns, none) =>
  bind (collect q (o_params o) ns none) (fun '(ns, none) =>
  Ok (if none then None else Some ns))).

(** The call.  [inv] is what the component does with the request; [dyn] says whether the
    parent of the operation is an IDynamicInvocation (as in ReqModel.invoke).  The result
    is the list of requests handed to the component, and the outcome: [Ok None] is the
    Python None.  Simplified: the static_cast of the number of arguments to Int32 is
    exact. *)
Definition py_call (n : nat) (r : reg) (o : oper) (dyn : bool) (args : list pyval) (kws : list (list Z * pyval))
    (inv : request -> request * res rexn unit) : list request * res pexn (option (list (list Z * pyval))) :=
  match create_request n r o with
  | None => ([], Throw PyTypeError)
  | Some (Throw e) => ([], Throw (PySmp e))
  | Some UB => ([], UB)
  | Some (Ok q) =>
      if Z.of_nat (length (o_params o)) <? Z.of_nat (length args) then ([], Throw PyTypeError)
      else match bind_args r (o_params o) 0 args q with
           | (_, Throw e) => ([], Throw e)
           | (_, UB) => ([], UB)
           | (q, Ok _) =>
               match bind_kwargs r (o_params o) (Z.of_nat (length args) - 1) kws q with
               | (_, Throw e) => ([], Throw e)
               | (_, UB) => ([], UB)
               | (q, Ok _) =>
                   match invoke r o dyn (Some (o_name o)) q with
                   | Throw e => ([], Throw (PySmp e))
                   | UB => ([], UB)
                   | Ok _ =>
                       match inv q with
                       | (_, Throw e) => ([q], Throw (PySmp e))
                       | (_, UB) => ([q], UB)
                       | (q', Ok _) => ([q], results o q')
                       end
                   end
               end
           end
  end.

(** * Classes *)

(** The interfaces derived from IObject that have a Python class.  [ICollection] stands
    for every instance of the template. *)
Inductive iface :=
  IObject | IComponent | IAggregate | IDynamicInvocation | IEventConsumer | IEventProvider | ILinkingComponent
| IModel | IFallibleModel | IService | IEventManager | ILinkRegistry | ILogger | IResolver | IScheduler | ITimeKeeper
| IComposite | ISimulator | IContainer | IEntryPoint | IEntryPointPublisher | IEventSink | IEventSource | IOperation
| IPersist | IFailure | IField | IArrayField | ISimpleArrayField | ISimpleField | IForcibleField | IStructureField
| IDataflowField | IProperty | IReference | IParameter | IType | IArrayType | IEnumerationType | IStructureType
| IClassType | IFactory | ICollection.

Inductive hier := Hier (base : iface) (childs : list hier).

(** ecss_smp.cpp:197-297, IObjectHierarchy. *)
Definition hierarchy : hier :=
  Hier IObject
    [ Hier IComponent
        [ Hier IAggregate []; Hier IDynamicInvocation []; Hier IEventConsumer []; Hier IEventProvider [];
          Hier ILinkingComponent []; Hier IModel [Hier IFallibleModel []];
          Hier IService [Hier IEventManager []; Hier ILinkRegistry []; Hier ILogger []; Hier IResolver []; Hier IScheduler []; Hier ITimeKeeper []] ];
      Hier IComposite [Hier ISimulator []];
      Hier IContainer []; Hier IEntryPoint []; Hier IEntryPointPublisher []; Hier IEventSink []; Hier IEventSource []; Hier IOperation [];
      Hier IPersist
        [ Hier IFailure [];
          Hier IField [ Hier IArrayField []; Hier ISimpleArrayField []; Hier ISimpleField [Hier IForcibleField []]; Hier IStructureField []; Hier IDataflowField [] ] ];
      Hier IProperty []; Hier IReference []; Hier IParameter [];
      Hier IType [ Hier IArrayType []; Hier IEnumerationType []; Hier IStructureType [Hier IClassType []] ] ].

(** ecss_smp.cpp:330-343, processHierarchy: the bases added, in order, and the result. *)
Fixpoint process (inst : iface -> bool) (h : hier) : list iface * bool :=
  match h with
  | Hier b cs =>
      let '(l, ignore) := fold_left (fun '(l, i) c => let '(l', i') := process inst c in (l ++ l', i || i')) cs ([], false) in
      if negb ignore && inst b then (l ++ [b], true) else (l, ignore)
  end.

(** ecss_smp.cpp:304-328, the bases of the class made for an object that implements the
    interfaces [inst]. *)
Definition bases (inst : iface -> bool) : list iface := fst (process inst hierarchy).
