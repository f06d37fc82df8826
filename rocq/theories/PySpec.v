(** What is meant by the properties of the Python bindings. *)
From Coq Require Import ZArith List Bool Floats.SpecFloat.
From Verif Require Import Base Assoc UuidModel HelperSpec PathModel AnyModel AnySpec FlowModel TypeModel ReqModel ReqSpec PyModel.
Import ListNotations.
Local Open Scope Z_scope.

(** The item of a Python sequence: counted from the start, or from the end when the index
    is negative; None is IndexError. *)
Definition python_item {A} (l : list A) (i : Z) : option A :=
  let n := Z.of_nat (length l) in
  if (0 <=? i) && (i <? n) then nth_error l (Z.to_nat i)
  else if (- n <=? i) && (i <? 0) then nth_error l (Z.to_nat (n + i))
  else None.

Definition int64 (z : Z) : Prop := - 2 ^ 63 <= z < 2 ^ 63.

(** * Calls *)

(** The operation was described by its component with C strings. *)
Definition c_param (x : oop) : Prop := match x with ORParam _ n _ _ => ~ In 0 n | ORUpdate => True end.
Definition described (o : oper) : Prop := exists n xs, Forall c_param xs /\ o = orun (Oper n [] None) xs.

(** The argument meant for the parameter number [k] named [nm]: the one in its position,
    or else the keyword of its name. *)
Inductive argument_of (args : list pyval) (kws : list (list Z * pyval)) (k : nat) (nm : list Z) : pyval -> Prop :=
| by_position : forall a, nth_error args k = Some a -> argument_of args kws k nm a
| by_name : forall a, (length args <= k)%nat -> In (nm, a) kws -> argument_of args kws k nm a.

(** The Python value [a] is a value [v] the type of the parameter accepts. *)
Definition suits (r : reg) (p : param) (a : pyval) (v : any) : Prop :=
  exists t, get_type r (p_type p) = Some t /\ of_py a (ty_kind t) = Ok v /\ is_valid t v = Ok true.

(** The arguments fit the operation. *)
Definition good_call (r : reg) (o : oper) (args : list pyval) (kws : list (list Z * pyval)) : Prop :=
  (length args <= length (o_params o))%nat /\
  (forall nm a, In (nm, a) kws -> exists k p, nth_error (o_params o) k = Some p /\ p_name p = nm /\ (length args <= k)%nat) /\
  (forall k p a, nth_error (o_params o) k = Some p -> argument_of args kws k (p_name p) a -> exists v, suits r p a v) /\
  (forall k p, nth_error (o_params o) k = Some p -> p_dir p <> POut -> exists a, argument_of args kws k (p_name p) a).

(** The value of parameter [k] of a request. *)
Definition value_at (q : request) (k : nat) : option any := match nth_error (rvals q) k with Some (v, _) => Some v | None => None end.

(** What the caller gets: [ns] has an attribute for the return value, one for each
    parameter that is not an input, and nothing else. *)
Definition answer (o : oper) (q : request) (ns : list (list Z * pyval)) : Prop :=
  NoDup (map fst ns) /\
  forall n x, In (n, x) ns <->
    ((exists p, o_ret o = Some p /\ n = py_name (p_name p) /\ to_py (rret q) = Ok x) \/
     (exists k p v, nth_error (o_params o) k = Some p /\ p_dir p <> PIn /\ n = py_name (p_name p) /\
        value_at q k = Some v /\ to_py v = Ok x)).

(** * Values *)

(** UTF-8: the bytes of a code point (RFC 3629), and those of a str. *)
Definition scalar (u : Z) : Prop := 0 <= u <= 0x10FFFF /\ ~ (0xD800 <= u <= 0xDFFF).
Definition encode (u : Z) : list Z :=
  if u <? 0x80 then [u]
  else if u <? 0x800 then [0xC0 + u / 64; 0x80 + u mod 64]
  else if u <? 0x10000 then [0xE0 + u / 4096; 0x80 + u / 64 mod 64; 0x80 + u mod 64]
  else [0xF0 + u / 262144; 0x80 + u / 4096 mod 64; 0x80 + u / 64 mod 64; 0x80 + u mod 64].
Definition is_utf8 (s : list Z) : Prop := exists us, Forall scalar us /\ s = flat_map encode us.

(** The values Python can show: UTF-8 strings without NUL, the characters from 0 to 255,
    canonical binary32 numbers. *)
Definition showable (v : any) : Prop :=
  match atype v with
  | KString8 => exists s, aval v = PStr (Some s) /\ is_utf8 s /\ ~ In 0 s
  | KChar8 => exists c, aval v = PChar c /\ 0 <= c <= 255
  | KF32 => exists f, aval v = PFloat f /\ valid_binary 24 128 f = true
  | _ => True
  end.

(** * Classes *)

(** The interface each interface of the standard extends, which is also the base of its
    Python class (src/python/Smp/*Binding.h). *)
Definition extends (i : iface) : option iface :=
  match i with
  | IObject => None
  | IAggregate | IDynamicInvocation | IEventConsumer | IEventProvider | ILinkingComponent | IModel | IService => Some IComponent
  | IFallibleModel => Some IModel
  | IEventManager | ILinkRegistry | ILogger | IResolver | IScheduler | ITimeKeeper => Some IService
  | ISimulator => Some IComposite
  | IFailure | IField => Some IPersist
  | IArrayField | ISimpleArrayField | ISimpleField | IStructureField | IDataflowField => Some IField
  | IForcibleField => Some ISimpleField
  | IArrayType | IEnumerationType | IStructureType => Some IType
  | IClassType => Some IStructureType
  | _ => Some IObject
  end.
Inductive derives : iface -> iface -> Prop :=
| derives_refl : forall i, derives i i
| derives_step : forall i j k, extends i = Some j -> derives j k -> derives i k.

(** [inst] can be the set of the interfaces a C++ object implements. *)
Definition object (inst : iface -> bool) : Prop :=
  inst IObject = true /\ forall i j, inst i = true -> extends i = Some j -> inst j = true.

(** isinstance(o, i) in Python, for the class with the bases [bs]. *)
Definition isinstance (bs : list iface) (i : iface) : Prop := exists b, In b bs /\ derives b i.
