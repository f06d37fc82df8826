(** What is meant by the properties of operations, properties and requests. *)
From Coq Require Import ZArith List Bool Floats.SpecFloat.
From Verif Require Import Base UuidModel HelperSpec PathModel AnyModel AnySpec FlowModel FlowSpec TypeModel ReqModel.
Import ListNotations.
Local Open Scope Z_scope.

(** The arguments of a registration have the C++ types of the parameters: literals are
    Int32 and the bounds of integer types Int64. *)
Definition cpp_args (o : top) : Prop :=
  match o with
  | TLiteral _ _ v => of_type TI32 v
  | TInt _ _ lo hi _ => of_type TI64 lo /\ of_type TI64 hi
  | _ => True
  end.

(** The order of the floating point numbers: neither holds of a NaN. *)
Definition fl_lt (a b : spec_float) : Prop := SFcompare a b = Some Lt.
Definition fl_le (a b : spec_float) : Prop := SFcompare a b = Some Lt \/ SFcompare a b = Some Eq.
Definition at_least (incl : bool) (lo f : spec_float) : Prop := if incl then fl_le lo f else fl_lt lo f.

(** The Float64 a floating point value stands for. *)
Definition as_f64 (v : any) (f : spec_float) : Prop :=
  match atype v with
  | KF32 => exists g, aval v = PFloat g /\ f = f64_of_f32 g
  | _ => aval v = PFloat f
  end.

(** The value is one of the type: kind, range, length, literals. *)
Definition in_type (t : ty) (v : any) : Prop :=
  atype v = ty_kind t /\
  match ty_def t with
  | DInt _ lo hi => exists z, aval v = PInt z /\ lo <= z <= hi
  | DFloat _ lo hi lo_in hi_in =>
      exists f, as_f64 v f /\ at_least lo_in lo f /\ at_least hi_in f hi
  | DString len => exists s, aval v = PStr s /\ forall l, s = Some l -> Z.of_nat (length l) <= len
  | DEnum _ ls => exists z n, aval v = PInt z /\ In (z, n) ls
  | _ => True
  end.

(** No NaN is involved and no negative length of strings. *)
Definition ordinary (t : ty) (v : any) : Prop :=
  match ty_def t with
  | DFloat _ lo hi _ _ => lo <> S754_nan /\ hi <> S754_nan /\ forall f, as_f64 v f -> f <> S754_nan
  | DString len => 0 <= len < 2 ^ 64
  | _ => True
  end.

(** An operation as its publisher leaves it. *)
Definition published (o : oper) : Prop := exists n xs, o = orun (Oper n [] None) xs.

Definition names (o : oper) : list (list Z) := map p_name (o_params o).

(** The last accepted value of the parameter [i] in a history of calls. *)
Definition sets (i : Z) (c : qop * res rexn unit) : Prop := exists r v, c = (QSet r i v, Ok tt).
Definition last_value (i : Z) (t : list (qop * res rexn unit)) (v : any) : Prop :=
  (exists t1 r t2, t = t1 ++ (QSet r i v, Ok tt) :: t2 /\ forall c, In c t2 -> ~ sets i c) \/
  (v = any_new KNone /\ forall c, In c t -> ~ sets i c).
Definition returns (c : qop * res rexn unit) : Prop := exists r o v, c = (QRet r o v, Ok tt).
Definition last_return (t : list (qop * res rexn unit)) (v : any) : Prop :=
  (exists t1 r o t2, t = t1 ++ (QRet r o v, Ok tt) :: t2 /\ forall c, In c t2 -> ~ returns c) \/
  (v = any_new KNone /\ forall c, In c t -> ~ returns c).

(** * Marshalling *)

(** The simple values of an argument, with the parameters they travel in: [carries f nm s c k v]
    says that the argument [f] named [nm] has the value [v], of the C++ type [c] and the
    kind [k], for the parameter named [s]. *)
Inductive carries : fld -> list Z -> list Z -> cty -> kind -> payload -> Prop :=
| lf_simple : forall c k v nm, carries (FSim c k v) nm nm c k v
| lf_sarray : forall c k vs nm i v, nth_error vs i = Some v -> carries (FSArr c k vs) nm (nm ++ item_name i) c k v
| lf_array : forall l nm i x s c k v, nth_error l i = Some x -> carries x (nm ++ item_name i) s c k v -> carries (FArr l) nm s c k v
| lf_struct : forall l nm n x s c k v, In (n, x) l -> carries x (nm ++ 46 :: n) s c k v -> carries (FStr l) nm s c k v.

(** The request has a parameter of that name, whose type has that value. *)
Definition takes_value (r : reg) (q : request) (s : list Z) (k : kind) (v : payload) : Prop :=
  exists i old u t, get_index q (Some s) = Z.of_nat i /\ nth_error (rvals q) i = Some (old, u) /\
  get_type r u = Some t /\ is_valid t (Any k v) = Ok true.

(** Different names are different parameters. *)
Definition distinct (q : request) : Prop :=
  forall a b, get_index q (Some a) = get_index q (Some b) -> get_index q (Some a) <> -1 -> a = b.

(** The fields of the structures have different, valid names. *)
Inductive named : fld -> Prop :=
| nm_simple : forall c k v, named (FSim c k v)
| nm_sarray : forall c k vs, named (FSArr c k vs)
| nm_array : forall l, (forall x, In x l -> named x) -> named (FArr l)
| nm_struct : forall l, NoDup (map fst l) -> (forall n x, In (n, x) l -> valid_name n /\ named x) -> named (FStr l).

(** Every value of the argument is one of its C++ type. *)
Definition proper (f : fld) : Prop :=
  forall nm s c k v, carries f nm s c k v -> kind_of c k /\ value_of c v.

(** The two arguments have the same fields, perhaps with other values. *)
Inductive same_fields : fld -> fld -> Prop :=
| sf_sim : forall c k v w, same_fields (FSim c k v) (FSim c k w)
| sf_sarr : forall c k vs ws, length vs = length ws -> same_fields (FSArr c k vs) (FSArr c k ws)
| sf_arr : forall l m, Forall2 same_fields l m -> same_fields (FArr l) (FArr m)
| sf_str : forall l m, Forall2 (fun a b => fst a = fst b /\ same_fields (snd a) (snd b)) l m -> same_fields (FStr l) (FStr m).

(** What reading an argument from a request gives, [read ign q nm f f'].  The value for a
    parameter [s] of the request is converted to the C++ type; an item of a simple array
    must be of the kind of the array.  Without such a parameter the value stays, if absent
    parameters are to be ignored. *)
Definition value_read (ign : bool) (q : request) (s : list Z) (c : cty) (same_kind : kind -> Prop) (v w : payload) : Prop :=
  (get_index q (Some s) = -1 /\ ign = true /\ w = v) \/
  (get_index q (Some s) <> -1 /\ exists a, get_param q (get_index q (Some s)) = Ok a /\ same_kind (atype a) /\ from_any c a = Ok w).
Inductive read (ign : bool) (q : request) : list Z -> fld -> fld -> Prop :=
| rd_simple : forall nm c k v w, value_read ign q nm c (fun _ => True) v w -> read ign q nm (FSim c k v) (FSim c k w)
| rd_sarray : forall nm c k vs ws, length vs = length ws ->
    (forall i v w, nth_error vs i = Some v -> nth_error ws i = Some w -> value_read ign q (nm ++ item_name i) c (eq k) v w) ->
    read ign q nm (FSArr c k vs) (FSArr c k ws)
| rd_array : forall nm l m, length l = length m ->
    (forall i x y, nth_error l i = Some x -> nth_error m i = Some y -> read ign q (nm ++ item_name i) x y) ->
    read ign q nm (FArr l) (FArr m)
| rd_struct : forall nm l m, length l = length m ->
    (forall i n x n' y, nth_error l i = Some (n, x) -> nth_error m i = Some (n', y) -> n' = n /\ read ign q (nm ++ 46 :: n) x y) ->
    read ign q nm (FStr l) (FStr m).

(** The simple parts of a parameter named [nm] of the type [u], in order, with their
    full names and types: name[i] for the items of an array, name.field for the fields of
    a structure. *)
Inductive parts (r : reg) : list Z -> Z -> list (list Z * Z) -> Prop :=
| pt_simple : forall nm u t, get_type r u = Some t -> ty_kind t <> KNone -> parts r nm u [(nm, u)]
| pt_array : forall nm u n item isize count simple ls,
    get_type r u = Some (Ty n (DArray item isize count simple)) -> length ls = Z.to_nat count ->
    (forall i l, nth_error ls i = Some l -> parts r (nm ++ item_name i) item l) -> parts r nm u (concat ls)
| pt_struct : forall nm u n d fs ls,
    get_type r u = Some (Ty n d) -> (d = DStruct fs \/ exists b, d = DClass b fs) ->
    Forall2 (fun f l => parts r (nm ++ 46 :: sf_name f) (sf_type f) l) fs ls -> parts r nm u (concat ls).

(** * Invocation *)

(** The calls of a history use the registry [r] with the types added since. *)
Definition later (r r' : reg) : Prop := exists os, r' = trun r os.
Definition call_reg (x : qop) : reg := match x with QSet r _ _ => r | QRet r _ _ => r end.

(** The parameter has been given a value. *)
Definition given (t : list (qop * res rexn unit)) (i : Z) : Prop := exists r v, In (QSet r i v, Ok tt) t.

(** Names as the callers give them: C strings. *)
Definition c_name (x : bop) : Prop :=
  match x with BOperation n => ~ In 0 n | BProperty _ n _ _ => ~ In 0 n | _ => True end.
