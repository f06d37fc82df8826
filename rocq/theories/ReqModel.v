(** Model of operations, properties and requests: src/Xsmp/Publication/Operation.cpp,
    Property.cpp, Request.cpp, the part of Publication.cpp about them, and
    src/Xsmp/Request.cpp with include/Xsmp/Request.h.

    Simplifications: a type is named by its UUID and looked up in the registry of the
    moment (TypeProps.v: it is always found and only gains literals and fields); names
    are C strings without their NUL; descriptions and views are left out; a request
    outlives neither its operation nor its component. *)
From Coq Require Import ZArith List Bool Floats.SpecFloat.
From Verif Require Import Base Text UuidModel Assoc HelperModel PathModel AnyModel FlowModel TypeModel.
Import ListNotations.
Local Open Scope Z_scope.

Inductive rexn :=
  RTypeNotRegistered | RInvalidParameterDirection | RDuplicateName | RInvalidObjectName
| RInvalidAnyType | RInvalidParameterIndex | RInvalidParameterValue | RInvalidReturnValue
| RVoidOperation | RNoParameter | RInvalidParameterType | RInvalidFieldValue | RInvalidAccessKind
| RInvalidOperationName | RInvalidParameterCount.

Definition is_none (k : kind) : bool := match k with KNone => true | _ => false end.

(** * Operations *)

(** Smp/Publication/ParameterDirectionKind.h (outside /repo). *)
Inductive dir := PIn | POut | PInOut | PReturn.
Record param := Param { p_name : list Z; p_type : Z; p_dir : dir }.
Record oper := Oper { o_name : list Z; o_params : list param; o_ret : option param }.

Fixpoint find_param (n : list Z) (l : list param) : option param :=
  match l with [] => None | p :: r => if list_eqb n (p_name p) then Some p else find_param n r end.

(** Operation.cpp:37-42, the constructor of Parameter: checkName. *)
Definition mk_param (n : list Z) (u : Z) (d : dir) : res rexn param :=
  match check_name (Some (n ++ [0])) with
  | Ok s => Ok (Param s u d)
  | Throw _ => Throw RInvalidObjectName
  | UB => UB
  end.

(** Operation.cpp:72-106, PublishParameter, with Collection.h:211-220. *)
Definition publish_parameter (r : reg) (o : oper) (n : list Z) (u : Z) (d : dir) : oper * res rexn unit :=
  match get_type r u with
  | None => (o, Throw RTypeNotRegistered)
  | Some _ =>
      match d with
      | PReturn =>
          match o_ret o with
          | Some _ => (o, Throw RInvalidParameterDirection)
          | None =>
              match find_param n (o_params o) with
              | Some _ => (o, Throw RDuplicateName)
              | None =>
                  match mk_param n u d with
                  | Ok p => (Oper (o_name o) (o_params o) (Some p), Ok tt)
                  | Throw e => (o, Throw e)
                  | UB => (o, UB)
                  end
              end
          end
      | _ =>
          if match o_ret o with Some p => list_eqb (p_name p) n | None => false end
          then (o, Throw RDuplicateName)
          else match mk_param n u d with
               | Ok p => match find_param (p_name p) (o_params o) with
                         | Some _ => (o, Throw RDuplicateName)
                         | None => (Oper (o_name o) (o_params o ++ [p]) (o_ret o), Ok tt)
                         end
               | Throw e => (o, Throw e)
               | UB => (o, UB)
               end
      end
  end.

(** Operation.cpp:186-192, Update: what publishing the operation again does. *)
Definition op_update (o : oper) : oper := Oper (o_name o) [] None.

Inductive oop := ORParam (r : reg) (n : list Z) (u : Z) (d : dir) | ORUpdate.
Definition ostep (o : oper) (x : oop) : oper :=
  match x with
  | ORParam r n u d => fst (publish_parameter r o n u d)
  | ORUpdate => op_update o
  end.
Definition orun (o : oper) (xs : list oop) : oper := fold_left ostep xs o.

(** * Requests *)

(** Publication/Request.h: _values, _indexes and _returnValue. *)
Record request := Req { rvals : list (any * Z); ridx : list (list Z * Z); rret : any }.

(** Publication/Request.cpp:34-81, isValid: false is [Ok false]. *)
Definition conv {A} (x : res any_exn A) (f : A -> bool) : res rexn bool :=
  match x with Ok a => Ok (f a) | Throw _ => Throw RInvalidAnyType | UB => UB end.

Definition is_valid (t : ty) (v : any) : res rexn bool :=
  if negb (kind_eqb (ty_kind t) (atype v)) then Throw RInvalidAnyType
  else match ty_def t with
       | DInt _ lo hi => conv (get_int TI64 v) (fun z => negb ((z <? lo) || (hi <? z)))
       | DFloat _ lo hi lo_in hi_in =>
           conv (get_f64 v) (fun f =>
             negb ((if lo_in then SFltb f lo else SFleb f lo) || (if hi_in then SFltb hi f else SFleb hi f)))
       | DString len =>
           conv (get_str v) (fun s => match s with
                                      | Some l => negb (len mod 2 ^ 64 <? Z.of_nat (length l))
                                      | None => true
                                      end)
       | DEnum _ ls => conv (get_int TI32 v) (fun z => match aget Z.eqb z ls with Some _ => true | None => false end)
       | _ => Ok true
       end.

(** Publication/Request.cpp:92-129, init; [n] bounds the depth of the recursion.
    Simplified: [static_cast<Int32>] of the number of indexes is [cast TI32]. *)
Definition add_value (nm : list Z) (u : Z) (q : request) : request :=
  Req (rvals q ++ [(any_new KNone, u)])
      (atry list_eqb nm (cast TI32 (Z.of_nat (length (ridx q)))) (ridx q)) (rret q).

Fixpoint init_items (f : list Z -> request -> res rexn request) (nm : list Z) (k i : nat) (q : request) : res rexn request :=
  match k with
  | O => Ok q
  | S k => bind (f (nm ++ item_name i) q) (init_items f nm k (S i))
  end.

Fixpoint init_fields (f : list Z -> Z -> request -> res rexn request) (r : reg) (nm : list Z) (fs : list sfield) (q : request) : res rexn request :=
  match fs with
  | [] => Ok q
  | x :: fs =>
      match get_type r (sf_type x) with
      | None => Throw RTypeNotRegistered
      | Some _ => bind (f (nm ++ 46 :: sf_name x) (sf_type x) q) (init_fields f r nm fs)
      end
  end.

Fixpoint rq_init (n : nat) (r : reg) (nm : list Z) (u : Z) (q : request) : res rexn request :=
  match n with
  | O => UB
  | S n =>
      match get_type r u with
      | None => UB
      | Some t =>
          if negb (is_none (ty_kind t)) then Ok (add_value nm u q)
          else match ty_def t with
               | DArray item _ count _ => init_items (fun nm => rq_init n r nm item) nm (Z.to_nat count) 0 q
               | DStruct fs | DClass _ fs => init_fields (rq_init n r) r nm fs q
               | _ => Throw RInvalidAnyType
               end
      end
  end.

(** Publication/Request.cpp:83-90, the constructor. *)
Fixpoint rq_params (n : nat) (r : reg) (ps : list param) (q : request) : res rexn request :=
  match ps with
  | [] => Ok q
  | p :: ps => bind (rq_init n r (p_name p) (p_type p) q) (rq_params n r ps)
  end.
Definition empty_request : request := Req [] [] (any_new KNone).
Definition rq_new (n : nat) (r : reg) (o : oper) : res rexn request := rq_params n r (o_params o) empty_request.

(** Operation.cpp:128-141, CreateRequest; [None] is the null pointer. *)
Definition kind_none (r : reg) (u : Z) : bool :=
  match get_type r u with Some t => is_none (ty_kind t) | None => false end.
Definition create_request (n : nat) (r : reg) (o : oper) : option (res rexn request) :=
  if existsb (fun p => kind_none r (p_type p)) (o_params o) then None
  else if match o_ret o with Some p => kind_none r (p_type p) | None => false end then None
  else Some (rq_new n r o).

(** Publication/Request.cpp:131-133 GetParameterCount, 135-142 GetParameterIndex. *)
Definition get_count (q : request) : Z := cast TI32 (Z.of_nat (length (rvals q))).
Definition get_index (q : request) (nm : option (list Z)) : Z :=
  match nm with
  | None => -1
  | Some s => match aget list_eqb s (ridx q) with Some i => i | None => -1 end
  end.

(** std::find_if over _indexes (Publication/Request.cpp:152-156). *)
Definition index_known (q : request) (i : Z) : bool := existsb (fun e => snd e =? i) (ridx q).

Fixpoint put_nth {A} (k : nat) (f : A -> A) (l : list A) : list A :=
  match l, k with
  | [], _ => []
  | x :: r, O => f x :: r
  | x :: r, S k => x :: put_nth k f r
  end.

(** Publication/Request.cpp:144-161, SetParameterValue.  The iterator it is
    dereferenced without a test when the value is refused. *)
Definition set_param (r : reg) (q : request) (i : Z) (v : any) : request * res rexn unit :=
  if (i <? 0) || (Z.of_nat (length (rvals q)) <=? i) then (q, Throw RInvalidParameterIndex)
  else match nth_error (rvals q) (Z.to_nat i) with
       | None => (q, UB)
       | Some (_, u) =>
           match get_type r u with
           | None => (q, UB)
           | Some t =>
               match is_valid t v with
               | Ok true => (Req (put_nth (Z.to_nat i) (fun e => (v, snd e)) (rvals q)) (ridx q) (rret q), Ok tt)
               | Ok false => if index_known q i then (q, Throw RInvalidParameterValue) else (q, UB)
               | Throw e => (q, Throw e)
               | UB => (q, UB)
               end
           end
       end.

(** Publication/Request.cpp:163-169, GetParameterValue. *)
Definition get_param (q : request) (i : Z) : res rexn any :=
  if (i <? 0) || (Z.of_nat (length (rvals q)) <=? i) then Throw RInvalidParameterIndex
  else match nth_error (rvals q) (Z.to_nat i) with Some (v, _) => Ok v | None => UB end.

(** Publication/Request.cpp:171-180 SetReturnValue and 182-187 GetReturnValue. *)
Definition set_ret (r : reg) (o : oper) (q : request) (v : any) : request * res rexn unit :=
  match o_ret o with
  | None => (q, Throw RVoidOperation)
  | Some p =>
      match get_type r (p_type p) with
      | None => (q, UB)
      | Some t =>
          match is_valid t v with
          | Ok true => (Req (rvals q) (ridx q) v, Ok tt)
          | Ok false => (q, Throw RInvalidReturnValue)
          | Throw e => (q, Throw e)
          | UB => (q, UB)
          end
      end
  end.
Definition get_ret (o : oper) (q : request) : res rexn any :=
  match o_ret o with None => Throw RVoidOperation | Some _ => Ok (rret q) end.

(** Calls on a request; each comes with the registry and the operation of the moment. *)
Inductive qop := QSet (r : reg) (i : Z) (v : any) | QRet (r : reg) (o : oper) (v : any).
Definition qstep (q : request) (x : qop) : request * res rexn unit :=
  match x with
  | QSet r i v => set_param r q i v
  | QRet r o v => set_ret r o q v
  end.
Fixpoint qrun (q : request) (xs : list qop) : request * list (qop * res rexn unit) :=
  match xs with
  | [] => (q, [])
  | x :: xs =>
      let '(q1, a) := qstep q x in
      let '(q2, t) := qrun q1 xs in (q2, (x, a) :: t)
  end.

(** Operation.cpp:143-182, Operation::Invoke up to the call of the component's Invoke.
    [dyn]: the parent is an IDynamicInvocation; [name] is GetOperationName() of the
    request, None for the null request or the null name. *)
Fixpoint check_inputs (r : reg) (q : request) (ps : list param) : res rexn unit :=
  match ps with
  | [] => Ok tt
  | p :: ps =>
      match p_dir p with
      | POut => check_inputs r q ps
      | _ =>
          bind (get_param q (get_index q (Some (p_name p)))) (fun v =>
            match get_type r (p_type p) with
            | None => UB
            | Some t => if kind_eqb (atype v) (ty_kind t) then check_inputs r q ps else Throw RInvalidParameterType
            end)
      end
  end.
Definition invoke (r : reg) (o : oper) (dyn : bool) (name : option (list Z)) (q : request) : res rexn unit :=
  match name with
  | Some s =>
      if list_eqb (o_name o) s then
        if dyn then
          if get_count q mod 2 ^ 64 =? Z.of_nat (length (o_params o)) then check_inputs r q (o_params o)
          else Throw RInvalidParameterCount
        else Throw RInvalidOperationName
      else Throw RInvalidOperationName
  | None => Throw RInvalidOperationName
  end.

(** * Properties *)

Inductive access := AReadWrite | AReadOnly | AWriteOnly.
Record prop := MkProp { pr_name : list Z; pr_type : Z; pr_access : access }.

(** The requests made for properties: Property.cpp:33-80 Getter and 82-135 Setter. *)
Inductive preq := Getter (p : prop) (ret : any) | Setter (p : prop) (v : any).
Definition preq_name (x : preq) : list Z :=
  match x with Getter p _ => codes "get_" ++ pr_name p | Setter p _ => codes "set_" ++ pr_name p end.
Definition preq_count (x : preq) : Z := match x with Getter _ _ => 0 | Setter _ _ => 1 end.
Definition preq_index (x : preq) (nm : option (list Z)) : Z := match x with Getter _ _ => -1 | Setter _ _ => 0 end.

Definition check_value (r : reg) (u : Z) (v : any) (bad : rexn) : res rexn unit :=
  match get_type r u with
  | None => UB
  | Some t => match is_valid t v with
              | Ok true => Ok tt | Ok false => Throw bad | Throw e => Throw e | UB => UB
              end
  end.
(** Property.cpp:54-57 and 103-113, SetParameterValue; 64-70 and 123-125, SetReturnValue. *)
Definition preq_set (r : reg) (x : preq) (i : Z) (v : any) : preq * res rexn unit :=
  match x with
  | Getter _ _ => (x, Throw RInvalidParameterIndex)
  | Setter p _ =>
      if i =? 0 then
        match check_value r (pr_type p) v RInvalidParameterValue with
        | Ok _ => (Setter p v, Ok tt)
        | Throw e => (x, Throw e)
        | UB => (x, UB)
        end
      else (x, Throw RInvalidParameterIndex)
  end.
Definition preq_set_ret (r : reg) (x : preq) (v : any) : preq * res rexn unit :=
  match x with
  | Getter p _ =>
      match check_value r (pr_type p) v RInvalidReturnValue with
      | Ok _ => (Getter p v, Ok tt)
      | Throw e => (x, Throw e)
      | UB => (x, UB)
      end
  | Setter _ _ => (x, Throw RVoidOperation)
  end.
(** Property.cpp:59-62, 115-121 GetParameterValue; 72-74, 127-129 GetReturnValue. *)
Definition preq_get (x : preq) (i : Z) : res rexn any :=
  match x with
  | Getter _ _ => Throw RInvalidParameterIndex
  | Setter _ v => if i =? 0 then Ok v else Throw RInvalidParameterIndex
  end.
Definition preq_ret (x : preq) : res rexn any :=
  match x with Getter _ v => Ok v | Setter _ _ => Throw RVoidOperation end.

(** Property.cpp:153-176, GetValue and SetValue: the request handed to Invoke, given
    what the component does with it ([inv]); [dyn] as above. *)
Definition prop_get (p : prop) (dyn : bool) (inv : preq -> preq * res rexn unit) : res rexn any :=
  if negb dyn || match pr_access p with AWriteOnly => true | _ => false end then Throw RInvalidAccessKind
  else match inv (Getter p (any_new KNone)) with
       | (x, Ok _) => preq_ret x
       | (_, Throw e) => Throw e
       | (_, UB) => UB
       end.
(** The result is the list of requests handed to Invoke, and the outcome. *)
Definition prop_set (r : reg) (p : prop) (dyn : bool) (v : any) (inv : preq -> res rexn unit) : list preq * res rexn unit :=
  if negb dyn || match pr_access p with AReadOnly => true | _ => false end then ([], Throw RInvalidAccessKind)
  else match preq_set r (Setter p (any_new KNone)) 0 v with
       | (x, Ok _) => ([x], inv x)
       | (_, Throw e) => ([], Throw e)
       | (_, UB) => ([], UB)
       end.

(** * The publication *)

Record publ := Publ { pb_ops : list oper; pb_props : list prop }.
Fixpoint find_op (n : list Z) (l : list oper) : option oper :=
  match l with [] => None | o :: r => if list_eqb n (o_name o) then Some o else find_op n r end.
Fixpoint find_prop (n : list Z) (l : list prop) : option prop :=
  match l with [] => None | p :: r => if list_eqb n (pr_name p) then Some p else find_prop n r end.

Fixpoint set_op (n : list Z) (o' : oper) (l : list oper) : list oper :=
  match l with [] => [] | o :: r => if list_eqb n (o_name o) then o' :: r else o :: set_op n o' r end.
Fixpoint set_prop (n : list Z) (p' : prop) (l : list prop) : list prop :=
  match l with [] => [] | p :: r => if list_eqb n (pr_name p) then p' :: r else p :: set_prop n p' r end.

Definition checked (n : list Z) : res rexn (list Z) :=
  match check_name (Some (n ++ [0])) with Ok s => Ok s | Throw _ => Throw RInvalidObjectName | UB => UB end.

(** Publication.cpp:190-201, PublishOperation. *)
Definition publish_operation (b : publ) (n : list Z) : publ * res rexn unit :=
  match find_op n (pb_ops b) with
  | Some o => (Publ (set_op n (op_update o) (pb_ops b)) (pb_props b), Ok tt)
  | None => match checked n with
            | Ok s => (Publ (pb_ops b ++ [Oper s [] None]) (pb_props b), Ok tt)
            | Throw e => (b, Throw e)
            | UB => (b, UB)
            end
  end.

(** Publication.cpp:203-220, PublishProperty. *)
Definition publish_property (r : reg) (b : publ) (n : list Z) (u : Z) (a : access) : publ * res rexn unit :=
  match get_type r u with
  | None => (b, Throw RTypeNotRegistered)
  | Some _ =>
      match find_prop n (pb_props b) with
      | Some p => (Publ (pb_ops b) (set_prop n (MkProp (pr_name p) u a) (pb_props b)), Ok tt)
      | None => match checked n with
                | Ok s => (Publ (pb_ops b) (pb_props b ++ [MkProp s u a]), Ok tt)
                | Throw e => (b, Throw e)
                | UB => (b, UB)
                end
      end
  end.

Inductive bop :=
| BOperation (n : list Z) | BParameter (r : reg) (op n : list Z) (u : Z) (d : dir)
| BProperty (r : reg) (n : list Z) (u : Z) (a : access) | BUnpublish.
Definition bstep (b : publ) (x : bop) : publ * res rexn unit :=
  match x with
  | BOperation n => publish_operation b n
  | BParameter r op n u d =>
      match find_op op (pb_ops b) with
      | Some o => let '(o', a) := publish_parameter r o n u d in (Publ (set_op op o' (pb_ops b)) (pb_props b), a)
      | None => (b, UB)
      end
  | BProperty r n u a => publish_property r b n u a
  | BUnpublish => (Publ [] [], Ok tt)   (* Publication.cpp:286-291 *)
  end.
Definition brun (xs : list bop) : publ := fold_left (fun b x => fst (bstep b x)) xs (Publ [] []).

(** A request, as CreateRequest returns it. *)
Inductive anyreq := OfOperation (o : oper) (q : res rexn request) | OfProperty (x : preq).

(** strncmp(name, prefix, 4) == 0, and name + 4. *)
Fixpoint strip (p s : list Z) : option (list Z) :=
  match p, s with
  | [], s => Some s
  | c :: p, d :: s => if c =? d then strip p s else None
  | _ :: _, [] => None
  end.

(** Publication.cpp:242-273 and Property.cpp:178-186; [None] is the null pointer. *)
Definition pb_create (n : nat) (r : reg) (b : publ) (nm : option (list Z)) : option anyreq :=
  match nm with
  | None => None
  | Some s =>
      match find_op s (pb_ops b) with
      | Some o => match create_request n r o with Some q => Some (OfOperation o q) | None => None end
      | None =>
          match strip (codes "get_") s with
          | Some t =>
              match find_prop t (pb_props b) with
              | Some p => match pr_access p with AWriteOnly => None | _ => Some (OfProperty (Getter p (any_new KNone))) end
              | None => None
              end
          | None =>
              match strip (codes "set_") s with
              | Some t =>
                  match find_prop t (pb_props b) with
                  | Some p => match pr_access p with AReadOnly => None | _ => Some (OfProperty (Setter p (any_new KNone))) end
                  | None => None
                  end
              | None => None
              end
          end
      end
  end.

(** * Marshalling: Xsmp::Request *)

(** Request.cpp:29-40 setValue, 42-64 getValue. *)
Definition put_value (r : reg) (q : request) (nm : list Z) (v : any) : request * res rexn unit :=
  let i := get_index q (Some nm) in
  if i =? -1 then (q, Throw RNoParameter) else set_param r q i v.
Definition take_value (q : request) (nm : list Z) (k : kind) (dflt : bool) : res rexn any :=
  let i := get_index q (Some nm) in
  if i =? -1 then if dflt then Ok (any_new KNone) else Throw RNoParameter
  else bind (get_param q i) (fun v => if kind_eqb (atype v) k then Ok v else Throw RInvalidParameterType).

Definition of_any {A} (x : res any_exn A) : res rexn A :=
  match x with Ok a => Ok a | Throw _ => Throw RInvalidAnyType | UB => UB end.

(** Request.h:57-91 get and 133-141 set, for a type [c] of kind [k]. *)
Definition rq_set (r : reg) (q : request) (nm : list Z) (c : cty) (k : kind) (v : payload) : request * res rexn unit :=
  match of_any (to_any c k v) with
  | Ok a => put_value r q nm a
  | Throw e => (q, Throw e)
  | UB => (q, UB)
  end.
Definition rq_get (q : request) (nm : list Z) (c : cty) (k : kind) : res rexn payload :=
  bind (take_value q nm k false) (fun a => of_any (from_any c a)).
Definition rq_get_default (q : request) (nm : list Z) (c : cty) (k : kind) (d : payload) : res rexn payload :=
  bind (take_value q nm k true) (fun a => if is_none (atype a) then Ok d else of_any (from_any c a)).

(** The local field of Request.h:99-129 and 148-160: a typed field and its value. *)
Inductive fld :=
| FSim (c : cty) (k : kind) (v : payload)
| FSArr (c : cty) (k : kind) (vs : list payload)
| FArr (items : list fld)
| FStr (fs : list (list Z * fld)).

Definition seqq (x : request * res rexn unit) (k : request -> request * res rexn unit) : request * res rexn unit :=
  match x with (q, Ok _) => k q | (q, Throw e) => (q, Throw e) | (q, UB) => (q, UB) end.

Definition put_field (r : reg) (c : cty) (k : kind) (nm : list Z) (v : payload) (q : request) : request * res rexn unit :=
  let i := get_index q (Some nm) in
  if i =? -1 then (q, Throw RNoParameter)
  else match of_any (to_any c k v) with
       | Ok a => set_param r q i a
       | Throw e => (q, Throw e)
       | UB => (q, UB)
       end.

(** Request.cpp:124-173, inject. *)
Fixpoint inject (r : reg) (f : fld) (nm : list Z) (q : request) : request * res rexn unit :=
  match f with
  | FSim c k v => put_field r c k nm v q
  | FSArr c k vs =>
      (fix go (vs : list payload) (i : nat) (q : request) :=
         match vs with
         | [] => (q, Ok tt)
         | v :: vs => seqq (put_field r c k (nm ++ item_name i) v q) (go vs (S i))
         end) vs O q
  | FArr l =>
      (fix go (l : list fld) (i : nat) (q : request) :=
         match l with
         | [] => (q, Ok tt)
         | x :: l => seqq (inject r x (nm ++ item_name i) q) (go l (S i))
         end) l O q
  | FStr l =>
      (fix go (l : list (list Z * fld)) (q : request) :=
         match l with
         | [] => (q, Ok tt)
         | (n, x) :: l => seqq (inject r x (nm ++ 46 :: n) q) (go l)
         end) l q
  end.

(** Request.cpp:66-123, extract into the field [f]: the field afterwards.  A simple
    field converts the value (Field.h:428-430), a simple array wants its very kind
    (Field.h:774-782). *)
Definition take_field (ign same_kind : bool) (c : cty) (k : kind) (nm : list Z) (v : payload) (q : request) : res rexn payload :=
  let i := get_index q (Some nm) in
  if i =? -1 then if ign then Ok v else Throw RNoParameter
  else bind (get_param q i) (fun a =>
         if same_kind && negb (kind_eqb (atype a) k) then Throw RInvalidFieldValue
         else of_any (from_any c a)).

Fixpoint extract (ign : bool) (f : fld) (nm : list Z) (q : request) : res rexn fld :=
  match f with
  | FSim c k v => bind (take_field ign false c k nm v q) (fun v' => Ok (FSim c k v'))
  | FSArr c k vs =>
      bind ((fix go (vs : list payload) (i : nat) : res rexn (list payload) :=
               match vs with
               | [] => Ok []
               | v :: vs => bind (take_field ign true c k (nm ++ item_name i) v q) (fun v' =>
                              bind (go vs (S i)) (fun l => Ok (v' :: l)))
               end) vs O) (fun l => Ok (FSArr c k l))
  | FArr l =>
      bind ((fix go (l : list fld) (i : nat) : res rexn (list fld) :=
               match l with
               | [] => Ok []
               | x :: l => bind (extract ign x (nm ++ item_name i) q) (fun x' =>
                             bind (go l (S i)) (fun l' => Ok (x' :: l')))
               end) l O) (fun l => Ok (FArr l))
  | FStr l =>
      bind ((fix go (l : list (list Z * fld)) : res rexn (list (list Z * fld)) :=
               match l with
               | [] => Ok []
               | (n, x) :: l => bind (extract ign x (nm ++ 46 :: n) q) (fun x' =>
                                  bind (go l) (fun l' => Ok ((n, x') :: l')))
               end) l) (fun l => Ok (FStr l))
  end.
