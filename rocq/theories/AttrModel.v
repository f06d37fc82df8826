(** Model of the access to objects by name from Python: src/python/Smp/IObjectBinding.h
    and the operators of simple fields and properties (ISimpleFieldBinding.h,
    IPropertyBinding.h).

    Simplifications: the setter of a property stores its value and the getter answers it;
    fields are not forced; of the Python objects that are not numbers, strings or simple
    fields only SMP objects are given as values, and none but simple fields to elements of
    kind Bool (which take a property for its truth); the object that is indexed is no
    container, reference, collection or array, whose classes define __getitem__ anew. *)
From Coq Require Import ZArith List Bool.
From Verif Require Import Base Text UuidModel PathModel AnyModel PyModel.
Import ListNotations.
Local Open Scope Z_scope.

Inductive access := ReadWrite | ReadOnly | WriteOnly.

(** The objects of a simulation; the primitive kind of every simple field and property
    (none for array fields), its value, the access of every property, and for fields of
    enumeration types the values that are literals. *)
Record world := World {
  w_tree : tree; w_kind : loc -> option AnyModel.kind; w_val : loc -> any;
  w_access : loc -> access; w_literal : loc -> Z -> bool }.

Inductive aexn :=
| AttributeError | KeyError | TypeError | Convert (e : pexn) | InvalidAccessKind | InvalidFieldValue.

(** A Python value: a number or string, or an SMP object. *)
Inductive arg := AVal (p : pyval) | AObj (c : loc).

Definition loc_eqb (a b : loc) : bool := if list_eq_dec Nat.eq_dec a b then true else false.
Definition put_val (w : world) (c : loc) (a : any) : world :=
  World (w_tree w) (w_kind w) (fun x => if loc_eqb x c then a else w_val w x) (w_access w) (w_literal w).

(** convert(handle, kind), see PyModel.v; other objects than simple fields cannot be
    cast. *)
Definition converted (w : world) (v : arg) (k : AnyModel.kind) : res aexn any :=
  let of p := match of_py p k with Ok a => Ok a | Throw e => Throw (Convert e) | UB => UB end in
  match v with
  | AVal p => of p
  | AObj c =>
      match node_at (w_tree w) c, w_kind w c with
      | Some (Node KSimple _ _), Some _ => of (PyField (w_val w c))
      | _, _ => Throw (Convert PyCastError)
      end
  end.

(** Publication/Property.cpp:166-176 *)
Definition set_property (w : world) (c : loc) (a : any) : res aexn world :=
  match w_access w c with ReadOnly => Throw InvalidAccessKind | _ => Ok (put_val w c a) end.
(** Publication/Field.cpp:744-800: an Int32 of an enumeration type is checked. *)
Definition set_field (w : world) (c : loc) (a : any) : res aexn world :=
  match atype a, aval a with
  | KI32, PInt z => if w_literal w c z then Ok (put_val w c a) else Throw InvalidFieldValue
  | _, _ => Ok (put_val w c a)
  end.

(** IObjectBinding.h:26-51, SetValue; the answer false is [None]. *)
Definition set_by_name (w : world) (o : loc) (name : list Z) (v : arg) : res aexn (option world) :=
  match resolve (w_tree w) o name with
  | None => Ok None
  | Some c =>
      if match v with AObj c' => loc_eqb c c' | AVal _ => false end then Ok (Some w)
      else
        match node_at (w_tree w) c, w_kind w c with
        | Some (Node (KLeaf Property) _ _), Some k =>
            bind (converted w v k) (fun a => bind (set_property w c a) (fun w => Ok (Some w)))
        | Some (Node KSimple _ _), Some k =>
            bind (converted w v k) (fun a => bind (set_field w c a) (fun w => Ok (Some w)))
        | _, _ => Ok None
        end
  end.

(** IObjectBinding.h:66-73 __setattr__, 85-92 __setitem__ *)
Definition error (item : bool) : aexn := if item then KeyError else AttributeError.
Definition assign (item : bool) (w : world) (o : loc) (name : list Z) (v : arg) : res aexn world :=
  bind (set_by_name w o name v) (fun r => match r with Some w => Ok w | None => Throw (error item) end).

(** What Python finds: a method of the class, or an SMP object. *)
Inductive found := Method | Object (c : loc).
(** IObjectBinding.h:56-64 __getattr__, which Python only calls when the class of the
    object has no attribute of that name; 75-83 __getitem__. *)
Definition lookup (methods : loc -> list (list Z)) (item : bool) (w : world) (o : loc) (name : list Z) : res aexn found :=
  if negb item && existsb (list_eqb name) (methods o) then Ok Method
  else match resolve (w_tree w) o name with Some c => Ok (Object c) | None => Throw (error item) end.

(** ISimpleFieldBinding.h:33-39, IPropertyBinding.h:37-41 GetValue, Publication/Property.cpp:
    a property that is write only has no value. *)
Definition value (w : world) (c : loc) : res aexn pyval :=
  let got := match to_py (w_val w c) with Ok p => Ok p | Throw e => Throw (Convert e) | UB => UB end in
  match node_at (w_tree w) c, w_kind w c with
  | Some (Node (KLeaf Property) _ _), Some _ =>
      match w_access w c with WriteOnly => Throw InvalidAccessKind | _ => got end
  | Some (Node KSimple _ _), Some _ => got
  | _, _ => Throw TypeError
  end.

(** The statement [o.name op= n] of Python with a number: the classes of fields and
    properties define no __iadd__ etc., so that it is [o.name = o.name op n].
    ISimpleFieldBinding.h:83-126: the operator on the value.  [f] is the operator of
    Python on its integers, which have no bounds; it may refuse. *)
Definition augment (methods : loc -> list (list Z)) (item : bool) (w : world) (o : loc) (name : list Z)
    (f : Z -> Z -> option Z) (n : Z) : res aexn world :=
  bind (lookup methods item w o name) (fun x =>
    match x with
    | Method => Throw TypeError
    | Object c =>
        bind (value w c) (fun p =>
          match p with
          | PyInt x => match f x n with Some r => assign item w o name (AVal (PyInt r)) | None => Throw TypeError end
          | _ => Throw TypeError
          end)
    end).

(** Expressions with numbers, elements and operators. *)
Inductive expr := Num (z : Z) | Elem (item : bool) (o : loc) (name : list Z) | Op (f : Z -> Z -> option Z) (a b : expr).
(** The object of an expression: a Python integer or the object of an SMP object. *)
Inductive pobj := PNum (z : Z) | PElem (c : loc).
(** ISimpleFieldBinding.h:83-172, IPropertyBinding.h: an operator works on the value of the
    left operand, and Python calls the reflected operator (__radd__ ...) of the right one.
    Values that are no integers are left out. *)
Definition operand (w : world) (x : pobj) : res aexn Z :=
  match x with
  | PNum z => Ok z
  | PElem c => bind (value w c) (fun p => match p with PyInt z => Ok z | _ => Throw TypeError end)
  end.
Fixpoint eval (methods : loc -> list (list Z)) (w : world) (e : expr) : res aexn pobj :=
  match e with
  | Num z => Ok (PNum z)
  | Elem item o name =>
      bind (lookup methods item w o name) (fun x => match x with Method => Throw TypeError | Object c => Ok (PElem c) end)
  | Op f a b =>
      bind (eval methods w a) (fun x => bind (eval methods w b) (fun y =>
        bind (operand w x) (fun p => bind (operand w y) (fun q =>
          match f p q with Some r => Ok (PNum r) | None => Throw TypeError end))))
  end.

(** The statement [o.name = e]. *)
Definition calculate (methods : loc -> list (list Z)) (item : bool) (w : world) (o : loc) (name : list Z) (e : expr) : res aexn world :=
  bind (eval methods w e) (fun x =>
    assign item w o name (match x with PNum z => AVal (PyInt z) | PElem c => AObj c end)).

(** Statements. *)
Inductive stmt :=
| Set_ (item : bool) (o : loc) (name : list Z) (v : arg)
| Aug (item : bool) (o : loc) (name : list Z) (f : Z -> Z -> option Z) (n : Z)
| Calc (item : bool) (o : loc) (name : list Z) (e : expr).
Definition exec (methods : loc -> list (list Z)) (w : world) (s : stmt) : res aexn world :=
  match s with
  | Set_ item o name v => assign item w o name v
  | Aug item o name f n => augment methods item w o name f n
  | Calc item o name e => calculate methods item w o name e
  end.
(** A script that catches the exceptions of its statements. *)
Fixpoint script (methods : loc -> list (list Z)) (w : world) (l : list stmt) : res aexn world :=
  match l with
  | [] => Ok w
  | s :: r =>
      match exec methods w s with
      | Ok w' => script methods w' r
      | Throw _ => script methods w r
      | UB => UB
      end
  end.
