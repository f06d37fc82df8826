(** Where published fields live: the fields that src/Xsmp/Publication/Field.cpp creates for
    a type of the registry, the memory they read and write, and the values of simple
    arrays.

    Simplified: memory is a byte per address and an address is an integer that does not
    wrap; a value other than a string is the bytes that represent it, that is, a value
    that AnySimple has already converted to the kind of the field (AnyModel.v). *)
From Coq Require Import ZArith List Bool.
From Verif Require Import Base Text UuidModel Assoc AnyModel HelperModel TypeModel.
From Verif Require FieldStoreModel.
Import ListNotations.
Local Open Scope Z_scope.

Definition mem := Z -> Z.

(** Publication/Field.h: _state, _input and _output. *)
Record flags := Flags { f_state : bool; f_input : bool; f_output : bool }.

(** What SetValue and GetValue ask of the type of a simple field: its kind, the length of
    a string type and the literals of an enumeration. *)
Record leaf := Leaf { l_kind : kind; l_len : option Z; l_lits : option (list Z) }.

Definition leaf_of (t : ty) : leaf :=
  Leaf (ty_kind t)
    (match ty_def t with DString len => Some len | _ => None end)
    (match ty_def t with DEnum _ lits => Some (map fst lits) | _ => None end).

(** The classes SimpleField, SimpleArrayField, ArrayField and StructureField. *)
Inductive mfield :=
| MSimple (addr : Z) (l : leaf) (fl : flags)
| MSArr (addr : Z) (l : leaf) (isize count : Z) (fl : flags)
| MArr (items : list mfield) (fl : flags)
| MStruct (fs : list (list Z * mfield)) (fl : flags).

Fixpoint has_child (n : list Z) (l : list (list Z * mfield)) : bool :=
  match l with [] => false | (m, _) :: r => list_eqb n m || has_child n r end.

(** Publication/Field.cpp:801-819, StructureField: the field of each member, at its
    offset; it is a state as the member says, an input or output as the member or the
    structure says. *)
Fixpoint place_fields (mk : Z -> Z -> flags -> option (res texn mfield)) (addr : Z) (fl : flags)
  (fs : list sfield) (acc : list (list Z * mfield)) : res texn (list (list Z * mfield)) :=
  match fs with
  | [] => Ok acc
  | f :: r =>
      match mk (sf_type f) (addr + sf_offset f)
               (Flags (sf_state f) (sf_input f || f_input fl) (sf_output f || f_output fl)) with
      | None => Throw TypeNotRegistered
      | Some x =>
          match check_name (Some (sf_name f ++ [0])), x with
          | Throw _, _ => Throw InvalidObjectName
          | UB, _ => UB
          | Ok n, Ok p => if has_child n acc then Throw DuplicateName else place_fields mk addr fl r (acc ++ [(n, p)])
          | Ok _, Throw e => Throw e
          | Ok _, UB => UB
          end
      end
  end.

(** Publication/Field.cpp:87-141, Create, with the constructors of ArrayField (435-451) and
    SimpleArrayField (478-489).  [n] bounds the depth of the recursion, and the order of
    the checks is simplified, as in [expand] (TypeModel.v). *)
Fixpoint place (n : nat) (r : reg) (u addr : Z) (fl : flags) : option (res texn mfield) :=
  match n with
  | O => Some UB
  | S n =>
      match get_type r u with
      | None => None
      | Some t => Some
          (match ty_kind t with
           | KNone =>
               match ty_def t with
               | DArray item isize count simple =>
                   match get_type r item with
                   | None => UB
                   | Some it =>
                       if simple && negb (match ty_kind it with KNone => true | _ => false end)
                       then Ok (MSArr addr (leaf_of it) isize count fl)
                       else bind (collect (map (fun i => match place n r item (addr + Z.of_nat i * isize) fl with Some x => x | None => UB end)
                                               (seq 0 (Z.to_nat count))))
                              (fun l => Ok (MArr l fl))
                   end
               | DStruct fs => bind (place_fields (place n r) addr fl fs []) (fun l => Ok (MStruct l fl))
               | DClass _ fs => bind (place_fields (place n r) addr fl fs []) (fun l => Ok (MStruct l fl))
               | _ => Throw InvalidFieldType
               end
           | _ => if u =? uString8 then Throw IncompatibleType else Ok (MSimple addr (leaf_of t) fl)
           end)
      end
  end.

(** * Values *)

Record slot := Slot { s_addr : Z; s_leaf : leaf; s_flags : flags }.

(** A simple field, or an item of a simple array, by its path: GetFields()->at(i) of a
    structure (837-839), GetItem(i) of an array (455-460), and the item of a simple array
    (505-509, 547-551).  The type of a simple array is an array type, so that its items are not
    checked against the literals of an enumeration (567). *)
Fixpoint leaf_at (p : list nat) (f : mfield) : option slot :=
  match f, p with
  | MSimple a l fl, [] => Some (Slot a l fl)
  | MSArr a l isize count fl, [i] =>
      if Z.of_nat i <? count then Some (Slot (a + Z.of_nat i * isize) (Leaf (l_kind l) (l_len l) None) fl) else None
  | MArr items _, i :: q => match nth_error items i with Some c => leaf_at q c | None => None end
  | MStruct fs _, i :: q => match nth_error fs i with Some (_, c) => leaf_at q c | None => None end
  | _, _ => None
  end.

(** StructureField::GetField(name) (841-843, Collection.h:161-172): the first of that name. *)
Fixpoint child_named (n : list Z) (fs : list (list Z * mfield)) : option mfield :=
  match fs with [] => None | (m, c) :: r => if list_eqb n m then Some c else child_named n r end.

Inductive value := VBytes (b : list Z) | VText (t : option (list Z)).
Inductive vexn := InvalidFieldValue | InvalidValueType | InvalidArraySize | InvalidArrayValue.

Fixpoint read (m : mem) (a : Z) (n : nat) : list Z :=
  match n with O => [] | S n => m a :: read m (a + 1) n end.
Definition write (m : mem) (a : Z) (bs : list Z) : mem :=
  fun x => if (a <=? x) && (x <? a + Z.of_nat (length bs)) then nth (Z.to_nat (x - a)) bs 0 else m x.

(** The integer four bytes represent: little endian, two's complement. *)
Fixpoint unsigned (bs : list Z) : Z := match bs with [] => 0 | b :: r => b + 256 * unsigned r end.
Definition int32_of (bs : list Z) : Z := let v := unsigned bs in if v <? 2 ^ 31 then v else v - 2 ^ 32.

(** Helper.cpp:453-464, CopyString, with the length converted to size_t. *)
Definition copied (len : Z) (t : option (list Z)) : list Z :=
  match t with
  | None => [0]
  | Some t => let n := len mod 2 ^ 64 in
              (if Z.of_nat (length t) <=? n then t else firstn (Z.to_nat n) t) ++ [0]
  end.

(** Publication/Field.cpp:744-799, SimpleField::SetValue; 547-607 SimpleArrayField::SetValue
    for an item.  A string type that is not a StringType is a null dereference. *)
Definition set_value (m : mem) (s : slot) (v : value) : res vexn mem :=
  match l_kind (s_leaf s), v with
  | KString8, VText t =>
      match l_len (s_leaf s) with
      | Some len => Ok (write m (s_addr s) (copied len t))
      | None => UB
      end
  | KString8, VBytes _ | KNone, _ => Throw InvalidValueType
  | k, VBytes b =>
      match FieldStoreModel.kind_size k with
      | Some n =>
          if negb (Nat.eqb (length b) n) then Throw InvalidValueType
          else match k, l_lits (s_leaf s) with
               | KI32, Some lits => if existsb (Z.eqb (int32_of b)) lits then Ok (write m (s_addr s) b) else Throw InvalidFieldValue
               | _, _ => Ok (write m (s_addr s) b)
               end
      | None => Throw InvalidValueType
      end
  | _, VText _ => Throw InvalidValueType
  end.

(** The characters before the first NUL of [n] bytes; None when there is none. *)
Fixpoint text_at (m : mem) (a : Z) (n : nat) : option (list Z) :=
  match n with
  | O => None
  | S n => if m a =? 0 then Some [] else match text_at m (a + 1) n with Some t => Some (m a :: t) | None => None end
  end.

(** Publication/Field.cpp:706-742, SimpleField::GetValue; 505-545 for an item.  The string
    is read until its NUL: undefined when there is none in the memory of the field. *)
Definition get_value (m : mem) (s : slot) : res vexn value :=
  match l_kind (s_leaf s) with
  | KString8 =>
      match l_len (s_leaf s) with
      | Some len => match text_at m (s_addr s) (Z.to_nat (len + 1)) with Some t => Ok (VText (Some t)) | None => UB end
      | None => UB
      end
  | KNone => Throw InvalidValueType
  | k => match FieldStoreModel.kind_size k with Some n => Ok (VBytes (read m (s_addr s) n)) | None => Throw InvalidValueType end
  end.

(** Publication/Field.cpp:619-631, SimpleArrayField::SetValues, on the items from [i] on;
    the values written before an exception stay. *)
Fixpoint set_items (m : mem) (f : mfield) (i : nat) (vs : list value) : mem * res vexn unit :=
  match vs with
  | [] => (m, Ok tt)
  | v :: r =>
      match leaf_at [i] f with
      | None => (m, UB)
      | Some s =>
          match set_value m s v with
          | Ok m' => set_items m' f (S i) r
          | Throw InvalidValueType => (m, Throw InvalidArrayValue)
          | Throw e => (m, Throw e)
          | UB => (m, UB)
          end
      end
  end.
Definition array_size (f : mfield) : Z := match f with MSArr _ _ _ count _ => count | _ => 0 end.
Definition set_values (m : mem) (f : mfield) (vs : list value) : mem * res vexn unit :=
  if negb (Z.of_nat (length vs) =? array_size f) then (m, Throw InvalidArraySize) else set_items m f 0 vs.

(** Publication/Field.cpp:609-617, SimpleArrayField::GetValues. *)
Fixpoint get_items (m : mem) (f : mfield) (i n : nat) : res vexn (list value) :=
  match n with
  | O => Ok []
  | S n => match leaf_at [i] f with
           | None => UB
           | Some s => bind (get_value m s) (fun v => bind (get_items m f (S i) n) (fun r => Ok (v :: r)))
           end
  end.
Definition get_values (m : mem) (f : mfield) (n : nat) : res vexn (list value) :=
  if negb (Z.of_nat n =? array_size f) then Throw InvalidArraySize else get_items m f 0 n.

(** The same field for FieldStoreModel.v (Store and Restore). *)
Fixpoint stored (f : mfield) : FieldStoreModel.ftree :=
  match f with
  | MSimple a l fl => FieldStoreModel.PbSimple (f_state fl) (Z.to_nat a) (l_kind l) (option_map Z.to_nat (l_len l))
  | MSArr a l isize count fl => FieldStoreModel.PbSArr (f_state fl) (Z.to_nat a) (Z.to_nat isize) (Z.to_nat count)
  | MArr items fl => FieldStoreModel.PbArr (f_state fl) (map stored items)
  | MStruct fs fl => FieldStoreModel.PbStr (f_state fl) (map (fun nc => stored (snd nc)) fs)
  end.

