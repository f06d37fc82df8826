(** What it means that published fields are the memory of the model. *)
From Coq Require Import ZArith List Bool.
From Verif Require Import Base Text AnyModel TypeModel PlaceModel.
Import ListNotations.
Local Open Scope Z_scope.

(** The size in bytes of the values of a kind (sizeof). *)
Definition value_size (k : kind) (n : Z) : Prop :=
  match k with
  | KBool | KChar8 | KI8 | KU8 => n = 1
  | KI16 | KU16 => n = 2
  | KI32 | KU32 | KF32 => n = 4
  | KI64 | KU64 | KF64 | KDuration | KDateTime => n = 8
  | KNone | KString8 => False
  end.

Definition apart (a n b m : Z) : Prop := a + n <= b \/ b + m <= a.

(** The registered type [u] describes a C++ type of [size] bytes: the parts of a structure
    lie inside it and do not overlap, the items of an array follow each other, a string
    has room for its length and the NUL.  [n] bounds the depth of the type. *)
Fixpoint describes (n : nat) (r : reg) (u size : Z) : Prop :=
  match n with
  | O => False
  | S n =>
      match get_type r u with
      | None => False
      | Some t =>
          match ty_def t with
          | DPrim k | DEnum k _ | DFloat k _ _ _ _ | DInt k _ _ => value_size k size
          | DString len => 0 <= len < 2 ^ 63 /\ size = len + 1
          | DArray item isize count _ => describes n r item isize /\ 0 <= count /\ size = isize * count
          | DStruct fs | DClass _ fs =>
              0 <= size /\
              exists sizes, Forall2 (fun f s => describes n r (sf_type f) s /\ 0 <= sf_offset f /\ sf_offset f + s <= size) fs sizes /\
              forall i j fi fj si sj, i <> j -> nth_error fs i = Some fi -> nth_error fs j = Some fj ->
                nth_error sizes i = Some si -> nth_error sizes j = Some sj -> apart (sf_offset fi) si (sf_offset fj) sj
          end
      end
  end.

(** The memory a simple field occupies. *)
Definition occupies (s : slot) (n : Z) : Prop :=
  match l_kind (s_leaf s), l_len (s_leaf s) with
  | KString8, Some len => n = len + 1
  | KString8, None => False
  | k, _ => value_size k n
  end.

(** What can be given to a simple field: bytes of its size, for an enumeration those of a
    literal, for a string a text without NUL. *)
Definition acceptable (s : slot) (v : value) : Prop :=
  match l_kind (s_leaf s), v with
  | KString8, VText (Some t) => ~ In 0 t
  | KString8, VText None => True
  | KNone, _ | KString8, _ | _, VText _ => False
  | k, VBytes b => value_size k (Z.of_nat (length b)) /\
      (k = KI32 -> forall lits, l_lits (s_leaf s) = Some lits -> In (int32_of b) lits)
  end.

(** What it gives back: the same bytes, or the text cut to the length of the string. *)
Definition given_back (s : slot) (v : value) : value :=
  match v, l_len (s_leaf s) with
  | VText (Some t), Some len => VText (Some (firstn (Z.to_nat len) t))
  | VText None, _ => VText (Some [])
  | _, _ => v
  end.

(** The field published for type [u] at [addr], as the registry declares it. *)
Inductive declared (r : reg) : Z -> Z -> flags -> mfield -> Prop :=
| d_simple : forall u t addr fl, get_type r u = Some t -> ty_kind t <> KNone -> u <> uString8 ->
    declared r u addr fl (MSimple addr (leaf_of t) fl)
| d_simple_array : forall u t item it isize count addr fl, get_type r u = Some t -> ty_def t = DArray item isize count true ->
    get_type r item = Some it -> ty_kind it <> KNone ->
    declared r u addr fl (MSArr addr (leaf_of it) isize count fl)
| d_array : forall u t item isize count simple items addr fl, get_type r u = Some t -> ty_def t = DArray item isize count simple ->
    length items = Z.to_nat count ->
    (forall i c, nth_error items i = Some c -> declared r item (addr + Z.of_nat i * isize) fl c) ->
    declared r u addr fl (MArr items fl)
| d_struct : forall u t fs cs addr fl, get_type r u = Some t -> ty_def t = DStruct fs \/ (exists base, ty_def t = DClass base fs) ->
    map fst cs = map sf_name fs -> NoDup (map fst cs) ->
    (forall i f c, nth_error fs i = Some f -> nth_error cs i = Some c ->
       declared r (sf_type f) (addr + sf_offset f)
         (Flags (sf_state f) (sf_input f || f_input fl) (sf_output f || f_output fl)) (snd c)) ->
    declared r u addr fl (MStruct cs fl).

(** The same field, without its memory, in TypeModel.v. *)
Inductive same_field : mfield -> pfield -> Prop :=
| same_simple : forall a l fl u, same_field (MSimple a l fl) (PSimple u)
| same_simple_array : forall a l isize count fl u, same_field (MSArr a l isize count fl) (PSimpleArray u count)
| same_array : forall l l' fl, Forall2 same_field l l' -> same_field (MArr l fl) (PArray l')
| same_struct : forall l l' fl, Forall2 (fun a b => fst a = fst b /\ same_field (snd a) (snd b)) l l' ->
    same_field (MStruct l fl) (PStruct l').

Definition same_outcome (a : option (res texn mfield)) (b : option (res texn pfield)) : Prop :=
  match a, b with
  | None, None | Some UB, Some UB => True
  | Some (Ok f), Some (Ok p) => same_field f p
  | Some (Throw e), Some (Throw e') => e = e'
  | _, _ => False
  end.

(** The values a caller can give: a text is a C string. *)
Definition proper (v : value) : Prop := match v with VText (Some t) => ~ In 0 t | _ => True end.

(** The memory after a history of SetValue calls on the simple fields of [f]: a refused
    call changes nothing. *)
Fixpoint after (m : mem) (f : mfield) (ops : list (list nat * value)) : mem :=
  match ops with
  | [] => m
  | (p, v) :: r =>
      after (match leaf_at p f with
             | Some s => match set_value m s v with Ok m' => m' | _ => m end
             | None => m
             end) f r
  end.

(** The field at a path of positions. *)
Fixpoint part (p : list nat) (f : mfield) : option mfield :=
  match p with
  | [] => Some f
  | i :: q =>
      match f with
      | MArr items _ => match nth_error items i with Some c => part q c | None => None end
      | MStruct fs _ => match nth_error fs i with Some (_, c) => part q c | None => None end
      | _ => None
      end
  end.

(** The simple field at the path and every field around it are states. *)
Fixpoint kept (p : list nat) (f : mfield) : Prop :=
  match f with
  | MSimple _ _ fl | MSArr _ _ _ _ fl => f_state fl = true
  | MArr items fl => f_state fl = true /\ match p with i :: q => match nth_error items i with Some c => kept q c | None => False end | [] => False end
  | MStruct fs fl => f_state fl = true /\ match p with i :: q => match nth_error fs i with Some (_, c) => kept q c | None => False end | [] => False end
  end.

(** A memory that begins at address 0, as FieldStoreModel.v has it. *)
Definition from_zero (m : mem) : nat -> Z := fun x => m (Z.of_nat x).
Definition to_zero (m : nat -> Z) : mem := fun x => m (Z.to_nat x).

(** The bytes of a 32-bit integer in memory: two's complement, least significant first. *)
Definition bytes32 (z : Z) : list Z := map (fun i => Z.land (Z.shiftr z (8 * i)) 255) [0; 1; 2; 3].
