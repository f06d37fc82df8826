(** Model of fields: typed fields (include/Xsmp/Field.h, src/Xsmp/Field.cpp) and
    published fields (src/Xsmp/Publication/Field.cpp): values, forcing, dataflow
    connections.  Storing is the subject of FieldStore*.v. *)
From Coq Require Import ZArith List Bool.
From Verif Require Import Base UuidModel AnyModel HelperModel.
Import ListNotations.

(** * Simple values *)

(** The C++ type of a simple field (Helper.h:186-204): an integral type or an enum
    with that underlying type, Bool, Char8, the two floats, and the strings with
    room for [n] characters (String.h, or an array of [n + 1] characters). *)
Inductive cty := CInt (t : ity) | CBool | CChar | CF32 | CF64 | CStr (n : nat).

(** AnySimpleConverter.h:27-76, [convert(value)], and the assignments of
    Publication/Field.cpp:547-607 and 744-799: the conversion operator of
    AnySimple, CopyString for strings.  Simplified: a string is its characters up
    to the terminator (CopyString itself is the subject of HelperProps.v). *)
Definition from_any (c : cty) (a : any) : res any_exn payload :=
  match c with
  | CInt t => bind (get_int t a) (fun v => Ok (PInt v))
  | CBool => bind (get_bool a) (fun b => Ok (PBool b))
  | CChar => bind (get_char a) (fun v => Ok (PChar v))
  | CF32 => bind (get_f32 a) (fun f => Ok (PFloat f))
  | CF64 => bind (get_f64 a) (fun f => Ok (PFloat f))
  | CStr n =>
      bind (get_str a) (fun s =>
        Ok (PStr (Some match s with None => [] | Some l => firstn n l end)))
  end.

(** AnySimpleConverter.h, [convert(kind, value)], and Publication/Field.cpp:505-545
    and 706-742: an AnySimple of the kind of the type. *)
Definition to_arg (c : cty) (v : payload) : option arg :=
  match c, v with
  | CInt t, PInt z => Some (GInt t z)
  | CBool, PBool b => Some (GBool b)
  | CChar, PChar z => Some (GChar z)
  | CF32, PFloat f => Some (GF32 f)
  | CF64, PFloat f => Some (GF64 f)
  | CStr _, PStr s => Some (GStr s)
  | _, _ => None
  end.
Definition to_any (c : cty) (k : kind) (v : payload) : res any_exn any :=
  match to_arg c v with
  | Some g => bind (set_payload k g) (fun p => Ok (Any k p))
  | None => UB
  end.

(** Smp/PrimitiveTypes.h (outside /repo): the numbers of the kinds. *)
Definition kind_code (k : kind) : Z :=
  match k with
  | KNone => 0 | KChar8 => 1 | KBool => 2 | KI8 => 3 | KU8 => 4 | KI16 => 5 | KU16 => 6
  | KI32 => 7 | KU32 => 8 | KI64 => 9 | KU64 => 10 | KF32 => 11 | KF64 => 12
  | KDuration => 13 | KDateTime => 14 | KString8 => 15
  end.
Definition kind_eqb (a b : kind) : bool := (kind_code a =? kind_code b)%Z.

(** * The fields *)

(** A simple field, typed ([lpub] = false) or published. *)
Record leaf := Leaf {
  lc : cty;                  (** C++ type of the value *)
  lk : kind;                 (** GetPrimitiveTypeKind() *)
  lval : payload;            (** _value, or what is at the published address *)
  lforcible : bool;          (** annotation forcible *)
  lforced : bool;            (** _forced *)
  lconn : bool;              (** annotation connectable: SimpleConnectableField *)
  ltargets : list nat;       (** the connected inputs, in order *)
  lpub : bool;
  lenum : option (list Z);   (** the literals when the type is an enumeration *)
  lin : bool; lout : bool    (** IsInput(), IsOutput() *)
}.

(** A simple array field. *)
Record sarr := SArr {
  ac : cty; ak : kind; avals : list payload;
  aconn : bool; atargets : list nat; apub : bool;
  aenum : option (list Z);   (** the literals when the item type is an enumeration *)
  ain : bool; aout : bool
}.

(** All fields by identity; [nconn] is _connectedFields of the array and structure
    dataflow fields.  One identifier denotes one object. *)
Record world := World {
  leafs : nat -> leaf; arrs : nat -> sarr; nconn : nat -> list nat
}.

Definition upd {A} (f : nat -> A) (i : nat) (x : A) : nat -> A :=
  fun j => if Nat.eqb j i then x else f j.

Definition set_leaf (w : world) (i : nat) (l : leaf) : world :=
  World (upd (leafs w) i l) (arrs w) (nconn w).
Definition set_arr (w : world) (i : nat) (a : sarr) : world :=
  World (leafs w) (upd (arrs w) i a) (nconn w).
Definition set_nconn (w : world) (i : nat) (l : list nat) : world :=
  World (leafs w) (arrs w) (upd (nconn w) i l).

Definition with_val (f : leaf) (v : payload) : leaf :=
  Leaf (lc f) (lk f) v (lforcible f) (lforced f) (lconn f) (ltargets f) (lpub f) (lenum f)
       (lin f) (lout f).
Definition with_forced (f : leaf) (b : bool) : leaf :=
  Leaf (lc f) (lk f) (lval f) (lforcible f) b (lconn f) (ltargets f) (lpub f) (lenum f)
       (lin f) (lout f).
Definition with_targets (f : leaf) (l : list nat) : leaf :=
  Leaf (lc f) (lk f) (lval f) (lforcible f) (lforced f) (lconn f) l (lpub f) (lenum f)
       (lin f) (lout f).
Definition with_vals (a : sarr) (l : list payload) : sarr :=
  SArr (ac a) (ak a) l (aconn a) (atargets a) (apub a) (aenum a) (ain a) (aout a).
Definition with_atargets (a : sarr) (l : list nat) : sarr :=
  SArr (ac a) (ak a) (avals a) (aconn a) l (apub a) (aenum a) (ain a) (aout a).

(** Exceptions; [Terminated] is std::terminate, when one leaves a noexcept
    function. *)
Inductive fexn :=
  BadAny | InvalidFieldValue | InvalidArrayIndex | InvalidArraySize | InvalidArrayValue
| InvalidTarget | FieldAlreadyConnected | Terminated.

(** The world after a call, and how the call ended. *)
Definition out := (world * res fexn unit)%type.
Definition done (w : world) : out := (w, Ok tt).
Definition throw (w : world) (e : fexn) : out := (w, Throw e).
Definition andthen (o : out) (k : world -> out) : out :=
  match o with (w, Ok _) => k w | (w, Throw e) => (w, Throw e) | (w, UB) => (w, UB) end.

(** Publication/Field.cpp:39-46 and 759-764 (and 566-570 with the type of the array,
    which is never an enumeration): only values of kind Int32 are looked up. *)
Definition literal_ok (f : leaf) (v : payload) : bool :=
  if lpub f then
    match lk f, lenum f, v with
    | KI32, Some ls, PInt z => existsb (Z.eqb z) ls
    | _, _, _ => true
    end
  else true.

(** ISimpleField::SetValue(AnySimple) of the field [i], given what the private
    SetValue(const T &) does: Field.h:428-430, Publication/Field.cpp:744-799. *)
Definition set_any_with (set : world -> nat -> payload -> out) (w : world) (i : nat) (a : any) : out :=
  let f := leafs w i in
  match from_any (lc f) a with
  | Ok v => if literal_ok f v then set w i v else throw w InvalidFieldValue
  | Throw _ => throw w BadAny
  | UB => (w, UB)
  end.

(** Field.cpp:359-363, internal_push, and Publication/Field.cpp:156-162 and 197-201
    for a simple field: the value is read again for each connected field. *)
Fixpoint push_with (set : world -> nat -> payload -> out) (w : world) (i : nat) (ts : list nat) : out :=
  match ts with
  | [] => done w
  | t :: r =>
      let f := leafs w i in
      match to_any (lc f) (lk f) (lval f) with
      | Ok a => andthen (set_any_with set w t a) (fun w' => push_with set w' i r)
      | Throw _ => throw w BadAny
      | UB => (w, UB)
      end
  end.

(** Field.h:516-529, SimpleField::SetValue(const T &).  [n] bounds the depth of the
    recursion through connected fields (the call stack): undefined behaviour when
    it is exceeded.  A published field has neither forcing nor automatic push. *)
Fixpoint set_val (n : nat) (w : world) (i : nat) (v : payload) : out :=
  match n with
  | O => (w, UB)
  | S n =>
      let f := leafs w i in
      if lforcible f && lforced f then done w
      else
        let w1 := set_leaf w i (with_val f v) in
        if lconn f then push_with (set_val n) w1 i (ltargets f) else done w1
  end.

Definition set_any (n : nat) (w : world) (i : nat) (a : any) : out := set_any_with (set_val n) w i a.

(** Field.h:480-513, the assignment operators of a typed field: noexcept. *)
Definition noexc (o : out) : out :=
  match o with (w, Throw _) => (w, Throw Terminated) | o => o end.
Definition assign (n : nat) (w : world) (i : nat) (v : payload) : out := noexc (set_val n w i v).

(** Field.cpp:386 and Publication/Field.cpp:197-201, Push() of a simple field. *)
Definition push (n : nat) (w : world) (i : nat) : out := push_with (set_val n) w i (ltargets (leafs w i)).

(** Field.cpp:543-547, Force(AnySimple) of a forcible field. *)
Definition force (n : nat) (w : world) (i : nat) (a : any) : out :=
  let w0 := set_leaf w i (with_forced (leafs w i) false) in
  andthen (set_any n w0 i a) (fun w1 => done (set_leaf w1 i (with_forced (leafs w1 i) true))).

(** Field.h:153-156, Force(const T &). *)
Definition force_val (n : nat) (w : world) (i : nat) (v : payload) : out :=
  match to_any (lc (leafs w i)) (lk (leafs w i)) v with
  | Ok a => force n w i a
  | Throw _ => throw w BadAny
  | UB => (w, UB)
  end.

(** Field.cpp:549, 551: Unforce and Freeze. *)
Definition unforce (w : world) (i : nat) : world := set_leaf w i (with_forced (leafs w i) false).
Definition freeze (w : world) (i : nat) : world := set_leaf w i (with_forced (leafs w i) true).

(** Field.h:432-442: Restore replaces the value and, for a forcible field, the flag,
    and pushes nothing. *)
Definition restore_leaf (w : world) (i : nat) (v : payload) (b : bool) : world :=
  let f := with_val (leafs w i) v in
  set_leaf w i (if lforcible f then with_forced f b else f).

(** * Simple arrays *)

Fixpoint put_nth {A} (k : nat) (x : A) (l : list A) : list A :=
  match l, k with
  | [], _ => []
  | _ :: r, O => x :: r
  | y :: r, S k => y :: put_nth k x r
  end.

(** Field.h:774-782 and Publication/Field.cpp:547-607, SetValue(index, value): the
    typed field wants the very kind of its items, the published one converts. *)
Definition arr_set_any (w : world) (i k : nat) (v : any) : out :=
  let a := arrs w i in
  if (k <? length (avals a))%nat then
    if negb (apub a) && negb (kind_eqb (atype v) (ak a))
    then throw w InvalidFieldValue
    else match from_any (ac a) v with
         | Ok p => done (set_arr w i (with_vals a (put_nth k p (avals a))))
         | Throw _ => throw w BadAny
         | UB => (w, UB)
         end
  else throw w InvalidArrayIndex.

(** Field.cpp:519-524, internal_push(index): SetValue of each connected array, which
    does not push further. *)
Fixpoint arr_push_to (w : world) (i k : nat) (ts : list nat) : out :=
  match ts with
  | [] => done w
  | t :: r =>
      let a := arrs w i in
      match nth_error (avals a) k with
      | None => throw w InvalidArrayIndex
      | Some p =>
          match to_any (ac a) (ak a) p with
          | Ok v => andthen (arr_set_any w t k v) (fun w' => arr_push_to w' i k r)
          | Throw _ => throw w BadAny
          | UB => (w, UB)
          end
      end
  end.

(** Field.h:842-894, assignment of an item of a typed array, through operator[], at,
    front, back or an iterator: noexcept; pushes when the field is connectable. *)
Definition arr_assign (w : world) (i k : nat) (v : payload) : out :=
  let a := arrs w i in
  if (k <? length (avals a))%nat then
    let w1 := set_arr w i (with_vals a (put_nth k v (avals a))) in
    noexc (if aconn a then arr_push_to w1 i k (atargets a) else done w1)
  else (w, UB).

(** Field.h:796-807 and Publication/Field.cpp:619-631, SetValues: item by item, a
    value of another kind ends it; nothing is pushed. *)
Fixpoint arr_set_values_from (w : world) (i k : nat) (vs : list any) : out :=
  match vs with
  | [] => done w
  | v :: r =>
      if kind_eqb (atype v) (ak (arrs w i))
      then andthen (arr_set_any w i k v) (fun w' => arr_set_values_from w' i (S k) r)
      else throw w InvalidArrayValue
  end.
Definition arr_set_values (w : world) (i : nat) (vs : list any) : out :=
  if Nat.eqb (length vs) (length (avals (arrs w i))) then arr_set_values_from w i 0 vs
  else throw w InvalidArraySize.

(** Field.h:991, fill: the items are replaced, nothing is pushed. *)
Definition arr_fill (w : world) (i : nat) (v : payload) : world :=
  set_arr w i (with_vals (arrs w i) (repeat v (length (avals (arrs w i))))).

(** Field.cpp:76-81, Push of a simple array: every item to every connected field. *)
Fixpoint arr_push_items (w : world) (i : nat) (ks : list nat) : out :=
  match ks with
  | [] => done w
  | k :: r => andthen (arr_push_to w i k (atargets (arrs w i))) (fun w' => arr_push_items w' i r)
  end.
Definition arr_push (w : world) (i : nat) : out :=
  arr_push_items w i (seq 0 (length (avals (arrs w i)))).

(** * Trees of fields and their connections *)

(** A field with its items or fields; [df]: ArrayDataflowField or
    StructureDataflowField. *)
Inductive tree :=
| TSimple (i : nat)
| TSArr (i : nat)
| TArr (i : nat) (df inp outp : bool) (l : list tree)
| TStr (i : nat) (df inp outp : bool) (l : list tree).

Definition tid (t : tree) : nat :=
  match t with TSimple i => i | TSArr i => i | TArr i _ _ _ _ => i | TStr i _ _ _ _ => i end.
Definition tin (w : world) (t : tree) : bool :=
  match t with
  | TSimple i => lin (leafs w i) | TSArr i => ain (arrs w i)
  | TArr _ _ b _ _ => b | TStr _ _ b _ _ => b
  end.
Definition tout (w : world) (t : tree) : bool :=
  match t with
  | TSimple i => lout (leafs w i) | TSArr i => aout (arrs w i)
  | TArr _ _ _ b _ => b | TStr _ _ _ b _ => b
  end.

(** What AreEquivalent sees of a field. *)
Fixpoint shape (w : world) (t : tree) : field :=
  match t with
  | TSimple i => FSimple (kind_code (lk (leafs w i)))
  | TSArr i => FSimpleArray (Z.of_nat (length (avals (arrs w i)))) (kind_code (ak (arrs w i)))
  | TArr _ _ _ _ l => FArray (map (shape w) l)
  | TStr _ _ _ _ l => FStruct (map (shape w) l)
  end.

(** InputFieldCollection::contains (Field.cpp:443-445): true when absent. *)
Definition absent (l : list nat) (i : nat) : bool := negb (existsb (Nat.eqb i) l).

(** InputFieldCollection::remove (Field.cpp:450-457) *)
Fixpoint remove_first (i : nat) (l : list nat) : list nat :=
  match l with
  | [] => []
  | j :: r => if Nat.eqb j i then r else j :: remove_first i r
  end.

(** FieldHelper::CanConnect (Field.cpp:40-43, 59-62, 82-91, 114-118, 131-152, 179-184,
    196-235).  Simplified: items beyond those of the other array do not connect
    (GetItem would throw; the sizes are the same when it is called). *)
Fixpoint can_connect (w : world) (s t : tree) {struct s} : bool :=
  match s with
  | TSimple i =>
      lconn (leafs w i) &&
      match t with TSimple j => absent (ltargets (leafs w i)) j | _ => false end
  | TSArr i =>
      aconn (arrs w i) &&
      match t with TSArr j => absent (atargets (arrs w i)) j | _ => false end
  | TArr i df _ _ l =>
      match t with
      | TArr j _ _ _ l' =>
          (if df then absent (nconn w i) j else true) &&
          (fix items (l l' : list tree) : bool :=
             match l, l' with
             | x :: r, y :: r' => can_connect w x y && items r r'
             | [], _ => true
             | _, [] => false
             end) l l'
      | _ => false
      end
  | TStr i df _ _ l =>
      match t with
      | TStr j _ _ _ l' =>
          (if df then absent (nconn w i) j else true) &&
          Nat.eqb (length l) (length l') &&
          (fix items (l l' : list tree) : bool :=
             match l, l' with
             | x :: r, y :: r' => can_connect w x y && items r r'
             | [], _ => true
             | _, [] => false
             end) l l'
      | _ => false
      end
  end.

(** FieldHelper::Connect (Field.cpp:44-49, 63-71, 93-99, 119-122, 154-162, 185-189,
    236-264): record the connection, then push the value. *)
Definition connect_simple (n : nat) (w : world) (i j : nat) : out :=
  let w1 := set_leaf w i (with_targets (leafs w i) (ltargets (leafs w i) ++ [j])) in
  let f := leafs w1 i in
  match to_any (lc f) (lk f) (lval f) with
  | Ok a => set_any n w1 j a
  | Throw _ => throw w1 BadAny
  | UB => (w1, UB)
  end.

Fixpoint copy_items (w : world) (i j : nat) (ks : list nat) : out :=
  match ks with
  | [] => done w
  | k :: r =>
      let a := arrs w i in
      match nth_error (avals a) k with
      | None => throw w InvalidArrayIndex
      | Some p =>
          match to_any (ac a) (ak a) p with
          | Ok v => andthen (arr_set_any w j k v) (fun w' => copy_items w' i j r)
          | Throw _ => throw w BadAny
          | UB => (w, UB)
          end
      end
  end.
Definition connect_sarr (w : world) (i j : nat) : out :=
  let w1 := set_arr w i (with_atargets (arrs w i) (atargets (arrs w i) ++ [j])) in
  copy_items w1 i j (seq 0 (length (avals (arrs w i)))).

Fixpoint connect_tree (n : nat) (w : world) (s t : tree) {struct s} : out :=
  match s with
  | TSimple i =>
      if lconn (leafs w i) then
        match t with TSimple j => connect_simple n w i j | _ => (w, UB) end
      else done w
  | TSArr i =>
      if aconn (arrs w i) then
        match t with TSArr j => connect_sarr w i j | _ => (w, UB) end
      else done w
  | TArr i df _ _ l =>
      match t with
      | TArr j _ _ _ l' =>
          let w1 := if df then set_nconn w i (nconn w i ++ [j]) else w in
          (fix items (w : world) (l l' : list tree) : out :=
             match l, l' with
             | x :: r, y :: r' => andthen (connect_tree n w x y) (fun w' => items w' r r')
             | [], _ => done w
             | _, [] => throw w InvalidArrayIndex
             end) w1 l l'
      | _ => (w, UB)
      end
  | TStr i df _ _ l =>
      match t with
      | TStr j _ _ _ l' =>
          let w1 := if df then set_nconn w i (nconn w i ++ [j]) else w in
          (fix items (w : world) (l l' : list tree) : out :=
             match l, l' with
             | x :: r, y :: r' => andthen (connect_tree n w x y) (fun w' => items w' r r')
             | [], _ => done w
             | _, [] => (w, UB)
             end) w1 l l'
      | _ => (w, UB)
      end
  end.

(** Field.cpp:368-378, 394-404, 465-475, 493-503: Connect of a simple, simple array,
    array or structure dataflow field. *)
Definition connect (n : nat) (w : world) (s t : tree) : out :=
  if negb (tout w s) || negb (tin w t) || Nat.eqb (tid t) (tid s)
     || negb (are_equivalent (shape w s) (shape w t))
  then throw w InvalidTarget
  else if negb (can_connect w s t) then throw w FieldAlreadyConnected
  else connect_tree n w s t.

(** FieldHelper::Disconnect (Field.cpp:51-54, 72-75, 100-106, 124-129, 163-171,
    190-195, 265-297). *)
Fixpoint disconnect (w : world) (s t : tree) {struct s} : world :=
  match s with
  | TSimple i =>
      match t with
      | TSimple j =>
          if lconn (leafs w i)
          then set_leaf w i (with_targets (leafs w i) (remove_first j (ltargets (leafs w i))))
          else w
      | _ => w
      end
  | TSArr i =>
      match t with
      | TSArr j =>
          if aconn (arrs w i)
          then set_arr w i (with_atargets (arrs w i) (remove_first j (atargets (arrs w i))))
          else w
      | _ => w
      end
  | TArr i df _ _ l =>
      match t with
      | TArr j _ _ _ l' =>
          if df && absent (nconn w i) j then w
          else
            let w1 := if df then set_nconn w i (remove_first j (nconn w i)) else w in
            (fix items (w : world) (l l' : list tree) : world :=
               match l, l' with
               | x :: r, y :: r' => items (disconnect w x y) r r'
               | _, _ => w
               end) w1 l l'
      | _ => w
      end
  | TStr i df _ _ l =>
      match t with
      | TStr j _ _ _ l' =>
          if df && absent (nconn w i) j then w
          else
            let w1 := if df then set_nconn w i (remove_first j (nconn w i)) else w in
            (fix items (w : world) (l l' : list tree) : world :=
               match l, l' with
               | x :: r, y :: r' => items (disconnect w x y) r r'
               | _, _ => w
               end) w1 l l'
      | _ => w
      end
  end.

(** Publication/Field.cpp:156-195, DataflowField::Push(source, target): copies the
    values of the source into the corresponding parts of the target. *)
Fixpoint push_tree (n : nat) (w : world) (s t : tree) {struct s} : out :=
  match s with
  | TSimple i =>
      match t with
      | TSimple j =>
          let f := leafs w i in
          match to_any (lc f) (lk f) (lval f) with
          | Ok a => set_any n w j a
          | Throw _ => throw w BadAny
          | UB => (w, UB)
          end
      | _ => (w, UB)
      end
  | TSArr i =>
      match t with
      | TSArr j => copy_items w i j (seq 0 (length (avals (arrs w i))))
      | _ => (w, UB)
      end
  | TArr _ _ _ _ l =>
      match t with
      | TArr _ _ _ _ l' =>
          (fix items (w : world) (l l' : list tree) : out :=
             match l, l' with
             | x :: r, y :: r' => andthen (push_tree n w x y) (fun w' => items w' r r')
             | [], _ => done w
             | _, [] => throw w InvalidArrayIndex
             end) w l l'
      | _ => (w, UB)
      end
  | TStr _ _ _ _ l =>
      match t with
      | TStr _ _ _ _ l' =>
          (fix items (w : world) (l l' : list tree) : out :=
             match l, l' with
             | x :: r, y :: r' => andthen (push_tree n w x y) (fun w' => items w' r r')
             | [], _ => done w
             | _, [] => (w, UB)
             end) w l l'
      | _ => (w, UB)
      end
  end.

(** _targets of a published dataflow field.  Simplified: the order of the std::set,
    by address, is the order of connection. *)
Definition pub_targets (w : world) (s : tree) : list nat :=
  match s with
  | TSimple i => ltargets (leafs w i)
  | TSArr i => atargets (arrs w i)
  | TArr i _ _ _ _ => nconn w i
  | TStr i _ _ _ _ => nconn w i
  end.
Definition pub_add (w : world) (s : tree) (j : nat) : world :=
  match s with
  | TSimple i => set_leaf w i (with_targets (leafs w i) (ltargets (leafs w i) ++ [j]))
  | TSArr i => set_arr w i (with_atargets (arrs w i) (atargets (arrs w i) ++ [j]))
  | TArr i _ _ _ _ => set_nconn w i (nconn w i ++ [j])
  | TStr i _ _ _ _ => set_nconn w i (nconn w i ++ [j])
  end.

(** Publication/Field.cpp:143-154, Connect of a published dataflow field: the other
    order of the checks, one set of targets, and no Disconnect. *)
Definition pub_connect (n : nat) (w : world) (s t : tree) : out :=
  if negb (absent (pub_targets w s) (tid t)) then throw w FieldAlreadyConnected
  else if negb (tout w s) || negb (tin w t) || Nat.eqb (tid t) (tid s)
          || negb (are_equivalent (shape w s) (shape w t))
  then throw w InvalidTarget
  else push_tree n (pub_add w s (tid t)) s t.

(** Publication/Field.cpp:197-201, Push of a published dataflow field to its targets. *)
Fixpoint pub_push (n : nat) (w : world) (s : tree) (ts : list tree) : out :=
  match ts with
  | [] => done w
  | t :: r => andthen (push_tree n w s t) (fun w' => pub_push n w' s r)
  end.

(** Field.cpp:76-81, 107-112, 172-178, 298-314, Push of a typed dataflow field. *)
Fixpoint push_all (n : nat) (w : world) (s : tree) {struct s} : out :=
  match s with
  | TSimple i => if lconn (leafs w i) then push n w i else done w
  | TSArr i => if aconn (arrs w i) then arr_push w i else done w
  | TArr _ _ _ _ l | TStr _ _ _ _ l =>
      (fix items (w : world) (l : list tree) : out :=
         match l with
         | [] => done w
         | x :: r => andthen (push_all n w x) (fun w' => items w' r)
         end) w l
  end.

(** * Histories *)
Inductive fop :=
| WSetAny (i : nat) (a : any)        (** SetValue, by anybody, also at the end of a push *)
| WAssign (i : nat) (v : payload)    (** an assignment operator *)
| WPush (i : nat)
| WForce (i : nat) (a : any)
| WUnforce (i : nat)
| WFreeze (i : nat)
| WRestore (i : nat) (v : payload) (b : bool)
| WConnect (s t : tree)
| WDisconnect (s t : tree)
| WArrSet (i k : nat) (a : any)
| WArrAssign (i k : nat) (v : payload)
| WArrPush (i : nat)
| WArrSetValues (i : nat) (vs : list any)
| WPushAll (s : tree)
| WPubConnect (s t : tree).

Definition fstep (n : nat) (w : world) (o : fop) : out :=
  match o with
  | WSetAny i a => set_any n w i a
  | WAssign i v => assign n w i v
  | WPush i => push n w i
  | WForce i a => force n w i a
  | WUnforce i => done (unforce w i)
  | WFreeze i => done (freeze w i)
  | WRestore i v b => done (restore_leaf w i v b)
  | WConnect s t => connect n w s t
  | WDisconnect s t => done (disconnect w s t)
  | WArrSet i k a => arr_set_any w i k a
  | WArrAssign i k v => arr_assign w i k v
  | WArrPush i => arr_push w i
  | WArrSetValues i vs => arr_set_values w i vs
  | WPushAll s => push_all n w s
  | WPubConnect s t => pub_connect n w s t
  end.

(** A history: exceptions are caught by the caller; undefined behaviour and
    std::terminate end it. *)
Fixpoint frun (n : nat) (w : world) (os : list fop) : option world :=
  match os with
  | [] => Some w
  | o :: r =>
      match fstep n w o with
      | (w', Ok _) => frun n w' r
      | (_, Throw Terminated) => None
      | (w', Throw _) => frun n w' r
      | (_, UB) => None
      end
  end.
