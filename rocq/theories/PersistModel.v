(** Model of Xsmp::Persist (include/Xsmp/Persist.h and include/Xsmp/Persist/*.h)
    over the binary files of src/Xsmp/StorageWriter.cpp and StorageReader.cpp.

    A storage is the sequence of bytes not read yet.  Simplified: a scalar is the
    number its bytes spell (little endian; the byte order is the same on both
    sides); writing to the file does not fail. *)
From Coq Require Import ZArith List Bool Arith.
From Verif Require Import Base.
Import ListNotations.
Local Open Scope Z_scope.

Inductive val :=
| VInt (z : Z)                      (** arithmetic or enumeration: its bytes as a number *)
| VStr (l : list Z)                 (** basic_string: its code units *)
| VSeq (l : list val)               (** array, vector, set; map as a sequence of pairs *)
| VPair (a b : val)
| VObj (o : Z).                     (** pointer to an object of the simulation *)

(** The supported types.  Ordered containers carry their Compare, unordered
    ones their equality and the order in which they iterate over elements
    inserted one after the other. *)
Inductive ty :=
| TInt (n : nat)                                       (** sizeof(T) = n *)
| TBool
| TStr (w : nat)                                       (** sizeof(CharT) = w *)
| TArray (n : nat) (t : ty)                            (** T[N], std::array<T, N> *)
| TVector (t : ty)
| TSet (lt : val -> val -> bool) (t : ty)
| TMap (lt : val -> val -> bool) (k t : ty)
| TUSet (eqk : val -> val -> bool) (order : list val -> list val) (t : ty)
| TUMap (eqk : val -> val -> bool) (order : list val -> list val) (k t : ty)
| TPair (a b : ty)
| TAtomic (t : ty)
| TRef (path : Z -> list Z) (resolve : list Z -> Z).   (** T*, T derived from IObject *)

Inductive pexn := CannotRestore | OutOfMemory.

(** sizeof(size_t) *)
Definition size_bytes : nat := 8.

Fixpoint le_bytes (n : nat) (z : Z) : list Z :=
  match n with
  | O => []
  | S n => z mod 256 :: le_bytes n (z / 256)
  end.

Fixpoint le_value (l : list Z) : Z :=
  match l with [] => 0 | b :: l => b + 256 * le_value l end.

(** Persist.h:76-89, StdString.h:29-38, StdArray.h:24-30, StdVector.h:26-33,
    StdSet.h:25-32, StdMap.h:27-36, StdUnorderedSet.h, StdUnorderedMap.h,
    StdPair.h:24-28, StdAtomic.h:25-30, SmpIObject.h:29-32: the bytes Store
    writes.  StdString.h:36 writes [size] bytes, not [size] code units. *)
Fixpoint store (t : ty) (v : val) {struct t} : list Z :=
  let size l := le_bytes size_bytes (Z.of_nat (length l)) in
  let str (l : list Z) (w : nat) :=
    le_bytes size_bytes (Z.of_nat (length l)) ++
    firstn (length l) (flat_map (le_bytes w) l) in
  match t, v with
  | TInt n, VInt z => le_bytes n z
  | TBool, VInt z => le_bytes 1 z
  | TStr w, VStr l => str l w
  | TArray _ t, VSeq l => flat_map (store t) l
  | TVector t, VSeq l => size l ++ flat_map (store t) l
  | TSet _ t, VSeq l => size l ++ flat_map (store t) l
  | TUSet _ _ t, VSeq l => size l ++ flat_map (store t) l
  | TMap _ k t, VSeq l =>
      size l ++ flat_map (fun e => match e with VPair a b => store k a ++ store t b | _ => [] end) l
  | TUMap _ _ k t, VSeq l =>
      size l ++ flat_map (fun e => match e with VPair a b => store k a ++ store t b | _ => [] end) l
  | TPair a b, VPair x y => store a x ++ store b y
  | TAtomic t, v => store t v
  | TRef path _, VObj o => str (path o) 1%nat
  | _, _ => []
  end.

(** StorageReader.cpp:51-66, Restore: a short read fails. *)
Definition read (n : nat) (bs : list Z) : res pexn (list Z * list Z) :=
  if (length bs <? n)%nat then Throw CannotRestore else Ok (firstn n bs, skipn n bs).

Definition read_size (bs : list Z) : res pexn (Z * list Z) :=
  bind (read size_bytes bs) (fun '(b, r) => Ok (le_value b, r)).

Fixpoint restore_n {A} (f : list Z -> res pexn (A * list Z)) (n : nat) (bs : list Z)
  : res pexn (list A * list Z) :=
  match n with
  | O => Ok ([], bs)
  | S n =>
      bind (f bs) (fun '(v, r) =>
      bind (restore_n f n r) (fun '(l, r') => Ok (v :: l, r')))
  end.

(** emplace in a std::set or std::map: nothing when an equivalent key exists. *)
Fixpoint emplace (lt : val -> val -> bool) (key : val -> val) (v : val) (l : list val) : list val :=
  match l with
  | [] => [v]
  | x :: l' =>
      if lt (key v) (key x) then v :: l
      else if lt (key x) (key v) then x :: emplace lt key v l'
      else l
  end.

(** emplace in an unordered container; [l] is in the order of insertion. *)
Definition uemplace (eqk : val -> val -> bool) (key : val -> val) (v : val) (l : list val) : list val :=
  if existsb (fun x => eqk (key x) (key v)) l then l else l ++ [v].

Definition first (v : val) : val := match v with VPair a _ => a | _ => v end.
Definition self (v : val) : val := v.

(** The code units spelled by [n * w] bytes. *)
Fixpoint units (w n : nat) (bs : list Z) : list Z :=
  match n with
  | O => []
  | S n => le_value (firstn w bs) :: units w n (skipn w bs)
  end.

Section Restore.
  (** The largest std::string the process can allocate. *)
  Variable mem : Z.

  (** StdString.h:40-47: resize (to zeros), then [size] bytes are read. *)
  Definition restore_str (w : nat) (bs : list Z) : res pexn (list Z * list Z) :=
    bind (read_size bs) (fun '(size, r) =>
    if mem <? size then Throw OutOfMemory else
    let n := Z.to_nat size in
    bind (read n r) (fun '(b, r') => Ok (units w n (b ++ repeat 0 (n * w - n)), r'))).

  Fixpoint restore (t : ty) (bs : list Z) {struct t} : res pexn (val * list Z) :=
    match t with
    | TInt n => bind (read n bs) (fun '(b, r) => Ok (VInt (le_value b), r))
    | TBool =>
        bind (read 1 bs) (fun '(b, r) =>
        let z := le_value b in
        if (z =? 0) || (z =? 1) then Ok (VInt z, r) else UB)
    | TStr w => bind (restore_str w bs) (fun '(l, r) => Ok (VStr l, r))
    | TArray n t => bind (restore_n (restore t) n bs) (fun '(l, r) => Ok (VSeq l, r))
    | TVector t =>
        bind (read_size bs) (fun '(size, r) =>
        bind (restore_n (restore t) (Z.to_nat size) r) (fun '(l, r') => Ok (VSeq l, r')))
    | TSet lt t =>
        bind (read_size bs) (fun '(size, r) =>
        bind (restore_n (restore t) (Z.to_nat size) r) (fun '(l, r') =>
        Ok (VSeq (fold_left (fun s v => emplace lt self v s) l []), r')))
    | TUSet eqk order t =>
        bind (read_size bs) (fun '(size, r) =>
        bind (restore_n (restore t) (Z.to_nat size) r) (fun '(l, r') =>
        Ok (VSeq (order (fold_left (fun s v => uemplace eqk self v s) l [])), r')))
    | TMap lt k t =>
        bind (read_size bs) (fun '(size, r) =>
        bind (restore_n (fun bs => bind (restore k bs) (fun '(a, r) =>
                                   bind (restore t r) (fun '(b, r') => Ok (VPair a b, r'))))
                        (Z.to_nat size) r) (fun '(l, r') =>
        Ok (VSeq (fold_left (fun s v => emplace lt first v s) l []), r')))
    | TUMap eqk order k t =>
        bind (read_size bs) (fun '(size, r) =>
        bind (restore_n (fun bs => bind (restore k bs) (fun '(a, r) =>
                                   bind (restore t r) (fun '(b, r') => Ok (VPair a b, r'))))
                        (Z.to_nat size) r) (fun '(l, r') =>
        Ok (VSeq (order (fold_left (fun s v => uemplace eqk first v s) l [])), r')))
    | TPair a b =>
        bind (restore a bs) (fun '(x, r) =>
        bind (restore b r) (fun '(y, r') => Ok (VPair x y, r')))
    | TAtomic t => restore t bs
    | TRef _ resolve => bind (restore_str 1 bs) (fun '(l, r) => Ok (VObj (resolve l), r))
    end.

  (** Persist.h:102-105 and 119-122, Store and Restore of several values. *)
  Definition store_all (l : list (ty * val)) : list Z := flat_map (fun '(t, v) => store t v) l.

  Fixpoint restore_all (ts : list ty) (bs : list Z) : res pexn (list val * list Z) :=
    match ts with
    | [] => Ok ([], bs)
    | t :: ts =>
        bind (restore t bs) (fun '(v, r) =>
        bind (restore_all ts r) (fun '(l, r') => Ok (v :: l, r')))
    end.

  (** Persist.h:158-162 and 180-193: the same with the hash of each type. *)
  Variable hash : ty -> Z.

  Definition tstore_all (l : list (ty * val)) : list Z :=
    flat_map (fun '(t, v) => le_bytes size_bytes (hash t) ++ store t v) l.

  Fixpoint trestore_all (ts : list ty) (bs : list Z) : res pexn (list val * list Z) :=
    match ts with
    | [] => Ok ([], bs)
    | t :: ts =>
        bind (read_size bs) (fun '(h, r) =>
        if h =? hash t then
          bind (restore t r) (fun '(v, r') =>
          bind (trestore_all ts r') (fun '(l, r'') => Ok (v :: l, r'')))
        else Throw CannotRestore)
    end.
End Restore.
