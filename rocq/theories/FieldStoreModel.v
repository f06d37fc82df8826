(** Model of Store and Restore of fields: typed fields (include/Xsmp/Field.h,
    src/Xsmp/Field.cpp), published fields (src/Xsmp/Publication/Field.cpp), the
    storage (src/Xsmp/StorageWriter.cpp, StorageReader.cpp) and the component tree
    (src/Xsmp/Simulator.cpp:361-458). *)
From Coq Require Import ZArith List Bool.
From Verif Require Import Base AnyModel.
Import ListNotations.
Local Open Scope nat_scope.

(** The memory of the process, byte by byte.  Simplified: a value is its bytes. *)
Definition mem := nat -> Z.

Fixpoint read_mem (m : mem) (a n : nat) : list Z :=
  match n with O => [] | S n => m a :: read_mem m (S a) n end.
Fixpoint write_mem (m : mem) (a : nat) (bs : list Z) : mem :=
  match bs with
  | [] => m
  | b :: r => fun x => if Nat.eqb x a then b else write_mem m (S a) r x
  end.

Inductive sexn := CannotRestore | CannotStore | InvalidPrimitiveType.

(** A field and where its value and flags are in memory. *)
Inductive ftree :=
| TySimple (state : bool) (addr size : nat) (forced failed : option nat)  (** SimpleField<T> *)
| TySArr (state : bool) (addr size : nat) (failed : option nat)           (** SimpleArrayField<T> *)
| TyArr (state : bool) (items : list ftree) (failed : option nat)         (** ArrayField<T> *)
| TyStr (state : bool) (fields : list ftree) (failed : option nat)        (** StructureField<T> *)
| PbSimple (state : bool) (addr : nat) (k : kind) (length : option nat)   (** length of the string type *)
| PbSArr (state : bool) (addr item size : nat)
| PbArr (state : bool) (items : list ftree)
| PbStr (state : bool) (fields : list ftree)
| AnArr (state : bool) (fields : list ftree)
| AnStr (state : bool) (fields : list ftree)
| AnSArr (state : bool) (addr : nat) (k : kind) (count : nat).

(** Publication/Field.cpp:260-292, AnonymousSimpleArrayField::GetItemSize *)
Definition kind_size (k : kind) : option nat :=
  match k with
  | KBool | KChar8 | KI8 | KU8 => Some 1
  | KI16 | KU16 => Some 2
  | KI32 | KU32 | KF32 => Some 4
  | KI64 | KU64 | KF64 | KDuration | KDateTime => Some 8
  | KNone | KString8 => None
  end.

(** Publication/Field.cpp:661-700, SimpleField::GetSize *)
Definition simple_size (k : kind) (len : option nat) : option nat :=
  match k, len with
  | KString8, Some n => Some (n + 1)
  | KString8, None => None
  | _, _ => kind_size k
  end.

(** StorageWriter.cpp:53-63, Store.  Simplified: the file can always be written. *)
Definition put (bytes : list Z) (out : list Z) : list Z := out ++ bytes.

(** Field.h:389-394, Field.cpp:352-354 and 536-539: a flag is one byte, when it exists. *)
Definition store_flag (m : mem) (f : option nat) : list Z :=
  match f with None => [] | Some a => read_mem m a 1 end.

(** What Store appends to the file: Field.h:443-453, 608-615, 816-822, 1156-1162,
    Field.cpp:573-576, Publication/Field.cpp:218-224, 254-258, 423-429, 470-476,
    497-501, 651-659, 829-835. *)
Fixpoint store (m : mem) (t : ftree) : res sexn (list Z) :=
  let all :=
    fix all (l : list ftree) : res sexn (list Z) :=
      match l with
      | [] => Ok []
      | x :: r => bind (store m x) (fun a => bind (all r) (fun b => Ok (a ++ b)))
      end in
  match t with
  | TySimple st a n fo fa =>
      Ok (if st then read_mem m a n ++ store_flag m fo ++ store_flag m fa else [])
  | TySArr st a n fa => Ok (if st then read_mem m a n ++ store_flag m fa else [])
  | TyArr st l fa => if st then bind (all l) (fun b => Ok (b ++ store_flag m fa)) else Ok []
  | TyStr st l fa => if st then bind (all l) (fun b => Ok (b ++ store_flag m fa)) else Ok []
  | PbSimple st a k len =>
      if st then
        match simple_size k len with Some n => Ok (read_mem m a n) | None => Throw CannotStore end
      else Ok []
  | PbSArr st a i n => Ok (if st then read_mem m a (i * n) else [])
  | PbArr st l => if st then all l else Ok []
  | PbStr st l => if st then all l else Ok []
  | AnArr st l => if st then all l else Ok []
  | AnStr st l => if st then all l else Ok []
  | AnSArr st a k n =>
      if st then
        match kind_size k with
        | Some i => Ok (read_mem m a (i * n)) | None => Throw InvalidPrimitiveType end
      else Ok []
  end.

(** Memory and the rest of the file after a Restore, or the exception. *)
Definition rout := (mem * res sexn (list Z))%type.
Definition rthen (o : rout) (k : mem -> list Z -> rout) : rout :=
  match o with (m, Ok s) => k m s | (m, Throw e) => (m, Throw e) | (m, UB) => (m, UB) end.

(** StorageReader.cpp:51-66, Restore: std::istream::read stores what it got; a short
    read then fails. *)
Definition restore_bytes (m : mem) (a n : nat) (s : list Z) : rout :=
  (write_mem m a (firstn n s),
   if length s <? n then Throw CannotRestore else Ok (skipn n s)).

Definition restore_flag (m : mem) (f : option nat) (s : list Z) : rout :=
  match f with None => (m, Ok s) | Some a => restore_bytes m a 1 s end.

(** Field.h:432-442, 600-607, 809-815, 1149-1155, Field.cpp:348-350, 531-534, 568-571,
    Publication/Field.cpp:210-216, 248-252, 415-421, 462-468, 491-495, 641-649,
    821-827. *)
Fixpoint restore (m : mem) (t : ftree) (s : list Z) {struct t} : rout :=
  let all :=
    fix all (l : list ftree) (m : mem) (s : list Z) : rout :=
      match l with
      | [] => (m, Ok s)
      | x :: r => rthen (restore m x s) (fun m' s' => all r m' s')
      end in
  match t with
  | TySimple st a n fo fa =>
      if st then
        rthen (restore_bytes m a n s) (fun m1 s1 =>
        rthen (restore_flag m1 fo s1) (fun m2 s2 => restore_flag m2 fa s2))
      else (m, Ok s)
  | TySArr st a n fa =>
      if st then rthen (restore_bytes m a n s) (fun m1 s1 => restore_flag m1 fa s1) else (m, Ok s)
  | TyArr st l fa => if st then rthen (all l m s) (fun m1 s1 => restore_flag m1 fa s1) else (m, Ok s)
  | TyStr st l fa => if st then rthen (all l m s) (fun m1 s1 => restore_flag m1 fa s1) else (m, Ok s)
  | PbSimple st a k len =>
      if st then
        match simple_size k len with
        | Some n => restore_bytes m a n s | None => (m, Throw CannotRestore) end
      else (m, Ok s)
  | PbSArr st a i n => if st then restore_bytes m a (i * n) s else (m, Ok s)
  | PbArr st l => if st then all l m s else (m, Ok s)
  | PbStr st l => if st then all l m s else (m, Ok s)
  | AnArr st l => if st then all l m s else (m, Ok s)
  | AnStr st l => if st then all l m s else (m, Ok s)
  | AnSArr st a k n =>
      if st then
        match kind_size k with
        | Some i => restore_bytes m a (i * n) s | None => (m, Throw InvalidPrimitiveType) end
      else (m, Ok s)
  end.

(** * The component tree *)

(** What a component does in its own Store and Restore, when it is an IPersist. *)
Record persist := Persist {
  p_store : mem -> list Z;
  p_restore : mem -> list Z -> rout
}.

(** An object of the tree: what it is (the three dynamic casts) and its fields and
    containers.  [None] when the object is not of that interface; a component or
    composite whose collection is null has no fields or containers. *)
Inductive obj :=
| Obj (p : option persist) (fields : option (list ftree)) (containers : option (list obj)).

(** PersistKind (Simulator.cpp:361): four bytes each. *)
Definition kPERSIST : list Z := [0; 0; 0; 0]%Z.
Definition kCOMPONENT : list Z := [1; 0; 0; 0]%Z.
Definition kCOMPOSITE : list Z := [2; 0; 0; 0]%Z.
Definition kCONTAINER : list Z := [3; 0; 0; 0]%Z.
Definition kFIELD : list Z := [4; 0; 0; 0]%Z.

Fixpoint store_fields (m : mem) (l : list ftree) : res sexn (list Z) :=
  match l with
  | [] => Ok []
  | x :: r => bind (store m x) (fun a => bind (store_fields m r) (fun b => Ok (kFIELD ++ a ++ b)))
  end.

(** Simulator.cpp:363-392, Store *)
Fixpoint store_obj (m : mem) (o : obj) : res sexn (list Z) :=
  match o with
  | Obj p fs cs =>
      let b1 := match p with None => [] | Some p => kPERSIST ++ p_store p m end in
      bind (match fs with
            | None => Ok [] | Some l => bind (store_fields m l) (fun b => Ok (kCOMPONENT ++ b)) end) (fun b2 =>
      bind (match cs with
            | None => Ok []
            | Some l =>
                bind ((fix all (l : list obj) : res sexn (list Z) :=
                         match l with
                         | [] => Ok []
                         | x :: r => bind (store_obj m x) (fun a =>
                                     bind (all r) (fun b => Ok (kCONTAINER ++ a ++ b)))
                         end) l) (fun b => Ok (kCOMPOSITE ++ b))
            end) (fun b3 => Ok (b1 ++ b2 ++ b3)))
  end.

(** Simulator.cpp:423-431, check.  The marker is read into a local variable. *)
Definition check (m : mem) (k s : list Z) : rout :=
  (m, if length s <? 4 then Throw CannotRestore
      else if list_eq_dec Z.eq_dec (firstn 4 s) k then Ok (skipn 4 s) else Throw CannotRestore).

Fixpoint restore_fields (m : mem) (l : list ftree) (s : list Z) : rout :=
  match l with
  | [] => (m, Ok s)
  | x :: r =>
      rthen (check m kFIELD s) (fun m1 s1 =>
      rthen (restore m1 x s1) (fun m2 s2 => restore_fields m2 r s2))
  end.

(** Simulator.cpp:432-457, Restore *)
Fixpoint restore_obj (m : mem) (o : obj) (s : list Z) {struct o} : rout :=
  match o with
  | Obj p fs cs =>
      rthen (match p with
             | None => (m, Ok s)
             | Some p => rthen (check m kPERSIST s) (fun m s => p_restore p m s) end) (fun m s =>
      rthen (match fs with
             | None => (m, Ok s)
             | Some l => rthen (check m kCOMPONENT s) (fun m s => restore_fields m l s) end) (fun m s =>
      match cs with
      | None => (m, Ok s)
      | Some l =>
          rthen (check m kCOMPOSITE s) (fun m s =>
            (fix all (l : list obj) (m : mem) (s : list Z) : rout :=
               match l with
               | [] => (m, Ok s)
               | x :: r =>
                   rthen (check m kCONTAINER s) (fun m1 s1 =>
                   rthen (restore_obj m1 x s1) (fun m2 s2 => all r m2 s2))
               end) l m s)
      end))
  end.
