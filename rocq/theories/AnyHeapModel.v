(** Who owns the strings of AnySimple objects (src/Smp/AnySimple.cpp): the
    constructors, assignments, SetValue, MoveString and the destructor as
    operations on a heap of strings, with use after free and double free as
    undefined behaviour, and with allocations that may fail.

    Simplified: the content of a non-string object is the 64 bits of the union
    (0 is the null pointer); which conversions SetValue accepts is in AnyModel.v. *)
From Coq Require Import ZArith List Bool Arith.
From Verif Require Import Base.
Import ListNotations.
Local Open Scope nat_scope.

Definition ptr := nat.

Inductive obj :=
| OVal (z : Z)                 (** any kind but String8; the bits of the union *)
| OStr (p : option ptr)        (** kind String8; None is the null pointer *)
| OWild.                       (** kind String8 with bits that are no pointer *)

Record hs := HS {
  heap : ptr -> option (list Z);       (** live allocations *)
  next : ptr;                          (** next address *)
  objs : nat -> option obj;            (** the AnySimple objects alive *)
  held : ptr -> bool                   (** strings handed to the caller *)
}.

Definition upd {A} (f : nat -> A) (k : nat) (a : A) : nat -> A :=
  fun x => if x =? k then a else f x.

Definition h_init : hs := HS (fun _ => None) 0 (fun _ => None) (fun _ => false).

Definition set_obj (i : nat) (o : option obj) (s : hs) : hs :=
  HS (heap s) (next s) (upd (objs s) i o) (held s).

Inductive h_exn := BadAlloc.
Definition hres := res h_exn hs.

(** delete[] p *)
Definition delete (p : option ptr) (s : hs) : hres :=
  match p with
  | None => Ok s
  | Some p =>
      match heap s p with
      | Some _ => Ok (HS (upd (heap s) p None) (next s) (objs s) (held s))
      | None => UB
      end
  end.

(** reading the characters at p *)
Definition read (p : ptr) (s : hs) : res h_exn (list Z) :=
  match heap s p with Some c => Ok c | None => UB end.

(** new Char8[size] filled with [c]; [fail]: std::bad_alloc *)
Definition alloc (fail : bool) (c : list Z) (s : hs) : res h_exn (ptr * hs) :=
  if fail then Throw BadAlloc
  else Ok (next s, HS (upd (heap s) (next s) (Some c)) (S (next s)) (objs s) (held s)).

(** AnySimple.cpp:27-32, [_releaseContent]. *)
Definition release_content (i : nat) (s : hs) : hres :=
  match objs s i with
  | Some (OStr p) => bind (delete p s) (fun s1 => Ok (set_obj i (Some (OStr None)) s1))
  | Some OWild => UB
  | _ => Ok s
  end.

(** The strings passed to SetValue: null, a buffer of the caller, or the string
    read from an AnySimple by operator String8. *)
Inductive source := SNull | SExt (c : list Z) | SOf (j : nat).

Inductive h_op :=
| HNew (i : nat) (o : option Z)            (** AnySimple(kind): None is String8 *)
| HCopyNew (i j : nat) (fail : bool)       (** AnySimple(const AnySimple &) *)
| HMoveNew (i j : nat)                     (** AnySimple(AnySimple &&) *)
| HCopy (i j : nat) (fail : bool)          (** operator=(const AnySimple &) *)
| HMove (i j : nat)                        (** operator=(AnySimple &&) *)
| HSetVal (i : nat) (z : Z) (ok : bool)    (** SetValue of another kind *)
| HSetStr (i : nat) (v : source) (fail : bool)  (** SetValue(PTK_String8, v) *)
| HMoveString (i : nat)                    (** MoveString() *)
| HFree (p : ptr)                          (** the caller deletes a string it holds *)
| HDestroy (i : nat).                      (** ~AnySimple() *)

(** AnySimple.cpp:51-73, copy assignment between distinct objects.  [type] is
    written before the allocation, [value] after: if the allocation fails the
    object is of kind String8 with its previous bits. *)
Definition wild (o : option obj) : option obj :=
  match o with
  | Some (OVal z) => if (z =? 0)%Z then Some (OStr None) else Some OWild
  | x => x
  end.

Definition copy_assign (i j : nat) (fail : bool) (s : hs) : hs * res h_exn unit :=
  match release_content i s with
  | Ok s1 =>
      match objs s1 j with
      | Some (OStr (Some p)) =>
          match read p s1 with
          | Ok c =>
              match alloc fail c s1 with
              | Ok (q, s2) => (set_obj i (Some (OStr (Some q))) s2, Ok tt)
              | Throw e => (set_obj i (wild (objs s1 i)) s1, Throw e)
              | UB => (s1, UB)
              end
          | Throw e => (s1, Throw e)
          | UB => (s1, UB)
          end
      | Some o => (set_obj i (Some o) s1, Ok tt)
      | None => (s1, Ok tt)
      end
  | Throw e => (s, Throw e)
  | UB => (s, UB)
  end.

(** AnySimple.cpp:75-86, move assignment; [i] and [j] may be the same object. *)
Definition move_assign (i j : nat) (s : hs) : hs * res h_exn unit :=
  match release_content i s with
  | Ok s1 =>
      let s2 := set_obj i (objs s1 j) s1 in
      (set_obj j (Some (OVal 0)) s2, Ok tt)
  | Throw e => (s, Throw e)
  | UB => (s, UB)
  end.

(** AnySimple.cpp:136-156, SetValue(PTK_String8, newValue): the content is
    released before the argument is read. *)
Definition set_str (i : nat) (v : option (ptr + list Z)) (fail : bool) (s : hs)
  : hs * res h_exn unit :=
  match release_content i s with
  | Ok s1 =>
      match v with
      | None => (set_obj i (Some (OStr None)) s1, Ok tt)
      | Some a =>
          match (match a with inl p => read p s1 | inr c => Ok c end) with
          | Ok c =>
              match alloc fail c s1 with
              | Ok (q, s2) => (set_obj i (Some (OStr (Some q))) s2, Ok tt)
              | Throw e => (s1, Throw e)
              | UB => (s1, UB)
              end
          | Throw e => (s1, Throw e)
          | UB => (s1, UB)
          end
      end
  | Throw e => (s, Throw e)
  | UB => (s, UB)
  end.

(** One operation.  A program can only use objects that exist, create objects
    that do not, and delete strings it holds; other operations are skipped. *)
Definition h_step (s : hs) (o : h_op) : hs * res h_exn unit :=
  match o with
  | HNew i z =>
      match objs s i with
      | Some _ => (s, Ok tt)
      | None =>
          (set_obj i (Some match z with Some z => OVal 0 | None => OStr None end) s, Ok tt)
      end
  | HCopyNew i j fail =>
      (* AnySimple.cpp:42-44: delegates to the default constructor, then assigns;
         on an exception the destructor runs *)
      match objs s i, objs s j with
      | None, Some _ =>
          match copy_assign i j fail (set_obj i (Some (OVal 0)) s) with
          | (s1, Throw e) =>
              match release_content i s1 with
              | Ok s2 => (set_obj i None s2, Throw e)
              | Throw e' => (s1, Throw e')
              | UB => (s1, UB)
              end
          | r => r
          end
      | _, _ => (s, Ok tt)
      end
  | HMoveNew i j =>
      match objs s i, objs s j with
      | None, Some o => (set_obj j (Some (OVal 0)) (set_obj i (Some o) s), Ok tt)
      | _, _ => (s, Ok tt)
      end
  | HCopy i j fail =>
      match objs s i, objs s j with
      | Some _, Some _ => if i =? j then (s, Ok tt) else copy_assign i j fail s
      | _, _ => (s, Ok tt)
      end
  | HMove i j =>
      match objs s i, objs s j with
      | Some _, Some _ => move_assign i j s
      | _, _ => (s, Ok tt)
      end
  | HSetVal i z ok =>
      match objs s i with
      | Some _ =>
          match release_content i s with
          | Ok s1 => ((if ok then set_obj i (Some (OVal z)) s1 else s1), Ok tt)
          | Throw e => (s, Throw e)
          | UB => (s, UB)
          end
      | None => (s, Ok tt)
      end
  | HSetStr i v fail =>
      match objs s i with
      | Some _ =>
          match v with
          | SNull => set_str i None fail s
          | SExt c => set_str i (Some (inr c)) fail s
          | SOf j =>
              match objs s j with
              | Some (OStr (Some p)) => set_str i (Some (inl p)) fail s
              | Some (OStr None) => set_str i None fail s
              | Some OWild => (s, UB)
              | _ => (s, Ok tt)         (* operator String8 throws *)
              end
          end
      | None => (s, Ok tt)
      end
  | HMoveString i =>
      match objs s i with
      | Some (OStr (Some p)) =>
          (HS (heap s) (next s) (upd (objs s) i (Some (OStr None)))
              (upd (held s) p true), Ok tt)
      | _ => (s, Ok tt)
      end
  | HFree p =>
      if held s p then
        match delete (Some p) s with
        | Ok s1 => (HS (heap s1) (next s1) (objs s1) (upd (held s1) p false), Ok tt)
        | Throw e => (s, Throw e)
        | UB => (s, UB)
        end
      else (s, Ok tt)
  | HDestroy i =>
      match objs s i with
      | Some _ =>
          match release_content i s with
          | Ok s1 => (set_obj i None s1, Ok tt)
          | Throw e => (s, Throw e)
          | UB => (s, UB)
          end
      | None => (s, Ok tt)
      end
  end.

(** A program; the caller carries on after an exception. *)
Fixpoint h_run (s : hs) (l : list h_op) : option hs :=
  match l with
  | [] => Some s
  | o :: l =>
      match h_step s o with
      | (_, UB) => None
      | (s', _) => h_run s' l
      end
  end.
