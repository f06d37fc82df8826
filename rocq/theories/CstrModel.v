(** Model of Xsmp::cstring (include/Xsmp/cstring.h, src/Xsmp/cstring.cpp), the holder of
    the names and descriptions of all objects: its operations on a heap of blocks of bytes,
    with use after free, double free and reading past a block as undefined behaviour, and
    with allocations that may fail. *)
From Coq Require Import ZArith List Bool Arith.
From Verif Require Import Base HelperModel.
Import ListNotations.
Local Open Scope nat_scope.

Record cs := CS {
  heap : nat -> option (list Z);        (** the blocks allocated by new char[] *)
  next : nat;                           (** next address *)
  objs : nat -> option (option nat)     (** the cstring objects alive and their _value; None is null *)
}.
Definition cs_init : cs := CS (fun _ => None) 0 (fun _ => None).

Definition upd {A} (f : nat -> A) (k : nat) (a : A) : nat -> A := fun x => if x =? k then a else f x.
Definition set_obj (i : nat) (o : option (option nat)) (s : cs) : cs := CS (heap s) (next s) (upd (objs s) i o).

Inductive cexn := CBadAlloc.

(** delete[] p *)
Definition cdelete (p : option nat) (s : cs) : res cexn cs :=
  match p with
  | None => Ok s
  | Some p => match heap s p with Some _ => Ok (CS (upd (heap s) p None) (next s) (objs s)) | None => UB end
  end.

(** A const char*: null, into a block of the caller, or c_str() of a cstring object. *)
Inductive csrc := SNull | SExt (block : list Z) | SOf (j : nat).

(** The characters at a const char*, as char_traits::length and copy read them. *)
Definition cread (v : csrc) (s : cs) : res cexn (list Z) :=
  match v with
  | SNull => UB
  | SExt l => match c_str l with Some t => Ok t | None => UB end
  | SOf j =>
      match objs s j with
      | Some (Some p) => match heap s p with Some b => match c_str b with Some t => Ok t | None => UB end | None => UB end
      | _ => UB
      end
  end.

(** cstring.cpp:22-27, copy(value, size); [fail]: std::bad_alloc. *)
Definition ccopy (fail : bool) (t : list Z) (s : cs) : res cexn (nat * cs) :=
  if fail then Throw CBadAlloc
  else Ok (next s, CS (upd (heap s) (next s) (Some (t ++ [0%Z]))) (S (next s)) (objs s)).

Inductive cop :=
| CFrom (i : nat) (v : csrc) (fail : bool)                        (** cstring(const char* ) *)
| CFromSize (i : nat) (block : list Z) (size : nat) (fail : bool) (** cstring(const char*, size_t), cstring(string_view) *)
| CCopyNew (i j : nat) (fail : bool)                              (** cstring(const cstring &) *)
| CMoveNew (i j : nat)                                            (** cstring(cstring &&) *)
| CAssign (i j : nat) (fail : bool)                               (** operator=(const cstring &) *)
| CMove (i j : nat)                                               (** operator=(cstring &&) *)
| CSet (i : nat) (v : csrc) (fail : bool)                         (** operator=(const char* ) *)
| CDestroy (i : nat).                                             (** ~cstring() *)

(** cstring.cpp:28-30 and 33-37: a new object holding a copy of the characters at [v]. *)
Definition from_source (i : nat) (v : csrc) (fail : bool) (s : cs) : cs * res cexn unit :=
  match bind (cread v s) (fun t => ccopy fail t s) with
  | Ok (p, s1) => (set_obj i (Some (Some p)) s1, Ok tt)
  | Throw e => (s, Throw e)
  | UB => (s, UB)
  end.

(** cstring.cpp:52-56 operator=(const char* ), and 44-50 between distinct objects: the old
    block is deleted first, and _value written after the copy. *)
Definition set_source (i : nat) (v : csrc) (fail : bool) (s : cs) : cs * res cexn unit :=
  match objs s i with
  | Some o =>
      match cdelete o s with
      | Ok s1 =>
          match bind (cread v s1) (fun t => ccopy fail t s1) with
          | Ok (p, s2) => (set_obj i (Some (Some p)) s2, Ok tt)
          | Throw e => (s1, Throw e)
          | UB => (s1, UB)
          end
      | Throw e => (s, Throw e)
      | UB => (s, UB)
      end
  | None => (s, Ok tt)
  end.

(** One operation; operations on objects that do not exist, or that create one that does,
    are not programs and are skipped. *)
Definition cstep (s : cs) (o : cop) : cs * res cexn unit :=
  match o with
  | CFrom i v fail => match objs s i with None => from_source i v fail s | Some _ => (s, Ok tt) end
  | CFromSize i b n fail =>              (* cstring.cpp:33-34, 39-40 *)
      match objs s i with
      | None =>
          if length b <? n then (s, UB)
          else match ccopy fail (firstn n b) s with
               | Ok (p, s1) => (set_obj i (Some (Some p)) s1, Ok tt)
               | Throw e => (s, Throw e)
               | UB => (s, UB)
               end
      | Some _ => (s, Ok tt)
      end
  | CCopyNew i j fail => match objs s i, objs s j with None, Some _ => from_source i (SOf j) fail s | _, _ => (s, Ok tt) end
  | CMoveNew i j =>                      (* cstring.cpp:60-62 *)
      match objs s i, objs s j with
      | None, Some o => (set_obj j (Some None) (set_obj i (Some o) s), Ok tt)
      | _, _ => (s, Ok tt)
      end
  | CAssign i j fail => match objs s j with Some _ => if i =? j then (s, Ok tt) else set_source i (SOf j) fail s | None => (s, Ok tt) end
  | CMove i j =>                         (* cstring.cpp:63-68; also for i = j *)
      match objs s i, objs s j with
      | Some o, Some o' =>
          match cdelete o s with
          | Ok s1 => (set_obj j (Some None) (set_obj i (Some o') s1), Ok tt)
          | Throw e => (s, Throw e)
          | UB => (s, UB)
          end
      | _, _ => (s, Ok tt)
      end
  | CSet i v fail => set_source i v fail s
  | CDestroy i =>                        (* cstring.cpp:58 *)
      match objs s i with
      | Some o => match cdelete o s with
                  | Ok s1 => (set_obj i None s1, Ok tt)
                  | Throw e => (s, Throw e)
                  | UB => (s, UB)
                  end
      | None => (s, Ok tt)
      end
  end.

(** A program; it goes on after an exception and stops at undefined behaviour. *)
Fixpoint crun (s : cs) (ops : list cop) : option cs :=
  match ops with
  | [] => Some s
  | o :: r => match cstep s o with (_, UB) => None | (s1, _) => crun s1 r end
  end.

(** cstring.h:42 c_str(), and the characters found there. *)
Definition ctext (s : cs) (i : nat) : res cexn (list Z) := cread (SOf i) s.
