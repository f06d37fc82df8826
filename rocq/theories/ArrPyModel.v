(** Model of the use of simple array fields from Python:
    src/python/Smp/ISimpleArrayFieldBinding.h, on the arrays of FlowModel.v and
    FArrModel.v and the values and indexes of PyModel.v. *)
From Coq Require Import ZArith List Bool.
From Verif Require Import Base UuidModel PathModel AnyModel FlowModel FArrModel PyModel.
Import ListNotations.
Local Open Scope Z_scope.

Inductive ipexn := IndexError | TypeError | ValueError | Convert (e : pexn) | Smp (e : fexn).

(** ISimpleArrayFieldBinding.h:30: __len__ *)
Definition arr_len (w : world) (i : nat) : Z := Z.of_nat (length (avals (arrs w i))).

(** ISimpleArrayFieldBinding.h:32-39: __getitem__.  Every exception becomes IndexError; an
    index that is no Int64 is a TypeError of pybind11. *)
Definition arr_getitem (w : world) (i : nat) (index : Z) : res ipexn pyval :=
  if negb (in_i64 index) then Throw TypeError
  else
    match py_index index (arr_len w i) with
    | Ok k =>
        match arr_get w i (Z.to_nat k) with
        | Ok a => match to_py a with Ok p => Ok p | Throw _ => Throw IndexError | UB => UB end
        | Throw _ => Throw IndexError
        | UB => UB
        end
    | Throw _ => Throw IndexError
    | UB => UB
    end.

(** ISimpleArrayFieldBinding.h:41-52: __setitem__ with an index that is a UInt64.  The value
    is converted before the index is looked at.  [anon]: the field was made by PublishArray
    with a count and a primitive kind (Publication.cpp:158-172), so that its type is that
    of its items and no array type. *)
Definition arr_setitem (anon : bool) (w : world) (i : nat) (index : Z) (p : pyval) : world * res ipexn unit :=
  if negb ((0 <=? index) && (index <? 2 ^ 64)) then (w, Throw TypeError)
  else if anon then (w, Throw ValueError)
  else
    match of_py p (ak (arrs w i)) with
    | Ok v =>
        match (if index <? arr_len w i then arr_set_any w i (Z.to_nat index) v else throw w InvalidArrayIndex) with
        | (w', Ok _) => (w', Ok tt)
        | (w', Throw e) => (w', Throw (Smp e))
        | (w', UB) => (w', UB)
        end
    | Throw e => (w, Throw (Convert e))
    | UB => (w, UB)
    end.

(** [for k, p in enumerate(ps, start): a[k] = p] *)
Fixpoint arr_write (anon : bool) (w : world) (i : nat) (start : Z) (ps : list pyval) : world * res ipexn unit :=
  match ps with
  | [] => (w, Ok tt)
  | p :: r =>
      match arr_setitem anon w i start p with
      | (w', Ok _) => arr_write anon w' i (start + 1) r
      | x => x
      end
  end.
(** [[a[k] for k in range(start, start + n)]] *)
Fixpoint arr_read (w : world) (i : nat) (start : Z) (n : nat) : res ipexn (list pyval) :=
  match n with
  | O => Ok []
  | S n => bind (arr_getitem w i start) (fun p => bind (arr_read w i (start + 1) n) (fun r => Ok (p :: r)))
  end.
