(** Model of the use of references from Python: src/python/Smp/IReferenceBinding.h, on the
    references of CollModel.v and the indexes of PyModel.v.

    Simplifications: components are numbers; None is not given as a component.  The
    statement [o.ref += c] also assigns the reference to its own name, which does nothing
    (C106_same_object). *)
From Coq Require Import ZArith List Bool.
From Verif Require Import Base CollModel PyModel.
Import ListNotations.
Local Open Scope Z_scope.

Inductive rstmt :=
| RAdd (c : Z)             (** [r += c] *)
| RSub (c : Z)             (** [r -= c] *)
| RDelAt (i : Z)           (** [del r[i]] *)
| RDelName (n : list Z).   (** [del r["n"]] *)
Inductive rres := RDone | RSmp (e : refres) | RIndexError | RKeyError | RTypeError | RUndefined.

Definition ref_call typ lo up (o : refop) (l : list Z) : list Z * rres :=
  let '(l, r) := ref_step typ lo up o l in (l, match r with FDone => RDone | e => RSmp e end).

(** IReferenceBinding.h:95-111 __iadd__, __isub__; 59-78 __delitem__: an index that is no
    Int64 fits no overload. *)
Definition ref_exec (nm : Z -> list Z) typ lo up (l : list Z) (s : rstmt) : list Z * rres :=
  match s with
  | RAdd c => ref_call typ lo up (FAdd c) l
  | RSub c => ref_call typ lo up (FRemove c) l
  | RDelAt i =>
      if negb (in_i64 i) then (l, RTypeError)
      else
        match py_index i (Z.of_nat (length l)) with
        | Ok k =>
            match coll_at_index (Z.to_nat k) l with
            | Some c => ref_call typ lo up (FRemove c) l
            | None => (l, RIndexError)
            end
        | Throw _ => (l, RIndexError)
        | UB => (l, RUndefined)
        end
  | RDelName n =>
      match coll_at_name nm (Some n) l with
      | Some c => ref_call typ lo up (FRemove c) l
      | None => (l, RKeyError)
      end
  end.

(** A script that catches the exceptions: the content and the results. *)
Fixpoint ref_script nm typ lo up (l : list Z) (ss : list rstmt) : list Z * list rres :=
  match ss with
  | [] => (l, [])
  | s :: r =>
      let '(l1, x) := ref_exec nm typ lo up l s in
      let '(l2, xs) := ref_script nm typ lo up l1 r in (l2, x :: xs)
  end.
