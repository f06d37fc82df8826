(** Reading the items of simple array fields: include/Xsmp/Field.h:766-793 and
    src/Xsmp/Publication/Field.cpp:505-545, 609-617.  Writing them is in FlowModel. *)
From Coq Require Import ZArith List Bool.
From Verif Require Import Base UuidModel AnyModel HelperModel FlowModel.
Import ListNotations.

(** GetValue(index) *)
Definition arr_get (w : world) (i k : nat) : res fexn any :=
  match nth_error (avals (arrs w i)) k with
  | None => Throw InvalidArrayIndex
  | Some p => match to_any (ac (arrs w i)) (ak (arrs w i)) p with
              | Ok a => Ok a
              | Throw _ => Throw BadAny
              | UB => UB
              end
  end.

(** GetValues(length, values): the values written to the array of the caller. *)
Fixpoint arr_get_from (w : world) (i : nat) (ks : list nat) : res fexn (list any) :=
  match ks with
  | [] => Ok []
  | k :: r => bind (arr_get w i k) (fun a => bind (arr_get_from w i r) (fun l => Ok (a :: l)))
  end.
Definition arr_get_values (w : world) (i n : nat) : res fexn (list any) :=
  if Nat.eqb n (length (avals (arrs w i))) then arr_get_from w i (seq 0 n) else Throw InvalidArraySize.

(** AnonymousSimpleArrayField (src/Xsmp/Publication/Field.cpp:334-400), the field of
    PublishArray(name, description, count, address, type, ...).  SetValue converts;
    SetValues is SetValue of every item, without a look at the kinds.  It knows no
    strings.  Reading is as above for the other kinds. *)
Definition anon_set (w : world) (i k : nat) (v : any) : out :=
  let a := arrs w i in
  if (k <? length (avals a))%nat then
    match ac a with
    | CStr _ => throw w InvalidArrayValue
    | c => match from_any c v with
           | Ok p => done (set_arr w i (with_vals a (put_nth k p (avals a))))
           | Throw _ => throw w BadAny
           | UB => (w, UB)
           end
    end
  else throw w InvalidArrayIndex.
Fixpoint anon_set_from (w : world) (i k : nat) (vs : list any) : out :=
  match vs with
  | [] => done w
  | v :: r => andthen (anon_set w i k v) (fun w' => anon_set_from w' i (S k) r)
  end.
Definition anon_set_values (w : world) (i : nat) (vs : list any) : out :=
  if Nat.eqb (length vs) (length (avals (arrs w i))) then anon_set_from w i 0 vs
  else throw w InvalidArraySize.
