(** Model of the log message kinds of src/Xsmp/Services/XsmpLogger.cpp:559-582 and
    609-617: a vector of names, the kind being the index. *)
From Coq Require Import ZArith List Bool Arith.
From Verif Require Import Base Text UuidModel.
Import ListNotations.
Local Open Scope nat_scope.

Definition name := list Z.

(** XsmpLogger.h, initial content of _logMessageKinds. *)
Definition predefined : list name :=
  [codes "Information"; codes "Event"; codes "Warning"; codes "Error"; codes "Debug"].

Fixpoint index_of (n : name) (l : list name) (i : nat) : option nat :=
  match l with
  | [] => None
  | x :: l => if list_eqb x n then Some i else index_of n l (S i)
  end.

(** XsmpLogger.cpp:559-582, QueryLogMessageKind (a null name is not modelled; the
    conversion of the index to UInt32 is not: there are less than 2^32 kinds). *)
Definition query (l : list name) (n : name) : list name * nat :=
  match index_of n l 0 with
  | Some i => (l, i)
  | None => (l ++ [n], length l)
  end.

(** XsmpLogger.cpp:584-607, the kind name given to the appenders. *)
Definition kind_name (l : list name) (k : nat) : option name := nth_error l k.

(** A history: queries, Store (what is written is remembered), Restore of the last
    thing stored, and a Restore that fails after [n] names (StdVector.h:35-48: the
    vector is cleared first and filled one by one). *)
Inductive kop := KQuery (n : name) | KStore | KRestore | KRestoreFails (n : nat).

Record kst := KSt { kinds : list name; saved : option (list name) }.

Definition k_init : kst := KSt predefined None.

Definition k_step (s : kst) (o : kop) : kst :=
  match o with
  | KQuery n => KSt (fst (query (kinds s) n)) (saved s)
  | KStore => KSt (kinds s) (Some (kinds s))
  | KRestore => match saved s with Some l => KSt l (saved s) | None => s end
  | KRestoreFails n => match saved s with Some l => KSt (firstn n l) (saved s) | None => s end
  end.

Definition k_run (s : kst) (l : list kop) : kst := fold_left k_step l s.

(** The answer to a query in a state. *)
Definition answer (s : kst) (n : name) : nat := snd (query (kinds s) n).
