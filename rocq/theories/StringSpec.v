(** What the String<N> properties talk about: the text of the object. *)
From Verif Require Import Base StringModel.

(** The text of a C string: what precedes the first NUL. *)
Fixpoint text (b : list Z) : list Z :=
  match b with
  | [] => []
  | c :: r => if c =? 0 then [] else c :: text r
  end.

(** A String<N> object: N+1 bytes, one of which is NUL. *)
Definition is_string (N : nat) (b : list Z) : Prop := length b = S N /\ In 0 b.

(** The intended effect of each operation on a text of capacity [N]; [None]: not
    allowed by the contract of the operation (as for std::string_view). *)
Definition intended (N : nat) (t : list Z) (o : sop) : option (list Z) :=
  match o with
  | SAssign v => Some (text (firstn N v))
  | SAssignString _ other => Some (firstn N (text other))
  | SAppend v => Some (t ++ text (firstn (N - length t) v))
  | SAppendString other => Some (firstn N (t ++ text other))
  | SPush c => Some (if c =? 0 then t else firstn N (t ++ [c]))
  | SPop => Some (firstn (length t - 1) t)
  | SRemovePrefix n => if (n <=? length t)%nat then Some (skipn n t) else None
  | SRemoveSuffix n => Some (firstn (length t - n) t)
  | SClear => Some []
  | SSetAt pos c =>
      if (pos <? length t)%nat then Some (text (firstn pos t ++ c :: skipn (S pos) t)) else Some t
  end.

Fixpoint intended_all (N : nat) (t : list Z) (os : list sop) : option (list Z) :=
  match os with
  | [] => Some t
  | o :: r => match intended N t o with Some t' => intended_all N t' r | None => None end
  end.

(** Every String<S> argument is itself a string of its capacity. *)
Definition good_arg (o : sop) : Prop :=
  match o with
  | SAssignString cap other => is_string cap other
  | SAppendString other => exists cap, is_string cap other
  | _ => True
  end.

(** Lexicographic order of byte sequences. *)
Inductive lexlt : list Z -> list Z -> Prop :=
| lexlt_nil y b : lexlt [] (y :: b)
| lexlt_head x y a b : x < y -> lexlt (x :: a) (y :: b)
| lexlt_tail x a b : lexlt a b -> lexlt (x :: a) (x :: b).

Definition op_meaning (o : cmp_op) (a b : list Z) : Prop :=
  match o with
  | OEq => a = b | ONe => a <> b | OLt => lexlt a b | OGt => lexlt b a
  | OLe => lexlt a b \/ a = b | OGe => lexlt b a \/ a = b
  end.
