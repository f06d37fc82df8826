(** What property C105 talks about. *)
From Coq Require Import ZArith List.
From Verif Require Import Base StringModel StringSpec OwnModel.
Import ListNotations.
Local Open Scope nat_scope.

(** [n] characters of a text from position [p], fewer at its end. *)
Definition piece (p n : nat) (t : list Z) : list Z := firstn n (skipn p t).

(** What each call is meant to do to a text of capacity [N].  A position beyond the end
    is refused and nothing changes. *)
Definition meant (N : nat) (t : list Z) (o : oop) : list Z :=
  match o with
  | OPlain o => match intended N t o with Some t' => t' | None => t end
  | OSetPart _ p n | OAssignPart p n => if p <=? length t then piece p n t else t
  | OAppendPart p n => if p <=? length t then firstn N (t ++ piece p n t) else t
  | OAssignSelf => t
  | OAppendSelf => firstn N (t ++ t)
  end.

(** The calls that are defined: for assign, the piece lies entirely behind the place it
    is copied to. *)
Definition allowed (N : nat) (t : list Z) (o : oop) : Prop :=
  match o with
  | OPlain o => good_arg o /\ intended N t o <> None
  | OSetPart u _ _ => length u = S N
  | OAssignPart p n => length t < p \/ length (piece p n t) <= p
  | OAssignSelf => N = 0
  | _ => True
  end.

Fixpoint meant_all (N : nat) (t : list Z) (os : list oop) : list Z :=
  match os with [] => t | o :: r => meant_all N (meant N t o) r end.
Fixpoint allowed_all (N : nat) (t : list Z) (os : list oop) : Prop :=
  match os with [] => True | o :: r => allowed N t o /\ allowed_all N (meant N t o) r end.

(** Blanks of the classic locale: space, tabulators, ends of lines and pages. *)
Definition blank (c : Z) : Prop := (c = 32 \/ 9 <= c <= 13)%Z.
