(** What the link registry properties talk about: counts over the history. *)
From Verif Require Import Base LinkModel.

(** Number of AddLink(s,t) minus number of RemoveLink(s,t) that returned true. *)
Definition bal_step (s t : Z) (n : Z) (e : lop * lout) : Z :=
  match e with
  | (LAdd s' t', _) => if (s' =? s) && (t' =? t) then n + 1 else n
  | (LRemove s' t', LBool true) => if (s' =? s) && (t' =? t) then n - 1 else n
  | _ => n
  end.
Definition balance (tr : list (lop * lout)) (s t : Z) : Z := fold_left (bal_step s t) tr 0.

Definition ltrace name os := snd (lrun name reg_init os).

(** No pair of components ever has 2^32 links at the same time. *)
Definition bounded_links name (os : list lop) : Prop :=
  forall os1 os2 s t, os = os1 ++ os2 -> balance (ltrace name os1) s t < 2 ^ 32.

(** The components given as sources of the same target have different names. *)
Definition distinct_names (name : Z -> list Z) (os : list lop) : Prop :=
  forall a b t, In (LAdd a t) os -> In (LAdd b t) os -> name a = name b -> a = b.

(** The elements at even, and at odd positions of a list. *)
Fixpoint evens {A} (l : list A) : list A :=
  match l with [] => [] | [a] => [a] | a :: _ :: l => a :: evens l end.
Fixpoint odds {A} (l : list A) : list A :=
  match l with [] => [] | [_] => [] | _ :: b :: l => b :: odds l end.

(** The call changes no link to the target. *)
Definition spares (t : Z) (o : lop) : Prop :=
  match o with LAdd _ t' | LRemove _ t' => t' <> t | _ => True end.
