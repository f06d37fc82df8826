(** What is expected of the Zulu events. *)
From Verif Require Import Base ZulModel.
From Coq Require Import ZArith List Bool.
Import ListNotations.
Local Open Scope Z_scope.

(** Event [id] is posted for time [t]. *)
Definition posted (s : zs) (t id : Z) : Prop := exists ids, In (t, ids) (table s) /\ In id ids.

(** The thread cannot do anything until the clock moves or somebody wakes it. *)
Definition asleep (s : zs) : Prop :=
  match th s with TBlocked d => clock s < d | TBlockedE => True | _ => False end.

(** While the thread waits for time [d], no event is posted or moved to an earlier time. *)
Definition in_order (s : zs) (l : label) : Prop :=
  match th s, l with
  | (TBlocked d | TWoken d), (LPost t _ | LMove _ _ t) => d <= t
  | _, _ => True
  end.
Fixpoint all_in_order (s : zs) (ls : list label) : Prop :=
  match ls with [] => True | l :: r => in_order s l /\ all_in_order (fst (step s l)) r end.

(** The events due at time [t], in the order of their times. *)
Definition due_until (t : Z) (m : omap (list Z)) : list Z :=
  flat_map (fun e => if fst e <=? t then snd e else []) m.
