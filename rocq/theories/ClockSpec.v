(** What the property of the time keeper used by several threads (C92) talks about. *)
From Verif Require Import Base ConcSpec.

Inductive kop :=
| KGetSim | KGetEpoch | KGetMission | KGetStart
| KSetEpoch (e : Z)
| KSetStart (m : Z)
| KSetMission (m : Z)
| KOpen                        (* PreSimTimeChange is emitted: the time may be changed *)
| KClose                       (* PostSimTimeChange is emitted *)
| KSetSim (t max : Z)          (* SetSimulationTime; max is the time of the next scheduled event *)
| KStore
| KRestore (sim start off : Z).

Inductive kout :=
| KTime (z : Z) | KDone | KInvalid
| KStored (sim start off : Z). (* the three values written: simulation time, mission start,
                                  simulation time minus epoch time *)

(** What the time keeper shows when one call is made at a time. *)
Record clock := Clock { sim : Z; epoch : Z; start : Z; changing : bool }.
Definition clock0 : clock := Clock 0 0 0 false.

Definition accepts (c : clock) (t max : Z) : bool := (sim c <=? t) && (t <=? max).

Definition answer (c : clock) (o : kop) : kout :=
  match o with
  | KGetSim => KTime (sim c)
  | KGetEpoch => KTime (epoch c)
  | KGetMission => KTime (epoch c - start c)
  | KGetStart => KTime (start c)
  | KSetSim t max => if changing c && negb (accepts c t max) then KInvalid else KDone
  | KStore => KStored (sim c) (start c) (sim c - epoch c)
  | _ => KDone
  end.

(** The epoch time advances with the simulation time; the mission time is the epoch time
    minus the mission start. *)
Definition effect (c : clock) (o : kop) : clock :=
  match o with
  | KSetEpoch e => Clock (sim c) e (start c) (changing c)
  | KSetStart m => Clock (sim c) (epoch c) m (changing c)
  | KSetMission m => Clock (sim c) (epoch c) (epoch c - m) (changing c)
  | KOpen => Clock (sim c) (epoch c) (start c) true
  | KClose => Clock (sim c) (epoch c) (start c) false
  | KSetSim t max =>
      if changing c && accepts c t max then Clock t (epoch c + (t - sim c)) (start c) (changing c) else c
  | KRestore s m off => Clock s (s - off) m (changing c)
  | _ => c
  end.

Definition khist := list (hev kop kout).
Definition korder := list (nat * kop * kout).

Fixpoint clock_after (c : clock) (L : korder) : clock :=
  match L with
  | [] => c
  | (_, o, _) :: L => clock_after (effect c o) L
  end.

Definition clock_result (_ : khist) (L : korder) (_ : nat) (o : kop) (x : kout) : Prop :=
  x = answer (clock_after clock0 L) o.

(** The calls that change the simulation time or the window in which it may change. *)
Definition moves_time (o : kop) : Prop :=
  match o with KOpen | KClose | KSetSim _ _ | KRestore _ _ _ => True | _ => False end.

(** No two of them overlap. *)
Definition one_driver (tr : khist) : Prop :=
  forall i o j o', overlap tr i o j o' -> moves_time o -> moves_time o' -> i = j.

(** The call k has begun and has not returned. *)
Definition in_progress (tr : khist) (k : nat) : Prop := exists o, active tr k o.

(** The history has no call of Restore, of Store. *)
Definition no_restore (tr : khist) : Prop := forall k a b c, ~ In (Inv k (KRestore a b c)) tr.
Definition no_store (tr : khist) : Prop := forall k, ~ In (Inv k KStore) tr.
