(** When a scheduler is stored, and what it means that two simulations continue in
    the same way. *)
From Coq Require Import ZArith List Bool.
From Verif Require Import Base PersistModel SchedModel SchedStoreModel.
Import ListNotations.
Local Open Scope Z_scope.

(** Not executing: no event is being processed, no call is half done. *)
Definition standby (m : mach) : Prop := ctl m = Idle /\ zc m = ZWait /\ pend m = [].

(** The two simulations agree on what is not stored: the pending Zulu events and
    whether the simulation time may be set. *)
Definition same_unstored (m m0 : mach) : Prop :=
  ztbl (sc m) = ztbl (sc m0) /\ window (sc m) = window (sc m0).

(** Every number held is a 64-bit number and every entry point is found again at its
    path. *)
Definition fits (z : Z) : Prop := i64_min <= z <= i64_max.

Definition storable_ep (E : env) (ep : Z) : Prop :=
  Forall (fun z => 0 <= z < 256) (e_path E ep) /\
  Z.of_nat (length (e_path E ep)) < 2 ^ 64 /\
  Z.of_nat (length (e_path E ep)) <= e_mem E /\
  e_resolve E (e_path E ep) = ep.

Definition storable_event (E : env) (e : event) : Prop :=
  storable_ep E (ev_ep e) /\
  fits (ev_next e) /\ fits (ev_time e) /\ fits (ev_cycle e) /\ fits (ev_repeat e).

Definition storable (E : env) (s : sched) : Prop :=
  (forall id e, In (id, e) (evs s) -> storable_event E e) /\
  (forall id e, In (id, e) (evs s) -> 0 <= id < 2 ^ 64) /\
  (forall k l, In (k, l) (tbl s) ->
     fits k /\ Z.of_nat (length l) < 2 ^ 64 /\ Forall (fun id => 0 <= id < 2 ^ 64) l) /\
  Forall (fun id => 0 <= id < 2 ^ 64) (imm s) /\
  Z.of_nat (length (evs s)) < 2 ^ 64 /\ Z.of_nat (length (tbl s)) < 2 ^ 64 /\
  Z.of_nat (length (imm s)) < 2 ^ 64 /\
  fits (last s) /\ fits (now s) /\ fits (mission0 s) /\ fits (epoch0 s).

(** Hashes are 64-bit numbers. *)
Definition env_ok (E : env) : Prop := forall t, 0 <= e_hash E t < 2 ^ 64.

(** Whatever happens next, the same is observed in both, and the same events, with
    the same identifiers and properties, are pending. *)
Definition same_future (m m' : mach) : Prop :=
  forall fut, exists news,
    tr (fold_left mstep fut m) = news ++ tr m /\
    tr (fold_left mstep fut m') = news ++ tr m' /\
    evs (sc (fold_left mstep fut m)) = evs (sc (fold_left mstep fut m')) /\
    tbl (sc (fold_left mstep fut m)) = tbl (sc (fold_left mstep fut m')) /\
    ztbl (sc (fold_left mstep fut m)) = ztbl (sc (fold_left mstep fut m')) /\
    imm (sc (fold_left mstep fut m)) = imm (sc (fold_left mstep fut m')) /\
    last (sc (fold_left mstep fut m)) = last (sc (fold_left mstep fut m')) /\
    now (sc (fold_left mstep fut m)) = now (sc (fold_left mstep fut m')).
