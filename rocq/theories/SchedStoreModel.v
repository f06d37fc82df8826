(** Model of Store and Restore of the scheduler and of the time keeper,
    src/Xsmp/Services/XsmpScheduler.cpp:46-66,572-584 and
    src/Xsmp/Services/XsmpTimeKeeper.cpp:95-105, over the bytes of PersistModel.v. *)
From Coq Require Import ZArith List Bool.
From Verif Require Import Base PersistModel SchedModel.
Import ListNotations.
Local Open Scope Z_scope.

(** The bytes of a signed 64-bit number as an unsigned number, and back. *)
Definition wrap (z : Z) : Z := z mod 2 ^ 64.
Definition unwrap (u : Z) : Z := if u <? 2 ^ 63 then u else u - 2 ^ 64.

(** ::Smp::Services::TimeKind, an enumeration on 4 bytes. *)
Definition kind_code (k : tkind) : Z :=
  match k with KSim => 0 | KMission => 1 | KEpoch => 2 | KZulu => 3 end.
Definition kind_of_code (z : Z) : tkind :=
  if z =? 0 then KSim else if z =? 1 then KMission else if z =? 2 then KEpoch else KZulu.

(** std::less<EventId>, std::less<Duration>: signed.  The order of EventList,
    XsmpScheduler.h:389-391, is the unsigned one. *)
Definition slt (a b : val) : bool :=
  match a, b with VInt x, VInt y => unwrap x <? unwrap y | _, _ => false end.
Definition ult (a b : val) : bool :=
  match a, b with VInt x, VInt y => x <? y | _, _ => false end.

(** The parameters of the simulation: the path of an entry point, the object found
    at a path (SmpIObject.h), the hash of a type (Persist.h) and the largest string
    that can be allocated. *)
Record env := Env {
  e_path : Z -> list Z;
  e_resolve : list Z -> Z;
  e_hash : ty -> Z;
  e_mem : Z }.

Section Codec.
  Variable E : env.

  (** XsmpScheduler.cpp:48-63: Helper<Event>. *)
  Definition event_ty : ty :=
    TPair (TRef (e_path E) (e_resolve E))
      (TPair (TInt 8) (TPair (TInt 8) (TPair (TInt 8) (TPair (TInt 8) (TInt 4))))).

  Definition event_val (e : event) : val :=
    VPair (VObj (ev_ep e))
      (VPair (VInt (wrap (ev_next e))) (VPair (VInt (wrap (ev_time e)))
        (VPair (VInt (wrap (ev_cycle e))) (VPair (VInt (wrap (ev_repeat e)))
          (VInt (kind_code (ev_kind e))))))).

  Definition val_event (v : val) : option event :=
    match v with
    | VPair (VObj o) (VPair (VInt n) (VPair (VInt t) (VPair (VInt c) (VPair (VInt r) (VInt k))))) =>
        Some (Ev o (unwrap n) (unwrap t) (unwrap c) (unwrap r) (kind_of_code k))
    | _ => None
    end.

  Definition list_ty : ty := TSet ult (TInt 8).
  Definition list_val (l : list Z) : val := VSeq (map VInt l).

  Fixpoint vals_list (l : list val) : option (list Z) :=
    match l with
    | [] => Some []
    | VInt z :: l => option_map (cons z) (vals_list l)
    | _ => None
    end.
  Definition val_list (v : val) : option (list Z) :=
    match v with VSeq l => vals_list l | _ => None end.

  (** _events is a std::map ordered by the signed identifier: the identifier -2 of
      the hold event comes first.  [evs] is kept in the unsigned order. *)
  Definition negative (p : Z * event) : bool := 2 ^ 63 <=? fst p.
  Definition events_val (m : omap event) : val :=
    VSeq (map (fun p => VPair (VInt (fst p)) (event_val (snd p)))
              (filter negative m ++ filter (fun p => negb (negative p)) m)).

  Fixpoint vals_events (l : list val) : option (list (Z * event)) :=
    match l with
    | [] => Some []
    | VPair (VInt id) v :: l =>
        match val_event v, vals_events l with
        | Some e, Some r => Some ((id, e) :: r)
        | _, _ => None
        end
    | _ => None
    end.
  Definition val_events (v : val) : option (omap event) :=
    match v with
    | VSeq l =>
        option_map (fun m => filter (fun p => negb (negative p)) m ++ filter negative m) (vals_events l)
    | _ => None
    end.

  Definition table_val (t : omap (list Z)) : val :=
    VSeq (map (fun p => VPair (VInt (wrap (fst p))) (list_val (snd p))) t).
  Fixpoint vals_table (l : list val) : option (omap (list Z)) :=
    match l with
    | [] => Some []
    | VPair (VInt k) v :: l =>
        match val_list v, vals_table l with
        | Some e, Some r => Some ((unwrap k, e) :: r)
        | _, _ => None
        end
    | _ => None
    end.
  Definition val_table (v : val) : option (omap (list Z)) :=
    match v with VSeq l => vals_table l | _ => None end.

  (** XsmpScheduler.cpp:580-581: _events, _events_table, _immediate_events,
      _lastEventId.  Not _zulu_events_table. *)
  Definition sched_types : list ty :=
    [TMap slt (TInt 8) event_ty; TMap slt (TInt 8) list_ty; list_ty; TInt 8].
  Definition sched_vals (s : sched) : list val :=
    [events_val (evs s); table_val (tbl s); list_val (imm s); VInt (wrap (last s))].

  Definition store_sched (s : sched) : list Z :=
    tstore_all (e_hash E) (combine sched_types (sched_vals s)).

  (** XsmpScheduler.cpp:572-576.  The values have the shape of their types, so that
      the last case does not occur. *)
  Definition restore_sched (bs : list Z) (s0 : sched) : res pexn (sched * list Z) :=
    bind (trestore_all (e_mem E) (e_hash E) sched_types bs) (fun '(vs, rest) =>
    match vs with
    | [a; b; c; VInt d] =>
        match val_events a, val_table b, val_list c with
        | Some e, Some t, Some i =>
            Ok (set_last (unwrap d) (set_imm i (set_tbl t (set_evs e s0))), rest)
        | _, _, _ => UB
        end
    | _ => UB
    end).

  (** XsmpTimeKeeper.cpp:101-105: simulation time, mission start, epoch start. *)
  Definition tk_types : list ty := [TInt 8; TInt 8; TInt 8].
  Definition store_tk (s : sched) : list Z :=
    tstore_all (e_hash E)
      (combine tk_types [VInt (wrap (now s)); VInt (wrap (mission0 s)); VInt (wrap (epoch0 s))]).

  (** XsmpTimeKeeper.cpp:95-99. *)
  Definition restore_tk (bs : list Z) (s0 : sched) : res pexn (sched * list Z) :=
    bind (trestore_all (e_mem E) (e_hash E) tk_types bs) (fun '(vs, rest) =>
    match vs with
    | [VInt n; VInt m; VInt e] =>
        Ok (set_epoch0 (unwrap e) (set_mission0 (unwrap m) (set_now (unwrap n) s0)), rest)
    | _ => UB
    end).

  (** The two services of a simulation [m] that is not executing, stored one after
      the other, in either order (Simulator.cpp stores the services in the order of
      their container); [m0] is the simulation they are restored into. *)
  Definition store_services (m : mach) : list Z := store_tk (sc m) ++ store_sched (sc m).

  Definition with_sched (m : mach) (s : sched) : mach :=
    M s (ctl m) (zc m) (zclock m) (dang m) (pend m) (tr m).

  Definition restore_services (bs : list Z) (m0 : mach) : res pexn (mach * list Z) :=
    bind (restore_tk bs (sc m0)) (fun '(s1, r) =>
    bind (restore_sched r s1) (fun '(s2, r') => Ok (with_sched m0 s2, r'))).
End Codec.
