(** Specification vocabulary for the scheduler: the discipline under which the
    properties are proved, and the properties of execution traces. *)
From Verif Require Import Base SchedModel.

(** ** A disciplined client

    The witnesses in SchedRefuted.v show that some calls break the run loop.  The
    discipline below excludes exactly those: it says which calls are admitted at
    a given moment of the run.  A call that the scheduler rejects with an
    exception is always admitted. *)

(** The instant the run loop is about to move to, while the handlers of
    PreSimTimeChange run and while it sleeps. *)
Definition advancing (c : ctrl) : option Z :=
  match c with Pre K | Wait K => Some K | _ => None end.

(** New occurrences are not put before the instant being moved to. *)
Definition not_before_next (m : mach) (t : Z) : Prop :=
  forall K, advancing (ctl m) = Some K -> K <= t.

Definition waiting (s : sched) (id : Z) : Prop :=
  exists e, mget id (evs s) = Some e /\ In id (tget (ev_next e) (tbl s)).

Definition zwaiting (s : sched) (id : Z) : Prop :=
  exists e, mget id (evs s) = Some e /\ In id (tget (ev_next e) (ztbl s)).

(** The event is not scheduled for the instant the run loop is at (or moving to). *)
Definition elsewhere (m : mach) (id : Z) : Prop :=
  forall e K, mget id (evs (sc m)) = Some e -> ctl_key (ctl m) = Some K -> ev_next e <> K.

(** Immediate events swapped out of the queue: the running one and those left. *)
Definition runI (c : ctrl) : list Z := match c with ImmRun id _ _ => [id] | _ => [] end.
Definition restI (c : ctrl) : list Z := match c with ImmGo r _ | ImmRun _ r _ => r | _ => [] end.
(** Events of the current instant swapped out of the table. *)
Definition runE (c : ctrl) : list Z := match c with EvtRun id _ _ => [id] | _ => [] end.
Definition back_rest (b : back) : list Z := match b with BEvt _ r => r | _ => [] end.
Definition restE (c : ctrl) : list Z :=
  match c with
  | EvtGo _ r | EvtRun _ _ r => r
  | ImmGo _ b | ImmRun _ _ b => back_rest b
  | _ => []
  end.
Definition zrun (z : zctrl) : list Z := match z with ZRun id _ _ => [id] | _ => [] end.
Definition zrest (z : zctrl) : list Z := match z with ZGo _ r | ZRun _ _ r => r | ZWait => [] end.

Definition is_immediate (m : mach) (id : Z) : Prop :=
  In id (imm (sc m)) \/ In id (runI (ctl m)) \/ In id (restI (ctl m)).

(** Re-scheduling [id] for simulation time [sim]. *)
Definition retime_ok (m : mach) (id sim : Z) : Prop :=
  waiting (sc m) id /\ elsewhere m id /\ (now (sc m) <= sim -> not_before_next m sim).

Definition good_call (m : mach) (c : cmd) : Prop :=
  let s := sc m in
  match c with
  | AddImm _ | AddZulu _ _ _ _ _ => True
  | TKSetEpoch _ | TKSetMission _ | TKSetMissionStart _ | TKSetSim _ => True
  | AddSim _ _ _ _ | AddMission _ _ _ _ | AddEpoch _ _ _ _ =>
      forall q, build_add s c = Some (Ok q) -> not_before_next m (r_sim q)
  | SetSim id t => retime_ok m id (now s + t)
  | SetMission id t => retime_ok m id (now s + t - mission_time s)
  | SetEpoch id t => retime_ok m id (now s + t - epoch_time s)
  | SetZulu id _ _ => zwaiting s id
  | SetCycle id c => forall e, mget id (evs s) = Some e -> ev_repeat e <> 0 -> 0 < c
  | SetRepeat id r => r <> 0 -> ~ is_immediate m id
  | Remove id =>
      cur s = id \/
      forall e, mget id (evs s) = Some e ->
        if tkind_eqb (ev_kind e) KZulu
        then zwaiting s id /\ ~ In (ev_next e) (keys (tbl s))
        else waiting s id /\ elsewhere m id
  end.

Definition admitted_call (m : mach) (c : cmd) : Prop :=
  (exists e, api (sc m) c = Throw e) \/ good_call m c.

Definition admitted (m : mach) (l : label) : Prop :=
  match l with
  | LCall c => admitted_call m c
  | LCommit n => forall q, nth_error (pend m) n = Some q ->
                   now (sc m) <= r_sim q /\ not_before_next m (r_sim q)
  | _ => True
  end.

(** Every step of the history is admitted. *)
Fixpoint disciplined (m : mach) (ls : list label) : Prop :=
  match ls with
  | [] => True
  | l :: r => admitted m l /\ disciplined (mstep m l) r
  end.

(** ** Observations on traces.  A trace is newest first: in [x :: past], [past] is
    what happened before [x]. *)

(** The life of one event according to the history alone. *)
Record life := Life {
  due : Z;           (* the instant of the next occurrence *)
  cyc : Z;           (* cycle time *)
  rep : Z;           (* remaining repetitions, negative: for ever *)
  lkind : tkind;
  limm : bool;       (* posted with AddImmediateEvent *)
  live_run : bool    (* its entry point is running *)
}.

(** The occurrence is over: next one after the cycle time, if any is left. *)
Definition next_life (l : life) (running : bool) : option life :=
  if rep l =? 0 then None
  else Some (Life (due l + cyc l) (cyc l) (if 0 <? rep l then rep l - 1 else rep l)
                  (lkind l) (limm l) running).

(** Effect of one observation on the life of event [id]. *)
Definition life_step (id : Z) (x : tev) (o : option life) : option life :=
  match x with
  | TAdd i k im t c r => if i =? id then Some (Life t c r k im false) else o
  | TSetTime i t n =>
      if i =? id then
        match o with
        | Some l => if t <? n then None
                    else Some (Life t (cyc l) (rep l) (lkind l) (limm l) (live_run l))
        | None => None
        end
      else o
  | TCycle i c =>
      if i =? id then
        match o with
        | Some l => Some (Life (due l) c (rep l) (lkind l) (limm l) (live_run l))
        | None => None
        end
      else o
  | TRepeat i r =>
      if i =? id then
        match o with
        | Some l => Some (Life (due l) (cyc l) r (lkind l) (limm l) (live_run l))
        | None => None
        end
      else o
  | TRemove i =>
      if i =? id then
        match o with
        | Some l => if live_run l
                    then Some (Life (due l) (cyc l) 0 (lkind l) (limm l) true)
                    else None
        | None => None
        end
      else o
  | TStart i _ _ | TZulu i _ _ =>
      if i =? id then
        match o with
        | Some l => Some (Life (due l) (cyc l) (rep l) (lkind l) (limm l) true)
        | None => None
        end
      else o
  | TEnd i => if i =? id then match o with Some l => next_life l false | None => None end else o
  | TSkip i => if i =? id then match o with Some l => next_life l (live_run l) | None => None end else o
  | TPostImm _ | TTime _ => o
  end.

(** The scheduler itself posts, at construction, an event that holds the simulation
    at the end of time (XsmpScheduler.cpp:71-82). *)
Fixpoint life_of (id : Z) (tr : list tev) : option life :=
  match tr with
  | [] => if id =? hold_id then Some (Life i64_max 0 0 KSim false false) else None
  | x :: past => life_step id x (life_of id past)
  end.

Definition starts (tr : list tev) : list (Z * Z * bool) :=
  flat_map (fun x => match x with TStart id t im => [(id, t, im)] | _ => [] end) tr.

(** Simulation times at starts of entry points and at changes of the time. *)
Definition times (tr : list tev) : list Z :=
  flat_map (fun x => match x with TStart _ t _ => [t] | TTime t => [t] | _ => [] end) tr.

(** Newest first: non-increasing, that is, non-decreasing in time. *)
Definition never_backwards (l : list Z) : Prop := StronglySorted (fun a b => b <= a) l.

Definition added (tr : list tev) : list Z :=
  flat_map (fun x => match x with TAdd id _ _ _ _ _ => [id] | _ => [] end) tr.

(** Start times of one event, oldest first. *)
Definition starts_of (id : Z) (tr : list tev) : list Z :=
  rev (flat_map (fun x => match x with TStart i t _ => if i =? id then [t] else [] | _ => [] end) tr).

(** [always P tr]: P holds of every observation together with its past. *)
Fixpoint always (P : tev -> list tev -> Prop) (tr : list tev) : Prop :=
  match tr with
  | [] => True
  | x :: past => P x past /\ always P past
  end.

(** Nobody re-times an event to the present instant. *)
Definition no_retime_to_now (tr : list tev) : Prop :=
  forall id t n, In (TSetTime id t n) tr -> t <> n.

(** The Zulu clock is not set back: every reading is at least the last one made by
    the Zulu thread. *)
Definition clock_ok (m : mach) (l : label) : Prop :=
  match l with
  | LZTick z => zclock m <= z
  | LCall (AddZulu _ _ _ _ z) => zclock m <= z
  | LCall (SetZulu _ _ z) => zclock m <= z
  | _ => True
  end.

Fixpoint clocked (m : mach) (ls : list label) : Prop :=
  match ls with
  | [] => True
  | l :: r => clock_ok m l /\ clocked (mstep m l) r
  end.

(** Nobody re-times, re-cycles, re-counts or removes event [id]. *)
Definition untouched (id : Z) (tr : list tev) : Prop :=
  forall x, In x tr ->
    match x with
    | TSetTime i _ _ | TCycle i _ | TRepeat i _ | TRemove i => i <> id
    | _ => True
    end.

(** A registered event waiting for a simulation time (simulation, mission or epoch
    event that was not posted as immediate). *)
Definition timed (l : life) : Prop := lkind l <> KZulu /\ limm l = false.

(** Number of simulation entry points started. *)
Definition nstarts (tr : list tev) : nat := length (starts tr).

(** The simulation time according to the history: the value of the last change. *)
Fixpoint sim_time (tr : list tev) : Z :=
  match tr with
  | [] => 0
  | TTime t :: _ => t
  | _ :: past => sim_time past
  end.

(** The instants t, t+c, t+2c, ... (k of them). *)
Definition instants (t c : Z) (k : nat) : list Z := map (fun i => t + Z.of_nat i * c) (seq 0 k).

(** ** Which calls are rejected, with which exception *)
Definition kind_of (s : sched) (id : Z) : option tkind := option_map ev_kind (mget id (evs s)).

Definition reject_post (past : bool) (c r : Z) : option exn :=
  if past then Some InvalidEventTime
  else if negb (r =? 0) && (c <=? 0) then Some InvalidCycleTime
  else None.

Definition reject_kind (s : sched) (id : Z) (k : tkind) : option exn :=
  match kind_of s id with
  | Some k' => if tkind_eqb k' k then None else Some InvalidEventId
  | None => Some InvalidEventId
  end.

(** The exception a call must throw in state [s], if any.  Times of AddSim and
    SetSim are relative to now, the others are absolute in their time kind. *)
Definition must_reject (s : sched) (c : cmd) : option exn :=
  match c with
  | AddImm _ => None
  | AddSim _ t c r => reject_post (t <? 0) c r
  | AddMission _ t c r => reject_post (t <? mission_time s) c r
  | AddEpoch _ t c r => reject_post (t <? epoch_time s) c r
  | AddZulu _ t c r z => reject_post (t <? z) c r
  | SetSim id _ => reject_kind s id KSim
  | SetMission id _ => reject_kind s id KMission
  | SetEpoch id _ => reject_kind s id KEpoch
  | SetZulu id _ _ => reject_kind s id KZulu
  | SetCycle id c =>
      match mget id (evs s) with
      | None => Some InvalidEventId
      | Some e => if (0 <? ev_repeat e) && (c <=? 0) then Some InvalidCycleTime else None
      end
  | SetRepeat id r =>
      match mget id (evs s) with
      | None => Some InvalidEventId
      | Some e => if negb (r =? 0) && (ev_cycle e <=? 0) then Some InvalidCycleTime else None
      end
  | Remove id => match mget id (evs s) with None => Some InvalidEventId | Some _ => None end
  | TKSetEpoch _ | TKSetMission _ | TKSetMissionStart _ => None
  | TKSetSim t =>
      if window s && ((t <? now s) || (next_scheduled s <? t)) then Some InvalidSimulationTime else None
  end.

(** The 64-bit integers a call computes, in order. *)
Definition computes (s : sched) (c : cmd) : list Z :=
  match c with
  | AddSim _ t _ _ | SetSim _ t => [now s + t]
  | AddMission _ t _ _ | SetMission _ t => [now s + t; epoch_time s; mission_time s; now s + t - mission_time s]
  | AddEpoch _ t _ _ | SetEpoch _ t => [now s + t; epoch_time s; now s + t - epoch_time s]
  | TKSetEpoch t => [now s - t]
  | TKSetMission t => [epoch_time s; epoch_time s - t]
  | _ => []
  end.

(** The calls that number an event. *)
Definition posts (c : cmd) : bool :=
  match c with AddImm _ | AddSim _ _ _ _ | AddMission _ _ _ _ | AddEpoch _ _ _ _ | AddZulu _ _ _ _ _ => true | _ => false end.

(** A call is well defined: all it computes fits in 64 bits, and an event it posts
    gets a number that fits in 64 bits. *)
Definition well_defined (s : sched) (c : cmd) : Prop :=
  Forall (fun z => i64_min <= z <= i64_max) (computes s c) /\
  (posts c = true -> must_reject s c = None -> last s < i64_max).
