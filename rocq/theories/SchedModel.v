(** Model of the scheduler service, src/Xsmp/Services/XsmpScheduler.{h,cpp},
    and of the part of the time keeper it relies on,
    src/Xsmp/Services/XsmpTimeKeeper.cpp.

    The run loop is a small-step machine.  One step is the code between two
    points where another thread, or a user entry point, can act.  The labels of
    the machine are chosen by an adversary: they say when the run loop moves,
    when the running user entry point returns, when a hold is requested, when
    the Zulu thread moves, and which API calls are made in between (by the
    running entry point, by a time-change handler or by any other thread). *)
From Verif Require Import Base.

(** ::Smp::Services::TimeKind. *)
Inductive tkind := KSim | KMission | KEpoch | KZulu.

Definition tkind_eqb (a b : tkind) : bool :=
  match a, b with
  | KSim, KSim | KMission, KMission | KEpoch, KEpoch | KZulu, KZulu => true
  | _, _ => false
  end.

(** XsmpScheduler.h, struct Event: the entry point is an opaque number. *)
Record event := Ev {
  ev_ep : Z;          (* entryPoint *)
  ev_next : Z;        (* nextScheduleSimulationTime *)
  ev_time : Z;        (* time *)
  ev_cycle : Z;       (* cycleTime *)
  ev_repeat : Z;      (* repeat *)
  ev_kind : tkind     (* kind *)
}.

(** Data members of XsmpScheduler (XsmpScheduler.h) and of XsmpTimeKeeper
    (XsmpTimeKeeper.h).  EventList is a std::set ordered by the *unsigned* value
    of the id, so ids are kept here as unsigned 64-bit numbers: the only negative
    id of the code, -2, is 2^64-2.  _currentEventId = -1 means "none". *)
Record sched := Sch {
  evs : omap event;          (* _events *)
  tbl : omap (list Z);       (* _events_table *)
  ztbl : omap (list Z);      (* _zulu_events_table *)
  imm : list Z;              (* _immediate_events *)
  last : Z;                  (* _lastEventId *)
  cur : Z;                   (* _currentEventId *)
  hold : bool;               (* _simulationStatus == Status::Hold *)
  now : Z;                   (* XsmpTimeKeeper::_simulationTime *)
  epoch0 : Z;                (* XsmpTimeKeeper::_epochStart *)
  mission0 : Z;              (* XsmpTimeKeeper::_missionStartTime *)
  window : bool              (* XsmpTimeKeeper::_simTimeChanging *)
}.

Definition hold_id : Z := 2 ^ 64 - 2.

(** XsmpScheduler.cpp:71-82 (constructor) with the time keeper's initial values. *)
Definition sched_init : sched :=
  {| evs := [(hold_id, Ev 0 i64_max i64_max 0 0 KSim)];
     tbl := [(i64_max, [hold_id])];
     ztbl := []; imm := []; last := -1; cur := -1; hold := true;
     now := 0; epoch0 := 0; mission0 := 0; window := false |}.

(** XsmpTimeKeeper.cpp:48-50 GetEpochTime, 52-55 GetMissionTime. *)
Definition epoch_time (s : sched) : Z := now s - epoch0 s.
Definition mission_time (s : sched) : Z := now s - epoch0 s - mission0 s.

Definition set_evs (e : omap event) (s : sched) : sched :=
  Sch e (tbl s) (ztbl s) (imm s) (last s) (cur s) (hold s) (now s) (epoch0 s) (mission0 s) (window s).
Definition set_tbl (t : omap (list Z)) (s : sched) : sched :=
  Sch (evs s) t (ztbl s) (imm s) (last s) (cur s) (hold s) (now s) (epoch0 s) (mission0 s) (window s).
Definition set_ztbl (t : omap (list Z)) (s : sched) : sched :=
  Sch (evs s) (tbl s) t (imm s) (last s) (cur s) (hold s) (now s) (epoch0 s) (mission0 s) (window s).
Definition set_imm (l : list Z) (s : sched) : sched :=
  Sch (evs s) (tbl s) (ztbl s) l (last s) (cur s) (hold s) (now s) (epoch0 s) (mission0 s) (window s).
Definition set_last (x : Z) (s : sched) : sched :=
  Sch (evs s) (tbl s) (ztbl s) (imm s) x (cur s) (hold s) (now s) (epoch0 s) (mission0 s) (window s).
Definition set_cur (x : Z) (s : sched) : sched :=
  Sch (evs s) (tbl s) (ztbl s) (imm s) (last s) x (hold s) (now s) (epoch0 s) (mission0 s) (window s).
Definition set_hold (b : bool) (s : sched) : sched :=
  Sch (evs s) (tbl s) (ztbl s) (imm s) (last s) (cur s) b (now s) (epoch0 s) (mission0 s) (window s).
Definition set_now (t : Z) (s : sched) : sched :=
  Sch (evs s) (tbl s) (ztbl s) (imm s) (last s) (cur s) (hold s) t (epoch0 s) (mission0 s) (window s).
Definition set_epoch0 (t : Z) (s : sched) : sched :=
  Sch (evs s) (tbl s) (ztbl s) (imm s) (last s) (cur s) (hold s) (now s) t (mission0 s) (window s).
Definition set_mission0 (t : Z) (s : sched) : sched :=
  Sch (evs s) (tbl s) (ztbl s) (imm s) (last s) (cur s) (hold s) (now s) (epoch0 s) t (window s).
Definition set_window (b : bool) (s : sched) : sched :=
  Sch (evs s) (tbl s) (ztbl s) (imm s) (last s) (cur s) (hold s) (now s) (epoch0 s) (mission0 s) b.

(** Exceptions thrown to the caller of an API function. *)
Inductive exn :=
| InvalidEventTime | InvalidCycleTime | InvalidEventId | InvalidSimulationTime.

(** table[k], reading: the list of k, empty if there is no entry. *)
Definition tget (k : Z) (t : omap (list Z)) : list Z :=
  match mget k t with Some l => l | None => [] end.

(** table.try_emplace(k).first->second.emplace(id) *)
Definition tins (k id : Z) (t : omap (list Z)) : omap (list Z) :=
  mset k (sins id (tget k t)) t.

(** auto &events = table[k]; events.erase(id); if (events.empty()) table.erase(k);
    (XsmpScheduler.cpp:245-251 and 369-375). *)
Definition tdel (k id : Z) (t : omap (list Z)) : omap (list Z) :=
  match sdel id (tget k t) with
  | [] => mdel k t
  | l => mset k l t
  end.

(** The key whose map node is destroyed by [tdel], if any.  An iterator to, or a
    reference into, that node held by the run loop is then dangling. *)
Definition tdel_kills (k id : Z) (t : omap (list Z)) : option Z :=
  match sdel id (tget k t) with [] => Some k | _ => None end.

(** A checked request of AddEvent, between its checks and its critical section. *)
Record addreq := Req {
  r_ep : Z; r_sim : Z; r_time : Z; r_cycle : Z; r_repeat : Z; r_kind : tkind }.

(** API calls.  [z] arguments are the readings of the Zulu clock
    (XsmpTimeKeeper.cpp:57-59 GetZuluTime, the system clock). *)
Inductive cmd :=
| AddImm (ep : Z)
| AddSim (ep t c r : Z)
| AddMission (ep t c r : Z)
| AddEpoch (ep t c r : Z)
| AddZulu (ep t c r z : Z)
| SetSim (id t : Z)
| SetMission (id t : Z)
| SetEpoch (id t : Z)
| SetZulu (id t z : Z)
| SetCycle (id c : Z)
| SetRepeat (id r : Z)
| Remove (id : Z)
| TKSetEpoch (t : Z)
| TKSetMission (t : Z)
| TKSetMissionStart (t : Z)
| TKSetSim (t : Z).

(** Result of an API call: the new state, the returned event id (0 for void) and
    the table node destroyed by the call. *)
Record ret := Ret { r_st : sched; r_id : Z; r_kill : option Z }.

(** XsmpScheduler.cpp:139-151: the checks of AddEvent, done before taking the
    mutex. *)
Definition check_add (s : sched) (q : addreq) : res exn addreq :=
  if r_sim q <? now s then Throw InvalidEventTime
  else if negb (r_repeat q =? 0) && (r_cycle q <=? 0) then Throw InvalidCycleTime
  else Ok q.

(** XsmpScheduler.cpp:168-177 AddSimulationTimeEvent, 179-189 AddMissionTimeEvent,
    191-201 AddEpochTimeEvent: computation of the request.  The additions are
    unchecked signed 64-bit additions, as those of GetEpochTime and GetMissionTime
    (XsmpTimeKeeper.cpp:48-55): overflow is undefined behaviour. *)
Definition build_add (s : sched) (c : cmd) : option (res exn addreq) :=
  match c with
  | AddSim ep t c r =>
      Some (if in_i64 (now s + t) then Ok (Req ep (now s + t) (now s + t) c r KSim) else UB)
  | AddMission ep t c r =>
      Some (if in_i64 (now s + t) && in_i64 (epoch_time s) && in_i64 (mission_time s) && in_i64 (now s + t - mission_time s)
            then Ok (Req ep (now s + t - mission_time s) t c r KMission) else UB)
  | AddEpoch ep t c r =>
      Some (if in_i64 (now s + t) && in_i64 (epoch_time s) && in_i64 (now s + t - epoch_time s)
            then Ok (Req ep (now s + t - epoch_time s) t c r KEpoch) else UB)
  | _ => None
  end.

(** XsmpScheduler.cpp:152-165: the critical section of AddEvent.  ++_lastEventId
    overflows (UB) after 2^63-1 events. *)
Definition commit_add (s : sched) (q : addreq) : res exn ret :=
  if last s <? i64_max then
    let id := last s + 1 in
    Ok {| r_st := set_last id
                    (set_tbl (tins (r_sim q) id (tbl s))
                       (set_evs (mset id (Ev (r_ep q) (r_sim q) (r_time q) (r_cycle q)
                                             (r_repeat q) (r_kind q)) (evs s)) s));
          r_id := id; r_kill := None |}
  else UB.

(** XsmpScheduler.cpp:234-261 SetEventTime. *)
Definition set_event_time (s : sched) (id sim t : Z) (k : tkind) : res exn ret :=
  match mget id (evs s) with
  | None => Throw InvalidEventId
  | Some e =>
      if negb (tkind_eqb (ev_kind e) k) then Throw InvalidEventId
      else
        let t1 := tdel (ev_next e) id (tbl s) in
        let kill := tdel_kills (ev_next e) id (tbl s) in
        if sim <? now s then
          Ok (Ret (set_tbl t1 (set_evs (mdel id (evs s)) s)) 0 kill)
        else
          Ok (Ret (set_tbl (tins sim id t1)
                     (set_evs (mset id (Ev (ev_ep e) sim t (ev_cycle e) (ev_repeat e) (ev_kind e))
                                 (evs s)) s)) 0 kill)
  end.

(** XsmpScheduler.cpp:289-314 SetEventZuluTime: empty entries are kept, `time` is
    not updated. *)
Definition set_event_zulu (s : sched) (id t z : Z) : res exn ret :=
  match mget id (evs s) with
  | None => Throw InvalidEventId
  | Some e =>
      if negb (tkind_eqb (ev_kind e) KZulu) then Throw InvalidEventId
      else
        let z1 := mset (ev_next e) (sdel id (tget (ev_next e) (ztbl s))) (ztbl s) in
        if t <? z then
          Ok (Ret (set_ztbl z1 (set_evs (mdel id (evs s)) s)) 0 None)
        else
          Ok (Ret (set_ztbl (tins t id z1)
                     (set_evs (mset id (Ev (ev_ep e) t (ev_time e) (ev_cycle e) (ev_repeat e) (ev_kind e))
                                 (evs s)) s)) 0 None)
  end.

(** XsmpScheduler.cpp:345-378 RemoveEvent.  Removing a Zulu event that empties its
    Zulu list erases the key from _events_table (l.362), not from
    _zulu_events_table; this is modelled as written. *)
Definition remove_event (s : sched) (id : Z) : res exn ret :=
  match mget id (evs s) with
  | None => Throw InvalidEventId
  | Some e =>
      if cur s =? id then
        Ok (Ret (set_evs (mset id (Ev (ev_ep e) (ev_next e) (ev_time e) (ev_cycle e) 0 (ev_kind e))
                            (evs s)) s) 0 None)
      else if tkind_eqb (ev_kind e) KZulu then
        let l := sdel id (tget (ev_next e) (ztbl s)) in
        let s1 := set_ztbl (mset (ev_next e) l (ztbl s)) (set_evs (mdel id (evs s)) s) in
        match l with
        | [] => Ok (Ret (set_tbl (mdel (ev_next e) (tbl s1)) s1) 0 (Some (ev_next e)))
        | _ => Ok (Ret s1 0 None)
        end
      else
        Ok (Ret (set_tbl (tdel (ev_next e) id (tbl s)) (set_evs (mdel id (evs s)) s)) 0
              (tdel_kills (ev_next e) id (tbl s)))
  end.

(** XsmpScheduler.cpp:385-391 GetNextScheduledEventTime. *)
Definition next_scheduled (s : sched) : Z :=
  match tbl s with (k, _) :: _ => k | [] => i64_max end.

(** XsmpTimeKeeper.cpp:81-93 SetSimulationTime. *)
Definition set_sim_time (s : sched) (t : Z) : res exn sched :=
  if negb (window s) then Ok s
  else if (t <? now s) || (next_scheduled s <? t) then Throw InvalidSimulationTime
  else Ok (set_now t s).

(** All API calls.  References next to each case. *)
Definition api (s : sched) (c : cmd) : res exn ret :=
  match c with
  | AddImm ep =>                                       (* XsmpScheduler.cpp:125-137 *)
      if last s <? i64_max then
        let id := last s + 1 in
        Ok (Ret (set_last id (set_imm (sins id (imm s))
                 (set_evs (mset id (Ev ep (now s) (now s) 0 0 KSim) (evs s)) s))) id None)
      else UB
  | AddSim _ _ _ _ | AddMission _ _ _ _ | AddEpoch _ _ _ _ =>   (* 139-201 *)
      match build_add s c with
      | Some r => bind r (fun q => bind (check_add s q) (commit_add s))
      | None => UB
      end
  | AddZulu ep t c r z =>                              (* 203-232 *)
      if t <? z then Throw InvalidEventTime
      else if negb (r =? 0) && (c <=? 0) then Throw InvalidCycleTime
      else if last s <? i64_max then
        let id := last s + 1 in
        Ok (Ret (set_last id (set_ztbl (tins t id (ztbl s))
                 (set_evs (mset id (Ev ep t t c r KZulu) (evs s)) s))) id None)
      else UB
  | SetSim id t =>                                     (* 263-269 *)
      if in_i64 (now s + t) then set_event_time s id (now s + t) (now s + t) KSim else UB
  | SetMission id t =>                                 (* 271-278 *)
      if in_i64 (now s + t) && in_i64 (epoch_time s) && in_i64 (mission_time s) && in_i64 (now s + t - mission_time s)
      then set_event_time s id (now s + t - mission_time s) t KMission else UB
  | SetEpoch id t =>                                   (* 280-287 *)
      if in_i64 (now s + t) && in_i64 (epoch_time s) && in_i64 (now s + t - epoch_time s)
      then set_event_time s id (now s + t - epoch_time s) t KEpoch else UB
  | SetZulu id t z => set_event_zulu s id t z
  | SetCycle id c =>                                   (* 316-328 *)
      match mget id (evs s) with
      | None => Throw InvalidEventId
      | Some e =>
          if (0 <? ev_repeat e) && (c <=? 0) then Throw InvalidCycleTime
          else Ok (Ret (set_evs (mset id (Ev (ev_ep e) (ev_next e) (ev_time e) c (ev_repeat e) (ev_kind e))
                                   (evs s)) s) 0 None)
      end
  | SetRepeat id r =>                                  (* 330-343 *)
      match mget id (evs s) with
      | None => Throw InvalidEventId
      | Some e =>
          if negb (r =? 0) && (ev_cycle e <=? 0) then Throw InvalidCycleTime
          else Ok (Ret (set_evs (mset id (Ev (ev_ep e) (ev_next e) (ev_time e) (ev_cycle e) r (ev_kind e))
                                   (evs s)) s) 0 None)
      end
  | Remove id => remove_event s id
  | TKSetEpoch t =>                                    (* XsmpTimeKeeper.cpp:61-65 *)
      if in_i64 (now s - t) then Ok (Ret (set_epoch0 (now s - t) s) 0 None) else UB
  | TKSetMissionStart t =>                             (* XsmpTimeKeeper.cpp:67-71 *)
      Ok (Ret (set_mission0 t s) 0 None)
  | TKSetMission t =>                                  (* XsmpTimeKeeper.cpp:73-79 *)
      if in_i64 (now s - epoch0 s) && in_i64 (now s - epoch0 s - t)
      then Ok (Ret (set_mission0 (now s - epoch0 s - t) s) 0 None) else UB
  | TKSetSim t => bind (set_sim_time s t) (fun s' => Ok (Ret s' 0 None))
  end.

(** Where ExecuteImmediateEvents returns to: its caller in _EnterExecuting before
    the loop (l.606), in the loop after the time change (l.655), or ExecuteEvents
    (l.486) with the rest of the batch of key K. *)
Inductive back :=
| BStart
| BPost (K : Z)
| BEvt (K : Z) (rest : list Z).

(** Why a run ended abnormally. *)
Inductive death :=
| DOverflow     (* signed overflow, or event ids exhausted: undefined behaviour *)
| DDangling     (* use of a destroyed map node or event record: undefined behaviour *)
| DAt           (* std::out_of_range from _events.at(id), l.397, escapes _EnterExecuting *)
| DSimTime      (* InvalidSimulationTime escapes _EnterExecuting, l.647 *)
| DZuluAt.      (* std::out_of_range from _events.at(id), l.443: std::terminate *)

(** Control of the simulation thread.  In [ImmRun] and [EvtRun] the user entry point
    of the event is running (and _execMutex is held, l.412).  [ImmGo rest b] and
    [EvtGo K rest] are inside the for loops of ExecuteImmediateEvents and
    ExecuteEvents with [rest] still to do; an empty [rest] is the while test.
    [Pre]: SMP_PreSimTimeChange handlers run (l.623).  [Wait]: waiting for the real
    time (l.640-650).  [Post]: SMP_PostSimTimeChange handlers run (l.651). *)
Inductive ctrl :=
| Idle
| ImmGo (rest : list Z) (b : back)
| ImmRun (id : Z) (rest : list Z) (b : back)
| Pre (K : Z)
| Wait (K : Z)
| Post (K : Z)
| EvtGo (K : Z) (rest : list Z)
| EvtRun (id K : Z) (rest : list Z)
| Dead (d : death).

(** Control of the Zulu thread (InternalZuluRun, l.514-570). *)
Inductive zctrl :=
| ZWait
| ZGo (K : Z) (rest : list Z)
| ZRun (id K : Z) (rest : list Z).

(** Ghost trace, newest first: what a user can observe. *)
Inductive tev :=
| TAdd (id : Z) (k : tkind) (im : bool) (t c r : Z)
    (* an Add*Event call returned id; t: simulation time (Zulu time for KZulu) *)
| TPostImm (id : Z)                 (* AddImmediateEvent while a simulation entry point runs *)
| TSetTime (id t n : Z)             (* SetEvent*Time(id) to t returned; n: the time it was compared to *)
| TCycle (id c : Z)                 (* SetEventCycleTime(id, c) returned *)
| TRepeat (id r : Z)                (* SetEventRepeat(id, r) returned *)
| TRemove (id : Z)                  (* RemoveEvent(id) returned *)
| TStart (id t : Z) (im : bool)     (* entry point started at simulation time t *)
| TEnd (id : Z)                     (* entry point ended *)
| TSkip (id : Z)                    (* occurrence skipped: its epoch or mission time is over,
                                       or the state excludes Zulu events *)
| TTime (t : Z)                     (* the simulation time was set to t *)
| TZulu (id t z : Z).               (* Zulu event scheduled for t started at clock z *)

Record mach := M {
  sc : sched;
  ctl : ctrl;
  zc : zctrl;
  zclock : Z;              (* last reading of the Zulu clock by the Zulu thread *)
  dang : bool;             (* ghost: the run loop's iterator `it` is dangling *)
  pend : list addreq;      (* calls of AddEvent between checks and critical section *)
  tr : list tev
}.

Definition mach_init : mach :=
  {| sc := sched_init; ctl := Idle; zc := ZWait; zclock := 0; dang := false; pend := []; tr := [] |}.

Inductive label :=
| LRun                      (* _EnterExecuting is called *)
| LTau                      (* the simulation thread moves *)
| LTimeout                  (* the simulation thread leaves the wait of l.640 (or skips it) *)
| LEnd                      (* the running simulation entry point returns (or throws:
                               Helper.cpp:55-96 SafeExecute catches) *)
| LHold                     (* _LeaveExecuting is called *)
| LCall (c : cmd)           (* an API call by anyone *)
| LBegin (c : cmd)          (* another thread runs the checks of an Add*Event ... *)
| LCommit (n : nat)         (* ... and later its critical section *)
| LZTick (z : Z)            (* the Zulu thread reads the clock *)
| LZTau (ok : bool)         (* the Zulu thread moves; ok: state is Executing or Standby *)
| LZEnd.                    (* the running Zulu entry point returns *)

(** The key of the table entry the run loop holds an iterator to. *)
Definition ctl_key (c : ctrl) : option Z :=
  match c with
  | Pre K | Wait K | Post K | EvtGo K _ | EvtRun _ K _ => Some K
  | ImmGo _ b | ImmRun _ _ b =>
      match b with BStart => None | BPost K | BEvt K _ => Some K end
  | Idle | Dead _ => None
  end.

Definition sim_ep_running (c : ctrl) : bool :=
  match c with ImmRun _ _ _ | EvtRun _ _ _ => true | _ => false end.

Definition die (m : mach) (d : death) : mach :=
  {| sc := sc m; ctl := Dead d; zc := zc m; zclock := zclock m; dang := dang m; pend := pend m; tr := tr m |}.

Definition goto (m : mach) (s : sched) (c : ctrl) : mach :=
  {| sc := s; ctl := c; zc := zc m; zclock := zclock m; dang := dang m; pend := pend m; tr := tr m |}.

Definition log (m : mach) (t : tev) : mach :=
  {| sc := sc m; ctl := ctl m; zc := zc m; zclock := zclock m; dang := dang m; pend := pend m; tr := t :: tr m |}.

Definition set_dang (m : mach) (b : bool) : mach :=
  {| sc := sc m; ctl := ctl m; zc := zc m; zclock := zclock m; dang := b; pend := pend m; tr := tr m |}.

(** XsmpScheduler.cpp:399-410: skip test of Execute. *)
Definition skips (s : sched) (e : event) : bool :=
  match ev_kind e with
  | KEpoch => ev_time e <? epoch_time s
  | KMission => ev_time e <? mission_time s
  | _ => false
  end.

(** XsmpScheduler.cpp:420-436: end of Execute.  [event] is a reference obtained
    before the entry point ran: if the record is gone its use is undefined.
    The additions are signed 64-bit. *)
Definition finish (s : sched) (id : Z) : death + sched :=
  match mget id (evs s) with
  | None => inl DDangling
  | Some e =>
      if ev_repeat e =? 0 then inr (set_evs (mdel id (evs s)) s)
      else
        let n := ev_next e + ev_cycle e in
        let t := ev_time e + ev_cycle e in
        if in_i64 n && in_i64 t then
          let r := if 0 <? ev_repeat e then ev_repeat e - 1 else ev_repeat e in
          inr (set_tbl (tins n id (tbl s))
                 (set_evs (mset id (Ev (ev_ep e) n t (ev_cycle e) r (ev_kind e)) (evs s)) s))
        else inl DOverflow
  end.

(** XsmpScheduler.cpp:455-472: end of ExecuteZulu. *)
Definition zfinish (s : sched) (id : Z) : death + sched :=
  match mget id (evs s) with
  | None => inl DDangling
  | Some e =>
      if ev_repeat e =? 0 then inr (set_evs (mdel id (evs s)) s)
      else
        let n := ev_next e + ev_cycle e in
        if in_i64 n then
          let r := if 0 <? ev_repeat e then ev_repeat e - 1 else ev_repeat e in
          inr (set_ztbl (tins n id (ztbl s))
                 (set_evs (mset id (Ev (ev_ep e) n (ev_time e) (ev_cycle e) r (ev_kind e)) (evs s)) s))
        else inl DOverflow
  end.

(** The first key strictly after K: _events_table.erase(it) returns the iterator
    to the following element (l.616). *)
Fixpoint next_key (K : Z) (t : omap (list Z)) : option Z :=
  match t with
  | [] => None
  | (k, _) :: r => if K <? k then Some k else next_key K r
  end.

(** Top of the for loop of _EnterExecuting with iterator at [o]: l.615-624.  The
    Emit of SMP_PreSimTimeChange runs the time keeper's handler
    (XsmpTimeKeeper.cpp:106), which opens the window; other handlers act as calls
    in state [Pre]. *)
Definition loop_head (m : mach) (s : sched) (o : option Z) : mach :=
  match o with
  | None => goto (set_dang m false) s Idle
  | Some K => goto (set_dang m false) (set_window true s) (Pre K)
  end.

(** Return of ExecuteImmediateEvents with true. *)
Definition imm_return (m : mach) (s : sched) (b : back) : mach :=
  match b with
  | BStart => loop_head m s (match tbl s with (k, _) :: _ => Some k | [] => None end)
  | BPost K => goto m s (EvtGo K [])
  | BEvt K rest => goto m s (EvtGo K rest)
  end.

(** ExecuteEvents stores the not executed events and returns false (l.487-490);
    then _EnterExecuting returns.  `events` is a reference into the table node. *)
Definition stop_events (m : mach) (s : sched) (K : Z) (rest : list Z) : mach :=
  if dang m then die m DDangling
  else goto m (set_tbl (mset K (sins_all rest (tget K (tbl s))) (tbl s)) s) Idle.

(** ExecuteImmediateEvents stores the not executed events and returns false
    (l.504-508); then its caller returns. *)
Definition stop_imm (m : mach) (s : sched) (rest : list Z) (b : back) : mach :=
  let s1 := set_imm (sins_all rest (imm s)) s in
  match b with
  | BStart | BPost _ => goto m s1 Idle
  | BEvt K r => stop_events m s1 K r
  end.

(** After Execute(id) in ExecuteImmediateEvents (l.501-508). *)
Definition after_imm (m : mach) (s : sched) (rest : list Z) (b : back) : mach :=
  if hold s then stop_imm m s rest b else goto m s (ImmGo rest b).

(** After Execute(id) in ExecuteEvents (l.484-490). *)
Definition after_evt (m : mach) (s : sched) (K : Z) (rest : list Z) : mach :=
  if hold s then stop_events m s K rest else goto m s (ImmGo [] (BEvt K rest)).

Definition zulu_running (m : mach) : bool :=
  match zc m with ZRun _ _ _ => true | _ => false end.

(** One move of the simulation thread. *)
Definition tau (m : mach) : mach :=
  let s := sc m in
  match ctl m with
  | ImmGo [] b =>                                             (* l.496 *)
      match imm s with
      | [] => imm_return m s b
      | l => goto m (set_imm [] s) (ImmGo l b)                (* l.498-499 *)
      end
  | ImmGo (id :: rest) b =>                                   (* l.502, 393-418 *)
      match mget id (evs s) with
      | None => die m DAt
      | Some e =>
          if skips s e then
            match finish s id with
            | inl d => die m d
            | inr s' => after_imm (log m (TSkip id)) s' rest b
            end
          else if zulu_running m then m                       (* blocked on _execMutex *)
          else log (goto m (set_cur id s) (ImmRun id rest b)) (TStart id (now s) true)
      end
  | Pre K =>                                                  (* l.626-629 *)
      if hold s then goto m s Idle
      else if dang m then die m DDangling
      else goto m s (Wait K)
  | Wait K => if hold s then goto m s Idle else m             (* l.642-648 *)
  | Post K => goto m s (ImmGo [] (BPost K))                   (* l.655 *)
  | EvtGo K [] =>                                             (* l.478-481 *)
      if dang m then die m DDangling
      else match tget K (tbl s) with
           | [] => loop_head m (set_tbl (mdel K (tbl s)) s) (next_key K (tbl s))   (* l.616 *)
           | l => goto m (set_tbl (mset K [] (tbl s)) s) (EvtGo K l)
           end
  | EvtGo K (id :: rest) =>                                   (* l.483 *)
      match mget id (evs s) with
      | None => die m DAt
      | Some e =>
          if skips s e then
            match finish s id with
            | inl d => die m d
            | inr s' => after_evt (log m (TSkip id)) s' K rest
            end
          else if zulu_running m then m
          else log (goto m (set_cur id s) (EvtRun id K rest)) (TStart id (now s) false)
      end
  | Idle | ImmRun _ _ _ | EvtRun _ _ _ | Dead _ => m
  end.

(** Leaving the wait: l.646-651, SetSimulationTime(it->first) and the Emit of
    SMP_PostSimTimeChange, whose time keeper handler closes the window
    (XsmpTimeKeeper.cpp:107). *)
Definition timeout (m : mach) : mach :=
  match ctl m with
  | Wait K =>
      if dang m then die m DDangling
      else match set_sim_time (sc m) K with
           | Ok s' => log (goto m (set_window false s') (Post K)) (TTime (now s'))
           | Throw _ => die m DSimTime
           | UB => die m DOverflow
           end
  | _ => m
  end.

(** The entry point of the running event returns. *)
Definition end_ep (m : mach) : mach :=
  match ctl m with
  | ImmRun id rest b =>
      match finish (set_cur (-1) (sc m)) id with
      | inl d => die m d
      | inr s' => after_imm (log m (TEnd id)) s' rest b
      end
  | EvtRun id K rest =>
      match finish (set_cur (-1) (sc m)) id with
      | inl d => die m d
      | inr s' => after_evt (log m (TEnd id)) s' K rest
      end
  | _ => m
  end.

Definition ret_log (m : mach) (c : cmd) (r : ret) : list tev :=
  let s := sc m in
  match c with
  | AddImm _ =>
      let a := TAdd (r_id r) KSim true (now s) 0 0 in
      if sim_ep_running (ctl m) then [TPostImm (r_id r); a] else [a]
  | AddSim _ t c n => [TAdd (r_id r) KSim false (now s + t) c n]
  | AddMission _ t c n => [TAdd (r_id r) KMission false (now s + t - mission_time s) c n]
  | AddEpoch _ t c n => [TAdd (r_id r) KEpoch false (now s + t - epoch_time s) c n]
  | AddZulu _ t c n _ => [TAdd (r_id r) KZulu false t c n]
  | SetSim id t => [TSetTime id (now s + t) (now s)]
  | SetMission id t => [TSetTime id (now s + t - mission_time s) (now s)]
  | SetEpoch id t => [TSetTime id (now s + t - epoch_time s) (now s)]
  | SetZulu id t z => [TSetTime id t z]
  | SetCycle id c => [TCycle id c]
  | SetRepeat id n => [TRepeat id n]
  | Remove x => [TRemove x]
  | TKSetSim _ => [TTime (now (r_st r))]
  | TKSetEpoch _ | TKSetMission _ | TKSetMissionStart _ => []
  end.

(** State after a successful call: the run loop's iterator dangles if its node was
    destroyed. *)
Definition after_call (m : mach) (c : cmd) (r : ret) : mach :=
  {| sc := r_st r; ctl := ctl m; zc := zc m; zclock := zclock m;
     dang := dang m || match r_kill r, ctl_key (ctl m) with
                       | Some k, Some K => k =? K
                       | _, _ => false
                       end;
     pend := pend m;
     tr := ret_log m c r ++ tr m |}.

(** An API call by anyone at any time.  An exception goes to the caller. *)
Definition call (m : mach) (c : cmd) : mach :=
  match api (sc m) c with
  | Ok r => after_call m c r
  | Throw _ => m
  | UB => die m DOverflow
  end.

Fixpoint remove_nth {A} (n : nat) (l : list A) : list A :=
  match n, l with
  | _, [] => []
  | O, _ :: r => r
  | S n, x :: r => x :: remove_nth n r
  end.

Definition set_pend (m : mach) (p : list addreq) : mach :=
  {| sc := sc m; ctl := ctl m; zc := zc m; zclock := zclock m; dang := dang m; pend := p; tr := tr m |}.

(** First half of an Add*Event made by another thread. *)
Definition begin_add (m : mach) (c : cmd) : mach :=
  match build_add (sc m) c with
  | None => m
  | Some (Ok q) =>
      match check_add (sc m) q with
      | Ok q => set_pend m (pend m ++ [q])
      | _ => m
      end
  | Some (Throw _) => m
  | Some UB => die m DOverflow
  end.

(** Second half. *)
Definition commit (m : mach) (n : nat) : mach :=
  match nth_error (pend m) n with
  | None => m
  | Some q =>
      match commit_add (sc m) q with
      | Ok r => log (set_pend (goto m (r_st r) (ctl m)) (remove_nth n (pend m))) (TAdd (r_id r) (r_kind q) false (r_sim q) (r_cycle q) (r_repeat q))
      | Throw _ => m
      | UB => die m DOverflow
      end
  end.

Definition zgoto (m : mach) (s : sched) (z : zctrl) : mach :=
  {| sc := s; ctl := ctl m; zc := z; zclock := zclock m; dang := dang m; pend := pend m; tr := tr m |}.

(** InternalZuluRun l.521-533: the first entry, if due at the clock reading [z], is
    swapped out.  [ZGo K []] is the while test of l.526. *)
Definition ztick (m : mach) (z : Z) : mach :=
  match zc m with
  | ZWait =>
      match ztbl (sc m) with
      | (K, _) :: _ =>
          if K <=? z then
            {| sc := sc m; ctl := ctl m; zc := ZGo K []; zclock := z; dang := dang m;
               pend := pend m; tr := tr m |}
          else m
      | [] => m
      end
  | _ => m
  end.

(** One move of the Zulu thread: l.526-548 and ExecuteZulu l.439-453. *)
Definition ztau (m : mach) (ok : bool) : mach :=
  let s := sc m in
  match zc m with
  | ZGo K [] =>
      match tget K (ztbl s) with
      | [] => zgoto m (set_ztbl (mdel K (ztbl s)) s) ZWait
      | l => zgoto m (set_ztbl (mset K [] (ztbl s)) s) (ZGo K l)
      end
  | ZGo K (id :: rest) =>
      match mget id (evs s) with
      | None => die m DZuluAt
      | Some e =>
          if negb ok then
            match zfinish s id with
            | inl d => die m d
            | inr s' => zgoto (log m (TSkip id)) s' (ZGo K rest)
            end
          else if sim_ep_running (ctl m) then m       (* blocked on _execMutex *)
          else log (zgoto m (set_cur id s) (ZRun id K rest)) (TZulu id (ev_next e) (zclock m))
      end
  | _ => m
  end.

Definition zend (m : mach) : mach :=
  match zc m with
  | ZRun id K rest =>
      match zfinish (set_cur (-1) (sc m)) id with
      | inl d => die m d
      | inr s' => zgoto (log m (TEnd id)) s' (ZGo K rest)
      end
  | _ => m
  end.

(** One step of the machine.  Nothing happens after an abnormal end.  The sleep of
    _EnterExecuting, the speed and load statistics (l.595-603, 630-639) do not
    influence the state and are not modelled; the unsynchronised reads of
    _immediate_events and _simulationStatus are taken to be atomic. *)
Definition mstep (m : mach) (l : label) : mach :=
  match ctl m with
  | Dead _ => m
  | _ =>
      match l with
      | LRun =>                                               (* l.592-606 *)
          match ctl m with
          | Idle => goto m (set_hold false (sc m)) (ImmGo [] BStart)
          | _ => m
          end
      | LTau => tau m
      | LTimeout => timeout m
      | LEnd => end_ep m
      | LHold => goto m (set_hold true (sc m)) (ctl m)        (* l.584-590 *)
      | LCall c => call m c
      | LBegin c => begin_add m c
      | LCommit n => commit m n
      | LZTick z => ztick m z
      | LZTau ok => ztau m ok
      | LZEnd => zend m
      end
  end.

Definition run (ls : list label) : mach := fold_left mstep ls mach_init.
