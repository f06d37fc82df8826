(** Running the simulation for a duration: Simulator::Run(Duration)
    (src/Xsmp/Simulator.cpp:306-329) and the Run of the Python binding
    (src/python/Smp/ISimulatorBinding.h:80-109), on the machine of SchedModel.v.

    Both post a local entry point that calls Hold(false) as a simulation event
    [duration] nanoseconds later and call Run().  Hold(false)
    (Simulator.cpp:331-359) only subscribes an entry point to PreSimTimeChange; the
    next emission of that event unsubscribes it and calls Hold(true)
    (Simulator.cpp:66-73), which makes the scheduler leave its loop. *)
From Verif Require Import Base SchedModel.

(** What happens to the machine when it is offered label [l] while a subscription of
    the deferred hold may be pending ([later]), [h] being the event that calls
    Hold(false).
    - Simulator.cpp:324: when the entry point of [h] ends the subscription exists.
    - Simulator.cpp:66-73: the handlers of PreSimTimeChange run in state [Pre]; the
      subscribed one calls Hold(true), that is, label LHold, before the loop goes on
      (LTau).  Handlers subscribed after it would act between LHold and LTau; the
      calls of a handler do not read the hold flag, so that they are represented by
      labels before this one.  EmitGlobalEvent inside Hold(true) likewise. *)
Definition react (h : Z) (m : mach) (later : bool) (l : label) : list label * bool :=
  match l, ctl m with
  | LTau, Pre _ => if later then ([LHold; LTau], false) else ([LTau], later)
  | LEnd, ImmRun id _ _ | LEnd, EvtRun id _ _ => ([LEnd], if id =? h then true else later)
  | _, _ => ([l], later)
  end.

(** One step of the simulator with its deferred hold. *)
Definition tstep (h : Z) (p : mach * bool) (l : label) : mach * bool :=
  let '(ls, later) := react h (fst p) (snd p) l in (fold_left mstep ls (fst p), later).

Definition trun (h : Z) (p : mach * bool) (us : list label) : mach * bool := fold_left (tstep h) us p.

(** Simulator.cpp:306-329 in state Standby (C56, C60 are about the other states):
    AddSimulationTimeEvent(&hold, duration) with the default cycle time 0 and
    repeat 0; an exception of it leaves Run(Duration) before Run() is called
    (l.325-328).  [ep] stands for the address of the local entry point. *)
Definition start_timed (m : mach) (ep d : Z) : mach :=
  match api (sc m) (AddSim ep d 0 0) with
  | Throw _ => m
  | _ => mstep (mstep m (LCall (AddSim ep d 0 0))) LRun
  end.

(** The event posted for the local entry point (XsmpScheduler.cpp:152). *)
Definition hold_event (m : mach) : Z := last (sc m) + 1.
