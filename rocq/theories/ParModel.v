(** Run and Hold called by several threads: src/Xsmp/Simulator.cpp and the parts of
    src/Xsmp/Services/XsmpScheduler.cpp they reach.

    Any number of threads, each with a list of calls of Run() and Hold(true) to make.  A
    step is one access of one thread to a variable that they share.  Simplified: the
    accesses are sequentially consistent ([_state] and [_lastGlobalEventId] are plain
    variables, so that the C++ standard does not promise even this); the other subscribers
    of the global events do not call the simulator; there is a logger or none, which does
    not matter; entry points return; the end of time (2^63-1 ns), where the last event of
    the scheduler holds the simulation, is not reached. *)
From Coq Require Import List Bool Arith.
Import ListNotations.

(** The values of [_state] that matter here: Standby and Executing. *)
Inductive sstate := Standby | Executing.

(** The values of [_lastGlobalEventId] that are compared with; None is -1. *)
Inductive gev := LeaveStandby | EnterExecuting | LeaveExecuting | EnterStandby.
Definition gev_eqb (a b : gev) : bool :=
  match a, b with
  | LeaveStandby, LeaveStandby | EnterExecuting, EnterExecuting | LeaveExecuting, LeaveExecuting
  | EnterStandby, EnterStandby => true
  | _, _ => false
  end.
Definition is_last (g : option gev) (e : gev) : bool :=
  match g with Some x => gev_eqb x e | None => false end.

Inductive call := CRun | CHold.

(** Where a thread is in Hold(true): Simulator.cpp:331-358. *)
Inductive hpc :=
| HReadState        (* l.333 _state != SSK_Executing *)
| HReadLast         (* l.334-335 *)
| HLeave            (* l.347 EmitGlobalEvent(SMP_LeaveExecutingId): l.249 *)
| HStatus           (* ... XsmpScheduler.cpp:584-590 _LeaveExecuting *)
| HLeft             (* ... Simulator.cpp:253 *)
| HState            (* l.349 _state = SSK_Standby *)
| HEnter            (* l.351 EmitGlobalEvent(SMP_EnterStandbyId): l.249 *)
| HEntered.         (* ... l.253 *)

(** Where it is in Run(): Simulator.cpp:284-303; the run loop is XsmpScheduler.cpp:592-665. *)
Inductive rpc :=
| RReadState        (* l.286 *)
| RReadLast1        (* l.287-288 *)
| RReadLast2        (* l.289-290 *)
| RLeave            (* l.299 EmitGlobalEvent(SMP_LeaveStandbyId): l.249 *)
| RLeft             (* ... l.253 *)
| RState            (* l.301 _state = SSK_Executing *)
| REnter            (* l.303 EmitGlobalEvent(SMP_EnterExecutingId): l.249 *)
| RStart            (* XsmpScheduler.cpp:597 _simulationStatus = Status::Running *)
| RCheck            (* the loop is about to read the status: l.485, 504, 620, 643 *)
| RExec             (* the loop is about to execute an event: l.483, 501 *)
| RInHold (h : hpc) (* an entry point executed by the loop calls Hold(true) *)
| REnd.             (* Simulator.cpp:253 *)

Inductive pc := Idle | InRun (r : rpc) | InHold (h : hpc).
Record thread := Thread { at_ : pc; todo : list call }.

(** [held] is [_simulationStatus == Status::Hold]. *)
Record config := Config { st : sstate; lastg : option gev; held : bool; threads : nat -> thread }.

(** One step of Hold: the new shared variables and what follows; None: the call returns. *)
Definition hold_step (s : sstate) (g : option gev) (h : bool) (p : hpc) : sstate * option gev * bool * option hpc :=
  match p with
  | HReadState => (s, g, h, match s with Executing => Some HReadLast | Standby => None end)
  | HReadLast => (s, g, h, if is_last g LeaveExecuting then None else Some HLeave)
  | HLeave => (s, Some LeaveExecuting, h, Some HStatus)
  | HStatus => (s, g, true, Some HLeft)
  | HLeft => (s, None, h, Some HState)
  | HState => (Standby, g, h, Some HEnter)
  | HEnter => (s, Some EnterStandby, h, Some HEntered)
  | HEntered => (s, None, h, None)
  end.

(** One step of Run; None: the call returns.  [calls]: the event that is executed calls
    Hold(true); at the start of the loop, that immediate events are pending, the first of
    which is executed without a check (l.605, 492-501). *)
Definition run_step (calls : bool) (s : sstate) (g : option gev) (h : bool) (p : rpc) : sstate * option gev * bool * option rpc :=
  match p with
  | RReadState => (s, g, h, match s with Standby => Some RReadLast1 | Executing => None end)
  | RReadLast1 => (s, g, h, if is_last g LeaveStandby then None else Some RReadLast2)
  | RReadLast2 => (s, g, h, if is_last g EnterStandby then None else Some RLeave)
  | RLeave => (s, Some LeaveStandby, h, Some RLeft)
  | RLeft => (s, None, h, Some RState)
  | RState => (Executing, g, h, Some REnter)
  | REnter => (s, Some EnterExecuting, h, Some RStart)
  | RStart => (s, g, false, Some (if calls then RExec else RCheck))
  | RCheck => (s, g, h, if h then Some REnd else Some RExec)
  | RExec => (s, g, h, Some (if calls then RInHold HReadState else RCheck))
  | RInHold p => let '(s', g', h', q) := hold_step s g h p in
      (s', g', h', Some (match q with Some q => RInHold q | None => RCheck end))
  | REnd => (s, None, h, None)
  end.

(** What can be observed of a step. *)
Inductive obs := Nothing | Called (c : call) | Executed | HoldTaken | Returned.

Definition set_thread (i : nat) (t : thread) (f : nat -> thread) : nat -> thread :=
  fun j => if Nat.eqb j i then t else f j.

(** One step of thread [i]. *)
Definition step (c : config) (i : nat) (calls : bool) : config * obs :=
  let t := threads c i in
  match at_ t with
  | Idle =>
      match todo t with
      | [] => (c, Nothing)
      | CRun :: r => (Config (st c) (lastg c) (held c) (set_thread i (Thread (InRun RReadState) r) (threads c)), Called CRun)
      | CHold :: r => (Config (st c) (lastg c) (held c) (set_thread i (Thread (InHold HReadState) r) (threads c)), Called CHold)
      end
  | InRun p =>
      let '(s', g', h', q) := run_step calls (st c) (lastg c) (held c) p in
      (Config s' g' h' (set_thread i (Thread (match q with Some q => InRun q | None => Idle end) (todo t)) (threads c)),
       match p, q with RExec, _ => Executed | RInHold HStatus, _ => HoldTaken | _, None => Returned | _, _ => Nothing end)
  | InHold p =>
      let '(s', g', h', q) := hold_step (st c) (lastg c) (held c) p in
      (Config s' g' h' (set_thread i (Thread (match q with Some q => InHold q | None => Idle end) (todo t)) (threads c)),
       match p, q with HStatus, _ => HoldTaken | _, None => Returned | _, _ => Nothing end)
  end.

(** A schedule: which thread makes the next step. *)
Fixpoint run (c : config) (l : list (nat * bool)) : config * list (nat * obs) :=
  match l with
  | [] => (c, [])
  | (i, b) :: r => let '(c1, o) := step c i b in let '(c2, os) := run c1 r in (c2, (i, o) :: os)
  end.

(** A connected simulator that rests (Simulator.cpp:242-245), and its users. *)
Definition start (calls : nat -> list call) : config :=
  Config Standby None true (fun i => Thread Idle (calls i)).
