(** Model of the simulator's state machine, src/Xsmp/Simulator.{h,cpp}.

    A command that the simulator executes is a frame: the instructions that its C++
    function still has to perform.  Whenever a command hands control to user code (the
    subscribers of a global event, the initialisation entry points, the components and
    the storage) the environment decides what happens: it may call any command of the
    simulator (a new frame on the stack), return, or throw.  A history is a list of such
    decisions, interleaved with the steps of the simulator itself.

    Simplifications: one thread; AddModel, AddService, factories, libraries and the
    publication of components are not part of this machine; the state of the components
    visited by Connect etc. is not recorded (see CmpModel.v).  An exception thrown by a
    subscriber of a global event is caught by SafeExecute (Helper.cpp:55-96), which calls
    Abort: it is the environment calling Abort before it returns. *)
From Verif Require Import Base.

(** Smp/SimulatorStateKind.h. *)
Inductive sst := Building | Connecting | Initialising | Standby | Executing | Storing
               | Restoring | Reconnecting | Exiting | Aborting.

(** The global events about the state of the simulator, Smp/Services/IEventManager.h.
    LeaveReconnecting is never emitted. *)
Inductive gev := LeaveConnecting | EnterInitialising | LeaveInitialising | EnterStandby | LeaveStandby
               | EnterExecuting | LeaveExecuting | EnterStoring | LeaveStoring | EnterRestoring
               | LeaveRestoring | EnterReconnecting | LeaveReconnecting | EnterExiting | EnterAborting.

(** The state commands of ISimulator.  [CPre]: the scheduler emits PreSimTimeChange. *)
Inductive cmd := CPublish | CConfigure | CConnect | CInitialise | CRun | CHold | CHoldLater | CPre
               | CStore | CRestore | CReconnect | CExit | CAbort.

Inductive instr :=
| IState (s : sst)        (* _state = s *)
| IEmit (e : gev)         (* EmitGlobalEvent, Simulator.cpp:248-254: _lastGlobalEventId = e; Emit(e) *)
| IClear                  (* ... _lastGlobalEventId = -1 *)
| IUser (throws : bool)   (* user code is running; may it end with an exception? *)
| IInit                   (* swap the initialisation entry points and execute them *)
| IExec (p : Z).          (* entryPoint->Execute() *)

Record sim := Sim {
  s_st : sst;                          (* Simulator.h _state *)
  s_last : option gev;                 (* _lastGlobalEventId *)
  s_init : list Z;                     (* _initEntryPoints *)
  s_later : bool;                      (* _holdImmediately is subscribed to PreSimTimeChange *)
  s_stack : list (cmd * list instr);   (* the C++ call stack, innermost first *)
}.
Definition sim_init : sim := Sim Building None [] false [].

Definition is_standby (s : sst) := match s with Standby => true | _ => false end.
Definition is_building (s : sst) := match s with Building => true | _ => false end.
Definition is_executing (s : sst) := match s with Executing => true | _ => false end.
Definition last_is (e : gev) (l : option gev) : bool :=
  match e, l with
  | LeaveStandby, Some LeaveStandby => true
  | EnterStandby, Some EnterStandby => true
  | LeaveExecuting, Some LeaveExecuting => true
  | _, _ => false
  end.

(** The guard at the beginning of each command. *)
Definition guard (c : cmd) (s : sst) (l : option gev) : bool :=
  match c with
  | CPublish | CConfigure | CConnect => is_building s       (* Simulator.cpp:167, 186, 208 *)
  | CInitialise | CStore | CRestore | CReconnect | CExit =>
      is_standby s && negb (last_is LeaveStandby l)         (* :258-260, 396-398, 460-462, 487-489, 521-523 *)
  | CRun => is_standby s && negb (last_is LeaveStandby l) && negb (last_is EnterStandby l)  (* :286-290 *)
  | CHold | CHoldLater => is_executing s && negb (last_is LeaveExecuting l)                 (* :333-335 *)
  | CPre | CAbort => true
  end.

(** The instructions of each command once its guard has passed. *)
Definition hold_body : list instr :=   (* Simulator.cpp:345-351 *)
  [IEmit LeaveExecuting; IState Standby; IEmit EnterStandby].
Definition init_body : list instr :=   (* Simulator.cpp:233-246, 271-283 *)
  [IState Initialising; IEmit EnterInitialising; IInit; IEmit LeaveInitialising; IState Standby; IEmit EnterStandby].
Definition body (c : cmd) : list instr :=
  match c with
  | CPublish | CConfigure => [IUser true]                                        (* 177-181, 196-203 *)
  | CConnect => IState Connecting :: IUser true :: IEmit LeaveConnecting :: init_body   (* 217-246 *)
  | CInitialise => IEmit LeaveStandby :: init_body                               (* 269-283 *)
  | CRun => [IEmit LeaveStandby; IState Executing; IEmit EnterExecuting]         (* 299-303 *)
  | CHold => hold_body
  | CHoldLater => []                                                             (* 352-358 *)
  | CPre => []
  | CStore => [IEmit LeaveStandby; IState Storing; IEmit EnterStoring; IUser true; IEmit LeaveStoring;
               IState Standby; IEmit EnterStandby]                               (* 407-420 *)
  | CRestore => [IEmit LeaveStandby; IState Restoring; IEmit EnterRestoring; IUser true; IEmit LeaveRestoring;
                 IState Standby; IEmit EnterStandby]                             (* 471-483 *)
  | CReconnect => [IEmit LeaveStandby; IState Reconnecting; IEmit EnterReconnecting; IUser true;
                   IState Standby; IEmit EnterStandby]                           (* 498-517 *)
  | CExit => [IEmit LeaveStandby; IState Exiting; IEmit EnterExiting; IUser true]     (* 533-543 *)
  | CAbort => [IEmit EnterAborting; IState Aborting]                             (* 547-548 *)
  end.

(** What an observer sees. *)
Inductive sev :=
| EvCall (c : cmd)          (* the command is called and accepted *)
| EvIgnored (c : cmd)       (* it is called and ignored with a warning *)
| EvReturn (c : cmd)
| EvThrow (c : cmd)         (* the command is left by an exception *)
| EvState (s : sst)
| EvEmit (e : gev)
| EvExec (p : Z)            (* an initialisation entry point is executed *)
| EvAdd (p : Z)             (* AddInitEntryPoint, accepted *)
| EvRefused (p : Z).        (* AddInitEntryPoint, ignored *)

Inductive label :=
| LCall (c : cmd)           (* user code calls a command *)
| LAddInit (p : Z)          (* user code calls AddInitEntryPoint *)
| LRet                      (* the running user code returns *)
| LThrow                    (* the running user code throws *)
| LStep.                    (* the simulator performs its next instruction *)

(** User code has the control. *)
Definition in_user (k : list (cmd * list instr)) : bool :=
  match k with [] => true | (_, IUser _ :: _) :: _ => true | _ => false end.

(** Simulator.cpp:553-569 AddInitEntryPoint. *)
Definition can_add (s : sst) : bool := match s with Building | Connecting | Standby => true | _ => false end.

Definition call (c : cmd) (x : sim) : sim * list sev :=
  let '(Sim s l i h k) := x in
  match c with
  | CHoldLater =>
      if guard c s l then
        if h then (x, [EvCall c; EvThrow c])    (* EventManager Subscribe: EntryPointAlreadySubscribed *)
        else (Sim s l i true ((c, []) :: k), [EvCall c])
      else (Sim s l i h ((c, []) :: k), [EvIgnored c])
  | CPre =>
      if h then                                 (* Simulator.cpp:66-74: unsubscribe, Hold(true) *)
        if guard CHold s l then (Sim s l i false ((CHold, hold_body) :: k), [EvCall CPre; EvCall CHold])
        else (Sim s l i false ((CHold, []) :: k), [EvCall CPre; EvIgnored CHold])
      else (Sim s l i h ((c, []) :: k), [EvCall c])
  | _ =>
      if guard c s l then (Sim s l i h ((c, body c) :: k), [EvCall c])
      else (Sim s l i h ((c, []) :: k), [EvIgnored c])
  end.

Definition step (a : label) (x : sim) : sim * list sev :=
  let '(Sim s l i h k) := x in
  match a with
  | LCall c => if in_user k then call c x else (x, [])
  | LAddInit p =>
      if in_user k then
        if can_add s then (Sim s l (i ++ [p]) h k, [EvAdd p]) else (x, [EvRefused p])
      else (x, [])
  | LRet =>
      match k with
      | (c, IUser _ :: r) :: k' => (Sim s l i h ((c, r) :: k'), [])
      | _ => (x, [])
      end
  | LThrow =>
      match k with
      | (c, IUser true :: _) :: k' => (Sim s l i h k', [EvThrow c])
      | _ => (x, [])
      end
  | LStep =>
      match k with
      | (c, []) :: k' => (Sim s l i h k', [EvReturn c])
      | (c, IState s' :: r) :: k' => (Sim s' l i h ((c, r) :: k'), [EvState s'])
      | (c, IEmit e :: r) :: k' => (Sim s (Some e) i h ((c, IUser false :: IClear :: r) :: k'), [EvEmit e])
      | (c, IClear :: r) :: k' => (Sim s None i h ((c, r) :: k'), [])
      | (c, IInit :: r) :: k' => (Sim s l [] h ((c, map IExec i ++ r) :: k'), [])
      | (c, IExec p :: r) :: k' => (Sim s l i h ((c, IUser true :: r) :: k'), [EvExec p])
      | (_, IUser _ :: _) :: _ => (x, [])
      | [] => (x, [])
      end
  end.

Fixpoint run (x : sim) (ls : list label) : sim * list sev :=
  match ls with
  | [] => (x, [])
  | a :: ls => let '(x1, t1) := step a x in let '(x2, t2) := run x1 ls in (x2, t1 ++ t2)
  end.
