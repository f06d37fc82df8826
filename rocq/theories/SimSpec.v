(** Specification vocabulary for the simulator's state machine. *)
From Verif Require Import Base SimModel.

(** The transitions documented by the SMP standard (Smp/ISimulator.h, SimulatorStateKind.h). *)
Inductive documented : sst -> sst -> Prop :=
| d_connect : documented Building Connecting
| d_connected : documented Connecting Initialising
| d_initialise : documented Standby Initialising
| d_initialised : documented Initialising Standby
| d_run : documented Standby Executing
| d_hold : documented Executing Standby
| d_store : documented Standby Storing
| d_stored : documented Storing Standby
| d_restore : documented Standby Restoring
| d_restored : documented Restoring Standby
| d_reconnect : documented Standby Reconnecting
| d_reconnected : documented Reconnecting Standby
| d_exit : documented Standby Exiting
| d_abort s : documented s Aborting.

(** The successive states of a trace, from the initial state. *)
Fixpoint states (t : list sev) : list sst :=
  match t with [] => [] | EvState s :: t => s :: states t | _ :: t => states t end.

(** All consecutive pairs of s :: l satisfy R. *)
Fixpoint chain (R : sst -> sst -> Prop) (s : sst) (l : list sst) : Prop :=
  match l with [] => True | s' :: l => R s s' /\ chain R s' l end.

(** The state in which the SMP standard accepts a command. *)
Inductive accepted_in : cmd -> sst -> Prop :=
| a_publish : accepted_in CPublish Building
| a_configure : accepted_in CConfigure Building
| a_connect : accepted_in CConnect Building
| a_initialise : accepted_in CInitialise Standby
| a_run : accepted_in CRun Standby
| a_store : accepted_in CStore Standby
| a_restore : accepted_in CRestore Standby
| a_reconnect : accepted_in CReconnect Standby
| a_exit : accepted_in CExit Standby
| a_hold : accepted_in CHold Executing
| a_hold_later : accepted_in CHoldLater Executing
| a_abort s : accepted_in CAbort s.

(** No transition is in progress: the state is one in which the simulator rests and the
    global event being handled, if any, is not one that announces a state change. *)
Definition resting (s : sst) : bool :=
  match s with Building | Standby | Executing | Exiting | Aborting => true | _ => false end.
Definition leaving (l : option gev) : bool :=
  match l with Some LeaveStandby | Some LeaveExecuting => true | _ => false end.

(** Abort is never called while a transition is in progress. *)
Fixpoint orderly (x : sim) (ls : list label) : Prop :=
  match ls with
  | [] => True
  | a :: ls =>
      (a = LCall CAbort -> resting (s_st x) = true /\ leaving (s_last x) = false) /\
      orderly (fst (step a x)) ls
  end.

(** The initialisation entry points added, and executed, in order. *)
Fixpoint adds (t : list sev) : list Z :=
  match t with [] => [] | EvAdd p :: t => p :: adds t | _ :: t => adds t end.
Fixpoint execs (t : list sev) : list Z :=
  match t with [] => [] | EvExec p :: t => p :: execs t | _ :: t => execs t end.

(** A subsequence: some elements left out, the order kept. *)
Inductive subseq {A} : list A -> list A -> Prop :=
| sub_nil : subseq [] []
| sub_skip a l m : subseq l m -> subseq l (a :: m)
| sub_keep a l m : subseq l m -> subseq (a :: l) (a :: m).

(** The events with which the standard announces that the simulator has entered a state or
    leaves it (Smp/Services/IEventManager.h); EnterAborting is emitted before the state is
    Aborting. *)
Definition enter_of (s : sst) : option gev :=
  match s with
  | Initialising => Some EnterInitialising | Standby => Some EnterStandby | Executing => Some EnterExecuting
  | Storing => Some EnterStoring | Restoring => Some EnterRestoring | Reconnecting => Some EnterReconnecting
  | Exiting => Some EnterExiting
  | Building | Connecting | Aborting => None
  end.
Definition leave_of (s : sst) : option gev :=
  match s with
  | Connecting => Some LeaveConnecting | Initialising => Some LeaveInitialising | Standby => Some LeaveStandby
  | Executing => Some LeaveExecuting | Storing => Some LeaveStoring | Restoring => Some LeaveRestoring
  | Reconnecting => Some LeaveReconnecting
  | Building | Exiting | Aborting => None
  end.

(** Nothing more is to be announced after [p], the last state change or event: [p] is not the
    entry in a state that has an Enter event, nor a Leave event. *)
Definition settled (p : option sev) : Prop :=
  match p with
  | Some (EvState s) => enter_of s = None
  | Some (EvEmit e) => forall s, leave_of s <> Some e
  | _ => True
  end.

(** What the handlers of the global events may observe next in the state [s], after [p];
    [silent]: the states that are left without an event. *)
Inductive announced (silent : sst -> Prop) (p : option sev) (s : sst) : sev -> Prop :=
| an_enter e : enter_of s = Some e -> p = Some (EvState s) -> announced silent p s (EvEmit e)
| an_leave e : leave_of s = Some e -> settled p -> announced silent p s (EvEmit e)
| an_state s' e : documented s s' -> leave_of s = Some e -> p = Some (EvEmit e) -> announced silent p s (EvState s')
| an_silent s' : documented s s' -> leave_of s = None \/ silent s -> settled p -> announced silent p s (EvState s')
| an_aborting : settled p -> announced silent p s (EvEmit EnterAborting)
| an_abort : settled p -> announced silent p s (EvState Aborting).

(** All state changes and events of a trace are announced. *)
Fixpoint protocol (silent : sst -> Prop) (p : option sev) (s : sst) (t : list sev) : Prop :=
  match t with
  | [] => True
  | EvState s' :: t => announced silent p s (EvState s') /\ protocol silent (Some (EvState s')) s' t
  | EvEmit e :: t => announced silent p s (EvEmit e) /\ protocol silent (Some (EvEmit e)) s t
  | _ :: t => protocol silent p s t
  end.

(** What a command shows when the user code called meanwhile only returns; [i] is the list
    of the initialisation entry points. *)
Definition initialisation (i : list Z) : list sev :=
  [EvState Initialising; EvEmit EnterInitialising] ++ map EvExec i ++ [EvEmit LeaveInitialising; EvState Standby; EvEmit EnterStandby].
Definition shows (c : cmd) (i : list Z) : list sev :=
  match c with
  | CPublish | CConfigure | CHoldLater | CPre => []
  | CConnect => [EvState Connecting; EvEmit LeaveConnecting] ++ initialisation i
  | CInitialise => EvEmit LeaveStandby :: initialisation i
  | CRun => [EvEmit LeaveStandby; EvState Executing; EvEmit EnterExecuting]
  | CHold => [EvEmit LeaveExecuting; EvState Standby; EvEmit EnterStandby]
  | CStore => [EvEmit LeaveStandby; EvState Storing; EvEmit EnterStoring; EvEmit LeaveStoring; EvState Standby; EvEmit EnterStandby]
  | CRestore => [EvEmit LeaveStandby; EvState Restoring; EvEmit EnterRestoring; EvEmit LeaveRestoring; EvState Standby; EvEmit EnterStandby]
  | CReconnect => [EvEmit LeaveStandby; EvState Reconnecting; EvEmit EnterReconnecting; EvState Standby; EvEmit EnterStandby]
  | CExit => [EvEmit LeaveStandby; EvState Exiting; EvEmit EnterExiting]
  | CAbort => [EvEmit EnterAborting; EvState Aborting]
  end.
(** The user code called back by the simulator only returns. *)
Definition quiet (a : label) : Prop := a = LStep \/ a = LRet.

(** The commands that are refused while a global event is handled, although the state is
    right: the announced change of state has not happened yet; Run is also refused in the
    handlers of EnterStandby. *)
Definition refused_during (c : cmd) (l : option gev) : Prop :=
  match c with
  | CInitialise | CStore | CRestore | CReconnect | CExit => l = Some LeaveStandby
  | CRun => l = Some LeaveStandby \/ l = Some EnterStandby
  | CHold | CHoldLater => l = Some LeaveExecuting
  | _ => False
  end.
