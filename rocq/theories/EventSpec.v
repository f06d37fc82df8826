(** What the event manager properties talk about: functions of the observed trace. *)
From Verif Require Import Base Assoc Text EventModel.

(** The identifiers known after a trace: the predefined ones and those returned by
    QueryEventId. *)
Definition known (tr : list eev) (id : Z) : Prop :=
  1 <= id <= 19 \/ exists n, In (EvQuery n id) tr.

(** The entry points subscribed to [id] after a trace, in subscription order. *)
Fixpoint remove_one (x : Z) (l : list Z) : list Z :=
  match l with
  | [] => []
  | y :: r => if x =? y then r else y :: remove_one x r
  end.

Definition sub_step (id : Z) (l : list Z) (e : eev) : list Z :=
  match e with
  | EvSub i ep => if i =? id then l ++ [ep] else l
  | EvUnsub i ep => if i =? id then remove_one ep l else l
  | _ => l
  end.

Definition subscribers (tr : list eev) (id : Z) : list Z := fold_left (sub_step id) tr [].

(** The entry points executed by the call [k] of Emit in a trace. *)
Fixpoint executed (k : nat) (tr : list eev) : list Z :=
  match tr with
  | [] => []
  | EvRun k' ep :: r => if (k' =? k)%nat then ep :: executed k r else executed k r
  | _ :: r => executed k r
  end.

(** The trace of a history from the initial manager. *)
Definition etrace (os : list eop) : list eev := snd (erun em_init os).

(** The names and identifiers fixed by the SMP standard (ECSS-E-ST-40-07, IEventManager),
    in the order of the identifiers. *)
Definition standard_names : list ename :=
  map codes [ "SMP_LeaveConnecting"; "SMP_EnterInitialising"; "SMP_LeaveInitialising"; "SMP_EnterStandby";
    "SMP_LeaveStandby"; "SMP_EnterExecuting"; "SMP_LeaveExecuting"; "SMP_EnterStoring"; "SMP_LeaveStoring";
    "SMP_EnterRestoring"; "SMP_LeaveRestoring"; "SMP_EnterExiting"; "SMP_EnterAborting"; "SMP_EpochTimeChanged";
    "SMP_MissionTimeChanged"; "SMP_EnterReconnecting"; "SMP_LeaveReconnecting"; "SMP_PreSimTimeChange";
    "SMP_PostSimTimeChange" ]%string.

(** Identifier [i] is the one of the standard name [n]. *)
Definition standard (n : ename) (i : Z) : Prop := 1 <= i /\ nth_error standard_names (Z.to_nat (i - 1)) = Some n.
