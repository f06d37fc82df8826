(** What users of Run and Hold in several threads expect. *)
From Verif Require Import ParModel.
From Coq Require Import List Bool Arith.
Import ListNotations.

(** The thread is in the run loop of the scheduler. *)
Definition looping (t : thread) : Prop :=
  match at_ t with InRun (RCheck | RExec | RInHold _) => True | _ => False end.
Definition returned (t : thread) : Prop := at_ t = Idle.

(** Events that thread [a] executed. *)
Definition executed (a : nat) (os : list (nat * obs)) : nat :=
  length (filter (fun o => match o with (i, Executed) => Nat.eqb i a | _ => false end) os).

(** Thread [i] calls Run no more. *)
Definition no_run (t : thread) : Prop :=
  ~ In CRun (todo t) /\ match at_ t with InRun _ => False | _ => True end.

(** The thread is emitting a global event: its subscribers are being called. *)
Definition within (e : gev) (t : thread) : Prop :=
  match e, at_ t with
  | LeaveStandby, InRun RLeft => True
  | LeaveExecuting, (InHold (HStatus | HLeft) | InRun (RInHold (HStatus | HLeft))) => True
  | EnterStandby, (InHold HEntered | InRun (RInHold HEntered)) => True
  | _, _ => False
  end.

(** The steps of thread [a] between [c] and [c'] are a call that returns and does nothing. *)
Definition no_effect (a : nat) (c c' : config) (os : list (nat * obs)) : Prop :=
  st c' = st c /\ lastg c' = lastg c /\ held c' = held c /\ (forall i, i <> a -> threads c' i = threads c i) /\
  executed a os = 0 /\ In (a, Returned) os.
