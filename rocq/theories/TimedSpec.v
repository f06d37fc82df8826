(** Vocabulary of C85: what the rest of the simulation may do during a timed run. *)
From Verif Require Import Base SchedModel SchedSpec TimedModel.

(** The call does not act on event [h]. *)
Definition about_other (h : Z) (c : cmd) : Prop :=
  match c with
  | SetSim i _ | SetMission i _ | SetEpoch i _ | SetZulu i _ _ | SetCycle i _ | SetRepeat i _ | Remove i => i <> h
  | _ => True
  end.

(** Nobody else holds or starts the simulation or acts on the event of the timed
    run; once that event has executed ([later]), nobody sets the simulation time. *)
Definition quiet (h : Z) (later : bool) (l : label) : Prop :=
  match l with
  | LHold | LRun => False
  | LCall c => about_other h c /\ (later = true -> forall t, c <> TKSetSim t)
  | _ => True
  end.

(** Every label offered during the run is quiet and admitted (SchedSpec.v). *)
Fixpoint quiet_run (h : Z) (p : mach * bool) (us : list label) : Prop :=
  match us with
  | [] => True
  | l :: r => quiet h (snd p) l /\ admitted (fst p) l /\ quiet_run h (tstep h p l) r
  end.
