(** Histories of the scheduler that violate the properties when the discipline of
    SchedSpec.v is not followed.  Each is a concrete run of the model, that is, a
    sequence of calls accepted by the code as it is. *)
From Verif Require Import Base SchedModel SchedSpec SchedTrace SchedFacts.

(** The calls of a history all succeed: no exception warned the caller. *)
Fixpoint no_throw (m : mach) (ls : list label) : bool :=
  match ls with
  | [] => true
  | l :: r =>
      match l with
      | LCall c => match api (sc m) c with Ok _ => no_throw (mstep m l) r | _ => false end
      | _ => no_throw (mstep m l) r
      end
  end.

Definition ends (ls : list label) (d : death) : Prop :=
  no_throw mach_init ls = true /\ ctl (run ls) = Dead d.

(** C02, C08, C13: removing a Zulu event erases the entry of the simulation events
    scheduled for the numerically same time (XsmpScheduler.cpp:362): event 1, due at
    100, is never executed although the time passes it. *)
Definition zulu_remove : list label :=
  [LCall (AddZulu 1 100 0 0 0); LCall (AddSim 2 100 0 0); LCall (Remove 0); LCall (AddSim 3 200 0 0);
   LRun; LTau; LTau; LTimeout].

Theorem C13_removing_zulu_spares_simulation_refuted : exists ls id l,
  no_throw mach_init ls = true /\ alive (run ls) /\
  life_of id (tr (run ls)) = Some l /\ timed l /\ due l < now (sc (run ls)).
Proof.
  exists zulu_remove, 1, (Life 100 0 0 KSim false false).
  split; [vm_compute; reflexivity|]. split; [intros d; vm_compute; discriminate|].
  split; [vm_compute; reflexivity|]. split; [split; [discriminate|reflexivity]|vm_compute; reflexivity].
Qed.

(** C10: removing a pending immediate event makes the run loop throw out_of_range. *)
Theorem C10_remove_immediate_refuted : exists ls, ends ls DAt.
Proof. exists [LCall (AddImm 1); LCall (Remove 0); LRun; LTau; LTau]. vm_compute. auto. Qed.

(** C10: removing, from an entry point, another event of the same instant. *)
Theorem C10_remove_same_instant_refuted : exists ls, ends ls DAt.
Proof.
  exists [LCall (AddSim 1 10 0 0); LCall (AddSim 2 10 0 0); LCall (AddSim 3 20 0 0); LRun; LTau; LTau; LTimeout;
          LTau; LTau; LTau; LTau; LCall (AddSim 4 0 0 0); LCall (Remove 1); LEnd; LTau; LTau; LTau; LTau].
  vm_compute. auto.
Qed.

(** C10: an entry point re-schedules its own event: the run loop goes on
    with a destroyed node of the table. *)
Theorem C10_remove_same_instant_dangling_refuted : exists ls, ends ls DDangling.
Proof.
  exists [LCall (AddSim 1 10 0 0); LCall (AddSim 2 20 0 0); LRun; LTau; LTau; LTimeout; LTau; LTau; LTau; LTau;
          LCall (SetCycle 0 5); LCall (SetRepeat 0 1); LCall (SetSim 0 7); LEnd; LTau; LTau].
  vm_compute. auto.
Qed.

(** C10: an entry point that re-schedules its own event in the past destroys the
    record being executed. *)
Theorem C10_retime_self_to_past_refuted : exists ls, ends ls DDangling.
Proof.
  exists [LCall (AddSim 1 10 0 0); LRun; LTau; LTau; LTimeout; LTau; LTau; LTau; LTau; LCall (SetSim 0 (-1)); LEnd].
  vm_compute. auto.
Qed.

(** C10: another thread posts an event before the instant the scheduler sleeps for:
    SetSimulationTime throws out of the run loop. *)
Theorem C10_post_during_wait_refuted : exists ls, ends ls DSimTime.
Proof.
  exists [LCall (AddSim 1 10 0 0); LRun; LTau; LTau; LCall (AddSim 2 5 0 0); LTimeout].
  vm_compute. auto.
Qed.

(** C10: another thread removes the event the scheduler sleeps for. *)
Theorem C10_remove_during_wait_refuted : exists ls, ends ls DDangling.
Proof.
  exists [LCall (AddSim 1 10 0 0); LRun; LTau; LTau; LCall (Remove 0); LTimeout].
  vm_compute. auto.
Qed.

(** C10: the checks of AddEvent are made before its critical section: the event
    checked at time 0 is inserted, at time 10, for time 5. *)
Theorem C10_add_race_refuted : exists ls, ends ls DSimTime.
Proof.
  exists [LCall (AddSim 1 10 0 0); LCall (AddSim 2 20 0 0); LBegin (AddSim 3 5 0 0); LRun; LTau; LTau; LTimeout;
          LTau; LTau; LTau; LTau; LCommit 0; LHold; LEnd; LRun; LTau; LTau; LTimeout].
  vm_compute. auto.
Qed.

(** C10: a Zulu event of the batch being executed is removed: std::terminate. *)
Theorem C10_remove_zulu_in_batch_refuted : exists ls, ends ls DZuluAt.
Proof.
  exists [LCall (AddZulu 1 10 0 0 0); LCall (AddZulu 2 10 0 0 0); LZTick 11; LZTau true; LZTau true;
          LCall (Remove 1); LZEnd; LZTau true].
  vm_compute. auto.
Qed.

(** C05: an event removed while its entry point runs comes back by SetEventRepeat. *)
Theorem C05_removed_never_starts_refuted : exists ls newer id past,
  no_throw mach_init ls = true /\ tr (run ls) = newer ++ TRemove id :: past /\ In id (added past) /\
  exists t, In (TStart id t false) newer.
Proof.
  exists [LCall (AddSim 1 10 5 3); LRun; LTau; LTau; LTimeout; LTau; LTau; LTau; LTau;
          LCall (Remove 0); LCall (SetRepeat 0 2); LEnd; LTau; LTau; LTau; LTau; LTimeout; LTau; LTau; LTau; LTau],
    [TStart 0 15 false; TTime 15; TEnd 0; TRepeat 0 2], 0,
    [TStart 0 10 false; TTime 10; TAdd 0 KSim false 10 5 3].
  split; [vm_compute; reflexivity|]. split; [vm_compute; reflexivity|].
  split; [now left|]. exists 15. now left.
Qed.

(** C07: SetEventCycleTime accepts a null cycle time for an event repeated for ever. *)
Theorem C07_cyclic_positive_refuted : exists ls id l, no_throw mach_init ls = true /\ alive (run ls) /\
  life_of id (tr (run ls)) = Some l /\ rep l <> 0 /\ cyc l = 0.
Proof.
  exists [LCall (AddSim 1 10 5 (-1)); LCall (SetCycle 0 0)], 0, (Life 10 0 (-1) KSim false false).
  split; [vm_compute; reflexivity|]. split; [intros d; vm_compute; discriminate|].
  split; [vm_compute; reflexivity|]. split; [discriminate|reflexivity].
Qed.

(** C09: after a hold requested while the time-change handlers run, one more entry
    point is started before the next run. *)
Theorem C09_no_start_after_hold_refuted : exists ls ls',
  ~ In LRun ls' /\ disciplined mach_init (ls ++ LHold :: ls') /\
  nstarts (tr (run (ls ++ LHold :: ls'))) = S (nstarts (tr (run ls))).
Proof.
  exists [LCall (AddSim 1 10 0 0); LRun; LTau; LTau; LTimeout], [LTau; LTau; LTau; LTau].
  split; [intros H; repeat destruct H as [H|H]; try discriminate; destruct H|].
  split; [|vm_compute; reflexivity].
  repeat split; try exact I. right. intros q [= <-] K [=].
Qed.

(** C03: an event re-scheduled for the present instant runs after later posted ones. *)
Theorem C03_first_posted_first_executed_refuted : exists ls newer id t past j lj,
  no_throw mach_init ls = true /\ tr (run ls) = newer ++ TStart id t false :: past /\
  life_of j past = Some lj /\ timed lj /\ due lj = t /\ j < id.
Proof.
  exists [LCall (AddSim 1 20 0 0); LCall (AddSim 2 10 0 0); LCall (AddSim 3 10 0 0); LRun; LTau; LTau; LTimeout;
          LTau; LTau; LTau; LTau; LCall (SetSim 0 0); LEnd; LTau; LTau], [], 2, 10,
    [TEnd 1; TSetTime 0 10 10; TStart 1 10 false; TTime 10; TAdd 2 KSim false 10 0 0; TAdd 1 KSim false 10 0 0;
     TAdd 0 KSim false 20 0 0], 0, (Life 10 0 0 KSim false false).
  split; [vm_compute; reflexivity|]. split; [vm_compute; reflexivity|]. split; [reflexivity|].
  split; [split; [discriminate|reflexivity]|]. split; reflexivity.
Qed.
