(** The properties of the scheduler, stated over every history (a list of labels
    chosen by an adversary).  The vocabulary is in SchedSpec.v: [tr (run ls)] is
    what was observed, newest first; [life_of id past] is what the observations in
    [past] say about event [id]; [disciplined mach_init ls] says that the calls
    shown to break the run loop (SchedRefuted.v) are not made. *)
From Verif Require Import Base SchedModel SchedSpec SchedInv SchedProofs SchedTrace SchedMoves SchedOrder SchedHist SchedFacts.

(** A history used below to show that hypotheses can be met: a cyclic event at 10
    (cycle 5, 2 repetitions), two events for the same instant 15, one of which posts
    an immediate event while it runs, a hold and a new run. *)
Definition demo : list label :=
  [LCall (AddSim 1 10 5 2); LCall (AddSim 2 15 0 0); LCall (AddImm 7); LRun; LTau; LTau; LEnd; LTau; LTau;
   LTau; LTimeout; LTau; LTau; LTau; LTau; LEnd; LTau; LTau; LTau;
   (* instant 15 *)
   LTau; LTimeout; LTau; LTau; LTau; LTau; LCall (AddImm 8); LEnd; LTau; LTau; LEnd; LTau; LTau; LTau; LHold; LEnd;
   LRun; LTau; LTau; LTimeout; LTau; LTau; LTau;
   LTau; LTimeout; LTau; LTau; LTau; LTau; LEnd; LTau; LTau].

Lemma demo_disciplined : disciplined mach_init demo.
Proof. repeat split; try exact I; right; try exact I; intros q [= <-] K [=]. Qed.

Lemma demo_trace : tr (run demo) =
  [TEnd 0; TStart 0 20 false; TTime 20; TTime 15; TEnd 1; TStart 1 15 false; TEnd 3; TStart 3 15 true;
   TEnd 0; TPostImm 3; TAdd 3 KSim true 15 0 0; TStart 0 15 false; TTime 15; TEnd 0; TStart 0 10 false;
   TTime 10; TEnd 2; TStart 2 0 true; TAdd 2 KSim true 0 0 0; TAdd 1 KSim false 15 0 0; TAdd 0 KSim false 10 5 2].
Proof. vm_compute. reflexivity. Qed.

Example demo_starts : rev (starts (tr (run demo))) =
  [(2, 0, true); (0, 10, false); (0, 15, false); (3, 15, true); (1, 15, false); (0, 20, false)].
Proof. vm_compute. reflexivity. Qed.

(** ** C01: simulation time never runs backwards (every history, disciplined or not) *)
Theorem C01_observed_times_never_decrease : forall ls, never_backwards (times (tr (run ls))).
Proof. intros ls. exact (t_back _ (run_TInv ls)). Qed.

Theorem C01_time_never_decreases : forall ls ls', now (sc (run ls)) <= now (sc (run (ls ++ ls'))).
Proof. exact run_now_mono. Qed.

Example C01_example : times (tr (run demo)) = [20; 20; 15; 15; 15; 15; 15; 10; 10; 0].
Proof. vm_compute. reflexivity. Qed.

(** ** C02: events fire exactly at their scheduled time *)
Theorem C02_started_exactly_when_due : forall ls newer id t past, disciplined mach_init ls ->
  tr (run ls) = newer ++ TStart id t false :: past ->
  t = sim_time past /\ exists l, life_of id past = Some l /\ timed l /\ due l = t.
Proof.
  intros ls newer id t past D E. split.
  - pose proof (n_fact _ (run_NInv ls)) as H. rewrite E in H. apply always_split in H. exact H.
  - pose proof (d_fact _ (run_DInv _ D)) as H. rewrite E in H. apply always_split in H.
    destruct H as ((l&H1&H2&H3&H4&_)&_). exists l. repeat split; auto.
Qed.

Theorem C02_never_late : forall ls id l, disciplined mach_init ls -> alive (run ls) ->
  life_of id (tr (run ls)) = Some l -> timed l -> sim_time (tr (run ls)) <= due l.
Proof.
  intros ls id l D Ha Hl Ht. rewrite <- (n_now _ (run_NInv ls) Ha). now apply (pending_due ls D Ha id l).
Qed.

(** Only one event ever runs at a time, and an event that runs is registered. *)
Theorem C02_one_at_a_time : forall ls newer id t im past,
  tr (run ls) = newer ++ TStart id t im :: past ->
  (exists l, life_of id past = Some l) /\ forall j l, life_of j past = Some l -> live_run l = false.
Proof.
  intros ls newer id t im past E. pose proof (t_fact _ (run_TInv ls)) as H. rewrite E in H.
  apply always_split in H. destruct H as (l&Hl&Hn). split; [now exists l|exact Hn].
Qed.

Example C02_example : exists newer past l, tr (run demo) = newer ++ TStart 0 20 false :: past /\
  life_of 0 past = Some l /\ due l = 20 /\ rep l = 0 /\ sim_time past = 20.
Proof.
  rewrite demo_trace. eexists [TEnd 0], _, _. repeat split; reflexivity.
Qed.

(** ** C03: order within one instant *)
Theorem C03_first_posted_first_executed : forall ls newer id t past, disciplined mach_init ls ->
  tr (run ls) = newer ++ TStart id t false :: past -> no_retime_to_now past ->
  forall j lj, life_of j past = Some lj -> timed lj -> due lj = t -> id <= j \/ id = hold_id.
Proof.
  intros ls newer id t past D E Hn. pose proof (d_fact _ (run_DInv _ D)) as H. rewrite E in H.
  apply always_split in H. destruct H as (_&_&_&H&_). exact (H eq_refl Hn).
Qed.

Theorem C03_immediates_in_order : forall ls newer id t past, disciplined mach_init ls ->
  tr (run ls) = newer ++ TStart id t true :: past ->
  forall j lj, life_of j past = Some lj -> limm lj = true -> id <= j.
Proof.
  intros ls newer id t past D E. pose proof (d_fact _ (run_DInv _ D)) as H. rewrite E in H.
  apply always_split in H. destruct H as (_&_&H&_). exact (H eq_refl).
Qed.

(** When a timed event starts, every immediate event posted by an entry point of the
    simulation has been executed (or removed). *)
Theorem C03_immediates_before_the_rest : forall ls newer id t past, disciplined mach_init ls ->
  tr (run ls) = newer ++ TStart id t false :: past ->
  forall j, In (TPostImm j) past -> life_of j past = None.
Proof.
  intros ls newer id t past D E. pose proof (d_fact _ (run_DInv _ D)) as H. rewrite E in H.
  apply always_split in H. destruct H as (_&_&_&_&H). exact (H eq_refl).
Qed.

Lemma demo_no_retime : no_retime_to_now (tr (run demo)).
Proof. intros id t n H. rewrite demo_trace in H. repeat destruct H as [H|H]; try discriminate. destruct H. Qed.

Example C03_example : exists newer past, tr (run demo) = newer ++ TStart 1 15 false :: past /\
  In (TPostImm 3) past /\ life_of 3 past = None /\ life_of 1 past <> None.
Proof.
  rewrite demo_trace. eexists [_; _; _; _; _], _. split; [reflexivity|]. split; [do 3 right; now left|].
  split; [reflexivity|discriminate].
Qed.

(** ** C04: repetitions *)
Theorem C04_occurrences_exact : forall ls newer id t c n older, disciplined mach_init ls ->
  tr (run ls) = newer ++ TAdd id KSim false t c n :: older -> untouched id newer -> 0 <= n ->
  exists k : nat, Z.of_nat k <= n + 1 /\ starts_of id newer = instants t c k /\
    (alive (run ls) -> (n <> 0 -> 0 < c) ->
     forall i, 0 <= i <= n -> t + i * c < sim_time (tr (run ls)) -> i < Z.of_nat k).
Proof. exact cycle_finite. Qed.

Theorem C04_for_ever : forall ls newer id t c n older, disciplined mach_init ls ->
  tr (run ls) = newer ++ TAdd id KSim false t c n :: older -> untouched id newer -> n < 0 ->
  exists k : nat, starts_of id newer = instants t c k /\
    (alive (run ls) -> (exists l, life_of id (tr (run ls)) = Some l) /\
     (0 < c -> forall i, 0 <= i -> t + i * c < sim_time (tr (run ls)) -> i < Z.of_nat k)).
Proof. exact cycle_infinite. Qed.

(** Nothing of it runs before it is posted. *)
Theorem C04_not_before_posted : forall ls newer id k im t c n older, alive (run ls) ->
  tr (run ls) = newer ++ TAdd id k im t c n :: older -> starts_of id older = [].
Proof. exact no_start_before_add. Qed.

Example C04_example : exists newer older, tr (run demo) = newer ++ TAdd 0 KSim false 10 5 2 :: older /\
  untouched 0 newer /\ starts_of 0 newer = [10; 15; 20].
Proof.
  exists (firstn 20 (tr (run demo))), []. rewrite demo_trace. split; [reflexivity|].
  split; [|reflexivity]. intros x H. cbn in H. repeat destruct H as [<-|H]; try exact I. destruct H.
Qed.

(** ** C05: a removed event is never executed again.  SetEventRepeat on an event that
    was removed while running revives it (SchedRefuted.v), hence the hypothesis. *)
Theorem C05_removed_never_starts_partial : forall ls newer id past,
  tr (run ls) = newer ++ TRemove id :: past -> In id (added past) ->
  (forall r, ~ In (TRepeat id r) newer) ->
  (forall t im, ~ In (TStart id t im) newer) /\ (forall t z, ~ In (TZulu id t z) newer).
Proof.
  intros ls newer id past E Hi Hr. pose proof (run_TInv ls) as H.
  destruct (removed_inv id past newer) as (_&H1&H2); auto; rewrite <- E; apply H.
Qed.

(** ** C06: identifiers *)
Theorem C06_ids_unique : forall ls, NoDup (added (tr (run ls))).
Proof. intros ls. exact (t_nodup _ (run_TInv ls)). Qed.

Theorem C06_ids_fresh : forall ls newer id k im t c n past,
  tr (run ls) = newer ++ TAdd id k im t c n :: past -> life_of id past = None.
Proof.
  intros ls newer id k im t c n past E. pose proof (t_fact _ (run_TInv ls)) as H. rewrite E in H.
  now apply always_split in H.
Qed.

(** Each posting returns the successor of the last number given; no other call gives
    a number. *)
Theorem C06_numbers : forall s c r, api s c = Ok r ->
  (r_id r, last (r_st r)) = if posts c then (last s + 1, last s + 1) else (0, last s).
Proof. exact api_number. Qed.

Example C06_example : added (tr (run demo)) = [3; 2; 1; 0].
Proof. vm_compute. reflexivity. Qed.

(** ** C07: rejections.  For every state and every call that does not overflow. *)
Theorem C07_rejected_exactly : forall s c x, api s c <> UB -> (api s c = Throw x <-> must_reject s c = Some x).
Proof. exact api_rejects. Qed.

(** A call is free of overflow exactly when the times it computes, and the number of
    the event it posts, fit in 64 bits. *)
Theorem C07_undefined_exactly : forall s c, api s c <> UB <-> well_defined s c.
Proof. exact well_defined_ok. Qed.

Example C07_undefined_nonvacuous : well_defined (sc (run demo)) (AddMission 1 5 0 0) /\
  ~ well_defined (sc (run demo)) (SetSim 77 i64_max).
Proof. split; apply C07_undefined_exactly || rewrite <- C07_undefined_exactly; vm_compute; congruence. Qed.

Theorem C07_rejected_without_effect : forall m c x, api (sc m) c = Throw x -> mstep m (LCall c) = m.
Proof. exact throw_no_effect. Qed.

Theorem C07_cyclic_events_have_positive_cycle_partial : forall ls id l, disciplined mach_init ls -> alive (run ls) ->
  life_of id (tr (run ls)) = Some l -> rep l <> 0 -> 0 < cyc l.
Proof. intros ls id l D Ha. exact (cyclic_positive ls D Ha id l). Qed.

Example C07_example : api (sc (run demo)) (AddSim 1 (-1) 0 0) = Throw InvalidEventTime /\
  api (sc (run demo)) (AddSim 1 1 0 3) = Throw InvalidCycleTime /\ api (sc (run demo)) (Remove 77) = Throw InvalidEventId /\
  (exists r, api (sc (run demo)) (AddSim 1 1 2 3) = Ok r).
Proof. vm_compute. repeat split; try reflexivity. eexists. reflexivity. Qed.

(** ** C08: no pending event is jumped over *)
Theorem C08_time_never_passes_a_pending_event : forall ls newer t past, disciplined mach_init ls ->
  tr (run ls) = newer ++ TTime t :: past ->
  forall id l, life_of id past = Some l -> timed l -> t <= due l.
Proof.
  intros ls newer t past D E. pose proof (d_fact _ (run_DInv _ D)) as H. rewrite E in H.
  now apply always_split in H.
Qed.

(** GetNextScheduledEventTime: a lower bound of all pending instants but the present
    one, and it is an instant with a pending event, the present one, or the end of
    time. *)
Theorem C08_next_scheduled_is_minimum : forall ls, disciplined mach_init ls -> alive (run ls) ->
  let g := next_scheduled (sc (run ls)) in
  (forall id l, life_of id (tr (run ls)) = Some l -> timed l -> g <= due l \/ due l = now (sc (run ls))) /\
  (g = i64_max \/ g = now (sc (run ls)) \/ exists id l, life_of id (tr (run ls)) = Some l /\ timed l /\ due l = g).
Proof. exact next_scheduled_spec. Qed.

(** ** C09: hold *)
Theorem C09_at_most_one_start_after_hold : forall ls ls', ~ In LRun ls' ->
  (nstarts (tr (run (ls ++ LHold :: ls'))) <= nstarts (tr (run ls)) + 1)%nat.
Proof. exact hold_at_most_one. Qed.

Theorem C09_none_after_hold_from_entry_point : forall ls ls', ~ In LRun ls' -> sim_ep_running (ctl (run ls)) = true ->
  nstarts (tr (run (ls ++ LHold :: ls'))) = nstarts (tr (run ls)).
Proof. exact hold_none_from_ep. Qed.

(** What is pending when the run loop has stopped is still there for the next run:
    every registered event is in the queue of immediate events or in the table at
    its instant, which is not past. *)
Theorem C09_nothing_lost : forall ls id l, disciplined mach_init ls -> ctl (run ls) = Idle ->
  life_of id (tr (run ls)) = Some l -> lkind l <> KZulu ->
  if limm l then In id (imm (sc (run ls)))
  else In id (tget (due l) (tbl (sc (run ls)))) /\ now (sc (run ls)) <= due l.
Proof. exact idle_nothing_lost. Qed.

(** ** C10: a disciplined history only ends abnormally by 64-bit overflow *)
Theorem C10_disciplined_histories_are_safe_partial : forall ls d, disciplined mach_init ls ->
  ctl (run ls) = Dead d -> d = DOverflow.
Proof.
  intros ls d D E. destruct (d_m _ (run_DInv _ D)) as [H|[_ H]]; [congruence|]. exfalso. eapply H; eauto.
Qed.

Example C10_example : alive (run demo) /\ disciplined mach_init demo.
Proof. split; [intros d; vm_compute; discriminate|exact demo_disciplined]. Qed.

(** ** C13: Zulu events *)
Theorem C13_not_before_its_time : forall ls newer id t z past, disciplined mach_init ls ->
  tr (run ls) = newer ++ TZulu id t z :: past ->
  t <= z /\ exists l, life_of id past = Some l /\ lkind l = KZulu /\ due l = t.
Proof.
  intros ls newer id t z past D E. pose proof (d_fact _ (run_DInv _ D)) as H.
  pose proof (t_fact _ (run_TInv ls)) as H'. rewrite E in H, H'. apply always_split in H, H'.
  destruct H as (H1&l&H2&H3), H' as (l'&H4&H5&_). split; auto. exists l. repeat split; auto. congruence.
Qed.

Theorem C13_in_order_partial : forall ls newer id t z past, disciplined mach_init ls -> clocked mach_init ls ->
  no_retime_to_now (tr (run ls)) -> tr (run ls) = newer ++ TZulu id t z :: past ->
  forall j lj, life_of j past = Some lj -> lkind lj = KZulu -> t < due lj \/ (t = due lj /\ id <= j).
Proof.
  intros ls newer id t z past D C Hn E.
  pose proof (z_fact _ (clocked_ZInv ls mach_init ZInv_init D C) Hn) as H.
  change (fold_left mstep ls mach_init) with (run ls) in H. rewrite E in H. now apply always_split in H.
Qed.

Definition zdemo : list label :=
  [LCall (AddZulu 1 50 10 1 3); LCall (AddZulu 2 50 0 0 4); LCall (AddZulu 3 20 0 0 5);
   LZTick 55; LZTau true; LZTau true; LZEnd; LZTau true; LZTick 56; LZTau true; LZTau true; LZEnd; LZTau true; LZEnd; LZTau true;
   LZTick 57; LZTick 61; LZTau true; LZTau true; LZEnd; LZTau true].

Example C13_example : disciplined mach_init zdemo /\ clocked mach_init zdemo /\ no_retime_to_now (tr (run zdemo)) /\
  rev (filter (fun x => match x with TZulu _ _ _ => true | _ => false end) (tr (run zdemo))) =
    [TZulu 2 20 55; TZulu 0 50 56; TZulu 1 50 56; TZulu 0 60 61].
Proof.
  assert (E : tr (run zdemo) = [TEnd 0; TZulu 0 60 61; TEnd 1; TZulu 1 50 56; TEnd 0; TZulu 0 50 56; TEnd 2; TZulu 2 20 55;
        TAdd 2 KZulu false 20 0 0; TAdd 1 KZulu false 50 0 0; TAdd 0 KZulu false 50 10 1]) by (vm_compute; reflexivity).
  split; [repeat split; try exact I; right; exact I|]. split; [vm_compute; repeat split; discriminate|].
  rewrite E. clear E. split; [|reflexivity].
  intros id t n H. repeat destruct H as [H|H]; try discriminate. destruct H.
Qed.

(** ** C14: epoch and mission time *)
Theorem C14_epoch_follows_simulation_time : forall m l, (forall t, l <> LCall (TKSetEpoch t)) ->
  epoch_time (sc (mstep m l)) - now (sc (mstep m l)) = epoch_time (sc m) - now (sc m).
Proof. intros m l H. unfold epoch_time. destruct (mstep_tk m l) as [-> _]; auto. lia. Qed.

Theorem C14_mission_follows_epoch_time : forall m l,
  (forall t, l <> LCall (TKSetMission t)) -> (forall t, l <> LCall (TKSetMissionStart t)) ->
  mission_time (sc (mstep m l)) - epoch_time (sc (mstep m l)) = mission_time (sc m) - epoch_time (sc m).
Proof. intros m l H H'. unfold mission_time, epoch_time. destruct (mstep_tk m l) as [_ ->]; auto. lia. Qed.

Theorem C14_set_epoch : forall s t r, api s (TKSetEpoch t) = Ok r -> epoch_time (r_st r) = t /\ now (r_st r) = now s.
Proof.
  intros s t r. cbn. destruct (in_i64 _); [|discriminate]. intros [= <-]. unfold epoch_time. cbn. lia.
Qed.

Theorem C14_set_mission : forall s t r, api s (TKSetMission t) = Ok r ->
  mission_time (r_st r) = t /\ epoch_time (r_st r) = epoch_time s /\ now (r_st r) = now s.
Proof.
  intros s t r. cbn. destruct (_ && _); [|discriminate]. intros [= <-]. unfold mission_time, epoch_time. cbn. lia.
Qed.

Theorem C14_set_mission_start : forall s t r, api s (TKSetMissionStart t) = Ok r ->
  mission_time (r_st r) = epoch_time s - t /\ epoch_time (r_st r) = epoch_time s /\ now (r_st r) = now s.
Proof. intros s t r. cbn. intros [= <-]. unfold mission_time, epoch_time. cbn. lia. Qed.

Example C14_example : exists r, api (sc (run demo)) (TKSetEpoch 1000) = Ok r /\ epoch_time (r_st r) = 1000 /\
  mission_time (r_st r) = 1000.
Proof. eexists. vm_compute. repeat split; reflexivity. Qed.

(** ** C15: the time only changes inside the window, forward, up to the next event *)
Theorem C15_change_inside_window_only : forall ls l,
  now (sc (run (ls ++ [l]))) <> now (sc (run ls)) ->
  window (sc (run ls)) = true /\ now (sc (run ls)) <= now (sc (run (ls ++ [l]))) <= next_scheduled (sc (run ls)).
Proof. intros ls l. rewrite run_snoc. apply mstep_time_window. exact (t_excl _ (run_TInv ls)). Qed.

Theorem C15_outside_window_no_effect : forall s t, window s = false -> api s (TKSetSim t) = Ok (Ret s 0 None).
Proof. intros s t H. cbn. unfold set_sim_time. now rewrite H. Qed.

Theorem C15_inside_window : forall s t, window s = true ->
  api s (TKSetSim t) = if (now s <=? t) && (t <=? next_scheduled s) then Ok (Ret (set_now t s) 0 None)
                       else Throw InvalidSimulationTime.
Proof. exact set_sim_inside. Qed.

(** The window is closed from the time change on, as long as events of the instant
    are executed. *)
Theorem C15_closed_while_events_run : forall ls, disciplined mach_init ls ->
  match ctl (run ls) with Post _ | EvtGo _ _ | EvtRun _ _ _ => window (sc (run ls)) = false | _ => True end.
Proof. exact window_closed. Qed.
