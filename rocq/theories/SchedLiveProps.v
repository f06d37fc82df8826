(** C71: a run reaches every pending event.  The vocabulary is that of SchedSpec.v;
    [fair_round] (SchedLive.v) is a round in which the simulation thread is offered,
    in any order and any number, each of its three kinds of move: an internal one
    (LTau), the end of its timed wait (LTimeout) and the end of the entry point it
    executes (LEnd). *)
From Verif Require Import Base SchedModel SchedSpec SchedInv SchedProofs SchedTrace SchedMoves SchedOrder SchedHist
  SchedFacts SchedProps SchedLive.

#[local] Opaque hold_id i64_max i64_min.

Lemma start_going ls : disciplined mach_init ls -> ctl (run ls) = Idle -> zulu_running (run ls) = false ->
  Going (run (ls ++ [LRun])) /\ tr (run (ls ++ [LRun])) = tr (run ls).
Proof.
  intros D Hi Hz. assert (alive (run ls)) as Ha by (intros d; rewrite Hi; discriminate).
  rewrite run_app. cbn [fold_left].
  assert (mstep (run ls) LRun = goto (run ls) (set_hold false (sc (run ls))) (ImmGo [] BStart)) as E
    by (unfold mstep; now rewrite Hi).
  split; [|rewrite E; reflexivity].
  assert (DInv (mstep (run ls) LRun)) as HD by (apply mstep_DInv; [now apply run_DInv|exact I]). rewrite E in *.
  assert (alive (goto (run ls) (set_hold false (sc (run ls))) (ImmGo [] BStart))) as Ha' by (intros d; cbn; discriminate).
  constructor; auto; try reflexivity.
  - now apply DInv_live.
  - cbn. discriminate.
Qed.

Lemma start_awaits ls id l : disciplined mach_init ls -> ctl (run ls) = Idle -> zulu_running (run ls) = false ->
  life_of id (tr (run ls)) = Some l -> lkind l <> KZulu -> Awaits (run (ls ++ [LRun])) id (due l).
Proof.
  intros D Hi Hz Hl Hk. assert (alive (run ls)) as Ha by (intros d; rewrite Hi; discriminate).
  pose proof (t_link _ (run_TInv ls) Ha) as HL. destruct (ev_of_life _ _ _ HL Hl) as (e&He&Hd&_&_&Hkd&_).
  rewrite run_app. cbn [fold_left]. unfold mstep. rewrite Hi. constructor; cbn.
  - exists e. repeat split; auto. congruence.
  - reflexivity.
  - tauto.
Qed.

Theorem C71_a_run_reaches_every_pending_event : forall ls id l, disciplined mach_init ls ->
  ctl (run ls) = Idle -> zulu_running (run ls) = false ->
  life_of id (tr (run ls)) = Some l -> lkind l <> KZulu ->
  exists n, forall rounds, (n <= length rounds)%nat -> Forall fair_round rounds ->
    let m := run (ls ++ LRun :: concat rounds) in
    ctl m = Dead DOverflow \/
    exists newer, tr m = newer ++ tr (run ls) /\ ((exists t im, In (TStart id t im) newer) \/ In (TSkip id) newer).
Proof.
  intros ls id l D Hi Hz Hl Hk. destruct (start_going ls D Hi Hz) as [G Ht].
  destruct (fair_rounds_reach _ _ _ G (start_awaits ls id l D Hi Hz Hl Hk)) as [n Hn].
  exists n. intros rounds Hr F. specialize (Hn rounds Hr F). rewrite Ht in Hn.
  replace (ls ++ LRun :: concat rounds) with ((ls ++ [LRun]) ++ concat rounds) by now rewrite <- app_assoc.
  rewrite run_app. exact Hn.
Qed.

(** Non-vacuity: an event at 10 with cycle 5 and an event at 2^40, both far from the
    first one to be executed; the state after the calls meets the hypotheses. *)
Definition wait_demo : list label :=
  [LCall (AddSim 1 10 5 2); LCall (AddSim 2 1099511627776 0 0); LCall (AddImm 7)].

Lemma wait_demo_disciplined : disciplined mach_init wait_demo.
Proof. repeat split; try exact I; right; try exact I; intros q [= <-] K [=]. Qed.

Example C71_hypotheses : disciplined mach_init wait_demo /\ ctl (run wait_demo) = Idle /\
  zulu_running (run wait_demo) = false /\
  life_of 1 (tr (run wait_demo)) = Some (Life 1099511627776 0 0 KSim false false).
Proof. split; [apply wait_demo_disciplined|]. vm_compute. auto. Qed.

(** And what the rounds then give: 40 rounds of the three moves execute everything. *)
Definition one_round : list label := [LEnd; LTau; LTimeout].

Example C71_rounds_are_fair : Forall fair_round (repeat one_round 40).
Proof.
  apply Forall_forall. intros r H. apply repeat_spec in H. subst r. unfold fair_round, one_round, own.
  repeat split; cbn; auto 10.
Qed.

Example C71_example : firstn 5 (rev (starts (tr (run (wait_demo ++ LRun :: concat (repeat one_round 40)))))) =
  [(2, 0, true); (0, 10, false); (0, 15, false); (0, 20, false); (1, 1099511627776, false)].
Proof. vm_compute. reflexivity. Qed.

Print Assumptions C71_a_run_reaches_every_pending_event.
