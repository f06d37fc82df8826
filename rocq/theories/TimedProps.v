(** C85: running the simulation for a duration stops it exactly that duration later.
    [start_timed m ep d] is Run(d) called in state [m] (TimedModel.v); [trun h p us]
    is what follows when the labels [us] happen, [h] being the event posted by
    Run(d).  The rest of the vocabulary is that of SchedSpec.v. *)
From Verif Require Import Base SchedModel SchedSpec SchedInv SchedProofs SchedTrace SchedMoves SchedOrder SchedHist
  SchedFacts SchedLive TimedModel TimedSpec TimedProofs.

#[local] Opaque hold_id i64_max i64_min.

Section C85.
  (** A simulation in which any disciplined history happened and that is not running. *)
  Context (ls : list label) (ep d : Z).
  Context (disc : disciplined mach_init ls) (stopped : ctl (run ls) = Idle).
  Let m0 := run ls.
  Let h := hold_event m0.
  Let t_end := now (sc m0) + d.
  Let p0 := (start_timed m0 ep d, false).

  (** Run(d) posts one event, for t0 + d, and starts the loop. *)
  Theorem C85_posts_the_end : 0 <= d -> t_end <= i64_max -> last (sc m0) < i64_max ->
    tr (start_timed m0 ep d) = TAdd h KSim false t_end 0 0 :: tr m0 /\ ctl (start_timed m0 ep d) = ImmGo [] BStart /\
    now (sc (start_timed m0 ep d)) = now (sc m0).
  Proof.
    intros Hd Hmax Hl. pose proof (run_now_mono [] ls) as Hn. cbn in Hn.
    destruct (start_accepted m0 ep d Hn Hd Hmax Hl) as [r Er].
    rewrite (start_shape m0 ep d r stopped Er). cbn. rewrite (add_gets_next _ _ _ Er I).
    destruct (api_add_id _ _ _ Er) as (_&_&H). rewrite H by discriminate. auto.
  Qed.

  (** A negative duration is refused and nothing runs. *)
  Theorem C85_negative_refused : d < 0 -> in_i64 t_end = true ->
    api (sc m0) (AddSim ep d 0 0) = Throw InvalidEventTime /\ start_timed m0 ep d = m0.
  Proof.
    intros Hd Hin. assert (E : api (sc m0) (AddSim ep d 0 0) = Throw InvalidEventTime).
    { unfold api, build_add. unfold t_end in Hin. rewrite Hin. cbn. unfold check_add. cbn.
      destruct (Z.ltb_spec (now (sc m0) + d) (now (sc m0))); [reflexivity|lia]. }
    split; auto. unfold start_timed. now rewrite E.
  Qed.

  Context (nonneg : 0 <= d) (fits : t_end <= i64_max) (ids_left : last (sc m0) < i64_max).

  (** Nobody else holds the simulation: when the run returns, the time has advanced by
      exactly d, everything due until then has been executed, the event of the run is
      not pending any more, and the simulation is on hold unless nothing is left to
      wait for. *)
  Theorem C85_stops_after_the_duration_partial us l :
    quiet_run h p0 (us ++ [l]) -> ctl (fst (trun h p0 us)) <> Idle ->
    let m := fst (trun h p0 (us ++ [l])) in ctl m = Idle ->
    now (sc m) = t_end /\
    (forall j lj, life_of j (tr m) = Some lj -> timed lj -> t_end < due lj) /\
    life_of h (tr m) = None /\
    (hold (sc m) = true \/ forall j lj, life_of j (tr m) = Some lj -> ~ timed lj).
  Proof.
    intros Hq Hni m Hi. apply quiet_app in Hq as [Hq1 Hq2]. cbn in Hq2. destruct Hq2 as (Hq2&Had&_).
    assert (Em : m = fst (tstep h (trun h p0 us) l)) by (unfold m, trun; now rewrite fold_left_app).
    assert (Ham : alive m) by (intros x; rewrite Hi; discriminate).
    assert (Ha : alive (fst (trun h p0 us))).
    { intros x Hx. eapply Ham. rewrite Em. apply dead_tstep. exact Hx. }
    destruct (trun_inv t_end h us p0 (or_introl (start_inv ls ep d disc stopped nonneg fits ids_left)) Hq1 Ha) as [HT|]; [|contradiction].
    destruct (trun h p0 us) as [m' later]. rewrite Em in Ham.
    destruct (tstep_inv t_end h m' later l HT Hq2 Had Ham) as [C|(H1&H2&H3&H4&H5)].
    - exfalso. destruct (tstep h (m', later) l) as [m'' later'']. cbn in Em. subst m''. now apply C.
    - rewrite <- Em in *. auto.
  Qed.

  (** The deferred hold that ends the run is used up: it does not stop a later run. *)
  Theorem C85_hold_used_up us l :
    quiet_run h p0 (us ++ [l]) -> ctl (fst (trun h p0 us)) <> Idle ->
    let p := trun h p0 (us ++ [l]) in ctl (fst p) = Idle -> hold (sc (fst p)) = true -> snd p = false.
  Proof.
    intros Hq Hni p Hi. apply quiet_app in Hq as [Hq1 Hq2]. cbn in Hq2. destruct Hq2 as (Hq2&_&_).
    assert (Ep : p = tstep h (trun h p0 us) l) by (unfold p, trun; now rewrite fold_left_app).
    assert (Ham : alive (fst p)) by (intros x; rewrite Hi; discriminate).
    rewrite Ep in *. clear p Ep.
    assert (Ha : alive (fst (trun h p0 us))).
    { intros x Hx. eapply Ham. apply dead_tstep. exact Hx. }
    destruct (trun_inv t_end h us p0 (or_introl (start_inv ls ep d disc stopped nonneg fits ids_left)) Hq1 Ha) as [HT|]; [|contradiction].
    destruct (trun h p0 us) as [m' later]. exact (tstep_used t_end h m' later l HT Hq2 Ham).
  Qed.

  (** Before it returns the time is never beyond. *)
  Theorem C85_never_beyond us : quiet_run h p0 us -> alive (fst (trun h p0 us)) -> ctl (fst (trun h p0 us)) <> Idle ->
    now (sc (fst (trun h p0 us))) <= t_end.
  Proof.
    intros Hq Ha Hni.
    destruct (trun_inv t_end h us p0 (or_introl (start_inv ls ep d disc stopped nonneg fits ids_left)) Hq Ha) as [HT|]; [|contradiction].
    destruct (trun h p0 us) as [m' later]. now apply timed_now in HT.
  Qed.

  (** And it does return: left alone, after finitely many fair rounds of the
      simulation thread, provided the scheduler's own event at the end of time was not
      changed by anyone and no Zulu event is executing. *)
  Theorem C85_returns : t_end < i64_max -> zulu_running m0 = false ->
    life_of hold_id (tr m0) = Some (Life i64_max 0 0 KSim false false) ->
    exists n, forall rounds, (n <= length rounds)%nat -> Forall fair_round rounds ->
    exists us1 us2, concat rounds = us1 ++ us2 /\
      let m := fst (trun h p0 us1) in
      ctl m = Dead DOverflow \/
      (ctl m = Idle /\ now (sc m) = t_end /\ hold (sc m) = true /\
       forall j lj, life_of j (tr m) = Some lj -> timed lj -> t_end < due lj).
  Proof.
    intros Hlt Hz Hh. destruct (C85_posts_the_end nonneg fits ids_left) as (Ht&Hc&_).
    assert (Hid : h <> hold_id).
    { unfold h, hold_event. assert (Ha : alive m0) by (intros x; unfold m0; rewrite stopped; discriminate).
      pose proof (k_last _ (DInv_link _ (run_DInv _ disc) Ha)). fold m0 in H. assert (i64_max < hold_id) by (compute; reflexivity). lia. }
    assert (Hj : life_of hold_id (tr (fst p0)) = Some (far i64_max)).
    { cbn [fst p0]. rewrite Ht. cbn. destruct (Z.eqb_spec h hold_id); [contradiction|]. exact Hh. }
    assert (Hz0 : zulu_running (fst p0) = false).
    { pose proof (run_now_mono [] ls) as Hn. cbn in Hn.
      destruct (start_accepted m0 ep d Hn nonneg fits ids_left) as [r Er].
      cbn [fst p0]. rewrite (start_shape m0 ep d r stopped Er). exact Hz. }
    pose proof (start_inv ls ep d disc stopped nonneg fits ids_left) as HT.
    destruct (timed_run_ends t_end h p0 hold_id i64_max Hlt HT Hz0 Hj) as [n Hn].
    exists n. intros rounds Hr F. destruct (Hn rounds Hr F) as (us1&us2&E&H).
    exists us1, us2. split; auto. destruct H as [H|[(H1&H2&_&H3&_) H4]]; auto.
  Qed.
End C85.

(** Non-vacuity: a cyclic event (every 4 from 3), an immediate event and a run of 10
    started at 0; then a second run of 5 with an event at the same instant as its end. *)
Definition td_calls : list label := [LCall (AddSim 1 3 4 (-1)); LCall (AddImm 7)].

Lemma td_disciplined : disciplined mach_init td_calls.
Proof. repeat split; try exact I; right; try exact I; intros q [= <-] K [=]. Qed.

Definition round1 : list label := [LEnd; LTau; LTimeout].
(** The labels of the run until it returns: a call in the middle posts an event for 10. *)
Definition td_us : list label :=
  concat (repeat round1 8) ++ [LCall (AddSim 9 7 0 0)] ++ concat (repeat round1 20).

Definition td_end := fst (trun 2 (start_timed (run td_calls) 5 10, false) td_us).

Example C85_hypotheses : disciplined mach_init td_calls /\ ctl (run td_calls) = Idle /\ hold_event (run td_calls) = 2 /\
  zulu_running (run td_calls) = false /\ life_of hold_id (tr (run td_calls)) = Some (Life i64_max 0 0 KSim false false).
Proof. split; [apply td_disciplined|]. vm_compute. auto. Qed.

Example C85_example : ctl td_end = Idle /\ now (sc td_end) = 10 /\ hold (sc td_end) = true /\
  rev (starts (tr td_end)) = [(1, 0, true); (0, 3, false); (0, 7, false); (2, 10, false); (3, 10, false)] /\
  life_of 0 (tr td_end) = Some (Life 11 4 (-1) KSim false false) /\ life_of 2 (tr td_end) = None.
Proof. vm_compute. auto 10. Qed.

Example C85_used_up_example :
  let p := trun 2 (start_timed (run td_calls) 5 10, false) td_us in
  ctl (fst p) = Idle /\ hold (sc (fst p)) = true /\ snd p = false.
Proof. vm_compute. auto. Qed.

(** The quiet hypothesis is met by this run: every label is admitted. *)
Example C85_example_quiet : quiet_run 2 (start_timed (run td_calls) 5 10, false) td_us.
Proof.
  unfold td_us. apply quiet_app. split.
  - apply own_quiet_run. apply Forall_forall. intros x Hx. apply in_concat in Hx as (r&Hr&Hx). apply repeat_spec in Hr. subst r.
    destruct Hx as [<-|[<-|[<-|[] ] ] ]; unfold own; auto.
  - cbn [app quiet_run]. split; [split; [exact I|intros H; vm_compute in H; discriminate]|]. split.
    + right. intros q Hq K HK. vm_compute in HK. discriminate.
    + apply own_quiet_run. apply Forall_forall. intros x Hx. apply in_concat in Hx as (r&Hr&Hx). apply repeat_spec in Hr. subst r.
      destruct Hx as [<-|[<-|[<-|[] ] ] ]; unfold own; auto.
Qed.

(** What is false of the code.  If somebody holds the simulation before the end
    (Hold(true) from an entry point), Run(100) returns early and the event it posted
    stays pending although the entry point it names was a local variable of Run: the
    next run, here Run(200), executes it. *)
Definition cut_calls : list label := [LCall (AddSim 1 10 0 0)].
Definition cut_us : list label := [LTau; LTau; LTimeout; LTau; LTau; LTau; LTau; LHold; LEnd].
Definition cut_end := fst (trun 1 (start_timed (run cut_calls) 5 100, false) cut_us).
Definition next_us : list label := concat (repeat round1 8).

Theorem C85_destroyed_entry_point_refuted : exists ls us d h,
  disciplined mach_init ls /\ ctl (run ls) = Idle /\ h = hold_event (run ls) /\
  let m := fst (trun h (start_timed (run ls) 5 d, false) us) in
  ctl m = Idle /\ now (sc m) < d /\ life_of h (tr m) = Some (Life d 0 0 KSim false false) /\
  exists us', let m' := fst (trun (hold_event m) (start_timed m 5 200, false) us') in In (TStart h d false) (tr m').
Proof.
  exists cut_calls, cut_us, 100, 1. split; [repeat split; try exact I; right; intros q [= <-] K [=]|].
  split; [reflexivity|]. split; [reflexivity|]. cbv zeta. split; [vm_compute; reflexivity|]. split; [vm_compute; reflexivity|].
  split; [vm_compute; reflexivity|]. exists (next_us ++ [LTau; LTau]). vm_compute. tauto.
Qed.

(** If somebody holds the simulation in the instant of the end, after the entry point of
    Run has executed, the deferred hold stays subscribed: the next Run(50) returns
    before the time has advanced at all, and leaves its own event pending. *)
Definition left_us : list label :=
  [LTau; LTau; LTimeout; LTau; LTau; LTau; LTau; LCall (AddSim 3 0 0 0); LEnd; LTau; LTau; LEnd;
   LTau; LTau; LTau; LTau; LHold; LEnd].

Theorem C85_left_over_hold_refuted : exists ls us d us' h h',
  disciplined mach_init ls /\ ctl (run ls) = Idle /\ h = hold_event (run ls) /\
  let p := trun h (start_timed (run ls) 5 d, false) us in
  ctl (fst p) = Idle /\ now (sc (fst p)) = d /\ h' = hold_event (fst p) /\
  let p' := (start_timed (fst p) 6 50, snd p) in
  let m := fst (trun h' p' us') in
  quiet_run h' p' us' /\
  ctl m = Idle /\ now (sc m) = d /\ life_of h' (tr m) = Some (Life (d + 50) 0 0 KSim false false).
Proof.
  exists cut_calls, left_us, 10, (concat (repeat round1 3)), 1, 3.
  split; [repeat split; try exact I; right; intros q [= <-] K [=]|].
  split; [reflexivity|]. split; [reflexivity|]. cbv zeta. split; [vm_compute; reflexivity|].
  split; [vm_compute; reflexivity|]. split; [vm_compute; reflexivity|]. split.
  - apply own_quiet_run. apply Forall_forall. intros x Hx. apply in_concat in Hx as (r&Hr&Hx). apply repeat_spec in Hr. subst r.
    destruct Hx as [<-|[<-|[<-|[] ] ] ]; unfold own; auto.
  - split; [vm_compute; reflexivity|]. split; vm_compute; reflexivity.
Qed.

Print Assumptions C85_stops_after_the_duration_partial.
Print Assumptions C85_returns.
