(** C70: epoch and mission events follow their own clock.  [aims k c x id t s]
    (SchedClock.v): call [c] is the AddEpochTimeEvent/AddMissionTimeEvent that returned
    [id], or a SetEventEpochTime/SetEventMissionTime of [id], for time [t] of that
    clock; it was observed as [x], which places the occurrence at simulation time [s].
    [due lf + (t - s)] is then the time, on that clock, of the occurrence at hand: [t]
    for the first one, one cycle more for each following one. *)
From Verif Require Import Base SchedModel SchedSpec SchedInv SchedProofs SchedTrace SchedMoves SchedOrder SchedHist
  SchedFacts SchedClock.

#[local] Opaque hold_id i64_max i64_min.

Lemma disciplined_split ls : forall ls' m, disciplined m (ls ++ ls') -> disciplined m ls /\ disciplined (fold_left mstep ls m) ls'.
Proof. induction ls as [|l ls IH]; cbn; intros ls' m H; auto. destruct H as [H1 H2]. apply IH in H2. tauto. Qed.

Lemma aimed ls c ls2 k x id t s : disciplined mach_init (ls ++ LCall c :: ls2) -> aims k c x id t s ->
  tr (run (ls ++ [LCall c])) = x :: tr (run ls) -> (forall l, In l ls2 -> ~ retimes id l) ->
  alive (run (ls ++ LCall c :: ls2)) -> tied k id (t - s) (sc (run (ls ++ LCall c :: ls2))).
Proof.
  intros D HA Ht Hr Ha. destruct (disciplined_split ls _ _ D) as [D1 D2]. fold (run ls) in D2. cbn in D2.
  destruct D2 as [D2 D3]. rewrite run_app in Ht, Ha |- *. cbn [fold_left] in *.
  pose proof (alive_before _ _ Ha) as Ha1. pose proof (alive_before [LCall c] _ Ha1) as Ha0.
  apply tied_run; auto.
  - eapply aims_kind; eauto.
  - apply mstep_DInv; auto. now apply run_DInv.
  - eapply aims_tied; eauto. exact (t_link _ (run_TInv ls) Ha0).
Qed.

(** A step that starts or skips an event happens in a live machine. *)
Lemma step_alive m l x : tr (mstep m l) = x :: tr m -> alive m.
Proof. intros H d Hd. unfold mstep in H. rewrite Hd in H. now apply nocons in H. Qed.

Theorem C70_executed_only_before_its_time_is_over : forall ls c ls2 l k x id t s t0 im,
  disciplined mach_init (ls ++ LCall c :: ls2) -> aims k c x id t s ->
  tr (run (ls ++ [LCall c])) = x :: tr (run ls) -> (forall l, In l ls2 -> ~ retimes id l) ->
  let m := run (ls ++ LCall c :: ls2) in
  tr (mstep m l) = TStart id t0 im :: tr m ->
  exists lf, life_of id (tr m) = Some lf /\ clock k (sc m) <= due lf + (t - s).
Proof.
  intros ls c ls2 l k x id t s t0 im D HA Ht Hr m H. pose proof (step_alive _ _ _ H) as Ha.
  pose proof (aimed ls c ls2 k x id t s D HA Ht Hr Ha) as [_ HT]. fold m in HT.
  destruct (step_start _ _ _ _ _ H) as (e&He&Hs). destruct (HT _ He) as [Hk Htm].
  destruct (life_of_ev _ _ _ (t_link _ (run_TInv _) Ha) He) as (lf&Hl&Hd&_). exists lf. split; auto.
  rewrite Hd, <- Htm. unfold skips in Hs. rewrite Hk in Hs.
  destruct (aims_kind _ _ _ _ _ _ HA) as [->| ->]; cbn in *; lia.
Qed.

Theorem C70_skipped_only_when_its_time_is_over : forall ls c ls2 l k x id t s,
  disciplined mach_init (ls ++ LCall c :: ls2) -> aims k c x id t s ->
  tr (run (ls ++ [LCall c])) = x :: tr (run ls) -> (forall l, In l ls2 -> ~ retimes id l) ->
  let m := run (ls ++ LCall c :: ls2) in
  tr (mstep m l) = TSkip id :: tr m ->
  exists lf, life_of id (tr m) = Some lf /\ due lf = now (sc m) /\ due lf + (t - s) < clock k (sc m).
Proof.
  intros ls c ls2 l k x id t s D HA Ht Hr m H. pose proof (step_alive _ _ _ H) as Ha.
  pose proof (aimed ls c ls2 k x id t s D HA Ht Hr Ha) as [_ HT]. fold m in HT.
  destruct (step_skip m l id (DInv_live _ (run_DInv _ D) Ha) H) as (e&He&[[Hs Hn]|[Hz _]]); destruct (HT _ He) as [Hk Htm];
    pose proof (aims_kind _ _ _ _ _ _ HA) as Hkk; [|destruct Hkk; congruence].
  destruct (life_of_ev _ _ _ (t_link _ (run_TInv _) Ha) He) as (lf&Hl&Hd&_). exists lf. split; auto. split; [congruence|].
  rewrite Hd, <- Htm. unfold skips in Hs. rewrite Hk in Hs.
  destruct Hkk as [->| ->]; cbn in *; lia.
Qed.

(** As long as nobody moves the clocks, no occurrence is skipped. *)
Theorem C70_not_skipped_while_the_clocks_run : forall ls c ls2 l k x id t s,
  disciplined mach_init (ls ++ LCall c :: ls2) -> aims k c x id t s ->
  tr (run (ls ++ [LCall c])) = x :: tr (run ls) -> (forall l, In l ls2 -> ~ retimes id l) ->
  (forall l, In l ls2 -> ~ sets_clock l) ->
  let m := run (ls ++ LCall c :: ls2) in tr (mstep m l) <> TSkip id :: tr m.
Proof.
  intros ls c ls2 l k x id t s D HA Ht Hr Hc m H. pose proof (step_alive _ _ _ H) as Ha.
  destruct (C70_skipped_only_when_its_time_is_over ls c ls2 l k x id t s D HA Ht Hr H) as (lf&Hl&Hd&Hlt). fold m in Hd, Hlt.
  destruct (disciplined_split ls _ _ D) as [D1 D2]. fold (run ls) in D2. cbn in D2. destruct D2 as [D2 D3].
  assert (m = fold_left mstep ls2 (mstep (run ls) (LCall c))) as Em by (unfold m; now rewrite run_app).
  rewrite Em in Ha. pose proof (alive_before _ _ Ha) as Ha1. pose proof (alive_before [LCall c] _ Ha1) as Ha0.
  assert (DInv (mstep (run ls) (LCall c))) as HD by (apply mstep_DInv; auto; now apply run_DInv).
  assert (~ sets_clock (LCall c)) as Hcc.
  { intros (y&E). destruct k; cbn in HA; try contradiction; destruct HA as [(?&?&?&->&_)|(?&->&_)];
      destruct E as [E|[E|E]]; discriminate E. }
  destruct (so_step _ (LCall c) (DInv_live _ (run_DInv _ D1) Ha0) Ha0 D2 Ha1 Hcc) as [S1 S2].
  destruct (so_run ls2 _ HD D3 Hc Ha) as [S3 S4]. rewrite <- Em in *.
  assert (origin k (sc m) = origin k (sc (run ls))) as Ho by (rewrite !origin_is; destruct k; congruence).
  unfold origin in Ho.
  assert (s = now (sc (run ls)) + t - clock k (sc (run ls))) as Hs.
  { rewrite run_app in Ht. cbn [fold_left] in Ht.
    destruct (dead_or_alive (run ls)) as [[d Hd']|Hm]; [exfalso; eapply Ha0; eauto|]. rewrite Hm in Ht.
    unfold call in Ht. destruct (api (sc (run ls)) c) as [r|e|]; cbn [tr die] in Ht; try (exfalso; now apply nocons in Ht).
    destruct k; cbn in HA; try contradiction; destruct HA as [(ep&cy&n&->&->)|(n&->&->)]; cbn in Ht;
      apply cons_same in Ht; injection Ht; intros; subst; reflexivity. }
  lia.
Qed.

(** ** C13: Zulu events are executed in Executing and Standby (label [LZTau true]) only,
    and skipped otherwise. *)
Theorem C13_executed_or_skipped_by_state : forall ls l id, disciplined mach_init ls -> let m := run ls in
  (forall t z, tr (mstep m l) = TZulu id t z :: tr m -> l = LZTau true) /\
  (forall lf, life_of id (tr m) = Some lf -> lkind lf = KZulu -> tr (mstep m l) = TSkip id :: tr m -> l = LZTau false).
Proof.
  intros ls l id D m. split; [intros t z; apply step_zulu|]. intros lf Hl Hk H. pose proof (step_alive _ _ _ H) as Ha.
  destruct (ev_of_life _ _ _ (t_link _ (run_TInv _) Ha) Hl) as (e&He&_&_&_&Hke&_).
  destruct (step_skip m l id (DInv_live _ (run_DInv _ D) Ha) H) as (e'&He'&[[Hs _]|[_ Hz]]); auto.
  fold m in He. rewrite He in He'. injection He' as <-. unfold skips in Hs. rewrite <- Hke, Hk in Hs. discriminate Hs.
Qed.

Example C13_by_state_example : let m := run [LCall (AddZulu 1 10 0 0 5); LZTick 12; LZTau true] in
  tr (mstep m (LZTau true)) = TZulu 0 10 12 :: tr m /\ tr (mstep m (LZTau false)) = TSkip 0 :: tr m /\
  life_of 0 (tr m) = Some (Life 10 0 0 KZulu false false).
Proof. vm_compute. auto. Qed.

(** Non-vacuity: the epoch clock is set to 100 at simulation time 0; an epoch event
    for 130 with cycle 10 is posted (hence at simulation times 30, 40, ...); it is
    executed once; then the epoch clock is set forward by 15: the occurrence at
    simulation time 40, epoch time 140, is skipped as the clock shows 155, and so is
    the next one. *)
Definition clock_pre : list label := [LCall (TKSetEpoch 100)].
Definition clock_post : list label :=
  [LRun; LTau; LTau; LTimeout; LTau; LTau; LTau; LTau].
Definition clock_late : list label := clock_post ++ [LEnd; LCall (TKSetEpoch 145); LTau; LTau; LTau; LTau; LTimeout; LTau; LTau; LTau].

Example C70_example_post : aims KEpoch (AddEpoch 7 130 10 (-1)) (TAdd 0 KEpoch false 30 10 (-1)) 0 130 30 /\
  tr (run (clock_pre ++ [LCall (AddEpoch 7 130 10 (-1))])) = TAdd 0 KEpoch false 30 10 (-1) :: tr (run clock_pre).
Proof. split; [left; exists 7, 10, (-1); auto|vm_compute; reflexivity]. Qed.

Example C70_example_disciplined : disciplined mach_init (clock_pre ++ LCall (AddEpoch 7 130 10 (-1)) :: clock_late).
Proof. repeat split; try exact I; right; try exact I; intros q [= <-] K [=]. Qed.

Example C70_example_executed : tr (run (clock_pre ++ LCall (AddEpoch 7 130 10 (-1)) :: clock_post)) =
  TStart 0 30 false :: tr (run (clock_pre ++ LCall (AddEpoch 7 130 10 (-1)) :: removelast clock_post)).
Proof. vm_compute. reflexivity. Qed.

Example C70_example_skipped :
  let m := run (clock_pre ++ LCall (AddEpoch 7 130 10 (-1)) :: clock_late) in
  tr (mstep m LTau) = TSkip 0 :: tr m /\ clock KEpoch (sc m) = 155 /\
  life_of 0 (tr m) = Some (Life 40 10 (-1) KEpoch false false).
Proof. vm_compute. auto. Qed.

Print Assumptions C70_not_skipped_while_the_clocks_run.
