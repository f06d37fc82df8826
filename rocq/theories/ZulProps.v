(** C97: the thread of the Zulu events is punctual, executes all that is due, and ends. *)
From Verif Require Import Base ZulModel ZulSpec ZulProofs.
From Coq Require Import ZArith List Bool Lia.
Import ListNotations.
Local Open Scope Z_scope.

(** If no event is posted or moved, while the thread waits for time d, to a time before d,
    then the thread never sleeps while an event is due.  Missing: such events, see
    [C97_punctual_refuted].  (pend = 0: the callers of AddZuluTimeEvent have returned.) *)
Theorem C97_punctual_partial now ls s os :
  run (init now) ls = (s, os) -> all_in_order (init now) ls -> asleep s -> pend s = 0%nat ->
  forall t id, posted s t id -> clock s < t.
Proof.
  intros E O A P. pose proof (inv_run ls _ (inv_init now)) as H1. pose proof (pinv_run ls _ (inv_init now) I O) as H2.
  rewrite E in H1, H2. exact (punctual s H1 H2 A P).
Qed.

Notation T := (LThread None).
(** The thread waits for time 100 (event 1). *)
Definition waiting : list label := [LPost 100 1; LNotify; T; T; T; T; T].

Example C97_punctual_example :
  let ls := waiting ++ [LPost 150 2; LNotify; T; T; LTick 90; LSpurious; T; T] in
  let s := fst (run (init 0) ls) in
  all_in_order (init 0) ls /\ asleep s /\ pend s = 0%nat /\ clock s = 90 /\ posted s 100 1 /\ posted s 150 2.
Proof. vm_compute. repeat split; try discriminate; eexists; (split; [eauto|]); cbn; auto. Qed.

(** An event posted for an earlier time than the one the thread waits for is late: the
    thread is notified, and sleeps again until the old time. *)
Theorem C97_punctual_refuted : exists ls, let s := fst (run (init 0) (waiting ++ ls)) in
  clock s = 99 /\ asleep s /\ pend s = 0%nat /\ posted s 10 2 /\
  (forall ls', (forall l, In l ls' -> l = LNotify \/ exists n, l = LThread n) -> snd (run s ls') = []).
Proof.
  exists [LTick 5; LPost 10 2; LNotify; T; T; LTick 99].
  pose (s := fst (run (init 0) (waiting ++ [LTick 5; LPost 10 2; LNotify; T; T; LTick 99]))). fold s. vm_compute in s. subst s. cbn zeta.
  split; [reflexivity|]. split; [reflexivity|]. split; [reflexivity|]. split.
  - exists [2]. split; cbn; auto.
  - induction ls' as [|l ls' IH]; intros H; [reflexivity|].
    assert (I1 : forall l', In l' ls' -> l' = LNotify \/ exists n, l' = LThread n) by (intros l' I1; apply H; now right).
    specialize (IH I1). destruct (H l (or_introl eq_refl)) as [->|[n ->]]; cbn in *; destruct (run _ ls'); cbn in *; exact IH.
Qed.

(** When the clock has reached the time the thread waits for, it executes all the events
    that are due, in the order of their times, before it waits again (if none of them posts,
    moves or removes events). *)
Theorem C97_all_due now ls s os d :
  run (init now) ls = (s, os) -> th s = TBlocked d -> d <= clock s -> stop s = false ->
  exists n s', run s (repeat (LThread None) n) = (s', due_until (clock s) (table s)) /\ th s' = TArm /\ clock s' = clock s /\
    (forall t id, posted s' t id <-> posted s t id /\ clock s < t).
Proof.
  intros E B D S. pose proof (inv_run ls _ (inv_init now)) as H. rewrite E in H. destruct (wakes s d H B S D) as [n R].
  exists n. eexists. split; [exact R|]. split; [reflexivity|]. split; [reflexivity|].
  intros t id. unfold posted, rest_after; cbn. split.
  - intros (ids & I1 & I2). apply filter_In in I1 as [I1 I3]. apply Z.ltb_lt in I3. cbn in I3. split; [exists ids; auto|exact I3].
  - intros [(ids & I1 & I2) L]. exists ids. split; [|exact I2]. apply filter_In. split; [exact I1|]. now apply Z.ltb_lt.
Qed.

Example C97_all_due_example :
  let s := fst (run (init 0) (waiting ++ [LPost 150 2; LNotify; T; T; LPost 70 3; LPost 100 4; LNotify; LNotify; T; T; LTick 120])) in
  th s = TBlocked 100 /\ 100 <= clock s /\ stop s = false /\ due_until (clock s) (table s) = [3; 1; 4] /\ posted s 150 2.
Proof. vm_compute. repeat split; try discriminate. eexists; (split; [eauto|]); cbn; auto. Qed.

(** Disconnect: no event is started once it has set its flag, and the thread ends: it is
    enough that the notification comes and that the thread gets three steps. *)
Theorem C97_stop now ls s os :
  run (init now) ls = (s, os) -> stop s = true ->
  (forall ls', snd (run s ls') = []) /\
  (forall ls', th (fst (run s (ls' ++ [LNotify; LThread None; LThread None; LThread None]))) = TEnd).
Proof.
  intros E S. pose proof (inv_run ls _ (inv_init now)) as H. rewrite E in H; cbn in H. split.
  - intros ls'. now apply no_starts.
  - intros ls'. rewrite run_app. cbn [fst]. apply ends; [now apply inv_run|].
    clear E H. revert s S. induction ls' as [|l ls' IH]; intros s S; [exact S|]. rewrite run_cons. apply IH, stop_step, S.
Qed.

(** Disconnect, whenever it can take the mutex, has these effects: nothing is started any
    more and the thread ends. *)
Theorem C97_disconnect now ls s os :
  run (init now) ls = (s, os) -> unlocked (th s) = true ->
  (forall ls', snd (run s (LStop :: ls')) = []) /\
  (forall ls', th (fst (run s (LStop :: ls' ++ [LNotify; LThread None; LThread None; LThread None]))) = TEnd).
Proof.
  intros E U. pose (s1 := fst (step s LStop)).
  assert (S1 : stop s1 = true).
  { unfold s1, step. rewrite U. destruct (stop s) eqn:S; cbn; [exact S|reflexivity]. }
  assert (O1 : snd (step s LStop) = None) by (unfold step; rewrite U; destruct (stop s); reflexivity).
  assert (R : forall l, run s (LStop :: l) = run s1 l).
  { intros l. cbn [run]. unfold s1. destruct (step s LStop) as [s2 o]. cbn in O1. subst o. cbn. now destruct (run s2 l). }
  assert (E1 : exists os', run (init now) (ls ++ [LStop]) = (s1, os')).
  { exists (snd (run (init now) (ls ++ [LStop]))). rewrite (surjective_pairing (run (init now) (ls ++ [LStop]))) at 1. f_equal.
    rewrite run_app, E. cbn [fst]. rewrite R. reflexivity. }
  destruct E1 as (os' & E1). destruct (C97_stop now _ _ _ E1 S1) as [A B].
  split; intros l; rewrite R; [apply A|apply B].
Qed.

(** The thread sleeps, for an event or for none, or executes an event, when it is told to stop. *)
Example C97_stop_example :
  (let s := fst (run (init 0) (waiting ++ [LStop])) in stop s = true /\ asleep s) /\
  (let s := fst (run (init 0) ([T; T; T; T; T; LStop])) in stop s = true /\ asleep s) /\
  unlocked (th (fst (run (init 0) waiting))) = true /\
  (let s := fst (run (init 0) (waiting ++ [LPost 100 2; LNotify; T; T; LTick 100; T; T; T; T; T; LStop])) in
     stop s = true /\ th s = TExec 100 1 [2]).
Proof.
  vm_compute. repeat split.
Qed.

Print Assumptions C97_punctual_partial.
Print Assumptions C97_all_due.
Print Assumptions C97_stop.
Print Assumptions C97_disconnect.
