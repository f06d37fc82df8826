(** C12: the simulation thread, the Zulu thread and the mutexes of the scheduler.
    [lrun s sched]: the threads after the operating system let them run in the
    order [sched].  The vocabulary is in LockSpec.v. *)
From Verif Require Import Base LockModel LockSpec LockProofs.
Local Open Scope nat_scope.

(** The property does not hold.  One simulation event and one Zulu event, whose entry
    points do not use the scheduler, are enough: the Zulu entry point is running
    when the simulation thread wants to execute its event.  It keeps _eventsMutex
    while it waits for _execMutex; the Zulu thread needs _eventsMutex to finish. *)
Definition demo_sys : system := Sys [SExec []] [ZExec [] false] [].

Theorem C12_deadlock_refuted : exists s sched,
  s = Sys [SExec []] [ZExec [] false] [] /\
  deadlocked (lrun s sched) /\ stuck (lrun s sched).
Proof.
  exists demo_sys, [1; 1; 1; 1; 1; 0]. split; [reflexivity|]. split.
  - exists Exec, Events. split.
    + do 3 eexists. split; [reflexivity|]. split; [reflexivity|]. split; [now left|]. left; reflexivity.
    + do 3 eexists. split; [reflexivity|]. split; [reflexivity|]. split; [now left|]. left; reflexivity.
  - split.
    + intros F. inversion F as [|? ? A _]. discriminate.
    + intros [|[|[|n]]]; reflexivity.
Qed.

(** It is not a matter of bad luck afterwards: whenever, in any system, one of the
    two threads has taken _eventsMutex to execute an event while the other one runs
    an entry point, the first one never moves again and the second one never
    finishes its event, whatever else happens. *)
Theorem C12_doomed : forall s sched a b ta tb ra,
  nth_error (lrun s sched) a = Some ta -> In Events (held ta) -> todo ta = Acq Exec :: ra ->
  nth_error (lrun s sched) b = Some tb -> In Exec (held tb) -> ~ In Events (held tb) ->
  forall more, exists tb', nth_error (lrun s (sched ++ more)) a = Some ta /\
    nth_error (lrun s (sched ++ more)) b = Some tb' /\ In Exec (held tb').
Proof.
  intros s sched a b ta tb ra Ea Ha Pa Eb Hb Nb more.
  assert (I : Inv both_cap (lrun s sched)) by (apply Inv_steps, Inv_start; now left).
  assert (M : embrace (lrun s sched) a b).
  { exists ta, tb, ra. repeat split; auto; try now apply holds_in.
    destruct (holds Events tb) eqn:H; auto. now apply holds_in in H. }
  unfold lrun in *. rewrite fold_left_app.
  destruct (embrace_forever both_cap more _ _ _ I M) as [(ua & ub & r & Fa & Fb & _ & _ & Hx & _) E].
  exists ub. rewrite E. repeat split; auto. now apply holds_in.
Qed.

Example C12_doomed_example : exists sched ta tb ra,
  nth_error (lrun demo_sys sched) 0 = Some ta /\ In Events (held ta) /\ todo ta = Acq Exec :: ra /\
  nth_error (lrun demo_sys sched) 1 = Some tb /\ In Exec (held tb) /\ ~ In Events (held tb).
Proof.
  exists [1; 1; 1; 1; 1; 0]. do 3 eexists. split; [reflexivity|]. split; [now left|]. split; [reflexivity|].
  split; [reflexivity|]. split; [now left|]. intros [H|[]]. discriminate.
Qed.

(** This is the only deadlock.  Whatever the threads do, however many other threads
    call the scheduler, and in whatever order they run: if nobody can move, one of the
    two threads holds _eventsMutex and waits for _execMutex, the other one holds
    _execMutex and waits for _eventsMutex. *)
Theorem C12_only_deadlock_partial : forall s sched, stuck (lrun s sched) ->
  deadlocked (lrun s sched) /\
  (waits_for (lrun s sched) 0 Exec 1 /\ waits_for (lrun s sched) 1 Events 0 \/
   waits_for (lrun s sched) 1 Exec 0 /\ waits_for (lrun s sched) 0 Events 1).
Proof. exact only_deadlock. Qed.

(** As long as one of the two threads executes no entry point (nobody posts a Zulu
    event, or the simulation does not run), the other one and all other threads
    can always go on, up to the end. *)
Theorem C12_progress_partial : forall s sched, no_zulu_execution s \/ no_sim_execution s ->
  ~ stuck (lrun s sched) /\ exists more, finished (lrun s (sched ++ more)).
Proof.
  intros s sched H.
  assert (exists cap, (forall a b, cap a = true -> cap b = true -> a = b) /\ Inv cap (lrun s sched)) as (cap & U & I).
  { destruct H as [H|H].
    - exists only_sim. split; [|apply Inv_steps, Inv_start; auto]. unfold only_sim. intros a b A B.
      apply Nat.eqb_eq in A, B. congruence.
    - exists only_zulu. split; [|apply Inv_steps, Inv_start; auto]. unfold only_zulu. intros a b A B.
      apply Nat.eqb_eq in A, B. congruence. }
  split.
  - intros K. destruct (stuck_has_embrace _ _ I K) as (a & b & M). destruct (embrace_cap _ _ _ _ I M) as (N & A & B). auto.
  - destruct (can_finish cap U _ _ eq_refl I) as (more & F). exists more. unfold lrun in *. now rewrite fold_left_app.
Qed.

Example C12_progress_example :
  let s := Sys [SExec [CPlain; CRemoveZulu]; SHead] [ZWait; ZSkip true] [[CZulu; CPlain]; [CRemoveZulu]] in
  no_zulu_execution s /\ ~ finished (lrun s [0; 0; 1; 2]).
Proof.
  split.
  - intros cs again [H|[H|[]]]; discriminate.
  - intros F. inversion F as [|? ? A _]. discriminate.
Qed.

Print Assumptions C12_deadlock_refuted.
Print Assumptions C12_doomed.
Print Assumptions C12_only_deadlock_partial.
Print Assumptions C12_progress_partial.
