(** C48: every log message is delivered exactly once, in order. *)
From Coq Require Import ZArith List Bool Arith Lia.
From Verif Require Import Base LogQueueModel LogQueueProofs.
Import ListNotations.
Local Open Scope nat_scope.

(** The messages logged in an interleaving, in the order of the calls. *)
Definition logged (l : list label) : list msg :=
  flat_map (fun e => match e with EPush m => [m] | _ => [] end) l.

Lemma pushed_logged : forall n l s s', l_run n s l = Some s' -> pushed s' = pushed s ++ logged l.
Proof.
  intros n. induction l as [|e l IH]; intros s s' H; simpl in H.
  - injection H as <-. simpl. now rewrite app_nil_r.
  - destruct (l_step n s e) as [s1|] eqn:E; [|discriminate].
    rewrite (IH s1 s' H). unfold logged. cbn [flat_map].
    rewrite app_assoc. f_equal. destruct e; cbn [l_step] in E.
    + destruct (_ || _); [discriminate|]. injection E as <-. reflexivity.
    + destruct (_ || _); [discriminate|]. injection E as <-. simpl. now rewrite app_nil_r.
    + destruct (notifies s); [discriminate|]. injection E as <-. simpl. now rewrite app_nil_r.
    + destruct (worker s); try discriminate. injection E as <-. simpl. now rewrite app_nil_r.
    + rewrite app_nil_r. unfold worker_step in E.
      destruct (worker s); try discriminate; try (injection E as <-; reflexivity);
        destruct (k <? n); injection E as <-; reflexivity.
Qed.

(** At any time every appender was given the first messages logged, each once and
    in the order they were logged, and nothing else. *)
Theorem C48_once_in_order : forall n l s i,
  l_run n l_init l = Some s -> i < n ->
  exists later, logged l = delivered s i ++ later.
Proof.
  intros n l s i H L. pose proof (l_run_inv n l _ _ (l_inv_init n) H) as I.
  pose proof (pushed_logged n l _ _ H) as P. simpl in P. rewrite <- P.
  exists (pending s i). now apply (li_all n s I).
Qed.

(** When the worker is done, all of them. *)
Theorem C48_all_delivered : forall n l s i,
  l_run n l_init l = Some s -> worker s = WDone -> i < n -> delivered s i = logged l.
Proof.
  intros n l s i H D L. pose proof (l_run_inv n l _ _ (l_inv_init n) H) as I.
  pose proof (pushed_logged n l _ _ H) as P. simpl in P. rewrite <- P.
  pose proof (li_all n s I i L) as A. pose proof (li_final n s I) as F. rewrite D in F.
  unfold pending in A. rewrite D in A. destruct F as [_ F]. rewrite F, app_nil_r in A. now symmetry.
Qed.

(** Once the destructor has called Stop, whatever the scheduling and the spurious
    wake-ups, only a bounded number of steps remain, and as long as the worker is
    not done it, or a thread that still has to notify it, can go on: the join
    returns. *)
Theorem C48_destruction_terminates : forall n l s,
  l_run n l_init l = Some s -> running s = false ->
  (exists bound, forall l' s', l_run n s l' = Some s' -> length l' <= bound) /\
  (forall l' s', l_run n s l' = Some s' -> worker s' <> WDone ->
     (exists s'', l_step n s' EWorker = Some s'') \/ (exists s'', l_step n s' ENotify = Some s'')).
Proof.
  intros n l s H R. pose proof (l_run_inv n l _ _ (l_inv_init n) H) as I. split.
  - exists (measure n s). intros l'. revert s R I H. clear.
    intros s R I _. revert s R I.
    induction l' as [|e l' IH]; intros s R I s' E; simpl; [lia|]. simpl in E.
    destruct (l_step n s e) as [s1|] eqn:E1; [|discriminate].
    destruct (l_step_measure n s e s1 I R E1) as [R1 M].
    pose proof (IH s1 R1 (l_step_inv n s e s1 I E1) s' E). lia.
  - intros l' s' E D. apply progress; [eapply l_run_inv; eassumption| |exact D].
    right. clear H. revert s R I E. induction l' as [|e l' IH]; intros s R I E; simpl in E.
    + congruence.
    + destruct (l_step n s e) as [s1|] eqn:E1; [|discriminate].
      destruct (l_step_measure n s e s1 I R E1) as [R1 _].
      apply (IH s1 R1 (l_step_inv n s e s1 I E1) E).
Qed.

(** While the logger is running and nobody logs, the worker delivers all messages
    in a bounded number of steps: no wake-up is lost. *)
Theorem C48_delivered_while_running : forall n l s,
  l_run n l_init l = Some s -> running s = true ->
  (exists bound, forall l' s', Forall (fun e => e = ENotify \/ e = EWorker) l' ->
     l_run n s l' = Some s' -> length l' <= bound) /\
  (forall i, i < n -> l_step n s EWorker = None -> l_step n s ENotify = None ->
     delivered s i = logged l).
Proof.
  intros n l s H R. pose proof (l_run_inv n l _ _ (l_inv_init n) H) as I. split.
  - exists (drain n s). intros l'. clear H. revert s R I.
    induction l' as [|e l' IH]; intros s R I s' F E; simpl; [lia|]. simpl in E.
    inversion F as [|? ? F1 F2]; subst.
    destruct (l_step n s e) as [s1|] eqn:E1; [|discriminate].
    destruct (l_step_drain n s e s1 I R F1 E1) as [R1 M].
    pose proof (IH s1 R1 (l_step_inv n s e s1 I E1) s' F2 E). lia.
  - intros i L W N. pose proof (pushed_logged n l _ _ H) as P. simpl in P. rewrite <- P.
    pose proof (li_all n s I i L) as A. pose proof (li_final n s I) as F.
    destruct (queue s) as [|x q] eqn:Q.
    + rewrite A. unfold pending. rewrite Q. destruct (worker s); try (now rewrite app_nil_r);
      destruct (i <? k); now rewrite app_nil_r.
    + destruct (progress n s I) as [[s1 X]|[s1 X]]; try congruence.
      * left. rewrite Q. discriminate.
      * intros D. rewrite D in F. destruct F. congruence.
Qed.

(** Two appenders, two messages, one of them logged while the worker delivers the
    first, and the destructor started in the middle. *)
Example C48_example :
  exists s, l_run 2 l_init
    [EWorker; EWorker; EWorker; EWorker; EPush 7%Z; ENotify; EWorker; EWorker; EWorker; EWorker;
     EWorker; EPush 8%Z; EStop; EWorker; EWorker; EWorker; EWorker; EWorker; EWorker; EWorker; ENotify; ENotify;
     EWorker; EWorker; EWorker]
    = Some s /\ worker s = WDone /\ delivered s 0 = [7%Z; 8%Z] /\ delivered s 1 = [7%Z; 8%Z].
Proof. eexists. split; [vm_compute; reflexivity|]. repeat split. Qed.

Print Assumptions C48_once_in_order.
Print Assumptions C48_all_delivered.
Print Assumptions C48_destruction_terminates.
Print Assumptions C48_delivered_while_running.
