(** C96: Run and Hold called by several threads. *)
From Verif Require Import ParModel ParSpec ParProofs.
From Coq Require Import List Bool Arith Lia.
Import ListNotations.

(** Whatever the threads do, the simulator is in Standby once all calls have returned. *)
Theorem C96_rest calls l c os : run (start calls) l = (c, os) -> (forall i, returned (threads c i)) -> st c = Standby.
Proof. intros E R. pose proof (rest calls l) as H. rewrite E in H. exact (H R). Qed.

(** A Hold(true) that comes while the loop runs, from the same or another thread, lets it
    execute at most one more event, and after at most 10 steps of its thread the call of Run
    is about to return.  Missing: a Hold before the loop has begun, other calls of Run. *)
Theorem C96_hold_partial c b x c1 a l c' os :
  step c b x = (c1, HoldTaken) -> looping (threads c1 a) -> (forall i, i <> a -> no_run (threads c1 i)) ->
  run c1 l = (c', os) -> ~ In (a, Returned) os ->
  executed a os <= 1 /\ length (filter (fun s => Nat.eqb (fst s) a) l) <= 10.
Proof.
  intros S L R U N.
  assert (H : held c1 = true).
  { unfold step in S. destruct (threads c b) as [p td]. cbn [at_ todo] in S. destruct p as [|p|p].
    - destruct td as [|[] ?]; discriminate.
    - destruct p as [| | | | | | | | | |h|]; cbn [run_step] in S;
        try (destruct (st c)); try (destruct (is_last (lastg c) LeaveStandby)); try (destruct (is_last (lastg c) EnterStandby));
        try (destruct (held c)); try destruct x; try discriminate S.
      all: destruct h; cbn [hold_step] in S; try (destruct (is_last (lastg c) LeaveExecuting)); try discriminate S; injection S as <-; reflexivity.
    - destruct p; cbn [hold_step] in S; try (destruct (st c)); try (destruct (is_last (lastg c) LeaveExecuting)); try discriminate S;
        injection S as <-; reflexivity. }
  assert (E : ending (threads c1 a)) by (unfold looping, ending in *; destruct (at_ (threads c1 a)) as [|[]|]; tauto).
  destruct (hold_run a l c1 c' os H E R U N) as [A B]. split.
  - unfold about in B. destruct (at_ (threads c1 a)) as [|[]|]; lia.
  - unfold steps_of in A. unfold left_ in A. destruct (at_ (threads c1 a)) as [|[]|]; try lia. destruct h; cbn [hleft] in A; lia.
Qed.

Definition two : nat -> list call := fun i => match i with 0 => [CRun] | 1 => [CHold] | _ => [] end.
Definition sched (l : list nat) : list (nat * bool) := map (fun i => (i, false)) l.

(** The loop runs, then the other thread holds it. *)
Definition till_hold : list nat := [0; 0; 0; 0; 0; 0; 0; 0; 0; 0] ++ [1; 1; 1; 1].
Example C96_hold_example :
  let c := fst (run (start two) (sched till_hold)) in
  let c1 := fst (run (start two) (sched (till_hold ++ [1]))) in
  step c 1 false = (c1, HoldTaken) /\ looping (threads c1 0) /\ (forall i, i <> 0 -> no_run (threads c1 i)) /\
  executed 0 (snd (run c1 (sched [0; 0; 0]))) = 1 /\ st (fst (run c1 (sched [0; 0; 0; 1; 1; 1; 1; 1]))) = Standby /\
  at_ (threads (fst (run c1 (sched [0; 0; 0]))) 0) = Idle.
Proof.
  cbn zeta. split; [reflexivity|]. split; [vm_compute; exact I|]. split.
  - apply only_runner. intros [|[|i]] N; cbn; [congruence| |tauto]. intros [K|[]]; discriminate.
  - split; [vm_compute; reflexivity|]. split; vm_compute; reflexivity.
Qed.

(** A Hold(true) that is accepted before the loop has begun is lost, although it returns
    and the simulator is in Standby: the loop goes on for any number of events, and nothing
    but another Run can ever make it end, however many threads call Hold. *)
Theorem C96_hold_refuted calls : calls 0 = [CRun] -> (exists r, calls 1 = CHold :: r) -> (forall i, i <> 0 -> ~ In CRun (calls i)) ->
  exists l c os, run (start calls) l = (c, os) /\ In (1, HoldTaken) os /\ returned (threads c 1) /\ st c = Standby /\
    (forall n, exists l', executed 0 (snd (run c l')) = n) /\
    (forall l', looping (threads (fst (run c l')) 0)).
Proof.
  intros C0 (r & C1) C. exists lost. unfold lost, start. cbn [map app].
  assert (E : exists c os, run (start calls) lost = (c, os) /\ In (1, HoldTaken) os /\ at_ (threads c 1) = Idle /\ stuck c /\
              at_ (threads c 0) = InRun RCheck).
  { unfold lost, start. cbn [map app run step threads at_ todo]. rewrite C0. cbn. rewrite C1. cbn.
    eexists _, _. split; [reflexivity|]. split; [cbn; tauto|]. split; [reflexivity|]. split; [|reflexivity].
    unfold stuck. cbn. split; [reflexivity|]. split; [reflexivity|]. split; [exact I|].
    intros j N. specialize (C j N). unfold set_thread. destruct j as [|[|j]]; [congruence| |]; cbn.
    - rewrite C1 in C. split; [intros K; apply C; now right|exact I].
    - split; [exact C|exact I]. }
  destruct E as (c & os & E & H & R & S & T). exists c, os. split; [exact E|]. split; [exact H|]. split; [exact R|].
  split; [apply S|]. split.
  - intros n. apply goes_on; [apply S|exact T].
  - intros l'. destruct (stuck_run l' c S) as (_ & _ & L & _). unfold looping. destruct (at_ (threads (fst (run c l')) 0)) as [|[]|]; tauto.
Qed.

Example C96_hold_refuted_example : two 0 = [CRun] /\ two 1 = [CHold] /\ forall i, i <> 0 -> ~ In CRun (two i).
Proof.
  split; [reflexivity|]. split; [reflexivity|]. intros [|[|i]] N; cbn; [congruence| |tauto]. intros [K|[]]; discriminate.
Qed.

(** Two threads can be in the run loop at once: Hold(true) returns before the loop has
    ended, and the state already allows another Run. *)
Theorem C96_one_loop_refuted :
  ~ (forall calls l a b, looping (threads (fst (run (start calls) l)) a) -> looping (threads (fst (run (start calls) l)) b) -> a = b).
Proof.
  intros H.
  specialize (H (fun i => match i with 0 => [CRun] | 1 => [CHold; CRun] | _ => [] end)
    (sched ([0; 0; 0; 0; 0; 0; 0; 0; 0; 0] ++ [1; 1; 1; 1; 1; 1; 1; 1; 1] ++ [1; 1; 1; 1; 1; 1; 1; 1; 1] ++ [0; 0])) 0 1).
  assert (E : 0 = 1) by (apply H; vm_compute; exact I). discriminate.
Qed.

(** It needs two threads that call Run. *)
Theorem C96_one_loop_partial calls l a b c os : (forall i, i <> a -> ~ In CRun (calls i)) ->
  run (start calls) l = (c, os) -> looping (threads c b) -> b = a.
Proof.
  intros H E L. destruct (Nat.eq_dec b a) as [|N]; [assumption|]. exfalso.
  pose proof (only_runner calls a l H) as K. rewrite E in K. cbn [fst] in K.
  specialize (K b N). unfold no_run, looping in *. destruct (at_ (threads c b)); tauto.
Qed.

Example C96_rest_example :
  let l := sched ([0; 0; 0; 0; 0; 0; 0; 0; 0; 0; 0] ++ [1; 1; 1; 1; 1] ++ [0; 0; 0] ++ [1; 1; 1; 1]) in
  forall i, returned (threads (fst (run (start two) l)) i).
Proof. intros l [|[|i]]; vm_compute; reflexivity. Qed.

(** While a thread emits LeaveStandby or EnterStandby, a call of Run by another thread
    returns and does nothing; so does a call of Hold(true) while it emits LeaveExecuting, or
    when the simulator is in Standby. *)
Theorem C96_refused calls b l c os a r :
  (forall x, In x l -> fst x = b) -> run (start calls) l = (c, os) -> a <> b ->
  (calls a = CRun :: r -> within LeaveStandby (threads c b) \/ within EnterStandby (threads c b) ->
     exists n c' os', run c (repeat (a, false) n) = (c', os') /\ threads c' a = Thread Idle r /\ no_effect a c c' os') /\
  (calls a = CHold :: r -> within LeaveExecuting (threads c b) \/ st c = Standby ->
     exists n c' os', run c (repeat (a, false) n) = (c', os') /\ threads c' a = Thread Idle r /\ no_effect a c c' os').
Proof.
  intros O E N. pose proof (alone_run b l O (start calls) (conj Logic.I Logic.I)) as H. rewrite E in H. cbn [fst] in H.
  destruct H as [[G S] T]. specialize (T a N). cbn in T. unfold within. split; intros C W; rewrite C in T.
  - apply (run_refused c a r T); unfold emitting, standing in *.
    all: destruct (at_ (threads c b)) as [|p|p]; [tauto|destruct p as [| | | | | | | | | |p|]; try tauto; destruct p; tauto|destruct p; tauto].
  - apply (hold_refused c a r T); unfold emitting, standing in *. destruct W as [W|W]; [left|now right].
    destruct (at_ (threads c b)) as [|p|p]; [tauto|destruct p as [| | | | | | | | | |p|]; try tauto; destruct p; tauto|destruct p; tauto].
Qed.

Example C96_refused_example :
  let calls := fun i => match i with 0 => [CRun; CHold] | 1 => [CRun] | _ => [CHold] end in
  let run0 n := fst (run (start calls) (repeat (0, true) n)) in
  within LeaveStandby (threads (run0 5) 0) /\ within LeaveExecuting (threads (run0 14) 0) /\ within EnterStandby (threads (run0 17) 0).
Proof. vm_compute. tauto. Qed.

Print Assumptions C96_rest.
Print Assumptions C96_hold_partial.
Print Assumptions C96_hold_refuted.
Print Assumptions C96_one_loop_partial.
Print Assumptions C96_refused.
