(** Proofs about Run and Hold in several threads. *)
From Verif Require Import ParModel ParSpec.
From Coq Require Import List Bool Arith Lia.
Import ListNotations.

Lemma set_same i t f : set_thread i t f i = t.
Proof. unfold set_thread. now rewrite Nat.eqb_refl. Qed.
Lemma set_other i j t f : j <> i -> set_thread i t f j = f j.
Proof. unfold set_thread. intros H. apply Nat.eqb_neq in H. now rewrite H. Qed.

(** * Rest *)

Definition pending (t : thread) : Prop :=
  match at_ t with InHold (HLeft | HState) | InRun (RInHold (HLeft | HState)) => True | _ => False end.
Definition prestart (t : thread) : Prop := match at_ t with InRun (REnter | RStart) => True | _ => False end.

Definition Inv (c : config) : Prop :=
  (st c = Executing -> exists i, pending (threads c i) \/ prestart (threads c i) \/ looping (threads c i)) /\
  (st c = Executing -> held c = true -> exists i, pending (threads c i) \/ prestart (threads c i)).

Ltac keep j i t E :=
  destruct (Nat.eq_dec j i) as [->|?];
  [exists i; rewrite set_same; unfold pending, prestart, looping in *; rewrite ?E in *; cbn in *; tauto
  |exists j; rewrite set_other by assumption; assumption].

Lemma inv_step c i b : Inv c -> Inv (fst (step c i b)).
Proof.
  intros [A B]. unfold step. destruct (threads c i) as [p todo_] eqn:T. cbn [at_ todo].
  destruct p as [|p|p].
  - destruct todo_ as [|[] r]; cbn [fst]; [split; assumption| |]; split; cbn [st held threads]; intros S.
    + destruct (A S) as (j & P). keep j i p T.
    + intros H. destruct (B S H) as (j & P). keep j i p T.
    + destruct (A S) as (j & P). keep j i p T.
    + intros H. destruct (B S H) as (j & P). keep j i p T.
  - destruct p as [| | | | | | | | | |h|]; cbn [run_step fst];
      [destruct (st c) eqn:Z|destruct (is_last (lastg c) LeaveStandby)|destruct (is_last (lastg c) EnterStandby)| | | | |
       destruct b|destruct (held c) eqn:Hc|destruct b| |].
    all: try (destruct h; cbn [hold_step]; [destruct (st c) eqn:Z|destruct (is_last (lastg c) LeaveExecuting)| | | | | | ]).
    all: split; cbn [st held threads fst]; intros S; try discriminate S; try intros H; try discriminate H.
    all: try (destruct (A S) as (j & P); keep j i p T).
    all: try (destruct (B S H) as (j & P); keep j i p T).
    all: try (exists i; rewrite set_same; unfold pending, prestart, looping; cbn; tauto).
    all: try (destruct (B S eq_refl) as (j & P); destruct (Nat.eq_dec j i) as [->|?];
              [unfold pending, prestart in P; rewrite T in P; cbn in P; tauto
              |exists j; rewrite set_other by assumption; tauto]).
    all: try (destruct (B S eq_refl) as (j & P); keep j i p T).
    all: try congruence.
  - destruct p; cbn [hold_step fst]; [destruct (st c) eqn:Z|destruct (is_last (lastg c) LeaveExecuting)| | | | | | ].
    all: split; cbn [st held threads fst]; intros S; try discriminate S; try intros H; try discriminate H.
    all: try (destruct (A S) as (j & P); keep j i p T).
    all: try (destruct (B S H) as (j & P); keep j i p T).
    all: try (exists i; rewrite set_same; unfold pending, prestart, looping; cbn; tauto).
    all: try congruence.
Qed.

Lemma inv_run l : forall c, Inv c -> Inv (fst (run c l)).
Proof.
  induction l as [|[i b] r IH]; intros c I; [exact I|]. cbn [run].
  pose proof (inv_step c i b I) as J. destruct (step c i b) as [c1 o]. cbn [fst] in J.
  specialize (IH c1 J). destruct (run c1 r) as [c2 os]. exact IH.
Qed.

Lemma rest calls l : (forall i, returned (threads (fst (run (start calls) l)) i)) -> st (fst (run (start calls) l)) = Standby.
Proof.
  intros R. assert (I : Inv (start calls)) by (split; discriminate).
  destruct (inv_run l _ I) as [A _]. destruct (st (fst (run (start calls) l))); [reflexivity|].
  destruct (A eq_refl) as (i & P). specialize (R i). unfold returned in R. unfold pending, prestart, looping in P.
  rewrite R in P. cbn in P. tauto.
Qed.

(** * Hold *)

Definition hleft (p : hpc) : nat :=
  match p with HReadState => 9 | HReadLast => 8 | HLeave => 7 | HStatus => 6 | HLeft => 5 | HState => 4 | HEnter => 3
  | HEntered => 2 end.
Definition left_ (t : thread) : nat :=
  match at_ t with
  | InRun RExec => 10 | InRun (RInHold p) => hleft p | InRun RCheck => 1 | InRun REnd => 0 | _ => 0
  end.
Definition ending (t : thread) : Prop :=
  match at_ t with InRun (RCheck | RExec | RInHold _ | REnd) => True | _ => False end.
Definition about (t : thread) : nat := match at_ t with InRun RExec => 1 | _ => 0 end.

Lemma hold_held s g h p : h = true -> snd (fst (hold_step s g h p)) = true.
Proof. intros ->. destruct p; reflexivity. Qed.

(** A step of another thread. *)
Lemma other_step c a i b : i <> a -> held c = true -> (forall j, j <> a -> no_run (threads c j)) ->
  held (fst (step c i b)) = true /\ (forall j, j <> a -> no_run (threads (fst (step c i b)) j)) /\
  threads (fst (step c i b)) a = threads c a.
Proof.
  intros N H R. pose proof (R i N) as Ri. unfold step. destruct (threads c i) as [p td] eqn:T. unfold no_run in Ri. cbn [at_ todo] in *.
  destruct Ri as [R1 R2]. destruct p as [|p|p]; [|contradiction|].
  - destruct td as [|[] r]; cbn [fst]; [auto|exfalso; apply R1; now left|]. cbn [held threads]. split; [exact H|]. split.
    + intros j Nj. destruct (Nat.eq_dec j i) as [->|?]; [rewrite set_same|rewrite set_other by assumption; now apply R].
      split; cbn; [intros K; apply R1; now right|exact I].
    + apply set_other. congruence.
  - pose proof (hold_held (st c) (lastg c) (held c) p H) as HH.
    destruct (hold_step (st c) (lastg c) (held c) p) as [[[s' g'] h'] q]. cbn [fst snd] in *. cbn [held threads].
    split; [exact HH|]. split.
    + intros j Nj. destruct (Nat.eq_dec j i) as [->|?]; [rewrite set_same|rewrite set_other by assumption; now apply R].
      split; cbn; [exact R1|]. destruct q; exact I.
    + apply set_other. congruence.
Qed.

(** A step of the thread of the run. *)
Lemma own_step c a b : held c = true -> ending (threads c a) -> (forall j, j <> a -> no_run (threads c j)) ->
  snd (step c a b) <> Returned ->
  let c' := fst (step c a b) in
  held c' = true /\ ending (threads c' a) /\ (forall j, j <> a -> no_run (threads c' j)) /\
  left_ (threads c' a) < left_ (threads c a) /\
  (match snd (step c a b) with Executed => 1 | _ => 0 end) + about (threads c' a) <= about (threads c a).
Proof.
  intros H E R NR. cbn zeta. unfold step in *. destruct (threads c a) as [p td] eqn:T. unfold ending in E. cbn [at_ todo] in *.
  destruct p as [|p|p]; try contradiction.
  assert (K : forall t j, j <> a -> no_run (set_thread a t (threads c) j)) by (intros t j Nj; rewrite set_other by assumption; now apply R).
  destruct p as [| | | | | | | | | |h|]; try contradiction.
  - cbn [run_step] in *. rewrite H in *. cbn [fst snd held threads]. rewrite set_same. cbn. repeat split; auto; try (apply K; assumption).
  - cbn [run_step] in *. cbn [fst snd held threads]. rewrite set_same. destruct b; cbn; repeat split; auto; try (apply K; assumption); lia.
  - cbn [run_step] in *. pose proof (hold_held (st c) (lastg c) (held c) h H) as HH.
    destruct h; cbn [hold_step] in *; cbn [fst snd held threads] in *; rewrite set_same;
      try (destruct (st c)); try (destruct (is_last (lastg c) LeaveExecuting)); cbn;
      repeat split; auto; try (apply K; assumption); lia.
Qed.

Definition steps_of (a : nat) (l : list (nat * bool)) : nat := length (filter (fun x => Nat.eqb (fst x) a) l).

Lemma hold_run a l : forall c c' os, held c = true -> ending (threads c a) -> (forall j, j <> a -> no_run (threads c j)) ->
  run c l = (c', os) -> ~ In (a, Returned) os ->
  steps_of a l <= left_ (threads c a) /\ executed a os <= about (threads c a).
Proof.
  induction l as [|[i b] r IH]; intros c c' os H E R U N.
  - injection U as <- <-. cbn. lia.
  - cbn [run] in U. destruct (step c i b) as [c1 o] eqn:S. destruct (run c1 r) as [c2 os'] eqn:V. injection U as <- <-.
    destruct (Nat.eq_dec i a) as [->|Ni].
    + pose proof (own_step c a b H E R) as W. rewrite S in W. cbn [fst snd] in W.
      destruct W as (H1 & E1 & R1 & L1 & A1); [intros ->; apply N; now left|].
      destruct (IH c1 c2 os' H1 E1 R1 V) as [P Q]; [intros K; apply N; now right|].
      unfold steps_of, executed in *. cbn [filter fst]. rewrite Nat.eqb_refl. cbn [length].
      destruct o; cbn [length]; rewrite ?Nat.eqb_refl; cbn [length]; lia.
    + pose proof (other_step c a i b Ni H R) as W. rewrite S in W. cbn [fst] in W. destruct W as (H1 & R1 & T1).
      destruct (IH c1 c2 os' H1) as [P Q]; [now rewrite T1|exact R1|exact V|intros K; apply N; now right|].
      rewrite T1 in P, Q. unfold steps_of, executed in *. cbn [filter fst]. apply Nat.eqb_neq in Ni. rewrite Ni.
      destruct o; rewrite ?Ni; auto.
Qed.

(** * The lost hold *)

Definition stuck (c : config) : Prop :=
  st c = Standby /\ held c = false /\
  match at_ (threads c 0) with InRun (RCheck | RExec | RInHold HReadState) => True | _ => False end /\
  forall j, j <> 0 -> ~ In CRun (todo (threads c j)) /\ match at_ (threads c j) with Idle | InHold HReadState => True | _ => False end.

Lemma stuck_step c i b : stuck c -> stuck (fst (step c i b)).
Proof.
  intros (S & H & Z & R). unfold step. destruct (Nat.eq_dec i 0) as [->|N].
  - destruct (threads c 0) as [p td] eqn:T. cbn [at_ todo] in *. destruct p as [|p|p]; try contradiction.
    assert (K : forall t j, j <> 0 -> ~ In CRun (todo (set_thread 0 t (threads c) j)) /\
              match at_ (set_thread 0 t (threads c) j) with Idle | InHold HReadState => True | _ => False end)
      by (intros t j Nj; rewrite set_other by assumption; now apply R).
    destruct p as [| | | | | | | | | |h|]; try contradiction.
    + cbn [run_step]. rewrite H. cbn [fst]. repeat split; auto; cbn [threads]; rewrite ?set_same; cbn; auto; now apply K.
    + cbn [run_step fst]. destruct b; repeat split; auto; cbn [threads]; rewrite ?set_same; cbn; auto; now apply K.
    + destruct h; try contradiction. cbn [run_step hold_step]. rewrite S. cbn [fst]. repeat split; auto; cbn [threads]; rewrite ?set_same; cbn; auto; now apply K.
  - pose proof (R i N) as Ri. destruct (threads c i) as [p td] eqn:T. cbn [at_ todo] in *. destruct Ri as [R1 R2].
    assert (K : forall t, ~ In CRun (todo t) -> match at_ t with Idle | InHold HReadState => True | _ => False end ->
              forall j, j <> 0 -> ~ In CRun (todo (set_thread i t (threads c) j)) /\
              match at_ (set_thread i t (threads c) j) with Idle | InHold HReadState => True | _ => False end).
    { intros t A B j Nj. destruct (Nat.eq_dec j i) as [->|?]; [rewrite set_same; auto|rewrite set_other by assumption; now apply R]. }
    assert (L : forall t, set_thread i t (threads c) 0 = threads c 0) by (intros t; apply set_other; auto).
    destruct p as [|p|p]; try contradiction.
    + destruct td as [|[] r]; cbn [fst]; [exact (conj S (conj H (conj Z R)))|exfalso; apply R1; now left|].
      split; [exact S|]. split; [exact H|]. cbn [threads]. rewrite L. split; [exact Z|]. apply K; cbn; [intros X; apply R1; now right|exact I].
    + destruct p; try contradiction. cbn [hold_step]. rewrite S. cbn [fst]. split; [reflexivity|]. split; [exact H|]. cbn [threads].
      rewrite L. split; [exact Z|]. apply K; cbn; [exact R1|exact I].
Qed.

Lemma stuck_run l : forall c, stuck c -> stuck (fst (run c l)).
Proof.
  induction l as [|[i b] r IH]; intros c I; [exact I|]. cbn [run].
  pose proof (stuck_step c i b I) as J. destruct (step c i b) as [c1 o]. cbn [fst] in J.
  specialize (IH c1 J). destruct (run c1 r) as [c2 os]. exact IH.
Qed.

Lemma goes_on n : forall c, held c = false -> at_ (threads c 0) = InRun RCheck -> exists l, executed 0 (snd (run c l)) = n.
Proof.
  induction n as [|n IH]; intros c H T; [exists []; reflexivity|].
  destruct (IH (fst (run c [(0, false); (0, false)]))) as (l & E).
  - cbn [run]. unfold step. rewrite T. cbn [run_step]. rewrite H. cbn [fst threads]. rewrite set_same. cbn. reflexivity.
  - cbn [run]. unfold step. rewrite T. cbn [run_step]. rewrite H. cbn [fst threads]. rewrite set_same. cbn. reflexivity.
  - exists ((0, false) :: (0, false) :: l). cbn [run] in *. unfold step in *. rewrite T in *. cbn [run_step] in *. rewrite H in *.
    cbn [fst threads] in *. rewrite set_same in *. cbn [at_ run_step fst] in *. 
    match goal with |- context [run ?x l] => destruct (run x l) as [c2 os] end. cbn [snd] in *.
    unfold executed in *. cbn [filter]. cbn [Nat.eqb length]. now rewrite E.
Qed.

(** The two threads in the order that loses the hold. *)
Definition lost : list (nat * bool) :=
  map (fun i => (i, false)) ([0; 0; 0; 0; 0; 0; 0] ++ [1; 1; 1; 1; 1; 1; 1; 1; 1] ++ [0; 0]).

(** Only threads that have Run to call are ever in it. *)
Lemma only_runner calls a l : (forall i, i <> a -> ~ In CRun (calls i)) ->
  forall j, j <> a -> no_run (threads (fst (run (start calls) l)) j).
Proof.
  intros H. destruct (run (start calls) l) as [c os] eqn:E. cbn [fst].
  revert E. generalize (fun j (Nj : j <> a) => conj (H j Nj) I : no_run (threads (start calls) j)). generalize (start calls).
    revert c os. clear -a. induction l as [|[i x] r IH]; intros c os d K E; [injection E as <- <-; exact K|].
    cbn [run] in E. destruct (step d i x) as [d1 o] eqn:S. destruct (run d1 r) as [d2 os'] eqn:V. injection E as <- <-.
    refine (IH d2 os' d1 _ V). intros j Nj. destruct (Nat.eq_dec i a) as [->|Ni].
    - replace (threads d1 j) with (threads d j); [now apply K|]. unfold step in S. destruct (threads d a) as [p td]. cbn [at_ todo] in S.
      destruct p as [|p|p].
      + destruct td as [|[] ?]; injection S as <- <-; cbn [threads]; rewrite ?set_other by assumption; reflexivity.
      + destruct (run_step x (st d) (lastg d) (held d) p) as [[[? ?] ?] ?]. injection S as <- <-. cbn [threads]. now rewrite set_other.
      + destruct (hold_step (st d) (lastg d) (held d) p) as [[[? ?] ?] ?]. injection S as <- <-. cbn [threads]. now rewrite set_other.
    - destruct (Nat.eq_dec j i) as [->|Nji].
      + pose proof (K i Ni) as Ki. unfold step in S. destruct (threads d i) as [p td]. unfold no_run in Ki. cbn [at_ todo] in *.
        destruct Ki as [K1 K2]. destruct p as [|p|p]; [|contradiction|].
        * destruct td as [|[] ?]; injection S as <- <-; [now apply K|exfalso; apply K1; now left|]. cbn [threads]. rewrite set_same.
          split; cbn; [intros X; apply K1; now right|exact I].
        * destruct (hold_step (st d) (lastg d) (held d) p) as [[[? ?] ?] q]. injection S as <- <-. cbn [threads]. rewrite set_same.
          split; cbn; [exact K1|]. destruct q; exact I.
      + replace (threads d1 j) with (threads d j); [now apply K|]. unfold step in S. destruct (threads d i) as [p td]. cbn [at_ todo] in S.
        destruct p as [|p|p].
        * destruct td as [|[] ?]; injection S as <- <-; cbn [threads]; rewrite ?set_other by assumption; reflexivity.
        * destruct (run_step x (st d) (lastg d) (held d) p) as [[[? ?] ?] ?]. injection S as <- <-. cbn [threads]. now rewrite set_other.
        * destruct (hold_step (st d) (lastg d) (held d) p) as [[[? ?] ?] ?]. injection S as <- <-. cbn [threads]. now rewrite set_other.
Qed.

(** * One thread alone *)
Definition emitting (p : pc) (g : option gev) : Prop :=
  match p with
  | InHold (HStatus | HLeft) | InRun (RInHold (HStatus | HLeft)) => g = Some LeaveExecuting
  | InHold HEntered | InRun (RInHold HEntered) => g = Some EnterStandby
  | InRun RLeft => g = Some LeaveStandby
  | _ => True
  end.
Definition standing (p : pc) (s : sstate) : Prop :=
  match p with
  | InHold (HReadLast | HLeave | HStatus | HLeft | HState) | InRun (RInHold (HReadLast | HLeave | HStatus | HLeft | HState)) => s = Executing
  | InHold (HEnter | HEntered) | InRun (RInHold (HEnter | HEntered)) => s = Standby
  | InRun (RReadLast1 | RReadLast2 | RLeave | RLeft | RState) => s = Standby
  | _ => True
  end.
Lemma alone_step c b x : emitting (at_ (threads c b)) (lastg c) /\ standing (at_ (threads c b)) (st c) ->
  let c' := fst (step c b x) in emitting (at_ (threads c' b)) (lastg c') /\ standing (at_ (threads c' b)) (st c').
Proof.
  destruct c as [s g h f]. unfold step. cbn [st lastg held threads]. destruct (f b) as [p td] eqn:F. cbn [at_ todo].
  destruct p as [|p|p].
  - destruct td as [|[] td]; cbn; rewrite ?F, ?set_same; cbn; auto.
  - destruct p as [| | | | | | | | | |p|]; try destruct p; cbn [run_step hold_step];
      destruct s, h, x; cbn; try (destruct (is_last g LeaveStandby)); try (destruct (is_last g EnterStandby));
      try (destruct (is_last g LeaveExecuting)); cbn; rewrite ?set_same; cbn; intuition congruence.
  - destruct p; cbn [hold_step]; destruct s, h; cbn; try (destruct (is_last g LeaveExecuting)); cbn; rewrite ?set_same; cbn; intuition congruence.
Qed.
Lemma alone_run b l : (forall x, In x l -> fst x = b) -> forall c,
  emitting (at_ (threads c b)) (lastg c) /\ standing (at_ (threads c b)) (st c) ->
  let c' := fst (run c l) in (emitting (at_ (threads c' b)) (lastg c') /\ standing (at_ (threads c' b)) (st c')) /\
    forall i, i <> b -> threads c' i = threads c i.
Proof.
  induction l as [|[i x] l IH]; intros O c H; [cbn; auto|]. cbn [run].
  pose proof (O (i, x) (or_introl eq_refl)) as Q. cbn in Q. subst i.
  pose proof (alone_step c b x H) as H1.
  assert (H2 : forall j, j <> b -> threads (fst (step c b x)) j = threads c j).
  { intros j N. unfold step. destruct (at_ (threads c b)) as [|p|p].
    - destruct (todo (threads c b)) as [|[] ?]; cbn; [reflexivity|now apply set_other|now apply set_other].
    - destruct (run_step x (st c) (lastg c) (held c) p) as [[[? ?] ?] ?]. cbn. now apply set_other.
    - destruct (hold_step (st c) (lastg c) (held c) p) as [[[? ?] ?] ?]. cbn. now apply set_other. }
  destruct (step c b x) as [c1 o]. cbn [fst] in *. specialize (IH (fun y I => O y (or_intror I)) c1 H1).
  destruct (run c1 l) as [c2 os]. cbn [fst] in *. destruct IH as [A B]. split; [exact A|].
  intros j N. rewrite (B j N). now apply H2.
Qed.

Lemma run_refused c a r : threads c a = Thread Idle (CRun :: r) -> st c = Standby ->
  lastg c = Some EnterStandby \/ lastg c = Some LeaveStandby ->
  exists n c' os, run c (repeat (a, false) n) = (c', os) /\ threads c' a = Thread Idle r /\ no_effect a c c' os.
Proof.
  destruct c as [s g h f]. cbn [st lastg threads]. intros A -> G. destruct G as [-> | ->].
  - exists 4. do 2 eexists. split; [cbn; unfold step; cbn [threads at_ todo st lastg held]; rewrite A; cbn; rewrite ?set_same; cbn; rewrite ?set_same; cbn; rewrite ?set_same; cbn; reflexivity|].
    cbn. rewrite set_same. split; [reflexivity|]. unfold no_effect. cbn. repeat split; try tauto.
    + intros i N. rewrite !set_other by exact N. reflexivity.
  - exists 3. do 2 eexists. split; [cbn; unfold step; cbn [threads at_ todo st lastg held]; rewrite A; cbn; rewrite ?set_same; cbn; rewrite ?set_same; cbn; reflexivity|].
    cbn. rewrite set_same. split; [reflexivity|]. unfold no_effect. cbn. repeat split; try tauto.
    + intros i N. rewrite !set_other by exact N. reflexivity.
Qed.
Lemma hold_refused c a r : threads c a = Thread Idle (CHold :: r) -> 
  lastg c = Some LeaveExecuting \/ st c = Standby ->
  exists n c' os, run c (repeat (a, false) n) = (c', os) /\ threads c' a = Thread Idle r /\ no_effect a c c' os.
Proof.
  destruct c as [s g h f]. cbn [st lastg threads]. intros A G.
  assert (X : s = Standby \/ (s = Executing /\ g = Some LeaveExecuting)) by (destruct s; [now left|right; split; [reflexivity|destruct G; [assumption|discriminate]]]).
  destruct X as [-> | [-> ->]].
  - exists 2. do 2 eexists. split; [cbn; unfold step; cbn [threads at_ todo st lastg held]; rewrite A; cbn; rewrite ?set_same; cbn; reflexivity|].
    cbn. rewrite set_same. split; [reflexivity|]. unfold no_effect. cbn. repeat split; try tauto.
    + intros i N. rewrite !set_other by exact N. reflexivity.
  - exists 3. do 2 eexists. split; [cbn; unfold step; cbn [threads at_ todo st lastg held]; rewrite A; cbn; rewrite ?set_same; cbn; rewrite ?set_same; cbn; reflexivity|].
    cbn. rewrite set_same. split; [reflexivity|]. unfold no_effect. cbn. repeat split; try tauto.
    + intros i N. rewrite !set_other by exact N. reflexivity.
Qed.
