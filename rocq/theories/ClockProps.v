(** Theorems about the time keeper used by several threads: C92. *)
From Coq Require Import Permutation.
From Verif Require Import Base Assoc EventProofs ConcSpec ConcModel ConcProofs ConcEvent ClockSpec ClockModel ClockProofs.

(** The history of the calls made on a new time keeper: [ro] and [wo] are the orders in which
    the compiler evaluates operands, [d] the policy of the mutexes, [sch] the schedule. *)
Definition clock_history ro wo d sch : khist := k_hist (krun_conc ro wo d k_init sch).

(** The compiler evaluates the operands of an expression in any order, or from left to right. *)
Definition any_order (ro wo : job -> list klock) : Prop :=
  forall j, Permutation (ro j) (reads j) /\ Permutation (wo j) (writes j).
Definition left_to_right (ro wo : job -> list klock) : Prop := forall j, ro j = reads j /\ wo j = writes j.

(** A reader never waits because a writer waits. *)
Definition readers_first (d : list (nat * kpc) -> nat -> klock -> bool) : Prop := forall c k l, d c k l = false.

Lemma ltr_any ro wo : left_to_right ro wo -> any_order ro wo.
Proof. intros H j. destruct (H j) as [-> ->]. split; apply Permutation_refl. Qed.

(** C92: the times read by any number of threads, while others set the epoch time, the mission
    start and the mission time and one at a time moves the simulation time, are those of some
    order of the calls made one at a time, compatible with their duration: for every order
    of evaluation, policy of the mutexes and schedule. *)
Theorem C92_order_partial : forall ro wo d sch, any_order ro wo ->
  one_driver (clock_history ro wo d sch) -> exists L, explains clock_result (clock_history ro wo d sch) L.
Proof.
  intros ro wo d sch C U.
  destruct (krun_inv ro wo d (fun j => proj1 (C j)) (fun j => proj2 (C j)) sch U) as (K & _). eexists. exact (k_expl _ _ _ _ _ _ _ K).
Qed.

(** A deadlock: whatever the threads do afterwards, the calls never return. *)
Definition never_return ro wo d sch (ks : list nat) : Prop :=
  forall more k, In k ks -> in_progress (clock_history ro wo d (sch ++ more)) k.

(** Every call in progress can be brought to its end, whatever the order of evaluation, if
    readers go first and nobody calls Restore. *)
Theorem C92_calls_return_partial : forall ro wo d sch, any_order ro wo -> readers_first d ->
  no_restore (clock_history ro wo d sch) ->
  exists ks, quiet (clock_history ro wo d (sch ++ map Run ks)).
Proof.
  intros ro wo d sch C R F.
  destruct (kfinish ro wo d (fun j => proj2 (C j)) no_restore) with (n := ktotal ro wo (k_calls (krun_conc ro wo d k_init sch))) (sch := sch)
    as (ks & Q); auto.
  - intros tr k x H k' a b c I. rewrite in_app_iff in I. destruct I as [I|[I|[]]]; [now apply H in I|discriminate].
  - intros s K T H N. apply (no_deadlock_readers ro wo d (fun j => proj1 (C j)) (fun j => proj2 (C j)) anything); auto.
  - exists ks. apply (kquiet anything); [|exact Q]. apply (krun_struct ro wo d (fun j => proj2 (C j))).
Qed.

(** For every policy of the mutexes, if operands are evaluated from left to right and nobody
    calls Store or Restore. *)
Theorem C92_calls_return_ordered_partial : forall ro wo d sch, left_to_right ro wo ->
  no_restore (clock_history ro wo d sch) -> no_store (clock_history ro wo d sch) ->
  exists ks, quiet (clock_history ro wo d (sch ++ map Run ks)).
Proof.
  intros ro wo d sch C F1 F2. pose proof (ltr_any _ _ C) as C'.
  destruct (kfinish ro wo d (fun j => proj2 (C' j)) (fun tr => no_restore tr /\ no_store tr)) with
    (n := ktotal ro wo (k_calls (krun_conc ro wo d k_init sch))) (sch := sch) as (ks & Q); auto.
  - intros tr k x [H1 H2]. split.
    + intros k' a b c I. rewrite in_app_iff in I. destruct I as [I|[I|[]]]; [now apply H1 in I|discriminate].
    + intros k' I. rewrite in_app_iff in I. destruct I as [I|[I|[]]]; [now apply H2 in I|discriminate].
  - intros s K T [H1 H2] N. apply (no_deadlock_ordered ro wo d (fun j => proj1 (C j)) (fun j => proj2 (C j)) anything); auto.
  - exists ks. apply (kquiet anything); [|exact Q]. apply (krun_struct ro wo d (fun j => proj2 (C' j))).
Qed.

(** For all the calls, if operands are evaluated from left to right and readers go first. *)
Theorem C92_calls_return_all_partial : forall ro wo d sch, left_to_right ro wo -> readers_first d ->
  exists ks, quiet (clock_history ro wo d (sch ++ map Run ks)).
Proof.
  intros ro wo d sch C R. pose proof (ltr_any _ _ C) as C'.
  destruct (kfinish ro wo d (fun j => proj2 (C' j)) (fun _ => True)) with
    (n := ktotal ro wo (k_calls (krun_conc ro wo d k_init sch))) (sch := sch) as (ks & Q); auto.
  - intros s K T _ N. apply (no_deadlock_all ro wo d (fun j => proj1 (C j)) (fun j => proj2 (C j)) anything); auto.
  - exists ks. apply (kquiet anything); [|exact Q]. apply (krun_struct ro wo d (fun j => proj2 (C' j))).
Qed.

(** ** Concrete executions *)

Definition no_defer (_ : list (nat * kpc)) (_ : nat) (_ : klock) : bool := false.
Definition writers_first (_ : list (nat * kpc)) (_ : nat) (_ : klock) : bool := true.

Definition moves_timeb (o : kop) : bool :=
  match o with KOpen | KClose | KSetSim _ _ | KRestore _ _ _ => true | _ => false end.

Lemma one_driver_decide tr :
  forallb (fun p => forallb (fun a => forallb (fun b =>
     negb (moves_timeb (snd a) && moves_timeb (snd b) && negb (fst a =? fst b)%nat)) (actives p)) (actives p)) (prefixes tr) = true ->
  one_driver tr.
Proof.
  intros H i o j o' O M M'.
  pose proof (overlap_decide (fun i a j b => moves_timeb a && moves_timeb b && negb (i =? j)%nat) tr H _ _ _ _ O) as X.
  assert (moves_timeb o = true) as E by (destruct o; cbn in *; tauto).
  assert (moves_timeb o' = true) as E' by (destruct o'; cbn in *; tauto).
  cbn beta in X. rewrite E, E' in X. cbn in X. apply negb_false_iff in X. now apply Nat.eqb_eq.
Qed.

(** The simulation time moves from 0 to 10 while a thread sets the mission time and others read
    the epoch and mission times. *)
Definition busy_clock : list (sstep kop) :=
  [Begin KOpen; Run 0; Run 0;
   Begin (KSetEpoch 100); Run 1; Begin KGetEpoch; Run 2; Run 1; Run 2; Run 2; Run 2; Run 2; Run 2; Run 2;
   Run 1; Run 1; Run 1; Run 1; Run 1; Run 1; Run 1; Run 2; Run 2; Run 2; Run 2; Run 2; Run 2;
   Begin (KSetSim 10 20); Begin (KSetMission 7); Begin KGetMission;
   Run 3; Run 3; Run 3; Run 4; Run 3; Run 4; Run 4; Run 5; Run 3; Run 3; Run 4; Run 4; Run 4; Run 4; Run 4; Run 4; Run 4;
   Run 3; Run 5; Run 5; Run 5; Run 5; Run 5; Run 5; Run 5; Run 5;
   Run 3; Run 3; Run 3; Run 3; Run 3; Run 3; Run 3; Run 3;
   Begin KGetMission; Run 6; Run 6; Run 6; Run 6; Run 6; Run 6; Run 6; Run 6; Run 6]%nat.

Example C92_witness :
  clock_history reads writes no_defer busy_clock =
    [Inv 0 KOpen; Ret 0 KDone; Inv 1 (KSetEpoch 100); Inv 2 KGetEpoch; Ret 1 KDone; Ret 2 (KTime 100);
     Inv 3 (KSetSim 10 20); Inv 4 (KSetMission 7); Inv 5 KGetMission; Ret 4 KDone; Ret 5 (KTime 7); Ret 3 KDone;
     Inv 6 KGetMission; Ret 6 (KTime 17)]%nat /\
  one_driver (clock_history reads writes no_defer busy_clock) /\
  no_restore (clock_history reads writes no_defer busy_clock) /\
  no_store (clock_history reads writes no_defer busy_clock) /\
  left_to_right reads writes /\ any_order reads writes /\ readers_first no_defer.
Proof.
  assert (E : clock_history reads writes no_defer busy_clock =
    [Inv 0 KOpen; Ret 0 KDone; Inv 1 (KSetEpoch 100); Inv 2 KGetEpoch; Ret 1 KDone; Ret 2 (KTime 100);
     Inv 3 (KSetSim 10 20); Inv 4 (KSetMission 7); Inv 5 KGetMission; Ret 4 KDone; Ret 5 (KTime 7); Ret 3 KDone;
     Inv 6 KGetMission; Ret 6 (KTime 17)]%nat) by reflexivity.
  rewrite E. split; [reflexivity|]. split; [apply one_driver_decide; reflexivity|]. split; [|split].
  - intros k a b c I. cbn in I. repeat (destruct I as [I|I]; [discriminate|]). destruct I.
  - intros k I. cbn in I. repeat (destruct I as [I|I]; [discriminate|]). destruct I.
  - assert (L : left_to_right reads writes) by (intros j; auto). split; [exact L|]. split; [now apply ltr_any|].
    intros c k l. reflexivity.
Qed.

(** Two calls of SetSimulationTime that overlap may move the time backwards: both compare with
    the current time before either changes it. *)
Definition race_set : list (sstep kop) :=
  [Begin KOpen; Run 0; Run 0; Begin (KSetSim 10 20); Begin (KSetSim 5 20);
   Run 1; Run 1; Run 1; Run 1; Run 1; Run 2; Run 2; Run 2; Run 2; Run 2;
   Run 1; Run 1; Run 1; Run 1; Run 1; Run 1;
   Begin KGetSim; Run 3; Run 3; Run 3; Run 3; Run 3;
   Run 2; Run 2; Run 2; Run 2; Run 2; Run 2;
   Begin KGetSim; Run 4; Run 4; Run 4; Run 4; Run 4]%nat.

Lemma sim_forward L : forall c, (forall k o x, In (k, o, x) L -> forall a b d, o <> KRestore a b d) ->
  sim c <= sim (clock_after c L).
Proof.
  induction L as [|[[k o] x] L IH]; intros c H; [cbn; lia|]. cbn [clock_after].
  assert (sim (effect c o) <= sim (clock_after (effect c o) L)) by (apply IH; intros; apply (H k0 o0 x0); now right).
  assert (sim c <= sim (effect c o)); [|lia].
  assert (forall a b d, o <> KRestore a b d) by (apply (H k o x); now left).
  destruct o as [| | | |e|m|m| | |t m| |a b d]; cbn [effect sim]; try lia; [|now edestruct H1].
  destruct (changing c && accepts c t m) eqn:A; [|lia]. cbn. unfold accepts in A.
  apply andb_true_iff in A. destruct A as [_ A]. apply andb_true_iff in A. destruct A as [A _]. apply Z.leb_le in A. lia.
Qed.

Lemma clock_after_app A B : forall c, clock_after c (A ++ B) = clock_after (clock_after c A) B.
Proof. induction A as [|[[k o] x] A IH]; intros c; cbn; auto. Qed.

Theorem C92_backwards_refuted : exists ro wo d sch, left_to_right ro wo /\ readers_first d /\
  clock_history ro wo d sch =
    [Inv 0 KOpen; Ret 0 KDone; Inv 1 (KSetSim 10 20); Inv 2 (KSetSim 5 20); Ret 1 KDone;
     Inv 3 KGetSim; Ret 3 (KTime 10); Ret 2 KDone; Inv 4 KGetSim; Ret 4 (KTime 5)]%nat /\
  forall L, ~ explains clock_result (clock_history ro wo d sch) L.
Proof.
  exists reads, writes, no_defer, race_set. split; [intros j; auto|]. split; [intros c k l; reflexivity|].
  match goal with |- ?h = ?l /\ _ => assert (E : h = l) by reflexivity end. rewrite E. clear E. split; [reflexivity|].
  match goal with |- forall L, ~ explains _ ?l _ => set (tr := l) end.
  intros L X.
  assert (U : forall k o, In (Inv k o) tr ->
     o = match k with 0 => KOpen | 1 => KSetSim 10 20 | 2 => KSetSim 5 20 | _ => KGetSim end%nat).
  { intros k o I. cbn in I. repeat (destruct I as [I|I]; [try discriminate; try (injection I as <- <-; reflexivity)|]). destruct I. }
  destruct (x_returned _ _ _ X 4%nat (KTime 5)) as (o4 & D4); [cbn; tauto|].
  pose proof (U _ _ (x_begun _ _ _ X _ _ _ D4)) as ->.
  apply in_split in D4. destruct D4 as (A & B & E).
  pose proof (x_result _ _ _ X _ _ _ _ _ E) as R4. cbn in R4. injection R4 as R4.
  assert (B34 : before tr 3 4).
  { exists [Inv 0 KOpen; Ret 0 KDone; Inv 1 (KSetSim 10 20); Inv 2 (KSetSim 5 20); Ret 1 KDone; Inv 3 KGetSim]%nat,
      (KTime 10), [Ret 2 KDone]%nat, KGetSim, [Ret 4 (KTime 5)]%nat. reflexivity. }
  destruct (x_order _ _ _ X _ _ _ _ _ _ B34 E) as (o3 & x3 & D3).
  apply in_split in D3. destruct D3 as (A1 & A2 & ->). rewrite <- app_assoc in E. cbn [app] in E.
  pose proof (x_result _ _ _ X _ _ _ _ _ E) as R3.
  assert (I3 : In (3%nat, o3, x3) L) by (rewrite E, in_app_iff; right; now left).
  pose proof (U _ _ (x_begun _ _ _ X _ _ _ I3)) as ->.
  assert (x3 = KTime 10) as ->.
  { destruct (x_returned _ _ _ X 3%nat (KTime 10)) as (o & D); [cbn; tauto|].
    pose proof (x_once _ _ _ X) as N. rewrite E, map_app in N. cbn [map fst] in N. apply NoDup_remove_2 in N.
    rewrite E, in_app_iff in D. destruct D as [D|[D|D]].
    - exfalso. apply N. rewrite in_app_iff. left. apply in_map_iff. now exists (3%nat, o, KTime 10).
    - congruence.
    - exfalso. apply N. rewrite in_app_iff. right. apply in_map_iff. now exists (3%nat, o, KTime 10). }
  cbn in R3. injection R3 as R3. rewrite clock_after_app in R4. cbn [clock_after effect] in R4.
  assert (M : sim (clock_after clock0 A1) <= sim (clock_after (clock_after clock0 A1) A2)); [|lia].
  apply sim_forward. intros k o x I a b d ->.
  assert (I' : In (k, KRestore a b d, x) L).
  { rewrite E, in_app_iff. right. right. rewrite in_app_iff. now left. }
  pose proof (U _ _ (x_begun _ _ _ X _ _ _ I')) as Q. destruct k as [|[|[|k]]]; discriminate.
Qed.

(** ** Deadlocks *)

(** The calls of [ring] keep each other waiting, whatever the other calls do. *)
Lemma frozen ro wo d (ring : list (nat * kpc)) sch : any_order ro wo ->
  (forall k pc, In (k, pc) ring -> exists j h v r t, pc = PAcq j h v (r :: t) /\
     forall calls, (forall c, In c ring -> In c calls) -> can_take d calls k r = false) ->
  (forall k pc, In (k, pc) ring -> aget Nat.eqb k (k_calls (krun_conc ro wo d k_init sch)) = Some pc) ->
  never_return ro wo d sch (map fst ring).
Proof.
  intros C F H more k I.
  assert (R : forall k pc, In (k, pc) ring -> aget Nat.eqb k (k_calls (krun_conc ro wo d k_init (sch ++ more))) = Some pc).
  { clear k I. induction more as [|e more IH] using rev_ind; [now rewrite app_nil_r|].
    rewrite app_assoc, krun_snoc. set (s := krun_conc ro wo d k_init (sch ++ more)) in *.
    assert (ND : NoDup (akeys (k_calls s))).
    { destruct (krun_struct ro wo d (fun j => proj2 (C j)) (sch ++ more)) as [K _]. exact (k_nodup _ _ _ _ _ _ _ K). }
    intros k pc I. destruct e as [o|k0].
    - cbn [ClockModel.kstep_conc k_calls]. rewrite (aget_app Nat.eqb), (IH k pc I). reflexivity.
    - cbn [ClockModel.kstep_conc]. destruct (aget Nat.eqb k0 (k_calls s)) as [p|] eqn:E; [|now apply IH].
      destruct (Nat.eq_dec k0 k) as [->|N].
      + rewrite (IH k pc I) in E. injection E as <-. destruct (F k pc I) as (j & h & v & r & t & -> & B).
        assert (Q : can_take d (k_calls s) k r = false).
        { apply B. intros [k' p'] I'. apply aget_in. now apply IH. }
        cbn [ClockModel.krun_call]. destruct j; rewrite Q; now apply IH.
      + assert (G : forall p' dn, aget Nat.eqb k (k_calls (k_goto k0 p' dn s)) = Some pc).
        { intros p' dn. cbn [k_calls k_goto]. rewrite get_aset. apply not_eq_sym, Nat.eqb_neq in N. rewrite N. now apply IH. }
        destruct p as [t m|b|j held vals todo|ws held x|held next]; cbn [ClockModel.krun_call].
        * destruct (k_changing s); apply G.
        * apply (G (PRel [] (inr KDone)) None).
        * destruct j as [o|t m|t m], todo as [|r todo];
            try (destruct (compute o _)); try (destruct (can_take _ _ _ _)); try (destruct (_ || _)); try apply G; now apply IH.
        * destruct ws as [|[l z] ws]; [apply G|]. destruct l; apply (G (PWrite ws held x) None).
        * destruct held as [|r held]; [|apply G]. destruct next as [j|x]; [apply G|].
          cbn [k_calls]. rewrite get_adel by exact ND. apply not_eq_sym, Nat.eqb_neq in N. rewrite N. now apply IH. }
  apply in_map_iff in I. destruct I as ([k' pc] & E & I). cbn in E. subst k'. apply R in I.
  destruct (krun_struct ro wo d (fun j => proj2 (C j)) (sch ++ more)) as [K _].
  apply (k_live _ _ _ _ _ _ _ K k). eauto.
Qed.

(** A call is kept waiting by another one that holds the lock, or that waits to write. *)
Lemma kept_by_writer d calls k l k' pc : In (k', pc) calls -> In (Wr l) (held_by pc) -> can_take d calls k (Rd l) = false.
Proof.
  intros I H. cbn. apply andb_false_iff. left. apply negb_false_iff. apply existsb_exists.
  exists (k', pc). split; [exact I|]. now apply holds_write_spec.
Qed.
Lemma kept_by_holder d calls k l k' pc : In (k', pc) calls -> touches l pc -> can_take d calls k (Wr l) = false.
Proof.
  intros I H. cbn. apply negb_false_iff. apply existsb_exists.
  exists (k', pc). split; [exact I|]. now apply holds_any_spec.
Qed.
Lemma kept_by_waiter calls k l k' pc : In (k', pc) calls -> wants_write l pc = true -> can_take writers_first calls k (Rd l) = false.
Proof.
  intros I H. cbn. apply andb_false_iff. right. apply negb_false_iff. rewrite andb_true_r. apply existsb_exists. now exists (k', pc).
Qed.

(** The arguments of the call in Restore may be evaluated from right to left. *)
Definition restore_reversed (j : job) : list klock :=
  match j with JOp (KRestore _ _ _) => rev (writes j) | _ => writes j end.

(** Restore and a thread that reads the epoch time block each other for ever, when the compiler
    evaluates the arguments of Restore from right to left. *)
Theorem C92_restore_refuted : exists ro wo d sch, any_order ro wo /\ (forall j, ro j = reads j) /\ readers_first d /\
  clock_history ro wo d sch = [Inv 0 KGetEpoch; Inv 1 (KRestore 1 2 3)]%nat /\
  never_return ro wo d sch [0; 1]%nat.
Proof.
  exists reads, restore_reversed, no_defer, [Begin KGetEpoch; Begin (KRestore 1 2 3); Run 0; Run 1; Run 1]%nat.
  assert (C : any_order reads restore_reversed).
  { intros j. split; [apply Permutation_refl|]. destruct j as [[]|t m|t m]; try apply Permutation_refl.
    apply Permutation_sym, Permutation_rev. }
  split; [exact C|]. split; [reflexivity|]. split; [intros c k l; reflexivity|]. split; [reflexivity|].
  apply (frozen reads restore_reversed no_defer
    [(0%nat, PAcq (JOp KGetEpoch) [Rd LSim] [(LSim, 0)] [Rd LEpoch]);
     (1%nat, PAcq (JOp (KRestore 1 2 3)) [Wr LStart; Wr LEpoch] [] [Wr LSim])]); [exact C| |].
  - intros k pc [E|[E|[]]]; injection E as <- <-; do 5 eexists; (split; [reflexivity|]); intros calls I.
    + apply (kept_by_writer _ _ _ _ 1%nat _ (I _ (or_intror (or_introl eq_refl)))). cbn. tauto.
    + apply (kept_by_holder _ _ _ _ 0%nat _ (I _ (or_introl eq_refl))). left. cbn. tauto.
  - intros k pc [E|[E|[]]]; injection E as <- <-; reflexivity.
Qed.

(** The operands of GetEpochTime may be evaluated from right to left. *)
Definition epoch_reversed (j : job) : list klock :=
  match j with JOp KGetEpoch => rev (reads j) | _ => reads j end.

(** With mutexes that make readers wait for a waiting writer, three threads that read the epoch
    time, set the epoch time and move the simulation time block each other for ever, when the
    compiler evaluates the operands of GetEpochTime from right to left. *)
Theorem C92_writers_first_refuted : exists ro wo d sch, any_order ro wo /\
  clock_history ro wo d sch =
    [Inv 0 KOpen; Ret 0 KDone; Inv 1 KGetEpoch; Inv 2 (KSetEpoch 100); Inv 3 (KSetSim 10 20)]%nat /\
  no_restore (clock_history ro wo d sch) /\ never_return ro wo d sch [1; 2; 3]%nat.
Proof.
  exists epoch_reversed, writes, writers_first,
    [Begin KOpen; Run 0; Run 0; Begin KGetEpoch; Begin (KSetEpoch 100); Begin (KSetSim 10 20);
     Run 1; Run 2; Run 3; Run 3; Run 3; Run 3; Run 3]%nat.
  assert (C : any_order epoch_reversed writes).
  { intros j. split; [|apply Permutation_refl]. destruct j as [[]|t m|t m]; try apply Permutation_refl.
    apply Permutation_sym, Permutation_rev. }
  split; [exact C|].
  match goal with |- ?h = ?l /\ _ => assert (E : h = l) by reflexivity end. rewrite E. clear E. split; [reflexivity|]. split.
  { intros k a b c I. cbn in I. repeat (destruct I as [I|I]; [discriminate|]). destruct I. }
  apply (frozen epoch_reversed writes writers_first
    [(1%nat, PAcq (JOp KGetEpoch) [Rd LEpoch] [(LEpoch, 0)] [Rd LSim]);
     (2%nat, PAcq (JOp (KSetEpoch 100)) [Rd LSim] [(LSim, 0)] [Wr LEpoch]);
     (3%nat, PAcq (JWrite 10 20) [] [] [Wr LSim])]); [exact C| |].
  - intros k pc [E|[E|[E|[]]]]; injection E as <- <-; do 5 eexists; (split; [reflexivity|]); intros calls I.
    + apply (kept_by_waiter _ _ _ 3%nat _ (I _ (or_intror (or_intror (or_introl eq_refl))))). reflexivity.
    + apply (kept_by_holder _ _ _ _ 1%nat _ (I _ (or_introl eq_refl))). left. cbn. tauto.
    + apply (kept_by_holder _ _ _ _ 2%nat _ (I _ (or_intror (or_introl eq_refl)))). left. cbn. tauto.
  - intros k pc [E|[E|[E|[]]]]; injection E as <- <-; reflexivity.
Qed.

(** With such mutexes and operands evaluated from left to right, Store, SetMissionTime and
    SetEpochTime block each other: Store takes the mission start before the epoch. *)
Theorem C92_store_refuted : exists ro wo d sch, left_to_right ro wo /\
  clock_history ro wo d sch = [Inv 0 KStore; Inv 1 (KSetMission 7); Inv 2 (KSetEpoch 100)]%nat /\
  never_return ro wo d sch [0; 1; 2]%nat.
Proof.
  exists reads, writes, writers_first,
    [Begin KStore; Begin (KSetMission 7); Begin (KSetEpoch 100); Run 0; Run 0; Run 1; Run 1; Run 2]%nat.
  assert (L : left_to_right reads writes) by (intros j; auto).
  split; [exact L|]. split; [reflexivity|].
  apply (frozen reads writes writers_first
    [(0%nat, PAcq (JOp KStore) [Rd LStart; Rd LSim] [(LStart, 0); (LSim, 0)] [Rd LEpoch]);
     (1%nat, PAcq (JOp (KSetMission 7)) [Rd LEpoch; Rd LSim] [(LEpoch, 0); (LSim, 0)] [Wr LStart]);
     (2%nat, PAcq (JOp (KSetEpoch 100)) [Rd LSim] [(LSim, 0)] [Wr LEpoch])]); [now apply ltr_any| |].
  - intros k pc [E|[E|[E|[]]]]; injection E as <- <-; do 5 eexists; (split; [reflexivity|]); intros calls I.
    + apply (kept_by_waiter _ _ _ 2%nat _ (I _ (or_intror (or_intror (or_introl eq_refl))))). reflexivity.
    + apply (kept_by_holder _ _ _ _ 0%nat _ (I _ (or_introl eq_refl))). left. cbn. tauto.
    + apply (kept_by_holder _ _ _ _ 1%nat _ (I _ (or_intror (or_introl eq_refl)))). left. cbn. tauto.
  - intros k pc [E|[E|[E|[]]]]; injection E as <- <-; reflexivity.
Qed.

Print Assumptions C92_order_partial.
Print Assumptions C92_calls_return_all_partial.
