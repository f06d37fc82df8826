(** Theorems about the simulator's state machine: C16-C19, C59, C60. *)
From Verif Require Import Base SimModel SimSpec SimProofs.

Definition sim_of (ls : list label) : sim := fst (run sim_init ls).
Definition trace_of (ls : list label) : list sev := snd (run sim_init ls).

(** Histories used as witnesses: connecting without and with an Abort issued by a
    subscriber of LeaveConnecting. *)
Definition finish_emit : list label := [LStep; LRet; LStep].   (* emit, handlers return, clear *)
Definition connect_to_end : list label :=
  [LCall CConnect; LStep; LRet] ++ finish_emit                 (* Connecting, components, LeaveConnecting *)
  ++ [LStep] ++ finish_emit ++ [LStep] ++ finish_emit          (* Initialising, swap, LeaveInitialising *)
  ++ [LStep] ++ finish_emit ++ [LStep].                        (* Standby, EnterStandby, return *)
Definition abort_now : list label := [LCall CAbort] ++ finish_emit ++ [LStep; LStep].
Definition connect_aborted : list label :=
  [LCall CConnect; LStep; LRet; LStep] ++ abort_now ++ [LRet; LStep]
  ++ [LStep] ++ finish_emit ++ [LStep] ++ finish_emit ++ [LStep] ++ finish_emit ++ [LStep].

(** ** C16 *)
(** Every history, every nesting: a state change is documented, or it leaves Aborting;
    GetState is the last state reached. *)
Theorem C16_transitions_documented_or_out_of_aborting : forall ls,
  chain (fun s s' => documented s s' \/ s = Aborting) Building (states (trace_of ls)) /\
  s_st (sim_of ls) = last (states (trace_of ls)) Building.
Proof. intros ls. destruct (reach_wf ls) as (_ & A & B). split; [exact A|exact B]. Qed.

(** If Abort is never called in the middle of a transition, every state change is
    documented. *)
Theorem C16_transitions_are_documented_partial : forall ls, orderly sim_init ls ->
  chain documented Building (states (trace_of ls)).
Proof. intros ls O. apply (run_tidy ls sim_init); [exact I|exact I|exact O]. Qed.

(** An Abort issued while Connect is in progress is overwritten: Aborting, then
    Initialising and Standby. *)
Theorem C16_transitions_are_documented_refuted : exists ls,
  states (trace_of ls) = [Connecting; Aborting; Initialising; Standby] /\
  ~ chain documented Building (states (trace_of ls)).
Proof.
  exists connect_aborted. assert (states (trace_of connect_aborted) = [Connecting; Aborting; Initialising; Standby]) as ->
    by (vm_compute; reflexivity).
  split; [reflexivity|]. cbn. intros (_ & _ & H & _). inversion H.
Qed.

Example C16_witness :
  orderly sim_init (connect_to_end ++ [LCall CRun; LStep; LRet; LStep; LStep; LStep] ++ abort_now ++ [LRet; LStep]) /\
  states (trace_of (connect_to_end ++ [LCall CRun; LStep; LRet; LStep; LStep; LStep] ++ abort_now ++ [LRet; LStep]))
  = [Connecting; Initialising; Standby; Executing; Aborting].
Proof.
  split; [|vm_compute; reflexivity].
  cbn. intuition (congruence || auto).
Qed.

(** ** C17 *)
(** A command called in a state that does not accept it returns at once and leaves the
    simulator exactly as it was; nothing is emitted or executed. *)
Theorem C17_out_of_state_commands_are_ignored : forall x c,
  in_user (s_stack x) = true -> c <> CPre -> ~ accepted_in c (s_st x) ->
  run x [LCall c; LStep] = (x, [EvIgnored c; EvReturn c]).
Proof.
  intros [s l i h k] c U N A. cbn [s_stack s_st] in *. cbn [run step]. rewrite U.
  destruct c; try congruence; cbn [call guard];
    try (destruct s; try (exfalso; apply A; constructor; fail); cbn [is_building is_standby is_executing andb]; reflexivity).
Qed.

(** Conversely a command called in its state is accepted, except from the handlers of
    LeaveStandby and LeaveExecuting, and except Run from those of EnterStandby. *)
Theorem C17_in_state_commands_are_accepted : forall x c,
  in_user (s_stack x) = true -> c <> CPre -> accepted_in c (s_st x) ->
  leaving (s_last x) = false -> (c = CRun -> s_last x <> Some EnterStandby) ->
  exists t, snd (step (LCall c) x) = EvCall c :: t.
Proof.
  intros [s l i h k] c U N A L R. cbn [s_stack s_st s_last] in *. cbn [step]. rewrite U.
  inversion A; subst; try congruence;
    destruct l as [[]|]; try discriminate L;
    try (exfalso; apply (R eq_refl); reflexivity); cbn [call guard is_building is_standby is_executing last_is andb negb snd]; try (destruct h); cbn [snd]; eauto.
Qed.

Example C17_witness :
  let x := sim_of connect_to_end in
  in_user (s_stack x) = true /\ s_st x = Standby /\ ~ accepted_in CHold (s_st x) /\ accepted_in CRun (s_st x) /\ s_last x = None.
Proof. vm_compute. repeat split; try constructor. intros H. inversion H. Qed.

(** ** C18 *)
(** Every history: when Abort returns, the state is Aborting. *)
Theorem C18_abort_sets_the_state : forall ls t,
  snd (step LStep (sim_of ls)) = EvReturn CAbort :: t -> s_st (sim_of ls) = Aborting.
Proof.
  intros ls t E. pose proof (reach_ab ls) as A. unfold sim_of in *. destruct (fst (run sim_init ls)) as [s l i h k].
  cbn [s_st s_stack step] in *. destruct k as [|[c [|[s'|e| |b| |p] f]] k]; cbn in E; try discriminate E.
  injection E as -> _. apply A; reflexivity.
Qed.

(** If Abort is never called in the middle of a transition, Aborting is final. *)
Theorem C18_aborting_is_final_partial : forall ls1 ls2, orderly sim_init (ls1 ++ ls2) ->
  s_st (sim_of ls1) = Aborting ->
  s_st (sim_of (ls1 ++ ls2)) = Aborting /\ forall s, In s (states (snd (run (sim_of ls1) ls2))) -> s = Aborting.
Proof.
  intros ls1 ls2 O E. pose proof (C16_transitions_are_documented_partial _ O) as C.
  destruct (C16_transitions_documented_or_out_of_aborting (ls1 ++ ls2)) as (_ & L).
  destruct (C16_transitions_documented_or_out_of_aborting ls1) as (_ & L1).
  unfold trace_of, sim_of in *. rewrite run_app in *. destruct (run sim_init ls1) as [x t]. cbn [fst snd] in *.
  destruct (run x ls2) as [x2 t2]. cbn [fst snd] in *. rewrite states_app in *. apply chain_app in C.
  destruct C as [_ C]. rewrite L, last_app_states. rewrite <- L1, E in *. clear - C.
  assert (forall s, s = Aborting -> chain documented s (states t2) -> last (states t2) s = Aborting /\ forall s', In s' (states t2) -> s' = Aborting) as G.
  { induction (states t2) as [|a w IH]; intros s -> H; [cbn; tauto|]. cbn [chain] in H. destruct H as [H1 H2].
    assert (a = Aborting) as -> by (inversion H1; reflexivity).
    destruct (IH H2 _ eq_refl H2) as [G1 G2]. split.
    - destruct w; [reflexivity|]. exact G1.
    - intros s' [<-|I]; auto. }
  now apply G.
Qed.

(** Abort called during Connect returns, and the simulator ends in Standby, where Run is
    accepted. *)
Theorem C18_aborting_is_final_refuted : exists ls,
  In (EvReturn CAbort) (trace_of ls) /\ s_st (sim_of ls) = Standby /\ s_stack (sim_of ls) = [] /\
  snd (step (LCall CRun) (sim_of ls)) = [EvCall CRun].
Proof. exists connect_aborted. vm_compute. intuition auto 40. Qed.

Example C18_witness :
  orderly sim_init ([LCall CAbort; LStep; LRet; LStep; LStep; LStep] ++ [LCall CConnect; LStep; LCall CRun; LStep; LCall CAbort; LStep; LRet; LStep; LStep; LStep]) /\
  s_st (sim_of [LCall CAbort; LStep; LRet; LStep; LStep; LStep]) = Aborting.
Proof. split; [cbn; intuition (congruence || auto)|reflexivity]. Qed.

(** ** C19 *)
(** Every history: the entry points executed are some of those added, in the order of
    their registrations, each registration at most once. *)
Theorem C19_at_most_once_in_order : forall ls, subseq (execs (trace_of ls)) (adds (trace_of ls)).
Proof.
  intros ls. destruct (reach_x ls) as (_ & _ & S). cbn zeta in S.
  rewrite <- (app_nil_r (execs (trace_of ls))). unfold trace_of. eapply (subseq_drop _ _ []).
  rewrite app_nil_r. exact S.
Qed.

(** If no user code throws: at the end of every initialisation phase (when
    LeaveInitialising is emitted) the entry points executed so far are exactly those
    added so far, in order; when no command is running, they are those added except the
    ones that still wait for the next phase. *)
Theorem C19_exactly_once_in_order_partial : forall ls, ~ In LThrow ls ->
  (snd (step LStep (sim_of ls)) = [EvEmit LeaveInitialising] -> execs (trace_of ls) = adds (trace_of ls)) /\
  (s_stack (sim_of ls) = [] -> adds (trace_of ls) = execs (trace_of ls) ++ s_init (sim_of ls)).
Proof.
  intros ls N. destruct (reach_x ls) as (_ & E & _). specialize (E N). unfold trace_of, sim_of in *. split.
  - intros L. destruct (leave_init ls L) as [H1 H2]. rewrite E, H1, H2, !app_nil_r. reflexivity.
  - intros H. rewrite E, H. reflexivity.
Qed.

(** When an entry point throws, those registered after it are lost and the simulator
    stays in Initialising. *)
Theorem C19_exactly_once_in_order_refuted : exists ls,
  adds (trace_of ls) = [1; 2] /\ execs (trace_of ls) = [1] /\
  s_stack (sim_of ls) = [] /\ s_init (sim_of ls) = [] /\ s_st (sim_of ls) = Initialising.
Proof.
  exists ([LAddInit 1; LAddInit 2; LCall CConnect; LStep; LRet] ++ finish_emit ++ [LStep] ++ finish_emit ++ [LStep; LStep; LThrow]).
  vm_compute. auto 10.
Qed.

Example C19_witness :
  let ls := [LAddInit 1; LAddInit 2; LCall CConnect; LStep; LAddInit 3; LRet] ++ finish_emit ++ [LStep] ++ finish_emit
            ++ [LStep; LStep; LRet; LStep; LRet; LStep; LRet] in
  snd (step LStep (sim_of ls)) = [EvEmit LeaveInitialising] /\ execs (trace_of ls) = [1; 2; 3].
Proof. vm_compute. auto. Qed.

(** ** C59 *)
(** When no command is running and no user code has thrown, the simulator is in Building,
    Standby, Executing, Exiting or Aborting. *)
Theorem C59_rests_between_commands_partial : forall ls, ~ In LThrow ls -> s_stack (sim_of ls) = [] ->
  resting (s_st (sim_of ls)) = true.
Proof. intros ls N E. pose proof (reach_final ls N) as R. unfold sim_of in *. rewrite E in R. exact R. Qed.

(** A Store that throws leaves the simulator in Storing, where nothing but Abort is
    accepted. *)
Theorem C59_rests_between_commands_refuted : exists ls,
  s_stack (sim_of ls) = [] /\ s_st (sim_of ls) = Storing /\
  forall c, c <> CAbort -> c <> CPre -> snd (step (LCall c) (sim_of ls)) = [EvIgnored c].
Proof.
  exists (connect_to_end ++ [LCall CStore] ++ finish_emit ++ [LStep] ++ finish_emit ++ [LThrow]).
  split; [vm_compute; reflexivity|]. split; [vm_compute; reflexivity|].
  intros [] N1 N2; try congruence; vm_compute; reflexivity.
Qed.

Example C59_witness : s_stack (sim_of connect_to_end) = [] /\ s_st (sim_of connect_to_end) = Standby /\ ~ In LThrow connect_to_end.
Proof. split; [vm_compute; reflexivity|]. split; [vm_compute; reflexivity|]. vm_compute. intuition discriminate. Qed.

(** ** C60 *)
(** A pending Hold(false) stops the run at the next PreSimTimeChange. *)
Theorem C60_deferred_hold_takes_effect : forall x,
  in_user (s_stack x) = true -> s_later x = true -> s_st x = Executing -> s_last x <> Some LeaveExecuting ->
  states (snd (run x [LCall CPre; LStep; LRet; LStep; LStep])) = [Standby] /\
  s_later (fst (run x [LCall CPre; LStep; LRet; LStep; LStep])) = false.
Proof.
  intros [s l i h k] U H E L. cbn [s_stack s_later s_st s_last] in *. subst. cbn [run step]. rewrite U. cbn [call guard is_executing].
  assert (last_is LeaveExecuting l = false) as -> by (destruct l as [[]|]; try reflexivity; congruence). split; reflexivity.
Qed.

(** No hold is pending before Hold(false) is called, and none after the next
    PreSimTimeChange, in whatever state that comes. *)
Theorem C60_deferred_hold_used_once :
  (forall ls, ~ In (LCall CHoldLater) ls -> s_later (sim_of ls) = false) /\
  (forall x, in_user (s_stack x) = true -> s_later (fst (run x [LCall CPre])) = false).
Proof.
  split.
  - intros ls N. unfold sim_of.
    assert (H : s_later sim_init = false) by reflexivity. revert N H. generalize sim_init. induction ls as [|a ls IH]; intros x N H; [exact H|].
    cbn [run]. assert (H1 : s_later (fst (step a x)) = false).
    { destruct x as [s l i h k]. cbn [s_later] in H. subst h. destruct a as [c|p| | |]; cbn [step].
      - destruct (in_user k); [|reflexivity]. destruct c; cbn [call]; try destruct (guard _ _ _); try reflexivity. destruct N. now left.
      - destruct (in_user k); [|reflexivity]. destruct (can_add s); reflexivity.
      - destruct k as [|[c [|[] r]] k]; reflexivity.
      - destruct k as [|[c [|[| | |[]| |] r]] k]; reflexivity.
      - destruct k as [|[c [|[] r]] k]; reflexivity. }
    specialize (IH (fst (step a x)) (fun I => N (or_intror I)) H1). destruct (step a x) as [x1 t1]. cbn [fst] in *.
    destruct (run x1 ls) as [x2 t2]. exact IH.
  - intros [s l i h k] U. cbn [s_stack run step] in *. rewrite U. cbn [call]. destruct h; [destruct (guard CHold s l)|]; reflexivity.
Qed.
Example C60_used_once_witness : in_user (s_stack (Sim Standby None [] true [])) = true /\
  snd (run (Sim Standby None [] true []) [LCall CPre]) = [EvCall CPre; EvIgnored CHold].
Proof. split; reflexivity. Qed.

(** A run during which nobody calls Hold or Abort, started with no deferred hold pending,
    goes on. *)
Theorem C60_only_a_hold_stops_a_run_partial : forall x ls,
  ~ In (LCall CHold) ls -> ~ In (LCall CHoldLater) ls -> ~ In (LCall CAbort) ls ->
  s_st x = Executing -> s_later x = false -> nowrites (s_stack x) ->
  s_st (fst (run x ls)) = Executing /\ states (snd (run x ls)) = [].
Proof. intros. now apply run_executing. Qed.

(** A deferred hold that was overtaken by an immediate one stops the following run, in
    which nobody asked for it. *)
Theorem C60_only_a_hold_stops_a_run_refuted : exists ls1 ls2,
  s_st (sim_of ls1) = Executing /\ ~ In (LCall CHold) ls2 /\ ~ In (LCall CHoldLater) ls2 /\ ~ In (LCall CAbort) ls2 /\
  nowrites (s_stack (sim_of ls1)) /\ last (trace_of ls1) (EvReturn CRun) = EvEmit EnterExecuting /\
  s_st (sim_of (ls1 ++ ls2)) = Standby.
Proof.
  set (start := [LCall CRun] ++ finish_emit ++ [LStep; LStep]).
  exists (connect_to_end ++ start ++ [LCall CHoldLater; LStep; LCall CHold] ++ finish_emit ++ [LStep] ++ finish_emit ++ [LStep; LRet; LStep; LStep] ++ start).
  exists [LCall CPre; LStep; LRet; LStep; LStep].
  split; [vm_compute; reflexivity|]. split; [vm_compute; intuition discriminate|].
  split; [vm_compute; intuition discriminate|]. split; [vm_compute; intuition discriminate|].
  split; [vm_compute; repeat constructor|]. split; vm_compute; reflexivity.
Qed.

Example C60_witness :
  let ls := connect_to_end ++ [LCall CRun] ++ finish_emit ++ [LStep; LStep] in
  in_user (s_stack (sim_of ls)) = true /\ s_st (sim_of ls) = Executing /\ s_later (sim_of ls) = false /\ nowrites (s_stack (sim_of ls)) /\
  s_later (sim_of (ls ++ [LCall CHoldLater; LStep])) = true /\ s_st (sim_of (ls ++ [LCall CHoldLater; LStep])) = Executing.
Proof. vm_compute. repeat split; repeat constructor. Qed.

Print Assumptions C16_transitions_are_documented_partial.
Print Assumptions C17_out_of_state_commands_are_ignored.
Print Assumptions C18_aborting_is_final_partial.
Print Assumptions C19_exactly_once_in_order_partial.
