(** C79, and what the commands of the simulator show: C17, C19, C60. *)
From Coq Require Import ZArith List Bool Lia.
From Verif Require Import Base SimModel SimSpec SimProofs SimProps SimEvents.
Import ListNotations.
Local Open Scope Z_scope.

(** ** C79 The global events announce the states *)

(** Every history with any user code, in which Abort is never called in the middle of a
    transition: the next thing the handlers can observe after the simulator enters a state is
    the event that announces it; a state is left only just after the event that announces it,
    except Reconnecting; no other event is emitted. *)
Theorem C79_states_are_announced_partial : forall ls, orderly sim_init ls ->
  protocol (fun s => s = Reconnecting) None Building (trace_of ls).
Proof. intros ls O. exact (run_einv ls None sim_init I O). Qed.

(** Reconnect leaves the state Reconnecting without emitting LeaveReconnecting. *)
Theorem C79_states_are_announced_refuted : exists ls, orderly sim_init ls /\
  ~ protocol (fun _ => False) None Building (trace_of ls) /\
  In (EvState Reconnecting) (trace_of ls) /\ s_st (sim_of ls) = Standby /\ ~ In (EvEmit LeaveReconnecting) (trace_of ls).
Proof.
  exists (connect_to_end ++ [LCall CReconnect] ++ finish_emit ++ [LStep] ++ finish_emit ++ [LRet; LStep] ++ finish_emit ++ [LStep]).
  split; [cbn; intuition congruence|]. split; [|vm_compute; intuition discriminate].
  vm_compute. intros H. repeat match goal with H : _ /\ _ |- _ => destruct H end.
  repeat match goal with H : announced _ (Some (EvEmit EnterReconnecting)) _ _ |- _ => inversion H; clear H; subst end; try discriminate.
  - match goal with L : leave_of Reconnecting = Some ?e, E : Some _ = Some (EvEmit ?e) |- _ => injection E as <-; discriminate L end.
  - match goal with H : leave_of Reconnecting = None \/ _ |- _ => destruct H as [H|[]]; discriminate H end.
Qed.

(** A command accepted at rest, with user code that only returns, shows exactly the
    documented sequence of states, events and executions of initialisation entry points. *)
Theorem C79_commands_show : forall ls a c, let x := sim_of ls in
  s_stack x = [] -> guard c (s_st x) (s_last x) = true -> c <> CPre -> c <> CHoldLater -> Forall quiet a ->
  s_stack (fst (run x (LCall c :: a))) = [] ->
  snd (run x (LCall c :: a)) = [EvCall c] ++ shows c (s_init x) ++ [EvReturn c].
Proof.
  intros ls a c x K G N1 N2 Q E. destruct (call_quiet a x c K G N1 N2 Q E) as (_ & B & _). rewrite B. cbn [app]. f_equal.
  destruct c; try congruence; cbn; rewrite <- ?app_assoc; reflexivity.
Qed.

(** The initialisation entry points are forgotten by Connect and Initialise only. *)
Theorem C79_init_kept : forall ls a c, let x := sim_of ls in
  s_stack x = [] -> guard c (s_st x) (s_last x) = true -> c <> CPre -> c <> CHoldLater -> Forall quiet a ->
  s_stack (fst (run x (LCall c :: a))) = [] ->
  s_init (fst (run x (LCall c :: a))) = match c with CConnect | CInitialise => [] | _ => s_init x end.
Proof.
  intros ls a c x K G N1 N2 Q E. destruct (call_quiet a x c K G N1 N2 Q E) as (_ & _ & C & _). rewrite C. destruct c; try congruence; reflexivity.
Qed.

(** Such a command can end. *)
Example C79_commands_end : forall x c, s_stack x = [] -> s_init x = [] -> guard c (s_st x) (s_last x) = true -> c <> CPre -> c <> CHoldLater ->
  exists a, Forall quiet a /\ s_stack (fst (run x (LCall c :: a))) = [].
Proof.
  intros [s l i h k] c K I G N1 N2. cbn in K, I, G. subst.
  assert (S : step (LCall c) (Sim s l [] h []) = (Sim s l [] h [(c, body c)], [EvCall c])) by (destruct c; try congruence; cbn [step in_user call]; rewrite G; reflexivity).
  exists (match c with
    | CConnect => [LStep; LRet] ++ finish_emit ++ [LStep] ++ finish_emit ++ [LStep] ++ finish_emit ++ [LStep] ++ finish_emit ++ [LStep]
    | CInitialise => finish_emit ++ [LStep] ++ finish_emit ++ [LStep] ++ finish_emit ++ [LStep] ++ finish_emit ++ [LStep]
    | _ => moves (body c) end).
  cbn [run]. rewrite S. split.
  - destruct c; try apply moves_quiet; unfold quiet; cbn; repeat (constructor; [auto|]); constructor.
  - destruct c; try congruence; reflexivity.
Qed.

Example C79_example : orderly sim_init (connect_to_end ++ [LCall CRun; LStep; LCall CHold; LStep; LRet; LStep; LStep; LStep; LCall CHold] ++ finish_emit ++ [LStep] ++ finish_emit) /\
  states (trace_of (connect_to_end ++ [LCall CRun; LStep; LCall CHold; LStep; LRet; LStep; LStep; LStep; LCall CHold] ++ finish_emit ++ [LStep] ++ finish_emit)) = [Connecting; Initialising; Standby; Executing; Standby].
Proof. split; [cbn; intuition congruence|vm_compute; reflexivity]. Qed.

(** ** C17 *)
(** A command is accepted exactly in its state, unless the global event that is being
    handled forbids it. *)
Theorem C17_accepted_exactly : forall x c, in_user (s_stack x) = true -> c <> CPre ->
  (In (EvCall c) (snd (step (LCall c) x)) <-> accepted_in c (s_st x) /\ ~ refused_during c (s_last x)) /\
  (In (EvIgnored c) (snd (step (LCall c) x)) <-> ~ (accepted_in c (s_st x) /\ ~ refused_during c (s_last x))).
Proof.
  intros [s l i h k] c U N. cbn [s_stack s_st s_last step] in *. rewrite U.
  assert (G : guard c s l = true <-> accepted_in c s /\ ~ refused_during c l).
  { split.
    - intros G. destruct c; try congruence; destruct s; try discriminate G; (split; [constructor|]); cbn in *; try tauto;
        destruct l as [[]|]; try discriminate G; intuition discriminate.
    - intros [A R]. inversion A; subst; try reflexivity; cbn in *; destruct l as [[]|]; try reflexivity; exfalso; apply R; auto. }
  rewrite <- G. destruct c; try congruence; cbn [call]; destruct (guard _ s l) eqn:E; try (cbn; intuition congruence); destruct h; cbn; intuition congruence.
Qed.

(** ** C19 *)
(** AddInitEntryPoint is accepted exactly in Building, Connecting and Standby, and refused
    without any effect otherwise. *)
Theorem C19_accepted_exactly : forall x p, in_user (s_stack x) = true ->
  ((s_st x = Building \/ s_st x = Connecting \/ s_st x = Standby) /\ snd (step (LAddInit p) x) = [EvAdd p] /\ s_init (fst (step (LAddInit p) x)) = s_init x ++ [p]) \/
  (~ (s_st x = Building \/ s_st x = Connecting \/ s_st x = Standby) /\ step (LAddInit p) x = (x, [EvRefused p])).
Proof.
  intros [s l i h k] p U. cbn [s_stack s_st step] in *. rewrite U. destruct s; cbn; ((left; split; [tauto|split; reflexivity]) || (right; split; [intuition discriminate|reflexivity])).
Qed.

(** ** C60 *)
(** A second deferred hold before the first one took effect is refused with an exception and
    changes nothing. *)
Theorem C60_deferred_hold_twice : forall x, in_user (s_stack x) = true -> s_st x = Executing -> s_last x <> Some LeaveExecuting ->
  step (LCall CHoldLater) x = if s_later x then (x, [EvCall CHoldLater; EvThrow CHoldLater])
                              else (Sim (s_st x) (s_last x) (s_init x) true ((CHoldLater, []) :: s_stack x), [EvCall CHoldLater]).
Proof.
  intros [s l i h k] U S L. cbn [s_stack s_st s_last s_later s_init] in *. subst. cbn [step call guard is_executing]. rewrite U.
  assert (last_is LeaveExecuting l = false) as -> by (destruct l as [[]|]; try reflexivity; congruence). cbn. now destruct h.
Qed.

Print Assumptions C79_states_are_announced_partial.
Print Assumptions C79_commands_show.
Print Assumptions C17_accepted_exactly.
