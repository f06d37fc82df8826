(** C76 to C78: services, libraries and destruction of a simulator. *)
From Coq Require Import ZArith List Bool Lia.
From Verif Require Import Base Assoc UuidModel EventModel CollModel CollSpec CollProofs CollProps SimModel SimSpec SimProofs SimEvents HostModel HostSpec HostProofs.
Import ListNotations.
Local Open Scope Z_scope.

(** ** C76 Services *)
Definition host_of w impl os : host := fst (hrun w impl host_init os).
Definition host_trace w impl os := snd (hrun w impl host_init os).

(** GetLogger, GetScheduler, ... answer the first service accepted by AddService that
    implements the interface. *)
Theorem C76_standard_service : forall w impl os r c,
  get_std r (host_of w impl os) = Some c <-> first_service impl r (host_trace w impl os) c.
Proof. intros w impl os r c. exact (proj2 (run_std w impl os host_init r) eq_refl c). Qed.

(** They answer null exactly when no accepted service implements it. *)
Theorem C76_no_standard_service : forall w impl os r,
  get_std r (host_of w impl os) = None <->
  forall c, In (HAddService c, HRes KDone) (host_trace w impl os) -> impl r c = false.
Proof.
  intros w impl os r. split.
  - intros N c I. destruct (impl r c) eqn:E; [|reflexivity]. exfalso.
    assert (X : exists c', first_service impl r (host_trace w impl os) c').
    { clear N. revert I. generalize (host_trace w impl os). induction l as [|[o x] l IH]; intros I; [destruct I|].
      destruct I as [I|I].
      - injection I as -> ->. exists c, [], l. split; [reflexivity|]. split; [assumption|intros ? []].
      - destruct (IH I) as (c' & t1 & t2 & -> & Ic & NI).
        assert (D : (exists c0, (o, x) = (HAddService c0, HRes KDone) /\ impl r c0 = true) \/ forall c0, (o, x) = (HAddService c0, HRes KDone) -> impl r c0 = false).
        { destruct o as [|c0| | |]; try (right; intros ? ?; discriminate). destruct x as [[]|]; try (right; intros ? ?; discriminate).
          destruct (impl r c0) eqn:E0; [left; eauto|right; intros ? H; injection H as <-; assumption]. }
        destruct D as [(c0 & -> & E0)|D].
        + exists c0, [], (t1 ++ (HAddService c', HRes KDone) :: t2). split; [reflexivity|]. split; [assumption|intros ? []].
        + exists c', ((o, x) :: t1), t2. split; [reflexivity|]. split; [assumption|]. intros c1 [J|J]; auto. }
    destruct X as (c' & X). apply (proj2 (C76_standard_service w impl os r c')) in X. congruence.
  - intros N. destruct (get_std r (host_of w impl os)) as [c|] eqn:E; [|reflexivity]. exfalso.
    apply C76_standard_service in E. destruct E as (t1 & t2 & E & Ic & _). rewrite (N c) in Ic; [discriminate|]. rewrite E. apply in_app_iff. right. now left.
Qed.

(** The answer never changes afterwards. *)
Theorem C76_standard_service_stays : forall w impl os os' r c,
  get_std r (host_of w impl os) = Some c -> get_std r (host_of w impl (os ++ os')) = Some c.
Proof.
  intros w impl os os' r c E. unfold host_of. rewrite hrun_app. cbn [fst]. exact (proj1 (run_std w impl os' _ r) c E).
Qed.

(** AddService and AddModel accept a component exactly in Building, Connecting and Standby,
    if no service and no model has its name and its parent is the simulator. *)
Theorem C76_add_service_iff : forall w impl os c, let h := host_of w impl os in
  ~ In c (freed (h_compo h)) -> Z.of_nat (length (services h ++ models h)) < 2 ^ 63 ->
  (snd (hstep w impl (HAddService c) h) = HRes KDone <->
   accepts (h_state h) /\ wtype w 0 c = true /\ wparent w c = true /\ ~ In (wname w c) (map (wname w) (services h ++ models h))).
Proof.
  intros w impl os c h F Sm. pose proof (two_adds w impl os 0 c) as T. cbv zeta in T. fold (host_of w impl os) in T. fold h in T. specialize (T ltac:(lia) F Sm). rewrite <- T. clear T.
  cbn [hstep]. unfold add_service, accepts. destruct (cont_add w 0 c None false (h_compo h)) as [x r].
  destruct (h_state h); cbn; destruct r; cbn; split; intros H; try discriminate; try (destruct H as [A B]); try discriminate;
    try (destruct A as [A|[A|A]]; discriminate A); auto.
Qed.
Theorem C76_add_model_iff : forall w impl os c, let h := host_of w impl os in
  ~ In c (freed (h_compo h)) -> Z.of_nat (length (services h ++ models h)) < 2 ^ 63 ->
  (snd (hstep w impl (HAddModel c) h) = HRes KDone <->
   accepts (h_state h) /\ wtype w 1 c = true /\ wparent w c = true /\ ~ In (wname w c) (map (wname w) (services h ++ models h))).
Proof.
  intros w impl os c h F Sm. pose proof (two_adds w impl os 1 c) as T. cbv zeta in T. fold (host_of w impl os) in T. fold h in T. specialize (T ltac:(lia) F Sm). rewrite <- T. clear T.
  cbn [hstep]. unfold add_model, accepts. destruct (cont_add w 1 c None false (h_compo h)) as [x r].
  destruct (h_state h); cbn; destruct r; cbn; split; intros H; try discriminate; try (destruct H as [A B]); try discriminate;
    try (destruct A as [A|[A|A]]; discriminate A); auto.
Qed.

(** A call that is rejected changes nothing; one that is accepted adds the component at the
    end of its container and nothing else. *)
Theorem C76_rejected_unchanged : forall w impl o h, snd (hstep w impl o h) <> HRes KDone -> fst (hstep w impl o h) = h.
Proof. exact step_rejected. Qed.
Theorem C76_added : forall w impl c h,
  (snd (hstep w impl (HAddService c) h) = HRes KDone ->
   services (fst (hstep w impl (HAddService c) h)) = services h ++ [c] /\ models (fst (hstep w impl (HAddService c) h)) = models h) /\
  (snd (hstep w impl (HAddModel c) h) = HRes KDone ->
   services (fst (hstep w impl (HAddModel c) h)) = services h /\ models (fst (hstep w impl (HAddModel c) h)) = models h ++ [c]).
Proof. intros w impl c h. split; [apply service_added|apply model_added]. Qed.

(** The names of the services and of the models are all different, and GetService finds
    the service of a given name, and null if there is none. *)
Theorem C76_names : forall w impl os, let h := host_of w impl os in NoDup (map (wname w) (services h ++ models h)).
Proof.
  intros w impl os h. destruct (all_two w impl os) as [_ Al]. fold (host_of w impl os) in Al. fold h in Al. rewrite <- Al.
  destruct (reach_compo w impl os) as (cs & E). unfold h, host_of. rewrite E. apply C25_names.
Qed.
Theorem C76_get_service : forall w impl os n, let h := host_of w impl os in
  exists r, get_service w (Some n) h = Ok r /\ the_named (wname w) n (services h) r.
Proof.
  intros w impl os n h. destruct (all_two w impl os) as [(a & b & C & Sa & _) _]. fold (host_of w impl os) in C, Sa. fold h in C, Sa.
  cbn. rewrite C. cbn. rewrite Sa. eexists. split; [reflexivity|]. apply first_the; [|apply find_name_first].
  pose proof (C76_names w impl os) as N. cbv zeta in N. fold h in N. rewrite map_app in N. rewrite <- Sa. clear -N.
  induction (map (wname w) (services h)) as [|x l IH]; [constructor|]. inversion N; subst. constructor; [|now apply IH].
  intros I. apply H1. apply in_app_iff. now left.
Qed.

(** A standard service that is never deleted is one of the services of the simulator. *)
Theorem C76_standard_service_alive_partial : forall w impl os r c,
  get_std r (host_of w impl os) = Some c -> (forall k t, ~ In (HDelete k c t) os) ->
  In c (services (host_of w impl os)) /\ ~ In c (freed (h_compo (host_of w impl os))).
Proof.
  intros w impl os r c E N. apply C76_standard_service in E. destruct E as (t1 & t2 & E & _ & _).
  assert (I : In c (services (host_of w impl os))).
  { apply run_added_held; [|exact N]. fold (host_trace w impl os). rewrite E. apply in_app_iff. right. now left. }
  split; [exact I|]. intros F. destruct (reach_compo w impl os) as (cs & X). fold (host_of w impl os) in X. rewrite X in F.
  apply (C25_no_dangling w _ cs c F). rewrite <- X. destruct (all_two w impl os) as [_ Al]. fold (host_of w impl os) in Al. rewrite Al. apply in_app_iff. now left.
Qed.

(** Deleting it through the container of the services leaves the simulator with a pointer to
    a service that no longer exists, which it calls for each message it logs. *)
Theorem C76_standard_service_alive_refuted : exists w impl os r c,
  get_std r (host_of w impl os) = Some c /\ In c (freed (h_compo (host_of w impl os))) /\
  (forall e, In e (host_trace w impl os) -> snd e = HRes KDone).
Proof.
  exists (World (fun c => [c]) (fun _ => true) (fun _ _ => true)), (fun _ _ => true), [HAddService 7; HDelete 0 7 false], RLogger, 7.
  split; [reflexivity|]. split; [left; reflexivity|]. intros e [<-|[<-|[]]]; reflexivity.
Qed.

Definition sv_world := World (fun c => if c =? 5 then [1] else [c]) (fun c => negb (c =? 9)) (fun _ _ => true).
Definition sv_impl r c := match r with RLogger => (c =? 2) || (c =? 3) | RScheduler => c =? 3 | _ => false end.
Definition sv_ops := [HAddService 1; HAddService 2; HAddService 3; HAddModel 4; HAddModel 5; HState Executing; HAddService 6;
  HState Standby; HAddService 9; HAddTo 0 8; HDelete 1 4 false].
Example C76_example : let h := host_of sv_world sv_impl sv_ops in
  map snd (host_trace sv_world sv_impl sv_ops) =
    [HRes KDone; HRes KDone; HRes KDone; HRes KDone; HRes KDuplicateName; HRes KDone; HInvalidState; HRes KDone; HRes KInvalidParent; HRes KDone; HRes KDone] /\
  map (fun r => get_std r h) [RLogger; RScheduler; RTimeKeeper] = [Some 2; Some 3; None] /\
  services h = [1; 2; 3; 8] /\ models h = [] /\ get_service sv_world (Some [3]) h = Ok (Some 3) /\
  snd (hstep sv_world sv_impl (HAddService 10) h) = HRes KDone /\ ~ In 10 (freed (h_compo h)).
Proof. vm_compute. intuition discriminate. Qed.

(** ** C77 Libraries *)

(** Each library that LoadLibrary has accepted is finalised once when the simulator is
    destroyed, the last loaded first, and no other library is, if no Finalise function
    loads a library.  Initialise functions may load libraries. *)
Theorem C77_finalised_once_in_reverse_partial : forall ls fs, Forall (fun f => f = []) fs ->
  finalised (libraries ls fs) = rev (loaded (libraries ls fs)).
Proof.
  intros ls fs F. unfold libraries. destruct (load_all_libs ls []) as [A B]. destruct (load_all ls []) as [libs t]. cbn in A, B.
  rewrite app_nil_r in A. subst libs. rewrite finalise_quiet, finalised_app, loaded_app, B by assumption.
  destruct (finalised_map (rev (loaded t))) as [-> ->]. now rewrite app_nil_r.
Qed.

(** Libraries are finalised only after all loads. *)
Theorem C77_finalised_at_the_end_partial : forall ls fs, Forall (fun f => f = []) fs -> exists t, libraries ls fs = t ++ map EvFinalise (rev (loaded t)) /\ finalised t = [].
Proof.
  intros ls fs F. unfold libraries. destruct (load_all_libs ls []) as [A B]. destruct (load_all ls []) as [libs t]. cbn in A, B.
  rewrite app_nil_r in A. subst libs. rewrite finalise_quiet by assumption. eauto.
Qed.

(** LoadLibrary returns exactly when the library and its two functions are found and
    Initialise returns true; the libraries loaded by its Initialise are loaded before it,
    and stay even if it fails. *)
Theorem C77_load_iff : forall l libs,
  (loads l <-> exists t, snd (load_library l libs) = t ++ [EvLoaded (lib_name l)]) /\
  fst (load_library l libs) = rev (loaded (snd (load_library l libs))) ++ libs.
Proof.
  intros l libs. split; [|exact (proj1 (load_libs l libs))]. destruct (load_last l libs) as (t & E). split.
  - intros (n & nested & ->). exists t. exact E.
  - intros (t' & E'). rewrite E in E'. apply app_inj_tail in E'. destruct E' as [_ E']. destruct l as [n|n|n nested []]; try discriminate. exists n, nested. reflexivity.
Qed.

(** A Finalise function that loads a library breaks it: a library is finalised twice and
    another one never. *)
Theorem C77_finalised_once_in_reverse_refuted : exists ls fs n m,
  count_occ (list_eq_dec Z.eq_dec) (loaded (libraries ls fs)) n = 1%nat /\ count_occ (list_eq_dec Z.eq_dec) (finalised (libraries ls fs)) n = 2%nat /\
  In m (loaded (libraries ls fs)) /\ ~ In m (finalised (libraries ls fs)).
Proof.
  exists [LInitialise [1] [] ITrue], [[LInitialise [2] [] ITrue]], [1], [2]. vm_compute. intuition discriminate.
Qed.

Example C77_example : libraries [LNoFile [1]; LInitialise [2] [LInitialise [3] [] ITrue; LNoSymbol [4]] ITrue;
    LInitialise [5] [LInitialise [6] [] ITrue] IThrows; LInitialise [7] [] IFalse; LInitialise [2] [] ITrue] [[]; []] =
  [EvNotLoaded [1] LibraryNotFound; EvLoaded [3]; EvNotLoaded [4] InvalidLibrary; EvLoaded [2]; EvLoaded [6]; EvNotLoaded [5] FromInitialise;
   EvNotLoaded [7] InvalidLibrary; EvLoaded [2]; EvFinalise [2]; EvFinalise [6]; EvFinalise [2]; EvFinalise [3]].
Proof. reflexivity. Qed.

(** ** C78 Destruction *)
Definition sim_after ls : sim := fst (run sim_init ls).

(** A simulator destroyed in Standby, at rest, ends in Exiting whatever the user code
    called meanwhile does (calls, exceptions), unless it calls Abort. *)
Theorem C78_standby_exits : forall ls a b, let x := sim_after ls in
  s_stack x = [] -> s_st x = Standby -> ~ In (LCall CAbort) b -> s_stack (fst (destroy x a b)) = [] ->
  s_st (fst (destroy x a b)) = Exiting.
Proof.
  intros ls a b x K S N E. unfold destroy in *. rewrite S in *. cbn [is_executing is_standby s_st] in *. rewrite S in *. cbn [is_standby] in *.
  pose proof (exit_run b x N K S (rest_last ls K)) as X. destruct (run x (LCall CExit :: b)) as [y t]. cbn [fst] in *. exact (exitp_rest y X E).
Qed.

(** A simulator destroyed while executing is held and then exits, if the user code called
    meanwhile only returns; handlers of the global events see the documented sequence. *)
Theorem C78_destruction_partial : forall ls a b, let x := sim_after ls in
  s_stack x = [] -> Forall quiet a -> Forall quiet b ->
  (s_st x = Executing -> s_stack (fst (run x (LCall CHold :: a))) = []) -> s_stack (fst (destroy x a b)) = [] ->
  let exit := [EvCall CExit; EvEmit LeaveStandby; EvState Exiting; EvEmit EnterExiting; EvReturn CExit] in
  let hold := [EvCall CHold; EvEmit LeaveExecuting; EvState Standby; EvEmit EnterStandby; EvReturn CHold] in
  match s_st x with
  | Executing => s_st (fst (destroy x a b)) = Exiting /\ snd (destroy x a b) = hold ++ exit
  | Standby => s_st (fst (destroy x a b)) = Exiting /\ snd (destroy x a b) = exit
  | _ => destroy x a b = (x, [])
  end.
Proof.
  intros ls a b x K Qa Qb Ha Hb exit hold. pose proof (rest_last ls K) as L. change (s_last x = None) in L. unfold destroy in *.
  destruct (s_st x) eqn:S; cbn [is_executing] in *; try (rewrite S in *; reflexivity).
  - rewrite S in *. cbn [is_standby] in *.
    destruct (call_quiet b x CExit K) as (A & B & _); [rewrite S, L; reflexivity|discriminate|discriminate|exact Qb|destruct (run x (LCall CExit :: b)); exact Hb|].
    destruct (run x (LCall CExit :: b)) as [y t]. cbn in A, B |- *. rewrite A, B. auto.
  - specialize (Ha eq_refl). destruct (call_quiet a x CHold K) as (A & B & _); [rewrite S, L; reflexivity|discriminate|discriminate|exact Qa|exact Ha|].
    assert (Lx : s_last (fst (run x (LCall CHold :: a))) = None).
    { unfold x, sim_after in *. pose proof (rest_last (ls ++ LCall CHold :: a)) as R. rewrite run_app in R. destruct (run sim_init ls) as [z u]. cbn [fst] in *.
      destruct (run z (LCall CHold :: a)) as [z2 u2]. exact (R Ha). }
    destruct (run x (LCall CHold :: a)) as [x1 t1]. cbn [fst snd] in *. cbn in A. rewrite A in *. cbn [is_standby] in *.
    destruct (call_quiet b x1 CExit Ha) as (C & D & _); [rewrite A, Lx; reflexivity|discriminate|discriminate|exact Qb|destruct (run x1 (LCall CExit :: b)); exact Hb|].
    destruct (run x1 (LCall CExit :: b)) as [y t]. cbn in C, D |- *. rewrite C, D, B. auto.
Qed.

(** A handler of EnterStandby that initialises and runs the simulator again keeps a
    simulator destroyed while executing from ever exiting. *)
Theorem C78_destruction_refuted : exists ls a b, let x := sim_after ls in
  s_stack x = [] /\ s_st x = Executing /\ ~ In (LCall CAbort) (a ++ b) /\ ~ In LThrow (a ++ b) /\
  s_stack (fst (run x (LCall CHold :: a))) = [] /\ s_stack (fst (destroy x a b)) = [] /\
  s_st (fst (destroy x a b)) = Executing /\ ~ In (EvEmit EnterExiting) (snd (destroy x a b)).
Proof.
  set (em := [LStep; LRet; LStep]).
  set (ini := em ++ [LStep] ++ em ++ [LStep] ++ em ++ [LStep] ++ em ++ [LStep]).
  exists ([LCall CConnect; LStep; LRet] ++ em ++ [LStep] ++ em ++ [LStep] ++ em ++ [LStep] ++ em ++ [LStep] ++ [LCall CRun] ++ em ++ [LStep] ++ em ++ [LStep]).
  exists (em ++ [LStep; LStep] ++ [LCall CInitialise] ++ ini ++ [LCall CRun] ++ em ++ [LStep] ++ em ++ [LStep] ++ [LRet; LStep; LStep]), [].
  vm_compute. intuition discriminate.
Qed.

(** The two conditions of C78_destruction_partial can be met from any state at rest. *)
Example C78_example : let em := [LStep; LRet; LStep] in
  let x := sim_after ([LCall CConnect; LStep; LRet] ++ em ++ [LStep] ++ em ++ [LStep] ++ em ++ [LStep] ++ em ++ [LStep] ++ [LCall CRun] ++ em ++ [LStep] ++ em ++ [LStep]) in
  let a := em ++ [LStep] ++ em ++ [LStep] in let b := em ++ [LStep] ++ em ++ [LRet; LStep] in
  s_stack x = [] /\ s_st x = Executing /\ Forall quiet a /\ Forall quiet b /\
  s_stack (fst (run x (LCall CHold :: a))) = [] /\ s_stack (fst (destroy x a b)) = [] /\ s_st (fst (destroy x a b)) = Exiting.
Proof. vm_compute. unfold quiet. repeat split; repeat (constructor; [auto|]); constructor. Qed.

Print Assumptions C76_standard_service.
Print Assumptions C76_add_service_iff.
Print Assumptions C76_get_service.
Print Assumptions C77_finalised_once_in_reverse_partial.
Print Assumptions C78_standby_exits.
Print Assumptions C78_destruction_partial.
