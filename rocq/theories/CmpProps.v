(** C49, C63, C64: the life of components. *)
From Coq Require Import List Bool Arith Lia.
From Verif Require Import Base CmpModel CmpSpec CmpProofs.
Import ListNotations.
Local Open Scope nat_scope.

(** C49: whatever the sequence of calls, those that are accepted are the first
    ones of Publish, Configure, Connect, Disconnect, and the state is the one
    they lead to. *)
Theorem C49_order : forall l,
  accepted cmp_new l = firstn (rank (cst (final cmp_new l))) life.
Proof.
  intros l. pose proof (accepted_life l cmp_new) as H. simpl rank in H. simpl skipn in H.
  rewrite H at 1. rewrite firstn_app.
  assert (L : length (accepted cmp_new l) = rank (cst (final cmp_new l))).
  { apply (f_equal (@length call)) in H. rewrite app_length in H.
    destruct (cst (final cmp_new l)); simpl in H |- *; lia. }
  rewrite <- L, Nat.sub_diag, firstn_all. simpl. now rewrite app_nil_r.
Qed.

(** A call is accepted exactly when the component is in the state that precedes
    it, except Publish(nullptr), and then leads to the next state. *)
Theorem C49_accepted : forall c o,
  (exists c', cmp_step c o = (c', Ok tt)) <->
  rank (cst c) < 4 /\ nth_error life (rank (cst c)) = Some (call_of o) /\ o <> CPublish false.
Proof.
  intros [s p m] o. split.
  - intros (c' & H).
    destruct s, o as [[]| |[]|]; cbn in *; try discriminate; repeat split; try lia; discriminate.
  - intros (H1 & H2 & H3).
    destruct s, o as [[]| |[]|]; cbn in *; try discriminate; try lia;
      try (exfalso; now apply H3); eexists; reflexivity.
Qed.

Theorem C49_next : forall c o c',
  cmp_step c o = (c', Ok tt) -> rank (cst c') = S (rank (cst c)).
Proof.
  intros [s p m] o c' H.
  destruct s, o as [[]| |[]|]; cbn in *; try discriminate; injection H as <-; reflexivity.
Qed.

(** A call in another state throws InvalidComponentState, with the state the
    component is in and the one it should be in, and changes nothing. *)
Theorem C49_refused : forall c o,
  nth_error life (rank (cst c)) <> Some (call_of o) ->
  cmp_step c o = (c, Throw (InvalidComponentState (cst c) (needs (call_of o)))) /\
  nth_error life (rank (needs (call_of o))) = Some (call_of o).
Proof.
  intros [s p m] o H.
  destruct s, o as [r| |r|]; cbn in *; try (exfalso; now apply H); split; reflexivity.
Qed.

(** Every call that does not return normally changes nothing. *)
Theorem C49_unchanged : forall c o c' r,
  cmp_step c o = (c', r) -> r <> Ok tt -> c' = c.
Proof.
  intros c o c' r H N. destruct (cmp_step_cases c o) as [(c1 & E & _)|(e & E & _)]; rewrite E in H;
    injection H as <- <-; [now destruct N|reflexivity].
Qed.

(** A component has its publication from the accepted Publish on, and a simulator exactly
    while it is connected to one. *)
Theorem C49_publication_and_simulator : forall l,
  let c := final cmp_new l in
  (cpub c = true <-> 1 <= rank (cst c)) /\ (csim c = true -> cst c = Connected) /\
  (forall sim c', cmp_step c (CConnect sim) = (c', Ok tt) -> csim c' = sim).
Proof.
  intros l. cbv zeta.
  assert (G : forall l c, (cpub c = true <-> 1 <= rank (cst c)) -> (csim c = true -> cst c = Connected) ->
    (cpub (final c l) = true <-> 1 <= rank (cst (final c l))) /\ (csim (final c l) = true -> cst (final c l) = Connected)).
  { clear l. induction l as [|o l IH]; intros c A B; [split; assumption|]. cbn [final]. apply IH.
    - destruct c as [s p m], s, o as [[]| |[]|]; cbn in *; try exact A; split; intros X; try lia; try reflexivity; apply A; lia.
    - destruct c as [s p m], s, o as [[]| |[]|]; cbn in *; intuition (try lia; try congruence). }
  destruct (G l cmp_new) as [A B]; [cbn; split; [discriminate|lia]|discriminate|]. split; [exact A|]. split; [exact B|].
  intros sim c'. destruct (final cmp_new l) as [s p m]. destruct s; cbn; intros E; try discriminate E. now injection E as <-.
Qed.

Example C49_life_example :
  accepted cmp_new [CConfigure; CPublish false; CPublish true; CConnect true; CConfigure;
                    CConfigure; CConnect true; CDisconnect; CDisconnect] = life /\
  cst (final cmp_new [CConfigure; CPublish true; CConnect true; CConfigure]) = Configured.
Proof. split; reflexivity. Qed.

Example C49_refused_example :
  cmp_step (Cmp Configured true false) CDisconnect =
  (Cmp Configured true false, Throw (InvalidComponentState Configured Connected)).
Proof. reflexivity. Qed.

(** C63: over any history of Publish, Configure, Connect, Exit and Reconnect of
    the simulator, with any exceptions and any components added by others during
    the calls, every component receives the calls of its life in order, each at
    most once. *)
Theorem C63_in_order : forall t l c,
  everywhere fresh t -> member c (tree_run t l) ->
  received c = firstn (rank (state_of c)) life.
Proof.
  intros t l c H M. apply (everywhere_member on_track (tree_run t l) c); [|exact M].
  apply tree_run_track. exact (everywhere_mono _ _ _ fresh_track H).
Qed.

(** When Publish, Configure or Connect return without an exception, every
    component of the tree got that far, including those created on the way by
    their parents, provided nobody adds a component to a container the simulator
    is already going through. *)
Theorem C63_all_reached_partial : forall w t t' c,
  everywhere no_late t -> walk w t = (t', true) -> member c t' ->
  match w with
  | WPublish => 1 <= rank (state_of c)
  | WConfigure => 2 <= rank (state_of c)
  | WConnect => 3 <= rank (state_of c)
  | WExit => state_of c <> Connected
  end.
Proof. exact (fun w t t' c H E => walk_goal w t t' H E c). Qed.

(** An exception can only come from a component. *)
Theorem C63_no_exception : forall w t, everywhere no_throw t -> snd (walk w t) = true.
Proof. exact walk_no_throw. Qed.

(** A component added to a container the simulator is going through is not
    connected, without any exception. *)
Theorem C63_all_reached_refuted :
  exists t t' c, everywhere no_throw t /\ everywhere fresh t /\
    walk WConnect t = (t', true) /\ member c t' /\ state_of c = Created.
Proof.
  exists (Comp Created [] None [[(Late, Comp Created [] None [])]]).
  eexists. exists (Comp Created [] None []).
  split; [constructor; [reflexivity|]|].
  { intros l w k [<-|[]] [E|[]]. injection E as <- <-. constructor; [reflexivity|]. intros l0 ? ? []. }
  split; [constructor; [now split|]|].
  { intros l w k [<-|[]] [E|[]]. injection E as <- <-. constructor; [now split|]. intros l0 ? ? []. }
  split; [reflexivity|]. split; [|reflexivity].
  eapply member_in; [left; reflexivity|left; reflexivity|apply member_self].
Qed.

(** Reconnect(root) does not connect the root itself. *)
Theorem C63_reconnect_root_refuted :
  exists t t', everywhere no_throw t /\ everywhere no_late t /\
    reconnect t = (t', true) /\ state_of t' = Created.
Proof.
  exists (Comp Created [] None []). eexists.
  split; [constructor; [reflexivity|intros l w k []]|].
  split; [constructor; [intros l k []|intros l w k []]|].
  split; reflexivity.
Qed.

(** A model whose child is created by its parent during Configure: both are
    connected. *)
Example C63_example :
  let leaf := Comp Created [] None [] in
  let t := Comp Created [] None [[(Here, leaf)]; [(During ConfigureCall, leaf)]] in
  exists t', walk WConnect t = (t', true) /\
    t' = Comp Connected [PublishCall; ConfigureCall; ConnectCall] None
           [[(Here, Comp Connected [PublishCall; ConfigureCall; ConnectCall] None [])];
            [(Here, Comp Connected [PublishCall; ConfigureCall; ConnectCall] None [])]].
Proof. eexists. split; reflexivity. Qed.

Example C63_exception_example :
  let leaf := Comp Created [] None [] in
  let t := Comp Created [] None [[(Here, Comp Created [] (Some ConfigureCall) []); (Here, leaf)]] in
  let t' := tree_run t [TWalk WPublish; TWalk WConnect; TWalk WConnect; TWalk WExit; TWalk WConnect] in
  everywhere fresh t /\
  t' = Comp Disconnected life None
         [[(Here, Comp Disconnected life (Some ConfigureCall) []);
           (Here, Comp Disconnected life None [])]].
Proof.
  split; [|reflexivity]. constructor; [now split|].
  intros l w k [<-|[]] [E|[E|[]]]; injection E as <- <-;
    (constructor; [now split|intros l0 ? ? []]).
Qed.

(** C64: DoPublish and DoConnect are called once, when Publish and Connect are
    accepted; over a whole life at most once. *)
Theorem C64_publish_connect_once : forall d l g,
  gcmp_run d (GCmp cmp_new []) l = Some g ->
  gbase g = final cmp_new l /\
  hook_count DoPublish (gcalls g) =
    (if has_publish d && (1 <=? rank (cst (gbase g))) then 1 else 0) /\
  hook_count DoConnect (gcalls g) =
    (if has_connect d && (3 <=? rank (cst (gbase g))) then 1 else 0).
Proof.
  intros d l g H. apply gcmp_run_spec in H. cbn [gbase gcalls] in H.
  destruct H as (H0 & H1 & _ & H3 & _). rewrite C49_order in H1, H3. rewrite <- H0 in *.
  split; [reflexivity|]. rewrite H1, H3.
  destruct (has_publish d), (has_connect d), (cst (gbase g)); split; reflexivity.
Qed.

(** DoConfigure (with both parameters) is called twice by an accepted Configure;
    DoDisconnect is called by every Disconnect, accepted or not. *)
Theorem C64_configure_disconnect_partial : forall d l g,
  gcmp_run d (GCmp cmp_new []) l = Some g ->
  hook_count DoConfigure (gcalls g) =
    (match configure d with FullHook => if 2 <=? rank (cst (gbase g)) then 2 else 0 | _ => 0 end) /\
  hook_count DoDisconnect (gcalls g) =
    (if has_disconnect d then length (filter is_disconnect l) else 0).
Proof.
  intros d l g H. apply gcmp_run_spec in H. cbn [gbase gcalls] in H.
  destruct H as (H0 & _ & H2 & _ & H4). rewrite C49_order in H2. rewrite <- H0 in *.
  rewrite H2, H4. split; [|destruct (has_disconnect d); reflexivity].
  destruct (configure d), (cst (gbase g)); reflexivity.
Qed.

(** Each hook once: not for DoConfigure. *)
Theorem C64_configure_twice_refuted :
  exists d l g, gcmp_run d (GCmp cmp_new []) l = Some g /\
    call_count ConfigureCall (accepted cmp_new l) = 1 /\
    hook_count DoConfigure (gcalls g) = 2.
Proof.
  exists (GDecl false FullHook false false), [CPublish true; CConfigure]. eexists.
  repeat split.
Qed.

(** Each hook only when the call is accepted: not for DoDisconnect. *)
Theorem C64_disconnect_refused_refuted :
  exists d l g, gcmp_run d (GCmp cmp_new []) l = Some g /\
    accepted cmp_new l = [] /\ hook_count DoDisconnect (gcalls g) = 1.
Proof.
  exists (GDecl false NoHook false true), [CDisconnect]. eexists. repeat split.
Qed.

Example C64_example :
  option_map gcalls
    (gcmp_run (GDecl true FullHook true true) (GCmp cmp_new [])
       [CConnect true; CPublish true; CPublish true; CConfigure; CConnect true; CDisconnect]) =
  Some [DoPublish; DoConfigure; DoConfigure; DoConnect; DoDisconnect].
Proof. reflexivity. Qed.

Print Assumptions C49_order.
Print Assumptions C63_in_order.
Print Assumptions C63_all_reached_partial.
Print Assumptions C64_publish_connect_once.

(** After any history, a component that its parent creates while it handles call x is in
    its container if and only if the parent received x; until then it is untouched. *)
Theorem C63_created : forall t l w, everywhere fresh t ->
  everywhere settled (tree_run t l) /\ follows (tree_run t l) (fst (walk w (tree_run t l))).
Proof.
  intros t l w H.
  assert (S : everywhere settled (tree_run t l)) by (apply run_created; exact (everywhere_mono _ _ _ fresh_settled H)).
  split; [exact S|]. now apply walk_created.
Qed.

Example C63_created_example :
  let leaf := Comp Created [] None [] in
  let t := Comp Created [] None [[(During PublishCall, Comp Created [] None [[(During ConfigureCall, leaf)]]); (During ConnectCall, leaf)]] in
  everywhere fresh t /\
  child (tree_run t [TWalk WPublish]) 0 0 = Some (Here, Comp Publishing [PublishCall] None [[(During ConfigureCall, leaf)]]) /\
  child (tree_run t [TWalk WPublish]) 0 1 = Some (During ConnectCall, leaf).
Proof.
  cbn zeta. assert (L : everywhere fresh (Comp Created [] None [])) by (constructor; [now split|intros l w k []]).
  split; [|split; reflexivity]. constructor; [now split|].
  intros l w k [<-|[]] [E|[E|[]]]; injection E as <- <-; [|exact L].
  constructor; [now split|]. intros l w k [<-|[]] [E|[]]. injection E as <- <-. exact L.
Qed.
