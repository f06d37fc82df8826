(** Traces of the scheduler: the lives of events according to the history, and what
    every step of every history (disciplined or not) does to them. *)
From Verif Require Import Base SchedModel SchedSpec SchedInv.

#[local] Opaque hold_id i64_max i64_min.

Lemma always_app P h2 x h1 : always P (h2 ++ x :: h1) -> P x h1.
Proof. induction h2; cbn; tauto. Qed.

Lemma always_impl (P Q : tev -> list tev -> Prop) tr :
  (forall x past, P x past -> Q x past) -> always P tr -> always Q tr.
Proof. intros H. induction tr; cbn; [auto|]. intros []; auto. Qed.

(** The running user entry point. *)
Definition rn (c : ctrl) (z : zctrl) : option Z :=
  match c with
  | ImmRun id _ _ | EvtRun id _ _ => Some id
  | _ => match z with ZRun id _ _ => Some id | _ => None end
  end.

Definition ended (s : sched) (id : Z) (s' : sched) : Prop :=
  exists e, mget id (evs s) = Some e /\ now s' = now s /\ last s' = last s /\ cur s' = cur s /\
    ((ev_repeat e = 0 /\ evs s' = mdel id (evs s)) \/
     (ev_repeat e <> 0 /\ exists t, evs s' = mset id (Ev (ev_ep e) (ev_next e + ev_cycle e) t (ev_cycle e)
        (if 0 <? ev_repeat e then ev_repeat e - 1 else ev_repeat e) (ev_kind e)) (evs s))).

Lemma finish_ended s id s' : finish s id = inr s' -> ended s id s'.
Proof.
  unfold finish, ended. destruct (mget id (evs s)) as [e|]; [|discriminate].
  destruct (Z.eqb_spec (ev_repeat e) 0).
  - intros [= <-]. exists e. repeat split; auto.
  - destruct (_ && _); [|discriminate]. intros [= <-]. exists e. repeat split; auto.
    right. split; auto. eexists. reflexivity.
Qed.

Lemma zfinish_ended s id s' : zfinish s id = inr s' -> ended s id s'.
Proof.
  unfold zfinish, ended. destruct (mget id (evs s)) as [e|]; [|discriminate].
  destruct (Z.eqb_spec (ev_repeat e) 0).
  - intros [= <-]. exists e. repeat split; auto.
  - destruct (in_i64 _); [|discriminate]. intros [= <-]. exists e. repeat split; auto.
    right. split; auto. eexists. reflexivity.
Qed.

(** What one step does, as far as events and observations are concerned. *)
Inductive vis (m m' : mach) : Prop :=
| VSilent : evs (sc m') = evs (sc m) -> last (sc m') = last (sc m) -> now (sc m') = now (sc m) ->
    cur (sc m') = cur (sc m) -> rn (ctl m') (zc m') = rn (ctl m) (zc m) -> tr m' = tr m -> vis m m'
| VDead (d : death) (l : list tev) : ctl m' = Dead d -> tr m' = l ++ tr m ->
    (l = [] \/ (d = DDangling /\ exists i, (l = [TEnd i] /\ rn (ctl m) (zc m) = Some i /\ mget i (evs (sc m)) <> None) \/ l = [TSkip i])) -> now (sc m') = now (sc m) -> vis m m'
| VStart (id : Z) (im : bool) (e : event) : rn (ctl m) (zc m) = None -> rn (ctl m') (zc m') = Some id ->
    mget id (evs (sc m)) = Some e ->
    (if im then exists rest b, ctl m = ImmGo (id :: rest) b
     else exists K rest, ctl m = EvtGo K (id :: rest)) ->
    skips (sc m) e = false ->
    sc m' = set_cur id (sc m) -> tr m' = TStart id (now (sc m)) im :: tr m -> vis m m'
| VZStart (id : Z) (e : event) (K : Z) (rest : list Z) : rn (ctl m) (zc m) = None -> rn (ctl m') (zc m') = Some id ->
    mget id (evs (sc m)) = Some e -> zc m = ZGo K (id :: rest) ->
    sc m' = set_cur id (sc m) -> tr m' = TZulu id (ev_next e) (zclock m) :: tr m -> vis m m'
| VEnd (id : Z) : rn (ctl m) (zc m) = Some id -> rn (ctl m') (zc m') = None ->
    ended (set_cur (-1) (sc m)) id (sc m') -> tr m' = TEnd id :: tr m -> vis m m'
| VSkip (id : Z) (e : event) : rn (ctl m') (zc m') = rn (ctl m) (zc m) ->
    mget id (evs (sc m)) = Some e ->
    ((exists rest b, ctl m = ImmGo (id :: rest) b) /\ skips (sc m) e = true \/
     (exists K rest, ctl m = EvtGo K (id :: rest)) /\ skips (sc m) e = true \/
     exists K rest, zc m = ZGo K (id :: rest)) ->
    ended (sc m) id (sc m') -> tr m' = TSkip id :: tr m -> vis m m'
| VCall (c : cmd) (r : ret) : api (sc m) c = Ok r -> m' = after_call m c r -> vis m m'
| VCommit (q : addreq) (r : ret) (n : nat) : nth_error (pend m) n = Some q -> commit_add (sc m) q = Ok r ->
    m' = log (set_pend (goto m (r_st r) (ctl m)) (remove_nth n (pend m)))
             (TAdd (r_id r) (r_kind q) false (r_sim q) (r_cycle q) (r_repeat q)) -> vis m m'
| VTime (K : Z) : ctl m = Wait K -> set_sim_time (sc m) K = Ok (set_now (now (sc m')) (sc m)) ->
    now (sc m) <= now (sc m') ->
    evs (sc m') = evs (sc m) -> last (sc m') = last (sc m) -> cur (sc m') = cur (sc m) ->
    rn (ctl m') (zc m') = rn (ctl m) (zc m) ->
    tr m' = TTime (now (sc m')) :: tr m -> vis m m'.

(** After an occurrence: death, or a state where no simulation entry point runs. *)
Definition calm (m : mach) (s : sched) (m' : mach) : Prop :=
  zc m' = zc m /\ tr m' = tr m /\
  ((exists d, ctl m' = Dead d /\ sc m' = sc m /\ d = DDangling) \/
   (sim_ep_running (ctl m') = false /\ (forall d, ctl m' <> Dead d) /\
    evs (sc m') = evs s /\ last (sc m') = last s /\ now (sc m') = now s /\ cur (sc m') = cur s)).

Lemma calm_goto m s c : sim_ep_running c = false -> (forall d, c <> Dead d) -> calm m s (goto m s c).
Proof. intros H1 H2. repeat split; auto. right. repeat split; auto. Qed.

Lemma stop_events_calm m s K rest : calm m s (stop_events m s K rest).
Proof.
  unfold stop_events. destruct (dang m).
  - repeat split; auto. left. eexists. repeat split; reflexivity.
  - repeat split; auto. right. repeat split; auto. discriminate.
Qed.

Lemma stop_imm_calm m s rest b : calm m s (stop_imm m s rest b).
Proof.
  unfold stop_imm. destruct b; try (repeat split; auto; right; repeat split; auto; discriminate).
  match goal with |- calm m s (stop_events m ?x K rest0) =>
    destruct (stop_events_calm m x K rest0) as (H1&H2&H3) end.
  repeat split; auto.
Qed.

Lemma after_imm_calm m s rest b : calm m s (after_imm m s rest b).
Proof.
  unfold after_imm. destruct (hold s); [apply stop_imm_calm|]. apply calm_goto; auto. discriminate.
Qed.

Lemma after_evt_calm m s K rest : calm m s (after_evt m s K rest).
Proof.
  unfold after_evt. destruct (hold s); [apply stop_events_calm|]. apply calm_goto; auto. discriminate.
Qed.

Lemma loop_head_calm m s o : calm m s (loop_head m s o).
Proof.
  unfold loop_head. destruct o; repeat split; auto; right; repeat split; auto; discriminate.
Qed.

Lemma imm_return_calm m s b : calm m s (imm_return m s b).
Proof.
  unfold imm_return. destruct b.
  - apply loop_head_calm.
  - apply calm_goto; auto; discriminate.
  - apply calm_goto; auto; discriminate.
Qed.

Lemma rn_calm c z c' : sim_ep_running c = false -> sim_ep_running c' = false -> rn c z = rn c' z.
Proof. destruct c, c'; cbn; intros; auto; discriminate. Qed.

(** A calm step from a state where no simulation entry point runs, same events. *)
Lemma calm_silent m s m' : calm m s m' -> sim_ep_running (ctl m) = false ->
  evs s = evs (sc m) -> last s = last (sc m) -> now s = now (sc m) -> cur s = cur (sc m) -> vis m m'.
Proof.
  intros (Hz&Ht&[(d&Hd&Hs&Hdd)|(H1&H2&H3&H4&H5&H6)]) Hr E1 E2 E3 E4.
  - eapply (VDead _ _ d []); eauto. now rewrite Hs.
  - apply VSilent; try congruence. rewrite Hz. now apply rn_calm.
Qed.

Lemma calm_skip m s m' id e : calm (log m (TSkip id)) s m' -> sim_ep_running (ctl m) = false ->
  finish (sc m) id = inr s -> mget id (evs (sc m)) = Some e -> skips (sc m) e = true ->
  (exists rest b, ctl m = ImmGo (id :: rest) b) \/ (exists K rest, ctl m = EvtGo K (id :: rest)) ->
  vis m m'.
Proof.
  intros (Hz&Ht&[(d&Hd&Hs&Hdd)|(H1&H2&H3&H4&H5&H6)]) Hr Hf He Hk Hc.
  { eapply (VDead _ _ d [TSkip id]); eauto 6. now rewrite Hs. }
  apply finish_ended in Hf as (e'&He'&F1&F2&F3&F4). rewrite He in He'. injection He' as <-.
  eapply VSkip with (e := e); eauto.
  - rewrite Hz. cbn. now apply rn_calm.
  - tauto.
  - exists e. repeat split; try congruence. rewrite H3. exact F4.
Qed.

Lemma calm_end m s m' id : calm (log m (TEnd id)) s m' -> rn (ctl m) (zc m) = Some id ->
  sim_ep_running (ctl m) && zulu_running m = false -> sim_ep_running (ctl m) = true ->
  finish (set_cur (-1) (sc m)) id = inr s -> vis m m'.
Proof.
  intros (Hz&Ht&[(d&Hd&Hs&Hdd)|(H1&H2&H3&H4&H5&H6)]) Hr Hx Hsr Hf.
  { apply finish_ended in Hf as (e&He&_). eapply (VDead _ _ d [TEnd id]); eauto; [|now rewrite Hs].
    right. split; auto. exists id. left. repeat split; auto. change (mget id (evs (sc m)) <> None). cbn in He. congruence. }
  apply finish_ended in Hf as (e&He&F1&F2&F3&F4).
  eapply VEnd; eauto.
  - rewrite Hz. cbn. unfold zulu_running in Hx. rewrite Hsr in Hx. cbn in Hx.
    destruct (zc m); try discriminate; destruct (ctl m'); cbn in *; auto; discriminate.
  - exists e. repeat split; try congruence. rewrite H3. exact F4.
Qed.

Definition excl (m : mach) : Prop := sim_ep_running (ctl m) && zulu_running m = false.

Lemma vis_die m d : vis m (die m d).
Proof. eapply (VDead _ _ d []); cbn; auto. Qed.

Lemma vis_refl m : vis m m.
Proof. now apply VSilent. Qed.

Lemma tau_vis m : excl m -> vis m (tau m).
Proof.
  unfold excl. intros Hx. unfold tau. destruct (ctl m) eqn:E; try apply vis_refl.
  - destruct rest as [|id rest].
    + destruct (imm (sc m)) eqn:Ei.
      * eapply calm_silent; [apply imm_return_calm|..]; auto. now rewrite E.
      * eapply calm_silent; [apply calm_goto|..]; auto; [discriminate|]. now rewrite E.
    + destruct (mget id (evs (sc m))) as [e|] eqn:He; [|apply vis_die].
      destruct (skips (sc m) e) eqn:Es.
      * destruct (finish (sc m) id) as [d|s'] eqn:Ef; [apply vis_die|].
        eapply calm_skip; [apply after_imm_calm|..]; eauto. now rewrite E.
      * destruct (zulu_running m) eqn:Ez; [apply vis_refl|].
        assert (Hr : rn (ctl m) (zc m) = None).
        { rewrite E. cbn. unfold zulu_running in Ez. destruct (zc m); congruence. }
        eapply VStart with (im := true); eauto. cbn. reflexivity.
  - destruct (hold (sc m)).
    + eapply calm_silent; [apply calm_goto|..]; auto; [discriminate|]. now rewrite E.
    + destruct (dang m); [apply vis_die|].
      eapply calm_silent; [apply calm_goto|..]; auto; [discriminate|]. now rewrite E.
  - destruct (hold (sc m)); [|apply vis_refl].
    eapply calm_silent; [apply calm_goto|..]; auto; [discriminate|]. now rewrite E.
  - eapply calm_silent; [apply calm_goto|..]; auto; [discriminate|]. now rewrite E.
  - destruct rest as [|id rest].
    + destruct (dang m); [apply vis_die|]. destruct (tget K (tbl (sc m))) eqn:Ei.
      * eapply calm_silent; [apply loop_head_calm|..]; auto. now rewrite E.
      * eapply calm_silent; [apply calm_goto|..]; auto; [discriminate|]. now rewrite E.
    + destruct (mget id (evs (sc m))) as [e|] eqn:He; [|apply vis_die].
      destruct (skips (sc m) e) eqn:Es.
      * destruct (finish (sc m) id) as [d|s'] eqn:Ef; [apply vis_die|].
        eapply calm_skip; [apply after_evt_calm|..]; eauto. now rewrite E.
      * destruct (zulu_running m) eqn:Ez; [apply vis_refl|].
        assert (Hr : rn (ctl m) (zc m) = None).
        { rewrite E. cbn. unfold zulu_running in Ez. destruct (zc m); congruence. }
        eapply VStart with (im := false); eauto. cbn. reflexivity.
Qed.

Lemma set_sim_time_ok s t s' : set_sim_time s t = Ok s' ->
  (s' = s /\ window s = false) \/
  (s' = set_now t s /\ window s = true /\ now s <= t <= next_scheduled s).
Proof.
  unfold set_sim_time. destruct (window s); cbn; [|intros [= <-]; auto].
  destruct (Z.ltb_spec t (now s)); [discriminate|]. destruct (Z.ltb_spec (next_scheduled s) t); [discriminate|].
  cbn. intros [= <-]. right. auto.
Qed.

Lemma set_now_id s : set_now (now s) s = s.
Proof. now destruct s. Qed.

Lemma timeout_vis m : vis m (timeout m).
Proof.
  unfold timeout. destruct (ctl m) eqn:E; try apply vis_refl.
  destruct (dang m); [apply vis_die|].
  destruct (set_sim_time (sc m) K) as [s'| |] eqn:Es; try apply vis_die.
  pose proof Es as Es'. apply set_sim_time_ok in Es' as [[-> _]|(->&_&?&?)].
  - eapply VTime; cbn; eauto; try lia. rewrite Es. now rewrite set_now_id. now rewrite E.
  - eapply VTime; cbn; eauto; try lia. now rewrite E.
Qed.

Lemma end_ep_vis m : excl m -> vis m (end_ep m).
Proof.
  unfold excl. intros Hx. unfold end_ep. destruct (ctl m) eqn:E; try apply vis_refl.
  - destruct (finish _ id) as [d|s'] eqn:Ef; [apply vis_die|].
    eapply calm_end; [apply after_imm_calm|..]; rewrite ?E; eauto.
  - destruct (finish _ id) as [d|s'] eqn:Ef; [apply vis_die|].
    eapply calm_end; [apply after_evt_calm|..]; rewrite ?E; eauto.
Qed.

Lemma ztau_vis m ok : excl m -> vis m (ztau m ok).
Proof.
  unfold excl. intros Hx. unfold ztau. destruct (zc m) eqn:E; try apply vis_refl.
  assert (Hrz : forall c K r, rn c (ZGo K r) = rn c ZWait) by (intros c; destruct c; auto).
  destruct rest as [|id rest].
  - destruct (tget K (ztbl (sc m))).
    + apply VSilent; cbn; auto. rewrite E. now rewrite Hrz.
    + apply VSilent; cbn; auto. rewrite E. now rewrite !Hrz.
  - destruct (mget id (evs (sc m))) as [e|] eqn:He; [|apply vis_die].
    destruct ok; cbn [negb].
    + destruct (sim_ep_running (ctl m)) eqn:Er; [apply vis_refl|].
      eapply VZStart; eauto; cbn; auto.
      * rewrite E. destruct (ctl m); cbn in *; auto; discriminate.
      * destruct (ctl m); cbn in *; auto; discriminate.
    + destruct (zfinish (sc m) id) as [d|s'] eqn:Ef; [apply vis_die|].
      eapply VSkip; cbn; eauto.
      * rewrite E, Hrz, (Hrz _ _ (id :: rest)). reflexivity.
      * now apply zfinish_ended.
Qed.

Lemma zend_vis m : excl m -> vis m (zend m).
Proof.
  unfold excl, zulu_running. intros Hx. unfold zend. destruct (zc m) eqn:E; try apply vis_refl.
  rewrite andb_true_r in Hx.
  destruct (zfinish _ id) as [d|s'] eqn:Ef; [apply vis_die|].
  apply VEnd with (id := id); cbn; auto.
  - rewrite E. destruct (ctl m); cbn in *; auto; discriminate.
  - destruct (ctl m); cbn in *; auto; discriminate.
  - now apply zfinish_ended.
Qed.

Lemma ztick_vis m z : vis m (ztick m z).
Proof.
  unfold ztick. destruct (zc m) eqn:E; try apply vis_refl.
  destruct (ztbl (sc m)) as [|[K l] t]; [apply vis_refl|]. destruct (K <=? z); [|apply vis_refl].
  apply VSilent; cbn; auto. rewrite E. destruct (ctl m); auto.
Qed.

Lemma mstep_vis m l : excl m -> vis m (mstep m l).
Proof.
  intros Hx. unfold mstep. destruct (ctl m) eqn:E; try apply vis_refl;
  (destruct l;
   [ try apply vis_refl; apply VSilent; cbn; rewrite ?E; auto
   | now apply tau_vis | apply timeout_vis | now apply end_ep_vis
   | apply VSilent; cbn; rewrite ?E; auto
   | unfold call; destruct (api (sc m) c) eqn:Ea; [eapply VCall; eauto|apply vis_refl|apply vis_die]
   | unfold begin_add; destruct (build_add (sc m) c) as [[q| |]|]; try apply vis_refl; try apply vis_die;
       destruct (check_add (sc m) q); try apply vis_refl; apply VSilent; auto
   | unfold commit; destruct (nth_error (pend m) n) as [q|] eqn:En; [|apply vis_refl];
       destruct (commit_add (sc m) q) eqn:Ec; [|apply vis_refl|apply vis_die];
       eapply VCommit; eauto
   | apply ztick_vis | now apply ztau_vis | now apply zend_vis ]).
Qed.

(** ** Mutual exclusion of entry points *)
Lemma calm_excl m s m' : calm m s m' -> excl m'.
Proof.
  intros (_&_&[(d&Hd&_&_)|(H&_)]); unfold excl; [now rewrite Hd|]. now rewrite H.
Qed.

Lemma excl_same m m' : ctl m' = ctl m -> zc m' = zc m -> excl m -> excl m'.
Proof. unfold excl, zulu_running. now intros -> ->. Qed.

Lemma tau_excl m : excl m -> excl (tau m).
Proof.
  intros Hx. unfold tau. destruct (ctl m) eqn:E; auto.
  - destruct rest as [|id rest].
    + destruct (imm (sc m)); [eapply calm_excl, imm_return_calm|reflexivity].
    + destruct (mget id (evs (sc m))) as [e|]; [|reflexivity]. destruct (skips (sc m) e).
      * destruct (finish (sc m) id); [reflexivity|]. eapply calm_excl, after_imm_calm.
      * destruct (zulu_running m) eqn:Ez; [exact Hx|exact Ez].
  - destruct (hold (sc m)); [reflexivity|]. destruct (dang m); reflexivity.
  - destruct (hold (sc m)); [reflexivity|auto].
  - reflexivity.
  - destruct rest as [|id rest].
    + destruct (dang m); [reflexivity|].
      destruct (tget K (tbl (sc m))); [eapply calm_excl, loop_head_calm|reflexivity].
    + destruct (mget id (evs (sc m))) as [e|]; [|reflexivity]. destruct (skips (sc m) e).
      * destruct (finish (sc m) id); [reflexivity|]. eapply calm_excl, after_evt_calm.
      * destruct (zulu_running m) eqn:Ez; [exact Hx|exact Ez].
Qed.

Lemma mstep_excl m l : excl m -> excl (mstep m l).
Proof.
  intros Hx.
  assert (H : excl match l with
      | LRun => match ctl m with Idle => goto m (set_hold false (sc m)) (ImmGo [] BStart) | _ => m end
      | LTau => tau m | LTimeout => timeout m | LEnd => end_ep m
      | LHold => goto m (set_hold true (sc m)) (ctl m)
      | LCall c => call m c | LBegin c => begin_add m c | LCommit n => commit m n
      | LZTick z => ztick m z | LZTau ok => ztau m ok | LZEnd => zend m end).
  { destruct l.
    - destruct (ctl m); first [exact Hx|reflexivity].
    - now apply tau_excl.
    - unfold timeout. destruct (ctl m) eqn:E; auto. destruct (dang m); [reflexivity|].
      destruct (set_sim_time (sc m) K); reflexivity.
    - unfold end_ep. destruct (ctl m) eqn:E; auto.
      + destruct (finish _ id); [reflexivity|]. eapply calm_excl, after_imm_calm.
      + destruct (finish _ id); [reflexivity|]. eapply calm_excl, after_evt_calm.
    - exact Hx.
    - unfold call. destruct (api (sc m) c); [exact Hx|exact Hx|reflexivity].
    - unfold begin_add. destruct (build_add (sc m) c) as [[q| |]|]; auto; [|reflexivity].
      destruct (check_add (sc m) q); auto.
    - unfold commit. destruct (nth_error (pend m) n); auto. destruct (commit_add (sc m) a); auto. reflexivity.
    - unfold ztick. destruct (zc m) eqn:E; auto. destruct (ztbl (sc m)) as [|[K l] t]; auto.
      destruct (K <=? z); auto. unfold excl. cbn. apply andb_false_r.
    - unfold ztau. destruct (zc m) eqn:E; auto. destruct rest as [|id rest].
      + destruct (tget K (ztbl (sc m))); unfold excl; cbn; apply andb_false_r.
      + destruct (mget id (evs (sc m))); [|reflexivity]. destruct ok; cbn [negb].
        * destruct (sim_ep_running (ctl m)) eqn:Er; auto. unfold excl. cbn. now rewrite Er.
        * destruct (zfinish (sc m) id); [reflexivity|]. unfold excl; cbn; apply andb_false_r.
    - unfold zend. destruct (zc m) eqn:E; auto. destruct (zfinish _ id); [reflexivity|].
      unfold excl; cbn; apply andb_false_r. }
  unfold mstep. destruct (ctl m) eqn:E; auto.
Qed.

(** ** Histories and event records agree, in every history *)
Definition of_ev (r : option Z) (id : Z) (e : event) : Z * Z * Z * tkind * bool :=
  (ev_next e, ev_cycle e, ev_repeat e, ev_kind e, match r with Some i => i =? id | None => false end).

Definition of_life (l : life) : Z * Z * Z * tkind * bool :=
  (due l, cyc l, rep l, lkind l, live_run l).

Record Link (m : mach) : Prop := {
  k_excl : excl m;
  k_cur : cur (sc m) = match rn (ctl m) (zc m) with Some i => i | None => -1 end;
  k_last : -1 <= last (sc m) <= i64_max;
  k_ids : forall id e, mget id (evs (sc m)) = Some e -> 0 <= id <= last (sc m) \/ id = hold_id;
  k_run : forall id, rn (ctl m) (zc m) = Some id -> 0 <= id <= last (sc m) \/ id = hold_id;
  k_sorted : msorted (evs (sc m));
  k_life : forall id, option_map of_life (life_of id (tr m)) =
                      option_map (of_ev (rn (ctl m) (zc m)) id) (mget id (evs (sc m)))
}.

Lemma Link_init : Link mach_init.
Proof.
  constructor; cbn; auto; try discriminate.
  - reflexivity.
  - pose proof i64_max_pos. lia.
  - intros id e. destruct (Z.eqb_spec id hold_id); [auto|discriminate].
  - repeat constructor.
  - intros id. destruct (id =? hold_id); reflexivity.
Qed.

Lemma life_of_ev m id e : Link m -> mget id (evs (sc m)) = Some e ->
  exists l, life_of id (tr m) = Some l /\ due l = ev_next e /\ cyc l = ev_cycle e /\ rep l = ev_repeat e /\
            lkind l = ev_kind e /\
            live_run l = match rn (ctl m) (zc m) with Some i => i =? id | None => false end.
Proof.
  intros H He. pose proof (k_life _ H id) as Hl. rewrite He in Hl. cbn in Hl.
  destruct (life_of id (tr m)) as [l|]; [|discriminate]. injection Hl as ?????. exists l; auto 10.
Qed.

Lemma ev_of_life m id l : Link m -> life_of id (tr m) = Some l ->
  exists e, mget id (evs (sc m)) = Some e /\ due l = ev_next e /\ cyc l = ev_cycle e /\ rep l = ev_repeat e /\
            lkind l = ev_kind e /\
            live_run l = match rn (ctl m) (zc m) with Some i => i =? id | None => false end.
Proof.
  intros H He. pose proof (k_life _ H id) as Hl. rewrite He in Hl. cbn in Hl.
  destruct (mget id (evs (sc m))) as [e|]; [|discriminate]. injection Hl as ?????. exists e; auto 10.
Qed.

Lemma no_life m id : Link m -> mget id (evs (sc m)) = None -> life_of id (tr m) = None.
Proof.
  intros H He. pose proof (k_life _ H id) as Hl. rewrite He in Hl. cbn in Hl.
  destruct (life_of id (tr m)) as [l|]; [discriminate|auto].
Qed.

Lemma fresh_id m : Link m -> last (sc m) < i64_max -> mget (last (sc m) + 1) (evs (sc m)) = None.
Proof.
  intros H Hl. destruct (mget _ _) as [e|] eqn:E; auto. apply (k_ids _ H) in E.
  pose proof i64_max_hold. lia.
Qed.

Lemma not_running_fresh m : Link m -> last (sc m) < i64_max -> rn (ctl m) (zc m) <> Some (last (sc m) + 1).
Proof. intros H Hl E. apply (k_run _ H) in E. pose proof i64_max_hold. lia. Qed.

(** Adding a record under a fresh id. *)
Lemma Link_add m m' k im t c r ep tm :
  Link m -> last (sc m) < i64_max -> ctl m' = ctl m -> zc m' = zc m -> cur (sc m') = cur (sc m) ->
  last (sc m') = last (sc m) + 1 -> evs (sc m') = mset (last (sc m) + 1) (Ev ep t tm c r k) (evs (sc m)) ->
  (forall id, life_of id (tr m') = life_step id (TAdd (last (sc m) + 1) k im t c r) (life_of id (tr m))) ->
  Link m'.
Proof.
  intros H Hl E1 E2 E3 E4 E5 E6. pose proof (not_running_fresh _ H Hl) as Hn.
  constructor; rewrite ?E1, ?E2.
  - eapply excl_same; eauto. apply H.
  - rewrite E3. apply H.
  - rewrite E4. pose proof (k_last _ H). lia.
  - intros id e. rewrite E5, E4, mget_mset. destruct (Z.eqb_spec id (last (sc m) + 1)) as [->|].
    + pose proof (k_last _ H). lia.
    + intros He. apply (k_ids _ H) in He. lia.
  - intros id Hr. apply (k_run _ H) in Hr. rewrite E4. lia.
  - rewrite E5. apply mset_sorted, H.
  - intros id. rewrite E6, E5, mget_mset. cbn. rewrite (Z.eqb_sym id).
    destruct (Z.eqb_spec (last (sc m) + 1) id) as [<-|].
    + cbn. unfold of_life, of_ev. cbn. repeat f_equal.
      destruct (rn (ctl m) (zc m)) as [i|]; auto. destruct (Z.eqb_spec i (last (sc m) + 1)); auto. congruence.
    + apply H.
Qed.

(** Changing or deleting the record of an existing id. *)
Lemma Link_upd m m' id0 e0 o x :
  Link m -> ctl m' = ctl m -> zc m' = zc m -> cur (sc m') = cur (sc m) -> last (sc m') = last (sc m) ->
  mget id0 (evs (sc m)) = Some e0 ->
  evs (sc m') = match o with Some e => mset id0 e (evs (sc m)) | None => mdel id0 (evs (sc m)) end ->
  tr m' = x :: tr m ->
  (forall id l, id <> id0 -> life_step id x l = l) ->
  (forall l, life_of id0 (tr m) = Some l -> of_life l = of_ev (rn (ctl m) (zc m)) id0 e0 ->
     option_map of_life (life_step id0 x (Some l)) = option_map (of_ev (rn (ctl m) (zc m)) id0) o) ->
  Link m'.
Proof.
  intros H E1 E2 E3 E4 H0 E5 E6 Hother Hsame.
  constructor; rewrite ?E1, ?E2.
  - eapply excl_same; eauto. apply H.
  - rewrite E3. apply H.
  - rewrite E4. apply H.
  - intros id e. rewrite E5, E4. destruct o.
    + rewrite mget_mset. destruct (Z.eqb_spec id id0) as [->|]; intros; eapply (k_ids _ H); eauto.
    + rewrite mget_mdel by apply H. destruct (Z.eqb_spec id id0) as [->|]; [discriminate|].
      intros; eapply (k_ids _ H); eauto.
  - intros id Hr. apply (k_run _ H) in Hr. now rewrite E4.
  - rewrite E5. destruct o; [apply mset_sorted|apply mdel_sorted]; apply H.
  - intros id. rewrite E6. cbn [life_of]. destruct (Z.eq_dec id id0) as [->|Hn].
    + pose proof (k_life _ H id0) as Hl. rewrite H0 in Hl. cbn in Hl.
      destruct (life_of id0 (tr m)) as [l|] eqn:El; [|discriminate]. injection Hl as Hl1 Hl2 Hl3 Hl4 Hl5.
      assert (Hev : mget id0 (evs (sc m')) = o).
      { rewrite E5. destruct o; [now rewrite mget_mset, Z.eqb_refl|].
        rewrite mget_mdel by apply H. now rewrite Z.eqb_refl. }
      rewrite Hev. apply Hsame; auto. unfold of_life, of_ev. congruence.
    + rewrite Hother by auto. rewrite (k_life _ H id). f_equal. rewrite E5.
      destruct o; [rewrite mget_mset|rewrite mget_mdel by apply H];
        (destruct (Z.eqb_spec id id0); [congruence|auto]).
Qed.

Lemma Link_same m m' : Link m -> ctl m' = ctl m -> zc m' = zc m -> cur (sc m') = cur (sc m) ->
  last (sc m') = last (sc m) -> evs (sc m') = evs (sc m) ->
  (forall id, life_of id (tr m') = life_of id (tr m)) -> Link m'.
Proof.
  intros H E1 E2 E3 E4 E5 E6. constructor; rewrite ?E1, ?E2, ?E3, ?E4, ?E5; try apply H.
  - eapply excl_same; eauto. apply H.
  - intros. rewrite E6. apply H.
Qed.

Lemma Link_commit m q r m' im : Link m -> commit_add (sc m) q = Ok r ->
  ctl m' = ctl m -> zc m' = zc m -> sc m' = r_st r ->
  (forall id, life_of id (tr m') =
     life_step id (TAdd (r_id r) (r_kind q) im (r_sim q) (r_cycle q) (r_repeat q)) (life_of id (tr m))) ->
  Link m'.
Proof.
  intros H Hc E1 E2 E3 E4. unfold commit_add in Hc. destruct (Z.ltb_spec (last (sc m)) i64_max); [|discriminate].
  injection Hc as <-. cbn in *. eapply Link_add; eauto; rewrite E3; reflexivity.
Qed.

Ltac other := intros id' l' Hne; cbn; repeat match goal with |- context[?a =? id'] =>
  destruct (Z.eqb_spec a id'); [congruence|] end; reflexivity.

Lemma Link_settime m id t0 sim k r m' n : Link m -> set_event_time (sc m) id sim t0 k = Ok r -> n = now (sc m) ->
  ctl m' = ctl m -> zc m' = zc m -> sc m' = r_st r -> tr m' = TSetTime id sim n :: tr m -> Link m'.
Proof.
  intros H Hs -> E1 E2 E3 E4. unfold set_event_time in Hs.
  destruct (mget id (evs (sc m))) as [e|] eqn:He; [|discriminate].
  destruct (negb (tkind_eqb (ev_kind e) k)); [discriminate|].
  destruct (sim <? now (sc m)) eqn:El; injection Hs as <-.
  - eapply Link_upd with (o := None); eauto; try (rewrite E3; reflexivity); [other|].
    intros l _ _. cbn. now rewrite Z.eqb_refl, El.
  - eapply Link_upd with (o := Some _); eauto; try (rewrite E3; reflexivity); [other|].
    intros l _ Hl. cbn. rewrite Z.eqb_refl, El. cbn. unfold of_life, of_ev in *. cbn. injection Hl; congruence.
Qed.

Lemma Link_call m c r : Link m -> api (sc m) c = Ok r -> Link (after_call m c r).
Proof.
  intros H Ha.
  assert (Hadd : forall q b k im t cc rr, build_add (sc m) c = Some b -> bind b (fun q => bind (check_add (sc m) q) (commit_add (sc m))) = Ok r ->
     b = Ok q -> r_kind q = k -> r_sim q = t -> r_cycle q = cc -> r_repeat q = rr ->
     ret_log m c r = [TAdd (r_id r) k im t cc rr] -> Link (after_call m c r)).
  { intros q b k im t cc rr _ Hb -> <- <- <- <- Hl. cbn in Hb.
    unfold check_add in Hb. destruct (r_sim q <? now (sc m)); [discriminate|].
    destruct (negb (r_repeat q =? 0) && (r_cycle q <=? 0)); [discriminate|]. cbn in Hb.
    eapply Link_commit; eauto. intros id. cbn. rewrite Hl. reflexivity. }
  destruct c; cbn [api] in Ha.
  - destruct (Z.ltb_spec (last (sc m)) i64_max); [|discriminate]. injection Ha as <-.
    eapply Link_add with (im := true); eauto; try reflexivity. intros id. cbn.
    destruct (sim_ep_running (ctl m)); reflexivity.
  - cbn in Ha. destruct (in_i64 _) eqn:E; [|discriminate].
    eapply Hadd; [cbn; rewrite E|..]; eauto; reflexivity.
  - cbn in Ha. destruct (_ && _) eqn:E; [|discriminate].
    eapply Hadd; [cbn; rewrite E|..]; eauto; reflexivity.
  - cbn in Ha. destruct (_ && _) eqn:E; [|discriminate].
    eapply Hadd; [cbn; rewrite E|..]; eauto; reflexivity.
  - destruct (t <? z); [discriminate|]. destruct (negb (r0 =? 0) && (c <=? 0)); [discriminate|].
    destruct (Z.ltb_spec (last (sc m)) i64_max); [|discriminate]. injection Ha as <-.
    eapply Link_add with (im := false); eauto; reflexivity.
  - destruct (in_i64 _); [|discriminate]. eapply Link_settime; eauto; reflexivity.
  - destruct (_ && _); [|discriminate]. eapply Link_settime; eauto; reflexivity.
  - destruct (_ && _); [|discriminate]. eapply Link_settime; eauto; reflexivity.
  - unfold set_event_zulu in Ha. destruct (mget id (evs (sc m))) as [e|] eqn:He; [|discriminate].
    destruct (negb (tkind_eqb (ev_kind e) KZulu)); [discriminate|].
    destruct (t <? z) eqn:El; injection Ha as <-.
    + eapply Link_upd with (o := None) (id0 := id); eauto; try reflexivity; [other|].
      intros l _ _. cbn. now rewrite Z.eqb_refl, El.
    + eapply Link_upd with (o := Some _) (id0 := id); eauto; try reflexivity; [other|].
      intros l _ Hl. cbn. rewrite Z.eqb_refl, El. cbn. unfold of_life, of_ev in *. cbn. injection Hl; congruence.
  - destruct (mget id (evs (sc m))) as [e|] eqn:He; [|discriminate].
    destruct ((0 <? ev_repeat e) && (c <=? 0)); [discriminate|]. injection Ha as <-.
    eapply Link_upd with (o := Some _) (id0 := id); eauto; try reflexivity; [other|].
    intros l _ Hl. cbn. rewrite Z.eqb_refl. cbn. unfold of_life, of_ev in *. cbn. injection Hl; congruence.
  - destruct (mget id (evs (sc m))) as [e|] eqn:He; [|discriminate].
    destruct (negb (r0 =? 0) && (ev_cycle e <=? 0)); [discriminate|]. injection Ha as <-.
    eapply Link_upd with (o := Some _) (id0 := id); eauto; try reflexivity; [other|].
    intros l _ Hl. cbn. rewrite Z.eqb_refl. cbn. unfold of_life, of_ev in *. cbn. injection Hl; congruence.
  - unfold remove_event in Ha. destruct (mget id (evs (sc m))) as [e|] eqn:He; [|discriminate].
    assert (Hrun : (cur (sc m) =? id) = match rn (ctl m) (zc m) with Some i => i =? id | None => false end).
    { rewrite (k_cur _ H). destruct (rn (ctl m) (zc m)); auto. apply Z.eqb_neq.
      apply (k_ids _ H) in He. pose proof i64_max_hold. pose proof i64_max_pos. lia. }
    destruct (cur (sc m) =? id) eqn:Ec.
    + injection Ha as <-. eapply Link_upd with (o := Some _) (id0 := id); eauto; try reflexivity; [other|].
      intros l _ Hl. cbn. rewrite Z.eqb_refl. unfold of_life, of_ev in Hl. injection Hl as Hl1 Hl2 Hl3 Hl4 Hl5.
      rewrite Hl5, <- Hrun. unfold of_life, of_ev. cbn. rewrite <- Hrun. repeat f_equal; auto.
    + assert (Hnone : forall l, life_of id (tr m) = Some l -> of_life l = of_ev (rn (ctl m) (zc m)) id e ->
        option_map of_life (life_step id (TRemove id) (Some l)) = option_map (of_ev (rn (ctl m) (zc m)) id) None).
      { intros l _ Hl. cbn. rewrite Z.eqb_refl. unfold of_life, of_ev in Hl. injection Hl as Hl1 Hl2 Hl3 Hl4 Hl5.
        rewrite Hl5, <- Hrun. reflexivity. }
      destruct (tkind_eqb (ev_kind e) KZulu).
      * destruct (sdel id (tget (ev_next e) (ztbl (sc m)))); injection Ha as <-;
          (eapply Link_upd with (o := None) (id0 := id); eauto; try reflexivity; other).
      * injection Ha as <-. eapply Link_upd with (o := None) (id0 := id); eauto; try reflexivity; other.
  - destruct (in_i64 _); [|discriminate]. injection Ha as <-. eapply Link_same; eauto; reflexivity.
  - destruct (_ && _); [|discriminate]. injection Ha as <-. eapply Link_same; eauto; reflexivity.
  - injection Ha as <-. eapply Link_same; eauto; reflexivity.
  - destruct (set_sim_time (sc m) t) as [s'| |] eqn:Es; try discriminate. cbn in Ha. injection Ha as <-.
    apply set_sim_time_ok in Es as [[-> _]|(->&_)]; eapply Link_same; eauto; reflexivity.
Qed.

(** ** What holds in every history *)
Definition none_running (past : list tev) : Prop :=
  forall j l, life_of j past = Some l -> live_run l = false.

Definition fact (x : tev) (past : list tev) : Prop :=
  match x with
  | TStart id _ _ => exists l, life_of id past = Some l /\ none_running past
  | TZulu id t _ => exists l, life_of id past = Some l /\ due l = t /\ none_running past
  | TAdd id _ _ _ _ _ => life_of id past = None
  | TEnd id => exists l, life_of id past = Some l /\ live_run l = true
  | _ => True
  end.

Definition alive (m : mach) : Prop := forall d, ctl m <> Dead d.

Record TInv (m : mach) : Prop := {
  t_fact : always fact (tr m);
  t_back : never_backwards (times (tr m));
  t_nodup : NoDup (added (tr m));
  t_link : alive m -> Link m;
  t_now : alive m -> forall t, In t (times (tr m)) -> t <= now (sc m);
  t_last : alive m -> forall i, In i (added (tr m)) -> 0 <= i <= last (sc m);
  t_excl : excl m
}.

Lemma TInv_init : TInv mach_init.
Proof. constructor; cbn; auto; try (now constructor); try reflexivity; try now intros _ ? []. intros _. apply Link_init. Qed.

Lemma alive_dec m : alive m \/ exists d, ctl m = Dead d.
Proof. unfold alive. destruct (ctl m); try (left; discriminate). right; eauto. Qed.

Lemma step_dead m l d : ctl m = Dead d -> mstep m l = m.
Proof. unfold mstep. now intros ->. Qed.

Lemma none_running_rn m : Link m -> rn (ctl m) (zc m) = None -> none_running (tr m).
Proof.
  intros H Hr j l Hl. destruct (ev_of_life _ _ _ H Hl) as (e&_&_&_&_&_&->). now rewrite Hr.
Qed.

Lemma Link_silent m m' : Link m -> excl m' -> evs (sc m') = evs (sc m) -> last (sc m') = last (sc m) ->
  cur (sc m') = cur (sc m) -> rn (ctl m') (zc m') = rn (ctl m) (zc m) ->
  (forall id, life_of id (tr m') = life_of id (tr m)) -> Link m'.
Proof.
  intros H Hx E1 E2 E3 E4 E5. constructor; auto; rewrite ?E1, ?E2, ?E3, ?E4; try apply H.
  intros. rewrite E5. apply H.
Qed.

Lemma Link_start m m' id e x : Link m -> excl m' -> rn (ctl m) (zc m) = None ->
  rn (ctl m') (zc m') = Some id -> mget id (evs (sc m)) = Some e -> sc m' = set_cur id (sc m) ->
  tr m' = x :: tr m -> (x = TStart id (now (sc m)) true \/ x = TStart id (now (sc m)) false \/ exists t z, x = TZulu id t z) ->
  Link m'.
Proof.
  intros H Hx E1 E2 He E3 E4 E5. constructor; rewrite ?E2, ?E3; auto; try apply H.
  - intros i [= <-]. cbn. eapply (k_ids _ H); eauto.
  - intros j. rewrite E4. cbn [life_of].
    assert (Hs : (forall o, life_step id x o = life_step id (TStart id 0 true) o) /\ forall j o, j <> id -> life_step j x o = o).
    { split.
      - destruct E5 as [->|[->|(t&z&->)]]; reflexivity.
      - intros j' o Hj. destruct E5 as [->|[->|(t&z&->)]]; cbn; (destruct (Z.eqb_spec id j'); [congruence|reflexivity]). }
    destruct Hs as [Hs1 Hs2]. pose proof (k_life _ H j) as Hl. cbn [sc set_cur evs]. rewrite E1 in Hl.
    destruct (Z.eq_dec j id) as [->|Hn].
    + rewrite Hs1. cbn. rewrite Z.eqb_refl. rewrite He in *. cbn in *.
      destruct (life_of id (tr m)) as [l|]; [|discriminate]. cbn. unfold of_life, of_ev in *. cbn in *.
      injection Hl as ?????. rewrite Z.eqb_refl. congruence.
    + rewrite Hs2 by auto. rewrite Hl. destruct (mget j (evs (sc m))); auto. cbn. unfold of_ev.
      destruct (Z.eqb_spec id j); congruence.
Qed.

Lemma Link_ended m m' id c0 x : Link m -> excl m' -> ended (set_cur c0 (sc m)) id (sc m') ->
  cur (sc m') = match rn (ctl m') (zc m') with Some i => i | None => -1 end ->
  (forall i, rn (ctl m') (zc m') = Some i -> rn (ctl m) (zc m) = Some i) ->
  (forall j, j <> id -> match rn (ctl m') (zc m') with Some i => i =? j | None => false end =
                        match rn (ctl m) (zc m) with Some i => i =? j | None => false end) ->
  tr m' = x :: tr m ->
  (x = TEnd id /\ rn (ctl m') (zc m') = None) \/
  (x = TSkip id /\ rn (ctl m') (zc m') = rn (ctl m) (zc m)) -> Link m'.
Proof.
  intros H Hx He' Hcur Hsub Hr2 E4 E5.
  destruct He' as (e&He&F1&F2&F3&F4). cbn in *.
  assert (Hother : forall j o, j <> id -> life_step j x o = o).
  { intros j o Hj. destruct E5 as [[-> _]|[-> _]]; cbn; (destruct (Z.eqb_spec id j); [congruence|reflexivity]). }
  constructor; auto.
  - rewrite F2. apply H.
  - intros j e'. rewrite F2. destruct F4 as [[_ ->]|(_&t&->)].
    + rewrite mget_mdel by apply H. destruct (Z.eqb_spec j id); [discriminate|]. apply H.
    + rewrite mget_mset. destruct (Z.eqb_spec j id) as [->|]; [|apply H]. intros _. eapply (k_ids _ H); eauto.
  - intros i Hi. rewrite F2. apply (k_run _ H). auto.
  - destruct F4 as [[_ ->]|(_&t&->)]; [apply mdel_sorted|apply mset_sorted]; apply H.
  - intros j. rewrite E4. cbn [life_of]. pose proof (k_life _ H j) as Hl.
    destruct (Z.eq_dec j id) as [->|Hn].
    + rewrite He in Hl. cbn in Hl. destruct (life_of id (tr m)) as [l|]; [|discriminate].
      injection Hl as L1 L2 L3 L4 L5.
      assert (Hs : life_step id x (Some l) = next_life l (match rn (ctl m') (zc m') with Some i => i =? id | None => false end)).
      { destruct E5 as [[-> Hr]|[-> Hr]]; cbn; rewrite Z.eqb_refl, Hr; [reflexivity|congruence]. }
      rewrite Hs. unfold next_life. rewrite L3.
      destruct F4 as [[Hz ->]|(Hz&t&->)].
      * rewrite mget_mdel by apply H. rewrite Z.eqb_refl. rewrite Hz. reflexivity.
      * rewrite mget_mset, Z.eqb_refl. destruct (Z.eqb_spec (ev_repeat e) 0); [congruence|].
        cbn. unfold of_life, of_ev. cbn. now rewrite L1, L2, L4.
    + rewrite Hother by auto. rewrite Hl.
      assert (Hg : mget j (evs (sc m')) = mget j (evs (sc m))).
      { destruct F4 as [[_ ->]|(_&t&->)]; [rewrite mget_mdel by apply H|rewrite mget_mset];
          destruct (Z.eqb_spec j id); congruence. }
      rewrite Hg. destruct (mget j (evs (sc m))); auto. cbn. unfold of_ev. now rewrite Hr2.
Qed.

Lemma api_add_id s c r : api s c = Ok r ->
  (last (r_st r) = last s \/ (last s < i64_max /\ last (r_st r) = last s + 1 /\ r_id r = last s + 1)) /\
  now s <= now (r_st r) /\ ((forall t, c <> TKSetSim t) -> now (r_st r) = now s).
Proof.
  assert (Hc : forall q, commit_add s q = Ok r ->
     (last (r_st r) = last s \/ (last s < i64_max /\ last (r_st r) = last s + 1 /\ r_id r = last s + 1)) /\
     now s <= now (r_st r) /\ ((forall t, c <> TKSetSim t) -> now (r_st r) = now s)).
  { intros q. unfold commit_add. destruct (Z.ltb_spec (last s) i64_max); [|discriminate].
    intros [= <-]. cbn. repeat split; auto. lia. }
  assert (Hs : forall id sim t k, set_event_time s id sim t k = Ok r ->
     (last (r_st r) = last s \/ (last s < i64_max /\ last (r_st r) = last s + 1 /\ r_id r = last s + 1)) /\
     now s <= now (r_st r) /\ ((forall t, c <> TKSetSim t) -> now (r_st r) = now s)).
  { intros id sim t k. unfold set_event_time. destruct (mget id (evs s)) as [e|]; [|discriminate].
    destruct (negb _); [discriminate|]. destruct (sim <? now s); intros [= <-]; cbn; repeat split; auto; lia. }
  destruct c; cbn [api]; cbn [build_add];
  try (destruct (_ && _); [|discriminate]);
  try (destruct (in_i64 _); [|discriminate]); eauto.
  - destruct (Z.ltb_spec (last s) i64_max); [|discriminate]. intros [= <-]. cbn. repeat split; auto; lia.
  - cbn. unfold check_add. destruct (_ <? _); [discriminate|]. destruct (negb _ && _); [discriminate|]. cbn. eauto.
  - cbn. unfold check_add. destruct (_ <? _); [discriminate|]. destruct (negb _ && _); [discriminate|]. cbn. eauto.
  - cbn. unfold check_add. destruct (_ <? _); [discriminate|]. destruct (negb _ && _); [discriminate|]. cbn. eauto.
  - destruct (t <? z); [discriminate|]. destruct (negb _ && _); [discriminate|].
    destruct (Z.ltb_spec (last s) i64_max); [|discriminate]. intros [= <-]. cbn. repeat split; auto; lia.
  - unfold set_event_zulu. destruct (mget id (evs s)) as [e|]; [|discriminate].
    destruct (negb _); [discriminate|]. destruct (t <? z); intros [= <-]; cbn; repeat split; auto; lia.
  - destruct (mget id (evs s)) as [e|]; [|discriminate]. destruct (_ && _); [discriminate|].
    intros [= <-]; cbn; repeat split; auto; lia.
  - destruct (mget id (evs s)) as [e|]; [|discriminate]. destruct (_ && _); [discriminate|].
    intros [= <-]; cbn; repeat split; auto; lia.
  - unfold remove_event. destruct (mget id (evs s)) as [e|]; [|discriminate]. destruct (cur s =? id).
    + intros [= <-]; cbn; repeat split; auto; lia.
    + destruct (tkind_eqb (ev_kind e) KZulu).
      * destruct (sdel _ _); intros [= <-]; cbn; repeat split; auto; lia.
      * intros [= <-]; cbn; repeat split; auto; lia.
  - intros [= <-]; cbn; repeat split; auto; lia.
  - intros [= <-]; cbn; repeat split; auto; lia.
  - intros [= <-]; cbn; repeat split; auto; lia.
  - destruct (set_sim_time s t) as [s'| |] eqn:E; try discriminate. cbn. intros [= <-]. cbn.
    apply set_sim_time_ok in E as [[-> _]|(->&_&?&?)]; cbn; repeat split; auto; try lia; intros Ht'; exfalso; eapply Ht'; reflexivity.
Qed.

Lemma nb_cons t l : (forall x, In x l -> x <= t) -> never_backwards l -> never_backwards (t :: l).
Proof. intros H1 H2. constructor; auto. apply Forall_forall. auto. Qed.

Lemma ret_log_added m c r : added (ret_log m c r ++ tr m) =
  match c with
  | AddImm _ | AddSim _ _ _ _ | AddMission _ _ _ _ | AddEpoch _ _ _ _ | AddZulu _ _ _ _ _ => [r_id r]
  | _ => [] end ++ added (tr m).
Proof. destruct c; try reflexivity. unfold ret_log. destruct (sim_ep_running _); reflexivity. Qed.

Lemma ret_log_times m c r : times (ret_log m c r ++ tr m) =
  match c with TKSetSim _ => [now (r_st r)] | _ => [] end ++ times (tr m).
Proof. destruct c; try reflexivity. unfold ret_log. destruct (sim_ep_running _); reflexivity. Qed.

Definition is_add (c : cmd) : bool :=
  match c with
  | AddImm _ | AddSim _ _ _ _ | AddMission _ _ _ _ | AddEpoch _ _ _ _ | AddZulu _ _ _ _ _ => true
  | _ => false end.

Lemma api_is_add s c r : api s c = Ok r -> is_add c = true ->
  last s < i64_max /\ last (r_st r) = last s + 1 /\ r_id r = last s + 1.
Proof.
  intros Ha Hi. destruct c; try discriminate; cbn [api build_add] in Ha.
  - destruct (Z.ltb_spec (last s) i64_max); [|discriminate]. injection Ha as <-. auto.
  - destruct (in_i64 _); [|discriminate]. cbn in Ha. unfold check_add in Ha.
    destruct (_ <? _); [discriminate|]. destruct (negb _ && _); [discriminate|]. cbn in Ha. unfold commit_add in Ha.
    destruct (Z.ltb_spec (last s) i64_max); [|discriminate]. injection Ha as <-. auto.
  - destruct (_ && _); [|discriminate]. cbn in Ha. unfold check_add in Ha.
    destruct (_ <? _); [discriminate|]. destruct (negb _ && _); [discriminate|]. cbn in Ha. unfold commit_add in Ha.
    destruct (Z.ltb_spec (last s) i64_max); [|discriminate]. injection Ha as <-. auto.
  - destruct (_ && _); [|discriminate]. cbn in Ha. unfold check_add in Ha.
    destruct (_ <? _); [discriminate|]. destruct (negb _ && _); [discriminate|]. cbn in Ha. unfold commit_add in Ha.
    destruct (Z.ltb_spec (last s) i64_max); [|discriminate]. injection Ha as <-. auto.
  - destruct (t <? z); [discriminate|]. destruct (negb _ && _); [discriminate|].
    destruct (Z.ltb_spec (last s) i64_max); [|discriminate]. injection Ha as <-. auto.
Qed.

Lemma ret_log_fact m c r : (is_add c = true -> life_of (r_id r) (tr m) = None) ->
  always fact (tr m) -> always fact (ret_log m c r ++ tr m).
Proof.
  intros H Hf. destruct c; cbn in *; auto. destruct (sim_ep_running (ctl m)); cbn; auto.
Qed.

Theorem mstep_TInv m l : TInv m -> TInv (mstep m l).
Proof.
  intros H. destruct (alive_dec m) as [Hal|(d&Hd)]; [|now rewrite (step_dead _ _ _ Hd)].
  pose proof (t_link _ H Hal) as HL. pose proof (mstep_excl m l (t_excl _ H)) as Hx.
  pose proof (mstep_vis m l (t_excl _ H)) as Hv. set (m' := mstep m l) in *. clearbody m'.
  destruct Hv as [E1 E2 E3 E4 E5 E6|d o E1 E2 E3 E4|id im e E1 E2 He E3 E4 E5 E6|id e K rest E1 E2 He E3 E4 E5
                 |id E1 E2 E3 E4|id e E1 He E2 E3 E4|c r E1 E2|q r n E1 E2 E3|K E1 E2 E3 E4 E5 E6 E7 E8].
  - (* silent *)
    constructor; rewrite ?E6; try apply H; auto.
    + intros _. eapply Link_silent; eauto. now rewrite E6.
    + intros _. rewrite E3. apply H; auto.
    + intros _. rewrite E2. apply H; auto.
  - (* dead *)
    assert (Hna : alive m' -> False) by (intros Ha; eapply Ha; eauto).
    constructor; rewrite ?E2; auto; try (intros Ha; destruct (Hna Ha)).
    + destruct E3 as [->|(_&i&[(->&Hr&He)| ->])]; cbn; try (repeat split; apply H). split; [|apply H].
      destruct (mget i (evs (sc m))) as [e|] eqn:Ee; [|congruence].
      destruct (life_of_ev _ _ _ HL Ee) as (lf&Hlf&_&_&_&_&Hrun). exists lf. split; auto.
      rewrite Hrun, Hr. apply Z.eqb_refl.
    + destruct E3 as [->|(_&i&[(->&_)| ->])]; apply H.
    + destruct E3 as [->|(_&i&[(->&_)| ->])]; apply H.
  - (* start *)
    destruct (life_of_ev _ _ _ HL He) as (lf&Hlf&_).
    constructor; rewrite ?E6; auto.
    + cbn. split; [|apply H]. exists lf. split; auto. now apply none_running_rn.
    + cbn. apply nb_cons; [|apply H]. apply H; auto.
    + apply H.
    + intros _. eapply Link_start; eauto. destruct im; auto.
    + intros _ t. rewrite E5. cbn. intros [<-|]; [lia|]. apply H; auto.
    + intros _. rewrite E5. apply H; auto.
  - (* zulu start *)
    destruct (life_of_ev _ _ _ HL He) as (lf&Hlf&Hd&_).
    constructor; rewrite ?E5; auto; try apply H.
    + cbn. split; [|apply H]. exists lf. repeat split; auto. now apply none_running_rn.
    + intros _. eapply Link_start; eauto 6.
    + intros _ t. rewrite E4. apply H; auto.
    + intros _. rewrite E4. apply H; auto.
  - (* end *)
    destruct E3 as (e&F1&F2&F3&F4&F5).
    constructor; rewrite ?E4; auto; try apply H.
    + cbn. split; [|apply H]. destruct (life_of_ev _ _ _ HL F1) as (lf&Hlf&_&_&_&_&Hrun). exists lf.
      split; auto. rewrite Hrun, E1. apply Z.eqb_refl.
    + intros _. eapply Link_ended with (c0 := -1) (id := id); eauto.
      * exists e; repeat split; auto.
      * now rewrite F4, E2.
      * rewrite E2. discriminate.
      * intros j Hj. rewrite E2, E1. symmetry. apply Z.eqb_neq. auto.
    + intros _ t. rewrite F2. apply H; auto.
    + intros _. rewrite F3. apply H; auto.
  - (* skip *)
    destruct E3 as (e'&F1&F2&F3&F4&F5).
    constructor; rewrite ?E4; auto; try apply H.
    + cbn. split; auto. apply H.
    + intros _. eapply Link_ended with (c0 := cur (sc m)) (id := id); eauto.
      * exists e'; repeat split; auto.
      * rewrite F4, E1. apply HL.
      * now rewrite E1.
      * now rewrite E1.
    + intros _ t. rewrite F2. apply H; auto.
    + intros _. rewrite F3. apply H; auto.
  - (* call *)
    subst m'. pose proof (api_add_id _ _ _ E1) as (Hl&Hn&Hn'). pose proof (api_is_add _ _ _ E1) as Hadd.
    constructor; auto; cbn [tr after_call sc ctl].
    + apply ret_log_fact; [|apply H]. intros Hi. destruct (Hadd Hi) as (?&_&->).
      apply no_life; auto. apply fresh_id; auto.
    + rewrite ret_log_times. destruct c; try apply H. cbn. apply nb_cons; [|apply H].
      intros x Hin. apply (t_now _ H Hal) in Hin. lia.
    + rewrite ret_log_added. assert (Hd : is_add c = true -> NoDup (r_id r :: added (tr m))).
      { intros Hi. destruct (Hadd Hi) as (?&_&->). constructor; [|apply H].
        intros Hin. apply (t_last _ H Hal) in Hin. lia. }
      destruct c; try apply H; apply Hd; reflexivity.
    + intros _. now apply Link_call.
    + intros _ t. rewrite ret_log_times. intros Hin. apply in_app_iff in Hin as [Hin|Hin].
      * destruct c; cbn in Hin; try tauto. destruct Hin as [<-|[]]. lia.
      * apply (t_now _ H Hal) in Hin. lia.
    + intros _ i. rewrite ret_log_added. intros Hin. apply in_app_iff in Hin as [Hin|Hin].
      * pose proof (k_last _ HL).
        destruct c; cbn in Hin; try tauto; destruct Hin as [<-|[]]; destruct (Hadd eq_refl) as (?&->&->); lia.
      * apply (t_last _ H Hal) in Hin. lia.
  - (* commit *)
    subst m'. pose proof E2 as E2'. unfold commit_add in E2'.
    destruct (Z.ltb_spec (last (sc m)) i64_max) as [Hlt|]; [|discriminate]. injection E2' as <-. cbn in *.
    constructor; cbn; auto; try apply H.
    + split; [|apply H]. apply no_life; auto. now apply fresh_id.
    + constructor; [|apply H]. intros Hin. apply (t_last _ H Hal) in Hin. lia.
    + intros _. eapply Link_commit; eauto; reflexivity.
    + intros _ i [<-|Hin]; [pose proof (k_last _ HL); lia|]. apply (t_last _ H Hal) in Hin. lia.
  - (* time *)
    constructor; rewrite ?E8; auto; try apply H.
    + cbn. split; auto. apply H.
    + cbn. apply nb_cons; [|apply H]. intros x Hin. apply (t_now _ H Hal) in Hin. lia.
    + intros _. eapply Link_silent; eauto. now rewrite E8.
    + intros _ t. cbn. intros [<-|Hin]; [lia|]. apply (t_now _ H Hal) in Hin. lia.
    + intros _ i Hin. rewrite E5. apply H; auto.
Qed.

Theorem run_TInv ls : TInv (run ls).
Proof.
  unfold run. assert (forall m, TInv m -> TInv (fold_left mstep ls m)) as Hf.
  { induction ls as [|l ls IH]; cbn; auto. intros m Hm. apply IH, mstep_TInv, Hm. }
  apply Hf, TInv_init.
Qed.
