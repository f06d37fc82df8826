(** The moves of a disciplined history, listed one by one, and the invariants about
    order that follow from them. *)
From Verif Require Import Base SchedModel SchedSpec SchedInv SchedProofs SchedTrace.
From Coq Require Import Permutation.

#[local] Opaque hold_id i64_max i64_min.
#[local] Arguments next_key K t : simpl never.

Inductive move (m : mach) (l : label) (m' : mach) : Prop :=
| MNop : sc m' = sc m -> ctl m' = ctl m -> zc m' = zc m -> tr m' = tr m -> zclock m' = zclock m -> move m l m'
| MRun : ctl m = Idle -> m' = goto m (set_hold false (sc m)) (ImmGo [] BStart) -> move m l m'
| MHold : m' = goto m (set_hold true (sc m)) (ctl m) -> move m l m'
| MSwapI (b : back) : ctl m = ImmGo [] b -> imm (sc m) <> [] ->
    m' = goto m (set_imm [] (sc m)) (ImmGo (imm (sc m)) b) -> move m l m'
| MHead (K : Z) (o : option Z) (s' : sched) :
    (ctl m = ImmGo [] BStart /\ imm (sc m) = [] /\ s' = sc m \/
     ctl m = EvtGo K [] /\ tget K (tbl (sc m)) = [] /\ s' = set_tbl (mdel K (tbl (sc m))) (sc m)) ->
    m' = loop_head m s' o -> move m l m'
| MRet (K : Z) (b : back) (rest : list Z) :
    ctl m = ImmGo [] b -> (b = BPost K /\ rest = [] \/ b = BEvt K rest) -> imm (sc m) = [] ->
    m' = goto m (sc m) (EvtGo K rest) -> move m l m'
| MStartI (id : Z) (rest : list Z) (b : back) (e : event) :
    ctl m = ImmGo (id :: rest) b -> mget id (evs (sc m)) = Some e ->
    m' = log (goto m (set_cur id (sc m)) (ImmRun id rest b)) (TStart id (now (sc m)) true) -> move m l m'
| MStartE (id K : Z) (rest : list Z) (e : event) :
    ctl m = EvtGo K (id :: rest) -> mget id (evs (sc m)) = Some e ->
    m' = log (goto m (set_cur id (sc m)) (EvtRun id K rest)) (TStart id (now (sc m)) false) -> move m l m'
| MStop (K : Z) : (ctl m = Pre K \/ ctl m = Wait K) -> m' = goto m (sc m) Idle -> move m l m'
| MWait (K : Z) : ctl m = Pre K -> m' = goto m (sc m) (Wait K) -> move m l m'
| MPost (K : Z) : ctl m = Post K -> m' = goto m (sc m) (ImmGo [] (BPost K)) -> move m l m'
| MSwapE (K : Z) : ctl m = EvtGo K [] -> tget K (tbl (sc m)) <> [] ->
    m' = goto m (set_tbl (mset K [] (tbl (sc m))) (sc m)) (EvtGo K (tget K (tbl (sc m)))) -> move m l m'
| MFinI (id : Z) (rest : list Z) (b : back) (s' : sched) :
    ctl m = ImmRun id rest b -> finish (set_cur (-1) (sc m)) id = inr s' ->
    m' = after_imm (log m (TEnd id)) s' rest b -> move m l m'
| MFinE (id K : Z) (rest : list Z) (s' : sched) :
    ctl m = EvtRun id K rest -> finish (set_cur (-1) (sc m)) id = inr s' ->
    m' = after_evt (log m (TEnd id)) s' K rest -> move m l m'
| MSkipE (id K : Z) (rest : list Z) (e : event) (s' : sched) :
    ctl m = EvtGo K (id :: rest) -> mget id (evs (sc m)) = Some e -> skips (sc m) e = true ->
    finish (sc m) id = inr s' ->
    m' = after_evt (log m (TSkip id)) s' K rest -> move m l m'
| MTime (K : Z) : ctl m = Wait K ->
    now (sc m) <= K -> (forall k, In k (keys (tbl (sc m))) -> K <= k) ->
    m' = log (goto m (set_window false (set_now K (sc m))) (Post K)) (TTime K) -> move m l m'
| MCall (c : cmd) (r : ret) : api (sc m) c = Ok r -> good_call m c -> m' = after_call m c r ->
    l = LCall c -> move m l m'
| MCommit (q : addreq) (r : ret) (n : nat) :
    commit_add (sc m) q = Ok r -> now (sc m) <= r_sim q -> r_kind q <> KZulu ->
    m' = log (set_pend (goto m (r_st r) (ctl m)) (remove_nth n (pend m)))
             (TAdd (r_id r) (r_kind q) false (r_sim q) (r_cycle q) (r_repeat q)) -> move m l m'
| MZTick (K z : Z) : zc m = ZWait -> K <= z -> l = LZTick z ->
    (forall k, In k (keys (ztbl (sc m))) -> K <= k) ->
    sc m' = sc m -> ctl m' = ctl m -> zc m' = ZGo K [] -> zclock m' = z -> tr m' = tr m -> move m l m'
| MZErase (K : Z) : zc m = ZGo K [] -> tget K (ztbl (sc m)) = [] ->
    m' = zgoto m (set_ztbl (mdel K (ztbl (sc m))) (sc m)) ZWait -> move m l m'
| MZSwap (K : Z) : zc m = ZGo K [] -> tget K (ztbl (sc m)) <> [] ->
    m' = zgoto m (set_ztbl (mset K [] (ztbl (sc m))) (sc m)) (ZGo K (tget K (ztbl (sc m)))) -> move m l m'
| MZSkip (id K : Z) (rest : list Z) (s' : sched) : zc m = ZGo K (id :: rest) -> zfinish (sc m) id = inr s' ->
    m' = zgoto (log m (TSkip id)) s' (ZGo K rest) -> move m l m'
| MZStart (id K : Z) (rest : list Z) (e : event) : zc m = ZGo K (id :: rest) ->
    mget id (evs (sc m)) = Some e ->
    m' = log (zgoto m (set_cur id (sc m)) (ZRun id K rest)) (TZulu id (ev_next e) (zclock m)) -> move m l m'
| MZFin (id K : Z) (rest : list Z) (s' : sched) : zc m = ZRun id K rest ->
    zfinish (set_cur (-1) (sc m)) id = inr s' ->
    m' = zgoto (log m (TEnd id)) s' (ZGo K rest) -> move m l m'.

Lemma mnop m l : move m l m.
Proof. now apply MNop. Qed.

Lemma dead_false m d (P : Prop) : alive (die m d) -> P.
Proof. intros H. exfalso. eapply H; reflexivity. Qed.

Lemma tau_move m : MLive m -> alive m -> alive (tau m) -> move m LTau (tau m).
Proof.
  intros HL Ha. pose proof (m_s _ HL) as HS. unfold tau. destruct (ctl m) eqn:E; intros Ha'; try apply mnop.
  - destruct rest as [|id rest].
    + destruct (imm (sc m)) eqn:Ei.
      * unfold imm_return. destruct b.
        -- eapply (MHead _ _ _ 0); [left; auto|reflexivity].
        -- eapply (MRet _ _ _ K _ []); [exact E|left; auto|assumption|reflexivity].
        -- eapply (MRet _ _ _ K _ rest); [exact E|right; auto|assumption|reflexivity].
      * rewrite <- Ei. eapply MSwapI; eauto. congruence.
    + unfold FIc in HS. cbn in HS.
      destruct (i_fi _ _ _ _ HS id) as (e&He&Hk&Hr&Hn); [apply in_app_iff; cbn; auto|].
      rewrite He, skips_sim in * by auto.
      destruct (zulu_running m) eqn:Ez; [apply mnop|]. eapply MStartI; eauto.
  - rewrite (m_dang _ HL) in *. destruct (hold (sc m)); [eapply MStop; eauto|eapply MWait; eauto].
  - destruct (hold (sc m)); [eapply MStop; eauto|apply mnop].
  - eapply MPost; eauto.
  - rewrite (m_dang _ HL) in *. destruct rest as [|id rest].
    + destruct (tget K (tbl (sc m))) eqn:Et.
      * eapply (MHead _ _ _ K); [right; auto|reflexivity].
      * rewrite <- Et. eapply MSwapE; eauto. congruence.
    + destruct (mget id (evs (sc m))) as [e|] eqn:He; [|exact (dead_false _ _ _ Ha')].
      destruct (skips (sc m) e) eqn:Es.
      * destruct (finish (sc m) id) eqn:Ef; [exact (dead_false _ _ _ Ha')|]. eapply MSkipE; eauto.
      * destruct (zulu_running m) eqn:Ez; [apply mnop|]. eapply MStartE; eauto.
Qed.

Lemma timeout_move m : MLive m -> move m LTimeout (timeout m).
Proof.
  intros HL. unfold timeout. destruct (ctl m) eqn:E; try apply mnop.
  pose proof (m_s _ HL) as HS. pose proof (m_ctl _ HL) as Hc. rewrite (m_dang _ HL). rewrite E in *. cbn in Hc.
  destruct Hc as (Hw&HK&Hmin).
  assert (Hnow : now (sc m) <= K) by (apply (i_keys _ _ _ _ HS); auto).
  assert (Hmax : K <= next_scheduled (sc m)).
  { apply Hmin. apply next_scheduled_in. intros Et. rewrite Et in HK. destruct HK. }
  unfold set_sim_time. rewrite Hw. cbn.
  destruct (Z.ltb_spec K (now (sc m))); [lia|]. destruct (Z.ltb_spec (next_scheduled (sc m)) K); [lia|]. cbn.
  eapply MTime; eauto.
Qed.

Lemma mstep_move m l : MLive m -> alive m -> admitted m l -> alive (mstep m l) -> move m l (mstep m l).
Proof.
  intros HL Ha Hl Ha'.
  assert (E0 : mstep m l = match l with
      | LRun => match ctl m with Idle => goto m (set_hold false (sc m)) (ImmGo [] BStart) | _ => m end
      | LTau => tau m | LTimeout => timeout m | LEnd => end_ep m
      | LHold => goto m (set_hold true (sc m)) (ctl m)
      | LCall c => call m c | LBegin c => begin_add m c | LCommit n => commit m n
      | LZTick z => ztick m z | LZTau ok => ztau m ok | LZEnd => zend m end).
  { unfold mstep. destruct (ctl m) eqn:E; auto. exfalso; eapply Ha; eauto. }
  rewrite E0 in *. clear E0. destruct l; cbn [admitted] in Hl.
  - destruct (ctl m) eqn:E; try apply mnop. now apply MRun.
  - now apply tau_move.
  - now apply timeout_move.
  - unfold end_ep in *. destruct (ctl m) eqn:E; try apply mnop.
    + destruct (finish _ id) eqn:Ef; [exact (dead_false _ _ _ Ha')|]. eapply MFinI; eauto.
    + destruct (finish _ id) eqn:Ef; [exact (dead_false _ _ _ Ha')|]. eapply MFinE; eauto.
  - now apply MHold.
  - unfold call in *. destruct (api (sc m) c) as [r| |] eqn:Er; [|apply mnop|exact (dead_false _ _ _ Ha')].
    destruct Hl as [(e&He)|Hg]; [congruence|]. eapply MCall; eauto.
  - unfold begin_add in *. destruct (build_add (sc m) c) as [[q| |]|]; try apply mnop; [|exact (dead_false _ _ _ Ha')].
    destruct (check_add (sc m) q); try apply mnop. now apply MNop.
  - unfold commit in *. destruct (nth_error (pend m) n) as [q|] eqn:En; [|apply mnop].
    destruct (commit_add (sc m) q) as [r| |] eqn:Ec; [|apply mnop|exact (dead_false _ _ _ Ha')].
    destruct (Hl q eq_refl). eapply MCommit; eauto. eapply (m_pend _ HL). eapply nth_error_In; eauto.
  - unfold ztick in *. destruct (zc m) eqn:E; try apply mnop. destruct (ztbl (sc m)) as [|[K l] t] eqn:Et; [apply mnop|].
    destruct (Z.leb_spec K z); [|apply mnop]. apply (MZTick _ _ _ K z); auto.
    pose proof (proj1 (i_ztbl _ _ _ _ (m_s _ HL))) as Hs. rewrite Et in *. apply msorted_cons in Hs as [_ Hlt].
    intros k [<-|Hk]; cbn; [lia|]. specialize (Hlt _ Hk). lia.
  - unfold ztau in *. destruct (zc m) eqn:E; try apply mnop. destruct rest as [|id rest].
    + destruct (tget K (ztbl (sc m))) eqn:Et; [eapply MZErase; eauto|].
      rewrite <- Et. eapply MZSwap; eauto. congruence.
    + destruct (mget id (evs (sc m))) as [e|] eqn:He; [|exact (dead_false _ _ _ Ha')].
      destruct ok; cbn [negb] in *.
      * destruct (sim_ep_running (ctl m)); [apply mnop|]. eapply MZStart; eauto.
      * destruct (zfinish (sc m) id) eqn:Ef; [exact (dead_false _ _ _ Ha')|]. eapply MZSkip; eauto.
  - unfold zend in *. destruct (zc m) eqn:E; try apply mnop.
    destruct (zfinish _ id) eqn:Ef; [exact (dead_false _ _ _ Ha')|]. eapply MZFin; eauto.
Qed.

(** ** Immediate events *)
Definition IM (m : mach) : list Z := imm (sc m) ++ FIc (ctl m).

Definition ImmLink (m : mach) : Prop :=
  forall id l, life_of id (tr m) = Some l -> (limm l = true <-> In id (IM m)).

Lemma step_keeps_imm id x o l' : (forall i k im t c r, x <> TAdd i k im t c r) ->
  life_step id x o = Some l' -> exists l, o = Some l /\ limm l = limm l' /\ lkind l = lkind l'.
Proof.
  intros Hx H. destruct x; cbn in H;
    try (destruct (id0 =? id); [|eauto]; destruct o as [l|]; [|discriminate]);
    try (eauto; fail).
  - exfalso. eapply Hx; reflexivity.
  - destruct (t <? n); [discriminate|]. injection H as <-. eauto.
  - injection H as <-. eauto.
  - injection H as <-. eauto.
  - destruct (live_run l); [|discriminate]. injection H as <-. eauto.
  - injection H as <-. eauto.
  - unfold next_life in H. destruct (rep l =? 0); [discriminate|]. injection H as <-. eauto.
  - unfold next_life in H. destruct (rep l =? 0); [discriminate|]. injection H as <-. eauto.
  - injection H as <-. eauto.
Qed.

Lemma ImmLink_same m m' : ImmLink m -> tr m' = tr m -> (forall id, In id (IM m') <-> In id (IM m)) -> ImmLink m'.
Proof. intros H E HI id l Hl. rewrite HI. rewrite E in Hl. now apply H. Qed.

Lemma ImmLink_step m m' x : ImmLink m -> tr m' = x :: tr m -> (forall i k im t c r, x <> TAdd i k im t c r) ->
  (forall id, In id (IM m') <-> In id (IM m)) -> ImmLink m'.
Proof.
  intros H E Hx HI id l Hl. rewrite HI. rewrite E in Hl. cbn [life_of] in Hl.
  apply step_keeps_imm in Hl as (l0&Hl&<-&_); auto.
Qed.

Lemma ImmLink_drop m m' x id0 : ImmLink m -> tr m' = x :: tr m -> (forall i k im t c r, x <> TAdd i k im t c r) ->
  life_of id0 (tr m') = None ->
  (forall id, id <> id0 -> In id (IM m') <-> In id (IM m)) -> ImmLink m'.
Proof.
  intros H E Hx Hn HI id l Hl. destruct (Z.eq_dec id id0) as [->|]; [congruence|].
  rewrite HI by auto. rewrite E in Hl. cbn [life_of] in Hl.
  apply step_keeps_imm in Hl as (l0&Hl&<-&_); auto.
Qed.

Lemma ImmLink_add m m' i k im t c r : ImmLink m ->
  (forall id, life_of id (tr m') = life_step id (TAdd i k im t c r) (life_of id (tr m))) ->
  (forall id, In id (IM m') <-> (id = i /\ im = true) \/ In id (IM m)) -> ~ In i (IM m) -> ImmLink m'.
Proof.
  intros H E HI Hn id l Hl. rewrite HI. rewrite E in Hl. cbn [life_step] in Hl.
  destruct (Z.eqb_spec i id) as [->|].
  - injection Hl as <-. cbn. intuition.
  - apply H in Hl. rewrite Hl. intuition congruence.
Qed.

Lemma IM_ids m id : MLive m -> In id (IM m) -> exists e, mget id (evs (sc m)) = Some e /\ ev_kind e = KSim /\ ev_repeat e = 0.
Proof.
  intros HL Hin. destruct (i_fi _ _ _ _ (m_s _ HL) id Hin) as (e&?&?&?&?). eauto.
Qed.

Lemma IM_after_evt m s K rest m' : alive (after_evt m s K rest) -> m' = after_evt m s K rest -> IM m' = imm s ++ [].
Proof.
  unfold after_evt, stop_events. intros Ha ->. destruct (hold s); [|reflexivity].
  destruct (dang m); [|reflexivity]. exact (dead_false _ _ _ Ha).
Qed.

Lemma IM_after_imm m s rest b id : alive (after_imm m s rest b) ->
  (In id (IM (after_imm m s rest b)) <-> In id (imm s ++ rest)).
Proof.
  unfold after_imm, stop_imm, stop_events. destruct (hold s).
  - destruct b.
    + intros _. cbn. rewrite app_nil_r, in_sins_all, in_app_iff. tauto.
    + intros _. cbn. rewrite app_nil_r, in_sins_all, in_app_iff. tauto.
    + destruct (dang m); [intros Ha; exact (dead_false _ _ _ Ha)|].
      intros _. cbn. rewrite app_nil_r, in_sins_all, in_app_iff. tauto.
  - intros _. reflexivity.
Qed.

Lemma tr_after_evt m s K rest : tr (after_evt m s K rest) = tr m.
Proof. apply after_evt_calm. Qed.
Lemma tr_after_imm m s rest b : tr (after_imm m s rest b) = tr m.
Proof. apply after_imm_calm. Qed.

Lemma finish_imm s id s' : finish s id = inr s' -> imm s' = imm s.
Proof.
  unfold finish. destruct (mget id (evs s)) as [e|]; [|discriminate].
  destruct (ev_repeat e =? 0); [intros [= <-]; auto|].
  destruct (_ && _); [intros [= <-]; auto|discriminate].
Qed.

Lemma zfinish_frame s id s' : zfinish s id = inr s' ->
  imm s' = imm s /\ tbl s' = tbl s /\ now s' = now s.
Proof.
  unfold zfinish. destruct (mget id (evs s)) as [e|]; [|discriminate].
  destruct (ev_repeat e =? 0); [intros [= <-]; auto|].
  destruct (in_i64 _); [intros [= <-]; auto|discriminate].
Qed.

(** Calls other than AddImmediateEvent leave the immediate events alone. *)
Lemma api_imm s c r : api s c = Ok r ->
  imm (r_st r) = match c with AddImm _ => sins (r_id r) (imm s) | _ => imm s end.
Proof.
  intros Ha. destruct c; cbn [api build_add] in Ha;
  try (destruct (_ && _); [|discriminate]);
  try (destruct (in_i64 _); [|discriminate]);
  try (cbn in Ha; unfold check_add in Ha;
       destruct (_ <? _); [discriminate|]; destruct (negb _ && _); [discriminate|]; cbn in Ha;
       unfold commit_add in Ha; destruct (_ <? _); [|discriminate]; injection Ha as <-; reflexivity);
  try (unfold set_event_time in Ha; destruct (mget id (evs s)) as [e|]; [|discriminate];
       destruct (negb _); [discriminate|]; destruct (_ <? now s); injection Ha as <-; reflexivity).
  - destruct (_ <? _); [|discriminate]. injection Ha as <-. reflexivity.
  - unfold set_event_zulu in Ha. destruct (mget id (evs s)) as [e|]; [|discriminate].
    destruct (negb _); [discriminate|]. destruct (t <? z); injection Ha as <-; reflexivity.
  - destruct (mget id (evs s)) as [e|]; [|discriminate]. destruct (_ && _); [discriminate|]. injection Ha as <-. reflexivity.
  - destruct (mget id (evs s)) as [e|]; [|discriminate]. destruct (_ && _); [discriminate|]. injection Ha as <-. reflexivity.
  - unfold remove_event in Ha. destruct (mget id (evs s)) as [e|]; [|discriminate]. destruct (cur s =? id).
    + injection Ha as <-. reflexivity.
    + destruct (tkind_eqb (ev_kind e) KZulu).
      * destruct (sdel _ _); injection Ha as <-; reflexivity.
      * injection Ha as <-. reflexivity.
  - injection Ha as <-. reflexivity.
  - injection Ha as <-. reflexivity.
  - injection Ha as <-. reflexivity.
  - destruct (set_sim_time s t) as [s'| |] eqn:E; try discriminate. injection Ha as <-.
    apply set_sim_time_ok in E as [[-> _]|(->&_)]; reflexivity.
Qed.

Lemma fresh_not_IM m : MLive m -> last (sc m) < i64_max -> ~ In (last (sc m) + 1) (IM m).
Proof.
  intros HL Hl Hin. apply IM_ids in Hin as (e&He&_); auto.
  apply (i_ids _ _ _ _ (m_s _ HL)) in He. pose proof i64_max_hold. lia.
Qed.

Lemma end_imm_dead m m' id : Link m -> MLive m -> In id (IM m) -> tr m' = TEnd id :: tr m -> life_of id (tr m') = None.
Proof.
  intros Hk HL Hin E. destruct (IM_ids _ _ HL Hin) as (e&He&_&Hr).
  destruct (life_of_ev _ _ _ Hk He) as (l&Hl&_&_&Hrep&_).
  rewrite E. cbn. rewrite Z.eqb_refl, Hl. unfold next_life. rewrite Hrep, Hr. reflexivity.
Qed.

Ltac noadd := intros ? ? ? ? ? ?; discriminate.

Lemma move_ImmLink m l m' : Link m -> MLive m -> alive m' -> move m l m' -> ImmLink m -> ImmLink m'.
Proof.
  intros Hk HL Ha Hm HI.
  destruct Hm as [E1 E2 E3 E4 E5|E1 E2|E1|b E1 E2 E3|K o s' E1 E2|K b rest E1 E2 E3 E4
    |id rest b e E1 He E2|id K rest e E1 He E2|K E1 E2|K E1 E2|K E1 E2|K E1 E2 E3
    |id rest b s' E1 E2 E3|id K rest s' E1 E2 E3|id K rest e s' E1 He Hs E2 E3|K E1 E2 E3 E4
    |c r E1 E2 E3 E0|q r n E1 E2 E2' E3|K z E1 E2 El Emin E3 E4 E5 E6 E7|K E1 E2 E3|K E1 E2 E3|id K rest s' E1 E2 E3
    |id K rest e E1 He E2|id K rest s' E1 E2 E3]; subst.
  - eapply ImmLink_same; eauto. intros. unfold IM. now rewrite E1, E2.
  - eapply ImmLink_same; eauto. intros. unfold IM. now rewrite E1.
  - eapply ImmLink_same; eauto. reflexivity.
  - eapply ImmLink_same; eauto. intros. unfold IM. rewrite E1. cbn. unfold FIc. cbn. now rewrite app_nil_r.
  - eapply ImmLink_same; eauto; [destruct o; reflexivity|]. intros.
    unfold IM. destruct E1 as [(E1&Ei&->)|(E1&Ei&->)]; rewrite E1; destruct o; cbn; tauto.
  - eapply ImmLink_same; eauto. intros. unfold IM. rewrite E1. reflexivity.
  - eapply ImmLink_step; eauto; [reflexivity|noadd|]. intros. unfold IM. rewrite E1. reflexivity.
  - eapply ImmLink_step; eauto; [reflexivity|noadd|]. intros. unfold IM. rewrite E1. reflexivity.
  - eapply ImmLink_same; eauto. intros. unfold IM. destruct E1 as [-> | ->]; reflexivity.
  - eapply ImmLink_same; eauto. intros. unfold IM. rewrite E1. reflexivity.
  - eapply ImmLink_same; eauto. intros. unfold IM. rewrite E1. reflexivity.
  - eapply ImmLink_same; eauto. intros. unfold IM. rewrite E1. reflexivity.
  - assert (Hin : In id (IM m)) by (unfold IM; rewrite E1; apply in_app_iff; right; left; auto).
    eapply ImmLink_drop with (id0 := id) (x := TEnd id); eauto; [apply tr_after_imm|noadd| |].
    + eapply end_imm_dead; eauto. apply tr_after_imm.
    + intros j Hj. rewrite IM_after_imm by auto. rewrite (finish_imm _ _ _ E2). unfold IM. rewrite E1.
      unfold FIc. cbn. rewrite !in_app_iff. cbn. intuition congruence.
  - eapply ImmLink_step with (x := TEnd id); eauto; [apply tr_after_evt|noadd|]. intros.
    erewrite IM_after_evt by eauto. rewrite (finish_imm _ _ _ E2). unfold IM. rewrite E1. reflexivity.
  - eapply ImmLink_step with (x := TSkip id); eauto; [apply tr_after_evt|noadd|]. intros.
    erewrite IM_after_evt by eauto. rewrite (finish_imm _ _ _ E2). unfold IM. rewrite E1. reflexivity.
  - eapply ImmLink_step; eauto; [reflexivity|noadd|]. intros. unfold IM. rewrite E1. reflexivity.
  - (* call *)
    pose proof (api_imm _ _ _ E1) as Hi. pose proof (api_is_add _ _ _ E1) as Hadd.
    assert (Hkeep : (forall ep, c <> AddImm ep) -> forall id, In id (IM (after_call m c r)) <-> In id (IM m)).
    { intros Hn id. unfold IM. cbn. rewrite Hi. destruct c; try reflexivity. exfalso. eapply Hn; reflexivity. }
    assert (Hna : forall k t cc rr, is_add c = true -> (forall ep, c <> AddImm ep) ->
       ret_log m c r = [TAdd (r_id r) k false t cc rr] -> ImmLink (after_call m c r)).
    { intros k t cc rr Hia Hn Hl. destruct (Hadd Hia) as (?&_&Hid).
      eapply ImmLink_add with (i := r_id r) (im := false); eauto.
      - intros id. cbn. rewrite Hl. reflexivity.
      - intros id. rewrite Hkeep by auto. intuition discriminate.
      - rewrite Hid. now apply fresh_not_IM. }
    destruct c; try (eapply Hna; [reflexivity|discriminate|reflexivity]);
      try (eapply ImmLink_step; [exact HI|reflexivity|noadd|apply Hkeep; discriminate]);
      try (eapply ImmLink_same; [exact HI|reflexivity|apply Hkeep; discriminate]).
    destruct (Hadd eq_refl) as (?&_&Hid). eapply ImmLink_add with (i := r_id r) (im := true) (t := now (sc m)); eauto.
    + intros id. cbn. destruct (sim_ep_running (ctl m)); reflexivity.
    + intros id. unfold IM. cbn. rewrite Hi. rewrite !in_app_iff, in_sins. tauto.
    + rewrite Hid. now apply fresh_not_IM.
  - (* commit *)
    unfold commit_add in E1. destruct (Z.ltb_spec (last (sc m)) i64_max); [|discriminate]. injection E1 as <-.
    eapply ImmLink_add with (im := false); eauto; [intros id; reflexivity| |now apply fresh_not_IM].
    intros id. unfold IM. cbn. intuition discriminate.
  - eapply ImmLink_same; eauto. intros. unfold IM. now rewrite E3, E4.
  - eapply ImmLink_same; eauto. reflexivity.
  - eapply ImmLink_same; eauto. reflexivity.
  - eapply ImmLink_step; eauto; [reflexivity|noadd|]. intros. unfold IM. cbn.
    destruct (zfinish_frame _ _ _ E2) as (->&_). reflexivity.
  - eapply ImmLink_step; eauto; [reflexivity|noadd|]. reflexivity.
  - eapply ImmLink_step; eauto; [reflexivity|noadd|]. intros. unfold IM. cbn.
    destruct (zfinish_frame _ _ _ E2) as (->&_). reflexivity.
Qed.
