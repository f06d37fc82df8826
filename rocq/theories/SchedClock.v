(** Mission and epoch events: the time of the event on its own clock stays tied to
    the instant of the occurrence, and decides whether the occurrence is skipped. *)
From Verif Require Import Base SchedModel SchedSpec SchedInv SchedProofs SchedTrace SchedMoves SchedOrder SchedHist SchedFacts.

#[local] Opaque hold_id i64_max i64_min.

Lemma tkind_eqb_spec a b : reflect (a = b) (tkind_eqb a b).
Proof. destruct a, b; constructor; congruence. Qed.

(** The event, if it still exists, is of kind [k] and [d] separates its two times. *)
Definition tied (k : tkind) (id d : Z) (s : sched) : Prop :=
  (id <= last s \/ id = hold_id) /\ forall e, mget id (evs s) = Some e -> ev_kind e = k /\ ev_time e = ev_next e + d.

Definition retimes (id : Z) (l : label) : Prop :=
  exists t, l = LCall (SetMission id t) \/ l = LCall (SetEpoch id t).

Lemma tied_same k id d s s' : tied k id d s -> evs s' = evs s -> last s' = last s -> tied k id d s'.
Proof. intros [H1 H2] E1 E2. split; [rewrite E2; auto|]. rewrite E1. auto. Qed.

Lemma not_fresh id s : id <= last s \/ id = hold_id -> last s < i64_max -> id <> last s + 1.
Proof. intros [H| ->] Hl; [lia|]. pose proof i64_max_hold. lia. Qed.

Lemma tied_finish k id d s j s' : msorted (evs s) -> tied k id d s -> finish s j = inr s' -> tied k id d s'.
Proof.
  intros Hs [H1 H2]. unfold finish. destruct (mget j (evs s)) as [e|] eqn:He; [|discriminate].
  destruct (ev_repeat e =? 0).
  - intros [= <-]. split; cbn; auto. intros e'. rewrite mget_mdel by auto. destruct (Z.eqb_spec id j); [discriminate|auto].
  - destruct (_ && _); [|discriminate]. intros [= <-]. split; cbn; auto. intros e'. rewrite mget_mset.
    destruct (Z.eqb_spec id j) as [->|]; [|auto]. intros [= <-]. cbn. destruct (H2 _ He). split; [auto|lia].
Qed.

Lemma tied_zfinish k id d s j s' e : msorted (evs s) -> mget j (evs s) = Some e -> ev_kind e = KZulu -> k <> KZulu ->
  tied k id d s -> zfinish s j = inr s' -> tied k id d s'.
Proof.
  intros Hs He Hz Hk [H1 H2]. unfold zfinish. rewrite He.
  destruct (ev_repeat e =? 0).
  - intros [= <-]. split; cbn; auto. intros e'. rewrite mget_mdel by auto. destruct (Z.eqb_spec id j); [discriminate|auto].
  - destruct (in_i64 _); [|discriminate]. intros [= <-]. split; cbn; auto. intros e'. rewrite mget_mset.
    destruct (Z.eqb_spec id j) as [->|]; [|auto]. destruct (H2 _ He). congruence.
Qed.

Lemma tied_commit k id d s q r : tied k id d s -> commit_add s q = Ok r -> tied k id d (r_st r).
Proof.
  intros [H1 H2]. unfold commit_add. destruct (Z.ltb_spec (last s) i64_max) as [Hl|]; [|discriminate]. intros [= <-].
  split; cbn; [intuition lia|]. intros e. rewrite mget_mset. destruct (Z.eqb_spec id (last s + 1)); [now apply not_fresh in H1|auto].
Qed.

Lemma tied_set k id d s j sim t k' r : msorted (evs s) -> tied k id d s -> set_event_time s j sim t k' = Ok r ->
  (j = id -> k' <> k) -> tied k id d (r_st r).
Proof.
  intros Hs [H1 H2]. unfold set_event_time. destruct (mget j (evs s)) as [e|] eqn:He; [|discriminate].
  destruct (tkind_eqb_spec (ev_kind e) k') as [E|E]; cbn; [|discriminate]. intros H Hj.
  assert (id <> j) as Hij. { intros <-. destruct (H2 _ He). specialize (Hj eq_refl). congruence. }
  destruct (sim <? now s); injection H as <-; (split; cbn; [intuition lia|]); intros e';
    [rewrite mget_mdel by auto|rewrite mget_mset]; destruct (Z.eqb_spec id j); try contradiction; auto.
Qed.

Lemma tied_api k id d s c r : k = KEpoch \/ k = KMission -> msorted (evs s) -> tied k id d s -> api s c = Ok r ->
  ~ retimes id (LCall c) -> tied k id d (r_st r).
Proof.
  intros Hk Hs HT H Hr. pose proof HT as [H1 H2]. destruct c; cbn in H.
  - destruct (Z.ltb_spec (last s) i64_max) as [Hl|]; [|discriminate]. injection H as <-. split; cbn; [intuition lia|]. intros e.
    rewrite mget_mset. destruct (Z.eqb_spec id (last s + 1)); [now apply not_fresh in H1|auto].
  - destruct (in_i64 _); [|discriminate]. cbn in H. unfold check_add in H. cbn in H.
    destruct (_ <? _); [discriminate|]. destruct (_ && _); [discriminate|]. cbn in H. eapply tied_commit; eauto.
  - destruct (_ && _); [|discriminate]. cbn in H. unfold check_add in H. cbn in H.
    destruct (_ <? _); [discriminate|]. destruct (_ && _); [discriminate|]. cbn in H. eapply tied_commit; eauto.
  - destruct (_ && _); [|discriminate]. cbn in H. unfold check_add in H. cbn in H.
    destruct (_ <? _); [discriminate|]. destruct (_ && _); [discriminate|]. cbn in H. eapply tied_commit; eauto.
  - destruct (_ <? _); [discriminate|]. destruct (_ && _); [discriminate|]. destruct (Z.ltb_spec (last s) i64_max) as [Hl|]; [|discriminate].
    injection H as <-. split; cbn; [intuition lia|]. intros e.
    rewrite mget_mset. destruct (Z.eqb_spec id (last s + 1)); [now apply not_fresh in H1|auto].
  - destruct (in_i64 _); [|discriminate]. eapply tied_set; eauto. intros _. destruct Hk; subst; discriminate.
  - destruct (_ && _); [|discriminate]. eapply tied_set; eauto. intros ->. exfalso. apply Hr. exists t; auto.
  - destruct (_ && _); [|discriminate]. eapply tied_set; eauto. intros ->. exfalso. apply Hr. exists t; auto.
  - unfold set_event_zulu in H. destruct (mget id0 (evs s)) as [e|] eqn:He; [|discriminate].
    destruct (tkind_eqb_spec (ev_kind e) KZulu) as [E|E]; cbn in H; [|discriminate].
    assert (id <> id0). { intros <-. destruct (H2 _ He). destruct Hk; congruence. }
    destruct (t <? z); injection H as <-; (split; cbn; [intuition lia|]); intros e';
    [rewrite mget_mdel by auto|rewrite mget_mset]; destruct (Z.eqb_spec id id0); try contradiction; auto.
  - destruct (mget id0 (evs s)) as [e|] eqn:He; [|discriminate]. destruct (_ && _); [discriminate|]. injection H as <-.
    split; cbn; [intuition lia|]. intros e'. rewrite mget_mset. destruct (Z.eqb_spec id id0) as [->|]; auto.
    intros [= <-]. cbn. auto.
  - destruct (mget id0 (evs s)) as [e|] eqn:He; [|discriminate]. destruct (_ && _); [discriminate|]. injection H as <-.
    split; cbn; [intuition lia|]. intros e'. rewrite mget_mset. destruct (Z.eqb_spec id id0) as [->|]; auto.
    intros [= <-]. cbn. auto.
  - unfold remove_event in H. destruct (mget id0 (evs s)) as [e|] eqn:He; [|discriminate].
    assert (forall e', mget id (mdel id0 (evs s)) = Some e' -> ev_kind e' = k /\ ev_time e' = ev_next e' + d) as Hd.
    { intros e'. rewrite mget_mdel by auto. destruct (Z.eqb_spec id id0); [discriminate|auto]. }
    destruct (cur s =? id0); [injection H as <-; split; cbn; [intuition lia|]; intros e'; rewrite mget_mset;
      destruct (Z.eqb_spec id id0) as [->|]; auto; intros [= <-]; cbn; auto|].
    destruct (tkind_eqb (ev_kind e) KZulu); [destruct (sdel _ _)|]; injection H as <-; split; cbn; auto; intuition lia.
  - destruct (in_i64 _); [|discriminate]. injection H as <-. now apply (tied_same k id d s).
  - destruct (_ && _); [|discriminate]. injection H as <-. now apply (tied_same k id d s).
  - injection H as <-. now apply (tied_same k id d s).
  - unfold set_sim_time in H. destruct (negb _); [injection H as <-; auto|]. destruct (_ || _); [discriminate|].
    injection H as <-. now apply (tied_same k id d s).
Qed.

Lemma tied_stop_events k id d m s K rest : tied k id d s -> tied k id d (sc m) -> tied k id d (sc (stop_events m s K rest)).
Proof. intros H H0. unfold stop_events. destruct (dang m); cbn; auto. Qed.

Lemma tied_after_imm k id d m s rest b : tied k id d s -> tied k id d (sc m) -> tied k id d (sc (after_imm m s rest b)).
Proof.
  intros H H0. unfold after_imm. destruct (hold s); cbn; auto. unfold stop_imm. destruct b; cbn; auto.
  apply tied_stop_events; auto.
Qed.

Lemma tied_after_evt k id d m s K rest : tied k id d s -> tied k id d (sc m) -> tied k id d (sc (after_evt m s K rest)).
Proof.
  intros H H0. unfold after_evt. destruct (hold s); cbn; auto. apply tied_stop_events; auto.
Qed.

Lemma tied_step k id d m l : k = KEpoch \/ k = KMission -> MLive m -> alive m -> admitted m l -> alive (mstep m l) ->
  ~ retimes id l -> tied k id d (sc m) -> tied k id d (sc (mstep m l)).
Proof.
  intros Hk HL Ha Had Ha' Hr HT. pose proof (i_evs _ _ _ _ (m_s _ HL)) as Hs.
  assert (tied k id d (set_cur (-1) (sc m))) as HT1 by exact HT.
  assert (k <> KZulu) as Hkz by (destruct Hk; subst; discriminate).
  destruct (mstep_move m l HL Ha Had Ha') as [E1 E2 E3 E4 E5|E1 E2|E1|b E1 E2 E3|K o s' E1 E2|K b rest E1 E2 E3 E4
    |i rest b e E1 He E2|i K rest e E1 He E2|K E1 E2|K E1 E2|K E1 E2|K E1 E2 E3
    |i rest b s' E1 E2 E3|i K rest s' E1 E2 E3|i K rest e s' E1 He Hsk E2 E3|K E1 E2 E3 E4
    |c r E1 E2 E3 E0|q r n E1 E2 E2' E3|K z E1 E2 El Emin E3 E4 E5 E6 E7|K E1 E2 E3|K E1 E2 E3|i K rest s' E1 E2 E3
    |i K rest e E1 He E2|i K rest s' E1 E2 E3].
  - now rewrite E1.
  - rewrite E2. exact HT.
  - rewrite E1. exact HT.
  - rewrite E3. exact HT.
  - rewrite E2. assert (tied k id d s') as H by (destruct E1 as [(_&_&->)|(_&_&->)]; exact HT).
    destruct o; exact H.
  - rewrite E4. exact HT.
  - rewrite E2. exact HT.
  - rewrite E2. exact HT.
  - rewrite E2. exact HT.
  - rewrite E2. exact HT.
  - rewrite E2. exact HT.
  - rewrite E3. exact HT.
  - rewrite E3. apply tied_after_imm; auto. apply (tied_finish k id d (set_cur (-1) (sc m)) i); auto.
  - rewrite E3. apply tied_after_evt; auto. apply (tied_finish k id d (set_cur (-1) (sc m)) i); auto.
  - rewrite E3. apply tied_after_evt; auto. apply (tied_finish k id d (sc m) i); auto.
  - rewrite E4. exact HT.
  - rewrite E3. cbn. subst l. exact (tied_api _ _ _ _ _ _ Hk Hs HT E1 Hr).
  - rewrite E3. cbn. exact (tied_commit _ _ _ _ _ _ HT E1).
  - now rewrite E3.
  - rewrite E3. exact HT.
  - rewrite E3. exact HT.
  - rewrite E3. cbn. assert (In i (ZFc (zc m))) as Hin by (rewrite E1; left; auto).
    destruct (i_zf _ _ _ _ (m_s _ HL) _ Hin) as (e&He&Hz). exact (tied_zfinish _ _ _ _ _ _ _ Hs He Hz Hkz HT E2).
  - rewrite E2. exact HT.
  - rewrite E3. cbn. assert (In i (ZFc (zc m))) as Hin by (rewrite E1; left; auto).
    destruct (i_zf _ _ _ _ (m_s _ HL) _ Hin) as (e&He&Hz). exact (tied_zfinish _ _ _ (set_cur (-1) (sc m)) _ _ _ Hs He Hz Hkz HT1 E2).
Qed.

(** ** What a start and a skip say *)
Lemma tr_goto m s c : tr (goto m s c) = tr m. Proof. reflexivity. Qed.
Lemma tr_loop_head m s o : tr (loop_head m s o) = tr m. Proof. destruct o; reflexivity. Qed.
Lemma tr_stop_events m s K rest : tr (stop_events m s K rest) = tr m.
Proof. unfold stop_events. now destruct (dang m). Qed.
Lemma tr_after_imm m s rest b : tr (after_imm m s rest b) = tr m.
Proof. unfold after_imm, stop_imm. destruct (hold s), b; auto. apply tr_stop_events. Qed.
Lemma tr_after_evt m s K rest : tr (after_evt m s K rest) = tr m.
Proof. unfold after_evt. destruct (hold s); auto. apply tr_stop_events. Qed.
Lemma tr_imm_return m s b : tr (imm_return m s b) = tr m.
Proof. destruct b; auto. apply tr_loop_head. Qed.

Lemma nocons (x : tev) l : l = x :: l -> False.
Proof. intros H. apply (f_equal (@length tev)) in H. cbn in H. lia. Qed.

Lemma cons_same (x y : tev) l : x :: l = y :: l -> x = y.
Proof. now intros [= ->]. Qed.

Ltac untr H := rewrite ?tr_imm_return, ?tr_loop_head, ?tr_after_imm, ?tr_after_evt, ?tr_stop_events in H; cbn [tr log goto die zgoto set_pend] in H.
Ltac notr H := untr H; first [exfalso; exact (nocons _ _ H) | apply cons_same in H; try discriminate H].

Definition dead_or_alive m : (exists d, ctl m = Dead d) \/ forall l, mstep m l = match l with
      | LRun => match ctl m with Idle => goto m (set_hold false (sc m)) (ImmGo [] BStart) | _ => m end
      | LTau => tau m
      | LTimeout => timeout m
      | LEnd => end_ep m
      | LHold => goto m (set_hold true (sc m)) (ctl m)
      | LCall c => call m c
      | LBegin c => begin_add m c
      | LCommit n => commit m n
      | LZTick z => ztick m z
      | LZTau ok => ztau m ok
      | LZEnd => zend m
      end.
Proof. unfold mstep. destruct (ctl m); eauto. Qed.

Lemma step_start m l id t im : tr (mstep m l) = TStart id t im :: tr m ->
  exists e, mget id (evs (sc m)) = Some e /\ skips (sc m) e = false.
Proof.
  destruct (dead_or_alive m) as [[d Hd]|Hm].
  { unfold mstep. rewrite Hd. intros H. notr H. }
  rewrite Hm. clear Hm. destruct l; intros H.
  - destruct (ctl m); notr H.
  - unfold tau in H. destruct (ctl m); try (notr H; fail).
    + destruct rest as [|i rest]; [destruct (imm (sc m)); notr H|].
      destruct (mget i (evs (sc m))) as [e|] eqn:He; [|notr H].
      destruct (skips (sc m) e) eqn:Hs; [destruct (finish (sc m) i); notr H|].
      destruct (zulu_running m); [notr H|]. notr H. injection H as -> _ _. eauto.
    + destruct (hold (sc m)); [notr H|]. destruct (dang m); notr H.
    + destruct (hold (sc m)); notr H.
    + destruct rest as [|i rest]; [destruct (dang m); [notr H|]; destruct (tget K (tbl (sc m))); notr H|].
      destruct (mget i (evs (sc m))) as [e|] eqn:He; [|notr H].
      destruct (skips (sc m) e) eqn:Hs; [destruct (finish (sc m) i); notr H|].
      destruct (zulu_running m); [notr H|]. notr H. injection H as -> _ _. eauto.
  - unfold timeout in H. destruct (ctl m); try (notr H; fail). destruct (dang m); [notr H|].
    destruct (set_sim_time _ _); notr H.
  - unfold end_ep in H. destruct (ctl m); try (notr H; fail); destruct (finish _ _); notr H.
  - notr H.
  - unfold call in H. destruct (api (sc m) c) as [r| |] eqn:Ea; [|notr H|notr H]. cbn in H.
    exfalso. destruct c; cbn in H; try (apply cons_same in H; discriminate H); try (now apply nocons in H).
    destruct (sim_ep_running (ctl m)); cbn in H; [|apply cons_same in H; discriminate H].
    apply (f_equal (@length tev)) in H. cbn in H. lia.
  - unfold begin_add in H. destruct (build_add _ _) as [[q| |]|]; try (notr H; fail). destruct (check_add _ _); notr H.
  - unfold commit in H. destruct (nth_error _ _); [|notr H]. destruct (commit_add _ _); notr H.
  - unfold ztick in H. destruct (zc m); try (notr H; fail). destruct (ztbl (sc m)) as [|[K l] ?]; [notr H|].
    destruct (K <=? z); notr H.
  - unfold ztau in H. destruct (zc m) as [|K [|i rest]|]; try (notr H; fail).
    + destruct (tget K (ztbl (sc m))); notr H.
    + destruct (mget i (evs (sc m))); [|notr H]. destruct (negb ok); [destruct (zfinish _ _); notr H|].
      destruct (sim_ep_running _); notr H.
  - unfold zend in H. destruct (zc m); try (notr H; fail). destruct (zfinish _ _); notr H.
Qed.

Lemma step_skip m l id : MLive m -> tr (mstep m l) = TSkip id :: tr m ->
  exists e, mget id (evs (sc m)) = Some e /\ ((skips (sc m) e = true /\ ev_next e = now (sc m)) \/ (ev_kind e = KZulu /\ l = LZTau false)).
Proof.
  intros HL. destruct (dead_or_alive m) as [[d Hd]|Hm].
  { unfold mstep. rewrite Hd. intros H. notr H. }
  rewrite Hm. clear Hm. destruct l; intros H.
  - destruct (ctl m); notr H.
  - unfold tau in H. destruct (ctl m) eqn:Ec; try (notr H; fail).
    + destruct rest as [|i rest]; [destruct (imm (sc m)); notr H|].
      destruct (mget i (evs (sc m))) as [e|] eqn:He; [|notr H].
      destruct (skips (sc m) e) eqn:Hs; [destruct (finish (sc m) i); notr H|].
      * injection H as ->. exfalso. destruct (i_fi _ _ _ _ (m_s _ HL) id) as (e'&He'&Hk&_).
        { apply in_app_iff. right. rewrite Ec. left. auto. }
        rewrite He in He'. injection He' as <-. unfold skips in Hs. now rewrite Hk in Hs.
      * destruct (zulu_running m); notr H.
    + destruct (hold (sc m)); [notr H|]. destruct (dang m); notr H.
    + destruct (hold (sc m)); notr H.
    + destruct rest as [|i rest]; [destruct (dang m); [notr H|]; destruct (tget K (tbl (sc m))); notr H|].
      destruct (mget i (evs (sc m))) as [e|] eqn:He; [|notr H].
      destruct (skips (sc m) e) eqn:Hs; [destruct (finish (sc m) i); notr H|].
      * injection H as ->. destruct (i_fe _ _ _ _ (m_s _ HL) id) as (e'&He'&Hn&_).
        { rewrite Ec. left. auto. }
        rewrite He in He'. injection He' as <-. eauto.
      * destruct (zulu_running m); notr H.
  - unfold timeout in H. destruct (ctl m); try (notr H; fail). destruct (dang m); [notr H|].
    destruct (set_sim_time _ _); notr H.
  - unfold end_ep in H. destruct (ctl m); try (notr H; fail); destruct (finish _ _); notr H.
  - notr H.
  - unfold call in H. destruct (api (sc m) c) as [r| |] eqn:Ea; [|notr H|notr H]. cbn in H.
    exfalso. destruct c; cbn in H; try (apply cons_same in H; discriminate H); try (now apply nocons in H).
    destruct (sim_ep_running (ctl m)); cbn in H; [|apply cons_same in H; discriminate H].
    apply (f_equal (@length tev)) in H. cbn in H. lia.
  - unfold begin_add in H. destruct (build_add _ _) as [[q| |]|]; try (notr H; fail). destruct (check_add _ _); notr H.
  - unfold commit in H. destruct (nth_error _ _); [|notr H]. destruct (commit_add _ _); notr H.
  - unfold ztick in H. destruct (zc m); try (notr H; fail). destruct (ztbl (sc m)) as [|[K l] ?]; [notr H|].
    destruct (K <=? z); notr H.
  - unfold ztau in H. destruct (zc m) as [|K [|i rest]|] eqn:Ez; try (notr H; fail).
    + destruct (tget K (ztbl (sc m))); notr H.
    + assert (In i (ZFc (zc m))) as Hin by (rewrite Ez; left; auto).
      destruct (i_zf _ _ _ _ (m_s _ HL) _ Hin) as (e&He&Hz). rewrite He in H.
      destruct ok; cbn in H; [|destruct (zfinish _ _); notr H; injection H as ->; eauto 6].
      destruct (sim_ep_running _); notr H.
  - unfold zend in H. destruct (zc m); try (notr H; fail). destruct (zfinish _ _); notr H.
Qed.

Lemma step_zulu m l id t z : tr (mstep m l) = TZulu id t z :: tr m -> l = LZTau true.
Proof.
  destruct (dead_or_alive m) as [[d Hd]|Hm].
  { unfold mstep. rewrite Hd. intros H. notr H. }
  rewrite Hm. clear Hm. destruct l; intros H.
  - destruct (ctl m); notr H.
  - unfold tau in H. destruct (ctl m); try (notr H; fail).
    + destruct rest as [|i rest]; [destruct (imm (sc m)); notr H|].
      destruct (mget i (evs (sc m))) as [e|] eqn:He; [|notr H].
      destruct (skips (sc m) e) eqn:Hs; [destruct (finish (sc m) i); notr H|].
      destruct (zulu_running m); notr H.
    + destruct (hold (sc m)); [notr H|]. destruct (dang m); notr H.
    + destruct (hold (sc m)); notr H.
    + destruct rest as [|i rest]; [destruct (dang m); [notr H|]; destruct (tget K (tbl (sc m))); notr H|].
      destruct (mget i (evs (sc m))) as [e|] eqn:He; [|notr H].
      destruct (skips (sc m) e) eqn:Hs; [destruct (finish (sc m) i); notr H|].
      destruct (zulu_running m); notr H.
  - unfold timeout in H. destruct (ctl m); try (notr H; fail). destruct (dang m); [notr H|].
    destruct (set_sim_time _ _); notr H.
  - unfold end_ep in H. destruct (ctl m); try (notr H; fail); destruct (finish _ _); notr H.
  - notr H.
  - unfold call in H. destruct (api (sc m) c) as [r| |] eqn:Ea; [|notr H|notr H]. cbn in H.
    exfalso. destruct c; cbn in H; try (apply cons_same in H; discriminate H); try (now apply nocons in H).
    destruct (sim_ep_running (ctl m)); cbn in H; [|apply cons_same in H; discriminate H].
    apply (f_equal (@length tev)) in H. cbn in H. lia.
  - unfold begin_add in H. destruct (build_add _ _) as [[q| |]|]; try (notr H; fail). destruct (check_add _ _); notr H.
  - unfold commit in H. destruct (nth_error _ _); [|notr H]. destruct (commit_add _ _); notr H.
  - unfold ztick in H. destruct (zc m); try (notr H; fail). destruct (ztbl (sc m)) as [|[K l] ?]; [notr H|].
    destruct (K <=? z0); notr H.
  - unfold ztau in H. destruct (zc m) as [|K [|i rest]|]; try (notr H; fail).
    + destruct (tget K (ztbl (sc m))); notr H.
    + destruct (mget i (evs (sc m))); [|notr H]. destruct ok; [reflexivity|]. destruct (zfinish _ _); notr H.
  - unfold zend in H. destruct (zc m); try (notr H; fail). destruct (zfinish _ _); notr H.
Qed.

(** ** Histories *)
Lemma tied_run k id d ls : k = KEpoch \/ k = KMission -> forall m, DInv m -> alive m -> disciplined m ls ->
  tied k id d (sc m) -> (forall l, In l ls -> ~ retimes id l) -> alive (fold_left mstep ls m) ->
  tied k id d (sc (fold_left mstep ls m)).
Proof.
  intros Hk. induction ls as [|l ls IH]; cbn; intros m HD Ha D HT Hr Hf; auto. destruct D as [D1 D2].
  assert (alive (mstep m l)) as Ha'.
  { destruct (dec_alive (mstep m l)) as [|[d0 Hd]]; auto. exfalso. clear - Hf Hd. revert Hf.
    assert (forall ls m, ctl m = Dead d0 -> ctl (fold_left mstep ls m) = Dead d0) as Hdead.
    { clear. induction ls as [|l ls IH]; cbn; intros m H; auto. apply IH. unfold mstep. now rewrite H. }
    intros Hf. eapply Hf. now apply Hdead. }
  apply IH; auto.
  - now apply mstep_DInv.
  - apply tied_step; auto. now apply DInv_live.
Qed.

(** The clock of a kind of event. *)
Definition clock (k : tkind) (s : sched) : Z :=
  match k with KEpoch => epoch_time s | KMission => mission_time s | _ => now s end.

(** Call [c] gives event [id] time [t] on the clock of kind [k]; the observation is [x]:
    the occurrence is placed at simulation time [s]. *)
Definition aims (k : tkind) (c : cmd) (x : tev) (id t s : Z) : Prop :=
  match k with
  | KEpoch => (exists ep cy n, c = AddEpoch ep t cy n /\ x = TAdd id KEpoch false s cy n) \/
              (exists n, c = SetEpoch id t /\ x = TSetTime id s n)
  | KMission => (exists ep cy n, c = AddMission ep t cy n /\ x = TAdd id KMission false s cy n) \/
                (exists n, c = SetMission id t /\ x = TSetTime id s n)
  | _ => False
  end.

Lemma aims_kind k c x id t s : aims k c x id t s -> k = KEpoch \/ k = KMission.
Proof. destruct k; cbn; auto; tauto. Qed.

Lemma aims_add m k q r t s id : commit_add (sc m) q = Ok r -> r_id r = id -> r_sim q = s -> r_time q = t -> r_kind q = k ->
  tied k id (t - s) (r_st r).
Proof.
  unfold commit_add. destruct (last (sc m) <? i64_max); [|discriminate]. intros [= <-] <- <- <- <-. split; cbn; [intuition lia|].
  intros e. rewrite mget_mset, Z.eqb_refl. intros [= <-]. cbn. split; [auto|lia].
Qed.

Lemma aims_set m k r t s id : Link m -> set_event_time (sc m) id s t k = Ok r -> tied k id (t - s) (r_st r).
Proof.
  intros HL. unfold set_event_time. destruct (mget id (evs (sc m))) as [e|] eqn:He; [|discriminate].
  destruct (tkind_eqb_spec (ev_kind e) k) as [E|E]; cbn; [|discriminate].
  assert (id <= last (sc m) \/ id = hold_id) as Hid by (destruct (k_ids _ HL _ _ He); auto; lia).
  pose proof (k_sorted _ HL) as Hs.
  destruct (s <? now (sc m)); intros [= <-]; (split; cbn; [intuition lia|]); intros e'.
  - rewrite mget_mdel by auto. rewrite Z.eqb_refl. discriminate.
  - rewrite mget_mset, Z.eqb_refl. intros [= <-]. cbn. split; [auto|lia].
Qed.

Lemma aims_tied m k c x id t s : Link m -> aims k c x id t s ->
  tr (mstep m (LCall c)) = x :: tr m -> tied k id (t - s) (sc (mstep m (LCall c))).
Proof.
  intros HL HA H. destruct (dead_or_alive m) as [[d Hd]|Hm].
  { exfalso. unfold mstep in H. rewrite Hd in H. now apply nocons in H. }
  rewrite Hm in *. unfold call in *. destruct (api (sc m) c) as [r|e|] eqn:Ea; cbn [tr die] in H;
    try (exfalso; now apply nocons in H).
  unfold after_call in H |- *. cbn [tr sc] in H |- *.
  destruct k; cbn in HA; try contradiction; destruct HA as [(ep&cy&n&->&->)|(n&->&->)]; cbn in H; apply cons_same in H.
  - injection H as <- <-. cbn in Ea. destruct (_ && _); [|discriminate]. cbn in Ea. unfold check_add in Ea. cbn in Ea.
    destruct (_ <? _); [discriminate|]. destruct (_ && _); [discriminate|]. cbn in Ea. eapply aims_add; eauto.
  - injection H as <- <-. cbn in Ea. destruct (_ && _); [|discriminate]. eapply aims_set; eauto.
  - injection H as <- <-. cbn in Ea. destruct (_ && _); [|discriminate]. cbn in Ea. unfold check_add in Ea. cbn in Ea.
    destruct (_ <? _); [discriminate|]. destruct (_ && _); [discriminate|]. cbn in Ea. eapply aims_add; eauto.
  - injection H as <- <-. cbn in Ea. destruct (_ && _); [|discriminate]. eapply aims_set; eauto.
Qed.

(** ** The origin of the clocks *)
Definition origin (k : tkind) (s : sched) : Z := now s - clock k s.

Lemma origin_is k s : origin k s = match k with KEpoch => epoch0 s | KMission => epoch0 s + mission0 s | _ => 0 end.
Proof. unfold origin, clock, mission_time, epoch_time. destruct k; lia. Qed.

(** The calls of the time keeper that move the origin of the epoch or mission clock. *)
Definition sets_clock (l : label) : Prop :=
  exists t, l = LCall (TKSetEpoch t) \/ l = LCall (TKSetMission t) \/ l = LCall (TKSetMissionStart t).

Definition same_origin (s s' : sched) : Prop := epoch0 s' = epoch0 s /\ mission0 s' = mission0 s.

Lemma so_refl s : same_origin s s. Proof. split; auto. Qed.

Lemma so_finish s j s' : finish s j = inr s' -> same_origin s s'.
Proof.
  unfold finish. destruct (mget j (evs s)); [|discriminate]. destruct (_ =? 0); [intros [= <-]; split; auto|].
  destruct (_ && _); [intros [= <-]; split; auto|discriminate].
Qed.

Lemma so_zfinish s j s' : zfinish s j = inr s' -> same_origin s s'.
Proof.
  unfold zfinish. destruct (mget j (evs s)); [|discriminate]. destruct (_ =? 0); [intros [= <-]; split; auto|].
  destruct (in_i64 _); [intros [= <-]; split; auto|discriminate].
Qed.

Lemma so_commit s q r : commit_add s q = Ok r -> same_origin s (r_st r).
Proof. unfold commit_add. destruct (_ <? _); [intros [= <-]; split; auto|discriminate]. Qed.

Lemma so_set s j sim t k' r : set_event_time s j sim t k' = Ok r -> same_origin s (r_st r).
Proof.
  unfold set_event_time. destruct (mget j (evs s)); [|discriminate]. destruct (negb _); [discriminate|].
  destruct (_ <? _); intros [= <-]; split; auto.
Qed.

Lemma so_api s c r : api s c = Ok r -> ~ sets_clock (LCall c) -> same_origin s (r_st r).
Proof.
  intros H Hn. destruct c; cbn in H.
  - destruct (_ <? _); [|discriminate]. injection H as <-. split; auto.
  - destruct (in_i64 _); [|discriminate]. cbn in H. unfold check_add in H. cbn in H.
    destruct (_ <? _); [discriminate|]. destruct (_ && _); [discriminate|]. cbn in H. eapply so_commit; eauto.
  - destruct (_ && _); [|discriminate]. cbn in H. unfold check_add in H. cbn in H.
    destruct (_ <? _); [discriminate|]. destruct (_ && _); [discriminate|]. cbn in H. eapply so_commit; eauto.
  - destruct (_ && _); [|discriminate]. cbn in H. unfold check_add in H. cbn in H.
    destruct (_ <? _); [discriminate|]. destruct (_ && _); [discriminate|]. cbn in H. eapply so_commit; eauto.
  - destruct (_ <? _); [discriminate|]. destruct (_ && _); [discriminate|]. destruct (_ <? _); [|discriminate].
    injection H as <-. split; auto.
  - destruct (in_i64 _); [|discriminate]. eapply so_set; eauto.
  - destruct (_ && _); [|discriminate]. eapply so_set; eauto.
  - destruct (_ && _); [|discriminate]. eapply so_set; eauto.
  - unfold set_event_zulu in H. destruct (mget id (evs s)); [|discriminate]. destruct (negb _); [discriminate|].
    destruct (_ <? _); injection H as <-; split; auto.
  - destruct (mget id (evs s)); [|discriminate]. destruct (_ && _); [discriminate|]. injection H as <-. split; auto.
  - destruct (mget id (evs s)); [|discriminate]. destruct (_ && _); [discriminate|]. injection H as <-. split; auto.
  - unfold remove_event in H. destruct (mget id (evs s)) as [e|]; [|discriminate].
    destruct (cur s =? id); [injection H as <-; split; auto|].
    destruct (tkind_eqb (ev_kind e) KZulu); [destruct (sdel _ _)|]; injection H as <-; split; auto.
  - exfalso. apply Hn. exists t; auto.
  - exfalso. apply Hn. exists t; auto.
  - exfalso. apply Hn. exists t; auto.
  - unfold set_sim_time in H. destruct (negb _); [injection H as <-; split; auto|]. destruct (_ || _); [discriminate|].
    injection H as <-. split; auto.
Qed.

Lemma so_after_imm m s rest b : same_origin (sc m) s -> same_origin (sc m) (sc (after_imm m s rest b)).
Proof.
  intros H. unfold after_imm, stop_imm, stop_events. destruct (hold s), b; cbn; auto. destruct (dang m); cbn; auto.
  now split.
Qed.

Lemma so_after_evt m s K rest : same_origin (sc m) s -> same_origin (sc m) (sc (after_evt m s K rest)).
Proof.
  intros H. unfold after_evt, stop_events. destruct (hold s); cbn; auto. destruct (dang m); cbn; auto. now split.
Qed.

Lemma so_step m l : MLive m -> alive m -> admitted m l -> alive (mstep m l) -> ~ sets_clock l ->
  same_origin (sc m) (sc (mstep m l)).
Proof.
  intros HL Ha Had Ha' Hn.
  destruct (mstep_move m l HL Ha Had Ha') as [E1 E2 E3 E4 E5|E1 E2|E1|b E1 E2 E3|K o s' E1 E2|K b rest E1 E2 E3 E4
    |i rest b e E1 He E2|i K rest e E1 He E2|K E1 E2|K E1 E2|K E1 E2|K E1 E2 E3
    |i rest b s' E1 E2 E3|i K rest s' E1 E2 E3|i K rest e s' E1 He Hsk E2 E3|K E1 E2 E3 E4
    |c r E1 E2 E3 E0|q r n E1 E2 E2' E3|K z E1 E2 El Emin E3 E4 E5 E6 E7|K E1 E2 E3|K E1 E2 E3|i K rest s' E1 E2 E3
    |i K rest e E1 He E2|i K rest s' E1 E2 E3].
  - rewrite E1. apply so_refl.
  - rewrite E2. split; auto.
  - rewrite E1. split; auto.
  - rewrite E3. split; auto.
  - rewrite E2. destruct E1 as [(_&_&->)|(_&_&->)], o; split; auto.
  - rewrite E4. split; auto.
  - rewrite E2. split; auto.
  - rewrite E2. split; auto.
  - rewrite E2. split; auto.
  - rewrite E2. split; auto.
  - rewrite E2. split; auto.
  - rewrite E3. split; auto.
  - rewrite E3. apply (so_after_imm (log m (TEnd i))). apply so_finish in E2. exact E2.
  - rewrite E3. apply (so_after_evt (log m (TEnd i))). apply so_finish in E2. exact E2.
  - rewrite E3. apply (so_after_evt (log m (TSkip i))). apply so_finish in E2. exact E2.
  - rewrite E4. split; auto.
  - rewrite E3. subst l. exact (so_api _ _ _ E1 Hn).
  - rewrite E3. exact (so_commit _ _ _ E1).
  - rewrite E3. apply so_refl.
  - rewrite E3. split; auto.
  - rewrite E3. split; auto.
  - rewrite E3. apply so_zfinish in E2. exact E2.
  - rewrite E2. split; auto.
  - rewrite E3. apply so_zfinish in E2. exact E2.
Qed.

Lemma dead_stays d ls : forall m, ctl m = Dead d -> ctl (fold_left mstep ls m) = Dead d.
Proof. induction ls as [|l ls IH]; cbn; intros m H; auto. apply IH. unfold mstep. now rewrite H. Qed.

Lemma alive_before ls m : alive (fold_left mstep ls m) -> alive m.
Proof. intros H d Hd. eapply H. apply dead_stays. exact Hd. Qed.

Lemma so_run ls : forall m, DInv m -> disciplined m ls -> (forall l, In l ls -> ~ sets_clock l) ->
  alive (fold_left mstep ls m) -> same_origin (sc m) (sc (fold_left mstep ls m)).
Proof.
  induction ls as [|l ls IH]; cbn; intros m HD D Hn Hf; [apply so_refl|]. destruct D as [D1 D2].
  pose proof (alive_before _ _ Hf) as Ha'. assert (alive m) as Ha by exact (alive_before [l] m Ha').
  destruct (so_step m l (DInv_live _ HD Ha) Ha D1 Ha' (Hn l (or_introl eq_refl))) as [H1 H2].
  destruct (IH (mstep m l)) as [H3 H4]; auto; [now apply mstep_DInv|]. split; congruence.
Qed.
