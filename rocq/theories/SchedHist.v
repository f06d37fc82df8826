(** Facts about every observation of a disciplined history. *)
From Verif Require Import Base SchedModel SchedSpec SchedInv SchedProofs SchedTrace SchedMoves SchedOrder.
From Coq Require Import Permutation.

#[local] Opaque hold_id i64_max i64_min.
#[local] Arguments next_key K t : simpl never.

(** A simulation, mission or epoch event waiting for its time. *)

Definition dfact (x : tev) (past : list tev) : Prop :=
  match x with
  | TStart id t im =>
      (exists l, life_of id past = Some l /\ limm l = im /\ lkind l <> KZulu /\
                 (im = false -> due l = t) /\ due l <= t) /\
      (forall j lj, life_of j past = Some lj -> timed lj -> t <= due lj) /\
      (im = true -> forall j lj, life_of j past = Some lj -> limm lj = true -> id <= j) /\
      (im = false -> no_retime_to_now past ->
         forall j lj, life_of j past = Some lj -> timed lj -> due lj = t -> id <= j \/ id = hold_id) /\
      (im = false -> forall j, In (TPostImm j) past -> life_of j past = None)
  | TTime t => forall j lj, life_of j past = Some lj -> timed lj -> t <= due lj
  | TZulu id t z => t <= z /\ exists l, life_of id past = Some l /\ lkind l = KZulu
  | TSkip id => exists l, life_of id past = Some l /\ lkind l <> KSim
  | _ => True
  end.

(** Immediate events: where they are. *)
Lemma same_IM m m' : imm (sc m') = imm (sc m) -> FIc (ctl m') = FIc (ctl m) -> last (sc m') = last (sc m) ->
  last (sc m) <= last (sc m') /\ forall id, In id (IM m') -> In id (IM m) \/ id = last (sc m').
Proof. intros E1 E2 E3. unfold IM. rewrite E1, E2, E3. split; [lia|auto]. Qed.

Lemma move_IM m l m' : MLive m -> alive m' -> move m l m' ->
  last (sc m) <= last (sc m') /\
  forall id, In id (IM m') -> In id (IM m) \/ (id = last (sc m')).
Proof.
  intros HL Ha Hm.
  destruct Hm as [E1 E2 E3 E4 E5|E1 E2|E1|b E1 E2 E3|K o s' E1 E2|K b rest E1 E2 E3 E4
    |id rest b e E1 He E2|id K rest e E1 He E2|K E1 E2|K E1 E2|K E1 E2|K E1 E2 E3
    |id rest b s' E1 E2 E3|id K rest s' E1 E2 E3|id K rest e s' E1 He Hs E2 E3|K E1 E2 E3 E4
    |c r E1 E2 E3 E0|q r n E1 E2 E2' E3|K z E1 E2 El Emin E3 E4 E5 E6 E7|K E1 E2 E3|K E1 E2 E3|id K rest s' E1 E2 E3
    |id K rest e E1 He E2|id K rest s' E1 E2 E3]; subst;
    try (apply same_IM; [reflexivity|cbn [ctl goto log zgoto]; rewrite ?E1; reflexivity|reflexivity]).
  - apply same_IM; now rewrite ?E1, ?E2.
  - split; [cbn; lia|]. intros x. unfold IM. rewrite E1. unfold FIc. cbn. rewrite app_nil_r. auto.
  - destruct E1 as [(E1&_&->)|(E1&_&->)]; destruct o; apply same_IM; try reflexivity; rewrite E1; reflexivity.
  - destruct E1 as [E1|E1]; apply same_IM; try reflexivity; rewrite E1; reflexivity.
  - assert (El : last s' = last (sc m)) by (apply finish_ended in E2 as (?&_&_&->&_); auto). split.
    + destruct (after_imm_calm (log m (TEnd id)) s' rest b) as (_&_&[(d&Hd&_)|(_&_&_&->&_)]).
      * exfalso. eapply Ha; eauto.
      * lia.
    + intros x. rewrite IM_after_imm by auto. rewrite (finish_imm _ _ _ E2). unfold IM. rewrite E1.
      unfold FIc. cbn. rewrite !in_app_iff. cbn. tauto.
  - assert (El : last s' = last (sc m)) by (apply finish_ended in E2 as (?&_&_&->&_); auto). split.
    + destruct (after_evt_calm (log m (TEnd id)) s' K rest) as (_&_&[(d&Hd&_)|(_&_&_&->&_)]).
      * exfalso. eapply Ha; eauto.
      * lia.
    + intros x. erewrite IM_after_evt by eauto. rewrite (finish_imm _ _ _ E2). unfold IM. rewrite E1. auto.
  - assert (El : last s' = last (sc m)) by (apply finish_ended in E2 as (?&_&_&->&_); auto). split.
    + destruct (after_evt_calm (log m (TSkip id)) s' K rest) as (_&_&[(d&Hd&_)|(_&_&_&->&_)]).
      * exfalso. eapply Ha; eauto.
      * lia.
    + intros x. erewrite IM_after_evt by eauto. rewrite (finish_imm _ _ _ E2). unfold IM. rewrite E1. auto.
  - split.
    + destruct (api_add_id _ _ _ E1) as ([Hl|(_&Hl&_)]&_); cbn; lia.
    + intros x. unfold IM. cbn. rewrite (api_imm _ _ _ E1). destruct c; auto.
      destruct (api_is_add _ _ _ E1 eq_refl) as (_&->&->). rewrite !in_app_iff, in_sins. tauto.
  - unfold commit_add in E1. destruct (last (sc m) <? i64_max); [|discriminate]. injection E1 as <-.
    cbn. split; [lia|auto].
  - unfold IM. rewrite E3, E4. split; [lia|auto].
  - assert (El : last s' = last (sc m)) by (apply zfinish_ended in E2 as (?&_&_&->&_); auto).
    split; [cbn; lia|]. intros x. unfold IM. cbn. destruct (zfinish_frame _ _ _ E2) as (->&_). auto.
  - assert (El : last s' = last (sc m)) by (apply zfinish_ended in E2 as (?&_&_&->&_); auto).
    split; [cbn; lia|]. intros x. unfold IM. cbn. destruct (zfinish_frame _ _ _ E2) as (->&_). auto.
Qed.

(** Immediate events posted by entry points. *)
Definition calm_ctl (c : ctrl) : bool :=
  match c with EvtGo _ _ | Pre _ | Wait _ | Post _ => true | _ => false end.

Definition PostLink (m : mach) : Prop :=
  (forall j, In (TPostImm j) (tr m) -> j <= last (sc m)) /\
  (forall j l, In (TPostImm j) (tr m) -> life_of j (tr m) = Some l -> limm l = true) /\
  (calm_ctl (ctl m) = true -> forall j, In (TPostImm j) (tr m) -> life_of j (tr m) = None).

Lemma life_none_step j x : life_of j x = None -> forall y,
  (forall k im t c r, y <> TAdd j k im t c r) -> life_step j y (life_of j x) = None.
Proof.
  intros H y Hy. rewrite H. destruct y; cbn; try (destruct (id =? j); reflexivity); try reflexivity.
  destruct (Z.eqb_spec id j) as [->|]; auto. exfalso. eapply Hy; reflexivity.
Qed.

Lemma PostLink_gen m m' x : PostLink m -> tr m' = x :: tr m -> last (sc m) <= last (sc m') ->
  (forall i k im t c r, x = TAdd i k im t c r -> i = last (sc m) + 1) -> (forall j, x <> TPostImm j) ->
  (calm_ctl (ctl m') = true -> calm_ctl (ctl m) = true \/ IM m = []) -> ImmLink m -> PostLink m'.
Proof.
  intros (H1&H2&H3) E El Hadd Hnp Hc HI. unfold PostLink. rewrite E.
  assert (Hin : forall j, In (TPostImm j) (x :: tr m) -> In (TPostImm j) (tr m)).
  { intros j [->|]; auto. exfalso. eapply Hnp; reflexivity. }
  assert (Hna : forall j, In (TPostImm j) (x :: tr m) -> forall k im t c r, x <> TAdd j k im t c r).
  { intros j Hj k im t c r ->. specialize (Hadd _ _ _ _ _ _ eq_refl). apply Hin, H1 in Hj. lia. }
  repeat split.
  - intros j Hj. apply Hin, H1 in Hj. lia.
  - intros j l Hj Hl. cbn [life_of] in Hl.
    destruct (life_of j (tr m)) as [l0|] eqn:E0.
    + destruct x; try (eapply step_keeps_imm in Hl as (l1&[= <-]&<-&_); [eauto|intros; discriminate]).
      cbn in Hl. destruct (Z.eqb_spec id j) as [->|]; [exfalso; eapply (Hna _ Hj); reflexivity|].
      injection Hl as <-. eauto.
    + rewrite <- E0, life_none_step in Hl; auto. discriminate.
  - intros Hc' j Hj. cbn [life_of]. apply life_none_step; auto. destruct (Hc Hc') as [Hcm|HIm]; auto.
    destruct (life_of j (tr m)) as [l|] eqn:E0; auto. pose proof (H2 _ _ (Hin _ Hj) E0) as Hl.
    apply (HI _ _ E0) in Hl. rewrite HIm in Hl. destruct Hl.
Qed.

Lemma PostLink_same m m' : PostLink m -> tr m' = tr m -> last (sc m') = last (sc m) ->
  (calm_ctl (ctl m') = true -> calm_ctl (ctl m) = true \/ IM m = []) -> ImmLink m -> PostLink m'.
Proof.
  intros (H1&H2&H3) E El Hc HI. unfold PostLink. rewrite E, El. repeat split; auto.
  intros Hc' j Hj. destruct (Hc Hc') as [Hcm|HIm]; auto.
  destruct (life_of j (tr m)) as [l|] eqn:E0; auto. pose proof (H2 _ _ Hj E0) as Hl.
  apply (HI _ _ E0) in Hl. rewrite HIm in Hl. destruct Hl.
Qed.

Lemma calm_after_evt m s K rest : calm_ctl (ctl (after_evt m s K rest)) = false.
Proof. unfold after_evt, stop_events. destruct (hold s); [|auto]. destruct (dang m); auto. Qed.
Lemma calm_after_imm m s rest b : calm_ctl (ctl (after_imm m s rest b)) = false.
Proof.
  unfold after_imm, stop_imm, stop_events. destruct (hold s); [|auto]. destruct b; auto. destruct (dang m); auto.
Qed.

Ltac nopost := intros; discriminate.

Lemma move_PostLink m l m' : MLive m -> alive m' -> move m l m' -> ImmLink m -> PostLink m -> PostLink m'.
Proof.
  intros HL Ha Hm HI HP. pose proof (move_IM _ _ _ HL Ha Hm) as [Hlast _].
  destruct Hm as [E1 E2 E3 E4 E5|E1 E2|E1|b E1 E2 E3|K o s' E1 E2|K b rest E1 E2 E3 E4
    |id rest b e E1 He E2|id K rest e E1 He E2|K E1 E2|K E1 E2|K E1 E2|K E1 E2 E3
    |id rest b s' E1 E2 E3|id K rest s' E1 E2 E3|id K rest e s' E1 He Hs E2 E3|K E1 E2 E3 E4
    |c r E1 E2 E3 E0|q r n E1 E2 E2' E3|K z E1 E2 El Emin E3 E4 E5 E6 E7|K E1 E2 E3|K E1 E2 E3|id K rest s' E1 E2 E3
    |id K rest e E1 He E2|id K rest s' E1 E2 E3]; subst;
    try (eapply PostLink_same; [exact HP|reflexivity|reflexivity|cbn; rewrite ?E1; cbn; auto|exact HI]; fail).
  - eapply PostLink_same; eauto; rewrite ?E1, ?E2; auto.
  - eapply PostLink_same; eauto; [destruct o; reflexivity|destruct E1 as [(_&_&->)|(_&_&->)]; destruct o; reflexivity|].
    intros _. destruct E1 as [(E1&Ei&_)|(E1&_)]; rewrite ?E1; auto. right. unfold IM. now rewrite E1, Ei.
  - eapply PostLink_same; [exact HP|reflexivity|reflexivity| |exact HI].
    intros _. right. unfold IM. now rewrite E1, E3.
  - eapply PostLink_gen; eauto; [reflexivity|nopost|nopost|discriminate].
  - eapply PostLink_gen; eauto; [reflexivity|nopost|nopost|discriminate].
  - eapply PostLink_same; [exact HP|reflexivity|reflexivity|discriminate|exact HI].
  - eapply PostLink_gen with (x := TEnd id); eauto; [apply tr_after_imm|nopost|nopost|].
    rewrite calm_after_imm. discriminate.
  - eapply PostLink_gen with (x := TEnd id); eauto; [apply tr_after_evt|nopost|nopost|].
    rewrite calm_after_evt. discriminate.
  - eapply PostLink_gen with (x := TSkip id); eauto; [apply tr_after_evt|nopost|nopost|].
    rewrite calm_after_evt. discriminate.
  - eapply PostLink_gen; eauto; [reflexivity|nopost|nopost|]. rewrite E1. auto.
  - (* call *)
    pose proof (api_is_add _ _ _ E1) as Hadd.
    assert (Hone : forall x, ret_log m c r = [x] -> (forall j, x <> TPostImm j) ->
      (forall i k im t cc rr, x = TAdd i k im t cc rr -> i = last (sc m) + 1) -> PostLink (after_call m c r)).
    { intros x Hx Hnp Hxa. eapply PostLink_gen with (x := x); eauto.
      cbn. rewrite Hx. reflexivity. }
    destruct c;
      try (eapply Hone; [reflexivity|nopost|]; intros ? ? ? ? ? ?; try discriminate;
           intros [= <- _ _ _ _ _]; apply (Hadd eq_refl));
      try (eapply PostLink_same; [exact HP|reflexivity| |cbn; auto|exact HI];
           cbn [api] in E1; try (destruct (_ && _); [|discriminate]);
           try (destruct (in_i64 _); [|discriminate]); injection E1 as <-; reflexivity).
    destruct (Hadd eq_refl) as (_&Hl&Hid).
    destruct (sim_ep_running (ctl m)) eqn:Er.
    2: { eapply Hone; [unfold ret_log; rewrite Er; reflexivity|nopost|].
         intros ? ? ? ? ? ? [= <- _ _ _ _ _]. apply (Hadd eq_refl). }
    destruct HP as (H1&H2&H3).
    assert (Etr : tr (after_call m (AddImm ep) r) =
      TPostImm (r_id r) :: TAdd (r_id r) KSim true (now (sc m)) 0 0 :: tr m).
    { cbn. rewrite Er. reflexivity. }
    unfold PostLink. rewrite Etr. cbn [after_call sc ctl]. rewrite Hl. repeat split.
    + intros j [[= <-]|[|Hj]]; [lia|discriminate|]. apply H1 in Hj. lia.
    + intros j l0 Hj. cbn. destruct (Z.eqb_spec (r_id r) j) as [Ej|Hn]; [intros [= <-]; auto|].
      destruct Hj as [[= Hj]|[|Hj]]; [congruence|discriminate|]. eauto.
    + intros Hcc. destruct (ctl m); discriminate.
  - unfold commit_add in E1. destruct (last (sc m) <? i64_max); [|discriminate]. injection E1 as <-.
    eapply PostLink_gen with (m := m); [exact HP|reflexivity|exact Hlast| |nopost|cbn; auto|exact HI].
    intros ? ? ? ? ? ? [= <- _ _ _ _ _]. reflexivity.
  - eapply PostLink_same; eauto; rewrite ?E3, ?E4; auto.
  - eapply PostLink_gen with (m := m); [exact HP|reflexivity|exact Hlast|nopost|nopost|cbn; auto|exact HI].
  - eapply PostLink_gen with (m := m); [exact HP|reflexivity|exact Hlast|nopost|nopost|cbn; auto|exact HI].
  - eapply PostLink_gen with (m := m); [exact HP|reflexivity|exact Hlast|nopost|nopost|cbn; auto|exact HI].
Qed.

(** ** Zulu events *)
Definition zkey (z : zctrl) : option Z :=
  match z with ZWait => None | ZGo K _ | ZRun _ K _ => Some K end.

Definition ZLink (m : mach) : Prop :=
  forall K, zkey (zc m) = Some K -> K <= zclock m /\
    forall id, In id (ZFc (zc m)) -> exists l, life_of id (tr m) = Some l /\ due l = K.

(** Observations that move the due time of an event. *)
Definition moves_due (id : Z) (x : tev) : Prop :=
  match x with
  | TAdd i _ _ _ _ _ | TSetTime i _ _ | TEnd i | TSkip i => i = id
  | _ => False
  end.

Lemma due_kept id x l l' : ~ moves_due id x -> life_step id x (Some l) = Some l' -> due l' = due l.
Proof.
  intros Hn H. destruct x; cbn in H, Hn;
    try (destruct (Z.eqb_spec id0 id); [tauto|congruence]);
    try (destruct (id0 =? id)); try congruence.
  - injection H as <-. auto.
  - injection H as <-. auto.
  - destruct (live_run l); [injection H as <-; auto|discriminate].
  - injection H as <-; auto.
  - injection H as <-; auto.
Qed.

Lemma zf_life m m' x K id : Link m' -> MLive m' -> tr m' = x :: tr m ->
  (exists l, life_of id (tr m) = Some l /\ due l = K) -> In id (ZFc (zc m')) -> ~ moves_due id x ->
  exists l, life_of id (tr m') = Some l /\ due l = K.
Proof.
  intros Hk HL E (l&Hl&Hd) Hin Hn. destruct (i_zf _ _ _ _ (m_s _ HL) _ Hin) as (e&He&_).
  destruct (life_of_ev _ _ _ Hk He) as (l'&Hl'&_). exists l'. split; auto.
  rewrite E in Hl'. cbn [life_of] in Hl'. rewrite Hl in Hl'. apply due_kept in Hl'; auto. congruence.
Qed.

Lemma ZLink_same m m' : ZLink m -> zc m' = zc m -> zclock m' = zclock m -> tr m' = tr m -> ZLink m'.
Proof. intros H E1 E2 E3. unfold ZLink. now rewrite E1, E2, E3. Qed.

Lemma ZLink_step m m' x : ZLink m -> Link m' -> MLive m' -> zkey (zc m') = zkey (zc m) -> zclock m' = zclock m ->
  tr m' = x :: tr m -> (forall id, In id (ZFc (zc m')) -> In id (ZFc (zc m)) /\ ~ moves_due id x) -> ZLink m'.
Proof.
  intros H Hk HL E1 E2 E3 Hsub K HK. rewrite E1 in HK. rewrite E2. destruct (H K HK) as [H1 H2].
  split; auto. intros id Hin. destruct (Hsub _ Hin). eapply zf_life; eauto.
Qed.

Lemma zf_kind m id e : MLive m -> In id (ZFc (zc m)) -> mget id (evs (sc m)) = Some e -> ev_kind e = KZulu.
Proof. intros HL Hin He. destruct (i_zf _ _ _ _ (m_s _ HL) _ Hin) as (e'&He'&?). congruence. Qed.

Lemma zf_waiting m id : MLive m -> In id (ZFc (zc m)) -> ~ zwaiting (sc m) id /\ ~ waiting (sc m) id.
Proof.
  intros HL Hin. split; intros (e&He&Hw).
  - eapply (i_zdisj _ _ _ _ (m_s _ HL)); eauto.
  - destruct (i_tev _ _ _ _ (m_s _ HL) _ _ Hw) as (e'&He'&_&?).
    pose proof (zf_kind _ _ _ HL Hin He). congruence.
Qed.

Lemma after_imm_zc m s rest b : zc (after_imm m s rest b) = zc m /\ zclock (after_imm m s rest b) = zclock m.
Proof.
  unfold after_imm, stop_imm, stop_events. destruct (hold s); [|auto]. destruct b; auto. destruct (dang m); auto.
Qed.
Lemma after_evt_zc m s K rest : zc (after_evt m s K rest) = zc m /\ zclock (after_evt m s K rest) = zclock m.
Proof. unfold after_evt, stop_events. destruct (hold s); [|auto]. destruct (dang m); auto. Qed.

Lemma api_not_zf m c r x : MLive m -> api (sc m) c = Ok r -> good_call m c -> In x (ret_log m c r) ->
  forall id, In id (ZFc (zc m)) -> ~ moves_due id x.
Proof.
  intros HL Ha Hg Hx id Hin.
  destruct (zf_waiting _ _ HL Hin) as [Hz Hw].
  destruct (i_zf _ _ _ _ (m_s _ HL) _ Hin) as (e&He&_).
  pose proof (i_ids _ _ _ _ (m_s _ HL) _ _ He) as Hid. pose proof i64_max_hold.
  pose proof (api_is_add _ _ _ Ha) as Hadd.
  destruct c; cbn in Hx, Hg;
    try (destruct Hx as [<-|[]]); cbn; try tauto;
    try (destruct (Hadd eq_refl) as (?&_&->); lia);
    try (intros ->; destruct Hg; tauto); try (intros ->; tauto).
  destruct (Hadd eq_refl) as (?&_&Hr). destruct (sim_ep_running (ctl m)).
  - destruct Hx as [<-|[<-|[]]]; cbn; [tauto|]. lia.
  - destruct Hx as [<-|[]]; cbn. lia.
Qed.

Lemma move_ZLink m l m' : Link m -> MLive m -> Link m' -> MLive m' -> move m l m' -> ZLink m -> ZLink m'.
Proof.
  intros Hk0 HL Hk' HL' Hm HZ.
  destruct Hm as [E1 E2 E3 E4 E5|E1 E2|E1|b E1 E2 E3|K o s' E1 E2|K b rest E1 E2 E3 E4
    |id rest b e E1 He E2|id K rest e E1 He E2|K E1 E2|K E1 E2|K E1 E2|K E1 E2 E3
    |id rest b s' E1 E2 E3|id K rest s' E1 E2 E3|id K rest e s' E1 He Hs E2 E3|K E1 E2 E3 E4
    |c r E1 E2 E3 E0|q r n E1 E2 E2' E3|K z E1 E2 El Emin E3 E4 E5 E6 E7|K E1 E2 E3|K E1 E2 E3|id K rest s' E1 E2 E3
    |id K rest e E1 He E2|id K rest s' E1 E2 E3]; subst;
    try (eapply ZLink_same; [exact HZ|reflexivity|reflexivity|reflexivity]; fail).
  - eapply ZLink_same; eauto.
  - eapply ZLink_same; [exact HZ|destruct o; reflexivity..].
  - eapply ZLink_step; eauto; try reflexivity. intros j Hj. split; [exact Hj|cbn; tauto].
  - eapply ZLink_step; eauto; try reflexivity. intros j Hj. split; [exact Hj|cbn; tauto].
  - destruct (after_imm_zc (log m (TEnd id)) s' rest b) as [Ez Ec].
    eapply ZLink_step with (x := TEnd id); eauto; [now rewrite Ez|apply tr_after_imm|].
    intros j Hj. rewrite Ez in Hj. split; [exact Hj|]. cbn. intros ->.
    destruct (IM_ids m j HL) as (e&He&Hkd&_); [unfold IM; rewrite E1; apply in_app_iff; right; now left|].
    pose proof (zf_kind _ _ _ HL Hj He). congruence.
  - destruct (after_evt_zc (log m (TEnd id)) s' K rest) as [Ez Ec].
    eapply ZLink_step with (x := TEnd id); eauto; [now rewrite Ez|apply tr_after_evt|].
    intros j Hj. rewrite Ez in Hj. split; [exact Hj|]. cbn. intros ->.
    destruct (i_fe _ _ _ _ (m_s _ HL) j) as (e&He&_&Hkd); [rewrite E1; now left|].
    pose proof (zf_kind _ _ _ HL Hj He). congruence.
  - destruct (after_evt_zc (log m (TSkip id)) s' K rest) as [Ez Ec].
    eapply ZLink_step with (x := TSkip id); eauto; [now rewrite Ez|apply tr_after_evt|].
    intros j Hj. rewrite Ez in Hj. split; [exact Hj|]. cbn. intros ->.
    destruct (i_fe _ _ _ _ (m_s _ HL) j) as (e'&He'&_&Hkd); [rewrite E1; now left|].
    pose proof (zf_kind _ _ _ HL Hj He'). congruence.
  - eapply ZLink_step; eauto; try reflexivity. intros j Hj. split; [exact Hj|cbn; tauto].
  - (* call *)
    pose proof (fun x => api_not_zf m c r x HL E1 E2) as Hnz.
    destruct (ret_log m c r) as [|x [|y [|? ?]]] eqn:Er.
    + eapply ZLink_same; eauto; try reflexivity. cbn. now rewrite Er.
    + eapply ZLink_step with (x := x); eauto; try reflexivity; [cbn; now rewrite Er|].
      intros j Hj. split; [exact Hj|]. eapply Hnz; eauto. now left.
    + set (m1 := M (r_st r) (ctl m) (zc m) (zclock m) (dang m) (pend m) (y :: tr m)).
      assert (Hy : x = TPostImm (r_id r)).
      { destruct c; try discriminate. cbn in Er. destruct (sim_ep_running (ctl m)); [|discriminate]. congruence. }
      intros K HK. cbn in HK. destruct (HZ K HK) as [H1 H2]. split; [exact H1|]. intros j Hj.
      assert (H3 : exists l, life_of j (tr m1) = Some l /\ due l = K).
      { eapply (zf_life m m1 y); eauto; try reflexivity.
        - eapply (Link_same (after_call m c r)); [exact Hk'|reflexivity..|].
          intros id. cbn. rewrite Er, Hy. reflexivity.
        - destruct HL'. constructor; auto. cbn. apply HL.
        - eapply Hnz; eauto. right; now left. }
      cbn in *. rewrite Er, Hy. exact H3.
    + exfalso. destruct c; try discriminate. cbn in Er. destruct (sim_ep_running (ctl m)); discriminate.
  - unfold commit_add in E1. destruct (Z.ltb_spec (last (sc m)) i64_max); [|discriminate]. injection E1 as <-.
    eapply ZLink_step; eauto; try reflexivity. intros j Hj. split; [exact Hj|]. cbn. intros <-.
    destruct (i_zf _ _ _ _ (m_s _ HL) _ Hj) as (e&He&_).
    pose proof (i_ids _ _ _ _ (m_s _ HL) _ _ He) as Hid. pose proof i64_max_hold. lia.
  - intros K'. rewrite E5. intros [= <-]. split; auto. intros ? [].
  - intros K' [=].
  - intros K' [= <-]. split; [now apply (HZ K); rewrite E1|]. intros j Hj. cbn in Hj.
    destruct (i_zev _ _ _ _ (m_s _ HL) _ _ Hj) as (e&He&Hn&_).
    destruct (life_of_ev _ _ _ Hk0 He) as (lf&Hl&Hd&_). exists lf. cbn. split; auto. congruence.
  - eapply ZLink_step with (x := TSkip id); eauto; try reflexivity; [now rewrite E1|].
    intros j Hj. cbn in Hj. rewrite E1. split; [now right|]. cbn. intros ->.
    pose proof (i_znodup _ _ _ _ (m_s _ HL)) as Hnd. rewrite E1 in Hnd. unfold ZFc in Hnd. cbn in Hnd.
    inversion Hnd; auto.
  - eapply ZLink_step; eauto; try reflexivity; [now rewrite E1|].
    intros j Hj. rewrite E1. split; [exact Hj|]. cbn. tauto.
  - eapply ZLink_step with (x := TEnd id); eauto; try reflexivity; [now rewrite E1|].
    intros j Hj. cbn in Hj. rewrite E1. split; [now right|]. cbn. intros ->.
    pose proof (i_znodup _ _ _ _ (m_s _ HL)) as Hnd. rewrite E1 in Hnd. unfold ZFc in Hnd. cbn in Hnd.
    inversion Hnd; auto.
Qed.

(** Order of Zulu events, when the clock is not set back. *)
Definition ZOrd (m : mach) : Prop :=
  forall K, zkey (zc m) = Some K ->
    ssorted (ZFc (zc m)) /\
    (forall k x, In x (tget k (ztbl (sc m))) -> K <= k) /\
    (forall a b, In a (ZFc (zc m)) -> In b (tget K (ztbl (sc m))) -> before a b).

Lemma finish_ztbl s id s' : finish s id = inr s' -> ztbl s' = ztbl s.
Proof.
  unfold finish. destruct (mget id (evs s)) as [e|]; [|discriminate].
  destruct (ev_repeat e =? 0); [intros [= <-]; auto|].
  destruct (_ && _); [intros [= <-]; auto|discriminate].
Qed.

Lemma after_imm_ztbl m s rest b : alive (after_imm m s rest b) -> ztbl (sc (after_imm m s rest b)) = ztbl s.
Proof.
  unfold after_imm, stop_imm, stop_events. destruct (hold s); [|auto]. destruct b; auto. destruct (dang m); auto.
  intros Ha. exact (dead_false _ _ _ Ha).
Qed.
Lemma after_evt_ztbl m s K rest : alive (after_evt m s K rest) -> ztbl (sc (after_evt m s K rest)) = ztbl s.
Proof.
  unfold after_evt, stop_events. destruct (hold s); [|auto]. destruct (dang m); auto.
  intros Ha. exact (dead_false _ _ _ Ha).
Qed.

Lemma ZOrd_same m m' : ZOrd m -> zc m' = zc m -> ztbl (sc m') = ztbl (sc m) -> ZOrd m'.
Proof. intros H E1 E2. unfold ZOrd. now rewrite E1, E2. Qed.

Lemma ZF_user m a : MLive m -> In a (ZFc (zc m)) -> a <= last (sc m) \/ a = hold_id.
Proof.
  intros HL Hin. destruct (i_zf _ _ _ _ (m_s _ HL) _ Hin) as (e&He&_).
  apply (i_ids _ _ _ _ (m_s _ HL)) in He. lia.
Qed.

Lemma ZOrd_fin m m' id K rest s s' : MLive m -> Link m -> ZLink m -> ZOrd m ->
  (forall r, In r rest -> In r (ZFc (zc m))) -> ssorted rest ->
  zkey (zc m) = Some K -> In id (ZFc (zc m)) -> evs s = evs (sc m) -> ztbl s = ztbl (sc m) ->
  zfinish s id = inr s' -> zc m' = ZGo K rest -> sc m' = s' -> ZOrd m'.
Proof.
  intros HL Hk HZ HO Hsub Hs HK Hid Ee Et Ef E1 E2 K'. rewrite E1. intros [= <-].
  destruct (HO K HK) as (H1&H2&H3).
  assert (Ht : forall k x, In x (tget k (ztbl s')) -> In x (tget k (ztbl (sc m))) \/ K < k).
  { intros k x. unfold zfinish in Ef. destruct (mget id (evs s)) as [e|] eqn:He; [|discriminate].
    rewrite Ee in He. destruct (Z.eqb_spec (ev_repeat e) 0) as [|Hr]; [injection Ef as <-; cbn; rewrite Et; auto|].
    destruct (in_i64 _); [|discriminate]. injection Ef as <-. cbn. rewrite in_tins, Et.
    intros [[-> _]|]; auto. right.
    destruct (life_of_ev _ _ _ Hk He) as (l&Hl&Hd&_). destruct (HZ K HK) as [_ Hz].
    destruct (Hz _ Hid) as (l'&Hl'&Hd'). pose proof (i_cyc _ _ _ _ (m_s _ HL) _ _ He Hr).
    rewrite Hl in Hl'. injection Hl' as <-. lia. }
  rewrite E2. repeat split; auto.
  - intros k x Hx. destruct (Ht _ _ Hx) as [Hx'|]; [eauto|lia].
  - intros a b Ha Hb. cbn in Ha. destruct (Ht _ _ Hb) as [Hb'|]; [eauto|lia].
Qed.

Lemma move_ZOrd m l m' : Link m -> MLive m -> alive m' -> clock_ok m l -> no_retime_to_now (tr m') ->
  move m l m' -> ZLink m -> ZOrd m -> ZOrd m'.
Proof.
  intros Hk HL Ha Hclk Hnr Hm HZ HO.
  destruct Hm as [E1 E2 E3 E4 E5|E1 E2|E1|b E1 E2 E3|K o s' E1 E2|K b rest E1 E2 E3 E4
    |id rest b e E1 He E2|id K rest e E1 He E2|K E1 E2|K E1 E2|K E1 E2|K E1 E2 E3
    |id rest b s' E1 E2 E3|id K rest s' E1 E2 E3|id K rest e s' E1 He Hs E2 E3|K E1 E2 E3 E4
    |c r E1 E2 E3 E0|q r n E1 E2 E2' E3|K z E1 E2 El Emin E3 E4 E5 E6 E7|K E1 E2 E3|K E1 E2 E3|id K rest s' E1 E2 E3
    |id K rest e E1 He E2|id K rest s' E1 E2 E3]; subst;
    try (eapply ZOrd_same; [exact HO|reflexivity|reflexivity]; fail).
  - eapply ZOrd_same; eauto. now rewrite E1.
  - destruct E1 as [(_&_&->)|(_&_&->)]; destruct o; (eapply ZOrd_same; [exact HO|reflexivity|reflexivity]).
  - eapply ZOrd_same; [exact HO|etransitivity; [apply after_imm_zc|reflexivity]|]. rewrite after_imm_ztbl by auto.
    now rewrite (finish_ztbl _ _ _ E2).
  - eapply ZOrd_same; [exact HO|etransitivity; [apply after_evt_zc|reflexivity]|]. rewrite after_evt_ztbl by auto.
    now rewrite (finish_ztbl _ _ _ E2).
  - eapply ZOrd_same; [exact HO|etransitivity; [apply after_evt_zc|reflexivity]|]. rewrite after_evt_ztbl by auto.
    now rewrite (finish_ztbl _ _ _ E2).
  - intros K HK. cbn in HK. destruct (HO K HK) as (H1&H2&H3). destruct (HZ K HK) as [Hzc _].
    pose proof (i_ztbl _ _ _ _ (m_s _ HL)) as Ht. cbn [after_call zc sc]. repeat split; auto.
    + intros k x Hx. destruct (api_ztbl _ _ _ _ _ Ht E1 Hx) as [|[(ep&cc&rr&z&->&Hz&_)|(z&->&Hz)]]; eauto;
        cbn in Hclk; lia.
    + intros a b Hina Hinb. destruct (api_ztbl _ _ _ _ _ Ht E1 Hinb) as [|[(ep&cc&rr&z&->&Hz&->)|(z&->&Hz)]]; eauto.
      * destruct (api_is_add _ _ _ E1 eq_refl) as (_&_&->).
        destruct (ZF_user _ _ HL Hina); [right; lia|left; auto].
      * cbn in Hclk. exfalso. apply (Hnr b K z); [now left|lia].
  - unfold commit_add in E1. destruct (last (sc m) <? i64_max); [|discriminate]. injection E1 as <-.
    eapply ZOrd_same; [exact HO|reflexivity|reflexivity].
  - intros K'. rewrite E5. intros [= <-]. split; [apply ssorted_nil|]. split; [|intros ? ? []].
    intros k x Hx. rewrite E3 in Hx. apply Emin. eapply in_tget_keys; eauto.
  - intros K' [=].
  - intros K' [= <-]. assert (HK : zkey (zc m) = Some K) by now rewrite E1. destruct (HO K HK) as (H1&H2&H3).
    cbn. repeat split.
    + apply (i_ztbl _ _ _ _ (m_s _ HL)).
    + intros k x. rewrite tget_mset. destruct (k =? K); [intros []|eauto].
    + intros a b _. rewrite tget_mset, Z.eqb_refl. intros [].
  - eapply (ZOrd_fin m _ id K rest (sc m) s'); eauto; try (rewrite E1; now left); try (rewrite E1; reflexivity).
    + intros r Hr. rewrite E1. now right.
    + assert (HK : zkey (zc m) = Some K) by now rewrite E1. destruct (HO K HK) as (H1&_). rewrite E1 in H1.
      now apply ssorted_tail in H1.
  - intros K' [= <-]. assert (HK : zkey (zc m) = Some K) by now rewrite E1.
    destruct (HO K HK) as (H1&H2&H3). rewrite E1 in *. cbn. auto.
  - eapply (ZOrd_fin m _ id K rest (set_cur (-1) (sc m)) s'); eauto; try (rewrite E1; now left); try (rewrite E1; reflexivity).
    + intros r Hr. rewrite E1. now right.
    + assert (HK : zkey (zc m) = Some K) by now rewrite E1. destruct (HO K HK) as (H1&_). rewrite E1 in H1.
      now apply ssorted_tail in H1.
Qed.

(** ** Everything together *)
Record DInv (m : mach) : Prop := {
  d_m : MInv m;
  d_t : TInv m;
  d_fact : always dfact (tr m);
  d_imm : alive m -> ImmLink m;
  d_user : alive m -> imm_user m;
  d_ordI : alive m -> OrdI m;
  d_post : alive m -> PostLink m;
  d_z : alive m -> ZLink m;
  d_ordE : alive m -> no_retime_to_now (tr m) -> OrdE m
}.

Lemma DInv_init : DInv mach_init.
Proof.
  constructor; cbn; auto using MInv_init, TInv_init.
  - intros _ id l H. cbn in H. destruct (id =? hold_id); [|discriminate]. injection H as <-. cbn. split; [discriminate|intros []].
  - intros _ id [].
  - intros _. now apply OrdI_nil.
  - intros _. split; [intros j []|]. split; [intros j l []|]. intros _ j [].
  - intros _ K [=].
  - intros _ _. now apply OrdE_nil.
Qed.

Lemma timed_due m j lj : MLive m -> Link m -> ImmLink m -> life_of j (tr m) = Some lj -> timed lj ->
  now (sc m) <= due lj /\
  (In j (tget (due lj) (tbl (sc m))) \/ (In j (FEc (ctl m)) /\ due lj = now (sc m))).
Proof.
  intros HL Hk HI Hl [Hz Hi]. destruct (ev_of_life _ _ _ Hk Hl) as (e&He&Hd&_&_&Hkd&_).
  pose proof (m_s _ HL) as HS. rewrite Hkd in Hz. rewrite Hd.
  destruct (i_cover _ _ _ _ HS _ _ He Hz) as [Hin|Hin].
  - split; auto. apply (i_keys _ _ _ _ HS). eapply in_tget_keys; eauto.
  - apply in_app_iff in Hin as [Hin|Hin].
    + exfalso. assert (limm lj = true) by (apply (HI _ _ Hl); exact Hin). congruence.
    + destruct (i_fe _ _ _ _ HS _ Hin) as (e'&He'&Hn&_). rewrite He in He'. injection He' as <-.
      split; [lia|]. right. auto.
Qed.

Lemma tr_mono_NR x tr : no_retime_to_now (x :: tr) -> no_retime_to_now tr.
Proof. intros H id t n Hin. apply (H id). now right. Qed.

Lemma sorted_head_le x l y : ssorted (x :: l) -> In y (x :: l) -> x <= y.
Proof. intros H [<-|Hin]; [lia|]. apply ssorted_cons in H as [_ H]. specialize (H _ Hin). lia. Qed.

Lemma call_dfact m c r : DInv m -> alive m -> MLive m -> Link m -> api (sc m) c = Ok r ->
  always dfact (ret_log m c r ++ tr m).
Proof.
  intros HD Ha HL Hk E. pose proof (d_fact _ HD) as Hf. destruct c; cbn; auto.
  - destruct (sim_ep_running (ctl m)); cbn; auto.
  - split; auto. intros j lj Hl Ht. cbn in E.
    destruct (timed_due _ _ _ HL Hk (d_imm _ HD Ha) Hl Ht) as [H1 H2].
    destruct (set_sim_time (sc m) t) as [s'| |] eqn:Es; try discriminate. injection E as <-. cbn.
    apply set_sim_time_ok in Es as [[-> _]|(->&Hw&_&Hmax)]; auto. cbn.
    pose proof (MLive_FE_window _ HL Hw) as HF. rewrite HF in H2. destruct H2 as [H2|[[] _]].
    pose proof (next_scheduled_le (sc m) (due lj) (proj1 (i_tbl _ _ _ _ (m_s _ HL))) (in_tget_keys _ _ _ H2)). lia.
Qed.

Lemma move_dfact m l m' : DInv m -> alive m -> MLive m -> Link m -> alive m' -> move m l m' -> always dfact (tr m').
Proof.
  intros HD Ha HL Hk Ha' Hm. pose proof (d_fact _ HD) as Hf. pose proof (m_s _ HL) as HS.
  pose proof (d_imm _ HD Ha) as HI.
  destruct Hm as [E1 E2 E3 E4 E5|E1 E2|E1|b E1 E2 E3|K o s' E1 E2|K b rest E1 E2 E3 E4
    |id rest b e E1 He E2|id K rest e E1 He E2|K E1 E2|K E1 E2|K E1 E2|K E1 E2 E3
    |id rest b s' E1 E2 E3|id K rest s' E1 E2 E3|id K rest e s' E1 He Hs E2 E3|K E1 E2 E3 E4
    |c r E1 E2 E3 E0|q r n E1 E2 E2' E3|K z E1 E2 El Emin E3 E4 E5 E6 E7|K E1 E2 E3|K E1 E2 E3|id K rest s' E1 E2 E3
    |id K rest e E1 He E2|id K rest s' E1 E2 E3]; subst; try exact Hf;
    rewrite ?tr_after_evt, ?tr_after_imm; try (split; [exact I|exact Hf]).
  - now rewrite E4.
  - destruct o; exact Hf.
  - (* immediate start *)
    split; [|exact Hf]. destruct (life_of_ev _ _ _ Hk He) as (lf&Hl&Hd&_&_&Hkd&_).
    assert (Hin : In id (IM m)) by (unfold IM; rewrite E1; apply in_app_iff; right; now left).
    destruct (i_fi _ _ _ _ HS id Hin) as (e'&He'&Hks&_&Hn). rewrite He in He'. injection He' as <-.
    split; [exists lf; repeat split; auto|split; [|split; [|split; discriminate]]].
    + now apply HI in Hl; apply Hl.
    + congruence.
    + discriminate.
    + lia.
    + intros j lj Hlj Ht. now apply (timed_due _ _ _ HL Hk HI Hlj Ht).
    + intros _ j lj Hlj Hlm. apply (HI _ _ Hlj) in Hlm. destruct (d_ordI _ HD Ha) as [Ho1 Ho2].
      rewrite E1 in *. unfold IM in Hlm. rewrite E1 in Hlm. apply in_app_iff in Hlm as [Hlm|Hlm].
      * specialize (Ho2 id j (or_introl eq_refl) Hlm). lia.
      * exact (sorted_head_le id rest j Ho1 Hlm).
  - (* table start *)
    split; [|exact Hf]. destruct (life_of_ev _ _ _ Hk He) as (lf&Hl&Hd&_&_&Hkd&_).
    assert (HFE : FEc (ctl m) = id :: rest) by (rewrite E1; reflexivity).
    destruct (i_fe _ _ _ _ HS id) as (e'&He'&Hn&Hkz); [rewrite HFE; now left|].
    rewrite He in He'. injection He' as <-.
    split; [exists lf; repeat split; auto|split; [|split; [discriminate|split]]].
    + destruct (limm lf) eqn:Elm; auto. apply (HI _ _ Hl) in Elm.
      pose proof (i_nodup _ _ _ _ HS) as Hnd. apply NoDup_app_iff in Hnd as (_&_&Hnd).
      exfalso. apply (Hnd id Elm). rewrite HFE. now left.
    + congruence.
    + intros _. lia.
    + lia.
    + intros j lj Hlj Ht. now apply (timed_due _ _ _ HL Hk HI Hlj Ht).
    + intros _ Hnr j lj Hlj Ht Hdj. destruct (timed_due _ _ _ HL Hk HI Hlj Ht) as [_ Hin].
      destruct (d_ordE _ HD Ha Hnr) as [Ho1 Ho2]. rewrite HFE in *. destruct Hin as [Hin|[Hin _]].
      * rewrite Hdj in Hin. destruct (Ho2 id j (or_introl eq_refl) Hin); [auto|left; lia].
      * left. eapply sorted_head_le; eauto.
    + intros _. apply (d_post _ HD Ha). now rewrite E1.
  - (* skip *)
    cbn. split; [|exact Hf]. destruct (life_of_ev _ _ _ Hk He) as (lf&Hl&_&_&_&Hkd&_). exists lf. split; auto.
    rewrite Hkd. intros Hks. rewrite skips_sim in Hs by auto. discriminate.
  - (* time *)
    cbn. split; [|exact Hf]. intros j lj Hl Ht. destruct (timed_due _ _ _ HL Hk HI Hl Ht) as [_ Hin].
    rewrite E1 in Hin. destruct Hin as [Hin|[[] _]]. apply E3. eapply in_tget_keys; eauto.
  - eapply call_dfact; eauto.
  - now rewrite E7.
  - (* zulu skip *)
    cbn. split; [|exact Hf]. destruct (i_zf _ _ _ _ HS id) as (e&He&Hkd); [rewrite E1; now left|].
    destruct (life_of_ev _ _ _ Hk He) as (lf&Hl&_&_&_&Hkd'&_). exists lf. split; auto. congruence.
  - (* zulu start *)
    cbn. split; [|exact Hf]. destruct (life_of_ev _ _ _ Hk He) as (lf&Hl&Hd&_&_&Hkd&_).
    destruct (d_z _ HD Ha K) as [Hc Hz]; [now rewrite E1|].
    destruct (Hz id) as (lf'&Hl'&Hd'); [rewrite E1; now left|]. rewrite Hl in Hl'. injection Hl' as <-. split; [lia|].
    exists lf. split; auto. rewrite Hkd. eapply zf_kind; eauto. rewrite E1. now left.
Qed.

Lemma after_imm_dead m s rest b d : ctl (after_imm m s rest b) = Dead d -> d = DDangling.
Proof.
  unfold after_imm, stop_imm, stop_events. destruct (hold s); [|discriminate]. destruct b; try discriminate.
  destruct (dang m); [|discriminate]. now intros [= <-].
Qed.
Lemma after_evt_dead m s K rest d : ctl (after_evt m s K rest) = Dead d -> d = DDangling.
Proof.
  unfold after_evt, stop_events. destruct (hold s); [|discriminate].
  destruct (dang m); [|discriminate]. now intros [= <-].
Qed.

Ltac split_ifs := repeat match goal with |- context [if ?b then _ else _] => destruct b end.

Lemma dead_tr m l : alive m -> ctl (mstep m l) = Dead DOverflow -> tr (mstep m l) = tr m.
Proof.
  intros Ha. assert (H0 : ctl m <> Dead DOverflow) by apply Ha.
  assert (H : ctl match l with
      | LRun => match ctl m with Idle => goto m (set_hold false (sc m)) (ImmGo [] BStart) | _ => m end
      | LTau => tau m | LTimeout => timeout m | LEnd => end_ep m
      | LHold => goto m (set_hold true (sc m)) (ctl m)
      | LCall c => call m c | LBegin c => begin_add m c | LCommit n => commit m n
      | LZTick z => ztick m z | LZTau ok => ztau m ok | LZEnd => zend m end = Dead DOverflow ->
     tr match l with
      | LRun => match ctl m with Idle => goto m (set_hold false (sc m)) (ImmGo [] BStart) | _ => m end
      | LTau => tau m | LTimeout => timeout m | LEnd => end_ep m
      | LHold => goto m (set_hold true (sc m)) (ctl m)
      | LCall c => call m c | LBegin c => begin_add m c | LCommit n => commit m n
      | LZTick z => ztick m z | LZTau ok => ztau m ok | LZEnd => zend m end = tr m).
  { destruct l.
    - destruct (ctl m) eqn:E; try (now rewrite E); try discriminate; now intros.
    - unfold tau. destruct (ctl m) eqn:E; try (now rewrite E); auto.
      + destruct rest as [|id rest].
        * destruct (imm (sc m)); auto. unfold imm_return, loop_head.
          destruct b; auto. destruct (tbl (sc m)) as [|[]]; auto.
        * destruct (mget id (evs (sc m))); [|auto]. destruct (skips _ _).
          -- destruct (finish _ _); auto. intros H. now apply after_imm_dead in H.
          -- destruct (zulu_running m); auto. discriminate.
      + split_ifs; auto.
      + split_ifs; auto.
      + destruct rest as [|id rest].
        * destruct (dang m); auto. unfold loop_head. destruct (tget _ _); [destruct (next_key _ _)|]; auto.
        * destruct (mget id (evs (sc m))); [|auto]. destruct (skips _ _).
          -- destruct (finish _ _); auto. intros H. now apply after_evt_dead in H.
          -- destruct (zulu_running m); auto. discriminate.
    - unfold timeout. destruct (ctl m) eqn:E; auto. destruct (dang m); auto.
      destruct (set_sim_time _ _); auto. discriminate.
    - unfold end_ep. destruct (ctl m) eqn:E; auto.
      + destruct (finish _ _); auto. intros H. now apply after_imm_dead in H.
      + destruct (finish _ _); auto. intros H. now apply after_evt_dead in H.
    - auto.
    - unfold call. destruct (api _ _); auto. intros H. exact (False_ind _ (H0 H)).
    - unfold begin_add. destruct (build_add _ _) as [[q| |]|]; auto. destruct (check_add _ _); auto.
    - unfold commit. destruct (nth_error _ _); auto. destruct (commit_add _ _); auto.
      intros H. exact (False_ind _ (H0 H)).
    - unfold ztick. destruct (zc m); auto. destruct (ztbl (sc m)) as [|[]]; auto. split_ifs; auto.
    - unfold ztau. destruct (zc m) as [|K [|id rest]|]; auto.
      + destruct (tget _ _); auto.
      + destruct (mget _ _); auto. destruct (negb ok).
        * destruct (zfinish _ _); auto. intros H. exact (False_ind _ (H0 H)).
        * destruct (sim_ep_running _); auto. intros H. exact (False_ind _ (H0 H)).
    - unfold zend. destruct (zc m); auto. destruct (zfinish _ _); auto.
      intros H. exact (False_ind _ (H0 H)). }
  unfold mstep. destruct (ctl m) eqn:E; try exact H. exfalso. eapply Ha; eauto.
Qed.

Lemma dec_alive m : alive m \/ exists d, ctl m = Dead d.
Proof. unfold alive. destruct (ctl m); eauto; left; discriminate. Qed.

Lemma move_tr m l m' : move m l m' -> no_retime_to_now (tr m') -> no_retime_to_now (tr m).
Proof.
  intros Hm. assert (E : exists x, tr m' = x ++ tr m).
  { destruct Hm as [E1 E2 E3 E4 E5|E1 E2|E1|b E1 E2 E3|K o s' E1 E2|K b rest E1 E2 E3 E4
    |id rest b e E1 He E2|id K rest e E1 He E2|K E1 E2|K E1 E2|K E1 E2|K E1 E2 E3
    |id rest b s' E1 E2 E3|id K rest s' E1 E2 E3|id K rest e s' E1 He Hs E2 E3|K E1 E2 E3 E4
    |c r E1 E2 E3 E0|q r n E1 E2 E2' E3|K z E1 E2 El Emin E3 E4 E5 E6 E7|K E1 E2 E3|K E1 E2 E3|id K rest s' E1 E2 E3
    |id K rest e E1 He E2|id K rest s' E1 E2 E3]; subst; rewrite ?tr_after_evt, ?tr_after_imm;
      try (exists []; now auto); try (eexists [_]; reflexivity).
    - destruct o; now exists [].
    - eexists. reflexivity. }
  destruct E as [x ->]. intros H id t n Hin. apply (H id). apply in_app_iff. auto.
Qed.

Lemma mstep_DInv m l : DInv m -> admitted m l -> DInv (mstep m l).
Proof.
  intros HD Had. assert (HM : MInv (mstep m l)) by (apply mstep_inv; auto; apply HD).
  assert (HT : TInv (mstep m l)) by (apply mstep_TInv, HD).
  destruct (dec_alive m) as [Ha|[d Hd]].
  2:{ assert (mstep m l = m) as -> by (unfold mstep; now rewrite Hd). exact HD. }
  assert (HL : MLive m) by (destruct (d_m _ HD) as [E|[E _]]; auto; exfalso; eapply Ha; eauto).
  pose proof (t_link _ (d_t _ HD) Ha) as Hk.
  destruct (dec_alive (mstep m l)) as [Ha'|[d Hd]].
  - pose proof (mstep_move m l HL Ha Had Ha') as Hm.
    constructor; auto; try intros _.
    + eapply move_dfact; eauto.
    + eapply move_ImmLink; eauto; apply HD; auto.
    + destruct (move_IM _ _ _ HL Ha' Hm) as [H1 H2]. intros id Hid. pose proof (d_user _ HD Ha) as Hu.
      destruct (H2 _ Hid) as [Hi| ->]; [specialize (Hu _ Hi)|]; lia.
    + eapply move_OrdI; eauto; apply HD; auto.
    + eapply move_PostLink; eauto; apply HD; auto.
    + eapply (move_ZLink m l); eauto; [apply HT; auto| |apply HD; auto].
      destruct HM as [E|[E _]]; auto. exfalso. eapply Ha'; eauto.
    + intros Hnr. eapply move_OrdE; eauto. apply HD; auto. eapply move_tr; eauto.
  - assert (Hna : alive (mstep m l) -> False) by (intros Ha'; eapply Ha'; eauto).
    assert (d = DOverflow) as ->.
    { destruct HM as [E|[_ E]]; [congruence|]. exfalso. eapply E; eauto. }
    constructor; auto; try (intros Ha'; destruct (Hna Ha')).
    rewrite dead_tr; auto. apply HD.
Qed.

Lemma disciplined_DInv ls : forall m, DInv m -> disciplined m ls -> DInv (fold_left mstep ls m).
Proof.
  induction ls as [|l ls IH]; cbn; intros m H D; auto. destruct D as [D1 D2]. apply IH; auto. now apply mstep_DInv.
Qed.
