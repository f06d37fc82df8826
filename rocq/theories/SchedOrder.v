(** Order of execution at one instant. *)
From Verif Require Import Base SchedModel SchedSpec SchedInv SchedProofs SchedTrace SchedMoves.
From Coq Require Import Permutation.

#[local] Opaque hold_id i64_max i64_min.
#[local] Arguments next_key K t : simpl never.

(** What a call adds to a table. *)
Lemma api_tbl s c r x k : tok (tbl s) -> api s c = Ok r -> In x (tget k (tbl (r_st r))) ->
  In x (tget k (tbl s)) \/ (is_add c = true /\ x = r_id r) \/
  exists t m, (c = SetSim x t \/ c = SetMission x t \/ c = SetEpoch x t) /\ now s <= k /\
              forall m', sc m' = s -> ret_log m' c r = [TSetTime x k m] /\ m = now s.
Proof.
  intros Ht Ha.
  assert (Hc : forall q, is_add c = true -> commit_add s q = Ok r -> In x (tget k (tbl (r_st r))) ->
     In x (tget k (tbl s)) \/ (is_add c = true /\ x = r_id r) \/
     exists t m, (c = SetSim x t \/ c = SetMission x t \/ c = SetEpoch x t) /\ now s <= k /\
              forall m', sc m' = s -> ret_log m' c r = [TSetTime x k m] /\ m = now s).
  { intros q Hi. unfold commit_add. destruct (last s <? i64_max); [|discriminate]. intros [= <-]. cbn.
    rewrite in_tins. intros [[-> ->]|]; auto. }
  assert (Hs : forall id sim t kd, set_event_time s id sim t kd = Ok r -> In x (tget k (tbl (r_st r))) ->
     In x (tget k (tbl s)) \/ (x = id /\ k = sim /\ now s <= k)).
  { intros id sim t kd. unfold set_event_time. destruct (mget id (evs s)) as [e|]; [|discriminate].
    destruct (negb _); [discriminate|]. destruct (Z.ltb_spec sim (now s)); intros [= <-]; cbn.
    - rewrite in_tdel by auto. tauto.
    - rewrite in_tins, in_tdel by auto. intros [[-> ->]|[? _]]; auto. }
  destruct c; cbn [api build_add] in Ha;
  try (destruct (_ && _); [|discriminate]);
  try (destruct (in_i64 _); [|discriminate]);
  try (cbn in Ha; unfold check_add in Ha;
       destruct (_ <? _); [discriminate|]; destruct (negb _ && _); [discriminate|]; cbn in Ha;
       eapply Hc; eauto; fail);
  try (intros Hin; destruct (Hs _ _ _ _ Ha Hin) as [|(->&->&?)]; [auto|];
       right; right; exists t, (now s); split; [auto|split; [auto|intros m' <-; split; reflexivity]]).
  - destruct (_ <? _); [|discriminate]. injection Ha as <-. cbn. auto.
  - destruct (t <? z); [discriminate|]. destruct (negb _ && _); [discriminate|].
    destruct (_ <? _); [|discriminate]. injection Ha as <-. cbn. auto.
  - unfold set_event_zulu in Ha. destruct (mget id (evs s)) as [e|]; [|discriminate].
    destruct (negb _); [discriminate|]. destruct (t <? z); injection Ha as <-; cbn; auto.
  - destruct (mget id (evs s)) as [e|]; [|discriminate]. destruct (_ && _); [discriminate|]. injection Ha as <-. cbn; auto.
  - destruct (mget id (evs s)) as [e|]; [|discriminate]. destruct (_ && _); [discriminate|]. injection Ha as <-. cbn; auto.
  - unfold remove_event in Ha. destruct (mget id (evs s)) as [e|]; [|discriminate]. destruct (cur s =? id).
    + injection Ha as <-. cbn; auto.
    + destruct (tkind_eqb (ev_kind e) KZulu).
      * destruct (sdel _ _); injection Ha as <-; cbn; auto.
        rewrite tget_mdel by apply Ht. destruct (k =? ev_next e); [intros []|auto].
      * injection Ha as <-. cbn. rewrite in_tdel by auto. tauto.
  - injection Ha as <-. cbn; auto.
  - injection Ha as <-. cbn; auto.
  - injection Ha as <-. cbn; auto.
  - destruct (set_sim_time s t) as [s'| |] eqn:E; try discriminate. injection Ha as <-.
    apply set_sim_time_ok in E as [[-> _]|(->&_)]; cbn; auto.
Qed.

Lemma api_ztbl s c r x k : tok (ztbl s) -> api s c = Ok r -> In x (tget k (ztbl (r_st r))) ->
  In x (tget k (ztbl s)) \/ (exists ep cc rr z, c = AddZulu ep k cc rr z /\ z <= k /\ x = r_id r) \/
  exists z, c = SetZulu x k z /\ z <= k.
Proof.
  intros Ht Ha.
  destruct c; cbn [api build_add] in Ha;
  try (destruct (_ && _); [|discriminate]);
  try (destruct (in_i64 _); [|discriminate]);
  try (cbn in Ha; unfold check_add in Ha;
       destruct (_ <? now _); [discriminate|]; destruct (negb _ && _); [discriminate|]; cbn in Ha;
       unfold commit_add in Ha; destruct (_ <? _); [|discriminate]; injection Ha as <-; cbn; auto; fail);
  try (unfold set_event_time in Ha; destruct (mget id (evs s)) as [e|]; [|discriminate];
       destruct (negb _); [discriminate|]; destruct (_ <? now s); injection Ha as <-; cbn; auto; fail).
  - destruct (_ <? _); [|discriminate]. injection Ha as <-. cbn. auto.
  - destruct (Z.ltb_spec t z); [discriminate|]. destruct (negb _ && _); [discriminate|].
    destruct (_ <? _); [|discriminate]. injection Ha as <-. cbn. rewrite in_tins.
    intros [[-> ->]|]; auto. right. left. eauto 10.
  - unfold set_event_zulu in Ha. destruct (mget id (evs s)) as [e|]; [|discriminate].
    destruct (negb _); [discriminate|]. destruct (Z.ltb_spec t z); injection Ha as <-; cbn.
    + rewrite tget_mset. destruct (Z.eqb_spec k (ev_next e)) as [->|]; auto.
      intros Hin. apply in_sdel_incl in Hin. auto.
    + rewrite in_tins, tget_mset. intros [[-> ->]|Hin]; eauto.
      destruct (Z.eqb_spec k (ev_next e)) as [->|]; auto. apply in_sdel_incl in Hin. auto.
  - destruct (mget id (evs s)) as [e|]; [|discriminate]. destruct (_ && _); [discriminate|]. injection Ha as <-. cbn; auto.
  - destruct (mget id (evs s)) as [e|]; [|discriminate]. destruct (_ && _); [discriminate|]. injection Ha as <-. cbn; auto.
  - unfold remove_event in Ha. destruct (mget id (evs s)) as [e|]; [|discriminate]. destruct (cur s =? id).
    + injection Ha as <-. cbn; auto.
    + destruct (tkind_eqb (ev_kind e) KZulu).
      * assert (E : ztbl (r_st r) = mset (ev_next e) (sdel id (tget (ev_next e) (ztbl s))) (ztbl s)).
        { destruct (sdel _ _); injection Ha as <-; reflexivity. }
        rewrite E, tget_mset. destruct (Z.eqb_spec k (ev_next e)) as [->|]; auto.
        intros Hin. apply in_sdel_incl in Hin. auto.
      * injection Ha as <-. cbn. auto.
  - injection Ha as <-. cbn; auto.
  - injection Ha as <-. cbn; auto.
  - injection Ha as <-. cbn; auto.
  - destruct (set_sim_time s t) as [s'| |] eqn:E; try discriminate. injection Ha as <-.
    apply set_sim_time_ok in E as [[-> _]|(->&_)]; cbn; auto.
Qed.

(** ** Order invariants *)
Definition before (a b : Z) : Prop := a = hold_id \/ a < b.

Definition OrdI (m : mach) : Prop :=
  ssorted (FIc (ctl m)) /\ forall a b, In a (FIc (ctl m)) -> In b (imm (sc m)) -> a < b.

Definition OrdE (m : mach) : Prop :=
  ssorted (FEc (ctl m)) /\
  forall a b, In a (FEc (ctl m)) -> In b (tget (now (sc m)) (tbl (sc m))) -> before a b.

Lemma ssorted_tail x l : ssorted (x :: l) -> ssorted l.
Proof. intros H. now apply ssorted_cons in H. Qed.

Lemma in_ids m id : MLive m -> In id (IM m) -> id <= last (sc m) \/ id = hold_id.
Proof.
  intros HL Hin. apply IM_ids in Hin as (e&He&_); auto.
  apply (i_ids _ _ _ _ (m_s _ HL)) in He. lia.
Qed.

(** An immediate event has an id returned by a call. *)
Definition imm_user (m : mach) : Prop := forall id, In id (IM m) -> id <= last (sc m).

Lemma OrdE_nil m : FEc (ctl m) = [] -> OrdE m.
Proof. intros E. unfold OrdE. rewrite E. split; [apply ssorted_nil|intros ? ? []]. Qed.

Lemma OrdI_nil m : FIc (ctl m) = [] -> OrdI m.
Proof. intros E. unfold OrdI. rewrite E. split; [apply ssorted_nil|intros ? ? []]. Qed.

Lemma OrdE_sub m m' : OrdE m -> ssorted (FEc (ctl m')) -> (forall a, In a (FEc (ctl m')) -> In a (FEc (ctl m))) ->
  (forall b, In b (tget (now (sc m')) (tbl (sc m'))) -> In b (tget (now (sc m)) (tbl (sc m)))) -> OrdE m'.
Proof. intros [H1 H2] Hs Ha Hb. split; auto. Qed.

Lemma OrdI_sub m m' : OrdI m -> ssorted (FIc (ctl m')) -> (forall a, In a (FIc (ctl m')) -> In a (FIc (ctl m))) ->
  (forall b, In b (imm (sc m')) -> In b (imm (sc m))) -> OrdI m'.
Proof. intros [H1 H2] Hs Ha Hb. split; auto. Qed.

Lemma finish_now s id s' FI FE ZF : SInv s FI (id :: FE) ZF -> finish s id = inr s' ->
  now s' = now s /\ forall x, In x (tget (now s) (tbl s')) -> In x (tget (now s) (tbl s)).
Proof.
  intros H. destruct (i_fe _ _ _ _ H id) as (e&He&Hn&Hk); [cbn; auto|].
  unfold finish. rewrite He. destruct (Z.eqb_spec (ev_repeat e) 0) as [|Hr]; [intros [= <-]; cbn; auto|].
  destruct (_ && _); [|discriminate]. intros [= <-]. cbn. split; auto.
  intros x. rewrite in_tins. intros [[E _]|]; auto. pose proof (i_cyc _ _ _ _ H _ _ He Hr). lia.
Qed.

Lemma FE_after_evt m s K rest : alive (after_evt m s K rest) ->
  FEc (ctl (after_evt m s K rest)) = [] \/
  (FEc (ctl (after_evt m s K rest)) = rest /\ sc (after_evt m s K rest) = s).
Proof.
  unfold after_evt, stop_events. destruct (hold s); [|auto]. destruct (dang m); [|auto].
  intros Ha; exact (dead_false _ _ _ Ha).
Qed.

Lemma FE_after_imm m s rest b : alive (after_imm m s rest b) ->
  FEc (ctl (after_imm m s rest b)) = [] \/
  (FEc (ctl (after_imm m s rest b)) = back_rest b /\ sc (after_imm m s rest b) = s).
Proof.
  unfold after_imm, stop_imm, stop_events. destruct (hold s); [|auto]. destruct b; auto. destruct (dang m); auto.
Qed.

Lemma FI_after_imm m s rest b : alive (after_imm m s rest b) ->
  FIc (ctl (after_imm m s rest b)) = [] \/
  (FIc (ctl (after_imm m s rest b)) = rest /\ sc (after_imm m s rest b) = s).
Proof.
  unfold after_imm, stop_imm, stop_events. destruct (hold s); [|auto]. destruct b; auto. destruct (dang m); auto.
Qed.

Lemma FI_after_evt m s K rest : FIc (ctl (after_evt m s K rest)) = [].
Proof. unfold after_evt, stop_events. destruct (hold s); [|reflexivity]. destruct (dang m); reflexivity. Qed.

Lemma FE_user m a : MLive m -> In a (FEc (ctl m)) -> a <= last (sc m) \/ a = hold_id.
Proof.
  intros HL Hin. destruct (i_fe _ _ _ _ (m_s _ HL) _ Hin) as (e&He&_).
  apply (i_ids _ _ _ _ (m_s _ HL)) in He. lia.
Qed.

Lemma move_OrdE m l m' : MLive m -> alive m' -> no_retime_to_now (tr m') -> move m l m' -> OrdE m -> OrdE m'.
Proof.
  intros HL Ha Hnr Hm HO. pose proof (m_s _ HL) as HS. pose proof (m_ctl _ HL) as Hc.
  destruct Hm as [E1 E2 E3 E4 E5|E1 E2|E1|b E1 E2 E3|K o s' E1 E2|K b rest E1 E2 E3 E4
    |id rest b e E1 He E2|id K rest e E1 He E2|K E1 E2|K E1 E2|K E1 E2|K E1 E2 E3
    |id rest b s' E1 E2 E3|id K rest s' E1 E2 E3|id K rest e s' E1 He Hs E2 E3|K E1 E2 E3 E4
    |c r E1 E2 E3 E0|q r n E1 E2 E2' E3|K z E1 E2 El Emin E3 E4 E5 E6 E7|K E1 E2 E3|K E1 E2 E3|id K rest s' E1 E2 E3
    |id K rest e E1 He E2|id K rest s' E1 E2 E3]; subst; try exact HO.
  - unfold OrdE in *. rewrite E1, E2. exact HO.
  - now apply OrdE_nil.
  - unfold OrdE in *. rewrite E1 in HO. exact HO.
  - apply OrdE_nil. destruct o; reflexivity.
  - unfold OrdE in *. rewrite E1 in HO. unfold FEc in *. cbn in *.
    destruct E2 as [[-> ->]| ->]; exact HO.
  - unfold OrdE in *. rewrite E1 in HO. exact HO.
  - unfold OrdE in *. rewrite E1 in HO. exact HO.
  - now apply OrdE_nil.
  - now apply OrdE_nil.
  - now apply OrdE_nil.
  - rewrite E1 in Hc. cbn in Hc. destruct Hc as (Hn&HK&_). split.
    + cbn. unfold FEc. cbn. apply (i_tbl _ _ _ _ HS).
    + intros a b _. cbn. rewrite Hn, tget_mset, Z.eqb_refl. intros [].
  - destruct (FE_after_imm _ _ _ _ Ha) as [E|[E Es]]; [now apply OrdE_nil|].
    unfold OrdE in *. rewrite E, Es. rewrite E1 in HO, HS. unfold FEc in HO. cbn in HO. unfold FIc, FEc in HS. cbn in HS.
    assert (HS0 : SInv (set_cur (-1) (sc m)) (id :: rest) (back_rest b) (ZFc (zc m))) by (eapply SInv_misc; eauto).
    destruct (finish_fi_ok _ _ _ _ _ _ HS0 E2) as (_&->&_&->&_). exact HO.
  - destruct (FE_after_evt _ _ _ _ Ha) as [E|[E Es]]; [now apply OrdE_nil|].
    rewrite E1 in HS. unfold FIc, FEc in HS. cbn in HS.
    assert (HS0 : SInv (set_cur (-1) (sc m)) [] (id :: rest) (ZFc (zc m))) by (eapply SInv_misc; eauto).
    destruct (finish_now _ _ _ _ _ _ HS0 E2) as (Hn&Hsub). cbn in Hn, Hsub.
    eapply OrdE_sub; [exact HO|..]; rewrite ?E, ?Es, ?E1.
    + destruct HO as [HO _]. rewrite E1 in HO. now apply ssorted_tail in HO.
    + intros a Hin. now right.
    + rewrite Hn. exact Hsub.
  - destruct (FE_after_evt _ _ _ _ Ha) as [E|[E Es]]; [now apply OrdE_nil|].
    rewrite E1 in HS. unfold FIc, FEc in HS. cbn in HS.
    destruct (finish_now _ _ _ _ _ _ HS E2) as (Hn&Hsub).
    eapply OrdE_sub; [exact HO|..]; rewrite ?E, ?Es, ?E1.
    + destruct HO as [HO _]. rewrite E1 in HO. now apply ssorted_tail in HO.
    + intros a Hin. now right.
    + rewrite Hn. exact Hsub.
  - now apply OrdE_nil.
  - (* call *)
    destruct (FEc (ctl m)) as [|x0 FE0] eqn:EF; [now apply OrdE_nil|].
    assert (Hw : window (sc m) = false).
    { destruct (window (sc m)) eqn:Ew; auto. rewrite (MLive_FE_window _ HL) in EF by auto. discriminate. }
    assert (Hn : now (r_st r) = now (sc m)).
    { destruct c; try (apply (proj2 (proj2 (api_add_id _ _ _ E1))); discriminate).
      cbn in E1. unfold set_sim_time in E1. rewrite Hw in E1. cbn in E1. now injection E1 as <-. }
    destruct HO as [HO1 HO2]. split; cbn; auto. intros a b Hina Hinb. rewrite Hn in Hinb.
    destruct (api_tbl _ _ _ _ _ (i_tbl _ _ _ _ HS) E1 Hinb) as [Hb|[(Hi&Hb)|(t&n&_&Hge&Hl)]].
    + now apply HO2.
    + subst b. destruct (api_is_add _ _ _ E1 Hi) as (_&_&->).
      destruct (FE_user _ _ HL Hina) as [|]; [right; lia|left; auto].
    + destruct (Hl m eq_refl) as [Hl' ->].
      exfalso. eapply (Hnr b (now (sc m)) (now (sc m))); auto. cbn. rewrite Hl'. now left.
  - (* commit *)
    destruct HO as [HO1 HO2]. split; cbn; auto. intros a b Hina.
    unfold commit_add in E1. destruct (last (sc m) <? i64_max); [|discriminate]. injection E1 as <-. cbn.
    rewrite in_tins. intros [[_ ->]|Hinb]; [|now apply HO2].
    destruct (FE_user _ _ HL Hina) as [|]; [right; lia|left; auto].
  - unfold OrdE in *. rewrite E3, E4. exact HO.
  - unfold OrdE in *. cbn. destruct (zfinish_frame _ _ _ E2) as (_&->&->). exact HO.
  - unfold OrdE in *. cbn. destruct (zfinish_frame _ _ _ E2) as (_&->&->). exact HO.
Qed.

Lemma IM_user m : MLive m -> ImmLink m -> Link m -> imm_user m -> forall a, In a (IM m) -> a <= last (sc m).
Proof. auto. Qed.

Lemma move_OrdI m l m' : MLive m -> alive m' -> move m l m' -> imm_user m -> OrdI m -> OrdI m'.
Proof.
  intros HL Ha Hm HU HO. pose proof (m_s _ HL) as HS. pose proof (m_ctl _ HL) as Hc.
  destruct Hm as [E1 E2 E3 E4 E5|E1 E2|E1|b E1 E2 E3|K o s' E1 E2|K b rest E1 E2 E3 E4
    |id rest b e E1 He E2|id K rest e E1 He E2|K E1 E2|K E1 E2|K E1 E2|K E1 E2 E3
    |id rest b s' E1 E2 E3|id K rest s' E1 E2 E3|id K rest e s' E1 He Hs E2 E3|K E1 E2 E3 E4
    |c r E1 E2 E3 E0|q r n E1 E2 E2' E3|K z E1 E2 El Emin E3 E4 E5 E6 E7|K E1 E2 E3|K E1 E2 E3|id K rest s' E1 E2 E3
    |id K rest e E1 He E2|id K rest s' E1 E2 E3]; subst; try exact HO;
    try (apply OrdI_nil; try apply FI_after_evt; reflexivity).
  - unfold OrdI in *. rewrite E1, E2. exact HO.
  - split.
    + cbn. unfold FIc. cbn. apply (i_imm _ _ _ _ HS).
    + intros a b' _ [].
  - apply OrdI_nil. destruct o; reflexivity.
  - unfold OrdI in *. rewrite E1 in HO. exact HO.
  - destruct (FI_after_imm _ _ _ _ Ha) as [E|[E Es]]; [now apply OrdI_nil|].
    eapply OrdI_sub; [exact HO|..]; rewrite ?E, ?Es, ?E1.
    + destruct HO as [HO _]. rewrite E1 in HO. now apply ssorted_tail in HO.
    + intros a Hin. now right.
    + rewrite (finish_imm _ _ _ E2). auto.
  - destruct HO as [HO1 HO2]. split; cbn; auto. intros a b Hina. rewrite (api_imm _ _ _ E1).
    destruct c; try (apply HO2; assumption). rewrite in_sins. intros [->|]; [|now apply HO2].
    destruct (api_is_add _ _ _ E1 eq_refl) as (_&_&->).
    specialize (HU a). unfold IM in HU. rewrite in_app_iff in HU. specialize (HU (or_intror Hina)). lia.
  - unfold commit_add in E1. destruct (last (sc m) <? i64_max); [|discriminate]. injection E1 as <-. exact HO.
  - unfold OrdI in *. rewrite E3, E4. exact HO.
  - unfold OrdI in *. cbn. destruct (zfinish_frame _ _ _ E2) as (->&_). exact HO.
  - unfold OrdI in *. cbn. destruct (zfinish_frame _ _ _ E2) as (->&_). exact HO.
Qed.
