(** Invariant of a timed run. *)
From Verif Require Import Base SchedModel SchedSpec SchedInv SchedProofs SchedTrace SchedMoves SchedOrder SchedHist
  SchedFacts SchedLive TimedModel TimedSpec.
From Coq Require Import Permutation.

#[local] Opaque hold_id i64_max i64_min.
#[local] Arguments next_key K t : simpl never.

(** ** The hold flag changes only by LHold and LRun *)
Lemma stop_events_hold m s K rest : alive (stop_events m s K rest) -> hold (sc (stop_events m s K rest)) = hold s.
Proof. unfold stop_events. destruct (dang m); [intros H; exfalso; eapply H; reflexivity|reflexivity]. Qed.

Lemma mstep_hold_flag m l : l <> LHold -> l <> LRun -> hold (sc m) = false -> hold (sc (mstep m l)) = false.
Proof.
  intros N1 N2 Hh. unfold mstep. destruct (ctl m) eqn:E; auto; destruct l; try contradiction; auto;
  try (unfold call; destruct (api (sc m) c) as [r| |] eqn:Ea; auto; cbn; now rewrite (api_hold _ _ _ Ea));
  try (unfold begin_add; destruct (build_add (sc m) c) as [[q| |]|]; auto; destruct (check_add _ _); now auto);
  try (unfold commit; destruct (nth_error _ _) as [q|]; auto; unfold commit_add; destruct (_ <? _); now auto);
  try (unfold ztick; destruct (zc m); auto; destruct (ztbl (sc m)) as [|[] ]; auto; destruct (_ <=? _); now auto);
  try (unfold ztau; destruct (zc m) as [|Kz [|i rz]|]; auto; [destruct (tget _ _); now auto|];
       destruct (mget _ _); auto; destruct (negb _);
         [destruct (zfinish _ _) eqn:Ez; auto; cbn; now rewrite (zfinish_hold _ _ _ Ez)|destruct (sim_ep_running _); now auto]);
  try (unfold zend; destruct (zc m); auto; destruct (zfinish _ _) eqn:Ez; auto; cbn; now rewrite (zfinish_hold _ _ _ Ez));
  unfold tau, timeout, end_ep; rewrite E; auto.
  - destruct rest as [|id rest].
    + destruct (imm (sc m)); auto. unfold imm_return. destruct b; auto. unfold loop_head.
      destruct (tbl (sc m)) as [|[] ]; auto.
    + destruct (mget _ _); auto. destruct (skips _ _).
      * destruct (finish _ _) eqn:Ef; auto. apply finish_hold in Ef. rewrite after_imm_go by congruence. cbn. congruence.
      * destruct (zulu_running m); auto.
  - destruct (finish _ _) eqn:Ef; auto. apply finish_hold in Ef. cbn in Ef. rewrite after_imm_go by congruence. cbn. congruence.
  - rewrite Hh. destruct (dang m); auto.
  - now rewrite Hh.
  - destruct (dang m); auto. destruct (set_sim_time _ _) eqn:Es; auto.
    apply set_sim_time_ok in Es as [[-> _]|(->&_)]; auto.
  - destruct rest as [|id rest].
    + destruct (dang m); auto. destruct (tget _ _); auto. unfold loop_head. destruct (next_key _ _); auto.
    + destruct (mget _ _); auto. destruct (skips _ _).
      * destruct (finish _ _) eqn:Ef; auto. apply finish_hold in Ef. rewrite after_evt_go by congruence. cbn. congruence.
      * destruct (zulu_running m); auto.
  - destruct (finish _ _) eqn:Ef; auto. apply finish_hold in Ef. cbn in Ef. rewrite after_evt_go by congruence. cbn. congruence.
Qed.

(** ** Steps of others *)
Definition outside (l : label) : Prop :=
  match l with LCall _ | LBegin _ | LCommit _ | LZTick _ | LZTau _ | LZEnd => True | _ => False end.

Lemma outside_ctl m l : outside l -> alive (mstep m l) -> ctl (mstep m l) = ctl m.
Proof.
  intros Ho. unfold mstep. destruct (ctl m) eqn:E; auto; destruct l; try contradiction; intros Ha;
  try (unfold call in *; destruct (api (sc m) c) as [r| |] eqn:Ea; auto; exfalso; eapply Ha; reflexivity);
  try (unfold begin_add in *; destruct (build_add (sc m) c) as [[q| |]|]; auto; [destruct (check_add _ _); now auto|exfalso; eapply Ha; reflexivity]);
  try (unfold commit in *; destruct (nth_error _ _) as [q|]; auto; unfold commit_add in *; destruct (_ <? _); auto; exfalso; eapply Ha; reflexivity);
  try (unfold ztick in *; destruct (zc m); auto; destruct (ztbl (sc m)) as [|[] ]; auto; destruct (_ <=? _); now auto);
  try (unfold ztau in *; destruct (zc m) as [|Kz [|i rz]|]; auto; [destruct (tget _ _); now auto|];
       destruct (mget _ _); [|exfalso; eapply Ha; reflexivity]; destruct (negb _);
         [destruct (zfinish _ _) eqn:Ez; auto; exfalso; eapply Ha; reflexivity
         |rewrite E in *; cbn [sim_ep_running] in *; now auto]);
  try (unfold zend in *; destruct (zc m); auto; destruct (zfinish _ _) eqn:Ez; auto; exfalso; eapply Ha; reflexivity).
Qed.

Lemma life_other_tev h x o : (match x with
  | TAdd i _ _ _ _ _ | TSetTime i _ _ | TCycle i _ | TRepeat i _ | TRemove i | TStart i _ _ | TZulu i _ _ | TEnd i | TSkip i => i <> h
  | TPostImm _ | TTime _ => True end) -> life_step h x o = o.
Proof. destruct x; cbn; auto; intros N; apply Z.eqb_neq in N; now rewrite N. Qed.

Lemma add_gets_next s c r : api s c = Ok r ->
  match c with AddImm _ | AddSim _ _ _ _ | AddMission _ _ _ _ | AddEpoch _ _ _ _ | AddZulu _ _ _ _ _ => True | _ => False end ->
  r_id r = last s + 1.
Proof.
  intros Ha Hc. destruct c; try contradiction; cbn in Ha; unfold bind, check_add, commit_add in Ha;
  repeat (match type of Ha with
  | context [if ?b then _ else _] => destruct b
  | context [match ?x with _ => _ end] => destruct x eqn:?
  end; try discriminate); injection Ha as <-; reflexivity.
Qed.

Lemma ret_log_life m c r h : api (sc m) c = Ok r -> about_other h c -> h <= last (sc m) ->
  life_of h (ret_log m c r ++ tr m) = life_of h (tr m).
Proof.
  intros Ha Ho Hh. pose proof (proj1 (api_add_id _ _ _ Ha)) as Hid.
  pose proof (add_gets_next _ _ _ Ha) as Hr.
  destruct c; cbn [ret_log app life_of]; try (rewrite Hr by exact I); cbn [about_other] in Ho;
    try (rewrite life_other_tev; [reflexivity|cbn; first [exact Ho|lia|exact I] ]); auto.
  destruct (sim_ep_running (ctl m)); cbn [app life_of]; rewrite ?life_other_tev; try reflexivity; cbn; try exact I; lia.
Qed.

Lemma outside_life m l h L : MLive m -> Link m -> outside l -> quiet h false l \/ quiet h true l -> alive (mstep m l) ->
  life_of h (tr m) = Some L -> lkind L = KSim -> h <= last (sc m) -> life_of h (tr (mstep m l)) = Some L.
Proof.
  intros HL Hk Ho Hq Ha Hl HK Hh. rewrite <- Hl.
  destruct (ev_of_life _ _ _ Hk Hl) as (e&He&_&_&_&Hkd&_).
  assert (Hz : forall i, In i (ZFc (zc m)) -> i <> h).
  { intros i Hi ->. pose proof (zf_kind _ _ _ HL Hi He). congruence. }
  assert (Hab : forall c, l = LCall c -> about_other h c) by (intros c ->; destruct Hq as [[? _]|[? _]]; auto).
  unfold mstep in *. destruct (ctl m) eqn:E; auto; destruct l; try contradiction;
  try (unfold call in *; destruct (api (sc m) c) as [r| |] eqn:Ea; auto; cbn; apply ret_log_life; now auto);
  try (unfold begin_add in *; destruct (build_add (sc m) c) as [[q| |]|]; auto; [destruct (check_add _ _); now auto]);
  try (unfold commit in *; destruct (nth_error _ _) as [q|]; auto; unfold commit_add in *; destruct (_ <? _); auto;
       cbn [tr log set_pend goto life_of r_id]; apply life_other_tev; lia);
  try (unfold ztick in *; destruct (zc m); auto; destruct (ztbl (sc m)) as [|[] ]; auto; destruct (_ <=? _); now auto);
  try (unfold ztau in *; destruct (zc m) as [|Kz [|i rz]|] eqn:Ez0; auto; [destruct (tget _ _); now auto|];
       assert (i <> h) as Ni by (apply Hz; now left);
       destruct (mget i _); [|exfalso; eapply Ha; reflexivity]; destruct (negb _);
         [destruct (zfinish _ _) eqn:Ez; auto; cbn [tr zgoto log life_of]; now apply life_other_tev
         |rewrite E in *; cbn [sim_ep_running] in *; auto; cbn [tr zgoto log life_of]; now apply life_other_tev]);
  try (unfold zend in *; destruct (zc m) eqn:Ez0; auto; assert (id <> h) as Ni by (apply Hz; now left);
       destruct (zfinish _ _) eqn:Ez; auto; cbn [tr zgoto log life_of]; now apply life_other_tev).
  all: unfold zend in *; destruct (zc m) eqn:Ez0; auto.
  all: match goal with |- context [zfinish _ ?i] => assert (i <> h) as Ni by (apply Hz; now left) end;
       destruct (zfinish _ _) eqn:Ez; auto; cbn [tr zgoto log life_of]; now apply life_other_tev.
Qed.

(** ** The simulation thread *)
Lemma idle_empty m l : MLive m -> hold (sc m) = false -> own l -> ctl m <> Idle -> ctl (mstep m l) = Idle ->
  forall k, ~ In k (keys (tbl (sc (mstep m l)))).
Proof.
  intros HL Hh Hl Hi. pose proof (m_s _ HL) as HS. pose proof (m_ctl _ HL) as Hc. pose proof (m_dang _ HL) as Hd.
  unfold mstep. destruct (ctl m) eqn:E; try contradiction; destruct Hl as [->|[->| ->]]; unfold tau, timeout, end_ep; rewrite E; try congruence.
  - destruct rest as [|id rest].
    + destruct (imm (sc m)); [|discriminate]. unfold imm_return. destruct b; try discriminate. unfold loop_head.
      destruct (tbl (sc m)) as [|[] ] eqn:Et; [|discriminate]. intros _ k. cbn. now rewrite Et.
    + destruct (mget _ _); [|discriminate]. destruct (skips _ _).
      * destruct (finish _ _) eqn:Ef; [discriminate|]. apply finish_hold in Ef. rewrite after_imm_go by congruence. discriminate.
      * destruct (zulu_running m); congruence || discriminate.
  - destruct (finish _ _) eqn:Ef; [discriminate|]. apply finish_hold in Ef. cbn in Ef. rewrite after_imm_go by congruence. discriminate.
  - rewrite Hh. destruct (dang m); discriminate.
  - rewrite Hh. congruence.
  - destruct (dang m); [discriminate|]. destruct (set_sim_time _ _); discriminate.
  - discriminate.
  - destruct rest as [|id rest].
    + rewrite Hd. destruct (tget _ _); [|discriminate]. unfold loop_head. destruct (next_key _ _) eqn:En; [discriminate|].
      intros _ k. cbn. intros Hin. pose proof (i_tbl _ _ _ _ HS) as Ht.
      assert (msorted (tbl (sc m))) as Hs by apply Ht.
      apply (keys_mdel _ _ _ Hs) in Hin as [Hne Hin]. pose proof (next_key_none _ _ _ En Hin). pose proof (i_keys _ _ _ _ HS _ Hin).
      cbn in Hc. destruct Hc as [Hc _]. lia.
    + destruct (mget _ _); [|discriminate]. destruct (skips _ _).
      * destruct (finish _ _) eqn:Ef; [discriminate|]. apply finish_hold in Ef. rewrite after_evt_go by congruence. discriminate.
      * destruct (zulu_running m); congruence || discriminate.
  - destruct (finish _ _) eqn:Ef; [discriminate|]. apply finish_hold in Ef. cbn in Ef. rewrite after_evt_go by congruence. discriminate.
Qed.

Definition waits (T h : Z) (m : mach) : Prop := exists r, life_of h (tr m) = Some (Life T 0 0 KSim false r).

Definition at_end (T : Z) (c : ctrl) : Prop :=
  match c with
  | ImmGo _ (BEvt K _) | ImmRun _ _ (BEvt K _) | EvtGo K _ | EvtRun _ K _ => K = T
  | Pre K => T < K
  | _ => False
  end.

Lemma end_step T m l : MLive m -> alive (mstep m l) -> hold (sc m) = false -> now (sc m) = T -> at_end T (ctl m) -> own l ->
  (forall K, ctl m = Pre K -> l <> LTau) ->
  now (sc (mstep m l)) = T /\ (at_end T (ctl (mstep m l)) \/ ctl (mstep m l) = Idle).
Proof.
  intros HL Ha Hh Hn Hc Hl Hp. pose proof (m_s _ HL) as HS. pose proof (m_dang _ HL) as Hd.
  unfold mstep in *. destruct (ctl m) eqn:E; try contradiction; destruct Hl as [->|[->| ->]]; unfold tau, timeout, end_ep in *; rewrite E in *;
    try (rewrite E; now auto).
  - destruct rest as [|id rest].
    + destruct (imm (sc m)); [|cbn; now auto]. unfold imm_return. destruct b; try contradiction. cbn. auto.
    + destruct (mget _ _); [|exfalso; eapply Ha; reflexivity]. destruct (skips _ _).
      * destruct (finish _ _) eqn:Ef; [exfalso; eapply Ha; reflexivity|]. pose proof (finish_now _ _ _ Ef). apply finish_hold in Ef. rewrite after_imm_go by congruence.
        cbn. split; [congruence|]. left. destruct b; auto.
      * destruct (zulu_running m); [rewrite E; now auto|]. cbn. split; auto.
  - destruct (finish _ _) eqn:Ef; [exfalso; eapply Ha; reflexivity|]. pose proof (finish_now _ _ _ Ef). apply finish_hold in Ef. cbn in Ef. rewrite after_imm_go by congruence.
    cbn in *. split; [congruence|]. left. destruct b; auto.
  - exfalso. eapply Hp; eauto.
  - destruct rest as [|id rest].
    + rewrite Hd in *. destruct (tget _ _); [|cbn; now auto]. unfold loop_head. destruct (next_key _ _) eqn:En; [|cbn; now auto].
      cbn. split; auto. left. cbn in Hc. subst K. apply next_key_some in En; [apply En|apply (i_tbl _ _ _ _ HS)].
    + destruct (mget _ _); [|exfalso; eapply Ha; reflexivity]. destruct (skips _ _).
      * destruct (finish _ _) eqn:Ef; [exfalso; eapply Ha; reflexivity|]. pose proof (finish_now _ _ _ Ef). apply finish_hold in Ef. rewrite after_evt_go by congruence.
        cbn. split; [congruence|]. auto.
      * destruct (zulu_running m); [rewrite E; now auto|]. cbn. split; auto.
  - destruct (finish _ _) eqn:Ef; [exfalso; eapply Ha; reflexivity|]. pose proof (finish_now _ _ _ Ef). apply finish_hold in Ef. cbn in Ef. rewrite after_evt_go by congruence.
    cbn in *. split; [congruence|]. auto.
Qed.

(** While the event waits: it keeps waiting, or it is its entry point that ends. *)
Lemma wait_step T h m l : MLive m -> Link m -> ImmLink m -> alive (mstep m l) -> hold (sc m) = false -> waits T h m -> own l ->
  (waits T h (mstep m l) /\ (l = LEnd -> match ctl m with ImmRun i _ _ | EvtRun i _ _ => i <> h | _ => True end)) \/
  (l = LEnd /\ exists rest, ctl m = EvtRun h T rest /\ ctl (mstep m l) = ImmGo [] (BEvt T rest) /\
   now (sc (mstep m l)) = T /\ life_of h (tr (mstep m l)) = None).
Proof.
  intros HL Hk HI Ha Hh [r Hr] Hl. pose proof (m_s _ HL) as HS. pose proof (m_ctl _ HL) as Hc.
  destruct (ev_of_life _ _ _ Hk Hr) as (e&He&Hdue&_&Hrep&Hkd&_). cbn in Hdue, Hkd, Hrep.
  assert (Himm : ~ In h (IM m)) by (intros H; apply (HI _ _ Hr) in H; discriminate).
  assert (Hsame : tr (mstep m l) = tr m -> waits T h (mstep m l)) by (unfold waits; intros ->; now exists r).
  assert (Hone : forall x, tr (mstep m l) = x :: tr m -> (match x with
    | TStart i _ _ => True | TEnd i => i <> h | TSkip i => i <> h | TTime _ => True | _ => False end) -> waits T h (mstep m l)).
  { unfold waits. intros x -> Hx. cbn. rewrite Hr. destruct x; try contradiction; cbn; eauto.
    - destruct (_ =? h); eauto.
    - apply Z.eqb_neq in Hx. rewrite Hx. eauto.
    - apply Z.eqb_neq in Hx. rewrite Hx. eauto. }
  unfold mstep in *. destruct (ctl m) eqn:E;
    (destruct Hl as [->|[->| ->]]; unfold tau, timeout, end_ep in *; rewrite E in *;
     try (left; split; [apply Hsame; reflexivity|discriminate || (intros _; exact I)])).
  - left. split; [|discriminate]. destruct rest as [|id rest].
    + apply Hsame. destruct (imm (sc m)); auto. unfold imm_return, loop_head. destruct b; auto. destruct (tbl (sc m)) as [|[] ]; auto.
    + destruct (mget _ _) as [e'|] eqn:He'; [|exfalso; eapply Ha; reflexivity]. destruct (skips _ _) eqn:Hsk.
      * destruct (finish _ _) eqn:Ef; [exfalso; eapply Ha; reflexivity|]. apply finish_hold in Ef. rewrite after_imm_go in * by congruence.
        eapply Hone; [reflexivity|]. intros ->. apply Himm. unfold IM. rewrite E. apply in_app_iff. right. now left.
      * destruct (zulu_running m); [now apply Hsame|]. eapply Hone; [reflexivity|exact I].
  - assert (id <> h) as Ni. { intros ->. apply Himm. unfold IM. rewrite E. apply in_app_iff. right. now left. }
    left. split; [|auto]. destruct (finish _ _) eqn:Ef; [exfalso; eapply Ha; reflexivity|]. apply finish_hold in Ef. cbn in Ef.
    rewrite after_imm_go in * by congruence. eapply Hone; [reflexivity|exact Ni].
  - left. split; [|discriminate]. rewrite Hh in *. destruct (dang m); [exfalso; eapply Ha; reflexivity|]. now apply Hsame.
  - left. split; [|discriminate]. apply Hsame. now rewrite Hh.
  - left. split; [|discriminate]. destruct (dang m); [exfalso; eapply Ha; reflexivity|].
    destruct (set_sim_time _ _) eqn:Es; try (exfalso; eapply Ha; reflexivity). eapply Hone; [reflexivity|exact I].
  - left. split; [|discriminate]. destruct rest as [|id rest].
    + destruct (dang m); [exfalso; eapply Ha; reflexivity|]. apply Hsame. destruct (tget _ _); auto. unfold loop_head. destruct (next_key _ _); auto.
    + destruct (mget _ _) as [e'|] eqn:He'; [|exfalso; eapply Ha; reflexivity]. destruct (skips _ _) eqn:Hsk.
      * destruct (finish _ _) eqn:Ef; [exfalso; eapply Ha; reflexivity|]. apply finish_hold in Ef. rewrite after_evt_go in * by congruence.
        eapply Hone; [reflexivity|]. intros ->. rewrite He in He'. injection He' as <-. unfold skips in Hsk. rewrite <- Hkd in Hsk. discriminate.
      * destruct (zulu_running m); [now apply Hsame|]. eapply Hone; [reflexivity|exact I].
  - destruct (Z.eq_dec id h) as [EQ|N].
    + right. split; auto. subst id. destruct (i_fe _ _ _ _ HS h) as (e'&He'&Hn&_); [now left|].
      rewrite He in He'. injection He' as <-. cbn in Hc. destruct Hc as [Hc _].
      assert (K = T) as -> by congruence. exists rest. split; auto.
      destruct (finish _ _) eqn:Ef; [exfalso; eapply Ha; reflexivity|]. pose proof (finish_now _ _ _ Ef) as Hn'. apply finish_hold in Ef. cbn in Ef, Hn'.
      rewrite after_evt_go in * by congruence. cbn. rewrite Hr. cbn. rewrite Z.eqb_refl. cbn. repeat split; congruence.
    + left. split; [|auto]. destruct (finish _ _) eqn:Ef; [exfalso; eapply Ha; reflexivity|]. apply finish_hold in Ef. cbn in Ef.
      rewrite after_evt_go in * by congruence. eapply Hone; [reflexivity|exact N].
Qed.

(** ** A past event does not come back *)
Lemma last_mono m l : excl m -> alive (mstep m l) -> last (sc m) <= last (sc (mstep m l)).
Proof.
  intros Hx Ha. destruct (mstep_vis m l Hx) as [E1 E2 E3 E4 E5 E6|d o E1 E2 E3 E4|id im e E1 E2 He E3 E4 E5 E6|id e K rest E1 E2 He E3 E4 E5
                 |id E1 E2 E3 E4|id e E1 He E2 E3 E4|c r E1 E2|q r n E1 E2 E3|K E1 E2 E3 E4 E5 E6 E7 E8].
  - lia.
  - exfalso. eapply Ha; eauto.
  - rewrite E5. cbn. lia.
  - rewrite E4. cbn. lia.
  - destruct E3 as (?&_&_&->&_). cbn. lia.
  - destruct E3 as (?&_&_&->&_). lia.
  - rewrite E2. cbn. destruct (api_add_id _ _ _ E1) as ([->|(_&->&_)]&_); lia.
  - rewrite E3. cbn. unfold commit_add in E2. destruct (_ <? _); [|discriminate]. injection E2 as <-. cbn. lia.
  - lia.
Qed.

Lemma none_stays m l h : excl m -> alive (mstep m l) -> h <= last (sc m) -> life_of h (tr m) = None ->
  life_of h (tr (mstep m l)) = None.
Proof.
  intros Hx Ha Hh Hn. destruct (mstep_vis m l Hx) as [E1 E2 E3 E4 E5 E6|d o E1 E2 E3 E4|id im e E1 E2 He E3 E4 E5 E6|id e K rest E1 E2 He E3 E4 E5
                 |id E1 E2 E3 E4|id e E1 He E2 E3 E4|c r E1 E2|q r n E1 E2 E3|K E1 E2 E3 E4 E5 E6 E7 E8].
  - congruence.
  - exfalso. eapply Ha; eauto.
  - rewrite E6. apply life_none_step; auto. discriminate.
  - rewrite E5. apply life_none_step; auto. discriminate.
  - rewrite E4. apply life_none_step; auto. discriminate.
  - rewrite E4. apply life_none_step; auto. discriminate.
  - rewrite E2. cbn. destruct c; cbn [ret_log app]; auto; try (apply life_none_step; auto; discriminate);
      pose proof (add_gets_next _ _ _ E1 I) as Hid;
      [destruct (sim_ep_running (ctl m))|..]; cbn [app life_of]; rewrite ?life_other_tev; auto; rewrite ?Hid; try exact I; lia.
  - rewrite E3. unfold commit_add in E2. destruct (_ <? _); [|discriminate]. injection E2 as <-. cbn.
    destruct (Z.eqb_spec (last (sc m) + 1) h); [lia|auto].
  - rewrite E8. auto.
Qed.

(** ** The invariant *)
Definition timed_inv (T h : Z) (p : mach * bool) : Prop :=
  let (m, later) := p in
  DInv m /\ alive m /\ h <= last (sc m) /\ hold (sc m) = false /\ ctl m <> Idle /\
  ((later = false /\ waits T h m) \/ (later = true /\ life_of h (tr m) = None /\ now (sc m) = T /\ at_end T (ctl m))).

Definition ended_at (T h : Z) (m : mach) : Prop :=
  ctl m = Idle /\ now (sc m) = T /\ life_of h (tr m) = None /\
  (forall j lj, life_of j (tr m) = Some lj -> timed lj -> T < due lj) /\
  (hold (sc m) = true \/ forall j lj, life_of j (tr m) = Some lj -> ~ timed lj).

Lemma DInv_link m : DInv m -> alive m -> Link m.
Proof. intros H Ha. exact (t_link _ (d_t _ H) Ha). Qed.

Lemma idle_table m j lj : DInv m -> ctl m = Idle -> life_of j (tr m) = Some lj -> timed lj ->
  In (due lj) (keys (tbl (sc m))).
Proof.
  intros HD Hi Hl Ht. assert (Ha : alive m) by (intros d; rewrite Hi; discriminate).
  destruct (timed_due m j lj) as [_ [Hin|[Hin _]]]; auto using DInv_live, DInv_link; [now apply HD| |].
  - eapply in_tget_keys; eauto.
  - rewrite Hi in Hin. destruct Hin.
Qed.

Lemma own_or_outside h later l : quiet h later l -> own l \/ outside l.
Proof. destruct l; cbn; unfold own; auto. Qed.

Lemma outside_now m l later h : outside l -> quiet h later l -> later = true -> now (sc (mstep m l)) = now (sc m).
Proof.
  intros Ho Hq ->. unfold mstep. destruct (ctl m) eqn:E; auto; destruct l; try contradiction;
  try (unfold call; destruct (api (sc m) c) as [r| |] eqn:Ea; auto; cbn;
       destruct (api_add_id _ _ _ Ea) as (_&_&H); apply H; apply Hq; now auto);
  try (unfold begin_add; destruct (build_add (sc m) c) as [[q| |]|]; auto; destruct (check_add _ _); now auto);
  try (unfold commit; destruct (nth_error _ _) as [q|]; auto; unfold commit_add; destruct (_ <? _); now auto);
  try (unfold ztick; destruct (zc m); auto; destruct (ztbl (sc m)) as [|[] ]; auto; destruct (_ <=? _); now auto);
  try (unfold ztau; destruct (zc m) as [|Kz [|i rz]|]; auto; [destruct (tget _ _); now auto|];
       destruct (mget _ _); auto; destruct (negb _);
         [destruct (zfinish _ _) eqn:Ez; auto; cbn; apply (zfinish_tbl _ _ _ Ez)|destruct (sim_ep_running _); now auto]);
  try (unfold zend; destruct (zc m); auto; destruct (zfinish _ _) eqn:Ez; auto; cbn; apply (zfinish_tbl _ _ _ Ez)).
Qed.

Lemma react_outside h m later l : outside l -> react h m later l = ([l], later).
Proof. destruct l; cbn; tauto. Qed.

Lemma own_admitted m l : own l -> admitted m l.
Proof. intros [->|[->| ->]]; exact I. Qed.

Lemma own_quiet l : own l -> l <> LHold /\ l <> LRun.
Proof. intros [->|[->| ->]]; split; discriminate. Qed.

Lemma outside_quiet l : outside l -> l <> LHold /\ l <> LRun.
Proof. destruct l; cbn; try tauto; split; discriminate. Qed.

(** With the table empty nothing is pending for a simulation time. *)
Lemma empty_ended T h m : DInv m -> ctl m = Idle -> now (sc m) = T -> life_of h (tr m) = None ->
  (forall k, ~ In k (keys (tbl (sc m)))) -> ended_at T h m.
Proof.
  intros HD Hi Hn Hl Hk. split; auto. split; auto. split; auto.
  assert (H : forall j lj, life_of j (tr m) = Some lj -> ~ timed lj).
  { intros j lj Hj Ht. eapply Hk, idle_table; eauto. }
  split; auto. intros j lj Hj Ht. exfalso. eapply H; eauto.
Qed.

Lemma plain_step T h m later later' l : timed_inv T h (m, later) -> own l -> alive (mstep m l) ->
  (later = true -> forall K, ctl m = Pre K -> l <> LTau) ->
  later' = match l, ctl m with LEnd, ImmRun id _ _ | LEnd, EvtRun id _ _ => if id =? h then true else later | _, _ => later end ->
  timed_inv T h (mstep m l, later') \/ ended_at T h (mstep m l).
Proof.
  intros (HD&Ha&Hla&Hh&Hi&H) Ho Ha' Hp ->.
  assert (HD' : DInv (mstep m l)) by (apply mstep_DInv; auto using own_admitted).
  pose proof (DInv_live _ HD Ha) as HL. pose proof (DInv_link _ HD Ha) as Hk. pose proof (d_imm _ HD Ha) as HI.
  destruct (own_quiet l Ho) as [N1 N2].
  pose proof (mstep_hold_flag m l N1 N2 Hh) as Hh'.
  assert (Hla' : h <= last (sc (mstep m l))).
  { pose proof (last_mono m l (m_excl _ HL) Ha'). lia. }
  destruct H as [[-> Hw]|(->&Hn&Hnow&He)].
  - destruct (wait_step T h m l HL Hk HI Ha' Hh Hw Ho) as [[Hw' Hne]|(->&rest&E&E'&Hnow'&Hnone)].
    + assert (Hni : ctl (mstep m l) <> Idle).
      { intros Hidle. destruct Hw' as [r Hr]. eapply (idle_empty m l HL Hh Ho Hi Hidle), idle_table; eauto. split; [discriminate|reflexivity]. }
      left. split; auto. split; auto. split; auto. split; auto. split; auto. left. split; auto.
      destruct l; auto. specialize (Hne eq_refl). destruct (ctl m); auto; apply Z.eqb_neq in Hne; now rewrite Hne.
    + left. split; auto. split; auto. split; auto. split; auto. split; [rewrite E'; discriminate|]. right.
      rewrite E, Z.eqb_refl. repeat split; auto. rewrite E'. reflexivity.
  - assert (Hlt : match l, ctl m with LEnd, ImmRun id _ _ | LEnd, EvtRun id _ _ => if id =? h then true else true | _, _ => true end = true).
    { destruct l; auto. destruct (ctl m); auto; destruct (id =? h); auto. }
    rewrite Hlt. pose proof (none_stays m l h (m_excl _ HL) Ha' Hla Hn) as Hn'.
    destruct (end_step T m l HL Ha' Hh Hnow He Ho (Hp eq_refl)) as [Hnow' [He'|Hidle]].
    + left. split; auto. split; auto. split; auto. split; auto. split; [intros C; rewrite C in He'; exact He'|]. right. auto.
    + right. apply empty_ended; auto. now apply idle_empty.
Qed.

Lemma tstep_inv T h m later l : timed_inv T h (m, later) -> quiet h later l -> admitted m l ->
  alive (fst (tstep h (m, later) l)) ->
  timed_inv T h (tstep h (m, later) l) \/ ended_at T h (fst (tstep h (m, later) l)).
Proof.
  intros HT Hq Had. destruct (own_or_outside _ _ _ Hq) as [Ho|Ho].
  2:{ unfold tstep. cbn [fst snd]. rewrite (react_outside h m later l Ho). cbn [fold_left fst]. intros Ha'. left.
      destruct HT as (HD&Ha&Hla&Hh&Hi&H). pose proof (DInv_live _ HD Ha) as HL. pose proof (DInv_link _ HD Ha) as Hk.
      assert (HD' : DInv (mstep m l)) by now apply mstep_DInv.
      destruct (outside_quiet l Ho) as [N1 N2].
      split; auto. split; auto. split; [pose proof (last_mono m l (m_excl _ HL) Ha'); lia|].
      split; [now apply mstep_hold_flag|]. rewrite (outside_ctl m l Ho Ha'). split; auto.
      destruct H as [[-> [r Hr]]|(->&Hn&Hnow&He)].
      - left. split; auto. exists r. apply outside_life with (h := h); auto.
      - right. split; auto. split; [now apply none_stays; [apply HL| | |]|]. split; auto. rewrite <- Hnow. now apply (outside_now m l true h). }
  assert (Hcase : (l = LTau /\ later = true /\ exists K, ctl m = Pre K) \/
    (react h m later l = ([l], match l, ctl m with LEnd, ImmRun id _ _ | LEnd, EvtRun id _ _ => if id =? h then true else later | _, _ => later end) /\
     (later = true -> forall K, ctl m = Pre K -> l <> LTau))).
  { destruct Ho as [->|[->| ->]].
    - destruct later.
      + destruct (ctl m) eqn:E; try (right; unfold react; rewrite E; split; [reflexivity|intros _ K0; discriminate]). left. eauto.
      + right. unfold react. destruct (ctl m); split; auto; discriminate.
    - right. unfold react. destruct (ctl m); split; auto; discriminate.
    - right. unfold react. destruct (ctl m); split; auto; discriminate. }
  destruct Hcase as [(->&->&K&E)|[Er Hp]].
  - intros _. right. destruct HT as (HD&Ha&Hla&Hh&Hi&[[? _]|(_&Hn&Hnow&He)]); [discriminate|].
    unfold tstep, react. cbn [fst snd]. rewrite E. cbn [fst fold_left]. 
    assert (Em : mstep (mstep m LHold) LTau = goto m (set_hold true (sc m)) Idle).
    { unfold mstep at 2. rewrite E. unfold mstep, tau. cbn. rewrite ?E. reflexivity. }
    rewrite Em. clear Em.
    pose proof (DInv_live _ HD Ha) as HL. pose proof (m_ctl _ HL) as Hc. rewrite E in Hc, He. cbn in Hc, He. destruct Hc as (_&_&Hmin).
    split; auto. split; auto. split; auto. split; [|left; reflexivity].
    intros j lj Hj Ht. cbn in Hj. destruct (timed_due m j lj) as [_ [Hin|[Hin _]]]; auto using DInv_link; [now apply HD| |].
    + apply in_tget_keys in Hin. apply Hmin in Hin. lia.
    + rewrite E in Hin. destruct Hin.
  - unfold tstep. cbn [fst snd]. rewrite Er. cbn [fold_left fst]. intros Ha'. now apply plain_step with (later := later).
Qed.

(** A hold that ended the run was the deferred one, which is used up. *)
Lemma tstep_used T h m later l : timed_inv T h (m, later) -> quiet h later l ->
  alive (fst (tstep h (m, later) l)) -> hold (sc (fst (tstep h (m, later) l))) = true -> snd (tstep h (m, later) l) = false.
Proof.
  intros (HD&Ha&Hla&Hh&Hi&H) Hq Ha' Hd.
  assert (Hcase : (l = LTau /\ later = true /\ exists K, ctl m = Pre K) \/ fst (react h m later l) = [l]).
  { destruct (own_or_outside _ _ _ Hq) as [Ho|Ho].
    - destruct Ho as [->|[->| ->]].
      + destruct later; [|right; unfold react; destruct (ctl m); reflexivity].
        destruct (ctl m) eqn:E; try (right; unfold react; rewrite E; reflexivity). left. eauto.
      + right. unfold react. destruct (ctl m); reflexivity.
      + right. unfold react. destruct (ctl m); reflexivity.
    - right. now rewrite (react_outside h m later l Ho). }
  destruct Hcase as [(->&->&K&E)|Er].
  - unfold tstep, react. cbn [fst snd]. rewrite E. reflexivity.
  - exfalso. assert (Es : fst (tstep h (m, later) l) = mstep m l).
    { unfold tstep. cbn [fst snd]. rewrite (surjective_pairing (react h m later l)), Er. reflexivity. }
    rewrite Es in *. rewrite mstep_hold_flag in Hd; auto; [discriminate| |];
      (destruct (own_or_outside _ _ _ Hq) as [Ho|Ho]; [now apply (own_quiet l Ho)|now apply (outside_quiet l Ho)]).
Qed.

(** ** Whole runs *)
Lemma dead_fold ls : forall m d, ctl m = Dead d -> ctl (fold_left mstep ls m) = Dead d.
Proof.
  induction ls as [|l ls IH]; cbn; intros m d H; auto. apply IH. unfold mstep. now rewrite H.
Qed.

Lemma dead_tstep h p l d : ctl (fst p) = Dead d -> ctl (fst (tstep h p l)) = Dead d.
Proof. intros H. unfold tstep. destruct (react h (fst p) (snd p) l). cbn. now apply dead_fold. Qed.

Lemma dead_trun h us : forall p d, ctl (fst p) = Dead d -> ctl (fst (trun h p us)) = Dead d.
Proof.
  induction us as [|u us IH]; cbn; intros p d H; auto. apply IH. now apply dead_tstep.
Qed.

Lemma idle_step m l : ctl m = Idle -> l <> LRun -> alive (mstep m l) -> ctl (mstep m l) = Idle.
Proof.
  intros E N Ha. destruct l; try contradiction; try (rewrite outside_ctl; auto; exact I);
  unfold mstep; rewrite E; unfold tau, timeout, end_ep; rewrite ?E; auto.
Qed.

Lemma idle_tstep h p l : ctl (fst p) = Idle -> quiet h (snd p) l -> alive (fst (tstep h p l)) -> ctl (fst (tstep h p l)) = Idle.
Proof.
  intros E Hq. unfold tstep, react. rewrite E. destruct l; try contradiction; cbn [fst fold_left]; intros Ha; apply idle_step; auto; discriminate.
Qed.

Lemma trun_inv T h us : forall p, timed_inv T h p \/ ctl (fst p) = Idle -> quiet_run h p us -> alive (fst (trun h p us)) ->
  timed_inv T h (trun h p us) \/ ctl (fst (trun h p us)) = Idle.
Proof.
  induction us as [|u us IH]; cbn [trun fold_left quiet_run]; intros p HT Hq Ha; auto.
  destruct Hq as (Hq&Had&Hq'). fold (trun h (tstep h p u) us) in *.
  assert (Hau : alive (fst (tstep h p u))).
  { intros d Hd. eapply Ha, dead_trun; eauto. }
  apply IH; auto. destruct HT as [HT|Hi].
  - destruct p as [m later]. destruct (tstep_inv T h m later u HT Hq Had Hau) as [H|H]; auto. right. apply H.
  - right. now apply idle_tstep.
Qed.

Lemma quiet_app h us : forall p us', quiet_run h p (us ++ us') <-> quiet_run h p us /\ quiet_run h (trun h p us) us'.
Proof.
  induction us as [|u us IH]; cbn; intros p us'; [tauto|]. rewrite IH. unfold trun. cbn. tauto.
Qed.

Lemma start_inv ls ep d : disciplined mach_init ls -> ctl (run ls) = Idle ->
  0 <= d -> now (sc (run ls)) + d <= i64_max -> last (sc (run ls)) < i64_max ->
  timed_inv (now (sc (run ls)) + d) (hold_event (run ls)) (start_timed (run ls) ep d, false).
Proof.
  intros D Hi Hd Hmax Hlast. pose proof (run_DInv _ D) as HD.
  assert (Ha : alive (run ls)) by (intros x; rewrite Hi; discriminate).
  pose proof (DInv_live _ HD Ha) as HL. pose proof (m_s _ HL) as HS.
  set (m := run ls) in *.
  assert (Hin : in_i64 (now (sc m) + d) = true).
  { apply in_i64_spec. split; auto. assert (0 <= now (sc m)).
    { pose proof (run_now_mono [] ls) as H. cbn in H. exact H. }
    assert (i64_min <= 0) by (compute; discriminate). lia. }
  assert (Hapi : exists r, api (sc m) (AddSim ep d 0 0) = Ok r /\ r_id r = last (sc m) + 1 /\ now (r_st r) = now (sc m) /\ last (r_st r) = last (sc m) + 1).
  { unfold api, build_add. rewrite Hin. cbn. unfold check_add. cbn.
    destruct (Z.ltb_spec (now (sc m) + d) (now (sc m))); [lia|]. cbn. unfold commit_add.
    destruct (Z.ltb_spec (last (sc m)) i64_max); [|lia]. eexists. split; [reflexivity|]. cbn. auto. }
  destruct Hapi as (r&Er&Hid&Hnow&Hl).
  assert (Em : mstep m (LCall (AddSim ep d 0 0)) = after_call m (AddSim ep d 0 0) r).
  { unfold mstep. rewrite Hi. unfold call. now rewrite Er. }
  unfold start_timed. rewrite Er, Em. set (m1 := after_call m (AddSim ep d 0 0) r).
  assert (HD1 : DInv m1).
  { unfold m1. rewrite <- Em. apply mstep_DInv; auto. right. intros q Hq K HK. rewrite Hi in HK. discriminate. }
  assert (E1 : ctl m1 = Idle) by exact Hi.
  assert (HD2 : DInv (mstep m1 LRun)) by (apply mstep_DInv; auto; exact I).
  assert (E2 : mstep m1 LRun = goto m1 (set_hold false (sc m1)) (ImmGo [] BStart)) by (unfold mstep; now rewrite E1).
  rewrite E2 in *. split; auto. cbn [ctl goto sc hold set_hold last tr]. split; [intros x; discriminate|].
  split; [unfold hold_event; cbn; rewrite Hl; lia|]. split; auto. split; [discriminate|]. left. split; auto.
  exists false. cbn. rewrite Hid. unfold hold_event. rewrite Z.eqb_refl. reflexivity.
Qed.

Lemma timed_now T h m later : timed_inv T h (m, later) -> now (sc m) <= T.
Proof.
  intros (HD&Ha&_&_&_&[[_ [r Hr]]|(_&_&->&_)]); [|lia].
  destruct (timed_due m h (Life T 0 0 KSim false r)) as [H _]; auto using DInv_live, DInv_link; [now apply HD|split; [discriminate|reflexivity] ].
Qed.

(** ** Progress *)
Lemma own_tr m l : own l -> tr (mstep m l) = tr m \/ exists x, tr (mstep m l) = x :: tr m.
Proof.
  intros Ho. unfold mstep. destruct (ctl m) eqn:E; auto; destruct Ho as [->|[->| ->]]; auto; unfold tau, timeout, end_ep; rewrite E; auto.
  - destruct rest as [|id rest].
    + destruct (imm (sc m)); auto. unfold imm_return, loop_head. destruct b; auto. destruct (tbl (sc m)) as [|[] ]; auto.
    + destruct (mget _ _); auto. destruct (skips _ _); [|destruct (zulu_running m); eauto; right; eexists; reflexivity].
      destruct (finish _ _); auto. rewrite tr_after_imm. right. eexists. reflexivity.
  - destruct (finish _ _); auto. rewrite tr_after_imm. right. eexists. reflexivity.
  - destruct (hold (sc m)); auto. destruct (dang m); auto.
  - destruct (hold (sc m)); auto.
  - destruct (dang m); auto. destruct (set_sim_time _ _); auto. right. eexists. reflexivity.
  - destruct rest as [|id rest].
    + destruct (dang m); auto. destruct (tget _ _); auto. unfold loop_head. destruct (next_key _ _); auto.
    + destruct (mget _ _); auto. destruct (skips _ _); [|destruct (zulu_running m); eauto; right; eexists; reflexivity].
      destruct (finish _ _); auto. rewrite tr_after_evt. right. eexists. reflexivity.
  - destruct (finish _ _); auto. rewrite tr_after_evt. right. eexists. reflexivity.
Qed.

Definition far (T : Z) : life := Life T 0 0 KSim false false.

Lemma far_step T j m l : DInv m -> alive m -> DInv (mstep m l) -> alive (mstep m l) -> hold (sc m) = false -> own l ->
  life_of j (tr m) = Some (far T) -> now (sc (mstep m l)) < T ->
  life_of j (tr (mstep m l)) = Some (far T) /\ exists x, tr (mstep m l) = x ++ tr m /\ ~ served j x.
Proof.
  intros HD Ha HD' Ha' Hh Ho Hj Hn. pose proof (DInv_live _ HD Ha) as HL. pose proof (DInv_live _ HD' Ha') as HL'.
  pose proof (DInv_link _ HD' Ha') as Hk'.
  destruct (wait_step T j m l HL (DInv_link _ HD Ha) (d_imm _ HD Ha) Ha' Hh (ex_intro _ false Hj) Ho) as [[[r Hr] _]|(_&_&_&_&H&_)]; [|lia].
  assert (r = false) as ->.
  { destruct r; auto. exfalso. destruct (ev_of_life _ _ _ Hk' Hr) as (e&He&Hdue&_&_&Hkd&Hrun). cbn in Hdue, Hkd, Hrun.
    destruct (ctl (mstep m l)) eqn:E; cbn in Hrun;
      try (destruct (zc (mstep m l)) eqn:Ez; try discriminate; symmetry in Hrun; apply Z.eqb_eq in Hrun; subst;
           assert (In j (ZFc (zc (mstep m l)))) as Hz by (rewrite Ez; now left);
           pose proof (zf_kind _ _ _ HL' Hz He); congruence).
    - symmetry in Hrun; apply Z.eqb_eq in Hrun; subst. assert (In j (IM (mstep m l))) as H.
      { unfold IM. rewrite E. apply in_app_iff. right. now left. }
      apply (d_imm _ HD' Ha' _ _ Hr) in H. discriminate.
    - symmetry in Hrun; apply Z.eqb_eq in Hrun; subst. pose proof (m_s _ HL') as HS'. rewrite E in HS'.
      destruct (i_fe _ _ _ _ HS' j) as (e'&He'&Hn'&_); [now left|]. rewrite He in He'. injection He' as <-. lia. }
  split; [exact Hr|]. destruct (own_tr m l Ho) as [E|[x E]].
  - exists []. split; [exact E|]. intros [(t&im&[])|[] ].
  - exists [x]. split; [exact E|]. rewrite E in Hr. cbn in Hr. rewrite Hj in Hr.
    intros [(t&im&[->|[] ])|[->|[] ] ]; cbn in Hr; rewrite Z.eqb_refl in Hr; cbn in Hr; discriminate.
Qed.

(** Own labels are always quiet and admitted. *)
Lemma own_quiet_run h us : Forall own us -> forall p, quiet_run h p us.
Proof.
  induction us as [|u us IH]; cbn; intros F p; auto. inversion F as [|? ? Hu F']; subst. split; [|split; auto using own_admitted].
  destruct Hu as [->|[->| ->]]; exact I.
Qed.

Lemma react_cases h m later l : own l -> (l = LTau /\ later = true /\ exists K, ctl m = Pre K) \/ fst (react h m later l) = [l].
Proof.
  intros [->|[->| ->]]; unfold react; destruct (ctl m); auto. destruct later; eauto 6.
Qed.

Lemma hold_stops m K : ctl m = Pre K -> mstep (mstep m LHold) LTau = goto m (set_hold true (sc m)) Idle.
Proof. intros E. unfold mstep at 2. rewrite E. unfold mstep, tau. cbn. rewrite ?E. reflexivity. Qed.

(** Either the run ends on the way, or the labels act as in a run without a deferred hold. *)
Lemma trun_plain T h j Tj us : T < Tj -> Forall own us -> forall p, timed_inv T h p -> life_of j (tr (fst p)) = Some (far Tj) ->
  (exists us1 us2, us = us1 ++ us2 /\ (ctl (fst (trun h p us1)) = Dead DOverflow \/ ended_at T h (fst (trun h p us1)) /\ hold (sc (fst (trun h p us1))) = true)) \/
  (fst (trun h p us) = fold_left mstep us (fst p) /\ alive (fst (trun h p us)) /\
   exists x, tr (fst (trun h p us)) = x ++ tr (fst p) /\ ~ served j x).
Proof.
  intros HTT F. induction F as [|u us Hu F IH]; intros p HT Hj.
  { right. cbn. split; auto. split; [destruct p; apply HT|]. exists []. split; auto. intros [(t&im&[])|[] ]. }
  assert (Hq : quiet h (snd p) u) by (destruct Hu as [->|[->| ->]]; exact I).
  assert (Had : admitted (fst p) u) by now apply own_admitted.
  destruct (dec_alive (fst (tstep h p u))) as [Ha|[d Hd]].
  2:{ left. exists [u], us. split; auto. left. cbn [trun fold_left]. rewrite Hd. f_equal.
      destruct p as [m later]. destruct HT as (HD&_). unfold tstep in Hd. cbn [fst snd] in Hd.
      destruct (react h m later u) as [ls later'] eqn:Er. cbn [fst] in Hd.
      assert (HDf : DInv (fold_left mstep ls m)).
      { apply disciplined_DInv; auto. unfold react in Er.
        destruct u; try contradiction; cbn in Er; try (destruct Hu as [|[|]]; discriminate);
          destruct (ctl m); try destruct later; injection Er as <- <-; cbn; auto. }
      destruct (d_m _ HDf) as [C|[_ C]]; [congruence|]. exfalso. eapply C; eauto. }
  destruct p as [m later]. destruct (tstep_inv T h m later u HT Hq Had Ha) as [HT'|He].
  2:{ left. exists [u], us. split; auto. right. cbn [trun fold_left]. split; auto.
      destruct (react_cases h m later u Hu) as [(->&->&K&E)|Er].
      { unfold tstep, react. cbn [fst snd]. rewrite E. cbn [fst fold_left]. rewrite (hold_stops m K E). reflexivity. }
      destruct He as (_&Hn&_&_&[He|He]); auto. exfalso.
      assert (Es : fst (tstep h (m, later) u) = mstep m u) by (unfold tstep; cbn [fst snd]; rewrite (surjective_pairing (react h m later u)), Er; reflexivity).
      rewrite Es in *. destruct HT as (HD&Ham&_&Hh&_).
      destruct (far_step Tj j m u) as [Hf _]; auto; [now apply mstep_DInv|lia|].
      apply (He _ _ Hf). split; [discriminate|reflexivity]. }
  assert (Es : fst (tstep h (m, later) u) = mstep m u).
  { unfold tstep in *. cbn [fst snd] in *. destruct (react h m later u) as [ls later'] eqn:Er. cbn [fst].
    unfold react in Er. destruct Hu as [->|[->| ->]].
    - destruct (ctl m) eqn:E; try (injection Er as <- <-; reflexivity). destruct later; injection Er as <- <-; [|reflexivity].
      exfalso. destruct HT' as (_&_&_&_&C&_). apply C. cbn. unfold mstep at 2. rewrite E. unfold mstep, tau. cbn. rewrite ?E. reflexivity.
    - injection Er as <- <-. reflexivity.
    - destruct (ctl m); injection Er as <- <-; reflexivity. }
  assert (Hnow : now (sc (mstep m u)) <= T).
  { destruct (tstep h (m, later) u) as [m' later'] eqn:Et. apply timed_now in HT'. cbn [fst] in Es. now rewrite <- Es. }
  assert (Hfar : life_of j (tr (mstep m u)) = Some (far Tj) /\ exists x, tr (mstep m u) = x ++ tr m /\ ~ served j x).
  { destruct HT as (HD&Ham&_&Hh&_). apply far_step; auto; try lia; [|now rewrite <- Es].
    rewrite <- Es. destruct (tstep h (m, later) u). apply HT'. }
  destruct Hfar as [Hj' (x&Ex&Hx)].
  destruct (IH (tstep h (m, later) u) HT') as [(us1&us2&->&H)|(E&Hal&y&Ey&Hy)].
  - now rewrite Es.
  - left. exists (u :: us1), us2. split; auto.
  - right. cbn [trun fold_left fst]. fold (trun h (tstep h (m, later) u) us). rewrite Es in E, Ey. split; auto. split; auto.
    exists (y ++ x). rewrite Ey, Ex, app_assoc. split; auto.
    intros [(t&im&Hin)|Hin]; apply in_app_iff in Hin as [Hin|Hin]; [apply Hy|apply Hx|apply Hy|apply Hx]; unfold served; eauto.
Qed.

Lemma timed_run_ends T h p j Tj : T < Tj -> timed_inv T h p -> zulu_running (fst p) = false -> life_of j (tr (fst p)) = Some (far Tj) ->
  exists n, forall rounds, (n <= length rounds)%nat -> Forall fair_round rounds ->
  exists us1 us2, concat rounds = us1 ++ us2 /\ (ctl (fst (trun h p us1)) = Dead DOverflow \/ ended_at T h (fst (trun h p us1)) /\ hold (sc (fst (trun h p us1))) = true).
Proof.
  intros HTT HT Hz Hj. destruct p as [m later]. cbn [fst] in *. assert (HT0 := HT). destruct HT as (HD&Ha&_&Hh&Hi&_).
  assert (HTm : timed_inv T h (m, later)) by assumption.
  pose proof (DInv_live _ HD Ha) as HL. pose proof (DInv_link _ HD Ha) as Hk.
  destruct (ev_of_life _ _ _ Hk Hj) as (e&He&Hdue&_&_&Hkd&Hrun). cbn in Hdue, Hkd, Hrun.
  assert (Himm : ~ In j (IM m)). { intros H. apply (d_imm _ HD Ha _ _ Hj) in H. discriminate. }
  assert (G : Going m) by (constructor; auto).
  assert (A : Awaits m j Tj).
  { constructor.
    - exists e. repeat split; auto. congruence.
    - intros H. contradiction.
    - split; intros H; destruct (ctl m) eqn:E; try destruct H; subst; cbn in Hrun; try contradiction; rewrite Z.eqb_refl in Hrun; discriminate. }
  destruct (fair_rounds_reach m j Tj G A) as [n Hn]. exists n. intros rounds Hl F.
  assert (Fo : Forall own (concat rounds)).
  { apply Forall_forall. intros x Hx. apply in_concat in Hx as (r&Hr&Hx). rewrite Forall_forall in F. destruct (F r Hr) as [Fr _].
    rewrite Forall_forall in Fr. auto. }
  destruct (trun_plain T h j Tj (concat rounds) HTT Fo (m, later) HT0 Hj) as [H|(E&Hal&x&Ex&Hx)]; auto.
  exfalso. specialize (Hn rounds Hl F). cbn [fst] in *. rewrite E in *. destruct Hn as [C|(y&Ey&Hy)].
  - eapply Hal; eauto.
  - rewrite Ex in Ey. apply app_inv_tail in Ey. subst. contradiction.
Qed.

Lemma start_shape m ep d r : ctl m = Idle -> api (sc m) (AddSim ep d 0 0) = Ok r ->
  start_timed m ep d = goto (after_call m (AddSim ep d 0 0) r) (set_hold false (r_st r)) (ImmGo [] BStart).
Proof.
  intros E Er. unfold start_timed. rewrite Er. unfold mstep at 2. rewrite E. unfold call. rewrite Er.
  unfold mstep. cbn [ctl after_call]. rewrite E. reflexivity.
Qed.

Lemma start_accepted m ep d : 0 <= now (sc m) -> 0 <= d -> now (sc m) + d <= i64_max -> last (sc m) < i64_max ->
  exists r, api (sc m) (AddSim ep d 0 0) = Ok r.
Proof.
  intros Hn Hd Hmax Hl. assert (in_i64 (now (sc m) + d) = true) as Hin.
  { apply in_i64_spec. split; auto. assert (i64_min <= 0) by (compute; discriminate). lia. }
  unfold api, build_add. rewrite Hin. cbn. unfold check_add. cbn.
  destruct (Z.ltb_spec (now (sc m) + d) (now (sc m))); [lia|]. cbn. unfold commit_add.
  destruct (Z.ltb_spec (last (sc m)) i64_max); [|lia]. eexists. reflexivity.
Qed.
