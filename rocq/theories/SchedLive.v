(** Progress of the run loop: while nobody holds the simulation and nobody else acts,
    every move of the simulation thread brings the next execution of a given pending
    event nearer. *)
From Verif Require Import Base SchedModel SchedSpec SchedInv SchedProofs SchedTrace SchedMoves SchedOrder SchedHist SchedFacts.
From Coq Require Import Permutation.

#[local] Opaque hold_id i64_max i64_min.
#[local] Arguments next_key K t : simpl never.

(** The one label that makes the simulation thread move from the control state. *)
Definition own_label (c : ctrl) : label :=
  match c with Wait _ => LTimeout | ImmRun _ _ _ | EvtRun _ _ _ => LEnd | _ => LTau end.

Definition adv (m : mach) : mach := mstep m (own_label (ctl m)).

Record Going (m : mach) : Prop := {
  g_live : MLive m;
  g_alive : alive m;
  g_hold : hold (sc m) = false;
  g_run : ctl m <> Idle;
  g_zulu : zulu_running m = false
}.

Definition at_start (c : ctrl) : bool :=
  match c with ImmGo _ BStart | ImmRun _ _ BStart => true | _ => false end.

(** Event [id] waits for instant [T]; it is an immediate one only in the first phase. *)
Record Awaits (m : mach) (id T : Z) : Prop := {
  a_ev : exists e, mget id (evs (sc m)) = Some e /\ ev_kind e <> KZulu /\ ev_next e = T;
  a_imm : In id (IM m) -> at_start (ctl m) = true;
  a_still : ~ In id (runI (ctl m)) /\ ~ In id (runE (ctl m))
}.

Definition outer (m : mach) (T : Z) : nat :=
  Z.to_nat (match ctl_key (ctl m) with Some K => T - K + 1 | None => T - now (sc m) + 2 end).

Definition weight (c : ctrl) : nat :=
  match c with
  | Pre _ => 5 | Wait _ => 4 | Post _ => 3 | ImmRun _ _ _ => 3 | EvtRun _ _ _ => 2 | ImmGo _ _ => 1 | _ => 0
  end.

Definition slot (m : mach) : list Z :=
  match ctl_key (ctl m) with Some K => tget K (tbl (sc m)) | None => [] end.

Definition inner (m : mach) : nat :=
  4 * length (imm (sc m)) + 3 * length (restI (ctl m)) + 3 * length (restE (ctl m)) + 4 * length (slot m) +
  weight (ctl m).

Definition nearer (m' m : mach) (T : Z) : Prop :=
  (outer m' T < outer m T)%nat \/ (outer m' T = outer m T /\ (inner m' < inner m)%nat).

(** The occurrence of [id] is started, or skipped because its time is over. *)
Definition served (id : Z) (l : list tev) : Prop :=
  (exists t im, In (TStart id t im) l) \/ In (TSkip id) l.

Lemma finish_other s id s' j : msorted (evs s) -> finish s id = inr s' -> j <> id -> mget j (evs s') = mget j (evs s).
Proof.
  intros Hs. unfold finish. destruct (mget id (evs s)) as [e|] eqn:He; [|discriminate].
  destruct (ev_repeat e =? 0).
  - intros [= <-] Hj. cbn. rewrite mget_mdel by auto. destruct (Z.eqb_spec j id); congruence.
  - destruct (_ && _); [|discriminate]. intros [= <-] Hj. cbn. rewrite mget_mset.
    destruct (Z.eqb_spec j id); congruence.
Qed.

Lemma finish_slot s id s' e K : finish s id = inr s' -> mget id (evs s) = Some e ->
  (ev_repeat e <> 0 -> K < ev_next e + ev_cycle e) -> tget K (tbl s') = tget K (tbl s).
Proof.
  unfold finish. intros H He Hk. rewrite He in H. destruct (Z.eqb_spec (ev_repeat e) 0) as [E|E].
  - injection H as <-. reflexivity.
  - destruct (_ && _); [|discriminate]. injection H as <-. cbn. unfold tins. rewrite tget_mset.
    specialize (Hk E). destruct (Z.eqb_spec K (ev_next e + ev_cycle e)); [lia|reflexivity].
Qed.

Lemma finish_frame s id s' : finish s id = inr s' -> now s' = now s /\ hold s' = hold s /\ imm s' = imm s.
Proof.
  unfold finish. destruct (mget id (evs s)) as [e|]; [|discriminate].
  destruct (ev_repeat e =? 0); [intros [= <-]; auto|].
  destruct (_ && _); [intros [= <-]; auto|discriminate].
Qed.

Lemma next_key_none K t k : next_key K t = None -> In k (keys t) -> k <= K.
Proof.
  induction t as [|[k0 l] r IH]; [intros _ []|]. unfold next_key; fold next_key.
  destruct (Z.ltb_spec K k0); [discriminate|]. intros H' [<-|Hin]; cbn; auto.
Qed.

(** Where the event is. *)
Lemma awaits_where m id T : Going m -> Awaits m id T ->
  now (sc m) <= T \/ In id (IM m).
Proof.
  intros G A. destruct (a_ev _ _ _ A) as (e&He&Hk&<-). pose proof (m_s _ (g_live _ G)) as HS.
  destruct (i_cover _ _ _ _ HS _ _ He Hk) as [Hin|Hin].
  - left. apply (i_keys _ _ _ _ HS). eapply in_tget_keys; eauto.
  - apply in_app_iff in Hin as [Hin|Hin]; [right; exact Hin|]. left.
    destruct (i_fe _ _ _ _ HS _ Hin) as (e'&He'&Hn&_). rewrite He in He'. injection He' as <-. lia.
Qed.

(** While the event waits outside the batch being executed, it is in the table. *)
Lemma awaits_table m id T : Going m -> Awaits m id T -> ~ In id (IM m) -> FEc (ctl m) = [] ->
  In id (tget T (tbl (sc m))) /\ In T (keys (tbl (sc m))).
Proof.
  intros G A HI HE. destruct (a_ev _ _ _ A) as (e&He&Hk&<-). pose proof (m_s _ (g_live _ G)) as HS.
  destruct (i_cover _ _ _ _ HS _ _ He Hk) as [Hin|Hin].
  - split; auto. eapply in_tget_keys; eauto.
  - rewrite HE, app_nil_r in Hin. contradiction.
Qed.

(** The key of the run loop is not past the instant of the event. *)
Lemma awaits_key m id T K : Going m -> Awaits m id T -> at_start (ctl m) = false -> ctl_key (ctl m) = Some K -> K <= T.
Proof.
  intros G A Hs HK. assert (HI : ~ In id (IM m)).
  { intros H. apply (a_imm _ _ _ A) in H. congruence. }
  destruct (awaits_where _ _ _ G A) as [Hn|Hi]; [|contradiction].
  pose proof (m_ctl _ (g_live _ G)) as Hc.
  destruct (ctl m) as [|r b|i r b|K0|K0|K0|K0 r|i K0 r|d] eqn:E; cbn in HK; try discriminate.
  - destruct b; try discriminate; injection HK as ->; cbn in Hc; destruct Hc as (<-&_); assumption.
  - destruct b; try discriminate; injection HK as ->; cbn in Hc; destruct Hc as (<-&_); assumption.
  - injection HK as ->. destruct Hc as (_&_&Hmin). apply Hmin.
    eapply awaits_table; eauto; rewrite E; reflexivity.
  - injection HK as ->. destruct Hc as (_&_&Hmin). apply Hmin.
    eapply awaits_table; eauto; rewrite E; reflexivity.
  - injection HK as ->. destruct Hc as (<-&_). assumption.
  - injection HK as ->. destruct Hc as (<-&_). assumption.
  - injection HK as ->. destruct Hc as (<-&_). assumption.
Qed.

Lemma adv_MInv m : Going m -> MInv (adv m).
Proof.
  intros G. apply mstep_inv; [right; split; apply G|]. unfold own_label. destruct (ctl m); exact I.
Qed.

(** How one proves that a move keeps the loop going. *)
Lemma going_next m m' : MInv m' -> alive m' -> hold (sc m') = false -> ctl m' <> Idle -> zc m' = zc m ->
  Going m -> Going m'.
Proof.
  intros HM Ha Hh Hi Hz G. constructor; auto.
  - destruct HM as [H|[H _]]; auto. exfalso. eapply Ha; eauto.
  - pose proof (g_zulu _ G) as H. unfold zulu_running in *. now rewrite Hz.
Qed.

Lemma awaits_next m m' id T : Awaits m id T -> mget id (evs (sc m')) = mget id (evs (sc m)) ->
  (In id (IM m') -> In id (IM m) /\ (at_start (ctl m) = true -> at_start (ctl m') = true)) ->
  ~ In id (runI (ctl m')) -> ~ In id (runE (ctl m')) -> Awaits m' id T.
Proof.
  intros A Hg HI H1 H2. constructor; auto.
  - rewrite Hg. apply A.
  - intros H. apply HI in H as [H H']. apply H', A, H.
Qed.

Lemma after_imm_go m s r b : hold s = false -> after_imm m s r b = goto m s (ImmGo r b).
Proof. unfold after_imm. now intros ->. Qed.
Lemma after_evt_go m s K r : hold s = false -> after_evt m s K r = goto m s (ImmGo [] (BEvt K r)).
Proof. unfold after_evt. now intros ->. Qed.

Lemma nearer_key m m' T K : ctl_key (ctl m) = Some K -> ctl_key (ctl m') = Some K ->
  (inner m' < inner m)%nat -> nearer m' m T.
Proof. intros E E' H. right. unfold outer. rewrite E, E'. auto. Qed.

Lemma nearer_start m m' T : ctl_key (ctl m) = None -> ctl_key (ctl m') = None -> now (sc m') = now (sc m) ->
  (inner m' < inner m)%nat -> nearer m' m T.
Proof. intros E E' En H. right. unfold outer. rewrite E, E', En. auto. Qed.

Lemma head_next m id T s : Going m -> Awaits m id T -> IM m = [] -> FEc (ctl m) = [] ->
  s = sc m \/ (exists K, ctl_key (ctl m) = Some K /\ tget K (tbl (sc m)) = [] /\
               s = set_tbl (mdel K (tbl (sc m))) (sc m)) ->
  In id (tget T (tbl s)) /\ In T (keys (tbl s)).
Proof.
  intros G A HI HE Hs. assert (H0 : ~ In id (IM m)) by (rewrite HI; auto).
  destruct (awaits_table _ _ _ G A H0 HE) as [H1 H2]. destruct Hs as [->|(K&HK&Ht&->)]; auto. cbn.
  pose proof (i_tbl _ _ _ _ (m_s _ (g_live _ G))) as [Hs _].
  assert (T <> K) by (intros ->; rewrite Ht in H1; destruct H1).
  rewrite tget_mdel by auto. destruct (Z.eqb_spec T K); [congruence|]. split; auto.
  apply keys_mdel; auto.
Qed.

Ltac go_on m HM G :=
  apply (going_next m); [exact HM|intros dd; cbn; discriminate|cbn; congruence|cbn; discriminate|reflexivity|exact G].

Lemma adv_step m id T : Going m -> Awaits m id T ->
  exists new, tr (adv m) = new ++ tr m /\
   (ctl (adv m) = Dead DOverflow \/ served id new \/
    (Going (adv m) /\ Awaits (adv m) id T /\ nearer (adv m) m T)).
Proof.
  intros G A. pose proof (adv_MInv m G) as HM. pose proof (g_live _ G) as HL. pose proof (g_hold _ G) as Hh.
  pose proof (g_alive _ G) as Hal. pose proof (g_zulu _ G) as Hz. pose proof (m_s _ HL) as HS.
  pose proof (m_dang _ HL) as Hd. pose proof (m_ctl _ HL) as Hc.
  assert (Hso : msorted (evs (sc m))) by apply HS.
  assert (Hover : forall d, ctl (adv m) = Dead d -> d = DOverflow).
  { intros d E. destruct HM as [H|[_ H]]; [congruence|exfalso; eapply H; eauto]. }
  unfold adv, mstep in *.
  destruct (ctl m) as [|r b|i r b|K|K|K|K r|i K r|d] eqn:E; cbn [own_label] in *.
  - exfalso. now apply (g_run _ G).
  - (* ImmGo *)
    unfold tau in *. rewrite E in *. destruct r as [|i r].
    + destruct (imm (sc m)) as [|j l] eqn:Ei.
      * (* return *)
        destruct b as [|K|K r]; cbn [imm_return] in *.
        -- assert (HI : IM m = []) by (unfold IM, FIc; rewrite Ei, E; reflexivity).
           assert (HE : FEc (ctl m) = []) by (unfold FEc; rewrite E; reflexivity).
           destruct (head_next m id T (sc m) G A HI HE (or_introl eq_refl)) as [H1 H2].
           destruct (tbl (sc m)) as [|[k l] t] eqn:Et; [destruct H2|]. cbn [loop_head] in *.
           exists []. split; [reflexivity|]. right; right.
           assert (Hk : k <= T).
           { pose proof (proj1 (i_tbl _ _ _ _ HS)) as Hs. rewrite Et in Hs. apply msorted_cons in Hs as [_ Hlt].
             destruct H2 as [<-|H2]; cbn; [lia|]. specialize (Hlt _ H2). lia. }
           assert (Hn : now (sc m) <= k) by (apply (i_keys _ _ _ _ HS); rewrite Et; now left).
           split; [|split].
           ++ go_on m HM G.
           ++ eapply awaits_next; eauto; cbn; auto. unfold IM, FIc. cbn. rewrite Ei. cbn. intros [].
           ++ left. unfold outer. rewrite E. cbn. lia.
        -- exists []. split; [reflexivity|]. right; right. split; [|split].
           ++ go_on m HM G.
           ++ eapply awaits_next; eauto; cbn; auto. unfold IM, FIc. cbn. rewrite E, Ei. cbn. auto.
           ++ eapply nearer_key with (K := K); rewrite ?E; auto. unfold inner, slot. cbn. rewrite E, Ei. cbn. lia.
        -- exists []. split; [reflexivity|]. right; right. split; [|split].
           ++ go_on m HM G.
           ++ eapply awaits_next; eauto; cbn; auto. unfold IM, FIc. cbn. rewrite E, Ei. cbn. auto.
           ++ eapply nearer_key with (K := K); rewrite ?E; auto. unfold inner, slot. cbn. rewrite E, Ei. cbn. lia.
      * (* swap *)
        rewrite <- Ei in *. exists []. split; [reflexivity|]. right; right. split; [|split].
        -- go_on m HM G.
        -- eapply awaits_next; eauto; cbn; auto. unfold IM, FIc. cbn. rewrite E. cbn. rewrite app_nil_r. destruct b; auto.
        -- assert (Hin : (inner (goto m (set_imm [] (sc m)) (ImmGo (imm (sc m)) b)) < inner m)%nat).
           { unfold inner, slot. cbn. rewrite E, Ei. cbn. destruct b; cbn; lia. }
           destruct b as [|K|K r]; [eapply nearer_start|eapply nearer_key with (K:=K)|eapply nearer_key with (K:=K)];
             rewrite ?E; auto.
    + (* start *)
      unfold FIc in HS. cbn in HS.
      destruct (i_fi _ _ _ _ HS i) as (e&He&Hk&Hr&Hn); [apply in_app_iff; cbn; auto|].
      rewrite He, skips_sim, Hz in * by auto.
      exists [TStart i (now (sc m)) true]. split; [reflexivity|]. right.
      destruct (Z.eq_dec i id) as [->|Hne]; [left; left; do 2 eexists; now left|right].
      split; [|split].
      * go_on m HM G.
      * eapply awaits_next; eauto; cbn; auto.
        -- unfold IM, FIc. cbn. rewrite E. cbn. destruct b; auto.
        -- intros [|[]]; congruence.
      * assert (Hin : (inner (log (goto m (set_cur i (sc m)) (ImmRun i r b)) (TStart i (now (sc m)) true)) < inner m)%nat).
        { unfold inner, slot. cbn. rewrite E. destruct b; cbn; lia. }
        destruct b as [|K|K r']; [eapply nearer_start|eapply nearer_key with (K:=K)|eapply nearer_key with (K:=K)];
          rewrite ?E; auto.
  - (* ImmRun *)
    unfold end_ep in *. rewrite E in *. unfold FIc, FEc in HS. cbn in HS.
    destruct (finish (set_cur (-1) (sc m)) i) as [d|s'] eqn:Ef.
    + exists []. split; [reflexivity|]. left. cbn in *. f_equal. now apply Hover.
    + destruct (finish_frame _ _ _ Ef) as (F1&F2&F3). cbn in F1, F2, F3.
      rewrite after_imm_go in * by (rewrite F2; auto).
      exists [TEnd i]. split; [reflexivity|]. right; right.
      assert (Hne : id <> i) by (intros ->; apply (proj1 (a_still _ _ _ A)); rewrite E; now left).
      destruct (i_fi _ _ _ _ HS i) as (e&He&Hk&Hr&Hn); [apply in_app_iff; cbn; auto|].
      split; [|split].
      * go_on m HM G.
      * eapply awaits_next; eauto; cbn; auto.
        -- apply (finish_other _ _ _ id) in Ef; auto.
        -- unfold IM, FIc. cbn. rewrite E, F3. cbn. intros H. split; [|destruct b; auto].
           apply in_app_iff in H as [H|H]; apply in_app_iff; cbn; auto.
      * assert (Hsl : forall K, tget K (tbl s') = tget K (tbl (sc m))).
        { intros K. apply (finish_slot _ _ _ e K) in Ef; auto. intros; congruence. }
        assert (Hin : (inner (goto (log m (TEnd i)) s' (ImmGo r b)) < inner m)%nat).
        { unfold inner, slot. cbn. rewrite E, F3. destruct b; cbn; rewrite ?Hsl; lia. }
        destruct b as [|K|K r']; [eapply nearer_start|eapply nearer_key with (K:=K)|eapply nearer_key with (K:=K)];
          rewrite ?E; auto.
  - (* Pre *)
    unfold tau in *. rewrite E, Hh, Hd in *. exists []. split; [reflexivity|]. right; right. split; [|split].
    + go_on m HM G.
    + eapply awaits_next; eauto; cbn; auto. unfold IM, FIc. cbn. rewrite E. cbn. auto.
    + eapply nearer_key with (K := K); rewrite ?E; auto. unfold inner, slot. cbn. rewrite E. cbn. lia.
  - (* Wait *)
    assert (Ht : timeout m = log (goto m (set_window false (set_now K (sc m))) (Post K)) (TTime K)).
    { unfold timeout. rewrite E, Hd. cbn in Hc. destruct Hc as (Hw&HK&Hmin).
      assert (Hnow : now (sc m) <= K) by (apply (i_keys _ _ _ _ HS); auto).
      assert (Hmax : K <= next_scheduled (sc m)).
      { apply Hmin. apply next_scheduled_in. intros Et. rewrite Et in HK. destruct HK. }
      unfold set_sim_time. rewrite Hw. cbn.
      destruct (Z.ltb_spec K (now (sc m))); [lia|]. destruct (Z.ltb_spec (next_scheduled (sc m)) K); [lia|]. reflexivity. }
    rewrite Ht in *. exists [TTime K]. split; [reflexivity|]. right; right. split; [|split].
    + go_on m HM G.
    + eapply awaits_next; eauto; cbn; auto. unfold IM, FIc. cbn. rewrite E. cbn. auto.
    + eapply nearer_key with (K := K); rewrite ?E; auto. unfold inner, slot. cbn. rewrite E. cbn. lia.
  - (* Post *)
    unfold tau in *. rewrite E in *. exists []. split; [reflexivity|]. right; right. split; [|split].
    + go_on m HM G.
    + eapply awaits_next; eauto; cbn; auto. unfold IM, FIc. cbn. rewrite E. cbn. auto.
    + eapply nearer_key with (K := K); rewrite ?E; auto. unfold inner, slot. cbn. rewrite E. cbn. lia.
  - (* EvtGo *)
    unfold tau in *. rewrite E, Hd in *. destruct r as [|i r].
    + destruct (tget K (tbl (sc m))) as [|j l] eqn:Et.
      * assert (HI : ~ In id (IM m)).
        { intros H. apply (a_imm _ _ _ A) in H. rewrite E in H. discriminate. }
        assert (HE : FEc (ctl m) = []) by (unfold FEc; rewrite E; reflexivity).
        destruct (awaits_table _ _ _ G A HI HE) as [H1 H2].
        assert (HT : T <> K) by (intros ->; rewrite Et in H1; destruct H1).
        assert (HK : K <= T) by (eapply awaits_key; eauto; rewrite E; reflexivity).
        destruct (next_key K (tbl (sc m))) as [k|] eqn:En.
        -- apply next_key_some in En as (N1&N2&N3); [|apply HS].
           cbn [loop_head] in *. exists []. split; [reflexivity|]. right; right. split; [|split].
           ++ go_on m HM G.
           ++ eapply awaits_next; eauto; cbn; auto. unfold IM, FIc. cbn. rewrite E. cbn. auto.
           ++ left. unfold outer. rewrite E. cbn. assert (k <= T) by (apply N3; auto; lia). lia.
        -- exfalso. pose proof (next_key_none _ _ _ En H2). lia.
      * rewrite <- Et in *. exists []. split; [reflexivity|]. right; right. split; [|split].
        -- go_on m HM G.
        -- eapply awaits_next; eauto; cbn; auto. unfold IM, FIc. cbn. rewrite E. cbn. auto.
        -- eapply nearer_key with (K := K); rewrite ?E; auto. unfold inner, slot. cbn. rewrite E. cbn.
           rewrite tget_mset, Z.eqb_refl, Et. cbn. lia.
    + unfold FIc, FEc in HS. cbn in HS.
      destruct (i_fe _ _ _ _ HS i) as (e&He&Hn&Hk); [now left|]. rewrite He in *.
      destruct (skips (sc m) e) eqn:Es.
      * destruct (finish (sc m) i) as [d|s'] eqn:Ef.
        -- exists []. split; [reflexivity|]. left. cbn in *. f_equal. now apply Hover.
        -- destruct (finish_frame _ _ _ Ef) as (F1&F2&F3).
           rewrite after_evt_go in * by (rewrite F2; auto).
           exists [TSkip i]. split; [reflexivity|]. right.
           destruct (Z.eq_dec i id) as [->|Hne]; [left; right; now left|right].
           split; [|split].
           ++ go_on m HM G.
           ++ eapply awaits_next; eauto; cbn; auto.
              ** apply (finish_other _ _ _ id) in Ef; auto.
              ** unfold IM, FIc. cbn. rewrite E, F3. cbn. intros H. split; auto; discriminate.
           ++ eapply nearer_key with (K := K); rewrite ?E; auto. unfold inner, slot. cbn. rewrite E, F3. cbn.
              rewrite (finish_slot _ _ _ e K Ef He); [lia|].
              intros Hr. apply (i_cyc _ _ _ _ HS _ _ He) in Hr. destruct Hc as (<-&_). lia.
      * rewrite Hz in *. exists [TStart i (now (sc m)) false]. split; [reflexivity|]. right.
        destruct (Z.eq_dec i id) as [->|Hne]; [left; left; do 2 eexists; now left|right].
        split; [|split].
        -- go_on m HM G.
        -- eapply awaits_next; eauto; cbn; auto.
           ++ unfold IM, FIc. cbn. rewrite E. cbn. auto.
           ++ intros [|[]]; congruence.
        -- eapply nearer_key with (K := K); rewrite ?E; auto. unfold inner, slot. cbn. rewrite E. cbn. lia.
  - (* EvtRun *)
    unfold end_ep in *. rewrite E in *. unfold FIc, FEc in HS. cbn in HS.
    destruct (finish (set_cur (-1) (sc m)) i) as [d|s'] eqn:Ef.
    + exists []. split; [reflexivity|]. left. cbn in *. f_equal. now apply Hover.
    + destruct (finish_frame _ _ _ Ef) as (F1&F2&F3). cbn in F1, F2, F3.
      rewrite after_evt_go in * by (rewrite F2; auto).
      exists [TEnd i]. split; [reflexivity|]. right; right.
      assert (Hne : id <> i) by (intros ->; apply (proj2 (a_still _ _ _ A)); rewrite E; now left).
      destruct (i_fe _ _ _ _ HS i) as (e&He&Hn&Hk); [now left|].
      split; [|split].
      * go_on m HM G.
      * eapply awaits_next; eauto; cbn; auto.
        -- apply (finish_other _ _ _ id) in Ef; auto.
        -- unfold IM, FIc. cbn. rewrite E, F3. cbn. intros H. split; auto; discriminate.
      * eapply nearer_key with (K := K); rewrite ?E; auto. unfold inner, slot. cbn. rewrite E, F3. cbn.
        rewrite (finish_slot _ _ _ e K Ef He); [cbn; lia|].
        intros Hr. apply (i_cyc _ _ _ _ HS _ _ He) in Hr. destruct Hc as (<-&_). lia.
  - exfalso. eapply Hal; eauto.
Qed.

(** ** Reaching the event *)
Definition reached (id : Z) (past : list tev) (m : mach) : Prop :=
  ctl m = Dead DOverflow \/ exists new, tr m = new ++ past /\ served id new.

Fixpoint advs (n : nat) (m : mach) : mach := match n with O => m | S n => advs n (adv m) end.

Lemma served_l id l l' : served id l -> served id (l' ++ l).
Proof. intros [(t&im&H)|H]; [left; exists t, im|right]; apply in_app_iff; auto. Qed.
Lemma served_r id l l' : served id l' -> served id (l' ++ l).
Proof. intros [(t&im&H)|H]; [left; exists t, im|right]; apply in_app_iff; auto. Qed.

Lemma reached_step id past m l : excl m -> reached id past m -> reached id past (mstep m l).
Proof.
  intros Hx [H|(new&H1&H2)].
  - left. unfold mstep. now rewrite H.
  - right. destruct (mstep_tr m l Hx) as [x E]. exists (x ++ new). rewrite E, H1, app_assoc. split; auto.
    now apply served_l.
Qed.

Lemma reached_steps id past ls : forall m, excl m -> reached id past m -> reached id past (fold_left mstep ls m).
Proof.
  induction ls as [|l ls IH]; cbn; intros m Hx H; auto. apply IH; [now apply mstep_excl|now apply reached_step].
Qed.

Lemma reached_advs id past n : forall m, excl m -> reached id past m -> reached id past (advs n m).
Proof.
  induction n as [|n IH]; cbn; intros m Hx H; auto. apply IH; [now apply mstep_excl|now apply reached_step].
Qed.

Lemma advs_add a : forall b m, advs b (advs a m) = advs (a + b) m.
Proof. induction a as [|a IH]; cbn; intros b m; auto. Qed.

Lemma advs_excl n : forall m, excl m -> excl (advs n m).
Proof. induction n as [|n IH]; cbn; intros m H; auto. apply IH. now apply mstep_excl. Qed.

Lemma reach_advs id T : forall m, Going m -> Awaits m id T -> exists n, reached id (tr m) (advs n m).
Proof.
  assert (forall a b m, outer m T = a -> inner m = b -> Going m -> Awaits m id T ->
            exists n, reached id (tr m) (advs n m)) as H.
  { induction a as [a IHa] using (well_founded_induction Wf_nat.lt_wf).
    induction b as [b IHb] using (well_founded_induction Wf_nat.lt_wf). intros m Ea Eb G A.
    destruct (adv_step m id T G A) as (new&Ht&[Hd|[Hs|(G'&A'&Hn)]]).
    - exists 1%nat. left. exact Hd.
    - exists 1%nat. right. exists new. auto.
    - assert (exists n, reached id (tr (adv m)) (advs n (adv m))) as [n Hr].
      { destruct Hn as [Hn|[Hn Hi]].
        - eapply IHa; eauto. lia.
        - eapply IHb; [| |reflexivity| |]; eauto; lia. }
      exists (S n). cbn. destruct Hr as [Hr|(new'&H1&H2)]; [now left|right].
      exists (new' ++ new). rewrite H1, Ht, app_assoc. split; auto. now apply served_r. }
  intros m. eapply H; eauto.
Qed.

(** ** Any fair schedule of the simulation thread *)
Definition own (l : label) : Prop := l = LTau \/ l = LTimeout \/ l = LEnd.

Lemma own_step m l : Going m -> own l -> mstep m l = adv m \/ (mstep m l = m /\ l <> own_label (ctl m)).
Proof.
  intros G Hl. pose proof (g_hold _ G) as Hh. pose proof (g_run _ G) as Hi. pose proof (g_alive _ G) as Ha.
  unfold adv, mstep. destruct (ctl m) eqn:E; try contradiction; try (exfalso; eapply Ha; now eauto);
    destruct Hl as [->|[->| ->]]; cbn; auto; right; (split; [|discriminate]); unfold tau, timeout, end_ep; rewrite ?E; auto.
  now rewrite Hh.
Qed.

(** Where a schedule of own labels leads: the same states, some moves further. *)
Definition along (id T : Z) (m0 : mach) (k : nat) (m : mach) : Prop :=
  reached id (tr m0) m \/ exists j, (k <= j)%nat /\ m = advs j m0 /\ Going m /\ Awaits m id T /\ exists x, tr m = x ++ tr m0.

Lemma along_step id T m0 k m l : excl m -> own l -> along id T m0 k m -> along id T m0 k (mstep m l).
Proof.
  intros Hx Hl [H|(j&Hj&E&G&A&x&Et)]; [left; now apply reached_step|].
  destruct (own_step m l G Hl) as [->|[-> _]].
  2:{ right. exists j. eauto 10. }
  destruct (adv_step m id T G A) as (new&Ht&[Hd|[Hs|(G'&A'&_)]]).
  - left. now left.
  - left. right. exists (new ++ x). rewrite Ht, Et, app_assoc. split; auto. now apply served_r.
  - right. exists (j + 1)%nat. split; [lia|]. split; [rewrite <- advs_add, <- E; reflexivity|].
    split; auto. split; auto. exists (new ++ x). now rewrite Ht, Et, app_assoc.
Qed.

Lemma along_steps id T m0 k ls : forall m, excl m -> Forall own ls -> along id T m0 k m ->
  along id T m0 k (fold_left mstep ls m).
Proof.
  induction ls as [|l ls IH]; cbn; intros m Hx F H; auto. inversion F; subst.
  apply IH; auto. - now apply mstep_excl. - now apply along_step.
Qed.

Lemma along_round id T m0 k r : forall m, excl m -> Forall own r -> along id T m0 k m ->
  (forall l, l = own_label (ctl m) -> In l r) -> along id T m0 (S k) (fold_left mstep r m).
Proof.
  induction r as [|l r IH]; intros m Hx F H Hin; [destruct (Hin _ eq_refl)|]. cbn. inversion F as [|? ? Hl F']; subst.
  destruct H as [H|(j&Hj&E&G&A&x&Et)].
  { left. apply reached_steps; [now apply mstep_excl|now apply reached_step]. }
  destruct (own_step m l G Hl) as [Em|[Em Hne]].
  - rewrite Em. apply along_steps; auto; [now apply mstep_excl|].
    destruct (adv_step m id T G A) as (new&Ht&[Hd|[Hs|(G'&A'&_)]]).
    + left. now left.
    + left. right. exists (new ++ x). rewrite Ht, Et, app_assoc. split; auto. now apply served_r.
    + right. exists (j + 1)%nat. split; [lia|]. split; [rewrite <- advs_add, <- E; reflexivity|].
      split; auto. split; auto. exists (new ++ x). now rewrite Ht, Et, app_assoc.
  - rewrite Em. apply IH; auto.
    + right. exists j. eauto 10.
    + intros l' ->. destruct (Hin _ eq_refl); [congruence|auto].
Qed.

(** A round of the simulation thread: in any order and any number, but each kind of move is tried. *)
Definition fair_round (r : list label) : Prop := Forall own r /\ In LTau r /\ In LTimeout r /\ In LEnd r.

Lemma fair_in r m : fair_round r -> In (own_label (ctl m)) r.
Proof. intros (_&H1&H2&H3). destruct (ctl m); auto. Qed.

Lemma fold_excl ls : forall m, excl m -> excl (fold_left mstep ls m).
Proof. induction ls as [|l ls IH]; cbn; intros m H; auto. apply IH. now apply mstep_excl. Qed.

Lemma along_rounds id T m0 rounds : forall k m, excl m -> Forall fair_round rounds -> along id T m0 k m ->
  along id T m0 (k + length rounds) (fold_left mstep (concat rounds) m).
Proof.
  induction rounds as [|r rounds IH]; cbn; intros k m Hx F H.
  - now replace (k + 0)%nat with k by lia.
  - inversion F as [|? ? Hr F']; subst. rewrite fold_left_app.
    replace (k + S (length rounds))%nat with (S k + length rounds)%nat by lia. apply IH; auto; [now apply fold_excl|].
    apply along_round; auto; [exact (proj1 Hr)|]. intros l ->. now apply fair_in.
Qed.

Theorem fair_rounds_reach m id T : Going m -> Awaits m id T -> exists n, forall rounds,
  (n <= length rounds)%nat -> Forall fair_round rounds -> reached id (tr m) (fold_left mstep (concat rounds) m).
Proof.
  intros G A. destruct (reach_advs id T m G A) as [n Hn]. exists n. intros rounds Hl F.
  assert (excl m) as Hx by exact (m_excl _ (g_live _ G)).
  destruct (along_rounds id T m rounds 0 m Hx F) as [H|(j&Hj&E&_)]; auto.
  - right. exists 0%nat. split; auto. split; auto. split; auto. split; auto. now exists [].
  - rewrite E. replace j with (n + (j - n))%nat by (cbn in Hj; lia). rewrite <- advs_add.
    apply reached_advs; auto. now apply advs_excl.
Qed.
