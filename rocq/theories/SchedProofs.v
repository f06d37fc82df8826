(** Preservation of the scheduler invariant by every step of a disciplined history. *)
From Verif Require Import Base SchedModel SchedSpec SchedInv.
From Coq Require Import Permutation.

#[local] Opaque hold_id i64_max i64_min.
#[local] Arguments next_key K t : simpl never.

(** Control part of the invariant. *)
Definition at_key (s : sched) (K : Z) : Prop :=
  now s = K /\ In K (keys (tbl s)) /\ window s = false.

Definition back_inv (s : sched) (b : back) : Prop :=
  match b with BStart => True | BPost K | BEvt K _ => at_key s K end.

Definition ctl_inv (s : sched) (c : ctrl) : Prop :=
  match c with
  | Idle | Dead _ => True
  | ImmGo _ b | ImmRun _ _ b => back_inv s b
  | Pre K | Wait K =>
      window s = true /\ In K (keys (tbl s)) /\ (forall k, In k (keys (tbl s)) -> K <= k)
  | Post K | EvtGo K _ | EvtRun _ K _ => at_key s K
  end.

Definition cur_of (c : ctrl) (z : zctrl) : Z :=
  match c with
  | ImmRun id _ _ | EvtRun id _ _ => id
  | _ => match z with ZRun id _ _ => id | _ => -1 end
  end.

Definition FIc (c : ctrl) : list Z := runI c ++ restI c.
Definition FEc (c : ctrl) : list Z := runE c ++ restE c.
Definition ZFc (z : zctrl) : list Z := zrun z ++ zrest z.

Record MLive (m : mach) : Prop := {
  m_s : SInv (sc m) (FIc (ctl m)) (FEc (ctl m)) (ZFc (zc m));
  m_ctl : ctl_inv (sc m) (ctl m);
  m_dang : dang m = false;
  m_cur : cur (sc m) = cur_of (ctl m) (zc m);
  m_excl : sim_ep_running (ctl m) && zulu_running m = false;
  m_pend : forall q, In q (pend m) -> (r_repeat q <> 0 -> 0 < r_cycle q) /\ r_kind q <> KZulu
}.

Definition MInv (m : mach) : Prop := ctl m = Dead DOverflow \/ (MLive m /\ forall d, ctl m <> Dead d).

Lemma MInv_init : MInv mach_init.
Proof.
  right. split; [|discriminate]. constructor; cbn; auto.
  - apply SInv_init.
  - intros ? [].
Qed.

Lemma mdel_notin {A} k (m : omap A) : ~ In k (keys m) -> mdel k m = m.
Proof.
  induction m as [|[k' a] r IH]; intros H; auto. unfold keys in *; cbn in *.
  unfold mdel; fold (@mdel A). destruct (Z.eqb_spec k k') as [->|]; [tauto|].
  f_equal. apply IH. tauto.
Qed.

Lemma next_scheduled_le s k : msorted (tbl s) -> In k (keys (tbl s)) -> next_scheduled s <= k.
Proof.
  unfold next_scheduled. destruct (tbl s) as [|[k0 l] r]; [intros _ []|].
  intros Hs Hin. apply msorted_cons in Hs as [_ Hlt]. destruct Hin as [<-|Hin]; cbn; [lia|].
  specialize (Hlt _ Hin). lia.
Qed.

Lemma next_scheduled_in s : tbl s <> [] -> In (next_scheduled s) (keys (tbl s)).
Proof. unfold next_scheduled. destruct (tbl s) as [|[k0 l] r]; [congruence|]. intros _. now left. Qed.

Lemma next_key_some K (t : omap (list Z)) k : msorted t -> next_key K t = Some k ->
  K < k /\ In k (keys t) /\ (forall k', In k' (keys t) -> K < k' -> k <= k').
Proof.
  induction t as [|[k0 l] r IH]; [discriminate|]. intros Hs. apply msorted_cons in Hs as [Hs Hlt].
  unfold next_key; fold next_key. destruct (Z.ltb_spec K k0).
  - intros [= <-]. repeat split; auto; [now left|]. intros k' [<-|Hin] _; cbn; [lia|].
    specialize (Hlt _ Hin). lia.
  - intros H'. destruct (IH Hs H') as (H1&H2&H3). repeat split; auto; [now right|].
    intros k' [<-|Hin] Hk; cbn in *; [lia|]. auto.
Qed.

Lemma keys_ge_mdel s K FI FE ZF : SInv s FI FE ZF -> now s = K -> In K (keys (tbl s)) ->
  forall k, In k (keys (mdel K (tbl s))) -> K < k.
Proof.
  intros H Hn HK k Hk. apply keys_mdel in Hk as [Hne Hk]; [|apply H].
  pose proof (i_keys _ _ _ _ H _ Hk). lia.
Qed.

(** *** Calls *)
Lemma tkind_eqb_eq a b : tkind_eqb a b = true <-> a = b.
Proof. destruct a, b; cbn; intuition congruence. Qed.

Definition frame (s s' : sched) : Prop :=
  cur s' = cur s /\ hold s' = hold s /\ window s' = window s.

(** What a call does to keys, as seen by the run loop at [c]. *)
Definition keys_ok (c : ctrl) (s s' : sched) (kill : option Z) : Prop :=
  (forall K, ctl_key c = Some K -> In K (keys (tbl s)) -> In K (keys (tbl s')) /\ kill <> Some K) /\
  (forall K k, advancing c = Some K -> In k (keys (tbl s')) -> In k (keys (tbl s)) \/ K <= k).

Lemma keys_ok_same c s s' : tbl s' = tbl s -> keys_ok c s s' None.
Proof. intros E. split; intros; rewrite ?E in *; auto. split; auto; discriminate. Qed.

Lemma keys_ok_tins c s s' sim id : tbl s' = tins sim id (tbl s) ->
  (forall K, advancing c = Some K -> K <= sim) -> keys_ok c s s' None.
Proof.
  intros E H. split; intros; rewrite ?E in *.
  - split; [|discriminate]. apply keys_tins. auto.
  - apply keys_tins in H1 as [->|]; auto.
Qed.

Lemma keys_ok_tdel c s s' id e : tok (tbl s) -> tbl s' = tdel (ev_next e) id (tbl s) ->
  (forall K, ctl_key c = Some K -> ev_next e <> K) ->
  keys_ok c s s' (tdel_kills (ev_next e) id (tbl s)).
Proof.
  intros Ht E H. split; intros; rewrite ?E in *.
  - specialize (H _ H0). split; [apply keys_tdel_other; auto|].
    destruct (tdel_cases (ev_next e) id (tbl s)) as [(_&_&->)|(_&_&->)]; congruence.
  - apply keys_tdel in H1; auto.
Qed.

Lemma keys_ok_retime c s s' id e sim : tok (tbl s) -> tbl s' = tins sim id (tdel (ev_next e) id (tbl s)) ->
  (forall K, ctl_key c = Some K -> ev_next e <> K) -> (forall K, advancing c = Some K -> K <= sim) ->
  keys_ok c s s' (tdel_kills (ev_next e) id (tbl s)).
Proof.
  intros Ht E H H'. split; intros; rewrite ?E in *.
  - specialize (H _ H0). split; [apply keys_tins; right; apply keys_tdel_other; auto|].
    destruct (tdel_cases (ev_next e) id (tbl s)) as [(_&_&->)|(_&_&->)]; congruence.
  - apply keys_tins in H1 as [->|H1]; auto. apply keys_tdel in H1; auto.
Qed.

Lemma waiting_of s id e : waiting s id -> mget id (evs s) = Some e -> In id (tget (ev_next e) (tbl s)).
Proof. intros (e'&He'&Hin) He. congruence. Qed.

Lemma zwaiting_of s id e : zwaiting s id -> mget id (evs s) = Some e -> In id (tget (ev_next e) (ztbl s)).
Proof. intros (e'&He'&Hin) He. congruence. Qed.

Lemma set_event_time_ok m id sim t k r :
  MLive m -> set_event_time (sc m) id sim t k = Ok r -> retime_ok m id sim ->
  SInv (r_st r) (FIc (ctl m)) (FEc (ctl m)) (ZFc (zc m)) /\ now (r_st r) = now (sc m) /\
  frame (sc m) (r_st r) /\ keys_ok (ctl m) (sc m) (r_st r) (r_kill r).
Proof.
  intros HL. pose proof (m_s _ HL) as H. unfold set_event_time.
  destruct (mget id (evs (sc m))) as [e|] eqn:He; [|discriminate].
  destruct (negb _); [discriminate|]. intros Hr (Hw&Hel&Hnb).
  pose proof (waiting_of _ _ _ Hw He) as Hin.
  destruct (Z.ltb_spec sim (now (sc m))).
  - injection Hr as <-; cbn. split; [|split; [|split]]; try (repeat split; reflexivity).
    + now apply SInv_erase_tbl.
    + apply keys_ok_tdel; [apply H|reflexivity|intros K HK; apply (Hel e K He HK)].
  - injection Hr as <-; cbn. split; [|split; [|split]]; try (repeat split; reflexivity).
    + now apply SInv_retime.
    + eapply keys_ok_retime; cbn; [apply H|reflexivity|intros K HK; apply (Hel e K He HK)|intros K HK; apply Hnb; auto].
Qed.

Lemma check_add_ok s q q' : check_add s q = Ok q' -> q' = q /\ now s <= r_sim q /\ (r_repeat q <> 0 -> 0 < r_cycle q).
Proof.
  unfold check_add. destruct (Z.ltb_spec (r_sim q) (now s)); [discriminate|].
  destruct (Z.eqb_spec (r_repeat q) 0) as [E|E]; cbn.
  - intros [= ->]. repeat split; auto. congruence.
  - destruct (Z.leb_spec (r_cycle q) 0); [discriminate|]. intros [= ->]. repeat split; auto.
Qed.

Lemma build_add_kind s c q : build_add s c = Some (Ok q) -> r_kind q <> KZulu.
Proof.
  destruct c; cbn; try discriminate; destruct (_ : bool); intros [= <-]; cbn; discriminate.
Qed.

Lemma commit_add_tbl s q r : commit_add s q = Ok r ->
  tbl (r_st r) = tins (r_sim q) (last s + 1) (tbl s) /\ now (r_st r) = now s /\ frame s (r_st r) /\
  r_kill r = None /\ r_id r = last s + 1.
Proof.
  unfold commit_add. destruct (last s <? i64_max); [|discriminate]. intros [= <-]. cbn. repeat split.
Qed.

Definition now_ok (m : mach) (s' : sched) : Prop :=
  now s' = now (sc m) \/
  (now (sc m) <= now s' /\ window (sc m) = true).

Lemma MLive_FE_window m : MLive m -> window (sc m) = true -> FEc (ctl m) = [].
Proof.
  intros HL Hw. pose proof (m_ctl _ HL) as Hc. unfold FEc.
  destruct (ctl m); cbn in *; auto; unfold at_key in *; try (destruct b; cbn in *; auto);
    try (destruct Hc as (_&_&Hf); congruence).
Qed.

Lemma api_ok m c r :
  MLive m -> api (sc m) c = Ok r -> good_call m c ->
  SInv (r_st r) (FIc (ctl m)) (FEc (ctl m)) (ZFc (zc m)) /\ now_ok m (r_st r) /\
  frame (sc m) (r_st r) /\ keys_ok (ctl m) (sc m) (r_st r) (r_kill r).
Proof.
  intros HL Hr Hg. pose proof (m_s _ HL) as H.
  destruct c; cbn [api good_call] in *.
  - (* AddImm *)
    destruct (Z.ltb_spec (last (sc m)) i64_max); [|discriminate]. injection Hr as <-; cbn.
    split; [|split; [left; reflexivity|split; [repeat split|now apply keys_ok_same]]].
    now apply SInv_addimm.
  - destruct (build_add _ _) as [[q| |]|] eqn:Eb; cbn [bind] in Hr; try discriminate.
    destruct (check_add _ _) as [q'| |] eqn:Ec; cbn [bind] in Hr; try discriminate.
    apply check_add_ok in Ec as (->&Hn&Hc). destruct (commit_add_tbl _ _ _ Hr) as (E1&E2&E3&E4&_).
    split; [|split; [left; auto|split; auto]].
    + eapply SInv_commit; eauto. eapply build_add_kind; eauto.
    + rewrite E4. eapply keys_ok_tins; eauto. intros K HK. eapply Hg; eauto.
  - destruct (build_add _ _) as [[q| |]|] eqn:Eb; cbn [bind] in Hr; try discriminate.
    destruct (check_add _ _) as [q'| |] eqn:Ec; cbn [bind] in Hr; try discriminate.
    apply check_add_ok in Ec as (->&Hn&Hc). destruct (commit_add_tbl _ _ _ Hr) as (E1&E2&E3&E4&_).
    split; [|split; [left; auto|split; auto]].
    + eapply SInv_commit; eauto. eapply build_add_kind; eauto.
    + rewrite E4. eapply keys_ok_tins; eauto. intros K HK. eapply Hg; eauto.
  - destruct (build_add _ _) as [[q| |]|] eqn:Eb; cbn [bind] in Hr; try discriminate.
    destruct (check_add _ _) as [q'| |] eqn:Ec; cbn [bind] in Hr; try discriminate.
    apply check_add_ok in Ec as (->&Hn&Hc). destruct (commit_add_tbl _ _ _ Hr) as (E1&E2&E3&E4&_).
    split; [|split; [left; auto|split; auto]].
    + eapply SInv_commit; eauto. eapply build_add_kind; eauto.
    + rewrite E4. eapply keys_ok_tins; eauto. intros K HK. eapply Hg; eauto.
  - (* AddZulu *)
    destruct (t <? z); [discriminate|]. destruct (_ && _) eqn:Ec; [discriminate|].
    destruct (Z.ltb_spec (last (sc m)) i64_max); [|discriminate]. injection Hr as <-; cbn.
    split; [|split; [left; reflexivity|split; [repeat split|now apply keys_ok_same]]].
    apply SInv_addzulu; auto. intros Hr0. destruct (Z.eqb_spec r0 0); [congruence|]. cbn in Ec. lia.
  - destruct (in_i64 _); [|discriminate]. destruct (set_event_time_ok _ _ _ _ _ _ HL Hr Hg) as (?&?&?&?).
    split; [|split; [left|split]]; auto.
  - destruct (_ && _); [|discriminate]. destruct (set_event_time_ok _ _ _ _ _ _ HL Hr Hg) as (?&?&?&?).
    split; [|split; [left|split]]; auto.
  - destruct (_ && _); [|discriminate]. destruct (set_event_time_ok _ _ _ _ _ _ HL Hr Hg) as (?&?&?&?).
    split; [|split; [left|split]]; auto.
  - (* SetZulu *)
    unfold set_event_zulu in Hr. destruct (mget id _) as [e|] eqn:He; [|discriminate].
    destruct (negb _); [discriminate|]. pose proof (zwaiting_of _ _ _ Hg He) as Hin.
    destruct (t <? z); injection Hr as <-; cbn;
      (split; [|split; [left; reflexivity|split; [repeat split|now apply keys_ok_same]]]).
    + now apply SInv_zerase.
    + now apply SInv_zretime.
  - (* SetCycle *)
    destruct (mget id _) as [e|] eqn:He; [|discriminate]. destruct (_ && _); [discriminate|].
    injection Hr as <-; cbn.
    split; [|split; [left; reflexivity|split; [repeat split|now apply keys_ok_same]]].
    apply SInv_setev; auto; [eauto|]. intros Hin. destruct (i_fi _ _ _ _ H _ Hin) as (e'&He'&_&?&_). congruence.
  - (* SetRepeat *)
    destruct (mget id _) as [e|] eqn:He; [|discriminate]. destruct (_ && _) eqn:Ec; [discriminate|].
    injection Hr as <-; cbn.
    split; [|split; [left; reflexivity|split; [repeat split|now apply keys_ok_same]]].
    apply SInv_setev; auto.
    + intros Hr0. destruct (Z.eqb_spec r0 0); [congruence|]. cbn in Ec. lia.
    + intros Hin. destruct (Z.eq_dec r0 0); auto. exfalso. apply Hg; auto.
      unfold is_immediate, FIc in *. rewrite !in_app_iff in Hin. tauto.
  - (* Remove *)
    unfold remove_event in Hr. destruct (mget id _) as [e|] eqn:He; [|discriminate].
    destruct (Z.eqb_spec (cur (sc m)) id) as [Ecur|Hncur].
    { injection Hr as <-; cbn.
      split; [|split; [left; reflexivity|split; [repeat split|now apply keys_ok_same]]].
      apply SInv_setev; auto. congruence. }
    destruct Hg as [?|Hg]; [congruence|]. specialize (Hg e eq_refl).
    destruct (tkind_eqb (ev_kind e) KZulu).
    + destruct Hg as [Hz Hk]. pose proof (zwaiting_of _ _ _ Hz He) as Hin.
      pose proof (SInv_zerase _ _ _ _ _ _ H He Hin) as HS.
      destruct (sdel id _) eqn:El; injection Hr as <-; cbn.
      * split; [|split; [left; reflexivity|split; [repeat split|]]].
        -- eapply SInv_misc; eauto. cbn. now apply mdel_notin.
        -- split; cbn; rewrite mdel_notin by auto; auto. intros K _ HK. split; auto. congruence.
      * split; [|split; [left; reflexivity|split; [repeat split|now apply keys_ok_same]]]. auto.
    + destruct Hg as [Hw Hel]. injection Hr as <-; cbn.
      split; [|split; [left; reflexivity|split; [repeat split|]]].
      * apply SInv_erase_tbl; auto. now apply waiting_of.
      * apply keys_ok_tdel; [apply H|reflexivity|intros K HK; apply (Hel e K He HK)].
  - destruct (in_i64 _); [|discriminate]. injection Hr as <-; cbn.
    split; [|split; [left; reflexivity|split; [repeat split|now apply keys_ok_same]]].
    eapply SInv_misc; eauto.
  - destruct (_ && _); [|discriminate]. injection Hr as <-; cbn.
    split; [|split; [left; reflexivity|split; [repeat split|now apply keys_ok_same]]].
    eapply SInv_misc; eauto.
  - injection Hr as <-; cbn.
    split; [|split; [left; reflexivity|split; [repeat split|now apply keys_ok_same]]].
    eapply SInv_misc; eauto.
  - (* TKSetSim *)
    unfold set_sim_time in Hr. destruct (window (sc m)) eqn:Ew; cbn in Hr.
    + destruct ((t <? now (sc m)) || _) eqn:Et; [discriminate|]. injection Hr as <-; cbn.
      apply orb_false_iff in Et as [E1 E2]. rewrite Z.ltb_ge in E1, E2.
      split; [|split; [right; split; auto|split; [repeat split|now apply keys_ok_same]]].
      pose proof (MLive_FE_window _ HL Ew) as HF. rewrite HF in *. apply SInv_now; auto.
      intros k Hk. pose proof (next_scheduled_le (sc m) k). destruct H as [_ [Hs _]]. specialize (H0 Hs Hk). lia.
    + injection Hr as <-; cbn.
      split; [|split; [left; reflexivity|split; [repeat split|now apply keys_ok_same]]]. auto.
Qed.

Lemma ctl_inv_call m s' kill :
  MLive m -> now_ok m s' -> frame (sc m) s' -> keys_ok (ctl m) (sc m) s' kill ->
  ctl_inv s' (ctl m) /\ (forall K, ctl_key (ctl m) = Some K -> kill <> Some K).
Proof.
  intros HL Hn (Hcur&Hh&Hw) [Hk1 Hk2]. pose proof (m_ctl _ HL) as Hc.
  assert (Hat : forall K, ctl_key (ctl m) = Some K -> at_key (sc m) K -> at_key s' K /\ kill <> Some K).
  { intros K HK (H1&H2&H3). destruct (Hk1 K HK H2) as [H4 H5]. split; auto.
    destruct Hn as [Hn|[_ Hn]]; [|congruence]. repeat split; congruence. }
  destruct (ctl m) eqn:E; cbn in *.
  - split; [exact I|discriminate].
  - destruct b as [|K|K r]; cbn in *; [split; [exact I|discriminate]| |];
      destruct (Hat K eq_refl Hc); (split; [auto|intros ? [= <-]; auto]).
  - destruct b as [|K|K r]; cbn in *; [split; [exact I|discriminate]| |];
      destruct (Hat K eq_refl Hc); (split; [auto|intros ? [= <-]; auto]).
  - destruct Hc as (H1&H2&H3). destruct (Hk1 K eq_refl H2). split; [|intros ? [= <-]; auto].
    repeat split; auto; [congruence|]. intros k Hk. destruct (Hk2 K k eq_refl Hk); auto.
  - destruct Hc as (H1&H2&H3). destruct (Hk1 K eq_refl H2). split; [|intros ? [= <-]; auto].
    repeat split; auto; [congruence|]. intros k Hk. destruct (Hk2 K k eq_refl Hk); auto.
  - destruct (Hat K eq_refl Hc). split; [auto|intros ? [= <-]; auto].
  - destruct (Hat K eq_refl Hc). split; [auto|intros ? [= <-]; auto].
  - destruct (Hat K eq_refl Hc). split; [auto|intros ? [= <-]; auto].
  - split; [exact I|discriminate].
Qed.

Lemma MInv_dead m : MInv (die m DOverflow).
Proof. left. reflexivity. Qed.

Lemma call_inv m c : MLive m -> (forall d, ctl m <> Dead d) -> admitted_call m c -> MInv (call m c).
Proof.
  intros HL Hnd Ha. unfold call. destruct (api (sc m) c) as [r| |] eqn:Er; [|right; auto|apply MInv_dead].
  destruct Ha as [(e&He)|Hg]; [congruence|].
  destruct (api_ok _ _ _ HL Er Hg) as (HS&Hn&Hf&Hk).
  destruct (ctl_inv_call _ _ _ HL Hn Hf Hk) as [Hc Hkill].
  right. split; [|exact Hnd].
  destruct HL. constructor; cbn; auto.
  - rewrite m_dang0. cbn. destruct (r_kill r) as [k|]; auto. destruct (ctl_key (ctl m)) as [K|]; auto.
    destruct (Z.eqb_spec k K) as [->|]; auto. exfalso. now apply (Hkill K).
  - destruct Hf as (->&_). auto.
Qed.

Lemma begin_inv m c : MLive m -> (forall d, ctl m <> Dead d) -> MInv (begin_add m c).
Proof.
  intros HL Hnd. unfold begin_add. destruct (build_add (sc m) c) as [[q| |]|] eqn:Eb; try (right; now auto).
  2: apply MInv_dead.
  destruct (check_add (sc m) q) as [q'| |] eqn:Ec; try (right; now auto).
  apply check_add_ok in Ec as (->&Hn&Hc). right. split; [|exact Hnd].
  destruct HL. constructor; cbn; auto.
  intros q0 Hin. apply in_app_iff in Hin as [|[<-|[]]]; auto. split; auto. eapply build_add_kind; eauto.
Qed.

Lemma in_remove_nth {A} n (l : list A) x : In x (remove_nth n l) -> In x l.
Proof.
  revert n; induction l as [|a l IH]; intros [|n]; cbn; auto. intros [|]; eauto.
Qed.

Lemma commit_inv m n : MLive m -> (forall d, ctl m <> Dead d) -> admitted m (LCommit n) -> MInv (commit m n).
Proof.
  intros HL Hnd Ha. unfold commit. cbn in Ha. destruct (nth_error (pend m) n) as [q|] eqn:Eq; [|right; auto].
  destruct (Ha q eq_refl) as [H1 H2].
  destruct (commit_add (sc m) q) as [r| |] eqn:Ec; [|right; auto|apply MInv_dead].
  destruct (m_pend _ HL q (nth_error_In _ _ Eq)) as [Hq1 Hq2].
  destruct (commit_add_tbl _ _ _ Ec) as (E1&E2&E3&E4&_).
  pose proof (SInv_commit _ _ _ _ _ _ (m_s _ HL) H1 Hq1 Hq2 Ec) as HS.
  assert (Hk : keys_ok (ctl m) (sc m) (r_st r) None) by (eapply keys_ok_tins; eauto).
  destruct (ctl_inv_call m (r_st r) None HL (or_introl E2) E3 Hk) as [Hc _].
  right. split; [|exact Hnd].
  destruct HL. constructor; cbn; auto.
  - destruct E3 as (->&_). auto.
  - intros q0 Hin. apply m_pend0. eapply in_remove_nth; eauto.
Qed.

Lemma MLive_log m t : MLive m -> MLive (log m t).
Proof. intros H; destruct H; constructor; auto. Qed.

(** *** The simulation thread *)
Lemma not_dead_goto m s c : (forall d, c <> Dead d) -> forall d, ctl (goto m s c) <> Dead d.
Proof. auto. Qed.

(** Entering a state where no simulation entry point runs. *)
Lemma MInv_goto m s c :
  MLive m -> sim_ep_running c = false -> (forall d, c <> Dead d) ->
  SInv s (FIc c) (FEc c) (ZFc (zc m)) -> ctl_inv s c -> cur s = cur_of c (zc m) ->
  MInv (goto m s c).
Proof.
  intros HL Hr Hnd HS Hc Hcur. right. split; [|exact Hnd].
  destruct HL. constructor; cbn; auto. rewrite Hr. reflexivity.
Qed.

Ltac mgoto := apply MInv_goto;
  [assumption|reflexivity|discriminate|try assumption|try assumption; try exact I|try assumption].

Lemma loop_head_inv m s o :
  MLive m -> SInv s [] [] (ZFc (zc m)) -> cur s = cur_of Idle (zc m) ->
  (forall K, o = Some K -> In K (keys (tbl s)) /\ forall k, In k (keys (tbl s)) -> K <= k) ->
  MInv (loop_head m s o).
Proof.
  intros HL HS Hcur Ho. right. destruct o as [K|]; cbn.
  - destruct (Ho K eq_refl). split; [|discriminate]. destruct HL. constructor; cbn; auto.
    eapply SInv_misc; eauto.
  - split; [|discriminate]. destruct HL. constructor; cbn; auto.
Qed.

Lemma imm_return_inv m s b :
  MLive m -> ctl m = ImmGo [] b -> s = sc m -> MInv (imm_return m s b).
Proof.
  intros HL Ec ->. pose proof (m_s _ HL) as HS. pose proof (m_ctl _ HL) as Hc. pose proof (m_cur _ HL) as Hcur.
  rewrite Ec in *. unfold FIc, FEc in HS. cbn in *. destruct b as [|K|K r]; cbn in *.
  - apply loop_head_inv; auto. destruct (tbl (sc m)) as [|[k l] t] eqn:Et; [discriminate|].
    intros K [= <-]. split; [now left|]. intros k' Hk'.
    pose proof (i_tbl _ _ _ _ HS) as [Hs _]. rewrite Et in Hs. apply msorted_cons in Hs as [_ Hlt].
    destruct Hk' as [<-|Hk']; cbn; [lia|]. specialize (Hlt _ Hk'). lia.
  - mgoto.
  - mgoto.
Qed.

Lemma stop_events_inv m s K rest :
  MLive m -> SInv s [] rest (ZFc (zc m)) -> at_key s K -> cur s = cur_of Idle (zc m) ->
  MInv (stop_events m s K rest).
Proof.
  intros HL HS (Hn&HK&Hw) Hcur. unfold stop_events. rewrite (m_dang _ HL).
  mgoto. subst K. cbn. now apply SInv_unswap_tbl.
Qed.

Lemma stop_imm_inv m s rest b :
  MLive m -> SInv s rest (back_rest b) (ZFc (zc m)) -> back_inv s b -> cur s = cur_of Idle (zc m) ->
  MInv (stop_imm m s rest b).
Proof.
  intros HL HS Hb Hcur. unfold stop_imm.
  assert (HS' : SInv (set_imm (sins_all rest (imm s)) s) [] (back_rest b) (ZFc (zc m))).
  { apply SInv_unswap_imm. now rewrite app_nil_r. }
  destruct b as [|K|K r]; cbn in *.
  - mgoto.
  - mgoto.
  - apply stop_events_inv; auto.
Qed.

Lemma after_imm_inv m s rest b :
  MLive m -> SInv s rest (back_rest b) (ZFc (zc m)) -> back_inv s b -> cur s = cur_of Idle (zc m) ->
  MInv (after_imm m s rest b).
Proof.
  intros HL HS Hb Hcur. unfold after_imm. destruct (hold s).
  - now apply stop_imm_inv.
  - mgoto.
Qed.

Lemma after_evt_inv m s K rest :
  MLive m -> SInv s [] rest (ZFc (zc m)) -> at_key s K -> cur s = cur_of Idle (zc m) ->
  MInv (after_evt m s K rest).
Proof.
  intros HL HS Hb Hcur. unfold after_evt. destruct (hold s).
  - now apply stop_events_inv.
  - mgoto.
Qed.

Lemma back_inv_eq s s' b : now s' = now s -> window s' = window s ->
  (forall k, In k (keys (tbl s)) -> In k (keys (tbl s'))) -> back_inv s b -> back_inv s' b.
Proof.
  intros H1 H2 H3. destruct b as [|K|K r]; cbn; auto; intros (?&?&?); repeat split; auto; congruence.
Qed.

Lemma at_key_eq s s' K : now s' = now s -> window s' = window s ->
  (forall k, In k (keys (tbl s)) -> In k (keys (tbl s'))) -> at_key s K -> at_key s' K.
Proof. intros H1 H2 H3 (?&?&?). repeat split; auto; congruence. Qed.

Lemma skips_sim s e : ev_kind e = KSim -> skips s e = false.
Proof. unfold skips. now intros ->. Qed.

Lemma tau_inv m : MLive m -> (forall d, ctl m <> Dead d) -> MInv (tau m).
Proof.
  intros HL Hnd. pose proof (m_s _ HL) as HS. pose proof (m_ctl _ HL) as Hc. pose proof (m_cur _ HL) as Hcur.
  unfold tau. destruct (ctl m) eqn:E; try (right; rewrite <- E in *; now auto).
  - (* ImmGo *)
    unfold FIc, FEc in HS. cbn in HS, Hc, Hcur. destruct rest as [|id rest].
    + destruct (imm (sc m)) as [|i l] eqn:Ei.
      * apply imm_return_inv; auto.
      * mgoto. unfold FIc, FEc. cbn. rewrite <- Ei.
        pose proof (SInv_swap_imm _ _ _ _ HS) as H. rewrite app_nil_r in H. exact H.
    + destruct (i_fi _ _ _ _ HS id) as (e&He&Hk&Hr&Hn); [apply in_app_iff; cbn; auto|].
      rewrite He, skips_sim by auto.
      destruct (zulu_running m) eqn:Ez; [right; rewrite <- E in *; now auto|].
      right. split; [|discriminate]. destruct HL.
      constructor; cbn; auto; try (eapply SInv_misc; eauto); try rewrite Ez; auto.
  - (* Pre *)
    cbn in Hc. destruct (hold (sc m)) eqn:Eh.
    + mgoto.
    + rewrite (m_dang _ HL). mgoto.
  - (* Wait *)
    cbn in Hc. destruct (hold (sc m)) eqn:Eh; [|right; rewrite <- E in *; now auto].
    mgoto.
  - (* Post *)
    mgoto.
  - (* EvtGo *)
    unfold FIc, FEc in HS. cbn in HS, Hc, Hcur. destruct rest as [|id rest].
    + rewrite (m_dang _ HL). destruct Hc as (Hn&HK&Hw).
      destruct (tget K (tbl (sc m))) as [|i l] eqn:Et.
      * apply loop_head_inv; auto.
        -- now apply SInv_erase_empty.
        -- intros k Hk. apply next_key_some in Hk as (H1&H2&H3); [|apply HS]. cbn. split.
           ++ apply keys_mdel; [apply HS|]. split; auto. lia.
           ++ intros k' Hk'. apply H3.
              ** eapply keys_mdel_incl; eauto.
              ** eapply keys_ge_mdel; eauto.
      * subst K. mgoto.
        -- unfold FIc, FEc. cbn. rewrite <- Et. now apply SInv_swap_tbl.
        -- cbn. repeat split; auto. apply keys_mset. auto.
    + destruct (i_fe _ _ _ _ HS id) as (e&He&Hn&Hk); [cbn; auto|]. rewrite He.
      destruct (skips (sc m) e).
      * destruct (finish (sc m) id) as [d|s'] eqn:Ef.
        -- rewrite (finish_fe _ _ _ _ _ _ HS Ef). apply MInv_dead.
        -- destruct (finish_fe_ok _ _ _ _ _ _ HS Ef) as (HS'&H1&H2&H3&H4&H5&H6).
           apply after_evt_inv; auto using MLive_log.
           ++ eapply at_key_eq; eauto.
           ++ rewrite H4. exact Hcur.
      * destruct (zulu_running m) eqn:Ez; [right; rewrite <- E in *; now auto|].
        right. split; [|discriminate]. destruct HL.
        constructor; cbn; auto; try (eapply SInv_misc; eauto); try rewrite Ez; auto.
Qed.

Lemma timeout_inv m : MLive m -> (forall d, ctl m <> Dead d) -> MInv (timeout m).
Proof.
  intros HL Hnd. unfold timeout. destruct (ctl m) eqn:E; try (right; rewrite <- E in *; now auto).
  pose proof (m_s _ HL) as HS. pose proof (m_ctl _ HL) as Hc. pose proof (m_cur _ HL) as Hcur.
  rewrite (m_dang _ HL). rewrite E in *. unfold FIc, FEc in HS. cbn in HS, Hc, Hcur.
  destruct Hc as (Hw&HK&Hmin).
  assert (Hnow : now (sc m) <= K) by (apply (i_keys _ _ _ _ HS); auto).
  assert (Hmax : K <= next_scheduled (sc m)).
  { apply Hmin. apply next_scheduled_in. intros Et. rewrite Et in HK. destruct HK. }
  unfold set_sim_time. rewrite Hw. cbn.
  destruct (Z.ltb_spec K (now (sc m))); [lia|]. destruct (Z.ltb_spec (next_scheduled (sc m)) K); [lia|]. cbn.
  right. split; [|discriminate]. pose proof HL as HL'. destruct HL. constructor; cbn; auto.
  - eapply SInv_misc; [apply (SInv_now _ _ _ K HS); auto|..]; reflexivity.
  - repeat split; auto.
Qed.

Lemma end_ep_inv m : MLive m -> (forall d, ctl m <> Dead d) -> MInv (end_ep m).
Proof.
  intros HL Hnd. unfold end_ep.
  pose proof (m_s _ HL) as HS. pose proof (m_ctl _ HL) as Hc. pose proof (m_excl _ HL) as Hx.
  destruct (ctl m) eqn:E; try (right; rewrite <- E in *; now auto).
  - unfold FIc, FEc in HS. cbn in HS, Hc, Hx.
    assert (HS0 : SInv (set_cur (-1) (sc m)) (id :: rest) (back_rest b) (ZFc (zc m))).
    { eapply SInv_misc; eauto. }
    destruct (finish _ id) as [d|s'] eqn:Ef.
    + rewrite (finish_fi _ _ _ _ _ _ HS0 Ef). apply MInv_dead.
    + destruct (finish_fi_ok _ _ _ _ _ _ HS0 Ef) as (HS'&H1&H2&H3&H4&H5&H6).
      apply after_imm_inv; auto using MLive_log.
      * eapply back_inv_eq; eauto. rewrite H3. auto.
      * rewrite H4. unfold zulu_running in Hx. cbn [zc log]. destruct (zc m); cbn; congruence.
  - unfold FIc, FEc in HS. cbn in HS, Hc, Hx.
    assert (HS0 : SInv (set_cur (-1) (sc m)) [] (id :: rest) (ZFc (zc m))).
    { eapply SInv_misc; eauto. }
    destruct (finish _ id) as [d|s'] eqn:Ef.
    + rewrite (finish_fe _ _ _ _ _ _ HS0 Ef). apply MInv_dead.
    + destruct (finish_fe_ok _ _ _ _ _ _ HS0 Ef) as (HS'&H1&H2&H3&H4&H5&H6).
      apply after_evt_inv; auto using MLive_log.
      * eapply at_key_eq; eauto.
      * rewrite H4. unfold zulu_running in Hx. cbn [zc log]. destruct (zc m); cbn; congruence.
Qed.

(** *** The Zulu thread *)
Lemma ctl_inv_eq s s' c : now s' = now s -> window s' = window s -> tbl s' = tbl s ->
  ctl_inv s c -> ctl_inv s' c.
Proof.
  intros H1 H2 H3. destruct c; cbn; auto; unfold at_key; try (destruct b; cbn; unfold at_key);
    rewrite ?H1, ?H2, ?H3; auto.
Qed.

Lemma zgoto_inv m s z :
  MLive m -> (forall d, ctl m <> Dead d) -> SInv s (FIc (ctl m)) (FEc (ctl m)) (ZFc z) ->
  ctl_inv s (ctl m) -> cur s = cur_of (ctl m) z ->
  (match z with ZRun _ _ _ => sim_ep_running (ctl m) = false | _ => True end) ->
  MInv (zgoto m s z).
Proof.
  intros HL Hnd HS Hc Hcur Hz. right. split; [|exact Hnd]. destruct HL. constructor; cbn; auto.
  unfold zulu_running in *. cbn. destruct z; rewrite ?andb_false_r; auto. now rewrite Hz.
Qed.

Lemma ztick_inv m z : MLive m -> (forall d, ctl m <> Dead d) -> MInv (ztick m z).
Proof.
  intros HL Hnd. unfold ztick. destruct (zc m) eqn:Ez; try (right; now auto).
  destruct (ztbl (sc m)) as [|[K l] t]; [right; now auto|]. destruct (K <=? z); [|right; now auto].
  right. split; [|exact Hnd]. destruct HL. unfold zulu_running in *. constructor; cbn; auto.
  - rewrite Ez in *. cbn in *. auto.
  - rewrite m_cur0, Ez. reflexivity.
  - rewrite andb_false_r. reflexivity.
Qed.

Lemma ztau_inv m ok : MLive m -> (forall d, ctl m <> Dead d) -> MInv (ztau m ok).
Proof.
  intros HL Hnd. pose proof (m_s _ HL) as HS. pose proof (m_ctl _ HL) as Hc. pose proof (m_cur _ HL) as Hcur.
  unfold ztau. destruct (zc m) as [|K rest|] eqn:Ez; try (right; now auto).
  unfold ZFc in HS. cbn in HS. destruct rest as [|id rest].
  - destruct (tget K (ztbl (sc m))) as [|i l] eqn:Et.
    + apply zgoto_inv; auto using MLive_log. now apply SInv_zerase_empty.
    + apply zgoto_inv; auto using MLive_log. unfold ZFc; cbn. rewrite <- Et.
      pose proof (SInv_swap_z _ _ _ _ K HS) as H. now rewrite app_nil_r in H.
  - destruct (i_zf _ _ _ _ HS id) as (e&He&Hk); [cbn; auto|]. rewrite He.
    destruct ok; cbn [negb].
    + destruct (sim_ep_running (ctl m)) eqn:Er; [right; now auto|].
      assert (Hz : MInv (zgoto m (set_cur id (sc m)) (ZRun id K rest))).
      { apply zgoto_inv; auto using MLive_log.
        - eapply SInv_misc; eauto.
        - cbn. destruct (ctl m); cbn in *; auto; discriminate. }
      destruct Hz as [Hz|[Hz1 Hz2]]; [left; exact Hz|right]. split; [|exact Hz2].
      destruct Hz1. constructor; auto.
    + destruct (zfinish (sc m) id) as [d|s'] eqn:Ef.
      * rewrite (zfinish_zf _ _ _ _ _ _ HS Ef). apply MInv_dead.
      * destruct (zfinish_zf_ok _ _ _ _ _ _ HS Ef) as (HS'&H1&H2&H3&H4&H5&H6).
        apply zgoto_inv; auto using MLive_log.
        -- eapply ctl_inv_eq; eauto.
        -- rewrite H4, Hcur. reflexivity.
Qed.

Lemma zend_inv m : MLive m -> (forall d, ctl m <> Dead d) -> MInv (zend m).
Proof.
  intros HL Hnd. pose proof (m_s _ HL) as HS. pose proof (m_ctl _ HL) as Hc. pose proof (m_excl _ HL) as Hx.
  unfold zend. destruct (zc m) as [| |id K rest] eqn:Ez; try (right; now auto).
  unfold ZFc in HS. cbn in HS. unfold zulu_running in Hx. rewrite Ez, andb_true_r in Hx.
  assert (HS0 : SInv (set_cur (-1) (sc m)) (FIc (ctl m)) (FEc (ctl m)) (id :: rest)).
  { eapply SInv_misc; eauto. }
  destruct (zfinish _ id) as [d|s'] eqn:Ef.
  - rewrite (zfinish_zf _ _ _ _ _ _ HS0 Ef). apply MInv_dead.
  - destruct (zfinish_zf_ok _ _ _ _ _ _ HS0 Ef) as (HS'&H1&H2&H3&H4&H5&H6).
    apply zgoto_inv; auto using MLive_log.
    + eapply ctl_inv_eq; eauto.
    + rewrite H4. cbn [ctl log]. destruct (ctl m); cbn in *; auto; discriminate.
Qed.

(** *** All steps *)
Theorem mstep_inv m l : MInv m -> admitted m l -> MInv (mstep m l).
Proof.
  intros [Hd|[HL Hnd]] Ha.
  - left. unfold mstep. now rewrite Hd.
  - assert (Hstep : MInv match l with
      | LRun => match ctl m with Idle => goto m (set_hold false (sc m)) (ImmGo [] BStart) | _ => m end
      | LTau => tau m | LTimeout => timeout m | LEnd => end_ep m
      | LHold => goto m (set_hold true (sc m)) (ctl m)
      | LCall c => call m c | LBegin c => begin_add m c | LCommit n => commit m n
      | LZTick z => ztick m z | LZTau ok => ztau m ok | LZEnd => zend m end).
    { destruct l; cbn in Ha.
      - destruct (ctl m) eqn:E; try (right; rewrite <- E in *; now auto).
        pose proof (m_s _ HL) as HS. pose proof (m_cur _ HL) as Hcur. rewrite E in *.
        mgoto. eapply SInv_misc; eauto.
      - now apply tau_inv.
      - now apply timeout_inv.
      - now apply end_ep_inv.
      - right. split; [|exact Hnd]. pose proof (m_ctl _ HL) as Hc. destruct HL. constructor; cbn; auto.
        + eapply SInv_misc; eauto.
      - now apply call_inv.
      - now apply begin_inv.
      - now apply commit_inv.
      - now apply ztick_inv.
      - now apply ztau_inv.
      - now apply zend_inv. }
    unfold mstep. destruct (ctl m) eqn:E; try exact Hstep. exfalso. eapply Hnd; eauto.
Qed.

Theorem disciplined_inv m ls : MInv m -> disciplined m ls -> MInv (fold_left mstep ls m).
Proof.
  revert m; induction ls as [|l ls IH]; cbn; intros m Hm Hd; auto.
  destruct Hd. apply IH; auto. now apply mstep_inv.
Qed.
