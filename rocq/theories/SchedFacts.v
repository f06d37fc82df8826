(** Consequences of the invariants, in the vocabulary of SchedSpec. *)
From Verif Require Import Base SchedModel SchedSpec SchedInv SchedProofs SchedTrace SchedMoves SchedOrder SchedHist.
From Coq Require Import Sorting.Sorted.
#[local] Opaque hold_id i64_max i64_min.
Arguments Z.add : simpl never.
Arguments Z.sub : simpl never.
Arguments Z.leb : simpl never.
Arguments Z.ltb : simpl never.
Arguments Z.eqb : simpl never.
Arguments nstarts : simpl never.

Lemma always_split P newer x past : always P (newer ++ x :: past) -> P x past.
Proof. intros H. apply always_app in H. apply H. Qed.

Lemma always_suffix P newer past : always P (newer ++ past) -> always P past.
Proof. induction newer as [|x newer IH]; auto. intros [_ H]. auto. Qed.

(** ** Time *)
Lemma api_now s c r : api s c = Ok r -> now s <= now (r_st r).
Proof. intros H. now apply api_add_id in H as (_&H&_). Qed.

Lemma mstep_now m l : excl m -> now (sc m) <= now (sc (mstep m l)).
Proof.
  intros Hx. destruct (mstep_vis m l Hx) as [E1 E2 E3 E4 E5 E6|d o E1 E2 E3 E4|id im e E1 E2 He E3 E4 E5 E6|id e K rest E1 E2 He E3 E4 E5
                 |id E1 E2 E3 E4|id e E1 He E2 E3 E4|c r E1 E2|q r n E1 E2 E3|K E1 E2 E3 E4 E5 E6 E7 E8].
  - lia.
  - lia.
  - rewrite E5. cbn. lia.
  - rewrite E4. cbn. lia.
  - destruct E3 as (?&_&->&_). cbn. lia.
  - destruct E3 as (?&_&->&_). cbn. lia.
  - rewrite E2. cbn. now apply api_now in E1.
  - rewrite E3. cbn. unfold commit_add in E2. destruct (_ <? _); [|discriminate]. injection E2 as <-. cbn. lia.
  - lia.
Qed.

Lemma run_snoc ls l : run (ls ++ [l]) = mstep (run ls) l.
Proof. unfold run. now rewrite fold_left_app. Qed.

Lemma run_app ls ls' : run (ls ++ ls') = fold_left mstep ls' (run ls).
Proof. unfold run. now rewrite fold_left_app. Qed.

Lemma run_now_mono ls ls' : now (sc (run ls)) <= now (sc (run (ls ++ ls'))).
Proof.
  rewrite run_app. generalize (t_excl _ (run_TInv ls)). generalize (run ls).
  induction ls' as [|l ls' IH]; intros m Hx; cbn; [lia|].
  pose proof (mstep_now m l Hx). specialize (IH (mstep m l) (mstep_excl _ _ Hx)). lia.
Qed.

Lemma run_DInv ls : disciplined mach_init ls -> DInv (run ls).
Proof. intros H. apply disciplined_DInv; auto. apply DInv_init. Qed.

Lemma DInv_live m : DInv m -> alive m -> MLive m.
Proof. intros H Ha. destruct (d_m _ H) as [E|[E _]]; auto. exfalso. eapply Ha; eauto. Qed.

Lemma pending_due ls : disciplined mach_init ls -> alive (run ls) -> forall id l,
  life_of id (tr (run ls)) = Some l -> timed l -> now (sc (run ls)) <= due l.
Proof.
  intros D Ha id l Hl Ht. pose proof (run_DInv _ D) as H.
  apply (timed_due (run ls) id l); auto using DInv_live; [now apply H|now apply H].
Qed.

(** ** Repetition *)
Lemma added_app a b : added (a ++ b) = added a ++ added b.
Proof. unfold added. apply flat_map_app. Qed.

Lemma starts_of_app id a b : starts_of id (a ++ b) = starts_of id b ++ starts_of id a.
Proof. unfold starts_of. now rewrite flat_map_app, rev_app_distr. Qed.

Lemma starts_of_cons id x b : starts_of id (x :: b) =
  starts_of id b ++ match x with TStart i t _ => if i =? id then [t] else [] | _ => [] end.
Proof. change (x :: b) with ([x] ++ b). rewrite starts_of_app. f_equal. unfold starts_of. cbn.
  rewrite app_nil_r. destruct x; auto. destruct (id0 =? id); auto. Qed.

Lemma never_added_no_life id past : ~ In id (added past) -> id <> hold_id -> life_of id past = None.
Proof.
  intros H Hh. induction past as [|x past IH]; cbn.
  - now destruct (Z.eqb_spec id hold_id).
  - change (added (x :: past)) with (added ([x] ++ past)) in H. rewrite added_app in H.
    rewrite IH by (intros Hi; apply H, in_app_iff; auto).
    destruct x; cbn; auto; try (destruct (_ =? id); reflexivity).
    destruct (Z.eqb_spec id0 id); auto. exfalso. apply H, in_app_iff. left. subst. now left.
Qed.

Lemma never_added_no_start id past : always fact past -> ~ In id (added past) -> id <> hold_id ->
  starts_of id past = [].
Proof.
  induction past as [|x past IH]; auto. intros [Hf Ha] Hi Hh. rewrite starts_of_cons.
  change (added (x :: past)) with (added ([x] ++ past)) in Hi. rewrite added_app in Hi.
  assert (Hi' : ~ In id (added past)) by (intros ?; apply Hi, in_app_iff; auto).
  rewrite IH by auto. destruct x; auto. destruct (Z.eqb_spec id0 id) as [->|]; auto.
  destruct Hf as (l&Hl&_). rewrite never_added_no_life in Hl by auto. discriminate.
Qed.

Definition left_of (n : Z) (k : nat) : Z := if 0 <=? n then n - Z.of_nat k else n.

Lemma instants_S t c k : instants t c (S k) = instants t c k ++ [t + Z.of_nat k * c].
Proof. unfold instants. now rewrite seq_S, map_app. Qed.

Lemma cycle_inv id t c n older newer :
  always fact (newer ++ TAdd id KSim false t c n :: older) ->
  always dfact (newer ++ TAdd id KSim false t c n :: older) ->
  NoDup (added (newer ++ TAdd id KSim false t c n :: older)) ->
  untouched id newer ->
  exists k : nat, starts_of id newer = instants t c k /\
    ((life_of id (newer ++ TAdd id KSim false t c n :: older)
        = Some (Life (t + Z.of_nat k * c) c (left_of n k) KSim false false) /\ (0 <= n -> Z.of_nat k <= n)) \/
     (exists k', k = S k' /\ life_of id (newer ++ TAdd id KSim false t c n :: older)
        = Some (Life (t + Z.of_nat k' * c) c (left_of n k') KSim false true) /\ (0 <= n -> Z.of_nat k' <= n)) \/
     (life_of id (newer ++ TAdd id KSim false t c n :: older) = None /\ 0 <= n /\ Z.of_nat k = n + 1)).
Proof.
  induction newer as [|x newer IH]; intros Hf Hd Hn Hu.
  - exists 0%nat. split; [reflexivity|]. left. cbn. rewrite Z.eqb_refl. split; [|lia].
    f_equal. f_equal; [lia|]. unfold left_of. destruct (Z.leb_spec 0 n); lia.
  - destruct Hf as [Hx Hf]. destruct Hd as [Hdx Hd].
    change (added ((x :: newer) ++ TAdd id KSim false t c n :: older)) with
      (added ([x] ++ newer ++ TAdd id KSim false t c n :: older)) in Hn.
    rewrite added_app in Hn. apply NoDup_app_iff in Hn as (_&Hn&Hnx).
    assert (Hu' : untouched id newer) by (intros y Hy; apply Hu; now right).
    specialize (Hu x (or_introl eq_refl)).
    destruct (IH Hf Hd Hn Hu') as (k&Hk&Hl). clear IH.
    change ((x :: newer) ++ TAdd id KSim false t c n :: older) with (x :: (newer ++ TAdd id KSim false t c n :: older)).
    set (past := newer ++ TAdd id KSim false t c n :: older) in *.
    rewrite starts_of_cons. cbn [life_of].
    assert (Hother : life_step id x (life_of id past) = life_of id past ->
       match x with TStart i t _ => if i =? id then [t] else [] | _ => [] end = [] ->
       exists k : nat, starts_of id newer ++ match x with TStart i t _ => if i =? id then [t] else [] | _ => [] end = instants t c k /\
    ((life_step id x (life_of id past) = Some (Life (t + Z.of_nat k * c) c (left_of n k) KSim false false) /\ (0 <= n -> Z.of_nat k <= n)) \/
     (exists k', k = S k' /\ life_step id x (life_of id past)
        = Some (Life (t + Z.of_nat k' * c) c (left_of n k') KSim false true) /\ (0 <= n -> Z.of_nat k' <= n)) \/
     (life_step id x (life_of id past) = None /\ 0 <= n /\ Z.of_nat k = n + 1))).
    { intros -> ->. exists k. rewrite app_nil_r. auto. }
    destruct x as [i kd im t' c' r'|i|i t' n'|i c'|i r'|i|i t' im|i|i|t'|i t' z]; cbn [life_step] in *;
      try (apply Hother; [|reflexivity]; destruct (Z.eqb_spec i id); [contradiction|reflexivity]);
      try (apply Hother; reflexivity).
    + (* TAdd *) apply Hother; [|reflexivity]. destruct (Z.eqb_spec i id) as [->|]; auto. exfalso.
      apply (Hnx id); [now left|]. unfold past. rewrite added_app. apply in_app_iff. right. now left.
    + (* TStart *) destruct (Z.eqb_spec i id) as [->|]; [|apply Hother; reflexivity].
      destruct Hx as (l&Hl'&Hnr). destruct Hdx as ((l2&Hl2&Him&_&Hdue&_)&_).
      assert (l2 = l) as -> by congruence. pose proof (Hnr _ _ Hl') as Hrun.
      destruct Hl as [[Hl Hkn]|[(k'&->&Hl&_)|[Hl _]]]; rewrite Hl in *; try discriminate.
      * injection Hl' as <-. cbn in Him, Hdue. subst im. specialize (Hdue eq_refl). subst t'.
        exists (S k). split; [now rewrite instants_S, Hk|]. right. left. exists k. auto.
      * injection Hl' as <-. discriminate.
    + (* TEnd *) destruct (Z.eqb_spec i id) as [->|]; [|apply Hother; reflexivity].
      destruct Hx as (l&Hl'&Hrun).
      destruct Hl as [[Hl Hkn]|[(k'&->&Hl&Hkn)|[Hl _]]]; rewrite Hl in *; try discriminate;
        injection Hl' as <-; try discriminate. clear Hrun.
      exists (S k'). rewrite app_nil_r. split; auto. unfold next_life. cbn [rep cyc due lkind limm]. unfold left_of in *.
      assert (Hst : t + Z.of_nat k' * c + c = t + Z.of_nat (S k') * c) by (rewrite Nat2Z.inj_succ; ring).
      rewrite Hst. clear Hst.
      destruct (Z.leb_spec 0 n).
      * destruct (Z.eqb_spec (n - Z.of_nat k') 0).
        -- right. right. repeat split; auto. lia.
        -- left. split; [|lia]. destruct (Z.ltb_spec 0 (n - Z.of_nat k')); [|lia]. do 2 f_equal. lia.
      * destruct (Z.eqb_spec n 0); [lia|]. destruct (Z.ltb_spec 0 n); [lia|]. left. split; [reflexivity|lia].
    + (* TSkip *) destruct (Z.eqb_spec i id) as [->|]; [|apply Hother; reflexivity].
      destruct Hdx as (l&Hl'&Hkd). exfalso.
      destruct Hl as [[Hl _]|[(k'&_&Hl&_)|[Hl _]]]; rewrite Hl in *; try discriminate; injection Hl' as <-; now apply Hkd.
    + (* TZulu *) destruct (Z.eqb_spec i id) as [->|]; [|apply Hother; reflexivity].
      destruct Hdx as (_&l&Hl'&Hkd). exfalso.
      destruct Hl as [[Hl _]|[(k'&_&Hl&_)|[Hl _]]]; rewrite Hl in *; try discriminate; injection Hl' as <-; discriminate.
Qed.

Lemma added_range ls id : alive (run ls) -> In id (added (tr (run ls))) -> id <> hold_id.
Proof.
  intros Ha Hi ->. pose proof (run_TInv ls) as H. apply (t_last _ H Ha) in Hi.
  pose proof (k_last _ (t_link _ H Ha)). pose proof i64_max_hold. lia.
Qed.

(** ** Removal *)
Lemma removed_inv id past newer : always fact (newer ++ TRemove id :: past) ->
  NoDup (added (newer ++ TRemove id :: past)) -> In id (added past) ->
  (forall r, ~ In (TRepeat id r) newer) ->
  (life_of id (newer ++ TRemove id :: past) = None \/
   exists l, life_of id (newer ++ TRemove id :: past) = Some l /\ live_run l = true /\ rep l = 0) /\
  (forall t im, ~ In (TStart id t im) newer) /\ (forall t z, ~ In (TZulu id t z) newer).
Proof.
  induction newer as [|x newer IH]; intros Hf Hn Hi Hr.
  - cbn. rewrite Z.eqb_refl. repeat split; auto. destruct (life_of id past) as [l|]; auto.
    destruct (live_run l); auto. right. eexists. split; [reflexivity|]. auto.
  - destruct Hf as [Hx Hf].
    change (added ((x :: newer) ++ TRemove id :: past)) with (added ([x] ++ newer ++ TRemove id :: past)) in Hn.
    rewrite added_app in Hn. apply NoDup_app_iff in Hn as (_&Hn&Hnx).
    destruct IH as (Hl&H1&H2); auto.
    { intros r Hin. apply (Hr r). now right. }
    change ((x :: newer) ++ TRemove id :: past) with (x :: (newer ++ TRemove id :: past)).
    set (p := newer ++ TRemove id :: past) in *. cbn [life_of].
    assert (H12 : (forall t im, x <> TStart id t im) /\ (forall t z, x <> TZulu id t z)).
    { split; intros; intros ->; cbn in Hx.
      - destruct Hx as (l&Hl'&Hnr). destruct Hl as [Hl|(l2&Hl&Hrun&_)]; [congruence|].
        rewrite (Hnr _ _ Hl) in Hrun. discriminate.
      - destruct Hx as (l&Hl'&_&Hnr). destruct Hl as [Hl|(l2&Hl&Hrun&_)]; [congruence|].
        rewrite (Hnr _ _ Hl) in Hrun. discriminate. }
    destruct H12 as [H12 H13].
    split; [|split; intros ? ? [|]; [eapply H12; eauto|eapply H1; eauto|eapply H13; eauto|eapply H2; eauto]].
    assert (Hna : forall k im t c r, x <> TAdd id k im t c r).
    { intros k im t c r ->. apply (Hnx id); [now left|]. unfold p. rewrite added_app. apply in_app_iff. right. exact Hi. }
    assert (Hnr : forall r, x <> TRepeat id r) by (intros r ->; apply (Hr r); now left).
    destruct x as [i kd im t' c' r'|i|i t' n'|i c'|i r'|i|i t' im|i|i|t'|i t' z]; cbn [life_step]; auto;
      try (destruct (Z.eqb_spec i id) as [->|]; [|exact Hl]).
    + exfalso. eapply Hna; eauto.
    + destruct Hl as [->|(l&->&Hrun&Hrep)]; auto. destruct (t' <? n'); auto. right. eexists. split; [reflexivity|]. auto.
    + destruct Hl as [->|(l&->&Hrun&Hrep)]; auto. right. eexists. split; [reflexivity|]. auto.
    + exfalso. eapply Hnr; eauto.
    + destruct Hl as [->|(l&->&Hrun&Hrep)]; auto. rewrite Hrun. right. eexists. split; [reflexivity|]. auto.
    + exfalso. eapply H12; eauto.
    + destruct Hl as [->|(l&->&Hrun&Hrep)]; auto. unfold next_life. rewrite Hrep. auto.
    + destruct Hl as [->|(l&->&Hrun&Hrep)]; auto. unfold next_life. rewrite Hrep. auto.
    + exfalso. eapply H13; eauto.
Qed.

(** ** Hold *)
Definition may_start (c : ctrl) : nat :=
  match c with Idle | Dead _ | ImmRun _ _ _ | EvtRun _ _ _ => 0 | _ => 1 end.

Lemma api_hold s c r : api s c = Ok r -> hold (r_st r) = hold s.
Proof.
  destruct c; cbn; unfold set_event_time, set_event_zulu, remove_event, bind, check_add, commit_add; intros H;
  repeat (match type of H with
    | context [if ?b then _ else _] => destruct b
    | context [match ?x with _ => _ end] => destruct x eqn:?
    end; try discriminate);
  try (injection H as <-; reflexivity).
  match goal with Hs : set_sim_time _ _ = Ok _ |- _ => apply set_sim_time_ok in Hs as [[-> _]|(->&_)] end;
    injection H as <-; reflexivity.
Qed.

Lemma nstarts_cons x tr : nstarts (x :: tr) = (match x with TStart _ _ _ => 1 | _ => 0 end + nstarts tr)%nat.
Proof. unfold nstarts, starts. cbn. rewrite app_length. destruct x; reflexivity. Qed.

Lemma ret_log_starts m c r past : nstarts (ret_log m c r ++ past) = nstarts past.
Proof.
  destruct c; try reflexivity. unfold ret_log. destruct (sim_ep_running _); reflexivity.
Qed.

Lemma finish_hold s id s' : finish s id = inr s' -> hold s' = hold s.
Proof.
  unfold finish. destruct (mget id (evs s)) as [e|]; [|discriminate].
  destruct (ev_repeat e =? 0); [intros [= <-]; auto|].
  destruct (_ && _); [intros [= <-]; auto|discriminate].
Qed.
Lemma zfinish_hold s id s' : zfinish s id = inr s' -> hold s' = hold s.
Proof.
  unfold zfinish. destruct (mget id (evs s)) as [e|]; [|discriminate].
  destruct (ev_repeat e =? 0); [intros [= <-]; auto|].
  destruct (in_i64 _); [intros [= <-]; auto|discriminate].
Qed.

Lemma after_imm_held m s rest b : hold s = true ->
  let m' := after_imm m s rest b in
  (may_start (ctl m') = 0)%nat /\ tr m' = tr m /\ (hold (sc m') = true \/ may_start (ctl m') = 0%nat /\ exists d, ctl m' = Dead d).
Proof.
  intros H. unfold after_imm. rewrite H. unfold stop_imm, stop_events. destruct b; cbn; auto.
  destruct (dang m); cbn; auto. repeat split; auto. right. eauto.
Qed.
Lemma after_evt_held m s K rest : hold s = true ->
  let m' := after_evt m s K rest in
  (may_start (ctl m') = 0)%nat /\ tr m' = tr m /\ (hold (sc m') = true \/ may_start (ctl m') = 0%nat /\ exists d, ctl m' = Dead d).
Proof.
  intros H. unfold after_evt. rewrite H. unfold stop_events.
  destruct (dang m); cbn; auto. repeat split; auto. right. eauto.
Qed.

Arguments may_start : simpl nomatch.
Definition held (m : mach) : Prop := hold (sc m) = true \/ exists d, ctl m = Dead d.

Lemma held_step m l : held m -> l <> LRun ->
  held (mstep m l) /\
  (nstarts (tr (mstep m l)) + may_start (ctl (mstep m l)) <= nstarts (tr m) + may_start (ctl m))%nat.
Proof.
  intros Hh Hl. destruct (dec_alive m) as [Ha|[d Hd]].
  2:{ assert (mstep m l = m) as -> by (unfold mstep; now rewrite Hd). auto. }
  destruct Hh as [Hh|[d Hd]]; [|exfalso; eapply Ha; eauto].
  assert (Hsame : held m /\ (nstarts (tr m) + may_start (ctl m) <= nstarts (tr m) + may_start (ctl m))%nat)
    by (split; [now left|lia]).
  assert (Hdie : forall d, held (die m d) /\ (nstarts (tr (die m d)) + may_start (ctl (die m d)) <= nstarts (tr m) + may_start (ctl m))%nat).
  { intros d. split; [right; now exists d|]. cbn. lia. }
  enough (H : let m' := match l with
      | LRun => m
      | LTau => tau m | LTimeout => timeout m | LEnd => end_ep m
      | LHold => goto m (set_hold true (sc m)) (ctl m)
      | LCall c => call m c | LBegin c => begin_add m c | LCommit n => commit m n
      | LZTick z => ztick m z | LZTau ok => ztau m ok | LZEnd => zend m end in
    held m' /\ (nstarts (tr m') + may_start (ctl m') <= nstarts (tr m) + may_start (ctl m))%nat).
  { unfold mstep. destruct (ctl m) eqn:E; try (exfalso; eapply Ha; now eauto); destruct l; try contradiction; exact H. }
  destruct l; cbn zeta; try contradiction; auto.
  - unfold tau. destruct (ctl m) eqn:E; try (rewrite E in *; now auto).
    + destruct rest as [|id rest].
      * destruct (imm (sc m)); [|split; [now left|cbn; lia]]. unfold imm_return, loop_head.
        destruct b; try (split; [now left|cbn; lia]). destruct (tbl (sc m)) as [|[]]; (split; [now left|cbn; lia]).
      * destruct (mget id (evs (sc m))); [|apply Hdie]. destruct (skips _ _).
        -- destruct (finish _ _) as [|s'] eqn:Ef; [apply Hdie|]. apply finish_hold in Ef. rewrite Hh in Ef.
           destruct (after_imm_held (log m (TSkip id)) s' rest b Ef) as (H1&H2&H3).
           split; [destruct H3 as [|[_ ?]]; [now left|now right]|]. rewrite H1, H2. cbn [tr log]. rewrite nstarts_cons. cbn. lia.
        -- destruct (zulu_running m); [rewrite E in *; auto|]. split; [now left|]. cbn. rewrite nstarts_cons. cbn. lia.
    + rewrite Hh. split; [now left|cbn; lia].
    + rewrite Hh. split; [now left|cbn; lia].
    + split; [now left|cbn; lia].
    + destruct rest as [|id rest].
      * destruct (dang m); [apply Hdie|]. unfold loop_head.
        destruct (tget _ _); [destruct (next_key _ _)|]; (split; [now left|cbn; lia]).
      * destruct (mget id (evs (sc m))); [|apply Hdie]. destruct (skips _ _).
        -- destruct (finish _ _) as [|s'] eqn:Ef; [apply Hdie|]. apply finish_hold in Ef. rewrite Hh in Ef.
           destruct (after_evt_held (log m (TSkip id)) s' K rest Ef) as (H1&H2&H3).
           split; [destruct H3 as [|[_ ?]]; [now left|now right]|]. rewrite H1, H2. cbn [tr log]. rewrite nstarts_cons. cbn. lia.
        -- destruct (zulu_running m); [rewrite E in *; auto|]. split; [now left|]. cbn. rewrite nstarts_cons. cbn. lia.
  - unfold timeout. destruct (ctl m) eqn:E; try (rewrite E in *; now auto). destruct (dang m); [apply Hdie|].
    destruct (set_sim_time _ _) as [s'| |] eqn:Es; try apply Hdie.
    apply set_sim_time_ok in Es as [[-> _]|(->&_)]; (split; [now left|cbn; rewrite nstarts_cons; lia]).
  - unfold end_ep. destruct (ctl m) eqn:E; try (rewrite E in *; now auto).
    + destruct (finish _ _) as [|s'] eqn:Ef; [apply Hdie|]. apply finish_hold in Ef. cbn in Ef. rewrite Hh in Ef.
      destruct (after_imm_held (log m (TEnd id)) s' rest b Ef) as (H1&H2&H3).
      split; [destruct H3 as [|[_ ?]]; [now left|now right]|]. rewrite H1, H2. cbn [tr log]. rewrite nstarts_cons. cbn. lia.
    + destruct (finish _ _) as [|s'] eqn:Ef; [apply Hdie|]. apply finish_hold in Ef. cbn in Ef. rewrite Hh in Ef.
      destruct (after_evt_held (log m (TEnd id)) s' K rest Ef) as (H1&H2&H3).
      split; [destruct H3 as [|[_ ?]]; [now left|now right]|]. rewrite H1, H2. cbn [tr log]. rewrite nstarts_cons. cbn. lia.
  - split; [now left|cbn; lia].
  - unfold call. destruct (api (sc m) c) as [r| |] eqn:Ea; auto. apply api_hold in Ea.
    split; [left; cbn; congruence|]. cbn [tr after_call ctl]. rewrite ret_log_starts. lia.
  - unfold begin_add. destruct (build_add _ _) as [[q| |]|]; auto. destruct (check_add _ _); auto.
  - unfold commit. destruct (nth_error _ _); auto. unfold commit_add. destruct (_ <? _); auto.
  - unfold ztick. destruct (zc m); auto. destruct (ztbl (sc m)) as [|[]]; auto. destruct (_ <=? _); auto.
  - unfold ztau. destruct (zc m) as [|K [|id rest]|]; auto.
    + destruct (tget _ _); auto; (split; [now left|cbn; lia]).
    + destruct (mget _ _); auto. destruct (negb ok).
      * destruct (zfinish _ _) eqn:Ef; auto. apply zfinish_hold in Ef. split; [left; cbn; congruence|].
        cbn. rewrite nstarts_cons. lia.
      * destruct (sim_ep_running _); auto.
  - unfold zend. destruct (zc m); auto. destruct (zfinish _ _) eqn:Ef; auto. apply zfinish_hold in Ef.
    cbn in Ef. split; [left; cbn; congruence|]. cbn. rewrite nstarts_cons. lia.
Qed.

Lemma held_run ls : forall m, held m -> ~ In LRun ls ->
  (nstarts (tr (fold_left mstep ls m)) <= nstarts (tr m) + may_start (ctl m))%nat.
Proof.
  induction ls as [|l ls IH]; cbn; intros m Hh Hl; [lia|].
  destruct (held_step m l Hh) as [H1 H2]; [intros ->; auto|].
  specialize (IH _ H1 ltac:(auto)). lia.
Qed.

(** ** Empty entries of the table *)
Definition no_hole (s : sched) : Prop := forall k, mget k (tbl s) = Some [] -> k = now s.

Lemma tins_hole k id t k' : mget k' (tins k id t) = Some [] -> mget k' t = Some [].
Proof.
  unfold tins. rewrite mget_mset. destruct (k' =? k); auto. intros [= E]. exfalso.
  assert (In id []) by (rewrite <- E; apply in_sins; auto). auto.
Qed.
Lemma mdel_hole A k (t : omap A) k' v : msorted t -> mget k' (mdel k t) = Some v -> mget k' t = Some v.
Proof. intros Hs. rewrite mget_mdel by auto. destruct (k' =? k); [discriminate|auto]. Qed.
Lemma tdel_hole k id t k' : msorted t -> mget k' (tdel k id t) = Some [] -> mget k' t = Some [].
Proof.
  intros Hs. unfold tdel. destruct (sdel id (tget k t)) eqn:E; [now apply mdel_hole|].
  rewrite mget_mset. destruct (k' =? k); [discriminate|auto].
Qed.

Lemma msorted_mdel A k (t : omap A) : msorted t -> msorted (mdel k t).
Proof. apply mdel_sorted. Qed.

Lemma api_hole s c r k : msorted (tbl s) -> api s c = Ok r -> mget k (tbl (r_st r)) = Some [] -> mget k (tbl s) = Some [].
Proof.
  intros Hs H. destruct c; cbn in H; unfold set_event_time, set_event_zulu, remove_event, bind, check_add, commit_add in H;
  repeat (match type of H with
    | context [if ?b then _ else _] => destruct b
    | context [match ?x with _ => _ end] => destruct x eqn:?
    end; try discriminate);
  try (injection H as <-; cbn; auto; intros E; repeat (apply tins_hole in E); try (apply tdel_hole in E; auto); eauto using mdel_hole; fail).
  match goal with Hs : set_sim_time _ _ = Ok _ |- _ => apply set_sim_time_ok in Hs as [[-> _]|(->&_)] end;
    injection H as <-; auto.
Qed.

Lemma finish_hole s id s' : finish s id = inr s' -> no_hole s -> no_hole s'.
Proof.
  unfold finish. destruct (mget id (evs s)) as [e|]; [|discriminate].
  destruct (ev_repeat e =? 0); [intros [= <-]; auto|].
  destruct (_ && _); [intros [= <-]|discriminate]. intros H k Hk. apply H. cbn in Hk. eauto using tins_hole.
Qed.

Lemma sins_all_hole l l' : sins_all l l' = [] -> l' = [].
Proof. intros H. destruct l' as [|x l']; auto. exfalso. assert (Hx : In x (sins_all l (x :: l'))) by (apply in_sins_all; right; now left). rewrite H in Hx. destruct Hx. Qed.

Lemma stop_events_hole m s K rest : alive (stop_events m s K rest) -> K = now s -> no_hole s -> no_hole (sc (stop_events m s K rest)).
Proof.
  unfold stop_events. destruct (dang m); [intros Ha; exact (False_ind _ (dead_false _ _ _ Ha))|]. intros _ EK H k. cbn.
  rewrite mget_mset. destruct (Z.eqb_spec k K); [subst; auto|apply H].
Qed.
Lemma after_imm_hole m s rest b : alive (after_imm m s rest b) -> (forall K, ctl_key (ImmGo [] b) = Some K -> K = now s) ->
  no_hole s -> no_hole (sc (after_imm m s rest b)).
Proof.
  unfold after_imm, stop_imm. destruct (hold s); auto. destruct b; auto. intros Ha HK H. apply stop_events_hole; auto.
Qed.
Lemma after_evt_hole m s K rest : alive (after_evt m s K rest) -> K = now s ->
  no_hole s -> no_hole (sc (after_evt m s K rest)).
Proof. unfold after_evt. destruct (hold s); auto. intros Ha HK H. apply stop_events_hole; auto. Qed.

Lemma finish_now s id s' : finish s id = inr s' -> now s' = now s.
Proof. intros H. now apply finish_ended in H as (?&_&->&_). Qed.

Lemma zfinish_tbl s id s' : zfinish s id = inr s' -> tbl s' = tbl s /\ now s' = now s.
Proof.
  unfold zfinish. destruct (mget id (evs s)) as [e|]; [|discriminate].
  destruct (ev_repeat e =? 0); [intros [= <-]; auto|].
  destruct (in_i64 _); [intros [= <-]; auto|discriminate].
Qed.

Lemma no_hole_same s s' : tbl s' = tbl s -> now s' = now s -> no_hole s -> no_hole s'.
Proof. unfold no_hole. now intros -> ->. Qed.

Lemma mget_keys A k (t : omap A) v : mget k t = Some v -> In k (keys t).
Proof. intros H. apply mget_in_keys. congruence. Qed.

Lemma move_hole m l m' : MLive m -> alive m' -> move m l m' -> no_hole (sc m) -> no_hole (sc m').
Proof.
  intros HL Ha Hm H. pose proof (m_s _ HL) as HS. pose proof (m_ctl _ HL) as HC.
  assert (Hts : msorted (tbl (sc m))) by apply HS.
  destruct Hm as [E1 E2 E3 E4 E5|E1 E2|E1|b E1 E2 E3|K o s' E1 E2|K b rest E1 E2 E3 E4
    |id rest b e E1 He E2|id K rest e E1 He E2|K E1 E2|K E1 E2|K E1 E2|K E1 E2 E3
    |id rest b s' E1 E2 E3|id K rest s' E1 E2 E3|id K rest e s' E1 He Hs E2 E3|K E1 E2 E3 E4
    |c r E1 E2 E3 E0|q r n E1 E2 E2' E3|K z E1 E2 El Emin E3 E4 E5 E6 E7|K E1 E2 E3|K E1 E2 E3|id K rest s' E1 E2 E3
    |id K rest e E1 He E2|id K rest s' E1 E2 E3]; subst; try exact H.
  - now rewrite E1.
  - destruct E1 as [(E1&_&->)|(E1&_&->)]; destruct o; try exact H; intros k Hk; cbn in Hk;
      apply mdel_hole in Hk; auto; now apply H in Hk.
  - rewrite E1 in HC. intros k. cbn. rewrite mget_mset. destruct (Z.eqb_spec k K); [intros; subst; symmetry; apply HC|apply H].
  - rewrite E1 in HC. pose proof (finish_now _ _ _ E2) as En. cbn in En. apply after_imm_hole; auto.
    + intros K HK. rewrite En. cbn in HC. destruct b; cbn in HK; try discriminate; injection HK as ->; symmetry; apply HC.
    + eapply finish_hole; eauto.
  - rewrite E1 in HC. pose proof (finish_now _ _ _ E2) as En. cbn in En. apply after_evt_hole; auto.
    + rewrite En. symmetry. apply HC.
    + eapply finish_hole; eauto.
  - rewrite E1 in HC. pose proof (finish_now _ _ _ E2) as En. apply after_evt_hole; auto.
    + rewrite En. symmetry. apply HC.
    + eapply finish_hole; eauto.
  - intros k Hk. cbn in *. pose proof (H _ Hk). pose proof (E3 _ (mget_keys _ _ _ _ Hk)). lia.
  - intros k Hk. cbn in *. apply (api_hole _ _ _ _ Hts E1) in Hk. pose proof (H _ Hk). subst k.
    pose proof (api_now _ _ _ E1). destruct c; try (pose proof (proj2 (proj2 (api_add_id _ _ _ E1))) as Hn; rewrite Hn; auto; intros ?; discriminate).
    cbn in E1. destruct (set_sim_time (sc m) t) as [s'| |] eqn:Es; try discriminate. injection E1 as <-. cbn in *.
    apply set_sim_time_ok in Es as [[-> _]|(->&Hw&_&Hmax)]; auto. cbn in *.
    pose proof (next_scheduled_le (sc m) _ Hts (mget_keys _ _ _ _ Hk)). lia.
  - unfold commit_add in E1. destruct (_ <? _); [|discriminate]. injection E1 as <-. intros k Hk. cbn in *.
    apply tins_hole in Hk. now apply H.
  - now rewrite E3.
  - apply zfinish_tbl in E2 as [E2 E3]. eapply no_hole_same; eauto.
  - apply zfinish_tbl in E2 as [E2 E3]. eapply no_hole_same; eauto.
Qed.

Lemma no_hole_init : no_hole sched_init.
Proof. intros k. cbn. destruct (_ =? _); discriminate. Qed.

Lemma disciplined_snoc ls : forall m l, disciplined m (ls ++ [l]) <-> disciplined m ls /\ admitted (fold_left mstep ls m) l.
Proof. induction ls as [|x ls IH]; cbn; intros m l; [tauto|]. rewrite IH. tauto. Qed.

Lemma alive_prefix ls l : alive (run (ls ++ [l])) -> alive (run ls).
Proof.
  rewrite run_snoc. intros H d Hd. apply (H d). unfold mstep. now rewrite Hd.
Qed.

Lemma run_hole ls : disciplined mach_init ls -> alive (run ls) -> no_hole (sc (run ls)).
Proof.
  induction ls as [|l ls IH] using rev_ind; intros D Ha; [apply no_hole_init|].
  apply disciplined_snoc in D as [D Had]. pose proof (alive_prefix _ _ Ha) as Ha0. rewrite run_snoc in *.
  pose proof (run_DInv _ D) as HD. eapply move_hole; [apply DInv_live; eauto| |apply mstep_move; eauto using DInv_live|]; auto.
Qed.

(** The answer of GetNextScheduledEventTime. *)
Lemma next_scheduled_spec ls : disciplined mach_init ls -> alive (run ls) ->
  let g := next_scheduled (sc (run ls)) in
  (forall id l, life_of id (tr (run ls)) = Some l -> timed l -> g <= due l \/ due l = now (sc (run ls))) /\
  (g = i64_max \/ g = now (sc (run ls)) \/ exists id l, life_of id (tr (run ls)) = Some l /\ timed l /\ due l = g).
Proof.
  intros D Ha g. pose proof (run_DInv _ D) as HD. pose proof (DInv_live _ HD Ha) as HL.
  pose proof (t_link _ (d_t _ HD) Ha) as Hk. pose proof (m_s _ HL) as HS. split.
  - intros id l Hl Ht. destruct (timed_due _ _ _ HL Hk (d_imm _ HD Ha) Hl Ht) as [_ [H|[_ H]]]; auto.
    left. apply next_scheduled_le; [apply HS|]. eapply in_tget_keys; eauto.
  - unfold g, next_scheduled. destruct (tbl (sc (run ls))) as [|[k [|id r]] t] eqn:Et; auto.
    + right. left. apply (run_hole ls D Ha). rewrite Et. cbn. now rewrite Z.eqb_refl.
    + right. right. destruct (i_tev _ _ _ _ HS k id) as (e&He&Hn&Hkz).
      { unfold tget. rewrite Et. cbn. rewrite Z.eqb_refl. now left. }
      destruct (life_of_ev _ _ _ Hk He) as (l&Hl&Hd&_&_&Hkd&_). exists id, l. repeat split; auto; try congruence.
      destruct (limm l) eqn:Ei; auto. apply (d_imm _ HD Ha _ _ Hl) in Ei. exfalso.
      apply (i_disj _ _ _ _ HS id k); [apply in_app_iff; now left|].
      unfold tget. rewrite Et. cbn. rewrite Z.eqb_refl. now left.
Qed.

(** ** Zulu order *)
Definition zfact (x : tev) (past : list tev) : Prop :=
  match x with
  | TZulu id t _ => forall j lj, life_of j past = Some lj -> lkind lj = KZulu ->
                      t < due lj \/ (t = due lj /\ id <= j)
  | _ => True
  end.

Lemma hold_life past l : ~ In hold_id (added past) -> life_of hold_id past = Some l -> lkind l = KSim /\ limm l = false.
Proof.
  revert l. induction past as [|x past IH]; intros l Hn.
  - cbn. rewrite Z.eqb_refl. intros [= <-]. auto.
  - change (added (x :: past)) with (added ([x] ++ past)) in Hn. rewrite added_app in Hn.
    assert (Hn' : ~ In hold_id (added past)) by (intros Hi; apply Hn, in_app_iff; auto).
    cbn [life_of]. intros H.
    assert (Hx : (forall i k im t c r, x <> TAdd i k im t c r) \/ exists i k im t c r, x = TAdd i k im t c r).
    { destruct x; try (left; discriminate). right. eauto 10. }
    destruct Hx as [Hx|(i&k&im&t&c&r&->)].
    + destruct (step_keeps_imm _ _ _ _ Hx H) as (l0&Hl0&E1&E2).
      rewrite <- E1, <- E2. apply IH; auto.
    + cbn in H. destruct (Z.eqb_spec i hold_id) as [->|]; [exfalso; apply Hn; now left|]. apply IH; auto.
Qed.

Lemma zulu_place m j lj : MLive m -> Link m -> life_of j (tr m) = Some lj -> lkind lj = KZulu ->
  In j (tget (due lj) (ztbl (sc m))) \/ In j (ZFc (zc m)).
Proof.
  intros HL Hk Hl Hz. destruct (ev_of_life _ _ _ Hk Hl) as (e&He&Hd&_&_&Hkd&_). rewrite Hd.
  apply (i_zcover _ _ _ _ (m_s _ HL) _ _ He). congruence.
Qed.

Record ZInv (m : mach) : Prop := {
  z_d : DInv m;
  z_ord : alive m -> no_retime_to_now (tr m) -> ZOrd m;
  z_fact : no_retime_to_now (tr m) -> always zfact (tr m)
}.

Lemma ZInv_init : ZInv mach_init.
Proof. constructor; [apply DInv_init|intros _ _ K [=]|intros _; exact I]. Qed.

Lemma ret_log_zfact m c r past : always zfact past -> always zfact (ret_log m c r ++ past).
Proof. destruct c; cbn; auto. destruct (sim_ep_running _); cbn; auto. Qed.

Lemma move_zfact m l m' : ZInv m -> alive m -> MLive m -> Link m -> move m l m' ->
  no_retime_to_now (tr m) -> always zfact (tr m').
Proof.
  intros HZ Ha HL Hk Hm Hnr. pose proof (z_fact _ HZ Hnr) as Hf.
  destruct Hm as [E1 E2 E3 E4 E5|E1 E2|E1|b E1 E2 E3|K o s' E1 E2|K b rest E1 E2 E3 E4
    |id rest b e E1 He E2|id K rest e E1 He E2|K E1 E2|K E1 E2|K E1 E2|K E1 E2 E3
    |id rest b s' E1 E2 E3|id K rest s' E1 E2 E3|id K rest e s' E1 He Hs E2 E3|K E1 E2 E3 E4
    |c r E1 E2 E3 E0|q r n E1 E2 E2' E3|K z E1 E2 El Emin E3 E4 E5 E6 E7|K E1 E2 E3|K E1 E2 E3|id K rest s' E1 E2 E3
    |id K rest e E1 He E2|id K rest s' E1 E2 E3]; subst; try exact Hf;
    rewrite ?tr_after_evt, ?tr_after_imm; try (split; [exact I|exact Hf]).
  - now rewrite E4.
  - destruct o; exact Hf.
  - now apply ret_log_zfact.
  - now rewrite E7.
  - cbn. split; [|exact Hf]. intros j lj Hl Hz.
    assert (HK : zkey (zc m) = Some K) by now rewrite E1.
    destruct (z_ord _ HZ Ha Hnr K HK) as (H1&H2&H3).
    assert (Hid : In id (ZFc (zc m))) by (rewrite E1; now left).
    destruct (life_of_ev _ _ _ Hk He) as (lf&Hlf&Hd&_&_&Hkd&_).
    destruct (d_z _ (z_d _ HZ) Ha K HK) as [_ Hdue].
    destruct (Hdue _ Hid) as (lf'&Hlf'&Hd'). rewrite Hlf in Hlf'. injection Hlf' as <-.
    assert (HKe : ev_next e = K) by lia. rewrite HKe.
    destruct (zulu_place _ _ _ HL Hk Hl Hz) as [Hin|Hin].
    + pose proof (H2 _ _ Hin). destruct (Z.eq_dec K (due lj)) as [E|]; [|left; lia]. right. split; auto.
      rewrite <- E in Hin. destruct (H3 _ _ Hid Hin) as [Hh|Hlt]; [|lia]. exfalso.
      subst id. pose proof (zf_kind _ _ _ HL Hid He) as Hkz.
      destruct (hold_life (tr m) lf) as [Hc _]; [|auto|congruence].
      intros Hi. apply (t_last _ (d_t _ (z_d _ HZ)) Ha) in Hi. pose proof (k_last _ Hk). pose proof i64_max_hold. lia.
    + destruct (Hdue _ Hin) as (lj'&Hlj'&Hdj). rewrite Hl in Hlj'. injection Hlj' as <-. right. split; [lia|].
      rewrite E1 in *. exact (sorted_head_le id rest j H1 Hin).
Qed.

Lemma mstep_tr m l : excl m -> exists x, tr (mstep m l) = x ++ tr m.
Proof.
  intros Hx. destruct (mstep_vis m l Hx) as [E1 E2 E3 E4 E5 E6|d o E1 E2 E3 E4|id im e E1 E2 He E3 E4 E5 E6|id e K rest E1 E2 He E3 E4 E5
                 |id E1 E2 E3 E4|id e E1 He E2 E3 E4|c r E1 E2|q r n E1 E2 E3|K E1 E2 E3 E4 E5 E6 E7 E8];
    try (rewrite E6; now exists []); try (eexists [_]; eassumption).
  - eauto.
  - rewrite E2. eexists. reflexivity.
  - rewrite E3. eexists [_]. reflexivity.
Qed.

Lemma mstep_ZInv m l : ZInv m -> admitted m l -> clock_ok m l -> ZInv (mstep m l).
Proof.
  intros HZ Had Hc. pose proof (z_d _ HZ) as HD. pose proof (mstep_DInv _ _ HD Had) as HD'.
  destruct (dec_alive m) as [Ha|[d Hd]].
  2:{ assert (mstep m l = m) as -> by (unfold mstep; now rewrite Hd). exact HZ. }
  pose proof (DInv_live _ HD Ha) as HL. pose proof (t_link _ (d_t _ HD) Ha) as Hk.
  destruct (dec_alive (mstep m l)) as [Ha'|[d Hd]].
  - pose proof (mstep_move m l HL Ha Had Ha') as Hm. constructor; auto.
    + intros _ Hnr. pose proof (move_tr _ _ _ Hm Hnr) as Hnr0. eapply move_ZOrd; eauto.
      * now apply HD.
      * now apply HZ.
    + intros Hnr. pose proof (move_tr _ _ _ Hm Hnr) as Hnr0. eapply move_zfact; eauto.
  - assert (Hna : alive (mstep m l) -> False) by (intros Ha'; eapply Ha'; eauto).
    assert (d = DOverflow) as ->.
    { destruct (d_m _ HD') as [E|[_ E]]; [congruence|]. exfalso. eapply E; eauto. }
    constructor; auto; try (intros Ha'; destruct (Hna Ha')).
    rewrite dead_tr; auto. apply HZ.
Qed.

Lemma clocked_ZInv ls : forall m, ZInv m -> disciplined m ls -> clocked m ls -> ZInv (fold_left mstep ls m).
Proof.
  induction ls as [|l ls IH]; cbn; intros m H D C; auto. destruct D as [D1 D2], C as [C1 C2].
  apply IH; auto. now apply mstep_ZInv.
Qed.

(** ** The clock of the history *)
Record NInv (m : mach) : Prop := {
  n_now : alive m -> now (sc m) = sim_time (tr m);
  n_fact : always (fun x past => match x with TStart _ t _ => t = sim_time past | _ => True end) (tr m)
}.

Lemma ret_log_sim_time m c r past : (forall t, c <> TKSetSim t) -> sim_time (ret_log m c r ++ past) = sim_time past.
Proof. intros H. destruct c; try reflexivity; [|exfalso; eapply H; eauto]. cbn. now destruct (sim_ep_running _). Qed.

Lemma ret_log_nfact m c r past :
  always (fun x past => match x with TStart _ t _ => t = sim_time past | _ => True end) past ->
  always (fun x past => match x with TStart _ t _ => t = sim_time past | _ => True end) (ret_log m c r ++ past).
Proof. destruct c; cbn; auto. destruct (sim_ep_running _); cbn; auto. Qed.

Lemma mstep_NInv m l : excl m -> NInv m -> NInv (mstep m l).
Proof.
  intros Hx [H1 H2]. destruct (dec_alive m) as [Ha|[d Hd]].
  2:{ assert (mstep m l = m) as -> by (unfold mstep; now rewrite Hd). now constructor. }
  specialize (H1 Ha). pose proof (mstep_vis m l Hx) as Hv.
  destruct Hv as [E1 E2 E3 E4 E5 E6|d o E1 E2 E3 E4|id im e E1 E2 He E3 E4 E5 E6|id e K rest E1 E2 He E3 E4 E5
                 |id E1 E2 E3 E4|id e E1 He E2 E3 E4|c r E1 E2|q r n E1 E2 E3|K E1 E2 E3 E4 E5 E6 E7 E8].
  - constructor; rewrite ?E6; auto. now rewrite E3.
  - constructor; [intros Ha'; exfalso; eapply Ha'; eauto|]. rewrite E2.
    destruct E3 as [->|(_&i&[(->&_)| ->])]; cbn; auto.
  - constructor; rewrite ?E6, ?E5; cbn; auto.
  - constructor; rewrite ?E5, ?E4; cbn; auto.
  - destruct E3 as (?&_&E3&_). constructor; rewrite ?E4; cbn; auto. intros _. now rewrite E3.
  - destruct E3 as (?&_&E3&_). constructor; rewrite ?E4; cbn; auto. intros _. now rewrite E3.
  - rewrite E2. constructor; [|now apply ret_log_nfact]. intros _.
    destruct (api_add_id _ _ _ E1) as (_&_&Hn). cbn [after_call sc tr].
    destruct c; try (rewrite ret_log_sim_time by discriminate; rewrite Hn by discriminate; exact H1). reflexivity.
  - rewrite E3. constructor; cbn; auto. intros _. rewrite <- H1. unfold commit_add in E2.
    destruct (_ <? _); [|discriminate]. injection E2 as <-. reflexivity.
  - constructor; rewrite ?E8; cbn; auto.
Qed.

Lemma run_NInv ls : NInv (run ls).
Proof.
  induction ls as [|l ls IH] using rev_ind; [constructor; cbn; auto|].
  rewrite run_snoc. apply mstep_NInv; [exact (t_excl _ (run_TInv ls))|exact IH].
Qed.

(** Every event the scheduler accepted as cyclic has a positive cycle. *)
Lemma cyclic_positive ls : disciplined mach_init ls -> alive (run ls) -> forall id l,
  life_of id (tr (run ls)) = Some l -> rep l <> 0 -> 0 < cyc l.
Proof.
  intros D Ha id l Hl Hr. pose proof (run_DInv _ D) as HD. pose proof (DInv_live _ HD Ha) as HL.
  destruct (ev_of_life _ _ _ (t_link _ (d_t _ HD) Ha) Hl) as (e&He&_&Hc&Hrp&_).
  rewrite Hc. eapply (i_cyc _ _ _ _ (m_s _ HL)); eauto. congruence.
Qed.

(** ** Rejections *)
Lemma api_rejects s c x : api s c <> UB -> (api s c = Throw x <-> must_reject s c = Some x).
Proof.
  intros Hu. destruct c; cbn in *; unfold reject_post, reject_kind, kind_of, set_event_time, set_event_zulu,
    remove_event, set_sim_time, check_add, commit_add, bind in *; cbn in *.
  - destruct (_ <? _); split; congruence.
  - destruct (in_i64 _); [|congruence]. cbn in *.
    replace (now s + t <? now s) with (t <? 0) in * by (destruct (Z.ltb_spec t 0), (Z.ltb_spec (now s + t) (now s)); lia).
    destruct (t <? 0); [split; congruence|]. destruct (negb _ && _); [split; congruence|].
    destruct (_ <? _); split; congruence.
  - destruct (_ && _); [|congruence]. cbn in *.
    replace (now s + t - mission_time s <? now s) with (t <? mission_time s) in *
      by (destruct (Z.ltb_spec t (mission_time s)), (Z.ltb_spec (now s + t - mission_time s) (now s)); lia).
    destruct (t <? _); [split; congruence|]. destruct (negb _ && _); [split; congruence|].
    destruct (_ <? _); split; congruence.
  - destruct (_ && _); [|congruence]. cbn in *.
    replace (now s + t - epoch_time s <? now s) with (t <? epoch_time s) in *
      by (destruct (Z.ltb_spec t (epoch_time s)), (Z.ltb_spec (now s + t - epoch_time s) (now s)); lia).
    destruct (t <? _); [split; congruence|]. destruct (negb _ && _); [split; congruence|].
    destruct (_ <? _); split; congruence.
  - destruct (t <? z); [split; congruence|]. destruct (negb _ && _); [split; congruence|].
    destruct (_ <? _); split; congruence.
  - destruct (in_i64 _); [|congruence]. destruct (mget id (evs s)); cbn in *; [|split; congruence].
    destruct (tkind_eqb _ _); cbn in *; [|split; congruence]. destruct (_ <? _); split; congruence.
  - destruct (_ && _); [|congruence]. destruct (mget id (evs s)); cbn in *; [|split; congruence].
    destruct (tkind_eqb _ _); cbn in *; [|split; congruence]. destruct (_ <? _); split; congruence.
  - destruct (_ && _); [|congruence]. destruct (mget id (evs s)); cbn in *; [|split; congruence].
    destruct (tkind_eqb _ _); cbn in *; [|split; congruence]. destruct (_ <? _); split; congruence.
  - destruct (mget id (evs s)); cbn in *; [|split; congruence].
    destruct (tkind_eqb _ _); cbn in *; [|split; congruence]. destruct (_ <? _); split; congruence.
  - destruct (mget id (evs s)); cbn in *; [|split; congruence]. destruct (_ && _); split; congruence.
  - destruct (mget id (evs s)); cbn in *; [|split; congruence]. destruct (_ && _); split; congruence.
  - destruct (mget id (evs s)) as [e|]; cbn in *; [|split; congruence]. destruct (cur s =? id); [split; congruence|].
    destruct (tkind_eqb _ _); [|split; congruence]. destruct (sdel _ _); split; congruence.
  - destruct (in_i64 _); split; congruence.
  - destruct (_ && _); split; congruence.
  - split; congruence.
  - destruct (window s); cbn; [|split; congruence]. destruct (_ || _); split; congruence.
Qed.

Lemma throw_no_effect m c x : api (sc m) c = Throw x -> mstep m (LCall c) = m.
Proof. intros H. unfold mstep, call. rewrite H. destruct (ctl m); reflexivity. Qed.

(** ** Epoch, mission and window *)
Lemma finish_tk s id s' : finish s id = inr s' -> epoch0 s' = epoch0 s /\ mission0 s' = mission0 s.
Proof.
  unfold finish. destruct (mget id (evs s)) as [e|]; [|discriminate].
  destruct (ev_repeat e =? 0); [intros [= <-]; auto|].
  destruct (_ && _); [intros [= <-]; auto|discriminate].
Qed.
Lemma zfinish_tk s id s' : zfinish s id = inr s' -> epoch0 s' = epoch0 s /\ mission0 s' = mission0 s.
Proof.
  unfold zfinish. destruct (mget id (evs s)) as [e|]; [|discriminate].
  destruct (ev_repeat e =? 0); [intros [= <-]; auto|].
  destruct (in_i64 _); [intros [= <-]; auto|discriminate].
Qed.

Lemma api_tk s c r : api s c = Ok r ->
  ((forall t, c <> TKSetEpoch t) -> epoch0 (r_st r) = epoch0 s) /\
  ((forall t, c <> TKSetMission t) -> (forall t, c <> TKSetMissionStart t) -> mission0 (r_st r) = mission0 s).
Proof.
  destruct c; cbn; unfold set_event_time, set_event_zulu, remove_event, bind, check_add, commit_add; intros H;
  repeat (match type of H with
    | context [if ?b then _ else _] => destruct b
    | context [match ?x with _ => _ end] => destruct x eqn:?
    end; try discriminate);
  try (injection H as <-; split; intros; try reflexivity; exfalso;
    match goal with H : forall t, _ <> _ |- _ => exact (H _ eq_refl) end).
  match goal with Hs : set_sim_time _ _ = Ok _ |- _ => apply set_sim_time_ok in Hs as [[-> _]|(->&_)] end;
    injection H as <-; auto.
Qed.

Lemma after_imm_tk m s rest b : epoch0 s = epoch0 (sc m) -> mission0 s = mission0 (sc m) ->
  epoch0 (sc (after_imm m s rest b)) = epoch0 (sc m) /\ mission0 (sc (after_imm m s rest b)) = mission0 (sc m).
Proof. intros. unfold after_imm, stop_imm, stop_events. destruct (hold s), b, (dang m); auto. Qed.
Lemma after_evt_tk m s K rest : epoch0 s = epoch0 (sc m) -> mission0 s = mission0 (sc m) ->
  epoch0 (sc (after_evt m s K rest)) = epoch0 (sc m) /\ mission0 (sc (after_evt m s K rest)) = mission0 (sc m).
Proof. intros. unfold after_evt, stop_events. destruct (hold s), (dang m); auto. Qed.

Lemma mstep_tk m l :
  ((forall t, l <> LCall (TKSetEpoch t)) -> epoch0 (sc (mstep m l)) = epoch0 (sc m)) /\
  ((forall t, l <> LCall (TKSetMission t)) -> (forall t, l <> LCall (TKSetMissionStart t)) ->
   mission0 (sc (mstep m l)) = mission0 (sc m)).
Proof.
  destruct (dec_alive m) as [Ha|[d Hd]].
  2:{ assert (mstep m l = m) as -> by (unfold mstep; now rewrite Hd). auto. }
  enough (H : let m' := match l with
      | LRun => match ctl m with Idle => goto m (set_hold false (sc m)) (ImmGo [] BStart) | _ => m end
      | LTau => tau m | LTimeout => timeout m | LEnd => end_ep m
      | LHold => goto m (set_hold true (sc m)) (ctl m)
      | LCall c => call m c | LBegin c => begin_add m c | LCommit n => commit m n
      | LZTick z => ztick m z | LZTau ok => ztau m ok | LZEnd => zend m end in
   ((forall t, l <> LCall (TKSetEpoch t)) -> epoch0 (sc m') = epoch0 (sc m)) /\
   ((forall t, l <> LCall (TKSetMission t)) -> (forall t, l <> LCall (TKSetMissionStart t)) ->
     mission0 (sc m') = mission0 (sc m))).
  { unfold mstep. destruct (ctl m) eqn:E; try (exfalso; eapply Ha; now eauto); exact H. }
  assert (Hand : forall m', epoch0 (sc m') = epoch0 (sc m) /\ mission0 (sc m') = mission0 (sc m) ->
   ((forall t, l <> LCall (TKSetEpoch t)) -> epoch0 (sc m') = epoch0 (sc m)) /\
   ((forall t, l <> LCall (TKSetMission t)) -> (forall t, l <> LCall (TKSetMissionStart t)) ->
     mission0 (sc m') = mission0 (sc m))) by tauto.
  destruct l as [| | | | |c|c|n|z|ok|]; cbn zeta; [apply Hand..| |apply Hand|apply Hand|apply Hand|apply Hand|apply Hand].
  - destruct (ctl m); auto.
  - unfold tau. destruct (ctl m) eqn:E; auto.
    + destruct rest as [|id rest].
      * destruct (imm (sc m)); auto. unfold imm_return, loop_head. destruct b; auto. destruct (tbl (sc m)) as [|[]]; auto.
      * destruct (mget _ _); auto. destruct (skips _ _); [|destruct (zulu_running m); auto].
        destruct (finish _ _) eqn:Ef; auto. apply finish_tk in Ef as [? ?]. now apply (after_imm_tk (log m (TSkip id))).
    + destruct (hold _); auto. destruct (dang m); auto.
    + destruct (hold _); auto.
    + destruct rest as [|id rest].
      * destruct (dang m); auto. unfold loop_head. destruct (tget _ _); [destruct (next_key _ _)|]; auto.
      * destruct (mget _ _); auto. destruct (skips _ _); [|destruct (zulu_running m); auto].
        destruct (finish _ _) eqn:Ef; auto. apply finish_tk in Ef as [? ?]. now apply (after_evt_tk (log m (TSkip id))).
  - unfold timeout. destruct (ctl m); auto. destruct (dang m); auto. destruct (set_sim_time _ _) eqn:Es; auto.
    apply set_sim_time_ok in Es as [[-> _]|(->&_)]; auto.
  - unfold end_ep. destruct (ctl m) eqn:E; auto; destruct (finish _ _) eqn:Ef; auto; apply finish_tk in Ef as [? ?].
    + now apply (after_imm_tk (log m (TEnd id))).
    + now apply (after_evt_tk (log m (TEnd id))).
  - auto.
  - unfold call. destruct (api (sc m) c) eqn:Ea; cbn; auto. apply api_tk in Ea as [H1 H2]. split.
    + intros H. apply H1. intros t ->. now apply (H t).
    + intros H H'. apply H2; intros t ->; [now apply (H t)|now apply (H' t)].
  - unfold begin_add. destruct (build_add _ _) as [[q| |]|]; auto. destruct (check_add _ _); auto.
  - unfold commit. destruct (nth_error _ _); auto. unfold commit_add. destruct (_ <? _); auto.
  - unfold ztick. destruct (zc m); auto. destruct (ztbl _) as [|[]]; auto. destruct (_ <=? _); auto.
  - unfold ztau. destruct (zc m) as [|K [|id rest]|]; auto.
    + destruct (tget _ _); auto.
    + destruct (mget _ _); auto. destruct (negb ok); [|destruct (sim_ep_running _); auto].
      destruct (zfinish _ _) eqn:Ef; auto. now apply zfinish_tk in Ef.
  - unfold zend. destruct (zc m); auto. destruct (zfinish _ _) eqn:Ef; auto. now apply zfinish_tk in Ef.
Qed.

Lemma mstep_time_window m l : excl m -> now (sc (mstep m l)) <> now (sc m) ->
  window (sc m) = true /\ now (sc m) <= now (sc (mstep m l)) <= next_scheduled (sc m).
Proof.
  intros Hx Hc. destruct (mstep_vis m l Hx) as [E1 E2 E3 E4 E5 E6|d o E1 E2 E3 E4|id im e E1 E2 He E3 E4 E5 E6|id e K rest E1 E2 He E3 E4 E5
                 |id E1 E2 E3 E4|id e E1 He E2 E3 E4|c r E1 E2|q r n E1 E2 E3|K E1 E2 E3 E4 E5 E6 E7 E8]; try congruence.
  - rewrite E5 in Hc. now cbn in Hc.
  - rewrite E4 in Hc. now cbn in Hc.
  - destruct E3 as (?&_&E3&_). now rewrite E3 in Hc.
  - destruct E3 as (?&_&E3&_). now rewrite E3 in Hc.
  - rewrite E2 in *. cbn in *. destruct (api_add_id _ _ _ E1) as (_&_&Hn).
    destruct c; try (exfalso; apply Hc, Hn; discriminate). cbn in E1.
    destruct (set_sim_time (sc m) t) as [s'| |] eqn:Es; try discriminate. injection E1 as <-. cbn in *.
    apply set_sim_time_ok in Es as [[-> _]|(->&Hw&H1&H2)]; [contradiction|]. cbn in *. auto.
  - rewrite E3 in Hc. cbn in Hc. exfalso. apply Hc. unfold commit_add in E2.
    destruct (_ <? _); [|discriminate]. injection E2 as <-. reflexivity.
  - apply set_sim_time_ok in E2 as [[E2 _]|(E2&Hw&H1&H2)].
    + exfalso. apply Hc. apply (f_equal now) in E2. exact E2.
    + split; auto. assert (now (sc (mstep m l)) = K) as -> by (apply (f_equal now) in E2; exact E2). auto.
Qed.

(** ** Statements for SchedProps *)
Lemma cycle_inv_run ls newer id t c n older : disciplined mach_init ls ->
  tr (run ls) = newer ++ TAdd id KSim false t c n :: older -> untouched id newer ->
  exists k : nat, starts_of id newer = instants t c k /\
    ((life_of id (tr (run ls)) = Some (Life (t + Z.of_nat k * c) c (left_of n k) KSim false false) /\ (0 <= n -> Z.of_nat k <= n)) \/
     (exists k', k = S k' /\ life_of id (tr (run ls))
        = Some (Life (t + Z.of_nat k' * c) c (left_of n k') KSim false true) /\ (0 <= n -> Z.of_nat k' <= n)) \/
     (life_of id (tr (run ls)) = None /\ 0 <= n /\ Z.of_nat k = n + 1)).
Proof.
  intros D E Hu. pose proof (run_DInv _ D) as HD. rewrite E. apply cycle_inv; auto; rewrite <- E; apply HD.
Qed.

Lemma due_bound t c k i x : (0 < c \/ (i = 0 /\ k = 0)) -> x <= t + k * c -> t + i * c < x -> 0 <= k -> i < k.
Proof. intros [H|[-> ->]] H1 H2 H3; [nia|lia]. Qed.

Lemma cycle_finite ls newer id t c n older : disciplined mach_init ls ->
  tr (run ls) = newer ++ TAdd id KSim false t c n :: older -> untouched id newer -> 0 <= n ->
  exists k : nat, Z.of_nat k <= n + 1 /\ starts_of id newer = instants t c k /\
    (alive (run ls) -> (n <> 0 -> 0 < c) ->
     forall i, 0 <= i <= n -> t + i * c < sim_time (tr (run ls)) -> i < Z.of_nat k).
Proof.
  intros D E Hu Hn. destruct (cycle_inv_run _ _ _ _ _ _ _ D E Hu) as (k&Hk&Hl). exists k. split; [|split; auto].
  - destruct Hl as [[_ H]|[(k'&->&_&H)|(_&_&H)]]; lia.
  - intros Ha Hc i Hi Hlt. rewrite <- (n_now _ (run_NInv ls) Ha) in Hlt.
    assert (Hp : forall l, life_of id (tr (run ls)) = Some l -> timed l -> now (sc (run ls)) <= due l)
      by (intros l; now apply pending_due).
    destruct Hl as [[Hl H]|[(k'&->&Hl&H)|(_&_&H)]]; [| |lia].
    + specialize (Hp _ Hl ltac:(split; [discriminate|reflexivity])). cbn in Hp. specialize (H Hn).
      eapply due_bound; eauto; [|lia]. destruct (Z.eq_dec n 0); [right; lia|left; auto].
    + specialize (Hp _ Hl ltac:(split; [discriminate|reflexivity])). cbn in Hp. specialize (H Hn).
      assert (i < Z.of_nat k'); [|lia]. eapply due_bound; eauto; [|lia]. destruct (Z.eq_dec n 0); [right; lia|left; auto].
Qed.

Lemma cycle_infinite ls newer id t c n older : disciplined mach_init ls ->
  tr (run ls) = newer ++ TAdd id KSim false t c n :: older -> untouched id newer -> n < 0 ->
  exists k : nat, starts_of id newer = instants t c k /\
    (alive (run ls) -> (exists l, life_of id (tr (run ls)) = Some l) /\
     (0 < c -> forall i, 0 <= i -> t + i * c < sim_time (tr (run ls)) -> i < Z.of_nat k)).
Proof.
  intros D E Hu Hn. destruct (cycle_inv_run _ _ _ _ _ _ _ D E Hu) as (k&Hk&Hl). exists k. split; auto.
  intros Ha. assert (Hp : forall l, life_of id (tr (run ls)) = Some l -> timed l -> now (sc (run ls)) <= due l)
      by (intros l; now apply pending_due).
  destruct Hl as [[Hl _]|[(k'&->&Hl&_)|(_&H&_)]]; [| |lia]; (split; [eauto|]); intros Hc i Hi Hlt;
    rewrite <- (n_now _ (run_NInv ls) Ha) in Hlt;
    specialize (Hp _ Hl ltac:(split; [discriminate|reflexivity])); cbn in Hp.
  - eapply due_bound; eauto. lia.
  - assert (i < Z.of_nat k'); [|lia]. eapply due_bound; eauto. lia.
Qed.

Lemma no_start_before_add ls newer id k im t c n older : alive (run ls) ->
  tr (run ls) = newer ++ TAdd id k im t c n :: older -> starts_of id older = [].
Proof.
  intros Ha E. pose proof (run_TInv ls) as H. apply never_added_no_start.
  - pose proof (t_fact _ H) as Hf. rewrite E in Hf. apply always_suffix in Hf. apply Hf.
  - pose proof (t_nodup _ H) as Hn. rewrite E, added_app in Hn. apply NoDup_app_iff in Hn as (_&Hn&_).
    cbn in Hn. now apply NoDup_cons_iff in Hn as [Hn _].
  - apply (added_range ls id Ha). rewrite E, added_app. apply in_app_iff. right. now left.
Qed.

Lemma mstep_hold m : held (mstep m LHold) /\ nstarts (tr (mstep m LHold)) = nstarts (tr m) /\
  ctl (mstep m LHold) = ctl m.
Proof.
  unfold mstep. destruct (ctl m) eqn:E; try (split; [now left|split; [reflexivity|rewrite <- E; reflexivity]]).
  split; [right; eauto|auto].
Qed.

Lemma hold_at_most_one ls ls' : ~ In LRun ls' ->
  (nstarts (tr (run (ls ++ LHold :: ls'))) <= nstarts (tr (run ls)) + 1)%nat.
Proof.
  intros H. rewrite run_app. cbn [fold_left]. destruct (mstep_hold (run ls)) as (H1&H2&H3).
  pose proof (held_run ls' _ H1 H) as Hr. rewrite H2, H3 in Hr.
  assert (may_start (ctl (run ls)) <= 1)%nat by (destruct (ctl (run ls)); cbn; lia). lia.
Qed.

Lemma run_tr ls ls' : exists x, tr (run (ls ++ ls')) = x ++ tr (run ls).
Proof.
  induction ls' as [|l ls' IH] using rev_ind; [exists []; now rewrite app_nil_r|].
  rewrite app_assoc, run_snoc. destruct IH as [x Hx].
  destruct (mstep_tr (run (ls ++ ls')) l (t_excl _ (run_TInv _))) as [y Hy].
  exists (y ++ x). now rewrite Hy, Hx, app_assoc.
Qed.

Lemma nstarts_app a b : nstarts (a ++ b) = (nstarts a + nstarts b)%nat.
Proof. unfold nstarts, starts. now rewrite flat_map_app, app_length. Qed.

Lemma hold_none_from_ep ls ls' : ~ In LRun ls' -> sim_ep_running (ctl (run ls)) = true ->
  nstarts (tr (run (ls ++ LHold :: ls'))) = nstarts (tr (run ls)).
Proof.
  intros H Hr. destruct (run_tr ls (LHold :: ls')) as [x Hx].
  assert (H0 : (nstarts (tr (run (ls ++ LHold :: ls'))) <= nstarts (tr (run ls)))%nat).
  { rewrite run_app. cbn [fold_left]. destruct (mstep_hold (run ls)) as (H1&H2&H3).
    pose proof (held_run ls' _ H1 H) as Hh. rewrite H2, H3 in Hh.
    assert (may_start (ctl (run ls)) = 0)%nat by (destruct (ctl (run ls)); try discriminate; reflexivity). lia. }
  rewrite Hx in *. rewrite nstarts_app in *. lia.
Qed.

Lemma idle_nothing_lost ls id l : disciplined mach_init ls -> ctl (run ls) = Idle ->
  life_of id (tr (run ls)) = Some l -> lkind l <> KZulu ->
  if limm l then In id (imm (sc (run ls)))
  else In id (tget (due l) (tbl (sc (run ls)))) /\ now (sc (run ls)) <= due l.
Proof.
  intros D Hi Hl Hz. pose proof (run_DInv _ D) as HD.
  assert (Ha : alive (run ls)) by (intros d; rewrite Hi; discriminate).
  destruct (limm l) eqn:E.
  - apply (d_imm _ HD Ha _ _ Hl) in E. unfold IM in E. rewrite Hi in E. now rewrite app_nil_r in E.
  - destruct (timed_due _ _ _ (DInv_live _ HD Ha) (t_link _ (d_t _ HD) Ha) (d_imm _ HD Ha) Hl (conj Hz E)) as [H1 H2].
    rewrite Hi in H2. destruct H2 as [H2|[[] _]]. auto.
Qed.

Lemma set_sim_inside s t : window s = true ->
  api s (TKSetSim t) = if (now s <=? t) && (t <=? next_scheduled s) then Ok (Ret (set_now t s) 0 None)
                       else Throw InvalidSimulationTime.
Proof.
  intros H. cbn. unfold set_sim_time. rewrite H. cbn.
  destruct (Z.ltb_spec t (now s)), (Z.leb_spec (now s) t); try lia; auto.
  destruct (Z.ltb_spec (next_scheduled s) t), (Z.leb_spec t (next_scheduled s)); try lia; auto.
Qed.

Lemma window_closed ls : disciplined mach_init ls ->
  match ctl (run ls) with Post _ | EvtGo _ _ | EvtRun _ _ _ => window (sc (run ls)) = false | _ => True end.
Proof.
  intros D. pose proof (run_DInv _ D) as HD. destruct (d_m _ HD) as [E|[HL _]]; [now rewrite E|].
  pose proof (m_ctl _ HL) as HC. destruct (ctl (run ls)); auto; apply HC.
Qed.

(** ** Which calls are undefined *)
Lemma in_i64_false z : in_i64 z = false <-> ~ (i64_min <= z <= i64_max).
Proof. rewrite <- in_i64_spec. destruct (in_i64 z); split; congruence. Qed.

Lemma all_fit l : forallb in_i64 l = true <-> Forall (fun z => i64_min <= z <= i64_max) l.
Proof.
  induction l as [|z l IH]; cbn; [split; auto|]. rewrite andb_true_iff, in_i64_spec, IH. split.
  - intros [A B]. now constructor.
  - intros H. inversion H; auto.
Qed.

Lemma not_ub_add s q b : (r_sim q <? now s) = b ->
  (bind (check_add s q) (commit_add s) <> UB <->
   (reject_post b (r_cycle q) (r_repeat q) = None -> last s < i64_max)).
Proof.
  intros <-. unfold check_add, reject_post, commit_add.
  destruct (r_sim q <? now s); cbn; [split; congruence|].
  destruct (negb _ && _); cbn; [split; congruence|].
  destruct (Z.ltb_spec (last s) i64_max); split; auto; try congruence. intros L. specialize (L eq_refl). lia.
Qed.

Lemma not_ub_set s id sim t k : set_event_time s id sim t k <> UB.
Proof.
  unfold set_event_time. destruct (mget _ _); [|discriminate]. destruct (negb _); [discriminate|].
  destruct (_ <? _); discriminate.
Qed.

Lemma ub_if {A} (b : bool) (r : res exn A) : (if b then r else UB) <> UB <-> b = true /\ r <> UB.
Proof. destruct b; split; intuition congruence. Qed.

Lemma well_defined_ok s c : api s c <> UB <-> well_defined s c.
Proof.
  assert (G : forall (b : bool) l (r : res exn ret) P, b = forallb in_i64 l -> (r <> UB <-> P) ->
    ((if b then r else UB) <> UB <-> Forall (fun z => i64_min <= z <= i64_max) l /\ P)).
  { intros b l r P -> H. rewrite ub_if, all_fit, H. tauto. }
  assert (N : forall (r : res exn ret), r <> UB -> (r <> UB <-> (false = true -> must_reject s c = None -> last s < i64_max))).
  { intros r H. split; auto. discriminate. }
  unfold well_defined. destruct c.
  - cbn. destruct (Z.ltb_spec (last s) i64_max); split; auto; try congruence. intros [_ L]. specialize (L eq_refl eq_refl). lia.
  - cbn [api build_add computes posts must_reject]. rewrite <- (G (in_i64 (now s + t)) [now s + t]
      (bind (check_add s (Req ep (now s + t) (now s + t) c r KSim)) (commit_add s))).
    + destruct (in_i64 _); reflexivity.
    + cbn. now rewrite andb_true_r.
    + rewrite (not_ub_add s _ (t <? 0)); [cbn; tauto|].
      cbn. destruct (Z.ltb_spec t 0), (Z.ltb_spec (now s + t) (now s)); lia.
  - cbn [api build_add computes posts must_reject].
    rewrite <- (G (in_i64 (now s + t) && in_i64 (epoch_time s) && in_i64 (mission_time s) && in_i64 (now s + t - mission_time s)) _
      (bind (check_add s (Req ep (now s + t - mission_time s) t c r KMission)) (commit_add s))).
    + destruct (_ && _); reflexivity.
    + cbn. now rewrite andb_true_r, !andb_assoc.
    + rewrite (not_ub_add s _ (t <? mission_time s)); [cbn; tauto|].
      cbn. destruct (Z.ltb_spec t (mission_time s)), (Z.ltb_spec (now s + t - mission_time s) (now s)); lia.
  - cbn [api build_add computes posts must_reject].
    rewrite <- (G (in_i64 (now s + t) && in_i64 (epoch_time s) && in_i64 (now s + t - epoch_time s)) _
      (bind (check_add s (Req ep (now s + t - epoch_time s) t c r KEpoch)) (commit_add s))).
    + destruct (_ && _); reflexivity.
    + cbn. now rewrite andb_true_r, !andb_assoc.
    + rewrite (not_ub_add s _ (t <? epoch_time s)); [cbn; tauto|].
      cbn. destruct (Z.ltb_spec t (epoch_time s)), (Z.ltb_spec (now s + t - epoch_time s) (now s)); lia.
  - cbn [api computes posts must_reject]. unfold reject_post.
    destruct (t <? z); [split; [intros _; split; [constructor|discriminate]|discriminate]|].
    destruct (negb _ && _); [split; [intros _; split; [constructor|discriminate]|discriminate]|].
    destruct (Z.ltb_spec (last s) i64_max); split; try discriminate; try congruence; auto.
    intros [_ L]. specialize (L eq_refl eq_refl). lia.
  - cbn [api computes posts]. apply G; [cbn; now rewrite andb_true_r|]. apply N, not_ub_set.
  - cbn [api computes posts]. apply G; [cbn; now rewrite andb_true_r, !andb_assoc|]. apply N, not_ub_set.
  - cbn [api computes posts]. apply G; [cbn; now rewrite andb_true_r, !andb_assoc|]. apply N, not_ub_set.
  - cbn [api computes posts]. split; [split; [constructor|discriminate]|]. intros _. unfold set_event_zulu.
    destruct (mget _ _); [|discriminate]. destruct (negb _); [discriminate|]. destruct (_ <? _); discriminate.
  - cbn [api computes posts]. split; [split; [constructor|discriminate]|]. intros _.
    destruct (mget _ _); [|discriminate]. destruct (_ && _); discriminate.
  - cbn [api computes posts]. split; [split; [constructor|discriminate]|]. intros _.
    destruct (mget _ _); [|discriminate]. destruct (_ && _); discriminate.
  - cbn [api computes posts]. split; [split; [constructor|discriminate]|]. intros _. unfold remove_event.
    destruct (mget _ _); [|discriminate]. destruct (_ =? _); [discriminate|]. destruct (tkind_eqb _ _); [|discriminate].
    destruct (sdel _ _); discriminate.
  - cbn [api computes posts]. apply G; [cbn; now rewrite andb_true_r|]. apply N. discriminate.
  - cbn [api computes posts]. apply G; [cbn; now rewrite andb_true_r|]. apply N. discriminate.
  - cbn [api computes posts]. split; [split; [constructor|discriminate]|]. discriminate.
  - cbn [api computes posts]. split; [split; [constructor|discriminate]|]. intros _. unfold set_sim_time, bind.
    destruct (negb _); [discriminate|]. destruct (_ || _); discriminate.
Qed.

(** ** Numbers given by each call *)
Lemma api_number s c r : api s c = Ok r ->
  (r_id r, last (r_st r)) = if posts c then (last s + 1, last s + 1) else (0, last s).
Proof.
  intros H.
  assert (A : forall q, bind (check_add s q) (commit_add s) = Ok r -> (r_id r, last (r_st r)) = (last s + 1, last s + 1)).
  { intros q. unfold check_add, commit_add. destruct (_ <? _); cbn; [discriminate|]. destruct (negb _ && _); cbn; [discriminate|].
    destruct (_ <? _); [|discriminate]. now intros [= <-]. }
  assert (T : forall id sim t k, set_event_time s id sim t k = Ok r -> (r_id r, last (r_st r)) = (0, last s)).
  { intros id sim t k. unfold set_event_time. destruct (mget _ _); [|discriminate]. destruct (negb _); [discriminate|].
    destruct (_ <? _); now intros [= <-]. }
  destruct c; cbn [api build_add posts] in *.
  - destruct (_ <? _); [|discriminate]. now injection H as <-.
  - destruct (in_i64 _); [|discriminate]. eapply A, H.
  - destruct (_ && _); [|discriminate]. eapply A, H.
  - destruct (_ && _); [|discriminate]. eapply A, H.
  - destruct (_ <? _); [discriminate|]. destruct (_ && _); [discriminate|]. destruct (_ <? _); [|discriminate].
    now injection H as <-.
  - destruct (in_i64 _); [|discriminate]. eapply T, H.
  - destruct (_ && _); [|discriminate]. eapply T, H.
  - destruct (_ && _); [|discriminate]. eapply T, H.
  - unfold set_event_zulu in H. destruct (mget _ _); [|discriminate]. destruct (negb _); [discriminate|].
    destruct (_ <? _); now injection H as <-.
  - destruct (mget _ _); [|discriminate]. destruct (_ && _); [discriminate|]. now injection H as <-.
  - destruct (mget _ _); [|discriminate]. destruct (_ && _); [discriminate|]. now injection H as <-.
  - unfold remove_event in H. destruct (mget _ _); [|discriminate]. destruct (_ =? _); [now injection H as <-|].
    destruct (tkind_eqb _ _); [|now injection H as <-]. destruct (sdel _ _); now injection H as <-.
  - destruct (in_i64 _); [|discriminate]. now injection H as <-.
  - destruct (_ && _); [|discriminate]. now injection H as <-.
  - now injection H as <-.
  - unfold set_sim_time in H. destruct (negb _); [now injection H as <-|]. destruct (_ || _); [discriminate|].
    now injection H as <-.
Qed.
