(** Consistency invariant of the scheduler data and its preservation by the
    elementary updates. *)
From Verif Require Import Base SchedModel.
From Coq Require Import Permutation.

#[global] Arguments keys {A} m : simpl never.
#[global] Arguments tins k id t : simpl never.
#[global] Arguments tdel k id t : simpl never.
#[global] Arguments tget k t : simpl never.
#[global] Arguments mset {A} k a m : simpl never.
#[global] Arguments mdel {A} k m : simpl never.
#[global] Arguments sins_all xs s : simpl never.

(** ** Tables of id sets *)
Definition tok (t : omap (list Z)) : Prop := msorted t /\ forall k, ssorted (tget k t).

Lemma tget_mset k k' l t : tget k (mset k' l t) = if k =? k' then l else tget k t.
Proof. unfold tget. rewrite mget_mset. now destruct (k =? k'). Qed.

Lemma tget_mdel k k' t : msorted t -> tget k (mdel k' t) = if k =? k' then [] else tget k t.
Proof. intros H. unfold tget. rewrite mget_mdel by auto. now destruct (k =? k'). Qed.

Lemma in_tins x k k' id t :
  In x (tget k (tins k' id t)) <-> (k = k' /\ x = id) \/ In x (tget k t).
Proof.
  unfold tins. rewrite tget_mset. destruct (Z.eqb_spec k k') as [->|Hn].
  - rewrite in_sins. intuition.
  - intuition.
Qed.

Lemma tok_tins k id t : tok t -> tok (tins k id t).
Proof.
  intros [H1 H2]. split; [now apply mset_sorted|].
  intros k'. unfold tins. rewrite tget_mset. destruct (k' =? k); auto. now apply sins_sorted.
Qed.

Lemma keys_tins x k id t : In x (keys (tins k id t)) <-> x = k \/ In x (keys t).
Proof. apply keys_mset. Qed.

Lemma tok_mset k l t : tok t -> ssorted l -> tok (mset k l t).
Proof.
  intros [H1 H2] H. split; [now apply mset_sorted|].
  intros k'. rewrite tget_mset. destruct (k' =? k); auto.
Qed.

Lemma ssorted_nil : ssorted [].
Proof. constructor. Qed.

Lemma tok_mdel k t : tok t -> tok (mdel k t).
Proof.
  intros [H1 H2]. split; [now apply mdel_sorted|].
  intros k'. rewrite tget_mdel by auto. destruct (k' =? k); auto. apply ssorted_nil.
Qed.

Lemma tdel_cases k id t :
  (sdel id (tget k t) = [] /\ tdel k id t = mdel k t /\ tdel_kills k id t = Some k) \/
  (sdel id (tget k t) <> [] /\ tdel k id t = mset k (sdel id (tget k t)) t /\ tdel_kills k id t = None).
Proof.
  unfold tdel, tdel_kills. destruct (sdel id (tget k t)); [left|right]; repeat split; discriminate.
Qed.

Lemma tok_tdel k id t : tok t -> tok (tdel k id t).
Proof.
  intros H. destruct (tdel_cases k id t) as [(_&->&_)|(_&->&_)].
  - now apply tok_mdel.
  - apply tok_mset; auto. apply sdel_sorted, H.
Qed.

Lemma in_tdel x k k' id t : tok t ->
  (In x (tget k (tdel k' id t)) <-> In x (tget k t) /\ ~ (k = k' /\ x = id)).
Proof.
  intros [H1 H2].
  pose proof (in_sdel x id (tget k' t) (H2 k')) as Hd.
  destruct (tdel_cases k' id t) as [(E&->&_)|(E&->&_)].
  - rewrite tget_mdel by auto. destruct (Z.eqb_spec k k') as [->|].
    + rewrite E in Hd. cbn in *. split; [tauto|]. intros [Ha Hb].
      apply Hd. split; auto.
    + intuition.
  - rewrite tget_mset. destruct (Z.eqb_spec k k') as [->|].
    + rewrite Hd. intuition.
    + intuition.
Qed.

Lemma keys_tdel x k id t : tok t -> In x (keys (tdel k id t)) -> In x (keys t).
Proof.
  intros [H1 H2]. destruct (tdel_cases k id t) as [(E&->&_)|(E&->&_)].
  - apply keys_mdel_incl.
  - rewrite keys_mset. intros [->|]; auto. apply mget_in_keys.
    unfold tget in E. destruct (mget k t); [discriminate|]. now cbn in E.
Qed.

Lemma keys_tdel_other x k id t : tok t -> x <> k -> In x (keys t) -> In x (keys (tdel k id t)).
Proof.
  intros [H1 H2] Hn Hin. destruct (tdel_cases k id t) as [(E&->&_)|(E&->&_)].
  - now apply keys_mdel.
  - apply keys_mset. auto.
Qed.

Lemma in_tget_keys x k t : In x (tget k t) -> In k (keys t).
Proof. intros H. apply mget_in_keys. unfold tget in H. destruct (mget k t); [discriminate|destruct H]. Qed.

Lemma ssorted_NoDup l : ssorted l -> NoDup l.
Proof.
  induction l as [|a l IH]; intros H; constructor; apply ssorted_cons in H as [H1 H2]; auto.
  intros Hin. specialize (H2 _ Hin). lia.
Qed.

Lemma NoDup_app_iff {A} (l1 l2 : list A) :
  NoDup (l1 ++ l2) <-> NoDup l1 /\ NoDup l2 /\ (forall x, In x l1 -> ~ In x l2).
Proof.
  induction l1 as [|a l1 IH]; cbn.
  - intuition; constructor.
  - split.
    + intros H. inversion H as [|? ? Ha Hb]; subst. apply IH in Hb as (?&?&?).
      rewrite in_app_iff in Ha. repeat split; auto.
      * constructor; auto.
      * intros x [<-|]; auto.
    + intros (H1&H2&H3). inversion H1; subst. constructor.
      * rewrite in_app_iff. intros [?|?]; auto. eapply H3; eauto.
      * apply IH. repeat split; auto.
Qed.

(** ** The invariant on the data.
    [FI]: ids of immediate events swapped out of _immediate_events and not finished.
    [FE]: ids of events of the current instant swapped out of _events_table and not finished.
    [ZF]: ids of Zulu events swapped out of _zulu_events_table and not finished. *)
Record SInv (s : sched) (FI FE ZF : list Z) : Prop := {
  i_evs : msorted (evs s);
  i_tbl : tok (tbl s);
  i_ztbl : tok (ztbl s);
  i_imm : ssorted (imm s);
  i_last : -1 <= last s <= i64_max;
  i_ids : forall id e, mget id (evs s) = Some e -> 0 <= id <= last s \/ id = hold_id;
  i_tev : forall k id, In id (tget k (tbl s)) ->
            exists e, mget id (evs s) = Some e /\ ev_next e = k /\ ev_kind e <> KZulu;
  i_fi : forall id, In id (imm s ++ FI) ->
            exists e, mget id (evs s) = Some e /\ ev_kind e = KSim /\ ev_repeat e = 0 /\ ev_next e <= now s;
  i_fe : forall id, In id FE ->
            exists e, mget id (evs s) = Some e /\ ev_next e = now s /\ ev_kind e <> KZulu;
  i_nodup : NoDup ((imm s ++ FI) ++ FE);
  i_disj : forall id k, In id ((imm s ++ FI) ++ FE) -> ~ In id (tget k (tbl s));
  i_cover : forall id e, mget id (evs s) = Some e -> ev_kind e <> KZulu ->
            In id (tget (ev_next e) (tbl s)) \/ In id ((imm s ++ FI) ++ FE);
  i_cyc : forall id e, mget id (evs s) = Some e -> ev_repeat e <> 0 -> 0 < ev_cycle e;
  i_keys : forall k, In k (keys (tbl s)) -> now s <= k;
  i_zev : forall k id, In id (tget k (ztbl s)) ->
            exists e, mget id (evs s) = Some e /\ ev_next e = k /\ ev_kind e = KZulu;
  i_zf : forall id, In id ZF -> exists e, mget id (evs s) = Some e /\ ev_kind e = KZulu;
  i_znodup : NoDup ZF;
  i_zdisj : forall id k, In id ZF -> ~ In id (tget k (ztbl s));
  i_zcover : forall id e, mget id (evs s) = Some e -> ev_kind e = KZulu ->
            In id (tget (ev_next e) (ztbl s)) \/ In id ZF
}.

Lemma SInv_perm s FI FE ZF FI' FE' ZF' :
  Permutation FI FI' -> Permutation FE FE' -> Permutation ZF ZF' ->
  SInv s FI FE ZF -> SInv s FI' FE' ZF'.
Proof.
  intros PI PE PZ H. destruct H.
  assert (P1 : Permutation (imm s ++ FI) (imm s ++ FI')) by now apply Permutation_app_head.
  assert (P2 : Permutation ((imm s ++ FI) ++ FE) ((imm s ++ FI') ++ FE')) by now apply Permutation_app.
  constructor; auto.
  - intros id Hin. apply i_fi0. eapply Permutation_in; [symmetry; eassumption|auto].
  - intros id Hin. apply i_fe0. eapply Permutation_in; [symmetry; eassumption|auto].
  - eapply Permutation_NoDup; eauto.
  - intros id k Hin. apply i_disj0. eapply Permutation_in; [symmetry; eassumption|auto].
  - intros id e He Hk. destruct (i_cover0 id e He Hk); auto. right. eapply Permutation_in; eauto.
  - intros id Hin. apply i_zf0. eapply Permutation_in; [symmetry; eassumption|auto].
  - eapply Permutation_NoDup; eauto.
  - intros id k Hin. apply i_zdisj0. eapply Permutation_in; [symmetry; eassumption|auto].
  - intros id e He Hk. destruct (i_zcover0 id e He Hk); auto. right. eapply Permutation_in; eauto.
Qed.

Lemma i64_max_pos : 0 < i64_max.
Proof. reflexivity. Qed.
Lemma i64_max_hold : i64_max < hold_id.
Proof. reflexivity. Qed.

#[local] Opaque hold_id i64_max.
Lemma SInv_init : SInv sched_init [] [] [].
Proof.
  constructor; cbn.
  - apply msorted_cons. split; [constructor|intros ? []].
  - split; [apply msorted_cons; split; [constructor|intros ? []]|].
    intros k. unfold tget; cbn. destruct (k =? _); [|apply ssorted_nil].
    apply ssorted_cons. split; [constructor|intros ? []].
  - split; [constructor|]. intros k. apply ssorted_nil.
  - apply ssorted_nil.
  - pose proof i64_max_pos; lia.
  - intros id e. destruct (Z.eqb_spec id hold_id); [auto|discriminate].
  - intros k id. unfold tget; cbn. destruct (Z.eqb_spec k i64_max); cbn; [|intros []].
    intros [<-|[]]. eexists. rewrite Z.eqb_refl. split; [reflexivity|]. cbn. subst. split; [reflexivity|discriminate].
  - intros ? [].
  - intros ? [].
  - constructor.
  - intros ? ? [].
  - intros id e. destruct (Z.eqb_spec id hold_id); [|discriminate].
    intros [= <-] _. left. subst. unfold tget; cbn. rewrite Z.eqb_refl. cbn. auto.
  - intros id e. destruct (Z.eqb_spec id hold_id); [|discriminate]. intros [= <-]; cbn; lia.
  - intros k [<-|[]]. cbn. pose proof i64_max_pos; lia.
  - intros ? ? [].
  - intros ? [].
  - constructor.
  - intros ? ? [].
  - intros id e. destruct (Z.eqb_spec id hold_id); [|discriminate]. intros [= <-]; discriminate.
Qed.

Lemma fresh s FI FE ZF : SInv s FI FE ZF -> last s < i64_max -> mget (last s + 1) (evs s) = None.
Proof.
  intros H Hl. destruct (mget (last s + 1) (evs s)) eqn:E; auto.
  pose proof (i_ids _ _ _ _ H _ _ E). pose proof (i_last _ _ _ _ H).
  pose proof i64_max_hold. lia.
Qed.

(** Posting an event for a time not in the past. *)
Lemma SInv_commit s FI FE ZF q r :
  SInv s FI FE ZF ->
  now s <= r_sim q -> (r_repeat q <> 0 -> 0 < r_cycle q) -> r_kind q <> KZulu ->
  commit_add s q = Ok r -> SInv (r_st r) FI FE ZF.
Proof.
  intros H Ht Hc Hk. unfold commit_add. destruct (Z.ltb_spec (last s) i64_max) as [Hl|]; [|discriminate].
  intros [= <-]. cbn. pose proof (fresh _ _ _ _ H Hl) as Hf. destruct H.
  set (id0 := last s + 1) in *.
  assert (Hne : forall id e, mget id (evs s) = Some e -> id <> id0) by (intros ? ? ? ->; congruence).
  constructor; cbn; auto.
  - now apply mset_sorted.
  - now apply tok_tins.
  - unfold id0; lia.
  - intros id e. rewrite mget_mset. destruct (Z.eqb_spec id id0) as [->|].
    + intros _. left. unfold id0. lia.
    + intros He. destruct (i_ids0 _ _ He); unfold id0; [left; lia|auto].
  - intros k id. rewrite in_tins, mget_mset. intros [[-> ->]|Hin].
    + rewrite Z.eqb_refl. eexists; split; [reflexivity|]. cbn; auto.
    + destruct (i_tev0 _ _ Hin) as (e&He&?&?). rewrite (proj2 (Z.eqb_neq _ _) (Hne _ _ He)). eauto.
  - intros id Hin. destruct (i_fi0 _ Hin) as (e&He&?&?&?). rewrite mget_mset, (proj2 (Z.eqb_neq _ _) (Hne _ _ He)). eauto 8.
  - intros id Hin. destruct (i_fe0 _ Hin) as (e&He&?&?). rewrite mget_mset, (proj2 (Z.eqb_neq _ _) (Hne _ _ He)). eauto 8.
  - intros id k Hin. rewrite in_tins. intros [[-> ->]|Hin2]; [|eapply i_disj0; eauto].
    apply in_app_iff in Hin as [Hin|Hin].
    + destruct (i_fi0 _ Hin) as (e&He&_). now apply (Hne _ _ He).
    + destruct (i_fe0 _ Hin) as (e&He&_). now apply (Hne _ _ He).
  - intros id e. rewrite mget_mset. destruct (Z.eqb_spec id id0) as [->|].
    + intros [= <-] _. cbn. left. apply in_tins. auto.
    + intros He Hk'. destruct (i_cover0 _ _ He Hk'); auto. left. apply in_tins. auto.
  - intros id e. rewrite mget_mset. destruct (Z.eqb_spec id id0) as [->|]; [|eauto].
    intros [= <-]. cbn. auto.
  - intros k. rewrite keys_tins. intros [->|]; auto.
  - intros k id Hin. destruct (i_zev0 _ _ Hin) as (e&He&?&?). rewrite mget_mset, (proj2 (Z.eqb_neq _ _) (Hne _ _ He)). eauto.
  - intros id Hin. destruct (i_zf0 _ Hin) as (e&He&?). rewrite mget_mset, (proj2 (Z.eqb_neq _ _) (Hne _ _ He)). eauto.
  - intros id e. rewrite mget_mset. destruct (Z.eqb_spec id id0) as [->|]; [|eauto].
    intros [= <-]. cbn. congruence.
Qed.

(** Posting an immediate event. *)
Lemma SInv_addimm s FI FE ZF ep :
  SInv s FI FE ZF -> last s < i64_max ->
  SInv (set_last (last s + 1) (set_imm (sins (last s + 1) (imm s))
                 (set_evs (mset (last s + 1) (Ev ep (now s) (now s) 0 0 KSim) (evs s)) s))) FI FE ZF.
Proof.
  intros H Hl. pose proof (fresh _ _ _ _ H Hl) as Hf. destruct H.
  set (id0 := last s + 1) in *.
  assert (Hne : forall id e, mget id (evs s) = Some e -> id <> id0) by (intros ? ? ? ->; congruence).
  assert (Hp : Permutation ((sins id0 (imm s) ++ FI) ++ FE) (id0 :: (imm s ++ FI) ++ FE)).
  { change (id0 :: (imm s ++ FI) ++ FE) with (((id0 :: imm s) ++ FI) ++ FE).
    do 2 apply Permutation_app_tail. apply NoDup_Permutation.
    - apply ssorted_NoDup, sins_sorted; auto.
    - constructor.
      + intros Hin. destruct (i_fi0 id0) as (e&He&_); [apply in_app_iff; auto|]. now apply (Hne _ _ He).
      + apply NoDup_app_iff in i_nodup0 as [Hx _]. now apply NoDup_app_iff in Hx as [Hx _].
    - intros x. rewrite in_sins. cbn. intuition. }
  constructor; cbn; auto.
  - now apply mset_sorted.
  - now apply sins_sorted.
  - unfold id0; lia.
  - intros id e. rewrite mget_mset. destruct (Z.eqb_spec id id0) as [->|].
    + intros _. left. unfold id0. lia.
    + intros He. destruct (i_ids0 _ _ He); unfold id0; [left; lia|auto].
  - intros k id Hin.
    destruct (i_tev0 _ _ Hin) as (e&He&?&?). rewrite mget_mset, (proj2 (Z.eqb_neq _ _) (Hne _ _ He)). eauto.
  - intros id Hin. rewrite mget_mset. destruct (Z.eqb_spec id id0) as [->|Hd].
    + eexists; split; [reflexivity|]. cbn. intuition lia.
    + apply i_fi0. apply in_app_iff in Hin as [Hin|Hin]; apply in_app_iff; auto.
      apply in_sins in Hin as [?|?]; auto; congruence.
  - intros id Hin. destruct (i_fe0 _ Hin) as (e&He&?&?). rewrite mget_mset, (proj2 (Z.eqb_neq _ _) (Hne _ _ He)). eauto 8.
  - eapply Permutation_NoDup; [symmetry; exact Hp|]. constructor; auto.
    intros Hin. apply in_app_iff in Hin as [Hin|Hin].
    + destruct (i_fi0 _ Hin) as (e&He&_). now apply (Hne _ _ He).
    + destruct (i_fe0 _ Hin) as (e&He&_). now apply (Hne _ _ He).
  - intros id k Hin Hin2. apply (Permutation_in _ Hp) in Hin as [<-|Hin]; [|eapply i_disj0; eauto].
    destruct (i_tev0 _ _ Hin2) as (e&He&_). now apply (Hne _ _ He).
  - intros id e. rewrite mget_mset. destruct (Z.eqb_spec id id0) as [->|].
    + intros [= <-] _. right. apply (Permutation_in _ (Permutation_sym Hp)). now left.
    + intros He Hk'. destruct (i_cover0 _ _ He Hk'); auto. right. apply (Permutation_in _ (Permutation_sym Hp)). now right.
  - intros id e. rewrite mget_mset. destruct (Z.eqb_spec id id0) as [->|]; [|eauto].
    intros [= <-]. cbn. congruence.
  - intros k id Hin. destruct (i_zev0 _ _ Hin) as (e&He&?&?). rewrite mget_mset, (proj2 (Z.eqb_neq _ _) (Hne _ _ He)). eauto.
  - intros id Hin. destruct (i_zf0 _ Hin) as (e&He&?). rewrite mget_mset, (proj2 (Z.eqb_neq _ _) (Hne _ _ He)). eauto.
  - intros id e. rewrite mget_mset. destruct (Z.eqb_spec id id0) as [->|]; [|eauto].
    intros [= <-]. cbn. congruence.
Qed.

(** Posting a Zulu event. *)
Lemma SInv_addzulu s FI FE ZF ep t c r :
  SInv s FI FE ZF -> last s < i64_max -> (r <> 0 -> 0 < c) ->
  SInv (set_last (last s + 1) (set_ztbl (tins t (last s + 1) (ztbl s))
                 (set_evs (mset (last s + 1) (Ev ep t t c r KZulu) (evs s)) s))) FI FE ZF.
Proof.
  intros H Hl Hc. pose proof (fresh _ _ _ _ H Hl) as Hf. destruct H.
  set (id0 := last s + 1) in *.
  assert (Hne : forall id e, mget id (evs s) = Some e -> id <> id0) by (intros ? ? ? ->; congruence).
  constructor; cbn; auto.
  - now apply mset_sorted.
  - now apply tok_tins.
  - unfold id0; lia.
  - intros id e. rewrite mget_mset. destruct (Z.eqb_spec id id0) as [->|].
    + intros _. left. unfold id0. lia.
    + intros He. destruct (i_ids0 _ _ He); unfold id0; [left; lia|auto].
  - intros k id Hin.
    destruct (i_tev0 _ _ Hin) as (e&He&?&?). rewrite mget_mset, (proj2 (Z.eqb_neq _ _) (Hne _ _ He)). eauto.
  - intros id Hin. destruct (i_fi0 _ Hin) as (e&He&?&?&?). rewrite mget_mset, (proj2 (Z.eqb_neq _ _) (Hne _ _ He)). eauto 8.
  - intros id Hin. destruct (i_fe0 _ Hin) as (e&He&?&?). rewrite mget_mset, (proj2 (Z.eqb_neq _ _) (Hne _ _ He)). eauto 8.
  - intros id e. rewrite mget_mset. destruct (Z.eqb_spec id id0) as [->|]; [|eauto].
    intros [= <-]. cbn. congruence.
  - intros id e. rewrite mget_mset. destruct (Z.eqb_spec id id0) as [->|]; [|eauto].
    intros [= <-]. cbn. auto.
  - intros k id. rewrite in_tins, mget_mset. intros [[-> ->]|Hin].
    + rewrite Z.eqb_refl. eexists; split; [reflexivity|]. cbn; auto.
    + destruct (i_zev0 _ _ Hin) as (e&He&?&?). rewrite (proj2 (Z.eqb_neq _ _) (Hne _ _ He)). eauto.
  - intros id Hin. destruct (i_zf0 _ Hin) as (e&He&?). rewrite mget_mset, (proj2 (Z.eqb_neq _ _) (Hne _ _ He)). eauto.
  - intros id k Hin. rewrite in_tins. intros [[-> ->]|Hin2]; [|eapply i_zdisj0; eauto].
    destruct (i_zf0 _ Hin) as (e&He&_). now apply (Hne _ _ He).
  - intros id e. rewrite mget_mset. destruct (Z.eqb_spec id id0) as [->|].
    + intros [= <-] _. cbn. left. apply in_tins. auto.
    + intros He Hk'. destruct (i_zcover0 _ _ He Hk'); auto. left. apply in_tins. auto.
Qed.

(** Changing only cycle time and repeat count of a record. *)
Lemma SInv_setev s FI FE ZF id0 e0 t c r :
  SInv s FI FE ZF -> mget id0 (evs s) = Some e0 ->
  (r <> 0 -> 0 < c) -> (In id0 (imm s ++ FI) -> r = 0) ->
  SInv (set_evs (mset id0 (Ev (ev_ep e0) (ev_next e0) t c r (ev_kind e0)) (evs s)) s) FI FE ZF.
Proof.
  intros H He0 Hc Hr. destruct H.
  constructor; cbn; auto.
  - now apply mset_sorted.
  - intros id e. rewrite mget_mset. destruct (Z.eqb_spec id id0) as [->|]; eauto.
  - intros k id Hin. rewrite mget_mset. destruct (i_tev0 _ _ Hin) as (e&He&?&?).
    destruct (Z.eqb_spec id id0) as [->|]; eauto. rewrite He0 in He; injection He as <-.
    eexists; split; [reflexivity|]; cbn; auto.
  - intros id Hin. rewrite mget_mset. destruct (i_fi0 _ Hin) as (e&He&?&?&?).
    destruct (Z.eqb_spec id id0) as [->|]; eauto. rewrite He0 in He; injection He as <-.
    eexists; split; [reflexivity|]; cbn; auto.
  - intros id Hin. rewrite mget_mset. destruct (i_fe0 _ Hin) as (e&He&?&?).
    destruct (Z.eqb_spec id id0) as [->|]; eauto. rewrite He0 in He; injection He as <-.
    eexists; split; [reflexivity|]; cbn; auto.
  - intros id e. rewrite mget_mset. destruct (Z.eqb_spec id id0) as [->|]; eauto.
    intros [= <-]; cbn. apply i_cover0; auto.
  - intros id e. rewrite mget_mset. destruct (Z.eqb_spec id id0) as [->|]; eauto.
    intros [= <-]; cbn; auto.
  - intros k id Hin. rewrite mget_mset. destruct (i_zev0 _ _ Hin) as (e&He&?&?).
    destruct (Z.eqb_spec id id0) as [->|]; eauto. rewrite He0 in He; injection He as <-.
    eexists; split; [reflexivity|]; cbn; auto.
  - intros id Hin. rewrite mget_mset. destruct (i_zf0 _ Hin) as (e&He&?).
    destruct (Z.eqb_spec id id0) as [->|]; eauto. rewrite He0 in He; injection He as <-.
    eexists; split; [reflexivity|]; cbn; auto.
  - intros id e. rewrite mget_mset. destruct (Z.eqb_spec id id0) as [->|]; eauto.
    intros [= <-]; cbn. apply i_zcover0; auto.
Qed.

(** Erasing a record pending in the table together with its table entry. *)
Lemma SInv_erase_tbl s FI FE ZF id0 e0 :
  SInv s FI FE ZF -> mget id0 (evs s) = Some e0 -> In id0 (tget (ev_next e0) (tbl s)) ->
  SInv (set_tbl (tdel (ev_next e0) id0 (tbl s)) (set_evs (mdel id0 (evs s)) s)) FI FE ZF.
Proof.
  intros H He0 Hin0. destruct H.
  assert (Hnf : ~ In id0 ((imm s ++ FI) ++ FE)) by (intros Hx; eapply i_disj0; eauto).
  assert (Hkind : ev_kind e0 <> KZulu) by (destruct (i_tev0 _ _ Hin0) as (e&He&?&?); congruence).
  assert (Honly : forall k, In id0 (tget k (tbl s)) -> k = ev_next e0).
  { intros k Hk. destruct (i_tev0 _ _ Hk) as (e&He&?&?). congruence. }
  constructor; cbn; auto.
  - now apply mdel_sorted.
  - now apply tok_tdel.
  - intros id e. rewrite mget_mdel by auto. destruct (id =? id0); [discriminate|]. eauto.
  - intros k id. rewrite in_tdel, mget_mdel by auto. intros [Hin Hno].
    destruct (Z.eqb_spec id id0) as [->|]; eauto. exfalso. apply Hno. split; auto.
  - intros id Hin. rewrite mget_mdel by auto. destruct (Z.eqb_spec id id0) as [->|]; eauto.
    exfalso. apply Hnf. apply in_app_iff. auto.
  - intros id Hin. rewrite mget_mdel by auto. destruct (Z.eqb_spec id id0) as [->|]; eauto.
    exfalso. apply Hnf. apply in_app_iff. auto.
  - intros id k Hin. rewrite in_tdel by auto. intros [Hx _]. eapply i_disj0; eauto.
  - intros id e. rewrite mget_mdel by auto. destruct (Z.eqb_spec id id0) as [->|Hn]; [discriminate|].
    intros He Hk. destruct (i_cover0 _ _ He Hk); auto. left. apply in_tdel; auto. split; auto. tauto.
  - intros id e. rewrite mget_mdel by auto. destruct (id =? id0); [discriminate|]. eauto.
  - intros k Hk. apply i_keys0. eapply keys_tdel; eauto.
  - intros k id Hin. rewrite mget_mdel by auto. destruct (i_zev0 _ _ Hin) as (e&He&?&?).
    destruct (Z.eqb_spec id id0) as [->|]; eauto. congruence.
  - intros id Hin. rewrite mget_mdel by auto. destruct (i_zf0 _ Hin) as (e&He&?).
    destruct (Z.eqb_spec id id0) as [->|]; eauto. congruence.
  - intros id e. rewrite mget_mdel by auto. destruct (id =? id0); [discriminate|]. eauto.
Qed.

(** Moving an event pending in the table to another time. *)
Lemma SInv_retime s FI FE ZF id0 e0 sim t :
  SInv s FI FE ZF -> mget id0 (evs s) = Some e0 -> In id0 (tget (ev_next e0) (tbl s)) ->
  now s <= sim ->
  SInv (set_tbl (tins sim id0 (tdel (ev_next e0) id0 (tbl s)))
          (set_evs (mset id0 (Ev (ev_ep e0) sim t (ev_cycle e0) (ev_repeat e0) (ev_kind e0)) (evs s)) s))
       FI FE ZF.
Proof.
  intros H He0 Hin0 Hsim. destruct H.
  assert (Hnf : ~ In id0 ((imm s ++ FI) ++ FE)) by (intros Hx; eapply i_disj0; eauto).
  assert (Hkind : ev_kind e0 <> KZulu) by (destruct (i_tev0 _ _ Hin0) as (e&He&?&?); congruence).
  assert (Honly : forall k, In id0 (tget k (tbl s)) -> k = ev_next e0).
  { intros k Hk. destruct (i_tev0 _ _ Hk) as (e&He&?&?). congruence. }
  constructor; cbn; auto.
  - now apply mset_sorted.
  - now apply tok_tins, tok_tdel.
  - intros id e. rewrite mget_mset. destruct (Z.eqb_spec id id0) as [->|]; eauto.
  - intros k id. rewrite in_tins, in_tdel, mget_mset by auto. intros [[-> ->]|[Hin Hno]].
    + rewrite Z.eqb_refl. eexists; split; [reflexivity|]; cbn; auto.
    + destruct (Z.eqb_spec id id0) as [->|]; eauto. exfalso. apply Hno. split; auto.
  - intros id Hin. rewrite mget_mset. destruct (Z.eqb_spec id id0) as [->|]; eauto.
    exfalso. apply Hnf. apply in_app_iff. auto.
  - intros id Hin. rewrite mget_mset. destruct (Z.eqb_spec id id0) as [->|]; eauto.
    exfalso. apply Hnf. apply in_app_iff. auto.
  - intros id k Hin. rewrite in_tins, in_tdel by auto. intros [[-> ->]|[Hx _]]; [auto|eapply i_disj0; eauto].
  - intros id e. rewrite mget_mset. destruct (Z.eqb_spec id id0) as [->|Hn].
    + intros [= <-] _. left. cbn. apply in_tins. auto.
    + intros He Hk. destruct (i_cover0 _ _ He Hk); auto. left. apply in_tins. right. apply in_tdel; auto. split; auto. tauto.
  - intros id e. rewrite mget_mset. destruct (Z.eqb_spec id id0) as [->|]; eauto.
    intros [= <-]. cbn. eauto.
  - intros k Hk. apply keys_tins in Hk as [->|Hk]; auto. apply i_keys0. eapply keys_tdel; eauto.
  - intros k id Hin. rewrite mget_mset. destruct (i_zev0 _ _ Hin) as (e&He&?&?).
    destruct (Z.eqb_spec id id0) as [->|]; eauto. congruence.
  - intros id Hin. rewrite mget_mset. destruct (i_zf0 _ Hin) as (e&He&?).
    destruct (Z.eqb_spec id id0) as [->|]; eauto. congruence.
  - intros id e. rewrite mget_mset. destruct (Z.eqb_spec id id0) as [->|]; eauto.
    intros [= <-]; cbn; congruence.
Qed.

(** Updates of the Zulu data of an event waiting in the Zulu table. *)
Lemma SInv_zerase s FI FE ZF id0 e0 :
  SInv s FI FE ZF -> mget id0 (evs s) = Some e0 -> In id0 (tget (ev_next e0) (ztbl s)) ->
  SInv (set_ztbl (mset (ev_next e0) (sdel id0 (tget (ev_next e0) (ztbl s))) (ztbl s))
          (set_evs (mdel id0 (evs s)) s)) FI FE ZF.
Proof.
  intros H He0 Hin0. destruct H.
  assert (Hnf : ~ In id0 ZF) by (intros Hx; eapply i_zdisj0; eauto).
  assert (Hkind : ev_kind e0 = KZulu) by (destruct (i_zev0 _ _ Hin0) as (e&He&?&?); congruence).
  assert (Hiff : forall x k, In x (tget k (mset (ev_next e0) (sdel id0 (tget (ev_next e0) (ztbl s))) (ztbl s)))
                 <-> In x (tget k (ztbl s)) /\ ~ (k = ev_next e0 /\ x = id0)).
  { intros x k. rewrite tget_mset. destruct (Z.eqb_spec k (ev_next e0)) as [->|].
    - rewrite in_sdel by apply i_ztbl0. intuition.
    - intuition. }
  constructor; cbn; auto.
  - now apply mdel_sorted.
  - apply tok_mset; auto. apply sdel_sorted, i_ztbl0.
  - intros id e. rewrite mget_mdel by auto. destruct (id =? id0); [discriminate|]. eauto.
  - intros k id Hin. rewrite mget_mdel by auto. destruct (i_tev0 _ _ Hin) as (e&He&?&?).
    destruct (Z.eqb_spec id id0) as [->|]; eauto. congruence.
  - intros id Hin. rewrite mget_mdel by auto. destruct (i_fi0 _ Hin) as (e&He&?&?&?).
    destruct (Z.eqb_spec id id0) as [->|]; eauto. congruence.
  - intros id Hin. rewrite mget_mdel by auto. destruct (i_fe0 _ Hin) as (e&He&?&?).
    destruct (Z.eqb_spec id id0) as [->|]; eauto. congruence.
  - intros id e. rewrite mget_mdel by auto. destruct (Z.eqb_spec id id0) as [->|Hn]; [discriminate|]. eauto.
  - intros id e. rewrite mget_mdel by auto. destruct (id =? id0); [discriminate|]. eauto.
  - intros k id. rewrite Hiff, mget_mdel by auto. intros [Hin Hno].
    destruct (i_zev0 _ _ Hin) as (e&He&?&?).
    destruct (Z.eqb_spec id id0) as [->|]; eauto. exfalso. apply Hno. split; congruence.
  - intros id Hin. rewrite mget_mdel by auto. destruct (Z.eqb_spec id id0) as [->|]; [tauto|eauto].
  - intros id k Hin. rewrite Hiff. intros [Hx _]. eapply i_zdisj0; eauto.
  - intros id e. rewrite mget_mdel by auto. destruct (Z.eqb_spec id id0) as [->|Hn]; [discriminate|].
    intros He Hk. destruct (i_zcover0 _ _ He Hk); auto. left. apply Hiff. split; auto. tauto.
Qed.

Lemma SInv_zretime s FI FE ZF id0 e0 sim t :
  SInv s FI FE ZF -> mget id0 (evs s) = Some e0 -> In id0 (tget (ev_next e0) (ztbl s)) ->
  SInv (set_ztbl (tins sim id0 (mset (ev_next e0) (sdel id0 (tget (ev_next e0) (ztbl s))) (ztbl s)))
          (set_evs (mset id0 (Ev (ev_ep e0) sim t (ev_cycle e0) (ev_repeat e0) (ev_kind e0)) (evs s)) s))
       FI FE ZF.
Proof.
  intros H He0 Hin0. destruct H.
  assert (Hnf : ~ In id0 ZF) by (intros Hx; eapply i_zdisj0; eauto).
  assert (Hkind : ev_kind e0 = KZulu) by (destruct (i_zev0 _ _ Hin0) as (e&He&?&?); congruence).
  assert (Hiff : forall x k, In x (tget k (mset (ev_next e0) (sdel id0 (tget (ev_next e0) (ztbl s))) (ztbl s)))
                 <-> In x (tget k (ztbl s)) /\ ~ (k = ev_next e0 /\ x = id0)).
  { intros x k. rewrite tget_mset. destruct (Z.eqb_spec k (ev_next e0)) as [->|].
    - rewrite in_sdel by apply i_ztbl0. intuition.
    - intuition. }
  constructor; cbn; auto.
  - now apply mset_sorted.
  - apply tok_tins, tok_mset; auto. apply sdel_sorted, i_ztbl0.
  - intros id e. rewrite mget_mset. destruct (Z.eqb_spec id id0) as [->|]; eauto.
  - intros k id Hin. rewrite mget_mset. destruct (i_tev0 _ _ Hin) as (e&He&?&?).
    destruct (Z.eqb_spec id id0) as [->|]; eauto. congruence.
  - intros id Hin. rewrite mget_mset. destruct (i_fi0 _ Hin) as (e&He&?&?&?).
    destruct (Z.eqb_spec id id0) as [->|]; eauto. congruence.
  - intros id Hin. rewrite mget_mset. destruct (i_fe0 _ Hin) as (e&He&?&?).
    destruct (Z.eqb_spec id id0) as [->|]; eauto. congruence.
  - intros id e. rewrite mget_mset. destruct (Z.eqb_spec id id0) as [->|Hn]; eauto.
    intros [= <-]; cbn; congruence.
  - intros id e. rewrite mget_mset. destruct (Z.eqb_spec id id0) as [->|]; eauto.
    intros [= <-]; cbn; eauto.
  - intros k id. rewrite in_tins, Hiff, mget_mset. intros [[-> ->]|[Hin Hno]].
    + rewrite Z.eqb_refl. eexists; split; [reflexivity|]; cbn; auto.
    + destruct (i_zev0 _ _ Hin) as (e&He&?&?).
      destruct (Z.eqb_spec id id0) as [->|]; eauto. exfalso. apply Hno. split; congruence.
  - intros id Hin. rewrite mget_mset. destruct (Z.eqb_spec id id0) as [->|]; eauto.
  - intros id k Hin. rewrite in_tins, Hiff. intros [[-> ->]|[Hx _]]; [auto|eapply i_zdisj0; eauto].
  - intros id e. rewrite mget_mset. destruct (Z.eqb_spec id id0) as [->|Hn].
    + intros [= <-] _. left. cbn. apply in_tins. auto.
    + intros He Hk. destruct (i_zcover0 _ _ He Hk); auto. left. apply in_tins. right. apply Hiff. split; auto. tauto.
Qed.

(** ** End of the execution of a floating event *)

(** [FI' FE' ZF'] are [FI FE ZF] without [id0]. *)
Record Without (im FI FE ZF FI' FE' ZF' : list Z) (id0 : Z) : Prop := {
  w_fi : forall x, In x FI' -> In x FI;
  w_fe : forall x, In x FE' -> In x FE;
  w_zf : forall x, In x ZF' -> In x ZF;
  w_nd : NoDup ((im ++ FI') ++ FE');
  w_znd : NoDup ZF';
  w_no : ~ In id0 ((im ++ FI') ++ FE');
  w_zno : ~ In id0 ZF';
  w_fi2 : forall x, x <> id0 -> In x FI -> In x FI';
  w_fe2 : forall x, x <> id0 -> In x FE -> In x FE';
  w_zf2 : forall x, x <> id0 -> In x ZF -> In x ZF'
}.

Lemma NoDup_mid {A} (x : A) l1 l2 : NoDup (l1 ++ x :: l2) -> NoDup (l1 ++ l2) /\ ~ In x (l1 ++ l2).
Proof. apply NoDup_remove. Qed.

Lemma without_fi s FI FE ZF id0 : SInv s (id0 :: FI) FE ZF -> Without (imm s) (id0 :: FI) FE ZF FI FE ZF id0.
Proof.
  intros H. pose proof (i_nodup _ _ _ _ H) as Hn. rewrite <- app_assoc in Hn. cbn in Hn.
  apply NoDup_mid in Hn as [Hn1 Hn2]. rewrite app_assoc in *.
  constructor; cbn; auto.
  - apply H.
  - intros Hz. destruct (i_zf _ _ _ _ H _ Hz) as (e&He&Hk).
    destruct (i_fi _ _ _ _ H id0) as (e'&He'&Hk'&_); [apply in_app_iff; cbn; auto|]. congruence.
  - intros x Hx [->|]; auto. congruence.
Qed.

Lemma without_fe s FI FE ZF id0 : SInv s FI (id0 :: FE) ZF -> Without (imm s) FI (id0 :: FE) ZF FI FE ZF id0.
Proof.
  intros H. pose proof (i_nodup _ _ _ _ H) as Hn.
  apply NoDup_mid in Hn as [Hn1 Hn2].
  constructor; cbn; auto.
  - apply H.
  - intros Hz. destruct (i_zf _ _ _ _ H _ Hz) as (e&He&Hk).
    destruct (i_fe _ _ _ _ H id0) as (e'&He'&Hk'&?); [cbn; auto|]. congruence.
  - intros x Hx [->|]; auto. congruence.
Qed.

Lemma without_zf s FI FE ZF id0 : SInv s FI FE (id0 :: ZF) -> Without (imm s) FI FE (id0 :: ZF) FI FE ZF id0.
Proof.
  intros H. pose proof (i_znodup _ _ _ _ H) as Hn. inversion Hn; subst.
  constructor; cbn; auto.
  - apply H.
  - intros Hz. destruct (i_zf _ _ _ _ H id0) as (e&He&Hk); [cbn; auto|].
    apply in_app_iff in Hz as [Hz|Hz].
    + destruct (i_fi _ _ _ _ H id0) as (e'&He'&Hk'&?); [auto|]. congruence.
    + destruct (i_fe _ _ _ _ H id0) as (e'&He'&Hk'&?); [auto|]. congruence.
  - intros x Hx [->|]; auto. congruence.
Qed.

Lemma w_app im FI FE ZF FI' FE' ZF' id0 : Without im FI FE ZF FI' FE' ZF' id0 ->
  forall x, In x ((im ++ FI') ++ FE') -> In x ((im ++ FI) ++ FE).
Proof.
  intros W x. rewrite !in_app_iff. pose proof (w_fi _ _ _ _ _ _ _ _ W x). pose proof (w_fe _ _ _ _ _ _ _ _ W x). tauto.
Qed.

Lemma w_app2 im FI FE ZF FI' FE' ZF' id0 : Without im FI FE ZF FI' FE' ZF' id0 ->
  forall x, x <> id0 -> In x ((im ++ FI) ++ FE) -> In x ((im ++ FI') ++ FE').
Proof.
  intros W x Hx. rewrite !in_app_iff.
  pose proof (w_fi2 _ _ _ _ _ _ _ _ W x Hx). pose proof (w_fe2 _ _ _ _ _ _ _ _ W x Hx). tauto.
Qed.

Lemma SInv_drop s FI FE ZF FI' FE' ZF' id0 :
  SInv s FI FE ZF -> Without (imm s) FI FE ZF FI' FE' ZF' id0 ->
  (forall k, ~ In id0 (tget k (tbl s))) -> (forall k, ~ In id0 (tget k (ztbl s))) ->
  SInv (set_evs (mdel id0 (evs s)) s) FI' FE' ZF'.
Proof.
  intros H W H1 H3. pose proof (w_app _ _ _ _ _ _ _ _ W) as Wa. pose proof (w_app2 _ _ _ _ _ _ _ _ W) as Wb.
  destruct H. destruct W.
  constructor; cbn; auto.
  - now apply mdel_sorted.
  - intros id e. rewrite mget_mdel by auto. destruct (id =? id0); [discriminate|]. eauto.
  - intros k id Hin. rewrite mget_mdel by auto. destruct (Z.eqb_spec id id0) as [->|]; eauto.
    exfalso; eapply H1; eauto.
  - intros id Hin. rewrite mget_mdel by auto. destruct (Z.eqb_spec id id0) as [->|].
    + exfalso; apply w_no0, in_app_iff; auto.
    + apply i_fi0. apply in_app_iff in Hin as [?|?]; apply in_app_iff; auto.
  - intros id Hin. rewrite mget_mdel by auto. destruct (Z.eqb_spec id id0) as [->|]; eauto.
    exfalso; apply w_no0, in_app_iff; auto.
  - intros id e. rewrite mget_mdel by auto. destruct (Z.eqb_spec id id0); [discriminate|].
    intros He Hk. destruct (i_cover0 _ _ He Hk); auto.
  - intros id e. rewrite mget_mdel by auto. destruct (id =? id0); [discriminate|]. eauto.
  - intros k id Hin. rewrite mget_mdel by auto. destruct (Z.eqb_spec id id0) as [->|]; eauto.
    exfalso; eapply H3; eauto.
  - intros id Hin. rewrite mget_mdel by auto. destruct (Z.eqb_spec id id0) as [->|]; [tauto|eauto].
  - intros id e. rewrite mget_mdel by auto. destruct (Z.eqb_spec id id0); [discriminate|].
    intros He Hk. destruct (i_zcover0 _ _ He Hk); auto.
Qed.

Lemma SInv_resched s FI FE ZF FI' FE' ZF' id0 e0 n t r :
  SInv s FI FE ZF -> Without (imm s) FI FE ZF FI' FE' ZF' id0 ->
  (forall k, ~ In id0 (tget k (tbl s))) ->
  mget id0 (evs s) = Some e0 -> ev_kind e0 <> KZulu -> now s <= n -> (r <> 0 -> 0 < ev_cycle e0) ->
  SInv (set_tbl (tins n id0 (tbl s))
          (set_evs (mset id0 (Ev (ev_ep e0) n t (ev_cycle e0) r (ev_kind e0)) (evs s)) s)) FI' FE' ZF'.
Proof.
  intros H W H1 He0 Hk0 Hn Hr. pose proof (w_app _ _ _ _ _ _ _ _ W) as Wa. pose proof (w_app2 _ _ _ _ _ _ _ _ W) as Wb.
  destruct H. destruct W.
  constructor; cbn; auto.
  - now apply mset_sorted.
  - now apply tok_tins.
  - intros id e. rewrite mget_mset. destruct (Z.eqb_spec id id0) as [->|]; eauto.
  - intros k id. rewrite in_tins, mget_mset. intros [[-> ->]|Hin].
    + rewrite Z.eqb_refl. eexists; split; [reflexivity|]; cbn; auto.
    + destruct (Z.eqb_spec id id0) as [->|]; eauto. exfalso; eapply H1; eauto.
  - intros id Hin. rewrite mget_mset. destruct (Z.eqb_spec id id0) as [->|].
    + exfalso; apply w_no0, in_app_iff; auto.
    + apply i_fi0. apply in_app_iff in Hin as [?|?]; apply in_app_iff; auto.
  - intros id Hin. rewrite mget_mset. destruct (Z.eqb_spec id id0) as [->|]; eauto.
    exfalso; apply w_no0, in_app_iff; auto.
  - intros id k Hin. rewrite in_tins. intros [[-> ->]|]; eauto. eapply i_disj0; eauto.
  - intros id e. rewrite mget_mset. destruct (Z.eqb_spec id id0) as [->|].
    + intros [= <-] _. left. apply in_tins; cbn; auto.
    + intros He Hk. destruct (i_cover0 _ _ He Hk); auto. left. apply in_tins; auto.
  - intros id e. rewrite mget_mset. destruct (Z.eqb_spec id id0) as [->|]; eauto.
    intros [= <-]; cbn; auto.
  - intros k Hk. apply keys_tins in Hk as [->|]; auto.
  - intros k id Hin. rewrite mget_mset. destruct (i_zev0 _ _ Hin) as (e&He&?&?).
    destruct (Z.eqb_spec id id0) as [->|]; eauto. congruence.
  - intros id Hin. rewrite mget_mset. destruct (i_zf0 _ (w_zf0 _ Hin)) as (e&He&?).
    destruct (Z.eqb_spec id id0) as [->|]; eauto. congruence.
  - intros id e. rewrite mget_mset. destruct (Z.eqb_spec id id0) as [->|].
    + intros [= <-]; cbn; congruence.
    + intros He Hk. destruct (i_zcover0 _ _ He Hk); auto.
Qed.

Lemma SInv_zresched s FI FE ZF FI' FE' ZF' id0 e0 n t r :
  SInv s FI FE ZF -> Without (imm s) FI FE ZF FI' FE' ZF' id0 ->
  (forall k, ~ In id0 (tget k (ztbl s))) ->
  mget id0 (evs s) = Some e0 -> ev_kind e0 = KZulu -> (r <> 0 -> 0 < ev_cycle e0) ->
  SInv (set_ztbl (tins n id0 (ztbl s))
          (set_evs (mset id0 (Ev (ev_ep e0) n t (ev_cycle e0) r (ev_kind e0)) (evs s)) s)) FI' FE' ZF'.
Proof.
  intros H W H1 He0 Hk0 Hr. pose proof (w_app _ _ _ _ _ _ _ _ W) as Wa. pose proof (w_app2 _ _ _ _ _ _ _ _ W) as Wb.
  destruct H. destruct W.
  constructor; cbn; auto.
  - now apply mset_sorted.
  - now apply tok_tins.
  - intros id e. rewrite mget_mset. destruct (Z.eqb_spec id id0) as [->|]; eauto.
  - intros k id Hin. rewrite mget_mset. destruct (i_tev0 _ _ Hin) as (e&He&?&?).
    destruct (Z.eqb_spec id id0) as [->|]; eauto. congruence.
  - intros id Hin. rewrite mget_mset. destruct (Z.eqb_spec id id0) as [->|].
    + exfalso; apply w_no0, in_app_iff; auto.
    + apply i_fi0. apply in_app_iff in Hin as [?|?]; apply in_app_iff; auto.
  - intros id Hin. rewrite mget_mset. destruct (Z.eqb_spec id id0) as [->|]; eauto.
    exfalso; apply w_no0, in_app_iff; auto.
  - intros id e. rewrite mget_mset. destruct (Z.eqb_spec id id0) as [->|].
    + intros [= <-]; cbn; congruence.
    + intros He Hk. destruct (i_cover0 _ _ He Hk); auto.
  - intros id e. rewrite mget_mset. destruct (Z.eqb_spec id id0) as [->|]; eauto.
    intros [= <-]; cbn; auto.
  - intros k id. rewrite in_tins, mget_mset. intros [[-> ->]|Hin].
    + rewrite Z.eqb_refl. eexists; split; [reflexivity|]; cbn; auto.
    + destruct (Z.eqb_spec id id0) as [->|]; eauto. exfalso; eapply H1; eauto.
  - intros id Hin. rewrite mget_mset. destruct (Z.eqb_spec id id0) as [->|]; [tauto|eauto].
  - intros id k Hin. rewrite in_tins. intros [[-> ->]|]; eauto. eapply i_zdisj0; eauto.
  - intros id e. rewrite mget_mset. destruct (Z.eqb_spec id id0) as [->|].
    + intros [= <-] _. left. apply in_tins; cbn; auto.
    + intros He Hk. destruct (i_zcover0 _ _ He Hk); auto. left. apply in_tins; auto.
Qed.

(** Execute's end keeps the invariant, the event leaving the floating list. *)
Lemma finish_fi s FI FE ZF id d : SInv s (id :: FI) FE ZF -> finish s id = inl d -> d = DOverflow.
Proof.
  intros H. destruct (i_fi _ _ _ _ H id) as (e&He&?&Hr&?); [apply in_app_iff; cbn; auto|].
  unfold finish. rewrite He, Hr. cbn. discriminate.
Qed.

Lemma finish_fi_ok s FI FE ZF id s' : SInv s (id :: FI) FE ZF -> finish s id = inr s' ->
  SInv s' FI FE ZF /\ now s' = now s /\ hold s' = hold s /\ tbl s' = tbl s /\ cur s' = cur s /\
  window s' = window s /\ imm s' = imm s.
Proof.
  intros H. pose proof H as H0. destruct (i_fi _ _ _ _ H id) as (e&He&Hk&Hr&?); [apply in_app_iff; cbn; auto|].
  unfold finish. rewrite He, Hr. cbn. intros [= <-]. cbn. split; [|repeat split; auto].
  eapply SInv_drop; eauto.
  - now apply without_fi.
  - intros k. apply (i_disj _ _ _ _ H). apply in_app_iff. left. apply in_app_iff. right. now left.
  - intros k Hin. destruct (i_zev _ _ _ _ H _ _ Hin) as (e'&He'&?&?). congruence.
Qed.

Lemma finish_fe s FI FE ZF id d : SInv s FI (id :: FE) ZF -> finish s id = inl d -> d = DOverflow.
Proof.
  intros H. destruct (i_fe _ _ _ _ H id) as (e&He&?&?); [cbn; auto|].
  unfold finish. rewrite He. destruct (ev_repeat e =? 0); [discriminate|].
  destruct (_ && _); congruence.
Qed.

Lemma finish_fe_ok s FI FE ZF id s' : SInv s FI (id :: FE) ZF -> finish s id = inr s' ->
  SInv s' FI FE ZF /\ now s' = now s /\ hold s' = hold s /\
  (forall k, In k (keys (tbl s)) -> In k (keys (tbl s'))) /\ cur s' = cur s /\
  window s' = window s /\ imm s' = imm s.
Proof.
  intros H. destruct (i_fe _ _ _ _ H id) as (e&He&Hn&Hk); [cbn; auto|].
  assert (Hd : forall k, ~ In id (tget k (tbl s))).
  { intros k. apply (i_disj _ _ _ _ H). apply in_app_iff. right. now left. }
  unfold finish. rewrite He. destruct (Z.eqb_spec (ev_repeat e) 0) as [Hr|Hr].
  - intros [= <-]. cbn. split; [|repeat split; auto].
    eapply SInv_drop; eauto.
    + now apply without_fe.
    + intros k Hin. destruct (i_zev _ _ _ _ H _ _ Hin) as (e'&He'&?&?). congruence.
  - destruct (_ && _) eqn:Ei; [|discriminate]. intros [= <-]. cbn.
    split; [|repeat split; auto; intros k; rewrite keys_tins; auto].
    eapply SInv_resched; eauto.
    + now apply without_fe.
    + pose proof (i_cyc _ _ _ _ H _ _ He Hr). lia.
    + intros _. apply (i_cyc _ _ _ _ H _ _ He Hr).
Qed.

Lemma zfinish_zf s FI FE ZF id d : SInv s FI FE (id :: ZF) -> zfinish s id = inl d -> d = DOverflow.
Proof.
  intros H. destruct (i_zf _ _ _ _ H id) as (e&He&?); [cbn; auto|].
  unfold zfinish. rewrite He. destruct (ev_repeat e =? 0); [discriminate|].
  destruct (in_i64 _); congruence.
Qed.

Lemma zfinish_zf_ok s FI FE ZF id s' : SInv s FI FE (id :: ZF) -> zfinish s id = inr s' ->
  SInv s' FI FE ZF /\ now s' = now s /\ hold s' = hold s /\ tbl s' = tbl s /\ cur s' = cur s /\
  window s' = window s /\ imm s' = imm s.
Proof.
  intros H. destruct (i_zf _ _ _ _ H id) as (e&He&Hk); [cbn; auto|].
  assert (Hd : forall k, ~ In id (tget k (ztbl s))).
  { intros k. apply (i_zdisj _ _ _ _ H). now left. }
  unfold zfinish. rewrite He. destruct (Z.eqb_spec (ev_repeat e) 0) as [Hr|Hr].
  - intros [= <-]. cbn. split; [|repeat split; auto].
    eapply SInv_drop; eauto.
    + now apply without_zf.
    + intros k Hin. destruct (i_tev _ _ _ _ H _ _ Hin) as (e'&He'&?&?). congruence.
  - destruct (in_i64 _) eqn:Ei; [|discriminate]. intros [= <-]. cbn. split; [|repeat split; auto].
    eapply SInv_zresched; eauto.
    + now apply without_zf.
    + intros _. apply (i_cyc _ _ _ _ H _ _ He Hr).
Qed.

(** ** Swapping lists in and out *)
Lemma SInv_swap_imm s FI FE ZF : SInv s FI FE ZF -> SInv (set_imm [] s) (imm s ++ FI) FE ZF.
Proof.
  intros H. destruct H. constructor; cbn; auto. apply ssorted_nil.
Qed.

Lemma SInv_unswap_imm s FI FE ZF rest :
  SInv s (rest ++ FI) FE ZF -> SInv (set_imm (sins_all rest (imm s)) s) FI FE ZF.
Proof.
  intros H. destruct H.
  assert (Hp : Permutation (sins_all rest (imm s)) (imm s ++ rest)).
  { apply NoDup_Permutation.
    - apply ssorted_NoDup, sins_all_sorted; auto.
    - rewrite app_assoc in i_nodup0. apply NoDup_app_iff in i_nodup0 as [Hx _].
      now apply NoDup_app_iff in Hx as [Hx _].
    - intros x. rewrite in_sins_all, in_app_iff. tauto. }
  assert (Hp1 : Permutation (sins_all rest (imm s) ++ FI) (imm s ++ rest ++ FI)).
  { rewrite app_assoc. now apply Permutation_app_tail. }
  assert (Hp2 : Permutation ((sins_all rest (imm s) ++ FI) ++ FE) ((imm s ++ rest ++ FI) ++ FE)).
  { now apply Permutation_app_tail. }
  constructor; cbn; auto.
  - now apply sins_all_sorted.
  - intros id Hin. apply i_fi0. eapply Permutation_in; eauto.
  - eapply Permutation_NoDup; [symmetry; eauto|auto].
  - intros id k Hin. apply i_disj0. eapply Permutation_in; eauto.
  - intros id e He Hk. destruct (i_cover0 _ _ He Hk); auto. right. eapply Permutation_in; [symmetry|]; eauto.
Qed.

Lemma SInv_swap_tbl s FI ZF :
  SInv s FI [] ZF -> SInv (set_tbl (mset (now s) [] (tbl s)) s) FI (tget (now s) (tbl s)) ZF.
Proof.
  intros H. destruct H.
  assert (Hg : forall k, tget k (mset (now s) [] (tbl s)) = if k =? now s then [] else tget k (tbl s)).
  { intros k. apply tget_mset. }
  constructor; cbn; auto.
  - apply tok_mset; auto. apply ssorted_nil.
  - intros k id. rewrite Hg. destruct (k =? now s); [intros []|]. eauto.
  - rewrite app_nil_r in *. apply NoDup_app_iff. split; [auto|split].
    + apply ssorted_NoDup, i_tbl0.
    + intros x Hx. apply i_disj0. auto.
  - intros id k. rewrite Hg. destruct (Z.eqb_spec k (now s)); [intros _ []|].
    rewrite in_app_iff. intros [Hin|Hin] Hin2.
    + eapply (i_disj0 id k); eauto. rewrite app_nil_r. auto.
    + destruct (i_tev0 _ _ Hin) as (e&He&?&?). destruct (i_tev0 _ _ Hin2) as (e'&He'&?&?). congruence.
  - intros id e He Hk. rewrite Hg. destruct (i_cover0 _ _ He Hk) as [Hin|Hin].
    + destruct (Z.eqb_spec (ev_next e) (now s)) as [Ee|]; auto. rewrite Ee in Hin.
      right. apply in_app_iff; auto.
    + rewrite app_nil_r in Hin. right. apply in_app_iff; auto.
  - intros k. rewrite keys_mset. intros [->|]; auto. lia.
Qed.

Lemma SInv_unswap_tbl s FI ZF rest :
  SInv s FI rest ZF ->
  SInv (set_tbl (mset (now s) (sins_all rest (tget (now s) (tbl s))) (tbl s)) s) FI [] ZF.
Proof.
  intros H. destruct H.
  assert (Hg : forall x k, In x (tget k (mset (now s) (sins_all rest (tget (now s) (tbl s))) (tbl s)))
               <-> In x (tget k (tbl s)) \/ (k = now s /\ In x rest)).
  { intros x k. rewrite tget_mset. destruct (Z.eqb_spec k (now s)) as [->|].
    - rewrite in_sins_all. tauto.
    - tauto. }
  pose proof (i_nodup0) as Hn. apply NoDup_app_iff in Hn as (Hn1&Hn2&Hn3).
  constructor; cbn; auto.
  - apply tok_mset; auto. apply sins_all_sorted, i_tbl0.
  - intros k id. rewrite Hg. intros [Hin|[-> Hin]]; eauto.
  - now intros id [].
  - now rewrite app_nil_r.
  - intros id k. rewrite app_nil_r, Hg. intros Hin [Hx|[-> Hx]].
    + eapply (i_disj0 id k); eauto. apply in_app_iff; auto.
    + eapply Hn3; eauto.
  - intros id e He Hk. rewrite app_nil_r. rewrite Hg. destruct (i_cover0 _ _ He Hk) as [Hin|Hin]; auto.
    apply in_app_iff in Hin as [|Hin]; auto. left. right. split; auto.
    destruct (i_fe0 _ Hin) as (e'&He'&?&?). congruence.
  - intros k. rewrite keys_mset. intros [->|]; auto. lia.
Qed.

Lemma SInv_erase_empty s FI FE ZF K :
  SInv s FI FE ZF -> tget K (tbl s) = [] -> SInv (set_tbl (mdel K (tbl s)) s) FI FE ZF.
Proof.
  intros H He. destruct H.
  assert (Hg : forall k, tget k (mdel K (tbl s)) = tget k (tbl s)).
  { intros k. rewrite tget_mdel by apply i_tbl0. destruct (Z.eqb_spec k K); subst; auto. }
  constructor; cbn; auto.
  - now apply tok_mdel.
  - intros k id. rewrite Hg. eauto.
  - intros id k. rewrite Hg. eauto.
  - intros id e. rewrite Hg. eauto.
  - intros k Hk. apply i_keys0. eapply keys_mdel_incl; eauto.
Qed.

Lemma SInv_swap_z s FI FE ZF K :
  SInv s FI FE ZF -> SInv (set_ztbl (mset K [] (ztbl s)) s) FI FE (tget K (ztbl s) ++ ZF).
Proof.
  intros H. destruct H.
  assert (Hg : forall k, tget k (mset K [] (ztbl s)) = if k =? K then [] else tget k (ztbl s)).
  { intros k. apply tget_mset. }
  constructor; cbn; auto.
  - apply tok_mset; auto. apply ssorted_nil.
  - intros k id. rewrite Hg. destruct (k =? K); [intros []|]. eauto.
  - intros id Hin. apply in_app_iff in Hin as [Hin|Hin]; auto.
    destruct (i_zev0 _ _ Hin) as (e&He&?&?). eauto.
  - apply NoDup_app_iff. repeat split; auto.
    + apply ssorted_NoDup, i_ztbl0.
    + intros x Hx Hz. eapply i_zdisj0; eauto.
  - intros id k. rewrite Hg. destruct (Z.eqb_spec k K); [intros _ []|].
    rewrite in_app_iff. intros [Hin|Hin] Hin2.
    + destruct (i_zev0 _ _ Hin) as (e&He&?&?). destruct (i_zev0 _ _ Hin2) as (e'&He'&?&?). congruence.
    + eapply (i_zdisj0 id k); eauto.
  - intros id e He Hk. rewrite Hg. destruct (i_zcover0 _ _ He Hk) as [Hin|Hin].
    + destruct (Z.eqb_spec (ev_next e) K) as [Ee|]; auto. rewrite Ee in Hin.
      right. apply in_app_iff; auto.
    + right. apply in_app_iff; auto.
Qed.

Lemma SInv_zerase_empty s FI FE ZF K :
  SInv s FI FE ZF -> tget K (ztbl s) = [] -> SInv (set_ztbl (mdel K (ztbl s)) s) FI FE ZF.
Proof.
  intros H He. destruct H.
  assert (Hg : forall k, tget k (mdel K (ztbl s)) = tget k (ztbl s)).
  { intros k. rewrite tget_mdel by apply i_ztbl0. destruct (Z.eqb_spec k K); subst; auto. }
  constructor; cbn; auto.
  - now apply tok_mdel.
  - intros k id. rewrite Hg. eauto.
  - intros id k. rewrite Hg. eauto.
  - intros id e. rewrite Hg. eauto.
Qed.

(** Moving the simulation time forward, not beyond the first key. *)
Lemma SInv_now s FI ZF t :
  SInv s FI [] ZF -> now s <= t -> (forall k, In k (keys (tbl s)) -> t <= k) ->
  SInv (set_now t s) FI [] ZF.
Proof.
  intros H Ht Hk. destruct H. constructor; cbn; auto.
  - intros id Hin. destruct (i_fi0 _ Hin) as (e&He&?&?&?). exists e. repeat split; auto. lia.
  - now intros id [].
Qed.

Lemma SInv_misc s s' FI FE ZF :
  SInv s FI FE ZF ->
  evs s' = evs s -> tbl s' = tbl s -> ztbl s' = ztbl s -> imm s' = imm s -> last s' = last s -> now s' = now s ->
  SInv s' FI FE ZF.
Proof.
  intros H E1 E2 E3 E4 E5 E6. destruct H.
  constructor; rewrite ?E1, ?E2, ?E3, ?E4, ?E5, ?E6; auto.
Qed.
