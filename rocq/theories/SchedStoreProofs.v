(** Proofs about Store and Restore of the scheduler: the tables stay sorted, the
    bytes give back the stored state, and what is restored continues in the same
    way. *)
From Coq Require Import ZArith List Bool Lia.
From Verif Require Import Base PersistModel PersistSpec PersistProofs SchedModel SchedSpec SchedInv SchedTrace
  SchedStoreModel SchedStoreSpec.
Import ListNotations.
Local Open Scope Z_scope.

(** ** The tables are sorted, in every history *)
Definition sok (s : sched) : Prop := msorted (evs s) /\ tok (tbl s) /\ ssorted (imm s).

Lemma sok_eq s s' : evs s' = evs s -> tbl s' = tbl s -> imm s' = imm s -> sok s -> sok s'.
Proof. unfold sok. intros -> -> ->. auto. Qed.

Lemma sok_finish s id s' : sok s -> finish s id = inr s' -> sok s'.
Proof.
  unfold finish. intros (A & B & C). destruct (mget id (evs s)) as [e|]; [|discriminate].
  destruct (ev_repeat e =? 0).
  - intros [= <-]. repeat split; cbn; try apply B; auto. now apply mdel_sorted.
  - destruct (_ && _); [|discriminate]. intros [= <-].
    split; [|split]; cbn; auto. { now apply mset_sorted. } now apply tok_tins.
Qed.

Lemma sok_zfinish s id s' : sok s -> zfinish s id = inr s' -> sok s'.
Proof.
  unfold zfinish. intros (A & B & C). destruct (mget id (evs s)) as [e|]; [|discriminate].
  destruct (ev_repeat e =? 0).
  - intros [= <-]. repeat split; cbn; try apply B; auto. now apply mdel_sorted.
  - destruct (in_i64 _); [|discriminate]. intros [= <-].
    split; [|split]; cbn; auto. now apply mset_sorted.
Qed.

Lemma sok_set_event_time s id sim t k r : sok s -> set_event_time s id sim t k = Ok r -> sok (r_st r).
Proof.
  intros (A & B & C). unfold set_event_time. destruct (mget id (evs s)) as [e|]; [|discriminate].
  destruct (negb _); [discriminate|]. destruct (sim <? now s); intros [= <-]; cbn;
    (split; [|split]); cbn; auto.
  - now apply mdel_sorted.
  - now apply tok_tdel.
  - now apply mset_sorted.
  - now apply tok_tins, tok_tdel.
Qed.

Lemma sok_commit s q r : sok s -> commit_add s q = Ok r -> sok (r_st r).
Proof.
  intros (A & B & C). unfold commit_add. destruct (last s <? i64_max); [|discriminate].
  intros [= <-]. split; [|split]; cbn; auto. { now apply mset_sorted. } now apply tok_tins.
Qed.

Lemma sok_api s c r : sok s -> api s c = Ok r -> sok (r_st r).
Proof.
  intros K. pose proof K as (A & B & C). destruct c; cbn [api].
  - destruct (last s <? i64_max); [|discriminate]. intros [= <-].
    split; [|split]; cbn; auto. { now apply mset_sorted. } now apply sins_sorted.
  - cbn. destruct (in_i64 (now s + t)); [|discriminate]. cbn.
    destruct (check_add s _) as [q|x|]; try discriminate. cbn. now apply sok_commit.
  - cbn. destruct (_ && _); [|discriminate]. cbn.
    destruct (check_add s _) as [q|x|]; try discriminate. cbn. now apply sok_commit.
  - cbn. destruct (_ && _); [|discriminate]. cbn.
    destruct (check_add s _) as [q|x|]; try discriminate. cbn. now apply sok_commit.
  - destruct (t <? z); [discriminate|]. destruct (negb _ && _); [discriminate|].
    destruct (last s <? i64_max); [|discriminate]. intros [= <-].
    split; [|split]; cbn; auto. now apply mset_sorted.
  - destruct (in_i64 _); [|discriminate]. now apply sok_set_event_time.
  - destruct (_ && _); [|discriminate]. now apply sok_set_event_time.
  - destruct (_ && _); [|discriminate]. now apply sok_set_event_time.
  - unfold set_event_zulu. destruct (mget id (evs s)) as [e|]; [|discriminate].
    destruct (negb _); [discriminate|]. destruct (t <? z); intros [= <-]; cbn;
      (split; [|split]); cbn; auto; [now apply mdel_sorted|now apply mset_sorted].
  - destruct (mget id (evs s)) as [e|]; [|discriminate]. destruct (_ && _); [discriminate|].
    intros [= <-]. split; [|split]; cbn; auto. now apply mset_sorted.
  - destruct (mget id (evs s)) as [e|]; [|discriminate]. destruct (_ && _); [discriminate|].
    intros [= <-]. split; [|split]; cbn; auto. now apply mset_sorted.
  - unfold remove_event. destruct (mget id (evs s)) as [e|]; [|discriminate].
    destruct (cur s =? id).
    { intros [= <-]. split; [|split]; cbn; auto. now apply mset_sorted. }
    destruct (tkind_eqb _ _).
    + destruct (sdel id _); intros [= <-]; (split; [|split]); cbn; auto; try now apply mdel_sorted.
      now apply tok_mdel.
    + intros [= <-]. split; [|split]; cbn; auto. { now apply mdel_sorted. } now apply tok_tdel.
  - destruct (in_i64 _); [|discriminate]. intros [= <-]. exact K.
  - destruct (_ && _); [|discriminate]. intros [= <-]. exact K.
  - intros [= <-]. exact K.
  - unfold set_sim_time. destruct (negb _); cbn. { intros [= <-]. exact K. }
    destruct (_ || _); cbn; [discriminate|]. intros [= <-]. exact K.
Qed.

Lemma sins_all_sorted xs l : ssorted l -> ssorted (sins_all xs l).
Proof. intros H. unfold sins_all. revert l H. induction xs as [|x xs IH]; intros l H; cbn; auto. all: try apply IH; try now apply sins_sorted. Qed.

Lemma sok_loop_head m s o : sok s -> sok (sc (loop_head m s o)).
Proof. intros K. destruct o; exact K. Qed.
Lemma sok_imm_return m s b : sok s -> sok (sc (imm_return m s b)).
Proof. intros K. destruct b; cbn; try exact K. now apply sok_loop_head. Qed.
Lemma sok_stop_events m s K0 rest : sok (sc m) -> sok s -> sok (sc (stop_events m s K0 rest)).
Proof.
  intros K1 (A & B & C). unfold stop_events. destruct (dang m); [exact K1|].
  split; [|split]; cbn; auto. apply tok_mset; auto. apply sins_all_sorted, B.
Qed.
Lemma sok_stop_imm m s rest b : sok (sc m) -> sok s -> sok (sc (stop_imm m s rest b)).
Proof.
  intros K1 (A & B & C).
  assert (K2 : sok (set_imm (sins_all rest (imm s)) s)).
  { split; [|split]; cbn; auto. now apply sins_all_sorted. }
  unfold stop_imm. destruct b; cbn; try exact K2. now apply sok_stop_events.
Qed.
Lemma sok_after_imm m s rest b : sok (sc m) -> sok s -> sok (sc (after_imm m s rest b)).
Proof. intros K1 K. unfold after_imm. destruct (hold s); [now apply sok_stop_imm|exact K]. Qed.
Lemma sok_after_evt m s K0 rest : sok (sc m) -> sok s -> sok (sc (after_evt m s K0 rest)).
Proof. intros K1 K. unfold after_evt. destruct (hold s); [now apply sok_stop_events|exact K]. Qed.

Lemma sok_tau m : sok (sc m) -> sok (sc (tau m)).
Proof.
  intros K. pose proof K as (A & B & C). unfold tau. destruct (ctl m) as [|rest b|id rest b|K0|K0|K0|K0 rest|id K0 rest|d];
    try exact K.
  - destruct rest as [|id rest].
    + destruct (imm (sc m)); [now apply sok_imm_return|]. split; [|split]; cbn; auto. constructor.
    + destruct (mget id (evs (sc m))) as [e|]; [|exact K]. destruct (skips _ e).
      * destruct (finish (sc m) id) eqn:F; [exact K|]. apply sok_after_imm; [exact K|]. eapply sok_finish; eauto.
      * destruct (zulu_running m); exact K.
  - destruct (hold (sc m)); [exact K|]. destruct (dang m); exact K.
  - destruct (hold (sc m)); exact K.
  - destruct rest as [|id rest].
    + destruct (dang m); [exact K|]. destruct (tget K0 (tbl (sc m))) eqn:Eg.
      * apply sok_loop_head. split; [|split]; cbn; auto. now apply tok_mdel.
      * split; [|split]; cbn; auto. apply tok_mset; auto. apply ssorted_nil.
    + destruct (mget id (evs (sc m))) as [e|]; [|exact K]. destruct (skips _ e).
      * destruct (finish (sc m) id) eqn:F; [exact K|]. apply sok_after_evt; [exact K|]. eapply sok_finish; eauto.
      * destruct (zulu_running m); exact K.
Qed.

Lemma sok_step m l : sok (sc m) -> sok (sc (mstep m l)).
Proof.
  intros K. assert (D : (exists d, ctl m = Dead d) \/ mstep m l =
    match l with
    | LRun => match ctl m with Idle => goto m (set_hold false (sc m)) (ImmGo [] BStart) | _ => m end
    | LTau => tau m | LTimeout => timeout m | LEnd => end_ep m
    | LHold => goto m (set_hold true (sc m)) (ctl m)
    | LCall c => call m c | LBegin c => begin_add m c | LCommit n => commit m n
    | LZTick z => ztick m z | LZTau ok => ztau m ok | LZEnd => zend m end).
  { unfold mstep. destruct (ctl m); eauto. }
  destruct D as [[d D]| ->]. { unfold mstep. now rewrite D. }
  destruct l.
  - destruct (ctl m); exact K.
  - now apply sok_tau.
  - unfold timeout. destruct (ctl m); try exact K. destruct (dang m); [exact K|].
    unfold set_sim_time. destruct (negb _); [exact K|]. destruct (_ || _); exact K.
  - unfold end_ep. destruct (ctl m); try exact K.
    + destruct (finish _ _) eqn:F; [exact K|]. apply sok_after_imm; [exact K|]. eapply sok_finish; [|exact F]. exact K.
    + destruct (finish _ _) eqn:F; [exact K|]. apply sok_after_evt; [exact K|]. eapply sok_finish; [|exact F]. exact K.
  - exact K.
  - unfold call. destruct (api (sc m) c) eqn:F; try exact K. eapply sok_api; eauto.
  - unfold begin_add. destruct (build_add (sc m) c) as [[q|x|]|]; try exact K.
    destruct (check_add (sc m) q); exact K.
  - unfold commit. destruct (nth_error (pend m) n); [|exact K].
    destruct (commit_add (sc m) a) eqn:F; try exact K. eapply sok_commit; eauto.
  - unfold ztick. destruct (zc m); try exact K. destruct (ztbl (sc m)) as [|[k l] z0]; [exact K|].
    destruct (k <=? z); exact K.
  - unfold ztau. destruct (zc m) as [|K0 [|id rest]|]; try exact K.
    + destruct (tget K0 (ztbl (sc m))); exact K.
    + destruct (mget id (evs (sc m))); [|exact K]. destruct (negb ok).
      * destruct (zfinish _ _) eqn:F; [exact K|]. eapply sok_zfinish; [|exact F]. exact K.
      * destruct (sim_ep_running _); exact K.
  - unfold zend. destruct (zc m); try exact K.
    destruct (zfinish _ _) eqn:F; [exact K|]. eapply sok_zfinish; [|exact F]. exact K.
Qed.

Lemma sok_run ls : sok (sc (run ls)).
Proof.
  assert (H : forall m, sok (sc m) -> sok (sc (fold_left mstep ls m))).
  { induction ls as [|l ls IH]; intros m K; cbn; auto. apply IH. now apply sok_step. }
  apply H. split; [|split; [split|]].
  - repeat constructor.
  - repeat constructor.
  - intros k. unfold tget. cbn [sc mach_init sched_init tbl mget]. destruct (k =? i64_max); repeat constructor.
  - constructor.
Qed.

(** ** Bytes *)
Lemma wrap_range z : 0 <= wrap z < 256 ^ Z.of_nat 8.
Proof. unfold wrap. change (256 ^ Z.of_nat 8) with (2 ^ 64). apply Z.mod_pos_bound. lia. Qed.

Lemma unwrap_wrap z : fits z -> unwrap (wrap z) = z.
Proof.
  unfold fits, i64_min, i64_max, unwrap, wrap. intros H.
  change (2 ^ 63) with 9223372036854775808 in *. change (2 ^ 64) with 18446744073709551616 in *.
  destruct (Z.leb_spec 0 z).
  - rewrite Z.mod_small by lia. destruct (Z.ltb_spec z 9223372036854775808); lia.
  - replace (z mod 18446744073709551616) with (z + 18446744073709551616).
    2:{ symmetry. rewrite <- (Z.mod_small (z + 18446744073709551616) 18446744073709551616) by lia.
        rewrite <- Zplus_mod_idemp_r, Z_mod_same_full, Z.add_0_r. reflexivity. }
    destruct (Z.ltb_spec (z + 18446744073709551616) 9223372036854775808); lia.
Qed.

Lemma unwrap_range u : 0 <= u < 2 ^ 64 -> fits (unwrap u).
Proof.
  unfold fits, unwrap, i64_min, i64_max.
  change (2 ^ 63) with 9223372036854775808. change (2 ^ 64) with 18446744073709551616. intros H.
  destruct (Z.ltb_spec u 9223372036854775808); lia.
Qed.

Lemma kind_code_back k : kind_of_code (kind_code k) = k.
Proof. now destruct k. Qed.

Lemma val_event_back E e : storable_event E e -> val_event (event_val e) = Some e.
Proof.
  intros (_ & A & B & C & D). cbn. rewrite !unwrap_wrap, kind_code_back by assumption. now destruct e.
Qed.

Lemma wt_event E e : storable_event E e -> wt (e_mem E) (event_ty E) (event_val e).
Proof.
  intros ((P1 & P2 & P3 & P4) & _). cbn [event_ty event_val wt].
  repeat match goal with |- _ /\ _ => split end; auto; try apply wrap_range.
  - destruct (ev_kind e); cbn; lia.
  - destruct (ev_kind e); reflexivity.
Qed.

Lemma vals_list_back l : vals_list (map VInt l) = Some l.
Proof. induction l as [|z l IH]; cbn; [reflexivity|]. now rewrite IH. Qed.

Lemma strict_ult : strict ult.
Proof.
  split; [intros [ | | | | ]; cbn; auto; apply Z.ltb_irrefl|].
  intros [x| | | | ] [y| | | | ] [z| | | | ]; cbn; try discriminate. rewrite !Z.ltb_lt. lia.
Qed.

Lemma strict_slt : strict slt.
Proof.
  split; [intros [ | | | | ]; cbn; auto; apply Z.ltb_irrefl|].
  intros [x| | | | ] [y| | | | ] [z| | | | ]; cbn; try discriminate. rewrite !Z.ltb_lt. lia.
Qed.

Lemma pairwise_map {A B} (R : B -> B -> Prop) (f : A -> B) l :
  pairwise (fun a b => R (f a) (f b)) l -> pairwise R (map f l).
Proof.
  induction 1 as [|x l H _ IH]; cbn; constructor; auto. now apply Forall_map.
Qed.

Lemma pairwise_sorted l : ssorted l -> pairwise Z.lt l.
Proof. induction 1; constructor; auto. Qed.

Lemma pairwise_impl {A} (P : A -> Prop) (R R' : A -> A -> Prop) l :
  (forall a b, P a -> P b -> R a b -> R' a b) -> Forall P l -> pairwise R l -> pairwise R' l.
Proof.
  intros H F. induction 1 as [|x l K _ IH]; constructor; inversion F as [|? ? F1 F2]; subst; auto.
  rewrite Forall_forall in *. auto.
Qed.

Lemma wt_list mem l : ssorted l -> Z.of_nat (length l) < 2 ^ 64 ->
  Forall (fun id => 0 <= id < 2 ^ 64) l -> wt mem list_ty (list_val l).
Proof.
  intros S N F. cbn [wt list_ty list_val plain]. repeat split.
  - unfold small. now rewrite map_length.
  - apply Forall_map. eapply Forall_impl; [|exact F]. intros a H. exact H.
  - apply strict_ult.
  - apply strict_ult.
  - apply pairwise_map. eapply pairwise_impl; [|exact F|now apply pairwise_sorted].
    intros a b _ _ H. cbn. now apply Z.ltb_lt.
Qed.

Lemma mget_of_in {A} (m : omap A) k a : msorted m -> In (k, a) m -> mget k m = Some a.
Proof.
  induction m as [|[k' a'] m IH]; intros S H; [destruct H|]. apply msorted_cons in S as [S1 S2].
  cbn. destruct H as [[= -> ->]|H]. { now rewrite Z.eqb_refl. }
  assert (L : k' < k). { apply S2. apply in_map_iff. now exists (k, a). }
  destruct (Z.eqb_spec k k'); [lia|]. auto.
Qed.

Lemma pairwise_keys {A} (m : omap A) : msorted m -> pairwise (fun a b => fst a < fst b) m.
Proof.
  induction m as [|[k a] m IH]; intros S; [constructor|]. apply msorted_cons in S as [S1 S2].
  constructor; auto. apply Forall_forall. intros [k' a'] H. cbn. apply S2. apply in_map_iff. now exists (k', a').
Qed.

Lemma wt_table mem t : tok t ->
  (forall k l, In (k, l) t -> fits k /\ Z.of_nat (length l) < 2 ^ 64 /\ Forall (fun id => 0 <= id < 2 ^ 64) l) ->
  Z.of_nat (length t) < 2 ^ 64 -> wt mem (TMap slt (TInt 8) list_ty) (table_val t).
Proof.
  intros [T1 T2] H N. cbn [wt table_val]. repeat split.
  - unfold small. now rewrite map_length.
  - apply Forall_map, Forall_forall. intros [k l] I. destruct (H k l I) as (H1 & H2 & H3). split.
    + apply wrap_range.
    + apply wt_list; auto. cbn [snd]. specialize (T2 k). unfold tget in T2. now rewrite (mget_of_in _ _ _ T1 I) in T2.
  - apply strict_slt.
  - apply strict_slt.
  - apply pairwise_map. apply (pairwise_impl (fun p => fits (fst p)) (fun a b => fst a < fst b)).
    + intros [a x] [b y] Fa Fb L. cbn in *. rewrite !unwrap_wrap by assumption. now apply Z.ltb_lt.
    + apply Forall_forall. intros [k l] I. now destruct (H k l I).
    + now apply pairwise_keys.
Qed.

Lemma vals_table_back t : (forall k l, In (k, l) t -> fits k) ->
  val_table (table_val t) = Some t.
Proof.
  unfold val_table, table_val. induction t as [|[k l] t IH]; intros H; cbn; [reflexivity|].
  rewrite vals_list_back, IH, unwrap_wrap; [reflexivity| |].
  - apply (H k l). now left.
  - intros k' l' I. apply (H k' l'). now right.
Qed.

Lemma pairwise_app {A} (R : A -> A -> Prop) l1 l2 :
  pairwise R l1 -> pairwise R l2 -> (forall a b, In a l1 -> In b l2 -> R a b) -> pairwise R (l1 ++ l2).
Proof.
  induction 1 as [|x l H _ IH]; intros P2 C; cbn; auto. constructor.
  - apply Forall_app. split; auto. apply Forall_forall. intros b I. apply C; [now left|auto].
  - apply IH; auto. intros a b Ia. apply C. now right.
Qed.

Lemma pairwise_filter {A} (R : A -> A -> Prop) f l : pairwise R l -> pairwise R (filter f l).
Proof.
  induction 1 as [|x l H _ IH]; cbn; [constructor|]. destruct (f x); auto. constructor; auto.
  apply Forall_forall. intros y I. apply filter_In in I as [I _]. rewrite Forall_forall in H. auto.
Qed.

Definition pos (p : Z * event) : bool := negb (negative p).

Lemma filter_length_le' {A} (f : A -> bool) l : (length (filter f l) + length (filter (fun x => negb (f x)) l) = length l)%nat.
Proof. induction l as [|x l IH]; cbn; [reflexivity|]. destruct (f x); cbn; lia. Qed.

Lemma wt_events E m : msorted m -> (forall id e, In (id, e) m -> storable_event E e) ->
  (forall id e, In (id, e) m -> 0 <= id < 2 ^ 64) -> Z.of_nat (length m) < 2 ^ 64 ->
  wt (e_mem E) (TMap slt (TInt 8) (event_ty E)) (events_val m).
Proof.
  intros M S I N. unfold events_val. cbn [wt].
  assert (U : forall p, In p (filter negative m ++ filter (fun p => negb (negative p)) m) -> In p m).
  { intros p H. apply in_app_iff in H as [H|H]; now apply filter_In in H. }
  split; [|split; [|split; [exact Logic.I|split; [apply strict_slt|]]]].
  - unfold small. rewrite map_length, app_length, filter_length_le'. exact N.
  - apply Forall_map, Forall_forall. intros [id e] H. apply U in H. split; [apply (I _ _ H)|].
    apply wt_event. exact (S _ _ H).
  - apply pairwise_map. cbn [first].
    assert (P : pairwise (fun a b : Z * event => fst a < fst b) m) by now apply pairwise_keys.
    apply pairwise_app.
    + apply (pairwise_impl (fun p => negative p = true /\ 0 <= fst p < 2 ^ 64) (fun a b => fst a < fst b)).
      * intros [a x] [b y] [Na Ra] [Nb Rb] L. unfold negative in *. cbn [fst slt] in *. apply Z.leb_le in Na, Nb.
        unfold unwrap. rewrite (proj2 (Z.ltb_ge a _)) by lia. rewrite (proj2 (Z.ltb_ge b _)) by lia. apply Z.ltb_lt. lia.
      * apply Forall_forall. intros [id e] H. apply filter_In in H as [H1 H2]. split; auto. apply (I _ _ H1).
      * now apply pairwise_filter.
    + apply (pairwise_impl (fun p => negative p = false /\ 0 <= fst p < 2 ^ 64) (fun a b => fst a < fst b)).
      * intros [a x] [b y] [Na Ra] [Nb Rb] L. unfold negative in *. cbn [fst slt] in *. apply Z.leb_gt in Na, Nb.
        unfold unwrap. rewrite (proj2 (Z.ltb_lt a _)) by lia. rewrite (proj2 (Z.ltb_lt b _)) by lia. apply Z.ltb_lt. exact L.
      * apply Forall_forall. intros [id e] H. apply filter_In in H as [H1 H2]. split; [|apply (I _ _ H1)].
        now apply negb_true_iff in H2.
      * now apply pairwise_filter.
    + intros [a x] [b y] Ha Hb. apply filter_In in Ha as [Ha Na]. apply filter_In in Hb as [Hb Nb].
      apply negb_true_iff in Nb. unfold negative in *. cbn [fst slt] in *. apply Z.leb_le in Na. apply Z.leb_gt in Nb.
      pose proof (I _ _ Ha) as Ra. pose proof (I _ _ Hb) as Rb.
      unfold unwrap. rewrite (proj2 (Z.ltb_ge a _)) by lia. rewrite (proj2 (Z.ltb_lt b _)) by lia. apply Z.ltb_lt. lia.
Qed.

Lemma vals_events_back E l : (forall id e, In (id, e) l -> storable_event E e) ->
  vals_events (map (fun p => VPair (VInt (fst p)) (event_val (snd p))) l) = Some l.
Proof.
  induction l as [|[id e] l IH]; intros H; cbn [map vals_events fst snd]; [reflexivity|].
  rewrite (val_event_back E), IH; [reflexivity| |].
  - intros id' e' I. apply (H id' e'). now right.
  - apply (H id e). now left.
Qed.

Lemma filter_app_split {A} (f : A -> bool) l : filter f (filter f l ++ filter (fun x => negb (f x)) l) = filter f l.
Proof.
  rewrite filter_app. assert (H : forall l, filter f (filter f l) = filter f l).
  { intros l0. induction l0 as [|x l0 IH]; cbn; auto. destruct (f x) eqn:F; cbn; [now rewrite F, IH|auto]. }
  rewrite H. replace (filter f (filter (fun x => negb (f x)) l)) with (@nil A); [apply app_nil_r|].
  induction l as [|x l IH]; cbn; auto. destruct (f x) eqn:F; cbn; auto. now rewrite F.
Qed.

Lemma filter_app_split' {A} (f : A -> bool) l :
  filter (fun x => negb (f x)) (filter f l ++ filter (fun x => negb (f x)) l) = filter (fun x => negb (f x)) l.
Proof.
  rewrite filter_app. replace (filter (fun x => negb (f x)) (filter f l)) with (@nil A).
  - cbn. induction l as [|x l IH]; cbn; auto. destruct (negb (f x)) eqn:F; cbn; [now rewrite F, IH|auto].
  - induction l as [|x l IH]; cbn; auto. destruct (f x) eqn:F; cbn; auto. now rewrite F.
Qed.

Lemma sorted_split (m : omap event) : msorted m ->
  filter (fun p => negb (negative p)) m ++ filter negative m = m.
Proof.
  induction m as [|[k a] m IH]; intros S; [reflexivity|]. apply msorted_cons in S as [S1 S2].
  cbn [filter]. destruct (negative (k, a)) eqn:F; cbn [negb].
  - unfold negative in F. cbn [fst] in F. apply Z.leb_le in F.
    replace (filter (fun p => negb (negative p)) m) with (@nil (Z * event)).
    + cbn. f_equal. clear IH S1. induction m as [|[k' a'] m IH]; cbn; auto.
      assert (L : k < k') by (apply S2; now left).
      unfold negative at 1. cbn [fst]. rewrite (proj2 (Z.leb_le _ _)) by lia. f_equal. apply IH. intros x I. apply S2. now right.
    + clear IH S1. induction m as [|[k' a'] m IH]; cbn; auto.
      assert (L : k < k') by (apply S2; now left).
      unfold negative at 1. cbn [fst]. rewrite (proj2 (Z.leb_le _ _)) by lia. cbn. apply IH. intros x I. apply S2. now right.
  - cbn. f_equal. auto.
Qed.

Lemma val_events_back E m : msorted m -> (forall id e, In (id, e) m -> storable_event E e) ->
  val_events (events_val m) = Some m.
Proof.
  intros S H. unfold val_events, events_val. rewrite (vals_events_back E).
  - cbn [option_map]. rewrite filter_app_split, filter_app_split', sorted_split by exact S. reflexivity.
  - intros id e I. apply (H id e). apply in_app_iff in I as [I|I]; now apply filter_In in I.
Qed.

(** What a Restore of [s] leaves in a scheduler that was in state [s0]. *)
Definition restored (s s0 : sched) : sched :=
  Sch (evs s) (tbl s) (ztbl s0) (imm s) (last s) (cur s0) (hold s0) (now s) (epoch0 s) (mission0 s) (window s0).

Lemma plain_all_sched E : Forall plain (sched_types E).
Proof. repeat constructor. Qed.

Lemma trestore_all_back mem hash l rest : (forall t, 0 <= hash t < 2 ^ 64) -> wt_all mem l ->
  Forall plain (map fst l) ->
  trestore_all mem hash (map fst l) (tstore_all hash l ++ rest) = Ok (map snd l, rest).
Proof.
  intros H W P. destruct (trestore_all_app mem hash H l rest W) as (vs & E & S). rewrite E. f_equal. f_equal.
  clear E. revert W P. induction S as [|[t v] v' l vs S1 S2 IH]; intros W P; [reflexivity|].
  inversion W as [|? ? W1 W2]; subst. inversion P as [|? ? P1 P2]; subst. cbn [map snd]. f_equal.
  - symmetry. apply (same_plain mem t v v'); auto.
  - auto.
Qed.

Lemma restore_sched_back E s s0 rest : env_ok E -> sok s -> storable E s ->
  restore_sched E (store_sched E s ++ rest) s0 =
  Ok (set_last (last s) (set_imm (imm s) (set_tbl (tbl s) (set_evs (evs s) s0))), rest).
Proof.
  intros H (K1 & K2 & K3) (S1 & S2 & S3 & S4 & S5 & S6 & S7 & S8 & _).
  unfold restore_sched, store_sched.
  set (l := combine (sched_types E) (sched_vals s)).
  assert (El : map fst l = sched_types E) by reflexivity. rewrite <- El.
  rewrite trestore_all_back; auto.
  - cbn [bind l combine sched_types sched_vals map snd].
    rewrite (val_events_back E), vals_table_back; auto. 2:{ intros k l0 I. now destruct (S3 k l0 I). }
    cbn [list_val val_list]. rewrite vals_list_back, unwrap_wrap by auto. reflexivity.
  - unfold wt_all, l. cbn [combine sched_types sched_vals].
    constructor; [now apply wt_events|]. constructor; [now apply wt_table|].
    constructor; [now apply wt_list|]. constructor; [apply wrap_range|constructor].
  - rewrite El. apply plain_all_sched.
Qed.

Lemma restore_tk_back E s s0 rest : env_ok E -> fits (now s) -> fits (mission0 s) -> fits (epoch0 s) ->
  restore_tk E (store_tk E s ++ rest) s0 =
  Ok (set_epoch0 (epoch0 s) (set_mission0 (mission0 s) (set_now (now s) s0)), rest).
Proof.
  intros H A B C. unfold restore_tk, store_tk.
  set (l := combine tk_types _). assert (El : map fst l = tk_types) by reflexivity. rewrite <- El.
  rewrite trestore_all_back; auto.
  - cbn [bind l combine tk_types map snd]. rewrite !unwrap_wrap by auto. reflexivity.
  - unfold wt_all, l. cbn [combine tk_types].
    do 3 (constructor; [apply wrap_range|]). constructor.
  - rewrite El. repeat constructor.
Qed.

Lemma restore_services_back E m m0 rest : env_ok E -> sok (sc m) -> storable E (sc m) ->
  restore_services E (store_services E m ++ rest) m0 = Ok (with_sched m0 (restored (sc m) (sc m0)), rest).
Proof.
  intros H K S. pose proof S as (_ & _ & _ & _ & _ & _ & _ & _ & A & B & C).
  unfold restore_services, store_services. rewrite <- app_assoc.
  rewrite restore_tk_back by auto. cbn [bind]. rewrite restore_sched_back by auto. reflexivity.
Qed.

(** ** The same future *)
Lemma api_hold b s c : api (set_hold b s) c =
  match api s c with
  | Ok r => Ok (Ret (set_hold b (r_st r)) (r_id r) (r_kill r))
  | Throw e => Throw e
  | UB => UB
  end.
Proof.
  assert (SE : forall id sim t k, set_event_time (set_hold b s) id sim t k =
    match set_event_time s id sim t k with
    | Ok r => Ok (Ret (set_hold b (r_st r)) (r_id r) (r_kill r)) | Throw e => Throw e | UB => UB end).
  { intros. unfold set_event_time. cbn [set_hold evs tbl now]. destruct (mget id (evs s)); [|reflexivity].
    destruct (negb _); [reflexivity|]. destruct (_ <? _); reflexivity. }
  assert (CA : forall q, bind (check_add (set_hold b s) q) (commit_add (set_hold b s)) =
    match bind (check_add s q) (commit_add s) with
    | Ok r => Ok (Ret (set_hold b (r_st r)) (r_id r) (r_kill r)) | Throw e => Throw e | UB => UB end).
  { intros q. unfold check_add. cbn [set_hold now]. destruct (_ <? _); [reflexivity|]. destruct (_ && _); [reflexivity|].
    cbn [bind]. unfold commit_add. cbn [set_hold last]. destruct (_ <? _); reflexivity. }
  destruct c; cbn [api build_add].
  - cbn [set_hold last]. destruct (_ <? _); reflexivity.
  - cbn [set_hold now]. destruct (in_i64 _); [|reflexivity]. apply CA.
  - unfold mission_time. cbn [set_hold now epoch0 mission0]. destruct (_ && _); [|reflexivity]. apply CA.
  - unfold epoch_time. cbn [set_hold now epoch0 mission0]. destruct (_ && _); [|reflexivity]. apply CA.
  - destruct (_ <? _); [reflexivity|]. destruct (_ && _); [reflexivity|]. cbn [set_hold last]. destruct (_ <? _); reflexivity.
  - cbn [set_hold now]. destruct (in_i64 _); [|reflexivity]. apply SE.
  - unfold mission_time. cbn [set_hold now epoch0 mission0]. destruct (_ && _); [|reflexivity]. apply SE.
  - unfold epoch_time. cbn [set_hold now epoch0 mission0]. destruct (_ && _); [|reflexivity]. apply SE.
  - unfold set_event_zulu. cbn [set_hold evs ztbl]. destruct (mget id (evs s)); [|reflexivity].
    destruct (negb _); [reflexivity|]. destruct (_ <? _); reflexivity.
  - cbn [set_hold evs]. destruct (mget id (evs s)); [|reflexivity]. destruct (_ && _); reflexivity.
  - cbn [set_hold evs]. destruct (mget id (evs s)); [|reflexivity]. destruct (_ && _); reflexivity.
  - unfold remove_event. cbn [set_hold evs cur ztbl tbl]. destruct (mget id (evs s)); [|reflexivity].
    destruct (_ =? _); [reflexivity|]. destruct (tkind_eqb _ _); [|reflexivity]. destruct (sdel _ _); reflexivity.
  - cbn [set_hold now]. destruct (in_i64 _); reflexivity.
  - cbn [set_hold now epoch0]. destruct (_ && _); reflexivity.
  - reflexivity.
  - unfold set_sim_time. cbn [set_hold now window]. destruct (negb _); [reflexivity|].
    change (next_scheduled (set_hold b s)) with (next_scheduled s). destruct (_ || _); reflexivity.
Qed.

Lemma zfinish_hold b s id : zfinish (set_hold b s) id =
  match zfinish s id with inl d => inl d | inr s' => inr (set_hold b s') end.
Proof.
  unfold zfinish. cbn [set_hold evs]. destruct (mget id (evs s)); [|reflexivity]. destruct (_ =? _); [reflexivity|].
  destruct (in_i64 _); reflexivity.
Qed.

Lemma commit_add_hold b s q : commit_add (set_hold b s) q =
  match commit_add s q with
  | Ok r => Ok (Ret (set_hold b (r_st r)) (r_id r) (r_kill r)) | Throw e => Throw e | UB => UB end.
Proof. unfold commit_add. cbn [set_hold last]. destruct (_ <? _); reflexivity. Qed.

Lemma build_add_hold b s c : build_add (set_hold b s) c = build_add s c.
Proof. destruct c; reflexivity. Qed.
Lemma check_add_hold b s q : check_add (set_hold b s) q = check_add s q.
Proof. reflexivity. Qed.

(** Nothing is executed. *)
Definition quiet (c : ctrl) : bool := match c with Idle | Dead _ => true | _ => false end.

(** [m] and [m'] differ only in what cannot matter: the hold flag while nothing is
    executed, the last clock reading while the Zulu thread waits, the ghost flag
    when the run loop holds no iterator, and the past. *)
Definition same_sc (c : ctrl) (s s' : sched) : Prop :=
  exists b, s' = set_hold b s /\ (quiet c = true \/ b = hold s).

Record alike (t0 t0' : list tev) (m m' : mach) : Prop := {
  a_sc : same_sc (ctl m) (sc m) (sc m');
  a_ctl : ctl m' = ctl m;
  a_zc : zc m' = zc m;
  a_zclock : zc m = ZWait \/ zclock m' = zclock m;
  a_dang : ctl_key (ctl m) = None \/ dang m' = dang m;
  a_pend : pend m' = pend m;
  a_tr : exists n, tr m = n ++ t0 /\ tr m' = n ++ t0'
}.

Lemma set_hold_same s : set_hold (hold s) s = s.
Proof. now destruct s. Qed.

Lemma same_sc_refl c s : same_sc c s s.
Proof. exists (hold s). rewrite set_hold_same. auto. Qed.

Section Alike.
  Variables t0 t0' : list tev.
  Notation R := (alike t0 t0').

  Lemma R_eq m m' : R m m' -> quiet (ctl m) = false -> sc m' = sc m.
  Proof.
    intros H N. destruct (a_sc _ _ _ _ H) as (b & E & [C|C]); [congruence|]. now rewrite E, C, set_hold_same.
  Qed.

  Lemma R_die m m' d : R m m' -> R (die m d) (die m' d).
  Proof.
    intros H. destruct (a_sc _ _ _ _ H) as (b & E & C). destruct H. constructor; cbn; auto.
    exists b. auto.
  Qed.

  Lemma R_goto m m' s s' c : R m m' -> same_sc c s s' -> (ctl_key c = None \/ dang m' = dang m) ->
    R (goto m s c) (goto m' s' c).
  Proof. intros H S D. destruct H. constructor; cbn; auto. Qed.

  Lemma R_zgoto m m' s s' z : R m m' -> same_sc (ctl m) s s' -> (z = ZWait \/ zclock m' = zclock m) ->
    R (zgoto m s z) (zgoto m' s' z).
  Proof. intros H S D. destruct H. constructor; cbn; auto. Qed.

  Lemma R_log m m' t : R m m' -> R (log m t) (log m' t).
  Proof.
    intros H. destruct H as [? ? ? ? ? ? (n & A & B)]. constructor; cbn; auto.
    exists (t :: n). cbn. now rewrite A, B.
  Qed.

  Lemma R_set_dang m m' b : R m m' -> R (set_dang m b) (set_dang m' b).
  Proof. intros H. destruct H. constructor; cbn; auto. Qed.

  Lemma R_loop_head m m' s o : R m m' -> R (loop_head m s o) (loop_head m' s o).
  Proof.
    intros H. destruct o as [K|]; cbn; apply R_goto; auto; try apply R_set_dang; auto; apply same_sc_refl.
  Qed.

  Lemma R_imm_return m m' s b : R m m' -> (ctl_key (ImmGo [] b) = None \/ dang m' = dang m) ->
    R (imm_return m s b) (imm_return m' s b).
  Proof.
    intros H D. destruct b; cbn in *; [now apply R_loop_head| |]; apply R_goto; auto; apply same_sc_refl.
  Qed.

  Lemma R_stop_events m m' s K rest : R m m' -> dang m' = dang m -> R (stop_events m s K rest) (stop_events m' s K rest).
  Proof.
    intros H D. unfold stop_events. rewrite D. destruct (dang m); [now apply R_die|]. apply R_goto; auto. apply same_sc_refl.
  Qed.

  Lemma R_stop_imm m m' s rest b : R m m' -> (ctl_key (ImmGo [] b) = None \/ dang m' = dang m) ->
    R (stop_imm m s rest b) (stop_imm m' s rest b).
  Proof.
    intros H D. unfold stop_imm. destruct b; cbn in *.
    - apply R_goto; auto. apply same_sc_refl.
    - apply R_goto; auto. apply same_sc_refl.
    - destruct D as [D|D]; [discriminate|]. now apply R_stop_events.
  Qed.

  Lemma R_after_imm m m' s rest b : R m m' -> (ctl_key (ImmGo [] b) = None \/ dang m' = dang m) ->
    R (after_imm m s rest b) (after_imm m' s rest b).
  Proof.
    intros H D. unfold after_imm. destruct (hold s); [now apply R_stop_imm|]. apply R_goto; auto. apply same_sc_refl.
  Qed.

  Lemma R_after_evt m m' s K rest : R m m' -> dang m' = dang m -> R (after_evt m s K rest) (after_evt m' s K rest).
  Proof.
    intros H D. unfold after_evt. destruct (hold s); [now apply R_stop_events|]. apply R_goto; auto. apply same_sc_refl.
  Qed.

  Lemma R_zulu_running m m' : R m m' -> zulu_running m' = zulu_running m.
  Proof. intros H. unfold zulu_running. now rewrite (a_zc _ _ _ _ H). Qed.

  Lemma R_tau m m' : R m m' -> R (tau m) (tau m').
  Proof.
    intros H. pose proof (R_eq m m' H) as Q. pose proof (a_ctl _ _ _ _ H) as C. pose proof (a_dang _ _ _ _ H) as D.
    unfold tau. rewrite C, (R_zulu_running _ _ H).
    destruct (ctl m) as [|rest b|id rest b|K0|K0|K0|K0 rest|id K0 rest|d]; try exact H; rewrite (Q eq_refl); cbn [ctl_key] in D.
    - assert (D' : ctl_key (ImmGo [] b) = None \/ dang m' = dang m) by (destruct b; auto).
      destruct rest as [|id rest].
      + destruct (imm (sc m)) as [|x l].
        * now apply R_imm_return.
        * apply R_goto; auto. apply same_sc_refl.
      + destruct (mget id (evs (sc m))) as [e|]; [|now apply R_die]. destruct (skips (sc m) e).
        * destruct (finish (sc m) id); [now apply R_die|]. apply R_after_imm; auto. now apply R_log.
        * destruct (zulu_running m); [exact H|]. apply R_log, R_goto; auto. apply same_sc_refl.
    - destruct D as [D|D]; [discriminate|]. rewrite D. destruct (hold (sc m)); [apply R_goto; auto; apply same_sc_refl|].
      destruct (dang m) eqn:G; [now apply R_die|]. apply R_goto; auto; [apply same_sc_refl|]. right; congruence.
    - destruct (hold (sc m)); [apply R_goto; auto; apply same_sc_refl|exact H].
    - apply R_goto; auto. apply same_sc_refl.
    - destruct D as [D|D]; [discriminate|]. rewrite D. destruct rest as [|id rest].
      + destruct (dang m) eqn:G; [now apply R_die|]. destruct (tget K0 (tbl (sc m))).
        * now apply R_loop_head.
        * apply R_goto; auto; [apply same_sc_refl|]. right; congruence.
      + destruct (mget id (evs (sc m))) as [e|]; [|now apply R_die]. destruct (skips (sc m) e).
        * destruct (finish (sc m) id); [now apply R_die|]. apply R_after_evt; auto. now apply R_log.
        * destruct (zulu_running m); [exact H|]. apply R_log, R_goto; auto. apply same_sc_refl.
  Qed.

  Lemma R_timeout m m' : R m m' -> R (timeout m) (timeout m').
  Proof.
    intros H. pose proof (R_eq m m' H) as Q. pose proof (a_ctl _ _ _ _ H) as C. pose proof (a_dang _ _ _ _ H) as D.
    unfold timeout. rewrite C. destruct (ctl m); try exact H. rewrite (Q eq_refl).
    destruct D as [D|D]; [discriminate|]. rewrite D. destruct (dang m) eqn:G; [now apply R_die|].
    destruct (set_sim_time (sc m) K); try now apply R_die. apply R_log, R_goto; auto; [apply same_sc_refl|].
    right. congruence.
  Qed.

  Lemma R_end_ep m m' : R m m' -> R (end_ep m) (end_ep m').
  Proof.
    intros H. pose proof (R_eq m m' H) as Q. pose proof (a_ctl _ _ _ _ H) as C. pose proof (a_dang _ _ _ _ H) as D.
    unfold end_ep. rewrite C. destruct (ctl m); try exact H; rewrite (Q eq_refl); cbn [ctl_key] in D.
    - destruct (finish _ id); [now apply R_die|]. apply R_after_imm; [now apply R_log|]. destruct b; auto.
    - destruct (finish _ id); [now apply R_die|]. destruct D as [D|D]; [discriminate|]. apply R_after_evt; [now apply R_log|exact D].
  Qed.

  Lemma ret_log_same m m' c r r' : ctl m' = ctl m -> (exists b, sc m' = set_hold b (sc m)) ->
    r_id r' = r_id r -> (exists b, r_st r' = set_hold b (r_st r)) -> ret_log m' c r' = ret_log m c r.
  Proof.
    intros C (b & E) I (b' & F). unfold ret_log. rewrite C, E, I, F. destruct c; reflexivity.
  Qed.

  Lemma R_after_call m m' c r r' : R m m' -> r_id r' = r_id r -> r_kill r' = r_kill r ->
    same_sc (ctl m) (r_st r) (r_st r') -> R (after_call m c r) (after_call m' c r').
  Proof.
    intros H I K S. pose proof H as [A1 A2 A3 A4 A5 A6 (n & A7 & A8)]. constructor; cbn; auto.
    - rewrite A2, K. destruct A5 as [A5| ->]; auto. 
    - exists (ret_log m c r ++ n). rewrite (ret_log_same m m' c r r'), A7, A8, !app_assoc; auto.
      + destruct A1 as (b & E & _). now exists b.
      + destruct S as (b & E & _). now exists b.
  Qed.

  Lemma same_sc_ok c s s' b : (quiet c = true \/ b = hold s) -> hold s' = hold s -> same_sc c s' (set_hold b s').
  Proof. intros C E. exists b. split; auto. destruct C as [C|C]; auto. right. congruence. Qed.

  Lemma api_keeps_hold s c r : api s c = Ok r -> hold (r_st r) = hold s.
  Proof.
    intros E. pose proof (api_hold (hold s) s c) as H. rewrite set_hold_same, E in H.
    destruct r as [st i k]. cbn in H. injection H as H. cbn. now rewrite H.
  Qed.

  Lemma R_call m m' c : R m m' -> R (call m c) (call m' c).
  Proof.
    intros H. pose proof (a_sc _ _ _ _ H) as (b & E & C). unfold call. rewrite E, api_hold.
    destruct (api (sc m) c) as [r|x|] eqn:A; [|exact H|now apply R_die].
    apply R_after_call; auto. cbn. apply (same_sc_ok _ (sc m)); auto. now apply (api_keeps_hold (sc m) c).
  Qed.

  Lemma R_set_pend m m' p : R m m' -> R (set_pend m p) (set_pend m' p).
  Proof. intros H. destruct H. constructor; cbn; auto. Qed.

  Lemma R_begin m m' c : R m m' -> R (begin_add m c) (begin_add m' c).
  Proof.
    intros H. pose proof (a_sc _ _ _ _ H) as (b & E & C). unfold begin_add. rewrite E, build_add_hold, (a_pend _ _ _ _ H).
    destruct (build_add (sc m) c) as [[q|x|]|]; try exact H; [|now apply R_die]. rewrite check_add_hold.
    destruct (check_add (sc m) q); try exact H. now apply R_set_pend.
  Qed.

  Lemma R_commit m m' n : R m m' -> R (commit m n) (commit m' n).
  Proof.
    intros H. pose proof (a_sc _ _ _ _ H) as (b & E & C). unfold commit.
    rewrite E, (a_pend _ _ _ _ H), (a_ctl _ _ _ _ H).
    destruct (nth_error (pend m) n) as [q|]; [|exact H]. rewrite commit_add_hold.
    destruct (commit_add (sc m) q) as [r|x|] eqn:A; [|exact H|now apply R_die].
    apply R_log, R_set_pend, R_goto; auto.
    - cbn. apply (same_sc_ok _ (sc m)); auto. unfold commit_add in A. destruct (_ <? _); [|discriminate].
      now injection A as <-.
    - exact (a_dang _ _ _ _ H).
  Qed.

  Lemma R_ztick m m' z : R m m' -> R (ztick m z) (ztick m' z).
  Proof.
    intros H. pose proof (a_sc _ _ _ _ H) as (b & E & C). unfold ztick. rewrite E, (a_zc _ _ _ _ H). cbn [set_hold ztbl].
    destruct (zc m); try exact H. destruct (ztbl (sc m)) as [|[K l] t]; [exact H|]. destruct (K <=? z); [|exact H].
    destruct H. constructor; cbn; auto. exists b. auto.
  Qed.

  Lemma zfinish_keeps_hold s id s' : zfinish s id = inr s' -> hold s' = hold s.
  Proof.
    unfold zfinish. destruct (mget id (evs s)); [|discriminate]. destruct (_ =? _); [now intros [= <-]|].
    destruct (in_i64 _); [|discriminate]. now intros [= <-].
  Qed.

  Lemma R_ztau m m' ok : R m m' -> R (ztau m ok) (ztau m' ok).
  Proof.
    intros H. pose proof (a_sc _ _ _ _ H) as (b & E & C). pose proof (a_zclock _ _ _ _ H) as Z. unfold ztau.
    rewrite E, (a_zc _ _ _ _ H), (a_ctl _ _ _ _ H). cbn [set_hold ztbl evs].
    destruct (zc m) as [|K [|id rest]|]; try exact H.
    - destruct (tget K (ztbl (sc m))).
      + apply R_zgoto; auto. exists b. auto.
      + apply R_zgoto; auto; [exists b; auto|]. destruct Z; [discriminate|auto].
    - destruct (mget id (evs (sc m))) as [e|]; [|now apply R_die]. destruct Z as [Z|Z]; [discriminate|]. destruct (negb ok).
      + rewrite zfinish_hold. destruct (zfinish (sc m) id) as [d|s] eqn:F; [now apply R_die|].
        apply R_zgoto; [now apply R_log| |auto]. cbn. apply (same_sc_ok _ (sc m)); auto. now apply (zfinish_keeps_hold _ id).
      + destruct (sim_ep_running (ctl m)); [exact H|]. rewrite Z. apply R_log, R_zgoto; auto. exists b. auto.
  Qed.

  Lemma R_zend m m' : R m m' -> R (zend m) (zend m').
  Proof.
    intros H. pose proof (a_sc _ _ _ _ H) as (b & E & C). pose proof (a_zclock _ _ _ _ H) as Z. unfold zend.
    rewrite E, (a_zc _ _ _ _ H). destruct (zc m); try exact H. destruct Z as [Z|Z]; [discriminate|].
    change (set_cur (-1) (set_hold b (sc m))) with (set_hold b (set_cur (-1) (sc m))). rewrite zfinish_hold.
    destruct (zfinish _ id) as [d|s] eqn:F; [now apply R_die|].
    apply R_zgoto; [now apply R_log| |auto]. cbn. apply (same_sc_ok _ (set_cur (-1) (sc m))); auto. now apply (zfinish_keeps_hold _ id).
  Qed.

  Lemma R_step m m' l : R m m' -> R (mstep m l) (mstep m' l).
  Proof.
    intros H. pose proof (a_sc _ _ _ _ H) as (b & E & C). pose proof (a_ctl _ _ _ _ H) as Ec.
    unfold mstep. rewrite Ec.
    assert (L : l <> LRun -> R (match l with
      | LRun => m | LTau => tau m | LTimeout => timeout m | LEnd => end_ep m
      | LHold => goto m (set_hold true (sc m)) (ctl m)
      | LCall c => call m c | LBegin c => begin_add m c | LCommit n => commit m n
      | LZTick z => ztick m z | LZTau ok => ztau m ok | LZEnd => zend m end)
      (match l with
      | LRun => m' | LTau => tau m' | LTimeout => timeout m' | LEnd => end_ep m'
      | LHold => goto m' (set_hold true (sc m')) (ctl m)
      | LCall c => call m' c | LBegin c => begin_add m' c | LCommit n => commit m' n
      | LZTick z => ztick m' z | LZTau ok => ztau m' ok | LZEnd => zend m' end)).
    { intros _. destruct l; try exact H;
        [now apply R_tau|now apply R_timeout|now apply R_end_ep| |now apply R_call|now apply R_begin|now apply R_commit
        |now apply R_ztick|now apply R_ztau|now apply R_zend].
      apply R_goto; auto; [|exact (a_dang _ _ _ _ H)]. exists true. rewrite E. split; [reflexivity|]. now right. }
    destruct (ctl m) eqn:Cm; try exact H; destruct l; try exact H; try (apply L; discriminate).
    apply R_goto; auto. exists false. rewrite E. split; [reflexivity|now right].
  Qed.

  Lemma R_steps ls : forall m m', R m m' -> R (fold_left mstep ls m) (fold_left mstep ls m').
  Proof. induction ls as [|l ls IH]; intros m m' H; cbn; auto. apply IH. now apply R_step. Qed.
End Alike.

Lemma alike_future m m' : alike (tr m) (tr m') m m' -> same_future m m'.
Proof.
  intros H fut. apply (R_steps _ _ fut) in H. destruct H as [(b & E & _) _ _ _ _ _ (n & A & B)].
  exists n. rewrite E. repeat split; auto.
Qed.

Lemma standby_cur ls : standby (run ls) -> cur (sc (run ls)) = -1.
Proof.
  intros (A & B & _). assert (Al : alive (run ls)). { unfold alive. intros d H. congruence. }
  rewrite (k_cur _ (t_link _ (run_TInv ls) Al)), A, B. reflexivity.
Qed.

Theorem restored_alike ls ls0 : standby (run ls) -> standby (run ls0) -> same_unstored (run ls) (run ls0) ->
  alike (tr (run ls)) (tr (run ls0)) (run ls) (with_sched (run ls0) (restored (sc (run ls)) (sc (run ls0)))).
Proof.
  intros S S0 (U1 & U2). pose proof (standby_cur _ S) as C. pose proof (standby_cur _ S0) as C0.
  destruct S as (A1 & A2 & A3). destruct S0 as (B1 & B2 & B3). constructor; cbn.
  - exists (hold (sc (run ls0))). split; [|left; now rewrite A1].
    unfold restored. rewrite <- U1, <- U2, C0, <- C. now destruct (sc (run ls)).
  - congruence.
  - congruence.
  - now left.
  - left. now rewrite A1.
  - congruence.
  - exists []. auto.
Qed.

(** ** Zulu events are lost *)
Definition zulu_free (m : mach) : Prop := zc m = ZWait /\ ztbl (sc m) = [] /\ forall id t z, ~ In (TZulu id t z) (tr m).

Definition zulu_silent (l : label) : Prop :=
  match l with
  | LCall (AddZulu _ _ _ _ _) | LCall (SetZulu _ _ _) | LCall (Remove _) => False
  | _ => True
  end.

Lemma zf_goto m s c : zulu_free m -> ztbl s = [] -> zulu_free (goto m s c).
Proof. intros (A & B & C) E. repeat split; auto. Qed.
Lemma zf_die m d : zulu_free m -> zulu_free (die m d).
Proof. intros (A & B & C). repeat split; auto. Qed.
Lemma zf_log m t : zulu_free m -> (forall id s z, t <> TZulu id s z) -> zulu_free (log m t).
Proof. intros (A & B & C) E. repeat split; auto. intros id s z [H|H]; [now apply (E id s z)|now apply (C id s z)]. Qed.

Lemma finish_ztbl s id s' : finish s id = inr s' -> ztbl s' = ztbl s.
Proof.
  unfold finish. destruct (mget id (evs s)); [|discriminate]. destruct (_ =? _); [now intros [= <-]|].
  destruct (_ && _); [|discriminate]. now intros [= <-].
Qed.

Lemma zf_loop_head m s o : zulu_free m -> ztbl s = [] -> zulu_free (loop_head m s o).
Proof. intros (A & B & C) E. destruct o; repeat split; auto. Qed.
Lemma zf_stop_events m s K rest : zulu_free m -> ztbl s = [] -> zulu_free (stop_events m s K rest).
Proof. intros H E. unfold stop_events. destruct (dang m); [now apply zf_die|now apply zf_goto]. Qed.
Lemma zf_stop_imm m s rest b : zulu_free m -> ztbl s = [] -> zulu_free (stop_imm m s rest b).
Proof. intros H E. unfold stop_imm. destruct b; try now apply zf_goto. now apply zf_stop_events. Qed.
Lemma zf_after_imm m s rest b : zulu_free m -> ztbl s = [] -> zulu_free (after_imm m s rest b).
Proof. intros H E. unfold after_imm. destruct (hold s); [now apply zf_stop_imm|now apply zf_goto]. Qed.
Lemma zf_after_evt m s K rest : zulu_free m -> ztbl s = [] -> zulu_free (after_evt m s K rest).
Proof. intros H E. unfold after_evt. destruct (hold s); [now apply zf_stop_events|now apply zf_goto]. Qed.

Lemma api_ztbl s c r : zulu_silent (LCall c) -> api s c = Ok r -> ztbl (r_st r) = ztbl s.
Proof.
  assert (SE : forall id sim t k r, set_event_time s id sim t k = Ok r -> ztbl (r_st r) = ztbl s).
  { intros id sim t k r0. unfold set_event_time. destruct (mget id (evs s)); [|discriminate].
    destruct (negb _); [discriminate|]. destruct (_ <? _); now intros [= <-]. }
  assert (CA : forall q r, bind (check_add s q) (commit_add s) = Ok r -> ztbl (r_st r) = ztbl s).
  { intros q r0. unfold check_add. destruct (_ <? _); [discriminate|]. destruct (_ && _); [discriminate|].
    cbn [bind]. unfold commit_add. destruct (_ <? _); [|discriminate]. now intros [= <-]. }
  intros Z. destruct c; cbn [api build_add]; try destruct Z.
  - destruct (_ <? _); [|discriminate]. now intros [= <-].
  - destruct (in_i64 _); [|discriminate]. cbn [bind]. apply CA.
  - destruct (_ && _); [|discriminate]. cbn [bind]. apply CA.
  - destruct (_ && _); [|discriminate]. cbn [bind]. apply CA.
  - destruct (in_i64 _); [|discriminate]. apply SE.
  - destruct (_ && _); [|discriminate]. apply SE.
  - destruct (_ && _); [|discriminate]. apply SE.
  - destruct (mget id (evs s)); [|discriminate]. destruct (_ && _); [discriminate|]. now intros [= <-].
  - destruct (mget id (evs s)); [|discriminate]. destruct (_ && _); [discriminate|]. now intros [= <-].
  - destruct (in_i64 _); [|discriminate]. now intros [= <-].
  - destruct (_ && _); [|discriminate]. now intros [= <-].
  - now intros [= <-].
  - unfold set_sim_time. destruct (negb _); [now intros [= <-]|]. destruct (_ || _); [discriminate|]. now intros [= <-].
Qed.

Lemma ret_log_no_zulu m c r id t z : ~ In (TZulu id t z) (ret_log m c r).
Proof.
  unfold ret_log. destruct c; cbn; try tauto; try (intros [H|[]]; discriminate).
  destruct (sim_ep_running (ctl m)); cbn; [intros [H|[H|[]]]|intros [H|[]]]; discriminate.
Qed.

Lemma zf_step m l : zulu_silent l -> zulu_free m -> zulu_free (mstep m l).
Proof.
  intros Zl H. pose proof H as (H1 & H2 & H3).
  assert (D : (exists d, ctl m = Dead d) \/ mstep m l =
    match l with
    | LRun => match ctl m with Idle => goto m (set_hold false (sc m)) (ImmGo [] BStart) | _ => m end
    | LTau => tau m | LTimeout => timeout m | LEnd => end_ep m
    | LHold => goto m (set_hold true (sc m)) (ctl m)
    | LCall c => call m c | LBegin c => begin_add m c | LCommit n => commit m n
    | LZTick z => ztick m z | LZTau ok => ztau m ok | LZEnd => zend m end).
  { unfold mstep. destruct (ctl m); eauto. }
  destruct D as [[d D]| ->]. { unfold mstep. now rewrite D. }
  destruct l.
  - destruct (ctl m); try exact H; now apply zf_goto.
  - unfold tau; cbv zeta. destruct (ctl m) as [|rest b|id rest b|K0|K0|K0|K0 rest|id K0 rest|d]; try exact H.
    + destruct rest as [|id rest].
      * destruct (imm (sc m)); [|now apply zf_goto]. destruct b; cbn; try now apply zf_goto. now apply zf_loop_head.
      * destruct (mget id (evs (sc m))); [|now apply zf_die]. destruct (skips _ _).
        -- destruct (finish _ _) eqn:F; [now apply zf_die|]. apply zf_after_imm; [apply zf_log; auto; discriminate|].
           now rewrite (finish_ztbl _ _ _ F).
        -- destruct (zulu_running m); [exact H|]. apply zf_log; [now apply zf_goto|discriminate].
    + destruct (hold _); [now apply zf_goto|]. destruct (dang m); [now apply zf_die|now apply zf_goto].
    + destruct (hold _); [now apply zf_goto|exact H].
    + destruct rest as [|id rest].
      * destruct (dang m); [now apply zf_die|]. destruct (tget K0 _); [now apply zf_loop_head|now apply zf_goto].
      * destruct (mget id (evs (sc m))); [|now apply zf_die]. destruct (skips _ _).
        -- destruct (finish _ _) eqn:F; [now apply zf_die|]. apply zf_after_evt; [apply zf_log; auto; discriminate|].
           now rewrite (finish_ztbl _ _ _ F).
        -- destruct (zulu_running m); [exact H|]. apply zf_log; [now apply zf_goto|discriminate].
  - unfold timeout. destruct (ctl m); try exact H. destruct (dang m); [now apply zf_die|].
    unfold set_sim_time. destruct (negb _); [apply zf_log; [now apply zf_goto|discriminate]|].
    destruct (_ || _); [now apply zf_die|]. apply zf_log; [now apply zf_goto|discriminate].
  - unfold end_ep. destruct (ctl m); try exact H; (destruct (finish _ _) eqn:F; [now apply zf_die|]).
    + apply zf_after_imm; [apply zf_log; auto; discriminate|]. now rewrite (finish_ztbl _ _ _ F).
    + apply zf_after_evt; [apply zf_log; auto; discriminate|]. now rewrite (finish_ztbl _ _ _ F).
  - now apply zf_goto.
  - unfold call. destruct (api (sc m) c) eqn:F; [|exact H|now apply zf_die]. split; [exact H1|split].
    + cbn. now rewrite (api_ztbl _ _ _ Zl F).
    + intros id t z I. cbn in I. apply in_app_iff in I as [I|I]; [now apply ret_log_no_zulu in I|now apply (H3 id t z)].
  - unfold begin_add. destruct (build_add (sc m) c) as [[q|x|]|]; try exact H.
    destruct (check_add (sc m) q); exact H.
  - unfold commit. destruct (nth_error (pend m) n); [|exact H].
    destruct (commit_add (sc m) a) as [r|x|] eqn:F; [|exact H|now apply zf_die]. apply zf_log; [|discriminate].
    unfold commit_add in F. destruct (_ <? _); [|discriminate]. injection F as <-. repeat split; auto.
  - unfold ztick. rewrite H1, H2. exact H.
  - unfold ztau. rewrite H1. exact H.
  - unfold zend. rewrite H1. exact H.
Qed.

Lemma zulu_lost s fut : Forall zulu_silent fut ->
  forall id t z, ~ In (TZulu id t z) (tr (fold_left mstep fut (with_sched mach_init (restored s sched_init)))).
Proof.
  assert (G : forall m, zulu_free m -> Forall zulu_silent fut -> zulu_free (fold_left mstep fut m)).
  { induction fut as [|l fut IH]; intros m H F; [exact H|]. inversion F as [|? ? F1 F2]; subst. cbn. apply IH; auto. now apply zf_step. }
  intros F. apply G; auto. repeat split. intros id t z [].
Qed.
