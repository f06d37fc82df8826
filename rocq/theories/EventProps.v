(** Properties C20, C21 and C22. *)
From Verif Require Import Base Assoc Text UuidModel EventModel EventSpec EventProofs.

(** C20: in every history, equal names give equal identifiers and different names
    different identifiers. *)
Theorem C20_names_and_ids_are_in_bijection os n1 i1 n2 i2 :
  In (EvQuery n1 i1) (etrace os) -> In (EvQuery n2 i2) (etrace os) -> (n1 = n2 <-> i1 = i2).
Proof.
  intros H1 H2. pose proof (reach_inv os) as V.
  apply (v_query _ _ V) in H1. apply (v_query _ _ V) in H2. split.
  - intros ->. congruence.
  - intros ->. apply (v_ids _ _ V) in H1. apply (v_ids _ _ V) in H2. congruence.
Qed.

Lemma predefined_ids os n i : In (EvQuery n i) (etrace os) ->
  (forall j, In (n, j) predefined -> i = j) /\ ((forall j, ~ In (n, j) predefined) -> 20 <= i) /\
  map snd predefined = [1; 2; 3; 4; 5; 6; 7; 8; 9; 10; 11; 12; 13; 14; 15; 16; 17; 18; 19].
Proof.
  intros H. pose proof (reach_inv os) as V. apply (v_query _ _ V) in H. split; [|split].
  - intros j P. apply (v_pre _ _ V) in P. congruence.
  - intros N. destruct (Z.le_gt_cases 20 i) as [L|L]; [assumption|]. exfalso.
    assert (1 <= i <= 19) as R.
    { apply (v_ids _ _ V) in H. assert (exists n, aget Z.eqb i (e_ids (fst (erun em_init os))) = Some n) as X by eauto.
      apply (v_range _ _ V) in X. lia. }
    assert (exists m, In (m, i) predefined) as [m P].
    { assert (In i (map snd predefined)) as I.
      { change (In i [1;2;3;4;5;6;7;8;9;10;11;12;13;14;15;16;17;18;19]). cbn. lia. }
      apply in_map_iff in I. destruct I as ([m j] & <- & I). eauto. }
    pose proof (v_pre _ _ V _ _ P) as X. apply (v_ids _ _ V) in H. apply (v_ids _ _ V) in X.
    assert (m = n) by congruence. subst m. now apply (N i).
  - reflexivity.
Qed.

Lemma standard_iff n i : standard n i <-> In (n, i) predefined.
Proof.
  unfold standard. split.
  - intros [H1 H2]. assert (Z.to_nat (i - 1) < length standard_names)%nat as L by (apply nth_error_Some; congruence).
    change (length standard_names) with 19%nat in L.
    assert (In i [1;2;3;4;5;6;7;8;9;10;11;12;13;14;15;16;17;18;19]) as I by (cbn; lia).
    clear H1 L. cbn in I.
    repeat (destruct I as [<-|I]; [cbn [Z.sub Z.to_nat Z.add Z.opp Z.pos_sub Pos.pred_double] in H2;
      vm_compute in H2; injection H2 as <-; vm_compute; tauto|]). destruct I.
  - unfold predefined. intros I. cbn [In] in I.
    repeat (destruct I as [I|I]; [injection I as <- <-; split; [lia|reflexivity]|]). destruct I.
Qed.

(** C20: the names of the standard keep their identifiers 1 to 19; other names get
    larger ones. *)
Theorem C20_predefined_ids os n i : In (EvQuery n i) (etrace os) ->
  (forall j, standard n j -> i = j) /\ ((forall j, ~ standard n j) -> 20 <= i).
Proof.
  intros H. destruct (predefined_ids os n i H) as (H1&H2&_). split.
  - intros j P. apply H1. now apply standard_iff.
  - intros N. apply H2. intros j P. apply (N j). now apply standard_iff.
Qed.

(** C20: every non-empty name is answered, the empty one and the null pointer are
    rejected without effect. *)
Theorem C20_every_name_is_answered os n :
  (n <> [] -> exists i, etrace (os ++ [OQuery (Some n)]) = etrace os ++ [EvQuery n i]) /\
  (forall m, m = None \/ m = Some [] ->
     erun em_init (os ++ [OQuery m]) = (fst (erun em_init os), etrace os ++ [EvError 1])).
Proof.
  unfold etrace. split.
  - intros N. rewrite erun_app. destruct (erun em_init os) as [s t]. cbn [erun estep query snd fst].
    destruct n as [|c n]; [contradiction|].
    destruct (aget ename_eqb (c :: n) (e_events s)) as [i|]; eexists; cbn; reflexivity.
  - intros m Hm. rewrite erun_app. destruct (erun em_init os) as [s t].
    destruct Hm as [-> | ->]; reflexivity.
Qed.

Example C20_witness :
  etrace [OQuery (Some (codes "MyEvent")); OQuery (Some (codes "SMP_EnterStandby")); OQuery (Some (codes "Other"));
          OQuery (Some (codes "MyEvent"))]
  = [EvQuery (codes "MyEvent") 20; EvQuery (codes "SMP_EnterStandby") 4; EvQuery (codes "Other") 21;
     EvQuery (codes "MyEvent") 20].
Proof. reflexivity. Qed.

(** C21: in every history (every interleaving of calls, nested or concurrent), the
    entry points executed by a call of Emit are, in order, a prefix of those
    subscribed to the event at the time of the call, and all of them when the call
    has returned.  Nothing is executed by the call before it started. *)
Theorem C21_emit_notifies_the_subscribers_of_the_call os k i pre post :
  etrace os = pre ++ EvEmit k i :: post ->
  exists rest, subscribers pre i = executed k post ++ rest /\ (In (EvEnd k) post -> rest = []) /\
               executed k pre = [].
Proof.
  intros E. destruct (v_once _ _ (reach_inv os) k i pre post E) as (O1 & _ & _ & _ & rest & O4 & O5). eauto.
Qed.

(** C21: a call in progress can always go on to its end: it never blocks. *)
Theorem C21_emit_completes os k i pre post :
  etrace os = pre ++ EvEmit k i :: post -> ~ In (EvEnd k) post ->
  exists n, etrace (os ++ repeat (ONext k) (S n))
            = etrace os ++ map (EvRun k) (skipn (length (executed k post)) (subscribers pre i)) ++ [EvEnd k].
Proof.
  intros E NE. pose proof (reach_inv os) as V.
  destruct (v_once _ _ V k i pre post E) as (O1 & O1' & O2 & O3 & rest & O4 & O5).
  assert (In (EvEmit k i) (etrace os)) as I by (rewrite E; apply in_app_iff; right; now left).
  destruct (v_live _ _ V k i I) as [J|[l Hl]].
  { rewrite E in J. apply in_app_iff in J. destruct J as [J|[J|J]]; [contradiction|discriminate J|contradiction]. }
  destruct (v_calls _ _ V k l Hl) as (_ & _ & i' & pre' & post' & E' & C).
  assert (l = rest) as ->.
  { destruct (v_once _ _ V k i' pre' post' E') as (P1 & _ & P2 & _ & rest' & P4 & _).
    assert (executed k (etrace os) = executed k post) as X
      by (rewrite E, executed_app, O1; reflexivity).
    assert (executed k (etrace os) = executed k post') as X'
      by (rewrite E', executed_app, P1; reflexivity).
    assert (pre' = pre /\ i' = i) as [-> ->].
    { clear - E E' O2 P2. rewrite E in E'. clear E. revert pre' E' P2.
      induction pre as [|x pre IH]; intros [|y pre'] E' P2; cbn in E'.
      - injection E' as -> ->. auto.
      - injection E' as <- E'. exfalso. apply (P2 i). now left.
      - injection E' as -> E'. exfalso. apply (O2 i'). now left.
      - injection E' as -> E'. destruct (IH ltac:(intros j Hj; apply (O2 j); now right) pre' E'
          ltac:(intros j Hj; apply (P2 j); now right)) as [-> ->]. auto. }
    rewrite X in C. rewrite O4 in C. now apply app_inv_head in C. }
  exists (length rest).
  replace (skipn (length (executed k post)) (subscribers pre i)) with rest
    by (rewrite O4, skipn_app, skipn_all, Nat.sub_diag; reflexivity).
  unfold etrace in *. rewrite erun_app. destruct (erun em_init os) as [s t]. cbn [fst snd] in *.
  clear - Hl. 
  assert (snd (erun s (repeat (ONext k) (S (length rest)))) = map (EvRun k) rest ++ [EvEnd k]) as X.
  { revert s Hl. induction rest as [|ep r IH]; intros s Hl.
    - cbn. unfold next. rewrite Hl. reflexivity.
    - change (repeat (ONext k) (S (length (ep :: r)))) with (ONext k :: repeat (ONext k) (S (length r))).
      cbn [erun estep]. unfold next at 1. rewrite Hl.
      set (s1 := Em _ _ _ _ _). specialize (IH s1).
      destruct (erun s1 (repeat (ONext k) (S (length r)))) as [s2 t2]. cbn in *.
      rewrite IH; [reflexivity|]. apply aget_aset_same. apply neqb_ok. }
  destruct (erun s (repeat (ONext k) (S (length rest)))) as [s2 t2]. cbn in *. now rewrite X.
Qed.

(** C21: which calls are accepted.  The exceptions are 2 InvalidEventId,
    3 EntryPointAlreadySubscribed, 4 EntryPointNotSubscribed; a call that throws has
    no effect. *)
Theorem C21_acceptance os i ep :
  let tr := etrace os in
  let s := fst (erun em_init os) in
  (known tr i ->
     (~ In ep (subscribers tr i) -> snd (subscribe i ep s) = EvSub i ep) /\
     (In ep (subscribers tr i) -> subscribe i ep s = (s, EvError 3)) /\
     (In ep (subscribers tr i) -> snd (unsubscribe i ep s) = EvUnsub i ep) /\
     (~ In ep (subscribers tr i) -> unsubscribe i ep s = (s, EvError 4)) /\
     (exists k, snd (emit i s) = EvEmit k i)) /\
  (~ known tr i ->
     subscribe i ep s = (s, EvError 2) /\ unsubscribe i ep s = (s, EvError 2) /\ emit i s = (s, EvError 2)).
Proof.
  cbv zeta. pose proof (reach_inv os) as V. set (s := fst (erun em_init os)) in *. set (tr := etrace os) in *.
  assert (known tr i <-> exists n, aget Z.eqb i (e_ids s) = Some n) as K.
  { split.
    - intros [R|[n H]].
      + apply (v_range _ _ V). split; [lia|].
        assert (incl (akeys predefined) (akeys (e_events s))) as I.
        { intros n Hn. apply in_map_iff in Hn. destruct Hn as ([n' j] & <- & Hn). apply (v_pre _ _ V) in Hn.
          apply (aget_In ename_eqb ename_eqb_ok) in Hn. now apply (in_map fst) in Hn. }
        apply NoDup_incl_length in I.
        * unfold akeys in I. rewrite !map_length in I. change (length predefined) with 19%nat in I. lia.
        * repeat (constructor; [vm_compute; intuition discriminate|]). constructor.
      + exists n. apply (v_ids _ _ V). now apply (v_query _ _ V).
    - intros [n H]. apply (v_known _ _ V) in H. destruct H as [H|H]; [|right; eauto].
      left. apply (in_map snd) in H. change (In i [1;2;3;4;5;6;7;8;9;10;11;12;13;14;15;16;17;18;19]) in H.
      cbn in H. lia. }
  rewrite K. pose proof (v_subs _ _ V i) as S. split.
  - intros [n Hn]. unfold subscribe, unsubscribe, emit. rewrite Hn. rewrite <- S.
    destruct (aget Z.eqb i (e_subs s)) as [l|] eqn:E.
    + destruct (mem ep l) eqn:M.
      * apply mem_In in M. repeat split; intros; try contradiction; try reflexivity. eexists; reflexivity.
      * assert (~ In ep l) by (rewrite <- mem_In; congruence). repeat split; intros; try contradiction; try reflexivity. eexists; reflexivity.
    + cbn [In]. repeat split; intros; try contradiction; try reflexivity. eexists; reflexivity.
  - intros N. unfold subscribe, unsubscribe, emit.
    destruct (aget Z.eqb i (e_ids s)) as [n|] eqn:E; [exfalso; apply N; eauto|]. auto.
Qed.

(** C21: an entry point is subscribed at most once to an event. *)
Theorem C21_subscribed_at_most_once os i : NoDup (subscribers (etrace os) i).
Proof. apply (v_subs_nodup _ _ (reach_inv os)). Qed.

(** A handler that unsubscribes itself and its neighbour and emits again: the first
    call still executes both, the nested call executes the remaining one. *)
Example C21_witness :
  etrace [OSub 4 100; OSub 4 200; OSub 4 300; OEmit 4; ONext 0; OUnsub 4 100; OUnsub 4 200; OEmit 4;
          ONext 1; ONext 1; ONext 0; ONext 0; ONext 0; OSub 20 100]
  = [EvSub 4 100; EvSub 4 200; EvSub 4 300; EvEmit 0 4; EvRun 0 100; EvUnsub 4 100; EvUnsub 4 200; EvEmit 1 4;
     EvRun 1 300; EvEnd 1; EvRun 0 200; EvRun 0 300; EvEnd 0; EvError 2].
Proof. reflexivity. Qed.

(** C22: restoring into any manager what was stored after any history gives a manager
    that behaves, for every later history, as the stored one; only the calls of Emit
    in progress are those of the manager restored into. *)
Theorem C22_restored_manager_behaves_as_stored os s0 future :
  let s := fst (erun em_init os) in
  snd (erun (erestore (estore s) s0) future)
  = snd (erun (Em (e_events s) (e_ids s) (e_subs s) (e_calls s0) (e_next s0)) future).
Proof.
  cbv zeta. pose proof (reach_inv os) as V. apply same_run. constructor; try reflexivity.
  intros i. unfold erestore, estore. cbn [fst snd e_ids]. now apply (ids_of_get _ (etrace os)).
Qed.

(** C22: in particular without calls in progress at either time the two managers
    answer identically. *)
Theorem C22_identity_when_idle os s0 future :
  let s := fst (erun em_init os) in
  e_calls s = [] -> e_calls s0 = [] -> e_next s0 = e_next s ->
  snd (erun (erestore (estore s) s0) future) = snd (erun s future).
Proof.
  cbv zeta. intros H1 H2 H3. rewrite C22_restored_manager_behaves_as_stored. rewrite H2, H3, <- H1.
  now rewrite <- em_eta.
Qed.

Example C22_witness :
  let s := fst (erun em_init [OQuery (Some (codes "MyEvent")); OSub 20 7; OSub 4 8; OSub 20 9]) in
  let s0 := fst (erun em_init [OSub 20 1; OQuery (Some (codes "X")); OSub 20 5]) in
  snd (erun (erestore (estore s) s0) [OEmit 20; ONext 0; ONext 0; ONext 0; OQuery (Some (codes "X")); OSub 20 7])
  = [EvEmit 0 20; EvRun 0 7; EvRun 0 9; EvEnd 0; EvQuery (codes "X") 21; EvError 3].
Proof. reflexivity. Qed.
