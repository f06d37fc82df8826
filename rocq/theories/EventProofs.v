From Verif Require Import Base Assoc Text UuidModel UuidProofs EventModel EventSpec.

Lemma ename_eqb_ok a b : ename_eqb a b = true <-> a = b.
Proof. apply list_eqb_eq. Qed.
Lemma zeqb_ok a b : (a =? b) = true <-> a = b.
Proof. apply Z.eqb_eq. Qed.
Lemma neqb_ok a b : (a =? b)%nat = true <-> a = b.
Proof. apply Nat.eqb_eq. Qed.

Lemma erase_remove_one x l : erase x l = remove_one x l.
Proof. induction l as [|y l IH]; cbn; [reflexivity|]. now rewrite IH. Qed.

Lemma mem_In x l : mem x l = true <-> In x l.
Proof.
  unfold mem. rewrite existsb_exists. split.
  - intros (y & I & E). apply Z.eqb_eq in E. now subst.
  - intros I. exists x. split; [assumption|apply Z.eqb_refl].
Qed.

Lemma remove_one_In x y l : In x (remove_one y l) -> In x l.
Proof. induction l as [|z l IH]; cbn; [tauto|]. destruct (y =? z); cbn; tauto. Qed.

Lemma remove_one_nodup x l : NoDup l -> NoDup (remove_one x l) /\ ~ In x (remove_one x l).
Proof.
  induction l as [|y l IH]; cbn; intros N; [split; [constructor|tauto]|]. inversion N; subst.
  destruct (Z.eqb_spec x y).
  - subst. auto.
  - destruct (IH H2) as [I1 I2]. split.
    + constructor; [|assumption]. intros I. apply remove_one_In in I. contradiction.
    + cbn. intros [->|I]; [congruence|contradiction].
Qed.

(** * Runs *)
Lemma erun_app s a b :
  erun s (a ++ b) = let '(s1, t1) := erun s a in let '(s2, t2) := erun s1 b in (s2, t1 ++ t2).
Proof.
  revert s. induction a as [|o a IH]; intros s; cbn [erun app].
  - now destruct (erun s b).
  - destruct (estep o s) as [s1 t1]. rewrite IH. destruct (erun s1 a) as [s2 t2].
    destruct (erun s2 b) as [s3 t3]. now rewrite app_assoc.
Qed.

Lemma subscribers_app t1 t2 i : subscribers (t1 ++ t2) i = fold_left (sub_step i) t2 (subscribers t1 i).
Proof. apply fold_left_app. Qed.

Lemma executed_app k a b : executed k (a ++ b) = executed k a ++ executed k b.
Proof.
  induction a as [|e a IH]; [reflexivity|]. destruct e; cbn; try exact IH.
  destruct (_ =? k)%nat; cbn; now rewrite IH.
Qed.

(** * The invariant, linking a state with the trace that led to it *)
Record EInv (s : em) (tr : list eev) : Prop := {
  v_ev_nodup : NoDup (akeys (e_events s));
  v_ids : forall n i, aget ename_eqb n (e_events s) = Some i <-> aget Z.eqb i (e_ids s) = Some n;
  v_ids_nodup : NoDup (akeys (e_ids s));
  v_range : forall i, (exists n, aget Z.eqb i (e_ids s) = Some n) <-> 1 <= i <= Z.of_nat (length (e_events s));
  v_pre : forall n i, In (n, i) predefined -> aget ename_eqb n (e_events s) = Some i;
  v_query : forall n i, In (EvQuery n i) tr -> aget ename_eqb n (e_events s) = Some i;
  v_known : forall i n, aget Z.eqb i (e_ids s) = Some n -> In (n, i) predefined \/ In (EvQuery n i) tr;
  v_subs : forall i, match aget Z.eqb i (e_subs s) with Some l => l | None => [] end = subscribers tr i;
  v_subs_nodup : forall i, NoDup (subscribers tr i);
  v_calls_nodup : NoDup (akeys (e_calls s));
  v_calls : forall k l, aget Nat.eqb k (e_calls s) = Some l ->
    (k < e_next s)%nat /\ ~ In (EvEnd k) tr /\
    exists i pre post, tr = pre ++ EvEmit k i :: post /\ subscribers pre i = executed k tr ++ l;
  v_live : forall k i, In (EvEmit k i) tr -> In (EvEnd k) tr \/ exists l, aget Nat.eqb k (e_calls s) = Some l;
  v_emits : forall k i, In (EvEmit k i) tr -> (k < e_next s)%nat;
  v_runs : forall k ep, In (EvRun k ep) tr -> (k < e_next s)%nat;
  v_ends : forall k, In (EvEnd k) tr -> (k < e_next s)%nat;
  v_once : forall k i pre post, tr = pre ++ EvEmit k i :: post ->
    executed k pre = [] /\ ~ In (EvEnd k) pre /\ (forall j, ~ In (EvEmit k j) pre) /\ (forall j, ~ In (EvEmit k j) post) /\
    exists rest, subscribers pre i = executed k post ++ rest /\ (In (EvEnd k) post -> rest = []);
}.

Lemma executed_none k tr : (forall ep, ~ In (EvRun k ep) tr) -> executed k tr = [].
Proof.
  induction tr as [|e tr IH]; intros H; [reflexivity|].
  assert (forall ep, ~ In (EvRun k ep) tr) as H' by (intros ep I; apply (H ep); now right).
  destruct e; cbn; auto. destruct (Nat.eqb_spec k0 k); [|auto].
  subst. exfalso. apply (H ep). now left.
Qed.

(** Events that are neither queries, emits, runs, ends nor (un)subscriptions of [i]. *)
Lemma subscribers_snoc tr e i : subscribers (tr ++ [e]) i = sub_step i (subscribers tr i) e.
Proof. rewrite subscribers_app. reflexivity. Qed.

Lemma snoc_split {A} (l : list A) x pre y post :
  l ++ [x] = pre ++ y :: post ->
  (post = [] /\ l = pre /\ x = y) \/ (exists post', post = post' ++ [x] /\ l = pre ++ y :: post').
Proof.
  intros E. destruct post as [|z post] using rev_ind.
  - left. apply app_inj_tail in E. destruct E. auto.
  - right. clear IHpost. rewrite app_comm_cons, app_assoc in E. apply app_inj_tail in E. destruct E as [E1 E2]. subst.
    exists post. auto.
Qed.

Lemma v_once_snoc s tr e :
  EInv s tr ->
  (forall k i, e <> EvEmit k i) ->
  (forall k ep, e = EvRun k ep -> exists l, aget Nat.eqb k (e_calls s) = Some (ep :: l)) ->
  (forall k, e = EvEnd k -> aget Nat.eqb k (e_calls s) = Some []) ->
  forall k i pre post, tr ++ [e] = pre ++ EvEmit k i :: post ->
    executed k pre = [] /\ ~ In (EvEnd k) pre /\ (forall j, ~ In (EvEmit k j) pre) /\ (forall j, ~ In (EvEmit k j) post) /\
    exists rest, subscribers pre i = executed k post ++ rest /\ (In (EvEnd k) post -> rest = []).
Proof.
  intros V NE HR HD k i pre post E. apply snoc_split in E.
  destruct E as [(-> & _ & E)|(post' & -> & E)]; [now apply NE in E|].
  destruct (v_once _ _ V k i pre post' E) as (O1 & O1' & O2 & O3 & rest & O4 & O5).
  split; [assumption|]. split; [assumption|]. split; [assumption|]. split.
  { intros j I. apply in_app_iff in I. destruct I as [I|[I|[]]]; [now apply (O3 j)|now apply NE in I]. }
  rewrite executed_app.
  assert (forall l, aget Nat.eqb k (e_calls s) = Some l -> rest = l /\ ~ In (EvEnd k) post') as C.
  { intros l Hl. destruct (v_calls _ _ V k l Hl) as (_ & ND & i' & pre' & post2 & E' & C).
    assert (pre' = pre /\ i' = i /\ post2 = post') as (-> & -> & ->).
    { rewrite E in E'.
      assert (forall pre pre' post post' i i',
        (forall j, ~ In (EvEmit k j) pre) -> (forall j, ~ In (EvEmit k j) pre') ->
        pre ++ EvEmit k i :: post = pre' ++ EvEmit k i' :: post' -> pre' = pre /\ i' = i /\ post' = post) as X.
      { clear. induction pre as [|x pre IH]; intros [|y pre'] post post' i i' H1 H2 E; cbn in E.
        - injection E as -> ->. auto.
        - injection E as <- E. exfalso. apply (H2 i). now left.
        - injection E as -> E. exfalso. apply (H1 i'). now left.
        - injection E as -> E. destruct (IH pre' post post' i i') as (-> & -> & ->); auto.
          + intros j I. apply (H1 j). now right.
          + intros j I. apply (H2 j). now right. }
      destruct (v_once _ _ V k i' pre' post2) as (_ & _ & P & _); [congruence|].
      apply (X pre pre' post' post2 i i' O2 P E'). }
    split.
    - rewrite E, executed_app in C. cbn in C. rewrite O1 in C. cbn in C. rewrite O4 in C.
      now apply app_inv_head in C.
    - intros I. apply ND. rewrite E. apply in_app_iff. right. now right. }
  destruct e.
  all: try (exists rest; cbn [executed]; rewrite app_nil_r; split; [assumption|]; intros I;
            apply in_app_iff in I; destruct I as [I|[I|[]]]; [auto|discriminate I]).
  - cbn [executed]. destruct (Nat.eqb_spec k0 k).
    + subst k0. destruct (HR k ep eq_refl) as [l Hl]. destruct (C _ Hl) as [-> ND].
      exists l. split; [now rewrite <- app_assoc|]. intros I. exfalso.
      apply in_app_iff in I. destruct I as [I|[I|[]]]; [contradiction|discriminate I].
    + exists rest. rewrite app_nil_r. split; [assumption|]. intros I.
      apply in_app_iff in I. destruct I as [I|[I|[]]]; [auto|discriminate I].
  - exists rest. cbn [executed]. rewrite app_nil_r. split; [assumption|]. intros I.
    apply in_app_iff in I. destruct I as [I|[I|[]]]; [auto|]. injection I as ->.
    specialize (HD k eq_refl). now destruct (C _ HD).
Qed.

(** Weakening of the call facts by one event that is no run or end of them. *)
Lemma calls_snoc tr e k l :
  (forall ep, e <> EvRun k ep) -> e <> EvEnd k ->
  (~ In (EvEnd k) tr /\ exists i pre post, tr = pre ++ EvEmit k i :: post /\ subscribers pre i = executed k tr ++ l) ->
  ~ In (EvEnd k) (tr ++ [e]) /\
  exists i pre post, tr ++ [e] = pre ++ EvEmit k i :: post /\ subscribers pre i = executed k (tr ++ [e]) ++ l.
Proof.
  intros N1 N2 (A & i & pre & post & E & C). split.
  - intros I. apply in_app_iff in I. destruct I as [I|[I|[]]]; [contradiction|congruence].
  - exists i, pre, (post ++ [e]). split; [rewrite E, <- app_assoc; reflexivity|].
    rewrite executed_app. replace (executed k [e]) with (@nil Z); [now rewrite app_nil_r|].
    destruct e; try reflexivity. cbn. destruct (Nat.eqb_spec k0 k); [|reflexivity]. subst. now destruct (N1 ep).
Qed.

Lemma live_snoc tr e k (P : Prop) : In (EvEnd k) tr \/ P -> In (EvEnd k) (tr ++ [e]) \/ P.
Proof. intros [H|H]; [left; apply in_app_iff; auto|auto]. Qed.

Lemma atry_length {K A} (eqb : K -> K -> bool) k (a : A) m :
  aget eqb k m = None -> length (atry eqb k a m) = S (length m).
Proof. intros H. unfold atry. rewrite H, app_length. cbn. lia. Qed.

(** A step that only changes subscriptions, observed as [e]. *)
Lemma inv_subs s tr e subs :
  EInv s tr ->
  match e with EvSub _ _ | EvUnsub _ _ | EvError _ => True | _ => False end ->
  (forall i, match aget Z.eqb i subs with Some l => l | None => [] end = sub_step i (subscribers tr i) e) ->
  (forall i, NoDup (sub_step i (subscribers tr i) e)) ->
  EInv (Em (e_events s) (e_ids s) subs (e_calls s) (e_next s)) (tr ++ [e]).
Proof.
  intros V He HS HN. constructor; cbn [e_events e_ids e_subs e_calls e_next]; try apply V.
  - intros n' i' I. apply in_app_iff in I. destruct I as [I|[I|[]]]; [now apply (v_query _ _ V)|subst; contradiction].
  - intros i' n' H. apply (v_known _ _ V) in H. destruct H as [H|H]; [auto|right; apply in_app_iff; auto].
  - intros j. rewrite subscribers_snoc. apply HS.
  - intros j. rewrite subscribers_snoc. apply HN.
  - intros k l H. destruct (v_calls _ _ V k l H) as (C1 & C2). split; [assumption|].
    apply calls_snoc; [| |assumption]; intros; intros ->; contradiction.
  - intros k j I. apply in_app_iff in I. destruct I as [I|[I|[]]]; [apply live_snoc, (v_live _ _ V _ _ I)|subst; contradiction].
  - intros k j I. apply in_app_iff in I. destruct I as [I|[I|[]]]; [now apply (v_emits _ _ V) in I|subst; contradiction].
  - intros k j I. apply in_app_iff in I. destruct I as [I|[I|[]]]; [now apply (v_runs _ _ V) in I|subst; contradiction].
  - intros k I. apply in_app_iff in I. destruct I as [I|[I|[]]]; [now apply (v_ends _ _ V) in I|subst; contradiction].
  - apply (v_once_snoc s); [assumption| | |]; intros; try intros ->; try subst; contradiction.
Qed.

Lemma em_eta s : s = Em (e_events s) (e_ids s) (e_subs s) (e_calls s) (e_next s).
Proof. now destruct s. Qed.

Lemma inv_error s tr c : EInv s tr -> EInv s (tr ++ [EvError c]).
Proof.
  intros V. rewrite (em_eta s). apply inv_subs; [assumption|exact I|apply V|apply V].
Qed.

(** A step that changes neither names nor calls, and produces a (un)subscription or error. *)
Lemma estep_inv o s tr : EInv s tr -> let '(s', t) := estep o s in EInv s' (tr ++ t).
Proof.
  intros V. destruct o as [n|i p|i p|i|k]; cbn [estep].
  - (* query *)
    assert (forall e, (exists n i, e = EvQuery n i /\ aget ename_eqb n (e_events s) = Some i) \/ e = EvError 1 ->
              EInv s (tr ++ [e])) as Same.
    { intros e He.
      assert (forall i, subscribers (tr ++ [e]) i = subscribers tr i) as SE.
      { intros j. rewrite subscribers_snoc. destruct He as [(? & ? & -> & _)| ->]; reflexivity. }
      constructor; try apply V.
      - intros n' i' I. apply in_app_iff in I. destruct I as [I|[I|[]]]; [now apply (v_query _ _ V)|].
        destruct He as [(m & j & -> & H)| ->]; [now injection I as -> ->|discriminate I].
      - intros i' n' H. apply (v_known _ _ V) in H. destruct H as [H|H]; [auto|right; apply in_app_iff; auto].
      - intros j. rewrite SE. apply V.
      - intros j. rewrite SE. apply V.
      - intros k l H. destruct (v_calls _ _ V k l H) as (C1 & C2). split; [assumption|].
        apply calls_snoc; [| |assumption]; destruct He as [(? & ? & -> & _)| ->]; discriminate.
      - intros k j I. apply in_app_iff in I. destruct I as [I|[I|[]]]; [apply live_snoc, (v_live _ _ V _ _ I)|].
        destruct He as [(? & ? & -> & _)| ->]; discriminate I.
      - intros k j I. apply in_app_iff in I. destruct I as [I|[I|[]]]; [now apply (v_emits _ _ V) in I|].
        destruct He as [(? & ? & -> & _)| ->]; discriminate I.
      - intros k j I. apply in_app_iff in I. destruct I as [I|[I|[]]]; [now apply (v_runs _ _ V) in I|].
        destruct He as [(? & ? & -> & _)| ->]; discriminate I.
      - intros k I. apply in_app_iff in I. destruct I as [I|[I|[]]]; [now apply (v_ends _ _ V) in I|].
        destruct He as [(? & ? & -> & _)| ->]; discriminate I.
      - apply (v_once_snoc s); [assumption| | |]; intros; destruct He as [(? & ? & -> & _)| ->]; discriminate. }
    unfold query. destruct n as [[|c n]|]; [apply Same; auto| |apply Same; auto].
    set (nm := c :: n). destruct (aget ename_eqb nm (e_events s)) as [id|] eqn:E; [apply Same; eauto|].
    set (id := Z.of_nat (length (e_events s)) + 1).
    assert (aget Z.eqb id (e_ids s) = None) as EI.
    { destruct (aget Z.eqb id (e_ids s)) as [m|] eqn:X; [|reflexivity].
      assert (exists n, aget Z.eqb id (e_ids s) = Some n) as Y by eauto. apply (v_range _ _ V) in Y. lia. }
    assert (forall i, subscribers (tr ++ [EvQuery nm id]) i = subscribers tr i) as SE
      by (intros j; rewrite subscribers_snoc; reflexivity).
    constructor; cbn [e_events e_ids e_subs e_calls e_next]; try apply V.
    + apply atry_nodup; [apply ename_eqb_ok|apply V].
    + intros m i. rewrite aget_atry by apply ename_eqb_ok. rewrite aget_atry by apply zeqb_ok.
      pose proof (v_ids _ _ V m i) as X.
      destruct (aget ename_eqb m (e_events s)) as [j|] eqn:E1.
      * destruct (aget Z.eqb i (e_ids s)) as [m'|] eqn:E2; [exact X|].
        split; [intros [= ->]; destruct X as [X _]; specialize (X eq_refl); discriminate X|].
        destruct (Z.eqb_spec i id); [|discriminate]. intros [= <-]. congruence.
      * destruct (aget Z.eqb i (e_ids s)) as [m'|] eqn:E2.
        -- split; [|intros Y; apply X in Y; discriminate Y].
           destruct (eqb_cases ename_eqb ename_eqb_ok m nm) as [[-> _]|[-> _]]; [|discriminate].
           intros [= <-]. congruence.
        -- destruct (eqb_cases ename_eqb ename_eqb_ok m nm) as [[-> ->]|[-> D]].
           ++ split; [intros [= <-]; now rewrite Z.eqb_refl|].
              destruct (Z.eqb_spec i id); [congruence|discriminate].
           ++ split; [discriminate|]. destruct (Z.eqb_spec i id); [congruence|discriminate].
    + apply atry_nodup; [apply zeqb_ok|apply V].
    + intros i. rewrite atry_length by assumption. rewrite Nat2Z.inj_succ.
      pose proof (v_range _ _ V i) as X. split.
      * intros [m H]. rewrite aget_atry in H by apply zeqb_ok.
        destruct (aget Z.eqb i (e_ids s)) as [m'|] eqn:E2.
        -- assert (exists n, Some m' = Some n) as Y by eauto. apply X in Y. lia.
        -- destruct (Z.eqb_spec i id); [|discriminate]. unfold id in *. lia.
      * intros H. rewrite aget_atry by apply zeqb_ok.
        destruct (aget Z.eqb i (e_ids s)) as [m'|] eqn:E2; [eauto|].
        destruct (Z.eqb_spec i id); [eauto|]. exfalso.
        assert (1 <= i <= Z.of_nat (length (e_events s))) as Y by (unfold id in *; lia).
        apply X in Y. destruct Y as [? Y]. discriminate.
    + intros m i H. rewrite aget_atry by apply ename_eqb_ok. now rewrite (v_pre _ _ V m i H).
    + intros m i I. rewrite aget_atry by apply ename_eqb_ok. apply in_app_iff in I. destruct I as [I|[I|[]]].
      * now rewrite (v_query _ _ V m i I).
      * injection I as <- <-. fold nm. rewrite E. now rewrite (Assoc.eqb_refl ename_eqb ename_eqb_ok).
    + intros i m H. rewrite aget_atry in H by apply zeqb_ok.
      destruct (aget Z.eqb i (e_ids s)) as [m'|] eqn:E2.
      * injection H as ->. apply (v_known _ _ V) in E2. destruct E2 as [E2|E2]; [auto|]. right. apply in_app_iff. auto.
      * destruct (Z.eqb_spec i id); [|discriminate]. injection H as <-. subst i. right. apply in_app_iff. right. now left.
    + intros j. rewrite SE. apply V.
    + intros j. rewrite SE. apply V.
    + intros k l H. destruct (v_calls _ _ V k l H) as (C1 & C2). split; [assumption|].
      apply calls_snoc; [discriminate|discriminate|assumption].
    + intros k j I. apply in_app_iff in I. destruct I as [I|[I|[]]]; [apply live_snoc, (v_live _ _ V _ _ I)|discriminate I].
    + intros k j I. apply in_app_iff in I. destruct I as [I|[I|[]]]; [now apply (v_emits _ _ V) in I|discriminate I].
    + intros k j I. apply in_app_iff in I. destruct I as [I|[I|[]]]; [now apply (v_runs _ _ V) in I|discriminate I].
    + intros k I. apply in_app_iff in I. destruct I as [I|[I|[]]]; [now apply (v_ends _ _ V) in I|discriminate I].
    + apply (v_once_snoc s); [assumption|discriminate|discriminate|discriminate].
  - (* subscribe *)
    unfold subscribe. destruct (aget Z.eqb i (e_ids s)) as [n|] eqn:E; [|now apply inv_error].
    assert (forall l, match aget Z.eqb i (e_subs s) with Some l => l | None => [] end = l -> mem p l = false ->
              NoDup (l ++ [p]) /\ l = subscribers tr i) as N.
    { intros l Hl Hm. pose proof (v_subs _ _ V i) as Hs. pose proof (v_subs_nodup _ _ V i) as Hn.
      rewrite Hs in Hl. subst l. split; [|reflexivity]. apply NoDup_snoc; [assumption|].
      intros I. apply mem_In in I. congruence. }
    assert (forall l subs, match aget Z.eqb i (e_subs s) with Some l => l | None => [] end = l -> mem p l = false ->
              (forall j, aget Z.eqb j subs = if j =? i then Some (l ++ [p]) else aget Z.eqb j (e_subs s)) ->
              EInv (Em (e_events s) (e_ids s) subs (e_calls s) (e_next s)) (tr ++ [EvSub i p])) as Done.
    { intros l subs Hl Hm Hg. destruct (N l Hl Hm) as [N1 N2]. apply inv_subs; [assumption|exact I| |].
      - intros j. cbn [sub_step]. rewrite Hg, (Z.eqb_sym i j). destruct (Z.eqb_spec j i); [subst j; now rewrite N2|apply V].
      - intros j. cbn [sub_step]. destruct (Z.eqb_spec i j); [subst j; now rewrite <- N2|apply V]. }
    destruct (aget Z.eqb i (e_subs s)) as [l|] eqn:E2.
    + destruct (mem p l) eqn:Hm; [now apply inv_error|]. apply (Done l); [reflexivity|assumption|].
      intros j. destruct (Z.eqb_spec j i).
      * subst j. apply aget_aset_same, zeqb_ok.
      * apply aget_aset_other; [apply zeqb_ok|assumption].
    + apply (Done []); [reflexivity|reflexivity|]. intros j. rewrite aget_atry by apply zeqb_ok. cbn [app].
      destruct (Z.eqb_spec j i); [subst j; now rewrite E2|now destruct (aget Z.eqb j (e_subs s))].
  - (* unsubscribe *)
    unfold unsubscribe. destruct (aget Z.eqb i (e_ids s)) as [n|] eqn:E; [|now apply inv_error].
    destruct (aget Z.eqb i (e_subs s)) as [l|] eqn:E2; [|now apply inv_error].
    destruct (mem p l) eqn:Hm; [|now apply inv_error].
    pose proof (v_subs _ _ V i) as Hs. rewrite E2 in Hs. pose proof (v_subs_nodup _ _ V i) as Hn.
    apply inv_subs; [assumption|exact I| |].
    + intros j. cbn [sub_step]. destruct (Z.eqb_spec i j).
      * subst j. rewrite aget_aset_same by apply zeqb_ok. rewrite erase_remove_one. now rewrite Hs.
      * rewrite aget_aset_other; [apply V|apply zeqb_ok|congruence].
    + intros j. cbn [sub_step]. destruct (Z.eqb_spec i j); [subst j; now apply remove_one_nodup|apply V].
  - (* emit *)
    unfold emit. destruct (aget Z.eqb i (e_ids s)) as [n|] eqn:E; [|now apply inv_error].
    rewrite (v_subs _ _ V i).
    assert (executed (e_next s) tr = []) as X0.
    { apply executed_none. intros ep I. apply (v_runs _ _ V) in I. lia. }
    assert (forall j, subscribers (tr ++ [EvEmit (e_next s) i]) j = subscribers tr j) as SE
      by (intros j; rewrite subscribers_snoc; reflexivity).
    constructor; cbn [e_events e_ids e_subs e_calls e_next]; try apply V.
    + intros m j I. apply in_app_iff in I. destruct I as [I|[I|[]]]; [now apply (v_query _ _ V)|discriminate I].
    + intros j m H. apply (v_known _ _ V) in H. destruct H as [H|H]; [auto|right; apply in_app_iff; auto].
    + intros j. rewrite SE. apply V.
    + intros j. rewrite SE. apply V.
    + apply aset_nodup; [apply neqb_ok|apply V].
    + intros k l H. destruct (Nat.eq_dec k (e_next s)) as [->|D].
      * rewrite aget_aset_same in H by apply neqb_ok. injection H as <-. split; [lia|]. split.
        -- intros I. apply in_app_iff in I. destruct I as [I|[I|[]]]; [apply (v_ends _ _ V) in I; lia|discriminate I].
        -- exists i, tr, []. split; [reflexivity|]. rewrite executed_app, X0. reflexivity.
      * rewrite aget_aset_other in H; [|apply neqb_ok|assumption].
        destruct (v_calls _ _ V k l H) as (C1 & C2). split; [lia|].
        apply calls_snoc; [discriminate|discriminate|assumption].
    + intros k j I. destruct (Nat.eq_dec k (e_next s)) as [->|D].
      * right. rewrite aget_aset_same by apply neqb_ok. eauto.
      * rewrite aget_aset_other; [|apply neqb_ok|assumption]. apply live_snoc.
        apply in_app_iff in I. destruct I as [I|[I|[]]]; [apply (v_live _ _ V _ _ I)|congruence].
    + intros k j I. apply in_app_iff in I. destruct I as [I|[I|[]]]; [apply (v_emits _ _ V) in I; lia|].
      injection I as <- <-. lia.
    + intros k j I. apply in_app_iff in I. destruct I as [I|[I|[]]]; [apply (v_runs _ _ V) in I; lia|discriminate I].
    + intros k I. apply in_app_iff in I. destruct I as [I|[I|[]]]; [apply (v_ends _ _ V) in I; lia|discriminate I].
    + intros k j pre post E'. apply snoc_split in E'. destruct E' as [(-> & <- & E')|(post' & -> & E')].
      * injection E' as <- <-. split; [assumption|]. split; [intros I; apply (v_ends _ _ V) in I; lia|].
        split; [|split; [tauto|]].
        -- intros j I. apply (v_emits _ _ V) in I. lia.
        -- exists (subscribers tr i). split; [reflexivity|]. intros [].
      * destruct (v_once _ _ V k j pre post' E') as (O1 & O1' & O2 & O3 & rest & O4 & O5).
        split; [assumption|]. split; [assumption|]. split; [assumption|]. split.
        -- intros j' I. apply in_app_iff in I. destruct I as [I|[I|[]]]; [now apply (O3 j')|].
           injection I as EK _. assert (In (EvEmit k j) tr) as I by (rewrite E'; apply in_app_iff; right; now left).
           apply (v_emits _ _ V) in I. lia.
        -- exists rest. rewrite executed_app. cbn [executed]. rewrite app_nil_r. split; [assumption|].
           intros I. apply in_app_iff in I. destruct I as [I|[I|[]]]; [auto|discriminate I].
  - (* next *)
    unfold next. destruct (aget Nat.eqb k (e_calls s)) as [[|ep r]|] eqn:E; [| |now rewrite app_nil_r].
    + (* end *)
      assert (forall j, subscribers (tr ++ [EvEnd k]) j = subscribers tr j) as SE
        by (intros j; rewrite subscribers_snoc; reflexivity).
      constructor; cbn [e_events e_ids e_subs e_calls e_next]; try apply V.
      * intros m j I. apply in_app_iff in I. destruct I as [I|[I|[]]]; [now apply (v_query _ _ V)|discriminate I].
      * intros j m H. apply (v_known _ _ V) in H. destruct H as [H|H]; [auto|right; apply in_app_iff; auto].
      * intros j. rewrite SE. apply V.
      * intros j. rewrite SE. apply V.
      * apply adel_nodup, V.
      * intros k' l H. destruct (Nat.eq_dec k' k) as [->|D].
        -- rewrite aget_adel_same in H; [discriminate H|apply neqb_ok|apply V].
        -- rewrite aget_adel_other in H; [|apply neqb_ok|assumption].
           destruct (v_calls _ _ V k' l H) as (C1 & C2). split; [assumption|].
           apply calls_snoc; [discriminate|congruence|assumption].
      * intros k' j I. apply in_app_iff in I. destruct I as [I|[I|[]]]; [|discriminate I].
        destruct (Nat.eq_dec k' k) as [->|D]; [left; apply in_app_iff; right; now left|].
        rewrite aget_adel_other; [|apply neqb_ok|assumption]. apply live_snoc, (v_live _ _ V _ _ I).
      * intros k' j I. apply in_app_iff in I. destruct I as [I|[I|[]]]; [now apply (v_emits _ _ V) in I|discriminate I].
      * intros k' j I. apply in_app_iff in I. destruct I as [I|[I|[]]]; [now apply (v_runs _ _ V) in I|discriminate I].
      * intros k' I. apply in_app_iff in I. destruct I as [I|[I|[]]]; [now apply (v_ends _ _ V) in I|].
        injection I as <-. now apply (v_calls _ _ V) in E.
      * apply (v_once_snoc s); [assumption|discriminate|discriminate|]. intros k' [= <-]. assumption.
    + (* run *)
      assert (forall j, subscribers (tr ++ [EvRun k ep]) j = subscribers tr j) as SE
        by (intros j; rewrite subscribers_snoc; reflexivity).
      constructor; cbn [e_events e_ids e_subs e_calls e_next]; try apply V.
      * intros m j I. apply in_app_iff in I. destruct I as [I|[I|[]]]; [now apply (v_query _ _ V)|discriminate I].
      * intros j m H. apply (v_known _ _ V) in H. destruct H as [H|H]; [auto|right; apply in_app_iff; auto].
      * intros j. rewrite SE. apply V.
      * intros j. rewrite SE. apply V.
      * apply aset_nodup; [apply neqb_ok|apply V].
      * intros k' l H. destruct (Nat.eq_dec k' k) as [->|D].
        -- rewrite aget_aset_same in H by apply neqb_ok. injection H as <-.
           destruct (v_calls _ _ V k _ E) as (C1 & C2 & i & pre & post & E' & C3). split; [assumption|]. split.
           ++ intros I. apply in_app_iff in I. destruct I as [I|[I|[]]]; [contradiction|discriminate I].
           ++ exists i, pre, (post ++ [EvRun k ep]). split; [rewrite E', <- app_assoc; reflexivity|].
              rewrite executed_app. cbn. rewrite Nat.eqb_refl, C3, <- app_assoc. reflexivity.
        -- rewrite aget_aset_other in H; [|apply neqb_ok|assumption].
           destruct (v_calls _ _ V k' l H) as (C1 & C2). split; [assumption|].
           apply calls_snoc; [congruence|discriminate|assumption].
      * intros k' j I. apply in_app_iff in I. destruct I as [I|[I|[]]]; [|discriminate I].
        destruct (Nat.eq_dec k' k) as [->|D]; [right; rewrite aget_aset_same by apply neqb_ok; eauto|].
        rewrite aget_aset_other; [|apply neqb_ok|assumption]. apply live_snoc, (v_live _ _ V _ _ I).
      * intros k' j I. apply in_app_iff in I. destruct I as [I|[I|[]]]; [now apply (v_emits _ _ V) in I|discriminate I].
      * intros k' j I. apply in_app_iff in I. destruct I as [I|[I|[]]]; [now apply (v_runs _ _ V) in I|].
        injection I as <- <-. now apply (v_calls _ _ V) in E.
      * intros k' I. apply in_app_iff in I. destruct I as [I|[I|[]]]; [now apply (v_ends _ _ V) in I|discriminate I].
      * apply (v_once_snoc s); [assumption|discriminate| |discriminate]. intros k' ep' [= <- <-]. eauto.
Qed.

Lemma em_init_events : e_events em_init = predefined.
Proof. vm_compute. reflexivity. Qed.
Lemma em_init_ids : e_ids em_init = map (fun p => (snd p, fst p)) predefined.
Proof. vm_compute. reflexivity. Qed.

Lemma em_init_inv : EInv em_init [].
Proof.
  assert (NoDup (akeys predefined)) as N1.
  { repeat (constructor; [vm_compute; intuition discriminate|]). constructor. }
  assert (NoDup (akeys (map (fun p => (snd p, fst p)) predefined))) as N2.
  { repeat (constructor; [vm_compute; intuition discriminate|]). constructor. }
  constructor; rewrite ?em_init_events, ?em_init_ids; auto; try (cbn; intros; contradiction).
  - intros n i. split; intros H.
    + apply (aget_In ename_eqb ename_eqb_ok) in H. apply aget_In_nodup; [apply zeqb_ok|assumption|].
      apply (in_map (fun p => (snd p, fst p))) in H. exact H.
    + apply (aget_In Z.eqb zeqb_ok) in H. apply aget_In_nodup; [apply ename_eqb_ok|assumption|].
      apply in_map_iff in H. destruct H as ([n' i'] & E & H). cbn in E. now injection E as -> ->.
  - intros i. split.
    + intros [n H]. apply (aget_In Z.eqb zeqb_ok) in H. apply in_map_iff in H.
      destruct H as ([n' i'] & E & H). cbn in E. injection E as -> ->.
      apply (in_map snd) in H. change (In i [1;2;3;4;5;6;7;8;9;10;11;12;13;14;15;16;17;18;19]) in H.
      change (Z.of_nat (length predefined)) with 19. cbn in H. lia.
    + change (Z.of_nat (length predefined)) with 19. intros H.
      assert (i=1\/i=2\/i=3\/i=4\/i=5\/i=6\/i=7\/i=8\/i=9\/i=10\/i=11\/i=12\/i=13\/i=14\/i=15\/i=16\/i=17\/i=18\/i=19) as D by lia.
      repeat (destruct D as [->|D]; [eexists; vm_compute; reflexivity|]). subst. eexists; vm_compute; reflexivity.
  - intros n i H. now apply aget_In_nodup; [apply ename_eqb_ok| |].
  - intros i n H. left. apply (aget_In Z.eqb zeqb_ok) in H. apply in_map_iff in H.
    destruct H as ([n' i'] & E & H). cbn in E. now injection E as -> ->.
  - intros i. constructor.
  - constructor.
  - intros k l H. discriminate H.
  - intros k i pre post E. now destruct pre.
Qed.

Lemma erun_inv s tr os : EInv s tr -> EInv (fst (erun s os)) (tr ++ snd (erun s os)).
Proof.
  revert s tr. induction os as [|o os IH]; intros s tr V; cbn [erun].
  - cbn. now rewrite app_nil_r.
  - pose proof (estep_inv o s tr V) as H. destruct (estep o s) as [s1 t1].
    specialize (IH s1 _ H). destruct (erun s1 os) as [s2 t2]. cbn in *. now rewrite app_assoc.
Qed.

Lemma reach_inv os : EInv (fst (erun em_init os)) (etrace os).
Proof. apply (erun_inv _ [] os em_init_inv). Qed.

(** * Store and Restore *)
Lemma ids_of_acc (ev : list (ename * Z)) (acc : list (Z * ename)) i :
  aget Z.eqb i (fold_left (fun m p => atry Z.eqb (snd p) (fst p) m) ev acc) =
  match aget (A := ename) Z.eqb i acc with
  | Some n => Some n
  | None => aget Z.eqb i (map (fun p => (snd p, fst p)) ev)
  end.
Proof.
  revert acc. induction ev as [|[n j] ev IH]; intros acc; cbn [fold_left map aget fst snd].
  - now destruct (aget Z.eqb i acc).
  - rewrite IH, aget_atry by apply zeqb_ok. destruct (aget Z.eqb i acc); [reflexivity|].
    now destruct (i =? j).
Qed.

Lemma ids_of_get s tr i : EInv s tr -> aget Z.eqb i (ids_of (e_events s)) = aget Z.eqb i (e_ids s).
Proof.
  intros V. unfold ids_of. rewrite ids_of_acc. cbn [aget].
  destruct (aget Z.eqb i (map _ (e_events s))) as [n|] eqn:E.
  - apply (aget_In Z.eqb zeqb_ok) in E. apply in_map_iff in E. destruct E as ([n' i'] & E & H).
    cbn in E. injection E as -> ->. symmetry. apply (v_ids _ _ V).
    apply aget_In_nodup; [apply ename_eqb_ok|apply V|assumption].
  - destruct (aget Z.eqb i (e_ids s)) as [n|] eqn:E2; [|reflexivity].
    apply (v_ids _ _ V) in E2. apply (aget_In ename_eqb ename_eqb_ok) in E2.
    apply (in_map (fun p => (snd p, fst p))) in E2. cbn in E2.
    apply (aget_None Z.eqb zeqb_ok) in E. exfalso. apply E. now apply (in_map fst) in E2.
Qed.

Record same (s s' : em) : Prop := {
  q_events : e_events s' = e_events s;
  q_subs : e_subs s' = e_subs s;
  q_calls : e_calls s' = e_calls s;
  q_next : e_next s' = e_next s;
  q_ids : forall i, aget Z.eqb i (e_ids s') = aget Z.eqb i (e_ids s);
}.

Lemma same_step o s s' : same s s' ->
  same (fst (estep o s)) (fst (estep o s')) /\ snd (estep o s') = snd (estep o s).
Proof.
  intros [E1 E2 E3 E4 E5]. destruct o as [n|i p|i p|i|k]; cbn [estep].
  - unfold query. destruct n as [[|c n]|]; [split; [constructor; auto|reflexivity]| |split; [constructor; auto|reflexivity]].
    rewrite E1. destruct (aget ename_eqb (c :: n) (e_events s)); [split; [constructor; auto|reflexivity]|].
    cbn. split; [constructor; cbn; auto; try congruence|reflexivity].
    intros i. rewrite !aget_atry by apply zeqb_ok. now rewrite E5.
  - unfold subscribe. rewrite E5, E2. destruct (aget Z.eqb i (e_ids s)); [|split; [constructor; auto|reflexivity]].
    destruct (aget Z.eqb i (e_subs s)); [destruct (mem p l)|]; (split; [constructor; cbn; auto|reflexivity]).
  - unfold unsubscribe. rewrite E5, E2. destruct (aget Z.eqb i (e_ids s)); [|split; [constructor; auto|reflexivity]].
    destruct (aget Z.eqb i (e_subs s)); [destruct (mem p l)|]; (split; [constructor; cbn; auto|reflexivity]).
  - unfold emit. rewrite E5, E2, E3, E4. destruct (aget Z.eqb i (e_ids s)); (split; [constructor; cbn; auto|reflexivity]).
  - unfold next. rewrite E3. destruct (aget Nat.eqb k (e_calls s)) as [[|]|]; (split; [constructor; cbn; auto|reflexivity]).
Qed.

Lemma same_run os s s' : same s s' -> snd (erun s' os) = snd (erun s os).
Proof.
  revert s s'. induction os as [|o os IH]; intros s s' Q; [reflexivity|].
  cbn [erun]. destruct (same_step o s s' Q) as [Q' E].
  destruct (estep o s) as [s1 t1], (estep o s') as [s1' t1']. cbn in Q', E. specialize (IH _ _ Q').
  destruct (erun s1 os) as [s2 t2], (erun s1' os) as [s2' t2']. cbn in *. congruence.
Qed.
