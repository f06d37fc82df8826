(** Theorems about the services used by several threads: C90 (link registry), C91 (event
    manager). *)
From Verif Require Import Base Assoc Text UuidModel EventModel LinkModel.
From Verif Require Import ConcSpec ConcModel ConcProofs ConcEvent.

(** The history of the calls made on a new link registry, for a schedule of the threads. *)
Definition link_history name sch : lhist := l_hist (lrun_conc name l_init sch).
Definition event_history sch : chist := s_hist (erun_conc s_init sch).

(** C90: whatever the threads do, the answers of GetLinkCount and RemoveLink are those of
    some order of the calls made one at a time, compatible with their duration.  Any number
    of threads, any schedule, fewer than 2^32 calls. *)
Theorem C90_counts : forall name sch, Z.of_nat (begun sch) < 2 ^ 32 ->
  exists L, explains counts_ok (link_history name sch) L.
Proof.
  intros name sch B. destruct (lrun_counts name sch B) as [K _]. eexists. exact (k_expl _ _ _ _ _ _ _ K).
Qed.

(** All the answers, including those of GetLinkSources and the absence of exceptions, when
    no RemoveLink overlaps an AddLink of the same two components or a GetLinkSources of the
    same target, and the sources of one target have different names. *)
Theorem C90_sources_partial : forall name sch, Z.of_nat (begun sch) < 2 ^ 32 ->
  undisturbed (link_history name sch) -> distinct_sources name (link_history name sch) ->
  exists L, explains links_ok (link_history name sch) L.
Proof.
  intros name sch B U D. destruct (lrun_sources name sch B U D) as (K & _). eexists. exact (k_expl _ _ _ _ _ _ _ K).
Qed.

(** No deadlock: every call in progress can be brought to its end, whatever the others do. *)
Theorem C90_calls_return : forall name sch, Z.of_nat (begun sch) < 2 ^ 32 ->
  exists ks, quiet (link_history name (sch ++ map Run ks)).
Proof.
  intros name sch B. destruct (lfinish name _ sch B (le_n _)) as (ks & F). exists ks.
  apply (lquiet counts_ok); [|exact F]. apply lrun_counts.
  assert (E : begun (sch ++ map Run ks) = begun sch).
  { unfold begun. rewrite filter_app, app_length.
    replace (filter is_begin (map Run ks)) with (@nil (sstep lop)); [cbn; lia|]. clear. induction ks; cbn; auto. }
  now rewrite E.
Qed.

(** A RemoveLink that has erased the last link of a pair and not yet removed the source
    from the collection, and an AddLink of the same pair: the AddLink throws DuplicateName,
    and afterwards the pair has one link while the target has no source. *)
Definition race_add_remove : list (sstep lop) :=
  [Begin (LAdd 1 9); Run 0; Run 0; Run 0;
   Begin (LRemove 1 9); Run 1;
   Begin (LAdd 1 9); Run 2; Run 2; Run 2;
   Run 1; Run 1;
   Begin (LGetCount 1 9); Run 3; Run 3; Begin (LGetSources 9); Run 4; Run 4]%nat.

Theorem C90_sources_refuted : exists name sch,
  distinct_sources name (link_history name sch) /\ Z.of_nat (begun sch) < 2 ^ 32 /\
  link_history name sch =
    [Inv 0 (LAdd 1 9); Ret 0 LDone;
     Inv 1 (LRemove 1 9);
     Inv 2 (LAdd 1 9); Ret 2 LDuplicate;
     Ret 1 (LBool true);
     Inv 3 (LGetCount 1 9); Ret 3 (LCount 1);
     Inv 4 (LGetSources 9); Ret 4 (LSources [])]%nat /\
  forall L, ~ explains links_ok (link_history name sch) L.
Proof.
  exists (fun c => [c]), race_add_remove.
  assert (E : link_history (fun c => [c]) race_add_remove =
    [Inv 0 (LAdd 1 9); Ret 0 LDone; Inv 1 (LRemove 1 9); Inv 2 (LAdd 1 9); Ret 2 LDuplicate; Ret 1 (LBool true);
     Inv 3 (LGetCount 1 9); Ret 3 (LCount 1); Inv 4 (LGetSources 9); Ret 4 (LSources [])]%nat) by reflexivity.
  rewrite E. split; [|split; [|split]].
  - intros i j a b t _ _ X. now injection X.
  - reflexivity.
  - reflexivity.
  - intros L X. destruct (x_returned _ _ _ X 2%nat LDuplicate) as (o & D); [cbn; tauto|].
    pose proof (x_begun _ _ _ X _ _ _ D) as I. cbn in I.
    apply in_split in D. destruct D as (L1 & L2 & D). pose proof (x_result _ _ _ X _ _ _ _ _ D) as R.
    assert (o = LAdd 1 9) as ->.
    { repeat (destruct I as [I|I]; [try discriminate; try (now injection I as <-)|]). destruct I. }
    discriminate R.
Qed.

Lemma links_of_app L M s t : links_of (L ++ M) s t = links_of L s t + links_of M s t.
Proof.
  induction M as [|c M IH] using rev_ind; [rewrite app_nil_r; cbn; lia|].
  rewrite app_assoc, !links_of_snoc, IH. lia.
Qed.

Lemma no_add L s t : (forall k o x, In (k, o, x) L -> o <> LAdd s t) -> links_of L s t <= 0.
Proof.
  induction L as [|[[k o] x] L IH] using rev_ind; intros H; [cbn; lia|].
  rewrite links_of_snoc. assert (links_of L s t <= 0) by (apply IH; intros; apply (H k0 o0 x0); rewrite in_app_iff; auto).
  assert (o <> LAdd s t) by (apply (H k o x); rewrite in_app_iff; right; now left).
  destruct o as [a b|a b|a b|b]; cbn [delta]; try lia.
  - destruct (Z.eqb_spec a s) as [->|], (Z.eqb_spec b t) as [->|]; cbn; try lia. congruence.
  - destruct x as [| |[|]| |]; try lia. destruct ((a =? s) && (b =? t)); lia.
Qed.

(** While RemoveLink is in progress, another thread reads the count 0 and then the source
    in the collection: no order of the calls explains it. *)
Theorem C90_removal_refuted : exists name sch,
  link_history name sch =
    [Inv 0 (LAdd 1 9); Ret 0 LDone;
     Inv 1 (LRemove 1 9);
     Inv 2 (LGetCount 1 9); Ret 2 (LCount 0);
     Inv 3 (LGetSources 9); Ret 3 (LSources [1%Z]);
     Ret 1 (LBool true)]%nat /\
  forall L, ~ explains links_ok (link_history name sch) L.
Proof.
  exists (fun c => [c]),
    [Begin (LAdd 1 9); Run 0; Run 0; Run 0; Begin (LRemove 1 9); Run 1;
     Begin (LGetCount 1 9); Run 2; Run 2; Begin (LGetSources 9); Run 3; Run 3; Run 1; Run 1]%nat.
  match goal with |- ?h = ?l /\ _ => assert (E : h = l) by reflexivity end. rewrite E. clear E. split; [reflexivity|].
  match goal with |- forall L, ~ explains _ ?l _ => set (tr := l) end.
  intros L X.
  assert (U : forall k o, In (Inv k o) tr ->
     o = match k with 0 => LAdd 1 9 | 1 => LRemove 1 9 | 2 => LGetCount 1 9 | _ => LGetSources 9 end%nat).
  { intros k o I. cbn in I. repeat (destruct I as [I|I]; [try discriminate; try (injection I as <- <-; reflexivity)|]). destruct I. }
  destruct (x_returned _ _ _ X 3%nat (LSources [1%Z])) as (o3 & D3); [cbn; tauto|].
  pose proof (U _ _ (x_begun _ _ _ X _ _ _ D3)) as ->.
  apply in_split in D3. destruct D3 as (A & B & E).
  pose proof (x_result _ _ _ X _ _ _ _ _ E) as (l & El & _ & R). injection El as <-.
  assert (B23 : before tr 2 3).
  { exists [Inv 0 (LAdd 1 9); Ret 0 LDone; Inv 1 (LRemove 1 9); Inv 2 (LGetCount 1 9)]%nat, (LCount 0), [], (LGetSources 9),
      [Ret 3 (LSources [1%Z]); Ret 1 (LBool true)]%nat. reflexivity. }
  destruct (x_order _ _ _ X _ _ _ _ _ _ B23 E) as (o2 & x2 & D2).
  apply in_split in D2. destruct D2 as (A1 & A2 & ->). rewrite <- app_assoc in E. cbn [app] in E.
  pose proof (x_result _ _ _ X _ _ _ _ _ E) as R2.
  assert (I2 : In (2%nat, o2, x2) L) by (rewrite E, in_app_iff; right; now left).
  pose proof (U _ _ (x_begun _ _ _ X _ _ _ I2)) as ->.
  assert (x2 = LCount 0) as ->.
  { destruct (x_returned _ _ _ X 2%nat (LCount 0)) as (o & D); [cbn; tauto|].
    pose proof (x_once _ _ _ X) as N. rewrite E, map_app in N. cbn [map fst] in N. apply NoDup_remove_2 in N.
    rewrite E, in_app_iff in D. destruct D as [D|[D|D]].
    - exfalso. apply N. rewrite in_app_iff. left. apply in_map_iff. now exists (2%nat, o, LCount 0).
    - congruence.
    - exfalso. apply N. rewrite in_app_iff. right. apply in_map_iff. now exists (2%nat, o, LCount 0). }
  cbn in R2. injection R2 as R2.
  assert (B02 : before tr 0 2).
  { exists [Inv 0 (LAdd 1 9)]%nat, LDone, [Inv 1 (LRemove 1 9)]%nat, (LGetCount 1 9),
      [Ret 2 (LCount 0); Inv 3 (LGetSources 9); Ret 3 (LSources [1%Z]); Ret 1 (LBool true)]%nat. reflexivity. }
  destruct (x_order _ _ _ X _ _ _ _ _ _ B02 E) as (o0 & x0 & D0).
  assert (P : 0 < links_of (A1 ++ (2%nat, LGetCount 1 9, LCount 0) :: A2) 1 9) by (apply R; now left).
  rewrite links_of_app in P. cbn [links_of] in P.
  assert (Q : links_of A2 1 9 <= 0); [|lia].
  apply no_add. intros k o x I ->.
  assert (I' : In (k, LAdd 1 9, x) L).
  { rewrite E, in_app_iff. right. right. rewrite in_app_iff. now left. }
  pose proof (U _ _ (x_begun _ _ _ X _ _ _ I')) as K.
  assert (k = 0%nat) as -> by (destruct k as [|[|[|k]]]; congruence).
  pose proof (x_once _ _ _ X) as N. apply in_split in D0. destruct D0 as (B1 & B2 & ->).
  rewrite E, <- app_assoc in N. cbn [app] in N. rewrite map_app in N. cbn [map fst] in N. apply NoDup_remove_2 in N.
  apply N. rewrite in_app_iff. right. apply in_map_iff. exists (0%nat, LAdd 1 9, x). split; [reflexivity|].
  rewrite in_app_iff. right. right. rewrite in_app_iff. now left.
Qed.

(** The hypotheses of C90_sources_partial are met by a history with overlapping calls. *)
Definition busy_links : list (sstep lop) :=
  [Begin (LAdd 1 9); Begin (LAdd 1 9); Begin (LAdd 2 9); Begin (LGetSources 9); Run 0; Run 1; Run 3; Run 0; Run 1; Run 0;
   Run 2; Run 3; Run 3; Run 1; Run 2; Run 2;
   Begin (LRemove 1 9); Begin (LRemove 1 9); Begin (LAdd 3 9); Run 4; Run 5; Run 6; Run 6; Run 6; Run 5; Run 4; Run 5;
   Begin (LGetSources 9); Run 7; Run 7]%nat.

Example C90_witness :
  link_history (fun c => [c]) busy_links =
    [Inv 0 (LAdd 1 9); Inv 1 (LAdd 1 9); Inv 2 (LAdd 2 9); Inv 3 (LGetSources 9);
     Ret 0 LDone; Ret 3 (LSources [1%Z]); Ret 1 LDone; Ret 2 LDone;
     Inv 4 (LRemove 1 9); Inv 5 (LRemove 1 9); Inv 6 (LAdd 3 9); Ret 6 LDone; Ret 4 (LBool true); Ret 5 (LBool true);
     Inv 7 (LGetSources 9); Ret 7 (LSources [2%Z; 3%Z])]%nat /\
  undisturbed (link_history (fun c => [c]) busy_links) /\
  distinct_sources (fun c => [c]) (link_history (fun c => [c]) busy_links) /\
  Z.of_nat (begun busy_links) < 2 ^ 32.
Proof.
  split; [reflexivity|]. split; [|split].
  - apply undisturbed_decide. vm_compute. reflexivity.
  - intros i j a b t _ _ X. now injection X.
  - reflexivity.
Qed.

(** C91: whatever the threads do, the answers of the event manager, and the entry points
    executed by Emit, are those of some order of the calls made one at a time, except that a
    call that uses an event while the first query of a name is in progress may be told
    InvalidEventId. *)
Theorem C91_order_partial : forall sch,
  exists L, explains event_result_or_hurried (event_history sch) L.
Proof. intros sch. eexists. exact (k_expl _ _ _ _ _ _ _ (v_calls _ (erun_conc_inv sch))). Qed.

(** Without such a call, all answers are explained. *)
Theorem C91_unhurried_partial : forall sch,
  (forall k o, ~ hurried (event_history sch) k o) ->
  exists L, explains event_result (event_history sch) L.
Proof.
  intros sch H. destruct (C91_order_partial sch) as (L & X). exists L.
  apply (explains_weaken event_result_or_hurried); [|exact X].
  intros L1 k o x _ [R|[_ R]]; [exact R|now apply H in R].
Qed.

(** The same identifier is returned exactly for the same name, whatever the schedule. *)
Theorem C91_identifiers : forall sch i j n m a b,
  In (Inv i (CQuery (Some n))) (event_history sch) -> In (Ret i (CId a)) (event_history sch) ->
  In (Inv j (CQuery (Some m))) (event_history sch) -> In (Ret j (CId b)) (event_history sch) ->
  a = b <-> n = m.
Proof.
  intros sch i j n m a b I1 R1 I2 R2. pose proof (erun_conc_inv sch) as V. pose proof (v_calls _ V) as K.
  assert (F : forall k q, In (Inv k (CQuery (Some q))) (event_history sch) ->
    forall o, In (Inv k o) (event_history sch) -> o = CQuery (Some q))
    by (intros k q J o J'; now apply (k_fun _ _ _ _ _ _ _ K k)).
  destruct (query_index _ _ _ _ _ (k_expl _ _ _ _ _ _ _ K) I1 R1 (F _ _ I1)) as [N1 ->].
  destruct (query_index _ _ _ _ _ (k_expl _ _ _ _ _ _ _ K) I2 R2 (F _ _ I2)) as [N2 ->].
  split; [now apply index_of_inj|now intros ->].
Qed.

(** Every call can be brought to its end, whatever the others do. *)
Theorem C91_calls_return : forall sch, exists ks, quiet (event_history (sch ++ map Run ks)).
Proof.
  intros sch. destruct (efinish _ sch (le_n _)) as (ks & F). exists ks. apply equiet; [apply erun_conc_inv|exact F].
Qed.

(** Two threads query the same new name; the second one gets the identifier, subscribes, and
    is told that the identifier is not valid: no order of the calls explains it. *)
Definition race_query : list (sstep cop) :=
  [Begin (CQuery (Some (codes "E"))); Run 0;
   Begin (CQuery (Some (codes "E"))); Run 1; Run 1;
   Begin (CSub 20 5); Run 2; Run 2;
   Run 0; Run 0]%nat.

Theorem C91_order_refuted : exists sch,
  event_history sch =
    [Inv 0 (CQuery (Some (codes "E")));
     Inv 1 (CQuery (Some (codes "E"))); Ret 1 (CId 20);
     Inv 2 (CSub 20 5); Ret 2 (CError 2);
     Ret 0 (CId 20)]%nat /\
  forall L, ~ explains event_result (event_history sch) L.
Proof.
  exists race_query. match goal with |- ?h = ?l /\ _ => assert (E : h = l) by (vm_compute; reflexivity) end.
  rewrite E. clear E. split; [reflexivity|].
  match goal with |- forall L, ~ explains _ ?l _ => set (tr := l) end.
  intros L X.
  assert (U : forall k o, In (Inv k o) tr ->
     o = match k with 2 => CSub 20 5 | _ => CQuery (Some (codes "E")) end%nat).
  { intros k o I. unfold tr in I. cbn [In] in I.
    repeat (destruct I as [I|I]; [try discriminate I; try (injection I as <- <-; reflexivity)|]). destruct I. }
  destruct (x_returned _ _ _ X 2%nat (CError 2)) as (o & D); [unfold tr; cbn [In]; tauto|].
  pose proof (U _ _ (x_begun _ _ _ X _ _ _ D)) as ->.
  apply in_split in D. destruct D as (A & B & E).
  pose proof (x_result _ _ _ X _ _ _ _ _ E) as R. unfold event_result in R. cbn [event_answer] in R.
  assert (B12 : before tr 1 2).
  { exists [Inv 0 (CQuery (Some (codes "E"))); Inv 1 (CQuery (Some (codes "E")))]%nat, (CId 20), [], (CSub 20 5),
      [Ret 2 (CError 2); Ret 0 (CId 20)]%nat. reflexivity. }
  destruct (x_order _ _ _ X _ _ _ _ _ _ B12 E) as (o1 & x1 & D1).
  assert (I1 : In (1%nat, o1, x1) L) by (rewrite E, in_app_iff; now left).
  pose proof (U _ _ (x_begun _ _ _ X _ _ _ I1)) as ->.
  assert (N : In (codes "E") (names A)) by (now apply (in_names A 1%nat (codes "E") x1); [discriminate|]).
  assert (V : valid_id A 20 = true).
  { unfold valid_id. rewrite andb_true_iff, !Z.leb_le. split; [lia|].
    destruct (names_prefix [] A) as (t & T). change ([] ++ A) with A in T. rewrite T in *.
    rewrite app_length. change (length (names [])) with 19%nat.
    destruct t as [|y t]; [|cbn [length]; lia]. exfalso. rewrite app_nil_r in N. apply has_In in N. vm_compute in N. discriminate N. }
  rewrite V in R. cbn [negb] in R. destruct (mem 5 (subscribers A 20)); discriminate R.
Qed.

(** A history with overlapping calls and no hurried one. *)
Definition busy_events : list (sstep cop) :=
  [Begin (CQuery (Some (codes "E"))); Begin (CQuery (Some (codes "F"))); Begin (CSub 6 1); Run 0; Run 2; Run 1; Run 1; Run 0;
   Run 2; Run 0; Run 1; Run 2;
   Begin (CSub 20 7); Begin (CSub 20 8); Begin (CQuery (Some (codes "E"))); Run 4; Run 3; Run 4; Run 3; Run 4; Run 3; Run 5; Run 5;
   Begin (CEmit 20); Begin (CUnsub 20 8); Run 6; Run 6; Run 7; Run 7; Run 7; Run 6; Run 6; Run 6; Run 6]%nat.

Example C91_witness :
  event_history busy_events =
    [Inv 0 (CQuery (Some (codes "E"))); Inv 1 (CQuery (Some (codes "F"))); Inv 2 (CSub 6 1);
     Ret 0 (CId 20); Ret 1 (CId 21); Ret 2 CDone;
     Inv 3 (CSub 20 7); Inv 4 (CSub 20 8); Inv 5 (CQuery (Some (codes "E")));
     Ret 4 CDone; Ret 3 CDone; Ret 5 (CId 20);
     Inv 6 (CEmit 20); Inv 7 (CUnsub 20 8); Ret 7 CDone; Ret 6 (CRan [8%Z; 7%Z])]%nat /\
  forall k o, ~ hurried (event_history busy_events) k o.
Proof.
  split; [vm_compute; reflexivity|]. apply hurried_decide. vm_compute. reflexivity.
Qed.

Print Assumptions C90_sources_partial.
Print Assumptions C91_order_partial.
