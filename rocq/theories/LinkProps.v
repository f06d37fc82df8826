(** Theorems about the link registry: C23, C24, C57, C58. *)
From Verif Require Import Base Assoc UuidModel EventModel EventProofs LinkModel LinkSpec LinkProofs.

(** C23: GetLinkCount(s,t) is the number of AddLink(s,t) minus the number of successful
    RemoveLink(s,t); RemoveLink succeeds exactly when that number is not zero; the number
    is never negative.  Every history in which no pair has 2^32 links at once. *)
Theorem C23_counts_are_exact_partial : forall name os s t, bounded_links name os ->
  ltrace name (os ++ [LGetCount s t]) = ltrace name os ++ [(LGetCount s t, LCount (balance (ltrace name os) s t))] /\
  ltrace name (os ++ [LRemove s t]) = ltrace name os ++ [(LRemove s t, LBool (negb (balance (ltrace name os) s t =? 0)))] /\
  0 <= balance (ltrace name os) s t.
Proof.
  intros name os s t B. pose proof (reach_linv name os B) as V.
  rewrite !(proj2 (lrun_snoc name os _)). split; [|split].
  - do 3 f_equal. cbn [lstep snd]. f_equal. unfold link_count. rewrite (k_links _ _ V).
    destruct (Z.eqb_spec (balance (ltrace name os) s t) 0); congruence.
  - do 3 f_equal. cbn [lstep]. unfold remove_link. rewrite (k_links _ _ V).
    destruct (Z.eqb_spec (balance (ltrace name os) s t) 0); [reflexivity|].
    now destruct (_ =? 0).
  - apply V.
Qed.

(** The bound cannot be dropped: the 32-bit count wraps around, and 2^32 links are
    reported as none. *)
Theorem C23_counts_are_exact_refuted : forall name, exists os s t,
  balance (ltrace name os) s t = 2 ^ 32 /\
  ltrace name (os ++ [LGetCount s t]) = ltrace name os ++ [(LGetCount s t, LCount 0)].
Proof.
  intros name. exists (repeat (LAdd 1 2) (Z.to_nat u32)), 1, 2.
  destruct (adds_state name (Z.to_nat u32)) as (E1 & E2 & _).
  rewrite Z2Nat.id in E1, E2 by (unfold u32; lia). split; [exact E2|].
  rewrite (proj2 (lrun_snoc name _ _)). cbn [lstep snd]. rewrite E1. reflexivity.
Qed.

Example C23_witness :
  bounded_links (fun c => [c]) [LAdd 1 9; LAdd 1 9; LAdd 2 9; LRemove 1 9; LRemove 3 9; LGetCount 1 9; LRemove 1 9; LGetCount 1 9] /\
  map snd (ltrace (fun c => [c]) [LAdd 1 9; LAdd 1 9; LAdd 2 9; LRemove 1 9; LRemove 3 9; LGetCount 1 9; LRemove 1 9; LGetCount 1 9])
  = [LDone; LDone; LDone; LBool true; LBool false; LCount 1; LBool true; LCount 0].
Proof. split; [apply bounded_short; reflexivity|reflexivity]. Qed.

(** C24: GetLinkSources(t) lists, without repetition, exactly the components with at
    least one link to t, and AddLink never fails.  Every history in which the sources of
    a same target have different names. *)
Theorem C24_sources_are_exact_partial : forall name os t, bounded_links name os -> distinct_names name os ->
  (exists l, ltrace name (os ++ [LGetSources t]) = ltrace name os ++ [(LGetSources t, LSources l)] /\
     NoDup l /\ forall s, In s l <-> 0 < balance (ltrace name os) s t) /\
  (forall s, ~ In (LAdd s t, LDuplicate) (ltrace name os)).
Proof.
  intros name os t B D. destruct (reach_sinv name os B D) as [V N]. split.
  - destruct (V t) as [V1 V2]. exists (coll_of t (fst (lrun name reg_init os))). split; [|auto].
    rewrite (proj2 (lrun_snoc name os _)). do 3 f_equal. cbn [lstep]. unfold link_sources, coll_of.
    now destruct (aget Z.eqb t _).
  - intros s I. apply N. apply (in_map snd) in I. exact I.
Qed.

(** Two sources with the same name: AddLink throws but has counted the link, and the
    second source is missing from the sources although its link count is one. *)
Theorem C24_sources_are_exact_refuted : exists name os s t,
  bounded_links name os /\
  0 < balance (ltrace name os) s t /\
  (exists l, ltrace name (os ++ [LGetSources t]) = ltrace name os ++ [(LGetSources t, LSources l)] /\ ~ In s l) /\
  ltrace name (os ++ [LGetCount s t]) = ltrace name os ++ [(LGetCount s t, LCount 1)] /\
  In (LAdd s t, LDuplicate) (ltrace name os).
Proof.
  exists (fun _ => []), [LAdd 1 9; LAdd 2 9], 2, 9. split; [apply bounded_short; reflexivity|].
  split; [reflexivity|]. split; [exists [1]; split; [reflexivity|cbn; lia]|]. split; [reflexivity|cbn; auto].
Qed.

Example C24_witness :
  distinct_names (fun c => [c]) [LAdd 1 9; LAdd 2 9; LAdd 1 8; LRemove 1 9] /\
  ltrace (fun c => [c]) ([LAdd 1 9; LAdd 2 9; LAdd 1 8; LRemove 1 9] ++ [LGetSources 9])
  = ltrace (fun c => [c]) [LAdd 1 9; LAdd 2 9; LAdd 1 8; LRemove 1 9] ++ [(LGetSources 9, LSources [2])].
Proof. split; [intros a b t _ _ [= E]; exact E|reflexivity]. Qed.

(** C57: RemoveLinks(t) asks every linking source of t to remove its links.  Proved for
    sources whose RemoveLinks does not itself change the registry's links to t (which is
    the case of Xsmp::Component::RemoveLinks, Component.cpp:186-202); the sources
    registered remain registered. *)
Theorem C57_every_linking_source_is_asked_partial : forall name linking behave os t,
  let r := fst (lrun name reg_init os) in
  (forall c, In c (coll_of t r) -> linking c = true -> Forall (spares t) (behave c)) ->
  snd (remove_links name linking behave t r) = filter linking (coll_of t r) /\
  coll_of t (fst (remove_links name linking behave t r)) = coll_of t r.
Proof. intros. now apply remove_links_spared. Qed.

(** When each source removes its own link from the registry, every other source is
    skipped and keeps its link: any history, any number of sources. *)
Theorem C57_every_other_source_is_skipped : forall name linking os t,
  bounded_links name os -> distinct_names name os ->
  let r := fst (lrun name reg_init os) in
  (forall c, In c (coll_of t r) -> linking c = true /\ balance (ltrace name os) c t = 1) ->
  snd (remove_links name linking (fun c => [LRemove c t]) t r) = evens (coll_of t r) /\
  coll_of t (fst (remove_links name linking (fun c => [LRemove c t]) t r)) = odds (coll_of t r).
Proof.
  intros name linking os t B D r H. pose proof (reach_linv name os B) as V.
  destruct (reach_sinv name os B D) as [SV _]. apply remove_links_alternate; [apply V|apply SV|].
  intros c I. destruct (H c I) as [H1 H2]. split; [assumption|]. unfold link_count. fold r in V.
  rewrite (k_links _ _ V), H2. reflexivity.
Qed.

Theorem C57_every_linking_source_is_asked_refuted : exists name linking behave os t s,
  let r := fst (lrun name reg_init os) in
  bounded_links name os /\ distinct_names name os /\
  In s (coll_of t r) /\ linking s = true /\
  (forall c, behave c = [LRemove c t]) /\
  ~ In s (snd (remove_links name linking behave t r)) /\
  link_count s t (fst (remove_links name linking behave t r)) = 1.
Proof.
  exists (fun c => [c]), (fun _ => true), (fun c => [LRemove c 9]), [LAdd 1 9; LAdd 2 9], 9, 2. cbn zeta.
  split; [apply bounded_short; reflexivity|].
  split; [intros a b t _ _ [= E]; exact E|].
  split; [cbn; auto|]. split; [reflexivity|]. split; [reflexivity|].
  split; [cbn; lia|reflexivity].
Qed.

Example C57_witness :
  let r := fst (lrun (fun c => [c]) reg_init [LAdd 1 9; LAdd 2 9; LAdd 3 9; LAdd 4 8]) in
  snd (remove_links (fun c => [c]) (fun c => negb (c =? 2)) (fun c => [LRemove c 8]) 9 r) = [1; 3] /\
  snd (remove_links (fun c => [c]) (fun _ => true) (fun c => [LRemove c 9]) 9 r) = [1; 3].
Proof. split; reflexivity. Qed.

(** C58: CanRemove(t) is true exactly when every component with a link to t implements
    ILinkingComponent. *)
Theorem C58_can_remove_partial : forall name linking os t, bounded_links name os -> distinct_names name os ->
  can_remove linking t (fst (lrun name reg_init os)) = true <->
  (forall s, 0 < balance (ltrace name os) s t -> linking s = true).
Proof.
  intros name linking os t B D. destruct (reach_sinv name os B D) as [V _]. destruct (V t) as [_ V2].
  unfold can_remove. rewrite forallb_forall. split; intros H s; [rewrite <- V2|rewrite V2]; apply H.
Qed.

(** With two sources of the same name it answers true although the second one cannot
    remove its link. *)
Theorem C58_can_remove_refuted : exists name linking os t s, bounded_links name os /\
  can_remove linking t (fst (lrun name reg_init os)) = true /\
  0 < balance (ltrace name os) s t /\ linking s = false.
Proof.
  exists (fun _ => []), (fun c => c =? 1), [LAdd 1 9; LAdd 2 9], 9, 2.
  split; [apply bounded_short; reflexivity|]. split; [reflexivity|]. split; reflexivity.
Qed.

Example C58_witness :
  can_remove (fun c => c =? 1) 9 (fst (lrun (fun c => [c]) reg_init [LAdd 1 9; LAdd 2 8])) = true /\
  can_remove (fun c => c =? 1) 8 (fst (lrun (fun c => [c]) reg_init [LAdd 1 9; LAdd 2 8])) = false.
Proof. split; reflexivity. Qed.

Print Assumptions C23_counts_are_exact_partial.
Print Assumptions C24_sources_are_exact_partial.
Print Assumptions C57_every_other_source_is_skipped.
