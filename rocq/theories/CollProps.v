(** Collections, containers and references: the properties C25, C26 and C56. *)
From Verif Require Import Base UuidModel EventModel Text CollModel CollSpec CollProofs.

(** ** C56 Collections *)

(** Names used in the examples: the object 10*i+j is called "a".."z" number i. *)
Definition ex_name (e : Z) : list Z := [97 + e / 10].

(** After any history on a collection without duplicates, at(name) is the element of that
    name, of the elements added and not removed; null when there is none, or for null. *)
Theorem C56_at_name : forall nm is_obj os n,
  let '(l, tr) := coll_run nm is_obj false [] os in
  the_named nm n (added tr) (coll_at_name nm (Some n) l) /\ coll_at_name nm None l = None.
Proof.
  intros. pose proof (coll_run_effect nm is_obj false os []) as E.
  pose proof (coll_run_nodup nm is_obj os [] (NoDup_nil _)) as N.
  destruct (coll_run nm is_obj false [] os) as [l tr]. cbn in *. split; [|reflexivity].
  unfold added. rewrite <- E. apply first_the; [exact N|]. apply find_name_first.
Qed.
(** With duplicates allowed, it is the first one added. *)
Theorem C56_at_name_duplicates : forall nm is_obj os n,
  let '(l, tr) := coll_run nm is_obj true [] os in first_named nm n (added tr) (coll_at_name nm (Some n) l).
Proof.
  intros. pose proof (coll_run_effect nm is_obj true os []) as E.
  destruct (coll_run nm is_obj true [] os) as [l tr]. cbn in *. unfold added. rewrite <- E. apply find_name_first.
Qed.

(** at(index) is the index-th element in order of addition, or null; size is the number
    of elements; the iteration visits them in this order, each once. *)
Theorem C56_at_index : forall nm is_obj dup os i,
  let '(l, tr) := coll_run nm is_obj dup [] os in
  the_index i (added tr) (coll_at_index i l) /\ coll_size l = length (added tr) /\
  iterate (fun i => coll_at_index i l) (coll_size l) = map Some (added tr).
Proof.
  intros. pose proof (coll_run_effect nm is_obj dup os []) as E.
  destruct (coll_run nm is_obj dup [] os) as [l tr]. cbn in *. unfold added. rewrite <- E.
  repeat split; [apply at_index_ok|apply iterate_own].
Qed.

(** No two elements share a name, and a call that throws, or returns false, has no
    effect. *)
Theorem C56_unique : forall nm is_obj os, NoDup (map nm (fst (coll_run nm is_obj false [] os))).
Proof. intros. apply coll_run_nodup. constructor. Qed.
Theorem C56_failed : forall nm is_obj dup o l l' r,
  coll_step nm is_obj dup o l = (l', r) ->
  r = CoDuplicateName \/ r = CoInvalidObject \/ r = CoBool false -> l' = l.
Proof.
  intros nm ob dup o l l' r E H. pose proof (coll_step_effect nm ob dup o l) as X. rewrite E in X. cbn in X. subst l'.
  destruct o, H as [ -> | [ -> | -> ]]; try reflexivity; cbn in E; discriminate.
Qed.

(** When Add throws DuplicateName: exactly when an element has that name.  When Remove
    returns true: exactly when the element is there. *)
Theorem C56_duplicate_iff : forall nm is_obj l e, is_obj e = true ->
  (snd (coll_step nm is_obj false (CoAdd e) l) = CoDuplicateName <-> exists e', In e' l /\ nm e' = nm e) /\
  (snd (coll_step nm is_obj true (CoAdd e) l) = CoDone) /\
  (snd (coll_step nm is_obj false (CoRemove e) l) = CoBool true <-> In e l).
Proof.
  intros nm ob l e H. cbn. unfold coll_add, coll_remove. rewrite H. cbn. repeat split.
  - destruct (is_some (find_name nm (nm e) l)) eqn:E; cbn; [|discriminate]. intros _.
    assert (X : In (nm e) (map nm l) \/ ~ In (nm e) (map nm l)).
    { destruct (in_dec (list_eq_dec Z.eq_dec) (nm e) (map nm l)); auto. }
    destruct X as [X|X]; [|apply find_name_none in X; congruence].
    apply in_map_iff in X. destruct X as (e' & ? & ?). eauto.
  - intros (e' & I & Hn). destruct (is_some (find_name nm (nm e) l)) eqn:E; [reflexivity|].
    apply find_name_none in E. exfalso. apply E. rewrite <- Hn. now apply in_map.
  - destruct (holds e l) eqn:E; cbn; [|discriminate]. intros _. now apply holds_In.
  - intros I. apply holds_In in I. rewrite I. reflexivity.
Qed.

(** A delegating collection is the delegate's elements followed by its own. *)
Theorem C56_delegate : forall nm is_obj dup os i n,
  let '((d, l), tr) := deleg_run nm is_obj dup ([], []) os in
  deleg_at_index i d l = coll_at_index i (d ++ l) /\
  deleg_at_name nm n d l = coll_at_name nm n (d ++ l) /\
  deleg_size d l = length (d ++ l) /\
  (deleg_empty d l = true <-> d ++ l = []) /\
  iterate (fun i => deleg_at_index i d l) (deleg_size d l) = map Some (d ++ l).
Proof.
  intros. destruct (deleg_run nm is_obj dup ([], []) os) as [[d l] tr].
  assert (Sz : deleg_size d l = length (d ++ l)) by (unfold deleg_size, coll_size; rewrite app_length; lia).
  repeat split.
  - apply deleg_index.
  - apply deleg_name.
  - exact Sz.
  - unfold deleg_empty, coll_size. destruct l, d; cbn; try discriminate; reflexivity.
  - unfold deleg_empty, coll_size. destruct l, d; cbn; congruence.
  - rewrite Sz, <- iterate_own. unfold iterate, coll_size. apply map_ext. intros j. apply deleg_index.
Qed.
(** Add on it refuses a name of either part, so as long as the delegate does not grow,
    names stay unique over both parts. *)
Definition own_only (o : delop) : Prop :=
  match o with DeOwn _ => True | DeDelegate (CoAdd _) => False | DeDelegate _ => True end.
Theorem C56_delegate_unique : forall nm is_obj dup os d l,
  NoDup (map nm (d ++ l)) -> Forall own_only os ->
  let '((d', l'), _) := deleg_run nm is_obj dup (d, l) os in NoDup (map nm (d' ++ l')).
Proof.
  intros nm ob dup os. induction os as [|o os IH]; intros d l N F; cbn [deleg_run]; [exact N|].
  inversion F as [|? ? Fo Fos]; subst.
  assert (N1 : let '((d1, l1), _) := deleg_step nm ob dup o (d, l) in NoDup (map nm (d1 ++ l1))).
  { destruct o as [[e|e|]|[e|e|]]; cbn in *; try contradiction.
    - unfold coll_add. destruct (ob e); [|exact N]. cbn. destruct (is_some _) eqn:E; [exact N|].
      rewrite app_assoc, map_app. cbn. apply Assoc.NoDup_snoc; [exact N|]. apply find_name_none.
      pose proof (deleg_name nm (Some (nm e)) d l) as X. cbn in X. rewrite <- X. exact E.
    - unfold coll_remove. destruct (ob e); [|exact N]. destruct (holds e l) eqn:H; [|exact N].
      apply holds_In in H. rewrite erase_without. destruct (without_split e l H) as (a & b & -> & -> & _).
      rewrite app_assoc in *. rewrite !map_app in *. cbn in N. now apply NoDup_remove_1 in N.
    - rewrite map_app in N. rewrite app_nil_r. now apply NoDup_app_remove_r in N.
    - unfold coll_remove. destruct (ob e); [|exact N]. destruct (holds e d) eqn:H; [|exact N].
      apply holds_In in H. rewrite erase_without. destruct (without_split e d H) as (a & b & -> & -> & _).
      rewrite <- !app_assoc in *. rewrite map_app in *. cbn in N. apply NoDup_remove_1 in N. exact N.
    - rewrite map_app in N. now apply NoDup_app_remove_l in N. }
  destruct (deleg_step nm ob dup o (d, l)) as [[d1 l1] r]. specialize (IH d1 l1 N1 Fos).
  destruct (deleg_run nm ob dup (d1, l1) os) as [[d2 l2] t]. exact IH.
Qed.
(** If the delegate grows afterwards, two elements can share a name, and at(name) no
    longer returns the own element. *)
Theorem C56_delegate_growth_hides :
  exists os d l tr, deleg_run ex_name (fun _ => true) false ([], []) os = ((d, l), tr) /\
    ~ NoDup (map ex_name (d ++ l)) /\
    exists own, In own l /\ deleg_at_name ex_name (Some (ex_name own)) d l <> Some own.
Proof.
  exists [DeOwn (CoAdd 10); DeDelegate (CoAdd 11)], [11], [10],
    [(DeOwn (CoAdd 10), CoDone); (DeDelegate (CoAdd 11), CoDone)].
  split; [reflexivity|]. split.
  - intros N. inversion N as [|? ? H _]. apply H. cbn. auto.
  - exists 10. split; [cbn; auto|]. vm_compute. discriminate.
Qed.

Definition ex_coll := [CoAdd 10; CoAdd 20; CoAdd 30; CoAdd 21; CoRemove 20; CoAdd 21; CoRemove 99; CoClear; CoAdd 40; CoAdd 50].
Example C56_example : coll_run ex_name (fun _ => true) false [] ex_coll =
  ([40; 50], [(CoAdd 10, CoDone); (CoAdd 20, CoDone); (CoAdd 30, CoDone); (CoAdd 21, CoDuplicateName);
    (CoRemove 20, CoBool true); (CoAdd 21, CoDone); (CoRemove 99, CoBool false); (CoClear, CoDone);
    (CoAdd 40, CoDone); (CoAdd 50, CoDone)]).
Proof. reflexivity. Qed.
Example C56_example_delegate :
  Forall own_only [DeOwn (CoAdd 30); DeOwn (CoAdd 11); DeDelegate (CoRemove 10); DeOwn (CoAdd 11)] /\
  deleg_run ex_name (fun _ => true) false ([10; 20], []) [DeOwn (CoAdd 30); DeOwn (CoAdd 11); DeDelegate (CoRemove 10); DeOwn (CoAdd 11)] =
  (([20], [30; 11]), [(DeOwn (CoAdd 30), CoDone); (DeOwn (CoAdd 11), CoDuplicateName); (DeDelegate (CoRemove 10), CoBool true); (DeOwn (CoAdd 11), CoDone)]).
Proof. split; [repeat constructor|reflexivity]. Qed.

(** ** C25 Containers *)

Definition after w bounds os : compo := fst (cont_run w (compo_init bounds) os).
Definition ctrace w bounds os := snd (cont_run w (compo_init bounds) os).

(** A container of upper bound [up] >= 0 never holds more than [up] components (a negative
    bound means no limit), whatever the calls. *)
Theorem C25_upper : forall w bounds os k lo up ct,
  nth_error bounds k = Some (lo, up) -> 0 <= up -> in_i64 up = true ->
  nth_error (conts (after w bounds os)) k = Some ct -> cont_count ct <= up.
Proof.
  intros w bounds os k lo up ct B H I E. pose proof (reach_kinv w bounds os) as V.
  pose proof (k_upper w bounds _ _ V k ct E) as U. pose proof (k_bounds w bounds _ _ V) as Bd.
  assert (X : nth_error (map (fun c => (lower c, upper c)) (conts (after w bounds os))) k = Some (lower ct, upper ct)).
  { rewrite nth_error_map, E. reflexivity. }
  unfold after in X. rewrite Bd, B in X. injection X as -> ->. now rewrite to_size_nonneg in U.
Qed.

(** Deleting never brings a container below its lower bound. *)
Theorem C25_lower : forall w bounds os k c th lo up s' ct',
  nth_error bounds k = Some (lo, up) -> 0 <= lo -> in_i64 lo = true ->
  cont_step w (KDelete k c th) (after w bounds os) = (s', KDone) ->
  nth_error (conts s') k = Some ct' -> lo <= cont_count ct'.
Proof.
  intros w bounds os k c th lo up s' ct' B H I E E'. apply delete_done in E.
  destruct E as (ct & Ek & _ & _ & Hc & L & _ & ->). cbn in E'.
  pose proof (k_bounds w bounds _ _ (reach_kinv w bounds os)) as Bd.
  assert (X : nth_error (map (fun c => (lower c, upper c)) (conts (after w bounds os))) k = Some (lower ct, upper ct)).
  { rewrite nth_error_map, Ek. reflexivity. }
  unfold after in X. rewrite Bd, B in X. injection X as -> ->.
  rewrite set_nth_same in E' by (eapply nth_error_lt; exact Ek). injection E' as <-. unfold cont_count. cbn.
  rewrite to_size_nonneg in L by assumption. pose proof (without_length c (comps ct) Hc). lia.
Qed.

(** Two components of the containers of one composite never share a name. *)
Theorem C25_names : forall w bounds os, NoDup (map (wname w) (all_comps (after w bounds os))).
Proof. intros. apply (k_names _ _ _ _ (reach_kinv w bounds os)). Qed.

(** Each container holds, in order of addition, the components added to it and not
    deleted; iteration, GetComponent and GetCount show exactly these. *)
Theorem C25_content : forall w bounds os k ct i n,
  nth_error (conts (after w bounds os)) k = Some ct ->
  let held := contained k (ctrace w bounds os) in
  iterate (fun i => cont_by_index i ct) (Z.to_nat (cont_count ct)) = map Some held /\
  the_index i held (cont_by_index i ct) /\
  the_named (wname w) n held (cont_by_name (wname w) (Some n) ct) /\
  cont_count ct = Z.of_nat (length held).
Proof.
  intros w bounds os k ct i n E held. pose proof (reach_kinv w bounds os) as V.
  assert (H : comps ct = held) by now apply (k_held _ _ _ _ V).
  unfold cont_by_index, cont_by_name, cont_count. rewrite H, Nat2Z.id. repeat split.
  - apply iterate_own.
  - apply at_index_ok.
  - apply first_the; [|apply find_name_first].
    apply nth_error_split in E. destruct E as (l1 & l2 & E & _). pose proof (k_names _ _ _ _ V) as N.
    unfold all_comps in N. unfold after in E. rewrite E, map_app, concat_app in N. cbn in N.
    rewrite !map_app in N. apply NoDup_app_remove_l in N. apply NoDup_app_remove_r in N. now rewrite <- H.
Qed.

(** A call that does not succeed changes nothing. *)
Theorem C25_failed : forall w o s, snd (cont_step w o s) <> KDone -> fst (cont_step w o s) = s.
Proof. exact cont_failed. Qed.

(** When AddComponent succeeds. *)
Theorem C25_add_iff : forall w bounds os k lo up c field clash, let s := after w bounds os in
  nth_error bounds k = Some (lo, up) -> in_i64 up = true -> ~ In c (freed s) ->
  Z.of_nat (length (contained k (ctrace w bounds os))) < 2 ^ 63 ->
  (snd (cont_step w (KAdd k c field clash) s) = KDone <->
   wtype w k c = true /\ wparent w c = true /\ field = None /\ clash = false /\
   (0 <= up -> Z.of_nat (length (contained k (ctrace w bounds os))) < up) /\
   forall c', In c' (all_comps s) -> wname w c' <> wname w c).
Proof.
  intros w bounds os k lo up c field clash s B I Fr Sm. pose proof (reach_kinv w bounds os) as V.
  pose proof (k_bounds w bounds _ _ V) as Bd.
  destruct (nth_error (conts s) k) as [ct|] eqn:E.
  2: { apply nth_error_None in E. assert (X : (k < length bounds)%nat) by (apply nth_error_lt in B; exact B).
       rewrite <- Bd, map_length in X. unfold s, after in E. lia. }
  assert (X : nth_error (map (fun c => (lower c, upper c)) (conts s)) k = Some (lower ct, upper ct)).
  { rewrite nth_error_map, E. reflexivity. }
  unfold s, after in X. rewrite Bd, B in X. injection X as -> ->.
  pose proof (k_held w bounds _ _ V k ct E) as H. fold (ctrace w bounds os) in H. rewrite <- H in *.
  assert (U : (to_size (upper ct) <=? Z.of_nat (length (comps ct))) = false <-> (0 <= upper ct -> Z.of_nat (length (comps ct)) < upper ct)).
  { rewrite Z.leb_gt. destruct (Z_lt_le_dec (upper ct) 0) as [Hn|Hn].
    - rewrite to_size_neg by assumption. apply in_i64_spec in I. unfold i64_min, i64_max in I. lia.
    - rewrite to_size_nonneg by assumption. lia. }
  assert (C : check_composite (wname w) (wname w c) (conts s) = false <-> forall c', In c' (all_comps s) -> wname w c' <> wname w c).
  { rewrite check_composite_ok. fold (all_comps s). split.
    - intros N c' Ic Hn. apply N. rewrite <- Hn. now apply in_map.
    - intros N Ic. apply in_map_iff in Ic. destruct Ic as (c' & Hn & Ic). exact (N c' Ic Hn). }
  cbn. unfold cont_add. rewrite E. rewrite <- U, <- C.
  assert (F : holds c (freed s) = false).
  { destruct (holds c (freed s)) eqn:Hh; [|reflexivity]. apply holds_In in Hh. contradiction. }
  rewrite F. destruct (wtype w k c), (wparent w c), field as [[]|], clash, (to_size (upper ct) <=? _), (check_composite _ _ _); cbn; intuition congruence.
Qed.

(** A composite component that has been published never takes another component: what
    AddComponent answers is a DuplicateName or InvalidFieldName, or one of the other
    refusals. *)
Theorem C25_published_takes_none : forall w k c has_field clash s,
  snd (cont_step w (KAdd k c (Some has_field) clash) s) <> KDone /\
  fst (cont_step w (KAdd k c (Some has_field) clash) s) = s.
Proof.
  intros w k c f clash s. assert (N : snd (cont_step w (KAdd k c (Some f) clash) s) <> KDone).
  { destruct (cont_step w (KAdd k c (Some f) clash) s) as [s' r] eqn:E. cbn in *. intros ->. apply add_done in E.
    destruct E as (_ & _ & _ & _ & _ & _ & X & _). discriminate. }
  split; [exact N|]. now apply cont_failed.
Qed.

(** Hence room, a fresh name and the right parent and type do not suffice. *)
Theorem C25_add_after_publish_refuted :
  ~ (forall w bounds os k lo up c field clash, let s := after w bounds os in
     nth_error bounds k = Some (lo, up) -> in_i64 up = true -> ~ In c (freed s) ->
     wtype w k c = true -> wparent w c = true -> field <> Some true -> clash = false ->
     (0 <= up -> Z.of_nat (length (contained k (ctrace w bounds os))) < up) ->
     (forall c', In c' (all_comps s) -> wname w c' <> wname w c) ->
     snd (cont_step w (KAdd k c field clash) s) = KDone).
Proof.
  intros H. specialize (H (World (fun c => [c]) (fun _ => true) (fun _ _ => true)) [(0, 5)] [] 0%nat 0 5 65 (Some false) false).
  cbn in H. assert (X : KInvalidFieldName = KDone); [|discriminate].
  apply H; auto; try congruence; lia.
Qed.

(** When DeleteComponent succeeds (a negative lower bound forbids any deletion). *)
Theorem C25_delete_iff : forall w bounds os k lo up c throws, let s := after w bounds os in
  nth_error bounds k = Some (lo, up) -> in_i64 lo = true ->
  Z.of_nat (length (contained k (ctrace w bounds os))) < 2 ^ 63 ->
  (snd (cont_step w (KDelete k c throws) s) = KDone <->
   In c (contained k (ctrace w bounds os)) /\ throws = false /\ 0 <= lo /\
   lo < Z.of_nat (length (contained k (ctrace w bounds os)))).
Proof.
  intros w bounds os k lo up c th s B I Sm. pose proof (reach_kinv w bounds os) as V.
  pose proof (k_bounds w bounds _ _ V) as Bd.
  destruct (nth_error (conts s) k) as [ct|] eqn:E.
  2: { apply nth_error_None in E. assert (X : (k < length bounds)%nat) by (apply nth_error_lt in B; exact B).
       rewrite <- Bd, map_length in X. unfold s, after in E. lia. }
  assert (X : nth_error (map (fun c => (lower c, upper c)) (conts s)) k = Some (lower ct, upper ct)).
  { rewrite nth_error_map, E. reflexivity. }
  unfold s, after in X. rewrite Bd, B in X. injection X as -> ->.
  pose proof (k_held w bounds _ _ V k ct E) as H. fold (ctrace w bounds os) in H. rewrite <- H in *.
  assert (U : (Z.of_nat (length (comps ct)) <=? to_size (lower ct)) = false <-> 0 <= lower ct /\ lower ct < Z.of_nat (length (comps ct))).
  { rewrite Z.leb_gt. destruct (Z_lt_le_dec (lower ct) 0) as [Hn|Hn].
    - rewrite to_size_neg by assumption. apply in_i64_spec in I. unfold i64_min, i64_max in I. lia.
    - rewrite to_size_nonneg by assumption. lia. }
  cbn. unfold cont_delete. rewrite E. rewrite <- U. split.
  - destruct (holds c (freed s)); [discriminate|]. destruct (wtype w k c); cbn; [|discriminate].
    destruct (holds c (comps ct)) eqn:Hh; cbn; [|discriminate]. apply holds_In in Hh.
    destruct (_ <=? _); [discriminate|]. destruct th; [discriminate|]. auto.
  - intros (Ic & -> & L). assert (F : holds c (freed s) = false).
    { destruct (holds c (freed s)) eqn:Hh; [|reflexivity]. apply holds_In in Hh. exfalso.
      apply (k_live w bounds _ _ V c Hh). unfold all_comps. apply in_concat. exists (comps ct). split; [|exact Ic].
      apply in_map. eapply nth_error_In. exact E. }
    rewrite F. destruct (k_ok w bounds _ _ V k ct c E Ic) as [_ ->]. cbn. apply holds_In in Ic. rewrite Ic, L. reflexivity.
Qed.

(** A component deleted from memory is in no container. *)
Theorem C25_no_dangling : forall w bounds os c,
  In c (freed (after w bounds os)) -> ~ In c (all_comps (after w bounds os)).
Proof. intros. now apply (k_live _ _ _ _ (reach_kinv w bounds os)). Qed.

Definition ex_world := World ex_name (fun c => negb (c =? 99)) (fun k c => negb (c =? 88)).
Definition ex_ops := [KAdd 0 10 None false; KAdd 0 20 None false; KAdd 1 11 None false; KAdd 1 30 None false; KAdd 0 40 None false;
  KAdd 1 99 None false; KAdd 1 88 None false; KDelete 0 10 false; KDelete 0 20 false; KAdd 1 12 None false; KAdd 1 50 None true; KDelete 1 30 true].
Example C25_example :
  cont_run ex_world (compo_init [(1, 2); (0, -1)]) ex_ops =
  (Compo [Cont 1 2 [20]; Cont 0 (-1) [30; 12]] [10],
   combine ex_ops [KDone; KDone; KDuplicateName; KDone; KContainerFull; KInvalidParent; KInvalidObjectType; KDone;
                   KCannotDelete; KDone; KDuplicateName; KDisconnectThrows]).
Proof. reflexivity. Qed.
Example C25_example_published : let s := after ex_world [(1, 2); (0, -1)] ex_ops in
  snd (cont_step ex_world (KAdd 0 60 (Some false) false) s) = KInvalidFieldName /\
  snd (cont_step ex_world (KAdd 0 60 (Some true) false) s) = KDuplicateName.
Proof. split; reflexivity. Qed.
Example C25_example_add : let s := after ex_world [(1, 2); (0, -1)] ex_ops in
  snd (cont_step ex_world (KAdd 0 60 None false) s) = KDone /\ ~ In 60 (freed s) /\
  snd (cont_step ex_world (KDelete 1 30 false) s) = KDone.
Proof. vm_compute. intuition discriminate. Qed.

(** ** C26 References *)
Definition refs typ lo up os : list Z := fst (ref_run typ lo up [] os).
Definition rtrace typ lo up os := snd (ref_run typ lo up [] os).

Theorem C26_upper : forall typ lo up os, 0 <= up -> in_i64 up = true -> Z.of_nat (length (refs typ lo up os)) <= up.
Proof.
  intros typ lo up os H I. pose proof (f_upper _ _ _ _ (reach_finv typ lo up os)) as U. now rewrite to_size_nonneg in U.
Qed.
Theorem C26_lower : forall typ lo up c l l', 0 <= lo -> in_i64 lo = true ->
  ref_step typ lo up (FRemove c) l = (l', FDone) -> lo <= Z.of_nat (length l').
Proof.
  intros typ lo up c l l' H I. cbn. destruct (typ c); cbn; [|discriminate]. destruct (holds c l) eqn:Hh; cbn; [|discriminate].
  rewrite to_size_nonneg by assumption. destruct (Z.leb_spec (Z.of_nat (length l)) lo); [discriminate|].
  intros E. injection E as <-. rewrite erase_without. apply holds_In in Hh. pose proof (without_length c l Hh). lia.
Qed.
(** A call that throws changes nothing. *)
Theorem C26_failed : forall typ lo up o l, snd (ref_step typ lo up o l) <> FDone -> fst (ref_step typ lo up o l) = l.
Proof.
  intros typ lo up [c|c|c] l; cbn; [| |congruence].
  - destruct (to_size up <=? _); [reflexivity|]. destruct (typ c); cbn; congruence.
  - destruct (negb _); [reflexivity|]. destruct (_ <=? _); cbn; congruence.
Qed.
(** The reference holds the components added and not removed, in order of addition
    (removal takes the oldest of equal ones, RemoveLinks all of them). *)
Theorem C26_content : forall typ lo up os n i, let l := refs typ lo up os in
  l = referenced (rtrace typ lo up os) /\
  the_index i l (coll_at_index i l) /\
  (forall nm, first_named nm n l (coll_at_name nm (Some n) l)).
Proof.
  intros. repeat split; [apply (reach_finv typ lo up os)|apply at_index_ok|]. intros. apply find_name_first.
Qed.
(** Which exception, and when. *)
Theorem C26_outcomes : forall typ lo up l c, in_i64 lo = true -> in_i64 up = true ->
  Z.of_nat (length l) < 2 ^ 63 -> (forall c, In c l -> typ c = true) ->
  (snd (ref_step typ lo up (FAdd c) l) = FReferenceFull <-> 0 <= up /\ up <= Z.of_nat (length l)) /\
  (snd (ref_step typ lo up (FAdd c) l) = FDone <-> (0 <= up -> Z.of_nat (length l) < up) /\ typ c = true) /\
  (snd (ref_step typ lo up (FRemove c) l) = FNotReferenced <-> ~ In c l) /\
  (snd (ref_step typ lo up (FRemove c) l) = FDone <-> In c l /\ 0 <= lo /\ lo < Z.of_nat (length l)).
Proof.
  intros typ lo up l c Il Iu Sm T.
  assert (U : (to_size up <=? Z.of_nat (length l)) = true <-> 0 <= up /\ up <= Z.of_nat (length l)).
  { rewrite Z.leb_le. destruct (Z_lt_le_dec up 0) as [Hn|Hn].
    - rewrite to_size_neg by assumption. apply in_i64_spec in Iu. unfold i64_min, i64_max in Iu. lia.
    - rewrite to_size_nonneg by assumption. lia. }
  assert (L : (Z.of_nat (length l) <=? to_size lo) = false <-> 0 <= lo /\ lo < Z.of_nat (length l)).
  { rewrite Z.leb_gt. destruct (Z_lt_le_dec lo 0) as [Hn|Hn].
    - rewrite to_size_neg by assumption. apply in_i64_spec in Il. unfold i64_min, i64_max in Il. lia.
    - rewrite to_size_nonneg by assumption. lia. }
  assert (Hc : holds c l = true <-> In c l) by apply holds_In.
  assert (Tc : In c l -> typ c = true) by apply T.
  cbn. split; [|split; [|split]].
  - rewrite <- U. destruct (to_size up <=? _); [tauto|]. destruct (typ c); split; discriminate.
  - destruct (to_size up <=? Z.of_nat (length l)) eqn:X.
    + split; [discriminate|]. intros [Hu _]. destruct (proj1 U eq_refl). lia.
    + apply Z.leb_gt in X. destruct (typ c).
      * split; [|reflexivity]. intros _. split; [|reflexivity]. intros Hu. rewrite to_size_nonneg in X by assumption. exact X.
      * split; [discriminate|]. intros [_ Hf]. discriminate.
  - rewrite <- Hc. destruct (holds c l) eqn:Hh.
    + rewrite (Tc (proj1 Hc eq_refl)). cbn. destruct (_ <=? to_size lo); cbn; split; intros X; [discriminate X|now destruct X|discriminate X|now destruct X].
    + rewrite andb_false_r. cbn. split; [intros _ X; discriminate X|reflexivity].
  - rewrite <- Hc, <- L. destruct (holds c l) eqn:Hh.
    + rewrite (Tc (proj1 Hc eq_refl)). cbn. destruct (_ <=? to_size lo); split; try discriminate; auto. intros [_ Hf]. discriminate.
    + rewrite andb_false_r. cbn. split; [discriminate|]. intros [Hf _]. discriminate.
Qed.
(** After RemoveLinks(c) the reference does not hold c, and holds the others as before. *)
Theorem C26_unlink : forall typ lo up os c, let l := refs typ lo up os in
  let l' := fst (ref_step typ lo up (FUnlink c) l) in
  ~ In c l' /\ forall x, x <> c -> count_occ Z.eq_dec l' x = count_occ Z.eq_dec l x.
Proof.
  intros typ lo up os c l l'. pose proof (f_type _ _ _ _ (reach_finv typ lo up os)) as T.
  assert (E : l' = filter (fun x => negb (x =? c)) l).
  { unfold l'. rewrite ref_step_effect; [reflexivity|exact T]. }
  rewrite E. clear E T. split.
  - intros I. apply filter_In in I. destruct I as [_ I]. rewrite Z.eqb_refl in I. discriminate.
  - intros x Hx. clear l'. induction l as [|y r IH]; cbn; [reflexivity|].
    destruct (Z.eqb_spec y c) as [->|Hne]; cbn; destruct (Z.eq_dec _ x); try congruence; auto.
Qed.
(** Only RemoveComponent respects the lower bound: RemoveLinks, called for a component
    that is deleted, can leave fewer than Lower components. *)
Theorem C26_unlink_below_lower : exists typ lo up os c,
  let l := refs typ lo up os in
  0 <= lo /\ lo <= Z.of_nat (length l) /\
  Z.of_nat (length (fst (ref_step typ lo up (FUnlink c) l))) < lo.
Proof. exists (fun _ => true), 1, 2, [FAdd 7], 7. vm_compute. intuition discriminate. Qed.

Example C26_example : ref_run (fun c => negb (c =? 88)) 1 3 [] [FAdd 7; FAdd 8; FAdd 7; FAdd 9; FRemove 7; FAdd 88; FRemove 9; FRemove 8; FRemove 7; FUnlink 7] =
  ([], [(FAdd 7, FDone); (FAdd 8, FDone); (FAdd 7, FDone); (FAdd 9, FReferenceFull); (FRemove 7, FDone);
        (FAdd 88, FInvalidObjectType); (FRemove 9, FNotReferenced); (FRemove 8, FDone); (FRemove 7, FCannotRemove); (FUnlink 7, FDone)]).
Proof. reflexivity. Qed.

Print Assumptions C25_add_iff.
Print Assumptions C26_outcomes.
Print Assumptions C56_delegate_unique.
