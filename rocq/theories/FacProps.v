(** Factories (C50) and fallible models (C55). *)
From Verif Require Import Base Assoc UuidModel UuidProofs EventModel EventProofs CollModel CollSpec CollProofs FacModel FacSpec FacProofs.

(** ** C50 *)
Section C50.
  Context (uuid name : Z -> list Z) (fs : list Z).
  Notation s := (fst (fac_run uuid name facs_init fs)).
  Notation tr := (snd (fac_run uuid name facs_init fs)).

  (** At most one factory per UUID. *)
  Theorem C50_unique : NoDup (map uuid (registered tr)).
  Proof. apply reach_facinv. Qed.

  (** GetFactory(uuid) is the factory registered with that UUID, null if there is none. *)
  Theorem C50_by_uuid : forall u,
    match fac_by_uuid u s with
    | Some f => In f (registered tr) /\ uuid f = u
    | None => forall f, In f (registered tr) -> uuid f <> u
    end.
  Proof.
    intros u. pose proof (reach_facinv uuid name fs) as V. unfold fac_by_uuid.
    destruct (aget list_eqb u (f_uuid s)) as [f|] eqn:E; [now apply (fi_uuid _ _ _ _ V)|].
    intros f I Hu. assert (X : aget list_eqb u (f_uuid s) = Some f) by (apply (fi_uuid _ _ _ _ V); auto). congruence.
  Qed.

  (** Iteration, at(index) and size follow the order of registration; at(name) is the
      first factory registered with that name. *)
  Theorem C50_order : forall i n,
    iterate (fun i => fac_by_index i s) (fac_size s) = map Some (registered tr) /\
    the_index i (registered tr) (fac_by_index i s) /\
    first_named name n (registered tr) (fac_by_name (Some n) s) /\ fac_by_name None s = None.
  Proof.
    intros i n. pose proof (reach_facinv uuid name fs) as V. unfold fac_by_index, fac_size.
    rewrite (fi_list _ _ _ _ V). repeat split.
    - apply iterate_own.
    - apply at_index_ok.
    - apply (fi_name _ _ _ _ V).
  Qed.

  (** A registration succeeds exactly when no registered factory has this UUID. *)
  Theorem C50_register_iff : forall f, ~ In f (f_freed s) ->
    (snd (fac_add uuid name f s) = FacDone <-> forall g, In g (registered tr) -> uuid g <> uuid f).
  Proof.
    intros f Hf. pose proof (C50_by_uuid (uuid f)) as X. unfold fac_by_uuid in X. unfold fac_add.
    assert (Hh : holds f (f_freed s) = false).
    { destruct (holds f (f_freed s)) eqn:H; [apply holds_In in H; contradiction|reflexivity]. }
    rewrite Hh. destruct (aget list_eqb (uuid f) (f_uuid s)) as [g|]; cbn; split; try discriminate; auto.
    intros H. destruct X as [I Hu]. now apply H in I.
  Qed.

  (** A rejected registration leaves the collection unchanged (but see
      C50_rejected_refuted: the rejected factory is deleted, even if it is registered). *)
  Theorem C50_rejected_partial : forall f,
    snd (fac_add uuid name f s) <> FacDone -> let s' := fst (fac_add uuid name f s) in
    f_uuid s' = f_uuid s /\ f_name s' = f_name s /\ f_list s' = f_list s /\
    (forall g, In g (f_freed s') -> g = f \/ In g (f_freed s)).
  Proof.
    intros f. unfold fac_add. destruct (holds f (f_freed s)); cbn; [intuition|].
    destruct (aget list_eqb (uuid f) (f_uuid s)); cbn; [|congruence]. intuition.
  Qed.

  (** No registered factory is ever deleted, provided no factory is offered twice. *)
  Theorem C50_alive_partial : NoDup fs -> forall f, In f (registered tr) -> ~ In f (f_freed s).
  Proof.
    intros N f I F. pose proof (reach_facinv uuid name fs) as V. apply (fi_freed _ _ _ _ V) in F.
    unfold registered in I. apply in_map_iff in I. destruct I as ([g r] & Hg & I). apply filter_In in I.
    destruct I as [I Hr]. cbn in Hg. subst g. destruct r; try discriminate.
    rewrite <- (fac_run_objects uuid name facs_init fs) in N.
    revert N I F. generalize tr as t. induction t as [|[h r] t IH]; cbn; [tauto|]. intros N. inversion N as [|? ? Hh N']; subst.
    intros [E|I] [E'|I']; try congruence.
    - injection E as -> ->. apply Hh. change f with (fst (f, FacDuplicateUuid)). now apply in_map.
    - injection E' as -> ->. apply Hh. change f with (fst (f, FacDone)). now apply in_map.
    - auto.
  Qed.

  (** CreateInstance(uuid) returns null exactly when no factory has that UUID, and
      otherwise a component of that UUID or an exception. *)
  Theorem C50_create : forall make cuuid u,
    match create_instance uuid make cuuid u s with
    | CrNull => forall f, In f (registered tr) -> uuid f <> u
    | CrComponent c => cuuid c = u /\ exists f, In f (registered tr) /\ uuid f = u /\ c = make f
    | CrInvalidFactory => exists f, In f (registered tr) /\ uuid f = u /\ cuuid (make f) <> u
    end.
  Proof.
    intros make cuuid u. pose proof (C50_by_uuid u) as X. unfold create_instance.
    destruct (fac_by_uuid u s) as [f|]; [|exact X]. destruct X as [I Hu].
    destruct (list_eqb (cuuid (make f)) (uuid f)) eqn:E; cbn.
    - apply list_eqb_eq in E. split; [congruence|eauto].
    - exists f. repeat split; auto. intros H. rewrite H, <- Hu in E.
      assert (list_eqb (uuid f) (uuid f) = true) by now apply list_eqb_eq. congruence.
  Qed.
End C50.

(** Registering the same factory object twice throws DuplicateUuid and deletes the
    registered factory: GetFactory then returns a dangling pointer. *)
Theorem C50_rejected_refuted : exists uuid name fs f,
  let s := fst (fac_run uuid name facs_init fs) in
  snd (fac_run uuid name facs_init fs) = [(f, FacDone); (f, FacDuplicateUuid)] /\
  fac_by_uuid (uuid f) s = Some f /\ In f (f_freed s).
Proof. exists (fun f => [f]), (fun f => [f]), [7; 7], 7. vm_compute. auto. Qed.

Example C50_example : let uuid := fun f => [f / 10] in let name := fun f => [f mod 10] in
  fac_run uuid name facs_init [11; 12; 21; 32] =
  (Facs [([1], 11); ([2], 21); ([3], 32)] [([1], 11); ([2], 32)] [11; 21; 32] [12],
   [(11, FacDone); (12, FacDuplicateUuid); (21, FacDone); (32, FacDone)]) /\ NoDup [11; 12; 21; 32].
Proof. split; [reflexivity|]. repeat constructor; cbn; intuition discriminate. Qed.

(** ** C55 *)

(** IsFailed is true exactly when a registered failure is failed, the state of a failure
    being given by the last Fail, Unfail or Restore on it. *)
Theorem C55_is_failed : forall name os,
  let '(s, tr) := fall_run name fall_init os in
  model_failed s = true <-> exists f, In f (reg_failures tr) /\ failed_after tr f = true.
Proof.
  intros name os. pose proof (fall_run_list name os fall_init) as L.
  pose proof (fun f => fall_run_spec name os fall_init f) as F.
  destruct (fall_run name fall_init os) as [s tr]. cbn in *. unfold model_failed. rewrite any_failed_ok, L.
  unfold failed_after. split; intros (f & I & H); exists f; (split; [exact I|]).
  - rewrite F in H. exact H.
  - rewrite F. exact H.
Qed.

(** Failures of one model have different names; a rejected one, or a Restore that
    throws, changes nothing. *)
Theorem C55_names : forall name os, NoDup (map name (failures (fst (fall_run name fall_init os)))).
Proof.
  intros name os. assert (G : forall s, NoDup (map name (failures s)) -> NoDup (map name (failures (fst (fall_run name s os))))).
  { induction os as [|o os IH]; intros s N; cbn; [exact N|].
    assert (N1 : NoDup (map name (failures (fst (fall_step name o s))))).
    { destruct o as [g|g|g|g [b|]]; cbn; try exact N.
      pose proof (coll_step_nodup name (fun _ => true) (CoAdd g) (failures s) N) as X. cbn in X. unfold coll_add in *. cbn in *.
      destruct (is_some _); cbn in *; exact X. }
    destruct (fall_step name o s) as [s1 r]. specialize (IH s1 N1). destruct (fall_run name s1 os). exact IH. }
  apply G. constructor.
Qed.
Theorem C55_no_effect : forall name o s, snd (fall_step name o s) <> LDone -> fst (fall_step name o s) = s.
Proof.
  intros name [g|g|g|g [b|]] s; cbn; try congruence. unfold coll_add. cbn. destruct (is_some _); cbn; congruence.
Qed.

(** Store writes the flag and Restore reads it back: the pair keeps the state. *)
Theorem C55_store_restore : forall name f s s', is_failed f (fst (fall_step name (LRestore f (Some (is_failed f s))) s')) = is_failed f s.
Proof. intros. rewrite fall_step_spec. cbn. now rewrite Z.eqb_refl. Qed.

Example C55_example : let '(s, tr) := fall_run (fun f => [f / 10]) fall_init
    [LRegister 10; LRegister 20; LRegister 11; LFail 20; LFail 11; LFail 10; LRestore 10 (Some false); LRestore 20 None; LUnfail 20] in
  model_failed s = false /\ reg_failures tr = [10; 20] /\ failed_after tr 11 = true /\
  model_failed (fst (fall_step (fun f => [f / 10]) (LFail 20) s)) = true.
Proof. vm_compute. auto. Qed.

Print Assumptions C50_alive_partial.
Print Assumptions C55_is_failed.
