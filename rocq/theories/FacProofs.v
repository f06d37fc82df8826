(** Proofs about factories and failures. *)
From Verif Require Import Base Assoc UuidModel UuidProofs EventModel EventProofs CollModel CollSpec CollProofs FacModel FacSpec.

Section Factories.
  Context (uuid name : Z -> list Z).

  Record FacInv (s : facs) (tr : list (Z * facres)) : Prop := {
    fi_list : f_list s = registered tr;
    fi_uuids : NoDup (map uuid (registered tr));
    fi_uuid : forall u f, aget list_eqb u (f_uuid s) = Some f <-> In f (registered tr) /\ uuid f = u;
    fi_name : forall n, first_named name n (registered tr) (aget list_eqb n (f_name s));
    fi_freed : forall f, In f (f_freed s) <-> In (f, FacDuplicateUuid) tr;
  }.

  Lemma registered_snoc tr f r : registered (tr ++ [(f, r)]) = registered tr ++ match r with FacDone => [f] | _ => [] end.
  Proof. unfold registered. rewrite filter_app, map_app. destruct r; reflexivity. Qed.

  Lemma fac_add_inv f s tr : FacInv s tr -> FacInv (fst (fac_add uuid name f s)) (tr ++ [(f, snd (fac_add uuid name f s))]).
  Proof.
    intros V. unfold fac_add. destruct (holds f (f_freed s)) eqn:Hf; cbn.
    { constructor; rewrite ?registered_snoc, ?app_nil_r; try apply V. intros g. rewrite (fi_freed _ _ V g), in_app_iff.
      split; [auto|]. intros [I|[E|[]]]; [exact I|discriminate]. }
    destruct (aget list_eqb (uuid f) (f_uuid s)) as [g|] eqn:E; cbn.
    { constructor; cbn; rewrite ?registered_snoc, ?app_nil_r; try apply V. intros h. rewrite (fi_freed _ _ V h), in_app_iff. cbn.
      split; [intros [->|I]; auto|]. intros [I|[X|[]]]; [auto|]. injection X as ->. auto. }
    assert (Nu : ~ In (uuid f) (map uuid (registered tr))).
    { intros I. apply in_map_iff in I. destruct I as (g & Hg & I).
      assert (X : aget list_eqb (uuid f) (f_uuid s) = Some g) by (apply (fi_uuid _ _ V); auto). congruence. }
    constructor; cbn; rewrite ?registered_snoc.
    - now rewrite (fi_list _ _ V).
    - rewrite map_app. cbn. apply NoDup_snoc; [apply V|exact Nu].
    - intros u g. rewrite (aget_atry _ list_eqb_eq). rewrite in_app_iff. cbn.
      pose proof (fi_uuid _ _ V u g) as X. pose proof (eqb_cases _ list_eqb_eq u (uuid f)) as [(Hq & ->)|(Hq & Hne)]; rewrite ?Hq.
      + rewrite E. rewrite E in X. split.
        * intros Y. injection Y as <-. auto.
        * intros [[I|[->|[]]] Hu]; [|reflexivity]. exfalso. apply Nu. rewrite <- Hu. now apply in_map.
      + destruct (aget list_eqb u (f_uuid s)) as [h|].
        * rewrite X. intuition. subst. now exfalso.
        * rewrite X. intuition. subst. now exfalso.
    - intros n. rewrite (aget_atry _ list_eqb_eq). pose proof (fi_name _ _ V n) as X.
      destruct (aget list_eqb n (f_name s)) as [h|] eqn:Eh; cbn in *.
      + assert (G : exists a b, registered tr ++ [f] = a ++ h :: b /\ name h = n /\ forall e', In e' a -> name e' <> n).
        { destruct X as (a & b & -> & Hn & Ha). exists a, (b ++ [f]). rewrite <- app_assoc. auto. }
        destruct (list_eqb n (name f)); exact G.
      + pose proof (eqb_cases _ list_eqb_eq n (name f)) as [(Hq & ->)|(Hq & Hne)]; rewrite Hq.
        * exists (registered tr), []. auto.
        * intros e I. apply in_app_iff in I. cbn in I. destruct I as [I|[<-|[]]]; [now apply X|congruence].
    - intros h. rewrite (fi_freed _ _ V h), in_app_iff. cbn. split; [auto|]. intros [I|[X|[]]]; [auto|discriminate].
  Qed.

  Lemma fac_run_inv fs s tr : FacInv s tr -> FacInv (fst (fac_run uuid name s fs)) (tr ++ snd (fac_run uuid name s fs)).
  Proof.
    revert s tr. induction fs as [|f fs IH]; intros s tr V; cbn; [now rewrite app_nil_r|].
    pose proof (fac_add_inv f s tr V) as V1. destruct (fac_add uuid name f s) as [s1 r]. cbn in V1.
    specialize (IH s1 _ V1). destruct (fac_run uuid name s1 fs) as [s2 t]. cbn in *. now rewrite <- app_assoc in IH.
  Qed.
  Lemma fac_init_inv : FacInv facs_init [].
  Proof.
    constructor; cbn; try tauto; try reflexivity; try constructor.
    - discriminate.
    - intros [[] _].
  Qed.
  Lemma reach_facinv fs : FacInv (fst (fac_run uuid name facs_init fs)) (snd (fac_run uuid name facs_init fs)).
  Proof. exact (fac_run_inv fs _ _ fac_init_inv). Qed.

  Lemma fac_run_objects s fs : map fst (snd (fac_run uuid name s fs)) = fs.
  Proof.
    revert s. induction fs as [|f fs IH]; intros s; cbn; [reflexivity|]. destruct (fac_add uuid name f s) as [s1 r].
    specialize (IH s1). destruct (fac_run uuid name s1 fs) as [s2 t]. cbn in *. now rewrite IH.
  Qed.
End Factories.

Lemma fall_step_spec name o s : forall f,
  is_failed f (fst (fall_step name o s)) = fail_ev f (is_failed f s) (o, snd (fall_step name o s)).
Proof.
  intros f. unfold is_failed. assert (G : forall b g (l : list (Z * bool)), match aget Z.eqb f (aset Z.eqb g b l) with Some b => b | None => false end =
    if g =? f then b else match aget Z.eqb f l with Some b => b | None => false end).
  { intros b g l. destruct (Z.eqb_spec g f) as [->|H].
    - now rewrite (aget_aset_same _ zeqb_ok).
    - rewrite (aget_aset_other _ zeqb_ok) by congruence. reflexivity. }
  destruct o as [g|g|g|g [b|]]; cbn.
  - unfold coll_add. cbn. destruct (is_some _); reflexivity.
  - apply G.
  - apply G.
  - apply G.
  - reflexivity.
Qed.
Lemma fall_run_spec name os s f :
  is_failed f (fst (fall_run name s os)) = fold_left (fail_ev f) (snd (fall_run name s os)) (is_failed f s).
Proof.
  revert s. induction os as [|o os IH]; intros s; cbn; [reflexivity|].
  pose proof (fall_step_spec name o s f) as E. destruct (fall_step name o s) as [s1 r]. cbn in E.
  specialize (IH s1). destruct (fall_run name s1 os) as [s2 t]. cbn in *. now rewrite IH, E.
Qed.
Lemma fall_run_list name os s :
  failures (fst (fall_run name s os)) = failures s ++ reg_failures (snd (fall_run name s os)).
Proof.
  revert s. induction os as [|o os IH]; intros s; cbn; [now rewrite app_nil_r|].
  assert (E : failures (fst (fall_step name o s)) = failures s ++ reg_failures [(o, snd (fall_step name o s))]).
  { destruct o as [g|g|g|g [b|]]; cbn; rewrite ?app_nil_r; try reflexivity.
    unfold coll_add. cbn. destruct (is_some _); cbn; rewrite ?app_nil_r; reflexivity. }
  destruct (fall_step name o s) as [s1 r]. cbn in E.
  specialize (IH s1). destruct (fall_run name s1 os) as [s2 t]. cbn in *. rewrite IH, E. unfold reg_failures. cbn.
  now rewrite app_nil_r, <- app_assoc.
Qed.
Lemma any_failed_ok l s : any_failed l s = true <-> exists f, In f l /\ is_failed f s = true.
Proof.
  induction l as [|f l IH]; cbn; [split; [discriminate|intros (f & [] & _)]|].
  destruct (is_failed f s) eqn:E; [split; eauto|]. rewrite IH. split.
  - intros (g & I & H). eauto.
  - intros (g & [->|I] & H); [congruence|eauto].
Qed.
