(** The parameters of a request for nested types. *)
From Coq Require Import ZArith List Bool Lia.
From Verif Require Import Base UuidModel UuidProofs Assoc HelperModel PathModel.
From Verif Require Import AnyModel AnySpec AnyProofs FlowModel TypeModel ReqModel ReqSpec ReqProofs.
Import ListNotations.
Local Open Scope Z_scope.
Arguments cast : simpl never.

Definition add_all (l : list (list Z * Z)) (q : request) : request :=
  fold_left (fun q e => add_value (fst e) (snd e) q) l q.

Lemma add_all_app : forall a b q, add_all (a ++ b) q = add_all b (add_all a q).
Proof. intros. unfold add_all. apply fold_left_app. Qed.

Lemma items_parts : forall (P : list Z -> list (list Z * Z) -> Prop) f nm,
  (forall s q q', f s q = Ok q' -> exists l, P s l /\ q' = add_all l q) ->
  forall k i q q', init_items f nm k i q = Ok q' ->
  exists ls, length ls = k /\ (forall j l, nth_error ls j = Some l -> P (nm ++ item_name (i + j)) l) /\
    q' = add_all (concat ls) q.
Proof.
  intros P f nm H. induction k as [|k IH]; intros i q q' E; cbn in E.
  - injection E as <-. exists []. repeat split. intros [|j] l X; discriminate.
  - destruct (f (nm ++ item_name i) q) as [q1|e|] eqn:F; cbn in E; try discriminate.
    apply H in F as (l & Pl & ->). apply IH in E as (ls & L & A & ->).
    exists (l :: ls). split; [cbn; lia|]. split.
    + intros [|j] x X; cbn in X.
      * injection X as <-. now rewrite Nat.add_0_r.
      * apply A in X. now replace (i + S j)%nat with (S i + j)%nat by lia.
    + cbn. now rewrite add_all_app.
Qed.

Lemma fields_parts : forall (P : list Z -> Z -> list (list Z * Z) -> Prop) f r nm,
  (forall s u q q', f s u q = Ok q' -> exists l, P s u l /\ q' = add_all l q) ->
  forall fs q q', init_fields f r nm fs q = Ok q' ->
  exists ls, Forall2 (fun x l => P (nm ++ 46 :: sf_name x) (sf_type x) l) fs ls /\ q' = add_all (concat ls) q.
Proof.
  intros P f r nm H. induction fs as [|x fs IH]; intros q q' E; cbn in E.
  - injection E as <-. exists []. split; [constructor|reflexivity].
  - destruct (get_type r (sf_type x)); [|discriminate].
    destruct (f (nm ++ 46 :: sf_name x) (sf_type x) q) as [q1|e|] eqn:F; cbn in E; try discriminate.
    apply H in F as (l & Pl & ->). apply IH in E as (ls & A & ->).
    exists (l :: ls). split; [constructor; assumption|]. cbn. now rewrite add_all_app.
Qed.

Lemma init_parts : forall n r nm u q q', rq_init n r nm u q = Ok q' ->
  exists l, parts r nm u l /\ q' = add_all l q.
Proof.
  induction n as [|n IH]; intros r nm u q q' E; cbn in E; [discriminate|].
  destruct (get_type r u) as [[m d]|] eqn:G; [|discriminate].
  destruct (is_none (ty_kind (Ty m d))) eqn:K; cbn in E.
  - destruct d; try discriminate.
    + apply (items_parts (fun s l => parts r s item l)) in E as (ls & L & A & ->).
      * exists (concat ls). split; [|reflexivity]. eapply pt_array; eauto.
      * intros s q1 q2. apply IH.
    + apply (fields_parts (parts r)) in E as (ls & A & ->).
      * exists (concat ls). split; [|reflexivity]. eapply pt_struct; eauto.
      * intros s v q1 q2. apply IH.
    + apply (fields_parts (parts r)) in E as (ls & A & ->).
      * exists (concat ls). split; [|reflexivity]. eapply pt_struct; eauto.
      * intros s v q1 q2. apply IH.
  - injection E as <-. exists [(nm, u)]. split; [|reflexivity]. eapply pt_simple; [eassumption|].
    intros X. apply is_none_iff in X. congruence.
Qed.

Lemma params_parts : forall n r ps q q', rq_params n r ps q = Ok q' ->
  exists ls, Forall2 (fun p l => parts r (p_name p) (p_type p) l) ps ls /\ q' = add_all (concat ls) q.
Proof.
  intros n r. induction ps as [|p ps IH]; intros q q' E; cbn in E.
  - injection E as <-. exists []. split; [constructor|reflexivity].
  - destruct (rq_init n r (p_name p) (p_type p) q) as [q1|e|] eqn:F; cbn in E; try discriminate.
    apply init_parts in F as (l & Pl & ->). apply IH in E as (ls & A & ->).
    exists (l :: ls). split; [constructor; assumption|]. cbn. now rewrite add_all_app.
Qed.

Lemma add_all_vals : forall l q, rvals (add_all l q) = rvals q ++ map (fun e => (any_new KNone, snd e)) l.
Proof.
  induction l as [|e l IH]; intros q; cbn; [now rewrite app_nil_r|]. unfold add_all in IH. rewrite IH. cbn.
  now rewrite <- app_assoc.
Qed.

Lemma add_all_idx : forall l done q, ridx q = number 0 done -> NoDup (done ++ map fst l) ->
  Z.of_nat (length (done ++ map fst l)) < limit ->
  ridx (add_all l q) = number 0 (done ++ map fst l).
Proof.
  induction l as [|[s u] l IH]; intros done q X N L; cbn [map fst] in *.
  - rewrite app_nil_r. exact X.
  - change (add_all ((s, u) :: l) q) with (add_all l (add_value s u q)).
    replace (done ++ s :: map fst l) with ((done ++ [s]) ++ map fst l) in * by (rewrite <- app_assoc; reflexivity).
    apply IH; try assumption. unfold add_value. cbn [ridx]. rewrite X. unfold atry.
    replace (aget list_eqb s (number 0 done)) with (@None Z).
    2: { symmetry. apply (aget_None list_eqb leq). unfold akeys. rewrite number_keys. rewrite <- app_assoc in N.
         apply NoDup_remove_2 in N. intros I. apply N. apply in_or_app. now left. }
    rewrite number_snoc, number_length. do 3 f_equal. apply cast_id.
    rewrite app_length in L. rewrite app_length in L. cbn [length] in L. change limit with 2147483648 in L.
    unfold of_type. cbn. lia.
Qed.
