(** Proofs about Component::RemoveLinks. *)
From Coq Require Import ZArith List Bool Lia.
From Verif Require Import Base HelperModel HelperSpec HelperProofs CollModel SinkModel FlowModel FlowSpec FlowProofs FlowTreeProofs
  UnlinkModel UnlinkSpec.
Import ListNotations.
Local Open Scope nat_scope.

(** * Lists *)
Lemma pruned_fun : forall A (P : A -> Prop) l m m', pruned P l m -> pruned P l m' -> m = m'.
Proof.
  intros A P l m m' H. revert m'. induction H; intros m' G; inversion G; subst; try contradiction; auto.
  f_equal. auto.
Qed.
Lemma pruned_ex : forall A (P : A -> Prop), (forall j, P j \/ ~ P j) -> forall l, exists m, pruned P l m.
Proof.
  intros A P D l. induction l as [|j l (m & IH)]; [exists []; constructor|].
  destruct (D j); [exists m|exists (j :: m)]; now constructor.
Qed.
Lemma pruned_remove : forall (P : nat -> Prop), (forall j, P j \/ ~ P j) -> forall j, P j -> forall l m,
  pruned P l m -> pruned P (remove_first j l) m.
Proof.
  intros P D j Pj l m H. induction H; simpl; [constructor|..].
  - destruct (Nat.eqb_spec j0 j); [assumption|now constructor].
  - destruct (Nat.eqb_spec j0 j); [congruence|now constructor].
Qed.
Lemma remove_first_sub : forall j l x, In x (remove_first j l) -> In x l.
Proof.
  intros j l. induction l as [|y l IH]; simpl; [auto|]. intros x. destruct (Nat.eqb y j); simpl; [auto|].
  intros [|]; auto.
Qed.
Lemma remove_first_nodup : forall j l, NoDup l -> NoDup (remove_first j l).
Proof.
  intros j l H. induction H as [|y l N H IH]; simpl; [constructor|]. destruct (Nat.eqb y j); [assumption|].
  constructor; [|assumption]. intros I. now apply remove_first_sub in I.
Qed.
Lemma remove_first_mid : forall j a b, ~ In j a -> remove_first j (a ++ j :: b) = a ++ b.
Proof.
  intros j a b. induction a as [|x a IH]; intros N; simpl; [now rewrite Nat.eqb_refl|].
  destruct (Nat.eqb_spec x j) as [->|E]; [exfalso; apply N; now left|]. f_equal. apply IH. intros G. apply N. now right.
Qed.
Lemma skipping_apart : forall A (P : A -> Prop) l l', skipping P l l' -> apart P l -> pruned P l l'.
Proof.
  intros A P l l' H. induction H as [|j H|j k l l' H Hs IH|j l l' H Hs IH]; intros Ap.
  - constructor.
  - constructor; [assumption|constructor].
  - assert (N : ~ P k) by (intros N; now apply (Ap [] j k l eq_refl)).
    constructor; [assumption|]. constructor; [assumption|]. apply IH.
    intros a x y b E. apply (Ap (j :: k :: a) x y b). now rewrite E.
  - constructor; [assumption|]. apply IH. intros a x y b E. apply (Ap (j :: a) x y b). now rewrite E.
Qed.
Lemma pruned_filter : forall A (P : A -> Prop) (p : A -> bool),
  (forall x, p x = true -> ~ P x) -> (forall x, p x = false -> P x) -> forall l, pruned P l (filter p l).
Proof.
  intros A P p H G l. induction l as [|x l IH]; simpl; [constructor|]. destruct (p x) eqn:E.
  - constructor 3; [now apply H|assumption].
  - constructor 2; [now apply G|assumption].
Qed.
Lemma loses_refl : forall A (P : A -> Prop), (forall j, P j \/ ~ P j) -> forall l, only_loses P l l.
Proof. intros A P D l. split; [|auto]. destruct (pruned_ex A P D l) as (m & H). exists m. now split. Qed.

(** * What a removal changes *)
Section Steps.
  Variable P : nat -> Prop.
  Hypothesis D : forall j, P j \/ ~ P j.

  Definition rm (l : list nat) (xs : list nat) : list nat := fold_left (fun l j => remove_first j l) xs l.
  Definition steps (ids : list nat) (w w' : world) : Prop :=
    (forall x, extension w' x = extension w x) /\ same_values w w' /\
    forall k, exists xs, (xs <> [] -> In (snd k) ids) /\ (forall x, In x xs -> P x) /\ links w' k = rm (links w k) xs.

  Lemma steps_refl : forall ids w, steps ids w w.
  Proof.
    intros ids w. split; [reflexivity|]. split; [apply sv_refl|]. intros k. exists []. split; [congruence|].
    split; [intros x []|reflexivity].
  Qed.
  Lemma steps_trans : forall ids a b c, steps ids a b -> steps ids b c -> steps ids a c.
  Proof.
    intros ids a b c (E1 & V1 & L1) (E2 & V2 & L2). split; [intros x; now rewrite E2|].
    split; [now apply (sv_trans a b)|]. intros k.
    destruct (L1 k) as (xs & I1 & P1 & Q1). destruct (L2 k) as (ys & I2 & P2 & Q2). exists (xs ++ ys). split; [|split].
    - intros N. destruct xs as [|x xs]; [apply I2, N|apply I1; discriminate].
    - intros x Hx. apply in_app_or in Hx as [Hx|Hx]; auto.
    - unfold rm in *. now rewrite fold_left_app, <- Q1.
  Qed.
  Lemma steps_weaken : forall ids ids' a b, steps ids a b -> (forall i, In i ids -> In i ids') -> steps ids' a b.
  Proof.
    intros ids ids' a b (E & V & L) I. split; [exact E|]. split; [exact V|]. intros k.
    destruct (L k) as (xs & I1 & R). exists xs. split; auto.
  Qed.
  Lemma steps_cut : forall i c j w w', (forall x, extension w' x = extension w x) ->
    cut [((c, i), j)] w w' -> P j -> steps [i] w w'.
  Proof.
    intros i c j w w' E (_ & V & L) Pj. split; [exact E|]. split; [exact V|]. intros k. rewrite L, sel_one.
    destruct (key_eqb (c, i) k) eqn:K.
    - exists [j]. split; [|split; [|reflexivity]].
      + intros _. apply key_eqb_eq in K. subst k. now left.
      + intros x [<-|[]]. exact Pj.
    - exists []. split; [congruence|]. split; [intros x []|reflexivity].
  Qed.
  Lemma steps_leaf : forall w i j, P j ->
    steps [i] w (set_leaf w i (with_targets (leafs w i) (remove_first j (ltargets (leafs w i))))).
  Proof.
    intros w i j Pj. eapply steps_cut; [|apply cut_leaf|exact Pj]. intros [k|k|? ? ? ? ?|? ? ? ? ?]; simpl; try reflexivity.
    destruct (Nat.eq_dec k i) as [->|N]; [now rewrite upd_same|now rewrite upd_other].
  Qed.
  Lemma steps_sarr : forall w i j, P j ->
    steps [i] w (set_arr w i (with_atargets (arrs w i) (remove_first j (atargets (arrs w i))))).
  Proof.
    intros w i j Pj. eapply steps_cut; [|apply cut_sarr|exact Pj]. intros [k|k|? ? ? ? ?|? ? ? ? ?]; simpl; try reflexivity.
    destruct (Nat.eq_dec k i) as [->|N]; [now rewrite upd_same|now rewrite upd_other].
  Qed.
  Lemma steps_node : forall w i j, P j -> steps [i] w (set_nconn w i (remove_first j (nconn w i))).
  Proof. intros w i j Pj. eapply steps_cut; [|apply cut_node|exact Pj]. intros [k|k|? ? ? ? ?|? ? ? ? ?]; reflexivity. Qed.

  Lemma disconnect_steps : forall s t w, (forall j, In j (tids t) -> P j) -> steps (tids s) w (disconnect w s t).
  Proof.
    assert (Items : forall l, Forall (fun s => forall t w, (forall j, In j (tids t) -> P j) ->
        steps (tids s) w (disconnect w s t)) l ->
      forall l' w, (forall j, In j (flat_map tids l') -> P j) -> steps (flat_map tids l) w (dis_items w l l')).
    { intros l H. induction H as [|x l Hx Hl IH]; intros l' w Q; simpl; [apply steps_refl|].
      destruct l' as [|y l']; [apply steps_refl|]. simpl in Q. apply steps_trans with (disconnect w x y).
      - eapply steps_weaken; [apply Hx|intros i Hi; apply in_or_app; now left].
        intros j Hj. apply Q, in_or_app. now left.
      - eapply steps_weaken; [apply IH|intros i Hi; apply in_or_app; now right].
        intros j Hj. apply Q, in_or_app. now right. }
    intros s. induction s as [i|i|i df a b l IH|i df a b l IH] using tree_ind2; intros t w Q.
    - simpl. destruct t; try apply steps_refl. destruct (lconn _); [|apply steps_refl]. apply steps_leaf. apply Q. now left.
    - simpl. destruct t; try apply steps_refl. destruct (aconn _); [|apply steps_refl]. apply steps_sarr. apply Q. now left.
    - destruct t as [| |j df' a' b' l'|]; try apply steps_refl. rewrite dis_arr.
      destruct (_ && _); [apply steps_refl|]. simpl in Q. eapply steps_trans.
      + instantiate (1 := if df then set_nconn w i (remove_first j (nconn w i)) else w).
        destruct df; [|apply steps_refl]. eapply steps_weaken; [apply steps_node; auto|]. intros k [<-|[]]. now left.
      + eapply steps_weaken; [apply Items; [exact IH|auto]|]. intros k Hk. now right.
    - destruct t as [| | |j df' a' b' l']; try apply steps_refl. rewrite dis_str.
      destruct (_ && _); [apply steps_refl|]. simpl in Q. eapply steps_trans.
      + instantiate (1 := if df then set_nconn w i (remove_first j (nconn w i)) else w).
        destruct df; [|apply steps_refl]. eapply steps_weaken; [apply steps_node; auto|]. intros k [<-|[]]. now left.
      + eapply steps_weaken; [apply Items; [exact IH|auto]|]. intros k Hk. now right.
  Qed.

  Lemma inputs_links : forall w s, inputs w s = links w (tkey s).
  Proof. intros w s. destruct s; reflexivity. Qed.
  Lemma tkey_tid : forall s, snd (tkey s) = tid s.
  Proof. intros s. destruct s; reflexivity. Qed.
  Lemma tid_tids : forall s, In (tid s) (tids s).
  Proof. intros s. destruct s; now left. Qed.

  Lemma steps_other : forall ids w w' s, steps ids w w' -> ~ In (tid s) ids -> inputs w' s = inputs w s.
  Proof.
    intros ids w w' s (_ & _ & L) N. rewrite !inputs_links. destruct (L (tkey s)) as (xs & I & _ & ->).
    destruct xs as [|x xs]; [reflexivity|]. rewrite tkey_tid in I. exfalso. apply N, I. discriminate.
  Qed.

  Lemma rm_loses : forall xs, (forall x, In x xs -> P x) -> forall l, only_loses P l (rm l xs).
  Proof.
    unfold rm. intros xs. induction xs as [|x xs IH]; intros Q l; simpl; [now apply loses_refl|].
    assert (Qx : P x) by (apply Q; now left).
    destruct (IH (fun y Hy => Q y (or_intror Hy)) (remove_first x l)) as ((m & H & G) & I).
    split; [|intros j Hj; apply I in Hj; now apply remove_first_sub in Hj].
    destruct (pruned_ex _ P D l) as (m' & H'). exists m'. split; [exact H'|].
    now rewrite (pruned_fun _ _ _ _ _ (pruned_remove P D x Qx l m' H') H).
  Qed.
  Lemma steps_kept : forall ids w w', steps ids w w' -> others_kept P w w'.
  Proof.
    intros ids w w' (_ & _ & L). split; [|split]; intros i.
    - destruct (L (XL, i)) as (xs & _ & Q & E). unfold links in E; simpl in E. rewrite E. now apply rm_loses.
    - destruct (L (XA, i)) as (xs & _ & Q & E). unfold links in E; simpl in E. rewrite E. now apply rm_loses.
    - destruct (L (XN, i)) as (xs & _ & Q & E). unfold links in E; simpl in E. rewrite E. now apply rm_loses.
  Qed.
End Steps.

Lemma disconnect_own : forall w s t, NoDup (tids s) -> extension w s = true -> same_sort s t ->
  In (tid t) (inputs w s) -> inputs (disconnect w s t) s = remove_first (tid t) (inputs w s).
Proof.
  intros w s t ND X S I. destruct s as [i|i|i df a b l|i df a b l], t as [j|j|j df' a' b' l'|j df' a' b' l']; try contradiction.
  - simpl in *. apply andb_prop in X as [-> _]. simpl. now rewrite upd_same.
  - simpl in *. apply andb_prop in X as [-> _]. simpl. now rewrite upd_same.
  - simpl in X, I. subst df. rewrite dis_arr. rewrite absent_false by assumption. cbn [andb].
    set (w1 := set_nconn w i (remove_first j (nconn w i))).
    assert (E : inputs w1 (TArr i true a b l) = remove_first j (nconn w i)) by (simpl; now rewrite upd_same).
    change (tid (TArr j df' a' b' l')) with j. change (inputs w (TArr i true a b l)) with (nconn w i). rewrite <- E.
    apply steps_other with (P := fun _ => True) (ids := flat_map tids l).
    + clearbody w1. clear. revert l' w1. induction l as [|x l IH]; intros l' w; simpl; [apply steps_refl|].
      destruct l' as [|y l']; [apply steps_refl|]. apply steps_trans with (disconnect w x y).
      * eapply steps_weaken; [now apply disconnect_steps|intros k Hk; apply in_or_app; now left].
      * eapply steps_weaken; [apply IH|intros k Hk; apply in_or_app; now right].
    + simpl. now inversion ND.
  - simpl in X, I. subst df. rewrite dis_str. rewrite absent_false by assumption. cbn [andb].
    set (w1 := set_nconn w i (remove_first j (nconn w i))).
    assert (E : inputs w1 (TStr i true a b l) = remove_first j (nconn w i)) by (simpl; now rewrite upd_same).
    change (tid (TStr j df' a' b' l')) with j. change (inputs w (TStr i true a b l)) with (nconn w i). rewrite <- E.
    apply steps_other with (P := fun _ => True) (ids := flat_map tids l).
    + clearbody w1. clear. revert l' w1. induction l as [|x l IH]; intros l' w; simpl; [apply steps_refl|].
      destruct l' as [|y l']; [apply steps_refl|]. apply steps_trans with (disconnect w x y).
      * eapply steps_weaken; [now apply disconnect_steps|intros k Hk; apply in_or_app; now left].
      * eapply steps_weaken; [apply IH|intros k Hk; apply in_or_app; now right].
    + simpl. now inversion ND.
Qed.

(** * The walk over the fields *)
Section Walk.
  Variables (parent : obj -> option obj) (turns : nat) (field_at : nat -> tree) (target : Z) (rank : obj -> nat).
  Hypothesis Rank : forall o p, parent o = Some p -> rank p < rank o.
  Hypothesis Turns : forall o, rank o < turns.
  Hypothesis At : forall j, tid (field_at j) = j /\ parented parent (field_at j).

  Definition own (j : nat) : Prop := ancestor_or_self parent (OComp target) (OField j).

  Lemma obj_eqb_ok : forall a b, obj_eqb a b = true <-> a = b.
  Proof.
    intros [i|c] [j|d]; simpl; try (split; discriminate).
    - rewrite Nat.eqb_eq. split; [now intros ->|now injection 1].
    - rewrite Z.eqb_eq. split; [now intros ->|now injection 1].
  Qed.
  Lemma inside_own : forall j, inside parent turns target j = true <-> own j.
  Proof.
    intros j. unfold inside.
    destruct (is_ancestor obj_eqb parent turns (Some (OComp target)) (Some (OField j))) as [b|] eqn:E.
    - exact (is_ancestor_sound obj_eqb obj_eqb_ok parent turns _ _ _ E).
    - exfalso. revert E. now apply (is_ancestor_ends obj_eqb parent rank).
  Qed.
  Lemma own_dec : forall j, own j \/ ~ own j.
  Proof.
    intros j. destruct (inside parent turns target j) eqn:E; [left; now apply inside_own|].
    right. intros H. apply inside_own in H. congruence.
  Qed.
  Lemma own_tids : forall t, parented parent t -> own (tid t) -> forall j, In j (tids t) -> own j.
  Proof.
    intros t. induction t as [i|i|i df a b l IH|i df a b l IH] using tree_ind2; intros Pt O j H;
      try (destruct H as [<-|[]]; exact O);
      (destruct H as [<-|H]; [exact O|]; apply in_flat_map in H as (x & Hx & H);
       inversion Pt as [| |? ? ? ? ? Hp|? ? ? ? ? Hp]; subst; destruct (Hp x Hx) as (Ep & Px);
       rewrite Forall_forall in IH; apply (IH x Hx Px); [|exact H]; eapply aos_up; [exact Ep|exact O]).
  Qed.

  Local Notation uin := (unlink_inputs parent turns field_at target).
  Local Notation ufi := (unlink_field parent turns field_at target).

  Lemma unlink_inputs_steps : forall n k w s, steps own (tids s) w (uin n k w s).
  Proof.
    intros n. induction n as [|n IH]; intros k w s; simpl; [apply steps_refl|].
    eapply steps_trans; [|apply IH]. destruct (nth_error (inputs w s) k) as [j|]; [|apply steps_refl].
    destruct (inside parent turns target j) eqn:E; [|apply steps_refl]. apply disconnect_steps.
    destruct (At j) as (Ej & Pj). apply own_tids; [exact Pj|]. rewrite Ej. now apply inside_own.
  Qed.

  Lemma unlink_inputs_own : forall s, NoDup (tids s) -> forall n w a b, extension w s = true ->
    inputs w s = a ++ b -> NoDup (a ++ b) -> (forall j, In j (a ++ b) -> same_sort s (field_at j)) -> length b <= n ->
    exists b', inputs (uin n (length a) w s) s = a ++ b' /\ skipping own b b'.
  Proof.
    intros s NDs n. induction n as [|n IH]; intros w a b X E ND S L; simpl.
    - destruct b; [|simpl in L; lia]. exists []. split; [exact E|constructor].
    - rewrite E. destruct b as [|j b].
      + rewrite nth_error_app2, Nat.sub_diag by lia. simpl.
        exists []. split; [|constructor].
        assert (G : forall n k w, inputs w s = a -> length a <= k -> inputs (uin n k w s) s = a).
        { clear. intros n. induction n as [|n IH]; intros k w E L; simpl; [exact E|]. rewrite E.
          rewrite (proj2 (nth_error_None a k) L). apply IH; [exact E|lia]. }
        rewrite app_nil_r in *. apply G; [exact E|lia].
      + rewrite nth_error_app2, Nat.sub_diag by lia. simpl.
        destruct (inside parent turns target j) eqn:In_.
        * destruct (At j) as (Ej & _).
          assert (E1 : inputs (disconnect w s (field_at j)) s = a ++ b).
          { rewrite disconnect_own; [|exact NDs|exact X|apply S, in_elt|rewrite Ej, E; apply in_elt].
            rewrite Ej, E. apply remove_first_mid. apply NoDup_app_parts in ND as (_ & _ & Dis).
            intros G. apply (Dis j G). now left. }
          assert (X1 : extension (disconnect w s (field_at j)) s = true).
          { destruct (disconnect_steps (fun _ => True) s (field_at j) w) as (Ex & _); [auto|]. now rewrite Ex. }
          apply NoDup_remove in ND as (ND & _).
          apply inside_own in In_. destruct b as [|y b].
          -- exists []. split; [|now constructor].
             assert (G : forall n k w, inputs w s = a -> length a <= k -> inputs (uin n k w s) s = a).
             { clear. intros n. induction n as [|n IH]; intros k w E L; simpl; [exact E|]. rewrite E.
               rewrite (proj2 (nth_error_None a k) L). apply IH; [exact E|lia]. }
             rewrite app_nil_r in *. apply G; [exact E1|lia].
          -- change (y :: b) with ([y] ++ b) in E1, ND. rewrite app_assoc in E1, ND.
             destruct (IH _ (a ++ [y]) b X1 E1 ND) as (b' & Eb & Sk).
             { intros x Hx. apply S. rewrite <- app_assoc in Hx. apply in_app_or in Hx as [Hx|Hx]; apply in_or_app; [now left|].
               right. now right. }
             { simpl in L. lia. }
             rewrite app_length, Nat.add_1_r in Eb. exists (y :: b'). split; [|now constructor].
             rewrite Eb, <- app_assoc. reflexivity.
        * change (j :: b) with ([j] ++ b) in E, ND. rewrite app_assoc in E, ND.
          destruct (IH w (a ++ [j]) b X E ND) as (b' & Eb & Sk).
          { intros x Hx. apply S. now rewrite <- app_assoc in Hx. }
          { simpl in L. lia. }
          rewrite app_length, Nat.add_1_r in Eb. exists (j :: b'). split; [rewrite Eb, <- app_assoc; reflexivity|].
          constructor; [|exact Sk]. intros H. apply inside_own in H. congruence.
  Qed.

  Lemma unlink_field_eq : forall w s, ufi w s =
    if extension w s then uin (length (inputs w s)) 0 w s
    else match s with TStr _ _ _ _ l | TArr _ _ _ _ l => fold_left ufi l w | _ => w end.
  Proof.
    assert (F : forall l w, (fix subs (w : world) (l : list tree) : world :=
             match l with [] => w | x :: r => subs (ufi w x) r end) w l = fold_left ufi l w).
    { intros l. induction l as [|x l IH]; intros w; [reflexivity|]. simpl. apply IH. }
    intros w s. destruct s as [i|i|i df a b l|i df a b l]; try reflexivity.
    - simpl. destruct df; [reflexivity|]. apply F.
    - simpl. destruct df; [reflexivity|]. apply F.
  Qed.

  Lemma fold_steps : forall l, Forall (fun s => forall w, steps own (tids s) w (ufi w s)) l ->
    forall w, steps own (flat_map tids l) w (fold_left ufi l w).
  Proof.
    intros l H. induction H as [|x l Hx Hl IH]; intros w; simpl; [apply steps_refl|]. eapply steps_trans.
    - eapply steps_weaken; [apply Hx|intros k Hk; apply in_or_app; now left].
    - eapply steps_weaken; [apply IH|intros k Hk; apply in_or_app; now right].
  Qed.
  Lemma unlink_field_steps : forall s w, steps own (tids s) w (ufi w s).
  Proof.
    intros s. induction s as [i|i|i df a b l IH|i df a b l IH] using tree_ind2; intros w; rewrite unlink_field_eq;
      destruct (extension w _); try apply unlink_inputs_steps; try apply steps_refl;
      (eapply steps_weaken; [now apply fold_steps|intros k Hk; now right]).
  Qed.

  Lemma outermost_steps : forall ids w w' s x, steps own ids w w' -> outermost w s x -> outermost w' s x.
  Proof.
    intros ids w w' s x (E & _) H. induction H as [s X| |]; [constructor; now rewrite E|econstructor; eassumption|econstructor; eassumption].
  Qed.
  Lemma outermost_in : forall w s x, outermost w s x -> In (tid x) (tids s).
  Proof.
    intros w s x H. induction H; [apply tid_tids|right; apply in_flat_map; eauto|right; apply in_flat_map; eauto].
  Qed.

  Definition handled (w : world) (x : tree) (w' : world) : Prop :=
    NoDup (inputs w x) -> (forall j, In j (inputs w x) -> same_sort x (field_at j)) ->
    skipping own (inputs w x) (inputs w' x).

  Lemma fold_handled : forall l, Forall (fun s => forall w x, NoDup (tids s) -> outermost w s x -> handled w x (ufi w s)) l ->
    forall w s x, NoDup (flat_map tids l) -> In s l -> outermost w s x -> handled w x (fold_left ufi l w).
  Proof.
    intros l H. induction H as [|y l Hy Hl IH]; intros w s x ND Hs O; [destruct Hs|].
    simpl in ND. apply NoDup_app_parts in ND as (ND1 & ND2 & Dis). simpl.
    pose proof (unlink_field_steps y w) as St. destruct Hs as [->|Hs].
    - intros N S. pose proof (Hy w x ND1 O N S) as G.
      assert (St2 : steps own (flat_map tids l) (ufi w s) (fold_left ufi l (ufi w s))).
      { apply fold_steps. apply Forall_forall. intros; apply unlink_field_steps. }
      rewrite (steps_other _ _ _ _ x St2); [exact G|]. apply Dis. now apply outermost_in in O.
    - pose proof (outermost_steps _ _ _ _ _ St O) as O'. pose proof (IH _ s x ND2 Hs O') as G.
      unfold handled in *. rewrite (steps_other _ _ _ _ x St) in G; [exact G|].
      intros I. apply (Dis _ I). apply in_flat_map. exists s. split; [exact Hs|now apply outermost_in in O].
  Qed.

  Lemma unlink_field_handled : forall s w x, NoDup (tids s) -> outermost w s x -> handled w x (ufi w s).
  Proof.
    assert (Self : forall s w, NoDup (tids s) -> extension w s = true -> handled w s (ufi w s)).
    { intros s w ND X N S. rewrite unlink_field_eq, X.
      destruct (unlink_inputs_own s ND (length (inputs w s)) w [] (inputs w s) X eq_refl N S (le_n _)) as (b' & E & Sk).
      simpl in E. now rewrite E. }
    intros s. induction s as [i|i|i df a b l IH|i df a b l IH] using tree_ind2; intros w x ND O; inversion O; subst;
      try (now apply Self);
      rewrite unlink_field_eq; simpl; apply NoDup_cons_iff in ND as (_ & ND);
      (eapply fold_handled; [|exact ND|eassumption|eassumption]);
      eapply Forall_impl; [|exact IH| |exact IH]; cbv beta; auto.
  Qed.

  Lemma remove_links_steps : forall sp c w,
    steps own (flat_map tids (c_fields c)) w (snd (remove_links parent turns field_at sp target c w)).
  Proof. intros sp c w. simpl. apply fold_steps. apply Forall_forall. intros. apply unlink_field_steps. Qed.
  Lemma remove_links_handled : forall sp c w f x, NoDup (flat_map tids (c_fields c)) -> In f (c_fields c) ->
    outermost w f x -> handled w x (snd (remove_links parent turns field_at sp target c w)).
  Proof.
    intros sp c w f x ND I O. simpl. eapply fold_handled; [|exact ND|exact I|exact O].
    apply Forall_forall. intros s _ w0 x0. apply unlink_field_handled.
  Qed.
End Walk.
