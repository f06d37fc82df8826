(** Proofs about Connect of the published dataflow fields. *)
From Coq Require Import ZArith List Bool Lia Arith Relations.
From Verif Require Import Base AnyModel AnySpec HelperModel HelperSpec HelperProofs FlowModel FlowSpec FlowProofs FlowTreeProofs FlowCopyProofs.
Import ListNotations.

Lemma push_simple_ok : forall n w i j,
  i <> j -> kind_of (lc (leafs w i)) (lk (leafs w i)) -> value_of (lc (leafs w i)) (lval (leafs w i)) ->
  lk (leafs w i) = lk (leafs w j) ->
  takes (leafs w j) (lval (leafs w i)) -> lconn (leafs w j) = false ->
  exists w', push_tree (S n) w (TSimple i) (TSimple j) = (w', Ok tt) /\ same_core w w' /\ arrs w' = arrs w /\
    (is_forced w j -> lval (leafs w' j) = lval (leafs w j)) /\
    (~ is_forced w j -> lval (leafs w' j) = lval (leafs w i)) /\
    (forall k, k <> j -> lval (leafs w' k) = lval (leafs w k)).
Proof.
  intros n w i j Nij Ki Vi Ek (Kj & Vj & Dj) Cj. cbn [push_tree].
  rewrite to_any_ok by assumption. unfold set_any, set_any_with. rewrite Ek.
  rewrite from_any_ok by assumption. rewrite (declared_literal _ _ Dj).
  cbn [set_val]. rewrite Cj.
  destruct (lforcible (leafs w j) && lforced (leafs w j)) eqn:B.
  - exists w. split; [reflexivity|]. split; [apply sc_refl|]. split; [reflexivity|].
    split; [reflexivity|]. split; [|reflexivity].
    intros F. exfalso. apply F. now apply blocked_forced.
  - eexists. split; [reflexivity|]. split; [apply sc_leaf_val|].
    split; [reflexivity|]. split; [|split].
    + intros F. apply blocked_forced in F. unfold blocked in F. congruence.
    + intros _. simpl. now rewrite upd_same.
    + intros k N. simpl. now rewrite upd_other.
Qed.

Section Pub.
  Variable n : nat.
  Definition pub_goal (s : tree) : Prop := forall t w,
    alike s t -> (forall x y, parts s t x y -> fits_in w x y) ->
    separate s t -> transferable w s t ->
    exists w', push_tree (S n) w s t = (w', Ok tt) /\ same_core w w' /\ copied w w' s t.

  Lemma list_pub : forall o l, Forall pub_goal l -> forall l' w,
    Forall2 alike l l' ->
    (forall x y, lparts l l' x y -> fits_in w x y) ->
    NoDup (flat_map tids l) -> NoDup (flat_map tids l') ->
    (forall i, In i (flat_map tids l) -> ~ In i (flat_map tids l')) ->
    ltransferable w l l' ->
    exists w', pus_items (S n) o w l l' = (w', Ok tt) /\ same_core w w' /\ lcopied w w' l l'.
  Proof.
    intros o l Hl. induction Hl as [|x l Hx Hl IH]; intros l' w F2 Fi N1 N2 Dis (T1 & T2);
      inversion F2 as [|x0 y l0 r Hxy F2']; subst.
    - exists w. split; [reflexivity|]. split; [apply sc_refl|]. split; [|split].
      + intros i j (a & b & [] & _).
      + intros i j (a & b & [] & _).
      + intros k _. now split.
    - rename r into l'. simpl in N1, N2, Dis.
      apply NoDup_app_parts in N1 as (N1x & N1l & D1). apply NoDup_app_parts in N2 as (N2y & N2l & D2).
      assert (LP : forall u v, parts x y u v -> lparts (x :: l) (y :: l') u v).
      { intros u v P. exists x, y. split; [now left|exact P]. }
      assert (LR : forall u v, lparts l l' u v -> lparts (x :: l) (y :: l') u v).
      { intros u v (a & b & H & P). exists a, b. split; [now right|exact P]. }
      assert (LT : forall u v, lparts l l' u v -> In (tid u) (flat_map tids l) /\ In (tid v) (flat_map tids l')).
      { intros u v (a & b & H & P). apply parts_tids in P as [P1 P2].
        split; apply in_flat_map; [exists a; split; [now apply in_combine_l in H|exact P1]|exists b; split; [now apply in_combine_r in H|exact P2]]. }
      destruct (Hx y w Hxy) as (w1 & C1 & S1 & (V1 & V2 & V3)).
      + intros u v P. apply Fi. now apply LP.
      + split; [exact N1x|]. split; [exact N2y|]. intros i Hi G. apply (Dis i); apply in_or_app; auto.
      + split; [intros i j P; apply T1; now apply LP|intros i j P; apply T2; now apply LP].
      + assert (K1 : forall k, In k (flat_map tids l) \/ In k (flat_map tids l') ->
          lval (leafs w1 k) = lval (leafs w k) /\ avals (arrs w1 k) = avals (arrs w k)).
        { intros k Hk. apply V3. intros G. destruct Hk as [Hk|Hk]; [|now apply (D2 k)].
          apply (Dis k); apply in_or_app; [now right|now left]. }
        destruct (IH l' w1 F2') as (w2 & C2 & S2 & (W1 & W2 & W3)).
        * intros u v P. eapply fits_core; [exact S1|]. apply Fi. now apply LR.
        * exact N1l.
        * exact N2l.
        * intros i Hi G. apply (Dis i); apply in_or_app; auto.
        * split.
          -- intros i j P. destruct (LT _ _ P) as [I1 I2]. simpl in I1, I2.
             destruct (T1 i j (LR _ _ P)) as (A1 & A2 & A3).
             destruct (K1 i (or_introl I1)) as [E _]. rewrite E.
             split; [apply (core_takes _ (leafs w i)); [apply S1|exact A1]|].
             split; [apply (core_takes _ (leafs w j)); [apply S1|exact A2]|].
             rewrite (core_conn _ (leafs w j)); [exact A3|apply S1].
          -- intros i j P. destruct (LT _ _ P) as [I1 I2]. simpl in I1, I2.
             destruct (T2 i j (LR _ _ P)) as (A1 & A2 & A3 & A4).
             destruct (K1 i (or_introl I1)) as [_ E]. rewrite E.
             destruct S1 as (_ & S1 & _).
             rewrite !(acore_ak _ _ (S1 i)), !(acore_ac _ _ (S1 i)), !(acore_ak _ _ (S1 j)), !(acore_ac _ _ (S1 j)). auto.
        * exists w2. simpl. rewrite C1. simpl. split; [exact C2|]. split; [now apply (sc_trans w w1)|].
          assert (K2 : forall k, ~ In k (flat_map tids l') ->
            lval (leafs w2 k) = lval (leafs w1 k) /\ avals (arrs w2 k) = avals (arrs w1 k)) by exact W3.
          split; [|split].
          -- intros i j (a & b & [E|H] & P).
             ++ injection E as <- <-. destruct (parts_tids _ _ _ _ P) as [I1 I2]. simpl in I1, I2.
                destruct (K2 j) as [E _]; [now apply D2|]. rewrite E.
                now apply V1.
             ++ assert (P' : lparts l l' (TSimple i) (TSimple j)) by (exists a, b; auto).
                destruct (LT _ _ P') as [I1 I2]. simpl in I1, I2.
                destruct (W1 i j P') as [G1 G2]. rewrite (core_forced w w1 j S1) in G1, G2.
                destruct (K1 i (or_introl I1)) as [E1 _]. destruct (K1 j (or_intror I2)) as [E2 _].
                rewrite E1 in G2. rewrite E2 in G1. now split.
          -- intros i j (a & b & [E|H] & P).
             ++ injection E as <- <-. destruct (parts_tids _ _ _ _ P) as [I1 I2]. simpl in I1, I2.
                destruct (K2 j) as [_ E]; [now apply D2|]. rewrite E. now apply V2.
             ++ assert (P' : lparts l l' (TSArr i) (TSArr j)) by (exists a, b; auto).
                destruct (LT _ _ P') as [I1 I2]. simpl in I1, I2.
                rewrite (W2 i j P'). apply (K1 i). now left.
          -- intros k Hk. simpl in Hk. destruct (K2 k) as [E1 E2]; [intros G; apply Hk, in_or_app; now right|].
             rewrite E1, E2. apply V3. intros G. apply Hk, in_or_app. now left.
  Qed.

  Lemma tree_pub : forall s, pub_goal s.
  Proof.
    intros s. induction s as [i|i|i df a b l IH|i df a b l IH] using tree_ind2;
      intros t w Al Fi (N1 & N2 & Dis) (T1 & T2); inversion Al; subst.
    - specialize (Fi _ _ (pa_self _ _)). simpl in Fi.
      destruct (T1 i j (pa_self _ _)) as ((K1 & V1 & D1) & A2 & A3).
      assert (Nij : i <> j) by (intros ->; apply (Dis j); now left).
      destruct (push_simple_ok n w i j Nij K1 V1 Fi A2 A3) as (w' & H1 & H2 & H3 & H4 & H5 & H6).
      exists w'. split; [exact H1|]. split; [exact H2|]. split; [|split].
      + intros i0 j0 P. inversion P; subst. now split.
      + intros i0 j0 P. inversion P.
      + intros k Hk. rewrite H3. split; [|reflexivity]. apply H6. intros ->. apply Hk. now left.
    - specialize (Fi _ _ (pa_self _ _)). simpl in Fi.
      destruct (T2 i j (pa_self _ _)) as (A1 & A2 & A3 & A4).
      assert (Nij : i <> j) by (intros ->; apply (Dis j); now left).
      destruct (copy_items_ok (avals (arrs w i)) w i j [] [] (avals (arrs w j)) Nij eq_refl eq_refl eq_refl (eq_sym Fi) A1 A2 A3 A4) as (w' & H1 & H2 & H3 & H4 & H5).
      exists w'. split; [exact H1|]. split; [exact H2|]. split; [|split].
      + intros i0 j0 P. inversion P.
      + intros i0 j0 P. inversion P; subst. exact H4.
      + intros k Hk. rewrite H3. split; [reflexivity|]. rewrite H5; [reflexivity|]. intros ->. apply Hk. now left.
    - rewrite pus_arr. simpl in N1, N2, Dis. inversion N1; inversion N2; subst.
      assert (LP : forall u v, lparts l l' u v -> parts (TArr i df a b l) (TArr j df' a' b' l') u v).
      { intros u v (x & y & H & P). econstructor; eassumption. }
      destruct (list_pub noidx l IH l' w) as (w' & C & S & (V1 & V2 & V3)); try assumption.
      + intros x y P. now apply Fi, LP.
      + intros k Hk G. apply (Dis k); now right.
      + split; [intros u v P; now apply T1, LP|intros u v P; now apply T2, LP].
      + exists w'. split; [exact C|]. split; [exact S|]. split; [|split].
        * intros u v P. inversion P as [|i0 df0 a0 b0 l0 j0 df1 a1 b1 l1 x1 y1 s1 t1 Hxy P1|]; subst. apply V1. now exists x1, y1.
        * intros u v P. inversion P as [|i0 df0 a0 b0 l0 j0 df1 a1 b1 l1 x1 y1 s1 t1 Hxy P1|]; subst. apply V2. now exists x1, y1.
        * intros k Hk. apply V3. intros G. apply Hk. now right.
    - rewrite pus_str. simpl in N1, N2, Dis. inversion N1; inversion N2; subst.
      assert (LP : forall u v, lparts l l' u v -> parts (TStr i df a b l) (TStr j df' a' b' l') u v).
      { intros u v (x & y & H & P). econstructor; eassumption. }
      destruct (list_pub ub l IH l' w) as (w' & C & S & (V1 & V2 & V3)); try assumption.
      + intros x y P. now apply Fi, LP.
      + intros k Hk G. apply (Dis k); now right.
      + split; [intros u v P; now apply T1, LP|intros u v P; now apply T2, LP].
      + exists w'. split; [exact C|]. split; [exact S|]. split; [|split].
        * intros u v P. inversion P as [| |i0 df0 a0 b0 l0 j0 df1 a1 b1 l1 x1 y1 s1 t1 Hxy P1]; subst. apply V1. now exists x1, y1.
        * intros u v P. inversion P as [| |i0 df0 a0 b0 l0 j0 df1 a1 b1 l1 x1 y1 s1 t1 Hxy P1]; subst. apply V2. now exists x1, y1.
        * intros k Hk. apply V3. intros G. apply Hk. now right.
  Qed.
End Pub.

(** Pushing changes no link. *)
Lemma push_tree_quiet : forall n s w t w' r, push_tree n w s t = (w', r) -> quiet w w'.
Proof.
  intros n s. induction s as [i|i|i df a b l IH|i df a b l IH] using tree_ind2; intros w t w' r E;
    destruct t as [j|j|j df' a' b' l'|j df' a' b' l']; try (injection E as <- <-; apply qt_refl).
  - cbn [push_tree] in E. destruct (to_any _ _ _) as [x|e|]; [|injection E as <- <-; apply qt_refl|injection E as <- <-; apply qt_refl].
    apply qt_meta. exact (set_any_meta _ _ _ _ _ _ E).
  - exact (qt_copy_items _ _ _ _ _ _ E).
  - rewrite pus_arr in E. revert w l' E.
    induction IH as [|x l Hx Hl IHl]; intros w [|y l'] E; cbn [pus_items] in E; try (injection E as <- <-; apply qt_refl).
    apply andthen_inv in E. destruct E as [(w1 & E1 & E2)|[E _]]; [exact (qt_trans _ _ _ (Hx _ _ _ _ E1) (IHl _ _ E2))|exact (Hx _ _ _ _ E)].
  - rewrite pus_str in E. revert w l' E.
    induction IH as [|x l Hx Hl IHl]; intros w [|y l'] E; cbn [pus_items] in E; try (injection E as <- <-; apply qt_refl).
    apply andthen_inv in E. destruct E as [(w1 & E1 & E2)|[E _]]; [exact (qt_trans _ _ _ (Hx _ _ _ _ E1) (IHl _ _ E2))|exact (Hx _ _ _ _ E)].
Qed.

Lemma pub_add_links : forall w s j, adds [(tkey s, j)] w (pub_add w s j).
Proof. intros w s j. destruct s; [apply ad_leaf|apply ad_sarr|apply ad_node|apply ad_node]. Qed.

Lemma pub_add_core : forall w s j, same_core w (pub_add w s j) /\
  (forall k, lval (leafs (pub_add w s j) k) = lval (leafs w k)) /\ (forall k, avals (arrs (pub_add w s j) k) = avals (arrs w k)).
Proof.
  intros w s j. destruct s as [i|i|i df a b l|i df a b l]; cbn [pub_add].
  - split; [apply sc_leaf_targets|]. split; [|reflexivity]. intros k. simpl. destruct (Nat.eq_dec k i) as [->|N]; [now rewrite upd_same|now rewrite upd_other].
  - split; [apply sc_arr_targets|]. split; [reflexivity|]. intros k. simpl. destruct (Nat.eq_dec k i) as [->|N]; [now rewrite upd_same|now rewrite upd_other].
  - split; [|split; reflexivity]. repeat split.
  - split; [|split; reflexivity]. repeat split.
Qed.

Lemma pub_accepts : forall n w s t,
  tout w s = true -> tin w t = true -> same_shape (fun _ _ => True) (shape w s) (shape w t) -> ~ linked w s t ->
  separate s t -> transferable w s t ->
  exists w', pub_connect (S n) w s t = (w', Ok tt) /\ copied w w' s t.
Proof.
  intros n w s t O In0 Sh NL (N1 & N2 & Dis) (T1 & T2). unfold pub_connect.
  assert (L : pub_targets w s = links w (tkey s)) by now destruct s. rewrite L. rewrite linked_links in NL.
  rewrite (proj2 (absent_true _ _) NL), O, In0. cbn [negb orb].
  assert (Ne : Nat.eqb (tid t) (tid s) = false).
  { apply Nat.eqb_neq. intros E. apply (Dis (tid s)); [destruct s; now left|rewrite <- E; destruct t; now left]. }
  rewrite Ne, (proj2 (are_equivalent_ok _ _) Sh). cbn [negb orb].
  destruct (pub_add_core w s (tid t)) as (C & V & A). set (w1 := pub_add w s (tid t)) in *.
  destruct (tree_pub n s t w1) as (w' & H1 & H2 & (G1 & G2 & G3)).
  - eapply shape_alike; exact Sh.
  - intros x y P. eapply fits_core; [exact C|]. now apply (shape_fits w s t Sh).
  - now split.
  - destruct C as (C1 & C2 & C3). split; intros i j P.
    + destruct (T1 i j P) as (A1 & A2 & A3). rewrite !V.
      split; [apply (core_takes _ (leafs w i)); [apply C1|exact A1]|].
      split; [apply (core_takes _ (leafs w j)); [apply C1|exact A2]|].
      rewrite (core_conn _ (leafs w j)); [exact A3|apply C1].
    + destruct (T2 i j P) as (A1 & A2 & A3 & A4). rewrite !A.
      rewrite !(acore_ak _ _ (C2 i)), !(acore_ac _ _ (C2 i)), !(acore_ak _ _ (C2 j)), !(acore_ac _ _ (C2 j)). auto.
  - exists w'. split; [exact H1|]. split; [|split].
    + intros i j P. destruct (G1 i j P) as [X Y]. rewrite (core_forced w w1 j C) in X, Y. rewrite !V in *. now split.
    + intros i j P. rewrite (G2 i j P). apply A.
    + intros k Hk. destruct (G3 k Hk) as [X Y]. now rewrite X, Y, V, A.
Qed.

Lemma pub_links : forall n w s t w', pub_connect n w s t = (w', Ok tt) ->
  tout w s = true /\ tin w t = true /\ tid t <> tid s /\ same_shape (fun _ _ => True) (shape w s) (shape w t) /\ ~ linked w s t /\
  forall k, links w' k = links w k ++ (if key_eqb (tkey s) k then [tid t] else []).
Proof.
  intros n w s t w'. unfold pub_connect. assert (L : pub_targets w s = links w (tkey s)) by now destruct s. rewrite L.
  destruct (absent (links w (tkey s)) (tid t)) eqn:Ab; [|discriminate]. cbn [negb].
  destruct (tout w s) eqn:O; [|discriminate]. destruct (tin w t) eqn:In0; [|discriminate].
  destruct (Nat.eqb_spec (tid t) (tid s)) as [|Ne]; [discriminate|].
  destruct (are_equivalent (shape w s) (shape w t)) eqn:Eq; [|discriminate]. cbn [negb orb]. intros E.
  do 3 (split; [assumption||reflexivity|]). split; [now apply are_equivalent_ok|]. split; [rewrite linked_links; now apply absent_true|].
  intros k. destruct (push_tree_quiet _ _ _ _ _ _ E) as [_ Q]. rewrite Q. destruct (pub_add_links w s (tid t)) as [_ A]. rewrite A. now rewrite sel_one.
Qed.

Lemma transferable_core : forall w w' s t, same_core w w' -> (forall k, In k (tids s) -> lval (leafs w' k) = lval (leafs w k) /\ avals (arrs w' k) = avals (arrs w k)) ->
  transferable w s t -> transferable w' s t.
Proof.
  intros w w' s t (C1 & C2 & C3) V (T1 & T2). split; intros i j P; destruct (parts_tids _ _ _ _ P) as [I1 _]; simpl in I1; destruct (V i I1) as [E1 E2].
  - destruct (T1 i j P) as (A1 & A2 & A3). rewrite !E1.
    split; [apply (core_takes _ (leafs w i)); [apply C1|exact A1]|].
    split; [apply (core_takes _ (leafs w j)); [apply C1|exact A2]|].
    rewrite (core_conn _ (leafs w j)); [exact A3|apply C1].
  - destruct (T2 i j P) as (A1 & A2 & A3 & A4). rewrite !E2.
    rewrite !(acore_ak _ _ (C2 i)), !(acore_ac _ _ (C2 i)), !(acore_ak _ _ (C2 j)), !(acore_ac _ _ (C2 j)). auto.
Qed.

(** Every target gets the values. *)
Lemma pub_push_ok : forall n s ts w, NoDup (flat_map tids ts) ->
  (forall t, In t ts -> alike s t /\ (forall x y, parts s t x y -> fits_in w x y) /\ separate s t /\ transferable w s t) ->
  exists w', pub_push (S n) w s ts = (w', Ok tt) /\ same_core w w' /\
    (forall t, In t ts ->
       (forall i j, parts s t (TSimple i) (TSimple j) ->
          (is_forced w j -> lval (leafs w' j) = lval (leafs w j)) /\ (~ is_forced w j -> lval (leafs w' j) = lval (leafs w i))) /\
       (forall i j, parts s t (TSArr i) (TSArr j) -> avals (arrs w' j) = avals (arrs w i))) /\
    (forall k, ~ In k (flat_map tids ts) -> lval (leafs w' k) = lval (leafs w k) /\ avals (arrs w' k) = avals (arrs w k)).
Proof.
  intros n s. induction ts as [|t ts IH]; intros w N H.
  - exists w. split; [reflexivity|]. split; [apply sc_refl|]. split; [intros t []|]. intros k _. now split.
  - cbn [flat_map] in N. apply NoDup_app_parts in N as (N1 & N2 & D). destruct (H t (or_introl eq_refl)) as (Al & Fi & Se & Tr).
    destruct (tree_pub n s t w Al Fi Se Tr) as (w1 & E1 & C1 & (V1 & V2 & V3)).
    assert (KS : forall k, In k (tids s) -> lval (leafs w1 k) = lval (leafs w k) /\ avals (arrs w1 k) = avals (arrs w k)).
    { intros k I. apply V3. destruct Se as (_ & _ & Dis). now apply Dis. }
    destruct (IH w1 N2) as (w2 & E2 & C2 & T2 & O2).
    + intros u Iu. destruct (H u (or_intror Iu)) as (Al' & Fi' & Se' & Tr'). split; [assumption|]. split; [|split].
      * intros x y P. eapply fits_core; [exact C1|]. now apply Fi'.
      * assumption.
      * now apply (transferable_core w w1).
    + exists w2. cbn [pub_push]. rewrite E1. cbn [andthen]. split; [exact E2|]. split; [now apply (sc_trans w w1)|]. split.
      * intros u [<-|Iu].
        -- assert (K2 : forall k, In k (tids t) -> lval (leafs w2 k) = lval (leafs w1 k) /\ avals (arrs w2 k) = avals (arrs w1 k)).
           { intros k I. apply O2. now apply D. }
           split; intros i j P; destruct (parts_tids _ _ _ _ P) as [_ I2]; simpl in I2; destruct (K2 j I2) as [A B].
           ++ rewrite A. now apply V1.
           ++ rewrite B. now apply V2.
        -- destruct (T2 u Iu) as [X Y]. destruct (H u (or_intror Iu)) as (_ & _ & Se' & _).
           split; intros i j P; destruct (parts_tids _ _ _ _ P) as [I1 I2]; simpl in I1, I2; destruct (KS i I1) as [A B].
           ++ destruct (X i j P) as [X1 X2]. rewrite (core_forced w w1 j C1) in X1, X2. rewrite A in X2. split; [|assumption].
              intros F. rewrite (X1 F). apply V3. intros G. apply (D j G). apply in_flat_map. now exists u.
           ++ rewrite (Y i j P). exact B.
      * intros k Hk. destruct (O2 k) as [A B]; [intros G; apply Hk, in_or_app; now right|]. rewrite A, B. apply V3.
        intros G. apply Hk, in_or_app. now left.
Qed.
